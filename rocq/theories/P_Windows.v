(** Properties of windows and of the binned transmission and quantum efficiency. *)
From Verif Require Import Base XR M_Signal M_Optics M_Light M_Bins S_Signal S_Optics S_Light S_Bins L_Signal L_Optics L_Light L_Bins P_Bins.
From Coq Require Import Sorted Permutation.
Open Scope list_scope.
Open Scope R_scope.

(** ** C36: windows *)
Lemma spectral_widths_tiling x delta bins : forall a c, tiling a bins c ->
  spectral_widths x delta (map left_edge bins ++ [c]) = map (fun b => Rabs (x (right_edge b) - x (left_edge b)) / delta) bins.
Proof.
  induction bins as [|b l IH]; intros a c H; [reflexivity|]. inversion H; subst. cbn [map app]. specialize (IH _ _ H5).
  destruct l as [|b' l]; [inversion H5; subst; reflexivity|]. cbn [map app] in *. rewrite <- IH. assert (Hb : left_edge b' = right_edge b) by (inversion H5; congruence). cbn [spectral_widths]. now rewrite Hb.
Qed.
Theorem C36_spectrometer_window : forall k x fnum_y delta bins a c, bins <> [] -> tiling a bins c ->
  exists windows, spectrometer_windows k x fnum_y delta (edges_of bins) bins = Ok windows
  /\ Forall2 (fun b w => w = spectral_extent (k_spectral k) x delta b * spatial_extent (k_spatial k) (k_scale k) (k_radius k) fnum_y delta b) bins windows.
Proof.
  intros k x f d bins a c Hne Ht. unfold spectrometer_windows.
  assert (E1 : spectral_windows k x d (edges_of bins) bins = map (spectral_extent (k_spectral k) x d) bins).
  { unfold spectral_windows, spectral_extent. destruct (k_spectral k); auto. rewrite (tiling_edges a bins c) by auto. now rewrite (spectral_widths_tiling x d bins a c). }
  assert (E2 : spatial_widths k f d bins = map (spatial_extent (k_spatial k) (k_scale k) (k_radius k) f d) bins).
  { unfold spatial_widths, spatial_extent. destruct (k_spatial k); auto. apply map_ext. intros b. destruct (k_scale k), (k_radius k); unfold Rdiv; ring. }
  rewrite E1, E2, times_same by now rewrite !map_length. eexists. split; [reflexivity|].
  clear. unfold mul. induction bins as [|b l IH]; cbn; constructor; auto.
Qed.
Print Assumptions C36_spectrometer_window.

(** Every window is positive; along the spectrum the windows add up to the size of the band. *)
Lemma tiling_In a bins c b : tiling a bins c -> In b bins -> a <= left_edge b < right_edge b /\ right_edge b <= c.
Proof.
  intros H. induction H as [|b' l c Hb Ht IH]; intros Hin; [destruct Hin|]. destruct Hin as [->|Hin].
  - apply tiling_le in Ht. lra.
  - apply IH in Hin. apply tiling_le in Ht. lra.
Qed.
Theorem C36_windows_positive : forall k s fnum_y delta bins a c windows, dispersion s -> bins <> [] -> tiling a bins c -> 0 < a -> (forall b, In b bins -> proper b) -> 0 < delta -> 0 < fnum_y ->
  (forall v, k_spectral k = Some v \/ k_spatial k = Some v \/ k_scale k = Some v -> 0 < v) -> (forall r w, k_radius k = Some r -> 0 < w -> 0 < r w) ->
  spectrometer_windows k (x_of s) fnum_y delta (edges_of bins) bins = Ok windows -> forall w, In w windows -> 0 < w.
Proof.
  intros k s f d bins a c ws Hs Hne Ht Ha Hp Hd Hf Hk Hr E w Hw. destruct (C36_spectrometer_window k (x_of s) f d bins a c Hne Ht) as (ws' & E' & HF). assert (ws' = ws) as -> by congruence.
  assert (Hb : exists b, In b bins /\ w = spectral_extent (k_spectral k) (x_of s) d b * spatial_extent (k_spatial k) (k_scale k) (k_radius k) f d b).
  { clear -HF Hw. induction HF as [|b v l m Hv HF IH]; [destruct Hw|]. destruct Hw as [<-|Hw]; [exists b; split; auto; now left|]. destruct (IH Hw) as (b' & Hb & E). exists b'. split; auto. now right. }
  destruct Hb as (b & Hb & ->). pose proof (tiling_In _ _ _ _ Ht Hb) as Hl. destruct (Hp b Hb) as [Hc _].
  apply Rmult_lt_0_compat.
  - unfold spectral_extent. destruct (k_spectral k) eqn:Ek; [apply Hk; auto|]. apply Rmult_lt_0_compat; [|now apply Rinv_0_lt_compat]. apply Rabs_pos_lt.
    intros Hz. assert (Heq : x_of s (right_edge b) = x_of s (left_edge b)) by lra. apply (f_equal (wl_of s)) in Heq. destruct (C63_solution_is_one_to_one s Hs) as (H1 & _). rewrite !H1 in Heq. lra.
  - unfold spatial_extent. destruct (k_spatial k) eqn:Ek; [apply Hk; auto|]. apply Rmult_lt_0_compat; [|now apply Rinv_0_lt_compat]. apply Rmult_lt_0_compat.
    + destruct (k_scale k) eqn:Es; [apply Hk; auto|lra].
    + apply Rmult_lt_0_compat; [|apply Rmult_lt_0_compat; lra]. destruct (k_radius k) eqn:Er; [|lra]. specialize (Hr r (centre b) eq_refl). lra.
Qed.
Print Assumptions C36_windows_positive.
Theorem C36_spectral_extents_add_up : forall s delta bins a c, dispersion s -> tiling a bins c -> 0 < delta ->
  total (map (spectral_extent None (x_of s) delta) bins) = Rabs (x_of s c - x_of s a) / delta.
Proof.
  intros s d bins a c Hs Ht Hd. destruct (C63_solution_is_one_to_one s Hs) as (H1 & H2 & Hm).
  assert (Hx : (forall u v, u <= v -> x_of s u <= x_of s v) \/ (forall u v, u <= v -> x_of s v <= x_of s u)).
  { destruct Hm as [Hm|Hm]; [left|right]; intros u v Huv.
    - destruct (Rle_lt_dec (x_of s u) (x_of s v)) as [|Hlt]; auto. apply Hm in Hlt. rewrite !H1 in Hlt. lra.
    - destruct (Rle_lt_dec (x_of s v) (x_of s u)) as [|Hlt]; auto. apply Hm in Hlt. rewrite !H1 in Hlt. lra. }
  induction Ht as [a|b l c Hb Ht IH]; cbn [map].
  - unfold total. cbn. rewrite Rminus_diag_eq, Rabs_R0 by auto. lra.
  - change (spectral_extent None (x_of s) d b + total (map (spectral_extent None (x_of s) d) l) = Rabs (x_of s c - x_of s (left_edge b)) / d). rewrite IH. unfold spectral_extent. apply tiling_le in Ht.
    rewrite <- Rdiv_plus_distr. f_equal. assert (left_edge b <= c) by lra. destruct Hx as [Hx|Hx].
    + pose proof (Hx _ _ Ht). pose proof (Hx (left_edge b) (right_edge b)). pose proof (Hx _ _ H). rewrite !Rabs_pos_eq; lra.
    + pose proof (Hx _ _ Ht). pose proof (Hx (left_edge b) (right_edge b)). pose proof (Hx _ _ H). rewrite !(Rabs_minus_sym (x_of s (right_edge b))), !(Rabs_minus_sym (x_of s c)), !Rabs_pos_eq; lra.
Qed.
Print Assumptions C36_spectral_extents_add_up.

(** A prescribed number of pixels wins over scale and encircled energy. *)
Theorem C36_prescribed_pixels : forall k k' x x' f f' delta delta' bins a c v w, bins <> [] -> tiling a bins c ->
  k_spatial k = Some v -> k_spatial k' = Some v -> k_spectral k = Some w -> k_spectral k' = Some w ->
  spectrometer_windows k x f delta (edges_of bins) bins = spectrometer_windows k' x' f' delta' (edges_of bins) bins
  /\ spectrometer_windows k x f delta (edges_of bins) bins = Ok (map (fun _ => w * v) bins).
Proof.
  intros k k' x x' f f' d d' bins a c v w Hne Ht E1 E2 E3 E4.
  assert (H : forall k x f d, k_spatial k = Some v -> k_spectral k = Some w -> spectrometer_windows k x f d (edges_of bins) bins = Ok (map (fun _ => w * v) bins)).
  { intros k0 x0 f0 d0 H1 H2. unfold spectrometer_windows, spectral_windows, spatial_widths. rewrite H1, H2, times_same by now rewrite !map_length. f_equal. clear. unfold mul. induction bins; cbn; congruence. }
  rewrite !H; auto.
Qed.
Print Assumptions C36_prescribed_pixels.

(** With a linear wavelength solution every native bin is one pixel wide. *)
Theorem C36_native_bins_are_one_pixel : forall s wl_min wl_max delta fuel e bins, dispersion s -> length (sol_x s) = 2%nat -> wl_min < wl_max -> 0 < delta ->
  let px := pixels s wl_min wl_max delta in
  spectrometer_table (Some Native) wl_min wl_max (pixel_wl s px) (pixel_width s delta px) fuel = Some (Ok (e, bins)) ->
  forall b, In b bins -> spectral_extent None (x_of s) delta b = 1.
Proof.
  intros s m M d fuel e bins Hs H2 Hm Hd px E b Hb. destruct (C63_pixels_cover_the_band s m M d Hs Hm Hd) as (P1 & _).
  destruct (C62_one_bin_per_pixel (Some Native) m M (pixel_wl s px) (pixel_width s d px) fuel (or_intror eq_refl)) as (bins' & E' & Hperm & _ & Hp).
  { unfold pixel_wl, pixel_width. now rewrite !map_length. }
  { unfold pixel_wl. fold px in P1. destruct px; [congruence|discriminate]. }
  assert (bins' = bins) as -> by congruence.
  assert (Hlin : exists al be, forall x, wl_of s x = al + be * x).
  { unfold wl_of, interpolator. destruct Hs as (HL & _ & _). destruct (sol_x s) as [|x0 [|x1 [|]]]; try discriminate. destruct (sol_wl s) as [|w0 [|w1 [|]]]; try discriminate. cbn [combine].
    assert (Hc : exists u v, sort_src [(x0, w0); (x1, w1)] = [u; v]). { cbn. destruct (Rltb _ _); eauto. } destruct Hc as (u & v & ->).
    exists (snd u - (snd v - snd u) / (fst v - fst u) * fst u), ((snd v - snd u) / (fst v - fst u)). intros x. rewrite ext_two. unfold line. lra. }
  destruct Hlin as (al & be & Hlin). destruct (C63_solution_is_one_to_one s Hs) as (H1 & H3 & _).
  assert (Hbe : be <> 0). { intros ->. assert (x_of s (wl_of s 0) = x_of s (wl_of s 1)) by (rewrite !Hlin; f_equal; lra). rewrite !H3 in H. lra. }
  assert (Hin : In (centre b, width b) (combine (pixel_wl s px) (pixel_width s d px))).
  { apply (Permutation_in _ Hperm). apply in_map_iff. eauto. }
  unfold pixel_wl, pixel_width in Hin. rewrite combine_map_map in Hin. apply in_map_iff in Hin. destruct Hin as (x & Hx & _).
  destruct (Hp b Hb) as [Hc Hw]. assert (Ew : width b = Rabs be * d).
  { assert (width b = Rabs (wl_of s (x - 0.5 * d) - wl_of s (x + 0.5 * d))) as -> by congruence. rewrite !Hlin. replace (al + be * (x - 0.5 * d) - (al + be * (x + 0.5 * d))) with (- (be * d)) by lra. rewrite Rabs_Ropp, Rabs_mult, (Rabs_pos_eq d) by lra. reflexivity. }
  assert (Hxw : forall w, x_of s w = (w - al) / be). { intros w. pose proof (H1 w) as H. rewrite Hlin in H. rewrite <- H at 2. field. auto. }
  unfold spectral_extent. rewrite !Hxw. replace ((right_edge b - al) / be - (left_edge b - al) / be) with (width b * / be) by (rewrite Hw; field; auto).
  rewrite Rabs_mult, Ew, Rabs_mult, Rabs_Rabsolu, (Rabs_pos_eq d) by lra. rewrite Rabs_inv. field. split; solve [lra | now apply Rabs_no_R0].
Qed.
Print Assumptions C36_native_bins_are_one_pixel.

(** The aperture of a photometer: a given radius wins over an encircled energy. *)
Theorem C36_photometer_window : forall a pixel_based found fx fy wl delta,
  (a = None -> photometer_window a pixel_based found fx fy wl delta = Err KeyError)
  /\ (forall p r, a = Some p -> a_radius p = Some r ->
      photometer_window a pixel_based found fx fy wl delta = Ok (if pixel_based then r * r else r * r * (fx * wl / delta) * (fy * wl / delta)))
  /\ (forall p e r, a = Some p -> a_radius p = None -> a_ene p = Some e -> found e = Ok r ->
      photometer_window a pixel_based found fx fy wl delta = Ok (if pixel_based then PI * (r * r) else PI * (r * r) * (fx * wl / delta) * (fy * wl / delta)))
  /\ (forall p e x, a = Some p -> a_radius p = None -> a_ene p = Some e -> found e = Err x -> photometer_window a pixel_based found fx fy wl delta = Err x)
  /\ (forall p, a = Some p -> a_radius p = None -> a_ene p = None -> photometer_window a pixel_based found fx fy wl delta = Err UnboundLocalError).
Proof.
  intros a pb fnd fx fy wl d. unfold photometer_window. repeat split; intros; subst; try reflexivity;
    repeat match goal with H : _ = Some _ |- _ => rewrite H | H : _ = None |- _ => rewrite H | H : fnd _ = _ |- _ => rewrite H end; cbn [bind]; auto.
  all: destruct pb; f_equal; unfold Rdiv; rewrite ?pow_inv; cbn [pow]; rewrite ?Rmult_1_r, ?Rinv_mult; ring.
Qed.
Print Assumptions C36_photometer_window.

(** ** C60: the columns TR and QE *)
Lemma interp_curve tab w : increasing (wls tab) -> tab <> [] -> curve_at tab w (interp tab w).
Proof.
  intros Hi Hne. assert (Hs : nondecreasing (wls tab)) by now apply increasing_nondecreasing.
  pose proof (locate_spec w tab Hs) as Hl. unfold interp. destruct (locate w tab) as [[a [b|]]|].
  - destruct Hl as [Hn Hw]. left. left. exists a, b. split; auto. split; auto. field. lra.
  - destruct Hl as (H1 & H2 & H3). destruct (Rltb (fst a) w) eqn:E.
    + apply Rltb_true in E. right. split; auto. right. intros p Hp. specialize (H3 p Hp). lra.
    + apply Rltb_false in E. left. right. exists a. repeat split; auto. lra.
  - right. split; auto.
Qed.
(** Every entry is the average of the curve at the centres lying in the bin, NaN without any. *)
Definition column_of (tab : list (R * R)) (bins : list bin) (col : list (option R)) : Prop :=
  exists y, Forall2 (fun b v => curve_at tab (centre b) v) bins y
  /\ forall i b o, nth_error bins i = Some b -> nth_error col i = Some o ->
     exists keep, (forall b' v, In (b', v) (combine bins y) -> keep (b', v) = true <-> left_edge b <= centre b' < right_edge b)
     /\ match o with Some v => average (map snd (filter keep (combine bins y))) v | None => filter keep (combine bins y) = [] end.
Lemma filter_combine_map {A} (f : A -> R) (P : R * R -> bool) l : forall y,
  map snd (filter P (combine (map f l) y)) = map snd (filter (fun p => P (f (fst p), snd p)) (combine l y)).
Proof. induction l as [|a l IH]; intros [|v y]; cbn; auto. destruct (P (f a, v)); cbn; now rewrite IH. Qed.
Lemma bin_signal_column tab bins y : Forall2 (fun b v => curve_at tab (centre b) v) bins y -> column_of tab bins (bin_signal bins y).
Proof.
  intros HF. exists y. split; auto. intros i b o Hb Ho. unfold bin_signal in Ho. rewrite nth_error_map, Hb in Ho. cbn [option_map] in Ho.
  assert (o = mean (map snd (filter (fun p => negb (Rltb (fst p) (left_edge b)) && Rltb (fst p) (right_edge b)) (combine (map centre bins) y)))) as Eo by congruence. clear Ho.
  rewrite filter_combine_map in Eo. exists (fun p => negb (Rltb (centre (fst p)) (left_edge b)) && Rltb (centre (fst p)) (right_edge b)). split.
  - intros b' v _. cbn [fst]. rewrite andb_true_iff, negb_true_iff, Rltb_false, Rltb_true. lra.
  - cbn [fst] in Eo. destruct o; symmetry in Eo; [now apply mean_average in Eo|]. apply mean_None in Eo. now apply map_eq_nil in Eo.
Qed.
Lemma interp1d_curve x y wl r : increasing x -> interp1d x y wl = Ok r -> Forall2 (fun w v => curve_at (combine x y) w v) wl r.
Proof.
  intros Hx E. unfold interp1d in E. destruct x as [|a x]; [discriminate|]. destruct (Nat.eqb_spec (length (a :: x)) (length y)) as [Hl|]; [|discriminate].
  assert (r = map (interp (sort_src (combine (a :: x) y))) wl) as -> by congruence. assert (Hw : wls (combine (a :: x) y) = a :: x) by exact (proj1 (combine_xs _ _ Hl)). rewrite sort_id by (apply increasing_nondecreasing; rewrite Hw; auto).
  destruct y as [|b y]; [discriminate|]. clear E. induction wl; cbn [map]; constructor; auto. apply interp_curve; [|discriminate]. now rewrite Hw.
Qed.
Lemma F2_map_l {A B C} (f : A -> B) (P : B -> C -> Prop) l : forall r, Forall2 P (map f l) r -> Forall2 (fun a c => P (f a) c) l r.
Proof. induction l as [|a l IH]; intros r H; inversion H; subst; constructor; auto. Qed.
(** In a channel whose bins tile, an entry is the curve at the bin's own centre. *)
Lemma tiling_centres a bins c : tiling a bins c -> (forall b, In b bins -> proper b) -> forall i j b b', nth_error bins i = Some b -> nth_error bins j = Some b' ->
  left_edge b <= centre b' < right_edge b -> i = j.
Proof.
  intros H. induction H as [|b0 l c Hb Ht IH]; intros Hp i j b b' Hi Hj Hc; [destruct i; discriminate|].
  assert (Hcl : forall b, In b (b0 :: l) -> left_edge b < right_edge b -> left_edge b < centre b < right_edge b). { intros d Hd Hlt. destruct (Hp d Hd). lra. }
  destruct i as [|i], j as [|j]; cbn in Hi, Hj; auto.
  - exfalso. assert (b = b0) as -> by congruence. apply nth_error_In in Hj. pose proof (tiling_In _ _ _ _ Ht Hj) as H. pose proof (Hcl b' (or_intror Hj)). lra.
  - exfalso. assert (b' = b0) as -> by congruence. apply nth_error_In in Hi. pose proof (tiling_In _ _ _ _ Ht Hi) as H. pose proof (Hcl b0 (or_introl eq_refl) Hb). lra.
  - f_equal. eapply IH; eauto. intros d Hd. apply Hp. now right.
Qed.
Lemma filter_one {A} (P : A -> bool) l : forall i x, nth_error l i = Some x -> P x = true -> (forall j y, nth_error l j = Some y -> P y = true -> j = i) -> filter P l = [x].
Proof.
  induction l as [|a l IH]; intros i x Hi HP Hu; [destruct i; discriminate|]. destruct i as [|i]; cbn in Hi.
  - assert (a = x) as -> by congruence. cbn. rewrite HP. f_equal. destruct (filter P l) as [|z r] eqn:Ef; auto. exfalso.
    assert (Hz : In z (filter P l)) by (rewrite Ef; now left). apply filter_In in Hz. destruct Hz as [Hz Pz]. apply In_nth_error in Hz. destruct Hz as [j Hj]. specialize (Hu (S j) z Hj Pz). discriminate.
  - cbn. destruct (P a) eqn:Pa; [specialize (Hu 0%nat a eq_refl Pa); discriminate|]. apply (IH i x Hi HP). intros j y Hj Py. specialize (Hu (S j) y Hj Py). lia.
Qed.
Lemma nth_error_combine {A B} (l : list A) (r : list B) : forall i a b, nth_error l i = Some a -> nth_error r i = Some b -> nth_error (combine l r) i = Some (a, b).
Proof. revert r. induction l as [|x l IH]; intros [|y r] [|i] a b Ha Hb; cbn in *; try discriminate; [congruence|auto]. Qed.
Lemma nth_error_combine_inv {A B} (l : list A) (r : list B) : forall i a b, nth_error (combine l r) i = Some (a, b) -> nth_error l i = Some a /\ nth_error r i = Some b.
Proof. revert r. induction l as [|x l IH]; intros [|y r] [|i] a b H; cbn in *; try discriminate; [split; congruence|auto]. Qed.
Lemma nth_error_same {A} (l : list A) : forall k, (forall i, nth_error l i = nth_error k i) -> l = k.
Proof. induction l as [|a l IH]; intros [|b k] H; auto; pose proof (H 0%nat) as H0; cbn in H0; try discriminate. f_equal; [congruence|]. apply IH. intros i. exact (H (S i)). Qed.
Lemma bin_signal_tiling bins y a c : tiling a bins c -> (forall b, In b bins -> proper b) -> length y = length bins -> bin_signal bins y = map Some y.
Proof.
  intros Ht Hp Hl. apply nth_error_same. intros i. unfold bin_signal. rewrite !nth_error_map. destruct (nth_error bins i) as [b|] eqn:Eb; cbn [option_map].
  - destruct (nth_error y i) as [v|] eqn:Ev; [|apply nth_error_None in Ev; assert (nth_error bins i <> None) by congruence; apply nth_error_Some in H; lia]. cbn [option_map]. do 2 f_equal.
    rewrite filter_combine_map. erewrite (filter_one _ (combine bins y) i (b, v)); [cbn; f_equal; field| | |].
    + now apply nth_error_combine.
    + cbn. assert (Hin := nth_error_In _ _ Eb). pose proof (tiling_In _ _ _ _ Ht Hin). destruct (Hp b Hin). rewrite andb_true_iff, negb_true_iff, Rltb_false, Rltb_true. lra.
    + intros j [b' v'] Hj Hk. cbn in Hk. rewrite andb_true_iff, negb_true_iff, Rltb_false, Rltb_true in Hk. apply nth_error_combine_inv in Hj. symmetry. apply (tiling_centres a bins c Ht Hp i j b b'); tauto || lra.
  - apply nth_error_None in Eb. rewrite (proj2 (nth_error_None y i)) by lia. reflexivity.
Qed.

(** The column TR of a channel whose bins tile: at every bin's centre what the curve says, 0
    outside the band when the band is forced; the curve handed on is 0 outside the band then. *)
Definition off_band (force : bool) (wl_min wl_max w : R) : Prop := force = true /\ (w < wl_min \/ wl_max < w).
Lemma outside_spec wl_min wl_max w : outside wl_min wl_max w = true <-> w < wl_min \/ wl_max < w.
Proof. unfold outside. rewrite orb_true_iff, !Rltb_true. tauto. Qed.
Lemma F2_length {A B} (P : A -> B -> Prop) l k : Forall2 P l k -> length l = length k.
Proof. induction 1; cbn; auto. Qed.
Theorem C60_transmission_at_centres : forall bins force wl_min wl_max tr column tr' a c, tiling a bins c -> (forall b, In b bins -> proper b) -> increasing (s_wl tr) ->
  get_transmission_column bins (Some force) wl_min wl_max tr = Ok (column, tr') ->
  Forall2 (fun b o => exists v, o = Some v /\ ((off_band force wl_min wl_max (centre b) /\ v = 0)
                                              \/ (~ off_band force wl_min wl_max (centre b) /\ curve_at (combine (s_wl tr) (s_data tr)) (centre b) v))) bins column
  /\ s_wl tr' = s_wl tr /\ length (s_data tr') = length (s_data tr)
  /\ forall i, (i < length (s_wl tr))%nat -> (off_band force wl_min wl_max (at_ i (s_wl tr)) -> at_ i (s_data tr') = 0)
                                          /\ (~ off_band force wl_min wl_max (at_ i (s_wl tr)) -> at_ i (s_data tr') = at_ i (s_data tr)).
Proof.
  intros bins force m M tr column tr' a c Ht Hp Hi E. unfold get_transmission_column in E. dbind E y Hy.
  assert (Hlen : length (s_wl tr) = length (s_data tr)). { unfold interp1d in Hy. destruct (s_wl tr) as [|w l]; [discriminate|]. destruct (Nat.eqb_spec (length (w :: l)) (length (s_data tr))); [auto|discriminate]. }
  assert (HF := F2_map_l _ _ _ _ (interp1d_curve _ _ _ _ Hi Hy)). assert (Hl := F2_length _ _ _ HF). rewrite (bin_signal_tiling bins y a c) in E by auto.
  destruct force.
  - assert (column = map (fun p => if outside m M (centre (fst p)) then Some 0 else snd p) (combine bins (map Some y))) as -> by congruence.
    assert (tr' = {| s_wl := s_wl tr; s_data := zero_where (outside m M) (s_wl tr) (s_data tr) |}) as -> by congruence. cbn [s_wl s_data]. split; [|split; [auto|split]].
    + clear -HF. induction HF as [|b v l k Hv HF IH]; cbn [map combine]; constructor; auto. cbn [fst snd]. destruct (outside m M (centre b)) eqn:Eo.
      * exists 0. split; auto. left. split; auto. split; auto. now apply outside_spec.
      * exists v. split; auto. right. split; auto. intros [_ H]. apply outside_spec in H. congruence.
    + now apply zero_where_length.
    + intros i Hii. rewrite zero_where_at by auto. destruct (outside m M (at_ i (s_wl tr))) eqn:Eo; split; intros H; auto.
      * exfalso. apply H. split; auto. now apply outside_spec.
      * destruct H as [_ H]. apply outside_spec in H. congruence.
  - assert (column = map Some y) as -> by congruence. assert (tr' = tr) as -> by congruence. split; [|split; [auto|split; [auto|]]].
    + clear -HF. induction HF as [|b v l k Hv HF IH]; cbn [map]; constructor; auto. exists v. split; auto. right. split; auto. intros [H _]. discriminate.
    + intros i _. split; intros H; auto. destruct H as [H _]. discriminate.
Qed.
Print Assumptions C60_transmission_at_centres.

Lemma curve_at_bounds tab w v lo hi : lo <= 0 <= hi -> curve_at tab w v -> (forall p, In p tab -> lo <= snd p <= hi) -> lo <= v <= hi.
Proof. intros H0 [H|[_ ->]] Hb; [eapply read_at_bounds; eauto|auto]. Qed.
Lemma in_combine_snd {A} (l : list A) (r : list R) p : In p (combine l r) -> In (snd p) r.
Proof. destruct p. cbn. apply in_combine_r. Qed.
(** With a curve between 0 and 1 the column is between 0 and 1, whatever the bins. *)
Theorem C60_transmission_between_0_and_1 : forall bins force wl_min wl_max tr column tr' v, get_transmission_column bins (Some force) wl_min wl_max tr = Ok (column, tr') ->
  increasing (s_wl tr) -> (forall x, In x (s_data tr) -> 0 <= x <= 1) -> In (Some v) column -> 0 <= v <= 1.
Proof.
  intros bins force m M tr column tr' v E Hi Hb Hv. unfold get_transmission_column in E. dbind E y Hy.
  assert (HF := interp1d_curve _ _ _ _ Hi Hy). assert (Hyb : forall x, In x y -> 0 <= x <= 1).
  { intros x Hx. clear -HF Hb Hx. induction HF as [|w z l k Hz HF IH]; [destruct Hx|]. destruct Hx as [->|Hx]; [|auto]. eapply curve_at_bounds; eauto; [lra|]. intros p Hp. apply Hb. eapply in_combine_snd; eauto. }
  assert (Hbs : forall o, In o (bin_signal bins y) -> forall x, o = Some x -> 0 <= x <= 1).
  { intros o Ho x ->. unfold bin_signal in Ho. apply in_map_iff in Ho. destruct Ho as (b & Hm & _). revert Hm. apply mean_bounds. intros z Hz. apply in_map_iff in Hz. destruct Hz as (p & <- & Hp). apply filter_In in Hp. apply Hyb. eapply in_combine_snd. apply Hp. }
  destruct force.
  - assert (column = map (fun p => if outside m M (centre (fst p)) then Some 0 else snd p) (combine bins (bin_signal bins y))) as -> by congruence.
    apply in_map_iff in Hv. destruct Hv as ([b o] & Hv & Hin). cbn [fst snd] in Hv. destruct (outside m M (centre b)); [assert (v = 0) by congruence; lra|]. apply in_combine_r in Hin. eapply Hbs; eauto.
  - assert (column = bin_signal bins y) as -> by congruence. eapply Hbs; eauto.
Qed.
Print Assumptions C60_transmission_between_0_and_1.

(** Overlapping bins: the average over the centres in a bin; a bin without any centre is NaN. *)
Theorem C60_transmission_in_general : forall bins wl_min wl_max tr column tr', increasing (s_wl tr) ->
  get_transmission_column bins (Some false) wl_min wl_max tr = Ok (column, tr') -> column_of (combine (s_wl tr) (s_data tr)) bins column /\ tr' = tr.
Proof.
  intros bins m M tr column tr' Hi E. unfold get_transmission_column in E. dbind E y Hy. assert (column = bin_signal bins y) as -> by congruence. split; [|congruence].
  apply bin_signal_column. now apply F2_map_l, interp1d_curve.
Qed.
Print Assumptions C60_transmission_in_general.
Theorem C60_flag_required : forall bins wl_min wl_max tr x, get_transmission_column bins None wl_min wl_max tr <> Ok x.
Proof. intros bins m M tr x E. unfold get_transmission_column in E. dbind E y Hy. discriminate. Qed.
Print Assumptions C60_flag_required.

(** A number as quantum efficiency holds from wl_min to the cut-off of the detector, 0 beyond. *)
Lemma logspace_spec lo hi n : 0 < lo < hi -> (2 <= n)%nat -> increasing (logspace lo hi n) /\ length (logspace lo hi n) = n
  /\ nth 0 (logspace lo hi n) 0 = lo /\ nth (n - 1) (logspace lo hi n) 0 = hi.
Proof.
  intros H Hn. assert (Hnth : forall i, (i < n)%nat -> nth i (logspace lo hi n) 0 = lo * Rpower (hi / lo) (INR i / INR (n - 1))).
  { intros i Hi. unfold logspace. set (f := fun k => lo * Rpower (hi / lo) (INR k / INR (n - 1))). rewrite (nth_indep _ 0 (f 0%nat)) by now rewrite map_length, seq_length. rewrite map_nth, seq_nth by auto. reflexivity. }
  assert (Hlen : length (logspace lo hi n) = n) by (unfold logspace; now rewrite map_length, seq_length).
  assert (Hq : 1 < hi / lo). { apply Rmult_lt_reg_r with lo; [lra|]. unfold Rdiv. rewrite Rmult_assoc, Rinv_l; lra. }
  assert (Hpos : 0 < INR (n - 1)) by (apply lt_0_INR; lia).
  split; [|split; [auto|split]].
  - apply increasing_from_nth. intros i Hi. rewrite Hlen in Hi. rewrite !Hnth by lia. apply Rmult_lt_compat_l; [lra|]. apply Rpower_lt; auto. apply Rmult_lt_compat_r; [now apply Rinv_0_lt_compat|]. apply lt_INR. lia.
  - rewrite Hnth by lia. replace (INR 0 / INR (n - 1)) with 0 by (cbn; field; lra). rewrite Rpower_O by lra. lra.
  - rewrite Hnth by lia. unfold Rdiv at 2. rewrite Rinv_r by lra. rewrite Rpower_1 by lra. field. lra.
Qed.
Lemma read_constant tab w v c : read_at tab w v -> (forall p, In p tab -> snd p = c) -> v = c.
Proof. intros H Hc. destruct (read_at_bounds tab w v c c H); [|lra]. intros p Hp. rewrite (Hc p Hp). lra. Qed.
Theorem C60_constant_quantum_efficiency : forall name v lo hi n bins a c column s, 0 < lo < hi -> (2 <= n)%nat -> tiling a bins c -> (forall b, In b bins -> proper b) ->
  get_qe name (QeValue v) lo hi n bins = Ok (column, s) ->
  Forall2 (fun b o => (lo <= centre b <= hi -> o = Some v) /\ (centre b < lo \/ hi < centre b -> o = Some 0)) bins column
  /\ wavelength_grid (s_wl s) /\ length (s_wl s) = n /\ Forall (fun x => x = v) (s_data s) /\ one_value_per_wavelength s.
Proof.
  intros name v lo hi n bins a c column s H Hn Ht Hp E. unfold get_qe in E. cbn [bind s_wl s_data] in E. dbind E y Hy.
  destruct (logspace_spec lo hi n H Hn) as (Hi & Hlen & H0 & H1). assert (HF := F2_map_l _ _ _ _ (interp1d_curve _ _ _ _ Hi Hy)). assert (Hl := F2_length _ _ _ HF).
  rewrite (bin_signal_tiling bins y a c) in E by auto. set (g := logspace lo hi n) in *.
  assert (column = map Some y) as -> by congruence. assert (s = {| s_wl := g; s_data := map (fun _ => v * 1) g |}) as -> by congruence. clear E. cbn [s_wl s_data].
  assert (Hg : forall w, In w g -> lo <= w <= hi).
  { intros w Hw. destruct (In_nth g w 0 Hw) as (i & Hii & <-). rewrite Hlen in Hii. split.
    - rewrite <- H0. destruct i; [lra|]. left. apply increasing_nth; auto; lia.
    - rewrite <- H1. destruct (Nat.eq_dec i (n - 1)) as [->|]; [lra|]. left. apply increasing_nth; auto; lia. }
  assert (Hlo : In lo g) by (rewrite <- H0; apply nth_In; lia). assert (Hhi : In hi g) by (rewrite <- H1; apply nth_In; lia).
  assert (Hrows : forall p, In p (combine g (map (fun _ => v * 1) g)) -> In (fst p) g /\ snd p = v).
  { intros [w x] Hin. split; [now apply in_combine_l in Hin|]. apply in_combine_r in Hin. apply in_map_iff in Hin. destruct Hin as (_ & <- & _). cbn. lra. }
  assert (Hrow : forall w, In w g -> In (w, v * 1) (combine g (map (fun _ => v * 1) g))).
  { clear. intros w. generalize (v * 1). intros k. induction g as [|x l IH]; cbn; auto. intros [->|Hw]; auto. }
  split; [|split; [|split; [auto|split]]].
  - clear -HF H Hrows Hrow Hlo Hhi Hg. set (tab := combine g _) in *. clearbody tab. induction HF as [|b x l k Hx HF IH]; cbn [map]; constructor; auto. split; intros Hc; f_equal.
    + destruct Hx as [Hx|[[Hx|Hx] ->]]; [eapply read_constant; eauto; intros p Hp; now apply Hrows| |].
      * specialize (Hx _ (Hrow _ Hlo)). cbn in Hx. lra.
      * specialize (Hx _ (Hrow _ Hhi)). cbn in Hx. lra.
    + destruct Hx as [[(p & q & Hn & Hw & _)|(p & Hpin & _ & Hw & _)]|[_ ->]]; auto; exfalso.
      * apply neighbours_In in Hn. destruct Hn as [Hpi Hqi]. apply Hrows in Hpi, Hqi. destruct Hpi as [Hpi _], Hqi as [Hqi _]. apply Hg in Hpi, Hqi. lra.
      * apply Hrows in Hpin. destruct Hpin as [Hpin _]. apply Hg in Hpin. lra.
  - split; [auto|]. split; [lia|]. intros w Hw. apply Hg in Hw. lra.
  - apply Forall_forall. intros x Hx. apply in_map_iff in Hx. destruct Hx as (_ & <- & _). lra.
  - unfold one_value_per_wavelength. cbn. now rewrite map_length.
Qed.
Print Assumptions C60_constant_quantum_efficiency.

(** A file as quantum efficiency: its column with the channel's name. *)
Theorem C60_tabulated_quantum_efficiency : forall name t lo hi n bins a c column s, tiling a bins c -> (forall b, In b bins -> proper b) ->
  get_qe name (QeFile t) lo hi n bins = Ok (column, s) -> increasing (s_wl s) ->
  (sget "wavelength" t = Some (s_wl s) \/ sget "wavelength" t = None /\ sget "Wavelength" t = Some (s_wl s)) /\ sget name t = Some (s_data s)
  /\ Forall2 (fun b o => exists v, o = Some v /\ curve_at (combine (s_wl s) (s_data s)) (centre b) v) bins column.
Proof.
  intros name t lo hi n bins a c column s Ht Hp E Hi. unfold get_qe in E. dbind E s0 Hs. dbind E y Hy. assert (s0 = s) as -> by congruence. assert (column = bin_signal bins y) as -> by congruence. clear E.
  dbind Hs w Hw. dbind Hs x Hx. dbind Hs z Hz. assert (s = {| s_wl := x; s_data := z |}) as -> by congruence. cbn [s_wl s_data] in *. unfold col in Hx, Hz.
  split; [|split].
  - unfold smem, dmem in Hw. destruct (sget "wavelength" t) eqn:E1; [left|right].
    + assert (w = "wavelength"%string) as -> by congruence. rewrite E1 in Hx. congruence.
    + split; auto. destruct (sget "Wavelength" t) eqn:E2; [|discriminate]. assert (w = "Wavelength"%string) as -> by congruence. rewrite E2 in Hx. congruence.
  - destruct (sget name t); congruence.
  - assert (HF := F2_map_l _ _ _ _ (interp1d_curve _ _ _ _ Hi Hy)). rewrite (bin_signal_tiling bins y a c) by (auto; symmetry; eapply F2_length; eauto).
    clear -HF. induction HF as [|b v l k Hv HF IH]; cbn [map]; constructor; eauto.
Qed.
Print Assumptions C60_tabulated_quantum_efficiency.
Theorem C60_quantum_efficiency_failures : forall name t lo hi n bins,
  (sget "wavelength" t = None -> sget "Wavelength" t = None -> get_qe name (QeFile t) lo hi n bins = Err ValueError)
  /\ ((sget "wavelength" t <> None \/ sget "Wavelength" t <> None) -> sget name t = None -> get_qe name (QeFile t) lo hi n bins = Err KeyError).
Proof.
  intros name t lo hi n bins. unfold get_qe, col, smem, dmem. split.
  - intros -> ->. reflexivity.
  - intros H Hn. rewrite Hn. destruct (sget "wavelength" t) eqn:E1; cbn [bind]; [now rewrite E1|]. destruct (sget "Wavelength" t) eqn:E2; cbn [bind]; [now rewrite E2|]. destruct H; congruence.
Qed.
Print Assumptions C60_quantum_efficiency_failures.

(** ** Examples *)
(** two bins side by side, a curve from 0.2 to 1 *)
Definition two_bins : list bin := [bin_at 1.5 1; bin_at 2.5 1].
Lemma two_bins_tile : tiling 1 two_bins 3.
Proof.
  replace 1 with (left_edge (bin_at 1.5 1)) at 1 by (cbn; lra). constructor; [cbn; lra|]. replace (right_edge (bin_at 1.5 1)) with (left_edge (bin_at 2.5 1)) by (cbn; lra). constructor; [cbn; lra|].
  replace (right_edge (bin_at 2.5 1)) with 3 by (cbn; lra). constructor.
Qed.
Lemma two_bins_proper : forall b, In b two_bins -> proper b.
Proof. intros b [<-|[<-|[]]]; split; cbn; lra. Qed.
Example ex_column : exists column tr', get_transmission_column two_bins (Some true) 1 2 {| s_wl := [1; 3]; s_data := [0.2; 1] |} = Ok (column, tr')
  /\ column = [Some 0.4; Some 0].
Proof.
  unfold get_transmission_column. cbn [s_wl s_data]. assert (Hi : increasing [1; 3]) by (repeat constructor; lra).
  assert (E : interp1d [1; 3] [0.2; 1] (map centre two_bins) = Ok [0.4; 0.8]).
  { unfold interp1d. cbn [length Nat.eqb combine]. rewrite sort_id by (cbn; repeat constructor; cbn; lra). cbn [map two_bins centre bin_at]. unfold interp, locate. cbn [fst snd].
    rewrite (proj2 (Rltb_false 1.5 1)), (proj2 (Rltb_true 1.5 3)), (proj2 (Rltb_false 2.5 1)), (proj2 (Rltb_true 2.5 3)) by lra. cbn [fst snd]. f_equal. f_equal; [lra|]. f_equal. lra. }
  rewrite E. cbn [bind]. rewrite (bin_signal_tiling two_bins [0.4; 0.8] 1 3 two_bins_tile two_bins_proper) by reflexivity.
  eexists. eexists. split; [reflexivity|]. cbn. unfold outside. rewrite (proj2 (Rltb_false 1.5 1)), (proj2 (Rltb_false 2 1.5)), (proj2 (Rltb_false 2.5 1)), (proj2 (Rltb_true 2 2.5)) by lra. reflexivity.
Qed.
Example ex_windows : exists w, spectrometer_windows {| k_radius := None; k_scale := Some 2; k_spatial := None; k_spectral := None |} (fun w => 10 * w) 3 5 (edges_of two_bins) two_bins = Ok w.
Proof. destruct (C36_spectrometer_window {| k_radius := None; k_scale := Some 2; k_spatial := None; k_spectral := None |} (fun w => 10 * w) 3 5 two_bins 1 3) as (w & E & _); [discriminate|apply two_bins_tile|]. eauto. Qed.
