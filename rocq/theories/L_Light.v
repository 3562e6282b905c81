(** Lemmas about diffuse light. *)
From Verif Require Import Base Dict XR M_Signal M_Optics M_Light S_Signal S_Optics S_Light L_Signal P_Signal L_Optics.
From Coq Require Import Lia.
Open Scope list_scope.
Open Scope R_scope.

(** ** Sums *)
Lemma rsum_total l : rsum l = total l.
Proof. unfold total. induction l as [|x l IH]; cbn; congruence. Qed.
Lemma total_app a b : total (a ++ b) = total a + total b.
Proof. unfold total. induction a as [|x a IH]; cbn; lra. Qed.
Lemma total_ext {A} (f g : A -> R) l : (forall x, In x l -> f x = g x) -> total (map f l) = total (map g l).
Proof. unfold total. induction l as [|x l IH]; cbn; intros H; auto. rewrite H, IH; auto. Qed.
Lemma total_plus {A} (f g : A -> R) l : total (map (fun x => f x + g x) l) = total (map f l) + total (map g l).
Proof. unfold total. induction l as [|x l IH]; cbn; lra. Qed.
Lemma total_scale {A} k (f : A -> R) l : total (map (fun x => k * f x) l) = k * total (map f l).
Proof. unfold total. induction l as [|x l IH]; cbn; [lra|]. rewrite IH. lra. Qed.
Lemma total_nonneg l : nonneg l -> 0 <= total l.
Proof. unfold nonneg, total. induction l as [|x l IH]; cbn; intros H; [lra|]. assert (0 <= x) by auto. assert (0 <= fold_right Rplus 0 l) by auto. lra. Qed.
Lemma total_zero {A} (f : A -> R) l : (forall x, In x l -> f x = 0) -> total (map f l) = 0.
Proof. unfold total. induction l as [|x l IH]; cbn; intros H; auto. rewrite H, IH; auto. lra. Qed.
Lemma total_swap {A B} (f : A -> B -> R) (k : list A) (l : list B) :
  total (map (fun x => total (map (fun y => f x y) l)) k) = total (map (fun y => total (map (fun x => f x y) k)) l).
Proof.
  induction k as [|x k IH]; cbn.
  - symmetry. now apply total_zero.
  - change (total (map (fun y => f x y) l) + total (map (fun x => total (map (fun y => f x y) l)) k) = total (map (fun y => f x y + total (map (fun x => f x y) k)) l)).
    rewrite IH. now rewrite total_plus.
Qed.
Lemma sum_below_ext n f g : (forall i, (i < n)%nat -> f i = g i) -> sum_below n f = sum_below n g.
Proof. intros H. apply total_ext. intros x Hx. apply in_seq in Hx. apply H. lia. Qed.
Lemma sum_below_scale n k f : sum_below n (fun i => k * f i) = k * sum_below n f.
Proof. apply total_scale. Qed.
Lemma sum_below_plus n f g : sum_below n (fun i => f i + g i) = sum_below n f + sum_below n g.
Proof. apply total_plus. Qed.
Lemma sum_below_nonneg n f : (forall i, (i < n)%nat -> 0 <= f i) -> 0 <= sum_below n f.
Proof. intros H. apply total_nonneg. intros x Hx. apply in_map_iff in Hx. destruct Hx as (i & <- & Hi). apply in_seq in Hi. apply H. lia. Qed.
Lemma sum_below_S n f : sum_below (S n) f = f 0%nat + sum_below n (fun i => f (S i)).
Proof. unfold sum_below, total. cbn [seq map fold_right]. rewrite <- seq_shift, map_map. reflexivity. Qed.
Lemma sum_below_last n f : sum_below (S n) f = sum_below n f + f n.
Proof. unfold sum_below. rewrite seq_S, map_app, total_app. cbn. lra. Qed.
Lemma sum_below_at (f : R -> R) l : total (map f l) = sum_below (length l) (fun i => f (at_ i l)).
Proof.
  unfold sum_below, at_. induction l as [|x l IH]; auto. cbn [length seq map]. rewrite <- seq_shift, map_map.
  change (f x + total (map f l) = f x + total (map (fun i => f (nth i l 0)) (seq 0 (length l)))). now rewrite IH.
Qed.

(** ** Arrays *)
Lemma at_In i l : (i < length l)%nat -> In (at_ i l) l.
Proof. apply nth_In. Qed.
Lemma nonneg_at l i : nonneg l -> 0 <= at_ i l.
Proof.
  intros H. destruct (Nat.lt_ge_cases i (length l)) as [Hi|Hi]; [now apply H, at_In|]. unfold at_. rewrite nth_overflow by auto. lra.
Qed.
Lemma nonneg_of_at l : (forall i, (i < length l)%nat -> 0 <= at_ i l) -> nonneg l.
Proof. intros H x Hx. apply (In_nth _ _ 0) in Hx. destruct Hx as (i & Hi & <-). now apply H. Qed.
Lemma at_map (f : R -> R) l i : (i < length l)%nat -> at_ i (map f l) = f (at_ i l).
Proof. intros H. unfold at_. rewrite nth_indep with (d' := f 0) by (rewrite map_length; auto). apply map_nth. Qed.
Lemma scaled_length k a : length (scaled k a) = length a.
Proof. apply map_length. Qed.
Lemma scaled_at k a i : at_ i (scaled k a) = at_ i a * k.
Proof.
  unfold at_, scaled. revert i. induction a as [|x a IH]; intros [|i]; cbn; try lra; auto.
Qed.
Lemma times_ok a b c : times a b = Ok c -> length a = length b /\ length c = length a /\ forall i, at_ i c = at_ i a * at_ i b.
Proof.
  unfold times. destruct (Nat.eqb_spec (length a) (length b)) as [E|]; [|discriminate]. intros H. assert (c = mul a b) as -> by congruence.
  split; auto. split; [now apply mul_length|]. intros i. now apply mul_at.
Qed.
Lemma times_same a b : length a = length b -> times a b = Ok (mul a b).
Proof. intros H. unfold times. now rewrite H, Nat.eqb_refl. Qed.
Lemma plus_ok a b c : plus a b = Ok c -> length a = length b /\ length c = length a /\ forall i, at_ i c = at_ i a + at_ i b.
Proof.
  unfold plus. destruct (Nat.eqb_spec (length a) (length b)) as [E|]; [|discriminate]. intros H.
  assert (c = map (fun p => fst p + snd p) (combine a b)) as -> by congruence. split; auto.
  split; [rewrite map_length, combine_length; lia|]. unfold at_. clear H.
  revert b E. induction a as [|x a IH]; intros [|y b] E [|i]; cbn in *; try lia; try lra; apply IH; lia.
Qed.

(** ** The trapezium rule *)
Lemma trapz_spec x : forall y, length y = length x -> trapz x y = trapezia x (fun i => at_ i y).
Proof.
  unfold trapezia. induction x as [|a x IH]; intros y H; [reflexivity|]. destruct x as [|b x].
  - destruct y; reflexivity.
  - destruct y as [|p [|q y]]; cbn in H; try lia. change (trapz (a :: b :: x) (p :: q :: y)) with ((b - a) * (q + p) / 2 + trapz (b :: x) (q :: y)). rewrite IH by (cbn; lia).
    replace (length (a :: b :: x) - 1)%nat with (S (length (b :: x) - 1)) by (cbn; lia). rewrite sum_below_S.
    f_equal. unfold at_. cbn [nth]. lra.
Qed.
Lemma trapezia_ext x f g : (forall i, (i < length x)%nat -> f i = g i) -> trapezia x f = trapezia x g.
Proof. intros H. apply sum_below_ext. intros i Hi. rewrite !H by lia. reflexivity. Qed.
Lemma trapezia_linear x f g a b : trapezia x (fun i => a * f i + b * g i) = a * trapezia x f + b * trapezia x g.
Proof.
  unfold trapezia. rewrite <- !sum_below_scale, <- sum_below_plus. apply sum_below_ext. intros. lra.
Qed.
Lemma trapezia_scale x f k : trapezia x (fun i => f i * k) = trapezia x f * k.
Proof. rewrite (trapezia_ext x _ (fun i => k * f i + 0 * f i)) by (intros; lra). rewrite trapezia_linear. lra. Qed.
Lemma trapezia_nonneg x f : nondecreasing x -> (forall i, (i < length x)%nat -> 0 <= f i) -> 0 <= trapezia x f.
Proof.
  intros Hx Hf. apply sum_below_nonneg. intros i Hi.
  assert (at_ i x <= at_ (S i) x). { apply (sorted_neighbours Rle x); auto. apply neighbours_nth. exists i. repeat split; lia || auto. }
  assert (0 <= f i) by (apply Hf; lia). assert (0 <= f (S i)) by (apply Hf; lia).
  unfold Rdiv. apply Rmult_le_pos; [apply Rmult_le_pos; lra|lra].
Qed.

(** ** Photons *)
Lemma photons_eq w : photons_per_joule w = photons w.
Proof. unfold photons_per_joule, photons, speed_of_light, planck_constant. field. Qed.
Lemma photons_nonneg w : 0 <= w -> 0 <= photons w.
Proof. intros H. unfold photons, Rdiv. apply Rmult_le_pos; [|left; apply Rinv_0_lt_compat; lra]. apply Rmult_le_pos; auto. apply pow_le. lra. Qed.
Lemma map_photons wl : map photons_per_joule wl = map photons wl.
Proof. apply map_ext, photons_eq. Qed.

(** ** Resampling *)
Lemma combine_known wl (data : list R) : combine (map Some wl) data = known (combine wl data).
Proof. unfold known. revert data. induction wl as [|w wl IH]; intros [|d data]; cbn; auto. now rewrite IH. Qed.
Lemma wls_combine (wl data : list R) : length data = length wl -> wls (combine wl data) = wl.
Proof. unfold wls. revert data. induction wl as [|w wl IH]; intros [|d data] H; cbn in *; try lia; auto. now rewrite IH by lia. Qed.
Lemma snd_combine (wl data : list R) : length data = length wl -> map snd (combine wl data) = data.
Proof. revert data. induction wl as [|w wl IH]; intros [|d data] H; cbn in *; try lia; auto. now rewrite IH by lia. Qed.
Lemma resample_ok wl s s' : increasing wl -> resample wl s = Ok s' -> s_wl s' = wl /\ length (s_data s') = length wl /\ length (s_wl s) = length (s_data s).
Proof.
  intros Hw E. unfold resample in E. destruct (Nat.eqb_spec (length (s_wl s)) (length (s_data s))) as [Hl|]; [|discriminate].
  destruct (spectral_rebin um_ um_ (map Some wl) _) as [[g y]|] eqn:Er; [|discriminate]. cbn [bind] in E.
  assert (s' = {| s_wl := wl; s_data := y |}) as -> by congruence. cbn. apply C22_signal_on_increasing_grid in Er; tauto.
Qed.
Lemma resample_bounds wl s s' hi : resample wl s = Ok s' -> 0 <= hi -> (forall x, In x (s_data s) -> 0 <= x <= hi) -> forall x, In x (s_data s') -> 0 <= x <= hi.
Proof.
  intros E Hh Hb x Hx. unfold resample in E. destruct (Nat.eqb _ _); [|discriminate].
  destruct (spectral_rebin um_ um_ (map Some wl) _) as [[g y]|] eqn:Er; [|discriminate]. cbn [bind] in E.
  assert (s' = {| s_wl := wl; s_data := y |}) as -> by congruence. cbn in Hx.
  eapply C21_sign_and_unit_interval_kept; eauto. intros [o v] Hp. apply in_combine_r in Hp. cbn. now apply Hb.
Qed.
Lemma list_bounded l : exists hi, 0 <= hi /\ forall x, In x l -> x <= hi.
Proof.
  induction l as [|a l (hi & H0 & H)]; [exists 0; split; [lra|intros ? []]|].
  exists (Rmax a hi). split; [eapply Rle_trans; [exact H0|apply Rmax_r]|]. intros x [<-|Hx]; [apply Rmax_l|]. eapply Rle_trans; [now apply H|apply Rmax_r].
Qed.
Lemma resample_nonneg wl s s' : resample wl s = Ok s' -> nonneg (s_data s) -> nonneg (s_data s').
Proof.
  intros E H x Hx. destruct (list_bounded (s_data s)) as (hi & H0 & Hh).
  apply (resample_bounds _ _ _ hi E H0 (fun y Hy => conj (H y Hy) (Hh y Hy)) x Hx).
Qed.
Lemma visible_all lo hi (src : list (R * R)) : (forall p, In p src -> 0.9 * lo < fst p < 1.1 * hi) -> visible lo hi src = src.
Proof.
  unfold visible. induction src as [|p src IH]; intros H; auto. cbn [filter].
  assert (Hp : 0.9 * lo < fst p < 1.1 * hi) by (apply H; now left).
  destruct (Rlt_dec _ _); [|lra]. destruct (Rlt_dec _ _); [|lra]. cbn [andb]. rewrite IH; auto. intros q Hq. apply H. now right.
Qed.
Lemma not_finer_self (src : list (R * R)) : (2 <= length src)%nat -> ~ finer src (wls src).
Proof.
  intros H Hf. destruct src as [|p [|q src]]; cbn in H; try lia. 
  apply (Rlt_irrefl (fst q - fst p)). apply (Hf p q (fst p) (fst q)).
  - exists [], src. reflexivity.
  - exists [], (wls src). reflexivity.
Qed.
Lemma combine_map_self (wl : list R) (f : R -> option R) w o : In (w, o) (combine wl (map f wl)) -> o = f w.
Proof. induction wl as [|a wl IH]; cbn; [intros []|]. intros [H|H]; auto. congruence. Qed.
(** rebinning onto its own grid changes nothing *)
Lemma resample_self s : wavelength_grid (s_wl s) -> one_value_per_wavelength s -> resample (s_wl s) s = Ok s.
Proof.
  destruct s as [wl data]. cbn. intros (Hs & H2 & Hp) Hl. unfold one_value_per_wavelength in Hl. cbn in Hl.
  unfold resample. cbn. rewrite Hl, Nat.eqb_refl, combine_known. set (src := combine wl data).
  assert (Ew : wls src = wl) by now apply wls_combine.
  destruct (least_exists wl) as [lo Hlo]; [intros ->; cbn in H2; lia|]. destruct (greatest_exists wl) as [hi Hhi]; [intros ->; cbn in H2; lia|].
  assert (Hsrc : increasing (wls src)) by now rewrite Ew.
  assert (Hvis : visible lo hi src = src).
  { apply visible_all. intros p Hin. assert (In (fst p) wl) by (rewrite <- Ew; now apply in_map).
    assert (lo <= fst p <= hi) by (split; [now apply Hlo|now apply Hhi]). assert (0 < lo) by (apply Hp, Hlo). lra. }
  assert (Hl2 : (2 <= length src)%nat) by (unfold src; rewrite combine_length; lia).
  destruct (rebin_increasing um_ wl src lo hi Hs H2 Hlo Hhi (increasing_nondecreasing _ Hsrc)) as (_ & _ & Hc).
  rewrite Hvis, keep_last_increasing in Hc by auto. assert (Hnf : ~ finer src wl) by (rewrite <- Ew; now apply not_finer_self).
  specialize (Hc Hl2 Hnf). unfold spectral_rebin. rewrite Hc. cbn [bind].
  f_equal. f_equal. rewrite map_map. 
  pose proof (fun w => C23_interpolation um_ wl src lo hi wl _ Hs Hlo Hhi Hsrc ltac:(cbv zeta; rewrite Hvis; exact Hnf) Hc w) as HI. cbv zeta in HI. rewrite Hvis in HI.
  apply at_ext; [rewrite map_length; congruence|]. rewrite map_length. intros k Hk. rewrite at_map by auto.
  assert (Hin : In (at_ k wl, at_ k data) src).
  { unfold src, at_. rewrite <- combine_nth by auto. apply nth_In. rewrite combine_length. lia. }
  destruct (HI (at_ k wl) (Some (interp src (at_ k wl)))) as (v & Ev & Hv & _).
  - clear - Hk. unfold at_. revert k Hk. generalize (interp src) as f. intros f. induction wl as [|a wl IH]; intros k Hk; cbn in Hk; [lia|]. destruct k; cbn; [now left|]. right. apply IH. lia.
  - assert (interp src (at_ k wl) = v) by congruence. rewrite H. exact (Hv _ Hin eq_refl).
Qed.
Lemma resample_twice wl s s' : wavelength_grid wl -> resample wl s = Ok s' -> resample wl s' = Ok s'.
Proof.
  intros Hw E. destruct (resample_ok wl s s' (proj1 Hw) E) as (H1 & H2 & _). rewrite <- H1 at 1. apply resample_self; [now rewrite H1|].
  unfold one_value_per_wavelength. now rewrite H1.
Qed.

(** ** Masks, convolution *)
Lemma total_filter {A} (P : A -> bool) (f : A -> R) l : total (map f (filter P l)) = total (map (fun x => if P x then f x else 0) l).
Proof. unfold total. induction l as [|x l IH]; cbn; auto. destruct (P x); cbn; lra. Qed.
Lemma indexed_sum (P : nat -> bool) a : forall s,
  total (map (fun p => if P (fst p) then snd p else 0) (combine (seq s (length a)) a)) = sum_below (length a) (fun j => if P (s + j)%nat then at_ j a else 0).
Proof.
  induction a as [|x a IH]; intros s; auto. cbn [length seq combine map]. rewrite sum_below_S.
  change (total ((if P s then x else 0) :: map (fun p => if P (fst p) then snd p else 0) (combine (seq (S s) (length a)) a)) = (if P (s + 0)%nat then x else 0) + sum_below (length a) (fun j => if P (s + S j)%nat then at_ j a else 0)).
  rewrite Nat.add_0_r. cbn. f_equal. change (fold_right Rplus 0) with total. rewrite IH. apply sum_below_ext. intros i _. now rewrite Nat.add_succ_r.
Qed.
Lemma at_map_seq (f : nat -> R) m i : (i < m)%nat -> at_ i (map f (seq 0 m)) = f i.
Proof.
  intros H. unfold at_. rewrite nth_indep with (d' := f 0%nat) by (rewrite map_length, seq_length; auto). rewrite map_nth, seq_nth by auto. reflexivity.
Qed.
Lemma half_window n : (0 < n)%nat -> (n - n / 2 - 1 = (n - 1) / 2)%nat.
Proof.
  intros H. pose proof (Nat.div_mod n 2 ltac:(lia)). pose proof (Nat.mod_upper_bound n 2 ltac:(lia)).
  pose proof (Nat.div_mod (n - 1) 2 ltac:(lia)). pose proof (Nat.mod_upper_bound (n - 1) 2 ltac:(lia)). lia.
Qed.
Lemma convolve_spec a n out : convolve_same a n = Ok out -> (0 < n)%nat /\ a <> [] /\ length out = Nat.max (length a) n
  /\ ((n <= length a)%nat -> forall i, (i < length a)%nat -> at_ i out = sum_below (length a) (fun j => if reaches n i j then at_ j a else 0)).
Proof.
  unfold convolve_same. intros E. destruct a as [|x a]; [discriminate|]. destruct n as [|n]; [discriminate|].
  set (l := x :: a) in *. set (m := S n) in *.
  match type of E with Ok ?t = _ => assert (out = t) as -> by congruence end. clear E.
  split; [unfold m; lia|]. split; [discriminate|]. rewrite map_length, seq_length. split; auto. intros Hn i Hi.
  rewrite at_map_seq by lia. rewrite rsum_total. change (fun p : nat * R => Nat.leb (fst p) ?k && ?f) with (fun p : nat * R => Nat.leb (fst p) k && f).
  rewrite (total_filter (fun p : nat * R => Nat.leb (fst p) _ && _) snd).
  rewrite (indexed_sum (fun j => Nat.leb j (i + (Nat.min (length l) m - 1) / 2) && Nat.ltb (i + (Nat.min (length l) m - 1) / 2) (j + m)) l 0).
  apply sum_below_ext. intros j Hj. cbn [Nat.add]. rewrite Nat.min_r by lia. pose proof (half_window m ltac:(unfold m; lia)) as Hh.
  assert (m / 2 <= m)%nat by (apply Nat.div_le_upper_bound; lia). assert (0 < m)%nat by (unfold m; lia). assert (m / 2 < m)%nat by (apply Nat.div_lt; lia).
  replace (Nat.leb j (i + (m - 1) / 2) && Nat.ltb (i + (m - 1) / 2) (j + m)) with (reaches m i j); auto.
  unfold reaches. apply Bool.eq_iff_eq_true. rewrite !Bool.andb_true_iff, !Nat.leb_le, !Nat.ltb_lt. rewrite <- Hh. lia.
Qed.
Lemma select_spec (P : R -> bool) wl l part : select (map P wl) l = Ok part ->
  length wl = length l /\ rsum part = sum_below (length wl) (fun i => if P (at_ i wl) then at_ i l else 0)
  /\ forall x, In x part <-> exists i, (i < length wl)%nat /\ P (at_ i wl) = true /\ x = at_ i l.
Proof.
  unfold select. rewrite map_length. destruct (Nat.eqb_spec (length wl) (length l)) as [E|]; [|discriminate]. intros H.
  assert (part = map snd (filter fst (combine (map P wl) l))) as -> by congruence. clear H. split; auto. revert l E.
  induction wl as [|w wl IH]; intros [|y l] E; cbn [length] in E; try lia.
  - split; [reflexivity|]. intros x. cbn. split; [intros []|intros (i & Hi & _); lia].
  - destruct (IH l ltac:(lia)) as [H1 H2]. cbn [map combine filter fst length]. rewrite sum_below_S. change (at_ 0 (w :: wl)) with w. change (at_ 0 (y :: l)) with y.
    change (sum_below (length wl) (fun i => if P (at_ (S i) (w :: wl)) then at_ (S i) (y :: l) else 0)) with (sum_below (length wl) (fun i => if P (at_ i wl) then at_ i l else 0)).
    destruct (P w) eqn:Ew; cbn [map rsum snd].
    + split; [lra|]. intros x. cbn [In]. rewrite H2. split.
      * intros [<-|(i & Hi & Hp & ->)]; [exists 0%nat; repeat split; auto; lia|exists (S i); repeat split; auto; lia].
      * intros ([|i] & Hi & Hp & ->); [now left|right; exists i; repeat split; auto; lia].
    + split; [lra|]. intros x. rewrite H2. split.
      * intros (i & Hi & Hp & ->). exists (S i). repeat split; auto; lia.
      * intros ([|i] & Hi & Hp & ->); [cbn in Hp; congruence|exists i; repeat split; auto; lia].
Qed.
Lemma in_slit_bin_spec e w : in_slit_bin e w = in_bin_right e w.
Proof.
  unfold in_slit_bin, in_bin_right, Rltb. destruct (Rlt_dec (fst e) w); cbn; auto. destruct (Rlt_dec (snd e) w), (Rle_dec w (snd e)); cbn; auto; lra.
Qed.
Lemma array_max_spec l m : array_max l = Ok m -> greatest m l.
Proof. destruct l as [|x l]; [discriminate|]. cbn. intros H. assert (m = rmax x l) as -> by congruence. apply rmax_greatest. Qed.
Lemma whole_pixels_spec x : (0 < whole_pixels x)%nat -> pixels_in x (whole_pixels x).
Proof.
  unfold whole_pixels, pixels_in. intros H. destruct (Rfloor_spec x) as [H1 H2].
  assert (Hz : (0 < Rfloor x)%Z) by lia. rewrite INR_IZR_INZ, Z2Nat.id by lia. lra.
Qed.
Lemma whole_pixels_zero x : whole_pixels x = 0%nat <-> x < 1.
Proof.
  unfold whole_pixels. destruct (Rfloor_spec x) as [H1 H2]. split; intros H.
  - assert (Hz : (Rfloor x <= 0)%Z) by lia. apply IZR_le in Hz. lra.
  - assert (Hz : (Rfloor x < 1)%Z) by (apply lt_IZR; lra). lia.
Qed.
Lemma mapM_nth {A B} (f : A -> res B) l : forall out, mapM f l = Ok out -> length out = length l /\ forall i a, nth_error l i = Some a -> exists b, nth_error out i = Some b /\ f a = Ok b.
Proof.
  induction l as [|a l IH]; intros out E; cbn in E.
  - injection E as <-. split; auto. intros [|i] a H; discriminate.
  - dbind E b Hb. dbind E o Ho. assert (out = b :: o) as -> by congruence. destruct (IH _ eq_refl) as [H1 H2]. split; [cbn; congruence|].
    intros [|i] c H; cbn in *; eauto. exists b. split; auto. congruence.
Qed.

(** counts per second of pixel [j] without slit; [rad], [q]: radiance and quantum efficiency at the pixels *)
Definition pixel_counts (b : built) (wl dwl rad q : list R) (j : nat) : R :=
  counts_per_um_sr (b_delta b) rad q wl j * b_omega b * at_ j dwl.
Lemma slit_inv b bins slit qe light mx sg : convolve_with_slit b bins slit qe light = Ok (mx, sg) ->
  exists wl dwl rad q widths out, b_pix_wl b = Some wl /\ b_pix_width b = Some dwl /\ b_spatial b = Some widths
  /\ resample wl light = Ok rad /\ interp1d (s_wl qe) (s_data qe) wl = Ok q
  /\ (0 < whole_pixels (slit / b_delta b))%nat /\ length rad.(s_data) = length wl /\ length dwl = length wl
  /\ length out = Nat.max (length wl) (whole_pixels (slit / b_delta b))
  /\ ((whole_pixels (slit / b_delta b) <= length wl)%nat -> forall i, (i < length wl)%nat ->
        at_ i out = sum_below (length wl) (fun j => if reaches (whole_pixels (slit / b_delta b)) i j then pixel_counts b wl dwl (s_data rad) q j else 0))
  /\ exists parts, mapM (fun e => select (map (in_slit_bin e) wl) out) bins = Ok parts /\ sg = mul (map rsum parts) widths /\ mapM array_max parts = Ok mx.
Proof.
  unfold convolve_with_slit. intros E. dbind E wl Hwl. dbind E dwl Hdwl. dbind E rad Hrad. dbind E q Hq. dbind E x Hx. dbind E y Hy. dbind E out Hout. dbind E parts Hparts. dbind E widths Hw. dbind E m Hm.
  assert (m = mx /\ mul (map rsum parts) widths = sg) as [-> <-] by (split; congruence).
  unfold lookup in Hwl, Hdwl, Hw. destruct (b_pix_wl b); [|discriminate]. destruct (b_pix_width b); [|discriminate]. destruct (b_spatial b); [|discriminate].
  assert (l = wl /\ l0 = dwl /\ l1 = widths) as (-> & -> & ->) by (repeat split; congruence).
  exists wl, dwl, rad, q, widths, out. do 5 (split; [auto; congruence|]).
  apply interp1d_length in Hq as Hql. apply times_ok in Hx as (Hx1 & Hx2 & Hx3). apply times_ok in Hy as (Hy1 & Hy2 & Hy3).
  apply convolve_spec in Hout as (Hc1 & Hc2 & Hc3 & Hc4). rewrite scaled_length, mul_length in Hx1 by (rewrite map_length; auto).
  assert (Hlen : length y = length wl) by congruence. rewrite Hlen in *.
  split; auto. split; [congruence|]. split; [congruence|]. split; auto. split; [|eauto].
  intros Hn i Hi. rewrite Hc4 by auto. apply sum_below_ext. intros j Hj. destruct (reaches _ _ _); auto.
  rewrite Hy3, Hx3, scaled_at, mul_at by (rewrite map_length; auto). rewrite at_map by auto. rewrite photons_eq.
  unfold pixel_counts, counts_per_um_sr, pixel_area. lra.
Qed.
Lemma element_light_free b bins wl qe r : ~ behind_slit b r -> wavelength_grid wl -> forall l qe', element_light b bins wl qe r = Ok (l, qe') ->
  resample wl qe = Ok qe' /\ length (r_data r) = length wl
  /\ let pixel := trapezia wl (fun i => counts_per_um_sr (b_delta b) (r_data r) (s_data qe') wl i) * angle_for (r_pos r) (b_omega b) in
     fst l = map (fun _ => pixel) (b_size b) /\ snd l = map (fun w => pixel * w) (b_size b).
Proof.
  intros Hs Hw l qe' E. unfold element_light in E. dbind E qe1 Hq. destruct (resample_ok wl qe qe1 (proj1 Hw) Hq) as (Hq1 & Hq2 & _).
  assert (E' : (let* x := times (r_data r) (scaled (pixel_area b) (mul (s_data qe1) (map photons_per_joule (s_wl qe1)))) in
      Ok (integrate_light b (scaled (solid_angle b (r_pos r)) x) wl, qe1)) = Ok (l, qe')).
  { destruct (r_slit r) eqn:Er, (b_slit b) eqn:Eb; auto. exfalso. apply Hs. split; congruence. }
  clear E. dbind E' x Hx. assert (qe' = qe1) as -> by congruence. assert (l = integrate_light b (scaled (solid_angle b (r_pos r)) x) wl) as -> by congruence.
  apply times_ok in Hx as (Hx1 & Hx2 & Hx3). rewrite scaled_length, mul_length in Hx1 by (rewrite map_length; congruence).
  split; auto. split; [congruence|]. cbv zeta.
  assert (Ht : trapz wl (scaled (solid_angle b (r_pos r)) x) = trapezia wl (fun i => counts_per_um_sr (b_delta b) (r_data r) (s_data qe1) wl i) * angle_for (r_pos r) (b_omega b)).
  { rewrite trapz_spec by (rewrite scaled_length; congruence). rewrite <- trapezia_scale. apply trapezia_ext. intros i Hi.
    rewrite scaled_at, Hx3, scaled_at, mul_at by (rewrite map_length; congruence). rewrite Hq1, at_map by auto. rewrite photons_eq.
    unfold counts_per_um_sr, pixel_area, solid_angle, angle_for. destruct (r_pos r); lra. }
  unfold integrate_light. rewrite Ht. split; [|reflexivity]. cbn. apply map_ext. intros. lra.
Qed.
Lemma element_light_qe b bins wl qe r l qe' : element_light b bins wl qe r = Ok (l, qe') -> resample wl qe = Ok qe'.
Proof.
  unfold element_light. intros E. dbind E q Hq. destruct (r_slit r), (b_slit b); dbind E x Hx; congruence.
Qed.
Lemma element_light_again b bins wl qe r q : wavelength_grid wl -> resample wl qe = Ok q -> element_light b bins wl q r = element_light b bins wl qe r.
Proof. intros Hw E. unfold element_light. now rewrite E, (resample_twice _ _ _ Hw E). Qed.

Lemma F2_impl {A B} (P Q : A -> B -> Prop) l k : (forall a b, P a b -> Q a b) -> Forall2 P l k -> Forall2 Q l k.
Proof. intros H HF. induction HF; constructor; auto. Qed.
Lemma sum_light_spec b bins wl : wavelength_grid wl -> forall rads qe out em, sum_light b bins wl qe rads out = Ok em ->
  exists lights, Forall2 (fun kr l => exists q, element_light b bins wl qe (snd kr) = Ok (l, q)) rads lights
  /\ by_element em = dupdate String.eqb (by_element out) (combine (map fst rads) lights)
  /\ length (total_signal em) = length (total_signal out) /\ length (total_max em) = length (total_max out)
  /\ Forall (fun l => length (snd l) = length (total_signal out) /\ length (fst l) = length (total_max out)) lights
  /\ forall i, at_ i (total_signal em) = at_ i (total_signal out) + total (map (fun l => at_ i (snd l)) lights)
            /\ at_ i (total_max em) = at_ i (total_max out) + total (map (fun l => at_ i (fst l)) lights).
Proof.
  intros Hw. induction rads as [|[k r] rads IH]; intros qe out em E; cbn [sum_light] in E.
  - injection E as <-. exists []. cbn. repeat split; auto; unfold total; cbn; lra.
  - destruct (element_light b bins wl qe r) as [[l q]|] eqn:El; [|discriminate]. cbn [bind] in E. dbind E t Ht. dbind E m Hm.
    apply IH in E. destruct E as (ls & H1 & H2 & H3 & H4 & H5 & H6). cbn [by_element total_signal total_max] in *.
    apply plus_ok in Ht as (Ht1 & Ht2 & Ht3). apply plus_ok in Hm as (Hm1 & Hm2 & Hm3).
    exists (l :: ls). split; [|split; [|split; [|split; [|split]]]].
    + constructor; [eauto|]. eapply F2_impl; [|exact H1]. cbn. intros [k' r'] l' (q' & H). exists q'. cbn in H |- *. rewrite <- H. symmetry. exact (element_light_again b bins wl qe r' q Hw (element_light_qe _ _ _ _ _ _ _ El)).
    + rewrite H2. reflexivity.
    + congruence.
    + congruence.
    + constructor; [split; congruence|]. eapply Forall_impl; [|exact H5]. cbn. intros a [Ha Hb]. split; congruence.
    + intros i. destruct (H6 i) as [H7 H8]. rewrite H7, H8, Ht3, Hm3. unfold total. cbn. split; lra.
Qed.
Lemma dof_combine {V} (ks : list string) (vs : list V) : NoDup ks -> length vs = length ks -> dupdate String.eqb [] (combine ks vs) = combine ks vs.
Proof.
  intros Hn Hl. change (dof_list String.eqb (combine ks vs) = combine ks vs). apply dof_list_distinct; [apply String_eqb_spec|].
  replace (map fst (combine ks vs)) with ks; auto. clear Hn. revert vs Hl. induction ks as [|k ks IH]; intros [|v vs] Hl; cbn in *; try lia; auto. f_equal. apply IH. lia.
Qed.
