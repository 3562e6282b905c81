(** Properties of diffuse light: self emission (C27, C28), its integration and the slit (C34, C56),
    foregrounds (C30), rebinning onto the own grid (C61). *)
From Verif Require Import Base Dict XR M_Signal M_Optics M_Light S_Signal S_Optics S_Light L_Signal P_Signal L_Optics P_Optics L_Light.
From Coq Require Import Lia.
Open Scope list_scope.
Open Scope R_scope.

(** ** C61 *)
(** Rebinning a signal onto its own wavelengths changes nothing. *)
Theorem C61_own_grid_identity : forall s, wavelength_grid (s_wl s) -> one_value_per_wavelength s -> resample (s_wl s) s = Ok s.
Proof. exact resample_self. Qed.
Print Assumptions C61_own_grid_identity.
(** Hence rebinning twice onto a grid is rebinning once. *)
Theorem C61_rebinning_idempotent : forall wl s s', wavelength_grid wl -> resample wl s = Ok s' -> resample wl s' = Ok s'.
Proof. exact resample_twice. Qed.
Print Assumptions C61_rebinning_idempotent.

(** ** C27 *)
(** Which solid angle: by the type of the element, whatever else its description says. *)
Theorem C27_position_by_type : forall d wl e, build_element d wl = Ok e ->
  (sget "type" d = Some (Txt "detector box") -> forall omega, angle_for (e_pos e) omega = PI)
  /\ (sget "type" d = Some (Txt "optics box") -> forall omega, angle_for (e_pos e) omega = PI - omega)
  /\ (forall ty, sget "type" d = Some (Txt ty) -> ty <> "detector box"%string -> ty <> "optics box"%string -> forall omega, angle_for (e_pos e) omega = omega).
Proof.
  intros d wl e E. apply build_element_inv in E. destruct E as (_ & Ht & _ & _ & _ & _ & -> & _). unfold get_position. rewrite Ht. split; [|split].
  - intros H omega. assert (e_type e = "detector box"%string) as -> by congruence. reflexivity.
  - intros H omega. assert (e_type e = "optics box"%string) as -> by congruence. reflexivity.
  - intros ty H H1 H2 omega. assert (e_type e = ty) as -> by congruence. destruct (String.eqb_spec ty "detector box"); [contradiction|]. destruct (String.eqb_spec ty "optics box"); [contradiction|]. reflexivity.
Qed.
Print Assumptions C27_position_by_type.

(** The radiance of an element keeps the position of that element along the whole path. *)
Theorem C27_radiance_position : forall planck wl els rads slit k r, chain planck wl els = Ok (rads, slit) -> sget k rads = Some r ->
  exists e, In e (sequence els) /\ emits e /\ e_name e = k /\ r_pos r = e_pos e.
Proof.
  intros planck wl els rads slit k r E. unfold chain in E. unfold sequence. generalize dependent slit. generalize (@None R) as s0.
  assert (G : forall (L : list element) out, (forall x, sget k out = Some x -> exists e, In e (map snd els) /\ emits e /\ e_name e = k /\ r_pos x = e_pos e) ->
    incl L (map snd els) -> forall s0 s1, chain_from planck wl L out s0 = Ok (rads, s1) -> sget k rads = Some r -> exists e, In e (map snd els) /\ emits e /\ e_name e = k /\ r_pos r = e_pos e).
  { induction L as [|e L IH]; intros out Hout Hi s0 s1 E Hr; cbn [chain_from] in E.
    - assert (out = rads) as -> by congruence. eauto.
    - destruct (e_temp e) as [t|] eqn:Et; [|eapply IH; eauto; intros x Hx; apply Hi; now right].
      destruct (pass_through L _ s0) as [[rad s2]|] eqn:Ep; [|discriminate]. cbn [bind] in E.
      eapply IH; [| |exact E|exact Hr]; [|intros x Hx; apply Hi; now right].
      intros x Hx. destruct (String.eqb_spec k (e_name e)) as [->|Hne].
      + rewrite dget_dset_same in Hx by apply String_eqb_spec. assert (x = rad) as -> by congruence. exists e. split; [apply Hi; now left|]. split; [unfold emits; congruence|]. split; auto.
        assert (Hp : forall l rd s rd' s', pass_through l rd s = Ok (rd', s') -> r_pos rd' = r_pos rd).
        { clear. induction l as [|e l IH]; intros rd s rd' s' E; cbn [pass_through] in E; [congruence|]. destruct (String.eqb _ _).
          - dbind E w Hw. apply IH in E. auto.
          - apply IH in E. auto. }
        apply Hp in Ep. exact Ep.
      + rewrite dget_dset_other in Hx; [now apply Hout|apply String_eqb_spec|auto]. }
  intros s0 slit E Hr. eapply (G (map snd els) []); eauto; [discriminate|apply incl_refl].
Qed.
Print Assumptions C27_radiance_position.

(** Without a slit in between, what one pixel collects from an element is the integral of its
    radiance, weighted by pixel area, quantum efficiency and photons per joule, times that angle;
    the signal is this times the window size, bin by bin. *)
Theorem C27_signal_without_slit : forall b bins wl rads em k r, wavelength_grid wl -> NoDup (map fst rads) -> compute_signal b bins wl rads = Ok em ->
  sget k rads = Some r -> ~ behind_slit b r -> exists qe light, resample wl (b_qe b) = Ok qe /\ sget k (by_element em) = Some light
  /\ let pixel := trapezia wl (counts_per_um_sr (b_delta b) (r_data r) (s_data qe) wl) * angle_for (r_pos r) (b_omega b) in
     fst light = map (fun _ => pixel) (b_size b) /\ snd light = map (fun w => pixel * w) (b_size b).
Proof.
  intros b bins wl rads em k r Hw Hn E Hk Hs. unfold compute_signal in E. apply sum_light_spec in E; auto. destruct E as (ls & H1 & H2 & _). cbn [by_element] in H2.
  rewrite H2, dof_combine; auto; [|rewrite map_length; symmetry; eapply Forall2_len; eauto].
  assert (Hg : exists l q, element_light b bins wl (b_qe b) r = Ok (l, q) /\ sget k (combine (map fst rads) ls) = Some l).
  { clear - H1 Hk. induction H1 as [|[k' r'] l rads ls (q & Hq) H1 IH]; [discriminate|]. cbn in Hk |- *. destruct (String.eqb k k').
    - assert (r' = r) as <- by congruence. eauto.
    - auto. }
  destruct Hg as (l & q & Hl & Hg). destruct (element_light_free b bins wl (b_qe b) r Hs Hw l q Hl) as (Hq & _ & Hf). exists q, l. auto.
Qed.
Print Assumptions C27_signal_without_slit.

(** The solid angle given in a description plays no role at all: paths differing only there emit
    the same. *)
Definition forget_angle (e : element) : element :=
  {| e_name := e_name e; e_descr := e_descr e; e_type := e_type e; e_tr := e_tr e; e_em := e_em e; e_temp := e_temp e; e_pos := e_pos e; e_angle := None |}.
Theorem C27_given_solid_angle_used_refuted : forall planck wl els,
  chain planck wl (map (fun p => (fst p, forget_angle (snd p))) els) = chain planck wl els.
Proof.
  intros planck wl els. unfold chain. rewrite map_map. cbn. rewrite <- (map_map snd forget_angle). generalize (map snd els) as L. clear els. generalize (@None R) as s. generalize (@nil (string * radiance)) as out.
  assert (Hp : forall l rd s, pass_through (map forget_angle l) rd s = pass_through l rd s).
  { induction l as [|e l IH]; intros rd s; auto. cbn [map pass_through forget_angle e_type e_tr e_descr]. destruct (String.eqb _ _); [|apply IH]. destruct (number (e_descr e) "width"); auto. apply IH. }
  intros out s L. revert out s. induction L as [|e L IH]; intros out s; auto. cbn [map chain_from]. cbn [forget_angle e_temp e_em e_pos e_name]. destruct (e_temp e); [|apply IH].
  rewrite Hp. destruct (pass_through L _ s) as [[rd s']|]; auto. apply IH.
Qed.
Print Assumptions C27_given_solid_angle_used_refuted.

(** ** C28 *)
Theorem C28_sum_of_element_signals : forall b bins wl rads em, wavelength_grid wl -> NoDup (map fst rads) -> compute_signal b bins wl rads = Ok em ->
  map fst (by_element em) = map fst rads /\ length (total_signal em) = length bins /\ length (total_max em) = length bins
  /\ (forall k l, sget k (by_element em) = Some l -> length (fst l) = length bins /\ length (snd l) = length bins)
  /\ forall i, at_ i (total_signal em) = total (map (fun p => at_ i (snd (snd p))) (by_element em))
            /\ at_ i (total_max em) = total (map (fun p => at_ i (fst (snd p))) (by_element em)).
Proof.
  intros b bins wl rads em Hw Hn E. unfold compute_signal in E. apply sum_light_spec in E; auto. destruct E as (ls & H1 & H2 & H3 & H4 & H5 & H6). cbn [by_element total_signal total_max] in *.
  rewrite map_length in *. assert (Hl : length ls = length (map fst rads)) by (rewrite map_length; symmetry; eapply Forall2_len; eauto).
  rewrite dof_combine in H2 by auto. rewrite H2.
  assert (Hm : forall (f : list R * list R -> R), map (fun p => f (snd p)) (combine (map fst rads) ls) = map f ls).
  { intros f. clear - Hl. revert ls Hl. induction (map fst rads) as [|k ks IH]; intros [|l ls] Hl; cbn in *; try lia; auto. f_equal. apply IH. lia. }
  split; [|split; [|split; [|split]]]; auto.
  - clear - Hl. revert ls Hl. induction (map fst rads) as [|k ks IH]; intros [|l ls] Hl; cbn in *; try lia; auto. f_equal. apply IH. lia.
  - intros k l Hk. apply dget_Some_In in Hk; [|apply String_eqb_spec]. apply in_combine_r in Hk. rewrite Forall_forall in H5. apply H5 in Hk. tauto.
  - intros i. destruct (H6 i) as [Ha Hb].
    assert (Hz : at_ i (map (fun _ : R * R => 0) bins) = 0) by (unfold at_; clear; revert i; induction bins; intros [|i]; cbn; auto).
    rewrite Hz in Ha, Hb. rewrite (Hm (fun l => at_ i (snd l))), (Hm (fun l => at_ i (fst l))). lra.
Qed.
Print Assumptions C28_sum_of_element_signals.

(** The signal of an element is what it would be if it were the only one. *)
Theorem C28_elements_do_not_interfere : forall b bins wl rads em k r, wavelength_grid wl -> NoDup (map fst rads) -> compute_signal b bins wl rads = Ok em ->
  sget k rads = Some r -> exists alone l, compute_signal b bins wl [(k, r)] = Ok alone /\ sget k (by_element em) = Some l /\ sget k (by_element alone) = Some l.
Proof.
  intros b bins wl rads em k r Hw Hn E Hk. unfold compute_signal in E. apply sum_light_spec in E; auto. destruct E as (ls & H1 & H2 & _ & _ & H5 & _). cbn [by_element total_signal total_max] in *.
  rewrite dof_combine in H2; auto; [|rewrite map_length; symmetry; eapply Forall2_len; eauto].
  assert (Hg : exists l q, element_light b bins wl (b_qe b) r = Ok (l, q) /\ sget k (combine (map fst rads) ls) = Some l /\ In l ls).
  { clear - H1 Hk. induction H1 as [|[k' r'] l rads ls (q & Hq) H1 IH]; [discriminate|]. cbn in Hk |- *. destruct (String.eqb k k').
    - assert (r' = r) as <- by congruence. eauto 6.
    - destruct (IH Hk) as (l' & q' & Ha & Hb & Hc). eauto 6. }
  destruct Hg as (l & q & Hl & Hg & Hi). rewrite Forall_forall in H5. apply H5 in Hi. destruct Hi as [Hi1 Hi2]. rewrite map_length in Hi1, Hi2.
  unfold compute_signal. cbn [sum_light]. rewrite Hl. cbn [bind total_signal total_max by_element]. unfold plus. rewrite map_length, Hi1, Hi2, Nat.eqb_refl. cbn [bind].
  eexists. exists l. split; [reflexivity|]. rewrite H2. split; auto. cbn. rewrite String.eqb_refl. reflexivity.
Qed.
Print Assumptions C28_elements_do_not_interfere.

Theorem C28_nothing_emits : forall b bins wl, exists em, compute_signal b bins wl [] = Ok em /\ by_element em = []
  /\ total_signal em = map (fun _ => 0) bins /\ total_max em = map (fun _ => 0) bins.
Proof. intros. eexists. split; [reflexivity|]. auto. Qed.
Print Assumptions C28_nothing_emits.

(** what a physically meaningful channel provides *)
Definition sound (b : built) : Prop :=
  nonneg (s_data (b_qe b)) /\ nonneg (b_size b) /\ 0 <= b_omega b <= PI
  /\ (forall wl, b_pix_wl b = Some wl -> nonneg wl) /\ (forall d, b_pix_width b = Some d -> nonneg d) /\ (forall w, b_spatial b = Some w -> nonneg w).
Lemma counts_nonneg delta x q wl i : nonneg x -> nonneg q -> nonneg wl -> 0 <= counts_per_um_sr delta x q wl i.
Proof.
  intros Hx Hq Hw. unfold counts_per_um_sr.
  assert (H : 0 <= delta * delta / 10 ^ 12).
  { unfold Rdiv. apply Rmult_le_pos; [apply Rle_0_sqr|]. left. apply Rinv_0_lt_compat. apply pow_lt. lra. }
  apply Rmult_le_pos; [apply Rmult_le_pos; [apply Rmult_le_pos; auto|]|]; try (now apply nonneg_at). apply photons_nonneg. now apply nonneg_at.
Qed.
Lemma interp1d_nonneg x y wl r : interp1d x y wl = Ok r -> nonneg y -> nonneg r.
Proof.
  unfold interp1d. destruct x as [|x0 x]; [discriminate|]. destruct (Nat.eqb _ _); [|discriminate]. intros E Hy.
  assert (r = map (interp (sort_src (combine (x0 :: x) y))) wl) as -> by congruence. intros v Hv. apply in_map_iff in Hv. destruct Hv as (w & <- & _).
  destruct (list_bounded y) as (hi & Hh0 & Hh).
  destruct (interp_bounds (sort_src (combine (x0 :: x) y)) w 0 hi (sort_sorted _)) as [H|H]; [|rewrite H; lra|lra].
  intros [a c] Hp. apply (proj1 (sort_In _ _)) in Hp. apply in_combine_r in Hp. cbn. split; auto.
Qed.
Lemma slit_nonneg b bins slit qe light mx sg : sound b -> nonneg (s_data qe) -> nonneg (s_data light) -> bins <> [] ->
  convolve_with_slit b bins slit qe light = Ok (mx, sg) -> nonneg mx /\ nonneg sg.
Proof.
  intros (_ & _ & Ho & Hs1 & Hs2 & Hs3) Hq Hl Hb E. apply slit_inv in E. destruct E as (wl & dwl & rad & q & widths & out & E1 & E2 & E3 & E4 & E5 & E6 & E7 & E8 & E9 & E10 & parts & E11 & E12 & E13).
  assert (Hpix : forall j, 0 <= pixel_counts b wl dwl (s_data rad) q j).
  { intros j. unfold pixel_counts. apply Rmult_le_pos; [apply Rmult_le_pos; [|lra]|apply nonneg_at; eauto].
    apply counts_nonneg; eauto; [eapply resample_nonneg; eauto|eapply interp1d_nonneg; eauto]. }
  apply mapM_nth in E11. destruct E11 as [Hpl Hpn].
  assert (Hlen : length wl = length out).
  { destruct bins as [|e bins]; [congruence|]. destruct (Hpn 0%nat e eq_refl) as (p & _ & Hp). apply select_spec in Hp. tauto. }
  rewrite E9 in Hlen. assert (Hout : nonneg out).
  { apply nonneg_of_at. intros i Hi. rewrite E10 by lia. apply sum_below_nonneg. intros j _. destruct (reaches _ _ _); [auto|lra]. }
  assert (Hparts : forall p x, In p parts -> In x p -> 0 <= x).
  { intros p x Hp Hx. apply In_nth_error in Hp. destruct Hp as [i Hi]. destruct (nth_error bins i) as [e|] eqn:Ee.
    - destruct (Hpn i e Ee) as (p' & Hp' & Hsel). assert (p' = p) as -> by congruence. apply select_spec in Hsel. destruct Hsel as (_ & _ & Hsel). apply Hsel in Hx. destruct Hx as (j & _ & _ & ->). now apply nonneg_at.
    - apply nth_error_None in Ee. assert (nth_error parts i <> None) by congruence. apply nth_error_Some in H. lia. }
  split.
  - intros x Hx. apply mapM_nth in E13 as [Hml Hmn]. apply In_nth_error in Hx. destruct Hx as [i Hi]. destruct (nth_error parts i) as [p|] eqn:Ep.
    + destruct (Hmn i p Ep) as (m & Hm & Hmx). assert (m = x) as -> by congruence. apply array_max_spec in Hmx. eapply Hparts; [eapply nth_error_In; eauto|apply Hmx].
    + apply nth_error_None in Ep. assert (nth_error mx i <> None) by congruence. apply nth_error_Some in H. lia.
  - subst sg. unfold mul. intros x Hx. apply in_map_iff in Hx. destruct Hx as ([s w] & <- & Hx). cbn. apply Rmult_le_pos.
    + apply in_combine_l in Hx. apply in_map_iff in Hx. destruct Hx as (p & <- & Hp). rewrite rsum_total. apply total_nonneg. intros y Hy. eapply Hparts; eauto.
    + apply in_combine_r in Hx. eapply Hs3; eauto.
Qed.
Lemma element_light_nonneg b bins wl qe r l q : sound b -> nonneg (s_data qe) -> wavelength_grid wl -> nonneg (r_data r) -> bins <> [] ->
  element_light b bins wl qe r = Ok (l, q) -> nonneg (fst l) /\ nonneg (snd l).
Proof.
  intros Hs Hqe Hw Hr Hb E. assert (Hq : resample wl qe = Ok q) by (eapply element_light_qe; eauto).
  assert (Hqn : nonneg (s_data q)) by (eapply resample_nonneg; eauto).
  assert (Hwn : nonneg wl) by (intros w Hin; left; now apply Hw).
  assert (Hd : behind_slit b r \/ ~ behind_slit b r).
  { unfold behind_slit. destruct (r_slit r); [|right; intros [? _]; discriminate]. destruct (b_slit b); [left; split; congruence|right; intros [_ ?]; congruence]. }
  destruct Hd as [[H1 H2]|Hd].
  - unfold element_light in E. rewrite Hq in E. cbn [bind] in E. rewrite H1 in E. destruct (b_slit b) as [slit|]; [|congruence]. destruct (convolve_with_slit b bins slit q _) as [[mx sg]|] eqn:Ec; [|discriminate].
    cbn [bind] in E. assert (l = (mx, sg)) as -> by congruence. eapply slit_nonneg in Ec; eauto.
  - destruct (element_light_free b bins wl qe r Hd Hw l q E) as (_ & _ & Hf). cbv zeta in Hf. destruct Hf as [-> ->]. destruct Hs as (_ & Hsz & Ho & _).
    assert (Hp : 0 <= trapezia wl (fun i => counts_per_um_sr (b_delta b) (r_data r) (s_data q) wl i) * angle_for (r_pos r) (b_omega b)).
    { apply Rmult_le_pos; [|unfold angle_for; destruct (r_pos r); pose proof PI_RGT_0; lra]. apply trapezia_nonneg; [apply increasing_nondecreasing, Hw|]. intros i _. now apply counts_nonneg. }
    split; intros x Hx; apply in_map_iff in Hx; destruct Hx as (w & <- & Hx); auto. apply Rmult_le_pos; auto.
Qed.
Theorem C28_nonnegative : forall b bins wl rads em, sound b -> wavelength_grid wl -> bins <> [] -> NoDup (map fst rads) -> (forall k r, In (k, r) rads -> nonneg (r_data r)) ->
  compute_signal b bins wl rads = Ok em ->
  nonneg (total_signal em) /\ nonneg (total_max em) /\ forall k l, sget k (by_element em) = Some l -> nonneg (fst l) /\ nonneg (snd l).
Proof.
  intros b bins wl rads em Hs Hw Hb Hn Hr E. pose proof (C28_sum_of_element_signals b bins wl rads em Hw Hn E) as (_ & _ & _ & _ & HS).
  assert (G : forall k l, In (k, l) (by_element em) -> nonneg (fst l) /\ nonneg (snd l)).
  { unfold compute_signal in E. apply sum_light_spec in E; auto. destruct E as (ls & H1 & H2 & _). cbn [by_element] in *. rewrite dof_combine in H2; auto; [|rewrite map_length; symmetry; eapply Forall2_len; eauto]. rewrite H2.
    clear H2 Hn HS. induction H1 as [|[k r] l rads ls (q & Hq) H1 IH]; [intros ? ? []|]. cbn [map fst combine]. intros k' l' [Hk|Hk].
    - assert (l' = l) as -> by congruence. apply (element_light_nonneg b bins wl (b_qe b) r l q); auto; [exact (proj1 Hs)|]. apply (Hr k r). left. reflexivity.
    - eapply IH; eauto. intros k0 r0 H0. apply (Hr k0 r0). now right. }
  split; [|split].
  - apply nonneg_of_at. intros i _. rewrite (proj1 (HS i)). apply total_nonneg. intros x Hx. apply in_map_iff in Hx. destruct Hx as ([k l] & <- & Hx). apply nonneg_at. now apply G in Hx.
  - apply nonneg_of_at. intros i _. rewrite (proj2 (HS i)). apply total_nonneg. intros x Hx. apply in_map_iff in Hx. destruct Hx as ([k l] & <- & Hx). apply nonneg_at. now apply G in Hx.
  - intros k l Hk. apply dget_Some_In in Hk; [|apply String_eqb_spec]. eauto.
Qed.
Print Assumptions C28_nonnegative.

(** ** C56, C34: the slit *)
(** The light of a pixel through a slit of n whole pixels is the sum over the n pixels around it,
    the signal of a bin is the sum over its pixels, wavelengths in ]left, right], times the spatial
    width; the maximum is the largest among its pixels. *)
Theorem C56_slit : forall b bins slit qe light mx sg, bins <> [] -> convolve_with_slit b bins slit qe light = Ok (mx, sg) ->
  exists wl dwl widths rad q n, b_pix_wl b = Some wl /\ b_pix_width b = Some dwl /\ b_spatial b = Some widths
  /\ resample wl light = Ok rad /\ interp1d (s_wl qe) (s_data qe) wl = Ok q
  /\ pixels_in (slit / b_delta b) n /\ (1 <= n <= length wl)%nat
  /\ let spread i := sum_below (length wl) (fun j => if reaches n i j then counts_per_um_sr (b_delta b) (s_data rad) q wl j * b_omega b * at_ j dwl else 0) in
     length mx = length bins /\ length sg = Nat.min (length bins) (length widths)
     /\ forall k e, nth_error bins k = Some e ->
          ((k < length widths)%nat -> at_ k sg = sum_below (length wl) (fun i => if in_bin_right e (at_ i wl) then spread i else 0) * at_ k widths)
          /\ (exists i, (i < length wl)%nat /\ in_bin_right e (at_ i wl) = true /\ at_ k mx = spread i)
          /\ forall i, (i < length wl)%nat -> in_bin_right e (at_ i wl) = true -> spread i <= at_ k mx.
Proof.
  intros b bins slit qe light mx sg Hb E. apply slit_inv in E. destruct E as (wl & dwl & rad & q & widths & out & E1 & E2 & E3 & E4 & E5 & E6 & E7 & E8 & E9 & E10 & parts & E11 & E12 & E13).
  set (n := whole_pixels (slit / b_delta b)) in *. exists wl, dwl, widths, rad, q, n. do 5 (split; [auto|]). split; [now apply whole_pixels_spec|].
  apply mapM_nth in E11. destruct E11 as [Hpl Hpn].
  assert (Hlen : length wl = length out).
  { destruct bins as [|e bins]; [congruence|]. destruct (Hpn 0%nat e eq_refl) as (p & _ & Hp). apply select_spec in Hp. tauto. }
  rewrite E9 in Hlen. split; [lia|]. cbv zeta. apply mapM_nth in E13. destruct E13 as [Hml Hmn].
  split; [congruence|]. split; [subst sg; unfold mul; rewrite map_length, combine_length, map_length; lia|].
  intros k e He. destruct (Hpn k e He) as (p & Hp & Hsel). destruct (Hmn k p Hp) as (m & Hm & Hmx). apply select_spec in Hsel. destruct Hsel as (_ & Hsum & Hin).
  assert (Emx : at_ k mx = m) by (unfold at_; apply nth_error_nth with (d := 0) in Hm; auto). apply array_max_spec in Hmx.
  assert (Hsp : forall i, (i < length wl)%nat -> at_ i out = sum_below (length wl) (fun j => if reaches n i j then counts_per_um_sr (b_delta b) (s_data rad) q wl j * b_omega b * at_ j dwl else 0)).
  { intros i Hi. rewrite E10 by lia. reflexivity. }
  split; [|split].
  - intros Hk. subst sg. assert (Hkp : (k < length (map rsum parts))%nat) by (rewrite map_length, Hpl; apply nth_error_Some; congruence).
    assert (Ek : at_ k (mul (map rsum parts) widths) = at_ k (map rsum parts) * at_ k widths).
    { clear - Hkp Hk. unfold at_, mul. revert k widths Hkp Hk. generalize (map rsum parts) as a. induction a as [|x a IH]; intros k [|w ws] Hkp Hk; cbn in *; try lia. destruct k; cbn; auto. apply IH; lia. }
    rewrite Ek. f_equal. unfold at_. rewrite nth_error_nth with (x := rsum p) by (now apply map_nth_error). rewrite Hsum. apply sum_below_ext. intros i Hi. rewrite in_slit_bin_spec, Hsp by auto. reflexivity.
  - destruct Hmx as [Hmx _]. apply Hin in Hmx. destruct Hmx as (i & Hi & Hbn & ->). exists i. rewrite in_slit_bin_spec in Hbn. split; auto. split; auto. rewrite Emx. auto.
  - intros i Hi Hbn. rewrite Emx. apply Hmx. apply Hin. exists i. rewrite in_slit_bin_spec. split; auto. split; auto. symmetry. auto.
Qed.
Print Assumptions C56_slit.

(** Constant light per pixel is multiplied by n, away from the borders of the detector. *)
Lemma count_reaching n m i : (n / 2 <= i)%nat -> (i + n <= m + n / 2)%nat -> sum_below m (fun j => if reaches n i j then 1 else 0) = INR n.
Proof.
  intros H1 H2.
  assert (G : forall m, sum_below m (fun j => if reaches n i j then 1 else 0) = INR (Nat.min n (m - (i - n / 2)))).
  { clear m H2. induction m as [|m IH]; [rewrite Nat.sub_0_l, Nat.min_0_r; reflexivity|]. rewrite sum_below_last, IH. unfold reaches.
    destruct (Nat.leb_spec i (m + n / 2)); destruct (Nat.ltb_spec (m + n / 2) (i + n)); cbn [andb].
    - replace 1 with (INR 1) by reflexivity. rewrite <- plus_INR. f_equal. lia.
    - rewrite Rplus_0_r. f_equal. lia.
    - rewrite Rplus_0_r. f_equal. lia.
    - rewrite Rplus_0_r. f_equal. lia. }
  rewrite G. f_equal. lia.
Qed.
Theorem C56_slit_multiplies_constant_light : forall x n out c, convolve_same x n = Ok out -> (n <= length x)%nat -> (forall v, In v x -> v = c) ->
  forall i, (n / 2 <= i)%nat -> (i + n <= length x + n / 2)%nat -> at_ i out = INR n * c.
Proof.
  intros x n out c E Hn Hc i H1 H2. apply convolve_spec in E. destruct E as (H0 & _ & _ & H). rewrite H; auto.
  - rewrite <- (count_reaching n (length x) i H1 H2). rewrite Rmult_comm, <- sum_below_scale. apply sum_below_ext. intros j Hj. destruct (reaches n i j); [|lra]. rewrite (Hc (at_ j x)); [lra|now apply at_In].
  - assert (n / 2 < n)%nat by (apply Nat.div_lt; lia). lia.
Qed.
Print Assumptions C56_slit_multiplies_constant_light.

(** When the slit fails: it is narrower than a pixel, wider than the detector, some bin has no
    pixel, or the channel has no pixel wavelengths (photometers). *)
Theorem C56_slit_failures : forall b bins slit qe light,
  (b_pix_wl b = None -> convolve_with_slit b bins slit qe light = Err KeyError)
  /\ forall wl dwl widths rad q, b_pix_wl b = Some wl -> b_pix_width b = Some dwl -> b_spatial b = Some widths ->
     resample wl light = Ok rad -> interp1d (s_wl qe) (s_data qe) wl = Ok q -> length (s_data rad) = length wl -> length dwl = length wl -> wl <> [] -> bins <> [] ->
     (slit / b_delta b < 1 -> convolve_with_slit b bins slit qe light = Err ValueError)
     /\ (forall n, pixels_in (slit / b_delta b) n -> (length wl < n)%nat -> convolve_with_slit b bins slit qe light = Err IndexError)
     /\ (forall n, pixels_in (slit / b_delta b) n -> (1 <= n <= length wl)%nat ->
         ((exists out, convolve_with_slit b bins slit qe light = Ok out) <-> forall e, In e bins -> exists w, In w wl /\ in_bin_right e w = true)
         /\ ((exists out, convolve_with_slit b bins slit qe light = Ok out) \/ convolve_with_slit b bins slit qe light = Err ValueError)).
Proof.
  intros b bins slit qe light. unfold convolve_with_slit. split; [intros ->; reflexivity|].
  intros wl dwl widths rad q -> -> -> Er Eq Hr Hd Hw Hb. cbn [lookup bind]. rewrite Er. cbn [bind]. rewrite Eq. cbn [bind].
  apply interp1d_length in Eq as Hq.
  assert (Hs : length (s_data rad) = length (scaled (b_omega b * pixel_area b) (mul q (map photons_per_joule wl)))) by (rewrite scaled_length, mul_length; [congruence|rewrite map_length; auto]).
  rewrite times_same by auto. cbn [bind]. set (x1 := mul (s_data rad) (scaled (b_omega b * pixel_area b) (mul q (map photons_per_joule wl)))).
  assert (H1 : length x1 = length wl) by (unfold x1; rewrite mul_length; auto). rewrite times_same by congruence. cbn [bind]. set (x := mul x1 dwl). assert (Hx : length x = length wl) by (unfold x; rewrite mul_length; congruence).
  assert (Hx0 : x <> []) by (intros E; rewrite E in Hx; destruct wl; [congruence|discriminate]).
  assert (Hfl : forall n, pixels_in (slit / b_delta b) n -> whole_pixels (slit / b_delta b) = n).
  { intros n [Ha Hc]. unfold whole_pixels. rewrite (Rfloor_unique _ (Z.of_nat n)); [apply Nat2Z.id|]. rewrite <- INR_IZR_INZ. lra. }
  assert (Hcv : forall n, (0 < n)%nat -> exists out, convolve_same x n = Ok out /\ length out = Nat.max (length wl) n).
  { intros n Hn. destruct (convolve_same x n) as [out|] eqn:Ec.
    - exists out. split; auto. apply convolve_spec in Ec. destruct Ec as (_ & _ & Ec & _). congruence.
    - unfold convolve_same in Ec. destruct x; [congruence|]. destruct n; [lia|discriminate]. }
  split; [|split].
  - intros Hlt. apply whole_pixels_zero in Hlt. rewrite Hlt. unfold convolve_same. destruct x; [congruence|reflexivity].
  - intros n Hp Hn. rewrite (Hfl n Hp). destruct (Hcv n) as (out & -> & Hl); [lia|]. cbn [bind]. destruct bins as [|e bins]; [congruence|]. cbn [mapM].
    unfold select at 1. rewrite map_length. destruct (Nat.eqb_spec (length wl) (length out)); [lia|]. reflexivity.
  - intros n Hp Hn. rewrite (Hfl n Hp). destruct (Hcv n) as (out & -> & Hl); [lia|]. cbn [bind]. rewrite Nat.max_l in Hl by lia.
    assert (Hparts : exists parts, mapM (fun e => select (map (in_slit_bin e) wl) out) bins = Ok parts).
    { clear - Hl. induction bins as [|e bins [ps IH]]; [now exists []|]. cbn [mapM]. unfold select at 1. rewrite map_length, Hl, Nat.eqb_refl. cbn [bind]. rewrite IH. cbn [bind]. eauto. }
    destruct Hparts as [parts Hp']. rewrite Hp'. cbn [bind]. apply mapM_nth in Hp' as [Hpl Hpn].
    assert (Hmax : (exists mx, mapM array_max parts = Ok mx) \/ mapM array_max parts = Err ValueError).
    { clear. induction parts as [|p ps IH]; [left; now exists []|]. cbn [mapM]. destruct p as [|a p]; [now right|]. cbn [array_max bind]. destruct IH as [[mx IH]|IH]; rewrite IH; cbn [bind]; [left; eauto|now right]. }
    assert (Hmax1 : (exists mx, mapM array_max parts = Ok mx) <-> forall p, In p parts -> p <> []).
    { clear. induction parts as [|p ps IH]; [split; [intros _ p []|intros _; now exists []]|]. cbn [mapM]. split.
      - intros [mx E]. dbind E m Hm. dbind E ms Hms. intros q [<-|Hq]; [intros ->; discriminate|]. apply (proj1 IH); eauto.
      - intros H. destruct p as [|a p]; [destruct (H []); [now left|auto]|]. cbn [array_max bind]. destruct (proj2 IH) as [mx E]; [intros q Hq; apply H; now right|]. rewrite E. cbn [bind]. eauto. }
    assert (Hne : (forall p, In p parts -> p <> []) <-> forall e, In e bins -> exists w, In w wl /\ in_bin_right e w = true).
    { split.
      - intros H e He. apply In_nth_error in He. destruct He as [k He]. destruct (Hpn k e He) as (p & Hpk & Hsel). apply select_spec in Hsel. destruct Hsel as (_ & _ & Hin).
        assert (Hnil : p <> []) by (apply H; eapply nth_error_In; eauto). destruct p as [|y p]; [congruence|]. destruct (proj1 (Hin y)) as (i & Hi & Hb' & _); [now left|]. exists (at_ i wl). rewrite in_slit_bin_spec in Hb'. split; auto. now apply at_In.
      - intros H p Hpi. apply In_nth_error in Hpi. destruct Hpi as [k Hk]. destruct (nth_error bins k) as [e|] eqn:Ee.
        + destruct (Hpn k e Ee) as (p' & Hpk & Hsel). assert (p' = p) as -> by congruence. apply select_spec in Hsel. destruct Hsel as (_ & _ & Hin). destruct (H e) as (w & Hw' & Hbn); [eapply nth_error_In; eauto|].
          apply (In_nth _ _ 0) in Hw'. destruct Hw' as (i & Hi & <-). intros ->. destruct (proj2 (Hin (at_ i out))). exists i. rewrite in_slit_bin_spec. auto.
        + apply nth_error_None in Ee. assert (Hno : nth_error parts k <> None) by congruence. apply nth_error_Some in Hno. lia. }
    split.
    + rewrite <- Hne, <- Hmax1. split.
      * intros [o E]. dbind E m Hm. eauto.
      * intros [mx E]. rewrite E. cbn. eauto.
    + destruct Hmax as [[mx E]|E]; rewrite E; cbn; eauto.
Qed.
Print Assumptions C56_slit_failures.

(** Linearity in the light. *)
Definition data_of {V} (phi : V -> R) (wl : list R) (l : list V) : sig := {| s_wl := wl; s_data := map phi l |}.
Definition present (o : option R) : bool := match o with Some _ => true | None => false end.
Lemma bins_pattern {V} (f g : V -> R) es : forall win : list (R * V),
  map present (bins es (map (fun p => (fst p, f (snd p))) win)) = map present (bins es (map (fun p => (fst p, g (snd p))) win)).
Proof.
  induction es as [|a es IH]; intros win; auto. destruct es as [|b es]; auto.
  assert (Hb : forall h : V -> R, bins (a :: b :: es) (map (fun p => (fst p, h (snd p))) win) =
    mean (map snd (filter (fun p => in_bin a b (match es with [] => true | _ => false end) (fst p)) (map (fun p => (fst p, h (snd p))) win))) :: bins (b :: es) (map (fun p => (fst p, h (snd p))) win)) by reflexivity.
  rewrite !Hb. cbn [map]. f_equal; [|apply IH]. generalize (in_bin a b match es with [] => true | _ => false end) as P. intros P.
  assert (Hf : forall h : V -> R, filter (fun p => P (fst p)) (map (fun p => (fst p, h (snd p))) win) = map (fun p => (fst p, h (snd p))) (filter (fun p => P (fst p)) win)).
  { intros h. clear. induction win as [|p win IHw]; auto. cbn. destruct (P (fst p)); cbn; now rewrite IHw. }
  rewrite !Hf. destruct (filter _ win); reflexivity.
Qed.
Lemma resample_linear wl0 (l : list (R * R)) wl a c s1 s2 : resample wl (data_of fst wl0 l) = Ok s1 -> resample wl (data_of snd wl0 l) = Ok s2 ->
  exists s3, resample wl (data_of (fun v => a * fst v + c * snd v) wl0 l) = Ok s3 /\ length (s_data s3) = length (s_data s1) /\ length (s_data s2) = length (s_data s1)
  /\ s_wl s3 = s_wl s1 /\ s_wl s2 = s_wl s1 /\ forall i, at_ i (s_data s3) = a * at_ i (s_data s1) + c * at_ i (s_data s2).
Proof.
  unfold resample, data_of. cbn. rewrite !map_length. destruct (Nat.eqb _ _); [|discriminate].
  assert (Hc : forall phi : R * R -> R, combine (map Some wl0) (map phi l) = samples_of phi (combine (map Some wl0) l)).
  { intros phi. unfold samples_of. generalize (map Some wl0) as w. clear. intros w. revert l. induction w as [|o w IH]; intros [|v l]; cbn; auto. now rewrite IH. }
  rewrite !Hc. unfold spectral_rebin. intros E1 E2.
  destruct (rebin um_ um_ (map Some wl) (samples_of fst _)) as [[g F]|] eqn:R1; [|discriminate]. destruct (rebin um_ um_ (map Some wl) (samples_of snd _)) as [[g' G]|] eqn:R2; [|discriminate]. cbn [bind] in E1, E2.
  assert (g' = g). { destruct (rebin_values um_ um_ (map Some wl) (combine (map Some wl0) l)) as [[e He]|(g0 & win & [H|H])]; [rewrite He in R1; discriminate| |]; rewrite H in R1; rewrite H in R2; congruence. } subst g'.
  destruct (C23_linear _ _ _ _ a c _ _ _ R1 R2) as (K & RK & HK1 & HK2). rewrite RK. cbn [bind]. eexists. split; [reflexivity|].
  apply (f_equal (fun r => match r with Ok s => s | Err _ => {| s_wl := []; s_data := [] |} end)) in E1, E2. cbn in E1, E2. subst s1 s2. cbn [s_data s_wl]. rewrite !map_length.
  assert (HP : map present G = map present F).
  { destruct (rebin_values um_ um_ (map Some wl) (combine (map Some wl0) l)) as [[e He]|(g0 & win & [H|H])]; [rewrite He in R1; discriminate| |]; rewrite H in R1; rewrite H in R2.
    - replace F with (bins (edges g0) (map (fun p => (fst p, fst (snd p))) win)) by congruence. replace G with (bins (edges g0) (map (fun p => (fst p, snd (snd p))) win)) by congruence. apply bins_pattern.
    - replace F with (map (fun w => Some (interp (map (fun p => (fst p, fst (snd p))) win) w)) g0) by congruence. replace G with (map (fun w => Some (interp (map (fun p => (fst p, snd (snd p))) win) w)) g0) by congruence. rewrite !map_map. reflexivity. }
  assert (HL : length G = length F) by (apply (f_equal (@length bool)) in HP; rewrite !map_length in HP; auto).
  repeat split; auto. intros i. set (z := fun o : option R => match o with Some v => v | None => 0 end).
  assert (Hz : forall L, at_ i (map z L) = match nth_error L i with Some o => z o | None => 0 end).
  { intros L. unfold at_. clear. revert i. induction L as [|o L IH]; intros [|i]; cbn; auto. }
  rewrite !Hz, HK2. destruct (nth_error F i) as [v|] eqn:EF; destruct (nth_error G i) as [w|] eqn:EG.
  - assert (Hvw : present w = present v).
    { apply (map_nth_error present) in EF, EG. rewrite HP in EG. congruence. }
    unfold combination. destruct v, w; try discriminate; cbn; lra.
  - apply nth_error_None in EG. assert (nth_error F i <> None) by congruence. apply nth_error_Some in H. lia.
  - apply nth_error_None in EF. assert (nth_error G i <> None) by congruence. apply nth_error_Some in H. lia.
  - lra.
Qed.

Theorem C56_slit_linear : forall b bins slit qe wl0 (l : list (R * R)) a c mx1 sg1 mx2 sg2, bins <> [] ->
  convolve_with_slit b bins slit qe (data_of fst wl0 l) = Ok (mx1, sg1) -> convolve_with_slit b bins slit qe (data_of snd wl0 l) = Ok (mx2, sg2) ->
  exists mx3 sg3, convolve_with_slit b bins slit qe (data_of (fun v => a * fst v + c * snd v) wl0 l) = Ok (mx3, sg3)
  /\ length sg3 = length sg1 /\ length sg2 = length sg1 /\ forall k, at_ k sg3 = a * at_ k sg1 + c * at_ k sg2.
Proof.
  intros b bins slit qe wl0 l a c mx1 sg1 mx2 sg2 Hb E1 E2. pose proof (slit_inv _ _ _ _ _ _ _ E1) as (wl' & dwl' & rad' & q' & widths' & _ & V1 & V2 & V3 & V4 & V5 & V6 & V7 & V8 & _).
  apply C56_slit in E1; auto. apply C56_slit in E2; auto.
  destruct E1 as (wl & dwl & widths & rad1 & q & n & A1 & A2 & A3 & A4 & A5 & A6 & A7 & A8 & A9 & A10). destruct E2 as (wl2 & dwl2 & widths2 & rad2 & q2 & n2 & B1 & B2 & B3 & B4 & B5 & B6 & B7 & B8 & B9 & B10). cbv zeta in *.
  assert (wl' = wl) as -> by congruence. assert (wl2 = wl) as -> by congruence. assert (dwl' = dwl) as -> by congruence. assert (dwl2 = dwl) as -> by congruence. assert (widths2 = widths) as -> by congruence. assert (q2 = q) as -> by congruence. assert (rad' = rad1) as -> by congruence.
  assert (n2 = n) as ->. { unfold pixels_in in A6, B6. apply Nat.le_antisymm; apply Nat.lt_succ_r; apply INR_lt; rewrite S_INR; lra. }
  destruct (resample_linear _ _ _ a c _ _ A4 B4) as (rad3 & R3 & L3 & L2 & _ & _ & H3).
  destruct (C56_slit_failures b bins slit qe (data_of (fun v => a * fst v + c * snd v) wl0 l)) as [_ HF].
  assert (Hw0 : wl <> []) by (intros ->; cbn in A7; lia).
  destruct (HF wl dwl widths rad3 q A1 A2 A3 R3 A5 ltac:(congruence) V8 Hw0 Hb) as (_ & _ & HF3). destruct (HF3 n A6 A7) as [HF4 _].
  destruct (proj2 HF4) as [[mx3 sg3] E3].
  { intros e He. apply In_nth_error in He. destruct He as [k He]. destruct (A10 k e He) as (_ & (i & Hi & Hin & _) & _). exists (at_ i wl). split; auto. now apply at_In. }
  exists mx3, sg3. split; auto. apply C56_slit in E3; auto. destruct E3 as (wl3 & dwl3 & widths3 & rad3' & q3 & n3 & D1 & D2 & D3 & D4 & D5 & D6 & D7 & D8 & D9 & D10). cbv zeta in *.
  assert (wl3 = wl) as -> by congruence. assert (dwl3 = dwl) as -> by congruence. assert (widths3 = widths) as -> by congruence. assert (q3 = q) as -> by congruence. assert (rad3' = rad3) as -> by congruence.
  assert (n3 = n) as ->. { unfold pixels_in in A6, D6. apply Nat.le_antisymm; apply Nat.lt_succ_r; apply INR_lt; rewrite S_INR; lra. }
  split; [congruence|]. split; [congruence|]. intros k. destruct (Nat.lt_ge_cases k (length sg1)) as [Hk|Hk].
  2:{ unfold at_. rewrite !nth_overflow by congruence. lra. }
  destruct (nth_error bins k) as [e|] eqn:Ee; [|apply nth_error_None in Ee; lia].
  destruct (A10 k e Ee) as (-> & _); [|lia]. destruct (B10 k e Ee) as (-> & _); [|lia]. destruct (D10 k e Ee) as (-> & _); [|lia].
  rewrite (sum_below_ext _ (fun i => if in_bin_right e (at_ i wl) then sum_below (length wl) (fun j => if reaches n i j then counts_per_um_sr (b_delta b) (s_data rad3) q wl j * b_omega b * at_ j dwl else 0) else 0)
    (fun i => a * (if in_bin_right e (at_ i wl) then sum_below (length wl) (fun j => if reaches n i j then counts_per_um_sr (b_delta b) (s_data rad1) q wl j * b_omega b * at_ j dwl else 0) else 0)
            + c * (if in_bin_right e (at_ i wl) then sum_below (length wl) (fun j => if reaches n i j then counts_per_um_sr (b_delta b) (s_data rad2) q wl j * b_omega b * at_ j dwl else 0) else 0))).
  - rewrite sum_below_plus, !sum_below_scale. lra.
  - intros i _. destruct (in_bin_right e (at_ i wl)); [|lra]. rewrite <- !sum_below_scale, <- sum_below_plus. apply sum_below_ext. intros j _. destruct (reaches n i j); [|lra]. unfold counts_per_um_sr. rewrite H3. lra.
Qed.
Print Assumptions C56_slit_linear.

(** Without slit: per pixel signal linear in the light and signal = per pixel signal times window. *)
Theorem C56_integration_linear : forall b wl (l : list (R * R)) a c, length l = length wl ->
  let out phi := integrate_light b (map phi l) wl in
  length (snd (out fst)) = length (b_size b)
  /\ (forall phi k, at_ k (snd (out phi)) = at_ k (fst (out phi)) * at_ k (b_size b))
  /\ (forall phi k, (k < length (b_size b))%nat -> at_ k (fst (out phi)) = trapezia wl (fun i => at_ i (map phi l)))
  /\ forall k, at_ k (snd (out (fun v => a * fst v + c * snd v))) = a * at_ k (snd (out fst)) + c * at_ k (snd (out snd)).
Proof.
  intros b wl l a c Hl out. unfold out, integrate_light. cbn [fst snd]. split; [apply map_length|].
  assert (Hat : forall (f : R -> R) k, at_ k (map f (b_size b)) = if Nat.ltb k (length (b_size b)) then f (at_ k (b_size b)) else 0).
  { intros f k. destruct (Nat.ltb_spec k (length (b_size b))); [now apply at_map|]. unfold at_. apply nth_overflow. rewrite map_length. auto. }
  split; [|split].
  - intros phi k. rewrite !Hat. destruct (Nat.ltb_spec k (length (b_size b))); lra.
  - intros phi k Hk. rewrite Hat. destruct (Nat.ltb_spec k (length (b_size b))); [|lia]. rewrite Rmult_1_r. apply trapz_spec. rewrite map_length. auto.
  - intros k. rewrite !Hat. destruct (Nat.ltb k (length (b_size b))); [|lra]. rewrite !trapz_spec by (rewrite map_length; auto).
    rewrite (trapezia_ext wl _ (fun i => a * at_ i (map fst l) + c * at_ i (map snd l))).
    + rewrite trapezia_linear. lra.
    + intros i Hi. unfold at_. rewrite nth_indep with (d' := (fun v : R * R => a * fst v + c * snd v) (0, 0)) by (rewrite map_length; lia). rewrite (map_nth (fun v => a * fst v + c * snd v)).
      change (nth i (map fst l) 0) with (nth i (map fst l) (fst (0, 0))). change (nth i (map snd l) 0) with (nth i (map snd l) (snd (0, 0))). rewrite !map_nth. reflexivity.
Qed.
Print Assumptions C56_integration_linear.

(** ** C34: bins next to each other share no photon and lose none *)
Definition hull (bins : list (R * R)) : R * R := (fst (hd (0, 0) bins), snd (last bins (0, 0))).
Lemma hull_last e bins : bins <> [] -> last (e :: bins) (0, 0) = last bins (0, 0).
Proof. destruct bins; [congruence|reflexivity]. Qed.
Lemma contiguous_le bins : contiguous bins -> bins <> [] -> fst (hull bins) <= snd (hull bins).
Proof.
  induction bins as [|e bins IH]; [congruence|]. intros [H1 H2] _. destruct bins as [|e' bins]; [cbn; apply H1; now left|].
  assert (Hc : contiguous (e' :: bins)). { split; [intros x Hx; apply H1; now right|]. intros x y Hn. apply H2. apply neighbours_cons. now right. }
  specialize (IH Hc ltac:(discriminate)). unfold hull in *. cbn [hd fst] in *. rewrite (hull_last e (e' :: bins)) by discriminate.
  assert (snd e = fst e'). { apply H2. exists [], bins. reflexivity. } assert (fst e <= snd e) by (apply H1; now left). cbn [fst snd] in *. lra.
Qed.
Lemma bins_partition bins w x : contiguous bins -> bins <> [] -> total (map (fun e => if in_bin_right e w then x else 0) bins) = if in_bin_right (hull bins) w then x else 0.
Proof.
  induction bins as [|e bins IH]; [congruence|]. intros [H1 H2] _. destruct bins as [|e' bins].
  - unfold total, hull. cbn. destruct e as [l r]. cbn. destruct (in_bin_right (l, r) w); lra.
  - assert (Hc : contiguous (e' :: bins)). { split; [intros y Hy; apply H1; now right|]. intros y z Hn. apply H2. apply neighbours_cons. now right. }
    change (total (map (fun e => if in_bin_right e w then x else 0) (e :: e' :: bins))) with ((if in_bin_right e w then x else 0) + total (map (fun e => if in_bin_right e w then x else 0) (e' :: bins))).
    rewrite (IH Hc ltac:(discriminate)). pose proof (contiguous_le _ Hc ltac:(discriminate)) as Hle.
    assert (He : snd e = fst e'). { apply H2. exists [], bins. reflexivity. } assert (fst e <= snd e) by (apply H1; now left).
    unfold hull in *. cbn [hd] in *. rewrite (hull_last e (e' :: bins)) by discriminate. unfold in_bin_right. cbn [fst snd] in *. set (m := snd (last (e' :: bins) (0, 0))) in *.
    destruct (Rlt_dec (fst e) w), (Rle_dec w (snd e)), (Rlt_dec (fst e') w), (Rle_dec w m); cbn [andb]; lra.
Qed.
Theorem C34_slit_bins_conserve_light : forall b bins slit qe light mx sg width, bins <> [] -> contiguous bins -> convolve_with_slit b bins slit qe light = Ok (mx, sg) ->
  b_spatial b = Some (map (fun _ => width) bins) ->
  exists wl spread, b_pix_wl b = Some wl
  /\ (forall k e, nth_error bins k = Some e -> at_ k sg = sum_below (length wl) (fun i => if in_bin_right e (at_ i wl) then spread i else 0) * width)
  /\ total sg = sum_below (length wl) (fun i => if in_bin_right (hull bins) (at_ i wl) then spread i else 0) * width.
Proof.
  intros b bins slit qe light mx sg width Hb Hc E Hw. apply C56_slit in E; auto. destruct E as (wl & dwl & widths & rad & q & n & E1 & E2 & E3 & E4 & E5 & E6 & E7 & E8 & E9 & E10). cbv zeta in *.
  assert (widths = map (fun _ => width) bins) as -> by congruence. rewrite map_length in *. rewrite Nat.min_id in E9.
  set (spread := fun i => sum_below (length wl) (fun j => if reaches n i j then counts_per_um_sr (b_delta b) (s_data rad) q wl j * b_omega b * at_ j dwl else 0)) in *.
  assert (Hk : forall k e, nth_error bins k = Some e -> at_ k sg = sum_below (length wl) (fun i => if in_bin_right e (at_ i wl) then spread i else 0) * width).
  { intros k e He. assert (Hk : (k < length bins)%nat) by (apply nth_error_Some; congruence). destruct (E10 k e He) as (Es & _). rewrite (Es Hk). f_equal. unfold at_. now rewrite nth_error_nth with (x := width) by (now apply (map_nth_error (fun _ => width) k bins) in He). }
  exists wl, spread. split; auto. split; auto.
  assert (Esg : sg = map (fun e => width * sum_below (length wl) (fun i => if in_bin_right e (at_ i wl) then spread i else 0)) bins).
  { apply at_ext; [rewrite map_length; auto|]. intros k Hlt. destruct (nth_error bins k) as [e|] eqn:Ee; [|apply nth_error_None in Ee; lia]. rewrite (Hk k e Ee).
    unfold at_. rewrite nth_error_nth with (x := width * sum_below (length wl) (fun i => if in_bin_right e (nth i wl 0) then spread i else 0)); [lra|]. now apply (map_nth_error (fun e => width * sum_below (length wl) (fun i => if in_bin_right e (nth i wl 0) then spread i else 0))). }
  rewrite Esg, total_scale, Rmult_comm. f_equal. unfold sum_below. rewrite total_swap. apply total_ext. intros i _. now apply bins_partition.
Qed.
Print Assumptions C34_slit_bins_conserve_light.

(** ** C30 *)
Lemma suffix_inj (a b s : string) : (a ++ s)%string = (b ++ s)%string -> a = b.
Proof. intros H. apply (f_equal str_chars) in H. rewrite !str_chars_app in H. apply app_inv_tail in H. now apply str_chars_inj. Qed.
Lemma suffixes_differ (a b : string) : (a ++ "_signal")%string <> (b ++ "_MaxSignal_inPixel")%string.
Proof.
  intros H. apply (f_equal (fun s => rev (str_chars s))) in H. rewrite !str_chars_app, !rev_app_distr in H. cbn in H. discriminate.
Qed.
Definition on_grid (wl : list R) (f : foreground) : Prop := s_wl (f_light f) = wl.
Lemma foreground_light_next b bins wl tr qe f l tr' qe' f2 : wavelength_grid wl -> on_grid wl f -> on_grid wl f2 -> foreground_light b bins tr qe f = Ok (l, tr', qe') ->
  match foreground_light b bins tr' qe' f2, foreground_light b bins tr qe f2 with
  | Ok (l1, _, _), Ok (l2, _, _) => l1 = l2
  | Err e1, Err e2 => e1 = e2
  | _, _ => False
  end.
Proof.
  intros Hw Hf Hf2 E. unfold on_grid in *. unfold foreground_light, attenuate in *. rewrite Hf in E. rewrite Hf2.
  destruct (resample wl tr) as [t|] eqn:Et; [|discriminate]. cbn [bind] in E. dbind E p Hp. destruct p as [rad t'].
  assert (Ht' : t' = t) by (dbind Hp x Hx; congruence). assert (Hr : s_wl rad = wl) by (dbind Hp x Hx; replace rad with {| s_wl := wl; s_data := x |} by congruence; reflexivity).
  destruct (b_slit b) as [slit|].
  - dbind E o Ho. assert (tr' = t) as -> by congruence. assert (qe' = qe) as -> by congruence. rewrite (resample_twice wl tr t Hw Et). cbn [bind].
    destruct (times (s_data (f_light f2)) (s_data t)); cbn [bind]; auto. clear Ho. destruct (convolve_with_slit _ _ _ _ _) as [o2|]; cbn [bind]; auto.
  - rewrite Hr in E. dbind E q Hq. dbind E x Hx. assert (tr' = t) as -> by congruence. assert (qe' = q) as -> by congruence. rewrite (resample_twice wl tr t Hw Et). cbn [bind].
    destruct (times (s_data (f_light f2)) (s_data t)) as [y|]; cbn [bind s_wl s_data]; auto. rewrite Hq, (resample_twice wl qe q Hw Hq). cbn [bind]. clear Hx Hp.
    destruct (times _ _); cbn [bind]; auto.
Qed.
Lemma foregrounds_light_spec b bins wl : wavelength_grid wl -> forall fs tr qe out0 out, (forall k f, In (k, f) fs -> on_grid wl f) -> NoDup (map fst fs) ->
  foregrounds_light b bins tr qe fs out0 = Ok out ->
  (forall k f, In (k, f) fs -> exists l t q, foreground_light b bins tr qe f = Ok (l, t, q) /\ sget (k ++ "_signal")%string out = Some (snd l) /\ sget (k ++ "_MaxSignal_inPixel")%string out = Some (fst l))
  /\ forall key, (forall k f, In (k, f) fs -> key <> (k ++ "_signal")%string /\ key <> (k ++ "_MaxSignal_inPixel")%string) -> sget key out = sget key out0.
Proof.
  intros Hw. induction fs as [|[k f] fs IH]; intros tr qe out0 out Hg Hn E; cbn [foregrounds_light] in E.
  - assert (out = out0) as -> by congruence. split; [intros ? ? []|auto].
  - destruct (foreground_light b bins tr qe f) as [[[l t] q]|] eqn:El; [|discriminate]. cbn [bind] in E. inversion Hn as [|? ? Hk Hn']. subst.
    assert (Hf : on_grid wl f) by (apply (Hg k); now left).
    destruct (IH t q _ out (fun k f H => Hg k f (or_intror H)) Hn' E) as [HA HB]. split.
    + intros k' f' [H|H].
      * assert (k' = k /\ f' = f) as [-> ->] by (split; congruence). exists l, t, q. split; auto.
        assert (Hfree : forall s s', (s = "_signal" \/ s = "_MaxSignal_inPixel")%string -> forall k0 f0, In (k0, f0) fs -> s' = (k ++ s)%string -> s' <> (k0 ++ "_signal")%string /\ s' <> (k0 ++ "_MaxSignal_inPixel")%string).
        { intros s s' Hs k0 f0 H0 ->. assert (k <> k0). { intros ->. apply Hk. apply in_map_iff. exists (k0, f0). auto. } destruct Hs as [-> | ->]; split; intros Hx; try (apply suffix_inj in Hx; congruence); try (now apply suffixes_differ in Hx); symmetry in Hx; now apply suffixes_differ in Hx. }
        split.
        -- rewrite HB by (intros k0 f0 H0; eapply (Hfree "_signal"%string); eauto). rewrite dget_dset_other by (try apply String_eqb_spec; intros Hx; symmetry in Hx; revert Hx; apply suffixes_differ || (intros Hx; symmetry in Hx; revert Hx; apply suffixes_differ)). apply dget_dset_same, String_eqb_spec.
        -- rewrite HB by (intros k0 f0 H0; eapply (Hfree "_MaxSignal_inPixel"%string); eauto). apply dget_dset_same, String_eqb_spec.
      * destruct (HA k' f' H) as (l' & t' & q' & Hl' & Hs1 & Hs2). pose proof (foreground_light_next b bins wl tr qe f l t q f' Hw Hf (Hg k' f' (or_intror H)) El) as Hnx. rewrite Hl' in Hnx.
        destruct (foreground_light b bins tr qe f') as [[[l2 t2] q2]|] eqn:E2; [|destruct Hnx]. subst l2. exists l', t2, q2. auto.
    + intros key Hkey. rewrite HB by (intros k0 f0 H0; apply (Hkey k0 f0); now right). destruct (Hkey k f) as [K1 K2]; [now left|]. rewrite !dget_dset_other; auto; apply String_eqb_spec.
Qed.
(** On a common wavelength grid the signal of each foreground is what it would be without the
    others, whatever their order and transmissions. *)
Theorem C30_each_foreground_alone : forall b bins wl fs out k f, wavelength_grid wl -> (forall k f, In (k, f) fs -> on_grid wl f) -> NoDup (map fst fs) ->
  propagate_diffuse_foreground b bins (Some fs) = Ok out -> In (k, f) fs ->
  exists alone, propagate_diffuse_foreground b bins (Some [(k, f)]) = Ok alone
  /\ (exists sg, sget (k ++ "_signal")%string out = Some sg /\ sget (k ++ "_signal")%string alone = Some sg)
  /\ (exists mx, sget (k ++ "_MaxSignal_inPixel")%string out = Some mx /\ sget (k ++ "_MaxSignal_inPixel")%string alone = Some mx).
Proof.
  intros b bins wl fs out k f Hw Hg Hn E Hin. cbn [propagate_diffuse_foreground] in E |- *. apply (foregrounds_light_spec b bins wl Hw) in E.
  - destruct E as [HA _]. destruct (HA k f) as (l & t & q & Hl & H1 & H2); [now apply in_rev in Hin|]. cbn [rev app foregrounds_light]. rewrite Hl. cbn [bind]. eexists. split; [reflexivity|]. split.
    + exists (snd l). split; auto. rewrite dget_dset_other by (try apply String_eqb_spec; intros Hx; symmetry in Hx; revert Hx; apply suffixes_differ || (intros Hx; symmetry in Hx; revert Hx; apply suffixes_differ)). apply dget_dset_same, String_eqb_spec.
    + exists (fst l). split; auto. apply dget_dset_same, String_eqb_spec.
  - intros k' f' H. apply (Hg k'). now apply in_rev.
  - rewrite map_rev. now apply NoDup_rev.
Qed.
Print Assumptions C30_each_foreground_alone.

(** In particular the documented attenuation of a foreground by the filters in front of it never
    happens: the transmissions of the foregrounds have no effect on any foreground signal. *)
Definition without_transmission (f : foreground) : foreground := {| f_light := f_light f; f_transmission := None |}.
Theorem C30_attenuation_by_filters_refuted : forall b bins fs,
  propagate_diffuse_foreground b bins (Some (map (fun p => (fst p, without_transmission (snd p))) fs)) = propagate_diffuse_foreground b bins (Some fs).
Proof.
  intros b bins fs. cbn. rewrite <- map_rev. generalize (rev fs) as l, (b_tr b) as tr, (b_qe b) as qe, (@nil (string * list R)) as out. clear fs.
  induction l as [|[k f] l IH]; intros tr qe out; auto. cbn [map foregrounds_light fst snd].
  change (foreground_light b bins tr qe (without_transmission f)) with (foreground_light b bins tr qe f). destruct (foreground_light b bins tr qe f) as [[[x t] q]|]; auto. apply IH.
Qed.
Print Assumptions C30_attenuation_by_filters_refuted.

(** The value: the integral of the foreground radiance through the whole instrument, on the pixel
    solid angle, times the window size. *)
Theorem C30_foreground_signal : forall b bins wl fs out k f, wavelength_grid wl -> (forall k f, In (k, f) fs -> on_grid wl f) -> NoDup (map fst fs) -> b_slit b = None ->
  propagate_diffuse_foreground b bins (Some fs) = Ok out -> In (k, f) fs ->
  exists tr qe, resample wl (b_tr b) = Ok tr /\ resample wl (b_qe b) = Ok qe
  /\ let pixel := trapezia wl (fun i => at_ i (s_data tr) * counts_per_um_sr (b_delta b) (s_data (f_light f)) (s_data qe) wl i) * b_omega b in
     sget (k ++ "_signal")%string out = Some (map (fun w => pixel * w) (b_size b)) /\ sget (k ++ "_MaxSignal_inPixel")%string out = Some (map (fun _ => pixel) (b_size b)).
Proof.
  intros b bins wl fs out k f Hw Hg Hn Hs E Hin. cbn [propagate_diffuse_foreground] in E. apply (foregrounds_light_spec b bins wl Hw) in E.
  2:{ intros k' f' H. apply (Hg k'). now apply in_rev. }
  2:{ rewrite map_rev. now apply NoDup_rev. }
  destruct E as [HA _]. destruct (HA k f) as (l & t & q & Hl & H1 & H2); [now apply in_rev in Hin|]. specialize (Hg k f Hin). unfold on_grid in Hg.
  unfold foreground_light, attenuate in Hl. rewrite Hg, Hs in Hl. destruct (resample wl (b_tr b)) as [tr|] eqn:Et; [|discriminate]. cbn [bind] in Hl. dbind Hl p Hp. destruct p as [rad t']. dbind Hp x Hx.
  assert (rad = {| s_wl := wl; s_data := x |}) as -> by congruence. cbn [s_wl s_data] in Hl. dbind Hl qe Hq. dbind Hl y Hy. exists tr, qe. split; auto. split; auto. cbv zeta.
  assert (El : l = integrate_light b y wl) by congruence. destruct (resample_ok wl _ _ (proj1 Hw) Hq) as (Q1 & Q2 & _). destruct (resample_ok wl _ _ (proj1 Hw) Et) as (T1 & T2 & _).
  apply times_ok in Hx as (X1 & X2 & X3). apply times_ok in Hy as (Y1 & Y2 & Y3). rewrite scaled_length, mul_length in Y1 by (rewrite map_length; congruence).
  assert (Ht : trapz wl y = trapezia wl (fun i => at_ i (s_data tr) * counts_per_um_sr (b_delta b) (s_data (f_light f)) (s_data qe) wl i) * b_omega b).
  { rewrite trapz_spec by congruence. rewrite <- trapezia_scale. apply trapezia_ext. intros i Hi. rewrite Y3, X3, scaled_at, mul_at by (rewrite map_length; congruence). rewrite Q1, at_map by auto. rewrite photons_eq. unfold counts_per_um_sr, pixel_area. lra. }
  rewrite H1, H2, El. unfold integrate_light. cbn [fst snd]. rewrite Ht. split; auto. f_equal. apply map_ext. intros. lra.
Qed.
Print Assumptions C30_foreground_signal.

Theorem C30_no_foreground_attribute : forall b bins, propagate_diffuse_foreground b bins None = Err AttributeError.
Proof. reflexivity. Qed.
Print Assumptions C30_no_foreground_attribute.

(** ** A concrete channel *)
Definition ex_built : built := {| b_slit := Some 4; b_pix_wl := Some [1; 2]; b_pix_width := Some [1; 1]; b_spatial := Some [3]; b_size := [6];
  b_qe := {| s_wl := [1; 2]; s_data := [0.5; 0.5] |}; b_tr := {| s_wl := [1; 2]; s_data := [0.8; 0.8] |}; b_delta := 2; b_omega := 1 |}.
Definition ex_light : radiance := {| r_data := [3; 5]; r_pos := OpticsBox; r_slit := false |}.
Definition ex_slit_light : radiance := {| r_data := [3; 5]; r_pos := Path; r_slit := true |}.
Lemma ex_wl : wavelength_grid [1; 2].
Proof. split; [repeat constructor; lra|]. split; [cbn; lia|]. intros w Hw. cbn in Hw. intuition subst; lra. Qed.
Lemma ex_resample x y : resample [1; 2] {| s_wl := [1; 2]; s_data := [x; y] |} = Ok {| s_wl := [1; 2]; s_data := [x; y] |}.
Proof. apply (C61_own_grid_identity {| s_wl := [1; 2]; s_data := [x; y] |}); [apply ex_wl|reflexivity]. Qed.
Lemma ex_slit_ok : exists out, convolve_with_slit ex_built [(0.5, 2)] 4 {| s_wl := [1; 2]; s_data := [0.5; 0.5] |} {| s_wl := [1; 2]; s_data := [3; 5] |} = Ok out.
Proof.
  destruct (C56_slit_failures ex_built [(0.5, 2)] 4 {| s_wl := [1; 2]; s_data := [0.5; 0.5] |} {| s_wl := [1; 2]; s_data := [3; 5] |}) as [_ H].
  destruct (H [1; 2] [1; 1] [3] {| s_wl := [1; 2]; s_data := [3; 5] |} _ eq_refl eq_refl eq_refl (ex_resample _ _) eq_refl eq_refl eq_refl ltac:(discriminate) ltac:(discriminate)) as (_ & _ & H3).
  apply (H3 2%nat); [unfold pixels_in, ex_built; cbn; lra|cbn; lia|]. intros e [<-|[]]. exists 1. split; [now left|]. unfold in_bin_right. cbn. destruct (Rlt_dec 0.5 1); [|lra]. destruct (Rle_dec 1 2); [reflexivity|lra].
Qed.
Example ex_compute : exists em, compute_signal ex_built [(0.5, 2)] [1; 2] [("box", ex_light); ("M1", ex_slit_light)]%string = Ok em.
Proof.
  destruct ex_slit_ok as [[mx sg] E]. set (Q := {| s_wl := [1; 2]; s_data := [0.5; 0.5] |}) in *.
  assert (H1 : exists a c, element_light ex_built [(0.5, 2)] [1; 2] Q ex_light = Ok (([a], [c]), Q)).
  { unfold element_light, Q. rewrite ex_resample. cbn [bind r_slit ex_light]. do 2 eexists. reflexivity. }
  assert (H2 : element_light ex_built [(0.5, 2)] [1; 2] Q ex_slit_light = Ok ((mx, sg), Q)).
  { unfold element_light, Q. rewrite ex_resample. cbn [bind r_slit ex_slit_light]. unfold Q in E. etransitivity; [apply (f_equal (fun r => bind r (fun out => Ok (out, {| s_wl := [1; 2]; s_data := [0.5; 0.5] |}))) E)|reflexivity]. }
  destruct H1 as (a & c & H1). unfold compute_signal. cbn [sum_light]. change (b_qe ex_built) with Q. rewrite H1. cbn [bind fst snd total_signal total_max map plus length Nat.eqb combine]. rewrite H2. cbn [bind].
  apply C56_slit in E; [|discriminate]. destruct E as (wl & dwl & widths & rad & q & n & _ & _ & E3 & _ & _ & _ & _ & L1 & L2 & _). cbn in E3. assert (widths = [3]) as -> by congruence. cbn in L1, L2.
  destruct mx as [|m [|]]; try discriminate. destruct sg as [|g [|]]; try discriminate. eexists. reflexivity.
Qed.
Example ex_sound : sound ex_built.
Proof.
  repeat split; cbn; try (intros x Hx; cbn in Hx; intuition subst; lra); try lra; try (intros l Hl; injection Hl as <-; intros x Hx; cbn in Hx; intuition subst; lra).
  pose proof PI_4; pose proof PI2_1; unfold PI2 in *; lra.
Qed.
Example ex_contiguous : contiguous [(1, 1.5); (1.5, 2)].
Proof.
  split; [intros e He; cbn in He; intuition subst; cbn; lra|]. intros e e' Hn. neighbour_cases Hn. reflexivity.
Qed.
