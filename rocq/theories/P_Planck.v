(** Properties of the black body radiance (C53). *)
From Verif Require Import Base XR M_Source S_Planck.
From Coq Require Import Reals Lra Psatz.
From Coquelicot Require Import Coquelicot.
Open Scope R_scope.

Notation ka := 119104276.8 (only parsing).
Notation kb := 14387.7516 (only parsing).
Lemma planck_eq wl T : planck wl T = ka / wl ^ 5 * / (exp (kb / (wl * T)) - 1).
Proof. reflexivity. Qed.
Lemma exp_above x : 0 < x -> 0 < exp x - 1.
Proof. intros H. pose proof (exp_ineq1 x ltac:(lra)). lra. Qed.
Lemma coeff_pos wl : 0 < wl -> 0 < ka / wl ^ 5.
Proof. intros H. apply Rdiv_lt_0_compat; [lra|now apply pow_lt]. Qed.
Lemma x_pos wl T : 0 < wl -> 0 < T -> 0 < kb / (wl * T).
Proof. intros. apply Rdiv_lt_0_compat; [lra|now apply Rmult_lt_0_compat]. Qed.

Lemma rises f df a b : a < b -> (forall x, a <= x <= b -> is_derive f x (df x)) -> (forall x, a < x < b -> 0 < df x) -> f a < f b.
Proof.
  intros Hab Hd Hp. destruct (MVT_cor2 f df a b Hab) as (c & E & Hc); [intros c Hc; apply is_derive_Reals; auto|].
  specialize (Hp c Hc). nra.
Qed.
Lemma falls f df a b : a < b -> (forall x, a <= x <= b -> is_derive f x (df x)) -> (forall x, a < x < b -> df x < 0) -> f b < f a.
Proof.
  intros Hab Hd Hp. destruct (MVT_cor2 f df a b Hab) as (c & E & Hc); [intros c Hc; apply is_derive_Reals; auto|].
  specialize (Hp c Hc). nra.
Qed.

(** Positive, and greater at every wavelength the hotter the body. *)
Theorem C53_positive_and_increasing : forall wl T, 0 < wl -> 0 < T ->
  0 < planck wl T /\ forall T', T < T' -> planck wl T < planck wl T'.
Proof.
  intros wl T Hw HT. pose proof (coeff_pos wl Hw) as Hc. split.
  - rewrite planck_eq. apply Rmult_lt_0_compat; auto. now apply Rinv_0_lt_compat, exp_above, x_pos.
  - intros T' H. rewrite !planck_eq. apply Rmult_lt_compat_l; auto.
    assert (Hx : 0 < kb / (wl * T')) by (apply x_pos; lra).
    assert (kb / (wl * T') < kb / (wl * T)).
    { apply Rmult_lt_compat_l; [lra|]. apply Rinv_lt_contravar; [apply Rmult_lt_0_compat; apply Rmult_lt_0_compat; lra|]. apply Rmult_lt_compat_l; lra. }
    apply Rinv_lt_contravar; [apply Rmult_lt_0_compat; apply exp_above; lra|]. apply Rplus_lt_compat_r, exp_increasing. lra.
Qed.
Print Assumptions C53_positive_and_increasing.

(** Long wavelengths, hot bodies: proportional to the temperature (Rayleigh and Jeans), up to
    half a/wl^5. *)
Lemma inv_exp_bounds x : 0 < x -> / x - / 2 < / (exp x - 1) < / x.
Proof.
  intros Hx. pose proof (exp_above x Hx) as He. split.
  - destruct (Rlt_or_le x 2) as [H2|H2].
    2:{ pose proof (Rinv_0_lt_compat _ He). assert (/ x <= / 2) by (apply Rinv_le_contravar; lra). lra. }
    assert (Hg : 0 < 2 * x - (exp x - 1) * (2 - x)).
    { replace 0 with ((fun y => 2 * y - (exp y - 1) * (2 - y)) 0) by (rewrite exp_0; ring).
      apply (rises (fun y => 2 * y - (exp y - 1) * (2 - y)) (fun y => 1 - exp y * (1 - y))); auto.
      - intros y Hy. auto_derive; auto. ring.
      - intros y Hy. pose proof (exp_ineq1 (- y) ltac:(lra)) as H. rewrite exp_Ropp in H. pose proof (exp_pos y).
        assert (exp y * (1 - y) < exp y * / exp y) by (apply Rmult_lt_compat_l; lra). rewrite Rinv_r in H1 by lra. lra. }
    assert (E : / (exp x - 1) - (/ x - / 2) = (2 * x - (exp x - 1) * (2 - x)) / (2 * x * (exp x - 1))) by (field; lra).
    assert (0 < / (exp x - 1) - (/ x - / 2)); [|lra]. rewrite E. apply Rdiv_lt_0_compat; auto. apply Rmult_lt_0_compat; lra.
  - pose proof (exp_ineq1 x ltac:(lra)). apply Rinv_lt_contravar; [|lra]. apply Rmult_lt_0_compat; lra.
Qed.
Theorem C53_rayleigh_jeans : forall wl T, 0 < wl -> 0 < T ->
  ka / kb * T / wl ^ 4 - ka / (2 * wl ^ 5) < planck wl T < ka / kb * T / wl ^ 4.
Proof.
  intros wl T Hw HT. pose proof (coeff_pos wl Hw) as Hc. destruct (inv_exp_bounds _ (x_pos wl T Hw HT)) as [A B]. rewrite planck_eq.
  replace (ka / kb * T / wl ^ 4 - ka / (2 * wl ^ 5)) with (ka / wl ^ 5 * (/ (kb / (wl * T)) - / 2)) by (field; lra).
  replace (ka / kb * T / wl ^ 4) with (ka / wl ^ 5 * / (kb / (wl * T))) by (field; lra).
  split; apply Rmult_lt_compat_l; auto.
Qed.
Print Assumptions C53_rayleigh_jeans.
(** Short wavelengths, cold bodies: a/wl^5 exp(-b/(wl T)) (Wien). *)
Theorem C53_wien : forall wl T, 0 < wl -> 0 < T ->
  let wien := ka / wl ^ 5 * exp (- (kb / (wl * T))) in wien < planck wl T < wien * (1 + wl * T / kb).
Proof.
  intros wl T Hw HT wien. unfold wien. pose proof (coeff_pos wl Hw) as Hc. pose proof (x_pos wl T Hw HT) as Hx. rewrite planck_eq.
  replace (wl * T / kb) with (/ (kb / (wl * T))) by (field; lra). set (x := kb / (wl * T)) in *. clearbody x. rewrite Rmult_assoc.
  pose proof (exp_above x Hx) as He. pose proof (exp_ineq1 x ltac:(lra)) as Hi. rewrite exp_Ropp.
  split; apply Rmult_lt_compat_l; auto.
  - apply Rinv_lt_contravar; [apply Rmult_lt_0_compat|]; lra.
  - assert (E : / exp x * (1 + / x) - / (exp x - 1) = (exp x - 1 - x) / (exp x * x * (exp x - 1))) by (field; lra).
    assert (0 < / exp x * (1 + / x) - / (exp x - 1)); [|lra]. rewrite E. apply Rdiv_lt_0_compat; [lra|]. repeat apply Rmult_lt_0_compat; lra.
Qed.
Print Assumptions C53_wien.
(** The radiance of a body k times as hot is that of the other at k times the wavelength, times k^5. *)
Theorem C53_displacement : forall wl T k, 0 < wl -> 0 < T -> 0 < k -> planck (wl / k) (k * T) = k ^ 5 * planck wl T.
Proof.
  intros wl T k Hw HT Hk. unfold planck. replace (wl / k * (k * T)) with (wl * T) by (field; lra). field.
  pose proof (exp_above _ (x_pos wl T Hw HT)). lra.
Qed.
Print Assumptions C53_displacement.

(** One peak, at a wavelength inversely proportional to the temperature. *)
Definition slope (y : R) : R := exp y * (5 - y) - 5.
Lemma slope_derive y : is_derive slope y (exp y * (4 - y)).
Proof. unfold slope. auto_derive; auto. ring. Qed.
Lemma slope_root : exists y0, 4.9 < y0 < 5 /\ (forall y, 0 < y < y0 -> 0 < slope y) /\ (forall y, y0 < y -> slope y < 0).
Proof.
  assert (E49 : 50 < exp 4.9).
  { replace 4.9 with (0.7 * INR 7) by (cbn; lra). assert (1.7 + 0.245 < exp 0.7).
    { pose proof (exp_ineq1 0.35 ltac:(lra)) as H. replace 0.7 with (0.35 + 0.35) by lra. rewrite exp_plus.
      assert (1.395 < exp 0.35); [|nra]. pose proof (exp_ineq1 0.175 ltac:(lra)). replace 0.35 with (0.175 + 0.175) by lra. rewrite exp_plus.
      pose proof (exp_ineq1 0.0875 ltac:(lra)). assert (1.1826 < exp 0.175); [|nra]. replace 0.175 with (0.0875 + 0.0875) by lra. rewrite exp_plus. nra. }
    rewrite <- Rpower_pow with (n := 7%nat) (x := exp 0.7) || idtac.
    replace (0.7 * INR 7) with (0.7 + 0.7 + 0.7 + 0.7 + 0.7 + 0.7 + 0.7) by (cbn; lra). rewrite !exp_plus. set (e := exp 0.7) in *. clearbody e.
    assert (3.78 < e * e) by nra. assert (14.2 < e * e * e * e) by nra. assert (7.3 < e * e * e) by nra. nra. }
  assert (H49 : 0 < slope 4.9) by (unfold slope; lra).
  assert (H5 : slope 5 < 0) by (unfold slope; lra).
  destruct (IVT (fun y => - slope y) 4.9 5) as (y0 & Hy & E); try lra.
  { intros y. apply continuity_pt_filterlim. apply (ex_derive_continuous (fun y => - slope y)). unfold slope. auto_derive. auto. }
  assert (E0 : slope y0 = 0) by lra. assert (y0 <> 4.9) by (intros ->; lra). assert (y0 <> 5) by (intros ->; lra).
  exists y0. split; [lra|]. split.
  - intros y Hy'. destruct (Rle_or_lt y 4) as [H4|H4].
    + replace 0 with (slope 0) by (unfold slope; rewrite exp_0; ring). apply (rises slope (fun y => exp y * (4 - y))); [lra| |].
      * intros x _. apply slope_derive.
      * intros x Hx. apply Rmult_lt_0_compat; [apply exp_pos|lra].
    + rewrite <- E0. apply (falls slope (fun y => exp y * (4 - y))); [lra| |].
      * intros x _. apply slope_derive.
      * intros x Hx. pose proof (exp_pos x). nra.
  - intros y Hy'. rewrite <- E0. apply (falls slope (fun y => exp y * (4 - y))); [lra| |].
    + intros x _. apply slope_derive.
    + intros x Hx. pose proof (exp_pos x). nra.
Qed.
Lemma planck_derive T wl : 0 < T -> 0 < wl ->
  is_derive (fun w => planck w T) wl (- ka / wl ^ 6 / (exp (kb / (wl * T)) - 1) ^ 2 * slope (kb / (wl * T))).
Proof.
  intros HT Hw. pose proof (exp_above _ (x_pos wl T Hw HT)) as He. unfold planck, slope. auto_derive.
  - assert (0 < wl * T) by now apply Rmult_lt_0_compat. assert (0 < wl ^ 5) by now apply pow_lt. unfold Rdiv in He. repeat split; apply Rgt_not_eq; auto.
  - unfold Rdiv in *. set (e := exp (14387.7516 * / (wl * T))) in *. clearbody e. simpl pow. simpl INR. field. repeat split; lra.
Qed.
Theorem C53_single_peak : exists c, 2877 < c < 2937 /\ forall T, 0 < T ->
  (forall w w', 0 < w < w' -> w' <= c / T -> planck w T < planck w' T) /\
  (forall w w', c / T <= w < w' -> planck w' T < planck w T).
Proof.
  destruct slope_root as (y0 & Hy0 & Hup & Hdown). exists (kb / y0). split.
  - split; [apply Rmult_lt_reg_r with y0; [lra|]; unfold Rdiv; rewrite Rmult_assoc, Rinv_l by lra; lra|].
    apply Rmult_lt_reg_r with y0; [lra|]; unfold Rdiv; rewrite Rmult_assoc, Rinv_l by lra; lra.
  - intros T HT. assert (Hx : forall w, 0 < w -> kb / (w * T) * w = kb / y0 / T * y0) by (intros; field; lra).
    assert (Hc : 0 < kb / y0 / T) by (apply Rdiv_lt_0_compat; auto; apply Rdiv_lt_0_compat; lra).
    assert (Hk : forall w, 0 < w -> 0 < ka / w ^ 6 / (exp (kb / (w * T)) - 1) ^ 2).
    { intros w Hw. pose proof (exp_above _ (x_pos w T Hw HT)). apply Rdiv_lt_0_compat; [apply Rdiv_lt_0_compat; [lra|]|]; now apply pow_lt. }
    split.
    + intros w w' Hw Hw'. apply (rises (fun w => planck w T) (fun w => - ka / w ^ 6 / (exp (kb / (w * T)) - 1) ^ 2 * slope (kb / (w * T)))); [lra| |].
      * intros x H. apply planck_derive; lra.
      * intros x H. assert (y0 < kb / (x * T)). { specialize (Hx x ltac:(lra)). nra. }
        specialize (Hdown _ H0). specialize (Hk x ltac:(lra)).
        replace (- ka / x ^ 6 / (exp (kb / (x * T)) - 1) ^ 2 * slope (kb / (x * T))) with (ka / x ^ 6 / (exp (kb / (x * T)) - 1) ^ 2 * - slope (kb / (x * T))) by (unfold Rdiv; ring).
        apply Rmult_lt_0_compat; lra.
    + intros w w' Hw. apply (falls (fun w => planck w T) (fun w => - ka / w ^ 6 / (exp (kb / (w * T)) - 1) ^ 2 * slope (kb / (w * T)))); [lra| |].
      * intros x H. apply planck_derive; lra.
      * intros x H. assert (0 < kb / (x * T)) by (apply x_pos; lra). assert (kb / (x * T) < y0). { specialize (Hx x ltac:(lra)). nra. }
        specialize (Hup (kb / (x * T)) ltac:(lra)). specialize (Hk x ltac:(lra)).
        replace (- ka / x ^ 6 / (exp (kb / (x * T)) - 1) ^ 2 * slope (kb / (x * T))) with (- (ka / x ^ 6 / (exp (kb / (x * T)) - 1) ^ 2 * slope (kb / (x * T)))) by (unfold Rdiv; ring).
        assert (0 < ka / x ^ 6 / (exp (kb / (x * T)) - 1) ^ 2 * slope (kb / (x * T))) by now apply Rmult_lt_0_compat. lra.
Qed.
Print Assumptions C53_single_peak.

(** The constants of the program are those of the SI up to 2e-7 and 2e-6, and the radiance is that of
    Planck's law up to factors next to 1 unless hc/(wl k T) is large. *)
Lemma ratio_falls x y : 0 < x -> x < y -> (1 - exp (- y)) / y < (1 - exp (- x)) / x.
Proof.
  intros Hx Hxy. apply (falls (fun t => (1 - exp (- t)) / t) (fun t => (exp (- t) * (1 + t) - 1) / t ^ 2)); auto.
  - intros t Ht. auto_derive; [lra|]. field. lra.
  - intros t Ht. pose proof (exp_ineq1 t ltac:(lra)) as H. rewrite exp_Ropp. pose proof (exp_pos t).
    assert (/ exp t * (1 + t) < / exp t * exp t) by (apply Rmult_lt_compat_l; auto; now apply Rinv_0_lt_compat). rewrite Rinv_l in H1 by lra.
    apply Ropp_lt_cancel. rewrite Ropp_0. replace (- ((/ exp t * (1 + t) - 1) / t ^ 2)) with ((1 - / exp t * (1 + t)) / t ^ 2) by (field; split; lra).
    apply Rdiv_lt_0_compat; [lra|]. apply pow_lt. lra.
Qed.
Lemma constants : (1 - 2 / 10 ^ 7) * first_constant < ka < first_constant /\ kb < second_constant < kb * (1 + 2 / 10 ^ 6).
Proof. unfold first_constant, second_constant. lra. Qed.
Theorem C53_close_to_plancks_law : forall wl T, 0 < wl -> 0 < T ->
  (1 - 2 / 10 ^ 7) * black_body wl T < planck wl T
  /\ planck wl T < (1 + 2 / 10 ^ 6) * exp (2 / 10 ^ 6 * (14387.7516 / (wl * T))) * black_body wl T.
Proof.
  intros wl T Hw HT. destruct constants as [[A1 A2] [B1 B2]]. unfold black_body. pose proof (x_pos wl T Hw HT) as Hx.
  assert (Hwt : 0 < / (wl * T)) by now apply Rinv_0_lt_compat, Rmult_lt_0_compat.
  set (f := first_constant) in *. set (s := second_constant) in *. clearbody f s. assert (Hxy : kb / (wl * T) < s / (wl * T)) by (apply Rmult_lt_compat_r; lra).
  assert (Hyx : s / (wl * T) < kb / (wl * T) * (1 + 2 / 10 ^ 6)). { replace (kb / (wl * T) * (1 + 2 / 10 ^ 6)) with (kb * (1 + 2 / 10 ^ 6) / (wl * T)) by (field; lra). apply Rmult_lt_compat_r; lra. }
  rewrite planck_eq. set (x := kb / (wl * T)) in *. set (y := s / (wl * T)) in *. clearbody x y.
  assert (Hw5 : 0 < wl ^ 5) by now apply pow_lt. pose proof (exp_above x Hx) as Ex. pose proof (exp_above y ltac:(lra)) as Ey.
  replace (f / (wl ^ 5 * (exp y - 1))) with (f / wl ^ 5 * / (exp y - 1)) by (field; lra).
  assert (I5 : 0 < / wl ^ 5) by now apply Rinv_0_lt_compat. assert (Iy : 0 < / (exp y - 1)) by now apply Rinv_0_lt_compat.
  split.
  - assert (/ (exp y - 1) < / (exp x - 1)). { apply Rinv_lt_contravar; [now apply Rmult_lt_0_compat|]. apply Rplus_lt_compat_r, exp_increasing. lra. }
    replace ((1 - 2 / 10 ^ 7) * (f / wl ^ 5 * / (exp y - 1))) with ((1 - 2 / 10 ^ 7) * f * / wl ^ 5 * / (exp y - 1)) by (unfold Rdiv; ring).
    apply Rmult_gt_0_lt_compat; [exact Iy|apply Rdiv_lt_0_compat; lra|apply Rmult_lt_compat_r; lra|assumption].
  - assert (Hr := ratio_falls x y Hx Hxy). rewrite !exp_Ropp in Hr. pose proof (exp_pos x). pose proof (exp_pos y).
    (* / (exp x - 1) < y / x * exp (y - x) / (exp y - 1) *)
    assert (K : / (exp x - 1) < (1 + 2 / 10 ^ 6) * exp (2 / 10 ^ 6 * x) * / (exp y - 1)).
    { assert (K1 : / (exp x - 1) < y / x * exp (y - x) * / (exp y - 1)).
      { apply Rmult_lt_reg_r with ((exp x - 1) * (exp y - 1)); [now apply Rmult_lt_0_compat|].
        replace (/ (exp x - 1) * ((exp x - 1) * (exp y - 1))) with (exp y - 1) by (field; lra).
        replace (y / x * exp (y - x) * / (exp y - 1) * ((exp x - 1) * (exp y - 1))) with (exp (y - x) * (exp x - 1) / x * y) by (field; lra).
        replace (exp (y - x)) with (exp y * / exp x) by (rewrite <- exp_Ropp, <- exp_plus; f_equal; ring).
        replace (exp y - 1) with (exp y * ((1 - / exp y) / y) * y) by (field; lra).
        replace (exp y * / exp x * (exp x - 1) / x * y) with (exp y * ((1 - / exp x) / x) * y) by (field; lra).
        apply Rmult_lt_compat_r; [lra|]. now apply Rmult_lt_compat_l. }
      eapply Rlt_trans; [exact K1|]. apply Rmult_lt_compat_r; auto. apply Rmult_gt_0_lt_compat; try lra.
      - apply exp_pos.
      - apply Rmult_lt_reg_r with x; auto. unfold Rdiv at 1. rewrite Rmult_assoc, Rinv_l by lra. lra.
      - apply exp_increasing. lra. }
    set (k := (1 + 2 / 10 ^ 6) * exp (2 / 10 ^ 6 * x)) in *. replace (k * (f / wl ^ 5 * / (exp y - 1))) with (f / wl ^ 5 * (k * / (exp y - 1))) by ring.
    apply Rmult_gt_0_lt_compat; auto.
    + now apply Rinv_0_lt_compat.
    + apply Rdiv_lt_0_compat; lra.
    + apply Rmult_lt_compat_r; lra.
Qed.
Print Assumptions C53_close_to_plancks_law.
(** The Sun at 5778 K: the peak lies between 0.497 and 0.509 um. *)
Example C53_ex : exists p, 0.497 < p < 0.509 /\ forall w, 0 < w -> w <> p -> planck w 5778 < planck p 5778.
Proof.
  destruct C53_single_peak as (c & Hc & H). destruct (H 5778 ltac:(lra)) as [U D]. exists (c / 5778). split; [lra|].
  intros w Hw Hne. destruct (Rtotal_order w (c / 5778)) as [L|[E|G]]; [apply U; lra|lra|apply D; lra].
Qed.
