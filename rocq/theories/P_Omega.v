(** Properties of OmegaPix. *)
From Verif Require Import Base M_Omega S_Omega.
From Coq Require Import Reals Lra Psatz.
From Coquelicot Require Import Coquelicot.
Open Scope R_scope.

(** ** The ellipse *)
(** sum of the squares of the reciprocal coordinates *)
Definition den (p q phi : R) : R := (cos phi / p) ^ 2 + (sin phi / q) ^ 2.
Lemma cs1 x : cos x ^ 2 + sin x ^ 2 = 1.
Proof. pose proof (sin2_cos2 x) as H. unfold Rsqr in H. nra. Qed.
Lemma den_pos p q x : 0 < p -> 0 < q -> 0 < den p q x.
Proof.
  intros Hp Hq. unfold den. pose proof (cs1 x). assert (0 <= (cos x / p) ^ 2 /\ 0 <= (sin x / q) ^ 2) as [A B] by (split; apply pow2_ge_0).
  destruct (Req_dec (cos x) 0) as [E|E].
  - assert (sin x <> 0) by nra. assert (0 < (sin x / q) ^ 2). { apply pow2_gt_0. unfold Rdiv. apply Rmult_integral_contrapositive_currified; auto. apply Rinv_neq_0_compat. lra. } lra.
  - assert (0 < (cos x / p) ^ 2). { apply pow2_gt_0. unfold Rdiv. apply Rmult_integral_contrapositive_currified; auto. apply Rinv_neq_0_compat. lra. } lra.
Qed.
Definition cap (p q phi : R) : R := 1 - / sqrt (1 + / den p q phi).
Lemma radius_sq p q x : 0 < p -> 0 < q -> ellipse_radius p q x ^ 2 = / den p q x /\ 0 < ellipse_radius p q x.
Proof.
  intros Hp Hq. pose proof (den_pos p q x Hp Hq) as D. unfold ellipse_radius. fold (den p q x).
  pose proof (sqrt_lt_R0 _ D) as Hs. split; [|now apply Rinv_0_lt_compat].
  rewrite pow_inv, pow2_sqrt; lra.
Qed.
Lemma inner p q x : 0 < p -> 0 < q -> RInt sin 0 (atan (ellipse_radius p q x)) = cap p q x.
Proof.
  intros Hp Hq. destruct (radius_sq p q x Hp Hq) as [E H]. set (u := atan (ellipse_radius p q x)).
  assert (Hi : is_RInt sin 0 u (minus (- cos u) (- cos 0))).
  { apply (is_RInt_derive (fun t => - cos t) sin).
    - intros t _. auto_derive; auto. ring.
    - intros t _. apply continuity_pt_filterlim, continuity_sin. }
  rewrite (is_RInt_unique _ _ _ _ Hi). unfold minus, plus, opp; cbn. rewrite cos_0. unfold u. rewrite cos_atan, Rsqr_pow2, E. unfold cap. field.
  apply Rgt_not_eq, sqrt_lt_R0. pose proof (Rinv_0_lt_compat _ (den_pos p q x Hp Hq)). lra.
Qed.
Lemma cap_cont p q x : 0 < p -> 0 < q -> continuous (cap p q) x.
Proof.
  intros Hp Hq. pose proof (den_pos p q x Hp Hq) as D. pose proof (Rinv_0_lt_compat _ D) as D'.
  apply (ex_derive_continuous (cap p q)). unfold cap, den in *. auto_derive. unfold Rdiv in *. simpl pow in *.
  repeat split; auto; try (apply Rgt_not_eq; first [exact D | apply sqrt_lt_R0; lra]); lra.
Qed.
Lemma cap_int p q a b : 0 < p -> 0 < q -> ex_RInt (cap p q) a b.
Proof. intros Hp Hq. apply (ex_RInt_continuous (cap p q)). intros x _. now apply cap_cont. Qed.

(** ** Symmetries: a quarter of the ellipse is enough *)
Lemma den_flip p q x : den p q (PI - x) = den p q x.
Proof. unfold den. replace (PI - x) with (- x + PI) by ring. rewrite neg_cos, neg_sin, cos_neg, sin_neg. unfold Rdiv. ring. Qed.
Lemma den_turn p q x : den p q (x + PI) = den p q x.
Proof. unfold den. rewrite neg_cos, neg_sin. unfold Rdiv. ring. Qed.
Lemma den_swap p q x : den p q (PI / 2 - x) = den q p x.
Proof. unfold den. rewrite cos_shift, sin_shift. ring. Qed.

Lemma int_scale (f : R -> R) k a b : ex_RInt f a b -> RInt (fun x => k * f x) a b = k * RInt f a b.
Proof. intros H. exact (RInt_scal (V := R_CompleteNormedModule) f a b k H). Qed.
Lemma int_swap (f : R -> R) a b : ex_RInt f a b -> RInt f b a = - RInt f a b.
Proof. intros H. symmetry. exact (opp_RInt_swap (V := R_CompleteNormedModule) f a b H). Qed.
Lemma int_sub (f g dg : R -> R) a b : (forall x, continuous f x) -> (forall x, is_derive g x (dg x) /\ continuous dg x) -> RInt (fun x => dg x * f (g x)) a b = RInt f (g a) (g b).
Proof. intros H1 H2. apply (RInt_comp (V := R_CompleteNormedModule) f g dg); auto. Qed.
Lemma int_line (f : R -> R) k c a b : (forall x, continuous f x) -> RInt (fun x => k * f (k * x + c)) a b = RInt f (k * a + c) (k * b + c).
Proof. intros H. apply (int_sub f (fun x => k * x + c) (fun _ => k)); auto. intros x. split; [auto_derive; auto; ring|apply continuous_const]. Qed.
Lemma int_ex (f : R -> R) a b : (forall x, continuous f x) -> ex_RInt f a b.
Proof. intros H. apply (ex_RInt_continuous (V := R_CompleteNormedModule) f). auto. Qed.
Lemma mirror (f g : R -> R) a b c : (forall x, f (c - x) = g x) -> (forall x, continuous f x) -> (forall x, continuous g x) -> RInt g a b = RInt f (c - b) (c - a).
Proof.
  intros Hf Hc Hg. assert (E : RInt (fun x => -1 * f (-1 * x + c)) a b = -1 * RInt g a b).
  { rewrite <- (int_scale g) by now apply int_ex. apply RInt_ext. intros x _. replace (-1 * x + c) with (c - x) by ring. now rewrite Hf. }
  rewrite (int_line f) in E by auto.
  replace (c - b) with (-1 * b + c) by ring. replace (c - a) with (-1 * a + c) by ring. rewrite (int_swap f (-1 * a + c) (-1 * b + c)) by now apply int_ex. lra.
Qed.
Lemma reflect (f : R -> R) a b c : (forall x, f (c - x) = f x) -> (forall x, continuous f x) -> RInt f a b = RInt f (c - b) (c - a).
Proof. intros Hf Hc. now apply mirror. Qed.
Lemma translate (f : R -> R) a b c : (forall x, f (x + c) = f x) -> (forall x, continuous f x) -> RInt f a b = RInt f (a + c) (b + c).
Proof.
  intros Hf Hc. pose proof (int_line f 1 c a b Hc) as E. rewrite !Rmult_1_l in E. rewrite <- E. apply RInt_ext. intros x _. rewrite !Rmult_1_l. now rewrite Hf.
Qed.
Lemma quarters (f : R -> R) : (forall x, continuous f x) -> (forall x, f (PI - x) = f x) -> (forall x, f (x + PI) = f x) -> RInt f 0 (2 * PI) = 4 * RInt f 0 (PI / 2).
Proof.
  intros Hc Hr Ht. assert (Hi : forall u v, ex_RInt f u v) by (intros; apply (ex_RInt_continuous f); auto).
  rewrite <- (RInt_Chasles f 0 PI (2 * PI)), <- (RInt_Chasles f 0 (PI / 2) PI) by auto.
  assert (E1 : RInt f (PI / 2) PI = RInt f 0 (PI / 2)). { rewrite (reflect f _ _ PI Hr Hc). f_equal; field. }
  assert (E2 : RInt f PI (2 * PI) = RInt f 0 PI). { rewrite (translate f 0 PI PI Ht Hc). f_equal; ring. }
  rewrite E2, <- (RInt_Chasles f 0 (PI / 2) PI), E1 by auto. unfold plus; cbn. ring.
Qed.
Lemma solid_quarter p q : 0 < p -> 0 < q -> solid_angle p q = 4 * RInt (cap p q) 0 (PI / 2).
Proof.
  intros Hp Hq. unfold solid_angle. rewrite (RInt_ext _ (cap p q)) by (intros; now apply inner).
  apply quarters; [intros; now apply cap_cont| |]; intros x; unfold cap; now rewrite ?den_flip, ?den_turn.
Qed.
Lemma cap_swap p q : 0 < p -> 0 < q -> RInt (cap p q) 0 (PI / 2) = RInt (cap q p) 0 (PI / 2).
Proof.
  intros Hp Hq. rewrite (mirror (cap q p) (cap p q) 0 (PI / 2) (PI / 2)); try (intros; now apply cap_cont).
  - f_equal; field.
  - intros x. unfold cap. now rewrite den_swap.
Qed.
Lemma solid_swap p q : 0 < p -> 0 < q -> solid_angle p q = solid_angle q p.
Proof. intros. rewrite !solid_quarter, cap_swap; auto. Qed.

(** ** From the eccentric anomaly to the polar angle *)
Section Turn.
Variables a b : R.
Hypothesis Ha : 0 < a.
Hypothesis Hb : 0 < b.
Definition ratio := b / a.
Definition num_ t := (ratio - 1) * (sin t * cos t).
Definition den_ t := cos t ^ 2 + ratio * sin t ^ 2.
(** atan (b / a * tan t), without its singularity *)
Definition polar (t : R) : R := t + atan (num_ t / den_ t).
Lemma ratio_pos : 0 < ratio.
Proof. unfold ratio. apply Rdiv_lt_0_compat; auto. Qed.
Lemma den__pos t : 0 < den_ t.
Proof.
  unfold den_. pose proof ratio_pos. pose proof (cs1 t). pose proof (pow2_ge_0 (cos t)). pose proof (pow2_ge_0 (sin t)).
  destruct (Req_dec (cos t) 0) as [E|E]; [rewrite E in *; nra|]. assert (0 < cos t ^ 2) by (now apply pow2_gt_0). nra.
Qed.
Definition weight t := cos t ^ 2 + ratio ^ 2 * sin t ^ 2.
Lemma weight_eq t : num_ t ^ 2 + den_ t ^ 2 = weight t.
Proof. unfold num_, den_, weight. pose proof (cs1 t) as H. replace (cos t ^ 2) with (1 - sin t ^ 2) by lra. replace (((ratio - 1) * (sin t * cos t)) ^ 2) with ((ratio - 1) ^ 2 * sin t ^ 2 * cos t ^ 2) by ring. replace (cos t ^ 2) with (1 - sin t ^ 2) by lra. ring. Qed.
Lemma weight_pos t : 0 < weight t.
Proof. rewrite <- weight_eq. pose proof (den__pos t). pose proof (pow2_ge_0 (num_ t)). nra. Qed.
Lemma polar_0 : polar 0 = 0.
Proof. unfold polar, num_. rewrite sin_0. replace ((ratio - 1) * (0 * cos 0) / den_ 0) with 0 by (unfold Rdiv; ring). rewrite atan_0. ring. Qed.
Lemma polar_1 : polar (PI / 2) = PI / 2.
Proof. unfold polar, num_. rewrite cos_PI2. replace ((ratio - 1) * (sin (PI / 2) * 0) / den_ (PI / 2)) with 0 by (unfold Rdiv; ring). rewrite atan_0. ring. Qed.
Lemma polar_sq t : cos (polar t) ^ 2 = cos t ^ 2 / weight t /\ sin (polar t) ^ 2 = ratio ^ 2 * sin t ^ 2 / weight t.
Proof.
  unfold polar. rewrite cos_plus, sin_plus, cos_atan, sin_atan, Rsqr_pow2. pose proof (den__pos t) as D. pose proof (weight_pos t) as W. pose proof (weight_eq t) as E.
  set (n := num_ t) in *. set (d := den_ t) in *. assert (Hs : sqrt (1 + (n / d) ^ 2) = sqrt (weight t) / d).
  { replace (1 + (n / d) ^ 2) with (weight t / d ^ 2) by (rewrite <- E; field; lra). rewrite sqrt_div_alt by nra. rewrite sqrt_pow2; lra. }
  rewrite Hs. pose proof (sqrt_lt_R0 _ W) as Hw. pose proof (cs1 t) as C.
  assert (Hc : cos t * (1 / (sqrt (weight t) / d)) - sin t * (n / d / (sqrt (weight t) / d)) = (cos t * d - sin t * n) / sqrt (weight t)) by (field; lra).
  assert (Hd : sin t * (1 / (sqrt (weight t) / d)) + cos t * (n / d / (sqrt (weight t) / d)) = (sin t * d + cos t * n) / sqrt (weight t)) by (field; lra).
  rewrite Hc, Hd. unfold Rdiv. rewrite !Rpow_mult_distr, !pow_inv, pow2_sqrt by lra.
  assert (A1 : cos t * d - sin t * n = cos t). { unfold d, n, den_, num_. transitivity (cos t * (cos t ^ 2 + sin t ^ 2)); [ring|rewrite C; ring]. }
  assert (A2 : sin t * d + cos t * n = ratio * sin t). { unfold d, n, den_, num_. transitivity (ratio * sin t * (cos t ^ 2 + sin t ^ 2)); [ring|rewrite C; ring]. }
  rewrite A1, A2. split; [reflexivity|ring].
Qed.
Lemma polar_den t : den a b (polar t) = / (a ^ 2 * weight t).
Proof.
  destruct (polar_sq t) as [E1 E2]. unfold den, Rdiv. rewrite !Rpow_mult_distr, !pow_inv, E1, E2. pose proof (weight_pos t). pose proof (cs1 t) as C.
  transitivity ((cos t ^ 2 + sin t ^ 2) / (a ^ 2 * weight t)); [unfold ratio; field; lra|rewrite C; field; lra].
Qed.
Lemma polar_derive t : is_derive polar t (ratio / weight t).
Proof.
  unfold polar, num_, den_. pose proof (den__pos t) as D. pose proof (weight_pos t) as W. pose proof (weight_eq t) as E. pose proof (cs1 t) as C.
  auto_derive. { unfold den_ in D. apply Rgt_not_eq. simpl pow in D. lra. }
  unfold num_, den_, weight in *. set (s := sin t) in *. set (c := cos t) in *.
  match goal with |- 1 + _ * / ?x = _ => replace x with ((c ^ 2 + ratio ^ 2 * s ^ 2) / (c ^ 2 + ratio * s ^ 2) ^ 2) by (rewrite <- E; field; lra) end.
  assert (Hn : c ^ 2 + ratio * s ^ 2 <> 0) by lra. assert (Hw : c ^ 2 + ratio ^ 2 * s ^ 2 <> 0) by lra.
  transitivity ((c ^ 2 + ratio ^ 2 * s ^ 2 + (ratio - 1) * (c ^ 2 - s ^ 2) * (c ^ 2 + ratio * s ^ 2) - 2 * (ratio - 1) ^ 2 * s ^ 2 * c ^ 2) / (c ^ 2 + ratio ^ 2 * s ^ 2)).
  { field. repeat split; intro X; first [apply Hn; rewrite <- X; ring | apply Hw; rewrite <- X; ring | lra]. }
  f_equal. replace (c ^ 2) with (1 - s ^ 2) by lra. ring.
Qed.
Lemma polar_change (f : R -> R) : (forall x, continuous f x) -> RInt f 0 (PI / 2) = RInt (fun t => ratio / weight t * f (polar t)) 0 (PI / 2).
Proof.
  intros Hf. pose proof (int_sub f polar (fun t => ratio / weight t) 0 (PI / 2) Hf) as E. rewrite polar_0, polar_1 in E. symmetry. apply E.
  intros t. split; [apply polar_derive|]. apply (ex_derive_continuous (fun t => ratio / weight t)). pose proof (weight_pos t). unfold weight in *. auto_derive. apply Rgt_not_eq. simpl pow in H. lra.
Qed.
End Turn.

(** ** The formula is the solid angle *)
Lemma ellippi_solid a b : 0 < b <= a -> let A := 4 * 1 * b / (a * sqrt (1 ^ 2 + a ^ 2)) in let k := sqrt ((a ^ 2 - b ^ 2) / (1 ^ 2 + a ^ 2)) in let alpha := sqrt (1 - (b / a) ^ 2) in
  2 * PI - A * ellippi (alpha ^ 2) (k ^ 2) = solid_angle a b.
Proof.
  intros [Hb Hab] A k alpha. assert (Ha : 0 < a) by lra. rewrite solid_quarter by auto.
  assert (H1a : 0 < 1 + a ^ 2) by (pose proof (pow2_ge_0 a); lra).
  assert (Hr : 0 < b / a <= 1). { split; [now apply Rdiv_lt_0_compat|]. apply (Rmult_le_reg_r a); auto. unfold Rdiv. rewrite Rmult_assoc, Rinv_l; lra. }
  assert (Ek : k ^ 2 = (a ^ 2 - b ^ 2) / (1 ^ 2 + a ^ 2)). { unfold k. apply pow2_sqrt. apply Rmult_le_pos; [nra|left; apply Rinv_0_lt_compat; lra]. }
  assert (Ea : alpha ^ 2 = 1 - ratio a b ^ 2). { unfold alpha, ratio. apply pow2_sqrt. nra. }
  rewrite (polar_change a b Ha Hb (cap a b)) by (intros; now apply cap_cont).
  set (g := fun t => / ((1 - alpha ^ 2 * sin t ^ 2) * sqrt (1 - k ^ 2 * sin t ^ 2))).
  assert (Hw : forall t, 1 - alpha ^ 2 * sin t ^ 2 = weight a b t). { intros t. rewrite Ea. unfold weight. pose proof (cs1 t). replace (cos t ^ 2) with (1 - sin t ^ 2) by lra. ring. }
  assert (Hk : forall t, 1 - k ^ 2 * sin t ^ 2 = (1 + a ^ 2 * weight a b t) / (1 + a ^ 2)).
  { intros t. rewrite Ek. unfold weight, ratio. pose proof (cs1 t). replace (cos t ^ 2) with (1 - sin t ^ 2) by lra. field. split; lra. }
  assert (Hwp : forall t, 0 < weight a b t) by (intros; now apply weight_pos).
  assert (Hq : forall t, 0 < 1 + a ^ 2 * weight a b t). { intros t. pose proof (Hwp t). pose proof (pow2_ge_0 a). assert (0 <= a ^ 2 * weight a b t) by (apply Rmult_le_pos; lra). lra. }
  assert (Hsk : forall t, sqrt (1 - k ^ 2 * sin t ^ 2) = sqrt (1 + a ^ 2 * weight a b t) / sqrt (1 + a ^ 2)). { intros t. rewrite Hk. now apply sqrt_div_alt. }
  assert (Hs0 : 0 < sqrt (1 + a ^ 2)) by now apply sqrt_lt_R0.
  assert (Hg : forall t, ratio a b / weight a b t * cap a b (polar a b t) = ratio a b / weight a b t * 1 - b / (a * sqrt (1 + a ^ 2)) * g t).
  { intros t. unfold cap, g. rewrite polar_den, Hw, Hsk, Rinv_inv by auto. pose proof (Hwp t). pose proof (sqrt_lt_R0 _ (Hq t)). unfold ratio. field. repeat split; lra. }
  assert (Hgc : forall t, continuous g t).
  { intros t. apply (ex_derive_continuous g). pose proof (Hwp t) as H1. pose proof (sqrt_lt_R0 _ (Hq t)) as H2. pose proof (Hq t) as H3. unfold g.
    assert (H4 : 0 < 1 - alpha ^ 2 * sin t ^ 2) by (rewrite Hw; auto). assert (H5 : 0 < 1 - k ^ 2 * sin t ^ 2) by (rewrite Hk; apply Rdiv_lt_0_compat; auto).
    pose proof (sqrt_lt_R0 _ H5) as H6. pose proof (Rmult_lt_0_compat _ _ H4 H6) as H7. clearbody alpha k. clear -H4 H5 H6 H7. auto_derive. simpl pow in *. unfold Rminus in *. split; [lra|]. split; auto. apply Rgt_not_eq, H7. }
  assert (Hwc : forall t, continuous (fun t => ratio a b / weight a b t * 1) t).
  { intros t. pose proof (Hwp t). apply (ex_derive_continuous (fun t => ratio a b / weight a b t * 1)). unfold weight in *. auto_derive. apply Rgt_not_eq. simpl pow in *. lra. }
  rewrite (RInt_ext _ (fun t => minus (ratio a b / weight a b t * 1) (b / (a * sqrt (1 + a ^ 2)) * g t))) by (intros; apply Hg).
  assert (Hgs : forall t, continuous (fun t => b / (a * sqrt (1 + a ^ 2)) * g t) t). { intros t. apply (continuous_scal_r (K := R_AbsRing) (V := R_NormedModule) (b / (a * sqrt (1 + a ^ 2))) g). auto. }
  assert (Em : RInt (fun t => minus (ratio a b / weight a b t * 1) (b / (a * sqrt (1 + a ^ 2)) * g t)) 0 (PI / 2) = RInt (fun t => ratio a b / weight a b t * 1) 0 (PI / 2) - RInt (fun t => b / (a * sqrt (1 + a ^ 2)) * g t) 0 (PI / 2)).
  { apply (RInt_minus (V := R_CompleteNormedModule)); now apply int_ex. }
  rewrite Em, <- (polar_change a b Ha Hb (fun _ => 1)) by (intros; apply continuous_const). rewrite (RInt_const (V := R_CompleteNormedModule)).
  rewrite int_scale by now apply int_ex. unfold ellippi. fold g. unfold A. replace (1 ^ 2 + a ^ 2) with (1 + a ^ 2) by ring. unfold scal; cbn [scal]. cbn. unfold mult; cbn. field. split; [apply Rgt_not_eq, Hs0|lra].
Qed.

(** ** C55: OmegaPix *)
(** For positive f-numbers OmegaPix is the solid angle of the cone of light with semi-axes 1 / (2 F):
    in either order, and the circular cone when the second f-number is missing or 0. *)
Theorem C55_omega_is_the_solid_angle : forall fx fy, 0 < fx -> 0 < fy ->
  omega_pix fx (Some fy) = solid_angle (1 / (2 * fx)) (1 / (2 * fy))
  /\ omega_pix fx (Some fy) = omega_pix fy (Some fx)
  /\ omega_pix fx None = solid_angle (1 / (2 * fx)) (1 / (2 * fx))
  /\ omega_pix fx (Some 0) = omega_pix fx None.
Proof.
  assert (Hinv : forall x y, 0 < x -> x <= y -> 0 < 1 / (2 * y) <= 1 / (2 * x)).
  { intros x y Hx Hy. unfold Rdiv. rewrite !Rmult_1_l. split; [apply Rinv_0_lt_compat; lra|]. apply Rinv_le_contravar; lra. }
  assert (Hmain : forall x y, 0 < x -> 0 < y -> omega_pix x (Some y) = solid_angle (1 / (2 * x)) (1 / (2 * y))).
  { intros x y Hx Hy. unfold omega_pix. destruct (Req_EM_T y 0); [lra|]. destruct (Rlt_dec y x).
    - rewrite (ellippi_solid (1 / (2 * y)) (1 / (2 * x))) by (apply Hinv; lra). apply solid_swap; apply Rdiv_lt_0_compat; lra.
    - apply (ellippi_solid (1 / (2 * x)) (1 / (2 * y))). apply Hinv; lra. }
  intros fx fy Hx Hy. split; [auto|]. split; [|split].
  - rewrite !Hmain by auto. apply solid_swap; apply Rdiv_lt_0_compat; lra.
  - rewrite <- Hmain by auto. unfold omega_pix. destruct (Req_EM_T fx 0); [lra|reflexivity].
  - unfold omega_pix. destruct (Req_EM_T 0 0); [reflexivity|congruence].
Qed.
Print Assumptions C55_omega_is_the_solid_angle.

(** A circular cone: the textbook formula. *)
Lemma solid_circle p : 0 < p -> solid_angle p p = 2 * PI * (1 - / sqrt (1 + p ^ 2)).
Proof.
  intros Hp. rewrite solid_quarter by auto. rewrite (RInt_ext _ (fun _ => 1 - / sqrt (1 + p ^ 2))).
  - rewrite (RInt_const (V := R_CompleteNormedModule)). cbn. unfold mult; cbn. field. apply Rgt_not_eq, sqrt_lt_R0. nra.
  - intros x _. unfold cap. do 4 f_equal. unfold den. pose proof (cs1 x) as C. replace ((cos x / p) ^ 2 + (sin x / p) ^ 2) with ((cos x ^ 2 + sin x ^ 2) / p ^ 2) by (field; lra). rewrite C. field. lra.
Qed.
Theorem C55_circular : forall f, 0 < f -> omega_pix f None = 2 * PI * (1 - 1 / sqrt (1 + (1 / (2 * f)) ^ 2)).
Proof.
  intros f Hf. destruct (C55_omega_is_the_solid_angle f f Hf Hf) as (_ & _ & -> & _). rewrite solid_circle by (apply Rdiv_lt_0_compat; lra). f_equal. f_equal. unfold Rdiv at 2. ring.
Qed.
Print Assumptions C55_circular.

(** ** Size *)
Lemma den_le p q p' q' x : 0 < p <= p' -> 0 < q <= q' -> den p' q' x <= den p q x.
Proof.
  intros Hp Hq. unfold den, Rdiv. rewrite !Rpow_mult_distr. pose proof (pow2_ge_0 (cos x)). pose proof (pow2_ge_0 (sin x)).
  assert (H1 : forall u v, 0 < u <= v -> (/ v) ^ 2 <= (/ u) ^ 2). { intros u v Hu. apply pow_incr. split; [left; apply Rinv_0_lt_compat; lra|apply Rinv_le_contravar; lra]. }
  pose proof (H1 _ _ Hp). pose proof (H1 _ _ Hq). apply Rplus_le_compat; apply Rmult_le_compat_l; auto.
Qed.
Lemma cap_lt p q p' q' x : 0 < p' -> 0 < q' -> den p' q' x < den p q x -> cap p q x < cap p' q' x.
Proof.
  intros Hp Hq H. pose proof (den_pos p' q' x Hp Hq) as D. assert (D' : 0 < den p q x) by lra. unfold cap.
  assert (H1 : / den p q x < / den p' q' x) by (apply Rinv_lt_contravar; auto; now apply Rmult_lt_0_compat). pose proof (Rinv_0_lt_compat _ D').
  assert (H2 : sqrt (1 + / den p q x) < sqrt (1 + / den p' q' x)) by (apply sqrt_lt_1; lra). assert (0 < sqrt (1 + / den p q x)) by (apply sqrt_lt_R0; lra).
  assert (/ sqrt (1 + / den p' q' x) < / sqrt (1 + / den p q x)). { apply Rinv_lt_contravar; auto. apply Rmult_lt_0_compat; lra. } lra.
Qed.
Lemma cap_bounds p q x : 0 < p -> 0 < q -> 0 < cap p q x < 1.
Proof.
  intros Hp Hq. pose proof (Rinv_0_lt_compat _ (den_pos p q x Hp Hq)) as D. unfold cap. assert (H : 1 < sqrt (1 + / den p q x)) by (rewrite <- sqrt_1 at 1; apply sqrt_lt_1; lra).
  assert (0 < / sqrt (1 + / den p q x) < 1). { split; [apply Rinv_0_lt_compat; lra|]. apply (Rmult_lt_reg_r (sqrt (1 + / den p q x))); [lra|]. rewrite Rinv_l; lra. } lra.
Qed.
Lemma half_pi : 0 < PI / 2. Proof. pose proof PI_RGT_0. lra. Qed.
Lemma int_lt f g a b : a < b -> (forall x, continuous f x) -> (forall x, continuous g x) -> (forall x, a < x < b -> f x < g x) -> RInt f a b < RInt g a b.
Proof. intros H1 H2 H3 H4. apply RInt_lt; auto. Qed.
Lemma solid_grows p q p' q' : 0 < p <= p' -> 0 < q <= q' -> p < p' \/ q < q' -> solid_angle p q < solid_angle p' q'.
Proof.
  intros Hp Hq H. rewrite !solid_quarter by lra. apply Rmult_lt_compat_l; [lra|]. apply int_lt; try (intros; apply cap_cont; lra); [apply half_pi|].
  intros x Hx. apply cap_lt; try lra. assert (Hc : 0 < cos x) by (apply cos_gt_0; lra). assert (Hs : 0 < sin x) by (apply sin_gt_0; pose proof PI_RGT_0; lra).
  assert (H1 : forall u v, 0 < u < v -> (/ v) ^ 2 < (/ u) ^ 2). { intros u v Hu. assert (0 < / v) by (apply Rinv_0_lt_compat; lra). assert (/ v < / u) by (apply Rinv_lt_contravar; nra). nra. }
  assert (H2 : forall u v, 0 < u <= v -> (/ v) ^ 2 <= (/ u) ^ 2). { intros u v Hu. apply pow_incr. split; [left; apply Rinv_0_lt_compat; lra|apply Rinv_le_contravar; lra]. }
  unfold den, Rdiv. rewrite !Rpow_mult_distr. assert (0 < cos x ^ 2) by nra. assert (0 < sin x ^ 2) by nra. pose proof (H2 _ _ Hp). pose proof (H2 _ _ Hq).
  destruct H as [H|H].
  - assert ((/ p') ^ 2 < (/ p) ^ 2) by (apply H1; lra). nra.
  - assert ((/ q') ^ 2 < (/ q) ^ 2) by (apply H1; lra). nra.
Qed.
Theorem C55_slower_beams_see_less : forall fx fy fx' fy', 0 < fx <= fx' -> 0 < fy <= fy' -> fx < fx' \/ fy < fy' ->
  omega_pix fx' (Some fy') < omega_pix fx (Some fy).
Proof.
  intros fx fy fx' fy' Hx Hy H. rewrite !(fun x y Hx Hy => proj1 (C55_omega_is_the_solid_angle x y Hx Hy)) by lra.
  assert (H1 : forall u v, 0 < u < v -> 0 < 1 / (2 * v) < 1 / (2 * u)). { intros u v Hu. unfold Rdiv. rewrite !Rmult_1_l. split; [apply Rinv_0_lt_compat; lra|apply Rinv_lt_contravar; nra]. }
  assert (H2 : forall u v, 0 < u <= v -> 0 < 1 / (2 * v) <= 1 / (2 * u)). { intros u v [Hu [Huv| ->]]; [pose proof (H1 u v (conj Hu Huv)); lra|]. split; [apply Rdiv_lt_0_compat|]; lra. }
  apply solid_grows; auto. destruct H; [left|right]; apply H1; lra.
Qed.
Print Assumptions C55_slower_beams_see_less.

(** Positive, below the half sphere and below the area of the ellipse, pi / (4 fx fy). *)
Lemma solid_area p q : 0 < p -> 0 < q -> solid_angle p q < PI * p * q.
Proof.
  intros Hp Hq. rewrite solid_quarter by auto.
  assert (Hc : forall x, continuous (fun x => / 2 * / den p q x) x).
  { intros x. pose proof (den_pos p q x Hp Hq) as D. apply (ex_derive_continuous (fun x => / 2 * / den p q x)). unfold den in *. auto_derive. unfold Rdiv in D. simpl pow in D. apply Rgt_not_eq. exact D. }
  assert (Ei : RInt (fun x => / 2 * / den p q x) 0 (PI / 2) = PI * p * q / 4).
  { rewrite (polar_change p q Hp Hq) by auto. rewrite (RInt_ext _ (fun _ => p * q / 2)).
    - rewrite (RInt_const (V := R_CompleteNormedModule)). change ((PI / 2 - 0) * (p * q / 2) = PI * p * q / 4). field.
    - intros t _. rewrite polar_den by auto. pose proof (weight_pos p q Hp Hq t). unfold ratio. match goal with |- ?u = ?v => change (@eq R u v) end. field. lra. }
  assert (H : RInt (cap p q) 0 (PI / 2) < RInt (fun x => / 2 * / den p q x) 0 (PI / 2)).
  { apply int_lt; auto; [apply half_pi|intros; now apply cap_cont|]. intros x _. pose proof (Rinv_0_lt_compat _ (den_pos p q x Hp Hq)) as D. unfold cap. set (r := / den p q x) in *.
    assert (Hs : 0 < sqrt (1 + r)) by (apply sqrt_lt_R0; lra). assert (Hs2 : sqrt (1 + r) ^ 2 = 1 + r) by (apply pow2_sqrt; lra). set (s := sqrt (1 + r)) in *.
    assert (Hs1 : 1 < s) by nra. assert (E : / s * s = 1) by (field; lra). assert (0 < / s) by now apply Rinv_0_lt_compat. set (i := / s) in *. clearbody i s r.
    assert (r = s ^ 2 - 1) as -> by lra. assert (1 - i < s - 1) by nra. nra. }
  rewrite Ei in H. lra.
Qed.
Theorem C55_bounds : forall fx fy, 0 < fx -> 0 < fy -> 0 < omega_pix fx (Some fy) < 2 * PI /\ omega_pix fx (Some fy) < PI / (4 * fx * fy).
Proof.
  intros fx fy Hx Hy. rewrite (proj1 (C55_omega_is_the_solid_angle fx fy Hx Hy)). set (p := 1 / (2 * fx)). set (q := 1 / (2 * fy)). assert (Hp : 0 < p) by (apply Rdiv_lt_0_compat; lra). assert (Hq : 0 < q) by (apply Rdiv_lt_0_compat; lra).
  split.
  - rewrite solid_quarter by auto. pose proof half_pi.
    assert (RInt (fun _ => 0) 0 (PI / 2) < RInt (cap p q) 0 (PI / 2)). { apply int_lt; auto; try (intros; now apply cap_cont); [intros; apply continuous_const|]. intros x _. now apply cap_bounds. }
    assert (RInt (cap p q) 0 (PI / 2) < RInt (fun _ => 1) 0 (PI / 2)). { apply int_lt; auto; try (intros; now apply cap_cont); [intros; apply continuous_const|]. intros x _. now apply cap_bounds. }
    rewrite !(RInt_const (V := R_CompleteNormedModule)) in *. cbn in *. unfold mult in *; cbn in *. lra.
  - eapply Rlt_le_trans; [now apply solid_area|]. right. unfold p, q. field. lra.
Qed.
Print Assumptions C55_bounds.

(** f / 5: 0.0312 sr; an elliptical beam lies between the circular ones *)
Example ex_omega : 0 < omega_pix 5 None <= 0.04.
Proof.
  pose proof (C55_bounds 5 5 ltac:(lra) ltac:(lra)) as [[A _] B].
  assert (E : omega_pix 5 (Some 5) = omega_pix 5 None). { destruct (C55_omega_is_the_solid_angle 5 5) as (E1 & _ & E2 & _); lra. }
  rewrite <- E. pose proof PI_4. lra.
Qed.
Example ex_omega_between : omega_pix 10 (Some 10) < omega_pix 5 (Some 10) < omega_pix 5 (Some 5).
Proof. split; apply C55_slower_beams_see_less; lra. Qed.
