(** Floating point values idealised as reals with infinities and NaN (rounding and signed zeros
    are not modelled; a division by zero behaves like a division by +0). *)
From Coq Require Export Reals Lra.
From Verif Require Import Base.
Open Scope list_scope.
Local Open Scope R_scope.

Inductive xr := Fin (x : R) | PInf | NInf | NaN.

Definition xadd (a b : xr) : xr :=
  match a, b with
  | NaN, _ | _, NaN => NaN
  | Fin x, Fin y => Fin (x + y)
  | PInf, NInf | NInf, PInf => NaN
  | PInf, _ | _, PInf => PInf
  | NInf, _ | _, NInf => NInf
  end.
Definition xopp (a : xr) : xr :=
  match a with Fin x => Fin (- x) | PInf => NInf | NInf => PInf | NaN => NaN end.
Definition xsub (a b : xr) : xr := xadd a (xopp b).
(** x times an infinity of the sign of [pos] *)
Definition sgn_inf (x : R) (pos : bool) : xr :=
  match total_order_T x 0 with
  | inleft (left _) => if pos then NInf else PInf
  | inleft (right _) => NaN
  | inright _ => if pos then PInf else NInf
  end.
Definition xmul (a b : xr) : xr :=
  match a, b with
  | NaN, _ | _, NaN => NaN
  | Fin x, Fin y => Fin (x * y)
  | Fin x, PInf | PInf, Fin x => sgn_inf x true
  | Fin x, NInf | NInf, Fin x => sgn_inf x false
  | PInf, PInf | NInf, NInf => PInf
  | PInf, NInf | NInf, PInf => NInf
  end.
Definition xdiv (a b : xr) : xr :=
  match a, b with
  | NaN, _ | _, NaN => NaN
  | Fin x, Fin y => if Req_EM_T y 0 then sgn_inf x true else Fin (x / y)
  | Fin _, _ => Fin 0
  | PInf, Fin y => if Rlt_dec y 0 then NInf else PInf
  | NInf, Fin y => if Rlt_dec y 0 then PInf else NInf
  | _, _ => NaN
  end.
Definition xsqrt (a : xr) : xr :=
  match a with
  | Fin x => if Rlt_dec x 0 then NaN else Fin (sqrt x)
  | PInf => PInf
  | _ => NaN
  end.
(** comparisons are false when an operand is NaN *)
Definition xltb (a b : xr) : bool :=
  match a, b with
  | NaN, _ | _, NaN => false
  | Fin x, Fin y => if Rlt_dec x y then true else false
  | NInf, NInf | PInf, _ | _, NInf => false
  | _, _ => true
  end.
Definition xeqb (a b : xr) : bool :=
  match a, b with
  | Fin x, Fin y => if Req_EM_T x y then true else false
  | PInf, PInf | NInf, NInf => true
  | _, _ => false
  end.
(** np.min of two values: NaN propagates *)
Definition xmin (a b : xr) : xr :=
  match a, b with NaN, _ | _, NaN => NaN | _, _ => if xltb b a then b else a end.
Definition xmax (a b : xr) : xr :=
  match a, b with NaN, _ | _, NaN => NaN | _, _ => if xltb a b then b else a end.
(** np.floor *)
Definition Rfloor (x : R) : Z := (up x - 1)%Z.
Definition xfloor (a : xr) : xr := match a with Fin x => Fin (IZR (Rfloor x)) | a => a end.

Definition is_fin (a : xr) : Prop := exists x, a = Fin x.

Lemma Rfloor_spec x : IZR (Rfloor x) <= x < IZR (Rfloor x) + 1.
Proof. unfold Rfloor. rewrite minus_IZR. destruct (archimed x). lra. Qed.
Lemma Rfloor_unique x z : IZR z <= x < IZR z + 1 -> Rfloor x = z.
Proof.
  intros [A B]. destruct (Rfloor_spec x) as [C D].
  assert (IZR (Rfloor x) < IZR (z + 1)) by (rewrite plus_IZR; lra).
  assert (IZR z < IZR (Rfloor x + 1)) by (rewrite plus_IZR; lra).
  apply lt_IZR in H, H0. lia.
Qed.

Lemma xdiv_fin x y : y <> 0 -> xdiv (Fin x) (Fin y) = Fin (x / y).
Proof. intros. cbn. destruct (Req_EM_T y 0); [contradiction|reflexivity]. Qed.
Lemma xdiv_pos0 x : 0 < x -> xdiv (Fin x) (Fin 0) = PInf.
Proof.
  intros. cbn. destruct (Req_EM_T 0 0); [|congruence]. unfold sgn_inf.
  destruct (total_order_T x 0) as [[|]|]; auto; lra.
Qed.
Lemma xsqrt_fin x : 0 <= x -> xsqrt (Fin x) = Fin (sqrt x).
Proof. intros. cbn. destruct (Rlt_dec x 0); [lra|reflexivity]. Qed.
Lemma xltb_fin x y : xltb (Fin x) (Fin y) = true <-> x < y.
Proof. cbn. destruct (Rlt_dec x y); split; auto; discriminate. Qed.
Lemma xmin_fin x y : xmin (Fin x) (Fin y) = Fin (Rmin x y).
Proof.
  cbn. destruct (Rlt_dec y x).
  - rewrite Rmin_right; auto; lra.
  - rewrite Rmin_left; auto; lra.
Qed.
Lemma xzero_mul_idem x : xmul (Fin 0) (xmul (Fin 0) x) = xmul (Fin 0) x.
Proof.
  destruct x as [x| | |]; cbn; [f_equal; ring| | |reflexivity];
    unfold sgn_inf; destruct (total_order_T 0 0) as [[|]|]; auto; exfalso; lra.
Qed.
Lemma xzero_mul_fin x : xmul (Fin 0) (Fin x) = Fin 0.
Proof. cbn. f_equal. ring. Qed.
Lemma xzero_mul_nonfin x : ~ is_fin x -> xmul (Fin 0) x = NaN.
Proof.
  intros N. destruct x as [x| | |]; [destruct N; eexists; eauto| | |reflexivity]; cbn;
    unfold sgn_inf; destruct (total_order_T 0 0) as [[|]|]; auto; exfalso; lra.
Qed.
