(** Model of OmegaPix, utils/exolib.py:525-566, the solid angle under which a pixel sees the optics.
    Definitions only.  Arithmetic is exact; mpmath.ellippi is the complete elliptic integral of the
    third kind. *)
From Verif Require Import Base.
From Coq Require Import Reals Lra Psatz.
From Coquelicot Require Import Coquelicot.
Open Scope R_scope.

(** mpmath.ellippi(n, m), by its definition as an integral *)
Definition ellippi (n m : R) : R := RInt (fun t => / ((1 - n * sin t ^ 2) * sqrt (1 - m * sin t ^ 2))) 0 (PI / 2).

(** OmegaPix(Fnum_x, Fnum_y=None): exolib.py:547-566.  [None] is a missing argument; "not Fnum_y" also
    holds for 0.  The result is in sr. *)
Definition omega_pix (fx : R) (fy : option R) : R :=
  let fy := match fy with None => fx | Some y => if Req_EM_T y 0 then fx else y end in
  let (a, b) := if Rlt_dec fy fx then (1 / (2 * fy), 1 / (2 * fx)) else (1 / (2 * fx), 1 / (2 * fy)) in
  let h := 1 in
  let A := 4 * h * b / (a * sqrt (h ^ 2 + a ^ 2)) in
  let k := sqrt ((a ^ 2 - b ^ 2) / (h ^ 2 + a ^ 2)) in
  let alpha := sqrt (1 - (b / a) ^ 2) in
  2 * PI - A * ellippi (alpha ^ 2) (k ^ 2).
