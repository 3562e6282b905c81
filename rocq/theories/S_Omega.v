(** Vocabulary of the properties about solid angles. *)
From Verif Require Import Base.
From Coq Require Import Reals Lra Psatz.
From Coquelicot Require Import Coquelicot.
Open Scope R_scope.

(** The distance from the centre to the boundary of the ellipse (x/p)^2 + (y/q)^2 = 1 in the
    direction phi *)
Definition ellipse_radius (p q phi : R) : R := / sqrt ((cos phi / p) ^ 2 + (sin phi / q) ^ 2).
(** The solid angle of the cone over an ellipse with semi-axes p, q at distance 1 from the apex: the
    area of the unit sphere inside it, the integral of sin theta over the directions (theta, phi) with
    theta from the axis to the boundary of the cone *)
Definition solid_angle (p q : R) : R :=
  RInt (fun phi => RInt sin 0 (atan (ellipse_radius p q phi))) 0 (2 * PI).
