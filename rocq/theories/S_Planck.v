(** Planck's law with the constants of the SI, for comparison. *)
From Coq Require Import Reals.
Open Scope R_scope.

(** 2 h c^2 in W um^4 / m^2 / sr, from h = 6.62607015e-34 J s and c = 299792458 m/s *)
Definition first_constant : R := 2 * (662607015 / 10 ^ 42) * 299792458 ^ 2 * 10 ^ 24.
(** h c / k in um K, from k = 1.380649e-23 J/K *)
Definition second_constant : R := 662607015 / 10 ^ 42 * 299792458 / (1380649 / 10 ^ 29) * 10 ^ 6.
(** W / m^2 / sr / um at [wl] um and [T] K *)
Definition black_body (wl T : R) : R := first_constant / (wl ^ 5 * (exp (second_constant / (wl * T)) - 1)).
