(** Vocabulary of the properties about the stellar source. *)
From Verif Require Import Base PyStr XR M_Signal M_Light M_Source S_Signal S_Optics S_Light.
From Coq Require Import Qreals.
Open Scope list_scope.
Open Scope R_scope.

(** ** Names of stellar models: xxx<temperature / 100>-<gravity>-<metallicity, up to three characters>... *)
Definition no_dash (s : string) : Prop := ~ In "-"%char (str_chars s).
(** [s] is the literal of the number [x] *)
Definition reads (s : string) (x : R) : Prop := exists q, py_float s = Some (FQ q) /\ x = Q2R q.
Definition named (name : string) (T g z : R) : Prop := exists pre t lg m rest,
  name = (pre ++ t ++ "-" ++ lg ++ "-" ++ m ++ rest)%string
  /\ String.length pre = 3%nat /\ no_dash pre /\ no_dash t /\ no_dash lg /\ no_dash m
  /\ (String.length m = 3%nat \/ (String.length m < 3)%nat /\ (rest = ""%string \/ exists r, rest = ("-" ++ r)%string))
  /\ reads t T /\ reads lg g /\ reads m z.
(** at least two dashes *)
Definition three_parts (name : string) : Prop := exists a b c, name = (a ++ "-" ++ b ++ "-" ++ c)%string.
(** the nearest whole number, the even one of two *)
Definition rounded (x : R) (k : Z) : Prop := Rabs (x - IZR k) <= 0.5 /\ (Rabs (x - IZR k) = 0.5 -> Z.Even k).
(** how far a model (T', g', z') is from a star, [k] its temperature in whole hundreds *)
Definition mismatch (k : Z) (g z T' g' z' : R) : R := Rabs (T' - IZR k) + Rabs (g' - g) + Rabs (z' - z).

(** ** Fluxes *)
(** W, from the flux [sed] seen at the distance [D] *)
Definition radiated (D : R) (sed : sig) : R := 4 * PI * D ^ 2 * trapezia (s_wl sed) (fun i => at_ i (s_data sed)).
(** the same wavelengths with all values multiplied by [k] *)
Definition times_k (k : R) (s s' : sig) : Prop := s_wl s' = s_wl s /\ length (s_data s') = length (s_data s) /\ forall i, at_ i (s_data s') = k * at_ i (s_data s).
Definition with_D (t : stellar) (D : R) : stellar := {| t_D := Some D; t_Teff := t_Teff t; t_M := t_M t; t_R := t_R t |}.
Definition with_R (t : stellar) (r : R) : stellar := {| t_D := t_D t; t_Teff := t_Teff t; t_M := t_M t; t_R := Some r |}.
(** the length in um of what the user gives; bare numbers are in um *)
Definition microns (w : wavelength) : R := match in_um w with Some s => value w * s | None => value w end.
(** both are bare or both are quantities *)
Definition comparable (a b : wavelength) : Prop := (in_um a = None <-> in_um b = None).
Definition is_um (w : wavelength) : Prop := in_um w = None \/ in_um w = Some 1.
