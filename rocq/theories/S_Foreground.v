(** Vocabulary of the properties about foregrounds. *)
From Verif Require Import Base XR M_Signal M_Optics M_Light M_Source M_Foreground S_Signal S_Optics S_Light S_Bins S_Source.
From Coq Require Import Permutation.
Open Scope list_scope.
Open Scope R_scope.

(** n wavelengths from lo to hi at equal ratios *)
Definition geometric_grid (lo hi : R) (n : nat) (wl : list R) : Prop :=
  length wl = n /\ forall i, (i < n)%nat -> at_ i wl = lo * Rpower (hi / lo) (INR i / INR (n - 1)).
(** [v] is what a tabulated curve says at [w]: [fill] outside the table *)
Definition curve_or (fill : R) (tab : list (R * R)) (w v : R) : Prop :=
  read_at tab w v \/ ((forall p, In p tab -> w < fst p) \/ (forall p, In p tab -> fst p < w)) /\ v = fill.
(** the wavelengths in um of a table of a sky filter, and a column, row by row *)
Definition sky_rows (t : sky_table) (name : string) (tab : list (R * R)) : Prop :=
  exists w u c, sget "Wavelength" t = Some w /\ c_unit w = Some u /\ sget name t = Some c
  /\ length (c_values w) = length (c_values c) /\ tab = combine (map (fun x => x * u) (c_values w)) (c_values c).
(** every wavelength of the table occurs once *)
Definition distinct_wavelengths (d : sky_descr) : Prop :=
  forall t w u, k_data d = Some t -> sget "Wavelength" t = Some w -> c_unit w = Some u -> NoDup (map (fun x => x * u) (c_values w)).
(** what a column of the table of a sky filter says at [w] um; its rows may be in any order *)
Definition column_says (fill : R) (name : string) (d : sky_descr) (w v : R) : Prop :=
  exists t tab tab', k_data d = Some t /\ sky_rows t name tab /\ Permutation tab tab' /\ increasing (wls tab') /\ curve_or fill tab' w v.
Definition transmission_at : sky_descr -> R -> R -> Prop := column_says 1 "Transmission".
(** in W/m^2/sr/um *)
Definition radiance_at (d : sky_descr) (w v : R) : Prop :=
  exists t c u x, k_data d = Some t /\ sget "Radiance" t = Some c /\ c_unit c = Some u /\ column_says 0 "Radiance" d w x /\ v = x * u.

(** the sky filters among the foregrounds of a payload *)
Definition zodiacal (p : string * any_descr) : bool := String.eqb (fst p) "zodiacal".
Definition filters (l : sdict any_descr) : list sky_descr := map (fun p => as_sky (snd p)) (filter (fun p => negb (zodiacal p)) l).
(** the light of one foreground entry as computed for a target with these coordinates, alone *)
Definition fresh (t : tgt) : tgt := {| g_ra := g_ra t; g_dec := g_dec t; g_foreground := None; g_sky := None |}.
(** the name a foreground is stored under *)
Definition stored_as (p : string * any_descr) (name : string) : Prop :=
  if zodiacal p then name = "zodi"%string else k_value (as_sky (snd p)) = Some name.
(** [f] results from the description [p], were it the only one *)
Definition gives (m : maps) (n : nat) (a b : wavelength) (t : tgt) (p : string * any_descr) (f : foreground) : Prop :=
  exists name t', estimate_foregrounds m n a b (Many [p]) (fresh t) = Ok t' /\ g_foreground t' = Some [(name, f)].
(** p repetitions *)
Inductive repeated (step : tgt -> res tgt) : nat -> tgt -> tgt -> Prop :=
| never : forall t, repeated step 0 t t
| once_more : forall p t t' t'', repeated step p t t' -> step t' = Ok t'' -> repeated step (S p) t t''.

(** ** Zodiacal light *)
(** planck's law in the units of the code *)
Definition thermal (w T : R) : R := 119104276.8 / (w ^ 5 * (exp (14387.7516 / (w * T)) - 1)).
Definition zodiacal_light (A w : R) : R := A * (3.5 / 10 ^ 14 * thermal w 5500 + 3.58 / 10 ^ 8 * thermal w 270).
(** rows (ra, dec, coefficient) of a map *)
Definition zodiacal_map (t : column_table) (rows : list (R * R * R)) : Prop :=
  sget "ra_icrs" t = Some (map (fun r => fst (fst r)) rows) /\ sget "dec_icrs" t = Some (map (fun r => snd (fst r)) rows)
  /\ sget "zodi_coeff" t = Some (map snd rows).
(** squared distance of coordinates taken as plane ones *)
Definition apart (ra dec : R) (r : R * R * R) : R := (fst (fst r) - ra) ^ 2 + (snd (fst r) - dec) ^ 2.
(** [r] is the first of the rows nearest to (ra, dec) *)
Definition first_nearest (ra dec : R) (rows : list (R * R * R)) (r : R * R * R) : Prop :=
  exists before after, rows = before ++ r :: after
  /\ (forall r', In r' before -> apart ra dec r < apart ra dec r') /\ forall r', In r' after -> apart ra dec r <= apart ra dec r'.
(** cosine of the angle between directions on the sky, all in degrees *)
Definition cos_deg (x : R) : R := cos (x * PI / 180).
Definition sin_deg (x : R) : R := sin (x * PI / 180).
Definition cos_separation (ra dec : R) (r : R * R * R) : R :=
  sin_deg dec * sin_deg (snd (fst r)) + cos_deg dec * cos_deg (snd (fst r)) * cos_deg (fst (fst r) - ra).
