(** Vocabulary: complete descriptions of foregrounds and sources. *)
From Verif Require Import Base PyStr XR M_Signal M_Optics M_Light M_Source M_Foreground S_Signal S_Optics S_Light S_Source S_Foreground M_Observe.
Open Scope list_scope.
Open Scope R_scope.

(** A table with wavelengths, each once, with radiances, not negative, and transmissions between 0
    and 1; the first two have units. *)
Definition sensible_filter (d : sky_descr) : Prop :=
  (exists name, k_value d = Some name) /\ exists t w uw r ur tr, k_data d = Some t /\
  sget "Wavelength" t = Some w /\ c_unit w = Some uw /\ sget "Radiance" t = Some r /\ c_unit r = Some ur /\ sget "Transmission" t = Some tr /\
  c_values w <> [] /\ length (c_values r) = length (c_values w) /\ length (c_values tr) = length (c_values w) /\
  NoDup (map (fun x => x * uw) (c_values w)) /\ 0 < ur /\
  (forall x, In x (c_values r) -> 0 <= x) /\ (forall x, In x (c_values tr) -> 0 <= x <= 1).
(** Zodiacal light given by a factor *)
Definition sensible_zodi (z : zodi_descr) : Prop := z_map z <> Some true /\ forall v, z_factor z = Some v -> 0 <= v.
(** The foregrounds of a payload: keyed "zodiacal", or sky filters *)
Definition sensible_foregrounds (f : foregrounds_descr) : Prop :=
  match f with
  | Many l => l <> [] /\ forall k d, In (k, d) l -> if String.eqb k "zodiacal" then sensible_zodi (as_zodi d) else sensible_filter (as_sky d)
  | One d => exists v, k_value (as_sky d) = Some v /\ if String.eqb v "zodiacal" then sensible_zodi (as_zodi d) else sensible_filter (as_sky d)
  end.
(** A black body, and a star that may be one *)
Definition black_body (s : source_arg) : Prop :=
  exists v, d_value (description_of s) = Some v /\ py_lower v <> "custom"%string /\ py_lower v <> "phoenix"%string.
Definition known_star (t : stellar) : Prop :=
  exists D T M r, t_D t = Some D /\ t_Teff t = Some T /\ t_M t = Some M /\ t_R t = Some r /\ 0 < D /\ 0 < T /\ 0 < M /\ 0 < r.
(** A declination comes with every right ascension *)
Definition located (g : tgt) : Prop := g_ra g <> None -> g_dec g <> None.
