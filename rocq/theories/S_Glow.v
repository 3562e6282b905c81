(** Specification vocabulary: brighter foregrounds (C118). *)
From Coq Require Import Reals.
From Verif Require Import Base XR M_Foreground M_Table M_Observe S_Foreground.
Open Scope list_scope.

(** A table of a sky filter with radiances [k] times as large *)
Definition brighter_table (k : R) (t t' : sky_table) : Prop :=
  (exists c c', sget "Radiance" t = Some c /\ sget "Radiance" t' = Some c' /\ c_unit c' = c_unit c /\ c_values c' = map (fun v => (v * k)%R) (c_values c)) /\
  forall n, n <> "Radiance"%string -> sget n t' = sget n t.
(** The description [p'] of a foreground, called [name], [k] times as bright as that of [p]: of zodiacal
    light, the factor; of a sky filter, the radiances.  Foregrounds of another name are the same. *)
Definition brighter (name : string) (k : R) (p p' : string * any_descr) : Prop :=
  fst p' = fst p /\ k_value (as_sky (snd p')) = k_value (as_sky (snd p)) /\
  ((~ stored_as p name /\ snd p' = snd p) \/
   (stored_as p name /\
    if zodiacal p then exists A, z_factor (as_zodi (snd p)) = Some A /\ as_zodi (snd p') = {| z_map := z_map (as_zodi (snd p)); z_map_file := z_map_file (as_zodi (snd p)); z_factor := Some (A * k)%R |}
    else exists t t', k_data (as_sky (snd p)) = Some t /\ k_data (as_sky (snd p')) = Some t' /\ brighter_table k t t')).
(** The foregrounds of two payloads, alike but for the one called [name] *)
Definition sky_brighter (name : string) (k : R) (f f' : foregrounds_descr) : Prop :=
  match f, f' with
  | Many l, Many l' => Forall2 (brighter name k) l l' /\ exists p, In p l /\ stored_as p name
  | One d, One d' => exists v, k_value (as_sky d) = Some v /\ brighter name k (v, d) (v, d') /\ stored_as (v, d) name
  | _, _ => False
  end.
(** The same run with other foregrounds *)
Definition with_foregrounds (s : setting) (f : foregrounds_descr) : setting :=
  {| y_world := y_world s; y_maps := y_maps s; y_R := y_R s; y_version := y_version s; y_min := y_min s; y_max := y_max s; y_foreground := Some f; y_source := y_source s |}.
(** The columns reporting the light of the foreground called [name] *)
Definition glow_column (name k : string) : Prop := k = (name ++ "_signal")%string \/ k = (name ++ "_MaxSignal_inPixel")%string.
