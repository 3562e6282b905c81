(** Specification vocabulary: a grey filter in front of the optics (C119). *)
From Coq Require Import Reals.
From Verif Require M_Foreground S_Foreground.
From Verif Require Import Base XR M_Optics M_Table M_Observe M_Build S_Optics.
Open Scope list_scope.
Open Scope R_scope.

(** An optical element, not a slit, that passes the fraction [k] of the light at every wavelength and,
    having no temperature, does not emit *)
Definition grey (d : descr) (k : R) : Prop :=
  (exists n t, sget "value" d = Some (M_Optics.Txt n) /\ sget "type" d = Some (M_Optics.Txt t) /\ t <> "slit"%string) /\
  says d "transmission" k /\ silent d "reflectivity" /\ silent d "data" /\ silent d "wl_min" /\ silent d "wl_max" /\ silent d "temperature" /\ silent d "solid_angle" /\
  (silent d "emissivity" \/ exists v, says d "emissivity" v /\ 0 <= v <= 1).
(** The keys under which the elements of an optics section are known *)
Definition element_key (o : optics) (k : string) : Prop :=
  match o with NoElement => k = "noElement"%string | One d => sget "value" d = Some (M_Optics.Txt k) | Several ds => In k (map fst ds) end.
(** [o'] is [o] behind the element [d], known as [key] *)
Definition behind (key : string) (d : descr) (o o' : optics) : Prop :=
  match o with
  | NoElement => False
  | One d0 => exists v, sget "value" d0 = Some (M_Optics.Txt v) /\ o' = Several [(key, d); (v, d0)]
  | Several ds => o' = Several ((key, d) :: ds)
  end.
(** The payload [p'] is [p] with the element [d] in front; [key] is not known in [p]. *)
Definition payload_behind (key : string) (d : descr) (p p' : payload) : Prop :=
  p_custom p' = p_custom p /\ p_channel p' = p_channel p /\
  (exists o o', p_optics p = Some o /\ p_optics p' = Some o' /\ o_force o' = o_force o /\ o_area o' = o_area o /\ ~ element_key (o_elements o) key /\ behind key d (o_elements o) (o_elements o')) /\
  forall l n c own, p_channel p = Some (Ordered l) -> In (n, c) l -> d_optics c = Some own -> ~ element_key own key.
(** A foreground called [n] is among the foregrounds. *)
Definition in_the_sky (f : M_Foreground.foregrounds_descr) (n : string) : Prop :=
  match f with
  | M_Foreground.Many l => exists q, In q l /\ S_Foreground.stored_as q n
  | M_Foreground.One d => exists v, M_Foreground.k_value (M_Foreground.as_sky d) = Some v /\ S_Foreground.stored_as (v, d) n
  end.
(** A column of transmissions, not a number where a bin has none *)
Definition fractions_shown (t : list (option R)) : list cell := map (fun v => match v with Some r => M_Table.Num (Fin r) | None => M_Table.Num NaN end) t.
