(** Specification vocabulary: warmer or more emissive optics (C123). *)
From Coq Require Import Reals.
From Verif Require Import Base XR M_Optics M_Build.
Open Scope list_scope.
Open Scope R_scope.

(** Numbers at least as large *)
Definition no_smaller : list R -> list R -> Prop := Forall2 Rle.
(** A table with the same columns, but an emissivity nowhere smaller, between 0 and 1 *)
Definition emits_more (t t' : column_table) : Prop :=
  (forall c, c <> "Emissivity"%string -> sget c t' = sget c t) /\
  exists y y', sget "Emissivity" t = Some y /\ sget "Emissivity" t' = Some y' /\ no_smaller y y' /\ forall v, In v y' -> v <= 1.
(** An optical element, the same but for its temperature or its emissivity, not below those of before *)
Definition warmer (d d' : descr) : Prop :=
  (forall k, k <> "temperature"%string -> k <> "emissivity"%string -> k <> "data"%string -> sget k d' = sget k d) /\
  (sget "temperature" d' = sget "temperature" d \/ exists T T', sget "temperature" d = Some (Num T) /\ sget "temperature" d' = Some (Num T') /\ T <= T') /\
  (sget "emissivity" d' = sget "emissivity" d \/ exists E E', sget "emissivity" d = Some (Num E) /\ sget "emissivity" d' = Some (Num E') /\ E <= E' <= 1) /\
  (sget "data" d' = sget "data" d \/ exists t t', sget "data" d = Some (Tab t) /\ sget "data" d' = Some (Tab t') /\ emits_more t t').
(** The same elements, in the same order, each as warm and emissive as before or more *)
Definition optics_warmer (o o' : optics) : Prop :=
  match o, o' with
  | NoElement, NoElement => True
  | One d, One d' => warmer d d'
  | Several ds, Several ds' => Forall2 (fun kd kd' => fst kd' = fst kd /\ warmer (snd kd) (snd kd')) ds ds'
  | _, _ => False
  end.
Definition with_optics (d : description) (o : option optics) : description :=
  {| d_name := d_name d; d_class := d_class d; d_min := d_min d; d_max := d_max d; d_from := d_from d; d_to := d_to d; d_delta := M_Build.d_delta d; d_qe := d_qe d; d_fx := d_fx d; d_fy := d_fy d;
     d_psf := d_psf d; d_aperture := d_aperture d; d_solution := d_solution d; d_targetR := d_targetR d; d_wfe := d_wfe d; d_windows := d_windows d; d_optics := o; d_detector := d_detector d |}.
Definition option_warmer (o o' : option optics) : Prop :=
  match o, o' with Some a, Some b => optics_warmer a b | None, None => True | _, _ => False end.
(** The payload [p'] is [p] with warmer or more emissive optics, of its own or in its channels. *)
Definition payload_warmer (p p' : payload) : Prop :=
  (exists o o', p_optics p = Some o /\ p_optics p' = Some o' /\ o_force o' = o_force o /\ o_area o' = o_area o /\ optics_warmer (o_elements o) (o_elements o')) /\
  p_custom p' = p_custom p /\
  exists l l', p_channel p = Some (Ordered l) /\ p_channel p' = Some (Ordered l') /\
    Forall2 (fun nd nd' => fst nd' = fst nd /\ exists own, snd nd' = with_optics (snd nd) own /\ option_warmer (d_optics (snd nd)) own) l l'.
