(** Specification vocabulary: telescopes of different area (C117). *)
From Coq Require Import Reals.
From Verif Require Import Base XR M_Light M_Bins M_Star M_Observe M_Build.
(** The telescope's collecting area, and the same payload with another one *)
Definition has_area (p : payload) (A : R) : Prop := exists o, p_optics p = Some o /\ o_area o = A.
Definition with_area (p : payload) (A : R) : payload :=
  {| p_optics := match p_optics p with Some o => Some {| o_elements := o_elements o; o_force := o_force o; o_area := A |} | None => None end; p_custom := p_custom p; p_channel := p_channel p |}.
