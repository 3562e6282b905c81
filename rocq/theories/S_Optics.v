(** Vocabulary of the properties about optical elements and paths. *)
From Verif Require Import Base XR M_Signal M_Optics.
Open Scope list_scope.
Open Scope R_scope.

(** the k-th entry of an array, the product of some numbers *)
Definition at_ (k : nat) (l : list R) : R := nth k l 0.
Definition product (l : list R) : R := fold_right Rmult 1 l.
(** the elements of a path, in the order of the light *)
Definition sequence (els : elements) : list element := map snd els.
(** every element has one transmission and one emissivity per wavelength *)
Definition sampled_on (wl : list R) (e : element) : Prop := length (e_tr e) = length wl /\ length (e_em e) = length wl.
Definition transmits_within_unit (n : nat) (e : element) : Prop := forall k, (k < n)%nat -> 0 <= at_ k (e_tr e) <= 1.
Definition is_slit (e : element) : Prop := e_type e = "slit"%string.
Definition emits (e : element) : Prop := e_temp e <> None.
Definition slit_width_of (e : element) : option R := match sget "width" (e_descr e) with Some (Num w) => Some w | _ => None end.
(** what an element description gives as number under a key *)
Definition says (d : descr) (key : string) (v : R) : Prop := sget key d = Some (Num v).
Definition silent (d : descr) (key : string) : Prop := sget key d = None.
(** the transmission or reflectivity, when only one is given *)
Definition constant_transmission (d : descr) (v : R) : Prop :=
  (says d "transmission" v /\ silent d "reflectivity") \/ (says d "reflectivity" v /\ silent d "transmission").
(** a wavelength lies below the lower or above the upper edge of an element's band *)
Definition out_of_band (d : descr) (w : R) : Prop :=
  (exists m, says d "wl_min" m /\ w < m) \/ (exists m, says d "wl_max" m /\ m < w).
