(** Specification vocabulary: detectors of lower quantum efficiency (C121). *)
From Coq Require Import Reals.
From Verif Require Import Base XR M_Optics M_Bins M_Build.
Open Scope list_scope.
Open Scope R_scope.

(** The quantum efficiency [q'] of the channel [name] is [k] times [q]: the number, or the channel's
    column of the file; the rest of the file is the same. *)
Definition less_efficient (k : R) (name : string) (q q' : qe_description) : Prop :=
  match q with
  | QeValue v => q' = QeValue (v * k)
  | QeFile t => exists t' y, q' = QeFile t' /\ name <> "wavelength"%string /\ name <> "Wavelength"%string /\
      sget name t = Some y /\ sget name t' = Some (map (fun a => a * k) y) /\ forall m, m <> name -> sget m t' = sget m t
  end.
Definition with_qe (d : description) (q : qe_description) : description :=
  {| d_name := d_name d; d_class := d_class d; d_min := d_min d; d_max := d_max d; d_from := d_from d; d_to := d_to d; d_delta := M_Build.d_delta d; d_qe := q; d_fx := d_fx d; d_fy := d_fy d;
     d_psf := d_psf d; d_aperture := d_aperture d; d_solution := d_solution d; d_targetR := d_targetR d; d_wfe := d_wfe d; d_windows := d_windows d; d_optics := d_optics d; d_detector := d_detector d |}.
(** The payload [p'] is [p] with [k name] times the quantum efficiency in the channel [name]. *)
Definition payload_faded (k : string -> R) (p p' : payload) : Prop :=
  p_optics p' = p_optics p /\ p_custom p' = p_custom p /\
  exists l l', p_channel p = Some (Ordered l) /\ p_channel p' = Some (Ordered l') /\
    Forall2 (fun nd nd' => fst nd' = fst nd /\ exists q, snd nd' = with_qe (snd nd) q /\ less_efficient (k (fst nd)) (fst nd) (d_qe (snd nd)) q) l l'.
(** The columns that show light of the instrument *)
Definition instrument_column (m : string) : Prop := m = "instrument_signal"%string \/ m = "instrument_MaxSignal_inPixel"%string.
