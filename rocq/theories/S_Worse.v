(** Specification vocabulary: noisier detectors (C120). *)
From Coq Require Import Reals.
From Verif Require Import Base XR M_Build.
From Verif Require M_Noise.
From Verif Require Import S_Noise.
Open Scope list_scope.
Open Scope R_scope.

(** An entry of custom noise at least as large; more entries; a section with entries at least as large,
    and possibly more of them *)
Definition louder (e e' : M_Noise.entry) : Prop :=
  M_Noise.e_name e' = M_Noise.e_name e /\
  match M_Noise.e_value e, M_Noise.e_value e' with
  | Some (Fin v), Some (Fin v') => 0 <= v <= v'
  | None, None => True
  | _, _ => False
  end.
Definition more_custom (c c' : option M_Noise.custom) : Prop :=
  exists es extra, entries c' = es ++ extra /\ Forall2 louder (entries c) es /\ Forall valid_entry extra.
(** A detector with the same name, frame time and reads, more dark current, read noise and excess noise,
    fewer averages, and more custom noise; the well depth may be any. *)
Definition worse (ch ch' : M_Noise.channel) : Prop :=
  M_Noise.ch_name ch' = M_Noise.ch_name ch /\ M_Noise.fixed_frame_time ch' = M_Noise.fixed_frame_time ch /\
  more_custom (M_Noise.ch_custom ch) (M_Noise.ch_custom ch') /\
  exists d d', describes ch d /\ describes ch' d' /\ physical d /\ physical d' /\
    d_freq d' = d_freq d /\ d_M d' <= d_M d /\ d_dark d <= d_dark d' /\ d_read d <= d_read d' /\ d_X d <= d_X d'.
Definition with_detector (d : description) (ch : M_Noise.channel) : description :=
  {| d_name := d_name d; d_class := d_class d; d_min := d_min d; d_max := d_max d; d_from := d_from d; d_to := d_to d; d_delta := M_Build.d_delta d; d_qe := d_qe d; d_fx := d_fx d; d_fy := d_fy d;
     d_psf := d_psf d; d_aperture := d_aperture d; d_solution := d_solution d; d_targetR := d_targetR d; d_wfe := d_wfe d; d_windows := d_windows d; d_optics := d_optics d; d_detector := ch |}.
(** The payload [p'] is [p] with noisier detectors and more custom noise. *)
Definition payload_worse (p p' : payload) : Prop :=
  p_optics p' = p_optics p /\ more_custom (p_custom p) (p_custom p') /\
  exists l l', p_channel p = Some (Ordered l) /\ p_channel p' = Some (Ordered l') /\
    Forall2 (fun nd nd' => fst nd' = fst nd /\ exists ch, snd nd' = with_detector (snd nd) ch /\ worse (d_detector (snd nd)) ch) l l'.
