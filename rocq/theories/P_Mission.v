(** From complete descriptions to an observation; an instance. *)
From Coq Require Import Reals Lra Psatz Sorting.Sorted.
From Verif Require Import Base Dict PyStr XR M_Signal M_Optics M_Light M_Bins M_Psf M_Omega M_Star M_Source M_Foreground S_Signal S_Optics S_Light S_Bins S_Star S_Success S_Foreground L_Signal L_Optics L_Light L_Bins P_Optics P_Bins P_Windows P_Light P_Success P_Omega P_Source P_Foreground.
From Verif Require M_Noise S_Noise L_Noise.
From Verif Require Import M_Table L_Table M_Observe S_Observe S_Works S_Complete P_Observe P_Outcome P_Works P_Complete P_Instance M_Build S_Build S_Ready L_Build L_Ready P_Build P_Ready.
Open Scope list_scope.
Open Scope R_scope.

Lemma channel_columns_quiet : quiet channel_columns.
Proof.
  intros k I. cbn in I. unfold ordinary.
  assert (X : k <> "saturation_time"%string /\ k <> "frameTime"%string /\ ends_with "_noise" k = false) by (repeat (destruct I as [<-|I]; [repeat split; discriminate|]); destruct I).
  destruct X as (X1 & X2 & X3). split; auto. split; auto. intros m ->. assert (ends_with "_noise" (m ++ "_noise") = true) by (apply ends_with_spec; exists m; reflexivity). congruence.
Qed.
(** Foregrounds of a target, for this run, none of them called "instrument" *)
Definition no_instrument_in_the_sky (s : setting) (x : target) : Prop :=
  forall g fs, foregrounds_of s (x_sky x) = Ok g -> g_foreground g = Some fs -> ~ In "instrument"%string (map fst fs).
Lemma foreign_columns fs : (forall fs', fs = Some fs' -> ~ In "instrument"%string (map fst fs')) -> foreign channel_columns fs.
Proof.
  intros H fs' E k I. specialize (H fs' E).
  assert (X : forall suffix, suffix = "_signal"%string \/ suffix = "_MaxSignal_inPixel"%string -> ~ In (k ++ suffix)%string channel_columns).
  { intros suffix S J. unfold channel_columns in J. cbn [In] in J. apply H. enough (k = "instrument"%string) by congruence.
    assert (E8 : forall a, ends_with suffix a = false -> a = (k ++ suffix)%string -> False).
    { intros a Ha ->. assert (ends_with suffix (k ++ suffix) = true) by (apply ends_with_spec; exists k; reflexivity). congruence. }
    assert (K1 : forall a, (a ++ suffix)%string = (k ++ suffix)%string -> k = a).
    { intros a Ha. symmetry. eapply suffix_inj. exact Ha. }
    destruct S as [-> | ->]; repeat (destruct J as [J|J]; [first [exfalso; eapply E8; [|exact J]; reflexivity | apply (K1 "instrument"%string); exact J]|]); destruct J. }
  split; apply X; auto.
Qed.

Theorem C97_build_then_observe : forall w fuel p l s x f src h, p_channel p = Some (Ordered l) -> l <> [] -> named l -> (forall name d r, In (name, d) l -> d_targetR d = Some (FixedR r) -> 0 < r) ->
  (forall name d, In (name, d) l -> complete_photometer w fuel p name d \/ complete_spectrometer w fuel p name d) ->
  (forall name d, In (name, d) l -> exists r, M_Noise.fixed_frame_time (d_detector d) = Some (Fin r) /\ 0 < r) ->
  (forall name d wl, In (name, d) l -> geometric_grid (value (y_min s)) (value (y_max s)) (y_R s) wl -> in_range w name d wl) ->
  in_um (y_min s) = Some 1 -> in_um (y_max s) = Some 1 -> 0 < value (y_min s) < value (y_max s) -> (2 <= y_R s)%nat ->
  y_foreground s = Some f -> sensible_foregrounds f -> g_sky (x_sky x) = None -> g_foreground (x_sky x) = None -> located (x_sky x) ->
  y_source s = Some src -> black_body src -> known_star (x_stellar x) -> x_star_name x <> None ->
  Forall (fun sx => no_instrument_in_the_sky (fst sx) (snd sx)) h -> no_instrument_in_the_sky s x ->
  exists chs y, build_channels w fuel p = Some (Ok chs) /\ snd (observe_target s (after chs h) x) = Ok y.
Proof.
  intros w fuel p l s x f src h C NE NM RP CO FF IR U1 U2 V N YF SF GS GF LO YS BB KS SN NH NX.
  destruct (C96_complete_payload_builds w fuel p l C NE NM RP CO) as (chs & B & I & F). exists chs.
  assert (AP : forall s' x', no_instrument_in_the_sky s' x' -> columns_apart channel_columns chs s' x'). { intros s' x' H _ g G. apply foreign_columns. intros fs'. now apply H. }
  destruct (C89_complete_descriptions_observe channel_columns chs h s x f src I channel_columns_quiet) as (y & Y); auto.
  - cbn. intuition discriminate.
  - cbn. auto.
  - cbn. auto 10.
  - eapply Forall_impl; [|exact NH]. intros a. apply AP.
  - intros name c wl IC GG. clear -F IC GG IR FF. induction F as [|[n d] [n' c'] l chs (E & HN & W) F IH]; [destruct IC|]. cbn in E, HN, W. destruct IC as [IC|IC].
    + injection IC as -> ->. subst. split; [apply W; eapply IR; eauto; now left|]. rewrite HN. apply (FF n). now left.
    + apply IH; auto; [intros n0 d0 H0; apply (FF n0 d0); now right|intros n0 d0 w0 H0 H1; apply (IR n0 d0 w0); auto; now right].
  - eauto.
Qed.
Print Assumptions C97_build_then_observe.
