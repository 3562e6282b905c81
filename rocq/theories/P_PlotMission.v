(** C110, continued: a run on complete descriptions, with plots. *)
From Coq Require Import Reals Lra Permutation.
From Verif Require Import Base Dict PyStr M_Hdf5 S_Hdf5 L_Hdf5 L_Keep S_Pipeline L_Pipeline P_Pipeline P_Hdf5.
From Verif Require M_Pipeline M_Payload P_Payload P_Run.
From Verif Require Import XR M_Signal M_Optics M_Light M_Bins M_Psf M_Star M_Source M_Foreground S_Signal S_Source S_Foreground S_Success.
From Verif Require M_Noise.
From Verif Require Import M_Table M_Observe S_Observe S_Works S_Complete P_Observe P_Complete M_Build S_Build S_Ready L_Build P_Build P_Ready P_Mission P_Instance P_Telescope.
From Verif Require Import P_Campaign M_Plot S_Plot P_Plot P_PlotCommand P_PlotObserve P_PlotTarget.
Import M_Pipeline(key_eqb, observe_seq).
Open Scope list_scope.
Open Scope R_scope.

Lemma built_plain w fuel p l chs name c : p_channel p = Some (Ordered l) -> build_channels w fuel p = Some (Ok chs) -> In (name, c) chs -> plain (cols (h_table c)).
Proof.
  intros C E I. destruct (built_from _ _ _ _ _ _ _ C E I) as (d & _ & B). apply built_inv in B as (k & q & _ & _ & B & O).
  assert (SH : shaped name q) by (destruct k; [apply photometer_shaped in B as (SH & _)|apply spectrometer_shaped in B as (SH & _)]; exact SH).
  destruct (built_shape _ _ _ _ _ _ SH O) as (qe & tr & mx & sg & _ & _ & _ & _ & EC). rewrite EC. intros k' col s J NC X. cbn in J.
  repeat (destruct J as [J|J]; [injection J as <- <-; apply in_map_iff in X as (z & X & _); try congruence; try discriminate; destruct z; discriminate|]). destruct J.
Qed.
Lemma built_edges w fuel p l chs name c : p_channel p = Some (Ordered l) -> build_channels w fuel p = Some (Ok chs) -> In (name, c) chs -> edges_of_bins c.
Proof.
  intros C E I. destruct (C90_rows_are_bins w fuel p l chs name c C E I) as (_ & _ & A & B & _). split; rewrite map_map; [exact A|exact B].
Qed.

(** With a complete payload and complete targets with distinct names, observed with plots in a
    directory: every target is observed, as without plots, and exactly one image is written for it,
    under its name, titled with its name, with one band per channel. *)
Theorem C110_every_complete_target_has_its_image :
  forall w fuel p l s f src xs hour en dir debug lv, p_channel p = Some (Ordered l) -> l <> [] -> named l ->
    (forall name d r, In (name, d) l -> d_targetR d = Some (FixedR r) -> 0 < r) ->
    (forall name d, In (name, d) l -> complete_photometer w fuel p name d \/ complete_spectrometer w fuel p name d) ->
    (forall name d, In (name, d) l -> exists r, M_Noise.fixed_frame_time (d_detector d) = Some (Fin r) /\ 0 < r) ->
    (forall name d wl, In (name, d) l -> geometric_grid (value (y_min s)) (value (y_max s)) (y_R s) wl -> in_range w name d wl) ->
    in_um (y_min s) = Some 1 -> in_um (y_max s) = Some 1 -> 0 < value (y_min s) < value (y_max s) -> (2 <= y_R s)%nat ->
    y_foreground s = Some f -> sensible_foregrounds f -> y_source s = Some src -> black_body src ->
    (forall x, In x xs -> complete_target s x) -> NoDup (map x_name xs) -> enumerates en -> plain_dir dir ->
    let plotting := plotted en (Some dir) x_name (shown_table hour) in
    exists chs st out lvls, build_channels w fuel p = Some (Ok chs) /\ length chs = length l /\
      observe_seq x_name (observe_target s) plotting debug true xs (chs, lv) [] [] = (st, out, lvls) /\
      observe_seq x_name (observe_target s) plotting debug false xs (chs, lv) [] [] = (st, out, lvls) /\
      Forall2 (observed s chs) xs out /\
      Forall2 (fun x e => exists y fig, snd e = Some y /\
                 plot_observed en (Some dir) (x_name y) (shown_table hour y) = ([(image dir (x_name x), fig)], Ok tt) /\
                 g_title fig = x_name x /\
                 exists order, Permutation order chs /\ Forall2 (fun nc b => extent (snd nc) b) order (a_bands (g_signal fig))) xs out.
Proof.
  intros w fuel p l s f src xs hour en dir debug lv C NE NM RP CO FF IR U1 U2 V N YF SF YS BB CX ND EN PD plotting.
  destruct (C96_complete_payload_builds w fuel p l C NE NM RP CO) as (chs & B & HI & FL).
  assert (AP : Forall (columns_apart channel_columns chs s) xs).
  { apply Forall_forall. intros x I _ g G. apply foreign_columns. intros fs'. destruct (CX x I) as (_ & _ & _ & _ & _ & H). now apply H. }
  destruct (C104_every_complete_target_is_observed w fuel p l s f src xs plotting false debug lv C NE NM RP CO FF IR U1 U2 V N YF SF YS BB CX ND) as (chs' & st & out & lvls & B' & S & OB); [discriminate|].
  rewrite B in B'. injection B' as <-.
  assert (PL : forall name c, In (name, c) chs -> plain (cols (h_table c))) by (intros name c; eapply built_plain; eauto).
  assert (EB : forall name c, In (name, c) chs -> edges_of_bins c) by (intros name c; eapply built_edges; eauto).
  assert (NL : In "LeftBinEdge"%string channel_columns) by (cbn; auto). assert (NR : In "RightBinEdge"%string channel_columns) by (cbn; auto 10).
  exists chs, st, out, lvls. split; auto. split; [symmetry; eapply Forall2_len; eauto|]. split; [|split; [exact S|split; [exact OB|]]].
  { rewrite <- S. apply (C110_plots_change_no_result channel_columns); auto. }
  pose proof S as S'. rewrite oseq_gen in S'. injection S' as _ E _.
  assert (K : map fst (entries x_name (observe_target s) plotting false chs xs) = map Some (map x_name xs)).
  { assert (X : Forall2 (fun x e => fst e = Some (x_name x)) xs (entries x_name (observe_target s) plotting false chs xs)).
    { assert (ALONE : forall x, In x xs -> forall h, Forall (columns_apart channel_columns chs s) h -> exists y, snd (observe_target s (after chs (map (pair s) h)) x) = Ok y).
      { intros x I h Hh. destruct (CX x I) as (A1 & A2 & A3 & A4 & A5 & A6).
        destruct (C97_build_then_observe w fuel p l s x f src [] C NE NM RP CO FF IR U1 U2 V N YF SF A1 A2 A3 YS BB A4 A5 (Forall_nil _) A6) as (chs' & y & B' & EO).
        rewrite B in B'. injection B' as <-. rewrite Forall_forall in AP.
        pose proof (C83_history_free channel_columns chs [] (map (pair s) h) s x HI) as AL. rewrite Forall_map in AL. specialize (AL (Forall_nil _) Hh (AP x I)). cbn [after] in AL, EO. rewrite EO in AL. destruct (snd (observe_target s (after chs (map (pair s) h)) x)) as [y'|]; [eauto|destruct AL]. }
      assert (G : forall l0 h, (forall x, In x l0 -> In x xs) -> Forall (columns_apart channel_columns chs s) h -> Forall2 (fun x e => fst e = Some (x_name x)) l0 (entries x_name (observe_target s) plotting false (after chs (map (pair s) h)) l0)).
      { induction l0 as [|x l0 IH]; intros h SUB Hh; cbn [entries]; constructor.
        - unfold entry_of. destruct (ALONE x (SUB x (or_introl eq_refl)) h Hh) as (y & Y). rewrite Y. cbn. f_equal. apply (observe_shape _ _ _ _ Y).
        - replace (fst (observe_target s (after chs (map (pair s) h)) x)) with (after chs (map (pair s) (h ++ [x]))).
          + apply IH; [intros z I; apply SUB; now right|]. apply Forall_app. split; auto. constructor; auto. rewrite Forall_forall in AP. apply AP, SUB. now left.
          + rewrite map_app. cbn [map]. clear. revert chs. induction (map (pair s) h) as [|[s' x'] m IH]; intros chs; cbn; auto. }
      apply (G xs []); auto. }
    clear - X. induction X as [|x e xs es Y X IH]; cbn; congruence. }
  fold (dof_list key_eqb (entries x_name (observe_target s) plotting false chs xs)) in E.
  rewrite (dof_list_distinct _ key_eqb_spec) in E. 2: { rewrite K. apply FinFun.Injective_map_NoDup; auto. intros a b [= ->]; auto. }
  assert (G : forall l0 h es, Forall (columns_apart channel_columns chs s) l0 -> Forall (columns_apart channel_columns chs s) h ->
     es = entries x_name (observe_target s) plotting false (after chs (map (pair s) h)) l0 -> Forall2 (observed s chs) l0 es ->
     Forall2 (fun x e => exists y fig, snd e = Some y /\
                 plot_observed en (Some dir) (x_name y) (shown_table hour y) = ([(image dir (x_name x), fig)], Ok tt) /\
                 g_title fig = x_name x /\
                 exists order, Permutation order chs /\ Forall2 (fun nc b => extent (snd nc) b) order (a_bands (g_signal fig))) l0 es).
  { induction l0 as [|x l0 IH]; intros h es A Hh EQ OBS; destruct es as [|e es]; try solve [inversion OBS]; [constructor|]. inversion OBS as [|? ? ? ? O1 O2]; subst. cbn [entries] in *. injection EQ as E1 E2. inversion A as [|? ? A1 A2]; subst. constructor.
    - destruct O1 as (y0 & y & _ & E1 & _). unfold entry_of in E1. destruct (snd (observe_target s (after chs (map (pair s) h)) x)) as [y'|] eqn:EO; [|discriminate]. injection E1 as _ ->.
      assert (H : Forall (fun sx => columns_apart channel_columns chs (fst sx) (snd sx)) (map (pair s) h)) by (apply Forall_map; exact Hh).
      destruct (observe_shape _ _ _ _ EO) as (XN & _ & _ & _ & T & st' & XT & _).
      destruct (C110_every_observed_target_is_drawn channel_columns chs _ s x y T hour en HI PL NL NR H A1 EO XT EN) as (fig & PF & TI & _).
      exists y, fig. split; [unfold entry_of; rewrite EO; auto|]. split; [|split; auto].
      + unfold plot_observed, shown_table. rewrite XT, PF. cbn [save_fig]. rewrite join_plain by auto. now rewrite XN.
      + apply (C110_one_band_per_channel channel_columns chs _ s x y T hour en fig HI channel_columns_quiet PL EB H A1 EO XT EN PF).
    - apply (IH (h ++ [x])); auto; [apply Forall_app; auto|].
      f_equal. rewrite map_app. cbn [map]. clear. revert chs. induction (map (pair s) h) as [|[s' x'] m IH]; intros chs; cbn; auto. }
  subst out. apply (G xs []); auto.
Qed.
Print Assumptions C110_every_complete_target_has_its_image.

(** The telescope of P_Telescope observes Vega and a second star, with plots. *)
Example C110_ex fuel : exists chs st out lvls, build_channels sharp fuel telescope = Some (Ok chs) /\
  observe_seq x_name (observe_target run) (plotted here (Some "out"%string) x_name (shown_table (fun _ => false))) false true [vega; altair] (chs, M_Pipeline.INFO) [] [] = (st, out, lvls) /\
  Forall2 (fun x e => exists y fig, snd e = Some y /\
     plot_observed here (Some "out"%string) (x_name y) (shown_table (fun _ => false) y) = ([(image "out" (x_name x), fig)], Ok tt) /\ length (a_bands (g_signal fig)) = 2%nat) [vega; altair] out.
Proof.
  destruct (C110_every_complete_target_has_its_image sharp fuel telescope _ run sky_over_us (SourceName "Planck") [vega; altair] (fun _ => false) here "out" false M_Pipeline.INFO eq_refl) as (chs & st & out & lvls & B & LN & S & _ & _ & F); try reflexivity; try discriminate.
  - apply telescope_named.
  - intros name d r [[= <- <-]|[[= <- <-]|[]]]; discriminate.
  - apply telescope_complete.
  - intros name d [[= <- <-]|[[= <- <-]|[]]]; exists 3; (split; [reflexivity|lra]).
  - apply telescope_in_range.
  - cbn. lra.
  - apply run_sensible.
  - apply vega_known.
  - assert (X : complete_target run vega).
    { repeat (split; [first [reflexivity|discriminate|apply vega_known|intros X; now destruct X]|]).
      apply (Forall_inv (sky_known [(run, vega)] (Forall_cons _ eq_refl (Forall_nil _)))). }
    intros x [<-|[<-|[]]]; exact X.
  - repeat constructor; cbn; intuition discriminate.
  - apply here_enumerates.
  - split; [discriminate|]. intros p E. apply (f_equal (fun s => rev (str_chars s))) in E. rewrite str_chars_app, rev_app_distr in E. discriminate.
  - exists chs, st, out, lvls. split; auto. split; auto. clear - F LN. induction F as [|x e xs es (y & fig & A & P & _ & order & PM & FB) F IH]; constructor; auto.
    exists y, fig. split; auto. split; auto. apply Forall2_len in FB. rewrite <- FB, (Permutation_length PM). exact LN.
Qed.
