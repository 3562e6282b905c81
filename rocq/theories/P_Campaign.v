(** C104-C105: a list of targets observed with real channels, and a whole run.  The list is
    observed as in M_Pipeline (one after the other, or by a pool of workers), each target as
    in M_Observe, with channels as in M_Build. *)
From Coq Require Import Reals Lra.
From Verif Require Import Base Dict PyStr M_Hdf5 S_Hdf5 L_Hdf5 L_Keep S_Pipeline L_Pipeline P_Pipeline P_Hdf5.
From Verif Require M_Pipeline M_Payload P_Payload P_Run.
From Verif Require Import XR M_Signal M_Optics M_Light M_Bins M_Psf M_Star M_Source M_Foreground S_Signal S_Source S_Foreground S_Success.
From Verif Require M_Noise.
From Verif Require Import M_Table M_Observe S_Observe S_Works S_Complete P_Observe P_Complete M_Build S_Build S_Ready P_Build P_Ready P_Mission P_Instance P_Telescope.
Import M_Pipeline(key_eqb, observe_seq, pool0, psteps, out_dict, collected).
Open Scope list_scope.
Open Scope R_scope.

(** the same key, and results that are alike *)
Definition same_entry (a b : option string * option target) : Prop :=
  fst a = fst b /\ match snd a, snd b with
                   | Some y, Some y' => alike (Ok y) (Ok y')
                   | None, None => True
                   | _, _ => False
                   end.
Lemma dset_same k v v' : forall a b, same_entry (k, v) (k, v') -> Forall2 same_entry a b -> Forall2 same_entry (dset key_eqb k v a) (dset key_eqb k v' b).
Proof.
  intros a b E F. induction F as [|x y a b XY F IH]; cbn [dset].
  - constructor; [exact E|constructor].
  - destruct x as [ka va], y as [kb vb]. destruct XY as [K V]. cbn [fst snd] in K, V. subst kb.
    destruct (key_eqb k ka); constructor; auto; split; auto.
    apply E.
Qed.
Lemma dupdate_keys k : forall (l d : list (option string * option target)), In k (map fst d) \/ In k (map fst l) -> In k (map fst (dupdate key_eqb d l)).
Proof.
  induction l as [|[k0 v0] l IH]; intros d H; cbn; [destruct H as [H|[]]; auto|]. apply IH. rewrite keys_dset.
  destruct H as [H|[H|H]]; auto; left.
  - destruct (existsb _ _); auto. apply in_or_app; auto.
  - cbn in H. subst k0. destruct (existsb (key_eqb k) (map fst d)) eqn:E; [|apply in_or_app; cbn; auto].
    apply existsb_exists in E as (z & I & Z). apply key_eqb_spec in Z. subst z. auto.
Qed.
Lemma dupdate_same l m : Forall2 same_entry l m -> forall a b, Forall2 same_entry a b -> Forall2 same_entry (dupdate key_eqb a l) (dupdate key_eqb b m).
Proof.
  intros F. induction F as [|[k v] [k' v'] l m E F IH]; intros a b AB; cbn; auto. apply IH.
  destruct E as [K V]. cbn in K. subst k'. apply dset_same; auto. split; auto.
Qed.
(** the channels after the first targets of a list are those after that history *)
Lemma after_list s : forall xs chs, channels_after (observe_target s) chs xs = after chs (map (pair s) xs).
Proof. induction xs as [|x xs IH]; intros chs; cbn; auto. Qed.

Section List.
  Variables (s : setting) (plotting : target -> res unit) (plot : bool).
  Hypothesis plots : plot = true -> forall y, plotting y = Ok tt.
  Let entry := entry_of x_name (observe_target s) plotting plot.
  Lemma entry_result ch x : entry ch x = match snd (observe_target s ch x) with Ok y => (Some (x_name x), Some y) | Err _ => (None, None) end.
  Proof.
    unfold entry, entry_of. destruct (snd (observe_target s ch x)) as [y|] eqn:E; auto.
    assert (N : x_name y = x_name x) by apply (observe_shape _ _ _ _ E).
    destruct plot; [rewrite (plots eq_refl y)|]; rewrite N; auto.
  Qed.
  Lemma entry_alike ch ch' x : alike (snd (observe_target s ch x)) (snd (observe_target s ch' x)) -> same_entry (entry ch x) (entry ch' x).
  Proof.
    rewrite !entry_result. destruct (snd (observe_target s ch x)) as [y|], (snd (observe_target s ch' x)) as [y'|]; intros A; try (destruct A; fail).
    - split; auto.
    - split; auto. exact I.
  Qed.
  Lemma entries_alike ns chs xs : instruments ns chs -> Forall (columns_apart ns chs s) xs ->
    Forall2 same_entry (entries x_name (observe_target s) plotting plot chs xs) (map (entry chs) xs).
  Proof.
    intros HI AP.
    assert (G : forall l h, Forall (columns_apart ns chs s) l -> Forall (columns_apart ns chs s) h ->
              Forall2 same_entry (entries x_name (observe_target s) plotting plot (after chs (map (pair s) h)) l) (map (entry chs) l)).
    { induction l as [|x l IH]; intros h A H; cbn; [constructor|]. inversion A as [|? ? A1 A2]; subst. constructor.
      - apply entry_alike. change chs with (after chs []) at 2. apply (C83_history_free ns chs (map (pair s) h) [] s x HI); auto.
        apply Forall_forall. intros sx I. apply in_map_iff in I as (z & <- & I). rewrite Forall_forall in H. apply H, I.
      - assert (E : fst (observe_target s (after chs (map (pair s) h)) x) = after chs (map (pair s) (h ++ [x]))).
        { rewrite <- !after_list. clear. revert chs. induction h as [|z h IH]; intros chs; cbn; auto. }
        rewrite E. apply IH; auto. apply Forall_app; auto. }
    apply (G xs [] AP). constructor.
  Qed.
End List.

(** ** C104: a list of targets *)
(** Whether the targets are observed one after the other with the same channels, or by a pool
    of workers, in whatever order: the same names in the same order, and under each name
    observations that are alike. *)
Theorem C104_parallel_and_sequential_alike :
  forall ns chs s xs plotting plot debug debug' lv lv' n_thread st out lvls p,
    instruments ns chs -> Forall (columns_apart ns chs s) xs -> (plot = true -> forall y, plotting y = Ok tt) ->
    observe_seq x_name (observe_target s) plotting debug plot xs (chs, lv) [] [] = (st, out, lvls) ->
    psteps x_name (observe_target s) plotting debug' plot chs xs (pool0 n_thread lv' (length xs)) p -> collected p = length xs ->
    Forall2 same_entry out (out_dict p).
Proof.
  intros ns chs s xs plotting plot debug debug' lv lv' n st out lvls p HI AP PL S P CP.
  rewrite oseq_gen in S. injection S as <- <- <-.
  rewrite (inv_done x_name (observe_target s) plotting plot chs xs n p); auto; [|eapply inv_steps; [apply inv0|exact P]].
  unfold dof_list. apply dupdate_same; [|constructor]. apply (entries_alike s plotting plot PL ns); auto.
Qed.
Print Assumptions C104_parallel_and_sequential_alike.

(** Each target of a list with distinct names is observed as if it were alone: present under
    its name, alike, if it can be observed alone; missing otherwise. *)
Theorem C104_each_target_as_if_alone :
  forall ns chs s xs plotting plot debug lv st out lvls x,
    instruments ns chs -> Forall (columns_apart ns chs s) xs -> (plot = true -> forall y, plotting y = Ok tt) ->
    observe_seq x_name (observe_target s) plotting debug plot xs (chs, lv) [] [] = (st, out, lvls) ->
    NoDup (map x_name xs) -> In x xs ->
    match snd (observe_target s chs x) with
    | Ok y => exists y', dget key_eqb (Some (x_name x)) out = Some (Some y') /\ alike (Ok y) (Ok y')
    | Err _ => dget key_eqb (Some (x_name x)) out = None /\ dget key_eqb None out = Some None
    end.
Proof.
  intros ns chs s xs plotting plot debug lv st out lvls x HI AP PL S ND I.
  rewrite oseq_gen in S. injection S as <- <- <-. fold (dof_list key_eqb (entries x_name (observe_target s) plotting plot chs xs)).
  apply In_nth_error in I as [i EI].
  set (hi := after chs (map (pair s) (firstn i xs))).
  assert (AL : alike (snd (observe_target s chs x)) (snd (observe_target s hi x))).
  { change chs with (after chs []) at 1. apply (C83_history_free ns); auto.
    - apply Forall_forall. intros sx J. apply in_map_iff in J as (z & <- & J). rewrite Forall_forall in AP. apply AP.
      rewrite <- (firstn_skipn i xs). apply in_or_app; auto.
    - rewrite Forall_forall in AP. apply AP. eapply nth_error_In; eauto. }
  assert (EN : forall j, nth_error (entries x_name (observe_target s) plotting plot chs xs) j =
                 match nth_error xs j with Some z => Some (match snd (observe_target s (after chs (map (pair s) (firstn j xs))) z) with
                                                          | Ok y => (Some (x_name z), Some y) | Err _ => (None, None) end) | None => None end).
  { intros j. rewrite entries_nth. destruct (nth_error xs j) as [z|]; auto. rewrite after_list. f_equal. apply entry_result; auto. }
  assert (UQ : forall j z, nth_error xs j = Some z -> x_name z = x_name x -> j = i).
  { intros j z EJ E. rewrite NoDup_nth_error in ND. apply ND.
    - rewrite map_length. apply nth_error_Some. congruence.
    - rewrite !nth_error_map, EJ, EI. cbn. congruence. }
  fold hi in AL. destruct (snd (observe_target s chs x)) as [y|e] eqn:EA.
  - destruct (snd (observe_target s hi x)) as [y'|e'] eqn:EB; [|destruct AL]. exists y'. split; auto.
    apply (dget_dof_list _ key_eqb_spec). exists i. split; [rewrite EN, EI; fold hi; rewrite EB; auto|].
    intros j v L. rewrite EN. destruct (nth_error xs j) as [z|] eqn:EJ; [|discriminate]. destruct (snd (observe_target _ _ z)); intros [= E]; try discriminate.
    pose proof (UQ j z EJ E). lia.
  - destruct (snd (observe_target s hi x)) as [y'|e'] eqn:EB; [destruct AL|]. split.
    + destruct (dget key_eqb (Some (x_name x)) _) as [v|] eqn:G; auto. exfalso.
      apply (dget_dof_list _ key_eqb_spec) in G as (j & EJ & _). rewrite EN in EJ. destruct (nth_error xs j) as [z|] eqn:EZ; [|discriminate].
      destruct (snd (observe_target s (after chs (map (pair s) (firstn j xs))) z)) as [w|] eqn:EW; [|discriminate]. injection EJ as E _.
      pose proof (UQ j z EZ E). subst j. assert (z = x) by congruence. subst z. fold hi in EW. congruence.
    + assert (M : In (None, None) (entries x_name (observe_target s) plotting plot chs xs)).
      { apply (nth_error_In _ i). rewrite EN, EI. fold hi. rewrite EB. auto. }
      assert (V : forall v, In (@None string, v) (entries x_name (observe_target s) plotting plot chs xs) -> v = None).
      { intros v J. apply In_nth_error in J as [j J]. rewrite EN in J. destruct (nth_error xs j) as [z|]; [|discriminate].
        destruct (snd (observe_target s (after chs (map (pair s) (firstn j xs))) z)); [discriminate|]. congruence. }
      destruct (dget key_eqb None (dof_list key_eqb (entries x_name (observe_target s) plotting plot chs xs))) as [v|] eqn:G.
      * apply (dget_dof_list _ key_eqb_spec) in G as (j & EJ & _). f_equal. apply V. eapply nth_error_In; eauto.
      * exfalso. assert (K : In (@None string) (map fst (dof_list key_eqb (entries x_name (observe_target s) plotting plot chs xs)))).
        { apply dupdate_keys. right. apply in_map_iff. eexists; split; [|exact M]; auto. }
        apply (dget_None_notIn _ key_eqb_spec) in G. auto.
Qed.
Print Assumptions C104_each_target_as_if_alone.

(** A target that can be observed in the run [s] whatever the channels *)
Definition complete_target (s : setting) (x : target) : Prop :=
  g_sky (x_sky x) = None /\ g_foreground (x_sky x) = None /\ located (x_sky x) /\ known_star (x_stellar x) /\ x_star_name x <> None /\
  no_instrument_in_the_sky s x.
(** [e] is the entry of a target observed successfully, alike to observing it alone. *)
Definition observed (s : setting) (chs : list (string * chan)) (x : target) (e : option string * option target) : Prop :=
  exists y0 y, snd (observe_target s chs x) = Ok y0 /\ e = (Some (x_name x), Some y) /\ alike (Ok y0) (Ok y).

(** With a complete payload every target of a list of complete targets with distinct names is
    observed: one entry for each, in the order of the list. *)
Theorem C104_every_complete_target_is_observed :
  forall w fuel p l s f src xs plotting plot debug lv, p_channel p = Some (Ordered l) -> l <> [] -> named l ->
    (forall name d r, In (name, d) l -> d_targetR d = Some (FixedR r) -> 0 < r) ->
    (forall name d, In (name, d) l -> complete_photometer w fuel p name d \/ complete_spectrometer w fuel p name d) ->
    (forall name d, In (name, d) l -> exists r, M_Noise.fixed_frame_time (d_detector d) = Some (Fin r) /\ 0 < r) ->
    (forall name d wl, In (name, d) l -> geometric_grid (value (y_min s)) (value (y_max s)) (y_R s) wl -> in_range w name d wl) ->
    in_um (y_min s) = Some 1 -> in_um (y_max s) = Some 1 -> 0 < value (y_min s) < value (y_max s) -> (2 <= y_R s)%nat ->
    y_foreground s = Some f -> sensible_foregrounds f -> y_source s = Some src -> black_body src ->
    (forall x, In x xs -> complete_target s x) -> NoDup (map x_name xs) -> (plot = true -> forall y, plotting y = Ok tt) ->
    exists chs st out lvls, build_channels w fuel p = Some (Ok chs) /\
      observe_seq x_name (observe_target s) plotting debug plot xs (chs, lv) [] [] = (st, out, lvls) /\
      Forall2 (observed s chs) xs out.
Proof.
  intros w fuel p l s f src xs plotting plot debug lv C NE NM RP CO FF IR U1 U2 V N YF SF YS BB CX ND PL.
  destruct (C96_complete_payload_builds w fuel p l C NE NM RP CO) as (chs & B & HI & _).
  assert (AP : Forall (columns_apart channel_columns chs s) xs).
  { apply Forall_forall. intros x I _ g G. apply foreign_columns. intros fs'. destruct (CX x I) as (_ & _ & _ & _ & _ & H). now apply H. }
  assert (ALONE : forall x, In x xs -> exists y, snd (observe_target s chs x) = Ok y).
  { intros x I. destruct (CX x I) as (A1 & A2 & A3 & A4 & A5 & A6).
    destruct (C97_build_then_observe w fuel p l s x f src [] C NE NM RP CO FF IR U1 U2 V N YF SF A1 A2 A3 YS BB A4 A5 (Forall_nil _) A6) as (chs' & y & B' & E).
    rewrite B in B'. injection B' as <-. exists y. exact E. }
  destruct (observe_seq x_name (observe_target s) plotting debug plot xs (chs, lv) [] []) as [[st out] lvls] eqn:S.
  exists chs, st, out, lvls. split; auto. split; auto.
  pose proof S as S'. rewrite oseq_gen in S'. injection S' as _ <- _.
  pose proof (entries_alike s plotting plot PL channel_columns chs xs HI AP) as EA.
  assert (X : Forall2 (observed s chs) xs (entries x_name (observe_target s) plotting plot chs xs)).
  { clear - EA ALONE PL. revert EA. generalize (entries x_name (observe_target s) plotting plot chs xs). induction xs as [|x xs IH]; intros es F; cbn in F; inversion F as [|e ? es' ? E F']; subst; constructor.
    - rewrite entry_result in E by auto. destruct (ALONE x (or_introl eq_refl)) as [y0 Y0]. rewrite Y0 in E. destruct e as [k v], E as [K Y]. cbn in K, Y. subst k.
      destruct v as [y|]; [|destruct Y]. exists y0, y. split; auto. split; auto.
      destruct Y as (G1 & G2 & T & T' & T1 & T2 & T3). split; [congruence|]. split; [congruence|]. exists T', T. split; auto. split; auto.
      intros k (F1 & F2). symmetry. apply T3. split; auto. rewrite <- G1. auto.
    - apply IH; auto. intros z I. apply ALONE. now right. }
  fold (dof_list key_eqb (entries x_name (observe_target s) plotting plot chs xs)).
  rewrite (dof_list_distinct _ key_eqb_spec); auto.
  assert (K : map fst (entries x_name (observe_target s) plotting plot chs xs) = map Some (map x_name xs)).
  { clear - X. induction X as [|x e xs es (y0 & y & _ & -> & _) X IH]; cbn; congruence. }
  rewrite K. apply FinFun.Injective_map_NoDup; auto. intros a b [= ->]; auto.
Qed.
Print Assumptions C104_every_complete_target_is_observed.

(** ** C105: from descriptions to the file of results *)
(** A run on a complete payload and a list of complete targets, with an output file of its own
    and a representation [to_dict] of the results that can be stored: every target is observed,
    nothing fails, and each result can be read back from the file under its name. *)
Theorem C105_from_descriptions_to_results :
  forall w fuel p l s f src xs plotting plot debug lv
         (V : Type) (unit_ok : string -> bool) (to_dict : target -> list (string * item V)) options output info payload
         (qs : list (M_Pipeline.channel V * M_Hdf5.table V * list (string * item V) * M_Payload.instrument_class)) prev,
    p_channel p = Some (Ordered l) -> l <> [] -> named l ->
    (forall name d r, In (name, d) l -> d_targetR d = Some (FixedR r) -> 0 < r) ->
    (forall name d, In (name, d) l -> complete_photometer w fuel p name d \/ complete_spectrometer w fuel p name d) ->
    (forall name d, In (name, d) l -> exists r, M_Noise.fixed_frame_time (d_detector d) = Some (Fin r) /\ 0 < r) ->
    (forall name d wl, In (name, d) l -> geometric_grid (value (y_min s)) (value (y_max s)) (y_R s) wl -> in_range w name d wl) ->
    in_um (y_min s) = Some 1 -> in_um (y_max s) = Some 1 -> 0 < value (y_min s) < value (y_max s) -> (2 <= y_R s)%nat ->
    y_foreground s = Some f -> sensible_foregrounds f -> y_source s = Some src -> black_body src ->
    (forall x, In x xs -> complete_target s x) -> NoDup (map x_name xs) -> (plot = true -> forall y, plotting y = Ok tt) ->
    options <> output -> NoDup (map fst info) -> storable unit_ok (IDict payload) ->
    (forall c t b k, In (c, t, b, k) qs -> P_Payload.loadable unit_ok c t b k) ->
    NoDup (map (fun q => let '(c, _, _, _) := q in M_Pipeline.c_name c) qs) ->
    (forall y, storable unit_ok (IDict (to_dict y))) ->
    exists chs st out lvls file, build_channels w fuel p = Some (Ok chs) /\
      observe_seq x_name (observe_target s) plotting debug plot xs (chs, lv) [] [] = (st, out, lvls) /\
      M_Pipeline.standard_pipeline options output true info (M_Pipeline.Xml payload (map (fun q => let '(c, _, _, _) := q in c) qs))
        (Ok (map (fun e => (fst e, option_map to_dict (snd e))) out)) prev = (Some file, Ok tt) /\
      P_Run.saved_names file = map x_name xs /\
      forall x, In x xs -> exists y0 y, snd (observe_target s chs x) = Ok y0 /\ alike (Ok y0) (Ok y) /\
        P_Run.readable unit_ok file (x_name x) (to_dict y).
Proof.
  intros w fuel p l s f src xs plotting plot debug lv V unit_ok to_dict options output info payload qs prev
         C NE NM RP CO FF IR U1 U2 VV N YF SF YS BB CX ND PL NO NI SP LQ NQ ST.
  destruct (C104_every_complete_target_is_observed w fuel p l s f src xs plotting plot debug lv C NE NM RP CO FF IR U1 U2 VV N YF SF YS BB CX ND PL)
    as (chs & st & out & lvls & B & S & OB).
  assert (EX : exists ts : list (string * target), out = map (fun t => (Some (fst t), Some (snd t))) ts /\ map fst ts = map x_name xs /\
             forall x, In x xs -> exists y0 y, snd (observe_target s chs x) = Ok y0 /\ alike (Ok y0) (Ok y) /\ In (x_name x, y) ts).
  { clear - OB. induction OB as [|x e xs out (y0 & y & E & -> & A) OB (ts & -> & K & H)].
    - exists []. repeat split; auto. intros x [].
    - exists ((x_name x, y) :: ts). cbn. split; auto. split; [congruence|]. intros z [<-|I].
      + exists y0, y. auto.
      + destruct (H z I) as (z0 & z1 & Z1 & Z2 & Z3). exists z0, z1. auto. }
  destruct EX as (ts & -> & K & H).
  destruct (P_Run.C105_a_run_is_read_back V unit_ok options output info payload qs (map (fun t => (fst t, to_dict (snd t))) ts) prev NO NI SP LQ NQ)
    as (file & pl & cs & E & _ & _ & _ & _ & SN & RD & _).
  - intros n d I. apply in_map_iff in I as (t & [= <- <-] & _). apply ST.
  - rewrite map_map. change (NoDup (map fst ts)). rewrite K. exact ND.
  - exists chs, st, (map (fun t => (Some (fst t), Some (snd t))) ts), lvls, file. split; auto. split; auto. split.
    { rewrite map_map in E |- *. exact E. }
    split; [rewrite SN, map_map; exact K|]. intros x I. destruct (H x I) as (y0 & y & E0 & A & J). exists y0, y. split; auto. split; auto.
    apply RD. apply in_map_iff. exists (x_name x, y). auto.
Qed.
Print Assumptions C105_from_descriptions_to_results.

(** The telescope of P_Telescope observes Vega and a second star, one after the other. *)
Definition altair : target :=
  {| x_name := "altair"; x_stellar := x_stellar vega; x_star_name := x_star_name vega; x_magk := None; x_sky := x_sky vega; x_table := None; x_source := None; x_header := None |}.
Example C104_ex fuel : exists chs st out lvls, build_channels sharp fuel telescope = Some (Ok chs) /\
  observe_seq x_name (observe_target run) (fun _ => Ok tt) false true [vega; altair] (chs, M_Pipeline.INFO) [] [] = (st, out, lvls) /\
  Forall2 (observed run chs) [vega; altair] out.
Proof.
  apply (C104_every_complete_target_is_observed sharp fuel telescope _ run sky_over_us (SourceName "Planck") [vega; altair] (fun _ => Ok tt) true false M_Pipeline.INFO eq_refl); try reflexivity; try discriminate.
  - apply telescope_named.
  - intros name d r [[= <- <-]|[[= <- <-]|[]]]; discriminate.
  - apply telescope_complete.
  - intros name d [[= <- <-]|[[= <- <-]|[]]]; exists 3; (split; [reflexivity|lra]).
  - apply telescope_in_range.
  - cbn. lra.
  - apply run_sensible.
  - apply vega_known.
  - assert (X : complete_target run vega).
    { repeat (split; [first [reflexivity|discriminate|apply vega_known|intros X; now destruct X]|]).
      apply (Forall_inv (sky_known [(run, vega)] (Forall_cons _ eq_refl (Forall_nil _)))). }
    intros x [<-|[<-|[]]]; exact X.
  - repeat constructor; cbn; intuition discriminate.
Qed.
