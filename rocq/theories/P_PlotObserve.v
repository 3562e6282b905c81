(** C108, C109: plots made while observing, and the efficiency of the payload. *)
From Coq Require Import Reals Lra.
From Verif Require Import Base XR Dict M_Options M_Hdf5 S_Hdf5 L_Hdf5 L_Keep M_Pipeline S_Pipeline L_Pipeline P_Pipeline.
From Verif Require Import M_Payload S_Payload P_Payload M_Plot S_Plot P_Plot P_PlotCommand.
From Verif Require L_Outcome.
Open Scope list_scope.

(** ** C108 *)
(** the plotting step of the observation of a target with table [tab t] *)
Definition plotted {Tgt} en (out_dir : option string) (name : Tgt -> string) (tab : Tgt -> ptable) (t : Tgt) : res unit :=
  snd (plot_observed en out_dir (name t) (tab t)).

(** With plots but without a directory for them no target is ever returned, whether or not it can
    be observed and drawn, one after the other or in parallel. *)
Theorem C108_plots_without_directory_lose_every_target :
  forall (Tgt Ch : Type) (name : Tgt -> string) (observe : Ch -> Tgt -> Ch * res Tgt) en tab debug ts ch lv st out lvls,
    ts <> [] ->
    observe_seq name observe (plotted en None name tab) debug true ts (ch, lv) [] [] = (st, out, lvls) ->
    out = [(None, None)] /\
    forall n_thread lv' p, psteps name observe (plotted en None name tab) debug true ch ts (pool0 n_thread lv' (length ts)) p ->
      collected p = length ts -> out_dict p = [(None, None)].
Proof.
  intros Tgt Ch name observe en tab debug ts ch lv st out lvls NE H.
  assert (PL : forall t, exists e, plotted en None name tab t = Err e).
  { intros t. unfold plotted, plot_observed. destruct (plot_table en (tab t)); cbn; eauto. }
  assert (EO : forall c t, entry_of name observe (plotted en None name tab) true c t = (None, None)).
  { intros c t. unfold entry_of. destruct (snd (observe c t)) as [t'|]; auto. destruct (PL t') as (e & ->). auto. }
  assert (DU : forall l : list (entry Tgt), Forall (eq (None, None)) l -> l <> [] -> dof_list key_eqb l = [(None, None)]).
  { intros l F N. destruct l as [|x l]; [congruence|]. inversion F as [|? ? E F']; subst. unfold dof_list, dupdate. cbn.
    clear N F. induction F' as [|y l E F IH]; cbn; auto. subst y. cbn. auto. }
  split.
  - rewrite oseq_gen in H. injection H as <- <- <-. apply DU.
    + apply Forall_forall. intros x I. apply In_nth_error in I as (i & I). rewrite entries_nth in I.
      destruct (nth_error ts i); [|discriminate]. injection I as <-. rewrite EO. reflexivity.
    + intros E. assert (L : nth_error (entries name observe (plotted en None name tab) true ch ts) 0 = None) by (rewrite E; auto).
      rewrite entries_nth in L. destruct ts; [congruence|discriminate].
  - intros n lv' p P C. rewrite (inv_done name observe (plotted en None name tab) true ch ts n p); auto; [|eapply inv_steps; [apply inv0|exact P]].
    apply DU; [|destruct ts; [congruence|discriminate]].
    apply Forall_forall. intros x I. apply in_map_iff in I as (t & <- & _). rewrite EO. reflexivity.
Qed.
Print Assumptions C108_plots_without_directory_lose_every_target.

(** With a directory, and tables that can be drawn, asking for plots changes nothing in the results:
    the dictionary, the channels and the logging are those of the run without plots. *)
Theorem C108_plots_change_no_result :
  forall (Tgt Ch : Type) (name : Tgt -> string) (observe : Ch -> Tgt -> Ch * res Tgt) en dir tab debug ts st,
    enumerates en ->
    (forall c t t', snd (observe c t) = Ok t' -> sound_table (tab t') /\ drawable (tab t')) ->
    observe_seq name observe (plotted en (Some dir) name tab) debug true ts st [] [] =
    observe_seq name observe (plotted en (Some dir) name tab) debug false ts st [] [].
Proof.
  intros Tgt Ch name observe en dir tab debug ts [ch lv] EN OK. rewrite !oseq_gen.
  assert (EE : forall ts ch, entries name observe (plotted en (Some dir) name tab) true ch ts =
                             entries name observe (plotted en (Some dir) name tab) false ch ts).
  { clear - EN OK. intros ts ch. apply (nth_ext _ _ (None, None) (None, None)).
    - assert (L : forall plot ts ch, length (entries name observe (plotted en (Some dir) name tab) plot ch ts) = length ts).
      { induction ts0 as [|t ts0 IH]; intros c; cbn; auto. }
      rewrite !L. auto.
    - intros i _. assert (E : forall plot, nth_error (entries name observe (plotted en (Some dir) name tab) plot ch ts) i =
        nth_error (entries name observe (plotted en (Some dir) name tab) false ch ts) i).
      { intros [|]; auto. rewrite !entries_nth. destruct (nth_error ts i) as [t|]; auto. f_equal. unfold entry_of.
        destruct (snd (observe _ t)) as [t'|] eqn:O; auto. destruct (OK _ _ _ O) as (S & D).
        apply (C106_drawn_exactly_if_complete en _ EN S) in D as (f & F). unfold plotted, plot_observed. rewrite F. reflexivity. }
      specialize (E true). 
      destruct (nth_error (entries name observe (plotted en (Some dir) name tab) false ch ts) i) as [x|] eqn:X.
      + rewrite (nth_error_nth _ _ (None, None) E), (nth_error_nth _ _ (None, None) X). auto.
      + apply nth_error_None in E, X. rewrite !nth_overflow; auto. }
  rewrite EE. reflexivity.
Qed.
Print Assumptions C108_plots_change_no_result.

(** A target whose table cannot be drawn is lost with plots, although it is returned without. *)
Theorem C108_undrawable_target_is_lost :
  forall (Tgt Ch : Type) (name : Tgt -> string) (observe : Ch -> Tgt -> Ch * res Tgt) en dir tab debug c lv t t',
    enumerates en -> snd (observe c t) = Ok t' -> sound_table (tab t') -> ~ drawable (tab t') ->
    (let '(_, e, _) := pipeline_to_dict name observe (plotted en dir name tab) debug true (c, lv) t in e = (None, None)) /\
    (let '(_, e, _) := pipeline_to_dict name observe (plotted en dir name tab) debug false (c, lv) t in e = (Some (name t'), Some t')).
Proof.
  intros Tgt Ch name observe en dir tab debug c lv t t' EN O S D. unfold pipeline_to_dict.
  destruct (observe c t) as [c' r]. cbn in O. subst r. split; [|reflexivity].
  assert (exists e, plot_table en (tab t') = Err e) as (e & E).
  { destruct (plot_table en (tab t')) as [f|e] eqn:E; eauto. destruct D. apply (C106_drawn_exactly_if_complete en); eauto. }
  unfold plotted, plot_observed. rewrite E. reflexivity.
Qed.
Print Assumptions C108_undrawable_target_is_lost.

(** The image of an observed target: of its own table, under its own name. *)
Theorem C108_image_of_a_target :
  forall en dir name t, enumerates en -> sound_table t -> drawable t -> plain_dir dir ->
    exists f, plot_table en t = Ok f /\ plot_observed en (Some dir) name t = ([(image dir name, f)], Ok tt).
Proof.
  intros en dir name t EN S D PD. apply (C106_drawn_exactly_if_complete en _ EN S) in D as (f & F). exists f. split; auto.
  unfold plot_observed. rewrite F. cbn. rewrite join_plain; auto.
Qed.
Print Assumptions C108_image_of_a_target.

(** Two targets with the same table as in C106, one of which cannot be observed. *)
Example C108_ex :
  let observe := fun (c : unit) (t : string) => (c, if String.eqb t "bad" then Err ValueError else Ok t) in
  let name := fun t : string => t in
  let tab := fun _ : string => two_channels in
  drawable two_channels /\
  snd (fst (observe_seq name observe (plotted here (Some "out") name tab) false true ["HD 1"; "bad"; "HD 2"] (tt, INFO) [] [])) =
    [(Some "HD 1", Some "HD 1"); (None, None); (Some "HD 2", Some "HD 2")] /\
  snd (fst (observe_seq name observe (plotted here None name tab) false true ["HD 1"; "bad"; "HD 2"] (tt, INFO) [] [])) = [(None, None)].
Proof.
  cbv zeta. assert (D : drawable two_channels).
  { apply (C106_drawn_exactly_if_complete here _ here_enumerates two_channels_sound). destruct C106_ex as (f & F & _). eauto. }
  split; [exact D|]. split.
  - rewrite C108_plots_change_no_result; [reflexivity|apply here_enumerates|].
    intros c t t' _. split; [apply two_channels_sound|auto].
  - match goal with |- snd (fst ?x) = _ => destruct x as [[st out] lvls] eqn:E end.
    apply C108_plots_without_directory_lose_every_target in E as [-> _]; [reflexivity|discriminate].
Qed.

(** ** C109: the efficiency of the payload *)
(** For every channel, in the order of the payload: the transmission and the quantum efficiency as
    they were processed, and their product on the wavelengths of the transmission, the quantum
    efficiency being rebinned on these. *)
Theorem C109_photon_conversion_efficiency :
  forall (V : Type) en unit_ok dims check rebin times t (bs : list (string * list (string * item V))),
    enumerates en -> sound_table t -> bs <> [] -> dims "um" = length_dims ->
    (exists chs, In ("chName", Texts chs) (p_cols t) /\ chs <> []) ->
    (exists l, has_numbers t "LeftBinEdge" l) -> (exists l, has_numbers t "RightBinEdge" l) ->
    forall wl_t tr wl_q qe q p : string -> V,
    (forall ch b, In (ch, b) bs -> storable unit_ok (IDict b) /\
       (exists u w, has_signal dims unit_ok b "transmission_data" (wl_t ch) (tr ch) u w) /\
       (exists u w, has_signal dims unit_ok b "qe_data" (wl_q ch) (qe ch) u w) /\
       check (wl_t ch) (LV (tr ch)) = Ok tt /\ check (wl_q ch) (LV (qe ch)) = Ok tt /\
       rebin (wl_q ch, LV (qe ch)) (wl_t ch) = Ok (LV (q ch)) /\ times (LV (tr ch)) (LV (q ch)) = Ok (LV (p ch))) ->
    exists f, plot_efficiency en unit_ok dims check rebin times
        (map (fun cb => (fst cb, map (fun kv => (fst kv, in_memory (snd kv))) (snd cb))) bs) t = Ok (Some f) /\
      z_channels f = map (fun cb => {| y_trans := (wl_t (fst cb), LV (tr (fst cb))); y_qe := (wl_q (fst cb), LV (qe (fst cb)));
                                       y_pce := (wl_t (fst cb), LV (p (fst cb))) |}) bs.
Proof.
  intros V en unit_ok dims check rebin times t bs EN ST NE UM C L Q wl_t tr wl_q qe q p H.
  destruct (proj2 (bands_ok_iff en t EN ST)) as ([bands ticks] & B); [auto|].
  assert (M : mapM (fun c => efficiency_of unit_ok dims check rebin times (snd c))
                (map (fun cb => (fst cb, map (fun kv => (fst kv, in_memory (snd kv))) (snd cb))) bs) =
              Ok (map (fun cb => {| y_trans := (wl_t (fst cb), LV (tr (fst cb))); y_qe := (wl_q (fst cb), LV (qe (fst cb)));
                                       y_pce := (wl_t (fst cb), LV (p (fst cb))) |}) bs)).
  { clear NE. induction bs as [|[ch b] bs IH]; [reflexivity|]. cbn [map mapM fst snd].
    destruct (H ch b) as (SB & (u & w & HT) & (u' & w' & HQ) & K1 & K2 & RB & TM); [now left|].
    unfold efficiency_of at 1. rewrite (C102_in_memory_they_can V unit_ok dims b "transmission_data" _ _ _ _ check SB HT UM K1). cbn [bind].
    rewrite (C102_in_memory_they_can V unit_ok dims b "qe_data" _ _ _ _ check SB HQ UM K2). cbn [bind fst snd].
    rewrite RB. cbn [bind]. rewrite TM. cbn [bind]. rewrite IH; [reflexivity|]. intros; apply H. now right. }
  unfold plot_efficiency. destruct bs as [|cb bs]; [congruence|]. cbn [map] in *. rewrite M. cbn [bind]. rewrite B. cbn [bind].
  eexists. split; [reflexivity|]. reflexivity.
Qed.
Print Assumptions C109_photon_conversion_efficiency.

(** The figure goes to efficiency.png in the output directory. *)
Theorem C109_where_the_figure_goes :
  forall (V : Type) en unit_ok dims check rebin times t (channels : list (string * list (string * lval V))) out f,
    plain_dir out -> plot_efficiency en unit_ok dims check rebin times channels t = Ok (Some f) ->
    efficiency_plot en unit_ok dims check rebin times channels (Ok t) out = Ok [((out ++ "/efficiency.png")%string, f)].
Proof.
  intros V en unit_ok dims check rebin times t channels out f PD E. unfold efficiency_plot. cbn [bind]. rewrite E. cbn [bind save_fig].
  change "efficiency.png"%string with ("efficiency" ++ ".png")%string. rewrite join_plain by auto. reflexivity.
Qed.
Print Assumptions C109_where_the_figure_goes.

(** Without channels there is no figure, no image and no error. *)
Theorem C109_without_channels :
  forall (V : Type) en unit_ok dims check rebin times t dir,
    plot_efficiency en unit_ok dims check rebin times ([] : list (string * list (string * lval V))) t = Ok None /\
    efficiency_plot en unit_ok dims check rebin times ([] : list (string * list (string * lval V))) (Ok t) dir = Ok [].
Proof. intros. split; reflexivity. Qed.
Print Assumptions C109_without_channels.

(** Channels loaded from a file have no efficiency figure: the wavelengths cannot be read from
    their processed data. *)
Theorem C109_loaded_channels_have_no_figure :
  forall (V : Type) en unit_ok dims check rebin times t (bs : list (string * list (string * item V))) chs,
    bs <> [] -> dims "um" = length_dims ->
    (forall ch b, In (ch, b) bs -> exists wl d u w, has_signal dims unit_ok b "transmission_data" wl d u w) ->
    Forall2 (fun cb cl => Restores (snd cb) (snd cl)) bs (chs : list (string * list (string * lval V))) ->
    plot_efficiency en unit_ok dims check rebin times chs t = Err UnitConversionError.
Proof.
  intros V en unit_ok dims check rebin times t bs chs NE UM H F. destruct F as [|[ch b] [ch' l] bs chs RB F]; [congruence|].
  destruct (H ch b) as (wl & d & u & w & HS); [now left|]. cbn in RB.
  unfold plot_efficiency. cbn [mapM snd]. unfold efficiency_of at 1.
  rewrite (rest_signal unit_ok dims b l "transmission_data" wl d u w RB HS UM check). reflexivity.
Qed.
Print Assumptions C109_loaded_channels_have_no_figure.

(** A channel with transmission 5 on the wavelengths 1 and quantum efficiency 7 on the wavelengths 3
    (numbers standing for arrays). *)
Definition small_built : list (string * item nat) :=
  [("transmission_data", IDict [("wl_grid", IDict [("value", IArr 1); ("unit", IStr "um")]);
                                ("data", IDict [("value", IArr 5); ("unit", IStr "")])]);
   ("qe_data", IDict [("wl_grid", IDict [("value", IArr 3); ("unit", IStr "um")]);
                      ("data", IDict [("value", IArr 7); ("unit", IStr "")])])]%nat.
Example C109_ex : storable known (IDict small_built) /\
  has_signal tiny_dims known small_built "transmission_data" 1%nat 5%nat "um" "" /\
  has_signal tiny_dims known small_built "qe_data" 3%nat 7%nat "um" "" /\
  forall check rebin times,
    check 1%nat (LV 5%nat) = Ok tt -> check 3%nat (LV 7%nat) = Ok tt ->
    rebin (3%nat, LV 7%nat) 1%nat = Ok (LV 8%nat) -> times (LV 5%nat) (LV 8%nat) = Ok (LV 40%nat) ->
    exists f, plot_efficiency here known tiny_dims check rebin times
        [("Phot", map (fun kv => (fst kv, in_memory (snd kv))) small_built)] two_channels = Ok (Some f) /\
      z_channels f = [{| y_trans := (1, LV 5); y_qe := (3, LV 7); y_pce := (1, LV 40) |}]%nat.
Proof.
  assert (ST : storable known (IDict small_built)).
  { cbn. split; [repeat constructor; cbn; intuition discriminate|]. split; [|split; [|split; [|split; [|exact I]]]].
    - intros k i [E|[E|[]]]; injection E as <- <-; reflexivity.
    - intros a b [E|[E|[]]]; discriminate.
    - split; [repeat constructor; cbn; intuition discriminate|]. split; [|split; [|split; [|split; [|exact I]]]].
      + intros k i [E|[E|[]]]; injection E as <- <-; reflexivity.
      + intros a b [E|[E|[]]]; discriminate.
      + split; [repeat constructor; cbn; intuition discriminate|]. split; [|split; [|auto]].
        * intros k i [E|[E|[]]]; injection E as <- <-; reflexivity.
        * intros a b [E|[E|[]]] [E'|[E'|[]]]; try discriminate. injection E as <-. injection E' as <-.
          split; [reflexivity|]. exists "um". auto.
      + split; [repeat constructor; cbn; intuition discriminate|]. split; [|split; [|auto]].
        * intros k i [E|[E|[]]]; injection E as <- <-; reflexivity.
        * intros a b [E|[E|[]]] [E'|[E'|[]]]; try discriminate. injection E as <-. injection E' as <-.
          split; [reflexivity|]. exists "". auto.
    - split; [repeat constructor; cbn; intuition discriminate|]. split; [|split; [|split; [|split; [|exact I]]]].
      + intros k i [E|[E|[]]]; injection E as <- <-; reflexivity.
      + intros a b [E|[E|[]]]; discriminate.
      + split; [repeat constructor; cbn; intuition discriminate|]. split; [|split; [|auto]].
        * intros k i [E|[E|[]]]; injection E as <- <-; reflexivity.
        * intros a b [E|[E|[]]] [E'|[E'|[]]]; try discriminate. injection E as <-. injection E' as <-.
          split; [reflexivity|]. exists "um". auto.
      + split; [repeat constructor; cbn; intuition discriminate|]. split; [|split; [|auto]].
        * intros k i [E|[E|[]]]; injection E as <- <-; reflexivity.
        * intros a b [E|[E|[]]] [E'|[E'|[]]]; try discriminate. injection E as <-. injection E' as <-.
          split; [reflexivity|]. exists "". auto. }
  assert (HT : has_signal tiny_dims known small_built "transmission_data" 1%nat 5%nat "um" "").
  { do 3 eexists. repeat (split; [cbn; eauto|]). reflexivity. }
  assert (HQ : has_signal tiny_dims known small_built "qe_data" 3%nat 7%nat "um" "").
  { do 3 eexists. repeat (split; [cbn; eauto|]). reflexivity. }
  split; [exact ST|]. split; [exact HT|]. split; [exact HQ|].
  intros check rebin times K1 K2 RB TM.
  destruct C106_ex as (f & F & _). assert (D : drawable two_channels) by (apply (C106_drawn_exactly_if_complete here _ here_enumerates two_channels_sound); eauto).
  destruct D as (_ & C & L & Q & _).
  apply (C109_photon_conversion_efficiency nat here known tiny_dims check rebin times two_channels [("Phot", small_built)]
    here_enumerates two_channels_sound ltac:(discriminate) eq_refl C L Q (fun _ => 1%nat) (fun _ => 5%nat) (fun _ => 3%nat) (fun _ => 7%nat) (fun _ => 8%nat) (fun _ => 40%nat)).
  intros ch b [[= <- <-]|[]]. split; [exact ST|]. split; [eauto|]. split; [eauto|]. auto.
Qed.
