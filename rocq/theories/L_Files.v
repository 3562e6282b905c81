(** Lemmas about documents naming files. *)
From Verif Require Import Base PyStr M_Options S_Options L_Options S_Files.

(** ** Text replacement without occurrences *)
Lemma replace_go_none m n l : occurs_in m l = false -> replace_go m n l 0 = l.
Proof.
  induction l as [|a l IH]; auto. cbn [occurs_in replace_go]. intros H.
  apply orb_false_iff in H as [H1 H2]. rewrite H1, IH; auto.
Qed.
Lemma py_replace_none m p s : contains m s = false -> py_replace m p s = s.
Proof.
  unfold contains, py_replace, replace_l. intros H. rewrite replace_go_none; auto.
  apply string_of_list_ascii_of_string.
Qed.

Lemma within_trans x y z : within x y -> within y z -> within x z.
Proof. induction 1; auto. intros H1. econstructor 2; eauto. Qed.

(** deciding [lacks] *)
Fixpoint lacksb (tag : string) (x : xml) : bool :=
  let 'Elem _ _ _ chs := x in
  forallb (fun c => negb (String.eqb (x_tag c) tag) && lacksb tag c) chs.
Lemma lacksb_ok tag : forall x, lacksb tag x = true -> lacks tag x.
Proof.
  induction x as [t a tx chs IH] using xml_ind'. intros H y c W I.
  cbn in H. rewrite forallb_forall in H. rewrite Forall_forall in IH.
  inversion W as [|? b ? J W']; subst.
  - specialize (H c I). apply andb_true_iff in H as [H _]. apply negb_true_iff, String.eqb_neq in H. auto.
  - cbn in J. specialize (H b J). apply andb_true_iff in H as [_ H]. exact (IH b J H y c W' I).
Qed.

Section L.
  Variable unit_ok : string -> bool.
  Variable read_table : string -> res nat.
  Variable read_pickle : string -> res (list (string * node)).
  Notation parse := (parse unit_ok read_table read_pickle).
  Notation parse_loop := (parse_loop unit_ok read_table read_pickle).
  Notation finish := (finish read_table read_pickle).
  Notation read_elem := (read_elem unit_ok).
  Notation attached := (attached read_table read_pickle).
  Notation RepF := (RepF unit_ok read_table read_pickle).
  Notation RepSeqF := (RepSeqF unit_ok read_table read_pickle).

  (** ** The files *)
  Lemma entry_value_of n v : entry_value n = Ok v <-> value_of n = Some v.
  Proof.
    destruct n; cbn; try (split; discriminate).
    - destruct (sget "value" d); split; congruence.
    - destruct (dget key_eqb _ d); split; congruence.
  Qed.

  Lemma put_sset k v (d : dict) : put k v d (sset k v d).
  Proof.
    split; [|split].
    - intros m. apply dget_dset, String_eqb_spec.
    - apply dset_keys_present, String_eqb_spec.
    - intros N. rewrite dset_absent; [rewrite map_app; auto|apply String_eqb_spec|auto].
  Qed.

  Lemma ecsv_datatype (d : dict) : ecsv d <-> datatype_of d = NVal (PStr "ecsv").
  Proof.
    unfold ecsv, datatype_of. destruct (sget "datatype" d) as [n|]; [|split; auto; discriminate].
    destruct (entry_value n) as [v|] eqn:E.
    - apply entry_value_of in E. split.
      + intros H. apply (H n); auto.
      + intros -> n' v' [= <-] E'. congruence.
    - split; auto. intros _ n' v' [= <-] E'. apply entry_value_of in E'. congruence.
  Qed.

  Lemma located_file cfg f g :
    (if contains marker f then
       match cfg with Some (PStr p) => Ok (py_replace marker p f) | _ => Err TypeError end
     else Ok f) = Ok g <-> located cfg f g.
  Proof.
    unfold located. change marker with path_mark. destruct (contains path_mark f); split.
    - destruct cfg as [[]|]; try discriminate. intros [= <-]. right; eauto.
    - intros [[? _]|(p & _ & -> & ->)]; [discriminate|auto].
    - intros [= <-]; auto.
    - intros [[_ ->]|(p & ? & _)]; [auto|discriminate].
  Qed.

  Lemma datafile_table cfg d d' : do_datafile read_table cfg d = Ok d' -> has_table read_table cfg d d'.
  Proof.
    unfold do_datafile, has_table. destruct (sget "datafile" d) as [n|] eqn:E; [|intros [= <-]; auto].
    destruct (entry_value n) as [v|] eqn:V; [|discriminate]. cbn.
    destruct v as [[| | |f| |]| | |]; try discriminate.
    destruct (if contains marker f then _ else _) as [g|] eqn:G; [|discriminate]. cbn.
    destruct (datatype_of d) as [[| | |dt| |]| | |] eqn:D; try discriminate.
    destruct (String.eqb dt "ecsv") eqn:DT; [|discriminate]. apply String.eqb_eq in DT; subst dt.
    destruct (read_table g) as [i|] eqn:T; [|discriminate]. cbn. intros [= <-]. right.
    exists f, g, i. split; [exists n; split; auto; apply entry_value_of; auto|].
    split; [apply located_file; auto|]. split; [apply ecsv_datatype; auto|].
    split; auto. apply put_sset.
  Qed.
  Lemma table_datafile cfg d f g i : names_file d "datafile" f -> located cfg f g -> ecsv d ->
    read_table g = Ok i -> do_datafile read_table cfg d = Ok (sset "data" (NData i) d).
  Proof.
    intros (n & E & V) G D T. unfold do_datafile. rewrite E.
    apply entry_value_of in V. rewrite V. cbn. apply located_file in G. rewrite G. cbn.
    apply ecsv_datatype in D. rewrite D. cbn. rewrite T. reflexivity.
  Qed.

  Lemma dict_name cfg n f g : value_of n = Some (NVal (PStr f)) ->
    dict_file_name cfg n = Ok g <-> exists p, cfg = Some (PStr p) /\ g = py_replace path_mark p f.
  Proof.
    intros V. apply entry_value_of in V. unfold dict_file_name. rewrite V. cbn.
    change marker with path_mark. split.
    - destruct cfg as [[]|]; try discriminate. intros [= <-]. eauto.
    - intros (p & -> & ->). reflexivity.
  Qed.
  Lemma dict_name_string cfg n g : dict_file_name cfg n = Ok g ->
    exists f, value_of n = Some (NVal (PStr f)).
  Proof.
    unfold dict_file_name. destruct (entry_value n) as [v|] eqn:V; [|discriminate]. cbn.
    apply entry_value_of in V. destruct v as [[| | |f| |]| | |]; try discriminate. eauto.
  Qed.
  Lemma read_datadict_pickle g c : read_datadict read_pickle g = Ok c <->
    splitext g = ".pickle" /\ read_pickle g = Ok c.
  Proof.
    unfold read_datadict. destruct (String.eqb (splitext g) ".h5") eqn:H1.
    { apply String.eqb_eq in H1. rewrite H1. cbn. split; [discriminate|intros [? _]; discriminate]. }
    destruct (String.eqb (splitext g) ".hdf5") eqn:H2.
    { apply String.eqb_eq in H2. rewrite H2. cbn. split; [discriminate|intros [? _]; discriminate]. }
    cbn [orb]. destruct (String.eqb (splitext g) ".pickle") eqn:H3.
    - apply String.eqb_eq in H3. tauto.
    - apply String.eqb_neq in H3. split; [discriminate|tauto].
  Qed.
  Lemma unpickled_read cfg n f g c : value_of n = Some (NVal (PStr f)) ->
    (dict_file_name cfg n = Ok g /\ read_datadict read_pickle g = Ok c) <-> unpickled read_pickle cfg f g c.
  Proof.
    intros V. rewrite (dict_name cfg n f g V), read_datadict_pickle. unfold unpickled. split.
    - intros [(p & ? & ?) [? ?]]. eauto 6.
    - intros (p & ? & ? & ? & ?). eauto 6.
  Qed.

  Lemma finish_attached cfg d0 d : finish cfg d0 = Ok d -> attached cfg d0 d.
  Proof.
    unfold M_Options.finish. destruct (do_datafile read_table cfg d0) as [d1|] eqn:T; [|discriminate]. cbn.
    destruct (do_datadict read_pickle cfg d1) as [d2|] eqn:D; [|discriminate]. cbn. intros C.
    exists d1, d2. split; [apply datafile_table; auto|]. split.
    - unfold do_datadict in D. unfold has_dict. destruct (sget "datadict" d1) as [n|] eqn:E; [|injection D as <-; auto].
      right. destruct (dict_file_name cfg n) as [g|] eqn:G; [|discriminate]. cbn in D.
      destruct (read_datadict read_pickle g) as [c|] eqn:R; [|discriminate]. injection D as <-.
      destruct (dict_name_string _ _ _ G) as [f V]. exists f, g, c.
      split; [exists n; auto|]. split; [apply (unpickled_read cfg n f g c V); auto|]. apply put_sset.
    - unfold do_config_dict in C. unfold has_config. destruct (sget "config_dict" d2) as [n|] eqn:E; [|injection C as <-; auto].
      right. destruct (dict_file_name cfg n) as [g|] eqn:G; [|discriminate]. cbn in C.
      destruct (read_datadict read_pickle g) as [c|] eqn:R; [|discriminate]. injection C as <-.
      destruct (dict_name_string _ _ _ G) as [f V]. exists f, g, c.
      split; [exists n; auto|]. split; [apply (unpickled_read cfg n f g c V); auto|]. apply put_sset.
  Qed.

  (** ** The loop over the children *)
  Fixpoint gather (ov : option string) (st : pstate) (chs : list xml) (rd : dict)
    : pstate * res dict :=
    match chs with
    | [] => (st, Ok rd)
    | ch :: chs' =>
        match parse ov st ch with
        | (st1, Err e) => (st1, Err e)
        | (st1, Ok retval) =>
            match absorb unit_ok ov st1 ch retval rd with
            | (st2, Err e) => (st2, Err e)
            | (st2, Ok rd') => gather ov st2 chs' rd'
            end
        end
    end.
  Lemma loop_gather ov chs : forall st rd,
    parse_loop ov st chs rd = match gather ov st chs rd with
                              | (st', Ok d0) => (st', finish (st_cfg st') d0)
                              | (st', Err e) => (st', Err e) end.
  Proof.
    induction chs as [|ch chs IH]; intros st rd; cbn [M_Options.parse_loop gather]; auto.
    destruct (parse ov st ch) as [st1 [sub|]]; auto.
    destruct (absorb unit_ok ov st1 ch sub rd) as [st2 [rd'|]]; auto.
  Qed.

  Lemma gather_spec ov chs :
    Forall (fun ch => forall st st' d, parse ov st ch = (st', Ok d) -> RepF ov st ch st' d) chs ->
    forall st l rd st' d0, RegInv l rd -> gather ov st chs rd = (st', Ok d0) ->
      exists ents, RepSeqF ov st chs ents st' /\ length ents = length chs /\
        RegInv (l ++ combine (map x_tag chs) ents) d0.
  Proof.
    induction chs as [|ch chs IH]; intros F st l rd st' d0 INV P.
    - injection P as <- <-. exists []. cbn. rewrite app_nil_r. split; [constructor|auto].
    - inversion F as [|? ? F1 F2]; subst. cbn in P.
      destruct (parse ov st ch) as [st1 [sub|]] eqn:P1; [|discriminate].
      unfold absorb in P. destruct (read_elem ov st1 ch sub) as [st2 [[key e]|]] eqn:RE; [|discriminate].
      destruct (register rd (x_tag ch) key e) as [rd'|] eqn:RG; [|discriminate].
      destruct (IH F2 st2 (l ++ [(x_tag ch, (key, e))]) rd' st' d0) as (ents & RS & LE & INV'); auto.
      + eapply RegInv_step; eauto.
      + exists ((key, e) :: ents). split; [|split].
        * econstructor; eauto. apply read_elem_RepElem; auto.
        * cbn; auto.
        * cbn. rewrite <- app_assoc in INV'. exact INV'.
  Qed.

  Lemma combine_tags chs (ents : list (pyval * dict)) : length ents = length chs ->
    map fst (combine (map x_tag chs) ents) = map x_tag chs.
  Proof.
    revert ents; induction chs as [|c chs IH]; intros [|e ents]; cbn; try discriminate; auto.
    intros [= LE]. f_equal; auto.
  Qed.

  Lemma parse_RepF ov : forall x st st' d, parse ov st x = (st', Ok d) -> RepF ov st x st' d.
  Proof.
    induction x as [t a tx chs IH] using xml_ind'. intros st st' d P.
    rewrite parse_unfold, loop_gather in P.
    destruct (gather ov st chs []) as [st1 [d0|]] eqn:G; [|discriminate]. injection P as <- FN.
    destruct (gather_spec ov chs IH st [] [] st1 d0 RegInv_nil G) as (ents & RS & LE & GG & _ & KS).
    cbn [app] in *. rewrite (combine_tags _ _ LE) in KS.
    econstructor; eauto. apply finish_attached; auto.
  Qed.

  Lemma RepSeqF_length ov st chs ents st' : RepSeqF ov st chs ents st' -> length ents = length chs.
  Proof. induction 1; cbn; auto. Qed.

  (** every level is represented *)
  Lemma RepF_child ov st t a tx chs st' d c : RepF ov st (Elem t a tx chs) st' d -> In c chs ->
    exists s1 s2 e, RepF ov s1 c s2 e.
  Proof.
    intros H I. inversion H as [? ? ? ? ? ? ents d0 ? RS]; subst. clear -RS I.
    induction RS; cbn in I; [tauto|]. destruct I as [<-|I]; eauto.
  Qed.
  Lemma RepF_within ov x y : within x y -> forall st st' d, RepF ov st x st' d ->
    exists s1 s2 e, RepF ov s1 y s2 e.
  Proof.
    induction 1 as [x|x c y I W IH]; intros st st' d H; eauto.
    destruct x as [t a tx chs]. destruct (RepF_child _ _ _ _ _ _ _ _ _ H I) as (s1 & s2 & e & R). eauto.
  Qed.

  (** ** Keys of a finished dictionary *)
  Lemma attached_other cfg d0 d k : attached cfg d0 d -> sget "config_dict" d0 = None ->
    k <> "data" -> sget k d = sget k d0.
  Proof.
    intros (d1 & d2 & T & D & C) NC ND. apply String.eqb_neq in ND.
    assert (E1 : forall m, m <> "data" -> sget m d1 = sget m d0).
    { intros m N. apply String.eqb_neq in N. destruct T as [[_ ->]|(f & g & i & _ & _ & _ & _ & (P & _))]; auto.
      rewrite P, N; auto. }
    assert (E2 : forall m, m <> "data" -> sget m d2 = sget m d1).
    { intros m N. apply String.eqb_neq in N. destruct D as [[_ ->]|(f & g & c & _ & _ & (P & _))]; auto.
      rewrite P, N; auto. }
    apply String.eqb_neq in ND.
    destruct C as [[_ ->]|(f & g & c & (n & E & _) & _)]; [rewrite E2, E1; auto|].
    rewrite E2, E1 in E by discriminate. congruence.
  Qed.

  Lemma RepF_no_unit ov st ch st' sub : RepF ov st ch st' sub ->
    ~ In "config_dict" (map x_tag (x_children ch)) ->
    ~ In "unit" (map x_tag (x_children ch)) -> sget "unit" sub = None.
  Proof.
    intros H NC NU. inversion H as [? ? ? ? ? ? ents d0 ? RS G KS A]; subst. cbn in NC, NU.
    assert (Z : forall m, ~ In m (map x_tag chs) -> sget m d0 = None).
    { intros m N. apply dget_None_notIn; [apply String_eqb_spec|]. rewrite KS, firsts_In; auto. }
    rewrite (attached_other _ _ _ _ A); auto. discriminate.
  Qed.

  (** ** Histories *)
  Lemma lacks_child tag x c : lacks tag x -> In c (x_children x) -> lacks tag c.
  Proof. intros L I y z W J. apply (L y z); auto. econstructor 2; eauto. Qed.

  Lemma RepElem_Trace ov st ch sub st' key entry :
    (~ In "unit" (map x_tag (x_children ch)) -> sget "unit" sub = None) ->
    RepElem unit_ok ov st ch sub st' key entry ->
    exists tr, map fst tr = valued1 ch /\ Trace unit_ok ov st tr st'.
  Proof.
    intros NU (s & T & B & NB). unfold valued1. rewrite T. destruct s as [|c s].
    - destruct (B eq_refl) as (_ & -> & _). exists []; split; auto. constructor.
    - destruct NB as ((un & U & D) & C & W & _); [discriminate|].
      exists [(ch, key)]; split; auto. econstructor; eauto; [discriminate| |].
      + intros [U1 U2]. destruct un as [u|]; auto.
        rewrite (sget_rev_None _ _ U1), (NU U2) in U. destruct U as [?|[? ?]]; discriminate.
      + rewrite <- C, <- W. destruct st'; constructor.
  Qed.

  Lemma RepSeqF_Trace ov chs :
    Forall (fun ch => forall st st' d, lacks "config_dict" ch -> RepF ov st ch st' d ->
              exists tr, map fst tr = valued ch /\ Trace unit_ok ov st tr st') chs ->
    (forall c, In c chs -> lacks "config_dict" c) ->
    forall st ents st', RepSeqF ov st chs ents st' ->
      exists tr, map fst tr = flat_map (fun ch => valued ch ++ valued1 ch) chs /\
                 Trace unit_ok ov st tr st'.
  Proof.
    induction chs as [|ch chs IH]; intros F LK st ents st' RS.
    - inversion RS; subst. exists []; split; auto; constructor.
    - inversion F as [|? ? F1 F2]; subst. inversion RS as [|? ? ? st1 sub st2 key entry ents' ? R RE RS']; subst.
      assert (LC : lacks "config_dict" ch) by (apply LK; cbn; auto).
      destruct (F1 _ _ _ LC R) as (tr1 & M1 & T1).
      apply RepElem_Trace in RE as (tr2 & M2 & T2).
      2: { intros N. eapply RepF_no_unit; eauto. intros I. apply in_map_iff in I as (c & E & I).
           exact (LC ch c (Within_self _) I E). }
      destruct (IH F2 (fun c I => LK c (or_intror I)) _ _ _ RS') as (tr3 & M3 & T3).
      exists ((tr1 ++ tr2) ++ tr3). split.
      + cbn. rewrite !map_app; congruence.
      + eapply Trace_app; eauto. eapply Trace_app; eauto.
  Qed.

  Lemma RepF_Trace ov : forall x st st' d, lacks "config_dict" x -> RepF ov st x st' d ->
    exists tr, map fst tr = valued x /\ Trace unit_ok ov st tr st'.
  Proof.
    induction x as [t a tx chs IH] using xml_ind'. intros st st' d LK R.
    inversion R as [? ? ? ? ? ? ents d0 ? RS G KS A]; subst.
    eapply RepSeqF_Trace in RS; eauto. intros c I. eapply lacks_child; eauto.
  Qed.

  Lemma parse_TraceF ov x st st' d : lacks "config_dict" x -> parse ov st x = (st', Ok d) ->
    exists tr, map fst tr = valued x /\ Trace unit_ok ov st tr st'.
  Proof. intros LK P. eapply RepF_Trace; eauto. apply parse_RepF; eauto. Qed.

  (** ** What a file element of a loaded document says *)
  Lemma RepSeqF_values ov st chs ents st' : RepSeqF ov st chs ents st' ->
    Forall2 (fun ch ke => is_valued ch = true -> sget "value" (snd ke) = Some (NVal (fst ke))) chs ents.
  Proof.
    induction 1 as [|st ch chs st1 sub st2 key entry ents st3 R RE RS IH]; constructor; auto.
    cbn. unfold is_valued. destruct RE as (s & -> & _ & NB). destruct s; [discriminate|].
    intros _. destruct NB as (_ & _ & _ & G); [discriminate|]. rewrite G. reflexivity.
  Qed.

  (** the string value of a tag comes from its only element *)
  Lemma dof_list_dicts l k n : (forall k' n', In (k', n') l -> exists e, n' = NDict e) ->
    dget key_eqb k (dof_list key_eqb l) = Some n -> exists e, n = NDict e.
  Proof.
    intros H. unfold dof_list, dupdate.
    assert (Z : forall l d, (forall k' n', In (k', n') l -> exists e, n' = NDict e) ->
              (forall k' n', In (k', n') d -> exists e : dict, n' = NDict e) ->
              forall k' n', In (k', n') (fold_left (fun d kv => dset key_eqb (fst kv) (snd kv) d) l d) ->
              exists e : dict, n' = NDict e).
    { clear. induction l as [|[a b] l IH]; cbn; intros d HL HD; auto.
      apply IH; eauto. intros k' n' I.
      assert (Y : forall d (a : pyval) (b : node) k' n', In (k', n') (dset key_eqb a b d) -> n' = b \/ In (k', n') d \/ exists k2, In (k2, n') d).
      { clear. induction d as [|[x y] d IH]; cbn; intros a b k' n'.
        - intros [E|[]]. injection E as <- <-; auto.
        - destruct (key_eqb a x); cbn; intros [E|I]; try (injection E as <- <-); eauto.
          destruct (IH _ _ _ _ I) as [->|[J|[k2 J]]]; eauto. }
      destruct (Y _ _ _ _ _ I) as [->|[J|[k2 J]]]; eauto. }
    intros G. assert (I : exists k', In (k', n) (fold_left (fun d kv => dset key_eqb (fst kv) (snd kv) d) l [])).
    { revert G. generalize (fold_left (fun d kv => dset key_eqb (fst kv) (snd kv) d) l []).
      intros d. induction d as [|[x y] d IH]; cbn; [discriminate|]. destruct (key_eqb k x).
      - intros [= <-]; eauto.
      - intros G. destruct (IH G) as [k' I]. eauto. }
    destruct I as [k' I]. eapply Z; [exact H| |exact I]. cbn; tauto.
  Qed.

  Lemma grouped_string t l n f : grouped t l = Some n -> value_of n = Some (NVal (PStr f)) ->
    exists k e, occurrences t l = [(k, e)] /\ sget "value" e = Some (NVal (PStr f)).
  Proof.
    unfold grouped. destruct (occurrences t l) as [|[k e] [|p q]] eqn:O; try discriminate.
    - intros [= <-] V. exists k, e. auto.
    - destruct (sget "value" e) as [[k0| | |]|]; try discriminate. intros [= <-] V. exfalso.
      change (dget key_eqb (PStr "value")
        (dof_list key_eqb ((k0, NDict e) :: map (fun ke => (fst ke, NDict (snd ke))) (p :: q))) = Some (NVal (PStr f))) in V.
      apply dof_list_dicts in V as [e' E]; [discriminate|].
      intros k' n' [E|I]; [injection E as <- <-; eauto|]. apply in_map_iff in I as ([? ?] & E & _).
      injection E as <- <-; eauto.
  Qed.

  (** a level of a loaded document at which [tag] has the string value [f] *)
  Lemma named_elem ov st chs ents st' d0 tag f :
    RepSeqF ov st chs ents st' ->
    (forall t, sget t d0 = grouped t (combine (map x_tag chs) ents)) ->
    names_file d0 tag f ->
    exists c, filter (fun c => String.eqb (x_tag c) tag) chs = [c] /\
      (forall s, text_of c = Some s -> s <> "" ->
         exists s1 sub s2 s3 e, RepF ov s1 c s2 sub /\ RepElem unit_ok ov s2 c sub s3 (PStr f) e).
  Proof.
    intros RS G (n & E & V). rewrite G in E.
    destruct (grouped_string _ _ _ _ E V) as (k & e & O & VE).
    assert (F : Forall2 (fun c ke => exists s1 sub s2 s3, RepF ov s1 c s2 sub /\ RepElem unit_ok ov s2 c sub s3 (fst ke) (snd ke)) chs ents).
    { clear -RS. induction RS; constructor; eauto 7. }
    apply (occurrences_combine tag) in F. rewrite O in F.
    inversion F as [|c ke l l' (s1 & sub & s2 & s3 & R & RE) F' E1 E2]; subst. inversion F'; subst.
    exists c. split; auto. intros s TX NB. cbn in *.
    destruct RE as (s' & TX' & B & NB'). rewrite TX in TX'; injection TX' as <-.
    pose proof (NB' NB) as (_ & _ & _ & GE). rewrite GE in VE. cbn in VE. injection VE as ->.
    exists s1, sub, s2, s3, e. split; auto. exists s. auto.
  Qed.

  (** ** Readable documents load *)
  Lemma denotes_text cfg p s v : cfg = Some (PStr p) -> not_number s -> s <> "True" -> s <> "False" ->
    denotes unit_ok cfg None s v -> v = PStr (py_replace path_mark p s).
  Proof.
    intros -> N T F D. inversion D; subst; try congruence.
    - exfalso; eapply number_not_not; eauto.
    - rewrite py_replace_none; auto.
  Qed.
  Lemma denotes_some p un s :
    (forall u, un = Some u -> is_number s = true /\ (unit_name u = "" \/ unit_ok (unit_name u) = true)) ->
    exists v, denotes unit_ok (Some (PStr p)) un s v.
  Proof.
    intros H. destruct un as [u|].
    - destruct (H u eq_refl) as [N U]. apply is_number_spec in N as [n N]. eexists; apply D_quantity; eauto.
    - destruct (is_number s) eqn:E.
      + apply is_number_spec in E as [n N]. eexists; apply D_number; eauto.
      + apply is_number_false in E.
        destruct (string_dec s "True") as [->|T]; [eexists; apply D_true|].
        destruct (string_dec s "False") as [->|F]; [eexists; apply D_false|].
        destruct (contains path_mark s) eqn:C; [eexists; apply D_path; eauto|eexists; apply D_string; auto].
  Qed.

  Definition holds_path (ov : option string) (p : string) (ch : xml) : Prop :=
    (ov = Some p /\ p <> "") \/ (no_override ov /\ x_tag ch <> "ConfigPath").

  Lemma RepElem_steady ov p st ch sub st' key e : RepElem unit_ok ov st ch sub st' key e ->
    holds_path ov p ch -> st_cfg st = Some (PStr p) -> st_cfg st' = Some (PStr p).
  Proof.
    intros (s & T & B & NB) H C. destruct s as [|c s].
    - destruct (B eq_refl) as (_ & -> & _); auto.
    - destruct NB as (_ & E & _); [discriminate|]. rewrite E. unfold path_after.
      destruct H as [[-> N]|[NO N]].
      + destruct p; [congruence|auto].
      + apply String.eqb_neq in N. rewrite N. destruct NO as [-> | ->]; auto.
  Qed.

  Lemma read_elem_readable ov p st ch sub : readable_elem unit_ok ch -> st_cfg st = Some (PStr p) ->
    (~ In "unit" (map x_tag (x_children ch)) -> sget "unit" sub = None) ->
    exists st' key e, read_elem ov st ch sub = (st', Ok (key, e)) /\
      (is_valued ch = true -> sget "value" e = Some (NVal key)).
  Proof.
    intros (s & T & H) C NU. unfold M_Options.read_elem, is_valued. rewrite T.
    unfold text_of in T. destruct (x_text ch) as [t|]; [|discriminate]. cbn in T.
    change (py_strip (py_replace line_end "" t)) with (compact t) in T. injection T as ->.
    destruct s as [|c s].
    - cbn. do 3 eexists; split; [reflexivity|discriminate].
    - destruct H as [N U]; [discriminate|]. cbn [String.eqb]. rewrite sget_add_attrs, (NU N), C.
      assert (EQ : match sget "unit" (rev (x_attrs ch)) with
                   | Some x => Some (NVal (PStr x)) | None => None end
                   = unit_str (sget "unit" (rev (x_attrs ch)))).
      { destruct (sget "unit" _); auto. }
      rewrite EQ. destruct (denotes_some p (sget "unit" (rev (x_attrs ch))) (String c s)) as [v D]; auto.
      apply denotes_typed_value in D. rewrite D. do 3 eexists; split; [reflexivity|].
      intros _. apply dget_dset_same, String_eqb_spec.
  Qed.

  (** what is known about each child once the loop is done *)
  Definition read_under (ov : option string) (p : string) (ch : xml) (ke : pyval * dict) : Prop :=
    exists st sub st', st_cfg st = Some (PStr p) /\
      (~ In "unit" (map x_tag (x_children ch)) -> sget "unit" sub = None) /\
      RepElem unit_ok ov st ch sub st' (fst ke) (snd ke).

  Lemma gather_ok ov p chs :
    Forall (fun ch => forall st, st_cfg st = Some (PStr p) -> exists st' d, parse ov st ch = (st', Ok d) /\
              st_cfg st' = Some (PStr p) /\
              (~ In "unit" (map x_tag (x_children ch)) -> sget "unit" d = None)) chs ->
    (forall ch, In ch chs -> readable_elem unit_ok ch /\ holds_path ov p ch) ->
    forall st l rd, st_cfg st = Some (PStr p) ->
      RegInv l rd ->
      (forall t k e rest, occurrences t l = (k, e) :: rest -> In t (map x_tag chs) ->
           exists v, sget "value" e = Some (NVal v)) ->
      firsts_valued (map fst l) chs = true ->
      exists st' d0 ents, gather ov st chs rd = (st', Ok d0) /\ st_cfg st' = Some (PStr p) /\
        Forall2 (read_under ov p) chs ents /\ RegInv (l ++ combine (map x_tag chs) ents) d0.
  Proof.
    induction chs as [|ch chs IH]; intros F OKS st l rd C INV FV1 FV2.
    - exists st, rd, []. cbn. rewrite app_nil_r. auto.
    - inversion F as [|? ? F1 F2]; subst. destruct (OKS ch) as [RE HP]; [cbn; auto|].
      destruct (F1 st C) as (st1 & sub & P1 & C1 & NU). cbn [gather]. rewrite P1. unfold absorb.
      destruct (read_elem_readable ov p st1 ch sub RE C1 NU) as (st2 & key & e & R & VE). rewrite R.
      assert (exists rd', register rd (x_tag ch) key e = Ok rd') as [rd' RG].
      { unfold register. destruct INV as (G & NN & KS). rewrite (G (x_tag ch)).
        pose proof (grouped_first (x_tag ch) l) as GF. specialize (NN (x_tag ch)).
        destruct (occurrences (x_tag ch) l) as [|[k0 e0] rest] eqn:EOC.
        - rewrite GF; eauto.
        - destruct GF as [[d ->]|[-> ->]]; [apply NN; discriminate| |]; eauto.
          destruct (FV1 _ _ _ _ EOC) as [v ->]; [cbn; auto|]. eauto. }
      rewrite RG. pose proof (read_elem_RepElem _ _ _ _ _ _ _ _ R) as REL.
      destruct (IH F2 (fun c I => OKS c (or_intror I)) st2 (l ++ [(x_tag ch, (key, e))]) rd') as (st' & d0 & ents & GA & C' & FF & INV').
      + eapply RepElem_steady; eauto.
      + eapply RegInv_step; eauto.
      + cbn [firsts_valued] in FV2. apply andb_true_iff in FV2 as [FVa FVb].
        intros t k1 e1 rest EOC I. rewrite occurrences_app in EOC.
        unfold occurrences at 2 in EOC; cbn in EOC.
        destruct (occurrences t l) as [|[k2 e2] r2] eqn:EO2; cbn in EOC.
        * destruct (String.eqb (x_tag ch) t) eqn:ET; [|discriminate].
          apply String.eqb_eq in ET. cbn in EOC. injection EOC as <- <- <-.
          apply orb_true_iff in FVa as [FVa|FVa].
          -- apply orb_true_iff in FVa as [FVa|FVa]; [|exists key; apply VE; exact FVa].
             exfalso. apply (proj1 (existsb_eqb_In _ _)) in FVa. rewrite ET in FVa.
             apply (proj2 (occurrences_In unit_ok read_table read_pickle t l)) in FVa. congruence.
          -- apply negb_true_iff in FVa. rewrite ET in FVa. apply existsb_eqb_In in I. congruence.
        * injection EOC as <- <- <-. eapply FV1; eauto. cbn; auto.
      + cbn [firsts_valued] in FV2. apply andb_true_iff in FV2 as [FVa FVb].
        rewrite map_app; cbn.
        assert (PERM : forall s1 s2 cs, (forall x, In x s1 <-> In x s2) ->
                 firsts_valued s1 cs = firsts_valued s2 cs).
        { clear. intros s1 s2 cs; revert s1 s2; induction cs as [|c cs IH]; intros s1 s2 H; cbn; auto.
          rewrite (IH (x_tag c :: s1) (x_tag c :: s2)) by (intros x; cbn; rewrite H; tauto).
          f_equal. f_equal. f_equal. apply eq_true_iff_eq. rewrite !existsb_eqb_In; auto. }
        rewrite (PERM _ (x_tag ch :: map fst l)); auto.
        intros x; rewrite in_app_iff; cbn; tauto.
      + exists st', d0, ((key, e) :: ents). split; auto. split; auto. split.
        * constructor; auto. exists st1, sub, st2. auto.
        * cbn. rewrite <- app_assoc in INV'. exact INV'.
  Qed.

  (** the value of an [only] tag *)
  Lemma only_named ov p tag P chs ents d0 n : only tag P chs ->
    Forall2 (read_under ov p) chs ents ->
    (forall t, sget t d0 = grouped t (combine (map x_tag chs) ents)) ->
    sget tag d0 = Some n ->
    exists s, P s /\ value_of n = Some (NVal (PStr (py_replace path_mark p s))).
  Proof.
    intros [L H] F G E. rewrite G in E. unfold grouped in E.
    apply (occurrences_combine tag) in F.
    destruct (occurrences tag (combine (map x_tag chs) ents)) as [|[k e] rest] eqn:O; [discriminate|].
    inversion F as [|c ke l l' (st & sub & st' & C & NU & RE) F' E1 E2]; subst.
    assert (I : In c (filter (fun ch => String.eqb (x_tag ch) tag) chs)) by (rewrite <- E1; cbn; auto).
    rewrite <- E1 in L. cbn in L. destruct l as [|? ?]; cbn in L; [|lia]. inversion F'; subst.
    injection E as <-. apply filter_In in I as [I ET]. apply String.eqb_eq in ET.
    destruct (H c I ET) as ([U1 U2] & s & T & NB & NN & NT & NF & PS).
    exists s. split; auto. cbn in *. destruct RE as (s' & T' & _ & NB'). rewrite T in T'; injection T' as <-.
    destruct (NB' NB) as ((un & U & D) & _ & _ & GE). rewrite GE. cbn.
    destruct un as [u|].
    { rewrite (sget_rev_None _ _ U1), (NU U2) in U. destruct U as [?|[? ?]]; discriminate. }
    f_equal. f_equal. eapply denotes_text; eauto.
  Qed.

  Lemma located_replace p f : located (Some (PStr p)) f (py_replace path_mark p f).
  Proof.
    unfold located. destruct (contains path_mark f) eqn:E; [right; eauto|left].
    split; auto. apply py_replace_none; auto.
  Qed.

  Lemma finish_ok ov p chs ents d0 : readable_level read_table read_pickle p chs ->
    Forall2 (read_under ov p) chs ents ->
    (forall t, sget t d0 = grouped t (combine (map x_tag chs) ents)) ->
    map fst d0 = firsts (map x_tag chs) ->
    exists d, finish (Some (PStr p)) d0 = Ok d /\
      (~ In "unit" (map x_tag chs) -> sget "unit" d = None).
  Proof.
    intros (OF & OD & OC & OT) F G KS. unfold M_Options.finish.
    assert (TB : exists d1, do_datafile read_table (Some (PStr p)) d0 = Ok d1 /\
                   forall m, m <> "data" -> sget m d1 = sget m d0).
    { destruct (sget "datafile" d0) as [n|] eqn:E.
      - destruct (only_named _ _ _ _ _ _ _ _ OF F G E) as (s & (i & R) & V).
        eexists. split.
        + eapply table_datafile; [exists n; split; eauto|apply located_replace| |exact R].
          intros n' v E' V'. destruct (only_named _ _ _ _ _ _ _ _ OT F G E') as (s' & -> & V2).
          rewrite V2 in V'. injection V' as <-. reflexivity.
        + intros m N. apply dget_dset_other; auto. apply String_eqb_spec.
      - exists d0. unfold do_datafile. rewrite E. auto. }
    destruct TB as (d1 & -> & K1). cbn.
    assert (TD : exists d2, do_datadict read_pickle (Some (PStr p)) d1 = Ok d2 /\
                   forall m, m <> "data" -> sget m d2 = sget m d0).
    { unfold do_datadict. rewrite K1 by discriminate. destruct (sget "datadict" d0) as [n|] eqn:E.
      - destruct (only_named _ _ _ _ _ _ _ _ OD F G E) as (s & (X & c & R) & V).
        rewrite (proj2 (dict_name (Some (PStr p)) n _ (resolve p s) V)) by (exists p; auto). cbn.
        rewrite (proj2 (read_datadict_pickle (resolve p s) c)) by auto. cbn. eexists; split; eauto.
        intros m N. rewrite dget_dset_other; auto. apply String_eqb_spec.
      - exists d1. auto. }
    destruct TD as (d2 & -> & K2). cbn. unfold do_config_dict. rewrite K2 by discriminate.
    destruct (sget "config_dict" d0) as [n|] eqn:E.
    - destruct (only_named _ _ _ _ _ _ _ _ OC F G E) as (s & (X & c & R & U) & V).
      rewrite (proj2 (dict_name (Some (PStr p)) n _ (resolve p s) V)) by (exists p; auto). cbn.
      rewrite (proj2 (read_datadict_pickle (resolve p s) c)) by auto. cbn. eexists; split; eauto.
      intros _. rewrite dget_dset_other; [auto|apply String_eqb_spec|discriminate].
    - exists d2. split; auto. intros N. rewrite K2 by discriminate.
      apply dget_None_notIn; [apply String_eqb_spec|]. rewrite KS, firsts_In; auto.
  Qed.

  Lemma steady_child ov p x c : steady ov p x -> In c (x_children x) -> steady ov p c /\ holds_path ov p c.
  Proof.
    intros [H|[NO H]] I; [split; left; auto|]. split; right; split; auto.
    - intros y d W J. apply (H y d); auto. econstructor 2; eauto.
    - apply (H x c); auto. constructor.
  Qed.
  Lemma readable_child p x c : readable unit_ok read_table read_pickle p x -> In c (x_children x) ->
    readable unit_ok read_table read_pickle p c.
  Proof. intros H I y W. apply H. econstructor 2; eauto. Qed.

  Lemma parse_readable ov p : forall x st, st_cfg st = Some (PStr p) -> steady ov p x ->
    readable unit_ok read_table read_pickle p x ->
    exists st' d, parse ov st x = (st', Ok d) /\ st_cfg st' = Some (PStr p) /\
      (~ In "unit" (map x_tag (x_children x)) -> sget "unit" d = None).
  Proof.
    induction x as [t a tx chs IH] using xml_ind'. intros st C SX RX.
    destruct (RX _ (Within_self _)) as (FV & EL & LV). cbn [x_children] in *.
    destruct (gather_ok ov p chs) with (st := st) (l := @nil (string * (pyval * dict))) (rd := @nil (string * node))
      as (st' & d0 & ents & GA & C' & FF & INV); auto.
    - apply Forall_forall. intros c I st1 C1. rewrite Forall_forall in IH. apply IH; auto.
      + apply (steady_child ov p _ c SX I).
      + eapply readable_child; eauto.
    - intros c I. split; auto. apply (steady_child ov p _ c SX I).
    - apply RegInv_nil.
    - cbn; intros; discriminate.
    - cbn [app] in INV. destruct INV as (G & _ & KS).
      rewrite combine_tags in KS by (symmetry; eapply Forall2_len; eauto).
      destruct (finish_ok ov p chs ents d0 LV FF G KS) as (d & FI & NU).
      exists st', d. rewrite parse_unfold, loop_gather, GA, C', FI. auto.
  Qed.

  (** ** Failures *)
  Lemma named_before cfg d0 d1 tag f : has_table read_table cfg d0 d1 -> tag <> "data" ->
    names_file d1 tag f -> names_file d0 tag f.
  Proof.
    intros [[_ ->]|(? & ? & i & _ & _ & _ & _ & (P & _))] N; auto.
    intros (n & E & V). exists n. split; auto. rewrite P in E. apply String.eqb_neq in N. rewrite N in E; auto.
  Qed.
  Lemma named_before2 cfg d0 d1 tag f : has_dict read_pickle cfg d0 d1 -> tag <> "data" ->
    names_file d1 tag f -> names_file d0 tag f.
  Proof.
    intros [[_ ->]|(? & ? & i & _ & _ & (P & _))] N; auto.
    intros (n & E & V). exists n. split; auto. rewrite P in E. apply String.eqb_neq in N. rewrite N in E; auto.
  Qed.
  Lemma kept_before cfg d0 d1 tag : has_table read_table cfg d0 d1 -> tag <> "data" ->
    sget tag d1 = sget tag d0.
  Proof.
    intros [[_ ->]|(? & ? & i & _ & _ & _ & _ & (P & _))] N; auto.
    rewrite P. apply String.eqb_neq in N. rewrite N; auto.
  Qed.
  Lemma kept_before2 cfg d0 d1 tag : has_dict read_pickle cfg d0 d1 -> tag <> "data" ->
    sget tag d1 = sget tag d0.
  Proof.
    intros [[_ ->]|(? & ? & i & _ & _ & (P & _))] N; auto.
    rewrite P. apply String.eqb_neq in N. rewrite N; auto.
  Qed.

  (** an element present at a level has an entry *)
  Lemma present_entry chs (d0 : dict) c : map fst d0 = firsts (map x_tag chs) -> In c chs ->
    sget (x_tag c) d0 <> None.
  Proof.
    intros KS I E. apply dget_None_notIn in E; [|apply String_eqb_spec]. apply E.
    rewrite KS. apply (firsts_In unit_ok read_table read_pickle). apply in_map; auto.
  Qed.

  (** the file names attached at a level where the elements occur *)
  Lemma attached_names cfg d0 d : attached cfg d0 d ->
    (sget "datafile" d0 <> None -> exists f g i, names_file d0 "datafile" f /\ located cfg f g /\ ecsv d0 /\ read_table g = Ok i) /\
    (sget "datadict" d0 <> None -> exists f g c, names_file d0 "datadict" f /\ unpickled read_pickle cfg f g c) /\
    (sget "config_dict" d0 <> None -> exists f g c, names_file d0 "config_dict" f /\ unpickled read_pickle cfg f g c /\
                                       put "config_dict" (NVal (PStr g)) c d).
  Proof.
    intros (d1 & d2 & T & D & C). split; [|split]; intros N.
    - destruct T as [[E _]|(f & g & i & ? & ? & ? & ? & _)]; [congruence|eauto 8].
    - assert (E1 : sget "datadict" d1 = sget "datadict" d0) by (eapply kept_before; eauto; discriminate).
      destruct D as [[E _]|(f & g & c & NM & ? & _)]; [congruence|].
      exists f, g, c. split; auto. eapply named_before; eauto; discriminate.
    - assert (E1 : sget "config_dict" d1 = sget "config_dict" d0) by (eapply kept_before; eauto; discriminate).
      assert (E2 : sget "config_dict" d2 = sget "config_dict" d1) by (eapply kept_before2; eauto; discriminate).
      destruct C as [[E _]|(f & g & c & NM & ? & ?)]; [congruence|].
      exists f, g, c. split; auto. eapply named_before; [exact T|discriminate|].
      eapply named_before2; [exact D|discriminate|]. auto.
  Qed.

  (** the string named by an element whose text stands for itself *)
  Lemma named_plain ov st chs ents st' d0 c f s :
    RepSeqF ov st chs ents st' ->
    (forall t, sget t d0 = grouped t (combine (map x_tag chs) ents)) ->
    names_file d0 (x_tag c) f -> In c chs ->
    unit_free c -> x_children c = [] -> text_of c = Some s -> s <> "" -> plain s -> f = s.
  Proof.
    intros RS G NM I [U1 _] NCH T NB PL.
    destruct (named_elem _ _ _ _ _ _ _ _ RS G NM) as (c' & FI & H).
    assert (I' : In c (filter (fun ch => String.eqb (x_tag ch) (x_tag c)) chs))
      by (apply filter_In; split; auto; apply String.eqb_refl).
    rewrite FI in I'. destruct I' as [->|[]].
    destruct (H s T NB) as (s1 & sub & s2 & s3 & e & R & RE).
    destruct RE as (s' & T' & _ & NB'). rewrite T in T'; injection T' as <-.
    destruct (NB' NB) as ((un & U & D) & _).
    destruct un as [u|].
    - exfalso. assert (NU : sget "unit" sub = None).
      { eapply RepF_no_unit; eauto; rewrite NCH; cbn; tauto. }
      rewrite (sget_rev_None _ _ U1), NU in U. destruct U as [?|[? ?]]; discriminate.
    - pose proof (denotes_plain _ _ _ _ PL D). congruence.
  Qed.

  (** no path: nothing sets it *)
  Lemma RepF_nopath ov : no_override ov -> forall x st st' d, RepF ov st x st' d ->
    lacks "ConfigPath" x -> st_cfg st' = st_cfg st.
  Proof.
    intros NO. induction x as [t a tx chs IH] using xml_ind'. intros st st' d R LK.
    inversion R as [? ? ? ? ? ? ents d0 ? RS _ _ _]; subst. clear R.
    assert (LKc : forall c, In c chs -> lacks "ConfigPath" c /\ x_tag c <> "ConfigPath").
    { intros c I. split; [eapply lacks_child; eauto|]. exact (LK _ c (Within_self _) I). }
    clear LK. induction RS as [|st ch chs st1 sub st2 key entry ents st3 R RE RS IHs]; auto.
    inversion IH as [|? ? I1 I2]; subst. rewrite IHs; auto.
    - transitivity (st_cfg st1).
      + destruct RE as (s & T & B & NB). destruct s as [|c s].
        * destruct (B eq_refl) as (_ & -> & _); auto.
        * destruct NB as (_ & E & _); [discriminate|]. rewrite E. unfold path_after.
          destruct (LKc ch) as [_ N]; [cbn; auto|]. apply String.eqb_neq in N. rewrite N.
          destruct NO as [-> | ->]; auto.
      + apply (I1 _ _ _ R). apply LKc; cbn; auto.
    - intros c I; apply LKc; cbn; auto.
  Qed.
  Lemma RepF_within_nopath ov x y : no_override ov -> within x y -> lacks "ConfigPath" x ->
    forall st st' d, RepF ov st x st' d -> exists s1 s2 e, RepF ov s1 y s2 e /\ st_cfg s1 = st_cfg st.
  Proof.
    intros NO. induction 1 as [x|x c y I W IH]; intros LK st st' d H; eauto.
    destruct x as [t a tx chs]. cbn in I.
    assert (exists s1 s2 e, RepF ov s1 c s2 e /\ st_cfg s1 = st_cfg st) as (s1 & s2 & e & R & E).
    { inversion H as [? ? ? ? ? ? ents d0 ? RS _ _ _]; subst.
      assert (LKc : forall c, In c chs -> lacks "ConfigPath" c /\ x_tag c <> "ConfigPath").
      { intros z J. split; [eapply lacks_child; eauto|]. exact (LK _ z (Within_self _) J). }
      clear -RS I NO LKc. induction RS as [|st ch chs st1 sub st2 key entry ents st3 R RE RS IHs]; [destruct I|].
      destruct I as [<-|I]; [eauto|]. destruct IHs as (s1 & s2 & e & R' & E); auto.
      { intros z J; apply LKc; cbn; auto. }
      exists s1, s2, e. split; auto. rewrite E. transitivity (st_cfg st1).
      - destruct RE as (s & T & B & NB). destruct s as [|c0 s].
        + destruct (B eq_refl) as (_ & -> & _); auto.
        + destruct NB as (_ & E' & _); [discriminate|]. rewrite E'. unfold path_after.
          destruct (LKc ch) as [_ N]; [cbn; auto|]. apply String.eqb_neq in N. rewrite N.
          destruct NO as [-> | ->]; auto.
      - eapply RepF_nopath; eauto. apply LKc; cbn; auto. }
    destruct (IH (lacks_child _ _ _ LK I) _ _ _ R) as (s3 & s4 & e' & R' & E'). exists s3, s4, e'. split; auto. congruence.
  Qed.

  (** ** Repeated tags, in any document *)
  Lemma parse_RepSeqF ov t a tx chs st st' d :
    parse ov st (Elem t a tx chs) = (st', Ok d) ->
    exists ents d0, RepSeqF ov st chs ents st' /\
      RegInv (combine (map x_tag chs) ents) d0 /\ attached (st_cfg st') d0 d.
  Proof.
    intros P. rewrite parse_unfold, loop_gather in P.
    destruct (gather ov st chs []) as [st1 [d0|]] eqn:G; [|discriminate]. injection P as <- FN.
    apply (gather_spec ov chs) with (l := []) in G as (ents & RS & LE & INV).
    - exists ents, d0. split; auto. split; auto. apply finish_attached; auto.
    - apply Forall_forall. intros; apply parse_RepF; auto.
    - apply RegInv_nil.
  Qed.

  Lemma repeated_all_keptF ov t a tx chs st st' d tag :
    parse ov st (Elem t a tx chs) = (st', Ok d) ->
    ~ In "config_dict" (map x_tag chs) -> tag <> "data" ->
    (forall ch, In ch chs -> x_tag ch = tag -> is_valued ch = true) ->
    exists ents, RepSeqF ov st chs ents st' /\
      let occ := occurrences tag (combine (map x_tag chs) ents) in
      length occ = length (filter (fun ch => String.eqb (x_tag ch) tag) chs) /\
      (2 <= length occ -> ForallOrdPairs (fun a b => key_eqb b a = false) (map fst occ) ->
       sget tag d = Some (NODict (map (fun ke => (fst ke, NDict (snd ke))) occ))).
  Proof.
    intros P NC ND AV. destruct (parse_RepSeqF _ _ _ _ _ _ _ _ P) as (ents & d0 & RS & (G & NN & KS) & A).
    exists ents. split; auto. cbn zeta.
    pose proof (occurrences_combine tag _ _ _ (RepSeqF_values _ _ _ _ _ RS)) as OV.
    split; [symmetry; eapply Forall2_len; eauto|].
    intros L D. rewrite combine_tags in KS by (eapply RepSeqF_length; eauto).
    assert (EC : sget "config_dict" d0 = None).
    { apply dget_None_notIn; [apply String_eqb_spec|]. rewrite KS. intros I. apply NC.
      exact (proj1 (firsts_In unit_ok read_table read_pickle _ _) I). }
    rewrite (attached_other _ _ _ _ A EC ND). rewrite G. unfold grouped.
    destruct (occurrences tag _) as [|[k e] [|p q]] eqn:EO; cbn in L; try lia.
    inversion OV as [|c ? cs ? H1 H2 EF EO']; subst.
    assert (IC : In c (filter (fun ch => String.eqb (x_tag ch) tag) chs))
      by (rewrite <- EF; cbn; auto).
    apply filter_In in IC as [IC ET]. apply String.eqb_eq in ET.
    cbn in H1. rewrite (H1 (AV _ IC ET)).
    change ((k, NDict e) :: map (fun ke => (fst ke, NDict (snd ke))) (p :: q))
      with (map (fun ke => (fst ke, NDict (snd ke))) ((k, e) :: p :: q)).
    rewrite dof_list_distinct_keys; auto. rewrite map_map. exact D.
  Qed.

  Lemma RepSeqF_blank ov st chs ents st' : RepSeqF ov st chs ents st' ->
    Forall2 (fun ch ke => text_of ch = Some "" -> ~ In "value" (map fst (x_attrs ch)) ->
               ~ In "value" (map x_tag (x_children ch)) ->
               ~ In "config_dict" (map x_tag (x_children ch)) -> sget "value" (snd ke) = None) chs ents.
  Proof.
    induction 1 as [|st ch chs st1 sub st2 key entry ents st3 R RE RS IH]; constructor; auto.
    cbn. intros TX NA NC NK. destruct RE as (s & T & B & _). rewrite TX in T. injection T as <-.
    destruct (B eq_refl) as (_ & _ & G). rewrite G.
    assert (E1 : sget "value" (rev (x_attrs ch)) = None).
    { apply dget_None_notIn; [apply String_eqb_spec|]. rewrite map_rev, <- in_rev; auto. }
    rewrite E1. inversion R as [? ? ? ? ? ? ? d0 ? RS' G' KS A]; subst. cbn in NC, NK.
    assert (Z : forall m, ~ In m (map x_tag chs0) -> sget m d0 = None).
    { intros m N. apply dget_None_notIn; [apply String_eqb_spec|]. rewrite KS. intros I. apply N.
      exact (proj1 (firsts_In unit_ok read_table read_pickle _ _) I). }
    rewrite (attached_other _ _ _ _ A); auto. discriminate.
  Qed.

  Lemma first_without_value_failsF ov t a tx pre c1 mid c2 post st :
    ~ In (x_tag c1) (map x_tag pre) -> x_tag c2 = x_tag c1 ->
    text_of c1 = Some "" -> ~ In "value" (map fst (x_attrs c1)) ->
    ~ In "value" (map x_tag (x_children c1)) -> ~ In "config_dict" (map x_tag (x_children c1)) ->
    forall d, snd (parse ov st (Elem t a tx (pre ++ c1 :: mid ++ c2 :: post))) <> Ok d.
  Proof.
    intros NP ET TX NA NC NK d. destruct (parse ov st _) as [st' r] eqn:P. cbn. intros ->.
    destruct (parse_RepSeqF _ _ _ _ _ _ _ _ P) as (ents & d0 & RS & (G & NN & KS) & _).
    pose proof (occurrences_combine (x_tag c1) _ _ _ (RepSeqF_blank _ _ _ _ _ RS)) as OV.
    rewrite filter_app in OV. cbn [filter] in OV. rewrite String.eqb_refl in OV.
    rewrite filter_app in OV. cbn [filter] in OV. rewrite ET, String.eqb_refl in OV.
    replace (filter (fun ch => String.eqb (x_tag ch) (x_tag c1)) pre) with (@nil xml) in OV.
    2: { clear -NP. induction pre as [|x pre IH]; cbn in *; auto.
         destruct (String.eqb (x_tag x) (x_tag c1)) eqn:E; [apply String.eqb_eq in E; tauto|].
         apply IH; tauto. }
    cbn [app] in OV. specialize (NN (x_tag c1)). unfold grouped in NN.
    inversion OV as [|? [k e] ? l' H1 H2 EF EO]. rewrite <- EO in NN.
    apply NN; [discriminate|]. cbn in H1. rewrite (H1 TX NA NC NK).
    destruct l' as [|? ?]; auto. exfalso.
    inversion H2. destruct (filter _ mid); discriminate.
  Qed.

  Lemma early_placeholderF ov x ch rest s st :
    lacks "config_dict" x -> valued x = ch :: rest -> unit_free ch -> text_of ch = Some s ->
    not_number s -> contains path_mark s = true -> st_cfg st = None ->
    forall d, snd (parse ov st x) <> Ok d.
  Proof.
    intros NF VX UF TX NN CM SC d. destruct (parse ov st x) as [st' r] eqn:P; cbn. intros ->.
    apply parse_TraceF in P as (tr & M & T); auto. rewrite VX in M.
    destruct tr as [|[c v] tr]; [discriminate|]. cbn in M. injection M as -> M.
    inversion T as [|? ? ? ? ? ? TX' _ D _]; subst. rewrite TX in TX'; injection TX' as <-.
    specialize (D UF). rewrite SC in D. inversion D; subst; try discriminate.
    - eapply number_not_not; eauto.
    - congruence.
  Qed.
End L.
