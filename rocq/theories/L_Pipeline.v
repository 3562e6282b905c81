(** Lemmas about observing and saving target lists. *)
From Verif Require Import Base Dict M_Hdf5 S_Hdf5 L_Hdf5 M_Pipeline S_Pipeline.
Open Scope list_scope.

Lemma key_eqb_spec a b : key_eqb a b = true <-> a = b.
Proof.
  destruct a as [x|], b as [y|]; cbn; try (split; congruence).
  rewrite String.eqb_eq. split; congruence.
Qed.


Section Obs.
  Context {Tgt Ch : Type} (name : Tgt -> string) (observe : Ch -> Tgt -> Ch * res Tgt)
          (plotting : Tgt -> res unit).
  Notation ptd := (pipeline_to_dict name observe plotting).
  Notation oseq := (observe_seq name observe plotting).

  (** the entry produced for a target: independent of the logging *)
  Definition entry_of (plot : bool) (ch : Ch) (t : Tgt) : entry Tgt :=
    match snd (observe ch t) with
    | Ok t' => if plot then match plotting t' with Ok _ => (Some (name t'), Some t') | Err _ => (None, None) end
               else (Some (name t'), Some t')
    | Err _ => (None, None)
    end.

  Lemma ptd_eq debug plot ch lv t :
    ptd debug plot (ch, lv) t
    = ((fst (observe ch t), INFO), entry_of plot ch t, if debug then lv else ERROR).
  Proof.
    unfold pipeline_to_dict, entry_of, enableLogging, disableLogging, setLogLevel.
    destruct (observe ch t) as [ch' [t'|e]]; cbn; auto.
    destruct plot; auto. destruct (plotting t'); auto.
  Qed.

  Lemma entry_of_Some plot ch t n t' :
    entry_of plot ch t = (Some n, Some t') <-> succeeds observe plotting plot ch t t' /\ name t' = n.
  Proof.
    unfold entry_of, succeeds. destruct (snd (observe ch t)) as [t1|e].
    - destruct plot.
      + destruct (plotting t1) as [[]|e] eqn:P.
        * split; [intros [= <- <-]; auto|]. intros [[[= <-] _] <-]; auto.
        * split; [discriminate|]. intros [[[= <-] H] _]. rewrite H in P; auto; discriminate.
      + split; [intros [= <- <-]; repeat split; auto; discriminate|]. intros [[[= <-] _] <-]; auto.
    - split; [discriminate|]. intros [[? _] _]; discriminate.
  Qed.
  Lemma entry_of_shape plot ch t :
    entry_of plot ch t = (None, None) \/ exists t', entry_of plot ch t = (Some (name t'), Some t').
  Proof.
    unfold entry_of. destruct (snd (observe ch t)); auto. destruct plot; eauto.
    destruct (plotting _); eauto.
  Qed.
  Lemma entry_of_None plot ch t :
    entry_of plot ch t = (None, None) <-> forall t', ~ succeeds observe plotting plot ch t t'.
  Proof.
    split.
    - intros E t' S. assert (H : entry_of plot ch t = (Some (name t'), Some t')) by (apply entry_of_Some; auto).
      congruence.
    - intros N. destruct (entry_of_shape plot ch t) as [|[t' E]]; auto.
      apply entry_of_Some in E as [S _]. destruct (N _ S).
  Qed.

  Fixpoint entries (plot : bool) (ch : Ch) (ts : list Tgt) : list (entry Tgt) :=
    match ts with
    | [] => []
    | t :: ts' => entry_of plot ch t :: entries plot (fst (observe ch t)) ts'
    end.

  Lemma oseq_gen debug plot ts : forall ch lv out lvls,
    oseq debug plot ts (ch, lv) out lvls =
    ((channels_after observe ch ts, match ts with [] => lv | _ => INFO end),
     dupdate key_eqb out (entries plot ch ts),
     lvls ++ match ts with [] => [] | _ :: ts' => (if debug then lv else ERROR)
              :: repeat (if debug then INFO else ERROR) (length ts') end).
  Proof.
    induction ts as [|t ts IH]; intros ch lv out lvls.
    - cbn. rewrite app_nil_r. reflexivity.
    - cbn [observe_seq]. rewrite ptd_eq. destruct (entry_of plot ch t) as [k v] eqn:E.
      rewrite IH. cbn [entries channels_after]. rewrite E. f_equal; [f_equal|].
      + destruct ts; auto.
      + rewrite <- app_assoc. f_equal. cbn. f_equal. destruct ts; cbn; auto.
  Qed.

  Lemma entries_length plot ts : forall ch, length (entries plot ch ts) = length ts.
  Proof. induction ts; cbn; auto. Qed.
  Lemma entries_nth plot ts : forall ch i, nth_error (entries plot ch ts) i =
    match nth_error ts i with
    | Some t => Some (entry_of plot (channels_after observe ch (firstn i ts)) t)
    | None => None
    end.
  Proof.
    induction ts as [|t ts IH]; intros ch [|i]; cbn; auto.
  Qed.

  Lemma entries_indep plot ts : (forall ch ch' t, snd (observe ch t) = snd (observe ch' t)) ->
    forall ch, entries plot ch ts = map (entry_of plot ch) ts.
  Proof.
    intros H. assert (E : forall ch ch' t, entry_of plot ch t = entry_of plot ch' t).
    { intros ch ch' t. unfold entry_of. rewrite (H ch ch'); auto. }
    induction ts as [|t ts IH]; intros ch; cbn; auto. f_equal. rewrite IH.
    apply map_ext. intros; apply E.
  Qed.

  (** ** The pool *)
  Lemma set_nth_split {A} i (x y : A) l : nth_error l i = Some y ->
    exists l1 l2, l = l1 ++ y :: l2 /\ set_nth i x l = l1 ++ x :: l2 /\ length l1 = i.
  Proof.
    intros H. apply nth_error_split in H as (l1 & l2 & -> & <-). exists l1, l2. split; auto. split; auto.
    unfold set_nth. rewrite firstn_app, firstn_all, Nat.sub_diag. cbn [firstn]. rewrite app_nil_r.
    f_equal. f_equal. change (l1 ++ y :: l2) with (l1 ++ [y] ++ l2). rewrite app_assoc.
    rewrite skipn_app. rewrite skipn_all2 by (rewrite app_length; cbn; lia).
    rewrite app_length; cbn [length app]. replace (S (length l1) - (length l1 + 1)) with 0 by lia. reflexivity.
  Qed.

  Section Pool.
    Variables (debug plot : bool) (ch : Ch) (ts : list Tgt).
    Notation step := (pstep name observe plotting debug plot ch ts).
    Notation steps := (psteps name observe plotting debug plot ch ts).
    Implicit Types p q : pool Tgt.

    Record inv (n_thread : nat) p : Prop := {
      i_fin : forall i e, In (i, e) (finished p) ->
                exists t, nth_error ts i = Some t /\ e = entry_of plot ch t;
      i_out : out_dict p = dof_list key_eqb (map (entry_of plot ch) (firstn (collected p) ts));
      i_col : collected p <= length ts;
      i_queue : forall i, In i (queue p) -> i < length ts;
      i_run : forall i lv, In (Some i, lv) (workers p) -> i < length ts;
      i_all : forall i, i < length ts ->
                In i (queue p) \/ (exists lv, In (Some i, lv) (workers p)) \/ (exists e, In (i, e) (finished p));
      i_w : length (workers p) = n_thread }.

    Lemma inv0 n lv : inv n (pool0 n lv (length ts)).
    Proof.
      constructor; cbn; try tauto; try lia; auto.
      - intros i I. apply in_seq in I; lia.
      - intros i l I. apply repeat_spec in I. discriminate.
      - intros i L. left. apply in_seq; lia.
      - apply repeat_length.
    Qed.

    Lemma firstn_snoc {A} n (l : list A) x : nth_error l n = Some x -> firstn (S n) l = firstn n l ++ [x].
    Proof.
      revert l; induction n; intros [|a l]; cbn; try discriminate.
      - intros [= ->]; auto.
      - intros H. f_equal. apply IHn; auto.
    Qed.

    Lemma inv_step n p q : inv n p -> step p q -> inv n q.
    Proof.
      intros [F O C Q R A W] S. destruct S as [p w lv i q NW EQ|p w lv i t st' e l NW NT PT|p k v I].
      - destruct (set_nth_split w (Some i, lv) _ _ NW) as (l1 & l2 & E & E' & LL).
        constructor; cbn [queue workers finished collected out_dict]; auto.
        + intros j I. apply Q. rewrite EQ; cbn; auto.
        + intros j lv' I. rewrite E' in I. apply in_app_or in I as [I|[I|I]].
          * eapply R. rewrite E. apply in_or_app; eauto.
          * injection I as -> <-. apply Q. rewrite EQ; cbn; auto.
          * eapply R. rewrite E. apply in_or_app; cbn; eauto.
        + intros j L. destruct (A j L) as [I|[[lv' I]|I]]; auto.
          * rewrite EQ in I. destruct I as [<-|I]; auto. right; left. exists lv. rewrite E'.
            apply in_or_app; cbn; auto.
          * right; left. exists lv'. rewrite E'. rewrite E in I. apply in_app_or in I as [I|[I|I]].
            -- apply in_or_app; auto.
            -- discriminate.
            -- apply in_or_app; cbn; auto.
        + rewrite E'. rewrite E in W. rewrite app_length in *; cbn in *; auto.
      - rewrite ptd_eq in PT. injection PT as <- <- <-. cbn [snd].
        destruct (set_nth_split w (None, INFO) _ _ NW) as (l1 & l2 & E & E' & LL).
        constructor; cbn [queue workers finished collected out_dict]; auto.
        + intros j e [I|I]; auto. injection I as <- <-. eauto.
        + intros j lv' I. rewrite E' in I. apply in_app_or in I as [I|[I|I]].
          * eapply R. rewrite E. apply in_or_app; eauto.
          * discriminate.
          * eapply R. rewrite E. apply in_or_app; cbn; eauto.
        + intros j L. destruct (A j L) as [I|[[lv' I]|[e I]]]; auto.
          * rewrite E in I. apply in_app_or in I as [I|[I|I]].
            -- right; left. exists lv'. rewrite E'. apply in_or_app; auto.
            -- injection I as -> ->. right; right. eexists; cbn; eauto.
            -- right; left. exists lv'. rewrite E'. apply in_or_app; cbn; auto.
          * right; right. exists e; cbn; auto.
        + rewrite E'. rewrite E in W. rewrite app_length in *; cbn in *; auto.
      - destruct (F _ _ I) as (t & NT & E).
        constructor; cbn [queue workers finished collected out_dict]; auto.
        + rewrite (firstn_snoc _ _ _ NT), map_app. unfold dof_list. rewrite dupdate_app.
          rewrite O. cbn. rewrite <- E. reflexivity.
        + apply nth_error_Some. congruence.
    Qed.
    Lemma inv_steps n p q : inv n p -> steps p q -> inv n q.
    Proof. intros I S; revert I; induction S; eauto using inv_step. Qed.

    Lemma inv_done n p : inv n p -> collected p = length ts ->
      out_dict p = dof_list key_eqb (map (entry_of plot ch) ts).
    Proof. intros I E. rewrite (i_out _ _ I), E, firstn_all. reflexivity. Qed.

    Lemma inv_progress n p : inv n p -> 0 < n -> collected p < length ts -> exists q, step p q.
    Proof.
      intros [F O C Q R A W] N L.
      assert (FIN : forall i lv, In (Some i, lv) (workers p) -> exists q, step p q).
      { intros i lv I. pose proof (R _ _ I) as LT. apply In_nth_error in I as [w I].
        destruct (nth_error ts i) as [t|] eqn:E; [|apply nth_error_None in E; lia].
        eexists. eapply P_finish; eauto. apply ptd_eq. }
      destruct (A _ L) as [I|[[lv I]|[e I]]]; eauto.
      - destruct (queue p) as [|i q] eqn:EQ; [destruct I|].
        destruct (workers p) as [|[[j|] lv] ws] eqn:EW; [cbn in W; lia| |].
        + apply (FIN j lv); cbn; auto.
        + eexists. eapply P_start with (w := 0); eauto. rewrite EW; reflexivity.
      - destruct e as [k v]. eexists. eapply P_collect; eauto.
    Qed.

    Definition busy (w : option nat * level) : bool := match fst w with Some _ => true | None => false end.
    Definition measure p := 3 * length (queue p) + 2 * length (filter busy (workers p)) + (length ts - collected p).

    Lemma measure_step n p q : inv n p -> step p q -> measure q < measure p.
    Proof.
      intros [F O C Q R A W] S. unfold measure.
      destruct S as [p w lv i q NW EQ|p w lv i t st' e l NW NT PT|p k v I];
        cbn [queue workers finished collected out_dict].
      - destruct (set_nth_split w (Some i, lv) _ _ NW) as (l1 & l2 & -> & -> & LL).
        rewrite EQ. rewrite !filter_app, !app_length. cbn. lia.
      - destruct (set_nth_split w (None, snd st') _ _ NW) as (l1 & l2 & -> & -> & LL).
        rewrite !filter_app, !app_length. cbn. lia.
      - destruct (F _ _ I) as (t & NT & E).
        assert (collected p < length ts) by (apply nth_error_Some; congruence). lia.
    Qed.
  End Pool.
End Obs.

(** ** Saving *)
Section Save.
  Context {V : Type}.
  Notation file := (list (string * h5 V)).
  Notation dict := (list (string * item V)).
  Implicit Types (f g : file) (d : dict).

  Lemma in_group_keeps {A} g key (F : file -> file * res A) g' r :
    (forall s s' r, F s = (s', r) -> keeps (G s) (G s')) ->
    in_group g key F = (g', r) -> keeps (G g) (G g').
  Proof.
    intros H. unfold in_group. destruct (sget key g) as [[x|s0]|] eqn:E.
    - intros [= <- <-]; apply keeps_refl.
    - destruct (F s0) as [s r'] eqn:S. intros [= <- <-]. eapply keeps_sset; eauto.
    - destruct (F []) as [s r']. intros [= <- <-]; apply keeps_app.
  Qed.
  Lemma in_group_other {A} g key (F : file -> file * res A) g' r k :
    k <> key -> in_group g key F = (g', r) -> sget k g' = sget k g.
  Proof.
    intros N. unfold in_group. destruct (sget key g) as [[x|s0]|] eqn:E.
    - intros [= <- <-]; auto.
    - destruct (F s0) as [s r'] eqn:S. intros [= <- <-]. apply dget_dset_other; auto. apply String_eqb_spec.
    - destruct (F []) as [s r']. intros [= <- <-]. rewrite sget_app. destruct (sget k g); auto.
      cbn. apply String.eqb_neq in N. rewrite N; auto.
  Qed.
  Lemma in_group_ok {A} g key (F : file -> file * res A) g' a :
    in_group g key F = (g', Ok a) ->
    exists s0 s, F s0 = (s, Ok a) /\ sget key g' = Some (G s) /\
       (sget key g = Some (G s0) \/ (sget key g = None /\ s0 = [])).
  Proof.
    unfold in_group. destruct (sget key g) as [[x|s0]|] eqn:E; [discriminate| |].
    - destruct (F s0) as [s r'] eqn:S. intros [= <- ->]. exists s0, s. repeat split; auto.
      apply dget_dset_same, String_eqb_spec.
    - destruct (F []) as [s r'] eqn:S. intros [= <- ->]. exists [], s. repeat split; auto.
      rewrite sget_app, E. cbn. rewrite String.eqb_refl; auto.
  Qed.

  Lemma write_target_keeps f n d f' r : write_target f n d = (f', r) -> keeps (G f) (G f').
  Proof. apply in_group_keeps. intros; eapply store_dictionary_keeps; eauto. Qed.

  Lemma store_named_other g d n g' r k : k <> n -> store_dictionary g d (Some n) = (g', r) ->
    sget k g' = sget k g.
  Proof.
    intros N. rewrite store_dictionary_eq. unfold into_group. destruct (sget n g) as [[x|s0]|] eqn:E.
    - destruct d as [|[? ?] ?]; intros [= <- <-]; auto.
    - destruct (save_dict s0 d) as [s r']. intros [= <- <-]. apply dget_dset_other; auto. apply String_eqb_spec.
    - destruct (save_dict [] d) as [s r']. intros [= <- <-]. rewrite sget_app. destruct (sget k g); auto.
      cbn. apply String.eqb_neq in N. rewrite N; auto.
  Qed.

  Lemma write_target_other f n d f' r k : k <> n -> write_target f n d = (f', r) ->
    at_ ["targets"; k] (G f') = at_ ["targets"; k] (G f).
  Proof.
    intros N. unfold write_target, in_group. cbn [at_].
    destruct (sget "targets" f) as [[x|s0]|] eqn:E.
    - intros [= <- <-]. rewrite E; auto.
    - destruct (store_dictionary s0 d (Some n)) as [s r'] eqn:S. intros [= <- <-].
      rewrite dget_dset_same by apply String_eqb_spec. rewrite (store_named_other _ _ _ _ _ _ N S); auto.
    - destruct (store_dictionary [] d (Some n)) as [s r'] eqn:S. intros [= <- <-].
      rewrite sget_app, E. cbn [dget]. rewrite String.eqb_refl.
      rewrite (store_named_other _ _ _ _ _ _ N S); auto.
  Qed.

  Lemma write_target_ok f n d f' p x : write_target f n d = (f', Ok tt) -> wants d p x ->
    at_ ("targets" :: n :: p) (G f) = None /\ at_ ("targets" :: n :: p) (G f') = Some (D x).
  Proof.
    intros H W. unfold write_target in H.
    destruct (in_group_ok _ _ _ _ _ H) as (s0 & s & S & E1 & E0).
    rewrite store_dictionary_eq in S.
    destruct (into_group_ok _ _ _ _ S (wants_nonempty _ _ _ W)) as (t0 & t1 & T & G1 & G0).
    destruct (save_dict_wants _ _ _ W _ _ T) as [N Y]. cbn [at_].
    rewrite E1, G1. split; auto.
    destruct E0 as [-> | [-> ->]]; auto. destruct G0 as [-> | [-> _]]; auto.
  Qed.

  Lemma open_keeps (prev : option file) info f r : open_file prev true info = (f, r) ->
    match prev with Some f0 => keeps (G f0) (G f) | None => True end.
  Proof. destruct prev; auto. apply open_file_append. Qed.

  Lemma open_other (prev : option file) info f r k : open_file prev true info = (f, r) -> k <> "info" ->
    sget k f = match prev with Some f0 => sget k f0 | None => None end.
  Proof.
    unfold open_file. set (b := match prev with Some f0 => f0 | None => [] end).
    assert (B : match prev with Some f0 => sget k f0 | None => None end = sget k b) by (destruct prev; auto).
    rewrite B. clear B. cbn [negb orb]. intros H N. unfold dmem in H.
    destruct (sget "info" b) as [x|] eqn:E; cbn [negb] in H.
    - injection H as <- <-; auto.
    - destruct (store_dictionary _ _ _) as [s r']. injection H as <- <-.
      rewrite sget_app. destruct (sget k b); auto. cbn. apply String.eqb_neq in N. rewrite N; auto.
  Qed.

  Lemma okeeps_trans (a b c : option file) : okeeps a b -> okeeps b c -> okeeps a c.
  Proof.
    destruct a as [x|]; cbn; auto. intros (y & -> & K). cbn. intros (z & -> & K').
    exists z; split; auto. eapply keeps_trans; eauto.
  Qed.

  Lemma save_targets_keeps info es : forall (prev f : option file) r, save_targets prev info es = (f, r) -> okeeps prev f.
  Proof.
    induction es as [|[k v] es IH]; intros prev f r; cbn [save_targets].
    - intros [= <- <-]. destruct prev; cbn; eauto using keeps_refl.
    - destruct (open_file prev true info) as [f1 [u|e]] eqn:O; apply open_keeps in O.
      + assert (K1 : okeeps prev (Some f1)) by (destruct prev; cbn; eauto).
        destruct v as [d|].
        * destruct (write_target f1 _ d) as [f2 [u2|e]] eqn:W; apply write_target_keeps in W.
          -- intros H. apply IH in H. eapply okeeps_trans; [exact K1|].
             eapply okeeps_trans; [|exact H]. cbn; eauto.
          -- intros [= <- <-]. eapply okeeps_trans; [exact K1|]. cbn; eauto.
        * intros [= <- <-]; auto.
      + intros [= <- <-]. destruct prev; cbn; eauto.
  Qed.

  Lemma save_targets_app info es1 : forall (prev : option file) es2,
    save_targets prev info (es1 ++ es2) =
    match save_targets prev info es1 with
    | (f, Ok _) => save_targets f info es2
    | (f, Err e) => (f, Err e)
    end.
  Proof.
    induction es1 as [|[k v] es1 IH]; intros prev es2; cbn [save_targets app]; auto.
    destruct (open_file prev true info) as [f1 [u|e]]; auto. destruct v as [d|]; auto.
    destruct (write_target f1 _ d) as [f2 [u2|e]]; auto.
  Qed.

  Lemma okeeps_at (a b : option file) p x : okeeps a b -> file_at p a = Some (D x) -> file_at p b = Some (D x).
  Proof. destruct a as [f|]; cbn; [|discriminate]. intros (y & -> & K) H. apply K; auto. Qed.

  (** where the names come from *)
  Lemma save_targets_names info es n : forall (prev f : option file) r,
    save_targets prev info es = (f, r) -> ~ In (Some n) (map fst es) ->
    (n = "None" -> ~ In None (map fst es)) ->
    file_at ["targets"; n] f = file_at ["targets"; n] prev.
  Proof.
    induction es as [|[k v] es IH]; intros prev f r; cbn [save_targets map fst In].
    - intros [= <- <-]; auto.
    - intros H N1 N2.
      assert (NK : n <> match k with Some s => s | None => "None" end).
      { destruct k as [s|]; [intros ->; tauto|]. intros E. apply (N2 E); auto. }
      destruct (open_file prev true info) as [f1 r1] eqn:O.
      assert (E1 : file_at ["targets"; n] (Some f1) = file_at ["targets"; n] prev).
      { cbn. rewrite (open_other _ _ _ _ "targets" O) by discriminate. destruct prev; auto. }
      destruct r1 as [u|e]; [|injection H as <- <-; auto].
      destruct v as [d|]; [|injection H as <- <-; auto].
      destruct (write_target f1 _ d) as [f2 r2] eqn:W.
      assert (E2 : file_at ["targets"; n] (Some f2) = file_at ["targets"; n] (Some f1)).
      { exact (write_target_other _ _ _ _ _ _ NK W). }
      destruct r2 as [u2|e]; [|injection H as <- <-; congruence].
      rewrite (IH _ _ _ H); [congruence|tauto|intros E C; apply (N2 E); auto].
  Qed.

  (** after saving without error every target is there *)
  Lemma save_targets_ok info es : forall (prev f : option file), save_targets prev info es = (f, Ok tt) ->
    forall n d p x, In (Some n, Some d) es -> wants d p x -> file_at ("targets" :: n :: p) f = Some (D x).
  Proof.
    induction es as [|[k v] es IH]; intros prev f; cbn [save_targets In]; [tauto|].
    intros H n d p x I W.
    destruct (open_file prev true info) as [f1 [u|e]] eqn:O; [|discriminate].
    destruct v as [d'|]; [|discriminate].
    destruct (write_target f1 _ d') as [f2 [[]|e]] eqn:WT; [|discriminate].
    destruct I as [I|I]; [|eauto].
    injection I as -> ->. apply save_targets_keeps in H. eapply okeeps_at; [exact H|].
    cbn [file_at]. eapply write_target_ok; eauto.
  Qed.

  Lemma write_channel_keeps g (c : channel V) g' r : write_channel g c = (g', r) -> keeps (G g) (G g').
  Proof.
    unfold write_channel. destruct (c_built c) as [[t b]|e]; [|intros [= <- <-]; apply keeps_refl].
    apply in_group_keeps. intros s s' r' E. unfold then_ in E.
    change (write_table s (c_name c) t) with (store_thing s (c_name c) (ITab t)) in E.
    destruct (store_thing s (c_name c) (ITab t)) as [s1 [u|e]] eqn:S1; apply store_thing_keeps in S1;
      [|injection E as <- <-; auto].
    eapply keeps_trans; [exact S1|].
    destruct (store_dictionary s1 (c_descr c) (Some "description")) as [s2 [u2|e]] eqn:S2;
      apply store_dictionary_keeps in S2; [|injection E as <- <-; auto].
    eapply keeps_trans; [exact S2|]. eapply store_dictionary_keeps; eauto.
  Qed.
  Lemma write_channels_keeps (cs : list (channel V)) : forall g g' r,
    write_channels g cs = (g', r) -> keeps (G g) (G g').
  Proof.
    induction cs as [|c cs IH]; intros g g' r; cbn [write_channels].
    - intros [= <- <-]; apply keeps_refl.
    - unfold then_. destruct (write_channel g c) as [g1 [u|e]] eqn:W; apply write_channel_keeps in W.
      + intros H. apply IH in H. eapply keeps_trans; eauto.
      + intros [= <- <-]; auto.
  Qed.
  Lemma build_channels_keeps f payload (cs : list (channel V)) f' r :
    build_channels f payload cs = (f', r) -> keeps (G f) (G f').
  Proof.
    unfold build_channels. apply in_group_keeps. intros s s' r' E. unfold then_ in E.
    destruct (store_dictionary s payload _) as [s1 [u|e]] eqn:S1; apply store_dictionary_keeps in S1;
      [|injection E as <- <-; auto].
    eapply keeps_trans; [exact S1|]. apply in_group_keeps in E; auto.
    intros; eapply write_channels_keeps; eauto.
  Qed.
  Lemma build_channels_ok f payload (cs : list (channel V)) f' p x :
    build_channels f payload cs = (f', Ok tt) -> wants payload p x ->
    at_ ("payload" :: "payload description" :: p) (G f) = None /\
    at_ ("payload" :: "payload description" :: p) (G f') = Some (D x).
  Proof.
    intros H W. unfold build_channels in H.
    destruct (in_group_ok _ _ _ _ _ H) as (s0 & s & S & E1 & E0).
    unfold then_ in S.
    destruct (store_dictionary s0 payload _) as [s1 [[]|e]] eqn:S1; [|discriminate].
    apply in_group_keeps in S; [|intros; eapply write_channels_keeps; eauto].
    rewrite store_dictionary_eq in S1.
    destruct (into_group_ok _ _ _ _ S1 (wants_nonempty _ _ _ W)) as (t0 & t1 & T & G1 & G0).
    destruct (save_dict_wants _ _ _ W _ _ T) as [N Y].
    assert (A1 : at_ ("payload description" :: p) (G s1) = Some (D x)) by (cbn [at_]; rewrite G1; auto).
    apply S in A1. split.
    - cbn [at_]. destruct E0 as [-> | [-> ->]]; auto. destruct G0 as [-> | [-> _]]; auto.
    - cbn [at_]. rewrite E1. exact A1.
  Qed.
End Save.
