(** C37-C41: observing a target list, saving the results. *)
From Verif Require Import Base Dict M_Hdf5 S_Hdf5 L_Hdf5 M_Pipeline S_Pipeline L_Pipeline.
Open Scope list_scope.

(** C37: the result dictionary. Under each name the last successful observation... *)
Theorem C37_results_under_their_names :
  forall (Tgt Ch : Type) (name : Tgt -> string) (observe : Ch -> Tgt -> Ch * res Tgt) plotting
         debug plot ts ch lv st out lvls,
    observe_seq name observe plotting debug plot ts (ch, lv) [] [] = (st, out, lvls) ->
    forall n t',
      dget key_eqb (Some n) out = Some (Some t') <->
      exists i, ith_succeeds observe plotting plot ch ts i t' /\ name t' = n /\
        forall j t'', i < j -> ith_succeeds observe plotting plot ch ts j t'' -> name t'' <> n.
Proof.
  intros Tgt Ch name observe plotting debug plot ts ch lv st out lvls H n t'.
  rewrite oseq_gen in H. injection H as <- <- <-. fold (dof_list key_eqb (entries name observe plotting plot ch ts)).
  rewrite (dget_dof_list _ key_eqb_spec). split.
  - intros (i & E & N). exists i. rewrite entries_nth in E.
    destruct (nth_error ts i) as [t|] eqn:ET; [|discriminate]. injection E as E.
    apply entry_of_Some in E as [S NM]. split; [exists t; auto|]. split; auto.
    intros j t'' L (t2 & E2 & S2) NM2. apply (N j (Some t'') L). rewrite entries_nth, E2. f_equal.
    apply entry_of_Some; auto.
  - intros (i & (t & ET & S) & NM & N). exists i. split.
    + rewrite entries_nth, ET. f_equal. apply entry_of_Some; auto.
    + intros j v L. rewrite entries_nth. destruct (nth_error ts j) as [t2|] eqn:E2; [|discriminate].
      intros [= E]. destruct (entry_of_shape name observe plotting plot (channels_after observe ch (firstn j ts)) t2) as [E3|[t3 E3]];
        rewrite E3 in E; [discriminate|]. injection E as NM3 _.
      apply (N j t3 L); auto. exists t2. split; auto. apply entry_of_Some in E3 as [S3 _]; auto.
Qed.
Print Assumptions C37_results_under_their_names.

(** ... no name otherwise, one None entry iff something failed ... *)
Theorem C37_failures_share_one_entry :
  forall (Tgt Ch : Type) (name : Tgt -> string) (observe : Ch -> Tgt -> Ch * res Tgt) plotting
         debug plot ts ch lv st out lvls,
    observe_seq name observe plotting debug plot ts (ch, lv) [] [] = (st, out, lvls) ->
    NoDup (map fst out) /\
    (forall n, In (Some n) (map fst out) <->
       exists i t', ith_succeeds observe plotting plot ch ts i t' /\ name t' = n) /\
    (In None (map fst out) <-> exists i, ith_fails observe plotting plot ch ts i) /\
    (forall v, dget key_eqb None out = Some v -> v = None).
Proof.
  intros Tgt Ch name observe plotting debug plot ts ch lv st out lvls H.
  rewrite oseq_gen in H. injection H as <- <- <-.
  set (es := entries name observe plotting plot ch ts).
  assert (K : forall k, In k (map fst (dupdate key_eqb [] es)) <-> In k (map fst es)).
  { intros k. rewrite (dupdate_In_keys _ key_eqb_spec). cbn. tauto. }
  assert (I : forall k, In k (map fst es) <-> exists i t, nth_error ts i = Some t /\
              fst (entry_of name observe plotting plot (channels_after observe ch (firstn i ts)) t) = k).
  { intros k. rewrite in_map_iff. split.
    - intros (e & E & J). apply In_nth_error in J as [i J]. unfold es in J. rewrite entries_nth in J.
      destruct (nth_error ts i) as [t|] eqn:ET; [|discriminate]. injection J as <-. eauto.
    - intros (i & t & ET & E). eexists; split; [exact E|]. eapply nth_error_In with (n := i).
      unfold es. rewrite entries_nth, ET. reflexivity. }
  split; [apply (dupdate_NoDup _ key_eqb_spec); constructor|]. split; [|split].
  - intros n. rewrite K, I. split.
    + intros (i & t & ET & E).
      destruct (entry_of_shape name observe plotting plot (channels_after observe ch (firstn i ts)) t) as [E3|[t3 E3]];
        rewrite E3 in E; cbn in E; [discriminate|]. injection E as E.
      apply entry_of_Some in E3 as [S _]. exists i, t3. split; auto. exists t; auto.
    + intros (i & t' & (t & ET & S) & NM). exists i, t. split; auto.
      rewrite (proj2 (entry_of_Some name observe plotting plot _ t n t')); auto.
  - rewrite K, I. split.
    + intros (i & t & ET & E).
      destruct (entry_of_shape name observe plotting plot (channels_after observe ch (firstn i ts)) t) as [E3|[t3 E3]];
        rewrite E3 in E; cbn in E; [|discriminate].
      exists i. split; [apply nth_error_Some; congruence|]. intros t' (t0 & E0 & S).
      assert (t0 = t) by congruence; subst. exact (proj1 (entry_of_None name observe plotting plot _ t) E3 _ S).
    + intros (i & L & N). destruct (nth_error ts i) as [t|] eqn:ET; [|apply nth_error_None in ET; lia].
      exists i, t. split; auto. rewrite (proj2 (entry_of_None name observe plotting plot _ t)); auto.
      intros t' S. apply (N t'). exists t; auto.
  - intros v E. apply (dget_dof_list _ key_eqb_spec) in E as (i & E & _). unfold es in E.
    rewrite entries_nth in E. destruct (nth_error ts i) as [t|]; [|discriminate]. injection E as E.
    destruct (entry_of_shape name observe plotting plot (channels_after observe ch (firstn i ts)) t) as [E3|[t3 E3]];
      rewrite E3 in E; congruence.
Qed.
Print Assumptions C37_failures_share_one_entry.

(** ... in list order: names of the results in the order of their first occurrence. *)
Theorem C37_list_order :
  forall (Tgt Ch : Type) (name : Tgt -> string) (observe : Ch -> Tgt -> Ch * res Tgt) plotting
         debug plot ts ch lv st out lvls,
    observe_seq name observe plotting debug plot ts (ch, lv) [] [] = (st, out, lvls) ->
    exists ks, map fst out = firsts key_eqb ks /\ length ks = length ts /\
      forall i k, nth_error ks i = Some k ->
        (k = None /\ ith_fails observe plotting plot ch ts i) \/
        (exists t', k = Some (name t') /\ ith_succeeds observe plotting plot ch ts i t').
Proof.
  intros Tgt Ch name observe plotting debug plot ts ch lv st out lvls H.
  rewrite oseq_gen in H. injection H as <- <- <-.
  exists (map fst (entries name observe plotting plot ch ts)). split; [|split].
  - apply keys_dof_list.
  - rewrite map_length. apply entries_length.
  - intros i k E. rewrite nth_error_map, entries_nth in E.
    destruct (nth_error ts i) as [t|] eqn:ET; cbn in E; [|discriminate]. injection E as <-.
    destruct (entry_of_shape name observe plotting plot (channels_after observe ch (firstn i ts)) t) as [E3|[t3 E3]];
      rewrite E3; cbn.
    + left. split; auto. split; [apply nth_error_Some; congruence|]. intros t' (t0 & E0 & S).
      assert (t0 = t) by congruence; subst. exact (proj1 (entry_of_None name observe plotting plot _ t) E3 _ S).
    + right. exists t3. split; auto. exists t; split; auto. apply entry_of_Some in E3 as [S _]; auto.
Qed.
Print Assumptions C37_list_order.

(** A failing target leaves no trace on the others: when observations do not depend on what
    was done before with the channels, each target's outcome is that of observing it alone. *)
Theorem C37_outcomes_do_not_depend_on_neighbours :
  forall (Tgt Ch : Type) (observe : Ch -> Tgt -> Ch * res Tgt) (plotting : Tgt -> res unit) plot ts ch i t t',
    (forall ch ch' t, snd (observe ch t) = snd (observe ch' t)) ->
    nth_error ts i = Some t ->
    ith_succeeds observe plotting plot ch ts i t' <-> ith_succeeds observe plotting plot ch [t] 0 t'.
Proof.
  intros Tgt Ch observe plotting plot ts ch i t t' IND E. unfold ith_succeeds, succeeds. split.
  - intros (t0 & E0 & S & P). exists t. assert (t0 = t) by congruence; subst. split; auto. split; auto.
    rewrite <- S. apply IND.
  - intros (t0 & E0 & S & P). cbn in E0. injection E0 as <-. exists t. split; auto. split; auto.
    rewrite <- S. apply IND.
Qed.
Print Assumptions C37_outcomes_do_not_depend_on_neighbours.

Example C37_ex : (* the middle target fails, the last repeats a name *)
  observe_seq (Tgt := string * nat) (Ch := unit) fst
    (fun ch t => (ch, if Nat.eqb (snd t) 0 then Err ValueError else Ok t)) (fun _ => Ok tt)
    false false [("a", 1); ("b", 0); ("c", 2); ("a", 3)] (tt, INFO) [] []
  = ((tt, INFO), [(Some "a", Some ("a", 3)); (None, None); (Some "c", Some ("c", 2))],
     [ERROR; ERROR; ERROR; ERROR]).
Proof. reflexivity. Qed.

(** C38: every complete schedule of the pool gives the same dictionary: that of observing
    each target with the initial channels. *)
Theorem C38_any_schedule_gives_the_same_dictionary :
  forall (Tgt Ch : Type) (name : Tgt -> string) (observe : Ch -> Tgt -> Ch * res Tgt) plotting
         debug plot ch lv n_thread ts p q,
    psteps name observe plotting debug plot ch ts (pool0 n_thread lv (length ts)) p ->
    psteps name observe plotting debug plot ch ts (pool0 n_thread lv (length ts)) q ->
    collected p = length ts -> collected q = length ts -> out_dict p = out_dict q.
Proof.
  intros Tgt Ch name observe plotting debug plot ch lv n ts p q P Q CP CQ.
  pose proof (inv0 name observe plotting plot ch ts n lv) as I0.
  rewrite (inv_done name observe plotting plot ch ts n p),
          (inv_done name observe plotting plot ch ts n q); auto; eapply inv_steps; eauto.
Qed.
Print Assumptions C38_any_schedule_gives_the_same_dictionary.

(** ... equal to the sequential one when outcomes do not depend on the state of the channels. *)
Theorem C38_parallel_equals_sequential :
  forall (Tgt Ch : Type) (name : Tgt -> string) (observe : Ch -> Tgt -> Ch * res Tgt) plotting
         debug plot ch lv n_thread ts p st out lvls,
    (forall ch ch' t, snd (observe ch t) = snd (observe ch' t)) ->
    psteps name observe plotting debug plot ch ts (pool0 n_thread lv (length ts)) p ->
    collected p = length ts ->
    observe_seq name observe plotting debug plot ts (ch, lv) [] [] = (st, out, lvls) ->
    out_dict p = out.
Proof.
  intros Tgt Ch name observe plotting debug plot ch lv n ts p st out lvls IND P CP S.
  rewrite oseq_gen in S. injection S as <- <- <-. rewrite entries_indep by auto.
  apply (inv_done name observe plotting plot ch ts n); auto.
  eapply inv_steps; [apply inv0|exact P].
Qed.
Print Assumptions C38_parallel_equals_sequential.

(** The same when observing leaves the channels alone. *)
Theorem C38_parallel_equals_sequential_unmodified :
  forall (Tgt Ch : Type) (name : Tgt -> string) (observe : Ch -> Tgt -> Ch * res Tgt) plotting
         debug plot ch lv n_thread ts p st out lvls,
    (forall t, In t ts -> fst (observe ch t) = ch) ->
    psteps name observe plotting debug plot ch ts (pool0 n_thread lv (length ts)) p ->
    collected p = length ts ->
    observe_seq name observe plotting debug plot ts (ch, lv) [] [] = (st, out, lvls) ->
    out_dict p = out.
Proof.
  intros Tgt Ch name observe plotting debug plot ch lv n ts p st out lvls UN P CP S.
  rewrite oseq_gen in S. injection S as <- <- <-.
  assert (E : entries name observe plotting plot ch ts = map (entry_of name observe plotting plot ch) ts).
  { clear - UN. induction ts as [|t ts IH]; cbn; auto. rewrite (UN t) by (cbn; auto).
    f_equal. apply IH. intros; apply UN; cbn; auto. }
  rewrite E. apply (inv_done name observe plotting plot ch ts n); auto.
  eapply inv_steps; [apply inv0|exact P].
Qed.
Print Assumptions C38_parallel_equals_sequential_unmodified.

(** The pool never blocks before all results are taken, and every schedule ends within four
    events per target. *)
Theorem C38_no_deadlock :
  forall (Tgt Ch : Type) (name : Tgt -> string) (observe : Ch -> Tgt -> Ch * res Tgt) plotting
         debug plot ch lv n_thread ts p,
    0 < n_thread ->
    psteps name observe plotting debug plot ch ts (pool0 n_thread lv (length ts)) p ->
    collected p = length ts \/ exists q, pstep name observe plotting debug plot ch ts p q.
Proof.
  intros Tgt Ch name observe plotting debug plot ch lv n ts p N P.
  assert (I : inv name observe plotting plot ch ts n p) by (eapply inv_steps; [apply inv0|exact P]).
  destruct (Nat.eq_dec (collected p) (length ts)) as [E|E]; auto. right.
  eapply inv_progress; eauto. pose proof (i_col _ _ _ _ _ _ _ _ I). lia.
Qed.
Print Assumptions C38_no_deadlock.

Fixpoint run_of {Tgt} (step : pool Tgt -> pool Tgt -> Prop) (k : nat) (p q : pool Tgt) : Prop :=
  match k with O => p = q | S k' => exists r, step p r /\ run_of step k' r q end.
Theorem C38_every_schedule_ends :
  forall (Tgt Ch : Type) (name : Tgt -> string) (observe : Ch -> Tgt -> Ch * res Tgt) plotting
         debug plot ch lv n_thread ts k p,
    run_of (pstep name observe plotting debug plot ch ts) k (pool0 n_thread lv (length ts)) p ->
    k <= 4 * length ts.
Proof.
  intros Tgt Ch name observe plotting debug plot ch lv n ts k p.
  assert (M0 : measure ts (pool0 n lv (length ts)) = 4 * length ts).
  { unfold measure, pool0; cbn [queue workers collected]. rewrite seq_length.
    replace (filter _ (repeat (None, lv) n)) with (@nil (option nat * level)); [cbn; lia|].
    induction n; cbn; auto. }
  rewrite <- M0. pose proof (inv0 name observe plotting plot ch ts n lv) as I. revert I.
  generalize (pool0 (Tgt := Tgt) n lv (length ts)). induction k as [|k IH]; intros p0 I; cbn [run_of]; [lia|].
  intros (r & S & R). specialize (IH r (inv_step _ _ _ _ _ _ _ _ _ _ I S) R).
  pose proof (measure_step _ _ _ _ _ _ _ _ _ _ I S). lia.
Qed.
Print Assumptions C38_every_schedule_ends.

(** The unconditional claim is refuted for the code's own columns: observing a target with a
    sky transmission after another one puts the *previous* target's "sky TR" in its table. *)
Theorem C38_parallel_equals_sequential_refuted :
  forall (V : Type) (n1 n2 : string) (v1 v2 : V), n1 <> n2 ->
  let t1 := {| t_name := n1; t_sky := Some v1; t_table := [] |} in
  let t2 := {| t_name := n2; t_sky := Some v2; t_table := [] |} in
  (exists r, dget key_eqb (Some n2)
     (snd (fst (observe_seq t_name observe_sky (fun _ => Ok tt) false false [t1; t2] ([], INFO) [] [])))
     = Some (Some r) /\ sget "sky TR" (t_table r) = Some v1) /\
  (forall p, psteps t_name observe_sky (fun _ => Ok tt) false false [] [t1; t2] (pool0 2 INFO 2) p ->
     collected p = 2 ->
     exists r, dget key_eqb (Some n2) (out_dict p) = Some (Some r) /\ sget "sky TR" (t_table r) = None).
Proof.
  intros V n1 n2 v1 v2 N t1 t2. apply String.eqb_neq in N. split.
  - eexists. split.
    + cbn. rewrite String.eqb_sym, N. cbn. rewrite String.eqb_sym, N, String.eqb_refl. reflexivity.
    + reflexivity.
  - intros p P C.
    assert (E : out_dict p = dof_list key_eqb (map (entry_of t_name observe_sky (fun _ => Ok tt) false []) [t1; t2])).
    { apply (inv_done t_name observe_sky (fun _ => Ok tt) false [] [t1; t2] 2); auto.
      eapply inv_steps; [apply inv0|exact P]. }
    rewrite E. eexists. split.
    + cbn. rewrite String.eqb_sym, N. cbn. rewrite String.eqb_sym, N, String.eqb_refl. reflexivity.
    + reflexivity.
Qed.
Print Assumptions C38_parallel_equals_sequential_refuted.

(** C39: targets are saved one at a time: the file after the loop is the file after saving,
    without error, the first [k] entries, plus - if [k] is not the last - what the failing
    entry managed to add. *)
Theorem C39_a_prefix_is_saved :
  forall (V : Type) (prev : option (list (string * h5 V))) info es f r,
    save_targets prev info es = (f, r) ->
    exists k fk, k <= length es /\ save_targets prev info (firstn k es) = (fk, Ok tt) /\
      ((k = length es /\ f = fk /\ r = Ok tt) \/
       (exists e x, nth_error es k = Some e /\ r = Err x /\ save_targets fk info [e] = (f, Err x) /\
          okeeps fk f)).
Proof.
  intros V prev info es f r H. revert prev H.
  induction es as [|e es IH]; intros prev H.
  - exists 0, prev. cbn in *. injection H as <- <-. split; auto.
  - change (e :: es) with ([e] ++ es) in H. rewrite save_targets_app in H.
    destruct (save_targets prev info [e]) as [f1 [[]|x]] eqn:S1.
    + destruct (IH _ H) as (k & fk & L & SV & R). exists (S k), fk. cbn [length firstn]. split; [lia|].
      split.
      * change (e :: firstn k es) with ([e] ++ firstn k es). rewrite save_targets_app, S1; auto.
      * destruct R as [(E & R)|(e' & x & E & R)]; [left|right]; auto. exists e', x. auto.
    + injection H as <- <-. exists 0, prev. split; [lia|]. split; [reflexivity|]. right.
      exists e, x. repeat split; auto. eapply save_targets_keeps; eauto.
Qed.
Print Assumptions C39_a_prefix_is_saved.

(** Every target saved without error is in the file, completely. *)
Theorem C39_saved_targets_are_complete :
  forall (V : Type) (prev : option (list (string * h5 V))) info es f n d p x,
    save_targets prev info es = (f, Ok tt) -> In (Some n, Some d) es -> wants d p x ->
    file_at ("targets" :: n :: p) f = Some (D x).
Proof. intros; eapply save_targets_ok; eauto. Qed.
Print Assumptions C39_saved_targets_are_complete.

(** With a failed target in the list (the None entry) saving stops there with an
    AttributeError: the targets before it are complete, none of those after it is saved. *)
Theorem C39_nothing_saved_after_the_first_failure :
  forall (V : Type) (prev f : option (list (string * h5 V))) info pre post r,
    save_targets prev info (pre ++ (None, None) :: post) = (f, r) ->
    (exists e, r = Err e) /\
    (forall n, In (Some n) (map fst post) -> ~ In (Some n) (map fst pre) -> ~ In None (map fst pre) ->
       n <> "None" -> file_at ["targets"; n] f = file_at ["targets"; n] prev) /\
    (forall fp, save_targets prev info pre = (fp, Ok tt) ->
       (r = Err AttributeError \/ exists g e, open_file fp true info = (g, Err e)) /\
       okeeps fp f /\
       forall n d p x, In (Some n, Some d) pre -> wants d p x ->
         file_at ("targets" :: n :: p) f = Some (D x)).
Proof.
  intros V prev f info pre post r H. rewrite save_targets_app in H.
  destruct (save_targets prev info pre) as [fp [[]|e]] eqn:SP.
  - cbn [save_targets] in H. destruct (open_file fp true info) as [f1 [u|e]] eqn:O;
      injection H as <- <-; split; eauto.
    + assert (KP : okeeps fp (Some f1)).
      { apply open_keeps in O. destruct fp; cbn; eauto. }
      split.
      * intros n I NP NN NE. rewrite <- (save_targets_names _ _ n _ _ _ SP NP); [|tauto].
        cbn [file_at at_]. rewrite (open_other _ _ _ _ "targets" O) by discriminate. destruct fp; auto.
      * intros fp' [= <-]. split; auto. split; auto. intros n d p x I W. eapply okeeps_at; [exact KP|].
        eapply save_targets_ok; eauto.
    + assert (KP : okeeps fp (Some f1)).
      { apply open_keeps in O. destruct fp; cbn; eauto. }
      split.
      * intros n I NP NN NE. rewrite <- (save_targets_names _ _ n _ _ _ SP NP); [|tauto].
        cbn [file_at at_]. rewrite (open_other _ _ _ _ "targets" O) by discriminate. destruct fp; auto.
      * intros fp' [= <-]. split; eauto. split; auto. intros n d p x I W. eapply okeeps_at; [exact KP|].
        eapply save_targets_ok; eauto.
  - injection H as <- <-. split; eauto. split; [|discriminate].
    intros n I NP NN NE. eapply save_targets_names; eauto; tauto.
Qed.
Print Assumptions C39_nothing_saved_after_the_first_failure.

Example C39_ex :
  save_targets (V := nat) None [] [(Some "a", Some [("x", INum 1)]); (None, None); (Some "c", Some [("x", INum 3)])]
  = (Some [("info", G [("ExoRad", G [])]); ("targets", G [("a", G [("x", D (DV 1))])])], Err AttributeError).
Proof. reflexivity. Qed.

(** C40: after observing anything the level is INFO; during the observations it is ERROR, or
    with debug the level found (only for the first target: then INFO). *)
Theorem C40_level_after_observing :
  forall (Tgt Ch : Type) (name : Tgt -> string) (observe : Ch -> Tgt -> Ch * res Tgt) plotting
         debug plot ts ch lv st out lvls,
    observe_seq name observe plotting debug plot ts (ch, lv) [] [] = (st, out, lvls) ->
    ts <> [] -> snd st = INFO.
Proof.
  intros Tgt Ch name observe plotting debug plot ts ch lv st out lvls H N. rewrite oseq_gen in H.
  injection H as <- <- <-. destruct ts; cbn; congruence.
Qed.
Print Assumptions C40_level_after_observing.

Theorem C40_levels_while_observing :
  forall (Tgt Ch : Type) (name : Tgt -> string) (observe : Ch -> Tgt -> Ch * res Tgt) plotting
         debug plot ts ch lv st out lvls,
    observe_seq name observe plotting debug plot ts (ch, lv) [] [] = (st, out, lvls) ->
    length lvls = length ts /\
    forall i l, nth_error lvls i = Some l ->
      l = if debug then (match i with O => lv | S _ => INFO end) else ERROR.
Proof.
  intros Tgt Ch name observe plotting debug plot ts ch lv st out lvls H. rewrite oseq_gen in H.
  injection H as <- <- <-. destruct ts as [|t ts]; cbn; [split; auto; intros [|i] l; discriminate|].
  rewrite repeat_length. split; auto. intros [|i] l; cbn.
  - intros [= <-]; destruct debug; auto.
  - intros E. apply nth_error_In, repeat_spec in E. subst. destruct debug; auto.
Qed.
Print Assumptions C40_levels_while_observing.

(** So a debug run is a debug run for its first target only. *)
Theorem C40_debug_is_kept_refuted :
  exists st out lvls,
    observe_seq (Tgt := string) (Ch := unit) (fun t => t) (fun ch t => (ch, Ok t)) (fun _ => Ok tt)
      true false ["a"; "b"] (tt, DEBUG) [] [] = (st, out, lvls) /\ lvls = [DEBUG; INFO] /\ snd st = INFO.
Proof. do 3 eexists. split; [reflexivity|]. auto. Qed.
Print Assumptions C40_debug_is_kept_refuted.

(** C41: with replace the previous file plays no role (nor survives). *)
Theorem C41_replace_discards_previous_output :
  forall (V : Type) options output info arg observed (prev : option (list (string * h5 V))),
    standard_pipeline options output true info arg observed prev
    = standard_pipeline options output true info arg observed None.
Proof. reflexivity. Qed.
Print Assumptions C41_replace_discards_previous_output.

(** ... even when it is the payload itself: it is deleted and the run fails. *)
Theorem C41_replace_deletes_its_own_payload :
  forall (V : Type) options info arg observed (prev : option (list (string * h5 V))),
    standard_pipeline options options true info arg observed prev = (None, Err OSError).
Proof. intros. unfold standard_pipeline. rewrite String.eqb_refl. reflexivity. Qed.
Print Assumptions C41_replace_deletes_its_own_payload.

(** Without replace nothing of the previous file is lost, whatever happens. *)
Theorem C41_without_replace_everything_is_kept :
  forall (V : Type) options output info arg observed (f0 : list (string * h5 V)) f r,
    standard_pipeline options output false info arg observed (Some f0) = (f, r) ->
    okeeps (Some f0) f.
Proof.
  intros V options output info arg observed f0 f r. unfold standard_pipeline.
  replace (String.eqb options output && negb true) with false by (destruct (String.eqb options output); auto).
  assert (SV : forall g (r0 : res unit), (exists y, g = Some y /\ keeps (G f0) (G y)) ->
     match (g, r0) with
     | (f1, Ok _) => match observed with Ok es => save_targets f1 info es | Err e => (f1, Err e) end
     | (f1, Err e) => (f1, Err e)
     end = (f, r) -> okeeps (Some f0) f).
  { intros g r0 K. destruct r0 as [[]|e].
    - destruct observed as [es|e].
      + intros H. apply save_targets_keeps in H. eapply okeeps_trans; [|exact H]. exact K.
      + intros [= <- <-]. exact K.
    - intros [= <- <-]; exact K. }
  destruct arg as [payload cs| |].
  - destruct (open_file (Some f0) true info) as [f1 [u|e]] eqn:O; apply open_file_append in O.
    + destruct (build_channels f1 payload cs) as [f2 r2] eqn:B. apply build_channels_keeps in B.
      apply SV. exists f2. split; auto. eapply keeps_trans; eauto.
    + intros [= <- <-]. exists f1; auto.
  - apply (SV (Some f0) (Ok tt)). exists f0; split; auto using keeps_refl.
  - intros [= <- <-]. exists f0; split; auto using keeps_refl.
Qed.
Print Assumptions C41_without_replace_everything_is_kept.

(** ... but running an XML payload again on the output of an earlier run of the same payload
    always fails, before any target is observed, for lack of room for the payload. *)
Theorem C41_rerun_without_replace_fails :
  forall (V : Type) options output replace info info' payload cs cs' observed observed'
         (prev : option (list (string * h5 V))) f1 f2 r2 p x,
    wants payload p x ->
    standard_pipeline options output replace info (Xml payload cs) observed prev = (f1, Ok tt) ->
    standard_pipeline options output false info' (Xml payload cs') observed' f1 = (f2, r2) ->
    (exists e, r2 = Err e) /\ okeeps f1 f2.
Proof.
  intros V options output replace info info' payload cs cs' observed observed' prev f1 f2 r2 p x W R1 R2.
  assert (A : file_at ("payload" :: "payload description" :: p) f1 = Some (D x)).
  { unfold standard_pipeline in R1. set (prev1 := if replace then None else prev) in *.
    destruct (String.eqb options output && _); [discriminate|].
    destruct (open_file prev1 _ info) as [f [u|e]] eqn:O; [|discriminate].
    destruct (build_channels f payload cs) as [f' [[]|e]] eqn:B; [|discriminate].
    destruct (build_channels_ok _ _ _ _ _ _ B W) as [_ Y].
    destruct observed as [es|e]; [|discriminate].
    apply save_targets_keeps in R1. eapply okeeps_at; [exact R1|]. exact Y. }
  destruct f1 as [f1|]; [|discriminate]. cbn [file_at] in A. split.
  - unfold standard_pipeline in R2. cbv iota in R2.
    replace (String.eqb options output && negb true) with false in R2 by (destruct (String.eqb options output); auto).
    destruct (open_file (Some f1) true info') as [g [u|e]] eqn:O; [|injection R2 as <- <-; eauto].
    apply open_file_append in O. apply O in A.
    destruct (build_channels g payload cs') as [f' [[]|e]] eqn:B; [|injection R2 as <- <-; eauto].
    destruct (build_channels_ok _ _ _ _ _ _ B W) as [N _]. congruence.
  - eapply C41_without_replace_everything_is_kept; exact R2.
Qed.
Print Assumptions C41_rerun_without_replace_fails.

(** With an already built (.h5) payload, a rerun fails at the first target already saved. *)
Theorem C41_rerun_fails_on_saved_targets :
  forall (V : Type) options output info es (f0 : list (string * h5 V)) f r n d p x y,
    In (Some n, Some d) es -> wants d p x -> file_at ("targets" :: n :: p) (Some f0) = Some y ->
    standard_pipeline options output false info H5payload (Ok es) (Some f0) = (f, r) ->
    (exists e, r = Err e) /\ okeeps (Some f0) f.
Proof.
  intros V options output info es f0 f r n d p x y I W A H. split.
  - unfold standard_pipeline in H. cbv iota in H.
    replace (String.eqb options output && negb true) with false in H by (destruct (String.eqb options output); auto).
    destruct r as [[]|e]; eauto. exfalso.
    apply in_split in I as (pre & post & ->). rewrite save_targets_app in H.
    destruct (save_targets (Some f0) info pre) as [fp [u|e]] eqn:S; [|discriminate].
    apply save_targets_keeps in S. destruct S as (f1 & -> & K). cbn [file_at] in A.
    destruct (at_keeps _ _ _ _ K A) as [y1 A1].
    cbn [save_targets] in H. destruct (open_file (Some f1) true info) as [f2 [u2|e]] eqn:O; [|discriminate].
    apply open_file_append in O. destruct (at_keeps _ _ _ _ O A1) as [y2 A2].
    destruct (write_target f2 n d) as [f3 [[]|e]] eqn:WT; [|discriminate].
    destruct (write_target_ok _ _ _ _ _ _ WT W) as [N _]. congruence.
  - eapply C41_without_replace_everything_is_kept; eauto.
Qed.
Print Assumptions C41_rerun_fails_on_saved_targets.

Definition ex_payload : list (string * item nat) := [("common", IDict [("wl_min", IQuant 1 "um")])].
Example C41_ex :
  let run rep prev := standard_pipeline (V := nat) "p.xml" "o.h5" rep [] (Xml ex_payload []) (Ok [(Some "a", Some [("x", INum 1)])]) prev in
  let f := fst (run true None) in
  snd (run true None) = Ok tt /\ snd (run false f) = Err ValueError /\ fst (run false f) = f /\
  run true f = run true None.
Proof. repeat split. Qed.
