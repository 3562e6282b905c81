(** C08-C11: target and channel tables. *)
From Verif Require Import Base Dict XR M_Table S_Table L_Table.
Open Scope list_scope.

(** *** C08 *)
Theorem C08_vstack_is_the_stack ts ins r :
  Forall ok_table ts -> ts <> [] -> vstack_tables ts = Ok (ins, r) ->
  exists t, r = Some t /\ stacked ts t.
Proof. intros OK NE H. destruct (vstack_spec ts ins r OK NE H) as (t & E & S & _). eauto. Qed.
Print Assumptions C08_vstack_is_the_stack.

(** Cell by cell: row [i] of table number [k] is row (rows before) + i of the stack. *)
Theorem C08_every_cell_kept pre tab post ins t c col v i :
  Forall ok_table (pre ++ tab :: post) ->
  vstack_tables (pre ++ tab :: post) = Ok (ins, Some t) ->
  sget c tab = Some col -> nth_error col i = Some v ->
  exists big, sget c t = Some big /\ nth_error big (fold_right Nat.add 0 (map n_rows pre) + i) = Some v.
Proof.
  intros OK H G N. destruct (vstack_spec _ _ _ OK (ltac:(destruct pre; discriminate)) H) as (t' & [= <-] & ST & _).
  assert (I : In c (names t)).
  { apply (stacked_names_In _ _ _ ST). exists tab. split; [apply in_app_iff; cbn; auto|congruence]. }
  destruct ST as [_ C]. destruct (C c I) as (z & G' & _). eexists. split; [exact G'|].
  rewrite map_app, concat_app. cbn [map concat]. apply Forall_app in OK as [OKP _].
  assert (L : length (concat (map (block c z) pre)) = fold_right Nat.add 0 (map n_rows pre)).
  { rewrite blocks_length by auto. clear. induction pre; cbn; auto. }
  rewrite nth_error_app2 by lia. replace (_ + i - _) with i by lia. unfold block at 1. rewrite G.
  rewrite nth_error_app1; auto. apply nth_error_Some. congruence.
Qed.
Print Assumptions C08_every_cell_kept.

(** Stacking fails only on text columns which some table does not have. *)
Theorem C08_vstack_succeeds ts :
  Forall ok_table ts -> fillable ts -> exists ins r, vstack_tables ts = Ok (ins, r).
Proof. intros OK FL. destruct (vstack_ok ts OK FL) as [[ins r] H]; eauto. Qed.
Print Assumptions C08_vstack_succeeds.

(** Side effect: the input tables keep their columns and gain constant ones. *)
Theorem C08_inputs_only_gain_constant_columns ts ins r :
  Forall ok_table ts -> ts <> [] -> vstack_tables ts = Ok (ins, r) -> Forall2 extended ts ins.
Proof. intros OK NE H. destruct (vstack_spec ts ins r OK NE H) as (t & _ & _ & E). auto. Qed.
Print Assumptions C08_inputs_only_gain_constant_columns.

(** No table gives False; tables without rows before the others are dropped. *)
Theorem C08_no_tables : vstack_tables [] = Ok ([], None).
Proof. reflexivity. Qed.
Print Assumptions C08_no_tables.
Theorem C08_leading_empty_tables_dropped empties ts ins r :
  Forall (fun t => n_rows t = 0) empties -> ts <> [] ->
  vstack_tables (empties ++ ts) = Ok (ins, r) <->
  exists ins', ins = empties ++ ins' /\ vstack_tables ts = Ok (ins', r).
Proof.
  intros F NE.
  assert (IND : forall cur cur', vstack_go cur ts = vstack_go cur' ts).
  { intros cur cur'. destruct ts as [|t ts]; [congruence|]. reflexivity. }
  assert (G : forall cur ins, vstack_go cur (empties ++ ts) = Ok (ins, r) <->
     exists ins', ins = empties ++ ins' /\ vstack_go None ts = Ok (ins', r)).
  { clear ins. induction F as [|e es E F IH]; intros cur ins; cbn [app].
    - rewrite (IND cur None). split; [eauto|intros (x & -> & H); auto].
    - cbn [vstack_go]. rewrite E. cbn [Nat.eqb]. specialize (IH (Some e)).
      destruct (vstack_go (Some e) (es ++ ts)) as [[rest r']|] eqn:V; cbn [bind].
      + split.
        * intros [= <- ->]. destruct (proj1 (IH rest) eq_refl) as (x & -> & H). exists x; auto.
        * intros (x & -> & H). assert (X : exists ins', es ++ x = es ++ ins' /\ vstack_go None ts = Ok (ins', r)) by eauto.
          apply IH in X. injection X as -> ->. reflexivity.
      + split; [discriminate|]. intros (x & -> & H). 
        assert (X : exists ins', es ++ x = es ++ ins' /\ vstack_go None ts = Ok (ins', r)) by eauto.
        apply IH in X. discriminate. }
  apply G.
Qed.
Print Assumptions C08_leading_empty_tables_dropped.

(** *** C11: the channel blocks of the target table *)
Definition labelled (name : string) (t : table) : Prop :=
  sget "chName" t = Some (repeat (Txt name) (n_rows t)).

Lemma filter_none {A} (p : A -> bool) l : (forall x, In x l -> p x = false) -> filter p l = [].
Proof. induction l as [|a l IH]; intros H; cbn; auto. rewrite H by (cbn; auto). apply IH. intros; apply H; cbn; auto. Qed.
Lemma filter_all {A} (p : A -> bool) l : (forall x, In x l -> p x = true) -> filter p l = l.
Proof. induction l as [|a l IH]; intros H; cbn; auto. rewrite H by (cbn; auto). f_equal. apply IH. intros; apply H; cbn; auto. Qed.
Lemma combine_app' {A B} (a1 a2 : list A) (b1 b2 : list B) : length a1 = length b1 ->
  combine (a1 ++ a2) (b1 ++ b2) = combine a1 b1 ++ combine a2 b2.
Proof. revert b1. induction a1; intros [|]; cbn; try discriminate; auto. intros [= L]. f_equal; auto. Qed.
Lemma map_fst_combine' {A B} (l : list A) (m : list B) : length l = length m -> map fst (combine l m) = l.
Proof. revert m; induction l; intros [|]; cbn; try discriminate; auto. intros [= H]. f_equal; auto. Qed.
Lemma in_combine_repeat {A B} (l : list A) (b : B) n x : In x (combine l (repeat b n)) -> snd x = b.
Proof. destruct x as [a b']. intros I. apply in_combine_r in I. apply repeat_spec in I. auto. Qed.

Lemma select_blocks chans name z c :
  Forall (fun ch => ok_table (snd ch)) chans ->
  NoDup (map fst chans) ->
  forall tab, In (name, tab) chans ->
  map fst (filter (fun p => is_name name (snd p))
            (combine (concat (map (block c z) (map snd chans)))
                     (concat (map (fun ch => repeat (Txt (fst ch)) (n_rows (snd ch))) chans))))
  = block c z tab.
Proof.
  intros F ND tab I. 
  assert (LEN : forall t, ok_table t -> length (block c z t) = n_rows t).
  { intros t [W _]. apply block_length; auto. }
  assert (NONE : forall chans, Forall (fun ch => ok_table (snd ch)) chans ->
     ~ In name (map fst chans) -> filter (fun p => is_name name (snd p))
            (combine (concat (map (block c z) (map snd chans)))
                     (concat (map (fun ch => repeat (Txt (fst ch)) (n_rows (snd ch))) chans))) = []).
  { clear - LEN. induction chans as [|[n t] chans IH]; intros F NI; cbn; auto. inversion F as [|? ? O F']; subst. cbn in *.
    rewrite combine_app' by (rewrite LEN, repeat_length; auto). rewrite filter_app, IH by tauto. rewrite app_nil_r.
    apply filter_none. intros x J. rewrite (in_combine_repeat _ _ _ _ J). cbn. apply String.eqb_neq. tauto. }
  revert F ND I. induction chans as [|[n t] chans IH]; intros F ND I; [destruct I|].
  inversion F as [|? ? O F']; subst. inversion ND as [|? ? N ND']; subst. cbn in *.
  rewrite combine_app' by (rewrite LEN, repeat_length; auto). rewrite filter_app, map_app.
  destruct I as [[= -> ->]|I].
  - rewrite NONE by auto. rewrite app_nil_r, filter_all.
    + apply map_fst_combine'. rewrite LEN, repeat_length; auto.
    + intros x J. rewrite (in_combine_repeat _ _ _ _ J). cbn. apply String.eqb_refl.
  - rewrite (filter_none _ (combine (block c z t) _)).
    + cbn. apply IH; auto.
    + intros x J. rewrite (in_combine_repeat _ _ _ _ J). cbn. apply String.eqb_neq. intros ->.
      apply N. apply in_map_iff. exists (name, tab); auto.
Qed.

(** Selecting the rows of a channel in the merged table gives back the rows of the channel:
    its own columns as they are, columns it does not have filled with one value. *)
Theorem C11_one_block_per_channel chans ins r :
  Forall (fun ch => ok_table (snd ch) /\ labelled (fst ch) (snd ch)) chans ->
  NoDup (map fst chans) -> chans <> [] ->
  merge_channels chans = Ok (ins, r) ->
  exists t, r = Some t /\ stacked (map snd chans) t /\
    sget "chName" t = Some (concat (map (fun ch => repeat (Txt (fst ch)) (n_rows (snd ch))) chans)) /\
    forall c, In c (names t) -> exists z, forall name tab, In (name, tab) chans ->
      select name c t = Ok (match sget c tab with Some col => col | None => repeat z (n_rows tab) end).
Proof.
  intros F ND NE H. unfold merge_channels in H.
  assert (OK : Forall ok_table (map snd chans)).
  { rewrite Forall_map. eapply Forall_impl; [|exact F]. intros ch [O _]; auto. }
  destruct (vstack_spec _ _ _ OK (ltac:(destruct chans; [congruence|discriminate])) H) as (t & -> & ST & _).
  exists t. split; auto. split; auto.
  assert (CH : sget "chName" t = Some (concat (map (fun ch => repeat (Txt (fst ch)) (n_rows (snd ch))) chans))).
  { assert (I : In "chName" (names t)).
    { apply (stacked_names_In _ _ _ ST). destruct chans as [|[n t0] chans]; [congruence|].
      inversion F as [|? ? [O L] F']; subst. exists t0. split; [cbn; auto|]. cbn in L. unfold labelled in L. congruence. }
    destruct ST as [_ C]. destruct (C _ I) as (z & G & _). rewrite G. f_equal. f_equal. rewrite map_map.
    apply map_ext_in. intros ch J. rewrite Forall_forall in F. destruct (F ch J) as [_ L]. unfold block. rewrite L. auto. }
  split; auto. intros c I. destruct ST as [_ C]. destruct (C _ I) as (z & G & _). exists z. intros name tab J.
  unfold select. rewrite G, CH. f_equal. rewrite (select_blocks chans name z c) with (tab := tab); auto.
  eapply Forall_impl; [|exact F]. cbn; tauto.
Qed.
Print Assumptions C11_one_block_per_channel.

(** *** C09 *)
Definition rows_are (n : nat) (t : table) : Prop := forall c col, In (c, col) t -> length col = n.

Theorem C09_update_replaces_exactly_the_new_columns old new n :
  NoDup (names (cols old)) -> NoDup (names (cols new)) -> rows_are n (cols old) -> rows_are n (cols new) ->
  let t := snd (update_table old new) in
  names (cols t) = filter (fun c => negb (existsb (String.eqb c) (names (cols new)))) (names (cols old)) ++ names (cols new) /\
  NoDup (names (cols t)) /\ rows_are n (cols t) /\
  (forall c, sget c (cols t) = match sget c (cols new) with Some col => Some col | None => sget c (cols old) end) /\
  (forall k, sget k (meta t) = match sget k (rev (meta new)) with Some v => Some v | None => sget k (meta old) end).
Proof.
  intros N1 N2 R1 R2 t. pose proof (update_cols old new n R1 R2) as E. fold t in E.
  assert (NM : names (cols t) = filter (fun c => negb (existsb (String.eqb c) (names (cols new)))) (names (cols old)) ++ names (cols new)).
  { rewrite E. unfold names at 1. rewrite map_app. f_equal. unfold names. clear. induction (cols old) as [|[c col] l IH]; cbn; auto.
    assert (EQ : smem c (cols new) = existsb (String.eqb c) (map fst (cols new))).
    { destruct (existsb _ _) eqn:X.
      - apply existsb_names in X. apply smem_names; auto.
      - apply smem_false_names. intros I. apply existsb_names in I. unfold names in I. congruence. }
    cbn [fst]. rewrite EQ. destruct (existsb (String.eqb c) _); cbn; [|f_equal]; apply IH. }
  split; auto. split; [|split; [|split]].
  - rewrite NM. assert (NF : NoDup (filter (fun c => negb (existsb (String.eqb c) (names (cols new)))) (names (cols old)))) by (apply NoDup_filter; auto).
    revert NF. assert (DJ : forall x, In x (filter (fun c => negb (existsb (String.eqb c) (names (cols new)))) (names (cols old))) -> ~ In x (names (cols new))).
    { intros x I. apply filter_In in I as [_ I]. intros J. apply existsb_names in J. rewrite J in I. discriminate. }
    revert DJ. generalize (filter (fun c => negb (existsb (String.eqb c) (names (cols new)))) (names (cols old))) as l.
    intros l DJ NF. induction l as [|a l IH]; cbn; auto. inversion NF; subst. constructor.
    + rewrite in_app_iff. intros [I|I]; [contradiction|]. apply (DJ a); cbn; auto.
    + apply IH; auto. intros x I. apply DJ; cbn; auto.
  - rewrite E. intros c col I. apply in_app_iff in I as [I|I]; [|eapply R2; eauto]. apply filter_In in I as [I _]. eapply R1; eauto.
  - intros c. rewrite E, sget_app. rewrite (filter_get (fun c => negb (smem c (cols new)))).
    unfold dmem. destruct (sget c (cols new)) as [col|] eqn:G; cbn; auto. destruct (sget c (cols old)); auto.
  - intros k. cbn. rewrite !(dget_dupdate _ String_eqb_spec). destruct (sget k (rev (meta new))); auto.
Qed.
Print Assumptions C09_update_replaces_exactly_the_new_columns.

Theorem C09_update_twice_is_update_once old new n :
  NoDup (names (cols old)) -> NoDup (names (cols new)) -> rows_are n (cols old) -> rows_are n (cols new) ->
  let t := snd (update_table old new) in
  let t' := snd (update_table t new) in
  cols t' = cols t /\ forall k, sget k (meta t') = sget k (meta t).
Proof.
  intros N1 N2 R1 R2 t t'.
  destruct (C09_update_replaces_exactly_the_new_columns old new n N1 N2 R1 R2) as (_ & ND & RT & _ & _).
  fold t in ND, RT. split.
  - unfold t'. rewrite (update_cols t new n RT R2). unfold t at 1. rewrite (update_cols old new n R1 R2), filter_app.
    assert (X : filter (fun x => negb (smem (fst x) (cols new))) (cols new) = []).
    { apply filter_none. intros [c col] I. cbn. assert (M : smem c (cols new) = true).
      { apply smem_names. apply in_map_iff. exists (c, col); auto. } rewrite M; auto. }
    rewrite X, app_nil_r. unfold t. rewrite (update_cols old new n R1 R2). f_equal.
    set (p := fun x : string * list cell => negb (smem (fst x) (cols new))).
    apply filter_all. intros x I. apply filter_In in I as [_ I]. exact I.
  - intros k. unfold t', t. cbn. rewrite !(dget_dupdate _ String_eqb_spec). destruct (sget k (rev (meta new))); auto.
Qed.
Print Assumptions C09_update_twice_is_update_once.

(** Side effect: the previous table object itself loses the recomputed columns. *)
Theorem C09_previous_object_loses_columns old new c :
  sget c (cols (fst (update_table old new))) = (if smem c (cols new) then None else sget c (cols old)) /\
  meta (fst (update_table old new)) = meta old.
Proof.
  split; auto. cbn. rewrite (filter_get (fun c => negb (smem c (cols new)))). destruct (smem c (cols new)); auto.
Qed.
Print Assumptions C09_previous_object_loses_columns.

(** *** C10 *)
(** [sources t srcs]: the columns of [t] whose name contains "Max" hold the numbers [srcs]. *)
Definition max_sources (t : table) (srcs : list (list R)) : Prop :=
  map snd (filter (fun x => contains "Max" (fst x)) t) = map reals srcs.

Lemma max_once t n wl srcs :
  rows_are n (cols t) -> sget "Wavelength" (cols t) = Some wl -> max_sources (cols t) srcs ->
  estimate_max_signal t
  = Ok (snd (update_table t {| cols := [("MaxSignal_inPixel", reals (row_sums n srcs))]; meta := [] |})).
Proof.
  intros R W MS. unfold estimate_max_signal. rewrite W. unfold max_columns.
  assert (LW : length wl = n) by (eapply R; apply sget_In; eauto). rewrite LW.
  assert (Z : repeat (Num (Fin 0)) n = reals (repeat 0%R n)).
  { unfold reals. clear. induction n; cbn; f_equal; auto. }
  unfold max_sources in MS. rewrite MS, Z.
  assert (F : Forall (fun c => length c = n) srcs).
  { assert (F : Forall (fun c => length c = n) (map reals srcs)).
    { rewrite <- MS, Forall_map, Forall_forall. intros [c col] I. apply filter_In in I as [I _]. cbn. eapply R; eauto. }
    rewrite Forall_map in F. eapply Forall_impl; [|exact F]. intros a. cbn. rewrite reals_length. auto. }
  rewrite (add_columns_reals srcs (repeat 0%R n) n) by (auto; apply repeat_length). cbn [bind].
  do 5 f_equal. unfold row_sums. f_equal. f_equal. apply map_ext_in. intros i I. apply in_seq in I.
  rewrite nth_repeat. ring.
Qed.

Theorem C10_max_signal_is_the_sum t n wl srcs :
  NoDup (names (cols t)) -> rows_are n (cols t) -> sget "Wavelength" (cols t) = Some wl -> max_sources (cols t) srcs ->
  exists t', estimate_max_signal t = Ok t' /\
    sget "MaxSignal_inPixel" (cols t') = Some (reals (row_sums n srcs)) /\
    (forall c, c <> "MaxSignal_inPixel" -> sget c (cols t') = sget c (cols t)) /\ rows_are n (cols t').
Proof.
  intros ND R W MS. eexists. split; [eapply max_once; eauto|].
  set (new := {| cols := [("MaxSignal_inPixel", reals (row_sums n srcs))]; meta := [] |}).
  assert (R2 : rows_are n (cols new)).
  { intros c col [[= <- <-]|[]]. rewrite reals_length. unfold row_sums. rewrite map_length, seq_length. auto. }
  destruct (C09_update_replaces_exactly_the_new_columns t new n ND) as (_ & _ & RT & G & _); auto.
  { cbn. repeat constructor. intros []. }
  split; [rewrite G; reflexivity|]. split; auto. intros c N. rewrite G. cbn.
  destruct (String.eqb_spec c "MaxSignal_inPixel"); [contradiction|]. auto.
Qed.
Print Assumptions C10_max_signal_is_the_sum.

(** Estimating k times: the total is k times the sum of the sources. *)
Fixpoint iter_max (k : nat) (t : mtable) : res mtable :=
  match k with 0 => Ok t | S k' => let* t' := iter_max k' t in estimate_max_signal t' end.
Theorem C10_estimating_again_counts_the_total k t n wl srcs :
  NoDup (names (cols t)) -> rows_are n (cols t) -> sget "Wavelength" (cols t) = Some wl -> max_sources (cols t) srcs ->
  sget "MaxSignal_inPixel" (cols t) = None ->
  exists t', iter_max (S k) t = Ok t' /\
    sget "MaxSignal_inPixel" (cols t') = Some (reals (map (fun s => INR (S k) * s)%R (row_sums n srcs))).
Proof.
  intros ND R W MS NM.
  assert (G : exists t', iter_max (S k) t = Ok t' /\
    cols t' = cols t ++ [("MaxSignal_inPixel", reals (map (fun s => INR (S k) * s)%R (row_sums n srcs)))]).
  2: { destruct G as (t' & E & C). exists t'. split; auto. rewrite C, sget_app, NM. reflexivity. }
  assert (KEEP : forall m : list cell, filter (fun x => negb (smem (fst x) [("MaxSignal_inPixel", m)])) (cols t) = cols t).
  { intros m. apply filter_all. intros [c col] I. unfold dmem. cbn.
    destruct (String.eqb_spec c "MaxSignal_inPixel") as [->|]; auto.
    exfalso. apply sget_None_names in NM. apply NM. apply in_map_iff. exists ("MaxSignal_inPixel", col); auto. }
  induction k as [|k IH].
  - cbn [iter_max bind]. eexists. split; [eapply max_once; eauto|].
    rewrite (update_cols _ _ n); auto.
    + cbn [cols]. rewrite KEEP. do 4 f_equal. rewrite <- (map_id (row_sums n srcs)) at 1. apply map_ext. intros; cbn; ring.
    + intros c col [[= <- <-]|[]]. rewrite reals_length. unfold row_sums. rewrite map_length, seq_length. auto.
  - destruct IH as (t1 & E1 & C1). cbn [iter_max]. change (let* t' := iter_max k t in estimate_max_signal t') with (iter_max (S k) t).
    rewrite E1. cbn [bind].
    set (prev := map (fun s => INR (S k) * s)%R (row_sums n srcs)) in *.
    assert (LP : length prev = n). { unfold prev, row_sums. rewrite !map_length, seq_length. auto. }
    assert (R1 : rows_are n (cols t1)).
    { rewrite C1. intros c col I. apply in_app_iff in I as [I|[[= <- <-]|[]]]; [eapply R; eauto|]. rewrite reals_length. auto. }
    assert (W1 : sget "Wavelength" (cols t1) = Some wl) by (rewrite C1, sget_app, W; auto).
    assert (M1 : max_sources (cols t1) (srcs ++ [prev])).
    { unfold max_sources in *. rewrite C1, filter_app, !map_app, MS. cbn. reflexivity. }
    eexists. split; [eapply (max_once t1 n wl); eauto|].
    rewrite (update_cols _ _ n); auto.
    + cbn [cols]. rewrite C1, filter_app, KEEP. cbn [filter]. unfold dmem. cbn [dget fst]. rewrite String.eqb_refl. cbn [negb app].
      rewrite app_nil_r. do 4 f_equal. unfold row_sums. rewrite map_map. apply map_ext_in. intros i I. apply in_seq in I.
      rewrite map_app.
      assert (RS : forall a b, Rsum (a ++ b) = (Rsum a + Rsum b)%R).
      { induction a as [|x a IHa]; intros b; cbn; [ring|]. rewrite IHa. ring. }
      rewrite RS. cbn [map Rsum]. unfold prev, row_sums. rewrite map_map.
      set (f := fun i0 : nat => (INR (S k) * Rsum (map (fun c => nth i0 c 0) srcs))%R).
      rewrite (nth_indep _ 0%R (f 0)) by (rewrite map_length, seq_length; lia).
      rewrite (map_nth f (seq 0 n) 0), seq_nth by lia. unfold f. cbn [Nat.add]. rewrite (S_INR (S k)). ring.
    + intros c col [[= <- <-]|[]]. rewrite reals_length. unfold row_sums. rewrite map_length, seq_length. auto.
Qed.
Print Assumptions C10_estimating_again_counts_the_total.

(** *** Concrete tables *)
Section Ex.
  Let a : table := [("chName", [Txt "A"; Txt "A"]); ("Wavelength", reals [1; 2]%R); ("x_MaxSignal_inPixel", reals [5; 7]%R)].
  Let b : table := [("chName", [Txt "B"]); ("Wavelength", reals [3]%R); ("y signal", [Num PInf])].
  Example ex_ok : Forall ok_table [a; b] /\ fillable [a; b].
  Proof.
    split.
    - repeat constructor; try (intros c col I; cbn in I; repeat destruct I as [[= <- <-]|I]; reflexivity || destruct I);
        cbn; intuition discriminate.
    - intros t u c s rest T U G. cbn in T, U.
      assert (c = "chName").
      { destruct T as [<-|[<-|[]]]; cbn in G; destruct (String.eqb_spec c "chName"); auto;
          repeat (destruct (String.eqb _ _); [discriminate|]); discriminate. }
      subst c. destruct U as [<-|[<-|[]]]; discriminate.
  Qed.
  Example ex_stack : exists ins, vstack_tables [a; b] = Ok (ins,
     Some [("chName", [Txt "A"; Txt "A"; Txt "B"]); ("Wavelength", reals [1; 2; 3]%R);
           ("x_MaxSignal_inPixel", reals [5; 7]%R ++ [Num (xmul (Fin 0) (Fin 5))]);
           ("y signal", repeat (Num (xmul (Fin 0) PInf)) 2 ++ [Num PInf])]).
  Proof. eexists. reflexivity. Qed.
  Example ex_labelled : labelled "A" a /\ labelled "B" b.
  Proof. split; reflexivity. Qed.
  (** inputs are modified *)
  Theorem C08_inputs_untouched_refuted :
    ~ (forall ts ins r, Forall ok_table ts -> vstack_tables ts = Ok (ins, r) -> ins = ts).
  Proof.
    intros H. destruct ex_ok as [OK FL]. destruct ex_stack as [ins E].
    pose proof E as E'. apply H in E'; auto. subst ins. discriminate E.
  Qed.
  Example ex_max : max_sources a [[5; 7]%R] /\ rows_are 2 a /\ sget "Wavelength" a = Some (reals [1; 2]%R) /\
    row_sums 2 [[5; 7]%R] = [5 + 0; 7 + 0]%R.
  Proof.
    repeat split; try reflexivity. intros c col I. cbn in I. repeat destruct I as [[= <- <-]|I]; reflexivity || destruct I.
  Qed.
End Ex.
Print Assumptions C08_inputs_untouched_refuted.
