(** C107: the command that draws the targets of an output file. *)
From Coq Require Import Sorting.Sorted Permutation.
From Verif Require Import Base XR Dict PyStr M_Util S_Util P_Util M_Options M_Hdf5 S_Hdf5 L_Hdf5 M_Pipeline S_Pipeline L_Pipeline P_Pipeline.
From Verif Require Import M_Payload S_Payload P_Payload P_Run M_Plot S_Plot P_Plot.
From Verif Require L_Outcome.
Open Scope list_scope.

Lemma ends_slash s : ends_with "/" s = true -> exists p, s = (p ++ "/")%string.
Proof.
  unfold ends_with. intros H. destruct (rev (str_chars s)) as [|c r] eqn:E; [discriminate|].
  cbn in H. exists (str_of (rev r)). apply str_chars_inj. rewrite str_chars_app.
  assert (c = "/"%char) as ->.
  { destruct (ascii_dec "/"%char c) as [<-|N]; auto. exfalso. apply Ascii.eqb_neq in N. cbn [Ascii.eqb] in H.
    change (Ascii.eqb "/"%char c && true = true) in H. rewrite N in H. discriminate. }
  rewrite <- (rev_involutive (str_chars s)), E. cbn. unfold str_chars, str_of. rewrite list_ascii_of_string_of_list_ascii. reflexivity.
Qed.
Lemma join_plain out n : plain_dir out -> path_join out (n ++ ".png") = image out n.
Proof.
  intros (N & P). unfold path_join, image. apply String.eqb_neq in N. rewrite N.
  destruct (ends_with "/" out) eqn:E; [|reflexivity]. apply ends_slash in E as (p & E). destruct (P p E).
Qed.

Section Command.
  Context {V : Type}.
  Variable en : list string -> list string.
  Variable decode : lval V -> res ptable.
  Notation file := (list (string * h5 V)).

  (** the figure of the table stored for the target [n] in the group [dir] *)
  Definition shown (dir : file) (n : string) (fig : figure) : Prop :=
    exists a h t, at_ [n; "table"; "table"] (G dir) = Some (D (DV a)) /\
      at_ [n; "table"; "table.__table_column_meta__"] (G dir) = Some (D (DV h)) /\
      decode (LTab a h) = Ok t /\ plot_table en t = Ok fig.

  Lemma shown_plot dir out n fig : plain_dir out -> shown dir n fig -> plot_target en decode dir out n = Ok (image out n, fig).
  Proof.
    intros PD (a & h & t & A & H & DC & P). unfold plot_target, subgroup.
    cbn [at_] in A, H. destruct (sget n dir) as [[|td]|]; try discriminate. cbn [bind].
    destruct (sget "table" td) as [[|tab]|]; try discriminate. cbn [bind]. unfold read_table.
    destruct (sget "table" tab) as [x|]; [|discriminate]. injection A as ->.
    change ("table" ++ meta_suffix)%string with "table.__table_column_meta__".
    destruct (sget "table.__table_column_meta__" tab) as [y|]; [|discriminate]. injection H as ->. cbn [bind].
    rewrite DC. cbn [bind]. rewrite P. cbn [bind]. rewrite join_plain; auto.
  Qed.
  Lemma plot_all dir out fig : plain_dir out -> forall ts, (forall n, In n ts -> shown dir n (fig n)) ->
    plot_targets en decode dir out ts = (map (fun n => (image out n, fig n)) ts, Ok tt).
  Proof.
    intros PD. induction ts as [|n ts IH]; intros S; cbn; auto.
    rewrite (shown_plot dir out n (fig n)); auto; [|apply S; now left]. rewrite IH; auto. intros m I. apply S. now right.
  Qed.

  (** the names in a group, as listed *)
  Definition listing (dir : file) (names : list string) : Prop := alphabetical names /\ Permutation names (map fst dir).
  Lemma listing_sorted dir : listing dir (map fst (sort_names dir)).
  Proof. split; [apply sort_alphabetical|]. apply Permutation_map, Permutation_sym, sort_perm. Qed.

  Lemma index_in (l : list string) z : (0 <= z < Z.of_nat (length l))%Z -> py_index l z = Ok (nth (Z.to_nat z) l "").
  Proof.
    intros R. unfold py_index. destruct (Z.ltb_spec z 0); [lia|]. destruct (Z.ltb_spec z 0); [lia|].
    rewrite (nth_error_nth' l "") by lia. reflexivity.
  Qed.
  Lemma index_out (l : list string) z : (Z.of_nat (length l) <= z)%Z -> py_index l z = Err IndexError.
  Proof.
    intros R. unfold py_index. destruct (Z.ltb_spec z 0); [lia|]. destruct (Z.ltb_spec z 0); [lia|].
    rewrite (proj2 (nth_error_None l (Z.to_nat z))) by lia. reflexivity.
  Qed.
  Lemma index_all (l : list string) ids : (forall z, In z ids -> 0 <= z < Z.of_nat (length l))%Z ->
    mapM (py_index l) ids = Ok (map (fun z => nth (Z.to_nat z) l "") ids).
  Proof.
    induction ids as [|z ids IH]; intros R; cbn; auto. rewrite index_in by (apply R; now left). cbn.
    rewrite IH by (intros; apply R; now right). reflexivity.
  Qed.
  Lemma index_every : forall l : list string, map (fun z => nth (Z.to_nat z) l "") (interval 0 (Z.of_nat (length l) - 1)) = l.
  Proof.
    intros l. unfold interval. rewrite map_map. replace (Z.to_nat (Z.of_nat (length l) - 1 - 0 + 1)) with (length l) by lia.
    transitivity (map (fun i => nth i l "") (List.seq 0 (length l))).
    { apply map_ext. intros i. rewrite Z.add_0_l, Nat2Z.id. reflexivity. }
    assert (X : forall k (p l : list string), k = length p -> map (fun i => nth i (p ++ l) "") (List.seq k (length l)) = l).
    { intros k p l'. revert k p. induction l' as [|x l' IH]; intros k p ->; cbn; auto. f_equal.
      - rewrite app_nth2, Nat.sub_diag by lia. reflexivity.
      - replace (p ++ x :: l') with ((p ++ [x]) ++ l') by (rewrite <- app_assoc; reflexivity). apply IH. rewrite app_length; cbn; lia. }
    exact (X 0%nat [] l eq_refl).
  Qed.
  Lemma values_nonneg it z : item_ok it -> In z (item_values it) -> (0 <= z)%Z.
  Proof.
    assert (NV : forall n, (0 <= numeral_value n)%Z \/ ~ numeral_ok n).
    { intros n. destruct (forallb is_digit (n_digits n)) eqn:E; [left|right; unfold numeral_ok; rewrite E; intuition discriminate].
      unfold numeral_value. assert (A : forall l acc, forallb is_digit l = true -> (0 <= acc)%Z ->
        (0 <= fold_left (fun acc c => acc * 10 + (Z.of_nat (nat_of_ascii c) - 48))%Z l acc)%Z).
      { induction l as [|c l IH]; intros acc H P; cbn in *; auto. apply andb_true_iff in H as [H1 H2]. apply IH; auto.
        unfold is_digit in H1. apply andb_true_iff in H1 as [H1 _]. apply Nat.leb_le in H1. lia. }
      apply A; [auto|lia]. }
    destruct it as [n|a b]; cbn [item_ok item_values].
    - intros H [<-|[]]. destruct (NV n); tauto.
    - intros (H1 & H2) I. apply C44_interval_is_inclusive in I. destruct (NV a); [lia|tauto].
  Qed.

  (** Without any option every target of the file is drawn, in alphabetical order, each from its
      own table into an image of its own name. *)
  Theorem C107_all_targets :
    forall f dir out fig, plain_dir out -> sget "targets" f = Some (G dir) ->
      (forall n, In n (map fst dir) -> shown dir n (fig n)) ->
      exists names, listing dir names /\
        plot_main en decode (Some f) out "all" "None" = (map (fun n => (image out n, fig n)) names, Ok tt).
  Proof.
    intros f dir out fig PD T S. exists (map fst (sort_names dir)). pose proof (listing_sorted dir) as [A P]. split; [split; auto|].
    unfold plot_main, subgroup. rewrite T. change (String.eqb "all" "all") with true. cbn [bind negb andb]. unfold chosen.
    rewrite (proj1 (C44_all_and_none "all" _) eq_refl).
    rewrite index_all.
    - cbn [bind]. change (String.eqb "None" "None") with true. cbv iota.
      rewrite index_every. apply plot_all; auto. intros n I. apply S. eapply Permutation_in; eauto.
    - intros z I. apply C44_interval_is_inclusive in I. lia.
  Qed.

  (** A list of numbers and ranges: the targets with these numbers, counted from 0 in alphabetical
      order, in the order of the list (and again if a number is repeated). *)
  Theorem C107_numbered_targets :
    forall f dir out fig l, plain_dir out -> sget "targets" f = Some (G dir) -> l <> [] -> Forall item_ok l ->
      (forall z, In z (flat_map item_values l) -> (z < Z.of_nat (length dir))%Z) ->
      exists names, listing dir names /\
        let picked := map (fun z => nth (Z.to_nat z) names "") (flat_map item_values l) in
        ((forall n, In n picked -> shown dir n (fig n)) ->
         plot_main en decode (Some f) out (str_of (items_text l)) "None" = (map (fun n => (image out n, fig n)) picked, Ok tt)).
  Proof.
    intros f dir out fig l PD T N OK R. exists (map fst (sort_names dir)). split; [apply listing_sorted|]. cbv zeta. intros S.
    assert (LN : length (map fst (sort_names dir)) = length dir).
    { rewrite map_length. symmetry. apply Permutation_length, sort_perm. }
    unfold plot_main, subgroup. rewrite T. change (String.eqb "None" "None") with true. rewrite andb_false_r. cbv iota. unfold chosen.
    rewrite C44_range_expression_lists_its_integers by auto.
    rewrite index_all.
    - cbn [bind]. apply plot_all; auto.
    - intros z I. rewrite LN. split; [|auto]. apply in_flat_map in I as (it & I1 & I2).
      rewrite Forall_forall in OK. eapply values_nonneg; eauto.
  Qed.

  (** A number beyond the last target: an IndexError, and no image at all, not even of the others. *)
  Theorem C107_number_out_of_range :
    forall f dir out l z, sget "targets" f = Some (G dir) -> l <> [] -> Forall item_ok l ->
      In z (flat_map item_values l) -> (Z.of_nat (length dir) <= z)%Z ->
      plot_main en decode (Some f) out (str_of (items_text l)) "None" = ([], Err IndexError).
  Proof.
    intros f dir out l z T N OK I R.
    assert (LN : length (map fst (sort_names dir)) = length dir).
    { rewrite map_length. symmetry. apply Permutation_length, sort_perm. }
    unfold plot_main, subgroup. rewrite T. change (String.eqb "None" "None") with true. rewrite andb_false_r. cbv iota. unfold chosen.
    rewrite C44_range_expression_lists_its_integers by auto.
    assert (NN : forall z, In z (flat_map item_values l) -> (0 <= z)%Z).
    { intros y J. apply in_flat_map in J as (it & I1 & I2). rewrite Forall_forall in OK. eapply values_nonneg; eauto. }
    assert (E : mapM (py_index (map fst (sort_names dir))) (flat_map item_values l) = Err IndexError).
    { revert I NN. generalize (flat_map item_values l) as ids. induction ids as [|y ids IH]; intros I NN; [destruct I|].
      cbn. destruct (Z_lt_ge_dec y (Z.of_nat (length dir))) as [L|L].
      - rewrite index_in by (rewrite LN; split; [apply NN; now left|auto]). cbn. rewrite IH; auto.
        + destruct I as [->|I]; auto. lia.
        + intros; apply NN; now right.
      - rewrite index_out by lia. reflexivity. }
    rewrite E. reflexivity.
  Qed.

  (** A target name: that target alone, if it is in the file; otherwise nothing is drawn, and it is
      not an error. *)
  Theorem C107_named_target :
    forall f dir out name fig, plain_dir out -> sget "targets" f = Some (G dir) -> NoDup (map fst dir) -> name <> "None" ->
      (In name (map fst dir) -> shown dir name fig ->
         plot_main en decode (Some f) out "all" name = ([(image out name, fig)], Ok tt)) /\
      (~ In name (map fst dir) -> plot_main en decode (Some f) out "all" name = ([], Ok tt)).
  Proof.
    intros f dir out name fig PD T ND NN.
    assert (E : plot_main en decode (Some f) out "all" name =
                plot_targets en decode dir out (filter (fun t => String.eqb t name) (map fst (sort_names dir)))).
    { unfold plot_main, subgroup. rewrite T. change (String.eqb "all" "all") with true. cbn [negb andb]. unfold chosen.
      rewrite (proj1 (C44_all_and_none "all" _) eq_refl). rewrite index_all.
      - cbn [bind]. apply String.eqb_neq in NN. rewrite NN, index_every. reflexivity.
      - intros z I. apply C44_interval_is_inclusive in I. lia. }
    rewrite E. pose proof (listing_sorted dir) as [_ P].
    assert (ND' : NoDup (map fst (sort_names dir))) by (eapply Permutation_NoDup; [apply Permutation_sym; exact P|auto]).
    assert (F : forall l, NoDup l -> filter (fun t => String.eqb t name) l = if in_dec string_dec name l then [name] else []).
    { clear. induction l as [|x l IH]; intros ND; [reflexivity|]. inversion ND as [|? ? N1 N2]; subst. cbn [filter].
      rewrite (IH N2). destruct (String.eqb_spec x name) as [->|NE].
      - destruct (in_dec string_dec name l); [contradiction|]. destruct (in_dec string_dec name (name :: l)) as [|Q]; auto. destruct Q; now left.
      - destruct (in_dec string_dec name l); destruct (in_dec string_dec name (x :: l)) as [Q|Q]; auto.
        + destruct Q; now right.
        + destruct Q; [congruence|contradiction]. }
    rewrite (F _ ND'). split; intros I.
    - intros S. destruct (in_dec string_dec name (map fst (sort_names dir))) as [J|J].
      + apply (plot_all dir out (fun _ => fig) PD [name]). intros n [<-|[]]; auto.
      + destruct J. eapply Permutation_in; [apply Permutation_sym; exact P|auto].
    - destruct (in_dec string_dec name (map fst (sort_names dir))) as [J|J]; [|reflexivity].
      destruct I. eapply Permutation_in; eauto.
  Qed.

  (** Numbers and a name together are refused, and an expression that is neither numbers nor ranges
      is an error; nothing is drawn. *)
  Theorem C107_refused :
    forall f out number name,
      (number <> "all" -> name <> "None" -> plot_main en decode (Some f) out number name = ([], Err ValueError)) /\
      (forall dir, sget "targets" f = Some (G dir) -> parse_range number (Z.of_nat (length dir)) = None ->
         plot_main en decode (Some f) out number "None" = ([], Err TypeError)) /\
      (sget "targets" f = None -> plot_main en decode (Some f) out number "None" = ([], Err KeyError)).
  Proof.
    intros f out number name. split; [|split].
    - intros A B. apply String.eqb_neq in A, B. unfold plot_main. rewrite A, B. reflexivity.
    - intros dir T PR. unfold plot_main, subgroup. rewrite T. change (String.eqb "None" "None") with true. rewrite andb_false_r. cbv iota. unfold chosen.
      rewrite map_length, <- (Permutation_length (sort_perm dir)), PR. reflexivity.
    - intros T. unfold plot_main, subgroup. rewrite T. change (String.eqb "None" "None") with true. rewrite andb_false_r. reflexivity.
  Qed.

  (** The first target that cannot be drawn ends the command with its error; the images of the
      targets before it stay, and none after it is made. *)
  Theorem C107_first_failure_ends :
    forall f dir out fig names pre bad post e, plain_dir out -> sget "targets" f = Some (G dir) -> listing dir names ->
      names = pre ++ bad :: post -> NoDup names ->
      (forall n, In n pre -> shown dir n (fig n)) -> plot_target en decode dir out bad = Err e ->
      plot_main en decode (Some f) out "all" "None" = (map (fun n => (image out n, fig n)) pre, Err e).
  Proof.
    intros f dir out fig names pre bad post e PD T (A & P) E ND S B.
    assert (NM : map fst (sort_names dir) = names).
    { destruct (listing_sorted dir) as [A' P']. assert (PM : Permutation (map fst (sort_names dir)) names) by (eapply perm_trans; [exact P'|apply Permutation_sym; auto]).
      clear - A A' PM. revert names A A' PM. generalize (map fst (sort_names dir)) as l. unfold alphabetical.
      induction l as [|x l IH]; intros names A A' PM; [apply Permutation_nil in PM; auto|].
      destruct names as [|y names]; [apply Permutation_sym, Permutation_nil in PM; discriminate|].
      inversion A' as [|? ? A1 F1]; inversion A as [|? ? A2 F2]; subst.
      assert (x = y) as ->.
      { rewrite Forall_forall in F1, F2. assert (IX : In x (y :: names)) by (eapply Permutation_in; [exact PM|now left]).
        assert (IY : In y (x :: l)) by (eapply Permutation_in; [apply Permutation_sym; exact PM|now left]).
        destruct IX as [->|IX]; auto. destruct IY as [->|IY]; auto. apply F2 in IX. apply F1 in IY.
        unfold String.leb in *. rewrite String.compare_antisym in IY. destruct (String.compare y x) eqn:C; try discriminate.
        now apply String.compare_eq_iff in C. }
      f_equal. apply IH; auto. eapply Permutation_cons_inv; eauto. }
    unfold plot_main, subgroup. rewrite T. change (String.eqb "all" "all") with true. cbn [negb andb]. unfold chosen.
    rewrite (proj1 (C44_all_and_none "all" _) eq_refl). rewrite NM, index_all; [|intros z I; apply C44_interval_is_inclusive in I; lia].
    cbn [bind]. change (String.eqb "None" "None") with true. cbv iota.
    rewrite index_every, E. clear - PD S B. induction pre as [|n pre IH]; cbn.
    - rewrite B. reflexivity.
    - rewrite (shown_plot dir out n (fig n)); auto; [|apply S; now left]. rewrite IH; auto. intros m I. apply S. now right.
  Qed.
End Command.
Print Assumptions C107_all_targets.
Print Assumptions C107_numbered_targets.
Print Assumptions C107_number_out_of_range.
Print Assumptions C107_named_target.
Print Assumptions C107_refused.
Print Assumptions C107_first_failure_ends.

Lemma pipeline_saves {V} options output replace info arg es (prev f : option (list (string * h5 V))) :
  standard_pipeline options output replace info arg (Ok es) prev = (f, Ok tt) -> exists g, save_targets g info es = (f, Ok tt).
Proof.
  unfold standard_pipeline. destruct (String.eqb options output && _); [discriminate|].
  match goal with |- context [match ?p with (_, _) => _ end = _] => destruct p as [g [u|e]] end; [|discriminate]. eauto.
Qed.

(** From a run to its figures: after the run of C105 with targets whose tables can be drawn, the
    command makes one image per target, from the table of that target. *)
Theorem C107_figures_of_a_run :
  forall (V : Type) en (decode : lval V -> res ptable) (unit_ok : string -> bool) options output info payload
         (qs : list (M_Pipeline.channel V * table V * list (string * item V) * instrument_class))
         (ts : list (string * list (string * item V))) prev out fig,
    options <> output -> NoDup (map fst info) -> storable unit_ok (IDict payload) ->
    (forall c t b k, In (c, t, b, k) qs -> loadable unit_ok c t b k) ->
    NoDup (map (fun q => let '(c, _, _, _) := q in c_name c) qs) ->
    (forall n d, In (n, d) ts -> storable unit_ok (IDict d)) -> NoDup (map fst ts) -> ts <> [] -> plain_dir out ->
    (forall n d, In (n, d) ts -> exists sub x t, In ("table", IDict sub) d /\ In ("table", ITab x) sub /\
       decode (LTab (tb_array x) (tb_header x)) = Ok t /\ plot_table en t = Ok (fig n)) ->
    exists f names,
      standard_pipeline options output true info (Xml payload (map (fun q => let '(c, _, _, _) := q in c) qs))
        (Ok (map (fun e => (Some (fst e), Some (snd e))) ts)) prev = (Some f, Ok tt) /\
      alphabetical names /\ Permutation names (map fst ts) /\
      plot_main en decode (Some f) out "all" "None" = (map (fun n => (image out n, fig n)) names, Ok tt).
Proof.
  intros V en decode unit_ok options output info payload qs ts prev out fig NO NI SP LQ NQ STT NT NE PD DT.
  destruct (C105_a_run_is_read_back V unit_ok options output info payload qs ts prev NO NI SP LQ NQ STT NT)
    as (f & p & chs & RUN & _ & _ & _ & _ & SN & RD & _).
  unfold saved_names in SN. destruct (sget "targets" f) as [[|dir]|] eqn:T.
  1,3: destruct ts; [congruence|discriminate].
  destruct (C107_all_targets en decode f dir out fig PD T) as (names & (A & P) & E).
  - intros n I. rewrite SN in I. apply in_map_iff in I as ((n' & d) & <- & I). cbn [fst].
    destruct (DT _ _ I) as (sub & x & t & J1 & J2 & DC & PL).
    destruct (pipeline_saves _ _ _ _ _ _ _ _ RUN) as (g & SV).
    assert (I' : In (Some n', Some d) (map (fun e => (Some (fst e), Some (snd e))) ts)).
    { apply in_map_iff. exists (n', d). auto. }
    assert (W1 : wants d ["table"; "table"] (DV (tb_array x))) by (eapply W_dict; [exact J1|apply W_table; auto]).
    assert (W2 : wants d ["table"; "table.__table_column_meta__"] (DV (tb_header x))).
    { eapply W_dict; [exact J1|]. exact (W_header sub "table" x J2). }
    pose proof (C39_saved_targets_are_complete _ _ _ _ _ _ _ _ _ SV I' W1) as A1.
    pose proof (C39_saved_targets_are_complete _ _ _ _ _ _ _ _ _ SV I' W2) as A2.
    cbn [file_at] in A1, A2. exists (tb_array x), (tb_header x), t.
    change (at_ ("targets" :: [n'; "table"; "table"]) (G f) = Some (D (DV (tb_array x)))) in A1.
    change (at_ ("targets" :: [n'; "table"; "table.__table_column_meta__"]) (G f) = Some (D (DV (tb_header x)))) in A2.
    split; [|split; [|auto]].
    + cbn [at_] in A1 |- *. rewrite T in A1. exact A1.
    + cbn [at_] in A2 |- *. rewrite T in A2. exact A2.
  - exists f, names. split; auto. split; auto. split; auto. rewrite <- SN. auto.
Qed.
Print Assumptions C107_figures_of_a_run.

(** Two targets saved with tables, drawn from the file. *)
Definition small_dir : list (string * h5 nat) :=
  [("HD 2", G [("table", G [("table", D (DV 1)); ("table.__table_column_meta__", D (DV 0))])]);
              ("HD 1", G [("table", G [("table", D (DV 2)); ("table.__table_column_meta__", D (DV 0))])])]%nat.
Definition small_decode (v : lval nat) : res ptable :=
  match v with LTab 1 _ => Ok two_channels | LTab 2 _ => Ok two_channels | _ => Err OtherError end%nat.
Example C107_ex :
  exists fig, (forall n, In n (map fst small_dir) -> shown here small_decode small_dir n fig) /\ plain_dir "figures" /\
    plot_main here small_decode (Some [("targets", G small_dir)]) "figures" "all" "None" =
      ([("figures/HD 1.png", fig); ("figures/HD 2.png", fig)], Ok tt) /\
    plot_main here small_decode (Some [("targets", G small_dir)]) "figures" "1,0" "None" =
      ([("figures/HD 2.png", fig); ("figures/HD 1.png", fig)], Ok tt) /\
    plot_main here small_decode (Some [("targets", G small_dir)]) "figures" "0-2" "None" = ([], Err IndexError).
Proof.
  destruct C106_ex as (fig & H & _). exists fig.
  assert (SH : forall n, In n (map fst small_dir) -> shown here small_decode small_dir n fig).
  { intros n [<-|[<-|[]]]; cbn [fst]; eexists _, _, _; (split; [reflexivity|]; split; [reflexivity|]; split; [reflexivity|exact H]). }
  assert (PD : plain_dir "figures").
  { split; [discriminate|]. intros p E.
    assert (X : rev (str_chars "figures") = rev (str_chars (p ++ "/"))) by (rewrite E; reflexivity).
    rewrite str_chars_app, rev_app_distr in X. discriminate. }
  assert (M : forall number ts, chosen number "None" small_dir = Ok ts -> (forall n, In n ts -> In n (map fst small_dir)) ->
            plot_main here small_decode (Some [("targets", G small_dir)]) "figures" number "None" = (map (fun n => (image "figures" n, fig)) ts, Ok tt)).
  { intros number ts C I. unfold plot_main. change (String.eqb "None" "None") with true. rewrite andb_false_r.
    change (subgroup [("targets", G small_dir)] "targets") with (Ok small_dir). cbv iota. rewrite C.
    apply (plot_all here small_decode small_dir "figures" (fun _ => fig) PD). intros n J. auto. }
  split; [exact SH|]. split; [exact PD|]. split; [|split].
  - apply (M "all" ["HD 1"; "HD 2"]); [vm_compute; reflexivity|cbn; intuition].
  - apply (M "1,0" ["HD 2"; "HD 1"]); [vm_compute; reflexivity|cbn; intuition].
  - unfold plot_main. change (String.eqb "None" "None") with true. rewrite andb_false_r.
    change (subgroup [("targets", G small_dir)] "targets") with (Ok small_dir). cbv iota.
    assert (chosen "0-2" "None" small_dir = Err IndexError) as -> by (vm_compute; reflexivity). reflexivity.
Qed.
