(** Lemmas about tables. *)
From Verif Require Import Base Dict XR M_Table S_Table.
Open Scope list_scope.

Lemma sget_app {V} (c : string) (a b : list (string * V)) :
  sget c (a ++ b) = match sget c a with Some v => Some v | None => sget c b end.
Proof. induction a as [|[k v] a IH]; cbn; auto. destruct (String.eqb c k); auto. Qed.
Lemma sget_None_names (c : string) (t : table) : sget c t = None <-> ~ In c (names t).
Proof. apply (dget_None_notIn _ String_eqb_spec). Qed.
Lemma sget_names (c : string) (t : table) : In c (names t) <-> exists col, sget c t = Some col.
Proof. apply (dget_In_keys _ String_eqb_spec). Qed.
Lemma smem_names (c : string) (t : table) : smem c t = true <-> In c (names t).
Proof. apply (dmem_In _ String_eqb_spec). Qed.
Lemma smem_false_names (c : string) (t : table) : smem c t = false <-> ~ In c (names t).
Proof. apply (dmem_notIn _ String_eqb_spec). Qed.
Lemma sget_In (c : string) (t : table) col : sget c t = Some col -> In (c, col) t.
Proof. apply (dget_Some_In _ String_eqb_spec). Qed.
Lemma In_sget (c : string) (t : table) col : NoDup (names t) -> In (c, col) t -> sget c t = Some col.
Proof. apply (NoDup_In_dget _ String_eqb_spec). Qed.

Lemma wf_length t c col : well_formed t -> sget c t = Some col -> length col = n_rows t.
Proof. intros [_ W] G. apply (W c). apply sget_In; auto. Qed.

Lemma zero_of_like v z : zero_of v = Ok z <-> zero_like v z.
Proof.
  split.
  - destruct v as [x|s|]; [|discriminate|intros [= <-]; constructor]. unfold zero_of.
    intros E. assert (E' : z = Num (xmul (Fin 0) x)) by congruence. rewrite E'. clear E E'.
    destruct x as [x| | |]; [rewrite xzero_mul_fin; constructor| | |];
      (rewrite xzero_mul_nonfin by (intros [? ?]; discriminate); constructor; intros [? ?]; discriminate).
  - intros H; destruct H; unfold zero_of.
    + rewrite xzero_mul_fin. reflexivity.
    + rewrite xzero_mul_nonfin; auto.
    + reflexivity.
Qed.
Lemma zero_like_idem v z : zero_like v z -> zero_like z z.
Proof. intros H; destruct H; constructor. intros [? ?]; discriminate. Qed.

(** firsts *)
Lemma firsts_In l x : In x (firsts String.eqb l) <-> In x l.
Proof.
  assert (K : map fst (dof_list String.eqb (map (fun x => (x, tt)) l)) = firsts String.eqb l).
  { rewrite keys_dof_list, map_map, map_id. reflexivity. }
  rewrite <- K. unfold dof_list. rewrite (dupdate_In_keys _ String_eqb_spec), map_map, map_id. cbn. tauto.
Qed.
Lemma firsts_NoDup l : NoDup (firsts String.eqb l).
Proof.
  assert (K : map fst (dof_list String.eqb (map (fun x => (x, tt)) l)) = firsts String.eqb l).
  { rewrite keys_dof_list, map_map, map_id. reflexivity. }
  rewrite <- K. apply (dupdate_NoDup _ String_eqb_spec). constructor.
Qed.
Lemma firsts_app l1 l2 : NoDup l2 ->
  firsts String.eqb (l1 ++ l2)
  = firsts String.eqb l1 ++ filter (fun x => negb (existsb (String.eqb x) (firsts String.eqb l1))) l2.
Proof.
  unfold firsts at 1. rewrite fold_left_app. fold (firsts String.eqb l1). generalize (firsts String.eqb l1) as acc.
  intros acc ND. revert acc. induction l2 as [|x l2 IH]; intros acc; cbn; [rewrite app_nil_r; auto|].
  inversion ND as [|? ? N ND']; subst. rewrite IH by auto. destruct (existsb (String.eqb x) acc) eqn:E; cbn; auto.
  rewrite <- app_assoc. cbn. f_equal. f_equal. apply filter_ext_in. intros y I.
  rewrite existsb_app. cbn. destruct (String.eqb_spec y x) as [->|]; [contradiction|].
  rewrite !orb_false_r. reflexivity.
Qed.
Lemma existsb_names c (l : list string) : existsb (String.eqb c) l = true <-> In c l.
Proof.
  rewrite existsb_exists. split.
  - intros (y & I & E). apply String_eqb_spec in E. subst; auto.
  - intros I. exists c. split; auto. apply String.eqb_refl.
Qed.
Lemma firsts_NoDup_id l : NoDup l -> firsts String.eqb l = l.
Proof. intros ND. rewrite <- (app_nil_l l) at 1. rewrite firsts_app by auto. cbn. induction l; cbn; auto. f_equal. inversion ND; auto. Qed.

(** filling *)
Lemma n_rows_app_fill t c z : n_rows (t ++ [(c, repeat z (n_rows t))]) = n_rows t.
Proof. destruct t as [|[k col] t]; cbn; auto. Qed.

Lemma fill_missing_spec from to to' : NoDup (names from) -> fill_missing from to = Ok to' ->
  exists extra, to' = to ++ extra /\
    names extra = filter (fun c => negb (smem c to)) (names from) /\
    forall c col, In (c, col) extra -> ~ In c (names to) /\
      exists v rest z, sget c from = Some (v :: rest) /\ zero_like v z /\ col = repeat z (n_rows to).
Proof.
  revert to. induction from as [|[c col] from IH]; intros to ND H; cbn in H.
  - injection H as <-. exists []. rewrite app_nil_r. cbn. split; auto. split; auto. intros ? ? [].
  - inversion ND as [|? ? NI ND']; subst. cbn [names map fst filter].
    destruct (smem c to) eqn:M.
    + destruct (IH to ND' H) as (extra & E & N & F). exists extra. split; auto. cbn [negb]. split; auto.
      intros c' col' I. destruct (F c' col' I) as (NT & v & rest & z & G & Z & EC). split; auto.
      exists v, rest, z. split; auto. cbn. destruct (String.eqb_spec c' c) as [->|]; auto.
      exfalso. apply NT. apply smem_names; auto.
    + destruct col as [|v rest]; [discriminate|].
      destruct (zero_of v) as [z|] eqn:Z; cbn in H; [|discriminate]. apply zero_of_like in Z.
      destruct (IH _ ND' H) as (extra & E & N & F).
      exists ((c, repeat z (n_rows to)) :: extra). split; [rewrite E, <- app_assoc; auto|]. cbn [negb].
      split.
      * cbn [names map fst]. f_equal. unfold names at 1 in N. rewrite N. apply filter_ext_in. intros y I. f_equal.
        unfold dmem. rewrite sget_app. cbn.
        destruct (String.eqb_spec y c) as [->|]; [contradiction|]. destruct (sget y to); auto.
      * intros c' col' [[= <- <-]|I].
        -- split; [apply smem_false_names; auto|]. exists v, rest, z. cbn. rewrite String.eqb_refl. auto.
        -- destruct (F c' col' I) as (NT & v' & rest' & z' & G & Z' & EC).
           rewrite n_rows_app_fill in EC. unfold names in NT. rewrite map_app, in_app_iff in NT. cbn in NT.
           split; [tauto|]. exists v', rest', z'. split; auto. cbn.
           destruct (String.eqb_spec c' c) as [->|]; auto. tauto.
Qed.

Lemma fill_extended from to to' : NoDup (names from) -> fill_missing from to = Ok to' -> extended to to'.
Proof.
  intros ND H. destruct (fill_missing_spec _ _ _ ND H) as (extra & E & _ & F). exists extra. split; auto.
  intros c col I. destruct (F c col I) as (N & v & rest & z & _ & _ & EC). eauto.
Qed.

Lemma fill_get from to to' c : NoDup (names from) -> fill_missing from to = Ok to' ->
  match sget c to with
  | Some col => sget c to' = Some col
  | None => match sget c from with
            | None => sget c to' = None
            | Some fc => exists v rest z, fc = v :: rest /\ zero_like v z /\ sget c to' = Some (repeat z (n_rows to))
            end
  end.
Proof.
  intros ND H. destruct (fill_missing_spec _ _ _ ND H) as (extra & -> & N & F). rewrite sget_app.
  destruct (sget c to) as [col|] eqn:G; auto.
  destruct (sget c from) as [fc|] eqn:GF.
  - assert (I : In c (names extra)).
    { rewrite N. apply filter_In. split; [apply sget_names; eauto|]. unfold dmem. rewrite G. auto. }
    apply sget_names in I as [col I]. rewrite I. apply sget_In in I.
    destruct (F _ _ I) as (_ & v & rest & z & G' & Z & ->). exists v, rest, z. split; [congruence|]. auto.
  - destruct (sget c extra) as [col|] eqn:GE; auto. apply sget_In in GE.
    destruct (F _ _ GE) as (_ & v & rest & z & G' & _). congruence.
Qed.

Lemma fill_n_rows from to to' : NoDup (names from) -> fill_missing from to = Ok to' -> n_rows to' = n_rows to.
Proof.
  intros ND H. destruct (fill_missing_spec _ _ _ ND H) as (extra & -> & N & F).
  destruct to as [|[k col] to]; cbn; auto. destruct extra as [|[c col] extra]; auto. cbn.
  destruct (F c col (or_introl eq_refl)) as (_ & v & rest & z & _ & _ & ->). apply repeat_length.
Qed.

Lemma vstack2_get a b c : sget c (vstack2 a b)
  = option_map (fun col => col ++ match sget c b with Some x => x | None => [] end) (sget c a).
Proof.
  unfold vstack2. induction a as [|[k col] a IH]; cbn; auto.
  destruct (String.eqb_spec c k) as [->|]; auto.
Qed.
Lemma vstack2_names a b : names (vstack2 a b) = names a.
Proof. unfold names, vstack2. rewrite map_map. reflexivity. Qed.

Fixpoint total_rows (ts : list table) : nat :=
  match ts with [] => 0 | t :: ts' => n_rows t + total_rows ts' end.

Lemma block_length c z t : well_formed t -> length (block c z t) = n_rows t.
Proof.
  intros W. unfold block. destruct (sget c t) eqn:G; [eapply wf_length; eauto|apply repeat_length].
Qed.
Lemma blocks_length c z ts : Forall ok_table ts -> length (concat (map (block c z) ts)) = total_rows ts.
Proof.
  induction 1 as [|t ts [W _] F IH]; cbn; auto. rewrite app_length, block_length, IH; auto.
Qed.
Lemma blocks_no_fill c z z' ts : (forall u, In u ts -> sget c u <> None) ->
  concat (map (block c z) ts) = concat (map (block c z') ts).
Proof.
  intros H. f_equal. apply map_ext_in. intros u I. unfold block. destruct (sget c u) eqn:G; auto.
  exfalso; eapply H; eauto.
Qed.
Lemma blocks_absent c z ts : (forall u, In u ts -> sget c u = None) ->
  concat (map (block c z) ts) = repeat z (total_rows ts).
Proof.
  intros H. induction ts as [|t ts IH]; cbn; auto. rewrite IH by (intros; apply H; cbn; auto).
  unfold block. rewrite H by (cbn; auto). rewrite <- repeat_app. auto.
Qed.

Lemma first_value_app c ts ts' v : first_value c ts v -> first_value c (ts ++ ts') v.
Proof.
  intros (pre & t & post & rest & -> & N & G). exists pre, t, (post ++ ts'), rest.
  rewrite <- app_assoc. cbn. auto.
Qed.

Lemma stacked_names_In ts t c : stacked ts t -> In c (names t) <-> exists u, In u ts /\ sget c u <> None.
Proof.
  intros [N _]. rewrite N, firsts_In, in_concat. split.
  - intros (l & I & J). apply in_map_iff in I as (u & <- & I). exists u. split; auto.
    intros G. apply sget_None_names in G. contradiction.
  - intros (u & I & G). exists (names u). split; [apply in_map; auto|].
    destruct (sget c u) eqn:E; [|congruence]. apply sget_names; eauto.
Qed.

(** All columns of a stack have as many cells as there are rows. *)
Lemma stacked_wf ts t : stacked ts t -> Forall ok_table ts -> ts <> [] ->
  well_formed t /\ n_rows t = total_rows ts /\ n_rows t > 0.
Proof.
  intros ST OK NE. pose proof ST as [N C].
  assert (L : forall c col, In (c, col) t -> length col = total_rows ts).
  { intros c col I. assert (ND : NoDup (names t)) by (rewrite N; apply firsts_NoDup).
    apply In_sget in I; auto. destruct (C c) as (z & G & _); [apply sget_names; eauto|].
    rewrite I in G. injection G as ->. apply blocks_length; auto. }
  assert (TNE : t <> []).
  { destruct ts as [|t0 ts]; [congruence|]. inversion OK as [|? ? [W R] ?]; subst.
    destruct t0 as [|[c0 col0] t0]; [cbn in R; lia|].
    intros ->. assert (I : In c0 (names [])).
    { rewrite N. apply firsts_In. cbn. auto. } destruct I. }
  assert (NR : n_rows t = total_rows ts).
  { destruct t as [|[c col] t]; [congruence|]. cbn. apply (L c). cbn; auto. }
  split; [|split; auto].
  - split; [rewrite N; apply firsts_NoDup|]. intros c col I. rewrite NR. eapply L; eauto.
  - rewrite NR. destruct ts; [congruence|]. inversion OK as [|? ? [W R] ?]; subst. cbn. lia.
Qed.

(** The first cell of a stacked column, when column c is missing somewhere or going to be *)
Lemma stacked_head ts t c v rest : stacked ts t -> Forall ok_table ts -> ts <> [] ->
  sget c t = Some (v :: rest) -> exists w, first_value c ts w /\ forall z, zero_like v z -> zero_like w z.
Proof.
  intros ST OK NE G. destruct ST as [N C]. destruct (C c) as (z & G' & Z); [apply sget_names; eauto|].
  rewrite G in G'. destruct ts as [|t0 ts]; [congruence|]. cbn in G'. injection G' as G'.
  inversion OK as [|? ? [W R] ?]; subst. unfold block in G' at 1. destruct (sget c t0) as [c0|] eqn:G0.
  - assert (LEN : length c0 = n_rows t0) by (eapply wf_length; eauto). destruct c0 as [|v0 c0]; [cbn in *; lia|].
    cbn in G'. injection G' as <- _. exists v. split; auto. exists [], t0, ts, c0. repeat split; auto. intros ? [].
  - destruct (n_rows t0) as [|n] eqn:E; [lia|]. cbn in G'. injection G' as -> _.
    destruct (Z (ex_intro _ t0 (conj (or_introl eq_refl) G0))) as (w & FV & ZL).
    exists w. split; auto. intros z' ZL'. apply zero_like_idem in ZL as ZZ.
    assert (z' = z); [|subst; auto].
    apply zero_of_like in ZZ. apply zero_of_like in ZL'. congruence.
Qed.

Lemma stacked_step ts t tab t' tab' st : stacked ts t -> Forall ok_table ts -> ts <> [] -> ok_table tab ->
  stack_step t tab = Ok (t', tab', st) -> stacked (ts ++ [tab]) st /\ extended tab tab' /\ extended t t'.
Proof.
  intros ST OK NE [W R] H. unfold stack_step in H.
  destruct (fill_missing t tab) as [tab1|] eqn:F1; cbn in H; [|discriminate].
  destruct (fill_missing tab1 t) as [t1|] eqn:F2; cbn in H; [|discriminate]. injection H as <- <- <-.
  destruct (stacked_wf _ _ ST OK NE) as ([NDT _] & NRT & _).
  assert (ND1 : NoDup (names tab1)).
  { destruct (fill_missing_spec _ _ _ NDT F1) as (extra & -> & NX & _). unfold names in *. rewrite map_app.
    destruct W as [NDW _]. rewrite NX.
    assert (NF : NoDup (filter (fun c => negb (smem c tab)) (map fst t))) by (apply NoDup_filter; auto).
    revert NF. assert (DJ : forall x, In x (filter (fun c => negb (smem c tab)) (map fst t)) -> ~ In x (map fst tab)).
    { intros x I. apply filter_In in I as [_ I]. apply smem_false_names. destruct (smem x tab); auto; discriminate. }
    revert DJ. generalize (filter (fun c => negb (smem c tab)) (map fst t)) as l. intros l DJ NF.
    clear - NDW DJ NF. unfold names in NDW. induction (map fst tab) as [|a m IH]; cbn; auto.
    inversion NDW; subst. constructor; [|apply IH; auto; intros x I J; apply (DJ x I); cbn; auto].
    rewrite in_app_iff. intros [I|I]; [auto|]. apply (DJ a I). cbn; auto. }
  split; [|split; [exact (fill_extended _ _ _ NDT F1)|exact (fill_extended _ _ _ ND1 F2)]].
  split.
  - rewrite vstack2_names, map_app, concat_app. cbn. rewrite app_nil_r.
    rewrite firsts_app by (destruct W; auto). destruct ST as [N _]. rewrite <- N.
    destruct (fill_missing_spec _ _ _ ND1 F2) as (extra & -> & NX & _). unfold names at 1. rewrite map_app.
    f_equal. fold (names extra). rewrite NX.
    destruct (fill_missing_spec _ _ _ NDT F1) as (extra1 & -> & NX1 & _). unfold names at 1. rewrite map_app, filter_app.
    fold (names extra1). rewrite NX1.
    assert (E0 : filter (fun c => negb (smem c t)) (filter (fun c => negb (smem c tab)) (names t)) = []).
    { clear. assert (H : forall l, (forall x, In x l -> In x (names t)) -> filter (fun c => negb (smem c t)) l = []).
      { induction l as [|a l IH]; intros S; cbn; auto. rewrite IH by (intros; apply S; cbn; auto).
        assert (M : smem a t = true) by (apply smem_names, S; cbn; auto). rewrite M. auto. }
      apply H. intros x I. apply filter_In in I as [I _]; auto. }
    rewrite E0, app_nil_r. apply filter_ext. intros a. f_equal.
    destruct (existsb (String.eqb a) (names t)) eqn:E.
    + apply existsb_names in E. apply smem_names; auto.
    + apply smem_false_names. intros I. apply existsb_names in I. congruence.
  - intros c IC. rewrite vstack2_names in IC.
    pose proof (fill_get _ _ _ c NDT F1) as G1. pose proof (fill_get _ _ _ c ND1 F2) as G2.
    rewrite vstack2_get.
    destruct (sget c t) as [ct|] eqn:CT.
    + rewrite G2. cbn [option_map]. pose proof ST as [_ C].
      destruct (C c) as (z & G & Z); [apply sget_names; eauto|]. rewrite CT in G. injection G as G.
      destruct (sget c tab) as [ctab|] eqn:CTAB.
      * rewrite G1. exists z. rewrite map_app, concat_app. cbn. rewrite app_nil_r. unfold block at 2. rewrite CTAB.
        split; [congruence|]. intros (u & I & GU). apply in_app_iff in I as [I|[<-|[]]]; [|congruence].
        destruct Z as (v & FV & ZL); eauto. exists v. split; auto. apply first_value_app; auto.
      * destruct G1 as (v & rest & z1 & E & ZL & G1). rewrite G1.
        rewrite E in CT. destruct (stacked_head ts t c v rest ST OK NE CT) as (w & FW & ZW).
        exists z1. rewrite map_app, concat_app. cbn. rewrite app_nil_r. unfold block at 2. rewrite CTAB.
        split.
        -- rewrite G. f_equal. f_equal.
           destruct (List.Exists_dec (fun u => sget c u = None) ts) as [X|NX].
           { intros u. destruct (sget c u); [right; discriminate|left; auto]. }
           ++ apply Exists_exists in X. destruct (Z X) as (w' & FW' & ZW').
              assert (w' = w).
              { clear - FW FW'. destruct FW as (p & t & q & r & E1 & N1 & G1), FW' as (p' & t' & q' & r' & E2 & N2 & G2).
                subst ts. revert p' E2 N2. induction p as [|a p IH]; intros [|a' p'] E2 N2.
                - cbn in E2. injection E2 as E2 _. congruence.
                - cbn in E2. injection E2 as <- _. rewrite N2 in G1 by (cbn; auto). discriminate.
                - cbn in E2. injection E2 as -> _. rewrite N1 in G2 by (cbn; auto). discriminate.
                - cbn in E2. injection E2 as <- E2. apply (IH (fun u I => N1 u (or_intror I)) p' E2).
                  intros; apply N2; cbn; auto. }
              subst w'. specialize (ZW _ ZL). apply zero_of_like in ZW. apply zero_of_like in ZW'.
              assert (z = z1) by congruence. subst; auto.
           ++ apply blocks_no_fill. intros u I EU. apply NX. apply Exists_exists; eauto.
        -- intros _. exists w. split; [apply first_value_app; auto|auto].
    + destruct (sget c tab) as [ctab|] eqn:CTAB.
      * rewrite G1 in G2. destruct G2 as (v & rest & z & E & ZL & G2). rewrite G2. cbn. rewrite G1.
        assert (AB : forall u, In u ts -> sget c u = None).
        { intros u I. destruct (sget c u) eqn:GU; auto. exfalso.
          assert (X : In c (names t)). { apply (stacked_names_In ts t c ST). exists u. split; auto. congruence. }
          apply sget_names in X as [? X]. congruence. }
        exists z. rewrite map_app, concat_app. cbn. rewrite app_nil_r. rewrite blocks_absent by auto.
        unfold block. rewrite CTAB, NRT. split; auto. intros _. exists v. split; auto.
        exists ts, tab, [], rest. subst ctab. auto.
      * exfalso. rewrite G1 in G2. apply sget_None_names in G2. contradiction.
Qed.

Lemma stacked_one t : well_formed t -> stacked [t] t.
Proof.
  intros [ND W]. split.
  - cbn. rewrite app_nil_r. symmetry. apply firsts_NoDup_id; auto.
  - intros c I. apply sget_names in I as [col G]. exists Masked. cbn. rewrite app_nil_r.
    unfold block. rewrite G. split; auto. intros (u & [<-|[]] & E). congruence.
Qed.

Lemma extended_refl t : extended t t.
Proof. exists []. rewrite app_nil_r. split; auto. intros ? ? []. Qed.

Lemma stack_rest_spec tabs : forall ts t ins r, stacked ts t -> Forall ok_table ts -> ts <> [] -> Forall ok_table tabs ->
  stack_rest t tabs = Ok (ins, r) -> stacked (ts ++ tabs) r /\ Forall2 extended tabs ins.
Proof.
  induction tabs as [|tab tabs IH]; intros ts t ins r ST OK NE OKT H; cbn in H.
  - injection H as <- <-. rewrite app_nil_r. auto.
  - inversion OKT as [|? ? O1 O2]; subst.
    destruct (stack_step t tab) as [[[t' tab'] st]|] eqn:S; cbn in H; [|discriminate].
    destruct (stack_rest st tabs) as [[rest r']|] eqn:SR; cbn in H; [|discriminate]. injection H as <- <-.
    destruct (stacked_step _ _ _ _ _ _ ST OK NE O1 S) as (ST' & EX & _).
    destruct (IH (ts ++ [tab]) st rest r' ST') as [A B]; auto.
    + apply Forall_app; auto.
    + destruct ts; discriminate.
    + rewrite <- app_assoc in A. cbn in A. auto.
Qed.

Lemma vstack_spec tabs ins r : Forall ok_table tabs -> tabs <> [] -> vstack_tables tabs = Ok (ins, r) ->
  exists t, r = Some t /\ stacked tabs t /\ Forall2 extended tabs ins.
Proof.
  intros OK NE H. unfold vstack_tables in H. destruct tabs as [|tab tabs]; [congruence|]. cbn [vstack_go] in H.
  inversion OK as [|? ? O1 O2]; subst. destruct O1 as [W R]. destruct (Nat.eqb_spec (n_rows tab) 0); [lia|].
  destruct tabs as [|tab2 tabs].
  - injection H as <- <-. exists tab. split; auto. split; [apply stacked_one; auto|].
    constructor; auto. apply extended_refl.
  - inversion O2 as [|? ? O3 O4]; subst.
    destruct (stack_step tab tab2) as [[[t1 t2] st]|] eqn:S; cbn in H; [|discriminate].
    destruct (stack_rest st tabs) as [[rest r']|] eqn:SR; cbn in H; [|discriminate]. injection H as <- <-.
    destruct (stacked_step [tab] tab tab2 t1 t2 st) as (ST & E2 & E1); auto.
    + apply stacked_one; auto.
    + constructor; [split; auto|constructor].
    + discriminate.
    + destruct (stack_rest_spec tabs ([tab] ++ [tab2]) st rest r' ST) as [A B]; auto.
      * repeat constructor; auto; try apply W; try apply O3.
      * discriminate.
      * exists r'. split; auto.
Qed.

(** When it succeeds *)
Lemma fill_missing_ok from to : NoDup (names from) ->
  (forall c col, sget c from = Some col -> sget c to = None ->
     exists v rest, col = v :: rest /\ forall s, v <> Txt s) ->
  exists to', fill_missing from to = Ok to'.
Proof.
  revert to. induction from as [|[c col] from IH]; intros to ND H; cbn; eauto.
  inversion ND as [|? ? NI ND']; subst.
  assert (GC : sget c ((c, col) :: from) = Some col) by (cbn; rewrite String.eqb_refl; auto).
  destruct (smem c to) eqn:M.
  - apply IH; auto. intros c' col' G N. apply (H c' col'); auto. cbn.
    destruct (String.eqb_spec c' c) as [->|]; auto. exfalso. apply NI. apply sget_names; eauto.
  - assert (N : sget c to = None) by (apply sget_None_names, smem_false_names; auto).
    destruct (H c col GC N) as (v & rest & -> & NT).
    destruct (zero_of v) as [z|] eqn:Z; [|destruct v; try discriminate; exfalso; eapply NT; eauto].
    cbn. apply IH; auto. intros c' col' G N'. apply (H c' col').
    + cbn. destruct (String.eqb_spec c' c) as [->|]; auto. exfalso. apply NI. apply sget_names; eauto.
    + rewrite sget_app in N'. destruct (sget c' to); congruence.
Qed.

Lemma block_head_txt c z ts s rest : Forall ok_table ts -> (forall s', z <> Txt s') ->
  concat (map (block c z) ts) = Txt s :: rest -> exists t rest', In t ts /\ sget c t = Some (Txt s :: rest').
Proof.
  intros OK NZ H. destruct ts as [|t ts]; [discriminate|]. inversion OK as [|? ? [W R] ?]; subst. cbn in H.
  unfold block in H at 1. destruct (sget c t) as [ct|] eqn:G.
  - assert (LEN : length ct = n_rows t) by (eapply wf_length; eauto). destruct ct as [|x ct]; [cbn in *; lia|].
    cbn in H. injection H as -> _. exists t, ct. split; cbn; auto.
  - destruct (n_rows t); [lia|]. cbn in H. injection H as -> _. exfalso; eapply NZ; eauto.
Qed.

Lemma stack_step_ok ts t tab : stacked ts t -> Forall ok_table ts -> ts <> [] -> ok_table tab ->
  fillable (ts ++ [tab]) -> exists x, stack_step t tab = Ok x.
Proof.
  intros ST OK NE [W R] FL. unfold stack_step. destruct (stacked_wf _ _ ST OK NE) as ([NDT LT] & NRT & R0).
  destruct (fill_missing_ok t tab NDT) as [tab1 F1].
  { intros c col G N. assert (LC : length col = n_rows t) by (eapply LT; apply sget_In; eauto).
    destruct col as [|v rest]; [cbn in *; lia|]. exists v, rest. split; auto. intros s ->.
    pose proof ST as [_ C]. destruct (C c) as (z & G' & Z); [apply sget_names; eauto|]. rewrite G in G'. injection G' as G'.
    destruct (List.Exists_dec (fun u => sget c u = None) ts) as [X|NX].
    { intros u. destruct (sget c u); [right; discriminate|left; auto]. }
    - apply Exists_exists in X. destruct (Z X) as (w & _ & ZL).
      destruct (block_head_txt c z ts s rest OK) as (u & rest' & I & GU); auto.
      { intros s' ->. inversion ZL. }
      apply (FL u tab c s rest'); auto; apply in_app_iff; cbn; auto.
    - rewrite (blocks_no_fill c z Masked) in G'.
      2: { intros u I EU. apply NX. apply Exists_exists; eauto. }
      destruct (block_head_txt c Masked ts s rest OK) as (u & rest' & I & GU); auto; try discriminate.
      apply (FL u tab c s rest'); auto; apply in_app_iff; cbn; auto. }
  rewrite F1. cbn.
  assert (ND1 : NoDup (names tab1)).
  { destruct (fill_missing_spec _ _ _ NDT F1) as (extra & -> & NX & _). unfold names in *. rewrite map_app.
    destruct W as [NDW _]. rewrite NX.
    assert (NF : NoDup (filter (fun c => negb (smem c tab)) (map fst t))) by (apply NoDup_filter; auto).
    revert NF. assert (DJ : forall x, In x (filter (fun c => negb (smem c tab)) (map fst t)) -> ~ In x (map fst tab)).
    { intros x I. apply filter_In in I as [_ I]. apply smem_false_names. destruct (smem x tab); auto; discriminate. }
    revert DJ. generalize (filter (fun c => negb (smem c tab)) (map fst t)) as l. intros l DJ NF.
    clear - NDW DJ NF. unfold names in NDW. induction (map fst tab) as [|a m IH]; cbn; auto.
    inversion NDW; subst. constructor; [|apply IH; auto; intros x I J; apply (DJ x I); cbn; auto].
    rewrite in_app_iff. intros [I|I]; [auto|]. apply (DJ a I). cbn; auto. }
  destruct (fill_missing_ok tab1 t ND1) as [t1 F2].
  { intros c col G N. pose proof (fill_get _ _ _ c NDT F1) as G1. rewrite N in G1.
    destruct (sget c tab) as [ctab|] eqn:CTAB; [|congruence]. rewrite G in G1. injection G1 as <-.
    assert (LC : length col = n_rows tab) by (eapply wf_length; eauto).
    destruct col as [|v rest]; [cbn in *; lia|]. exists v, rest. split; auto. intros s ->.
    destruct ts as [|t0 ts]; [congruence|].
    apply (FL tab t0 c s rest); auto; try (apply in_app_iff; cbn; auto).
    destruct (sget c t0) eqn:G0; auto. exfalso.
    assert (X : In c (names t)). { apply (stacked_names_In _ t c ST). exists t0. split; cbn; auto. congruence. }
    apply sget_names in X as [? X]. congruence. }
  rewrite F2. cbn. eauto.
Qed.

Lemma vstack_ok tabs : Forall ok_table tabs -> fillable tabs -> exists x, vstack_tables tabs = Ok x.
Proof.
  intros OK FL. unfold vstack_tables. destruct tabs as [|tab tabs]; cbn; [eauto|].
  inversion OK as [|? ? [W R] O2]; subst. destruct (Nat.eqb_spec (n_rows tab) 0); [lia|].
  destruct tabs as [|tab2 tabs]; [eauto|]. inversion O2 as [|? ? O3 O4]; subst.
  assert (ONE : Forall ok_table [tab]) by (constructor; [split; auto|constructor]).
  destruct (stack_step_ok [tab] tab tab2) as [[[t1 t2] st] S]; auto; try discriminate.
  { apply stacked_one; auto. }
  { intros t u c s rest I J. apply FL; cbn in *; tauto. }
  rewrite S. cbn.
  assert (RO : forall tabs ts t, stacked ts t -> Forall ok_table ts -> ts <> [] -> Forall ok_table tabs ->
    fillable (ts ++ tabs) -> exists x, stack_rest t tabs = Ok x).
  { clear. induction tabs as [|tab tabs IH]; intros ts t ST OK NE OKT FL; cbn; [eauto|].
    inversion OKT as [|? ? O1 O2]; subst.
    destruct (stack_step_ok ts t tab) as [[[t1 t2] st] S]; auto.
    { intros a u c s rest I J. apply FL; rewrite in_app_iff in *; cbn in *; tauto. }
    rewrite S. cbn. destruct (stacked_step _ _ _ _ _ _ ST OK NE O1 S) as (ST' & _ & _).
    destruct (IH (ts ++ [tab]) st ST') as [[rest r] SR]; auto.
    - apply Forall_app; auto.
    - destruct ts; discriminate.
    - rewrite <- app_assoc. auto.
    - rewrite SR. cbn. eauto. }
  destruct (stacked_step [tab] tab tab2 t1 t2 st) as (ST & _ & _); auto; try discriminate.
  { apply stacked_one; auto. }
  assert (X : exists x, stack_rest st tabs = Ok x).
  { apply (RO tabs [tab; tab2] st ST); auto; try discriminate. repeat constructor; auto; try apply W; apply O3. }
  destruct X as [[rest r] SR]. rewrite SR. cbn. eauto.
Qed.

(** Columns of numbers *)
Definition reals (l : list R) : list cell := map (fun x => Num (Fin x)) l.

Lemma pad_id n c : length c = n -> pad n c = c.
Proof. intros <-. unfold pad. rewrite Nat.sub_diag. cbn. apply app_nil_r. Qed.

Lemma n_rows_filter p t : well_formed t -> filter p t <> [] -> n_rows (filter p t) = n_rows t.
Proof.
  intros [_ W] NE. destruct (filter p t) as [|[c col] f] eqn:E; [congruence|]. cbn.
  apply (W c). assert (I : In (c, col) (filter p t)) by (rewrite E; cbn; auto). apply filter_In in I as [I _]; auto.
Qed.

Lemma hstack_same a b n : (forall c col, In (c, col) (a ++ b) -> length col = n) -> hstack a b = a ++ b.
Proof.
  intros H. unfold hstack.
  assert (L : Nat.max (n_rows a) (n_rows b) = n \/ a ++ b = []).
  { destruct a as [|[c col] a].
    - destruct b as [|[c col] b]; [right; auto|left]. cbn. apply (H c); cbn; auto.
    - left. cbn [n_rows]. rewrite (H c col) by (cbn; auto). destruct b as [|[c' col'] b]; [cbn; lia|].
      cbn [n_rows]. rewrite (H c' col'); [lia|]. apply in_app_iff. cbn; auto. }
  destruct L as [->|E]; [|rewrite E; auto].
  rewrite <- (map_id (a ++ b)) at 2. apply map_ext_in. intros [c col] I. cbn [fst snd id]. f_equal. apply pad_id. eapply H; eauto.
Qed.

Lemma filter_get p (t : table) c : sget c (filter (fun x => p (fst x)) t) = if p c then sget c t else None.
Proof.
  induction t as [|[k v] t IH]; cbn; [destruct (p c); auto|].
  destruct (p k) eqn:P; cbn.
  - destruct (String.eqb_spec c k) as [->|]; [rewrite P; auto|auto].
  - rewrite IH. destruct (String.eqb_spec c k) as [->|]; [rewrite P; auto|auto].
Qed.

Lemma update_cols old new n :
  (forall c col, In (c, col) (cols old) -> length col = n) -> (forall c col, In (c, col) (cols new) -> length col = n) ->
  cols (snd (update_table old new)) = filter (fun x => negb (smem (fst x) (cols new))) (cols old) ++ cols new.
Proof.
  intros H1 H2. cbn. apply hstack_same with (n := n). intros c col I. apply in_app_iff in I as [I|I]; [|eapply H2; eauto].
  apply filter_In in I as [I _]. eapply H1; eauto.
Qed.

(** Sums of columns of reals *)
Fixpoint Rsum (l : list R) : R := match l with [] => 0 | x :: l' => x + Rsum l' end%R.
Definition row_sums (n : nat) (cs : list (list R)) : list R :=
  map (fun i => Rsum (map (fun c => nth i c 0%R) cs)) (seq 0 n).

Lemma reals_length l : length (reals l) = length l.
Proof. apply map_length. Qed.
Lemma add_reals a b : length a = length b ->
  add_column (reals a) (reals b) = Ok (reals (map (fun p => (fst p + snd p)%R) (combine a b))).
Proof.
  intros L. unfold add_column. rewrite !reals_length, L, Nat.eqb_refl. clear.
  revert b. induction a as [|x a IH]; intros [|y b]; auto.
  change (combine (reals (x :: a)) (reals (y :: b))) with ((Num (Fin x), Num (Fin y)) :: combine (reals a) (reals b)).
  cbn [mapM]. rewrite IH. reflexivity.
Qed.

Lemma nth_map_combine a b i : length a = length b ->
  nth i (map (fun p => (fst p + snd p)%R) (combine a b)) 0%R = (nth i a 0 + nth i b 0)%R.
Proof.
  revert b i. induction a as [|x a IH]; intros [|y b] [|i] L; try discriminate; cbn; try ring; auto.
Qed.

Lemma add_columns_reals cs : forall acc n, length acc = n -> Forall (fun c => length c = n) cs ->
  add_columns (reals acc) (map reals cs)
  = Ok (reals (map (fun i => (nth i acc 0 + Rsum (map (fun c => nth i c 0) cs))%R) (seq 0 n))).
Proof.
  induction cs as [|c cs IH]; intros acc n L F; cbn [map add_columns].
  - do 2 f_equal. apply nth_ext with (d := 0%R) (d' := (nth 0 acc 0 + 0)%R).
    + rewrite map_length, seq_length; auto.
    + intros i Hi. rewrite (map_nth (fun i => (nth i acc 0 + 0)%R) (seq 0 n) 0). rewrite seq_nth by lia. cbn. ring.
  - inversion F as [|? ? LC F']; subst. rewrite add_reals by auto. cbn [bind].
    rewrite (IH _ (length acc)); auto.
    2: { rewrite map_length, combine_length. lia. }
    do 2 f_equal. apply map_ext_in. intros i I. rewrite nth_map_combine by auto. cbn. ring.
Qed.
