(** Lemmas for observations. *)
From Verif Require Import Base Dict XR M_Light M_Bins M_Star M_Foreground M_Table S_Table L_Table P_Table M_Observe S_Observe.
From Verif Require M_Noise.
Open Scope list_scope.

(** ** Tables by columns *)
Definition col_of (k : string) (t : table) : list cell := match sget k t with Some c => c | None => [] end.
Definition glue (ns : list string) (ts : list table) : table := map (fun k => (k, concat (map (col_of k) ts))) ns.
Definition keep (p : string -> bool) (t : table) : table := filter (fun x => p (fst x)) t.

Lemma sget_map (f : string -> list cell) ns k : sget k (map (fun k => (k, f k)) ns) = if existsb (String.eqb k) ns then Some (f k) else None.
Proof.
  induction ns as [|a ns IH]; cbn; auto. destruct (String.eqb_spec k a) as [->|]; auto.
Qed.
Lemma table_ext (t : table) (f : string -> list cell) : NoDup (names t) -> (forall k, In k (names t) -> sget k t = Some (f k)) -> t = map (fun k => (k, f k)) (names t).
Proof.
  induction t as [|[a c] t IH]; intros ND H; cbn; auto. inversion ND as [|? ? NI ND']; subst.
  pose proof (H a (or_introl eq_refl)) as Ha. cbn in Ha. rewrite String.eqb_refl in Ha. injection Ha as ->. f_equal. apply IH; auto.
  intros k Hk. pose proof (H k (or_intror Hk)) as H1. cbn in H1. destruct (String.eqb_spec k a) as [E|]; auto. subst. contradiction.
Qed.
Lemma names_glue ns ts : names (glue ns ts) = ns.
Proof. unfold glue, names. rewrite map_map. apply map_id. Qed.
Lemma glue_get ns ts k : In k ns -> sget k (glue ns ts) = Some (concat (map (col_of k) ts)).
Proof. intros I. unfold glue. rewrite (sget_map (fun k => concat (map (col_of k) ts))). apply existsb_names in I. now rewrite I. Qed.
Lemma glue_app a b ts : glue (a ++ b) ts = glue a ts ++ glue b ts.
Proof. apply map_app. Qed.
Lemma glue_one t : NoDup (names t) -> glue (names t) [t] = t.
Proof.
  intros ND. symmetry. apply (table_ext t (fun k => concat (map (col_of k) [t]))); auto. intros k I. apply sget_names in I as [c G]. cbn. unfold col_of. rewrite G, app_nil_r. auto.
Qed.
Lemma names_keep p t : names (keep p t) = filter p (names t).
Proof. unfold keep, names. induction t as [|[k c] t IH]; cbn; auto. destruct (p k); cbn; f_equal; auto. Qed.
Lemma keep_get p t k : sget k (keep p t) = if p k then sget k t else None.
Proof. apply filter_get. Qed.
Lemma keep_app p a b : keep p (a ++ b) = keep p a ++ keep p b.
Proof. apply filter_app. Qed.
Lemma keep_all p t : (forall k, In k (names t) -> p k = true) -> keep p t = t.
Proof. intros H. apply filter_all. intros [k c] I. apply H. apply in_map_iff. now exists (k, c). Qed.

Lemma firsts_from acc l : fold_left (fun acc x => if existsb (String.eqb x) acc then acc else acc ++ [x]) l acc
  = acc ++ filter (fun x => negb (existsb (String.eqb x) acc)) (firsts String.eqb l).
Proof.
  revert acc. induction l as [|a l IH] using rev_ind; intros acc; cbn; [now rewrite app_nil_r|].
  rewrite fold_left_app. unfold firsts. rewrite fold_left_app. fold (firsts String.eqb l). rewrite IH. cbn [fold_left].
  rewrite existsb_app. destruct (existsb (String.eqb a) acc) eqn:E1; cbn [orb].
  - destruct (existsb (String.eqb a) (firsts String.eqb l)) eqn:E2; auto. rewrite filter_app. cbn. rewrite E1. cbn. now rewrite app_nil_r.
  - assert (X : existsb (String.eqb a) (filter (fun x => negb (existsb (String.eqb x) acc)) (firsts String.eqb l)) = existsb (String.eqb a) (firsts String.eqb l)).
    { apply eq_true_iff_eq. rewrite !existsb_names. rewrite filter_In, E1. cbn. tauto. }
    rewrite X. destruct (existsb (String.eqb a) (firsts String.eqb l)); auto. rewrite filter_app. cbn. rewrite E1. cbn. now rewrite app_assoc.
Qed.
Lemma firsts_app_gen a b : firsts String.eqb (a ++ b) = firsts String.eqb a ++ filter (fun x => negb (existsb (String.eqb x) (firsts String.eqb a))) (firsts String.eqb b).
Proof. unfold firsts at 1. rewrite fold_left_app. apply firsts_from. Qed.
Lemma filter_firsts p l : filter p (firsts String.eqb l) = firsts String.eqb (filter p l).
Proof.
  induction l as [|a l IH] using rev_ind; auto. rewrite filter_app, !firsts_app_gen, filter_app, IH. f_equal. cbn.
  destruct (p a) eqn:E; cbn.
  - destruct (existsb (String.eqb a) (firsts String.eqb l)) eqn:X; destruct (existsb (String.eqb a) (firsts String.eqb (filter p l))) eqn:Y; cbn; rewrite ?E; auto; exfalso.
    + apply existsb_names in X. apply (firsts_In l) in X. assert (In a (firsts String.eqb (filter p l))) by (apply firsts_In, filter_In; auto). apply existsb_names in H. congruence.
    + apply existsb_names in Y. apply (firsts_In (filter p l)), filter_In in Y as [Y _]. assert (In a (firsts String.eqb l)) by now apply firsts_In. apply existsb_names in H. congruence.
  - destruct (existsb (String.eqb a) (firsts String.eqb l)); cbn; rewrite ?E; auto.
Qed.
Lemma firsts_repeated ns l : NoDup ns -> l <> [] -> (forall x, In x l -> x = ns) -> firsts String.eqb (concat l) = ns.
Proof.
  intros ND NE H. destruct l as [|a l]; [congruence|]. rewrite (H a) by now left. change (concat (ns :: l)) with (ns ++ concat l). rewrite firsts_app_gen, firsts_NoDup_id by auto.
  rewrite filter_none; [apply app_nil_r|]. intros x I. apply firsts_In, in_concat in I as (y & J & K). rewrite (H y) in K by now right. apply existsb_names in K. now rewrite K.
Qed.

Lemma keep_stacked p ts t ns : stacked ts t -> ts <> [] -> NoDup ns -> (forall u, In u ts -> names (keep p u) = ns) -> keep p t = glue ns ts.
Proof.
  intros [N C] NE ND H.
  assert (NM : names (keep p t) = ns).
  { rewrite names_keep, N, filter_firsts. assert (E : filter p (concat (map names ts)) = concat (map (fun u => names (keep p u)) ts)).
    { clear. induction ts as [|u ts IH]; cbn; auto. now rewrite filter_app, IH, names_keep. }
    rewrite E. apply firsts_repeated; auto. { destruct ts; [congruence|discriminate]. } intros x I. apply in_map_iff in I as (u & <- & I). auto. }
  rewrite <- NM. unfold glue. apply table_ext; [now rewrite NM|]. intros k I. rewrite NM in I. rewrite keep_get.
  assert (P : p k = true). { destruct ts as [|u ts]; [congruence|]. rewrite <- (H u (or_introl eq_refl)), names_keep in I. now apply filter_In in I. }
  rewrite P. destruct (C k) as (z & G & _).
  { rewrite <- NM, names_keep in I. now apply filter_In in I. }
  rewrite G. f_equal. f_equal. apply map_ext_in. intros u U. unfold block, col_of. destruct (sget k u) eqn:E; auto. exfalso.
  apply sget_None_names in E. apply E. specialize (H u U). rewrite <- H, names_keep in I. now apply filter_In in I.
Qed.
Lemma stacked_uniform ts t ns : stacked ts t -> ts <> [] -> NoDup ns -> (forall u, In u ts -> names u = ns) -> t = glue ns ts.
Proof.
  intros ST NE ND H. rewrite <- (keep_all (fun _ => true) t) by auto. apply keep_stacked; auto. intros u I. rewrite keep_all; auto.
Qed.

(** ** Replacing columns *)
Definition override (a b : table) : table := filter (fun x => negb (smem (fst x) b)) a ++ b.
Lemma override_names a b : names (override a b) = filter (fun k => negb (smem k b)) (names a) ++ names b.
Proof. unfold override. unfold names at 1. rewrite map_app. f_equal. apply (names_keep (fun k => negb (smem k b))). Qed.
Lemma override_get a b k : sget k (override a b) = match sget k b with Some c => Some c | None => sget k a end.
Proof.
  unfold override. rewrite sget_app. rewrite (filter_get (fun c => negb (smem c b))). unfold dmem. destruct (sget k b) as [c|]; cbn; auto. destruct (sget k a); auto.
Qed.
Lemma override_keep p a b : keep p (override a b) = override (keep p a) (keep p b).
Proof.
  unfold override. rewrite keep_app. f_equal. unfold keep. induction a as [|[k c] a IH]; cbn [filter fst]; auto.
  destruct (p k) eqn:P; cbn [filter fst].
  - assert (smem k (filter (fun x => p (fst x)) b) = smem k b) as ->. { unfold dmem. change (filter (fun x => p (fst x)) b) with (keep p b). rewrite keep_get, P. auto. }
    destruct (negb (smem k b)); cbn [filter fst]; rewrite ?P, IH; auto.
  - destruct (negb (smem k b)); cbn [filter fst]; rewrite ?P, IH; auto.
Qed.
Lemma smem_by_names k (a b : table) : names a = names b -> smem k a = smem k b.
Proof. intros E. apply eq_true_iff_eq. rewrite !smem_names, E. tauto. Qed.
Lemma override_glue ns ms (ts us : list table) : length ts = length us -> (forall t, In t ts -> names t = ns) -> (forall u, In u us -> names u = ms) ->
  ts <> [] ->
  override (glue ns ts) (glue ms us) = glue (filter (fun k => negb (existsb (String.eqb k) ms)) ns ++ ms) (map (fun p => override (fst p) (snd p)) (combine ts us)).
Proof.
  intros L HT HU NE. unfold override at 1. rewrite glue_app.
  assert (MEM : forall k u, names u = ms -> smem k u = existsb (String.eqb k) ms).
  { intros k u E. apply eq_true_iff_eq. rewrite smem_names, E, existsb_names. tauto. }
  assert (COLS : forall k, concat (map (col_of k) (map (fun p => override (fst p) (snd p)) (combine ts us))) = concat (map (col_of k) (if existsb (String.eqb k) ms then us else ts))).
  { intros k. f_equal. clear NE. revert us L HU. induction ts as [|t ts IH]; intros [|u us] L HU; cbn in L; try lia; [destruct (existsb _ _); auto|].
    cbn [combine map fst snd]. rewrite IH; auto; [|intros; apply HT; now right|intros; apply HU; now right].
    assert (col_of k (override t u) = if existsb (String.eqb k) ms then col_of k u else col_of k t) as ->.
    { unfold col_of. rewrite override_get. rewrite <- (MEM k u) by (apply HU; now left). unfold dmem. destruct (sget k u); auto. }
    destruct (existsb (String.eqb k) ms); auto. }
  f_equal.
  - assert (G : forall l, filter (fun x : string * list cell => negb (smem (fst x) (glue ms us))) (map (fun k => (k, concat (map (col_of k) ts))) l)
      = map (fun k => (k, concat (map (col_of k) (map (fun p => override (fst p) (snd p)) (combine ts us))))) (filter (fun k => negb (existsb (String.eqb k) ms)) l)).
    { induction l as [|k l IH]; cbn [map filter fst]; auto. rewrite (MEM k _ (names_glue ms us)). destruct (existsb (String.eqb k) ms) eqn:E; cbn [negb map]; auto.
      rewrite IH. f_equal. f_equal. rewrite COLS, E. auto. }
    exact (G ns).
  - unfold glue. apply map_ext_in. intros k I. rewrite COLS. apply existsb_names in I. now rewrite I.
Qed.

(** ** Rows of a channel *)
Lemma rows_select name labels : forall cells, labelled_rows name labels cells = map fst (filter (fun p => is_name name (snd p)) (combine cells labels)).
Proof.
  induction labels as [|l labels IH]; intros [|v cells]; cbn; auto. { destruct l; auto. }
  destruct l as [x|s|]; cbn; rewrite IH; auto. destruct (String.eqb s name); cbn; auto.
Qed.
Lemma select_shows T name k v : select name k T = Ok v <-> shows T name k v.
Proof.
  unfold select, shows. split.
  - destruct (sget k T) as [c|]; [|discriminate]. destruct (sget "chName" T) as [n|]; [|discriminate]. intros [= <-]. exists n, c. rewrite rows_select. auto.
  - intros (n & c & -> & -> & ->). now rewrite rows_select.
Qed.
Lemma select_glue (chans : list (string * table)) ns name tab k : Forall (fun ch => ok_table (snd ch) /\ labelled (fst ch) (snd ch) /\ names (snd ch) = ns) chans ->
  NoDup (map fst chans) -> In (name, tab) chans -> In k ns -> select name k (glue ns (map snd chans)) = Ok (col_of k tab).
Proof.
  intros F ND I K. rewrite Forall_forall in F. assert (C : In "chName"%string ns).
  { destruct (F _ I) as (_ & L & <-). apply sget_names. eexists. apply L. }
  assert (BL : forall u, In u (map snd chans) -> forall k, In k ns -> col_of k u = block k Masked u).
  { intros u J k' K'. apply in_map_iff in J as (ch & <- & J). destruct (F _ J) as (_ & _ & N). rewrite <- N in K'. apply sget_names in K' as [c G]. unfold col_of, block. now rewrite G. }
  unfold select. rewrite !glue_get by auto. f_equal.
  rewrite (map_ext_in _ _ _ (fun u J => BL u J k K)).
  replace (concat (map (col_of "chName") (map snd chans))) with (concat (map (fun ch => repeat (Txt (fst ch)) (n_rows (snd ch))) chans)).
  - rewrite (select_blocks chans name Masked k) with (tab := tab); auto.
    + symmetry. apply BL; auto. apply in_map_iff. now exists (name, tab).
    + apply Forall_forall. intros ch J. now apply F.
  - f_equal. rewrite map_map. apply map_ext_in. intros ch J. destruct (F _ J) as (_ & L & _). unfold col_of. now rewrite L.
Qed.
Lemma select_alone name tab k : ok_table tab -> labelled name tab -> In k (names tab) -> select name k tab = Ok (col_of k tab).
Proof.
  intros O L K. rewrite <- (glue_one tab) at 1 by apply O. apply (select_glue [(name, tab)] (names tab)); auto.
  - repeat constructor; auto; apply O.
  - now left.
Qed.

(** ** What stacking leaves of the tables *)
Definition filled (U : list string) (t t' : table) : Prop :=
  exists extra, t' = t ++ extra /\ NoDup (names t') /\
    forall k col, In (k, col) extra -> In k U /\ exists z, col = repeat z (n_rows t) /\ forall s, z <> Txt s.
Lemma zero_like_not_text v z s : zero_like v z -> z <> Txt s.
Proof. intros H E. subst. inversion H. Qed.
Lemma fill_filled U from to to' : NoDup (names from) -> NoDup (names to) -> (forall k, In k (names from) -> In k U) -> fill_missing from to = Ok to' -> filled U to to'.
Proof.
  intros NF NT HU H. destruct (fill_missing_spec _ _ _ NF H) as (extra & E & N & F). exists extra. split; auto. split.
  - subst. unfold names. rewrite map_app. fold (names to). fold (names extra). rewrite N.
    assert (D : forall x, In x (filter (fun c => negb (smem c to)) (names from)) -> ~ In x (names to)).
    { intros x I. apply filter_In in I as [_ I]. apply smem_false_names. now destruct (smem x to). }
    assert (NF' := NoDup_filter (fun c => negb (smem c to)) NF). revert D NF'. generalize (filter (fun c => negb (smem c to)) (names from)) as l.
    clear - NT. induction (names to) as [|a m IH]; intros l D NF'; cbn; auto. inversion NT; subst. constructor.
    + rewrite in_app_iff. intros [J|J]; [auto|]. apply (D a J). now left.
    + apply IH; auto. intros x I J. apply (D x I). now right.
  - intros k col I. destruct (F k col I) as (NI & v & rest & z & G & Z & ->). split.
    + apply HU. apply sget_names. eauto.
    + exists z. split; auto. intros s. eapply zero_like_not_text; eauto.
Qed.
Lemma filled_names U t t' : filled U t t' -> (forall k, In k (names t) -> In k U) -> forall k, In k (names t') -> In k U.
Proof.
  intros (extra & -> & _ & F) HU k I. unfold names in I. rewrite map_app, in_app_iff in I. destruct I as [I|I]; auto.
  apply in_map_iff in I as ([k' c] & <- & I). apply (F k' c I).
Qed.
Lemma step_filled U t tab t' tab' st : NoDup (names t) -> NoDup (names tab) -> (forall k, In k (names t) -> In k U) -> (forall k, In k (names tab) -> In k U) ->
  stack_step t tab = Ok (t', tab', st) -> filled U t t' /\ filled U tab tab' /\ NoDup (names st) /\ forall k, In k (names st) -> In k U.
Proof.
  intros N1 N2 U1 U2 H. unfold stack_step in H. destruct (fill_missing t tab) as [a|] eqn:E1; cbn in H; [|discriminate].
  destruct (fill_missing a t) as [b|] eqn:E2; cbn in H; [|discriminate]. injection H as <- <- <-.
  assert (F1 := fill_filled U _ _ _ N1 N2 U1 E1). assert (NA : NoDup (names a)) by (destruct F1 as (? & _ & ? & _); auto).
  assert (F2 := fill_filled U _ _ _ NA N1 (filled_names _ _ _ F1 U2) E2). repeat split; auto.
  - rewrite vstack2_names. destruct F2 as (? & _ & ? & _); auto.
  - rewrite vstack2_names. eapply filled_names; eauto.
Qed.
Lemma filled_refl U t : NoDup (names t) -> filled U t t.
Proof. exists []. rewrite app_nil_r. split; auto. split; auto. intros ? ? []. Qed.
Lemma rest_filled U : forall tabs t ins r, NoDup (names t) -> (forall k, In k (names t) -> In k U) -> Forall (fun u => NoDup (names u) /\ forall k, In k (names u) -> In k U) tabs ->
  stack_rest t tabs = Ok (ins, r) -> Forall2 (filled U) tabs ins.
Proof.
  induction tabs as [|tab tabs IH]; intros t ins r N H F E; cbn in E; [injection E as <- <-; constructor|].
  inversion F as [|? ? [N1 U1] F']; subst. destruct (stack_step t tab) as [[[t' tab'] st]|] eqn:E1; cbn in E; [|discriminate].
  destruct (stack_rest st tabs) as [[rest r']|] eqn:E2; cbn in E; [|discriminate]. injection E as <- <-.
  destruct (step_filled U _ _ _ _ _ N N1 H U1 E1) as (_ & A & B & C). constructor; auto. eapply IH; eauto.
Qed.
Lemma vstack_filled tabs ins r : Forall ok_table tabs -> vstack_tables tabs = Ok (ins, r) -> Forall2 (filled (concat (map names tabs))) tabs ins.
Proof.
  intros OK E. set (U := concat (map names tabs)).
  assert (F : Forall (fun u => NoDup (names u) /\ forall k, In k (names u) -> In k U) tabs).
  { apply Forall_forall. intros u I. rewrite Forall_forall in OK. split; [apply OK; auto|]. intros k K. apply in_concat. exists (names u). split; auto. now apply in_map. }
  clearbody U. unfold vstack_tables in E. destruct tabs as [|tab tabs]; cbn in E; [injection E as <- <-; constructor|].
  inversion OK as [|? ? [_ R0] _]; subst. inversion F as [|? ? [N1 U1] F']; subst. destruct (Nat.eqb_spec (n_rows tab) 0); [lia|].
  destruct tabs as [|tab2 tabs]; [injection E as <- <-; repeat constructor; now apply filled_refl|].
  inversion F' as [|? ? [N2 U2] F'']; subst. destruct (stack_step tab tab2) as [[[t1 t2] st]|] eqn:E1; cbn in E; [|discriminate].
  destruct (stack_rest st tabs) as [[rest r']|] eqn:E2; cbn in E; [|discriminate]. injection E as <- <-.
  destruct (step_filled U _ _ _ _ _ N1 N2 U1 U2 E1) as (A & B & C & D). constructor; auto. constructor; auto. eapply rest_filled; eauto.
Qed.

(** ** Channels and their tables *)
Definition base (nc : string * chan) : table := cols (h_table (snd nc)).
Definition bins_of (nc : string * chan) : nat := length (c_bins (h_star (snd nc))).
Lemma rows_n_rows t n : t <> [] -> (forall k col, In (k, col) t -> length col = n) -> n_rows t = n.
Proof. destruct t as [|[k c] t]; [congruence|]. intros _ H. cbn. apply (H k). now left. Qed.
Lemma built_ok ns a : as_built ns a -> NoDup ns -> ok_table (base a) /\ n_rows (base a) = bins_of a /\ labelled (fst a) (base a) /\ names (base a) = ns.
Proof.
  destruct a as [name c]. unfold base, bins_of. cbn [fst snd]. intros (P & N & L & C & _) ND.
  assert (NR : n_rows (cols (h_table c)) = length (c_bins (h_star c))). { apply rows_n_rows; auto. destruct (cols (h_table c)); [discriminate|discriminate]. }
  split; [split; [split|]|split; [|split]]; auto.
  - now rewrite N.
  - intros k col I. rewrite NR. eauto.
  - lia.
  - unfold labelled. now rewrite NR.
Qed.
Section Prepare.
  Variables (ns : list string) (p : string -> bool).
  Hypothesis ND : NoDup ns.
  Hypothesis NSky : ~ In "sky TR"%string ns.
  Hypothesis PS : p "sky TR"%string = false.
  Hypothesis PN : forall k, In k ns -> p k = true.
  Lemma sky_ok a b : as_built ns a -> same_but_sky a b ->
    ok_table (base b) /\ n_rows (base b) = bins_of a /\ labelled (fst b) (base b) /\ keep p (base b) = base a /\ (forall k, In k (names (base b)) -> In k ns \/ k = "sky TR"%string)
    /\ forall k s rest, sget k (base b) = Some (Txt s :: rest) -> In k ns.
  Proof.
    intros A (F & S & T). destruct (built_ok ns a A ND) as ([[N1 N2] N3] & N4 & N5 & N6). unfold base in *.
    assert (KA : keep p (cols (h_table (snd a))) = cols (h_table (snd a))) by (apply keep_all; intros k I; rewrite N6 in I; auto).
    destruct T as [E|(col & L & X & E)]; rewrite E.
    - split; [split; [split|]|split; [|split; [|split; [|split]]]]; auto; try (rewrite F; auto).
      + intros k I. rewrite N6 in I. auto.
      + intros k s rest G. rewrite <- N6. apply sget_names. eauto.
    - assert (NE : cols (h_table (snd a)) <> []) by (intros Z; rewrite Z in N3; cbn in N3; lia).
      assert (NR : n_rows (cols (h_table (snd a)) ++ [("sky TR"%string, col)]) = bins_of a) by (destruct (cols (h_table (snd a))) as [|[? ?] ?]; [congruence|auto]).
      split; [split; [split|]|split; [|split; [|split; [|split]]]]; auto.
      + unfold names. rewrite map_app. cbn. fold (names (cols (h_table (snd a)))). rewrite N6. apply NoDup_rev in ND. rewrite <- (rev_involutive (ns ++ _)). apply NoDup_rev. rewrite rev_app_distr. cbn. constructor; auto. now rewrite <- in_rev.
      + intros k c I. rewrite NR. apply in_app_iff in I as [I|[[= <- <-]|[]]]; auto. rewrite <- N4. eauto.
      + rewrite NR, <- N4. auto.
      + unfold labelled in *. rewrite NR, sget_app, N5, F, N4. auto.
      + rewrite keep_app, KA. cbn. rewrite PS. apply app_nil_r.
      + intros k I. unfold names in I. rewrite map_app, in_app_iff in I. fold (names (cols (h_table (snd a)))) in I. rewrite N6 in I. cbn in I. destruct I as [I|[I|[]]]; auto.
      + intros k s rest G. rewrite sget_app in G. destruct (sget k (cols (h_table (snd a)))) eqn:E1.
        * rewrite <- N6. apply sget_names. eauto.
        * cbn in G. destruct (String.eqb_spec k "sky TR"); [|discriminate]. injection G as G. exfalso. apply (X s). rewrite G. now left.
  Qed.
  Lemma filled_same a b t m : as_built ns a -> same_but_sky a b -> filled (ns ++ ["sky TR"%string]) (base b) t -> same_but_sky a (fst b, with_table (snd b) {| cols := t; meta := m |}).
  Proof.
    intros A SB (extra & E & N & H). destruct (sky_ok a b A SB) as (O & NR & LB & _ & NB & _). destruct SB as (F & S0 & T). split; auto. split; [cbn; now rewrite S0|]. cbn [snd with_table h_table cols].
    unfold base in *. destruct extra as [|[k col] extra]; [rewrite app_nil_r in E; rewrite E; exact T|].
    assert (KS : forall k col, In (k, col) ((k, col) :: extra) -> True) by auto.
    assert (SK : forall k' c', In (k', c') ((k, col) :: extra) -> k' = "sky TR"%string /\ cols (h_table (snd b)) = cols (h_table (snd a))).
    { intros k' c' I. destruct (H k' c' I) as [U _].
      assert (NI : ~ In k' (names (cols (h_table (snd b))))).
      { intros J. rewrite E in N. unfold names in N. rewrite map_app in N. fold (names (cols (h_table (snd b)))) in N. clear - N J I. induction (names (cols (h_table (snd b)))) as [|x l IH]; cbn in *; [contradiction|].
        inversion N; subst. destruct J as [->|J]; auto. apply H1. apply in_app_iff. right. destruct I as [[= -> ->]|I]; [now left|right; apply in_map_iff; now exists (k', c')]. }
      destruct (built_ok ns a A ND) as (_ & _ & _ & N6). unfold base in N6. apply in_app_iff in U as [U|[U|[]]].
      - exfalso. apply NI. destruct T as [-> |(c2 & _ & _ & ->)]; [now rewrite N6|]. unfold names. rewrite map_app. apply in_app_iff. left. fold (names (cols (h_table (snd a)))). now rewrite N6.
      - subst. split; auto. destruct T as [T|(c2 & _ & _ & T)]; auto. exfalso. apply NI. rewrite T. unfold names. rewrite map_app. apply in_app_iff. right. now left. }
    destruct (SK k col (or_introl eq_refl)) as [-> T']. right. destruct (H _ _ (or_introl eq_refl)) as (_ & z & Z & ZT). exists col. split; [rewrite Z, repeat_length, NR; auto|]. split.
    - intros s I. rewrite Z in I. apply repeat_spec in I. apply (ZT s). congruence.
    - rewrite E, T'. destruct extra as [|[k2 c2] extra]; auto. exfalso. destruct (SK k2 c2 (or_intror (or_introl eq_refl))) as [-> _]. rewrite E in N. unfold names in N. rewrite map_app in N. clear - N. induction (map fst (cols (h_table (snd b)))) as [|y l IH]; cbn in N; [|inversion N; auto]. inversion N as [|? ? X]; subst. apply X. now left.
  Qed.
  Lemma put_same chs0 : forall chs, Forall (as_built ns) chs0 -> Forall2 same_but_sky chs0 chs -> forall ts ms, Forall2 (filled (ns ++ ["sky TR"%string])) (map base chs) ts -> length ms = length ts ->
    Forall2 same_but_sky chs0 (put_tables chs (map (fun q => {| cols := fst q; meta := snd q |}) (combine ts ms))).
  Proof.
    induction chs0 as [|a chs0 IH]; intros chs A H ts ms F L; inversion H as [|? b ? chs' SB H']; subst; [constructor|].
    inversion F as [|? t ? ts' F1 F2]; subst. destruct ms as [|m ms]; [discriminate|]. inversion A; subst. cbn. constructor.
    - apply filled_same; auto.
    - apply IH; auto.
  Qed.
End Prepare.
