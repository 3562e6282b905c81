(** Lemmas on stacking tables which have not all the same columns. *)
From Coq Require Import Reals.
From Verif Require Import Base Dict XR M_Light M_Star M_Source M_Foreground M_Table S_Table L_Table P_Table M_Observe S_Observe L_Observe L_Outcome.
From Verif Require M_Noise.
From Verif Require Import M_Table M_Observe.
Open Scope list_scope.

(** the columns [ks] of a channel in which column [k] is [G k] *)
Definition restr (G : string -> list cell) (ks : list string) : table := map (fun k => (k, G k)) ks.
Notation isin k ks := (existsb (String.eqb k) ks).

Lemma isin_In k ks : isin k ks = true <-> In k ks.
Proof.
  rewrite existsb_exists. split.
  - intros (y & I & E). apply String.eqb_eq in E as ->. auto.
  - intros I. exists k. split; auto. apply String.eqb_refl.
Qed.
Lemma isin_notIn k ks : isin k ks = false <-> ~ In k ks.
Proof. rewrite <- isin_In. destruct (isin k ks); intuition congruence. Qed.
Lemma names_restr G ks : names (restr G ks) = ks.
Proof. unfold names, restr. rewrite map_map. apply map_id. Qed.
Lemma get_restr G ks k : sget k (restr G ks) = if isin k ks then Some (G k) else None.
Proof. apply sget_map. Qed.
Lemma mem_restr G ks k : smem k (restr G ks) = isin k ks.
Proof. unfold dmem. rewrite get_restr. destruct (isin k ks); auto. Qed.
Lemma restr_app G a b : restr G (a ++ b) = restr G a ++ restr G b.
Proof. apply map_app. Qed.
Lemma rows_restr G ks n : ks <> [] -> (forall k, In k ks -> length (G k) = n) -> n_rows (restr G ks) = n.
Proof. destruct ks as [|k ks]; [congruence|]. intros _ H. cbn. apply H. cbn; auto. Qed.

(** columns [ks2] that are new after [ks1] *)
Definition more (ks1 ks2 : list string) : list string := filter (fun k => negb (isin k ks1)) ks2.
Lemma more_In ks1 ks2 k : In k (more ks1 ks2) <-> In k ks2 /\ ~ In k ks1.
Proof. unfold more. rewrite filter_In, negb_true_iff, isin_notIn. tauto. Qed.
Lemma more_NoDup a b : NoDup a -> NoDup b -> NoDup (a ++ more a b).
Proof.
  intros A B. induction A as [|x a N A IH]; cbn.
  - unfold more. cbn. induction b; cbn; auto. inversion B; subst. constructor; auto. intros I. apply filter_In in I as [I _]. auto.
  - assert (E : more (x :: a) b = filter (fun k => negb (String.eqb k x)) (more a b)).
    { unfold more. clear. induction b as [|y b IH]; cbn; auto. destruct (String.eqb_spec y x); cbn.
      - destruct (isin y a); cbn; auto. destruct (String.eqb_spec y x); try congruence; cbn. auto.
      - destruct (isin y a); cbn; auto. destruct (String.eqb_spec y x); try congruence; cbn. f_equal. auto. }
    rewrite E. constructor.
    + rewrite in_app_iff, filter_In. intros [I|[_ I]]; [auto|]. rewrite String.eqb_refl in I. discriminate.
    + clear - IH. induction a as [|y a IHa] in IH |- *.
      * cbn [app] in *. apply NoDup_filter. auto.
      * cbn in *. inversion IH as [|? ? N1 N2]; subst. constructor; auto.
        -- intros I. apply N1. apply in_app_iff in I as [I|I]; apply in_app_iff; auto. apply filter_In in I as [I _]. auto.
        -- clear - N2. remember (more (y :: a) b) as m. clear Heqm. induction a as [|z a IH]; cbn in *; [apply NoDup_filter; auto|].
           inversion N2 as [|? ? N3 N4]; subst. constructor; auto. intros I. apply N3. apply in_app_iff in I as [I|I]; apply in_app_iff; auto. apply filter_In in I as [I _]. auto.
Qed.

Definition finite_column (c : list cell) : Prop := c <> [] /\ forall v, In v c -> exists r, v = Num (Fin r).
Definition zeros (n : nat) : list cell := repeat (Num (Fin 0)) n.

Lemma fill_restr A B n : forall ka kb, NoDup ka ->
  (forall k, In k ka -> In k kb \/ (finite_column (A k) /\ B k = zeros n)) ->
  kb <> [] -> (forall k, In k kb -> length (B k) = n) ->
  fill_missing (restr A ka) (restr B kb) = Ok (restr B (kb ++ more kb ka)).
Proof.
  induction ka as [|k ka IH]; intros kb ND H NE L; cbn.
  - unfold more. cbn. rewrite app_nil_r. auto.
  - inversion ND as [|? ? N1 N2]; subst. rewrite mem_restr. unfold more. cbn [filter]. destruct (isin k kb) eqn:I; cbn [negb].
    + apply IH; auto. intros; apply H; cbn; auto.
    + destruct (H k) as [J|((NEk & F) & Z)]; cbn; auto. { apply isin_notIn in I. contradiction. }
      destruct (A k) as [|v rest]; [congruence|]. destruct (F v) as (r & ->); cbn; auto.
      rewrite (rows_restr B kb n) by auto. rewrite Rmult_0_l.
      assert (E : restr B kb ++ [(k, repeat (Num (Fin 0)) n)] = restr B (kb ++ [k])) by (rewrite restr_app; cbn; rewrite Z; auto).
      rewrite E, IH; auto.
      * f_equal. rewrite <- app_assoc. do 2 f_equal. cbn. f_equal. unfold more. apply filter_ext_in. intros j J. f_equal.
        rewrite existsb_app. cbn. rewrite orb_false_r. destruct (String.eqb_spec j k) as [->|]; [contradiction|]. apply orb_false_r.
      * intros j J. destruct (H j) as [X|X]; cbn; auto. left. apply in_app_iff. auto.
      * destruct kb; discriminate.
      * intros j J. apply in_app_iff in J as [J|[<-|[]]]; auto. rewrite Z. apply repeat_length.
Qed.

(** ** Stacking tables which lack each other's columns *)
Section Stack.
  Variable K : list string.          (* all the columns *)
  Variable common : string -> bool.  (* the ones every table has *)
  (** a table: the columns it has, of the columns it may have *)
  Record part := { p_val : string -> list cell; p_keys : list string; p_n : nat }.
  Definition part_table (p : part) : table := restr (p_val p) (p_keys p).
  Definition well (p : part) : Prop :=
    NoDup (p_keys p) /\ p_keys p <> [] /\ (0 < p_n p)%nat /\ (forall k, In k (p_keys p) -> In k K) /\
    forall k, In k K -> length (p_val p k) = p_n p /\ (~ In k (p_keys p) -> p_val p k = zeros (p_n p)) /\
      if common k then In k (p_keys p) else finite_column (p_val p k).
  Definition with_keys (p : part) (ks : list string) : part := {| p_val := p_val p; p_keys := ks; p_n := p_n p |}.
  Definition join (p q : part) : part := {| p_val := fun k => p_val p k ++ p_val q k; p_keys := p_keys p ++ more (p_keys p) (p_keys q); p_n := p_n p + p_n q |}.
  Definition wider (p : part) (ks : list string) : part := with_keys p (p_keys p ++ more (p_keys p) ks).

  Lemma zeros_app a b : zeros a ++ zeros b = zeros (a + b).
  Proof. unfold zeros. now rewrite repeat_app. Qed.
  Lemma more_more a b : more a (b ++ more b a) = more a b.
  Proof.
    unfold more. rewrite filter_app. rewrite (filter_none _ (filter _ a)); [apply app_nil_r|]. intros k I. apply filter_In in I as [I _]. apply isin_In in I. now rewrite I.
  Qed.
  Lemma app_more_In a b k : In k (a ++ more a b) <-> In k a \/ In k b.
  Proof. rewrite in_app_iff, more_In. destruct (in_dec string_dec k a); tauto. Qed.
  Lemma wider_well p ks : well p -> NoDup ks -> (forall k, In k ks -> In k K) -> well (wider p ks).
  Proof.
    intros (A & B & C & D & E) N S. unfold wider. split; [|split; [|split; [|split]]]; cbn [p_keys p_val p_n with_keys].
    - now apply more_NoDup.
    - destruct (p_keys p); [congruence|discriminate].
    - auto.
    - intros k I. apply app_more_In in I as [I|I]; auto.
    - intros k I. destruct (E k I) as (E1 & E2 & E3). split; auto. split.
      + intros N'. apply E2. intros J. apply N'. apply app_more_In. auto.
      + destruct (common k); auto. apply app_more_In. auto.
  Qed.
  Lemma join_well p q : well p -> well q -> well (join p q).
  Proof.
    intros P Q. pose proof (wider_well p (p_keys q) P (proj1 Q) (proj1 (proj2 (proj2 (proj2 Q))))) as (A & B & C & D & E). destruct P as (P1 & P2 & P3 & P4 & P5). destruct Q as (Q1 & Q2 & Q3 & Q4 & Q5).
    split; [|split; [|split; [|split]]]; cbn [p_keys p_val p_n join]; auto; [lia|].
    intros k I. destruct (P5 k I) as (A1 & A2 & A3), (Q5 k I) as (B1 & B2 & B3). split; [rewrite app_length; lia|]. split.
    - intros N. rewrite A2, B2; [apply zeros_app| |]; intros J; apply N; apply app_more_In; auto.
    - destruct (common k); [apply app_more_In; auto|]. destruct A3 as [X1 X2], B3 as [Y1 Y2]. split; [destruct (p_val p k); [congruence|discriminate]|]. intros v J. apply in_app_iff in J as [J|J]; auto.
  Qed.
  Lemma step_well p q : well p -> well q ->
    stack_step (part_table p) (part_table q) = Ok (part_table (wider p (p_keys q)), part_table (wider q (p_keys p)), part_table (join p q)).
  Proof.
    intros P Q. unfold stack_step, part_table. pose proof P as (P1 & P2 & P3 & P4 & P5). pose proof Q as (Q1 & Q2 & Q3 & Q4 & Q5).
    rewrite (fill_restr (p_val p) (p_val q) (p_n q)); auto.
    2: { intros k I. destruct (in_dec string_dec k (p_keys q)) as [J|J]; auto. right. destruct (Q5 k (P4 k I)) as (_ & B2 & B3). destruct (P5 k (P4 k I)) as (_ & _ & A3). destruct (common k); [contradiction|]. auto. }
    2: { intros k I. apply (Q5 k); auto. }
    cbn [bind]. rewrite (fill_restr (p_val q) (p_val p) (p_n p)).
    - cbn [bind]. rewrite more_more. unfold wider, join. cbn [with_keys p_val p_keys]. do 3 f_equal. unfold vstack2, restr. rewrite map_map. apply map_ext_in. intros k I. cbn [fst snd]. f_equal. f_equal. change (map (fun k0 => (k0, p_val q k0)) ?l) with (restr (p_val q) l). rewrite get_restr.
      apply app_more_In in I. assert (J : isin k (p_keys q ++ more (p_keys q) (p_keys p)) = true) by (apply isin_In, app_more_In; tauto). now rewrite J.
    - now apply more_NoDup.
    - intros k I. apply app_more_In in I. assert (KK : In k K) by (destruct I; auto). destruct (in_dec string_dec k (p_keys p)) as [J|J]; auto. right. destruct (P5 k KK) as (_ & B2 & B3). destruct (Q5 k KK) as (_ & _ & A3). destruct (common k); [contradiction|]. auto.
    - auto.
    - intros k I. apply (P5 k); auto.
  Qed.

  (** the parts after stacking, following [p] *)
  Fixpoint widened (p : part) (ps : list part) : list part :=
    match ps with [] => [] | q :: ps => wider q (p_keys p) :: widened (join p q) ps end.
  Lemma rest_well ps : forall p, well p -> Forall well ps ->
    stack_rest (part_table p) (map part_table ps) = Ok (map part_table (widened p ps), part_table (fold_left join ps p)) /\
    Forall well (widened p ps) /\ well (fold_left join ps p).
  Proof.
    induction ps as [|q ps IH]; intros p P F; cbn [map stack_rest widened fold_left]; auto. inversion F as [|? ? Q F']; subst.
    rewrite step_well by auto. cbn [bind]. destruct (IH (join p q) (join_well p q P Q) F') as (E & W1 & W2). rewrite E. cbn [bind map]. split; auto. split; auto. constructor; auto.
    apply wider_well; auto; apply P.
  Qed.
  Definition after_stack (ps : list part) : list part :=
    match ps with p :: q :: ps => wider p (p_keys q) :: wider q (p_keys p) :: widened (join p q) ps | _ => ps end.
  Definition total (ps : list part) : table := restr (fun k => concat (map (fun p => p_val p k) ps)) (firsts String.eqb (concat (map p_keys ps))).

  Lemma restr_ext G H ks : (forall k, In k ks -> G k = H k) -> restr G ks = restr H ks.
  Proof. intros E. unfold restr. apply map_ext_in. intros k I. now rewrite E. Qed.
  Lemma join_val ps : forall p k, p_val (fold_left join ps p) k = p_val p k ++ concat (map (fun p => p_val p k) ps).
  Proof. induction ps as [|q ps IH]; intros p k; cbn; [now rewrite app_nil_r|]. rewrite IH. cbn. now rewrite app_assoc. Qed.
  Lemma firsts_more a b : NoDup a -> NoDup b -> firsts String.eqb (a ++ b) = a ++ more a b.
  Proof. intros A B. rewrite firsts_app_gen, !firsts_NoDup_id by auto. reflexivity. Qed.
  Lemma firsts_firsts_app a b : firsts String.eqb (firsts String.eqb a ++ b) = firsts String.eqb (a ++ b).
  Proof. rewrite !firsts_app_gen. rewrite (firsts_NoDup_id (firsts String.eqb a)) by apply firsts_NoDup. reflexivity. Qed.
  Lemma join_keys ps : forall p, well p -> Forall well ps -> p_keys (fold_left join ps p) = firsts String.eqb (p_keys p ++ concat (map p_keys ps)).
  Proof.
    induction ps as [|q ps IH]; intros p P F; cbn [fold_left map concat].
    - rewrite app_nil_r, firsts_NoDup_id; auto. apply P.
    - inversion F; subst. rewrite IH; auto using join_well. cbn [p_keys join]. rewrite <- firsts_more by (apply P || apply H1). now rewrite firsts_firsts_app, app_assoc.
  Qed.
  Lemma firsts_extra a e b : (forall k, In k e -> In k a) -> firsts String.eqb (a ++ e ++ b) = firsts String.eqb (a ++ b).
  Proof.
    intros S. rewrite app_assoc. rewrite <- firsts_firsts_app, <- (firsts_firsts_app a b). do 2 f_equal. rewrite firsts_app_gen. rewrite filter_none; [apply app_nil_r|].
    intros k I. apply (proj1 (firsts_In _ _)) in I. apply S in I. apply (proj2 (firsts_In _ _)) in I. apply isin_In in I. now rewrite I.
  Qed.
  Lemma widened_keys ps : forall p a, (forall k, In k (p_keys p) -> In k a) -> firsts String.eqb (a ++ concat (map p_keys (widened p ps))) = firsts String.eqb (a ++ concat (map p_keys ps)).
  Proof.
    induction ps as [|q ps IH]; intros p a S; cbn [widened map concat]; auto. cbn [p_keys wider with_keys].
    transitivity (firsts String.eqb ((a ++ p_keys q) ++ more (p_keys q) (p_keys p) ++ concat (map p_keys (widened (join p q) ps)))); [now rewrite <- !app_assoc|].
    rewrite firsts_extra.
    - rewrite IH; [now rewrite <- app_assoc|]. cbn. intros k I. apply app_more_In in I. apply in_app_iff. destruct I; auto.
    - intros k I. apply more_In in I as [I _]. apply in_app_iff. auto.
  Qed.
  Lemma rows_well p : well p -> n_rows (part_table p) = p_n p.
  Proof. intros (_ & B & _ & D & E). apply rows_restr; auto. intros k I. apply (E k); auto. Qed.
  Lemma stack_well ps : Forall well ps -> (2 <= length ps)%nat ->
    vstack_tables (map part_table ps) = Ok (map part_table (after_stack ps), Some (total ps)) /\ Forall well (after_stack ps) /\
    firsts String.eqb (concat (map p_keys (after_stack ps))) = firsts String.eqb (concat (map p_keys ps)) /\
    map p_val (after_stack ps) = map p_val ps /\ map p_n (after_stack ps) = map p_n ps.
  Proof.
    intros F L. destruct ps as [|p [|q ps]]; cbn in L; try lia. inversion F as [|? ? P F']; subst. inversion F' as [|? ? Q F'']; subst.
    unfold vstack_tables. cbn [map vstack_go after_stack]. rewrite rows_well by auto. destruct (p_n p) eqn:EN; [destruct P as (_ & _ & X & _); lia|]. cbn [Nat.eqb]. rewrite step_well by auto. cbn [bind].
    destruct (rest_well ps (join p q) (join_well p q P Q) F'') as (E & W1 & W2). rewrite E. cbn [bind]. split; [|split; [|split; [|split]]].
    - do 3 f_equal. change (fold_left join ps (join p q)) with (fold_left join (q :: ps) p). unfold part_table, total. rewrite join_keys by auto. apply restr_ext. intros k _. rewrite join_val. reflexivity.
    - constructor; [|constructor]; auto; apply wider_well; auto; try apply P; apply Q.
    - cbn [map concat p_keys wider with_keys].
      rewrite <- (firsts_more (p_keys p) (p_keys q)) by (apply P || apply Q). rewrite firsts_firsts_app.
      transitivity (firsts String.eqb ((p_keys p ++ p_keys q) ++ (p_keys q ++ more (p_keys q) (p_keys p)) ++ concat (map p_keys (widened (join p q) ps)))); [now rewrite <- !app_assoc|].
      rewrite firsts_extra; [|intros k I; apply app_more_In in I; apply in_app_iff; tauto]. rewrite widened_keys; [now rewrite <- app_assoc|]. cbn. intros k I. apply app_more_In in I. apply in_app_iff; auto.
    - cbn. do 2 f_equal. generalize (join p q) as j. clear. induction ps as [|r ps IH]; intros j; cbn; f_equal; auto.
    - cbn. rewrite EN. do 2 f_equal. generalize (join p q) as j. clear. induction ps as [|r ps IH]; intros j; cbn; f_equal; auto.
  Qed.
End Stack.

(** ** Observing with such channels *)
Section Observe.
  Variable K : list string.
  Variable common : string -> bool.
  Hypothesis no_sky : ~ In "sky TR"%string K.
  Definition put_part (a : string * chan) (p : part) : string * chan := (fst a, with_table (snd a) {| cols := part_table p; meta := meta (h_table (snd a)) |}).
  Definition laid (chs : list (string * chan)) (ps : list part) : list (string * chan) := map (fun q => put_part (fst q) (snd q)) (combine chs ps).
  Lemma laid_length chs ps : length ps = length chs -> length (laid chs ps) = length chs.
  Proof. intros L. unfold laid. rewrite map_length, combine_length. lia. Qed.
  Lemma laid_tables chs : forall ps, length ps = length chs -> map snd (map (fun c : string * chan => (fst c, cols (h_table (snd c)))) (laid chs ps)) = map part_table ps.
  Proof. induction chs as [|a chs IH]; intros [|p ps] L; cbn in *; try lia; auto. f_equal. apply IH. lia. Qed.
  Lemma laid_metas {A} (f : A -> list (string * string) -> A) chs : forall ps m, length ps = length chs ->
    fold_left (fun m (c : string * chan) => f m (meta (h_table (snd c)))) (laid chs ps) m = fold_left (fun m (c : string * chan) => f m (meta (h_table (snd c)))) chs m.
  Proof. induction chs as [|a chs IH]; intros [|p ps] m L; cbn in *; try lia; auto. apply IH. lia. Qed.
  Lemma laid_put chs : forall ps ps', length ps = length chs -> length ps' = length chs ->
    put_tables (laid chs ps) (map (fun p => {| cols := fst p; meta := snd p |}) (combine (map part_table ps') (map (fun c : string * chan => meta (h_table (snd c))) (laid chs ps)))) = laid chs ps'.
  Proof. induction chs as [|a chs IH]; intros [|p ps] [|p' ps'] L L'; cbn in *; try lia; auto. f_equal. apply IH; lia. Qed.
  Lemma laid_map {B} (f : string * chan -> B) chs : (forall a t, f (fst a, with_table (snd a) t) = f a) -> forall ps, length ps = length chs -> map f (laid chs ps) = map f chs.
  Proof. intros H. induction chs as [|a chs IH]; intros [|p ps] L; cbn [length] in L; try lia; auto. change (laid (a :: chs) (p :: ps)) with (put_part a p :: laid chs ps). cbn [map mapM]. rewrite IH by lia. unfold put_part. now rewrite H. Qed.
  Lemma laid_mapM {B} (f : string * chan -> res B) chs : (forall a t, f (fst a, with_table (snd a) t) = f a) -> forall ps, length ps = length chs -> mapM f (laid chs ps) = mapM f chs.
  Proof. intros H. induction chs as [|a chs IH]; intros [|p ps] L; cbn [length] in L; try lia; auto. change (laid (a :: chs) (p :: ps)) with (put_part a p :: laid chs ps). cbn [map mapM]. rewrite IH by lia. unfold put_part. now rewrite H. Qed.
  Lemma after_length ps : length (after_stack ps) = length ps.
  Proof. destruct ps as [|p [|q ps]]; auto. cbn. do 2 f_equal. generalize (join p q) as j. induction ps as [|r ps IH]; intros j; cbn; f_equal; auto. Qed.

  Definition merged_meta (s : setting) (chs : list (string * chan)) (x : target) : list (string * string) :=
    dupdate String.eqb (fold_left (fun m (c : string * chan) => dupdate String.eqb m (meta (h_table (snd c)))) chs []) (header s x).
  Lemma prepare_laid s chs ps x : Forall (well K common) ps -> length ps = length chs -> (2 <= length chs)%nat ->
    prepare_target s (laid chs ps) x = (laid chs (after_stack ps), Ok {| cols := total ps; meta := merged_meta s chs x |}).
  Proof.
    intros W L N. unfold prepare_target, merge_channels. rewrite laid_tables by auto. destruct (stack_well K common ps W) as (E & _); [lia|]. rewrite E.
    assert (A : alone (laid chs ps) = false) by (unfold alone; rewrite laid_length by auto; apply Nat.eqb_neq; lia). rewrite A. rewrite laid_put by (rewrite ?after_length; auto).
    unfold merged_meta. now rewrite (laid_metas (dupdate String.eqb)).
  Qed.
  Definition stars_of (chs : list (string * chan)) (sed : sig) (sky : option sig) : res (list table) :=
    mapM (fun a : string * chan => let* ot := propagate_star (snd a) None sed sky in Ok (star_columns (fst ot))) chs.
  Lemma part_no_sky p : well K common p -> sget "sky TR" (part_table p) = None.
  Proof. intros (_ & _ & _ & S & _). unfold part_table. rewrite get_restr. destruct (isin "sky TR" (p_keys p)) eqn:E; auto. apply isin_In in E. apply S in E. contradiction. Qed.
  Lemma stars_laid sed sky chs : forall ps, Forall (well K common) ps -> length ps = length chs ->
    snd (propagate_stars (laid chs ps) sed sky) = stars_of chs sed sky /\
    map (fun c : string * chan => (h_noise (snd c), h_common (snd c))) (fst (propagate_stars (laid chs ps) sed sky)) = map (fun c => (h_noise (snd c), h_common (snd c))) chs /\
    (sky = None -> fst (propagate_stars (laid chs ps) sed sky) = laid chs ps).
  Proof.
    assert (NC : forall c wl sky, (h_noise (set_sky c wl sky), h_common (set_sky c wl sky)) = (h_noise c, h_common c)).
    { intros c wl sk. unfold set_sky. destruct (new_sky_column _ _ _); reflexivity. }
    induction chs as [|a chs IH]; intros [|p ps] W L; cbn [length] in L; try lia; [cbn; auto|]. inversion W as [|? ? P W']; subst.
    destruct (IH ps W' ltac:(lia)) as (E1 & E2 & E3). unfold laid, stars_of in *. cbn [combine map put_part fst snd propagate_stars mapM].
    assert (SC : sky_column_of (with_table (snd a) {| cols := part_table p; meta := meta (h_table (snd a)) |}) = None) by (unfold sky_column_of; cbn [h_table with_table cols]; now rewrite part_no_sky).
    rewrite SC. change (propagate_star (with_table (snd a) ?t) None sed sky) with (propagate_star (snd a) None sed sky).
    destruct (propagate_star (snd a) None sed sky) as [[o t]|e]; cbn [bind fst snd].
    - destruct (propagate_stars _ sed sky) as [rest r]. cbn [fst snd] in *. split; [|split].
      + subst r. now destruct (mapM _ chs).
      + cbn [map snd]. rewrite NC. cbn [h_noise h_common with_table]. now rewrite E2.
      + intros ->. rewrite E3 by auto. reflexivity.
    - split; [reflexivity|split].
      + cbn [map snd]. rewrite NC. cbn [h_noise h_common with_table]. f_equal. fold (laid chs ps). apply laid_map; [reflexivity|lia].
      + intros ->. reflexivity.
  Qed.
  (** what such an observation gives *)
  Definition given_out (s : setting) (chs : list (string * chan)) (x : target) (T : table) : res target :=
    let* g := foregrounds_of s (x_sky x) in
    let* t := match mapM (fun c : string * chan => foreground_of (g_foreground g) (snd c)) chs with
              | Err e => Err e
              | Ok tabs => match vstack_tables tabs with
                           | Err e => Err e
                           | Ok (_, None) => Err AttributeError
                           | Ok (_, Some new) => Ok (snd (update_table {| cols := T; meta := merged_meta s chs x |} {| cols := new; meta := [] |}))
                           end
              end in
    let* st := load s x in
    let* tabs := stars_of chs (st_sed st) (g_sky g) in
    let* t := match vstack_tables tabs with
              | Err e => Err e
              | Ok (_, None) => Err AttributeError
              | Ok (_, Some new) => Ok (snd (update_table t {| cols := new; meta := [] |}))
              end in
    let* t := M_Noise.estimate_noise t (map (fun c : string * chan => (h_noise (snd c), h_common (snd c))) chs) in
    Ok {| x_name := x_name x; x_stellar := x_stellar x; x_star_name := x_star_name x; x_magk := x_magk x; x_sky := g; x_table := Some t; x_source := Some st; x_header := star_header x st t |}.
  Lemma observe_laid s chs ps x : Forall (well K common) ps -> length ps = length chs -> (2 <= length chs)%nat ->
    snd (observe_target s (laid chs ps) x) = given_out s chs x (total ps) /\
    ((forall g, foregrounds_of s (x_sky x) = Ok g -> g_sky g = None) -> fst (observe_target s (laid chs ps) x) = laid chs (after_stack ps)).
  Proof.
    intros W L N. unfold observe_target, given_out. rewrite prepare_laid by auto. cbn [bind]. destruct (foregrounds_of s (x_sky x)) as [g|e]; cbn [bind]; [|auto].
    assert (W' : Forall (well K common) (after_stack ps)) by (apply stack_well; auto; lia). assert (L' : length (after_stack ps) = length chs) by now rewrite after_length.
    unfold propagate_foreground_light. rewrite laid_mapM by (auto; reflexivity).
    assert (A : alone (laid chs (after_stack ps)) = false) by (unfold alone; rewrite laid_length by auto; apply Nat.eqb_neq; lia).
    destruct (mapM _ chs) as [tabs|e]; cbn [bind]; [|auto]. destruct (vstack_tables tabs) as [[ts [new|]]|e]; cbn [bind]; auto.
    destruct (update_table _ _) as [old t] eqn:EU. rewrite A. cbn [bind snd]. destruct (load s x) as [st|e]; cbn [bind]; [|auto].
    unfold propagate_target_light. destruct (stars_laid (st_sed st) (g_sky g) chs (after_stack ps) W' L') as (E1 & E2 & E3).
    destruct (propagate_stars _ _ _) as [cs r]. cbn [fst snd] in E1, E2, E3. subst r. split.
    - destruct (stars_of chs (st_sed st) (g_sky g)) as [tb|e]; cbn [bind snd]; [|auto]. destruct (vstack_tables tb) as [[ts2 [new2|]]|e]; cbn [bind snd]; auto. rewrite E2. reflexivity.
    - intros SK. specialize (E3 (SK g eq_refl)). subst cs. destruct (stars_of chs (st_sed st) (g_sky g)) as [tb|e]; cbn [bind snd fst]; [|auto]. destruct (vstack_tables tb) as [[ts2 [new2|]]|e]; cbn [bind snd fst]; auto.
  Qed.
  Lemma total_same ps ps' : map p_val ps' = map p_val ps -> firsts String.eqb (concat (map p_keys ps')) = firsts String.eqb (concat (map p_keys ps)) -> total ps' = total ps.
  Proof.
    intros V F. unfold total. rewrite F. apply restr_ext. intros k _. f_equal. rewrite <- (map_map p_val (fun f => f k)), V, map_map. reflexivity.
  Qed.
  (** an observation after some others *)
  Definition skyless (sx : setting * target) : Prop := forall g, foregrounds_of (fst sx) (x_sky (snd sx)) = Ok g -> g_sky g = None.
  Lemma after_laid chs h : Forall skyless h -> forall ps, Forall (well K common) ps -> length ps = length chs -> (2 <= length chs)%nat ->
    exists ps', after (laid chs ps) h = laid chs ps' /\ Forall (well K common) ps' /\ length ps' = length chs /\ total ps' = total ps.
  Proof.
    induction 1 as [|[s x] h SK F IH]; intros ps W L N; cbn [after]; [eauto|]. destruct (observe_laid s chs ps x W L N) as [_ E]. rewrite E by exact SK.
    destruct (stack_well K common ps W) as (_ & W1 & F1 & V1 & _); [lia|]. destruct (IH (after_stack ps)) as (ps' & E1 & E2 & E3 & E4); auto. { now rewrite after_length. }
    exists ps'. split; auto. split; auto. split; auto. rewrite E4. now apply total_same.
  Qed.
  (** all columns in every channel *)
  Definition complete (ps : list part) : list part := map (fun p => with_keys p K) ps.
  Lemma complete_well ps : NoDup K -> K <> [] -> Forall (well K common) ps -> Forall (well K common) (complete ps).
  Proof.
    intros ND NE W. unfold complete. rewrite Forall_map. eapply Forall_impl; [|exact W]. intros p (A & B & C & D & E). split; [|split; [|split; [|split]]]; cbn; auto. intros k I. destruct (E k I) as (E1 & E2 & E3). split; auto. split; [intros; contradiction|]. destruct (common k); auto.
  Qed.
  Lemma complete_total ps : NoDup K -> ps <> [] -> firsts String.eqb (concat (map p_keys ps)) = K -> total (complete ps) = total ps.
  Proof.
    intros ND NE F. apply total_same.
    - unfold complete. rewrite map_map. reflexivity.
    - rewrite F. apply firsts_repeated; auto. { destruct ps; [congruence|discriminate]. } intros l I. unfold complete in I. rewrite map_map in I. apply in_map_iff in I as (p & <- & _). reflexivity.
  Qed.
  Lemma observe_complete chs ps h s x : NoDup K -> K <> [] -> Forall (well K common) ps -> length ps = length chs -> (2 <= length chs)%nat -> firsts String.eqb (concat (map p_keys ps)) = K ->
    Forall skyless h -> snd (observe_target s (after (laid chs ps) h) x) = snd (observe_target s (laid chs (complete ps)) x).
  Proof.
    intros ND NE W L N F SK. destruct (after_laid chs h SK ps W L N) as (ps' & -> & W' & L' & T'). rewrite (proj1 (observe_laid s chs ps' x W' L' N)), T'.
    rewrite (proj1 (observe_laid s chs (complete ps) x (complete_well ps ND NE W) ltac:(unfold complete; now rewrite map_length) N)). rewrite complete_total; auto. destruct ps; [cbn in *; lia|discriminate].
  Qed.
End Observe.
