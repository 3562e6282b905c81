(** Lemmas about the HDF5 output: the round trip of dictionaries with tables. *)
From Verif Require Import Base PyStr M_Hdf5 S_Hdf5 L_Hdf5.
Open Scope list_scope.

Section K.
  Context {V : Type}.
  Notation h5 := (h5 V). Notation item := (item V). Notation lval := (lval V).
  Implicit Types (g f : list (string * h5)) (d : list (string * item)).
  Variable unit_ok : string -> bool.
  Notation storable := (@storable V unit_ok). Notation storable0 := (@storable0 V unit_ok).

  Lemma NoDup_app_remove_l {A} (a b : list A) : NoDup (a ++ b) -> NoDup b.
  Proof. induction a as [|x a IH]; cbn; auto. inversion 1; auto. Qed.

  (** the dictionary without tables that is stored *)
  Fixpoint expand_item (it : item) : item :=
    let go := flat_map (fun kv : string * item =>
      match snd kv with
      | ITab t => [(fst kv, IArr (tb_array t)); ((fst kv ++ meta_suffix)%string, IArr (tb_header t));
                   ((fst kv ++ "_to_group")%string, IDict (columns t))]
      | _ => [(fst kv, expand_item (snd kv))]
      end) in
    match it with
    | IDict d => IDict (go d)
    | ISignal d => ISignal (go d)
    | IList (Ok v) _ => IArr v
    | i => i
    end.
  Definition expand_entry (kv : string * item) : list (string * item) :=
    match snd kv with
    | ITab t => [(fst kv, IArr (tb_array t)); ((fst kv ++ meta_suffix)%string, IArr (tb_header t));
                 ((fst kv ++ "_to_group")%string, IDict (columns t))]
    | _ => [(fst kv, expand_item (snd kv))]
    end.
  Definition expand d := flat_map expand_entry d.
  Lemma expand_dict d : expand_item (IDict d) = IDict (expand d). Proof. reflexivity. Qed.
  Lemma expand_signal d : expand_item (ISignal d) = ISignal (expand d). Proof. reflexivity. Qed.

  Lemma expand_names d : map fst (expand d) = flat_map names_of d.
  Proof.
    unfold expand. induction d as [|[k i] d IH]; auto. cbn [flat_map]. rewrite map_app, IH. f_equal.
    unfold expand_entry, names_of; cbn. destruct i; reflexivity.
  Qed.
  Lemma names_incl d k : In k (map fst d) -> In k (flat_map names_of d).
  Proof.
    intros I. apply in_map_iff in I as ([k' i] & E & I). cbn in E; subst. apply in_flat_map.
    exists (k, i). split; auto. unfold names_of; cbn. destruct i; cbn; auto.
  Qed.

  Definition tab (it : item) : bool := match it with ITab _ => true | _ => false end.
  Lemma expand_origin d k x : In (k, x) (expand d) ->
    (exists i, In (k, i) d /\ tab i = false /\ x = expand_item i) \/
    (exists t, In (k, ITab t) d /\ x = IArr (tb_array t)) \/
    (exists b t, In (b, ITab t) d /\ k = (b ++ meta_suffix)%string /\ x = IArr (tb_header t)) \/
    (exists b t, In (b, ITab t) d /\ k = (b ++ "_to_group")%string /\ x = IDict (columns t)).
  Proof.
    intros I. apply in_flat_map in I as ([k' i] & I & E). unfold expand_entry in E; cbn in E.
    destruct i; cbn in E;
      try (destruct E as [E|[]]; inversion E; subst; left; eexists; split; [eauto|]; split; reflexivity).
    destruct E as [E|[E|[E|[]]]]; inversion E; subst; right; eauto 10.
  Qed.

  Lemma expand_in d k i : In (k, i) d -> tab i = false -> In (k, expand_item i) (expand d).
  Proof.
    intros I T. apply in_flat_map. exists (k, i). split; auto. unfold expand_entry; cbn.
    destruct i; cbn in T; try discriminate; cbn; auto.
  Qed.
  Lemma expand_in_tab d k t : In (k, ITab t) d ->
    In (k, IArr (tb_array t)) (expand d) /\ In ((k ++ meta_suffix)%string, IArr (tb_header t)) (expand d) /\
    In ((k ++ "_to_group")%string, IDict (columns t)) (expand d).
  Proof.
    intros I. unfold expand. rewrite !in_flat_map.
    split; [|split]; exists (k, ITab t); split; auto; cbn; auto.
  Qed.

  (** names *)
  Lemma dot_spec k : contains "." k = true <-> In "."%char (str_chars k).
  Proof.
    unfold contains. rewrite occurs_in_spec. split.
    - intros (a & b & ->). apply in_or_app; right; cbn; auto.
    - intros I. apply in_split in I as (a & b & E). exists a, b. exact E.
  Qed.
  Lemma group_no_dot k : contains "." k = false -> contains "." (k ++ "_to_group") = false.
  Proof.
    intros H. destruct (contains "." (k ++ "_to_group")) eqn:E; auto.
    apply dot_spec in E. rewrite str_chars_app in E. apply in_app_iff in E as [E|E].
    - apply dot_spec in E. congruence.
    - cbn in E. repeat (destruct E as [E|E]; [discriminate|]). tauto.
  Qed.
  Lemma String_length_append a b : String.length (a ++ b) = String.length a + String.length b.
  Proof. induction a as [|c a IH]; cbn; auto. Qed.
  Lemma group_short b k : (b ++ "_to_group")%string = k -> 9 <= String.length k.
  Proof. intros <-. rewrite String_length_append. cbn. lia. Qed.
  Lemma meta_short b k : (b ++ meta_suffix)%string = k -> 9 <= String.length k.
  Proof. intros <-. rewrite String_length_append. cbn. lia. Qed.

  Lemma short_origin d k : String.length k < 9 ->
    (forall x, In (k, x) (expand d) ->
       (exists i, In (k, i) d /\ tab i = false /\ x = expand_item i) \/
       (exists t, In (k, ITab t) d /\ x = IArr (tb_array t))) /\
    (In k (map fst (expand d)) <-> In k (map fst d)).
  Proof.
    intros L. split.
    - intros x I. destruct (expand_origin _ _ _ I) as [H|[H|[(b & t & _ & E & _)|(b & t & _ & E & _)]]]; auto.
      + symmetry in E; apply meta_short in E; lia.
      + symmetry in E; apply group_short in E; lia.
    - split.
      + intros I. apply in_map_iff in I as ([k' x] & E & I); cbn in E; subst.
        destruct (expand_origin _ _ _ I) as [(i & J & _)|[(t & J & _)|[(b & t & _ & E & _)|(b & t & _ & E & _)]]].
        * apply in_map_iff; exists (k, i); auto.
        * apply in_map_iff; exists (k, ITab t); auto.
        * symmetry in E; apply meta_short in E; lia.
        * symmetry in E; apply group_short in E; lia.
      + intros I. rewrite expand_names. apply names_incl; auto.
  Qed.

  (** ** storable *)
  Definition good d : Prop :=
    NoDup (flat_map names_of d) /\
    (forall k i, In (k, i) d -> contains (match i with ITab _ => "." | _ => meta_suffix end) k = false) /\
    (forall a b, In ("value", a) d -> In ("unit", b) d ->
       is_numeric a = true /\ exists u, b = IStr u /\ unit_ok u = true) /\
    Forall (fun kv => storable (snd kv)) d.
  Lemma storable_good d : storable (IDict d) <-> good d.
  Proof.
    cbn. unfold good.
    assert (H : (fix all (l : list (string * item)) : Prop :=
           match l with [] => True | (k, i) :: l' => storable i /\ all l' end) d
         <-> Forall (fun kv => storable (snd kv)) d).
    { induction d as [|[k i] d IH]; cbn; [split; auto|]. rewrite IH. split.
      - intros [? ?]; constructor; auto.
      - inversion 1; auto. }
    rewrite H; tauto.
  Qed.
  Lemma storable_good_signal d : storable (ISignal d) <-> good d.
  Proof. rewrite <- storable_good; reflexivity. Qed.

  Lemma columns_ok t : storable (ITab t) -> dict_ok unit_ok (columns t).
  Proof.
    intros (ND & CS & VU). unfold columns.
    assert (KS : map fst (columns t) = map fst (tb_cols t)) by (unfold columns; rewrite map_map; reflexivity).
    split; [|split; [|split]].
    - fold (columns t). rewrite KS; auto.
    - intros k it I C. apply in_map_iff in I as ([c [v u]] & E & I). cbn in E. inversion E; subst.
      destruct (CS _ _ _ I) as [X _]. unfold meta_suffix in C. congruence.
    - intros a b IA IB. exfalso. apply VU. fold (columns t) in *. rewrite <- KS.
      split; apply in_map_iff; [exists ("value", a)|exists ("unit", b)]; auto.
    - apply Forall_forall. intros [k it] I. apply in_map_iff in I as ([c [v u]] & E & I). cbn in E.
      inversion E; subst. destruct (CS _ _ _ I) as [_ UO]. cbn [snd fst].
      apply storable_dict. split; [|split; [|split]].
      + destruct u; cbn; repeat constructor; cbn; intuition discriminate.
      + intros k' it' I' C. exfalso. destruct u; cbn in I'.
        * destruct I' as [X|[X|[]]]; inversion X; subst; discriminate.
        * destruct I' as [X|[]]; inversion X; subst; discriminate.
      + intros a b IA IB. destruct u; cbn in IA, IB.
        * destruct IA as [X|[X|[]]]; inversion X; subst. destruct IB as [Y|[Y|[]]]; inversion Y; subst.
          split; auto. eauto.
        * destruct IB as [Y|[]]; inversion Y.
      + destruct u; repeat constructor.
  Qed.

  Lemma numeric_expand a : storable a -> is_numeric a = true -> is_numeric (expand_item a) = true.
  Proof. destruct a as [| | | | | |[v|e] l| | |]; cbn; auto. Qed.

  Lemma expand_storable : forall it, tab it = false -> storable it -> storable0 (expand_item it).
  Proof.
    assert (DK : forall d, Forall (fun kv => tab (snd kv) = false -> storable (snd kv) ->
                                     storable0 (expand_item (snd kv))) d -> good d -> dict_ok unit_ok (expand d)).
    { intros d IH (ND & NM & VU & ST). rewrite Forall_forall in IH, ST.
      split; [rewrite expand_names; auto|]. split; [|split].
      - intros k x I C. destruct (expand_origin _ _ _ I) as [(i & J & T & ->)|[(t & J & ->)|[(b & t & J & -> & ->)|(b & t & J & -> & ->)]]].
        + pose proof (NM _ _ J) as X. destruct i; cbn in T; try discriminate; congruence.
        + pose proof (NM _ _ J) as X. cbn in X. apply no_dot_no_meta in X. congruence.
        + pose proof (NM _ _ J) as X. cbn in X. exists b, (tb_array t), (tb_header t).
          split; auto. split; auto. split; auto. split; [apply expand_in_tab in J; tauto|].
          intros -> IU. apply (short_origin d) in IU; [|cbn; lia].
          apply in_map_iff in IU as ([k u] & E & IU). cbn in E; subst.
          destruct (VU _ _ J IU) as [N _]. discriminate.
        + pose proof (NM _ _ J) as X. cbn in X. apply group_no_dot in X. apply no_dot_no_meta in X. congruence.
      - intros a b IA IB.
        destruct (proj1 (short_origin d "value" ltac:(cbn; lia)) _ IA) as [(a0 & JA & TA & ->)|(ta & JA & ->)];
        destruct (proj1 (short_origin d "unit" ltac:(cbn; lia)) _ IB) as [(b0 & JB & TB & ->)|(tb & JB & ->)];
        destruct (VU _ _ JA JB) as (NA & u & EU & UO); try discriminate; subst.
         split; [apply numeric_expand; auto; exact (ST _ JA)|]. exists u. split; auto.
      - apply Forall_forall. intros [k x] I. cbn [snd].
        destruct (expand_origin _ _ _ I) as [(i & J & T & ->)|[(t & J & ->)|[(b & t & J & -> & ->)|(b & t & J & -> & ->)]]].
        + apply (IH _ J); auto.
        + exact Logic.I.
        + exact Logic.I.
        + apply storable_dict. apply columns_ok. exact (ST _ J). }
    induction it as [v|v|s|v u|l|t|c l IH|d IH|d IH|] using item_ind'; intros T ST; auto; try (cbn in *; tauto).
    - discriminate.
    - destruct c; cbn in *; tauto.
    - rewrite expand_signal. apply storable_signal. apply DK; auto. apply storable_good_signal; auto.
    - rewrite expand_dict. apply storable_dict. apply DK; auto. apply storable_good; auto.
  Qed.
  Lemma good_ok d : good d -> dict_ok unit_ok (expand d).
  Proof.
    intros G. apply storable_dict. rewrite <- expand_dict. apply expand_storable; auto.
    apply storable_good; auto.
  Qed.

  (** ** writing *)
  Lemma col_groups t : storable (ITab t) -> map col_group (tb_cols t) = images (columns t).
  Proof.
    intros _. unfold images, columns. rewrite map_map. apply map_ext. intros [c [v u]]. destruct u; reflexivity.
  Qed.

  Definition writes (it : item) : Prop := forall g k, storable it ->
    contains (match it with ITab _ => "." | _ => meta_suffix end) k = false ->
    (forall n, In n (names_of (k, it)) -> sget n g = None) ->
    store_thing g k it = (g ++ images (expand_entry (k, it)), Ok tt).

  Lemma names_distinct k : k <> (k ++ meta_suffix)%string /\ k <> (k ++ "_to_group")%string /\
    (k ++ meta_suffix)%string <> (k ++ "_to_group")%string.
  Proof.
    repeat split; intros E; apply (f_equal String.length) in E; rewrite ?String_length_append in E; cbn in E; lia.
  Qed.
  Lemma eqb_neq a b : a <> b -> String.eqb a b = false. Proof. apply String.eqb_neq. Qed.

  Lemma save_writes d : Forall (fun kv => writes (snd kv)) d -> good d ->
    forall g, (forall n, In n (flat_map names_of d) -> sget n g = None) ->
    save_dict g d = (g ++ images (expand d), Ok tt).
  Proof.
    induction 1 as [|[k i] d H F IH]; intros G g NG; cbn [save_dict].
    - cbn. rewrite app_nil_r; auto.
    - destruct G as (ND & NM & VU & ST). cbn [flat_map] in ND, NG.
      inversion ST as [|? ? S1 S2]; subst. cbn in S1, H.
      rewrite (H g k); auto.
      + rewrite IH.
        * rewrite <- app_assoc. unfold expand; cbn [flat_map]. unfold images. rewrite map_app. reflexivity.
        * split; [|split; [|split]]; auto.
          -- apply NoDup_app_remove_l in ND; auto.
          -- intros k' i' I. apply NM; cbn; auto.
          -- intros a b IA IB. apply VU; cbn; auto.
        * intros n I. rewrite sget_app. rewrite NG by (apply in_or_app; auto).
          apply dget_None_notIn; [apply String_eqb_spec|]. rewrite images_keys.
          intros J. assert (J' : In n (names_of (k, i))).
          { unfold expand_entry in J; cbn in J. unfold names_of; cbn. destruct i; exact J. }
          clear - ND I J'. induction (names_of (k, i)) as [|m l IHl]; [destruct J'|].
          cbn in ND. inversion ND; subst. destruct J' as [->|J']; auto.
          apply H1. apply in_or_app; auto.
      + apply (NM k i); cbn; auto.
      + intros n I. apply NG. apply in_or_app; auto.
  Qed.

  Lemma all_write : forall it, writes it.
  Proof.
    induction it as [v|v|s|v u|l|t|c l IH|d IH|d IH|] using item_ind'; intros g k ST NM NG;
      try (cbn in ST; tauto);
      try (pose proof (NG k (or_introl eq_refl)) as N).
    1-3,5: cbn; unfold create_dataset; rewrite N; auto.
    - cbn. unfold write_quantity. destruct (String.eqb k "value") eqn:E.
      + apply String.eqb_eq in E; subst. unfold create_dataset. rewrite N; auto.
      + rewrite N; auto.
    - cbn [store_thing]. unfold write_table, then_, create_dataset. rewrite N. unfold create_dataset.
      destruct (names_distinct k) as (D1 & D2 & D3).
      assert (N2 : sget (k ++ meta_suffix)%string g = None) by (apply NG; cbn; auto).
      assert (N3 : sget (k ++ "_to_group")%string g = None) by (apply NG; cbn; auto).
      rewrite sget_app, N2. cbn [dget]. rewrite (eqb_neq _ _ (not_eq_sym D1)).
      rewrite !sget_app, N3. cbn [dget]. rewrite (eqb_neq _ _ (not_eq_sym D2)), (eqb_neq _ _ (not_eq_sym D3)).
      rewrite (col_groups t ST). rewrite <- !app_assoc. reflexivity.
    - destruct c as [v|e]; [|cbn in ST; tauto]. cbn. unfold create_dataset. rewrite N; auto.
    - rewrite store_signal_eq. apply storable_good_signal in ST.
      unfold into_group. rewrite N. rewrite save_writes; auto.
    - rewrite store_dict_eq. apply storable_good in ST.
      unfold into_group. rewrite N. rewrite save_writes; auto.
  Qed.

  Lemma save_good d : good d -> save_dict [] d = (images (expand d), Ok tt).
  Proof.
    intros G. rewrite save_writes; auto. apply Forall_forall; intros; apply all_write.
  Qed.

  (** ** reading *)
  Fixpoint rank (it : item) : nat :=
    match it with
    | ITab _ => 5
    | IDict d | ISignal d => S (fold_right Nat.max 0 (map (fun kv => rank (snd kv)) d))
    | _ => 0
    end.
  Lemma rank_in k i d : In (k, i) d -> rank i < rank (IDict d).
  Proof.
    cbn. induction d as [|[k' v'] l IH]; cbn; [tauto|]. intros [E|I].
    - injection E as -> ->. lia.
    - specialize (IH I). lia.
  Qed.
  Lemma fold_max_le l n : (forall x, In x l -> x <= n) -> fold_right Nat.max 0 l <= n.
  Proof.
    induction l as [|x l IH]; intros H; cbn [fold_right]; [lia|].
    apply Nat.max_lub; [apply H; cbn; auto|apply IH; intros; apply H; cbn; auto].
  Qed.
  Lemma rank_columns t : rank (IDict (columns t)) <= 4.
  Proof.
    cbn [rank]. apply le_n_S. apply fold_max_le. intros x I. apply in_map_iff in I as ([k i] & <- & I).
    unfold columns in I. apply in_map_iff in I as ([c [v u]] & E & _). inversion E; subst.
    destruct u; cbn; lia.
  Qed.
  Lemma expand_columns t : expand (columns t) = columns t.
  Proof.
    unfold columns, expand. induction (tb_cols t) as [|[c [v u]] l IH]; cbn; auto.
    rewrite IH. destruct u; reflexivity.
  Qed.
  Lemma columns_good t : storable (ITab t) -> good (columns t).
  Proof.
    intros (ND & CS & VU).
    assert (KS : map fst (columns t) = map fst (tb_cols t)) by (unfold columns; rewrite map_map; reflexivity).
    assert (NS : flat_map names_of (columns t) = map fst (tb_cols t)).
    { rewrite <- expand_names, expand_columns. auto. }
    split; [rewrite NS; auto|]. split; [|split].
    - intros k i I. apply in_map_iff in I as ([c [v u]] & E & I). cbn in E. inversion E; subst.
      destruct (CS _ _ _ I) as [X _]. exact X.
    - intros a b IA IB. exfalso. apply VU. rewrite <- KS.
      split; apply in_map_iff; [exists ("value", a)|exists ("unit", b)]; auto.
    - apply Forall_forall. intros [k i] I. apply in_map_iff in I as ([c [v u]] & E & I). cbn in E. inversion E; subst.
      destruct (CS _ _ _ I) as [_ UO]. cbn [snd]. apply storable_good. split; [|split; [|split]].
      + destruct u; cbn; repeat constructor; cbn; intuition discriminate.
      + intros k' it' I'. destruct u; cbn in I'.
        * destruct I' as [X|[X|[]]]; inversion X; subst; reflexivity.
        * destruct I' as [X|[]]; inversion X; subst; reflexivity.
      + intros a b IA IB. destruct u; cbn in IA, IB.
        * destruct IA as [X|[X|[]]]; inversion X; subst. destruct IB as [Y|[Y|[]]]; inversion Y; subst.
          split; auto. eauto.
        * destruct IB as [Y|[]]; inversion Y.
      + destruct u; repeat constructor.
  Qed.

  Lemma nodup_tab d k t i : NoDup (flat_map names_of d) -> In (k, ITab t) d -> In (k, i) d -> i = ITab t.
  Proof.
    induction d as [|[k' i'] d IH]; cbn; [tauto|]. intros ND [E|I] [E'|I'].
    - congruence.
    - inversion E; subst. cbn in ND. inversion ND; subst. exfalso. apply H1. cbn. right; right.
      apply names_incl. apply in_map_iff. exists (k, i); auto.
    - inversion E'; subst. exfalso. clear IH.
      assert (In k (flat_map names_of d)) by (apply names_incl; apply in_map_iff; exists (k, ITab t); auto).
      unfold names_of in ND; cbn in ND. destruct i; cbn in ND; inversion ND; subst; try contradiction.
      apply H2. cbn. auto.
    - apply NoDup_app_remove_l in ND. auto.
  Qed.

  Lemma unit_key d u : In ("unit", IStr u) (expand d) -> In ("unit", @IStr V u) d.
  Proof.
    intros I. destruct (proj1 (short_origin d "unit" ltac:(cbn; lia)) _ I) as [(i & J & T & E)|(t & J & E)].
    - destruct i as [| | | | | |[v|e] l| | |]; cbn in E; try discriminate. inversion E; subst; auto.
    - discriminate.
  Qed.
  Lemma unit_absent d k : k <> "value" \/ ~ In "unit" (map fst (expand d)) ->
    k <> "value" \/ ~ In "unit" (map fst d).
  Proof.
    intros [A|A]; auto. right. intros I. apply A. apply (short_origin d); auto. cbn; lia.
  Qed.

  Lemma collapse : forall n d l, rank (IDict d) <= n -> good d -> Restores0 (expand d) l -> Restores d l.
  Proof.
    induction n as [|n IH]; intros d l RK GD R0; [cbn in RK; lia|].
    inversion R0 as [d' l' KS IS]; subst. pose proof GD as (ND & NM & VU & ST).
    rewrite Forall_forall in ST.
    constructor.
    - intros k. rewrite KS, expand_names. tauto.
    - intros k i I. pose proof (ST _ I) as S1. cbn in S1. pose proof (rank_in _ _ _ I) as RI.
      destruct (tab i) eqn:T.
      + destruct i; try discriminate. destruct (expand_in_tab _ _ _ I) as (I1 & I2 & _).
        destruct (IS _ _ I1) as (lv & GL & B). exists lv. split; auto.
        inversion B; subst.
        * exfalso. match goal with X : ~ In (k ++ meta_suffix)%string _ |- _ => apply X end.
          apply in_map_iff. eexists; split; [|exact I2]; reflexivity.
        * exfalso. match goal with X : In ("unit", IStr _) _ |- _ => apply unit_key in X; rename X into H end. destruct (VU _ _ I H) as [X _]. discriminate.
        * assert (h = tb_header t) as ->; [|constructor].
          assert (NE : NoDup (map fst (expand d))) by (rewrite expand_names; auto).
          match goal with X : In (_, IArr h) _ |- _ => pose proof (in_get _ _ _ NE X) as A end.
          rewrite (in_get _ _ _ NE I2) in A. congruence.
      + pose proof (expand_in _ _ _ I T) as J.
        destruct (IS _ _ J) as (lv & GL & B). exists lv. split; auto.
        assert (NT : forall h, ~ In ((k ++ meta_suffix)%string, IArr h) (expand d)).
        { intros h IM. destruct (expand_origin _ _ _ IM) as [(i' & J' & T' & E)|[(t & J' & E)|[(b & t & J' & E & E')|(b & t & J' & E & E')]]].
          - pose proof (NM _ _ J') as X. destruct i'; try discriminate; rewrite meta_self in X; discriminate.
          - pose proof (NM _ _ J') as X. cbn in X. apply no_dot_no_meta in X. rewrite meta_self in X; discriminate.
          - apply app_str_inj in E; subst b. pose proof (nodup_tab _ _ _ _ ND J' I). subst i. discriminate.
          - discriminate. }
        destruct i as [v|v|s|v u|x|t|[v|e] x|d0|d0|]; try discriminate; try (cbn in S1; tauto);
          cbn [expand_item] in B.
        * inversion B; subst; [apply B_num; apply unit_absent; auto|apply B_num_unit; apply unit_key; auto].
        * inversion B; subst; [apply B_arr; apply unit_absent; auto|apply B_arr_unit; apply unit_key; auto|].
          exfalso; eapply NT; eauto.
        * inversion B; subst; constructor.
        * inversion B; subst.
          -- apply B_quant; auto.
          -- apply B_value_unit; apply unit_key; auto.
          -- apply B_value_lost. intros A. match goal with X : ~ In "unit" _ |- _ => apply X end. apply (short_origin d); auto. cbn; lia.
        * inversion B; subst; constructor.
        * inversion B; subst; [apply B_list; apply unit_absent; auto|apply B_list_unit; apply unit_key; auto|].
          exfalso; eapply NT; eauto.
        * change (RestoresItem0 (expand d) k (ISignal (expand d0)) lv) in B. inversion B; subst. constructor.
          apply IH; auto; [cbn in *; lia|apply storable_good_signal; auto].
        * change (RestoresItem0 (expand d) k (IDict (expand d0)) lv) in B. inversion B; subst. constructor.
          apply IH; auto; [cbn in *; lia|apply storable_good; auto].
    - intros k t I. destruct (expand_in_tab _ _ _ I) as (_ & _ & I3).
      destruct (IS _ _ I3) as (lv & GL & B). inversion B; subst. eexists. split; [exact GL|].
      pose proof (rank_in _ _ _ I) as RI. change (5 < rank (IDict d)) in RI.
      apply IH.
      + pose proof (rank_columns t). lia.
      + apply columns_good. exact (ST _ I).
      + rewrite expand_columns; auto.
  Qed.

  Lemma roundtrip d : storable (IDict d) ->
    exists g l, save_dict [] d = (g, Ok tt) /\ load unit_ok g = Ok l /\ Restores d l.
  Proof.
    intros OK. apply storable_good in OK. exists (images (expand d)).
    destruct (read_images_back unit_ok (depth (LDict (read_images (expand d)))) (expand d) (good_ok _ OK) (le_n _)) as (l & R & B).
    exists l. split; [apply save_good; auto|]. split; [exact R|]. eapply collapse; eauto.
  Qed.
End K.
