(** Lemmas about the HDF5 output. *)
From Verif Require Import Base PyStr M_Hdf5 S_Hdf5.
Open Scope list_scope.

Section L.
  Context {V : Type}.
  Notation h5 := (h5 V). Notation item := (item V). Notation lval := (lval V).
  Implicit Types (g f : list (string * h5)) (d : list (string * item)).

  Lemma item_ind' (P : item -> Prop)
    (Hn : forall v, P (INum v)) (Ha : forall v, P (IArr v)) (Hs : forall s, P (IStr s))
    (Hq : forall v u, P (IQuant v u)) (Hsa : forall l, P (IStrArr l)) (Ht : forall t, P (ITab t))
    (Hl : forall c l, Forall P l -> P (IList c l))
    (Hsg : forall d, Forall (fun kv => P (snd kv)) d -> P (ISignal d))
    (Hd : forall d, Forall (fun kv => P (snd kv)) d -> P (IDict d))
    (Hb : P IBad) : forall it, P it.
  Proof.
    fix IH 1. intros [v|v|s|v u|l|t|c l|d|d|];
      [apply Hn|apply Ha|apply Hs|apply Hq|apply Hsa|apply Ht|apply Hl|apply Hsg|apply Hd|apply Hb].
    - induction l as [|i l IHl]; constructor; [apply IH|apply IHl].
    - induction d as [|[k i] l IHl]; constructor; [apply IH|apply IHl].
    - induction d as [|[k i] l IHl]; constructor; [apply IH|apply IHl].
  Qed.

  (** ** keeps *)
  Lemma keeps_refl (x : h5) : keeps x x.
  Proof. split; eauto. Qed.
  Lemma keeps_trans (x y z : h5) : keeps x y -> keeps y z -> keeps x z.
  Proof.
    intros [A1 A2] [B1 B2]. split; auto. intros p e H. apply A2 in H as [e' H]. eauto.
  Qed.

  Lemma sget_app {A} k (g h : list (string * A)) :
    sget k (g ++ h) = match sget k g with Some x => Some x | None => sget k h end.
  Proof. induction g as [|[a b] g IH]; cbn; auto. destruct (String.eqb k a); auto. Qed.

  Lemma keeps_app g h : keeps (G g) (G (g ++ h)).
  Proof.
    split; intros [|k p] x; cbn; try discriminate; eauto.
    - intros H. destruct (sget k g) as [y|] eqn:E; [|discriminate]. rewrite sget_app, E; auto.
    - intros H. destruct (sget k g) as [y|] eqn:E; [|discriminate]. rewrite sget_app, E; eauto.
  Qed.

  Lemma keeps_sset g k sub0 sub : sget k g = Some (G sub0) -> keeps (G sub0) (G sub) ->
    keeps (G g) (G (sset k (G sub) g)).
  Proof.
    intros E [K1 K2]. split; intros [|k' p] x; cbn [at_]; try discriminate; eauto.
    - rewrite (dget_dset _ String_eqb_spec). destruct (String.eqb k' k) eqn:EK; auto.
      apply String.eqb_eq in EK; subst. rewrite E. apply K1.
    - rewrite (dget_dset _ String_eqb_spec). destruct (String.eqb k' k) eqn:EK; eauto.
      apply String.eqb_eq in EK; subst. rewrite E. apply K2.
  Qed.

  Lemma at_keeps p (x x' : h5) y : keeps x x' -> at_ p x = Some y -> exists y', at_ p x' = Some y'.
  Proof.
    intros [K1 K2] H. destruct y as [d|e]; [apply K1 in H|apply K2 in H as [? H]]; eauto.
  Qed.

  (** ** The nested loop is save_dict *)
  Definition into_group g key d :=
    match sget key g with
    | None => let '(sub, r) := save_dict [] d in (g ++ [(key, G sub)], r)
    | Some (G sub0) => let '(sub, r) := save_dict sub0 d in (sset key (G sub) g, r)
    | Some (D _) => match d with
                    | [] => (g, Ok tt)
                    | (_, i) :: _ => (g, Err (err_on_dataset i))
                    end
    end.

  Lemma store_dict_eq g key d : store_thing g key (IDict d) = into_group g key d.
  Proof.
    reflexivity.
  Qed.
  Lemma store_signal_eq g key d : store_thing g key (ISignal d) = into_group g key d.
  Proof. rewrite <- store_dict_eq. reflexivity. Qed.

  Lemma store_dictionary_eq g d n : store_dictionary g d (Some n) = into_group g n d.
  Proof. reflexivity. Qed.

  Fixpoint store_list g key (n : nat) (l : list item) : list (string * h5) * res unit :=
    match l with
    | [] => (g, Ok tt)
    | i :: l' => match store_thing g (name_idx key n) i with
                 | (g', Ok _) => store_list g' key (S n) l'
                 | (g', Err e) => (g', Err e)
                 end
    end.
  Lemma store_list_eq g key l : store_thing g key (IList (Err TypeError) l) = store_list g key 0 l.
  Proof.
    cbn. generalize 0. revert g. induction l as [|i l IH]; intros g n; cbn; auto.
    destruct (store_thing g (name_idx key n) i) as [g' [[]|]]; auto.
  Qed.

  (** ** Nothing is lost *)
  Lemma create_dataset_keeps g n x g' r : create_dataset g n x = (g', r) -> keeps (G g) (G g').
  Proof.
    unfold create_dataset. destruct (sget n g); intros [= <- <-]; [apply keeps_refl|apply keeps_app].
  Qed.

  Lemma save_dict_keeps d :
    Forall (fun kv => forall g key g' r, store_thing g key (snd kv) = (g', r) -> keeps (G g) (G g')) d ->
    forall g g' r, save_dict g d = (g', r) -> keeps (G g) (G g').
  Proof.
    induction 1 as [|[k i] d H F IH]; cbn; intros g g' r E.
    - injection E as <- <-; apply keeps_refl.
    - cbn in H. destruct (store_thing g k i) as [g1 r1] eqn:S. apply H in S.
      destruct r1 as [u|e].
      + eapply keeps_trans; eauto.
      + destruct e; injection E as <- <-; auto.
  Qed.

  Lemma into_group_keeps d g key g' r :
    (forall g g' r, save_dict g d = (g', r) -> keeps (G g) (G g')) ->
    into_group g key d = (g', r) -> keeps (G g) (G g').
  Proof.
    intros K. unfold into_group. destruct (sget key g) as [[x|sub0]|] eqn:E.
    - destruct d as [|[? ?] ?]; intros [= <- <-]; apply keeps_refl.
    - destruct (save_dict sub0 d) as [sub r'] eqn:S. intros [= <- <-].
      eapply keeps_sset; eauto.
    - destruct (save_dict [] d) as [sub r'] eqn:S. intros [= <- <-]. apply keeps_app.
  Qed.

  Lemma store_thing_keeps : forall it g key g' r,
    store_thing g key it = (g', r) -> keeps (G g) (G g').
  Proof.
    induction it as [v|v|s|v u|l|t|c l IH|d IH|d IH|] using item_ind'; intros g key g' r E.
    1-3,5: cbn in E; eapply create_dataset_keeps; eauto.
    - cbn in E. unfold write_quantity in E. destruct (String.eqb key "value").
      + eapply create_dataset_keeps; eauto.
      + destruct (sget key g); injection E as <- <-; [apply keeps_refl|apply keeps_app].
    - cbn in E. unfold write_table, then_ in E.
      destruct (create_dataset g key _) as [g1 [u1|]] eqn:C1; apply create_dataset_keeps in C1;
        [|injection E as <- <-; auto].
      destruct (create_dataset g1 _ _) as [g2 [u2|]] eqn:C2; apply create_dataset_keeps in C2;
        [|injection E as <- <-; eapply keeps_trans; eauto].
      eapply keeps_trans; [exact C1|]. eapply keeps_trans; [exact C2|].
      destruct (sget _ g2); injection E as <- <-; [apply keeps_refl|apply keeps_app].
    - destruct c as [v|e].
      + cbn in E. eapply create_dataset_keeps; eauto.
      + destruct e; try (cbn in E; injection E as <- <-; apply keeps_refl).
        rewrite store_list_eq in E. revert E. generalize 0. revert g.
        induction IH as [|i l H F IHF]; cbn; intros g n E; [injection E as <- <-; apply keeps_refl|].
        destruct (store_thing g (name_idx key n) i) as [g1 [u|]] eqn:S; apply H in S.
        * eapply keeps_trans; eauto.
        * injection E as <- <-; auto.
    - rewrite store_signal_eq in E. eapply into_group_keeps; eauto. apply save_dict_keeps; auto.
    - rewrite store_dict_eq in E. eapply into_group_keeps; eauto. apply save_dict_keeps; auto.
    - cbn in E. injection E as <- <-; apply keeps_refl.
  Qed.

  Lemma save_dict_keeps' d g g' r : save_dict g d = (g', r) -> keeps (G g) (G g').
  Proof.
    apply save_dict_keeps. apply Forall_forall. intros kv _ g0 key g0' r0; apply store_thing_keeps.
  Qed.

  Lemma store_dictionary_keeps g d gn g' r :
    store_dictionary g d gn = (g', r) -> keeps (G g) (G g').
  Proof.
    destruct gn as [n|]; [rewrite store_dictionary_eq; apply into_group_keeps|]; intros;
      eapply save_dict_keeps'; eauto.
  Qed.

  (** ** Everything asked for is written, where nothing was *)
  Lemma save_dict_In d k it : In (k, it) d -> forall g g',
    save_dict g d = (g', Ok tt) ->
    exists g1 g2, keeps (G g) (G g1) /\ store_thing g1 k it = (g2, Ok tt) /\ keeps (G g2) (G g').
  Proof.
    induction d as [|[k' i'] d IH]; cbn; [tauto|]. intros I g g' E.
    destruct (store_thing g k' i') as [g1 [[]|e]] eqn:S; [|destruct e; discriminate].
    destruct I as [I|I].
    - injection I as -> ->. exists g, g1. split; [apply keeps_refl|]. split; auto.
      eapply save_dict_keeps'; eauto.
    - destruct (IH I _ _ E) as (ga & gb & K1 & S' & K2). exists ga, gb. split; auto.
      eapply keeps_trans; [eapply store_thing_keeps; eauto|auto].
  Qed.

  Lemma create_dataset_ok g n x g' : create_dataset g n x = (g', Ok tt) ->
    at_ [n] (G g) = None /\ at_ [n] (G g') = Some (D x).
  Proof.
    unfold create_dataset. cbn. destruct (sget n g) eqn:E; [discriminate|]. intros [= <-].
    rewrite sget_app, E. cbn. rewrite String.eqb_refl. auto.
  Qed.

  Lemma at_None_keeps p (x x' : h5) : keeps x x' -> at_ p x' = None -> at_ p x = None.
  Proof.
    intros K H. destruct (at_ p x) as [y|] eqn:E; auto.
    destruct (at_keeps _ _ _ _ K E) as [y' E']; congruence.
  Qed.

  Lemma into_group_ok g key d g' : into_group g key d = (g', Ok tt) -> d <> [] ->
    exists sub0 sub, save_dict sub0 d = (sub, Ok tt) /\ sget key g' = Some (G sub) /\
      (sget key g = Some (G sub0) \/ (sget key g = None /\ sub0 = [])).
  Proof.
    unfold into_group. destruct (sget key g) as [[x|sub0]|] eqn:E.
    - destruct d as [|[? ?] ?]; [congruence|discriminate].
    - destruct (save_dict sub0 d) as [sub r'] eqn:S. intros [= <- ->] _. exists sub0, sub.
      repeat split; auto. apply dget_dset_same, String_eqb_spec.
    - destruct (save_dict [] d) as [sub r'] eqn:S. intros [= <- ->] _. exists [], sub.
      repeat split; auto. rewrite sget_app, E. cbn. rewrite String.eqb_refl; auto.
  Qed.

  Lemma wants_nonempty d p v : wants d p v -> d <> [].
  Proof. destruct 1 as [? ? ? I|? ? ? I|? ? ? I|? ? ? I|? ? ? ? I|? ? ? I|? ? ? ? I|? ? ? ? I|? ? ? I|? ? ? I|? ? ? ? ? I|? ? ? ? ? I]; intros ->; destruct I. Qed.

  Lemma save_dict_wants d p v : wants d p v -> forall g g', save_dict g d = (g', Ok tt) ->
    at_ p (G g) = None /\ at_ p (G g') = Some (D v).
  Proof.
    assert (STEP : forall d k it p v,
      In (k, it) d ->
      (forall g g', store_thing g k it = (g', Ok tt) ->
          at_ p (G g) = None /\ at_ p (G g') = Some (D v)) ->
      forall g g', save_dict g d = (g', Ok tt) -> at_ p (G g) = None /\ at_ p (G g') = Some (D v)).
    { clear. intros d k it p v I H g g' E.
      destruct (save_dict_In _ _ _ I _ _ E) as (g1 & g2 & K1 & S & K2).
      destruct (H _ _ S) as [H1 H2]. split; [eapply at_None_keeps; eauto|apply K2; auto]. }
    assert (GRP : forall d k sub p v, wants sub p v ->
       (forall g g', save_dict g sub = (g', Ok tt) -> at_ p (G g) = None /\ at_ p (G g') = Some (D v)) ->
       forall g g', into_group g k sub = (g', Ok tt) ->
         at_ (k :: p) (G g) = None /\ at_ (k :: p) (G g') = Some (D v)).
    { clear. intros _ k sub p v W IH g g' E.
      destruct (into_group_ok _ _ _ _ E (wants_nonempty _ _ _ W)) as (s0 & s1 & S & E1 & E0).
      destruct (IH _ _ S) as [H1 H2]. cbn. rewrite E1. split; auto.
      destruct E0 as [-> | [-> _]]; auto. }
    induction 1 as [d k v I|d k v I|d k s I|d k l I|d k v l I|d v u I|d k v u I N|d k v u I N|d k t I|d k t I|d k sub p v I W IH|d k sub p v I W IH];
      intros g0 g0' E0; revert g0 g0' E0; eapply STEP; eauto; intros g g' E.
    1-5: apply create_dataset_ok; exact E.
    - apply create_dataset_ok; exact E.
    - cbn in E. unfold write_quantity in E. apply String.eqb_neq in N. rewrite N in E.
      destruct (sget k g) eqn:EK; [discriminate|]. injection E as <-. cbn. rewrite sget_app, EK.
      cbn. rewrite String.eqb_refl. auto.
    - cbn in E. unfold write_quantity in E. apply String.eqb_neq in N. rewrite N in E.
      destruct (sget k g) eqn:EK; [discriminate|]. injection E as <-. cbn. rewrite sget_app, EK.
      cbn. rewrite String.eqb_refl. auto.
    - cbn in E. unfold write_table, then_ in E.
      destruct (create_dataset g k _) as [g1 [[]|]] eqn:C1; [|discriminate].
      pose proof C1 as C1'. apply create_dataset_ok in C1' as [N1 S1]. split; auto.
      destruct (create_dataset g1 _ _) as [g2 [u2|]] eqn:C2; [|discriminate].
      apply create_dataset_keeps in C2. apply C2 in S1.
      destruct (sget _ g2); [discriminate|]. injection E as <-. apply keeps_app; auto.
    - cbn in E. unfold write_table, then_ in E.
      destruct (create_dataset g k _) as [g1 [u1|]] eqn:C1; [|discriminate].
      apply create_dataset_keeps in C1.
      destruct (create_dataset g1 _ _) as [g2 [[]|]] eqn:C2; [|discriminate].
      apply create_dataset_ok in C2 as [N2 S2]. split; [eapply at_None_keeps; eauto|].
      destruct (sget _ g2); [discriminate|]. injection E as <-. apply keeps_app; auto.
  Qed.

  (** ** Round trip *)
  Lemma insert_sorted_In {A} (x y : string * A) l :
    In y (insert_sorted x l) <-> y = x \/ In y l.
  Proof.
    induction l as [|z l IH]; cbn; [intuition|].
    destruct (String.leb (fst x) (fst z)); cbn; rewrite ?IH; intuition.
  Qed.
  Lemma sort_names_In {A} (y : string * A) l : In y (sort_names l) <-> In y l.
  Proof. induction l as [|x l IH]; cbn; [tauto|]. rewrite insert_sorted_In, IH. intuition. Qed.
  Lemma insert_sorted_keys {A} (x : string * A) l k :
    In k (map fst (insert_sorted x l)) <-> k = fst x \/ In k (map fst l).
  Proof.
    rewrite !in_map_iff. split.
    - intros (y & E & I). apply insert_sorted_In in I as [->|I]; eauto.
    - intros [->|(y & E & I)]; [exists x|exists y]; rewrite insert_sorted_In; auto.
  Qed.
  Lemma sort_names_NoDup {A} (l : list (string * A)) :
    NoDup (map fst l) -> NoDup (map fst (sort_names l)).
  Proof.
    induction l as [|x l IH]; cbn; auto. inversion 1 as [|? ? N ND]; subst. specialize (IH ND).
    assert (N' : ~ In (fst x) (map fst (sort_names l))).
    { intros I. apply N. apply in_map_iff in I as (y & E & I). apply (proj1 (sort_names_In y l)) in I.
      apply in_map_iff; eauto. }
    clear N ND. fold (sort_names l). revert IH N'. generalize (sort_names l). clear.
    induction l as [|z l IH]; cbn; intros ND N.
    - constructor; auto.
    - destruct (String.leb (fst x) (fst z)); cbn; constructor; auto.
      + inversion ND; subst. rewrite insert_sorted_keys. intros [E|I]; auto.
      + inversion ND; subst. apply IH; auto.
  Qed.
  Lemma sget_sort_names {A} k (l : list (string * A)) : NoDup (map fst l) ->
    sget k (sort_names l) = sget k l.
  Proof.
    intros ND. destruct (sget k l) as [v|] eqn:E.
    - apply NoDup_In_dget; [apply String_eqb_spec|apply sort_names_NoDup; auto|].
      apply sort_names_In. eapply dget_Some_In; eauto. apply String_eqb_spec.
    - apply dget_None_notIn; [apply String_eqb_spec|].
      apply dget_None_notIn in E; [|apply String_eqb_spec]. intros I; apply E.
      apply in_map_iff in I as (y & EY & I). rewrite sort_names_In in I. apply in_map_iff; eauto.
  Qed.
  Lemma sort_names_keys {A} k (l : list (string * A)) :
    In k (map fst (sort_names l)) <-> In k (map fst l).
  Proof. rewrite !in_map_iff. split; intros (y & E & I); exists y; rewrite sort_names_In in *; auto. Qed.

  (** what is written for an item *)
  Variable unit_ok : string -> bool.

  (** ** Dictionaries without tables
      The round trip is first proved for dictionaries without tables, in which a table
      appears as its two datasets and its group; [RestoresItem0] restores it from them. *)
  Inductive Restores0 : list (string * item) -> list (string * lval) -> Prop :=
  | Restores0_intro d l :
      (forall k, In k (map fst l) <-> In k (map fst d)) ->
      (forall k it, In (k, it) d -> exists lv, sget k l = Some lv /\ RestoresItem0 d k it lv) ->
      Restores0 d l
  with RestoresItem0 : list (string * item) -> string -> item -> lval -> Prop :=
  | B0_num d k v : (k <> "value" \/ ~ In "unit" (map fst d)) -> RestoresItem0 d k (INum v) (LV v)
  | B0_arr d k v : (k <> "value" \/ ~ In "unit" (map fst d)) ->
      ~ In (k ++ meta_suffix)%string (map fst d) -> RestoresItem0 d k (IArr v) (LV v)
  | B0_num_unit d v u : In ("unit", IStr u) d -> RestoresItem0 d "value" (INum v) (LQuant v u)
  | B0_arr_unit d v u : In ("unit", IStr u) d -> RestoresItem0 d "value" (IArr v) (LQuant v u)
  | B0_arr_tab d k v h : In ((k ++ meta_suffix)%string, IArr h) d -> RestoresItem0 d k (IArr v) (LTab v h)
  | B0_str d k s : RestoresItem0 d k (IStr s) (LBytes s)
  | B0_strarr d k x : RestoresItem0 d k (IStrArr x) (LBytesArr x)
  | B0_quant d k v u l : k <> "value" ->
      sget "value" l = Some (LQuant v u) -> sget "unit" l = Some (LBytes u) ->
      map fst l = ["unit"; "value"] ->
      RestoresItem0 d k (IQuant v u) (LDict l)
  | B0_value_unit d v u u' : In ("unit", IStr u') d -> RestoresItem0 d "value" (IQuant v u) (LQuant v u')
  | B0_value_lost d v u : ~ In "unit" (map fst d) -> RestoresItem0 d "value" (IQuant v u) (LV v)
  | B0_dict d k sub l : Restores0 sub l -> RestoresItem0 d k (IDict sub) (LDict l)
  | B0_signal d k sub l : Restores0 sub l -> RestoresItem0 d k (ISignal sub) (LDict l).

  Definition pairs_ok (d : list (string * item)) : Prop :=
    forall k it, In (k, it) d -> contains meta_suffix k = true ->
      exists b a h, k = (b ++ meta_suffix)%string /\ contains "." b = false /\
        it = IArr h /\ In (b, IArr a) d /\ (b = "value" -> ~ In "unit" (map fst d)).
  Fixpoint storable0 (it : item) : Prop :=
    match it with
    | INum _ | IArr _ | IStr _ | IStrArr _ => True
    | IQuant _ u => unit_ok u = true
    | IDict d | ISignal d =>
        NoDup (map fst d) /\ pairs_ok d /\
        (forall a b, In ("value", a) d -> In ("unit", b) d ->
           is_numeric a = true /\ exists u, b = IStr u /\ unit_ok u = true) /\
        (fix all (l : list (string * item)) : Prop :=
           match l with [] => True | (k, i) :: l' => storable0 i /\ all l' end) d
    | _ => False
    end.
  Notation read_dict := (read_dict unit_ok). Notation load := (load unit_ok).

  Definition dict_ok d : Prop :=
    NoDup (map fst d) /\
    pairs_ok d /\
    (forall a b, In ("value", a) d -> In ("unit", b) d ->
       is_numeric a = true /\ exists u, b = IStr u /\ unit_ok u = true) /\
    Forall (fun kv => storable0 (snd kv)) d.

  Lemma storable_dict d : storable0 (IDict d) <-> dict_ok d.
  Proof.
    cbn. unfold dict_ok.
    assert (H : (fix all (l : list (string * item)) : Prop :=
           match l with [] => True | (k, i) :: l' => storable0 i /\ all l' end) d
         <-> Forall (fun kv => storable0 (snd kv)) d).
    { induction d as [|[k i] d IH]; cbn; [split; auto|]. rewrite IH. split.
      - intros [? ?]; constructor; auto.
      - inversion 1; auto. }
    rewrite H; tauto.
  Qed.
  Lemma storable_signal d : storable0 (ISignal d) <-> dict_ok d.
  Proof. rewrite <- storable_dict; reflexivity. Qed.

  (** the file object written for a storable0 item in a fresh place *)
  Fixpoint image (k : string) (it : item) : h5 :=
    match it with
    | INum v | IArr v => D (DV v)
    | IStr s => D (DS s)
    | IStrArr x => D (DSA x)
    | IQuant v u => if String.eqb k "value" then D (DV v)
                    else G [("value", D (DV v)); ("unit", D (DS u))]
    | IDict d | ISignal d => G (map (fun kv => (fst kv, image (fst kv) (snd kv))) d)
    | _ => D (DSA [])
    end.
  Definition images d := map (fun kv => (fst kv, image (fst kv) (snd kv))) d.

  Lemma images_keys d : map fst (images d) = map fst d.
  Proof. unfold images. rewrite map_map. reflexivity. Qed.

  Lemma save_dict_images d :
    Forall (fun kv => forall g, storable0 (snd kv) -> sget (fst kv) g = None ->
              store_thing g (fst kv) (snd kv) = (g ++ [(fst kv, image (fst kv) (snd kv))], Ok tt)) d ->
    Forall (fun kv => storable0 (snd kv)) d -> NoDup (map fst d) ->
    forall g, (forall k, In k (map fst d) -> sget k g = None) ->
    save_dict g d = (g ++ images d, Ok tt).
  Proof.
    induction 1 as [|[k i] d H F IH]; intros SF ND g NG; cbn.
    - rewrite app_nil_r; auto.
    - cbn in H, ND. inversion SF as [|? ? S1 S2]; subst. inversion ND as [|? ? N1 N2]; subst.
      cbn in S1. rewrite H by (auto; apply NG; cbn; auto).
      rewrite IH; auto.
      + rewrite <- app_assoc; auto.
      + intros k' I. rewrite sget_app. rewrite (NG k') by (cbn; auto). cbn.
        destruct (String.eqb k' k) eqn:E; auto. apply String.eqb_eq in E; subst; contradiction.
  Qed.

  Lemma store_thing_image : forall it g k, storable0 it -> sget k g = None ->
    store_thing g k it = (g ++ [(k, image k it)], Ok tt).
  Proof.
    induction it as [v|v|s|v u|l|t|c l IH|d IH|d IH|] using item_ind'; intros g k ST N;
      try (cbn in ST; tauto).
    1-3: cbn; unfold create_dataset; rewrite N; auto.
    2: cbn; unfold create_dataset; rewrite N; auto.
    - cbn. unfold write_quantity. destruct (String.eqb k "value") eqn:E.
      + apply String.eqb_eq in E; subst. unfold create_dataset. rewrite N; auto.
      + rewrite N; auto.
    - rewrite store_signal_eq. apply storable_signal in ST. destruct ST as (ND & _ & _ & F).
      unfold into_group. rewrite N. rewrite save_dict_images; auto.
      eapply Forall_impl; [|exact IH]. intros kv H g0 S0 N0; auto.
    - rewrite store_dict_eq. apply storable_dict in ST. destruct ST as (ND & _ & _ & F).
      unfold into_group. rewrite N. rewrite save_dict_images; auto.
      eapply Forall_impl; [|exact IH]. intros kv H g0 S0 N0; auto.
  Qed.

  Lemma save_dict_fresh d : dict_ok d -> save_dict [] d = (images d, Ok tt).
  Proof.
    intros (ND & _ & _ & F). rewrite save_dict_images; auto.
    apply Forall_forall. intros kv _ g S N. apply store_thing_image; auto.
  Qed.

  (** reading back *)
  Definition read_images d : list (string * lval) :=
    sort_names (map (fun kv => (fst kv, read_h5 (snd kv))) (images d)).

  Lemma read_images_keys k d : In k (map fst (read_images d)) <-> In k (map fst d).
  Proof.
    unfold read_images. rewrite sort_names_keys, map_map. cbn. rewrite images_keys; tauto.
  Qed.
  Lemma read_images_NoDup d : NoDup (map fst d) -> NoDup (map fst (read_images d)).
  Proof.
    intros ND. apply sort_names_NoDup. rewrite map_map. cbn. rewrite images_keys; auto.
  Qed.
  Lemma sget_read_images k it d : NoDup (map fst d) -> In (k, it) d ->
    sget k (read_images d) = Some (read_h5 (image k it)).
  Proof.
    intros ND I. apply NoDup_In_dget; [apply String_eqb_spec|apply read_images_NoDup; auto|].
    apply sort_names_In. apply in_map_iff. exists (k, image k it). split; auto.
    unfold images. apply in_map_iff. exists (k, it); auto.
  Qed.

  Lemma meta_self k : contains meta_suffix (k ++ meta_suffix) = true.
  Proof. apply contains_spec. exists k, ""%string. reflexivity. Qed.
  Lemma no_dot_no_meta k : contains "." k = false -> contains meta_suffix k = false.
  Proof.
    intros H. destruct (contains meta_suffix k) eqn:E; auto.
    apply contains_spec in E as (a & b & E).
    assert (X : contains "." k = true); [|congruence].
    apply contains_spec. exists a, ("__table_column_meta__" ++ b)%string. rewrite E. reflexivity.
  Qed.
  Lemma no_dot_chars k : contains "." k = false -> forall c, In c (str_chars k) -> c <> "."%char.
  Proof.
    intros H c I ->. assert (X : contains "." k = true); [|congruence].
    unfold contains. apply occurs_in_spec. apply in_split in I as (l1 & l2 & E).
    exists l1, l2. rewrite E. reflexivity.
  Qed.
  Lemma split_head l r sep : (forall c, In c l -> c <> sep) ->
    exists ws, split_l sep (l ++ sep :: r) = l :: ws.
  Proof.
    induction l as [|c l IH]; intros H; cbn.
    - rewrite Ascii.eqb_refl. eauto.
    - destruct (Ascii.eqb c sep) eqn:E.
      + apply Ascii.eqb_eq in E. exfalso. apply (H c); cbn; auto.
      + destruct IH as [ws ->]; [intros; apply H; cbn; auto|]. eauto.
  Qed.
  Lemma base_name k : contains "." k = false ->
    match py_split "."%char (k ++ meta_suffix) with w :: _ => w | [] => ""%string end = k.
  Proof.
    intros H. unfold py_split. rewrite str_chars_app.
    destruct (split_head (str_chars k) (str_chars "__table_column_meta__") "."%char (no_dot_chars k H)) as [ws E].
    change (str_chars meta_suffix) with ("."%char :: str_chars "__table_column_meta__").
    rewrite E. cbn. unfold str_of, str_chars. apply string_of_list_ascii_of_string.
  Qed.
  Lemma app_str_inj a b c : (a ++ c = b ++ c)%string -> a = b.
  Proof.
    intros E. apply str_chars_inj. apply (f_equal str_chars) in E. rewrite !str_chars_app in E.
    apply app_inv_tail in E; auto.
  Qed.

  Lemma load_tables_ok names : NoDup names -> forall l : list (string * lval),
    (forall n, In n names -> contains meta_suffix n = true ->
       exists b a h, n = (b ++ meta_suffix)%string /\ contains "." b = false /\
                     sget b l = Some (LV a) /\ sget n l = Some (LV h)) ->
    exists l', load_tables names l = Ok l' /\ map fst l' = map fst l /\
      (forall k, ~ In (k ++ meta_suffix)%string names -> sget k l' = sget k l) /\
      (forall k a h, In (k ++ meta_suffix)%string names -> sget k l = Some (LV a) ->
         sget (k ++ meta_suffix)%string l = Some (LV h) -> sget k l' = Some (LTab a h)).
  Proof.
    induction 1 as [|n ns NI ND IH]; intros l H.
    - exists l. cbn. repeat split; auto. intros k a h [].
    - cbn [load_tables]. destruct (contains meta_suffix n) eqn:C.
      + destruct (H n) as (b & a & h & -> & NB & GB & GN); [cbn; auto|auto|].
        rewrite (base_name _ NB). unfold load_table. rewrite GB, GN. cbn [bind].
        assert (BM : contains meta_suffix b = false) by (apply no_dot_no_meta; auto).
        destruct (IH (sset b (LTab a h) l)) as (l' & E & K & O & T).
        { intros n' I C'. destruct (H n') as (b' & a' & h' & -> & NB' & GB' & GN'); [cbn; auto|auto|].
          exists b', a', h'. rewrite !(dget_dset _ String_eqb_spec).
          destruct (String.eqb b' b) eqn:EB.
          - apply String.eqb_eq in EB; subst. contradiction.
          - destruct (String.eqb (b' ++ meta_suffix) b) eqn:EM; auto.
            apply String.eqb_eq in EM. rewrite <- EM, meta_self in BM. discriminate. }
        exists l'. split; [exact E|]. split; [|split].
        * rewrite K. apply dset_keys_present; [apply String_eqb_spec|].
          apply in_map_iff. exists (b, LV a). split; auto. apply dget_Some_In in GB; auto.
          apply String_eqb_spec.
        * intros k NI'. rewrite O by (intros I; apply NI'; cbn; auto).
          rewrite (dget_dset _ String_eqb_spec). destruct (String.eqb k b) eqn:EB; auto.
          apply String.eqb_eq in EB; subst. exfalso; apply NI'; cbn; auto.
        * intros k a' h' I GK GM. destruct (String.eqb k b) eqn:EB.
          -- apply String.eqb_eq in EB; subst. rewrite O by auto.
             rewrite dget_dset_same by apply String_eqb_spec. congruence.
          -- assert (I' : In (k ++ meta_suffix)%string ns).
             { destruct I as [I|I]; auto. apply app_str_inj in I. subst.
               rewrite String.eqb_refl in EB; discriminate. }
             apply T; auto; rewrite (dget_dset _ String_eqb_spec).
             ++ rewrite EB; auto.
             ++ destruct (String.eqb (k ++ meta_suffix) b) eqn:EM; auto.
                apply String.eqb_eq in EM. rewrite <- EM, meta_self in BM. discriminate.
      + destruct (IH l) as (l' & E & K & O & T).
        { intros n' I C'. apply H; cbn; auto. }
        exists l'. split; [exact E|]. split; [auto|]. split.
        * intros k NI'. apply O. intros I; apply NI'; cbn; auto.
        * intros k a h [->|I] GK GM; [rewrite meta_self in C; discriminate|]. apply T; auto.
  Qed.

  Definition step_read (n : nat) (kv : string * lval) : res (string * lval) :=
    match snd kv with
    | LDict sub => let* s := read_dict n sub in Ok (fst kv, LDict s)
    | v => Ok (fst kv, v)
    end.

  Lemma mapM_step_keys n l l' : mapM (step_read n) l = Ok l' -> map fst l' = map fst l.
  Proof.
    intros H. apply mapM_Ok_Forall2 in H. induction H as [|a b l l' H F IH]; cbn; auto.
    f_equal; auto. unfold step_read in H. destruct a as [k v]; cbn in *.
    destruct v; try (injection H as <-; reflexivity).
    destruct (read_dict n d); cbn in H; [injection H as <-; auto|discriminate].
  Qed.

  Lemma mapM_step_get n l l' k v : mapM (step_read n) l = Ok l' -> sget k l = Some v ->
    exists v', sget k l' = Some v' /\ step_read n (k, v) = Ok (k, v').
  Proof.
    intros H. apply mapM_Ok_Forall2 in H. induction H as [|a b l l' H F IH]; cbn; [discriminate|].
    destruct a as [ka va], b as [kb vb].
    assert (kb = ka) as ->.
    { unfold step_read in H; cbn in H. destruct va; try (injection H; auto).
      destruct (read_dict n d); cbn in H; [injection H; auto|discriminate]. }
    destruct (String.eqb k ka) eqn:E; auto. apply String.eqb_eq in E; subst.
    intros [= ->]. eauto.
  Qed.

  Lemma mapM_total {A B} (f : A -> res B) l : (forall a, In a l -> exists b, f a = Ok b) ->
    exists bs, mapM f l = Ok bs.
  Proof.
    induction l as [|a l IH]; intros H; cbn; [eauto|].
    destruct (H a) as [b ->]; cbn; auto. destruct IH as [bs ->]; [intros; apply H; cbn; auto|].
    cbn; eauto.
  Qed.

  Lemma depth_In k v (l : list (string * lval)) : In (k, v) l -> depth v < depth (LDict l).
  Proof.
    cbn. induction l as [|[k' v'] l IH]; cbn; [tauto|]. intros [E|I].
    - injection E as -> ->. lia.
    - specialize (IH I). lia.
  Qed.

  Lemma in_get {A} k (v : A) l : NoDup (map fst l) -> In (k, v) l -> sget k l = Some v.
  Proof. apply NoDup_In_dget, String_eqb_spec. Qed.
  Lemma get_in {A} k (v : A) l : sget k l = Some v -> In (k, v) l.
  Proof. apply dget_Some_In, String_eqb_spec. Qed.

  Lemma read_quant_group n v u : unit_ok u = true ->
    read_dict (S n) (read_images [("value", INum v); ("unit", IStr u)])
    = Ok [("unit", LBytes u); ("value", LQuant v u)].
  Proof. intros U. cbn. rewrite U. reflexivity. Qed.

  (** The heart of the round trip. *)
  Lemma read_images_back : forall n d, dict_ok d -> depth (LDict (read_images d)) <= n ->
    exists l, read_dict n (read_images d) = Ok l /\ Restores0 d l.
  Proof.
    induction n as [|n IH]; intros d OK DEP; [cbn in DEP; lia|].
    destruct OK as (ND & NM & VU & ST). pose proof (read_images_NoDup _ ND) as NDR.
    cbn [M_Hdf5.read_dict].
    (* step 1: value * unit *)
    set (vu := match sget "value" d, sget "unit" d with Some a, Some (IStr u) =>
                 match a with INum v | IArr v | IQuant v _ => Some (v, u) | _ => None end
               | _, _ => None end).
    set (l1 := match vu with Some (v, u) => sset "value" (LQuant v u) (read_images d)
                           | None => read_images d end).
    assert (W : with_unit unit_ok (read_images d) = Ok l1).
    { unfold l1, vu, with_unit.
      destruct (sget "value" d) as [a|] eqn:EV.
      - rewrite (sget_read_images _ _ _ ND (get_in _ _ _ EV)).
        destruct (sget "unit" d) as [b|] eqn:EU.
        + rewrite (sget_read_images _ _ _ ND (get_in _ _ _ EU)).
          destruct (VU a b (get_in _ _ _ EV) (get_in _ _ _ EU)) as (NA & u & -> & UO).
          assert (SA : storable0 a).
          { rewrite Forall_forall in ST. exact (ST _ (get_in _ _ _ EV)). }
          cbn. rewrite UO. destruct a; try discriminate; try (cbn in SA; tauto); reflexivity.
        + assert (sget "unit" (read_images d) = None) as ->.
          { apply dget_None_notIn; [apply String_eqb_spec|]. rewrite read_images_keys.
            apply dget_None_notIn in EU; auto. apply String_eqb_spec. }
          auto.
      - assert (sget "value" (read_images d) = None) as ->.
        { apply dget_None_notIn; [apply String_eqb_spec|]. rewrite read_images_keys.
          apply dget_None_notIn in EV; auto. apply String_eqb_spec. }
        auto. }
    rewrite W. cbn [bind].
    assert (K1 : map fst l1 = map fst (read_images d)).
    { unfold l1, vu. destruct (sget "value" d) as [a|] eqn:EV; auto.
      destruct (sget "unit" d) as [b|] eqn:EU; auto. destruct b; auto.
      assert (In "value" (map fst (read_images d))).
      { apply read_images_keys. apply in_map_iff. exists ("value", a). split; auto. apply get_in; auto. }
      destruct a; auto; apply dset_keys_present; auto; apply String_eqb_spec. }
    assert (SAME : forall k, k <> "value" \/ ~ In "unit" (map fst d) -> sget k l1 = sget k (read_images d)).
    { intros k [NV|NU]; unfold l1, vu.
      - destruct (match sget "value" d with Some _ => _ | None => _ end) as [[v u]|]; auto.
        rewrite (dget_dset _ String_eqb_spec). destruct (String.eqb k "value") eqn:EK; auto.
        apply String.eqb_eq in EK; contradiction.
      - assert (sget "unit" d = None) as ->; [apply dget_None_notIn; auto; apply String_eqb_spec|].
        destruct (sget "value" d); auto. }
    assert (MV : forall b, (b ++ meta_suffix)%string <> "value").
    { intros b E. pose proof (meta_self b) as X. rewrite E in X. vm_compute in X. discriminate. }
    destruct (load_tables_ok (map fst (read_images d)) NDR l1) as (l2 & -> & K2 & O2 & T2).
    { intros n0 I C. apply read_images_keys in I. apply in_map_iff in I as ([k it] & E & I). cbn in E; subst.
      destruct (NM _ _ I C) as (b & a & h & -> & NB & -> & IA & UN).
      exists b, a, h. split; auto. split; auto. rewrite !SAME.
      - rewrite (sget_read_images _ _ _ ND IA), (sget_read_images _ _ _ ND I). auto.
      - left; apply MV.
      - destruct (string_dec b "value"); auto. }
    cbn [bind].
    (* values of l1, outside tables *)
    assert (G1 : forall k it, In (k, it) d -> ~ In (k ++ meta_suffix)%string (map fst d) ->
              (exists lv, sget k l1 = Some lv /\
                 ((exists s, lv = LDict s /\ lv = read_h5 (image k it)) \/
                  ((forall s, lv <> LDict s) /\ RestoresItem0 d k it lv)))).
    { intros k it I NT. unfold l1.
      pose proof (sget_read_images _ _ _ ND I) as GR.
      destruct (String.eqb k "value") eqn:EK.
      - apply String.eqb_eq in EK; subst k. unfold vu.
        rewrite (in_get _ _ _ ND I).
        destruct (sget "unit" d) as [b|] eqn:EU.
        + destruct (VU it b I (get_in _ _ _ EU)) as (NA & u & -> & UO).
          pose proof (get_in _ _ _ EU) as IU.
          assert (SA : storable0 it).
          { rewrite Forall_forall in ST. exact (ST _ I). }
          destruct it; try discriminate; try (cbn in SA; tauto); rewrite dget_dset_same by apply String_eqb_spec;
            eexists; (split; [reflexivity|]); right; (split; [discriminate|]); constructor; auto.
        + assert (NU : ~ In "unit" (map fst d)).
          { apply dget_None_notIn in EU; auto. apply String_eqb_spec. }
          assert (S1 : storable0 it).
          { rewrite Forall_forall in ST. exact (ST _ I). }
          destruct it; cbn in S1; try tauto; rewrite GR; eexists; (split; [reflexivity|]).
          * right; split; [discriminate|]. constructor; auto.
          * right; split; [discriminate|]. constructor; auto.
          * right; split; [discriminate|]. constructor; auto.
          * right; split; [discriminate|]. apply B0_value_lost; auto.
          * right; split; [discriminate|]. constructor; auto.
          * left. eexists; split; reflexivity.
          * left. eexists; split; reflexivity.
      - assert (GG : sget k (match vu with Some (v, u) => sset "value" (LQuant v u) (read_images d)
                           | None => read_images d end) = sget k (read_images d)).
        { destruct vu as [[v u]|]; auto. rewrite (dget_dset _ String_eqb_spec), EK; auto. }
        rewrite GG, GR. apply String.eqb_neq in EK.
        assert (S1 : storable0 it).
        { rewrite Forall_forall in ST. exact (ST _ I). }
        eexists; split; [reflexivity|].
        destruct it; cbn in S1; try tauto.
        + right; split; [discriminate|]. constructor; auto.
        + right; split; [discriminate|]. constructor; auto.
        + right; split; [discriminate|]. constructor; auto.
        + left. cbn. apply String.eqb_neq in EK. rewrite EK. eexists; split; reflexivity.
        + right; split; [discriminate|]. constructor; auto.
        + left. eexists; split; reflexivity.
        + left. eexists; split; reflexivity. }
    assert (G2 : forall k it, In (k, it) d ->
              (exists lv, sget k l2 = Some lv /\
                 ((exists s, lv = LDict s /\ lv = read_h5 (image k it)) \/
                  ((forall s, lv <> LDict s) /\ RestoresItem0 d k it lv)))).
    { intros k it I. destruct (in_dec string_dec (k ++ meta_suffix)%string (map fst d)) as [IM|NT].
      - apply in_map_iff in IM as ([m ih] & E & IM). cbn in E; subst m.
        destruct (NM _ _ IM (meta_self k)) as (b & a & h & E & NB & -> & IA & UN).
        apply app_str_inj in E; subst b.
        assert (it = IArr a) as ->.
        { pose proof (in_get _ _ _ ND I). pose proof (in_get _ _ _ ND IA). congruence. }
        exists (LTab a h). split.
        + apply T2.
          * apply read_images_keys. apply in_map_iff. exists ((k ++ meta_suffix)%string, IArr h); auto.
          * rewrite SAME by (destruct (string_dec k "value"); auto).
            rewrite (sget_read_images _ _ _ ND IA). auto.
          * rewrite SAME by (left; apply MV). rewrite (sget_read_images _ _ _ ND IM). auto.
        + right. split; [discriminate|]. constructor; auto.
      - rewrite O2 by (rewrite read_images_keys; auto). apply G1; auto. }
    (* recursive reads *)
    assert (REC : forall k it s, In (k, it) d -> read_h5 (image k it) = LDict s ->
              In (k, LDict s) (read_images d) ->
              exists s', read_dict n s = Ok s' /\ RestoresItem0 d k it (LDict s')).
    { intros k it s I E IR.
      assert (S1 : storable0 it).
      { rewrite Forall_forall in ST. exact (ST _ I). }
      pose proof (depth_In _ _ _ IR) as DI.
      assert (DN : depth (LDict s) <= n) by lia.
      destruct it; cbn in S1; try tauto; try (cbn in E; discriminate).
      - cbn in E. destruct (String.eqb k "value") eqn:EK; [discriminate|].
        apply String.eqb_neq in EK. injection E as <-.
        destruct n as [|n']; [cbn in DN; lia|].
        exists [("unit", LBytes u); ("value", LQuant v u)].
        split; [exact (read_quant_group n' v u S1)|]. apply B0_quant; auto.
      - assert (DK : dict_ok d0) by (apply storable_signal; exact S1).
        cbn in E. injection E as <-. fold (images d0) in *. fold (read_images d0) in *.
        destruct (IH d0 DK DN) as (s' & -> & B). eexists; split; [reflexivity|]. constructor; auto.
      - assert (DK : dict_ok d0) by (apply storable_dict; exact S1).
        cbn in E. injection E as <-. fold (images d0) in *. fold (read_images d0) in *.
        destruct (IH d0 DK DN) as (s' & -> & B). eexists; split; [reflexivity|]. constructor; auto. }
    assert (INR : forall k lv, In (k, lv) l2 -> exists it, In (k, it) d /\ sget k l2 = Some lv).
    { intros k lv I. assert (IK : In k (map fst d)).
      { apply read_images_keys. rewrite <- K1, <- K2. apply in_map_iff; exists (k, lv); auto. }
      apply in_map_iff in IK as ([k' it] & E & I'). cbn in E; subst k'.
      exists it; split; auto. apply in_get; auto. rewrite K2, K1; auto. }
    fold (step_read n).
    change (fun kv : string * lval => match snd kv with
              | LDict sub => let* s := read_dict n sub in Ok (fst kv, LDict s)
              | v => Ok (fst kv, v) end) with (step_read n).
    destruct (mapM_total (step_read n) l2) as [l3 E2].
    { intros [k lv] I. destruct (INR _ _ I) as (it & ID & GL).
      destruct (G2 _ _ ID) as (lv' & GL' & [(s & -> & ES)|[ND' BI]]).
      - assert (lv = LDict s) by congruence. subst lv. unfold step_read; cbn.
        destruct (REC k it s ID) as (s' & -> & _); auto.
        + rewrite ES. apply get_in. apply sget_read_images; auto.
        + cbn; eauto.
      - assert (lv = lv') by congruence. subst lv'. unfold step_read; cbn.
        destruct lv; eauto. exfalso; eapply ND'; eauto. }
    exists l3. split; [exact E2|]. constructor.
    - intros k. rewrite (mapM_step_keys _ _ _ E2), K2, K1. apply read_images_keys.
    - intros k it ID. destruct (G2 _ _ ID) as (lv & GL & [(s & -> & ES)|[ND' BI]]).
      + destruct (mapM_step_get _ _ _ _ _ E2 GL) as (v' & G3 & SR).
        destruct (REC k it s ID) as (s' & RS & BI); auto.
        { rewrite ES. apply get_in. apply sget_read_images; auto. }
        unfold step_read in SR; cbn in SR. rewrite RS in SR; cbn in SR. injection SR as <-.
        eauto.
      + destruct (mapM_step_get _ _ _ _ _ E2 GL) as (v' & G3 & SR).
        unfold step_read in SR; cbn in SR. destruct lv; try (injection SR as <-; eauto).
        exfalso; eapply ND'; eauto.
  Qed.

  Lemma roundtrip0 d : storable0 (IDict d) ->
    exists g l, save_dict [] d = (g, Ok tt) /\ load g = Ok l /\ Restores0 d l.
  Proof.
    intros OK. apply storable_dict in OK. exists (images d).
    destruct (read_images_back (depth (LDict (read_images d))) d OK (le_n _)) as (l & R & B).
    exists l. split; [apply save_dict_fresh; auto|]. split; auto.
  Qed.

  (** ** Sessions *)
  Lemma open_file_append f info f' r : open_file (Some f) true info = (f', r) -> keeps (G f) (G f').
  Proof.
    unfold open_file. cbn [negb orb]. unfold dmem.
    destruct (sget "info" f) as [[x|sub0]|] eqn:E; cbn [negb].
    - intros [= <- <-]; apply keeps_refl.
    - intros [= <- <-]; apply keeps_refl.
    - destruct (store_dictionary _ _ _) as [sub r']. intros [= <- <-]. apply keeps_app.
  Qed.

  Lemma write_all_keeps ws : forall f f' r, write_all f ws = (f', r) -> keeps (G f) (G f').
  Proof.
    induction ws as [|[n d] ws IH]; cbn [write_all]; intros f f' r E.
    - injection E as <- <-; apply keeps_refl.
    - destruct (store_dictionary f d (Some n)) as [f1 [u|e]] eqn:S; apply store_dictionary_keeps in S.
      + eapply keeps_trans; eauto.
      + injection E as <- <-; auto.
  Qed.

  Lemma run_session_keeps f s f' r : s_append s = true ->
    run_session (Some f) s = (f', r) -> keeps (G f) (G f').
  Proof.
    unfold run_session. intros A. rewrite A.
    destruct (open_file (Some f) true (s_info s)) as [f1 [u|e]] eqn:O; apply open_file_append in O.
    - intros W. apply write_all_keeps in W. eapply keeps_trans; eauto.
    - intros [= <- <-]; auto.
  Qed.

  Lemma at_app p q (x y : h5) : at_ p x = Some y -> at_ (p ++ q) x = at_ q y.
  Proof.
    revert x. induction p as [|k p IH]; cbn; intros x; [intros [= ->]; auto|].
    destruct x as [|ents]; [discriminate|]. destruct (sget k ents); [apply IH|discriminate].
  Qed.
End L.
