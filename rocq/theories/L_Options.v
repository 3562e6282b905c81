(** Lemmas about the options parser. *)
From Verif Require Import Base PyStr M_Options S_Options.

(** ** Induction over XML trees *)
Fixpoint xml_ind' (P : xml -> Prop)
  (H : forall t a x chs, Forall P chs -> P (Elem t a x chs)) (x : xml) {struct x} : P x :=
  let 'Elem t a tx chs := x in
  H t a tx chs ((fix go l : Forall P l :=
                   match l with
                   | [] => Forall_nil P
                   | c :: l' => Forall_cons c (xml_ind' P H c) (go l')
                   end) chs).

(** ** String facts *)
Definition dot : ascii := "."%char.

Local Arguments Ascii.eqb : simpl never.

Lemma replace_dots_nil l : replace_l [dot] [] l = [] -> forall c, In c l -> c = dot.
Proof.
  unfold replace_l. induction l as [|c l IH]; cbn; [tauto|].
  destruct (Ascii.eqb dot c) eqn:E; cbn.
  - apply Ascii.eqb_eq in E; subst. intros H c [<-|I]; auto.
  - discriminate.
Qed.

Lemma str_of_nil l : str_of l = "" -> l = [].
Proof. destruct l; cbn; auto; discriminate. Qed.

Lemma lstrip_dots l : (forall c, In c l -> c = dot) -> lstrip l = l.
Proof. destruct l as [|c l]; cbn; auto. intros H. rewrite (H c) by auto. reflexivity. Qed.

Lemma strip_dots l : (forall c, In c l -> c = dot) -> strip_l l = l.
Proof.
  intros H. unfold strip_l. rewrite (lstrip_dots l H), lstrip_dots, rev_involutive; auto.
  intros c I; apply H; rewrite in_rev; auto.
Qed.

Lemma float_dots l : (forall c, In c l -> c = dot) -> float_l l = None.
Proof.
  intros H. unfold float_l. rewrite strip_dots; auto.
  destruct l as [|c l]; [reflexivity|].
  rewrite (H c) by (cbn; auto). cbn [split_sign Ascii.eqb dot].
  destruct l as [|c2 l]; [reflexivity|].
  rewrite (H c2) by (cbn; auto).
  cbn. reflexivity.
Qed.

Lemma py_float_dots s : py_replace "." "" s = "" -> py_float s = None.
Proof.
  unfold py_replace, py_float. intros H. apply str_of_nil in H.
  apply float_dots, replace_dots_nil, H.
Qed.

(** ** Typing of a text *)
Section L.
  Variable unit_ok : string -> bool.
  Variable read_table : string -> res nat.
  Variable read_pickle : string -> res (list (string * node)).
  Notation parse := (parse unit_ok read_table read_pickle).
  Notation parse_loop := (parse_loop unit_ok read_table read_pickle).
  Notation typed_value := (typed_value unit_ok).
  Notation read_elem := (read_elem unit_ok).
  Notation denotes := (denotes unit_ok).

  Lemma parse_scalar_spec s :
    (exists n, number s n /\ parse_scalar s = n) \/ (not_number s /\ parse_scalar s = PStr s).
  Proof.
    unfold parse_scalar. destruct (py_int s) as [z|] eqn:Ei.
    - left; exists (PInt z); split; auto. constructor; auto.
    - destruct (String.eqb _ _) eqn:Ed.
      + right. apply String.eqb_eq, py_float_dots in Ed. repeat split; auto.
      + destruct (py_float s) as [f|] eqn:Ef.
        * left; exists (PFloat f); split; auto. constructor 2; auto.
        * right; repeat split; auto.
  Qed.

  Lemma number_not_str s n : number s n -> forall t, n <> PStr t.
  Proof. inversion 1; congruence. Qed.

  Lemma number_functional s a b : number s a -> number s b -> a = b.
  Proof. inversion 1; inversion 1; subst; congruence. Qed.

  Lemma number_not_not s n : number s n -> not_number s -> False.
  Proof. inversion 1; intros [? ?]; congruence. Qed.

  Lemma True_not_number : not_number "True". Proof. split; reflexivity. Qed.
  Lemma False_not_number : not_number "False". Proof. split; reflexivity. Qed.

  Lemma times_unit_num n u v s : number s n -> times_unit unit_ok n u = Ok v ->
    v = PQuant n (unit_name u) /\ (unit_name u = "" \/ unit_ok (unit_name u) = true).
  Proof.
    intros N. unfold times_unit. fold (unit_name u).
    destruct (String.eqb (unit_name u) "" || unit_ok (unit_name u)) eqn:E; cbn; [|discriminate].
    apply orb_true_iff in E. rewrite String.eqb_eq in E.
    inversion N; subst; intros [= <-]; auto.
  Qed.

  Definition unit_str (o : option string) : option node := option_map (fun u => NVal (PStr u)) o.

  Lemma typed_value_denotes cfg un s v :
    typed_value cfg (unit_str un) s = Ok v -> denotes cfg un s v.
  Proof.
    unfold M_Options.typed_value. destruct (parse_scalar_spec s) as [(n & N & ->)|(NN & ->)].
    - destruct un as [u|]; cbn.
      + destruct (times_unit unit_ok n u) as [w|] eqn:E; cbn; [|discriminate].
        destruct (times_unit_num _ _ _ _ N E) as [-> HU]. intros [= <-]. apply D_quantity; auto.
      + inversion N; subst; intros [= <-]; apply D_number; exact N.
    - destruct un as [u|]; cbn.
      + unfold times_unit. fold (unit_name u).
        destruct (String.eqb (unit_name u) "" || unit_ok (unit_name u)) eqn:E; cbn; [|discriminate].
        destruct (unit_ok s) eqn:Es; cbn; [|discriminate]. intros [= <-].
        apply orb_true_iff in E. rewrite String.eqb_eq in E. apply D_unit_string; auto.
      + destruct (String.eqb s "True") eqn:E1.
        { apply String.eqb_eq in E1; subst. intros [= <-]; apply D_true. }
        destruct (String.eqb s "False") eqn:E2.
        { apply String.eqb_eq in E2; subst. intros [= <-]; apply D_false. }
        apply String.eqb_neq in E1, E2.
        destruct (contains marker s) eqn:E3.
        * destruct cfg as [[]|]; try discriminate. intros [= <-]. apply D_path; auto.
        * intros [= <-]; apply D_string; auto.
  Qed.

  Lemma denotes_typed_value cfg un s v :
    denotes cfg un s v -> typed_value cfg (unit_str un) s = Ok v.
  Proof.
    intros D. unfold M_Options.typed_value.
    destruct (parse_scalar_spec s) as [(n & N & ->)|(NN & ->)].
    - inversion D; subst; try (exfalso; eapply number_not_not; eauto; fail);
        try (exfalso; eapply number_not_not; eauto using True_not_number, False_not_number; fail).
      + rewrite (number_functional _ _ _ N H). cbn. inversion H; auto.
      + rewrite (number_functional _ _ _ N H). cbn. unfold times_unit; fold (unit_name u).
        replace (String.eqb (unit_name u) "" || unit_ok (unit_name u)) with true
          by (symmetry; apply orb_true_iff; rewrite String.eqb_eq; auto).
        inversion H; subst; reflexivity.
    - inversion D; subst; try (exfalso; eapply number_not_not; eauto; fail).
      + cbn. unfold times_unit; fold (unit_name u).
        replace (String.eqb (unit_name u) "" || unit_ok (unit_name u)) with true
          by (symmetry; apply orb_true_iff; rewrite String.eqb_eq; auto).
        cbn. rewrite H1; reflexivity.
      + reflexivity.
      + reflexivity.
      + cbn. rewrite (proj2 (String.eqb_neq _ _) H0), (proj2 (String.eqb_neq _ _) H1); change marker with path_mark; rewrite H2; auto.
      + cbn. rewrite (proj2 (String.eqb_neq _ _) H0), (proj2 (String.eqb_neq _ _) H1); change marker with path_mark; rewrite H2; auto.
  Qed.

  (** ** Attributes *)
  Lemma sget_add_attrs k d a :
    sget k (add_attrs d a) = match sget k (rev a) with
                             | Some x => Some (NVal (PStr x)) | None => sget k d end.
  Proof.
    unfold add_attrs. revert d; induction a as [|[x y] a IH]; intros d; cbn; auto.
    rewrite IH, (dget_dset _ String_eqb_spec).
    assert (H : forall l, sget k (l ++ [(x, y)]) =
       match sget k l with Some v => Some v | None => if String.eqb k x then Some y else None end).
    { induction l as [|[p q] l IHl]; cbn; auto. destruct (String.eqb k p); auto. }
    rewrite H. destruct (sget k (rev a)); auto. destruct (String.eqb k x); auto.
  Qed.

  (** ** Registration *)
  Lemma occurrences_app t l l' : occurrences t (l ++ l') = occurrences t l ++ occurrences t l'.
  Proof. unfold occurrences. rewrite filter_app, map_app; auto. Qed.

  Definition RegInv (l : list (string * (pyval * dict))) (rd : dict) : Prop :=
    (forall t, sget t rd = grouped t l) /\
    (forall t, occurrences t l <> [] -> grouped t l <> None) /\
    map fst rd = firsts (map fst l).

  Lemma firsts_In l t : In t (firsts l) <-> In t l.
  Proof.
    induction l as [|a l IH]; cbn; [tauto|]. rewrite filter_In, IH.
    split; [intuition|]. intros [->|I]; auto.
    destruct (String.eqb t a) eqn:E; cbn; auto.
    apply String.eqb_eq in E; auto.
  Qed.

  Lemma firsts_snoc_in l t : In t l -> firsts (l ++ [t]) = firsts l.
  Proof.
    induction l as [|a l IH]; cbn; [tauto|]. intros [->|I].
    - f_equal. destruct (in_dec string_dec t l) as [J|J].
      + rewrite IH; auto.
      + clear IH. assert (forall l, ~ In t l -> filter (fun x => negb (String.eqb x t)) (firsts (l ++ [t]))
                       = filter (fun x => negb (String.eqb x t)) (firsts l)) as G.
        { clear. induction l as [|b l IHl]; cbn; intros N.
          - rewrite String.eqb_refl; auto.
          - destruct (String.eqb b t) eqn:E; [apply String.eqb_eq in E; subst; tauto|]. cbn.
            f_equal.
            assert (C : forall (f g : string -> bool) l, filter f (filter g l) = filter g (filter f l)).
            { clear. intros f g l; induction l as [|x l IH]; cbn; auto.
              destruct (f x) eqn:F, (g x) eqn:G; cbn; rewrite ?F, ?G, IH; auto. }
            rewrite C, IHl, C; tauto. }
        auto.
    - rewrite IH; auto.
  Qed.

  Lemma firsts_snoc_notin l t : ~ In t l -> firsts (l ++ [t]) = firsts l ++ [t].
  Proof.
    induction l as [|a l IH]; cbn; auto. intros N. rewrite IH by tauto.
    rewrite filter_app. cbn. destruct (String.eqb t a) eqn:E; cbn; auto.
    apply String.eqb_eq in E; subst; tauto.
  Qed.

  Lemma occurrences_In t l : occurrences t l <> [] <-> In t (map fst l).
  Proof.
    induction l as [|[a b] l IH]; cbn; [tauto|]. unfold occurrences in *; cbn.
    destruct (String.eqb a t) eqn:E; cbn.
    - apply String.eqb_eq in E; subst. split; auto; discriminate.
    - rewrite IH. apply String.eqb_neq in E. intuition congruence.
  Qed.

  Lemma dof_list_snoc {K V} (eqb : K -> K -> bool) l (k : K) (v : V) :
    dof_list eqb (l ++ [(k, v)]) = dset eqb k v (dof_list eqb l).
  Proof. unfold dof_list, dupdate. rewrite fold_left_app; auto. Qed.

  Lemma RegInv_nil : RegInv [] [].
  Proof. repeat split; auto. Qed.

  Lemma RegInv_step l rd tag key e rd' :
    RegInv l rd -> register rd tag key e = Ok rd' -> RegInv (l ++ [(tag, (key, e))]) rd'.
  Proof.
    intros (G & NN & KS) R.
    assert (OC : forall t, occurrences t (l ++ [(tag, (key, e))])
                 = occurrences t l ++ (if String.eqb tag t then [(key, e)] else [])).
    { intros t; rewrite occurrences_app. unfold occurrences at 2; cbn.
      destruct (String.eqb tag t); auto. }
    assert (OTH : forall t, t <> tag -> grouped t (l ++ [(tag, (key, e))]) = grouped t l).
    { intros t N. unfold grouped. rewrite OC. destruct (String.eqb tag t) eqn:E.
      - apply String.eqb_eq in E; congruence.
      - rewrite app_nil_r; auto. }
    assert (CORE : exists n, rd' = sset tag n rd /\ grouped tag (l ++ [(tag, (key, e))]) = Some n).
    { unfold register in R. rewrite (G tag) in R. unfold grouped in R |- *. rewrite OC, String.eqb_refl.
      specialize (NN tag). unfold grouped in NN.
      destruct (occurrences tag l) as [|[k0 e0] [|[k1 e1] rest]] eqn:EO; cbn [app] in *.
      - injection R as <-. eexists; split; eauto.
      - destruct (sget "value" e0) as [[v0| | | ]|]; try discriminate.
        injection R as <-. eexists; split; reflexivity.
      - destruct (sget "value" e0) as [[v0| | | ]|];
          try (exfalso; apply NN; [discriminate|reflexivity]).
        injection R as <-. eexists; split; [reflexivity|].
        cbn [map app fst snd]. rewrite map_app. cbn [map app fst snd].
        rewrite <- dof_list_snoc. reflexivity. }
    destruct CORE as (n & -> & CG). split; [|split].
    - intros t. rewrite (dget_dset _ String_eqb_spec). destruct (String.eqb t tag) eqn:E.
      + apply String.eqb_eq in E; subst; congruence.
      + apply String.eqb_neq in E. rewrite OTH; auto.
    - intros t. rewrite OC. destruct (string_dec t tag) as [->|N].
      + rewrite CG; discriminate.
      + destruct (String.eqb tag t) eqn:E; [apply String.eqb_eq in E; congruence|].
        rewrite app_nil_r, OTH; auto.
    - rewrite map_app; cbn [map fst].
      destruct (in_dec string_dec tag (map fst l)) as [I|I].
      + rewrite firsts_snoc_in, <- KS; auto. apply dset_keys_present; [apply String_eqb_spec|].
        rewrite KS, firsts_In; auto.
      + rewrite firsts_snoc_notin, <- KS; auto. rewrite dset_absent; [|apply String_eqb_spec|].
        * rewrite map_app; auto.
        * rewrite KS, firsts_In; auto.
  Qed.

  (** ** The parser as a loop *)
  Lemma parse_unfold ov st t a x chs : parse ov st (Elem t a x chs) = parse_loop ov st chs [].
  Proof.
    cbn [M_Options.parse].
    enough (H : forall chs st rd,
      (fix loop (st : pstate) (chs : list xml) (rd : list (string * node)) {struct chs} :=
       match chs with
       | [] => (st, finish read_table read_pickle (st_cfg st) rd)
       | ch :: chs' =>
           match parse ov st ch with
           | (st1, Err e) => (st1, Err e)
           | (st1, Ok retval) =>
               match absorb unit_ok ov st1 ch retval rd with
               | (st2, Err e) => (st2, Err e)
               | (st2, Ok rd') => loop st2 chs' rd'
               end
           end
       end) st chs rd = parse_loop ov st chs rd) by apply H.
    clear. induction chs as [|ch chs IH]; intros st rd; cbn; auto.
    destruct (parse ov st ch) as [st1 [rv|]]; auto.
    destruct (absorb unit_ok ov st1 ch rv rd) as [st2 [rd'|]]; auto.
  Qed.

  Lemma finish_no_files cfg (rd : dict) :
    (forall t, In t file_tags -> sget t rd = None) -> finish read_table read_pickle cfg rd = Ok rd.
  Proof.
    intros H. unfold finish, do_datafile, do_datadict, do_config_dict.
    rewrite (H "datafile") by (cbn; auto). cbn.
    rewrite (H "datadict") by (cbn; auto). cbn.
    rewrite (H "config_dict") by (cbn; auto). reflexivity.
  Qed.

  (** Entries of a parsed element are dictionaries: there is no string under "unit". *)
  Lemma grouped_shape t l n : grouped t l = Some n -> (exists e, n = NDict e) \/ (exists e, n = NODict e).
  Proof.
    unfold grouped. destruct (occurrences t l) as [|[k e] [|p q]]; try discriminate.
    - intros [= <-]; eauto.
    - destruct (sget "value" e) as [[]|]; try discriminate. intros [= <-]; eauto.
  Qed.

  Definition nice (d : dict) : Prop := forall s, sget "unit" d <> Some (NVal (PStr s)).

  Lemma read_elem_RepElem ov st ch sub st' key entry :
    read_elem ov st ch sub = (st', Ok (key, entry)) ->
    RepElem unit_ok ov st ch sub st' key entry.
  Proof.
    unfold M_Options.read_elem, RepElem, text_of.
    destruct (x_text ch) as [t|]; [|discriminate]. cbn.
    intros H. exists (compact t). split; auto.
    destruct (String.eqb (compact t) "") eqn:E.
    - apply String.eqb_eq in E. injection H as <- <- <-. split; [|congruence].
      intros _. repeat split. intros k; apply sget_add_attrs.
    - apply String.eqb_neq in E. split; [congruence|]. intros _.
      destruct (typed_value (st_cfg st) _ _) as [v|] eqn:TV; [|discriminate].
      injection H as <- <- <-. repeat split.
      + rewrite sget_add_attrs in TV.
        destruct (sget "unit" (rev (x_attrs ch))) as [u|] eqn:EU.
        * exists (Some u). split; auto. apply typed_value_denotes; auto.
        * destruct (sget "unit" sub) as [n|] eqn:ES.
          -- assert (exists u, n = NVal (PStr u)) as [u ->].
             { unfold M_Options.typed_value in TV. destruct n as [[]| | |]; cbn in TV;
                 try discriminate; eauto. }
             exists (Some u). split; auto. apply typed_value_denotes; auto.
          -- exists None. split; auto. apply typed_value_denotes; auto.
      + unfold after_value, path_after; cbn. destruct ov as [[|]|]; auto.
      + intros k. rewrite (dget_dset _ String_eqb_spec). destruct (String.eqb k "value"); auto.
        apply sget_add_attrs.
  Qed.

  Definition no_files_seq (chs : list xml) : bool :=
    forallb (fun ch => negb (existsb (String.eqb (x_tag ch)) file_tags) && no_file_tags ch) chs.

  Lemma no_file_tags_unfold t a x chs : no_file_tags (Elem t a x chs) = no_files_seq chs.
  Proof. reflexivity. Qed.

  (** Invariant of the sibling loop. *)
  Lemma parse_loop_spec ov chs :
    Forall (fun ch => forall st st' d, no_file_tags ch = true ->
              parse ov st ch = (st', Ok d) -> Rep unit_ok ov st ch st' d) chs ->
    no_files_seq chs = true ->
    forall st l rd st' d,
      RegInv l rd -> (forall t, In t file_tags -> ~ In t (map fst l)) ->
      parse_loop ov st chs rd = (st', Ok d) ->
      exists ents, RepSeq unit_ok ov st chs ents st' /\ length ents = length chs /\
        RegInv (l ++ combine (map x_tag chs) ents) d.
  Proof.
    induction chs as [|ch chs IH]; intros F NF st l rd st' d INV NL P.
    - cbn in P. rewrite finish_no_files in P.
      + injection P as <- <-. exists []. cbn. rewrite app_nil_r. repeat split; auto; try apply INV. constructor.
      + intros t I. apply dget_None_notIn; [apply String_eqb_spec|].
        destruct INV as (_ & _ & KS). rewrite KS, firsts_In. auto.
    - inversion F as [|? ? F1 F2]; subst. unfold no_files_seq in NF; cbn [forallb] in NF. apply andb_true_iff in NF as [NF1 NF2].
      apply andb_true_iff in NF1 as [NT NC].
      cbn in P. destruct (parse ov st ch) as [st1 [sub|]] eqn:P1; [|discriminate].
      unfold absorb in P. destruct (read_elem ov st1 ch sub) as [st2 [[key e]|]] eqn:RE; [|discriminate].
      destruct (register rd (x_tag ch) key e) as [rd'|] eqn:RG; [|discriminate].
      destruct (IH F2 NF2 st2 (l ++ [(x_tag ch, (key, e))]) rd' st' d) as (ents & RS & LE & INV').
      + eapply RegInv_step; eauto.
      + intros t I. rewrite map_app, in_app_iff. cbn. intros [J|[J|[]]]; [eapply NL; eauto|].
        subst t. apply negb_true_iff in NT.
        assert (existsb (String.eqb (x_tag ch)) file_tags = true); [|congruence].
        apply existsb_exists; exists (x_tag ch); split; auto. apply String.eqb_refl.
      + exact P.
      + exists ((key, e) :: ents). split; [|split].
        * econstructor; eauto. apply read_elem_RepElem; auto.
        * cbn; auto.
        * cbn. rewrite <- app_assoc in INV'. exact INV'.
  Qed.

  Lemma parse_Rep ov : forall x st st' d,
    no_file_tags x = true -> parse ov st x = (st', Ok d) -> Rep unit_ok ov st x st' d.
  Proof.
    induction x as [t a tx chs IH] using xml_ind'. intros st st' d NF P.
    rewrite parse_unfold in P. rewrite no_file_tags_unfold in NF.
    destruct (parse_loop_spec ov chs IH NF st [] [] st' d RegInv_nil) as (ents & RS & LE & INV); auto.
    cbn [app] in INV. destruct INV as (G & NN & KS). econstructor; eauto.
    rewrite KS. f_equal. clear -LE. revert ents LE.
    induction chs as [|c chs IH]; intros [|e ents]; cbn; try discriminate; auto.
    intros [= LE]. f_equal; auto.
  Qed.

  Lemma parse_RepSeq ov t a tx chs st st' d :
    no_file_tags (Elem t a tx chs) = true -> parse ov st (Elem t a tx chs) = (st', Ok d) ->
    exists ents, RepSeq unit_ok ov st chs ents st' /\ length ents = length chs /\
      RegInv (combine (map x_tag chs) ents) d.
  Proof.
    intros NF P. rewrite parse_unfold in P. rewrite no_file_tags_unfold in NF.
    apply (parse_loop_spec ov chs) with (l := []) (rd := []) in P; auto.
    - apply Forall_forall. intros; apply parse_Rep; auto.
    - apply RegInv_nil.
  Qed.

  (** ** Repeated tags *)
  Definition key_new (k : pyval) (l : list (pyval * node)) : Prop :=
    Forall (fun kv => key_eqb k (fst kv) = false) l.

  Lemma dset_key_new k v l : key_new k l -> dset key_eqb k v l = l ++ [(k, v)].
  Proof.
    induction 1 as [|[k' v'] l H F IH]; cbn in *; auto. rewrite H, IH; auto.
  Qed.

  Lemma FOP_app_inv {A} (R : A -> A -> Prop) l k :
    ForallOrdPairs R (l ++ [k]) -> ForallOrdPairs R l /\ Forall (fun x => R x k) l.
  Proof.
    induction l as [|x l IH]; cbn; [split; constructor|].
    inversion 1 as [|? ? F P]; subst. apply IH in P as [P1 P2].
    apply Forall_app in F as [F1 F2]. inversion F2; subst. split; constructor; auto.
  Qed.

  Lemma dof_list_distinct_keys (l : list (pyval * node)) :
    ForallOrdPairs (fun a b => key_eqb b a = false) (map fst l) -> dof_list key_eqb l = l.
  Proof.
    induction l as [|[k v] l IH] using rev_ind; auto.
    rewrite map_app; cbn. intros H. apply FOP_app_inv in H as [D F].
    rewrite dof_list_snoc, IH; auto. apply dset_key_new. unfold key_new.
    rewrite Forall_map in F. exact F.
  Qed.

  Lemma RepSeq_length ov st chs ents st' : RepSeq unit_ok ov st chs ents st' ->
    length ents = length chs.
  Proof. induction 1; cbn; auto. Qed.

  Lemma RepSeq_values ov st chs ents st' : RepSeq unit_ok ov st chs ents st' ->
    Forall2 (fun ch ke => is_valued ch = true -> sget "value" (snd ke) = Some (NVal (fst ke))) chs ents.
  Proof.
    induction 1 as [|st ch chs st1 sub st2 key entry ents st3 R RE RS IH]; constructor; auto.
    cbn. unfold is_valued. destruct RE as (s & -> & _ & NB). destruct s; [discriminate|].
    intros _. destruct NB as (_ & _ & _ & G); [discriminate|]. rewrite G. reflexivity.
  Qed.

  Lemma RepSeq_blank ov st chs ents st' : RepSeq unit_ok ov st chs ents st' ->
    Forall2 (fun ch ke => text_of ch = Some "" -> ~ In "value" (map fst (x_attrs ch)) ->
               ~ In "value" (map x_tag (x_children ch)) -> sget "value" (snd ke) = None) chs ents.
  Proof.
    induction 1 as [|st ch chs st1 sub st2 key entry ents st3 R RE RS IH]; constructor; auto.
    cbn. intros TX NA NC. destruct RE as (s & T & B & _). rewrite TX in T. injection T as <-.
    destruct (B eq_refl) as (_ & _ & G). rewrite G.
    assert (E1 : sget "value" (rev (x_attrs ch)) = None).
    { apply dget_None_notIn; [apply String_eqb_spec|]. rewrite map_rev, <- in_rev; auto. }
    rewrite E1. inversion R as [? ? ? ? ? ? ? ? RS' G' KS]; subst. cbn in NC.
    apply dget_None_notIn; [apply String_eqb_spec|]. rewrite KS, firsts_In; auto.
  Qed.

  Lemma occurrences_combine tag (P : xml -> pyval * dict -> Prop) chs ents :
    Forall2 P chs ents ->
    Forall2 P (filter (fun ch => String.eqb (x_tag ch) tag) chs)
              (occurrences tag (combine (map x_tag chs) ents)).
  Proof.
    unfold occurrences. induction 1 as [|c e chs ents H F IH]; cbn; [constructor|].
    destruct (String.eqb (x_tag c) tag); cbn; auto.
  Qed.

  Lemma repeated_all_kept ov t a tx chs st st' d tag :
    no_file_tags (Elem t a tx chs) = true -> parse ov st (Elem t a tx chs) = (st', Ok d) ->
    (forall ch, In ch chs -> x_tag ch = tag -> is_valued ch = true) ->
    exists ents, RepSeq unit_ok ov st chs ents st' /\
      let occ := occurrences tag (combine (map x_tag chs) ents) in
      length occ = length (filter (fun ch => String.eqb (x_tag ch) tag) chs) /\
      (2 <= length occ -> ForallOrdPairs (fun a b => key_eqb b a = false) (map fst occ) ->
       sget tag d = Some (NODict (map (fun ke => (fst ke, NDict (snd ke))) occ))).
  Proof.
    intros NF P AV. destruct (parse_RepSeq _ _ _ _ _ _ _ _ NF P) as (ents & RS & LE & G & NN & KS).
    exists ents. split; auto. cbn zeta.
    pose proof (occurrences_combine tag _ _ _ (RepSeq_values _ _ _ _ _ RS)) as OV.
    split; [symmetry; eapply Forall2_len; eauto|].
    intros L D. rewrite G. unfold grouped.
    destruct (occurrences tag _) as [|[k e] [|p q]] eqn:EO; cbn in L; try lia.
    inversion OV as [|c ? cs ? H1 H2 EF EO']; subst.
    assert (IC : In c (filter (fun ch => String.eqb (x_tag ch) tag) chs))
      by (rewrite <- EF; cbn; auto).
    apply filter_In in IC as [IC ET]. apply String.eqb_eq in ET.
    cbn in H1. rewrite (H1 (AV _ IC ET)).
    change ((k, NDict e) :: map (fun ke => (fst ke, NDict (snd ke))) (p :: q))
      with (map (fun ke => (fst ke, NDict (snd ke))) ((k, e) :: p :: q)).
    rewrite dof_list_distinct_keys; auto. rewrite map_map. exact D.
  Qed.

  Lemma first_without_value_fails ov t a tx pre c1 mid c2 post st :
    no_file_tags (Elem t a tx (pre ++ c1 :: mid ++ c2 :: post)) = true ->
    ~ In (x_tag c1) (map x_tag pre) -> x_tag c2 = x_tag c1 ->
    text_of c1 = Some "" -> ~ In "value" (map fst (x_attrs c1)) ->
    ~ In "value" (map x_tag (x_children c1)) ->
    forall d, snd (parse ov st (Elem t a tx (pre ++ c1 :: mid ++ c2 :: post))) <> Ok d.
  Proof.
    intros NF NP ET TX NA NC d. destruct (parse ov st _) as [st' r] eqn:P. cbn. intros ->.
    destruct (parse_RepSeq _ _ _ _ _ _ _ _ NF P) as (ents & RS & LE & G & NN & KS).
    pose proof (occurrences_combine (x_tag c1) _ _ _ (RepSeq_blank _ _ _ _ _ RS)) as OV.
    rewrite filter_app in OV. cbn [filter] in OV. rewrite String.eqb_refl in OV.
    rewrite filter_app in OV. cbn [filter] in OV. rewrite ET, String.eqb_refl in OV.
    replace (filter (fun ch => String.eqb (x_tag ch) (x_tag c1)) pre) with (@nil xml) in OV.
    2: { clear -NP. induction pre as [|x pre IH]; cbn in *; auto.
         destruct (String.eqb (x_tag x) (x_tag c1)) eqn:E; [apply String.eqb_eq in E; tauto|].
         apply IH; tauto. }
    cbn [app] in OV. specialize (NN (x_tag c1)). unfold grouped in NN.
    inversion OV as [|? [k e] ? l' H1 H2 EF EO]. rewrite <- EO in NN.
    apply NN; [discriminate|]. cbn in H1. rewrite (H1 TX NA NC).
    destruct l' as [|? ?]; auto. exfalso.
    inversion H2. destruct (filter _ mid); discriminate.
  Qed.

  (** ** Processing history *)
  Lemma Trace_app ov st tr1 st1 tr2 st2 :
    Trace unit_ok ov st tr1 st1 -> Trace unit_ok ov st1 tr2 st2 ->
    Trace unit_ok ov st (tr1 ++ tr2) st2.
  Proof.
    intros T1; revert tr2 st2; induction T1; intros tr2 st2 T2; cbn; auto.
    econstructor; eauto.
  Qed.

  Lemma sget_rev_None {V} k (a : sdict V) : ~ In k (map fst a) -> sget k (rev a) = None.
  Proof.
    intros N. apply dget_None_notIn; [apply String_eqb_spec|].
    rewrite map_rev, <- in_rev; auto.
  Qed.

  Lemma parse_no_unit ov ch st st' sub :
    no_file_tags ch = true -> parse ov st ch = (st', Ok sub) ->
    ~ In "unit" (map x_tag (x_children ch)) -> sget "unit" sub = None.
  Proof.
    intros NF P N. apply parse_Rep in P; auto. inversion P as [? ? ? ? ? ? ? ? RS G KS]; subst.
    cbn in N. apply dget_None_notIn; [apply String_eqb_spec|]. rewrite KS, firsts_In; auto.
  Qed.

  Definition valued1 (ch : xml) : list xml :=
    match text_of ch with Some (String _ _) => [ch] | _ => [] end.

  Lemma read_elem_Trace ov st ch sub st' key entry :
    (~ In "unit" (map x_tag (x_children ch)) -> sget "unit" sub = None) ->
    read_elem ov st ch sub = (st', Ok (key, entry)) ->
    exists tr, map fst tr = valued1 ch /\ Trace unit_ok ov st tr st'.
  Proof.
    intros NU R. apply read_elem_RepElem in R. destruct R as (s & T & B & NB).
    unfold valued1. rewrite T. destruct s as [|c s].
    - destruct (B eq_refl) as (_ & -> & _). exists []; split; auto. constructor.
    - destruct NB as ((un & U & D) & C & W & _); [discriminate|].
      exists [(ch, key)]; split; auto. econstructor; eauto; [discriminate| |].
      + intros [U1 U2]. destruct un as [u|]; auto.
        rewrite (sget_rev_None _ _ U1), (NU U2) in U. destruct U as [?|[? ?]]; discriminate.
      + rewrite <- C, <- W. destruct st'; constructor.
  Qed.

  Lemma parse_loop_Trace ov chs :
    Forall (fun ch => forall st st' d, no_file_tags ch = true ->
              parse ov st ch = (st', Ok d) ->
              exists tr, map fst tr = valued ch /\ Trace unit_ok ov st tr st') chs ->
    no_files_seq chs = true ->
    forall st rd st' d, parse_loop ov st chs rd = (st', Ok d) ->
      exists tr, map fst tr = flat_map (fun ch => valued ch ++ valued1 ch) chs /\
                 Trace unit_ok ov st tr st'.
  Proof.
    induction chs as [|ch chs IH]; intros F NF st rd st' d P.
    - cbn in P. destruct (finish _ _ _ _); [|discriminate]. injection P as <- <-.
      exists []; split; auto; constructor.
    - inversion F as [|? ? F1 F2]; subst. unfold no_files_seq in NF; cbn [forallb] in NF.
      apply andb_true_iff in NF as [NF1 NF2]. apply andb_true_iff in NF1 as [NT NC].
      cbn in P. destruct (parse ov st ch) as [st1 [sub|]] eqn:P1; [|discriminate].
      unfold absorb in P. destruct (read_elem ov st1 ch sub) as [st2 [[key e]|]] eqn:RE; [|discriminate].
      destruct (register rd (x_tag ch) key e) as [rd'|] eqn:RG; [|discriminate].
      destruct (F1 _ _ _ NC P1) as (tr1 & M1 & T1).
      apply read_elem_Trace in RE as (tr2 & M2 & T2).
      2: { intros N; eapply parse_no_unit; eauto. }
      destruct (IH F2 NF2 _ _ _ _ P) as (tr3 & M3 & T3).
      exists ((tr1 ++ tr2) ++ tr3). split.
      + cbn. rewrite !map_app; congruence.
      + eapply Trace_app; eauto. eapply Trace_app; eauto.
  Qed.

  Lemma parse_Trace ov : forall x st st' d,
    no_file_tags x = true -> parse ov st x = (st', Ok d) ->
    exists tr, map fst tr = valued x /\ Trace unit_ok ov st tr st'.
  Proof.
    induction x as [t a tx chs IH] using xml_ind'. intros st st' d NF P.
    rewrite parse_unfold in P. rewrite no_file_tags_unfold in NF.
    eapply parse_loop_Trace in P; eauto.
  Qed.

  (** consequences of a trace *)
  Lemma Trace_override st tr st' c p :
    Trace unit_ok (Some (String c p)) st tr st' ->
    st_cfg st' = match tr with [] => st_cfg st | _ => Some (PStr (String c p)) end.
  Proof.
    induction 1 as [|st ch v s tr st' T N D TR IH]; auto. cbn in IH. destruct tr; auto.
  Qed.

  Lemma find_app {A} (f : A -> bool) l l' :
    find f (l ++ l') = match find f l with Some x => Some x | None => find f l' end.
  Proof. induction l as [|a l IH]; cbn; auto. destruct (f a); auto. Qed.

  Lemma last_tagged_cons t ch l :
    last_tagged t (ch :: l) = match last_tagged t l with
                              | Some x => Some x
                              | None => if String.eqb (x_tag ch) t then Some ch else None end.
  Proof. unfold last_tagged; cbn. rewrite find_app; cbn. destruct (find _ (rev l)); auto. Qed.

  Definition last_with (t : string) (tr : list (xml * pyval)) : option (xml * pyval) :=
    find (fun p => String.eqb (x_tag (fst p)) t) (rev tr).
  Lemma last_with_cons t p l :
    last_with t (p :: l) = match last_with t l with
                           | Some x => Some x
                           | None => if String.eqb (x_tag (fst p)) t then Some p else None end.
  Proof. unfold last_with; cbn. rewrite find_app; cbn. destruct (find _ (rev l)); auto. Qed.

  Lemma last_with_tagged t tr : last_tagged t (map fst tr) = option_map fst (last_with t tr).
  Proof.
    induction tr as [|p tr IH]; cbn [map]; auto. rewrite last_tagged_cons, last_with_cons, IH.
    destruct (last_with t tr); cbn; auto. destruct (String.eqb _ _); auto.
  Qed.

  Lemma Trace_path st ov tr st' : no_override ov -> Trace unit_ok ov st tr st' ->
    st_cfg st' = match last_with "ConfigPath" tr with
                 | Some (_, v) => Some v | None => st_cfg st end.
  Proof.
    intros NO. induction 1 as [|st ch v s tr st' T N D TR IH]; auto.
    rewrite IH, last_with_cons. destruct (last_with "ConfigPath" tr) as [[? ?]|]; auto.
    cbn. unfold path_after. destruct NO as [-> | ->]; destruct (String.eqb _ _); auto.
  Qed.

  Lemma Trace_wR st ov tr st' : Trace unit_ok ov st tr st' ->
    st_wR st' = match last_with "working_R" tr with
                 | Some (_, v) => v | None => st_wR st end.
  Proof.
    induction 1 as [|st ch v s tr st' T N D TR IH]; auto.
    rewrite IH, last_with_cons. destruct (last_with "working_R" tr) as [[? ?]|]; auto.
    cbn. unfold wR_after. destruct (String.eqb _ _); auto.
  Qed.

  Lemma Trace_denotes st ov tr st' ch v : Trace unit_ok ov st tr st' -> In (ch, v) tr ->
    unit_free ch -> exists cfg s, text_of ch = Some s /\ denotes cfg None s v.
  Proof.
    induction 1 as [|st c w s tr st' T N D TR IH]; cbn; [tauto|]. intros [E|I] U; auto.
    injection E as -> ->. exists (st_cfg st), s; auto.
  Qed.

  (** A plain text denotes itself, a number denotes its number. *)
  Lemma denotes_plain cfg s v : plain s -> denotes cfg None s v -> v = PStr s.
  Proof.
    intros (N & T & F & M) D. apply denotes_typed_value in D.
    assert (D2 : denotes cfg None s (PStr s)) by (apply D_string; auto).
    apply denotes_typed_value in D2. cbn in *; congruence.
  Qed.
  Lemma denotes_number cfg s v n : number s n -> denotes cfg None s v -> v = n.
  Proof.
    intros N D. apply denotes_typed_value in D.
    assert (D2 : denotes cfg None s n) by (apply D_number; auto).
    apply denotes_typed_value in D2. cbn in *; congruence.
  Qed.
  Lemma denotes_functional cfg un s v w : denotes cfg un s v -> denotes cfg un s w -> v = w.
  Proof. intros D E. apply denotes_typed_value in D, E. congruence. Qed.

  (** ** Elements without text *)
  Lemma parse_textless ov : forall x st, has_textless x = true ->
    forall d, snd (parse ov st x) <> Ok d.
  Proof.
    induction x as [t a tx chs IH] using xml_ind'. intros st H d. rewrite parse_unfold.
    change (has_textless (Elem t a tx chs)) with
      (existsb (fun ch => match x_text ch with None => true | Some _ => false end
                          || has_textless ch) chs) in H.
    generalize (@nil (string * node)); intros rd; revert st rd H.
    induction chs as [|ch chs IHc]; intros st rd H; [discriminate|].
    inversion IH as [|? ? I1 I2]; subst. cbn.
    destruct (parse ov st ch) as [st1 [sub|]] eqn:P1; [|discriminate].
    unfold absorb, M_Options.read_elem. cbn [existsb] in H.
    apply orb_true_iff in H as [H|H].
    - apply orb_true_iff in H as [H|H].
      + destruct (x_text ch); discriminate.
      + exfalso. apply (I1 st H sub). rewrite P1; reflexivity.
    - destruct (x_text ch); [|discriminate].
      destruct (String.eqb _ _).
      + destruct (register _ _ _ _); [|discriminate]. apply IHc; auto.
      + destruct (typed_value _ _ _); [|discriminate].
        destruct (register _ _ _ _); [|discriminate]. apply IHc; auto.
  Qed.

  (** ** Well-formed documents load *)
  Lemma is_number_spec s : is_number s = true -> exists n, number s n.
  Proof.
    unfold is_number. destruct (py_int s) as [z|] eqn:I; [exists (PInt z); constructor; auto|].
    destruct (py_float s) as [f|] eqn:F; [exists (PFloat f); constructor; auto|discriminate].
  Qed.
  Lemma is_number_false s : is_number s = false -> not_number s.
  Proof. unfold is_number, not_number. destruct (py_int s), (py_float s); auto; discriminate. Qed.

  Lemma typed_value_ok cfg un s :
    match un with
    | Some u => is_number s && (String.eqb (unit_name u) "" || unit_ok (unit_name u))
    | None => is_number s || negb (contains path_mark s)
    end = true -> exists v, typed_value cfg (unit_str un) s = Ok v.
  Proof.
    intros H. enough (exists v, denotes cfg un s v) as [v D]
      by (exists v; apply denotes_typed_value; auto).
    destruct un as [u|].
    - apply andb_true_iff in H as [N U]. apply is_number_spec in N as [n N].
      apply orb_true_iff in U. rewrite String.eqb_eq in U. eexists; apply D_quantity; eauto.
    - destruct (is_number s) eqn:E.
      + apply is_number_spec in E as [n N]. eexists; apply D_number; eauto.
      + apply is_number_false in E. cbn in H. apply negb_true_iff in H.
        destruct (string_dec s "True") as [->|T]; [eexists; apply D_true|].
        destruct (string_dec s "False") as [->|F]; [eexists; apply D_false|].
        eexists; apply D_string; auto.
  Qed.

  Lemma existsb_eqb_In t l : existsb (String.eqb t) l = true <-> In t l.
  Proof.
    rewrite existsb_exists. split; [intros (x & I & E); apply String.eqb_eq in E; subst; auto|].
    intros I; exists t; split; auto; apply String.eqb_refl.
  Qed.

  Lemma read_elem_ok ov st ch sub : elem_ok unit_ok ch = true ->
    (~ In "unit" (map x_tag (x_children ch)) -> sget "unit" sub = None) ->
    exists st' key e, read_elem ov st ch sub = (st', Ok (key, e)) /\
      (is_valued ch = true -> sget "value" e = Some (NVal key)).
  Proof.
    intros E NU. unfold elem_ok in E. unfold M_Options.read_elem, is_valued.
    unfold text_of in *. destruct (x_text ch) as [t|]; [|discriminate]. cbn [option_map] in *.
    change (py_strip (py_replace line_end "" t)) with (compact t) in *.
    destruct (compact t) as [|c s] eqn:ES.
    - cbn. do 3 eexists; split; [reflexivity|discriminate].
    - apply andb_true_iff in E as [EU EV]. apply negb_true_iff in EU.
      assert (N : ~ In "unit" (map x_tag (x_children ch))).
      { intros I. apply existsb_eqb_In in I. congruence. }
      cbn [String.eqb]. rewrite sget_add_attrs, (NU N).
      assert (EQ : match sget "unit" (rev (x_attrs ch)) with
                   | Some x => Some (NVal (PStr x)) | None => None end
                   = unit_str (sget "unit" (rev (x_attrs ch)))).
      { destruct (sget "unit" _); auto. }
      rewrite EQ. apply (typed_value_ok (st_cfg st)) in EV as [v ->].
      do 3 eexists; split; [reflexivity|]. intros _. apply dget_dset_same, String_eqb_spec.
  Qed.

  Lemma grouped_first t l :
    match occurrences t l with
    | [] => grouped t l = None
    | (_, e) :: rest => grouped t l <> None ->
        (exists d, grouped t l = Some (NODict d)) \/ (rest = [] /\ grouped t l = Some (NDict e))
    end.
  Proof.
    unfold grouped. destruct (occurrences t l) as [|[k e] [|p q]]; auto.
    destruct (sget "value" e) as [[]|]; intros H; try congruence; eauto.
  Qed.

  (** loop totality; [l] is what was already registered, its tags [seen] *)
  Lemma parse_loop_ok ov chs :
    Forall (fun ch => forall st, no_file_tags ch = true -> wellformed unit_ok ch = true ->
              exists st' d, parse ov st ch = (st', Ok d)) chs ->
    no_files_seq chs = true ->
    forallb (fun ch => elem_ok unit_ok ch && wellformed unit_ok ch) chs = true ->
    forall st l rd,
      RegInv l rd -> (forall t, In t file_tags -> ~ In t (map fst l)) ->
      (forall t k e rest, occurrences t l = (k, e) :: rest -> In t (map x_tag chs) ->
           exists v, sget "value" e = Some (NVal v)) ->
      firsts_valued (map fst l) chs = true ->
      exists st' d, parse_loop ov st chs rd = (st', Ok d).
  Proof.
    induction chs as [|ch chs IH]; intros F NF OKS st l rd INV NL FV1 FV2.
    - cbn. rewrite finish_no_files; eauto. intros t I. apply dget_None_notIn; [apply String_eqb_spec|].
      destruct INV as (_ & _ & KS). rewrite KS, firsts_In. auto.
    - inversion F as [|? ? F1 F2]; subst. unfold no_files_seq in NF; cbn [forallb] in NF, OKS.
      apply andb_true_iff in NF as [NF1 NF2]. apply andb_true_iff in NF1 as [NT NC].
      apply andb_true_iff in OKS as [OK1 OKS]. apply andb_true_iff in OK1 as [EO WF].
      destruct (F1 st NC WF) as (st1 & sub & P1). cbn. rewrite P1. unfold absorb.
      destruct (read_elem_ok ov st1 ch sub EO) as (st2 & key & e & -> & VE).
      { intros N; eapply parse_no_unit; eauto. }
      assert (exists rd', register rd (x_tag ch) key e = Ok rd') as [rd' RG].
      { unfold register. destruct INV as (G & NN & KS). rewrite (G (x_tag ch)).
        pose proof (grouped_first (x_tag ch) l) as GF. specialize (NN (x_tag ch)).
        destruct (occurrences (x_tag ch) l) as [|[k0 e0] rest] eqn:EOC.
        - rewrite GF; eauto.
        - destruct GF as [[d ->]|[-> ->]]; [apply NN; discriminate| |]; eauto.
          destruct (FV1 _ _ _ _ EOC) as [v ->]; [cbn; auto|]. eauto. }
      rewrite RG. apply (IH F2 NF2 OKS st2 (l ++ [(x_tag ch, (key, e))])).
      + eapply RegInv_step; eauto.
      + intros t I. rewrite map_app, in_app_iff. cbn. intros [J|[J|[]]]; [eapply NL; eauto|].
        subst t. apply negb_true_iff in NT. apply existsb_eqb_In in I. congruence.
      + cbn [firsts_valued] in FV2. apply andb_true_iff in FV2 as [FVa FVb].
        intros t k1 e1 rest EOC I. rewrite occurrences_app in EOC.
        unfold occurrences at 2 in EOC; cbn in EOC.
        destruct (occurrences t l) as [|[k2 e2] r2] eqn:EO2; cbn in EOC.
        * destruct (String.eqb (x_tag ch) t) eqn:ET; [|discriminate].
          apply String.eqb_eq in ET. cbn in EOC. injection EOC as <- <- <-.
          apply orb_true_iff in FVa as [FVa|FVa].
          -- apply orb_true_iff in FVa as [FVa|FVa]; [|eauto].
             apply existsb_eqb_In, occurrences_In in FVa. rewrite ET in FVa. contradiction.
          -- apply negb_true_iff in FVa. rewrite ET in FVa. apply existsb_eqb_In in I. congruence.
        * injection EOC as <- <- <-. eapply FV1; eauto. cbn; auto.
      + cbn [firsts_valued] in FV2. apply andb_true_iff in FV2 as [FVa FVb].
        rewrite map_app; cbn.
        assert (PERM : forall s1 s2 cs, (forall x, In x s1 <-> In x s2) ->
                 firsts_valued s1 cs = firsts_valued s2 cs).
        { clear. intros s1 s2 cs; revert s1 s2; induction cs as [|c cs IH]; intros s1 s2 H; cbn; auto.
          rewrite (IH (x_tag c :: s1) (x_tag c :: s2)) by (intros x; cbn; rewrite H; tauto).
          f_equal. f_equal. f_equal. apply eq_true_iff_eq. rewrite !existsb_eqb_In; auto. }
        rewrite (PERM _ (x_tag ch :: map fst l)); auto.
        intros x; rewrite in_app_iff; cbn; tauto.
  Qed.

  Lemma parse_ok ov : forall x st, no_file_tags x = true -> wellformed unit_ok x = true ->
    exists st' d, parse ov st x = (st', Ok d).
  Proof.
    induction x as [t a tx chs IH] using xml_ind'. intros st NF WF. rewrite parse_unfold.
    rewrite no_file_tags_unfold in NF.
    change (wellformed unit_ok (Elem t a tx chs)) with
      (firsts_valued [] chs && forallb (fun ch => elem_ok unit_ok ch && wellformed unit_ok ch) chs) in WF.
    apply andb_true_iff in WF as [W1 W2].
    apply (parse_loop_ok ov chs IH NF W2 st [] []); auto; [apply RegInv_nil|].
    cbn; intros; discriminate.
  Qed.

  (** ** A placeholder met before any path is in force *)
  Lemma parse_early_placeholder ov x ch rest s st :
    no_file_tags x = true -> valued x = ch :: rest -> unit_free ch -> text_of ch = Some s ->
    not_number s -> contains path_mark s = true -> st_cfg st = None ->
    forall d, snd (parse ov st x) <> Ok d.
  Proof.
    intros NF VX UF TX NN CM SC d. destruct (parse ov st x) as [st' r] eqn:P; cbn. intros ->.
    apply parse_Trace in P as (tr & M & T); auto. rewrite VX in M.
    destruct tr as [|[c v] tr]; [discriminate|]. cbn in M. injection M as -> M.
    inversion T as [|? ? ? ? ? ? TX' _ D _]; subst. rewrite TX in TX'; injection TX' as <-.
    specialize (D UF). rewrite SC in D. inversion D; subst; try discriminate.
    - eapply number_not_not; eauto.
    - congruence.
  Qed.
End L.
