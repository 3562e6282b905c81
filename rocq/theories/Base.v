(** Generic material used by every model file: results with Python exceptions as
    values, insertion-ordered dictionaries, substring tests.  Nothing here models a
    particular function of /repo; the definitions fix the meaning of the Python
    built-ins the code relies on (dict, OrderedDict, [in] on strings, str.split...). *)
From Coq Require Export String Ascii List Arith ZArith Lia Bool.
Export ListNotations.
Open Scope string_scope.
Open Scope list_scope.

(** Python exception classes that the modelled code raises or lets through. *)
Inductive exn :=
| ValueError | KeyError | TypeError | AttributeError | OSError | IndexError
| NotImplementedError | UnitConversionError | UnboundLocalError | UnitsError
| ZeroDivisionError | AssertionError | VersionError | OtherError.

Inductive res (A : Type) : Type :=
| Ok (a : A)
| Err (e : exn).
Arguments Ok {A} a.
Arguments Err {A} e.

Definition bind {A B} (r : res A) (f : A -> res B) : res B :=
  match r with Ok a => f a | Err e => Err e end.
Notation "'let*' x ':=' r 'in' k" := (bind r (fun x => k))
  (at level 200, x pattern, r at level 100, k at level 200, right associativity).

Definition is_ok {A} (r : res A) : bool := match r with Ok _ => true | Err _ => false end.

(** ** Insertion-ordered dictionaries (Python [dict] and [collections.OrderedDict]).
    [dset] keeps the position of an existing key and appends a new one, as Python does. *)
Section Dict.
  Context {K V : Type} (eqb : K -> K -> bool).

  Fixpoint dget (k : K) (d : list (K * V)) : option V :=
    match d with
    | [] => None
    | (k', v) :: d' => if eqb k k' then Some v else dget k d'
    end.

  Fixpoint dset (k : K) (v : V) (d : list (K * V)) : list (K * V) :=
    match d with
    | [] => [(k, v)]
    | (k', v') :: d' => if eqb k k' then (k', v) :: d' else (k', v') :: dset k v d'
    end.

  Fixpoint ddel (k : K) (d : list (K * V)) : list (K * V) :=
    match d with
    | [] => []
    | (k', v') :: d' => if eqb k k' then d' else (k', v') :: ddel k d'
    end.

  Definition dmem (k : K) (d : list (K * V)) : bool :=
    match dget k d with Some _ => true | None => false end.

  Definition dkeys (d : list (K * V)) : list K := map fst d.
  Definition dvals (d : list (K * V)) : list V := map snd d.

  (** [d.update(e)] *)
  Definition dupdate (d e : list (K * V)) : list (K * V) :=
    fold_left (fun d kv => dset (fst kv) (snd kv) d) e d.

  (** [OrderedDict(list_of_pairs)] / [dict(zip(keys, values))]: pairs inserted in order. *)
  Definition dof_list (l : list (K * V)) : list (K * V) :=
    dupdate [] l.
End Dict.

Section DictFacts.
  Context {K V : Type} (eqb : K -> K -> bool).
  Hypothesis eqb_spec : forall a b, eqb a b = true <-> a = b.

  Lemma eqb_refl' k : eqb k k = true.
  Proof. apply eqb_spec; reflexivity. Qed.

  Lemma eqb_false a b : a <> b -> eqb a b = false.
  Proof. intros H; destruct (eqb a b) eqn:E; auto; apply eqb_spec in E; contradiction. Qed.

  Lemma eqb_neq a b : eqb a b = false -> a <> b.
  Proof. intros H E; subst; rewrite eqb_refl' in H; discriminate. Qed.

  Lemma dget_dset_same k (v : V) d : dget eqb k (dset eqb k v d) = Some v.
  Proof.
    induction d as [|[k' v'] d IH]; cbn; [rewrite eqb_refl'; auto|].
    destruct (eqb k k') eqn:E; cbn; rewrite E; auto.
  Qed.

  Lemma dget_dset_other k k' (v : V) d : k <> k' -> dget eqb k (dset eqb k' v d) = dget eqb k d.
  Proof.
    intros N; induction d as [|[a b] d IH]; cbn; [rewrite (eqb_false _ _ N); auto|].
    destruct (eqb k' a) eqn:E; cbn.
    - apply eqb_spec in E; subst a. rewrite (eqb_false _ _ N); auto.
    - destruct (eqb k a); auto.
  Qed.

  Lemma dget_dset k k' (v : V) d :
    dget eqb k (dset eqb k' v d) = if eqb k k' then Some v else dget eqb k d.
  Proof.
    destruct (eqb k k') eqn:E.
    - apply eqb_spec in E; subst; apply dget_dset_same.
    - apply dget_dset_other, eqb_neq, E.
  Qed.

  Lemma dget_Some_In k (v : V) d : dget eqb k d = Some v -> In (k, v) d.
  Proof.
    induction d as [|[a b] d IH]; cbn; [discriminate|].
    destruct (eqb k a) eqn:E; [apply eqb_spec in E; intros [= ->]; subst; auto|auto].
  Qed.

  Lemma dget_None_notIn k (d : list (K * V)) : dget eqb k d = None <-> ~ In k (map fst d).
  Proof.
    induction d as [|[a b] d IH]; cbn; [split; auto|].
    destruct (eqb k a) eqn:E.
    - apply eqb_spec in E; subst. split; [discriminate|intros H; exfalso; auto].
    - rewrite IH. apply eqb_neq in E. intuition congruence.
  Qed.

  Lemma dget_In_keys k (d : list (K * V)) : In k (map fst d) <-> exists v, dget eqb k d = Some v.
  Proof.
    split.
    - intros H; destruct (dget eqb k d) eqn:E; eauto. apply dget_None_notIn in E; contradiction.
    - intros [v E]; apply dget_Some_In in E; apply in_map_iff; exists (k, v); auto.
  Qed.

  Lemma NoDup_In_dget k (v : V) d : NoDup (map fst d) -> In (k, v) d -> dget eqb k d = Some v.
  Proof.
    induction d as [|[a b] d IH]; cbn; [tauto|].
    intros ND [H|H].
    - injection H as -> ->. rewrite eqb_refl'; auto.
    - inversion ND as [|? ? N ND']; subst. destruct (eqb k a) eqn:E; auto.
      apply eqb_spec in E; subst. exfalso; apply N, in_map_iff; exists (a, v); auto.
  Qed.

  Lemma dset_keys_present k (v : V) d : In k (map fst d) -> map fst (dset eqb k v d) = map fst d.
  Proof.
    induction d as [|[a b] d IH]; cbn; [tauto|]. intros [H|H].
    - subst; rewrite eqb_refl'; auto.
    - destruct (eqb k a) eqn:E; cbn; auto. f_equal; auto.
  Qed.

  Lemma dset_absent k (v : V) d : ~ In k (map fst d) -> dset eqb k v d = d ++ [(k, v)].
  Proof.
    induction d as [|[a b] d IH]; cbn; auto. intros H.
    rewrite (eqb_false k a) by (intros ->; apply H; auto). f_equal; apply IH; tauto.
  Qed.

  Lemma dset_NoDup k (v : V) d : NoDup (map fst d) -> NoDup (map fst (dset eqb k v d)).
  Proof.
    intros ND. destruct (in_dec (fun a b => match eqb a b as e return eqb a b = e -> _ with
        | true => fun E => left (proj1 (eqb_spec a b) E)
        | false => fun E => right (eqb_neq a b E) end eq_refl) k (map fst d)) as [I|I].
    - rewrite dset_keys_present; auto.
    - rewrite dset_absent, map_app; auto. cbn.
      apply NoDup_rev in ND. rewrite <- (rev_involutive (map fst d ++ [k])).
      apply NoDup_rev. rewrite rev_app_distr; cbn. constructor; auto. rewrite <- in_rev; auto.
  Qed.

  Lemma dset_In_keys k k' (v : V) d : In k' (map fst (dset eqb k v d)) <-> k' = k \/ In k' (map fst d).
  Proof.
    induction d as [|[a b] d IH]; cbn; [intuition|].
    destruct (eqb k a) eqn:E; cbn.
    - apply eqb_spec in E; subst. intuition congruence.
    - rewrite IH. intuition congruence.
  Qed.

  Lemma dmem_In k (d : list (K * V)) : dmem eqb k d = true <-> In k (map fst d).
  Proof.
    unfold dmem. destruct (dget eqb k d) eqn:E.
    - split; auto; intros _. apply dget_In_keys; eauto.
    - apply dget_None_notIn in E. split; [discriminate|contradiction].
  Qed.

  Lemma dmem_notIn k (d : list (K * V)) : dmem eqb k d = false <-> ~ In k (map fst d).
  Proof.
    rewrite <- dmem_In. destruct (dmem eqb k d); intuition congruence.
  Qed.

  (** Inserting pairs with pairwise distinct keys into an empty dict gives the list itself. *)
  Lemma dupdate_distinct (d e : list (K * V)) :
    NoDup (map fst e) -> (forall k, In k (map fst e) -> ~ In k (map fst d)) ->
    dupdate eqb d e = d ++ e.
  Proof.
    unfold dupdate. revert d; induction e as [|[k v] e IH]; intros d ND DJ; cbn.
    - rewrite app_nil_r; auto.
    - cbn in ND. inversion ND as [|? ? NI ND']; subst.
      rewrite dset_absent by (apply DJ; cbn; auto).
      rewrite IH; auto.
      + rewrite <- app_assoc; auto.
      + intros k' I. rewrite map_app, in_app_iff; cbn. intros [H|[H|[]]].
        * revert H; apply DJ; cbn; auto.
        * subst; contradiction.
  Qed.

  Lemma dof_list_distinct (e : list (K * V)) : NoDup (map fst e) -> dof_list eqb e = e.
  Proof. intros ND; unfold dof_list. apply (dupdate_distinct [] e); auto. Qed.

  (** Reading after a batch of insertions: the last insertion of the key wins. *)
  Lemma dget_dupdate k (d e : list (K * V)) :
    dget eqb k (dupdate eqb d e)
    = match dget eqb k (rev e) with Some v => Some v | None => dget eqb k d end.
  Proof.
    unfold dupdate. revert d; induction e as [|[a b] e IH]; intros d; cbn; auto.
    rewrite IH. clear IH. rewrite dget_dset.
    assert (H : forall l, dget eqb k (l ++ [(a, b)])
              = match dget eqb k l with Some v => Some v | None => if eqb k a then Some b else None end).
    { induction l as [|[x y] l IHl]; cbn; auto. destruct (eqb k x); auto. }
    rewrite H. destruct (dget eqb k (rev e)); auto. destruct (eqb k a); auto.
  Qed.

  Lemma dupdate_NoDup (d e : list (K * V)) : NoDup (map fst d) -> NoDup (map fst (dupdate eqb d e)).
  Proof.
    unfold dupdate. revert d; induction e as [|[a b] e IH]; intros d ND; cbn; auto.
    apply IH, dset_NoDup, ND.
  Qed.

  Lemma dupdate_In_keys k (d e : list (K * V)) :
    In k (map fst (dupdate eqb d e)) <-> In k (map fst d) \/ In k (map fst e).
  Proof.
    unfold dupdate. revert d; induction e as [|[a b] e IH]; intros d; cbn; [tauto|].
    rewrite IH, dset_In_keys. intuition congruence.
  Qed.
End DictFacts.

(** String-keyed dictionaries. *)
Notation sget := (dget String.eqb).
Notation sset := (dset String.eqb).
Notation sdel := (ddel String.eqb).
Notation smem := (dmem String.eqb).
Notation sdict V := (list (string * V)).

Lemma String_eqb_spec a b : String.eqb a b = true <-> a = b.
Proof. apply String.eqb_eq. Qed.

(** ** Strings as lists of characters *)
Definition str_chars (s : string) : list ascii := list_ascii_of_string s.
Definition str_of (l : list ascii) : string := string_of_list_ascii l.

Fixpoint is_prefix (p l : list ascii) : bool :=
  match p, l with
  | [], _ => true
  | a :: p', b :: l' => Ascii.eqb a b && is_prefix p' l'
  | _ :: _, [] => false
  end.

(** Python [sub in s] *)
Fixpoint occurs_in (p l : list ascii) : bool :=
  is_prefix p l || match l with [] => false | _ :: l' => occurs_in p l' end.

Definition contains (sub s : string) : bool := occurs_in (str_chars sub) (str_chars s).

Lemma is_prefix_spec p l : is_prefix p l = true <-> exists r, l = p ++ r.
Proof.
  revert l; induction p as [|a p IH]; intros l; cbn.
  - split; eauto.
  - destruct l as [|b l].
    + split; [discriminate|intros [r E]; discriminate].
    + rewrite andb_true_iff, IH, Ascii.eqb_eq. split.
      * intros [-> [r ->]]; eauto.
      * intros [r E]; injection E as -> ->; eauto.
Qed.

Lemma occurs_in_spec p l : occurs_in p l = true <-> exists u v, l = u ++ p ++ v.
Proof.
  induction l as [|b l IH]; cbn [occurs_in]; rewrite orb_true_iff, is_prefix_spec.
  - split.
    + intros [[r E]|]; [exists [], r; auto|discriminate].
    + intros (u & v & E). left. destruct u; cbn in E; [eauto|discriminate].
  - rewrite IH. split.
    + intros [[r E]|(u & v & E)]; [exists [], r; auto|exists (b :: u), v; cbn; congruence].
    + intros (u & v & E). destruct u; cbn in E; [left; eauto|right].
      injection E as -> ->; eauto.
Qed.

Lemma str_chars_app a b : str_chars (a ++ b)%string = str_chars a ++ str_chars b.
Proof. induction a as [|c a IH]; cbn; auto. unfold str_chars in *; rewrite IH; auto. Qed.

Lemma str_chars_inj a b : str_chars a = str_chars b -> a = b.
Proof.
  unfold str_chars. intros H. rewrite <- (string_of_list_ascii_of_string a), H.
  apply string_of_list_ascii_of_string.
Qed.

(** The meaning of [sub in s]: [s] can be split around an occurrence of [sub]. *)
Lemma contains_spec sub s :
  contains sub s = true <-> exists u v, s = (u ++ sub ++ v)%string.
Proof.
  unfold contains. rewrite occurs_in_spec. split; intros (u & v & E).
  - exists (str_of u), (str_of v). apply str_chars_inj. rewrite E, !str_chars_app.
    unfold str_chars, str_of. rewrite !list_ascii_of_string_of_list_ascii. auto.
  - exists (str_chars u), (str_chars v). rewrite E, !str_chars_app; auto.
Qed.

(** Python [str.endswith]/[str.startswith] *)
Definition starts_with (p s : string) : bool := is_prefix (str_chars p) (str_chars s).
Definition ends_with (p s : string) : bool := is_prefix (rev (str_chars p)) (rev (str_chars s)).

(** map over a list with errors, left to right *)
Fixpoint mapM {A B} (f : A -> res B) (l : list A) : res (list B) :=
  match l with
  | [] => Ok []
  | a :: l' => let* b := f a in let* bs := mapM f l' in Ok (b :: bs)
  end.

Lemma mapM_Ok_length {A B} (f : A -> res B) l bs : mapM f l = Ok bs -> length bs = length l.
Proof.
  revert bs; induction l as [|a l IH]; intros bs; cbn; [intros [= <-]; auto|].
  destruct (f a); cbn; [|discriminate]. destruct (mapM f l); cbn; [|discriminate].
  intros [= <-]; cbn; f_equal; auto.
Qed.

Lemma mapM_Ok_Forall2 {A B} (f : A -> res B) l bs :
  mapM f l = Ok bs <-> Forall2 (fun a b => f a = Ok b) l bs.
Proof.
  revert bs; induction l as [|a l IH]; intros bs; cbn.
  - split; [intros [= <-]; auto|inversion 1; auto].
  - destruct (f a) as [b|e] eqn:E; cbn.
    + destruct (mapM f l) as [bs'|e]; cbn.
      * split; [intros [= <-]; constructor; auto; apply IH; auto|].
        inversion 1 as [|? b' ? bs'' H1 H2]; subst. rewrite E in H1; injection H1 as ->.
        apply IH in H2. injection H2 as ->; auto.
      * split; [discriminate|inversion 1 as [|? b' ? bs'' H1 H2]; subst].
        apply IH in H2; discriminate.
    + split; [discriminate|inversion 1 as [|? b' ? bs'' H1 H2]; subst; congruence].
Qed.

Lemma Forall2_len {A B} (R : A -> B -> Prop) l l' : Forall2 R l l' -> length l = length l'.
Proof. induction 1; cbn; auto. Qed.
