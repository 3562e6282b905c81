(** Lemmas about util.py. *)
From Verif Require Import Base PyStr M_Util S_Util.
Open Scope list_scope.
Local Arguments Ascii.eqb : simpl never.

(** ** Integer ranges *)
Lemma zrange_n_map a n : zrange_n a n = map (fun i => a + Z.of_nat i)%Z (seq 0 n).
Proof.
  revert a; induction n as [|n IH]; intros a; cbn; auto. f_equal; [lia|].
  rewrite IH, <- seq_shift, map_map. apply map_ext; intros i; lia.
Qed.

Lemma zrange_interval a b : zrange a (b + 1) = interval a b.
Proof. unfold zrange, interval. rewrite zrange_n_map. do 3 f_equal; lia. Qed.

Lemma interval_single a : interval a a = [a].
Proof. unfold interval. replace (a - a + 1)%Z with 1%Z by lia. change (Z.to_nat 1) with 1.
  cbn [seq map]. f_equal. change (Z.of_nat 0) with 0%Z. lia. Qed.

Lemma interval_In a b z : In z (interval a b) <-> (a <= z <= b)%Z.
Proof.
  unfold interval. rewrite in_map_iff. split.
  - intros (i & <- & I). apply in_seq in I. lia.
  - intros H. exists (Z.to_nat (z - a)). split; [lia|]. apply in_seq; lia.
Qed.

(** ** strip, int, split on user-written numerals *)
Lemma digit_not_space c : is_digit c = true -> is_space c = false.
Proof.
  unfold is_digit, is_space. rewrite andb_true_iff, !Nat.leb_le. intros [H1 H2].
  apply orb_false_iff. split; apply andb_false_iff; rewrite !Nat.leb_gt; lia.
Qed.

Lemma digit_val_digit c : is_digit c = true ->
  digit_val c = Some (Z.of_nat (nat_of_ascii c) - 48)%Z.
Proof.
  unfold is_digit, digit_val. intros H; rewrite H. rewrite andb_true_iff, !Nat.leb_le in H.
  f_equal; lia.
Qed.

Lemma lstrip_spaces p l : forallb is_space p = true -> lstrip (p ++ l) = lstrip l.
Proof.
  induction p as [|c p IH]; cbn; auto. rewrite andb_true_iff. intros [H1 H2]. rewrite H1; auto.
Qed.

Lemma lstrip_digits ds l : ds <> [] -> forallb is_digit ds = true -> lstrip (ds ++ l) = ds ++ l.
Proof.
  destruct ds as [|d ds]; [congruence|]. cbn. rewrite andb_true_iff. intros _ [H _].
  rewrite digit_not_space; auto.
Qed.

Lemma forallb_rev {A} (f : A -> bool) l : forallb f l = true -> forallb f (rev l) = true.
Proof.
  rewrite !forallb_forall. intros H x I. apply H. rewrite in_rev; auto.
Qed.

Lemma strip_numeral n : numeral_ok n -> strip_l (numeral_text n) = n_digits n.
Proof.
  intros (NE & D & B & A). unfold strip_l, numeral_text.
  rewrite lstrip_spaces, lstrip_digits by auto.
  rewrite rev_app_distr, lstrip_spaces by (apply forallb_rev; auto).
  rewrite <- (app_nil_r (rev (n_digits n))), lstrip_digits, app_nil_r, rev_involutive; auto.
  - intros E. apply NE. rewrite <- (rev_involutive (n_digits n)), E; auto.
  - apply forallb_rev; auto.
Qed.

Lemma digits_go_digits ds acc n : forallb is_digit ds = true ->
  digits_go ds acc n false
  = Some (fold_left (fun acc c => acc * 10 + (Z.of_nat (nat_of_ascii c) - 48))%Z ds acc,
          n + length ds, []).
Proof.
  revert acc n; induction ds as [|d ds IH]; intros acc n H; cbn.
  - rewrite Nat.add_0_r; auto.
  - cbn in H. apply andb_true_iff in H as [H1 H2]. rewrite digit_val_digit by auto.
    rewrite IH by auto. do 3 f_equal. lia.
Qed.

Lemma split_sign_digits ds : forallb is_digit ds = true -> split_sign ds = (false, ds).
Proof.
  destruct ds as [|c ds]; cbn; auto. rewrite andb_true_iff. intros [H _].
  destruct (Ascii.eqb c "-") eqn:E1; [apply Ascii.eqb_eq in E1; subst; discriminate|].
  destruct (Ascii.eqb c "+") eqn:E2; [apply Ascii.eqb_eq in E2; subst; discriminate|]. auto.
Qed.

Lemma int_numeral n : numeral_ok n -> int_l (numeral_text n) = Some (numeral_value n).
Proof.
  intros OK. unfold int_l. rewrite strip_numeral by auto. destruct OK as (NE & D & _).
  rewrite split_sign_digits by auto. unfold digits1. rewrite digits_go_digits by auto.
  destruct (n_digits n) as [|d ds] eqn:E; [congruence|]. cbn [length Nat.add].
  unfold numeral_value. rewrite E; auto.
Qed.

Lemma split_l_nosep sep w : ~ In sep w -> split_l sep w = [w].
Proof.
  induction w as [|c w IH]; cbn; auto. intros N.
  destruct (Ascii.eqb c sep) eqn:E; [apply Ascii.eqb_eq in E; tauto|].
  rewrite IH by tauto. auto.
Qed.

Lemma split_l_sep sep w l : ~ In sep w -> split_l sep (w ++ sep :: l) = w :: split_l sep l.
Proof.
  induction w as [|c w IH]; cbn; intros N.
  - rewrite Ascii.eqb_refl; auto.
  - destruct (Ascii.eqb c sep) eqn:E; [apply Ascii.eqb_eq in E; tauto|].
    rewrite IH by tauto. auto.
Qed.

Definition numchar (c : ascii) : bool := is_digit c || is_space c.
Lemma numeral_chars n c : numeral_ok n -> In c (numeral_text n) -> numchar c = true.
Proof.
  intros (NE & D & B & A) I. unfold numeral_text in I. rewrite !in_app_iff in I.
  rewrite forallb_forall in *. unfold numchar. apply orb_true_iff.
  destruct I as [I|[I|I]]; auto.
Qed.

Lemma numeral_no c n : numeral_ok n -> numchar c = false -> ~ In c (numeral_text n).
Proof. intros OK N I. apply numeral_chars in I; auto. congruence. Qed.

Lemma item_no_comma i : item_ok i -> ~ In ","%char (item_text i).
Proof.
  destruct i as [n|a b]; cbn; intros OK.
  - apply numeral_no; auto.
  - destruct OK. rewrite in_app_iff; cbn. intros [I|[I|I]]; [|discriminate|];
      revert I; apply numeral_no; auto.
Qed.

Lemma chars_of_str l : str_chars (str_of l) = l.
Proof. apply list_ascii_of_string_of_list_ascii. Qed.

Lemma range_piece_item i : item_ok i ->
  range_piece (str_of (item_text i)) = Some (item_values i).
Proof.
  intros OK. unfold range_piece, py_split, py_int. rewrite chars_of_str.
  destruct i as [n|a b]; cbn [item_text item_values].
  - rewrite split_l_nosep by (apply numeral_no; auto). cbn [map].
    rewrite int_numeral by auto. rewrite zrange_interval, interval_single; auto.
  - destruct OK as [OA OB]. rewrite split_l_sep by (apply numeral_no; auto).
    rewrite split_l_nosep by (apply numeral_no; auto). cbn [map].
    rewrite !chars_of_str, !int_numeral by auto. rewrite zrange_interval; auto.
Qed.

Lemma split_items l : l <> [] -> Forall item_ok l ->
  split_l ","%char (items_text l) = map item_text l.
Proof.
  induction l as [|i l IH]; [congruence|]. intros _ F. inversion F as [|? ? O1 O2]; subst.
  destruct l as [|j l].
  - cbn. apply split_l_nosep, item_no_comma; auto.
  - change (items_text (i :: j :: l)) with (item_text i ++ ","%char :: items_text (j :: l)).
    rewrite split_l_sep by (apply item_no_comma; auto). rewrite IH by (auto; congruence). auto.
Qed.

Lemma range_pieces_items l : Forall item_ok l ->
  range_pieces (map (fun i => str_of (item_text i)) l) = Some (flat_map item_values l).
Proof.
  induction 1 as [|i l O F IH]; cbn; auto. rewrite range_piece_item, IH by auto; auto.
Qed.

Lemma lstrip_In c l : In c (lstrip l) -> In c l.
Proof. induction l as [|a l IH]; cbn; auto. destruct (is_space a); cbn; auto. Qed.
Lemma strip_In c l : In c (strip_l l) -> In c l.
Proof. unfold strip_l. rewrite <- in_rev. intros H. apply lstrip_In in H. rewrite <- in_rev in H.
  apply lstrip_In; auto. Qed.

Lemma items_text_chars c l : Forall item_ok l -> In c (items_text l) ->
  numchar c = true \/ c = "-"%char \/ c = ","%char.
Proof.
  assert (IT : forall i, item_ok i -> In c (item_text i) -> numchar c = true \/ c = "-"%char).
  { intros [n|a b]; cbn; intros OK I.
    - left; eapply numeral_chars; eauto.
    - rewrite in_app_iff in I; cbn in I. destruct OK, I as [I|[I|I]]; auto; left; eapply numeral_chars;
        [|apply I| |apply I]; auto. }
  induction 1 as [|i l O F IH]; [cbn; tauto|].
  destruct l as [|j l].
  - cbn [items_text]. intros I. apply IT in I; tauto.
  - change (items_text (i :: j :: l)) with (item_text i ++ ","%char :: items_text (j :: l)).
    rewrite in_app_iff. cbn [In]. intros [I|[I|I]]; [apply IT in I; tauto|auto|auto].
Qed.

Lemma strip_not_word l w c : ~ In c l -> In c (str_chars w) -> String.eqb (py_strip (str_of l)) w = false.
Proof.
  intros N I. apply String.eqb_neq. intros E. unfold py_strip in E. rewrite chars_of_str in E.
  apply N, strip_In. rewrite <- (chars_of_str (strip_l l)), E; auto.
Qed.

Lemma parse_range_items l avail : l <> [] -> Forall item_ok l ->
  parse_range (str_of (items_text l)) avail = Some (flat_map item_values l).
Proof.
  intros NE F. unfold parse_range.
  assert (NI : forall c, numchar c = false -> c <> "-"%char -> c <> ","%char -> ~ In c (items_text l)).
  { intros c N1 N2 N3 I. apply items_text_chars in I; auto. intuition congruence. }
  rewrite (strip_not_word _ "all" "l"%char), (strip_not_word _ "none" "n"%char).
  - unfold py_split. rewrite chars_of_str, split_items, map_map by auto. apply range_pieces_items; auto.
  - apply NI; auto; discriminate.
  - cbn; auto.
  - apply NI; auto; discriminate.
  - cbn; auto.
Qed.

Lemma range_pieces_None l a : In a l -> range_piece a = None -> range_pieces l = None.
Proof.
  induction l as [|b l IH]; cbn; [tauto|]. intros [->|I] N.
  - rewrite N; auto.
  - rewrite (IH I N). destruct (range_piece b); auto.
Qed.

(** ** chunks *)
Lemma starts_cover {A} (l : list A) k : 0 < k -> forall fuel i, length l - i <= fuel ->
  concat (map (fun i => slice l i (i + k)) (starts (length l) i k fuel)) = skipn i l.
Proof.
  intros K. induction fuel as [|f IH]; intros i F; cbn [starts].
  - symmetry; apply skipn_all2; lia.
  - destruct (Nat.ltb_spec i (length l)); cbn [map concat].
    + rewrite IH by lia. unfold slice. replace (i + k - i) with k by lia.
      rewrite <- (firstn_skipn k (skipn i l)) at 2. f_equal.
      assert (SS : forall (l : list A) a b, skipn a (skipn b l) = skipn (b + a) l).
      { clear. intros l a b; revert l; induction b; intros l; cbn; auto. destruct l; cbn; auto.
        destruct a; auto. }
      rewrite SS; auto.
    + symmetry; apply skipn_all2; lia.
Qed.

Lemma starts_props {A} (l : list A) k : 0 < k -> forall fuel i,
  Forall (fun c => 0 < length c <= k) (map (fun i => slice l i (i + k)) (starts (length l) i k fuel)).
Proof.
  intros K. induction fuel as [|f IH]; intros i; cbn [starts]; [constructor|].
  destruct (Nat.ltb_spec i (length l)); cbn [map]; constructor; auto.
  unfold slice. rewrite firstn_length, skipn_length. lia.
Qed.

Lemma starts_full {A} (l : list A) k : 0 < k -> forall fuel i,
  forall cs c, map (fun i => slice l i (i + k)) (starts (length l) i k fuel) = cs ++ [c] ->
  Forall (fun x => length x = k) cs.
Proof.
  intros K. induction fuel as [|f IH]; intros i cs c; cbn [starts map]; [destruct cs; discriminate|].
  destruct (Nat.ltb_spec i (length l)); cbn [map]; [|destruct cs; discriminate].
  destruct cs as [|x cs]; cbn; [constructor|]. intros E. injection E as E1 E2.
  constructor; [|eapply IH; eauto].
  subst x. unfold slice. rewrite firstn_length, skipn_length.
  destruct f as [|f]; cbn [starts map] in E2; [destruct cs; discriminate|].
  destruct (Nat.ltb_spec (i + k) (length l)); [lia|destruct cs; discriminate].
Qed.

Lemma chunks_spec {A} (l : list A) n cs : (1 <= n)%Z -> chunks l n = Ok cs ->
  concat cs = l /\ Forall (fun c => 0 < length c <= Z.to_nat n) cs /\
  (forall cs' c, cs = cs' ++ [c] -> Forall (fun x => length x = Z.to_nat n) cs').
Proof.
  intros N. unfold chunks. destruct (Z.eqb_spec n 0); [lia|]. destruct (Z.ltb_spec n 0); [lia|].
  intros [= <-]. split; [|split].
  - rewrite starts_cover by lia. reflexivity.
  - apply starts_props; lia.
  - intros cs' c E. eapply starts_full; eauto. lia.
Qed.

(** ** to_dict *)
Section Obj.
  Context {V T : Type}.
  Notation obj := (obj V T).

  Lemma obj_ind' (P : obj -> Prop)
    (HD : forall d, Forall (fun kv => P (snd kv)) d -> P (Dict d))
    (HQ : forall v u, P (Quant v u)) (HA : forall o, P o -> P (Ast o)) (HT : forall t, P (QTab t))
    (HC : forall c, P (Tab c))
    (HI : forall c a, Forall (fun kv => P (snd (snd kv))) a -> P (Inst c a))
    (HP : forall v, P (Plain v)) : forall o, P o.
  Proof.
    fix IH 1. intros [d|v u|o|t|cols|c a|v]; [|apply HQ|apply HA, IH|apply HT|apply HC| |apply HP].
    - apply HD. induction d as [|[k v] d IHd]; constructor; [apply IH|apply IHd].
    - apply HI. induction a as [|[k [b v]] a IHa]; constructor; [apply IH|apply IHa].
  Qed.

  Fixpoint export_attrs ck (l : list (string * (bool * obj))) : list (string * obj) :=
    match l with
    | [] => []
    | (k, (c, v)) :: l' => if exported k c then (k, to_dict ck v) :: export_attrs ck l' else export_attrs ck l'
    end.

  Lemma to_dict_inst ck cls attrs : to_dict ck (Inst cls attrs) =
    match ck with
    | Some c => Dict (sset c (Plain cls) (export_attrs ck attrs))
    | None => Dict (export_attrs ck attrs)
    end.
  Proof.
    cbn. assert (E : (fix go (l : list (string * (bool * obj))) : list (string * obj) :=
                       match l with
                       | [] => []
                       | (k, (c, v)) :: l' =>
                           if exported k c then (k, to_dict ck v) :: go l' else go l'
                       end) attrs = export_attrs ck attrs).
    { induction attrs as [|[k [c v]] l IH]; cbn; auto. rewrite IH; auto. }
    rewrite E; auto.
  Qed.

  Lemma starts_under k : starts_with "_" k = true <-> exists r, k = String "_"%char r.
  Proof.
    unfold starts_with. destruct k as [|c r]; cbn.
    - split; [discriminate|intros [r E]; discriminate].
    - rewrite andb_true_r, Ascii.eqb_eq. split; [intros <-; eauto|intros [r' E]; injection E; auto].
  Qed.

  Lemma exported_public k c : exported k c = true <-> c = false /\ public k.
  Proof.
    unfold exported, public. rewrite !andb_true_iff, !negb_true_iff, String.eqb_neq.
    assert (H : starts_with "_" k = false <-> match k with String "_"%char _ => False | _ => True end).
    { destruct (starts_with "_" k) eqn:E.
      - apply starts_under in E as [r ->]. split; [discriminate|tauto].
      - split; auto. intros _. destruct k as [|a k]; auto.
        destruct (Ascii.eqb a "_") eqn:E2.
        + apply Ascii.eqb_eq in E2; subst. unfold starts_with in E; cbn in E. discriminate.
        + apply Ascii.eqb_neq in E2. clear E.
          destruct a as [[] [] [] [] [] [] [] []]; auto; congruence. }
    rewrite H; tauto.
  Qed.

  Lemma export_attrs_In ck attrs k o :
    In (k, o) (export_attrs ck attrs) <->
    exists v, In (k, (false, v)) attrs /\ public k /\ o = to_dict ck v.
  Proof.
    induction attrs as [|[a [c v]] l IH]; cbn.
    - split; [tauto|intros (v & [] & _)].
    - destruct (exported a c) eqn:E; cbn; rewrite IH.
      + apply exported_public in E as [-> PU]. split.
        * intros [H|(w & I & P & ->)]; [injection H as <- <-; eauto|eauto].
        * intros (w & [H|I] & P & ->); [injection H as -> ->; auto|eauto].
      + split; [intros (w & I & P); eauto|].
        intros (w & [H|I] & P & ->); [|eauto]. injection H as -> -> ->.
        assert (exported k false = true) by (apply exported_public; auto). congruence.
  Qed.

  (** A step in the object is a step in the dictionary. *)
  Lemma to_dict_step (o : obj) k o' : step o k o' -> step (to_dict None o) k (to_dict None o').
  Proof.
    induction 1 as [d k v I|c attrs k v I P|o k v S IH]; auto.
    - cbn. constructor. apply in_map_iff. exists (k, v); auto.
    - rewrite to_dict_inst. constructor. apply export_attrs_In; eauto.
  Qed.

  Lemma to_dict_reach (o : obj) p o' : reach o p o' -> reach (to_dict None o) p (to_dict None o').
  Proof. induction 1; [constructor|]. econstructor; eauto. apply to_dict_step; auto. Qed.

  Lemma to_dict_exports (o : obj) p v : exports o p v -> reach (to_dict None o) p v.
  Proof.
    induction 1 as [v|v u|v u|t|cols k v I|o p v E IH]; cbn; auto; try constructor.
    - econstructor; [constructor; left; reflexivity|constructor].
    - econstructor; [constructor; right; left; reflexivity|constructor].
    - econstructor; [constructor; left; reflexivity|constructor].
    - econstructor; [constructor; apply in_map_iff; exists (k, v); split; eauto|].
      econstructor; [constructor; left; reflexivity|constructor].
  Qed.

  Lemma reach_app (o : obj) p o' q o'' : reach o p o' -> reach o' q o'' -> reach o (p ++ q) o''.
  Proof. induction 1; cbn; auto. intros; econstructor; eauto. Qed.

  (** Conversely every leaf of the dictionary comes from the object. *)
  Lemma to_dict_leaf (o : obj) : forall p w, leaf w -> reach (to_dict None o) p w ->
    exists p1 p2 o', reach o p1 o' /\ exports o' p2 w /\ p = p1 ++ p2.
  Proof.
    induction o as [d IH|v u|o IH|t|cols|c a IH|v] using obj_ind'; intros p w LF R.
    - cbn in R. inversion R as [|? k o1 q ? S R']; subst; [cbn in LF; tauto|].
      inversion S as [? ? ? I| |]; subst. apply in_map_iff in I as ([k' v'] & E & I).
      cbn in E. injection E as <- <-. rewrite Forall_forall in IH.
      destruct (IH _ I _ _ LF R') as (p1 & p2 & o' & R1 & E1 & ->).
      exists (k' :: p1), p2, o'. repeat split; auto. econstructor; eauto. constructor; auto.
    - cbn in R. inversion R as [|? k o1 q ? S R']; subst; [cbn in LF; tauto|].
      inversion S as [? ? ? I| |]; subst. destruct I as [I|[I|[]]]; injection I as <- <-.
      + inversion R' as [|? ? ? ? ? S' ?]; subst; [|inversion S'].
        exists [], ["value"], (Quant v u). repeat split; constructor.
      + inversion R' as [|? ? ? ? ? S' ?]; subst; [|inversion S'].
        exists [], ["unit"], (Quant v u). repeat split; constructor.
    - cbn in R. destruct (IH _ _ LF R) as (p1 & p2 & o' & R1 & E1 & ->).
      inversion R1 as [|? k o1 q ? S R']; subst.
      + exists [], p2, (Ast o'). repeat split; constructor; auto.
      + exists (k :: q), p2, o'. repeat split; auto. econstructor; eauto. constructor; auto.
    - cbn in R. inversion R as [|? k o1 q ? S R']; subst; [cbn in LF; tauto|].
      inversion S as [? ? ? I| |]; subst. destruct I as [I|[]]; injection I as <- <-.
      inversion R' as [|? ? ? ? ? S' ?]; subst; [|inversion S'].
      exists [], ["table"], (QTab t). repeat split; constructor.
    - cbn in R. inversion R as [|? k o1 q ? S R']; subst; [cbn in LF; tauto|].
      inversion S as [? ? ? I| |]; subst. apply in_map_iff in I as ([k' v'] & E & I).
      cbn in E. injection E as <- <-.
      inversion R' as [|? k2 o2 q2 ? S2 R2]; subst; [cbn in LF; tauto|].
      inversion S2 as [? ? ? I2| |]; subst. destruct I2 as [I2|[]]; injection I2 as <- <-.
      inversion R2 as [|? ? ? ? ? S' ?]; subst; [|inversion S'].
      exists [], [k'; "value"], (Tab cols). repeat split; constructor; auto.
    - rewrite to_dict_inst in R. inversion R as [|? k o1 q ? S R']; subst; [cbn in LF; tauto|].
      inversion S as [? ? ? I| |]; subst. apply export_attrs_In in I as (v & I & PU & ->).
      rewrite Forall_forall in IH.
      destruct (IH _ I _ _ LF R') as (p1 & p2 & o' & R1 & E1 & ->).
      exists (k :: p1), p2, o'. repeat split; auto. econstructor; eauto. constructor; auto.
    - cbn in R. inversion R as [|? ? ? ? ? S' ?]; subst; [|inversion S'].
      exists [], [], (Plain v). repeat split; constructor.
  Qed.

  Lemma map_id_ext {A} (f : A -> A) l : Forall (fun x => f x = x) l -> map f l = l.
  Proof. induction 1; cbn; congruence. Qed.

  (** plain data: dictionaries of plain values *)
  Lemma to_dict_idem (o : obj) : tables_free o = true -> to_dict None (to_dict None o) = to_dict None o.
  Proof.
    induction o as [d IH|v u|o IH|t|cols|c a IH|v] using obj_ind'; intros TF; auto.
    - cbn in *. f_equal. rewrite map_map. apply map_ext_in. intros [k v] I; cbn. f_equal.
      rewrite Forall_forall in IH. rewrite forallb_forall in TF. apply (IH _ I), (TF _ I).
    - discriminate.
    - cbn. f_equal. rewrite map_map. apply map_ext; auto.
    - rewrite to_dict_inst. cbn in *. f_equal. apply map_id_ext, Forall_forall.
      intros [k o] I. apply export_attrs_In in I as (v & I & PU & ->). cbn. f_equal.
      rewrite Forall_forall in IH. rewrite forallb_forall in TF. apply (IH _ I), (TF _ I).
  Qed.
End Obj.
