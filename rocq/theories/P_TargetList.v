(** C42, C43, C58: target lists. *)
From Verif Require Import Base Dict PyStr M_Version L_Str M_TargetList S_TargetList L_TargetList.
Open Scope list_scope.

Section P.
  Context {V : Type} (unit_ok : string -> bool).

  (** C42: native csv lists.  Every load that succeeds gives one target per row; a target has
      no planet only when there is no planet column or the planet columns are not readable. *)
  Theorem C42_csv_one_target_per_row (t : table V) n ts :
    same_length n t -> named "star" t <> [] -> load_csv V unit_ok t = Ok ts ->
    one_target_per_row csv_key_of csv_value (named "star" t) (named "planet" t) n
      (~ csv_readable unit_ok (named "planet" t)) ts.
  Proof.
    intros SL NE H. unfold load_csv in H.
    destruct (load_spec csv_key_of word2 csv_value (named "star" t) (named "planet" t) n
                (csv_data V unit_ok "star" t) (csv_data V unit_ok "planet" t) ts) as [L F]; auto.
    - apply csv_key_of_word2.
    - apply csv_value_fun.
    - apply same_length_named; auto.
    - apply same_length_named; auto.
    - intros d. apply csv_data_len; auto.
    - intros d. apply csv_data_len; auto.
    - split; auto. intros i x X. destruct (F i x X) as (ID & ST & PL). split; auto. split; auto.
      destruct (planet x); auto. destruct PL as [N [P|[e E]]]; split; auto.
      right. intros RD. destruct (readable_ok unit_ok n "planet" t SL RD) as (ks & d & B).
      unfold csv_keys in B. change (csv_cols V "planet" t) with (named "planet" t) in B. congruence.
  Qed.

  (** ... and well-formed tables do load. *)
  Theorem C42_csv_well_formed_loads (t : table V) n :
    same_length n t -> csv_readable unit_ok (named "star" t) -> csv_readable unit_ok (named "planet" t) ->
    (exists h cells, In (h, cells) (if named "planet" t then named "star" t else named "planet" t) /\ csv_key_of h "name") ->
    exists ts, load_csv V unit_ok t = Ok ts.
  Proof.
    intros SL RS RP NM.
    destruct (readable_ok unit_ok n "star" t SL RS) as (sk & sd & BS).
    destruct (readable_ok unit_ok n "planet" t SL RP) as (pk & pd & BP).
    unfold load_csv. rewrite BS, BP. cbn.
    assert (PDN : named "planet" t = [] -> pd = []).
    { intros NP. unfold csv_keys, csv_data in BP. change (csv_cols V "planet" t) with (named "planet" t) in BP.
      rewrite NP in BP. cbn in BP. congruence. }
    assert (PDNE : named "planet" t <> [] -> pd = [] -> sd = []).
    { intros NP EP. unfold csv_keys in BP. change (csv_cols V "planet" t) with (named "planet" t) in BP.
      destruct (mapM (fun c => word2 (fst c)) (named "planet" t)) as [ks'|] eqn:MK; [|discriminate].
      destruct (csv_data V unit_ok "planet" t) as [d'|] eqn:D; [|discriminate]. cbn in BP. injection BP as -> ->.
      destruct (csv_data_len unit_ok n "planet" t pd SL D) as [LD _].
      unfold csv_keys in BS.
      destruct (mapM (fun c => word2 (fst c)) (csv_cols V "star" t)) as [ks2|] eqn:MK2; [|discriminate].
      destruct (csv_data V unit_ok "star" t) as [d2|] eqn:D2; [|discriminate]. cbn in BS. injection BS as -> ->.
      destruct (csv_data_len unit_ok n "star" t sd SL D2) as [LD2 _].
      subst pd. cbn in LD. destruct (named "planet" t); [congruence|].
      destruct sd; auto. cbn in LD2. destruct (named "star" t); lia. }
    destruct pd as [|p0 pd0] eqn:EP.
    - destruct (named "planet" t) as [|] eqn:NP.
      + apply mapM_total. intros i [k r] N. apply nth_error_combine in N as [_ N].
        destruct (has_name unit_ok n "star" t _ _ _ _ SL BS NM N) as [v FV]. rewrite FV. cbn. eauto.
      + rewrite PDNE by congruence. cbn. eauto.
    - destruct (named "planet" t) as [|c0 pc0] eqn:NP; [discriminate (PDN eq_refl)|].
      apply mapM_total. intros i [k [r p]] N. apply nth_error_combine in N as [_ N].
      apply nth_error_combine in N as [_ N]. rewrite <- NP in NM.
      destruct (has_name unit_ok n "planet" t _ _ _ _ SL BP NM N) as [v FV]. rewrite FV. cbn. eauto.
  Qed.

  (** C42: the MRS csv format *)
  Theorem C42_mrs_one_target_per_row (t : table V) n ts :
    same_length n t -> mrs_columns "star" t <> [] -> load_mrs V unit_ok t = Ok ts ->
    one_target_per_row mrs_key_of mrs_value (mrs_columns "star" t) (mrs_columns "planet" t) n
      (exists e, mrs_keys V "planet" t = Err e \/ mrs_data V unit_ok "planet" t = Err e) ts.
  Proof.
    intros SL NE H. unfold load_mrs in H.
    change (mrs_columns "star" t) with (mrs_cols V "star" t) in *.
    change (mrs_columns "planet" t) with (mrs_cols V "planet" t) in *.
    assert (G : forall w d, mrs_data V unit_ok w t = Ok d ->
      length d = (if mrs_cols V w t then 0 else n) /\
      forall i r, nth_error d i = Some r -> row_spec mrs_value (mrs_cols V w t) i r).
    { intros w d D.
      destruct (gen_data_spec unit_ok (mrs_unit unit_ok) (mrs_cell V) (mrs_cols V w t) n d) as [L R]; auto.
      { apply same_length_filter; auto. }
      split; auto. intros i r I. eapply row_spec_impl; [|apply R, I]. apply mrs_value_times. }
    destruct (load_spec mrs_key_of mrs_key mrs_value (mrs_cols V "star" t) (mrs_cols V "planet" t) n
                (mrs_data V unit_ok "star" t) (mrs_data V unit_ok "planet" t) ts) as [L F]; auto.
    - intros h k; reflexivity.
    - apply mrs_value_fun.
    - apply same_length_filter; auto.
    - apply same_length_filter; auto.
    - split; auto. intros i x X. destruct (F i x X) as (ID & ST & PL). split; auto. split; auto.
      destruct (planet x); auto. destruct PL as [N [P|[e E]]]; split; auto.
      right. exists e. unfold mrs_keys. destruct (mapM _ _) as [ks|]; cbn in E; [|left; congruence].
      destruct (mrs_data V unit_ok "planet" t); cbn in E; [discriminate|right; congruence].
  Qed.

  (** ... where the field of a header "Star <Long Name> [unit]" is the lower case long name,
      shortened, and its unit the text in brackets, with abbreviations expanded. *)
  Theorem C42_mrs_headers (w nm un : string) (c : cell V) v f :
    free_of " " w -> free_of "[" w -> free_of "]" w -> free_of "[" nm -> free_of "]" nm -> free_of "]" un ->
    let h := (w ++ " " ++ nm ++ " [" ++ un ++ "]")%string in
    (mrs_key_of h f <-> f = lookup_or mrs_short_names (py_lower nm)) /\
    (mrs_value h c v <->
     v = VQuant (match c with Txt s => Txt (py_replace "," "." s) | Num _ => c end)
                (lookup_or mrs_unit_names un)).
  Proof.
    intros W1 W2 W3 N1 N2 U h. split.
    - unfold mrs_key_of, mrs_key.
      assert (A : after_space h = Ok (nm ++ " [" ++ un ++ "]")%string).
      { unfold h. clear - W1. induction w as [|a w IH]; cbn [String.append after_space]; auto.
        destruct (Ascii.eqb_spec a " "%char) as [->|D]; [destruct (W1 " "%char); cbn; auto|].
        apply IH. intros b I. apply W1; cbn; auto. }
      rewrite A. cbn [bind].
      set (k := py_lower (nm ++ " [" ++ un ++ "]")%string).
      assert (EK : k = ((py_lower nm ++ " ") ++ String "[" (py_lower un ++ "]"))%string).
      { unfold k. rewrite !py_lower_app. apply str_chars_inj. rewrite !str_chars_app. cbn. rewrite <- !app_assoc. cbn.
        rewrite str_chars_app. reflexivity. }
      assert (C : contains "[" k = true).
      { apply contains_spec. exists (py_lower nm ++ " ")%string, (py_lower un ++ "]")%string. exact EK. }
      rewrite C.
      assert (FI : str_find "["%char k 0 = Z.of_nat (String.length (py_lower nm) + 1)).
      { rewrite EK, str_find_app.
        - rewrite length_app. cbn [String.length]. lia.
        - intros a I. rewrite str_chars_app, in_app_iff, py_lower_chars, in_map_iff in I.
          destruct I as [(b & <- & I)|I]; [|cbn in I; destruct I as [<-|[]]; discriminate].
          intros E. exact (N1 b I (proj1 (lower_c_bracket b) E)). }
      rewrite FI.
      assert (SL : str_slice 0 (Z.of_nat (String.length (py_lower nm) + 1) - 1) k = py_lower nm).
      { replace k with ("" ++ py_lower nm ++ (" [" ++ py_lower un ++ "]"))%string.
        - apply slice_between; [reflexivity|cbn [String.length]; lia].
        - rewrite EK. apply str_chars_inj. rewrite !str_chars_app. cbn. rewrite <- !app_assoc. cbn.
          fold (str_chars (py_lower un ++ "]")). rewrite str_chars_app. reflexivity. }
      rewrite SL. generalize (py_lower nm) as q. intros q.
      assert (R : check_keys q = lookup_or mrs_short_names q).
      { unfold check_keys, lookup_or, mrs_short_names. cbn [dget].
        repeat match goal with |- context [if ?b then _ else _] => destruct b; auto end. }
      rewrite R. split; [intros [= <-]; auto|intros ->; auto].
    - unfold mrs_value.
      assert (EH : h = ((w ++ " " ++ nm ++ " ") ++ String "[" (un ++ "]"))%string).
      { unfold h. apply str_chars_inj. rewrite !str_chars_app. cbn. rewrite !str_chars_app. cbn. rewrite <- !app_assoc.
        cbn. rewrite <- !app_assoc. reflexivity. }
      assert (C : contains "[" h = true).
      { apply contains_spec. eexists _, _. exact EH. }
      rewrite C.
      assert (F1 : str_find "["%char h 0 = Z.of_nat (String.length (w ++ " " ++ nm ++ " "))).
      { rewrite EH, str_find_app; [lia|]. intros a I. rewrite !str_chars_app, !in_app_iff in I.
        destruct I as [I|[I|[I|I]]]; auto; cbn in I; destruct I as [<-|[]]; discriminate. }
      assert (EH2 : h = (((w ++ " " ++ nm ++ " ") ++ "[") ++ un ++ "]")%string).
      { rewrite EH. apply str_chars_inj. rewrite !str_chars_app. cbn. rewrite !str_chars_app.
        rewrite <- !app_assoc. reflexivity. }
      assert (F2 : str_find "]"%char h 0 = Z.of_nat (String.length ((w ++ " " ++ nm ++ " ") ++ "[") + String.length un)).
      { rewrite EH2. replace (((w ++ " " ++ nm ++ " ") ++ "[") ++ un ++ "]")%string
          with ((((w ++ " " ++ nm ++ " ") ++ "[") ++ un) ++ String "]" "")%string.
        2: { apply str_chars_inj. rewrite !str_chars_app. rewrite <- !app_assoc. reflexivity. }
        rewrite str_find_app; [rewrite length_app; lia|].
        intros a I. rewrite !str_chars_app, !in_app_iff in I.
        destruct I as [[[I|[I|[I|I]]]|I]|I]; auto; cbn in I; destruct I as [<-|[]]; discriminate. }
      rewrite F1, F2. 
      assert (SL : str_slice (Z.of_nat (String.length (w ++ " " ++ nm ++ " ")) + 1)
          (Z.of_nat (String.length ((w ++ " " ++ nm ++ " ") ++ "[") + String.length un)) h = un).
      { rewrite EH2. apply slice_between; auto. rewrite (length_app (w ++ " " ++ nm ++ " ") "["). cbn [String.length]. lia. }
      rewrite SL.
      assert (R : check_units un = lookup_or mrs_unit_names un).
      { unfold check_units, lookup_or, mrs_unit_names. cbn [dget].
        repeat match goal with |- context [if ?b then _ else _] => destruct b; auto end. }
      rewrite R. reflexivity.
  Qed.

  (** C42: lists given as a table of quantities *)
  Theorem C42_qtable_one_target_per_row (t : qtable V) n ts :
    same_length n t -> named "star" t <> [] -> load_qtable V t = Ok ts ->
    one_target_per_row csv_key_of q_value (named "star" t) (named "planet" t) n
      (exists h cells, In (h, cells) (named "planet" t) /\
         ((forall f, ~ csv_key_of h f) \/ exists x, In (VCell (Num x)) cells)) ts.
  Proof.
    intros SL NE H. unfold load_qtable in H.
    destruct (load_spec csv_key_of word2 q_value (named "star" t) (named "planet" t) n
                (q_data V "star" t) (q_data V "planet" t) ts) as [L F]; auto.
    - apply csv_key_of_word2.
    - unfold q_value; congruence.
    - apply same_length_filter; auto.
    - apply same_length_filter; auto.
    - intros d D. apply q_data_spec; auto.
    - intros d D. apply q_data_spec; auto.
    - split; auto. intros i x X. destruct (F i x X) as (ID & ST & PL). split; auto. split; auto.
      destruct (planet x); auto. destruct PL as [N [P|[e E]]]; split; auto.
      right. destruct (mapM (fun c => word2 (fst c)) (named "planet" t)) as [ks|] eqn:MK; cbn in E.
      + destruct (q_data V "planet" t) as [|e2] eqn:D; cbn in E; [discriminate|].
        unfold q_data in D. change (q_cols V "planet" t) with (named "planet" t) in D.
        apply mapM_Err_inv in D as (k & IN & W). apply mapM_Err_inv in W as (v & IV & CQ).
        destruct v as [[s|y]|]; try discriminate.
        apply In_nth_error in IV as [j IV]. unfold row in IV. rewrite nth_error_map in IV.
        rewrite nth_error_map in IV.
        destruct (nth_error (named "planet" t) j) as [[h cells]|] eqn:EC; [|discriminate].
        cbn in IV. injection IV as IV. assert (IN2 : In (h, cells) (named "planet" t)) by (eapply nth_error_In; eauto).
        exists h, cells. split; auto. right. exists y. rewrite <- IV. apply nth_In.
        pose proof (same_length_filter n (fun c => contains "planet" (fst c)) t SL) as SL'.
        fold (named "planet" t) in SL'.
        apply in_seq in IN. unfold same_length in SL'. rewrite Forall_forall in SL'.
        pose proof (SL' _ IN2) as LC. cbn in LC.
        destruct (named "planet" t) as [|[h0 c0] rest] eqn:NP; [destruct IN2|]. cbn in IN.
        pose proof (SL' (h0, c0) (or_introl eq_refl)) as LC0. cbn in LC0. lia.
      + apply mapM_Err_inv in MK as ([h cells] & IN & W). exists h, cells. split; auto. left.
        intros f K. apply csv_key_of_word2 in K. cbn in W. congruence.
  Qed.

  (** C42: spreadsheets; the planet has one more field, Nobs, from column 20 *)
  Theorem C42_xlsx_one_target_per_row (s : sheet V) n ts nk nu nobs :
    Forall (fun x => length (snd x) = n) s ->
    nth_error s 20 = Some (nk, nu, nobs) ->
    load_xlsx V unit_ok s = Ok ts ->
    one_target_per_row is_key q_value (xlsx_columns unit_ok 1 6 s)
      (xlsx_columns unit_ok 8 18 s ++ [("Nobs", map VCell nobs)]) n False ts.
  Proof.
    intros SL N20 H. unfold load_xlsx in H.
    destruct (parse_data V unit_ok (slice_cols V 8 18 s)) as [pl|] eqn:EP; cbn [bind] in H; [|discriminate].
    rewrite N20 in H.
    destruct (parse_data V unit_ok (slice_cols V 1 6 s)) as [st|] eqn:ES; cbn [bind] in H; [|discriminate].
    destruct (parse_data_spec _ _ _ _ _ EP) as [-> PN]. destruct (parse_data_spec _ _ _ _ _ ES) as [-> SN].
    assert (COLS : forall a b, same_length n (xlsx_columns unit_ok a b s)).
    { intros a b. unfold xlsx_columns, same_length.
      assert (F : Forall (fun x => length (snd x) = n) (firstn (b + 1 - a) (skipn a s))).
      { rewrite Forall_forall in *. intros x I. apply SL.
        rewrite <- (firstn_skipn a s). apply in_or_app. right.
        rewrite <- (firstn_skipn (b + 1 - a) (skipn a s)). apply in_or_app; auto. }
      destruct (firstn (b + 1 - a) (skipn a s)) as [|[[k u] d] rest]; [constructor|].
      inversion F; subst. cbn. constructor; [cbn; rewrite map_length; auto|].
      rewrite Forall_map. eapply Forall_impl; [|eassumption]. intros [[k' u'] d'] L. cbn in *. rewrite map_length; auto. }
    set (pc := xlsx_columns unit_ok 8 18 s ++ [("Nobs", map VCell nobs)]) in *.
    assert (EPC : sset "Nobs" (map VCell nobs) (dof_list String.eqb (xlsx_columns unit_ok 8 18 s)) = dof_list String.eqb pc).
    { unfold pc, dof_list. rewrite dupdate_app. reflexivity. }
    rewrite EPC in H.
    assert (LP : same_length n pc).
    { apply Forall_app. split; [apply COLS|]. constructor; auto. cbn. rewrite map_length.
      rewrite Forall_forall in SL. apply (SL _ (nth_error_In _ _ N20)). }
    assert (PCN : pc <> []). { unfold pc. destruct (xlsx_columns unit_ok 8 18 s); discriminate. }
    set (sc := xlsx_columns unit_ok 1 6 s) in *.
    assert (LS : same_length n sc) by apply COLS.
    rewrite (transpose_spec n (dof_list String.eqb sc)) in H
      by (try apply dof_list_nil_iff; try apply dof_list_same_length; auto).
    rewrite (transpose_spec n (dof_list String.eqb pc)) in H
      by (try apply dof_list_nil_iff; try apply dof_list_same_length; auto).
    assert (GEN : forall cols i r, same_length n cols ->
       nth_error (map (row (VCell (Txt "")) (map snd (dof_list String.eqb cols))) (seq 0 n)) i = Some r ->
       forall f v, sget f (zip_dict V (map fst (dof_list String.eqb cols)) r) = Some v <->
                   comes_from is_key q_value cols i f v).
    { intros cols i r SLc R f v. rewrite nth_error_map in R.
      destruct (nth_error (seq 0 n) i) as [i'|] eqn:S; [|discriminate]. cbn in R. injection R as <-.
      assert (LI : i < n). { assert (i < length (seq 0 n)) by (apply nth_error_Some; congruence). rewrite seq_length in *; auto. }
      rewrite nth_error_seq in S by auto. injection S as <-.
      rewrite zip_row_get by apply dof_list_NoDup. apply column_get with (n := n); auto. }
    assert (NM : forall (d : list (string * val V)) v, field_name V d = Ok v -> sget "name" d = Some v).
    { intros d v. unfold field_name. destruct (sget "name" d); congruence. }
    destruct n as [|n].
    { cbn in H. injection H as <-. split; auto. intros [|i]; cbn; discriminate. }
    match type of H with create_target_list V (Ok (_, ?sd)) (Ok (_, ?pd)) = _ =>
      destruct (create_both _ _ _ _ ts (ltac:(discriminate) : pd <> []) (ltac:(rewrite !map_length; auto) : length pd = length sd) H) as [L F] end.
    split; [rewrite L, map_length, seq_length; auto|].
    intros i t T. destruct (F i t T) as (ID & r & p & R & ST & P & PL & NAME). split; auto. split.
    - intros f v. rewrite ST. apply GEN; auto.
    - rewrite PL. split; auto.
  Qed.

  (** C43: which reader is used, as seen from the caller; the readers are arbitrary. *)
  Theorem C43_dispatch (xlsx csv mrs : string -> res (list (target V))) (file : string) :
    let r := load_target_list V xlsx csv mrs (Path file) in
    (splitext file <> ".xlsx" -> splitext file <> ".csv" -> r = Err OSError) /\
    (forall ts, r = Ok ts ->
       (splitext file = ".xlsx" /\ xlsx file = Ok ts) \/
       (splitext file = ".csv" /\ csv file = Ok ts /\ ts <> []) \/
       (splitext file = ".csv" /\ csv file = Ok [] /\ mrs file = Ok ts)) /\
    (splitext file = ".xlsx" -> forall ts, xlsx file = Ok ts -> r = Ok ts) /\
    (splitext file = ".csv" -> forall t ts, csv file = Ok (t :: ts) -> r = Ok (t :: ts)) /\
    (splitext file = ".csv" -> csv file = Ok [] -> forall ts, mrs file = Ok ts -> r = Ok ts).
  Proof.
    cbv zeta. unfold load_target_list. split; [|split; [|split; [|split]]].
    - intros N1 N2. destruct (String.eqb_spec (splitext file) ".xlsx"); [contradiction|].
      destruct (String.eqb_spec (splitext file) ".csv"); [contradiction|]. reflexivity.
    - intros ts. destruct (String.eqb_spec (splitext file) ".xlsx") as [E|N1].
      + destruct (xlsx file) as [x|[]]; try discriminate. intros [= ->]; auto.
      + destruct (String.eqb_spec (splitext file) ".csv") as [E|N2]; [|discriminate].
        destruct (csv file) as [[|t x]|e].
        * destruct (mrs file) as [x|[]]; try discriminate. intros [= ->]; auto.
        * intros [= <-]. right; left. repeat split; auto. discriminate.
        * destruct e; discriminate.
    - intros -> ts ->. reflexivity.
    - intros -> t ts ->. reflexivity.
    - intros -> -> ts ->. reflexivity.
  Qed.

  (** Errors of the reader: a KeyError raised while reading a supported file is reported as
      an unsupported format, a TypeError as a missing attribute of the path, others pass. *)
  Theorem C43_reader_errors (xlsx csv mrs : string -> res (list (target V))) (file : string) e :
    (splitext file = ".xlsx" /\ xlsx file = Err e) \/ (splitext file = ".csv" /\ csv file = Err e) \/
    (splitext file = ".csv" /\ csv file = Ok [] /\ mrs file = Err e) ->
    load_target_list V xlsx csv mrs (Path file)
    = Err (match e with KeyError => OSError | TypeError => AttributeError | _ => e end).
  Proof.
    unfold load_target_list. intros [[-> ->]|[[-> ->]|(-> & -> & ->)]]; cbn; destruct e; reflexivity.
  Qed.

  Theorem C43_qtable (xlsx csv mrs : string -> res (list (target V))) (t : qtable V) :
    load_target_list V xlsx csv mrs (Obj t) = load_qtable V t.
  Proof. reflexivity. Qed.

  (** The fallback is taken exactly for csv files without star columns or rows: a native list
      is never reinterpreted. *)
  Theorem C43_no_fallback_for_native_lists (t : table V) n ts :
    same_length n t -> n > 0 -> named "star" t <> [] -> load_csv V unit_ok t = Ok ts -> ts <> [].
  Proof.
    intros SL N NE H E. destruct (C42_csv_one_target_per_row t n ts SL NE H) as [L _]. rewrite E in L. cbn in L. lia.
  Qed.

  (** C58: searching a list *)
  Section Search.
    Variable matches : string -> string -> bool.
    Variable text : val V -> string.
    (** a text in lower case, without spaces and hyphens *)
    Definition squeezed (s : string) : string := py_lower (py_replace "-" "" (py_replace " " "" s)).
    Definition star_matches (q : string) (t : target V) : Prop :=
      exists v, sget "name" (star t) = Some v /\ matches (squeezed q) (squeezed (text v)) = true.
    Definition planet_matches (q : string) (t : target V) : Prop :=
      exists p v, planet t = Some p /\ sget "name" p = Some v /\ matches (squeezed q) (squeezed (text v)) = true.
    (** [sublist_of P l r]: [r] is [l] without the elements not satisfying [P] *)
    Inductive kept {A} (P : A -> Prop) : list A -> list A -> Prop :=
    | kept_nil : kept P [] []
    | kept_take a l r : P a -> kept P l r -> kept P (a :: l) (a :: r)
    | kept_drop a l r : ~ P a -> kept P l r -> kept P (a :: l) r.

    Theorem C58_search_returns_the_matches q ts r :
      search_target V matches text q ts = Ok r ->
      kept (fun t => star_matches q t \/ planet_matches q t) ts r.
    Proof.
      revert r. induction ts as [|t ts IH]; intros r; cbn.
      - intros [= <-]. constructor.
      - unfold field_name. destruct (sget "name" (star t)) as [sn|] eqn:S; cbn; [|discriminate].
        destruct (matches (compact q) (compact (text sn))) eqn:M; cbn.
        + destruct (search_target V matches text q ts) as [rest|]; cbn; [|discriminate].
          intros [= <-]. apply kept_take; auto. left. exists sn; auto.
        + destruct (planet t) as [p|] eqn:P; cbn; [|discriminate].
          destruct (sget "name" p) as [pn|] eqn:PN; cbn; [|discriminate].
          destruct (search_target V matches text q ts) as [rest|]; cbn; [|discriminate].
          intros [= <-]. destruct (matches (compact q) (compact (text pn))) eqn:M2.
          * apply kept_take; auto. right. exists p, pn; auto.
          * apply kept_drop; auto. intros [(v & V1 & V2)|(p' & v & V1 & V2 & V3)]; change squeezed with compact in *; congruence.
    Qed.

    (** It raises exactly when some target has no name to compare: in particular on any list
        of stars without planets one of which does not match. *)
    Theorem C58_star_only_lists_fail q ts t :
      In t ts -> planet t = None -> ~ star_matches q t ->
      exists e, search_target V matches text q ts = Err e.
    Proof.
      induction ts as [|t' ts IH]; intros I P N; [destruct I|]. cbn. unfold field_name.
      destruct I as [->|I].
      - destruct (sget "name" (star t)) as [sn|] eqn:S; cbn; [|eauto].
        destruct (matches (compact q) (compact (text sn))) eqn:M; cbn.
        + exfalso. apply N. exists sn; auto.
        + rewrite P. cbn. eauto.
      - destruct (IH I P N) as [e E]. rewrite E.
        destruct (sget "name" (star t')); cbn; [|eauto].
        destruct (matches _ _); cbn; [eauto|]. destruct (planet t') as [p|]; cbn; [|eauto].
        destruct (sget "name" p); cbn; eauto.
    Qed.
    Theorem C58_search_succeeds q ts :
      (forall t, In t ts -> sget "name" (star t) <> None /\
                 (star_matches q t \/ exists p, planet t = Some p /\ sget "name" p <> None)) ->
      exists r, search_target V matches text q ts = Ok r.
    Proof.
      induction ts as [|t ts IH]; intros H; cbn; [eauto|]. unfold field_name.
      destruct (H t (or_introl eq_refl)) as [H1 H2]. destruct (sget "name" (star t)) as [sn|] eqn:S; [|congruence]. cbn.
      destruct IH as [rest R]; [intros; apply H; right; auto|]. rewrite R.
      destruct (matches (compact q) (compact (text sn))) eqn:M; cbn; [eauto|].
      destruct H2 as [(v & V1 & V2)|(p & P & PN)]; [change squeezed with compact in *; congruence|]. rewrite P. cbn.
      destruct (sget "name" p); [|congruence]. cbn. eauto.
    Qed.
  End Search.
End P.
Print Assumptions C42_csv_one_target_per_row.
Print Assumptions C42_csv_well_formed_loads.
Print Assumptions C42_mrs_one_target_per_row.
Print Assumptions C42_mrs_headers.
Print Assumptions C42_qtable_one_target_per_row.
Print Assumptions C42_xlsx_one_target_per_row.
Print Assumptions C43_dispatch.
Print Assumptions C43_reader_errors.
Print Assumptions C43_qtable.
Print Assumptions C43_no_fallback_for_native_lists.
Print Assumptions C58_search_returns_the_matches.
Print Assumptions C58_star_only_lists_fail.
Print Assumptions C58_search_succeeds.

(** Concrete lists *)
Section Ex.
  Let ok (s : string) : bool := existsb (String.eqb s) ["K"; "R_sun"; "M_sun"; "day"].
  Let tab : table nat :=
    [("star name", [Txt "Sun"; Txt "Vega"]); ("star Teff [K]", [Num 57; Num 96]);
     ("planet name", [Txt "Earth"; Txt "Vb"]); ("planet P [day]", [Num 365; Num 2])].
  Let t0 : target nat :=
    {| id := 0; name := VCell (Txt "Earth"); star := [("name", VCell (Txt "Sun")); ("Teff", VQuant (Num 57) "K")];
       planet := Some [("name", VCell (Txt "Earth")); ("P", VQuant (Num 365) "day")] |}.
  Let t1 : target nat :=
    {| id := 1; name := VCell (Txt "Vb"); star := [("name", VCell (Txt "Vega")); ("Teff", VQuant (Num 96) "K")];
       planet := Some [("name", VCell (Txt "Vb")); ("P", VQuant (Num 2) "day")] |}.
  Example ex_csv : load_csv nat ok tab = Ok [t0; t1].
  Proof. reflexivity. Qed.
  Example ex_csv_hyp : same_length 2 tab /\ named "star" tab <> [] /\ csv_readable ok (named "planet" tab).
  Proof.
    split; [repeat constructor|split; [discriminate|]]. intros h cells I. cbn in I.
    destruct I as [[= <- <-]|[[= <- <-]|[]]]; (split; [eexists; reflexivity|]); cbn.
    - discriminate.
    - intros a b u [= <- <- <-]. split; auto. intros c [<-|[<-|[]]]; eauto.
  Qed.
  (** one bad planet unit silently drops every planet *)
  Example ex_csv_planets_dropped :
    load_csv nat ok [("star name", [Txt "Sun"; Txt "Vega"]); ("planet name", [Txt "Earth"; Txt "Vb"]);
                     ("planet P [days]", [Num 365; Num 2])]
    = Ok [{| id := 0; name := VCell (Txt "Sun"); star := [("name", VCell (Txt "Sun"))]; planet := None |};
          {| id := 1; name := VCell (Txt "Vega"); star := [("name", VCell (Txt "Vega"))]; planet := None |}].
  Proof. reflexivity. Qed.
  Example ex_mrs :
    load_mrs nat ok [("Star Name", [Txt "Sun"]); ("Star Mass [Ms]", [Num 1]); ("Star Mass Error [Ms]", [Num 0]);
                     ("Planet Name", [Txt "Earth"]); ("Planet Period [days]", [Num 365])]
    = Ok [{| id := 0; name := VCell (Txt "Earth"); star := [("name", VCell (Txt "Sun")); ("M", VQuant (Num 1) "M_sun")];
             planet := Some [("name", VCell (Txt "Earth")); ("P", VQuant (Num 365) "day")] |}].
  Proof. reflexivity. Qed.
  Example ex_mrs_not_native : load_csv nat ok [("Star Name", [Txt "Sun"]); ("Planet Name", [Txt "Earth"])] = Ok [].
  Proof. reflexivity. Qed.
  Example ex_search :
    search_target nat (fun a b => contains a b) (fun v => match v with VCell (Txt s) => s | _ => "" end) "V B" [t0; t1] = Ok [t1].
  Proof. reflexivity. Qed.
  Let col (k u : string) (c : cell nat) : string * string * list (cell nat) := (k, u, [c]).
  Let sh : sheet nat :=
    [col "" "" (Txt ""); col "Star" "" (Txt "Sun"); col "Teff" "[K]" (Num 57)]
    ++ repeat (col "x" "" (Num 0)) 5
    ++ [col "Planet" "" (Txt "Earth"); col "P" "[day]" (Num 365)] ++ repeat (col "y" "" (Num 0)) 10 ++ [col "N" "" (Num 3)].
  Example ex_xlsx : exists t, load_xlsx nat ok sh = Ok [t] /\ name t = VCell (Txt "Earth") /\
     sget "Teff" (star t) = Some (VQuant (Num 57) "K") /\
     exists p, planet t = Some p /\ sget "Nobs" p = Some (VCell (Num 3)) /\ sget "P" p = Some (VQuant (Num 365) "day").
  Proof. eexists. split; [reflexivity|]. repeat split; try reflexivity. eexists; repeat split; reflexivity. Qed.
  Example ex_dispatch : splitext "a/list.csv" = ".csv" /\ splitext "list.xlsx" = ".xlsx" /\ splitext "list" = "".
  Proof. repeat split; reflexivity. Qed.
End Ex.
