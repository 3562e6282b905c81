(** Lemmas about target lists. *)
From Verif Require Import Base Dict PyStr M_Version M_TargetList S_TargetList.
Open Scope list_scope.

Section L.
  Context {V : Type} (unit_ok : string -> bool).
  Notation val := (val V). Notation cell := (cell V). Notation target := (target V).

  Lemma nth_error_combine {A B} (l : list A) (m : list B) i a b :
    nth_error (combine l m) i = Some (a, b) <-> nth_error l i = Some a /\ nth_error m i = Some b.
  Proof.
    revert m i. induction l as [|x l IH]; intros [|y m] [|i]; cbn; try (split; [discriminate|intros [? ?]; discriminate]).
    - split; [intros [= -> ->]; auto|intros [[= ->] [= ->]]; auto].
    - apply IH.
  Qed.

  Lemma zip_dict_get keys (r : list val) f v : length keys = length r ->
    sget f (zip_dict V keys r) = Some v <->
    exists j, nth_error keys j = Some f /\ nth_error r j = Some v /\
      forall j', j < j' -> nth_error keys j' <> Some f.
  Proof.
    intros L. unfold zip_dict. rewrite (dget_dof_list _ String_eqb_spec). split.
    - intros (j & E & N). apply nth_error_combine in E as [E1 E2]. exists j. repeat split; auto.
      intros j' LT C. destruct (nth_error r j') as [v'|] eqn:R.
      + apply (N j' v' LT). apply nth_error_combine; auto.
      + apply nth_error_None in R. assert (j' < length keys) by (apply nth_error_Some; congruence). lia.
    - intros (j & E1 & E2 & N). exists j. split; [apply nth_error_combine; auto|].
      intros j' v' LT C. apply nth_error_combine in C as [C _]. apply (N j' LT C).
  Qed.

  Lemma mapM_nth {A B} (f : A -> res B) l bs i b : mapM f l = Ok bs -> nth_error bs i = Some b ->
    exists a, nth_error l i = Some a /\ f a = Ok b.
  Proof.
    intros H. apply mapM_Ok_Forall2 in H. revert i. induction H; intros [|i]; cbn; try discriminate.
    - intros [= <-]. eauto.
    - apply IHForall2.
  Qed.
  Lemma mapM_nth' {A B} (f : A -> res B) l bs i a : mapM f l = Ok bs -> nth_error l i = Some a ->
    exists b, nth_error bs i = Some b /\ f a = Ok b.
  Proof.
    intros H. apply mapM_Ok_Forall2 in H. revert i. induction H; intros [|i]; cbn; try discriminate.
    - intros [= <-]. eauto.
    - apply IHForall2.
  Qed.
  Lemma nth_error_seq n i : i < n -> nth_error (seq 0 n) i = Some i.
  Proof.
    intros L. rewrite (nth_error_nth' _ 0) by (rewrite seq_length; auto). f_equal. apply seq_nth; auto.
  Qed.
  Lemma numbered_nth {A} (l : list A) i x : nth_error l i = Some x -> nth_error (numbered l) i = Some (i, x).
  Proof.
    intros H. apply nth_error_combine. split; auto. apply nth_error_seq. apply nth_error_Some; congruence.
  Qed.
  Lemma numbered_length {A} (l : list A) : length (numbered l) = length l.
  Proof. unfold numbered. rewrite combine_length, seq_length. lia. Qed.

  (** create_target_list, both ways *)
  Lemma create_stars skeys sdata P ts : (forall k p0 pd, P <> Ok (k, p0 :: pd)) ->
    create_target_list V (Ok (skeys, sdata)) P = Ok ts ->
    length ts = length sdata /\
    forall i t, nth_error ts i = Some t ->
      id t = i /\ planet t = None /\ field_name V (star t) = Ok (name t) /\
      exists r, nth_error sdata i = Some r /\ star t = zip_dict V skeys r.
  Proof.
    intros NP H.
    assert (E : mapM (fun x : nat * list val => let '(i, s) := x in
                let* n := field_name V (zip_dict V skeys s) in
                Ok {| id := i; name := n; star := zip_dict V skeys s; planet := None |}) (numbered sdata) = Ok ts).
    { destruct P as [[k [|p0 pd]]|e]; auto. exfalso; eapply NP; eauto. }
    clear H. split.
    - apply mapM_Ok_length in E. rewrite numbered_length in E; auto.
    - intros i t T. destruct (mapM_nth _ _ _ _ _ E T) as ([j s] & N & F).
      destruct (nth_error sdata i) as [r|] eqn:R.
      + rewrite (numbered_nth _ _ _ R) in N. injection N as <- <-.
        destruct (field_name V (zip_dict V skeys r)) as [n|] eqn:FN; cbn in F; [|discriminate].
        injection F as <-. cbn. repeat split; auto. exists r; auto.
      + exfalso. apply nth_error_None in R.
        assert (i < length (numbered sdata)) by (apply nth_error_Some; congruence).
        rewrite numbered_length in *. lia.
  Qed.

  Lemma create_both skeys sdata pkeys pdata ts : pdata <> [] -> length pdata = length sdata ->
    create_target_list V (Ok (skeys, sdata)) (Ok (pkeys, pdata)) = Ok ts ->
    length ts = length sdata /\
    forall i t, nth_error ts i = Some t ->
      id t = i /\ 
      exists r p, nth_error sdata i = Some r /\ star t = zip_dict V skeys r /\
        nth_error pdata i = Some p /\ planet t = Some (zip_dict V pkeys p) /\
        field_name V (zip_dict V pkeys p) = Ok (name t).
  Proof.
    intros NE LEN H.
    assert (E : mapM (fun x : nat * (list val * list val) => let '(i, (s, p)) := x in
                let* n := field_name V (zip_dict V pkeys p) in
                Ok {| id := i; name := n; star := zip_dict V skeys s; planet := Some (zip_dict V pkeys p) |})
                (numbered (combine sdata pdata)) = Ok ts).
    { destruct pdata as [|p0 pd]; [congruence|]. exact H. }
    clear H. split.
    - apply mapM_Ok_length in E. rewrite numbered_length, combine_length in E. lia.
    - intros i t T. destruct (mapM_nth _ _ _ _ _ E T) as ([j [s p]] & N & F).
      destruct (nth_error (combine sdata pdata) i) as [[r p']|] eqn:R.
      + rewrite (numbered_nth _ _ _ R) in N. injection N as <- <- <-.
        apply nth_error_combine in R as [R1 R2].
        destruct (field_name V (zip_dict V pkeys p')) as [n|] eqn:FN; cbn in F; [|discriminate].
        injection F as <-. cbn. repeat split; auto. exists r, p'; auto.
      + exfalso. apply nth_error_None in R.
        assert (i < length (numbered (combine sdata pdata))) by (apply nth_error_Some; congruence).
        rewrite numbered_length in *. lia.
  Qed.

  (** Data read row by row *)
  Definition row_spec {C} (value : string -> C -> val -> Prop) (cols : list (string * list C))
             (i : nat) (r : list val) : Prop :=
    length r = length cols /\
    forall j h cells c, nth_error cols j = Some (h, cells) -> nth_error cells i = Some c ->
      exists v, nth_error r j = Some v /\ value h c v.

  Lemma fields_of_row {C} (key : string -> string -> Prop) (keyf : string -> res string)
        (value : string -> C -> val -> Prop)
        (cols : list (string * list C)) n i keys r f v :
    (forall h k, keyf h = Ok k <-> key h k) ->
    (forall h c v v', value h c v -> value h c v' -> v = v') ->
    same_length n cols -> i < n ->
    mapM (fun c => keyf (fst c)) cols = Ok keys -> row_spec value cols i r ->
    sget f (zip_dict V keys r) = Some v <-> comes_from key value cols i f v.
  Proof.
    intros KS VF SL LI MK [LR RS]. pose proof (mapM_Ok_length _ _ _ MK) as LK.
    rewrite zip_dict_get by lia. unfold comes_from. split.
    - intros (j & K & R & N). destruct (mapM_nth _ _ _ _ _ MK K) as ([h cells] & EC & EK). cbn in EK.
      assert (LC : length cells = n).
      { unfold same_length in SL. rewrite Forall_forall in SL. apply (SL (h, cells)). eapply nth_error_In; eauto. }
      destruct (nth_error cells i) as [c|] eqn:C1; [|apply nth_error_None in C1; lia].
      exists j, h, cells, c. split; auto. split; [apply KS; auto|]. split; auto.
      destruct (RS _ _ _ _ EC C1) as (v' & RV & VV). split; [congruence|].
      intros j' h' cells' LT E' K'. destruct (mapM_nth' _ _ _ _ _ MK E') as (k' & E2 & E3). cbn in E3.
      apply (N j' LT). apply KS in K'. congruence.
    - intros (j & h & cells & c & EC & K & C1 & VV & N).
      destruct (mapM_nth' _ _ _ _ _ MK EC) as (k' & E2 & E3). cbn in E3.
      exists j. apply KS in K. split; [congruence|]. destruct (RS _ _ _ _ EC C1) as (v' & RV & VV').
      split; [rewrite RV; f_equal; eapply VF; eauto|].
      intros j' LT E'. destruct (mapM_nth _ _ _ _ _ MK E') as ([h2 cells2] & EC2 & EK2). cbn in EK2.
      apply (N j' h2 cells2 LT EC2). apply KS; auto.
  Qed.

  Lemma row_nth {A} (d : A) cols i j (h : string) cells :
    nth_error cols j = Some (h, cells) -> nth_error (row d (map snd cols) i) j = Some (nth i cells d).
  Proof. intros H. unfold row. rewrite nth_error_map, nth_error_map, H. reflexivity. Qed.

  (** csv and mrs *)
  Definition gen_data (unitf : string -> res (option string)) (fix_ : cell -> cell)
             (cols : table V) : res (list (list val)) :=
    let* units := mapM (fun c => unitf (fst c)) cols in
    mapM (fun i => mapM (fun cu : cell * option string => times V unit_ok (fix_ (fst cu)) (snd cu))
                        (combine (row (Txt "") (map snd cols) i) units))
         (seq 0 (n_rows V cols)).
  Lemma gen_data_spec unitf fix_ cols n data :
    same_length n cols -> gen_data unitf fix_ cols = Ok data ->
    length data = (if cols then 0 else n) /\
    forall i r, nth_error data i = Some r ->
      row_spec (fun h c v => exists u, unitf h = Ok u /\ times V unit_ok (fix_ c) u = Ok v) cols i r.
  Proof.
    intros SL H. unfold gen_data in H.
    destruct (mapM (fun c => unitf (fst c)) cols) as [units|] eqn:MU; cbn in H; [|discriminate].
    assert (NR : n_rows V cols = if cols then 0 else n).
    { destruct cols as [|[h c] cols]; auto. cbn. inversion SL; auto. }
    split.
    - apply mapM_Ok_length in H. rewrite seq_length in H. congruence.
    - intros i r R. destruct (mapM_nth _ _ _ _ _ H R) as (i' & S & F).
      assert (LI : i < n_rows V cols).
      { assert (i < length (seq 0 (n_rows V cols))) by (apply nth_error_Some; congruence).
        rewrite seq_length in *; auto. }
      rewrite nth_error_seq in S by auto. injection S as <-.
      pose proof (mapM_Ok_length _ _ _ MU) as LU. split.
      + apply mapM_Ok_length in F. rewrite combine_length in F. unfold row in F. rewrite !map_length in F. lia.
      + intros j h cells c EC C1. destruct (mapM_nth' _ _ _ _ _ MU EC) as (u & EU & FU). cbn in FU.
        assert (ER : nth_error (combine (row (Txt "") (map snd cols) i) units) j = Some (c, u)).
        { apply nth_error_combine. split; auto. rewrite (row_nth _ _ _ _ _ _ EC). f_equal.
          apply nth_error_nth; auto. }
        destruct (mapM_nth' _ _ _ _ _ F ER) as (v & EV & TV). cbn in TV. exists v; eauto.
  Qed.

  Lemma same_length_filter {C} n p (cols : list (string * list C)) : same_length n cols -> same_length n (filter p cols).
  Proof.
    unfold same_length. rewrite !Forall_forall. intros H x I. apply filter_In in I as [I _]; auto.
  Qed.

  Lemma row_spec_impl {C} (v1 v2 : string -> C -> val -> Prop) cols i r :
    (forall h c v, v1 h c v -> v2 h c v) -> row_spec v1 cols i r -> row_spec v2 cols i r.
  Proof. intros H [L R]. split; auto. intros j h cells c E1 E2. destruct (R _ _ _ _ E1 E2) as (v & ? & ?); eauto. Qed.

  Lemma csv_value_times h (c : cell) v :
    (exists u, csv_unit unit_ok h = Ok u /\ times V unit_ok c u = Ok v) -> csv_value h c v.
  Proof.
    intros (u & U & T). unfold csv_unit in U. unfold csv_value. destruct (py_split " " h) as [|a [|b [|w [|]]]].
    1,2,3,5: injection U as <-; cbn in T; congruence.
    unfold mk_unit in U. destruct (unit_ok (strip_unit w)); cbn in U; [|discriminate].
    injection U as <-. cbn in T. destruct c as [s|n]; [destruct (unit_ok s); congruence|congruence].
  Qed.
  Lemma csv_value_fun h (c : cell) v v' : csv_value h c v -> csv_value h c v' -> v = v'.
  Proof. unfold csv_value. destruct (py_split " " h) as [|a [|b [|w [|]]]]; congruence. Qed.

  Lemma csv_key_of_word2 h f : word2 h = Ok f <-> csv_key_of h f.
  Proof.
    unfold word2, csv_key_of. destruct (nth_error _ 1); split; try congruence.
  Qed.

  Lemma replace_go_id c l skip : (skip = 0 -> True) -> occurs_in [c] l = false -> skip = 0 ->
    replace_go [c] ["."%char] l skip = l.
  Proof.
    intros _. revert skip. induction l as [|a l IH]; intros skip H ->; auto.
    cbn [occurs_in] in H. apply orb_false_iff in H as [H1 H2]. cbn [replace_go]. rewrite H1.
    f_equal. apply IH; auto.
  Qed.
  Lemma mrs_cell_eq (c : cell) : mrs_cell V c = match c with Txt s => Txt (py_replace "," "." s) | Num _ => c end.
  Proof.
    destruct c as [s|v]; auto. unfold mrs_cell. destruct (contains "," s) eqn:E; auto.
    unfold py_replace, replace_l. f_equal. unfold contains in E.
    change (str_chars ",") with [","%char] in *. change (str_chars ".") with ["."%char].
    rewrite replace_go_id; auto. unfold str_of, str_chars. symmetry. apply string_of_list_ascii_of_string.
  Qed.
  Lemma mrs_value_times h (c : cell) v :
    (exists u, mrs_unit unit_ok h = Ok u /\ times V unit_ok (mrs_cell V c) u = Ok v) -> mrs_value h c v.
  Proof.
    intros (u & U & T). unfold mrs_unit in U. unfold mrs_value. rewrite <- mrs_cell_eq.
    destruct (contains "[" h).
    - unfold mk_unit in U. destruct (unit_ok _); cbn in U; [|discriminate]. injection U as <-.
      cbn in T. destruct (mrs_cell V c) as [s|n]; [destruct (unit_ok s); congruence|congruence].
    - injection U as <-. cbn in T. congruence.
  Qed.
  Lemma mrs_value_fun h (c : cell) v v' : mrs_value h c v -> mrs_value h c v' -> v = v'.
  Proof. unfold mrs_value. destruct (contains "[" h); congruence. Qed.

  Lemma q_data_spec w (t : qtable V) n data : same_length n t -> q_data V w t = Ok data ->
    length data = (if named w t then 0 else n) /\
    forall i r, nth_error data i = Some r -> row_spec q_value (named w t) i r.
  Proof.
    intros SL H. unfold q_data in H. change (q_cols V w t) with (named w t) in H.
    pose proof (same_length_filter n (fun c => contains w (fst c)) t SL) as SL'.
    fold (named w t) in SL'. set (cols := named w t) in *.
    assert (NR : q_rows V cols = if cols then 0 else n).
    { destruct cols as [|[h c] cols0]; auto. cbn. inversion SL'; auto. }
    split.
    - apply mapM_Ok_length in H. rewrite seq_length in H. congruence.
    - intros i r R. destruct (mapM_nth _ _ _ _ _ H R) as (i' & S & F).
      assert (LI : i < q_rows V cols).
      { assert (i < length (seq 0 (q_rows V cols))) by (apply nth_error_Some; congruence).
        rewrite seq_length in *; auto. }
      rewrite nth_error_seq in S by auto. injection S as <-. split.
      + apply mapM_Ok_length in F. unfold row in F. rewrite !map_length in F. lia.
      + intros j h cells c EC C1.
        pose proof (row_nth (VCell (Txt "")) cols i j h cells EC) as ER.
        rewrite (nth_error_nth cells i (VCell (Txt "")) C1) in ER.
        destruct (mapM_nth' _ _ _ _ _ F ER) as (v & EV & TV). exists v; split; auto.
        unfold q_value. destruct c as [[s|x]|x u]; cbn in TV; congruence.
  Qed.

  (** Putting together: any format made of keys and rows *)
  Lemma load_spec {C} (key : string -> string -> Prop) (keyf : string -> res string)
        (value : string -> C -> val -> Prop) (sc pc : list (string * list C)) n
        (datas datap : res (list (list val))) ts :
    (forall h k, keyf h = Ok k <-> key h k) ->
    (forall h c v v', value h c v -> value h c v' -> v = v') ->
    same_length n sc -> same_length n pc -> sc <> [] ->
    (forall d, datas = Ok d -> length d = (if sc then 0 else n) /\
        forall i r, nth_error d i = Some r -> row_spec value sc i r) ->
    (forall d, datap = Ok d -> length d = (if pc then 0 else n) /\
        forall i r, nth_error d i = Some r -> row_spec value pc i r) ->
    create_target_list V (both (mapM (fun c => keyf (fst c)) sc) datas)
                         (both (mapM (fun c => keyf (fst c)) pc) datap) = Ok ts ->
    length ts = n /\
    forall i t, nth_error ts i = Some t ->
      id t = i /\ (forall f v, sget f (star t) = Some v <-> comes_from key value sc i f v) /\
      match planet t with
      | Some p => pc <> [] /\ (forall f v, sget f p = Some v <-> comes_from key value pc i f v) /\
                  sget "name" p = Some (name t)
      | None => sget "name" (star t) = Some (name t) /\
                (pc = [] \/ exists e, both (mapM (fun c => keyf (fst c)) pc) datap = Err e)
      end.
  Proof.
    intros KS VF SS SP NE HS HP H.
    assert (NM : forall d v, field_name V d = Ok v -> sget "name" d = Some v).
    { intros d v. unfold field_name. destruct (sget "name" d); congruence. }
    destruct (mapM (fun c => keyf (fst c)) sc) as [sk|] eqn:MS; [|discriminate].
    destruct datas as [sd|]; [|discriminate]. cbn [both bind] in H.
    destruct (HS _ eq_refl) as [LS RS].
    assert (LS' : length sd = n) by (destruct sc; congruence). clear LS.
    assert (STAR : (forall k p0 pd, both (mapM (fun c => keyf (fst c)) pc) datap <> Ok (k, p0 :: pd)) ->
      (n > 0 -> pc = [] \/ exists e, both (mapM (fun c => keyf (fst c)) pc) datap = Err e) ->
      length ts = n /\
    forall i t, nth_error ts i = Some t ->
      id t = i /\ (forall f v, sget f (star t) = Some v <-> comes_from key value sc i f v) /\
      match planet t with
      | Some p => pc <> [] /\ (forall f v, sget f p = Some v <-> comes_from key value pc i f v) /\
                  sget "name" p = Some (name t)
      | None => sget "name" (star t) = Some (name t) /\
                (pc = [] \/ exists e, both (mapM (fun c => keyf (fst c)) pc) datap = Err e)
      end).
    { intros NP WHY. destruct (create_stars _ _ _ _ NP H) as [L F]. split; [congruence|]. intros i t T.
      destruct (F i t T) as (ID & PN & N & r & R & ST). split; auto.
      assert (LI : i < n). { rewrite <- LS'. apply nth_error_Some. congruence. }
      split.
      - intros f v. rewrite ST. eapply fields_of_row; eauto.
      - rewrite PN. split; auto. apply WHY. lia. }
    destruct (both (mapM (fun c => keyf (fst c)) pc) datap) as [[pk pd]|e] eqn:B.
    2: { apply STAR; [discriminate|eauto]. }
    destruct (mapM (fun c => keyf (fst c)) pc) as [pk'|] eqn:MP; [|discriminate].
    destruct datap as [pd'|]; [|discriminate]. cbn in B. injection B as -> ->.
    destruct (HP _ eq_refl) as [LP RP].
    destruct pd as [|p0 pd0] eqn:EPD.
    { apply STAR; [discriminate|]. intros N0. left. destruct pc; auto. cbn in LP. lia. }
    rewrite <- EPD in *. clear STAR.
    assert (PNE : pd <> []) by congruence.
    assert (LPN : length pd = length sd). { destruct pc; [cbn in LP; subst; discriminate|congruence]. }
    destruct (create_both _ _ _ _ _ PNE LPN H) as [L F]. split; [congruence|]. intros i t T.
    destruct (F i t T) as (ID & r & p & R & ST & P & PL & N).
    assert (LI : i < n). { rewrite <- LS'. apply nth_error_Some. congruence. }
    split; auto. split.
    - intros f v. rewrite ST. eapply fields_of_row; eauto.
    - rewrite PL. split; [intros ->; cbn in LP; subst; discriminate|]. split; auto.
      intros f v. eapply fields_of_row; eauto.
  Qed.

  Lemma mapM_Err_inv {A B} (f : A -> res B) l e : mapM f l = Err e -> exists a, In a l /\ f a = Err e.
  Proof.
    induction l as [|a l IH]; cbn; [discriminate|]. destruct (f a) as [b|e'] eqn:F; cbn.
    - destruct (mapM f l); cbn; [discriminate|]. intros [= ->]. destruct (IH eq_refl) as (x & ? & ?); eauto.
    - intros [= ->]. eauto.
  Qed.
  Lemma mapM_total {A B} (f : A -> res B) l :
    (forall i x, nth_error l i = Some x -> exists y, f x = Ok y) -> exists ys, mapM f l = Ok ys.
  Proof.
    intros H. destruct (mapM f l) as [ys|e] eqn:E; [eauto|].
    apply mapM_Err_inv in E as (x & IN & W). apply In_nth_error in IN as [i IN].
    destruct (H _ _ IN) as [y Y]. congruence.
  Qed.
  Lemma same_length_named {C} n w (t : list (string * list C)) : same_length n t -> same_length n (named w t).
  Proof. apply same_length_filter. Qed.

  (** cells of a row that exists are cells of the column *)
  Lemma cell_of_row {C} n (cols : list (string * list C)) k h cells (d : C) : same_length n cols -> k < n ->
    In (h, cells) cols -> In (nth k cells d) cells.
  Proof.
    intros SL K I. apply nth_In. unfold same_length in SL. rewrite Forall_forall in SL. pose proof (SL _ I) as E. cbn in E. lia.
  Qed.
  Lemma n_rows_le n (cols : table V) k : same_length n cols -> In k (seq 0 (n_rows V cols)) -> k < n.
  Proof.
    intros SL I. apply in_seq in I. destruct cols as [|[h c] cols]; cbn in I; [lia|]. inversion SL; subst. cbn in *. lia.
  Qed.

  Lemma readable_ok n w (t : table V) : same_length n t -> csv_readable unit_ok (named w t) ->
    exists ks d, both (csv_keys V w t) (csv_data V unit_ok w t) = Ok (ks, d).
  Proof.
    intros SL RD. unfold csv_keys. change (csv_cols V w t) with (named w t).
    destruct (mapM (fun c => word2 (fst c)) (named w t)) as [ks|e1] eqn:MK.
    2: { apply mapM_Err_inv in MK as ([h cells] & IN & W). cbn in W.
         destruct (RD _ _ IN) as [[f K] _]. apply csv_key_of_word2 in K. congruence. }
    exists ks. cbn. unfold csv_data. change (csv_cols V w t) with (named w t).
    destruct (mapM (fun c => csv_unit unit_ok (fst c)) (named w t)) as [us|e3] eqn:MU.
    2: { apply mapM_Err_inv in MU as ([h cells] & IN & W). cbn in W.
         destruct (RD _ _ IN) as [_ U]. unfold csv_unit in W.
         destruct (py_split " " h) as [|a [|b [|w' [|]]]] eqn:PS; try discriminate.
         destruct (U _ _ _ eq_refl) as [UO _]. unfold mk_unit in W. rewrite UO in W. discriminate. }
    cbn. match goal with |- context [mapM ?f ?l] => destruct (mapM f l) as [d|e] eqn:D end; [exists d; auto|exfalso].
    apply mapM_Err_inv in D as (k & IN & W). apply mapM_Err_inv in W as ([c uu] & IC & T).
    cbn in T. destruct uu as [uu|]; [|discriminate]. destruct c as [s|x0]; [|discriminate].
    apply In_nth_error in IC as [j IC]. apply nth_error_combine in IC as [R U].
    destruct (mapM_nth _ _ _ _ _ MU U) as ([h cells] & EC & CU). cbn in CU.
    rewrite (row_nth _ _ _ _ _ _ EC) in R. injection R as R.
    assert (IN2 : In (h, cells) (named w t)) by (eapply nth_error_In; eauto).
    destruct (RD _ _ IN2) as [_ U2]. unfold csv_unit in CU.
    destruct (py_split " " h) as [|a [|b [|w' [|]]]] eqn:PS; try discriminate.
    destruct (U2 _ _ _ eq_refl) as [_ NUM].
    pose proof (same_length_named n w t SL) as SL'.
    destruct (NUM (nth k cells (Txt ""))) as [x1 X1]; [|congruence].
    eapply cell_of_row; eauto. eapply n_rows_le; eauto.
  Qed.

  Lemma csv_data_len n w (t : table V) d : same_length n t -> csv_data V unit_ok w t = Ok d ->
    length d = (if named w t then 0 else n) /\
    forall i r, nth_error d i = Some r -> row_spec csv_value (named w t) i r.
  Proof.
    intros SL D. destruct (gen_data_spec (csv_unit unit_ok) (fun c => c) (named w t) n d) as [L R]; auto.
    { apply same_length_named; auto. }
    split; auto. intros i r I. eapply row_spec_impl; [|apply R, I]. apply csv_value_times.
  Qed.

  Lemma firsts_In (l : list string) x : In x l -> In x (firsts String.eqb l).
  Proof.
    intros I. apply in_map with (f := fun x => (x, tt)) in I.
    pose proof (keys_dof_list String.eqb (map (fun x => (x, tt)) l)) as K.
    rewrite map_map, map_id in K. rewrite <- K.
    apply (dupdate_In_keys _ String_eqb_spec). right. rewrite map_map, map_id.
    apply in_map_iff in I as (y & [= ->] & I); auto.
  Qed.
  Lemma map_fst_combine {A B} (l : list A) (m : list B) : length l = length m -> map fst (combine l m) = l.
  Proof. revert m; induction l; intros [|]; cbn; try discriminate; auto. intros [= H]. f_equal; auto. Qed.

  Lemma has_name n w (t : table V) ks d r i : same_length n t ->
    both (csv_keys V w t) (csv_data V unit_ok w t) = Ok (ks, d) ->
    (exists h cells, In (h, cells) (named w t) /\ csv_key_of h "name") ->
    nth_error d i = Some r -> exists v, field_name V (zip_dict V ks r) = Ok v.
  Proof.
    intros SL B (h & cells & IN & K) R. unfold csv_keys in B. change (csv_cols V w t) with (named w t) in B.
    destruct (mapM (fun c => word2 (fst c)) (named w t)) as [ks'|] eqn:MK; [|discriminate].
    destruct (csv_data V unit_ok w t) as [d'|] eqn:D; [|discriminate]. cbn in B. injection B as -> ->.
    destruct (csv_data_len n w t d SL D) as [LD RD]. destruct (RD _ _ R) as [LR _].
    unfold field_name. destruct (sget "name" (zip_dict V ks r)) as [v|] eqn:G; [eauto|exfalso].
    assert (INK : In "name" ks).
    { apply In_nth_error in IN as [j IN]. destruct (mapM_nth' _ _ _ _ _ MK IN) as (k & KN & KW).
      cbn in KW. apply csv_key_of_word2 in K. rewrite K in KW. injection KW as <-. eapply nth_error_In; eauto. }
    assert (LKS : length ks = length r). { rewrite LR. rewrite (mapM_Ok_length _ _ _ MK). auto. }
    unfold zip_dict in G. apply (dget_None_notIn _ String_eqb_spec) in G. apply G.
    rewrite keys_dof_list, map_fst_combine by auto. apply firsts_In; auto.
  Qed.

  (** Spreadsheets *)
  Lemma xlsx_times_cell u (c : cell) v : xlsx_times V (xlsx_unit unit_ok u) c = Ok v -> v = xlsx_cell unit_ok u c.
  Proof.
    unfold xlsx_unit, xlsx_cell. destruct (String.eqb u ""); cbn; [congruence|].
    destruct (unit_ok (strip_unit u)); cbn; [|congruence]. destruct c; congruence.
  Qed.
  Lemma mapM_eq {A B} (f : A -> res B) (g : A -> B) l ys : (forall a b, f a = Ok b -> b = g a) ->
    mapM f l = Ok ys -> ys = map g l.
  Proof.
    intros H E. apply mapM_Ok_Forall2 in E. induction E; cbn; auto. f_equal; auto.
  Qed.
  Lemma parse_data_spec a b s d : parse_data V unit_ok (slice_cols V a b s) = Ok d ->
    d = dof_list String.eqb (xlsx_columns unit_ok a b s) /\ xlsx_columns unit_ok a b s <> [].
  Proof.
    unfold parse_data, slice_cols, xlsx_columns.
    destruct (firstn (b + 1 - a) (skipn a s)) as [|[[k0 u0] d0] s']; [discriminate|].
    match goal with |- context [mapM ?f ?l] => destruct (mapM f l) as [cols|e] eqn:E end; cbn [bind]; [|discriminate].
    intros [= <-]. split; [|discriminate]. f_equal. eapply mapM_eq; [|exact E].
    intros [[k u] dd] y. cbn. destruct (mapM (xlsx_times V (xlsx_unit unit_ok u)) dd) as [vs|] eqn:M; cbn; [|discriminate].
    intros [= <-]. f_equal. eapply mapM_eq; [|exact M]. apply xlsx_times_cell.
  Qed.

  Lemma zip_row_get (d : list (string * list val)) i f v dflt : NoDup (map fst d) ->
    sget f (zip_dict V (map fst d) (row dflt (map snd d) i)) = Some v <->
    exists cs, sget f d = Some cs /\ v = nth i cs dflt.
  Proof.
    intros ND. unfold zip_dict.
    assert (E : combine (map fst d) (row dflt (map snd d) i) = map (fun x => (fst x, nth i (snd x) dflt)) d).
    { unfold row. clear ND. induction d as [|[k c] d IH]; cbn; auto. f_equal; auto. }
    rewrite E. rewrite (dof_list_distinct _ String_eqb_spec) by (rewrite map_map; exact ND).
    clear E ND. induction d as [|[k c] d IH]; cbn.
    - split; [discriminate|intros (? & ? & _); discriminate].
    - destruct (String.eqb f k); [|apply IH]. split; [intros [= <-]; eauto|intros (cs & [= <-] & ->); auto].
  Qed.
  Lemma dof_list_NoDup {W} (e : list (string * W)) : NoDup (map fst (dof_list String.eqb e)).
  Proof. apply (dupdate_NoDup _ String_eqb_spec). constructor. Qed.

  Lemma column_get (cols : list (string * list val)) n i f v dflt : same_length n cols -> i < n ->
    (exists cs, sget f (dof_list String.eqb cols) = Some cs /\ v = nth i cs dflt) <->
    comes_from is_key q_value cols i f v.
  Proof.
    intros SL LI. unfold comes_from, is_key, q_value. split.
    - intros (cs & G & ->). apply (dget_dof_list _ String_eqb_spec) in G as (j & N & L).
      exists j, f, cs, (nth i cs dflt). repeat split; auto.
      + apply nth_error_nth'. unfold same_length in SL. rewrite Forall_forall in SL.
        pose proof (SL _ (nth_error_In _ _ N)) as E. cbn in E. lia.
      + intros j' h' cells' LT N' ->. apply (L j' cells' LT N').
    - intros (j & h & cells & c & N & -> & C & -> & L). exists cells. split.
      + apply (dget_dof_list _ String_eqb_spec). exists j. split; auto. intros j' cs' LT N'. apply (L j' f cs' LT N' eq_refl).
      + symmetry. apply nth_error_nth; auto.
  Qed.

  Lemma dof_list_same_length n (cols : list (string * list val)) : same_length n cols ->
    same_length n (dof_list String.eqb cols).
  Proof.
    unfold same_length. rewrite !Forall_forall. intros H [k c] I.
    assert (G : sget k (dof_list String.eqb cols) = Some c).
    { apply (NoDup_In_dget _ String_eqb_spec); auto. apply dof_list_NoDup. }
    apply (dget_dof_list _ String_eqb_spec) in G as (j & N & _). apply (H (k, c)). eapply nth_error_In; eauto.
  Qed.
  Lemma transpose_spec n (d : list (string * list val)) : same_length n d -> d <> [] ->
    transpose V (map snd d) = map (row (VCell (Txt "")) (map snd d)) (seq 0 n).
  Proof.
    intros SL NE. destruct d as [|[k c] d]; [congruence|]. cbn [map snd transpose]. f_equal. f_equal.
    inversion SL as [|x l Hc Hd]; subst. cbn in *. clear SL NE.
    induction Hd as [|[k' c'] d' E Hd IH]; auto. cbn in *. rewrite IH. rewrite E. apply Nat.min_id.
  Qed.
  Lemma dof_list_nil_iff {W} (e : list (string * W)) : e <> [] -> dof_list String.eqb e <> [].
  Proof.
    intros NE E. destruct e as [|[k w] e]; [congruence|].
    assert (I : In k (map fst (dof_list String.eqb ((k, w) :: e)))).
    { apply (dupdate_In_keys _ String_eqb_spec). right. cbn; auto. }
    rewrite E in I. destruct I.
  Qed.
End L.
