(** Property theorems about exorad/utils/util.py (C44-C46). *)
From Verif Require Import Base PyStr M_Util S_Util L_Util.

(** C44: a comma-separated list of numerals and inclusive ranges denotes the concatenation of
    the listed integers. *)
Theorem C44_range_expression_lists_its_integers :
  forall (l : list item) (avail : Z), l <> [] -> Forall item_ok l ->
    parse_range (str_of (items_text l)) avail = Some (flat_map item_values l).
Proof. exact parse_range_items. Qed.
Print Assumptions C44_range_expression_lists_its_integers.

(** [interval a b] is what it should be. *)
Theorem C44_interval_is_inclusive :
  forall a b z, In z (interval a b) <-> (a <= z <= b)%Z.
Proof. exact interval_In. Qed.
Print Assumptions C44_interval_is_inclusive.

Theorem C44_all_and_none :
  forall inp avail,
    (py_strip inp = "all" -> parse_range inp avail = Some (interval 0 (avail - 1))) /\
    (py_strip inp = "none" -> parse_range inp avail = Some []).
Proof.
  intros inp avail; split; intros E; unfold parse_range; rewrite E; cbn; auto.
  f_equal. rewrite <- zrange_interval. f_equal. lia.
Qed.
Print Assumptions C44_all_and_none.

(** Any piece whose first dash-separated part, or second one when there is one, is not an
    integer literal makes the whole expression undefined - whatever the other pieces. *)
Theorem C44_malformed_piece_gives_nothing :
  forall inp avail a, py_strip inp <> "all" -> py_strip inp <> "none" ->
    In a (py_split ","%char inp) ->
    match py_split "-"%char a with
    | [w] => py_int w = None /\ py_int a = None
    | w0 :: w1 :: _ => py_int w0 = None \/ py_int w1 = None
    | [] => False
    end ->
    parse_range inp avail = None.
Proof.
  intros inp avail a N1 N2 I B. unfold parse_range.
  apply String.eqb_neq in N1, N2. rewrite N1, N2.
  eapply range_pieces_None; eauto. unfold range_piece.
  destruct (py_split "-"%char a) as [|w0 [|w1 ws]]; [tauto| |].
  - destruct B as [_ ->]; auto.
  - destruct B as [->| ->]; auto. destruct (py_int w0); auto.
Qed.
Print Assumptions C44_malformed_piece_gives_nothing.

(** What follows a second dash is ignored: not every malformed expression is rejected. *)
Theorem C44_malformed_is_always_rejected_refuted :
  parse_range "1-3-x" 9 = Some [1; 2; 3]%Z /\ parse_range "-4" 9 = None /\
  parse_range "0:2" 9 = None.
Proof. repeat split; vm_compute; reflexivity. Qed.
Print Assumptions C44_malformed_is_always_rejected_refuted.

Example C44_ex : exists l, l <> [] /\ Forall item_ok l /\
  str_of (items_text l) = "1, 12-14 ,7" /\ flat_map item_values l = [1; 12; 13; 14; 7]%Z.
Proof.
  exists [Single {| n_before := []; n_digits := ["1"]; n_after := [] |};
          Between {| n_before := [" "]; n_digits := ["1"; "2"]; n_after := [] |}
                  {| n_before := []; n_digits := ["1"; "4"]; n_after := [" "] |};
          Single {| n_before := []; n_digits := ["7"]; n_after := [] |}]%char.
  repeat split; try discriminate; try reflexivity.
  repeat constructor; cbn; try discriminate; reflexivity.
Qed.

(** C45 *)
Theorem C45_chunks_partition_the_list :
  forall (A : Type) (l : list A) n, (1 <= n)%Z ->
    exists cs, chunks l n = Ok cs /\
      concat cs = l /\ Forall (fun c => 0 < length c <= Z.to_nat n) cs /\
      (forall cs' c, cs = cs' ++ [c] -> Forall (fun x => length x = Z.to_nat n) cs').
Proof.
  intros A l n N. destruct (chunks l n) as [cs|e] eqn:E.
  - exists cs. split; auto. apply chunks_spec; auto.
  - unfold chunks in E. destruct (Z.eqb_spec n 0); [lia|]. destruct (Z.ltb_spec n 0); [lia|discriminate].
Qed.
Print Assumptions C45_chunks_partition_the_list.

Theorem C45_zero_chunk_size_raises :
  forall (A : Type) (l : list A), chunks l 0 = Err ValueError.
Proof. reflexivity. Qed.
Print Assumptions C45_zero_chunk_size_raises.

(** A negative size loses everything silently. *)
Theorem C45_negative_chunk_size_loses_everything :
  forall (A : Type) (l : list A) n, (n < 0)%Z -> chunks l n = Ok [].
Proof.
  intros A l n N. unfold chunks. destruct (Z.eqb_spec n 0); [lia|].
  destruct (Z.ltb_spec n 0); [auto|lia].
Qed.
Print Assumptions C45_negative_chunk_size_loses_everything.

Example C45_ex : chunks [1; 2; 3; 4; 5] 2 = Ok [[1; 2]; [3; 4]; [5]].
Proof. reflexivity. Qed.

(** C46: everything reachable through public names and dictionary keys is exported, at the
    same path (quantities as value/unit pairs)... *)
Theorem C46_public_data_is_exported :
  forall (V T : Type) (o o' w : obj V T) p q,
    reach o p o' -> exports o' q w -> reach (to_dict None o) (p ++ q) w.
Proof.
  intros V T o o' w p q R E. eapply reach_app; [apply to_dict_reach; eauto|apply to_dict_exports; auto].
Qed.
Print Assumptions C46_public_data_is_exported.

(** ... and nothing else is: every leaf of the result is such a datum. *)
Theorem C46_nothing_else_is_exported :
  forall (V T : Type) (o w : obj V T) p,
    leaf w -> reach (to_dict None o) p w ->
    exists p1 p2 o', reach o p1 o' /\ exports o' p2 w /\ p = p1 ++ p2.
Proof. intros V T o w p; apply to_dict_leaf. Qed.
Print Assumptions C46_nothing_else_is_exported.

(** Exporting an exported object changes nothing, unless it contains tables. *)
Theorem C46_idempotent_without_tables :
  forall (V T : Type) (o : obj V T), tables_free o = true ->
    to_dict None (to_dict None o) = to_dict None o.
Proof. intros V T o; apply to_dict_idem. Qed.
Print Assumptions C46_idempotent_without_tables.

Theorem C46_idempotent_with_tables_refuted :
  exists o : obj nat nat, to_dict None (to_dict None o) <> to_dict None o.
Proof. exists (QTab 0). discriminate. Qed.
Print Assumptions C46_idempotent_with_tables_refuted.

Definition star : obj nat nat :=
  Inst 0 [("T", (false, Quant 58 1)); ("_cache", (false, Plain 3)); ("name", (false, Plain 4));
          ("sed", (true, Plain 5)); ("opts", (false, Dict [("_k", Plain 6)]))].
Example C46_ex : to_dict None star =
  Dict [("T", Dict [("value", Plain 58); ("unit", Plain 1)]); ("opts", Dict [("_k", Plain 6)])]
  /\ tables_free star = true /\ reach star ["T"] (Quant 58 1).
Proof.
  repeat split. econstructor; [|constructor]. apply St_inst; [cbn; auto|].
  split; [discriminate|exact I].
Qed.
