(** Lemmas about str.find, slices and lower. *)
From Verif Require Import Base PyStr M_Version.
Open Scope list_scope.
Open Scope string_scope.

Lemma str_find_app c p s i : (forall a, In a (str_chars p) -> a <> c) ->
  str_find c (p ++ String c s) i = (i + Z.of_nat (String.length p))%Z.
Proof.
  revert i. induction p as [|a p IH]; intros i N; cbn [String.append str_find String.length].
  - rewrite Ascii.eqb_refl. lia.
  - destruct (Ascii.eqb_spec a c) as [->|D].
    + exfalso. apply (N c); [cbn; auto|reflexivity].
    + rewrite IH; [lia|]. intros b I. apply N. cbn; auto.
Qed.
Lemma substring_app p v s : String.substring (String.length p) (String.length v) (p ++ v ++ s) = v.
Proof.
  induction p as [|a p IH]; cbn; auto. induction v as [|b v IHv]; cbn; [destruct s; auto|].
  f_equal. destruct v; cbn in *; auto.
Qed.
Lemma length_app a b : String.length (a ++ b) = String.length a + String.length b.
Proof. induction a; cbn; auto. Qed.


Lemma slice_between p v s (a b : Z) : a = Z.of_nat (String.length p) ->
  b = Z.of_nat (String.length p + String.length v) -> str_slice a b (p ++ v ++ s) = v.
Proof.
  intros -> ->. unfold str_slice.
  assert (LN : String.length (p ++ v ++ s) = String.length p + (String.length v + String.length s)).
  { rewrite !length_app. reflexivity. }
  assert (C1 : clip (String.length (p ++ v ++ s)) (Z.of_nat (String.length p)) = String.length p).
  { unfold clip. destruct (Z.ltb_spec (Z.of_nat (String.length p)) 0); [lia|]. rewrite LN. lia. }
  assert (C2 : clip (String.length (p ++ v ++ s)) (Z.of_nat (String.length p + String.length v)) = String.length p + String.length v).
  { unfold clip. destruct (Z.ltb_spec (Z.of_nat (String.length p + String.length v)) 0); [lia|]. rewrite LN. lia. }
  rewrite C1, C2. replace (String.length p + String.length v - String.length p) with (String.length v) by lia.
  apply substring_app.
Qed.

Lemma py_lower_app a b : py_lower (a ++ b) = (py_lower a ++ py_lower b).
Proof. unfold py_lower. rewrite str_chars_app, map_app. apply str_chars_inj. rewrite str_chars_app.
  unfold str_of, str_chars. rewrite !list_ascii_of_string_of_list_ascii. reflexivity. Qed.
Lemma py_lower_chars s : str_chars (py_lower s) = map lower_c (str_chars s).
Proof. unfold py_lower, str_of, str_chars. apply list_ascii_of_string_of_list_ascii. Qed.
Lemma lower_c_bracket c : lower_c c = "["%char <-> c = "["%char.
Proof. destruct c as [[] [] [] [] [] [] [] []]; vm_compute; split; congruence. Qed.
