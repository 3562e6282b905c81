(** More facts about dictionaries built from lists of pairs. *)
From Verif Require Import Base.
Open Scope list_scope.

(** first occurrences, in order *)
Definition firsts {A} (eqb : A -> A -> bool) (l : list A) : list A :=
  fold_left (fun acc x => if existsb (eqb x) acc then acc else acc ++ [x]) l [].

Section Dicts.
  Context {K V : Type} (eqb : K -> K -> bool).
  Hypothesis eqb_spec : forall a b, eqb a b = true <-> a = b.

  Lemma dupdate_app (d e1 e2 : list (K * V)) :
    dupdate eqb d (e1 ++ e2) = dupdate eqb (dupdate eqb d e1) e2.
  Proof. unfold dupdate. apply fold_left_app. Qed.

  Lemma keys_dset k (v : V) d : map fst (dset eqb k v d)
    = if existsb (eqb k) (map fst d) then map fst d else map fst d ++ [k].
  Proof.
    induction d as [|[a b] d IH]; cbn; auto.
    destruct (eqb k a) eqn:E; cbn; auto. rewrite IH. destruct (existsb _ _); auto.
  Qed.

  Lemma keys_dof_list (e : list (K * V)) : map fst (dof_list eqb e) = firsts eqb (map fst e).
  Proof.
    unfold dof_list, dupdate, firsts. change (@nil K) with (map fst (@nil (K * V))) at 2.
    generalize (@nil (K * V)). induction e as [|[k v] e IH]; intros d; cbn; auto.
    rewrite IH, keys_dset. destruct (existsb _ _); auto.
  Qed.

  (** the last pair with a given key *)
  Lemma dget_rev_last k (v : V) l :
    dget eqb k (rev l) = Some v <->
    exists i, nth_error l i = Some (k, v) /\ forall j v', i < j -> nth_error l j <> Some (k, v').
  Proof.
    induction l as [|[a b] l IH] using rev_ind.
    - cbn. split; [discriminate|]. intros (i & H & _). destruct i; discriminate.
    - rewrite rev_app_distr. cbn. destruct (eqb k a) eqn:E.
      + apply eqb_spec in E; subst a. split.
        * intros [= ->]. exists (length l). split.
          -- rewrite nth_error_app2, Nat.sub_diag by lia. reflexivity.
          -- intros j v' L. rewrite nth_error_app2 by lia.
             destruct (j - length l) as [|m] eqn:D; [lia|]. cbn. destruct m; discriminate.
        * intros (i & H & N). destruct (Nat.lt_ge_cases i (length l)) as [L|L].
          -- exfalso. apply (N (length l) b L). rewrite nth_error_app2, Nat.sub_diag by lia. reflexivity.
          -- rewrite nth_error_app2 in H by lia. destruct (i - length l) as [|m]; cbn in H; [congruence|].
             destruct m; discriminate.
      + rewrite IH. split.
        * intros (i & H & N). exists i. assert (i < length l) by (apply nth_error_Some; congruence).
          split; [rewrite nth_error_app1; auto|].
          intros j v' L. destruct (Nat.lt_ge_cases j (length l)) as [L'|L'].
          -- rewrite nth_error_app1 by lia; auto.
          -- rewrite nth_error_app2 by lia. destruct (j - length l) as [|m]; cbn.
             ++ intros [= -> _]. rewrite (proj2 (eqb_spec k k)) in E; auto; discriminate.
             ++ destruct m; discriminate.
        * intros (i & H & N). destruct (Nat.lt_ge_cases i (length l)) as [L|L].
          -- rewrite nth_error_app1 in H by lia. exists i; split; auto. intros j v' L'.
             specialize (N j v' L'). intros C. apply N.
             assert (j < length l) by (apply nth_error_Some; congruence).
             rewrite nth_error_app1; auto.
          -- rewrite nth_error_app2 in H by lia. destruct (i - length l) as [|m]; cbn in H.
             ++ injection H as -> _. rewrite (proj2 (eqb_spec k k)) in E; auto; discriminate.
             ++ destruct m; discriminate.
  Qed.
  Lemma dget_dof_list k (v : V) l :
    dget eqb k (dof_list eqb l) = Some v <->
    exists i, nth_error l i = Some (k, v) /\ forall j v', i < j -> nth_error l j <> Some (k, v').
  Proof.
    unfold dof_list. rewrite (dget_dupdate eqb eqb_spec), <- dget_rev_last.
    destruct (dget eqb k (rev l)); cbn; tauto.
  Qed.
End Dicts.
