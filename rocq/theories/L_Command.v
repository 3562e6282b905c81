(** Lemmas about the file system of a run. *)
From Verif Require Import Base M_Hdf5 M_Pipeline M_Command S_Command.
Open Scope list_scope.

Lemma path_eqb_spec p q : reflect (p = q) (path_eqb p q).
Proof.
  revert q. induction p as [|a p IH]; intros [|b q]; cbn; try (constructor; congruence).
  destruct (String.eqb_spec a b) as [->|N]; cbn; [|constructor; congruence].
  destruct (IH q) as [->|N]; constructor; congruence.
Qed.

Lemma parent_snoc d o : parent (d ++ [o]) = d.
Proof. apply removelast_last. Qed.
Lemma basename_snoc d o : basename (d ++ [o]) = o.
Proof. unfold basename. apply last_last. Qed.
Lemma snoc_cases (p : path) : p = [] \/ exists q x, p = q ++ [x].
Proof. induction p using rev_ind; eauto. Qed.
Lemma around_snoc p d x : p = d ++ [x] -> ~ around p d.
Proof. intros -> (q & E). apply (f_equal (@length _)) in E. rewrite !app_length in E. cbn in E. lia. Qed.
Lemma around_refl d : around d d.
Proof. exists []. apply app_nil_r. Qed.

Section FS.
  Context {B V P : Type}.
  Notation fs := (fs B V P).
  Implicit Types s : fs.

  Lemma put_same s p n : put s p n p = n.
  Proof. unfold put. destruct (path_eqb_spec p p); congruence. Qed.
  Lemma put_other s p n q : q <> p -> put s p n q = s q.
  Proof. unfold put. destruct (path_eqb_spec p q); congruence. Qed.
  Lemma put_id s p n q : s p = n -> put s p n q = s q.
  Proof. unfold put. destruct (path_eqb_spec p q); congruence. Qed.

  (** changes only at paths in [Q] *)
  Definition within (Q : path -> Prop) s s' : Prop := forall p, ~ Q p -> s' p = s p.
  Lemma within_refl Q s : within Q s s.
  Proof. intros p _. auto. Qed.
  Lemma within_trans Q s1 s2 s3 : within Q s1 s2 -> within Q s2 s3 -> within Q s1 s3.
  Proof. intros H1 H2 p NQ. rewrite H2, H1; auto. Qed.
  Lemma within_put (Q : path -> Prop) s p n : Q p -> within Q s (put s p n).
  Proof. intros HQ q NQ. apply put_other. congruence. Qed.
  Lemma within_andso {A C} (Q : path -> Prop) s (x : fs * res A) (k : fs -> A -> fs * res C) s' r :
    (forall s1 r1, x = (s1, r1) -> within Q s s1) ->
    (forall s1 a s2 r2, x = (s1, Ok a) -> k s1 a = (s2, r2) -> within Q s1 s2) ->
    andso x k = (s', r) -> within Q s s'.
  Proof.
    intros H1 H2. destruct x as [s1 [a|e]]; cbn.
    - intros K. eapply within_trans; [apply (H1 s1 (Ok a) eq_refl)|eapply H2; eauto].
    - intros [= <- <-]. eapply H1; eauto.
  Qed.

  Lemma within_store (Q : path -> Prop) s p f : Q p -> within Q s (store s p f).
  Proof. intros HQ. destruct f; cbn; [apply within_put; auto|apply within_refl]. Qed.

  Lemma within_images (Q : path -> Prop) d l : forall s, (forall x p, In (x, p) l -> Q (d ++ [x ++ ".png"]%string)) ->
    within Q s (save_images s (Some d) l).
  Proof.
    unfold save_images. induction l as [|[x p] l IH]; intros s H; cbn; [apply within_refl|].
    eapply within_trans; [|apply IH; intros; eapply H; right; eauto].
    apply within_put. eapply H. left. eauto.
  Qed.

  (** makedirs *)
  Lemma makedirs_spec ns : forall s ab s' r, makedirs s ab ns = (s', r) ->
    forall p, s' p = s p \/ (s p = None /\ s' p = Some Folder /\ exists q, q <> [] /\ p = ab ++ q /\ around p (ab ++ ns)).
  Proof.
    induction ns as [|n ns IH]; intros s ab s' r; cbn; [intros [= <- <-]; auto|].
    assert (AR : forall p, around p ((ab ++ [n]) ++ ns) -> around p (ab ++ n :: ns)) by (intros p; rewrite <- app_assoc; auto).
    destruct (s (ab ++ [n])) as [[|c]|] eqn:E.
    - intros H p. destruct (IH _ _ _ _ H p) as [|(E1 & E2 & q & Nq & -> & A)]; auto. right. split; auto. split; auto.
      exists (n :: q). split; [discriminate|]. split; [rewrite <- app_assoc; auto|apply AR; auto].
    - intros [= <- <-]; auto.
    - intros H p. destruct (IH _ _ _ _ H p) as [E1|(E1 & E2 & q & Nq & -> & A)].
      + unfold put in E1. destruct (path_eqb_spec (ab ++ [n]) p) as [EQ|N]; auto. subst p. right. split; auto. split; auto.
        exists [n]. split; [discriminate|]. split; auto. exists ns. rewrite <- app_assoc. auto.
      + right. rewrite put_other in E1. 2:{ intros X. apply (f_equal (@length _)) in X. rewrite !app_length in X. destruct q; [congruence|]. cbn in X. lia. }
        split; auto. split; auto. exists (n :: q). split; [discriminate|]. split; [rewrite <- app_assoc; auto|apply AR; auto].
  Qed.

  Lemma makedirs_made ns : forall s ab s', makedirs s ab ns = (s', Ok tt) -> s ab = Some Folder -> s' (ab ++ ns) = Some Folder.
  Proof.
    induction ns as [|n ns IH]; intros s ab s'; cbn; [rewrite app_nil_r; intros [= <-]; auto|].
    assert (AP : (ab ++ n :: ns) = (ab ++ [n]) ++ ns) by (rewrite <- app_assoc; auto). rewrite AP.
    destruct (s (ab ++ [n])) as [[|c]|] eqn:E; [eauto|discriminate|].
    intros H _. apply (IH _ _ _ H). apply put_same.
  Qed.

  Lemma makedirs_ok ns : forall s ab, (forall q c, around q ns -> s (ab ++ q) <> Some (File c)) ->
    s ab = Some Folder ->
    exists s', makedirs s ab ns = (s', Ok tt) /\ s' (ab ++ ns) = Some Folder.
  Proof.
    induction ns as [|n ns IH]; intros s ab NF F; cbn; [rewrite app_nil_r; eauto|].
    assert (AP : (ab ++ n :: ns) = (ab ++ [n]) ++ ns) by (rewrite <- app_assoc; auto). rewrite AP.
    destruct (s (ab ++ [n])) as [[|c]|] eqn:E.
    - apply IH; auto. intros q c (z & <-). rewrite <- app_assoc. apply NF. exists z. auto.
    - exfalso. apply (NF [n] c); auto. exists ns. auto.
    - apply IH; [|apply put_same]. intros q c (z & <-).
      unfold put. destruct (path_eqb_spec (ab ++ [n]) ((ab ++ [n]) ++ q)); [discriminate|].
      rewrite <- app_assoc. apply NF. exists z. auto.
  Qed.
End FS.
