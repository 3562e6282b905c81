(** The processes of a parallel run (C129). *)
From Verif Require Import Base M_Mpi.
From Coq Require Import Arith List Lia.
Import ListNotations.
Open Scope list_scope.
Open Scope nat_scope.

(** ** What is asked of the processes *)
(** Each of the [n] processes calls with a list of at least [n] items, the root with [n]. *)
Definition well_called {A} (n root : nat) (args : list (option (list A))) : Prop :=
  length args = n /\
  (forall r d, nth_error args r = Some d -> exists l, d = Some l /\ n <= length l) /\
  exists l, nth_error args root = Some (Some l) /\ length l = n.
(** the call comes back with a result in every process *)
Definition all_return {A} (out : list (ended A)) : Prop := forall r e, nth_error out r = Some e -> exists a, e = Returns a.

(** ** Lemmas *)
Lemma sending_nth {A} n root (args : list (option (list A))) : forall r i, nth_error (sending n root r args) i = option_map (to_send n root (r + i)) (nth_error args i).
Proof.
  induction args as [|d args IH]; intros r [|i]; cbn [sending nth_error option_map]; auto; [now rewrite Nat.add_0_r|].
  rewrite IH. now replace (S r + i) with (r + S i) by lia.
Qed.
Lemma sending_length {A} n root (args : list (option (list A))) r : length (sending n root r args) = length args.
Proof. revert r. induction args as [|d args IH]; intros r; cbn; auto. Qed.
Lemma nth_error_all {A} (f : A -> bool) l : forallb f l = true <-> forall i a, nth_error l i = Some a -> f a = true.
Proof.
  rewrite forallb_forall. split; [intros H i a N; apply H; eapply nth_error_In; eauto|]. intros H a I. apply In_nth_error in I as (i & N). eauto.
Qed.
Lemma to_send_ok {A} n root r (d : option (list A)) l : to_send n root r d = Ok l <-> d = Some l /\ n <= length l /\ (r = root -> length l = n).
Proof.
  unfold to_send. destruct d as [l0|]; [|split; [discriminate|intros (X & _); discriminate]].
  destruct (Nat.ltb_spec (length l0) n); [split; [discriminate|intros (X & Y & _); injection X as ->; lia]|].
  destruct (Nat.eqb_spec r root) as [E|E], (Nat.eqb_spec (length l0) n) as [E'|E']; cbn; (split; [try discriminate; intros X; injection X as <-; repeat split; auto; try congruence; lia|intros (X & Y & Z); injection X as ->; try reflexivity; exfalso; auto]).
Qed.
Lemma collected_nth {A} root (all args : list A) : forall r i, i < length args -> nth_error (collected root r all args) i = Some (Returns (if r + i =? root then Some all else None)).
Proof.
  induction args as [|d args IH]; intros r [|i] L; cbn [collected nth_error length] in *; try lia; [now rewrite Nat.add_0_r|].
  rewrite IH by lia. now replace (S r + i) with (r + S i) by lia.
Qed.

(** ** C129 *)
(** When all processes call as they should, process [r] gets the item [r] of the list of the root, whatever
    the lists of the others hold, and gathering the items at any process gives that process the list. *)
Theorem C129_scatter_then_gather : forall A n root (args : list (option (list A))), well_called n root args ->
  exists l, nth_error args root = Some (Some l) /\ scatter (Some n) root args = map Returns l /\
    forall root' r, root' < n -> r < n -> nth_error (gather (Some n) root' l) r = Some (Returns (if r =? root' then Some l else None)).
Proof.
  intros A n root args (LA & ALL & l & NR & LL). exists l. split; [exact NR|]. split.
  - cbn [scatter]. unfold handed_out. assert (F : forallb is_ok (sending n root 0 args) = true).
    { apply nth_error_all. intros i a N. rewrite sending_nth in N. destruct (nth_error args i) as [d|] eqn:ND; [|discriminate]. cbn in N. injection N as <-. destruct (ALL i d ND) as (l0 & -> & G).
      assert (E : to_send n root i (Some l0) = Ok l0). { apply to_send_ok. split; auto. split; auto. intros ->. congruence. } now rewrite E. }
    rewrite F, sending_nth, NR. cbn [option_map]. replace (to_send n root (0 + root) (Some l)) with (@Ok (list A) l); auto. symmetry. apply to_send_ok. split; auto. split; [lia|auto].
  - intros root' r _ L. cbn [gather]. rewrite collected_nth by lia. reflexivity.
Qed.
Print Assumptions C129_scatter_then_gather.
(** Only then does a scatter come back in all of them. *)
Theorem C129_scatter_returns : forall A n root (args : list (option (list A))), length args = n -> root < n ->
  (all_return (scatter (Some n) root args) <-> well_called n root args).
Proof.
  intros A n root args LA LR. split.
  - intros AR. cbn [scatter] in AR. unfold handed_out in AR. destruct (forallb is_ok (sending n root 0 args)) eqn:F.
    + rewrite nth_error_all in F. assert (G : forall r d, nth_error args r = Some d -> exists l, d = Some l /\ n <= length l /\ (r = root -> length l = n)).
      { intros r d N. specialize (F r (to_send n root r d)). rewrite sending_nth, N in F. specialize (F eq_refl). destruct (to_send n root r d) as [l|] eqn:T; [|discriminate]. apply to_send_ok in T. eauto. }
      split; [exact LA|]. split; [intros r d N; destruct (G r d N) as (l & ? & ? & _); eauto|].
      destruct (nth_error args root) as [d|] eqn:N; [|apply nth_error_None in N; lia]. destruct (G root d N) as (l & -> & _ & X). eauto.
    + exfalso. assert (X : exists i a, nth_error (sending n root 0 args) i = Some a /\ is_ok a = false).
      { clear -F. induction (sending n root 0 args) as [|a s IH]; [discriminate|]. cbn in F. destruct (is_ok a) eqn:O; [|exists 0, a; auto]. destruct (IH F) as (i & b & N & B). now exists (S i), b. }
      destruct X as (i & a & N & O). specialize (AR i (match a with Ok _ => Waits | Err e => Raises e end)). rewrite nth_error_map, N in AR. destruct (AR eq_refl) as (b & B). destruct a; discriminate.
  - intros W. destruct (C129_scatter_then_gather A n root args W) as (l & _ & -> & _). intros r e N. rewrite nth_error_map in N. destruct (nth_error l r) as [a|]; [|discriminate]. injection N as <-. eauto.
Qed.
Print Assumptions C129_scatter_returns.
(** Too few items are refused, and so is None, in the process that passes them; too many are refused at
    the root. *)
Theorem C129_scatter_refuses : forall A n root (args : list (option (list A))) r d, nth_error args r = Some d ->
  (d = None -> nth_error (scatter (Some n) root args) r = Some (Raises TypeError)) /\
  (forall l, d = Some l -> length l < n -> nth_error (scatter (Some n) root args) r = Some (Raises ValueError)) /\
  (forall l, d = Some l -> r = root -> length l <> n -> nth_error (scatter (Some n) root args) r = Some (Raises ValueError)).
Proof.
  intros A n root args r d N. assert (X : forall e, to_send n root r d = Err e -> nth_error (scatter (Some n) root args) r = Some (Raises e)).
  { intros e T. cbn [scatter]. unfold handed_out. assert (NS : nth_error (sending n root 0 args) r = Some (Err e)) by (rewrite sending_nth, N; cbn; now rewrite T).
    destruct (forallb is_ok (sending n root 0 args)) eqn:F; [rewrite nth_error_all in F; specialize (F _ _ NS); discriminate|]. now rewrite nth_error_map, NS. }
  split; [|split]; intros; subst; apply X; unfold to_send; auto.
  - destruct (Nat.ltb_spec (length l) n); [reflexivity|lia].
  - destruct (Nat.ltb_spec (length l) n); [reflexivity|]. rewrite Nat.eqb_refl. destruct (Nat.eqb_spec (length l) n); [lia|reflexivity].
Qed.
Print Assumptions C129_scatter_refuses.
(** Without mpi4py there is one process, the first, and nothing can be scattered or gathered. *)
Theorem C129_without_mpi : forall A r root (args : list (option (list A))) (xs : list A),
  nprocs None = 1 /\ get_rank None r = 0 /\
  (forall i e, nth_error (scatter None root args) i = Some e -> e = Raises OtherError) /\ (forall i e, nth_error (gather None root xs) i = Some e -> e = Raises OtherError).
Proof.
  intros A r root args xs. split; [reflexivity|]. split; [reflexivity|]. cbn [scatter gather]. split; intros i e N; rewrite nth_error_map in N; [destruct (nth_error args i)|destruct (nth_error xs i)]; cbn in N; congruence.
Qed.
Print Assumptions C129_without_mpi.
(** Refuted: as with mpi4py itself, only the root need have the data, the others pass None. *)
Theorem C129_data_at_the_root_only_refuted : ~ forall A n root (l : list A) (args : list (option (list A))), length l = n -> length args = n ->
  nth_error args root = Some (Some l) -> all_return (scatter (Some n) root args).
Proof.
  intros H. specialize (H nat 2 0 [5; 6] [Some [5; 6]; None] eq_refl eq_refl eq_refl 1 (Raises TypeError) eq_refl). destruct H as (a & X). discriminate.
Qed.
Print Assumptions C129_data_at_the_root_only_refuted.
(** Refuted: any list with at least one item for each process can be scattered. *)
Theorem C129_enough_items_refuted : ~ forall A n root (l : list A) (args : list (option (list A))), n <= length l -> root < n -> args = repeat (Some l) n -> all_return (scatter (Some n) root args).
Proof.
  intros H. specialize (H nat 2 0 [5; 6; 7] _ ltac:(cbn; lia) ltac:(lia) eq_refl 0 (Raises ValueError) eq_refl). destruct H as (a & X). discriminate.
Qed.
Print Assumptions C129_enough_items_refuted.
(** Three processes, the second of which is the root *)
Example C129_ex : well_called 3 1 [Some [1; 2; 3; 4]; Some [7; 8; 9]; Some [0; 0; 0]] /\ scatter (Some 3) 1 [Some [1; 2; 3; 4]; Some [7; 8; 9]; Some [0; 0; 0]] = [Returns 7; Returns 8; Returns 9] /\
  gather (Some 3) 0 [7; 8; 9] = [Returns (Some [7; 8; 9]); Returns None; Returns None].
Proof.
  split; [|split; reflexivity]. split; [reflexivity|]. split; [|exists [7; 8; 9]; split; reflexivity].
  intros [|[|[|r]]] d N; cbn in N; try (injection N as <-; eexists; split; [reflexivity|cbn; lia]). destruct r; discriminate.
Qed.
(** nothing comes back where a process passes None: the others wait *)
Example C129_waits_ex : scatter (Some 2) 0 [Some [5; 6]; None] = [Waits; Raises TypeError].
Proof. reflexivity. Qed.
