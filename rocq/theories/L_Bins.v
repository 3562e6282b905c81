(** Lemmas about spectral bins. *)
From Verif Require Import Base XR M_Signal M_Optics M_Light M_Bins S_Signal S_Optics S_Light S_Bins L_Signal L_Optics L_Light P_Signal.
From Coq Require Import Lia Sorted Permutation.
Open Scope list_scope.
Open Scope R_scope.

(** ** Edges and bins *)
Lemma last_cons {A} (x y : A) l : last (x :: l) y = last l x.
Proof. revert x y. induction l as [|z l IH]; intros x y; auto. change (last (z :: l) y = last (z :: l) x). now rewrite !IH. Qed.
Lemma between_cons a b e : between (a :: b :: e) = bin_at (0.5 * (a + b)) (b - a) :: between (b :: e).
Proof. reflexivity. Qed.
Lemma bin_between a b : left_edge (bin_at (0.5 * (a + b)) (b - a)) = a /\ right_edge (bin_at (0.5 * (a + b)) (b - a)) = b.
Proof. cbn. lra. Qed.
Lemma between_proper e : forall b, In b (between e) -> proper b.
Proof.
  induction e as [|a e IH]; [intros b []|]. destruct e as [|c e]; [intros b []|]. rewrite between_cons. intros b [<-|Hb]; [|now apply IH].
  split; cbn; lra.
Qed.
Lemma between_tiling e : forall a, increasing (a :: e) -> tiling a (between (a :: e)) (last e a).
Proof.
  induction e as [|b e IH]; intros a H; [constructor|]. rewrite between_cons. destruct (bin_between a b) as [Hl Hr].
  inversion H as [|? ? H1 H2]; subst. rewrite <- Hl at 1. constructor.
  - rewrite Hl, Hr. inversion H2; auto.
  - rewrite Hr. rewrite last_cons. now apply IH.
Qed.
Lemma between_length e : length (between e) = (length e - 1)%nat.
Proof. induction e as [|a e IH]; auto. destruct e; auto. rewrite between_cons. cbn [length] in *. rewrite IH. lia. Qed.
Lemma between_nth e : forall i, (S i < length e)%nat -> exists b, nth_error (between e) i = Some b /\ left_edge b = nth i e 0 /\ right_edge b = nth (S i) e 0.
Proof.
  induction e as [|a e IH]; intros i Hi; [cbn in Hi; lia|]. destruct e as [|b e]; [cbn in Hi; lia|]. rewrite between_cons. destruct i as [|i].
  - eexists. split; [reflexivity|]. cbn [nth]. apply bin_between.
  - cbn [nth_error]. apply IH. cbn in Hi |- *. lia.
Qed.
Lemma tiling_le a l c : tiling a l c -> a <= c.
Proof. induction 1; lra. Qed.
Lemma tiling_edges a l c : tiling a l c -> l <> [] -> edges_of l = map left_edge l ++ [c].
Proof.
  intros H Hn. unfold edges_of. f_equal. assert (Hr : exists b r, rev l = b :: r /\ right_edge b = c).
  { clear -H Hn. induction H as [|b l c H1 H2 IH]; [congruence|]. destruct l as [|b' l].
    - inversion H2; subst. exists b, []. auto.
    - destruct IH as (x & r & Hx & Hc); [discriminate|]. exists x, (r ++ [b]). split; auto. cbn [rev] in *. now rewrite Hx. }
  destruct Hr as (b & r & -> & ->). reflexivity.
Qed.
Lemma edges_of_cons x y l : edges_of (x :: y :: l) = left_edge x :: edges_of (y :: l).
Proof.
  unfold edges_of. change (rev (x :: y :: l)) with (rev (y :: l) ++ [x]). destruct (rev (y :: l)) as [|z r] eqn:E; [|reflexivity].
  apply (f_equal (@length bin)) in E. rewrite rev_length in E. discriminate.
Qed.
Lemma between_edges e : forall a b, edges_of (between (a :: b :: e)) = a :: b :: e.
Proof.
  induction e as [|c e IH]; intros a b.
  - unfold edges_of. cbn. replace (0.5 * (a + b) - 0.5 * (b - a)) with a by lra. replace (0.5 * (a + b) + 0.5 * (b - a)) with b by lra. reflexivity.
  - rewrite between_cons. specialize (IH b c). rewrite between_cons in *. rewrite edges_of_cons, IH. now rewrite (proj1 (bin_between a b)).
Qed.
(** ** Ceiling *)
Lemma Rceil_spec x : IZR (Rceil x) - 1 < x <= IZR (Rceil x).
Proof. unfold Rceil. rewrite opp_IZR. destruct (Rfloor_spec (- x)). lra. Qed.

(** ** Rounding *)
Lemma rint_spec x : Rabs (x - IZR (rint x)) <= 0.5.
Proof.
  unfold rint. destruct (Rfloor_spec x). destruct (Rlt_dec _ _); [apply Rabs_le; lra|]. destruct (Rlt_dec _ _); [rewrite plus_IZR; apply Rabs_le; lra|].
  destruct (Z.even _); [|rewrite plus_IZR]; apply Rabs_le; lra.
Qed.
Lemma round4_rounded x : rounded4 x (round4 x).
Proof.
  split; [exists (rint (x * 10 ^ 4)); unfold round4; f_equal; lra|]. unfold round4. pose proof (rint_spec (x * 10 ^ 4)) as H.
  apply Rabs_le. unfold Rabs in H. destruct (Rcase_abs _); cbn in *; lra.
Qed.
Lemma rint_ge x z : IZR z <= x -> (z <= rint x)%Z.
Proof.
  intros H. unfold rint. assert (z <= Rfloor x)%Z. { apply Z.lt_succ_r. apply lt_IZR. rewrite succ_IZR. destruct (Rfloor_spec x). lra. }
  destruct (Rlt_dec _ _); [lia|]. destruct (Rlt_dec _ _); [lia|]. destruct (Z.even _); lia.
Qed.
Lemma round4_ge x y : multiple4 y -> y <= x -> y <= round4 x.
Proof.
  intros [z ->] H. unfold round4. assert (z <= rint (x * 10 ^ 4))%Z by (apply rint_ge; cbn; lra). apply IZR_le in H0. set (k := IZR (rint (x * 10 ^ 4))) in *. lra.
Qed.
Lemma multiple4_step a b : multiple4 a -> multiple4 b -> a < b -> a + 0.0001 <= b.
Proof. intros [x ->] [y ->] H. assert (x < y)%Z by (apply lt_IZR; lra). assert (H1 : (x + 1 <= y)%Z) by lia. apply IZR_le in H1. rewrite plus_IZR in H1. lra. Qed.

(** ** The resolution table *)
Definition positive_rows (tab : list (R * R)) : Prop := forall p, In p tab -> 0 < snd p.
Lemma interp_within_read tab w r : increasing (wls tab) -> interp_within tab w = Ok r -> read_at tab w r.
Proof.
  intros Hi E. unfold interp_within in E. destruct tab as [|p l]; [discriminate|].
  destruct (Rltb w _ || Rltb _ w) eqn:Eo; [discriminate|]. apply orb_false_iff in Eo. destruct Eo as [E1 E2]. apply Rltb_false in E1, E2.
  assert (Hs : nondecreasing (wls (p :: l))) by now apply increasing_nondecreasing.
  rewrite sort_id in E by auto. pose proof (locate_spec w (p :: l) Hs) as Hl. unfold interp in E. destruct (locate w (p :: l)) as [[a [b|]]|].
  - destruct Hl as [Hn Hw]. left. exists a, b. split; auto. split; auto. assert (r = (snd b - snd a) / (fst b - fst a) * (w - fst a) + snd a) as -> by congruence. field. lra.
  - destruct Hl as (H1 & H2 & H3). right. exists a. split; auto. split; auto.
    destruct (rmax_spec (map fst l) (fst p)) as [_ Hm]. assert (fst a <= rmax (fst p) (map fst l)). { apply Hm. change (fst p :: map fst l) with (map fst (p :: l)). now apply in_map. }
    assert (Ha : rmax (fst p) (map fst l) <= fst a). { destruct (rmax_spec (map fst l) (fst p)) as [Hin _]. change (fst p :: map fst l) with (map fst (p :: l)) in Hin. apply in_map_iff in Hin. destruct Hin as (q & Hq & Hq'). rewrite <- Hq. now apply H3. }
    assert (Hw : w = fst a) by lra. split; auto. destruct (Rltb (fst a) w) eqn:Ew; [apply Rltb_true in Ew; lra|congruence].
  - exfalso. destruct (rmin_spec (map fst l) (fst p)) as [Hin _]. change (fst p :: map fst l) with (map fst (p :: l)) in Hin. apply in_map_iff in Hin. destruct Hin as (q & Hq & Hq'). specialize (Hl q Hq'). lra.
Qed.
Lemma rows_bounded tab : positive_rows tab -> exists lo hi, 0 < lo /\ forall p, In p tab -> lo <= snd p <= hi.
Proof.
  induction tab as [|p l IH]; intros H; [exists 1, 1; split; [lra|intros q []]|]. destruct IH as (lo & hi & Hlo & Hb); [intros q Hq; apply H; now right|].
  exists (Rmin lo (snd p)), (Rmax hi (snd p)). split; [apply Rmin_glb_lt; auto; apply H; now left|].
  intros q [<-|Hq]; [split; [apply Rmin_r|apply Rmax_r]|]. destruct (Hb q Hq). split; [eapply Rle_trans; [apply Rmin_l|]|eapply Rle_trans; [|apply Rmax_l]]; auto.
Qed.
Lemma read_at_bounds tab w r lo hi : read_at tab w r -> (forall p, In p tab -> lo <= snd p <= hi) -> lo <= r <= hi.
Proof.
  intros [(p & q & Hn & Hw & ->)|(p & Hp & _ & _ & ->)] Hb; [|now apply Hb]. apply neighbours_In in Hn.
  replace (snd p + (snd q - snd p) * (w - fst p) / (fst q - fst p)) with ((snd q - snd p) / (fst q - fst p) * (w - fst p) + snd p) by (field; lra).
  apply between_convex; try tauto; apply Hb; tauto.
Qed.
Lemma read_at_positive tab w r : read_at tab w r -> positive_rows tab -> 0 < r.
Proof. intros H Hp. destruct (rows_bounded _ Hp) as (lo & hi & Hlo & Hb). pose proof (read_at_bounds _ _ _ _ _ H Hb). lra. Qed.
Lemma next_edge_after tab w w' : increasing (wls tab) -> next_edge tab w = Ok w' -> edge_after tab w w'.
Proof.
  intros Hi E. unfold next_edge in E. destruct (interp_within tab w) as [r|] eqn:Er; [|discriminate]. cbn [bind] in E. destruct (Req_EM_T r 0); [discriminate|].
  exists r. split; [now apply interp_within_read|]. assert (w' = round4 (w + w / r)) as -> by congruence. apply round4_rounded.
Qed.
Lemma next_edge_step tab w w' : increasing (wls tab) -> positive_rows tab -> 0 <= w -> next_edge tab w = Ok w' ->
  multiple4 w' /\ 0 <= w' /\ (multiple4 w -> w' = w \/ w + 0.0001 <= w').
Proof.
  intros Hi Hp Hw E. pose proof E as E0. unfold next_edge in E. destruct (interp_within tab w) as [r|] eqn:Er; [|discriminate]. cbn [bind] in E. destruct (Req_EM_T r 0); [discriminate|].
  assert (w' = round4 (w + w / r)) as -> by congruence. apply interp_within_read in Er; auto. apply read_at_positive in Er; auto.
  assert (0 <= w / r) by (apply Rmult_le_pos; [auto|left; now apply Rinv_0_lt_compat]).
  assert (Hm : multiple4 (round4 (w + w / r))) by apply round4_rounded. split; auto. split.
  - apply round4_ge; [exists 0%Z; lra|lra].
  - intros Hmw. assert (w <= round4 (w + w / r)) by (apply round4_ge; auto; lra). destruct (Req_EM_T (round4 (w + w / r)) w) as [He|He]; auto. right. apply multiple4_step; auto. lra.
Qed.

(** ** The walk *)
Section Walk.
  Variables (src : list (R * R)) (top : R).
  Lemma walk_unfold fuel w : walk src top fuel w = if Rltb w top then
    match fuel with
    | O => None
    | S k => match next_edge src w with
             | Err e => Some (Err e)
             | Ok w' => match walk src top k w' with Some (Ok l) => Some (Ok (w' :: l)) | o => o end
             end
    end else Some (Ok []).
  Proof. destruct fuel; reflexivity. Qed.
  Lemma walk_more k : forall n w r, walk src top k w = Some r -> (k <= n)%nat -> walk src top n w = Some r.
  Proof.
    induction k as [|k IH]; intros n w r H Hn; rewrite walk_unfold in H |- *; destruct (Rltb w top); auto; [discriminate|].
    destruct n as [|n]; [lia|]. destruct (next_edge src w) as [w'|]; auto. destruct (walk src top k w') as [x|] eqn:E; [|discriminate].
    rewrite (IH n w' x E) by lia. exact H.
  Qed.
  Lemma walk_chain k : forall w l, walk src top k w = Some (Ok l) ->
    (forall a b, neighbours (w :: l) a b -> a < top /\ next_edge src a = Ok b) /\ top <= last l w.
  Proof.
    induction k as [|k IH]; intros w l H; rewrite walk_unfold in H; destruct (Rltb w top) eqn:E; try discriminate;
      [assert (l = []) as -> by congruence; split; [intros a b Hn; now apply neighbours_one in Hn|cbn; now apply Rltb_false] | |
       assert (l = []) as -> by congruence; split; [intros a b Hn; now apply neighbours_one in Hn|cbn; now apply Rltb_false]].
    apply Rltb_true in E. destruct (next_edge src w) as [w'|] eqn:En; [|discriminate]. destruct (walk src top k w') as [[l'|]|] eqn:Ew; try discriminate.
    assert (l = w' :: l') as -> by congruence. apply IH in Ew. destruct Ew as [H1 H2]. split.
    - intros a b Hn. apply neighbours_cons in Hn. destruct Hn as [[<- [l0 Hl]]|Hn]; [|now apply H1]. assert (b = w') as -> by congruence. auto.
    - now rewrite last_cons.
  Qed.
  Lemma walk_fixpoint w : w < top -> next_edge src w = Ok w -> forall k, walk src top k w = None.
  Proof.
    intros Hw E. induction k as [|k IH]; rewrite walk_unfold; (destruct (Rltb w top) eqn:Ew; [|apply Rltb_false in Ew; lra]); auto. now rewrite E, IH.
  Qed.
  Lemma walk_reach w w' : w < top -> next_edge src w = Ok w' -> (exists k r, walk src top k w = Some r) -> exists k r, walk src top k w' = Some r.
  Proof.
    intros Hw E (k & r & H). rewrite walk_unfold in H. destruct (Rltb w top) eqn:Ew; [|apply Rltb_false in Ew; lra].
    destruct k as [|k]; [discriminate|]. rewrite E in H. destruct (walk src top k w') as [x|] eqn:Ex; [|discriminate]. now exists k, x.
  Qed.
  Lemma reaches_terminates a w : reaches_edge (next_edge src) top a w -> (exists k r, walk src top k a = Some r) -> exists k r, walk src top k w = Some r.
  Proof. induction 1 as [|w w' H IH Hw E]; auto. intros Ht. eapply walk_reach; eauto. Qed.
  Lemma reaches_trans a b c : reaches_edge (next_edge src) top a b -> reaches_edge (next_edge src) top b c -> reaches_edge (next_edge src) top a c.
  Proof. intros H. induction 1; auto. eapply further; eauto. Qed.
  Hypothesis Hi : increasing (wls src).
  Hypothesis Hp : positive_rows src.
  Lemma walk_increasing k : forall w l, 0 <= w -> multiple4 w -> walk src top k w = Some (Ok l) -> increasing (w :: l).
  Proof.
    induction k as [|k IH]; intros w l Hw Hm H; pose proof H as H0; rewrite walk_unfold in H; destruct (Rltb w top) eqn:Ew; try discriminate; try (assert (l = []) as -> by congruence; repeat constructor).
    apply Rltb_true in Ew. destruct (next_edge src w) as [w'|] eqn:E; [|discriminate]. destruct (walk src top k w') as [[l'|]|] eqn:El; try discriminate.
    assert (l = w' :: l') as -> by congruence. destruct (next_edge_step _ _ _ Hi Hp Hw E) as (A & B & C). destruct (C Hm) as [->|D].
    - rewrite (walk_fixpoint w Ew E) in H0. discriminate.
    - specialize (IH w' l' B A El). constructor; auto. constructor; [lra|]. inversion IH as [|? ? _ HF]; subst. rewrite Forall_forall in *. intros x Hx. specialize (HF x Hx). lra.
  Qed.
  Lemma walk_ends_on_grid n : forall w, 0 <= w -> multiple4 w -> top - w <= INR n * 0.0001 ->
    (~ exists v, reaches_edge (next_edge src) top w v /\ v < top /\ next_edge src v = Ok v) -> exists k r, walk src top k w = Some r.
  Proof.
    induction n as [|n IH]; intros w Hw Hm Hn Hf.
    - exists 0%nat. rewrite walk_unfold. cbn in Hn. destruct (Rltb w top) eqn:Ew; [apply Rltb_true in Ew; lra|eauto].
    - destruct (Rlt_dec w top) as [Hlt|Hge].
      2:{ exists 0%nat. rewrite walk_unfold. destruct (Rltb w top) eqn:Ew; [apply Rltb_true in Ew; lra|eauto]. }
      assert (Ew : Rltb w top = true) by now apply Rltb_true.
      destruct (next_edge src w) as [w'|e] eqn:E.
      + destruct (next_edge_step _ _ _ Hi Hp Hw E) as (A & B & C). destruct (C Hm) as [->|D].
        * exfalso. apply Hf. exists w. split; [constructor|auto].
        * destruct (IH w' B A) as (k & r & Hk).
          -- rewrite S_INR in Hn. lra.
          -- intros (v & Hv & Hv'). apply Hf. exists v. split; auto. apply reaches_trans with w'; auto. eapply further; [constructor|auto|auto].
          -- exists (S k). rewrite walk_unfold, Ew, E, Hk. destruct r; eauto.
      + exists 1%nat. rewrite walk_unfold, Ew, E. eauto.
  Qed.
  Lemma walk_ends w : 0 <= w -> ((exists k r, walk src top k w = Some r) <-> ~ exists v, reaches_edge (next_edge src) top w v /\ v < top /\ next_edge src v = Ok v).
  Proof.
    intros Hw. split.
    - intros Ht (v & Hv & Hlt & E). apply (reaches_terminates w v Hv) in Ht. destruct Ht as (k & r & Hk). rewrite (walk_fixpoint v Hlt E) in Hk. discriminate.
    - intros Hf. destruct (Rlt_dec w top) as [Hlt|Hge].
      2:{ exists 0%nat. rewrite walk_unfold. destruct (Rltb w top) eqn:Ew; [apply Rltb_true in Ew; lra|eauto]. }
      assert (Ew : Rltb w top = true) by now apply Rltb_true.
      destruct (next_edge src w) as [w'|e] eqn:E; [|exists 1%nat; rewrite walk_unfold, Ew, E; eauto].
      destruct (next_edge_step _ _ _ Hi Hp Hw E) as (A & B & _).
      destruct (walk_ends_on_grid (Z.to_nat (up ((top - w') * 10000))) w' B A) as (k & r & Hk).
      + destruct (archimed ((top - w') * 10000)) as [H1 _]. destruct (Z.le_gt_cases 0 (up ((top - w') * 10000))) as [H0|H0].
        * rewrite INR_IZR_INZ, Z2Nat.id by auto. lra.
        * rewrite INR_IZR_INZ. destruct (up ((top - w') * 10000)) as [|z|z] eqn:Ez; try lia. apply (IZR_lt _ 0) in H0. cbn [Z.to_nat Z.of_nat]. lra.
      + intros (v & Hv & Hv'). apply Hf. exists v. split; auto. apply reaches_trans with w'; auto. eapply further; [constructor|auto|auto].
      + exists (S k). rewrite walk_unfold, Ew, E, Hk. destruct r; eauto.
  Qed.
End Walk.

(** ** Piecewise linear functions *)
Definition swap (p : R * R) : R * R := (snd p, fst p).
Notation xs l := (map (@fst R R) l).
Notation ys l := (map (@snd R R) l).
Lemma ext_two a b w : extrapolate [a; b] w = line a b w.
Proof. reflexivity. Qed.
Lemma ext_cons a b c r w : extrapolate (a :: b :: c :: r) w = if Rltb (fst b) w then extrapolate (b :: c :: r) w else line a b w.
Proof. reflexivity. Qed.
Lemma line_ends a b : fst a <> fst b -> line a b (fst a) = snd a /\ line a b (fst b) = snd b.
Proof. intros H. unfold line. split; [lra|]. field. lra. Qed.
Lemma line_increasing a b w w' : fst a < fst b -> snd a < snd b -> w < w' -> line a b w < line a b w'.
Proof.
  intros H1 H2 H3. unfold line. assert (0 < (snd b - snd a) / (fst b - fst a)) by (apply Rdiv_lt_0_compat; lra). nra.
Qed.
Lemma line_swap a b w : fst a < fst b -> snd a < snd b -> line (swap a) (swap b) (line a b w) = w.
Proof. intros. unfold line, swap. cbn. field. lra. Qed.
Lemma line_swap' a b w : fst a < fst b -> snd a < snd b -> line a b (line (swap a) (swap b) w) = w.
Proof. intros. unfold line, swap. cbn. field. lra. Qed.
Lemma increasing_two a b l : increasing (a :: b :: l) -> a < b /\ increasing (b :: l).
Proof. intros H. inversion H as [|? ? H1 H2]; subst. inversion H2; subst. auto. Qed.

Lemma ext_above r : forall a b, increasing (xs (a :: b :: r)) -> increasing (ys (a :: b :: r)) ->
  extrapolate (a :: b :: r) (fst a) = snd a /\ forall w, fst a < w -> snd a < extrapolate (a :: b :: r) w.
Proof.
  induction r as [|c r IH]; intros a b Hx Hy; cbn [map] in Hx, Hy; apply increasing_two in Hx as [X1 X2]; apply increasing_two in Hy as [Y1 Y2].
  - rewrite ext_two. destruct (line_ends a b) as [L1 L2]; [lra|]. split; auto. intros w Hw. rewrite ext_two, <- L1. now apply line_increasing.
  - destruct (IH b c X2 Y2) as [_ H2]. destruct (line_ends a b) as [L1 L2]; [lra|]. rewrite ext_cons. split.
    + destruct (Rltb (fst b) (fst a)) eqn:E; auto. apply Rltb_true in E. lra.
    + intros w Hw. rewrite ext_cons. destruct (Rltb (fst b) w) eqn:E; [apply Rltb_true in E; specialize (H2 w E); lra|]. rewrite <- L1 at 1. now apply line_increasing.
Qed.
Lemma ext_increasing r : forall a b w w', increasing (xs (a :: b :: r)) -> increasing (ys (a :: b :: r)) -> w < w' ->
  extrapolate (a :: b :: r) w < extrapolate (a :: b :: r) w'.
Proof.
  induction r as [|c r IH]; intros a b w w' Hx Hy Hw; pose proof Hx as Hx0; pose proof Hy as Hy0; cbn [map] in Hx, Hy; apply increasing_two in Hx as [X1 X2]; apply increasing_two in Hy as [Y1 Y2].
  - rewrite !ext_two. now apply line_increasing.
  - rewrite !ext_cons. destruct (Rltb (fst b) w) eqn:E; destruct (Rltb (fst b) w') eqn:E'; try apply Rltb_true in E; try apply Rltb_true in E'; try apply Rltb_false in E; try apply Rltb_false in E'.
    + now apply IH.
    + lra.
    + destruct (ext_above r b c X2 Y2) as [_ H]. specialize (H w' E'). destruct (line_ends a b) as [L1 L2]; [lra|].
      destruct (Rle_lt_or_eq_dec _ _ E) as [E1|E1]; [|subst w; lra]. pose proof (line_increasing a b w (fst b) X1 Y1 E1). lra.
    + now apply line_increasing.
Qed.
Lemma ext_inverse r : forall a b w, increasing (xs (a :: b :: r)) -> increasing (ys (a :: b :: r)) ->
  extrapolate (map swap (a :: b :: r)) (extrapolate (a :: b :: r) w) = w.
Proof.
  induction r as [|c r IH]; intros a b w Hx Hy; pose proof Hx as Hx0; pose proof Hy as Hy0; cbn [map] in Hx, Hy; apply increasing_two in Hx as [X1 X2]; apply increasing_two in Hy as [Y1 Y2].
  - apply line_swap; auto.
  - cbn [map]. rewrite !ext_cons. destruct (line_ends a b) as [L1 L2]; [lra|]. destruct (Rltb (fst b) w) eqn:E.
    + apply Rltb_true in E. destruct (ext_above r b c X2 Y2) as [_ H]. specialize (H w E). change (fst (swap b)) with (snd b).
      rewrite (proj2 (Rltb_true _ _) H). apply (IH b c w X2 Y2).
    + apply Rltb_false in E. assert (line a b w <= snd b). { destruct (Rle_lt_or_eq_dec _ _ E) as [E1|E1]; [|subst w; lra]. pose proof (line_increasing a b w (fst b) X1 Y1 E1). lra. }
      change (fst (swap b)) with (snd b). rewrite (proj2 (Rltb_false _ _) H). now apply line_swap.
Qed.
Lemma map_swap_swap l : map swap (map swap l) = l.
Proof. rewrite map_map. rewrite (map_ext _ (fun p => p)); [apply map_id|]. now intros [x y]. Qed.
Lemma xs_swap l : xs (map swap l) = ys l. Proof. rewrite map_map. reflexivity. Qed.
Lemma ys_swap l : ys (map swap l) = xs l. Proof. rewrite map_map. reflexivity. Qed.

(** mirror images *)
Definition neg_fst (p : R * R) : R * R := (- fst p, snd p).
Definition neg_snd (p : R * R) : R * R := (fst p, - snd p).
Lemma ext_neg_snd l w : extrapolate (map neg_snd l) w = - extrapolate l w.
Proof.
  induction l as [|a l IH]; [cbn; lra|]. destruct l as [|b l]; [cbn; lra|]. assert (Hl : line (neg_snd a) (neg_snd b) w = - line a b w) by (unfold line, neg_snd; cbn; lra).
  destruct l as [|c l]; [exact Hl|]. cbn [map]. rewrite !ext_cons. change (fst (neg_snd b)) with (fst b). destruct (Rltb (fst b) w); auto.
Qed.
Lemma sorted_snoc (T : R -> R -> Prop) l a : StronglySorted T (l ++ [a]) <-> StronglySorted T l /\ forall x, In x l -> T x a.
Proof.
  induction l as [|b l IH]; cbn.
  - split; [intros _; split; [constructor|intros x []]|intros _; repeat constructor].
  - split.
    + intros H. inversion H as [|? ? H1 H2]; subst. apply IH in H1. rewrite Forall_forall in H2. destruct H1 as [H1 H3]. split.
      * constructor; auto. rewrite Forall_forall. intros x Hx. apply H2. apply in_or_app. auto.
      * intros x [<-|Hx]; auto. apply H2. apply in_or_app. right. now left.
    + intros [H1 H2]. inversion H1 as [|? ? H3 H4]; subst. constructor; [apply IH; auto|]. rewrite Forall_forall in *. intros x Hx. apply in_app_or in Hx. destruct Hx as [Hx|[<-|[]]]; auto.
Qed.
Lemma ext_snoc l : forall a b w, l <> [] -> increasing (xs (l ++ [a; b])) -> extrapolate (l ++ [a; b]) w = if Rltb (fst a) w then line a b w else extrapolate (l ++ [a]) w.
Proof.
  induction l as [|c l IH]; intros a b w Hl Hi; [congruence|]. destruct l as [|d l].
  - reflexivity.
  - cbn [app]. destruct (l ++ [a; b]) as [|e r] eqn:E; [destruct l; discriminate|]. rewrite ext_cons. rewrite <- E.
    assert (Hi' : increasing (xs ((d :: l) ++ [a; b]))). { cbn [app map] in Hi |- *. now inversion Hi. }
    assert (Hd : fst d < fst a). { cbn [app map] in Hi'. inversion Hi' as [|? ? _ HF]; subst. rewrite Forall_forall in HF. apply HF. rewrite map_app. apply in_or_app. right. now left. }
    specialize (IH a b w ltac:(discriminate) Hi'). cbn [app] in IH. destruct (l ++ [a]) as [|e' r'] eqn:E'; [destruct l; discriminate|]. rewrite ext_cons, <- E', IH. rewrite <- E' in *.
    destruct (Rltb (fst d) w) eqn:D; auto. destruct (Rltb (fst a) w) eqn:A; auto. apply Rltb_true in A. apply Rltb_false in D. lra.
Qed.
Lemma rev_neg_increasing l : increasing l -> increasing (rev (map Ropp l)).
Proof.
  induction 1 as [|a l Hs IH Hf]; [constructor|]. cbn. apply sorted_snoc. split; auto. intros x Hx. apply in_rev in Hx. apply in_map_iff in Hx. destruct Hx as (y & <- & Hy).
  rewrite Forall_forall in Hf. specialize (Hf y Hy). lra.
Qed.
Lemma ext_mirror l : forall a b w, increasing (xs (a :: b :: l)) -> extrapolate (rev (map neg_fst (a :: b :: l))) (- w) = extrapolate (a :: b :: l) w.
Proof.
  induction l as [|c l IH]; intros a b w Hi; pose proof Hi as Hi0; cbn [map] in Hi; apply increasing_two in Hi as [X1 X2].
  - cbn [map rev app]. rewrite !ext_two. unfold line, neg_fst. cbn. field. lra.
  - assert (E : rev (map neg_fst (a :: b :: c :: l)) = rev (map neg_fst (c :: l)) ++ [neg_fst b; neg_fst a]) by (cbn; now rewrite <- !app_assoc).
    rewrite E, ext_snoc.
    + change (rev (map neg_fst (c :: l)) ++ [neg_fst b]) with (rev (map neg_fst (b :: c :: l))). rewrite (IH b c w X2). rewrite ext_cons. change (fst (neg_fst b)) with (- fst b).
      assert (Hl : line (neg_fst b) (neg_fst a) (- w) = line a b w) by (unfold line, neg_fst; cbn; field; lra).
      destruct (Rltb (- fst b) (- w)) eqn:A; destruct (Rltb (fst b) w) eqn:B; auto; try apply Rltb_true in A; try apply Rltb_true in B; try apply Rltb_false in A; try apply Rltb_false in B; try lra.
      assert (w = fst b) as -> by lra. cbn [map] in X2. apply increasing_two in X2 as [X3 X4]. destruct (line_ends a b) as [_ ->]; [lra|].
      destruct l as [|d l]; [rewrite ext_two|rewrite ext_cons; destruct (Rltb (fst c) (fst b)) eqn:C; [apply Rltb_true in C; lra|]]; apply line_ends; lra.
    + cbn. intros H. apply (f_equal (@length (R * R))) in H. rewrite app_length in H. cbn in H. lia.
    + rewrite <- E. rewrite map_rev, map_map. cbn [neg_fst fst]. rewrite <- (map_map fst Ropp). now apply rev_neg_increasing.
Qed.

(** sorting *)
Lemma insert_last {V} (p : R * V) l : (forall q, In q l -> fst q < fst p) -> insert p l = l ++ [p].
Proof.
  induction l as [|q l IH]; intros H; auto. cbn. rewrite (proj2 (Rltb_true _ _) (H q (or_introl eq_refl))). f_equal. apply IH. intros x Hx. apply H. now right.
Qed.
Lemma sort_rev {V} (l : list (R * V)) : increasing (map fst (rev l)) -> sort_src l = rev l.
Proof.
  induction l as [|a l IH]; intros H; auto. cbn [rev] in *. rewrite map_app in H. apply sorted_snoc in H. destruct H as [H1 H2]. cbn [sort_src fold_right]. fold (sort_src l). rewrite IH by auto.
  apply insert_last. intros q Hq. apply H2. now apply in_map.
Qed.
Lemma combine_xs (a b : list R) : length a = length b -> xs (combine a b) = a /\ ys (combine a b) = b.
Proof. revert b. induction a as [|x a IH]; intros [|y b] H; try discriminate; auto. cbn in *. destruct (IH b) as [-> ->]; auto. Qed.
Lemma combine_swap (a b : list R) : combine b a = map swap (combine a b).
Proof. revert b. induction a as [|x a IH]; intros [|y b]; cbn; auto. unfold swap at 1. cbn. now rewrite IH. Qed.

(** the two directions of a wavelength solution *)
Definition monotone (f : R -> R) : Prop := (forall x y, x < y -> f x < f y) \/ (forall x y, x < y -> f y < f x).
Lemma sort_up_or_down (P l : list (R * R)) : (P = l \/ P = rev l) -> increasing (xs l) -> sort_src P = l.
Proof.
  intros [-> | ->] H; [apply sort_id; now apply increasing_nondecreasing|]. rewrite <- (rev_involutive l) at 2. apply sort_rev. now rewrite rev_involutive.
Qed.
Lemma solution_functions s : dispersion s ->
  (forall w, wl_of s (x_of s w) = w) /\ (forall x, x_of s (wl_of s x) = x) /\ monotone (wl_of s).
Proof.
  intros (HL & H2 & Hm). set (P := combine (sol_x s) (sol_wl s)).
  assert (EP : xs P = sol_x s /\ ys P = sol_wl s) by (apply combine_xs; auto).
  assert (Hl : exists l, (P = l \/ P = rev l) /\ increasing (xs l) /\ (increasing (ys l) \/ increasing (rev (ys l)))).
  { destruct EP as [EX EY]. destruct Hm as [[A B]|[A B]].
    - exists P. rewrite EX, EY. auto.
    - exists (rev P). rewrite rev_involutive. split; auto. rewrite !map_rev, EX, EY, rev_involutive. split; auto. tauto. }
  destruct Hl as (l & HP & Hx & Hy).
  assert (E1 : sort_src P = l) by now apply sort_up_or_down.
  assert (Hlen : length l = length (sol_x s)). { apply (f_equal (@length R)) in EP as EPl || idtac. destruct EP as [EX _]. apply (f_equal (@length R)) in EX. rewrite map_length in EX. destruct HP as [-> | E]; [auto|]. rewrite <- EX, E, rev_length. auto. }
  destruct l as [|a [|b l]]; try (cbn in Hlen; lia).
  assert (W : forall w, wl_of s w = extrapolate (a :: b :: l) w) by (intros w; unfold wl_of, interpolator; fold P; now rewrite E1).
  assert (XP : forall l', (map swap P = l' \/ map swap P = rev l') -> increasing (xs l') -> forall w, x_of s w = extrapolate l' w).
  { intros l' H1 H3 w. unfold x_of, interpolator. rewrite combine_swap. fold P. now rewrite (sort_up_or_down _ l'). }
  destruct Hy as [Hy|Hy].
  - assert (X : forall w, x_of s w = extrapolate (map swap (a :: b :: l)) w).
    { apply XP; [|now rewrite xs_swap]. destruct HP as [-> | ->]; [now left|right; now rewrite map_rev]. }
    split; [|split].
    + intros w. rewrite W, X. rewrite <- (map_swap_swap (a :: b :: l)) at 1. apply (ext_inverse (map swap l) (swap a) (swap b)); [change (increasing (xs (map swap (a :: b :: l)))); now rewrite xs_swap|change (increasing (ys (map swap (a :: b :: l)))); now rewrite ys_swap].
    + intros x. rewrite W, X. now apply ext_inverse.
    + left. intros x y Hxy. rewrite !W. now apply ext_increasing.
  - set (l' := map neg_snd (a :: b :: l)).
    assert (Hx' : increasing (xs l')) by (unfold l'; rewrite map_map; exact Hx).
    assert (Hy' : increasing (ys l')). { unfold l'. rewrite map_map. cbn [neg_snd snd]. rewrite <- (map_map snd Ropp). rewrite <- (rev_involutive (ys (a :: b :: l))). rewrite map_rev. now apply rev_neg_increasing. }
    assert (W' : forall w, wl_of s w = - extrapolate l' w) by (intros w; unfold l'; rewrite W, ext_neg_snd; lra).
    assert (X : forall w, x_of s w = extrapolate (map swap l') (- w)).
    { intros w. rewrite (XP (rev (map swap (a :: b :: l)))).
      - change (map swap l') with (swap (neg_snd a) :: swap (neg_snd b) :: map swap (map neg_snd l)). rewrite <- (ext_mirror (map swap (map neg_snd l)) (swap (neg_snd a)) (swap (neg_snd b)) (- w)).
        + rewrite Ropp_involutive. f_equal. f_equal. change (map swap (a :: b :: l) = map neg_fst (map swap (map neg_snd (a :: b :: l)))). rewrite !map_map. apply map_ext. intros [x y]. unfold swap, neg_fst, neg_snd. cbn. now rewrite Ropp_involutive.
        + change (increasing (xs (map swap l'))). now rewrite xs_swap.
      - rewrite rev_involutive. destruct HP as [-> | ->]; [now right|left; now rewrite map_rev].
      - rewrite map_rev, xs_swap. auto. }
    split; [|split].
    + intros w. rewrite W', X. rewrite <- (map_swap_swap l') at 1. unfold l' at 1. cbn [map]. rewrite (ext_inverse (map swap (map neg_snd l)) (swap (neg_snd a)) (swap (neg_snd b))); [lra|change (increasing (xs (map swap l'))); now rewrite xs_swap|change (increasing (ys (map swap l'))); now rewrite ys_swap].
    + intros x. rewrite W', X, Ropp_involutive. apply ext_inverse; auto.
    + right. intros x y Hxy. rewrite !W'. pose proof (ext_increasing (map neg_snd l) (neg_snd a) (neg_snd b) x y Hx' Hy' Hxy) as H. change (neg_snd a :: neg_snd b :: map neg_snd l) with l' in H. lra.
Qed.
