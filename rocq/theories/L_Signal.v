(** Lemmas about signals and rebinning. *)
From Verif Require Import Base XR M_Signal S_Signal.
From Coq Require Import Sorted Lia.
Open Scope list_scope.
Open Scope R_scope.

(** ** Small decisions *)
Lemma Rltb_true a b : Rltb a b = true <-> a < b.
Proof. unfold Rltb. destruct (Rlt_dec a b); split; intros; auto; try discriminate; contradiction. Qed.
Lemma Rltb_false a b : Rltb a b = false <-> b <= a.
Proof. unfold Rltb. destruct (Rlt_dec a b); split; intros; auto; try discriminate; lra. Qed.

Lemma rmin_spec l : forall a, In (rmin a l) (a :: l) /\ forall y, In y (a :: l) -> rmin a l <= y.
Proof.
  induction l as [|x l IH]; intros a; cbn [rmin].
  - split; [now left|]. intros y [<-|[]]. lra.
  - destruct (IH (Rmin a x)) as [H1 H2]. split.
    + destruct H1 as [H1|H1]; [|now right; right].
      rewrite <- H1. unfold Rmin. destruct (Rle_dec a x); [now left|now right; left].
    + intros y [<-|[<-|Hy]].
      * eapply Rle_trans; [apply H2; now left|apply Rmin_l].
      * eapply Rle_trans; [apply H2; now left|apply Rmin_r].
      * apply H2. now right.
Qed.
Lemma rmax_spec l : forall a, In (rmax a l) (a :: l) /\ forall y, In y (a :: l) -> y <= rmax a l.
Proof.
  induction l as [|x l IH]; intros a; cbn [rmax].
  - split; [now left|]. intros y [<-|[]]. lra.
  - destruct (IH (Rmax a x)) as [H1 H2]. split.
    + destruct H1 as [H1|H1]; [|now right; right].
      rewrite <- H1. unfold Rmax. destruct (Rle_dec a x); [now right; left|now left].
    + intros y [<-|[<-|Hy]].
      * eapply Rle_trans; [apply Rmax_l|apply H2; now left].
      * eapply Rle_trans; [apply Rmax_r|apply H2; now left].
      * apply H2. now right.
Qed.
Lemma rmin_least a l : least (rmin a l) (a :: l). Proof. apply rmin_spec. Qed.
Lemma rmax_greatest a l : greatest (rmax a l) (a :: l). Proof. apply rmax_spec. Qed.
Lemma least_unique m m' l : least m l -> least m' l -> m = m'.
Proof. intros [H1 H2] [H3 H4]. apply Rle_antisym; auto. Qed.
Lemma greatest_unique m m' l : greatest m l -> greatest m' l -> m = m'.
Proof. intros [H1 H2] [H3 H4]. apply Rle_antisym; auto. Qed.
Lemma rmin_ge a l c : c <= rmin a l <-> forall y, In y (a :: l) -> c <= y.
Proof.
  destruct (rmin_spec l a) as [H1 H2]. split; intros H.
  - intros y Hy. eapply Rle_trans; eauto.
  - auto.
Qed.
Lemma rmin_gt a l c : c < rmin a l <-> forall y, In y (a :: l) -> c < y.
Proof.
  destruct (rmin_spec l a) as [H1 H2]. split; intros H.
  - intros y Hy. eapply Rlt_le_trans; eauto.
  - auto.
Qed.
Lemma rmax_lt a l c : rmax a l < c <-> forall y, In y (a :: l) -> y < c.
Proof.
  destruct (rmax_spec l a) as [H1 H2]. split; intros H.
  - intros y Hy. eapply Rle_lt_trans; eauto.
  - auto.
Qed.

(** ** Neighbours and differences *)
Lemma neighbours_cons {A} (c a b : A) l : neighbours (c :: l) a b <-> (c = a /\ exists l', l = b :: l') \/ neighbours l a b.
Proof.
  split.
  - intros ([|y l1] & l2 & E); cbn in E; injection E as -> ->.
    + left. eauto.
    + right. exists l1, l2. reflexivity.
  - intros [[-> [l' ->]]|(l1 & l2 & ->)].
    + exists [], l'. reflexivity.
    + exists (c :: l1), l2. reflexivity.
Qed.
Lemma neighbours_nil {A} (a b : A) : ~ neighbours [] a b.
Proof. intros (l1 & l2 & E). destruct l1; discriminate. Qed.
Lemma neighbours_one {A} (c a b : A) : ~ neighbours [c] a b.
Proof. rewrite neighbours_cons. intros [[_ [l' E]]|H]; [discriminate|now apply neighbours_nil in H]. Qed.
Lemma diffs_In l d : In d (diffs l) <-> exists a b, neighbours l a b /\ d = b - a.
Proof.
  induction l as [|c l IH].
  - cbn. split; [intros []|]. intros (a & b & H & _). now apply neighbours_nil in H.
  - destruct l as [|e l].
    + cbn. split; [intros []|]. intros (a & b & H & _). now apply neighbours_one in H.
    + change (diffs (c :: e :: l)) with ((e - c) :: diffs (e :: l)).
      cbn [In]. rewrite IH. split.
      * intros [<-|(a & b & H & ->)].
        -- exists c, e. split; auto. apply neighbours_cons. left. split; eauto.
        -- exists a, b. split; auto. apply neighbours_cons. now right.
      * intros (a & b & H & ->). apply neighbours_cons in H. destruct H as [[-> [l' E]]|H].
        -- injection E as -> ->. now left.
        -- right. eauto.
Qed.
Lemma diffs_length l : length (diffs l) = (length l - 1)%nat.
Proof.
  induction l as [|c l IH]; auto. destruct l as [|e l]; auto.
  change (diffs (c :: e :: l)) with ((e - c) :: diffs (e :: l)). cbn [length]. rewrite IH. cbn. lia.
Qed.
Lemma neighbours_map {A B} (f : A -> B) l a b : neighbours (map f l) a b <-> exists p q, neighbours l p q /\ a = f p /\ b = f q.
Proof.
  induction l as [|c l IH]; cbn [map].
  - split; intros H; [now apply neighbours_nil in H|]. destruct H as (p & q & H & _). now apply neighbours_nil in H.
  - rewrite neighbours_cons, IH. split.
    + intros [[<- [l' E]]|(p & q & H & -> & ->)].
      * destruct l as [|e l]; [discriminate|]. cbn in E. injection E as <- <-.
        exists c, e. split; auto. apply neighbours_cons. left. eauto.
      * exists p, q. split; auto. apply neighbours_cons. now right.
    + intros (p & q & H & -> & ->). apply neighbours_cons in H. destruct H as [[-> [l' ->]]|H].
      * left. split; auto. cbn. eauto.
      * right. eauto.
Qed.
Lemma sorted_neighbours (T : R -> R -> Prop) l a b : StronglySorted T l -> neighbours l a b -> T a b.
Proof.
  intros Hs (l1 & l2 & ->). induction l1 as [|c l1 IH]; cbn in Hs.
  - apply StronglySorted_inv in Hs. destruct Hs as [_ Hf]. now apply Forall_inv in Hf.
  - apply StronglySorted_inv in Hs. now apply IH.
Qed.
Lemma neighbours_sorted (T : R -> R -> Prop) l :
  (forall a b c, T a b -> T b c -> T a c) -> (forall a b, neighbours l a b -> T a b) -> StronglySorted T l.
Proof.
  intros Ht. induction l as [|c l IH]; intros H; [constructor|].
  assert (Hs : StronglySorted T l). { apply IH. intros a b Hab. apply H, neighbours_cons. now right. }
  constructor; auto. destruct l as [|e l]; [constructor|].
  assert (T c e) by (apply H, neighbours_cons; left; eauto).
  constructor; auto. apply StronglySorted_inv in Hs. destruct Hs as [_ Hf].
  eapply Forall_impl; [|exact Hf]. eauto.
Qed.
Lemma increasing_nondecreasing l : increasing l -> nondecreasing l.
Proof.
  induction 1; constructor; auto. eapply Forall_impl; [|eassumption]. cbn. intros; lra.
Qed.

(** ** Removal of duplicates *)
Lemma drop_first_dup_shorter {V} (l : list (R * V)) d ds :
  diffs (map fst l) = d :: ds -> In 0 (d :: ds) -> (length (drop_first_dup l) = length l - 1)%nat.
Proof.
  revert d ds. induction l as [|a l IH]; intros d ds E H; [discriminate|].
  destruct l as [|b l]; [discriminate|].
  change (diffs (map fst (a :: b :: l))) with ((fst b - fst a) :: diffs (map fst (b :: l))) in E.
  assert (Ed : fst b - fst a = d) by congruence. assert (Es : diffs (map fst (b :: l)) = ds) by congruence. clear E.
  cbn [drop_first_dup]. destruct (Req_EM_T (fst b - fst a) 0) as [|n].
  - cbn [length]. lia.
  - destruct H as [H|H]; [congruence|]. destruct ds as [|d' ds']; [destruct H|].
    specialize (IH _ _ Es H). cbn [length]. fold (@drop_first_dup V). change (S (length (drop_first_dup (b :: l))) = S (S (length l)) - 1)%nat.
    rewrite IH. cbn [length]. destruct l; [discriminate|]. cbn [length]. lia.
Qed.
Lemma dedup_unfold {V} n (l : list (R * V)) :
  dedup n l = match diffs (map fst l) with
  | [] => Err ValueError
  | d :: ds => if Req_EM_T (rmin d ds) 0
               then match n with 0%nat => Err OtherError | S k => dedup k (drop_first_dup l) end
               else Ok l
  end.
Proof. destruct n; reflexivity. Qed.
(** the loop always ends, with a list or ValueError *)
Lemma dedup_ends {V} n : forall l : list (R * V), (length l <= n)%nat -> (exists l', dedup n l = Ok l') \/ dedup n l = Err ValueError.
Proof.
  induction n as [|n IH]; intros l H; rewrite dedup_unfold.
  - destruct l; [|cbn in H; lia]. now right.
  - destruct (diffs (map fst l)) as [|d ds] eqn:E; [now right|].
    destruct (Req_EM_T (rmin d ds) 0) as [e|]; [|left; eauto].
    apply IH. rewrite (drop_first_dup_shorter l d ds); auto; [lia|]. rewrite <- e. apply rmin_spec.
Qed.
Lemma dedup_invariant {V} (P : list (R * V) -> Prop) n : (forall l, P l -> P (drop_first_dup l)) ->
  forall l l', P l -> dedup n l = Ok l' -> P l'.
Proof.
  intros Hp. induction n as [|n IH]; intros l l' Hl E; rewrite dedup_unfold in E;
    destruct (diffs (map fst l)) as [|d ds]; try discriminate; destruct (Req_EM_T (rmin d ds) 0); try discriminate; try congruence.
  eauto.
Qed.
Lemma drop_first_dup_incl {V} (l : list (R * V)) : incl (drop_first_dup l) l.
Proof.
  induction l as [|a l IH]; [apply incl_refl|]. destruct l as [|b l]; [apply incl_refl|].
  cbn [drop_first_dup]. destruct (Req_EM_T (fst b - fst a) 0).
  - now apply incl_tl, incl_refl.
  - apply incl_cons; [now left|]. apply incl_tl. exact IH.
Qed.
Lemma dedup_incl {V} n (l l' : list (R * V)) : dedup n l = Ok l' -> incl l' l.
Proof.
  intros E. apply (dedup_invariant (fun k => incl k l) n) with (l := l); auto; [|apply incl_refl].
  intros k Hk. eapply incl_tran; [apply drop_first_dup_incl|exact Hk].
Qed.
Lemma dedup_result {V} n : forall l l' : list (R * V), dedup n l = Ok l' ->
  exists d ds, diffs (map fst l') = d :: ds /\ rmin d ds <> 0.
Proof.
  induction n as [|n IH]; intros l l' E; rewrite dedup_unfold in E;
    destruct (diffs (map fst l)) as [|d ds] eqn:Ed; try discriminate; destruct (Req_EM_T (rmin d ds) 0); try discriminate;
    try (injection E as <-; eauto).
  eauto.
Qed.
Lemma keep_last_cons {V} (p q : R * V) l : keep_last (p :: q :: l) = if Req_EM_T (fst p) (fst q) then keep_last (q :: l) else p :: keep_last (q :: l).
Proof. reflexivity. Qed.
Lemma drop_first_dup_head {V} (b : R * V) l : exists b' l', drop_first_dup (b :: l) = b' :: l' /\ fst b' = fst b.
Proof.
  destruct l as [|c l]; [exists b, []; auto|]. cbn [drop_first_dup].
  destruct (Req_EM_T (fst c - fst b) 0); [exists c, l; split; auto; lra|eauto].
Qed.
Lemma keep_last_drop {V} (l : list (R * V)) : keep_last (drop_first_dup l) = keep_last l.
Proof.
  induction l as [|a l IH]; auto. destruct l as [|b l]; auto.
  cbn [drop_first_dup]. rewrite keep_last_cons. destruct (Req_EM_T (fst b - fst a) 0) as [e|n].
  - destruct (Req_EM_T (fst a) (fst b)); [reflexivity|lra].
  - destruct (Req_EM_T (fst a) (fst b)); [lra|].
    fold (@drop_first_dup V). change (drop_first_dup (b :: l)) with (drop_first_dup (b :: l)) in IH.
    rewrite <- IH. destruct (drop_first_dup_head b l) as (b' & l' & E & Eb). cbn [drop_first_dup] in E |- *. rewrite E.
    rewrite keep_last_cons. destruct (Req_EM_T (fst a) (fst b')); [lra|reflexivity].
Qed.
Lemma keep_last_increasing {V} (l : list (R * V)) : increasing (wls l) -> keep_last l = l.
Proof.
  induction l as [|a l IH]; auto. intros H. destruct l as [|b l]; auto. rewrite keep_last_cons.
  destruct (Req_EM_T (fst a) (fst b)) as [e|].
  - pose proof (sorted_neighbours Rlt _ (fst a) (fst b) H) as Hn. cbn in Hn.
    assert (fst a < fst b) by (apply Hn; exists [], (map fst l); reflexivity). lra.
  - f_equal. apply IH. now apply StronglySorted_inv in H.
Qed.
Lemma keep_last_head {V} (b : R * V) l : exists b' l', keep_last (b :: l) = b' :: l' /\ fst b' = fst b.
Proof.
  revert b. induction l as [|c l IH]; intros b; [exists b, []; auto|]. rewrite keep_last_cons.
  destruct (Req_EM_T (fst b) (fst c)) as [e|]; [|eauto].
  destruct (IH c) as (b' & l' & E & Eb). exists b', l'. split; auto. lra.
Qed.
Lemma keep_last_wls {V} (l : list (R * V)) w : In w (wls (keep_last l)) <-> In w (wls l).
Proof.
  induction l as [|a l IH]; [tauto|]. destruct l as [|b l]; [tauto|]. rewrite keep_last_cons.
  destruct (Req_EM_T (fst a) (fst b)) as [e|].
  - rewrite IH. unfold wls. cbn [map In]. rewrite e. tauto.
  - unfold wls in *. cbn [map In] in *. rewrite IH. tauto.
Qed.
Lemma keep_last_incl {V} (l : list (R * V)) : incl (keep_last l) l.
Proof.
  induction l as [|a l IH]; [apply incl_refl|]. destruct l as [|b l]; [apply incl_refl|]. rewrite keep_last_cons.
  destruct (Req_EM_T (fst a) (fst b)); [now apply incl_tl|].
  apply incl_cons; [now left|]. now apply incl_tl.
Qed.
Lemma sorted_Forall_In (T : R -> R -> Prop) a l : StronglySorted T (a :: l) -> forall y, In y l -> T a y.
Proof. intros H y Hy. apply StronglySorted_inv in H. destruct H as [_ Hf]. rewrite Forall_forall in Hf. auto. Qed.
Lemma keep_last_sorted {V} (l : list (R * V)) : nondecreasing (wls l) -> increasing (wls (keep_last l)).
Proof.
  induction l as [|a l IH]; intros H; [constructor|]. destruct l as [|b l]; [repeat constructor|]. rewrite keep_last_cons.
  assert (Hs : nondecreasing (wls (b :: l))) by now apply StronglySorted_inv in H.
  destruct (Req_EM_T (fst a) (fst b)) as [e|n]; [auto|].
  cbn [wls map]. constructor; [now apply IH|]. rewrite Forall_forall. intros y Hy.
  apply (keep_last_wls (b :: l)) in Hy.
  assert (fst a <= fst b) by (apply (sorted_Forall_In Rle _ _ H); now left).
  assert (fst b <= y). { destruct Hy as [<-|Hy]; [cbn; lra|]. now apply (sorted_Forall_In Rle _ _ Hs). }
  lra.
Qed.
Lemma drop_first_dup_sorted {V} (l : list (R * V)) : nondecreasing (wls l) -> nondecreasing (wls (drop_first_dup l)).
Proof.
  induction l as [|a l IH]; intros H; [constructor|]. destruct l as [|b l]; [repeat constructor|].
  assert (Hs : nondecreasing (wls (b :: l))) by now apply StronglySorted_inv in H.
  cbn [drop_first_dup]. destruct (Req_EM_T (fst b - fst a) 0); auto.
  cbn [wls map]. constructor; [now apply IH|]. rewrite Forall_forall. intros y Hy.
  apply in_map_iff in Hy. destruct Hy as (p & <- & Hp). apply (drop_first_dup_incl (b :: l)) in Hp.
  apply (sorted_Forall_In Rle (fst a) (map fst (b :: l)) H). exact (in_map fst _ _ Hp).
Qed.
Lemma nonzero_diffs_increasing {V} (l : list (R * V)) d ds : nondecreasing (wls l) -> diffs (map fst l) = d :: ds -> rmin d ds <> 0 -> increasing (wls l).
Proof.
  intros Hs E Hn. apply neighbours_sorted; [intros; lra|]. intros a b Hab.
  pose proof (sorted_neighbours _ _ _ _ Hs Hab) as Hle.
  assert (Hi : In (b - a) (d :: ds)). { rewrite <- E. apply diffs_In. eauto. }
  destruct (rmin_spec ds d) as [H1 H2]. specialize (H2 _ Hi).
  assert (0 <= rmin d ds).
  { rewrite <- E in H1. apply diffs_In in H1. destruct H1 as (a' & b' & Hn' & ->). pose proof (sorted_neighbours _ _ _ _ Hs Hn'). lra. }
  lra.
Qed.
(** on ordered lists the loop keeps the last of each group of duplicates *)
Lemma dedup_ordered {V} n : forall l : list (R * V), nondecreasing (wls l) -> (length l <= n)%nat ->
  dedup n l = if Nat.leb 2 (length (keep_last l)) then Ok (keep_last l) else Err ValueError.
Proof.
  induction n as [|n IH]; intros l Hs Hl; rewrite dedup_unfold.
  - destruct l; [reflexivity|cbn in Hl; lia].
  - destruct (diffs (map fst l)) as [|d ds] eqn:E.
    + pose proof (diffs_length (map fst l)) as Hd. rewrite E, map_length in Hd. cbn in Hd.
      destruct l as [|a [|b l]]; [reflexivity|reflexivity|cbn in Hd; lia].
    + destruct (Req_EM_T (rmin d ds) 0) as [e|ne].
      * rewrite IH.
        -- now rewrite keep_last_drop.
        -- now apply drop_first_dup_sorted.
        -- rewrite (drop_first_dup_shorter l d ds); auto; [lia|]. rewrite <- e. apply rmin_spec.
      * rewrite keep_last_increasing by (eapply nonzero_diffs_increasing; eauto).
        pose proof (diffs_length (map fst l)) as Hd. rewrite E, map_length in Hd. cbn [length] in Hd.
        destruct (Nat.leb_spec 2 (length l)); [reflexivity|lia].
Qed.
(** a step down anywhere switches the removal off *)
Lemma dedup_descending {V} n (l : list (R * V)) a b : neighbours (wls l) a b -> b < a -> dedup n l = Ok l.
Proof.
  intros Hn Hd. rewrite dedup_unfold. assert (Hi : In (b - a) (diffs (map fst l))) by (apply diffs_In; eauto).
  destruct (diffs (map fst l)) as [|d ds]; [destruct Hi|].
  destruct (Req_EM_T (rmin d ds) 0) as [e|]; auto. destruct (rmin_spec ds d) as [_ H2]. specialize (H2 _ Hi). lra.
Qed.

(** ** Window *)
Lemma all_numbers_Some l : forall xs, all_numbers l = Some xs <-> l = map Some xs.
Proof.
  induction l as [|[x|] l IH]; intros xs; cbn.
  - split; [intros [= <-]; reflexivity|]. destruct xs; [reflexivity|discriminate].
  - destruct (all_numbers l) as [r|].
    + split; [intros [= <-]; cbn; f_equal; now apply IH|]. destruct xs as [|y xs]; [discriminate|].
      cbn. intros [= -> H]. apply IH in H. congruence.
    + split; [discriminate|]. destruct xs as [|y xs]; [discriminate|]. cbn. intros [= -> H]. apply IH in H. discriminate.
  - split; [discriminate|]. destruct xs; discriminate.
Qed.
Lemma all_numbers_None l : all_numbers l = None <-> In None l.
Proof.
  induction l as [|[x|] l IH]; cbn.
  - split; [discriminate|tauto].
  - destruct (all_numbers l) as [r|]; split; intros H; try discriminate.
    + destruct H as [H|H]; [discriminate|]. apply IH in H. discriminate.
    + right. now apply IH.
    + reflexivity.
  - split; auto.
Qed.
Lemma numbers_Some xs : numbers (map Some xs) = xs.
Proof. unfold numbers. induction xs; cbn; f_equal; auto. Qed.
Lemma in_window_numbers {V} xs (src : list (option R * V)) lo hi : least lo xs -> greatest hi xs ->
  in_window (map Some xs) src = Ok (flat_map (fun p => match fst p with
                                   | Some w => if Rltb (0.9 * lo) w && Rltb w (1.1 * hi) then [(w, snd p)] else []
                                   | None => [] end) src).
Proof.
  intros Hlo Hhi. destruct xs as [|a l]; [destruct Hlo as [[] _]|].
  unfold in_window. cbn [map]. change (Some a :: map Some l) with (map (@Some R) (a :: l)).
  rewrite (proj2 (all_numbers_Some _ (a :: l)) eq_refl).
  rewrite (least_unique _ _ _ (rmin_least a l) Hlo), (greatest_unique _ _ _ (rmax_greatest a l) Hhi). reflexivity.
Qed.
Lemma in_window_known {V} xs (src : list (R * V)) lo hi : least lo xs -> greatest hi xs ->
  in_window (map Some xs) (known src) = Ok (visible lo hi src).
Proof.
  intros Hlo Hhi. rewrite (in_window_numbers _ _ _ _ Hlo Hhi). f_equal.
  induction src as [|[w v] src IH]; auto. cbn [known map flat_map fst snd visible filter].
  change (flat_map _ (map (fun p : R * V => (Some (fst p), snd p)) src)) with
    (flat_map (fun p : option R * V => match fst p with
                                   | Some w => if Rltb (0.9 * lo) w && Rltb w (1.1 * hi) then [(w, snd p)] else []
                                   | None => [] end) (known src)).
  rewrite IH. unfold Rltb. destruct (Rlt_dec (0.9 * lo) w), (Rlt_dec w (1.1 * hi)); reflexivity.
Qed.
Lemma in_window_incl {V} x (src : list (option R * V)) win p : in_window x src = Ok win -> In p win -> In (Some (fst p), snd p) src.
Proof.
  unfold in_window. destruct x as [|a l]; [discriminate|]. destruct (all_numbers (a :: l)) as [[|b k]|]; intros [= <-] H; try destruct H.
  apply in_flat_map in H. destruct H as ([[w|] v] & Hin & H); cbn [fst snd] in H; [|destruct H].
  destruct (Rltb _ w && Rltb w _); [|destruct H]. destruct H as [<-|[]]. exact Hin.
Qed.
Lemma least_exists xs : xs <> [] -> exists m, least m xs.
Proof. destruct xs as [|a l]; [congruence|]. intros _. eexists. apply rmin_least. Qed.
Lemma greatest_exists xs : xs <> [] -> exists m, greatest m xs.
Proof. destruct xs as [|a l]; [congruence|]. intros _. eexists. apply rmax_greatest. Qed.
Lemma filter_sorted {V} (T : R -> R -> Prop) (f : R * V -> bool) l : StronglySorted T (map fst l) -> StronglySorted T (map fst (filter f l)).
Proof.
  induction l as [|a l IH]; intros H; [constructor|]. cbn [map] in H. apply StronglySorted_inv in H as [Hs Hf].
  cbn [filter]. destruct (f a); auto. cbn [map]. constructor; auto. rewrite Forall_forall in *.
  intros y Hy. apply in_map_iff in Hy. destruct Hy as (p & <- & Hp). apply filter_In in Hp. apply Hf. now apply in_map.
Qed.

(** ** Sorting *)
Lemma insert_In {V} (p q : R * V) l : In q (insert p l) <-> q = p \/ In q l.
Proof.
  induction l as [|c l IH]; cbn; [intuition congruence|]. destruct (Rltb (fst c) (fst p)); cbn; [rewrite IH|]; intuition congruence.
Qed.
Lemma sort_In {V} (q : R * V) l : In q (sort_src l) <-> In q l.
Proof. unfold sort_src. induction l as [|c l IH]; cbn; [tauto|]. rewrite insert_In, IH. intuition congruence. Qed.
Lemma insert_sorted {V} (p : R * V) l : nondecreasing (wls l) -> nondecreasing (wls (insert p l)).
Proof.
  induction l as [|c l IH]; intros H; [repeat constructor|]. cbn [insert].
  pose proof H as H0. cbn [wls map] in H. apply StronglySorted_inv in H as [Hs Hf]. rewrite Forall_forall in Hf.
  destruct (Rltb (fst c) (fst p)) eqn:E.
  - apply Rltb_true in E. cbn [wls map]. constructor; [now apply IH|]. rewrite Forall_forall. intros y Hy.
    apply in_map_iff in Hy. destruct Hy as (q & <- & Hq). apply insert_In in Hq. destruct Hq as [->|Hq]; [lra|].
    apply Hf. now apply in_map.
  - apply Rltb_false in E. cbn [wls map]. constructor; [exact H0|]. constructor; auto.
    rewrite Forall_forall. intros y Hy. specialize (Hf _ Hy). lra.
Qed.
Lemma sort_sorted {V} (l : list (R * V)) : nondecreasing (wls (sort_src l)).
Proof. unfold sort_src. induction l; cbn; [constructor|]. now apply insert_sorted. Qed.
Lemma sort_id {V} (l : list (R * V)) : nondecreasing (wls l) -> sort_src l = l.
Proof.
  unfold sort_src. induction l as [|a l IH]; intros H; auto. cbn. rewrite IH by now apply StronglySorted_inv in H.
  destruct l as [|b l]; auto. cbn. destruct (Rltb (fst b) (fst a)) eqn:E; auto. apply Rltb_true in E.
  assert (fst a <= fst b) by (apply (sorted_Forall_In Rle _ _ H); now left). lra.
Qed.

(** ** Interpolation *)
Lemma locate_spec {V} w (l : list (R * V)) : nondecreasing (wls l) ->
  match locate w l with
  | None => forall p, In p l -> w < fst p
  | Some (p, None) => In p l /\ fst p <= w /\ forall q, In q l -> fst q <= fst p
  | Some (p, Some q) => neighbours l p q /\ fst p <= w < fst q
  end.
Proof.
  induction l as [|a l IH]; intros H; [intros p []|]. cbn [locate].
  pose proof H as H0. cbn [wls map] in H. apply StronglySorted_inv in H as [Hs Hf]. rewrite Forall_forall in Hf.
  destruct (Rltb w (fst a)) eqn:E.
  - apply Rltb_true in E. intros p [<-|Hp]; auto. specialize (Hf (fst p) (in_map fst _ _ Hp)). lra.
  - apply Rltb_false in E. specialize (IH Hs). destruct (locate w l) as [[p [q|]]|] eqn:El.
    + destruct IH as [H1 H2]. split; auto. apply neighbours_cons. now right.
    + destruct IH as (H1 & H2 & H3). repeat split; auto; [now right|]. intros q [<-|Hq]; auto. apply Hf. now apply in_map.
    + destruct l as [|b l].
      * repeat split; [now left|auto|]. intros q [<-|[]]. lra.
      * split; [apply neighbours_cons; left; eauto|]. split; auto. apply IH. now left.
Qed.
Lemma neighbours_In {A} (l : list A) a b : neighbours l a b -> In a l /\ In b l.
Proof. intros (l1 & l2 & ->). rewrite !in_app_iff. cbn. auto 6. Qed.
Lemma between_convex a b x0 x1 w lo hi : x0 <= w -> w < x1 -> lo <= a <= hi -> lo <= b <= hi ->
  lo <= (b - a) / (x1 - x0) * (w - x0) + a <= hi.
Proof.
  intros H0 H1 Ha Hb. set (t := (w - x0) / (x1 - x0)).
  replace ((b - a) / (x1 - x0) * (w - x0) + a) with (a * (1 - t) + b * t) by (unfold t; field; lra).
  assert (0 <= t).
  { unfold t. apply Rmult_le_pos; [lra|]. left. apply Rinv_0_lt_compat. lra. }
  assert (t <= 1).
  { unfold t. apply Rmult_le_reg_r with (x1 - x0); [lra|]. unfold Rdiv. rewrite Rmult_assoc, Rinv_l by lra. lra. }
  nra.
Qed.
Lemma interp_bounds l w lo hi : nondecreasing (wls l) -> (forall p, In p l -> lo <= snd p <= hi) ->
  interp l w = 0 \/ lo <= interp l w <= hi.
Proof.
  intros Hs Hb. unfold interp. pose proof (locate_spec w l Hs) as Hl. destruct (locate w l) as [[p [q|]]|]; [| |now left].
  - right. destruct Hl as [Hn Hw]. apply neighbours_In in Hn. apply between_convex; try tauto; apply Hb; tauto.
  - destruct (Rltb (fst p) w); [now left|]. right. apply Hb. tauto.
Qed.

(** ** Means *)
Lemma rsum_bounds l lo hi : (forall x, In x l -> lo <= x <= hi) -> lo * INR (length l) <= rsum l <= hi * INR (length l).
Proof.
  induction l as [|a l IH]; intros H; [cbn; lra|]. cbn [rsum length]. rewrite S_INR.
  assert (lo <= a <= hi) by (apply H; now left). assert (lo * INR (length l) <= rsum l <= hi * INR (length l)) by (apply IH; intros; apply H; now right). lra.
Qed.
Lemma INR_length_pos {A} (l : list A) : l <> [] -> 0 < INR (length l).
Proof. destruct l; [congruence|]. intros _. apply lt_0_INR. cbn. lia. Qed.
Lemma mean_bounds l v lo hi : (forall x, In x l -> lo <= x <= hi) -> mean l = Some v -> lo <= v <= hi.
Proof.
  unfold mean. destruct l as [|a l]; [discriminate|]. intros H E. remember (a :: l) as k eqn:Ek. injection E as <-.
  assert (Hp : 0 < INR (length k)) by (apply INR_length_pos; congruence).
  pose proof (rsum_bounds k lo hi H) as [H1 H2].
  split; apply Rmult_le_reg_r with (INR (length k)); auto; unfold Rdiv; rewrite Rmult_assoc, Rinv_l, Rmult_1_r by lra; auto.
Qed.
Lemma mean_average l v : mean l = Some v <-> average l v.
Proof.
  unfold mean, average. destruct l as [|a l].
  - split; [discriminate|]. intros [[] _]; auto.
  - remember (a :: l) as k eqn:Ek. assert (Hp : 0 < INR (length k)) by (apply INR_length_pos; congruence).
    assert (E : rsum k = fold_right Rplus 0 k) by (clear; induction k; cbn; congruence). rewrite <- E. split.
    + intros [= <-]. split; [congruence|]. field. lra.
    + intros [_ Hv]. f_equal. rewrite <- Hv. field. lra.
Qed.
Lemma mean_None l : mean l = None <-> l = [].
Proof. destruct l; cbn; split; congruence. Qed.

Lemma bins_length es src : length (bins es src) = (length es - 1)%nat.
Proof.
  induction es as [|a es IH]; auto. destruct es as [|b es]; auto.
  change (length (bins (a :: b :: es) src)) with (S (length (bins (b :: es) src))). rewrite IH. cbn. lia.
Qed.
Lemma bins_nth es src : forall i, (S i < length es)%nat ->
  nth_error (bins es src) i = Some (mean (map snd (filter (fun p => in_bin (nth i es 0) (nth (S i) es 0) (Nat.eqb (S (S i)) (length es)) (fst p)) src))).
Proof.
  induction es as [|a es IH]; intros i Hi; [cbn in Hi; lia|]. destruct es as [|b es]; [cbn in Hi; lia|].
  destruct i as [|i].
  - cbn [bins nth_error nth length]. destruct es; reflexivity.
  - change (bins (a :: b :: es) src) with (mean (map snd (filter (fun p => in_bin a b (match es with [] => true | _ => false end) (fst p)) src)) :: bins (b :: es) src).
    cbn [nth_error]. rewrite IH by (cbn in *; lia). reflexivity.
Qed.
Lemma mids_length l : length (mids l) = (length l - 1)%nat.
Proof.
  induction l as [|a l IH]; auto. destruct l as [|b l]; auto.
  change (mids (a :: b :: l)) with (0.5 * (b + a) :: mids (b :: l)). cbn [length]. rewrite IH. cbn. lia.
Qed.
Lemma mids_nth l : forall i, (S i < length l)%nat -> nth i (mids l) 0 = (nth i l 0 + nth (S i) l 0) / 2.
Proof.
  induction l as [|a l IH]; intros i Hi; [cbn in Hi; lia|]. destruct l as [|b l]; [cbn in Hi; lia|].
  change (mids (a :: b :: l)) with (0.5 * (b + a) :: mids (b :: l)). destruct i as [|i].
  - cbn. lra.
  - cbn [nth]. rewrite IH by (cbn in *; lia). reflexivity.
Qed.
Lemma edges_length xs : (2 <= length xs)%nat -> length (edges xs) = S (length xs).
Proof. intros H. unfold edges. cbn [length]. rewrite app_length, mids_length. cbn. lia. Qed.
Lemma last_nth (l : list R) : last l 0 = nth (length l - 1) l 0.
Proof.
  induction l as [|a l IH]; auto. destruct l as [|b l]; auto. change (last (a :: b :: l) 0) with (last (b :: l) 0). rewrite IH.
  cbn [length]. replace (S (S (length l)) - 1)%nat with (S (S (length l) - 1))%nat by lia. reflexivity.
Qed.
Lemma edges_low xs i : (2 <= length xs)%nat -> (i < length xs)%nat -> nth i (edges xs) 0 = bin_low xs i.
Proof.
  intros H2 Hi. unfold edges, bin_low. destruct i as [|i].
  - cbn [nth]. destruct xs as [|a [|b xs]]; cbn in H2; try lia. cbn. lra.
  - cbn [nth]. rewrite app_nth1 by (rewrite mids_length; lia). rewrite mids_nth by lia. reflexivity.
Qed.
Lemma edges_high xs i : (2 <= length xs)%nat -> (i < length xs)%nat -> nth (S i) (edges xs) 0 = bin_high xs i.
Proof.
  intros H2 Hi. unfold bin_high. destruct (Nat.eqb_spec (S i) (length xs)) as [e|ne].
  - unfold edges. cbn [nth]. rewrite app_nth2 by (rewrite mids_length; lia). rewrite mids_length.
    replace (i - (length xs - 1))%nat with 0%nat by lia. cbn [nth]. rewrite !last_nth, mids_length, mids_nth by lia.
    replace (length xs - 1)%nat with i by lia. replace (S (i - 1)) with i by lia. lra.
  - unfold edges. cbn [nth]. rewrite app_nth1 by (rewrite mids_length; lia). rewrite mids_nth by lia. reflexivity.
Qed.
Lemma in_bin_spec lo hi last w : in_bin lo hi last w = true <-> lo <= w /\ (w < hi \/ last = true /\ w = hi).
Proof.
  unfold in_bin. rewrite Bool.andb_true_iff, Bool.orb_true_iff, Bool.andb_true_iff, Bool.negb_true_iff, Rltb_false, Rltb_true.
  destruct (Req_EM_T w hi); intuition (auto; try discriminate).
Qed.
Lemma neighbours_nth (l : list R) a b : neighbours l a b <-> exists i, (S i < length l)%nat /\ nth i l 0 = a /\ nth (S i) l 0 = b.
Proof.
  split.
  - intros (l1 & l2 & ->). exists (length l1). rewrite app_length. cbn [length]. split; [lia|].
    split; (rewrite app_nth2 by lia).
    + replace (length l1 - length l1)%nat with 0%nat by lia. reflexivity.
    + replace (S (length l1) - length l1)%nat with 1%nat by lia. reflexivity.
  - revert a b. induction l as [|c l IH]; intros a b (i & Hi & Ha & Hb); [cbn in Hi; lia|].
    apply neighbours_cons. destruct i as [|i].
    + left. cbn in Ha. split; auto. destruct l as [|e l]; [cbn in Hi; lia|]. cbn in Hb. exists l. congruence.
    + right. apply IH. exists i. cbn in Hi. repeat split; auto; lia.
Qed.
Lemma increasing_nth l i j : increasing l -> (i < j)%nat -> (j < length l)%nat -> nth i l 0 < nth j l 0.
Proof.
  intros Hs. revert i j. induction l as [|a l IH]; intros i j Hij Hj; [cbn in Hj; lia|].
  destruct j as [|j]; [lia|]. cbn [length] in Hj. destruct i as [|i]; cbn [nth].
  - apply (sorted_Forall_In Rlt _ _ Hs). apply nth_In. lia.
  - apply IH; try lia. now apply StronglySorted_inv in Hs.
Qed.
Lemma bin_low_lt_high xs i : increasing xs -> (2 <= length xs)%nat -> (i < length xs)%nat -> bin_low xs i < nth i xs 0 < bin_high xs i.
Proof.
  intros Hs H2 Hi. split.
  - unfold bin_low. destruct i as [|i].
    + assert (nth 0 xs 0 < nth 1 xs 0) by (apply increasing_nth; auto; lia). lra.
    + assert (nth i xs 0 < nth (S i) xs 0) by (apply increasing_nth; auto; lia). lra.
  - unfold bin_high. destruct (Nat.eqb_spec (S i) (length xs)) as [e|ne].
    + assert (nth (i - 1) xs 0 < nth i xs 0) by (apply increasing_nth; auto; lia). lra.
    + assert (nth i xs 0 < nth (S i) xs 0) by (apply increasing_nth; auto; lia). lra.
Qed.
Lemma binned_increasing xs src : increasing xs -> (2 <= length xs)%nat -> binned (edges xs) src = Ok (bins (edges xs) src).
Proof.
  intros Hs H2. unfold binned. destruct (diffs (edges xs)) as [|d ds] eqn:E.
  - pose proof (diffs_length (edges xs)) as H. rewrite E, edges_length in H by auto. cbn in H. lia.
  - rewrite (proj2 (Rltb_true 0 (rmin d ds))); auto. apply rmin_gt. rewrite <- E. intros y Hy.
    apply diffs_In in Hy. destruct Hy as (a & b & Hn & ->). apply neighbours_nth in Hn. destruct Hn as (i & Hi & <- & <-).
    rewrite edges_length in Hi by auto. rewrite (edges_low xs i), (edges_high xs i) by lia.
    pose proof (bin_low_lt_high xs i Hs H2). assert (i < length xs)%nat by lia. intuition lra.
Qed.
Lemma wls_unit xs : wls (map (fun w : R => (w, tt)) xs) = xs.
Proof. unfold wls. rewrite map_map. cbn. apply map_id. Qed.
Lemma same_unit_refl u : same_unit u u = true.
Proof. unfold same_unit. rewrite String.eqb_refl. destruct (Req_EM_T (scale u) (scale u)); [reflexivity|congruence]. Qed.
Lemma same_unit_spec u w : same_unit u w = true <-> u = w.
Proof.
  split; [|intros ->; apply same_unit_refl]. unfold same_unit. destruct (String.eqb_spec (dim u) (dim w)); [|discriminate].
  destruct (Req_EM_T (scale u) (scale w)); [|discriminate]. destruct u, w; cbn in *; congruence.
Qed.

Lemma finer_iff {V} (l : list (R * V)) xs d ds e es : diffs (map fst l) = d :: ds -> diffs xs = e :: es ->
  (Rltb (rmax d ds) (rmin e es) = true <-> finer l xs).
Proof.
  intros Ed Ee. rewrite Rltb_true. rewrite rmin_gt. rewrite <- Ee. split.
  - intros H p q a b Hpq Hab. assert (In (b - a) (diffs xs)) by (apply diffs_In; eauto).
    specialize (H _ H0). apply rmax_lt with (y := fst q - fst p) in H; auto. rewrite <- Ed. apply diffs_In.
    exists (fst p), (fst q). split; auto. apply neighbours_map. eauto.
  - intros H y Hy. apply rmax_lt. rewrite <- Ed. intros z Hz. apply diffs_In in Hy. destruct Hy as (a & b & Hab & ->).
    apply diffs_In in Hz. destruct Hz as (c & f & Hcf & ->). apply neighbours_map in Hcf. destruct Hcf as (p & q & Hpq & -> & ->). eauto.
Qed.
Lemma diffs_exists l : (2 <= length l)%nat -> exists d ds, diffs l = d :: ds.
Proof. intros H. pose proof (diffs_length l). destruct (diffs l); cbn in *; [lia|eauto]. Qed.
(** rebin on increasing grids *)
Lemma rebin_increasing u xs src lo hi : increasing xs -> (2 <= length xs)%nat -> least lo xs -> greatest hi xs ->
  nondecreasing (wls src) -> let vis := keep_last (visible lo hi src) in
  ((length vis < 2)%nat -> rebin u u (map Some xs) (known src) = Err ValueError) /\
  ((2 <= length vis)%nat -> finer vis xs -> rebin u u (map Some xs) (known src) = Ok (xs, bins (edges xs) vis)) /\
  ((2 <= length vis)%nat -> ~ finer vis xs -> rebin u u (map Some xs) (known src) = Ok (xs, map (fun w => Some (interp vis w)) xs)).
Proof.
  intros Hs H2 Hlo Hhi Hsrc vis. unfold rebin. rewrite same_unit_refl. cbn [negb].
  rewrite (in_window_known xs src lo hi Hlo Hhi). cbn [bind]. rewrite numbers_Some.
  assert (Hv : nondecreasing (wls (visible lo hi src))) by now apply filter_sorted.
  rewrite (dedup_ordered (length (visible lo hi src))) by auto. fold vis.
  rewrite (dedup_ordered (length xs)); [|rewrite wls_unit; now apply increasing_nondecreasing|rewrite map_length; auto].
  rewrite keep_last_increasing by now rewrite wls_unit. rewrite map_length.
  destruct (Nat.leb_spec 2 (length xs)) as [_|]; [|lia].
  destruct (Nat.leb_spec 2 (length vis)) as [Hl|Hl]; cbn [bind]; [|repeat split; auto; intros; lia].
  change (map fst (map (fun w : R => (w, tt)) xs)) with (wls (map (fun w : R => (w, tt)) xs)). rewrite wls_unit.
  destruct (diffs_exists (map fst vis)) as (d & ds & Ed); [now rewrite map_length|].
  destruct (diffs_exists xs H2) as (e & es & Ee). rewrite Ed, Ee.
  pose proof (finer_iff vis xs d ds e es Ed Ee) as Hf. split; [intros; lia|]. split.
  - intros _ Hfin. rewrite (proj2 Hf Hfin). rewrite binned_increasing by auto. reflexivity.
  - intros _ Hn. destruct (Rltb (rmax d ds) (rmin e es)); [exfalso; apply Hn, Hf; reflexivity|].
    rewrite sort_id; auto. apply increasing_nondecreasing. now apply keep_last_sorted.
Qed.
