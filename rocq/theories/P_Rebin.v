(** C124: the second rebinning function, rebin_. *)
From Coq Require Import Reals Lra Psatz Sorted Lia.
From Verif Require Import Base XR M_Signal M_Rebin S_Signal S_Rebin L_Signal P_Signal.
Open Scope list_scope.
Open Scope R_scope.

(** *** interpolation on increasing sources *)
Lemma interp_later p q l w : fst p < fst q -> fst q <= w -> interp (p :: q :: l) w = interp (q :: l) w.
Proof.
  intros H Hw. unfold interp. cbn [locate].
  assert (Rltb w (fst p) = false) as -> by (apply Rltb_false; lra).
  assert (Rltb w (fst q) = false) as -> by (apply Rltb_false; lra).
  destruct (locate w l) as [r|]; reflexivity.
Qed.
Lemma first_two {V} (p q : R * V) l : increasing (wls (p :: q :: l)) -> fst p < fst q /\ increasing (wls (q :: l)).
Proof. intros H. apply StronglySorted_inv in H as [H1 H2]. split; auto. now inversion H2. Qed.
Lemma interp_head p l : increasing (wls (p :: l)) -> interp (p :: l) (fst p) = snd p.
Proof.
  intros H. unfold interp. cbn [locate]. assert (Rltb (fst p) (fst p) = false) as E by (apply Rltb_false; lra). rewrite E.
  destruct l as [|q l]; [cbn [locate]; now rewrite E|]. apply first_two in H as [H _]. cbn [locate].
  assert (Rltb (fst p) (fst q) = true) as -> by now apply Rltb_true. cbn [fst snd]. field. lra.
Qed.
Lemma interp_before p l w : w < fst p -> interp (p :: l) w = 0.
Proof. intros H. unfold interp. cbn [locate]. now rewrite (proj2 (Rltb_true w (fst p)) H). Qed.
Lemma interp_after p w : fst p < w -> interp [p] w = 0.
Proof.
  intros H. unfold interp. cbn [locate]. assert (Rltb w (fst p) = false) as -> by (apply Rltb_false; lra).
  now rewrite (proj2 (Rltb_true (fst p) w) H).
Qed.
Lemma interp_first p q l w : increasing (wls (p :: q :: l)) -> fst p <= w <= fst q ->
  interp (p :: q :: l) w = (snd q - snd p) / (fst q - fst p) * (w - fst p) + snd p.
Proof.
  intros H Hw. apply first_two in H as [H Hi]. destruct (Rle_lt_dec (fst q) w) as [Hq|Hq].
  - assert (w = fst q) as -> by lra. rewrite interp_later by lra. rewrite interp_head by auto. field. lra.
  - unfold interp. cbn [locate].
    assert (Rltb w (fst p) = false) as -> by (apply Rltb_false; lra).
    assert (Rltb w (fst q) = true) as -> by now apply Rltb_true. reflexivity.
Qed.
Lemma interp_at l p : increasing (wls l) -> In p l -> interp l (fst p) = snd p.
Proof.
  induction l as [|a l IH]; intros H Hp; [destruct Hp|]. destruct Hp as [<-|Hp]; [now apply interp_head|].
  destruct l as [|b l]; [destruct Hp|]. pose proof H as H0. apply first_two in H as [H Hi]. rewrite interp_later; auto.
  destruct Hp as [<-|Hp]; [lra|]. left. apply (sorted_Forall_In Rlt _ _ Hi). now apply in_map.
Qed.

(** the growth of an interpolation is bounded by the slopes of its segments *)
Fixpoint sloped (m M : R) (l : list (R * R)) : Prop :=
  match l with
  | p :: ((q :: _) as l') => m * (fst q - fst p) <= snd q - snd p <= M * (fst q - fst p) /\ sloped m M l'
  | _ => True
  end.
Lemma slope_in m M d e t : 0 < d -> m * d <= e <= M * d -> 0 <= t -> m * t <= e / d * t <= M * t.
Proof.
  intros Hd He Ht. assert (m <= e / d <= M); [|nra].
  split; apply Rmult_le_reg_r with d; auto; unfold Rdiv; rewrite Rmult_assoc, Rinv_l by lra; lra.
Qed.
Lemma interp_growth m M l : increasing (wls l) -> sloped m M l ->
  forall a b p, hd_error l = Some p -> fst p <= a -> a <= b -> (exists r, In r l /\ b <= fst r) ->
  m * (b - a) <= interp l b - interp l a <= M * (b - a).
Proof.
  induction l as [|p l IH]; intros Hi Hs a b p' Hp Ha Hab (r & Hr & Hb); [destruct Hr|]. injection Hp as <-.
  destruct l as [|q l].
  { destruct Hr as [<-|[]]. assert (a = b) as -> by lra. lra. }
  pose proof (first_two p q l Hi) as [Hpq Hi']. destruct Hs as [Hs Hs'].
  destruct (Rle_lt_dec (fst q) a) as [Hqa|Hqa].
  { rewrite !interp_later by lra. apply (IH Hi' Hs' a b q); auto. exists r. split; auto.
    destruct Hr as [<-|Hr]; auto. lra. }
  destruct (Rle_lt_dec b (fst q)) as [Hbq|Hbq].
  { rewrite !interp_first by (auto; lra). pose proof (slope_in m M _ _ (b - a) (Rlt_Rminus _ _ Hpq) Hs ltac:(lra)).
    replace ((snd q - snd p) / (fst q - fst p) * (b - fst p) + snd p - ((snd q - snd p) / (fst q - fst p) * (a - fst p) + snd p))
      with ((snd q - snd p) / (fst q - fst p) * (b - a)) by (field; lra). auto. }
  assert (Hr' : In r (q :: l)) by (destruct Hr as [<-|Hr]; auto; lra).
  destruct (IH Hi' Hs' (fst q) b q eq_refl) as [H1 H2]; [lra|lra|eauto|]. rewrite interp_head in H1, H2 by auto.
  rewrite (interp_later p q l b) by lra. rewrite (interp_first p q l a) by (auto; lra).
  pose proof (slope_in m M _ _ (fst q - a) (Rlt_Rminus _ _ Hpq) Hs ltac:(lra)) as H3.
  assert (E : snd q - ((snd q - snd p) / (fst q - fst p) * (a - fst p) + snd p) = (snd q - snd p) / (fst q - fst p) * (fst q - a)) by (field; lra).
  lra.
Qed.

(** *** the accumulated area *)
Lemma accumulate_wls l : forall acc p, wls (accumulate acc p l) = wls l.
Proof. induction l as [|q l IH]; intros acc p; auto. unfold wls in *. cbn [accumulate map fst]. now rewrite IH. Qed.
Lemma accumulate_sloped m M l : forall acc p, increasing (wls (p :: l)) -> (forall r, In r (p :: l) -> m <= snd r <= M) -> sloped m M (accumulate acc p l).
Proof.
  induction l as [|q l IH]; intros acc p Hi Hb; cbn [accumulate]; [exact I|]. apply first_two in Hi as [H1 H2].
  specialize (IH (acc + (fst q - fst p) * (snd q + snd p) / 2) q H2 (fun r Hr => Hb r (or_intror Hr))).
  destruct l as [|s l]; [exact I|]. cbn [accumulate] in *. split; auto. cbn [fst snd].
  apply first_two in H2 as [H2 _]. pose proof (Hb q (or_intror (or_introl eq_refl))). pose proof (Hb s (or_intror (or_intror (or_introl eq_refl)))). nra.
Qed.
Lemma area_app p : forall a q b, area (p :: a ++ q :: b) = area (p :: a ++ [q]) + area (q :: b).
Proof.
  intros a. revert p. induction a as [|s a IH]; intros p q b.
  - cbn [app]. change (area (p :: q :: b)) with ((fst q - fst p) * (snd p + snd q) / 2 + area (q :: b)). cbn [area]. lra.
  - change (area (p :: (s :: a) ++ q :: b)) with ((fst s - fst p) * (snd p + snd s) / 2 + area (s :: a ++ q :: b)).
    change (area (p :: (s :: a) ++ [q])) with ((fst s - fst p) * (snd p + snd s) / 2 + area (s :: a ++ [q])). rewrite IH. lra.
Qed.
Lemma accumulate_at l1 : forall acc p q l2, In (fst q, acc + area (p :: l1 ++ [q])) (accumulate acc p (l1 ++ q :: l2)).
Proof.
  induction l1 as [|s l1 IH]; intros acc p q l2; cbn [app accumulate].
  - left. f_equal. cbn [area]. lra.
  - right. specialize (IH (acc + (fst s - fst p) * (snd s + snd p) / 2) s q l2).
    change (area (p :: s :: l1 ++ [q])) with ((fst s - fst p) * (snd p + snd s) / 2 + area (s :: l1 ++ [q])).
    replace (acc + ((fst s - fst p) * (snd p + snd s) / 2 + area (s :: l1 ++ [q]))) with (acc + (fst s - fst p) * (snd s + snd p) / 2 + area (s :: l1 ++ [q])) by lra. exact IH.
Qed.

(** *** the widths of the bins *)
Lemma diffs_nth l : forall i, (S i < length l)%nat -> nth i (diffs l) 0 = nth (S i) l 0 - nth i l 0.
Proof.
  induction l as [|a [|b l] IH]; intros i Hi; cbn in Hi; try lia. destruct i as [|i]; [reflexivity|].
  change (nth (S i) (diffs (a :: b :: l)) 0) with (nth i (diffs (b :: l)) 0). rewrite IH by (cbn; lia). reflexivity.
Qed.
Lemma gradient_length xs : (2 <= length xs)%nat -> length (gradient xs) = length xs.
Proof.
  intros H. unfold gradient. pose proof (diffs_length xs). destruct (diffs xs) as [|d ds] eqn:E; cbn in *; [lia|].
  rewrite app_length. pose proof (mids_length (d :: ds)). cbn in *. lia.
Qed.
Lemma gradient_nth xs i : (2 <= length xs)%nat -> (i < length xs)%nat -> nth i (gradient xs) 0 = width xs i.
Proof.
  intros H Hi. unfold gradient. pose proof (diffs_length xs) as Hl. pose proof (diffs_nth xs) as Hn.
  destruct (diffs xs) as [|d ds] eqn:E; [cbn in *; lia|]. pose proof (mids_length (d :: ds)) as Hm.
  destruct i as [|j].
  - unfold width. cbn [nth]. rewrite <- (Hn 0%nat) by lia. reflexivity.
  - unfold width. change (nth (S j) (d :: mids (d :: ds) ++ [last (d :: ds) 0]) 0) with (nth j (mids (d :: ds) ++ [last (d :: ds) 0]) 0).
    destruct (Nat.eqb (S (S j)) (length xs)) eqn:En.
    + apply Nat.eqb_eq in En. rewrite app_nth2 by lia. replace (j - length (mids (d :: ds)))%nat with 0%nat by lia. cbn [nth].
      rewrite last_nth. rewrite <- (Hn j) by lia. f_equal. lia.
    + apply Nat.eqb_neq in En. rewrite app_nth1 by lia. rewrite mids_nth by lia. rewrite (Hn j), (Hn (S j)) by lia. lra.
Qed.
Lemma width_pos xs i : increasing xs -> (2 <= length xs)%nat -> (i < length xs)%nat -> 0 < width xs i.
Proof.
  intros Hs H2 Hi. assert (Hlt : forall a b, (a < b)%nat -> (b < length xs)%nat -> nth a xs 0 < nth b xs 0).
  { clear - Hs. induction Hs as [|x l Hs IH Hf]; intros a b Hab Hb; [cbn in Hb; lia|]. cbn in Hb. destruct b as [|b]; [lia|]. destruct a as [|a]; cbn.
    - rewrite Forall_forall in Hf. apply Hf. apply nth_In. lia.
    - apply IH; lia. }
  unfold width. destruct i as [|j]; [specialize (Hlt 0%nat 1%nat ltac:(lia) ltac:(lia)); lra|].
  destruct (Nat.eqb _ _) eqn:E.
  - specialize (Hlt j (S j) ltac:(lia) ltac:(lia)). lra.
  - apply Nat.eqb_neq in E. specialize (Hlt j (S (S j)) ltac:(lia) ltac:(lia)). lra.
Qed.
Lemma bin_values_length c : forall x ds, length x = length ds -> length (bin_values c x ds) = length x.
Proof. induction x as [|w x IH]; intros [|d ds] H; cbn in *; try lia; auto. Qed.
Lemma bin_values_nth c : forall x ds i, length x = length ds -> (i < length x)%nat ->
  nth i (bin_values c x ds) 0 = bin_value c (nth i x 0) (nth i ds 0).
Proof. induction x as [|w x IH]; intros [|d ds] i H Hi; cbn in *; try lia. destruct i as [|i]; auto. apply IH; lia. Qed.

Lemma const_nth {A} (d : R) (l : list A) : forall i, (i < length l)%nat -> nth i (map (fun _ => d) l) 0 = d.
Proof. induction l as [|a l IH]; intros i Hi; cbn in Hi; [lia|]. destruct i; cbn; auto. apply IH. lia. Qed.

(** *** which branch *)
Lemma rmax_finer (win : list (R * R)) xs d ds e es : diffs (map fst win) = d :: ds -> diffs xs = e :: es ->
  (Rltb (rmax d ds) (rmin e es) = true <-> finer win xs).
Proof.
  intros E1' E2. rewrite Rltb_true, rmin_gt. split.
  - intros H p q a b Hp Ha. assert (Hd : In (fst q - fst p) (d :: ds)) by (rewrite <- E1'; apply diffs_In; exists (fst p), (fst q); split; auto; apply neighbours_map; eauto).
    assert (He : In (b - a) (e :: es)) by (rewrite <- E2; apply diffs_In; eauto).
    specialize (H _ He). pose proof (proj2 (rmax_spec ds d) _ Hd). lra.
  - intros H y Hy. apply (proj2 (rmax_lt d ds y)). intros z Hz. rewrite <- E1' in Hz. rewrite <- E2 in Hy.
    apply diffs_In in Hz. apply diffs_In in Hy. destruct Hz as (a & b & Hn & ->). destruct Hy as (a' & b' & Hn' & ->).
    apply neighbours_map in Hn. destruct Hn as (p & q & Hpq & -> & ->). now apply H.
Qed.
Lemma window_visible xs src lo hi : least lo xs -> greatest hi xs -> window_ xs src = Ok (visible lo hi src).
Proof.
  intros Hlo Hhi. destruct xs as [|a l]; [destruct Hlo as [[] _]|]. unfold window_.
  rewrite (least_unique _ _ _ Hlo (rmin_least a l)), (greatest_unique _ _ _ Hhi (rmax_greatest a l)). reflexivity.
Qed.
Lemma same_unit_refl u : same_unit u u = true.
Proof. unfold same_unit. rewrite String.eqb_refl. destruct (Req_EM_T (scale u) (scale u)); [reflexivity|congruence]. Qed.
Lemma rebin__cases u xs src lo hi : (2 <= length xs)%nat -> least lo xs -> greatest hi xs ->
  let vis := visible lo hi src in
  ((length vis < 2)%nat -> rebin_ u u xs src = Err ValueError)
  /\ ((2 <= length vis)%nat -> finer vis xs -> rebin_ u u xs src = Ok (xs, bin_values (cumulative vis) xs (gradient xs)))
  /\ ((2 <= length vis)%nat -> ~ finer vis xs -> rebin_ u u xs src = Ok (xs, map (interp vis) xs)).
Proof.
  intros H2 Hlo Hhi vis. unfold rebin_. rewrite same_unit_refl, (window_visible _ _ _ _ Hlo Hhi). cbn [negb bind]. fold vis.
  pose proof (diffs_length (map fst vis)) as Ld. rewrite map_length in Ld. pose proof (diffs_length xs) as Lx.
  destruct (diffs (map fst vis)) as [|d ds] eqn:Ed; cbn [length] in *.
  { split; [auto|]. split; intros; lia. }
  destruct (diffs xs) as [|e es] eqn:Ee; cbn [length] in *; [lia|].
  pose proof (rmax_finer vis xs d ds e es Ed Ee) as Hf. split; [lia|]. split; intros _ H.
  - apply Hf in H. now rewrite H.
  - destruct (Rltb (rmax d ds) (rmin e es)); [|reflexivity]. exfalso. apply H, Hf. reflexivity.
Qed.

(** ** C124 *)
(** Different units are refused, and nothing else but a ValueError is ever raised. *)
Theorem C124_units_refused : forall xu xpu x src, convertible xu xpu -> scale xu <> scale xpu -> rebin_ xu xpu x src = Err ValueError.
Proof.
  intros xu xpu x src _ H. unfold rebin_, same_unit. destruct (Req_EM_T (scale xu) (scale xpu)); [contradiction|]. now rewrite andb_false_r.
Qed.
Print Assumptions C124_units_refused.

(** It fails on the same arguments as rebin; where the sources are not finer than the targets
    everywhere, both give the same values. *)
Theorem C124_agrees_where_interpolating : forall u xs src lo hi, increasing xs -> (2 <= length xs)%nat -> least lo xs -> greatest hi xs -> increasing (wls src) ->
  let vis := visible lo hi src in
  (rebin_ u u xs src = Err ValueError <-> rebin u u (map Some xs) (known src) = Err ValueError)
  /\ (~ finer vis xs -> forall g f, rebin_ u u xs src = Ok (g, f) <-> g = xs /\ rebin u u (map Some xs) (known src) = Ok (g, map Some f)).
Proof.
  intros u xs src lo hi Hs H2 Hlo Hhi Hsrc vis.
  destruct (rebin__cases u xs src lo hi H2 Hlo Hhi) as (A' & B & C). fold vis in A', B, C.
  destruct (rebin_increasing u xs src lo hi Hs H2 Hlo Hhi (increasing_nondecreasing _ Hsrc)) as (A2 & B2 & C2).
  assert (Hv : increasing (wls vis)) by now apply filter_sorted. fold vis in A2, B2, C2. rewrite keep_last_increasing in A2, B2, C2 by auto.
  destruct (Nat.lt_ge_cases (length vis) 2) as [Hl|Hl].
  - rewrite (A' Hl), (A2 Hl). split; [tauto|]. intros _ g f. split; [discriminate|]. now intros [_ H].
  - split.
    + destruct (Classical_Prop.classic (finer vis xs)) as [Hf|Hf]; [rewrite (B Hl Hf), (B2 Hl Hf)|rewrite (C Hl Hf), (C2 Hl Hf)]; split; discriminate.
    + intros Hf g f. rewrite (C Hl Hf), (C2 Hl Hf).
      assert (E : map (fun w => Some (interp vis w)) xs = map Some (map (interp vis) xs)) by (now rewrite map_map). rewrite E. split.
      * intros [= <- <-]. auto.
      * intros [-> H]. injection H as H. f_equal. f_equal. clear - H. revert f H. induction (map (interp vis) xs) as [|a l IH]; intros [|b f] H; cbn in H; try discriminate; auto.
        injection H as -> H. f_equal. now apply IH.
Qed.
Print Assumptions C124_agrees_where_interpolating.

(** Where the sources are finer: one value per target, and the value of every bin that lies between
    the second and the last source is between the smallest and the largest sample. *)
Theorem C124_covered_bins_within_samples : forall u xs src lo hi g f, increasing xs -> (2 <= length xs)%nat -> least lo xs -> greatest hi xs -> increasing (wls src) ->
  let vis := visible lo hi src in finer vis xs -> rebin_ u u xs src = Ok (g, f) ->
  g = xs /\ length f = length xs
  /\ forall m M, (forall p, In p vis -> m <= snd p <= M) ->
     forall i, (i < length xs)%nat -> covered vis (low_border xs i) (high_border xs i) -> m <= nth i f 0 <= M.
Proof.
  intros u xs src lo hi g f Hs H2 Hlo Hhi Hsrc vis Hf E.
  destruct (rebin__cases u xs src lo hi H2 Hlo Hhi) as (A' & B & _). fold vis in A', B.
  assert (Hv : increasing (wls vis)) by now apply filter_sorted.
  destruct (Nat.lt_ge_cases (length vis) 2) as [Hl|Hl]; [rewrite (A' Hl) in E; discriminate|]. rewrite (B Hl Hf) in E. injection E as <- <-.
  split; [auto|]. split; [apply bin_values_length; now rewrite gradient_length|].
  intros m M Hb i Hi (p0 & p1 & rest & Ev & Ha & r & Hr & Hb').
  rewrite bin_values_nth by (rewrite ?gradient_length; auto). rewrite gradient_nth by auto.
  pose proof (width_pos xs i Hs H2 Hi) as Hw. unfold low_border, high_border in *. set (d := width xs i) in *. set (w := nth i xs 0) in *.
  rewrite Ev in Hv, Hb, Hr. unfold bin_value. rewrite Ev.
  change (cumulative (p0 :: p1 :: rest)) with (accumulate 0 p0 (p1 :: rest)). set (c := accumulate 0 p0 (p1 :: rest)).
  pose proof (first_two _ _ _ Hv) as [H01 Hv1].
  assert (Hc : increasing (wls c)) by (unfold c; now rewrite accumulate_wls).
  assert (Hsl : sloped m M c) by (apply accumulate_sloped; auto).
  assert (Hh : exists s, hd_error c = Some (fst p1, s)) by (eexists; reflexivity). destruct Hh as [s Hh].
  destruct (interp_growth m M c Hc Hsl (w - 0.5 * d) (w + 0.5 * d) (fst p1, s) Hh) as [L U]; [cbn; lra|lra| |].
  { assert (Hrw : In (fst r) (wls c)).
    { unfold c. rewrite accumulate_wls. destruct Hr as [<-|Hr]; [exfalso; lra|]. now apply in_map. }
    apply in_map_iff in Hrw. destruct Hrw as (r' & Er & Hr'). exists r'. split; auto. rewrite Er. lra. }
  split; apply Rmult_le_reg_r with d; auto; unfold Rdiv; rewrite Rmult_assoc, Rinv_l by lra; lra.
Qed.
Print Assumptions C124_covered_bins_within_samples.

(** On a grid of equal steps whose outer borders are sources (the first one not the very first), the
    values times the step add up to the area under the samples between these borders. *)
Theorem C124_light_conserved : forall u xs src lo hi g f d, increasing xs -> (2 <= length xs)%nat -> least lo xs -> greatest hi xs -> increasing (wls src) ->
  let vis := visible lo hi src in finer vis xs -> rebin_ u u xs src = Ok (g, f) -> evenly d xs ->
  forall a p b q c, vis = a ++ p :: b ++ q :: c -> a <> [] ->
  fst p = lo - d / 2 -> fst q = hi + d / 2 -> sum f * d = area (p :: b ++ [q]).
Proof.
  intros u xs src lo hi g f d Hs H2 Hlo Hhi Hsrc vis Hf E He a p b q c Ev Ha Hp Hq.
  destruct (rebin__cases u xs src lo hi H2 Hlo Hhi) as (A' & B & _). fold vis in A', B.
  assert (Hv : increasing (wls vis)) by now apply filter_sorted.
  destruct (Nat.lt_ge_cases (length vis) 2) as [Hl|Hl]; [rewrite (A' Hl) in E; discriminate|]. rewrite (B Hl Hf) in E. injection E as <- <-.
  set (F := interp (cumulative vis)).
  assert (Hd : 0 < d).
  { specialize (He 0%nat ltac:(lia)). pose proof (width_pos xs 0 Hs H2 ltac:(lia)) as H. unfold width in H. lra. }
  assert (Hg : gradient xs = map (fun _ => d) xs).
  { apply (nth_ext _ _ 0 0); [rewrite map_length; now apply gradient_length|]. intros i Hi. rewrite gradient_length in Hi by auto.
    rewrite gradient_nth by auto. rewrite const_nth by auto.
    unfold width. destruct i as [|j]; [now apply He|]. destruct (Nat.eqb _ _) eqn:En; [apply He; lia|].
    apply Nat.eqb_neq in En. pose proof (He j ltac:(lia)). pose proof (He (S j) ltac:(lia)). lra. }
  rewrite Hg.
  assert (Hsum : forall x l, evenly d (x :: l) -> sum (bin_values (cumulative vis) (x :: l) (map (fun _ => d) (x :: l))) * d = F (last (x :: l) 0 + d / 2) - F (x - d / 2)).
  { clear - Hd. intros x l. revert x. induction l as [|y l IH]; intros x Hev.
    - cbn [map bin_values sum fold_right last]. unfold bin_value. fold F. replace (0.5 * d) with (d / 2) by lra. field. lra.
    - assert (Hev' : evenly d (y :: l)) by (intros i Hi; exact (Hev (S i) ltac:(cbn in *; lia))).
      specialize (IH y Hev'). change (last (x :: y :: l) 0) with (last (y :: l) 0).
      assert (Hxy : y = x + d) by (pose proof (Hev 0%nat ltac:(cbn; lia)) as H; cbn in H; lra).
      cbn [map bin_values] in *. unfold sum in *. cbn [fold_right] in *. rewrite Rmult_plus_distr_r, IH. unfold bin_value. fold F.
      replace (y - d / 2) with (x + 0.5 * d) by lra. replace (0.5 * d) with (d / 2) by lra. field. lra. }
  destruct xs as [|x l]; [cbn in H2; lia|]. rewrite (Hsum x l He).
  assert (Elo : x = lo).
  { apply (least_unique x lo (x :: l)); auto. split; [now left|]. intros y [->|Hy]; [lra|]. left. now apply (sorted_Forall_In Rlt _ _ Hs). }
  assert (Ehi : last (x :: l) 0 = hi).
  { apply (greatest_unique _ hi (x :: l)); auto. clear - Hs. revert x Hs. induction l as [|y l IH]; intros x Hs.
    - split; [now left|]. intros y [->|[]]. cbn. lra.
    - apply StronglySorted_inv in Hs as [Hs Hx]. destruct (IH y Hs) as [I1 I2]. change (last (x :: y :: l) 0) with (last (y :: l) 0).
      split; [now right|]. intros z [->|Hz]; auto. rewrite Forall_forall in Hx. left. now apply Hx. }
  rewrite Ehi, Elo, <- Hp, <- Hq. unfold F.
  destruct a as [|a0 a]; [contradiction|]. rewrite Ev in Hv. cbn [app] in Hv. rewrite Ev. cbn [app].
  change (cumulative (a0 :: a ++ p :: b ++ q :: c)) with (accumulate 0 a0 (a ++ p :: b ++ q :: c)).
  assert (Hc : increasing (wls (accumulate 0 a0 (a ++ p :: b ++ q :: c)))) by (rewrite accumulate_wls; now apply StronglySorted_inv in Hv).
  pose proof (accumulate_at a 0 a0 p (b ++ q :: c)) as Ip.
  pose proof (accumulate_at (a ++ p :: b) 0 a0 q c) as Iq. rewrite <- !app_assoc in Iq. cbn [app] in Iq.
  pose proof (interp_at _ _ Hc Ip) as Vp. pose proof (interp_at _ _ Hc Iq) as Vq. cbn [fst snd] in Vp, Vq. rewrite Vp, Vq.
  rewrite (area_app a0 a p (b ++ [q])). lra.
Qed.
Print Assumptions C124_light_conserved.

(** The hypotheses of these theorems are met: three targets and sources of which the second and the
    last but one are the outer borders. *)
Lemma visible_in lo hi (p : R * R) l : 0.9 * lo < fst p < 1.1 * hi -> visible lo hi (p :: l) = p :: visible lo hi l.
Proof. intros [H1 H2]. unfold visible. cbn [filter]. destruct (Rlt_dec (0.9 * lo) (fst p)); [|contradiction]. destruct (Rlt_dec (fst p) (1.1 * hi)); [reflexivity|contradiction]. Qed.
Lemma visible_out lo hi (p : R * R) l : fst p <= 0.9 * lo \/ 1.1 * hi <= fst p -> visible lo hi (p :: l) = visible lo hi l.
Proof.
  intros H. unfold visible. cbn [filter]. destruct (Rlt_dec (0.9 * lo) (fst p)); [|reflexivity].
  destruct (Rlt_dec (fst p) (1.1 * hi)); [lra|reflexivity].
Qed.
Ltac see := repeat first [rewrite visible_in by (cbn [fst]; lra)|rewrite visible_out by (cbn [fst]; lra)]; reflexivity.
Definition wide_targets : list R := [10; 11; 12].
Lemma wide_grid : increasing wide_targets /\ least 10 wide_targets /\ greatest 12 wide_targets.
Proof.
  unfold wide_targets. repeat split; [repeat constructor; lra|cbn; auto|intros y Hy; cbn in Hy; intuition subst; lra|cbn; auto|intros y Hy; cbn in Hy; intuition subst; lra].
Qed.
Definition wide_sources : list (R * R) := [(8, 9); (9.1, 2); (9.5, 4); (9.8, 1); (10.4, 3); (10.5, 3); (11.3, 5); (11.5, 1); (12.2, 8); (12.5, 6); (13, 7); (14, 1)].
Example C124_ex : let vis := visible 10 12 wide_sources in
  increasing (wls wide_sources) /\ evenly 1 wide_targets /\ finer vis wide_targets
  /\ vis = [(9.1, 2)] ++ (9.5, 4) :: [(9.8, 1); (10.4, 3); (10.5, 3); (11.3, 5); (11.5, 1); (12.2, 8)] ++ (12.5, 6) :: [(13, 7)]
  /\ (exists f, rebin_ um um wide_targets wide_sources = Ok (wide_targets, f))
  /\ (forall i, (i < 3)%nat -> covered vis (low_border wide_targets i) (high_border wide_targets i)).
Proof.
  destruct wide_grid as (Hs & Hlo & Hhi).
  assert (Hv : visible 10 12 wide_sources = [(9.1, 2); (9.5, 4); (9.8, 1); (10.4, 3); (10.5, 3); (11.3, 5); (11.5, 1); (12.2, 8); (12.5, 6); (13, 7)])
    by (unfold wide_sources; see).
  assert (Hf : finer (visible 10 12 wide_sources) wide_targets).
  { rewrite Hv. intros p q a b Hp Ha. unfold wide_targets in Ha. neighbour_cases Hp; neighbour_cases Ha; cbn; lra. }
  cbv zeta. split; [cbn; repeat constructor; lra|]. split; [|split; [auto|split; [exact Hv|split]]].
  - intros i Hi. cbn in Hi. destruct i as [|[|i]]; cbn; try lra. lia.
  - destruct (rebin__cases um wide_targets wide_sources 10 12 ltac:(cbn; lia) Hlo Hhi) as (_ & Hb & _). eexists. apply Hb; auto. rewrite Hv. cbn. lia.
  - intros i Hi. rewrite Hv. exists (9.1, 2), (9.5, 4). eexists. split; [reflexivity|].
    destruct i as [|[|[|i]]]; [| | |lia]; (split; [unfold low_border, width, wide_targets; cbn; lra|]); exists (13, 7); (split; [cbn; auto 12|unfold high_border, width, wide_targets; cbn; lra]).
Qed.

(** What one might expect and is false: samples which are all 1 do not give 1 at the ends.  A first
    bin which begins before the second source gets light of the sources before it too, and a last bin
    which ends after the last source is negative. *)
Theorem C124_ends_refuted : exists src f, (forall p, In p src -> snd p = 1) /\ increasing (wls src)
  /\ rebin_ um um [10; 11; 12] src = Ok ([10; 11; 12], f) /\ f = [1.4; 1; -2.4].
Proof.
  set (src := [(9.1, 1); (9.6, 1); (10.4, 1); (11.2, 1); (11.9, 1); (12.3, 1)] : list (R * R)).
  destruct wide_grid as (Hs & Hlo & Hhi). unfold wide_targets in *.
  assert (Hv : visible 10 12 src = src) by (unfold src; see).
  assert (Hf : finer src [10; 11; 12]).
  { intros p q a b Hp Ha. unfold src in Hp. neighbour_cases Hp; neighbour_cases Ha; cbn; lra. }
  exists src. eexists. split; [intros p Hp; unfold src in Hp; cbn in Hp; intuition subst; reflexivity|].
  split; [unfold src; cbn; repeat constructor; lra|]. split.
  - destruct (rebin__cases um [10; 11; 12] src 10 12 ltac:(cbn; lia) Hlo Hhi) as (_ & Hb & _). rewrite Hv in Hb. apply Hb; auto. unfold src. cbn. lia.
  - assert (Ec : cumulative src = [(9.6, 0.5); (10.4, 1.3); (11.2, 2.1); (11.9, 2.8); (12.3, 3.2)]).
    { unfold src. cbn [cumulative accumulate fst snd]. repeat f_equal; lra. }
    assert (Eg : gradient [10; 11; 12] = [1; 1; 1]) by (unfold gradient; cbn [diffs mids app last]; repeat f_equal; lra).
    rewrite Ec, Eg. cbn [bin_values]. unfold bin_value.
    set (c := [(9.6, 0.5); (10.4, 1.3); (11.2, 2.1); (11.9, 2.8); (12.3, 3.2)]).
    assert (Hc : increasing (wls c)) by (cbn; repeat constructor; lra).
    assert (F0 : interp c (10 - 0.5 * 1) = 0) by (apply interp_before; cbn; lra).
    assert (F1 : forall w, w = 10.5 -> interp c w = 1.4).
    { intros w ->. unfold c. rewrite interp_later by (cbn; lra). apply first_two in Hc as [_ Hc]. rewrite interp_first by (auto; cbn; lra). cbn. lra. }
    assert (F2 : forall w, w = 11.5 -> interp c w = 2.4).
    { intros w ->. unfold c. rewrite !interp_later by (cbn; lra). apply first_two in Hc as [_ Hc]. apply first_two in Hc as [_ Hc]. rewrite interp_first by (auto; cbn; lra). cbn. lra. }
    assert (F3 : interp c (12 + 0.5 * 1) = 0).
    { unfold c. rewrite !interp_later by (cbn; lra). apply interp_after; cbn; lra. }
    rewrite F0, F3, (F1 (10 + 0.5 * 1)), (F1 (11 - 0.5 * 1)), (F2 (11 + 0.5 * 1)), (F2 (12 - 0.5 * 1)) by lra. repeat f_equal; lra.
Qed.
Print Assumptions C124_ends_refuted.
