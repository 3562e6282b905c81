(** Properties of spectral bins, pixels and windows (C32, C33, C35, C36, C60, C62, C63). *)
From Verif Require Import Base XR M_Signal M_Optics M_Light M_Bins S_Signal S_Optics S_Light S_Bins L_Signal L_Optics L_Light P_Signal L_Bins.
From Coq Require Import Lia Sorted Permutation.
Open Scope list_scope.
Open Scope R_scope.

(** ** C32 *)
Theorem C32_photometer_bin : forall wl_min wl_max, exists b, photometer_table wl_min wl_max = [b]
  /\ left_edge b = wl_min /\ right_edge b = wl_max /\ proper b.
Proof. intros a c. eexists. split; [reflexivity|]. unfold proper. cbn. lra. Qed.
Print Assumptions C32_photometer_bin.

(** ** C33: a number as target resolution *)
Lemma geometric_nth m q n i : (i < n)%nat -> nth i (map (fun k => m * q ^ k) (seq 0 n)) 0 = m * q ^ i.
Proof. intros H. rewrite nth_indep with (d' := (fun k => m * q ^ k) 0%nat) by (rewrite map_length, seq_length; auto). rewrite (map_nth (fun k => m * q ^ k)), seq_nth by auto. reflexivity. Qed.
Lemma increasing_from_nth (l : list R) : (forall i, (S i < length l)%nat -> nth i l 0 < nth (S i) l 0) -> increasing l.
Proof.
  intros H. apply neighbours_sorted; [intros x y z; lra|]. intros a b Hn. apply neighbours_nth in Hn. destruct Hn as (i & Hi & <- & <-). auto.
Qed.
Lemma bins_count m M r : 0 < m < M -> 0 < r -> let q := 1 + 1 / r in
  exists k, Z.to_nat (Rceil (ln (M / m) / ln q) + 1) = S (S k) /\ m * q ^ k < M <= m * q ^ S k.
Proof.
  intros Hm Hr q. assert (Hq : 1 < q) by (unfold q; assert (0 < 1 / r) by (apply Rdiv_lt_0_compat; lra); lra).
  assert (Hlq : 0 < ln q) by (rewrite <- ln_1; apply ln_increasing; lra).
  assert (HL : 0 < ln (M / m)). { rewrite <- ln_1. apply ln_increasing; [lra|]. apply Rmult_lt_reg_r with m; [lra|]. unfold Rdiv. rewrite Rmult_assoc, Rinv_l by lra. lra. }
  assert (Hx : 0 < ln (M / m) / ln q) by now apply Rdiv_lt_0_compat.
  set (x := ln (M / m) / ln q) in *. destruct (Rceil_spec x) as [C1 C2].
  assert (HC : (1 <= Rceil x)%Z). { apply Z.lt_pred_le. apply lt_IZR. cbn. lra. }
  exists (Z.to_nat (Rceil x - 1)). split; [lia|].
  assert (HP : forall n, m * q ^ n = m * exp (INR n * ln q)). { intros n. rewrite <- (Rpower_pow n q) by lra. reflexivity. }
  assert (HM : M = m * exp (x * ln q)). { unfold x. replace (ln (M / m) / ln q * ln q) with (ln (M / m)) by (field; lra). rewrite exp_ln by (apply Rdiv_lt_0_compat; lra). field. lra. }
  rewrite !HP. assert (HK : INR (Z.to_nat (Rceil x - 1)) = IZR (Rceil x) - 1) by (rewrite INR_IZR_INZ, Z2Nat.id by lia; rewrite minus_IZR; lra).
  rewrite S_INR, HK. split.
  - rewrite HM. apply Rmult_lt_compat_l; [lra|]. apply exp_increasing. apply Rmult_lt_compat_r; lra.
  - rewrite HM. apply Rmult_le_compat_l; [lra|]. destruct (Rle_lt_or_eq_dec _ _ C2) as [C3|C3].
    + left. apply exp_increasing. apply Rmult_lt_compat_r; lra.
    + right. f_equal. rewrite <- C3. lra.
Qed.
Theorem C33_fixed_resolution_tiles : forall wl_min wl_max r pix_wl pix_width fuel, 0 < wl_min < wl_max -> 0 < r ->
  exists bins top, spectrometer_table (Some (FixedR r)) wl_min wl_max pix_wl pix_width fuel = Some (Ok (edges_of bins, bins))
  /\ tiling wl_min bins top /\ wl_max <= top
  /\ (forall b, In b bins -> proper b /\ centre b / width b = r + 1 / 2 /\ left_edge b < wl_max).
Proof.
  intros m M r pw pd fuel Hm Hr. cbn [spectrometer_table]. unfold fixed_table. set (q := 1 + 1 / r).
  assert (Hq : 1 < q) by (unfold q; assert (0 < 1 / r) by (apply Rdiv_lt_0_compat; lra); lra).
  destruct (bins_count m M r Hm Hr) as (k & Hk & K1 & K2). fold q in Hk, K1, K2. rewrite Hk. set (e := map (fun k => m * q ^ k) (seq 0 (S (S k)))).
  assert (Hlen : length e = S (S k)) by (unfold e; now rewrite map_length, seq_length).
  assert (Hnth : forall i, (i < S (S k))%nat -> nth i e 0 = m * q ^ i) by (intros; now apply geometric_nth).
  assert (Hpow : forall i, 0 < m * q ^ i) by (intros; apply Rmult_lt_0_compat; [lra|apply pow_lt; lra]).
  assert (Hinc : increasing e). { apply increasing_from_nth. intros i Hi. rewrite !Hnth by lia. cbn [pow]. specialize (Hpow i). nra. }
  assert (He : exists b e', e = m :: b :: e'). { unfold e. cbn. rewrite Rmult_1_r. eauto. } destruct He as (b0 & e' & He).
  exists (between e), (m * q ^ S k). split; [|split; [|split]].
  - rewrite He, between_edges. reflexivity.
  - rewrite He. replace (m * q ^ S k) with (last (b0 :: e') m); [apply between_tiling; now rewrite <- He|].
    rewrite <- (Hnth (S k)) by lia. rewrite <- last_cons with (y := 0). rewrite <- He, last_nth, Hlen. f_equal.
  - auto.
  - intros b Hb. split; [now apply between_proper in Hb|]. apply In_nth_error in Hb. destruct Hb as [i Hi].
    assert (Hi' : (i < length (between e))%nat) by (apply nth_error_Some; congruence). rewrite between_length, Hlen in Hi'.
    destruct (between_nth e i ltac:(lia)) as (b' & E & E1 & E2). assert (b' = b) as -> by congruence. rewrite Hnth in E1, E2 by lia.
    assert (Hp : proper b) by (apply (between_proper e); eapply nth_error_In; eauto). destruct Hp as [P1 P2]. rewrite P1, P2, E1, E2. specialize (Hpow i). split.
    + cbn [pow]. set (P := q ^ i) in *. replace ((m * P + m * (q * P)) / 2) with (m * P * (1 + q) / 2) by lra. replace (m * (q * P) - m * P) with (m * P * (q - 1)) by lra.
      assert (Hr1 : q - 1 = / r) by (unfold q, Rdiv; lra). rewrite Hr1. replace (1 + q) with (2 + / r) by lra. field. repeat split; try lra; intros Hz; rewrite Hz in Hpow; lra.
    + apply Rle_lt_trans with (m * q ^ k); auto. apply Rmult_le_compat_l; [lra|]. apply Rle_pow; [lra|lia].
Qed.
Print Assumptions C33_fixed_resolution_tiles.

(** ** C35: a table of target resolutions *)
Lemma variable_unfold t tab a top fuel : resolution_table t tab -> variable_table t a top fuel =
  match walk tab top fuel a with
  | None => None
  | Some (Err e) => Some (Err e)
  | Some (Ok l) => Some (let* e := merge_last top (a :: l) in Ok (e, between e))
  end.
Proof. intros (w & r & Hw & Hr & Hl & ->). unfold variable_table, col. rewrite Hw, Hr. cbn [bind]. rewrite Hl, Nat.eqb_refl. reflexivity. Qed.
Lemma increasing_app_l (l r : list R) : increasing (l ++ r) -> increasing l.
Proof.
  induction l as [|a l IH]; intros H; [constructor|]. cbn in H. inversion H as [|? ? H1 H2]; subst. constructor; [now apply IH|]. apply Forall_forall. intros x Hx. rewrite Forall_forall in H2. apply H2. apply in_or_app. auto.
Qed.
Lemma neighbours_app {A} (l r : list A) a b : neighbours l a b -> neighbours (l ++ r) a b.
Proof. intros (x & y & ->). exists x, (y ++ r). now rewrite <- app_assoc. Qed.
Lemma last_snoc {A} (l : list A) a d : last (l ++ [a]) d = a.
Proof. apply last_last. Qed.
(** Starting from a multiple of 0.0001 um the bins tile the band from wl_min to wl_max or beyond,
    every inner edge is one resolution element (rounded) after the one before; a last bin with less
    than half of the previous one inside the band is merged, and then the band ends at wl_max. *)
Theorem C35_table_resolution_tiles : forall t tab wl_min wl_max pix_wl pix_width fuel e bins, resolution_table t tab -> sound_table tab -> 0 <= wl_min -> multiple4 wl_min ->
  spectrometer_table (Some (TableR t)) wl_min wl_max pix_wl pix_width fuel = Some (Ok (e, bins)) ->
  exists top, e = edges_of bins /\ tiling wl_min bins top /\ wl_max <= top /\ (forall b, In b bins -> proper b /\ left_edge b < wl_max)
  /\ ((exists front c b, e = front ++ [c; wl_max] /\ edge_after tab c b /\ c < b < wl_max /\ wl_max - b < (b - c) / 2
                         /\ forall x y, neighbours (front ++ [c]) x y -> edge_after tab x y)
      \/ (exists front c b z, e = front ++ [c; b; z] /\ (b - c) / 2 <= wl_max - b /\ forall x y, neighbours e x y -> edge_after tab x y)).
Proof.
  intros t tab m M pw pd fuel e bins Ht [Hi Hp] Hm Hm4 E. cbn [spectrometer_table] in E. rewrite (variable_unfold t tab) in E by auto.
  destruct (walk tab M fuel m) as [[l|]|] eqn:Ew; try discriminate.
  pose proof (walk_increasing tab M Hi Hp _ _ _ Hm Hm4 Ew) as Hinc. apply walk_chain in Ew. destruct Ew as [Hch Hlast].
  unfold merge_last in E. destruct (rev (m :: l)) as [|z [|b [|c r]]] eqn:Er; try discriminate.
  assert (Eraw : m :: l = (rev r ++ [c; b]) ++ [z]). { rewrite <- (rev_involutive (m :: l)), Er. cbn. now rewrite <- !app_assoc. }
  assert (Hall : forall x y, neighbours (m :: l) x y -> edge_after tab x y) by (intros x y Hn; apply next_edge_after; auto; now apply Hch).
  assert (Hz : last l m = z). { rewrite <- last_cons with (y := 0), Eraw. apply last_snoc. }
  assert (Hncb : neighbours (m :: l) c b) by (rewrite Eraw; exists (rev r), [z]; now rewrite <- app_assoc).
  assert (Hnbz : neighbours (m :: l) b z) by (rewrite Eraw; exists (rev r ++ [c]), []; now rewrite <- !app_assoc).
  assert (Hcb : c < b) by (eapply (sorted_neighbours Rlt); eauto). assert (HbM : b < M) by now apply Hch in Hnbz.
  assert (Hleft : forall e0 b0, (forall x y, neighbours e0 x y -> x < M) -> In b0 (between e0) -> left_edge b0 < M).
  { intros e0 b0 H0 Hb0. apply In_nth_error in Hb0. destruct Hb0 as [i Hb0]. assert (Hi0 : (i < length (between e0))%nat) by (apply nth_error_Some; congruence). rewrite between_length in Hi0.
    destruct (between_nth e0 i ltac:(lia)) as (b' & E' & E1 & _). assert (b' = b0) as -> by congruence. rewrite E1. apply (H0 _ (nth (S i) e0 0)). apply neighbours_nth. exists i. split; [lia|auto]. }
  destruct (Rltb (M - b) ((b - c) / 2)) eqn:Em; cbn [bind] in E.
  - apply Rltb_true in Em. cbn [rev] in E. rewrite <- app_assoc in E. cbn [app] in E. assert (e = rev r ++ [c; M]) as -> by congruence. assert (bins = between (rev r ++ [c; M])) as -> by congruence. clear E.
    assert (Hinc' : increasing ((rev r ++ [c]) ++ [M])).
    { apply sorted_snoc. rewrite Eraw in Hinc. replace (rev r ++ [c; b]) with ((rev r ++ [c]) ++ [b]) in Hinc by (now rewrite <- app_assoc).
      apply increasing_app_l in Hinc. apply sorted_snoc in Hinc. destruct Hinc as [H1 H2]. split; auto. intros x Hx. specialize (H2 x Hx). lra. }
    rewrite <- app_assoc in Hinc'. cbn [app] in Hinc'.
    assert (Hhd : exists y e', rev r ++ [c; M] = m :: y :: e').
    { destruct (rev r) as [|x [|y r']] eqn:Err; cbn in Eraw |- *; rewrite ?Err in *; cbn in Eraw; assert (Hx : m = hd 0 (m :: l)) by reflexivity; rewrite Eraw in Hx; cbn in Hx; subst; eauto. }
    destruct Hhd as (y & e' & Hhd). exists M. split; [|split; [|split; [lra|split]]].
    + rewrite Hhd. now rewrite between_edges.
    + rewrite Hhd in Hinc' |- *. assert (HM : last (y :: e') m = M); [|rewrite <- HM; now apply between_tiling]. rewrite <- last_cons with (y := 0), <- Hhd.
      change [c; M] with ([c] ++ [M]). rewrite app_assoc. apply last_snoc.
    + intros b0 Hb0. split; [now apply between_proper in Hb0|]. apply (Hleft _ _) in Hb0; auto. intros x y0 Hn. apply neighbours_nth in Hn. destruct Hn as (i & Hi0 & <- & Hy0).
      assert (HS : nth i (rev r ++ [c; M]) 0 < nth (length (rev r ++ [c; M]) - 1) (rev r ++ [c; M]) 0) by (apply increasing_nth; auto; lia).
      rewrite <- last_nth in HS. change [c; M] with ([c] ++ [M]) in HS. rewrite app_assoc, last_snoc in HS. rewrite <- app_assoc in HS. exact HS.
    + left. exists (rev r), c, b. split; auto. split; [now apply Hall|]. split; [lra|]. split; auto. intros x y0 Hn. apply Hall. rewrite Eraw.
      apply neighbours_app. replace (rev r ++ [c; b]) with ((rev r ++ [c]) ++ [b]) by (now rewrite <- app_assoc). now apply neighbours_app.
  - apply Rltb_false in Em. assert (e = m :: l) as -> by congruence. assert (bins = between (m :: l)) as -> by congruence.
    destruct l as [|y l]; [discriminate|]. exists z. split; [now rewrite between_edges|]. split; [|split; [lra|split]].
    + rewrite <- Hz. now apply between_tiling.
    + intros b0 Hb0. split; [now apply between_proper in Hb0|]. apply (Hleft _ _) in Hb0; auto. intros x y0 Hn. now apply Hch in Hn.
    + right. exists (rev r), c, b, z. split; [rewrite Eraw, <- app_assoc; reflexivity|]. auto.
Qed.
Print Assumptions C35_table_resolution_tiles.

(** The construction ends (with bins or an error) exactly when no edge before wl_max is its own
    successor; how long it is run does not change the outcome. *)
Theorem C35_terminates_iff_no_edge_repeats : forall t tab wl_min wl_max, resolution_table t tab -> sound_table tab -> 0 <= wl_min ->
  ((exists fuel r, variable_table t wl_min wl_max fuel = Some r)
   <-> ~ exists w, reaches_edge (next_edge tab) wl_max wl_min w /\ w < wl_max /\ next_edge tab w = Ok w)
  /\ (forall k n r r', variable_table t wl_min wl_max k = Some r -> variable_table t wl_min wl_max n = Some r' -> r = r').
Proof.
  intros t tab m M Ht [Hi Hp] Hm. split.
  - rewrite <- (walk_ends tab M Hi Hp m Hm). split; intros (k & r & H).
    + rewrite (variable_unfold t tab) in H by auto. destruct (walk tab M k m) as [x|] eqn:E; [|discriminate]. eauto.
    + exists k. rewrite (variable_unfold t tab), H by auto. destruct r as [l|]; eauto.
  - intros k n r r' H1 H2. rewrite (variable_unfold t tab) in H1, H2 by auto. destruct (walk tab M k m) as [x|] eqn:E1; [|discriminate]. destruct (walk tab M n m) as [y|] eqn:E2; [|discriminate].
    assert (x = y) as <-. { apply (walk_more _ _ _ (Nat.max k n)) in E1, E2; try lia. congruence. } congruence.
Qed.
Print Assumptions C35_terminates_iff_no_edge_repeats.

(** The step from an edge. *)
Theorem C35_next_edge : forall tab w w', sound_table tab -> next_edge tab w = Ok w' -> edge_after tab w w'.
Proof. intros tab w w' [Hi _]. now apply next_edge_after. Qed.
Print Assumptions C35_next_edge.

(** In particular it ends when every bin of the resolutions in the table is at least 0.0001 um wide. *)
Theorem C35_terminates_when_bins_are_wide : forall t tab wl_min wl_max, resolution_table t tab -> sound_table tab -> 0 < wl_min ->
  (forall p, In p tab -> snd p <= 5000 * wl_min) -> exists fuel r, variable_table t wl_min wl_max fuel = Some r.
Proof.
  intros t tab m M Ht Hs Hm Hw. apply (C35_terminates_iff_no_edge_repeats t tab m M Ht Hs); [lra|]. intros (w & Hr & Hlt & E). destruct Hs as [Hi Hp].
  assert (Hstep : forall v v', m <= v -> next_edge tab v = Ok v' -> v < v' ).
  { intros v v' Hv Hn. apply next_edge_after in Hn; auto. destruct Hn as (r & Hr1 & [_ Hr2]). pose proof (read_at_positive _ _ _ Hr1 Hp) as Hpos.
    destruct (rows_bounded _ Hp) as (lo & hi & Hlo & Hb). assert (Hr5 : r <= 5000 * m).
    { assert (Hb' : forall p, In p tab -> lo <= snd p <= 5000 * m) by (intros p Hp0; split; [now apply Hb|auto]). now apply (read_at_bounds _ _ _ _ _ Hr1 Hb'). }
    assert (H2 : 0.0002 <= v / r). { apply Rmult_le_reg_r with r; [lra|]. unfold Rdiv. rewrite Rmult_assoc, Rinv_l by lra. lra. }
    unfold Rabs in Hr2. destruct (Rcase_abs _); lra. }
  assert (Hge : m <= w). { clear Hlt E. induction Hr as [|v v' Hv IH Hlt Hn]; [lra|]. specialize (Hstep v v' IH Hn). lra. }
  specialize (Hstep w w Hge E). lra.
Qed.
Print Assumptions C35_terminates_when_bins_are_wide.

(** Fewer than three edges: the construction fails. *)
Theorem C35_needs_three_edges : forall t tab wl_min wl_max fuel, resolution_table t tab ->
  (wl_max <= wl_min -> variable_table t wl_min wl_max fuel = Some (Err IndexError))
  /\ (forall w, wl_min < wl_max -> next_edge tab wl_min = Ok w -> wl_max <= w -> variable_table t wl_min wl_max (S fuel) = Some (Err IndexError)).
Proof.
  intros t tab m M fuel Ht. split.
  - intros H. rewrite (variable_unfold t tab), walk_unfold by auto. rewrite (proj2 (Rltb_false _ _) H). reflexivity.
  - intros w H1 H2 H3. rewrite (variable_unfold t tab), walk_unfold by auto. rewrite (proj2 (Rltb_true _ _) H1), H2. rewrite walk_unfold, (proj2 (Rltb_false _ _) H3). reflexivity.
Qed.
Print Assumptions C35_needs_three_edges.

Lemma round4_value x z : Rabs (x * 10000 - IZR z) < 0.5 -> round4 x = IZR z / 10000.
Proof.
  intros H. apply Rabs_def2 in H. pose proof (round4_rounded x) as [_ H1]. unfold round4. replace (x * 10 ^ 4) with (x * 10000) by lra.
  assert (E : rint (x * 10000) = z). { pose proof (rint_spec (x * 10000)) as H2. unfold Rabs in H2. destruct (Rcase_abs _).
    all: assert (A : IZR (rint (x * 10000)) < IZR (z + 1)) by (rewrite plus_IZR; lra); assert (B : IZR z < IZR (rint (x * 10000) + 1)) by (rewrite plus_IZR; lra); apply lt_IZR in A; apply lt_IZR in B; lia. }
  rewrite E. lra.
Qed.
(** The rounding of the first edge can take it below wl_min, when wl_min is not a multiple of
    0.0001 um: the first bin then has a negative width. *)
Definition fine_then_coarse : column_table := [("W", [1; 1.00004; 2]); ("R", [1; 1000000; 1])]%string.
Lemma interp_row l w v : nondecreasing (wls l) -> In (w, v) l -> increasing (wls l) -> interp l w = v.
Proof.
  intros Hs Hin Hi. unfold interp. pose proof (locate_spec w l Hs) as Hl. destruct (locate w l) as [[p [q|]]|].
  - destruct Hl as [Hn Hw]. assert (p = (w, v)) as ->.
    { apply In_nth with (d := (0, 0)) in Hin. destruct Hin as (i & Hi' & Ei). destruct Hn as (l1 & l2 & ->).
      assert (Hord : forall x, In x (l1 ++ p :: q :: l2) -> fst x = w -> x = p).
      { intros x Hx Ex. apply in_app_or in Hx. destruct Hx as [Hx|[Hx|[Hx|Hx]]]; auto.
        - unfold wls in Hi. rewrite map_app in Hi. cbn in Hi. exfalso. clear -Hi Hx Ex Hw. induction l1 as [|y l1 IH]; [destruct Hx|]. cbn in Hi. inversion Hi as [|? ? H1 H2]; subst. rewrite Forall_forall in H2. destruct Hx as [->|Hx]; [|now apply IH].
          specialize (H2 (fst p)). assert (fst x < fst p) by (apply H2; apply in_or_app; right; now left). lra.
        - subst. lra.
        - exfalso. unfold wls in Hi. rewrite map_app in Hi. clear -Hi Hx Ex Hw. induction l1 as [|y l1 IH]; [|apply IH; cbn in Hi; now inversion Hi]. cbn in Hi. inversion Hi as [|? ? H1 H2]; subst. inversion H1 as [|? ? H3 H4]; subst. rewrite Forall_forall in H4. specialize (H4 (fst x) (in_map fst _ _ Hx)). lra. }
      symmetry. apply Hord; [rewrite <- Ei; now apply nth_In|reflexivity]. }
    cbn. unfold Rdiv. ring_simplify. lra.
  - destruct Hl as (H1 & H2 & H3). assert (Hf : fst p = w) by (specialize (H3 _ Hin); cbn in H3; lra).
    destruct (Rltb (fst p) w) eqn:E; [apply Rltb_true in E; lra|].
    destruct p as [x y]. cbn in *. subst x. clear -H1 Hin Hi. induction l as [|[a b] l IH]; [destruct Hin|]. cbn in Hi. inversion Hi as [|? ? A B]; subst. rewrite Forall_forall in B.
    destruct H1 as [H1|H1], Hin as [H2|H2]; try congruence; [apply (in_map fst) in H2|apply (in_map fst) in H1|]; cbn in *; try (assert (a = w) by congruence; subst).
    + specialize (B w H2). lra.
    + specialize (B w H1). lra.
    + now apply IH.
  - specialize (Hl _ Hin). cbn in Hl. lra.
Qed.
Theorem C35_first_bin_may_be_negative_refuted : exists t tab fuel e bins b, resolution_table t tab /\ sound_table tab
  /\ variable_table t 1.00004 1.5 fuel = Some (Ok (e, bins)) /\ In b bins /\ width b < 0.
Proof.
  set (tab := [(1, 1); (1.00004, 1000000); (2, 1)]).
  assert (Hi : increasing (wls tab)) by (repeat constructor; cbn; lra).
  assert (Hs : nondecreasing (wls tab)) by now apply increasing_nondecreasing.
  assert (E1 : next_edge tab 1.00004 = Ok 1).
  { unfold next_edge. assert (Er : interp_within tab 1.00004 = Ok 1000000).
    { unfold interp_within, tab. fold tab. cbn [fst map]. rewrite sort_id by auto. rewrite (interp_row tab 1.00004 1000000) by (auto; right; now left).
      cbn [rmin rmax]. unfold Rmin, Rmax. repeat (destruct (Rle_dec _ _); try lra). rewrite (proj2 (Rltb_false _ _)) by lra. rewrite (proj2 (Rltb_false _ _)) by lra. reflexivity. }
    rewrite Er. cbn [bind]. destruct (Req_EM_T 1000000 0); [lra|]. f_equal. rewrite (round4_value _ 10000); [lra|]. apply Rabs_def1; lra. }
  assert (E2 : next_edge tab 1 = Ok 2).
  { unfold next_edge. assert (Er : interp_within tab 1 = Ok 1).
    { unfold interp_within, tab. fold tab. cbn [fst map]. rewrite sort_id by auto. rewrite (interp_row tab 1 1) by (auto; now left).
      cbn [rmin rmax]. unfold Rmin, Rmax. repeat (destruct (Rle_dec _ _); try lra). rewrite (proj2 (Rltb_false _ _)) by lra. rewrite (proj2 (Rltb_false _ _)) by lra. reflexivity. }
    rewrite Er. cbn [bind]. destruct (Req_EM_T 1 0); [lra|]. f_equal. rewrite (round4_value _ 20000); [lra|]. apply Rabs_def1; lra. }
  assert (Ht : resolution_table fine_then_coarse tab). { do 2 eexists. repeat split; try reflexivity. }
  exists fine_then_coarse, tab, 2%nat, [1.00004; 1; 2], (between [1.00004; 1; 2]), (bin_at (0.5 * (1.00004 + 1)) (1 - 1.00004)). split; auto. split.
  { split; auto. intros p Hp. cbn in Hp. intuition subst; cbn; lra. }
  split; [|split; [now left|cbn; lra]]. rewrite (variable_unfold _ tab) by auto.
  rewrite walk_unfold, (proj2 (Rltb_true _ _)), E1 by lra. rewrite walk_unfold, (proj2 (Rltb_true _ _)), E2 by lra. rewrite walk_unfold, (proj2 (Rltb_false _ _)) by lra.
  unfold merge_last. cbn [rev app]. rewrite (proj2 (Rltb_false _ _)) by lra. reflexivity.
Qed.
Print Assumptions C35_first_bin_may_be_negative_refuted.

(** A resolution of 100000 at 1 um: the construction never ends. *)
Definition too_fine : column_table := [("W", [1; 2]); ("R", [100000; 100000])]%string.
Theorem C35_always_terminates_refuted : exists t tab, resolution_table t tab /\ sound_table tab /\ forall fuel, variable_table t 1 1.5 fuel = None.
Proof.
  set (tab := [(1, 100000); (2, 100000)]). assert (Hi : increasing (wls tab)) by (repeat constructor; cbn; lra). assert (Hs : nondecreasing (wls tab)) by now apply increasing_nondecreasing.
  assert (Ht : resolution_table too_fine tab) by (do 2 eexists; repeat split; reflexivity).
  exists too_fine, tab. split; auto. split.
  { split; auto. intros p Hp. cbn in Hp. intuition subst; cbn; lra. }
  intros fuel. rewrite (variable_unfold _ tab) by auto. rewrite walk_fixpoint; auto; [lra|]. unfold next_edge. assert (Er : interp_within tab 1 = Ok 100000).
  { unfold interp_within, tab. fold tab. cbn [fst map]. rewrite sort_id by auto. rewrite (interp_row tab 1 100000) by (auto; now left).
    cbn [rmin rmax]. unfold Rmin, Rmax. repeat (destruct (Rle_dec _ _); try lra). rewrite (proj2 (Rltb_false _ _)) by lra. rewrite (proj2 (Rltb_false _ _)) by lra. reflexivity. }
  rewrite Er. cbn [bind]. destruct (Req_EM_T 100000 0); [lra|]. f_equal. rewrite (round4_value _ 10000); [lra|]. apply Rabs_def1; lra.
Qed.
Print Assumptions C35_always_terminates_refuted.
(** ... while a resolution of 2 is fine. *)
Example ex_variable : exists fuel e bins, variable_table [("W", [1; 8]); ("R", [2; 2])]%string 1 2 fuel = Some (Ok (e, bins)).
Proof.
  set (tab := [(1, 2); (8, 2)]). assert (Hi : increasing (wls tab)) by (repeat constructor; cbn; lra). assert (Hs : nondecreasing (wls tab)) by now apply increasing_nondecreasing.
  assert (Ht : resolution_table [("W", [1; 8]); ("R", [2; 2])]%string tab) by (do 2 eexists; repeat split; reflexivity).
  assert (Er : forall w, 1 <= w < 8 -> interp_within tab w = Ok 2).
  { intros w Hw. unfold interp_within, tab. fold tab. cbn [fst map]. rewrite sort_id by auto. cbn [rmin rmax]. unfold Rmin, Rmax. repeat (destruct (Rle_dec _ _); try lra). rewrite (proj2 (Rltb_false _ _)) by lra. rewrite (proj2 (Rltb_false _ _)) by lra. cbn [orb]. f_equal.
    unfold interp, tab, locate. cbn [fst snd]. rewrite (proj2 (Rltb_false _ _)) by lra. rewrite (proj2 (Rltb_true _ _)) by lra. cbn. lra. }
  assert (E1 : next_edge tab 1 = Ok 1.5). { unfold next_edge. rewrite Er by lra. cbn [bind]. destruct (Req_EM_T 2 0); [lra|]. f_equal. rewrite (round4_value _ 15000); [lra|]. apply Rabs_def1; lra. }
  assert (E2 : next_edge tab 1.5 = Ok 2.25). { unfold next_edge. rewrite Er by lra. cbn [bind]. destruct (Req_EM_T 2 0); [lra|]. f_equal. rewrite (round4_value _ 22500); [lra|]. apply Rabs_def1; lra. }
  exists 2%nat. rewrite (variable_unfold _ tab) by auto.
  rewrite walk_unfold, (proj2 (Rltb_true _ _)), E1 by lra. rewrite walk_unfold, (proj2 (Rltb_true _ _)), E2 by lra. rewrite walk_unfold, (proj2 (Rltb_false _ _)) by lra.
  unfold merge_last. cbn [rev app]. rewrite (proj2 (Rltb_false _ _)) by lra. cbn [bind]. eauto.
Qed.

(** ** C63: pixels *)
(** The two directions of a wavelength solution are inverse to each other, everywhere. *)
Theorem C63_solution_is_one_to_one : forall s, dispersion s ->
  (forall w, wl_of s (x_of s w) = w) /\ (forall x, x_of s (wl_of s x) = x)
  /\ ((forall x y, x < y -> wl_of s x < wl_of s y) \/ (forall x y, x < y -> wl_of s y < wl_of s x)).
Proof. exact solution_functions. Qed.
Print Assumptions C63_solution_is_one_to_one.
Lemma arange_length a b d : length (arange a b d) = Z.to_nat (Rceil ((b - a) / d)).
Proof. unfold arange. now rewrite map_length, seq_length. Qed.
Lemma arange_In a b d x : 0 < d -> a < b -> (In x (arange a b d) <-> exists k, x = a + INR k * d /\ x < b).
Proof.
  intros Hd Hab. unfold arange. rewrite in_map_iff. assert (Hq : forall k, (k < Z.to_nat (Rceil ((b - a) / d)))%nat <-> a + INR k * d < b).
  { intros k. destruct (Rceil_spec ((b - a) / d)) as [C1 C2]. assert (Hlt : INR k < (b - a) / d <-> a + INR k * d < b).
    { split; intros H; [apply (Rmult_lt_compat_r d) in H; auto; unfold Rdiv in H; rewrite Rmult_assoc, Rinv_l in H by lra; lra|]. apply Rmult_lt_reg_r with d; auto. unfold Rdiv. rewrite Rmult_assoc, Rinv_l by lra. lra. }
    rewrite <- Hlt. rewrite INR_IZR_INZ. split; intros H.
    - assert (H1 : (Z.of_nat k + 1 <= Rceil ((b - a) / d))%Z) by lia. apply IZR_le in H1. rewrite plus_IZR in H1. lra.
    - assert (H1 : IZR (Z.of_nat k) < IZR (Rceil ((b - a) / d))) by lra. apply lt_IZR in H1. lia. }
  split.
  - intros (k & <- & Hk). exists k. split; auto. apply in_seq in Hk. apply Hq. lia.
  - intros (k & -> & Hk). exists k. split; auto. apply in_seq. apply Hq in Hk. lia.
Qed.
Lemma map_seq_neighbours (f : nat -> R) n : forall s a b, neighbours (map f (seq s n)) a b -> exists k, a = f k /\ b = f (S k).
Proof.
  induction n as [|n IH]; intros s a b H; cbn in H; [now apply neighbours_nil in H|]. apply neighbours_cons in H. destruct H as [[<- [l H]]|H]; [|eauto].
  destruct n; cbn in H; [discriminate|]. exists s. split; auto. congruence.
Qed.
Lemma neighbours_rev {A} (l : list A) a b : neighbours (rev l) a b <-> neighbours l b a.
Proof.
  assert (H : forall (k : list A) (a b : A), neighbours k b a -> neighbours (rev k) a b).
  { clear. intros k a b (l1 & l2 & ->). exists (rev l2), (rev l1). rewrite rev_app_distr. cbn. now rewrite <- !app_assoc. }
  split; intros Hn; [apply H in Hn; now rewrite rev_involutive in Hn|now apply H].
Qed.
(** Pixels stand one pixel size apart, beginning exactly at one end of the band; their wavelengths
    are in the band, in strict order, one of them within a pixel of every wavelength of the band. *)
Theorem C63_pixels_cover_the_band : forall s wl_min wl_max delta, dispersion s -> wl_min < wl_max -> 0 < delta ->
  let px := pixels s wl_min wl_max delta in
  px <> []
  /\ (forall a b, neighbours px a b -> b = a - delta)
  /\ (forall w, In w (pixel_wl s px) -> wl_min <= w <= wl_max)
  /\ (increasing (pixel_wl s px) \/ increasing (rev (pixel_wl s px)))
  /\ (In wl_min (pixel_wl s px) \/ In wl_max (pixel_wl s px))
  /\ (forall w, wl_min <= w <= wl_max -> exists x, In x px /\ x <= x_of s w <= x + delta)
  /\ (forall w, In w (pixel_width s delta px) -> 0 < w).
Proof.
  intros s m M d Hs Hm Hd px. destruct (solution_functions s Hs) as (I1 & I2 & Hmono).
  set (a := Rmin (x_of s m) (x_of s M)). set (b := Rmax (x_of s m) (x_of s M)).
  assert (Hne : x_of s m <> x_of s M) by (intros E; apply (f_equal (wl_of s)) in E; rewrite !I1 in E; lra).
  assert (Hab : a < b) by (unfold a, b, Rmin, Rmax; destruct (Rle_dec _ _); lra).
  assert (Epx : px = rev (arange a b d)).
  { unfold px, pixels, a, b, Rmin, Rmax. destruct (Rltb (x_of s M) (x_of s m)) eqn:E; destruct (Rle_dec _ _); try apply Rltb_true in E; try apply Rltb_false in E; try lra; reflexivity. }
  assert (HIn : forall x, In x px <-> exists k, x = a + INR k * d /\ x < b) by (intros x; rewrite Epx, <- in_rev; now apply arange_In).
  assert (Ha : In a px) by (apply HIn; exists 0%nat; cbn; lra).
  assert (Hrange : forall x, a <= x <= b -> m <= wl_of s x <= M).
  { intros x Hx. destruct Hmono as [H|H].
    - assert (x_of s m < x_of s M). { destruct (Rtotal_order (x_of s m) (x_of s M)) as [?|[?|Hgt]]; auto; [congruence|]. apply H in Hgt. rewrite !I1 in Hgt. lra. }
      assert (a = x_of s m /\ b = x_of s M) as [Ea Eb] by (unfold a, b, Rmin, Rmax; destruct (Rle_dec _ _); split; lra). rewrite Ea, Eb in Hx. split.
      + destruct (Rle_lt_or_eq_dec _ _ (proj1 Hx)) as [H1|H1]; [apply H in H1; rewrite I1 in H1; lra|rewrite <- H1, I1; lra].
      + destruct (Rle_lt_or_eq_dec _ _ (proj2 Hx)) as [H1|H1]; [apply H in H1; rewrite I1 in H1; lra|rewrite H1, I1; lra].
    - assert (x_of s M < x_of s m). { destruct (Rtotal_order (x_of s m) (x_of s M)) as [Hgt|[?|?]]; auto; [|congruence]. apply H in Hgt. rewrite !I1 in Hgt. lra. }
      assert (a = x_of s M /\ b = x_of s m) as [Ea Eb] by (unfold a, b, Rmin, Rmax; destruct (Rle_dec _ _); split; lra). rewrite Ea, Eb in Hx. split.
      + destruct (Rle_lt_or_eq_dec _ _ (proj2 Hx)) as [H1|H1]; [apply H in H1; rewrite I1 in H1; lra|rewrite H1, I1; lra].
      + destruct (Rle_lt_or_eq_dec _ _ (proj1 Hx)) as [H1|H1]; [apply H in H1; rewrite I1 in H1; lra|rewrite <- H1, I1; lra]. }
  assert (Hpos : forall x, In x px -> a <= x < b).
  { intros x Hx. apply HIn in Hx. destruct Hx as (k & -> & Hk). pose proof (pos_INR k). split; auto. nra. }
  assert (Hnb : forall x y, neighbours px x y -> y = x - d).
  { intros x y Hn. rewrite Epx in Hn. apply (neighbours_rev (arange a b d)) in Hn. unfold arange in Hn. apply map_seq_neighbours in Hn. destruct Hn as (k & -> & ->). rewrite S_INR. lra. }
  split; [intros E; rewrite E in Ha; destruct Ha|]. split; [auto|].
  split; [intros w Hw; apply in_map_iff in Hw; destruct Hw as (x & <- & Hx); apply Hrange; apply Hpos in Hx; lra|].
  split; [|split; [|split]].
  - destruct Hmono as [H|H].
    + right. unfold pixel_wl. apply neighbours_sorted; [intros x y z; lra|]. intros x y Hn. apply (neighbours_rev (map (wl_of s) px)) in Hn. apply neighbours_map in Hn. destruct Hn as (p & q & Hn & -> & ->). apply Hnb in Hn. apply H. lra.
    + left. unfold pixel_wl. apply neighbours_sorted; [intros x y z; lra|]. intros x y Hn. apply neighbours_map in Hn. destruct Hn as (p & q & Hn & -> & ->). apply Hnb in Hn. apply H. lra.
  - assert (Hwa : In (wl_of s a) (pixel_wl s px)) by (apply in_map; auto). unfold a, Rmin in Hwa. destruct (Rle_dec _ _); rewrite I1 in Hwa; auto.
  - intros w Hw. set (x := x_of s w). assert (Hx : a <= x <= b).
    { assert (Hin : forall u v, u < v -> x_of s u <= x_of s v \/ x_of s v <= x_of s u) by (intros; lra).
      destruct Hmono as [H|H].
      - assert (Hup : forall u v, u <= v -> x_of s u <= x_of s v). { intros u v Huv. destruct (Rle_dec (x_of s u) (x_of s v)) as [|Hn]; auto. apply Rnot_le_lt in Hn. apply H in Hn. rewrite !I1 in Hn. lra. }
        pose proof (Hup m w (proj1 Hw)). pose proof (Hup w M (proj2 Hw)). unfold a, b, x, Rmin, Rmax. destruct (Rle_dec _ _); lra.
      - assert (Hup : forall u v, u <= v -> x_of s v <= x_of s u). { intros u v Huv. destruct (Rle_dec (x_of s v) (x_of s u)) as [|Hn]; auto. apply Rnot_le_lt in Hn. apply H in Hn. rewrite !I1 in Hn. lra. }
        pose proof (Hup m w (proj1 Hw)). pose proof (Hup w M (proj2 Hw)). unfold a, b, x, Rmin, Rmax. destruct (Rle_dec _ _); lra. }
    set (k := Z.to_nat (Rceil ((x - a) / d) - 1)).
    destruct (Req_EM_T x a) as [Exa|Exa]; [exists a; split; auto; lra|].
    assert (Hk0 : 0 < (x - a) / d) by (apply Rdiv_lt_0_compat; lra).
    destruct (Rceil_spec ((x - a) / d)) as [C1 C2]. assert (HC : (1 <= Rceil ((x - a) / d))%Z) by (apply Z.lt_pred_le; apply lt_IZR; cbn; lra).
    assert (HK : INR k = IZR (Rceil ((x - a) / d)) - 1) by (unfold k; rewrite INR_IZR_INZ, Z2Nat.id by lia; rewrite minus_IZR; lra).
    assert (Hx1 : a + INR k * d < x). { rewrite HK. apply (Rmult_lt_compat_r d) in C1; auto. unfold Rdiv in C1. rewrite Rmult_assoc, Rinv_l in C1 by lra. lra. }
    assert (Hx2 : x <= a + INR k * d + d). { rewrite HK. apply (Rmult_le_compat_r d) in C2; [|lra]. unfold Rdiv in C2 at 1. rewrite Rmult_assoc, Rinv_l in C2 by lra. lra. }
    exists (a + INR k * d). split; [|lra]. apply HIn. exists k. split; auto. lra.
  - intros w Hw. apply in_map_iff in Hw. destruct Hw as (x & <- & Hx). apply Rabs_pos_lt. destruct Hmono as [H|H]; [pose proof (H (x - 0.5 * d) (x + 0.5 * d) ltac:(lra))|pose proof (H (x - 0.5 * d) (x + 0.5 * d) ltac:(lra))]; lra.
Qed.
Print Assumptions C63_pixels_cover_the_band.

(** ** C62: native bins *)
Lemma last_any {A} (l : list A) x y : l <> [] -> last l x = last l y.
Proof. destruct l as [|a l]; [congruence|]. intros _. now rewrite !last_cons. Qed.
Lemma insert_perm {V} (p : R * V) l : Permutation (p :: l) (insert p l).
Proof. induction l as [|q l IH]; cbn; auto. destruct (Rltb (fst q) (fst p)); auto. rewrite perm_swap. now constructor. Qed.
Lemma sort_perm {V} (l : list (R * V)) : Permutation l (sort_src l).
Proof. induction l as [|p l IH]; cbn; auto. rewrite <- insert_perm. now constructor. Qed.
Theorem C62_one_bin_per_pixel : forall tr wl_min wl_max pix_wl pix_width fuel, (tr = None \/ tr = Some Native) -> length pix_wl = length pix_width -> pix_wl <> [] ->
  exists bins, spectrometer_table tr wl_min wl_max pix_wl pix_width fuel = Some (Ok (edges_of bins, bins))
  /\ Permutation (map (fun b => (centre b, width b)) bins) (combine pix_wl pix_width)
  /\ nondecreasing (map centre bins) /\ forall b, In b bins -> proper b.
Proof.
  intros tr m M pw pd fuel Htr Hl Hne. assert (E : spectrometer_table tr m M pw pd fuel = Some (native_table pw pd)) by (destruct Htr as [-> | ->]; reflexivity). rewrite E.
  unfold native_table. set (s := sort_src (combine pw pd)). assert (Hs : s <> []).
  { intros Hs. pose proof (sort_perm (combine pw pd)) as Hp. fold s in Hp. rewrite Hs in Hp. apply Permutation_sym, Permutation_nil in Hp. destruct pw, pd; try discriminate; congruence. }
  exists (map (fun q => bin_at (fst q) (snd q)) s). split; [|split; [|split]].
  - destruct s as [|p s']; [congruence|]. destruct (last (p :: s') p) as [c w] eqn:El. unfold edges_of. rewrite map_map. do 3 f_equal. rewrite <- map_rev.
    assert (Hr : exists r, rev (p :: s') = (c, w) :: r).
    { destruct (rev (p :: s')) as [|q r] eqn:Er; [apply (f_equal (@length (R * R))) in Er; rewrite rev_length in Er; discriminate|]. exists r. f_equal.
      rewrite <- El, <- (rev_involutive (p :: s')), Er. cbn. now rewrite last_snoc. }
    destruct Hr as [r ->]. reflexivity.
  - rewrite map_map. cbn. rewrite (map_ext _ (fun p => p)); [rewrite map_id; symmetry; apply sort_perm|]. now intros [x y].
  - rewrite map_map. cbn. apply (sort_sorted (combine pw pd)).
  - intros b Hb. apply in_map_iff in Hb. destruct Hb as (q & <- & _). split; cbn; lra.
Qed.
Print Assumptions C62_one_bin_per_pixel.
Theorem C62_no_pixel_fails : forall tr wl_min wl_max fuel, (tr = None \/ tr = Some Native) -> spectrometer_table tr wl_min wl_max [] [] fuel = Some (Err IndexError).
Proof. intros tr m M fuel [-> | ->]; reflexivity. Qed.
Print Assumptions C62_no_pixel_fails.

(** With a linear wavelength solution the native bins tile. *)
Lemma even_spacing W l : forall p, 0 < W -> (forall q, In q (p :: l) -> snd q = W) -> (forall a b, neighbours (p :: l) a b -> fst b = fst a + W) ->
  tiling (fst p - 0.5 * W) (map (fun q => bin_at (fst q) (snd q)) (p :: l)) (fst (last l p) + 0.5 * W).
Proof.
  induction l as [|q l IH]; intros p HW Hs Hn; pose proof (Hs p (or_introl eq_refl)) as Hp.
  - cbn [map last]. replace (fst p - 0.5 * W) with (left_edge (bin_at (fst p) (snd p))) by (cbn; rewrite Hp; reflexivity). constructor; [cbn; lra|].
    replace (right_edge (bin_at (fst p) (snd p))) with (fst p + 0.5 * W) by (cbn; rewrite Hp; reflexivity). constructor.
  - rewrite last_cons. cbn [map]. replace (fst p - 0.5 * W) with (left_edge (bin_at (fst p) (snd p))) by (cbn; rewrite Hp; reflexivity). constructor; [cbn; lra|].
    replace (right_edge (bin_at (fst p) (snd p))) with (fst q - 0.5 * W).
    + apply (IH q HW); [intros x Hx; apply Hs; now right|]. intros a b Hab. apply Hn. apply neighbours_cons. now right.
    + cbn. rewrite Hp. rewrite (Hn p q); [lra|]. exists [], l. reflexivity.
Qed.
Lemma combine_map_map {A} (f g : A -> R) l : combine (map f l) (map g l) = map (fun x => (f x, g x)) l.
Proof. induction l; cbn; congruence. Qed.
Theorem C62_linear_solution_tiles : forall s wl_min wl_max delta fuel, dispersion s -> length (sol_x s) = 2%nat -> wl_min < wl_max -> 0 < delta ->
  let px := pixels s wl_min wl_max delta in
  exists bins lo hi, spectrometer_table (Some Native) wl_min wl_max (pixel_wl s px) (pixel_width s delta px) fuel = Some (Ok (edges_of bins, bins)) /\ tiling lo bins hi /\ length bins = length px.
Proof.
  intros s m M d fuel Hs H2 Hm Hd px. destruct (C63_pixels_cover_the_band s m M d Hs Hm Hd) as (P1 & P2 & P3 & P4 & _ & _ & P7). fold px in P1, P2, P3, P4, P7.
  destruct (C62_one_bin_per_pixel (Some Native) m M (pixel_wl s px) (pixel_width s d px) fuel (or_intror eq_refl)) as (bins & E & Hperm & _ & _).
  { unfold pixel_wl, pixel_width. now rewrite !map_length. }
  { unfold pixel_wl. destruct px; [congruence|discriminate]. }
  exists bins. assert (Hbins : bins = map (fun q => bin_at (fst q) (snd q)) (sort_src (combine (pixel_wl s px) (pixel_width s d px)))).
  { cbn [spectrometer_table] in E. unfold native_table in E. destruct (sort_src _) as [|p l]; [discriminate|]. destruct (last (p :: l) p) as [c w]. congruence. }
  assert (Hlin : exists al be, forall x, wl_of s x = al + be * x).
  { unfold wl_of, interpolator. destruct Hs as (HL & _ & _). destruct (sol_x s) as [|x0 [|x1 [|]]]; try discriminate. destruct (sol_wl s) as [|w0 [|w1 [|]]]; try discriminate. cbn [combine].
    assert (Hc : exists u v, sort_src [(x0, w0); (x1, w1)] = [u; v]). { cbn. destruct (Rltb _ _); eauto. } destruct Hc as (u & v & ->).
    exists (snd u - (snd v - snd u) / (fst v - fst u) * fst u), ((snd v - snd u) / (fst v - fst u)). intros x. rewrite ext_two. unfold line. lra. }
  destruct Hlin as (al & be & Hlin). set (W := Rabs be * d).
  assert (Hpw : forall x, Rabs (wl_of s (x - 0.5 * d) - wl_of s (x + 0.5 * d)) = W). { intros x. rewrite !Hlin. replace (al + be * (x - 0.5 * d) - (al + be * (x + 0.5 * d))) with (- (be * d)) by lra. rewrite Rabs_Ropp, Rabs_mult, (Rabs_pos_eq d) by lra. reflexivity. }
  assert (HW : 0 < W). { destruct px as [|x px']; [congruence|]. rewrite <- (Hpw x). apply P7. unfold pixel_width. now left. }
  set (P := combine (pixel_wl s px) (pixel_width s d px)) in *.
  assert (EP : P = map (fun x => (wl_of s x, W)) px). { unfold P, pixel_wl, pixel_width. rewrite combine_map_map. apply map_ext. intros x. now rewrite Hpw. }
  assert (Exs : map fst P = pixel_wl s px) by (rewrite EP, map_map; reflexivity).
  assert (Hsort : exists l, (P = l \/ P = rev l) /\ increasing (map fst l)).
  { destruct P4 as [P4|P4]; [exists P|exists (rev P)]; (split; [rewrite ?rev_involutive; auto|]); rewrite ?map_rev, Exs; auto. }
  destruct Hsort as (l & Hl & Hinc). rewrite (sort_up_or_down P l Hl Hinc) in Hbins.
  assert (HsndP : forall q, In q l -> snd q = W). { intros q Hq. assert (Hq' : In q P) by (destruct Hl as [-> | ->]; auto; now apply -> in_rev). rewrite EP in Hq'. apply in_map_iff in Hq'. destruct Hq' as (x & <- & _). reflexivity. }
  assert (Hstep : forall a b, neighbours l a b -> fst b = fst a + W).
  { intros a b Hn. assert (Hlt : fst a < fst b). { apply (sorted_neighbours Rlt (map fst l)); auto. apply neighbours_map. eauto. }
    assert (HP : neighbours P a b \/ neighbours P b a) by (destruct Hl as [-> | ->]; [now left|right; now apply neighbours_rev]).
    unfold W. rewrite EP in HP. destruct HP as [HP|HP].
    - destruct HP as (l1 & l2 & HP). assert (Hn2 : exists x y, neighbours px x y /\ a = (wl_of s x, W) /\ b = (wl_of s y, W)).
      { clear -HP. revert l1 HP. induction px as [|x px IH]; intros l1 HP; [destruct l1; discriminate|]. destruct l1 as [|u l1].
        - destruct px as [|y px]; [discriminate|]. cbn in HP. injection HP as <- <- _. exists x, y. repeat split. now exists [], px.
        - cbn in HP. injection HP as _ HP. destruct (IH l1 HP) as (x' & y' & Hn & H). exists x', y'. split; auto. apply neighbours_cons. now right. }
      destruct Hn2 as (x & y & Hxy & -> & ->). cbn in *. apply P2 in Hxy. rewrite !Hlin in *. subst y. assert (be < 0) by nra. rewrite Rabs_left by auto. lra.
    - destruct HP as (l1 & l2 & HP). assert (Hn2 : exists x y, neighbours px x y /\ b = (wl_of s x, W) /\ a = (wl_of s y, W)).
      { clear -HP. revert l1 HP. induction px as [|x px IH]; intros l1 HP; [destruct l1; discriminate|]. destruct l1 as [|u l1].
        - destruct px as [|y px]; [discriminate|]. cbn in HP. injection HP as <- <- _. exists x, y. repeat split. now exists [], px.
        - cbn in HP. injection HP as _ HP. destruct (IH l1 HP) as (x' & y' & Hn & H). exists x', y'. split; auto. apply neighbours_cons. now right. }
      destruct Hn2 as (x & y & Hxy & -> & ->). cbn in *. apply P2 in Hxy. rewrite !Hlin in *. subst y. assert (0 < be) by nra. rewrite Rabs_pos_eq by lra. lra. }
  assert (Hlen : length l = length px). { transitivity (length P); [destruct Hl as [-> | ->]; [auto|now rewrite rev_length]|rewrite EP; now rewrite map_length]. }
  destruct l as [|p l]; [destruct px; [congruence|discriminate]|]. subst bins. do 2 eexists. split; [exact E|]. split; [apply (even_spacing W l p); auto|]. now rewrite map_length.
Qed.
Print Assumptions C62_linear_solution_tiles.

(** With a bent one they overlap. *)
Lemma Rceil_IZR z : Rceil (IZR z) = z.
Proof. unfold Rceil. rewrite <- opp_IZR. rewrite (Rfloor_unique _ (- z)); [lia|lra]. Qed.
Definition bent : solution := {| sol_wl := [1; 3; 7]; sol_x := [0; 2; 4] |}.
Lemma bent_wl x : wl_of bent x = if Rltb 2 x then 2 * x - 1 else x + 1.
Proof. unfold wl_of, interpolator, bent. cbn [sol_x sol_wl combine]. rewrite sort_id by (repeat constructor; cbn; lra). rewrite ext_cons, ext_two. cbn [fst]. destruct (Rltb 2 x); unfold line; cbn; field. Qed.
Theorem C62_native_bins_tile_refuted : exists s, dispersion s /\ exists bins b b', spectrometer_table (Some Native) 1 7 (pixel_wl s (pixels s 1 7 1)) (pixel_width s 1 (pixels s 1 7 1)) 0 = Some (Ok (edges_of bins, bins))
  /\ neighbours bins b b' /\ left_edge b' < right_edge b.
Proof.
  exists bent. assert (Hd : dispersion bent) by (split; [reflexivity|]; split; [cbn; lia|]; left; split; [|left]; cbn; repeat constructor; lra). split; auto.
  assert (Hp : pixels bent 1 7 1 = [3; 2; 1; 0]).
  { unfold pixels, x_of, interpolator, bent. cbn [sol_x sol_wl combine]. rewrite sort_id by (repeat constructor; cbn; lra). rewrite !ext_cons, !ext_two. cbn [fst]. rewrite (proj2 (Rltb_false 3 1)), (proj2 (Rltb_true 3 7)) by lra.
    unfold line. cbn [fst snd]. replace ((4 - 2) / (7 - 3) * (7 - 3) + 2) with 4 by field. replace ((2 - 0) / (3 - 1) * (1 - 1) + 0) with 0 by field. rewrite (proj2 (Rltb_false 4 0)) by lra.
    unfold arange. replace ((4 - 0) / 1) with (IZR 4) by field. rewrite Rceil_IZR. change (Z.to_nat 4) with 4%nat. cbn [seq map rev app]. rewrite !INR_IZR_INZ. cbn [Z.of_nat Pos.of_succ_nat Pos.succ]. repeat (f_equal; [lra|]). f_equal; lra. }
  rewrite Hp. assert (Hw : pixel_wl bent [3; 2; 1; 0] = [5; 3; 2; 1]).
  { unfold pixel_wl. cbn [map]. rewrite !bent_wl. rewrite (proj2 (Rltb_true 2 3)), !(proj2 (Rltb_false _ _)) by lra. repeat f_equal; lra. }
  assert (Hwd : pixel_width bent 1 [3; 2; 1; 0] = [2; 1.5; 1; 1]).
  { unfold pixel_width. cbn [map]. rewrite !bent_wl. rewrite (proj2 (Rltb_true 2 (3 - _))), (proj2 (Rltb_true 2 (3 + _))), (proj2 (Rltb_true 2 (2 + _))), !(proj2 (Rltb_false _ _)) by lra.
    repeat f_equal; rewrite Rabs_left; lra. }
  rewrite Hw, Hwd. cbn [spectrometer_table]. unfold native_table. cbn [combine]. rewrite sort_rev by (cbn; repeat constructor; lra). cbn [rev app last].
  exists [bin_at 1 1; bin_at 2 1; bin_at 3 1.5; bin_at 5 2], (bin_at 2 1), (bin_at 3 1.5). split; [reflexivity|]. split; [|cbn; lra]. exists [bin_at 1 1], [bin_at 5 2]. reflexivity.
Qed.
Print Assumptions C62_native_bins_tile_refuted.
