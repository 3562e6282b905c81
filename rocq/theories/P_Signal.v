(** Properties of signals and of rebinning (C20-C23). *)
From Verif Require Import Base XR M_Signal S_Signal L_Signal.
From Coq Require Import Sorted Lia.
Open Scope list_scope.
Open Scope R_scope.

(** ** C20: signals have consistent shapes *)
Lemma check_quantities_ok q u : 
  match check_quantities q u with
  | Ok r => convertible (unit_of q u) u /\ q_unit r = u /\ shape (q_arr r) = shape (array_of q)
            /\ (scale u <> 0 -> map (physical u) (elems (q_arr r)) = map (physical (unit_of q u)) (elems (array_of q)))
  | Err e => e = TypeError /\ ~ convertible (unit_of q u) u
  end.
Proof.
  unfold check_quantities, convertible. destruct q as [w a|a]; cbn [unit_of array_of]; [|now repeat split].
  destruct (same_unit w u) eqn:E.
  - apply same_unit_spec in E. subst w. cbn. auto.
  - destruct (String.eqb_spec (dim w) (dim u)) as [Ed|]; [|auto]. cbn. repeat split; auto.
    intros Hs. rewrite map_map. apply map_ext. intros x. unfold physical. field. auto.
Qed.
Lemma check_sizes_spec s : (check_sizes s = Ok tt <-> fitting (shape (q_arr (wl_grid s))) (shape (q_arr (data s))) (shape (q_arr (time_grid s))))
  /\ (check_sizes s = Ok tt \/ check_sizes s = Err ValueError \/ check_sizes s = Err IndexError).
Proof.
  unfold check_sizes, qndim, ndim, dimension, fitting.
  destruct (shape (q_arr (wl_grid s))) as [|n [|n' wl]]; destruct (shape (q_arr (time_grid s))) as [|m [|m' tm]];
    destruct (shape (q_arr (data s))) as [|d [|d' [|d'' dd]]]; cbn [length Nat.ltb Nat.leb nth_error bind];
    try (split; [split; [discriminate|intros (k0 & k1 & E1 & E2 & [[E3 _]|E3]); congruence]|auto; fail]).
  - destruct (Nat.eqb_spec d n); cbn [negb bind]; (split; [split; [discriminate|intros (k0 & k1 & E1 & E2 & [[E3 _]|E3]); congruence]|auto; fail]).
  - destruct (Nat.eqb_spec d n); cbn [negb bind]; (split; [split; [discriminate|intros (k0 & k1 & E1 & E2 & [[E3 _]|E3]); congruence]|auto; fail]).
  - destruct (Nat.eqb_spec d n) as [<-|Hn]; cbn [negb bind].
    + destruct m as [|[|m]]; cbn [Nat.leb orb]; (split; [split|auto]); try discriminate; auto.
      * intros _. exists d, 0%nat. repeat split; auto.
      * intros _. exists d, 1%nat. repeat split; auto.
      * intros (k0 & k1 & E1 & E2 & [[E3 E4]|E3]); [|congruence]. injection E2 as <-. lia.
    + split; [split; [discriminate|]|auto]. intros (k0 & k1 & E1 & E2 & [[E3 _]|E3]); congruence.
  - destruct (Nat.eqb_spec d n) as [<-|Hn]; cbn [negb bind].
    + rewrite Bool.orb_true_r. destruct (Nat.eqb_spec d' m) as [<-|Hm]; cbn [negb].
      * split; auto. split; auto. intros _. exists d, d'. auto.
      * split; auto. split; [discriminate|]. intros (k0 & k1 & E1 & E2 & [[E3 _]|E3]); congruence.
    + split; [split; [discriminate|]|auto]. intros (k0 & k1 & E1 & E2 & [[E3 _]|E3]); congruence.
Qed.

(** A signal can be built exactly when units are convertible and shapes fit together. *)
Theorem C20_built_iff_consistent : forall u wl d t,
  (exists s, build_signal u wl d t = Ok s) <->
  convertible (unit_of wl micron) micron /\ convertible (unit_of d u) u /\ convertible (unit_of t hour_u) hour_u
  /\ fitting (shape (array_of wl)) (shape (array_of d)) (shape (array_of t)).
Proof.
  intros u wl d t. unfold build_signal.
  pose proof (check_quantities_ok wl micron) as H1. pose proof (check_quantities_ok d u) as H2. pose proof (check_quantities_ok t hour_u) as H3.
  destruct (check_quantities wl micron) as [w|]; cbn [bind]; [|split; [intros [? [=]]|tauto]].
  destruct (check_quantities d u) as [x|]; cbn [bind]; [|split; [intros [? [=]]|tauto]].
  destruct (check_quantities t hour_u) as [tm|]; cbn [bind]; [|split; [intros [? [=]]|tauto]].
  destruct H1 as (? & _ & E1 & _), H2 as (? & _ & E2 & _), H3 as (? & _ & E3 & _).
  pose proof (check_sizes_spec {| wl_grid := w; data := x; time_grid := tm |}) as [Hs Hc]. cbn [wl_grid data time_grid] in Hs.
  rewrite E1, E2, E3 in Hs. split.
  - intros [s E]. repeat split; auto. apply Hs. destruct Hc as [->|[Hc|Hc]]; auto; rewrite Hc in E; discriminate.
  - intros (_ & _ & _ & Hf). apply Hs in Hf. rewrite Hf. cbn. eauto.
Qed.
Print Assumptions C20_built_iff_consistent.

(** The built signal carries the units of the class, and the same physical values. *)
Theorem C20_units_converted : forall u wl d t s, scale u <> 0 -> build_signal u wl d t = Ok s ->
  q_unit (wl_grid s) = micron /\ q_unit (data s) = u /\ q_unit (time_grid s) = hour_u
  /\ shape (q_arr (wl_grid s)) = shape (array_of wl) /\ shape (q_arr (data s)) = shape (array_of d) /\ shape (q_arr (time_grid s)) = shape (array_of t)
  /\ map (physical micron) (elems (q_arr (wl_grid s))) = map (physical (unit_of wl micron)) (elems (array_of wl))
  /\ map (physical u) (elems (q_arr (data s))) = map (physical (unit_of d u)) (elems (array_of d))
  /\ map (physical hour_u) (elems (q_arr (time_grid s))) = map (physical (unit_of t hour_u)) (elems (array_of t)).
Proof.
  intros u wl d t s Hu. unfold build_signal.
  pose proof (check_quantities_ok wl micron) as H1. pose proof (check_quantities_ok d u) as H2. pose proof (check_quantities_ok t hour_u) as H3.
  destruct (check_quantities wl micron) as [w|]; cbn [bind]; [|discriminate].
  destruct (check_quantities d u) as [x|]; cbn [bind]; [|discriminate].
  destruct (check_quantities t hour_u) as [tm|]; cbn [bind]; [|discriminate].
  destruct (check_sizes _) as [[]|]; cbn [bind]; [|discriminate]. intros [= <-]. cbn [wl_grid data time_grid].
  destruct H1 as (_ & ? & ? & H1), H2 as (_ & ? & ? & H2), H3 as (_ & ? & ? & H3).
  repeat split; auto; [apply H1|apply H3]; cbn; lra.
Qed.
Print Assumptions C20_units_converted.

(** Which error: TypeError (UnitConversionError) exactly for units that cannot be converted;
    otherwise ValueError, or IndexError for arrays without axis and for several times with data of one axis. *)
Theorem C20_errors : forall u wl d t e, build_signal u wl d t = Err e ->
  let units := convertible (unit_of wl micron) micron /\ convertible (unit_of d u) u /\ convertible (unit_of t hour_u) hour_u in
  (e = TypeError <-> ~ units) /\ (units -> e = ValueError \/ e = IndexError).
Proof.
  intros u wl d t e E units. revert E. unfold build_signal.
  pose proof (check_quantities_ok wl micron) as H1. pose proof (check_quantities_ok d u) as H2. pose proof (check_quantities_ok t hour_u) as H3.
  destruct (check_quantities wl micron) as [w|]; cbn [bind]; [|intros [= <-]; unfold units; tauto].
  destruct (check_quantities d u) as [x|]; cbn [bind]; [|intros [= <-]; unfold units; tauto].
  destruct (check_quantities t hour_u) as [tm|]; cbn [bind]; [|intros [= <-]; unfold units; tauto].
  pose proof (check_sizes_spec {| wl_grid := w; data := x; time_grid := tm |}) as [_ Hc].
  intros E. assert (Hu : units) by (unfold units; tauto).
  destruct Hc as [Hc|[Hc|Hc]]; rewrite Hc in E; cbn in E; [discriminate| |]; injection E as <-; (split; [split; [discriminate|tauto]|auto]).
Qed.
Print Assumptions C20_errors.

(** A signal is never reported as time dependent: only all-zero times are accepted. *)
Theorem C20_time_dependence : forall s,
  (time_dependent s = Ok false <-> forall x, In x (elems (q_arr (time_grid s))) -> x = 0)
  /\ (time_dependent s = Ok false \/ time_dependent s = Err NotImplementedError).
Proof.
  intros s. unfold time_dependent. destruct (forallb _ _) eqn:E.
  - split; auto. split; auto. intros _ x Hx. rewrite forallb_forall in E. specialize (E x Hx). destruct (Req_EM_T x 0); [auto|discriminate].
  - split; auto. split; [discriminate|]. intros H. exfalso. assert (forallb (fun x => if Req_EM_T x 0 then true else false) (elems (q_arr (time_grid s))) = true).
    { apply forallb_forall. intros x Hx. rewrite (H x Hx). destruct (Req_EM_T 0 0); [reflexivity|congruence]. }
    congruence.
Qed.
Print Assumptions C20_time_dependence.

Definition nm : unit_ := {| dim := "length"; scale := 1 / 1000000000 |}.
Definition watt : unit_ := {| dim := "power"; scale := 1 |}.
Example C20_ex : exists s, build_signal watt (Quantity nm {| shape := [2%nat]; elems := [1000; 2000] |}) (Bare {| shape := [2%nat]; elems := [3; 4] |}) (Bare {| shape := [1%nat]; elems := [0] |}) = Ok s.
Proof.
  apply C20_built_iff_consistent. repeat split. exists 2%nat, 1%nat. cbn. auto.
Qed.
Example C20_ex_mismatch : build_signal watt (Bare {| shape := [2%nat]; elems := [1; 2] |}) (Bare {| shape := [3%nat]; elems := [3; 4; 5] |}) (Bare {| shape := [1%nat]; elems := [0] |}) = Err ValueError.
Proof. reflexivity. Qed.
Example C20_ex_times : build_signal watt (Bare {| shape := [2%nat]; elems := [1; 2] |}) (Bare {| shape := [2%nat]; elems := [3; 4] |}) (Bare {| shape := [2%nat]; elems := [0; 1] |}) = Err IndexError.
Proof. reflexivity. Qed.

(** ** C21: rebinning never invents flux *)
Lemma rebin_inv xu xpu x src g f : rebin xu xpu x src = Ok (g, f) ->
  xu = xpu /\ exists xs win0 win, x = map Some xs /\ in_window x src = Ok win0 /\ dedup (length win0) win0 = Ok win
  /\ (exists g', dedup (length xs) (map (fun w => (w, tt)) xs) = Ok g' /\ g = map fst g')
  /\ (2 <= length g)%nat /\ (2 <= length win)%nat
  /\ (binned (edges g) win = Ok f /\ f = bins (edges g) win \/ f = map (fun w => Some (interp (sort_src win) w)) g).
Proof.
  unfold rebin. destruct (same_unit xu xpu) eqn:Eu; cbn [negb]; [|discriminate]. apply same_unit_spec in Eu.
  intros E. split; auto. revert E.
  destruct (in_window x src) as [win0|] eqn:Ew; cbn [bind] in *; [|discriminate].
  destruct (dedup (length win0) win0) as [win|] eqn:Ed; cbn [bind] in *; [|discriminate].
  destruct (dedup (length (numbers x)) (map (fun w => (w, tt)) (numbers x))) as [g'|] eqn:Eg; cbn [bind] in *; [|discriminate].
  destruct (diffs (map fst win)) as [|d ds] eqn:E1; [discriminate|]. destruct (diffs (map fst g')) as [|e es] eqn:E2; [discriminate|].
  pose proof (diffs_length (map fst win)) as L1. pose proof (diffs_length (map fst g')) as L2. rewrite E1, map_length in L1. rewrite E2 in L2. cbn [length] in L1, L2.
  assert (Hx : exists xs, x = map Some xs).
  { unfold in_window in Ew. destruct x as [|a l]; [discriminate|]. destruct (all_numbers (a :: l)) as [xs|] eqn:Ea.
    - apply all_numbers_Some in Ea. eauto.
    - injection Ew as <-. discriminate Ed. }
  destruct Hx as [xs ->]. rewrite numbers_Some in Eg.
  destruct (Rltb (rmax d ds) (rmin e es)).
  - destruct (binned (edges (map fst g')) win) as [b|] eqn:Eb; cbn [bind] in *; [|discriminate]. intros [= <- <-].
    exists xs, win0, win. repeat split; eauto; try lia. left. split; auto.
    unfold binned in Eb. destruct (diffs (edges (map fst g'))); [discriminate|]. destruct (Rltb _ _); congruence.
  - intros [= <- <-]. exists xs, win0, win. repeat split; eauto; try lia.
Qed.

(** Every value is 0, missing, or within the bounds of the source samples - for every input. *)
Theorem C21_values_within_samples : forall xu xpu x src g f lo hi,
  rebin xu xpu x src = Ok (g, f) -> (forall p, In p src -> lo <= snd p <= hi) ->
  forall v, In (Some v) f -> v = 0 \/ lo <= v <= hi.
Proof.
  intros xu xpu x src g f lo hi E Hb v Hv. apply rebin_inv in E. destruct E as (_ & xs & win0 & win & -> & Ew & Ed & _ & Hg & Hl & Hf).
  assert (Hw : forall p, In p win -> lo <= snd p <= hi).
  { intros p Hp. apply (dedup_incl _ _ _ Ed) in Hp. apply (in_window_incl _ _ _ _ Ew) in Hp. now apply Hb in Hp. }
  destruct Hf as [[_ ->]| ->].
  - right. apply In_nth_error in Hv. destruct Hv as [i Hi].
    assert (Hlt : (S i < length (edges g))%nat).
    { assert (i < length (bins (edges g) win))%nat by (apply nth_error_Some; congruence). rewrite bins_length in H. lia. }
    rewrite bins_nth in Hi by auto. assert (Hm : mean (map snd (filter (fun p => in_bin (nth i (edges g) 0) (nth (S i) (edges g) 0) (Nat.eqb (S (S i)) (length (edges g))) (fst p)) win)) = Some v) by congruence.
    apply mean_bounds with (lo := lo) (hi := hi) in Hm; auto. intros y Hy. apply in_map_iff in Hy. destruct Hy as (p & <- & Hp). apply filter_In in Hp. now apply Hw.
  - apply in_map_iff in Hv. destruct Hv as (w & Ev & _). assert (Hv : v = interp (sort_src win) w) by congruence. rewrite Hv.
    apply interp_bounds; [apply sort_sorted|]. intros p Hp. apply (proj1 (sort_In p win)) in Hp. auto.
Qed.
Print Assumptions C21_values_within_samples.

(** So non-negative samples stay non-negative and transmissions stay in [0,1], also after the
    missing values have been replaced by 0. *)
Theorem C21_sign_and_unit_interval_kept : forall xu xpu new src g y hi,
  spectral_rebin xu xpu new src = Ok (g, y) -> 0 <= hi -> (forall p, In p src -> 0 <= snd p <= hi) -> forall v, In v y -> 0 <= v <= hi.
Proof.
  intros xu xpu new src g y hi E Hh Hb v Hv. unfold spectral_rebin in E. destruct (rebin xu xpu new src) as [[g' f]|] eqn:Er; [|discriminate].
  cbn [bind] in E. injection E as <- <-. apply in_map_iff in Hv. destruct Hv as ([w|] & <- & Hw); [|lra].
  destruct (C21_values_within_samples _ _ _ _ _ _ 0 hi Er Hb w Hw); lra.
Qed.
Print Assumptions C21_sign_and_unit_interval_kept.

(** ** C22: one value per distinct target wavelength *)
Theorem C22_one_value_per_grid_point : forall xu xpu x src g f, rebin xu xpu x src = Ok (g, f) -> length f = length g.
Proof.
  intros xu xpu x src g f E. apply rebin_inv in E. destruct E as (_ & xs & win0 & win & -> & Ew & Ed & _ & Hg & Hl & [[_ ->]| ->]).
  - rewrite bins_length, edges_length; lia.
  - now rewrite map_length.
Qed.
Print Assumptions C22_one_value_per_grid_point.

(** On an ordered target grid the returned grid has the same wavelengths, each once and in order. *)
Theorem C22_ordered_grid_without_duplicates : forall xu xpu xs src g f, nondecreasing xs ->
  rebin xu xpu (map Some xs) src = Ok (g, f) -> increasing g /\ (forall w, In w g <-> In w xs) /\ (increasing xs -> g = xs).
Proof.
  intros xu xpu xs src g f Hs E. apply rebin_inv in E. destruct E as (_ & xs' & win0 & win & Ex & Ew & Ed & (g' & Eg & ->) & _).
  assert (xs' = xs) as ->. { apply (f_equal numbers) in Ex. rewrite !numbers_Some in Ex. auto. }
  rewrite dedup_ordered in Eg; [|now rewrite wls_unit|now rewrite map_length].
  destruct (Nat.leb _ _); [|discriminate]. assert (g' = keep_last (map (fun w => (w, tt)) xs)) as -> by congruence.
  change (map fst) with (@wls unit). repeat split.
  - apply keep_last_sorted. now rewrite wls_unit.
  - intros H. apply (proj1 (keep_last_wls _ _)) in H. now rewrite wls_unit in H.
  - intros H. apply keep_last_wls. now rewrite wls_unit.
  - intros Hi. rewrite keep_last_increasing; rewrite wls_unit; auto.
Qed.
Print Assumptions C22_ordered_grid_without_duplicates.

(** A single step down in the target grid switches the removal of duplicates off. *)
Theorem C22_unordered_grid_kept : forall xu xpu xs src g f a b, neighbours xs a b -> b < a ->
  rebin xu xpu (map Some xs) src = Ok (g, f) -> g = xs.
Proof.
  intros xu xpu xs src g f a b Hn Hd E. apply rebin_inv in E. destruct E as (_ & xs' & win0 & win & Ex & Ew & Ed & (g' & Eg & ->) & _).
  assert (xs' = xs) as ->. { apply (f_equal numbers) in Ex. rewrite !numbers_Some in Ex. auto. }
  rewrite (dedup_descending _ _ a b) in Eg; auto; [|now rewrite wls_unit].
  assert (g' = map (fun w => (w, tt)) xs) as -> by congruence. apply wls_unit.
Qed.
Print Assumptions C22_unordered_grid_kept.

(** A NaN in the target grid is never removed: the call always fails. *)
Theorem C22_nan_target_fails : forall xu xpu x src, In None x -> rebin xu xpu x src = Err ValueError.
Proof.
  intros xu xpu x src H. unfold rebin. destruct (same_unit xu xpu); [|reflexivity]. cbn [negb].
  unfold in_window. destruct x as [|a l]; [destruct H|]. rewrite (proj2 (all_numbers_None _) H). reflexivity.
Qed.
Print Assumptions C22_nan_target_fails.

(** Every failure of rebin is a ValueError. *)
Theorem C22_only_value_error : forall xu xpu x src e, rebin xu xpu x src = Err e -> e = ValueError.
Proof.
  intros xu xpu x src e. unfold rebin. destruct (negb _); [congruence|].
  destruct (in_window x src) as [win|e'] eqn:Ew; cbn [bind].
  2:{ unfold in_window in Ew. destruct x; congruence. }
  destruct (dedup_ends (length win) win) as [[l' E]|E]; auto; rewrite E; cbn [bind]; [|congruence].
  destruct (dedup_ends (length (numbers x)) (map (fun w => (w, tt)) (numbers x))) as [[k' E']|E']; [now rewrite map_length| |]; rewrite E'; cbn [bind]; [|congruence].
  destruct (diffs (map fst l')); [congruence|]. destruct (diffs (map fst k')); [congruence|]. destruct (Rltb _ _); [|discriminate].
  unfold binned. destruct (diffs _) as [|d' ds'] eqn:E3; cbn [bind]; [congruence|]. destruct (Rltb _ _); cbn [bind]; congruence.
Qed.
Print Assumptions C22_only_value_error.

(** On increasing targets and ordered sources: it fails exactly when fewer than two distinct source
    wavelengths lie within 10% of the targets. *)
Theorem C22_fails_iff_few_sources : forall u xs src lo hi, increasing xs -> (2 <= length xs)%nat -> least lo xs -> greatest hi xs -> nondecreasing (wls src) ->
  (rebin u u (map Some xs) (known src) = Err ValueError <-> forall p q, In p (visible lo hi src) -> In q (visible lo hi src) -> fst p = fst q).
Proof.
  intros u xs src lo hi Hs H2 Hlo Hhi Hsrc. destruct (rebin_increasing u xs src lo hi Hs H2 Hlo Hhi Hsrc) as (Ha & Hb & Hc).
  set (vis := visible lo hi src) in *. assert (Hv : nondecreasing (wls vis)) by now apply filter_sorted.
  pose proof (keep_last_sorted vis Hv) as Hk.
  assert (Hcase : (length (keep_last vis) < 2)%nat <-> forall p q, In p vis -> In q vis -> fst p = fst q).
  { split.
    - intros Hl p q Hp Hq. apply (in_map fst) in Hp. apply (in_map fst) in Hq. apply (proj2 (keep_last_wls vis _)) in Hp. apply (proj2 (keep_last_wls vis _)) in Hq.
      destruct (keep_last vis) as [|a [|b l]]; cbn in Hl; try lia; cbn in Hp, Hq; intuition congruence.
    - intros H. destruct (keep_last vis) as [|a [|b l]] eqn:E; cbn; try lia. exfalso.
      assert (fst a < fst b) by (apply (sorted_Forall_In Rlt _ _ Hk); now left).
      assert (fst a = fst b); [|lra]. apply H; apply (keep_last_incl vis); rewrite E; cbn; auto. }
  rewrite <- Hcase. split; auto. intros E. destruct (Nat.lt_ge_cases (length (keep_last vis)) 2) as [|Hge]; auto.
  exfalso. destruct (Classical_Prop.classic (finer (keep_last vis) xs)) as [Hf|Hf]; [rewrite (Hb Hge Hf) in E|rewrite (Hc Hge Hf) in E]; discriminate.
Qed.
Print Assumptions C22_fails_iff_few_sources.

(** A signal rebinned on an increasing grid has one value per grid point... *)
Theorem C22_signal_on_increasing_grid : forall xu xpu xs src g y, increasing xs ->
  spectral_rebin xu xpu (map Some xs) src = Ok (g, y) -> g = map Some xs /\ length y = length xs.
Proof.
  intros xu xpu xs src g y Hs E. unfold spectral_rebin in E. destruct (rebin xu xpu (map Some xs) src) as [[g' f]|] eqn:Er; [|discriminate].
  cbn [bind] in E. injection E as <- <-. split; auto. rewrite map_length, (C22_one_value_per_grid_point _ _ _ _ _ _ Er).
  destruct (C22_ordered_grid_without_duplicates _ _ _ _ _ _ (increasing_nondecreasing _ Hs) Er) as (_ & _ & H). now rewrite H.
Qed.
Print Assumptions C22_signal_on_increasing_grid.

(** ** C23: what the values are *)
(** Interpolation, when some gap between the visible sources is not smaller than some step. *)
Theorem C23_interpolation : forall u xs src lo hi g f, increasing xs -> least lo xs -> greatest hi xs -> increasing (wls src) ->
  let vis := visible lo hi src in ~ finer vis xs -> rebin u u (map Some xs) (known src) = Ok (g, f) ->
  forall w o, In (w, o) (combine g f) -> exists v, o = Some v
  /\ (forall p, In p vis -> fst p = w -> v = snd p)
  /\ (forall p q, neighbours vis p q -> fst p <= w <= fst q -> v * (fst q - fst p) = snd p * (fst q - w) + snd q * (w - fst p))
  /\ ((forall p, In p vis -> w < fst p) \/ (forall p, In p vis -> fst p < w) -> v = 0).
Proof.
  intros u xs src lo hi g f Hs Hlo Hhi Hsrc vis Hf E w o Hin.
  assert (Hvs : increasing (wls vis)) by now apply filter_sorted.
  pose proof (increasing_nondecreasing _ Hvs) as Hvn.
  pose proof E as E0. apply rebin_inv in E0. destruct E0 as (_ & xs' & _ & _ & Ex & _ & _ & _ & Hg & _).
  destruct (C22_ordered_grid_without_duplicates _ _ _ _ _ _ (increasing_nondecreasing _ Hs) E) as (_ & _ & Hgx). specialize (Hgx Hs). subst g.
  destruct (rebin_increasing u xs src lo hi Hs Hg Hlo Hhi (increasing_nondecreasing _ Hsrc)) as (Ha & Hb & Hc).
  fold vis in Ha, Hb, Hc. rewrite keep_last_increasing in Ha, Hb, Hc by auto.
  destruct (Nat.lt_ge_cases (length vis) 2) as [Hl|Hl]; [rewrite (Ha Hl) in E; discriminate|].
  rewrite (Hc Hl Hf) in E. assert (Ef : f = map (fun w => Some (interp vis w)) xs) by congruence. subst f.
  assert (Ho : o = Some (interp vis w)).
  { clear - Hin. induction xs as [|a xs IH]; [destruct Hin|]. destruct Hin as [Hin|Hin]; [congruence|auto]. }
  exists (interp vis w). split; auto.
  assert (Huniq : forall p q, In p vis -> In q vis -> fst p = fst q -> p = q).
  { clear - Hvs. induction vis as [|a l IH]; intros p q Hp Hq Epq; [destruct Hp|].
    assert (Ht : increasing (wls l)) by now apply StronglySorted_inv in Hvs.
    destruct Hp as [<-|Hp], Hq as [<-|Hq]; auto; exfalso.
    - assert (fst a < fst q) by (apply (sorted_Forall_In Rlt _ _ Hvs); now apply in_map). lra.
    - assert (fst a < fst p) by (apply (sorted_Forall_In Rlt _ _ Hvs); now apply in_map). lra. }
  (* neighbours are unique: between them there is no source *)
  assert (Hgap : forall p q r, neighbours vis p q -> In r vis -> fst r <= fst p \/ fst q <= fst r).
  { intros p q r (l1 & l2 & El) Hr. rewrite El in Hr. clear - Hr El Hvs. rewrite El in Hvs. clear El.
    induction l1 as [|a l1 IH].
    - cbn in Hr. destruct Hr as [<-|[<-|Hr]]; [left; lra|right; lra|].
      right. apply StronglySorted_inv in Hvs as [Hvs _]. left. apply (sorted_Forall_In Rlt _ _ Hvs). now apply in_map.
    - destruct Hr as [<-|Hr].
      + left. left. apply (sorted_Forall_In Rlt _ _ Hvs). change (In (fst p) (map fst (l1 ++ p :: q :: l2))). apply in_map. apply in_or_app. right. now left.
      + apply IH; auto. now apply StronglySorted_inv in Hvs. }
  pose proof (locate_spec w vis Hvn) as Hloc. unfold interp. split; [|split].
  - intros p Hp Ew. destruct (locate w vis) as [[r [q|]]|].
    + destruct Hloc as [Hn Hw]. destruct (Hgap _ _ p Hn Hp) as [H|H]; [|lra].
      assert (p = r) as -> by (apply Huniq; auto; [apply neighbours_In in Hn; tauto|lra]). rewrite Ew. rewrite (Rminus_diag_eq w w) by auto. lra.
    + destruct Hloc as (Hr & Hw & Hm). specialize (Hm _ Hp). assert (p = r) as -> by (apply Huniq; auto; lra).
      destruct (Rltb (fst r) w) eqn:El; auto. apply Rltb_true in El. lra.
    + specialize (Hloc _ Hp). lra.
  - intros p q Hn Hw. assert (Hpq : fst p < fst q) by (apply (sorted_neighbours Rlt _ _ _ Hvs); apply neighbours_map; eauto).
    pose proof (neighbours_In _ _ _ Hn) as [Hp Hq].
    destruct (locate w vis) as [[r [s|]]|].
    + destruct Hloc as [Hn' Hw']. pose proof (neighbours_In _ _ _ Hn') as [Hr Hs'].
      destruct (Hgap _ _ p Hn' Hp) as [H1|H1]; [|lra]. destruct (Hgap _ _ r Hn Hr) as [H2|H2].
      * assert (p = r) as -> by (apply Huniq; auto; lra).
        destruct (Hgap _ _ s Hn Hs') as [H3|H3]; [lra|]. destruct (Hgap _ _ q Hn' Hq) as [H4|H4]; [lra|].
        assert (q = s) as -> by (apply Huniq; auto; lra). field. lra.
      * assert (r = q) as -> by (apply Huniq; auto; lra). assert (Ew : w = fst q) by lra. rewrite Ew. rewrite (Rminus_diag_eq (fst q) (fst q)) by auto. ring.
    + destruct Hloc as (Hr & Hw' & Hm). pose proof (Hm _ Hq). assert (q = r) as -> by (apply Huniq; auto; lra).
      destruct (Rltb (fst r) w) eqn:El; [apply Rltb_true in El; lra|]. apply Rltb_false in El. assert (w = fst r) as -> by lra. ring.
    + specialize (Hloc _ Hp). lra.
  - intros H. destruct (locate w vis) as [[r [s|]]|]; auto.
    + destruct Hloc as [Hn' Hw']. pose proof (neighbours_In _ _ _ Hn') as [Hr Hs']. destruct H as [H|H]; [specialize (H _ Hr); lra|specialize (H _ Hs'); lra].
    + destruct Hloc as (Hr & Hw' & Hm). destruct H as [H|H]; [specialize (H _ Hr); lra|]. specialize (H _ Hr). destruct (Rltb (fst r) w) eqn:El; auto. apply Rltb_false in El. lra.
Qed.
Print Assumptions C23_interpolation.

(** Binning, when every gap between the visible sources is smaller than every step. *)
Theorem C23_binning : forall u xs src lo hi g f, increasing xs -> least lo xs -> greatest hi xs -> increasing (wls src) ->
  let vis := visible lo hi src in finer vis xs -> rebin u u (map Some xs) (known src) = Ok (g, f) ->
  g = xs /\ forall i o, nth_error f i = Some o -> exists samples, bin_samples xs i vis samples
    /\ match o with Some v => average samples v | None => samples = [] end.
Proof.
  intros u xs src lo hi g f Hs Hlo Hhi Hsrc vis Hf E.
  assert (Hvs : increasing (wls vis)) by now apply filter_sorted.
  pose proof E as E0. apply rebin_inv in E0. destruct E0 as (_ & xs' & _ & _ & Ex & _ & _ & _ & Hg & _).
  destruct (C22_ordered_grid_without_duplicates _ _ _ _ _ _ (increasing_nondecreasing _ Hs) E) as (_ & _ & Hgx). specialize (Hgx Hs). subst g.
  destruct (rebin_increasing u xs src lo hi Hs Hg Hlo Hhi (increasing_nondecreasing _ Hsrc)) as (Ha & Hb & Hc).
  fold vis in Ha, Hb, Hc. rewrite keep_last_increasing in Ha, Hb, Hc by auto.
  destruct (Nat.lt_ge_cases (length vis) 2) as [Hl|Hl]; [rewrite (Ha Hl) in E; discriminate|].
  rewrite (Hb Hl Hf) in E. assert (Ef : f = bins (edges xs) vis) by congruence. subst f. split; auto.
  intros i o Hi. assert (Hlt : (i < length xs)%nat).
  { assert (i < length (bins (edges xs) vis))%nat by (apply nth_error_Some; congruence). rewrite bins_length, edges_length in H by auto. lia. }
  rewrite bins_nth in Hi by (rewrite edges_length by auto; lia). rewrite (edges_low xs i), (edges_high xs i), edges_length in Hi by auto.
  match type of Hi with Some (mean (map snd (filter ?k _))) = _ => set (keep := k) in Hi end.
  exists (map snd (filter keep vis)). split.
  - exists keep. split; auto. intros p _. unfold keep. rewrite in_bin_spec. unfold in_bin_of. rewrite Nat.eqb_eq. intuition lia.
  - assert (Em : mean (map snd (filter keep vis)) = o) by congruence. destruct o as [v|]; [now apply mean_average|now apply mean_None].
Qed.
Print Assumptions C23_binning.

Lemma crossing {A} (l : list A) : forall c q (P : A -> Prop), P c -> In q l -> ~ P q -> (forall r, In r (c :: l) -> P r \/ ~ P r) ->
  exists a b, neighbours (c :: l) a b /\ P a /\ ~ P b.
Proof.
  induction l as [|d l IH]; intros c q P Hc Hq Hn Hd; [destruct Hq|].
  destruct (Hd d) as [H|H]; [cbn; auto| |].
  - destruct (IH d q P) as (a & b & Hab & H'); auto.
    + destruct Hq as [->|]; [contradiction|auto].
    + intros r Hr. apply Hd. now right.
    + exists a, b. split; auto. apply neighbours_cons. now right.
  - exists c, d. split; auto. apply neighbours_cons. left. eauto.
Qed.
(** In binning mode a bin between targets is never empty when sources exist on both sides. *)
Theorem C23_interior_bins_filled : forall xs src i samples, increasing xs -> increasing (wls src) -> finer src xs ->
  (0 < i)%nat -> (S i < length xs)%nat -> bin_samples xs i src samples ->
  (exists p, In p src /\ fst p <= bin_low xs i) -> (exists q, In q src /\ bin_high xs i <= fst q) -> samples <> [].
Proof.
  intros xs src i samples Hs Hsrc Hf Hi0 Hi (keep & Hk & ->) (p & Hp & Hpl) (q & Hq & Hqh) Habs.
  assert (Hnone : forall r, In r src -> ~ in_bin_of xs i (fst r)).
  { intros r Hr Hb. apply (Hk r Hr) in Hb. assert (In r (filter keep src)) by (apply filter_In; auto). apply map_eq_nil in Habs. rewrite Habs in H. destruct H. }
  assert (Hlh : bin_low xs i < bin_high xs i) by (pose proof (bin_low_lt_high xs i Hs); assert (2 <= length xs)%nat by lia; assert (i < length xs)%nat by lia; intuition lra).
  assert (Hside : forall r, In r src -> fst r < bin_low xs i \/ bin_high xs i <= fst r).
  { intros r Hr. specialize (Hnone r Hr). unfold in_bin_of in Hnone. destruct (Rlt_le_dec (fst r) (bin_low xs i)); auto. destruct (Rlt_le_dec (fst r) (bin_high xs i)); auto. exfalso. apply Hnone. auto. }
  assert (Hpl' : fst p < bin_low xs i) by (destruct (Hside p Hp); lra).
  (* a neighbouring pair across the bin *)
  assert (Hpair : exists a b, neighbours src a b /\ fst a < bin_low xs i /\ bin_high xs i <= fst b).
  { destruct src as [|c l]; [destruct Hp|].
    assert (Hc : fst c < bin_low xs i).
    { destruct Hp as [->|Hp]; auto. assert (fst c < fst p) by (apply (sorted_Forall_In Rlt _ _ Hsrc); now apply in_map). lra. }
    assert (Hql : In q l) by (destruct Hq as [->|]; [lra|auto]).
    destruct (crossing l c q (fun r => fst r < bin_low xs i)) as (a & b & Hn & Ha & Hb); auto; [lra|intros r Hr; destruct (Hside r Hr); [left; auto|right; lra]|].
    exists a, b. repeat split; auto. destruct (neighbours_In _ _ _ Hn) as [_ Hb']. destruct (Hside _ Hb'); tauto. }
  destruct Hpair as (a & b & Hn & Ha & Hb).
  assert (H1 : neighbours xs (nth (i - 1) xs 0) (nth i xs 0)) by (apply neighbours_nth; exists (i - 1)%nat; replace (S (i - 1)) with i by lia; repeat split; lia).
  assert (H2 : neighbours xs (nth i xs 0) (nth (S i) xs 0)) by (apply neighbours_nth; exists i; auto).
  pose proof (Hf _ _ _ _ Hn H1). pose proof (Hf _ _ _ _ Hn H2).
  unfold bin_low in Ha. unfold bin_high in Hb. destruct i as [|j]; [lia|]. destruct (Nat.eqb_spec (S (S j)) (length xs)); [lia|].
  replace (S j - 1)%nat with j in * by lia. lra.
Qed.
Print Assumptions C23_interior_bins_filled.

(** Rebinning is linear in the samples: with two sets of samples on the same wavelengths, the
    combination of the samples gives the combination of the results on the same grid, with missing
    values in the same places. *)
Definition samples_of {V} (phi : V -> R) (src : list (option R * V)) : list (option R * R) := map (fun p => (fst p, phi (snd p))) src.
Definition combination (a b : R) (x y : option R) : option R :=
  match x, y with Some v, Some w => Some (a * v + b * w) | _, _ => None end.

Section Commute.
  Context {V W : Type} (phi : V -> W).
  Let on_value (p : R * V) : R * W := (fst p, phi (snd p)).
  Lemma fst_on_value l : map fst (map on_value l) = map fst l.
  Proof. rewrite map_map. now apply map_ext. Qed.
  Lemma in_window_map x (src : list (option R * V)) win : in_window x src = Ok win -> in_window x (map (fun p => (fst p, phi (snd p))) src) = Ok (map on_value win).
  Proof.
    unfold in_window. destruct x as [|a l]; [discriminate|]. destruct (all_numbers (a :: l)) as [[|b k]|]; intros H; try (injection H as <-; reflexivity).
    assert (E : win = flat_map (fun p : option R * V => match fst p with
                                   | Some w => if Rltb (0.9 * rmin b k) w && Rltb w (1.1 * rmax b k) then [(w, snd p)] else []
                                   | None => [] end) src) by congruence.
    clear H. subst win. f_equal. induction src as [|[[w|] v] src IH]; auto. cbn [map flat_map fst snd]. rewrite map_app, <- IH.
    destruct (_ && _); reflexivity.
  Qed.
  Lemma drop_first_dup_map l : drop_first_dup (map on_value l) = map on_value (drop_first_dup l).
  Proof.
    induction l as [|a l IH]; auto. destruct l as [|b l]; auto. cbn [map drop_first_dup] in *. unfold on_value at 1 2. cbn [fst].
    destruct (Req_EM_T (fst b - fst a) 0); [reflexivity|]. cbn [map]. f_equal. exact IH.
  Qed.
  Lemma dedup_map n : forall l, dedup n (map on_value l) = match dedup n l with Ok l' => Ok (map on_value l') | Err e => Err e end.
  Proof.
    induction n as [|n IH]; intros l; rewrite (dedup_unfold _ (map on_value l)), (dedup_unfold _ l), fst_on_value; destruct (diffs (map fst l)) as [|d ds]; auto; destruct (Req_EM_T (rmin d ds) 0); auto.
    rewrite drop_first_dup_map. apply IH.
  Qed.
  Lemma insert_map p l : insert (on_value p) (map on_value l) = map on_value (insert p l).
  Proof. induction l as [|a l IH]; auto. cbn [map insert]. unfold on_value at 1 2. cbn [fst]. destruct (Rltb (fst a) (fst p)); cbn [map]; [f_equal; exact IH|reflexivity]. Qed.
  Lemma sort_map l : sort_src (map on_value l) = map on_value (sort_src l).
  Proof. unfold sort_src. induction l as [|a l IH]; auto. cbn [map fold_right]. rewrite IH. apply insert_map. Qed.
  Lemma locate_map w l : locate w (map on_value l) = match locate w l with Some (p, q) => Some (on_value p, option_map on_value q) | None => None end.
  Proof.
    induction l as [|a l IH]; auto. cbn [map locate]. unfold on_value at 1. cbn [fst]. destruct (Rltb w (fst a)); auto. rewrite IH.
    destruct (locate w l) as [[p q]|]; auto. destruct l; reflexivity.
  Qed.
  Lemma filter_on_value f l : filter (fun p => f (fst p)) (map on_value l) = map on_value (filter (fun p => f (fst p)) l).
  Proof. induction l as [|a l IH]; auto. cbn [map filter]. unfold on_value at 1. cbn [fst]. destruct (f (fst a)); cbn [map]; rewrite IH; reflexivity. Qed.
End Commute.

(** rebin is a common part that does not look at the values, followed by bins or interpolation *)
Lemma rebin_values {V} xu xpu x (src : list (option R * V)) :
  (exists e, forall phi, rebin xu xpu x (samples_of phi src) = Err e) \/
  exists g (win : list (R * V)), 
    (forall phi, rebin xu xpu x (samples_of phi src) = Ok (g, bins (edges g) (map (fun p => (fst p, phi (snd p))) win))) \/
    (forall phi, rebin xu xpu x (samples_of phi src) = Ok (g, map (fun w => Some (interp (map (fun p => (fst p, phi (snd p))) win) w)) g)).
Proof.
  unfold rebin, samples_of. destruct (negb (same_unit xu xpu)); [left; eauto|].
  destruct x as [|a l] eqn:Ex; [left; exists ValueError; reflexivity|]. rewrite <- Ex.
  destruct (in_window x src) as [win0|] eqn:Ew; [|subst x; discriminate Ew].
  assert (Hw : forall phi : V -> R, in_window x (map (fun p => (fst p, phi (snd p))) src) = Ok (map (fun p => (fst p, phi (snd p))) win0)) by (intros phi; now apply in_window_map).
  destruct (dedup (length win0) win0) as [win|e] eqn:Ed.
  2:{ left. exists e. intros phi. rewrite Hw. cbn [bind]. rewrite map_length, dedup_map, Ed. reflexivity. }
  assert (Hd : forall phi : V -> R, dedup (length (map (fun p => (fst p, phi (snd p))) win0)) (map (fun p => (fst p, phi (snd p))) win0) = Ok (map (fun p => (fst p, phi (snd p))) win)) by (intros phi; rewrite map_length, dedup_map, Ed; reflexivity).
  destruct (dedup (length (numbers x)) (map (fun w => (w, tt)) (numbers x))) as [g'|e] eqn:Eg.
  2:{ left. exists e. intros phi. rewrite Hw. cbn [bind]. rewrite Hd. reflexivity. }
  destruct (diffs (map fst win)) as [|d ds] eqn:E1.
  { left. exists ValueError. intros phi. rewrite Hw. cbn [bind]. rewrite Hd. cbn [bind]. rewrite fst_on_value, E1. reflexivity. }
  destruct (diffs (map fst g')) as [|c cs] eqn:E2.
  { left. exists ValueError. intros phi. rewrite Hw. cbn [bind]. rewrite Hd. cbn [bind]. rewrite fst_on_value, E1, ?E2. reflexivity. }
  destruct (Rltb (rmax d ds) (rmin c cs)) eqn:Er.
  - unfold binned. destruct (diffs (edges (map fst g'))) as [|z zs] eqn:Ez; [|destruct (Rltb 0 (rmin z zs)) eqn:Ep].
    + left. exists ValueError. intros phi. rewrite Hw. cbn [bind]. rewrite Hd. cbn [bind]. rewrite fst_on_value, E1, ?E2, Er, Ez. reflexivity.
    + right. exists (map fst g'), win. left. intros phi. rewrite Hw. cbn [bind]. rewrite Hd. cbn [bind]. rewrite fst_on_value, E1, ?E2, Er, Ez, Ep. reflexivity.
    + left. exists ValueError. intros phi. rewrite Hw. cbn [bind]. rewrite Hd. cbn [bind]. rewrite fst_on_value, E1, ?E2, Er, Ez, Ep. reflexivity.
  - right. exists (map fst g'), (sort_src win). right. intros phi. rewrite Hw. cbn [bind]. rewrite Hd. cbn [bind]. rewrite fst_on_value, E1, ?E2, Er, sort_map. reflexivity.
Qed.
Lemma mean_linear {V} (f g : V -> R) a b l :
  mean (map (fun v => a * f v + b * g v) l) = combination a b (mean (map f l)) (mean (map g l)).
Proof.
  destruct l as [|v l]; auto. unfold mean. remember (v :: l) as k eqn:Ek.
  assert (Hp : 0 < INR (length k)) by (apply INR_length_pos; congruence).
  assert (H : forall h : V -> R, match map h k with [] => None | _ => Some (rsum (map h k) / INR (length (map h k))) end = Some (rsum (map h k) / INR (length k))).
  { intros h. rewrite map_length. subst k. reflexivity. }
  rewrite !H. cbn [combination]. f_equal.
  assert (E : rsum (map (fun v => a * f v + b * g v) k) = a * rsum (map f k) + b * rsum (map g k)) by (clear; induction k as [|x k IH]; cbn; [ring|rewrite IH; ring]).
  rewrite E. field. lra.
Qed.
Theorem C23_linear : forall xu xpu x (src : list (option R * (R * R))) a b g F G,
  rebin xu xpu x (samples_of fst src) = Ok (g, F) -> rebin xu xpu x (samples_of snd src) = Ok (g, G) ->
  exists H, rebin xu xpu x (samples_of (fun v => a * fst v + b * snd v) src) = Ok (g, H)
  /\ length H = length F /\ forall i, nth_error H i = match nth_error F i, nth_error G i with Some v, Some w => Some (combination a b v w) | _, _ => None end.
Proof.
  intros xu xpu x src a b g F G EF EG.
  destruct (rebin_values xu xpu x src) as [[e He]|(g' & win & [H|H])]; [rewrite He in EF; discriminate| |].
  - rewrite H in EF, EG. assert (g' = g) as -> by congruence.
    assert (F = bins (edges g) (map (fun p => (fst p, fst (snd p))) win)) as -> by congruence.
    assert (G = bins (edges g) (map (fun p => (fst p, snd (snd p))) win)) as -> by congruence.
    eexists. split; [apply H|]. split; [now rewrite !bins_length|]. intros i.
    destruct (Nat.lt_ge_cases (S i) (length (edges g))) as [Hi|Hi].
    + rewrite !bins_nth by auto. f_equal.
      set (sel := fun w => in_bin (nth i (edges g) 0) (nth (S i) (edges g) 0) (Nat.eqb (S (S i)) (length (edges g))) w).
      change (fun p : R * R => in_bin (nth i (edges g) 0) (nth (S i) (edges g) 0) (Nat.eqb (S (S i)) (length (edges g))) (fst p)) with (fun p : R * R => sel (fst p)).
      rewrite (filter_on_value (fun v : R * R => a * fst v + b * snd v) sel), (filter_on_value (@fst R R) sel), (filter_on_value (@snd R R) sel).
      rewrite !map_map. cbn [snd]. 
      exact (mean_linear (fun p : R * (R * R) => fst (snd p)) (fun p => snd (snd p)) a b (filter (fun p => sel (fst p)) win)).
    + rewrite !(proj2 (nth_error_None _ _)) by (rewrite bins_length; lia). reflexivity.
  - rewrite H in EF, EG. assert (g' = g) as -> by congruence.
    assert (F = map (fun w => Some (interp (map (fun p => (fst p, fst (snd p))) win) w)) g) as -> by congruence.
    assert (G = map (fun w => Some (interp (map (fun p => (fst p, snd (snd p))) win) w)) g) as -> by congruence.
    eexists. split; [apply H|]. split; [now rewrite !map_length|]. intros i. rewrite !nth_error_map. destruct (nth_error g i) as [w|]; auto. cbn [option_map combination]. do 2 f_equal.
    unfold interp. rewrite (locate_map (fun v : R * R => a * fst v + b * snd v)), (locate_map (@fst R R)), (locate_map (@snd R R)).
    destruct (locate w win) as [[p [q|]]|]; cbn [option_map fst snd]; [|destruct (Rltb (fst p) w)|]; try ring.
    unfold Rdiv. ring.
Qed.
Print Assumptions C23_linear.

(** ** Concrete cases *)
Ltac decide_reals :=
  repeat match goal with
  | |- context [Rlt_dec ?a ?b] => destruct (Rlt_dec a b); [try lra|try lra]
  | |- context [Req_EM_T ?a ?b] => destruct (Req_EM_T a b); [try lra|try lra]
  end.
Definition um : unit_ := micron.
Lemma ex_grid : increasing [1; 2; 3] /\ least 1 [1; 2; 3] /\ greatest 3 [1; 2; 3].
Proof.
  repeat split; [repeat constructor; lra|cbn; auto|intros y Hy; cbn in Hy; intuition subst; lra|cbn; auto|intros y Hy; cbn in Hy; intuition subst; lra].
Qed.
Ltac neighbour_cases H := repeat (apply neighbours_cons in H; destruct H as [[? [? H]]|H]; [try discriminate; try (injection H as ? ?); subst|]); try (apply neighbours_nil in H; destruct H).
(** binning three targets *)
Definition fine : list (R * R) := [(0.95, 1); (1.4, 3); (1.9, 5); (2.3, 7); (2.8, 9); (3.2, 4)].
Example C23_ex_binning : exists f, rebin um um (map Some [1; 2; 3]) (known fine) = Ok ([1; 2; 3], f) /\ finer (visible 1 3 fine) [1; 2; 3] /\ increasing (wls fine).
Proof.
  destruct ex_grid as (Hs & Hlo & Hhi). assert (Hi : increasing (wls fine)) by (cbn; repeat constructor; lra).
  assert (Hv : visible 1 3 fine = fine) by (unfold visible, fine; cbn; decide_reals; reflexivity).
  assert (Hf : finer (visible 1 3 fine) [1; 2; 3]).
  { rewrite Hv. intros p q a b Hp Ha. unfold fine in Hp. neighbour_cases Hp; neighbour_cases Ha; cbn; lra. }
  destruct (rebin_increasing um [1; 2; 3] fine 1 3 Hs) as (_ & Hb & _); auto; [cbn; lia|now apply increasing_nondecreasing|].
  rewrite Hv, keep_last_increasing in Hb by auto. rewrite Hv in Hf. eexists. split; [apply Hb; auto; cbn; lia|]. rewrite Hv. auto.
Qed.
(** interpolating *)
Definition coarse : list (R * R) := [(0.95, 1); (2, 3); (3.2, 4)].
Example C23_ex_interpolation : exists f, rebin um um (map Some [1; 2; 3]) (known coarse) = Ok ([1; 2; 3], f) /\ ~ finer (visible 1 3 coarse) [1; 2; 3].
Proof.
  destruct ex_grid as (Hs & Hlo & Hhi). assert (Hi : increasing (wls coarse)) by (cbn; repeat constructor; lra).
  assert (Hv : visible 1 3 coarse = coarse) by (unfold visible, coarse; cbn; decide_reals; reflexivity).
  assert (Hf : ~ finer coarse [1; 2; 3]).
  { intros H. specialize (H (2, 3) (3.2, 4) 1 2). assert (fst (3.2, 4) - fst (2, 3) < 2 - 1); [|cbn in *; lra]. apply H; [exists [(0.95, 1)], []|exists [], [3]]; reflexivity. }
  destruct (rebin_increasing um [1; 2; 3] coarse 1 3 Hs) as (_ & _ & Hc); auto; [cbn; lia|now apply increasing_nondecreasing|].
  rewrite Hv, keep_last_increasing in Hc by auto. eexists. split; [apply Hc; auto; cbn; lia|]. now rewrite Hv.
Qed.

(** What one might expect and is false: a target between two sources of the same value does not
    get that value when a source is more than 10% off the targets. *)
Theorem C23_constant_reproduced_refuted : exists src f, (forall p, In p src -> snd p = 1) /\ wls src = [0.5; 1.05; 1.3; 3]
  /\ rebin um um (map Some [1; 1.2]) (known src) = Ok ([1; 1.2], f) /\ f = [Some 0; Some 1].
Proof.
  set (src := [(0.5, 1); (1.05, 1); (1.3, 1); (3, 1)] : list (R * R)).
  assert (Hs : increasing [1; 1.2]) by (repeat constructor; lra).
  assert (Hlo : least 1 [1; 1.2]) by (split; [cbn; auto|intros y Hy; cbn in Hy; intuition subst; lra]).
  assert (Hhi : greatest 1.2 [1; 1.2]) by (split; [cbn; auto|intros y Hy; cbn in Hy; intuition subst; lra]).
  assert (Hi : nondecreasing (wls src)) by (cbn; repeat constructor; lra).
  assert (Hv : visible 1 1.2 src = [(1.05, 1); (1.3, 1)]) by (unfold visible, src; cbn; decide_reals; reflexivity).
  assert (Hk : increasing (wls [(1.05, 1); (1.3, 1)])) by (cbn; repeat constructor; lra).
  destruct (rebin_increasing um [1; 1.2] src 1 1.2 Hs) as (_ & _ & Hc); auto.
  rewrite Hv, keep_last_increasing in Hc by auto.
  assert (Hf : ~ finer [(1.05, 1); (1.3, 1)] [1; 1.2]).
  { intros H. specialize (H (1.05, 1) (1.3, 1) 1 1.2). assert (fst (1.3, 1) - fst (1.05, 1) < 1.2 - 1); [|cbn in *; lra]. apply H; [exists [], []|exists [], []]; reflexivity. }
  exists src. eexists. split; [|split; [reflexivity|split; [apply Hc; auto|]]]. { intros p Hp; cbn in Hp; intuition subst; reflexivity. }
  cbn [map]. unfold interp, locate, Rltb. cbn [fst snd]. decide_reals. cbn [fst snd]. decide_reals. repeat f_equal; lra.
Qed.
Print Assumptions C23_constant_reproduced_refuted.

(** ... and with a repeated wavelength in its new grid a signal ends with more wavelengths than values. *)
Theorem C22_signal_shape_kept_refuted : exists src xs g y, nondecreasing xs /\ spectral_rebin um um (map Some xs) (known src) = Ok (g, y) /\ length y <> length g.
Proof.
  set (xs := [1; 1; 2; 3]). exists fine, xs.
  assert (Hs : nondecreasing xs) by (repeat constructor; lra).
  assert (Hlo : least 1 xs) by (split; [cbn; auto|intros y Hy; cbn in Hy; intuition subst; lra]).
  assert (Hhi : greatest 3 xs) by (split; [cbn; auto|intros y Hy; cbn in Hy; intuition subst; lra]).
  assert (Hi : increasing (wls fine)) by (cbn; repeat constructor; lra).
  assert (Hv : visible 1 3 fine = fine) by (unfold visible, fine; cbn; decide_reals; reflexivity).
  assert (E : exists f, rebin um um (map Some xs) (known fine) = Ok ([1; 2; 3], f)).
  { unfold rebin. rewrite same_unit_refl. cbn [negb]. rewrite (in_window_known xs fine 1 3 Hlo Hhi), Hv. cbn [bind]. rewrite numbers_Some.
    rewrite (dedup_ordered (length fine)); [|now apply increasing_nondecreasing|auto]. rewrite keep_last_increasing by auto. cbn [length fine Nat.leb bind].
    rewrite (dedup_ordered (length xs)); [|now rewrite wls_unit|now rewrite map_length].
    assert (Ek : keep_last (map (fun w => (w, tt)) xs) = [(1, tt); (2, tt); (3, tt)]) by (unfold xs; cbn; decide_reals; reflexivity).
    rewrite Ek. cbn [length Nat.leb bind map fst]. destruct ex_grid as (Hg & _).
    destruct (diffs (map fst fine)) as [|d ds] eqn:E1; [discriminate|]. destruct (diffs [1; 2; 3]) as [|e es] eqn:E2; [discriminate|].
    destruct (Rltb (rmax d ds) (rmin e es)); [|eauto]. rewrite binned_increasing; [cbn [bind]; eauto|auto|cbn; lia]. }
  destruct E as [f E]. pose proof (C22_one_value_per_grid_point _ _ _ _ _ _ E) as Hl. cbn in Hl.
  unfold spectral_rebin. rewrite E. cbn [bind]. eexists. eexists. split; auto. split; [reflexivity|]. rewrite !map_length, Hl. cbn. lia.
Qed.
Print Assumptions C22_signal_shape_kept_refuted.
