(** Lemmas: where light is counted, there are counts. *)
From Coq Require Import Reals Lra Psatz Lia Sorted.
From Verif Require Import Base Dict PyStr XR M_Signal M_Optics M_Light M_Bins M_Psf M_Omega M_Star M_Source M_Foreground S_Signal S_Optics S_Light S_Bins S_Star S_Success S_Foreground L_Signal L_Optics L_Light L_Bins P_Signal P_Optics P_Planck P_Bins P_Windows P_Light P_Success P_Omega P_Star P_Source P_Foreground.
From Verif Require M_Noise P_Noise L_Foreground S_Source P_Star.
From Verif Require Import M_Table L_Table P_Table M_Observe S_Observe L_Observe S_Works S_Complete P_Works P_Complete M_Build S_Build S_Ready L_Build L_Ready P_Build P_Ready L_Filter S_Seen.
Open Scope list_scope.
Open Scope R_scope.

(** *** resampling *)
Lemma known_combine (xs ys : list R) : combine (map Some xs) ys = known (combine xs ys).
Proof. revert ys. induction xs as [|x xs IH]; intros [|y ys]; cbn; auto. now rewrite IH. Qed.
Lemma wls_combine (xs ys : list R) : length ys = length xs -> wls (combine xs ys) = xs.
Proof. revert ys. induction xs as [|x xs IH]; intros [|y ys] H; cbn in *; try discriminate; auto. unfold wls in IH. rewrite IH by lia. reflexivity. Qed.
Lemma neighbours_nth (l : list R) u w v : increasing l -> neighbours l u w -> neighbours l w v -> exists i, (0 < i)%nat /\ (S i < length l)%nat /\ nth (i - 1) l 0 = u /\ nth i l 0 = w /\ nth (S i) l 0 = v.
Proof.
  intros Hi (a & b & E) (c & d & E').
  assert (L : length c = S (length a)).
  { assert (N1 : nth (S (length a)) l 0 = w) by (rewrite E, app_nth2 by lia; replace (S (length a) - length a)%nat with 1%nat by lia; reflexivity).
    assert (N2 : nth (length c) l 0 = w) by (rewrite E', app_nth2 by lia; rewrite Nat.sub_diag; reflexivity).
    assert (L1 : (S (length a) < length l)%nat) by (rewrite E, app_length; cbn; lia).
    assert (L2 : (length c < length l)%nat) by (rewrite E', app_length; cbn; lia).
    destruct (Nat.lt_trichotomy (length c) (S (length a))) as [H|[H|H]]; auto; exfalso.
    - pose proof (increasing_nth l _ _ Hi H L1). lra.
    - pose proof (increasing_nth l _ _ Hi H L2). lra. }
  exists (S (length a)). split; [lia|]. split; [rewrite E', app_length; cbn; lia|]. split; [|split].
  - replace (S (length a) - 1)%nat with (length a) by lia. rewrite E, app_nth2 by lia. now rewrite Nat.sub_diag.
  - rewrite E, app_nth2 by lia. now replace (S (length a) - length a)%nat with 1%nat by lia.
  - rewrite E', app_nth2 by lia. replace (S (S (length a)) - length c)%nat with 1%nat by lia. reflexivity.
Qed.
Lemma average_pos l v : (forall x, In x l -> 0 < x) -> average l v -> 0 < v.
Proof.
  intros P [NE E]. assert (0 < fold_right Rplus 0 l).
  { destruct l as [|a l]; [congruence|]. clear NE E. cbn. assert (0 <= fold_right Rplus 0 l); [|specialize (P a (or_introl eq_refl)); lra].
    assert (P' : forall x, In x l -> 0 < x) by (intros; apply P; now right). clear P. induction l as [|b l IH]; cbn; [lra|]. specialize (P' b (or_introl eq_refl)) as Hb. assert (0 <= fold_right Rplus 0 l) by (apply IH; intros; apply P'; now right). lra. }
  pose proof (INR_length_pos l NE). nra.
Qed.
Lemma combine_nth_In {A B} (l : list A) (m : list B) i a b : nth_error l i = Some a -> nth_error m i = Some b -> In (a, b) (combine l m).
Proof. revert m i. induction l as [|x l IH]; intros [|y m] [|i] H1 H2; cbn in *; try discriminate; [left; congruence|right; eauto]. Qed.
(** what a source says between [p] and [q] *)
Lemma resample_reached (P : R -> Prop) wl s e w : wavelength_grid wl -> increasing (s_wl s) -> one_value_per_wavelength s -> on wl s e -> reached P (s_wl s) wl w ->
  (forall z y, In (z, y) (combine (s_wl s) (s_data s)) -> P z -> 0 < y) -> forall i, (i < length wl)%nat -> at_ i wl = w -> 0 < at_ i e.
Proof.
  intros (Hi & H2 & Hp) Hs Ho E (lo & hi & u & v & p & q & Hlo & Hhi & Nu & Nv & Ip & Iq & Bp & Bq & HP) Hpos i Hl Hw.
  unfold on, resample in E. destruct (Nat.eqb _ _); [|discriminate]. unfold spectral_rebin in E. rewrite known_combine in E. set (src := combine (s_wl s) (s_data s)) in *.
  assert (Hsrc : wls src = s_wl s) by (apply wls_combine; exact Ho).
  destruct (rebin um_ um_ (map Some wl) (known src)) as [[g f]|] eqn:Er; [|discriminate]. cbn [bind] in E. injection E as <-.
  assert (Hsi : increasing (wls src)) by (rewrite Hsrc; exact Hs).
  destruct (C22_ordered_grid_without_duplicates _ _ _ _ _ _ (increasing_nondecreasing _ Hi) Er) as (_ & _ & Hg). specialize (Hg Hi). subst g.
  pose proof (C22_one_value_per_grid_point _ _ _ _ _ _ Er) as Lf.
  set (vis := visible lo hi src).
  assert (Hin : forall z, In z (s_wl s) -> 0.9 * lo < z < 1.1 * hi -> exists y, In (z, y) vis).
  { intros z Iz Bz. rewrite <- Hsrc in Iz. apply in_map_iff in Iz as ([z' y] & Ez & Iz). cbn in Ez. subst z'. exists y. unfold vis, visible. apply filter_In. split; auto. cbn.
    destruct (Rlt_dec (0.9 * lo) z); [|lra]. destruct (Rlt_dec z (1.1 * hi)); [reflexivity|lra]. }
  assert (Hvs : forall r, In r vis -> In r src) by (intros r Ir; unfold vis, visible in Ir; apply filter_In in Ir; tauto).
  assert (Hvi : increasing (wls vis)) by now apply filter_sorted.
  assert (Hval : forall r, In r vis -> p <= fst r <= q -> 0 < snd r).
  { intros [z y] Ir Br. cbn in *. apply Hvs in Ir. apply (Hpos z y); auto. apply HP; auto. rewrite <- Hsrc. apply (in_map fst) in Ir. exact Ir. }
  assert (Huw : u < w < v) by (split; apply (sorted_neighbours Rlt wl); auto).
  destruct (neighbours_nth wl u w v Hi Nu Nv) as (j & J0 & J1 & Ju & Jw & Jv).
  assert (j = i) as ->.
  { destruct (Nat.lt_trichotomy j i) as [H|[H|H]]; auto; exfalso; [pose proof (increasing_nth wl _ _ Hi H Hl)|pose proof (increasing_nth wl j i Hi)].
    - unfold at_ in Hw. lra.
    - pose proof (increasing_nth wl _ _ Hi H ltac:(lia)). unfold at_ in Hw. lra. }
  destruct (Hin p Ip) as [yp Vp]; [lra|]. destruct (Hin q Iq) as [yq Vq]; [lra|].
  destruct (nth_error f i) as [o|] eqn:No; [|apply nth_error_None in No; rewrite Lf in No; lia].
  enough (exists x, o = Some x /\ 0 < x) as (x & -> & Hx).
  { unfold at_. erewrite nth_error_nth; [|rewrite nth_error_map, No; reflexivity]. exact Hx. }
  destruct (Classical_Prop.classic (finer vis wl)) as [Hf|Hf].
  - destruct (C23_binning um_ wl src lo hi wl f Hi Hlo Hhi Hsi Hf Er) as (_ & Hb). destruct (Hb i o No) as (samples & Bs & Hv). fold vis in Bs.
    assert (Bl : bin_low wl i = (u + w) / 2) by (destruct i as [|j]; [lia|]; cbn [bin_low]; replace (S j - 1)%nat with j in Ju by lia; rewrite Ju, Jw; lra).
    assert (Bh : bin_high wl i = (w + v) / 2) by (unfold bin_high; destruct (Nat.eqb_spec (S i) (length wl)); [lia|]; rewrite Jw, Jv; lra).
    assert (NE : samples <> []).
    { apply (C23_interior_bins_filled wl vis i samples); auto; [exists (p, yp)|exists (q, yq)]; (split; [auto|cbn; lra]). }
    destruct o as [x|]; [|contradiction]. exists x. split; auto. apply (average_pos samples); auto.
    destruct Bs as (keep & Hk & ->). intros y Iy. apply in_map_iff in Iy as (r & <- & Ir). apply filter_In in Ir as [Ir Kr]. apply Hk in Kr; auto. destruct Kr as [K1 K2]. apply Hval; auto. lra.
  - destruct (C23_interpolation um_ wl src lo hi wl f Hi Hlo Hhi Hsi Hf Er w o) as (x & -> & _ & Hx & _).
    { apply (combine_nth_In wl f i); auto. rewrite (nth_error_nth' wl 0) by auto. f_equal. exact Hw. }
    exists x. split; auto. fold vis in Hx.
    (* the two sources around w *)
    assert (exists r t, neighbours vis r t /\ p <= fst r /\ fst r <= w <= fst t /\ fst t <= q) as (r & t & Nrt & B1 & B2 & B3).
    { pose proof (locate_spec w vis (increasing_nondecreasing _ Hvi)) as Lc. destruct (locate w vis) as [[r [t|]]|].
      - destruct Lc as [N B]. exists r, t. split; auto.
        assert (Gp : forall z, In z vis -> fst z <= fst r \/ fst t <= fst z).
        { intros z Iz. destruct N as (l1 & l2 & El). rewrite El in Iz, Hvi. clear -Iz Hvi. induction l1 as [|a l1 IH]; cbn in *.
          - destruct Iz as [<-|[<-|Iz]]; [left; lra|right; lra|]. right. apply StronglySorted_inv in Hvi as [Hvi _]. left. apply (sorted_Forall_In Rlt _ _ Hvi). now apply in_map.
          - destruct Iz as [<-|Iz]; [|apply IH; auto; now apply StronglySorted_inv in Hvi].
            left. left. apply (sorted_Forall_In Rlt _ _ Hvi). change (In (fst r) (map fst (l1 ++ r :: t :: l2))). apply in_map. apply in_or_app. right. now left. }
        destruct (Gp _ Vp) as [X|X]; cbn in X; [|lra]. destruct (Gp _ Vq) as [Y|Y]; cbn in Y; lra.
      - destruct Lc as (_ & B & M). specialize (M _ Vq). cbn in M. lra.
      - specialize (Lc _ Vp). cbn in Lc. lra. }
    specialize (Hx r t Nrt B2). apply neighbours_In in Nrt as Irt. destruct Irt as [Ir It].
    assert (0 < snd r) by (apply Hval; auto; lra). assert (0 < snd t) by (apply Hval; auto; lra).
    assert (fst r < fst t) by (apply (sorted_neighbours Rlt _ _ _ Hvi); apply neighbours_map; eauto).
    assert (0 < x * (fst t - fst r)); [|nra]. rewrite Hx. destruct (Req_dec (fst r) w) as [<-|]; [replace (fst r - fst r) with 0 by lra; nra|nra].
Qed.

(** ** Sums *)
Lemma total_pos l : (forall x, In x l -> 0 <= x) -> (exists x, In x l /\ 0 < x) -> 0 < total l.
Proof.
  induction l as [|a l IH]; intros N (x & I & X); [destruct I|]. cbn. assert (N' : forall y, In y l -> 0 <= y) by (intros; apply N; now right). assert (0 <= a) by (apply N; now left).
  assert (0 <= total l). { clear -N'. induction l as [|b l IH]; cbn; [lra|]. assert (0 <= b) by (apply N'; now left). assert (0 <= total l) by (apply IH; intros; apply N'; now right). unfold total in *. lra. }
  destruct I as [->|I]; [unfold total in *; lra|]. assert (0 < total l) by (apply IH; eauto). unfold total in *. lra.
Qed.
Lemma trapezia_pos x f : increasing x -> (2 <= length x)%nat -> (forall i, (i < length x)%nat -> 0 <= f i) -> (exists i, (i < length x)%nat /\ 0 < f i) -> 0 < trapezia x f.
Proof.
  intros Hx H2 Hf (i & Hi & P). assert (ST : forall j, (j < length x - 1)%nat -> 0 < at_ (S j) x - at_ j x). { intros j Hj. pose proof (increasing_nth x j (S j) Hx ltac:(lia) ltac:(lia)). unfold at_. lra. }
  unfold trapezia, sum_below. apply total_pos.
  - intros y I. apply in_map_iff in I as (j & <- & I). apply in_seq in I. specialize (ST j ltac:(lia)). assert (0 <= f j) by (apply Hf; lia). assert (0 <= f (S j)) by (apply Hf; lia). unfold Rdiv. apply Rmult_le_pos; [apply Rmult_le_pos; lra|lra].
  - destruct (Nat.eq_dec i (length x - 1)) as [E|N].
    + exists ((at_ (S (i - 1)) x - at_ (i - 1) x) * (f (i - 1)%nat + f (S (i - 1))) / 2). split; [apply in_map_iff; exists (i - 1)%nat; split; [reflexivity|]; apply in_seq; lia|]. specialize (ST (i - 1)%nat ltac:(lia)). replace (S (i - 1)) with i in * by lia. assert (0 <= f (i - 1)%nat) by (apply Hf; lia). apply Rmult_lt_0_compat; [apply Rmult_lt_0_compat; lra|lra].
    + exists ((at_ (S i) x - at_ i x) * (f i + f (S i)) / 2). split; [apply in_map_iff; exists i; split; [reflexivity|]; apply in_seq; lia|]. specialize (ST i ltac:(lia)). assert (0 <= f (S i)) by (apply Hf; lia). apply Rmult_lt_0_compat; [apply Rmult_lt_0_compat; lra|lra].
Qed.

(** ** Optics *)
Lemma interp_inside l w : nondecreasing (wls l) -> (forall p, In p l -> 0 < snd p) -> (exists p, In p l /\ fst p <= w) -> (exists q, In q l /\ w <= fst q) -> 0 < interp l w.
Proof.
  intros Hs Hp (a & Ia & La) (b & Ib & Lb). unfold interp. pose proof (locate_spec w l Hs) as Hl. destruct (locate w l) as [[p [q|]]|].
  - destruct Hl as [Hn Hw]. apply neighbours_In in Hn as [Ip Iq]. pose proof (Hp p Ip). pose proof (Hp q Iq). assert (Hr := between_convex).
    assert (D : 0 < fst q - fst p) by lra. set (t := (w - fst p) / (fst q - fst p)). assert (T : 0 <= t < 1).
    { unfold t. split; [apply Rmult_le_pos; [lra|]; left; now apply Rinv_0_lt_compat|]. apply Rmult_lt_reg_r with (fst q - fst p); auto. unfold Rdiv. rewrite Rmult_assoc, Rinv_l by lra. lra. }
    replace ((snd q - snd p) / (fst q - fst p) * (w - fst p) + snd p) with (t * snd q + (1 - t) * snd p) by (unfold t; field; lra). nra.
  - destruct Hl as (Ip & L & M). rewrite (proj2 (Rltb_false (fst p) w)); [auto|]. specialize (M b Ib). lra.
  - specialize (Hl a Ia). lra.
Qed.
Definition positive (l : list R) : Prop := forall v, In v l -> 0 < v.
Lemma In_combine_fst {A B} (x : list A) (y : list B) a : length y = length x -> In a x -> exists b, In (a, b) (combine x y).
Proof. revert y. induction x as [|c x IH]; intros [|b y] L I; cbn in *; try discriminate; [destruct I|]. destruct I as [->|I]; [exists b; now left|]. destruct (IH y) as [b' ?]; auto. exists b'. now right. Qed.
Lemma interp1d_inside x y wl r lo hi : interp1d x y wl = Ok r -> positive y -> (exists a, In a x /\ a <= lo) -> (exists b, In b x /\ hi <= b) -> (forall w, In w wl -> lo <= w <= hi) -> positive r.
Proof.
  unfold interp1d. destruct x as [|x0 x]; [discriminate|]. destruct (Nat.eqb_spec (length (x0 :: x)) (length y)) as [L|]; [|discriminate]. intros E Hy (a & Ia & La) (b & Ib & Lb) W.
  assert (r = map (interp (sort_src (combine (x0 :: x) y))) wl) as -> by congruence. intros v Hv. apply in_map_iff in Hv as (w & <- & Iw). specialize (W w Iw). symmetry in L.
  destruct (In_combine_fst _ _ _ L Ia) as [ya Ja]. destruct (In_combine_fst _ _ _ L Ib) as [yb Jb].
  apply interp_inside; [apply sort_sorted| | |].
  - intros p Ip. apply (proj1 (sort_In _ _)) in Ip. destruct p as [p1 p2]. apply in_combine_r in Ip. now apply Hy.
  - exists (a, ya). split; [now apply sort_In|cbn; lra].
  - exists (b, yb). split; [now apply sort_In|cbn; lra].
Qed.
Lemma ones_positive wl v : 0 < v -> positive (ones wl v).
Proof. intros P x I. unfold ones in I. apply in_map_iff in I as (_ & <- & _). lra. Qed.
Lemma zero_positive p wl tr : positive tr -> (forall w, In w wl -> p w = false) -> positive (zero_where p wl tr).
Proof. intros H W x I. unfold zero_where in I. apply in_map_iff in I as ([a b] & <- & I). cbn. rewrite (W a) by now apply in_combine_l in I. apply in_combine_r in I. auto. Qed.
Lemma clear_transmission lo hi d wl tr : sensible_element d -> clear_element lo hi d -> (forall w, In w wl -> lo <= w <= hi) -> get_transmission d wl = Ok tr -> positive tr.
Proof.
  intros (_ & _ & NU & D) CL W. unfold get_transmission, clear_element in *. rewrite given_get. destruct (sget "data" d) as [[x|x|t]|] eqn:SD; try (now destruct D).
  - destruct D as (UN & WN & TR & _). unfold table_of. rewrite SD. cbn [bind]. rewrite given_get, UN. unfold smem, dmem. intros E.
    assert (X : forall k y, (if match sget "Transmission" t with Some _ => true | None => false end then Ok "Transmission"%string else if match sget "Reflectivity" t with Some _ => true | None => false end then Ok "Reflectivity"%string else Err KeyError) = Ok k -> sget k t = Some y ->
      sget "Transmission" t = Some y \/ (sget "Transmission" t = None /\ sget "Reflectivity" t = Some y)).
    { intros k y Ek Hk. destruct (sget "Transmission" t) as [y1|] eqn:S1; [injection Ek as <-; left; congruence|]. destruct (sget "Reflectivity" t) as [y2|] eqn:SR; [|discriminate]. injection Ek as <-. right. split; auto. congruence. }
    dbind E k Hk. dbind E n Hn. dbind E x Hx. dbind E y Hy. unfold M_Optics.col in Hx, Hy. destruct (sget n t) as [x'|] eqn:GX; [|discriminate]. injection Hx as ->. destruct (sget k t) as [y'|] eqn:GY; [|discriminate]. injection Hy as ->.
    assert (WO : wavelengths_of t x). { unfold get_wl_col_name in Hn. rewrite given_get, WN in Hn. unfold smem, dmem in Hn. unfold wavelengths_of. destruct (sget "wavelength" t) as [y1|] eqn:S1; [injection Hn as <-; left; congruence|]. right. split; auto. destruct (sget "Wavelength" t) as [y2|] eqn:S2; [injection Hn as <-; congruence|discriminate]. }
    destruct (CL x y WO (X k y eq_refl GY)) as (P & A & B). eapply interp1d_inside; eauto.
  - destruct CL as (CV & CM & CX). destruct D as [NB D]. rewrite !given_get.
    assert (FIN : forall v, 0 < v -> (let tr := ones wl v in let* tr := if M_Optics.given d "wl_min" then let* m := number d "wl_min" in Ok (zero_where (fun w => Rltb w m) wl tr) else Ok tr in
                   if M_Optics.given d "wl_max" then let* m := number d "wl_max" in Ok (zero_where (fun w => Rltb m w) wl tr) else Ok tr) = Ok tr -> positive tr).
    { intros v P. cbv zeta. rewrite !given_get. intros E. dbind E t1 Ht1. assert (P1 : positive t1).
      { destruct (sget "wl_min" d) as [f|] eqn:SM; [|injection Ht1 as <-; now apply ones_positive]. destruct (NU "wl_min"%string f) as (m & ->); auto. rewrite (number_get _ _ _ SM) in Ht1. cbn [bind] in Ht1. injection Ht1 as <-. apply zero_positive; [now apply ones_positive|]. intros w0 I0. apply Rltb_false. specialize (CM m eq_refl). specialize (W w0 I0). lra. }
      destruct (sget "wl_max" d) as [f|] eqn:SM; [|injection E as <-; auto]. destruct (NU "wl_max"%string f) as (m & ->); auto. rewrite (number_get _ _ _ SM) in E. cbn [bind] in E. injection E as <-. apply zero_positive; auto. intros w0 I0. apply Rltb_false. specialize (CX m eq_refl). specialize (W w0 I0). lra. }
    intros E. destruct (sget "transmission" d) as [f|] eqn:ST, (sget "reflectivity" d) as [f'|] eqn:SR; cbn [andb orb] in E.
    + destruct NB; discriminate.
    + destruct (D "transmission"%string f) as (v & -> & _); auto. rewrite (number_get _ _ _ ST) in E. cbn [bind] in E. apply (FIN v); auto. apply (CV "transmission"%string); auto.
    + destruct (D "reflectivity"%string f') as (v & -> & _); auto. rewrite (number_get _ _ _ SR) in E. cbn [bind] in E. apply (FIN v); auto. apply (CV "reflectivity"%string); auto.
    + injection E as <-. apply ones_positive. lra.
Qed.
Lemma default_clear lo hi : clear_element lo hi default_element.
Proof. unfold clear_element, default_element. cbn. split; [intros k v [->| ->]; discriminate|]. split; discriminate. Qed.
Lemma clear_element_built lo hi d wl e : sensible_element d -> clear_element lo hi d -> (forall w, In w wl -> lo <= w <= hi) -> build_element d wl = Ok e -> positive (e_tr e).
Proof. intros SE CL W E. unfold build_element in E. dbind E n Hn. dbind E t Ht. dbind E tr Htr. dbind E em Hem. dbind E te Hte. dbind E an Han. injection E as <-. cbn. eapply clear_transmission; eauto. Qed.
Lemma clear_built lo hi o wl els : sensible_optics o -> (forall d, element_of o d -> clear_element lo hi d) -> (forall w, In w wl -> lo <= w <= hi) -> prepare_elements o wl = Ok els -> each (fun e => positive (e_tr e)) els.
Proof.
  intros SO CL W E. destruct o as [|d|ds]; cbn [prepare_elements] in E.
  - dbind E e He. injection E as <-. intros k e0 [I|[]]. injection I as _ <-. eapply clear_element_built; eauto; [apply default_sensible|apply default_clear].
  - dbind E e He. dbind E v Hv. injection E as <-. intros k e0 [I|[]]. injection I as _ <-. eapply clear_element_built; eauto; [now apply SO|now apply CL].
  - assert (X : forall ds' out, (forall k d, In (k, d) ds' -> In (k, d) ds) -> each (fun e => positive (e_tr e)) out -> build_elements ds' wl out = Ok els -> each (fun e => positive (e_tr e)) els).
    { induction ds' as [|[k d] ds' IH]; intros out SUB A B; cbn [build_elements] in B; [injection B as <-; auto|]. dbind B e He. apply (IH (sset k e out)); [intros; apply SUB; now right| |auto]. apply sset_each; auto.
      assert (EO : element_of (Several ds) d) by (exists k; apply SUB; now left). eapply clear_element_built; [apply SO; exact EO|apply CL; exact EO|exact W|exact He]. }
    apply (X ds []); auto. intros k e [].
Qed.
Lemma total_positive els : forall t a, each (fun e => positive (e_tr e)) els -> positive a -> positive (snd (transmission_columns els t a)).
Proof.
  induction els as [|[k e] els IH]; intros t a A P; cbn [transmission_columns snd]; auto. apply IH; [intros k0 e0 I; apply (A k0); now right|]. assert (Q : positive (e_tr e)) by (apply (A k); now left).
  intros v I. unfold mul in I. apply in_map_iff in I as ([u z] & <- & I). cbn. apply Rmult_lt_0_compat; [apply P; now apply in_combine_l in I|apply Q; now apply in_combine_r in I].
Qed.

(** ** A channel that is built *)
Lemma grid_inside lo hi n x : 0 < lo < hi -> (2 <= n)%nat -> In x (logspace lo hi n) -> lo <= x <= hi.
Proof.
  intros V N I. destruct (logspace_spec _ _ _ V N) as (G1 & G2 & G3 & G4). destruct (In_nth _ _ 0 I) as (i & Hi & <-). rewrite G2 in Hi. split.
  - destruct i as [|i]; [lra|]. pose proof (increasing_nth _ 0 (S i) G1 ltac:(lia) ltac:(lia)). lra.
  - destruct (Nat.eq_dec i (n - 1)) as [-> |]; [lra|]. pose proof (increasing_nth _ i (n - 1) G1 ltac:(lia) ltac:(lia)). lra.
Qed.
Lemma reached_weak (P Q : R -> Prop) g wl x : (forall z, P z -> Q z) -> reached P g wl x -> reached Q g wl x.
Proof. intros H (lo & hi & u & v & p & q & X). exists lo, hi, u, v, p, q. repeat (split; [apply X|]). intros z I B. apply H. now apply X. Qed.
Lemma reached_inside a b g wl x : increasing wl -> reached (fun z => a <= z <= b) g wl x -> a <= x <= b /\ In x wl.
Proof.
  intros Hi (lo & hi & u & v & p & q & Hlo & Hhi & Nu & Nv & Ip & Iq & Bp & Bq & H). assert (u < x < v) by (split; apply (sorted_neighbours Rlt wl); auto). apply neighbours_In in Nu as [_ I]. split; auto.
  pose proof (H p Ip ltac:(lra)). pose proof (H q Iq ltac:(lra)). lra.
Qed.
Lemma clear_total w p name d els : complete_common w p name d -> clear_optics p d -> optical_path (logspace (value (d_from d)) (value (d_to d)) (u_R w)) p d = Ok els -> each (fun e => positive (e_tr e)) els.
Proof.
  intros (_ & _ & V & N & _ & _ & (o & own & force & PO & DO & OF & OA & S1 & S2) & _) [_ CL] E. unfold optical_path in E. rewrite PO in E. cbn [lookup bind] in E. dbind E common Hc. rewrite DO in E. cbn [lookup bind] in E. dbind E mine Hm. injection E as <-.
  apply prepend_each; [eapply (clear_built _ _ _ _ _ S1); [intros e I; apply (CL (o_elements o)); auto; left; now rewrite PO| |exact Hc]|eapply (clear_built _ _ _ _ _ S2); [intros e I; apply (CL own); auto| |exact Hm]]; intros x I; now apply grid_inside in I.
Qed.
Lemma transmits w p name d q c : complete_common w p name d -> clear_optics p d -> build_optical_path w p d q = Ok c ->
  0 < c_area (h_star c) /\ c_min (h_star c) = d_min d /\ c_max (h_star c) = d_max d /\ c_qe (h_star c) = q_qe q /\
  s_wl (c_tr (h_star c)) = logspace (value (d_from d)) (value (d_to d)) (u_R w) /\
  forall z y, In (z, y) (combine (s_wl (c_tr (h_star c))) (s_data (c_tr (h_star c)))) -> d_min d <= z <= d_max d -> 0 < y.
Proof.
  intros CC CL B. pose proof (proj1 CL) as PA. pose proof CC as (U1 & U2 & V & N & _ & _ & (o & own & force & PO & DO & OF & OA & S1 & S2) & _). specialize (PA o PO).
  apply path_inv in B as (wl & els & tot & trc & rads & slit & em & fx & OG & OP & TT & TC & _ & _ & _ & _ & HS & _).
  assert (wl = logspace (value (d_from d)) (value (d_to d)) (u_R w)) as ->. { unfold optical_grid in OG. rewrite U1, U2 in OG. destruct (Nat.eqb _ _); congruence. }
  pose proof (clear_total _ _ _ _ _ CC CL OP) as EP. rewrite total_of in TT. injection TT as <-. pose proof (total_positive els [("Wavelength"%string, logspace (value (d_from d)) (value (d_to d)) (u_R w))] (ones (logspace (value (d_from d)) (value (d_to d)) (u_R w)) 1) EP (ones_positive _ 1 Rlt_0_1)) as TP.
  set (tot := snd _) in *. clearbody tot. rewrite HS. cbn [c_area c_min c_max c_qe]. rewrite PO. split; auto. split; auto. split; auto. split; auto. rewrite HS in TC. cbn [c_force c_tr] in TC |- *. rewrite PO, OF in TC. clear HS.
  unfold get_transmission_column in TC. cbn [s_wl s_data] in TC. dbind TC y Hy. destruct force.
  - assert (X : c_tr (h_star c) = {| s_wl := logspace (value (d_from d)) (value (d_to d)) (u_R w); s_data := zero_where (outside (d_min d) (d_max d)) (logspace (value (d_from d)) (value (d_to d)) (u_R w)) tot |}) by congruence. rewrite X. cbn [s_wl s_data]. split; auto.
    intros z v I Bz. revert I. generalize (logspace (value (d_from d)) (value (d_to d)) (u_R w)). clear -TP Bz. intros g. revert tot TP. unfold zero_where. induction g as [|a g IH]; intros [|t tot] TP I; cbn in I; try contradiction. destruct I as [I|I].
    + injection I as -> <-. unfold outside. rewrite (proj2 (Rltb_false z (d_min d))) by lra. rewrite (proj2 (Rltb_false (d_max d) z)) by lra. cbn. apply TP. now left.
    + apply (IH tot); auto. intros x Ix. apply TP. now right.
  - assert (X : c_tr (h_star c) = {| s_wl := logspace (value (d_from d)) (value (d_to d)) (u_R w); s_data := tot |}) by congruence. rewrite X. cbn [s_wl s_data]. split; auto. intros z v I _. apply in_combine_r in I. auto.
Qed.
Lemma efficient w p name d bins column s wl x : complete_common w p name d -> qe_of w name d bins = Ok (column, s) -> counted_at w name d wl x ->
  increasing (s_wl s) /\ one_value_per_wavelength s /\ reached (fun _ => True) (s_wl s) wl x /\ forall z y, In (z, y) (combine (s_wl s) (s_data s)) -> 0 < y.
Proof.
  intros CC E [RE CQ]. pose proof CC as (U1 & U2 & V & N & _ & _ & _ & _ & SQ & _). unfold qe_of, sensible_qe in *. destruct (d_qe d) as [t|v].
  - destruct SQ as (xs & ys & W & GY & _ & CU & _). destruct (CQ xs ys W GY) as (I & P & RC). unfold get_qe in E. destruct (wavelengths_named t xs W) as (n & E1 & E2). rewrite E1 in E. cbn [bind] in E. rewrite E2 in E. cbn [bind] in E. unfold M_Optics.col in E. rewrite GY in E. cbn [bind] in E. dbind E z Hz. injection E as _ <-. cbn.
    split; auto. split; [exact (proj2 CU)|]. split; auto. intros z0 y0 I0. apply in_combine_r in I0. auto.
  - unfold in_microns in E. rewrite U1, U2 in E. cbn [bind] in E. rewrite (um_value _ U1), (um_value _ U2) in E. unfold get_qe in E. cbn [bind] in E. dbind E z Hz. injection E as _ <-. cbn.
    destruct (logspace_spec _ _ _ V N) as (G1 & _). split; auto. split; [unfold one_value_per_wavelength; cbn; apply map_length|]. split; [eapply reached_weak; [|exact RE]; auto|]. intros z0 y0 I0. apply in_combine_r in I0. apply in_map_iff in I0 as (_ & <- & _). lra.
Qed.
(** Where light is counted, the efficiencies are positive. *)
Lemma counted_positive w p name d q c bins column wl x qe tr : complete_common w p name d -> clear_optics p d -> build_optical_path w p d q = Ok c -> qe_of w name d bins = Ok (column, q_qe q) -> curve (c_tr (h_star c)) ->
  wavelength_grid wl -> on wl (c_qe (h_star c)) qe -> on wl (c_tr (h_star c)) tr -> counted_at w name d wl x -> (d_min d <= x <= d_max d /\ In x wl) /\ forall i, (i < length wl)%nat -> at_ i wl = x -> 0 < at_ i qe /\ 0 < at_ i tr.
Proof.
  intros CC CL B Q CU WG OQ OT CA. destruct (transmits _ _ _ _ _ _ CC CL B) as (_ & _ & _ & CQ & TW & TP). destruct (efficient _ _ _ _ _ _ _ _ _ CC Q CA) as (QI & QO & QR & QP). rewrite CQ in OQ. destruct CA as [RE _]. split; [apply (reached_inside _ _ _ _ _ (proj1 WG) RE)|].
  intros i Hi Hx. pose proof CC as (_ & _ & V & N & _). destruct (logspace_spec _ _ _ V N) as (G1 & _). split.
  - eapply (resample_reached (fun _ => True)); eauto.
  - apply (resample_reached (fun z => d_min d <= z <= d_max d) wl (c_tr (h_star c)) tr x); auto; [now rewrite TW|exact (proj2 CU)|now rewrite TW].
Qed.

(** ** The light of a star *)
Definition bright_inside (star : sig) : Prop := forall i u v x, (i < length (s_wl star))%nat -> at_ i (s_wl star) = x -> neighbours (s_wl star) u x -> neighbours (s_wl star) x v -> 0 < at_ i (s_data star).
Definition open_sky (sky : option sig) : Prop := match sky with None => True | Some s => positive (s_data s) end.
Lemma open_sky_at star sky i : sky_on star sky -> open_sky sky -> (i < length (s_wl star))%nat -> 0 < sky_at sky i.
Proof. destruct sky as [s|]; cbn; [|lra]. intros [W O] P L. apply P. apply at_In. unfold one_value_per_wavelength in O. rewrite O, W. exact L. Qed.
Lemma photons_pos w : 0 < w -> 0 < photons w.
Proof. intros H. unfold photons. apply Rdiv_lt_0_compat; [|lra]. apply Rmult_lt_0_compat; [auto|]. apply pow_lt. lra. Qed.
Lemma passes_inside f m M x : m <= x <= M -> passes f m M x = 1.
Proof. intros [A B]. unfold passes. destruct f; auto. destruct (Rlt_dec x m); [lra|]. destruct (Rlt_dec M x); [lra|reflexivity]. Qed.
Section Channel.
  Variables (w : outer) (p : payload) (name : string) (d : description) (q : parts) (c : chan) (bins : list bin) (column : list (option R)) (star : sig) (sky : option sig) (f : bool) (qe tr : list R).
  Hypotheses (CC : complete_common w p name d) (CL : clear_optics p d) (B : build_optical_path w p d q = Ok c) (Q : qe_of w name d bins = Ok (column, q_qe q))
    (LS : fractions (s_data (c_qe (h_star c))) /\ fractions (s_data (c_tr (h_star c))) /\ curve (c_tr (h_star c)))
    (SO : source_ star) (NS : nonneg (s_data star)) (BI : bright_inside star) (SK : sky_on star sky) (PS : physical_sky sky) (OS : open_sky sky)
    (OQ : on (s_wl star) (c_qe (h_star c)) qe) (OT : on (s_wl star) (c_tr (h_star c)) tr).
  Let density i := detected (c_area (h_star c)) qe tr (s_data star) (s_wl star) i * sky_at sky i * passes f (c_min (h_star c)) (c_max (h_star c)) (at_ i (s_wl star)).
  Lemma density_nonneg i : (i < length (s_wl star))%nat -> 0 <= density i.
  Proof.
    intros Hi. destruct (transmits _ _ _ _ _ _ CC CL B) as (PA & _). destruct LS as (FQ & FT & _). unfold density. apply detected_bounds; auto; try lra.
    - eapply on_bounds; eauto.
    - eapply on_bounds; eauto.
    - now apply sky_at_bounds.
    - apply passes_bounds.
    - now apply nonneg_at.
    - left. apply SO. now apply at_In.
  Qed.
  Lemma density_pos x i : counted_at w name d (s_wl star) x -> (i < length (s_wl star))%nat -> at_ i (s_wl star) = x -> 0 < density i.
  Proof.
    intros CA Hi Hx. destruct (transmits _ _ _ _ _ _ CC CL B) as (PA & M1 & M2 & _). destruct SO as [WG _]. destruct (counted_positive _ _ _ _ _ _ _ _ _ _ _ _ CC CL B Q (proj2 (proj2 LS)) WG OQ OT CA) as [[IN IX] X]. destruct (X i Hi Hx) as [PQ PT].
    unfold density. rewrite M1, M2, Hx, (passes_inside f _ _ _ IN), Rmult_1_r. apply Rmult_lt_0_compat; [|eapply open_sky_at; eauto].
    unfold detected. destruct CA as [(lo & hi & u & v & p0 & q0 & _ & _ & Nu & Nv & _) _]. assert (0 < at_ i (s_data star)) by (eapply BI; eauto). assert (0 < at_ i (s_wl star)) by (apply WG; now apply at_In). pose proof (photons_pos _ H0).
    apply Rmult_lt_0_compat; apply Rmult_lt_0_compat; auto. now apply Rmult_lt_0_compat.
  Qed.
  (** at a wavelength of the star *)
  Lemma counted_index x : counted_at w name d (s_wl star) x -> exists i, (i < length (s_wl star))%nat /\ at_ i (s_wl star) = x.
  Proof.
    intros CA. destruct SO as [WG _]. destruct (counted_positive _ _ _ _ _ _ _ _ _ _ _ _ CC CL B Q (proj2 (proj2 LS)) WG OQ OT CA) as [[_ IX] _]. destruct (In_nth _ _ 0 IX) as (i & Hi & E). eauto.
  Qed.
End Channel.
Lemma aperture_of c a prf s sky out t : propagate_photometer c a prf s sky = Ok (out, t) -> exists fr x, aperture_fraction a = Ok fr /\ o_signal out = [x] /\ o_aperture out = [x * fr].
Proof.
  intros E. unfold propagate_photometer in E. destruct (get_efficiency _ _ _) as [[e t']|]; [|discriminate]. cbn [bind] in E. destruct (force_edges _ _ _) as [[tr win]|]; [|discriminate]. cbn [bind] in E.
  dbind E y Hy. dbind E x1 Hx1. dbind E x2 Hx2. dbind E x3 Hx3. dbind E fr Hfr. dbind E pk Hpk. exists fr. assert (Eo := f_equal (fun r => match r with Ok (u, _) => (o_signal u, o_aperture u) | _ => ([], []) end) E). cbn in Eo. injection Eo as E3 E4. rewrite <- E3, <- E4. eauto.
Qed.
Lemma F2_left {A B} (P : A -> B -> Prop) l l' a : Forall2 P l l' -> In a l -> exists b, In b l' /\ P a b.
Proof. intros F. induction F as [|x y l l' Pxy F IH]; intros []; [subst; exists y; split; [now left|auto]|]. destruct (IH H) as (b & I & X). exists b. split; [now right|auto]. Qed.
Lemma photometer_lit w fuel p name d q c star sky o t : complete_common w p name d -> clear_optics p d -> photometer_builder w fuel name d [] = Some (Ok q) -> build_optical_path w p d q = Ok c -> works_at (s_wl star) c ->
  source_ star -> nonneg (s_data star) -> bright_inside star -> sky_on star sky -> physical_sky sky -> open_sky sky -> propagate_star c None star sky = Ok (o, t) ->
  exists v m fr, o_signal o = [v] /\ o_max o = [m] /\ aperture_fraction (d_aperture d) = Ok fr /\ o_aperture o = [v * fr] /\ ((exists x, counted_at w name d (s_wl star) x) -> 0 < v) /\ (photometer_sees w name d (s_wl star) -> 0 < m).
Proof.
  intros CC CL PB B (_ & _ & LS) SO NS BI SK PS OS E. destruct (path_inv _ _ _ _ _ B) as (_ & _ & _ & _ & _ & _ & _ & _ & _ & _ & _ & _ & _ & _ & _ & _ & _ & HK & _).
  unfold photometer_builder in PB. cbv zeta in PB. dthen PB qe0 Hq. dthen PB psf Hp. dthen PB size Hs. injection PB as PB. injection Hq as Hq. injection Hp as Hp. destruct qe0 as [column qs], psf as [im k0].
  replace (0.5 * (d_min d + d_max d)) with ((d_min d + d_max d) / 2) in Hp by lra. assert (EQ : q_qe q = qs) by now rewrite <- PB. assert (KQ : q_kind q = Phot (d_aperture d) (concat im)) by now rewrite <- PB.
  rewrite KQ in HK. unfold propagate_star in E. rewrite HK in E. cbn [fst] in *. destruct (C64_photometer_signal _ _ _ _ _ _ _ SO SK E) as (f & qe & tr & _ & OQ & OT & _ & v & SV & EV & pk & [PKI PK] & MX). cbn [c_qe c_tr c_area c_min c_max with_sky] in *.
  destruct (aperture_of _ _ _ _ _ _ _ E) as (fr & v' & AF & SV' & AV). rewrite SV in SV'. injection SV' as <-. unfold lets_star_light in LS. rewrite HK in LS. destruct LS as (_ & FQ & FT & CQ & CT & _). rewrite <- EQ in Hq.
  assert (LS' : fractions (s_data (c_qe (h_star c))) /\ fractions (s_data (c_tr (h_star c))) /\ curve (c_tr (h_star c))) by auto.
  assert (PV : (exists x, counted_at w name d (s_wl star) x) -> 0 < v).
  { intros (x & CA). rewrite EV. apply trapezia_pos; [apply SO|apply SO| |]. - intros i Hi. apply (density_nonneg w p name d q c star sky f qe tr CC CL B LS' SO NS PS OQ OT i Hi).
    - destruct (counted_index w p name d q c _ column star qe tr CC CL B Hq LS' SO OQ OT x CA) as (i & Hi & Hx). exists i. split; auto. apply (density_pos w p name d q c _ column star sky f qe tr CC CL B Hq LS' SO BI SK OS OQ OT x i CA Hi Hx). }
  exists v, (pk * v), fr. repeat (split; [assumption|]). intros (CA & SL). specialize (SL im k0 Hp). apply Rmult_lt_0_compat; auto. destruct SL as (row & u & IR & IU & PU). specialize (PK u ltac:(apply in_concat; eauto)). lra.
Qed.
Lemma spectrometer_lit w fuel p name d q c star sky o t : complete_spectrometer w fuel p name d -> clear_optics p d -> spectrometer_builder w fuel name d [] = Some (Ok q) -> build_optical_path w p d q = Ok c -> works_at (s_wl star) c ->
  source_ star -> nonneg (s_data star) -> bright_inside star -> sky_on star sky -> physical_sky sky -> open_sky sky -> propagate_star c None star sky = Ok (o, t) ->
  o_aperture o = o_signal o /\ Forall2 (fun b v => (exists x, counted_at w name d (s_wl star) x /\ left_edge b <= x < right_edge b) -> 0 < v) (c_bins (h_star c)) (o_signal o) /\
  (spectrometer_sees w fuel name d (s_wl star) -> exists m, In m (o_max o) /\ 0 < m).
Proof.
  intros CSP CL SB B (_ & _ & LS) SO NS BI SK PS OS E. pose proof (proj1 CSP) as CC. destruct (path_inv _ _ _ _ _ B) as (_ & _ & _ & _ & _ & _ & _ & _ & _ & _ & _ & _ & _ & _ & _ & _ & HS & HK & _).
  destruct CSP as (_ & _ & _ & _ & s0 & e0 & bins0 & wls0 & g0 & DS & DI & IN & LP & TB & NB & BP & GT & _).
  unfold spectrometer_builder in SB. rewrite DS in SB. destruct (negb _); [discriminate|]. destruct (Nat.ltb _ 2); [discriminate|]. destruct (Req_EM_T (d_delta d) 0); [discriminate|]. cbv zeta in SB, IN, LP, TB, GT. dthen SB eb Heb. rewrite TB in Heb. injection Heb as <-. dthen SB qe0 Hq. dthen SB gg0 Hgg. rewrite GT in Hgg. injection Hgg as <-. dthen SB fy Hf. dthen SB size Hs. cbn [fst snd] in *.
  injection SB as SB. injection Hq as Hq. destruct qe0 as [column qs]. set (pw := pixel_wl s0 (pixels s0 (d_min d) (d_max d) (d_delta d))) in *. set (pd := pixel_width s0 (d_delta d) (pixels s0 (d_min d) (d_max d) (d_delta d))) in *.
  assert (EQ : q_qe q = qs) by now rewrite <- SB. assert (KQ : q_kind q = Spec pw pd (u_cubic w wls0 g0)) by now rewrite <- SB. assert (BQ : c_bins (h_star c) = bins0) by (rewrite HS; cbn; now rewrite <- SB).
  rewrite KQ in HK. unfold propagate_star in E. rewrite HK in E. destruct (C65_spectrometer_signal _ _ _ _ _ _ _ _ SO SK E) as (f & qe & tr & den & _ & OQ & OT & LD & VD & _ & SG & AP & v & PX & MX). cbn [c_qe c_tr c_area c_min c_max c_bins with_sky] in *.
  unfold lets_star_light in LS. rewrite HK in LS. destruct LS as (_ & FQ & FT & CQ & CT & _ & _ & _ & WP & LPD & _). rewrite <- EQ in Hq.
  assert (LS' : fractions (s_data (c_qe (h_star c))) /\ fractions (s_data (c_tr (h_star c))) /\ curve (c_tr (h_star c))) by auto.
  assert (DN : forall i, (i < length (s_wl star))%nat -> 0 <= at_ i den). { intros i Hi. rewrite VD by auto. apply (density_nonneg w p name d q c star sky f qe tr CC CL B LS' SO NS PS OQ OT i Hi). }
  assert (DP : forall x i, counted_at w name d (s_wl star) x -> (i < length (s_wl star))%nat -> at_ i (s_wl star) = x -> 0 < at_ i den). { intros x i CA Hi Hx. rewrite VD by auto. apply (density_pos w p name d q c _ column star sky f qe tr CC CL B Hq LS' SO BI SK OS OQ OT x i CA Hi Hx). }
  split; [exact AP|]. split.
  - revert SG. apply F2_impl. intros b u -> (x & CA & BX). apply trapezia_pos; [apply SO|apply SO| |].
    + intros i Hi. apply Rmult_le_pos; [auto|]. unfold within. destruct (Rle_dec _ _); [|lra]. destruct (Rlt_dec _ _); lra.
    + destruct (counted_index w p name d q c _ column star qe tr CC CL B Hq LS' SO OQ OT x CA) as (i & Hi & Hx). exists i. split; auto. apply Rmult_lt_0_compat; [eauto|]. rewrite Hx. unfold within. destruct (Rle_dec _ _); [|lra]. destruct (Rlt_dec _ _); lra.
  - intros SE. destruct (SE s0 DS) as (x & RX & GX & BX). fold pw pd in RX, GX, BX. destruct (BX e0 bins0 TB) as (b & Ib & Bb). rewrite <- BQ in Ib.
    destruct (F2_left _ _ _ _ MX Ib) as (m & Im & _ & Gm).
    destruct PX as (dd & gg & OD & FG & LV & LDD & LPW & HV).
    assert (IX : In x pw) by (destruct RX as (lo & hi & u & v0 & p0 & q0 & _ & _ & Nu & _); now apply neighbours_In in Nu). destruct (In_nth _ _ 0 IX) as (i & Hi & Hx).
    exists m. split; auto. apply Rlt_le_trans with (at_ i v); [|apply Gm; auto; unfold at_; rewrite Hx; auto]. rewrite HV.
    assert (P1 : 0 < at_ i dd). { apply (resample_reached (counted_at w name d (s_wl star)) pw {| s_wl := s_wl star; s_data := den |} dd x); auto; [apply SO|]. cbn. intros z y I CZ. destruct (In_nth _ _ (0, 0) I) as (j & Hj & Ej). rewrite combine_length, LD, Nat.min_id in Hj. rewrite combine_nth in Ej by auto. injection Ej as E1 E2. rewrite <- E2. eapply DP; eauto. }
    assert (P2 : 0 < at_ i pd). { destruct (C63_pixels_cover_the_band s0 (d_min d) (d_max d) (d_delta d) DI) as (_ & _ & _ & _ & _ & _ & PD); [apply CC|apply CC|]. apply PD. apply at_In. fold pd. rewrite LPD. exact Hi. }
    assert (P3 : 0 < at_ i gg). { apply (GX wls0 g0 _ GT). assert (LG := F2_length _ _ _ FG). pose proof (F2_nth _ _ _ FG i 0 Hi) as X. cbv beta in X. unfold at_ in X at 1. rewrite Hx in X. exact X. }
    apply Rmult_lt_0_compat; auto. now apply Rmult_lt_0_compat.
Qed.
Lemma least_of lo hi n : 0 < lo < hi -> (2 <= n)%nat -> least lo (logspace lo hi n) /\ greatest hi (logspace lo hi n).
Proof.
  intros V N. destruct (logspace_spec _ _ _ V N) as (G1 & G2 & G3 & G4). split; (split; [|intros y I; now apply grid_inside in I]); [rewrite <- G3 at 1|rewrite <- G4 at 1]; apply nth_In; lia.
Qed.
Lemma bright_of wl lo hi src dat : wavelength_grid wl -> least lo wl -> greatest hi wl -> increasing (s_wl src) -> one_value_per_wavelength src -> In lo (s_wl src) -> In hi (s_wl src) -> positive (s_data src) -> on wl src dat ->
  bright_inside {| s_wl := wl; s_data := dat |}.
Proof.
  intros WG LO HI IS OV I2 I3 P O i u0 v0 x0 Hi Hx Nu Nv. cbn [s_wl s_data] in *. destruct (neighbours_In _ _ _ Nu) as [Iu _]. destruct (neighbours_In _ _ _ Nv) as [_ Iv]. apply (proj2 LO) in Iu. apply (proj2 HI) in Iv.
  assert (0 < lo) by apply WG, LO. assert (0 < hi) by apply WG, HI.
  apply (resample_reached (fun _ => True) wl src dat x0 WG); auto.
  - exists lo, hi, u0, v0, lo, hi. split; auto. split; auto. split; auto. split; auto. split; auto. split; auto. split; [lra|]. split; [lra|auto].
  - intros z y0 I _. apply in_combine_r in I. auto.
Qed.
Lemma planck_source lo hi D T r : 0 < lo < hi -> 0 < D -> 0 < T -> 0 < r -> let src := st_sed (planck_star lo hi D T r) in
  increasing (s_wl src) /\ one_value_per_wavelength src /\ In lo (s_wl src) /\ In hi (s_wl src) /\ positive (s_data src).
Proof.
  intros V PD PT PR. unfold planck_star. assert (N : (2 <= 10000)%nat) by (apply Nat.leb_le; reflexivity). set (n := 10000%nat) in *. clearbody n. cbv zeta. cbn [st_sed s_wl s_data]. unfold one_value_per_wavelength. cbn [s_wl s_data]. destruct (linspace_spec lo hi n (proj2 V) N) as (I1 & I2 & I3).
  split; auto. split; [apply map_length|]. split; auto. split; auto. intros y I. apply in_map_iff in I as (z & <- & I).
  apply Rmult_lt_0_compat; [apply Rmult_lt_0_compat; [apply PI_RGT_0|apply pow_lt; apply Rdiv_lt_0_compat; lra]|]. apply C53_positive_and_increasing; [|lra]. apply linspace_bounds in I; lra.
Qed.
Lemma black_body_bright s x src st : in_um (y_min s) = Some 1 -> in_um (y_max s) = Some 1 -> 0 < value (y_min s) < value (y_max s) -> (2 <= y_R s)%nat ->
  y_source s = Some src -> black_body src -> known_star (x_stellar x) -> load s x = Ok st -> bright_inside (st_sed st).
Proof.
  intros U1 U2 V N Y (v & DV & NC & NP) (D & T & M & r & HD & HT & HM & HR & PD & PT & PM & PR) E. unfold load in E. rewrite Y in E. cbn [lookup bind] in E.
  destruct (load_source _ _ _ _ _ _) as [st0|] eqn:Hst; [|discriminate]. cbn [bind] in E. assert (st0 = st) as ->. { unfold add_star_metadata in E. destruct (x_star_name x); cbn [bind] in E; congruence. }
  clear E. unfold load_source in Hst. unfold wl_range in Hst. rewrite U1, U2 in Hst. assert (um_of (y_min s) = value (y_min s)) as EM by (unfold um_of; rewrite U1; ring). assert (um_of (y_max s) = value (y_max s)) as EX by (unfold um_of; rewrite U2; ring).
  rewrite (proj2 (Rltb_false (um_of (y_max s)) (um_of (y_min s)))) in Hst by lra. rewrite ?U1 in Hst. cbn [bind] in Hst. unfold make_star in Hst. rewrite DV in Hst. cbn [lookup bind] in Hst.
  apply String.eqb_neq in NC, NP. rewrite NC, HD, HT, HM, HR in Hst. cbn [given bind] in Hst. rewrite NP in Hst. rewrite EM, EX in Hst.
  destruct (planck_source (value (y_min s)) (value (y_max s)) D T r V PD PT PR) as (P1 & P2 & P3 & P4 & P5). generalize dependent (planck_star (value (y_min s)) (value (y_max s)) D T r). intros pl Hst P1 P2 P3 P4 P5.
  assert (forall b : bool, (if b then Ok pl else Ok pl) = Ok pl) as XX by (intros []; reflexivity). rewrite XX in Hst. cbn [bind] in Hst. unfold um_of in Hst. cbn [value in_um] in Hst. rewrite U2 in Hst. destruct (Req_EM_T (1 * 1) 1); [|lra].
  destruct (resample _ _) as [sed|] eqn:Hsed; [|discriminate]. cbn [bind] in Hst. assert (st_sed st = sed) as -> by (replace st with {| st_sed := sed; st_luminosity := st_luminosity pl; st_model := st_model pl |} by congruence; reflexivity).
  destruct (logspace_spec _ _ _ V N) as (G1 & G2 & G3 & G4). destruct (least_of _ _ _ V N) as [LO HI].
  assert (WG : wavelength_grid (logspace (value (y_min s)) (value (y_max s)) (y_R s))). { split; auto. split; [lia|]. intros z I. apply grid_inside in I; auto. lra. }
  destruct (resample_ok _ _ _ G1 Hsed) as (WL & _). destruct sed as [wl0 dat]. cbn [s_wl] in WL. subst wl0. eapply bright_of; eauto.
Qed.
