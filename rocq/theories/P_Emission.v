(** Properties of the emission of a built channel. *)
From Coq Require Import Reals Lra Psatz Sorting.Permutation.
From Verif Require Import Base Dict PyStr XR M_Signal M_Optics M_Light M_Bins M_Psf M_Omega M_Star M_Source S_Signal S_Optics S_Light S_Bins S_Psf S_Foreground L_Signal L_Optics L_Light L_Bins L_Psf P_Optics P_Bins P_Windows P_Light P_Psf P_Source M_Table L_Table M_Observe S_Observe M_Build S_Build L_Build P_Build S_Parts P_Parts.
From Verif Require M_Noise.
Open Scope list_scope.
Open Scope R_scope.

Lemma chain_names wl : forall els out slit rads slit', chain_from planck wl els out slit = Ok (rads, slit') -> NoDup (map e_name els) -> (forall e, In e els -> ~ In (e_name e) (map fst out)) -> NoDup (map fst out) ->
  map fst rads = map fst out ++ map e_name (filter warm els) /\ NoDup (map fst rads).
Proof.
  induction els as [|e els IH]; intros out slit rads slit' E ND DI NO; cbn in E.
  - injection E as <- <-. cbn. rewrite app_nil_r. auto.
  - inversion ND as [|? ? N1 N2]; subst. cbn [filter]. unfold warm at 1. destruct (e_temp e) as [T|].
    + dbind E rs Hr. destruct rs as [rad sl]. assert (SN : sget (e_name e) out = None). { destruct (sget (e_name e) out) eqn:G; auto. exfalso. apply In_of_sget in G. apply (DI e (or_introl eq_refl)). apply in_map_iff. exists (e_name e, r). auto. }
      assert (SE : map fst (sset (e_name e) rad out) = map fst out ++ [e_name e]).
      { clear -SN. induction out as [|[k v] out IH]; cbn in *; auto. destruct (String.eqb_spec (e_name e) k); [discriminate|]. cbn. f_equal. auto. }
      destruct (IH _ _ _ _ E N2) as [E1 E2].
      3:{ split; auto. rewrite E1, SE. cbn. rewrite <- app_assoc. reflexivity. }
      * intros x Ix. rewrite SE. intros J. apply in_app_or in J as [J|[J|[]]]; [now apply (DI x (or_intror Ix))|]. apply N1. rewrite J. now apply in_map.
      * rewrite SE. apply (Permutation_NoDup (Permutation_cons_append _ _)). constructor; auto. intros J. now apply (DI e (or_introl eq_refl)).
    + apply IH in E; auto. intros x Ix. apply DI. now right.
Qed.
Lemma list_as_map v n : length v = n -> v = map (fun i => at_ i v) (seq 0 n).
Proof. intros <-. induction v as [|x v IH]; cbn; auto. f_equal. rewrite <- seq_shift, map_map. exact IH. Qed.
Lemma pair_up {B} (Q : string * radiance -> B -> Prop) : forall (rads : sdict radiance) (lights : list B), Forall2 Q rads lights -> forall ws, map fst rads = map e_name ws ->
  Forall2 (fun e lt => In e ws /\ exists r, In (e_name e, r) rads /\ Q (e_name e, r) lt) ws lights.
Proof.
  induction 1 as [|[k r] lt rads lights H F IH]; intros [|e ws] M; try discriminate; constructor.
  - cbn in M. injection M as -> M. split; [now left|]. exists r. split; auto. now left.
  - cbn in M. injection M as _ M. eapply F2_impl; [|exact (IH ws M)]. cbn beta. intros e' lt' (I & r' & J & K). split; [now right|]. exists r'. split; auto. now right.
Qed.
Lemma slit_known wl els rads slit l1 x l2 : chain planck wl els = Ok (rads, slit) -> sequence els = l1 ++ x :: l2 -> emits x -> Exists is_slit l2 -> exists v, slit = Some v.
Proof.
  intros CH SQ EM SL. destruct (last_slit l2 SL) as (m1 & s & m2 & -> & S1 & S2). destruct (C25_slit_width planck _ _ _ _ CH) as [W1 _].
  assert (SQ' : sequence els = (l1 ++ x :: m1) ++ s :: m2) by (rewrite SQ, <- app_assoc; reflexivity).
  assert (WS : slit = slit_width_of s). { eapply W1; eauto. apply Exists_exists. exists x. split; auto. apply in_or_app. right. now left. }
  destruct slit as [v|]; [eauto|]. exfalso. assert (X : exists er, chain planck wl els = Err er); [|destruct X; congruence].
  apply C25_fails_iff_slit_without_width. exists l1, x, (m1 ++ s :: m2). repeat split; auto. apply Exists_exists. exists s. split; auto. apply in_or_app. right. now left.
Qed.
(** The columns instrument_signal and instrument_MaxSignal_inPixel are the sums over all warm elements,
    in the order of the light, of what arrives of their thermal emission through those that follow. *)
Theorem C99_emission : forall w fuel p l chs name c d els, p_channel p = Some (Ordered l) -> NoDup (map fst l) -> build_channels w fuel p = Some (Ok chs) -> In (name, c) chs -> sget name l = Some d -> path_of p d c els ->
  0 < value (d_from d) < value (d_to d) -> (2 <= u_R w)%nat -> NoDup (map e_name (sequence els)) -> c_bins (h_star c) <> [] ->
  let wl := s_wl (c_tr (h_star c)) in let b := h_light c in let bins := c_bins (h_star c) in
  exists lights, length lights = length (filter warm (sequence els)) /\
  sget "instrument_signal" (cols (h_table c)) = Some (map (fun i => Num (Fin (total (map (fun lt => at_ i (snd lt)) lights)))) (seq 0 (length bins))) /\
  sget "instrument_MaxSignal_inPixel" (cols (h_table c)) = Some (map (fun i => Num (Fin (total (map (fun lt => at_ i (fst lt)) lights)))) (seq 0 (length bins))) /\
  Forall2 (fun e lt => forall l1 l2, sequence els = l1 ++ e :: l2 -> exists T rad qe, e_temp e = Some T /\ arriving wl e T l2 rad /\ resample wl (c_qe (h_star c)) = Ok qe /\
    (~ Exists is_slit l2 -> direct_light b wl (s_data qe) rad (e_pos e) lt) /\
    (Exists is_slit l2 -> exists slit, b_slit b = Some slit /\ slit_light b (map (fun x => (left_edge x, right_edge x)) bins) slit qe {| s_wl := wl; s_data := rad |} lt)) (filter warm (sequence els)) lights.
Proof.
  intros w fuel p l chs name c d els C ND E I SG P V N NN NB wl b bins. destruct (the_description _ _ _ _ _ _ _ C ND E I) as (d' & k & q & SG' & _ & B & O). assert (d' = d) as -> by congruence.
  destruct (path_inv _ _ _ _ _ O) as (wl0 & els' & tot & trc & rads & slit & em & fx & G & OP & TT & TC & CH & _ & HL & CS & HS & _ & _ & _ & _ & EC).
  destruct (has_path _ _ _ _ _ O) as (els2 & rads2 & slit2 & em2 & P2 & G2 & CH2 & BS & BP & CS2). rewrite <- (path_same _ _ _ _ _ P P2) in *. clear P2 els2.
  assert (wl0 = wl) as -> by (unfold wl; congruence). fold wl in CH2, CS2.
  assert (EL : els' = els). { destruct P as (o & own & c1 & c2 & H1 & H2 & H3). cbv zeta in H3. fold wl in H3. destruct H3 as (H3 & H4 & ->). unfold optical_path in OP. rewrite H1 in OP. cbn [lookup bind] in OP. rewrite H3 in OP. cbn [bind] in OP. rewrite H2 in OP. cbn [lookup bind] in OP. rewrite H4 in OP. cbn in OP. congruence. }
  subst els'. assert (rads2 = rads /\ slit2 = slit) as [-> ->] by (split; congruence). assert (em2 = em) as -> by congruence. clear CH2 CS2.
  assert (WG : wavelength_grid wl). { unfold optical_grid in G. destruct (in_um (d_from d)); [|discriminate]. destruct (in_um (d_to d)); [|discriminate]. destruct (Nat.eqb _ 1); [discriminate|]. injection G as <-. destruct (logspace_spec _ _ _ V N) as (G1 & G2' & _ & _). split; auto. split; [lia|]. intros x J. unfold logspace in J. apply in_map_iff in J as (i & <- & _). apply Rmult_lt_0_compat; [lra|]. unfold Rpower. apply exp_pos. }
  assert (SA : Forall (sampled_on wl) (sequence els)). { destruct P as (o & own & c1 & c2 & _ & _ & H3). cbv zeta in H3. fold wl in H3. destruct H3 as (H3 & H4 & ->). eapply C24_paths_are_sampled; eauto. }
  destruct (chain_names wl (sequence els) [] None rads slit CH NN (fun _ _ H => H) (NoDup_nil _)) as [NA NR]. cbn in NA.
  unfold compute_signal in CS. fold b in CS. apply (sum_light_spec b _ wl WG) in CS as (lights & F & BE & L1 & L2 & FL & SUM). cbn [total_signal total_max by_element] in L1, L2, SUM, FL.
  unfold M_Observe.edges in L1, L2. fold bins in L1, L2. rewrite !map_length in L1, L2.
  assert (LL : length lights = length (filter warm (sequence els))). { rewrite <- (map_length e_name), <- NA, map_length. symmetry. eapply Forall2_len; eauto. }
  assert (Z : forall i, at_ i (map (fun _ : R * R => 0) (M_Observe.edges c)) = 0). { intros i. unfold at_. generalize (M_Observe.edges c). induction i as [|i IH]; intros [|x e]; cbn; auto. }
  assert (SEQ : forall (f : nat -> R) v, length v = length bins -> (forall i, at_ i v = f i) -> map num v = map (fun i => Num (Fin (f i))) (seq 0 (length bins))).
  { intros f v LV HV. rewrite (list_as_map v _ LV) at 1. rewrite map_map. apply map_ext. intros i. unfold num. now rewrite <- HV. }
  assert (SH : shaped name q) by (destruct k; [apply photometer_shaped in B as (SH & _)|apply spectrometer_shaped in B as (SH & _)]; exact SH). destruct SH as ((qec & _ & QC) & _).
  exists lights. split; auto. split; [|split].
  - rewrite EC. rewrite QC. cbn. f_equal. apply SEQ; auto. intros i. destruct (SUM i) as [S1 _]. rewrite S1, Z. lra.
  - rewrite EC. rewrite QC. cbn. f_equal. apply SEQ; auto. intros i. destruct (SUM i) as [_ S1]. rewrite S1, Z. lra.
  - assert (CHS := CH). clear EC TC TT SUM FL BE B QC. assert (X := pair_up _ _ _ F _ NA). eapply F2_impl; [|exact X]. clear X. cbn beta. intros e lt (IE & r & IR & (q' & EL)) l1 l2 SQ. cbn [snd] in EL. apply filter_In in IE as [_ WE]. unfold warm in WE.
    pose proof (C25_attenuated_by_what_follows planck _ _ _ _ SA NN CHS l1 e l2 SQ) as AT. destruct (e_temp e) as [T|] eqn:ET; [|discriminate]. destruct AT as (rad & SR & LR & AR & PR & RS).
    assert (r = rad) as ->. { apply (NoDup_In_dget _ String_eqb_spec) in IR; auto. congruence. }
    assert (QQ : b_qe b = c_qe (h_star c)) by (unfold b; rewrite HL, HS; reflexivity).
    exists T, (r_data rad), q'. split; auto. split; [split; auto|]. split; [rewrite <- QQ; now apply element_light_qe in EL|]. split.
    + intros NS. assert (NBS : ~ behind_slit b rad) by (intros [X _]; now apply RS in X). destruct (element_light_free b _ wl _ rad NBS WG _ _ EL) as (_ & _ & D). unfold direct_light. rewrite <- PR. exact D.
    + intros SL. destruct (slit_known _ _ _ _ _ _ _ CHS SQ ltac:(unfold emits; congruence) SL) as (v & ->). exists v. split; auto. apply RS in SL. unfold element_light in EL. dbind EL q1 Hq1. rewrite SL in EL. unfold b in EL at 1. rewrite BS in EL.
      dbind EL o1 Ho. injection EL as -> ->. destruct lt as [mx sg]. destruct (fun X => C56_slit b _ v q' _ mx sg X Ho) as (pw & pd & ws & rd & q2 & n & H1 & H2 & H3 & H4 & H5 & H6 & H7 & _ & _ & H8).
      { unfold M_Observe.edges. intros X. apply NB. fold bins in X. unfold bins in X. destruct (c_bins (h_star c)); auto; discriminate. }
      exists pw, pd, ws, rd, q2, n. repeat (split; [assumption|]). cbv zeta. intros kk ee. apply H8.
Qed.
Print Assumptions C99_emission.
