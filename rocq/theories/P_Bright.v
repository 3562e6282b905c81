(** Brighter and fainter stars (C115). *)
From Coq Require Import Reals Lra Psatz Permutation.
From Verif Require Import Base Dict PyStr XR M_Signal M_Optics L_Optics M_Light M_Bins M_Star M_Source M_Foreground M_Table S_Table L_Table P_Table M_Observe S_Observe L_Observe L_Stages L_Outcome.
From Verif Require M_Noise P_Noise.
From Verif Require Import S_Noise L_Noise P_Observe P_Outcome S_Signal S_Light S_Optics S_Source P_Source S_Full P_Full S_Bright L_Bright.
From Verif Require Import M_Table M_Observe S_Observe S_Noise L_Noise P_Outcome.
Import M_Noise(estimate_noise, noise_in_channel, ch_name, ch_custom, fixed_frame_time).
Open Scope list_scope.
Open Scope R_scope.

Lemma times_k_scaled q s s' : times_k q s s' -> s' = {| s_wl := s_wl s; s_data := scaled q (s_data s) |}.
Proof.
  intros (W & L & A). destruct s' as [w d]. cbn in *. subst w. f_equal. apply (nth_ext _ _ 0 0); [now rewrite len_scaled|]. intros i I. specialize (A i). unfold at_ in A. rewrite A.
  unfold scaled. rewrite (nth_indep (map (fun x => x * q) (s_data s)) 0 (0 * q)) by (rewrite map_length; rewrite <- L; exact I). rewrite (map_nth (fun x => x * q)). ring.
Qed.
Lemma star_scale q c col sed sky : 0 <= q -> propagate_star c col {| s_wl := s_wl sed; s_data := scaled q (s_data sed) |} sky =
  match propagate_star c col sed sky with Ok (o, t) => Ok (lit_by q o, t) | Err e => Err e end.
Proof. intros Q. unfold propagate_star. destruct (h_kind c); [apply photometer_scale|now apply spectrometer_scale]. Qed.
Lemma star_names q o : names (star_columns (lit_by q o)) = names (star_columns o).
Proof. unfold star_columns, names. cbn. now destruct (o_sky o). Qed.
Lemma reals_num l : map num l = reals l. Proof. reflexivity. Qed.

(** A row of a channel, with a star [q] times as bright *)
Lemma own_scale ns fs sed sky q a o : 0 <= q -> as_built ns a -> own (Some fs) sed sky a = Ok o -> exists o', own (Some fs) {| s_wl := s_wl sed; s_data := scaled q (s_data sed) |} sky a = Ok o' /\ names o' = names o /\
  (forall k, star_column k -> exists v, sget k o = Some (reals v) /\ sget k o' = Some (reals (scaled q v))) /\ (forall k, ~ star_column k -> sget k o' = sget k o).
Proof.
  intros Q AB E. unfold own in *. destruct (foreground_of (Some fs) (snd a)) as [f|]; cbn [bind] in *; [|discriminate]. unfold own_star in *. rewrite star_scale by auto.
  destruct (propagate_star (snd a) None sed sky) as [[so t]|]; cbn [bind] in *; [|discriminate]. eexists. split; [reflexivity|]. injection E as <-.
  set (A := override (base a) f). assert (NK : names (keep (loud sky) (star_columns (lit_by q so))) = names (keep (loud sky) (star_columns so))).
  { rewrite !names_keep. now rewrite star_names. }
  assert (MK : forall k, smem k (keep (loud sky) (star_columns (lit_by q so))) = smem k (keep (loud sky) (star_columns so))).
  { intros k. apply Bool.eq_iff_eq_true. rewrite !smem_names, NK. tauto. }
  split; [|split].
  - rewrite !override_names, NK. f_equal. apply filter_ext. intros k. now rewrite MK.
  - intros k SK. rewrite !override_get, !keep_get. unfold star_column in SK. cbn [In] in SK.
    assert (L : loud sky k = true). { unfold loud. repeat (destruct SK as [<-|SK]; [destruct sky; reflexivity|]). destruct SK. }
    rewrite L. cbn [andb]. repeat (destruct SK as [<-|SK]; [unfold star_columns; cbn [lit_by o_sky o_flux o_signal o_aperture o_max]; destruct (o_sky so); cbn; eexists; split; reflexivity|]). destruct SK.
  - intros k SK. rewrite !override_get, !keep_get. destruct (loud sky k); auto. cbn [andb]. enough (sget k (star_columns (lit_by q so)) = sget k (star_columns so)) as -> by reflexivity.
    unfold star_columns. cbn [lit_by o_sky]. unfold star_column in SK. cbn [In] in SK.
    destruct (o_sky so); cbn [app dget]; repeat match goal with |- context [String.eqb k ?a] => destruct (String.eqb_spec k a); [try reflexivity; exfalso; apply SK; subst; cbn; auto|] end; reflexivity.
Qed.

(** ** The estimate for a star [q] times as bright *)
Lemma value_star q (o o' : table) k l : sget k o = Some (reals l) -> sget k o' = Some (reals (scaled q l)) -> forall i, value_at o' k i = q * value_at o k i.
Proof.
  intros G G' i. unfold value_at, col_of. rewrite G, G'. unfold reals, scaled. rewrite !nth_error_map. destruct (nth_error l i); cbn; ring.
Qed.
Lemma sum_over_le {A} (f g : A -> R) l : (forall a, In a l -> f a <= g a) -> sum_over f l <= sum_over g l.
Proof. induction l as [|a l IH]; intros H; cbn; [lra|]. assert (f a <= g a) by (apply H; cbn; auto). assert (sum_over f l <= sum_over g l) by (apply IH; intros; apply H; cbn; auto). lra. Qed.
Lemma sum_over_nonneg {A} (f : A -> R) l : (forall a, In a l -> 0 <= f a) -> 0 <= sum_over f l.
Proof. induction l as [|a l IH]; intros H; cbn; [lra|]. assert (0 <= f a) by (apply H; cbn; auto). assert (0 <= sum_over f l) by (apply IH; intros; apply H; cbn; auto). lra. Qed.
Lemma sum_over_times {A} q (f : A -> R) l : sum_over (fun a => q * f a) l = q * sum_over f l.
Proof. induction l as [|a l IH]; cbn; [ring|rewrite IH; ring]. Qed.

(** The relative noise of a fainter star *)
Lemma fainter_row d sigs v v' tf i q : physical d -> 0 < tf -> 0 < q <= 1 -> 0 <= v "WindowSize"%string i -> v' "WindowSize"%string i = v "WindowSize"%string i ->
  (forall k, In k sigs -> 0 <= v k i /\ q * v k i <= v' k i) -> 0 < v "star_signal_inAperture"%string i -> v' "star_signal_inAperture"%string i = q * v "star_signal_inAperture"%string i ->
  0 <= row_noise d sigs v tf i <= row_noise d sigs v' tf i.
Proof.
  intros (PW & PF & PQ & PM & PD & PR & PX) T Q W EW SG SP ES. unfold row_noise, total_noise. destruct (gains_pos (reads tf (d_freq d)) (d_M d) (reads_ge2 _ _) PM) as [RG SH].
  set (g := shot_gain (reads tf (d_freq d))) in *. set (rg := read_gain (reads tf (d_freq d)) (d_M d)) in *. rewrite EW, ES.
  pose proof (P_Noise.dark2_pos g (v "WindowSize"%string i) (d_dark d) ltac:(lra) W PD) as P1.
  pose proof (P_Noise.read2_pos rg (d_read d) (v "WindowSize"%string i) tf ltac:(lra) W T) as P2.
  assert (P3 : 0 <= sum_over (fun k => photon2 g (v k i)) sigs) by (apply sum_over_nonneg; intros k I; apply photon2_pos; [lra|apply SG; auto]).
  assert (P4 : q * sum_over (fun k => photon2 g (v k i)) sigs <= sum_over (fun k => photon2 g (v' k i)) sigs).
  { rewrite <- sum_over_times. apply sum_over_le. intros k I. destruct (SG k I) as [_ S]. unfold photon2. assert (0 < / 3600) by (apply Rinv_0_lt_compat; lra). unfold Rdiv.
    replace (q * (g * v k i * / 3600)) with ((g * / 3600) * (q * v k i)) by ring. replace (g * v' k i * / 3600) with ((g * / 3600) * v' k i) by ring. apply Rmult_le_compat_l; [|auto]. apply Rmult_le_pos; lra. }
  set (D := dark2 g _ _) in *. set (P := sum_over (fun k => photon2 g (v k i)) sigs) in *. set (P' := sum_over (fun k => photon2 g (v' k i)) sigs) in *. set (N := read2 _ _ _ _) in *. set (S0 := v "star_signal_inAperture"%string i) in *.
  assert (I0 : 0 < / S0) by (now apply Rinv_0_lt_compat). split.
  - unfold Rdiv. apply Rmult_le_pos; [apply sqrt_pos|lra].
  - apply (Rmult_le_reg_r (q * S0)); [nra|]. replace (sqrt (D + (1 + d_X d) * P' + N) / (q * S0) * (q * S0)) with (sqrt (D + (1 + d_X d) * P' + N)) by (field; lra).
    replace (sqrt (D + (1 + d_X d) * P + N) / S0 * (q * S0)) with (q * sqrt (D + (1 + d_X d) * P + N)) by (field; lra).
    assert (X1 : (1 + d_X d) * (q * P) <= (1 + d_X d) * P') by (apply Rmult_le_compat_l; lra). assert (X2 : 0 <= (1 + d_X d) * P) by (apply Rmult_le_pos; lra). assert (QQ : q ^ 2 <= q) by nra. assert (Q2 : 0 <= q ^ 2) by nra.
    set (B := (1 + d_X d) * P) in *. replace ((1 + d_X d) * (q * P)) with (q * B) in X1 by (unfold B; ring). set (B' := (1 + d_X d) * P') in *.
    rewrite <- (sqrt_pow2 q) at 1 by lra. rewrite <- sqrt_mult by lra. apply sqrt_le_1; [apply Rmult_le_pos; lra| |]; assert (0 <= q * B) by (apply Rmult_le_pos; lra); [lra|].
    assert (q ^ 2 * B <= q * B) by (apply Rmult_le_compat_r; lra). assert (q ^ 2 * D <= 1 * D) by (apply Rmult_le_compat_r; lra). assert (q ^ 2 * N <= 1 * N) by (apply Rmult_le_compat_r; lra). lra.
Qed.
Lemma shorter_frame w f n m m' tf tf' : 0 < f * w -> (forall i, (i < n)%nat -> m' i <= m i) -> auto_frame_time w f n m tf -> auto_frame_time w f n m' tf' -> tf <= tf'.
Proof.
  intros P LE (T & A & i & I & E) (T' & A' & j & J & E'). specialize (A j J). specialize (LE j J). assert (0 < m' j) by (destruct (Rle_lt_dec (m' j) 0); [nra|auto]). nra.
Qed.

Lemma const_rows (a : R) n : forall z, map (fun _ => a) (List.seq z n) = repeat a n.
Proof. induction n as [|n IH]; intros z; cbn; [reflexivity|now rewrite IH]. Qed.

(** ** C115: brighter and fainter stars *)
Theorem C115_brightness : forall ns chs h h' s x x' g fs st st' q, instruments ns chs -> quiet ns -> ~ In "MaxSignal_inPixel"%string ns -> In "Wavelength"%string ns -> In "WindowSize"%string ns ->
  Forall (fun sx => columns_apart ns chs (fst sx) (snd sx)) h -> Forall (fun sx => columns_apart ns chs (fst sx) (snd sx)) h' -> columns_apart ns chs s x ->
  x_sky x' = x_sky x -> foregrounds_of s (x_sky x) = Ok g -> g_foreground g = Some fs -> load s x = Ok st -> load s x' = Ok st' -> 0 < q -> times_k q (st_sed st) (st_sed st') ->
  (forall name c, In (name, c) chs -> Forall valid_entry (entries (h_common c)) /\ Forall valid_entry (entries (ch_custom (h_noise c))) /\
     exists d o t, propagate_diffuse_foreground (h_light c) (edges c) (Some fs) = Ok d /\ propagate_star c None (st_sed st) (g_sky g) = Ok (o, t) /\ usable c d o) ->
  exists y T y' T', snd (observe_target s (after chs h) x) = Ok y /\ x_table y = Some T /\ snd (observe_target s (after chs h') x') = Ok y' /\ x_table y' = Some T' /\
    forall name c, In (name, c) chs ->
      (forall k, star_column k -> exists v, shows (cols T) name k (reals v) /\ shows (cols T') name k (reals (map (fun a => a * q) v))) /\
      (forall k v, ordinary k -> fresh_column y k -> k <> "MaxSignal_inPixel"%string -> ~ star_column k -> shows (cols T') name k v <-> shows (cols T) name k v) /\
      (q <= 1 -> (exists m m' tf tf', shows (cols T) name "MaxSignal_inPixel" (reals m) /\ shows (cols T') name "MaxSignal_inPixel" (reals m') /\ Forall2 Rle m' m /\
          shows (cols T) name "frameTime" (reals (repeat tf (length (c_bins (h_star c))))) /\ shows (cols T') name "frameTime" (reals (repeat tf' (length (c_bins (h_star c))))) /\ tf <= tf') /\
        (fixed_frame_time (h_noise c) <> None -> exists z z', shows (cols T) name "total_noise" (map Num z) /\ shows (cols T') name "total_noise" (map Num z') /\ Forall2 no_better z z')).
Proof.
  intros ns chs h h' s x x' g fs st st' q HI Q NM WL WS AH AH' AP SKY FG GF LD LD' QP TK US.
  assert (AP' : columns_apart ns chs s x') by (unfold columns_apart in *; rewrite SKY; exact AP).
  apply times_k_scaled in TK.
  assert (PS : forall c col, propagate_star c col (st_sed st') (g_sky g) = match propagate_star c col (st_sed st) (g_sky g) with Ok (o, t) => Ok (lit_by q o, t) | Err e => Err e end) by (intros; rewrite TK; apply star_scale; lra).
  assert (UQ : forall c d o, usable c d o -> usable c d (lit_by q o)).
  { intros c d o (U1 & U2 & U3 & U4 & U5). split; [exact U1|]. split; [exact U2|]. split; [exact U3|]. cbn [lit_by o_aperture o_max]. split.
    - intros a I. unfold scaled in I. rewrite <- map_app in I. apply in_map_iff in I as (b & <- & I). apply Rmult_le_pos; [now apply U4|lra].
    - destruct (fixed_frame_time (h_noise c)); auto. destruct U5 as (a & I & P). exists (a * q). split; [unfold scaled; now apply (in_map (fun x => x * q))|nra]. }
  destruct (C87_an_observation_succeeds ns chs h s x g fs st HI Q NM WL WS AH AP FG GF LD) as [y OY].
  { intros name c I. destruct (US name c I) as (_ & _ & U). exact U. }
  destruct (C87_an_observation_succeeds ns chs h' s x' g fs st' HI Q NM WL WS AH' AP') as [y' OY']; [now rewrite SKY|auto|auto| |].
  { intros name c I. destruct (US name c I) as (_ & _ & d & o & t & D & P & U). exists d, (lit_by q o), t. split; [auto|]. split; [now rewrite PS, P|auto]. }
  destruct (observe_shape _ _ _ _ OY) as (_ & _ & _ & _ & T & st1 & XT & XS & LD1 & FG1). destruct (observe_shape _ _ _ _ OY') as (_ & _ & _ & _ & T' & st2 & XT' & XS' & LD2 & FG2).
  rewrite LD in LD1. rewrite LD' in LD2. injection LD1 as <-. injection LD2 as <-. rewrite SKY in FG2. rewrite FG in FG1, FG2. injection FG1 as SK. injection FG2 as SK'.
  exists y, T, y', T'. split; [auto|]. split; [auto|]. split; [auto|]. split; [auto|]. intros name c IC.
  assert (AB : as_built ns (name, c)) by (destruct HI as (_ & _ & _ & _ & _ & AB); rewrite Forall_forall in AB; auto).
  destruct (block_view ns chs h s x y T HI Q NM AH AP OY XT name c IC) as (fs1 & st1 & o & F1 & S1 & OW & ND & RO & NMO & SH & SG & MX).
  destruct (block_view ns chs h' s x' y' T' HI Q NM AH' AP' OY' XT' name c IC) as (fs2 & st2 & o' & F2 & S2 & OW' & ND' & RO' & NMO' & SH' & SG' & MX').
  rewrite <- SK, GF in F1. injection F1 as <-. rewrite <- SK', GF in F2. injection F2 as <-. rewrite XS in S1. injection S1 as <-. rewrite XS' in S2. injection S2 as <-. rewrite <- SK in OW, SH. rewrite <- SK' in OW', SH'.
  destruct (own_scale ns fs (st_sed st) (g_sky g) q (name, c) o ltac:(lra) AB OW) as (o2 & OW2 & NS & ST & OT). rewrite <- TK, OW' in OW2. injection OW2 as <-.
  pose proof (loud_sees (g_sky g)) as (LS & LM & LC & LW & LL & _).
  assert (SC : forall k, star_column k -> ordinary k /\ k <> "MaxSignal_inPixel"%string /\ loud (g_sky g) k = true).
  { intros k I. unfold star_column in I. cbn in I. repeat (destruct I as [<-|I]; [split; [apply ordinary_end; try reflexivity; discriminate|split; [discriminate|destruct (g_sky g); reflexivity]]|]). destruct I. }
  split; [|split].
  - intros k I. destruct (SC k I) as (Q1 & Q2 & Q3). destruct (ST k I) as (v & G1 & G2). exists v. split; [now apply SH|now apply SH'].
  - intros k v O FR NT NS'. apply fresh_loud in FR. rewrite <- SK in FR. rewrite SH, SH', OT by auto. tauto.
  - intros Q1. destruct (US name c IC) as (V1 & V2 & dd & so & t0 & Hd & Hs & UO). pose proof UO as ((det & DE & PH) & _).
    assert (UA : forall d st' t, propagate_diffuse_foreground (h_light c) (edges c) (Some fs) = Ok d -> propagate_star c None (st_sed st) (g_sky g) = Ok (st', t) -> usable c d st').
    { intros d st0 t D P. rewrite Hd in D. injection D as <-. rewrite Hs in P. injection P as <- <-. exact UO. }
    assert (UA' : forall d st0 t, propagate_diffuse_foreground (h_light c) (edges c) (Some fs) = Ok d -> propagate_star c None (st_sed st') (g_sky g) = Ok (st0, t) -> usable c d st0).
    { intros d st0 t D P. rewrite Hd in D. injection D as <-. rewrite PS, Hs in P. injection P as <- <-. now apply UQ. }
    destruct (noise_of_rows ns chs h s x y T HI Q NM WL WS AH AP OY XT name c IC fs st o det) as (M1 & tf & total & T0 & TF & F1 & N1 & TT); auto; try (rewrite <- SK; auto).
    destruct (noise_of_rows ns chs h' s x' y' T' HI Q NM WL WS AH' AP' OY' XT' name c IC fs st' o' det) as (M2 & tf' & total' & T0' & TF' & F2 & N2 & TT'); auto; try (rewrite <- SK'; auto).
    set (n := bins_of (name, c)) in *. change (length (c_bins (h_star c))) with n.
    assert (AMT : forall k i, In k (names o) -> contains "signal" k = true \/ contains "Max" k = true \/ k = "Wavelength"%string \/ k = "WindowSize"%string -> (i < n)%nat -> 0 <= value_at o k i).
    { intros k i I W L. apply sget_names in I as [col I]. assert (LN : length col = n) by (eapply RO; apply sget_In; eauto). apply (amounts_numbers o k n col I LN); [|auto]. apply (amounts_in o name c ns fs (st_sed st) (g_sky g) AB OW UA k col I W). }
    assert (VAL : forall k, (star_column k /\ forall i, value_at o' k i = q * value_at o k i) \/ (~ star_column k /\ forall i, value_at o' k i = value_at o k i)).
    { intros k. destruct (in_dec string_dec k ["starFlux"; "starSignal"; "star_signal_inAperture"; "star_MaxSignal_inPixel"]%string) as [I|I]; [left|right]; (split; [exact I|]).
      - destruct (ST k I) as (v & G1 & G2). eapply value_star; eauto.
      - intros i. unfold value_at, col_of. now rewrite OT. }
    assert (LEV : forall k i, 0 <= value_at o k i -> q * value_at o k i <= value_at o' k i <= value_at o k i).
    { intros k i P. destruct (VAL k) as [[_ E]|[_ E]]; rewrite E; nra. }
    assert (ML : forall i, (i < n)%nat -> maxima o' i <= maxima o i).
    { intros i L. unfold maxima. rewrite NS. apply sum_over_le. intros k I. apply filter_In in I as [I1 I2]. apply LEV. apply AMT; auto. }
    assert (NUM : forall f, numbers n f = reals (map f (List.seq 0 n))) by (intros f; unfold numbers, reals; now rewrite map_map).
    assert (REP : forall a : R, map (fun _ => a) (List.seq 0 n) = repeat a n). { intros a. apply const_rows. }
    split.
    + exists (map (maxima o) (List.seq 0 n)), (map (maxima o') (List.seq 0 n)), tf, tf'. rewrite <- !NUM. split; [auto|]. split; [auto|]. split.
      { assert (ML' : forall i, In i (List.seq 0 n) -> maxima o' i <= maxima o i) by (intros i I; apply ML; apply in_seq in I; lia). revert ML'. generalize (List.seq 0 n). induction l; cbn; intros; constructor; auto. }
      rewrite <- (REP tf), <- (REP tf'), <- !NUM. split; [auto|]. split; [auto|].
      destruct (fixed_frame_time (h_noise c)) as [ft|]; [rewrite TF in TF'; injection TF' as ->; lra|]. destruct PH as (PW & PF & _). eapply shorter_frame; eauto. nra.
    + intros FX. destruct (fixed_frame_time (h_noise c)) as [ft|]; [|congruence]. rewrite TF in TF'. injection TF' as <-. exists (map total (List.seq 0 n)), (map total' (List.seq 0 n)). rewrite !map_map. split; [auto|]. split; [auto|].
      assert (LE : forall i, In i (List.seq 0 n) -> no_better (total i) (total' i)).
      { intros i I. apply in_seq in I. destruct (TT i) as [A1 A2]; [lia|]. destruct (TT' i) as [B1 B2]; [lia|]. destruct (VAL "star_signal_inAperture"%string) as [[_ E]|[N _]]; [|exfalso; apply N; cbn; auto]. specialize (E i).
        destruct (Req_EM_T (value_at o "star_signal_inAperture" i) 0) as [Z|Z]; [rewrite A1, B1 by (auto; rewrite E, Z; ring); exact Coq.Init.Logic.I|]. rewrite A2, B2 by (auto; rewrite E; intros X; apply Z; nra).
        cbn [no_better]. rewrite NS.
        assert (WI : In "WindowSize"%string (names o)).
        { destruct (own_get ns fs (st_sed st) (g_sky g) (name, c) o AB OW) as (d2 & s2 & t2 & _ & _ & G). destruct AB as (_ & NSs & _). cbn [snd] in *. rewrite <- NSs in WS. apply sget_names in WS as [w WS]. apply sget_names. rewrite G, WS. destruct (loud _ _ && smem _ _) eqn:X; [|destruct (sget "WindowSize" d2); eauto]. apply andb_true_iff in X as [_ X]. apply smem_names in X. now apply sget_names in X. }
        assert (SI : In "star_signal_inAperture"%string (names o)). { destruct (ST "star_signal_inAperture"%string) as (v & G & _); [cbn; auto|]. apply sget_names. eauto. }
        destruct (VAL "WindowSize"%string) as [[N _]|[_ EW]]; [exfalso; cbn in N; intuition discriminate|].
        assert (S0 : 0 <= value_at o "star_signal_inAperture" i) by (apply AMT; auto; lia).
        destruct (fainter_row det (filter (contains "signal") (names o)) (value_at o) (value_at o') tf i q PH T0) as [L0 L1]; auto; try (apply AMT; auto; lia).
        - intros k J. apply filter_In in J as [J1 J2]. assert (0 <= value_at o k i) by (apply AMT; auto; lia). split; [auto|]. now apply LEV.
        - lra.
        - apply sqrt_le_1_alt. apply Rplus_le_compat_r. apply pow_incr. lra. }
      revert LE. generalize (List.seq 0 n). induction l; cbn; intros; constructor; auto.
Qed.
Print Assumptions C115_brightness.

(** The distance: a star [k] times as far is [1/k^2] times as bright, whatever its model. *)
Lemma load_distance s x D k st : 0 < k -> D <> 0 -> t_D (x_stellar x) = Some D -> load s x = Ok st -> exists st', load s (at_distance x (k * D)) = Ok st' /\ times_k (/ k ^ 2) (st_sed st) (st_sed st').
Proof.
  intros K D0 HD E. unfold load in *. destruct (lookup (y_source s)) as [src|]; cbn [bind] in *; [|discriminate]. cbn [at_distance x_stellar x_star_name x_magk].
  destruct (load_source _ _ _ _ (x_stellar x) src) as [st0|] eqn:L; cbn [bind] in E; [|discriminate]. destruct (C50_inverse_square _ _ _ _ _ _ D k st0 K D0 HD L) as (st' & L' & T & _). rewrite L'. cbn [bind].
  unfold add_star_metadata in *. destruct (x_star_name x); cbn [bind] in *; [|discriminate]. injection E as <-. eauto.
Qed.
Lemma load_radius s x r k v src st : 0 < k -> t_R (x_stellar x) = Some r -> y_source s = Some src -> d_value (description_of src) = Some v -> py_lower v <> "phoenix"%string -> load s x = Ok st ->
  exists st', load s (with_radius x (k * r)) = Ok st' /\ times_k (k ^ 2) (st_sed st) (st_sed st').
Proof.
  intros K HR YS HV NP E. unfold load in *. rewrite YS in *. cbn [lookup bind] in *. cbn [with_radius x_stellar x_star_name x_magk].
  destruct (load_source _ _ _ _ (x_stellar x) src) as [st0|] eqn:L; cbn [bind] in E; [|discriminate]. destruct (C50_radius _ _ _ _ _ _ r k v st0 K HR HV NP L) as (st' & L' & T & _). rewrite L'. cbn [bind].
  unfold add_star_metadata in *. destruct (x_star_name x); cbn [bind] in *; [|discriminate]. injection E as <-. eauto.
Qed.
