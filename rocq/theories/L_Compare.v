(** Lemmas: two observations compared, channel by channel. *)
From Coq Require Import Reals Lra Psatz Permutation.
From Verif Require Import Base Dict PyStr XR M_Signal M_Optics L_Optics M_Light M_Bins M_Star M_Source M_Foreground M_Table S_Table L_Table P_Table M_Observe S_Observe L_Observe L_Stages L_Outcome.
From Verif Require M_Noise P_Noise.
From Verif Require Import S_Noise L_Noise P_Observe P_Outcome S_Signal S_Light S_Optics S_Source P_Source S_Full P_Full S_Bright L_Bright P_Bright.
From Verif Require Import M_Table M_Observe S_Observe S_Noise L_Noise P_Outcome.
Import M_Noise(estimate_noise, noise_in_channel, ch_name, ch_custom, fixed_frame_time).
Open Scope list_scope.
Open Scope R_scope.

(** What an observation that can succeed shows for one of its channels *)
Record seen_rows (ns : list string) (s : setting) (g : tgt) (fs : sdict foreground) (st : star) (T : table) (name : string) (c : chan) (o : table) (det : detector) (tf : R) (total : nat -> xr) : Prop := {
  sr_own : own (Some fs) (st_sed st) (g_sky g) (name, c) = Ok o;
  sr_nodup : NoDup (names o);
  sr_rows : rows_are (bins_of (name, c)) o;
  sr_shows : forall k v, ordinary k -> k <> "MaxSignal_inPixel"%string -> loud (g_sky g) k = true -> shows T name k v <-> sget k o = Some v;
  sr_pos : forall k i, In k (names o) -> contains "signal" k = true \/ contains "Max" k = true \/ k = "Wavelength"%string \/ k = "WindowSize"%string -> (i < bins_of (name, c))%nat -> 0 <= value_at o k i;
  sr_detector : describes (h_noise c) det /\ physical det;
  sr_max : shows T name "MaxSignal_inPixel" (numbers (bins_of (name, c)) (maxima o));
  sr_tf : 0 < tf;
  sr_frame : match fixed_frame_time (h_noise c) with Some ft => ft = Fin tf | None => auto_frame_time (d_well det) (d_f det) (bins_of (name, c)) (maxima o) tf end;
  sr_frame_shown : shows T name "frameTime" (numbers (bins_of (name, c)) (fun _ => tf));
  sr_total_shown : shows T name "total_noise" (map (fun i => Num (total i)) (List.seq 0 (bins_of (name, c))));
  sr_total : forall i, (i < bins_of (name, c))%nat ->
      (value_at o "star_signal_inAperture"%string i = 0 -> total i = NaN) /\
      (value_at o "star_signal_inAperture"%string i <> 0 ->
         total i = Fin (sqrt (row_noise det (filter (contains "signal") (names o)) (value_at o) tf i ^ 2 + (ppm2 (in_effect (entries (h_common c))) + ppm2 (in_effect (entries (ch_custom (h_noise c))))))));
  sr_base : forall k, In k ns -> In k (names o) }.

Lemma observed_rows ns chs h s x g fs st : instruments ns chs -> quiet ns -> ~ In "MaxSignal_inPixel"%string ns -> In "Wavelength"%string ns -> In "WindowSize"%string ns ->
  Forall (fun sx => columns_apart ns chs (fst sx) (snd sx)) h -> columns_apart ns chs s x -> foregrounds_of s (x_sky x) = Ok g -> g_foreground g = Some fs -> load s x = Ok st ->
  (forall name c, In (name, c) chs -> Forall valid_entry (entries (h_common c)) /\ Forall valid_entry (entries (ch_custom (h_noise c))) /\
     exists d o t, propagate_diffuse_foreground (h_light c) (edges c) (Some fs) = Ok d /\ propagate_star c None (st_sed st) (g_sky g) = Ok (o, t) /\ usable c d o) ->
  exists y T, snd (observe_target s (after chs h) x) = Ok y /\ x_table y = Some T /\ x_sky y = g /\
    forall name c det, In (name, c) chs -> describes (h_noise c) det -> physical det -> exists o tf total, seen_rows ns s g fs st (cols T) name c o det tf total.
Proof.
  intros HI Q NM WL WS AH AP FG GF LD US.
  destruct (C87_an_observation_succeeds ns chs h s x g fs st HI Q NM WL WS AH AP FG GF LD) as [y OY].
  { intros name c I. destruct (US name c I) as (_ & _ & U). exact U. }
  destruct (observe_shape _ _ _ _ OY) as (_ & _ & _ & _ & T & st1 & XT & XS & LD1 & FG1). rewrite LD in LD1. injection LD1 as <-. rewrite FG in FG1. injection FG1 as SK.
  exists y, T. split; [auto|]. split; [auto|]. split; [auto|]. intros name c det IC DE PH.
  assert (AB : as_built ns (name, c)) by (destruct HI as (_ & _ & _ & _ & _ & AB); rewrite Forall_forall in AB; auto).
  destruct (block_view ns chs h s x y T HI Q NM AH AP OY XT name c IC) as (fs1 & st1 & o & F1 & S1 & OW & ND & RO & NMO & SH & SG & MX).
  rewrite <- SK, GF in F1. injection F1 as <-. rewrite XS in S1. injection S1 as <-. rewrite <- SK in OW, SH.
  destruct (US name c IC) as (V1 & V2 & dd & so & t0 & Hd & Hs & UO).
  assert (UA : forall d st' t, propagate_diffuse_foreground (h_light c) (edges c) (Some fs) = Ok d -> propagate_star c None (st_sed st) (g_sky g) = Ok (st', t) -> usable c d st').
  { intros d st0 t D P. rewrite Hd in D. injection D as <-. rewrite Hs in P. injection P as <- <-. exact UO. }
  destruct (noise_of_rows ns chs h s x y T HI Q NM WL WS AH AP OY XT name c IC fs st o det) as (M1 & tf & total & T0 & TF & F1 & N1 & TT); auto; try (rewrite <- SK; auto).
  exists o, tf, total. split; auto.
  - intros k i I W L. apply sget_names in I as [col I]. assert (LN : length col = bins_of (name, c)) by (eapply RO; apply sget_In; eauto). apply (amounts_numbers o k (bins_of (name, c)) col I LN); [|auto]. apply (amounts_in o name c ns fs (st_sed st) (g_sky g) AB OW UA k col I W).
  - intros k I. destruct (own_get ns fs (st_sed st) (g_sky g) (name, c) o AB OW) as (d2 & s2 & t2 & _ & _ & G). destruct AB as (_ & NSs & _). cbn [snd] in *. rewrite <- NSs in I. apply sget_names in I as [w I]. apply sget_names. rewrite G, I. destruct (loud _ _ && smem _ _) eqn:X; [|destruct (sget k d2); eauto]. apply andb_true_iff in X as [_ X]. apply smem_names in X. now apply sget_names in X.
Qed.

Lemma numbers_reals n f : numbers n f = reals (map f (List.seq 0 n)).
Proof. unfold numbers, reals. now rewrite map_map. Qed.
Lemma seq_F2 {A B} (P : A -> B -> Prop) (f : nat -> A) (g : nat -> B) n : (forall i, (i < n)%nat -> P (f i) (g i)) -> Forall2 P (map f (List.seq 0 n)) (map g (List.seq 0 n)).
Proof.
  intros H. assert (H' : forall i, In i (List.seq 0 n) -> P (f i) (g i)) by (intros i I; apply H; apply in_seq in I; lia). revert H'. generalize (List.seq 0 n). induction l; cbn; intros; constructor; auto.
Qed.

Section Two.
  Context (ns ns' : list string) (s s' : setting) (g g' : tgt) (fs fs' : sdict foreground) (st st' : star) (T T' : table) (name : string) (c c' : chan) (o o' : table) (det : detector) (tf tf' : R) (total total' : nat -> xr).
  Hypothesis (A : seen_rows ns s g fs st T name c o det tf total) (B : seen_rows ns' s' g' fs' st' T' name c' o' det tf' total').
  Hypothesis (SN : h_noise c' = h_noise c) (SC : h_common c' = h_common c) (SB : bins_of (name, c') = bins_of (name, c)) (NS : names o' = names o).
  Hypothesis (WS : In "WindowSize"%string (names o)) (SA : In "star_signal_inAperture"%string (names o)).
  Let n := bins_of (name, c).
  (** No maximum is larger *)
  Lemma dimmer_rows : (forall k i, In k (names o) -> contains "Max" k = true -> (i < n)%nat -> value_at o' k i <= value_at o k i) ->
    exists m m', shows T name "MaxSignal_inPixel" (reals m) /\ shows T' name "MaxSignal_inPixel" (reals m') /\ Forall2 Rle m' m /\
      shows T name "frameTime" (reals (repeat tf n)) /\ shows T' name "frameTime" (reals (repeat tf' n)) /\ tf <= tf'.
  Proof.
    intros LE. assert (ML : forall i, (i < n)%nat -> maxima o' i <= maxima o i).
    { intros i L. unfold maxima. rewrite NS. apply sum_over_le. intros k I. apply filter_In in I as [I1 I2]. auto. }
    exists (map (maxima o) (List.seq 0 n)), (map (maxima o') (List.seq 0 n)). rewrite <- !numbers_reals. split; [exact (sr_max _ _ _ _ _ _ _ _ _ _ _ _ A)|]. split; [pose proof (sr_max _ _ _ _ _ _ _ _ _ _ _ _ B) as X; rewrite SB in X; exact X|]. split; [now apply seq_F2|].
    rewrite <- (const_rows tf n 0), <- (const_rows tf' n 0), <- !numbers_reals. split; [exact (sr_frame_shown _ _ _ _ _ _ _ _ _ _ _ _ A)|]. split; [pose proof (sr_frame_shown _ _ _ _ _ _ _ _ _ _ _ _ B) as X; rewrite SB in X; exact X|].
    pose proof (sr_frame _ _ _ _ _ _ _ _ _ _ _ _ A) as FA. pose proof (sr_frame _ _ _ _ _ _ _ _ _ _ _ _ B) as FB. rewrite SN, SB in FB. destruct (fixed_frame_time (h_noise c)) as [ft|]; [rewrite FA in FB; injection FB as ->; lra|].
    destruct (sr_detector _ _ _ _ _ _ _ _ _ _ _ _ A) as (_ & PW & PF & _). eapply shorter_frame; eauto. nra.
  Qed.
  (** The same frame time, the star [q] times as strong, no other signal less than [q] times *)
  Lemma noisier_rows q : 0 < q <= 1 -> fixed_frame_time (h_noise c) <> None -> (forall i, (i < n)%nat -> value_at o' "WindowSize" i = value_at o "WindowSize" i) ->
    (forall k i, In k (names o) -> contains "signal" k = true -> (i < n)%nat -> q * value_at o k i <= value_at o' k i) ->
    (forall i, (i < n)%nat -> value_at o' "star_signal_inAperture" i = q * value_at o "star_signal_inAperture" i) ->
    exists z z', shows T name "total_noise" (map Num z) /\ shows T' name "total_noise" (map Num z') /\ Forall2 no_better z z'.
  Proof.
    intros Q FX EW LE ES. exists (map total (List.seq 0 n)), (map total' (List.seq 0 n)). rewrite !map_map. split; [exact (sr_total_shown _ _ _ _ _ _ _ _ _ _ _ _ A)|]. split; [pose proof (sr_total_shown _ _ _ _ _ _ _ _ _ _ _ _ B) as X; rewrite SB in X; exact X|]. apply seq_F2. intros i L.
    pose proof (sr_frame _ _ _ _ _ _ _ _ _ _ _ _ A) as FA. pose proof (sr_frame _ _ _ _ _ _ _ _ _ _ _ _ B) as FB. rewrite SN in FB. destruct (fixed_frame_time (h_noise c)) as [ft|]; [|congruence]. rewrite FA in FB. injection FB as E.
    destruct (sr_total _ _ _ _ _ _ _ _ _ _ _ _ A i L) as [A1 A2]. destruct (sr_total _ _ _ _ _ _ _ _ _ _ _ _ B i) as [B1 B2]; [now rewrite SB|]. specialize (ES i L). specialize (EW i L). rewrite SN, SC, NS in B2. rewrite <- E in B2.
    destruct (Req_EM_T (value_at o "star_signal_inAperture" i) 0) as [Z|Z]; [rewrite A1, B1 by (auto; rewrite ES, Z; ring); exact Coq.Init.Logic.I|]. rewrite A2, B2 by (auto; rewrite ES; intros X; apply Z; nra). cbn [no_better].
    assert (P : forall k, In k (names o) -> contains "signal" k = true \/ contains "Max" k = true \/ k = "Wavelength"%string \/ k = "WindowSize"%string -> 0 <= value_at o k i) by (intros k I W; apply (sr_pos _ _ _ _ _ _ _ _ _ _ _ _ A); auto).
    assert (S0 : 0 <= value_at o "star_signal_inAperture" i) by (apply P; auto).
    destruct (fainter_row det (filter (contains "signal") (names o)) (value_at o) (value_at o') tf i q) as [L0 L1]; auto.
    - apply (sr_detector _ _ _ _ _ _ _ _ _ _ _ _ A).
    - apply (sr_tf _ _ _ _ _ _ _ _ _ _ _ _ A).
    - intros k J. apply filter_In in J as [J1 J2]. auto.
    - lra.
    - apply sqrt_le_1_alt. apply Rplus_le_compat_r. apply pow_incr. lra.
  Qed.
End Two.
