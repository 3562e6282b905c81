(** C12-C19: noise. *)
From Verif Require Import Base Dict XR M_Table S_Table L_Table P_Table M_Noise S_Noise L_Noise.
From Coq Require Import Permutation.
Open Scope list_scope.
Open Scope R_scope.

(** *** C12: frame time *)
Lemma frame_time_fixed t ch d n v ft : fixed_frame_time ch = Some (Fin ft) -> describes ch d -> 0 < d_well d ->
  holds t (ch_name ch) n ["MaxSignal_inPixel"%string] v ->
  exists sat, frame_time t ch = Ok [("saturation_time"%string, sat); ("frameTime"%string, column n (fun _ => Fin ft))].
Proof.
  intros F D W H. unfold frame_time. rewrite (holds_num _ _ _ _ _ _ H) by (cbn; auto). cbn [bind]. rewrite F.
  rewrite map_column, column_length, repeat_column. eauto.
Qed.
Lemma holds_sub t name n keys keys' v : (forall k, In k keys' -> In k keys) -> holds t name n keys v -> holds t name n keys' v.
Proof. intros S H k I. apply H; auto. Qed.

Lemma channel_frame_time t ch d n v : describes ch d -> physical d -> holds t (ch_name ch) n (needed ++ signal_columns t) v ->
  frame_time_defined ch n v ->
  exists tf sat, 0 < tf /\ frame_time t ch = Ok [("saturation_time"%string, sat); ("frameTime"%string, column n (fun _ => Fin tf))] /\
    (match fixed_frame_time ch with
     | Some ft => ft = Fin tf
     | None => auto_frame_time (d_well d) (d_f d) n (v "MaxSignal_inPixel"%string) tf
     end).
Proof.
  intros D (PW & PF & _) H FD. unfold frame_time_defined in FD.
  assert (H1 : holds t (ch_name ch) n ["MaxSignal_inPixel"%string] v) by (eapply holds_sub; [|eauto]; intros k [<-|[]]; cbn; auto).
  destruct (fixed_frame_time ch) as [ft|] eqn:F.
  - destruct FD as (r & -> & P). destruct (frame_time_fixed t ch d n v r F D PW H1) as (sat & E). exists r, sat. auto.
  - destruct (frame_time_auto t ch d n v D PW PF F H1 FD) as (tf & sat & E & _ & A). exists tf, sat. split; [apply A|]. auto.
Qed.

(** The result for a channel *)
Lemma channel_run t ch common d n v : describes ch d -> physical d -> (0 < n)%nat ->
  holds t (ch_name ch) n (needed ++ signal_columns t) v -> frame_time_defined ch n v ->
  exists tf out0, 0 < tf /\
    (match fixed_frame_time ch with
     | Some ft => ft = Fin tf
     | None => auto_frame_time (d_well d) (d_f d) n (v "MaxSignal_inPixel"%string) tf
     end) /\
    noise_in_channel t ch common = Ok (try_custom (ch_custom ch) n (try_custom common n
           (sset "total_noise" (column n (fun i => if Req_EM_T (v "star_signal_inAperture"%string i) 0 then NaN
                                                   else Fin (row_noise d (signal_columns t) v tf i))) out0))) /\
    (let g := shot_gain (reads tf (d_freq d)) in
     sget "frameTime" out0 = Some (column n (fun _ => Fin tf)) /\
     sget "darkcurrent_noise" out0 = Some (column n (fun i => Fin (sqrt (dark2 g (v "WindowSize"%string i) (d_dark d))))) /\
     sget "read_noise" out0 = Some (column n (fun i => Fin (sqrt (read2 (read_gain (reads tf (d_freq d)) (d_M d)) (d_read d) (v "WindowSize"%string i) tf)))) /\
     forall k, In k (signal_columns t) -> sget (k ++ "_noise")%string out0 = Some (column n (fun i => Fin (sqrt (photon2 g (v k i)))))).
Proof.
  intros D PH N H FD. destruct (channel_frame_time t ch d n v D PH H FD) as (tf & sat & T & FT & A).
  destruct (noise_in_channel_fin t ch common d n v tf sat D PH N T H FT) as (out & E & G & _).
  exists tf, out. auto.
Qed.

Theorem C12_automatic_frame_time t ch common d n v :
  describes ch d -> physical d -> (0 < n)%nat -> fixed_frame_time ch = None ->
  holds t (ch_name ch) n (needed ++ signal_columns t) v -> (exists i, (i < n)%nat /\ 0 < v "MaxSignal_inPixel"%string i) ->
  exists out tf, noise_in_channel t ch common = Ok out /\ 0 < tf /\
    (forall i, (i < n)%nat -> entry_at out "frameTime" i (Fin tf)) /\
    (forall i, (i < n)%nat -> v "MaxSignal_inPixel"%string i * tf <= d_f d * d_well d) /\
    (exists i, (i < n)%nat /\ v "MaxSignal_inPixel"%string i * tf = d_f d * d_well d).
Proof.
  intros D PH N F H B.
  destruct (channel_run t ch common d n v D PH N H) as (tf & out0 & T & A & E & G & _).
  { unfold frame_time_defined. rewrite F. auto. }
  rewrite F in A. destruct A as (_ & A1 & A2). eexists _, tf. split; [exact E|]. split; auto. split; [|split; auto].
  intros i I. eexists. rewrite !try_custom_other by (apply not_noise_key; reflexivity).
  rewrite (dget_dset_other _ String_eqb_spec) by discriminate. split; [exact G|]. rewrite nth_column; auto.
Qed.
Print Assumptions C12_automatic_frame_time.

Theorem C12_given_frame_time_used_unchanged t ch common d n v ft :
  describes ch d -> physical d -> (0 < n)%nat -> fixed_frame_time ch = Some (Fin ft) -> 0 < ft ->
  holds t (ch_name ch) n (needed ++ signal_columns t) v ->
  exists out, noise_in_channel t ch common = Ok out /\
    forall i, (i < n)%nat -> entry_at out "frameTime" i (Fin ft).
Proof.
  intros D PH N F P H.
  destruct (channel_run t ch common d n v D PH N H) as (tf & out0 & T & A & E & G & _).
  { unfold frame_time_defined. rewrite F. eauto. }
  rewrite F in A. injection A as <-. eexists. split; [exact E|].
  intros i I. eexists. rewrite !try_custom_other by (apply not_noise_key; reflexivity).
  rewrite (dget_dset_other _ String_eqb_spec) by discriminate. split; [exact G|]. rewrite nth_column; auto.
Qed.
Print Assumptions C12_given_frame_time_used_unchanged.

(** Without light in any pixel the automatic frame time is infinite; without the well
    fraction there is none. *)
Theorem C12_no_light_infinite_frame_time t ch d n v :
  describes ch d -> physical d -> (0 < n)%nat -> fixed_frame_time ch = None ->
  holds t (ch_name ch) n ["MaxSignal_inPixel"%string] v -> (forall i, (i < n)%nat -> v "MaxSignal_inPixel"%string i = 0) ->
  exists out, frame_time t ch = Ok out /\ forall i, (i < n)%nat -> entry_at out "frameTime" i PInf.
Proof.
  intros (DW & DF & _) (PW & PF & _) N F H Z. unfold frame_time. rewrite (holds_num _ _ _ _ _ _ H) by (cbn; auto). cbn [bind].
  rewrite F, (DF F), DW, map_column.
  rewrite (column_ext n _ (fun _ => PInf)) by (intros i I; rewrite Z by auto; apply xdiv_pos0; auto).
  destruct n as [|n]; [lia|]. rewrite (column_cons n (fun _ => PInf)). cbn iota.
  assert (X : xminl PInf (column n (fun _ : nat => PInf)) = PInf).
  { clear. unfold column. induction (seq 0 n); cbn; auto. }
  assert (M : xmul (Fin (d_f d)) PInf = PInf).
  { cbn [xmul]. unfold sgn_inf. destruct (total_order_T (d_f d) 0) as [[?|?]|?]; try lra; auto. }
  rewrite X, M. eexists. split; [reflexivity|]. intros i I. eexists. split; [reflexivity|].
  cbn [length]. rewrite column_length. apply nth_error_repeat; auto.
Qed.
Print Assumptions C12_no_light_infinite_frame_time.
Theorem C12_no_well_fraction_fails t ch common :
  fixed_frame_time ch = None -> f_well_depth ch = None -> forall out, noise_in_channel t ch common <> Ok out.
Proof.
  intros F W out. unfold noise_in_channel, frame_time. destruct (select_num _ _ _); cbn; [|discriminate].
  rewrite F, W. discriminate.
Qed.
Print Assumptions C12_no_well_fraction_fails.

(** *** C13: gains *)
Lemma gain_order a b : 2 <= a -> 3 <= b -> a <= b ->
  12 * (b - 1) / (b ^ 2 + b) <= 12 * (a - 1) / (a ^ 2 + a) /\ shot_gain a <= shot_gain b.
Proof.
  intros A B L.
  assert (K : 0 <= (b - a) * ((a - 1) * (b - 1) - 2)) by (apply Rmult_le_pos; nra).
  assert (PA : 0 < a ^ 2 + a) by nra. assert (PB : 0 < b ^ 2 + b) by nra.
  split.
  - apply (Rmult_le_reg_r (b ^ 2 + b)); auto. apply (Rmult_le_reg_r (a ^ 2 + a)); auto.
    replace (12 * (b - 1) / (b ^ 2 + b) * (b ^ 2 + b) * (a ^ 2 + a)) with (12 * (b - 1) * (a ^ 2 + a)) by (field; nra).
    replace (12 * (a - 1) / (a ^ 2 + a) * (b ^ 2 + b) * (a ^ 2 + a)) with (12 * (a - 1) * (b ^ 2 + b)) by (field; nra).
    nra.
  - unfold shot_gain. apply (Rmult_le_reg_r (5 * (b ^ 2 + b))); [nra|]. apply (Rmult_le_reg_r (5 * (a ^ 2 + a))); [nra|].
    replace (6 * (a ^ 2 + 1) / (5 * (a ^ 2 + a)) * (5 * (b ^ 2 + b)) * (5 * (a ^ 2 + a))) with (30 * (a ^ 2 + 1) * (b ^ 2 + b)) by (field; nra).
    replace (6 * (b ^ 2 + 1) / (5 * (b ^ 2 + b)) * (5 * (b ^ 2 + b)) * (5 * (a ^ 2 + a))) with (30 * (b ^ 2 + 1) * (a ^ 2 + a)) by (field; nra).
    nra.
Qed.
Lemma gain_mono a b M : (2 <= a)%Z -> (a <= b)%Z -> 0 < M ->
  read_gain (IZR b) M <= read_gain (IZR a) M /\ shot_gain (IZR a) <= shot_gain (IZR b).
Proof.
  intros A B P. destruct (Z.eq_dec a b) as [->|NE]; [lra|].
  assert (A' : 2 <= IZR a) by (apply IZR_le; auto). assert (B' : 3 <= IZR b) by (apply IZR_le; lia).
  assert (L : IZR a <= IZR b) by (apply IZR_le; auto).
  destruct (gain_order _ _ A' B' L) as [R1 R2]. split; auto. unfold read_gain, Rdiv in *.
  apply Rmult_le_compat_r; auto. apply Rlt_le, Rinv_0_lt_compat; auto.
Qed.
Lemma reads_mono t t' f : 0 <= f -> t <= t' -> (Z.max 2 (Rfloor (t * f)) <= Z.max 2 (Rfloor (t' * f)))%Z.
Proof.
  intros F L. assert (LE : t * f <= t' * f) by nra.
  destruct (Rfloor_spec (t * f)) as [A B]. destruct (Rfloor_spec (t' * f)) as [A' B'].
  assert (X : (Rfloor (t * f) < Rfloor (t' * f) + 1)%Z) by (apply lt_IZR; rewrite plus_IZR; lra). lia.
Qed.

Theorem C13_gains_in_range ch d t :
  describes ch d -> 0 < d_M d -> 0 < t ->
  exists rg sg, multiaccum ch (Fin t) = (Fin rg, Fin sg) /\
    0 < rg <= 2 / d_M d /\ 1 <= sg < 6 / 5 /\ (t * d_freq d < 4 -> rg = 2 / d_M d /\ sg = 1).
Proof.
  intros D M T. rewrite (multiaccum_fin ch d t D M) by lra. eexists _, _. split; [reflexivity|].
  unfold reads. set (n := Z.max 2 (Rfloor (t * d_freq d))).
  assert (N2 : (2 <= n)%Z) by lia. assert (N2' : 2 <= IZR n) by (apply IZR_le; auto).
  destruct (gain_mono 2 n (d_M d) ltac:(lia) N2 M) as [R1 R2].
  assert (E1 : read_gain 2 (d_M d) = 2 / d_M d) by (unfold read_gain; field; lra).
  assert (E2 : shot_gain 2 = 1) by (unfold shot_gain; field).
  rewrite E1 in R1. rewrite E2 in R2. split; [split; auto; apply gains_pos; auto|]. split; [split; auto|].
  - unfold shot_gain. apply (Rmult_lt_reg_r (5 * (IZR n ^ 2 + IZR n))); [nra|].
    replace (6 * (IZR n ^ 2 + 1) / (5 * (IZR n ^ 2 + IZR n)) * (5 * (IZR n ^ 2 + IZR n))) with (6 * (IZR n ^ 2 + 1)) by (field; nra). nra.
  - intros L. destruct (Rfloor_spec (t * d_freq d)) as [A B].
    assert (F : (Rfloor (t * d_freq d) < 4)%Z) by (apply lt_IZR; lra).
    assert (C : n = 2%Z \/ n = 3%Z) by lia. destruct C as [-> | ->]; [auto|]. split; [unfold read_gain|unfold shot_gain]; field; lra.
Qed.
Print Assumptions C13_gains_in_range.

(** Longer frames (more reads): read gain does not increase, shot gain does not decrease. *)
Theorem C13_gains_monotone ch d t t' rg sg rg' sg' :
  describes ch d -> 0 < d_M d -> 0 <= d_freq d -> 0 < t <= t' ->
  multiaccum ch (Fin t) = (Fin rg, Fin sg) -> multiaccum ch (Fin t') = (Fin rg', Fin sg') ->
  rg' <= rg /\ sg <= sg'.
Proof.
  intros D M F [T L]. rewrite !(multiaccum_fin ch d _ D M) by lra. intros E E'.
  injection E as <- <-. injection E' as <- <-. apply gain_mono; auto; [lia|]. apply reads_mono; auto.
Qed.
Print Assumptions C13_gains_monotone.
(** The shot gain does not depend on the number of averaged reads M, the read gain is
    inversely proportional to it. *)
Theorem C13_dependence_on_M ch ch' d d' t rg sg rg' sg' :
  describes ch d -> describes ch' d' -> 0 < d_M d -> 0 < d_M d' -> d_freq d = d_freq d' -> 0 < t ->
  multiaccum ch (Fin t) = (Fin rg, Fin sg) -> multiaccum ch' (Fin t) = (Fin rg', Fin sg') ->
  sg = sg' /\ rg * d_M d = rg' * d_M d'.
Proof.
  intros D D' M M' F T. rewrite (multiaccum_fin ch d _ D M), (multiaccum_fin ch' d' _ D' M') by lra. intros E E'.
  injection E as <- <-. injection E' as <- <-. rewrite F. split; auto. unfold read_gain.
  pose proof (reads_ge2 t (d_freq d')). field. split; [nra|split; lra].
Qed.
Print Assumptions C13_dependence_on_M.

(** *** C14: the total *)
Theorem C14_row_formula t ch d n v :
  describes ch d -> physical d -> (0 < n)%nat -> ch_custom ch = None ->
  holds t (ch_name ch) n (needed ++ signal_columns t) v -> frame_time_defined ch n v ->
  exists out tf, noise_in_channel t ch None = Ok out /\ 0 < tf /\
    forall i, (i < n)%nat ->
      let g := shot_gain (reads tf (d_freq d)) in
      let dark_sq := dark2 g (v "WindowSize"%string i) (d_dark d) in
      let read_sq := read2 (read_gain (reads tf (d_freq d)) (d_M d)) (d_read d) (v "WindowSize"%string i) tf in
      entry_at out "frameTime" i (Fin tf) /\
      entry_at out "darkcurrent_noise" i (Fin (sqrt dark_sq)) /\
      entry_at out "read_noise" i (Fin (sqrt read_sq)) /\
      (forall k, In k (signal_columns t) -> entry_at out (k ++ "_noise")%string i (Fin (sqrt (photon2 g (v k i))))) /\
      (0 < v "star_signal_inAperture"%string i ->
       entry_at out "total_noise" i
         (Fin (sqrt (dark_sq + (1 + d_X d) * sum_over (fun k => photon2 g (v k i)) (signal_columns t) + read_sq)
               / v "star_signal_inAperture"%string i))).
Proof.
  intros D PH N C H FD.
  destruct (channel_run t ch None d n v D PH N H FD) as (tf & out0 & T & _ & E & G1 & G2 & G3 & G4).
  rewrite C in E. cbn [try_custom] in E. eexists _, tf. split; [exact E|]. split; auto. intros i I.
  split; [|split; [|split; [|split]]].
  - eexists. rewrite (dget_dset_other _ String_eqb_spec) by discriminate. split; [exact G1|]. rewrite nth_column; auto.
  - eexists. rewrite (dget_dset_other _ String_eqb_spec) by discriminate. split; [exact G2|]. rewrite nth_column; auto.
  - eexists. rewrite (dget_dset_other _ String_eqb_spec) by discriminate. split; [exact G3|]. rewrite nth_column; auto.
  - intros k J. eexists. rewrite (dget_dset_other _ String_eqb_spec).
    + split; [apply G4; auto|]. rewrite nth_column; auto.
    + intros X. symmetry in X. revert X. apply signal_key_noise; auto. apply filter_In in J. tauto.
  - intros S. eexists. rewrite (dget_dset_same _ String_eqb_spec). split; [reflexivity|]. rewrite nth_column by auto.
    destruct (Req_EM_T _ 0); [lra|]. reflexivity.
Qed.
Print Assumptions C14_row_formula.

Lemma dark2_pos g w dc : 0 <= g -> 0 <= w -> 0 <= dc -> 0 <= dark2 g w dc.
Proof. intros. unfold dark2. apply Rmult_le_pos; [apply Rmult_le_pos; [apply Rmult_le_pos; lra|lra]|]. apply Rlt_le, Rinv_0_lt_compat. lra. Qed.
Lemma read2_pos rg rn w tf : 0 <= rg -> 0 <= w -> 0 < tf -> 0 <= read2 rg rn w tf.
Proof.
  intros. unfold read2. apply Rmult_le_pos; [|apply Rlt_le, Rinv_0_lt_compat; lra].
  apply Rmult_le_pos; [|apply Rlt_le, Rinv_0_lt_compat; lra]. apply Rmult_le_pos; auto. apply Rmult_le_pos; auto. apply pow2_ge_0.
Qed.
Lemma sum_over_le {A} (f g : A -> R) l : (forall a, In a l -> f a <= g a) -> sum_over f l <= sum_over g l.
Proof.
  induction l as [|a l IH]; intros H; cbn; [lra|]. assert (f a <= g a) by (apply H; cbn; auto).
  assert (sum_over f l <= sum_over g l) by (apply IH; intros; apply H; cbn; auto). lra.
Qed.
Lemma sum_over_ge_one {A} (f : A -> R) l a : (forall a, In a l -> 0 <= f a) -> In a l -> f a <= sum_over f l.
Proof.
  induction l as [|b l IH]; intros H I; [destruct I|]. cbn.
  assert (0 <= sum_over f l) by (apply sum_over_pos; intros; apply H; cbn; auto).
  assert (0 <= f b) by (apply H; cbn; auto).
  destruct I as [->|I]; [lra|]. specialize (IH (fun a I => H a (or_intror I)) I). lra.
Qed.

Lemma entry_at_det o c i x y : entry_at o c i x -> entry_at o c i y -> x = y.
Proof. intros (col & G & N) (col' & G' & N'). congruence. Qed.

Theorem C14_at_least_each_contribution t ch d n v out i c x total :
  describes ch d -> physical d -> (0 < n)%nat -> ch_custom ch = None ->
  holds t (ch_name ch) n (needed ++ signal_columns t) v -> frame_time_defined ch n v ->
  noise_in_channel t ch None = Ok out -> (i < n)%nat -> 0 < v "star_signal_inAperture"%string i ->
  (c = "darkcurrent_noise"%string \/ c = "read_noise"%string \/ exists k, In k (signal_columns t) /\ c = (k ++ "_noise")%string) ->
  entry_at out c i (Fin x) -> entry_at out "total_noise" i (Fin total) ->
  x / v "star_signal_inAperture"%string i <= total.
Proof.
  intros D PH N C H FD E I ST CC EX ET.
  destruct (C14_row_formula t ch d n v D PH N C H FD) as (out' & tf & E' & T & F). rewrite E in E'. injection E' as <-.
  destruct (F i I) as (_ & F1 & F2 & F3 & F4). specialize (F4 ST).
  pose proof (entry_at_det _ _ _ _ _ ET F4) as X. injection X as ->.
  destruct PH as (PW & PF & PQ & PM & PD & PR & PX).
  destruct (gains_pos (reads tf (d_freq d)) (d_M d) (reads_ge2 _ _) PM) as [RG SG].
  set (g := shot_gain (reads tf (d_freq d))) in *. set (rg := read_gain (reads tf (d_freq d)) (d_M d)) in *.
  assert (W : 0 <= v "WindowSize"%string i) by (apply (H "WindowSize"%string); cbn; auto).
  pose proof (dark2_pos g (v "WindowSize"%string i) (d_dark d) ltac:(lra) W PD) as P1.
  pose proof (read2_pos rg (d_read d) (v "WindowSize"%string i) tf ltac:(lra) W T) as P2.
  assert (P3 : forall k, In k (signal_columns t) -> 0 <= photon2 g (v k i)).
  { intros k J. apply photon2_pos; [lra|]. apply (H k); auto. apply in_app_iff; auto. }
  pose proof (sum_over_pos (fun k => photon2 g (v k i)) _ P3) as P4.
  unfold Rdiv. apply Rmult_le_compat_r; [apply Rlt_le, Rinv_0_lt_compat; auto|].
  set (S := sum_over (fun k => photon2 g (v k i)) (signal_columns t)) in *.
  assert (P5 : S <= (1 + d_X d) * S) by nra.
  destruct CC as [->|[->|(k & J & ->)]].
  - pose proof (entry_at_det _ _ _ _ _ EX F1) as X. injection X as ->. apply sqrt_le_1_alt. lra.
  - pose proof (entry_at_det _ _ _ _ _ EX F2) as X. injection X as ->. apply sqrt_le_1_alt. lra.
  - pose proof (entry_at_det _ _ _ _ _ EX (F3 k J)) as X. injection X as ->. apply sqrt_le_1_alt.
    pose proof (sum_over_ge_one _ _ k P3 J) as P6. fold S in P6. cbn beta in P6. lra.
Qed.
Print Assumptions C14_at_least_each_contribution.

(** At a given frame time the total grows with NoiseX, dark current, read noise, window size
    and every source signal. *)
Theorem C14_monotone t t' ch ch' d d' n v v' tf out out' i x x' :
  describes ch d -> describes ch' d' -> physical d -> physical d' ->
  d_freq d = d_freq d' -> d_M d = d_M d' -> d_X d <= d_X d' -> d_dark d <= d_dark d' -> d_read d <= d_read d' ->
  ch_custom ch = None -> ch_custom ch' = None ->
  0 < tf -> fixed_frame_time ch = Some (Fin tf) -> fixed_frame_time ch' = Some (Fin tf) ->
  holds t (ch_name ch) n (needed ++ signal_columns t) v -> holds t' (ch_name ch') n (needed ++ signal_columns t') v' ->
  signal_columns t = signal_columns t' ->
  (forall k, In k ("WindowSize"%string :: signal_columns t) -> v k i <= v' k i) ->
  v "star_signal_inAperture"%string i = v' "star_signal_inAperture"%string i -> 0 < v "star_signal_inAperture"%string i ->
  (i < n)%nat ->
  noise_in_channel t ch None = Ok out -> noise_in_channel t' ch' None = Ok out' ->
  entry_at out "total_noise" i (Fin x) -> entry_at out' "total_noise" i (Fin x') -> x <= x'.
Proof.
  intros D D' PH PH' EQ EM LX LD LR C C' T F F' H H' ES LV SE SP I E E' X X'.
  assert (N : (0 < n)%nat) by lia.
  destruct (C14_row_formula t ch d n v D PH N C H) as (o & tf1 & E1 & T1 & F1).
  { unfold frame_time_defined. rewrite F. eauto. }
  destruct (C14_row_formula t' ch' d' n v' D' PH' N C' H') as (o' & tf2 & E2 & T2 & F2).
  { unfold frame_time_defined. rewrite F'. eauto. }
  rewrite E in E1. injection E1 as <-. rewrite E' in E2. injection E2 as <-.
  destruct (F1 i I) as (A1 & _ & _ & _ & B1). destruct (F2 i I) as (A2 & _ & _ & _ & B2).
  destruct (C12_given_frame_time_used_unchanged t ch None d n v tf D PH N F T H) as (o & Q & Q').
  rewrite E in Q. injection Q as <-. pose proof (entry_at_det _ _ _ _ _ A1 (Q' i I)) as Z. injection Z as ->. clear Q'.
  destruct (C12_given_frame_time_used_unchanged t' ch' None d' n v' tf D' PH' N F' T H') as (o & Q & Q').
  rewrite E' in Q. injection Q as <-. pose proof (entry_at_det _ _ _ _ _ A2 (Q' i I)) as Z. injection Z as ->. clear Q'.
  specialize (B1 SP). rewrite SE in SP. specialize (B2 SP).
  pose proof (entry_at_det _ _ _ _ _ X B1) as Z. injection Z as ->.
  pose proof (entry_at_det _ _ _ _ _ X' B2) as Z. injection Z as ->.
  rewrite SE, <- ES, <- EQ, <- EM. unfold Rdiv. apply Rmult_le_compat_r; [apply Rlt_le, Rinv_0_lt_compat; auto|].
  apply sqrt_le_1_alt.
  destruct PH as (PW & PF & PQ & PM & PD & PR & PX).
  destruct (gains_pos (reads tf (d_freq d)) (d_M d) (reads_ge2 _ _) PM) as [RG SG].
  set (g := shot_gain (reads tf (d_freq d))) in *. set (rg := read_gain (reads tf (d_freq d)) (d_M d)) in *.
  assert (W : 0 <= v "WindowSize"%string i) by (apply (H "WindowSize"%string); cbn; auto).
  assert (LW : v "WindowSize"%string i <= v' "WindowSize"%string i) by (apply LV; cbn; auto).
  assert (H36 : 0 < / 3600) by (apply Rinv_0_lt_compat; lra). assert (HT : 0 < / tf) by (apply Rinv_0_lt_compat; lra).
  assert (L1 : dark2 g (v "WindowSize"%string i) (d_dark d) <= dark2 g (v' "WindowSize"%string i) (d_dark d')).
  { unfold dark2, Rdiv. apply Rmult_le_compat_r; [lra|]. apply Rmult_le_compat; try lra; [apply Rmult_le_pos; lra|].
    apply Rmult_le_compat_l; lra. }
  assert (L2 : read2 rg (d_read d) (v "WindowSize"%string i) tf <= read2 rg (d_read d') (v' "WindowSize"%string i) tf).
  { unfold read2, Rdiv. apply Rmult_le_compat_r; [lra|]. apply Rmult_le_compat_r; [lra|].
    apply Rmult_le_compat; try lra; [apply Rmult_le_pos; [lra|apply pow2_ge_0]|].
    apply Rmult_le_compat_l; [lra|]. apply pow_incr. lra. }
  assert (L3 : sum_over (fun k => photon2 g (v k i)) (signal_columns t) <= sum_over (fun k => photon2 g (v' k i)) (signal_columns t)).
  { apply sum_over_le. intros k J. unfold photon2, Rdiv. apply Rmult_le_compat_r; [lra|]. apply Rmult_le_compat_l; [lra|].
    apply LV. cbn; auto. }
  assert (L4 : 0 <= sum_over (fun k => photon2 g (v k i)) (signal_columns t)).
  { apply sum_over_pos. intros k J. apply photon2_pos; [lra|]. apply (H k); auto. apply in_app_iff; auto. }
  assert (L5 : (1 + d_X d) * sum_over (fun k => photon2 g (v k i)) (signal_columns t)
             <= (1 + d_X d') * sum_over (fun k => photon2 g (v' k i)) (signal_columns t)).
  { apply Rmult_le_compat; lra. }
  lra.
Qed.
Print Assumptions C14_monotone.

(** *** C15, C16: custom noise *)
Lemma base_nan_or_pos d sigs v tf n : 0 < tf -> physical d -> 
  (forall i, (i < n)%nat -> 0 <= v "star_signal_inAperture"%string i) ->
  Forall nan_or_pos (column n (fun i => if Req_EM_T (v "star_signal_inAperture"%string i) 0 then NaN else Fin (row_noise d sigs v tf i))).
Proof.
  intros T PH S. apply Forall_forall. intros b I. apply In_column in I as (i & L & ->).
  destruct (Req_EM_T _ 0); cbn; auto. unfold row_noise, total_noise. apply Rmult_le_pos; [apply sqrt_pos|].
  apply Rlt_le, Rinv_0_lt_compat. specialize (S i L). lra.
Qed.

Theorem C15_nan_exactly_without_star_signal t ch common d n v :
  describes ch d -> physical d -> (0 < n)%nat ->
  holds t (ch_name ch) n (needed ++ signal_columns t) v -> frame_time_defined ch n v ->
  Forall valid_entry (entries common) -> Forall valid_entry (entries (ch_custom ch)) ->
  exists out, noise_in_channel t ch common = Ok out /\
    forall i, (i < n)%nat ->
      (v "star_signal_inAperture"%string i = 0 -> entry_at out "total_noise" i NaN) /\
      (v "star_signal_inAperture"%string i <> 0 -> exists x, 0 <= x /\ entry_at out "total_noise" i (Fin x)).
Proof.
  intros D PH N H FD V1 V2.
  destruct (channel_run t ch common d n v D PH N H FD) as (tf & out0 & T & _ & E & _).
  eexists. split; [exact E|]. intros i I.
  assert (B : Forall nan_or_pos (column n (fun i => if Req_EM_T (v "star_signal_inAperture"%string i) 0 then NaN else Fin (row_noise d (signal_columns t) v tf i)))).
  { apply base_nan_or_pos; auto. intros j J. apply (H "star_signal_inAperture"%string); cbn; auto. }
  set (f := fun i => if Req_EM_T (v "star_signal_inAperture"%string i) 0 then NaN else Fin (row_noise d (signal_columns t) v tf i)) in *.
  pose proof (try_custom_total common n (sset "total_noise" (column n f) out0) (column n f) V1 (dget_dset_same _ String_eqb_spec _ _ _) (column_length _ _) B) as G1.
  assert (B1 : Forall nan_or_pos (map (fun b => quadrature b (ppm2 (in_effect (entries common)))) (column n f))).
  { rewrite Forall_map. eapply Forall_impl; [|exact B]. intros b. apply quadrature_nan_or_pos. }
  pose proof (try_custom_total (ch_custom ch) n _ _ V2 G1 ltac:(rewrite map_length; apply column_length) B1) as G2.
  rewrite !map_column in G2.
  assert (FI : nth_error (column n f) i = Some (f i)) by (apply nth_column; auto).
  unfold f in G2. split; intros Z.
  - eexists. split; [exact G2|]. rewrite nth_column by auto. destruct (Req_EM_T _ 0); [|contradiction]. reflexivity.
  - eexists. split; [|eexists; split; [exact G2|]]; [|rewrite nth_column by auto; destruct (Req_EM_T _ 0); [contradiction|]; reflexivity].
    apply sqrt_pos.
Qed.
Print Assumptions C15_nan_exactly_without_star_signal.

Lemma noise_without_custom t ch common out0 base n wl :
  noise_in_channel t (with_custom ch None) None = Ok out0 -> sget "total_noise" out0 = Some base ->
  select_num (ch_name ch) "Wavelength" t = Ok wl -> length wl = n ->
  noise_in_channel t ch common = Ok (try_custom (ch_custom ch) n (try_custom common n out0)).
Proof.
  intros E G W L. unfold noise_in_channel in *. unfold frame_time, multiaccum in *.
  cbn [with_custom ch_name fixed_frame_time f_well_depth well_depth freqNDR multiaccumM dark_current M_Noise.read_noise noiseX ch_custom] in E.
  repeat match type of E with
  | bind ?r _ = Ok _ => destruct r as [?|]; cbn [bind] in E |- *; [|discriminate]
  | (let (_, _) := ?p in _) = Ok _ => destruct p
  end.
  injection W as ->. rewrite L in *. injection E as <-. reflexivity.
Qed.

(** Custom noise on top of the noise [base] without it: the contributions in effect add in
    quadrature. *)
Theorem C16_quadrature t ch common out0 base wl :
  noise_in_channel t (with_custom ch None) None = Ok out0 -> sget "total_noise" out0 = Some base ->
  select_num (ch_name ch) "Wavelength" t = Ok wl -> length base = length wl ->
  (forall b, In b base -> b = NaN \/ exists r, 0 <= r /\ b = Fin r) ->
  Forall valid_entry (entries common) -> Forall valid_entry (entries (ch_custom ch)) ->
  exists out total, noise_in_channel t ch common = Ok out /\ sget "total_noise" out = Some total /\
    length total = length base /\
    forall i b, nth_error base i = Some b ->
      nth_error total i = Some (quadrature b (ppm2 (in_effect (entries common)) + ppm2 (in_effect (entries (ch_custom ch))))).
Proof.
  intros E G W L B V1 V2.
  rewrite (noise_without_custom t ch common out0 base _ wl E G W eq_refl).
  assert (F : Forall nan_or_pos base).
  { apply Forall_forall. intros b I. destruct (B b I) as [->|(r & P & ->)]; cbn; auto. }
  pose proof (try_custom_total common _ out0 base V1 G L F) as G1.
  assert (F1 : Forall nan_or_pos (map (fun b => quadrature b (ppm2 (in_effect (entries common)))) base)).
  { rewrite Forall_map. eapply Forall_impl; [|exact F]. intros b. apply quadrature_nan_or_pos. }
  pose proof (try_custom_total (ch_custom ch) _ _ _ V2 G1 ltac:(rewrite map_length; exact L) F1) as G2.
  eexists _, _. split; [reflexivity|]. split; [exact G2|]. split; [rewrite !map_length; auto|].
  intros i b N. rewrite !nth_error_map, N. cbn [option_map]. rewrite quadrature_quadrature by apply ppm2_pos. reflexivity.
Qed.
Print Assumptions C16_quadrature.

Lemma nth_ext' {A} : forall l l' : list A, (forall i, nth_error l i = nth_error l' i) -> l = l'.
Proof.
  induction l as [|a l IH]; intros [|b l'] H; auto; try (specialize (H 0%nat); discriminate).
  pose proof (H 0%nat) as H0. injection H0 as ->. f_equal. apply IH. intros i. apply (H (S i)).
Qed.
Lemma sum_over_perm {A} (f : A -> R) l l' : Permutation l l' -> sum_over f l = sum_over f l'.
Proof. induction 1; cbn; lra. Qed.
(** Order and nesting do not matter, and the total never decreases. *)
Theorem C16_order_irrelevant t ch ch' common common' out0 base wl :
  noise_in_channel t (with_custom ch None) None = Ok out0 -> sget "total_noise" out0 = Some base ->
  select_num (ch_name ch) "Wavelength" t = Ok wl -> length base = length wl ->
  (forall b, In b base -> b = NaN \/ exists r, 0 <= r /\ b = Fin r) ->
  ch' = with_custom ch (ch_custom ch') ->
  Forall valid_entry (entries common) -> Forall valid_entry (entries (ch_custom ch)) ->
  Forall valid_entry (entries common') -> Forall valid_entry (entries (ch_custom ch')) ->
  Permutation (in_effect (entries common) ++ in_effect (entries (ch_custom ch)))
              (in_effect (entries common') ++ in_effect (entries (ch_custom ch'))) ->
  exists out out' total, noise_in_channel t ch common = Ok out /\ noise_in_channel t ch' common' = Ok out' /\
    sget "total_noise" out = Some total /\ sget "total_noise" out' = Some total /\
    forall i r, nth_error base i = Some (Fin r) -> exists r', nth_error total i = Some (Fin r') /\ r <= r'.
Proof.
  intros E G W L B EC V1 V2 V3 V4 P.
  destruct (C16_quadrature t ch common out0 base wl E G W L B V1 V2) as (o & tot & E1 & G1 & L1 & N1).
  assert (EN : ch_name ch' = ch_name ch) by (rewrite EC; reflexivity).
  assert (EE : with_custom ch' None = with_custom ch None) by (rewrite EC; reflexivity).
  destruct (C16_quadrature t ch' common' out0 base wl) as (o' & tot' & E2 & G2 & L2 & N2); auto; try congruence.
  exists o, o', tot. split; auto. split; auto. split; auto.
  assert (ET : tot' = tot).
  {
    assert (EP : ppm2 (in_effect (entries common) ++ in_effect (entries (ch_custom ch)))
            = ppm2 (in_effect (entries common') ++ in_effect (entries (ch_custom ch')))) by (apply sum_over_perm; auto).
    apply nth_ext'. intros i. destruct (nth_error base i) as [b|] eqn:NB.
    - rewrite (N2 i b) by auto. rewrite (N1 i b) by auto. rewrite <- !ppm2_app, EP. reflexivity.
    - apply nth_error_None in NB. rewrite !(proj2 (nth_error_None _ _)) by lia. reflexivity. }
  rewrite ET in G2. split; auto. intros i r N. rewrite (N1 i _ N). cbn [quadrature]. eexists. split; [reflexivity|].
  destruct (B (Fin r)) as [X|(r' & P' & X)]; [eapply nth_error_In; eauto|discriminate|]. injection X as <-.
  rewrite <- (sqrt_pow2 r) at 1 by auto. apply sqrt_le_1_alt.
  pose proof (ppm2_pos (in_effect (entries common))). pose proof (ppm2_pos (in_effect (entries (ch_custom ch)))). lra.
Qed.
Print Assumptions C16_order_irrelevant.

(** An entry without name or value discards itself and the rest of its section. *)
Lemma add_entries_incomplete pre bad post n out : (e_name bad = None \/ e_value bad = None) ->
  fst (add_entries (pre ++ bad :: post) n out) = fst (add_entries pre n out).
Proof.
  intros B. revert out. induction pre as [|e pre IH]; intros out; cbn [app add_entries fst].
  - assert (X : exists err, add_entry bad n out = (out, Err err)).
    { unfold add_entry. destruct B as [-> | ->]; [destruct (e_value bad); eauto|destruct (e_name bad); eauto]. }
    destruct X as [err ->]. reflexivity.
  - destruct (add_entry e n out) as [o [u|er]]; auto.
Qed.
Theorem C16_incomplete_entry_discards_the_rest t ch pre bad post common :
  (e_name bad = None \/ e_value bad = None) ->
  noise_in_channel t (with_custom ch (Some (Many (pre ++ bad :: post)))) common
  = noise_in_channel t (with_custom ch (Some (Many pre))) common /\
  noise_in_channel t ch (Some (Many (pre ++ bad :: post))) = noise_in_channel t ch (Some (Many pre)).
Proof.
  intros B.
  assert (K : forall n out, try_custom (Some (Many (pre ++ bad :: post))) n out = try_custom (Some (Many pre)) n out).
  { intros n out. cbn [try_custom]. rewrite !add_custom_entries. cbn [entries]. apply add_entries_incomplete; auto. }
  split.
  - unfold noise_in_channel, frame_time, multiaccum.
    cbn [with_custom ch_name fixed_frame_time f_well_depth well_depth freqNDR multiaccumM dark_current M_Noise.read_noise noiseX ch_custom].
    repeat match goal with
    | |- bind ?r _ = _ => destruct r as [?|]; cbn [bind]; [|reflexivity]
    | |- (let (_, _) := ?p in _) = _ => destruct p
    end. rewrite K. reflexivity.
  - unfold noise_in_channel.
    repeat match goal with
    | |- bind ?r _ = _ => destruct r as [?|]; cbn [bind]; [|reflexivity]
    | |- (let (_, _) := ?p in _) = _ => destruct p
    end. rewrite K. reflexivity.
Qed.
Print Assumptions C16_incomplete_entry_discards_the_rest.

(** A contribution called "total" replaces the total noise instead of adding to it. *)
Theorem C16_contribution_named_total_overwrites t ch out0 base wl x :
  noise_in_channel t (with_custom ch None) None = Ok out0 -> sget "total_noise" out0 = Some base ->
  select_num (ch_name ch) "Wavelength" t = Ok wl ->
  ch_custom ch = Some (One {| e_name := Some "total"%string; e_value := Some (Fin x) |}) ->
  exists out, noise_in_channel t ch None = Ok out /\
    forall i, (i < length wl)%nat -> entry_at out "total_noise" i (Fin (sqrt (2 * (x / 1000000) ^ 2))).
Proof.
  intros E G W C. rewrite (noise_without_custom t ch None out0 base _ wl E G W eq_refl). rewrite C.
  eexists. split; [reflexivity|]. intros i I. cbn [try_custom add_custom add_entry e_name e_value fst].
  change (noise_key "total") with "total_noise"%string.
  rewrite (dget_dset_same _ String_eqb_spec). cbn [fst].
  eexists. rewrite (dget_dset_same _ String_eqb_spec). split; [reflexivity|].
  pose proof (zip_repeat (fun t c : xr => xsqrt (xadd (xmul t t) (xmul c c))) (repeat (xmul (Fin x) ppm) (length wl)) (xmul (Fin x) ppm)) as Z.
  rewrite repeat_length in Z. rewrite Z, map_repeat, nth_error_repeat by auto. f_equal.
  unfold ppm. cbn [xmul xadd]. rewrite xsqrt_fin by nra. f_equal. f_equal. unfold Rdiv. ring.
Qed.
Print Assumptions C16_contribution_named_total_overwrites.

(** *** C17: alignment *)
Lemma select_length t name key c N : rows_are N t -> select name key t = Ok c ->
  exists col, sget "chName" t = Some col /\ length c = length (filter (is_name name) col).
Proof.
  intros R. unfold select. destruct (sget key t) as [k|] eqn:K; [|discriminate]. destruct (sget "chName" t) as [n|] eqn:C; [|discriminate].
  intros [= <-]. exists n. split; auto. rewrite map_length.
  assert (LK : length k = N) by (eapply R; apply sget_In; eauto).
  assert (LN : length n = N) by (eapply R; apply sget_In; eauto).
  assert (L : length k = length n) by lia. clear - L. revert n L. induction k as [|a k IH]; intros [|b n]; cbn; try discriminate; auto.
  intros [= L]. destruct (is_name name b); cbn; auto.
Qed.
Lemma select_num_length t name key s N : rows_are N t -> select_num name key t = Ok s ->
  exists col, sget "chName" t = Some col /\ length s = length (filter (is_name name) col).
Proof.
  intros R. unfold select_num. destruct (select name key t) as [c|] eqn:S; cbn; [|discriminate]. intros M.
  apply mapM_Ok_length in M. destruct (select_length _ _ _ _ _ R S) as (col & C & L). exists col. split; auto. lia.
Qed.
Lemma to_table_get o c : sget c (to_table o) = option_map (map Num) (sget c o).
Proof. unfold to_table. induction o as [|[k v] o IH]; cbn; auto. destruct (String.eqb c k); auto. Qed.
Lemma to_table_names o : names (to_table o) = map fst o.
Proof. unfold names, to_table. rewrite map_map. reflexivity. Qed.
Lemma to_table_ok n o c : good n o -> sget c o <> None -> (0 < n)%nat -> ok_table (to_table o) /\ n_rows (to_table o) = n.
Proof.
  intros [ND L] NE P. destruct o as [|[k v] o]; [cbn in NE; congruence|].
  assert (R : n_rows (to_table ((k, v) :: o)) = n) by (cbn; rewrite map_length; apply (L k); cbn; auto).
  split; [|auto]. split; [split|].
  - rewrite to_table_names. auto.
  - intros c' col I. rewrite R. unfold to_table in I. apply in_map_iff in I as ([k' v'] & E & I). injection E as <- <-.
    cbn [snd]. rewrite map_length. eapply L; eauto.
  - lia.
Qed.
Lemma add_columns_length cs : forall acc m, add_columns acc cs = Ok m -> length m = length acc.
Proof.
  induction cs as [|c cs IH]; intros acc m; cbn; [intros [= <-]; auto|]. unfold add_column.
  destruct (Nat.eqb_spec (length acc) (length c)) as [L|]; cbn; [|discriminate].
  destruct (mapM _ _) as [a|] eqn:M; cbn; [|discriminate]. intros E. rewrite (IH _ _ E). apply mapM_Ok_length in M.
  rewrite combine_length in M. lia.
Qed.
Lemma max_signal_inv t t1 N : NoDup (names (cols t)) -> rows_are N (cols t) -> estimate_max_signal t = Ok t1 ->
  NoDup (names (cols t1)) /\ rows_are N (cols t1) /\
  forall c, c <> "MaxSignal_inPixel"%string -> sget c (cols t1) = sget c (cols t).
Proof.
  intros ND R E. unfold estimate_max_signal in E. destruct (sget "Wavelength" (cols t)) as [wl|] eqn:W; [|discriminate].
  destruct (add_columns _ _) as [m|] eqn:A; cbn [bind] in E; [|discriminate]. injection E as <-.
  apply add_columns_length in A. rewrite repeat_length in A.
  assert (LW : length wl = N) by (eapply R; apply sget_In; eauto).
  destruct (C09_update_replaces_exactly_the_new_columns t {| cols := [("MaxSignal_inPixel"%string, m)]; meta := [] |} N ND)
    as (_ & A1 & A2 & A3 & _); auto.
  - cbn. repeat constructor. intros [].
  - intros c col [[= <- <-]|[]]. lia.
  - split; auto. split; auto. intros c NE. cbn [cols] in A3. rewrite A3. cbn.
    destruct (String.eqb_spec c "MaxSignal_inPixel"); [contradiction|auto].
Qed.

Lemma estimate_noise_inv_full target chans sizes N r :
  NoDup (names (cols target)) -> rows_are N (cols target) -> length sizes = length chans -> chans <> [] ->
  NoDup (map (fun ch => ch_name (fst ch)) chans) ->
  sget "chName" (cols target)
    = Some (concat (map (fun p => repeat (Txt (ch_name (fst (fst p)))) (snd p)) (combine chans sizes))) ->
  estimate_noise target chans = Ok r ->
  exists t1 new, estimate_max_signal target = Ok t1 /\
    (cols r = filter (fun x => negb (smem (fst x) new)) (cols t1) ++ new /\ rows_are N (cols r) /\ NoDup (names (cols r)) /\
     (forall c, In c (names new) -> out_key c) /\ rows_are N new /\ NoDup (names new) /\
     exists outs ins, mapM (fun ch => noise_in_channel (cols t1) (fst ch) (snd ch)) chans = Ok outs /\ vstack_tables (map to_table outs) = Ok (ins, Some new)
       /\ Forall ok_table (map to_table outs)) /\
    (forall c, c <> "saturation_time"%string -> c <> "frameTime"%string -> (forall m, c <> (m ++ "_noise")%string) ->
       sget c (cols r) = sget c (cols t1)) /\
    forall ch common, In (ch, common) chans ->
      exists out, noise_in_channel (cols t1) ch common = Ok out /\
        (forall c col, sget c out = Some col -> select (ch_name ch) c (cols r) = Ok (map Num col)) /\
        forall c, In c (names new) -> sget c out = None -> exists z n, select (ch_name ch) c (cols r) = Ok (repeat z n) /\ (z = Num (Fin 0) \/ z = Num NaN).
Proof.
  intros ND R LS NE NDC CH E. unfold estimate_noise in E.
  destruct (estimate_max_signal target) as [t1|] eqn:EM; cbn [bind] in E; [|discriminate].
  destruct (max_signal_inv target t1 N ND R EM) as (ND1 & R1 & G1).
  destruct (mapM _ chans) as [outs|] eqn:MO0; cbn [bind] in E; [|discriminate].
  pose proof (proj1 (mapM_Ok_Forall2 _ _ _) MO0) as MO.
  destruct (vstack_tables (map to_table outs)) as [[ins [new|]]|] eqn:VS; cbn [bind] in E; try discriminate.
  injection E as <-. exists t1, new. split; auto.
  assert (CH1 : sget "chName" (cols t1) = Some (concat (map (fun p => repeat (Txt (ch_name (fst (fst p)))) (snd p)) (combine chans sizes)))).
  { rewrite G1 by discriminate. auto. }
  set (big := concat (map (fun p => repeat (Txt (ch_name (fst (fst p)))) (snd p)) (combine chans sizes))) in *.
  (* rows of channels *)
  assert (CNT : forall k ch s, nth_error chans k = Some ch -> nth_error sizes k = Some s ->
     length (filter (is_name (ch_name (fst ch))) big) = s).
  { unfold big. clear - NDC LS.
    assert (ZERO : forall name (chans : list (channel * option custom)) (sizes : list nat), ~ In name (map (fun ch => ch_name (fst ch)) chans) ->
      length (filter (is_name name) (concat (map (fun p => repeat (Txt (ch_name (fst (fst (p : channel * option custom * nat))))) (snd p)) (combine chans sizes)))) = 0%nat).
    { clear. intros name. induction chans as [|ch chans IH]; intros [|s sizes] NI; cbn; auto.
      rewrite filter_app, app_length, IH by (cbn in NI; tauto). rewrite filter_none; auto.
      intros x I. apply repeat_spec in I. subst x. cbn. apply String.eqb_neq. intros X. apply NI. cbn; auto. }
    revert sizes LS NDC. induction chans as [|ch chans IH]; intros [|s sizes] LS NDC k c s' K S; try (destruct k; discriminate).
    cbn in LS. injection LS as LS. cbn in NDC. inversion NDC as [|? ? NI ND']; subst.
    cbn [combine map concat]. rewrite filter_app, app_length. cbn [fst snd].
    destruct k as [|k].
    - cbn in K, S. injection K as <-. injection S as <-. rewrite ZERO by auto. rewrite filter_all; [rewrite repeat_length; lia|].
      intros x I. apply repeat_spec in I. subst x. cbn. apply String.eqb_refl.
    - cbn in K, S. rewrite (IH sizes LS ND' k c s' K S). rewrite filter_none; auto.
      intros x I. apply repeat_spec in I. subst x. cbn. apply String.eqb_neq. intros X. apply NI.
      rewrite X. apply in_map_iff. exists c. split; auto. eapply nth_error_In; eauto. }
  assert (GOOD : Forall2 (fun ch (on : ntable * nat) => noise_in_channel (cols t1) (fst ch) (snd ch) = Ok (fst on) /\
      good (snd on) (fst on) /\ sget "total_noise" (fst on) <> None /\ (0 < snd on)%nat) chans (combine outs sizes)).
  { clear VS. assert (CNT' : forall k ch s, nth_error chans k = Some ch -> nth_error sizes k = Some s ->
       forall key x, select_num (ch_name (fst ch)) key (cols t1) = Ok x -> length x = s).
    { intros k ch s K S key x X. destruct (select_num_length _ _ _ _ _ R1 X) as (col & C & L). rewrite CH1 in C. injection C as <-.
      rewrite L. eapply CNT; eauto. }
    clear - CNT' MO LS. revert sizes LS CNT'. induction MO as [|ch out chans outs H MO IH]; intros [|s sizes] LS CNT'; cbn in LS; try discriminate; cbn; constructor.
    - cbn [fst snd]. split; auto. eapply noise_in_channel_good; eauto. apply (CNT' 0%nat ch s eq_refl eq_refl).
    - injection LS as LS. apply IH; auto. intros k c s' K S0. apply (CNT' (S k) c s' K S0). }
  assert (LO : length outs = length sizes) by (apply Forall2_len in MO; lia).
  set (named := map (fun p => (ch_name (fst (fst p)), to_table (fst (snd p)))) (combine chans (combine outs sizes))).
  assert (SND : map snd named = map to_table outs).
  { unfold named. clear - LO LS. revert outs sizes LO LS. induction chans as [|c chans IH]; intros [|o outs] [|s sizes] L1 L2; cbn in *; try lia; auto.
    f_equal. apply IH; lia. }
  assert (FST : map fst named = map (fun ch => ch_name (fst ch)) chans).
  { unfold named. clear - LO LS. revert outs sizes LO LS. induction chans as [|c chans IH]; intros [|o outs] [|s sizes] L1 L2; cbn in *; try lia; auto.
    f_equal. apply IH; lia. }
  assert (OKN : Forall (fun x => ok_table (snd x)) named /\
     big = concat (map (fun x => repeat (Txt (fst x)) (n_rows (snd x))) named)).
  { unfold named, big. clear - GOOD LO LS. revert outs sizes LO LS GOOD.
    induction chans as [|c chans IH]; intros [|o outs] [|s sizes] L1 L2 G; cbn [combine map concat length fst snd] in *; try lia; auto.
    inversion G as [|? ? ? ? [G1 [G2 [G3 G4]]] G']; subst. cbn [fst snd] in *. destruct (IH outs sizes) as [A B]; auto.
    destruct (to_table_ok s o _ G2 G3 G4) as [O1 O2]. split; [constructor; auto|]. rewrite B, O2. reflexivity. }
  destruct OKN as [OKN BIG].
  assert (OKT : Forall ok_table (map to_table outs)) by (rewrite <- SND, Forall_map; auto).
  assert (NEO : map to_table outs <> []) by (destruct outs; [|discriminate]; destruct chans; [contradiction|]; inversion MO).
  destruct (vstack_spec _ _ _ OKT NEO VS) as (new' & X & ST & _).
  injection X as <-.
  assert (KEY : forall c, In c (names new) -> out_key c).
  { intros c I. apply (stacked_names_In _ _ _ ST) in I as (u & I & S). apply in_map_iff in I as (o & <- & I).
    rewrite to_table_get in S. destruct (sget c o) as [v|] eqn:GV; [|cbn in S; congruence].
    apply (dget_Some_In _ String_eqb_spec) in GV.
    assert (GO : exists n, good n o).
    { clear - GOOD LO LS I. revert outs sizes LO LS GOOD I. induction chans as [|ch chans IH]; intros [|o' outs] [|s sizes] L1 L2 G I; cbn in *; try lia; try destruct I.
      - subst. inversion G as [|? ? ? ? [G1 [G2 _]] G']; subst. cbn in G2. eauto.
      - inversion G; subst. eapply (IH outs sizes); eauto. }
    destruct GO as [n [_ L]]. eapply L; eauto. }
  assert (LBIG : length big = N) by (eapply R1; apply sget_In; eauto).
  assert (RN : rows_are N new).
  { intros c col I. assert (IN : In c (names new)) by (apply in_map_iff; exists (c, col); auto).
    destruct ST as [NM C]. destruct (C c IN) as (z & G & _).
    assert (NDN : NoDup (names new)) by (rewrite NM; apply firsts_NoDup; apply String_eqb_spec).
    rewrite (In_sget c new col NDN I) in G. injection G as ->.
    rewrite <- LBIG, BIG. rewrite <- SND.
    clear - OKN. induction named as [|x l IH]; cbn; auto. inversion OKN as [|? ? O O']; subst. rewrite !app_length, IH by auto.
    rewrite repeat_length. f_equal. apply block_length. apply O. }
  assert (NDN : NoDup (names new)) by (destruct ST as [NM _]; rewrite NM; apply firsts_NoDup; apply String_eqb_spec).
  destruct (C09_update_replaces_exactly_the_new_columns t1 {| cols := new; meta := [] |} N ND1 NDN R1 RN) as (_ & UND & UR & UG & _).
  cbn [cols] in UG. split; [split; [apply (update_cols t1 {| cols := new; meta := [] |} N); auto|split; [|split; [|split; [|split; [|split]]]]]; auto; exists outs, ins; auto|]. split.
  - intros c N1 N2 N3. rewrite UG. destruct (sget c new) as [col|] eqn:G; auto. exfalso.
    assert (IN : In c (names new)) by (apply in_map_iff; exists (c, col); split; auto; apply sget_In; auto).
    destruct (KEY c IN) as [|[|[m M]]]; [contradiction|contradiction|]. apply (N3 m). exact M.
  - intros ch common I. apply In_nth_error in I as [k K].
    destruct (nth_error outs k) as [out|] eqn:KO.
    2: { apply nth_error_None in KO. assert (nth_error chans k <> None) by congruence. apply nth_error_Some in H. apply Forall2_len in MO. lia. }
    assert (NO : noise_in_channel (cols t1) ch common = Ok out).
    { clear - MO K KO. revert k K KO. induction MO as [|c o chans outs H MO IH]; intros [|k] K KO; cbn in *; try discriminate.
      - injection K as ->. injection KO as ->. exact H.
      - eapply IH; eauto. }
    exists out. split; auto.
    assert (IN : In (ch_name ch, to_table out) named).
    { unfold named. clear - K KO LO LS. revert k outs sizes K KO LO LS. induction chans as [|c0 chans IH]; intros [|k] [|o outs] [|s sizes] K KO LO LS; cbn in *; try discriminate; try lia.
      - injection K as ->. injection KO as ->. cbn. auto.
      - right. eapply IH; eauto. }
    assert (NCH : sget "chName" new = None).
    { destruct (sget "chName" new) as [x|] eqn:X; auto. exfalso.
      assert (J : In "chName"%string (names new)) by (apply in_map_iff; exists ("chName"%string, x); split; auto; apply sget_In; auto).
      destruct (KEY _ J) as [J1|[J1|[m J1]]]; try discriminate. revert J1. apply not_noise_key. reflexivity. }
    split; [intros c col G|intros c INC G].
    2: { pose proof ST as [_ C]. destruct (C c INC) as (z & GZ & ZL).
         destruct ZL as (v & (pre & u & post & rest & EP & _ & GU) & Z).
         { exists (to_table out). split; [apply in_map; eapply nth_error_In; eauto|]. rewrite to_table_get, G. reflexivity. }
         assert (IU : In u (map to_table outs)) by (rewrite EP; apply in_app_iff; right; now left).
         apply in_map_iff in IU as (o & <- & _). rewrite to_table_get in GU. destruct (sget c o) as [[|x l]|]; cbn in GU; try discriminate. injection GU as <- _.
         exists z, (n_rows (to_table out)). split; [|inversion Z; auto].
         unfold select. rewrite !UG, GZ, NCH, CH1, BIG, <- SND. f_equal.
         rewrite (select_blocks named (ch_name ch) z c OKN ltac:(rewrite FST; auto) (to_table out) IN).
         unfold block. rewrite to_table_get, G. reflexivity. }
    assert (INC : In c (names new)).
    { apply (stacked_names_In _ _ _ ST). exists (to_table out). split; [apply in_map; eapply nth_error_In; eauto|].
      rewrite to_table_get, G. discriminate. }
    destruct ST as [_ C]. destruct (C c INC) as (z & GZ & _).
    unfold select. rewrite !UG, GZ.
    rewrite NCH, CH1, BIG, <- SND. f_equal.
    rewrite (select_blocks named (ch_name ch) z c OKN ltac:(rewrite FST; auto) (to_table out) IN).
    unfold block. rewrite to_table_get, G. reflexivity.
Qed.

Lemma estimate_noise_inv target chans sizes N r :
  NoDup (names (cols target)) -> rows_are N (cols target) -> length sizes = length chans -> chans <> [] ->
  NoDup (map (fun ch => ch_name (fst ch)) chans) ->
  sget "chName" (cols target)
    = Some (concat (map (fun p => repeat (Txt (ch_name (fst (fst p)))) (snd p)) (combine chans sizes))) ->
  estimate_noise target chans = Ok r ->
  exists t1 new, estimate_max_signal target = Ok t1 /\
    (cols r = filter (fun x => negb (smem (fst x) new)) (cols t1) ++ new /\ rows_are N (cols r) /\ NoDup (names (cols r)) /\
     (forall c, In c (names new) -> out_key c)) /\
    (forall c, c <> "saturation_time"%string -> c <> "frameTime"%string -> (forall m, c <> (m ++ "_noise")%string) ->
       sget c (cols r) = sget c (cols t1)) /\
    forall ch common, In (ch, common) chans ->
      exists out, noise_in_channel (cols t1) ch common = Ok out /\
        forall c col, sget c out = Some col -> select (ch_name ch) c (cols r) = Ok (map Num col).
Proof.
  intros ND R LS NE NDC CH E. destruct (estimate_noise_inv_full target chans sizes N r ND R LS NE NDC CH E) as (t1 & new & A & (B1 & B2 & B3 & B4 & _) & C1 & C2). exists t1, new. split; [auto|]. split; [auto|]. split; [exact C1|]. intros ch common I. destruct (C2 ch common I) as (out & D1 & D2 & _). eauto.
Qed.

(** The rows of each channel in the result hold the noise computed for that channel; all
    other columns are those of the input (with the maximum signal added). *)
Theorem C17_rows_aligned target chans sizes N r :
  NoDup (names (cols target)) -> rows_are N (cols target) -> length sizes = length chans -> chans <> [] ->
  NoDup (map (fun ch => ch_name (fst ch)) chans) ->
  sget "chName" (cols target)
    = Some (concat (map (fun p => repeat (Txt (ch_name (fst (fst p)))) (snd p)) (combine chans sizes))) ->
  estimate_noise target chans = Ok r ->
  exists t1, estimate_max_signal target = Ok t1 /\
    (forall c, c <> "saturation_time"%string -> c <> "frameTime"%string -> (forall m, c <> (m ++ "_noise")%string) ->
       sget c (cols r) = sget c (cols t1)) /\
    forall ch common, In (ch, common) chans ->
      exists out, noise_in_channel (cols t1) ch common = Ok out /\
        forall c col, sget c out = Some col -> select (ch_name ch) c (cols r) = Ok (map Num col).
Proof.
  intros ND R LS NE NDC CH E.
  destruct (estimate_noise_inv target chans sizes N r ND R LS NE NDC CH E) as (t1 & new & A & _ & B). eauto.
Qed.
Print Assumptions C17_rows_aligned.

(** The noise of a channel depends on the rows of that channel only. *)
Theorem C17_depends_on_own_rows_only t t' ch common :
  names t = names t' -> (forall key, select (ch_name ch) key t = select (ch_name ch) key t') ->
  noise_in_channel t ch common = noise_in_channel t' ch common.
Proof.
  intros NM SE.
  assert (SN : forall key, select_num (ch_name ch) key t = select_num (ch_name ch) key t').
  { intros key. unfold select_num. rewrite SE. reflexivity. }
  assert (SK : signal_keys t = signal_keys t') by (unfold signal_keys; rewrite NM; auto).
  assert (PN : forall g keys out, photon_noise t (ch_name ch) g keys out = photon_noise t' (ch_name ch) g keys out).
  { intros g keys. induction keys as [|k keys IH]; intros out; cbn; auto. rewrite SN. destruct (select_num _ _ _); cbn; auto. }
  unfold noise_in_channel, frame_time. rewrite !SN, SK.
  repeat match goal with
    | |- bind ?r _ = _ => destruct r as [?|]; cbn [bind]; [|reflexivity]
    | |- (let (_, _) := ?p in _) = _ => destruct p
    | |- _ => rewrite PN
    end.
  all: reflexivity.
Qed.
Print Assumptions C17_depends_on_own_rows_only.

(** Estimating succeeds as soon as it does for the maximum signal and for every channel. *)
Theorem C17_estimate_succeeds target chans N t1 :
  NoDup (names (cols target)) -> rows_are N (cols target) -> chans <> [] ->
  estimate_max_signal target = Ok t1 ->
  (forall ch common, In (ch, common) chans -> exists out, noise_in_channel (cols t1) ch common = Ok out) ->
  exists r, estimate_noise target chans = Ok r.
Proof.
  intros ND R NE EM H. unfold estimate_noise. rewrite EM. cbn [bind].
  assert (MO : exists outs, mapM (fun ch => noise_in_channel (cols t1) (fst ch) (snd ch)) chans = Ok outs).
  { clear - H. induction chans as [|[ch co] chans IH]; cbn; [eauto|].
    destruct (H ch co (or_introl eq_refl)) as [o ->]. cbn. destruct IH as [os ->]; [intros; apply H; cbn; auto|]. cbn. eauto. }
  destruct MO as [outs MO]. rewrite MO. cbn [bind]. apply mapM_Ok_Forall2 in MO.
  destruct (max_signal_inv target t1 N ND R EM) as (ND1 & R1 & _).
  assert (OKT : Forall ok_table (map to_table outs)).
  { rewrite Forall_map. apply Forall_forall. intros o I.
    assert (X : exists ch, noise_in_channel (cols t1) (fst ch) (snd ch) = Ok o).
    { clear - MO I. induction MO as [|c o' cs os E MO IH]; [destruct I|]. destruct I as [->|I]; eauto. }
    destruct X as [ch E].
    destruct (noise_in_channel_good (cols t1) (fst ch) (snd ch) o) with (n := length (filter (is_name (ch_name (fst ch))) (match sget "chName" (cols t1) with Some c => c | None => [] end))) as (G & T & P); auto.
    - intros k s S. destruct (select_num_length _ _ _ _ _ R1 S) as (col & C & L). rewrite C. auto.
    - eapply to_table_ok; eauto. }
  assert (FL : fillable (map to_table outs)).
  { intros t u c s rest I J G. apply in_map_iff in I as (o & <- & I). rewrite to_table_get in G.
    destruct (sget c o) as [[|x l]|]; cbn in G; discriminate. }
  destruct (vstack_ok _ OKT FL) as [[ins r] VS]. rewrite VS. cbn [bind].
  assert (NEO : map to_table outs <> []) by (destruct outs; [|discriminate]; destruct chans; [contradiction|]; inversion MO).
  destruct (vstack_spec _ _ _ OKT NEO VS) as (new & -> & _). eauto.
Qed.
Print Assumptions C17_estimate_succeeds.

(** *** C18 *)
(** Only the sum of the signals of a row matters. *)
Lemma total_by_sums d sigs sigs' v v' tf i :
  v "WindowSize"%string i = v' "WindowSize"%string i ->
  v "star_signal_inAperture"%string i = v' "star_signal_inAperture"%string i ->
  sum_over (fun k => v k i) sigs = sum_over (fun k => v' k i) sigs' ->
  row_noise d sigs v tf i = row_noise d sigs' v' tf i.
Proof.
  intros W S E. unfold row_noise, total_noise. rewrite W, S.
  assert (P : forall (u : string -> nat -> R) l g, sum_over (fun k => photon2 g (u k i)) l = g * sum_over (fun k => u k i) l / 3600).
  { intros u l g. induction l as [|k l IH]; cbn [sum_over]; [lra|]. rewrite IH. unfold photon2. field. }
  rewrite !P, E. reflexivity.
Qed.

Lemma auto_frame_time_unique w f n m tf tf' : 0 < f * w -> auto_frame_time w f n m tf -> auto_frame_time w f n m tf' -> tf = tf'.
Proof.
  intros P (T & A & i & I & E) (T' & A' & j & J & E').
  assert (Mi : 0 < m i) by (destruct (Rle_lt_dec (m i) 0); [nra|auto]).
  assert (Mj : 0 < m j) by (destruct (Rle_lt_dec (m j) 0); [nra|auto]).
  pose proof (A j J). pose proof (A' i I). nra.
Qed.

Lemma add_entries_agree es n : forall a b c, sget c a = sget c b -> sget "total_noise" a = sget "total_noise" b ->
  sget c (fst (add_entries es n a)) = sget c (fst (add_entries es n b)) /\
  sget "total_noise" (fst (add_entries es n a)) = sget "total_noise" (fst (add_entries es n b)).
Proof.
  induction es as [|e es IH]; intros a b c C T; cbn [add_entries fst]; auto. unfold add_entry.
  destruct (e_value e) as [x|]; auto. destruct (e_name e) as [nm|]; auto.
  assert (K : forall c' (v : list xr), sget c' a = sget c' b -> sget c' (sset (noise_key nm) v a) = sget c' (sset (noise_key nm) v b)).
  { intros c' v E. rewrite !(dget_dset _ String_eqb_spec). destruct (String.eqb _ _); auto. }
  rewrite (K "total_noise"%string _ T).
  destruct (sget "total_noise" (sset (noise_key nm) _ b)) as [tot|]; cbn [fst].
  - apply IH.
    + rewrite !(dget_dset _ String_eqb_spec c "total_noise"). destruct (String.eqb _ _); auto.
    + rewrite !(dget_dset_same _ String_eqb_spec). auto.
  - split; apply K; auto.
Qed.
Lemma try_custom_agree cu n a b c : sget c a = sget c b -> sget "total_noise" a = sget "total_noise" b ->
  sget c (try_custom cu n a) = sget c (try_custom cu n b) /\
  sget "total_noise" (try_custom cu n a) = sget "total_noise" (try_custom cu n b).
Proof. intros C T. destruct cu; auto. cbn [try_custom]. rewrite !add_custom_entries. apply add_entries_agree; auto. Qed.

Definition main_columns : list string := ["total_noise"; "frameTime"; "darkcurrent_noise"; "read_noise"]%string.

Theorem C18_only_the_sum_of_signals_matters t t' ch common d n v v' :
  describes ch d -> physical d -> (0 < n)%nat ->
  holds t (ch_name ch) n (needed ++ signal_columns t) v -> holds t' (ch_name ch) n (needed ++ signal_columns t') v' ->
  frame_time_defined ch n v ->
  (forall k i, In k needed -> (i < n)%nat -> v k i = v' k i) ->
  (forall i, (i < n)%nat -> sum_over (fun k => v k i) (signal_columns t) = sum_over (fun k => v' k i) (signal_columns t')) ->
  exists out out', noise_in_channel t ch common = Ok out /\ noise_in_channel t' ch common = Ok out' /\
    forall c, In c main_columns -> sget c out = sget c out'.
Proof.
  intros D PH N H H' FD EV ES.
  assert (FD' : frame_time_defined ch n v').
  { unfold frame_time_defined in *. destruct (fixed_frame_time ch); auto. destruct FD as (i & I & P). exists i. split; auto.
    rewrite <- EV; cbn; auto. }
  destruct (channel_run t ch common d n v D PH N H FD) as (tf & out0 & T & A & E & G1 & G2 & G3 & _).
  destruct (channel_run t' ch common d n v' D PH N H' FD') as (tf' & out0' & T' & A' & E' & G1' & G2' & G3' & _).
  assert (TT : tf' = tf).
  { destruct (fixed_frame_time ch); [congruence|]. destruct PH as (PW & PF & _).
    apply (auto_frame_time_unique (d_well d) (d_f d) n (v' "MaxSignal_inPixel"%string)); [nra|auto|].
    destruct A as (_ & A1 & i & I & A2). split; auto. split.
    - intros j J. rewrite <- EV by (cbn; auto). auto.
    - exists i. split; auto. rewrite <- EV by (cbn; auto). auto. }
  subst tf'. eexists _, _. split; [exact E|]. split; [exact E'|].
  assert (EC : column n (fun i => if Req_EM_T (v' "star_signal_inAperture"%string i) 0 then NaN else Fin (row_noise d (signal_columns t') v' tf i))
             = column n (fun i => if Req_EM_T (v "star_signal_inAperture"%string i) 0 then NaN else Fin (row_noise d (signal_columns t) v tf i))).
  { apply column_ext. intros i I. rewrite (EV "star_signal_inAperture"%string) by (cbn; auto). destruct (Req_EM_T _ 0); auto. f_equal. symmetry.
    apply total_by_sums; auto; apply EV; cbn; auto. }
  rewrite EC. intros c I.
  set (tot := column n _) at 1 2.
  assert (C : sget c (sset "total_noise" tot out0) = sget c (sset "total_noise" tot out0')).
  { rewrite !(dget_dset _ String_eqb_spec). destruct (String.eqb_spec c "total_noise"); auto.
    assert (EW : forall i, (i < n)%nat -> v "WindowSize"%string i = v' "WindowSize"%string i) by (intros; apply EV; cbn; auto).
    destruct I as [<-|[<-|[<-|[<-|[]]]]]; [contradiction|rewrite G1, G1'; auto|rewrite G2, G2'|rewrite G3, G3'];
      f_equal; apply column_ext; intros i L; rewrite EW by auto; reflexivity. }
  assert (TO : sget "total_noise" (sset "total_noise" tot out0) = sget "total_noise" (sset "total_noise" tot out0'))
    by (rewrite !(dget_dset_same _ String_eqb_spec); auto).
  destruct (try_custom_agree common n _ _ c C TO) as [C1 TO1].
  destruct (try_custom_agree (ch_custom ch) n _ _ c C1 TO1) as [C2 _]. exact C2.
Qed.
Print Assumptions C18_only_the_sum_of_signals_matters.

(** A table of one channel, before the maximum signal is estimated *)
Definition row_numbers (n : nat) (f : nat -> R) : list cell := column n (fun i => Num (Fin (f i))).
Definition inputs : list string := ["WindowSize"; "star_signal_inAperture"; "Wavelength"]%string.
Definition channel_table (u : table) (name : string) (n : nat) (v : string -> nat -> R) (ms : list (nat -> R)) : Prop :=
  NoDup (names u) /\ rows_are n u /\ sget "chName" u = Some (repeat (Txt name) n) /\
  sget "MaxSignal_inPixel" u = None /\
  (forall k, In k (inputs ++ signal_columns u) ->
     sget k u = Some (row_numbers n (v k)) /\ forall i, (i < n)%nat -> 0 <= v k i) /\
  map snd (filter (fun x => contains "Max" (fst x)) u) = map (row_numbers n) ms /\
  (forall m i, In m ms -> (i < n)%nat -> 0 <= m i).
Definition frame_time_known (ch : channel) (n : nat) (ms : list (nat -> R)) : Prop :=
  match fixed_frame_time ch with
  | Some ft => exists r, ft = Fin r /\ 0 < r
  | None => exists i, (i < n)%nat /\ 0 < sum_over (fun m => m i) ms
  end.

Lemma row_numbers_reals n f : row_numbers n f = reals (column n f).
Proof. unfold row_numbers, reals. rewrite map_column. reflexivity. Qed.
Lemma row_sums_column n ms : row_sums n (map (column n) ms) = column n (fun i => sum_over (fun m => m i) ms).
Proof.
  unfold row_sums. unfold column at 2. apply map_ext_in. intros i I. apply in_seq in I.
  rewrite map_map. clear - I. induction ms as [|m ms IH]; cbn; auto. rewrite IH. f_equal.
  unfold column. rewrite nth_indep with (d' := m 0%nat) by (rewrite map_length, seq_length; lia).
  rewrite map_nth, seq_nth by lia. reflexivity.
Qed.
Lemma select_whole t name key col n : sget "chName" t = Some (repeat (Txt name) n) -> sget key t = Some col -> length col = n ->
  select name key t = Ok col.
Proof.
  intros C K L. unfold select. rewrite C, K. f_equal. rewrite filter_all.
  - apply map_fst_combine'. rewrite repeat_length. auto.
  - intros x I. apply in_combine_repeat in I. rewrite I. cbn. apply String.eqb_refl.
Qed.

Lemma one_channel u ch common d n v ms :
  describes ch d -> physical d -> (0 < n)%nat -> channel_table u (ch_name ch) n v ms -> frame_time_known ch n ms ->
  exists r t1 out, estimate_noise {| cols := u; meta := [] |} [(ch, common)] = Ok r /\
    noise_in_channel t1 ch common = Ok out /\ signal_columns t1 = signal_columns u /\
    holds t1 (ch_name ch) n (needed ++ signal_columns t1)
      (fun k => if String.eqb k "MaxSignal_inPixel" then (fun i => sum_over (fun m => m i) ms) else v k) /\
    (forall c, In c main_columns -> sget c out <> None -> sget c (cols r) = option_map (map Num) (sget c out)).
Proof.
  intros D PH N (ND & R & CH & NM & NUM & MX & MP) FK.
  set (T := {| cols := u; meta := [] |}).
  set (v1 := fun k : string => if String.eqb k "MaxSignal_inPixel" then (fun i => sum_over (fun m => m i) ms) else v k).
  assert (W : sget "Wavelength" u = Some (row_numbers n (v "Wavelength"%string))) by (apply NUM; cbn; auto).
  destruct (C10_max_signal_is_the_sum T n (row_numbers n (v "Wavelength"%string)) (map (column n) ms) ND R W) as (t1 & EM & MX1 & OTH & R1).
  { unfold max_sources. cbn [cols T]. rewrite MX, map_map. apply map_ext. intros m. apply row_numbers_reals. }
  rewrite row_sums_column in MX1.
  assert (NAMES : names (cols t1) = names u ++ ["MaxSignal_inPixel"%string]).
  { unfold estimate_max_signal in EM. cbn [cols T] in EM. rewrite W in EM. destruct (add_columns _ _) as [m|] eqn:A; cbn [bind] in EM; [|discriminate].
    assert (ET : t1 = snd (update_table T {| cols := [("MaxSignal_inPixel"%string, m)]; meta := [] |})) by congruence. rewrite ET. clear ET.
    apply add_columns_length in A. rewrite repeat_length in A. unfold row_numbers in A. rewrite column_length in A.
    destruct (C09_update_replaces_exactly_the_new_columns T {| cols := [("MaxSignal_inPixel"%string, m)]; meta := [] |} n ND) as (X & _); auto.
    - cbn. repeat constructor. intros [].
    - intros c col [[= <- <-]|[]]. auto.
    - rewrite X. cbn [cols names map fst]. f_equal. apply filter_all. intros c I. cbn.
      destruct (String.eqb_spec c "MaxSignal_inPixel") as [->|]; auto. apply sget_None_names in NM. contradiction. }
  assert (SC : signal_columns (cols t1) = signal_columns u).
  { unfold signal_columns. rewrite NAMES, filter_app. cbn. apply app_nil_r. }
  assert (CH1 : sget "chName" (cols t1) = Some (repeat (Txt (ch_name ch)) n)) by (rewrite OTH by discriminate; auto).
  assert (H1 : holds (cols t1) (ch_name ch) n (needed ++ signal_columns (cols t1)) v1).
  { rewrite SC. intros k I. unfold v1. destruct (String.eqb_spec k "MaxSignal_inPixel") as [->|NE].
    - split.
      + apply select_whole with (n := n); auto.
        * rewrite MX1. f_equal. unfold reals. rewrite map_column. reflexivity.
        * apply column_length.
      + intros i L. apply sum_over_pos. intros m J. auto.
    - assert (J : In k (inputs ++ signal_columns u)).
      { apply in_app_iff in I as [I|I]; apply in_app_iff; auto. left. cbn in I |- *. intuition congruence. }
      destruct (NUM k J) as [G P]. split; auto. apply select_whole with (n := n); auto.
      + rewrite OTH by auto. auto.
      + apply column_length. }
  assert (FD : frame_time_defined ch n v1).
  { unfold frame_time_defined, frame_time_known in *. destruct (fixed_frame_time ch); auto. }
  destruct (channel_run (cols t1) ch common d n v1 D PH N H1 FD) as (tf & out0 & _ & _ & E & _).
  destruct (C17_estimate_succeeds T [(ch, common)] n t1 ND R ltac:(discriminate) EM) as [r ER].
  { intros c co [[= <- <-]|[]]. eauto. }
  destruct (C17_rows_aligned T [(ch, common)] [n] n r ND R eq_refl ltac:(discriminate)) as (t1' & EM' & KEEP & AL); auto.
  { cbn. repeat constructor. intros []. }
  { cbn. rewrite app_nil_r. auto. }
  rewrite EM in EM'. injection EM' as <-.
  exists r, (cols t1). eexists. split; auto. split; [exact E|]. split; auto. split; auto.
  intros c I NZ. destruct (AL ch common (or_introl eq_refl)) as (out & E2 & SEL). rewrite E in E2. injection E2 as E2. rewrite E2 in *.
  destruct (sget c out) as [col|] eqn:G; [|contradiction]. specialize (SEL c col G).
  assert (CHR : sget "chName" (cols r) = Some (repeat (Txt (ch_name ch)) n)).
  { rewrite KEEP; auto; try discriminate. apply not_noise_key. reflexivity. }
  pose proof SEL as SEL'. unfold select in SEL. destruct (sget c (cols r)) as [col'|] eqn:GR; [|discriminate].
  destruct (estimate_noise_inv T [(ch, common)] [n] n r ND R eq_refl ltac:(discriminate)) as (t1' & new & _ & (_ & RR & _) & _); auto.
  { cbn. repeat constructor. intros []. }
  { cbn. rewrite app_nil_r. auto. }
  rewrite (select_whole (cols r) (ch_name ch) c col' n) in SEL'; auto.
  - injection SEL' as ->. reflexivity.
  - eapply RR. apply sget_In; eauto.
Qed.

Lemma main_columns_present t1 ch common d n v out c :
  describes ch d -> physical d -> (0 < n)%nat -> holds t1 (ch_name ch) n (needed ++ signal_columns t1) v -> frame_time_defined ch n v ->
  noise_in_channel t1 ch common = Ok out -> In c main_columns -> sget c out <> None.
Proof.
  intros D PH N H FD E I. destruct (channel_run t1 ch common d n v D PH N H FD) as (tf & out0 & _ & _ & E' & G1 & G2 & G3 & _).
  rewrite E in E'. injection E' as ->.
  set (tot := column n _).
  assert (C : sget c (sset "total_noise" tot out0) <> None).
  { rewrite (dget_dset _ String_eqb_spec). destruct (String.eqb_spec c "total_noise"); [discriminate|].
    destruct I as [<-|[<-|[<-|[<-|[]]]]]; congruence. }
  assert (K : forall cu o, sget c o <> None -> sget c (try_custom cu n o) <> None).
  { clear. intros cu o. destruct cu as [cu|]; auto. cbn. rewrite add_custom_entries. generalize (entries (Some cu)) as es. intros es.
    revert o. induction es as [|e es IH]; intros o NN; cbn [add_entries fst]; auto. unfold add_entry.
    destruct (e_value e) as [x|]; auto. destruct (e_name e) as [nm|]; auto.
    assert (N1 : sget c (sset (noise_key nm) (repeat (xmul x ppm) n) o) <> None).
    { rewrite (dget_dset _ String_eqb_spec). destruct (String.eqb _ _); auto. discriminate. }
    destruct (sget "total_noise" (sset (noise_key nm) _ o)); cbn [fst]; auto.
    apply IH. rewrite (dget_dset _ String_eqb_spec). destruct (String.eqb _ _); auto. discriminate. }
  apply K, K. auto.
Qed.

(** The signal table of the optical elements: columns "<element> signal" *)
Definition element_signals (n : nat) (items : list (string * (nat -> R))) : table :=
  map (fun x => ((fst x ++ " signal")%string, row_numbers n (snd x))) items.

Lemma sum_over_remove (f : string -> R) a l : NoDup l -> In a l ->
  sum_over f l = f a + sum_over f (filter (fun c => negb (String.eqb c a)) l).
Proof.
  induction l as [|b l IH]; intros ND I; [destruct I|]. inversion ND as [|? ? NI ND']; subst. cbn.
  destruct (String.eqb_spec b a) as [->|NE]; cbn.
  - rewrite filter_all; auto. intros x J. destruct (String.eqb_spec x a) as [->|]; auto.
  - destruct I as [->|I]; [contradiction|]. rewrite IH by auto. ring.
Qed.
Lemma sum_over_app {A} (f : A -> R) a b : sum_over f (a ++ b) = sum_over f a + sum_over f b.
Proof. induction a as [|x a IH]; cbn; [ring|]. rewrite IH. ring. Qed.
Lemma sum_over_ext {A} (f g : A -> R) l : (forall a, In a l -> f a = g a) -> sum_over f l = sum_over g l.
Proof. induction l as [|a l IH]; intros H; cbn; auto. rewrite H by (cbn; auto). rewrite IH; auto. intros; apply H; cbn; auto. Qed.
Lemma sum_over_map {A B} (f : B -> R) (h : A -> B) l : sum_over f (map h l) = sum_over (fun a => f (h a)) l.
Proof. induction l as [|a l IH]; cbn; auto. rewrite IH. auto. Qed.
Lemma item_key_inj a b : (a ++ " signal")%string = (b ++ " signal")%string -> a = b.
Proof.
  intros H. apply (f_equal str_chars) in H. rewrite !str_chars_app in H. apply app_inv_tail in H. apply str_chars_inj; auto.
Qed.
Lemma item_key_signal a : contains "signal" (a ++ " signal") = true.
Proof. apply contains_spec. exists (a ++ " ")%string, ""%string. apply str_chars_inj. rewrite !str_chars_app. rewrite <- app_assoc. reflexivity. Qed.
Lemma item_key_not_instr a : (a ++ " signal")%string <> "instrument_signal"%string.
Proof.
  intros H. apply (f_equal (fun s => rev (str_chars s))) in H. rewrite str_chars_app, rev_app_distr in H. discriminate.
Qed.

Theorem C18_full_contributions_same_noise u ch common d n v ms items :
  describes ch d -> physical d -> (0 < n)%nat -> channel_table u (ch_name ch) n v ms -> frame_time_known ch n ms ->
  In "instrument_signal"%string (names u) -> NoDup (map fst items) ->
  (forall x, In x items -> ~ In (fst x ++ " signal")%string (names u) /\ contains "Max" (fst x ++ " signal") = false /\
                           forall i, (i < n)%nat -> 0 <= snd x i) ->
  (forall i, (i < n)%nat -> v "instrument_signal"%string i = sum_over (fun x => snd x i) items) ->
  exists r r', estimate_noise {| cols := u; meta := [] |} [(ch, common)] = Ok r /\
    estimate_noise {| cols := full_contrib u (element_signals n items); meta := [] |} [(ch, common)] = Ok r' /\
    forall c, In c main_columns -> sget c (cols r') = sget c (cols r).
Proof.
  intros D PH N CT FK IN NDI IT SUM. pose proof CT as (ND & RU & CH & NM & NUM & MX & MP).
  set (es := element_signals n items). set (u' := full_contrib u es).
  assert (NE : names es = map (fun x => (fst x ++ " signal")%string) items) by (unfold es, element_signals, names; rewrite map_map; reflexivity).
  assert (RES : rows_are n es).
  { intros c col I. unfold es, element_signals in I. apply in_map_iff in I as (x & [= <- <-] & _). apply column_length. }
  assert (EU : u' = filter (fun x => negb (String.eqb (fst x) "instrument_signal")) (u ++ es)).
  { unfold u', full_contrib. rewrite (hstack_same u es n); auto. intros c col I. apply in_app_iff in I as [I|I]; eauto. }
  assert (GET : forall c, sget c u' = if negb (String.eqb c "instrument_signal") then match sget c u with Some x => Some x | None => sget c es end else None).
  { intros c. rewrite EU. rewrite (filter_get (fun c => negb (String.eqb c "instrument_signal"))). rewrite sget_app. auto. }
  assert (NU : names u' = filter (fun c => negb (String.eqb c "instrument_signal")) (names u ++ names es)).
  { rewrite EU. unfold names. rewrite <- map_app. clear. induction (u ++ es) as [|[c col] l IH]; cbn; auto. destruct (String.eqb c "instrument_signal"); cbn; auto. f_equal; auto. }
  assert (NDE : NoDup (names es)).
  { rewrite NE. clear - NDI. induction items as [|x l IH]; cbn; constructor; cbn in NDI; inversion NDI; subst; auto.
    intros I. apply in_map_iff in I as (y & E & I). apply item_key_inj in E. apply H1. rewrite <- E. apply in_map; auto. }
  assert (DISJ : forall c, In c (names es) -> ~ In c (names u)).
  { intros c I. rewrite NE in I. apply in_map_iff in I as (x & <- & I). apply IT; auto. }
  assert (FE : filter (fun c => negb (String.eqb c "instrument_signal")) (names es) = names es).
  { apply filter_all. intros c I. rewrite NE in I. apply in_map_iff in I as (x & <- & I).
    destruct (String.eqb_spec (fst x ++ " signal") "instrument_signal") as [E|]; auto. apply item_key_not_instr in E. destruct E. }
  assert (NUE : names u' = filter (fun c => negb (String.eqb c "instrument_signal")) (names u) ++ names es).
  { rewrite NU, filter_app, FE. auto. }
  set (look := fun k : string => sget k (map (fun x : string * (nat -> R) => ((fst x ++ " signal")%string, snd x)) items)).
  set (v' := fun k : string => match look k with Some f => f | None => v k end).
  assert (LKN : forall k, In k (names u) -> look k = None).
  { intros k I. unfold look. apply (dget_None_notIn _ String_eqb_spec). rewrite map_map. cbn [fst]. intros J.
    apply (DISJ k); auto. rewrite NE. auto. }
  assert (LKI : forall x, In x items -> look (fst x ++ " signal")%string = Some (snd x)).
  { intros x I. unfold look. apply (NoDup_In_dget _ String_eqb_spec).
    - rewrite map_map. cbn [fst]. rewrite <- NE. auto.
    - apply in_map_iff. eauto. }
  assert (GES : forall x, In x items -> sget (fst x ++ " signal")%string es = Some (row_numbers n (snd x))).
  { intros x I. apply (NoDup_In_dget _ String_eqb_spec); auto. unfold es, element_signals. apply in_map_iff. eauto. }
  assert (SC' : signal_columns u' = filter (fun c => negb (String.eqb c "instrument_signal")) (signal_columns u) ++ names es).
  { unfold signal_columns. rewrite NUE, filter_app. f_equal.
    - clear. induction (names u) as [|c l IH]; cbn [filter]; auto.
      destruct (String.eqb c "instrument_signal") eqn:Q; cbn [negb].
      + rewrite IH. destruct (contains "signal" c); cbn [filter]; auto. rewrite Q. reflexivity.
      + cbn [filter]. destruct (contains "signal" c); cbn [filter]; auto. rewrite Q. cbn [negb]. f_equal; auto.
    - apply filter_all. intros c I. rewrite NE in I. apply in_map_iff in I as (x & <- & I). apply item_key_signal. }
  assert (CT' : channel_table u' (ch_name ch) n v' ms).
  { split; [|split; [|split; [|split; [|split; [|split]]]]]; auto.
    - rewrite NUE. assert (NF : NoDup (filter (fun c => negb (String.eqb c "instrument_signal")) (names u))) by (apply NoDup_filter; auto).
      assert (DF : forall c, In c (filter (fun c => negb (String.eqb c "instrument_signal")) (names u)) -> ~ In c (names es)).
      { intros c I J. apply filter_In in I as [I _]. apply (DISJ c); auto. }
      revert NF DF. generalize (filter (fun c => negb (String.eqb c "instrument_signal")) (names u)) as l. clear - NDE.
      induction l as [|a l IH]; cbn; auto. intros NF DF. inversion NF; subst. constructor; auto.
      rewrite in_app_iff. intros [I|I]; [contradiction|]. apply (DF a); auto.
    - rewrite EU. intros c col I. apply filter_In in I as [I _]. apply in_app_iff in I as [I|I]; eauto.
    - rewrite GET. cbn. rewrite CH. auto.
    - rewrite GET. cbn. rewrite NM. rewrite (proj2 (dget_None_notIn _ String_eqb_spec _ _)); auto.
      fold (names es). rewrite NE. intros I. apply in_map_iff in I as (x & E & I). destruct (IT x I) as (_ & M & _). rewrite E in M. discriminate.
    - intros k I. rewrite SC' in I. unfold v'.
      assert (CASES : (In k (inputs ++ signal_columns u) /\ In k (names u) /\ k <> "instrument_signal"%string) \/ In k (names es)).
      { apply in_app_iff in I as [I|I].
        - left. split; [apply in_app_iff; auto|]. split.
          + destruct (NUM k) as [G _]; [apply in_app_iff; auto|]. apply sget_names. eauto.
          + intros ->. cbn in I. intuition discriminate.
        - apply in_app_iff in I as [I|I]; auto. apply filter_In in I as [I NI]. left.
          split; [apply in_app_iff; auto|]. split; [apply filter_In in I; tauto|]. intros ->. discriminate. }
      destruct CASES as [(J & INU & NI)|J].
      + rewrite (LKN k INU). destruct (NUM k J) as [G P]. split; auto. rewrite GET, G.
        destruct (String.eqb_spec k "instrument_signal"); [contradiction|]. reflexivity.
      + pose proof J as J'. rewrite NE in J. apply in_map_iff in J as (x & <- & J). rewrite (LKI x J). split.
        * rewrite GET. destruct (String.eqb_spec (fst x ++ " signal") "instrument_signal") as [E|]; [apply item_key_not_instr in E; destruct E|].
          cbn [negb]. rewrite (proj2 (sget_None_names _ _)) by (apply DISJ; auto). apply GES; auto.
        * apply IT; auto.
    - rewrite EU, <- MX. f_equal.
      assert (FF : forall l : table, filter (fun x => contains "Max" (fst x)) (filter (fun x => negb (String.eqb (fst x) "instrument_signal")) l)
               = filter (fun x => contains "Max" (fst x)) l).
      { clear. induction l as [|[c col] l IH]; cbn; auto. destruct (String.eqb_spec c "instrument_signal") as [->|]; cbn; [auto|].
        destruct (contains "Max" c); rewrite ?IH; auto. }
      rewrite FF, filter_app. rewrite (filter_none _ es), app_nil_r; auto.
      intros [c col] I. cbn. unfold es, element_signals in I. apply in_map_iff in I as (x & [= <- <-] & I). apply IT; auto. }
  destruct (one_channel u ch common d n v ms D PH N CT FK) as (r & t1 & out & E & E1 & S1 & H1 & C1).
  destruct (one_channel u' ch common d n v' ms D PH N CT' FK) as (r' & t1' & out' & E' & E1' & S1' & H1' & C1').
  exists r, r'. split; auto. split; auto.
  set (w := fun k => if String.eqb k "MaxSignal_inPixel" then (fun i => sum_over (fun m => m i) ms) else v k) in *.
  set (w' := fun k => if String.eqb k "MaxSignal_inPixel" then (fun i => sum_over (fun m => m i) ms) else v' k) in *.
  assert (FD : frame_time_defined ch n w).
  { unfold frame_time_defined, frame_time_known in *. destruct (fixed_frame_time ch); auto. }
  assert (FD' : frame_time_defined ch n w').
  { unfold frame_time_defined, frame_time_known in *. destruct (fixed_frame_time ch); auto. }
  assert (NOTMAX : forall k, contains "signal" k = true -> String.eqb k "MaxSignal_inPixel" = false).
  { intros k C. destruct (String.eqb_spec k "MaxSignal_inPixel") as [->|]; auto. }
  destruct (C18_only_the_sum_of_signals_matters t1 t1' ch common d n w w' D PH N H1 H1' FD) as (o & o' & O & O' & EQ).
  - intros k i I L. unfold w, w'. destruct (String.eqb_spec k "MaxSignal_inPixel"); auto. unfold v'.
    rewrite LKN; auto. assert (J : In k (inputs ++ signal_columns u)).
    { apply in_app_iff. left. cbn in I |- *. intuition congruence. }
    destruct (NUM k J) as [G _]. apply sget_names. eauto.
  - intros i L. rewrite S1, S1', SC', sum_over_app.
    assert (NDS : NoDup (signal_columns u)) by (apply NoDup_filter; auto).
    assert (INS : In "instrument_signal"%string (signal_columns u)) by (apply filter_In; auto).
    rewrite (sum_over_remove (fun k => w k i) _ _ NDS INS).
    replace (w "instrument_signal"%string i) with (sum_over (fun x => snd x i) items).
    2: { unfold w. cbn. symmetry. apply SUM; auto. }
    rewrite Rplus_comm. f_equal.
    + apply sum_over_ext. intros k I. apply filter_In in I as [I _]. apply filter_In in I as [I C].
      unfold w, w'. rewrite (NOTMAX k C). unfold v'. rewrite LKN; auto.
    + rewrite NE, sum_over_map. apply sum_over_ext. intros x I. unfold w'. rewrite NOTMAX by apply item_key_signal.
      unfold v'. rewrite LKI; auto.
  - rewrite E1 in O. injection O as <-. rewrite E1' in O'. injection O' as <-.
    intros c I. rewrite C1', C1; auto.
    + rewrite EQ; auto.
    + apply (main_columns_present t1 ch common d n w); auto.
    + apply (main_columns_present t1' ch common d n w'); auto.
Qed.
Print Assumptions C18_full_contributions_same_noise.

(** An element whose name contains "Max" is counted in the maximum signal: then the result
    does change. *)
Theorem C18_element_named_Max_changes_the_maximum u n item f ms :
  NoDup (names u) -> rows_are n u -> (exists wl, sget "Wavelength" u = Some wl) ->
  map snd (filter (fun x => contains "Max" (fst x)) u) = map (row_numbers n) ms ->
  contains "Max" (item ++ " signal") = true -> ~ In (item ++ " signal")%string (names u) ->
  exists r r', estimate_max_signal {| cols := u; meta := [] |} = Ok r /\
    estimate_max_signal {| cols := full_contrib u (element_signals n [(item, f)]); meta := [] |} = Ok r' /\
    sget "MaxSignal_inPixel" (cols r) = Some (row_numbers n (fun i => sum_over (fun m => m i) ms)) /\
    sget "MaxSignal_inPixel" (cols r') = Some (row_numbers n (fun i => sum_over (fun m => m i) ms + f i)).
Proof.
  intros ND RU [wl W] MX C NI. set (es := element_signals n [(item, f)]).
  assert (RES : rows_are n es).
  { intros c col [[= <- <-]|[]]. apply column_length. }
  assert (EU : full_contrib u es = filter (fun x => negb (String.eqb (fst x) "instrument_signal")) (u ++ es)).
  { unfold full_contrib. rewrite (hstack_same u es n); auto. intros c col I. apply in_app_iff in I as [I|I]; eauto. }
  destruct (C10_max_signal_is_the_sum {| cols := u; meta := [] |} n wl (map (column n) ms) ND RU W) as (r & E & G & _).
  { unfold max_sources. cbn [cols]. rewrite MX, map_map. apply map_ext. intros m. apply row_numbers_reals. }
  destruct (C10_max_signal_is_the_sum {| cols := full_contrib u es; meta := [] |} n wl (map (column n) (ms ++ [f]))) as (r' & E' & G' & _); cbn [cols].
  - rewrite EU.
    assert (NN : forall l : table, names (filter (fun x => negb (String.eqb (fst x) "instrument_signal")) l)
               = filter (fun c => negb (String.eqb c "instrument_signal")) (names l)).
    { induction l as [|[c col] l IH]; cbn; auto. destruct (String.eqb c "instrument_signal"); cbn; auto. f_equal; auto. }
    rewrite NN. apply NoDup_filter. unfold names. rewrite map_app. cbn. clear - ND NI. unfold names in *. induction (map fst u) as [|a l IH]; cbn.
    + repeat constructor. intros [].
    + inversion ND; subst. constructor; [|apply IH; auto; intros I; apply NI; cbn; auto].
      rewrite in_app_iff. cbn. intros [I|[<-|[]]]; [contradiction|]. apply NI. cbn; auto.
  - rewrite EU. intros c col I. apply filter_In in I as [I _]. apply in_app_iff in I as [I|I]; eauto.
  - rewrite EU. rewrite (filter_get (fun c => negb (String.eqb c "instrument_signal"))). cbn [String.eqb Ascii.eqb negb].
    rewrite sget_app, W. reflexivity.
  - unfold max_sources. rewrite EU.
    assert (FF : forall l : table, filter (fun x => contains "Max" (fst x)) (filter (fun x => negb (String.eqb (fst x) "instrument_signal")) l)
               = filter (fun x => contains "Max" (fst x)) l).
    { clear. induction l as [|[c col] l IH]; cbn; auto. destruct (String.eqb_spec c "instrument_signal") as [->|]; cbn; [auto|].
      destruct (contains "Max" c); rewrite ?IH; auto. }
    rewrite FF, filter_app, map_app, MX. unfold es, element_signals. cbn [map filter fst snd]. rewrite C. cbn [map snd].
    rewrite !map_app, map_map. cbn [map]. f_equal; [apply map_ext; intros; apply row_numbers_reals|]. f_equal. apply row_numbers_reals.
  - exists r, r'. split; auto. split; auto. rewrite row_sums_column in G, G'. rewrite !row_numbers_reals. split; auto.
    rewrite G'. f_equal. f_equal. apply column_ext. intros i _. rewrite sum_over_app. cbn. ring.
Qed.
Print Assumptions C18_element_named_Max_changes_the_maximum.

(** *** C19: estimating again on a processed target *)
Lemma noise_column_present t ch common out k : noise_in_channel t ch common = Ok out -> In k (signal_columns t) ->
  sget (k ++ "_noise")%string out <> None.
Proof.
  intros E I. unfold noise_in_channel in E.
  destruct (frame_time t ch) as [o0|]; cbn [bind] in E; [|discriminate].
  destruct (match sget "frameTime" o0 with Some ft => Ok ft | None => Err KeyError end) as [ft|]; cbn [bind] in E; [|discriminate].
  destruct (match ft with [] => Err IndexError | x :: _ => Ok x end) as [ft0|]; cbn [bind] in E; [|discriminate].
  destruct (multiaccum ch ft0) as [rg sg].
  destruct (photon_noise t (ch_name ch) sg (signal_keys t) o0) as [o1|] eqn:PN; cbn [bind] in E; [|discriminate].
  destruct (photon_noise_get _ _ _ _ _ _ PN) as [PA _]. destruct (PA k I) as (s & _ & G).
  destruct (select_num (ch_name ch) "WindowSize" t) as [w|]; cbn [bind] in E; [|discriminate].
  destruct (photon_variance _ _ _) as [pv|]; cbn [bind] in E; [|discriminate].
  destruct (select_num (ch_name ch) "star_signal_inAperture" t) as [st|]; cbn [bind] in E; [|discriminate].
  destruct (select_num (ch_name ch) "Wavelength" t) as [wl|]; cbn [bind] in E; [|discriminate].
  injection E as <-.
  assert (SE : forall c (x : list xr) o, sget (k ++ "_noise")%string o <> None -> sget (k ++ "_noise")%string (sset c x o) <> None).
  { intros c x o NN. rewrite (dget_dset _ String_eqb_spec). destruct (String.eqb _ _); auto. discriminate. }
  assert (K : forall cu n o, sget (k ++ "_noise")%string o <> None -> sget (k ++ "_noise")%string (try_custom cu n o) <> None).
  { intros cu n o. destruct cu as [cu|]; auto. cbn. rewrite add_custom_entries. generalize (entries (Some cu)) as es. intros es.
    revert o. induction es as [|e es IH]; intros o NN; cbn [add_entries fst]; auto. unfold add_entry.
    destruct (e_value e) as [x|]; auto. destruct (e_name e) as [nm|]; auto.
    destruct (sget "total_noise" (sset (noise_key nm) _ o)); cbn [fst]; auto. }
  apply K, K. do 3 apply SE. unfold noise_key in G. congruence.
Qed.

(** Every signal column's noise column counts as a signal the next time. *)
Theorem C19_noise_columns_become_signals target chans sizes N r k :
  NoDup (names (cols target)) -> rows_are N (cols target) -> length sizes = length chans -> chans <> [] ->
  NoDup (map (fun ch => ch_name (fst ch)) chans) ->
  sget "chName" (cols target)
    = Some (concat (map (fun p => repeat (Txt (ch_name (fst (fst p)))) (snd p)) (combine chans sizes))) ->
  estimate_noise target chans = Ok r -> In k (signal_columns (cols target)) ->
  In k (signal_columns (cols r)) /\ In (k ++ "_noise")%string (signal_columns (cols r)).
Proof.
  intros ND RU LS NE NDC CH E I.
  destruct (estimate_noise_inv target chans sizes N r ND RU LS NE NDC CH E) as (t1 & new & EM & (CR & _ & _ & _) & _ & AL).
  destruct (max_signal_inv target t1 N ND RU EM) as (_ & _ & G1).
  assert (CS : contains "signal" k = true) by (apply filter_In in I; tauto).
  assert (NM : k <> "MaxSignal_inPixel"%string) by (intros ->; discriminate).
  assert (I1 : In k (names (cols t1))).
  { apply sget_names. rewrite G1 by auto. apply sget_names. apply filter_In in I; tauto. }
  assert (I1' : In k (signal_columns (cols t1))) by (apply filter_In; auto).
  assert (KR : forall c, In c (names (cols t1)) -> In c (names (cols r))).
  { intros c J. rewrite CR. unfold names. rewrite map_app, in_app_iff. destruct (smem c new) eqn:M.
    - right. apply smem_names in M. auto.
    - left. apply in_map_iff in J as ([c' col] & Q & J). cbn in Q. subst c'. apply in_map_iff. exists (c, col). split; auto.
      apply filter_In. split; auto. cbn. rewrite M. auto. }
  split; [apply filter_In; split; auto|].
  destruct chans as [|[ch co] chans]; [contradiction|].
  destruct (AL ch co (or_introl eq_refl)) as (out & EO & SEL).
  pose proof (noise_column_present _ _ _ _ _ EO I1') as NZ.
  destruct (sget (k ++ "_noise")%string out) as [col|] eqn:G; [|contradiction].
  specialize (SEL _ _ G). unfold select in SEL. destruct (sget (k ++ "_noise")%string (cols r)) as [cr|] eqn:GR; [|discriminate].
  apply filter_In. split; [apply sget_names; eauto|].
  apply contains_spec in CS as (a & b & ->). apply contains_spec. exists a, (b ++ "_noise")%string.
  apply str_chars_inj. rewrite !str_chars_app. rewrite <- !app_assoc. reflexivity.
Qed.
Print Assumptions C19_noise_columns_become_signals.

(** The maximum signal doubles (when no noise column name contains "Max")... *)
Theorem C19_maximum_signal_doubles target chans sizes N r srcs wl :
  NoDup (names (cols target)) -> rows_are N (cols target) -> length sizes = length chans -> chans <> [] ->
  NoDup (map (fun ch => ch_name (fst ch)) chans) ->
  sget "chName" (cols target)
    = Some (concat (map (fun p => repeat (Txt (ch_name (fst (fst p)))) (snd p)) (combine chans sizes))) ->
  sget "Wavelength" (cols target) = Some wl -> max_sources (cols target) srcs -> sget "MaxSignal_inPixel" (cols target) = None ->
  estimate_noise target chans = Ok r ->
  (forall m, In (m ++ "_noise")%string (names (cols r)) -> contains "Max" (m ++ "_noise") = false) ->
  sget "MaxSignal_inPixel" (cols r) = Some (reals (row_sums N srcs)) /\
  exists r2, estimate_max_signal r = Ok r2 /\
    sget "MaxSignal_inPixel" (cols r2) = Some (reals (map (fun x => 2 * x) (row_sums N srcs))).
Proof.
  intros ND RU LS NE NDC CH W MS NM E NOMAX.
  destruct (estimate_noise_inv target chans sizes N r ND RU LS NE NDC CH E) as (t1 & new & EM & (CR & RR & NDR & KEY) & KEEP & _).
  destruct (max_signal_inv target t1 N ND RU EM) as (ND1 & R1 & G1).
  assert (NOTNEW : forall c, ~ In c (names new) -> sget c (cols r) = sget c (cols t1)).
  { intros c NI. rewrite CR, sget_app, (filter_get (fun c => negb (smem c new))).
    assert (M : smem c new = false) by (apply smem_false_names; auto). rewrite M. cbn.
    destruct (sget c (cols t1)); auto. apply sget_None_names; auto. }
  assert (NK : forall c, ends_with "_noise" c = false -> c <> "saturation_time"%string -> c <> "frameTime"%string -> ~ In c (names new)).
  { intros c E1 E2 E3 I. destruct (KEY c I) as [|[|[m M]]]; try contradiction. revert M. apply not_noise_key; auto. }
  assert (LW : length wl = N) by (eapply RU; apply sget_In; eauto).
  pose proof (max_once target N wl srcs RU W MS) as MO. rewrite EM in MO.
  assert (ET : t1 = snd (update_table target {| cols := [("MaxSignal_inPixel"%string, reals (row_sums N srcs))]; meta := [] |})) by congruence.
  assert (RM : rows_are N [("MaxSignal_inPixel"%string, reals (row_sums N srcs))]).
  { intros c col I. destruct I as [I|[]]. inversion I. rewrite reals_length. unfold row_sums. rewrite map_length, seq_length. auto. }
  assert (CT1 : cols t1 = cols target ++ [("MaxSignal_inPixel"%string, reals (row_sums N srcs))]).
  { rewrite ET. rewrite (update_cols _ _ N); auto. cbn [cols]. f_equal. apply filter_all. intros [c col] I. unfold dmem. cbn [dget fst].
    destruct (String.eqb_spec c "MaxSignal_inPixel") as [->|]; auto.
    exfalso. apply sget_None_names in NM. apply NM. apply in_map_iff. exists ("MaxSignal_inPixel"%string, col); auto. }
  assert (GM : sget "MaxSignal_inPixel" (cols r) = Some (reals (row_sums N srcs))).
  { rewrite NOTNEW by (apply NK; try reflexivity; discriminate). rewrite CT1, sget_app, NM. reflexivity. }
  split; auto.
  assert (WR : sget "Wavelength" (cols r) = Some wl).
  { rewrite NOTNEW by (apply NK; try reflexivity; discriminate). rewrite G1 by discriminate. auto. }
  assert (MXR : max_sources (cols r) (srcs ++ [row_sums N srcs])).
  { unfold max_sources in *. rewrite CR, filter_app, map_app.
    assert (NX : forall c, In c (names new) -> contains "Max" c = false).
    { intros c IN. assert (IR : In c (names (cols r))) by (rewrite CR; unfold names; rewrite map_app, in_app_iff; auto).
      destruct (KEY c IN) as [->|[->|[m ->]]]; [reflexivity|reflexivity|]. apply NOMAX. exact IR. }
    assert (F1 : filter (fun x : string * list cell => contains "Max" (fst x)) new = []).
    { apply filter_none. intros [c col] I. cbn. apply NX. apply in_map_iff. exists (c, col); auto. }
    rewrite F1. cbn [map]. rewrite app_nil_r.
    assert (F2 : forall l : table, filter (fun x => contains "Max" (fst x)) (filter (fun x => negb (smem (fst x) new)) l)
                = filter (fun x => contains "Max" (fst x)) l).
    { induction l as [|[c col] l IH]; cbn [filter fst]; auto. destruct (smem c new) eqn:M; cbn [negb filter fst].
      - rewrite NX by (apply smem_names; auto). auto.
      - destruct (contains "Max" c); rewrite ?IH; auto. }
    rewrite F2, CT1, filter_app, map_app, MS. cbn [filter fst]. rewrite map_app. f_equal. }
  destruct (C10_max_signal_is_the_sum r N wl _ NDR RR WR MXR) as (r2 & E2 & M2 & _). exists r2. split; auto. rewrite M2. f_equal. f_equal.
  unfold row_sums. rewrite map_map. apply map_ext_in. intros i I. apply in_seq in I. rewrite map_app.
  assert (RS : forall a b, Rsum (a ++ b) = Rsum a + Rsum b).
  { induction a as [|x a IHa]; intros b; cbn; [ring|]. rewrite IHa. ring. }
  rewrite RS. cbn [map Rsum].
  set (f := fun i0 : nat => Rsum (map (fun c => nth i0 c 0) srcs)).
  rewrite (nth_indep _ 0 (f 0%nat)) by (rewrite map_length, seq_length; lia).
  rewrite (map_nth f (seq 0 N) 0%nat), seq_nth by lia. unfold f. cbn [Nat.add]. ring.
Qed.
Print Assumptions C19_maximum_signal_doubles.

(** ... and a doubled maximum signal halves the automatic frame time. *)
Theorem C19_frame_time_halves t t' ch d n v v' out out' tf tf' common common' :
  describes ch d -> physical d -> (0 < n)%nat -> fixed_frame_time ch = None ->
  holds t (ch_name ch) n (needed ++ signal_columns t) v -> holds t' (ch_name ch) n (needed ++ signal_columns t') v' ->
  (exists i, (i < n)%nat /\ 0 < v "MaxSignal_inPixel"%string i) ->
  (forall i, (i < n)%nat -> v' "MaxSignal_inPixel"%string i = 2 * v "MaxSignal_inPixel"%string i) ->
  noise_in_channel t ch common = Ok out -> noise_in_channel t' ch common' = Ok out' ->
  entry_at out "frameTime" 0 (Fin tf) -> entry_at out' "frameTime" 0 (Fin tf') -> tf' = tf / 2.
Proof.
  intros D PH N F H H' B DB E E' T T'.
  destruct (C12_automatic_frame_time t ch common d n v D PH N F H B) as (o & tf0 & O & P & EN & A1 & A2).
  rewrite E in O. injection O as <-. pose proof (entry_at_det _ _ _ _ _ T (EN 0%nat N)) as X. injection X as ->.
  destruct (C12_automatic_frame_time t' ch common' d n v' D PH N F H') as (o & tf1 & O & P' & EN' & A1' & A2').
  { destruct B as (i & I & B). exists i. split; auto. rewrite DB by auto. lra. }
  rewrite E' in O. injection O as <-. pose proof (entry_at_det _ _ _ _ _ T' (EN' 0%nat N)) as X. injection X as ->.
  destruct PH as (PW & PF & _).
  apply (auto_frame_time_unique (d_well d) (d_f d) n (v' "MaxSignal_inPixel"%string)).
  - nra.
  - split; auto.
  - split; [lra|]. split.
    + intros i I. rewrite DB by auto. specialize (A1 i I). lra.
    + destruct A2 as (i & I & A2). exists i. split; auto. rewrite DB by auto. lra.
Qed.
Print Assumptions C19_frame_time_halves.

(** *** A concrete channel *)
Section Ex.
  Let d : detector := {| d_well := 100; d_f := 1 / 2; d_freq := 1; d_M := 1; d_dark := 1; d_read := 1; d_X := 0 |}.
  Let ch : channel := {| ch_name := "A"; well_depth := Fin 100; f_well_depth := Some (Fin (1 / 2)); fixed_frame_time := None;
     freqNDR := Fin 1; multiaccumM := None; dark_current := Fin 1; read_noise := Fin 1; noiseX := None; ch_custom := None |}.
  Let v : string -> nat -> R := fun k i =>
    if String.eqb k "star_signal_inAperture" then (if Nat.eqb i 0 then 10 else 0)
    else if String.eqb k "instrument_signal" then 3 else 1.
  Let ms : list (nat -> R) := [fun i => if Nat.eqb i 0 then 5 else 7].
  Let u : table := [("chName", [Txt "A"; Txt "A"]); ("Wavelength", row_numbers 2 (v "Wavelength"));
     ("WindowSize", row_numbers 2 (v "WindowSize")); ("star_signal_inAperture", row_numbers 2 (v "star_signal_inAperture"));
     ("instrument_signal", row_numbers 2 (v "instrument_signal"));
     ("star_MaxSignal_inPixel", row_numbers 2 (fun i => if Nat.eqb i 0 then 5 else 7))]%string.
  Let items : list (string * (nat -> R)) := [("M1", fun _ => 1); ("M2", fun _ => 2)]%string.
  Example ex_describes : describes ch d /\ physical d.
  Proof. split; [repeat split; auto|]. unfold physical; cbn. lra. Qed.
  Example ex_channel_table : channel_table u "A" 2 v ms.
  Proof.
    split; [|split; [|split; [|split; [|split; [|split]]]]]; try reflexivity.
    - cbn. repeat constructor; cbn; intuition discriminate.
    - intros c col I. cbn in I. repeat destruct I as [[= <- <-]|I]; reflexivity || destruct I.
    - intros k I. cbn in I. repeat destruct I as [<-|I]; try destruct I; (split; [reflexivity|]);
        intros i _; unfold v; cbn; try destruct (Nat.eqb i 0); lra.
    - intros m i [<-|[]] _. destruct (Nat.eqb i 0); lra.
  Qed.
  Example ex_full_contributions : exists r r', estimate_noise {| cols := u; meta := [] |} [(ch, None)] = Ok r /\
    estimate_noise {| cols := full_contrib u (element_signals 2 items); meta := [] |} [(ch, None)] = Ok r' /\
    forall c, In c main_columns -> sget c (cols r') = sget c (cols r).
  Proof.
    destruct ex_describes as [D PH]. apply (C18_full_contributions_same_noise u ch None d 2 v ms items D PH); auto.
    - exact ex_channel_table.
    - unfold frame_time_known. cbn. exists 0%nat. split; [lia|]. cbn. lra.
    - cbn. auto 10.
    - cbn. repeat constructor; cbn; intuition discriminate.
    - intros x [<-|[<-|[]]]; (split; [cbn; intuition discriminate|split; [reflexivity|intros; cbn; lra]]).
    - intros i _. cbn. lra.
  Qed.
  (** hypotheses of the channel theorems *)
  Example ex_holds : exists t1 w, holds t1 "A" 2 (needed ++ signal_columns t1) w /\ frame_time_defined ch 2 w /\
    w "star_signal_inAperture"%string 0%nat = 10 /\ w "star_signal_inAperture"%string 1%nat = 0.
  Proof.
    destruct ex_describes as [D PH].
    destruct (one_channel u ch None d 2 v ms D PH ltac:(lia) ex_channel_table) as (r & t1 & out & _ & _ & _ & H & _).
    - unfold frame_time_known. cbn. exists 0%nat. split; [lia|]. cbn. lra.
    - eexists t1, _. split; [exact H|]. split; [|split; reflexivity].
      unfold frame_time_defined. cbn. exists 0%nat. split; [lia|]. cbn. lra.
  Qed.
  Example ex_entries :
    Forall valid_entry (entries (Some (Many [{| e_name := Some "jitter"%string; e_value := Some (Fin 20) |};
                                             {| e_name := None; e_value := Some (Fin 5) |}; {| e_name := Some "x"%string; e_value := Some (Fin 1) |}]))) /\
    in_effect (entries (Some (Many [{| e_name := Some "jitter"%string; e_value := Some (Fin 20) |};
                                    {| e_name := None; e_value := Some (Fin 5) |}; {| e_name := Some "x"%string; e_value := Some (Fin 1) |}]))) = [20].
  Proof. split; [|reflexivity]. repeat constructor; cbn; try discriminate; eexists; reflexivity. Qed.
End Ex.
