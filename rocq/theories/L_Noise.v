(** Lemmas about the noise estimate. *)
From Verif Require Import Base XR M_Table S_Table L_Table M_Noise S_Noise.
Open Scope list_scope.
Open Scope R_scope.

Lemma column_length {A} n (f : nat -> A) : length (column n f) = n.
Proof. unfold column. rewrite map_length, seq_length. auto. Qed.
Lemma map_column {A B} (g : A -> B) n f : map g (column n f) = column n (fun i => g (f i)).
Proof. unfold column. apply map_map. Qed.
Lemma column_ext {A} n (f g : nat -> A) : (forall i, (i < n)%nat -> f i = g i) -> column n f = column n g.
Proof. intros H. unfold column. apply map_ext_in. intros i I. apply in_seq in I. apply H. lia. Qed.
Lemma combine_column {A B} n (f : nat -> A) (g : nat -> B) :
  combine (column n f) (column n g) = column n (fun i => (f i, g i)).
Proof. unfold column. induction (seq 0 n); cbn; f_equal; auto. Qed.
Lemma zip_column {A B C} (h : A -> B -> C) n f g :
  zip_with h (column n f) (column n g) = column n (fun i => h (f i) (g i)).
Proof. unfold zip_with. rewrite combine_column, map_column. reflexivity. Qed.
Lemma repeat_column {A} (a : A) n : repeat a n = column n (fun _ => a).
Proof. unfold column. generalize 0%nat as s. induction n as [|n IH]; intros s; cbn; f_equal; auto. Qed.
Lemma nth_column {A} n (f : nat -> A) i : (i < n)%nat -> nth_error (column n f) i = Some (f i).
Proof.
  intros L. unfold column. rewrite nth_error_map. rewrite (nth_error_nth' _ 0%nat) by (rewrite seq_length; auto).
  rewrite seq_nth by auto. reflexivity.
Qed.
Lemma column_cons {A} n (f : nat -> A) : column (S n) f = f 0%nat :: column n (fun i => f (S i)).
Proof. unfold column. cbn. f_equal. rewrite <- seq_shift, map_map. reflexivity. Qed.
Lemma mapM_column {A B} (h : A -> res B) g n f : (forall i, (i < n)%nat -> h (f i) = Ok (g i)) ->
  mapM h (column n f) = Ok (column n g).
Proof.
  intros H. unfold column.
  assert (F : forall i, In i (seq 0 n) -> h (f i) = Ok (g i)) by (intros i I; apply in_seq in I; apply H; lia).
  revert F. induction (seq 0 n) as [|i l IH]; intros F; cbn; auto.
  rewrite F by (cbn; auto). cbn. rewrite IH by (intros; apply F; cbn; auto). reflexivity.
Qed.

Lemma holds_num t name n keys v k : holds t name n keys v -> In k keys ->
  select_num name k t = Ok (column n (fun i => Fin (v k i))).
Proof.
  intros H I. destruct (H k I) as [S _]. unfold select_num. rewrite S. cbn [bind].
  apply mapM_column. reflexivity.
Qed.

(** frame time *)
Lemma xminl_fin_inf l : forall x, (forall y, In y (x :: l) -> y = PInf \/ exists r, y = Fin r) ->
  (xminl x l = PInf /\ forall y, In y (x :: l) -> y = PInf) \/
  (exists r, xminl x l = Fin r /\ In (Fin r) (x :: l) /\ forall r', In (Fin r') (x :: l) -> r <= r').
Proof.
  induction l as [|y l IH]; intros x H; cbn [xminl].
  - destruct (H x (or_introl eq_refl)) as [->|[r ->]].
    + left. split; auto. intros y [<-|[]]; auto.
    + right. exists r. repeat split; cbn; auto. intros r' [[= ->]|[]]. lra.
  - assert (HX : xmin x y = PInf \/ exists r, xmin x y = Fin r).
    { destruct (H x (or_introl eq_refl)) as [->|[r ->]], (H y (or_intror (or_introl eq_refl))) as [->|[r' ->]]; cbn; auto.
      - right; eauto.
      - right; eauto.
      - right. destruct (Rlt_dec r' r); eauto. }
    destruct (IH (xmin x y)) as [[E A]|(r & E & I & A)].
    + intros z [<-|I]; auto. apply H. cbn; auto.
    + left. split; auto. pose proof (A _ (or_introl eq_refl)) as M.
      assert (x = PInf /\ y = PInf) as [-> ->].
      { destruct (H x (or_introl eq_refl)) as [->|[r ->]], (H y (or_intror (or_introl eq_refl))) as [->|[r' ->]]; cbn in M; auto; try discriminate.
        destruct (Rlt_dec r' r); discriminate. }
      intros z [<-|[<-|I]]; auto. apply A. cbn; auto.
    + right. exists r. split; auto.
      destruct (H x (or_introl eq_refl)) as [->|[a ->]], (H y (or_intror (or_introl eq_refl))) as [->|[b ->]].
      * cbn in I, A. split; [cbn; tauto|]. intros r' [|[|]]; try discriminate. apply A; auto.
      * cbn in I, A. split; [cbn; tauto|]. intros r' [|[|]]; try discriminate; apply A; auto.
      * cbn in I, A. split; [cbn; tauto|]. intros r' [|[|]]; try discriminate; apply A; auto.
      * rewrite xmin_fin in *. split.
        -- destruct I as [I|I]; [|cbn; auto]. injection I as I. unfold Rmin in I. destruct (Rle_dec a b); subst; cbn; auto.
        -- assert (M : r <= Rmin a b) by (apply A; cbn; auto). pose proof (Rmin_l a b). pose proof (Rmin_r a b).
           intros r' [[= <-]|[[= <-]|J]]; try lra. apply A; cbn; auto.
Qed.

Lemma sat_cases w m : 0 < w -> 0 <= m -> xdiv (Fin w) (Fin m) = PInf /\ m = 0 \/ 0 < m /\ xdiv (Fin w) (Fin m) = Fin (w / m).
Proof.
  intros W M. destruct (Req_dec m 0) as [->|N].
  - left. split; auto. apply xdiv_pos0; auto.
  - right. split; [lra|]. apply xdiv_fin; auto.
Qed.

Lemma In_column {A} n (f : nat -> A) x : In x (column n f) <-> exists i, (i < n)%nat /\ x = f i.
Proof.
  unfold column. rewrite in_map_iff. split.
  - intros (i & <- & I). apply in_seq in I. exists i. split; auto; lia.
  - intros (i & L & ->). exists i. split; auto. apply in_seq. lia.
Qed.

(** The automatic frame time *)
Definition auto_frame_time (w f : R) (n : nat) (m : nat -> R) (tf : R) : Prop :=
  0 < tf /\ (forall i, (i < n)%nat -> m i * tf <= f * w) /\ (exists i, (i < n)%nat /\ m i * tf = f * w).

Lemma min_sat w n (m : nat -> R) : 0 < w -> (forall i, (i < n)%nat -> 0 <= m i) -> (exists i, (i < n)%nat /\ 0 < m i) ->
  exists s rest r, column n (fun i => xdiv (Fin w) (Fin (m i))) = s :: rest /\ xminl s rest = Fin r /\ 0 < r /\
    (forall i, (i < n)%nat -> m i * r <= w) /\ exists i, (i < n)%nat /\ m i * r = w.
Proof.
  intros W P (k & K & KP). destruct n as [|n]; [lia|]. rewrite column_cons.
  eexists _, _. 
  destruct (xminl_fin_inf (column n (fun i => xdiv (Fin w) (Fin (m (S i))))) (xdiv (Fin w) (Fin (m 0%nat)))) as [[E A]|(r & E & I & A)].
  - intros y J. rewrite <- column_cons with (f := fun i => xdiv (Fin w) (Fin (m i))) in J.
    apply In_column in J as (i & L & ->). destruct (sat_cases w (m i) W (P i L)) as [[-> _]|[_ ->]]; eauto.
  - exfalso. assert (J : In (xdiv (Fin w) (Fin (m k))) (column (S n) (fun i => xdiv (Fin w) (Fin (m i))))).
    { apply In_column. eauto. }
    rewrite column_cons in J. apply A in J. rewrite xdiv_fin in J by lra. discriminate.
  - exists r. split; [reflexivity|]. split; auto.
    rewrite <- column_cons with (f := fun i => xdiv (Fin w) (Fin (m i))) in I.
    apply In_column in I as (i & L & EQ). destruct (sat_cases w (m i) W (P i L)) as [[E1 _]|[M1 E1]]; rewrite E1 in EQ; [discriminate|].
    injection EQ as ->.
    assert (RP : 0 < w / m i) by (apply Rdiv_lt_0_compat; auto).
    split; auto. split.
    + intros j J. destruct (Req_dec (m j) 0) as [Z|N]; [rewrite Z; lra|].
      assert (MJ : 0 < m j) by (specialize (P j J); lra).
      assert (LE : w / m i <= w / m j).
      { apply A. rewrite <- column_cons with (f := fun i => xdiv (Fin w) (Fin (m i))). apply In_column. exists j. split; auto.
        symmetry; apply xdiv_fin; auto. }
      replace w with (m j * (w / m j)) at 2 by (field; lra). apply Rmult_le_compat_l; lra.
    + exists i. split; auto. field. lra.
Qed.

Lemma frame_time_auto t ch d n v : describes ch d -> 0 < d_well d -> 0 < d_f d -> fixed_frame_time ch = None ->
  holds t (ch_name ch) n ["MaxSignal_inPixel"] v -> (exists i, (i < n)%nat /\ 0 < v "MaxSignal_inPixel" i) ->
  exists tf sat, frame_time t ch = Ok [("saturation_time", sat); ("frameTime", column n (fun _ => Fin tf))] /\
    length sat = n /\ auto_frame_time (d_well d) (d_f d) n (v "MaxSignal_inPixel") tf.
Proof.
  intros (DW & DF & _) PW PF NF H L. unfold frame_time.
  rewrite (holds_num _ _ _ _ _ _ H) by (cbn; auto). cbn [bind]. rewrite NF, (DF NF), DW, map_column.
  destruct (min_sat (d_well d) n (v "MaxSignal_inPixel") PW) as (s & rest & r & E & M & RP & A & B); auto.
  { intros i I. apply (H "MaxSignal_inPixel"); cbn; auto. }
  rewrite E, M. exists (d_f d * r), (s :: rest). rewrite <- E, column_length. split; [rewrite repeat_column; reflexivity|].
  split; auto. split; [apply Rmult_lt_0_compat; auto|]. split.
  - intros i I. replace (_ * (d_f d * r)) with (d_f d * (v "MaxSignal_inPixel"%string i * r)) by ring.
    apply Rmult_le_compat_l; [lra|]. auto.
  - destruct B as (i & I & B). exists i. split; auto. rewrite <- B. ring.
Qed.

(** gains *)
Lemma reads_ge2 t f : 2 <= reads t f.
Proof. unfold reads. apply IZR_le. lia. Qed.
Lemma multiaccum_fin ch d t : describes ch d -> 0 < d_M d -> t <> 0 ->
  multiaccum ch (Fin t) = (Fin (read_gain (reads t (d_freq d)) (d_M d)), Fin (shot_gain (reads t (d_freq d)))).
Proof.
  intros (_ & _ & DQ & DM & _) M T. unfold multiaccum. rewrite DQ.
  assert (EM : match multiaccumM ch with Some m => m | None => Fin 1 end = Fin (d_M d)).
  { destruct (multiaccumM ch); auto. rewrite DM; auto. }
  rewrite EM. cbn [xmul xfloor].
  assert (EN : (if xltb (Fin (IZR (Rfloor (t * d_freq d)))) (Fin 2) then Fin 2 else Fin (IZR (Rfloor (t * d_freq d)))) = Fin (reads t (d_freq d))).
  { unfold reads. destruct (xltb _ _) eqn:X.
    - apply xltb_fin in X. apply lt_IZR in X. rewrite Z.max_l by lia. auto.
    - assert (N : ~ IZR (Rfloor (t * d_freq d)) < 2) by (intros C; apply xltb_fin in C; congruence).
      rewrite Z.max_r; auto. apply Rnot_lt_le in N. apply le_IZR in N. auto. }
  rewrite EN. pose proof (reads_ge2 t (d_freq d)) as G. set (n := reads t (d_freq d)) in *.
  assert (P1 : n * n + n <> 0) by nra. assert (P2 : n * n + 1 <> 0) by nra. assert (P3 : n + - (1) <> 0) by lra.
  assert (P4 : 3 <> 0) by lra. assert (P5 : d_M d <> 0) by lra.
  unfold xsub. cbn [xadd xopp xmul].
  rewrite (xdiv_fin (12 * (n + - (1)))) by auto. rewrite (xdiv_fin _ (d_M d)) by auto.
  rewrite (xdiv_fin 5 3) by auto. cbn [xmul].
  rewrite (xdiv_fin _ (d_M d)) by auto. rewrite (xdiv_fin _ (n * n + 1)) by auto. cbn [xmul].
  rewrite (xdiv_fin _ (n + - (1))) by auto. rewrite (xdiv_fin _ t) by auto. cbn [xopp xadd].
  rewrite (xdiv_fin _ (n * n + n)) by auto. rewrite (xdiv_fin _ 5) by lra. cbn [xmul].
  f_equal; f_equal; unfold read_gain, shot_gain; field; repeat split; auto; nra.
Qed.

(** photon noise table *)
Lemma noise_key_inj a b : noise_key a = noise_key b -> a = b.
Proof.
  unfold noise_key. intros H. apply (f_equal str_chars) in H. rewrite !str_chars_app in H.
  apply app_inv_tail in H. apply str_chars_inj; auto.
Qed.

Lemma photon_noise_get t name g keys : forall out out', photon_noise t name g keys out = Ok out' ->
  (forall k, In k keys -> exists s, select_num name k t = Ok s /\ sget (noise_key k) out' = Some (map (photon_of g) s)) /\
  (forall c, (forall k, In k keys -> c <> noise_key k) -> sget c out' = sget c out).
Proof.
  induction keys as [|k keys IH]; intros out out' H; cbn in H.
  - injection H as <-. split; [intros ? []|auto].
  - destruct (select_num name k t) as [s|] eqn:S; cbn in H; [|discriminate].
    destruct (IH _ _ H) as [A B]. split.
    + intros k' [<-|I]; [|auto]. 
      destruct (in_dec string_dec k keys) as [J|J]; [apply A; auto|].
      exists s. split; auto. rewrite B.
      * apply (dget_dset_same _ String_eqb_spec).
      * intros k' I E. apply noise_key_inj in E. subst; contradiction.
    + intros c N. rewrite B by (intros; apply N; cbn; auto).
      apply (dget_dset_other _ String_eqb_spec). apply N. cbn; auto.
Qed.
Lemma photon_noise_ok t name g keys : (forall k, In k keys -> exists s, select_num name k t = Ok s) ->
  forall out, exists out', photon_noise t name g keys out = Ok out'.
Proof.
  induction keys as [|k keys IH]; intros H out; cbn; [eauto|].
  destruct (H k (or_introl eq_refl)) as [s ->]. cbn. apply IH. intros; apply H; cbn; auto.
Qed.

Lemma photon_of_fin g s : 0 <= g -> 0 <= s -> photon_of (Fin g) (Fin s) = Fin (sqrt (photon2 g s)).
Proof.
  intros G S. unfold photon_of, hour. cbn [xmul]. rewrite xdiv_fin by lra. apply xsqrt_fin.
  apply Rmult_le_pos; [nra|]. apply Rlt_le, Rinv_0_lt_compat. lra.
Qed.
Lemma photon2_pos g s : 0 <= g -> 0 <= s -> 0 <= photon2 g s.
Proof. intros. unfold photon2. apply Rmult_le_pos; [nra|]. apply Rlt_le, Rinv_0_lt_compat. lra. Qed.

Lemma photon_variance_fin n g (v : string -> nat -> R) out keys : 0 <= g ->
  (forall k, In k keys -> sget (noise_key k) out = Some (column n (fun i => photon_of (Fin g) (Fin (v k i))))) ->
  (forall k i, In k keys -> (i < n)%nat -> 0 <= v k i) ->
  forall acc, photon_variance keys out (column n (fun i => Fin (acc i)))
  = Ok (column n (fun i => Fin (acc i + sum_over (fun k => photon2 g (v k i)) keys))).
Proof.
  intros G. induction keys as [|k keys IH]; intros H P acc; cbn [photon_variance sum_over].
  - f_equal. apply column_ext. intros i _. f_equal. ring.
  - rewrite H by (cbn; auto). rewrite zip_column.
    rewrite (column_ext n _ (fun i => Fin (acc i + photon2 g (v k i)))).
    + rewrite IH; [|intros; apply H; cbn; auto|intros; apply P; cbn; auto]. f_equal. apply column_ext. intros i _. f_equal. ring.
    + intros i I. rewrite photon_of_fin by (auto; apply P; cbn; auto). cbn. rewrite sqrt_sqrt; auto.
      apply photon2_pos; auto. apply P; cbn; auto.
Qed.
Lemma sum_over_pos {A} (f : A -> R) l : (forall a, In a l -> 0 <= f a) -> 0 <= sum_over f l.
Proof.
  induction l as [|a l IH]; intros H; cbn; [lra|].
  assert (0 <= f a) by (apply H; cbn; auto). assert (0 <= sum_over f l) by (apply IH; intros; apply H; cbn; auto). lra.
Qed.

Lemma gains_pos n M : 2 <= n -> 0 < M -> 0 < read_gain n M /\ 0 < shot_gain n.
Proof.
  intros N PM. unfold read_gain, shot_gain. split.
  - apply Rdiv_lt_0_compat; auto. apply Rdiv_lt_0_compat; nra.
  - apply Rdiv_lt_0_compat; nra.
Qed.

Lemma signal_key_noise k c : contains "signal" k = true -> contains "signal" c = false -> c <> noise_key k.
Proof.
  intros K C ->. apply contains_spec in K as (a & b & ->).
  assert (X : contains "signal" (noise_key (a ++ "signal" ++ b)) = true); [|congruence].
  apply contains_spec. exists a, (b ++ "_noise")%string. unfold noise_key.
  apply str_chars_inj. rewrite !str_chars_app. rewrite <- !app_assoc. reflexivity.
Qed.

(** The whole channel, for any positive frame time *)
Lemma noise_in_channel_fin t ch common d n v tf sat :
  describes ch d -> physical d -> (0 < n)%nat -> 0 < tf ->
  holds t (ch_name ch) n (needed ++ signal_keys t) v ->
  frame_time t ch = Ok [("saturation_time"%string, sat); ("frameTime"%string, column n (fun _ => Fin tf))] ->
  exists out, noise_in_channel t ch common
    = Ok (try_custom (ch_custom ch) n (try_custom common n
           (sset "total_noise" (column n (fun i => if Req_EM_T (v "star_signal_inAperture"%string i) 0 then NaN
                                                   else Fin (row_noise d (signal_keys t) v tf i))) out))) /\
    (let g := shot_gain (reads tf (d_freq d)) in
     sget "frameTime" out = Some (column n (fun _ => Fin tf)) /\
     sget "darkcurrent_noise" out = Some (column n (fun i => Fin (sqrt (dark2 g (v "WindowSize"%string i) (d_dark d))))) /\
     sget "read_noise" out = Some (column n (fun i => Fin (sqrt (read2 (read_gain (reads tf (d_freq d)) (d_M d)) (d_read d) (v "WindowSize"%string i) tf)))) /\
     forall k, In k (signal_keys t) -> sget (noise_key k) out = Some (column n (fun i => Fin (sqrt (photon2 g (v k i)))))) /\
    (forall c, sget c out <> None <-> In c ["saturation_time"; "frameTime"; "darkcurrent_noise"; "read_noise"]%string \/
                                      In c (map noise_key (signal_keys t))).
Proof.
  intros D PH N T H FT. pose proof PH as (PW & PF & PQ & PM & PD & PR & PX).
  unfold noise_in_channel. rewrite FT. cbn [bind].
  change (sget "frameTime" [("saturation_time"%string, sat); ("frameTime"%string, column n (fun _ => Fin tf))])
    with (Some (column n (fun _ => Fin tf))). cbn [bind].
  destruct n as [|n']; [lia|]. 
  replace (match column (S n') (fun _ : nat => Fin tf) with [] => Err IndexError | x :: _ => Ok x end) with (Ok (Fin tf))
    by (rewrite column_cons; reflexivity). cbn [bind]. set (n := S n') in *.
  rewrite (multiaccum_fin ch d tf D PM) by lra.
  set (rg := read_gain (reads tf (d_freq d)) (d_M d)) in *. set (g := shot_gain (reads tf (d_freq d))) in *.
  destruct (gains_pos (reads tf (d_freq d)) (d_M d) (reads_ge2 _ _) PM) as [RG SG]. fold rg in RG. fold g in SG.
  assert (SK : forall k, In k (signal_keys t) -> select_num (ch_name ch) k t = Ok (column n (fun i => Fin (v k i)))).
  { intros k I. eapply holds_num; eauto. apply in_app_iff; auto. }
  assert (VP : forall k i, In k (needed ++ signal_keys t) -> (i < n)%nat -> 0 <= v k i).
  { intros k i I L. apply (H k); auto. }
  set (out0 := [("saturation_time"%string, sat); ("frameTime"%string, column n (fun _ => Fin tf))]).
  destruct (photon_noise_ok t (ch_name ch) (Fin g) (signal_keys t)) with (out := out0) as [out1 PN].
  { intros k I. eauto. }
  rewrite PN. cbn [bind].
  destruct (photon_noise_get _ _ _ _ _ _ PN) as [PA PB].
  rewrite (holds_num _ _ _ _ _ "WindowSize"%string H) by (cbn; auto). cbn [bind].
  rewrite map_column.
  destruct D as (_ & _ & _ & _ & DD & DR & DX). rewrite DD, DR.
  rewrite (column_ext n (fun i => xsqrt (xdiv (xmul (xmul (Fin g) (Fin (v "WindowSize"%string i))) (Fin (d_dark d))) hour))
            (fun i => Fin (sqrt (dark2 g (v "WindowSize"%string i) (d_dark d))))).
  2: { intros i I. unfold hour. cbn [xmul]. rewrite xdiv_fin by lra. rewrite xsqrt_fin; [reflexivity|].
       assert (0 <= v "WindowSize"%string i) by (apply VP; cbn; auto).
       apply Rmult_le_pos; [apply Rmult_le_pos; [apply Rmult_le_pos; lra|lra]|]. apply Rlt_le, Rinv_0_lt_compat. lra. }
  set (dark := column n (fun i => Fin (sqrt (dark2 g (v "WindowSize"%string i) (d_dark d))))) in *.
  rewrite zip_column.
  rewrite (column_ext n (fun i => xsqrt (xdiv (xdiv (xmul (xmul (Fin rg) (xsq (Fin (d_read d)))) (Fin (v "WindowSize"%string i))) (Fin tf)) hour))
            (fun i => Fin (sqrt (read2 rg (d_read d) (v "WindowSize"%string i) tf)))).
  2: { intros i I. unfold hour, xsq. cbn [xmul]. rewrite xdiv_fin by lra. rewrite xdiv_fin by lra.
       assert (W : 0 <= v "WindowSize"%string i) by (apply VP; cbn; auto).
       rewrite xsqrt_fin.
       - f_equal. f_equal. unfold read2. field. lra.
       - assert (0 <= rg * (d_read d * d_read d) * v "WindowSize"%string i).
         { apply Rmult_le_pos; auto. apply Rmult_le_pos; nra. }
         apply Rmult_le_pos; [|apply Rlt_le, Rinv_0_lt_compat; lra].
         apply Rmult_le_pos; auto. apply Rlt_le, Rinv_0_lt_compat; lra. }
  set (read := column n (fun i => Fin (sqrt (read2 rg (d_read d) (v "WindowSize"%string i) tf)))) in *.
  set (out2 := sset "read_noise" read (sset "darkcurrent_noise" dark out1)).
  assert (KN : forall k c, In k (signal_keys t) -> contains "signal" c = false -> c <> noise_key k).
  { intros k c I C. apply signal_key_noise; auto. unfold signal_keys in I. apply filter_In in I. tauto. }
  assert (GK : forall k, In k (signal_keys t) -> sget (noise_key k) out2 = Some (column n (fun i => photon_of (Fin g) (Fin (v k i))))).
  { intros k I. unfold out2. rewrite !(dget_dset_other _ String_eqb_spec).
    - destruct (PA k I) as (s & S & G). rewrite SK in S by auto. injection S as <-. rewrite G, map_column. reflexivity.
    - intros E. symmetry in E. revert E. apply KN; auto.
    - intros E. symmetry in E. revert E. apply KN; auto. }
  rewrite column_length, repeat_column.
  rewrite (photon_variance_fin n g v out2 (signal_keys t)) with (acc := fun _ => 0); [|lra|auto|].
  2: { intros k i I L. apply VP; auto. apply in_app_iff; auto. }
  cbn [bind]. rewrite (holds_num _ _ _ _ _ "star_signal_inAperture"%string H) by (cbn; auto). cbn [bind].
  assert (ED : dark = column n (fun i => Fin (sqrt (dark2 g (v "WindowSize"%string i) (d_dark d))))) by reflexivity.
  assert (ER : read = column n (fun i => Fin (sqrt (read2 rg (d_read d) (v "WindowSize"%string i) tf)))) by reflexivity.
  assert (EC : forall (a : list xr) (b : list xr), combine (combine (combine dark a) read) b
     = combine (combine (combine (column n (fun i => Fin (sqrt (dark2 g (v "WindowSize"%string i) (d_dark d))))) a)
                        (column n (fun i => Fin (sqrt (read2 rg (d_read d) (v "WindowSize"%string i) tf))))) b)
    by (intros; rewrite ED, ER; reflexivity).
  rewrite EC.
  rewrite !combine_column, map_column.
  assert (EX : match noiseX ch with Some x => x | None => Fin 0 end = Fin (d_X d)).
  { destruct (noiseX ch); auto. rewrite DX; auto. }
  rewrite EX.
  rewrite (column_ext n _ (fun i => if Req_EM_T (v "star_signal_inAperture"%string i) 0 then NaN
                                    else Fin (row_noise d (signal_keys t) v tf i))).
  2: { intros i I. unfold total_of. cbn [xeqb].
       destruct (Req_EM_T (v "star_signal_inAperture"%string i) 0) as [Z|NZ].
       - destruct (xsqrt _); reflexivity.
       - unfold xsq. cbn [xmul xadd].
         assert (W : 0 <= v "WindowSize"%string i) by (apply VP; cbn; auto).
         assert (D0 : 0 <= dark2 g (v "WindowSize"%string i) (d_dark d)).
         { unfold dark2. apply Rmult_le_pos; [apply Rmult_le_pos; [apply Rmult_le_pos; lra|lra]|]. apply Rlt_le, Rinv_0_lt_compat. lra. }
         assert (R0 : 0 <= read2 rg (d_read d) (v "WindowSize"%string i) tf).
         { unfold read2. assert (0 <= rg * d_read d ^ 2 * v "WindowSize"%string i).
           { apply Rmult_le_pos; auto. apply Rmult_le_pos; [lra|]. apply pow2_ge_0. }
           apply Rmult_le_pos; [|apply Rlt_le, Rinv_0_lt_compat; lra].
           apply Rmult_le_pos; auto. apply Rlt_le, Rinv_0_lt_compat; lra. }
         assert (S0 : 0 <= sum_over (fun k => photon2 g (v k i)) (signal_keys t)).
         { apply sum_over_pos. intros k J. apply photon2_pos; [lra|]. apply VP; auto. apply in_app_iff; auto. }
         rewrite !sqrt_sqrt by auto. rewrite Rplus_0_l. rewrite xsqrt_fin by nra. rewrite xdiv_fin by auto. reflexivity. }
  rewrite (holds_num _ _ _ _ _ "Wavelength"%string H) by (cbn; auto). cbn [bind]. rewrite column_length.
  exists out2. split; [reflexivity|]. split; [split; [|split; [|split]]|].
  - unfold out2. rewrite !(dget_dset_other _ String_eqb_spec) by discriminate. rewrite PB; auto.
  - unfold out2. rewrite (dget_dset_other _ String_eqb_spec) by discriminate. apply (dget_dset_same _ String_eqb_spec).
  - apply (dget_dset_same _ String_eqb_spec).
  - intros k I. rewrite GK by auto. f_equal. apply column_ext. intros i L. apply photon_of_fin; [lra|]. apply VP; auto. apply in_app_iff; auto.
  - intros c. unfold out2. rewrite !(dget_dset _ String_eqb_spec).
    destruct (String.eqb_spec c "read_noise") as [->|N1]; [split; [cbn; tauto|discriminate]|].
        destruct (String.eqb_spec c "darkcurrent_noise") as [->|N2]; [split; [cbn; tauto|discriminate]|].
    destruct (in_dec string_dec c (map noise_key (signal_keys t))) as [I|I].
    + split; [auto|]. intros _. apply in_map_iff in I as (k & <- & I). destruct (PA k I) as (s & _ & G). congruence.
    + rewrite PB.
      * cbn. destruct (String.eqb_spec c "saturation_time") as [->|N3]; [split; [tauto|discriminate]|].
        destruct (String.eqb_spec c "frameTime") as [->|N4]; [split; [tauto|discriminate]|].
        split; [congruence|]. intros [[E|[E|[E|[E|[]]]]]|E]; congruence.
      * intros k J E. apply I. apply in_map_iff. eauto.
Qed.

(** custom noise *)
Definition nan_or_pos (b : xr) : Prop := match b with NaN => True | Fin r => 0 <= r | _ => False end.
Lemma quadrature_nan_or_pos b s : nan_or_pos b -> nan_or_pos (quadrature b s).
Proof. destruct b; cbn; auto. intros _. apply sqrt_pos. Qed.
Lemma ppm2_app a b : ppm2 (a ++ b) = ppm2 a + ppm2 b.
Proof. unfold ppm2. induction a as [|x a IH]; cbn [app sum_over]; [ring|]. rewrite IH. ring. Qed.
Lemma ppm2_pos xs : 0 <= ppm2 xs.
Proof. apply sum_over_pos. intros. apply pow2_ge_0. Qed.
Lemma quadrature_0 b : nan_or_pos b -> quadrature b 0 = b.
Proof. destruct b as [r| | |]; cbn; auto. intros P. f_equal. rewrite Rplus_0_r. replace (r * (r * 1)) with (Rsqr r) by (unfold Rsqr; ring). apply sqrt_Rsqr; auto. Qed.
Lemma quadrature_quadrature b s s' : 0 <= s -> quadrature (quadrature b s) s' = quadrature b (s + s').
Proof.
  intros P. destruct b as [r| | |]; cbn [quadrature]; auto. f_equal. f_equal. rewrite pow2_sqrt by nra. ring.
Qed.
Lemma sget_noise_total n : n <> "total"%string -> noise_key n <> "total_noise"%string.
Proof. intros N E. apply N. apply noise_key_inj. rewrite E. reflexivity. Qed.

Lemma map_repeat {A B} (f : A -> B) a n : map f (repeat a n) = repeat (f a) n.
Proof. induction n; cbn; f_equal; auto. Qed.
Lemma zip_repeat {A B C} (h : A -> B -> C) (l : list A) b : zip_with h l (repeat b (length l)) = map (fun a => h a b) l.
Proof. unfold zip_with. induction l; cbn; f_equal; auto. Qed.

Lemma add_entry_total e n out base : valid_entry e -> sget "total_noise" out = Some base -> length base = n ->
  Forall nan_or_pos base ->
  match in_effect [e] with
  | [x] => exists out', add_entry e n out = (out', Ok tt) /\ sget "total_noise" out' = Some (map (fun b => quadrature b ((x / 1000000) ^ 2)) base)
  | _ => exists err, add_entry e n out = (out, Err err)
  end.
Proof.
  intros [VN VF] G L F. unfold add_entry, in_effect. destruct (e_value e) as [x|]; [|destruct (e_name e); eauto].
  destruct (e_name e) as [nm|]; [|destruct x; eauto].
  destruct x as [x| | |]; try (destruct VF as [? VF]; discriminate).
  assert (N : nm <> "total"%string) by (intros ->; apply VN; auto).
  rewrite (dget_dset_other _ String_eqb_spec) by (intros E; symmetry in E; revert E; apply sget_noise_total; auto).
  rewrite G. eexists. split; [reflexivity|]. rewrite (dget_dset_same _ String_eqb_spec). f_equal.
  rewrite <- L, zip_repeat. apply map_ext_in. intros b I. rewrite Forall_forall in F. specialize (F b I).
  destruct b as [r| | |]; cbn in F; try contradiction; [|reflexivity].
  cbn [xmul xadd ppm]. unfold ppm. cbn [xmul xadd]. rewrite xsqrt_fin by nra. cbn. f_equal. f_equal. unfold Rdiv. ring.
Qed.

Lemma add_entries_total es : forall n out base, Forall valid_entry es -> sget "total_noise" out = Some base -> length base = n ->
  Forall nan_or_pos base ->
  sget "total_noise" (fst (add_entries es n out)) = Some (map (fun b => quadrature b (ppm2 (in_effect es))) base).
Proof.
  assert (ID : forall base, Forall nan_or_pos base -> Some base = Some (map (fun b => quadrature b (ppm2 [])) base)).
  { intros base F. f_equal. rewrite <- (map_id base) at 1. apply map_ext_in. intros b I. symmetry. apply quadrature_0.
    rewrite Forall_forall in F; auto. }
  induction es as [|e es IH]; intros n out base V G L F.
  - cbn [add_entries fst in_effect]. rewrite G. auto.
  - inversion V as [|? ? Ve V']; subst. pose proof (add_entry_total e _ _ _ Ve G eq_refl F) as A.
    cbn [add_entries]. cbn [in_effect] in A |- *.
    destruct (e_name e) as [nm|]; [|destruct A as [err ->]; cbn [fst]; rewrite G; auto].
    destruct (e_value e) as [[x| | |]|]; try (destruct A as [err ->]; cbn [fst]; rewrite G; auto).
    destruct A as (out' & -> & G'). rewrite (IH _ _ _ V' G').
    + f_equal. rewrite map_map. apply map_ext. intros b. rewrite quadrature_quadrature by apply pow2_ge_0. f_equal.
    + rewrite map_length. auto.
    + rewrite Forall_map. eapply Forall_impl; [|exact F]. intros b. apply quadrature_nan_or_pos.
Qed.
Lemma add_custom_entries c n out : fst (add_custom c n out) = fst (add_entries (entries (Some c)) n out).
Proof. destruct c; cbn; auto. destruct (add_entry e n out) as [o [u|]]; auto. Qed.
Lemma try_custom_total c n out base : Forall valid_entry (entries c) -> sget "total_noise" out = Some base -> length base = n ->
  Forall nan_or_pos base ->
  sget "total_noise" (try_custom c n out) = Some (map (fun b => quadrature b (ppm2 (in_effect (entries c)))) base).
Proof.
  intros V G L F. destruct c as [c|].
  - cbn [try_custom]. rewrite add_custom_entries. apply add_entries_total; auto.
  - cbn. rewrite G. f_equal. rewrite <- (map_id base) at 1. apply map_ext_in. intros b I. symmetry. apply quadrature_0.
    rewrite Forall_forall in F; auto.
Qed.
(** Other columns *)
Lemma add_entries_other es : forall n out c, (forall m, c <> noise_key m) -> 
  sget c (fst (add_entries es n out)) = sget c out.
Proof.
  induction es as [|e es IH]; intros n out c N; cbn [add_entries fst]; auto.
  unfold add_entry. destruct (e_value e) as [x|]; auto. destruct (e_name e) as [nm|]; auto.
  assert (E1 : forall (v : list xr) (o : ntable), sget c (sset (noise_key nm) v o) = sget c o).
  { intros v o. apply (dget_dset_other _ String_eqb_spec). auto. }
  assert (E2 : forall (v : list xr) (o : ntable), sget c (sset "total_noise" v o) = sget c o).
  { intros v o. apply (dget_dset_other _ String_eqb_spec). apply (N "total"%string). }
  destruct (sget "total_noise" _); cbn [fst]; auto. rewrite IH by auto. rewrite E2. auto.
Qed.
Lemma try_custom_other cu n out c : (forall m, c <> noise_key m) -> sget c (try_custom cu n out) = sget c out.
Proof. intros N. destruct cu; auto. cbn. rewrite add_custom_entries. apply add_entries_other; auto. Qed.
Lemma not_noise_key c : ends_with "_noise" c = false -> forall m, c <> noise_key m.
Proof.
  intros E m ->. unfold noise_key in E. unfold ends_with in E. rewrite str_chars_app, rev_app_distr in E. discriminate.
Qed.

(** shape of the output of a channel *)
Definition out_key (c : string) : Prop := c = "saturation_time"%string \/ c = "frameTime"%string \/ exists m, c = noise_key m.
Definition good (n : nat) (o : ntable) : Prop :=
  NoDup (map fst o) /\ forall c col, In (c, col) o -> length col = n /\ out_key c.
Lemma In_dset {V} (k c : string) (v v' : V) o : In (c, v') (sset k v o) -> (c = k /\ v' = v) \/ In (c, v') o.
Proof.
  induction o as [|[k' w] o IH]; cbn.
  - intros [[= <- <-]|[]]; auto.
  - destruct (String.eqb_spec k k') as [->|N].
    + intros [[= <- <-]|I]; auto.
    + intros [[= <- <-]|I]; auto. destruct (IH I); auto.
Qed.
Lemma good_set n k v o : good n o -> length v = n -> good n (sset (noise_key k) v o).
Proof.
  intros [ND L] LV. split.
  - apply (dset_NoDup _ String_eqb_spec). auto.
  - intros c col I. apply In_dset in I as [[-> ->]|I]; eauto. split; auto. right; right; eauto.
Qed.
Lemma zip_length {A B C} (h : A -> B -> C) a b n : length a = n -> length b = n -> length (zip_with h a b) = n.
Proof. intros. unfold zip_with. rewrite map_length, combine_length. lia. Qed.
Lemma good_get n o c col : good n o -> sget c o = Some col -> length col = n.
Proof. intros [_ L] G. eapply L. apply (dget_Some_In _ String_eqb_spec); eauto. Qed.

Lemma photon_noise_good n t name g keys : (forall k s, select_num name k t = Ok s -> length s = n) ->
  forall out out', photon_noise t name g keys out = Ok out' -> good n out -> good n out'.
Proof.
  intros H. induction keys as [|k keys IH]; intros out out'; cbn; [intros [= <-]; auto|].
  destruct (select_num name k t) as [s|] eqn:S; cbn; [|discriminate]. intros E G. apply (IH _ _ E).
  apply good_set; auto. rewrite map_length. eauto.
Qed.
Lemma add_entries_good n es : forall out, good n out -> good n (fst (add_entries es n out)).
Proof.
  induction es as [|e es IH]; intros out G; cbn [add_entries fst]; auto. unfold add_entry.
  destruct (e_value e) as [x|]; auto. destruct (e_name e) as [nm|]; auto.
  assert (G1 : good n (sset (noise_key nm) (repeat (xmul x ppm) n) out)) by (apply good_set; auto; apply repeat_length).
  destruct (sget "total_noise" _) as [tot|] eqn:T; cbn [fst]; auto. apply IH. apply (good_set n "total"); auto.
  apply zip_length; [eapply good_get; eauto|apply repeat_length].
Qed.
Lemma try_custom_good n c out : good n out -> good n (try_custom c n out).
Proof. intros G. destruct c; auto. cbn. rewrite add_custom_entries. apply add_entries_good; auto. Qed.
Lemma photon_variance_length n keys out : good n out -> forall acc v, photon_variance keys out acc = Ok v -> length acc = n -> length v = n.
Proof.
  intros G. induction keys as [|k keys IH]; intros acc v; cbn; [intros [= <-]; auto|].
  destruct (sget (noise_key k) out) as [c|] eqn:S; [|discriminate]. intros E L. apply (IH _ _ E). apply zip_length; auto. eapply good_get; eauto.
Qed.

(** inversion of a successful estimate *)
Lemma frame_time_shape t ch n o : (forall k s, select_num (ch_name ch) k t = Ok s -> length s = n) ->
  frame_time t ch = Ok o -> exists sat ft, o = [("saturation_time"%string, sat); ("frameTime"%string, repeat ft n)] /\ length sat = n.
Proof.
  intros H. unfold frame_time.
  destruct (select_num (ch_name ch) "MaxSignal_inPixel" t) as [m|] eqn:M; cbn [bind]; [|discriminate].
  pose proof (H _ _ M) as LM.
  set (sat := map (xdiv (well_depth ch)) m) in *. assert (LS : length sat = n) by (unfold sat; rewrite map_length; auto).
  clearbody sat.
  destruct (fixed_frame_time ch) as [ft|]; [intros [= <-]; rewrite LS; eauto|].
  destruct (f_well_depth ch) as [f|]; [|discriminate]. destruct sat as [|s0 sat]; [discriminate|].
  rewrite LS. intros [= <-]. eauto.
Qed.

Lemma noise_in_channel_good t ch common out n : (forall k s, select_num (ch_name ch) k t = Ok s -> length s = n) ->
  noise_in_channel t ch common = Ok out -> good n out /\ sget "total_noise" out <> None /\ (0 < n)%nat.
Proof.
  intros H E. unfold noise_in_channel in E.
  destruct (frame_time t ch) as [o0|] eqn:FT; cbn [bind] in E; [|discriminate].
  destruct (frame_time_shape _ _ _ _ H FT) as (sat & ft & -> & LS).
  change (sget "frameTime" [("saturation_time"%string, sat); ("frameTime"%string, repeat ft n)]) with (Some (repeat ft n)) in E. cbn [bind] in E.
  destruct n as [|n']; [discriminate|]. set (n := S n') in *.
  replace (match repeat ft n with [] => Err IndexError | x :: _ => Ok x end) with (Ok ft) in E by reflexivity. cbn [bind] in E.
  destruct (multiaccum ch ft) as [rg sg].
  destruct (photon_noise _ _ _ _ _) as [o1|] eqn:PN; cbn [bind] in E; [|discriminate].
  assert (G1 : good n o1).
  { eapply photon_noise_good; eauto. split.
    - cbn. repeat constructor; cbn; intuition discriminate.
    - intros c col [[= <- <-]|[[= <- <-]|[]]]; pose proof (repeat_length ft n); unfold out_key; auto. }
  destruct (select_num (ch_name ch) "WindowSize" t) as [w|] eqn:W; cbn [bind] in E; [|discriminate].
  pose proof (H _ _ W) as LW.
  set (o2 := sset "read_noise" _ _) in E.
  assert (G2 : good n o2).
  { unfold o2. apply (good_set n "read"); [apply (good_set n "darkcurrent"); auto; rewrite map_length; auto|]. apply zip_length; auto. apply repeat_length. }
  destruct (photon_variance _ _ _) as [var|] eqn:PV; cbn [bind] in E; [|discriminate].
  assert (LV : length var = n). { eapply photon_variance_length; eauto. rewrite !repeat_length; auto. }
  destruct (select_num (ch_name ch) "star_signal_inAperture" t) as [s|] eqn:SS; cbn [bind] in E; [|discriminate].
  pose proof (H _ _ SS) as LSS.
  destruct (select_num (ch_name ch) "Wavelength" t) as [wl|] eqn:WL; cbn [bind] in E; [|discriminate].
  pose proof (H _ _ WL) as LWL. rewrite LWL in E.
  set (tot := map _ _) in E.
  assert (LT : length tot = n).
  { unfold tot. rewrite map_length, !combine_length, map_length, LW, LV, LSS, (zip_length _ _ _ n); auto using repeat_length. lia. }
  assert (G3 : good n (sset "total_noise" tot o2)) by (apply (good_set n "total"); auto).
  injection E as <-. split; [|split; [|lia]].
  - apply try_custom_good, try_custom_good; auto.
  - assert (K : forall c o, sget "total_noise" o <> None -> sget "total_noise" (try_custom c n o) <> None).
    { clear. intros c o. destruct c; auto. cbn. rewrite add_custom_entries. generalize (entries (Some c)) as es. intros es.
      revert o. induction es as [|e es IH]; intros o N; cbn [add_entries fst]; auto. unfold add_entry.
      destruct (e_value e) as [x|]; auto. destruct (e_name e) as [nm|]; auto.
      assert (N1 : sget "total_noise" (sset (noise_key nm) (repeat (xmul x ppm) n) o) <> None).
      { rewrite (dget_dset _ String_eqb_spec). destruct (String.eqb _ _); auto. discriminate. }
      destruct (sget "total_noise" (sset (noise_key nm) _ o)); cbn [fst]; auto.
      apply IH. rewrite (dget_dset_same _ String_eqb_spec). discriminate. }
    apply K, K. rewrite (dget_dset_same _ String_eqb_spec). discriminate.
Qed.
