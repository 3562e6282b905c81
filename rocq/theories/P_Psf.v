(** Properties of point spread functions. *)
From Verif Require Import Base XR M_Signal M_Optics M_Light M_Bins M_Psf S_Signal S_Optics S_Light S_Bins S_Psf L_Signal L_Optics L_Light L_Bins L_Psf.
From Coq Require Import Sorted.
Open Scope list_scope.
Open Scope R_scope.

(** ** C54: the pixel kernel *)
Lemma kernel_light kx ky : 0 <= kx -> 0 <= ky -> light (kernel kx ky) = kx * ky.
Proof.
  intros Hx Hy. destruct (kernel_spec kx ky Hx Hy) as (nx & fx & ny & fy & [Ex Fx] & [Ey Fy] & Hr & He). rewrite (light_entries _ _ _ Hr).
  rewrite (sum_below_ext _ _ (fun i => kx * share (ny + 2) fy i)).
  - rewrite sum_below_scale, share_sum, Ey. reflexivity.
  - intros i Hi. rewrite (sum_below_ext _ _ (fun j => share (ny + 2) fy i * share (nx + 2) fx j)) by (intros; now apply He). rewrite sum_below_scale, share_sum, Ex. ring.
Qed.
(** A pixel of kx by ky samples: all weights are between 0 and 1, whole samples count fully, the rest
    is split over the two ends of each axis, and the total is the area of the pixel. *)
Theorem C54_kernel_weight : forall kx ky, 0 <= kx -> 0 <= ky -> light (kernel kx ky) = kx * ky
  /\ exists nx fx ny fy, whole_and_fraction kx nx fx /\ whole_and_fraction ky ny fy /\ rectangular (ny + 2) (nx + 2) (kernel kx ky)
     /\ forall i j, (i < ny + 2)%nat -> (j < nx + 2)%nat -> entry (kernel kx ky) i j = share (ny + 2) fy i * share (nx + 2) fx j /\ 0 <= entry (kernel kx ky) i j <= 1.
Proof.
  intros kx ky Hx Hy. split; [now apply kernel_light|]. destruct (kernel_spec kx ky Hx Hy) as (nx & fx & ny & fy & Wx & Wy & Hr & He). exists nx, fx, ny, fy. split; [exact Wx|]. split; [exact Wy|]. split; [exact Hr|].
  intros i j Hi Hj. split; [now apply He|]. rewrite He by auto. pose proof (share_bounds (ny + 2) fy i (proj2 Wy)). pose proof (share_bounds (nx + 2) fx j (proj2 Wx)). nra.
Qed.
Print Assumptions C54_kernel_weight.
(** In micron: samples of size F lambda cdelt in each direction add up to the area of the pixel. *)
Theorem C54_pixel_area : forall delta fx fy wl cx cy, 0 < delta -> 0 < fx -> 0 < fy -> 0 < wl -> 0 < cx -> 0 < cy ->
  light (kernel (samples_per_pixel delta fx wl cx) (samples_per_pixel delta fy wl cy)) * (fx * wl * cx) * (fy * wl * cy) = delta ^ 2.
Proof.
  intros delta fx fy wl cx cy Hd Hx Hy Hw Hcx Hcy. assert (0 < fx * wl * cx) by (repeat apply Rmult_lt_0_compat; auto). assert (0 < fy * wl * cy) by (repeat apply Rmult_lt_0_compat; auto).
  unfold samples_per_pixel. rewrite kernel_light by (left; now apply Rdiv_lt_0_compat). field. lra.
Qed.
Print Assumptions C54_pixel_area.

(** ** C69: binning of an image *)
Lemma im_dims h w (im : image) : rectangular h w im -> (0 < h)%nat -> rows im = h /\ columns im = w.
Proof. intros. split; [eapply rect_rows; eauto|eapply rect_columns; eauto]. Qed.
Lemma kernel_dims kx ky : 0 <= kx -> 0 <= ky -> exists h w, rectangular h w (kernel kx ky) /\ (0 < w)%nat /\ (0 < h)%nat /\ rows (kernel kx ky) = h /\ columns (kernel kx ky) = w /\ forall i j, 0 <= entry (kernel kx ky) i j <= 1.
Proof.
  intros Hx Hy. destruct (C54_kernel_weight kx ky Hx Hy) as (_ & nx & fx & ny & fy & Wx & Wy & Hr & He). exists (ny + 2)%nat, (nx + 2)%nat. split; auto. split; [lia|]. split; [lia|]. destruct (im_dims _ _ _ Hr ltac:(lia)) as [A B]. split; [exact A|]. split; [exact B|]. intros i j. split.
  - destruct (Nat.ltb_spec i (ny + 2)); [|rewrite (entry_outside _ _ _ _ _ Hr) by lia; lra]. destruct (Nat.ltb_spec j (nx + 2)); [|rewrite (entry_outside _ _ _ _ _ Hr) by lia; lra]. now apply He.
  - destruct (Nat.ltb_spec i (ny + 2)); [|rewrite (entry_outside _ _ _ _ _ Hr) by lia; lra]. destruct (Nat.ltb_spec j (nx + 2)); [|rewrite (entry_outside _ _ _ _ _ Hr) by lia; lra]. now apply He.
Qed.
Lemma column_bound h w im k j : rectangular h w im -> (0 < h)%nat -> (j < w)%nat -> dark_nowhere im -> (forall p q, 0 <= entry k p q) ->
  forall m, (forall q, (q < columns k)%nat -> sum_below (rows k) (fun p => entry k p q) <= m) -> 0 <= m -> column_light (convolve2d im k) j <= m * light im.
Proof.
  intros Hr Hh Hj Hd Hk m Hm Hm0. destruct (im_dims _ _ _ Hr Hh) as [E1 E2]. pose proof (convolve_rect im k) as Hc. rewrite E1, E2 in Hc.
  rewrite (column_light_entries _ _ _ _ Hc). rewrite (sum_below_ext _ _ (fun i => sum_below (columns k) (fun q => sum_below (rows k) (fun p => entry k p q * shifted (fun r => shifted (entry im r) w (j + (columns k - 1) / 2) q) h (i + (rows k - 1) / 2) p)))).
  2: { intros i Hi. rewrite convolve_entry by lia. rewrite E1, E2. apply sum_below_swap. }
  rewrite sum_below_swap. set (T := fun q => sum_below h (fun r => shifted (entry im r) w (j + (columns k - 1) / 2) q)).
  assert (HT : forall q, 0 <= T q). { intros q. apply sum_below_nonneg. intros r _. apply shifted_nonneg. intros; now apply entry_nonneg. }
  apply Rle_trans with (sum_below (columns k) (fun q => m * T q)).
  - apply sum_below_le. intros q Hq. rewrite sum_below_swap. apply Rle_trans with (sum_below (rows k) (fun p => T q * entry k p q)).
    + apply sum_below_le. intros p _. rewrite sum_below_scale, Rmult_comm. apply Rmult_le_compat_r; [apply Hk|].
      apply (shifted_sum_m (fun r => shifted (entry im r) w (j + (columns k - 1) / 2) q)). intros r _. apply shifted_nonneg. intros; now apply entry_nonneg.
    + rewrite sum_below_scale, Rmult_comm. apply Rmult_le_compat_r; auto.
  - rewrite sum_below_scale. apply Rmult_le_compat_l; auto. unfold T. rewrite sum_below_swap, (light_entries _ _ _ Hr). apply sum_below_le. intros r _. apply shifted_sum_p. intros; now apply entry_nonneg.
Qed.
(** Binning keeps the shape; every value is at least 0 and at most all of the light; the total is at
    most the area of a pixel times the light (less where pixels reach beyond the border). *)
Theorem C69_binning_bounds : forall h w im kx ky, rectangular h w im -> (0 < h)%nat -> dark_nowhere im -> 0 <= kx -> 0 <= ky ->
  let prf := fst (binned_psf im kx ky) in
  rectangular h w prf /\ (forall i j, (i < h)%nat -> (j < w)%nat -> 0 <= entry prf i j <= light im) /\ light prf <= kx * ky * light im.
Proof.
  intros h w im kx ky Hr Hh Hd Hx Hy prf. unfold prf, binned_psf. cbn [fst]. destruct (im_dims _ _ _ Hr Hh) as [E1 E2]. pose proof (convolve_rect im (kernel kx ky)) as Hc. rewrite E1, E2 in Hc. split; auto.
  destruct (kernel_dims kx ky Hx Hy) as (kh & kw & Kr & Kw & Kh & K1 & K2 & Kb). set (k := kernel kx ky) in *. assert (He : forall r i, 0 <= entry im r i) by (intros; now apply entry_nonneg).
  split.
  - intros i j Hi Hj. rewrite convolve_entry by lia. rewrite E1, E2, K1, K2. split.
    + apply sum_below_nonneg. intros p _. apply sum_below_nonneg. intros q _. apply Rmult_le_pos; [apply Kb|]. apply shifted_nonneg. intros. apply shifted_nonneg. auto.
    + rewrite (light_entries _ _ _ Hr). apply Rle_trans with (sum_below kh (fun p => shifted (fun r => sum_below w (entry im r)) h (i + (kh - 1) / 2) p)).
      * apply sum_below_le. intros p _. apply Rle_trans with (sum_below kw (fun q => shifted (fun r => shifted (entry im r) w (j + (kw - 1) / 2) q) h (i + (kh - 1) / 2) p)).
        { apply sum_below_le. intros q _. rewrite <- (Rmult_1_l (shifted _ h _ p)) at 2. apply Rmult_le_compat_r; [|apply Kb]. apply shifted_nonneg. intros. apply shifted_nonneg. auto. }
        rewrite <- (shifted_sum (fun r q => shifted (entry im r) w (j + (kw - 1) / 2) q)). unfold shifted at 1 3. destruct (Nat.leb p _); [|lra]. destruct (Nat.ltb _ h); [|lra]. apply shifted_sum_p. auto.
      * apply (shifted_sum_p (fun r => sum_below w (entry im r))). intros. apply sum_below_nonneg. auto.
  - rewrite (light_entries _ _ _ Hc). rewrite (sum_below_ext h _ (fun i => sum_below kh (fun p => sum_below kw (fun q => entry k p q * sum_below w (fun j => shifted (fun r => shifted (entry im r) w (j + (kw - 1) / 2) q) h (i + (kh - 1) / 2) p))))).
    2: { intros i Hi. rewrite (sum_below_ext w _ (fun j => sum_below kh (fun p => sum_below kw (fun q => entry k p q * shifted (fun r => shifted (entry im r) w (j + (kw - 1) / 2) q) h (i + (kh - 1) / 2) p)))).
         - rewrite sum_below_swap. apply sum_below_ext. intros p _. rewrite sum_below_swap. apply sum_below_ext. intros q _. apply sum_below_scale.
         - intros j Hj. rewrite convolve_entry by lia. now rewrite E1, E2, K1, K2. }
    rewrite sum_below_swap. rewrite <- (kernel_light kx ky Hx Hy). fold k. rewrite (light_entries _ _ _ Kr). rewrite Rmult_comm, <- sum_below_scale. apply sum_below_le. intros p _. rewrite sum_below_swap, <- sum_below_scale. apply sum_below_le. intros q _.
    rewrite sum_below_scale, Rmult_comm. apply Rmult_le_compat_r; [apply Kb|]. rewrite (light_entries _ _ _ Hr).
    apply Rle_trans with (sum_below h (fun i => shifted (fun r => sum_below w (entry im r)) h (i + (kh - 1) / 2) p)).
    + apply sum_below_le. intros i _. rewrite <- (shifted_sum (fun r j => shifted (entry im r) w (j + (kw - 1) / 2) q)). unfold shifted at 1 3. destruct (Nat.leb p _); [|lra]. destruct (Nat.ltb _ h); [|lra]. apply shifted_sum_m. auto.
    + apply (shifted_sum_m (fun r => sum_below w (entry im r))). intros. apply sum_below_nonneg. auto.
Qed.
Print Assumptions C69_binning_bounds.

(** A single bright sample becomes the kernel around it: sample (i, j) of the result is the entry
    (i - r + (kh - 1) / 2, j - c + (kw - 1) / 2) of the kernel, where there is one. *)
Theorem C69_point_becomes_the_pixel : forall h w r c s im kx ky, point_image h w r c s im -> 0 <= kx -> 0 <= ky ->
  exists kh kw, rectangular kh kw (kernel kx ky) /\ forall i j, (i < h)%nat -> (j < w)%nat ->
    entry (fst (binned_psf im kx ky)) i j
    = if Nat.leb r (i + (kh - 1) / 2) && Nat.leb c (j + (kw - 1) / 2) then s * entry (kernel kx ky) (i + (kh - 1) / 2 - r) (j + (kw - 1) / 2 - c) else 0.
Proof.
  intros h w r c s im kx ky (Hr & Hrh & Hcw & He) Hx Hy. destruct (im_dims _ _ _ Hr ltac:(lia)) as [E1 E2]. destruct (kernel_dims kx ky Hx Hy) as (kh & kw & Kr & Kw & Kh & K1 & K2 & Kb). exists kh, kw. split; auto.
  intros i j Hi Hj. unfold binned_psf. cbn [fst]. rewrite convolve_entry by lia. rewrite E1, E2, K1, K2. set (k := kernel kx ky) in *. set (mi := (i + (kh - 1) / 2)%nat). set (mj := (j + (kw - 1) / 2)%nat).
  assert (Hz : forall p q, shifted (fun r0 => shifted (entry im r0) w mj q) h mi p = if (Nat.eqb (p + r) mi && Nat.eqb (q + c) mj)%bool then s else 0).
  { intros p q. unfold shifted. destruct (Nat.eqb_spec (p + r) mi) as [A|A]; destruct (Nat.eqb_spec (q + c) mj) as [B|B]; cbn [andb];
    repeat match goal with |- context [Nat.leb ?x ?y] => destruct (Nat.leb_spec x y) | |- context [Nat.ltb ?x ?y] => destruct (Nat.ltb_spec x y) end; try lia; auto;
    rewrite He; destruct (Nat.eqb_spec (mi - p) r); destruct (Nat.eqb_spec (mj - q) c); cbn [andb]; try lia; auto. }
  rewrite (sum_below_ext kh _ (fun p => sum_below kw (fun q => entry k p q * (if (Nat.eqb (p + r) mi && Nat.eqb (q + c) mj)%bool then s else 0)))).
  2: { intros p _. apply sum_below_ext. intros q _. now rewrite Hz. }
  destruct (Nat.leb_spec r mi) as [A|A]; cbn [andb].
  2: { apply sum_below_0. intros p _. apply sum_below_0. intros q _. destruct (Nat.eqb_spec (p + r) mi); [lia|]. cbn [andb]. lra. }
  destruct (Nat.leb_spec c mj) as [B|B].
  2: { apply sum_below_0. intros p _. apply sum_below_0. intros q _. destruct (Nat.eqb_spec (q + c) mj); [lia|]. rewrite andb_false_r. lra. }
  destruct (Nat.ltb_spec (mi - r) kh) as [C|C].
  2: { rewrite (entry_outside _ _ _ _ _ Kr) by lia. rewrite sum_below_0; [lra|]. intros p Hp. apply sum_below_0. intros q _. destruct (Nat.eqb_spec (p + r) mi); [lia|]. cbn [andb]. lra. }
  destruct (Nat.ltb_spec (mj - c) kw) as [D|D].
  2: { rewrite (entry_outside _ _ _ _ _ Kr) by lia. rewrite sum_below_0; [lra|]. intros p _. apply sum_below_0. intros q Hq. destruct (Nat.eqb_spec (q + c) mj); [lia|]. rewrite andb_false_r. lra. }
  rewrite (sum_below_one kh (mi - r)) by first [exact C | intros p Hp Hne; apply sum_below_0; intros q _; destruct (Nat.eqb_spec (p + r) mi); [lia|]; cbn [andb]; lra].
  rewrite (sum_below_one kw (mj - c)) by first [exact D | intros q Hq Hne; destruct (Nat.eqb_spec (q + c) mj); [lia|]; rewrite andb_false_r; lra].
  destruct (Nat.eqb_spec (mi - r + r) mi); [|lia]. destruct (Nat.eqb_spec (mj - c + c) mj); [|lia]. cbn [andb]. ring.
Qed.
Print Assumptions C69_point_becomes_the_pixel.

Theorem C69_binning_is_linear : forall h w a b c k l kx ky, rectangular h w a -> rectangular h w b -> rectangular h w c -> (0 < h)%nat -> mixed k l a b c ->
  mixed k l (fst (binned_psf a kx ky)) (fst (binned_psf b kx ky)) (fst (binned_psf c kx ky)).
Proof.
  intros h w a b c k l kx ky Ha Hb Hc Hh Hm i j. unfold binned_psf. cbn [fst].
  assert (Hr : forall im, rectangular h w im -> rectangular h w (convolve2d im (kernel kx ky))). { intros im H. pose proof (convolve_rect im (kernel kx ky)) as X. destruct (im_dims _ _ _ H Hh) as [E1 E2]. now rewrite E1, E2 in X. }
  destruct (Nat.ltb_spec i h) as [Hi|Hi]; [|rewrite !(entry_outside h w) by (auto; lia); ring]. destruct (Nat.ltb_spec j w) as [Hj|Hj]; [|rewrite !(entry_outside h w) by (auto; lia); ring].
  destruct (im_dims _ _ _ Ha Hh) as [A1 A2], (im_dims _ _ _ Hb Hh) as [B1 B2], (im_dims _ _ _ Hc Hh) as [C1 C2]. rewrite !convolve_entry by lia. rewrite A1, A2, B1, B2, C1, C2.
  rewrite <- !sum_below_scale, <- sum_below_plus. apply sum_below_ext. intros p _. rewrite <- !sum_below_scale, <- sum_below_plus. apply sum_below_ext. intros q _.
  rewrite (shifted_ext _ (fun r => k * shifted (entry a r) w (j + (columns (kernel kx ky) - 1) / 2) q + l * shifted (entry b r) w (j + (columns (kernel kx ky) - 1) / 2) q)).
  - rewrite shifted_scale. ring.
  - intros r _. rewrite <- shifted_scale. apply shifted_ext. intros; apply Hm.
Qed.
Print Assumptions C69_binning_is_linear.

(** ** C70: the gain of a spectrometer *)
Lemma column_sums_at h w im : rectangular h w im -> (0 < h)%nat -> column_sums im = map (column_light im) (seq 0 w).
Proof. intros Hr Hh. unfold column_sums. now rewrite (rect_columns _ _ _ Hr Hh). Qed.
Lemma kernel_columns kx ky : 0 < kx -> 0 < ky -> exists h w, rectangular h w (kernel kx ky) /\ (0 < h)%nat /\ (0 < w)%nat
  /\ greatest (if Rlt_dec kx 1 then kx * ky / 2 else ky) (column_sums (kernel kx ky)).
Proof.
  intros Hx Hy. destruct (kernel_spec kx ky ltac:(lra) ltac:(lra)) as (nx & fx & ny & fy & [Ex Fx] & [Ey Fy] & Hr & He). exists (ny + 2)%nat, (nx + 2)%nat. split; auto. split; [lia|]. split; [lia|].
  rewrite (column_sums_at _ _ _ Hr) by lia.
  assert (Hc : forall j, (j < nx + 2)%nat -> column_light (kernel kx ky) j = ky * share (nx + 2) fx j).
  { intros j Hj. rewrite (column_light_entries _ _ _ _ Hr). rewrite (sum_below_ext _ _ (fun i => share (nx + 2) fx j * share (ny + 2) fy i)) by (intros; rewrite He by auto; ring). rewrite sum_below_scale, share_sum, Ey. ring. }
  destruct (Rlt_dec kx 1) as [H1|H1].
  - assert (nx = O) as ->. { destruct nx; auto. rewrite S_INR in Ex. pose proof (pos_INR nx). lra. } change (INR 0) with 0 in Ex. assert (Ef : ky * (fx / 2) = kx * ky / 2) by (rewrite Ex; field). split.
    + apply in_map_iff. exists O. split; [|apply in_seq; lia]. rewrite Hc by lia. exact Ef.
    + intros y Hy'. apply in_map_iff in Hy'. destruct Hy' as (j & <- & Hj). apply in_seq in Hj. rewrite Hc by lia. unfold share. destruct (Nat.eqb_spec j 0); [lra|]. destruct (Nat.eqb_spec j (0 + 2 - 1)); [lra|lia].
  - assert (0 < nx)%nat. { destruct nx; [|lia]. change (INR 0) with 0 in Ex. lra. } split.
    + apply in_map_iff. exists 1%nat. split; [|apply in_seq; lia]. rewrite Hc by lia. unfold share. destruct (Nat.eqb_spec 1 0); [lia|]. destruct (Nat.eqb_spec 1 (nx + 2 - 1)); [lia|]. lra.
    + intros y Hy'. apply in_map_iff in Hy'. destruct Hy' as (j & <- & Hj). apply in_seq in Hj. rewrite Hc by lia. pose proof (share_bounds (nx + 2) fx j Fx). nra.
Qed.
Lemma greatest_scaled m x l : 0 < m -> greatest x l -> array_max (map (fun v => v / m) l) = Ok (x / m).
Proof.
  intros Hm [Hi Hg]. destruct (array_max (map (fun v => v / m) l)) as [y|] eqn:E.
  - apply array_max_spec in E. destruct E as [A B]. f_equal. apply Rle_antisym.
    + apply in_map_iff in A. destruct A as (v & <- & Hv). apply Rmult_le_compat_r; [left; now apply Rinv_0_lt_compat|auto].
    + apply B. apply in_map_iff. eauto.
  - destruct l; [destruct Hi|discriminate].
Qed.
Lemma greatest_max x l : greatest x l -> array_max l = Ok x.
Proof. intros H. pose proof (greatest_scaled 1 x l ltac:(lra) H) as E. rewrite (map_ext _ (fun v => v)) in E by (intros; field). rewrite map_id in E. rewrite E. f_equal. field. Qed.
Lemma greatest_exists (l : list R) : l <> [] -> exists x, greatest x l.
Proof. destruct l as [|a l]; [congruence|]. intros _. exists (rmax a l). apply rmax_greatest. Qed.
(** The gain is the greatest column of the binned image over the greatest column of the kernel (the
    height of the pixel; half its area when the pixel is narrower than a sample), times the Strehl
    ratio; for a psf in pixels it is the greatest column itself. *)
Theorem C70_gain : forall h w im kx ky wfe wl, rectangular h w im -> (0 < h)%nat -> (0 < w)%nat -> 0 < kx -> 0 < ky ->
  (forall p, binned_psf im kx ky = p -> exists g, greatest g (map (column_light (fst p)) (seq 0 w)) /\
     prf_gain (fst p) (Some (snd p)) wfe wl = Ok (g / (if Rlt_dec kx 1 then kx * ky / 2 else ky) * strehl wfe wl))
  /\ (exists g, greatest g (map (column_light im) (seq 0 w)) /\ prf_gain im None wfe wl = Ok (g * strehl wfe wl)).
Proof.
  intros h w im kx ky wfe wl Hr Hh Hw Hx Hy. assert (Hne : forall f : nat -> R, map f (seq 0 w) <> []) by (intros f; destruct w; [lia|discriminate]). split.
  - intros p <-. unfold binned_psf. cbn [fst snd]. destruct (im_dims _ _ _ Hr Hh) as [E1 E2]. pose proof (convolve_rect im (kernel kx ky)) as Hc. rewrite E1, E2 in Hc.
    destruct (greatest_exists (map (column_light (convolve2d im (kernel kx ky))) (seq 0 w)) (Hne _)) as (g & Hg). exists g. split; auto.
    destruct (kernel_columns kx ky Hx Hy) as (kh & kw & Kr & Kh & Kw & Kg). unfold prf_gain. rewrite (greatest_max _ _ Kg). cbn [bind]. rewrite (column_sums_at _ _ _ Hc Hh). rewrite (greatest_scaled _ g); auto.
    destruct (Rlt_dec kx 1); nra.
  - destruct (greatest_exists (map (column_light im) (seq 0 w)) (Hne _)) as (g & Hg). exists g. split; auto. unfold prf_gain. cbn [bind]. rewrite (column_sums_at _ _ _ Hr Hh). rewrite (greatest_scaled 1 g); auto; [|lra]. cbn [bind]. f_equal. field.
Qed.
Print Assumptions C70_gain.
(** The Strehl ratio is between 0 and 1, 1 without wavefront error, falls with the error and rises
    with the wavelength. *)
Theorem C70_strehl : forall wl w, 0 < wl -> 0 <= w ->
  strehl None wl = 1 /\ strehl (Some 0) wl = 1 /\ 0 < strehl (Some w) wl <= 1
  /\ (forall w', w < w' -> strehl (Some w') wl < strehl (Some w) wl)
  /\ (forall wl', wl < wl' -> 0 < w -> strehl (Some w) wl < strehl (Some w) wl').
Proof.
  intros wl w Hl Hw. pose proof PI_RGT_0 as Hpi. unfold strehl. assert (Hd : forall u v, 0 <= u -> 0 < v -> 0 <= 2 * PI * u / v). { intros u v Hu Hv. apply Rmult_le_pos; [|left; now apply Rinv_0_lt_compat]. apply Rmult_le_pos; lra. }
  split; auto. split. { replace (- (2 * PI * 0 / wl) ^ 2) with 0 by (field; lra). apply exp_0. }
  split. { split; [apply exp_pos|]. rewrite <- exp_0. pose proof (pow2_ge_0 (2 * PI * w / wl)). destruct (Req_dec (- (2 * PI * w / wl) ^ 2) 0) as [->|E]; [lra|]. left. apply exp_increasing. lra. }
  split.
  - intros w' H. apply exp_increasing. assert (A : 2 * PI * w / wl < 2 * PI * w' / wl). { apply Rmult_lt_compat_r; [now apply Rinv_0_lt_compat|]. apply Rmult_lt_compat_l; lra. } pose proof (Hd w wl Hw Hl). nra.
  - intros wl' H H0. apply exp_increasing. assert (A : 2 * PI * w / wl' < 2 * PI * w / wl). { apply Rmult_lt_compat_l; [apply Rmult_lt_0_compat; lra|]. apply Rinv_lt_contravar; [apply Rmult_lt_0_compat|]; lra. } pose proof (Hd w wl' Hw ltac:(lra)). nra.
Qed.
Print Assumptions C70_strehl.
(** So it never exceeds the light of the psf: 1 for a normalised one. *)
Theorem C70_gain_bounds : forall h w im kx ky wfe wl g, rectangular h w im -> (0 < h)%nat -> (0 < w)%nat -> 0 < kx -> 0 < ky -> dark_nowhere im ->
  prf_gain (fst (binned_psf im kx ky)) (Some (snd (binned_psf im kx ky))) wfe wl = Ok g \/ prf_gain im None wfe wl = Ok g -> (forall e, wfe = Some e -> 0 <= e) -> 0 < wl ->
  0 <= g <= light im.
Proof.
  intros h w im kx ky wfe wl g Hr Hh Hw Hx Hy Hd E Hwfe Hl. destruct (C70_gain h w im kx ky wfe wl Hr Hh Hw Hx Hy) as [H1 H2].
  assert (Hs : 0 < strehl wfe wl <= 1). { destruct wfe as [e|]; [apply (C70_strehl wl e Hl (Hwfe e eq_refl))|cbn; lra]. }
  assert (Hli : 0 <= light im). { rewrite (light_entries _ _ _ Hr). apply sum_below_nonneg. intros. apply sum_below_nonneg. intros. now apply entry_nonneg. }
  assert (Hfin : forall x, 0 <= x <= light im -> 0 <= x * strehl wfe wl <= light im) by (intros; nra).
  destruct E as [E|E].
  - destruct (H1 _ eq_refl) as (m & [Hin Hm] & E'). rewrite E' in E. assert (g = m / (if Rlt_dec kx 1 then kx * ky / 2 else ky) * strehl wfe wl) as -> by congruence. apply Hfin.
    apply in_map_iff in Hin. destruct Hin as (j & <- & Hj). apply in_seq in Hj. set (M := if Rlt_dec kx 1 then kx * ky / 2 else ky). assert (HM : 0 < M) by (unfold M; destruct (Rlt_dec kx 1); nra).
    destruct (kernel_columns kx ky Hx Hy) as (kh & kw & Kr & Kh & Kw & [_ Kg]). fold M in Kg.
    unfold binned_psf. cbn [fst]. assert (Hb : 0 <= column_light (convolve2d im (kernel kx ky)) j <= M * light im).
    { destruct (C69_binning_bounds h w im kx ky Hr Hh Hd ltac:(lra) ltac:(lra)) as (Br & Bb & _). unfold binned_psf in Br, Bb. cbn [fst] in Br, Bb. destruct (kernel_dims kx ky ltac:(lra) ltac:(lra)) as (kh' & kw' & Kr' & _ & _ & K1 & K2 & Kb). split.
      - rewrite (column_light_entries _ _ _ _ Br). apply sum_below_nonneg. intros i Hi. apply Bb; [auto|lia].
      - apply (column_bound h w); auto; [lia|intros; apply Kb| |lra]. intros q Hq. apply Kg. rewrite (column_sums_at _ _ _ Kr' ltac:(destruct Kr, Kr'; lia)). rewrite K1. rewrite <- (column_light_entries _ _ _ q Kr'). apply in_map. apply in_seq. lia. }
    split; [apply Rmult_le_pos; [lra|left; now apply Rinv_0_lt_compat]|]. apply (Rmult_le_reg_r M); auto. unfold Rdiv. rewrite Rmult_assoc, Rinv_l by lra. lra.
  - destruct H2 as (m & [Hin _] & E'). rewrite E' in E. assert (g = m * strehl wfe wl) as -> by congruence. apply Hfin. apply in_map_iff in Hin. destruct Hin as (j & <- & Hj). apply in_seq in Hj.
    rewrite (column_light_entries _ _ _ _ Hr), (light_entries _ _ _ Hr). split; [apply sum_below_nonneg; intros; now apply entry_nonneg|]. apply sum_below_le. intros i _.
    assert (X : forall n f, (j < n)%nat -> (forall k, 0 <= f k) -> f j <= sum_below n f).
    { clear. intros n f Hj Hf. replace n with (j + S (n - j - 1))%nat by lia. rewrite sum_below_app, sum_below_S, Nat.add_0_r. pose proof (sum_below_nonneg j f ltac:(auto)). pose proof (sum_below_nonneg (n - j - 1) (fun i => f (j + S i)%nat) (fun i _ => Hf (j + S i)%nat)). lra. }
    apply (X w (fun j => entry im i j)); [lia|]. intros. now apply entry_nonneg.
Qed.
Print Assumptions C70_gain_bounds.

(** The gain is tabulated at ten evenly spaced wavelengths from the smallest to the greatest pixel, so
    that every pixel lies within the table. *)
Theorem C70_gain_table_covers_the_pixels : forall px, px <> [] -> exists l, gain_wavelengths px = Ok l /\ length l = 10%nat
  /\ least (at_ 0 l) px /\ greatest (at_ 9 l) px /\ forall i, (i < 9)%nat -> at_ (S i) l - at_ i l = (at_ 9 l - at_ 0 l) / 9.
Proof.
  intros [|x px] H; [congruence|]. set (a := rmin x px). set (b := rmax x px). exists (linspace a b 10). split; [reflexivity|]. split; [reflexivity|].
  assert (Hat : forall i, (i < 10)%nat -> at_ i (linspace a b 10) = a + INR i * ((b - a) / 9)). { intros i Hi. unfold linspace. rewrite (at_map_seq (fun k => a + INR k * ((b - a) / INR (10 - 1))) 10 i) by auto. change (INR (10 - 1)) with (INR 9). do 3 f_equal. cbn. lra. }
  split; [|split].
  - rewrite Hat by lia. replace (a + INR 0 * ((b - a) / 9)) with a by (cbn; lra). apply rmin_least.
  - rewrite Hat by lia. replace (a + INR 9 * ((b - a) / 9)) with b by (cbn; lra). apply rmax_greatest.
  - intros i Hi. rewrite !Hat by lia. rewrite S_INR. replace (INR 9) with 9 by (cbn; lra). replace (INR 0) with 0 by reflexivity. field.
Qed.
Print Assumptions C70_gain_table_covers_the_pixels.

(** ** C71: the nearest psf *)
Lemma nearest_from_spec v l : forall best d i r, nearest_from v best d i l = r ->
  (r = best /\ (forall j, (j < length l)%nat -> d <= Rabs (at_ j l - v)))
  \/ (exists j, r = (i + j)%nat /\ (j < length l)%nat /\ Rabs (at_ j l - v) < d /\ forall k, (k < length l)%nat -> Rabs (at_ j l - v) <= Rabs (at_ k l - v) /\ ((k < j)%nat -> Rabs (at_ j l - v) < Rabs (at_ k l - v))).
Proof.
  induction l as [|x l IH]; intros best d i r E; cbn [nearest_from] in E. { left. split; auto. cbn. intros; lia. }
  destruct (Rltb (Rabs (x - v)) d) eqn:Ex.
  - apply Rltb_true in Ex. right. destruct (IH _ _ _ _ E) as [[-> H]|(j & -> & Hj & Hlt & H)].
    + exists O. split; [lia|]. split; [cbn; lia|]. split; [exact Ex|]. intros [|k] Hk; cbn in Hk |- *; [split; [lra|lia]|]. split; [apply H; lia|lia].
    + exists (S j). split; [lia|]. split; [cbn; lia|]. change (at_ (S j) (x :: l)) with (at_ j l). split; [lra|]. intros [|k] Hk; [change (at_ 0 (x :: l)) with x; split; intros; lra|]. change (at_ (S k) (x :: l)) with (at_ k l). cbn in Hk. destruct (H k ltac:(lia)). split; auto. intros; apply H1; lia.
  - apply Rltb_false in Ex. destruct (IH _ _ _ _ E) as [[-> H]|(j & -> & Hj & Hlt & H)].
    + left. split; auto. intros [|k] Hk; [exact Ex|]. cbn in Hk. apply H. lia.
    + right. exists (S j). split; [lia|]. split; [cbn; lia|]. change (at_ (S j) (x :: l)) with (at_ j l). split; [lra|]. intros [|k] Hk; [change (at_ 0 (x :: l)) with x; split; intros; lra|]. change (at_ (S k) (x :: l)) with (at_ k l). cbn in Hk. destruct (H k ltac:(lia)). split; auto. intros; apply H1; lia.
Qed.
Lemma argnearest_spec v l : (l = [] /\ argnearest v l = Err ValueError) \/ exists i, argnearest v l = Ok i /\ nearest v l i.
Proof.
  destruct l as [|x l]; [now left|]. right. cbn [argnearest]. eexists. split; [reflexivity|]. destruct (nearest_from_spec v l 0 (Rabs (x - v)) 1 _ eq_refl) as [[-> H]|(j & -> & Hj & Hlt & H)].
  - split; [cbn; lia|]. intros [|j] Hj; [split; [lra|lia]|]. cbn in Hj. split; [apply H; lia|lia].
  - split; [cbn; lia|]. change (at_ (1 + j) (x :: l)) with (at_ j l). intros [|k] Hk; [change (at_ 0 (x :: l)) with x; split; intros; lra|]. change (at_ (S k) (x :: l)) with (at_ k l). cbn in Hk. destruct (H k ltac:(lia)). split; auto. intros; apply H1; lia.
Qed.
(** Of a directory of psf files the one with the nearest wavelength is used, the first of several, and
    an empty directory fails. *)
Theorem C71_nearest_psf : forall A (files : list (R * A)) wl,
  (files = [] -> directory_psf files wl = Err ValueError)
  /\ (files <> [] -> exists i f, nearest wl (map fst files) i /\ nth_error files i = Some f /\ directory_psf files wl = Ok (snd f)).
Proof.
  intros A files wl. split.
  - intros ->. reflexivity.
  - intros H. unfold directory_psf. destruct (argnearest_spec wl (map fst files)) as [[E _]|(i & -> & Hi)]; [destruct files; [congruence|discriminate]|]. cbn [bind]. pose proof Hi as [Hl _]. rewrite map_length in Hl.
    destruct (nth_error files i) as [f|] eqn:E; [|apply nth_error_None in E; lia]. exists i, f. auto.
Qed.
Print Assumptions C71_nearest_psf.

(** ** C72: a psf between two wavelengths *)
Lemma at_increasing w i j : increasing w -> (i < j)%nat -> (j < length w)%nat -> at_ i w < at_ j w.
Proof. intros. now apply increasing_nth. Qed.
Lemma at_mono w i j : increasing w -> (i <= j)%nat -> (j < length w)%nat -> at_ i w <= at_ j w.
Proof. intros H1 H2 H3. destruct (Nat.eq_dec i j) as [->|]; [lra|]. left. apply at_increasing; auto. lia. Qed.
Lemma rmin_first x l : increasing (x :: l) -> rmin x l = x.
Proof. intros H. destruct (rmin_spec l x) as [A B]. apply Rle_antisym; [apply B; now left|]. destruct A as [<-|A]; [lra|]. inversion H as [|? ? ? Hf]; subst. rewrite Forall_forall in Hf. left. auto. Qed.
Lemma rmax_last x l : increasing (x :: l) -> rmax x l = at_ (length l) (x :: l).
Proof.
  intros H. destruct (rmax_spec l x) as [A B]. apply Rle_antisym.
  - destruct (In_nth _ _ 0 A) as (i & Hi & E). cbn [length] in Hi. rewrite <- E. apply (at_mono (x :: l) i (length l)); auto; cbn; lia.
  - apply B. apply at_In. cbn. lia.
Qed.
(** [k], [S k]: the two wavelengths used for [wl] *)
Definition used_for (w : list R) (wl : R) (k : nat) : Prop :=
  (S k < length w)%nat /\ (at_ k w <= wl < at_ (S k) w \/ (k = 0%nat /\ wl < at_ 0 w) \/ (S (S k) = length w /\ at_ (S k) w < wl)).
Lemma indices_spec w wl : increasing w -> (2 <= length w)%nat ->
  (wl = at_ (length w - 1) w /\ exists i, paos_indices w wl = Ok (i, Z.of_nat (length w)))
  \/ exists k i j, used_for w wl k /\ paos_indices w wl = Ok (i, Z.of_nat j) /\ ((i = k /\ j = S k) \/ (i = S k /\ j = k)).
Proof.
  intros Hi Hl. destruct w as [|x [|y l]]; try (cbn in Hl; lia). set (w := x :: y :: l) in *.
  change (paos_indices w wl) with (let* i := argnearest wl w in let above := Rltb wl (nth i w 0) in
    Ok (i, if negb (Rltb wl (rmin x (y :: l))) && negb (Rltb (rmax x (y :: l)) wl) then (if above then Z.of_nat i - 1 else Z.of_nat i + 1)%Z else (if above then Z.of_nat i + 1 else Z.of_nat i - 1)%Z)).
  destruct (argnearest_spec wl w) as [[E _]|(i & -> & Hn & Hd)]; [discriminate|]. cbn [bind].
  assert (E1 : rmin x (y :: l) = at_ 0 w) by now apply rmin_first. assert (E2 : rmax x (y :: l) = at_ (length w - 1) w). { rewrite rmax_last by auto. unfold w. cbn [length]. do 2 f_equal; lia. } rewrite E1, E2.
  change (nth i w 0) with (at_ i w).
  assert (Hmin : forall j, (j < length w)%nat -> at_ 0 w <= at_ j w) by (intros; apply at_mono; auto; lia). assert (Hmax : forall j, (j < length w)%nat -> at_ j w <= at_ (length w - 1) w) by (intros; apply at_mono; auto; lia).
  assert (Hnear : forall j, (j < length w)%nat -> Rabs (at_ i w - wl) <= Rabs (at_ j w - wl)) by (intros j Hj; apply (Hd j Hj)).
  destruct (Rltb wl (at_ i w)) eqn:Ea.
  - apply Rltb_true in Ea. right. destruct (Rltb wl (at_ 0 w)) eqn:E0.
    + apply Rltb_true in E0. cbn [negb andb]. assert (i = 0)%nat as ->. { destruct i; auto. exfalso. assert (at_ 0 w < at_ (S i) w) by (apply at_increasing; auto; lia). specialize (Hnear 0%nat ltac:(lia)). rewrite !Rabs_right in Hnear; lra. }
      exists 0%nat, 0%nat, 1%nat. split; [|split; auto]. split; [lia|]. auto.
    + apply Rltb_false in E0. destruct (Rltb (at_ (length w - 1) w) wl) eqn:E3; [apply Rltb_true in E3; specialize (Hmax i Hn); lra|]. cbn [negb andb].
      assert (0 < i)%nat. { destruct i; [lra|lia]. } exists (i - 1)%nat, i, (i - 1)%nat. split; [|split; [do 2 f_equal; lia|right; split; [lia|reflexivity]]]. split; [lia|]. left. replace (S (i - 1)) with i by lia. split; auto.
      apply Rnot_lt_le. intro H1. assert (at_ (i - 1) w < at_ i w) by (apply at_increasing; auto; lia). specialize (Hnear (i - 1)%nat ltac:(lia)). rewrite !Rabs_right in Hnear; lra.
  - apply Rltb_false in Ea. destruct (Nat.eq_dec i (length w - 1)) as [Ei|Ei].
    + destruct (Rltb wl (at_ 0 w)) eqn:E0; [apply Rltb_true in E0; specialize (Hmin i Hn); lra|]. destruct (Rltb (at_ (length w - 1) w) wl) eqn:E3.
      * apply Rltb_true in E3. cbn [negb andb]. right. exists (i - 1)%nat, i, (i - 1)%nat. split; [|split; [do 2 f_equal; lia|right; split; [lia|reflexivity]]]. split; [lia|]. right. right. split; [lia|]. replace (S (i - 1)) with (length w - 1)%nat by lia. auto.
      * apply Rltb_false in E3. cbn [negb andb]. left. rewrite Ei in Ea. split; [lra|]. exists i. do 2 f_equal. lia.
    + assert (Hlt : wl < at_ (S i) w). { apply Rnot_le_lt. intro H1. assert (at_ i w < at_ (S i) w) by (apply at_increasing; auto; lia). specialize (Hnear (S i) ltac:(lia)). rewrite !Rabs_left1 in Hnear; lra. }
      assert (at_ 0 w <= at_ i w) by (apply Hmin; lia). assert (at_ (S i) w <= at_ (length w - 1) w) by (apply Hmax; lia).
      rewrite (proj2 (Rltb_false wl (at_ 0 w))) by lra. rewrite (proj2 (Rltb_false (at_ (length w - 1) w) wl)) by lra. cbn [negb andb]. right. exists i, i, (S i). split; [|split; [do 2 f_equal; lia|auto]]. split; [lia|]. left. lra.
Qed.
Lemma index_ok w i : (i < length w)%nat -> index w (Z.of_nat i) = Ok (at_ i w).
Proof.
  intros H. unfold index. replace (Z.ltb (Z.of_nat i) 0) with false by (symmetry; apply Z.ltb_ge; lia). rewrite (proj2 (Z.ltb_ge (Z.of_nat i) 0)) by lia. rewrite Nat2Z.id. destruct (nth_error w i) as [x|] eqn:E; [|apply nth_error_None in E; lia].
  f_equal. symmetry. now apply nth_error_nth.
Qed.
Lemma index_end w : index w (Z.of_nat (length w)) = Err IndexError.
Proof.
  unfold index. rewrite (proj2 (Z.ltb_ge (Z.of_nat (length w)) 0)) by lia. rewrite (proj2 (Z.ltb_ge (Z.of_nat (length w)) 0)) by lia. rewrite Nat2Z.id. destruct (nth_error w (length w)) eqn:E; auto. exfalso. assert (nth_error w (length w) <> None) by congruence. apply nth_error_Some in H. lia.
Qed.
Lemma between_line x0 x1 y0 y1 x : x0 <> x1 -> on_line x0 y0 x1 y1 x (between_two x0 x1 y0 y1 x).
Proof. intros H. unfold between_two, line, on_line. destruct (Rltb x1 x0); cbn [fst snd]; field; lra. Qed.
Lemma on_line_sym x0 y0 x1 y1 x y : on_line x0 y0 x1 y1 x y -> on_line x1 y1 x0 y0 x y.
Proof. unfold on_line. intros H. nra. Qed.
Lemma between_affine x0 x1 y0 y1 x : x0 <> x1 -> between_two x0 x1 y0 y1 x = (x1 - x) / (x1 - x0) * y0 + (x - x0) / (x1 - x0) * y1.
Proof. intros H. unfold between_two, line. destruct (Rltb x1 x0); cbn [fst snd]; field; lra. Qed.
Lemma map2_nth {A} (f : A -> A -> A) d (Hd : f d d = d) : forall a b i, length a = length b -> nth i (map2 f a b) d = f (nth i a d) (nth i b d).
Proof. induction a as [|x a IH]; intros [|y b] i H; cbn in H; try lia; destruct i; cbn; auto. Qed.
Lemma map2_length {A B C} (f : A -> B -> C) : forall a b, length a = length b -> length (map2 f a b) = length a.
Proof. induction a as [|x a IH]; intros [|y b] H; cbn in *; try lia; auto. Qed.
Lemma same_shape_rect h w a b : rectangular h w a -> same_shape a b = true -> rectangular h w b.
Proof.
  intros [H1 H2] H. apply andb_true_iff in H. destruct H as [A B]. apply Nat.eqb_eq in A. split; [lia|]. rewrite forallb_forall in B. clear H1. revert b A B. induction a as [|r a IH]; intros [|s b] A B t Ht; cbn in A; try lia; [destruct Ht|].
  destruct Ht as [<-|Ht]; [|apply (IH ltac:(intros; apply H2; now right) b); auto; intros; apply B; now right]. specialize (B (r, s) (or_introl eq_refl)). apply Nat.eqb_eq in B. cbn in B. rewrite <- B. apply H2. now left.
Qed.
Lemma map2_rect h w f a b : rectangular h w a -> rectangular h w b -> rectangular h w (map2 (map2 f) a b).
Proof.
  intros [A1 A2] [B1 B2]. split; [rewrite map2_length; lia|]. assert (L : length a = length b) by lia. clear A1 B1. revert b B2 L. induction a as [|r a IH]; intros [|s b] B2 L t Ht; cbn in L; try lia; cbn in Ht; [destruct Ht|].
  destruct Ht as [<-|Ht]; [rewrite map2_length; [apply A2; now left|rewrite A2, B2 by (now left); reflexivity]|]. apply (IH ltac:(intros; apply A2; now right) b); auto. intros; apply B2; now right.
Qed.
Lemma map2_entry h w f a b i j : rectangular h w a -> rectangular h w b -> f 0 0 = 0 -> entry (map2 (map2 f) a b) i j = f (entry a i j) (entry b i j).
Proof.
  intros Ha Hb Hf. unfold entry. rewrite (map2_nth (map2 f) []) by (auto; destruct Ha, Hb; lia). apply map2_nth; auto.
  destruct Ha as [A1 A2], Hb as [B1 B2]. destruct (Nat.ltb_spec i h); [rewrite A2, B2; auto; apply nth_In; lia|]. now rewrite !nth_overflow by lia.
Qed.
(** Interpolated psfs: the two neighbouring wavelengths (the two at the end when extrapolating), and
    every sample, the light, the sample sizes and the f-number on the straight line between theirs. *)
Theorem C72_interpolated_psf : forall w load wl p h v, increasing w -> interpolate_paos w load wl = Ok p ->
  (forall x q, load x = Ok q -> rectangular h v (p_ima q)) ->
  exists k p0 p1, used_for w wl k /\ load (at_ k w) = Ok p0 /\ load (at_ (S k) w) = Ok p1 /\ rectangular h v (p_ima p)
  /\ (forall i j, on_line (at_ k w) (entry (p_ima p0) i j) (at_ (S k) w) (entry (p_ima p1) i j) wl (entry (p_ima p) i j))
  /\ on_line (at_ k w) (light (p_ima p0)) (at_ (S k) w) (light (p_ima p1)) wl (light (p_ima p))
  /\ on_line (at_ k w) (p_dx p0) (at_ (S k) w) (p_dx p1) wl (p_dx p) /\ on_line (at_ k w) (p_dy p0) (at_ (S k) w) (p_dy p1) wl (p_dy p)
  /\ on_line (at_ k w) (p_fratio p0) (at_ (S k) w) (p_fratio p1) wl (p_fratio p).
Proof.
  intros w load wl p h v Hi E Hload. unfold interpolate_paos in E. assert (Hl : (2 <= length w)%nat). { destruct w as [|x [|y l]]; try discriminate. cbn. lia. }
  destruct (indices_spec w wl Hi Hl) as [(_ & i & Ei)|(k & i & j & Hu & Ei & Hij)]; rewrite Ei in E; cbn [bind] in E.
  { rewrite index_end in E. destruct (index w (Z.of_nat i)); discriminate. }
  pose proof Hu as [Hk _]. assert (Hinc : at_ k w < at_ (S k) w) by (apply at_increasing; auto).
  rewrite !index_ok in E by lia. cbn [bind] in E. dbind E q0 H0. dbind E q1 H1. destruct (same_shape (p_ima q0) (p_ima q1)) eqn:Es; cbn [negb] in E; [|discriminate]. destruct (same_length (p_extent q0) (p_extent q1)); cbn [negb] in E; [|discriminate].
  set (f := fun a b => between_two (at_ i w) (at_ j w) a b wl) in *. set (res := {| p_ima := _ |}) in E. assert (p = res) as -> by congruence. clear E.
  assert (Hne : at_ i w <> at_ j w) by (destruct Hij as [[-> ->]|[-> ->]]; lra).
  pose proof (Hload _ _ H0) as R0. pose proof (Hload _ _ H1) as R1. assert (Rr : rectangular h v (p_ima res)) by now apply map2_rect.
  assert (Hf : forall a b, on_line (at_ i w) a (at_ j w) b wl (f a b)) by (intros; now apply between_line). assert (Hf0 : f 0 0 = 0) by (unfold f; rewrite between_affine by auto; ring).
  assert (Hent : forall a b, entry (p_ima res) a b = f (entry (p_ima q0) a b) (entry (p_ima q1) a b)) by (intros; eapply map2_entry; eauto).
  assert (Hlight : light (p_ima res) = f (light (p_ima q0)) (light (p_ima q1))).
  { rewrite (light_entries _ _ _ Rr), (light_entries _ _ _ R0), (light_entries _ _ _ R1). unfold f. rewrite between_affine by auto. rewrite <- !sum_below_scale, <- sum_below_plus. apply sum_below_ext. intros a _.
    rewrite <- !sum_below_scale, <- sum_below_plus. apply sum_below_ext. intros b _. rewrite Hent. unfold f. now rewrite between_affine. }
  destruct Hij as [[-> ->]|[-> ->]]; [exists k, q0, q1|exists k, q1, q0]; (split; [exact Hu|]); (split; [assumption|]); (split; [assumption|]); (split; [exact Rr|]); rewrite Hlight; (split; [intros a b; rewrite Hent|]);
    repeat split; try apply Hf; apply on_line_sym, Hf.
Qed.
Print Assumptions C72_interpolated_psf.
(** It fails for a file with a single wavelength, and exactly at the greatest wavelength of the file;
    elsewhere it works if the groups can be read and have the same shape. *)
Theorem C72_interpolation_fails_at_the_end : forall w load wl, increasing w ->
  ((length w < 2)%nat -> interpolate_paos w load wl = Err ValueError)
  /\ ((2 <= length w)%nat -> wl = at_ (length w - 1) w -> interpolate_paos w load wl = Err IndexError)
  /\ ((2 <= length w)%nat -> wl <> at_ (length w - 1) w -> forall h v e, (forall x, In x w -> exists q, load x = Ok q /\ rectangular h v (p_ima q) /\ length (p_extent q) = e) -> exists p, interpolate_paos w load wl = Ok p).
Proof.
  intros w load wl Hi. split; [|split].
  - intros H. destruct w as [|x [|y l]]; try reflexivity. cbn in H. lia.
  - intros Hl Hw. unfold interpolate_paos. destruct (indices_spec w wl Hi Hl) as [(_ & i & Ei)|(k & i & j & [Hk [Hu|[Hu|Hu]]] & _)].
    + rewrite Ei. cbn [bind]. rewrite index_end. unfold paos_indices in Ei. destruct w as [|x [|y l]]; try discriminate. destruct (argnearest_spec wl (x :: y :: l)) as [[E _]|(i' & E' & Hn & _)]; [discriminate|]. rewrite E' in Ei. cbn [bind] in Ei. assert (i' = i) as -> by congruence. rewrite index_ok by auto. reflexivity.
    + exfalso. pose proof (at_mono w (S k) (length w - 1) Hi ltac:(lia) ltac:(lia)). lra.
    + exfalso. pose proof (at_mono w 0 (length w - 1) Hi ltac:(lia) ltac:(lia)). lra.
    + exfalso. replace (S k) with (length w - 1)%nat in Hu by lia. lra.
  - intros Hl Hw h v e Hload. unfold interpolate_paos. destruct (indices_spec w wl Hi Hl) as [(H & _)|(k & i & j & [Hk _] & Ei & Hij)]; [congruence|]. rewrite Ei. cbn [bind].
    assert (i < length w /\ j < length w)%nat as [Li Lj] by lia. rewrite !index_ok by auto. cbn [bind]. destruct (Hload (at_ i w) ltac:(now apply at_In)) as (q0 & -> & R0 & X0). destruct (Hload (at_ j w) ltac:(now apply at_In)) as (q1 & -> & R1 & X1). cbn [bind].
    assert (same_shape (p_ima q0) (p_ima q1) = true) as ->.
    { apply andb_true_iff. destruct R0 as [A1 A2], R1 as [B1 B2]. split; [apply Nat.eqb_eq; lia|]. apply forallb_forall. intros [r s] Hrs. apply Nat.eqb_eq. cbn. rewrite (A2 r), (B2 s); auto; [eapply in_combine_r|eapply in_combine_l]; eauto. }
    assert (same_length (p_extent q0) (p_extent q1) = true) as -> by (apply Nat.eqb_eq; lia). cbn [negb]. eauto.
Qed.
Print Assumptions C72_interpolation_fails_at_the_end.

(** The psf of a PAOS file: the group of the wavelength itself where there is one, an interpolated one
    otherwise, and a kernel with the area of the pixel. *)
Theorem C72_paos_psf : forall w has load wl delta prf k, 0 < delta -> paos_psf w has load wl delta = Ok (prf, k) ->
  exists p, (if has wl then load wl = Ok p else interpolate_paos w load wl = Ok p)
  /\ (0 < p_dx p -> 0 < p_dy p -> light k * p_dx p * p_dy p = delta ^ 2
      /\ forall h v, rectangular h v (p_ima p) -> (0 < h)%nat -> dark_nowhere (p_ima p) -> rectangular h v prf /\ light prf <= light k * light (p_ima p)).
Proof.
  intros w has load wl delta prf k Hd E. unfold paos_psf in E. destruct (if has wl then load wl else interpolate_paos w load wl) as [p|] eqn:Ep; [|discriminate]. cbn [bind] in E.
  exists p. split; [destruct (has wl); auto|]. intros Hx Hy. destruct (Req_EM_T (p_dx p) 0); [lra|]. destruct (Req_EM_T (p_dy p) 0); [lra|].
  assert (Hk : k = kernel (delta / p_dx p) (delta / p_dy p)) by (unfold binned_psf in E; congruence). assert (Hp : prf = fst (binned_psf (p_ima p) (delta / p_dx p) (delta / p_dy p))) by (assert (binned_psf (p_ima p) (delta / p_dx p) (delta / p_dy p) = (prf, k)) as -> by congruence; reflexivity).
  assert (Kx : 0 <= delta / p_dx p) by (left; now apply Rdiv_lt_0_compat). assert (Ky : 0 <= delta / p_dy p) by (left; now apply Rdiv_lt_0_compat). assert (Hl : light k = delta / p_dx p * (delta / p_dy p)) by (rewrite Hk; now apply kernel_light). split.
  - rewrite Hl. field. lra.
  - intros h v Hr Hh Hdk. destruct (C69_binning_bounds h v (p_ima p) _ _ Hr Hh Hdk Kx Ky) as (A & _ & B). rewrite <- Hp in A, B. rewrite Hl. auto.
Qed.
Print Assumptions C72_paos_psf.

(** ** C73: the aperture for an encircled energy *)
Definition tried (enc : nat -> R) (i n : nat) : list (R * R) := map (fun k => (enc (i + k)%nat, INR (i + k))) (seq 0 (S n)).
Lemma tried_S enc i n : tried enc i (S n) = (enc i, INR i) :: tried enc (S i) n.
Proof.
  unfold tried. change (seq 0 (S (S n))) with (0%nat :: seq 1 (S n)). rewrite <- (seq_shift (S n) 0). cbn [map]. rewrite Nat.add_0_r, map_map. f_equal. apply map_ext. intros k. replace (i + S k)%nat with (S i + k)%nat by lia. reflexivity.
Qed.
Lemma grow_spec enc goal : forall fuel i l, grow enc goal fuel i = Some l -> exists n, l = tried enc i n /\ goal <= enc (i + n)%nat /\ forall k, (k < n)%nat -> enc (i + k)%nat < goal.
Proof.
  induction fuel as [|fuel IH]; intros i l E; [discriminate|]. cbn [grow] in E. destruct (Rltb (enc i) goal) eqn:Eg.
  - apply Rltb_true in Eg. destruct (grow enc goal fuel (S i)) as [l'|] eqn:El; [|discriminate]. destruct (IH _ _ El) as (n & -> & H1 & H2). exists (S n). rewrite tried_S. split; [congruence|]. split; [replace (i + S n)%nat with (S i + n)%nat by lia; auto|].
    intros [|k] Hk; [rewrite Nat.add_0_r; auto|]. replace (i + S k)%nat with (S i + k)%nat by lia. apply H2. lia.
  - apply Rltb_false in Eg. exists O. split; [unfold tried; cbn; rewrite !Nat.add_0_r; congruence|]. rewrite Nat.add_0_r. split; auto. intros; lia.
Qed.
Lemma grow_total enc goal n : forall i, goal <= enc (i + n)%nat -> exists l, grow enc goal (S n) i = Some l.
Proof.
  induction n as [|n IH]; intros i H.
  - rewrite Nat.add_0_r in H. cbn [grow]. rewrite (proj2 (Rltb_false _ _)) by lra. eauto.
  - remember (S n) as m. cbn [grow]. destruct (Rltb (enc i) goal); [|eauto]. destruct (IH (S i)) as (l & El); [replace (S i + n)%nat with (i + S n)%nat by lia; congruence|]. subst m. rewrite El. eauto.
Qed.
(** The search ends exactly when some radius holds 2% more than the requested energy; asking for more
    than 98% never ends, since no aperture holds more than all of the light. *)
Theorem C73_search_ends : forall enc eec, 0 < eec + 0.02 ->
  ((exists fuel r, find_aperture_radius enc eec fuel = Some r) <-> (exists i, (1 <= i)%nat /\ eec + 0.02 <= enc i))
  /\ ((forall i, enc i <= 1) -> 0.98 < eec -> forall fuel, find_aperture_radius enc eec fuel = None).
Proof.
  intros enc eec H. unfold find_aperture_radius. rewrite (proj2 (Rltb_true _ _)) by auto. split; [split|].
  - intros (fuel & r & E). destruct (grow enc (eec + 0.02) fuel 1) as [l|] eqn:El; [|discriminate]. destruct (grow_spec _ _ _ _ _ El) as (n & _ & H1 & _). exists (1 + n)%nat. split; [lia|auto].
  - intros (i & Hi & H1). destruct (grow_total enc (eec + 0.02) (i - 1) 1) as (l & El); [replace (1 + (i - 1))%nat with i by lia; auto|]. exists (S (i - 1)). rewrite El. eauto.
  - intros H1 H2 fuel. destruct (grow enc (eec + 0.02) fuel 1) as [l|] eqn:El; [|reflexivity]. destruct (grow_spec _ _ _ _ _ El) as (n & _ & H3 & _). specialize (H1 (1 + n)%nat). lra.
Qed.
Print Assumptions C73_search_ends.
Lemma tried_fst enc i n : wls (tried enc i n) = map (fun k => enc (i + k)%nat) (seq 0 (S n)).
Proof. unfold wls, tried. rewrite map_map. reflexivity. Qed.
Lemma tried_neighbours enc i n p q : neighbours (tried enc i n) p q -> exists k, (k < n)%nat /\ p = (enc (i + k)%nat, INR (i + k)) /\ q = (enc (i + S k)%nat, INR (i + S k)).
Proof.
  revert i. induction n as [|n IH]; intros i H; [unfold tried in H; cbn in H; now apply neighbours_one in H|]. rewrite tried_S in H. apply neighbours_cons in H. destruct H as [[E [l' El]]|H].
  - exists O. split; [lia|]. rewrite Nat.add_0_r. split; auto. assert (q = (enc (S i + 0)%nat, INR (S i + 0))) as -> by (unfold tried in El; cbn [seq map] in El; congruence). replace (i + 1)%nat with (S i + 0)%nat by lia. reflexivity.
  - destruct (IH _ H) as (k & Hk & -> & ->). exists (S k). split; [lia|]. replace (i + S (S k))%nat with (S i + S k)%nat by lia. replace (i + S k)%nat with (S i + k)%nat by lia. split; reflexivity.
Qed.
(** When the energy grows with the radius as long as the search goes on, the radius found is the one
    at which the energy, read between two whole radii, is the requested one; if already the first
    aperture holds more, the search fails. *)
Theorem C73_radius_holds_the_energy : forall enc eec fuel x, 0 < eec + 0.02 -> (forall i, (1 <= i)%nat -> enc i < eec + 0.02 -> enc i < enc (S i)) ->
  find_aperture_radius enc eec fuel = Some x ->
  (eec < enc 1%nat -> x = Err ValueError)
  /\ (enc 1%nat <= eec -> exists r i, x = Ok r /\ (1 <= i)%nat /\ INR i <= r < INR (S i) /\ on_line (INR i) (enc i) (INR (S i)) (enc (S i)) r eec).
Proof.
  intros enc eec fuel x H0 Hmono E. unfold find_aperture_radius in E. rewrite (proj2 (Rltb_true _ _)) in E by auto. destruct (grow enc (eec + 0.02) fuel 1) as [l|] eqn:El; [|discriminate].
  destruct (grow_spec _ _ _ _ _ El) as (n & -> & Hn & Hk). assert (x = interp_within (tried enc 1 n) eec) as -> by congruence. clear E El.
  assert (Hinc : increasing (wls (tried enc 1 n))).
  { apply (neighbours_sorted Rlt); [intros; eapply Rlt_trans; eauto|]. intros a b H. apply neighbours_map in H. destruct H as (p & q & Hpq & -> & ->). destruct (tried_neighbours _ _ _ _ _ Hpq) as (k & Hkn & -> & ->). cbn [fst]. replace (1 + S k)%nat with (S (1 + k)) by lia. apply Hmono; [lia|auto]. }
  assert (Hfirst : exists tl, tried enc 1 n = (enc 1%nat, INR 1) :: tl). { unfold tried. cbn [seq map Nat.add]. eauto. } destruct Hfirst as (tl & Et).
  assert (Hmin : rmin (enc 1%nat) (map fst tl) = enc 1%nat). { apply rmin_first. unfold wls in Hinc. rewrite Et in Hinc. exact Hinc. }
  assert (Hlast : In (enc (1 + n)%nat) (enc 1%nat :: map fst tl)). { assert (In (enc (1 + n)%nat) (wls (tried enc 1 n))). { rewrite tried_fst. apply in_map_iff. exists n. split; auto. apply in_seq. lia. } unfold wls in H. rewrite Et in H. exact H. }
  assert (Hmax : eec < rmax (enc 1%nat) (map fst tl)). { destruct (rmax_spec (map fst tl) (enc 1%nat)) as [_ H]. specialize (H _ Hlast). lra. }
  split.
  - intros H. unfold interp_within. rewrite Et. cbn [fst]. rewrite Hmin, (proj2 (Rltb_true _ _)) by auto. reflexivity.
  - intros H. assert (Hok : exists r, interp_within (tried enc 1 n) eec = Ok r). { unfold interp_within. rewrite Et. cbn [fst]. rewrite Hmin, (proj2 (Rltb_false eec (enc 1%nat))) by auto. rewrite (proj2 (Rltb_false _ eec)) by lra. cbn [orb]. eauto. }
    destruct Hok as (r & Er). rewrite Er. pose proof (interp_within_read _ _ _ Hinc Er) as [(p & q & Hpq & Hw & Hr)|(p & Hp & Hg & Hw & _)].
    + destruct (tried_neighbours _ _ _ _ _ Hpq) as (k & Hkn & -> & ->). cbn [fst snd] in *. replace (1 + S k)%nat with (S (1 + k)) in * by lia. exists r, (1 + k)%nat. split; auto. split; [lia|]. rewrite (S_INR (1 + k)) in *. 
      set (a := enc (1 + k)%nat) in *. set (b := enc (S (1 + k))) in *. set (z := INR (1 + k)) in *. assert (Ht : 0 <= (eec - a) / (b - a) < 1). { split; [apply Rmult_le_pos; [lra|left; apply Rinv_0_lt_compat; lra]|]. apply (Rmult_lt_reg_r (b - a)); [lra|]. unfold Rdiv. rewrite Rmult_assoc, Rinv_l; lra. }
      assert (Er' : r = z + (eec - a) / (b - a)) by (rewrite Hr; field; lra). split; [lra|]. unfold on_line. rewrite Er'. field. lra.
    + exfalso. assert (In (enc (1 + n)%nat) (wls (tried enc 1 n))). { unfold wls. rewrite Et. exact Hlast. } apply in_map_iff in H1. destruct H1 as (q & Hq1 & Hq2). specialize (Hg q Hq2). lra.
Qed.
Print Assumptions C73_radius_holds_the_energy.

(** ** Examples *)
(** a pixel of 2.5 by 1.5 samples: 4 x 3 weights, total 3.75; its centre weight is 1 *)
Lemma floor_of x z : IZR z <= x < IZR z + 1 -> Rfloor x = z. Proof. apply Rfloor_unique. Qed.
Example ex_kernel : kernel 2.5 1.5 = [[0.0625; 0.25; 0.25; 0.0625]; [0.25; 1; 1; 0.25]; [0.0625; 0.25; 0.25; 0.0625]].
Proof.
  unfold kernel, modf. destruct (Rlt_dec 2.5 0); [lra|]. destruct (Rlt_dec 1.5 0); [lra|]. rewrite (floor_of 2.5 2), (floor_of 1.5 1) by lra.
  change (Z.to_nat (2 + 2)) with 4%nat. change (Z.to_nat (1 + 2)) with 3%nat. cbn [repeat map update Nat.sub].
  assert (E : forall a b c d a' b' c' d' : R, a = a' -> b = b' -> c = c' -> d = d' -> [a; b; c; d] = [a'; b'; c'; d']) by (intros; congruence).
  f_equal; [apply E; lra|]. f_equal; [apply E; lra|]. f_equal; apply E; lra.
Qed.
Definition ex_im : image := [[0.1; 0.2; 0.1]; [0.1; 0.3; 0.1]; [0; 0.1; 0]].
Example ex_im_ok : rectangular 3 3 ex_im /\ dark_nowhere ex_im /\ light ex_im = 1.
Proof.
  unfold ex_im. split; [split; [reflexivity|intros r [<-|[<-|[<-|[]]]]; reflexivity]|]. split; [|unfold light, total; cbn; lra].
  intros r x [<-|[<-|[<-|[]]]] Hx; cbn in Hx; repeat destruct Hx as [<-|Hx]; try lra; destruct Hx.
Qed.
Example ex_gain : exists g, prf_gain (fst (binned_psf ex_im 2.5 1.5)) (Some (snd (binned_psf ex_im 2.5 1.5))) (Some 0.1) 2 = Ok g /\ 0 <= g <= 1.
Proof.
  destruct ex_im_ok as (Hr & Hd & Hl). destruct (C70_gain 3 3 ex_im 2.5 1.5 (Some 0.1) 2 Hr) as [H _]; try lia; try lra. destruct (H _ eq_refl) as (g & _ & E). eexists. split; [exact E|]. match goal with |- 0 <= ?x <= 1 => cut (0 <= x <= light ex_im); [lra|] end. apply (C70_gain_bounds 3 3 ex_im 2.5 1.5 (Some 0.1) 2 _ Hr ltac:(lia) ltac:(lia) ltac:(lra) ltac:(lra) Hd (or_introl E)); [|lra]. intros e Ee. assert (e = 0.1) as -> by congruence. lra.
Qed.
(** a point source in the middle *)
Example ex_point : point_image 3 3 1 1 2 [[0; 0; 0]; [0; 2; 0]; [0; 0; 0]].
Proof.
  split; [split; [reflexivity|intros r [<-|[<-|[<-|[]]]]; reflexivity]|]. split; [lia|]. split; [lia|]. intros [|[|[|i]]] [|[|[|j]]]; try reflexivity; unfold entry; cbn; repeat match goal with |- context [match ?n with _ => _ end] => is_var n; destruct n end; reflexivity.
Qed.
(** encircled energies 0.5, 0.9, 0.99: 80% within 1.75 *)
Definition ex_enc (i : nat) : R := match i with O => 0 | 1%nat => 0.5 | 2%nat => 0.9 | _ => 0.99 end.
Example ex_radius : exists x, find_aperture_radius ex_enc 0.8 5 = Some x /\ x = Ok 1.75.
Proof.
  assert (E : find_aperture_radius ex_enc 0.8 5 = Some (interp_within [(0.5, 1); (0.9, INR 2)] 0.8)).
  { unfold find_aperture_radius. rewrite (proj2 (Rltb_true _ _)) by lra. cbn [grow ex_enc]. rewrite (proj2 (Rltb_true 0.5 _)) by lra. rewrite (proj2 (Rltb_false 0.9 _)) by lra. reflexivity. }
  eexists. split; [exact E|]. destruct (C73_radius_holds_the_energy ex_enc 0.8 5 _ ltac:(lra) ltac:(intros [|[|[|i]]] H1 H2; cbn in *; try lia; lra) E) as [_ H]. destruct H as (r & i & Er & Hi & Hr & Hon); [cbn; lra|].
  rewrite Er. f_equal. unfold on_line in Hon. destruct i as [|[|[|i]]]; [lia| | |].
  - cbn in Hon, Hr. lra.
  - cbn in Hon, Hr. lra.
  - exfalso. cbn [ex_enc] in Hon. rewrite (S_INR (S (S (S i)))) in Hon. lra.
Qed.
(** more than 98% never ends *)
Example ex_never : forall fuel, find_aperture_radius ex_enc 0.985 fuel = None.
Proof. apply C73_search_ends; [lra| |lra]. intros [|[|[|i]]]; cbn; lra. Qed.
(** psfs at 1 and 3 um *)
Definition ex_paos (x : R) : res paos := Ok {| p_ima := [[x]]; p_dx := x; p_dy := 2 * x; p_extent := [x]; p_fratio := 10 |}.
Example ex_interpolated : exists p, interpolate_paos [1; 3] ex_paos 2.5 = Ok p /\ light (p_ima p) = 2.5.
Proof.
  assert (Hi : increasing [1; 3]) by (repeat constructor; lra).
  destruct (C72_interpolation_fails_at_the_end [1; 3] ex_paos 2.5 Hi) as (_ & _ & H). destruct (H ltac:(cbn; lia) ltac:(cbn; lra) 1%nat 1%nat 1%nat) as (p & E).
  { intros x _. eexists. split; [reflexivity|]. split; [split; [reflexivity|intros r [<-|[]]; reflexivity]|reflexivity]. }
  exists p. split; auto. destruct (C72_interpolated_psf [1; 3] ex_paos 2.5 p 1 1 Hi E) as (k & p0 & p1 & [Hk _] & L0 & L1 & _ & _ & Hl & _).
  { intros x q Hq. injection Hq as <-. split; [reflexivity|intros r [<-|[]]; reflexivity]. }
  cbn [length] in Hk. assert (k = 0)%nat as -> by lia. unfold ex_paos in L0, L1. injection L0 as <-. injection L1 as <-. unfold on_line, light, total in Hl. cbn in Hl. unfold light, total. lra.
Qed.
Example ex_end : interpolate_paos [1; 3] ex_paos 3 = Err IndexError.
Proof. apply C72_interpolation_fails_at_the_end; [repeat constructor; lra|cbn; lia|reflexivity]. Qed.
(** np.modf splits a number into parts of its own sign. *)
Theorem C54_modf : forall x f i, modf x = (f, i) -> f + IZR i = x /\ Rabs f < 1 /\ (0 <= x -> 0 <= f /\ (0 <= i)%Z) /\ (x <= 0 -> f <= 0 /\ (i <= 0)%Z).
Proof.
  intros x f i E. unfold modf in E. assert (E2 : i = if Rlt_dec x 0 then (- Rfloor (- x))%Z else Rfloor x) by congruence. assert (E1 : f = x - IZR i) by (rewrite E2; congruence). clear E.
  assert (forall z : Z, forall y, 0 <= y -> IZR z <= y < IZR z + 1 -> (0 <= z)%Z). { intros z y Hy Hz. assert (IZR (-1) < IZR z) by lra. apply lt_IZR in H. lia. }
  destruct (Rlt_dec x 0).
  - destruct (Rfloor_spec (- x)). pose proof (H (Rfloor (- x)) (- x) ltac:(lra) ltac:(lra)). subst. rewrite opp_IZR. split; [lra|]. split; [apply Rabs_def1; lra|]. split; [intros; lra|]. intros _. split; [lra|lia].
  - destruct (Rfloor_spec x). pose proof (H (Rfloor x) x ltac:(lra) ltac:(lra)). subst. split; [lra|]. split; [apply Rabs_def1; lra|]. split; [intros _; split; [lra|lia]|]. intros. split; [|].
    + assert (x = 0) by lra. assert (0 <= IZR (Rfloor x)) by now apply IZR_le. lra.
    + assert (IZR (Rfloor x) <= IZR 0) by lra. now apply le_IZR in H4.
Qed.
Print Assumptions C54_modf.
