(** Lemmas about images, kernels and convolutions. *)
From Verif Require Import Base XR M_Signal M_Optics M_Light M_Bins M_Psf S_Signal S_Optics S_Light S_Bins S_Psf L_Signal L_Optics L_Light L_Bins.
Open Scope list_scope.
Open Scope R_scope.

(** ** Sums *)
Lemma sum_below_app n m f : sum_below (n + m) f = sum_below n f + sum_below m (fun i => f (n + i)%nat).
Proof.
  induction m as [|m IH]; [rewrite Nat.add_0_r; unfold sum_below at 3; cbn; lra|]. rewrite Nat.add_succ_r, !sum_below_last, IH. lra.
Qed.
Lemma sum_below_rev n f : sum_below (S n) (fun q => f (n - q)%nat) = sum_below (S n) f.
Proof.
  induction n as [|n IH]; [reflexivity|]. rewrite sum_below_S, (sum_below_last (S n) f). rewrite (sum_below_ext (S n) _ (fun q => f (n - q)%nat)) by (intros; f_equal; lia). rewrite IH. replace (S n - 0)%nat with (S n) by lia. lra.
Qed.
Lemma sum_below_swap n m f : sum_below n (fun i => sum_below m (fun j => f i j)) = sum_below m (fun j => sum_below n (fun i => f i j)).
Proof. apply total_swap. Qed.
Lemma sum_below_le n f g : (forall i, (i < n)%nat -> f i <= g i) -> sum_below n f <= sum_below n g.
Proof.
  intros H. induction n as [|n IH]; [unfold sum_below; cbn; lra|]. rewrite !sum_below_last. assert (f n <= g n) by (apply H; lia). assert (sum_below n f <= sum_below n g) by (apply IH; intros; apply H; lia). lra.
Qed.
Lemma sum_below_more n m f : (forall i, 0 <= f i) -> sum_below n f <= sum_below (n + m) f.
Proof. intros H. rewrite sum_below_app. pose proof (sum_below_nonneg m (fun i => f (n + i)%nat) ltac:(intros; apply H)). lra. Qed.
Lemma sum_below_0 n f : (forall i, (i < n)%nat -> f i = 0) -> sum_below n f = 0.
Proof. intros H. unfold sum_below. apply total_zero. intros x Hx. apply in_seq in Hx. apply H. lia. Qed.
Lemma sum_below_one n r f : (r < n)%nat -> (forall i, (i < n)%nat -> i <> r -> f i = 0) -> sum_below n f = f r.
Proof.
  revert r. induction n as [|n IH]; intros r Hr H; [lia|]. rewrite sum_below_last. destruct (Nat.eq_dec r n) as [->|E].
  - rewrite sum_below_0 by (intros i Hi; apply H; lia). lra.
  - rewrite (IH r) by (try lia; intros; apply H; lia). rewrite (H n) by lia. lra.
Qed.

(** ** Shifts *)
Lemma shifted_nonneg g n m p : (forall i, (i < n)%nat -> 0 <= g i) -> 0 <= shifted g n m p.
Proof. intros H. unfold shifted. destruct (Nat.leb p m); [|lra]. destruct (Nat.ltb (m - p) n) eqn:E; [|lra]. apply Nat.ltb_lt in E. auto. Qed.
Lemma cut_sum g n m : sum_below (n + m) (fun i => if Nat.ltb i n then g i else 0) = sum_below n g.
Proof.
  rewrite sum_below_app. rewrite (sum_below_0 m) by (intros i Hi; destruct (Nat.ltb_spec (n + i) n); [lia|reflexivity]).
  rewrite (sum_below_ext n _ g); [lra|]. intros i Hi. destruct (Nat.ltb_spec i n); [reflexivity|lia].
Qed.
(** the image moves, the pixel stays *)
Lemma shifted_sum_m g n c p : (forall i, (i < n)%nat -> 0 <= g i) -> sum_below n (fun i => shifted g n (i + c) p) <= sum_below n g.
Proof.
  intros H. set (F := fun m => shifted g n m p). assert (HF : forall m, 0 <= F m) by (intros; now apply shifted_nonneg).
  apply Rle_trans with (sum_below (c + n) F).
  { rewrite (sum_below_app c n). pose proof (sum_below_nonneg c F ltac:(auto)). rewrite (sum_below_ext n (fun i => shifted g n (i + c) p) (fun i => F (c + i)%nat)); [lra|]. intros i _. unfold F. f_equal. lia. }
  apply Rle_trans with (sum_below ((c + n) + p) F); [now apply sum_below_more|]. right.
  rewrite Nat.add_comm, sum_below_app, sum_below_0.
  2: { intros i Hi. unfold F, shifted. destruct (Nat.leb_spec p i); [lia|reflexivity]. }
  rewrite <- (cut_sum g n c). rewrite Rplus_0_l, Nat.add_comm. apply sum_below_ext. intros i _. unfold F, shifted. replace (p + i - p)%nat with i by lia. destruct (Nat.leb_spec p (p + i)); [reflexivity|lia].
Qed.
(** the pixel moves *)
Lemma shifted_sum_p g n m k : (forall i, (i < n)%nat -> 0 <= g i) -> sum_below k (fun p => shifted g n m p) <= sum_below n g.
Proof.
  intros H. assert (HF : forall p, 0 <= shifted g n m p) by (intros; now apply shifted_nonneg).
  apply Rle_trans with (sum_below (S m + k) (fun p => shifted g n m p)). { rewrite Nat.add_comm. now apply sum_below_more. }
  rewrite sum_below_app, (sum_below_0 k).
  2: { intros i _. unfold shifted. destruct (Nat.leb_spec (S m + i) m); [lia|reflexivity]. }
  rewrite Rplus_0_r. set (h := fun i => if Nat.ltb i n then g i else 0). rewrite (sum_below_ext (S m) _ (fun q => h (m - q)%nat)).
  2: { intros i Hi. unfold shifted, h. destruct (Nat.leb_spec i m); [reflexivity|lia]. }
  rewrite (sum_below_rev m h). apply Rle_trans with (sum_below (S m + n) h).
  - apply sum_below_more. intros i. unfold h. destruct (Nat.ltb_spec i n); [auto|lra].
  - right. rewrite Nat.add_comm. apply cut_sum.
Qed.
Lemma shifted_scale k l g g' n m p : shifted (fun i => k * g i + l * g' i) n m p = k * shifted g n m p + l * shifted g' n m p.
Proof. unfold shifted. destruct (Nat.leb p m); [destruct (Nat.ltb (m - p) n)|]; lra. Qed.
Lemma shifted_ext g g' n m p : (forall i, (i < n)%nat -> g i = g' i) -> shifted g n m p = shifted g' n m p.
Proof. intros H. unfold shifted. destruct (Nat.leb p m); auto. destruct (Nat.ltb_spec (m - p) n); auto. Qed.
Lemma shifted_sum g n m p k : shifted (fun i => sum_below k (g i)) n m p = sum_below k (fun j => shifted (fun i => g i j) n m p).
Proof. unfold shifted. destruct (Nat.leb p m); [destruct (Nat.ltb (m - p) n)|]; auto; symmetry; now apply sum_below_0. Qed.

(** ** Images *)
Lemma rect_rows h w im : rectangular h w im -> rows im = h.
Proof. now intros [H _]. Qed.
Lemma rect_columns h w im : rectangular h w im -> (0 < h)%nat -> columns im = w.
Proof. intros [H1 H2] Hh. destruct im as [|r im]; [cbn in *; lia|]. cbn. apply H2. now left. Qed.
Lemma total_nth l n : length l = n -> total l = sum_below n (fun i => nth i l 0).
Proof. intros <-. rewrite <- (map_id l) at 1. apply (sum_below_at (fun x => x)). Qed.
Lemma map_nth_total {A} (f : A -> R) (d : A) l : total (map f l) = sum_below (length l) (fun i => f (nth i l d)).
Proof.
  unfold sum_below. induction l as [|x l IH]; auto. cbn [length seq map]. rewrite <- seq_shift, map_map. unfold total in *. cbn [fold_right map nth]. now rewrite IH.
Qed.
Lemma light_entries h w im : rectangular h w im -> light im = sum_below h (fun i => sum_below w (fun j => entry im i j)).
Proof.
  intros [H1 H2]. unfold light. rewrite (map_nth_total total [] im), H1. apply sum_below_ext. intros i Hi. unfold entry. apply total_nth. apply H2. apply nth_In. lia.
Qed.
Lemma column_light_entries h w im j : rectangular h w im -> column_light im j = sum_below h (fun i => entry im i j).
Proof. intros [H1 H2]. unfold column_light. rewrite (map_nth_total (fun r => nth j r 0) [] im), H1. reflexivity. Qed.
Lemma entry_nonneg im i j : dark_nowhere im -> 0 <= entry im i j.
Proof.
  intros H. unfold entry. destruct (Nat.ltb_spec i (length im)) as [Hi|Hi]; [|rewrite (nth_overflow im) by lia; destruct j; cbn; lra].
  destruct (Nat.ltb_spec j (length (nth i im []))) as [Hj|Hj]; [|rewrite nth_overflow by lia; lra]. apply (H (nth i im [])); now apply nth_In.
Qed.
Lemma entry_outside h w im i j : rectangular h w im -> (h <= i \/ w <= j)%nat -> entry im i j = 0.
Proof.
  intros [H1 H2] H. unfold entry. destruct (Nat.ltb_spec i (length im)) as [Hi|Hi]; [|rewrite (nth_overflow im) by lia; destruct j; reflexivity].
  apply nth_overflow. rewrite (H2 (nth i im [])) by now apply nth_In. lia.
Qed.
Lemma entries_dark h w im : rectangular h w im -> (forall i j, (i < h)%nat -> (j < w)%nat -> 0 <= entry im i j) -> dark_nowhere im.
Proof.
  intros [H1 H2] H r x Hr Hx. destruct (In_nth _ _ [] Hr) as (i & Hi & <-). destruct (In_nth _ _ 0 Hx) as (j & Hj & <-). apply H; [lia|]. rewrite <- (H2 (nth i im [])); auto.
Qed.
Lemma grid_rect h w (f : nat -> nat -> R) : rectangular h w (map (fun i => map (f i) (seq 0 w)) (seq 0 h)).
Proof.
  split; [now rewrite map_length, seq_length|]. intros r Hr. apply in_map_iff in Hr. destruct Hr as (i & <- & _). now rewrite map_length, seq_length.
Qed.
Lemma grid_entry h w (f : nat -> nat -> R) i j : (i < h)%nat -> (j < w)%nat -> entry (map (fun i => map (f i) (seq 0 w)) (seq 0 h)) i j = f i j.
Proof.
  intros Hi Hj. unfold entry. rewrite nth_indep with (d' := map (f 0%nat) (seq 0 w)) by (rewrite map_length, seq_length; auto).
  rewrite (map_nth (fun i => map (f i) (seq 0 w))), seq_nth by auto. cbn [Nat.add]. change (at_ j (map (f i) (seq 0 w)) = f i j). now apply at_map_seq.
Qed.
Lemma convolve_rect im k : rectangular (rows im) (columns im) (convolve2d im k).
Proof. apply (grid_rect (rows im) (columns im)). Qed.
Lemma convolve_entry im k i j : (i < rows im)%nat -> (j < columns im)%nat ->
  entry (convolve2d im k) i j = sum_below (rows k) (fun p => sum_below (columns k) (fun q => entry k p q * shifted (fun r => shifted (entry im r) (columns im) (j + (columns k - 1) / 2) q) (rows im) (i + (rows k - 1) / 2) p)).
Proof. intros Hi Hj. unfold convolve2d. rewrite (grid_entry (rows im) (columns im)) by auto. reflexivity. Qed.

(** ** The kernel *)
Lemma update_length {A} i f (l : list A) : length (update i f l) = length l.
Proof. revert i; induction l as [|x l IH]; intros [|i]; cbn; auto. Qed.
Lemma update_nth {A} i f (l : list A) d j : (j < length l)%nat -> nth j (update i f l) d = if Nat.eqb j i then f (nth j l d) else nth j l d.
Proof.
  revert i j; induction l as [|x l IH]; intros i j Hj; [cbn in Hj; lia|]. destruct i as [|i], j as [|j]; cbn; auto. cbn in Hj. rewrite IH by lia. reflexivity.
Qed.
Lemma nth_map_in {A B} (f : A -> B) l d d' i : (i < length l)%nat -> nth i (map f l) d' = f (nth i l d).
Proof. intros H. rewrite nth_indep with (d' := f d) by (rewrite map_length; auto). apply map_nth. Qed.
Lemma nth_repeat {A} (x d : A) n i : (i < n)%nat -> nth i (repeat x n) d = x.
Proof. revert i; induction n as [|n IH]; intros [|i] H; cbn; try lia; auto. apply IH. lia. Qed.
Lemma modf_spec k : 0 <= k -> exists n, snd (modf k) = Z.of_nat n /\ whole_and_fraction k n (fst (modf k)).
Proof.
  intros H. unfold modf. destruct (Rlt_dec k 0); [lra|]. cbn. destruct (Rfloor_spec k) as [A B]. assert (0 <= Rfloor k)%Z. { assert (IZR (-1) < IZR (Rfloor k)) by lra. apply lt_IZR in H0. lia. }
  exists (Z.to_nat (Rfloor k)). rewrite Z2Nat.id by auto. split; auto. unfold whole_and_fraction. rewrite INR_IZR_INZ, Z2Nat.id by auto. lra.
Qed.
Lemma kernel_spec kx ky : 0 <= kx -> 0 <= ky -> exists nx fx ny fy, whole_and_fraction kx nx fx /\ whole_and_fraction ky ny fy
  /\ rectangular (ny + 2) (nx + 2) (kernel kx ky)
  /\ forall i j, (i < ny + 2)%nat -> (j < nx + 2)%nat -> entry (kernel kx ky) i j = share (ny + 2) fy i * share (nx + 2) fx j.
Proof.
  intros Hx Hy. destruct (modf_spec kx Hx) as (nx & Ex & Wx). destruct (modf_spec ky Hy) as (ny & Ey & Wy). unfold kernel.
  destruct (modf kx) as [fx ix], (modf ky) as [fy iy]. cbn [fst snd] in *. subst ix iy. exists nx, fx, ny, fy. split; auto. split; auto.
  replace (Z.to_nat (Z.of_nat nx + 2)) with (nx + 2)%nat by lia. replace (Z.to_nat (Z.of_nat ny + 2)) with (ny + 2)%nat by lia.
  set (k0 := repeat (repeat 1 (nx + 2)) (ny + 2)). set (k1 := map (update 0 (fun x => x * (0.5 * fx))) k0). set (k2 := map (update (nx + 2 - 1) (fun x => x * (0.5 * fx))) k1).
  set (k3 := update 0 (map (fun x => x * (0.5 * fy))) k2). set (k4 := update (ny + 2 - 1) (map (fun x => x * (0.5 * fy))) k3).
  assert (L0 : length k0 = (ny + 2)%nat) by apply repeat_length. assert (L2 : length k2 = (ny + 2)%nat) by (unfold k2, k1; now rewrite !map_length). assert (L3 : length k3 = (ny + 2)%nat) by (unfold k3; now rewrite update_length).
  assert (L4 : length k4 = (ny + 2)%nat) by (unfold k4; now rewrite update_length).
  assert (R2 : forall i, (i < ny + 2)%nat -> nth i k2 [] = update (nx + 2 - 1) (fun x => x * (0.5 * fx)) (update 0 (fun x => x * (0.5 * fx)) (repeat 1 (nx + 2)))).
  { intros i Hi. unfold k2, k1. rewrite (nth_map_in _ _ []) by (rewrite map_length, L0; auto). rewrite (nth_map_in _ _ []) by (rewrite L0; auto). unfold k0. now rewrite nth_repeat. }
  assert (R4 : forall i, (i < ny + 2)%nat -> nth i k4 [] = (if Nat.eqb i (ny + 2 - 1) then map (fun x => x * (0.5 * fy)) else fun l => l) ((if Nat.eqb i 0 then map (fun x => x * (0.5 * fy)) else fun l => l) (nth i k2 []))).
  { intros i Hi. unfold k4, k3. rewrite update_nth by (rewrite update_length; lia). rewrite update_nth by lia. destruct (Nat.eqb i (ny + 2 - 1)), (Nat.eqb i 0); reflexivity. }
  assert (Lr : forall i, (i < ny + 2)%nat -> length (nth i k2 []) = (nx + 2)%nat). { intros i Hi. rewrite R2 by auto. now rewrite !update_length, repeat_length. }
  split.
  - split; auto. intros r Hr. destruct (In_nth _ _ [] Hr) as (i & Hi & <-). rewrite R4 by lia. destruct (Nat.eqb i (ny + 2 - 1)), (Nat.eqb i 0); rewrite ?map_length; apply Lr; lia.
  - intros i j Hi Hj. unfold entry. rewrite R4 by auto.
    assert (E2 : nth j (nth i k2 []) 0 = share (nx + 2) fx j).
    { rewrite R2 by auto. rewrite update_nth by (rewrite update_length, repeat_length; auto). rewrite update_nth by (rewrite repeat_length; auto). rewrite nth_repeat by auto. unfold share.
      destruct (Nat.eqb_spec j 0), (Nat.eqb_spec j (nx + 2 - 1)); try lia; lra. }
    unfold share at 1. destruct (Nat.eqb_spec i (ny + 2 - 1)), (Nat.eqb_spec i 0); try lia; rewrite ?(nth_map_in _ _ 0) by (rewrite Lr; auto); rewrite E2; lra.
Qed.
Lemma share_sum n f : sum_below (n + 2) (share (n + 2) f) = INR n + f.
Proof.
  replace (n + 2)%nat with (S (S n)) by lia. rewrite sum_below_S, sum_below_last.
  assert (E0 : share (S (S n)) f 0 = f / 2) by reflexivity. assert (E1 : share (S (S n)) f (S n) = f / 2) by (unfold share; destruct (Nat.eqb_spec (S n) 0); [lia|]; destruct (Nat.eqb_spec (S n) (S (S n) - 1)); [reflexivity|lia]). rewrite E0, E1.
  rewrite (sum_below_ext n _ (fun _ => 1)).
  - replace (sum_below n (fun _ => 1)) with (INR n); [lra|]. clear. induction n as [|n IH]; [reflexivity|]. rewrite sum_below_last, <- IH, S_INR. reflexivity.
  - intros i Hi. unfold share. destruct (Nat.eqb_spec (S i) 0); [lia|]. destruct (Nat.eqb_spec (S i) (S (S n) - 1)); [lia|reflexivity].
Qed.
Lemma share_bounds n f i : 0 <= f < 1 -> 0 <= share n f i <= 1.
Proof. intros H. unfold share. destruct (Nat.eqb i 0); [|destruct (Nat.eqb i (n - 1))]; lra. Qed.
