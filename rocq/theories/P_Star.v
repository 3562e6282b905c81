(** Properties of the light of the star: C34 (star part), C64-C68. *)
From Verif Require Import Base XR M_Signal M_Optics M_Light M_Bins M_Star S_Signal S_Optics S_Light S_Bins S_Star L_Signal L_Optics L_Light L_Bins L_Star P_Light P_Bins P_Windows.
Open Scope list_scope.
Open Scope R_scope.

(** ** C64: photometers *)
(** Flux and signal are the trapezium integrals of the star's light over all its wavelengths, the
    band only when the channel edges are forced; the light in the brightest pixel is the peak of the
    pixel response times the signal. *)
Theorem C64_photometer_signal : forall c a prf star sky out t, source_ star -> sky_on star sky -> propagate_photometer c a prf star sky = Ok (out, t) ->
  exists f qe tr, c_force c = Some f /\ on (s_wl star) (c_qe c) qe /\ on (s_wl star) (c_tr c) tr
  /\ o_flux out = [trapezia (s_wl star) (counted c f star)]
  /\ exists s, o_signal out = [s]
     /\ s = trapezia (s_wl star) (fun i => detected (c_area c) qe tr (s_data star) (s_wl star) i * sky_at sky i * passes f (c_min c) (c_max c) (at_ i (s_wl star)))
     /\ exists p, greatest p prf /\ o_max out = [p * s].
Proof.
  intros c a prf star sky out t [Hg Ho] Hsky E. unfold propagate_photometer in E. set (wl := s_wl star) in *. unfold one_value_per_wavelength in Ho. fold wl in Ho.
  destruct (get_efficiency c wl sky) as [[[qe tr] t']|] eqn:Ee; [|discriminate]. cbn [bind fst snd] in E.
  destruct (efficiency_ok c wl sky qe tr t' Hg Ee) as (tr0 & Q & T & L1 & L2 & L3 & _ & _ & Hat). { intros s ->. exact Hsky. }
  destruct (force_edges c wl tr) as [[tr' win]|] eqn:Ef; [|discriminate]. cbn [bind] in E. destruct (force_edges_ok c wl tr tr' win L2 Ef) as (f & Hf & F1 & F2 & F3).
  dbind E y Hy. dbind E x1 Hx1. dbind E x2 Hx2. dbind E x3 Hx3. dbind E fr Hfr. dbind E pk Hpk.
  apply times_ok in Hy, Hx1, Hx2, Hx3. destruct Hy as (Y1 & Y2 & Y3), Hx1 as (X1 & X1' & X1''), Hx2 as (X2 & X2' & X2''), Hx3 as (X3 & X3' & X3'').
  exists f, qe, tr0. split; auto. split; auto. split; auto. assert (Eo : out = {| o_sky := t'; o_flux := [trapz wl y]; o_signal := [c_area c * trapz wl x3]; o_aperture := [c_area c * trapz wl x3 * fr]; o_max := [pk * (c_area c * trapz wl x3)] |}) by congruence.
  rewrite Eo. cbn [o_flux o_signal o_max]. split.
  - f_equal. rewrite trapz_spec by congruence. apply trapezia_ext. intros i Hi. rewrite Y3. destruct (F3 i Hi) as [_ ->]. unfold counted. fold wl. lra.
  - eexists. split; [reflexivity|]. split; [|exists pk; split; [now apply array_max_spec|reflexivity]].
    rewrite trapz_spec by congruence. rewrite Rmult_comm, <- trapezia_scale. apply trapezia_ext. intros i Hi. rewrite X3'', X2'', X1'', map_photons_at by auto. destruct (F3 i Hi) as [-> _].
    rewrite (Hat f Hf i Hi). unfold detected. lra.
Qed.
Print Assumptions C64_photometer_signal.
Lemma on_nonneg wl s e : on wl s e -> nonneg (s_data s) -> nonneg e.
Proof. intros H Hn. change e with (s_data {| s_wl := wl; s_data := e |}). eapply resample_nonneg; eauto. Qed.
Lemma on_bounds wl s e : on wl s e -> (forall x, In x (s_data s) -> 0 <= x <= 1) -> forall i, 0 <= at_ i e <= 1.
Proof.
  intros H Hb i. destruct (Nat.lt_ge_cases i (length e)) as [Hi|Hi]; [|unfold at_; rewrite nth_overflow by auto; lra].
  apply (resample_bounds wl s {| s_wl := wl; s_data := e |} 1 H ltac:(lra) Hb). now apply at_In.
Qed.
Lemma passes_bounds f m M w : 0 <= passes f m M w <= 1.
Proof. unfold passes. destruct f; [|lra]. destruct (Rlt_dec w m); [lra|]. destruct (Rlt_dec M w); lra. Qed.
Definition physical_channel (c : channel) : Prop :=
  0 <= c_area c /\ (forall x, In x (s_data (c_qe c)) -> 0 <= x <= 1) /\ (forall x, In x (s_data (c_tr c)) -> 0 <= x <= 1).
Definition physical_sky (sky : option sig) : Prop := match sky with None => True | Some s => forall x, In x (s_data s) -> 0 <= x <= 1 end.
Lemma sky_at_bounds sky i : physical_sky sky -> 0 <= sky_at sky i <= 1.
Proof.
  destruct sky as [s|]; cbn; [|lra]. intros H. destruct (Nat.lt_ge_cases i (length (s_data s))) as [Hi|Hi]; [apply H; now apply at_In|]. unfold at_. rewrite nth_overflow by auto. lra.
Qed.
Lemma detected_bounds area qe tr star wl sky i p : 0 <= area -> (0 <= at_ i qe <= 1) -> (0 <= at_ i tr <= 1) -> 0 <= sky <= 1 -> 0 <= p <= 1 -> 0 <= at_ i star -> 0 <= at_ i wl ->
  0 <= detected area qe tr star wl i * sky * p <= area * (at_ i star * photons (at_ i wl)).
Proof.
  intros Ha Hq Ht Hs Hp Hd Hw. unfold detected. pose proof (photons_nonneg _ Hw) as Hph. set (u := area * (at_ i star * photons (at_ i wl))).
  assert (Hu : 0 <= u) by (apply Rmult_le_pos; auto; apply Rmult_le_pos; auto).
  assert (Hb : 0 <= at_ i qe * at_ i tr * sky * p <= 1).
  { assert (H1 : 0 <= at_ i qe * at_ i tr <= 1) by (split; [apply Rmult_le_pos; lra|rewrite <- (Rmult_1_r 1); apply Rmult_le_compat; lra]).
    assert (H2 : 0 <= at_ i qe * at_ i tr * sky <= 1) by (split; [apply Rmult_le_pos; lra|rewrite <- (Rmult_1_r 1); apply Rmult_le_compat; lra]).
    split; [apply Rmult_le_pos; lra|rewrite <- (Rmult_1_r 1); apply Rmult_le_compat; lra]. }
  replace (u * (at_ i qe * at_ i tr) * sky * p) with (u * (at_ i qe * at_ i tr * sky * p)) by ring. split; [apply Rmult_le_pos; lra|]. rewrite <- (Rmult_1_r u) at 2. apply Rmult_le_compat_l; lra.
Qed.
Lemma trapezia_le wl f g : nondecreasing wl -> (forall i, (i < length wl)%nat -> f i <= g i) -> trapezia wl f <= trapezia wl g.
Proof.
  intros Hs H. assert (0 <= trapezia wl (fun i => 1 * g i + (-1) * f i)) by (apply trapezia_nonneg; auto; intros i Hi; specialize (H i Hi); lra). rewrite trapezia_linear in H0. lra.
Qed.
(** The signal is between nothing and all photons reaching the telescope. *)
Theorem C64_photometer_bounds : forall c a prf star sky out t, source_ star -> sky_on star sky -> physical_channel c -> physical_sky sky -> nonneg (s_data star) -> propagate_photometer c a prf star sky = Ok (out, t) ->
  exists s phi, o_signal out = [s] /\ o_flux out = [phi] /\ 0 <= s <= c_area c * trapezia (s_wl star) (fun i => at_ i (s_data star) * photons (at_ i (s_wl star)))
  /\ 0 <= phi <= trapezia (s_wl star) (fun i => at_ i (s_data star)).
Proof.
  intros c a prf star sky out t Hs Hsky (Ha & Hq & Ht) Hps Hst E. destruct (C64_photometer_signal _ _ _ _ _ _ _ Hs Hsky E) as (f & qe & tr & Hf & Q & T & Eflux & s & Es & Hval & _).
  destruct Hs as [Hg Ho]. assert (Hnd : nondecreasing (s_wl star)) by apply increasing_nondecreasing, Hg.
  assert (Hw : forall i, (i < length (s_wl star))%nat -> 0 <= at_ i (s_wl star)). { intros i Hi. left. apply Hg. now apply at_In. }
  exists s, (trapezia (s_wl star) (counted c f star)). split; auto. split; auto. split.
  - rewrite Hval. rewrite Rmult_comm, <- trapezia_scale. split; [apply trapezia_nonneg|apply trapezia_le]; auto; intros i Hi.
    + apply detected_bounds; auto; [eapply on_bounds; eauto|eapply on_bounds; eauto|now apply sky_at_bounds|apply passes_bounds|now apply nonneg_at].
    + pose proof (detected_bounds (c_area c) qe tr (s_data star) (s_wl star) (sky_at sky i) i (passes f (c_min c) (c_max c) (at_ i (s_wl star))) Ha (on_bounds _ _ _ Q Hq i) (on_bounds _ _ _ T Ht i) (sky_at_bounds _ i Hps) (passes_bounds _ _ _ _) (nonneg_at _ i Hst) (Hw i Hi)). lra.
  - split; [apply trapezia_nonneg|apply trapezia_le]; auto; intros i Hi; unfold counted; pose proof (passes_bounds f (c_min c) (c_max c) (at_ i (s_wl star))) as Hp; pose proof (nonneg_at _ i Hst) as Hn.
    + apply Rmult_le_pos; lra.
    + rewrite <- (Rmult_1_r (at_ i (s_data star))) at 2. apply Rmult_le_compat_l; lra.
Qed.
Print Assumptions C64_photometer_bounds.
(** Everything is linear in the source. *)
Definition combines (k l : R) (s1 s2 s3 : sig) : Prop :=
  s_wl s2 = s_wl s1 /\ s_wl s3 = s_wl s1 /\ forall i, at_ i (s_data s3) = k * at_ i (s_data s1) + l * at_ i (s_data s2).
Theorem C64_photometer_linear : forall c a prf s1 s2 s3 sky k l out1 out2 out3 t1 t2 t3, source_ s1 -> source_ s2 -> source_ s3 -> sky_on s1 sky -> combines k l s1 s2 s3 ->
  propagate_photometer c a prf s1 sky = Ok (out1, t1) -> propagate_photometer c a prf s2 sky = Ok (out2, t2) -> propagate_photometer c a prf s3 sky = Ok (out3, t3) ->
  forall field, In field [o_flux; o_signal; o_aperture; o_max] -> exists x y, field out1 = [x] /\ field out2 = [y] /\ field out3 = [k * x + l * y].
Proof.
  intros c a prf s1 s2 s3 sky k l out1 out2 out3 t1 t2 t3 H1 H2 H3 Hsky (W2 & W3 & Hc) E1 E2 E3.
  assert (Hap : forall s sk out t, propagate_photometer c a prf s sk = Ok (out, t) -> exists fr pk x, aperture_fraction a = Ok fr /\ array_max prf = Ok pk /\ o_signal out = [x] /\ o_aperture out = [x * fr] /\ o_max out = [pk * x]).
  { clear. intros s sk out t E. unfold propagate_photometer in E. destruct (get_efficiency _ _ _) as [[e t']|]; [|discriminate]. cbn [bind] in E. destruct (force_edges _ _ _) as [[tr w]|]; [|discriminate]. cbn [bind] in E.
    dbind E y Hy. dbind E x1 Hx1. dbind E x2 Hx2. dbind E x3 Hx3. dbind E fr Hfr. dbind E pk Hpk. exists fr, pk, (c_area c * trapz (s_wl s) x3). split; auto. split; auto.
    assert (Eo : out = {| o_sky := t'; o_flux := [trapz (s_wl s) y]; o_signal := [c_area c * trapz (s_wl s) x3]; o_aperture := [c_area c * trapz (s_wl s) x3 * fr]; o_max := [pk * (c_area c * trapz (s_wl s) x3)] |}) by congruence. rewrite Eo. auto. }
  destruct (Hap _ _ _ _ E1) as (fr & pk & x1 & Hfr & Hpk & A1 & A2 & A3). destruct (Hap _ _ _ _ E2) as (fr2 & pk2 & x2 & Hfr2 & Hpk2 & B1 & B2 & B3). destruct (Hap _ _ _ _ E3) as (fr3 & pk3 & x3 & Hfr3 & Hpk3 & D1 & D2 & D3).
  assert (fr2 = fr) as -> by congruence. assert (fr3 = fr) as -> by congruence. assert (pk2 = pk) as -> by congruence. assert (pk3 = pk) as -> by congruence.
  assert (Hs2 : sky_on s2 sky) by (destruct sky; cbn in *; auto; rewrite W2; auto). assert (Hs3 : sky_on s3 sky) by (destruct sky; cbn in *; auto; rewrite W3; auto).
  destruct (C64_photometer_signal _ _ _ _ _ _ _ H1 Hsky E1) as (f & qe & tr & Hf & Q & T & F1 & y1 & S1 & V1 & _).
  destruct (C64_photometer_signal _ _ _ _ _ _ _ H2 Hs2 E2) as (f2 & qe2 & tr2 & Hf2 & Q2 & T2 & F2 & y2 & S2 & V2 & _).
  destruct (C64_photometer_signal _ _ _ _ _ _ _ H3 Hs3 E3) as (f3 & qe3 & tr3 & Hf3 & Q3 & T3 & F3 & y3 & S3 & V3 & _).
  rewrite W2 in *. rewrite W3 in *. unfold on in *. assert (f2 = f) as -> by congruence. assert (f3 = f) as -> by congruence. assert (qe2 = qe) as -> by congruence. assert (qe3 = qe) as -> by congruence. assert (tr2 = tr) as -> by congruence. assert (tr3 = tr) as -> by congruence.
  assert (x1 = y1) as -> by congruence. assert (x2 = y2) as -> by congruence. assert (x3 = y3) as -> by congruence.
  assert (Hlin : y3 = k * y1 + l * y2). { rewrite V1, V2, V3, <- trapezia_linear. apply trapezia_ext. intros i _. unfold detected. rewrite Hc. ring. }
  intros field [<-|[<-|[<-|[<-|[]]]]].
  - do 2 eexists. split; [exact F1|]. split; [exact F2|]. rewrite F3, <- trapezia_linear. f_equal. apply trapezia_ext. intros i _. unfold counted. rewrite W2, W3, Hc. ring.
  - do 2 eexists. split; [exact S1|]. split; [exact S2|]. rewrite S3, Hlin. reflexivity.
  - do 2 eexists. split; [exact A2|]. split; [exact B2|]. rewrite D2, Hlin. f_equal. ring.
  - do 2 eexists. split; [exact A3|]. split; [exact B3|]. rewrite D3, Hlin. f_equal. ring.
Qed.
Print Assumptions C64_photometer_linear.

(** ** C66: the fraction of the star in the aperture *)
(** apertureCorrection wins over the encircled energy; without either the whole signal counts; a
    photometer without aperture section fails. *)
Theorem C66_aperture_fraction : forall c a prf star sky,
  (a = None -> forall out, propagate_photometer c a prf star sky <> Ok out)
  /\ forall p out t, a = Some p -> propagate_photometer c a prf star sky = Ok (out, t) -> exists s, o_signal out = [s]
     /\ (forall k, a_correction p = Some k -> o_aperture out = [s * k])
     /\ (forall k, a_correction p = None -> a_ene p = Some k -> o_aperture out = [s * k])
     /\ (a_correction p = None -> a_ene p = None -> o_aperture out = [s]).
Proof.
  intros c a prf star sky. assert (Hap : forall out t, propagate_photometer c a prf star sky = Ok (out, t) -> exists fr x, aperture_fraction a = Ok fr /\ o_signal out = [x] /\ o_aperture out = [x * fr]).
  { intros out t E. unfold propagate_photometer in E. destruct (get_efficiency _ _ _) as [[e t']|]; [|discriminate]. cbn [bind] in E. destruct (force_edges _ _ _) as [[tr w]|]; [|discriminate]. cbn [bind] in E.
    dbind E y Hy. dbind E x1 Hx1. dbind E x2 Hx2. dbind E x3 Hx3. dbind E fr Hfr. dbind E pk Hpk. exists fr, (c_area c * trapz (s_wl star) x3). split; auto.
    assert (Eo : out = {| o_sky := t'; o_flux := [trapz (s_wl star) y]; o_signal := [c_area c * trapz (s_wl star) x3]; o_aperture := [c_area c * trapz (s_wl star) x3 * fr]; o_max := [pk * (c_area c * trapz (s_wl star) x3)] |}) by congruence. rewrite Eo. auto. }
  split.
  - intros -> [out t] E. destruct (Hap _ _ E) as (fr & x & H & _). discriminate.
  - intros p out t -> E. destruct (Hap _ _ E) as (fr & x & H & H1 & H2). exists x. split; auto. unfold aperture_fraction in H. rewrite H2. repeat split.
    + intros k Hk. rewrite Hk in H. congruence.
    + intros k Hk He. rewrite Hk, He in H. congruence.
    + intros Hk He. rewrite Hk, He in H. assert (fr = 1) as -> by congruence. f_equal. lra.
Qed.
Print Assumptions C66_aperture_fraction.

(** ** C65: spectrometers *)
Lemma mapM_F2 {A B} (f : A -> res B) l : forall out, mapM f l = Ok out -> Forall2 (fun a b => f a = Ok b) l out.
Proof.
  induction l as [|a l IH]; intros out E; cbn in E; [assert (out = []) as -> by congruence; constructor|].
  dbind E b Hb. dbind E r Hr. assert (out = b :: r) as -> by congruence. constructor; auto.
Qed.
Lemma in_window_within b w : (if in_window_of b w then 1 else 0) = within (left_edge b) (right_edge b) w.
Proof. unfold in_window_of, within, Rltb. destruct (Rlt_dec w (left_edge b)), (Rle_dec (left_edge b) w), (Rlt_dec w (right_edge b)); cbn; auto; lra. Qed.
Lemma windowed wl d bins out : length d = length wl -> mapM (fun m => let* y := times d m in Ok (trapz wl y)) (window_function bins wl) = Ok out ->
  Forall2 (fun b v => v = trapezia wl (fun i => at_ i d * within (left_edge b) (right_edge b) (at_ i wl))) bins out.
Proof.
  intros Hl E. apply mapM_F2 in E. unfold window_function in E. apply F2_map_l in E. revert E. apply F2_impl. intros b v E. dbind E y Hy. assert (v = trapz wl y) as -> by congruence.
  apply times_ok in Hy. destruct Hy as (Y1 & Y2 & Y3). rewrite trapz_spec by congruence. apply trapezia_ext. intros i Hi. rewrite Y3, (at_map (fun w => if in_window_of b w then 1 else 0)) by auto. now rewrite in_window_within.
Qed.
(** The pixel signals: the density of detected photons on the pixels' wavelengths, times pixel width
    and gain. *)
Definition pixel_signal (density : sig) (pix_wl pix_width : list R) (gain : R -> res R) (v : list R) : Prop :=
  exists d g, on pix_wl density d /\ Forall2 (fun w x => gain w = Ok x) pix_wl g /\ length v = length pix_wl /\ length d = length pix_wl /\ length pix_width = length pix_wl
  /\ forall i, at_ i v = at_ i d * at_ i pix_width * at_ i g.
(** the greatest of the pixels strictly inside a bin *)
Definition greatest_inside (b : bin) (pix_wl v : list R) (m : R) : Prop :=
  (exists i, (i < length pix_wl)%nat /\ left_edge b < at_ i pix_wl < right_edge b /\ m = at_ i v)
  /\ forall i, (i < length pix_wl)%nat -> left_edge b < at_ i pix_wl < right_edge b -> at_ i v <= m.
Lemma filter_positions (P : R -> bool) wl : forall v, length v = length wl -> forall x, In x (map snd (filter (fun p => P (fst p)) (combine wl v))) <-> exists i, (i < length wl)%nat /\ P (at_ i wl) = true /\ x = at_ i v.
Proof.
  induction wl as [|w wl IH]; intros [|y v] Hl x; try discriminate; [cbn; split; [intros []|intros (i & Hi & _); lia]|].
  cbn [combine filter fst]. assert (IH' := IH v ltac:(cbn in Hl; lia) x). destruct (P w) eqn:Ew; cbn [map snd In]; rewrite IH'; split.
  - intros [<-|(i & Hi & Hp & ->)]; [exists 0%nat; repeat split; auto; cbn; lia|exists (S i); repeat split; auto; cbn; lia].
  - intros ([|i] & Hi & Hp & ->); [now left|right; exists i; repeat split; auto; cbn in Hi; lia].
  - intros (i & Hi & Hp & ->). exists (S i). repeat split; auto; cbn; lia.
  - intros ([|i] & Hi & Hp & ->); [cbn in Hp; congruence|exists i; repeat split; auto; cbn in Hi; lia].
Qed.
Lemma in_pixel_bin_spec b w : in_pixel_bin b w = true <-> left_edge b < w < right_edge b.
Proof. unfold in_pixel_bin. rewrite andb_true_iff, !Rltb_true. lra. Qed.
Lemma array_max_inside b wl v m : length v = length wl -> array_max (map snd (filter (fun p => in_pixel_bin b (fst p)) (combine wl v))) = Ok m -> greatest_inside b wl v m.
Proof.
  intros Hl E. apply array_max_spec in E. destruct E as [Hin Hmax]. split.
  - apply (filter_positions (in_pixel_bin b)) in Hin; auto. destruct Hin as (i & Hi & Hp & ->). exists i. split; auto. split; auto. now apply in_pixel_bin_spec.
  - intros i Hi Hp. apply Hmax. apply (filter_positions (in_pixel_bin b)); auto. exists i. repeat split; auto. now apply in_pixel_bin_spec.
Qed.
Lemma spectrometer_inv c pw pd gain star sky out t : source_ star -> sky_on star sky -> propagate_spectrometer c pw pd gain star sky = Ok (out, t) ->
  exists f qe tr dens, c_force c = Some f /\ on (s_wl star) (c_qe c) qe /\ on (s_wl star) (c_tr c) tr /\ length dens = length (s_wl star)
  /\ (forall i, (i < length (s_wl star))%nat -> at_ i dens = detected (c_area c) qe tr (s_data star) (s_wl star) i * sky_at sky i * passes f (c_min c) (c_max c) (at_ i (s_wl star)))
  /\ Forall2 (fun b v => v = trapezia (s_wl star) (fun i => counted c f star i * within (left_edge b) (right_edge b) (at_ i (s_wl star)))) (c_bins c) (o_flux out)
  /\ Forall2 (fun b v => v = trapezia (s_wl star) (fun i => at_ i dens * within (left_edge b) (right_edge b) (at_ i (s_wl star)))) (c_bins c) (o_signal out)
  /\ o_aperture out = o_signal out
  /\ exists v, pixel_signal {| s_wl := s_wl star; s_data := dens |} pw pd gain v /\ Forall2 (fun b m => array_max (map snd (filter (fun p => in_pixel_bin b (fst p)) (combine pw v))) = Ok m) (c_bins c) (o_max out).
Proof.
  intros [Hg Ho] Hsky E. unfold propagate_spectrometer in E. set (wl := s_wl star) in *. unfold one_value_per_wavelength in Ho. fold wl in Ho.
  destruct (get_efficiency c wl sky) as [[[qe tr] t']|] eqn:Ee; [|discriminate]. cbn [bind fst snd] in E.
  destruct (efficiency_ok c wl sky qe tr t' Hg Ee) as (tr0 & Q & T & L1 & L2 & L3 & _ & _ & Hat). { intros s ->. exact Hsky. }
  destruct (force_edges c wl tr) as [[tr' win]|] eqn:Ef; [|discriminate]. cbn [bind] in E. destruct (force_edges_ok c wl tr tr' win L2 Ef) as (f & Hf & F1 & F2 & F3).
  dbind E x1 Hx1. dbind E x2 Hx2. dbind E dens Hd. dbind E y Hy. dbind E flux Hflux. dbind E sg Hsignal. dbind E d Hres. dbind E g Hgain. dbind E x3 Hx3. dbind E v Hv. dbind E mx Hmx.
  apply times_ok in Hy, Hx1, Hx2, Hx3, Hd, Hv. destruct Hy as (Y1 & Y2 & Y3), Hx1 as (X1 & X1' & X1''), Hx2 as (X2 & X2' & X2''), Hx3 as (X3 & X3' & X3''), Hd as (D1 & D2 & D3), Hv as (V1 & V2 & V3).
  rewrite scaled_length in *. assert (Hdl : length dens = length wl) by congruence.
  apply windowed in Hflux; [|congruence]. apply windowed in Hsignal; [|auto]. apply mapM_F2 in Hgain, Hmx.
  exists f, qe, tr0, dens. split; auto. split; auto. split; auto. split; auto. split; [|split; [|split; [|split]]].
  - intros i Hi. rewrite D3, X2'', X1'', scaled_at, map_photons_at by auto. destruct (F3 i Hi) as [-> _]. rewrite (Hat f Hf i Hi). unfold detected. ring.
  - assert (o_flux out = flux) as -> by (assert (Eo : out = {| o_sky := t'; o_flux := flux; o_signal := sg; o_aperture := sg; o_max := mx |}) by congruence; now rewrite Eo). revert Hflux. apply F2_impl. intros b u ->. apply trapezia_ext. intros i Hi. rewrite Y3. destruct (F3 i Hi) as [_ ->]. unfold counted. fold wl. ring.
  - assert (o_signal out = sg) as -> by (assert (Eo : out = {| o_sky := t'; o_flux := flux; o_signal := sg; o_aperture := sg; o_max := mx |}) by congruence; now rewrite Eo). auto.
  - assert (Eo : out = {| o_sky := t'; o_flux := flux; o_signal := sg; o_aperture := sg; o_max := mx |}) by congruence. now rewrite Eo.
  - exists v. split.
    + exists (s_data d), g. assert (Hs : s_wl d = pw). { unfold resample in Hres. destruct (Nat.eqb _ _); [|discriminate]. destruct (spectral_rebin _ _ _ _) as [[? ?]|]; [|discriminate]. cbn [bind] in Hres. apply (f_equal (fun r => match r with Ok s => s_wl s | Err _ => [] end)) in Hres. auto. }
      assert (Hgl := F2_length _ _ _ Hgain). split; [unfold on; rewrite Hres; destruct d; cbn in *; congruence|]. split; auto. repeat split; try congruence.
    + assert (o_max out = mx) as -> by (assert (Eo : out = {| o_sky := t'; o_flux := flux; o_signal := sg; o_aperture := sg; o_max := mx |}) by congruence; now rewrite Eo). auto.
Qed.
(** In every bin: the trapezium integral of the flux and of the detected photons over the sampled
    wavelengths in [left, right[; the greatest pixel strictly inside. *)
Theorem C65_spectrometer_signal : forall c pix_wl pix_width gain star sky out t, source_ star -> sky_on star sky -> propagate_spectrometer c pix_wl pix_width gain star sky = Ok (out, t) ->
  exists f qe tr density, c_force c = Some f /\ on (s_wl star) (c_qe c) qe /\ on (s_wl star) (c_tr c) tr /\ length density = length (s_wl star)
  /\ (forall i, (i < length (s_wl star))%nat -> at_ i density = detected (c_area c) qe tr (s_data star) (s_wl star) i * sky_at sky i * passes f (c_min c) (c_max c) (at_ i (s_wl star)))
  /\ Forall2 (fun b v => v = trapezia (s_wl star) (fun i => counted c f star i * within (left_edge b) (right_edge b) (at_ i (s_wl star)))) (c_bins c) (o_flux out)
  /\ Forall2 (fun b v => v = trapezia (s_wl star) (fun i => at_ i density * within (left_edge b) (right_edge b) (at_ i (s_wl star)))) (c_bins c) (o_signal out)
  /\ o_aperture out = o_signal out
  /\ exists v, pixel_signal {| s_wl := s_wl star; s_data := density |} pix_wl pix_width gain v /\ Forall2 (fun b m => greatest_inside b pix_wl v m) (c_bins c) (o_max out).
Proof.
  intros c pw pd gain star sky out t Hs Hsky E. destruct (spectrometer_inv _ _ _ _ _ _ _ _ Hs Hsky E) as (f & qe & tr & dens & H1 & H2 & H3 & H4 & H5 & H6 & H7 & H8 & v & Hv & Hm).
  exists f, qe, tr, dens. repeat (split; auto). exists v. split; auto. revert Hm. apply F2_impl. intros b m Hm. apply array_max_inside; auto. destruct Hv as (d & g & _ & _ & Hv & _). auto.
Qed.
Print Assumptions C65_spectrometer_signal.
(** Every number is non-negative for physical inputs, the flux never exceeds the source's. *)
Theorem C65_spectrometer_bounds : forall c pix_wl pix_width gain star sky out t, source_ star -> sky_on star sky -> physical_channel c -> physical_sky sky -> nonneg (s_data star) ->
  propagate_spectrometer c pix_wl pix_width gain star sky = Ok (out, t) -> nonneg (o_flux out) /\ nonneg (o_signal out)
  /\ (nonneg pix_width -> (forall w x, gain w = Ok x -> 0 <= x) -> nonneg (o_max out)).
Proof.
  intros c pw pd gain star sky out t Hs Hsky (Ha & Hq & Ht) Hps Hst E. destruct (C65_spectrometer_signal _ _ _ _ _ _ _ _ Hs Hsky E) as (f & qe & tr & dens & H1 & Q & T & H4 & H5 & H6 & H7 & H8 & v & Hv & Hm).
  destruct Hs as [Hg Ho]. assert (Hnd : nondecreasing (s_wl star)) by apply increasing_nondecreasing, Hg.
  assert (Hwb : forall lo hi w, 0 <= within lo hi w) by (intros lo hi w; unfold within; destruct (Rle_dec lo w); [destruct (Rlt_dec w hi)|]; lra).
  assert (Hd : forall i, (i < length (s_wl star))%nat -> 0 <= at_ i dens).
  { intros i Hi. rewrite H5 by auto. apply detected_bounds; auto; [eapply on_bounds; eauto|eapply on_bounds; eauto|now apply sky_at_bounds|apply passes_bounds|now apply nonneg_at|]. left. apply Hg. now apply at_In. }
  assert (HF : forall (P : bin -> R -> Prop) l, (forall b x, P b x -> 0 <= x) -> Forall2 P (c_bins c) l -> nonneg l).
  { clear. intros P l HP H. induction H; intros z Hz; [destruct Hz|]. destruct Hz as [<-|Hz]; [eapply HP; eauto|now apply IHForall2]. }
  split; [|split].
  - eapply HF; [|exact H6]. intros b x ->. apply trapezia_nonneg; auto. intros i Hi. apply Rmult_le_pos; auto. unfold counted. apply Rmult_le_pos; [now apply nonneg_at|apply passes_bounds].
  - eapply HF; [|exact H7]. intros b x ->. apply trapezia_nonneg; auto. intros i Hi. apply Rmult_le_pos; auto.
  - intros Hpd Hgn. eapply HF; [|exact Hm]. intros b x ((i & Hi & _ & ->) & _). destruct Hv as (d & g & Hon & HgF & L1 & L2 & L3 & Hat). rewrite Hat. apply Rmult_le_pos; [apply Rmult_le_pos|].
    + apply nonneg_at. eapply on_nonneg; eauto. cbn. apply nonneg_of_at. intros j Hj. apply Hd. congruence.
    + now apply nonneg_at.
    + apply nonneg_at. clear -HgF Hgn. induction HgF as [|w y l k Hy HgF IH]; intros z Hz; [destruct Hz|]. destruct Hz as [<-|Hz]; [eapply Hgn; eauto|now apply IH].
Qed.
Print Assumptions C65_spectrometer_bounds.
(** A source k times as bright gives k times everything. *)
Definition brighter (k : R) (s s' : sig) : Prop := s_wl s' = s_wl s /\ s_data s' = map (fun x => k * x) (s_data s).
Lemma at_scaled k l i : at_ i (map (fun x => k * x) l) = k * at_ i l.
Proof. unfold at_. destruct (Nat.lt_ge_cases i (length l)) as [Hi|Hi]; [|rewrite !nth_overflow by (rewrite ?map_length; auto); lra]. exact (at_map (fun x => k * x) l i Hi). Qed.
Lemma on_scaled k wl s e : on wl s e -> on wl {| s_wl := s_wl s; s_data := map (fun x => k * x) (s_data s) |} (map (fun x => k * x) e).
Proof.
  intros H. unfold on in *. set (l := map (fun x : R => (x, x)) (s_data s)).
  assert (E1 : data_of fst (s_wl s) l = s). { unfold data_of, l. rewrite map_map. cbn. rewrite map_id. now destruct s. }
  assert (E2 : data_of snd (s_wl s) l = s). { unfold data_of, l. rewrite map_map. cbn. rewrite map_id. now destruct s. }
  destruct (resample_linear (s_wl s) l wl k 0 {| s_wl := wl; s_data := e |} {| s_wl := wl; s_data := e |}) as (s3 & H3 & L3 & _ & W3 & _ & A3); [now rewrite E1|now rewrite E2|].
  assert (E3 : data_of (fun v => k * fst v + 0 * snd v) (s_wl s) l = {| s_wl := s_wl s; s_data := map (fun x => k * x) (s_data s) |}).
  { unfold data_of, l. rewrite map_map. f_equal. apply map_ext. intros x. cbn. lra. }
  rewrite <- E3, H3. f_equal. destruct s3 as [w3 d3]. cbn [s_wl s_data] in *. subst w3. f_equal. apply at_ext; [now rewrite map_length|]. intros i Hi. rewrite A3, at_scaled. lra.
Qed.
Lemma F2_scale {A} (k : R) (P Q : A -> R -> Prop) l : (forall a v v', P a v -> Q a v' -> v' = k * v) -> forall x y, Forall2 P l x -> Forall2 Q l y -> y = map (fun v => k * v) x.
Proof. intros H. induction l as [|a l IH]; intros x y Hx Hy; inversion Hx; inversion Hy; subst; auto. cbn. f_equal; eauto. Qed.
Lemma greatest_inside_unique b wl v v' k m m' : 0 <= k -> (forall i, (i < length wl)%nat -> at_ i v' = k * at_ i v) -> greatest_inside b wl v m -> greatest_inside b wl v' m' -> m' = k * m.
Proof.
  intros Hk Hv ((i & Hi & Hb & ->) & Hm) ((j & Hj & Hb' & ->) & Hm'). apply Rle_antisym.
  - rewrite (Hv j Hj). apply Rmult_le_compat_l; auto.
  - rewrite <- (Hv i Hi). auto.
Qed.
Theorem C65_spectrometer_scaling : forall c pix_wl pix_width gain star star' sky k out t out' t', 0 <= k -> source_ star -> sky_on star sky -> brighter k star star' ->
  propagate_spectrometer c pix_wl pix_width gain star sky = Ok (out, t) -> propagate_spectrometer c pix_wl pix_width gain star' sky = Ok (out', t') ->
  forall field, In field [o_flux; o_signal; o_aperture; o_max] -> field out' = map (fun x => k * x) (field out).
Proof.
  intros c pw pd gain star star' sky k out t out' t' Hk Hs Hsky (Hw & Hd) E E'.
  assert (Hs' : source_ star'). { destruct Hs as [Hg Ho]. split; [now rewrite Hw|]. unfold one_value_per_wavelength in *. rewrite Hw, Hd, map_length. auto. }
  assert (Hsky' : sky_on star' sky) by (destruct sky; cbn in *; auto; rewrite Hw; auto).
  destruct (C65_spectrometer_signal _ _ _ _ _ _ _ _ Hs Hsky E) as (f & qe & tr & dens & H1 & Q & T & H4 & H5 & H6 & H7 & H8 & v & Hv & Hm).
  destruct (C65_spectrometer_signal _ _ _ _ _ _ _ _ Hs' Hsky' E') as (f' & qe' & tr' & dens' & H1' & Q' & T' & H4' & H5' & H6' & H7' & H8' & v' & Hv' & Hm').
  rewrite Hw in *. unfold on in Q, Q', T, T'. assert (f' = f) as -> by congruence. assert (qe' = qe) as -> by congruence. assert (tr' = tr) as -> by congruence.
  assert (Hdens : dens' = map (fun x => k * x) dens). { apply at_ext; [rewrite map_length; congruence|]. intros i Hi. rewrite at_scaled, H5', H5 by congruence. unfold detected. rewrite Hd, at_scaled. ring. }
  assert (Hsig : o_signal out' = map (fun x => k * x) (o_signal out)).
  { eapply F2_scale; [|exact H7|exact H7']. cbn. intros b x x' -> ->. rewrite (Rmult_comm k), <- trapezia_scale. apply trapezia_ext. intros i _. rewrite Hdens, at_scaled. ring. }
  intros field [<-|[<-|[<-|[<-|[]]]]]; auto.
  - eapply F2_scale; [|exact H6|exact H6']. cbn. intros b x x' -> ->. rewrite (Rmult_comm k), <- trapezia_scale. apply trapezia_ext. intros i _. unfold counted. rewrite Hw, Hd, at_scaled. ring.
  - congruence.
  - eapply F2_scale; [|exact Hm|exact Hm']. cbn. intros b x x'. apply greatest_inside_unique; auto. intros i Hi.
    destruct Hv as (d & g & Hon & Hg & V1 & V2 & V3 & V4). destruct Hv' as (d' & g' & Hon' & Hg' & V1' & V2' & V3' & V4'). rewrite V4, V4'.
    assert (d' = map (fun x => k * x) d) as ->. { apply (on_scaled k) in Hon. cbn in Hon. rewrite Hdens in Hon'. unfold on in *. congruence. }
    assert (g' = g) as ->. { clear -Hg Hg'. revert g' Hg'. induction Hg; intros g' Hg'; inversion Hg'; subst; auto. f_equal; [congruence|auto]. }
    rewrite at_scaled. ring.
Qed.
Print Assumptions C65_spectrometer_scaling.

(** ** C34: the star's photons are conserved by the bins *)
(** Over bins side by side from [a] to [d] the bins' signals and fluxes add up to those of the one
    bin [a, d[. *)
Lemma within_tiling a bins d w : tiling a bins d -> total (map (fun b => within (left_edge b) (right_edge b) w) bins) = within a d w.
Proof.
  intros H. induction H as [a|b l d Hb Ht IH]; [unfold total, within; cbn; destruct (Rle_dec a w); [destruct (Rlt_dec w a)|]; lra|].
  cbn [map]. change (total (?x :: ?y)) with (x + total y). rewrite IH. apply tiling_le in Ht. unfold within.
  destruct (Rle_dec (left_edge b) w), (Rlt_dec w (right_edge b)), (Rle_dec (right_edge b) w), (Rlt_dec w d); lra.
Qed.
Lemma F2_total {A} (g : A -> R) l x : Forall2 (fun a v => v = g a) l x -> total x = total (map g l).
Proof. induction 1; cbn [map]; auto. change (total (?x :: ?y)) with (x + total y). congruence. Qed.
Lemma trapezia_zero wl : trapezia wl (fun _ => 0) = 0.
Proof. rewrite (trapezia_ext wl _ (fun i => 0 * 0 + 0 * 0)) by (intros; lra). rewrite (trapezia_linear wl (fun _ => 0) (fun _ => 0)). lra. Qed.
Lemma trapezia_total {A} wl (g : A -> nat -> R) l : total (map (fun b => trapezia wl (g b)) l) = trapezia wl (fun i => total (map (fun b => g b i) l)).
Proof.
  induction l as [|b l IH]; cbn [map]; [symmetry; apply trapezia_zero|]. change (total (?x :: ?y)) with (x + total y). rewrite IH.
  rewrite <- (Rmult_1_l (trapezia wl (g b))), <- (Rmult_1_l (trapezia wl (fun i => total _))), <- trapezia_linear. apply trapezia_ext. intros i _. change (total (?x :: ?y)) with (x + total y). lra.
Qed.
Theorem C34_star_bins_conserve_light : forall c pix_wl pix_width gain star sky out t a d, source_ star -> sky_on star sky -> tiling a (c_bins c) d ->
  propagate_spectrometer c pix_wl pix_width gain star sky = Ok (out, t) ->
  exists f qe tr, c_force c = Some f /\ on (s_wl star) (c_qe c) qe /\ on (s_wl star) (c_tr c) tr
  /\ total (o_signal out) = trapezia (s_wl star) (fun i => detected (c_area c) qe tr (s_data star) (s_wl star) i * sky_at sky i * passes f (c_min c) (c_max c) (at_ i (s_wl star)) * within a d (at_ i (s_wl star)))
  /\ total (o_flux out) = trapezia (s_wl star) (fun i => counted c f star i * within a d (at_ i (s_wl star))).
Proof.
  intros c pw pd gain star sky out t a d Hs Hsky Ht E. destruct (C65_spectrometer_signal _ _ _ _ _ _ _ _ Hs Hsky E) as (f & qe & tr & dens & H1 & Q & T & H4 & H5 & H6 & H7 & _).
  exists f, qe, tr. repeat (split; auto).
  - rewrite (F2_total _ _ _ H7), (trapezia_total (s_wl star) (fun b i => at_ i dens * within (left_edge b) (right_edge b) (at_ i (s_wl star)))). apply trapezia_ext. intros i Hi. rewrite total_scale, (within_tiling _ _ _ _ Ht), H5 by auto. reflexivity.
  - rewrite (F2_total _ _ _ H6), (trapezia_total (s_wl star) (fun b i => counted c f star i * within (left_edge b) (right_edge b) (at_ i (s_wl star)))). apply trapezia_ext. intros i Hi. now rewrite total_scale, (within_tiling _ _ _ _ Ht).
Qed.
Print Assumptions C34_star_bins_conserve_light.

(** ** C67: the sky and the history of a channel *)
(** [s'] is the source [s] seen through the sky *)
Definition through (sky s s' : sig) : Prop := s_wl s' = s_wl s /\ length (s_data s') = length (s_data s) /\ forall i, at_ i (s_data s') = at_ i (s_data s) * at_ i (s_data sky).
(** A sky on the star's wavelengths acts like a dimmer star, on everything but the reported flux,
    which is the one above the sky. *)
Theorem C67_sky_dims_the_star : forall c star sky star', source_ star -> sky_on star (Some sky) -> through sky star star' ->
  (forall a prf out t out' t', propagate_photometer c a prf star (Some sky) = Ok (out, t) -> propagate_photometer c a prf star' None = Ok (out', t') ->
     o_signal out = o_signal out' /\ o_aperture out = o_aperture out' /\ o_max out = o_max out')
  /\ (forall pw pd gain out t out' t', propagate_spectrometer c pw pd gain star (Some sky) = Ok (out, t) -> propagate_spectrometer c pw pd gain star' None = Ok (out', t') ->
     o_signal out = o_signal out' /\ o_aperture out = o_aperture out' /\ o_max out = o_max out')
  /\ (forall a prf out t out' t', propagate_photometer c a prf star (Some sky) = Ok (out, t) -> propagate_photometer c a prf star None = Ok (out', t') -> o_flux out = o_flux out')
  /\ (forall pw pd gain out t out' t', propagate_spectrometer c pw pd gain star (Some sky) = Ok (out, t) -> propagate_spectrometer c pw pd gain star None = Ok (out', t') -> o_flux out = o_flux out').
Proof.
  intros c star sky star' Hs Hsky (Hw & Hl & Hd). assert (Hs' : source_ star') by (destruct Hs as [Hg Ho]; split; [now rewrite Hw|]; unfold one_value_per_wavelength in *; congruence).
  split; [|split; [|split]].
  - intros a prf out t out' t' E E'. destruct (C64_photometer_signal _ _ _ _ _ _ _ Hs Hsky E) as (f & qe & tr & Hf & Q & T & _ & s & S1 & V1 & p & P1 & M1).
    destruct (C64_photometer_signal _ _ _ _ _ _ _ Hs' (I : sky_on star' None) E') as (f' & qe' & tr' & Hf' & Q' & T' & _ & s' & S1' & V1' & p' & P1' & M1'). rewrite Hw in *. unfold on in *.
    assert (f' = f) as -> by congruence. assert (qe' = qe) as -> by congruence. assert (tr' = tr) as -> by congruence.
    assert (s' = s) as ->. { rewrite V1, V1'. apply trapezia_ext. intros i Hi. unfold detected. rewrite Hd. cbn [sky_at]. ring. }
    assert (p' = p) as ->. { destruct P1 as [A1 A2], P1' as [B1 B2]. apply Rle_antisym; auto. }
    split; [congruence|]. split; [|congruence].
    destruct (C66_aperture_fraction c a prf star (Some sky)) as [N1 H1]. destruct (C66_aperture_fraction c a prf star' None) as [_ H2]. destruct a as [a|]; [|exfalso; eapply N1; eauto].
    destruct (H1 a out t eq_refl E) as (x & X1 & X2 & X3 & X4). destruct (H2 a out' t' eq_refl E') as (y & Y1 & Y2 & Y3 & Y4). assert (x = y) as -> by congruence.
    destruct (a_correction a) as [k|] eqn:Ek; [rewrite (X2 k eq_refl), (Y2 k eq_refl); reflexivity|]. destruct (a_ene a) as [k|] eqn:En; [rewrite (X3 k eq_refl eq_refl), (Y3 k eq_refl eq_refl); reflexivity|]. rewrite X4, Y4; auto.
  - intros pw pd gain out t out' t' E E'. destruct (spectrometer_inv _ _ _ _ _ _ _ _ Hs Hsky E) as (f & qe & tr & dens & Hf & Q & T & L & D & _ & S1 & A1 & v & Hv & Hm).
    destruct (spectrometer_inv _ _ _ _ _ _ _ _ Hs' (I : sky_on star' None) E') as (f' & qe' & tr' & dens' & Hf' & Q' & T' & L' & D' & _ & S1' & A1' & v' & Hv' & Hm'). rewrite Hw in *. unfold on in Q, Q', T, T'.
    assert (f' = f) as -> by congruence. assert (qe' = qe) as -> by congruence. assert (tr' = tr) as -> by congruence.
    assert (dens' = dens) as ->. { apply at_ext; [congruence|]. intros i Hi. rewrite D, D' by congruence. unfold detected. rewrite Hd. cbn [sky_at]. ring. }
    assert (Hsig : o_signal out = o_signal out'). { clear -S1 S1'. revert S1'. generalize (o_signal out'). induction S1; intros l0 S1'; inversion S1'; subst; auto. f_equal. auto. }
    assert (Hvv : v' = v). { destruct Hv as (d & g & V0 & V1 & V2 & V3 & V4 & V5). destruct Hv' as (d' & g' & W0 & W1 & W2 & W3 & W4 & W5). unfold on in *. assert (d' = d) as -> by congruence.
      assert (g' = g) as ->. { clear -V1 W1. revert g' W1. induction V1; intros g' W1; inversion W1; subst; auto. f_equal; [congruence|auto]. } apply at_ext; [congruence|]. intros i _. now rewrite V5, W5. }
    subst v'. split; auto. split; [congruence|]. clear -Hm Hm'. revert Hm'. generalize (o_max out'). induction Hm; intros l0 Hm'; inversion Hm'; subst; auto. f_equal; [congruence|auto].
  - intros a prf out t out' t' E E'. destruct (C64_photometer_signal _ _ _ _ _ _ _ Hs Hsky E) as (f & qe & tr & Hf & _ & _ & F1 & _). destruct (C64_photometer_signal _ _ _ _ _ _ _ Hs (I : sky_on star None) E') as (f' & qe' & tr' & Hf' & _ & _ & F1' & _). congruence.
  - intros pw pd gain out t out' t' E E'. destruct (spectrometer_inv _ _ _ _ _ _ _ _ Hs Hsky E) as (f & qe & tr & dens & Hf & _ & _ & _ & _ & F1 & _). destruct (spectrometer_inv _ _ _ _ _ _ _ _ Hs (I : sky_on star None) E') as (f' & qe' & tr' & dens' & Hf' & _ & _ & _ & _ & F1' & _).
    assert (f' = f) as -> by congruence. clear -F1 F1'. revert F1'. generalize (o_flux out'). induction F1; intros l0 F1'; inversion F1'; subst; auto. f_equal. auto.
Qed.
Print Assumptions C67_sky_dims_the_star.

(** What a channel says about the star does not depend on the targets before. *)
Definition star_columns (o : star_table) : list (list R) := [o_flux o; o_signal o; o_aperture o; o_max o].
Definition forgetful (propagate : channel -> sig -> option sig -> res (star_table * option column)) : Prop :=
  forall c u star sky out t, propagate (with_sky c u) star sky = Ok (out, t) -> exists out' t', propagate c star sky = Ok (out', t') /\ star_columns out' = star_columns out
  /\ o_sky out = t /\ (sky = None -> t = u) /\ (forall s, sky = Some s -> exists col s', t = Some col /\ get_transmission_column (c_bins c) (c_force c) (c_min c) (c_max c) s = Ok (col, s')).
Lemma efficiency_history c u wl sky e t : get_efficiency (with_sky c u) wl sky = Ok (e, t) -> exists t', get_efficiency c wl sky = Ok (e, t') /\ (sky = None -> t = u)
  /\ (forall s, sky = Some s -> exists col s', t = Some col /\ get_transmission_column (c_bins c) (c_force c) (c_min c) (c_max c) s = Ok (col, s')).
Proof.
  unfold get_efficiency. cbn [with_sky c_qe c_tr c_bins c_force c_min c_max c_sky]. intros E. dbind E q Hq. dbind E r Hr. cbn [bind]. destruct sky as [s|].
  - destruct (get_transmission_column _ _ _ _ s) as [[col s']|] eqn:Ec; [|discriminate]. cbn [bind] in *. dbind E s2 Hs2. cbn [bind]. dbind E p Hp. cbn [bind]. exists (Some col). split; [congruence|]. split; [discriminate|]. intros s0 Hs0. exists col, s'. split; [congruence|]. assert (s0 = s) as -> by congruence. exact Ec.
  - exists (c_sky c). split; [congruence|]. split; [congruence|discriminate].
Qed.
Lemma photometer_forgetful a prf : forgetful (fun c => propagate_photometer c a prf).
Proof.
  intros c u star sky out t E. unfold propagate_photometer in *. destruct (get_efficiency (with_sky c u) _ _) as [[e t0]|] eqn:Ee; [|discriminate]. destruct (efficiency_history _ _ _ _ _ _ Ee) as (t1 & E1 & HN & HS). rewrite E1. cbn [bind] in *.
  change (force_edges (with_sky c u)) with (force_edges c) in E. change (c_area (with_sky c u)) with (c_area c) in E.
  destruct (force_edges c _ _) as [[tr w]|]; [|discriminate]. cbn [bind] in *. dbind E y Hy. dbind E x1 Hx1. dbind E x2 Hx2. dbind E x3 Hx3. dbind E fr Hfr. dbind E pk Hpk.
  do 2 eexists. split; [cbn [bind]; repeat match goal with H : ?x = Ok _ |- context [?x] => rewrite H; cbn [bind] end; reflexivity|]. assert (t0 = t) as -> by congruence. apply (f_equal (fun r => match r with Ok p => fst p | Err _ => out end)) in E. cbn in E. subst out. cbn. auto.
Qed.
Lemma spectrometer_forgetful pw pd gain : forgetful (fun c => propagate_spectrometer c pw pd gain).
Proof.
  intros c u star sky out t E. unfold propagate_spectrometer in *. destruct (get_efficiency (with_sky c u) _ _) as [[e t0]|] eqn:Ee; [|discriminate]. destruct (efficiency_history _ _ _ _ _ _ Ee) as (t1 & E1 & HN & HS). rewrite E1. cbn [bind] in *.
  change (force_edges (with_sky c u)) with (force_edges c) in E. change (c_area (with_sky c u)) with (c_area c) in E. change (c_bins (with_sky c u)) with (c_bins c) in E.
  destruct (force_edges c _ _) as [[tr w]|]; [|discriminate]. cbn [bind] in *. dbind E x1 Hx1. dbind E x2 Hx2. dbind E x3 Hx3. dbind E y Hy. dbind E fl Hfl. dbind E sg Hsg. dbind E d Hd. dbind E g Hg. dbind E x4 Hx4. dbind E v Hv. dbind E mx Hmx.
  do 2 eexists. split; [cbn [bind]; repeat match goal with H : ?x = Ok _ |- context [?x] => rewrite H; cbn [bind] end; reflexivity|]. assert (t0 = t) as -> by congruence. apply (f_equal (fun r => match r with Ok p => fst p | Err _ => out end)) in E. cbn in E. subst out. cbn. auto.
Qed.
Lemma with_sky_same c : with_sky c (c_sky c) = c. Proof. now destruct c. Qed.
Lemma with_sky_twice c u v : with_sky (with_sky c u) v = with_sky c v. Proof. reflexivity. Qed.
Lemma observe_forgetful propagate c : forgetful propagate -> forall targets u outs, observe propagate (with_sky c u) targets = Ok outs ->
  Forall2 (fun tg o => exists o' t', propagate c (fst tg) (snd tg) = Ok (o', t') /\ star_columns o = star_columns o') targets outs.
Proof.
  intros Hf. induction targets as [|[star sky] l IH]; intros u outs E; cbn [observe] in E; [assert (outs = []) as -> by congruence; constructor|].
  destruct (propagate (with_sky c u) star sky) as [[out t]|] eqn:Ep; [|discriminate]. cbn [bind] in E. rewrite with_sky_twice in E. dbind E rest Hr. assert (outs = out :: rest) as -> by congruence.
  constructor; [|eauto]. destruct (Hf _ _ _ _ _ _ Ep) as (o' & t' & H1 & H2 & _). cbn [fst snd]. exists o', t'. auto.
Qed.
Theorem C67_star_columns_ignore_history : forall c targets outs,
  (forall a prf, observe (fun c => propagate_photometer c a prf) c targets = Ok outs ->
     Forall2 (fun tg o => exists o' t', propagate_photometer c a prf (fst tg) (snd tg) = Ok (o', t') /\ star_columns o = star_columns o') targets outs)
  /\ (forall pw pd gain, observe (fun c => propagate_spectrometer c pw pd gain) c targets = Ok outs ->
     Forall2 (fun tg o => exists o' t', propagate_spectrometer c pw pd gain (fst tg) (snd tg) = Ok (o', t') /\ star_columns o = star_columns o') targets outs).
Proof.
  intros c targets outs. split.
  - intros a prf E. rewrite <- (with_sky_same c) in E. exact (observe_forgetful _ c (photometer_forgetful a prf) targets (c_sky c) outs E).
  - intros pw pd gain E. rewrite <- (with_sky_same c) in E. exact (observe_forgetful _ c (spectrometer_forgetful pw pd gain) targets (c_sky c) outs E).
Qed.
Print Assumptions C67_star_columns_ignore_history.

(** The reported foreground transmission does: a target without sky transmission repeats the one of
    the target before. *)
Lemma observe_sky propagate c : forgetful propagate -> forall targets u outs, observe propagate (with_sky c u) targets = Ok outs ->
  (forall star o, nth_error targets 0 = Some (star, None) -> nth_error outs 0 = Some o -> o_sky o = u)
  /\ (forall i star o o', nth_error targets (S i) = Some (star, None) -> nth_error outs i = Some o -> nth_error outs (S i) = Some o' -> o_sky o' = o_sky o)
  /\ (forall i star s o, nth_error targets i = Some (star, Some s) -> nth_error outs i = Some o -> exists col s', o_sky o = Some col /\ get_transmission_column (c_bins c) (c_force c) (c_min c) (c_max c) s = Ok (col, s')).
Proof.
  intros Hf. induction targets as [|[star sky] l IH]; intros u outs E; cbn [observe] in E.
  - split; [intros ? ? H; discriminate H|]. split; [intros i ? ? ? H; destruct i; discriminate H|intros i ? ? ? H; destruct i; discriminate H].
  - destruct (propagate (with_sky c u) star sky) as [[out t]|] eqn:Ep; [|discriminate]. cbn [bind] in E. rewrite with_sky_twice in E. dbind E rest Hr. assert (outs = out :: rest) as -> by congruence. clear E.
    destruct (Hf _ _ _ _ _ _ Ep) as (o' & t' & H1 & H2 & H3 & H4 & H5). destruct (IH t rest Hr) as (I1 & I2 & I3). split; [|split].
    + intros st o [= -> ->] [= <-]. rewrite H3. auto.
    + intros [|i] st o o'' Ht Ho Ho'; cbn in Ht, Ho, Ho'.
      * assert (o = out) as -> by congruence. rewrite H3. eapply I1; eauto.
      * eapply I2; eauto.
    + intros [|i] st s o Ht Ho; cbn in Ht, Ho.
      * assert (o = out) as -> by congruence. assert (sky = Some s) by congruence. rewrite H3. auto.
      * eapply I3; eauto.
Qed.
Definition reported_sky (c : channel) (targets : list (sig * option sig)) (outs : list star_table) : Prop :=
  (forall star o, nth_error targets 0 = Some (star, None) -> nth_error outs 0 = Some o -> o_sky o = c_sky c)
  /\ (forall i star o o', nth_error targets (S i) = Some (star, None) -> nth_error outs i = Some o -> nth_error outs (S i) = Some o' -> o_sky o' = o_sky o)
  /\ (forall i star s o, nth_error targets i = Some (star, Some s) -> nth_error outs i = Some o -> exists col s', o_sky o = Some col /\ get_transmission_column (c_bins c) (c_force c) (c_min c) (c_max c) s = Ok (col, s')).
Theorem C67_reported_sky_may_be_stale : forall c targets outs,
  (forall a prf, observe (fun c => propagate_photometer c a prf) c targets = Ok outs -> reported_sky c targets outs)
  /\ (forall pw pd gain, observe (fun c => propagate_spectrometer c pw pd gain) c targets = Ok outs -> reported_sky c targets outs).
Proof.
  intros c targets outs. split.
  - intros a prf E. rewrite <- (with_sky_same c) in E. exact (observe_sky _ c (photometer_forgetful a prf) targets (c_sky c) outs E).
  - intros pw pd gain E. rewrite <- (with_sky_same c) in E. exact (observe_sky _ c (spectrometer_forgetful pw pd gain) targets (c_sky c) outs E).
Qed.
Print Assumptions C67_reported_sky_may_be_stale.

(** ** C68: the brightest pixel *)
(** A spectrometer table needs a pixel strictly inside every bin; native bins have one. *)
Theorem C68_every_bin_needs_a_pixel : forall c pix_wl pix_width gain star sky out, source_ star -> sky_on star sky -> propagate_spectrometer c pix_wl pix_width gain star sky = Ok out ->
  forall b, In b (c_bins c) -> exists w, In w pix_wl /\ left_edge b < w < right_edge b.
Proof.
  intros c pw pd gain star sky [out t] Hs Hsky E b Hb. destruct (C65_spectrometer_signal _ _ _ _ _ _ _ _ Hs Hsky E) as (f & qe & tr & dens & _ & _ & _ & _ & _ & _ & _ & _ & v & _ & Hm).
  clear -Hm Hb. induction Hm as [|b' m l k Hbm Hm IH]; [destruct Hb|]. destruct Hb as [->|Hb]; auto. destruct Hbm as ((i & Hi & Hin & _) & _). exists (at_ i pw). split; auto. now apply at_In.
Qed.
Print Assumptions C68_every_bin_needs_a_pixel.
Theorem C68_native_bins_have_a_pixel : forall s wl_min wl_max delta fuel e bins, dispersion s -> wl_min < wl_max -> 0 < delta ->
  let px := pixels s wl_min wl_max delta in
  spectrometer_table (Some Native) wl_min wl_max (pixel_wl s px) (pixel_width s delta px) fuel = Some (Ok (e, bins)) ->
  forall b, In b bins -> exists w, In w (pixel_wl s px) /\ left_edge b < w < right_edge b.
Proof.
  intros s m M d fuel e bins Hs Hm Hd px E b Hb. destruct (C63_pixels_cover_the_band s m M d Hs Hm Hd) as (P1 & _ & _ & _ & _ & _ & P7). fold px in P1, P7.
  destruct (C62_one_bin_per_pixel (Some Native) m M (pixel_wl s px) (pixel_width s d px) fuel (or_intror eq_refl)) as (bins' & E' & Hperm & _ & Hp).
  { unfold pixel_wl, pixel_width. now rewrite !map_length. }
  { unfold pixel_wl. destruct px; [congruence|discriminate]. }
  assert (bins' = bins) as -> by congruence. assert (Hin : In (centre b, width b) (combine (pixel_wl s px) (pixel_width s d px))) by (apply (Permutation.Permutation_in _ Hperm); apply in_map_iff; eauto).
  exists (centre b). split; [now apply in_combine_l in Hin|]. apply in_combine_r in Hin. apply P7 in Hin. destruct (Hp b Hb). lra.
Qed.
Print Assumptions C68_native_bins_have_a_pixel.

(** ** Examples *)
Definition ex_channel : channel :=
  {| c_bins := photometer_table 1 2; c_force := Some false; c_min := 1; c_max := 2; c_qe := {| s_wl := [1; 2]; s_data := [0.5; 0.5] |};
     c_tr := {| s_wl := [1; 2]; s_data := [0.8; 0.8] |}; c_area := 3; c_sky := None |}.
Definition ex_star : sig := {| s_wl := [1; 2]; s_data := [7; 9] |}.
Definition ex_sky : sig := {| s_wl := [1; 2]; s_data := [0.9; 0.9] |}.
Definition ex_aperture : option aperture := Some {| a_radius := None; a_ene := Some 0.8; a_correction := None |}.
Lemma ex_photometer u sky : sky = None \/ sky = Some ex_sky -> exists out t, propagate_photometer (with_sky ex_channel u) ex_aperture [0.1; 0.6] ex_star sky = Ok (out, t).
Proof.
  intros Hsky. unfold propagate_photometer, get_efficiency, ex_channel, ex_star, with_sky. cbn [c_qe c_tr c_bins c_force c_min c_max c_area c_sky s_wl s_data]. rewrite !ex_resample. cbn [bind].
  destruct Hsky as [-> | ->]; cbn [bind].
  - cbn. eauto.
  - unfold get_transmission_column, ex_sky, interp1d. cbn [s_wl s_data length Nat.eqb bind]. rewrite ex_resample. cbn. eauto.
Qed.
Example ex_history : exists o1 o2, observe (fun c => propagate_photometer c ex_aperture [0.1; 0.6]) ex_channel [(ex_star, Some ex_sky); (ex_star, None)] = Ok [o1; o2] /\ o_sky o2 = o_sky o1 /\ o_sky o1 <> None.
Proof.
  rewrite <- (with_sky_same ex_channel). cbn [observe]. destruct (ex_photometer (c_sky ex_channel) (Some ex_sky)) as (o1 & t1 & E1); auto. rewrite E1. cbn [bind]. rewrite with_sky_twice.
  destruct (ex_photometer t1 None) as (o2 & t2 & E2); auto. rewrite E2. cbn [bind]. exists o1, o2. split; [reflexivity|].
  destruct (photometer_forgetful _ _ _ _ _ _ _ _ E1) as (_ & _ & _ & _ & H1 & _ & H2). destruct (photometer_forgetful _ _ _ _ _ _ _ _ E2) as (_ & _ & _ & _ & H3 & H4 & _).
  rewrite H1, H3, (H4 eq_refl). split; auto. destruct (H2 ex_sky eq_refl) as (col & s' & -> & _). discriminate.
Qed.
Example ex_source : source_ ex_star /\ sky_on ex_star (Some ex_sky) /\ physical_channel ex_channel /\ physical_sky (Some ex_sky).
Proof.
  split; [split; [apply ex_wl|reflexivity]|]. split; [split; reflexivity|]. split; [split; [cbn; lra|split]|]; intros x [<-|[<-|[]]]; lra.
Qed.
