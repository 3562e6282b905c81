(** Lemmas about the light of the star. *)
From Verif Require Import Base XR M_Signal M_Optics M_Light M_Bins M_Star S_Signal S_Optics S_Light S_Bins S_Star L_Signal L_Optics L_Light L_Bins.
Open Scope list_scope.
Open Scope R_scope.

Lemma map_one_at wl i : (i < length wl)%nat -> at_ i (map (fun _ : R => 1) wl) = 1.
Proof. intros H. exact (at_map (fun _ => 1) wl i H). Qed.
Lemma passes_outside m M w : passes true m M w = if outside m M w then 0 else 1.
Proof. unfold passes, outside, Rltb. destruct (Rlt_dec w m), (Rlt_dec M w); reflexivity. Qed.
Lemma force_edges_ok c wl tr tr' win : length tr = length wl -> force_edges c wl tr = Ok (tr', win) ->
  exists f, c_force c = Some f /\ length tr' = length wl /\ length win = length wl
  /\ forall i, (i < length wl)%nat -> at_ i tr' = at_ i tr * passes f (c_min c) (c_max c) (at_ i wl) /\ at_ i win = passes f (c_min c) (c_max c) (at_ i wl).
Proof.
  intros Hl E. unfold force_edges in E. destruct (c_force c) as [[|]|]; [| |discriminate].
  - assert (tr' = zero_where (outside (c_min c) (c_max c)) wl tr) as -> by congruence. assert (win = zero_where (outside (c_min c) (c_max c)) wl (map (fun _ => 1) wl)) as -> by congruence.
    assert (length wl = length (map (fun _ : R => 1) wl)) by now rewrite map_length. exists true. rewrite !zero_where_length by auto. rewrite map_length. repeat split; auto.
    + rewrite zero_where_at by auto. rewrite passes_outside. destruct (outside _ _ _); lra.
    + rewrite zero_where_at by auto. rewrite passes_outside. destruct (outside _ _ _); auto. now apply map_one_at.
  - assert (tr' = tr) as -> by congruence. assert (win = map (fun _ => 1) wl) as -> by congruence. exists false. rewrite map_length. repeat split; auto; unfold passes; [lra|now apply map_one_at].
Qed.
(** the sky transmission on the star's grid *)
Lemma sky_zeroed c wl s t s' : wavelength_grid wl -> s_wl s = wl -> one_value_per_wavelength s ->
  get_transmission_column (c_bins c) (c_force c) (c_min c) (c_max c) s = Ok (t, s') -> exists f, c_force c = Some f /\ resample wl s' = Ok s' /\ s_wl s' = wl /\ length (s_data s') = length wl
  /\ forall i, (i < length wl)%nat -> at_ i (s_data s') = at_ i (s_data s) * passes f (c_min c) (c_max c) (at_ i wl).
Proof.
  intros Hwl Hs Ho E. unfold get_transmission_column in E. dbind E y Hy. unfold one_value_per_wavelength in Ho. destruct (c_force c) as [[|]|]; [| |discriminate].
  - exists true. assert (s' = {| s_wl := s_wl s; s_data := zero_where (outside (c_min c) (c_max c)) (s_wl s) (s_data s) |}) as -> by congruence. cbn [s_wl s_data].
    assert (length (zero_where (outside (c_min c) (c_max c)) (s_wl s) (s_data s)) = length wl) by (rewrite zero_where_length; congruence). rewrite Hs in *. repeat split; auto.
    + apply (resample_self {| s_wl := wl; s_data := _ |}); auto.
    + intros i Hi. rewrite zero_where_at by auto. rewrite passes_outside. destruct (outside _ _ _); lra.
  - exists false. assert (s' = s) as -> by congruence. rewrite Hs in *. repeat split; auto; try congruence.
    + rewrite <- Hs. apply resample_self; unfold one_value_per_wavelength; congruence.
    + intros i Hi. unfold passes. lra.
Qed.
Lemma efficiency_ok c wl sky qe tr t : wavelength_grid wl -> get_efficiency c wl sky = Ok ((qe, tr), t) ->
  (forall s, sky = Some s -> s_wl s = wl /\ one_value_per_wavelength s) ->
  exists tr0, on wl (c_qe c) qe /\ on wl (c_tr c) tr0 /\ length qe = length wl /\ length tr = length wl /\ length tr0 = length wl
  /\ (sky = None -> t = c_sky c) /\ (forall s, sky = Some s -> exists col s', t = Some col /\ get_transmission_column (c_bins c) (c_force c) (c_min c) (c_max c) s = Ok (col, s'))
  /\ forall f, c_force c = Some f -> forall i, (i < length wl)%nat -> at_ i tr * passes f (c_min c) (c_max c) (at_ i wl) = at_ i tr0 * sky_at sky i * passes f (c_min c) (c_max c) (at_ i wl).
Proof.
  intros Hwl E Hsky. unfold get_efficiency in E. dbind E q Hq. dbind E r Hr. destruct (resample_ok wl _ q (proj1 Hwl) Hq) as (Q1 & Q2 & _). destruct (resample_ok wl _ r (proj1 Hwl) Hr) as (R1 & R2 & _).
  destruct sky as [s|].
  - destruct (Hsky s eq_refl) as [Hs Ho]. destruct (get_transmission_column _ _ _ _ s) as [[col s']|] eqn:Ec; [|discriminate]. cbn [bind] in E. destruct (sky_zeroed c wl s col s' Hwl Hs Ho Ec) as (f & Hf & Hre & Hw & Hl & Hat).
    rewrite Hre in E. cbn [bind] in E. dbind E p Hp. apply times_ok in Hp. destruct Hp as (P1 & P2 & P3). assert (qe = s_data q) as -> by congruence. assert (tr = p) as -> by congruence. assert (t = Some col) as -> by congruence.
    exists (s_data r). unfold on. repeat split; try congruence.
    + rewrite Hq. destruct q. cbn in *. congruence.
    + rewrite Hr. destruct r. cbn in *. congruence.
    + intros s0 Hs0. assert (s0 = s) as -> by congruence. eauto.
    + intros f' Hf' i Hi. assert (f' = f) as -> by congruence. rewrite P3, Hat by auto. cbn [sky_at]. unfold passes. destruct f; [|lra]. destruct (Rlt_dec _ _); [lra|]. destruct (Rlt_dec _ _); lra.
  - assert (qe = s_data q) as -> by congruence. assert (tr = s_data r) as -> by congruence. assert (t = c_sky c) as -> by congruence. exists (s_data r). unfold on. repeat split; auto; try congruence.
    + rewrite Hq. destruct q. cbn in *. congruence.
    + rewrite Hr. destruct r. cbn in *. congruence.
    + intros f _ i _. cbn [sky_at]. lra.
Qed.
Lemma map_photons_at wl i : (i < length wl)%nat -> at_ i (map photons_per_joule wl) = photons (at_ i wl).
Proof. intros H. rewrite at_map by auto. apply photons_eq. Qed.
