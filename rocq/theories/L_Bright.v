(** Lemmas: scaling the light of a star. *)
From Coq Require Import Reals Lra Psatz.
From Verif Require Import Base XR M_Signal M_Optics M_Light M_Bins M_Star M_Source L_Signal L_Optics L_Light P_Source.
Open Scope list_scope.
Open Scope R_scope.

Lemma mul_scale_r k a : forall b, mul a (scaled k b) = scaled k (mul a b).
Proof. unfold mul, scaled. induction a as [|x a IH]; intros [|y b]; cbn; auto. f_equal; [ring|apply IH]. Qed.
Lemma mul_scale_l k a : forall b, mul (scaled k a) b = scaled k (mul a b).
Proof. unfold mul, scaled. induction a as [|x a IH]; intros [|y b]; cbn; auto. f_equal; [ring|apply IH]. Qed.
Lemma len_scaled k a : length (scaled k a) = length a.
Proof. apply map_length. Qed.
Lemma times_scale_r k a b : times a (scaled k b) = match times a b with Ok x => Ok (scaled k x) | Err e => Err e end.
Proof. unfold times. rewrite len_scaled. destruct (Nat.eqb _ _); auto. now rewrite mul_scale_r. Qed.
Lemma times_scale_l k a b : times (scaled k a) b = match times a b with Ok x => Ok (scaled k x) | Err e => Err e end.
Proof. unfold times. rewrite len_scaled. destruct (Nat.eqb _ _); auto. now rewrite mul_scale_l. Qed.
Lemma trapz_scale k : forall x y, trapz x (scaled k y) = trapz x y * k.
Proof.
  induction x as [|a [|b x] IH]; intros [|p [|q y]]; cbn in *; try ring. specialize (IH (q :: y)). cbn in IH. rewrite IH. field.
Qed.
Lemma rmax_scale k : 0 <= k -> forall l x, rmax (x * k) (scaled k l) = rmax x l * k.
Proof.
  intros K. unfold rmax, scaled. induction l as [|y l IH]; intros x; cbn; auto. rewrite <- IH. f_equal. rewrite !(Rmult_comm _ k). apply RmaxRmult. auto.
Qed.
Lemma array_max_scale k l : 0 <= k -> array_max (scaled k l) = match array_max l with Ok x => Ok (x * k) | Err e => Err e end.
Proof. intros K. destruct l as [|x l]; cbn; auto. f_equal. now apply rmax_scale. Qed.
Lemma mapM_scale {A} k (f g : A -> res R) : forall l, (forall a, In a l -> g a = match f a with Ok x => Ok (x * k) | Err e => Err e end) -> mapM g l = match mapM f l with Ok x => Ok (scaled k x) | Err e => Err e end.
Proof.
  induction l as [|a l IH]; intros H; cbn; auto. rewrite H by (cbn; auto). destruct (f a); cbn; auto. rewrite IH by (intros; apply H; cbn; auto). destruct (mapM f l); reflexivity.
Qed.
(** The table of a star [k] times as bright *)
Definition lit_by (k : R) (o : star_table) : star_table :=
  {| o_sky := o_sky o; o_flux := scaled k (o_flux o); o_signal := scaled k (o_signal o); o_aperture := scaled k (o_aperture o); o_max := scaled k (o_max o) |}.
Lemma photometer_scale k c a prf star sky : propagate_photometer c a prf {| s_wl := s_wl star; s_data := scaled k (s_data star) |} sky =
  match propagate_photometer c a prf star sky with Ok (o, t) => Ok (lit_by k o, t) | Err e => Err e end.
Proof.
  unfold propagate_photometer. cbn [s_wl s_data]. destruct (get_efficiency c (s_wl star) sky) as [[e t]|]; cbn [bind]; auto.
  destruct (force_edges c (s_wl star) (snd e)) as [[tr w]|]; cbn [bind]; auto. rewrite !times_scale_r. destruct (times w (s_data star)) as [f|]; cbn [bind]; auto.
  destruct (times (fst e) (s_data star)) as [x|]; cbn [bind]; auto. rewrite times_scale_l. destruct (times x tr) as [x2|]; cbn [bind]; auto.
  rewrite times_scale_l. destruct (times x2 _) as [x3|]; cbn [bind]; auto. destruct (aperture_fraction a) as [fr|]; cbn [bind]; auto. destruct (array_max prf) as [pk|]; cbn [bind]; auto.
  rewrite !trapz_scale. unfold lit_by, scaled. cbn. do 2 f_equal. f_equal; f_equal; ring.
Qed.
Lemma spectrometer_scale k c pw pd gain star sky : 0 <= k -> propagate_spectrometer c pw pd gain {| s_wl := s_wl star; s_data := scaled k (s_data star) |} sky =
  match propagate_spectrometer c pw pd gain star sky with Ok (o, t) => Ok (lit_by k o, t) | Err e => Err e end.
Proof.
  intros K. unfold propagate_spectrometer. cbn [s_wl s_data]. destruct (get_efficiency c (s_wl star) sky) as [[e t]|]; cbn [bind]; auto.
  destruct (force_edges c (s_wl star) (snd e)) as [[tr w]|]; cbn [bind]; auto. destruct (times (scaled (c_area c) tr) (fst e)) as [x|]; cbn [bind]; auto.
  rewrite !times_scale_r. destruct (times x (s_data star)) as [x2|]; cbn [bind]; auto. rewrite times_scale_l. destruct (times x2 _) as [dens|]; cbn [bind]; auto.
  destruct (times w (s_data star)) as [f|]; cbn [bind]; auto.
  assert (MM : forall y l, mapM (fun m => let* y := times (scaled k y) m in Ok (trapz (s_wl star) y)) l = match mapM (fun m => let* y := times y m in Ok (trapz (s_wl star) y)) l with Ok x => Ok (scaled k x) | Err e => Err e end).
  { intros y l. apply mapM_scale. intros m _. rewrite times_scale_l. destruct (times y m); cbn [bind]; auto. now rewrite trapz_scale. }
  rewrite MM. destruct (mapM _ _) as [flux|]; cbn [bind]; auto. rewrite MM. destruct (mapM _ _) as [sg|]; cbn [bind]; auto.
  rewrite resample_scale. destruct (resample pw _) as [d|]; cbn [bind s_data]; auto. destruct (mapM gain pw) as [gs|]; cbn [bind]; auto.
  rewrite times_scale_l. destruct (times (s_data d) pd) as [x3|]; cbn [bind]; auto. rewrite times_scale_l. destruct (times x3 gs) as [ip|]; cbn [bind]; auto.
  rewrite (mapM_scale k (fun b => array_max (map snd (filter (fun p => in_pixel_bin b (fst p)) (combine pw ip))))).
  - destruct (mapM _ _) as [mx|]; cbn [bind]; auto.
  - intros b _. rewrite <- array_max_scale by auto. f_equal. unfold scaled. clear. revert ip. induction pw as [|p pw IH]; intros [|i ip]; cbn; auto. destruct (in_pixel_bin b p); cbn; rewrite IH; auto.
Qed.
