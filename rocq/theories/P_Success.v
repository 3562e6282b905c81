(** Properties about when the propagation of light through a channel succeeds (C88). *)
From Verif Require Import Base Dict XR M_Signal M_Optics M_Light M_Bins M_Star S_Signal S_Optics S_Light S_Bins S_Star S_Success L_Signal P_Signal L_Optics L_Light L_Star P_Star P_Light.
From Coq Require Import Lia.
Open Scope list_scope.
Open Scope R_scope.

Lemma visible_In (src : list (R * R)) lo hi p : In p (visible lo hi src) <-> In p src /\ 0.9 * lo < fst p < 1.1 * hi.
Proof. unfold visible. rewrite filter_In. destruct (Rlt_dec _ _), (Rlt_dec _ _); cbn; split; intros [? ?]; try (split; [auto|lra]); try discriminate; lra. Qed.
Theorem C88_curve_on_a_grid : forall wl s, wavelength_grid wl -> curve s ->
  ((exists s', resample wl s = Ok s') <-> overlaps wl s) /\ (~ overlaps wl s -> resample wl s = Err ValueError).
Proof.
  intros wl s (Hi & H2 & _) (Hn & Ho). unfold one_value_per_wavelength in Ho.
  destruct (least_exists wl) as [lo Hlo]; [intros ->; cbn in H2; lia|]. destruct (greatest_exists wl) as [hi Hhi]; [intros ->; cbn in H2; lia|].
  set (src := combine (s_wl s) (s_data s)). assert (Ew : wls src = s_wl s) by now apply wls_combine.
  pose proof (C22_fails_iff_few_sources um_ wl src lo hi Hi H2 Hlo Hhi ltac:(now rewrite Ew)) as F.
  assert (O : overlaps wl s <-> ~ forall p q, In p (visible lo hi src) -> In q (visible lo hi src) -> fst p = fst q).
  { assert (Hw : forall a, In a (s_wl s) <-> exists p, In p src /\ fst p = a). { intros a. rewrite <- Ew. unfold wls. rewrite in_map_iff. split; intros (p & ? & ?); eauto. }
    split.
    - intros (lo' & hi' & a & b & L & G & Ia & Ib & N & Ba & Bb) H. assert (lo' = lo) as -> by (destruct L, Hlo; apply Rle_antisym; auto). assert (hi' = hi) as -> by (destruct G, Hhi; apply Rle_antisym; auto).
      apply Hw in Ia as (p & Ip & <-). apply Hw in Ib as (q & Iq & <-). apply N, H; apply visible_In; auto.
    - intros H. apply Classical_Prop.NNPP. intros NO. apply H. intros p q Hp Hq. apply visible_In in Hp as [Ip Bp], Hq as [Iq Bq]. apply Classical_Prop.NNPP. intros N. apply NO. exists lo, hi, (fst p), (fst q). repeat split; try apply Hlo; try apply Hhi; try lra; auto; apply Hw; eauto. }
  unfold resample. rewrite Ho, Nat.eqb_refl. rewrite combine_known. fold src. unfold spectral_rebin.
  destruct (rebin um_ um_ (map Some wl) (known src)) as [[g f]|e] eqn:E; cbn [bind].
  - assert (NF : ~ forall p q, In p (visible lo hi src) -> In q (visible lo hi src) -> fst p = fst q) by (intros X; apply F in X; discriminate). split; [split; intros; [now apply O|eauto]|]. intros NO. elim NO. now apply O.
  - pose proof (C22_only_value_error _ _ _ _ _ E) as ->. split; [|auto]. split; [intros [s' X]; discriminate|]. intros X. apply O in X. elim X. now apply F.
Qed.
Print Assumptions C88_curve_on_a_grid.

(** A grid overlaps with itself *)
Lemma grid_ok wl s : wavelength_grid wl -> curve s -> (exists e, on wl s e) <-> overlaps wl s.
Proof.
  intros W C. rewrite <- (proj1 (C88_curve_on_a_grid wl s W C)). split; intros [x E].
  - eexists. exact E.
  - exists (s_data x). unfold on. rewrite E. destruct (resample_ok _ _ _ (proj1 W) E) as (<- & _). now destruct x.
Qed.
Lemma interp1d_ok x y wl : x <> [] -> length y = length x -> exists z, interp1d x y wl = Ok z.
Proof. intros N L. unfold interp1d. rewrite L, Nat.eqb_refl. destruct x; [congruence|eauto]. Qed.
Lemma efficiency_iff c star sky : source_ star -> sky_on star sky -> curve (c_qe c) -> curve (c_tr c) ->
  (exists e t tr w, get_efficiency c (s_wl star) sky = Ok (e, t) /\ force_edges c (s_wl star) (snd e) = Ok (tr, w)) <-> overlaps (s_wl star) (c_qe c) /\ overlaps (s_wl star) (c_tr c) /\ c_force c <> None.
Proof.
  intros [W L] SK CQ CT. rewrite <- !grid_ok by auto. unfold get_efficiency. split.
  - intros (e & t & tr & w & E & F). assert (FO : c_force c <> None) by (unfold force_edges in F; destruct (c_force c); congruence). dbind E q Hq. dbind E r Hr. destruct (resample_ok _ _ _ (proj1 W) Hq) as (Wq & _), (resample_ok _ _ _ (proj1 W) Hr) as (Wr & _). split; [|split; auto].
    + exists (s_data q). unfold on. rewrite Hq. f_equal. destruct q. cbn in *. congruence.
    + exists (s_data r). unfold on. rewrite Hr. f_equal. destruct r. cbn in *. congruence.
  - intros ([q Hq] & [r Hr] & F). unfold on in Hq, Hr. rewrite Hq, Hr. cbn [bind s_data s_wl]. destruct (resample_ok _ _ _ (proj1 W) Hr) as (_ & Lr & _). cbn in Lr.
    destruct (c_force c) as [fo|] eqn:EF; [|congruence].
    assert (FE : forall tr, exists tr' w, force_edges c (s_wl star) tr = Ok (tr', w)) by (intros tr; unfold force_edges; rewrite EF; destruct fo; eauto).
    destruct sky as [s|]; [|destruct (FE r) as (tr' & w & X); eexists _, _, tr', w; split; [reflexivity|exact X]].
    destruct SK as [SW SO]. unfold get_transmission_column. destruct (interp1d_ok (s_wl s) (s_data s) (map centre (c_bins c))) as [z Hz]; auto.
    { rewrite SW. destruct W as (_ & W2 & _). intros X. rewrite X in W2. cbn in W2. lia. } rewrite Hz. cbn [bind]. destruct fo; cbn [bind].
    + set (s1 := {| s_wl := s_wl s; s_data := _ |}). assert (L1 : one_value_per_wavelength s1). { unfold one_value_per_wavelength, s1, zero_where in *. cbn. rewrite map_length, combine_length. lia. }
      assert (resample (s_wl star) s1 = Ok s1) as ->. { rewrite <- SW. change (s_wl s) with (s_wl s1). apply resample_self; auto. cbn. now rewrite SW. } cbn [bind].
      rewrite times_same by (rewrite Lr; unfold one_value_per_wavelength in L1; rewrite L1; cbn; congruence). cbn [bind]. destruct (FE (mul r (s_data s1))) as (tr' & w & X). eexists _, _, tr', w; split; [reflexivity|exact X].
    + assert (resample (s_wl star) s = Ok s) as ->. { rewrite <- SW. apply resample_self; auto. now rewrite SW. } cbn [bind].
      rewrite times_same by (rewrite Lr; unfold one_value_per_wavelength in SO; congruence). cbn [bind]. destruct (FE (mul r (s_data s))) as (tr' & w & X). eexists _, _, tr', w; split; [reflexivity|exact X].
Qed.
Lemma efficiency_lengths c star sky e t tr w : source_ star -> sky_on star sky -> get_efficiency c (s_wl star) sky = Ok (e, t) -> force_edges c (s_wl star) (snd e) = Ok (tr, w) ->
  length (fst e) = length (s_wl star) /\ length tr = length (s_wl star) /\ length w = length (s_wl star).
Proof.
  intros [W L] SK E F. destruct e as [qe tr0]. pose proof W as (Wi & _). unfold get_efficiency in E. dbind E q Hq. dbind E r Hr. destruct (resample_ok _ _ _ Wi Hq) as (_ & Lq & _), (resample_ok _ _ _ Wi Hr) as (_ & Lr & _).
  assert (LL : length qe = length (s_wl star) /\ length tr0 = length (s_wl star)).
  { destruct sky as [s|]; [|injection E as <- <- _; auto]. dbind E p Hp. destruct p as [tt s']. dbind E s2 Hs2. dbind E m Hm. injection E as <- <- _. apply times_ok in Hm. lia. }
  destruct LL as [L1 L2]. cbn [fst snd] in *. unfold force_edges in F. destruct (c_force c) as [[|]|]; [| |discriminate]; injection F as <- <-; unfold zero_where; rewrite ?map_length, ?combine_length, ?map_length; lia.
Qed.
Ltac lens := rewrite ?scaled_length, ?map_length; lazymatch goal with |- context [length (mul ?a ?b)] => rewrite (mul_length a b) by lens; lens | _ => congruence end.
Ltac multiply := match goal with |- context [times ?a ?b] => rewrite (times_same a b) by lens; cbn [bind] end.

(** ** C88: when the light of a star goes through a photometer *)
Theorem C88_photometer_succeeds : forall c a prf star sky, source_ star -> sky_on star sky -> curve (c_qe c) -> curve (c_tr c) ->
  ((exists o t, propagate_photometer c a prf star sky = Ok (o, t)) <-> overlaps (s_wl star) (c_qe c) /\ overlaps (s_wl star) (c_tr c) /\ c_force c <> None /\ a <> None /\ prf <> []).
Proof.
  intros c a prf star sky SO SK CQ CT. unfold propagate_photometer. split.
  - intros (o & t & E). dbind E et Het. destruct et as [e tt]. dbind E fw Hfw. destruct fw as [tr w]. assert (X : exists e t tr w, get_efficiency c (s_wl star) sky = Ok (e, t) /\ force_edges c (s_wl star) (snd e) = Ok (tr, w)) by eauto 8.
    apply (efficiency_iff c star sky SO SK CQ CT) in X as (A & B & C). repeat (split; auto).
    + intros ->. dbind E y1 H1. dbind E y2 H2. dbind E y3 H3. dbind E y4 H4. discriminate.
    + intros ->. dbind E y1 H1. dbind E y2 H2. dbind E y3 H3. dbind E y4 H4. dbind E y5 H5. discriminate.
  - intros (A & B & C & D & P). destruct (proj2 (efficiency_iff c star sky SO SK CQ CT) (conj A (conj B C))) as (e & t & tr & w & E & F). rewrite E. cbn [bind]. rewrite F. cbn [bind].
    destruct (efficiency_lengths _ _ _ _ _ _ _ SO SK E F) as (L1 & L2 & L3). destruct SO as [W L]. unfold one_value_per_wavelength in L.
    repeat multiply. destruct a as [a|]; [|congruence]. destruct prf as [|p prf]; [congruence|]. unfold aperture_fraction. destruct (a_correction a), (a_ene a); cbn [bind array_max]; do 2 eexists; reflexivity.
Qed.
Print Assumptions C88_photometer_succeeds.

(** ... and through a spectrometer *)
Theorem C88_spectrometer_succeeds : forall c pix_wl pix_width gain star sky, source_ star -> sky_on star sky -> curve (c_qe c) -> curve (c_tr c) -> wavelength_grid pix_wl -> length pix_width = length pix_wl ->
  ((exists o t, propagate_spectrometer c pix_wl pix_width gain star sky = Ok (o, t)) <->
   overlaps (s_wl star) (c_qe c) /\ overlaps (s_wl star) (c_tr c) /\ c_force c <> None /\ overlaps pix_wl star /\ (forall w, In w pix_wl -> exists g, gain w = Ok g) /\ (forall b, In b (c_bins c) -> has_pixel b pix_wl)).
Proof.
  intros c pw pd gain star sky SO SK CQ CT PW PD. unfold propagate_spectrometer.
  assert (GI : (exists g, mapM gain pw = Ok g) <-> forall w, In w pw -> exists g, gain w = Ok g).
  { clear. induction pw as [|w pw IH]; cbn [mapM]; [split; [intros _ w []|eauto]|]. split.
    - intros [g E]. dbind E x Hx. dbind E y Hy. intros v [<-|I]; eauto. apply IH; eauto.
    - intros H. destruct (H w) as [g Eg]; [now left|]. destruct (proj2 IH) as [l El]; [intros; apply H; now right|]. rewrite Eg, El. cbn. eauto. }
  assert (MI : forall v, length v = length pw -> (exists m, mapM (fun b => array_max (map snd (filter (fun p => in_pixel_bin b (fst p)) (combine pw v)))) (c_bins c) = Ok m) <-> forall b, In b (c_bins c) -> has_pixel b pw).
  { intros v Lv.
    assert (ONE : forall b, (exists m, array_max (map snd (filter (fun p => in_pixel_bin b (fst p)) (combine pw v))) = Ok m) <-> has_pixel b pw).
    { intros b. split.
      - intros [m E]. destruct (map snd _) as [|x l] eqn:El; [discriminate|]. assert (I : In x (map snd (filter (fun p => in_pixel_bin b (fst p)) (combine pw v)))) by (rewrite El; now left). apply filter_positions in I as (i & Hi & Hp & _); auto. apply in_pixel_bin_spec in Hp. exists (at_ i pw). split; auto. now apply at_In.
      - intros (w & I & B). apply (In_nth _ _ 0) in I as (i & Hi & Hw). assert (X : In (at_ i v) (map snd (filter (fun p => in_pixel_bin b (fst p)) (combine pw v)))). { apply filter_positions; auto. exists i. repeat split; auto. apply in_pixel_bin_spec. unfold at_. now rewrite Hw. }
        destruct (map snd _) as [|x l]; [destruct X|]. cbn. eauto. }
    generalize (c_bins c) as bs. induction bs as [|b bs IH]; cbn [mapM]; [split; [intros _ b []|eauto]|]. split.
    - intros [g E]. dbind E x Hx. dbind E y Hy. intros u [<-|I]; [apply ONE; eauto|]. apply IH; eauto.
    - intros H. destruct (proj2 (ONE b)) as [g Eg]; [apply H; now left|]. destruct (proj2 IH) as [l El]; [intros; apply H; now right|]. rewrite Eg, El. cbn. eauto. }
  assert (WI : forall d, length d = length (s_wl star) -> exists s, mapM (fun m => let* y := times d m in Ok (trapz (s_wl star) y)) (window_function (c_bins c) (s_wl star)) = Ok s).
  { intros d Ld. unfold window_function. generalize (c_bins c) as bs. induction bs as [|b bs [s IH]]; cbn [mapM map]; [eauto|]. rewrite times_same by (rewrite map_length; auto). cbn [bind]. rewrite IH. cbn. eauto. }
  assert (CU : forall d, length d = length (s_wl star) -> curve {| s_wl := s_wl star; s_data := d |}). { intros d Ld. split; [|exact Ld]. cbn. apply increasing_nondecreasing, SO. }
  split.
  - intros (o & t & E). dbind E et Het. destruct et as [e tt]. dbind E fw Hfw. destruct fw as [tr w]. assert (X : exists e t tr w, get_efficiency c (s_wl star) sky = Ok (e, t) /\ force_edges c (s_wl star) (snd e) = Ok (tr, w)) by eauto 8.
    destruct (efficiency_lengths _ _ _ _ _ _ _ SO SK Het Hfw) as (L1 & L2 & L3). apply (efficiency_iff c star sky SO SK CQ CT) in X as (A & B & C). split; auto. split; auto. split; auto.
    dbind E y1 H1. dbind E y2 H2. dbind E y3 H3. dbind E y4 H4. dbind E y5 H5. dbind E y6 H6. dbind E y7 H7. dbind E y8 H8. dbind E y9 H9. dbind E z1 J1. dbind E z2 J2.
    apply times_ok in H1, H2, H3. rewrite scaled_length in H1. assert (L8 : length y3 = length (s_wl star)) by lia. split; [|split].
    + assert (Y : exists e, on pw {| s_wl := s_wl star; s_data := y3 |} e). { destruct (resample_ok _ _ _ (proj1 PW) H7) as (<- & _). exists (s_data y7). unfold on. rewrite H7. f_equal. now destruct y7. }
      apply grid_ok in Y; auto.
    + apply GI. eauto.
    + destruct (resample_ok _ _ _ (proj1 PW) H7) as (_ & L7 & _). apply times_ok in H9, J1. apply (MI z1); eauto. lia.
  - intros (A & B & C & D & G & HP). destruct (proj2 (efficiency_iff c star sky SO SK CQ CT) (conj A (conj B C))) as (e & t & tr & w & E & F). rewrite E. cbn [bind]. rewrite F. cbn [bind].
    destruct (efficiency_lengths _ _ _ _ _ _ _ SO SK E F) as (L1 & L2 & L3). pose proof SO as [W L]. unfold one_value_per_wavelength in L.
    do 3 multiply. set (dens := mul _ (map photons_per_joule (s_wl star))). assert (LD : length dens = length (s_wl star)) by (unfold dens; lens).
    multiply. destruct (WI (mul w (s_data star))) as [f ->]; [lens|]. cbn [bind]. destruct (WI dens LD) as [sg ->]. cbn [bind].
    destruct (proj2 (grid_ok pw {| s_wl := s_wl star; s_data := dens |} PW (CU _ LD)) D) as [d Hd]. unfold on in Hd. rewrite Hd. cbn [bind s_data]. destruct (resample_ok _ _ _ (proj1 PW) Hd) as (_ & L7 & _). cbn in L7.
    destruct (proj2 GI G) as [g Hg]. rewrite Hg. apply mapM_Ok_length in Hg. cbn [bind]. do 2 multiply.
    destruct (proj2 (MI (mul (mul d pd) g) ltac:(lens)) HP) as [m ->]. cbn [bind]. do 2 eexists; reflexivity.
Qed.
Print Assumptions C88_spectrometer_succeeds.

(** ** Diffuse light *)
Lemma foregrounds_iff b bins wl : wavelength_grid wl -> forall fs tr qe out, (forall k f, In (k, f) fs -> on_grid wl f) ->
  ((exists d, foregrounds_light b bins tr qe fs out = Ok d) <-> forall k f, In (k, f) fs -> exists r, foreground_light b bins tr qe f = Ok r).
Proof.
  intros W. induction fs as [|[k f] fs IH]; intros tr qe out G; cbn [foregrounds_light]; [split; [intros _ k f []|eauto]|].
  destruct (foreground_light b bins tr qe f) as [[[l tr'] qe']|e] eqn:E; cbn [bind].
  - assert (N : forall k' f', In (k', f') fs -> ((exists r, foreground_light b bins tr' qe' f' = Ok r) <-> exists r, foreground_light b bins tr qe f' = Ok r)).
    { intros k' f' I. pose proof (foreground_light_next b bins wl tr qe f l tr' qe' f' W (G k f (or_introl eq_refl)) (G k' f' (or_intror I)) E) as X.
      destruct (foreground_light b bins tr' qe' f') as [[[? ?] ?]|]; destruct (foreground_light b bins tr qe f') as [[[? ?] ?]|]; try tauto; split; intros; eauto; destruct H; discriminate. }
    rewrite IH by (intros; apply (G k0); now right). split.
    + intros H k' f' [I|I]; [injection I as <- <-; eauto|]. apply (N k'); eauto.
    + intros H k' f' I. apply (N k'); auto. apply (H k'). now right.
  - split; [intros [d X]; discriminate|]. intros H. destruct (H k f) as [r X]; [now left|congruence].
Qed.
Lemma one_foreground b bins wl tr qe f : wavelength_grid wl -> on_grid wl f -> one_value_per_wavelength (f_light f) -> curve tr -> curve qe -> b_slit b = None ->
  (exists r, foreground_light b bins tr qe f = Ok r) <-> overlaps wl tr /\ overlaps wl qe.
Proof.
  intros W G O CT CQ NS. rewrite <- !grid_ok by auto. unfold on, on_grid, one_value_per_wavelength in *. unfold foreground_light, attenuate. rewrite NS, G. split.
  - intros [r E]. dbind E p Hp. destruct p as [rad t]. dbind Hp t' Ht. dbind Hp x Hx. injection Hp as <- _. cbn [s_wl s_data] in E. dbind E q Hq.
    destruct (resample_ok _ _ _ (proj1 W) Ht) as (Wt & _), (resample_ok _ _ _ (proj1 W) Hq) as (Wq & _). destruct t', q. cbn in Wt, Wq. subst. eauto.
  - intros ([t Ht] & [q Hq]). rewrite Ht. cbn [bind s_data]. destruct (resample_ok _ _ _ (proj1 W) Ht) as (_ & Lt & _), (resample_ok _ _ _ (proj1 W) Hq) as (_ & Lq & _). cbn in Lt, Lq. assert (length (s_data (f_light f)) = length wl) by congruence.
    multiply. cbn [s_wl s_data]. rewrite Hq. cbn [bind s_wl s_data]. multiply. eauto.
Qed.
Lemma one_foreground_slit b bins wl tr qe f slit pw dwl widths : wavelength_grid wl -> on_grid wl f -> one_value_per_wavelength (f_light f) -> curve tr -> one_value_per_wavelength qe -> s_wl qe <> [] ->
  b_slit b = Some slit -> b_pix_wl b = Some pw -> b_pix_width b = Some dwl -> b_spatial b = Some widths -> wavelength_grid pw -> length dwl = length pw -> bins <> [] ->
  (exists r, foreground_light b bins tr qe f = Ok r) <-> overlaps wl tr /\ overlaps pw (f_light f) /\ slit_fits (b_delta b) slit pw bins.
Proof.
  intros W G O CT CQ NQ NS P1 P2 P3 WP LP NB. rewrite <- (grid_ok wl tr) by auto. unfold on, on_grid, one_value_per_wavelength in *. unfold foreground_light, attenuate. rewrite NS, G.
  assert (NP : pw <> []) by (destruct WP as (_ & X & _); intros ->; cbn in X; lia).
  destruct (interp1d_ok (s_wl qe) (s_data qe) pw NQ CQ) as [q Hq].
  assert (MAIN : forall x, length x = length wl -> (exists r, convolve_with_slit b bins slit qe {| s_wl := wl; s_data := x |} = Ok r) <-> overlaps pw (f_light f) /\ slit_fits (b_delta b) slit pw bins).
  { intros x Lx. set (l := {| s_wl := wl; s_data := x |}). assert (CL : curve l) by (split; [apply increasing_nondecreasing, W|exact Lx]).
    assert (OV : overlaps pw (f_light f) <-> overlaps pw l) by (unfold overlaps; rewrite G; reflexivity). rewrite OV. destruct (C56_slit_failures b bins slit qe l) as [_ F].
    destruct (resample pw l) as [rad|e] eqn:Er.
    - assert (OK : overlaps pw l) by (apply (C88_curve_on_a_grid pw l WP CL); eauto). destruct (resample_ok _ _ _ (proj1 WP) Er) as (_ & Lr & _).
      destruct (F pw dwl widths rad q P1 P2 P3 Er Hq Lr LP NP NB) as (F1 & F2 & F3). destruct (Rlt_dec (slit / b_delta b) 1) as [X|X].
      + rewrite F1 by auto. split; [intros [r Y]; discriminate|]. intros (_ & (n & (H1 & H2) & H3 & _) & _). exfalso. assert (1 <= INR n) by (change 1 with (INR 1); apply le_INR; lia). lra.
      + assert (PN : exists n, pixels_in (slit / b_delta b) n /\ (1 <= n)%nat).
        { set (v := slit / b_delta b) in *. pose proof (archimed v) as [A1 A2]. exists (Z.to_nat (up v - 1)). assert (1 <= up v - 1)%Z. { assert (IZR 1 < IZR (up v)) by lra. apply lt_IZR in H. lia. }
          split; [|lia]. unfold pixels_in. rewrite INR_IZR_INZ, Z2Nat.id by lia. rewrite minus_IZR. lra. }
        destruct PN as (n & PN & N1). destruct (le_lt_dec n (length pw)) as [N2|N2].
        * destruct (F3 n PN (conj N1 N2)) as [F4 _]. rewrite F4. split.
          -- intros H. split; auto. split; [eauto|]. intros e I. destruct (H e I) as (w & Iw & B). exists w. split; auto. unfold in_bin_right in B. apply andb_true_iff in B as [B1 B2]. destruct (Rlt_dec _ _); [|discriminate]. destruct (Rle_dec _ _); [|discriminate]. auto.
          -- intros (_ & _ & H) e I. destruct (H e I) as (w & Iw & B). exists w. split; auto. unfold in_bin_right. destruct (Rlt_dec _ _); [|lra]. destruct (Rle_dec _ _); [reflexivity|lra].
        * rewrite (F2 n PN N2). split; [intros [r Y]; discriminate|]. intros (_ & (m & (H1 & H2) & H3) & _). exfalso. destruct PN as [Q1 Q2]. assert (m = n); [|lia]. apply Nat.le_antisymm; apply Nat.lt_succ_r; apply INR_lt; rewrite S_INR; lra.
    - assert (NO : ~ overlaps pw l) by (intros X; apply (C88_curve_on_a_grid pw l WP CL) in X as [y X]; congruence). split; [|tauto]. intros [r Y]. unfold convolve_with_slit in Y. rewrite P1, P2 in Y. cbn [lookup bind] in Y. rewrite Er in Y. discriminate. }
  split.
  - intros [r E]. dbind E p Hp. destruct p as [rad t]. dbind Hp t' Ht. dbind Hp x Hx. injection Hp as <- _. cbn [s_wl s_data] in E. dbind E c Hc. apply times_ok in Hx as (X1 & X2 & _).
    destruct (resample_ok _ _ _ (proj1 W) Ht) as (Wt & _). split; [destruct t'; cbn in Wt; subst; eauto|]. apply (MAIN x); [congruence|eauto].
  - intros ([t Ht] & M). rewrite Ht. cbn [bind s_data]. destruct (resample_ok _ _ _ (proj1 W) Ht) as (_ & Lt & _). cbn in Lt. assert (L : length (s_data (f_light f)) = length wl) by congruence.
    multiply. cbn [s_wl s_data]. destruct (proj2 (MAIN (mul (s_data (f_light f)) t) ltac:(lens)) M) as [r ->]. cbn [bind]. eauto.
Qed.
Theorem C88_foregrounds_succeed : forall b bins wl fs, wavelength_grid wl -> fs <> [] -> (forall k f, In (k, f) fs -> s_wl (f_light f) = wl /\ one_value_per_wavelength (f_light f)) ->
  curve (b_tr b) -> curve (b_qe b) -> bins <> [] ->
  (b_slit b = None -> (exists d, propagate_diffuse_foreground b bins (Some fs) = Ok d) <-> overlaps wl (b_tr b) /\ overlaps wl (b_qe b))
  /\ forall slit pix_wl pix_width widths, b_slit b = Some slit -> b_pix_wl b = Some pix_wl -> b_pix_width b = Some pix_width -> b_spatial b = Some widths ->
     wavelength_grid pix_wl -> length pix_width = length pix_wl -> s_wl (b_qe b) <> [] ->
     ((exists d, propagate_diffuse_foreground b bins (Some fs) = Ok d) <-> overlaps wl (b_tr b) /\ overlaps pix_wl {| s_wl := wl; s_data := wl |} /\ slit_fits (b_delta b) slit pix_wl bins).
Proof.
  intros b bins wl fs W NF G CT CQ NB. cbn [propagate_diffuse_foreground].
  assert (GG : forall k f, In (k, f) (rev fs) -> on_grid wl f) by (intros k f I; apply in_rev in I; now apply (G k f)).
  assert (EX : exists k f, In (k, f) fs) by (destruct fs as [|[k f] fs]; [congruence|exists k, f; now left]). destruct EX as (k0 & f0 & I0).
  split.
  - intros NS. rewrite (foregrounds_iff b bins wl W _ _ _ _ GG). split.
    + intros H. destruct (G k0 f0 I0) as [G1 G2]. apply (one_foreground b bins wl _ _ f0); auto. apply (H k0). now apply -> in_rev.
    + intros H k f I. apply in_rev in I. destruct (G k f I) as [G1 G2]. apply (one_foreground b bins wl); auto.
  - intros slit pw dwl widths NS P1 P2 P3 WP LP NQ. rewrite (foregrounds_iff b bins wl W _ _ _ _ GG).
    assert (OV : forall f, s_wl (f_light f) = wl -> overlaps pw (f_light f) <-> overlaps pw {| s_wl := wl; s_data := wl |}) by (intros f <-; unfold overlaps; reflexivity).
    split.
    + intros H. destruct (G k0 f0 I0) as [G1 G2]. rewrite <- (OV f0) by auto. apply (one_foreground_slit b bins wl _ (b_qe b) f0 slit pw dwl widths); auto; try apply CQ. apply (H k0). now apply -> in_rev.
    + intros H k f I. apply in_rev in I. destruct (G k f I) as [G1 G2]. rewrite <- (OV f) in H by auto. apply (one_foreground_slit b bins wl _ (b_qe b) f slit pw dwl widths); auto; apply CQ.
Qed.
Print Assumptions C88_foregrounds_succeed.

(** The columns of diffuse light are never negative *)
Theorem C30_nonnegative : forall b bins wl fs out k v, sound b -> nonneg (s_data (b_tr b)) -> bins <> [] -> wavelength_grid wl -> (forall k f, In (k, f) fs -> s_wl (f_light f) = wl /\ nonneg (s_data (f_light f))) ->
  propagate_diffuse_foreground b bins (Some fs) = Ok out -> sget k out = Some v -> nonneg v.
Proof.
  intros b bins wl fs out k v SB NT NB W G E GK. cbn [propagate_diffuse_foreground] in E.
  assert (X : forall l tr qe o out, nonneg (s_data tr) -> nonneg (s_data qe) -> (forall k f, In (k, f) l -> s_wl (f_light f) = wl /\ nonneg (s_data (f_light f))) -> (forall k v, sget k o = Some v -> nonneg v) -> foregrounds_light b bins tr qe l o = Ok out -> forall k v, sget k out = Some v -> nonneg v).
  { clear - SB NB W. induction l as [|[k f] l IH]; intros tr qe o out Ht Hq G Ho E k' v GK; cbn [foregrounds_light] in E; [injection E as <-; eauto|].
    dbind E r Hr. destruct r as [[light tr'] qe']. destruct (G k f (or_introl eq_refl)) as [G1 G2].
    assert (Y : nonneg (fst light) /\ nonneg (snd light) /\ nonneg (s_data tr') /\ nonneg (s_data qe')).
    { unfold foreground_light, attenuate in Hr. rewrite G1 in Hr. dbind Hr p Hp. destruct p as [rad t]. dbind Hp t' Ht'. dbind Hp x Hx. injection Hp as <- <-. assert (Nt : nonneg (s_data t')) by (eapply resample_nonneg; eauto).
      assert (Nx : nonneg x). { apply times_ok in Hx as (X1 & X2 & X3). apply nonneg_of_at. intros i Hi. rewrite X3. apply Rmult_le_pos; now apply nonneg_at. }
      destruct (b_slit b) as [slit|].
      - dbind Hr c Hc. injection Hr as <- <- <-. destruct c as [mx sg]. apply slit_nonneg in Hc; auto. cbn. tauto.
      - cbn [s_wl s_data] in Hr. dbind Hr q Hq'. dbind Hr y Hy. injection Hr as <- <- <-. assert (Nq : nonneg (s_data q)) by (eapply resample_nonneg; eauto). destruct (resample_ok _ _ _ (proj1 W) Hq') as (Wq & Lq & _).
        apply times_ok in Hy as (Y1 & Y2 & Y3). destruct SB as (_ & Hsz & Ho' & _).
        assert (LY : length y = length wl). { rewrite Y2, Y1. lens. }
        assert (0 <= trapz wl y). { rewrite trapz_spec by auto. apply trapezia_nonneg; [apply increasing_nondecreasing, W|]. intros i Hi. rewrite Y3, scaled_at, mul_at by lens. apply Rmult_le_pos; [now apply nonneg_at|]. rewrite Wq, at_map by auto. rewrite photons_eq.
          apply Rmult_le_pos; [apply Rmult_le_pos; [now apply nonneg_at|apply photons_nonneg; left; now apply W, at_In]|]. apply Rmult_le_pos; [lra|]. unfold pixel_area, Rdiv. apply Rmult_le_pos; [apply Rle_0_sqr|]. left. apply Rinv_0_lt_compat, pow_lt. lra. }
        unfold integrate_light. cbn [fst snd]. split; [|split; [|auto]]; unfold nonneg; intros z Hz; apply in_map_iff in Hz as (u & <- & Hu); [lra|apply Rmult_le_pos; auto]. }
    destruct Y as (Y1 & Y2 & Y3 & Y4). refine (IH tr' qe' _ out Y3 Y4 _ _ E k' v GK); [intros k0 f0 I0; apply (G k0); now right|]. intros k2 v2. destruct (string_dec k2 (k ++ "_MaxSignal_inPixel")%string) as [-> |N]; [rewrite (dget_dset_same _ String_eqb_spec); intros [= <-]; auto|]. rewrite (dget_dset_other _ String_eqb_spec) by auto.
    destruct (string_dec k2 (k ++ "_signal")%string) as [-> |N2]; [rewrite (dget_dset_same _ String_eqb_spec); intros [= <-]; auto|]. rewrite (dget_dset_other _ String_eqb_spec) by auto. apply Ho. }
  refine (X (rev fs) (b_tr b) (b_qe b) [] out NT (proj1 SB) _ _ E k v GK); [intros k' f I; apply in_rev in I; now apply (G k')|intros ? ? Z; discriminate Z].
Qed.
Print Assumptions C30_nonnegative.
