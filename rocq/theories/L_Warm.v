(** Warmer or more emissive optics: elements, radiance and light. *)
From Coq Require Import Reals Lra Psatz Lia.
From Verif Require Import Base Dict PyStr XR M_Signal M_Optics M_Light M_Bins M_Psf M_Omega M_Star M_Source M_Foreground S_Signal S_Optics S_Light S_Bins S_Star S_Success S_Foreground L_Signal L_Optics L_Light L_Bins P_Signal P_Optics P_Planck P_Bins P_Windows P_Light P_Success P_Omega P_Star P_Source P_Foreground.
From Verif Require M_Noise P_Noise L_Foreground S_Source P_Star.
From Verif Require Import S_Noise L_Noise.
From Verif Require Import M_Table L_Table P_Table M_Observe S_Observe L_Observe L_Stages L_Outcome S_Works S_Complete P_Observe P_Outcome P_Works P_Complete P_Instance M_Build S_Build S_Ready L_Build L_Ready P_Build P_Ready S_Warm.
Open Scope list_scope.
Open Scope R_scope.

(** ** Lists of amounts, one no smaller than the other *)
Definition upto (a b : list R) : Prop := Forall2 (fun x y => 0 <= x <= y) a b.
Lemma upto_refl a : nonneg a -> upto a a.
Proof. induction a as [|x a IH]; intros N; constructor; [split; [apply N; now left|lra]|apply IH; intros y I; apply N; now right]. Qed.
Lemma upto_nonneg a b : upto a b -> nonneg a.
Proof. induction 1 as [|x y a b H F IH]; intros v []; subst; [lra|auto]. Qed.
Lemma upto_len a b : upto a b -> length b = length a.
Proof. induction 1; cbn; congruence. Qed.
Lemma upto_map {A} (f g : A -> R) l : (forall x, In x l -> 0 <= f x <= g x) -> upto (map f l) (map g l).
Proof. induction l as [|x l IH]; intros H; constructor; [apply H; now left|apply IH; intros; apply H; now right]. Qed.
Lemma upto_mul a b : upto a b -> forall c d, upto c d -> upto (mul a c) (mul b d).
Proof.
  induction 1 as [|x y a b H F IH]; intros c d G; [constructor|]. inversion G as [|u v c' d' H1 G1]; subst; [constructor|]. unfold mul. cbn. constructor; [|now apply IH].
  split; [apply Rmult_le_pos; lra|apply Rmult_le_compat; lra].
Qed.
Lemma upto_scaled k a b : 0 <= k -> upto a b -> upto (scaled k a) (scaled k b).
Proof. intros K. induction 1 as [|x y a b H F IH]; constructor; auto. split; [apply Rmult_le_pos; lra|apply Rmult_le_compat_r; lra]. Qed.
Lemma upto_times a b c d x y : upto a b -> upto c d -> times a c = Ok x -> times b d = Ok y -> upto x y.
Proof. unfold times. intros A C. destruct (Nat.eqb _ _); [|discriminate]. destruct (Nat.eqb _ _); [|discriminate]. intros E F. assert (x = mul a c) as -> by congruence. assert (y = mul b d) as -> by congruence. now apply upto_mul. Qed.
Lemma upto_plus a b c d x y : upto a b -> upto c d -> plus a c = Ok x -> plus b d = Ok y -> upto x y.
Proof.
  unfold plus. intros A C. destruct (Nat.eqb _ _); [|discriminate]. destruct (Nat.eqb _ _); [|discriminate]. intros E F. assert (x = map (fun p => fst p + snd p) (combine a c)) as -> by congruence. assert (y = map (fun p => fst p + snd p) (combine b d)) as -> by congruence. clear E F.
  revert c d C. induction A as [|u v a b H F IH]; intros c d G; [constructor|]. inversion G as [|u' v' c' d' H1 G1]; subst; [constructor|]. cbn. constructor; [lra|now apply IH].
Qed.
Lemma upto_rsum a b : upto a b -> 0 <= M_Signal.rsum a <= M_Signal.rsum b.
Proof. induction 1 as [|x y a b H F IH]; cbn in *; lra. Qed.
Lemma upto_rmax a b : upto a b -> forall x y, 0 <= x <= y -> 0 <= rmax x a <= rmax y b.
Proof. induction 1 as [|u v a b H F IH]; intros x y X; cbn in *; auto. apply IH. unfold Rmax. destruct (Rle_dec x u), (Rle_dec y v); lra. Qed.
Lemma upto_max a b x y : upto a b -> array_max a = Ok x -> array_max b = Ok y -> 0 <= x <= y.
Proof. intros U. destruct U as [|u v a b H F]; cbn; [discriminate|]. intros E1 E2. injection E1 as <-. injection E2 as <-. now apply upto_rmax. Qed.
Lemma upto_trapz x : increasing x -> forall a b, upto a b -> 0 <= trapz x a <= trapz x b.
Proof.
  induction x as [|u x IH]; intros I a b U; [cbn; destruct a, b; lra|]. destruct x as [|v x]; [cbn; destruct a, b; lra|].
  inversion U as [|p p' a' b' H U']; subst; [cbn; lra|]. inversion U' as [|q q' a2 b2 H2 U2]; subst; [cbn; lra|].
  assert (L : u < v) by (inversion I as [|? ? I1 I2]; subst; inversion I2; subst; auto). assert (I' : increasing (v :: x)) by (inversion I; auto).
  specialize (IH I' _ _ U'). change (trapz (u :: v :: x) (p :: q :: a2)) with ((v - u) * (q + p) / 2 + trapz (v :: x) (q :: a2)). change (trapz (u :: v :: x) (p' :: q' :: b2)) with ((v - u) * (q' + p') / 2 + trapz (v :: x) (q' :: b2)).
  assert (0 <= (v - u) * (q + p) <= (v - u) * (q' + p')) by (split; [apply Rmult_le_pos; lra|apply Rmult_le_compat_l; lra]). lra.
Qed.
Lemma upto_filter {A} (f : A -> bool) : forall ks a b, upto a b -> upto (map snd (filter (fun p => f (fst p)) (combine ks a))) (map snd (filter (fun p => f (fst p)) (combine ks b))).
Proof. induction ks as [|k ks IH]; intros a b U; [constructor|]. destruct U as [|x y a b H U]; [constructor|]. cbn. destruct (f k); cbn; [constructor; auto|]; now apply IH. Qed.
Lemma upto_select mask a b x y : upto a b -> M_Light.select mask a = Ok x -> M_Light.select mask b = Ok y -> upto x y.
Proof.
  unfold M_Light.select. intros U. destruct (Nat.eqb _ _); [|discriminate]. destruct (Nat.eqb _ _); [|discriminate]. intros E F. assert (x = map snd (filter fst (combine mask a))) as -> by congruence. assert (y = map snd (filter fst (combine mask b))) as -> by congruence.
  exact (upto_filter (fun m : bool => m) mask a b U).
Qed.
Lemma upto_convolve a b n x y : upto a b -> convolve_same a n = Ok x -> convolve_same b n = Ok y -> upto x y.
Proof.
  intros U. pose proof (upto_len _ _ U) as L. assert (NE : forall c : list R, forall z, convolve_same c n = Ok z -> z = map (fun i => M_Signal.rsum (map snd (filter (fun p => Nat.leb (fst p) (i + (Nat.min (length c) n - 1) / 2) && Nat.ltb (i + (Nat.min (length c) n - 1) / 2) (fst p + n)) (combine (List.seq 0 (length c)) c)))) (List.seq 0 (Nat.max (length c) n))).
  { intros c z. unfold convolve_same. destruct c, n; try discriminate. intros E. congruence. }
  intros E F. rewrite (NE _ _ E), (NE _ _ F), L. apply upto_map. intros i _. apply upto_rsum. set (s := ((Nat.min (length a) n - 1) / 2)%nat). exact (upto_filter (fun j => Nat.leb j (i + s) && Nat.ltb (i + s) (j + n)) _ a b U).
Qed.
Lemma mapM_F2 {A B} (Q : B -> B -> Prop) (f g : A -> res B) : (forall x u v, f x = Ok u -> g x = Ok v -> Q u v) -> forall l us vs, mapM f l = Ok us -> mapM g l = Ok vs -> Forall2 Q us vs.
Proof.
  intros H. induction l as [|x l IH]; cbn [mapM]; intros us vs E F. { injection E as <-. injection F as <-. constructor. }
  destruct (f x) as [u|] eqn:FX; cbn [bind] in E; [|discriminate]. destruct (g x) as [v|] eqn:GX; cbn [bind] in F; [|discriminate]. destruct (mapM f l) as [us'|]; cbn [bind] in E; [|discriminate]. destruct (mapM g l) as [vs'|]; cbn [bind] in F; [|discriminate]. injection E as <-. injection F as <-. constructor; eauto.
Qed.
Lemma mapM_F2_two {A B} (Q : A -> A -> Prop) (W : B -> B -> Prop) (f : A -> res B) : (forall x y u v, Q x y -> f x = Ok u -> f y = Ok v -> W u v) -> forall l m, Forall2 Q l m -> forall us vs, mapM f l = Ok us -> mapM f m = Ok vs -> Forall2 W us vs.
Proof.
  intros H. induction 1 as [|x y l m QQ F IH]; cbn [mapM]; intros us vs E G. { injection E as <-. injection G as <-. constructor. }
  destruct (f x) as [u|] eqn:FX; cbn [bind] in E; [|discriminate]. destruct (f y) as [v|] eqn:GX; cbn [bind] in G; [|discriminate]. destruct (mapM f l) as [us'|]; cbn [bind] in E; [|discriminate]. destruct (mapM f m) as [vs'|]; cbn [bind] in G; [|discriminate]. injection E as <-. injection G as <-. constructor; eauto.
Qed.

(** ** Resampling and interpolation *)
(** [a] below [b]: values of pairs (x, y - x) *)
Definition gap (a b : list R) : list (R * R) := map (fun p => (fst p, snd p - fst p)) (combine a b).
Lemma gap_fst a b : length b = length a -> map fst (gap a b) = a.
Proof. revert b. induction a as [|x a IH]; intros [|y b] L; try discriminate; auto. cbn. f_equal. apply IH. now injection L. Qed.
Lemma gap_sum a b : length b = length a -> map (fun v => 1 * fst v + 1 * snd v) (gap a b) = b.
Proof. revert b. induction a as [|x a IH]; intros [|y b] L; try discriminate; auto. cbn. f_equal; [lra|]. apply IH. now injection L. Qed.
Lemma gap_nonneg a b : upto a b -> nonneg (map snd (gap a b)).
Proof. induction 1 as [|x y a b H F IH]; intros v []; subst; [cbn; lra|apply IH; auto]. Qed.
Lemma at_upto a b : length b = length a -> (forall i, (i < length a)%nat -> 0 <= at_ i a <= at_ i b) -> upto a b.
Proof.
  revert b. induction a as [|x a IH]; intros [|y b] L H; try discriminate; constructor. { apply (H 0%nat). cbn. lia. }
  apply IH; [now injection L|]. intros i Hi. apply (H (S i)). cbn. lia.
Qed.
Lemma combine_samples {A} (phi : R * R -> R) : forall (w : list (option A)) l, combine w (map phi l) = map (fun p => (fst p, phi (snd p))) (combine w l).
Proof. induction w as [|o w IH]; intros [|v l]; cbn; auto. now rewrite IH. Qed.
Lemma upto_resample wl g a b s s' : upto a b -> resample wl {| s_wl := g; s_data := a |} = Ok s -> resample wl {| s_wl := g; s_data := b |} = Ok s' -> s_wl s' = s_wl s /\ upto (s_data s) (s_data s').
Proof.
  intros U E F. pose proof (upto_len _ _ U) as L. set (l := gap a b). assert (EA : data_of fst g l = {| s_wl := g; s_data := a |}) by (unfold data_of, l; now rewrite gap_fst). assert (EB : data_of (fun v => 1 * fst v + 1 * snd v) g l = {| s_wl := g; s_data := b |}) by (unfold data_of, l; now rewrite gap_sum).
  assert (X : exists sd, resample wl (data_of snd g l) = Ok sd).
  { rewrite <- EA in E. unfold resample, data_of in *. cbn [s_wl s_data] in *. rewrite map_length in *. destruct (Nat.eqb _ _); [|discriminate].
    assert (Hc : forall phi : R * R -> R, combine (map Some g) (map phi l) = samples_of phi (combine (map Some g) l)) by (intros; apply combine_samples).
    rewrite Hc in *. unfold spectral_rebin in *. destruct (rebin_values um_ um_ (map Some wl) (combine (map Some g) l)) as [[e He]|(g0 & win & [H|H])]; [rewrite He in E; discriminate| |]; rewrite H; cbn [bind]; eauto. }
  destruct X as (sd & SD). rewrite <- EA in E. destruct (resample_linear g l wl 1 1 s sd E SD) as (s3 & R3 & L3 & L2 & W3 & _ & AT). rewrite EB in R3. assert (s3 = s') as -> by congruence. split; auto.
  assert (N1 : nonneg (s_data s)) by (eapply resample_nonneg; [exact E|]; rewrite EA; cbn; eapply upto_nonneg; eauto). assert (N2 : nonneg (s_data sd)) by (eapply resample_nonneg; [exact SD|]; cbn; now apply gap_nonneg).
  apply at_upto; auto. intros i Hi. rewrite AT. pose proof (nonneg_at _ i N1). pose proof (nonneg_at _ i N2). lra.
Qed.
Lemma interp_sum (l : list (R * (R * R))) w : interp (map (fun p => (fst p, 1 * fst (snd p) + 1 * snd (snd p))) l) w = interp (map (fun p => (fst p, fst (snd p))) l) w + interp (map (fun p => (fst p, snd (snd p))) l) w.
Proof.
  unfold interp. rewrite (locate_map (fun v : R * R => 1 * fst v + 1 * snd v)), (locate_map (fun v : R * R => fst v)), (locate_map (fun v : R * R => snd v)). destruct (locate w l) as [[p [q|]]|]; cbn; unfold Rdiv; [ring| |ring]. destruct (Rltb _ _); ring.
Qed.
Lemma upto_interp x a b wl u v : upto a b -> interp1d x a wl = Ok u -> interp1d x b wl = Ok v -> upto u v.
Proof.
  intros U E F. pose proof (upto_len _ _ U) as L. assert (NU := interp1d_nonneg _ _ _ _ E (upto_nonneg _ _ U)). unfold interp1d in *. destruct x as [|x0 x]; [discriminate|]. rewrite L in F. destruct (Nat.eqb _ _) eqn:LE; [|discriminate].
  assert (Hc : forall phi : R * R -> R, combine (x0 :: x) (map phi (gap a b)) = map (fun p => (fst p, phi (snd p))) (combine (x0 :: x) (gap a b))). { intros phi. generalize (x0 :: x) as w, (gap a b) as l. clear. induction w as [|o w IH]; intros [|q l]; cbn; auto. now rewrite IH. }
  assert (D : nonneg (map (interp (sort_src (combine (x0 :: x) (map snd (gap a b))))) wl)). { eapply (interp1d_nonneg (x0 :: x) (map snd (gap a b)) wl); [|now apply gap_nonneg]. unfold interp1d. rewrite map_length. unfold gap. rewrite map_length, combine_length, L, Nat.min_id, LE. reflexivity. }
  assert (u = map (interp (sort_src (combine (x0 :: x) (map fst (gap a b))))) wl) as -> by (rewrite gap_fst by auto; congruence). assert (v = map (interp (sort_src (combine (x0 :: x) (map (fun v => 1 * fst v + 1 * snd v) (gap a b))))) wl) as -> by (rewrite gap_sum by auto; congruence).
  apply upto_map. intros w I. split; [apply NU; now apply in_map|]. assert (0 <= interp (sort_src (combine (x0 :: x) (map snd (gap a b)))) w) by (apply D; now apply in_map).
  rewrite !Hc in *. rewrite (sort_map (fun v : R * R => fst v)), (sort_map (fun v : R * R => 1 * fst v + 1 * snd v)). rewrite (sort_map (fun v : R * R => snd v)) in H. rewrite interp_sum. lra.
Qed.

(** ** Light *)
Lemma photons_wl_nonneg wl : nonneg wl -> nonneg (map photons_per_joule wl).
Proof. intros N x I. apply in_map_iff in I as (w & <- & I). rewrite photons_eq. apply photons_nonneg. auto. Qed.
Lemma pixel_area_nonneg b : 0 <= pixel_area b.
Proof. unfold pixel_area, Rdiv. apply Rmult_le_pos; [apply Rle_0_sqr|]. left. apply Rinv_0_lt_compat. apply pow_lt. lra. Qed.
Lemma scaled_nonneg k a : 0 <= k -> nonneg a -> nonneg (scaled k a).
Proof. intros K N x I. apply in_map_iff in I as (y & <- & I). apply Rmult_le_pos; auto. Qed.
Lemma upto_slit b bins slit qe g x y mx sg mx' sg' : P_Light.sound b -> nonneg (s_data qe) -> upto x y ->
  convolve_with_slit b bins slit qe {| s_wl := g; s_data := x |} = Ok (mx, sg) -> convolve_with_slit b bins slit qe {| s_wl := g; s_data := y |} = Ok (mx', sg') -> upto mx mx' /\ upto sg sg'.
Proof.
  intros (_ & _ & SO & SP & SW & SS) NQ U E F. unfold convolve_with_slit in *. destruct (lookup (b_pix_wl b)) as [wl|] eqn:L1; cbn [bind] in *; [|discriminate]. destruct (lookup (b_pix_width b)) as [dwl|] eqn:L2; cbn [bind] in *; [|discriminate].
  apply lookup_some in L1, L2. dbind E r1 H1. dbind F r2 H2. destruct (upto_resample _ _ _ _ _ _ U H1 H2) as [_ U1]. destruct (interp1d (s_wl qe) (s_data qe) wl) as [q|] eqn:IQ; cbn [bind] in *; [|discriminate].
  set (w := scaled _ _) in *. assert (NW : nonneg w). { apply scaled_nonneg; [apply Rmult_le_pos; [lra|apply pixel_area_nonneg]|]. apply mul_nonneg; [eapply interp1d_nonneg; eauto|apply photons_wl_nonneg; auto]. }
  dbind E x1 EE1. dbind F y1 F1. pose proof (upto_times _ _ _ _ _ _ U1 (upto_refl _ NW) EE1 F1) as U2. dbind E x2 E2. dbind F y2 F2. pose proof (upto_times _ _ _ _ _ _ U2 (upto_refl _ (SW _ L2)) E2 F2) as U3.
  dbind E x3 E3. dbind F y3 F3. pose proof (upto_convolve _ _ _ _ _ U3 E3 F3) as U4. dbind E ps E4. dbind F qs F4. assert (PQ : Forall2 upto ps qs) by (eapply mapM_F2; [|exact E4|exact F4]; cbn beta; intros e u v; apply upto_select; auto).
  destruct (lookup (b_spatial b)) as [ws|] eqn:L3; cbn [bind] in *; [|discriminate]. apply lookup_some in L3. dbind E m1 E5. dbind F m2 F5. injection E as <- <-. injection F as <- <-. split.
  - unfold upto. eapply (mapM_F2_two upto); [|exact PQ|exact E5|exact F5]. intros. eapply upto_max; eauto.
  - apply upto_mul; [|apply upto_refl; auto]. clear -PQ. induction PQ; constructor; auto. now apply upto_rsum.
Qed.
Lemma upto_integrate b wl x y : nonneg (b_size b) -> increasing wl -> upto x y -> upto (fst (integrate_light b x wl)) (fst (integrate_light b y wl)) /\ upto (snd (integrate_light b x wl)) (snd (integrate_light b y wl)).
Proof.
  intros NS I U. pose proof (upto_trapz wl I _ _ U) as T. unfold integrate_light. cbn [fst snd]. split; apply upto_map; intros v V; [lra|]. specialize (NS v V). split; [apply Rmult_le_pos; lra|apply Rmult_le_compat_r; lra].
Qed.
Lemma solid_nonneg b p : 0 <= b_omega b <= PI -> 0 <= solid_angle b p.
Proof. intros H. pose proof PI_RGT_0. destruct p; cbn; lra. Qed.
Lemma upto_element b bins wl qe r r' l q l' q' : P_Light.sound b -> wavelength_grid wl -> nonneg (s_data qe) -> r_pos r' = r_pos r -> r_slit r' = r_slit r -> upto (r_data r) (r_data r') ->
  element_light b bins wl qe r = Ok (l, q) -> element_light b bins wl qe r' = Ok (l', q') -> q' = q /\ nonneg (s_data q) /\ upto (fst l) (fst l') /\ upto (snd l) (snd l').
Proof.
  intros SB WG NQ EP ES U E F. pose proof SB as (_ & NSZ & SO & _). destruct WG as (WI & _ & WP). unfold element_light in *. destruct (resample wl qe) as [qq|] eqn:RQ; cbn [bind] in *; [|discriminate]. assert (NQ' : nonneg (s_data qq)) by (eapply resample_nonneg; eauto). rewrite ES, EP in F.
  assert (X : (let* x := times (r_data r) (scaled (pixel_area b) (mul (s_data qq) (map photons_per_joule (s_wl qq)))) in Ok (integrate_light b (scaled (solid_angle b (r_pos r)) x) wl, qq)) = Ok (l, q) ->
    (let* x := times (r_data r') (scaled (pixel_area b) (mul (s_data qq) (map photons_per_joule (s_wl qq)))) in Ok (integrate_light b (scaled (solid_angle b (r_pos r)) x) wl, qq)) = Ok (l', q') -> q' = q /\ nonneg (s_data q) /\ upto (fst l) (fst l') /\ upto (snd l) (snd l')).
  { intros A B. dbind A x1 AA1. dbind B y1 BB1. injection A as <- <-. injection B as <- <-. assert (WQ : s_wl qq = wl). { unfold resample in RQ. destruct (Nat.eqb _ _); [|discriminate]. destruct (spectral_rebin _ _ _ _) as [[? ?]|]; cbn [bind] in RQ; [|discriminate]. injection RQ as <-. reflexivity. }
    split; auto. split; auto. apply upto_integrate; auto. apply upto_scaled; [now apply solid_nonneg|]. eapply upto_times; [exact U| |exact AA1|exact BB1]. apply upto_refl. apply scaled_nonneg; [apply pixel_area_nonneg|]. apply mul_nonneg; auto. apply photons_wl_nonneg. rewrite WQ. intros v V. left. auto. }
  destruct (r_slit r); [|now apply X]. destruct (b_slit b) as [sl|]; [|now apply X]. clear X. dbind E o1 EE1. dbind F o2 F1. injection E as <- <-. injection F as <- <-. destruct o1 as [m1 s1], o2 as [m2 s2]. cbn [fst snd].
  destruct (upto_slit _ _ _ _ _ _ _ _ _ _ _ SB NQ' U EE1 F1). auto.
Qed.
(** radiances of the same elements, no weaker *)
Definition glows (a b : sdict radiance) : Prop := Forall2 (fun x y => fst y = fst x /\ r_pos (snd y) = r_pos (snd x) /\ r_slit (snd y) = r_slit (snd x) /\ upto (r_data (snd x)) (r_data (snd y))) a b.
Lemma upto_sum b bins wl : P_Light.sound b -> wavelength_grid wl -> forall rads rads', glows rads rads' -> forall qe out out' em em', nonneg (s_data qe) -> upto (total_max out) (total_max out') -> upto (total_signal out) (total_signal out') ->
  sum_light b bins wl qe rads out = Ok em -> sum_light b bins wl qe rads' out' = Ok em' -> upto (total_max em) (total_max em') /\ upto (total_signal em) (total_signal em').
Proof.
  intros SB WG. induction 1 as [|[k r] [k' r'] rads rads' (G1 & G2 & G3 & G4) F IH]; intros qe out out' em em' NQ UM US E E'; cbn [sum_light] in *. { injection E as <-. injection E' as <-. auto. }
  cbn [fst snd] in *. dbind E l1 H1. dbind E' l2 H2. destruct l1 as [l1 q1], l2 as [l2 q2]. cbn [fst snd] in *. destruct (upto_element _ _ _ _ _ _ _ _ _ _ SB WG NQ G2 G3 G4 H1 H2) as (-> & NQ1 & U1 & U2). dbind E t1 H3. dbind E' t2 H4. dbind E m1 H5. dbind E' m2 H6.
  eapply (IH q1); [auto| | |exact E|exact E']; cbn [total_max total_signal]; [exact (upto_plus _ _ _ _ _ _ UM U1 H5 H6)|exact (upto_plus _ _ _ _ _ _ US U2 H3 H4)].
Qed.
Lemma upto_signal b bins wl rads rads' em em' : P_Light.sound b -> wavelength_grid wl -> glows rads rads' -> compute_signal b bins wl rads = Ok em -> compute_signal b bins wl rads' = Ok em' -> upto (total_max em) (total_max em') /\ upto (total_signal em) (total_signal em').
Proof.
  intros SB WG G E E'. unfold compute_signal in *. eapply upto_sum; [exact SB|exact WG|exact G| | | |exact E|exact E']; [exact (proj1 SB)| |]; cbn; apply upto_map; intros; lra.
Qed.

(** ** Elements *)
Definition hotter (e e' : element) : Prop :=
  e_name e' = e_name e /\ e_type e' = e_type e /\ e_tr e' = e_tr e /\ e_pos e' = e_pos e /\ number (e_descr e') "width" = number (e_descr e) "width" /\ upto (e_em e) (e_em e') /\
  match e_temp e, e_temp e' with None, None => True | Some T, Some T' => 0 < T <= T' | _, _ => False end.
Lemma same_number d d' k : sget k d' = sget k d -> number d' k = number d k.
Proof. intros E. unfold number. now rewrite E. Qed.
Lemma same_text d d' k : sget k d' = sget k d -> text d' k = text d k.
Proof. intros E. unfold text. now rewrite E. Qed.
Lemma transmission_warmer d d' wl : sensible_element d -> warmer d d' -> get_transmission d' wl = get_transmission d wl.
Proof.
  intros (_ & _ & _ & D) (W & _ & _ & WD). unfold get_transmission. rewrite !given_get.
  assert (WT : sget "transmission" d' = sget "transmission" d) by (apply W; discriminate). assert (WR : sget "reflectivity" d' = sget "reflectivity" d) by (apply W; discriminate). assert (WU : sget "use" d' = sget "use" d) by (apply W; discriminate).
  assert (W1 : sget "wl_min" d' = sget "wl_min" d) by (apply W; discriminate). assert (W2 : sget "wl_max" d' = sget "wl_max" d) by (apply W; discriminate). assert (WC : sget "wl_col_name" d' = sget "wl_col_name" d) by (apply W; discriminate).
  rewrite WT, WR, WU, W1, W2. destruct (sget "data" d) as [[x|x|t]|] eqn:SD; try contradiction.
  - destruct D as (DU & DW & TR & _). assert (X : exists t', sget "data" d' = Some (Tab t') /\ forall c, c <> "Emissivity"%string -> sget c t' = sget c t).
    { destruct WD as [->|(t0 & t' & S1 & S2 & (EC & _))]; [exists t; auto|]. injection S1 as <-. exists t'. auto. }
    destruct X as (t' & S2 & EC). unfold table_of. rewrite S2, SD. cbn [bind]. rewrite DU. unfold smem, dmem. rewrite (EC "Transmission"%string), (EC "Reflectivity"%string) by discriminate.
    assert (NW : get_wl_col_name t' d' = get_wl_col_name t d). { unfold get_wl_col_name. rewrite !given_get, WC. unfold smem, dmem. rewrite (EC "wavelength"%string), (EC "Wavelength"%string) by discriminate. reflexivity. }
    rewrite NW. assert (CW : forall n, get_wl_col_name t d = Ok n -> col t' n = col t n). { intros n. unfold get_wl_col_name. destruct (M_Optics.given d "wl_col_name"); [discriminate|]. destruct (smem "wavelength" t); [intros [= <-]; unfold col; now rewrite EC by discriminate|]. destruct (smem "Wavelength" t); [|discriminate]. intros [= <-]. unfold col. now rewrite EC by discriminate. }
    destruct (match sget "Transmission" t with Some _ => true | None => false end); cbn [bind].
    + destruct (get_wl_col_name t d) as [n|] eqn:GN; cbn [bind]; auto. rewrite (CW n eq_refl). unfold col at 2 4. rewrite (EC "Transmission"%string) by discriminate. reflexivity.
    + destruct (match sget "Reflectivity" t with Some _ => true | None => false end); cbn [bind]; auto. destruct (get_wl_col_name t d) as [n|] eqn:GN; cbn [bind]; auto. rewrite (CW n eq_refl). unfold col at 2 4. rewrite (EC "Reflectivity"%string) by discriminate. reflexivity.
  - assert (S2 : sget "data" d' = None) by (destruct WD as [->|(t & t' & S1 & _)]; congruence). rewrite S2. destruct D as (D1 & _). rewrite (same_number d d' "transmission"), (same_number d d' "reflectivity"), (same_number d d' "wl_min"), (same_number d d' "wl_max") by auto.
    destruct (sget "transmission" d), (sget "reflectivity" d); cbn [andb orb]; try reflexivity. destruct D1; discriminate.
Qed.
Lemma upto_ones wl v v' : 0 <= v <= v' -> upto (ones wl v) (ones wl v').
Proof. intros H. unfold ones. apply upto_map. intros. lra. Qed.
Lemma emissivity_warmer d d' ty wl e e' : sensible_element d -> warmer d d' -> get_emissivity d ty wl = Ok e -> get_emissivity d' ty wl = Ok e' -> upto e e'.
Proof.
  intros SE (W & _ & WE & WD) E E'. destruct (sensible_emissivity d ty wl SE) as (e0 & E0 & F0 & _). assert (e0 = e) as -> by congruence. pose proof (upto_refl _ (fractions_nonneg _ F0)) as UR. clear E0. destruct SE as (_ & _ & _ & D). assert (WC : sget "wl_col_name" d' = sget "wl_col_name" d) by (apply W; discriminate).
  unfold get_emissivity in *. rewrite !given_get in *. destruct (sget "data" d) as [[x|x|t]|] eqn:SD; try contradiction.
  - destruct WD as [SD'|(t0 & t' & S1 & S2 & (EC & y & y' & Y & Y' & NS & Y1))].
    + rewrite SD' in E'. unfold table_of in *. rewrite SD', SD in *. cbn [bind] in *. assert (NW : get_wl_col_name t d' = get_wl_col_name t d) by (unfold get_wl_col_name; rewrite !given_get, WC; reflexivity). rewrite NW in E'. assert (e' = e) as -> by congruence. exact UR.
    + injection S1 as <-. rewrite S2 in E'. unfold table_of in *. rewrite S2, SD in *. cbn [bind] in *. 
      assert (NW : get_wl_col_name t' d' = get_wl_col_name t d). { unfold get_wl_col_name. rewrite !given_get, WC. unfold smem, dmem. rewrite (EC "wavelength"%string), (EC "Wavelength"%string) by discriminate. reflexivity. }
      rewrite NW in E'. assert (CW : forall n, get_wl_col_name t d = Ok n -> col t' n = col t n). { intros n. unfold get_wl_col_name. destruct (M_Optics.given d "wl_col_name"); [discriminate|]. destruct (smem "wavelength" t); [intros [= <-]; unfold col; now rewrite EC by discriminate|]. destruct (smem "Wavelength" t); [|discriminate]. intros [= <-]. unfold col. now rewrite EC by discriminate. }
      destruct (get_wl_col_name t d) as [n|]; cbn [bind] in *; [|discriminate]. rewrite (CW n eq_refl) in E'. unfold smem, dmem in *. rewrite Y in E. rewrite Y' in E'. cbn [bind] in *. destruct (col t n) as [xx|]; cbn [bind] in *; [|discriminate]. unfold col in *. rewrite Y in E. rewrite Y' in E'. cbn [bind] in *.
      assert (U : upto y y'). { destruct D as (_ & _ & _ & (x1 & y1 & _ & _ & SY & _ & FY)). assert (y1 = y) as -> by congruence. clear -NS FY. unfold no_smaller in NS. induction NS as [|a b l l' H F IH]; constructor; [split; auto; apply FY; now left|apply IH; intros v I; apply FY; now right]. }
      exact (upto_interp _ _ _ _ _ _ U E E').
  - assert (S2 : sget "data" d' = None) by (destruct WD as [->|(t & t' & S1 & _)]; congruence). rewrite S2 in E'. destruct D as (_ & D2). destruct WE as [WE|(v & v' & V & V' & L)].
    + rewrite WE, (same_number d d' "emissivity" WE) in E'. assert (e' = e) as -> by congruence. exact UR.
    + rewrite V in E. rewrite V' in E'. rewrite (number_get _ _ _ V) in E. rewrite (number_get _ _ _ V') in E'. cbn [bind] in *. assert (e = ones wl v) as -> by congruence. assert (e' = ones wl v') as -> by congruence. destruct (D2 "emissivity"%string (M_Optics.Num v)) as (u & X & B); auto. injection X as <-. apply upto_ones. lra.
Qed.
Lemma element_warmer d d' wl e e' : sensible_element d -> warmer d d' -> build_element d wl = Ok e -> build_element d' wl = Ok e' -> hotter e e'.
Proof.
  intros SE WM E E'. pose proof WM as (W & WT & _). unfold build_element in *. rewrite (transmission_warmer d d' wl SE WM), (same_text d d' "value"), (same_text d d' "type") in E' by (apply W; discriminate).
  dbind E n Hn. cbn [bind] in E'. dbind E ty Hty. cbn [bind] in E'. dbind E tr Htr. cbn [bind] in E'. dbind E em Hem. dbind E' em' Hem'. pose proof (emissivity_warmer _ _ _ _ _ _ SE WM Hem Hem') as UE.
  dbind E te Hte. dbind E' te' Hte'. dbind E an Han. dbind E' an' Han'. injection E as <-. injection E' as <-. unfold hotter. cbn [e_name e_type e_tr e_pos e_descr e_em e_temp].
  do 4 (split; [reflexivity|]). split; [apply same_number; apply W; discriminate|]. split; [exact UE|].
  destruct SE as (_ & ST & _). unfold optional in *. rewrite given_get in *. destruct WT as [WT|(T & T' & V & V' & L)].
  - rewrite WT, (same_number _ _ _ WT) in Hte'. assert (te' = te) as -> by congruence. destruct (sget "temperature" d) as [f|] eqn:SG; [|injection Hte as <-; exact Coq.Init.Logic.I]. destruct (ST f eq_refl) as (v & -> & P). rewrite (number_get _ _ _ SG) in Hte. injection Hte as <-. lra.
  - rewrite V in Hte. rewrite V' in Hte'. rewrite (number_get _ _ _ V) in Hte. rewrite (number_get _ _ _ V') in Hte'. cbn [bind] in *. injection Hte as <-. injection Hte' as <-. destruct (ST (M_Optics.Num T) V) as (v & X & P). injection X as <-. lra.
Qed.
Definition hotters (a b : elements) : Prop := Forall2 (fun x y => fst y = fst x /\ hotter (snd x) (snd y)) a b.
Lemma hotters_set k e e' a b : hotter e e' -> hotters a b -> hotters (sset k e a) (sset k e' b).
Proof.
  intros H. induction 1 as [|[n x] [n' y] a b (EN & HH) F IH]; cbn [dset]; [constructor; [split; auto|constructor]|]. cbn [fst snd] in *. subst n'. destruct (String.eqb k n); [constructor; [split; auto|exact F]|]. constructor; [split; auto|exact IH].
Qed.
Lemma elements_warmer wl ds ds' : Forall2 (fun kd kd' => fst kd' = fst kd /\ warmer (snd kd) (snd kd')) ds ds' -> (forall k d, In (k, d) ds -> sensible_element d) -> forall out out' els els', hotters out out' -> build_elements ds wl out = Ok els -> build_elements ds' wl out' = Ok els' -> hotters els els'.
Proof.
  induction 1 as [|[k d] [k' d'] ds ds' (EK & WM) F IH]; intros SE out out' els els' H E E'; cbn [build_elements] in *. { injection E as <-. injection E' as <-. auto. }
  cbn [fst snd] in *. subst k'. dbind E e He. dbind E' e' He'. eapply IH; [intros k0 d0 I; apply (SE k0); now right| |exact E|exact E']. apply hotters_set; auto. eapply element_warmer; eauto. apply (SE k). now left.
Qed.
Lemma optics_hotter wl o o' els els' : sensible_optics o -> optics_warmer o o' -> prepare_elements o wl = Ok els -> prepare_elements o' wl = Ok els' -> hotters els els'.
Proof.
  intros SO WM E E'. destruct o as [|d|ds], o' as [|d'|ds']; try contradiction; cbn [prepare_elements optics_warmer] in *.
  - assert (els' = els) as -> by congruence. dbind E e He. injection E as <-. destruct (element_builds default_element wl default_sensible) as (e0 & E0 & _ & _ & NE & NT & _). assert (e0 = e) as -> by congruence. constructor; [|constructor]. split; [reflexivity|]. cbn [fst snd]. unfold hotter. do 5 (split; [reflexivity|]). split; [now apply upto_refl|]. destruct (e_temp e); auto. specialize (NT r eq_refl). lra.
  - dbind E e He. dbind E' e' He'. dbind E v Hv. rewrite (same_text d d' "value") in E' by (apply WM; discriminate). rewrite Hv in E'. cbn [bind] in E'. injection E as <-. injection E' as <-. constructor; [|constructor]. split; [reflexivity|]. cbn [fst snd]. eapply element_warmer; eauto. apply SO. reflexivity.
  - eapply elements_warmer; [exact WM| | |exact E|exact E']; [|constructor]. intros k d I. apply SO. exists k. auto.
Qed.
Lemma prepend_hotter a b c d : hotters a b -> hotters c d -> hotters (prepend a c) (prepend b d).
Proof.
  intros H K. unfold prepend, dof_list, dupdate. assert (L : hotters (a ++ c) (b ++ d)) by (apply Forall2_app; auto). revert L. generalize (a ++ c) as l, (b ++ d) as m. clear. intros l m L.
  assert (X : forall out out', hotters out out' -> hotters (fold_left (fun d kv => dset String.eqb (fst kv) (snd kv) d) l out) (fold_left (fun d kv => dset String.eqb (fst kv) (snd kv) d) m out')).
  { induction L as [|[k e] [k' e'] l m (EK & HE) L IH]; intros out out' O; cbn [fold_left]; auto. cbn [fst snd] in *. subst k'. apply IH. now apply hotters_set. }
  apply X. constructor.
Qed.
Lemma transmission_same wl els els' : hotters els els' -> transmission_table wl els' = transmission_table wl els.
Proof.
  intros H. unfold transmission_table. assert (X : forall t tot, transmission_columns els' t tot = transmission_columns els t tot). { induction H as [|[k e] [k' e'] a b (EK & (_ & _ & ET & _)) F IH]; intros t tot; cbn [transmission_columns]; auto. cbn [fst snd] in *. subst k'. rewrite ET. apply IH. }
  now rewrite X.
Qed.
Lemma pass_hotter : forall rest rest', Forall2 hotter rest rest' -> Forall (fun e => nonneg (e_tr e)) rest -> forall rad rad' slit out out', r_pos rad' = r_pos rad -> r_slit rad' = r_slit rad -> upto (r_data rad) (r_data rad') ->
  pass_through rest rad slit = Ok out -> pass_through rest' rad' slit = Ok out' -> r_pos (fst out') = r_pos (fst out) /\ r_slit (fst out') = r_slit (fst out) /\ upto (r_data (fst out)) (r_data (fst out')) /\ snd out' = snd out.
Proof.
  induction 1 as [|e e' rest rest' (H1 & H2 & H3 & H4 & H5 & H6) F IH]; intros N rad rad' slit out out' P L U E E'; cbn [pass_through] in *. { injection E as <-. injection E' as <-. auto. }
  apply Forall_cons_iff in N as [N0 N]. rewrite H2, H3, H5, P, L in E'. assert (U' : upto (mul (r_data rad) (e_tr e)) (mul (r_data rad') (e_tr e))) by (apply upto_mul; auto; now apply upto_refl). destruct (String.eqb (e_type e) "slit").
  - destruct (number (e_descr e) "width") as [w|]; cbn [bind] in *; [|discriminate]. eapply (IH N); [| | |exact E|exact E']; auto.
  - eapply (IH N); [| | |exact E|exact E']; auto.
Qed.
Lemma glows_set k r r' a b : r_pos r' = r_pos r -> r_slit r' = r_slit r -> upto (r_data r) (r_data r') -> glows a b -> glows (sset k r a) (sset k r' b).
Proof.
  intros P L U. induction 1 as [|[n x] [n' y] a b (EN & HH) F IH]; cbn [dset]; [constructor; [auto|constructor]|]. cbn [fst snd] in *. subst n'. destruct (String.eqb k n); [constructor; [auto|exact F]|]. constructor; [auto|exact IH].
Qed.
Lemma planck_upto wl T T' : (forall w, In w wl -> 0 < w) -> 0 < T <= T' -> upto (map (fun w => planck w T) wl) (map (fun w => planck w T') wl).
Proof.
  intros W H. apply upto_map. intros w I. destruct (C53_positive_and_increasing w T (W w I) (proj1 H)) as [P Q]. destruct (Req_EM_T T T') as [<-|N]; [lra|]. specialize (Q T' ltac:(lra)). lra.
Qed.
Lemma chain_hotter wl : (forall w, In w wl -> 0 < w) -> forall els els', Forall2 hotter els els' -> Forall (fun e => nonneg (e_tr e)) els -> forall out out' slit r r', glows out out' -> chain_from planck wl els out slit = Ok r -> chain_from planck wl els' out' slit = Ok r' -> glows (fst r) (fst r') /\ snd r' = snd r.
Proof.
  intros WP. induction 1 as [|e e' els els' HE F IH]; intros N out out' slit r r' G E E'; cbn [chain_from] in *. { injection E as <-. injection E' as <-. auto. }
  apply Forall_cons_iff in N as [N0 N]. destruct HE as (H1 & H2 & H3 & H4 & H5 & H6 & H7). rewrite H1, H4 in E'. destruct (e_temp e) as [T|], (e_temp e') as [T'|]; try contradiction; [|eapply (IH N); [exact G|exact E|exact E']].
  dbind E o1 Ho1. dbind E' o2 Ho2. assert (U : upto (surface_radiance planck wl T (e_em e)) (surface_radiance planck wl T' (e_em e'))) by (apply upto_mul; auto; now apply planck_upto).
  destruct (pass_hotter els els' F N {| r_data := surface_radiance planck wl T (e_em e); r_pos := e_pos e; r_slit := false |} {| r_data := surface_radiance planck wl T' (e_em e'); r_pos := e_pos e; r_slit := false |} _ _ _ (eq_refl _) (eq_refl _) U Ho1 Ho2) as (P & L & UU & SL). destruct o1 as [o1 s1], o2 as [o2 s2]. cbn [fst snd] in *. subst s2.
  eapply (IH N); [|exact E|exact E']. now apply glows_set.
Qed.

(** ** Channels *)
(** a channel, with warmer optics *)
Definition warmed (c c' : chan) : Prop :=
  h_star c' = h_star c /\ h_kind c' = h_kind c /\ h_light c' = h_light c /\ h_noise c' = h_noise c /\ h_common c' = h_common c /\ names (cols (h_table c')) = names (cols (h_table c)) /\ (forall m, m = "instrument_signal"%string \/ m = "instrument_MaxSignal_inPixel"%string -> exists u v, sget m (cols (h_table c)) = Some (map num u) /\ sget m (cols (h_table c')) = Some (map num v) /\ (P_Light.sound (h_light c) -> upto u v)) /\
  forall m, m <> "instrument_signal"%string -> m <> "instrument_MaxSignal_inPixel"%string -> sget m (cols (h_table c')) = sget m (cols (h_table c)).
Lemma letting wl o els : sensible_optics o -> prepare_elements o wl = Ok els -> each (fun e => nonneg (e_tr e)) els.
Proof. intros SO E. destruct (optics_build wl o SO) as (els' & E' & A). assert (els' = els) as -> by congruence. intros k e I. destruct (A k e I) as (d & (_ & GF & _) & _). now apply fractions_nonneg. Qed.
Lemma path_warmed w p p' o o' d own own' co name q c c' : complete_common w p name d -> p_optics p = Some o -> p_optics p' = Some o' -> o_force o' = o_force o -> o_area o' = o_area o -> optics_warmer (o_elements o) (o_elements o') -> d_optics d = Some own -> optics_warmer own own' -> co = Some own' ->
  p_custom p' = p_custom p -> shaped name q -> build_optical_path w p d q = Ok c -> build_optical_path w p' (with_optics d co) q = Ok c' -> warmed c c'.
Proof.
  intros CC PO PO' OF OA WC DO WO -> PC ((qe & _ & EQ) & _) E E'. destruct CC as (U1 & U2 & V & N & _ & _ & (o0 & own0 & force & PO0 & DO0 & _ & _ & S1 & S2) & _). assert (o0 = o) as -> by congruence. assert (own0 = own) as -> by congruence.
  unfold build_optical_path in *. change (optical_grid w (with_optics d (Some own'))) with (optical_grid w d) in E'. destruct (optical_grid w d) as [wl|] eqn:OG; cbn [bind] in *; [|discriminate].
  assert (G : wavelength_grid wl). { unfold optical_grid in OG. rewrite U1, U2 in OG. destruct (Nat.eqb_spec (u_R w) 1); [lia|]. injection OG as <-. now apply P_Ready.detector_grid_ok. }
  unfold optical_path in *. rewrite PO, DO in E. rewrite PO' in E'. cbn [with_optics d_optics lookup bind] in *. destruct (prepare_elements (o_elements o) wl) as [e1|] eqn:P1; cbn [bind] in *; [|discriminate]. destruct (prepare_elements own wl) as [e2|] eqn:P2; cbn [bind] in *; [|discriminate].
  destruct (prepare_elements (o_elements o') wl) as [e1'|] eqn:P1'; cbn [bind] in *; [|discriminate]. destruct (prepare_elements own' wl) as [e2'|] eqn:P2'; cbn [bind] in *; [|discriminate].
  pose proof (prepend_hotter _ _ _ _ (optics_hotter _ _ _ _ _ S1 WC P1 P1') (optics_hotter _ _ _ _ _ S2 WO P2 P2')) as HH. rewrite (transmission_same _ _ _ HH), OF, OA in E'. destruct (col _ _) as [total|]; cbn [bind] in *; [|discriminate].
  cbn [with_optics d_min d_max d_fx d_fy M_Build.d_delta d_detector] in E'. destruct (get_transmission_column _ _ _ _ _) as [[tc tr]|]; cbn [bind] in *; [|discriminate].
  destruct (chain planck wl (prepend e1 e2)) as [[rads slit]|] eqn:CH; cbn [bind] in *; [|discriminate]. destruct (chain planck wl (prepend e1' e2')) as [[rads' slit']|] eqn:CH'; cbn [bind] in *; [|discriminate].
  assert (GL : glows rads rads' /\ slit' = slit).
  { unfold chain in *. apply (chain_hotter wl (proj2 (proj2 G)) (map snd (prepend e1 e2)) (map snd (prepend e1' e2'))) with (out := []) (out' := []) (slit := None) (r := (rads, slit)) (r' := (rads', slit')); auto; [| |constructor].
    - clear -HH. induction HH as [|x y a b [_ H] F IH]; constructor; auto.
    - apply Forall_forall. intros e I. apply in_map_iff in I as ([k e0] & <- & I). exact (prepend_each _ _ _ (letting _ _ _ S1 P1) (letting _ _ _ S2 P2) k e0 I). }
  destruct GL as (GL & ->). destruct (lookup (d_fx d)) as [fx|]; cbn [bind] in *; [|discriminate].
  set (b0 := {| b_slit := slit; b_pix_wl := _; b_pix_width := _; b_spatial := _; b_size := _; b_qe := _; b_tr := tr; b_delta := _; b_omega := _ |}) in *.
  destruct (compute_signal b0 _ wl rads) as [em|] eqn:CS; cbn [bind] in *; [|discriminate]. destruct (compute_signal b0 _ wl rads') as [em'|] eqn:CS'; cbn [bind] in *; [|discriminate].
  injection E as <-. injection E' as <-. unfold warmed. cbn [h_star h_kind h_light h_noise h_common h_table cols].
  split; [reflexivity|]. split; [reflexivity|]. split; [reflexivity|]. split; [reflexivity|]. split; [exact PC|]. rewrite EQ. split; [reflexivity|]. split.
  - intros m [->| ->]; eexists _, _; (split; [reflexivity|]); (split; [reflexivity|]); intros SB; destruct (upto_signal b0 _ wl rads rads' em em' SB G GL CS CS'); auto.
  - intros m N1 N2. cbn. repeat match goal with |- context [String.eqb m ?a] => destruct (String.eqb_spec m a); [try reflexivity; congruence|] end. reflexivity.
Qed.
