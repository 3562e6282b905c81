(** Foregrounds of which one is brighter: what is propagated. *)
From Coq Require Import Reals Lra Psatz Lia.
From Verif Require Import Base Dict PyStr XR M_Signal M_Optics M_Light M_Bins M_Psf M_Omega M_Star M_Source M_Foreground S_Signal S_Optics S_Light S_Bins S_Star S_Success S_Foreground L_Signal L_Optics L_Light L_Bins P_Optics P_Bins P_Windows P_Light P_Success P_Omega P_Star P_Source P_Foreground.
From Verif Require Import M_Table L_Table P_Table M_Observe S_Observe L_Observe L_Stages L_Outcome L_Bright S_Glow.
Open Scope list_scope.
Open Scope R_scope.

Definition lit (k : R) (s : sig) : sig := {| s_wl := s_wl s; s_data := scaled k (s_data s) |}.
Lemma scaled_1 l : scaled 1 l = l.
Proof. unfold scaled. rewrite <- (map_id l) at 2. apply map_ext. intros. ring. Qed.
Lemma rsum_scaled k l : M_Signal.rsum (scaled k l) = M_Signal.rsum l * k.
Proof. rewrite !rsum_total. unfold scaled. rewrite (total_ext (fun x => x * k) (fun x => k * x)) by (intros; ring). rewrite (total_scale k (fun x => x)), map_id, <- (rsum_total l). ring. Qed.
Lemma combine_scaled {A} k (l : list A) : forall d, combine l (scaled k d) = map (fun p => (fst p, snd p * k)) (combine l d).
Proof. induction l as [|a l IH]; intros [|d0 d]; cbn; auto. f_equal. apply IH. Qed.
Lemma filter_scaled {A} k (p : A -> bool) (l : list (A * R)) : map snd (filter (fun q => p (fst q)) (map (fun q => (fst q, snd q * k)) l)) = scaled k (map snd (filter (fun q => p (fst q)) l)).
Proof. unfold scaled. induction l as [|[a v] l IH]; cbn; auto. destruct (p a); cbn; now rewrite IH. Qed.
Lemma convolve_scale k a n : convolve_same (scaled k a) n = match convolve_same a n with Ok x => Ok (scaled k x) | Err e => Err e end.
Proof.
  unfold convolve_same. destruct a as [|a0 a]; [reflexivity|]. change (scaled k (a0 :: a)) with (a0 * k :: scaled k a). destruct n as [|n]; [reflexivity|].
  change (a0 * k :: scaled k a) with (scaled k (a0 :: a)). rewrite len_scaled. f_equal. unfold scaled at 2. rewrite map_map. apply map_ext. intros i. rewrite combine_scaled.
  set (st := ((Nat.min _ _ - 1) / 2)%nat). pose proof (filter_scaled k (fun j => Nat.leb j (i + st) && Nat.ltb (i + st) (j + S n)) (combine (List.seq 0 (length (a0 :: a))) (a0 :: a))) as E. cbn [fst] in E. rewrite E. apply rsum_scaled.
Qed.
Lemma select_scale k m l : M_Light.select m (scaled k l) = match M_Light.select m l with Ok x => Ok (scaled k x) | Err e => Err e end.
Proof. unfold M_Light.select. rewrite len_scaled. destruct (Nat.eqb _ _); auto. f_equal. rewrite combine_scaled. apply (filter_scaled k (fun b : bool => b)). Qed.
Lemma mapM_scales {A} k (f g : A -> res (list R)) : forall l, (forall a, In a l -> g a = match f a with Ok x => Ok (scaled k x) | Err e => Err e end) -> mapM g l = match mapM f l with Ok x => Ok (map (scaled k) x) | Err e => Err e end.
Proof. induction l as [|a l IH]; intros H; cbn; auto. rewrite H by (cbn; auto). destruct (f a); cbn [bind]; auto. rewrite IH by (intros; apply H; cbn; auto). destruct (mapM f l); reflexivity. Qed.
Lemma slit_scale k b bins slit qe rad : 0 <= k -> convolve_with_slit b bins slit qe (lit k rad) = match convolve_with_slit b bins slit qe rad with Ok x => Ok (scaled k (fst x), scaled k (snd x)) | Err e => Err e end.
Proof.
  intros K. unfold convolve_with_slit. destruct (lookup (b_pix_wl b)) as [wl|]; cbn [bind]; auto. destruct (lookup (b_pix_width b)) as [dwl|]; cbn [bind]; auto. unfold lit. rewrite resample_scale. replace {| s_wl := s_wl rad; s_data := s_data rad |} with rad by (now destruct rad).
  destruct (resample wl rad) as [r|]; cbn [bind s_data]; auto. destruct (interp1d _ _ _) as [q|]; cbn [bind]; auto. rewrite times_scale_l. destruct (times (s_data r) _) as [x|]; cbn [bind]; auto. rewrite times_scale_l. destruct (times x dwl) as [y|]; cbn [bind]; auto.
  rewrite convolve_scale. destruct (convolve_same y _) as [tmp|]; cbn [bind]; auto. rewrite (mapM_scales k (fun e => M_Light.select (map (in_slit_bin e) wl) tmp)) by (intros; apply select_scale). destruct (mapM _ bins) as [parts|]; cbn [bind]; auto.
  destruct (lookup (b_spatial b)) as [ws|]; cbn [bind]; auto.
  assert (E : mapM array_max (map (scaled k) parts) = match mapM array_max parts with Ok x => Ok (scaled k x) | Err e => Err e end).
  { clear -K. induction parts as [|p parts IH]; cbn; auto. rewrite array_max_scale by auto. destruct (array_max p); cbn [bind]; auto. rewrite IH. destruct (mapM array_max parts); reflexivity. }
  rewrite E. destruct (mapM array_max parts) as [mx|]; cbn [bind fst snd]; auto. do 2 f_equal. rewrite map_map. rewrite <- mul_scale_l. f_equal. unfold scaled at 2. rewrite map_map. apply map_ext. intros. apply rsum_scaled.
Qed.
Definition glowing (k : R) (f : foreground) : foreground := {| f_light := lit k (f_light f); f_transmission := f_transmission f |}.
Lemma light_scale k b bins tr qe f : 0 <= k -> foreground_light b bins tr qe (glowing k f) = match foreground_light b bins tr qe f with Ok x => Ok ((scaled k (fst (fst (fst x))), scaled k (snd (fst (fst x)))), snd (fst x), snd x) | Err e => Err e end.
Proof.
  intros K. unfold foreground_light, attenuate. cbn [glowing f_light lit s_wl s_data]. destruct (resample _ tr) as [t|]; cbn [bind]; auto. rewrite times_scale_l. destruct (times (s_data (f_light f)) (s_data t)) as [x|]; cbn [bind]; auto.
  destruct (b_slit b) as [sl|].
  - pose proof (slit_scale k b bins sl qe {| s_wl := s_wl (f_light f); s_data := x |} K) as E. unfold lit in E. cbn [s_wl s_data] in E. rewrite E. clear E. destruct (convolve_with_slit b bins sl qe {| s_wl := s_wl (f_light f); s_data := x |}) as [[m sg]|]; reflexivity.
  - cbn [s_wl s_data]. destruct (resample _ qe) as [q|]; cbn [bind]; auto. rewrite times_scale_l. destruct (times x _) as [y|]; cbn [bind]; auto. unfold integrate_light. rewrite trapz_scale. cbn [fst snd]. unfold scaled. rewrite !map_map. f_equal. f_equal. f_equal. f_equal; apply map_ext; intros; ring.
Qed.

Section Named.
  Context (name : string) (k : R) (K : 0 <= k).
  Definition fac (n : string) : R := if String.eqb n name then k else 1.
  Definition colf (c : string) : R := if String.eqb c (name ++ "_signal") || String.eqb c (name ++ "_MaxSignal_inPixel") then k else 1.
  Lemma fac_pos n : 0 <= fac n. Proof. unfold fac. destruct (String.eqb _ _); lra. Qed.
  Lemma colf_pos n : 0 <= colf n. Proof. unfold colf. destruct (_ || _)%bool; lra. Qed.
  Lemma colf_signal n : colf (n ++ "_signal") = fac n.
  Proof.
    unfold colf, fac. destruct (String.eqb_spec n name) as [->|N]; [now rewrite String.eqb_refl|]. destruct (String.eqb_spec (n ++ "_signal") (name ++ "_signal")) as [E|_]; [apply suffix_inj in E; congruence|].
    destruct (String.eqb_spec (n ++ "_signal") (name ++ "_MaxSignal_inPixel")) as [E|_]; [now apply suffixes_differ in E|reflexivity].
  Qed.
  Lemma colf_max n : colf (n ++ "_MaxSignal_inPixel") = fac n.
  Proof.
    unfold colf, fac. destruct (String.eqb_spec n name) as [->|N]; [rewrite String.eqb_refl; now rewrite orb_true_r|]. destruct (String.eqb_spec (n ++ "_MaxSignal_inPixel") (name ++ "_signal")) as [E|_]; [symmetry in E; now apply suffixes_differ in E|].
    destruct (String.eqb_spec (n ++ "_MaxSignal_inPixel") (name ++ "_MaxSignal_inPixel")) as [E|_]; [apply suffix_inj in E; congruence|reflexivity].
  Qed.
  Definition tint (d : sdict (list R)) : sdict (list R) := map (fun a => (fst a, scaled (colf (fst a)) (snd a))) d.
  Definition sky_lit (d : sdict foreground) : sdict foreground := map (fun a => (fst a, glowing (fac (fst a)) (snd a))) d.
  Lemma map_set {A} (g : string -> A -> A) n v : forall d : sdict A, sset n (g n v) (map (fun a => (fst a, g (fst a) (snd a))) d) = map (fun a => (fst a, g (fst a) (snd a))) (sset n v d).
  Proof. induction d as [|[m w] d IH]; cbn; auto. destruct (String.eqb_spec n m) as [->|]; cbn; [reflexivity|]. now rewrite IH. Qed.
  Lemma map_get {A} (g : string -> A -> A) n : forall d : sdict A, sget n (map (fun a => (fst a, g (fst a) (snd a))) d) = option_map (g n) (sget n d).
  Proof. induction d as [|[m w] d IH]; cbn; auto. destruct (String.eqb_spec n m) as [->|]; cbn; auto. Qed.
  Lemma lights_tint b bins : forall fs tr qe out, foregrounds_light b bins tr qe (sky_lit fs) (tint out) = match foregrounds_light b bins tr qe fs out with Ok x => Ok (tint x) | Err e => Err e end.
  Proof.
    induction fs as [|[n f] fs IH]; intros tr qe out; cbn [sky_lit map fst snd foregrounds_light]; auto. rewrite light_scale by apply fac_pos. destruct (foreground_light b bins tr qe f) as [[[[m sg] tr'] qe']|]; cbn [bind fst snd]; auto.
    rewrite <- IH. f_equal. unfold tint. rewrite <- (map_set (fun c => scaled (colf c))). rewrite <- (map_set (fun c => scaled (colf c))). cbn beta. now rewrite colf_signal, colf_max.
  Qed.
  Lemma diffuse_tint b bins fs : propagate_diffuse_foreground b bins (Some (sky_lit fs)) = match propagate_diffuse_foreground b bins (Some fs) with Ok x => Ok (tint x) | Err e => Err e end.
  Proof. unfold propagate_diffuse_foreground. replace (rev (sky_lit fs)) with (sky_lit (rev fs)) by (unfold sky_lit; now rewrite map_rev). apply (lights_tint b bins (rev fs) (b_tr b) (b_qe b) []). Qed.
  Lemma sky_lit_names fs : map fst (sky_lit fs) = map fst fs.
  Proof. unfold sky_lit. rewrite map_map. now apply map_ext. Qed.
End Named.
