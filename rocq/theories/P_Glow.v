(** A brighter foreground (C118). *)
From Coq Require Import Reals Lra Psatz Lia.
From Verif Require Import Base Dict PyStr XR M_Signal M_Optics M_Light M_Bins M_Psf M_Omega M_Star M_Source M_Foreground S_Signal S_Optics S_Light S_Bins S_Star S_Success S_Foreground L_Signal L_Optics L_Light L_Bins P_Optics P_Bins P_Windows P_Light P_Success P_Omega P_Star P_Source P_Foreground.
From Verif Require M_Noise P_Noise L_Foreground S_Source P_Star.
From Verif Require Import S_Noise L_Noise.
From Verif Require Import M_Table L_Table P_Table M_Observe S_Observe L_Observe L_Stages L_Outcome S_Works S_Complete P_Observe P_Outcome P_Works P_Complete P_Instance M_Build S_Build S_Ready L_Build L_Ready P_Build P_Ready P_Mission P_Telescope S_Full P_Full S_Bright L_Bright P_Bright P_BrightMission L_Compare S_Glow L_Glow.
Open Scope list_scope.
Open Scope R_scope.

(** ** The foregrounds estimated *)
Lemma glowing_1 f : glowing 1 f = f.
Proof. destruct f as [[wl d] tr]. unfold glowing, lit. cbn [f_light f_transmission s_wl s_data]. now rewrite scaled_1. Qed.
Lemma sort_scaled k (l : list (R * R)) : sort_src (map (fun p => (fst p, snd p * k)) l) = map (fun p => (fst p, snd p * k)) (sort_src l).
Proof.
  assert (I : forall (a : R * R) l, M_Signal.insert (fst a, snd a * k) (map (fun p => (fst p, snd p * k)) l) = map (fun p => (fst p, snd p * k)) (M_Signal.insert a l)).
  { intros a m. induction m as [|b m IH]; cbn; auto. destruct (Rltb _ _); cbn; [|]; try rewrite IH; reflexivity. }
  unfold sort_src. induction l as [|a l IH]; cbn [map fold_right]; auto. rewrite IH. apply I.
Qed.
Lemma locate_scaled k w (l : list (R * R)) : locate w (map (fun p => (fst p, snd p * k)) l) =
  match locate w l with Some (p, q) => Some ((fst p, snd p * k), match q with Some q => Some (fst q, snd q * k) | None => None end) | None => None end.
Proof.
  induction l as [|[a v] l IH]; cbn [map locate fst snd]; auto. destruct (Rltb w a); auto. rewrite IH. destruct (locate w l) as [[p q]|]; auto. cbn [fst snd]. destruct l as [|[a' v'] l]; reflexivity.
Qed.
Lemma interp_scaled k x y wl : interp1d_or 0 x (map (fun v => v * k) y) wl = match interp1d_or 0 x y wl with Ok r => Ok (scaled k r) | Err e => Err e end.
Proof.
  unfold interp1d_or. destruct x as [|x0 x]; auto. rewrite map_length. destruct (Nat.eqb _ _); auto. f_equal. unfold scaled. rewrite map_map. apply map_ext. intros w.
  change (map (fun v => v * k) y) with (scaled k y). rewrite combine_scaled, sort_scaled. unfold interp_or. rewrite locate_scaled. destruct (locate w _) as [[p [q|]]|]; cbn [fst snd]; [|destruct (Rltb _ _); ring|ring]. unfold Rdiv. ring.
Qed.
Lemma filter_brighter k wl d d' t t' : k_data d = Some t -> k_data d' = Some t' -> brighter_table k t t' -> sky_filter wl d' = match sky_filter wl d with Ok f => Ok (glowing k f) | Err e => Err e end.
Proof.
  intros D D' ((c & c' & G & G' & U & V) & O). unfold sky_filter. rewrite D, D'. cbn [lookup bind]. rewrite !(O "Wavelength"%string), !(O "Transmission"%string), G, G' by discriminate. cbn [lookup].
  destruct (sget "Wavelength" t) as [wc|]; cbn [lookup bind]; auto. destruct (to_um wc) as [x|]; cbn [bind]; auto. rewrite U, V, interp_scaled. destruct (interp1d_or 0 x (c_values c) wl) as [y|]; cbn [bind]; auto. destruct (c_unit c) as [u|]; cbn [bind]; auto.
  destruct (sget "Transmission" t) as [tc|]; cbn [lookup bind]; auto. destruct (interp1d_or 1 x (c_values tc) wl) as [tr|]; cbn [bind]; auto. unfold glowing, lit. cbn [f_light f_transmission s_wl s_data]. do 3 f_equal. unfold scaled. rewrite !map_map. apply map_ext. intros. ring.
Qed.
Section Sky.
  Context (name : string) (k : R).
  Definition lit_t (t : tgt) : tgt := {| g_ra := g_ra t; g_dec := g_dec t; g_foreground := option_map (sky_lit name k) (g_foreground t); g_sky := g_sky t |}.
  Lemma entry_lit n f t : entry n (glowing (fac name k n) f) (lit_t t) = option_map (sky_lit name k) (entry n f t).
  Proof.
    unfold entry. cbn [lit_t g_foreground option_map]. f_equal. unfold sky_lit. rewrite <- (map_set (fun n => glowing (fac name k n))). destruct (g_foreground t); reflexivity.
  Qed.
  Lemma put_lit a b n f t s : lit_t {| g_ra := a; g_dec := b; g_foreground := entry n f t; g_sky := s |} = {| g_ra := a; g_dec := b; g_foreground := entry n (glowing (fac name k n) f) (lit_t t); g_sky := s |}.
  Proof. rewrite entry_lit. reflexivity. Qed.
  Lemma one_brighter m n a b p p' t : brighter name k p p' -> (zodiacal p = true -> z_map (as_zodi (snd p)) <> Some true) ->
    estimate_one m n a b (fst p') (snd p') (lit_t t) = match estimate_one m n a b (fst p) (snd p) t with Ok t' => Ok (lit_t t') | Err e => Err e end.
  Proof.
    intros (E1 & E2 & E3) Z. rewrite E1. unfold estimate_one. unfold zodiacal, stored_as in *. unfold zodiacal in *. destruct (String.eqb (fst p) "zodiacal") eqn:ZZ.
    - specialize (Z eq_refl). unfold estimate_zodi. destruct (working_grid n a b) as [wl|]; cbn [bind]; auto. change (g_ra (lit_t t)) with (g_ra t). change (g_dec (lit_t t)) with (g_dec t). change (g_sky (lit_t t)) with (g_sky t).
      destruct (match g_ra t with Some ra => _ | None => _ end) as [co|]; cbn [bind]; auto.
      assert (F : exists A A', zodi_factor m (as_zodi (snd p)) co = Ok A /\ zodi_factor m (as_zodi (snd p')) co = Ok A' /\ A' = A * fac name k "zodi").
      { assert (ZF : forall z, z_map z <> Some true -> zodi_factor m z co = match z_factor z with Some v => Ok v | None => Ok 0 end). { intros z NZ. unfold zodi_factor. destruct (z_map z) as [[|]|]; auto. congruence. }
        destruct E3 as [[N E]|[S (A & F & E)]].
        - rewrite E. rewrite ZF by auto. unfold fac. destruct (String.eqb_spec "zodi" name); [congruence|]. destruct (z_factor _) as [v|]; [exists v, v|exists 0, 0]; repeat split; ring.
        - rewrite E, !ZF by (auto; cbn; auto). cbn [z_factor]. rewrite F. exists A, (A * k). split; auto. split; auto. unfold fac. rewrite <- S, String.eqb_refl. reflexivity. }
      destruct F as (A & A' & -> & -> & ->). cbn [bind]. rewrite put_lit. do 3 f_equal. unfold glowing. cbn [f_light f_transmission]. f_equal.
      unfold zodi_model, lit, scaled. cbn [s_wl s_data]. f_equal. rewrite map_map. apply map_ext. intros. ring.
    - unfold estimate_foreground. destruct (working_grid n a b) as [wl|]; cbn [bind]; auto. rewrite E2. destruct (k_value (as_sky (snd p))) as [v|] eqn:KV; cbn [lookup bind]; auto.
      assert (F : sky_filter wl (as_sky (snd p')) = match sky_filter wl (as_sky (snd p)) with Ok f => Ok (glowing (fac name k v) f) | Err e => Err e end).
      { destruct E3 as [[N E]|[S (tb & tb' & D & D' & BT)]].
        - rewrite E. unfold fac. destruct (String.eqb_spec v name); [congruence|]. destruct (sky_filter _ _); auto. now rewrite glowing_1.
        - injection S as ->. unfold fac. rewrite String.eqb_refl. eapply filter_brighter; eauto. }
      rewrite F. destruct (sky_filter wl (as_sky (snd p))) as [f|]; cbn [bind glowing f_transmission]; auto. destruct (f_transmission f) as [tr|] eqn:FT; cbn [lookup bind]; auto. change (g_ra (lit_t t)) with (g_ra t). change (g_dec (lit_t t)) with (g_dec t). change (g_sky (lit_t t)) with (g_sky t).
      destruct (match g_sky t with Some s => _ | None => _ end) as [sk|]; cbn [bind]; auto. rewrite put_lit. reflexivity.
  Qed.
  Lemma all_brighter m n a b l l' : Forall2 (brighter name k) l l' -> (forall p, In p l -> zodiacal p = true -> z_map (as_zodi (snd p)) <> Some true) ->
    forall t, estimate_all m n a b l' (lit_t t) = match estimate_all m n a b l t with Ok t' => Ok (lit_t t') | Err e => Err e end.
  Proof.
    induction 1 as [|[q d] [q' d'] l l' B F IH]; intros Z t; cbn [estimate_all]; auto. pose proof (one_brighter m n a b _ _ t B) as E. cbn [fst snd] in E. rewrite E by (apply Z; now left). destruct (estimate_one m n a b q d t); cbn [bind]; auto. apply IH. intros p I. apply Z. now right.
  Qed.
  (** What is stored stays stored. *)
  Definition known_as (t : tgt) : Prop := exists fs, g_foreground t = Some fs /\ In name (map fst fs).
  Lemma entry_known n f t t' : g_foreground t' = entry n f t -> (n = name \/ known_as t) -> known_as t'.
  Proof.
    intros E H. unfold known_as. rewrite E. unfold entry. eexists. split; [reflexivity|].
    assert (KS : forall d : sdict foreground, n = name \/ In name (map fst d) -> In name (map fst (sset n f d))).
    { induction d as [|[q w] d IH]; cbn; intros [X|X]; auto; [destruct (String.eqb_spec n q) as [->|]; cbn; auto|]. destruct (String.eqb_spec n q) as [->|]; cbn; tauto. }
    apply KS. destruct H as [->|(fs & -> & I)]; auto.
  Qed.
  Lemma one_known m n a b p t t' : estimate_one m n a b (fst p) (snd p) t = Ok t' -> stored_as p name \/ known_as t -> known_as t'.
  Proof.
    unfold estimate_one, stored_as, zodiacal. destruct (String.eqb (fst p) "zodiacal").
    - unfold estimate_zodi. intros E H. dbind E wl Hw. dbind E co Hc. dbind E v0 HA. injection E as <-. eapply entry_known; [reflexivity|]. destruct H as [->|H]; auto.
    - unfold estimate_foreground. intros E H. dbind E wl Hw. destruct (k_value (as_sky (snd p))) as [v|]; cbn [lookup bind] in E; [|discriminate]. dbind E ff Hf. dbind E trr Ht. dbind E skk Hs. injection E as <-. eapply entry_known; [reflexivity|]. destruct H as [[= ->]|H]; auto.
  Qed.
  Lemma all_known m n a b l : forall t t', estimate_all m n a b l t = Ok t' -> (exists p, In p l /\ stored_as p name) \/ known_as t -> known_as t'.
  Proof.
    induction l as [|[q d] l IH]; intros t t' E H; cbn [estimate_all] in E. { injection E as <-. destruct H as [(p & [] & _)|H]; auto. }
    dbind E t1 EE1. pose proof (one_known m n a b (q, d) t t1 EE1) as O. apply (IH t1); auto. destruct H as [(p & [<-|I] & S)|H]; auto. left. eauto.
  Qed.
  Lemma sky_is_brighter m n a b f f' t g : sensible_foregrounds f -> sky_brighter name k f f' -> g_foreground t = None -> estimate_foregrounds m n a b f t = Ok g ->
    estimate_foregrounds m n a b f' t = Ok (lit_t g) /\ known_as g.
  Proof.
    intros SF SB GN E. assert (LT : lit_t t = t) by (destruct t; cbn in *; subst; reflexivity). destruct f as [l|d], f' as [l'|d']; cbn [sky_brighter estimate_foregrounds] in *; try contradiction.
    - destruct SB as [F X]. destruct SF as [_ SF]. split; [|eapply all_known; eauto]. rewrite <- LT at 1. rewrite (all_brighter m n a b l l' F); [now rewrite E|]. intros [q d] I Z. specialize (SF q d I). unfold zodiacal in Z. cbn in Z. rewrite Z in SF. apply SF.
    - destruct SB as (v & V & B & S). destruct SF as (v2 & V2 & SF). assert (v2 = v) as -> by congruence. rewrite V in E. cbn [lookup bind] in E. split; [|eapply (one_known m n a b (v, d)); eauto].
      pose proof B as (_ & V' & _). cbn [snd] in V'. rewrite V', V. cbn [lookup bind]. pose proof (one_brighter m n a b _ _ t B) as O. cbn [fst snd] in O. rewrite LT in O. rewrite O, E; auto. unfold zodiacal. cbn [fst]. intros Z. rewrite Z in SF. apply SF.
  Qed.
End Sky.

(** ** What a channel reports of its own *)
Lemma glow_dec name k : {glow_column name k} + {~ glow_column name k}.
Proof. unfold glow_column. destruct (string_dec k (name ++ "_signal")); [left; auto|]. destruct (string_dec k (name ++ "_MaxSignal_inPixel")); [left; auto|right; tauto]. Qed.
Lemma colf_glow name k c : glow_column name c -> colf name k c = k.
Proof. unfold colf. intros [->| ->]; rewrite String.eqb_refl; auto. now rewrite orb_true_r. Qed.
Lemma colf_other name k c : ~ glow_column name c -> colf name k c = 1.
Proof. unfold colf, glow_column. intros N. destruct (String.eqb_spec c (name ++ "_signal")); [tauto|]. destruct (String.eqb_spec c (name ++ "_MaxSignal_inPixel")); [tauto|reflexivity]. Qed.
Lemma table_tint name k d : names (foreground_table (tint name k d)) = names (foreground_table d).
Proof. unfold foreground_table, tint, names. rewrite !map_map. reflexivity. Qed.
Lemma sget_table d c : sget c (foreground_table d) = option_map (map num) (sget c d).
Proof. unfold foreground_table. induction d as [|[q v] d IH]; cbn; auto. destruct (String.eqb_spec c q); auto. Qed.
Lemma glow_reported b bins fs d name : propagate_diffuse_foreground b bins (Some fs) = Ok d -> In name (map fst fs) -> forall c, glow_column name c -> exists v, sget c d = Some v.
Proof.
  unfold propagate_diffuse_foreground. intros E I c G. assert (I' : In name (map fst (rev fs))) by (rewrite map_rev, <- in_rev; auto). revert E I'. generalize (b_tr b) (b_qe b) (rev fs). clear I fs.
  assert (KEEP : forall fs tr qe out d, foregrounds_light b bins tr qe fs out = Ok d -> (exists v, sget c out = Some v) -> exists v, sget c d = Some v).
  { induction fs as [|[n f] fs IH]; intros tr qe out d0 E H; cbn [foregrounds_light] in E; [injection E as <-; auto|]. dbind E x Hx. destruct x as [[light tr'] qe']. apply (IH _ _ _ _ E). destruct H as [v H].
    destruct (String.eqb_spec c (n ++ "_MaxSignal_inPixel")) as [->|N1]; [rewrite dget_dset_same by apply String_eqb_spec; eauto|]. rewrite dget_dset_other by (auto; apply String_eqb_spec).
    destruct (String.eqb_spec c (n ++ "_signal")) as [->|N2]; [rewrite dget_dset_same by apply String_eqb_spec; eauto|]. rewrite dget_dset_other by (auto; apply String_eqb_spec). eauto. }
  intros tr qe fs. generalize (@nil (string * list R)). revert tr qe. induction fs as [|[n f] fs IH]; intros tr qe out E I; [destruct I|]. cbn [foregrounds_light] in E. dbind E x Hx. destruct x as [[light tr'] qe']. cbn [map fst] in I. destruct I as [->|I]; [|eapply IH; eauto].
  apply (KEEP _ _ _ _ _ E). destruct G as [->| ->]; [|rewrite dget_dset_same by apply String_eqb_spec; eauto]. rewrite dget_dset_other by (try apply String_eqb_spec; apply suffixes_differ). rewrite dget_dset_same by apply String_eqb_spec. eauto.
Qed.
Lemma own_glow ns name k fs sed sky a o : 0 <= k -> name <> "star"%string -> In name (map fst fs) -> as_built ns a -> own (Some fs) sed sky a = Ok o ->
  exists o', own (Some (sky_lit name k fs)) sed sky a = Ok o' /\ names o' = names o /\
  (forall c, glow_column name c -> exists v, sget c o = Some (reals v) /\ sget c o' = Some (reals (scaled k v))) /\ (forall c, ~ glow_column name c -> sget c o' = sget c o).
Proof.
  intros K NS IN AB E. unfold own in *. unfold foreground_of in *. rewrite diffuse_tint by auto. destruct (propagate_diffuse_foreground _ _ (Some fs)) as [d|] eqn:D; cbn [bind] in *; [|discriminate]. unfold own_star in *.
  destruct (propagate_star (snd a) None sed sky) as [[so t]|]; cbn [bind] in *; [|discriminate]. eexists. split; [reflexivity|]. injection E as <-. set (S := keep (loud sky) (star_columns so)).
  assert (NF : names (foreground_table (tint name k d)) = names (foreground_table d)) by apply table_tint.
  assert (MF : forall c, smem c (foreground_table (tint name k d)) = smem c (foreground_table d)) by (intros c; apply Bool.eq_iff_eq_true; rewrite !smem_names, NF; tauto).
  assert (GT : forall c, sget c (foreground_table (tint name k d)) = option_map (fun v => map num (scaled (colf name k c) v)) (sget c d)). { intros c. rewrite sget_table. unfold tint. rewrite (map_get (fun c => scaled (colf name k c))). now destruct (sget c d). }
  split; [|split].
  - rewrite !override_names, NF. f_equal. f_equal. f_equal. apply filter_ext. intros c. now rewrite MF.
  - intros c G. destruct (glow_reported _ _ _ _ _ D IN c G) as [v V]. exists v. rewrite !override_get, GT, sget_table, V. cbn [option_map].
    assert (N : sget c S = None). { unfold S. rewrite keep_get. destruct (loud sky c); auto. unfold star_columns.
      assert (X : forall w, w <> "star_MaxSignal_inPixel"%string -> ends_with "_signal" w = false -> ends_with "_MaxSignal_inPixel" w = false -> String.eqb c w = false).
      { intros w _ W1 W2. apply String.eqb_neq. destruct G as [->| ->]; now apply suffix_not. }
      assert (Y : String.eqb c "star_MaxSignal_inPixel" = false). { apply String.eqb_neq. destruct G as [->| ->]; [now apply suffix_not|]. intros Z. change "star_MaxSignal_inPixel"%string with ("star" ++ "_MaxSignal_inPixel")%string in Z. apply suffix_inj in Z. congruence. }
      destruct (o_sky so); cbn [app dget]; rewrite ?X, ?Y by (try discriminate; reflexivity); reflexivity. }
    rewrite N, (colf_glow name k c G). split; reflexivity.
  - intros c G. rewrite !override_get, GT, sget_table, (colf_other name k c G). destruct (sget c S); auto. destruct (sget c d); auto. cbn [option_map]. now rewrite scaled_1.
Qed.

(** ** C118: a brighter foreground *)
(** The estimate [y'] under a sky where [name] is [k] times as bright as for [y] *)
Definition as_glowing (name : string) (k : R) (chs : channels) (y y' : target) : Prop :=
  exists T T', x_table y = Some T /\ x_table y' = Some T' /\
  forall ch c, In (ch, c) chs ->
    (forall m, glow_column name m -> exists v, shows (cols T) ch m (reals v) /\ shows (cols T') ch m (reals (map (fun a => a * k) v))) /\
    (forall m v, ordinary m -> fresh_column y m -> m <> "MaxSignal_inPixel"%string -> ~ glow_column name m -> shows (cols T') ch m v <-> shows (cols T) ch m v) /\
    exists z z', shows (cols T) ch "total_noise" (map Num z) /\ shows (cols T') ch "total_noise" (map Num z') /\ (1 <= k -> Forall2 no_better z z') /\ (k <= 1 -> Forall2 no_better z' z).
Theorem C118_brighter_foreground : forall w fuel p l s x f f' src h h' name k, mission w fuel p l s x f src -> sky_brighter name k f f' -> name <> "star"%string -> 0 <= k ->
  Forall (fun sx => no_instrument_in_the_sky (fst sx) (snd sx)) h -> Forall (fun sx => no_instrument_in_the_sky (fst sx) (snd sx)) h' ->
  exists chs y y', build_channels w fuel p = Some (Ok chs) /\ snd (observe_target s (after chs h) x) = Ok y /\ snd (observe_target (with_foregrounds s f') (after chs h') x) = Ok y' /\ as_glowing name k chs y y'.
Proof.
  intros w fuel p l s x f f' src h h' name k M SB NS K AH AH'. set (s' := with_foregrounds s f').
  destruct (mission_ready _ _ _ _ _ _ _ _ M) as (chs & st & g & fs & B & I & HN & LD & FG & GF & US).
  pose proof M as (_ & _ & _ & _ & _ & FF & _ & _ & _ & _ & _ & _ & _ & YF & SF & GS & GX & _ & _ & _ & _ & _ & NX).
  assert (EF := FG). unfold foregrounds_of in EF. rewrite YF in EF. destruct (sky_is_brighter name k _ _ _ _ f f' (x_sky x) g SF SB GX EF) as [FG' (fs0 & F0 & IN)]. rewrite GF in F0. injection F0 as <-.
  assert (GF' : g_foreground (lit_t name k g) = Some (sky_lit name k fs)) by (cbn [lit_t g_foreground]; now rewrite GF).
  assert (US' : forall ch c, In (ch, c) chs -> Forall valid_entry (entries (h_common c)) /\ Forall valid_entry (entries (M_Noise.ch_custom (h_noise c))) /\
     exists d o t, propagate_diffuse_foreground (h_light c) (M_Observe.edges c) (Some (sky_lit name k fs)) = Ok d /\ propagate_star c None (st_sed st) (g_sky (lit_t name k g)) = Ok (o, t) /\ usable c d o).
  { intros ch c IC. destruct (US ch c IC) as (A1 & A2 & d & o & t & D & P & U). split; auto. split; auto. exists (tint name k d), o, t. rewrite diffuse_tint, D by auto. split; auto. split; [exact P|]. destruct U as (U1 & U2 & U3 & U4). split; auto. split; auto. split; auto.
    intros c0 v. unfold tint. rewrite (map_get (fun c => scaled (colf name k c))). destruct (sget c0 d) as [v0|] eqn:G; cbn [option_map]; [|discriminate]. intros [= <-] r R. unfold scaled in R. apply in_map_iff in R as (r0 & <- & R). apply Rmult_le_pos; [eapply U3; eauto|now apply colf_pos]. }
  assert (AP' : columns_apart channel_columns chs s' x). { intros _ g' G'. assert (g' = lit_t name k g) as -> by (change (foregrounds_of s' (x_sky x)) with (estimate_foregrounds (y_maps s) (y_R s) (y_min s) (y_max s) f' (x_sky x)) in G'; congruence). apply foreign_columns. rewrite GF'. intros fs' [= <-]. rewrite sky_lit_names. eapply NX; eauto. }
  assert (N1 : ~ In "MaxSignal_inPixel"%string channel_columns) by (cbn; intuition discriminate). assert (N2 : In "Wavelength"%string channel_columns) by (cbn; auto). assert (N3 : In "WindowSize"%string channel_columns) by (cbn; auto 10).
  destruct (observed_rows channel_columns chs h s x g fs st I channel_columns_quiet N1 N2 N3 (skies_apart chs h AH) (mission_apart _ _ _ _ _ _ _ _ chs M) FG GF LD US) as (y & T & O & XT & XS & V).
  destruct (observed_rows channel_columns chs h' s' x (lit_t name k g) (sky_lit name k fs) st I channel_columns_quiet N1 N2 N3 (skies_apart _ h' AH') AP' FG' GF' LD US') as (y' & T' & O' & XT' & XS' & V').
  exists chs, y, y'. split; [auto|]. split; [auto|]. split; [auto|]. exists T, T'. split; [auto|]. split; [auto|]. intros ch c IC.
  assert (AB : as_built channel_columns (ch, c)) by (destruct I as (_ & _ & _ & _ & _ & AB); rewrite Forall_forall in AB; auto).
  destruct (US ch c IC) as (_ & _ & dd & so & t0 & _ & PS & UO). pose proof UO as ((det & DE & PH) & _).
  destruct (V ch c det IC DE PH) as (o & tf & total & SR). destruct (V' ch c det IC DE PH) as (o' & tf' & total' & SR').
  destruct (own_glow channel_columns name k fs (st_sed st) (g_sky g) (ch, c) o K NS IN AB (sr_own _ _ _ _ _ _ _ _ _ _ _ _ SR)) as (o2 & OW & NO & PC & OT). assert (o2 = o') as -> by (pose proof (sr_own _ _ _ _ _ _ _ _ _ _ _ _ SR') as X; cbn [lit_t g_sky] in X; congruence).
  assert (SC : forall m, glow_column name m -> ordinary m /\ m <> "MaxSignal_inPixel"%string /\ loud (g_sky g) m = true).
  { intros m J. assert (X : forall u, ends_with "_signal" u = false -> ends_with "_MaxSignal_inPixel" u = false -> m <> u) by (intros u W1 W2; destruct J as [->| ->]; now apply suffix_not).
    split; [|split; [apply X; reflexivity|]].
    - destruct J as [->| ->]; apply ordinary_suffix; auto.
    - unfold loud. assert (Y1 := X "sky TR"%string eq_refl eq_refl). assert (Y2 := X "foreground_transmission"%string eq_refl eq_refl). apply String.eqb_neq in Y1. apply String.eqb_neq in Y2. rewrite Y1, Y2. now destruct (g_sky g). }
  split; [|split].
  - intros m J. destruct (SC m J) as (Q1 & Q2 & Q3). destruct (PC m J) as (v & G1 & G2). exists v. split; [now apply (sr_shows _ _ _ _ _ _ _ _ _ _ _ _ SR)|now apply (sr_shows _ _ _ _ _ _ _ _ _ _ _ _ SR')].
  - intros m v OM FR NT NP. apply fresh_loud in FR. rewrite XS in FR. rewrite (sr_shows _ _ _ _ _ _ _ _ _ _ _ _ SR), (sr_shows _ _ _ _ _ _ _ _ _ _ _ _ SR'), OT by auto. tauto.
  - assert (FX : M_Noise.fixed_frame_time (h_noise c) <> None). { destruct (HN ch c IC) as (d & ID & ->). destruct (FF ch d ID) as (r & -> & _). discriminate. }
    assert (VAL : forall m, (glow_column name m /\ forall i, value_at o' m i = k * value_at o m i) \/ (~ glow_column name m /\ forall i, value_at o' m i = value_at o m i)).
    { intros m. destruct (glow_dec name m) as [J|J]; [left|right]; (split; [exact J|]).
      - destruct (PC m J) as (v & G1 & G2). eapply value_star; eauto.
      - intros i. unfold value_at, col_of. now rewrite OT. }
    assert (SAME : forall u, ends_with "_signal" u = false -> ends_with "_MaxSignal_inPixel" u = false -> forall i, value_at o' u i = value_at o u i).
    { intros u W1 W2. destruct (VAL u) as [[J _]|[_ E]]; [|exact E]. destruct J as [->| ->]; exfalso; [now apply (suffix_not name "_signal" _ W1)|now apply (suffix_not name "_MaxSignal_inPixel" _ W2)]. }
    assert (WI : In "WindowSize"%string (names o)) by now apply (sr_base _ _ _ _ _ _ _ _ _ _ _ _ SR).
    assert (SI : In "star_signal_inAperture"%string (names o)). { destruct (own_get _ _ _ _ _ _ AB (sr_own _ _ _ _ _ _ _ _ _ _ _ _ SR)) as (d1 & s1 & t1 & _ & _ & G). apply sget_names. rewrite G. unfold star_columns. destruct (g_sky g), (o_sky s1); cbn; eauto. }
    assert (EW := SAME "WindowSize"%string eq_refl eq_refl). assert (ES := SAME "star_signal_inAperture"%string eq_refl eq_refl).
    assert (UP : 1 <= k -> exists z z', shows (cols T) ch "total_noise" (map Num z) /\ shows (cols T') ch "total_noise" (map Num z') /\ Forall2 no_better z z').
    { intros L. apply (noisier_rows _ _ _ _ _ _ _ _ _ _ _ _ _ _ _ _ _ _ _ _ _ _ SR SR' eq_refl eq_refl eq_refl NO WI SI 1); auto; try lra.
      - intros m i J S L'. pose proof (sr_pos _ _ _ _ _ _ _ _ _ _ _ _ SR m i J (or_introl S) L'). destruct (VAL m) as [[_ E]|[_ E]]; rewrite E; nra.
      - intros i _. rewrite ES. ring. }
    assert (DN : k <= 1 -> exists z z', shows (cols T) ch "total_noise" (map Num z) /\ shows (cols T') ch "total_noise" (map Num z') /\ Forall2 no_better z' z).
    { intros L. destruct (noisier_rows _ _ _ _ _ _ _ _ _ _ _ _ _ _ _ _ _ _ _ _ _ _ SR' SR eq_refl eq_refl eq_refl (eq_sym NO)) with (q := 1) as (u & u' & U1 & U2 & U3); auto; try lra.
      - now rewrite NO. - now rewrite NO.
      - intros m i J S L'. rewrite NO in J. pose proof (sr_pos _ _ _ _ _ _ _ _ _ _ _ _ SR m i J (or_introl S) L'). destruct (VAL m) as [[_ E]|[_ E]]; rewrite E; nra.
      - intros i _. rewrite ES. ring.
      - exists u', u. auto. }
    assert (INJ : forall a b : list xr, map Num a = map Num b -> a = b). { clear. induction a as [|v a IH]; intros [|v' b]; cbn; try discriminate; auto. intros [= -> E]. f_equal. auto. }
    destruct (Rle_lt_dec 1 k) as [L|L].
    + destruct (UP L) as (z & z' & Z1 & Z2 & Z3). exists z, z'. split; [auto|]. split; [auto|]. split; [auto|]. intros L'. destruct (DN L') as (u & u' & U1 & U2 & U3). rewrite (INJ _ _ (shows_fun _ _ _ _ _ Z1 U1)), (INJ _ _ (shows_fun _ _ _ _ _ Z2 U2)). exact U3.
    + destruct (DN ltac:(lra)) as (u & u' & U1 & U2 & U3). exists u, u'. split; [auto|]. split; [auto|]. split; [intros; lra|auto].
Qed.
Print Assumptions C118_brighter_foreground.
(** Twice the zodiacal light, and a fog three times as bright *)
Lemma more_zodi : sky_brighter "zodi" 2 sky_over_us (Many [("zodiacal"%string, by_factor (2 * 2)); ("fog"%string, haze 1 0.5)]).
Proof.
  split; [|exists ("zodiacal"%string, by_factor 2); split; [now left|reflexivity]]. constructor; [|constructor; [|constructor]]; (split; [reflexivity|]); (split; [reflexivity|]).
  - right. split; [reflexivity|]. exists 2. split; reflexivity.
  - left. split; [intros X; discriminate X|reflexivity].
Qed.
Lemma more_fog : sky_brighter "haze" 3 sky_over_us (Many [("zodiacal"%string, by_factor 2); ("fog"%string, haze (1 * 3) 0.5)]).
Proof.
  split; [|exists ("fog"%string, haze 1 0.5); split; [right; now left|reflexivity]]. constructor; [|constructor; [|constructor]]; (split; [reflexivity|]); (split; [reflexivity|]).
  - left. split; [intros X; discriminate X|reflexivity].
  - right. split; [reflexivity|]. cbn. do 2 eexists. split; [reflexivity|]. split; [reflexivity|]. split; [do 2 eexists; cbn; repeat (split; [reflexivity|]); reflexivity|].
    intros n N. unfold table_from. cbn [dget map fst snd]. destruct (String.eqb_spec n "Wavelength"); auto. destruct (String.eqb_spec n "Radiance"); [congruence|]. reflexivity.
Qed.
Example C118_ex fuel h : Forall (fun sx => sx = (run, vega)) h ->
  exists chs y y' T T' v, build_channels sharp fuel telescope = Some (Ok chs) /\ snd (observe_target run (after chs h) vega) = Ok y /\
  snd (observe_target (with_foregrounds run (Many [("zodiacal"%string, by_factor 2); ("fog"%string, haze (1 * 3) 0.5)])) (after chs []) vega) = Ok y' /\
  x_table y = Some T /\ x_table y' = Some T' /\ shows (cols T) "spec" "haze_signal" (reals v) /\ shows (cols T') "spec" "haze_signal" (reals (map (fun a => a * 3) v)).
Proof.
  intros H. destruct (C118_brighter_foreground sharp fuel telescope _ run vega _ _ _ h [] "haze"%string 3 (vega_mission fuel) more_fog ltac:(discriminate) ltac:(lra) (sky_known _ H) (Forall_nil _)) as (chs & y & y' & B & O & O' & T & T' & XT & XT' & X).
  destruct (a_telescope fuel) as (a & b & B' & _). assert (chs = [("phot"%string, a); ("spec"%string, b)]) as -> by congruence.
  destruct (X "spec"%string b) as (X1 & _); [right; now left|]. destruct (X1 "haze_signal"%string) as (v & V1 & V2); [now left|].
  eexists _, y, y', T, T', v. split; [exact B|]. repeat (split; [assumption|]). assumption.
Qed.
