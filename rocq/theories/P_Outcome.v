(** Properties of whole observations, continued: the noise (C86). *)
From Verif Require Import Base Dict XR M_Signal M_Optics L_Optics M_Light M_Bins M_Star M_Source M_Foreground M_Table S_Table L_Table P_Table M_Observe S_Observe L_Observe L_Stages L_Outcome.
From Verif Require M_Noise P_Noise.
From Verif Require Import S_Noise L_Noise P_Observe.
From Verif Require Import M_Table S_Observe.
Import M_Noise(estimate_noise, noise_in_channel, ch_name, ch_custom, fixed_frame_time).
Open Scope list_scope.

Lemma ends_with_spec suf k : ends_with suf k = true <-> exists m, k = (m ++ suf)%string.
Proof.
  unfold ends_with. rewrite is_prefix_spec. split.
  - intros [c E]. exists (str_of (rev c)). apply str_chars_inj. rewrite str_chars_app. unfold str_of at 1. unfold str_chars at 2. rewrite list_ascii_of_string_of_list_ascii. rewrite <- (rev_involutive (str_chars k)), E, rev_app_distr, rev_involutive. reflexivity.
  - intros [m ->]. exists (rev (str_chars m)). rewrite str_chars_app. apply rev_app_distr.
Qed.
Lemma ordinary_ends k : ordinary k -> ends_with "_noise" k = false.
Proof. intros (_ & _ & H). destruct (ends_with "_noise" k) eqn:E; auto. apply ends_with_spec in E as [m E]. now apply H in E. Qed.

(** The columns of a table which are not noise, and have [w] in their name *)
Definition with_word (w : string) (T : table) : list string := filter (fun k => contains w k && negb (ends_with "_noise" k)) (names T).

(** What happens after the light has been propagated *)
Lemma outcome ns chs h s x y T : instruments ns chs -> quiet ns ->
  Forall (fun sx => columns_apart ns chs (fst sx) (snd sx)) h -> columns_apart ns chs s x -> snd (observe_target s (after chs h) x) = Ok y -> x_table y = Some T ->
  exists K owns r t1 ms,
    (NoDup K /\ In "chName"%string K /\ forall k, In k K -> ordinary k) /\ Forall2 (block_of K) chs owns /\ mapM (mx K) owns = Ok ms /\
    cols t1 = glue (K1 K) (map (fun q => with_max (fst q) (snd q)) (combine owns ms)) /\
    r = keep (loud (g_sky (x_sky y))) (cols T) /\ (forall k, ordinary k -> sget k r = sget k (cols t1)) /\
    (forall a, In a chs -> exists out, noise_in_channel (cols t1) (h_noise (snd a)) (h_common (snd a)) = Ok out /\ forall c col, sget c out = Some col -> select (fst a) c r = Ok (map Num col)) /\
    (forall w, (forall k, contains w k = true -> loud (g_sky (x_sky y)) k = true) -> contains w "saturation_time" = false -> contains w "frameTime" = false -> with_word w (cols T) = filter (contains w) (K1 K)) /\
    Forall2 (fun a o => own (g_foreground (x_sky y)) (match x_source y with Some st => st_sed st | None => {| s_wl := []; s_data := [] |} end) (g_sky (x_sky y)) a = Ok o) chs owns.
Proof.
  intros HI Q H AP E T1. apply apart_alright in AP. pose proof (observe_seen ns chs HI s _ x (after_ok ns chs h HI H) AP) as E1.
  destruct (observe_shape _ _ _ _ E) as (_ & _ & _ & _ & T' & st & T2 & T3 & LD & FG). rewrite E in E1. cbn [seen bind] in E1. rewrite T1, T3 in E1. symmetry in E1.
  unfold pure in E1. destruct (owns_of s x chs) as [[[g0 st0] owns]|] eqn:EO; cbn [bind fst snd] in E1; [|discriminate].
  destruct (M_Noise.estimate_noise _ _) as [r|] eqn:EN; cbn [bind] in E1; [|discriminate]. injection E1 as G S KT.
  destruct (owns_ready ns chs HI g0 st0 owns s x EO (ex_intro _ _ (same_self _)) AP) as (KK & (K1' & K2 & K3) & KE & B & FO). rewrite KE in EN. subst g0 st0.
  assert (NE : chs <> []) by apply HI. assert (NC : NoDup (map fst chs)) by apply HI.
  destruct (blocks_whole chs KK owns B K1' K2 NC NE) as [W1 W2]. destruct (blocks_aligned chs KK owns B K2 NC NE) as (A1 & A2 & A3 & A4).
  destruct (P_Noise.estimate_noise_inv_full {| cols := glue KK owns; meta := [] |} (nchans chs) (map bins_of chs) (nbins chs) r W1 W2 A1 A2 A3 A4 EN) as (t1 & new & M1 & (CR & RR & NR & OK & _) & KP & CH).
  pose proof M1 as M2. rewrite max_glue in M2; auto.
  2: { destruct B; [congruence|discriminate]. }
  2: { intros ->. destruct K2. }
  2: { apply (blocks_rows chs KK owns B K2). }
  destruct (existsb (String.eqb "Wavelength") KK); [|discriminate]. destruct (mapM (mx KK) owns) as [ms|] eqn:MS; cbn [bind] in M2; [|discriminate].
  assert (CT : cols t1 = glue (K1 KK) (map (fun q => with_max (fst q) (snd q)) (combine owns ms))) by (injection M2 as <-; reflexivity).
  assert (KO : forall k, In k (K1 KK) -> ordinary k). { intros k I. apply K1_In in I as [-> |I]; [|now apply K3]. apply ordinary_end; try reflexivity; discriminate. }
  exists KK, owns, (cols r), t1, ms. split; [auto|]. split; [auto|]. split; [auto|]. split; [auto|]. split; [auto|]. split; [|split; [|split]].
  - intros k (O1 & O2 & O3). now apply KP.
  - intros a IA. destruct (CH (h_noise (snd a)) (h_common (snd a))) as (out & X & Y & _).
    { unfold nchans. apply in_map_iff. eauto. }
    exists out. split; auto. intros c col GC. rewrite <- (Y c col GC). f_equal.
    destruct HI as (_ & _ & _ & _ & _ & AB). rewrite Forall_forall in AB. specialize (AB a IA). destruct a as [n c']. destruct AB as (_ & _ & _ & _ & AB & _). symmetry. exact AB.
  - intros w LW N1 N2. unfold with_word.
    transitivity (filter (fun k => contains w k && negb (ends_with "_noise" k)) (names (cols r))).
    { rewrite KT. unfold names, keep. clear - LW. induction (cols T) as [|[k v] t IH]; cbn [filter map fst]; auto. destruct (loud (g_sky (x_sky y)) k) eqn:L; cbn [map filter fst].
      - now rewrite IH.
      - destruct (contains w k) eqn:C; [rewrite LW in L by auto; discriminate|]. cbn. exact IH. }
    rewrite CR. unfold names at 1. rewrite map_app. fold (names new). rewrite filter_app.
    assert (filter (fun k => contains w k && negb (ends_with "_noise" k)) (names new) = []) as ->.
    { apply filter_none. intros k I. apply OK in I as [-> |[-> |[m ->]]]; [rewrite N1|rewrite N2|]; auto. assert (ends_with "_noise" (M_Noise.noise_key m) = true) as -> by (apply ends_with_spec; exists m; reflexivity). apply andb_false_r. }
    rewrite app_nil_r.
    assert (filter (fun x => negb (smem (fst x) new)) (cols t1) = cols t1) as ->.
    { apply filter_all. intros [k v] I. cbn [fst]. destruct (smem k new) eqn:M; auto. exfalso. apply smem_names in M. apply OK in M. assert (I' : In k (K1 KK)). { rewrite <- (names_glue (K1 KK) (map (fun q => with_max (fst q) (snd q)) (combine owns ms))), <- CT. apply in_map_iff. exists (k, v). auto. }
      apply KO in I' as (O1 & O2 & O3). destruct M as [-> |[-> |[m ->]]]; try congruence. apply (O3 m). reflexivity. }
    fold (names (cols t1)). rewrite CT, names_glue. apply filter_ext_in. intros k I. apply KO in I. rewrite (ordinary_ends k I). apply andb_true_r.
  - rewrite T3. exact FO.
Qed.

Definition numbers (n : nat) (f : nat -> R) : list cell := map (fun i => Num (Fin (f i))) (seq 0 n).
(** ** C86: the noise columns follow from the other columns of the table *)
Theorem C86_noise_follows_from_the_table : forall ns chs h s x y T name c d v, instruments ns chs -> quiet ns ->
  Forall (fun sx => columns_apart ns chs (fst sx) (snd sx)) h -> columns_apart ns chs s x -> snd (observe_target s (after chs h) x) = Ok y -> x_table y = Some T ->
  In (name, c) chs -> describes (h_noise c) d -> physical d -> Forall valid_entry (entries (h_common c)) -> Forall valid_entry (entries (ch_custom (h_noise c))) ->
  let n := length (c_bins (h_star c)) in
  let signals := with_word "signal" (cols T) in
  (forall k, In k (needed ++ signals) -> shows (cols T) name k (numbers n (v k)) /\ forall i, (i < n)%nat -> (0 <= v k i)%R) ->
  frame_time_defined (h_noise c) n v ->
  exists tf total, (0 < tf)%R /\
    match fixed_frame_time (h_noise c) with Some ft => ft = Fin tf | None => auto_frame_time (d_well d) (d_f d) n (v "MaxSignal_inPixel"%string) tf end /\
    shows (cols T) name "frameTime" (numbers n (fun _ => tf)) /\
    shows (cols T) name "total_noise" (map (fun i => Num (total i)) (seq 0 n)) /\
    (forall i, (i < n)%nat ->
      (v "star_signal_inAperture"%string i = 0%R -> total i = NaN) /\
      (v "star_signal_inAperture"%string i <> 0%R ->
         total i = Fin (sqrt (row_noise d signals v tf i ^ 2 + (ppm2 (in_effect (entries (h_common c))) + ppm2 (in_effect (entries (ch_custom (h_noise c)))))))%R)) /\
    (h_common c = None -> ch_custom (h_noise c) = None ->
      let g := shot_gain (reads tf (d_freq d)) in
      shows (cols T) name "darkcurrent_noise" (numbers n (fun i => sqrt (dark2 g (v "WindowSize"%string i) (d_dark d)))) /\
      shows (cols T) name "read_noise" (numbers n (fun i => sqrt (read2 (read_gain (reads tf (d_freq d)) (d_M d)) (d_read d) (v "WindowSize"%string i) tf))) /\
      forall k, In k signals -> shows (cols T) name (k ++ "_noise") (numbers n (fun i => sqrt (photon2 g (v k i))))).
Proof.
  intros ns chs h s x y T name c d v HI Q H AP E XT IC D PH V1 V2 n signals SH FD.
  destruct (outcome ns chs h s x y T HI Q H AP E XT) as (K & owns & r & t1 & ms & (N1 & N2 & N3) & B & MS & CT & RT & KP & CH & WW & _).
  pose proof (loud_sees (g_sky (x_sky y))) as (LS & LM & LC & LW & LL & LX). set (sky := g_sky (x_sky y)) in *.
  assert (AB : as_built ns (name, c)) by (destruct HI as (_ & _ & _ & _ & _ & AB); rewrite Forall_forall in AB; auto). destruct AB as (NP & _ & _ & _ & CN & _).
  assert (SG : signals = signal_columns (cols t1)). { unfold signals. rewrite WW; auto. unfold signal_columns. rewrite CT, names_glue. reflexivity. }
  assert (LO : forall k v0, loud sky k = true -> shows (cols T) name k v0 <-> select name k r = Ok v0). { intros k v0 L. rewrite RT, select_shows, shows_keep; tauto. }
  assert (OC : ordinary "chName") by (apply ordinary_end; try reflexivity; discriminate).
  assert (SEL : forall k, ordinary k -> select name k r = select name k (cols t1)). { intros k O. unfold select. rewrite !KP; auto. }
  assert (KO : forall k, In k (needed ++ signals) -> ordinary k /\ loud sky k = true).
  { intros k I. apply in_app_iff in I as [I|I].
    - cbn in I. repeat (destruct I as [<-|I]; [split; [apply ordinary_end; try reflexivity; discriminate|destruct sky; reflexivity]|]). destruct I.
    - unfold signals, with_word in I. apply filter_In in I as [_ I]. apply andb_true_iff in I as [I1 I2]. split; auto. apply ordinary_end; [now apply negb_true_iff in I2| |]; intros ->; discriminate. }
  assert (HO : holds (cols t1) (ch_name (h_noise c)) n (needed ++ signal_columns (cols t1)) v).
  { intros k I. rewrite <- SG in I. destruct (SH k I) as [S1 S2]. destruct (KO k I) as [K1' K2']. split; auto. rewrite CN, <- SEL by auto. apply LO; auto. }
  destruct (P_Noise.channel_run (cols t1) (h_noise c) (h_common c) d n v D PH NP HO FD) as (tf & out0 & T0 & FT & EC & G1 & G2 & G3 & G4).
  destruct (CH (name, c) IC) as (out & EO & SO). cbn [fst snd] in EO, SO. rewrite EC in EO. injection EO as EO.
  assert (SV : forall k col, loud sky k = true -> sget k out = Some col -> shows (cols T) name k (map Num col)) by (intros k col L G; apply LO; auto).
  set (f := fun i => if Req_EM_T (v "star_signal_inAperture"%string i) 0 then NaN else Fin (row_noise d (signal_columns (cols t1)) v tf i)) in *.
  assert (BP : Forall nan_or_pos (column n f)). { apply P_Noise.base_nan_or_pos; auto. intros j J. apply (HO "star_signal_inAperture"%string); cbn; auto. }
  pose proof (try_custom_total (h_common c) n (sset "total_noise" (column n f) out0) (column n f) V1 (dget_dset_same _ String_eqb_spec _ _ _) (column_length _ _) BP) as T1.
  assert (B1 : Forall nan_or_pos (map (fun b => quadrature b (ppm2 (in_effect (entries (h_common c))))) (column n f))).
  { rewrite Forall_map. eapply Forall_impl; [|exact BP]. intros b. apply quadrature_nan_or_pos. }
  pose proof (try_custom_total (ch_custom (h_noise c)) n _ _ V2 T1 ltac:(rewrite map_length; apply column_length) B1) as T2. rewrite EO in T2. rewrite map_map in T2.
  exists tf, (fun i => quadrature (f i) (ppm2 (in_effect (entries (h_common c))) + ppm2 (in_effect (entries (ch_custom (h_noise c)))))). split; auto. split; auto. split; [|split; [|split]].
  - assert (numbers n (fun _ => tf) = map Num (column n (fun _ => Fin tf))) as -> by (unfold numbers, column; now rewrite map_map). apply SV; [destruct sky; reflexivity|]. rewrite <- EO. rewrite !try_custom_other by (apply not_noise_key; reflexivity). rewrite (dget_dset_other _ String_eqb_spec) by discriminate. exact G1.
  - match goal with |- shows _ _ _ ?l => assert (l = map Num (map (fun x0 => quadrature (quadrature x0 (ppm2 (in_effect (entries (h_common c))))) (ppm2 (in_effect (entries (ch_custom (h_noise c)))))) (column n f))) as -> end.
    { unfold column. rewrite !map_map. apply map_ext. intros i. now rewrite quadrature_quadrature by apply ppm2_pos. }
    apply SV; [destruct sky; reflexivity|]. exact T2.
  - intros i I. unfold f. rewrite SG. destruct (Req_EM_T _ 0) as [Z|Z]; split; intros ZZ; try congruence; reflexivity.
  - intros C1 C2. cbv zeta. rewrite C1, C2 in EO. cbn [M_Noise.try_custom] in EO. subst out.
    assert (NU : forall g, numbers n g = map Num (column n (fun i => Fin (g i)))) by (intros g; unfold numbers, column; now rewrite map_map). rewrite !NU.
    split; [|split].
    + apply SV; [destruct sky; reflexivity|]. rewrite (dget_dset_other _ String_eqb_spec) by discriminate. exact G2.
    + apply SV; [destruct sky; reflexivity|]. rewrite (dget_dset_other _ String_eqb_spec) by discriminate. exact G3.
    + intros k I. rewrite NU. rewrite SG in I. apply SV.
      * apply LS. apply filter_In in I as [_ I]. apply contains_spec in I as (a & b & ->). apply contains_spec. exists a, (b ++ "_noise")%string. apply str_chars_inj. rewrite !str_chars_app, <- !app_assoc. reflexivity.
      * rewrite (dget_dset_other _ String_eqb_spec); [now apply G4|]. apply filter_In in I as [_ I]. intros X. change "total_noise"%string with (M_Noise.noise_key "total") in X. apply (signal_key_noise k "total_noise"); auto.
Qed.
Print Assumptions C86_noise_follows_from_the_table.

(** The brightest pixel: the sum of the columns with "Max" in their names *)
Lemma add_numbers n (w : string -> nat -> R) l : forall f, add_columns (numbers n f) (map (fun k => numbers n (w k)) l) = Ok (numbers n (fun i => (f i + sum_over (fun k => w k i) l)%R)).
Proof.
  induction l as [|k l IH]; intros f; cbn [map add_columns].
  - f_equal. unfold numbers. apply map_ext. intros i. cbn. do 2 f_equal. ring.
  - assert (add_column (numbers n f) (numbers n (w k)) = Ok (numbers n (fun i => (f i + w k i)%R))) as ->.
    { unfold add_column, numbers. rewrite !map_length, seq_length, Nat.eqb_refl. generalize (seq 0 n) as is. induction is as [|i is IHi]; cbn in *; auto. rewrite IHi. reflexivity. }
    cbn [bind]. rewrite IH. f_equal. unfold numbers. apply map_ext. intros i. cbn. do 2 f_equal. ring.
Qed.
Lemma own_get ns fs sed sky a o : as_built ns a -> own (Some fs) sed sky a = Ok o ->
  exists d st t, propagate_diffuse_foreground (h_light (snd a)) (edges (snd a)) (Some fs) = Ok d /\ propagate_star (snd a) None sed sky = Ok (st, t) /\
  forall k, sget k o = if loud sky k && smem k (star_columns st) then sget k (star_columns st) else match sget k d with Some v => Some (map num v) | None => sget k (cols (h_table (snd a))) end.
Proof.
  intros AB E. unfold own in E. destruct (foreground_of (Some fs) (snd a)) as [f|] eqn:Hf; cbn [bind] in E; [|discriminate]. destruct (own_star (snd a) sed sky) as [s0|] eqn:Hs; cbn [bind] in E; [|discriminate]. injection E as <-.
  unfold foreground_of in Hf. destruct (propagate_diffuse_foreground _ _ _) as [d|] eqn:Hd; cbn [bind] in Hf; [|discriminate]. injection Hf as <-.
  unfold own_star in Hs. destruct (propagate_star _ _ _ _) as [[st t]|] eqn:Ho; cbn [bind] in Hs; [|discriminate]. injection Hs as <-.
  exists d, st, t. split; auto. split; auto. intros k. rewrite !override_get, keep_get. unfold base.
  assert (FT : sget k (foreground_table d) = option_map (map num) (sget k d)).
  { unfold foreground_table. clear. induction d as [|[k' v] d IH]; cbn; auto. destruct (String.eqb k k'); auto. }
  rewrite FT. destruct (loud sky k); cbn [andb]; [|destruct (sget k d); reflexivity]. unfold dmem. destruct (sget k (star_columns st)); [reflexivity|]. destruct (sget k d); reflexivity.
Qed.
Lemma foreground_keys c fs d k v : sized c -> propagate_diffuse_foreground (h_light c) (edges c) (Some fs) = Ok d -> sget k d = Some v -> exists f, In f (map fst fs) /\ (k = (f ++ "_signal")%string \/ k = (f ++ "_MaxSignal_inPixel")%string).
Proof.
  intros SZ E G. assert (Hf : foreground_of (Some fs) c = Ok (foreground_table d)) by (unfold foreground_of; rewrite E; reflexivity).
  destruct (foreground_of_shape _ _ _ SZ Hf) as [[N1 _] _]. apply fk_In. unfold fk. rewrite <- N1. apply sget_names. exists (map num v). unfold foreground_table. revert G. clear. induction d as [|[k' u] d IH]; cbn; [discriminate|]. destruct (String.eqb k k'); [now intros [= ->]|auto].
Qed.
Lemma star_keys st k : In k (names (star_columns st)) -> In k ["foreground_transmission"; "starFlux"; "starSignal"; "star_signal_inAperture"; "star_MaxSignal_inPixel"]%string.
Proof. unfold star_columns, names. destruct (o_sky st); cbn; intuition. Qed.
Lemma no_max ns fs sed sky a o : as_built ns a -> own (Some fs) sed sky a = Ok o -> ~ In "MaxSignal_inPixel"%string ns -> ~ In "MaxSignal_inPixel"%string (names o).
Proof.
  intros AB E NM I. destruct (own_get ns fs sed sky a o AB E) as (d & st & t & Hd & Hs & G). apply sget_names in I as [v I]. rewrite G in I.
  destruct (loud sky _ && _) eqn:X.
  - apply andb_true_iff in X as [_ X]. apply smem_names, star_keys in X. cbn in X. intuition discriminate.
  - destruct (sget _ d) as [u|] eqn:X2.
    + apply (foreground_keys (snd a) fs d _ _ (built_sized _ _ AB) Hd) in X2 as (f & _ & [F|F]).
      * symmetry in F. revert F. apply suffix_not. reflexivity.
      * apply (f_equal (fun s => length (str_chars s))) in F. rewrite str_chars_app, app_length in F. destruct f; [discriminate F|]. cbn in F. lia.
    + apply NM. destruct a as [n c]. destruct AB as (_ & <- & _). cbn [snd] in *. apply sget_names. eauto.
Qed.
Definition not_total (k : string) : bool := negb (String.eqb k "MaxSignal_inPixel").
Theorem C86_brightest_pixel : forall ns chs h s x y T name c w, instruments ns chs -> quiet ns -> ~ In "MaxSignal_inPixel"%string ns ->
  Forall (fun sx => columns_apart ns chs (fst sx) (snd sx)) h -> columns_apart ns chs s x -> snd (observe_target s (after chs h) x) = Ok y -> x_table y = Some T -> In (name, c) chs ->
  let n := length (c_bins (h_star c)) in
  let maxima := filter not_total (with_word "Max" (cols T)) in
  (forall k, In k maxima -> shows (cols T) name k (numbers n (w k))) ->
  shows (cols T) name "MaxSignal_inPixel" (numbers n (fun i => sum_over (fun k => w k i) maxima)).
Proof.
  intros ns chs h s x y T name c w HI Q NM H AP E XT IC n maxima SH.
  destruct (outcome ns chs h s x y T HI Q H AP E XT) as (K & owns & r & t1 & ms & (N1 & N2 & N3) & B & MS & CT & RT & KP & CH & WW & FO).
  pose proof (loud_sees (g_sky (x_sky y))) as (LS & LM & LC & _). set (sky := g_sky (x_sky y)) in *.
  assert (AB : as_built ns (name, c)) by (destruct HI as (_ & _ & _ & _ & _ & AB); rewrite Forall_forall in AB; auto).
  assert (NE : chs <> []) by apply HI. assert (NC : NoDup (map fst chs)) by apply HI.
  assert (LEN : length chs = length owns) by (eapply Forall2_len; eauto). destruct (combine_In_l chs owns _ LEN IC) as [o IO].
  destruct (one_of_them chs K owns B N1 N2 NC ms _ MS CT _ _ IO) as (m & EM & (W1 & W2 & W3 & W4 & W5) & SE & _).
  pose proof (In_combine_F2 _ _ _ B _ _ IO) as (NO & RO & LO' & P & _). pose proof (In_combine_F2 _ _ _ FO _ _ IO) as OW.
  assert (FS : exists fs, g_foreground (x_sky y) = Some fs). { destruct (g_foreground (x_sky y)); [eauto|]. unfold own, foreground_of in OW. discriminate. } destruct FS as [fs FS]. rewrite FS in OW.
  pose proof (no_max ns fs _ sky _ _ AB OW NM) as NK. rewrite NO in NK.
  assert (MX : maxima = filter (contains "Max") K).
  { unfold maxima. rewrite WW; auto. unfold K1, merged. rewrite !filter_app. cbn [filter contains]. change (filter (contains "Max") ["MaxSignal_inPixel"%string]) with ["MaxSignal_inPixel"%string]. cbn [filter not_total String.eqb]. change (not_total "MaxSignal_inPixel") with false. cbn iota. rewrite app_nil_r.
    assert (filter (fun k => negb (existsb (String.eqb k) ["MaxSignal_inPixel"%string])) K = K) as ->.
    { apply filter_all. intros k I. cbn [existsb]. destruct (String.eqb_spec k "MaxSignal_inPixel"); [subst; contradiction|reflexivity]. }
    apply filter_all. intros k I. apply filter_In in I as [I _]. unfold not_total. destruct (String.eqb_spec k "MaxSignal_inPixel"); [subst; contradiction|reflexivity]. }
  assert (OC : ordinary "chName") by (apply ordinary_end; try reflexivity; discriminate).
  assert (LOUD : forall k v0, loud sky k = true -> shows (cols T) name k v0 <-> select name k r = Ok v0). { intros k v0 L. rewrite RT, select_shows, shows_keep; tauto. }
  assert (SEL : forall k, ordinary k -> select name k r = select name k (with_max o m)). { intros k O. transitivity (select name k (cols t1)); [unfold select; rewrite !KP; auto|exact (SE k)]. }
  assert (CO : forall k, In k (K1 K) -> select name k (with_max o m) = Ok (col_of k (with_max o m))).
  { intros k I. assert (CN1 : In "chName"%string (K1 K)) by (apply K1_In; auto). assert (NR1 : n_rows (with_max o m) = bins_of (name, c)) by now apply (nonempty_rows (K1 K)).
    assert (ND1 : NoDup (K1 K)) by (apply NoDup_merged; auto; repeat constructor; intros []).
    apply (select_alone name (with_max o m)); [split; [split; [rewrite W1; exact ND1|rewrite NR1; exact W2]|lia]|unfold labelled; rewrite NR1; exact W3|rewrite W1; exact I]. }
  apply LOUD; [destruct sky; reflexivity|]. rewrite SEL by (apply ordinary_end; try reflexivity; discriminate). rewrite CO by (apply K1_In; auto). f_equal. unfold col_of, with_max. rewrite override_get. change (sget "MaxSignal_inPixel" [("MaxSignal_inPixel"%string, m)]) with (Some m). cbv iota beta.
  unfold mx in EM. assert (NR : n_rows o = n) by now apply (nonempty_rows K). rewrite NR in EM.
  assert (repeat (Num (Fin 0)) n = numbers n (fun _ => 0%R)) as Z by (unfold numbers; generalize 0%nat; clear; induction n as [|n IH]; intros j; cbn; f_equal; auto).
  rewrite Z in EM. rewrite (map_ext_in _ (fun k => numbers n (w k))) in EM.
  - rewrite add_numbers in EM. injection EM as <-. rewrite MX. unfold numbers. apply map_ext. intros i. do 2 f_equal. ring.
  - intros k I. pose proof I as I'. rewrite <- MX in I'. apply filter_In in I as [IK IM]. specialize (SH k I'). apply LOUD in SH; auto. rewrite SEL in SH by auto. rewrite CO in SH by (apply K1_In; auto). injection SH as SH. rewrite <- SH.
    unfold col_of, with_max. rewrite override_get. cbn [dget]. destruct (String.eqb_spec k "MaxSignal_inPixel"); [subst; contradiction|reflexivity].
Qed.
Print Assumptions C86_brightest_pixel.

(** ** C87: an observation succeeds whenever its parts do *)
(** Finite numbers, none negative *)
Definition amounts (col : list cell) : Prop := forall v, In v col -> exists r, v = Num (Fin r) /\ (0 <= r)%R.
(** What the noise estimate needs of a channel and of the light propagated through it *)
Definition usable (c : chan) (d : sdict (list R)) (o : star_table) : Prop :=
  (exists det, describes (h_noise c) det /\ physical det) /\
  (forall k col, sget k (cols (h_table c)) = Some col -> contains "signal" k = true \/ contains "Max" k = true \/ k = "Wavelength"%string \/ k = "WindowSize"%string -> amounts col) /\
  (forall k v, sget k d = Some v -> forall a, In a v -> (0 <= a)%R) /\
  (forall a, In a (o_aperture o ++ o_max o) -> (0 <= a)%R) /\
  match fixed_frame_time (h_noise c) with Some ft => exists r, ft = Fin r /\ (0 < r)%R | None => exists a, In a (o_max o) /\ (0 < a)%R end.
Definition value_at (o : table) (k : string) (i : nat) : R := match nth_error (col_of k o) i with Some (Num (Fin r)) => r | _ => 0%R end.
Lemma amounts_numbers o k n col : sget k o = Some col -> length col = n -> amounts col -> col = P_Noise.row_numbers n (value_at o k) /\ forall i, (i < n)%nat -> (0 <= value_at o k i)%R.
Proof.
  intros G L A. split.
  - apply P_Noise.nth_ext'. intros i. unfold P_Noise.row_numbers, column. rewrite nth_error_map. destruct (le_lt_dec n i) as [I|I].
    + rewrite (proj2 (nth_error_None col i)) by lia. rewrite (proj2 (nth_error_None (seq 0 n) i)) by (rewrite seq_length; lia). reflexivity.
    + assert (nth_error (seq 0 n) i = Some i) as -> by (rewrite (nth_error_nth' _ 0%nat) by (rewrite seq_length; lia); f_equal; apply seq_nth; lia). cbn. unfold value_at, col_of. rewrite G.
      destruct (nth_error col i) as [v|] eqn:N; [|apply nth_error_None in N; lia]. destruct (A v) as (r & -> & _); [eapply nth_error_In; eauto|]. reflexivity.
  - intros i I. unfold value_at, col_of. rewrite G. destruct (nth_error col i) as [v|] eqn:N; [|lra]. destruct (A v) as (r & -> & P); [eapply nth_error_In; eauto|]. exact P.
Qed.
Lemma sum_over_pos {A} (f : A -> R) l a : (forall b, In b l -> (0 <= f b)%R) -> In a l -> (0 < f a)%R -> (0 < sum_over f l)%R.
Proof.
  intros P I Q. induction l as [|b l IH]; [destruct I|]. destruct I as [-> |I]; cbn.
  - assert (Z : (0 <= sum_over f l)%R). { clear - P. assert (forall b, In b l -> (0 <= f b)%R) by (intros; apply P; now right). clear P. induction l; cbn; [lra|]. assert (0 <= f a0)%R by (apply H; now left). assert (0 <= sum_over f l)%R by (apply IHl; intros; apply H; now right). lra. }
    lra.
  - assert (0 <= f b)%R by (apply P; now left). assert (0 < sum_over f l)%R by (apply IH; auto; intros; apply P; now right). lra.
Qed.
Lemma own_noise ns fs sed sky a o : as_built ns a -> own (Some fs) sed sky a = Ok o -> NoDup (names o) -> rows_are (bins_of a) o -> sget "chName" o = Some (repeat (Txt (fst a)) (bins_of a)) ->
  ~ In "MaxSignal_inPixel"%string ns -> In "Wavelength"%string ns -> In "WindowSize"%string ns ->
  (forall d st t, propagate_diffuse_foreground (h_light (snd a)) (edges (snd a)) (Some fs) = Ok d -> propagate_star (snd a) None sed sky = Ok (st, t) -> usable (snd a) d st) ->
  exists r, estimate_noise {| cols := o; meta := [] |} (nchans [a]) = Ok r.
Proof.
  intros AB E ND RO CN NM WL WS US. pose proof (no_max _ _ _ _ _ _ AB E NM) as NMO. destruct (own_get ns fs sed sky a o AB E) as (d & st & t & Hd & Hs & G). destruct (US d st t Hd Hs) as ((det & D & PH) & UC & UF & UO & FT).
  destruct a as [name c]. cbn [fst snd] in *. set (n := bins_of (name, c)) in *.
  assert (NP : (0 < n)%nat) by apply AB. assert (CH : ch_name (h_noise c) = name) by apply AB. assert (NS : names (cols (h_table c)) = ns) by apply AB.
  assert (AMT : forall k col, sget k o = Some col -> contains "signal" k = true \/ contains "Max" k = true \/ k = "Wavelength"%string \/ k = "WindowSize"%string -> amounts col).
  { intros k col GK W. rewrite G in GK. destruct (loud sky k && smem k (star_columns st)) eqn:X.
    - apply andb_true_iff in X as [_ X]. apply smem_names, star_keys in X. cbn in X.
      assert (OK : forall l, (forall a, In a l -> In a (o_aperture st ++ o_max st)) -> amounts (map num l)). { intros l IL v I. apply in_map_iff in I as (r & <- & I). exists r. split; auto. }
      destruct X as [<-|[<-|[<-|[<-|[<-|[]]]]]]; try (exfalso; destruct W as [W|[W|[W|W]]]; discriminate W).
      + assert (col = map num (o_aperture st)) as -> by (unfold star_columns in GK; destruct (o_sky st); cbn in GK; congruence). apply OK. intros; apply in_app_iff; auto.
      + assert (col = map num (o_max st)) as -> by (unfold star_columns in GK; destruct (o_sky st); cbn in GK; congruence). apply OK. intros; apply in_app_iff; auto.
    - destruct (sget k d) as [u|] eqn:X2; [injection GK as <-; intros v I; apply in_map_iff in I as (r & <- & I); exists r; split; eauto|]. eauto. }
  assert (GIN : forall k, In k (names o) -> exists col, sget k o = Some col /\ length col = n). { intros k I. apply sget_names in I as [col I]. exists col. split; auto. eapply RO. apply sget_In; eauto. }
  assert (STAR : sget "star_MaxSignal_inPixel" o = Some (map num (o_max st)) /\ In "star_signal_inAperture"%string (names o)).
  { split; [|apply sget_names]; rewrite G; unfold star_columns, dmem; destruct (o_sky st), sky; cbn; eauto. }
  destruct STAR as [SM SA]. assert (IM : In "star_MaxSignal_inPixel"%string (names o)) by (apply sget_names; eauto).
  assert (INB : forall k, In k ns -> In k (names o)). { intros k I. rewrite <- NS in I. apply sget_names in I as [v I]. apply sget_names. rewrite G, I. destruct (loud sky k && smem k (star_columns st)) eqn:X; [|destruct (sget k d); eauto]. apply andb_true_iff in X as [_ X]. apply smem_names in X. now apply sget_names in X. }
  set (ms := map (value_at o) (filter (contains "Max") (names o))).
  destruct (P_Noise.one_channel o (h_noise c) (h_common c) det n (value_at o) ms D PH NP) as (r & _ & _ & R & _).
  - rewrite CH. split; [auto|]. split; [auto|]. split; [exact CN|]. split; [now apply sget_None_names|]. split; [|split].
    + intros k I. assert (IK : In k (names o) /\ (contains "signal" k = true \/ contains "Max" k = true \/ k = "Wavelength"%string \/ k = "WindowSize"%string)).
      { apply in_app_iff in I as [I|I]; [|apply filter_In in I as [I1 I2]; auto]. cbn in I. destruct I as [<-|[<-|[<-|[]]]]; auto 10. }
      destruct IK as [IK W]. destruct (GIN k IK) as (col & G1 & L1). destruct (amounts_numbers o k n col G1 L1 (AMT k col G1 W)) as [-> X]. auto.
    + unfold ms. rewrite map_map. transitivity (map (fun k => col_of k o) (filter (contains "Max") (names o))); [now apply max_columns_of|]. apply map_ext_in. intros k I. apply filter_In in I as [I1 I2]. destruct (GIN k I1) as (col & G1 & L1). unfold col_of. rewrite G1.
      apply (amounts_numbers o k n col G1 L1 (AMT k col G1 ltac:(auto))).
    + intros m i I J. unfold ms in I. apply in_map_iff in I as (k & <- & I). apply filter_In in I as [I1 I2]. destruct (GIN k I1) as (col & G1 & L1). apply (amounts_numbers o k n col G1 L1 (AMT k col G1 ltac:(auto))); auto.
  - unfold P_Noise.frame_time_known. destruct (fixed_frame_time (h_noise c)); auto. destruct FT as (a & IA & PA). apply In_nth_error in IA as [i IA]. exists i.
    assert (LI : (i < n)%nat). { destruct (GIN _ IM) as (col & G1 & L1). rewrite SM in G1. injection G1 as <-. rewrite map_length in L1. rewrite <- L1. apply nth_error_Some. congruence. }
    split; auto. apply (sum_over_pos _ _ (value_at o "star_MaxSignal_inPixel")).
    + intros m I. unfold ms in I. apply in_map_iff in I as (k & <- & I). apply filter_In in I as [I1 I2]. destruct (GIN k I1) as (col & G1 & L1). apply (amounts_numbers o k n col G1 L1 (AMT k col G1 ltac:(auto))); auto.
    + unfold ms. apply in_map. apply filter_In. auto.
    + unfold value_at, col_of. rewrite SM, nth_error_map, IA. exact PA.
  - exists r. exact R.
Qed.
Theorem C87_an_observation_succeeds : forall ns chs h s x g fs st, instruments ns chs -> quiet ns -> ~ In "MaxSignal_inPixel"%string ns -> In "Wavelength"%string ns -> In "WindowSize"%string ns ->
  Forall (fun sx => columns_apart ns chs (fst sx) (snd sx)) h -> columns_apart ns chs s x ->
  foregrounds_of s (x_sky x) = Ok g -> g_foreground g = Some fs -> load s x = Ok st ->
  (forall name c, In (name, c) chs -> exists d o t, propagate_diffuse_foreground (h_light c) (edges c) (Some fs) = Ok d /\ propagate_star c None (st_sed st) (g_sky g) = Ok (o, t) /\ usable c d o) ->
  exists y, snd (observe_target s (after chs h) x) = Ok y.
Proof.
  intros ns chs h s x g fs st HI Q NM WL WS H AP FG GF LD US. apply apart_alright in AP. pose proof (observe_seen ns chs HI s _ x (after_ok ns chs h HI H) AP) as E1.
  assert (OK : exists z, pure s x chs = Ok z).
  { assert (AB : forall a, In a chs -> as_built ns a) by (destruct HI as (_ & _ & _ & _ & _ & AB); rewrite Forall_forall in AB; auto).
    assert (OO : exists owns, owns_of s x chs = Ok (g, st, owns)).
    { unfold owns_of. rewrite FG. cbn [bind]. rewrite GF.
      destruct (mapM_all (fun a => foreground_of (Some fs) (snd a)) chs) as [fos ->]. { intros [nm c] I. destruct (US nm c I) as (d & o & t & D & _). cbn [snd]. unfold foreground_of. rewrite D. cbn. eauto. }
      cbn [bind]. rewrite LD. cbn [bind]. destruct (mapM_all (fun a => own_star (snd a) (st_sed st) (g_sky g)) chs) as [sos ->]. { intros [nm c] I. destruct (US nm c I) as (d & o & t & _ & D & _). cbn [snd]. unfold own_star. rewrite D. cbn. eauto. }
      cbn [bind]. eauto. }
    destruct OO as [owns OO]. destruct (owns_ready ns chs HI g st owns s x OO (ex_intro _ _ (same_self _)) AP) as (K & (K1' & K2 & K3) & KE & B & FO).
    unfold pure. rewrite OO. cbn [bind fst snd]. rewrite KE. destruct (estimate_noise _ _) as [r|e] eqn:EN; cbn [bind]; [eauto|]. exfalso.
    assert (NE : chs <> []) by apply HI. assert (NC : NoDup (map fst chs)) by apply HI.
    destruct (blocks_err chs K owns B K1' K2 NC NE [] e EN) as (a & o & IO & EA). specialize (EA []). pose proof (In_combine_F2 _ _ _ B _ _ IO) as (NO & RO & CO & P & _). pose proof (In_combine_F2 _ _ _ FO _ _ IO) as OW. rewrite GF in OW.
    assert (IA : In a chs) by (eapply in_combine_l; eauto).
    destruct (own_noise ns fs (st_sed st) (g_sky g) a o (AB a IA) OW ltac:(now rewrite NO) RO CO NM WL WS) as [r R].
    - intros d o' t D O'. destruct a as [nm c]. destruct (US nm c IA) as (d2 & o2 & t2 & D2 & O2 & U). cbn [snd] in *. rewrite D2 in D. rewrite O2 in O'. injection D as <-. injection O' as <- <-. exact U.
    - congruence. }
  destruct OK as [z OK]. rewrite OK in E1. destruct (snd (observe_target s (after chs h) x)); [eauto|discriminate].
Qed.
Print Assumptions C87_an_observation_succeeds.
