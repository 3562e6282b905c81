(** Full contributions (C114). *)
From Coq Require Import Reals Lra Permutation.
From Verif Require Import Base Dict XR M_Signal M_Optics L_Optics M_Light M_Bins M_Star M_Source M_Foreground M_Table S_Table L_Table P_Table M_Observe S_Observe L_Observe L_Stages L_Outcome.
From Verif Require M_Noise P_Noise.
From Verif Require Import S_Noise L_Noise P_Observe P_Outcome M_Full S_Full L_Full.
From Verif Require Import M_Table M_Observe S_Observe.
Import M_Noise(estimate_noise, noise_in_channel, ch_name, ch_custom, fixed_frame_time).
Open Scope list_scope.

(** ** The rows of one channel *)
Lemma block_view ns chs h s x y T : instruments ns chs -> quiet ns -> ~ In "MaxSignal_inPixel"%string ns ->
  Forall (fun sx => columns_apart ns chs (fst sx) (snd sx)) h -> columns_apart ns chs s x -> snd (observe_target s (after chs h) x) = Ok y -> x_table y = Some T ->
  forall name c, In (name, c) chs -> exists fs st o, g_foreground (x_sky y) = Some fs /\ x_source y = Some st /\ own (Some fs) (st_sed st) (g_sky (x_sky y)) (name, c) = Ok o /\
    NoDup (names o) /\ rows_are (bins_of (name, c)) o /\ ~ In "MaxSignal_inPixel"%string (names o) /\
    (forall k v, ordinary k -> k <> "MaxSignal_inPixel"%string -> loud (g_sky (x_sky y)) k = true -> shows (cols T) name k v <-> sget k o = Some v) /\
    with_word "signal" (cols T) = filter (contains "signal") (names o) /\ filter not_total (with_word "Max" (cols T)) = filter (contains "Max") (names o).
Proof.
  intros HI Q NM H AP E XT name c IC.
  destruct (outcome ns chs h s x y T HI Q H AP E XT) as (K & owns & r & t1 & ms & (N1 & N2 & N3) & B & MS & CT & RT & KP & CH & WW & FO).
  destruct (observe_shape _ _ _ _ E) as (_ & _ & _ & _ & T0 & st & _ & XS & _ & _). rewrite XS in FO.
  pose proof (loud_sees (g_sky (x_sky y))) as (LS & LM & LC & _). set (sky := g_sky (x_sky y)) in *.
  assert (AB : as_built ns (name, c)) by (destruct HI as (_ & _ & _ & _ & _ & AB); rewrite Forall_forall in AB; auto).
  assert (NE : chs <> []) by apply HI. assert (NC : NoDup (map fst chs)) by apply HI.
  assert (LEN : length chs = length owns) by (eapply Forall2_len; eauto). destruct (combine_In_l chs owns _ LEN IC) as [o IO].
  destruct (one_of_them chs K owns B N1 N2 NC ms _ MS CT _ _ IO) as (m & EM & (W1 & W2 & W3 & W4 & W5) & SE & _).
  pose proof (In_combine_F2 _ _ _ B _ _ IO) as (NO & RO & LO' & P & _). pose proof (In_combine_F2 _ _ _ FO _ _ IO) as OW.
  assert (FS : exists fs, g_foreground (x_sky y) = Some fs). { destruct (g_foreground (x_sky y)); [eauto|]. unfold own, foreground_of in OW. discriminate. } destruct FS as [fs FS]. rewrite FS in OW.
  pose proof (no_max ns fs _ sky _ _ AB OW NM) as NK. pose proof NK as NK'. rewrite NO in NK'.
  exists fs, st, o. split; auto. split; auto. split; auto. split; [now rewrite NO|]. split; auto. split; auto. split; [|split].
  - assert (LOUD : forall k v0, loud sky k = true -> shows (cols T) name k v0 <-> select name k r = Ok v0). { intros k v0 L. rewrite RT, select_shows, shows_keep; tauto. }
    assert (OC : ordinary "chName") by (apply ordinary_end; try reflexivity; discriminate).
    assert (SEL : forall k, ordinary k -> select name k r = select name k (with_max o m)). { intros k O. transitivity (select name k (cols t1)); [unfold select; rewrite !KP; auto|exact (SE k)]. }
    assert (CN1 : In "chName"%string (K1 K)) by (apply K1_In; auto). assert (NR1 : n_rows (with_max o m) = bins_of (name, c)) by now apply (nonempty_rows (K1 K)).
    assert (ND1 : NoDup (K1 K)) by (apply NoDup_merged; auto; repeat constructor; intros []).
    intros k v O NT L. rewrite LOUD, SEL by auto.
    assert (GO : sget k (with_max o m) = sget k o). { unfold with_max. rewrite override_get. cbn [dget]. destruct (String.eqb_spec k "MaxSignal_inPixel"); [contradiction|reflexivity]. }
    destruct (sget k o) as [w|] eqn:G.
    + rewrite (select_alone name (with_max o m)).
      * unfold col_of. rewrite GO. split; intros [= ->]; auto.
      * split; [split; [rewrite W1; exact ND1|rewrite NR1; exact W2]|lia].
      * unfold labelled. rewrite NR1. exact W3.
      * apply sget_names. eauto.
    + unfold select. rewrite GO. split; discriminate.
  - rewrite WW; auto. unfold K1, merged. rewrite filter_app. cbn [filter]. change (contains "signal" "MaxSignal_inPixel") with false. cbn iota. rewrite app_nil_r, NO. f_equal.
    apply filter_all. intros k I. cbn [existsb]. destruct (String.eqb_spec k "MaxSignal_inPixel"); [subst; contradiction|reflexivity].
  - rewrite WW; auto. unfold K1, merged. rewrite !filter_app. change (filter (contains "Max") ["MaxSignal_inPixel"%string]) with ["MaxSignal_inPixel"%string]. cbn [filter]. change (not_total "MaxSignal_inPixel") with false. cbn iota. rewrite app_nil_r, NO.
    assert (filter (fun k => negb (existsb (String.eqb k) ["MaxSignal_inPixel"%string])) K = K) as ->.
    { apply filter_all. intros k I. cbn [existsb]. destruct (String.eqb_spec k "MaxSignal_inPixel"); [subst; contradiction|reflexivity]. }
    apply filter_all. intros k I. apply filter_In in I as [I _]. unfold not_total. destruct (String.eqb_spec k "MaxSignal_inPixel"); [subst; contradiction|reflexivity].
Qed.

Definition maxima (o : table) (i : nat) : R := sum_over (fun k => value_at o k i) (filter (contains "Max") (names o)).
Lemma amounts_in o name c ns fs sed sky : as_built ns (name, c) -> own (Some fs) sed sky (name, c) = Ok o ->
  (forall d st t, propagate_diffuse_foreground (h_light c) (edges c) (Some fs) = Ok d -> propagate_star c None sed sky = Ok (st, t) -> usable c d st) ->
  forall k col, sget k o = Some col -> contains "signal" k = true \/ contains "Max" k = true \/ k = "Wavelength"%string \/ k = "WindowSize"%string -> amounts col.
Proof.
  intros AB E US k col GK W. destruct (own_get ns fs sed sky (name, c) o AB E) as (d & st & t & Hd & Hs & G). destruct (US d st t Hd Hs) as (_ & UC & UF & UO & _). cbn [snd] in *.
  rewrite G in GK. destruct (loud sky k && smem k (star_columns st)) eqn:X.
  - apply andb_true_iff in X as [_ X]. apply smem_names, star_keys in X. cbn in X.
    assert (OK : forall l, (forall a, In a l -> In a (o_aperture st ++ o_max st)) -> amounts (map num l)). { intros l IL v I. apply in_map_iff in I as (r & <- & I). exists r. split; auto. }
    destruct X as [<-|[<-|[<-|[<-|[<-|[]]]]]]; try (exfalso; destruct W as [W|[W|[W|W]]]; discriminate W).
    + assert (col = map num (o_aperture st)) as -> by (unfold star_columns in GK; destruct (o_sky st); cbn in GK; congruence). apply OK. intros; apply in_app_iff; auto.
    + assert (col = map num (o_max st)) as -> by (unfold star_columns in GK; destruct (o_sky st); cbn in GK; congruence). apply OK. intros; apply in_app_iff; auto.
  - destruct (sget k d) as [u|] eqn:X2; [injection GK as <-; intros v I; apply in_map_iff in I as (r & <- & I); exists r; split; eauto|]. eauto.
Qed.
Definition level (o : table) (k : string) (i : nat) : R := if String.eqb k "MaxSignal_inPixel" then maxima o i else value_at o k i.
(** The noise of a channel, from its rows *)
Lemma noise_of_rows ns chs h s x y T : instruments ns chs -> quiet ns -> ~ In "MaxSignal_inPixel"%string ns -> In "Wavelength"%string ns -> In "WindowSize"%string ns ->
  Forall (fun sx => columns_apart ns chs (fst sx) (snd sx)) h -> columns_apart ns chs s x -> snd (observe_target s (after chs h) x) = Ok y -> x_table y = Some T ->
  forall name c, In (name, c) chs -> forall fs st o d, g_foreground (x_sky y) = Some fs -> x_source y = Some st -> own (Some fs) (st_sed st) (g_sky (x_sky y)) (name, c) = Ok o ->
    (forall d st' t, propagate_diffuse_foreground (h_light c) (edges c) (Some fs) = Ok d -> propagate_star c None (st_sed st) (g_sky (x_sky y)) = Ok (st', t) -> usable c d st') ->
    describes (h_noise c) d -> physical d -> Forall valid_entry (entries (h_common c)) -> Forall valid_entry (entries (ch_custom (h_noise c))) ->
    let n := bins_of (name, c) in
    shows (cols T) name "MaxSignal_inPixel" (numbers n (maxima o)) /\
    exists tf total, (0 < tf)%R /\
    match fixed_frame_time (h_noise c) with Some ft => ft = Fin tf | None => auto_frame_time (d_well d) (d_f d) n (maxima o) tf end /\
    shows (cols T) name "frameTime" (numbers n (fun _ => tf)) /\
    shows (cols T) name "total_noise" (map (fun i => Num (total i)) (seq 0 n)) /\
    (forall i, (i < n)%nat ->
      (value_at o "star_signal_inAperture"%string i = 0%R -> total i = NaN) /\
      (value_at o "star_signal_inAperture"%string i <> 0%R ->
         total i = Fin (sqrt (row_noise d (filter (contains "signal") (names o)) (value_at o) tf i ^ 2 + (ppm2 (in_effect (entries (h_common c))) + ppm2 (in_effect (entries (ch_custom (h_noise c)))))))%R)).
Proof.
  intros HI Q NM WL WS H AP E XT name c IC fs st o d FS XS OW US D PH V1 V2 n.
  destruct (block_view ns chs h s x y T HI Q NM H AP E XT name c IC) as (fs' & st' & o' & FS' & XS' & OW' & ND & RO & NMO & SH & SG & MX).
  rewrite FS in FS'. injection FS' as <-. rewrite XS in XS'. injection XS' as <-. rewrite OW in OW'. injection OW' as <-.
  assert (AB : as_built ns (name, c)) by (destruct HI as (_ & _ & _ & _ & _ & AB); rewrite Forall_forall in AB; auto).
  pose proof (loud_sees (g_sky (x_sky y))) as (LS & LM & LC & LW & LL & _).
  pose proof (amounts_in o name c ns fs (st_sed st) (g_sky (x_sky y)) AB OW US) as AMT.
  destruct (own_get ns fs (st_sed st) (g_sky (x_sky y)) (name, c) o AB OW) as (dd & so & t & Hd & Hs & G). cbn [snd] in *. destruct (US dd so t Hd Hs) as (_ & _ & _ & _ & FT).
  assert (NS : names (cols (h_table c)) = ns) by apply AB.
  assert (NU : forall k, In k (names o) -> ordinary k -> loud (g_sky (x_sky y)) k = true -> contains "signal" k = true \/ contains "Max" k = true \/ k = "Wavelength"%string \/ k = "WindowSize"%string ->
    shows (cols T) name k (numbers n (value_at o k)) /\ forall i, (i < n)%nat -> (0 <= value_at o k i)%R).
  { intros k I O L W. assert (NT : k <> "MaxSignal_inPixel"%string) by (intros ->; contradiction). apply sget_names in I as [col I].
    assert (LN : length col = n) by (eapply RO; apply sget_In; eauto). destruct (amounts_numbers o k n col I LN (AMT k col I W)) as [E1 E2]. split; auto. apply SH; auto. rewrite I. f_equal. rewrite E1 at 1. unfold P_Noise.row_numbers, column, numbers. rewrite ?map_map. reflexivity. }
  assert (INB : forall k, In k ns -> In k (names o)). { intros k I. rewrite <- NS in I. apply sget_names in I as [v I]. apply sget_names. rewrite G, I. destruct (loud _ k && smem k (star_columns so)) eqn:X; [|destruct (sget k dd); eauto]. apply andb_true_iff in X as [_ X]. apply smem_names in X. now apply sget_names in X. }
  assert (ORD : forall k, In k (names o) -> ordinary k).
  { intros k I. apply sget_names in I as [v I]. rewrite G in I. destruct (loud _ k && smem k (star_columns so)) eqn:X.
    - apply andb_true_iff in X as [_ X]. apply smem_names, star_keys in X. cbn in X. repeat (destruct X as [<-|X]; [apply ordinary_end; try reflexivity; discriminate|]). destruct X.
    - destruct (sget k dd) as [u|] eqn:X2; [|apply Q; rewrite <- NS; apply sget_names; eauto].
      apply (foreground_keys c fs dd _ _ (built_sized _ _ AB) Hd) in X2 as (f & _ & [-> | ->]); apply ordinary_suffix; auto. }
  assert (MAXS : shows (cols T) name "MaxSignal_inPixel" (numbers n (maxima o))).
  { pose proof (C86_brightest_pixel ns chs h s x y T name c (value_at o) HI Q NM H AP E XT IC) as BP. cbv zeta in BP. rewrite MX in BP. apply BP. intros k I. apply filter_In in I as [I1 I2]. apply NU; auto. }
  split; [exact MAXS|].
  assert (STAR : sget "star_MaxSignal_inPixel" o = Some (map num (o_max so)) /\ In "star_signal_inAperture"%string (names o)).
  { split; [|apply sget_names]; rewrite G; unfold star_columns, dmem; destruct (o_sky so), (g_sky (x_sky y)); cbn; eauto. }
  destruct STAR as [SM SA]. assert (IM : In "star_MaxSignal_inPixel"%string (names o)) by (apply sget_names; eauto).
  assert (MPOS : forall k i, In k (filter (contains "Max") (names o)) -> (i < n)%nat -> (0 <= value_at o k i)%R).
  { intros k i I L. apply filter_In in I as [I1 I2]. apply (NU k I1); auto. }
  assert (MP : forall i, (i < n)%nat -> (0 <= maxima o i)%R).
  { intros i L. unfold maxima. assert (F : forall k, In k (filter (contains "Max") (names o)) -> (0 <= value_at o k i)%R) by auto. revert F. generalize (filter (contains "Max") (names o)). clear. induction l as [|k l IH]; cbn; intros F; [lra|]. assert (0 <= value_at o k i)%R by (apply F; auto). assert (0 <= sum_over (fun k => value_at o k i) l)%R by (apply IH; auto). lra. }
  destruct (C86_noise_follows_from_the_table ns chs h s x y T name c d (level o) HI Q H AP E XT IC D PH V1 V2) as (tf & total & T0 & TF & S1 & S2 & TT & _).
  - intros k I. unfold level. apply in_app_iff in I as [I|I].
    + cbn in I. destruct I as [<-|[<-|[<-|[<-|[]]]]]; cbn [String.eqb].
      * change (String.eqb "MaxSignal_inPixel" "MaxSignal_inPixel") with true. cbv iota. auto.
      * change (String.eqb "WindowSize" "MaxSignal_inPixel") with false. cbv iota. apply NU; auto.
      * change (String.eqb "star_signal_inAperture" "MaxSignal_inPixel") with false. cbv iota. apply NU; auto.
      * change (String.eqb "Wavelength" "MaxSignal_inPixel") with false. cbv iota. apply NU; auto.
    + rewrite SG in I. apply filter_In in I as [I1 I2]. destruct (String.eqb_spec k "MaxSignal_inPixel"); [subst; contradiction|]. apply NU; auto.
  - unfold frame_time_defined. destruct (fixed_frame_time (h_noise c)); auto. destruct FT as (a & IA & PA). apply In_nth_error in IA as [i IA]. exists i.
    assert (LI : (i < n)%nat). { assert (LM' : length (map num (o_max so)) = n) by (eapply RO; apply sget_In; eauto). rewrite map_length in LM'. rewrite <- LM'. apply nth_error_Some. congruence. }
    split; auto. unfold level. change (String.eqb "MaxSignal_inPixel" "MaxSignal_inPixel") with true. cbv iota. unfold maxima. apply (sum_over_pos _ _ "star_MaxSignal_inPixel"%string).
    + intros k I. auto.
    + apply filter_In. auto.
    + unfold value_at, col_of. rewrite SM, nth_error_map, IA. exact PA.
  - exists tf, total. split; auto. split.
    { destruct (fixed_frame_time (h_noise c)); auto. }
    split; auto. split; auto. intros i I. destruct (TT i I) as [T1 T2]. split; [exact T1|]. intros NZ. rewrite T2 by exact NZ. rewrite SG.
    assert (RN : forall l, ~ In "MaxSignal_inPixel"%string l -> row_noise d l (level o) tf i = row_noise d l (value_at o) tf i).
    { intros l NL. unfold row_noise. f_equal. clear - NL. induction l as [|k l IH]; cbn; auto. rewrite IH by (intros J; apply NL; cbn; auto). f_equal. unfold level. destruct (String.eqb_spec k "MaxSignal_inPixel"); auto. subst. exfalso. apply NL. cbn; auto. }
    rewrite RN; auto. intros J. apply filter_In in J as [J _]. contradiction.
Qed.

(** ** The channels with all contributions *)
Definition without_total (ns : list string) : list string := filter (fun k => negb (String.eqb k "instrument_signal")) ns.
Definition element_keys (em : emission) : list string := map (fun e => (fst e ++ " signal")%string) (lights em).
Definition full_cols (em : string -> emission) (a : string * chan) : table := full_contrib (cols (h_table (snd a))) (signal_table (em (fst a))).
Definition part_of (em : string -> emission) (a : string * chan) : part :=
  {| p_val := fun k => if isin k (names (full_cols em a)) then col_of k (full_cols em a) else zeros (bins_of a);
     p_keys := names (full_cols em a); p_n := bins_of a |}.
Lemma append_inj (a b s : string) : (a ++ s)%string = (b ++ s)%string -> a = b.
Proof. intros E. apply str_chars_inj. apply (f_equal str_chars) in E. rewrite !str_chars_app in E. now apply app_inv_tail in E. Qed.
Lemma signal_get em k : sget k (signal_table em) = option_map reals (sget k (map (fun e => ((fst e ++ " signal")%string, snd e)) (lights em))).
Proof. unfold signal_table, lights. induction (by_element em) as [|[e [m v]] l IH]; cbn; auto. destruct (String.eqb k (e ++ " signal")); auto. Qed.
Lemma signal_names em : names (signal_table em) = element_keys em.
Proof. unfold signal_table, element_keys, lights, names. rewrite !map_map. reflexivity. Qed.
Lemma element_not_total em k : In k (element_keys em) -> k <> "instrument_signal"%string.
Proof. intros I. apply in_map_iff in I as (e & <- & _). apply suffix_not. reflexivity. Qed.
Lemma element_NoDup n em total : makes_up n (lights em) total -> NoDup (element_keys em).
Proof.
  intros (ND & _). unfold element_keys. revert ND. generalize (lights em). induction l as [|[e v] l IH]; cbn; intros ND; [constructor|]. inversion ND as [|? ? NI ND']; subst. constructor; auto.
  intros I. apply in_map_iff in I as ([e' v'] & E & I). cbn in E. apply append_inj in E. subst. apply NI. apply in_map_iff. exists (e, v'). auto.
Qed.
Lemma NoDup_two {A} (a b : list A) : NoDup a -> NoDup b -> (forall k, In k a -> In k b -> False) -> NoDup (a ++ b).
Proof.
  intros N M D. induction N as [|k a NI N IH]; cbn; auto. constructor; [|apply IH; intros j I; apply D; cbn; auto]. rewrite in_app_iff. intros [I|I]; [auto|]. apply (D k); cbn; auto.
Qed.

Section One.
  Variables (ns : list string) (em : string -> emission) (a : string * chan).
  Hypothesis ND : NoDup ns.
  Hypothesis AB : as_built ns a.
  Hypothesis IT : itemised ns em a.
  Lemma light_length e v : In (e, v) (lights (em (fst a))) -> length v = bins_of a /\ forall x, In x v -> (0 <= x)%R.
  Proof. clear ND AB. destruct a as [name c]. destruct IT as ((total & _ & (_ & _ & LE & _)) & _). apply LE. Qed.
  Lemma full_cols_spec : full_cols em a = keep (fun k => negb (String.eqb k "instrument_signal")) (cols (h_table (snd a))) ++ signal_table (em (fst a)).
  Proof.
    pose proof light_length as LE. destruct a as [name c]. cbn [fst snd] in *. destruct AB as (_ & NS & LN & _). unfold full_cols, full_contrib. cbn [fst snd].
    rewrite (hstack_same _ _ (length (c_bins (h_star c)))).
    - rewrite filter_app. f_equal. apply (keep_all (fun k => negb (String.eqb k "instrument_signal"))). intros k I. rewrite signal_names in I. apply element_not_total in I. apply negb_true_iff. now apply String.eqb_neq.
    - intros k col I. apply in_app_iff in I as [I|I]; [eauto|]. unfold signal_table in I. apply in_map_iff in I as ([e [m v]] & E & I). cbn in E. injection E as <- <-. rewrite map_length. apply (LE e v). unfold lights. apply in_map_iff. exists (e, (m, v)). auto.
  Qed.
  Lemma full_names : names (full_cols em a) = without_total ns ++ element_keys (em (fst a)).
  Proof.
    rewrite full_cols_spec. unfold names at 1. rewrite map_app. change (map fst ?t) with (names t). rewrite names_keep, signal_names. unfold without_total.
    destruct a as [name c]. destruct AB as (_ & NS & _). cbn [snd fst] in *. now rewrite NS.
  Qed.
  Lemma element_foreign k : In k (element_keys (em (fst a))) -> ~ In k ns /\ contains "Max" k = false.
  Proof. clear ND AB. intros I. apply in_map_iff in I as ([e v] & <- & I). destruct a as [name c]. destruct IT as (_ & H). apply (H e v I). Qed.
  Lemma without_In k : In k (without_total ns) <-> In k ns /\ k <> "instrument_signal"%string.
  Proof. unfold without_total. rewrite filter_In, negb_true_iff, String.eqb_neq. tauto. Qed.
  Lemma full_NoDup : NoDup (names (full_cols em a)).
  Proof.
    rewrite full_names. apply NoDup_two; [now apply NoDup_filter| |].
    - destruct a as [name c]. destruct IT as ((total & _ & MU) & _). eapply element_NoDup, MU.
    - intros k I J. apply without_In in I as [I _]. apply element_foreign in J as [J _]. auto.
  Qed.
  Lemma full_get k : sget k (full_cols em a) = if isin k (without_total ns) then sget k (cols (h_table (snd a))) else option_map reals (sget k (map (fun e => ((fst e ++ " signal")%string, snd e)) (lights (em (fst a))))).
  Proof.
    rewrite full_cols_spec, sget_app, keep_get, signal_get. destruct a as [name c]. cbn [fst snd] in *. destruct AB as (_ & NS & _).
    destruct (isin k (without_total ns)) eqn:I.
    - apply isin_In, without_In in I as [I J]. apply String.eqb_neq in J. rewrite J. cbn [negb]. rewrite <- NS in I. apply sget_names in I as [v ->]. reflexivity.
    - apply isin_notIn in I. destruct (String.eqb_spec k "instrument_signal") as [->|N]; cbn [negb]; auto. assert (NI : ~ In k ns) by (intros J; apply I; apply without_In; auto).
      rewrite <- NS in NI. apply sget_None_names in NI. now rewrite NI.
  Qed.
  Lemma full_length k v : sget k (full_cols em a) = Some v -> length v = bins_of a.
  Proof.
    rewrite full_get. destruct (isin k (without_total ns)).
    - intros G. destruct a as [name c]. destruct AB as (_ & _ & LN & _). apply sget_In in G. eapply LN; eauto.
    - destruct (sget k (map _ _)) as [l|] eqn:G; cbn; [|discriminate]. intros [= <-]. unfold reals. rewrite map_length. apply (dget_Some_In _ String_eqb_spec), in_map_iff in G as ([e u] & E & I). cbn in E. injection E as _ <-. now apply (light_length e u).
  Qed.
  Lemma part_all k : (if isin k (without_total ns) then p_val (part_of em a) k = col_of k (cols (h_table (snd a)))
    else forall v, In v (p_val (part_of em a) k) -> exists r, v = Num (Fin r) /\ (0 <= r)%R) /\ length (p_val (part_of em a) k) = bins_of a.
  Proof.
    cbn [part_of p_val]. split.
    - destruct (isin k (without_total ns)) eqn:I.
      + assert (J : isin k (names (full_cols em a)) = true) by (apply isin_In; rewrite full_names; apply in_app_iff; left; now apply isin_In). rewrite J. unfold col_of. now rewrite full_get, I.
      + destruct (isin k (names (full_cols em a))).
        * unfold col_of. rewrite full_get, I. destruct (sget k (map _ _)) as [l|] eqn:G; cbn; [|tauto]. apply (dget_Some_In _ String_eqb_spec), in_map_iff in G as ([e u] & E & J). cbn in E. injection E as _ <-. intros v V. unfold reals in V. apply in_map_iff in V as (r & <- & V). exists r. split; auto. now apply (light_length e u).
        * intros v V. apply repeat_spec in V as ->. exists 0%R. split; auto. lra.
    - destruct (isin k (names (full_cols em a))) eqn:I; [|apply repeat_length]. apply isin_In, sget_names in I as [v I]. unfold col_of. rewrite I. eapply full_length; eauto.
  Qed.
  Lemma part_table_of : part_table (part_of em a) = full_cols em a.
  Proof.
    unfold part_table. cbn [part_of p_val p_keys]. symmetry. apply table_ext; [apply full_NoDup|]. intros k I. pose proof I as J. apply isin_In in J. rewrite J. apply sget_names in I as [v I]. unfold col_of. now rewrite I.
  Qed.
  Lemma part_well K : (forall k, In k (names (full_cols em a)) -> In k K) -> In "chName"%string ns -> well K (fun k => isin k (without_total ns)) (part_of em a).
  Proof.
    intros S CN. assert (NP : (0 < bins_of a)%nat) by (destruct a as [name c]; apply AB). split; [apply full_NoDup|]. split; [|split; [exact NP|split; [exact S|]]].
    - cbn [part_of p_keys]. rewrite full_names. intros E. assert (In "chName"%string (without_total ns)) by (apply without_In; split; [auto|discriminate]). destruct (without_total ns); [contradiction|discriminate].
    - intros k I. destruct (part_all k) as [PA PL]. split; auto. split.
      + cbn [part_of p_keys p_val p_n]. intros N. apply isin_notIn in N. now rewrite N.
      + destruct (isin k (without_total ns)) eqn:J.
        * cbn [part_of p_keys]. rewrite full_names. apply in_app_iff. left. now apply isin_In.
        * split; [|intros v V; destruct (PA v V) as (r & -> & _); eauto]. intros E. rewrite E in PL. cbn in PL. lia.
  Qed.
End One.

Section All.
  Variables (ns : list string) (em : string -> emission) (chs : list (string * chan)).
  Hypothesis HI : instruments ns chs.
  Hypothesis IT : Forall (itemised ns em) chs.
  Definition all_keys : list string := firsts String.eqb (concat (map (fun a => names (full_cols em a)) chs)).
  Notation parts := (map (part_of em) chs).
  (** the same channels, each with the columns of all *)
  Definition unified : list (string * chan) := laid chs (complete all_keys parts).
  Definition unify (a : string * chan) : string * chan := put_part a (with_keys (part_of em a) all_keys).

  Lemma built_of a : In a chs -> as_built ns a.
  Proof. intros I. destruct HI as (_ & _ & _ & _ & _ & AB). rewrite Forall_forall in AB. auto. Qed.
  Lemma item_of a : In a chs -> itemised ns em a.
  Proof. intros I. rewrite Forall_forall in IT. auto. Qed.
  Lemma nodup_ns : NoDup ns. Proof. apply HI. Qed.
  Lemma named_ns : In "chName"%string ns.
  Proof.
    destruct chs as [|a l] eqn:E; [destruct HI; congruence|]. assert (I : In a chs) by (rewrite E; cbn; auto). rewrite <- E in *. pose proof (built_of a I) as B. destruct a as [name c]. destruct B as (_ & NS & _ & CN & _). rewrite <- NS. apply sget_names. eauto.
  Qed.
  Lemma all_In k : In k all_keys <-> In k (without_total ns) \/ exists a, In a chs /\ In k (element_keys (em (fst a))).
  Proof.
    unfold all_keys. split.
    - intros I. apply (proj1 (firsts_In _ _)) in I. apply in_concat in I as (l & J & I). apply in_map_iff in J as (a & <- & J). rewrite (full_names ns) in I by (auto using built_of, item_of). apply in_app_iff in I as [I|I]; eauto.
    - intros I. apply (proj2 (firsts_In _ _)). apply in_concat. destruct I as [I|(a & J & I)].
      + destruct chs as [|a l] eqn:E; [destruct HI; congruence|]. rewrite <- E in *. assert (J : In a chs) by (rewrite E; cbn; auto). exists (names (full_cols em a)). split; [apply in_map_iff; eauto|]. rewrite (full_names ns) by (auto using built_of, item_of). apply in_app_iff. auto.
      + exists (names (full_cols em a)). split; [apply in_map_iff; eauto|]. rewrite (full_names ns) by (auto using built_of, item_of). apply in_app_iff. auto.
  Qed.
  Lemma all_NoDup : NoDup all_keys. Proof. apply firsts_NoDup. Qed.
  Lemma all_nonempty : all_keys <> [].
  Proof. intros E. assert (I : In "chName"%string all_keys) by (apply all_In; left; apply without_In; split; [apply named_ns|discriminate]). rewrite E in I. destruct I. Qed.
  Lemma parts_well : Forall (well all_keys (fun k => isin k (without_total ns))) parts.
  Proof.
    rewrite Forall_map. apply Forall_forall. intros a I. apply part_well; auto using built_of, item_of, nodup_ns, named_ns. intros k J. unfold all_keys. apply (proj2 (firsts_In _ _)). apply in_concat. eexists. split; [apply in_map_iff; exists a; eauto|auto].
  Qed.
  Lemma full_laid : full_channels (fun n => signal_table (em n)) chs = laid chs parts.
  Proof.
    unfold full_channels, laid. pose proof built_of as B. pose proof item_of as I. pose proof nodup_ns as N. clear HI IT. induction chs as [|a l IH]; auto. cbn [map combine]. f_equal; [|apply IH; intros; [apply B|apply I]; cbn; auto].
    unfold put_part. cbn [fst snd]. rewrite (part_table_of ns); cbn; auto. apply B; cbn; auto. apply I; cbn; auto.
  Qed.
  Lemma unified_map : unified = map unify chs.
  Proof. unfold unified, laid, unify. generalize all_keys. clear. intros K. unfold complete. induction chs as [|a l IH]; auto. cbn [map combine]. f_equal; auto. Qed.
  Lemma unify_get a k : sget k (cols (h_table (snd (unify a)))) = if isin k all_keys then Some (p_val (part_of em a) k) else None.
  Proof. cbn. apply get_restr. Qed.
  Lemma unified_instruments : instruments all_keys unified.
  Proof.
    split; [|split; [|split; [|split; [|split]]]].
    - rewrite unified_map. destruct HI as (NE & _). destruct chs; [congruence|discriminate].
    - rewrite unified_map, map_map. cbn. change (fun x => fst x) with (@fst string chan). apply HI.
    - apply all_NoDup.
    - intros I. apply all_In in I as [I|(a & _ & I)]; [apply without_In in I as [I _]; now apply HI in I|]. apply in_map_iff in I as (e & E & _). revert E. apply suffix_not. reflexivity.
    - intros I. apply all_In in I as [I|(a & _ & I)]; [apply without_In in I as [I _]; now apply HI in I|]. apply in_map_iff in I as (e & E & _). revert E. apply suffix_not. reflexivity.
    - rewrite unified_map, Forall_map. apply Forall_forall. intros a I. pose proof (built_of a I) as B. pose proof (fun k => part_all ns em a B (item_of a I) k) as PA.
      assert (CN : sget "chName" (cols (h_table (snd (unify a)))) = sget "chName" (cols (h_table (snd a)))).
      { rewrite unify_get. assert (J : In "chName"%string (without_total ns)) by (apply without_In; split; [apply named_ns|discriminate]). assert (J' : isin "chName" all_keys = true) by (apply isin_In, all_In; auto). rewrite J'. destruct (PA "chName"%string) as [PA' _]. apply isin_In in J. rewrite J in PA'. rewrite PA'.
        destruct a as [name c]. destruct B as (_ & _ & _ & CN & _). cbn [snd]. unfold col_of. now rewrite CN. }
      destruct a as [name c]. cbn [snd fst] in *. destruct B as (B1 & B2 & B3 & B4 & B5). unfold unify, put_part in CN |- *. cbn [fst snd] in CN |- *. split; [exact B1|]. split; [apply names_restr|]. split; [|split; [|exact B5]].
      + cbn. intros k col J. unfold part_table, restr in J. apply in_map_iff in J as (k' & E & J). injection E as <- <-. apply PA.
      + rewrite CN. exact B4.
  Qed.
  Lemma unified_quiet : quiet ns -> quiet all_keys.
  Proof.
    intros Q k I. apply all_In in I as [I|(a & _ & I)]; [apply without_In in I as [I _]; auto|]. apply in_map_iff in I as (e & <- & _). split; [apply suffix_not; reflexivity|split; [apply suffix_not; reflexivity|]].
    intros m E. apply (f_equal (fun s => rev (str_chars s))) in E. rewrite !str_chars_app, !rev_app_distr in E. discriminate.
  Qed.
  Lemma foreign_all fs : foreign ns fs -> foreign all_keys fs.
  Proof.
    intros F fs' E k I. destruct (F fs' E k I) as [F1 F2]. assert (EL : forall suf, (suf = "_signal" \/ suf = "_MaxSignal_inPixel")%string -> forall e : string, (e ++ " signal")%string <> (k ++ suf)%string).
    { intros suf S e X. apply (f_equal (fun s => rev (str_chars s))) in X. rewrite !str_chars_app, !rev_app_distr in X. destruct S as [-> | ->]; discriminate. }
    split; intros J; apply all_In in J as [J|(a & _ & J)]; try (apply without_In in J as [J _]; contradiction); apply in_map_iff in J as (e & X & _); revert X; apply EL; auto.
  Qed.
  Lemma alone_unified : length chs = 1%nat -> laid chs parts = unified.
  Proof.
    intros L. unfold unified. f_equal. destruct chs as [|a [|]] eqn:E; cbn in L; try lia. rewrite <- E in *. unfold complete. rewrite map_map. apply map_ext_in. intros b J. rewrite E in J. destruct J as [<-|[]].
    unfold all_keys, with_keys. rewrite E. cbn [map concat]. rewrite app_nil_r, firsts_NoDup_id; [reflexivity|]. apply (full_NoDup ns); auto using nodup_ns; [apply built_of|apply item_of]; rewrite E; cbn; auto.
  Qed.
  Lemma observe_unified h s x : Forall (plain_sky ns) h ->
    exists h', Forall (fun sx => columns_apart all_keys unified (fst sx) (snd sx)) h' /\
      snd (observe_target s (after (full_channels (fun n => signal_table (em n)) chs) h) x) = snd (observe_target s (after unified h') x).
  Proof.
    intros H. rewrite full_laid. destruct (Nat.eq_dec (length chs) 1) as [L|L].
    - exists h. split; [|now rewrite alone_unified]. eapply Forall_impl; [|exact H]. intros [s' x'] P _ g G. destruct (P g G) as [_ F]. now apply foreign_all.
    - exists []. split; auto. cbn [after]. apply (observe_complete all_keys (fun k => isin k (without_total ns))).
      + pose proof unified_instruments as U. apply U.
      + apply all_NoDup.
      + apply all_nonempty.
      + apply parts_well.
      + now rewrite map_length.
      + destruct HI as (NE & _). destruct chs as [|a [|b l]]; [congruence|cbn in L; lia|cbn; lia].
      + rewrite map_map. reflexivity.
      + eapply Forall_impl; [|exact H]. intros sx P g G. apply (P g G).
  Qed.
End All.

(** ** The same rows *)
Section Rows.
  Variables (ns : list string) (em : string -> emission) (chs : list (string * chan)).
  Hypothesis HI : instruments ns chs.
  Hypothesis IT : Forall (itemised ns em) chs.
  Hypothesis TOT : In "instrument_signal"%string ns.
  Variables (fs : sdict foreground) (sed : sig) (sky : option sig) (name : string) (c : chan) (o o' : table).
  Hypothesis IC : In (name, c) chs.
  Hypothesis FN : foreign ns (Some fs).
  Hypothesis OW : own (Some fs) sed sky (name, c) = Ok o.
  Hypothesis OW' : own (Some fs) sed sky (unify em chs (name, c)) = Ok o'.
  Hypothesis ND : NoDup (names o).
  Hypothesis ND' : NoDup (names o').
  Notation K := (all_keys em chs).

  Lemma rows_get : exists outer : string -> option (list cell),
    (forall k, sget k o = match outer k with Some v => Some v | None => sget k (cols (h_table c)) end) /\
    (forall k, sget k o' = match outer k with Some v => Some v | None => if isin k K then Some (p_val (part_of em (name, c)) k) else None end) /\
    outer "instrument_signal"%string = None /\ forall k, (exists a, In a chs /\ In k (element_keys (em (fst a)))) -> outer k = None.
  Proof.
    pose proof (built_of ns chs HI _ IC) as B. assert (B' : as_built K (unify em chs (name, c))).
    { pose proof (unified_instruments ns em chs HI IT) as (_ & _ & _ & _ & _ & A). rewrite Forall_forall in A. apply A. rewrite unified_map. now apply in_map. }
    destruct (own_get ns fs sed sky _ o B OW) as (d & st & t & Hd & Hs & G). destruct (own_get K fs sed sky _ o' B' OW') as (d' & st' & t' & Hd' & Hs' & G').
    change (h_light (snd (unify em chs (name, c)))) with (h_light c) in Hd'. change (edges (snd (unify em chs (name, c)))) with (edges c) in Hd'. cbn [snd] in Hd. rewrite Hd in Hd'. injection Hd' as <-.
    change (propagate_star (snd (unify em chs (name, c))) None sed sky) with (propagate_star c None sed sky) in Hs'. cbn [snd] in Hs. rewrite Hs in Hs'. injection Hs' as <- <-.
    exists (fun k => if loud sky k && smem k (star_columns st) then sget k (star_columns st) else option_map (map num) (sget k d)).
    assert (NO : forall k, ~ In k ["foreground_transmission"; "starFlux"; "starSignal"; "star_signal_inAperture"; "star_MaxSignal_inPixel"]%string ->
      (forall f, In f (map fst fs) -> k <> (f ++ "_signal")%string /\ k <> (f ++ "_MaxSignal_inPixel")%string) -> (if loud sky k && smem k (star_columns st) then sget k (star_columns st) else option_map (map num) (sget k d)) = None).
    { intros k N1 N2. assert (smem k (star_columns st) = false) as ->. { destruct (smem k (star_columns st)) eqn:M; auto. apply smem_names, star_keys in M. contradiction. }
      rewrite andb_false_r. destruct (sget k d) as [v|] eqn:GD; auto. apply (foreground_keys c fs d k v (built_sized _ _ B) Hd) in GD as (f & If & [E|E]); destruct (N2 f If); contradiction. }
    split; [|split; [|split]].
    - intros k. rewrite G. destruct (loud sky k && smem k (star_columns st)) eqn:L.
      + apply andb_true_iff in L as [_ L]. apply smem_names, sget_names in L as [v L]. now rewrite L.
      + destruct (sget k d); reflexivity.
    - intros k. rewrite G'. destruct (loud sky k && smem k (star_columns st)) eqn:L.
      + apply andb_true_iff in L as [_ L]. apply smem_names, sget_names in L as [v L]. now rewrite L.
      + destruct (sget k d); [reflexivity|]. apply unify_get.
    - apply NO; [cbn; intuition discriminate|]. intros f If. destruct (FN fs eq_refl f If) as [F1 F2]. split; intros E; [apply F1|apply F2]; rewrite <- E; exact TOT.
    - intros k (a & _ & I). apply in_map_iff in I as (e & <- & _). apply NO.
      + cbn. intros [E|[E|[E|[E|[E|[]]]]]]; symmetry in E; revert E; apply suffix_not; reflexivity.
      + intros f _. split; intros X; apply (f_equal (fun s => rev (str_chars s))) in X; rewrite !str_chars_app, !rev_app_distr in X; discriminate.
  Qed.
  Lemma rows_other k : k <> "instrument_signal"%string -> ~ (exists a, In a chs /\ In k (element_keys (em (fst a)))) -> sget k o' = sget k o.
  Proof.
    intros N E. destruct rows_get as (outer & G & G' & _). rewrite G, G'. destruct (outer k); auto. pose proof (built_of ns chs HI _ IC) as B. pose proof (item_of ns em chs IT _ IC) as I.
    destruct (isin k K) eqn:J.
    - apply isin_In, (all_In ns em chs HI IT) in J as [J|J]; [|contradiction]. destruct (part_all ns em (name, c) B I k) as [PA _]. apply isin_In in J. pose proof J as J'. rewrite J' in PA. rewrite PA. cbn [snd]. apply isin_In, without_In in J as [J _].
      destruct B as (_ & NS & _). rewrite <- NS in J. apply sget_names in J as [v J]. unfold col_of. now rewrite J.
    - apply isin_notIn in J. symmetry. apply sget_None_names. destruct B as (_ & NS & _). rewrite NS. intros X. apply J. apply (all_In ns em chs HI IT). left. apply without_In. auto.
  Qed.
  Lemma rows_total : sget "instrument_signal" o' = None /\ sget "instrument_signal" o = sget "instrument_signal" (cols (h_table c)).
  Proof.
    destruct rows_get as (outer & G & G' & O & _). rewrite G, G', O. split; auto. destruct (isin "instrument_signal" K) eqn:J; auto. apply isin_In, (all_In ns em chs HI IT) in J as [J|(a & _ & J)]; [apply without_In in J as [_ J]; congruence|]. now apply element_not_total in J.
  Qed.
  Lemma rows_element k : (exists a, In a chs /\ In k (element_keys (em (fst a)))) -> sget k o = None /\ sget k o' = Some (p_val (part_of em (name, c)) k) /\
    (In k (element_keys (em name)) -> sget k o' = option_map reals (sget k (map (fun e => ((fst e ++ " signal")%string, snd e)) (lights (em name))))) /\
    (~ In k (element_keys (em name)) -> sget k o' = Some (zeros (bins_of (name, c)))).
  Proof.
    intros E. pose proof (built_of ns chs HI _ IC) as B. pose proof (item_of ns em chs IT _ IC) as I. destruct rows_get as (outer & G & G' & _ & O). rewrite G, G', O by auto.
    assert (NI : ~ In k ns). { destruct E as (a & IA & E). now apply (element_foreign ns em a (item_of ns em chs IT _ IA)) in E as [E _]. }
    assert (J : isin k K = true) by (apply isin_In, (all_In ns em chs HI IT); auto). rewrite J. split.
    { destruct B as (_ & NS & _). apply sget_None_names. now rewrite NS. }
    split; auto. assert (W : isin k (without_total ns) = false) by (apply isin_notIn; rewrite without_In; tauto). cbn [part_of p_val]. split; intros M.
    - assert (isin k (names (full_cols em (name, c))) = true) as X by (apply isin_In; rewrite (full_names ns) by auto; apply in_app_iff; auto). rewrite X.
      unfold col_of. pose proof (full_get ns em (name, c) B I k) as FG. rewrite W in FG. cbn [fst] in FG. rewrite <- FG. apply isin_In, sget_names in X as [v X]. now rewrite X.
    - assert (isin k (names (full_cols em (name, c))) = false) as ->; auto. apply isin_notIn. rewrite (full_names ns) by auto. rewrite in_app_iff, without_In. tauto.
  Qed.
  Definition extra : list string := filter (fun k => negb (isin k ns)) K.
  Lemma extra_In k : In k extra <-> exists a, In a chs /\ In k (element_keys (em (fst a))).
  Proof.
    unfold extra. rewrite filter_In, negb_true_iff, isin_notIn, (all_In ns em chs HI IT). split.
    - intros [[I|I] N]; auto. apply without_In in I as [I _]. contradiction.
    - intros I. split; auto. destruct I as (a & IA & I). now apply (element_foreign ns em a (item_of ns em chs IT _ IA)) in I.
  Qed.
  Lemma rows_names : Permutation (names o') (filter (fun k => negb (String.eqb k "instrument_signal")) (names o) ++ extra).
  Proof.
    apply NoDup_Permutation; auto.
    - apply NoDup_two; [now apply NoDup_filter|apply NoDup_filter, all_NoDup|]. intros k I J. apply filter_In in I as [I _]. apply extra_In, rows_element in J as (J & _). apply sget_None_names in J. contradiction.
    - intros k. rewrite in_app_iff, filter_In, negb_true_iff, String.eqb_neq, extra_In, !(sget_names k). split.
      + intros [v G]. destruct (String.eqb_spec k "instrument_signal") as [->|N]; [rewrite (proj1 rows_total) in G; discriminate|].
        destruct (in_dec string_dec k extra) as [X|X]; [right; now apply extra_In|left]. rewrite rows_other in G by (auto; rewrite <- extra_In; auto). eauto.
      + intros [[(v & G) N]|X].
        * destruct (in_dec string_dec k extra) as [X|X]; [apply extra_In, rows_element in X as (_ & X & _); eauto|]. rewrite rows_other by (auto; rewrite <- extra_In; auto). eauto.
        * apply rows_element in X as (_ & X & _). eauto.
  Qed.
  Lemma filter_perm {A} (p : A -> bool) l l' : Permutation l l' -> Permutation (filter p l) (filter p l').
  Proof. induction 1; cbn; auto. - destruct (p x); auto. - destruct (p x), (p y); auto. apply perm_swap. - eapply perm_trans; eauto. Qed.
  Lemma value_same k : k <> "instrument_signal"%string -> ~ In k extra -> forall i, value_at o' k i = value_at o k i.
  Proof. intros N X i. unfold value_at, col_of. rewrite rows_other; auto. rewrite <- extra_In. auto. Qed.
  Lemma maxima_same i : maxima o' i = maxima o i.
  Proof.
    unfold maxima. rewrite (P_Noise.sum_over_perm _ _ _ (filter_perm (contains "Max") _ _ rows_names)). rewrite filter_app.
    assert (filter (contains "Max") extra = []) as ->. { apply filter_none. intros k I. apply extra_In in I as (a & IA & I). now apply (element_foreign ns em a (item_of ns em chs IT _ IA)) in I. }
    rewrite app_nil_r. rewrite filter_filter.
    assert (filter (fun k => contains "Max" k && negb (String.eqb k "instrument_signal")) (names o) = filter (contains "Max") (names o)) as ->.
    { apply filter_ext. intros k. destruct (String.eqb_spec k "instrument_signal") as [->|]; [reflexivity|apply andb_true_r]. }
    apply P_Noise.sum_over_ext. intros k I. apply filter_In in I as [I1 I2]. apply value_same; [intros ->; discriminate|]. intros X. apply extra_In, rows_element in X as (X & _). apply sget_None_names in X. contradiction.
  Qed.
  Lemma sum_filter {A} (f : A -> R) (p : A -> bool) l : (forall a, In a l -> p a = false -> f a = 0%R) -> sum_over f l = sum_over f (filter p l).
  Proof.
    induction l as [|a l IH]; intros H; cbn; auto. rewrite IH by (intros; apply H; cbn; auto). destruct (p a) eqn:E; cbn; auto. rewrite (H a) by (cbn; auto). lra.
  Qed.
  Lemma value_reals (t : table) k l i : sget k t = Some (reals l) -> value_at t k i = nth i l 0%R.
  Proof.
    intros G. unfold value_at, col_of. rewrite G. unfold reals. rewrite nth_error_map. destruct (nth_error l i) as [r|] eqn:E; cbn.
    - symmetry. now apply nth_error_nth.
    - symmetry. apply nth_overflow. now apply nth_error_None.
  Qed.
  Lemma signals_same i : (i < bins_of (name, c))%nat -> sum_over (fun k => value_at o k i) (filter (contains "signal") (names o)) = sum_over (fun k => value_at o' k i) (filter (contains "signal") (names o')).
  Proof.
    intros LI. rewrite (P_Noise.sum_over_perm _ _ _ (filter_perm (contains "signal") _ _ rows_names)). rewrite filter_app, P_Noise.sum_over_app, filter_filter.
    assert (filter (contains "signal") extra = extra) as ->. { apply filter_all. intros k I. apply extra_In in I as (a & _ & I). apply in_map_iff in I as (e & <- & _). apply P_Noise.item_key_signal. }
    pose proof (item_of ns em chs IT _ IC) as ((tot & GT & MU) & _). pose proof MU as (MD & ML & MV & MS).
    assert (GI : sget "instrument_signal" o = Some (reals tot)) by (rewrite (proj2 rows_total); exact GT).
    assert (II : In "instrument_signal"%string (filter (contains "signal") (names o))) by (apply filter_In; split; [apply sget_names; eauto|reflexivity]).
    rewrite (P_Noise.sum_over_remove _ "instrument_signal"%string) by (auto using NoDup_filter). rewrite (value_reals o _ _ i GI), MS by exact LI.
    rewrite filter_filter. rewrite Rplus_comm. f_equal.
    - transitivity (sum_over (fun k => value_at o' k i) (filter (fun k => contains "signal" k && negb (String.eqb k "instrument_signal")) (names o))).
      + transitivity (sum_over (fun k => value_at o k i) (filter (fun k => contains "signal" k && negb (String.eqb k "instrument_signal")) (names o))).
        * f_equal. apply filter_ext. intros k. rewrite andb_comm. reflexivity.
        * apply P_Noise.sum_over_ext. intros k I. apply filter_In in I as [I1 I2]. apply andb_true_iff in I2 as [_ I2]. apply negb_true_iff, String.eqb_neq in I2. symmetry. apply value_same; auto. intros X. apply extra_In, rows_element in X as (X & _). apply sget_None_names in X. contradiction.
      + reflexivity.
    - rewrite (sum_filter _ (fun k => isin k (element_keys (em name)))).
      + assert (PE : Permutation (filter (fun k => isin k (element_keys (em name))) extra) (element_keys (em name))).
        { apply NoDup_Permutation; [apply NoDup_filter, NoDup_filter, all_NoDup|eapply element_NoDup; eauto|]. intros k. rewrite filter_In, isin_In, extra_In. split; [tauto|]. intros I. split; auto. exists (name, c). auto. }
        rewrite (P_Noise.sum_over_perm _ _ _ PE). unfold element_keys. rewrite P_Noise.sum_over_map. apply P_Noise.sum_over_ext. intros [e v] I. cbn [fst snd].
        assert (IK : In (e ++ " signal")%string (element_keys (em name))) by (apply in_map_iff; exists (e, v); auto).
        symmetry. apply value_reals. destruct (rows_element (e ++ " signal")%string) as (_ & _ & R1 & _); [exists (name, c); auto|]. rewrite R1 by auto.
        assert (GE : sget (e ++ " signal")%string (map (fun e0 : string * list R => ((fst e0 ++ " signal")%string, snd e0)) (lights (em name))) = Some v); [|now rewrite GE].
        apply (NoDup_In_dget _ String_eqb_spec).
        * rewrite map_map. cbn. eapply element_NoDup; eauto.
        * apply in_map_iff. exists (e, v). auto.
      + intros k I E. apply isin_notIn in E. destruct (rows_element k) as (_ & _ & _ & R2); [now apply extra_In|]. rewrite (value_reals o' k (repeat 0%R (bins_of (name, c))) i).
        * clear. generalize (bins_of (name, c)). revert i. induction i as [|i IH]; intros [|n]; cbn; auto.
        * rewrite R2 by auto. f_equal. unfold reals, zeros. now rewrite map_repeat.
  Qed.
End Rows.

(** ** C114: itemised contributions leave the estimate as it is *)
Theorem C114_itemising_leaves_the_noise : forall ns em chs h s x g fs st, instruments ns chs -> quiet ns -> ~ In "MaxSignal_inPixel"%string ns -> In "Wavelength"%string ns -> In "WindowSize"%string ns -> In "instrument_signal"%string ns ->
  Forall (itemised ns em) chs -> Forall (plain_sky ns) h ->
  foregrounds_of s (x_sky x) = Ok g -> g_foreground g = Some fs -> foreign ns (Some fs) -> load s x = Ok st ->
  (forall name c, In (name, c) chs -> Forall valid_entry (entries (h_common c)) /\ Forall valid_entry (entries (ch_custom (h_noise c))) /\
     exists d o t, propagate_diffuse_foreground (h_light c) (edges c) (Some fs) = Ok d /\ propagate_star c None (st_sed st) (g_sky g) = Ok (o, t) /\ usable c d o) ->
  let chs' := full_channels (fun n => signal_table (em n)) chs in
  exists y T y' T', snd (observe_target s (after chs h) x) = Ok y /\ x_table y = Some T /\ snd (observe_target s (after chs' h) x) = Ok y' /\ x_table y' = Some T' /\
    x_sky y' = x_sky y /\ x_source y' = x_source y /\
    forall name c, In (name, c) chs ->
      (forall k, In k ["MaxSignal_inPixel"; "frameTime"; "total_noise"]%string -> exists v, shows (cols T) name k v /\ shows (cols T') name k v) /\
      (forall k v, ordinary k -> fresh_column y k -> k <> "MaxSignal_inPixel"%string -> k <> "instrument_signal"%string -> ~ element_column chs em k -> shows (cols T') name k v <-> shows (cols T) name k v) /\
      (forall v, ~ shows (cols T') name "instrument_signal" v) /\
      (forall e v, In (e, v) (lights (em name)) -> shows (cols T') name (e ++ " signal") (reals v)) /\
      (forall k, element_column chs em k -> ~ element_column [(name, c)] em k -> shows (cols T') name k (repeat (Num (Fin 0)) (length (c_bins (h_star c))))).
Proof.
  intros ns em chs h s x g fs st HI Q NM WL WS TOT IT H FG GF FN LD US chs'.
  assert (AP : columns_apart ns chs s x) by (intros _ g' G'; rewrite FG in G'; injection G' as <-; rewrite GF; exact FN).
  assert (AH : Forall (fun sx => columns_apart ns chs (fst sx) (snd sx)) h) by (eapply Forall_impl; [|exact H]; intros sx P _ g' G'; apply (P g' G')).
  destruct (C87_an_observation_succeeds ns chs h s x g fs st HI Q NM WL WS AH AP FG GF LD) as [y OY].
  { intros name c I. destruct (US name c I) as (_ & _ & U). exact U. }
  destruct (observe_unified ns em chs HI IT h s x H) as (h' & AH' & EQ). fold chs' in EQ.
  set (K := all_keys em chs) in *. set (U := unified em chs) in *.
  pose proof (unified_instruments ns em chs HI IT) as HI'. pose proof (unified_quiet ns em chs HI IT Q) as Q'. fold K U in HI', Q'.
  assert (KN : forall k, In k K <-> In k (without_total ns) \/ exists a, In a chs /\ In k (element_keys (em (fst a)))) by (intros k; apply (all_In ns em chs HI IT)).
  assert (NM' : ~ In "MaxSignal_inPixel"%string K). { intros I. apply KN in I as [I|(a & _ & I)]; [apply without_In in I as [I _]; auto|]. apply in_map_iff in I as (e & E & _). revert E. apply suffix_not. reflexivity. }
  assert (WL' : In "Wavelength"%string K) by (apply KN; left; apply without_In; split; [auto|discriminate]).
  assert (WS' : In "WindowSize"%string K) by (apply KN; left; apply without_In; split; [auto|discriminate]).
  assert (AP' : columns_apart K U s x) by (intros _ g' G'; rewrite FG in G'; injection G' as <-; rewrite GF; now apply (foreign_all ns em chs HI IT)).
  assert (UU : forall name c, In (name, c) chs -> In (name, snd (unify em chs (name, c))) U).
  { intros name c I. unfold U. rewrite unified_map. change (name, snd (unify em chs (name, c))) with (unify em chs (name, c)). now apply in_map. }
  assert (US' : forall name c d o, In (name, c) chs -> usable c d o -> usable (snd (unify em chs (name, c))) d o).
  { intros name c d o I (U1 & U2 & U3 & U4 & U5). split; [exact U1|]. split; [|split; [exact U3|split; [exact U4|exact U5]]]. intros k col G W. rewrite unify_get in G. fold K in G. destruct (isin k K) eqn:J; [|discriminate]. assert (EC : col = p_val (part_of em (name, c)) k) by congruence. clear G. subst col.
    pose proof (built_of ns chs HI _ I) as B. destruct (part_all ns em (name, c) B (item_of ns em chs IT _ I) k) as [PA _]. destruct (isin k (without_total ns)) eqn:W'.
    - rewrite PA. cbn [snd]. apply isin_In, without_In in W' as [W' _]. destruct B as (_ & NS & _). rewrite <- NS in W'. apply sget_names in W' as [v W']. unfold col_of. rewrite W'. eapply U2; eauto.
    - exact PA. }
  destruct (C87_an_observation_succeeds K U h' s x g fs st HI' Q' NM' WL' WS' AH' AP' FG GF LD) as [y' OY'].
  { intros name c' I. unfold U in I. rewrite unified_map in I. apply in_map_iff in I as ([n0 c] & E & I). destruct (US n0 c I) as (_ & _ & d & o & t & D & P & UO). assert (c' = snd (unify em chs (n0, c))) as -> by now rewrite E. exists d, o, t. split; [exact D|]. split; [exact P|]. now apply US'. }
  destruct (observe_shape _ _ _ _ OY) as (_ & _ & _ & _ & T & st1 & XT & XS & LD1 & FG1). destruct (observe_shape _ _ _ _ OY') as (_ & _ & _ & _ & T' & st2 & XT' & XS' & LD2 & FG2).
  rewrite LD in LD1, LD2. injection LD1 as <-. injection LD2 as <-. rewrite FG in FG1, FG2. injection FG1 as SK. injection FG2 as SK'.
  exists y, T, y', T'. split; [auto|]. split; [auto|]. split; [now rewrite EQ|]. split; [auto|]. split; [congruence|]. split; [congruence|]. intros name c IC.
  destruct (block_view ns chs h s x y T HI Q NM AH AP OY XT name c IC) as (fs1 & st1 & o & F1 & S1 & OW & ND & RO & NMO & SH & _).
  destruct (block_view K U h' s x y' T' HI' Q' NM' AH' AP' OY' XT' name _ (UU name c IC)) as (fs2 & st2 & o' & F2 & S2 & OW' & ND' & RO' & NMO' & SH' & _).
  rewrite <- SK, GF in F1. injection F1 as <-. rewrite <- SK', GF in F2. injection F2 as <-. rewrite XS in S1. injection S1 as <-. rewrite XS' in S2. injection S2 as <-. rewrite <- SK in OW, SH. rewrite <- SK' in OW', SH'.
  change (name, snd (unify em chs (name, c))) with (unify em chs (name, c)) in OW'. change (bins_of (name, snd (unify em chs (name, c)))) with (bins_of (name, c)) in RO'.
  destruct (US name c IC) as (V1 & V2 & dd & so & t0 & Hd & Hs & UO). pose proof UO as ((det & DE & PH) & _).
  pose proof (loud_sees (g_sky g)) as (LS & LM & LC & LW & LL & _).
  assert (ELK : forall k, element_column chs em k <-> exists a, In a chs /\ In k (element_keys (em (fst a)))).
  { intros k. split.
    - intros (n & c0 & e & v & I & J & ->). exists (n, c0). split; auto. apply in_map_iff. exists (e, v). auto.
    - intros ([n c0] & I & J). apply in_map_iff in J as ([e v] & <- & J). exists n, c0, e, v. auto. }
  assert (ELO : forall k, element_column [(name, c)] em k <-> In k (element_keys (em name))).
  { intros k. split.
    - intros (n & c0 & e & v & [I|[]] & J & ->). injection I as <- <-. apply in_map_iff. exists (e, v). auto.
    - intros J. apply in_map_iff in J as ([e v] & <- & J). exists name, c, e, v. cbn. auto. }
  assert (ELQ : forall k, element_column chs em k -> ordinary k /\ k <> "MaxSignal_inPixel"%string /\ loud (g_sky g) k = true).
  { intros k I. apply ELK in I. assert (IK : In k K) by (apply KN; auto). split; [now apply Q'|]. split; [intros ->; contradiction|]. apply LS. destruct I as (a & _ & I). apply in_map_iff in I as (e & <- & _). apply P_Noise.item_key_signal. }
  assert (MS := maxima_same ns em chs HI IT TOT fs (st_sed st) (g_sky g) name c o o' IC FN OW OW' ND ND').
  assert (SS := signals_same ns em chs HI IT TOT fs (st_sed st) (g_sky g) name c o o' IC FN OW OW' ND ND').
  assert (VS := value_same ns em chs HI IT TOT fs (st_sed st) (g_sky g) name c o o' IC FN OW OW').
  assert (RE := rows_element ns em chs HI IT TOT fs (st_sed st) (g_sky g) name c o o' IC FN OW OW').
  assert (RT := rows_total ns em chs HI IT TOT fs (st_sed st) (g_sky g) name c o o' IC FN OW OW').
  assert (RO2 := rows_other ns em chs HI IT TOT fs (st_sed st) (g_sky g) name c o o' IC FN OW OW').
  assert (VX : forall k, In k ns -> ~ In k (extra ns em chs)) by (intros k I J; unfold extra in J; apply filter_In in J as [_ J]; apply negb_true_iff, isin_notIn in J; contradiction).
  split; [|split; [|split; [|split]]].
  - assert (UA : forall d st' t, propagate_diffuse_foreground (h_light c) (edges c) (Some fs) = Ok d -> propagate_star c None (st_sed st) (g_sky g) = Ok (st', t) -> usable c d st').
    { intros d st' t D P. rewrite Hd in D. injection D as <-. rewrite Hs in P. injection P as <- <-. exact UO. }
    destruct (noise_of_rows ns chs h s x y T HI Q NM WL WS AH AP OY XT name c IC fs st o det) as (M1 & tf & total & T0 & TF & F1 & N1 & TT); auto; try (rewrite <- SK; auto).
    destruct (noise_of_rows K U h' s x y' T' HI' Q' NM' WL' WS' AH' AP' OY' XT' name _ (UU name c IC) fs st o' det) as (M2 & tf' & total' & T0' & TF' & F2 & N2 & TT'); auto; try (rewrite <- SK'; auto).
    { intros d st' t D P. apply US'; auto. eapply UA; eauto. }
    cbn [snd unify put_part with_table h_noise h_common h_star] in *. change (bins_of (name, with_table c _)) with (bins_of (name, c)) in *. set (n := bins_of (name, c)) in *.
    assert (ME : numbers n (maxima o') = numbers n (maxima o)) by (unfold numbers; apply map_ext; intros i; now rewrite MS).
    assert (TE : tf' = tf).
    { destruct (fixed_frame_time (h_noise c)); [congruence|]. destruct PH as (PW & PF & _). apply (P_Noise.auto_frame_time_unique (d_well det) (d_f det) n (maxima o)); [nra| |auto].
      destruct TF' as (A1 & A2 & i & I & A3). split; auto. split; [intros j J; rewrite <- MS; auto|exists i; rewrite <- MS; auto]. }
    subst tf'. intros k [<-|[<-|[<-|[]]]].
    + exists (numbers n (maxima o)). split; [exact M1|]. now rewrite <- ME.
    + eauto.
    + exists (map (fun i => Num (total i)) (List.seq 0 n)). split; [exact N1|].
      assert (map (fun i => Num (total i)) (List.seq 0 n) = map (fun i => Num (total' i)) (List.seq 0 n)) as ->; [|exact N2]. apply map_ext_in. intros i I. apply in_seq in I. f_equal.
      assert (SE : value_at o' "star_signal_inAperture" i = value_at o "star_signal_inAperture" i).
      { apply VS; [discriminate|]. intros J. apply (extra_In ns em chs HI IT) in J as (a & _ & J). apply in_map_iff in J as (e & E & _). revert E. apply suffix_not. reflexivity. }
      assert (WE : value_at o' "WindowSize" i = value_at o "WindowSize" i) by (apply VS; [discriminate|auto]).
      destruct (TT i) as [A1 A2]; [lia|]. destruct (TT' i) as [B1 B2]; [lia|]. destruct (Req_EM_T (value_at o "star_signal_inAperture" i) 0) as [Z|Z]; [rewrite A1, B1; auto; congruence|]. rewrite A2, B2 by (auto; congruence).
      do 3 f_equal. f_equal. apply P_Noise.total_by_sums; auto. apply SS. lia.
  - intros k v O FR N1 N2 NE. apply fresh_loud in FR. rewrite <- SK in FR. rewrite SH, SH' by auto. rewrite RO2; [tauto|auto|]. intros X. apply NE. now apply ELK.
  - intros v X. apply SH' in X; [rewrite (proj1 RT) in X; discriminate| |discriminate|apply LS; reflexivity]. apply ordinary_end; try reflexivity; discriminate.
  - intros e v I. assert (EK : In (e ++ " signal")%string (element_keys (em name))) by (apply in_map_iff; exists (e, v); auto). assert (EC : element_column chs em (e ++ " signal")) by (apply ELK; exists (name, c); auto). destruct (ELQ _ EC) as (Q1 & Q2 & Q3).
    apply SH'; auto. destruct (RE (e ++ " signal")%string) as (_ & _ & R1 & _); [now apply ELK|]. rewrite R1 by auto. pose proof (item_of ns em chs IT _ IC) as ((tot & GT & MU) & _).
    assert (GE : sget (e ++ " signal")%string (map (fun e0 : string * list R => ((fst e0 ++ " signal")%string, snd e0)) (lights (em name))) = Some v); [|now rewrite GE].
    apply (NoDup_In_dget _ String_eqb_spec); [rewrite map_map; cbn; eapply element_NoDup; eauto|]. apply in_map_iff. exists (e, v). auto.
  - intros k E NE. destruct (ELQ k E) as (Q1 & Q2 & Q3). apply SH'; auto. destruct (RE k) as (_ & _ & _ & R2); [now apply ELK|]. apply R2. intros X. apply NE. now apply ELO.
Qed.
Print Assumptions C114_itemising_leaves_the_noise.
