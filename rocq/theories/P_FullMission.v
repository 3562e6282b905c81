(** Full contributions of a payload that is built (C114). *)
From Coq Require Import Reals Lra Psatz Lia.
From Verif Require Import Base Dict PyStr XR M_Signal M_Optics M_Light M_Bins M_Psf M_Omega M_Star M_Source M_Foreground S_Signal S_Optics S_Light S_Bins S_Star S_Success S_Foreground L_Signal L_Optics L_Light L_Bins P_Optics P_Bins P_Windows P_Light P_Success P_Omega P_Star P_Source P_Foreground.
From Verif Require M_Noise P_Noise L_Foreground S_Source P_Star.
From Verif Require Import S_Noise L_Noise.
From Verif Require Import M_Table L_Table P_Table M_Observe S_Observe L_Observe L_Stages L_Outcome S_Works S_Complete P_Observe P_Outcome P_Works P_Complete P_Instance M_Build S_Build S_Ready L_Build L_Ready P_Build P_Ready P_Mission P_Telescope M_Full S_Full L_Full P_Full.
Open Scope list_scope.
Open Scope R_scope.

(** The emission of the elements of a channel [c] built from [d]: the light of each warm element at the
    detector, from its radiance behind all elements that follow. *)
Definition emission_of (p : payload) (d : description) (c : chan) (em : emission) : Prop :=
  exists els rads slit, path_of p d c els /\ chain planck (s_wl (c_tr (h_star c))) els = Ok (rads, slit) /\
    compute_signal (h_light c) (M_Observe.edges c) (s_wl (c_tr (h_star c))) rads = Ok em.

Lemma emission_unique p d c e1 e2 : emission_of p d c e1 -> emission_of p d c e2 -> e1 = e2.
Proof.
  intros (els & rads & slit & P & C & S) (els' & rads' & slit' & P' & C' & S'). rewrite (path_same _ _ _ _ _ P' P) in C'. congruence.
Qed.
Lemma built_emission w p d q c name : shaped name q -> build_optical_path w p d q = Ok c -> exists em, emission_of p d c em /\ sget "instrument_signal" (cols (h_table c)) = Some (map num (total_signal em)).
Proof.
  intros SH O. destruct (path_inv _ _ _ _ _ O) as (wl & els & total & trc & rads & slit & em & fx & G & OP & TT & TC & CH & _ & HL & CS & HS & _ & _ & _ & _ & EC).
  assert (W : s_wl (c_tr (h_star c)) = wl). { apply tr_grid in TC; [exact TC|]. cbn. eapply total_length; eauto. }
  exists em. split.
  - exists els, rads, slit. rewrite W. split; [|split; auto].
    unfold optical_path in OP. dbind OP o Ho. dbind OP e1 H1. dbind OP co Hc. dbind OP e2 H2. injection OP as <-. exists o, co, e1, e2. cbv zeta. rewrite W. repeat split; auto using lookup_some.
  - destruct SH as ((qe & LQ & EQ) & _). rewrite EC, EQ. reflexivity.
Qed.
Lemma total_sum {A} (f : A -> R) l : S_Light.total (map f l) = sum_over f l.
Proof. induction l as [|a l IH]; cbn; [reflexivity|]. unfold S_Light.total in *. cbn. now rewrite <- IH. Qed.

Lemma emission_light w p name d c em : complete_common w p name d -> optical_grid w d = Ok (s_wl (c_tr (h_star c))) -> emission_of p d c em -> P_Light.sound (h_light c) -> c_bins (h_star c) <> [] ->
  makes_up (length (c_bins (h_star c))) (lights em) (total_signal em).
Proof.
  intros (U1 & U2 & V & N & DD & _ & (o & own & force & PO & DO & OF & OA & S1 & S2) & _) OG (els & rads & slit & PA & CH & CS) SD NB.
  pose proof (detector_grid_ok w d V N) as G.
  assert (EG : s_wl (c_tr (h_star c)) = detector_grid w d). { unfold optical_grid in OG. rewrite U1, U2 in OG. destruct (Nat.eqb_spec (u_R w) 1); [lia|]. injection OG as <-. reflexivity. }
  rewrite EG in CH, CS. destruct PA as (o' & own' & e1 & e2 & PO' & DO' & E1 & E2 & ->). cbv zeta in E1, E2. rewrite EG in E1, E2. set (g := detector_grid w d) in *.
  assert (o' = o) as -> by congruence. assert (own' = own) as -> by congruence.
  destruct (optics_build g _ S1) as (e1' & E1' & A1). destruct (optics_build g _ S2) as (e2' & E2' & A2). assert (e1' = e1) as -> by congruence. assert (e2' = e2) as -> by congruence.
  assert (AE : each (lets g) (prepend e1 e2)).
  { assert (X : forall o' els', each (comes_from g o') els' -> each (lets g) els').
    { intros o' els' A k e I. destruct (A k e I) as (dd & (GS & GF & GE & GT & GD & GY & GW) & FR). unfold lets; auto. }
    apply prepend_each; eapply X; eauto. }
  assert (FL : Forall (lets g) (sequence (prepend e1 e2))). { apply Forall_forall. intros e I. unfold sequence in I. apply in_map_iff in I as ([k e0] & <- & I). now apply (AE k). }
  destruct (chain_lit g (fun _ => True) (proj2 (proj2 G)) (sequence (prepend e1 e2)) [] None FL) as (rads' & slit' & CH' & _ & LR & ND); auto.
  { intros k r []. } { constructor. }
  assert (rads' = rads) as ->. { unfold chain in CH. unfold sequence in CH'. congruence. }
  destruct (C28_sum_of_element_signals _ _ _ _ _ G ND CS) as (KE & LT & _ & LE & SU).
  assert (NE : M_Observe.edges c <> []) by (unfold M_Observe.edges; destruct (c_bins (h_star c)); [now destruct NB|discriminate]).
  destruct (C28_nonnegative _ _ _ _ _ SD G NE ND (fun k r I => proj1 (proj1 (LR k r I))) CS) as (_ & _ & NN).
  assert (ME : length (M_Observe.edges c) = length (c_bins (h_star c))) by apply map_length.
  assert (NDB : NoDup (map fst (by_element em))) by (rewrite KE; exact ND).
  unfold makes_up, lights. split; [rewrite map_map; exact NDB|]. split; [congruence|]. split.
  - intros e v I. apply in_map_iff in I as ([e' l] & [= <- <-] & I). assert (GE : sget e' (by_element em) = Some l) by (apply (NoDup_In_dget _ String_eqb_spec); auto).
    destruct (LE _ _ GE) as [_ L2]. destruct (NN _ _ GE) as [_ N2]. split; [cbn; congruence|exact N2].
  - intros i Hi. specialize (SU i) as [SU _]. unfold at_ in SU. rewrite SU, total_sum. clear. induction (by_element em) as [|a l IH]; cbn in *; [reflexivity|]. now rewrite IH.
Qed.
Lemma straddle e : contains "Max" e = false -> contains "Max" (e ++ " signal") = false.
Proof.
  intros H. destruct (contains "Max" (e ++ " signal")) eqn:E; auto. exfalso. enough (contains "Max" e = true) by congruence. clear H.
  apply contains_spec in E as (a & b & E). apply contains_spec. revert a b E.
  induction e as [|c l IH]; intros a b E.
  - exfalso. assert (X : contains "Max" " signal" = true) by (apply contains_spec; eauto). vm_compute in X. discriminate.
  - destruct a as [|z a].
    + cbn in E. destruct l as [|c2 [|c3 l]]; cbn in E; try discriminate. injection E as -> -> -> _. exists ""%string, l. reflexivity.
    + cbn in E. injection E as -> E. destruct (IH a b E) as (a' & b' & ->). exists (String z a'), b'. reflexivity.
Qed.

(** The payload of C97: it is built, its elements' lights are known, and with them itemised every
    observation gives the same noise. *)
Theorem C114_itemising_a_payload : forall w fuel p l s x f src h, p_channel p = Some (Ordered l) -> l <> [] -> named l -> (forall name d r, In (name, d) l -> d_targetR d = Some (FixedR r) -> 0 < r) ->
  (forall name d, In (name, d) l -> complete_photometer w fuel p name d \/ complete_spectrometer w fuel p name d) ->
  (forall name d, In (name, d) l -> exists r, M_Noise.fixed_frame_time (d_detector d) = Some (Fin r) /\ 0 < r) ->
  (forall name d wl, In (name, d) l -> geometric_grid (value (y_min s)) (value (y_max s)) (y_R s) wl -> in_range w name d wl) ->
  Forall valid_entry (entries (p_custom p)) -> (forall name d, In (name, d) l -> Forall valid_entry (entries (M_Noise.ch_custom (d_detector d)))) ->
  in_um (y_min s) = Some 1 -> in_um (y_max s) = Some 1 -> 0 < value (y_min s) < value (y_max s) -> (2 <= y_R s)%nat ->
  y_foreground s = Some f -> sensible_foregrounds f -> g_sky (x_sky x) = None -> g_foreground (x_sky x) = None -> located (x_sky x) ->
  y_source s = Some src -> black_body src -> known_star (x_stellar x) -> x_star_name x <> None ->
  Forall (fun sx => no_instrument_in_the_sky (fst sx) (snd sx) /\ forall g, foregrounds_of (fst sx) (x_sky (snd sx)) = Ok g -> g_sky g = None) h -> no_instrument_in_the_sky s x ->
  exists chs, build_channels w fuel p = Some (Ok chs) /\
  (forall name c, In (name, c) chs -> exists d em, sget name l = Some d /\ emission_of p d c em) /\
  forall em, (forall name c d, In (name, c) chs -> sget name l = Some d -> emission_of p d c (em name)) ->
  (forall name c e v, In (name, c) chs -> In (e, v) (lights (em name)) -> contains "Max" e = false) ->
  let chs' := full_channels (fun n => signal_table (em n)) chs in
  exists y T y' T', snd (observe_target s (after chs h) x) = Ok y /\ x_table y = Some T /\ snd (observe_target s (after chs' h) x) = Ok y' /\ x_table y' = Some T' /\
    x_sky y' = x_sky y /\ x_source y' = x_source y /\
    forall name c, In (name, c) chs ->
      (forall k, In k ["MaxSignal_inPixel"; "frameTime"; "total_noise"]%string -> exists v, shows (cols T) name k v /\ shows (cols T') name k v) /\
      (forall v, ~ shows (cols T') name "instrument_signal" v) /\
      (forall e v, In (e, v) (lights (em name)) -> shows (cols T') name (e ++ " signal") (reals v)).
Proof.
  intros w fuel p l s x f src h C NE NM RP CO FF IR VP VD U1 U2 V N YF SF GS GF LO YS BB KS SN NH NX.
  destruct (C96_complete_payload_builds w fuel p l C NE NM RP CO) as (chs & B & I & F). exists chs. split; [exact B|].
  pose proof NM as [NDL _].
  (* what was built *)
  assert (BU : forall name c, In (name, c) chs -> exists d q, In (name, d) l /\ sget name l = Some d /\ shaped name q /\ build_optical_path w p d q = Ok c /\ complete_common w p name d /\
            h_noise c = d_detector d /\ forall wl, in_range w name d wl -> works_at wl c).
  { intros name c IC. destruct (built_from _ _ _ _ _ _ _ C B IC) as (d & ID & BO). pose proof BO as BO'. apply built_inv in BO as (k & q & _ & _ & BQ & O). exists d, q.
    assert (GD : sget name l = Some d) by (apply NoDup_In_dget; auto; apply String_eqb_spec).
    split; auto. split; auto. split; [destruct k; [destruct (photometer_shaped _ _ _ _ _ BQ)|destruct (spectrometer_shaped _ _ _ _ _ BQ)]; auto|]. split; auto.
    split; [destruct (CO name d ID) as [X|X]; apply X|]. 
    assert (X : exists d', In (name, d') l /\ h_noise c = d_detector d' /\ forall wl, in_range w name d' wl -> works_at wl c).
    { clear -F IC. induction F as [|[n d] [n' c'] l chs (E & HN & W) F IH]; [destruct IC|]. cbn in E, HN, W. destruct IC as [IC|IC].
      - injection IC as -> ->. subst. exists d. split; [now left|auto].
      - destruct (IH IC) as (d' & ID' & X). exists d'. split; [now right|auto]. }
    destruct X as (d' & ID' & X). assert (GD' : sget name l = Some d') by (apply NoDup_In_dget; auto; apply String_eqb_spec). assert (d' = d) as -> by congruence. exact X. }
  split.
  { intros name c IC. destruct (BU name c IC) as (d & q & _ & GD & SH & O & _). destruct (built_emission _ _ _ _ _ _ SH O) as (em & EM & _). eauto. }
  intros em EM MX chs'.
  assert (WGr : working_grid (y_R s) (y_min s) (y_max s) = Ok (logspace (value (y_min s)) (value (y_max s)) (y_R s))) by (unfold working_grid, um_of; rewrite U1, U2, !Rmult_1_r; reflexivity).
  destruct (black_body_loads s x src U1 U2 V N YS BB KS SN) as (st & LD & NS & EW).
  destruct (foregrounds_clear (y_maps s) (y_R s) (y_min s) (y_max s) _ f (x_sky x) WGr) as (g & EG & (_ & C1 & C2) & fs & G & NF); auto.
  { intros w0 I0. unfold logspace in I0. apply in_map_iff in I0 as (k & <- & _). apply Rmult_lt_0_compat; [lra|]. unfold Rpower. apply exp_pos. }
  { split; auto. rewrite GS, GF. split; discriminate. }
  assert (FG : foregrounds_of s (x_sky x) = Ok g) by (unfold foregrounds_of; rewrite YF; exact EG).
  assert (GG : geometric_grid (value (y_min s)) (value (y_max s)) (y_R s) (s_wl (st_sed st))). { rewrite EW. pose proof (L_Foreground.grid_spec _ _ _ _ WGr) as GG. unfold S_Source.microns in GG. rewrite U1, U2, !Rmult_1_r in GG. exact GG. }
  assert (WK : forall name c, In (name, c) chs -> works_at (s_wl (st_sed st)) c). { intros name c IC. destruct (BU name c IC) as (d & q & ID & _ & _ & _ & _ & _ & W). apply W. now apply IR. }
  assert (NBC : forall name c, In (name, c) chs -> c_bins (h_star c) <> []). { intros name c IC. assert (AB : as_built channel_columns (name, c)) by (destruct I as (_ & _ & _ & _ & _ & AB); rewrite Forall_forall in AB; auto). destruct AB as (NB & _). destruct (c_bins (h_star c)); [cbn in NB; lia|discriminate]. }
  assert (IT : Forall (itemised channel_columns em) chs).
  { apply Forall_forall. intros [name c] IC. destruct (BU name c IC) as (d & q & ID & GD & SH & O & CC & _). destruct (built_emission _ _ _ _ _ _ SH O) as (em0 & EM0 & TS). rewrite (emission_unique _ _ _ _ _ EM0 (EM _ _ _ IC GD)) in TS.
    destruct (has_path _ _ _ _ _ O) as (_ & _ & _ & _ & _ & OG & _). destruct (WK name c IC) as (_ & DL & _). split.
    - exists (total_signal (em name)). split; [exact TS|]. eapply emission_light; eauto. destruct DL as (D1 & D2 & D3 & D4 & _ & _ & _ & D5 & D6 & D7 & _). unfold P_Light.sound. auto 10.
    - intros e v J. split; [|apply straddle; eapply MX; eauto]. intros K. unfold channel_columns in K. cbn [In] in K.
      repeat (destruct K as [K|K]; [symmetry in K; revert K; apply suffix_not; reflexivity|]). destruct K. }
  assert (PH : Forall (plain_sky channel_columns) h). { eapply Forall_impl; [|exact NH]. intros sx [H1 H2] g0 G0. split; [now apply H2|]. apply foreign_columns. intros fs' E. eapply H1; eauto. }
  destruct (same_grid s x st g U1 U2 V N ltac:(congruence) GS LD FG) as (SO & SK & GR). specialize (GR GF fs G).
  destruct (C114_itemising_leaves_the_noise channel_columns em chs h s x g fs st I channel_columns_quiet) as (y & T & y' & T' & E1 & E2 & E3 & E4 & E5 & E6 & E7); auto.
  - cbn. intuition discriminate.
  - cbn. auto.
  - cbn. auto 10.
  - cbn. auto 20.
  - apply foreign_columns. intros fs' [= <-]. eapply NX; eauto.
  - intros name c IC. destruct (BU name c IC) as (d & q & ID & GD & SH & O & CC & HN & _). split; [|split].
    + destruct (path_inv _ _ _ _ _ O) as (? & ? & ? & ? & ? & ? & ? & ? & _ & _ & _ & _ & _ & _ & _ & _ & _ & _ & _ & HC & _). rewrite HC. exact VP.
    + rewrite HN. eapply VD; eauto.
    + destruct (WK name c IC) as (SD & DL & SL).
      assert (PSK : physical_sky (g_sky g)). { unfold physical_sky. destruct (g_sky g) as [sk|]; auto. now destruct (C1 sk eq_refl). }
      destruct (star_goes_through c _ _ SO SK PSK NS SL) as (o & t & EO & NO).
      destruct (diffuse_goes_through (h_light c) (M_Observe.edges c) (s_wl (st_sed st)) fs) as (dd & ED & ND); auto.
      * apply SO.
      * unfold M_Observe.edges. specialize (NBC name c IC). destruct (c_bins (h_star c)); [congruence|discriminate].
      * intros k f0 J. destruct (GR k f0 J). eauto.
      * exists dd, o, t. split; auto. split; auto. destruct SD as [SD1 SD2]. split; auto. split; [exact SD2|]. split; [exact ND|]. split; [exact NO|]. rewrite HN. destruct (FF name d ID) as (r & -> & RP'). eauto.
  - exists y, T, y', T'. split; auto. split; auto. split; auto. split; auto. split; auto. split; auto. intros name c IC. destruct (E7 name c IC) as (X1 & _ & X3 & X4 & _). auto.
Qed.
Print Assumptions C114_itemising_a_payload.

(** The telescope, itemised; it may have observed through a clear sky before. *)
Definition clear_night : setting :=
  {| y_world := ex_world; y_maps := no_maps; y_R := 2; y_version := "2.1"; y_min := P_Foreground.micron 1; y_max := P_Foreground.micron 2;
     y_foreground := Some (Many [("zodiacal"%string, by_factor 2)]); y_source := Some (SourceName "Planck") |}.
Lemma only_the_mirror d c em : d = phot \/ d = spec -> emission_of telescope d c em -> map fst (lights em) = ["M1"%string].
Proof.
  intros D (els & rads & slit & (o & own & c1 & c2 & PO & DO & P1 & P2 & ->) & CH & CS). cbv zeta in P1, P2. injection PO as <-. unfold lights. rewrite map_map. cbn [fst].
  assert (K : map fst rads = ["M1"%string]).
  { destruct D as [-> | ->]; injection DO as <-; cbn in P1, P2; injection P1 as <-; injection P2 as <-; cbn in CH; injection CH as <- _; reflexivity. }
  destruct rads as [|[k r] [|z rads]]; try discriminate K. injection K as ->. unfold compute_signal in CS. cbn [sum_light] in CS. dbind CS lq Hl. destruct lq as [l q]. dbind CS t Ht. dbind CS m Hm. injection CS as <-. reflexivity.
Qed.
Example C114_ex fuel h : Forall (fun sx => sx = (clear_night, vega)) h ->
  exists chs em, build_channels sharp fuel telescope = Some (Ok chs) /\ let chs' := full_channels (fun n => signal_table (em n)) chs in
  exists y T y' T', snd (observe_target run (after chs h) vega) = Ok y /\ x_table y = Some T /\ snd (observe_target run (after chs' h) vega) = Ok y' /\ x_table y' = Some T' /\
  (exists v, shows (cols T) "spec" "total_noise" v /\ shows (cols T') "spec" "total_noise" v) /\ exists v, shows (cols T') "phot" "M1 signal" v.
Proof.
  intros H. destruct (C114_itemising_a_payload sharp fuel telescope _ run vega sky_over_us (SourceName "Planck") h eq_refl) as (chs & B & EM & X); try reflexivity; try discriminate; try apply vega_known.
  - apply telescope_named.
  - intros name d r [[= <- <-]|[[= <- <-]|[]]]; discriminate.
  - apply telescope_complete.
  - intros name d [[= <- <-]|[[= <- <-]|[]]]; exists 3; (split; [reflexivity|lra]).
  - apply telescope_in_range.
  - constructor.
  - intros name d [[= <- <-]|[[= <- <-]|[]]]; constructor.
  - cbn. lra.
  - apply run_sensible.
  - intros Y. now destruct Y.
  - eapply Forall_impl; [|exact H]. intros sx ->. cbn [fst snd]. split; [intros g fs G F I; cbn in G; injection G as <-; cbn in F; injection F as <-; cbn in I; intuition discriminate|intros g G; cbn in G; injection G as <-; reflexivity].
  - apply (Forall_inv (sky_known [(run, vega)] (Forall_cons _ eq_refl (Forall_nil _)))).
  - destruct (a_telescope fuel) as (a & b & B' & _). assert (chs = [("phot"%string, a); ("spec"%string, b)]) as -> by congruence.
    destruct (EM "phot"%string a) as (da & ea & [= <-] & EA); [now left|]. destruct (EM "spec"%string b) as (db & eb & [= <-] & EB); [right; now left|].
    pose proof (only_the_mirror _ _ _ (or_introl eq_refl) EA) as MA. pose proof (only_the_mirror _ _ _ (or_intror eq_refl) EB) as MB.
    exists [("phot"%string, a); ("spec"%string, b)], (fun n => if String.eqb n "phot" then ea else eb). split; [exact B|].
    destruct (X (fun n => if String.eqb n "phot" then ea else eb)) as (y & T & y' & T' & E1 & E2 & E3 & E4 & _ & _ & E7).
    + intros name c d [[= <- <-]|[[= <- <-]|[]]] [= <-]; assumption.
    + assert (Y : forall em e v, map fst (lights em) = ["M1"%string] -> In (e, v) (lights em) -> contains "Max" e = false).
      { intros em e v M I. apply (in_map fst) in I. rewrite M in I. destruct I as [I|[]]. cbn in I. now rewrite <- I. }
      intros name c e v [[= <- <-]|[[= <- <-]|[]]] I; eapply Y; [exact MA|exact I|exact MB|exact I].
    + exists y, T, y', T'. split; auto. split; auto. split; auto. split; auto. split.
      * destruct (E7 "spec"%string b) as (Z & _); [right; now left|]. apply Z. cbn. auto.
      * destruct (E7 "phot"%string a) as (_ & _ & Z); [now left|]. cbn [String.eqb Ascii.eqb Bool.eqb] in Z. destruct (lights ea) as [|[e v] l] eqn:L; [discriminate|]. injection MA as -> _. exists (reals v). apply (Z "M1"%string v). now left.
Qed.
