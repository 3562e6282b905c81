(** An instrument with a photometer A and a spectrometer B, and observations of a star with it: the
    hypotheses of C81-C89 are met. *)
From Verif Require Import Base Dict PyStr XR M_Signal M_Optics M_Light M_Bins M_Star M_Psf M_Source M_Foreground S_Signal S_Optics S_Light S_Bins S_Star S_Source S_Planck S_Foreground S_Success L_Signal P_Signal L_Optics L_Light L_Star L_Source L_Foreground P_Star P_Light P_Windows P_Planck P_Source P_Foreground P_Success.
From Verif Require M_Noise P_Noise.
From Verif Require Import S_Noise L_Noise.
From Verif Require Import M_Table S_Table L_Table P_Table M_Observe S_Observe L_Observe L_Stages L_Outcome P_Observe P_Outcome S_Works P_Works S_Complete P_Complete.
Import M_Noise(fixed_frame_time).
From Coq Require Import Lia Lra.
Open Scope list_scope.
Open Scope R_scope.

Definition flat (x : R) : sig := {| s_wl := [1; 2]; s_data := [x; x] |}.
Definition two_bins : list bin := [bin_at 1.1 0.4; bin_at 1.6 0.6].
Definition detector_of (name : string) : M_Noise.channel :=
  {| M_Noise.ch_name := name; M_Noise.well_depth := Fin 100; M_Noise.f_well_depth := Some (Fin (1 / 2)); M_Noise.fixed_frame_time := Some (Fin 3);
     M_Noise.freqNDR := Fin 1; M_Noise.multiaccumM := None; M_Noise.dark_current := Fin 1; M_Noise.read_noise := Fin 1; M_Noise.noiseX := None; M_Noise.ch_custom := None |}.
Definition the_numbers : detector := {| d_well := 100; d_f := 1 / 2; d_freq := 1; d_M := 1; d_dark := 1; d_read := 1; d_X := 0 |}.
Definition ns : list string := ["chName"; "Wavelength"; "WindowSize"; "instrument_signal"; "instrument_MaxSignal_inPixel"]%string.
Definition A : chan :=
  {| h_star := P_Star.ex_channel; h_kind := Phot ex_aperture [0.1; 0.6];
     h_light := {| b_slit := None; b_pix_wl := None; b_pix_width := None; b_spatial := None; b_size := [6]; b_qe := flat 0.5; b_tr := flat 0.8; b_delta := 2; b_omega := 1 |};
     h_noise := detector_of "A"; h_common := None;
     h_table := {| cols := combine ns [[Txt "A"]; [num 1.5]; [num 6]; [num 2]; [num 1]]; meta := [] |} |}.
Definition B : chan :=
  {| h_star := {| c_bins := two_bins; c_force := Some true; c_min := 1; c_max := 1.8; c_qe := flat 0.5; c_tr := flat 0.8; c_area := 3; c_sky := None |};
     h_kind := Spec [1; 1.4; 1.9] [0.4; 0.4; 0.5] (fun _ => Ok 0.3);
     h_light := {| b_slit := Some 4; b_pix_wl := Some [1; 1.4; 1.9]; b_pix_width := Some [0.4; 0.4; 0.5]; b_spatial := Some [3; 3]; b_size := [6; 9]; b_qe := flat 0.5; b_tr := flat 0.8; b_delta := 2; b_omega := 1 |};
     h_noise := detector_of "B"; h_common := None;
     h_table := {| cols := combine ns [[Txt "B"; Txt "B"]; [num 1.1; num 1.6]; [num 6; num 9]; [num 0; num 7]; [num 0; num 2]]; meta := [] |} |}.
Definition both : list (string * chan) := [("A"%string, A); ("B"%string, B)].
Definition sky_over_us : foregrounds_descr := Many [("zodiacal"%string, by_factor 2); ("fog"%string, haze 1 0.5)].
Definition run : setting :=
  {| y_world := ex_world; y_maps := no_maps; y_R := 2; y_version := "2.1"; y_min := P_Foreground.micron 1; y_max := P_Foreground.micron 2;
     y_foreground := Some sky_over_us; y_source := Some (SourceName "Planck") |}.
Definition vega : target :=
  {| x_name := "vega"; x_stellar := P_Source.ex_star; x_star_name := Some "vega"%string; x_magk := None; x_sky := anywhere; x_table := None; x_source := None; x_header := None |}.

Lemma ns_apart : NoDup ns. Proof. repeat constructor; cbn; intuition discriminate. Qed.
Lemma both_built : Forall (as_built ns) both.
Proof.
  apply Forall_cons; [|apply Forall_cons; [|constructor]]; unfold as_built; cbn [A B h_star h_light h_noise h_kind h_table c_bins cols P_Star.ex_channel photometer_table two_bins length detector_of M_Noise.ch_name b_size b_spatial].
  - split; [lia|]. split; [reflexivity|]. split; [intros k col I; cbn in I; repeat destruct I as [[= <- <-]|I]; try reflexivity; destruct I|]. repeat split; discriminate.
  - split; [lia|]. split; [reflexivity|]. split; [intros k col I; cbn in I; repeat destruct I as [[= <- <-]|I]; try reflexivity; destruct I|]. repeat split. intros w [= <-]. reflexivity.
Qed.
Example both_instruments : instruments ns both.
Proof.
  split; [discriminate|]. split; [repeat constructor; cbn; intuition discriminate|]. split; [apply ns_apart|]. split; [cbn; intuition discriminate|]. split; [cbn; intuition discriminate|]. apply both_built.
Qed.
Example ns_quiet : quiet ns.
Proof.
  intros k I. cbn in I. repeat destruct I as [<-|I]; try destruct I; (split; [discriminate|split; [discriminate|]]); intros m E; apply (f_equal (ends_with "_noise")) in E;
  (assert (ends_with "_noise" (m ++ "_noise") = true) as X by (apply ends_with_spec; eauto)); rewrite X in E; discriminate.
Qed.
Example both_apart s x : columns_apart ns both s x. Proof. intros H. discriminate. Qed.

Lemma grid_is wl : geometric_grid 1 2 2 wl -> wl = [1; 2].
Proof.
  intros [L G]. destruct wl as [|a [|b [|]]]; try discriminate. pose proof (G 0%nat ltac:(lia)) as E0. pose proof (G 1%nat ltac:(lia)) as E1. unfold at_ in *. cbn in E0, E1.
  replace (0 / 1) with 0 in E0 by field. replace (1 / 1) with 1 in E1 by field. rewrite Rpower_O in E0 by lra. rewrite Rpower_1 in E1 by lra. f_equal; [lra|]. f_equal. lra.
Qed.
Lemma flat_curve x : curve (flat x).
Proof. split; [|reflexivity]. unfold flat. cbn. repeat constructor; lra. Qed.
Lemma least_two a b : a <= b -> least a [a; b]. Proof. intros H. split; [now left|]. intros y [<-|[<-|[]]]; lra. Qed.
Lemma overlap_self s : s_wl s = [1; 2] -> overlaps [1; 2] s.
Proof.
  intros E. exists 1, 2, 1, 2. rewrite E. split; [apply least_two; lra|]. split; [split; [right; now left|intros y [<-|[<-|[]]]; lra]|]. split; [now left|]. split; [right; now left|]. lra.
Qed.
Lemma overlap_pixels x : overlaps [1; 1.4; 1.9] {| s_wl := [1; 2]; s_data := x |}.
Proof.
  exists 1, 1.9, 1, 2. cbn [s_wl]. split; [split; [now left|intros y [<-|[<-|[<-|[]]]]; lra]|]. split; [split; [right; right; now left|intros y [<-|[<-|[<-|[]]]]; lra]|]. split; [now left|]. split; [right; now left|]. lra.
Qed.
Lemma omega_ok : 0 <= 1 <= PI. Proof. pose proof PI2_3_2. unfold PI2 in *. lra. Qed.
Ltac amount := first [ now apply omega_ok | lra ].
Ltac members := let x := fresh in let I := fresh in intros x I; cbn in I; repeat (destruct I as [<-|I]; [lra|]); solve [destruct I].
Lemma sensible name c : h_noise c = detector_of name -> (forall k col, In (k, col) (cols (h_table c)) -> k <> "chName"%string -> amounts_ col) -> sensible_detector c.
Proof.
  intros E H. split.
  - exists the_numbers. rewrite E. split; [repeat split; auto|]. unfold physical, the_numbers. cbn. lra.
  - intros k col G W. apply sget_In in G. apply (H k col G). intros ->. destruct W as [W|[W|[W|W]]]; try discriminate.
Qed.
Example A_works : works_at [1; 2] A.
Proof.
  split; [|split].
  - apply (sensible "A"); [reflexivity|]. intros k col I N. cbn in I. destruct I as [[= <- <-]|I]; [congruence|]. repeat (destruct I as [[= <- <-]|I]; [intros v [<-|[]]; eexists; split; [reflexivity|lra]|]). destruct I.
  - unfold lets_diffuse_light. cbn [A h_light b_qe b_tr b_size b_omega b_pix_wl b_pix_width b_spatial b_slit s_data flat].
    repeat (split; [first [members | apply omega_ok | apply flat_curve | now apply overlap_self | discriminate | (intros ? ?; discriminate)]|]). now apply overlap_self.
  - unfold lets_star_light. cbn [A h_star h_kind P_Star.ex_channel c_area c_qe c_tr c_force ex_aperture].
    repeat (split; [first [members | lra | exact (flat_curve _) | now apply overlap_self | discriminate | (intros ? ?; discriminate)]|]). eexists. split; [reflexivity|]. split; [discriminate|]. cbn. intros f _ [= <-]. lra.
Qed.
Example B_works : works_at [1; 2] B.
Proof.
  assert (G : wavelength_grid [1; 1.4; 1.9]). { split; [repeat constructor; lra|]. split; [cbn; lia|]. intros w I. cbn in I. repeat destruct I as [<-|I]; try lra. }
  split; [|split].
  - apply (sensible "B"); [reflexivity|]. intros k col I N. cbn in I. destruct I as [[= <- <-]|I]; [congruence|]. repeat (destruct I as [[= <- <-]|I]; [intros v [<-|[<-|[]]]; eexists; (split; [reflexivity|lra])|]). destruct I.
  - unfold lets_diffuse_light. cbn [B h_light b_qe b_tr b_size b_omega b_pix_wl b_pix_width b_spatial b_slit s_data flat h_star c_bins].
    repeat (split; [first [members | apply omega_ok | apply flat_curve | now apply overlap_self | (let E := fresh in intros ? [= <-]; members) | discriminate | (intros ? ?; discriminate)]|]).
    exists [1; 1.4; 1.9], [0.4; 0.4; 0.5], [3; 3]. repeat (split; [first [reflexivity | exact G]|]). split; [apply overlap_pixels|]. split.
    + exists 2%nat. cbn [b_delta length]. split; [|lia]. unfold pixels_in. cbn. lra.
    + intros e I. cbn in I. destruct I as [<-|[<-|[]]]; cbn [fst snd]; [exists 1|exists 1.4]; (split; [cbn; auto|lra]).
  - unfold lets_star_light. cbn [B h_star h_kind c_area c_qe c_tr c_force c_bins].
    repeat (split; [first [members | lra | exact (flat_curve _) | now apply overlap_self | discriminate | exact G | reflexivity | apply overlap_pixels]|]).
    split; [eauto|]. split; [intros w g [= <-]; lra|]. intros b [<-|[<-|[]]]; [exists 1|exists 1.4]; (split; [cbn; auto|cbn; lra]).
Qed.
Example run_sensible : sensible_foregrounds sky_over_us.
Proof.
  split; [discriminate|]. intros k d [[= <- <-]|[[= <- <-]|[]]]; cbn [String.eqb Ascii.eqb Bool.eqb].
  - split; [discriminate|]. cbn. intros v [= <-]. lra.
  - split; [eexists; reflexivity|]. unfold haze, described, table_from. cbn. do 6 eexists. repeat (split; [reflexivity|]). cbn. split; [discriminate|]. repeat (split; [reflexivity|]).
    split; [repeat constructor; cbn; intuition lra|]. split; [lra|]. split; members.
Qed.
Example vega_known : black_body (SourceName "Planck") /\ known_star (x_stellar vega).
Proof.
  split; [exists "Planck"%string; split; [reflexivity|]; split; discriminate|]. exists 10, 3200, (2 * 10 ^ 30), 1. repeat (split; [reflexivity|]). lra.
Qed.
(** C81-C89: an observation with this instrument succeeds, whatever was observed before. *)
Example an_observation h : exists y, snd (observe_target run (after both h) vega) = Ok y.
Proof.
  apply (C89_complete_descriptions_observe ns both h run vega sky_over_us (SourceName "Planck")); try reflexivity; try apply vega_known; try discriminate.
  - apply both_instruments.
  - apply ns_quiet.
  - cbn. intuition discriminate.
  - cbn. auto.
  - cbn. auto.
  - apply Forall_forall. intros. apply both_apart.
  - cbn. lra.
  - apply run_sensible.
  - intros H. now destruct H.
  - intros name c wl I G. apply grid_is in G. subst wl. destruct I as [[= <- <-]|[[= <- <-]|[]]]; (split; [apply A_works || apply B_works|]); exists 3; (split; [reflexivity|lra]).
Qed.

Lemma run_foregrounds x g : x_sky x = anywhere -> foregrounds_of run (x_sky x) = Ok g -> exists fs, g_foreground g = Some fs /\ map fst fs = ["zodi"; "haze"]%string.
Proof. intros -> E. cbn in E. injection E as <-. eexists. split; [reflexivity|]. reflexivity. Qed.
Example alone_apart a : columns_apart ns [a] run vega.
Proof.
  intros _ g G fs F k I. destruct (run_foregrounds vega g eq_refl G) as (fs' & F' & E). assert (fs' = fs) as -> by congruence. rewrite E in I. cbn in I. destruct I as [<-|[<-|[]]]; split; cbn; intuition discriminate.
Qed.
(** C81: what A shows in the table of both, after two other observations, is what it shows alone *)
Example A_alone : exists y z T Ta v, snd (observe_target run (after both [(run, vega); (run, vega)]) vega) = Ok y /\ snd (observe_target run (after [("A"%string, A)] [(run, vega)]) vega) = Ok z /\
  x_table y = Some T /\ x_table z = Some Ta /\ shows (cols Ta) "A" "starSignal" v /\ shows (cols T) "A" "starSignal" v.
Proof.
  destruct (an_observation [(run, vega); (run, vega)]) as [y Y].
  destruct (C81_as_if_alone ns both ("A"%string, A) [(run, vega); (run, vega)] [(run, vega)] run vega y both_instruments ns_quiet (or_introl eq_refl)) as (z & T & Ta & Z & _ & _ & TT & TA & S); auto;
    try (apply Forall_forall; intros); try apply both_apart.
  { destruct H as [<-|[]]. apply alone_apart. }
  { apply alone_apart. }
  exists y, z, T, Ta. 
  destruct (C85_what_the_table_holds ns [("A"%string, A)] [(run, vega)] run vega z (instruments_one ns both _ both_instruments (or_introl eq_refl)) ns_quiet) as (T' & st & fs & T1 & _ & _ & _ & _ & H); auto.
  { apply Forall_forall. intros q [<-|[]]. apply alone_apart. }
  { apply alone_apart. }
  assert (T' = Ta) as -> by congruence. destruct (H "A"%string A (or_introl eq_refl)) as (d & o & t & _ & _ & (_ & S2 & _) & _). exists (map num (o_signal o)). repeat (split; [assumption|]).
  apply (proj1 (S "starSignal"%string ltac:(split; [discriminate|intros _; discriminate]))). exact S2.
Qed.
(** C82, C84: a foreground without a table *)
Definition bad_run : setting :=
  {| y_world := ex_world; y_maps := no_maps; y_R := 2; y_version := "2.1"; y_min := P_Foreground.micron 1; y_max := P_Foreground.micron 2;
     y_foreground := Some (Many [("fog"%string, {| as_sky := {| k_value := Some "fog"%string; k_data := None |}; as_zodi := as_zodi (haze 1 1) |})]); y_source := None |}.
Example a_failure h : snd (observe_target bad_run (after both h) vega) = Err KeyError.
Proof. apply (C84_order ns both h bad_run vega both_instruments); [apply Forall_forall; intros; apply both_apart|apply both_apart|reflexivity]. Qed.

(** ** C83: with a single channel, a foreground called "instrument" removes the columns of the channel
    itself, also when the observation fails later on. *)
Lemma filter_gone k (old new : table) : In k (names new) -> sget k (filter (fun x => negb (smem (fst x) new)) old) = None.
Proof.
  intros I. apply sget_None_names. intros J. apply in_map_iff in J as ((k' & col) & E & J). cbn in E. subst k'. apply filter_In in J as [_ J]. cbn [fst] in J. apply smem_names in I. rewrite I in J. discriminate.
Qed.
Lemma stack_one tab : vstack_tables [tab] = Ok ([tab], Some tab).
Proof. unfold vstack_tables. cbn [vstack_go]. destruct (Nat.eqb (n_rows tab) 0); reflexivity. Qed.
Theorem C83_foreground_columns_refuted : forall name c s x g fs d k, foregrounds_of s (x_sky x) = Ok g -> g_foreground g = Some fs ->
  propagate_diffuse_foreground (h_light c) (edges c) (Some fs) = Ok d -> In k (map fst d) -> k <> "sky TR"%string ->
  exists c', fst (observe_target s [(name, c)] x) = [(name, c')] /\ sget k (cols (h_table c')) = None.
Proof.
  intros name c s x g fs d k FG GF D I NK. unfold observe_target, prepare_target. cbn [map fst snd]. unfold merge_channels. cbn [map snd]. rewrite stack_one.
  set (t := {| cols := cols (h_table c); meta := _ |}). cbn [alone length Nat.eqb put_tables combine map fst snd bind]. rewrite FG. cbn [bind]. rewrite GF.
  unfold propagate_foreground_light. cbn [mapM snd]. unfold foreground_of. cbn [with_table h_light]. change (edges _) with (edges c) at 1. rewrite D. cbn [bind]. rewrite stack_one.
  destruct (update_table t _) as [old t'] eqn:U. unfold update_table in U. injection U as <- _. cbn [alone length Nat.eqb put_tables combine map fst snd].
  set (old := {| cols := filter _ _; meta := _ |}). assert (G : sget k (cols old) = None).
  { apply filter_gone. unfold foreground_table, names. cbn [cols]. rewrite map_map. exact I. }
  clearbody old. cbn [bind]. destruct (load s x) as [st|]; cbn [bind fst]; [|eexists; split; [reflexivity|exact G]].
  set (c2 := with_table (with_table c t) old). assert (G2 : sget k (cols (h_table (set_sky c2 (s_wl (st_sed st)) (g_sky g)))) = None).
  { unfold set_sky. destruct (new_sky_column c2 (s_wl (st_sed st)) (g_sky g)); [|exact G]. cbn [with_table h_table cols]. rewrite (dget_dset_other _ String_eqb_spec); auto. }
  unfold propagate_target_light. cbn [propagate_stars]. destruct (propagate_star c2 _ _ _) as [[o t2]|]; cbn [bind fst]; [|eexists; split; [reflexivity|exact G2]].
  rewrite stack_one. eexists. split; [reflexivity|exact G2].
Qed.
Print Assumptions C83_foreground_columns_refuted.
Definition instrument_fog : setting :=
  {| y_world := ex_world; y_maps := no_maps; y_R := 2; y_version := "2.1"; y_min := P_Foreground.micron 1; y_max := P_Foreground.micron 2;
     y_foreground := Some (Many [("fog"%string, described "instrument" (table_from 1 1 [(1, 3, 0.5); (10, 3, 0.5)]) (as_zodi (haze 1 1)))]); y_source := None |}.
Example the_instrument_is_gone : sget "instrument_signal" (cols (h_table A)) <> None /\
  exists c', after [("A"%string, A)] [(instrument_fog, vega)] = [("A"%string, c')] /\ sget "instrument_signal" (cols (h_table c')) = None.
Proof.
  split; [discriminate|]. cbn [after].
  destruct (foregrounds_clear no_maps 2 (P_Foreground.micron 1) (P_Foreground.micron 2) [1; 2] (Many [("fog"%string, described "instrument" (table_from 1 1 [(1, 3, 0.5); (10, 3, 0.5)]) (as_zodi (haze 1 1)))]) anywhere) as (g & EG & (_ & C1 & C2) & _).
  { unfold working_grid, P_Foreground.micron, um_of. cbn [in_um value]. rewrite !Rmult_1_r, ex_logspace. reflexivity. }
  { intros w [<-|[<-|[]]]; lra. }
  { split; [discriminate|]. intros k d [[= <- <-]|[]]. cbn [String.eqb Ascii.eqb Bool.eqb]. split; [eexists; reflexivity|]. unfold described, table_from. cbn. do 6 eexists. repeat (split; [reflexivity|]). cbn. split; [discriminate|]. repeat (split; [reflexivity|]).
    split; [repeat constructor; cbn; intuition lra|]. split; [lra|]. split; members. }
  { split; [intros H; now destruct H|]. split; discriminate. }
  assert (FN : exists f, g_foreground g = Some [("instrument"%string, f)]) by (cbn in EG; injection EG as <-; eexists; reflexivity).
  destruct FN as [f FN]. 
  assert (GR : s_wl (f_light f) = [1; 2] /\ one_value_per_wavelength (f_light f)).
  { refine (lights_grid no_maps 2 (P_Foreground.micron 1) (P_Foreground.micron 2) [1; 2] _ _ _ _ EG _ _ FN "instrument"%string f (or_introl eq_refl)); [|discriminate]. unfold working_grid, P_Foreground.micron, um_of. cbn [in_um value]. rewrite !Rmult_1_r, ex_logspace. reflexivity. }
  destruct (diffuse_goes_through (h_light A) (M_Observe.edges A) [1; 2] [("instrument"%string, f)]) as (d & ED & _); try discriminate.
  { apply ex_wl. } { apply A_works. } { intros k l [[= <- <-]|[]]. destruct GR. split; auto. split; auto. eapply C2; [exact FN|]. now left. }
  destruct (C83_foreground_columns_refuted "A" A instrument_fog vega g _ d "instrument_signal" EG FN ED) as (c' & E & G); eauto; [|discriminate].
  cbn [propagate_diffuse_foreground rev app foregrounds_light] in ED. destruct (foreground_light _ _ _ _ f) as [[[lt t] q]|]; cbn [bind] in ED; [|discriminate]. injection ED as <-. left. reflexivity.
Qed.
