(** Properties of whole observations: C81-C85. *)
From Verif Require Import Base Dict XR M_Signal M_Optics L_Optics M_Light M_Bins M_Star M_Source M_Foreground M_Table S_Table L_Table P_Table M_Observe S_Observe L_Observe L_Stages L_Outcome.
From Verif Require M_Noise P_Noise.
From Verif Require Import S_Signal S_Optics S_Light S_Star S_Source L_Signal L_Light P_Windows L_Source L_Foreground P_Source.
From Verif Require Import M_Table S_Observe.
Open Scope list_scope.

Lemma apart_alright ns chs s x : columns_apart ns chs s x <-> alright ns chs s x.
Proof.
  unfold columns_apart, alright, alone. split; [intros H g G L; apply Nat.eqb_eq in L; eauto|intros H L g G; apply Nat.eqb_eq in L; eauto].
Qed.
Lemma same_self : forall l : list (string * chan), Forall2 same_but_sky l l.
Proof. induction l as [|b l IH]; constructor; auto. repeat split; auto. destruct b as [? []]; reflexivity. Qed.
Lemma after_ok ns chs h : instruments ns chs -> Forall (fun sx => columns_apart ns chs (fst sx) (snd sx)) h -> Forall2 same_but_sky chs (after chs h).
Proof. intros HI A. apply (after_same ns chs HI); [apply same_self|]. eapply Forall_impl; [|exact A]. intros sx. apply apart_alright. Qed.
Lemma observe_shape s chs x y : snd (observe_target s chs x) = Ok y -> x_name y = x_name x /\ x_stellar y = x_stellar x /\ x_star_name y = x_star_name x /\ x_magk y = x_magk x /\
  exists t st, x_table y = Some t /\ x_source y = Some st /\ load s x = Ok st /\ foregrounds_of s (x_sky x) = Ok (x_sky y).
Proof.
  unfold observe_target. destruct (prepare_target s chs x) as [chs1 [t1|]]; cbn [bind snd]; [|discriminate]. destruct (foregrounds_of s (x_sky x)) as [g|]; cbn [bind snd]; [|discriminate].
  destruct (propagate_foreground_light chs1 (g_foreground g) t1) as [chs2 [t2|]]; cbn [bind snd]; [|discriminate]. destruct (load s x) as [st|]; cbn [bind snd]; [|discriminate].
  destruct (propagate_target_light chs2 (st_sed st) (g_sky g) t2) as [chs3 [t3|]]; cbn [bind snd]; [|discriminate]. destruct (M_Noise.estimate_noise t3 _) as [t4|]; cbn [bind snd]; [|discriminate].
  intros [= <-]. cbn. repeat split; auto. exists t4, st. auto.
Qed.
Lemma seen_ok s chs x g st T : seen (snd (observe_target s chs x)) = Ok (g, st, T) -> exists y t, snd (observe_target s chs x) = Ok y /\ x_sky y = g /\ x_source y = st /\ x_table y = Some t /\ T = keep (loud (g_sky g)) (cols t).
Proof.
  intros E. destruct (snd (observe_target s chs x)) as [y|] eqn:O; cbn in E; [|discriminate]. injection E as <- <- <-. destruct (observe_shape _ _ _ _ O) as (_ & _ & _ & _ & t & st & TT & _). rewrite TT. exists y, t. auto 10.
Qed.
Lemma fresh_loud y k : fresh_column y k <-> loud (g_sky (x_sky y)) k = true.
Proof.
  unfold fresh_column, loud. rewrite andb_true_iff, negb_true_iff, String.eqb_neq. destruct (g_sky (x_sky y)); [intuition discriminate|]. rewrite negb_true_iff, String.eqb_neq. intuition.
Qed.

(** ** C83: what was observed before does not matter *)
Theorem C83_history_free : forall ns chs h1 h2 s x, instruments ns chs ->
  Forall (fun sx => columns_apart ns chs (fst sx) (snd sx)) h1 -> Forall (fun sx => columns_apart ns chs (fst sx) (snd sx)) h2 -> columns_apart ns chs s x ->
  alike (snd (observe_target s (after chs h1) x)) (snd (observe_target s (after chs h2) x)).
Proof.
  intros ns chs h1 h2 s x HI H1 H2 AP. apply apart_alright in AP.
  pose proof (observe_seen ns chs HI s _ x (after_ok ns chs h1 HI H1) AP) as E1. pose proof (observe_seen ns chs HI s _ x (after_ok ns chs h2 HI H2) AP) as E2.
  rewrite <- E1 in E2. clear E1. unfold alike. destruct (snd (observe_target s (after chs h1) x)) as [y|] eqn:O1; destruct (snd (observe_target s (after chs h2) x)) as [y'|] eqn:O2; cbn in E2; try congruence.
  destruct (observe_shape _ _ _ _ O1) as (_ & _ & _ & _ & t & st & T1 & _). destruct (observe_shape _ _ _ _ O2) as (_ & _ & _ & _ & t' & st' & T2 & _). rewrite T1, T2 in E2. injection E2 as G S K.
  repeat split; auto. exists t, t'. repeat split; auto. intros k F. apply fresh_loud in F. rewrite G in K.
  assert (X : forall u, sget k (keep (loud (g_sky (x_sky y))) (cols u)) = sget k (cols u)) by (intros u; now rewrite keep_get, F). rewrite <- (X t), <- (X t'), K. reflexivity.
Qed.
Print Assumptions C83_history_free.
(** The channels themselves stay as they were built, but for the column "sky TR", through failures too. *)
Theorem C83_channels_kept : forall ns chs h, instruments ns chs -> Forall (fun sx => columns_apart ns chs (fst sx) (snd sx)) h -> Forall2 same_but_sky chs (after chs h).
Proof. exact after_ok. Qed.
Print Assumptions C83_channels_kept.

(** ** C81: each channel is observed as if it were alone *)
Lemma instruments_one ns chs a : instruments ns chs -> In a chs -> instruments ns [a].
Proof. apply instruments_In. Qed.
Theorem C81_as_if_alone : forall ns chs a h1 h2 s x y, instruments ns chs -> quiet ns -> In a chs ->
  Forall (fun sx => columns_apart ns chs (fst sx) (snd sx)) h1 -> Forall (fun sx => columns_apart ns [a] (fst sx) (snd sx)) h2 -> columns_apart ns chs s x -> columns_apart ns [a] s x ->
  snd (observe_target s (after chs h1) x) = Ok y ->
  exists z T Ta, snd (observe_target s (after [a] h2) x) = Ok z /\ x_sky z = x_sky y /\ x_source z = x_source y /\ x_table y = Some T /\ x_table z = Some Ta /\
    forall k, fresh_column y k ->
      (forall v, shows (cols Ta) (fst a) k v -> shows (cols T) (fst a) k v) /\
      (forall v, shows (cols T) (fst a) k v -> shows (cols Ta) (fst a) k v \/ sget k (cols Ta) = None /\ exists u n, v = repeat u n /\ (u = Num (Fin 0) \/ u = Num NaN)).
Proof.
  intros ns chs a h1 h2 s x y HI Q IA H1 H2 AP APa E. apply apart_alright in AP. apply apart_alright in APa. assert (HIa := instruments_one ns chs a HI IA).
  pose proof (observe_seen ns chs HI s _ x (after_ok ns chs h1 HI H1) AP) as E1. pose proof (observe_seen ns [a] HIa s _ x (after_ok ns [a] h2 HIa H2) APa) as E2.
  destruct (observe_shape _ _ _ _ E) as (_ & _ & _ & _ & t & st & T1 & T2 & _). rewrite E in E1. cbn [seen bind] in E1. rewrite T1 in E1. symmetry in E1.
  destruct (pure_split ns chs HI Q s x a AP IA APa _ _ _ E1) as (Ta & PA & S1 & S2). rewrite PA in E2. apply seen_ok in E2 as (z & ta & E2 & G & ST & TA & KA).
  exists z, t, ta. repeat split; auto.
  - intros v V. apply fresh_loud in H. pose proof (loud_sees (g_sky (x_sky y))) as (_ & _ & LC & _). apply (shows_keep (loud (g_sky (x_sky y)))) in V; auto. rewrite <- KA in V.
    apply (shows_keep (loud (g_sky (x_sky y)))); auto. apply select_shows in V. apply select_shows. destruct (S1 k) as [_ ->]; auto. unfold select in V. destruct (sget k Ta) eqn:X; [|discriminate]. apply sget_names. eauto.
  - intros v V. apply fresh_loud in H. pose proof (loud_sees (g_sky (x_sky y))) as (_ & _ & LC & _). apply (shows_keep (loud (g_sky (x_sky y)))) in V; auto. apply select_shows in V.
    destruct (sget k Ta) eqn:X.
    + left. apply (shows_keep (loud (g_sky (x_sky y)))); auto. rewrite <- KA. apply select_shows. destruct (S1 k) as [_ <-]; auto. apply sget_names. eauto.
    + right. rewrite KA, keep_get, H in X. split; auto. destruct (S2 k) as (u & n & U1 & U2); [|apply sget_None_names; now rewrite KA, keep_get, H|].
      { unfold select in V. destruct (sget k (keep (loud (g_sky (x_sky y))) (cols t))) eqn:Z; [|discriminate]. apply sget_names. eauto. }
      exists u, n. rewrite U1 in V. injection V as <-. auto.
Qed.
Print Assumptions C81_as_if_alone.

(** ** C82: an observation fails exactly if that of one of its channels fails *)
Theorem C82_fails_as_one_alone : forall ns chs h s x (ha : string * chan -> list (setting * target)), instruments ns chs -> quiet ns ->
  Forall (fun sx => columns_apart ns chs (fst sx) (snd sx)) h -> (forall a, In a chs -> Forall (fun sx => columns_apart ns [a] (fst sx) (snd sx)) (ha a)) ->
  columns_apart ns chs s x -> (forall a, In a chs -> columns_apart ns [a] s x) ->
  (exists y, snd (observe_target s (after chs h) x) = Ok y) <-> (forall a, In a chs -> exists z, snd (observe_target s (after [a] (ha a)) x) = Ok z).
Proof.
  intros ns chs h s x ha HI Q H HA AP APa. split.
  - intros (y & E) a IA. destruct (C81_as_if_alone ns chs a h (ha a) s x y HI Q IA H (HA a IA) AP (APa a IA) E) as (z & _ & _ & Z & _). eauto.
  - intros ALL. apply apart_alright in AP. pose proof (observe_seen ns chs HI s _ x (after_ok ns chs h HI H) AP) as E1.
    destruct (snd (observe_target s (after chs h) x)) as [y|e] eqn:O; [eauto|]. exfalso. cbn in E1. symmetry in E1. apply (pure_error ns chs HI) in E1 as (a & IA & E1); auto.
    destruct (ALL a IA) as (z & Z). assert (HIa := instruments_one ns chs a HI IA). pose proof (proj1 (apart_alright _ _ _ _) (APa a IA)) as A1.
    pose proof (observe_seen ns [a] HIa s _ x (after_ok ns [a] (ha a) HIa (HA a IA)) A1) as E2. rewrite E1, Z in E2. discriminate.
Qed.
Print Assumptions C82_fails_as_one_alone.
Theorem C82_same_error : forall ns chs h s x e (ha : string * chan -> list (setting * target)), instruments ns chs ->
  Forall (fun sx => columns_apart ns chs (fst sx) (snd sx)) h -> (forall a, In a chs -> Forall (fun sx => columns_apart ns [a] (fst sx) (snd sx)) (ha a)) ->
  columns_apart ns chs s x -> (forall a, In a chs -> columns_apart ns [a] s x) ->
  snd (observe_target s (after chs h) x) = Err e -> exists a, In a chs /\ snd (observe_target s (after [a] (ha a)) x) = Err e.
Proof.
  intros ns chs h s x e ha HI H HA AP APa O. apply apart_alright in AP. pose proof (observe_seen ns chs HI s _ x (after_ok ns chs h HI H) AP) as E1. rewrite O in E1. cbn in E1. symmetry in E1.
  apply (pure_error ns chs HI) in E1 as (a & IA & E1); auto. exists a. split; auto. assert (HIa := instruments_one ns chs a HI IA). pose proof (proj1 (apart_alright _ _ _ _) (APa a IA)) as A1.
  pose proof (observe_seen ns [a] HIa s _ x (after_ok ns [a] (ha a) HIa (HA a IA)) A1) as E2. rewrite E1 in E2. destruct (snd (observe_target s (after [a] (ha a)) x)); cbn in E2; congruence.
Qed.
Print Assumptions C82_same_error.

(** ** C85: what the table of an observation holds *)
Lemma blocks_keep chs0 K owns mt r : Forall2 (block_of K) chs0 owns -> NoDup K -> In "chName"%string K -> NoDup (map fst chs0) -> chs0 <> [] ->
  M_Noise.estimate_noise {| cols := glue K owns; meta := mt |} (nchans chs0) = Ok r -> forall a o k, In (a, o) (combine chs0 owns) -> In k K -> ordinary k -> k <> "MaxSignal_inPixel"%string ->
  select (fst a) k (cols r) = Ok (col_of k o).
Proof.
  intros F ND CN NC NE E a o k I IK (O1 & O2 & O3) NM. destruct (blocks_whole chs0 K owns F ND CN NC NE) as [W1 W2]. destruct (blocks_aligned chs0 K owns F CN NC NE) as (A1 & A2 & A3 & A4).
  destruct (P_Noise.estimate_noise_inv_full {| cols := glue K owns; meta := mt |} (nchans chs0) (map bins_of chs0) (nbins chs0) r W1 W2 A1 A2 A3 A4 E) as (t1 & new & M1 & _ & KP & _).
  destruct (P_Noise.max_signal_inv {| cols := glue K owns; meta := mt |} t1 _ W1 W2 M1) as (_ & _ & G1). cbn [cols] in G1.
  transitivity (select (fst a) k (glue K owns)).
  - unfold select. rewrite (KP k), (KP "chName"%string), !G1 by (auto; try discriminate; apply (ordinary_end "chName"); try reflexivity; discriminate). reflexivity.
  - replace owns with (map snd (combine (map fst chs0) owns)) at 1.
    + apply select_glue; auto.
      * apply Forall_forall. intros [n u] J. cbn [fst snd].
        assert (J1 : exists b, In (b, u) (combine chs0 owns) /\ fst b = n).
        { revert J. clear. revert owns. induction chs0 as [|b l IH]; intros [|v w] J; cbn in J; try destruct J as [[= <- <-]|J]; try contradiction; [exists b; split; auto; now left|]. destruct (IH _ J) as (b' & X & Y). exists b'. split; auto. now right. }
        destruct J1 as (b & J1 & <-). destruct (In_combine_F2 _ _ _ F _ _ J1) as (N2 & R2 & C2 & P2 & _). assert (NR2 : n_rows u = bins_of b) by now apply (nonempty_rows K).
        split; [split; [split; [now rewrite N2|now rewrite NR2]|lia]|]. split; auto. unfold labelled. now rewrite NR2.
      * rewrite map_fst_combine'; auto. rewrite map_length. eapply Forall2_len; eauto.
      * revert I. clear. revert owns. induction chs0 as [|b l IH]; intros [|v w] I1; cbn in *; try tauto. destruct I1 as [[= -> ->]|I1]; auto.
    + assert (L : length (map fst chs0) = length owns) by (rewrite map_length; eapply Forall2_len; eauto). revert L. clear. revert owns. induction (map fst chs0) as [|x l IH]; intros [|y w] L; cbn in *; try discriminate; auto. f_equal. auto.
Qed.
Definition star_names : list string := ["starFlux"; "starSignal"; "star_signal_inAperture"; "star_MaxSignal_inPixel"; "foreground_transmission"]%string.
Theorem C85_what_the_table_holds : forall ns chs h s x y, instruments ns chs -> quiet ns ->
  Forall (fun sx => columns_apart ns chs (fst sx) (snd sx)) h -> columns_apart ns chs s x -> snd (observe_target s (after chs h) x) = Ok y ->
  exists T st fs, x_table y = Some T /\ x_source y = Some st /\ load s x = Ok st /\ foregrounds_of s (x_sky x) = Ok (x_sky y) /\ g_foreground (x_sky y) = Some fs /\
  forall name c, In (name, c) chs -> exists d o t, propagate_diffuse_foreground (h_light c) (edges c) (Some fs) = Ok d /\ propagate_star c None (st_sed st) (g_sky (x_sky y)) = Ok (o, t) /\
    (shows (cols T) name "starFlux" (map num (o_flux o)) /\ shows (cols T) name "starSignal" (map num (o_signal o)) /\
     shows (cols T) name "star_signal_inAperture" (map num (o_aperture o)) /\ shows (cols T) name "star_MaxSignal_inPixel" (map num (o_max o)) /\
     (g_sky (x_sky y) <> None -> exists tr, o_sky o = Some tr /\ shows (cols T) name "foreground_transmission" (map cell_of tr))) /\
    (forall k v, sget k d = Some v -> k <> "star_MaxSignal_inPixel"%string -> shows (cols T) name k (map num v)) /\
    (forall k col, sget k (cols (h_table c)) = Some col -> sget k d = None -> ~ In k star_names -> k <> "MaxSignal_inPixel"%string -> shows (cols T) name k col).
Proof.
  intros ns chs h s x y HI Q H AP E. apply apart_alright in AP. pose proof (observe_seen ns chs HI s _ x (after_ok ns chs h HI H) AP) as E1.
  destruct (observe_shape _ _ _ _ E) as (_ & _ & _ & _ & T & st & T1 & T2 & LD & FG). rewrite E in E1. cbn [seen bind] in E1. rewrite T1, T2 in E1. symmetry in E1.
  unfold pure in E1. destruct (owns_of s x chs) as [[[g0 st0] owns]|] eqn:EO; cbn [bind fst snd] in E1; [|discriminate].
  destruct (M_Noise.estimate_noise _ _) as [r|] eqn:EN; cbn [bind] in E1; [|discriminate]. injection E1 as G S K.
  destruct (owns_ready ns chs HI g0 st0 owns s x EO (ex_intro _ _ (same_self _)) AP) as (KK & (K1' & K2 & K3) & KE & B & FO). rewrite KE in EN. subst g0 st0.
  assert (NE : chs <> []) by apply HI. assert (NC : NoDup (map fst chs)) by apply HI.
  assert (X : exists fs, g_foreground (x_sky y) = Some fs).
  { destruct (g_foreground (x_sky y)) as [fs|]; [eauto|]. exfalso. destruct FO as [|a o l m Y FO]; [congruence|]. unfold own, foreground_of in Y. discriminate. }
  destruct X as [fs FS]. exists T, st, fs. repeat split; auto. intros name c IC.
  assert (LEN : length chs = length owns) by (eapply Forall2_len; eauto). destruct (combine_In_l chs owns _ LEN IC) as [o IO].
  pose proof (In_combine_F2 _ _ _ FO _ _ IO) as Y. pose proof (In_combine_F2 _ _ _ B _ _ IO) as (NO & _).
  assert (AB : as_built ns (name, c)) by (destruct HI as (_ & _ & _ & _ & _ & AB); rewrite Forall_forall in AB; auto).
  unfold own in Y. cbn [snd] in Y. rewrite FS in Y. destruct (foreground_of (Some fs) c) as [f|] eqn:Hf; cbn [bind] in Y; [|discriminate]. destruct (own_star c (st_sed st) (g_sky (x_sky y))) as [so|] eqn:Hs; cbn [bind] in Y; [|discriminate]. injection Y as <-.
  destruct (foreground_of_shape _ _ _ (built_sized _ _ AB) Hf) as [[N1 _] _]. destruct (own_star_shape _ _ _ _ (built_sized _ _ AB) Hs) as [N2 _]. cbn [snd] in N1, N2.
  unfold foreground_of in Hf. destruct (propagate_diffuse_foreground (h_light c) (edges c) (Some fs)) as [d|] eqn:Hd; cbn [bind] in Hf; [|discriminate]. injection Hf as <-.
  unfold own_star in Hs. destruct (propagate_star c None (st_sed st) (g_sky (x_sky y))) as [[o t]|] eqn:Ho; cbn [bind] in Hs; [|discriminate]. injection Hs as <-.
  exists d, o, t. split; auto. split; auto.
  set (sky := g_sky (x_sky y)) in *. set (so := keep (loud sky) (star_columns o)) in *. set (own_ := override (override (base (name, c)) (foreground_table d)) so) in *.
  assert (FT : forall k, sget k (foreground_table d) = option_map (map num) (sget k d)).
  { intros k. unfold foreground_table. clear. induction d as [|[k' v] d IH]; cbn; auto. destruct (String.eqb k k'); auto. }
  assert (SHOW : forall k col, sget k own_ = Some col -> k <> "MaxSignal_inPixel"%string -> shows (cols T) name k col).
  { intros k col GK NM. assert (IK : In k KK) by (rewrite <- NO; apply sget_names; eauto).
    pose proof (blocks_keep chs KK owns [] r B K1' K2 NC NE EN (name, c) own_ k IO IK (K3 Q k IK) NM) as SL. unfold col_of in SL. rewrite GK in SL. cbn [fst] in SL. apply select_shows in SL. rewrite K in SL.
    assert (LK : loud sky k = true). { destruct SL as (l & cc & _ & SL & _). rewrite keep_get in SL. destruct (loud sky k); auto. discriminate. }
    apply shows_keep in SL; auto. apply (loud_sees sky). }
  assert (SO : forall k col, sget k (star_columns o) = Some col -> loud sky k = true -> sget k own_ = Some col).
  { intros k col GK LK. unfold own_. rewrite override_get. unfold so. rewrite keep_get, LK, GK. auto. }
  assert (OS : sky <> None -> exists tr, o_sky o = Some tr).
  { intros NS. destruct (o_sky o) as [tr|] eqn:OS; [eauto|]. exfalso. assert (JJ : In "foreground_transmission"%string (names so)) by (rewrite N2; unfold skeys; destruct sky; [now left|congruence]). apply sget_names in JJ as [v V]. unfold so in V. rewrite keep_get in V. destruct (loud sky _); [|discriminate].
    unfold star_columns in V. rewrite OS in V. cbn in V. discriminate. }
  split; [|split].
  - assert (LL : forall k, In k ["starFlux"; "starSignal"; "star_signal_inAperture"; "star_MaxSignal_inPixel"]%string -> loud sky k = true). { intros k IK. unfold loud. cbn in IK. repeat (destruct IK as [<-|IK]; [destruct sky; reflexivity|]). destruct IK. }
    split; [|split; [|split; [|split]]].
    + apply SHOW; [|discriminate]. apply SO; [|apply LL; cbn; auto]. unfold star_columns. destruct (o_sky o); reflexivity.
    + apply SHOW; [|discriminate]. apply SO; [|apply LL; cbn; auto]. unfold star_columns. destruct (o_sky o); reflexivity.
    + apply SHOW; [|discriminate]. apply SO; [|apply LL; cbn; auto]. unfold star_columns. destruct (o_sky o); reflexivity.
    + apply SHOW; [|discriminate]. apply SO; [|apply LL; cbn; auto]. unfold star_columns. destruct (o_sky o); reflexivity.
    + intros NS. destruct (OS NS) as [tr TR]. exists tr. split; auto. apply SHOW; [|discriminate]. apply SO; [unfold star_columns; rewrite TR; reflexivity|]. unfold loud. destruct sky; [reflexivity|congruence].
  - intros k v GK NM. assert (IK : In k (fk fs)). { unfold fk. rewrite <- N1. apply sget_names. rewrite FT, GK. cbn. eauto. }
    assert (SF : (exists f, k = (f ++ "_signal")%string) \/ exists f, k = (f ++ "_MaxSignal_inPixel")%string) by (apply fk_In in IK as (f & _ & [-> | ->]); eauto).
    apply SHOW.
    + unfold own_. rewrite override_get. assert (sget k so = None) as ->.
      { apply sget_None_names. rewrite N2. intros J. unfold skeys in J. apply in_app_iff in J. cbn in J.
        assert (KN : k = "foreground_transmission"%string \/ k = "starFlux"%string \/ k = "starSignal"%string \/ k = "star_signal_inAperture"%string).
        { destruct J as [J|J]; [destruct sky; [destruct J as [<-|[]]; auto|destruct J]|]. repeat (destruct J as [<-|J]; [auto; congruence|]). destruct J. }
        destruct SF as [[f ->]|[f ->]]; repeat (destruct KN as [KN|KN]; [revert KN; apply suffix_not; reflexivity|]); revert KN; apply suffix_not; reflexivity. }
      rewrite override_get, FT, GK. reflexivity.
    + destruct SF as [[f ->]|[f ->]]; [apply suffix_not; reflexivity|]. intros J. apply (f_equal (fun s => length (str_chars s))) in J. rewrite str_chars_app, app_length in J. destruct f; [discriminate J|]. cbn in J. lia.
  - intros k col GK ND NI NM. apply SHOW; auto. unfold own_. rewrite override_get. assert (sget k so = None) as ->.
    { apply sget_None_names. rewrite N2. intros J. apply NI. unfold skeys in J. unfold star_names. apply in_app_iff in J. cbn in *. destruct J as [J|J]; [destruct sky; [destruct J as [<-|[]]; auto 10|destruct J]|tauto]. }
    rewrite override_get, FT, ND. cbn. unfold base. cbn. exact GK.
Qed.
Print Assumptions C85_what_the_table_holds.

(** The star's spectrum and the sky transmission are given at the same wavelengths, if the range is
    given in um: C64-C67 apply to the star's light. *)
Lemma sky_grid m n a b wl : working_grid n a b = Ok wl -> forall f t t', estimate_foregrounds m n a b f t = Ok t' ->
  (forall sk, g_sky t = Some sk -> s_wl sk = wl /\ length (s_data sk) = length wl) -> forall sk, g_sky t' = Some sk -> s_wl sk = wl /\ length (s_data sk) = length wl.
Proof.
  intros W. assert (ONE : forall k d t t', estimate_one m n a b k d t = Ok t' -> (forall sk, g_sky t = Some sk -> s_wl sk = wl /\ length (s_data sk) = length wl) -> forall sk, g_sky t' = Some sk -> s_wl sk = wl /\ length (s_data sk) = length wl).
  { intros k d t t' E H sk G. unfold estimate_one in E. destruct (String.eqb k "zodiacal").
    - unfold estimate_zodi in E. rewrite W in E. cbn [bind] in E. destruct (match g_ra t with Some _ => _ | None => _ end) as [co|]; cbn [bind] in E; [|discriminate]. destruct (zodi_factor m _ co) as [A|]; cbn [bind] in E; [|discriminate]. injection E as <-. cbn in G. auto.
    - unfold estimate_foreground in E. rewrite W in E. cbn [bind] in E. destruct (lookup (k_value _)) as [nm|]; cbn [bind] in E; [|discriminate]. destruct (sky_filter wl (as_sky d)) as [f|] eqn:SF; cbn [bind] in E; [|discriminate].
      destruct (lookup (f_transmission f)) as [tr|] eqn:FT; cbn [bind] in E; [|discriminate]. destruct (filter_length n a b wl _ _ W SF) as (tr' & FT' & LT & _). rewrite <- (grid_length _ _ _ _ W) in LT.
      assert (tr' = tr) as -> by (rewrite FT' in FT; cbn in FT; congruence).
      destruct (g_sky t) as [s0|] eqn:GS.
      + destruct (times (s_data s0) tr) as [z|] eqn:TM; cbn [bind] in E; [|discriminate]. injection E as <-. cbn in G. injection G as <-. cbn. destruct (H s0 eq_refl) as [H1 H2]. split; auto. unfold times in TM. destruct (Nat.eqb_spec (length (s_data s0)) (length tr)); [|discriminate]. injection TM as <-. unfold mul. rewrite map_length, combine_length. lia.
      + cbn [bind] in E. injection E as <-. cbn in G. injection G as <-. cbn. auto. }
  intros f t t' E. destruct f as [l|d]; cbn in E.
  - revert t E. induction l as [|[k d] l IH]; intros t E H; cbn in E; [injection E as <-; auto|]. destruct (estimate_one m n a b k d t) as [t1|] eqn:E1; cbn [bind] in E; [|discriminate]. eapply IH; eauto.
  - destruct (lookup (k_value (as_sky d))) as [v|]; cbn [bind] in E; [|discriminate]. eauto.
Qed.
Theorem C85_light_of_the_star : forall s chs x y st, in_um (y_min s) = Some 1%R -> in_um (y_max s) = Some 1%R -> (0 < value (y_min s) < value (y_max s))%R -> (2 <= y_R s)%nat ->
  y_foreground s <> None -> g_sky (x_sky x) = None -> snd (observe_target s chs x) = Ok y -> x_source y = Some st ->
  source_ (st_sed st) /\ sky_on (st_sed st) (g_sky (x_sky y)).
Proof.
  intros s chs x y st U1 U2 V N FS GS E XS. destruct (observe_shape _ _ _ _ E) as (_ & _ & _ & _ & T & st' & _ & XS' & LD & FG). assert (st' = st) as -> by congruence.
  unfold load in LD. destruct (lookup (y_source s)) as [src|]; cbn [bind] in LD; [|discriminate]. destruct (load_source (y_world s) (y_R s) (y_min s) (y_max s) (x_stellar x) src) as [st1|] eqn:LS; cbn [bind] in LD; [|discriminate].
  destruct (add_star_metadata _ _ _ _ _) as [?|]; cbn [bind] in LD; [|discriminate]. injection LD as ->.
  assert (MI : microns (y_min s) = value (y_min s)) by (unfold microns; rewrite U1; ring). assert (MA : microns (y_max s) = value (y_max s)) by (unfold microns; rewrite U2; ring).
  destruct (C76_wavelengths_of_the_source _ _ _ _ _ _ _ (or_intror U1) (or_intror U2) ltac:(lra) ltac:(lra) ltac:(lra) N LS) as (WG & L1 & L2 & _).
  split; [split; auto; unfold one_value_per_wavelength; congruence|].
  destruct (load_inv _ _ _ _ _ _ _ LS) as (lo & hi & st0 & Ew & _ & _ & Er & _).
  assert (WR : lo = y_min s /\ hi = y_max s).
  { unfold wl_range in Ew. rewrite U1, U2 in Ew. assert (Rltb (um_of (y_max s)) (um_of (y_min s)) = false) as X by (unfold um_of; rewrite U1, U2; apply Rltb_false; lra). rewrite X, U1 in Ew. split; congruence. }
  destruct WR as [-> ->]. destruct (resample_ok _ _ _ (proj1 (logspace_spec (value (y_min s)) (value (y_max s)) (y_R s) V N)) Er) as (WL & _).
  destruct (y_foreground s) as [f|] eqn:YF; [|congruence]. unfold foregrounds_of in FG. rewrite YF in FG.
  assert (WGr : working_grid (y_R s) (y_min s) (y_max s) = Ok (logspace (value (y_min s)) (value (y_max s)) (y_R s))) by (unfold working_grid, um_of; rewrite U1, U2, !Rmult_1_r; reflexivity).
  destruct (g_sky (x_sky y)) as [sk|] eqn:SK; [|exact I]. destruct (sky_grid _ _ _ _ _ WGr _ _ _ FG ltac:(rewrite GS; discriminate) sk SK) as [S1 S2].
  split; [congruence|]. unfold one_value_per_wavelength. congruence.
Qed.
Print Assumptions C85_light_of_the_star.

(** The header of the table says what was observed, and with which version. *)
Theorem C85_header : forall s chs x y T, snd (observe_target s chs x) = Ok y -> x_table y = Some T ->
  sget "name" (meta T) = Some (x_name x) /\ sget "ExoRad version" (meta T) = Some (y_version s) /\
  forall k v, k <> "name"%string -> k <> "ExoRad version"%string -> sget k (meta T) = Some v -> exists name c, In (name, c) chs /\ In (k, v) (meta (h_table c)).
Proof.
  intros s chs x y T E XT. unfold observe_target in E. destruct (prepare_target s chs x) as [chs1 [t1|]] eqn:P; cbn [bind snd] in E; [|discriminate]. destruct (foregrounds_of s (x_sky x)) as [g|]; cbn [bind snd] in E; [|discriminate].
  destruct (propagate_foreground_light chs1 (g_foreground g) t1) as [chs2 [t2|]] eqn:F; cbn [bind snd] in E; [|discriminate]. destruct (load s x) as [st|]; cbn [bind snd] in E; [|discriminate].
  destruct (propagate_target_light chs2 (st_sed st) (g_sky g) t2) as [chs3 [t3|]] eqn:L; cbn [bind snd] in E; [|discriminate]. destruct (M_Noise.estimate_noise t3 _) as [t4|] eqn:N; cbn [bind snd] in E; [|discriminate].
  injection E as <-. cbn [x_table] in XT. injection XT as <-.
  assert (M4 : meta t4 = meta t3).
  { unfold M_Noise.estimate_noise, estimate_max_signal in N. destruct (sget "Wavelength" (cols t3)); cbn [bind] in N; [|discriminate]. destruct (add_columns _ _) as [m|]; cbn [bind] in N; [|discriminate].
    destruct (mapM _ _) as [outs|]; cbn [bind] in N; [|discriminate]. destruct (vstack_tables _) as [[ts [r|]]|]; cbn [bind] in N; try discriminate. injection N as <-. reflexivity. }
  assert (M3 : meta t3 = meta t2).
  { unfold propagate_target_light in L. destruct (propagate_stars _ _ _) as [c [tabs|]]; [|discriminate]. destruct (vstack_tables tabs) as [[ts [r|]]|]; try discriminate. injection L as _ <-. reflexivity. }
  assert (M2 : meta t2 = meta t1).
  { unfold propagate_foreground_light in F. destruct (mapM _ _) as [tabs|]; [|discriminate]. destruct (vstack_tables tabs) as [[ts [r|]]|]; try discriminate. cbn [update_table] in F. injection F as _ <-. reflexivity. }
  rewrite M4, M3, M2. unfold prepare_target in P. destruct (merge_channels _) as [[ts [t|]]|]; try discriminate. injection P as _ <-. cbn [meta header].
  set (mm := fold_left _ chs []). change (dupdate String.eqb mm [("name"%string, x_name x); ("ExoRad version"%string, y_version s)]) with (sset "ExoRad version" (y_version s) (sset "name" (x_name x) mm)).
  split; [rewrite (dget_dset_other _ String_eqb_spec) by discriminate; apply (dget_dset_same _ String_eqb_spec)|]. split; [apply (dget_dset_same _ String_eqb_spec)|].
  intros k v K1 K2 G. rewrite !(dget_dset_other _ String_eqb_spec) in G by auto. clear -G.
  assert (A : forall (l : channels) (m0 : sdict string), sget k (fold_left (fun m c => dupdate String.eqb m (meta (h_table (snd c)))) l m0) = Some v -> sget k m0 = Some v \/ exists name c, In (name, c) l /\ In (k, v) (meta (h_table c))).
  { clear. induction l as [|[name c] l IH]; intros m0 H; cbn [fold_left] in H; [now left|]. apply IH in H as [H|(n & c' & I & J)]; [|right; exists n, c'; split; [now right|auto]].
    rewrite (dget_dupdate _ String_eqb_spec) in H. destruct (sget k (rev (meta (h_table (snd (name, c)))))) as [u|] eqn:R; [|now left]. right. exists name, c. split; [now left|]. injection H as <-. assert (In_ : forall (d : list (string * string)), sget k d = Some u -> In (k, u) d) by (clear; induction d as [|[a b] d IH]; cbn; [discriminate|]; destruct (String.eqb k a) eqn:E; [apply String.eqb_eq in E as ->; intros [= ->]; now left|right; auto]). apply In_ in R. now apply in_rev in R. }
  apply A in G as [G|G]; [discriminate|exact G].
Qed.
Print Assumptions C85_header.

(** With the star: its name, mass, temperature, radius, distance, luminosity and model, and its magnitude
    if it has one. *)
Theorem C85_header_of_the_star : forall s chs x y, snd (observe_target s chs x) = Ok y ->
  exists st h n, x_source y = Some st /\ x_header y = Some h /\ x_star_name x = Some n /\
  (sget "name" h = Some (MText (x_name x)) /\ sget "ExoRad version" h = Some (MText (y_version s)) /\ sget "starName" h = Some (MText n)) /\
  (noted h "starM" (t_M (x_stellar x)) /\ noted h "starTeff" (t_Teff (x_stellar x)) /\ noted h "starR" (t_R (x_stellar x)) /\ noted h "starDistance" (t_D (x_stellar x))) /\
  (sget "starL" h = Some (MNumber (st_luminosity st)) /\ sget "starModel" h = Some (MText (st_model st)) /\ forall m, x_magk x = Some m -> sget "starMagK" h = Some (MNumber m)) /\
  forall k v, sget k h = Some v ->
    In k ["name"; "ExoRad version"; "starName"; "starM"; "starTeff"; "starR"; "starDistance"; "starL"; "starModel"]%string \/ (k = "starMagK"%string /\ x_magk x <> None)
    \/ exists name c t, In (name, c) chs /\ In (k, t) (meta (h_table c)) /\ v = MText t.
Proof.
  intros s chs x y E. destruct (observe_shape _ _ _ _ E) as (_ & _ & _ & _ & T & st & XT & XS & LD & _). pose proof (C85_header _ _ _ _ _ E XT) as (HN & HV & HO).
  assert (XH : x_header y = star_header x st T).
  { unfold observe_target in E. destruct (prepare_target s chs x) as [chs1 [t1|]]; cbn [bind snd] in E; [|discriminate]. destruct (foregrounds_of s (x_sky x)) as [g|]; cbn [bind snd] in E; [|discriminate].
    destruct (propagate_foreground_light chs1 (g_foreground g) t1) as [chs2 [t2|]]; cbn [bind snd] in E; [|discriminate]. destruct (load s x) as [st2|]; cbn [bind snd] in E; [|discriminate].
    destruct (propagate_target_light chs2 (st_sed st2) (g_sky g) t2) as [chs3 [t3|]]; cbn [bind snd] in E; [|discriminate]. destruct (M_Noise.estimate_noise t3 _) as [t4|]; cbn [bind snd] in E; [|discriminate].
    injection E as <-. cbn in *. congruence. }
  unfold load in LD. destruct (lookup (y_source s)) as [src|]; cbn [bind] in LD; [|discriminate]. destruct (load_source _ _ _ _ _ _) as [st'|]; cbn [bind] in LD; [|discriminate].
  unfold add_star_metadata at 1 in LD. destruct (x_star_name x) as [n|] eqn:XN; [|discriminate]. cbn [bind] in LD. injection LD as ->.
  unfold star_header, add_star_metadata in XH. rewrite XN in XH.
  set (h0 := map (fun e => (fst e, MText (snd e))) (meta T)) in XH.
  assert (GO : forall k, sget k h0 = match sget k (meta T) with Some t => Some (MText t) | None => None end).
  { intros k. subst h0. generalize (meta T). intros mt. induction mt as [|[a b] mt IH]; cbn; [reflexivity|]. destruct (String.eqb k a); auto. }
  exists st. eexists. exists n. split; [exact XS|]. split; [exact XH|]. split; [reflexivity|]. clear XH.
  unfold noted. rewrite !(dget_dupdate _ String_eqb_spec).
  split; [|split; [|split]].
  - destruct (x_magk x); cbn [app rev dget String.eqb Ascii.eqb Bool.eqb]; rewrite !GO, HN, HV; auto.
  - destruct (x_magk x), (x_stellar x) as [[?|] [?|] [?|] [?|]]; cbn; auto.
  - destruct (x_magk x) as [m|]; cbn; (split; [reflexivity|]); (split; [reflexivity|]); congruence.
  - intros k v G. rewrite (dget_dupdate _ String_eqb_spec) in G.
    match type of G with match sget k ?l with _ => _ end = _ => destruct (sget k l) as [u|] eqn:R end.
    + assert (I : In k (map fst (rev ([("starName"%string, MText n); ("starM"%string, number_or_none (t_M (x_stellar x))); ("starTeff"%string, number_or_none (t_Teff (x_stellar x))); ("starR"%string, number_or_none (t_R (x_stellar x))); ("starDistance"%string, number_or_none (t_D (x_stellar x))); ("starL"%string, MNumber (st_luminosity st)); ("starModel"%string, MText (st_model st))]
     ++ match x_magk x with Some m => [("starMagK"%string, MNumber m)] | None => [] end)))) by (apply (dget_In_keys _ String_eqb_spec); eauto).
      destruct (x_magk x); cbn in I |- *; intuition congruence.
    + rewrite GO in G. destruct (sget k (meta T)) as [t|] eqn:GT; [|discriminate]. injection G as <-.
      destruct (String.eqb_spec k "name") as [->|K1]; [left; now left|]. destruct (String.eqb_spec k "ExoRad version") as [->|K2]; [left; right; now left|].
      right. right. destruct (HO k t K1 K2 GT) as (nm & c & I & J). exists nm, c, t. auto.
Qed.
Print Assumptions C85_header_of_the_star.

(** ** C84: failures *)
Theorem C84_no_channels : forall s x, observe_target s [] x = ([], Err AttributeError).
Proof. reflexivity. Qed.
Print Assumptions C84_no_channels.
(** A payload without foregrounds cannot be observed (unless the target brings some). *)
Theorem C84_no_foregrounds_refuted : forall ns chs h s x, instruments ns chs -> Forall (fun sx => columns_apart ns chs (fst sx) (snd sx)) h ->
  y_foreground s = None -> g_foreground (x_sky x) = None -> snd (observe_target s (after chs h) x) = Err AttributeError.
Proof.
  intros ns chs h s x HI H YF GF. destruct (observe_spec ns chs HI s _ x (after_ok ns chs h HI H)) as [_ O].
  - intros g G _ fs F. unfold foregrounds_of in G. rewrite YF in G. injection G as <-. congruence.
  - unfold foregrounds_of in O. rewrite YF, GF in O. destruct chs as [|a l]; [destruct HI; congruence|]. cbn [mapM] in O. unfold foreground_of at 1 in O. cbn [bind propagate_diffuse_foreground] in O. exact O.
Qed.
Print Assumptions C84_no_foregrounds_refuted.
(** Foregrounds come first: whatever fails there hides a bad source. *)
Theorem C84_order : forall ns chs h s x, instruments ns chs -> Forall (fun sx => columns_apart ns chs (fst sx) (snd sx)) h -> columns_apart ns chs s x ->
  (forall e, foregrounds_of s (x_sky x) = Err e -> snd (observe_target s (after chs h) x) = Err e) /\
  (forall g before a later e, foregrounds_of s (x_sky x) = Ok g -> chs = before ++ a :: later -> (forall b, In b before -> exists d, propagate_diffuse_foreground (h_light (snd b)) (edges (snd b)) (g_foreground g) = Ok d) ->
     propagate_diffuse_foreground (h_light (snd a)) (edges (snd a)) (g_foreground g) = Err e -> snd (observe_target s (after chs h) x) = Err e) /\
  (forall g e, foregrounds_of s (x_sky x) = Ok g -> (forall b, In b chs -> exists d, propagate_diffuse_foreground (h_light (snd b)) (edges (snd b)) (g_foreground g) = Ok d) ->
     load s x = Err e -> snd (observe_target s (after chs h) x) = Err e) /\
  (forall g st before a later e, foregrounds_of s (x_sky x) = Ok g -> (forall b, In b chs -> exists d, propagate_diffuse_foreground (h_light (snd b)) (edges (snd b)) (g_foreground g) = Ok d) ->
     load s x = Ok st -> chs = before ++ a :: later -> (forall b, In b before -> exists o, propagate_star (snd b) None (st_sed st) (g_sky g) = Ok o) ->
     propagate_star (snd a) None (st_sed st) (g_sky g) = Err e -> snd (observe_target s (after chs h) x) = Err e).
Proof.
  intros ns chs h s x HI H AP. apply apart_alright in AP. destruct (observe_spec ns chs HI s _ x (after_ok ns chs h HI H) AP) as [_ O].
  assert (ME : forall {A B} (f : A -> res B) before a later e, (forall b, In b before -> exists d, f b = Ok d) -> f a = Err e -> mapM f (before ++ a :: later) = Err e).
  { intros A B f before a later e HB EA. induction before as [|b before IH]; cbn; [now rewrite EA|]. destruct (HB b (or_introl eq_refl)) as [d ->]. cbn. rewrite IH; auto. intros; apply HB; now right. }
  assert (FO : forall fs (b : string * chan), (exists d, propagate_diffuse_foreground (h_light (snd b)) (edges (snd b)) fs = Ok d) -> exists t, foreground_of fs (snd b) = Ok t) by (intros fs b [d D]; unfold foreground_of; rewrite D; cbn; eauto).
  split; [|split; [|split]].
  - intros e E. now rewrite E in O.
  - intros g before a later e E C HB HE. rewrite E in O. assert (X : mapM (fun a => foreground_of (g_foreground g) (snd a)) chs = Err e) by (rewrite C; apply ME; auto; unfold foreground_of; now rewrite HE). now rewrite X in O.
  - intros g e E HB HE. rewrite E in O. destruct (mapM_all (fun a => foreground_of (g_foreground g) (snd a)) chs) as [fos FE]; [intros; apply FO, HB; auto|]. rewrite FE, HE in O. auto.
  - intros g st before a later e E HB L C HS HE. rewrite E in O. destruct (mapM_all (fun a => foreground_of (g_foreground g) (snd a)) chs) as [fos FE]; [intros; apply FO, HB; auto|]. rewrite FE, L in O.
    assert (X : mapM (fun a => own_star (snd a) (st_sed st) (g_sky g)) chs = Err e); [|now rewrite X in O]. rewrite C. apply ME.
    + intros b I. unfold own_star. destruct (HS b I) as [[o t] ->]. cbn. eauto.
    + unfold own_star. now rewrite HE.
Qed.
Print Assumptions C84_order.
