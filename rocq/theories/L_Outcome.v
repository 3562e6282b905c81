(** Lemmas for the outcome of an observation. *)
From Verif Require Import Base Dict XR M_Signal M_Optics L_Optics M_Light M_Bins M_Star M_Foreground M_Source M_Table S_Table L_Table P_Table M_Observe S_Observe L_Observe L_Stages.
From Verif Require M_Noise L_Noise P_Noise.
Import M_Noise(estimate_noise, noise_in_channel, signal_keys, select_num, ch_name, to_table).
Open Scope list_scope.

(** ** A whole observation before the noise *)
Definition nchans (chs : list (string * chan)) : list (M_Noise.channel * option M_Noise.custom) := map (fun c => (h_noise (snd c), h_common (snd c))) chs.
Definition own (fs : option (sdict foreground)) (sed : sig) (sky : option sig) (a : string * chan) : res table :=
  let* f := foreground_of fs (snd a) in let* o := own_star (snd a) sed sky in Ok (override (override (base a) f) o).
Definition observed (x : target) (g : tgt) (st : star) (t : mtable) : target :=
  {| x_name := x_name x; x_stellar := x_stellar x; x_star_name := x_star_name x; x_magk := x_magk x; x_sky := g; x_table := Some t; x_source := Some st; x_header := star_header x st t |}.
Definition alright (ns : list string) (chs0 : list (string * chan)) (s : setting) (x : target) : Prop :=
  forall g, foregrounds_of s (x_sky x) = Ok g -> alone chs0 = true -> foreign ns (g_foreground g).
Lemma nchans_same chs0 chs : Forall2 same_but_sky chs0 chs -> nchans chs = nchans chs0.
Proof. induction 1 as [|a b l l' S H IH]; cbn; auto. destruct (same_noise a b S) as [-> ->]. unfold nchans in IH. now rewrite IH. Qed.
Lemma owns_F2 fs sed sky : forall chs0 fos sos, mapM (fun a => foreground_of fs (snd a)) chs0 = Ok fos -> mapM (fun a => own_star (snd a) sed sky) chs0 = Ok sos ->
  Forall2 (fun a o => own fs sed sky a = Ok o) chs0 (over (over (map base chs0) fos) sos).
Proof.
  intros chs0 fos sos F S. apply mapM_Ok_Forall2 in F. apply mapM_Ok_Forall2 in S. revert sos S. induction F as [|a f l fos E F IH]; intros sos S; inversion S as [|? o ? sos' E' S']; subst; unfold over; cbn [map combine fst snd]; constructor; auto.
  - unfold own. rewrite E. cbn [bind]. rewrite E'. reflexivity.
  - now apply IH.
Qed.
(** the columns which have nothing to do with the noise *)
Definition K_ok (ns K : list string) : Prop :=
  NoDup K /\ In "chName"%string K /\ (quiet ns -> forall k, In k K -> ordinary k).
Lemma merged_In K M k : In k (merged K M) <-> In k M \/ In k K /\ ~ In k M.
Proof.
  unfold merged. rewrite in_app_iff, filter_In. destruct (existsb (String.eqb k) M) eqn:E; cbn.
  - apply existsb_names in E. intuition discriminate.
  - assert (~ In k M) by (intros I; apply existsb_names in I; congruence). intuition.
Qed.
Lemma NoDup_merged K M : NoDup K -> NoDup M -> NoDup (merged K M).
Proof.
  intros A B. unfold merged. assert (D : forall x, In x (filter (fun k => negb (existsb (String.eqb k) M)) K) -> ~ In x M).
  { intros x I J. apply filter_In in I as [_ I]. apply existsb_names in J. now rewrite J in I. }
  assert (F := NoDup_filter (fun k => negb (existsb (String.eqb k) M)) A). revert D F. generalize (filter (fun k => negb (existsb (String.eqb k) M)) K). induction l as [|x l IH]; intros D F; cbn; auto. inversion F; subst. constructor.
  - rewrite in_app_iff. intros [I|I]; auto. apply (D x); auto. now left.
  - apply IH; auto. intros y I. apply D. now right.
Qed.
Lemma ordinary_end k : ends_with "_noise" k = false -> k <> "saturation_time"%string -> k <> "frameTime"%string -> ordinary k.
Proof. intros E A B. split; auto. split; auto. intros m X. symmetry in X. revert X. now apply suffix_not. Qed.
Lemma ordinary_suffix f suf : (suf = "_signal" \/ suf = "_MaxSignal_inPixel")%string -> ordinary (f ++ suf).
Proof.
  intros E. assert (Z : ends_with "_noise" (f ++ suf) = false).
  { unfold ends_with. rewrite str_chars_app, rev_app_distr. destruct E; subst; reflexivity. }
  apply ordinary_end; auto; destruct E; subst; apply suffix_not; reflexivity.
Qed.
Lemma skeys_ordinary sky k : In k (skeys sky) -> ordinary k /\ k <> "chName"%string.
Proof.
  intros I. unfold skeys in I. destruct sky; cbn in I; repeat (destruct I as [<-|I]; [split; [apply ordinary_end; try reflexivity|]; discriminate|]); destruct I.
Qed.
Section Whole.
  Variables (ns : list string) (chs0 : list (string * chan)).
  Hypothesis HI : instruments ns chs0.
  Lemma chname_ns : In "chName"%string ns.
  Proof.
    destruct HI as (NE & _ & _ & _ & _ & AB). destruct chs0 as [|[n c] l]; [congruence|]. inversion AB as [|? ? A _]; subst. destruct A as (_ & <- & _ & C & _). apply sget_names. eauto.
  Qed.
  Lemma observe_spec s chs x : Forall2 same_but_sky chs0 chs -> alright ns chs0 s x ->
    Forall2 same_but_sky chs0 (fst (observe_target s chs x)) /\
    match foregrounds_of s (x_sky x) with
    | Err e => snd (observe_target s chs x) = Err e
    | Ok g =>
        match mapM (fun a => foreground_of (g_foreground g) (snd a)) chs0 with
        | Err e => snd (observe_target s chs x) = Err e
        | Ok fos =>
            match load s x with
            | Err e => snd (observe_target s chs x) = Err e
            | Ok st =>
                match mapM (fun a => own_star (snd a) (st_sed st) (g_sky g)) chs0 with
                | Err e => snd (observe_target s chs x) = Err e
                | Ok sos => exists T K, K_ok ns K /\ made_of (loud (g_sky g)) chs0 K (over (over (map base chs0) fos) sos) (cols T) /\
                    snd (observe_target s chs x) = (let* t := estimate_noise T (nchans chs0) in Ok (observed x g st t))
                end
            end
        end
    end.
  Proof.
    intros H AR. pose proof chname_ns as CN. destruct HI as (NE & _ & ND & NS & NF & AB). unfold observe_target.
    destruct (prepare_spec ns chs0 NE ND NS NF AB s x chs H) as (chs1 & t1 & -> & H1 & M1 & AL). cbn [bind].
    destruct (foregrounds_of s (x_sky x)) as [g|e] eqn:FG; cbn [bind fst snd]; auto.
    pose proof (foreground_spec ns chs0 NE ND AB (g_foreground g) chs1 t1 H1 M1 AL (AR g FG)) as FS.
    destruct (mapM (fun a => foreground_of (g_foreground g) (snd a)) chs0) as [fos|e]; [|rewrite FS; cbn [bind fst snd]; auto].
    destruct FS as (chs2 & t2 & FK & -> & H2 & M2 & FN). cbn [bind]. destruct (load s x) as [st|e]; cbn [bind fst snd]; auto.
    pose proof (star_spec ns chs0 NE NS AB (st_sed st) (g_sky g) chs2 t2 _ _ H2 (M2 (g_sky g))) as [H3 SS].
    destruct (propagate_target_light chs2 (st_sed st) (g_sky g) t2) as [chs3 r]. cbn [fst snd] in *. split; auto.
    destruct (mapM (fun a => own_star (snd a) (st_sed st) (g_sky g)) chs0) as [sos|e]; [|rewrite SS; auto]. destruct SS as (t3 & -> & M3). cbn [bind]. exists t3. eexists. split; [|split; [exact M3|]].
    - split; [|split].
      + assert (NDK : NoDup (merged ns FK)). { destruct (M2 None) as (_ & _ & _ & F2). destruct F2 as [|a o l l' [F2 _] _]; [congruence|]. rewrite <- F2.
          destruct (M2 None) as (G & G1 & _). assert (names (keep (loud None) (cols t2)) = merged ns FK) by (rewrite G; apply names_glue). rewrite F2, <- H0, names_keep. now apply NoDup_filter. }
        apply NoDup_merged; auto. destruct (g_sky g); cbn; repeat constructor; cbn; intuition discriminate.
      + apply merged_In. right. split; [|intros I; apply skeys_ordinary in I; tauto]. apply merged_In. right. split; auto. intros I. apply FN in I as (f & [I|I]); symmetry in I; revert I; apply suffix_not; reflexivity.
      + intros Q k I. apply merged_In in I as [I|[I _]]; [now apply skeys_ordinary in I|]. apply merged_In in I as [I|[I _]]; auto. apply FN in I as (f & [-> | ->]); apply ordinary_suffix; auto.
    - change (map (fun c : string * chan => (h_noise (snd c), h_common (snd c))) chs3) with (nchans chs3). now rewrite (nchans_same _ _ H3).
  Qed.
  Lemma after_same h : forall chs, Forall2 same_but_sky chs0 chs -> Forall (fun sx => alright ns chs0 (fst sx) (snd sx)) h -> Forall2 same_but_sky chs0 (after chs h).
  Proof. induction h as [|[s x] h IH]; intros chs H A; cbn; auto. inversion A; subst. apply IH; auto. now apply observe_spec. Qed.
End Whole.

(** ** The noise sees only some of the columns *)
Definition sees (p : string -> bool) : Prop :=
  (forall k, contains "signal" k = true -> p k = true) /\ (forall k, contains "Max" k = true -> p k = true) /\ p "chName"%string = true /\ p "WindowSize"%string = true /\ p "Wavelength"%string = true
  /\ p "saturation_time"%string = true /\ p "frameTime"%string = true /\ forall m, p (m ++ "_noise")%string = true.
Lemma loud_sees sky : sees (loud sky).
Proof.
  assert (G : forall k, k <> "sky TR"%string -> k <> "foreground_transmission"%string -> loud sky k = true).
  { intros k A B. unfold loud. apply String.eqb_neq in A. apply String.eqb_neq in B. rewrite A, B. now destruct sky. }
  repeat split; intros; apply G; try discriminate; try (intros ->; discriminate); apply suffix_not; reflexivity.
Qed.
Lemma filter_filter {A} (p q : A -> bool) l : filter p (filter q l) = filter (fun x => p x && q x) l.
Proof. induction l as [|a l IH]; cbn; auto. destruct (q a) eqn:Q; cbn; rewrite ?Q, ?andb_false_r; destruct (p a); cbn; rewrite ?IH; auto. Qed.
Lemma filter_sub {A} (p q : A -> bool) l : (forall x, p x = true -> q x = true) -> filter p (filter q l) = filter p l.
Proof. intros H. rewrite filter_filter. apply filter_ext. intros x. destruct (p x) eqn:P; auto. now rewrite H. Qed.
Lemma noise_keep p t ch common : sees p -> noise_in_channel (keep p t) ch common = noise_in_channel t ch common.
Proof.
  intros (PS & PM & PC & PW & PL & _).
  assert (SE : forall name k, p k = true -> select name k (keep p t) = select name k t) by (intros name k P; unfold select; now rewrite !keep_get, P, PC).
  assert (SN : forall name k, p k = true -> select_num name k (keep p t) = select_num name k t) by (intros name k P; unfold select_num; now rewrite SE).
  assert (SK : signal_keys (keep p t) = signal_keys t) by (unfold signal_keys; rewrite names_keep; apply filter_sub; auto).
  assert (PN : forall g keys out, (forall k, In k keys -> p k = true) -> M_Noise.photon_noise (keep p t) (ch_name ch) g keys out = M_Noise.photon_noise t (ch_name ch) g keys out).
  { intros g keys. induction keys as [|k keys IH]; intros out Hk; cbn; auto. rewrite SN by (apply Hk; now left). destruct (select_num _ _ _); cbn; auto. apply IH. intros; apply Hk; now right. }
  assert (KS : forall k, In k (signal_keys t) -> p k = true) by (intros k I; apply filter_In in I as [_ I]; auto).
  unfold noise_in_channel, M_Noise.frame_time. rewrite !SN by (auto; apply PM; reflexivity || apply PS; reflexivity). rewrite SK.
  repeat match goal with
    | |- bind ?r _ = _ => destruct r as [?|]; cbn [bind]; [|reflexivity]
    | |- (let (_, _) := ?p in _) = _ => destruct p
    | |- _ => rewrite PN by auto
    end.
  all: reflexivity.
Qed.
Lemma max_keep p t m : sees p ->  NoDup (names (cols t)) -> (exists N, rows_are N (cols t)) ->
  match estimate_max_signal t, estimate_max_signal {| cols := keep p (cols t); meta := m |} with
  | Ok t1, Ok t1' => cols t1' = keep p (cols t1)
  | Err e, Err e' => e' = e
  | _, _ => False
  end.
Proof.
  intros (PS & PM & PC & PW & PL & _) ND (N & RW). unfold estimate_max_signal. cbn [cols]. rewrite keep_get, PL.
  destruct (sget "Wavelength" (cols t)) as [wl|] eqn:W; auto.
  assert (max_columns (keep p (cols t)) = max_columns (cols t)) as -> by (unfold max_columns, keep; apply filter_sub; intros x; apply PM).
  destruct (add_columns _ _) as [c|] eqn:E; cbn [bind]; auto.
  assert (L : length c = N). { apply P_Noise.add_columns_length in E. rewrite repeat_length in E. rewrite E. eapply RW. apply sget_In; eauto. }
  assert (R1 : forall c' col, In (c', col) [("MaxSignal_inPixel"%string, c)] -> length col = N) by (intros c' col [[= <- <-]|[]]; auto).
  set (u := {| cols := [("MaxSignal_inPixel"%string, c)]; meta := [] |}).
  rewrite (update_cols t u N RW R1). rewrite (update_cols {| cols := keep p (cols t); meta := m |} u N (rows_keep _ _ _ RW) R1). unfold u. cbn [cols].
  change (override (keep p (cols t)) [("MaxSignal_inPixel"%string, c)] = keep p (override (cols t) [("MaxSignal_inPixel"%string, c)])). rewrite override_keep. f_equal. cbn. now rewrite PM.
Qed.
Definition aligned (T : table) (chans : list (M_Noise.channel * option M_Noise.custom)) (sizes : list nat) : Prop :=
  length sizes = length chans /\ chans <> [] /\ NoDup (map (fun ch => ch_name (fst ch)) chans) /\
  sget "chName" T = Some (concat (map (fun q => repeat (Txt (ch_name (fst (fst q)))) (snd q)) (combine chans sizes))).
Lemma mapM_ext' {A B} (f g : A -> res B) l : (forall a, f a = g a) -> mapM f l = mapM g l.
Proof. intros H. induction l as [|a l IH]; cbn; auto. now rewrite H, IH. Qed.
Lemma estimate_keep p t m chans sizes N : sees p -> NoDup (names (cols t)) -> rows_are N (cols t) -> aligned (cols t) chans sizes ->
  match estimate_noise t chans, estimate_noise {| cols := keep p (cols t); meta := m |} chans with
  | Ok r, Ok r' => cols r' = keep p (cols r)
  | Err e, Err e' => e' = e
  | _, _ => False
  end.
Proof.
  intros P ND RW (A1 & A2 & A3 & A4).
  assert (ND' : NoDup (names (keep p (cols t)))) by (rewrite names_keep; now apply NoDup_filter).
  assert (RW' := rows_keep N p _ RW).
  assert (A4' : sget "chName" (keep p (cols t)) = sget "chName" (cols t)) by (rewrite keep_get; destruct P as (_ & _ & -> & _); auto). rewrite A4 in A4'.
  destruct (estimate_noise t chans) as [r|e] eqn:E; destruct (estimate_noise {| cols := keep p (cols t); meta := m |} chans) as [r'|e'] eqn:E'.
  - destruct (P_Noise.estimate_noise_inv_full t chans sizes N r ND RW A1 A2 A3 A4 E) as (t1 & new & M1 & (C1 & _ & _ & K1 & _ & _ & outs & ins & O1 & V1 & _) & _).
    destruct (P_Noise.estimate_noise_inv_full {| cols := keep p (cols t); meta := m |} chans sizes N r' ND' RW' A1 A2 A3 A4' E') as (t1' & new' & M1' & (C1' & _ & _ & _ & _ & _ & outs' & ins' & O1' & V1' & _) & _).
    pose proof (max_keep p t m P ND (ex_intro _ N RW)) as MK. rewrite M1, M1' in MK.
    rewrite MK in O1'. rewrite (mapM_ext' _ (fun ch => noise_in_channel (cols t1) (fst ch) (snd ch))) in O1' by (intros ch; now apply noise_keep). rewrite O1 in O1'. injection O1' as <-. rewrite V1 in V1'. injection V1' as <- <-.
    rewrite C1', C1, MK. change (override (keep p (cols t1)) new = keep p (override (cols t1) new)). rewrite override_keep. f_equal. symmetry. apply keep_all. intros k I.
    destruct P as (_ & _ & _ & _ & _ & P1 & P2 & P3). destruct (K1 k I) as [-> |[-> |[x ->]]]; auto. apply P3.
  - unfold estimate_noise in E, E'. pose proof (max_keep p t m P ND (ex_intro _ N RW)) as MK.
    destruct (estimate_max_signal t) as [t1|]; cbn [bind] in E; [|discriminate]. destruct (estimate_max_signal {| cols := keep p (cols t); meta := m |}) as [t1'|]; cbn [bind] in E'; [|contradiction].
    rewrite MK in E'. rewrite (mapM_ext' (fun ch => noise_in_channel (keep p (cols t1)) (fst ch) (snd ch)) (fun ch => noise_in_channel (cols t1) (fst ch) (snd ch))) in E' by (intros ch; now apply noise_keep).
    destruct (mapM _ chans) as [outs|]; cbn [bind] in E, E'; [|congruence]. destruct (vstack_tables (map to_table outs)) as [[ins [new|]]|]; cbn [bind] in E, E'; congruence.
  - unfold estimate_noise in E, E'. pose proof (max_keep p t m P ND (ex_intro _ N RW)) as MK.
    destruct (estimate_max_signal {| cols := keep p (cols t); meta := m |}) as [t1'|]; cbn [bind] in E'; [|discriminate]. destruct (estimate_max_signal t) as [t1|]; cbn [bind] in E; [|contradiction].
    rewrite MK in E'. rewrite (mapM_ext' (fun ch => noise_in_channel (keep p (cols t1)) (fst ch) (snd ch)) (fun ch => noise_in_channel (cols t1) (fst ch) (snd ch))) in E' by (intros ch; now apply noise_keep).
    destruct (mapM _ chans) as [outs|]; cbn [bind] in E, E'; [|congruence]. destruct (vstack_tables (map to_table outs)) as [[ins [new|]]|]; cbn [bind] in E, E'; congruence.
  - unfold estimate_noise in E, E'. pose proof (max_keep p t m P ND (ex_intro _ N RW)) as MK.
    destruct (estimate_max_signal t) as [t1|]; destruct (estimate_max_signal {| cols := keep p (cols t); meta := m |}) as [t1'|]; cbn [bind] in E, E'; try contradiction; [|congruence].
    rewrite MK in E'. rewrite (mapM_ext' (fun ch => noise_in_channel (keep p (cols t1)) (fst ch) (snd ch)) (fun ch => noise_in_channel (cols t1) (fst ch) (snd ch))) in E' by (intros ch; now apply noise_keep).
    destruct (mapM _ chans) as [outs|]; cbn [bind] in E, E'; [|congruence]. destruct (vstack_tables (map to_table outs)) as [[ins [new|]]|]; cbn [bind] in E, E'; congruence.
Qed.

(** ** The maximum signal, block by block *)
Definition both {A} (a b : res (list A)) : res (list A) := match a, b with Ok x, Ok y => Ok (x ++ y) | Err e, _ => Err e | Ok _, Err e => Err e end.
Lemma mapM_app {A B} (f : A -> res B) l m : mapM f (l ++ m) = both (mapM f l) (mapM f m).
Proof.
  induction l as [|a l IH]; cbn; [destruct (mapM f m); auto|]. destruct (f a); cbn; auto. rewrite IH. destruct (mapM f l); cbn; auto. destruct (mapM f m); auto.
Qed.
Lemma cell_add_error a b e : cell_add a b = Err e -> e = TypeError.
Proof. destruct a, b; cbn; congruence. Qed.
Lemma mapM_error {A B} (f : A -> res B) l e : mapM f l = Err e -> exists a, f a = Err e.
Proof. induction l as [|a l IH]; cbn; [discriminate|]. destruct (f a) eqn:E; cbn; [|intros [= <-]; eauto]. destruct (mapM f l); cbn; [discriminate|]. intros [= <-]. auto. Qed.
Lemma add_column_app a1 a2 c1 c2 : length a1 = length c1 -> length a2 = length c2 -> add_column (a1 ++ a2) (c1 ++ c2) = both (add_column a1 c1) (add_column a2 c2).
Proof.
  intros L1 L2. unfold add_column. rewrite !app_length, L1, L2, !Nat.eqb_refl. rewrite combine_app' by auto. apply mapM_app.
Qed.
Lemma add_column_error a c e : length a = length c -> add_column a c = Err e -> e = TypeError.
Proof. intros L. unfold add_column. rewrite L, Nat.eqb_refl. intros E. apply mapM_error in E as (x & E). eapply cell_add_error; eauto. Qed.
Lemma add_column_length a c m : add_column a c = Ok m -> length m = length a /\ length c = length a.
Proof. unfold add_column. destruct (Nat.eqb_spec (length a) (length c)); [|discriminate]. intros E. apply mapM_Ok_length in E. rewrite combine_length in E. lia. Qed.
Lemma add_columns_error cs : forall a e, Forall (fun c => length c = length a) cs -> add_columns a cs = Err e -> e = TypeError.
Proof.
  induction cs as [|c cs IH]; intros a e F E; cbn in E; [discriminate|]. inversion F as [|? ? F1 F2]; subst. destruct (add_column a c) as [m|e'] eqn:EA; cbn in E.
  - apply (IH m e); auto. apply add_column_length in EA as [EA _]. rewrite EA. auto.
  - injection E as <-. symmetry in F1. eapply add_column_error; eauto.
Qed.
Lemma add_columns_app {A} (f g : A -> list cell) ks : forall a1 a2, (forall k, In k ks -> length (f k) = length a1 /\ length (g k) = length a2) ->
  add_columns (a1 ++ a2) (map (fun k => f k ++ g k) ks) = both (add_columns a1 (map f ks)) (add_columns a2 (map g ks)).
Proof.
  induction ks as [|k ks IH]; intros a1 a2 H; cbn [map add_columns both]; auto.
  destruct (H k (or_introl eq_refl)) as [L1 L2]. rewrite add_column_app by auto.
  destruct (add_column a1 (f k)) as [m1|e1] eqn:E1; destruct (add_column a2 (g k)) as [m2|e2] eqn:E2; cbn [both bind].
  - apply IH. intros k' I. apply add_column_length in E1 as [-> _]. apply add_column_length in E2 as [-> _]. apply H. now right.
  - apply add_column_error in E2; auto. subst. destruct (add_columns m1 (map f ks)) as [x|e] eqn:X; cbn; auto. f_equal. symmetry. eapply add_columns_error; [|exact X]. apply Forall_forall. intros c I. apply in_map_iff in I as (k' & <- & I). apply add_column_length in E1 as [-> _]. apply H. now right.
  - reflexivity.
  - reflexivity.
Qed.
Definition mx (K : list string) (o : table) : res (list cell) := add_columns (repeat (Num (Fin 0)) (n_rows o)) (map (fun k => col_of k o) (filter (contains "Max") K)).
Lemma col_of_length K n o k : names o = K -> rows_are n o -> In k K -> length (col_of k o) = n.
Proof. intros N H I. rewrite <- N in I. apply sget_names in I as [c G]. unfold col_of. rewrite G. eapply H. apply sget_In; eauto. Qed.
Lemma repeat_app' {A} (a : A) n m : repeat a (n + m) = repeat a n ++ repeat a m.
Proof. induction n; cbn; f_equal; auto. Qed.
Lemma mx_blocks K : forall owns, Forall (fun o => names o = K /\ rows_are (n_rows o) o) owns ->
  add_columns (repeat (Num (Fin 0)) (total_rows owns)) (map (fun k => concat (map (col_of k) owns)) (filter (contains "Max") K))
  = (let* ms := mapM (mx K) owns in Ok (concat ms)).
Proof.
  induction owns as [|o owns IH]; intros F.
  - cbn. induction (filter (contains "Max") K) as [|k l IHl]; cbn; auto.
  - inversion F as [|? ? [F1 F2] F3]; subst. cbn [total_rows map concat]. rewrite repeat_app'. rewrite (add_columns_app (fun k => col_of k o) (fun k => concat (map (col_of k) owns))).
    + rewrite IH by auto. cbn [mapM]. fold (mx (names o) o). destruct (mx (names o) o) as [m|e]; cbn [both bind]; auto. destruct (mapM (mx (names o)) owns) as [ms|]; cbn; auto.
    + intros k I. apply filter_In in I as [I _]. rewrite !repeat_length. split; [eapply col_of_length; eauto|].
      clear - F3 I. induction F3 as [|x l [E R] F3 IH]; cbn; auto. rewrite app_length, IH. f_equal. eapply col_of_length; eauto.
Qed.
Lemma max_columns_of K o : names o = K -> NoDup K -> map snd (max_columns o) = map (fun k => col_of k o) (filter (contains "Max") K).
Proof.
  intros N ND. subst. rewrite (table_ext o (fun k => col_of k o) ND) at 1.
  - unfold max_columns. clear. generalize (names o) as l. induction l as [|k l IH]; auto. cbn [map filter fst]. destruct (contains "Max" k); cbn [map snd]; rewrite IH; reflexivity.
  - intros k I. apply sget_names in I as [c G]. unfold col_of. now rewrite G.
Qed.
Definition with_max (o : table) (m : list cell) : table := override o [("MaxSignal_inPixel"%string, m)].
Lemma max_one K o mt : names o = K -> NoDup K -> rows_are (n_rows o) o ->
  estimate_max_signal {| cols := o; meta := mt |} = if existsb (String.eqb "Wavelength") K then (let* m := mx K o in Ok {| cols := with_max o m; meta := mt |}) else Err KeyError.
Proof.
  intros N ND RW. unfold estimate_max_signal. cbn [cols]. destruct (existsb (String.eqb "Wavelength") K) eqn:E.
  - apply existsb_names in E. rewrite <- N in E. apply sget_names in E as [wl G]. rewrite G. assert (LW : length wl = n_rows o) by (eapply RW; apply sget_In; eauto). rewrite LW, (max_columns_of K o N ND).
    fold (mx K o). destruct (mx K o) as [m|] eqn:M; cbn [bind]; auto. f_equal. set (u := {| cols := [("MaxSignal_inPixel"%string, m)]; meta := [] |}).
    assert (X : cols (snd (update_table {| cols := o; meta := mt |} u)) = with_max o m).
    { apply (update_cols {| cols := o; meta := mt |} u (n_rows o) RW). intros c col [[= <- <-]|[]]. unfold mx in M. apply P_Noise.add_columns_length in M. now rewrite repeat_length in M. }
    rewrite <- X. reflexivity.
  - assert (sget "Wavelength" o = None) as ->; auto. apply sget_None_names. rewrite N. intros I. apply existsb_names in I. congruence.
Qed.
Lemma total_glue K owns : owns <> [] -> Forall (fun o => names o = K /\ rows_are (n_rows o) o) owns -> rows_are (total_rows owns) (glue K owns).
Proof.
  intros NE F k c I. unfold glue in I. apply in_map_iff in I as (k' & [= <- <-] & I). clear NE. induction F as [|x l [E R] F IH]; cbn; auto. rewrite app_length, IH. f_equal. eapply col_of_length; eauto.
Qed.
Definition K1 (K : list string) : list string := merged K ["MaxSignal_inPixel"%string].
Lemma max_glue K owns mt : owns <> [] -> NoDup K -> (K <> []) -> Forall (fun o => names o = K /\ rows_are (n_rows o) o) owns ->
  estimate_max_signal {| cols := glue K owns; meta := mt |} =
  if existsb (String.eqb "Wavelength") K then (let* ms := mapM (mx K) owns in Ok {| cols := glue (K1 K) (map (fun q => with_max (fst q) (snd q)) (combine owns ms)); meta := mt |}) else Err KeyError.
Proof.
  intros NE ND NK F. assert (NR : n_rows (glue K owns) = total_rows owns).
  { destruct K as [|k K']; [congruence|]. apply (total_glue _ _ NE F k). now left. }
  rewrite (max_one K); auto; [|apply names_glue|rewrite NR; now apply total_glue].
  destruct (existsb (String.eqb "Wavelength") K); auto. unfold mx at 1. rewrite NR.
  assert (map (fun k => col_of k (glue K owns)) (filter (contains "Max") K) = map (fun k => concat (map (col_of k) owns)) (filter (contains "Max") K)) as ->.
  { apply map_ext_in. intros k I. apply filter_In in I as [I _]. unfold col_of at 1. now rewrite glue_get. }
  rewrite mx_blocks by auto. destruct (mapM (mx K) owns) as [ms|] eqn:M; cbn [bind]; auto. f_equal. f_equal. unfold with_max.
  apply mapM_Ok_length in M.
  replace [("MaxSignal_inPixel"%string, concat ms)] with (glue ["MaxSignal_inPixel"%string] (map (fun m => [("MaxSignal_inPixel"%string, m)]) ms)).
  - rewrite override_glue; auto.
    + unfold K1, merged. f_equal. clear. revert ms. induction owns as [|o owns IH]; intros [|m ms]; cbn [combine map fst snd]; auto. f_equal. apply IH.
    + now rewrite map_length.
    + intros t I. rewrite Forall_forall in F. now apply F.
    + intros u I. apply in_map_iff in I as (m & <- & _). reflexivity.
  - unfold glue. cbn. f_equal. f_equal. rewrite map_map. cbn. f_equal. apply map_id.
Qed.

(** ** The noise, block by block *)
Definition block_of (K : list string) (a : string * chan) (o : table) : Prop :=
  names o = K /\ rows_are (bins_of a) o /\ sget "chName" o = Some (repeat (Txt (fst a)) (bins_of a)) /\ (0 < bins_of a)%nat /\ ch_name (h_noise (snd a)) = fst a.
Lemma In_combine_F2 {A B} (P : A -> B -> Prop) l m : Forall2 P l m -> forall a b, In (a, b) (combine l m) -> P a b.
Proof. induction 1 as [|x y l m H F IH]; intros a b I; [destruct I|]. destruct I as [[= <- <-]|I]; auto. Qed.
Lemma nonempty_rows K n o : names o = K -> In "chName"%string K -> rows_are n o -> n_rows o = n.
Proof. intros E I RW. apply rows_n_rows; auto. intros ->. subst. destruct I. Qed.
Lemma K1_In K k : In k (K1 K) <-> k = "MaxSignal_inPixel"%string \/ In k K.
Proof. unfold K1. rewrite merged_In. cbn. destruct (String.eqb_spec k "MaxSignal_inPixel"); intuition. Qed.
Lemma with_max_names K o m : names o = K -> names (with_max o m) = K1 K.
Proof.
  intros <-. unfold with_max. rewrite override_names. unfold K1, merged. cbn [names map fst]. f_equal. apply filter_ext. intros k. f_equal. unfold dmem. cbn. now destruct (String.eqb k _).
Qed.
Lemma nchans_one a : nchans [a] = [(h_noise (snd a), h_common (snd a))]. Proof. reflexivity. Qed.
Section Blocks.
  Variables (chs0 : list (string * chan)) (K : list string) (owns : list table).
  Hypothesis F : Forall2 (block_of K) chs0 owns.
  Hypothesis ND : NoDup K.
  Hypothesis CN : In "chName"%string K.
  Hypothesis NC : NoDup (map fst chs0).
  Hypothesis NE : chs0 <> [].
  Lemma blocks_rows : Forall (fun o => names o = K /\ rows_are (n_rows o) o) owns.
  Proof.
    clear NE NC. induction F as [|a o l m (H1 & H2 & _) F' IH]; constructor; auto. split; auto. now rewrite (nonempty_rows K (bins_of a) o).
  Qed.
  Lemma owns_ne : owns <> []. Proof. destruct F; [congruence|discriminate]. Qed.
  Lemma total_nbins : total_rows owns = nbins chs0.
  Proof. clear NE NC. induction F as [|a o l m (H1 & H2 & _) F' IH]; auto. cbn. rewrite IH by auto. f_equal. now apply (nonempty_rows K). Qed.
  Lemma names_nchans : map (fun ch => ch_name (fst ch)) (nchans chs0) = map fst chs0.
  Proof. clear NE NC. unfold nchans. rewrite map_map. cbn. induction F as [|a o l m (_ & _ & _ & _ & H) F' IH]; auto. cbn. now rewrite H, IH by auto. Qed.
  Lemma blocks_aligned : aligned (glue K owns) (nchans chs0) (map bins_of chs0).
  Proof.
    split; [unfold nchans; now rewrite !map_length|]. split; [destruct chs0; [congruence|discriminate]|]. split; [now rewrite names_nchans|].
    rewrite glue_get by auto. f_equal. f_equal. clear NE NC. induction F as [|a o l m (_ & _ & H & _ & E) F' IH]; auto. unfold nchans. cbn [map combine fst snd]. unfold nchans in IH. rewrite IH by auto. f_equal. unfold col_of. now rewrite H, E.
  Qed.
  Lemma blocks_whole : NoDup (names (glue K owns)) /\ rows_are (nbins chs0) (glue K owns).
  Proof. split; [now rewrite names_glue|]. rewrite <- total_nbins. apply total_glue; [apply owns_ne|apply blocks_rows]. Qed.
  (** the same channel in the whole table and alone *)
  Lemma one_of_them ms t1 : mapM (mx K) owns = Ok ms -> t1 = glue (K1 K) (map (fun q => with_max (fst q) (snd q)) (combine owns ms)) ->
    forall a o, In (a, o) (combine chs0 owns) -> exists m, mx K o = Ok m /\ block_of (K1 K) a (with_max o m) /\
      (forall k, select (fst a) k t1 = select (fst a) k (with_max o m)) /\ forall common, noise_in_channel t1 (h_noise (snd a)) common = noise_in_channel (with_max o m) (h_noise (snd a)) common.
  Proof.
    intros M T a o I. apply mapM_Ok_Forall2 in M.
    set (owns1 := map (fun q => with_max (fst q) (snd q)) (combine owns ms)) in *.
    assert (B1 : Forall2 (block_of (K1 K)) chs0 owns1 /\ exists m, mx K o = Ok m /\ In (a, with_max o m) (combine chs0 owns1)).
    { unfold owns1. clear - F M I CN ND. revert ms M. induction F as [|a' o' l m (H1 & H2 & H3 & H4 & H5) F' IH]; intros ms M; [destruct I|]. inversion M as [|? m' ? ms' E M']; subst. cbn [combine map fst snd].
      assert (B : block_of (K1 (names o')) a' (with_max o' m')).
      { split; [now apply with_max_names|]. split; [|split; [|split; auto]].
        - unfold with_max. apply rows_override; auto. intros c col [[= <- <-]|[]]. unfold mx in E. apply P_Noise.add_columns_length in E. rewrite repeat_length in E. rewrite E. now apply (nonempty_rows (names o')).
        - unfold with_max. rewrite override_get. cbn. exact H3. }
      destruct I as [[= <- <-]|I].
      - split; [constructor; auto|].
        + clear - F' M' CN. revert ms' M'. induction F' as [|a2 o2 l m (G1 & G2 & G3 & G4 & G5) F' IH]; intros ms M'; inversion M' as [|? m2 ? ms2 E2 M2]; subst; cbn [combine map fst snd]; constructor; auto.
          split; [now apply with_max_names|]. split; [|split; [|split; auto]].
          * unfold with_max. apply rows_override; auto. intros c col [[= <- <-]|[]]. unfold mx in E2. apply P_Noise.add_columns_length in E2. rewrite repeat_length in E2. rewrite E2. now apply (nonempty_rows (names o')).
          * unfold with_max. rewrite override_get. cbn. exact G3.
        + exists m'. split; auto. now left.
      - destruct (IH F' I _ M') as (X & mm & Y & Z). split; [constructor; auto|]. exists mm. split; auto. now right. }
    destruct B1 as (B1 & m & EM & I1). exists m. split; auto. pose proof (In_combine_F2 _ _ _ B1 _ _ I1) as (N1 & R1 & C1 & P1 & E1). split; [repeat split; auto|].
    assert (CN1 : In "chName"%string (K1 K)) by (apply K1_In; auto).
    assert (NR1 : n_rows (with_max o m) = bins_of a) by now apply (nonempty_rows (K1 K)).
    assert (ND1 : NoDup (K1 K)) by (apply NoDup_merged; auto; repeat constructor; intros []).
    assert (SE : forall k, select (fst a) k t1 = select (fst a) k (with_max o m)).
    { intros k. destruct (existsb (String.eqb k) (K1 K)) eqn:KE.
      - apply existsb_names in KE. rewrite (select_alone (fst a) (with_max o m)); [|split; [split; [rewrite N1; exact ND1|rewrite NR1; exact R1]|lia]|unfold labelled; rewrite NR1; exact C1|rewrite N1; exact KE].
        rewrite T. replace owns1 with (map snd (combine (map fst chs0) owns1)).
        + apply select_glue.
          * apply Forall_forall. intros [n u] J. cbn [fst snd].
            assert (J1 : exists b, In (b, u) (combine chs0 owns1) /\ fst b = n).
            { revert J. generalize owns1. clear. intros owns1. revert owns1. induction chs0 as [|b l IH]; intros [|v w] J; cbn in J; try destruct J as [[= <- <-]|J]; try contradiction; [exists b; split; auto; now left|]. destruct (IH _ J) as (b' & X & Y). exists b'. split; auto. now right. }
            destruct J1 as (b & J1 & <-). destruct (In_combine_F2 _ _ _ B1 _ _ J1) as (N2 & R2 & C2 & P2 & _). assert (NR2 : n_rows u = bins_of b) by now apply (nonempty_rows (K1 K)).
            split; [split; [split; [now rewrite N2|now rewrite NR2]|lia]|]. split; auto. unfold labelled. now rewrite NR2.
          * rewrite map_fst_combine'; auto. rewrite map_length. eapply Forall2_len; eauto.
          * revert I1. generalize owns1. clear. intros owns1. revert owns1. induction chs0 as [|b l IH]; intros [|v w] I1; cbn in *; try tauto. destruct I1 as [[= -> ->]|I1]; auto.
          * auto.
        + assert (L : length (map fst chs0) = length owns1) by (rewrite map_length; eapply Forall2_len; eauto). revert L. generalize owns1. clear. intros owns1. revert owns1. induction (map fst chs0) as [|x l IH]; intros [|y w] L; cbn in *; try discriminate; auto. f_equal. auto.
      - assert (NI : ~ In k (K1 K)) by (intros J; apply existsb_names in J; congruence). unfold select.
        assert (sget k t1 = None) as -> by (apply sget_None_names; rewrite T, names_glue; auto).
        assert (sget k (with_max o m) = None) as -> by (apply sget_None_names; rewrite N1; auto). reflexivity. }
    split; auto. intros common. apply P_Noise.C17_depends_on_own_rows_only; [rewrite T, names_glue; auto|]. intros key. rewrite E1. auto.
  Qed.
  Lemma max_single o mt : (exists a, block_of K a o) -> estimate_max_signal {| cols := o; meta := mt |} = if existsb (String.eqb "Wavelength") K then (let* m := mx K o in Ok {| cols := with_max o m; meta := mt |}) else Err KeyError.
  Proof. intros (a & H1 & H2 & _). apply max_one; auto. now rewrite (nonempty_rows K (bins_of a)). Qed.
  Lemma K_ne : K <> []. Proof. intros E. rewrite E in CN. destruct CN. Qed.
  Lemma single_aligned a o : block_of K a o -> aligned o (nchans [a]) [bins_of a].
  Proof. intros (_ & _ & H & _ & E). split; auto. split; [discriminate|]. split; [repeat constructor; intros []|]. cbn. now rewrite E, H, app_nil_r. Qed.

  Lemma blocks_ok mt r : (forall k, In k K -> ordinary k) -> estimate_noise {| cols := glue K owns; meta := mt |} (nchans chs0) = Ok r ->
    forall a o mt', In (a, o) (combine chs0 owns) -> exists r', estimate_noise {| cols := o; meta := mt' |} (nchans [a]) = Ok r' /\
      (forall k, In k (names (cols r')) -> In k (names (cols r)) /\ select (fst a) k (cols r) = select (fst a) k (cols r')) /\
      (forall k, In k (names (cols r)) -> ~ In k (names (cols r')) -> exists z n, select (fst a) k (cols r) = Ok (repeat z n) /\ (z = Num (Fin 0) \/ z = Num NaN)).
  Proof.
    intros ORD E a o mt' I. destruct blocks_whole as [W1 W2]. destruct blocks_aligned as (A1 & A2 & A3 & A4).
    destruct (P_Noise.estimate_noise_inv_full {| cols := glue K owns; meta := mt |} (nchans chs0) (map bins_of chs0) (nbins chs0) r W1 W2 A1 A2 A3 A4 E) as (t1 & new & M1 & (C1 & _ & ND1 & K2 & _ & _ & _) & KP & CH).
    rewrite (max_glue K owns mt owns_ne ND K_ne blocks_rows) in M1. destruct (existsb (String.eqb "Wavelength") K) eqn:WL; [|discriminate].
    destruct (mapM (mx K) owns) as [ms|] eqn:MM; cbn [bind] in M1; [|discriminate]. injection M1 as <-. cbn [cols] in *.
    set (T1 := glue (K1 K) (map (fun q => with_max (fst q) (snd q)) (combine owns ms))) in *.
    destruct (one_of_them ms T1 MM eq_refl a o I) as (m & EM & B1 & SE & NI). destruct B1 as (N1 & R1 & L1 & P1 & E1).
    pose proof (In_combine_F2 _ _ _ F _ _ I) as B0. destruct (CH (h_noise (snd a)) (h_common (snd a))) as (out & EO & CO & CZ).
    { unfold nchans. apply in_map_iff. exists a. split; auto. eapply in_combine_l; eauto. }
    rewrite E1 in CO, CZ. rewrite NI in EO.
    assert (MS : estimate_max_signal {| cols := o; meta := mt' |} = Ok {| cols := with_max o m; meta := mt' |}) by (rewrite max_single by eauto; rewrite WL, EM; reflexivity).
    assert (NDo : NoDup (names o)) by (destruct B0 as (-> & _); auto).
    assert (Ro : rows_are (bins_of a) o) by apply B0.
    destruct (P_Noise.C17_estimate_succeeds {| cols := o; meta := mt' |} (nchans [a]) (bins_of a) _ NDo Ro ltac:(discriminate) MS) as (r' & ER').
    { rewrite nchans_one. intros ch co [[= <- <-]|[]]. eauto. }
    exists r'. split; auto. destruct (single_aligned a o B0) as (S1 & S2 & S3 & S4).
    destruct (P_Noise.estimate_noise_inv_full {| cols := o; meta := mt' |} (nchans [a]) [bins_of a] (bins_of a) r' NDo Ro S1 S2 S3 S4 ER') as (t1' & new' & M1' & (C1' & _ & ND1' & K2' & _ & _ & outs' & ins' & O' & V' & OK') & KP' & CH').
    rewrite MS in M1'. injection M1' as <-. cbn [cols] in *. rewrite nchans_one in O'. cbn [mapM fst snd] in O'. rewrite EO in O'. cbn in O'. injection O' as <-.
    destruct (CH' (h_noise (snd a)) (h_common (snd a)) (or_introl eq_refl)) as (out' & EO' & CO' & _). rewrite EO in EO'. injection EO' as <-. rewrite E1 in CO'.
    assert (NW : new' = to_table out).
    { cbn in V'. inversion OK' as [|? ? [_ O1] _]; subst. destruct (Nat.eqb_spec (n_rows (to_table out)) 0); [lia|]. now injection V' as _ <-. }
    change (cols r = override T1 new) in C1. change (cols r' = override (with_max o m) new') in C1'.
    assert (NT1 : names T1 = K1 K) by apply names_glue.
    assert (NMr : forall k, In k (names (cols r)) <-> In k (names new) \/ In k (K1 K)).
    { intros k. rewrite C1, override_names, NT1, in_app_iff, filter_In. destruct (smem k new) eqn:Z; cbn; [apply smem_names in Z|]; intuition. }
    assert (NMr' : forall k, In k (names (cols r')) <-> In k (names new') \/ In k (K1 K)).
    { intros k. rewrite C1', override_names, N1, in_app_iff, filter_In. destruct (smem k new') eqn:Z; cbn; [apply smem_names in Z|]; intuition. }
    assert (OUT : forall k, In k (names new') -> exists col, sget k out = Some col).
    { intros k J. rewrite NW in J. apply sget_names in J as [c G]. rewrite P_Noise.to_table_get in G. destruct (sget k out); [eauto|discriminate]. }
    assert (ORD1 : forall k, In k (K1 K) -> ordinary k).
    { intros k J. apply K1_In in J as [-> |J]; auto. apply ordinary_end; try reflexivity; discriminate. }
    assert (SELK : forall k, In k (K1 K) -> select (fst a) k (cols r) = select (fst a) k (cols r')).
    { intros k J. destruct (ORD1 k J) as (X1 & X2 & X3).
      assert (CNo : ordinary "chName") by (apply ordinary_end; try reflexivity; discriminate). destruct CNo as (Y1 & Y2 & Y3).
      transitivity (select (fst a) k T1); [unfold select; rewrite !KP by auto; auto|]. rewrite SE. unfold select. rewrite !KP' by auto. auto. }
    split.
    - intros k J. apply NMr' in J as [J|J].
      + destruct (OUT k J) as [col G]. split; [|rewrite (CO _ _ G), (CO' _ _ G); auto].
        pose proof (CO _ _ G) as X. unfold select in X. destruct (sget k (cols r)) eqn:Z; [|discriminate]. apply sget_names. eauto.
      + split; [apply NMr; auto|auto].
    - intros k J J'. apply NMr in J as [J|J]; [|exfalso; apply J', NMr'; auto]. apply CZ; auto. destruct (sget k out) as [col|] eqn:G; auto. exfalso. apply J', NMr'. left. rewrite NW. apply sget_names. rewrite P_Noise.to_table_get, G. cbn. eauto.
  Qed.
  Lemma mapM_some_error {A B} (f : A -> res B) l e : mapM f l = Err e -> exists a, In a l /\ f a = Err e.
  Proof. induction l as [|a l IH]; cbn; [discriminate|]. destruct (f a) eqn:E; cbn; [|intros [= <-]; eauto]. destruct (mapM f l); cbn; [discriminate|]. intros [= <-]. destruct IH as (b & I & X); eauto. Qed.
  Lemma mapM_all {A B} (f : A -> res B) l : (forall a, In a l -> exists b, f a = Ok b) -> exists m, mapM f l = Ok m.
  Proof. induction l as [|a l IH]; intros H; cbn; [eauto|]. destruct (H a (or_introl eq_refl)) as [b ->]. destruct IH as [m ->]; [intros; apply H; now right|]. cbn. eauto. Qed.
  Lemma combine_In_r {A B} (l : list A) (m : list B) b : length l = length m -> In b m -> exists a, In (a, b) (combine l m).
  Proof. revert m. induction l as [|x l IH]; intros [|y m] L I; cbn in *; try discriminate; [destruct I|]. destruct I as [-> |I]; [eauto|]. destruct (IH m) as [a J]; auto. eauto. Qed.
  Lemma combine_In_l {A B} (l : list A) (m : list B) a : length l = length m -> In a l -> exists b, In (a, b) (combine l m).
  Proof. revert m. induction l as [|x l IH]; intros [|y m] L I; cbn in *; try discriminate; [destruct I|]. destruct I as [-> |I]; [eauto|]. destruct (IH m) as [b J]; auto. eauto. Qed.
  Lemma blocks_err mt e : estimate_noise {| cols := glue K owns; meta := mt |} (nchans chs0) = Err e ->
    exists a o, In (a, o) (combine chs0 owns) /\ forall mt', estimate_noise {| cols := o; meta := mt' |} (nchans [a]) = Err e.
  Proof.
    intros E. destruct blocks_whole as [W1 W2]. assert (LEN : length chs0 = length owns) by (eapply Forall2_len; eauto).
    destruct (existsb (String.eqb "Wavelength") K) eqn:WL.
    2: { assert (X : exists a o, In (a, o) (combine chs0 owns)). { clear - LEN NE. destruct chs0 as [|a l]; [congruence|]. destruct owns as [|o w]; [discriminate|]. exists a, o. now left. }
         destruct X as (a & o & X). exists a, o. split; auto. intros mt'. unfold estimate_noise in *. rewrite (max_glue K owns mt owns_ne ND K_ne blocks_rows), WL in E. cbn in E. injection E as <-. rewrite max_single, WL; auto. exists a. eapply In_combine_F2; eauto. }
    destruct (mapM (mx K) owns) as [ms|e'] eqn:MM.
    - pose proof (max_glue K owns mt owns_ne ND K_ne blocks_rows) as MG. rewrite WL, MM in MG. cbn [bind] in MG.
      set (T1 := glue (K1 K) (map (fun q => with_max (fst q) (snd q)) (combine owns ms))) in *.
      destruct (mapM (fun ch => noise_in_channel T1 (fst ch) (snd ch)) (nchans chs0)) as [outs|e'] eqn:MN.
      + exfalso. destruct (P_Noise.C17_estimate_succeeds {| cols := glue K owns; meta := mt |} (nchans chs0) (nbins chs0) _ W1 W2 (ltac:(destruct chs0; [congruence|discriminate])) MG) as [r R']; [|congruence].
        intros ch co I. apply mapM_Ok_Forall2 in MN. cbn [cols]. clear - MN I. induction MN as [|x y l m X MN IH]; destruct I; subst; eauto.
      + assert (e' = e) as ->. { unfold estimate_noise in E. rewrite MG in E. cbn [bind cols] in E. rewrite MN in E. cbn in E. congruence. }
        apply mapM_some_error in MN as (ch & IC & EC). unfold nchans in IC. apply in_map_iff in IC as (a & <- & IA). cbn [fst snd] in EC. destruct (combine_In_l chs0 owns a LEN IA) as [o IO]. exists a, o. split; auto. intros mt'.
        destruct (one_of_them ms T1 MM eq_refl a o IO) as (m & EM & _ & _ & NI). rewrite NI in EC.
        unfold estimate_noise. rewrite max_single by (exists a; eapply In_combine_F2; eauto). rewrite WL, EM. cbn [bind cols]. rewrite nchans_one. cbn [mapM fst snd]. rewrite EC. reflexivity.
    - assert (e' = e) as ->. { unfold estimate_noise in E. rewrite (max_glue K owns mt owns_ne ND K_ne blocks_rows), WL, MM in E. cbn in E. congruence. }
      apply mapM_some_error in MM as (o & IO & EO). destruct (combine_In_r chs0 owns o LEN IO) as [a I]. exists a, o. split; auto. intros mt'.
      unfold estimate_noise. rewrite max_single by (exists a; eapply In_combine_F2; eauto). now rewrite WL, EO.
  Qed.
End Blocks.

(** ** Observations *)
Lemma own_labelled ns a fs sed sky o : as_built ns a -> own fs sed sky a = Ok o -> sget "chName" o = Some (repeat (Txt (fst a)) (bins_of a)).
Proof.
  intros A E. unfold own in E. destruct (foreground_of fs (snd a)) as [f|] eqn:Hf; cbn [bind] in E; [|discriminate]. destruct (own_star (snd a) sed sky) as [s0|] eqn:Hs; cbn [bind] in E; [|discriminate]. injection E as <-. rewrite !override_get.
  destruct fs as [fs|]; [|discriminate]. destruct (foreground_of_shape _ _ _ (built_sized _ _ A) Hf) as [[N1 _] _]. destruct (own_star_shape _ _ _ _ (built_sized _ _ A) Hs) as [N2 _].
  assert (sget "chName" s0 = None) as ->. { apply sget_None_names. rewrite N2. intros I. apply skeys_ordinary in I. tauto. }
  assert (sget "chName" f = None) as ->. { apply sget_None_names. rewrite N1. intros I. fold (fk fs) in I. apply fk_In in I as (k & _ & [I|I]); symmetry in I; revert I; apply suffix_not; reflexivity. }
  destruct a as [n c]. apply A.
Qed.
Definition seen (r : res target) : res (tgt * option star * table) :=
  let* x := r in Ok (x_sky x, x_source x, match x_table x with Some t => keep (loud (g_sky (x_sky x))) (cols t) | None => [] end).
Definition keys_of (owns : list table) : list string := match owns with o :: _ => names o | [] => [] end.
Lemma keys_all chs0 K owns : Forall2 (fun (a : string * chan) o => names o = K /\ rows_are (bins_of a) o) chs0 owns -> chs0 <> [] -> keys_of owns = K.
Proof. intros F2 NE. destruct F2 as [|a o l m [X _] F2]; [congruence|]. exact X. Qed.
Definition owns_of (s : setting) (x : target) (chs0 : list (string * chan)) : res (tgt * star * list table) :=
  let* g := foregrounds_of s (x_sky x) in
  let* fos := mapM (fun a => foreground_of (g_foreground g) (snd a)) chs0 in
  let* st := load s x in
  let* sos := mapM (fun a => own_star (snd a) (st_sed st) (g_sky g)) chs0 in
  Ok (g, st, over (over (map base chs0) fos) sos).
Definition pure (s : setting) (x : target) (chs0 : list (string * chan)) : res (tgt * option star * table) :=
  let* (gs, owns) := owns_of s x chs0 in
  let* t := estimate_noise {| cols := glue (keys_of owns) owns; meta := [] |} (nchans chs0) in
  Ok (fst gs, Some (snd gs), cols t).
Lemma instruments_In ns chs0 a : instruments ns chs0 -> In a chs0 -> instruments ns [a].
Proof.
  intros (NE & NC & ND & NS & NF & AB) I. rewrite Forall_forall in AB. repeat split; auto; try discriminate. cbn. repeat constructor. intros [].
Qed.
Section Observations.
  Variables (ns : list string) (chs0 : list (string * chan)).
  Hypothesis HI : instruments ns chs0.
  Lemma owns_ready g st owns s x : owns_of s x chs0 = Ok (g, st, owns) -> (exists chs, Forall2 same_but_sky chs0 chs) -> alright ns chs0 s x ->
    exists K, K_ok ns K /\ keys_of owns = K /\ Forall2 (block_of K) chs0 owns /\ Forall2 (fun a o => own (g_foreground g) (st_sed st) (g_sky g) a = Ok o) chs0 owns.
  Proof.
    intros E (chs & H) AR. destruct (observe_spec ns chs0 HI s chs x H AR) as [_ O]. unfold owns_of in E.
    destruct (foregrounds_of s (x_sky x)) as [g'|]; cbn [bind] in E; [|discriminate].
    destruct (mapM (fun a => foreground_of (g_foreground g') (snd a)) chs0) as [fos|] eqn:E1; cbn [bind] in E; [|discriminate].
    destruct (load s x) as [st'|]; cbn [bind] in E; [|discriminate].
    destruct (mapM (fun a => own_star (snd a) (st_sed st') (g_sky g')) chs0) as [sos|] eqn:E2; cbn [bind] in E; [|discriminate]. injection E as <- <- <-.
    destruct O as (T & K & KO & MO & _). exists K. split; auto. destruct MO as (_ & _ & _ & F2). destruct HI as (NE & _ & _ & _ & _ & AB). pose proof (owns_F2 _ _ _ _ _ _ E1 E2) as FO. split; [|split; auto].
    - destruct F2 as [|a o l m [X _] F2]; [congruence|]. cbn. auto.
    - clear - F2 FO AB. revert AB FO. induction F2 as [|a o l m [X Y] F2 IH]; intros AB FO; inversion AB; inversion FO; subst; constructor; auto. repeat split; auto; destruct a; try apply H1. eapply own_labelled in H6; eauto.
  Qed.
  Lemma observe_seen s chs x : Forall2 same_but_sky chs0 chs -> alright ns chs0 s x -> seen (snd (observe_target s chs x)) = pure s x chs0.
  Proof.
    intros H AR. destruct (observe_spec ns chs0 HI s chs x H AR) as [_ O]. pose proof (owns_ready) as OR. unfold pure. unfold owns_of in *.
    specialize (fun g st owns => OR g st owns s x). destruct (foregrounds_of s (x_sky x)) as [g'|]; cbn [bind] in *; [|rewrite O; reflexivity].
    destruct (mapM (fun a => foreground_of (g_foreground g') (snd a)) chs0) as [fos|] eqn:E1; cbn [bind] in *; [|rewrite O; reflexivity].
    destruct (load s x) as [st'|]; cbn [bind] in *; [|rewrite O; reflexivity].
    destruct (mapM (fun a => own_star (snd a) (st_sed st') (g_sky g')) chs0) as [sos|] eqn:E2; cbn [bind] in *; [|rewrite O; reflexivity].
    destruct O as (T & K & (K0 & K1' & _) & (M1 & M2 & M3 & F2) & ->). set (owns := over (over (map base chs0) fos) sos) in *.
    destruct (OR g' st' owns eq_refl (ex_intro _ _ H) AR) as (K' & (N1 & N2 & N3) & KE & B & _).
    assert (KK : K = K') by (rewrite <- KE; symmetry; apply (keys_all chs0); [exact F2|apply HI]). rewrite <- KK in *. clear KK K'. rewrite KE.
    destruct HI as (NE & NC & _). pose proof (blocks_aligned chs0 K owns B N2 NC NE) as (A1 & A2 & A3 & A4).
    assert (AL : aligned (cols T) (nchans chs0) (map bins_of chs0)).
    { repeat split; auto. rewrite <- M1, keep_get in A4. destruct (loud_sees (g_sky g')) as (_ & _ & LC & _). now rewrite LC in A4. }
    pose proof (estimate_keep (loud (g_sky g')) T [] (nchans chs0) _ _ (loud_sees _) M2 M3 AL) as EK. rewrite M1 in EK.
    destruct (estimate_noise T (nchans chs0)) as [r|e]; destruct (estimate_noise {| cols := glue K owns; meta := [] |} (nchans chs0)) as [r'|e']; try contradiction; [|subst; reflexivity].
    cbn [bind seen observed x_sky x_source x_table fst snd]. now rewrite EK.
  Qed.
  Hypothesis QU : quiet ns.
  Lemma pure_split s x a : alright ns chs0 s x -> In a chs0 -> alright ns [a] s x ->
    forall g st T, pure s x chs0 = Ok (g, st, T) -> exists Ta, pure s x [a] = Ok (g, st, Ta) /\
      (forall k, In k (names Ta) -> In k (names T) /\ select (fst a) k T = select (fst a) k Ta) /\
      (forall k, In k (names T) -> ~ In k (names Ta) -> exists z n, select (fst a) k T = Ok (repeat z n) /\ (z = Num (Fin 0) \/ z = Num NaN)).
  Proof.
    intros AR I ARa g st T E. unfold pure in E. destruct (owns_of s x chs0) as [[[g0 st0] owns]|] eqn:EO; cbn [bind fst snd] in E; [|discriminate].
    destruct (estimate_noise _ _) as [t|] eqn:EN; cbn [bind] in E; [|discriminate]. injection E as <- <- <-.
    assert (SELF : forall l : list (string * chan), Forall2 same_but_sky l l).
    { induction l as [|b l IH]; constructor; auto. repeat split; auto. destruct b as [? []]; reflexivity. }
    destruct (owns_ready g0 st0 owns s x EO (ex_intro _ _ (SELF _)) AR) as (K & (K1' & K2 & K3) & KE & B & FO). rewrite KE in EN.
    destruct HI as (NE & NC & _). assert (LEN : length chs0 = length owns) by (eapply Forall2_len; eauto). destruct (combine_In_l chs0 owns a LEN I) as [o IO].
    destruct (blocks_ok chs0 K owns B K1' K2 NC NE [] t (K3 QU) EN a o [] IO) as (r' & ER & S1 & S2). exists (cols r'). split; auto.
    unfold pure. assert (owns_of s x [a] = Ok (g0, st0, [o])) as ->.
    { unfold owns_of in *. destruct (foregrounds_of s (x_sky x)) as [g'|]; cbn [bind] in *; [|discriminate]. dbind EO fos X1. destruct (load s x) as [st'|]; cbn [bind] in *; [|discriminate]. dbind EO sos X2. injection EO as <- <- <-.
      pose proof (In_combine_F2 _ _ _ FO _ _ IO) as Y. unfold own in Y. cbn [mapM]. destruct (foreground_of (g_foreground g') (snd a)) as [f|]; cbn [bind] in Y; [|discriminate]. cbn [bind]. destruct (own_star (snd a) (st_sed st') (g_sky g')) as [s1|]; cbn [bind] in Y; [|discriminate]. injection Y as <-. reflexivity. }
    cbn [bind fst snd keys_of]. destruct (In_combine_F2 _ _ _ B _ _ IO) as (NO & _). rewrite (glue_one o) by (rewrite NO; auto). rewrite ER. reflexivity.
  Qed.
  Lemma pure_error s x e : alright ns chs0 s x -> pure s x chs0 = Err e -> exists a, In a chs0 /\ pure s x [a] = Err e.
  Proof.
    intros AR E. unfold pure in *. assert (NE : chs0 <> []) by apply HI. assert (X : exists a, In a chs0) by (destruct chs0 as [|a l]; [congruence|]; exists a; now left). destruct X as [a0 I0].
    destruct (owns_of s x chs0) as [[[g st] owns]|e'] eqn:EO; cbn [bind fst snd] in E.
    - assert (SELF : forall l : list (string * chan), Forall2 same_but_sky l l).
      { induction l as [|b l IH]; constructor; auto. repeat split; auto. destruct b as [? []]; reflexivity. }
      destruct (owns_ready g st owns s x EO (ex_intro _ _ (SELF _)) AR) as (K & (K1' & K2 & K3) & KE & B & FO). rewrite KE in E.
      destruct (estimate_noise _ _) as [t|e'] eqn:EN; cbn [bind] in E; [discriminate|]. injection E as ->.
      destruct HI as (_ & NC & _). destruct (blocks_err chs0 K owns B K1' K2 NC NE [] e EN) as (a & o & IO & EA). exists a. split; [eapply in_combine_l; eauto|].
      assert (owns_of s x [a] = Ok (g, st, [o])) as ->.
      { unfold owns_of in *. destruct (foregrounds_of s (x_sky x)) as [g'|]; cbn [bind] in *; [|discriminate]. dbind EO fos X1. destruct (load s x) as [st'|]; cbn [bind] in *; [|discriminate]. dbind EO sos X2. injection EO as <- <- <-.
        pose proof (In_combine_F2 _ _ _ FO _ _ IO) as Y. unfold own in Y. cbn [mapM]. destruct (foreground_of (g_foreground g') (snd a)) as [f|]; cbn [bind] in Y; [|discriminate]. cbn [bind]. destruct (own_star (snd a) (st_sed st') (g_sky g')) as [s1|]; cbn [bind] in Y; [|discriminate]. injection Y as <-. reflexivity. }
      cbn [bind fst snd keys_of]. destruct (In_combine_F2 _ _ _ B _ _ IO) as (NO & _). rewrite (glue_one o) by (rewrite NO; auto). rewrite EA. reflexivity.
    - injection E as ->. unfold owns_of in EO. destruct (foregrounds_of s (x_sky x)) as [g'|eg] eqn:EG; cbn [bind] in EO.
      2: { injection EO as ->. exists a0. split; auto. unfold owns_of. rewrite EG. reflexivity. }
      destruct (mapM (fun a => foreground_of (g_foreground g') (snd a)) chs0) as [fos|e1] eqn:E1; cbn [bind] in EO.
      2: { injection EO as ->. apply mapM_some_error in E1 as (a & I & E1). exists a. split; auto. unfold owns_of. rewrite EG. cbn [bind mapM]. rewrite E1. reflexivity. }
      assert (FA : forall a, In a chs0 -> exists f, foreground_of (g_foreground g') (snd a) = Ok f).
      { intros a I. apply mapM_Ok_Forall2 in E1. clear - E1 I. induction E1; destruct I; subst; eauto. }
      destruct (load s x) as [st'|e2] eqn:EL; cbn [bind] in EO.
      2: { injection EO as ->. exists a0. split; auto. unfold owns_of. rewrite EG. cbn [bind mapM]. destruct (FA a0 I0) as [f ->]. cbn [bind]. rewrite EL. reflexivity. }
      destruct (mapM (fun a => own_star (snd a) (st_sed st') (g_sky g')) chs0) as [sos|e3] eqn:E3; cbn [bind] in EO; [discriminate|]. injection EO as ->.
      apply mapM_some_error in E3 as (a & I & E3). exists a. split; auto. unfold owns_of. rewrite EG. cbn [bind mapM]. destruct (FA a I) as [f ->]. cbn [bind]. rewrite EL. cbn [bind]. rewrite E3. reflexivity.
  Qed.
End Observations.
Lemma shows_keep p T name k v : p "chName"%string = true -> p k = true -> shows (keep p T) name k v <-> shows T name k v.
Proof. intros A B. unfold shows. rewrite !keep_get, A, B. tauto. Qed.
