(** C110: every observed target can be drawn. *)
From Coq Require Import Reals Lra Permutation.
From Verif Require Import Base Dict XR M_Signal M_Optics M_Light M_Bins M_Star M_Source M_Foreground M_Table S_Table L_Table P_Table M_Observe S_Observe L_Observe L_Stages L_Outcome.
From Verif Require M_Noise P_Noise.
From Verif Require Import S_Noise L_Noise P_Observe M_Plot S_Plot P_Plot.
From Verif Require Import M_Table S_Observe.
Import M_Noise(estimate_noise, noise_in_channel, ch_name).
Open Scope list_scope.

(** The table of a target as the plotter reads it: [hour k] tells whether column [k] is in hr**0.5;
    masked cells are not drawn. *)
Definition number (c : cell) : xr := match c with Num x => x | _ => NaN end.
Definition text (c : cell) : option string := match c with Txt s => Some s | _ => None end.
Fixpoint texts (l : list cell) : option (list string) :=
  match l with
  | [] => Some []
  | c :: l => match text c, texts l with Some s, Some m => Some (s :: m) | _, _ => None end
  end.
Definition pcol (h : bool) (l : list cell) : pcolumn :=
  match texts l with Some m => Texts m | None => Numbers h (map number l) end.
Definition drawn (hour : string -> bool) (T : mtable) : ptable :=
  {| p_name := sget "name" (meta T); p_cols := map (fun c => (fst c, pcol (hour (fst c)) (snd c))) (cols T) |}.

(** Texts only in the column chName *)
Definition plain (t : table) : Prop := forall k col s, In (k, col) t -> k <> "chName"%string -> ~ In (Txt s) col.

Lemma plain_override a b : plain a -> plain b -> plain (override a b).
Proof. intros A B k col s I. unfold override in I. apply in_app_iff in I as [I|I]; [apply filter_In in I as [I _]; eapply A; eauto|eapply B; eauto]. Qed.
Lemma plain_glue K owns : Forall plain owns -> plain (glue K owns).
Proof.
  intros F k col s I NC J. unfold glue in I. apply in_map_iff in I as (k' & [= -> <-] & _). apply in_concat in J as (l & L & J). apply in_map_iff in L as (o & <- & O).
  unfold col_of in J. destruct (sget k o) as [c|] eqn:G; [|destruct J]. rewrite Forall_forall in F. apply sget_In in G. eapply F; eauto.
Qed.
Lemma num_not_text l s : ~ In (Txt s) (map num l).
Proof. intros I. apply in_map_iff in I as (x & E & _). discriminate. Qed.
Lemma plain_foreground d : plain (foreground_table d).
Proof. intros k col s I _ J. unfold foreground_table in I. apply in_map_iff in I as ([k' v] & [= <- <-] & _). now apply num_not_text in J. Qed.
Lemma plain_star o : plain (star_columns o).
Proof.
  intros k col s I _ J. unfold star_columns in I. apply in_app_iff in I as [I|I].
  - destruct (o_sky o); [|destruct I]. destruct I as [[= <- <-]|[]]. now apply cell_of_not_text in J.
  - cbn in I. repeat (destruct I as [[= <- <-]|I]; [now apply num_not_text in J|]). destruct I.
Qed.
Lemma plain_keep p t : plain t -> plain (keep p t).
Proof. intros H k col s I. apply filter_In in I as [I _]. eapply H; eauto. Qed.
Lemma plain_stacked ts t : NoDup (names t) -> stacked ts t -> Forall plain ts -> plain t.
Proof.
  intros ND (_ & ST) F k col s I NC J. assert (IN : In k (names t)) by (apply in_map_iff; exists (k, col); auto).
  destruct (ST k IN) as (z & G & Z). rewrite (In_sget k t col ND I) in G. injection G as ->.
  apply in_concat in J as (l & L & J). apply in_map_iff in L as (u & <- & U). unfold block in J. rewrite Forall_forall in F. destruct (sget k u) as [c|] eqn:E.
  - apply sget_In in E. eapply F; eauto.
  - apply repeat_spec in J. destruct Z as (v & _ & Z); [eauto|]. eapply zero_like_not_text; eauto.
Qed.
Lemma cell_add_plain a b c s : cell_add a b = Ok c -> c <> Txt s.
Proof. destruct a as [x| |], b as [y| |]; cbn; intros [= <-]; discriminate. Qed.
Lemma add_columns_plain cs : forall acc m s, (forall s, ~ In (Txt s) acc) -> add_columns acc cs = Ok m -> ~ In (Txt s) m.
Proof.
  induction cs as [|c cs IH]; intros acc m s A E; cbn in E; [injection E as <-; auto|].
  destruct (add_column acc c) as [a|] eqn:X; cbn in E; [|discriminate]. apply (IH a m s); auto. clear - X. intros s I. unfold add_column in X. destruct (Nat.eqb _ _); [|discriminate].
  apply mapM_Ok_Forall2 in X. apply In_nth_error in I as (i & I). revert i I. induction X as [|p q l l' H X IH]; intros [|i] I; try discriminate; cbn in I.
  - injection I as ->. eapply cell_add_plain in H. now apply H.
  - eauto.
Qed.
Lemma plain_to_table o : plain (M_Noise.to_table o).
Proof. intros k col s I _ J. unfold M_Noise.to_table in I. apply in_map_iff in I as ([k' v] & [= <- <-] & _). apply in_map_iff in J as (x & E & _). discriminate. Qed.
Lemma own_plain fs sed sky a o : plain (base a) -> own fs sed sky a = Ok o -> plain o.
Proof.
  intros P E. unfold own in E. destruct (foreground_of fs (snd a)) as [f|] eqn:Hf; cbn [bind] in E; [|discriminate]. destruct (own_star (snd a) sed sky) as [so|] eqn:Hs; cbn [bind] in E; [|discriminate]. injection E as <-.
  apply plain_override; [apply plain_override; auto|].
  - unfold foreground_of in Hf. destruct (propagate_diffuse_foreground _ _ _); cbn [bind] in Hf; [|discriminate]. injection Hf as <-. apply plain_foreground.
  - unfold own_star in Hs. destruct (propagate_star _ _ _ _) as [[]|]; cbn [bind] in Hs; [|discriminate]. injection Hs as <-. apply plain_keep, plain_star.
Qed.

(** What an observation leaves: a whole table, in which only the names of the channels are texts
    (besides what was observed before), with all the columns of the channels' tables *)
Definition loud_plain sky (t : table) : Prop := plain (keep (loud sky) t).
Lemma fnames_has ks : forall l x, In x l \/ (exists k, In k ks /\ x = (k ++ "_signal")%string) -> In x (fnames ks l).
Proof.
  induction ks as [|k ks IH]; intros l x [I|(k' & I & ->)]; cbn [fnames]; auto; [destruct I| |destruct I as [->|I]].
  - apply IH. left. rewrite !addk_In. auto.
  - apply IH. left. rewrite !addk_In. auto.
  - apply IH. right. eauto.
Qed.
Lemma labels_text (chans : list (string * chan)) : exists labels,
  concat (map (fun q => repeat (Txt (ch_name (fst (fst q)))) (snd q)) (combine (nchans chans) (map bins_of chans))) = map Txt labels /\
  (Forall (fun a => (0 < bins_of a)%nat /\ ch_name (h_noise (snd a)) = fst a) chans -> forall n, In n labels <-> In n (map fst chans)).
Proof.
  induction chans as [|a l (labels & E & H)]; [exists []; split; [reflexivity|cbn; tauto]|].
  exists (repeat (ch_name (h_noise (snd a))) (bins_of a) ++ labels). split.
  - unfold nchans in *. cbn [map combine concat fst snd]. rewrite E, map_app, map_repeat. reflexivity.
  - intros F n. inversion F as [|? ? [F1 F2] F3]; subst. rewrite in_app_iff, (H F3), F2. cbn. split; (intros [I|I]; [left|auto]).
    + now apply repeat_spec in I.
    + subst. destruct (bins_of a); [lia|now left].
Qed.
Lemma sget_mapv {V W} (f : V -> W) (k : string) l : sget k (map (fun x => (fst x, f (snd x))) l) = option_map f (sget k l).
Proof. induction l as [|[k' v] l IH]; cbn; auto. destruct (String.eqb k k'); auto. Qed.
Lemma whole ns chs h s x y T : instruments ns chs ->
  (forall name c, In (name, c) chs -> plain (cols (h_table c))) ->
  Forall (fun sx => columns_apart ns chs (fst sx) (snd sx)) h -> columns_apart ns chs s x -> snd (observe_target s (after chs h) x) = Ok y -> x_table y = Some T ->
  NoDup (names (cols T)) /\ (exists N, rows_are N (cols T) /\ (0 < N)%nat) /\ (exists labels, sget "chName" (cols T) = Some (map Txt labels) /\ labels <> [] /\ forall n, In n labels <-> In n (map fst chs)) /\
  (forall k col t, In (k, col) (cols T) -> k <> "chName"%string -> loud (g_sky (x_sky y)) k = true -> ~ In (Txt t) col) /\
  (forall k, In k ns -> In k (names (cols T))) /\ In "Wavelength"%string (names (cols T)) /\ In "star_signal_inAperture"%string (names (cols T)) /\
  (forall fs f, g_foreground (x_sky y) = Some fs -> In f (map fst fs) -> In (f ++ "_signal")%string (names (cols T))) /\
  In "total_noise"%string (names (cols T)).
Proof.
  intros HI PL H AP E XT. apply apart_alright in AP. pose proof (after_ok ns chs h HI H) as AO. destruct (observe_spec ns chs HI s _ x AO AP) as [_ O].
  pose proof (fun g st owns => owns_ready ns chs HI g st owns s x) as OR. unfold owns_of in OR.
  destruct (foregrounds_of s (x_sky x)) as [g|]; [|rewrite O in E; discriminate]. cbn [bind] in OR.
  destruct (mapM (fun a => foreground_of (g_foreground g) (snd a)) chs) as [fos|] eqn:E1; [|rewrite O in E; discriminate]. cbn [bind] in OR.
  destruct (load s x) as [st|] eqn:LD; [|rewrite O in E; discriminate]. cbn [bind] in OR.
  destruct (mapM (fun a => own_star (snd a) (st_sed st) (g_sky g)) chs) as [sos|] eqn:E2; [|rewrite O in E; discriminate].
  destruct O as (T0 & K & KOK & (M1 & M2 & M3 & F2) & EO). rewrite EO in E. destruct (estimate_noise T0 (nchans chs)) as [T'|] eqn:EN; cbn [bind] in E; [|discriminate]. injection E as <-. cbn in XT. injection XT as ->. cbn [x_sky observed].
  cbn [bind] in OR. destruct (OR _ _ _ eq_refl (ex_intro _ _ AO) AP) as (K' & _ & KE & B & FO). set (owns := over (over (map base chs) fos) sos) in *.
  assert (K' = K) as ->. { rewrite <- KE. apply (keys_all chs); [exact F2|apply HI]. }
  destruct KOK as (N1 & N2 & _). pose proof HI as (NE & NC & NDn & _ & _ & AB).
  pose proof (blocks_aligned chs K owns B N2 NC NE) as (A1 & A2 & A3 & A4). pose proof (loud_sees (g_sky g)) as (LS & LM & LC & LW & LL & LX).
  assert (CN : sget "chName" (cols T0) = Some (concat (map (fun q => repeat (Txt (ch_name (fst (fst q)))) (snd q)) (combine (nchans chs) (map bins_of chs))))).
  { rewrite <- M1, keep_get in A4. now rewrite LC in A4. }
  destruct (P_Noise.estimate_noise_inv_full T0 (nchans chs) (map bins_of chs) (nbins chs) T M2 M3 A1 A2 A3 CN EN) as (t1 & new & X1 & (CR & RR & NR & OK & RN & NN & outs & ins & MO & VS & OT) & KP & CH).
  destruct (P_Noise.max_signal_inv T0 t1 _ M2 M3 X1) as (_ & _ & GET).
  assert (NK : forall k, In k (names (cols t1)) -> In k (names (cols T))).
  { intros k I. rewrite CR. unfold names. rewrite map_app. apply in_app_iff. destruct (smem k new) eqn:SM; [right; now apply smem_names|left].
    apply in_map_iff in I as ([k' c] & <- & I). apply in_map_iff. exists (k', c). split; auto. apply filter_In. split; auto. cbn in *. now rewrite SM. }
  assert (N0 : forall k, In k (names (cols T0)) -> In k (names (cols t1))).
  { intros k I. destruct (string_dec k "MaxSignal_inPixel") as [->|NM].
    - clear - X1. unfold estimate_max_signal in X1. destruct (sget "Wavelength" (cols T0)); [|discriminate]. destruct (add_columns _ _); cbn [bind] in X1; [|discriminate]. injection X1 as <-. cbn. unfold hstack, names. rewrite map_map. cbn. rewrite map_app, in_app_iff. right. now left.
    - apply sget_names. apply sget_names in I as [c G]. exists c. rewrite GET; auto. }
  assert (NG : forall k, In k K -> In k (names (cols T))).
  { intros k I. apply NK, N0. assert (J : In k (names (keep (loud (g_sky g)) (cols T0)))) by (rewrite M1, names_glue; auto). rewrite names_keep in J. now apply filter_In in J. }
  assert (PO : Forall plain owns).
  { apply Forall_forall. intros o IO. assert (LE : length chs = length owns) by (eapply Forall2_len; eauto). destruct (combine_In_r _ _ _ LE IO) as [[n c] IA]. pose proof (In_combine_F2 _ _ _ FO _ _ IA) as Y. eapply own_plain; [|exact Y]. apply (PL n). apply in_combine_l in IA. auto. }
  assert (OWN : forall k, (exists a o, In (a, o) (combine chs owns) /\ In k (names o)) -> In k (names (cols T))).
  { intros k (a & o & I & J). apply NG. pose proof (In_combine_F2 _ _ _ B _ _ I) as (<- & _). auto. }
  assert (SOME : exists a o, In (a, o) (combine chs owns) /\ own (g_foreground g) (st_sed st) (g_sky g) a = Ok o /\ as_built ns a).
  { destruct FO as [|a o l m Y FO]; [congruence|]. exists a, o. split; [now left|]. split; auto. now inversion AB. }
  split; [auto|]. split; [exists (nbins chs); split; auto|]. 
  { destruct chs as [|[n c] l]; [congruence|]. inversion AB as [|? ? Z _]; subst. destruct Z as (Z & _). cbn. unfold bins_of. cbn. lia. }
  split; [|split; [|split; [|split; [|split; [|split]]]]].
  - destruct (labels_text chs) as (labels & LE & LI). exists labels.
    assert (I' : forall n, In n labels <-> In n (map fst chs)).
    { apply LI. eapply Forall_impl; [|exact AB]. intros [n c] (Z & _ & _ & _ & Z' & _). split; auto. }
    split; [|split; auto].
    + rewrite KP, GET, CN, LE; auto; discriminate || (intros m Q; symmetry in Q; revert Q; apply suffix_not; reflexivity).
    + intros ->. destruct chs as [|a l]; [congruence|]. destruct (proj2 (I' (fst a))). now left.
  - intros k col t I NCk L J. rewrite CR in I. apply in_app_iff in I as [I|I].
    + apply filter_In in I as [I _]. clear - X1 I NCk L J M1 PO M2 M3. unfold estimate_max_signal in X1. destruct (sget "Wavelength" (cols T0)) as [wl|] eqn:W; [|discriminate]. destruct (add_columns _ _) as [m|] eqn:AC; cbn [bind] in X1; [|discriminate]. injection X1 as X1. assert (X2 : t1 = snd (update_table T0 {| cols := [("MaxSignal_inPixel"%string, m)]; meta := [] |})) by (rewrite <- X1; reflexivity). clear X1. subst t1.
      assert (LM : length m = nbins chs). { assert (LL : length wl = nbins chs) by (eapply M3; apply sget_In; eauto). rewrite <- LL. clear - AC. assert (Q : forall cs a m, add_columns a cs = Ok m -> length m = length a). { induction cs as [|c cs IH]; intros a m0 H; cbn in H; [now injection H as <-|]. destruct (add_column a c) as [b|] eqn:X; cbn in H; [|discriminate]. apply IH in H. apply add_column_length in X. lia. } apply Q in AC. now rewrite repeat_length in AC. }
      rewrite (update_cols T0 _ (nbins chs)) in I; auto. 2: { cbn. intros c col0 [[= <- <-]|[]]. auto. }
      cbn [cols] in I. apply in_app_iff in I as [I|I].
      * apply filter_In in I as [I _]. assert (II : In (k, col) (keep (loud (g_sky g)) (cols T0))) by (apply filter_In; auto). rewrite M1 in II. eapply plain_glue; eauto.
      * destruct I as [[= <- <-]|[]]. eapply add_columns_plain in AC; [eauto|]. intros s0 Q. apply repeat_spec in Q. discriminate.
    + assert (ST : stacked (map M_Noise.to_table outs) new).
      { assert (NO : map M_Noise.to_table outs <> []). { intros Q. apply map_eq_nil in Q. subst. apply mapM_Ok_length in MO. destruct (nchans chs); [congruence|discriminate]. } destruct (vstack_spec _ _ _ OT NO VS) as (t' & [= <-] & ST & _). auto. }
      eapply (plain_stacked _ _ NN ST); eauto. apply Forall_forall. intros u U. apply in_map_iff in U as (o & <- & _). apply plain_to_table.
  - intros k I. apply OWN. destruct SOME as (a & o & J & Y & A). exists a, o. split; auto. unfold own in Y. destruct (foreground_of _ _) as [f|]; cbn [bind] in Y; [|discriminate]. destruct (own_star _ _ _) as [so|]; cbn [bind] in Y; [|discriminate]. injection Y as <-.
    destruct a as [n c]. destruct A as (_ & A & _). rewrite <- A in I. apply sget_names in I as [v G]. apply sget_names. rewrite !override_get. destruct (sget k so); [eauto|]. destruct (sget k f); [eauto|]. exists v. exact G.
  - apply NK, N0. clear - X1. unfold estimate_max_signal in X1. destruct (sget "Wavelength" (cols T0)) eqn:G; [|discriminate]. apply sget_names. eauto.
  - apply OWN. destruct SOME as (a & o & J & Y & A). exists a, o. split; auto. unfold own in Y. destruct (foreground_of _ _) as [f|]; cbn [bind] in Y; [|discriminate]. destruct (own_star _ _ _) as [so|] eqn:Hs; cbn [bind] in Y; [|discriminate]. injection Y as <-.
    destruct (own_star_shape _ _ _ _ (built_sized _ _ A) Hs) as [NS _]. rewrite override_names, in_app_iff. right. rewrite NS. unfold skeys. apply in_app_iff. right. cbn. auto.
  - intros fs f FS IF. apply OWN. destruct SOME as (a & o & J & Y & A). exists a, o. split; auto. unfold own in Y. destruct (foreground_of _ _) as [ft|] eqn:Hf; cbn [bind] in Y; [|discriminate]. destruct (own_star _ _ _) as [so|] eqn:Hs; cbn [bind] in Y; [|discriminate]. injection Y as <-.
    rewrite FS in Hf. destruct (foreground_of_shape _ _ _ (built_sized _ _ A) Hf) as [[NF _] _]. apply sget_names. rewrite !override_get. destruct (sget _ so); [eauto|].
    assert (I : In (f ++ "_signal")%string (names ft)). { rewrite NF. apply fnames_has. right. exists f. split; auto. rewrite map_rev, <- in_rev. auto. }
    apply sget_names in I as [v ->]. eauto.
  - rewrite CR. unfold names. rewrite map_app. apply in_app_iff. right. fold (names new). destruct chs as [|a l]; [congruence|]. destruct outs as [|o outs]; [apply mapM_Ok_length in MO; discriminate|].
    assert (NO : map M_Noise.to_table (o :: outs) <> []) by discriminate. destruct (vstack_spec _ _ _ OT NO VS) as (t' & [= <-] & ST & _). apply (stacked_names_In _ _ _ ST). exists (M_Noise.to_table o). split; [now left|].
    destruct (CH (h_noise (snd a)) (h_common (snd a))) as (out & X & _); [now left|]. apply mapM_Ok_Forall2 in MO. assert (o = out) as ->. { inversion MO as [|? ? ? ? Q]; subst. cbn [fst snd] in Q. rewrite X in Q. now injection Q. }
    assert (TN : sget "total_noise" out <> None).
    { clear - X. unfold noise_in_channel in X. repeat match type of X with context [bind ?r _] => destruct r; cbn [bind] in X; [|discriminate] end. destruct (M_Noise.multiaccum _ _); repeat match type of X with context [bind ?r _] => destruct r; cbn [bind] in X; [|discriminate] end. injection X as <-.
      assert (Q : forall c n o, sget "total_noise" o <> None -> sget "total_noise" (M_Noise.try_custom c n o) <> None).
      { clear. assert (Q1 : forall e n o, sget "total_noise" o <> None -> sget "total_noise" (fst (M_Noise.add_entry e n o)) <> None).
        { intros e n o H. unfold M_Noise.add_entry. destruct (M_Noise.e_value e), (M_Noise.e_name e); auto. destruct (sget "total_noise" (sset _ _ o)) eqn:G; cbn [fst]; [rewrite dget_dset_same by apply String_eqb_spec; discriminate|]. congruence || (destruct (string_dec "total_noise" (M_Noise.noise_key s)) as [Q|Q]; [rewrite <- Q, dget_dset_same in G by apply String_eqb_spec; discriminate|rewrite dget_dset_other in G by (auto using String_eqb_spec); congruence]). }
        intros [[e|es]|] n o H; cbn; auto. revert o H. induction es as [|e es IH]; intros o H; cbn; auto. specialize (Q1 e n o H). destruct (M_Noise.add_entry e n o) as [o' [|]]; auto. }
      apply Q, Q. rewrite dget_dset_same by apply String_eqb_spec. discriminate. }
    destruct (sget "total_noise" out) as [c|] eqn:G; [|congruence]. assert (Z : sget "total_noise" (M_Noise.to_table out) = Some (map Num c)). { unfold M_Noise.to_table. now rewrite sget_mapv, G. }
    congruence.
Qed.
Lemma dupdate_nil {V} (m : sdict V) : dupdate String.eqb m [] = m. Proof. reflexivity. Qed.
Lemma observed_name s chs x y T : snd (observe_target s chs x) = Ok y -> x_table y = Some T -> sget "name" (meta T) = Some (x_name x).
Proof.
  assert (N : forall t chans r, M_Noise.estimate_noise t chans = Ok r -> meta r = meta t).
  { intros t chans r E. unfold M_Noise.estimate_noise in E. destruct (estimate_max_signal t) as [t1|] eqn:M; cbn [bind] in E; [|discriminate].
    destruct (mapM _ _); cbn [bind] in E; [|discriminate]. destruct (vstack_tables _) as [[? [u|]]|]; cbn [bind] in E; try discriminate. injection E as <-. cbn.
    unfold estimate_max_signal in M. destruct (sget _ _); [|discriminate]. destruct (add_columns _ _); cbn [bind] in M; [|discriminate]. injection M as <-. reflexivity. }
  unfold observe_target. destruct (prepare_target s chs x) as [chs1 [t1|]] eqn:P; cbn [bind snd]; [|discriminate].
  assert (A : sget "name" (meta t1) = Some (x_name x)).
  { unfold prepare_target in P. destruct (merge_channels _) as [[ts [t|]]|]; try discriminate. injection P as _ <-. cbn [meta]. unfold header. cbn [dupdate fold_left fst snd].
    rewrite dget_dset_other by (try apply String_eqb_spec; discriminate). apply dget_dset_same, String_eqb_spec. }
  destruct (foregrounds_of s (x_sky x)) as [g|]; cbn [bind snd]; [|discriminate].
  destruct (propagate_foreground_light chs1 (g_foreground g) t1) as [chs2 [t2|]] eqn:F; cbn [bind snd]; [|discriminate].
  assert (B : meta t2 = meta t1). { unfold propagate_foreground_light in F. destruct (mapM _ _); [|discriminate]. destruct (vstack_tables _) as [[? [u|]]|]; try discriminate. injection F as _ <-. reflexivity. }
  destruct (load s x) as [st|]; cbn [bind snd]; [|discriminate].
  destruct (propagate_target_light chs2 (st_sed st) (g_sky g) t2) as [chs3 [t3|]] eqn:L; cbn [bind snd]; [|discriminate].
  assert (C : meta t3 = meta t2). { unfold propagate_target_light in L. destruct (propagate_stars _ _ _) as [? [?|]]; [|discriminate]. destruct (vstack_tables _) as [[? [u|]]|]; try discriminate. injection L as _ <-. reflexivity. }
  destruct (M_Noise.estimate_noise _ _) as [r|] eqn:E; cbn [bind]; [|discriminate]. intros [= <-]. cbn. intros [= ->]. apply N in E. congruence.
Qed.

Lemma texts_map l : texts (map Txt l) = Some l.
Proof. induction l as [|a l IH]; cbn; [|rewrite IH]; reflexivity. Qed.
Lemma texts_none l : l <> [] -> (forall s, ~ In (Txt s) l) -> texts l = None.
Proof. destruct l as [|[x|s|] l]; intros NE H; cbn; try congruence. destruct (H s). now left. Qed.
Lemma texts_length l : forall m, texts l = Some m -> length m = length l.
Proof. induction l as [|c l IH]; cbn; intros m E; [now injection E as <-|]. destruct (text c), (texts l) as [t|]; try discriminate. injection E as <-. cbn. f_equal. auto. Qed.
Lemma cells_pcol h l : cells_in (pcol h l) = length l.
Proof. unfold pcol. destruct (texts l) as [m|] eqn:E; cbn; [now apply texts_length|apply map_length]. Qed.
Lemma drawn_names hour T : map fst (p_cols (drawn hour T)) = names (cols T).
Proof. unfold drawn, names. cbn. rewrite map_map. reflexivity. Qed.
Lemma drawn_In hour T k p : In (k, p) (p_cols (drawn hour T)) <-> exists col, In (k, col) (cols T) /\ p = pcol (hour k) col.
Proof.
  unfold drawn. cbn. rewrite in_map_iff. split.
  - intros ([k' c] & [= <- <-] & I). eauto.
  - intros (c & I & ->). exists (k, c). auto.
Qed.
Lemma mentions_loud sky k : signal_name k \/ noise_name k -> loud sky k = true /\ k <> "chName"%string.
Proof.
  intros H. assert (X : is_signal k = true \/ is_noise k = true) by (destruct H; [left; now apply is_signal_iff|right; now apply is_noise_iff]). unfold loud.
  split; [|intros ->; destruct X; discriminate]. destruct (String.eqb_spec k "sky TR") as [->|]; [destruct X; discriminate|]. destruct sky; auto. destruct (String.eqb_spec k "foreground_transmission") as [->|]; [destruct X; discriminate|]. auto.
Qed.

Section Drawn.
  Variables (ns : list string) (chs : list (string * chan)) (h : list (setting * target)) (s : setting) (x y : target) (T : mtable) (hour : string -> bool).
  Hypothesis HI : instruments ns chs.
  Hypothesis PL : forall name c, In (name, c) chs -> plain (cols (h_table c)).
  Hypothesis NL : In "LeftBinEdge"%string ns.
  Hypothesis NR : In "RightBinEdge"%string ns.
  Hypothesis H : Forall (fun sx => columns_apart ns chs (fst sx) (snd sx)) h.
  Hypothesis AP : columns_apart ns chs s x.
  Hypothesis E : snd (observe_target s (after chs h) x) = Ok y.
  Hypothesis XT : x_table y = Some T.
  Lemma drawn_sound : sound_table (drawn hour T).
  Proof.
    destruct (whole ns chs h s x y T HI PL H AP E XT) as (ND & (N & RW & _) & _). split; [now rewrite drawn_names|]. exists N. intros k c I. apply drawn_In in I as (col & I & ->). rewrite cells_pcol. eauto.
  Qed.
  Lemma drawn_numbers k : In k (names (cols T)) -> loud (g_sky (x_sky y)) k = true -> k <> "chName"%string ->
    exists col, sget k (cols T) = Some col /\ In (k, Numbers (hour k) (map number col)) (p_cols (drawn hour T)).
  Proof.
    destruct (whole ns chs h s x y T HI PL H AP E XT) as (ND & (N & RW & NP) & _ & NT & _). intros I L NC. apply sget_names in I as [col G]. exists col. split; auto. apply drawn_In. exists col. pose proof (sget_In _ _ _ G) as J. split; auto.
    unfold pcol. rewrite texts_none; auto.
    - apply RW in J. destruct col; [cbn in J; lia|discriminate].
    - intros t. eapply NT; eauto.
  Qed.
  Lemma ns_loud k : In k ns -> loud (g_sky (x_sky y)) k = true.
  Proof. intros I. pose proof HI as (_ & _ & _ & A & B & _). unfold loud. destruct (String.eqb_spec k "sky TR") as [->|]; [contradiction|]. destruct (g_sky _); auto. destruct (String.eqb_spec k "foreground_transmission") as [->|]; [contradiction|]. auto. Qed.
  Lemma drawn_drawable : drawable (drawn hour T).
  Proof.
    destruct (whole ns chs h s x y T HI PL H AP E XT) as (ND & (N & RW & NP) & (labels & GL & LN & LI) & NT & NK & WL & SS & FF & TN).
    split; [cbn; now rewrite (observed_name _ _ _ _ _ E XT)|]. split; [|split; [|split; [|split]]].
    - exists labels. split; auto. apply drawn_In. exists (map Txt labels). split; [now apply sget_In|]. unfold pcol. now rewrite texts_map.
    - destruct (drawn_numbers "LeftBinEdge") as (col & _ & I); auto; [now apply ns_loud|discriminate|]. exists (map number col). eexists. eauto.
    - destruct (drawn_numbers "RightBinEdge") as (col & _ & I); auto; [now apply ns_loud|discriminate|]. exists (map number col). eexists. eauto.
    - intros n c I M. destruct (mentions_loud (g_sky (x_sky y)) n M) as [L NC]. apply drawn_In in I as (col & I & ->). split.
      + exists (hour n), (map number col). unfold pcol. rewrite texts_none; auto; [|intros t; eapply NT; eauto]. apply RW in I. destruct col; [cbn in I; lia|discriminate].
      + destruct (drawn_numbers "Wavelength") as (w & _ & J); auto; [apply (loud_sees (g_sky (x_sky y)))|discriminate|]. exists (map number w). eexists. eauto.
    - intros n l _ _ _. destruct (drawn_numbers "star_signal_inAperture") as (w & _ & J); auto; [apply (loud_sees (g_sky (x_sky y))); reflexivity|discriminate|]. exists (map number w). eexists. eauto.
  Qed.
End Drawn.

(** Whatever was observed before, the table of every observed target can be drawn, under the name
    of the target; the star, every foreground and the total noise have their curves. *)
Theorem C110_every_observed_target_is_drawn :
  forall ns chs h s x y T hour en, instruments ns chs -> (forall name c, In (name, c) chs -> plain (cols (h_table c))) ->
    In "LeftBinEdge"%string ns -> In "RightBinEdge"%string ns ->
    Forall (fun sx => columns_apart ns chs (fst sx) (snd sx)) h -> columns_apart ns chs s x ->
    snd (observe_target s (after chs h) x) = Ok y -> x_table y = Some T -> enumerates en ->
    exists f, plot_table en (drawn hour T) = Ok f /\ g_title f = x_name x /\
      (forall k, In k (map v_label (a_curves (g_signal f))) <-> In k (names (cols T)) /\ signal_name k) /\
      (forall k, In k (map v_label (a_curves (g_noise f))) <-> In k (names (cols T)) /\ noise_name k) /\
      In "star_signal_inAperture"%string (map v_label (a_curves (g_signal f))) /\
      (forall fs k, g_foreground (x_sky y) = Some fs -> In k (map fst fs) -> ~ mentions "noise" (k ++ "_signal") ->
         In (k ++ "_signal")%string (map v_label (a_curves (g_signal f)))) /\
      In "total_noise"%string (map v_label (a_curves (g_noise f))).
Proof.
  intros ns chs h s x y T hour en HI PL NL NR H AP E XT EN.
  pose proof (drawn_sound ns chs h s x y T hour HI PL H AP E XT) as SO.
  pose proof (drawn_drawable ns chs h s x y T hour HI PL NL NR H AP E XT) as D. apply (C106_drawn_exactly_if_complete en _ EN SO) in D as (f & F). exists f. split; auto.
  destruct (C106_signal_curves en _ f SO F) as (S1 & _ & S2 & _). destruct (C106_noise_curves en _ f SO F) as (_ & Z2 & _). rewrite drawn_names in S2, Z2.
  destruct (whole ns chs h s x y T HI PL H AP E XT) as (ND & _ & _ & _ & _ & _ & SS & FF & TN).
  split; [cbn in S1; rewrite (observed_name _ _ _ _ _ E XT) in S1; now injection S1|]. split; auto. split; auto. split; [|split].
  - apply S2. split; auto. now apply is_signal_iff.
  - intros fs k FS I NM. apply S2. split; eauto. split; auto. exists (k ++ "_")%string, ""%string. clear - k. induction k as [|a k IH]; [reflexivity|]. cbn in *. now rewrite IH.
  - apply Z2. split; auto. now apply is_noise_iff.
Qed.
Print Assumptions C110_every_observed_target_is_drawn.

(** The cells of the rows of a channel, by index *)
Lemma labelled_In name labels : forall cells v, In v (labelled_rows name labels cells) <-> exists i, nth_error labels i = Some (Txt name) /\ nth_error cells i = Some v.
Proof.
  induction labels as [|a labels IH]; intros cells v; [split; [intros []|intros ([|i] & X & _); discriminate]|].
  assert (Q : forall cells, In v (labelled_rows name labels cells) <-> exists i, nth_error (a :: labels) (S i) = Some (Txt name) /\ nth_error cells i = Some v) by (intros c; apply IH).
  destruct cells as [|c cells]; [destruct a; cbn; (split; [intros []|intros ([|i] & _ & X); discriminate])|].
  assert (G : forall P : Prop, (P <-> a = Txt name /\ c = v) -> (P \/ In v (labelled_rows name labels cells) <-> exists i, nth_error (a :: labels) i = Some (Txt name) /\ nth_error (c :: cells) i = Some v)).
  { intros P HP. rewrite HP, Q. split.
    - intros [[-> ->]|(i & X & Y)]; [exists 0%nat; auto|exists (S i); auto].
    - intros ([|i] & X & Y); [left; cbn in X, Y; split; congruence|right; exists i; auto]. }
  destruct a as [x|s|]; cbn [labelled_rows].
  - rewrite <- (G False); [tauto|]. split; [tauto|]. intros [X _]. discriminate.
  - destruct (String.eqb_spec s name) as [->|N].
    + cbn [In]. apply G. intuition congruence.
    + rewrite <- (G False); [tauto|]. split; [tauto|]. intros [X _]. congruence.
  - rewrite <- (G False); [tauto|]. split; [tauto|]. intros [X _]. discriminate.
Qed.

(** The edges of a channel's table are those of its bins. *)
Definition edges_of_bins (c : chan) : Prop :=
  sget "LeftBinEdge" (cols (h_table c)) = Some (map num (map left_edge (c_bins (h_star c)))) /\
  sget "RightBinEdge" (cols (h_table c)) = Some (map num (map right_edge (c_bins (h_star c)))).
(** From the lowest to the highest edge of the bins of a channel *)
Definition extent (c : chan) (b : xr * xr) : Prop :=
  exists lo hi, b = (Fin lo, Fin hi) /\
    In lo (map left_edge (c_bins (h_star c))) /\ (forall r, In r (map left_edge (c_bins (h_star c))) -> (lo <= r)%R) /\
    In hi (map right_edge (c_bins (h_star c))) /\ (forall r, In r (map right_edge (c_bins (h_star c))) -> (r <= hi)%R).

(** The figure has one band per channel, from the lowest to the highest edge of its bins. *)
Theorem C110_one_band_per_channel :
  forall ns chs h s x y T hour en f, instruments ns chs -> quiet ns -> (forall name c, In (name, c) chs -> plain (cols (h_table c))) ->
    (forall name c, In (name, c) chs -> edges_of_bins c) ->
    Forall (fun sx => columns_apart ns chs (fst sx) (snd sx)) h -> columns_apart ns chs s x ->
    snd (observe_target s (after chs h) x) = Ok y -> x_table y = Some T -> enumerates en ->
    plot_table en (drawn hour T) = Ok f ->
    a_bands (g_noise f) = a_bands (g_signal f) /\
    exists order, Permutation order chs /\ Forall2 (fun nc b => extent (snd nc) b) order (a_bands (g_signal f)).
Proof.
  intros ns chs h s x y T hour en f HI Q PL EB H AP E XT EN F.
  pose proof (drawn_sound ns chs h s x y T hour HI PL H AP E XT) as SO.
  destruct (whole ns chs h s x y T HI PL H AP E XT) as (ND & (N & RW & NP) & (labels & GL & LN & LI) & NT & NK & WL & SS & FF & TN).
  assert (IC : forall c0, In ("chName"%string, Texts c0) (p_cols (drawn hour T)) -> c0 = labels).
  { intros c0 I. apply drawn_In in I as (col & I & EP). apply (In_sget _ _ _ ND) in I. rewrite GL in I. injection I as <-. unfold pcol in EP. rewrite texts_map in EP. now injection EP. }
  assert (LB : In ("chName"%string, Texts labels) (p_cols (drawn hour T))). { apply drawn_In. exists (map Txt labels). split; [now apply sget_In|]. unfold pcol. now rewrite texts_map. }
  (* the edges seen by the plotter *)
  assert (ED : forall k g name c, (k = "LeftBinEdge"%string /\ g = left_edge \/ k = "RightBinEdge"%string /\ g = right_edge) -> In (name, c) chs ->
     forall v, edge (drawn hour T) k name v <-> exists r, v = Fin r /\ In r (map g (c_bins (h_star c)))).
  { intros k g name c KG I v.
    destruct (C85_what_the_table_holds ns chs h s x y HI Q H AP E) as (T' & st & fs & XT' & _ & _ & _ & _ & SH). rewrite XT in XT'. injection XT' as <-.
    destruct (SH name c I) as (d & o & t & PD & _ & _ & _ & SB).
    assert (AB : as_built ns (name, c)) by (destruct HI as (_ & _ & _ & _ & _ & AB); rewrite Forall_forall in AB; auto).
    assert (DN : forall k', ends_with "_signal" k' = false -> ends_with "_MaxSignal_inPixel" k' = false -> sget k' d = None).
    { intros k' E1 E2. assert (FO : foreground_of (Some fs) c = Ok (foreground_table d)) by (unfold foreground_of; rewrite PD; reflexivity).
      destruct (foreground_of_shape _ _ _ (built_sized _ _ AB) FO) as [[NF _] _]. destruct (sget k' d) as [v'|] eqn:G; auto. exfalso.
      assert (J : In k' (names (foreground_table d))). { apply sget_names. exists (map num v'). unfold foreground_table. now rewrite sget_mapv, G. }
      rewrite NF in J. fold (fk fs) in J. apply fk_In in J as (f' & _ & [J|J]); [apply (suffix_not f' _ _ E1)|apply (suffix_not f' _ _ E2)]; auto. }
    assert (SHOW : shows (cols T) name k (map num (map g (c_bins (h_star c))))).
    { destruct (EB name c I) as [E1 E2]. destruct KG as [[-> ->]|[-> ->]]; apply SB; auto; try (apply DN; reflexivity); try discriminate; unfold star_names; cbn; intuition discriminate. }
    destruct SHOW as (lb & cells & G1 & G2 & EV). rewrite GL in G1. injection G1 as <-.
    assert (KN : In k ns /\ k <> "chName"%string). { destruct AB as (_ & NA & _). rewrite <- NA. destruct (EB name c I) as [E1 E2]. split; [|destruct KG as [[-> _]|[-> _]]; discriminate]. apply sget_names. destruct KG as [[-> _]|[-> _]]; eauto. }
    destruct KN as [KN KC]. destruct (drawn_numbers ns chs h s x y T hour HI PL H AP E XT k (NK k KN) (ns_loud ns chs y HI k KN) KC) as (col & GC & IN). rewrite G2 in GC. injection GC as <-.
    assert (NUM : forall i, nth_error (map number cells) i = option_map number (nth_error cells i)) by (intros i; apply nth_error_map).
    split.
    - intros (chs' & l & i & I1 & (hh & I2) & N1 & N2). apply IC in I1. subst chs'.
      assert (l = map number cells). { destruct SO as (SD & _). assert (X1 := NoDup_In_dget _ String_eqb_spec _ _ _ SD I2). assert (X2 := NoDup_In_dget _ String_eqb_spec _ _ _ SD IN). rewrite X1 in X2. now injection X2. } subst l.
      rewrite NUM in N2. destruct (nth_error cells i) as [cl|] eqn:NC; [|discriminate]. cbn in N2. injection N2 as <-.
      assert (J : In cl (labelled_rows name (map Txt labels) cells)). { apply labelled_In. exists i. split; auto. now rewrite nth_error_map, N1. }
      rewrite <- EV in J. apply in_map_iff in J as (r & <- & J). exists r. split; auto.
    - intros (r & -> & J). assert (J' : In (num r) (labelled_rows name (map Txt labels) cells)) by (rewrite <- EV; now apply in_map).
      apply labelled_In in J' as (i & N1 & N2). exists labels, (map number cells), i. split; auto. split; [eexists; eauto|]. split; [|rewrite NUM, N2; reflexivity].
      rewrite nth_error_map in N1. destruct (nth_error labels i); [|discriminate]. cbn in N1. congruence. }
  assert (FE : finite_edges (drawn hour T)).
  { intros k ch v KK X. pose proof X as (chs' & l & i & I1 & _ & N1 & _). apply IC in I1. subst chs'. apply nth_error_In in N1. apply LI in N1. apply in_map_iff in N1 as ([n c] & E1 & I). cbn in E1. subst n.
    destruct KK as [-> | ->]; [apply (ED _ left_edge ch c) in X as (r & -> & _)|apply (ED _ right_edge ch c) in X as (r & -> & _)]; eauto. }
  destruct (C106_bands en _ f EN SO FE F) as (B1 & chs' & order & I1 & NO & OI & FB). split; auto. apply IC in I1. subst chs'.
  assert (NC : NoDup (map fst chs)) by apply HI.
  assert (PM : Permutation order (map fst chs)) by (apply NoDup_Permutation; auto; intros n; now rewrite OI, LI).
  assert (PB : exists cs, Permutation cs chs /\ map fst cs = order).
  { clear - PM. apply Permutation_map_inv in PM as (cs & -> & P). exists cs. split; auto. now apply Permutation_sym. }
  destruct PB as (cs & PC & <-). exists cs. split; auto.
  assert (IN : forall a, In a cs -> In a chs) by (intros a; now apply Permutation_in).
  clear - FB ED IN. revert FB IN. generalize (a_bands (g_signal f)). induction cs as [|[n c] cs IH]; intros bs FB IN; inversion FB as [|? b ? bs' BO FB']; subst; constructor.
  - destruct BO as (lo & hi & -> & A1 & A2 & A3 & A4). cbn [snd fst] in *. assert (I := IN (n, c) (or_introl eq_refl)).
    exists lo, hi. split; auto.
    assert (L := ED "LeftBinEdge"%string left_edge n c (or_introl (conj eq_refl eq_refl)) I). assert (R' := ED "RightBinEdge"%string right_edge n c (or_intror (conj eq_refl eq_refl)) I).
    split; [|split; [|split]].
    + apply L in A1 as (r & [= ->] & J). auto.
    + intros r J. apply A2. apply L. eauto.
    + apply R' in A3 as (r & [= ->] & J). auto.
    + intros r J. apply A4. apply R'. eauto.
  - apply IH; auto. intros a J. apply IN. now right.
Qed.
Print Assumptions C110_one_band_per_channel.

(** ** Plots of a whole list of targets *)
From Verif Require M_Pipeline.
From Verif Require Import S_Pipeline L_Pipeline P_PlotCommand P_PlotObserve.
From Verif Require Import P_Campaign.
Definition shown_table (hour : string -> bool) (y : target) : ptable :=
  match x_table y with Some T => drawn hour T | None => {| p_name := None; p_cols := [] |} end.

(** Drawing every observed target into a directory changes nothing of the results. *)
Theorem C110_plots_change_no_result :
  forall ns chs s xs hour en dir debug lv, instruments ns chs -> (forall name c, In (name, c) chs -> plain (cols (h_table c))) ->
    In "LeftBinEdge"%string ns -> In "RightBinEdge"%string ns -> Forall (columns_apart ns chs s) xs -> enumerates en ->
    let plotting := plotted en (Some dir) x_name (shown_table hour) in
    M_Pipeline.observe_seq x_name (observe_target s) plotting debug true xs (chs, lv) [] [] =
    M_Pipeline.observe_seq x_name (observe_target s) plotting debug false xs (chs, lv) [] [].
Proof.
  intros ns chs s xs hour en dir debug lv HI PL NL NR AP EN plotting. rewrite !oseq_gen.
  assert (EE : entries x_name (observe_target s) plotting true chs xs = entries x_name (observe_target s) plotting false chs xs).
  { assert (G : forall l h, Forall (columns_apart ns chs s) l -> Forall (columns_apart ns chs s) h ->
        entries x_name (observe_target s) plotting true (after chs (map (pair s) h)) l = entries x_name (observe_target s) plotting false (after chs (map (pair s) h)) l).
    { induction l as [|x l IH]; intros h A B; cbn [entries]; auto. inversion A as [|? ? A1 A2]; subst. f_equal.
      - unfold entry_of. destruct (snd (observe_target s (after chs (map (pair s) h)) x)) as [y|] eqn:E; auto.
        assert (H : Forall (fun sx => columns_apart ns chs (fst sx) (snd sx)) (map (pair s) h)) by (apply Forall_map; exact B).
        destruct (observe_shape _ _ _ _ E) as (_ & _ & _ & _ & T & st & XT & _). unfold plotting, plotted, plot_observed, shown_table. rewrite XT.
        destruct (C110_every_observed_target_is_drawn ns chs _ s x y T hour en HI PL NL NR H A1 E XT EN) as (f & -> & _). reflexivity.
      - replace (fst (observe_target s (after chs (map (pair s) h)) x)) with (after chs (map (pair s) (h ++ [x]))); [apply IH; auto; apply Forall_app; auto|].
        rewrite map_app. cbn [map]. clear. revert chs. induction (map (pair s) h) as [|[s' x'] l IH]; intros chs; cbn; auto. }
    apply (G xs []); auto. }
  rewrite EE. reflexivity.
Qed.
Print Assumptions C110_plots_change_no_result.
