(** Lemmas for the stages of an observation. *)
From Verif Require Import Base Dict XR M_Signal M_Optics L_Optics M_Light M_Bins M_Star M_Foreground M_Source M_Table S_Table L_Table P_Table M_Observe S_Observe L_Observe.
From Verif Require M_Noise.
Open Scope list_scope.

Definition rows_are := P_Table.rows_are.
Definition tab_ok (ks : list string) (n : nat) (t : table) : Prop := names t = ks /\ rows_are n t.

(** ** Sizes and names of what a channel returns *)
Lemma get_transmission_length bins force lo hi s t s' : get_transmission_column bins force lo hi s = Ok (t, s') -> length t = length bins.
Proof.
  unfold get_transmission_column. destruct (interp1d _ _ _) as [y|]; cbn; [|discriminate]. destruct force as [[|]|]; intros [= <- _].
  - rewrite map_length, combine_length. unfold bin_signal. rewrite map_length. lia.
  - unfold bin_signal. now rewrite map_length.
Qed.
Definition addk (k : string) (l : list string) : list string := if existsb (String.eqb k) l then l else l ++ [k].
Fixpoint fnames (ks : list string) (l : list string) : list string :=
  match ks with [] => l | k :: ks => fnames ks (addk (k ++ "_MaxSignal_inPixel") (addk (k ++ "_signal") l)) end.
Lemma addk_In k l x : In x (addk k l) <-> x = k \/ In x l.
Proof.
  unfold addk. destruct (existsb (String.eqb k) l) eqn:E.
  - apply existsb_names in E. split; auto. intros [->|]; auto.
  - rewrite in_app_iff. cbn. intuition.
Qed.
Lemma NoDup_snoc (l : list string) k : NoDup l -> ~ In k l -> NoDup (l ++ [k]).
Proof.
  induction l as [|a l IH]; cbn; intros N I; [repeat constructor; auto|]. inversion N; subst. constructor.
  - rewrite in_app_iff. cbn. intuition.
  - apply IH; auto.
Qed.
Lemma addk_NoDup k l : NoDup l -> NoDup (addk k l).
Proof.
  intros N. unfold addk. destruct (existsb (String.eqb k) l) eqn:E; auto. apply NoDup_snoc; auto. intros I. apply existsb_names in I. congruence.
Qed.
Lemma fnames_NoDup ks : forall l, NoDup l -> NoDup (fnames ks l).
Proof. induction ks as [|k ks IH]; intros l N; cbn; auto. apply IH. now do 2 apply addk_NoDup. Qed.
Lemma fnames_In ks : forall l x, In x (fnames ks l) -> In x l \/ exists k, In k ks /\ (x = (k ++ "_signal")%string \/ x = (k ++ "_MaxSignal_inPixel")%string).
Proof.
  induction ks as [|k ks IH]; intros l x I; cbn in I; auto. apply IH in I as [I|(k' & I & E)].
  - rewrite !addk_In in I. destruct I as [->|[->|I]]; auto; right; exists k; cbn; auto.
  - right. exists k'. cbn. auto.
Qed.
Lemma fnames_nonempty ks l : ks <> [] -> fnames ks l <> [].
Proof.
  intros NE. assert (G : forall ks l, l <> [] -> fnames ks l <> []).
  { clear. induction ks as [|k ks IH]; intros l NE; cbn; auto. apply IH. intros E. assert (X : In (k ++ "_MaxSignal_inPixel")%string (addk (k ++ "_MaxSignal_inPixel") (addk (k ++ "_signal") l))) by (apply addk_In; auto). rewrite E in X. inversion X. }
  destruct ks as [|k ks]; [congruence|]. cbn. apply G. intros E. assert (X : In (k ++ "_MaxSignal_inPixel")%string (addk (k ++ "_MaxSignal_inPixel") (addk (k ++ "_signal") l))) by (apply addk_In; auto). rewrite E in X. inversion X.
Qed.
Lemma keys_sset {V} k (v : V) d : map fst (sset k v d) = addk k (map fst d).
Proof. apply keys_dset. Qed.
Lemma rows_sset n k (v : list R) (d : sdict (list R)) : length v = n -> (forall c, In c d -> length (snd c) = n) -> forall c, In c (sset k v d) -> length (snd c) = n.
Proof.
  intros L H [a w] I. cbn. revert I. induction d as [|[k' v'] d IH]; cbn.
  - intros [[= <- <-]|[]]; auto.
  - destruct (String.eqb k k').
    + intros [[= <- <-]|I]; auto. apply (H (a, w)). now right.
    + intros [[= <- <-]|I]; [apply (H (k', v')); now left|]. apply IH; auto. intros c J. apply H. now right.
Qed.
Definition sized (c : chan) : Prop :=
  length (b_size (h_light c)) = length (c_bins (h_star c)) /\ (forall w, b_spatial (h_light c) = Some w -> length w = length (c_bins (h_star c)))
  /\ match h_kind c with Phot _ _ => length (c_bins (h_star c)) = 1%nat | Spec _ _ _ => True end.
Lemma slit_length b bins slit qe rad m s : convolve_with_slit b bins slit qe rad = Ok (m, s) -> (forall w, b_spatial b = Some w -> length w = length bins) -> length m = length bins /\ length s = length bins.
Proof.
  unfold convolve_with_slit. intros E W. dbind E x1 H1. dbind E x2 H2. dbind E x3 H3. dbind E x4 H4. dbind E x5 H5. dbind E x6 H6. dbind E x7 H7. dbind E parts H8. dbind E w H9. dbind E mx H10.
  injection E as <- <-. apply mapM_Ok_length in H8. apply mapM_Ok_length in H10. destruct (b_spatial b) as [w'|]; [|discriminate]. injection H9 as ->. specialize (W _ eq_refl).
  split; [congruence|]. unfold mul. rewrite map_length, combine_length, map_length. lia.
Qed.
Lemma foregrounds_shape c n : sized c -> length (c_bins (h_star c)) = n -> forall fs tr qe out o,
  foregrounds_light (h_light c) (edges c) tr qe fs out = Ok o -> (forall p, In p out -> length (snd p) = n) ->
  map fst o = fnames (map fst fs) (map fst out) /\ forall p, In p o -> length (snd p) = n.
Proof.
  intros (S1 & S2 & _) N. assert (LE : length (edges c) = n) by (unfold edges; now rewrite map_length).
  induction fs as [|[k f] fs IH]; intros tr qe out o E H; cbn in E; [injection E as <-; auto|].
  destruct (foreground_light (h_light c) (edges c) tr qe f) as [[[light tr'] qe']|] eqn:FL; cbn in E; [|discriminate].
  assert (L : length (fst light) = n /\ length (snd light) = n).
  { unfold foreground_light in FL. destruct (attenuate tr f) as [[rad tr2]|]; cbn in FL; [|discriminate]. destruct (b_slit (h_light c)) as [slit|].
    - destruct (convolve_with_slit _ _ _ _ _) as [[m s]|] eqn:CS; cbn in FL; [|discriminate]. injection FL as <- _ _. apply slit_length in CS; [cbn; lia|]. intros w Hw. rewrite LE. rewrite <- N. auto.
    - dbind FL q Hq. dbind FL x Hx. injection FL as <- _ _. cbn. rewrite !map_length. lia. }
  destruct (IH _ _ _ _ E) as [A B].
  - intros p. apply rows_sset; [apply L|]. intros p'. apply rows_sset; auto. apply L.
  - split; auto. rewrite A, !keys_sset. auto.
Qed.
Lemma foreground_of_shape c fs o : sized c -> foreground_of (Some fs) c = Ok o -> tab_ok (fnames (map fst (rev fs)) []) (length (c_bins (h_star c))) o /\ forall k s rest, sget k o <> Some (Txt s :: rest).
Proof.
  intros SZ E. unfold foreground_of, propagate_diffuse_foreground in E. dbind E d Hd. injection E as <-.
  destruct (foregrounds_shape c _ SZ eq_refl _ _ _ _ _ Hd) as [A B]; [intros p []|]. split; [split|].
  - unfold names, foreground_table. rewrite map_map. cbn. exact A.
  - intros k col I. unfold foreground_table in I. apply in_map_iff in I as (p & [= <- <-] & I). rewrite map_length. auto.
  - intros k s rest G. apply sget_In in G. unfold foreground_table in G. apply in_map_iff in G as (p & [= <- G] & I). destruct (snd p); discriminate.
Qed.

(** ** The star *)
Definition loud (sky : option sig) (k : string) : bool :=
  negb (String.eqb k "sky TR") && (match sky with Some _ => true | None => negb (String.eqb k "foreground_transmission") end).
Definition own_star (c : chan) (sed : sig) (sky : option sig) : res table :=
  let* (o, _) := propagate_star c None sed sky in Ok (keep (loud sky) (star_columns o)).
Definition skeys (sky : option sig) : list string :=
  (match sky with Some _ => ["foreground_transmission"%string] | None => [] end) ++ ["starFlux"; "starSignal"; "star_signal_inAperture"; "star_MaxSignal_inPixel"]%string.
Lemma eff_any c col wl sky :
  match get_efficiency (with_sky c col) wl sky with
  | Ok (e, t) => get_efficiency (with_sky c None) wl sky = Ok (e, match sky with Some _ => t | None => None end)
      /\ match sky with Some s => exists tc, t = Some tc /\ exists s', get_transmission_column (c_bins c) (c_force c) (c_min c) (c_max c) s = Ok (tc, s') | None => t = col end
  | Err e => get_efficiency (with_sky c None) wl sky = Err e
  end.
Proof.
  unfold get_efficiency. cbn [with_sky c_qe c_tr c_bins c_force c_min c_max c_sky].
  destruct (resample wl (c_qe c)); cbn [bind]; auto. destruct (resample wl (c_tr c)); cbn [bind]; auto. destruct sky as [s|]; auto.
  destruct (get_transmission_column _ _ _ _ s) as [[t s']|]; cbn [bind]; auto. destruct (resample wl s'); cbn [bind]; auto. destruct (times _ _); cbn [bind]; eauto.
Qed.
Lemma keep_star sky t o : keep (loud sky) (star_columns {| o_sky := t; o_flux := o_flux o; o_signal := o_signal o; o_aperture := o_aperture o; o_max := o_max o |})
  = (match sky, t with Some _, Some t => [("foreground_transmission"%string, map cell_of t)] | _, _ => [] end) ++
    [("starFlux"%string, map num (o_flux o)); ("starSignal"%string, map num (o_signal o));
      ("star_signal_inAperture"%string, map num (o_aperture o)); ("star_MaxSignal_inPixel"%string, map num (o_max o))].
Proof. unfold star_columns, keep, loud. destruct sky, t; reflexivity. Qed.
Lemma star_any c col sed sky :
  match propagate_star c col sed sky with
  | Ok (o, t) => own_star c sed sky = Ok (keep (loud sky) (star_columns o)) /\ o_sky o = t
      /\ match sky with Some s => exists tc, t = Some tc /\ exists s', get_transmission_column (c_bins (h_star c)) (c_force (h_star c)) (c_min (h_star c)) (c_max (h_star c)) s = Ok (tc, s')
         | None => t = col end
      /\ (sized c -> length (o_flux o) = length (c_bins (h_star c)) /\ length (o_signal o) = length (c_bins (h_star c)) /\ length (o_aperture o) = length (c_bins (h_star c)) /\ length (o_max o) = length (c_bins (h_star c)))
  | Err e => own_star c sed sky = Err e
  end.
Proof.
  unfold own_star, propagate_star. destruct (h_kind c) as [a prf|wl width gain] eqn:HK.
  - unfold propagate_photometer. pose proof (eff_any (h_star c) col (s_wl sed) sky) as X.
    destruct (get_efficiency (with_sky (h_star c) col) (s_wl sed) sky) as [[e t]|]; [destruct X as [X Y]|]; rewrite X; cbn [bind]; auto.
    change (force_edges (with_sky (h_star c) col)) with (force_edges (h_star c)). change (force_edges (with_sky (h_star c) None)) with (force_edges (h_star c)).
    repeat match goal with
      | |- match (bind ?r _) with _ => _ end => destruct r; cbn [bind fst snd]; [|reflexivity]
      | |- match (match ?p with pair _ _ => _ end) with _ => _ end => destruct p; cbn [bind fst snd]
      end.
    cbn [o_sky o_flux o_signal o_aperture o_max]. split; [|split; [|split]]; auto.
    + f_equal. destruct sky; auto. destruct t; auto.
    + intros (_ & _ & SZ). rewrite HK in SZ. cbn. auto.
  - unfold propagate_spectrometer. pose proof (eff_any (h_star c) col (s_wl sed) sky) as X.
    destruct (get_efficiency (with_sky (h_star c) col) (s_wl sed) sky) as [[e t]|]; [destruct X as [X Y]|]; rewrite X; cbn [bind]; auto.
    change (force_edges (with_sky (h_star c) col)) with (force_edges (h_star c)). change (force_edges (with_sky (h_star c) None)) with (force_edges (h_star c)).
    change (c_bins (with_sky (h_star c) col)) with (c_bins (h_star c)). change (c_bins (with_sky (h_star c) None)) with (c_bins (h_star c)).
    change (c_area (with_sky (h_star c) col)) with (c_area (h_star c)). change (c_area (with_sky (h_star c) None)) with (c_area (h_star c)).
    repeat match goal with
      | |- match (bind ?r _) with _ => _ end => let E := fresh "E" in destruct r eqn:E; cbn [bind fst snd]; [|reflexivity]
      | |- match (match ?p with pair _ _ => _ end) with _ => _ end => destruct p; cbn [bind fst snd]
      end.
    cbn [o_sky o_flux o_signal o_aperture o_max]. split; [|split; [|split]]; auto.
    + f_equal. destruct sky; auto. destruct t; auto.
    + intros _. repeat match goal with H : mapM _ _ = Ok _ |- _ => apply mapM_Ok_length in H end. unfold window_function in *. rewrite map_length in *. auto.
Qed.
Lemma surjective_star o : o = {| o_sky := o_sky o; o_flux := o_flux o; o_signal := o_signal o; o_aperture := o_aperture o; o_max := o_max o |}.
Proof. now destruct o. Qed.
Lemma own_star_shape c sed sky t : sized c -> own_star c sed sky = Ok t -> tab_ok (skeys sky) (length (c_bins (h_star c))) t.
Proof.
  intros SZ E. pose proof (star_any c None sed sky) as X. destruct (propagate_star c None sed sky) as [[o u]|] eqn:P; [|unfold own_star in E; rewrite P in E; discriminate].
  destruct X as (X & <- & Y & L). rewrite E in X. injection X as ->. specialize (L SZ). rewrite (surjective_star o), keep_star. split.
  - destruct sky as [s|]; cbn; auto. destruct Y as (tc & -> & _). auto.
  - intros k col I. apply in_app_iff in I as [I|I].
    + destruct sky as [s|]; [|destruct I]. destruct Y as (tc & E1 & s' & G). rewrite E1 in I. destruct I as [[= <- <-]|[]]. rewrite map_length. eapply get_transmission_length; eauto.
    + destruct I as [[= <- <-]|[[= <- <-]|[[= <- <-]|[[= <- <-]|[]]]]]; rewrite map_length; tauto.
Qed.
Lemma star_table_ok c col sed sky o t : sized c -> (forall x, col = Some x -> length x = length (c_bins (h_star c))) -> propagate_star c col sed sky = Ok (o, t) ->
  NoDup (names (star_columns o)) /\ rows_are (length (c_bins (h_star c))) (star_columns o) /\ star_columns o <> [] /\ forall k s rest, sget k (star_columns o) <> Some (Txt s :: rest).
Proof.
  intros SZ LC E. pose proof (star_any c col sed sky) as X. rewrite E in X. destruct X as (_ & <- & Y & L). specialize (L SZ). split; [|split; [|split]].
  - unfold star_columns. destruct (o_sky o); cbn; repeat constructor; cbn; intuition discriminate.
  - intros k x I. unfold star_columns in I. apply in_app_iff in I as [I|I].
    + destruct (o_sky o) as [tc|]; [|destruct I]. destruct I as [[= <- <-]|[]]. rewrite map_length. destruct sky as [s|]; [|now apply LC].
      destruct Y as (tc' & [= <-] & s' & G). eapply get_transmission_length; eauto.
    + destruct I as [[= <- <-]|[[= <- <-]|[[= <- <-]|[[= <- <-]|[]]]]]; rewrite map_length; tauto.
  - unfold star_columns. destruct (o_sky o); discriminate.
  - intros k s rest G. apply sget_In in G. unfold star_columns in G. apply in_app_iff in G as [I|I].
    + destruct (o_sky o) as [[|[?|] ?]|]; cbn in I; try contradiction; destruct I as [I|[]]; discriminate.
    + destruct I as [I|[I|[I|[I|[]]]]]; injection I as _ I; match type of I with map num ?l = _ => destruct l; discriminate end.
Qed.
Lemma built_sized ns a : as_built ns a -> sized (snd a).
Proof. destruct a as [name c]. intros (_ & _ & _ & _ & _ & A & B & C). split; auto. Qed.
Lemma sget_snoc {V} k (t : sdict V) x : sget k t = None -> sget k (t ++ [(k, x)]) = Some x.
Proof. intros H. rewrite sget_app, H. cbn. now rewrite String.eqb_refl. Qed.
Lemma sset_absent {V} k (v : V) t : sget k t = None -> sset k v t = t ++ [(k, v)].
Proof. induction t as [|[a b] t IH]; cbn; auto. destruct (String.eqb k a); [discriminate|]. intros H. now rewrite IH. Qed.
Lemma sset_last {V} k (v w : V) t : sget k t = None -> sset k v (t ++ [(k, w)]) = t ++ [(k, v)].
Proof. induction t as [|[a b] t IH]; cbn; [now rewrite String.eqb_refl|]. destruct (String.eqb k a); [discriminate|]. intros H. now rewrite IH. Qed.
Lemma cell_of_not_text (t : list (option R)) s : ~ In (Txt s) (map cell_of t).
Proof. intros I. apply in_map_iff in I as ([x|] & E & _); discriminate. Qed.
Lemma set_sky_same ns a b wl sky : as_built ns a -> ~ In "sky TR"%string ns -> same_but_sky a b -> same_but_sky a (fst b, set_sky (snd b) wl sky).
Proof.
  intros A NS (F & T & C). unfold set_sky. destruct (new_sky_column (snd b) wl sky) as [t|] eqn:E; [|split; auto].
  assert (L : length (map cell_of t) = length (c_bins (h_star (snd a)))).
  { rewrite map_length. unfold new_sky_column in E. rewrite T in E. cbn [with_table h_star] in E. destruct sky as [s|]; [|discriminate]. destruct (resample wl _); [|discriminate]. destruct (resample wl _); [|discriminate].
    destruct (get_transmission_column _ _ _ _ s) as [[t' s']|] eqn:G; [|discriminate]. injection E as <-. eapply get_transmission_length; eauto. }
  assert (NO : sget "sky TR" (cols (h_table (snd a))) = None).
  { apply sget_None_names. destruct a as [name c]. destruct A as (_ & N & _). cbn. now rewrite N. }
  split; [auto|]. split; [cbn [snd]; rewrite T; reflexivity|]. cbn [snd with_table h_table cols]. right. exists (map cell_of t). split; auto. split; [intros s; apply cell_of_not_text|].
  destruct C as [-> |(col & _ & _ & ->)]; [now apply sset_absent|now apply sset_last].
Qed.
Lemma sky_column_length ns a b : as_built ns a -> ~ In "sky TR"%string ns -> same_but_sky a b -> forall x, sky_column_of (snd b) = Some x -> length x = length (c_bins (h_star (snd b))).
Proof.
  intros A NS (F & T & C) x. unfold sky_column_of. assert (NO : sget "sky TR" (cols (h_table (snd a))) = None).
  { apply sget_None_names. destruct a as [name c]. destruct A as (_ & N & _). cbn. now rewrite N. }
  assert (B : c_bins (h_star (snd b)) = c_bins (h_star (snd a))) by now rewrite T. rewrite B.
  destruct C as [-> |(col & L & _ & ->)]; [now rewrite NO|]. rewrite sget_snoc by auto. cbn. intros [= <-]. now rewrite map_length.
Qed.
Lemma same_light a b fs : same_but_sky a b -> foreground_of fs (snd b) = foreground_of fs (snd a).
Proof. intros (_ & T & _). rewrite T. reflexivity. Qed.
Lemma same_star a b sed sky : same_but_sky a b -> own_star (snd b) sed sky = own_star (snd a) sed sky.
Proof. intros (_ & T & _). rewrite T. reflexivity. Qed.
Lemma same_noise a b : same_but_sky a b -> h_noise (snd b) = h_noise (snd a) /\ h_common (snd b) = h_common (snd a).
Proof. intros (_ & T & _). rewrite T. auto. Qed.
Lemma stars_spec ns sed sky : ~ In "sky TR"%string ns -> forall chs0 chs, Forall (as_built ns) chs0 -> Forall2 same_but_sky chs0 chs ->
  Forall2 same_but_sky chs0 (fst (propagate_stars chs sed sky)) /\
  match snd (propagate_stars chs sed sky) with
  | Err e => mapM (fun a => own_star (snd a) sed sky) chs0 = Err e
  | Ok tabs => mapM (fun a => own_star (snd a) sed sky) chs0 = Ok (map (keep (loud sky)) tabs)
      /\ Forall2 (fun a t => NoDup (names t) /\ rows_are (bins_of a) t /\ t <> [] /\ forall k s rest, sget k t <> Some (Txt s :: rest)) chs0 tabs
  end.
Proof.
  intros NS. induction chs0 as [|a chs0 IH]; intros chs A H; inversion H as [|? b ? chs' SB H']; subst; [cbn; auto|].
  inversion A as [|? ? A1 A2]; subst. destruct (IH _ A2 H') as [I1 I2]. destruct b as [k c]. cbn [propagate_stars].
  pose proof (set_sky_same ns a (k, c) (s_wl sed) sky A1 NS SB) as SK. cbn [fst snd] in SK.
  pose proof (star_any c (sky_column_of c) sed sky) as X. pose proof (same_star a (k, c) sed sky SB) as SS. cbn [snd] in SS.
  destruct (propagate_star c (sky_column_of c) sed sky) as [[o t]|e] eqn:P.
  - destruct X as (X & _). rewrite SS in X. destruct (propagate_stars chs' sed sky) as [rest r]. cbn [fst snd] in *. split; [constructor; auto|]. cbn [mapM]. rewrite X. cbn [bind].
    destruct r as [tabs|e]; cbn [bind].
    + destruct I2 as [I2 I3]. rewrite I2. cbn [bind map]. split; auto. constructor; auto.
      assert (BN : bins_of a = length (c_bins (h_star c))) by (destruct SB as (_ & T & _); cbn in T; rewrite T; reflexivity). rewrite BN.
      eapply star_table_ok; [| |exact P].
      * destruct SB as (_ & T & _). cbn in T. rewrite T. apply (built_sized _ _ A1).
      * exact (sky_column_length ns a (k, c) A1 NS SB).
    + rewrite I2. reflexivity.
  - cbn [fst snd]. split; [constructor; auto|]. cbn [mapM]. rewrite <- SS, X. reflexivity.
Qed.

(** ** Tables made of one block per channel *)
Fixpoint nbins (chs : list (string * chan)) : nat := match chs with [] => 0 | a :: chs' => bins_of a + nbins chs' end.
Definition made_of (p : string -> bool) (chs0 : list (string * chan)) (K : list string) (owns : list table) (T : table) : Prop :=
  keep p T = glue K owns /\ NoDup (names T) /\ rows_are (nbins chs0) T /\ Forall2 (fun a o => names o = K /\ rows_are (bins_of a) o) chs0 owns.
Lemma F2_names {chs0 : list (string * chan)} {K n owns} : Forall2 (fun a o => names o = K /\ rows_are (n a) o) chs0 owns -> forall t, In t owns -> names t = K.
Proof. induction 1 as [|a o l l' [H _] F IH]; intros t []; subst; auto. Qed.
Lemma NoDup_override a b : NoDup (names a) -> NoDup (names b) -> NoDup (names (override a b)).
Proof.
  intros A B. rewrite override_names. assert (D : forall x, In x (filter (fun k => negb (smem k b)) (names a)) -> ~ In x (names b)).
  { intros x I. apply filter_In in I as [_ I]. apply smem_false_names. now destruct (smem x b). }
  assert (F := NoDup_filter (fun k => negb (smem k b)) A). revert D F. generalize (filter (fun k => negb (smem k b)) (names a)). induction l as [|x l IH]; intros D F; cbn; auto. inversion F; subst. constructor.
  - rewrite in_app_iff. intros [I|I]; auto. apply (D x); auto. now left.
  - apply IH; auto. intros y I. apply D. now right.
Qed.
Lemma rows_override n a b : rows_are n a -> rows_are n b -> rows_are n (override a b).
Proof. intros A B k c I. apply in_app_iff in I as [I|I]; [|eapply B; eauto]. apply filter_In in I as [I _]. eapply A; eauto. Qed.
Definition merged (K M : list string) : list string := filter (fun k => negb (existsb (String.eqb k) M)) K ++ M.
Definition over (owns us : list table) : list table := map (fun q => override (fst q) (snd q)) (combine owns us).
Lemma made_stage p chs0 K owns T M us U : chs0 <> [] -> made_of p chs0 K owns (cols T) -> made_of p chs0 M us (cols U) ->
  made_of p chs0 (merged K M) (over owns us) (cols (snd (update_table T U))).
Proof.
  intros NE (A1 & A2 & A3 & A4) (B1 & B2 & B3 & B4).
  assert (L : length owns = length us) by (apply Forall2_len in A4; apply Forall2_len in B4; lia).
  assert (NO : owns <> []) by (destruct A4; [congruence|discriminate]).
  assert (UC : cols (snd (update_table T U)) = override (cols T) (cols U)) by (apply (update_cols T U (nbins chs0)); auto).
  rewrite UC. split; [|split; [|split]].
  - rewrite override_keep, A1, B1. apply override_glue; auto; [apply (F2_names A4)|apply (F2_names B4)].
  - now apply NoDup_override.
  - now apply rows_override.
  - clear - A4 B4. revert us B4. induction A4 as [|a o chs0 owns [A1 A2] A4 IH]; intros us B4; inversion B4 as [|? u ? us' [B1 B2] B3]; subst; unfold over; cbn [combine map fst snd]; constructor; [|now apply IH].
    split; [|now apply rows_override]. rewrite override_names. unfold merged. f_equal. apply filter_ext. intros k. f_equal. apply eq_true_iff_eq. now rewrite smem_names, existsb_names.
Qed.
Definition fine (p : string -> bool) (M : list string) (n : nat) (t : table) : Prop :=
  NoDup (names t) /\ rows_are n t /\ (0 < n)%nat /\ t <> [] /\ names (keep p t) = M.
Lemma fine_ok p M n t : fine p M n t -> ok_table t /\ n_rows t = n.
Proof.
  intros (A & B & C & D & _). assert (NR : n_rows t = n) by (apply rows_n_rows; auto). split; auto. split; [split; auto|lia]. rewrite NR. exact B.
Qed.
Lemma rows_keep n p t : rows_are n t -> rows_are n (keep p t).
Proof. intros H k c I. apply filter_In in I as [I _]. eapply H; eauto. Qed.
Lemma made_stacked p chs0 M tabs t : chs0 <> [] -> Forall2 (fun a u => fine p M (bins_of a) u) chs0 tabs -> stacked tabs t -> made_of p chs0 M (map (keep p) tabs) t.
Proof.
  intros NE F ST. assert (OK : Forall ok_table tabs /\ total_rows tabs = nbins chs0 /\ (forall u, In u tabs -> names (keep p u) = M)).
  { clear - F. induction F as [|a u chs0 tabs H F (I1 & I2 & I3)]; cbn; [repeat split; auto; intros _ []|]. destruct (fine_ok _ _ _ _ H) as [O N]. rewrite N, I2. repeat split; auto. intros v [<-|I]; auto. apply H. }
  destruct OK as (OK & TR & NM). assert (NT : tabs <> []) by (destruct F; [congruence|discriminate]).
  destruct (stacked_wf _ _ ST OK NT) as ([W1 W2] & W3 & _).
  assert (ND : NoDup M). { destruct tabs as [|u tabs]; [congruence|]. rewrite <- (NM u) by now left. inversion F as [|? ? ? ? HF]; subst. destruct HF as (H1 & _). rewrite names_keep. now apply NoDup_filter. }
  split; [|split; [|split]]; auto.
  - rewrite (keep_stacked p tabs t M) by auto. unfold glue. apply map_ext_in. intros k I. f_equal. f_equal. rewrite map_map. apply map_ext_in. intros u U. unfold col_of. rewrite keep_get.
    assert (P : p k = true). { rewrite <- (NM u U), names_keep in I. now apply filter_In in I. } now rewrite P.
  - intros k c I. rewrite <- TR, <- W3. eauto.
  - clear - F. induction F as [|a u chs0 tabs H F IH]; cbn; constructor; auto. destruct H as (_ & H & _ & _ & N). split; auto. now apply rows_keep.
Qed.
(** ** PrepareTarget *)
Lemma F2_map {A B C} (P : A -> C -> Prop) (f : B -> C) l : forall m, Forall2 (fun a b => P a (f b)) l m -> Forall2 P l (map f m).
Proof. induction l as [|a l IH]; intros m H; inversion H; subst; cbn; constructor; auto. Qed.
Section Stages.
  Variables (ns : list string) (chs0 : list (string * chan)).
  Hypothesis NE : chs0 <> [].
  Hypothesis ND : NoDup ns.
  Hypothesis NSky : ~ In "sky TR"%string ns.
  Hypothesis NFor : ~ In "foreground_transmission"%string ns.
  Hypothesis AB : Forall (as_built ns) chs0.
  Lemma loud_ns sky k : In k ns -> loud sky k = true.
  Proof.
    intros I. unfold loud. destruct (String.eqb_spec k "sky TR") as [E|]; [subst; contradiction|]. destruct sky; auto. destruct (String.eqb_spec k "foreground_transmission") as [E|]; [subst; contradiction|]. auto.
  Qed.
  Lemma loud_sky sky : loud sky "sky TR" = false. Proof. reflexivity. Qed.
  Lemma sky_fine sky chs : Forall2 same_but_sky chs0 chs -> Forall2 (fun a u => fine (loud sky) ns (bins_of a) u) chs0 (map base chs) /\ map (keep (loud sky)) (map base chs) = map base chs0 /\ fillable (map base chs)
    /\ (forall k, In k (concat (map names (map base chs))) -> In k (ns ++ ["sky TR"%string])).
  Proof.
    intros H. assert (G : forall a b, as_built ns a -> same_but_sky a b -> fine (loud sky) ns (bins_of a) (base b) /\ keep (loud sky) (base b) = base a).
    { intros a b A SB. destruct (sky_ok ns (loud sky) ND NSky (loud_sky sky) (loud_ns sky) a b A SB) as (O & N & _ & KB & _). destruct (built_ok ns a A ND) as (_ & _ & _ & NM). split; auto. destruct O as [[O1 O2] O3]. split; auto. split; [intros k c I; rewrite <- N; eauto|]. split; [lia|]. split; [intros E; rewrite E in O3; cbn in O3; lia|]. now rewrite KB. }
    assert (X : forall b, In b chs -> exists a, In a chs0 /\ as_built ns a /\ same_but_sky a b).
    { clear - H AB. revert AB. induction H as [|a b l l' SB H IH]; intros A b' I; [destruct I|]. inversion A; subst. destruct I as [<-|I]; [exists a; cbn; auto|]. destruct (IH H3 b' I) as (a' & I1 & I2 & I3). exists a'. cbn; auto. }
    split; [|split; [|split]].
    - apply F2_map. clear - H AB G. revert AB. induction H as [|a b l l' SB H IH]; intros A; constructor; inversion A; subst; auto. now apply G.
    - clear - H AB G. revert AB. induction H as [|a b l l' SB H IH]; intros A; auto. inversion A; subst. cbn [map]. rewrite IH by auto. f_equal. now apply G.
    - intros t u c s rest I J E. apply in_map_iff in I as (b & <- & I). apply in_map_iff in J as (b' & <- & J).
      destruct (X b I) as (a & _ & A & SB). destruct (X b' J) as (a' & _ & A' & SB').
      destruct (sky_ok ns (loud sky) ND NSky (loud_sky sky) (loud_ns sky) a b A SB) as (_ & _ & _ & _ & _ & TX).
      assert (N := TX _ _ _ E). destruct (built_ok ns a' A' ND) as (_ & _ & _ & NM). intros Z. apply sget_None_names in Z. apply Z.
      rewrite <- NM in N. destruct SB' as (_ & _ & [SB' |(col & _ & _ & SB')]); unfold base in *; rewrite SB'; auto. unfold names. rewrite map_app. apply in_app_iff. now left.
    - intros k I. apply in_concat in I as (l & I & K). apply in_map_iff in I as (t & <- & I). apply in_map_iff in I as (b & <- & I). destruct (X b I) as (a & _ & A & SB).
      destruct (sky_ok ns (loud sky) ND NSky (loud_sky sky) (loud_ns sky) a b A SB) as (_ & _ & _ & _ & NB & _). apply in_app_iff. destruct (NB k K) as [|]; cbn; auto.
  Qed.
  Lemma alone_same : forall chs, Forall2 same_but_sky chs0 chs -> alone chs = alone chs0.
  Proof. intros chs H. unfold alone. apply Forall2_len in H. now rewrite H. Qed.
  Lemma filled_sub U V t t' : (forall k, In k U -> In k V) -> filled U t t' -> filled V t t'.
  Proof. intros S (e & A & B & C). exists e. split; auto. split; auto. intros k c I. destruct (C k c I). auto. Qed.
  Lemma prepare_spec s x chs : Forall2 same_but_sky chs0 chs ->
    exists chs1 t, prepare_target s chs x = (chs1, Ok t) /\ Forall2 same_but_sky chs0 chs1 /\ (forall sky, made_of (loud sky) chs0 ns (map base chs0) (cols t))
      /\ (alone chs0 = true -> exists k c, chs1 = [(k, c)] /\ h_table c = t).
  Proof.
    intros H. unfold prepare_target, merge_channels. rewrite map_map. change (map (fun c => snd (fst c, cols (h_table (snd c)))) chs) with (map base chs).
    assert (OK : Forall ok_table (map base chs)).
    { destruct (sky_fine None chs H) as (F & _). clear - F. revert F. generalize (map base chs). clear chs. induction chs0 as [|a l IH]; intros m F; inversion F; subst; constructor; [eapply fine_ok; eauto|auto]. }
    destruct (vstack_ok (map base chs) OK) as [[ts r] VS]; [apply (sky_fine None chs H)|].
    assert (NC : map base chs <> []) by (destruct H; [congruence|discriminate]).
    destruct (vstack_spec _ _ _ OK NC VS) as (t & -> & ST & _). rewrite VS.
    do 2 eexists. split; [reflexivity|]. split; [|split].
    - destruct (alone chs) eqn:AL.
      + unfold alone in AL. apply Nat.eqb_eq in AL. destruct chs as [|[k c] [|]]; cbn in AL; try lia. inversion H as [|a ? chs0' ? SB H']; subst. inversion H'; subst. cbn [put_tables combine map fst snd]. constructor; [|constructor].
        destruct SB as (F & T & C). split; auto. cbn [fst snd]. split; [cbn in T; rewrite T; reflexivity|]. cbn [with_table h_table cols].
        assert (t = base (k, c)) as ->; [|exact C]. inversion OK as [|? ? [_ R0] _]; subst. unfold vstack_tables in VS. cbn [map vstack_go] in VS. destruct (Nat.eqb_spec (n_rows (base (k, c))) 0); [lia|]. now injection VS.
      + apply (put_same ns (loud None) ND NSky eq_refl (loud_ns None)); auto.
        * pose proof (vstack_filled _ _ _ OK VS) as FF. destruct (sky_fine None chs H) as (_ & _ & _ & U). revert FF U. generalize (concat (map names (map base chs))). intros U FF Y. clear - FF Y. induction FF; constructor; auto. eapply filled_sub; eauto.
        * pose proof (vstack_filled _ _ _ OK VS) as FF. apply Forall2_len in FF. rewrite map_length in *. lia.
    - intros sky. destruct (sky_fine sky chs H) as (F & E & _). rewrite <- E. cbn [cols]. apply made_stacked; auto.
    - intros AL. rewrite <- (alone_same chs H) in AL. rewrite AL. unfold alone in AL. apply Nat.eqb_eq in AL. destruct chs as [|[k c] [|]]; cbn in AL; try lia. cbn [put_tables combine map fst snd]. do 2 eexists. split; [reflexivity|]. reflexivity.
  Qed.

  (** ** PropagateForegroundLight *)
  Lemma vstack_empties (tabs : list table) : tabs <> [] -> (forall t, In t tabs -> t = []) -> exists ins, vstack_tables tabs = Ok (ins, Some []).
  Proof.
    intros N H. unfold vstack_tables. assert (G : forall c, (tabs = [] -> c = Some []) -> exists ins, vstack_go c tabs = Ok (ins, Some [])); [|apply G; congruence]. clear N.
    induction tabs as [|t tabs IH]; intros c C; [rewrite C by auto; cbn; eauto|]. rewrite (H t) by now left. destruct (IH (fun t I => H t (or_intror I)) (Some []) (fun _ => eq_refl)) as [ins E]. cbn in *. change (vstack_go (Some ([] : table)) tabs = Ok (ins, Some ([] : table))) in E. rewrite E. cbn. eauto.
  Qed.
  Definition fk (fs : sdict foreground) : list string := fnames (map fst (rev fs)) [].
  Lemma fk_In fs k : In k (fk fs) -> exists f, In f (map fst fs) /\ (k = (f ++ "_signal")%string \/ k = (f ++ "_MaxSignal_inPixel")%string).
  Proof. intros I. apply fnames_In in I as [[]|(f & I & E)]. exists f. split; auto. rewrite map_rev, <- in_rev in I. auto. Qed.
  Lemma suffix_not f suf w : ends_with suf w = false -> (f ++ suf)%string <> w.
  Proof.
    intros E X. subst w. unfold ends_with in E. rewrite str_chars_app, rev_app_distr in E. revert E. generalize (rev (str_chars suf)). induction l as [|c l IH]; cbn; [discriminate|]. rewrite Ascii.eqb_refl. exact IH.
  Qed.
  Lemma fk_loud sky fs k : In k (fk fs) -> loud sky k = true.
  Proof.
    intros I. apply fk_In in I as (f & _ & E). assert (k <> "sky TR"%string /\ k <> "foreground_transmission"%string) as [A B].
    { destruct E as [-> | ->]; split; apply suffix_not; reflexivity. }
    unfold loud. apply String.eqb_neq in A. apply String.eqb_neq in B. rewrite A, B. now destruct sky.
  Qed.
  Lemma foregrounds_made fs fos : mapM (fun a => foreground_of (Some fs) (snd a)) chs0 = Ok fos ->
    exists ins t, vstack_tables fos = Ok (ins, Some t) /\ names t = fk fs /\ forall sky, made_of (loud sky) chs0 (fk fs) fos t.
  Proof.
    intros M. assert (F : Forall2 (fun a o => tab_ok (fk fs) (bins_of a) o /\ (0 < bins_of a)%nat /\ forall k s rest, sget k o <> Some (Txt s :: rest)) chs0 fos).
    { apply mapM_Ok_Forall2 in M. clear - M AB. revert AB. induction M as [|a o l l' E M IH]; intros A; constructor; inversion A as [|? ? A1 A2]; subst; auto.
      destruct (foreground_of_shape _ _ _ (built_sized _ _ A1) E) as [X Y]. split; auto. split; auto. destruct a. apply A1. }
    destruct fs as [|f0 fs0] eqn:FS.
    - assert (Z : forall t, In t fos -> t = []). { intros t I. clear - F I. induction F as [|a o l l' [[X _] _] F IH]; destruct I; subst; auto. destruct t; auto. discriminate. }
      assert (NF : fos <> []) by (destruct F; [congruence|discriminate]).
      destruct (vstack_empties fos NF Z) as [ins V]. exists ins, []. split; auto. split; auto. intros sky. split; [|split; [|split]]; try (constructor); try (intros k c []).
      clear - F. induction F as [|a o l l' [X _] F IH]; constructor; auto.
    - assert (NK : fk fs <> []). { rewrite FS. apply fnames_nonempty. rewrite map_rev. cbn. intros X. apply (f_equal (@length _)) in X. rewrite app_length in X. cbn in X. lia. }
      rewrite <- FS in *. clear FS.
      assert (NDK : NoDup (fk fs)) by (apply fnames_NoDup; constructor).
      assert (FF : forall sky, Forall2 (fun a u => fine (loud sky) (fk fs) (bins_of a) u) chs0 fos).
      { intros sky. clear - F NK NDK. induction F as [|a o l l' [[X Y] [Z _]] F IH]; constructor; auto. split; [now rewrite X|]. split; auto. split; auto. split; [intros ->; apply NK; rewrite <- X; auto|].
        rewrite keep_all; auto. intros k I. apply (fk_loud sky fs). now rewrite <- X. }
      assert (OK : Forall ok_table fos). { specialize (FF None). clear - FF. induction FF; constructor; auto. eapply fine_ok; eauto. }
      assert (FL : fillable fos).
      { intros t u c s rest I J E. exfalso. clear - F I E. induction F as [|a o l l' [_ [_ X]] F IH]; destruct I; subst; auto. eapply X; eauto. }
      destruct (vstack_ok fos OK FL) as [[ins r] V]. assert (NF : fos <> []) by (destruct F; [congruence|discriminate]).
      destruct (vstack_spec _ _ _ OK NF V) as (t & -> & ST & _). exists ins, t. split; auto. split.
      + destruct ST as [ST _]. rewrite ST. apply firsts_repeated; auto; [destruct fos; [congruence|discriminate]|]. intros x I. apply in_map_iff in I as (u & <- & I). clear - F I. induction F as [|a o l l' [[X _] _] F IH]; destruct I; subst; auto.
      + intros sky. pose proof (made_stacked (loud sky) chs0 (fk fs) fos t NE (FF sky) ST) as X. assert (map (keep (loud sky)) fos = fos) as E; [|now rewrite E in X].
        rewrite <- (map_id fos) at 2. apply map_ext_in. intros u I. apply keep_all. intros k K. apply (fk_loud sky fs). assert (names u = fk fs) as <-; auto. clear - F I. induction F as [|a o l l' [[X _] _] F IH]; destruct I; subst; auto.
  Qed.
  Lemma mapM_F2 {B} (f g : string * chan -> res B) : forall chs, Forall2 same_but_sky chs0 chs -> (forall a b, same_but_sky a b -> f b = g a) -> mapM f chs = mapM g chs0.
  Proof. intros chs H E. clear - H E. induction H as [|a b l l' S H IH]; cbn; auto. rewrite (E a b S), IH. auto. Qed.
  Lemma foreground_spec fs chs1 t : Forall2 same_but_sky chs0 chs1 -> (forall sky, made_of (loud sky) chs0 ns (map base chs0) (cols t)) -> (alone chs0 = true -> exists k c, chs1 = [(k, c)] /\ h_table c = t) ->
    (alone chs0 = true -> foreign ns fs) ->
    match mapM (fun a => foreground_of fs (snd a)) chs0 with
    | Err e => propagate_foreground_light chs1 fs t = (chs1, Err e)
    | Ok fos => exists chs2 t2 FK, propagate_foreground_light chs1 fs t = (chs2, Ok t2) /\ Forall2 same_but_sky chs0 chs2 /\ (forall sky, made_of (loud sky) chs0 (merged ns FK) (over (map base chs0) fos) (cols t2))
        /\ (forall k, In k FK -> exists f, k = (f ++ "_signal")%string \/ k = (f ++ "_MaxSignal_inPixel")%string)
    end.
  Proof.
    intros H MT AL FO. unfold propagate_foreground_light.
    rewrite (mapM_F2 (fun c => foreground_of fs (snd c)) (fun a => foreground_of fs (snd a)) chs1 H) by (intros a b S; now apply same_light).
    destruct (mapM (fun a => foreground_of fs (snd a)) chs0) as [fos|e] eqn:M; auto.
    destruct fs as [fs|].
    2: { exfalso. destruct chs0 as [|a l]; [congruence|]. cbn in M. discriminate. }
    destruct (foregrounds_made fs fos M) as (ins & new & V & NM & MD). rewrite V.
    set (U := {| cols := new; meta := [] |}). destruct (update_table t U) as [old t2] eqn:UE. do 2 eexists. exists (fk fs). split; [reflexivity|]. split; [|split].
    - rewrite (alone_same chs1 H). destruct (alone chs0) eqn:A; auto. destruct (AL eq_refl) as (k & c & -> & HT). inversion H as [|a b l l' SB H' E1 E2]. subst. inversion H'; subst. cbn [put_tables combine map fst snd]. constructor; [|constructor].
      destruct SB as (F & T & C). split; auto. cbn [fst snd]. split; [cbn in T; rewrite T; reflexivity|]. cbn [with_table h_table].
      assert (cols old = cols (h_table c)) as ->; [|exact C]. pose proof (f_equal fst UE) as OE. cbn [fst] in OE. rewrite <- OE. cbn [update_table fst cols]. apply filter_all. intros [k' col] I. cbn [fst].
      destruct (smem k' (cols U)) eqn:SM; auto. exfalso. apply smem_names in SM. unfold U in SM. cbn [cols] in SM. rewrite NM in SM.
      assert (KN : In k' ns \/ k' = "sky TR"%string).
      { assert (I1 : In k' (names (cols (h_table c)))) by (apply in_map_iff; now exists (k', col)). inversion AB as [|? ? AB1 _]; subst. destruct (built_ok ns a AB1 ND) as (_ & _ & _ & N6). cbn [snd] in C. unfold base in N6.
        destruct C as [C|(c2 & _ & _ & C)]; rewrite C in I1; [rewrite N6 in I1; auto|]. unfold names in I1. rewrite map_app in I1. apply in_app_iff in I1 as [I1|[I1|[]]]; auto. left. now rewrite <- N6. }
      destruct KN as [KN|KN].
      + apply fk_In in SM as (f & FI & E). destruct (FO eq_refl fs eq_refl f FI) as [F1 F2]. destruct E as [-> | ->]; auto.
      + apply (fk_loud None) in SM. rewrite KN in SM. discriminate.
    - intros sky. replace t2 with (snd (update_table t U)) by now rewrite UE. apply made_stage; auto.
    - intros k I. apply fk_In in I as (f & _ & E). eauto.
  Qed.
  (** ** PropagateTargetLight *)
  Lemma star_spec sed sky chs2 t K owns : Forall2 same_but_sky chs0 chs2 -> made_of (loud sky) chs0 K owns (cols t) ->
    Forall2 same_but_sky chs0 (fst (propagate_target_light chs2 sed sky t)) /\
    match mapM (fun a => own_star (snd a) sed sky) chs0 with
    | Err e => snd (propagate_target_light chs2 sed sky t) = Err e
    | Ok sos => exists t3, snd (propagate_target_light chs2 sed sky t) = Ok t3 /\ made_of (loud sky) chs0 (merged K (skeys sky)) (over owns sos) (cols t3)
    end.
  Proof.
    intros H MT. destruct (stars_spec ns sed sky NSky chs0 chs2 AB H) as [A B]. unfold propagate_target_light. destruct (propagate_stars chs2 sed sky) as [chs3 r]. cbn [fst snd] in A, B.
    destruct r as [tabs|e]; [|rewrite B; auto]. destruct B as [B C].
    assert (FF : Forall2 (fun a u => fine (loud sky) (skeys sky) (bins_of a) u) chs0 tabs).
    { apply mapM_Ok_Forall2 in B. clear - B C AB. revert AB. revert B. induction C as [|a u l l' (C1 & C2 & C3 & C4) C IH]; intros B AB; constructor; inversion B; inversion AB; subst; auto.
      split; auto. split; auto. split; [destruct a; apply H7|]. split; auto. destruct (own_star_shape _ _ _ _ (built_sized _ _ H7) H2) as [X _]. exact X. }
    assert (OK : Forall ok_table tabs). { clear - FF. induction FF; constructor; auto. eapply fine_ok; eauto. }
    assert (FL : fillable tabs).
    { intros u v c s rest I J E. exfalso. clear - C I E. induction C as [|a o l l' (_ & _ & _ & X) F IH]; destruct I; subst; auto. eapply X; eauto. }
    destruct (vstack_ok tabs OK FL) as [[ins r] V]. assert (NF : tabs <> []) by (destruct FF; [congruence|discriminate]).
    destruct (vstack_spec _ _ _ OK NF V) as (new & -> & ST & _). rewrite V. cbn [fst snd]. split; auto. rewrite B. eexists. split; [reflexivity|]. apply made_stage; auto.
    cbn [cols]. apply made_stacked; auto.
  Qed.
End Stages.
