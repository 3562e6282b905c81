(** Lemmas about building channels. *)
From Coq Require Import Reals Lra Psatz.
From Verif Require Import Base Dict PyStr XR M_Signal M_Optics M_Light M_Bins M_Psf M_Omega M_Star M_Source S_Signal S_Optics S_Light S_Bins L_Optics L_Light L_Bins P_Bins M_Table L_Table M_Observe S_Observe M_Build S_Build.
From Verif Require M_Noise.
Open Scope list_scope.
Open Scope R_scope.

Lemma andthen_ok {A B} (r : option (res A)) (k : A -> option (res B)) b : andthen r k = Some (Ok b) <-> exists a, r = Some (Ok a) /\ k a = Some (Ok b).
Proof. destruct r as [[a|e]|]; cbn; split; try discriminate; try (intros (a' & E & _); discriminate); eauto. intros (a' & [= <-] & E). auto. Qed.
Ltac dthen E x Hx := apply andthen_ok in E as (x & Hx & E).

(** ** In turn *)
Lemma build_all_turn w fuel p l : forall r, build_all w fuel p l = Some r <-> exists r', in_turn (fun nd => build_one w fuel p (fst nd) (snd nd)) l r' /\ r = (let* cs := r' in Ok (combine (map fst l) cs)).
Proof.
  induction l as [|[name d] l IH]; intros r.
  - cbn. split.
    + intros [= <-]. exists (Ok []). split; [constructor; constructor|reflexivity].
    + intros (r' & H & ->). inversion H; subst. { inversion H0; subst. reflexivity. } destruct before; discriminate.
  - cbn [build_all]. destruct (build_one w fuel p name d) as [[c|e]|] eqn:B; cbn [andthen].
    + destruct (build_all w fuel p l) as [[cs|e]|] eqn:A; cbn [andthen].
      * split.
        -- intros [= <-]. destruct (IH (Ok cs)) as [IH1 _]. destruct (IH1 eq_refl) as (r' & T & E). destruct r' as [out|]; [|discriminate].
           cbn in E. injection E as ->. inversion T; subst. exists (Ok (c :: out)). split; [|reflexivity]. constructor. constructor; auto.
        -- intros (r' & T & ->). f_equal. inversion T; subst.
           ++ inversion H; subst. cbn in H2. assert (y = c) by congruence. subst y. cbn. f_equal. f_equal.
              destruct (IH (Ok (combine (map fst l) l'))) as [_ IH2]. assert (X : Some (Ok cs) = Some (Ok (combine (map fst l) l'))). { apply IH2. exists (Ok l'). split; [constructor; auto|reflexivity]. } congruence.
           ++ destruct before as [|q before]; cbn in H; injection H as H3 H4.
              ** subst a. cbn in H1. congruence.
              ** subst. inversion H0; subst. destruct (IH (Err e)) as [_ IH2]. assert (X : Some (Ok cs) = Some (Err e)). { apply IH2. exists (Err e). split; [econstructor 2; eauto|reflexivity]. } discriminate.
      * split.
        -- intros [= <-]. destruct (IH (Err e)) as [IH1 _]. destruct (IH1 eq_refl) as (r' & T & E). destruct r' as [out|e']; [discriminate|]. cbn in E. injection E as <-.
           inversion T; subst. exists (Err e). split; [|reflexivity]. apply (Turn_fails _ ((name, d) :: before) a after (c :: out)); auto.
        -- intros (r' & T & ->). f_equal. inversion T; subst.
           ++ inversion H; subst. destruct (IH (Ok (combine (map fst l) l'))) as [_ IH2]. assert (X : Some (Err e) = Some (Ok (combine (map fst l) l'))). { apply IH2. exists (Ok l'). split; [constructor; auto|reflexivity]. } discriminate.
           ++ destruct before as [|q before]; cbn in H; injection H as H3 H4.
              ** subst a. cbn in H1. congruence.
              ** subst. inversion H0; subst. destruct (IH (Err e0)) as [_ IH2]. assert (X : Some (Err e : res (list (string * chan))) = Some (Err e0)). { apply IH2. exists (Err e0). split; [econstructor 2; eauto|reflexivity]. } cbn. congruence.
      * split; [discriminate|]. intros (r' & T & ->). exfalso. inversion T; subst.
        -- inversion H; subst. destruct (IH (Ok (combine (map fst l) l'))) as [_ IH2]. assert (X : None = Some (Ok (combine (map fst l) l'))). { apply IH2. exists (Ok l'). split; [constructor; auto|reflexivity]. } discriminate.
        -- destruct before as [|q before]; cbn in H; injection H as H3 H4.
           ** subst a. cbn in H1. congruence.
           ** subst. inversion H0; subst. destruct (IH (Err e)) as [_ IH2]. assert (X : None = Some (Err e : res (list (string * chan)))). { apply IH2. exists (Err e). split; [econstructor 2; eauto|reflexivity]. } discriminate.
    + split.
      * intros [= <-]. exists (Err e). split; [|reflexivity]. apply (Turn_fails _ [] (name, d) l []); auto.
      * intros (r' & T & ->). inversion T; subst.
        -- inversion H; subst. cbn in H2. congruence.
        -- destruct before as [|q before]; cbn in H; injection H as H3 H4; subst.
           ++ cbn in H1. assert (e0 = e) by congruence. subst. reflexivity.
           ++ inversion H0; subst. cbn in H3. congruence.
    + split; [discriminate|]. intros (r' & T & ->). exfalso. inversion T; subst.
      * inversion H; subst. cbn in H2. congruence.
      * destruct before as [|q before]; cbn in H; injection H as H3 H4; subst.
        -- cbn in H1. congruence.
        -- inversion H0; subst. cbn in H3. congruence.
Qed.

(** ** Shapes *)
Lemma bin_signal_length bins y : length (bin_signal bins y) = length bins.
Proof. apply map_length. Qed.
Lemma qe_length w name d bins column s : qe_of w name d bins = Ok (column, s) -> length column = length bins.
Proof.
  unfold qe_of. intros E. destruct (d_qe d); [|dbind E a Ha; dbind E b Hb]; unfold get_qe in E; dbind E s0 H0; dbind E y Hy; injection E as <- _; apply bin_signal_length.
Qed.
Lemma tr_length bins force m M tr column tr' : get_transmission_column bins force m M tr = Ok (column, tr') -> length column = length bins.
Proof.
  unfold get_transmission_column. intros E. dbind E y Hy. destruct force as [[]|]; [|injection E as <- _; apply bin_signal_length|discriminate].
  injection E as <- _. now rewrite map_length, combine_length, bin_signal_length, Nat.min_id.
Qed.
Lemma spatial_length k f delta bins : length (spatial_widths k f delta bins) = length bins.
Proof. unfold spatial_widths. destruct (k_spatial k); apply map_length. Qed.
Lemma sum_light_length b bins wl : forall rads qe out em, sum_light b bins wl qe rads out = Ok em -> length (total_max em) = length (total_max out) /\ length (total_signal em) = length (total_signal out).
Proof.
  induction rads as [|[k r] rads IH]; intros qe out em E; cbn in E; [injection E as <-; auto|].
  dbind E lq Hl. destruct lq as [l q]. dbind E t Ht. dbind E m Hm. apply IH in E as [E1 E2]. cbn in E1, E2.
  apply plus_ok in Ht as (_ & Ht & _). apply plus_ok in Hm as (_ & Hm & _). split; congruence.
Qed.
Lemma compute_signal_length b bins wl rads em : compute_signal b bins wl rads = Ok em -> length (total_max em) = length bins /\ length (total_signal em) = length bins.
Proof. intros E. apply sum_light_length in E as [E1 E2]. cbn in E1, E2. rewrite map_length in E1, E2. auto. Qed.

Lemma table_bins_rows tr m M pw pd fuel e bins : (forall r, tr = Some (FixedR r) -> 0 < m < M /\ 0 < r) -> spectrometer_table tr m M pw pd fuel = Some (Ok (e, bins)) -> (0 < length bins)%nat.
Proof.
  intros F E. destruct tr as [[|r|t|]|].
  - cbn in E. injection E as E. unfold native_table in E. destruct (sort_src (combine pw pd)) as [|p s] eqn:S; [discriminate|]. destruct (last (p :: s) p). injection E as _ <-. cbn. lia.
  - destruct (F r eq_refl) as [Hm Hr]. destruct (C33_fixed_resolution_tiles m M r pw pd fuel Hm Hr) as (bins' & top & E' & T & TM & _).
    rewrite E' in E. injection E as _ ->. destruct bins; [|cbn; lia]. exfalso. inversion T; subst. lra.
  - cbn in E. unfold variable_table in E. destruct (let* w := col t "W" in _) as [src|]; [|discriminate]. destruct (walk src M fuel m) as [[l|]|]; try discriminate.
    injection E as E. dbind E e' He. injection E as <- <-. rewrite between_length. unfold merge_last in He.
    destruct (rev (m :: l)) as [|z [|b [|c r]]] eqn:R; try discriminate. destruct (Rltb _ _).
    + injection He as <-. rewrite !app_length. cbn [length]. lia.
    + injection He as <-. rewrite <- rev_length, R. cbn [length]. lia.
  - discriminate.
  - cbn in E. injection E as E. unfold native_table in E. destruct (sort_src (combine pw pd)) as [|p s] eqn:S; [discriminate|]. destruct (last (p :: s) p). injection E as _ <-. cbn. lia.
Qed.

(** What a builder hands over *)
Definition shaped (name : string) (q : parts) : Prop :=
  (exists qe, length qe = length (q_bins q) /\ q_columns q = builder_columns name (q_bins q) qe (q_size q) []) /\ length (q_size q) = length (q_bins q) /\
  (forall w, q_spatial q = Some w -> length w = length (q_bins q)) /\
  match q_kind q with Phot _ _ => length (q_bins q) = 1%nat | Spec _ _ _ => True end.
Lemma photometer_shaped w fuel name d q : photometer_builder w fuel name d [] = Some (Ok q) -> shaped name q /\ q_bins q = photometer_table (d_min d) (d_max d) /\ exists prf, q_kind q = Phot (d_aperture d) prf.
Proof.
  unfold photometer_builder. intros E. dthen E qe Hq. dthen E psf Hp. dthen E size Hs. injection E as <-. cbn. split; [|split; eauto]. split.
  - exists (fst qe). split; [|reflexivity]. injection Hq as Hq. destruct qe as [column s]. now apply qe_length in Hq.
  - cbn. repeat split; auto. discriminate.
Qed.
Lemma spectrometer_shaped w fuel name d q : spectrometer_builder w fuel name d [] = Some (Ok q) -> shaped name q /\
  (exists s e, d_solution d = Some s /\ let px := pixels s (d_min d) (d_max d) (d_delta d) in
     spectrometer_table (d_targetR d) (d_min d) (d_max d) (pixel_wl s px) (pixel_width s (d_delta d) px) fuel = Some (Ok (e, q_bins q))) /\ exists pw pd g, q_kind q = Spec pw pd g.
Proof.
  unfold spectrometer_builder. intros E. destruct (d_solution d) as [s|]; [|discriminate]. destruct (negb _); [discriminate|]. destruct (Nat.ltb _ 2); [discriminate|]. destruct (Req_EM_T _ 0); [discriminate|].
  dthen E eb He. dthen E qe Hq. dthen E g Hg. dthen E fy Hf. dthen E size Hs. injection E as <-. cbn. split; [|split; eauto].
  - destruct eb as [e bins]. cbn in *. injection Hs as Hs. apply times_ok in Hs as (L1 & L2 & _). rewrite spatial_length in L1. split; [|cbn; repeat split; auto; try congruence].
    + cbn. exists (fst qe). split; [|reflexivity]. injection Hq as Hq. destruct qe as [column s']. now apply qe_length in Hq.
    + intros w' [= <-]. apply spatial_length.
  - exists s, (fst eb). split; auto. destruct eb; auto.
Qed.

(** ** The table of a built channel *)
Definition built_table (name : string) (bins : list bin) (qe : list (option R)) (size : list R) (tr : list (option R)) (signal mx : list R) : table :=
  [("chName", map (fun _ => Txt name) bins); ("Wavelength", map (fun b => num (centre b)) bins); ("Bandwidth", map (fun b => num (width b)) bins);
   ("LeftBinEdge", map (fun b => num (left_edge b)) bins); ("RightBinEdge", map (fun b => num (right_edge b)) bins); ("QE", map cell_of qe);
   ("WindowSize", map num size); ("TR", map cell_of tr); ("instrument_signal", map num signal); ("instrument_MaxSignal_inPixel", map num mx)]%string.
Lemma path_inv w p d q c : build_optical_path w p d q = Ok c -> exists wl els total tr_column rads slit em fx,
  optical_grid w d = Ok wl /\ optical_path wl p d = Ok els /\ sget "total" (transmission_table wl els) = Some total /\
  get_transmission_column (q_bins q) (c_force (h_star c)) (d_min d) (d_max d) {| s_wl := wl; s_data := total |} = Ok (tr_column, c_tr (h_star c)) /\
  chain planck wl els = Ok (rads, slit) /\ d_fx d = Some fx /\
  h_light c = {| b_slit := slit; b_pix_wl := option_map fst (q_pixels q); b_pix_width := option_map snd (q_pixels q); b_spatial := q_spatial q; b_size := q_size q; b_qe := q_qe q;
                 b_tr := c_tr (h_star c); b_delta := d_delta d; b_omega := omega_pix fx (d_fy d) |} /\
  compute_signal (h_light c) (M_Observe.edges c) wl rads = Ok em /\
  h_star c = {| c_bins := q_bins q; c_force := match p_optics p with Some o => o_force o | None => None end; c_min := d_min d; c_max := d_max d; c_qe := q_qe q; c_tr := c_tr (h_star c);
                c_area := match p_optics p with Some o => o_area o | None => 0 end; c_sky := None |} /\
  h_kind c = q_kind q /\ h_noise c = d_detector d /\ h_common c = p_custom p /\ meta (h_table c) = [] /\
  cols (h_table c) = hstack (sset "TR" (map cell_of tr_column) (q_columns q)) [("instrument_signal"%string, map num (total_signal em)); ("instrument_MaxSignal_inPixel"%string, map num (total_max em))].
Proof.
  unfold build_optical_path. intros E. dbind E wl Hw. dbind E els He. dbind E tot Ht. dbind E tcs Hc. destruct tcs as [trc tr]. dbind E rs Hr. destruct rs as [rads slit]. dbind E fx Hx. dbind E em Hm.
  injection E as <-. exists wl, els, tot, trc, rads, slit, em, fx. unfold col in Ht. destruct (sget "total" (transmission_table wl els)) eqn:G; [|discriminate]. injection Ht as ->.
  destruct (d_fx d); [|discriminate]. injection Hx as ->. cbn. repeat split; auto.
Qed.
Lemma built_shape w p d q c name : shaped name q -> build_optical_path w p d q = Ok c -> exists qe tr mx sg, length qe = length (q_bins q) /\ length tr = length (q_bins q) /\ length mx = length (q_bins q) /\ length sg = length (q_bins q) /\
  cols (h_table c) = built_table name (q_bins q) qe (q_size q) tr sg mx.
Proof.
  intros ((qe & LQ & EQ) & _) E. apply path_inv in E as (wl & els & total & trc & rads & slit & em & fx & _ & _ & _ & TC & _ & _ & _ & CS & HS & _ & _ & _ & _ & EC).
  apply compute_signal_length in CS as [L1 L2]. apply tr_length in TC. unfold M_Observe.edges in L1, L2. rewrite HS in L1, L2. cbn in L1, L2. rewrite map_length in L1, L2.
  exists qe, trc, (total_max em), (total_signal em). repeat split; auto. rewrite EC, EQ. reflexivity.
Qed.
Lemma built_as_built w p d q c name : shaped name q -> (0 < length (q_bins q))%nat -> M_Noise.ch_name (d_detector d) = name -> build_optical_path w p d q = Ok c -> as_built channel_columns (name, c).
Proof.
  intros SH N CN E. destruct (built_shape _ _ _ _ _ _ SH E) as (qe & tr & mx & sg & L1 & L2 & L3 & L4 & EC). destruct SH as (_ & LS & SP & K).
  apply path_inv in E as (wl & els & total & trc & rads & slit & em & fx & _ & _ & _ & _ & _ & _ & HL & _ & HS & HK & HN & _ & _ & _).
  unfold as_built. rewrite HS. cbn [c_bins]. rewrite EC, HL, HK, HN. cbn [b_size b_spatial]. repeat split; auto.
  - intros k col I. cbn in I. repeat (destruct I as [I|I]; [injection I as <- <-; now rewrite ?map_length|]). destruct I.
  - cbn. f_equal. clear. induction (q_bins q); cbn; congruence.
Qed.
