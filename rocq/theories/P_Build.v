(** Properties of building channels. *)
From Coq Require Import Reals Lra Psatz.
From Verif Require Import Base Dict PyStr XR M_Signal M_Optics M_Light M_Bins M_Psf M_Omega M_Star M_Source S_Signal S_Optics S_Light S_Bins S_Foreground L_Signal L_Optics L_Light L_Bins P_Optics P_Bins P_Windows M_Table L_Table M_Observe S_Observe M_Build S_Build L_Build.
From Verif Require M_Noise.
Open Scope list_scope.
Open Scope R_scope.

(** ** C90: what is built can be observed with *)
Lemma built_inv w fuel p name d c : build_one w fuel p name d = Some (Ok c) -> exists k q, class_named (py_lower (match d_class d with Some s => s | None => EmptyString end)) = Some k /\ d_class d <> None /\
  match k with Photometer => photometer_builder w fuel name d [] | Spectrometer => spectrometer_builder w fuel name d [] end = Some (Ok q) /\ build_optical_path w p d q = Ok c.
Proof.
  unfold build_one, build_instrument. intros E. destruct (d_class d) as [s|]; [|discriminate]. destruct (class_named (py_lower s)) as [k|] eqn:K; [|discriminate].
  unfold build in E. dthen E q Hq. injection E as E. exists k, q. split; auto. split; [congruence|]. now destruct k.
Qed.
Lemma one_as_built w fuel p name d c : proper_band d -> M_Noise.ch_name (d_detector d) = name -> build_one w fuel p name d = Some (Ok c) -> as_built channel_columns (name, c).
Proof.
  intros [PB PR] CN E. apply built_inv in E as (k & q & _ & _ & B & O). destruct k.
  - apply photometer_shaped in B as (SH & EB & _). eapply built_as_built; eauto. rewrite EB. cbn. lia.
  - apply spectrometer_shaped in B as (SH & (s & e & _ & EB) & _). eapply built_as_built; eauto. eapply table_bins_rows; [|exact EB]. intros r Hr. split; auto.
Qed.
Lemma channel_columns_nodup : NoDup channel_columns.
Proof. unfold channel_columns. repeat (constructor; [cbn; intros H; repeat (destruct H as [H|H]; [discriminate|]); exact H|]). constructor. Qed.

Theorem C90_built_channels_are_instruments : forall w fuel p l chs, p_channel p = Some (Ordered l) -> l <> [] -> named l -> (forall name d, In (name, d) l -> proper_band d) ->
  build_channels w fuel p = Some (Ok chs) -> instruments channel_columns chs /\ map fst chs = map fst l.
Proof.
  intros w fuel p l chs C NE (ND & NM) PB E. unfold build_channels in E. rewrite C in E. destruct (proj1 (build_all_turn w fuel p l _) E) as (r' & T & X).
  destruct r' as [out|]; [|discriminate]. cbn in X. injection X as ->. inversion T as [l0 out0 F|]; subst.
  assert (L : length out = length l) by (symmetry; eapply Forall2_len; eauto).
  assert (M : map fst (combine (map fst l) out) = map fst l).
  { clear -L. revert out L. induction l; intros [|o out] L; cbn in *; try congruence. f_equal. apply IHl. congruence. }
  split; [|exact M]. split; [|split; [|split; [|split; [|split]]]].
  - destruct l; [congruence|]. destruct out; [discriminate|]. discriminate.
  - now rewrite M.
  - apply channel_columns_nodup.
  - cbn. intros H; repeat (destruct H as [H|H]; [discriminate|]); exact H.
  - cbn. intros H; repeat (destruct H as [H|H]; [discriminate|]); exact H.
  - clear -F NM PB. revert NM PB. induction F as [|[n d] c l' out' B F IH]; cbn; intros NM PB; constructor.
    + cbn in B. eapply one_as_built; eauto.
    + apply IH; eauto.
Qed.
Print Assumptions C90_built_channels_are_instruments.

Lemma built_pairs w fuel p l chs : p_channel p = Some (Ordered l) -> build_channels w fuel p = Some (Ok chs) -> Forall2 (fun nd nc => fst nc = fst nd /\ build_one w fuel p (fst nd) (snd nd) = Some (Ok (snd nc))) l chs.
Proof.
  intros C E. unfold build_channels in E. rewrite C in E. destruct (proj1 (build_all_turn w fuel p l _) E) as (r' & T & X).
  destruct r' as [out|]; [|discriminate]. cbn in X. injection X as ->. inversion T as [l0 out0 F|]; subst. clear -F. induction F as [|[n d] c l' out' B F IH]; cbn; constructor; auto.
Qed.
Lemma built_from w fuel p l chs name c : p_channel p = Some (Ordered l) -> build_channels w fuel p = Some (Ok chs) -> In (name, c) chs -> exists d, In (name, d) l /\ build_one w fuel p name d = Some (Ok c).
Proof.
  intros C E I. pose proof (built_pairs _ _ _ _ _ C E) as F. clear -F I. induction F as [|[n d] [n' c'] l' chs' [E B] F IH]; [destruct I|]. cbn in E, B. destruct I as [I|I].
  - injection I as -> ->. subst. exists d. cbn. auto.
  - destruct (IH I) as (d' & I' & B'). exists d'. cbn. auto.
Qed.

(** Its rows are the bins, its windows the ones used later on. *)
Theorem C90_rows_are_bins : forall w fuel p l chs name c, p_channel p = Some (Ordered l) -> build_channels w fuel p = Some (Ok chs) -> In (name, c) chs ->
  let bins := c_bins (h_star c) in let T := cols (h_table c) in
  sget "Wavelength" T = Some (map (fun b => Num (Fin (centre b))) bins) /\ sget "Bandwidth" T = Some (map (fun b => Num (Fin (width b))) bins) /\
  sget "LeftBinEdge" T = Some (map (fun b => Num (Fin (left_edge b))) bins) /\ sget "RightBinEdge" T = Some (map (fun b => Num (Fin (right_edge b))) bins) /\
  sget "WindowSize" T = Some (map (fun x => Num (Fin x)) (b_size (h_light c))) /\ meta (h_table c) = [].
Proof.
  intros w fuel p l chs name c C E I. destruct (built_from _ _ _ _ _ _ _ C E I) as (d & _ & B). apply built_inv in B as (k & q & _ & _ & B & O). cbv zeta.
  assert (SH : shaped name q) by (destruct k; [apply photometer_shaped in B as (SH & _)|apply spectrometer_shaped in B as (SH & _)]; exact SH).
  destruct (built_shape _ _ _ _ _ _ SH O) as (qe & tr & mx & sg & _ & _ & _ & _ & EC). destruct (path_inv _ _ _ _ _ O) as (wl & els & total & trc & rads & slit & em & fx & _ & _ & _ & _ & _ & _ & HL & _ & HS & _ & _ & _ & HM & _).
  rewrite EC, HL. rewrite HS. cbn. repeat split; auto.
Qed.
Print Assumptions C90_rows_are_bins.
(** A photometer has one bin, its band; the bins of a spectrometer follow its description. *)
Theorem C90_bins : forall w fuel p l chs name c, p_channel p = Some (Ordered l) -> NoDup (map fst l) -> build_channels w fuel p = Some (Ok chs) -> In (name, c) chs ->
  exists d, sget name l = Some d /\ match h_kind c with
  | Phot a prf => a = d_aperture d /\ exists b, c_bins (h_star c) = [b] /\ proper b /\ left_edge b = d_min d /\ right_edge b = d_max d
  | Spec pix_wl pix_width gain => exists s e, d_solution d = Some s /\ spectrometer_table (d_targetR d) (d_min d) (d_max d) pix_wl pix_width fuel = Some (Ok (e, c_bins (h_star c)))
      /\ pix_wl = pixel_wl s (pixels s (d_min d) (d_max d) (d_delta d)) /\ pix_width = pixel_width s (d_delta d) (pixels s (d_min d) (d_max d) (d_delta d))
      /\ b_pix_wl (h_light c) = Some pix_wl /\ b_pix_width (h_light c) = Some pix_width
  end.
Proof.
  intros w fuel p l chs name c C ND E I. destruct (built_from _ _ _ _ _ _ _ C E I) as (d & ID & B). exists d. split; [apply NoDup_In_dget; auto; apply String_eqb_spec|].
  apply built_inv in B as (k & q & _ & _ & B & O). destruct (path_inv _ _ _ _ _ O) as (wl & els & total & trc & rads & slit & em & fx & _ & _ & _ & _ & _ & _ & HL & _ & HS & HK & _). rewrite HS, HK, HL. cbn.
  destruct k.
  - unfold photometer_builder in B. dthen B qe Hq. dthen B psf Hp. dthen B size Hs. injection B as <-. cbn. split; auto. eexists. split; [reflexivity|]. unfold proper. cbn. repeat split; lra.
  - unfold spectrometer_builder in B. destruct (d_solution d) as [s|]; [|discriminate]. destruct (negb _); [discriminate|]. destruct (Nat.ltb _ 2); [discriminate|]. destruct (Req_EM_T _ 0); [discriminate|].
    dthen B eb He. dthen B qe Hq. dthen B g Hg. dthen B fy Hf. dthen B size Hs. injection B as <-. cbn. exists s, (fst eb). destruct eb. cbn. repeat split; auto.
Qed.
Print Assumptions C90_bins.

(** ** C91: one by one *)
Definition with_channels (p : payload) (s : channel_section) : payload := {| p_optics := p_optics p; p_custom := p_custom p; p_channel := Some s |}.
Lemma build_one_same w fuel p p' name d : p_optics p = p_optics p' -> p_custom p = p_custom p' -> build_one w fuel p name d = build_one w fuel p' name d.
Proof.
  intros E1 E2. unfold build_one, build_instrument, build. destruct (d_class d) as [s|]; auto. destruct (class_named _) as [k|]; auto. cbn.
  assert (X : forall q, build_optical_path w p d q = build_optical_path w p' d q).
  { intros q. unfold build_optical_path, optical_path. rewrite E1, E2. reflexivity. }
  destruct (match k with Photometer => _ | Spectrometer => _ end) as [[q|]|]; cbn; auto. now rewrite X.
Qed.
Lemma turn_wrap {A B C} (f : A -> option (res B)) (g : A -> B -> C) l r : in_turn (fun a => andthen (f a) (fun b => Some (Ok (g a b)))) l r <->
  exists r', in_turn f l r' /\ r = (let* bs := r' in Ok (map (fun ab => g (fst ab) (snd ab)) (combine l bs))).
Proof.
  assert (W : forall a c, andthen (f a) (fun b => Some (Ok (g a b))) = Some (Ok c) <-> exists b, f a = Some (Ok b) /\ c = g a b).
  { intros a c. rewrite andthen_ok. split; intros (b & H1 & H2); exists b; split; auto; congruence. }
  assert (F : forall l out, Forall2 (fun a c => andthen (f a) (fun b => Some (Ok (g a b))) = Some (Ok c)) l out <-> exists bs, Forall2 (fun a b => f a = Some (Ok b)) l bs /\ out = map (fun ab => g (fst ab) (snd ab)) (combine l bs)).
  { intros l0. induction l0 as [|a l0 IH]; intros out; split.
    - intros H. inversion H; subst. exists []. split; [constructor|reflexivity].
    - intros (bs & H & ->). constructor.
    - intros H. inversion H; subst. apply W in H2 as (b & H2 & ->). apply IH in H4 as (bs & H4 & ->). exists (b :: bs). split; [constructor; auto|reflexivity].
    - intros (bs & H & ->). inversion H; subst. cbn. constructor; [apply W; eauto|]. apply IH. eauto. }
  split.
  - intros H. inversion H; subst.
    + apply F in H0 as (bs & H0 & ->). exists (Ok bs). split; [constructor; auto|reflexivity].
    + apply F in H0 as (bs & H0 & ->). exists (Err e). split; [|reflexivity]. econstructor; eauto. destruct (f a) as [[b|]|]; cbn in H1; congruence.
  - intros (r' & H & ->). inversion H; subst.
    + constructor. apply F. eauto.
    + cbn. econstructor; [apply F; eauto|]. now rewrite H1.
Qed.
Lemma turn_ext {A B} (f g : A -> option (res B)) l r : (forall a, f a = g a) -> in_turn f l r -> in_turn g l r.
Proof.
  intros E H. assert (F : forall l out, Forall2 (fun a b => f a = Some (Ok b)) l out -> Forall2 (fun a b => g a = Some (Ok b)) l out).
  { intros l0 out0 F. induction F; constructor; auto. now rewrite <- E. }
  inversion H; subst; [constructor; auto|]. econstructor; [apply F; eauto|]. now rewrite <- E.
Qed.

Theorem C91_one_by_one : forall w fuel p l r, p_channel p = Some (Ordered l) ->
  (build_channels w fuel p = Some r <-> exists r', in_turn (fun nd => build_channels w fuel (with_channels p (Ordered [nd]))) l r' /\ r = (let* parts := r' in Ok (concat parts))).
Proof.
  intros w fuel p l r C. unfold build_channels at 1. rewrite C, build_all_turn.
  assert (X : forall nd, build_channels w fuel (with_channels p (Ordered [nd])) = andthen (build_one w fuel p (fst nd) (snd nd)) (fun c => Some (Ok [(fst nd, c)]))).
  { intros [n d]. cbn. rewrite (build_one_same w fuel _ p) by reflexivity. reflexivity. }
  assert (Y : forall l0 (out : list chan), length out = length l0 -> concat (map (fun ab : (string * description) * chan => [(fst (fst ab), snd ab)]) (combine l0 out)) = combine (map fst l0) out).
  { induction l0 as [|a l0 IH]; intros [|b out] Hl; cbn in *; try congruence. f_equal. apply IH. congruence. }
  split.
  - intros (r' & T & ->). exists (let* bs := r' in Ok (map (fun ab : (string * description) * chan => [(fst (fst ab), snd ab)]) (combine l bs))). split.
    + eapply turn_ext; [intros a; symmetry; apply X|]. apply (turn_wrap (fun nd => build_one w fuel p (fst nd) (snd nd)) (fun nd c => [(fst nd, c)])). eauto.
    + destruct r' as [out|]; cbn; auto. rewrite Y; auto. inversion T; subst. symmetry. eapply Forall2_len; eauto.
  - intros (r2 & T & ->). apply (turn_ext _ (fun nd => andthen (build_one w fuel p (fst nd) (snd nd)) (fun c => Some (Ok [(fst nd, c)]))) l _ X) in T.
    apply (turn_wrap (fun nd => build_one w fuel p (fst nd) (snd nd)) (fun nd c => [(fst nd, c)])) in T as (r' & T & ->). exists r'. split; auto.
    destruct r' as [out|]; cbn; auto. rewrite Y; auto. inversion T; subst. symmetry. eapply Forall2_len; eauto.
Qed.
Print Assumptions C91_one_by_one.
(** A payload with a single channel *)
Theorem C91_single_channel : forall w fuel p d, d_class d <> None -> p_channel p = Some (Plain d) -> forall name, d_name d = Some name ->
  build_channels w fuel p = build_channels w fuel (with_channels p (Ordered [(name, d)])).
Proof.
  intros w fuel p d CL C name N. unfold build_channels at 1. rewrite C, N. cbn. rewrite (build_one_same w fuel _ p) by reflexivity. unfold build_one. destruct (d_class d); [reflexivity|congruence].
Qed.
Print Assumptions C91_single_channel.
Theorem C91_missing : forall w fuel p, 
  (p_channel p = None -> build_channels w fuel p = Some (Err KeyError)) /\
  (forall d, p_channel p = Some (Plain d) -> d_class d = None \/ d_name d = None -> build_channels w fuel p = Some (Err KeyError)) /\
  (forall l before name d after chs, p_channel p = Some (Ordered l) -> l = before ++ (name, d) :: after -> d_class d = None ->
     build_channels w fuel (with_channels p (Ordered before)) = Some (Ok chs) -> build_channels w fuel p = Some (Err KeyError)).
Proof.
  intros w fuel p. split; [|split].
  - intros C. unfold build_channels. now rewrite C.
  - intros d C H. unfold build_channels. rewrite C. destruct (d_class d), (d_name d), H; try discriminate; reflexivity.
  - intros l before name d after chs C -> CL B. rewrite C91_one_by_one by eauto. exists (Err KeyError). split; [|reflexivity].
    apply (C91_one_by_one w fuel (with_channels p (Ordered before)) before (Ok chs) eq_refl) in B as (r' & T & E). destruct r' as [out|]; [|discriminate]. inversion T; subst.
    apply (Turn_fails _ before (name, d) after out); auto. cbn. unfold build_one. now rewrite CL.
Qed.
Print Assumptions C91_missing.

(** ** C92: the class decides *)
Theorem C92_class_decides : forall w fuel p l chs name c, p_channel p = Some (Ordered l) -> NoDup (map fst l) -> build_channels w fuel p = Some (Ok chs) -> In (name, c) chs ->
  exists d s, sget name l = Some d /\ d_class d = Some s /\ match h_kind c with Phot _ _ => py_lower s = "photometer"%string | Spec _ _ _ => py_lower s = "spectrometer"%string end.
Proof.
  intros w fuel p l chs name c C ND E I. destruct (built_from _ _ _ _ _ _ _ C E I) as (d & ID & B). apply built_inv in B as (k & q & K & CL & B & O). destruct (d_class d) as [s|] eqn:DC; [|congruence].
  exists d, s. split; [apply NoDup_In_dget; auto; apply String_eqb_spec|]. split; auto.
  destruct (path_inv _ _ _ _ _ O) as (wl & els & total & trc & rads & slit & em & fx & _ & _ & _ & _ & _ & _ & _ & _ & _ & HK & _). rewrite HK. unfold class_named in K. destruct k.
  - apply photometer_shaped in B as (_ & _ & prf & ->). destruct (String.eqb_spec (py_lower s) "photometer"); auto. destruct (String.eqb _ _); discriminate.
  - apply spectrometer_shaped in B as (_ & _ & pw & pd & g & ->). destruct (String.eqb_spec (py_lower s) "photometer"); [discriminate|]. destruct (String.eqb_spec (py_lower s) "spectrometer"); auto. discriminate.
Qed.
Print Assumptions C92_class_decides.
(** An unknown class is refused once the channels before it are built; case does not matter. *)
Theorem C92_unknown_class : forall w fuel p before name d after s chs, p_channel p = Some (Ordered (before ++ (name, d) :: after)) -> d_class d = Some s ->
  py_lower s <> "photometer"%string -> py_lower s <> "spectrometer"%string ->
  build_channels w fuel (with_channels p (Ordered before)) = Some (Ok chs) -> build_channels w fuel p = Some (Err ValueError).
Proof.
  intros w fuel p before name d after s chs C CL N1 N2 B. rewrite C91_one_by_one by eauto. exists (Err ValueError). split; [|reflexivity].
  apply (C91_one_by_one w fuel (with_channels p (Ordered before)) before (Ok chs) eq_refl) in B as (r' & T & E). destruct r' as [out|]; [|discriminate]. inversion T; subst.
  apply (Turn_fails _ before (name, d) after out); auto. cbn. unfold build_one, build_instrument, class_named. rewrite CL. destruct (String.eqb_spec (py_lower s) "photometer"); [congruence|]. destruct (String.eqb_spec (py_lower s) "spectrometer"); [congruence|]. reflexivity.
Qed.
Print Assumptions C92_unknown_class.
Theorem C92_case_does_not_matter : forall w fuel p name d d' s s', d_class d = Some s -> d_class d' = Some s' -> py_lower s = py_lower s' ->
  d' = {| d_name := d_name d; d_class := Some s'; d_min := d_min d; d_max := d_max d; d_from := d_from d; d_to := d_to d; d_delta := d_delta d; d_qe := d_qe d; d_fx := d_fx d; d_fy := d_fy d;
          d_psf := d_psf d; d_aperture := d_aperture d; d_solution := d_solution d; d_targetR := d_targetR d; d_wfe := d_wfe d; d_windows := d_windows d; d_optics := d_optics d; d_detector := d_detector d |} ->
  build_channels w fuel (with_channels p (Ordered [(name, d)])) = build_channels w fuel (with_channels p (Ordered [(name, d')])).
Proof.
  intros w fuel p name d d' s s' C C' E ->. cbn. unfold build_one. rewrite C. cbn [d_class]. rewrite E. reflexivity.
Qed.
Print Assumptions C92_case_does_not_matter.
(** What comes from a file is not built again. *)
Theorem C92_loaded_is_not_built : forall w fuel k name d p t, build w fuel true k name d p t = Some (Err ValueError).
Proof. reflexivity. Qed.
Print Assumptions C92_loaded_is_not_built.

(** ** C93: slits *)
Lemma In_of_sget {V} (d : sdict V) k v : sget k d = Some v -> In (k, v) d.
Proof. induction d as [|[k' v'] d IH]; cbn; [discriminate|]. destruct (String.eqb_spec k k') as [<-|]; [intros [= ->]; auto|auto]. Qed.
Lemma lookup_some {V} (o : option V) v : lookup o = Ok v -> o = Some v.
Proof. destruct o; cbn; congruence. Qed.
Lemma sum_light_slit b bins wl : b_pix_wl b = None -> b_slit b <> None -> forall rads qe out em k r, In (k, r) rads -> r_slit r = true -> sum_light b bins wl qe rads out <> Ok em.
Proof.
  intros NP NS. induction rads as [|[k0 r0] rads IH]; intros qe out em k r I S E; [destruct I|]. cbn in E. dbind E lq Hl. destruct lq as [l q]. dbind E t Ht. dbind E m Hm. destruct I as [I|I]; [|eapply IH; eauto].
  injection I as -> ->. unfold element_light in Hl. dbind Hl q1 Hq1. rewrite S in Hl. destruct (b_slit b); [|congruence]. dbind Hl o1 Ho. unfold convolve_with_slit in Ho. rewrite NP in Ho. discriminate.
Qed.
Lemma last_slit l : Exists is_slit l -> exists l1 s l2, l = l1 ++ s :: l2 /\ is_slit s /\ ~ Exists is_slit l2.
Proof.
  induction l as [|e l IH]; intros H; [inversion H|]. destruct (Classical_Prop.classic (Exists is_slit l)) as [X|X].
  - destruct (IH X) as (l1 & s & l2 & -> & S1 & S2). exists (e :: l1), s, l2. auto.
  - exists [], e, l. split; [reflexivity|]. inversion H; subst; tauto.
Qed.
Lemma tr_grid bins force m M tr column tr' : length (s_data tr) = length (s_wl tr) -> get_transmission_column bins force m M tr = Ok (column, tr') -> s_wl tr' = s_wl tr.
Proof. intros L. unfold get_transmission_column. intros E. dbind E y Hy. destruct force as [[]|]; [| |discriminate]; injection E as _ <-; reflexivity. Qed.
Lemma total_length wl p d els total : optical_path wl p d = Ok els -> sget "total" (transmission_table wl els) = Some total -> length total = length wl.
Proof.
  unfold optical_path. intros E T. dbind E o Ho. dbind E e1 H1. dbind E co Hc. dbind E e2 H2. injection E as <-. destruct (C24_paths_are_sampled _ _ _ _ _ H1 H2) as [SA _].
  destruct (C24_total_is_product wl _ SA) as (total' & E & L & _). congruence.
Qed.
(** The light of a channel, for a channel built from [d]: its elements, common ones first *)
Definition path_of (p : payload) (d : description) (c : chan) (els : elements) : Prop :=
  exists o own common channel, p_optics p = Some o /\ d_optics d = Some own /\ let wl := s_wl (c_tr (h_star c)) in
  prepare_elements (o_elements o) wl = Ok common /\ prepare_elements own wl = Ok channel /\ els = prepend common channel.
Lemma has_path w p d q c : build_optical_path w p d q = Ok c -> exists els rads slit em, path_of p d c els /\ optical_grid w d = Ok (s_wl (c_tr (h_star c))) /\ chain planck (s_wl (c_tr (h_star c))) els = Ok (rads, slit) /\ b_slit (h_light c) = slit /\
  b_pix_wl (h_light c) = option_map fst (q_pixels q) /\ compute_signal (h_light c) (M_Observe.edges c) (s_wl (c_tr (h_star c))) rads = Ok em.
Proof.
  intros O. destruct (path_inv _ _ _ _ _ O) as (wl & els & total & trc & rads & slit & em & fx & G & OP & TT & TC & CH & _ & HL & CS & HS & _).
  assert (W : s_wl (c_tr (h_star c)) = wl). { apply tr_grid in TC; [exact TC|]. cbn. eapply total_length; eauto. }
  exists els, rads, slit, em. rewrite W. repeat split; auto; try (rewrite HL; reflexivity).
  unfold optical_path in OP. dbind OP o Ho. dbind OP e1 H1. dbind OP co Hc. dbind OP e2 H2. injection OP as <-. exists o, co, e1, e2. cbv zeta. rewrite W. repeat split; auto using lookup_some.
Qed.
Lemma path_same p d c els els' : path_of p d c els -> path_of p d c els' -> els = els'.
Proof. intros (o & own & c1 & c2 & E1 & E2 & E3 & E4 & ->) (o' & own' & c1' & c2' & E1' & E2' & E3' & E4' & ->). cbv zeta in *. congruence. Qed.

Theorem C93_path : forall w fuel p l chs name c, p_channel p = Some (Ordered l) -> NoDup (map fst l) -> build_channels w fuel p = Some (Ok chs) -> In (name, c) chs ->
  exists d els, sget name l = Some d /\ path_of p d c els.
Proof.
  intros w fuel p l chs name c C ND E I. destruct (built_from _ _ _ _ _ _ _ C E I) as (d & ID & B). apply built_inv in B as (k & q & K & CL & B & O).
  destruct (has_path _ _ _ _ _ O) as (els & _ & _ & _ & P & _). exists d, els. split; [apply NoDup_In_dget; auto; apply String_eqb_spec|auto].
Qed.
Print Assumptions C93_path.
(** No photometer has a slit behind something warm. *)
Theorem C93_no_photometer_behind_a_slit : forall w fuel p l chs name c d els a prf, p_channel p = Some (Ordered l) -> NoDup (map fst l) -> build_channels w fuel p = Some (Ok chs) -> In (name, c) chs -> sget name l = Some d ->
  path_of p d c els -> NoDup (map e_name (sequence els)) -> h_kind c = Phot a prf ->
  forall l1 x l2, sequence els = l1 ++ x :: l2 -> emits x -> ~ Exists is_slit l2.
Proof.
  intros w fuel p l chs name c d els a prf C ND E I SG P NN K l1 x l2 SQ EM SL. destruct (built_from _ _ _ _ _ _ _ C E I) as (d' & ID & B).
  assert (d' = d) as -> by (apply (NoDup_In_dget _ String_eqb_spec) in ID; auto; congruence).
  apply built_inv in B as (k & q & CN & CL & B & O). destruct (has_path _ _ _ _ _ O) as (els' & rads & slit & em & P' & _ & CH & BS & BP & CS). rewrite <- (path_same _ _ _ _ _ P P') in *. clear P' els'.
  destruct (path_inv _ _ _ _ _ O) as (_ & _ & _ & _ & _ & _ & _ & _ & _ & _ & _ & _ & _ & _ & _ & _ & _ & HK & _). destruct k.
  2:{ apply spectrometer_shaped in B as (_ & _ & pw & pd & g & X). congruence. }
  assert (NP : q_pixels q = None). { unfold photometer_builder in B. dthen B qe Hq. dthen B psf Hp. dthen B size Hs. injection B as <-. reflexivity. }
  rewrite NP in BP. cbn in BP.
  assert (SA : Forall (sampled_on (s_wl (c_tr (h_star c)))) (sequence els)).
  { destruct P as (o & own & c1 & c2 & _ & _ & H1 & H2 & ->). eapply C24_paths_are_sampled; eauto. }
  pose proof (C25_attenuated_by_what_follows planck _ _ _ _ SA NN CH l1 x l2 SQ) as AT. destruct (e_temp x) as [T|] eqn:ET; [|now apply EM].
  destruct AT as (rad & SR & _ & _ & _ & RS). apply RS in SL as RT. assert (IR : In (e_name x, rad) rads) by (now apply In_of_sget).
  unfold compute_signal in CS. eapply sum_light_slit in CS; eauto.
  destruct (last_slit l2 SL) as (m1 & s & m2 & -> & S1 & S2). destruct (C25_slit_width planck _ _ _ _ CH) as [W1 _].
  assert (SQ' : sequence els = (l1 ++ x :: m1) ++ s :: m2) by (rewrite SQ, <- app_assoc; reflexivity).
  assert (WS : slit = slit_width_of s). { eapply W1; eauto. apply Exists_exists. exists x. split; auto. apply in_or_app. right. now left. }
  rewrite BS, WS. intros WN. assert (X : exists er, chain planck (s_wl (c_tr (h_star c))) els = Err er); [|destruct X; congruence].
  apply C25_fails_iff_slit_without_width. exists l1, x, (m1 ++ s :: m2). repeat split; auto. apply Exists_exists. exists s. split; auto. apply in_or_app. right. now left.
Qed.
Print Assumptions C93_no_photometer_behind_a_slit.
(** A slit with nothing warm in front of it is as if it were not there; otherwise the last one counts. *)
Theorem C93_which_slit : forall w fuel p l chs name c d els, p_channel p = Some (Ordered l) -> NoDup (map fst l) -> build_channels w fuel p = Some (Ok chs) -> In (name, c) chs -> sget name l = Some d -> path_of p d c els ->
  ((forall l1 s l2, sequence els = l1 ++ s :: l2 -> is_slit s -> ~ Exists emits l1) -> b_slit (h_light c) = None) /\
  (forall l1 s l2, sequence els = l1 ++ s :: l2 -> is_slit s -> ~ Exists is_slit l2 -> Exists emits l1 -> b_slit (h_light c) = slit_width_of s).
Proof.
  intros w fuel p l chs name c d els C ND E I SG P. destruct (built_from _ _ _ _ _ _ _ C E I) as (d' & ID & B).
  assert (d' = d) as -> by (apply (NoDup_In_dget _ String_eqb_spec) in ID; auto; congruence).
  apply built_inv in B as (k & q & CN & CL & B & O). destruct (has_path _ _ _ _ _ O) as (els' & rads & slit & em & P' & _ & CH & BS & BP & CS). rewrite <- (path_same _ _ _ _ _ P P') in *. clear P' els'.
  destruct (C25_slit_width planck _ _ _ _ CH) as [W1 W2]. rewrite BS. split; auto.
Qed.
Print Assumptions C93_which_slit.

(** ** C94: the range of the detector *)
Theorem C94_range_unit_ignored : forall w fuel p l chs name c, p_channel p = Some (Ordered l) -> NoDup (map fst l) -> build_channels w fuel p = Some (Ok chs) -> In (name, c) chs ->
  exists d, sget name l = Some d /\ geometric_grid (value (d_from d)) (value (d_to d)) (u_R w) (s_wl (c_tr (h_star c))) /\
  forall v, d_qe d = QeValue v -> exists a b, in_um (d_from d) = Some a /\ in_um (d_to d) = Some b /\ geometric_grid (value (d_from d) * a) (value (d_to d) * b) (u_R w) (s_wl (c_qe (h_star c))).
Proof.
  intros w fuel p l chs name c C ND E I. destruct (built_from _ _ _ _ _ _ _ C E I) as (d & ID & B). exists d. split; [apply NoDup_In_dget; auto; apply String_eqb_spec|].
  apply built_inv in B as (k & q & CN & CL & B & O). destruct (has_path _ _ _ _ _ O) as (els & rads & slit & em & P & G & _). destruct (path_inv _ _ _ _ _ O) as (_ & _ & _ & _ & _ & _ & _ & _ & _ & _ & _ & _ & _ & _ & _ & _ & HS & _).
  assert (GL : forall a b n, geometric_grid a b n (logspace a b n)). { intros a b n. unfold logspace. split; [now rewrite map_length, seq_length|]. intros i Hi. now rewrite at_map_seq. }
  split.
  - unfold optical_grid in G. destruct (in_um (d_from d)); [|discriminate]. destruct (in_um (d_to d)); [|discriminate]. destruct (Nat.eqb _ 1); [discriminate|]. injection G as <-. apply GL.
  - intros v QV. assert (Q : exists bins qe, qe_of w name d bins = Ok (qe, q_qe q)).
    { destruct k.
      - unfold photometer_builder in B. dthen B qe Hq. dthen B psf Hp. dthen B size Hs. injection B as <-. cbn. injection Hq as Hq. destruct qe. eauto.
      - unfold spectrometer_builder in B. destruct (d_solution d) as [s|]; [|discriminate]. destruct (negb _); [discriminate|]. destruct (Nat.ltb _ 2); [discriminate|]. destruct (Req_EM_T _ 0); [discriminate|].
        dthen B eb He. dthen B qe Hq. dthen B g Hg. dthen B fy Hf. dthen B size Hs. injection B as <-. cbn. injection Hq as Hq. destruct qe. eauto. }
    destruct Q as (bins & qe & Q). unfold qe_of in Q. rewrite QV in Q. dbind Q a Ha. dbind Q b Hb. unfold in_microns in Ha, Hb. destruct (in_um (d_from d)) as [ua|] eqn:U1; [|discriminate]. destruct (in_um (d_to d)) as [ub|] eqn:U2; [|discriminate].
    exists ua, ub. split; auto. split; auto. injection Ha as <-. injection Hb as <-. unfold get_qe in Q. cbn [bind] in Q. dbind Q y Hy. injection Q as _ Q. rewrite HS. cbn [c_qe]. rewrite <- Q. cbn [s_wl]. unfold um_of. rewrite U1, U2. apply GL.
Qed.
Print Assumptions C94_range_unit_ignored.

(** The transmission column: the product of the transmissions of all elements, read at the centres of
    the bins. *)
Theorem C94_transmission_column : forall w fuel p l chs name c d els force a z, p_channel p = Some (Ordered l) -> NoDup (map fst l) -> build_channels w fuel p = Some (Ok chs) -> In (name, c) chs -> sget name l = Some d -> path_of p d c els ->
  0 < value (d_from d) < value (d_to d) -> (2 <= u_R w)%nat -> c_force (h_star c) = Some force -> tiling a (c_bins (h_star c)) z -> (forall b, In b (c_bins (h_star c)) -> proper b) ->
  let wl := s_wl (c_tr (h_star c)) in
  exists total column, length total = length wl /\ (forall k, (k < length wl)%nat -> at_ k total = product (map (fun e => at_ k (e_tr e)) (sequence els))) /\
  sget "TR" (cols (h_table c)) = Some column /\
  Forall2 (fun b v => exists r, v = Num (Fin r) /\ ((off_band force (d_min d) (d_max d) (centre b) /\ r = 0) \/ (~ off_band force (d_min d) (d_max d) (centre b) /\ curve_at (combine wl total) (centre b) r))) (c_bins (h_star c)) column /\
  (forall k, (k < length wl)%nat -> (off_band force (d_min d) (d_max d) (at_ k wl) -> at_ k (s_data (c_tr (h_star c))) = 0) /\ (~ off_band force (d_min d) (d_max d) (at_ k wl) -> at_ k (s_data (c_tr (h_star c))) = at_ k total)).
Proof.
  intros w fuel p l chs name c d els force a z C ND E I SG P V N FC TI PR wl. destruct (built_from _ _ _ _ _ _ _ C E I) as (d' & ID & B).
  assert (d' = d) as -> by (apply (NoDup_In_dget _ String_eqb_spec) in ID; auto; congruence).
  apply built_inv in B as (k & q & CN & CL & B & O). destruct (has_path _ _ _ _ _ O) as (_ & _ & _ & _ & _ & G & _).
  destruct (path_inv _ _ _ _ _ O) as (wl0 & els' & total & trc & rads & slit & em & fx & G' & OP & TT & TC & _ & _ & _ & _ & HS & _ & _ & _ & _ & EC).
  assert (wl0 = wl) as -> by (unfold wl; congruence).
  assert (els' = els) as ->.
  { unfold optical_path in OP. dbind OP o Ho. dbind OP e1 H1. dbind OP co Hc. dbind OP e2 H2. injection OP as <-. apply lookup_some in Ho. apply lookup_some in Hc. destruct P as (o' & own & c1 & c2 & P1 & P2 & P3 & P4 & ->). cbv zeta in *. fold wl in P3, P4. congruence. }
  assert (SA : Forall (sampled_on wl) (sequence els)). { destruct P as (o & own & c1 & c2 & _ & _ & H1 & H2 & ->). eapply C24_paths_are_sampled; eauto. }
  destruct (C24_total_is_product wl els SA) as (total' & T1 & T2 & T3). assert (total' = total) as -> by congruence.
  assert (WI : increasing wl).
  { unfold optical_grid in G. destruct (in_um (d_from d)); [|discriminate]. destruct (in_um (d_to d)); [|discriminate]. destruct (Nat.eqb _ 1); [discriminate|]. injection G as G. fold wl in G. rewrite <- G. apply logspace_spec; auto. }
  rewrite FC in TC. assert (HB : c_bins (h_star c) = q_bins q) by (rewrite HS; reflexivity). rewrite HB in *.
  destruct (C60_transmission_at_centres _ _ _ _ {| s_wl := wl; s_data := total |} _ _ _ _ TI PR WI TC) as (F & _ & _ & D).
  assert (SH : shaped name q) by (destruct k; [apply photometer_shaped in B as (SH & _)|apply spectrometer_shaped in B as (SH & _)]; exact SH). destruct SH as ((qe & _ & EQ) & _).
  exists total, (map cell_of trc). split; auto. split; auto. split.
  { rewrite EC, EQ. reflexivity. }
  split; [|exact D]. cbn [s_wl s_data] in F. clear -F. induction F as [|b o bs os (v & -> & H) F IH]; cbn; constructor; auto. exists v. auto.
Qed.
Print Assumptions C94_transmission_column.

(** So a range in units other than um may hide all light. *)
Theorem C94_other_units_refuted : forall w fuel p l chs name c d force a z, p_channel p = Some (Ordered l) -> NoDup (map fst l) -> build_channels w fuel p = Some (Ok chs) -> In (name, c) chs -> sget name l = Some d ->
  0 < value (d_from d) < value (d_to d) -> (2 <= u_R w)%nat -> c_force (h_star c) = Some force -> tiling a (c_bins (h_star c)) z -> (forall b, In b (c_bins (h_star c)) -> proper b /\ (centre b < value (d_from d) \/ value (d_to d) < centre b)) ->
  sget "TR" (cols (h_table c)) = Some (map (fun _ => Num (Fin 0)) (c_bins (h_star c))).
Proof.
  intros w fuel p l chs name c d force a z C ND E I SG V N FC TI PR. destruct (C93_path _ _ _ _ _ _ _ C ND E I) as (d' & els & SG' & P). assert (d' = d) as -> by congruence.
  destruct (C94_transmission_column _ _ _ _ _ _ _ _ _ _ _ _ C ND E I SG P V N FC TI (fun b Hb => proj1 (PR b Hb))) as (total & column & LT & _ & ST & F & _).
  destruct (C94_range_unit_ignored _ _ _ _ _ _ _ C ND E I) as (d' & SG2 & (LG & GG) & _). assert (d' = d) as -> by congruence.
  rewrite ST. f_equal. set (wl := s_wl (c_tr (h_star c))) in *.
  assert (BD : forall x, In x wl -> value (d_from d) <= x <= value (d_to d)).
  { destruct (logspace_spec _ _ _ V N) as (W1 & W2 & W3 & W4). intros x Hx. destruct (In_nth _ _ 0 Hx) as (i & Hi & <-). assert (X : forall i, (i < u_R w)%nat -> nth i wl 0 = nth i (logspace (value (d_from d)) (value (d_to d)) (u_R w)) 0).
    { intros j Hj. fold (at_ j wl). rewrite GG by auto. fold (at_ j (logspace (value (d_from d)) (value (d_to d)) (u_R w))). unfold logspace. now rewrite at_map_seq. }
    rewrite X by lia. rewrite LG in Hi. set (g := logspace (value (d_from d)) (value (d_to d)) (u_R w)) in *. clearbody g. split.
    - destruct i; [lra|]. apply Rlt_le. rewrite <- W3. apply increasing_nth; auto; lia.
    - destruct (Nat.eq_dec i (u_R w - 1)) as [->|]; [lra|]. apply Rlt_le. rewrite <- W4. apply increasing_nth; auto; lia. }
  clear -F BD PR LT V. revert PR. induction F as [|b v bs vs (r & -> & H) F IH]; cbn; intros PR; auto. f_equal; [|apply IH; intros; apply PR; auto]. f_equal. f_equal.
  destruct H as [[_ H]|[_ H]]; auto. destruct (PR b (or_introl eq_refl)) as [_ OUT].
  assert (IN : forall q, In q (combine wl total) -> value (d_from d) <= fst q <= value (d_to d)). { intros [x y] Hq. apply BD. eapply in_combine_l; eauto. }
  assert (NB : forall u v : R * R, neighbours (combine wl total) u v -> In u (combine wl total) /\ In v (combine wl total)). { intros u v. apply neighbours_In. }
  destruct H as [[(u & v & NE & B & _)|(q & Q1 & _ & Q3 & _)]|[_ H]]; auto; exfalso.
  - destruct (NB _ _ NE) as [I1 I2]. apply IN in I1, I2. lra.
  - apply IN in Q1. lra.
Qed.
Print Assumptions C94_other_units_refuted.

(** Anything warm in front of a detector whose range is not given in um: the channel is not built,
    since its quantum efficiency is nowhere near the wavelengths at which its optics were sampled. *)
Lemma resample_near wl s s' : resample wl s = Ok s' -> exists x y v, In x wl /\ In y wl /\ In v (s_wl s) /\ 0.9 * x < v < 1.1 * y.
Proof.
  unfold resample. destruct (Nat.eqb _ _); [|discriminate]. intros E. dbind E xy Hx. clear E. unfold spectral_rebin in Hx. dbind Hx xf Hf. clear Hx. unfold rebin in Hf. destruct (negb _); [discriminate|].
  dbind Hf win Hw. destruct wl as [|a l]; [discriminate|]. unfold in_window in Hw. rewrite (proj2 (all_numbers_Some _ (a :: l)) eq_refl) in Hw. cbn [map] in Hw. injection Hw as Hw.
  destruct win as [|[v z] win]; [dbind Hf w2 H2; discriminate|]. assert (I : In (v, z) ((v, z) :: win)) by now left. rewrite <- Hw in I. apply in_flat_map in I as ([u t] & J & K). cbn [fst snd] in K. destruct u as [u|]; [|destruct K].
  destruct (Rltb (0.9 * rmin a l) u) eqn:E1; [|destruct K]. destruct (Rltb u (1.1 * rmax a l)) eqn:E2; [|destruct K]. destruct K as [[= <- <-]|[]]. apply Rltb_true in E1, E2.
  apply in_combine_l in J. apply in_map_iff in J as (u' & [= ->] & J). exists (rmin a l), (rmax a l). eexists. split; [apply rmin_spec|]. split; [apply rmax_spec|]. split; [exact J|auto].
Qed.
Theorem C94_warm_needs_overlap : forall w fuel p l chs name c d els, p_channel p = Some (Ordered l) -> NoDup (map fst l) -> build_channels w fuel p = Some (Ok chs) -> In (name, c) chs -> sget name l = Some d -> path_of p d c els ->
  NoDup (map e_name (sequence els)) -> Exists emits (sequence els) ->
  exists x y v, In x (s_wl (c_tr (h_star c))) /\ In y (s_wl (c_tr (h_star c))) /\ In v (s_wl (c_qe (h_star c))) /\ 0.9 * x < v < 1.1 * y.
Proof.
  intros w fuel p l chs name c d els C ND E I SG P NN EM. destruct (built_from _ _ _ _ _ _ _ C E I) as (d' & ID & B).
  assert (d' = d) as -> by (apply (NoDup_In_dget _ String_eqb_spec) in ID; auto; congruence).
  apply built_inv in B as (k & q & CN & CL & B & O). destruct (has_path _ _ _ _ _ O) as (els' & rads & slit & em & P' & _ & CH & BS & BP & CS). rewrite <- (path_same _ _ _ _ _ P P') in *. clear P' els'.
  assert (BQ : b_qe (h_light c) = c_qe (h_star c)). { unfold build_optical_path in O. dbind O wl Hw. dbind O els1 He. dbind O tot Ht. dbind O tcs Hc. destruct tcs as [trc tr]. dbind O rs Hr. destruct rs as [r1 s1]. dbind O fx Hx. dbind O em1 Hm. injection O as <-. reflexivity. }
  assert (SA : Forall (sampled_on (s_wl (c_tr (h_star c)))) (sequence els)).
  { destruct P as (o & own & c1 & c2 & _ & _ & H1 & H2 & ->). eapply C24_paths_are_sampled; eauto. }
  apply Exists_exists in EM as (x & IX & EX). apply in_split in IX as (l1 & l2 & SQ).
  pose proof (C25_attenuated_by_what_follows planck _ _ _ _ SA NN CH l1 x l2 SQ) as AT. destruct (e_temp x) as [T|] eqn:ET; [|exfalso; now apply EX].
  destruct AT as (rad & SR & _). destruct rads as [|[k0 r0] rads]; [discriminate|]. unfold compute_signal in CS. cbn in CS. dbind CS lq Hl. destruct lq as [lt q1]. apply element_light_qe in Hl. rewrite BQ in Hl. now apply resample_near in Hl.
Qed.
Print Assumptions C94_warm_needs_overlap.
Theorem C94_warm_optics_in_other_units_refuted : forall w fuel p l chs name d v, p_channel p = Some (Ordered l) -> NoDup (map fst l) -> sget name l = Some d -> d_qe d = QeValue v ->
  0 < value (d_from d) < value (d_to d) -> (2 <= u_R w)%nat -> (forall a b, in_um (d_from d) = Some a -> in_um (d_to d) = Some b -> 0 < value (d_from d) * a < value (d_to d) * b /\ value (d_to d) * b <= 0.9 * value (d_from d)) ->
  build_channels w fuel p = Some (Ok chs) -> exists c, In (name, c) chs /\ forall els, path_of p d c els -> NoDup (map e_name (sequence els)) -> ~ Exists emits (sequence els).
Proof.
  intros w fuel p l chs name d v C ND SG QV V N FAR E. assert (X : exists c, In (name, c) chs).
  { pose proof (built_pairs _ _ _ _ _ C E) as F. pose proof (In_of_sget _ _ _ SG) as I. clear -F I. induction F as [|[n d1] [n' c'] l' chs' [E _] F IH]; [destruct I|]. cbn in E. subst n'. destruct I as [I|I].
    - injection I as -> ->. exists c'. now left.
    - destruct (IH I) as (c & J). exists c. now right. }
  destruct X as (c & IC). exists c. split; auto. intros els P NN EM.
  destruct (C94_warm_needs_overlap _ _ _ _ _ _ _ _ _ C ND E IC SG P NN EM) as (x & y & u & IX & IY & IU & LU).
  destruct (C94_range_unit_ignored _ _ _ _ _ _ _ C ND E IC) as (d' & SG' & G & QG). assert (d' = d) as -> by congruence. destruct (QG v QV) as (a & b & UA & UB & G2). destruct (FAR a b UA UB) as [FV FF].
  assert (GB : forall lo hi wl, 0 < lo < hi -> geometric_grid lo hi (u_R w) wl -> forall z, In z wl -> lo <= z <= hi).
  { clear -N. intros lo hi wl V (LG & GG). destruct (logspace_spec _ _ _ V N) as (W1 & W2 & W3 & W4). intros z Hz. destruct (In_nth _ _ 0 Hz) as (i & Hi & <-).
    assert (X : forall i, (i < u_R w)%nat -> nth i wl 0 = nth i (logspace lo hi (u_R w)) 0).
    { intros j Hj. fold (at_ j wl). rewrite GG by auto. fold (at_ j (logspace lo hi (u_R w))). unfold logspace. now rewrite at_map_seq. }
    rewrite X by lia. rewrite LG in Hi. set (g := logspace lo hi (u_R w)) in *. clearbody g. split.
    - destruct i; [lra|]. apply Rlt_le. rewrite <- W3. apply increasing_nth; auto; lia.
    - destruct (Nat.eq_dec i (u_R w - 1)) as [->|]; [lra|]. apply Rlt_le. rewrite <- W4. apply increasing_nth; auto; lia. }
  pose proof (GB _ _ _ V G x IX). pose proof (GB _ _ _ FV G2 u IU). lra.
Qed.
Print Assumptions C94_warm_optics_in_other_units_refuted.

(** ** C95: building twice *)
Lemma builder_again w fuel k name d t q : match k with Photometer => photometer_builder w fuel name d [] | Spectrometer => spectrometer_builder w fuel name d [] end = Some (Ok q) ->
  exists qe, length qe = length (q_bins q) /\ q_columns q = builder_columns name (q_bins q) qe (q_size q) [] /\
  match k with Photometer => photometer_builder w fuel name d t | Spectrometer => spectrometer_builder w fuel name d t end =
    Some (Ok {| q_bins := q_bins q; q_qe := q_qe q; q_kind := q_kind q; q_pixels := q_pixels q; q_spatial := q_spatial q; q_size := q_size q; q_columns := builder_columns name (q_bins q) qe (q_size q) t |}).
Proof.
  destruct k; intros B.
  - unfold photometer_builder in *. dthen B qe Hq. dthen B psf Hp. dthen B size Hs. injection B as <-. cbn [q_bins q_size q_columns q_qe q_kind q_pixels q_spatial]. exists (fst qe). split; [|split; [reflexivity|]].
    + injection Hq as Hq. destruct qe. eapply qe_length; eauto.
    + cbv zeta. injection Hq as Hq. injection Hp as Hp. cbn [andthen]. rewrite Hq. cbn [andthen]. rewrite Hp. cbn [andthen]. rewrite Hs. reflexivity.
  - unfold spectrometer_builder in *. destruct (d_solution d) as [s|]; [|discriminate]. destruct (negb _); [discriminate|]. destruct (Nat.ltb _ 2); [discriminate|]. destruct (Req_EM_T _ 0); [discriminate|].
    dthen B eb He. dthen B qe Hq. dthen B g Hg. dthen B fy Hf. dthen B size Hs. injection B as <-. cbn [q_bins q_size q_columns q_qe q_kind q_pixels q_spatial]. exists (fst qe). split; [|split; [reflexivity|]].
    + injection Hq as Hq. destruct qe. eapply qe_length; eauto.
    + cbv zeta. injection Hq as Hq. injection Hg as Hg. injection Hf as Hf. injection Hs as Hs. cbn [andthen]. rewrite He. cbn [andthen]. rewrite Hq. cbn [andthen]. rewrite Hg. cbn [andthen]. rewrite Hf. cbn [andthen]. rewrite Hs. reflexivity.
Qed.
Lemma path_columns w p d q c : build_optical_path w p d q = Ok c -> exists trc sg mx,
  cols (h_table c) = hstack (sset "TR" (map cell_of trc) (q_columns q)) [("instrument_signal"%string, map num sg); ("instrument_MaxSignal_inPixel"%string, map num mx)] /\
  forall t, build_optical_path w p d {| q_bins := q_bins q; q_qe := q_qe q; q_kind := q_kind q; q_pixels := q_pixels q; q_spatial := q_spatial q; q_size := q_size q; q_columns := t |} =
    Ok (with_table c {| cols := hstack (sset "TR" (map cell_of trc) t) [("instrument_signal"%string, map num sg); ("instrument_MaxSignal_inPixel"%string, map num mx)]; meta := [] |}).
Proof.
  unfold build_optical_path. intros E. dbind E wl Hw. dbind E els He. dbind E tot Ht. dbind E tcs Hc. destruct tcs as [trc tr]. dbind E rs Hr. destruct rs as [rads slit]. dbind E fx Hx. dbind E em Hm.
  injection E as <-. exists trc, (total_signal em), (total_max em). split; [reflexivity|]. intros t. cbn [q_bins q_qe q_kind q_pixels q_spatial q_size q_columns].
  rewrite ?Hw; cbn [bind]; rewrite ?He; cbn [bind]; rewrite ?Ht; cbn [bind]; rewrite ?Hc; cbn [bind]; rewrite ?Hr; cbn [bind]; rewrite ?Hx; cbn [bind]; rewrite ?Hm; reflexivity.
Qed.
(** Built once more, a channel is the same, but its emission stands twice in its table. *)
Theorem C95_built_twice : forall w fuel k name d p c, build w fuel false k name d p [] = Some (Ok c) ->
  let T := cols (h_table c) in
  exists c', build w fuel false k name d p T = Some (Ok c') /\ c' = with_table c (h_table c') /\
  exists first signal max, T = first ++ [("instrument_signal"%string, signal); ("instrument_MaxSignal_inPixel"%string, max)] /\ ~ In "instrument_signal"%string (names first) /\ ~ In "instrument_MaxSignal_inPixel"%string (names first) /\
  cols (h_table c') = first ++ [("instrument_signal_1"%string, signal); ("instrument_MaxSignal_inPixel_1"%string, max); ("instrument_signal_2"%string, signal); ("instrument_MaxSignal_inPixel_2"%string, max)].
Proof.
  intros w fuel k name d p c E T. unfold build in E. dthen E q Hq. injection E as E. destruct (builder_again _ _ _ _ _ T _ Hq) as (qe & LQ & EQ & AG).
  destruct (path_columns _ _ _ _ _ E) as (trc & sg & mx & EC & AG2). unfold build. rewrite AG. cbn [andthen]. rewrite AG2. eexists. split; [reflexivity|]. split; [destruct c; reflexivity|].
  exists (sset "TR" (map cell_of trc) (builder_columns name (q_bins q) qe (q_size q) [])), (map num sg), (map num mx). split; [|split; [|split]].
  - unfold T. rewrite EC, EQ. reflexivity.
  - cbn. intros H. repeat (destruct H as [H|H]; [discriminate|]). exact H.
  - cbn. intros H. repeat (destruct H as [H|H]; [discriminate|]). exact H.
  - cbn [with_table h_table cols]. unfold T. rewrite EC, EQ. reflexivity.
Qed.
Print Assumptions C95_built_twice.
