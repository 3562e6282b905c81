(** Lemmas about complete descriptions of channels. *)
From Coq Require Import Reals Lra Psatz.
From Verif Require Import Base Dict PyStr XR M_Signal M_Optics M_Light M_Bins M_Psf M_Omega M_Star M_Source S_Signal S_Optics S_Light S_Bins S_Star S_Success L_Signal L_Optics L_Light L_Bins P_Optics P_Bins P_Windows P_Light P_Success.
From Verif Require M_Noise S_Noise.
From Verif Require Import M_Table L_Table M_Observe S_Observe S_Works M_Build S_Build S_Ready L_Build.
Open Scope list_scope.
Open Scope R_scope.

(** ** Elements *)
Definition good (wl : list R) (d : descr) (e : element) : Prop :=
  sampled_on wl e /\ fractions (e_tr e) /\ nonneg (e_em e) /\ (forall T, e_temp e = Some T -> 0 < T) /\ e_descr e = d /\ sget "type" d = Some (M_Optics.Txt (e_type e)) /\ (is_slit e -> exists v, slit_width_of e = Some v).
Lemma ones_fractions wl v : 0 <= v <= 1 -> fractions (ones wl v).
Proof. intros H x I. unfold ones in I. apply in_map_iff in I as (y & <- & _). lra. Qed.
Lemma zero_fractions p wl tr : fractions tr -> fractions (zero_where p wl tr).
Proof. intros H x I. unfold zero_where in I. apply in_map_iff in I as ([a b] & <- & I). cbn. apply in_combine_r in I. destruct (p a); [lra|auto]. Qed.
Lemma zero_length p wl tr : length tr = length wl -> length (zero_where p wl tr) = length wl.
Proof. intros H. unfold zero_where. rewrite map_length, combine_length. lia. Qed.
Lemma interp1d_fractions x y wl r : interp1d x y wl = Ok r -> fractions y -> fractions r /\ length r = length wl.
Proof.
  unfold interp1d. destruct x as [|x0 x]; [discriminate|]. destruct (Nat.eqb _ _); [|discriminate]. intros E Hy.
  assert (r = map (interp (sort_src (combine (x0 :: x) y))) wl) as -> by congruence. split; [|apply map_length]. intros v Hv. apply in_map_iff in Hv. destruct Hv as (w & <- & _).
  destruct (interp_bounds (sort_src (combine (x0 :: x) y)) w 0 1 (sort_sorted _)) as [H|H]; [|rewrite H; lra|lra].
  intros [a c] Hp. apply (proj1 (sort_In _ _)) in Hp. apply in_combine_r in Hp. cbn. now apply Hy.
Qed.
Lemma given_get d k : M_Optics.given d k = match sget k d with Some _ => true | None => false end.
Proof. unfold M_Optics.given, smem, dmem. destruct (sget k d); reflexivity. Qed.
Lemma read_column t d k wl : sget "wl_col_name" d = None -> unit_column t k -> exists n x y r, get_wl_col_name t d = Ok n /\ col t n = Ok x /\ col t k = Ok y /\ interp1d x y wl = Ok r /\ fractions r /\ length r = length wl /\ smem k t = true.
Proof.
  intros NW (x & y & W & NE & K & LY & FY). unfold get_wl_col_name. rewrite given_get, NW. destruct (interp1d_ok x y wl NE LY) as [r Hr]. destruct (interp1d_fractions _ _ _ _ Hr FY) as [F1 F2].
  destruct W as [W|[W1 W2]]; unfold smem, dmem; rewrite ?W, ?W1, ?W2, ?K.
  - exists "wavelength"%string, x, y, r. unfold col. rewrite W, K. repeat (split; auto).
  - exists "Wavelength"%string, x, y, r. unfold col. rewrite W2, K. repeat (split; auto).
Qed.
Lemma column_reads t d k wl : sget "wl_col_name" d = None -> unit_column t k -> exists r, (let* n := get_wl_col_name t d in let* x := col t n in let* y := col t k in interp1d x y wl) = Ok r /\ fractions r /\ length r = length wl.
Proof. intros NW U. destruct (read_column t d k wl NW U) as (n & x & y & r & E1 & E2 & E3 & E4 & F1 & F2 & _). exists r. rewrite E1. cbn [bind]. rewrite E2. cbn [bind]. rewrite E3. cbn [bind]. auto. Qed.
Lemma number_get d k v : sget k d = Some (M_Optics.Num v) -> number d k = Ok v.
Proof. unfold number. intros ->. reflexivity. Qed.
Lemma sensible_transmission d wl : sensible_element d -> exists tr, get_transmission d wl = Ok tr /\ fractions tr /\ length tr = length wl.
Proof.
  intros (_ & _ & NU & D). unfold get_transmission. rewrite given_get. destruct (sget "data" d) as [[x|x|t]|] eqn:SD; try destruct D.
  - destruct H0 as (NW & TR & _). unfold table_of. rewrite SD. cbn [bind]. rewrite given_get, H. destruct TR as [TR|[NT TR]].
    + destruct (column_reads t d "Transmission" wl NW TR) as (r & E & F1 & F2). destruct (read_column t d "Transmission" wl NW TR) as (_ & _ & _ & _ & _ & _ & _ & _ & _ & _ & M). rewrite M. cbn [bind]. eauto.
    + destruct (column_reads t d "Reflectivity" wl NW TR) as (r & E & F1 & F2). destruct (read_column t d "Reflectivity" wl NW TR) as (_ & _ & _ & _ & _ & _ & _ & _ & _ & _ & M). rewrite M. unfold smem at 1, dmem. rewrite NT. cbn [bind]. eauto.
  - rewrite !given_get. assert (N : forall k f, k = "transmission"%string \/ k = "reflectivity"%string -> sget k d = Some f -> exists v, number d k = Ok v /\ 0 <= v <= 1).
    { intros k f Hk Hf. destruct (H0 k f) as (v & -> & B); [tauto|auto|]. exists v. split; auto. now apply number_get. }
    assert (FIN : forall v, 0 <= v <= 1 -> exists tr, (let tr := ones wl v in let* tr := if M_Optics.given d "wl_min" then let* m := number d "wl_min" in Ok (zero_where (fun w => Rltb w m) wl tr) else Ok tr in
                   if M_Optics.given d "wl_max" then let* m := number d "wl_max" in Ok (zero_where (fun w => Rltb m w) wl tr) else Ok tr) = Ok tr /\ fractions tr /\ length tr = length wl).
    { intros v B. rewrite !given_get.
      assert (X : exists t1, (if match sget "wl_min" d with Some _ => true | None => false end then let* m := number d "wl_min" in Ok (zero_where (fun w => Rltb w m) wl (ones wl v)) else Ok (ones wl v)) = Ok t1 /\ fractions t1 /\ length t1 = length wl).
      { destruct (sget "wl_min" d) as [f|] eqn:SM; [|exists (ones wl v); split; [reflexivity|]; split; [now apply ones_fractions|apply ones_length]]. destruct (NU "wl_min"%string f) as (m & ->); auto. rewrite (number_get _ _ _ SM). cbn [bind]. eexists. split; [reflexivity|]. split; [apply zero_fractions; auto using ones_fractions|]. apply zero_length, ones_length. }
      destruct X as (t1 & E1 & F1 & L1). cbv zeta. rewrite E1. cbn [bind]. destruct (sget "wl_max" d) as [f|] eqn:SM; [|eauto]. destruct (NU "wl_max"%string f) as (m & ->); auto. rewrite (number_get _ _ _ SM). cbn [bind]. eexists. split; [reflexivity|]. split; [now apply zero_fractions|]. now apply zero_length. }
    destruct (sget "transmission" d) as [f|] eqn:ST, (sget "reflectivity" d) as [f'|] eqn:SR; cbn [andb orb].
    + destruct H; discriminate.
    + destruct (N _ _ (or_introl eq_refl) ST) as (v & -> & B). cbn [bind]. apply FIN; auto.
    + destruct (N _ _ (or_intror eq_refl) SR) as (v & -> & B). cbn [bind]. apply FIN; auto.
    + exists (ones wl 1). split; [reflexivity|]. split; [apply ones_fractions; lra|apply ones_length].
Qed.
Lemma sensible_emissivity d ty wl : sensible_element d -> exists em, get_emissivity d ty wl = Ok em /\ fractions em /\ length em = length wl.
Proof.
  intros (_ & _ & NU & D). unfold get_emissivity. rewrite given_get. destruct (sget "data" d) as [[x|x|t]|] eqn:SD; try destruct D.
  - destruct H0 as (NW & _ & TR). unfold table_of. rewrite SD. cbn [bind].
    destruct (read_column t d "Emissivity" wl NW TR) as (n & x & y & r & E1 & E2 & E3 & E4 & F1 & F2 & M). rewrite E1. cbn [bind]. rewrite M. cbn [bind]. rewrite E2. cbn [bind]. rewrite E3. cbn [bind]. eauto.
  - rewrite given_get. destruct (sget "emissivity" d) as [f|] eqn:SE.
    + destruct (H0 "emissivity"%string f) as (v & -> & B); [tauto|auto|]. rewrite (number_get _ _ _ SE). cbn [bind]. eexists. split; [reflexivity|]. split; [now apply ones_fractions|apply ones_length].
    + destruct (String.eqb ty "detector box"); eexists; (split; [reflexivity|]; split; [apply ones_fractions; lra|apply ones_length]).
Qed.
Lemma element_builds d wl : sensible_element d -> exists e, build_element d wl = Ok e /\ good wl d e.
Proof.
  intros SE. destruct (sensible_transmission d wl SE) as (tr & ET & FT & LT). pose proof SE as ((n & t & V & TY & SL) & TE & NU & _). destruct (sensible_emissivity d t wl SE) as (em & EM & FE & LE).
  unfold build_element, text, optional. rewrite V, TY. cbn [bind]. rewrite ET. cbn [bind]. rewrite EM. cbn [bind]. rewrite !given_get.
  assert (XT : exists o, (if match sget "temperature" d with Some _ => true | None => false end then let* v := number d "temperature" in Ok (Some v) else Ok None) = Ok o /\ forall T, o = Some T -> 0 < T).
  { destruct (sget "temperature" d) as [f|] eqn:ST; [|exists None; split; [reflexivity|discriminate]]. destruct (TE f eq_refl) as (v & -> & P). rewrite (number_get _ _ _ ST). cbn [bind]. exists (Some v). split; auto. intros T [= <-]. auto. }
  assert (XA : exists o, (if match sget "solid_angle" d with Some _ => true | None => false end then let* v := number d "solid_angle" in Ok (Some v) else Ok None) = Ok o).
  { destruct (sget "solid_angle" d) as [f|] eqn:ST; [|eauto]. destruct (NU "solid_angle"%string f) as (v & ->); auto. rewrite (number_get _ _ _ ST). cbn [bind]. eauto. }
  destruct XT as (o & -> & PT). cbn [bind]. destruct XA as (o' & ->). cbn [bind]. eexists. split; [reflexivity|]. unfold good, sampled_on, is_slit, slit_width_of. cbn. repeat (split; auto).
  - intros x I. now apply FE.
  - intros ->. destruct (SL eq_refl) as (v & SV). unfold says in SV. rewrite SV. eauto.
Qed.
Definition each (Q : element -> Prop) (els : elements) : Prop := forall k e, In (k, e) els -> Q e.
Lemma sset_each (Q : element -> Prop) k e (els : elements) : Q e -> each Q els -> each Q (sset k e els).
Proof.
  intros H A. induction els as [|[k' e'] els IH]; cbn.
  - intros k0 e0 [I|[]]. injection I as <- <-. auto.
  - destruct (String.eqb k k').
    + intros k0 e0 [I|I]; [injection I as <- <-; auto|]. apply (A k0). now right.
    + intros k0 e0 [I|I]; [apply (A k0); now left|]. apply (IH (fun k e I => A k e (or_intror I)) k0 e0 I).
Qed.
Lemma elements_build wl (ds : sdict descr) : forall out (Q : element -> Prop), (forall k d, In (k, d) ds -> sensible_element d) -> each Q out -> (forall k d e, In (k, d) ds -> good wl d e -> Q e) -> exists els, build_elements ds wl out = Ok els /\ each Q els.
Proof.
  induction ds as [|[k d] ds IH]; intros out Q SE A G; cbn [build_elements]; [eauto|]. destruct (element_builds d wl) as (e & E & GE); [apply (SE k); now left|]. rewrite E. cbn [bind].
  apply IH; [intros; eapply SE; right; eauto| |intros; eapply G; eauto; right; eauto]. apply sset_each; auto. apply (G k d); auto. now left.
Qed.
(** an element of an optics section, or the default one *)
Definition comes_from (wl : list R) (o : optics) (e : element) : Prop := exists d, good wl d e /\ (element_of o d \/ o = NoElement /\ ~ is_slit e).
Lemma default_sensible : sensible_element default_element.
Proof.
  unfold sensible_element, default_element. cbn. split; [|split; [|split; [|split]]].
  - exists "noElement"%string, "surface"%string. repeat split; auto. discriminate.
  - discriminate.
  - intros k f [->|[->| ->]]; discriminate.
  - auto.
  - intros k f [->|[->| ->]]; discriminate.
Qed.
Lemma optics_build wl o : sensible_optics o -> exists els, prepare_elements o wl = Ok els /\ each (comes_from wl o) els.
Proof.
  intros SE. destruct o as [|d|ds]; cbn [prepare_elements].
  - destruct (element_builds default_element wl default_sensible) as (e & E & G). rewrite E. cbn [bind]. eexists. split; [reflexivity|]. intros k e0 [I|[]]. injection I as _ <-. exists default_element. split; auto. right. split; auto.
    destruct G as (_ & _ & _ & _ & _ & TY & _). cbn in TY. injection TY as TY. unfold is_slit. rewrite <- TY. discriminate.
  - destruct (element_builds d wl) as (e & E & G); [apply SE; reflexivity|]. rewrite E. cbn [bind]. destruct (SE d eq_refl) as ((n & t & V & _) & _). unfold text. rewrite V. cbn [bind]. eexists. split; [reflexivity|].
    intros k e0 [I|[]]. injection I as _ <-. exists d. split; auto. left. reflexivity.
  - destruct (elements_build wl ds [] (comes_from wl (Several ds))) as (els & E & A); eauto.
    + intros k d I. apply SE. exists k. auto.
    + intros k e [].
    + intros k d e I G. exists d. split; auto. left. exists k. auto.
Qed.
Lemma prepend_each (Q : element -> Prop) common channel : each Q common -> each Q channel -> each Q (prepend common channel).
Proof.
  intros A B. unfold prepend, dof_list. assert (C : each Q (common ++ channel)) by (intros k e I; apply in_app_or in I as [I|I]; eauto). revert C. generalize (common ++ channel) as l. clear A B.
  assert (X : forall l out, each Q out -> each Q l -> each Q (fold_left (fun d kv => dset String.eqb (fst kv) (snd kv) d) l out)).
  { induction l as [|[k e] l IH]; intros out O L; cbn; auto. apply IH; [|intros k0 e0 I; apply (L k0); now right]. apply (sset_each Q k e out); auto. apply (L k). now left. }
  intros l L. unfold dupdate. apply X; auto. intros k e [].
Qed.

(** ** Emission *)
Lemma planck_pos w T : 0 < w -> 0 < T -> 0 <= planck w T.
Proof.
  intros Hw HT. unfold planck. assert (0 < w * T) by (apply Rmult_lt_0_compat; auto). assert (1 < exp (14387.7516 / (w * T))).
  { rewrite <- exp_0. apply exp_increasing. apply Rdiv_lt_0_compat; lra. }
  assert (0 < w ^ 5) by (apply pow_lt; auto). apply Rlt_le. apply Rdiv_lt_0_compat; [apply Rdiv_lt_0_compat; lra|lra].
Qed.
Lemma mul_nonneg a b : nonneg a -> nonneg b -> nonneg (mul a b).
Proof. intros A B x I. unfold mul in I. apply in_map_iff in I as ([u v] & <- & I). cbn. pose proof (in_combine_l _ _ _ _ I). pose proof (in_combine_r _ _ _ _ I). apply Rmult_le_pos; auto. Qed.
Definition lit (wl : list R) (r : radiance) : Prop := nonneg (r_data r) /\ length (r_data r) = length wl.
Lemma fractions_nonneg l : fractions l -> nonneg l.
Proof. intros F x I. now apply F. Qed.
Definition lets (wl : list R) (e : element) : Prop := sampled_on wl e /\ fractions (e_tr e) /\ nonneg (e_em e) /\ (forall T, e_temp e = Some T -> 0 < T) /\ (is_slit e -> exists v, slit_width_of e = Some v).
Lemma pass_lit wl (Q : R -> Prop) : forall rest rad slit, Forall (lets wl) rest -> (forall e v, In e rest -> is_slit e -> slit_width_of e = Some v -> Q v) -> (forall v, slit = Some v -> Q v) -> lit wl rad ->
  exists rad' slit', pass_through rest rad slit = Ok (rad', slit') /\ lit wl rad' /\ (forall v, slit' = Some v -> Q v) /\ (r_slit rad' = true -> r_slit rad = true \/ exists v, slit' = Some v) /\ (forall v, slit = Some v -> exists v, slit' = Some v).
Proof.
  induction rest as [|e rest IH]; intros rad slit F QS Q0 L; cbn [pass_through]; [exists rad, slit; repeat (split; eauto)|].
  apply Forall_cons_iff in F as [(SA & FR & _ & _ & SL) F].
  assert (L' : lit wl {| r_data := mul (r_data rad) (e_tr e); r_pos := r_pos rad; r_slit := r_slit rad |}).
  { destruct L as [L1 L2], SA as [S1 _]. split; cbn; [apply mul_nonneg; auto using fractions_nonneg|]. rewrite mul_length; congruence. }
  destruct (String.eqb_spec (e_type e) "slit") as [TY|TY].
  - destruct (SL TY) as (v & SV). assert (NU : number (e_descr e) "width" = Ok v). { unfold slit_width_of in SV. unfold number. destruct (sget "width" (e_descr e)) as [[x|x|x]|]; congruence. }
    rewrite NU. cbn [bind]. destruct (IH {| r_data := mul (r_data rad) (e_tr e); r_pos := r_pos rad; r_slit := true |} (Some v)) as (rad' & slit' & E & L2 & Q2 & S2 & K2); auto.
    + intros e0 v0 I. apply QS. now right.
    + intros v0 [= <-]. apply (QS e); auto. now left.
    + exists rad', slit'. repeat (split; eauto).
  - destruct (IH {| r_data := mul (r_data rad) (e_tr e); r_pos := r_pos rad; r_slit := r_slit rad |} slit) as (rad' & slit' & E & L2 & Q2 & S2 & K2); auto.
    + intros e0 v0 I. apply QS. now right.
    + exists rad', slit'. repeat (split; eauto).
Qed.
Lemma sset_all {V} (P : V -> Prop) k v (d : sdict V) : P v -> (forall k v, In (k, v) d -> P v) -> forall k' v', In (k', v') (sset k v d) -> P v'.
Proof.
  intros H A. induction d as [|[k0 v0] d IH]; cbn.
  - intros k' v' [I|[]]. injection I as <- <-. auto.
  - destruct (String.eqb k k0); intros k' v' [I|I].
    + injection I as <- <-. auto.
    + apply (A k'). now right.
    + apply (A k'). now left.
    + apply (IH (fun k v I => A k v (or_intror I)) k' v' I).
Qed.
Lemma sset_nodup {V} k v (d : sdict V) : NoDup (map fst d) -> NoDup (map fst (sset k v d)).
Proof. apply (dset_NoDup _ String_eqb_spec). Qed.
Lemma chain_lit wl (Q : R -> Prop) : (forall w, In w wl -> 0 < w) -> forall els out slit, Forall (lets wl) els -> (forall e v, In e els -> is_slit e -> slit_width_of e = Some v -> Q v) -> (forall v, slit = Some v -> Q v) ->
  (forall k r, In (k, r) out -> lit wl r /\ (r_slit r = true -> exists v, slit = Some v)) -> NoDup (map fst out) ->
  exists rads slit', chain_from planck wl els out slit = Ok (rads, slit') /\ (forall v, slit' = Some v -> Q v) /\ (forall k r, In (k, r) rads -> lit wl r /\ (r_slit r = true -> exists v, slit' = Some v)) /\ NoDup (map fst rads).
Proof.
  intros WP. induction els as [|e els IH]; intros out slit F QS Q0 L ND; cbn [chain_from]; [eauto 8|].
  apply Forall_cons_iff in F as [(SA & FR & EM & TE & SL) F]. destruct (e_temp e) as [T|] eqn:ET; [|apply IH; auto; intros e0 v0 I; apply QS; now right].
  destruct (pass_lit wl Q els {| r_data := surface_radiance planck wl T (e_em e); r_pos := e_pos e; r_slit := false |} slit) as (rad & s & E & L2 & Q2 & S2 & K2); auto.
  - intros e0 v0 I. apply QS. now right.
  - split; cbn; unfold surface_radiance.
    + apply mul_nonneg; auto. intros x I. apply in_map_iff in I as (w & <- & I). apply planck_pos; auto.
    + destruct SA as [_ S2]. rewrite mul_length; [congruence|]. now rewrite map_length.
  - rewrite E. cbn [bind]. apply IH; auto.
    + intros e0 v0 I. apply QS. now right.
    + apply sset_all.
      * split; auto. intros R1. apply S2 in R1 as [R1|R1]; [discriminate|auto].
      * intros k r I. destruct (L k r I) as [A B]. split; auto. intros R1. destruct (B R1) as (v & ->). eauto.
    + now apply sset_nodup.
Qed.

(** the light of one element, and of all *)
Lemma convolve_ok b bins slit qe wl x pw pd widths : wavelength_grid wl -> length x = length wl -> one_value_per_wavelength qe -> s_wl qe <> [] -> b_pix_wl b = Some pw -> b_pix_width b = Some pd -> b_spatial b = Some widths -> wavelength_grid pw -> length pd = length pw -> bins <> [] ->
  overlaps pw {| s_wl := wl; s_data := wl |} -> slit_fits (b_delta b) slit pw bins -> length widths = length bins ->
  exists mx sg, convolve_with_slit b bins slit qe {| s_wl := wl; s_data := x |} = Ok (mx, sg) /\ length mx = length bins /\ length sg = length bins.
Proof.
  intros W LX O NQ P1 P2 P3 PW PD NB OV (PX & EV) LW. set (l := {| s_wl := wl; s_data := x |}). assert (CL : curve l) by (split; [apply increasing_nondecreasing, W|exact LX]).
  assert (OV' : overlaps pw l) by exact OV. destruct (proj1 (C88_curve_on_a_grid pw l PW CL)) as [_ X]. destruct (X OV') as [rad Er]. clear X. destruct (resample_ok _ _ _ (proj1 PW) Er) as (_ & Lr & _).
  destruct (interp1d_ok (s_wl qe) (s_data qe) pw NQ O) as [q Hq]. assert (NP : pw <> []) by (destruct PW as (_ & X & _); intros ->; cbn in X; lia).
  destruct (C56_slit_failures b bins slit qe l) as [_ F]. destruct (F pw pd widths rad q P1 P2 P3 Er Hq Lr PD NP NB) as (_ & _ & F3). destruct PX as (n & PN & N12). destruct (F3 n PN N12) as [[_ F4] _].
  destruct F4 as [[mx sg] E].
  { intros e I. destruct (EV e I) as (v & Iv & B). exists v. split; auto. unfold in_bin_right. destruct (Rlt_dec _ _); [|lra]. destruct (Rle_dec _ _); [reflexivity|lra]. }
  exists mx, sg. split; auto. unfold convolve_with_slit in E. rewrite P1, P2, P3 in E. cbn [lookup bind] in E. rewrite Er in E. cbn [bind] in E. rewrite Hq in E. cbn [bind] in E. dbind E x1 H1. dbind E x2 H2. dbind E x3 H3. dbind E ps H4. dbind E m H5. injection E as <- <-.
  apply mapM_Ok_length in H4. apply mapM_Ok_length in H5. split; [congruence|]. rewrite mul_length; rewrite map_length; congruence.
Qed.
Definition slit_ready (b : built) (bins : list (R * R)) (wl : list R) : Prop :=
  forall slit, b_slit b = Some slit -> exists pw pd widths, b_pix_wl b = Some pw /\ b_pix_width b = Some pd /\ b_spatial b = Some widths /\ wavelength_grid pw /\ length pd = length pw /\
    overlaps pw {| s_wl := wl; s_data := wl |} /\ slit_fits (b_delta b) slit pw bins /\ length widths = length bins.
Lemma sum_light_ok b bins wl : wavelength_grid wl -> bins <> [] -> length (b_size b) = length bins -> slit_ready b bins wl ->
  forall rads qe q out, resample wl qe = Ok q -> (forall k r, In (k, r) rads -> length (r_data r) = length wl) -> length (total_max out) = length bins -> length (total_signal out) = length bins ->
  exists em, sum_light b bins wl qe rads out = Ok em.
Proof.
  intros W NB LS SR. induction rads as [|[k r] rads IH]; intros qe q out RS LR L1 L2; cbn [sum_light]; [eauto|].
  destruct (resample_ok _ _ _ (proj1 W) RS) as (QW & QL & _).
  assert (EL : exists mx sg, element_light b bins wl qe r = Ok ((mx, sg), q) /\ length mx = length bins /\ length sg = length bins).
  { unfold element_light. rewrite RS. cbn [bind]. assert (LRr : length (r_data r) = length wl) by (apply (LR k); now left).
    assert (PLAIN : exists mx sg, (let* x := times (r_data r) (scaled (pixel_area b) (mul (s_data q) (map photons_per_joule (s_wl q)))) in Ok (integrate_light b (scaled (solid_angle b (r_pos r)) x) wl, q)) = Ok ((mx, sg), q) /\ length mx = length bins /\ length sg = length bins).
    { rewrite QW. rewrite times_same. 2:{ rewrite scaled_length, mul_length; [congruence|]. rewrite map_length. congruence. } cbn [bind]. unfold integrate_light. do 2 eexists. split; [reflexivity|]. rewrite !map_length. auto. }
    destruct (r_slit r); auto. destruct (b_slit b) as [slit|] eqn:BS; auto. destruct (SR slit BS) as (pw & pd & widths & P1 & P2 & P3 & PW & PD & OV & SF & LW).
    destruct (convolve_ok b bins slit q wl (r_data r) pw pd widths) as (mx & sg & E & M1 & M2); auto.
    - unfold one_value_per_wavelength. congruence.
    - rewrite QW. destruct W as (_ & X & _). intros ->. cbn in X. lia.
    - rewrite E. cbn [bind]. eauto. }
  destruct EL as (mx & sg & E & M1 & M2). rewrite E. cbn [bind fst snd]. unfold plus. rewrite M1, M2, L1, L2, !Nat.eqb_refl. cbn [bind].
  apply (IH q q); auto.
  - replace (resample wl q) with (resample (s_wl q) q) by now rewrite QW. apply resample_self; [now rewrite QW|]. unfold one_value_per_wavelength. congruence.
  - intros k0 r0 I. apply (LR k0). now right.
  - cbn. rewrite map_length, combine_length. lia.
  - cbn. rewrite map_length, combine_length. lia.
Qed.
