(** C106-C109: the plots. *)
From Coq Require Import Reals Lra Permutation.
From Verif Require Import Base XR Dict PyStr M_Util S_Util M_Hdf5 M_Payload M_Plot S_Plot.
From Verif Require L_Outcome.
Open Scope list_scope.

Lemma mentions_iff sub s : contains sub s = true <-> mentions sub s.
Proof. apply contains_spec. Qed.
Lemma mentions_not sub s : contains sub s = false <-> ~ mentions sub s.
Proof. rewrite <- mentions_iff. destruct (contains sub s); split; congruence. Qed.
Lemma is_signal_iff n : is_signal n = true <-> signal_name n.
Proof. unfold is_signal, signal_name. rewrite andb_true_iff, negb_true_iff, mentions_iff, mentions_not. tauto. Qed.
Lemma is_noise_iff n : is_noise n = true <-> noise_name n.
Proof. unfold is_noise, noise_name. rewrite orb_true_iff, !mentions_iff. tauto. Qed.

Lemma column_iff t n l : NoDup (map fst (p_cols t)) -> column t n = Ok l <-> has_numbers t n l.
Proof.
  intros ND. unfold column, has_numbers. split.
  - destruct (sget n (p_cols t)) as [[h l'|]|] eqn:E; try discriminate. intros [= ->]. exists h.
    eapply dget_Some_In; eauto. apply String_eqb_spec.
  - intros (h & I). rewrite (NoDup_In_dget _ String_eqb_spec _ _ _ ND I). reflexivity.
Qed.
Lemma has_one t n l l' : NoDup (map fst (p_cols t)) -> has_numbers t n l -> has_numbers t n l' -> l = l'.
Proof. intros ND A B. apply column_iff in A, B; auto. congruence. Qed.
Lemma has_length t n l m : sound_table t -> has_numbers t n l -> (exists c, In (m, c) (p_cols t) /\ cells_in c = length l) \/ ~ In m (map fst (p_cols t)).
Proof.
  intros (ND & k & S) (h & I). destruct (in_dec string_dec m (map fst (p_cols t))) as [J|J]; [left|right; auto].
  apply in_map_iff in J as ((m' & c) & <- & J). exists c. split; auto. rewrite (S _ _ J). symmetry. apply (S _ _ I).
Qed.

(** ** the bands *)
Lemma pmin_fin : forall l m, (forall x, In x l -> exists r, x = Fin r) ->
  exists r, fold_left (fun m y => if xltb y m then y else m) l (Fin m) = Fin r /\ (r = m \/ In (Fin r) l) /\ (r <= m)%R /\
            forall y, In (Fin y) l -> (r <= y)%R.
Proof.
  induction l as [|x l IH]; intros m F; cbn [fold_left].
  - exists m. split; auto. split; auto. split; [lra|]. intros y [].
  - destruct (F x) as (r & ->); [now left|]. cbn [xltb]. destruct (Rlt_dec r m) as [L|L].
    + destruct (IH r) as (q & E & C & Q & A); [intros; apply F; now right|]. exists q. split; auto.
      split; [destruct C; subst; cbn; auto|]. split; [lra|]. intros y [[= ->]|I]; auto; lra.
    + destruct (IH m) as (q & E & C & Q & A); [intros; apply F; now right|]. exists q. split; auto.
      split; [destruct C; subst; cbn; auto|]. split; [lra|]. intros y [[= ->]|I]; auto; lra.
Qed.
Lemma pmax_fin : forall l m, (forall x, In x l -> exists r, x = Fin r) ->
  exists r, fold_left (fun m y => if xltb m y then y else m) l (Fin m) = Fin r /\ (r = m \/ In (Fin r) l) /\ (m <= r)%R /\
            forall y, In (Fin y) l -> (y <= r)%R.
Proof.
  induction l as [|x l IH]; intros m F; cbn [fold_left].
  - exists m. split; auto. split; auto. split; [lra|]. intros y [].
  - destruct (F x) as (r & ->); [now left|]. cbn [xltb]. destruct (Rlt_dec m r) as [L|L].
    + destruct (IH r) as (q & E & C & Q & A); [intros; apply F; now right|]. exists q. split; auto.
      split; [destruct C; subst; cbn; auto|]. split; [lra|]. intros y [[= ->]|I]; auto; lra.
    + destruct (IH m) as (q & E & C & Q & A); [intros; apply F; now right|]. exists q. split; auto.
      split; [destruct C; subst; cbn; auto|]. split; [lra|]. intros y [[= ->]|I]; auto; lra.
Qed.
Lemma py_min_ok l : l <> [] -> exists x, py_min l = Ok x.
Proof. destruct l; [congruence|]. cbn. eauto. Qed.
Lemma py_max_ok l : l <> [] -> exists x, py_max l = Ok x.
Proof. destruct l; [congruence|]. cbn. eauto. Qed.
Lemma py_min_spec l x : py_min l = Ok x -> (forall x, In x l -> exists r, x = Fin r) ->
  exists r, x = Fin r /\ In (Fin r) l /\ forall y, In (Fin y) l -> (r <= y)%R.
Proof.
  destruct l as [|a l]; [discriminate|]. intros [= <-] F. destruct (F a) as (m & ->); [now left|].
  destruct (pmin_fin l m) as (r & E & C & L & A); [intros; apply F; now right|]. exists r. rewrite E. split; auto.
  split; [destruct C; subst; cbn; auto|]. intros y [[= ->]|I]; auto; lra.
Qed.
Lemma py_max_spec l x : py_max l = Ok x -> (forall x, In x l -> exists r, x = Fin r) ->
  exists r, x = Fin r /\ In (Fin r) l /\ forall y, In (Fin y) l -> (y <= r)%R.
Proof.
  destruct l as [|a l]; [discriminate|]. intros [= <-] F. destruct (F a) as (m & ->); [now left|].
  destruct (pmax_fin l m) as (r & E & C & L & A); [intros; apply F; now right|]. exists r. rewrite E. split; auto.
  split; [destruct C; subst; cbn; auto|]. intros y [[= ->]|I]; auto; lra.
Qed.

Lemma rows_of_In ch chs l x : In x (rows_of ch chs l) <-> exists i, nth_error chs i = Some ch /\ nth_error l i = Some x.
Proof.
  unfold rows_of. revert l. induction chs as [|c chs IH]; intros l.
  - cbn. split; [tauto|]. intros ([|i] & H & _); discriminate.
  - destruct l as [|y l].
    + cbn. split; [tauto|]. intros ([|i] & _ & H); discriminate.
    + cbn [combine filter fst]. specialize (IH l). destruct (String.eqb_spec c ch) as [->|N]; cbn [map snd In]; rewrite IH.
      * split.
        { intros [->|(i & A & B)]; [exists 0%nat; auto|exists (S i); auto]. }
        { intros ([|i] & A & B); cbn in *; [left; congruence|right; eauto]. }
      * split.
        { intros (i & A & B). exists (S i); auto. }
        { intros ([|i] & A & B); cbn in *; [congruence|eauto]. }
Qed.

Section Bands.
  Variables (en : list string -> list string) (t : ptable).
  Hypothesis EN : enumerates en.
  Hypothesis ST : sound_table t.
  Let ND : NoDup (map fst (p_cols t)). Proof. apply ST. Qed.

  Lemma chs_get chs : In ("chName", Texts chs) (p_cols t) <-> sget "chName" (p_cols t) = Some (Texts chs).
  Proof.
    split; [apply NoDup_In_dget; auto; apply String_eqb_spec|]. intros E. eapply dget_Some_In; eauto. apply String_eqb_spec.
  Qed.
  Lemma edge_rows name ch chs l x : In ("chName", Texts chs) (p_cols t) -> has_numbers t name l ->
    (In x (rows_of ch chs l) <-> edge t name ch x).
  Proof.
    intros C L. rewrite rows_of_In. unfold edge. split.
    - intros (i & A & B). exists chs, l, i. auto.
    - intros (chs' & l' & i & C' & L' & A & B). exists i.
      assert (chs' = chs) as -> by (apply chs_get in C, C'; congruence).
      assert (l' = l) as -> by (eapply has_one; eauto). auto.
  Qed.
  Lemma row_there chs l name ch : In ("chName", Texts chs) (p_cols t) -> has_numbers t name l -> In ch chs -> rows_of ch chs l <> [].
  Proof.
    intros C L I. destruct (In_nth_error _ _ I) as (i & Hi).
    assert (LL : length chs = length l).
    { destruct ST as (_ & n & S). destruct L as (h & L). pose proof (S _ _ L). pose proof (S _ _ C). cbn in *. congruence. }
    assert (exists x, nth_error l i = Some x) as (x & Hx).
    { destruct (nth_error l i) eqn:E; eauto. apply nth_error_None in E. assert (nth_error chs i <> None) by congruence.
      apply nth_error_Some in H. lia. }
    intros E. assert (In x (rows_of ch chs l)) by (apply rows_of_In; eauto). rewrite E in H. destruct H.
  Qed.
  Lemma band_ok chs ch l r : In ("chName", Texts chs) (p_cols t) -> has_numbers t "LeftBinEdge" l -> has_numbers t "RightBinEdge" r ->
    In ch chs -> exists b, band t chs ch = Ok b.
  Proof.
    intros C L Q I. unfold band. rewrite (proj2 (column_iff _ _ _ ND) L), (proj2 (column_iff _ _ _ ND) Q). cbn [bind].
    destruct (py_min_ok (rows_of ch chs l)) as (a & ->); [eapply row_there; eauto|]. cbn [bind].
    destruct (py_max_ok (rows_of ch chs r)) as (b & ->); [eapply row_there; eauto|]. cbn [bind]. eauto.
  Qed.
  Lemma band_spec chs ch b : In ("chName", Texts chs) (p_cols t) -> finite_edges t -> band t chs ch = Ok b -> band_of t ch b.
  Proof.
    intros C F. unfold band.
    destruct (column t "LeftBinEdge") as [l|] eqn:L; [|discriminate]. cbn [bind].
    destruct (py_min (rows_of ch chs l)) as [a|] eqn:A; [|discriminate]. cbn [bind].
    destruct (column t "RightBinEdge") as [r|] eqn:Q; [|discriminate]. cbn [bind].
    destruct (py_max (rows_of ch chs r)) as [z|] eqn:Z; [|discriminate]. intros [= <-].
    apply column_iff in L, Q; auto.
    destruct (py_min_spec _ _ A) as (lo & -> & A1 & A2).
    { intros x I. apply (edge_rows _ _ _ _ _ C L) in I. eapply F; [|exact I]; auto. }
    destruct (py_max_spec _ _ Z) as (hi & -> & Z1 & Z2).
    { intros x I. apply (edge_rows _ _ _ _ _ C Q) in I. eapply F; [|exact I]; auto. }
    exists lo, hi. split; auto. split; [eapply edge_rows; eauto|]. split; [intros; apply A2; eapply edge_rows; eauto|].
    split; [eapply edge_rows; eauto|]. intros; apply Z2; eapply edge_rows; eauto.
  Qed.
  (** drawing the bands succeeds exactly with channels and edges *)
  Lemma bands_ok_iff : (exists x, plot_bands en t = Ok x) <->
    (exists chs, In ("chName", Texts chs) (p_cols t) /\ chs <> []) /\ (exists l, has_numbers t "LeftBinEdge" l) /\ (exists l, has_numbers t "RightBinEdge" l).
  Proof.
    unfold plot_bands. split.
    - intros (x & H). destruct (sget "chName" (p_cols t)) as [[|chs]|] eqn:C; try discriminate.
      apply chs_get in C. destruct (mapM (band t chs) (en chs)) as [bs|] eqn:M; [|discriminate]. cbn [bind] in H.
      pose proof (mapM_Ok_length _ _ _ M) as LN.
      destruct (en chs) as [|ch rest] eqn:E.
      { destruct bs; [discriminate|discriminate]. }
      assert (In ch chs) as I by (apply EN; rewrite E; now left).
      split; [exists chs; split; auto; intros ->; destruct I|].
      cbn in M. unfold band in M.
      destruct (column t "LeftBinEdge") as [l|] eqn:L; [|discriminate]. cbn [bind] in M.
      destruct (py_min (rows_of ch chs l)) as [a|]; [|discriminate]. cbn [bind] in M.
      destruct (column t "RightBinEdge") as [r|] eqn:Q; [|discriminate].
      apply column_iff in L, Q; auto. eauto.
    - intros ((chs & C & N) & (l & L) & (r & Q)). rewrite (proj1 (chs_get chs) C).
      destruct (L_Outcome.mapM_all (band t chs) (en chs)) as (bs & M).
      { intros ch I. apply (proj2 (EN chs)) in I. exact (band_ok chs ch l r C L Q I). }
      rewrite M. cbn [bind]. apply mapM_Ok_length in M.
      destruct chs as [|ch chs]; [congruence|]. assert (I : In ch (en (ch :: chs))) by (apply EN; now left).
      destruct (rev bs) as [|[a b] q] eqn:E; [|eauto]. exfalso. assert (bs = []) as -> by (rewrite <- (rev_involutive bs), E; reflexivity).
      destruct (en (ch :: chs)); [destruct I|discriminate].
  Qed.
  Lemma bands_inv bs ticks : plot_bands en t = Ok (bs, ticks) -> exists chs, In ("chName", Texts chs) (p_cols t) /\
    Forall2 (fun ch b => band t chs ch = Ok b) (en chs) bs /\ exists b0 lo hi, bs = b0 ++ [(lo, hi)] /\ ticks = map fst bs ++ [hi].
  Proof.
    unfold plot_bands. destruct (sget "chName" (p_cols t)) as [[|chs]|] eqn:C; try discriminate.
    apply chs_get in C. destruct (mapM (band t chs) (en chs)) as [bs'|] eqn:M; [|discriminate]. cbn [bind].
    destruct (rev bs') as [|[a b] q] eqn:E; [discriminate|]. intros [= <- <-]. exists chs. split; auto.
    split; [apply mapM_Ok_Forall2; auto|]. exists (rev q), a, b. split; auto.
    rewrite <- (rev_involutive bs'), E. reflexivity.
  Qed.
End Bands.

(** ** C106: the figure of a table *)
Lemma curves_labels (g : string -> res curve) names cs : (forall n c, g n = Ok c -> v_label c = n) -> mapM g names = Ok cs ->
  map v_label cs = names /\ forall c, In c cs -> g (v_label c) = Ok c.
Proof.
  intros L M. apply mapM_Ok_Forall2 in M. induction M as [|n c ns cs H M IH]; [cbn; split; [auto|tauto]|].
  destruct IH as [E I]. cbn. rewrite (L _ _ H), E. split; auto. intros d [<-|J]; [rewrite (L _ _ H)|]; auto.
Qed.
Lemma signal_label t n c : signal_curve t n = Ok c -> v_label c = n.
Proof.
  unfold signal_curve. destruct (column t "Wavelength"); [|discriminate]. cbn. destruct (column t n); [|discriminate]. cbn. now intros [= <-].
Qed.
Lemma noise_label t n c : noise_curve t n = Ok c -> v_label c = n.
Proof.
  unfold noise_curve. destruct (String.eqb_spec n "total_noise") as [->|N].
  - destruct (column t "Wavelength"); [|discriminate]. cbn. destruct (column t "total_noise"); [|discriminate]. cbn. now intros [= <-].
  - match goal with |- context [bind ?a] => destruct a; [|discriminate] end. cbn [bind].
    destruct (column t "Wavelength"); [|discriminate]. now intros [= <-].
Qed.
Lemma filter_names (p : string -> bool) (P : string -> Prop) l : (forall n, p n = true <-> P n) ->
  forall n, In n (filter p l) <-> In n l /\ P n.
Proof. intros H n. rewrite filter_In, H. tauto. Qed.
Lemma fig_inv en t f : plot_table en t = Ok f -> exists n cs zs bs ticks, p_name t = Some n /\
  mapM (signal_curve t) (filter is_signal (map fst (p_cols t))) = Ok cs /\
  mapM (noise_curve t) (filter is_noise (map fst (p_cols t))) = Ok zs /\ plot_bands en t = Ok (bs, ticks) /\
  f = {| g_title := n; g_signal := {| a_curves := cs; a_bands := bs; a_ticks := ticks |};
         g_noise := {| a_curves := zs; a_bands := bs; a_ticks := ticks |} |}.
Proof.
  unfold plot_table, plot_signal, plot_noise. destruct (p_name t) as [n|]; [|discriminate].
  destruct (mapM (signal_curve t) _) as [cs|]; [|discriminate]. cbn [bind].
  destruct (plot_bands en t) as [[bs ticks]|]; [|discriminate]. cbn [bind].
  destruct (mapM (noise_curve t) _) as [zs|]; [|discriminate]. cbn [bind].
  intros [= <-]. exists n, cs, zs, bs, ticks. auto 6.
Qed.

(** The upper panel: one curve for every column whose name contains "signal" and not "noise", in
    the order of the table, its values against the wavelengths. *)
Theorem C106_signal_curves :
  forall en t f, sound_table t -> plot_table en t = Ok f ->
    let labels := map v_label (a_curves (g_signal f)) in
    p_name t = Some (g_title f) /\
    (exists keep, labels = filter keep (map fst (p_cols t))) /\
    (forall n, In n labels <-> In n (map fst (p_cols t)) /\ signal_name n) /\
    (forall c, In c (a_curves (g_signal f)) -> has_numbers t "Wavelength" (v_x c) /\ has_numbers t (v_label c) (v_y c)).
Proof.
  intros en t f (ND & _) H. apply fig_inv in H as (n & cs & zs & bs & ticks & N & S & Z & B & ->). cbv zeta. cbn.
  apply (curves_labels (signal_curve t)) in S as [LS IS]; [|apply signal_label]. rewrite LS. split; auto.
  split; [eauto|]. split; [intros; apply filter_names, is_signal_iff|].
  intros c I. specialize (IS _ I). unfold signal_curve in IS.
  destruct (column t "Wavelength") as [x|] eqn:X; [|discriminate]. cbn in IS.
  destruct (column t (v_label c)) as [y|] eqn:Y; [|discriminate]. cbn in IS. injection IS as E.
  rewrite <- E; cbn. split; apply column_iff; auto.
Qed.
Print Assumptions C106_signal_curves.

Lemma divide_spec l s : length s = length l -> length (divide l s) = length l /\
  forall i a b, nth_error l i = Some a -> nth_error s i = Some b -> nth_error (divide l s) i = Some (xdiv a b).
Proof.
  unfold divide. revert s. induction l as [|x l IH]; intros [|y s] H; try discriminate; cbn.
  - split; auto. intros [|i] a b A B; discriminate.
  - destruct (IH s) as [L N]; [auto|]. split; [auto|]. intros [|i] a b A B; cbn in *; [congruence|auto].
Qed.

(** The lower panel: one curve for every column whose name contains "noise" or "custom". *)
Theorem C106_noise_curves :
  forall en t f, sound_table t -> plot_table en t = Ok f ->
    let labels := map v_label (a_curves (g_noise f)) in
    (exists keep, labels = filter keep (map fst (p_cols t))) /\
    (forall n, In n labels <-> In n (map fst (p_cols t)) /\ noise_name n) /\
    (forall c, In c (a_curves (g_noise f)) -> has_numbers t "Wavelength" (v_x c) /\ noise_values t (v_label c) (v_y c)).
Proof.
  intros en t f (ND & k & ROWS) H. apply fig_inv in H as (n & cs & zs & bs & ticks & N & S & Z & B & ->). cbv zeta. cbn.
  apply (curves_labels (noise_curve t)) in Z as [LS IS]; [|apply noise_label]. rewrite LS.
  split; [eauto|]. split; [intros; apply filter_names, is_noise_iff|].
  intros c I. specialize (IS _ I). unfold noise_curve in IS. destruct (String.eqb_spec (v_label c) "total_noise") as [T|T].
  - destruct (column t "Wavelength") as [x|] eqn:X; [|discriminate]. cbn in IS.
    destruct (column t (v_label c)) as [y|] eqn:Y; [|discriminate]. cbn in IS. injection IS as E.
    rewrite <- E; cbn. apply column_iff in X, Y; auto. split; auto. left.
    rewrite T in Y. destruct Y as (h & Y). exists h. auto.
  - destruct (sget (v_label c) (p_cols t)) as [[[|] l|l]|] eqn:G; cbn in IS; try discriminate.
    + destruct (column t "Wavelength") as [x|] eqn:X; [|discriminate]. cbn in IS. injection IS as E. rewrite <- E; cbn.
      apply column_iff in X; auto. split; auto. left. exists true. split; auto. eapply dget_Some_In; eauto. apply String_eqb_spec.
    + destruct (column t "star_signal_inAperture") as [s|] eqn:Q; [|discriminate]. cbn in IS.
      destruct (column t "Wavelength") as [x|] eqn:X; [|discriminate]. cbn in IS. injection IS as E. rewrite <- E; cbn.
      apply column_iff in X, Q; auto. split; auto. right. split; auto. exists l, s.
      assert (GI : In (v_label c, Numbers false l) (p_cols t)) by (eapply dget_Some_In; eauto; apply String_eqb_spec).
      split; auto. split; auto. apply divide_spec. destruct Q as (h & Q). pose proof (ROWS _ _ Q). pose proof (ROWS _ _ GI). cbn in *. congruence.
    + destruct (column t "star_signal_inAperture"); discriminate.
Qed.
Print Assumptions C106_noise_curves.

(** Behind both panels: one band for every channel of the table, from the lowest lower edge to the
    highest upper edge of its rows. *)
Theorem C106_bands :
  forall en t f, enumerates en -> sound_table t -> finite_edges t -> plot_table en t = Ok f ->
    a_bands (g_noise f) = a_bands (g_signal f) /\
    exists chs order, In ("chName", Texts chs) (p_cols t) /\ NoDup order /\ (forall ch, In ch order <-> In ch chs) /\
      Forall2 (band_of t) order (a_bands (g_signal f)).
Proof.
  intros en t f EN ST FE H. apply fig_inv in H as (n & cs & zs & bs & ticks & N & S & Z & B & ->). cbn. split; auto.
  apply (bands_inv en t ST) in B as (chs & C & F & _). exists chs, (en chs). split; auto. destruct (EN chs). split; auto. split; auto.
  clear - F C ST FE. induction F; constructor; auto. eapply band_spec; eauto.
Qed.
Print Assumptions C106_bands.

(** The figure does not depend on the order in which the channels are enumerated, except for the
    order of the bands - and for the ticks. *)
Lemma F2_perm {A B} (P : A -> B -> Prop) l m : Permutation l m -> forall bs, Forall2 P l bs -> exists cs, Permutation bs cs /\ Forall2 P m cs.
Proof.
  induction 1; intros bs F.
  - inversion F; subst. exists []. auto.
  - inversion F as [|? b ? bs' Hb Hbs]; subst. destruct (IHPermutation _ Hbs) as (cs & P1 & F1). exists (b :: cs). auto.
  - inversion F as [|? b ? bs' Hb Hbs]; subst. inversion Hbs as [|? c ? cs' Hc Hcs]; subst. exists (c :: b :: cs'). split; [constructor|]. auto.
  - destruct (IHPermutation1 _ F) as (cs & P1 & F1). destruct (IHPermutation2 _ F1) as (ds & P2 & F2). exists ds. split; auto. eapply perm_trans; eauto.
Qed.
Lemma F2_fun {A B} (f : A -> res B) l : forall bs cs, Forall2 (fun a b => f a = Ok b) l bs -> Forall2 (fun a b => f a = Ok b) l cs -> bs = cs.
Proof.
  induction l; intros bs cs F G; inversion F; inversion G; subst; auto. f_equal; [congruence|auto].
Qed.
Theorem C106_enumeration_does_not_matter :
  forall en en' t f, enumerates en -> enumerates en' -> sound_table t -> plot_table en t = Ok f ->
    exists f', plot_table en' t = Ok f' /\ g_title f' = g_title f /\
      a_curves (g_signal f') = a_curves (g_signal f) /\ a_curves (g_noise f') = a_curves (g_noise f) /\
      Permutation (a_bands (g_signal f)) (a_bands (g_signal f')) /\ Permutation (a_bands (g_noise f)) (a_bands (g_noise f')).
Proof.
  intros en en' t f EN EN' ST H. apply fig_inv in H as (n & cs & zs & bs & ticks & N & S & Z & B & ->).
  assert (exists x, plot_bands en' t = Ok x) as ([bs' ticks'] & B').
  { apply bands_ok_iff; auto. apply (bands_ok_iff en); eauto. }
  unfold plot_table, plot_signal, plot_noise. rewrite N, S, Z, B'. cbn. eexists. split; [reflexivity|]. cbn.
  assert (Permutation bs bs').
  { apply (bands_inv en t ST) in B as (chs & C & F & _). apply (bands_inv en' t ST) in B' as (chs' & C' & F' & _).
    assert (chs' = chs) as -> by (apply (chs_get t ST) in C, C'; congruence).
    assert (PM : Permutation (en chs) (en' chs)).
    { apply NoDup_Permutation; [apply EN|apply EN'|]. intros x. rewrite (proj2 (EN chs) x), (proj2 (EN' chs) x). tauto. }
    destruct (F2_perm _ _ _ PM _ F) as (ds & P1 & F1). rewrite (F2_fun _ _ _ _ F' F1). auto. }
  auto 6.
Qed.
Print Assumptions C106_enumeration_does_not_matter.

(** The wavelength axis is labelled at the lower edge of every band, and at the upper edge of a
    single one. *)
Theorem C106_ticks :
  forall en t f, sound_table t -> plot_table en t = Ok f ->
    a_ticks (g_noise f) = a_ticks (g_signal f) /\
    exists bs lo hi, a_bands (g_signal f) = bs ++ [(lo, hi)] /\
      a_ticks (g_signal f) = map fst (a_bands (g_signal f)) ++ [hi].
Proof.
  intros en t f ST H. apply fig_inv in H as (n & cs & zs & bs & ticks & N & S & Z & B & ->). cbn. split; auto.
  apply (bands_inv en t ST) in B as (chs & C & _ & b0 & lo & hi & E & T). eauto.
Qed.
Print Assumptions C106_ticks.

(** A table with two channels *)
Definition two_channels : ptable :=
  {| p_name := Some "HD 209458";
     p_cols := [("chName", Texts ["Phot"; "Spec"; "Spec"]);
                ("Wavelength", Numbers false [Fin 1; Fin 2; Fin 3]);
                ("LeftBinEdge", Numbers false [Fin (1/2); Fin (3/2); Fin (5/2)]);
                ("RightBinEdge", Numbers false [Fin (3/2); Fin (5/2); Fin (7/2)]);
                ("star_signal_inAperture", Numbers false [Fin 10; Fin 20; Fin 40]);
                ("star_MaxSignal_inPixel", Numbers false [Fin 1; Fin 1; Fin 1]);
                ("read_noise", Numbers false [Fin 1; Fin 1; Fin 1]);
                ("total_noise", Numbers true [Fin 2; Fin 2; Fin 2])] |}%R.
Lemma two_channels_sound : sound_table two_channels.
Proof.
  split.
  - cbn. repeat (constructor; [cbn; intuition discriminate|]). constructor.
  - exists 3%nat. cbn. intros k c H. repeat (destruct H as [[= <- <-]|H]; [reflexivity|]). destruct H.
Qed.
Definition here (l : list string) : list string := nodup string_dec l.
Definition there (l : list string) : list string := rev (nodup string_dec l).
Lemma here_enumerates : enumerates here.
Proof. intros l. split; [apply NoDup_nodup|]. intros x. apply nodup_In. Qed.
Lemma there_enumerates : enumerates there.
Proof. intros l. split; [apply NoDup_rev, NoDup_nodup|]. intros x. unfold there. rewrite <- in_rev. apply nodup_In. Qed.
Lemma xltb_fin a b : xltb (Fin a) (Fin b) = if Rlt_dec a b then true else false.
Proof. reflexivity. Qed.
Lemma phot_band : band two_channels ["Phot"; "Spec"; "Spec"] "Phot" = Ok (Fin (1/2), Fin (3/2))%R.
Proof. reflexivity. Qed.
Lemma spec_band : band two_channels ["Phot"; "Spec"; "Spec"] "Spec" = Ok (Fin (3/2), Fin (7/2))%R.
Proof.
  unfold band, column, two_channels, rows_of. cbn -[xltb].
  rewrite !xltb_fin. destruct (Rlt_dec (5/2) (3/2)); [lra|]. destruct (Rlt_dec (5/2) (7/2)); [reflexivity|lra].
Qed.

(** So an upper edge between two channels is labelled or not depending on the enumeration: the
    same table is drawn with a tick at 3.5 um, the end of the spectrum, or without it. *)
Theorem C106_every_edge_is_labelled_refuted :
  exists t f f', sound_table t /\ plot_table here t = Ok f /\ plot_table there t = Ok f' /\
    (exists b, In (b, Fin (7/2)%R) (a_bands (g_signal f))) /\ (exists b, In (b, Fin (7/2)%R) (a_bands (g_signal f'))) /\
    In (Fin (7/2)%R) (a_ticks (g_signal f)) /\ ~ In (Fin (7/2)%R) (a_ticks (g_signal f')).
Proof.
  exists two_channels.
  assert (H1 : plot_bands here two_channels = Ok ([(Fin (1/2), Fin (3/2)); (Fin (3/2), Fin (7/2))], [Fin (1/2); Fin (3/2); Fin (7/2)])%R).
  { unfold plot_bands. change (sget "chName" (p_cols two_channels)) with (Some (Texts ["Phot"; "Spec"; "Spec"])). cbv iota.
    change (here ["Phot"; "Spec"; "Spec"]) with ["Phot"; "Spec"]. cbn [mapM]. rewrite phot_band, spec_band. reflexivity. }
  assert (H2 : plot_bands there two_channels = Ok ([(Fin (3/2), Fin (7/2)); (Fin (1/2), Fin (3/2))], [Fin (3/2); Fin (1/2); Fin (3/2)])%R).
  { unfold plot_bands. change (sget "chName" (p_cols two_channels)) with (Some (Texts ["Phot"; "Spec"; "Spec"])). cbv iota.
    change (there ["Phot"; "Spec"; "Spec"]) with ["Spec"; "Phot"]. cbn [mapM]. rewrite phot_band, spec_band. reflexivity. }
  eexists _, _. split; [apply two_channels_sound|]. unfold plot_table, plot_signal, plot_noise. rewrite H1, H2.
  cbn -[two_channels]. split; [reflexivity|]. split; [reflexivity|]. cbn.
  split; [eauto|]. split; [eauto|]. split; [auto|].
  intros [E|[E|[E|[]]]]; injection E; lra.
Qed.
Print Assumptions C106_every_edge_is_labelled_refuted.

(** A table is drawn exactly if it has what the figure needs. *)
Lemma column_dec t n : NoDup (map fst (p_cols t)) -> (exists l, column t n = Ok l) <-> exists l, has_numbers t n l.
Proof. intros ND. split; intros (l & H); exists l; apply column_iff; auto. Qed.
Theorem C106_drawn_exactly_if_complete :
  forall en t, enumerates en -> sound_table t -> (exists f, plot_table en t = Ok f) <-> drawable t.
Proof.
  intros en t EN ST. pose proof (proj1 ST) as ND. split.
  - intros (f & H). pose proof (C106_signal_curves en t f ST H) as (_ & _ & SL & SC).
    pose proof (C106_noise_curves en t f ST H) as (_ & NL & NC).
    apply fig_inv in H as (n & cs & zs & bs & ticks & N & S & Z & B & ->). cbn in *.
    assert (exists x, plot_bands en t = Ok x) as X by eauto. apply bands_ok_iff in X as (C & L & Q); auto.
    split; [congruence|]. split; auto. split; auto. split; auto. split.
    + intros m c I HN.
      assert (Im : In m (map fst (p_cols t))) by (apply in_map_iff; exists (m, c); auto).
      destruct HN as [HN|HN].
      * assert (J : In m (map v_label cs)) by (apply SL; auto). apply in_map_iff in J as (cv & <- & J).
        destruct (SC _ J) as (W & (h & Y)). split; [|eauto]. exists h, (v_y cv).
        pose proof (NoDup_In_dget _ String_eqb_spec _ _ _ ND I). pose proof (NoDup_In_dget _ String_eqb_spec _ _ _ ND Y). congruence.
      * assert (J : In m (map v_label zs)) by (apply NL; auto). apply in_map_iff in J as (cv & <- & J).
        destruct (NC _ J) as (W & Y). split; [|eauto].
        assert (exists h l, In (v_label cv, Numbers h l) (p_cols t)) as (h & l & Y').
        { destruct Y as [(h & Y & _)|(_ & l & s & Y & _)]; eauto. }
        exists h, l. pose proof (NoDup_In_dget _ String_eqb_spec _ _ _ ND I). pose proof (NoDup_In_dget _ String_eqb_spec _ _ _ ND Y'). congruence.
    + intros m l I HN T.
      assert (J : In m (map v_label zs)) by (apply NL; split; auto; apply in_map_iff; exists (m, Numbers false l); auto).
      apply in_map_iff in J as (cv & <- & J). destruct (NC _ J) as (_ & [(h & Y & [E| ->])|(_ & l' & s & _ & Y & _)]).
      * congruence.
      * pose proof (NoDup_In_dget _ String_eqb_spec _ _ _ ND I). pose proof (NoDup_In_dget _ String_eqb_spec _ _ _ ND Y). congruence.
      * eauto.
  - intros (N & C & L & Q & D & SS). destruct (p_name t) as [n|] eqn:PN; [|congruence].
    destruct (proj2 (bands_ok_iff en t EN ST)) as ([bs ticks] & B); [auto|].
    assert (DR : forall m, In m (map fst (p_cols t)) -> signal_name m \/ noise_name m ->
               (exists h l, sget m (p_cols t) = Some (Numbers h l)) /\ exists w, column t "Wavelength" = Ok w).
    { intros m I HN. apply in_map_iff in I as ((m' & c) & <- & I). cbn in *. destruct (D _ _ I HN) as ((h & l & ->) & W). split.
      - exists h, l. apply (NoDup_In_dget _ String_eqb_spec _ _ _ ND I).
      - apply column_dec; auto. }
    destruct (L_Outcome.mapM_all (signal_curve t) (filter is_signal (map fst (p_cols t)))) as (cs & S).
    { intros m I. apply (filter_names _ _ _ is_signal_iff) in I as [I HN]. destruct (DR m I (or_introl HN)) as ((h & l & G) & (w & W)).
      unfold signal_curve. rewrite W. unfold column. rewrite G. cbn. eauto. }
    destruct (L_Outcome.mapM_all (noise_curve t) (filter is_noise (map fst (p_cols t)))) as (zs & Z).
    { intros m I. apply (filter_names _ _ _ is_noise_iff) in I as [I HN]. destruct (DR m I (or_intror HN)) as ((h & l & G) & (w & W)).
      unfold noise_curve. rewrite W, G. destruct (String.eqb_spec m "total_noise") as [->|T]; cbn.
      - unfold column. rewrite G. cbn. eauto.
      - destruct h; cbn; [eauto|]. destruct (proj2 (column_dec t "star_signal_inAperture" ND)) as (s & E).
        { apply (SS m l); auto. eapply dget_Some_In; eauto. apply String_eqb_spec. }
        rewrite E. cbn. eauto. }
    unfold plot_table, plot_signal, plot_noise. rewrite PN, S, Z, B. cbn. eauto.
Qed.
Print Assumptions C106_drawn_exactly_if_complete.

(** The read noise of the example, 1 count in every row, is drawn relative to the star; the total
    noise as it is; the maximum in the pixel is not a curve. *)
Example C106_ex : exists f, plot_table here two_channels = Ok f /\
  map v_label (a_curves (g_signal f)) = ["star_signal_inAperture"] /\
  a_curves (g_noise f) = [{| v_label := "read_noise"; v_x := [Fin 1; Fin 2; Fin 3]; v_y := [xdiv (Fin 1) (Fin 10); xdiv (Fin 1) (Fin 20); xdiv (Fin 1) (Fin 40)] |};
                          {| v_label := "total_noise"; v_x := [Fin 1; Fin 2; Fin 3]; v_y := [Fin 2; Fin 2; Fin 2] |}]%R.
Proof.
  destruct (proj2 (C106_drawn_exactly_if_complete here two_channels here_enumerates two_channels_sound)) as (f & H).
  - split; [discriminate|]. split; [exists ["Phot"; "Spec"; "Spec"]; split; [now left|discriminate]|].
    split; [eexists _, _; cbn; eauto|]. split; [eexists _, _; cbn; eauto 6|]. split.
    + intros n c I [HN|HN]; (split; [|eexists _, _; cbn; eauto]);
        cbn in I; repeat (destruct I as [[= <- <-]|I]; [try eauto; exfalso|]); try tauto.
      * destruct HN as [HN _]. apply mentions_iff in HN. discriminate.
      * destruct HN as [HN|HN]; apply mentions_iff in HN; discriminate.
    + intros n l I _ T. eexists _, _. cbn. eauto 8.
  - exists f. split; auto. apply fig_inv in H as (n & cs & zs & bs & ticks & N & S & Z & B & ->). cbn in S, Z. injection S as <-. injection Z as <-.
    split; reflexivity.
Qed.
