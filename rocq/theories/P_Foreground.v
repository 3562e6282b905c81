(** Properties of foregrounds: C29, C31, C77, C78, C79, C80. *)
From Verif Require Import Base Dict XR M_Signal M_Optics M_Light M_Bins M_Source M_Foreground S_Signal S_Optics S_Light S_Bins S_Source S_Foreground L_Signal L_Optics L_Light L_Bins P_Windows P_Planck L_Source P_Source L_Foreground.
From Coq Require Import Permutation Sorted Psatz.
Open Scope list_scope.
Open Scope R_scope.

(** ** Generalities *)
Lemma many_iff m n a b l t t' : estimate_foregrounds m n a b (Many l) t = Ok t' <->
  exists cs, Forall2 (fun p c => contribution m n a b (g_ra t) (g_dec t) p = Ok c) l cs /\ absorb_all cs t = Ok t'.
Proof. apply estimate_all_iff. Qed.
Lemma transmissions_filters m n a b ra dec wl : working_grid n a b = Ok wl -> forall l cs, Forall2 (fun p c => contribution m n a b ra dec p = Ok c) l cs ->
  Forall2 (fun d tr => exists f, sky_filter wl d = Ok f /\ f_transmission f = Some tr) (filters l) (transmissions cs).
Proof.
  intros Hw. induction 1 as [|p c l cs H HF IH]; [constructor|]. unfold filters, transmissions in *. cbn [map concat filter].
  apply contribution_grid in H as (wl' & Hw' & _ & _ & H). assert (wl' = wl) as -> by congruence. destruct (zodiacal p); cbn [negb map app].
  - destruct H as [_ ->]. exact IH.
  - destruct H as [_ H]. destruct (filter_length _ _ _ _ _ _ Hw H) as (tr & E & _). rewrite E. cbn [app]. constructor; eauto.
Qed.
Lemma F2_nth {A} (P : R -> A -> Prop) l k : Forall2 P l k -> forall i (d : A), (i < length l)%nat -> P (at_ i l) (nth i k d).
Proof. induction 1; intros [|i] d Hi; cbn in *; try lia; auto. apply IHForall2. lia. Qed.
Lemma grid_exists m n a b ra dec l cs : Forall2 (fun p c => contribution m n a b ra dec p = Ok c) l cs -> l <> [] -> exists wl, working_grid n a b = Ok wl.
Proof. intros H Hn. destruct H as [|p c l cs H _]; [now destruct Hn|]. apply contribution_grid in H as (wl & Hw & _). eauto. Qed.
Lemma values_at wl i : forall ds trs, Forall distinct_wavelengths ds -> Forall2 (fun d tr => exists f, sky_filter wl d = Ok f /\ f_transmission f = Some tr) ds trs ->
  (i < length wl)%nat -> Forall2 (fun d v => transmission_at d (at_ i wl) v) ds (map (at_ i) trs).
Proof.
  intros ds trs Hd H Hi. induction H as [|d tr ds trs (f & Hf & Ht) _ IH]; cbn [map]; [constructor|]. inversion Hd; subst. constructor; [|now apply IH].
  destruct (filter_values _ _ _ Hf) as (tr' & E & HF & _); auto. assert (tr' = tr) as -> by congruence. unfold at_ at 2. now apply F2_nth.
Qed.

(** ** C29 *)
(** The sky transmission a target gets is the product of the transmissions of its sky filters, at
    every wavelength; without sky filters it gets none. *)
Theorem C29_product : forall m n a b l t t', g_sky t = None -> Forall distinct_wavelengths (filters l) ->
  estimate_foregrounds m n a b (Many l) t = Ok t' ->
  match filters l with
  | [] => g_sky t' = None
  | ds => exists s, g_sky t' = Some s /\ geometric_grid (microns a) (microns b) n (s_wl s) /\ length (s_data s) = n
          /\ forall i, (i < n)%nat -> exists trs, Forall2 (fun d v => transmission_at d (at_ i (s_wl s)) v) ds trs /\ at_ i (s_data s) = product trs
  end.
Proof.
  intros m n a b l t t' Hs Hd E. apply many_iff in E as (cs & HF & E). apply absorb_all_sky in E. rewrite Hs in E.
  destruct l as [|p l]; [inversion HF; subst; cbn in E; cbn; congruence|].
  destruct (grid_exists _ _ _ _ _ _ _ _ HF) as (wl & Hw); [discriminate|]. pose proof (transmissions_filters _ _ _ _ _ _ _ Hw _ _ HF) as HT. pose proof (contributions_grid _ _ _ _ _ _ _ _ _ Hw HF) as HG.
  destruct (dim_all_none wl cs HG) as [[H1 H2]|(H1 & s & H2 & H3 & H4 & H5)].
  - rewrite H1 in HT. inversion HT as [E0|]. rewrite H2 in E. congruence.
  - destruct (filters (p :: l)) as [|d ds]; [inversion HT; congruence|]. exists s. rewrite H2 in E. split; [congruence|]. rewrite H3, H4. split; [now apply grid_spec|]. split; [now apply grid_length in Hw|].
    intros i Hi. exists (map (at_ i) (transmissions cs)). split; [|apply H5]. apply values_at; auto. rewrite (grid_length _ _ _ _ Hw). auto.
Qed.
Print Assumptions C29_product.

(** The order of the foregrounds does not matter, whatever the target went through before. *)
Theorem C29_order : forall m n a b l l' t t1, Permutation l l' -> estimate_foregrounds m n a b (Many l) t = Ok t1 ->
  exists t2, estimate_foregrounds m n a b (Many l') t = Ok t2 /\ g_sky t2 = g_sky t1.
Proof.
  intros m n a b l l' t t1 HP E. apply many_iff in E as (cs & HF & E).
  assert (exists cs', Permutation cs cs' /\ Forall2 (fun p c => contribution m n a b (g_ra t) (g_dec t) p = Ok c) l' cs') as (cs' & HPc & HF').
  { clear E. revert cs HF. induction HP as [|x l l' HP IH|x y l|l l' l'' HP IH HP' IH']; intros cs HF.
    - exists cs. auto.
    - inversion HF as [|? c ? cs1 Hc HF1]; subst. destruct (IH _ HF1) as (cs' & HP1 & HF2). exists (c :: cs'). split; auto.
    - inversion HF as [|? c ? cs1 Hc HF1]; subst. inversion HF1 as [|? c' ? cs2 Hc' HF2]; subst. exists (c' :: c :: cs2). split; [apply perm_swap|]. auto.
    - destruct (IH _ HF) as (cs1 & HP1 & HF1). destruct (IH' _ HF1) as (cs2 & HP2 & HF2). exists cs2. split; auto. etransitivity; eauto. }
  destruct l as [|p l]; [apply Permutation_nil in HP as ->; inversion HF; subst; inversion HF'; subst; exists t1; split; auto; apply many_iff; exists []; auto|].
  destruct (grid_exists _ _ _ _ _ _ _ _ HF) as (wl & Hw); [discriminate|]. pose proof (contributions_grid _ _ _ _ _ _ _ _ _ Hw HF) as HG. pose proof (contributions_grid _ _ _ _ _ _ _ _ _ Hw HF') as HG'.
  pose proof (transmissions_perm _ _ HPc) as HPt. pose proof (absorb_all_sky _ _ _ E) as Es.
  assert (dim_all cs' (g_sky t) = Ok (g_sky t1)) as Es'.
  { destruct (g_sky t) as [s|] eqn:Et.
    - destruct (Nat.eq_dec (length (s_data s)) (length wl)) as [Hl|Hl].
      + destruct (dim_all_some wl cs HG s) as (s1 & E1 & W1 & L1 & V1); [auto|]. destruct (dim_all_some wl cs' HG' s) as (s2 & E2 & W2 & L2 & V2); [auto|].
        assert (s2 = s1) as ->; [|congruence]. destruct s1 as [w1 d1], s2 as [w2 d2]. cbn [s_wl s_data] in *. f_equal; [congruence|]. apply at_ext; [congruence|]. intros i _. rewrite V1, V2. f_equal. apply product_perm, Permutation_map. now symmetry.
      + destruct (transmissions cs) as [|tr trs] eqn:Etr.
        * apply Permutation_nil in HPt. destruct (dim_all_some wl cs HG s) as (s1 & E1 & W1 & L1 & V1); [auto|]. destruct (dim_all_some wl cs' HG' s) as (s2 & E2 & W2 & L2 & V2); [auto|].
          assert (s2 = s1) as ->; [|congruence]. destruct s1 as [w1 d1], s2 as [w2 d2]. cbn [s_wl s_data] in *. f_equal; [congruence|]. apply at_ext; [congruence|]. intros i _. rewrite V1, V2, Etr, HPt. reflexivity.
        * rewrite (dim_all_mismatch wl cs HG s) in Es; [discriminate|auto|congruence].
    - destruct (dim_all_none wl cs HG) as [[H1 H2]|(H1 & s1 & H2 & H3 & H4 & H5)]; destruct (dim_all_none wl cs' HG') as [[K1 K2]|(K1 & s2 & K2 & K3 & K4 & K5)].
      + congruence.
      + rewrite H1 in HPt. apply Permutation_nil in HPt. contradiction.
      + rewrite K1 in HPt. apply Permutation_sym, Permutation_nil in HPt. contradiction.
      + assert (s2 = s1) as ->; [|congruence]. destruct s1 as [w1 d1], s2 as [w2 d2]. cbn [s_wl s_data] in *. f_equal; [congruence|]. apply at_ext; [congruence|]. intros i _. rewrite H5, K5. apply product_perm, Permutation_map. now symmetry. }
  destruct (absorb_all_ok cs' t _ Es') as (t2 & E2). exists t2. split; [apply many_iff; eauto|]. apply absorb_all_sky in E2. congruence.
Qed.
Print Assumptions C29_order.

(** Zodiacal light does not dim anything; it needs no table. *)
Theorem C29_zodi_transparent : forall m n a b d t t', estimate_foregrounds m n a b (Many [("zodiacal"%string, d)]) t = Ok t' -> g_sky t' = g_sky t.
Proof.
  intros m n a b d t t' E. cbn in E. dbind E t1 H1. assert (t1 = t') as -> by congruence. clear E. unfold estimate_zodi in H1. dbind H1 wl Hw. dbind H1 co Hco. dbind H1 A HA.
  assert (t' = {| g_ra := g_ra t; g_dec := g_dec t; g_foreground := entry "zodi" {| f_light := zodi_model wl A; f_transmission := None |} t; g_sky := g_sky t |}) as -> by congruence. reflexivity.
Qed.
Print Assumptions C29_zodi_transparent.

(** ** C31 *)
(** Whatever sky transmission a target has is multiplied by its sky filters, index by index on their own
    grid; its wavelengths stay. *)
Theorem C31_accumulates : forall m n a b l t t' s, g_sky t = Some s -> Forall distinct_wavelengths (filters l) -> filters l <> [] ->
  estimate_foregrounds m n a b (Many l) t = Ok t' ->
  length (s_data s) = n /\ exists s', g_sky t' = Some s' /\ s_wl s' = s_wl s /\ length (s_data s') = n
  /\ exists wl, geometric_grid (microns a) (microns b) n wl
     /\ forall i, (i < n)%nat -> exists trs, Forall2 (fun d v => transmission_at d (at_ i wl) v) (filters l) trs /\ at_ i (s_data s') = at_ i (s_data s) * product trs.
Proof.
  intros m n a b l t t' s Hs Hd Hne E. apply many_iff in E as (cs & HF & E). apply absorb_all_sky in E. rewrite Hs in E.
  destruct (grid_exists _ _ _ _ _ _ _ _ HF) as (wl & Hw); [intros ->; now apply Hne|]. pose proof (transmissions_filters _ _ _ _ _ _ _ Hw _ _ HF) as HT. pose proof (contributions_grid _ _ _ _ _ _ _ _ _ Hw HF) as HG.
  assert (Htr : transmissions cs <> []) by (intros H0; rewrite H0 in HT; inversion HT; congruence). pose proof (grid_length _ _ _ _ Hw) as Hl.
  destruct (Nat.eq_dec (length (s_data s)) (length wl)) as [Hls|Hls]; [|rewrite (dim_all_mismatch wl cs HG s) in E; [discriminate|auto|auto]].
  split; [congruence|]. destruct (dim_all_some wl cs HG s) as (s' & E' & W & L & V); [auto|]. exists s'. split; [congruence|]. split; auto. split; [congruence|]. exists wl. split; [now apply grid_spec|].
  intros i Hi. exists (map (at_ i) (transmissions cs)). split; [|apply V]. apply values_at; auto. lia.
Qed.
Print Assumptions C31_accumulates.

(** After p + 1 estimates of the same foregrounds the sky transmission is the (p + 1)-th power of the one
    after the first, the foregrounds are those after the first, and no repetition fails. *)
Lemma entries_keys cs : forall d, NoDup (map fst d) -> exists d', entries cs (Some d) = Some d' /\ NoDup (map fst d') /\ forall k, In k (map fst d') <-> In k (map fst cs) \/ In k (map fst d).
Proof.
  induction cs as [|c cs IH]; intros d Hd; cbn [entries]; [exists d; cbn; tauto|].
  destruct (IH (sset (fst c) (snd c) d)) as (d' & E & Hn & Hk); [now apply (dset_NoDup _ String_eqb_spec)|]. exists d'. split; auto. split; auto. intros k. rewrite Hk, (dset_In_keys _ String_eqb_spec). cbn [map In]. split; intuition congruence.
Qed.
Lemma entries_present cs : forall d, incl (map fst cs) (map fst d) -> exists d', entries cs (Some d) = Some d' /\ map fst d' = map fst d.
Proof.
  induction cs as [|c cs IH]; intros d Hi; cbn [entries]; [eauto|]. assert (In (fst c) (map fst d)) as Hc by (apply Hi; now left).
  assert (E : map fst (sset (fst c) (snd c) d) = map fst d) by now apply (dset_keys_present _ String_eqb_spec). destruct (IH (sset (fst c) (snd c) d)) as (d' & E1 & E2).
  - rewrite E. intros k Hk. apply Hi. now right.
  - exists d'. split; auto. congruence.
Qed.
Lemma entries_get cs : forall d k d', entries cs (Some d) = Some d' -> sget k d' = match sget k (rev cs) with Some f => Some f | None => sget k d end.
Proof.
  induction cs as [|c cs IH]; intros d k d' E; cbn [entries rev] in *; [assert (d' = d) as -> by congruence; reflexivity|].
  rewrite (IH _ _ _ E), (dget_dset _ String_eqb_spec). destruct c as [kc fc]. cbn [fst snd] in *. clear.
  induction (rev cs) as [|[k' f'] r IHr]; cbn; [destruct (String.eqb k kc); auto|]. destruct (String.eqb k k'); auto.
Qed.
Lemma sget_In_key {V} k : forall (d : sdict V), sget k d <> None <-> In k (map fst d).
Proof.
  induction d as [|[k' v] d IH]; cbn; [split; [congruence|tauto]|]. destruct (String.eqb k k') eqn:E; [apply String.eqb_eq in E; subst; split; [auto|congruence]|]. apply String.eqb_neq in E. rewrite IH. intuition congruence.
Qed.
Lemma same_dict {V} (d d' : sdict V) : NoDup (map fst d) -> map fst d = map fst d' -> (forall k, sget k d = sget k d') -> d = d'.
Proof.
  revert d'. induction d as [|[k v] d IH]; intros [|[k' v'] d'] Hn Hk Hg; cbn in Hk; try discriminate; auto. cbn [map fst] in Hn. inversion Hn; subst.
  assert (k' = k) as -> by congruence. assert (v' = v) as -> by (specialize (Hg k); cbn in Hg; rewrite String.eqb_refl in Hg; congruence). f_equal. apply IH; auto; [congruence|].
  intros x. specialize (Hg x). cbn in Hg. destruct (String.eqb x k) eqn:E; auto. apply String.eqb_eq in E. subst.
  assert (~ In k (map fst d')) by (assert (map fst d = map fst d') as <- by congruence; auto).
  assert (forall e : sdict V, ~ In k (map fst e) -> sget k e = None) as Hno. { intros e He. destruct (sget k e) eqn:E; auto. exfalso. apply He, sget_In_key. congruence. } now rewrite !Hno.
Qed.
Lemma entries_twice cs d d1 : NoDup (map fst d) -> entries cs (Some d) = Some d1 -> entries cs (Some d1) = Some d1.
Proof.
  intros Hd E. destruct (entries_keys cs d Hd) as (d1' & E' & Hn & Hk). assert (d1' = d1) as -> by congruence. destruct (entries_present cs d1) as (d2 & E2 & K2); [intros k Hk1; apply Hk; auto|].
  rewrite E2. f_equal. symmetry. apply same_dict; auto. intros k. rewrite (entries_get _ _ k _ E2). rewrite (entries_get _ _ k _ E). destruct (sget k (rev cs)); auto.
Qed.
Definition sound (t : tgt) : Prop := forall d, g_foreground t = Some d -> NoDup (map fst d).
Theorem C31_power : forall m n a b l t t1 s1 p, sound t -> g_sky t = None -> filters l <> [] ->
  estimate_foregrounds m n a b (Many l) t = Ok t1 -> g_sky t1 = Some s1 ->
  (exists t', repeated (estimate_foregrounds m n a b (Many l)) (S p) t t')
  /\ forall t', repeated (estimate_foregrounds m n a b (Many l)) (S p) t t' ->
     g_foreground t' = g_foreground t1 /\ exists s', g_sky t' = Some s' /\ s_wl s' = s_wl s1 /\ length (s_data s') = length (s_data s1)
     /\ forall i, at_ i (s_data s') = at_ i (s_data s1) ^ (S p).
Proof.
  intros m n a b l t t1 s1 p Hsound Hs Hne E Hs1. apply many_iff in E as (cs & HF & E). set (step := estimate_foregrounds m n a b (Many l)).
  destruct (grid_exists _ _ _ _ _ _ _ _ HF) as (wl & Hw); [intros ->; now apply Hne|]. pose proof (transmissions_filters _ _ _ _ _ _ _ Hw _ _ HF) as HT. pose proof (contributions_grid _ _ _ _ _ _ _ _ _ Hw HF) as HG.
  assert (Hdet : forall u, g_ra u = g_ra t -> g_dec u = g_dec t -> step u = absorb_all cs u).
  { intros u Hra Hdec. unfold step. destruct (absorb_all cs u) as [u'|e] eqn:Eu.
    - apply many_iff. exists cs. rewrite Hra, Hdec. auto.
    - clear - HF Eu Hra Hdec. cbn [estimate_foregrounds]. rewrite <- Hra, <- Hdec in HF. clear Hra Hdec. revert u cs HF Eu. induction l as [|[k d] l IH]; intros u cs HF Eu; inversion HF as [|? c ? cs1 Hc HF1]; subst; cbn in Eu; [discriminate|].
      cbn [estimate_all]. rewrite estimate_one_split, Hc. cbn [bind]. destruct (absorb c u) as [u1|] eqn:E1; cbn [bind] in *; auto. destruct (absorb_coords _ _ _ E1) as [A B]. rewrite <- A, <- B in HF1. now apply (IH u1 cs1). }
  assert (Hstart : step t = Ok t1) by (rewrite Hdet; auto).
  destruct (absorb_all_coords _ _ _ E) as [Hra1 Hdec1]. pose proof (absorb_all_sky _ _ _ E) as Hsky. rewrite Hs, Hs1 in Hsky.
  destruct (dim_all_none wl cs HG) as [[K1 K2]|(K1 & s2 & K2 & K3 & K4 & K5)]; [congruence|]. assert (s2 = s1) as -> by congruence.
  assert (Hdict : exists d1, g_foreground t1 = Some d1 /\ entries cs (Some d1) = Some d1).
  { pose proof (absorb_all_entries _ _ _ E) as He. assert (Hcs : cs <> []) by (intros ->; now apply K1).
    assert (exists d, NoDup (map fst d) /\ entries cs (g_foreground t) = entries cs (Some d)) as (d & Hd & Hed).
    { destruct (g_foreground t) as [d|] eqn:Eg; [exists d; split; auto; now apply Hsound|]. exists []. split; [constructor|]. destruct cs; [contradiction|reflexivity]. }
    destruct (entries_keys cs d Hd) as (d1 & Ed1 & _ & _). exists d1. split; [congruence|]. now apply (entries_twice cs d). }
  destruct Hdict as (d1 & Hd1 & Hd1').
  assert (Hall : forall q, (exists t', repeated step (S q) t t') /\ forall t', repeated step (S q) t t' -> g_ra t' = g_ra t /\ g_dec t' = g_dec t
    /\ g_foreground t' = g_foreground t1 /\ exists s', g_sky t' = Some s' /\ s_wl s' = s_wl s1 /\ length (s_data s') = length (s_data s1) /\ forall i, at_ i (s_data s') = at_ i (s_data s1) ^ (S q)).
  { induction q as [|q [[u Hu] IH]].
    - split; [exists t1; econstructor; [constructor|auto]|]. intros t' H. inversion H as [|? ? u ? H0 H1]; subst. inversion H0; subst. assert (t' = t1) as -> by congruence. split; auto. split; auto. split; auto. exists s1. repeat split; auto. intros i. cbn. lra.
    - assert (Hnext : forall u, repeated step (S q) t u -> exists u', step u = Ok u' /\ g_ra u' = g_ra t /\ g_dec u' = g_dec t /\ g_foreground u' = g_foreground t1
        /\ exists s', g_sky u' = Some s' /\ s_wl s' = s_wl s1 /\ length (s_data s') = length (s_data s1) /\ forall i, at_ i (s_data s') = at_ i (s_data s1) ^ (S (S q))).
      { clear u Hu. intros u Hu. destruct (IH u Hu) as (Hra & Hdec & Hf & s' & Es' & Ew & El & Ev). rewrite Hdet by auto.
        destruct (dim_all_some wl cs HG s') as (s'' & E'' & W & L & V); [left; congruence|]. rewrite <- Es' in E''. destruct (absorb_all_ok _ _ _ E'') as (u' & Eu'). exists u'. split; auto.
        destruct (absorb_all_coords _ _ _ Eu') as [A B]. split; [congruence|]. split; [congruence|]. split; [rewrite (absorb_all_entries _ _ _ Eu'), Hf, Hd1; auto|].
        apply absorb_all_sky in Eu'. exists s''. split; [congruence|]. split; [congruence|]. split; [congruence|]. intros i. rewrite V, Ev, <- K5. change (at_ i (s_data s1) ^ S (S q)) with (at_ i (s_data s1) * at_ i (s_data s1) ^ S q). ring. }
      split; [destruct (Hnext u Hu) as (u' & Eu & _); exists u'; econstructor; eauto|]. intros t' H. inversion H as [|? ? v ? H0 H1]; subst. destruct (Hnext v H0) as (u' & Eu & H2). assert (u' = t') as -> by congruence. exact H2. }
  destruct (Hall p) as [H1 H2]. split; auto. intros t' H. specialize (H2 t' H). tauto.
Qed.
Print Assumptions C31_power.

(** With another number of wavelengths than before a repetition fails. *)
Lemma all_contribute m n a b l : forall t cs, Forall2 (fun p c => contribution m n a b (g_ra t) (g_dec t) p = Ok c) l cs -> estimate_foregrounds m n a b (Many l) t = absorb_all cs t.
Proof.
  cbn [estimate_foregrounds]. induction l as [|[k d] l IH]; intros u cs HF; inversion HF as [|? c ? cs1 Hc HF1]; subst; auto.
  cbn [estimate_all absorb_all]. rewrite estimate_one_split, Hc. cbn [bind]. destruct (absorb c u) as [u1|] eqn:E1; cbn [bind]; auto. destruct (absorb_coords _ _ _ E1) as [A B]. rewrite <- A, <- B in HF1. now apply IH.
Qed.
Theorem C31_other_length : forall m n a b l t t0 s, estimate_foregrounds m n a b (Many l) (fresh t) = Ok t0 -> filters l <> [] ->
  g_sky t = Some s -> length (s_data s) <> n -> estimate_foregrounds m n a b (Many l) t = Err ValueError.
Proof.
  intros m n a b l t t0 s E Hne Hs Hl. apply many_iff in E as (cs & HF & E). cbn [fresh g_ra g_dec] in HF. rewrite (all_contribute _ _ _ _ _ _ _ HF).
  destruct (grid_exists _ _ _ _ _ _ _ _ HF) as (wl & Hw); [intros ->; now apply Hne|]. pose proof (transmissions_filters _ _ _ _ _ _ _ Hw _ _ HF) as HT. pose proof (contributions_grid _ _ _ _ _ _ _ _ _ Hw HF) as HG.
  apply absorb_all_error. rewrite Hs. apply (dim_all_mismatch wl cs HG); [now rewrite (grid_length _ _ _ _ Hw)|]. intros H0. rewrite H0 in HT. inversion HT. congruence.
Qed.
Print Assumptions C31_other_length.

(** ** C78: sky filters *)
Lemma one_inv m n a b d t t' : estimate_foregrounds m n a b (One d) t = Ok t' -> k_value (as_sky d) <> Some "zodiacal"%string ->
  exists wl name f tr, working_grid n a b = Ok wl /\ k_value (as_sky d) = Some name /\ sky_filter wl (as_sky d) = Ok f /\ f_transmission f = Some tr
  /\ g_foreground t' = entry name f t.
Proof.
  intros E Hv. cbn [estimate_foregrounds] in E. dbind E v Hl. unfold lookup in Hl. destruct (k_value (as_sky d)) as [name|] eqn:Ek; [|discriminate]. assert (v = name) as -> by congruence.
  rewrite estimate_one_split in E. dbind E c Hc. pose proof Hc as Hc'. apply contribution_grid in Hc as (wl & Hw & _ & _ & H). unfold zodiacal in H. cbn [fst snd] in H.
  destruct (String.eqb_spec name "zodiacal") as [->|_]; [congruence|]. destruct H as [H1 H2]. destruct (filter_length _ _ _ _ _ _ Hw H2) as (tr & Htr & _).
  exists wl, name, (snd c), tr. split; auto. split; auto. split; auto. split; auto. unfold absorb in E. dbind E s Hs. assert (fst c = name) as Hn by congruence. rewrite Hn in E.
  assert (t' = {| g_ra := g_ra t; g_dec := g_dec t; g_foreground := entry name (snd c) t; g_sky := s |}) as -> by congruence. reflexivity.
Qed.
(** A sky filter is sampled on n wavelengths from wl_min to wl_max, in um whatever the unit; its radiance
    and transmission lie on the straight lines through the table; outside the table it neither
    emits nor absorbs. *)
Theorem C78_sky_filter : forall m n a b d t t' name, k_value (as_sky d) = Some name -> name <> "zodiacal"%string -> distinct_wavelengths (as_sky d) ->
  estimate_foregrounds m n a b (One d) t = Ok t' ->
  exists fs f tr, g_foreground t' = Some fs /\ sget name fs = Some f /\ geometric_grid (microns a) (microns b) n (s_wl (f_light f))
  /\ Forall2 (radiance_at (as_sky d)) (s_wl (f_light f)) (s_data (f_light f))
  /\ f_transmission f = Some tr /\ Forall2 (transmission_at (as_sky d)) (s_wl (f_light f)) tr.
Proof.
  intros m n a b d t t' name Hk Hz Hd E. destruct (one_inv _ _ _ _ _ _ _ E) as (wl & name' & f & tr & Hw & Hk' & Hf & Htr & Hg); [congruence|]. assert (name' = name) as -> by congruence.
  unfold entry in Hg. eexists _, f, tr. split; [exact Hg|]. split; [apply (dget_dset_same _ String_eqb_spec)|].
  destruct (filter_length _ _ _ _ _ _ Hw Hf) as (_ & _ & _ & Hwl & _). rewrite Hwl. split; [now apply grid_spec|]. destruct (filter_values _ _ _ Hf Hd) as (tr' & E' & H1 & H2). assert (tr' = tr) as -> by congruence. auto.
Qed.
Print Assumptions C78_sky_filter.

(** What the numbers of the table bound, bounds what is read from it. *)
Lemma curve_or_bounds fill tab w v lo hi : lo <= fill <= hi -> curve_or fill tab w v -> (forall p, In p tab -> lo <= snd p <= hi) -> lo <= v <= hi.
Proof. intros Hf [H|[_ ->]] Hb; auto. eapply read_at_bounds; eauto. Qed.
Lemma column_says_bounds fill name d w v lo hi t c : column_says fill name d w v -> k_data d = Some t -> sget name t = Some c -> lo <= fill <= hi -> (forall x, In x (c_values c) -> lo <= x <= hi) -> lo <= v <= hi.
Proof.
  intros (t' & tab & tab' & Ht & (wc & u & c' & H1 & H2 & H3 & H4 & ->) & HP & Hi & Hc) Ht' Hc' Hf Hb. assert (t' = t) as -> by congruence. assert (c' = c) as -> by congruence.
  apply (curve_or_bounds fill tab' w v lo hi); auto. intros p Hp. apply Hb. apply Permutation_sym in HP. apply (Permutation_in _ HP) in Hp. now apply in_combine_snd in Hp.
Qed.
Theorem C78_bounds : forall d w v t c, k_data d = Some t ->
  (transmission_at d w v -> sget "Transmission" t = Some c -> (forall x, In x (c_values c) -> 0 <= x <= 1) -> 0 <= v <= 1)
  /\ (radiance_at d w v -> sget "Radiance" t = Some c -> (forall x, In x (c_values c) -> 0 <= x) -> (forall u, c_unit c = Some u -> 0 < u) -> 0 <= v).
Proof.
  intros d w v t c Ht. split.
  - intros H Hc Hb. apply (column_says_bounds _ _ _ _ _ 0 1 _ _ H Ht Hc); auto. lra.
  - intros (t' & c' & u & x & Ht' & Hc' & Hu & H & ->) Hc Hb Hpos. assert (t' = t) as -> by congruence. assert (c' = c) as -> by congruence.
    apply Rmult_le_pos; [|left; auto]. destruct (c_values c) as [|x0 xs] eqn:Ex.
    + destruct H as (t' & tab & tab' & Ht'' & (wc & uw & c' & H1 & H2 & H3 & H4 & ->) & HP & Hi & Hcv). assert (t' = t) as -> by congruence. assert (c' = c) as -> by congruence.
      rewrite Ex in HP. destruct (map _ _) in HP; cbn in HP; apply Permutation_nil in HP; subst; destruct Hcv as [[(p & q & Hn & _)|(p & [] & _)]|[_ ->]]; try lra; now apply neighbours_nil in Hn.
    + destruct (column_says_bounds _ _ _ _ _ 0 (rmax x0 xs) _ _ H Ht Hc) as [H0 _]; auto; rewrite ?Ex.
      * destruct (rmax_spec xs x0) as [_ Hm]. assert (0 <= x0) by (apply Hb; now left). specialize (Hm x0 (or_introl eq_refl)). lra.
      * intros y Hy. split; auto. now apply rmax_spec.
Qed.
Print Assumptions C78_bounds.

(** A complete table is all it takes. *)
Definition complete (d : sky_descr) : Prop := exists name t w uw r ur tr, k_value d = Some name /\ k_data d = Some t
  /\ sget "Wavelength" t = Some w /\ c_unit w = Some uw /\ sget "Radiance" t = Some r /\ c_unit r = Some ur /\ sget "Transmission" t = Some tr
  /\ c_values w <> [] /\ length (c_values r) = length (c_values w) /\ length (c_values tr) = length (c_values w).
Lemma complete_filter wl d : complete d -> exists f, sky_filter wl d = Ok f.
Proof.
  intros (name & t & w & uw & r & ur & tr & Hn & Ht & Hw & Huw & Hr & Hur & Htr & Hne & Hl1 & Hl2).
  unfold sky_filter. rewrite Ht. cbn [lookup bind]. rewrite Hw. cbn [lookup bind]. unfold to_um. rewrite Huw. cbn [bind]. rewrite Hr. cbn [lookup bind].
  assert (Hi : forall fill y, length y = length (c_values w) -> exists v, interp1d_or fill (map (fun x => x * uw) (c_values w)) y wl = Ok v).
  { intros fill y Hy. unfold interp1d_or. destruct (map _ (c_values w)) eqn:Em; [now apply map_eq_nil in Em|]. rewrite <- Em, map_length, Hy, Nat.eqb_refl. eauto. }
  destruct (Hi 0 _ Hl1) as (y & Hy). rewrite Hy. cbn [bind]. rewrite Hur. cbn [bind]. rewrite Htr. cbn [lookup bind]. destruct (Hi 1 _ Hl2) as (z & Hz). rewrite Hz. cbn [bind]. eauto.
Qed.
Theorem C78_complete_tables_suffice : forall m n a b l t, in_um a <> None -> in_um b <> None -> g_sky t = None ->
  (forall p, In p l -> zodiacal p = false /\ complete (as_sky (snd p))) -> exists t', estimate_foregrounds m n a b (Many l) t = Ok t'.
Proof.
  intros m n a b l t Ha Hb Hs Hl. assert (exists wl, working_grid n a b = Ok wl) as (wl & Hw) by (unfold working_grid; destruct (in_um a), (in_um b); try contradiction; eauto).
  assert (exists cs, Forall2 (fun p c => contribution m n a b (g_ra t) (g_dec t) p = Ok c) l cs) as (cs & HF).
  { clear Hs. induction l as [|p l IH]; [exists []; constructor|]. destruct IH as (cs & HF); [intros q Hq; apply Hl; now right|]. destruct (Hl p) as [Hz Hc]; [now left|].
    destruct (complete_filter wl _ Hc) as (f & Hf). destruct Hc as (name & _ & _ & _ & _ & _ & _ & Hn & _). destruct (filter_length _ _ _ _ _ _ Hw Hf) as (tr & Htr & _).
    exists ((name, f) :: cs). constructor; auto. unfold contribution. unfold zodiacal in Hz. rewrite Hz, Hw. cbn [bind]. rewrite Hn. cbn [lookup bind]. rewrite Hf. cbn [bind]. rewrite Htr. reflexivity. }
  rewrite (all_contribute _ _ _ _ _ _ _ HF). pose proof (contributions_grid _ _ _ _ _ _ _ _ _ Hw HF) as HG.
  destruct (dim_all_none wl cs HG) as [[_ K]|(_ & s & K & _)]; rewrite <- Hs in K; apply absorb_all_ok in K; auto.
Qed.
Print Assumptions C78_complete_tables_suffice.

(** The units of the table and the order of its rows do not matter. *)
Definition table_from (uw ur : R) (rows : list (R * R * R)) : sky_table :=
  [("Wavelength"%string, {| c_values := map (fun r => fst (fst r)) rows; c_unit := Some uw |});
   ("Radiance"%string, {| c_values := map (fun r => snd (fst r)) rows; c_unit := Some ur |});
   ("Transmission"%string, {| c_values := map snd rows; c_unit := None |})].
Definition described (name : string) (t : sky_table) (z : zodi_descr) : any_descr := {| as_sky := {| k_value := Some name; k_data := Some t |}; as_zodi := z |}.
Lemma increasing_perm_unique (l : list (R * R)) : forall l', increasing (wls l) -> increasing (wls l') -> Permutation l l' -> l = l'.
Proof.
  induction l as [|p l IH]; intros l' Hi Hi' HP; [now apply Permutation_nil in HP|]. destruct l' as [|q l']; [apply Permutation_sym, Permutation_nil in HP; discriminate|].
  apply StronglySorted_inv in Hi as [Hs Hf]. apply StronglySorted_inv in Hi' as [Hs' Hf']. rewrite Forall_forall in Hf, Hf'.
  assert (p = q) as ->.
  { assert (Hp : In p (q :: l')) by (apply (Permutation_in _ HP); now left). assert (Hq : In q (p :: l)) by (apply (Permutation_in _ (Permutation_sym HP)); now left).
    destruct Hp as [|Hp]; auto. destruct Hq as [|Hq]; auto. assert (fst p < fst q) by (apply Hf; now apply in_map). assert (fst q < fst p) by (apply Hf'; now apply in_map). lra. }
  f_equal. apply IH; auto. now apply Permutation_cons_inv in HP.
Qed.
Lemma combine_map2 {A} (f g : A -> R) l : combine (map f l) (map g l) = map (fun x => (f x, g x)) l.
Proof. induction l; cbn; congruence. Qed.
Theorem C78_rows_in_any_order : forall m n a b key name z uw ur rows rows' t, Permutation rows rows' -> NoDup (map (fun r => fst (fst r) * uw) rows) ->
  estimate_foregrounds m n a b (Many [(key, described name (table_from uw ur rows) z)]) t = estimate_foregrounds m n a b (Many [(key, described name (table_from uw ur rows') z)]) t.
Proof.
  intros m n a b key name z uw ur rows rows' t HP Hn. cbn [estimate_foregrounds estimate_all]. unfold estimate_one. destruct (String.eqb key "zodiacal"); [reflexivity|].
  assert (E : forall wl, sky_filter wl (as_sky (described name (table_from uw ur rows) z)) = sky_filter wl (as_sky (described name (table_from uw ur rows') z))).
  { intros wl. unfold sky_filter, described, table_from, lookup, to_um. cbn [as_sky k_data sget dget String.eqb Ascii.eqb Bool.eqb c_unit c_values]. cbn.
    rewrite !map_map. assert (Hi : forall fill (g : R * R * R -> R), interp1d_or fill (map (fun r => fst (fst r) * uw) rows) (map g rows) wl = interp1d_or fill (map (fun r => fst (fst r) * uw) rows') (map g rows') wl).
    { intros fill g. unfold interp1d_or. destruct rows as [|r0 rows]; [apply Permutation_nil in HP; subst; reflexivity|]. destruct rows' as [|r1 rows']; [apply Permutation_sym, Permutation_nil in HP; discriminate|].
      cbn [map]. rewrite <- !(map_cons g), <- !(map_cons (fun r => fst (fst r) * uw)). rewrite !map_length, !Nat.eqb_refl.
      replace (sort_src (combine (map (fun r => fst (fst r) * uw) (r0 :: rows)) (map g (r0 :: rows)))) with (sort_src (combine (map (fun r => fst (fst r) * uw) (r1 :: rows')) (map g (r1 :: rows')))); auto.
      destruct (sorted_rows (map (fun r => fst (fst r) * uw) (r0 :: rows)) (map g (r0 :: rows))) as (t1 & E1 & P1 & I1); [now rewrite !map_length|auto|].
      destruct (sorted_rows (map (fun r => fst (fst r) * uw) (r1 :: rows')) (map g (r1 :: rows'))) as (t2 & E2 & P2 & I2); [now rewrite !map_length|apply (Permutation_NoDup (Permutation_map _ HP)); auto|].
      rewrite <- E1, <- E2. apply increasing_perm_unique; auto. rewrite combine_map2 in P1, P2. rewrite <- P1, <- P2. now apply Permutation_map, Permutation_sym. }
    rewrite !Hi. reflexivity. }
  unfold estimate_foreground. destruct (working_grid n a b); cbn [bind]; auto. rewrite E. reflexivity.
Qed.
Print Assumptions C78_rows_in_any_order.
Theorem C78_units : forall m n a b key name z uw ur rows kw kr t, 0 < kw -> 0 < kr ->
  estimate_foregrounds m n a b (Many [(key, described name (table_from (uw / kw) (ur / kr) (map (fun r => (fst (fst r) * kw, snd (fst r) * kr, snd r)) rows)) z)]) t
  = estimate_foregrounds m n a b (Many [(key, described name (table_from uw ur rows) z)]) t.
Proof.
  intros m n a b key name z uw ur rows kw kr t Hkw Hkr. cbn [estimate_foregrounds estimate_all]. unfold estimate_one. destruct (String.eqb key "zodiacal"); [reflexivity|].
  assert (E : forall wl, sky_filter wl (as_sky (described name (table_from (uw / kw) (ur / kr) (map (fun r => (fst (fst r) * kw, snd (fst r) * kr, snd r)) rows)) z)) = sky_filter wl (as_sky (described name (table_from uw ur rows) z))).
  { intros wl. unfold sky_filter, described, table_from, lookup, to_um. cbn. rewrite !map_map. cbn [fst snd].
    assert (Ew : map (fun r : R * R * R => fst (fst r) * kw * (uw / kw)) rows = map (fun r => fst (fst r) * uw) rows) by (apply map_ext; intros; field; lra). rewrite Ew.
    unfold interp1d_or at 1 3. destruct (map (fun r => fst (fst r) * uw) rows) as [|x0 xs] eqn:Ex; auto. rewrite !map_length. destruct (Nat.eqb _ _); auto. cbn [bind].
    assert (Es : forall l, map (fun v => v * (ur / kr)) (map (interp_or 0 (sort_src (combine (x0 :: xs) (map (fun r : R * R * R => snd (fst r) * kr) rows)))) l) = map (fun v => v * ur) (map (interp_or 0 (sort_src (combine (x0 :: xs) (map (fun r => snd (fst r)) rows)))) l)).
    { intros l. rewrite !map_map. apply map_ext. intros w. rewrite <- Ex, !combine_map2.
      assert (Esort : forall l : list (R * R * R), sort_src (map (fun r => (fst (fst r) * uw, snd (fst r) * kr)) l) = map (fun p : R * R => (fst p, snd p * kr)) (sort_src (map (fun r => (fst (fst r) * uw, snd (fst r))) l))).
      { assert (Hins : forall p (l : list (R * R)), insert (fst p, snd p * kr) (map (fun p => (fst p, snd p * kr)) l) = map (fun p => (fst p, snd p * kr)) (insert p l)).
        { intros p q. induction q as [|y q IH]; cbn [map insert fst]; auto. destruct (Rltb _ _); cbn [map]; auto. now rewrite IH. }
        induction l0 as [|r0 l0 IH]; auto. cbn [map sort_src fold_right]. unfold sort_src in *. cbn [map fold_right]. rewrite IH. apply (Hins (fst (fst r0) * uw, snd (fst r0))). }
      rewrite Esort. unfold interp_or. rewrite (P_Source.locate_map (fun v => v * kr)). destruct (locate w _) as [[p [q|]]|]; cbn [fst snd]; [unfold Rdiv; generalize (/ (fst q - fst p)); intros; field; lra|destruct (Rltb _ _); field; lra|field; lra]. }
    rewrite Es. reflexivity. }
  unfold estimate_foreground. destruct (working_grid n a b); cbn [bind]; auto. rewrite E. reflexivity.
Qed.
Print Assumptions C78_units.

Theorem C78_failures : forall m n a b key d t, key <> "zodiacal"%string -> in_um a <> None -> in_um b <> None ->
  let run := estimate_foregrounds m n a b (Many [(key, d)]) t in
  let table (P : sky_table -> Prop) := forall tab, k_data (as_sky d) = Some tab -> P tab in
  (k_value (as_sky d) = None -> run = Err KeyError)
  /\ forall name, k_value (as_sky d) = Some name ->
     (k_data (as_sky d) = None -> run = Err KeyError)
     /\ table (fun tab =>
        (sget "Wavelength" tab = None -> run = Err KeyError)
        /\ forall w, sget "Wavelength" tab = Some w ->
           (c_unit w = None -> run = Err UnitConversionError)
           /\ (c_unit w <> None ->
              (sget "Radiance" tab = None -> run = Err KeyError)
              /\ (c_values w = [] -> forall r, sget "Radiance" tab = Some r -> run = Err ValueError)
              /\ forall r, sget "Radiance" tab = Some r -> c_values w <> [] -> length (c_values r) = length (c_values w) ->
                 (c_unit r = None -> run = Err TypeError)
                 /\ (c_unit r <> None -> sget "Transmission" tab = None -> run = Err KeyError))).
Proof.
  intros m n a b key d t Hk Ha Hb run table.
  assert (exists wl, working_grid n a b = Ok wl) as (wl & Hw) by (unfold working_grid; destruct (in_um a), (in_um b); try contradiction; eauto).
  assert (Hrun : forall e, (let* nm := lookup (k_value (as_sky d)) in sky_filter wl (as_sky d)) = Err e -> run = Err e).
  { intros e H. unfold run. cbn [estimate_foregrounds estimate_all]. unfold estimate_one. destruct (String.eqb_spec key "zodiacal"); [contradiction|]. unfold estimate_foreground. rewrite Hw. cbn [bind].
    destruct (lookup (k_value (as_sky d))); cbn [bind] in *; [|congruence]. rewrite H. reflexivity. }
  unfold sky_filter in Hrun. split.
  - intros E. apply Hrun. rewrite E. reflexivity.
  - intros name E. rewrite E in Hrun. cbn [lookup bind] in Hrun. split; [intros E0; apply Hrun; rewrite E0; reflexivity|]. intros tab Et. rewrite Et in Hrun. cbn [lookup bind] in Hrun.
    split; [intros E0; apply Hrun; rewrite E0; reflexivity|]. intros w Ew. rewrite Ew in Hrun. cbn [lookup bind] in Hrun. unfold to_um in Hrun. split; [intros E0; apply Hrun; rewrite E0; reflexivity|].
    intros Hu. destruct (c_unit w) as [u|]; [|contradiction]. cbn [bind] in Hrun. split; [intros E0; apply Hrun; rewrite E0; reflexivity|]. split; [intros E0 r Er; apply Hrun; rewrite Er; cbn [lookup bind]; rewrite E0; reflexivity|].
    intros r Er Hne Hlen. rewrite Er in Hrun. cbn [lookup bind] in Hrun. unfold interp1d_or at 1 in Hrun. destruct (map (fun x => x * u) (c_values w)) as [|x0 xs] eqn:Ex; [now apply map_eq_nil in Ex|].
    rewrite <- Ex, map_length, Hlen, Nat.eqb_refl in Hrun. cbn [bind] in Hrun. split; [intros E0; apply Hrun; rewrite E0; reflexivity|]. intros Hur E0. apply Hrun. destruct (c_unit r); [|contradiction]. cbn [bind]. rewrite E0. reflexivity.
Qed.
Print Assumptions C78_failures.
(** Bare numbers are refused as wavelengths, though LoadSource accepts them. *)
Theorem C78_bare_range : forall m n a b f t, in_um a = None \/ in_um b = None -> (forall l, f = Many l -> l <> []) -> (forall d, f = One d -> k_value (as_sky d) <> None) ->
  estimate_foregrounds m n a b f t = Err AttributeError.
Proof.
  intros m n a b f t Hab Hm Ho. assert (Hw : working_grid n a b = Err AttributeError) by (unfold working_grid; destruct (in_um a), (in_um b); auto; destruct Hab; discriminate).
  assert (Hone : forall k d, estimate_one m n a b k d t = Err AttributeError) by (intros k d; unfold estimate_one, estimate_zodi, estimate_foreground; rewrite Hw; destruct (String.eqb k "zodiacal"); reflexivity).
  destruct f as [[|[k d] l]|d]; cbn [estimate_foregrounds estimate_all]; [now destruct (Hm [])|rewrite Hone; reflexivity|].
  destruct (k_value (as_sky d)) eqn:E; [|now destruct (Ho d)]. cbn [lookup bind]. apply Hone.
Qed.
Print Assumptions C78_bare_range.

(** ** C77: zodiacal light *)
Lemma thermal_planck w T : planck w T = thermal w T.
Proof. unfold planck, thermal, Rdiv. rewrite (Rinv_mult (w ^ 5)). ring. Qed.
Lemma zodi_inv m n a b d t t' : estimate_foregrounds m n a b (Many [("zodiacal"%string, d)]) t = Ok t' ->
  exists wl co A, working_grid n a b = Ok wl /\ zodi_factor m (as_zodi d) co = Ok A
  /\ match g_ra t with Some ra => exists dec, g_dec t = Some dec /\ co = Some (ra, dec) | None => co = None end
  /\ t' = {| g_ra := g_ra t; g_dec := g_dec t; g_foreground := entry "zodi" {| f_light := zodi_model wl A; f_transmission := None |} t; g_sky := g_sky t |}.
Proof.
  intros E. cbn in E. dbind E t1 H1. assert (t1 = t') as -> by congruence. clear E. unfold estimate_zodi in H1. dbind H1 wl Hw. dbind H1 co Hco. dbind H1 A HA. exists wl, co, A. split; auto. split; auto.
  split; [|congruence]. destruct (g_ra t); [destruct (g_dec t)|]; try congruence; eauto. eexists. split; eauto. congruence.
Qed.
Lemma zodi_values wl A n : length wl = n -> s_wl (zodi_model wl A) = wl /\ length (s_data (zodi_model wl A)) = n /\ forall i, (i < n)%nat -> at_ i (s_data (zodi_model wl A)) = zodiacal_light A (at_ i wl).
Proof.
  intros Hl. unfold zodi_model. cbn [s_wl s_data]. rewrite map_length. split; auto. split; auto. intros i Hi. rewrite at_map by lia. unfold zodiacal_light. now rewrite !thermal_planck.
Qed.
(** The zodiacal light is stored as "zodi": two black bodies scaled by the factor of the description, or
    by the coefficient of the first nearest point of the map if a map is to be used and the
    star has coordinates; without either it is dark. *)
Theorem C77_amount : forall m n a b d t t', estimate_foregrounds m n a b (Many [("zodiacal"%string, d)]) t = Ok t' ->
  exists fs f A, g_foreground t' = Some fs /\ sget "zodi" fs = Some f /\ f_transmission f = None
  /\ geometric_grid (microns a) (microns b) n (s_wl (f_light f)) /\ length (s_data (f_light f)) = n
  /\ (forall i, (i < n)%nat -> at_ i (s_data (f_light f)) = zodiacal_light A (at_ i (s_wl (f_light f))))
  /\ (z_map (as_zodi d) <> Some true \/ g_ra t = None -> A = match z_factor (as_zodi d) with Some v => v | None => 0 end)
  /\ (forall ra dec tab rows, z_map (as_zodi d) = Some true -> g_ra t = Some (Degrees ra) -> g_dec t = Some (Degrees dec) ->
      m_read m (map_file m (z_map_file (as_zodi d))) = Ok tab -> zodiacal_map tab rows -> exists r, first_nearest ra dec rows r /\ A = snd r).
Proof.
  intros m n a b d t t' E. destruct (zodi_inv _ _ _ _ _ _ _ E) as (wl & co & A & Hw & HA & Hco & ->). cbn [g_foreground]. unfold entry. eexists _, _, A. split; [reflexivity|]. split; [apply (dget_dset_same _ String_eqb_spec)|].
  cbn [f_light f_transmission]. split; auto. destruct (zodi_values wl A n (grid_length _ _ _ _ Hw)) as (Ew & El & Ev). rewrite Ew. split; [now apply grid_spec|]. split; auto. split; auto. split.
  - intros H. unfold zodi_factor in HA. destruct (z_map (as_zodi d)) as [[|]|]; [destruct co as [[]|]|..]; try (destruct (z_factor (as_zodi d)); congruence).
    destruct H as [H|H]; [congruence|]. rewrite H in Hco. discriminate.
  - intros ra dec tab rows Hm Hra Hdec Hr (M1 & M2 & M3). rewrite Hra in Hco. destruct Hco as (dec' & Hdec' & ->). assert (dec' = Degrees dec) as -> by congruence.
    unfold zodi_factor in HA. rewrite Hm in HA. destruct (fit_direction m (Degrees ra) (Degrees dec) (z_map_file (as_zodi d))) as [A'|[]] eqn:Ef; try discriminate. assert (A' = A) as -> by congruence.
    unfold fit_direction in Ef. rewrite Hr in Ef. cbn [bind] in Ef. unfold col in Ef. rewrite M1, M2, M3 in Ef. cbn [bind degrees] in Ef. dbind Ef i Hi.
    assert (Hd : sq_distances ra dec (map (fun r => fst (fst r)) rows) (map (fun r => snd (fst r)) rows) = map (apart ra dec) rows). { clear. induction rows; cbn; [auto|]. rewrite IHrows. reflexivity. }
    rewrite Hd in Hi. pose proof (argmin_spec (map (apart ra dec) rows)) as Hs. rewrite Hi in Hs. destruct Hs as [Hlt Hs]. rewrite map_length in Hlt, Hs.
    rewrite nth_error_map in Ef. destruct (nth_error rows i) as [r|] eqn:Er; [|discriminate]. cbn [option_map] in Ef. exists r. split; [|congruence].
    destruct (nth_error_split _ _ Er) as (l1 & l2 & -> & Hl1). exists l1, l2. split; auto.
    assert (Hat : forall j q, nth_error (l1 ++ r :: l2) j = Some q -> at_ j (map (apart ra dec) (l1 ++ r :: l2)) = apart ra dec q).
    { intros j q Hq. unfold at_. apply nth_error_nth. rewrite nth_error_map, Hq. reflexivity. }
    split; intros q Hq.
    + apply In_nth_error in Hq as (j & Hj). assert (j < length l1)%nat by (apply nth_error_Some; congruence). assert (Hj' : nth_error (l1 ++ r :: l2) j = Some q) by (rewrite nth_error_app1; auto).
      rewrite <- (Hat i r Er), <- (Hat j q Hj'). apply Hs; [rewrite app_length; cbn; lia|lia].
    + apply In_nth_error in Hq as (j & Hj). assert (j < length l2)%nat by (apply nth_error_Some; congruence).
      assert (Hj' : nth_error (l1 ++ r :: l2) (length l1 + S j) = Some q). { rewrite nth_error_app2 by lia. replace (length l1 + S j - length l1)%nat with (S j) by lia. exact Hj. }
      rewrite <- (Hat i r Er), <- (Hat _ q Hj'). apply Hs. rewrite app_length. cbn. lia.
Qed.
Print Assumptions C77_amount.

(** Its light grows in proportion to the factor, and is positive for positive factors. *)
Definition stored_zodi (t : tgt) (s : sig) : Prop := exists fs f, g_foreground t = Some fs /\ sget "zodi" fs = Some f /\ s = f_light f.
Definition by_factor (v : R) : any_descr := {| as_sky := {| k_value := Some "zodiacal"%string; k_data := None |}; as_zodi := {| z_map := None; z_map_file := None; z_factor := Some v |} |}.
Lemma by_factor_light m n a b v t t' s : estimate_foregrounds m n a b (One (by_factor v)) t = Ok t' -> stored_zodi t' s ->
  geometric_grid (microns a) (microns b) n (s_wl s) /\ length (s_data s) = n /\ forall i, (i < n)%nat -> at_ i (s_data s) = zodiacal_light v (at_ i (s_wl s)).
Proof.
  intros E (fs & f & Hfs & Hf & ->). assert (E' : estimate_foregrounds m n a b (Many [("zodiacal"%string, by_factor v)]) t = Ok t'). { cbn in E |- *. rewrite E. reflexivity. }
  apply C77_amount in E' as (fs' & f' & A & H1 & H2 & _ & H3 & H4 & H5 & H6 & _). assert (f' = f) as -> by congruence. assert (A = v) as -> by (apply H6; left; cbn [by_factor as_zodi z_map]; congruence). auto.
Qed.
Theorem C77_proportional : forall m n a b v k t t1 t2 s1 s2, estimate_foregrounds m n a b (One (by_factor v)) t = Ok t1 -> estimate_foregrounds m n a b (One (by_factor (k * v))) t = Ok t2 ->
  stored_zodi t1 s1 -> stored_zodi t2 s2 -> times_k k s1 s2.
Proof.
  intros m n a b v k t t1 t2 s1 s2 E1 E2 H1 H2. destruct (by_factor_light _ _ _ _ _ _ _ _ E1 H1) as ([L1 G1] & D1 & V1). destruct (by_factor_light _ _ _ _ _ _ _ _ E2 H2) as ([L2 G2] & D2 & V2).
  assert (Ew : s_wl s2 = s_wl s1) by (apply at_ext; [congruence|]; intros i Hi; rewrite G1, G2; auto; lia). split; auto. split; [congruence|]. intros i. destruct (Nat.lt_ge_cases i n) as [Hi|Hi].
  - rewrite V1, V2, Ew by auto. unfold zodiacal_light. ring.
  - unfold at_. rewrite !nth_overflow by lia. ring.
Qed.
Print Assumptions C77_proportional.
Theorem C77_positive : forall m n a b v t t' s i, 0 < v -> 0 < microns a -> estimate_foregrounds m n a b (One (by_factor v)) t = Ok t' -> stored_zodi t' s -> (i < n)%nat -> 0 < at_ i (s_data s).
Proof.
  intros m n a b v t t' s i Hv Ha E H Hi. destruct (by_factor_light _ _ _ _ _ _ _ _ E H) as ([_ G] & _ & V). rewrite V by auto. set (w := at_ i (s_wl s)) in *.
  assert (Hw : 0 < w). { unfold w. rewrite G by auto. apply Rmult_lt_0_compat; auto. unfold Rpower. apply exp_pos. } clearbody w.
  unfold zodiacal_light. rewrite <- !thermal_planck. destruct (C53_positive_and_increasing w 5500) as [H1 _]; [lra|lra|]. destruct (C53_positive_and_increasing w 270) as [H2 _]; [lra|lra|].
  apply Rmult_lt_0_compat; auto. apply Rplus_lt_0_compat; apply Rmult_lt_0_compat; auto; apply Rmult_lt_0_compat; try lra; apply Rinv_0_lt_compat, pow_lt; lra.
Qed.
Print Assumptions C77_positive.

(** Without a map nothing can fail but the wavelength range and a declination missing. *)
Theorem C77_always_without_map : forall m n a b d t, in_um a <> None -> in_um b <> None -> z_map (as_zodi d) <> Some true \/ g_ra t = None ->
  (g_ra t <> None -> g_dec t <> None) -> exists t', estimate_foregrounds m n a b (Many [("zodiacal"%string, d)]) t = Ok t'.
Proof.
  intros m n a b d t Ha Hb H Hd. cbn. unfold estimate_zodi, working_grid. destruct (in_um a), (in_um b); try contradiction. cbn [bind]. unfold zodi_factor.
  destruct (g_ra t) as [ra|]; [destruct (g_dec t) as [dec|]; [|exfalso; apply Hd; congruence]|]; cbn [bind].
  - destruct H as [H|]; [|discriminate]. destruct (z_map (as_zodi d)) as [[|]|]; try congruence; destruct (z_factor (as_zodi d)); cbn [bind]; eauto.
  - destruct (z_map (as_zodi d)) as [[|]|]; destruct (z_factor (as_zodi d)); cbn [bind]; eauto.
Qed.
Print Assumptions C77_always_without_map.
(** A map that cannot be read, or that lacks a column, makes the estimate fail with an error of its own,
    even when the description has a factor to fall back on. *)
Theorem C77_failed_fit : forall m n a b d t ra dec, in_um a <> None -> in_um b <> None -> z_map (as_zodi d) = Some true ->
  g_ra t = Some (Degrees ra) -> g_dec t = Some (Degrees dec) ->
  let file := map_file m (z_map_file (as_zodi d)) in
  m_read m file = Err OSError \/ (exists tab, m_read m file = Ok tab /\ (sget "ra_icrs" tab = None \/ sget "dec_icrs" tab = None)) \/
  (exists tab ras decs, m_read m file = Ok tab /\ sget "ra_icrs" tab = Some ras /\ sget "dec_icrs" tab = Some decs /\ ras <> [] /\ decs <> [] /\ sget "zodi_coeff" tab = None) ->
  estimate_foregrounds m n a b (Many [("zodiacal"%string, d)]) t = Err UnboundLocalError.
Proof.
  intros m n a b d t ra dec Ha Hb Hm Hra Hdec file H. cbn. unfold estimate_zodi, working_grid. destruct (in_um a), (in_um b); try contradiction. cbn [bind]. rewrite Hra, Hdec. cbn [bind]. unfold zodi_factor. rewrite Hm.
  assert (fit_direction m (Degrees ra) (Degrees dec) (z_map_file (as_zodi d)) = Err KeyError \/ fit_direction m (Degrees ra) (Degrees dec) (z_map_file (as_zodi d)) = Err OSError) as [->| ->]; auto.
  unfold fit_direction. fold file. destruct H as [->|[(tab & -> & [E|E])|(tab & ras & decs & -> & E1 & E2 & N1 & N2 & E3)]]; cbn [bind degrees]; auto; unfold col.
  - rewrite E. auto.
  - destruct (sget "ra_icrs" tab); cbn [bind]; auto. rewrite E. auto.
  - rewrite E1, E2, E3. cbn [bind]. destruct ras; [contradiction|]. destruct decs; [contradiction|]. cbn. auto.
Qed.
Print Assumptions C77_failed_fit.
Theorem C77_other_failures : forall m n a b d t, in_um a <> None -> in_um b <> None ->
  (forall ra, g_ra t = Some ra -> g_dec t = None -> estimate_foregrounds m n a b (Many [("zodiacal"%string, d)]) t = Err KeyError)
  /\ forall x dec tab ras, z_map (as_zodi d) = Some true -> g_ra t = Some (Number x) -> x <> 0 -> g_dec t = Some dec ->
     m_read m (map_file m (z_map_file (as_zodi d))) = Ok tab -> sget "ra_icrs" tab = Some ras ->
     estimate_foregrounds m n a b (Many [("zodiacal"%string, d)]) t = Err UnitConversionError.
Proof.
  intros m n a b d t Ha Hb. cbn. unfold estimate_zodi, working_grid. destruct (in_um a), (in_um b); try contradiction. cbn [bind]. split.
  - intros ra -> ->. reflexivity.
  - intros x dec tab ras Hm -> Hx -> Hr Ht. cbn [bind]. unfold zodi_factor. rewrite Hm. unfold fit_direction. rewrite Hr. cbn [bind]. unfold col. rewrite Ht. cbn [bind degrees]. destruct (Req_EM_T x 0); [contradiction|]. reflexivity.
Qed.
Print Assumptions C77_other_failures.

(** ** C79: the map *)
(** Right ascensions are taken as plane coordinates: the point chosen need not be the nearest on the
    sky. *)
Definition two_points : list (R * R * R) := [(359, 0, 1); (10, 0, 2)].
Theorem C79_nearest_on_the_sky_refuted :
  exists r r', In r two_points /\ In r' two_points /\ first_nearest 1 0 two_points r /\ cos_separation 1 0 r < cos_separation 1 0 r'.
Proof.
  exists (10, 0, 2), (359, 0, 1). split; [cbn; auto|]. split; [cbn; auto|]. split.
  - exists [(359, 0, 1)], []. split; auto. split; [|intros ? []]. intros r' [<-|[]]. unfold apart. cbn [fst snd]. lra.
  - unfold cos_separation, sin_deg, cos_deg. cbn [fst snd]. replace (0 * PI / 180) with 0 by field. rewrite sin_0, cos_0.
    replace ((359 - 1) * PI / 180) with (- (2 * PI / 180) + 2 * INR 1 * PI) by (cbn; field). rewrite cos_period, cos_neg.
    pose proof PI_RGT_0. pose proof (cos_decreasing_1 (2 * PI / 180) ((10 - 1) * PI / 180)) as H1. assert (cos ((10 - 1) * PI / 180) < cos (2 * PI / 180)) by (apply H1; lra). lra.
Qed.
Print Assumptions C79_nearest_on_the_sky_refuted.
(** On the same parallel, less than half a turn apart in the numbers, it is. *)
Theorem C79_nearest_on_a_parallel : forall ra dec rows r r', first_nearest ra dec rows r -> In r' rows -> (forall q, In q rows -> snd (fst q) = dec /\ Rabs (fst (fst q) - ra) <= 180) ->
  cos_separation ra dec r' <= cos_separation ra dec r.
Proof.
  intros ra dec rows r r' (l1 & l2 & -> & H1 & H2) Hr' Hall. assert (Hle : apart ra dec r <= apart ra dec r').
  { apply in_app_iff in Hr' as [H|[->|H]]; [specialize (H1 _ H); lra|lra|auto]. }
  assert (Hr : In r (l1 ++ r :: l2)) by (apply in_app_iff; cbn; auto). destruct (Hall r Hr) as [Ed Ea]. destruct (Hall r' Hr') as [Ed' Ea']. unfold apart in Hle. rewrite Ed, Ed' in Hle.
  assert (Habs : Rabs (fst (fst r) - ra) <= Rabs (fst (fst r') - ra)) by (apply Rsqr_le_abs_0; unfold Rsqr; nra).
  unfold cos_separation. rewrite Ed, Ed'. apply Rplus_le_compat_l. apply Rmult_le_compat_l; [unfold cos_deg; nra|]. unfold cos_deg.
  assert (Hc : forall x, cos (x * PI / 180) = cos (Rabs x * PI / 180)). { intros x. unfold Rabs. destruct (Rcase_abs x); auto. rewrite <- cos_neg. f_equal. field. }
  rewrite (Hc (fst (fst r) - ra)), (Hc (fst (fst r') - ra)). pose proof PI_RGT_0. pose proof (Rabs_pos (fst (fst r) - ra)). destruct (Rle_lt_or_eq_dec _ _ Habs) as [Hlt|Heq]; [|rewrite Heq; lra].
  left. apply cos_decreasing_1; nra.
Qed.
Print Assumptions C79_nearest_on_a_parallel.
(** A custom map that does not exist is silently replaced by the one of the package. *)
Definition installed (m : maps) : Prop := m_isfile m "exorad/data/Zodi_map.hdf5" = true /\ m_has_data m "exorad" = true
  /\ m_has_data m "exorad/models" = false /\ m_has_data m "exorad/models/foregrounds" = false
  /\ m_parent m "exorad/models/foregrounds" = "exorad/models"%string /\ m_parent m "exorad/models" = "exorad"%string.
Definition zodi_only (z : zodi_descr) : any_descr := {| as_sky := {| k_value := Some "zodiacal"%string; k_data := None |}; as_zodi := z |}.
Theorem C79_missing_custom_map : forall m n a b t file fit factor, installed m -> m_isfile m file = false ->
  estimate_foregrounds m n a b (Many [("zodiacal"%string, zodi_only {| z_map := fit; z_map_file := Some file; z_factor := factor |})]) t
  = estimate_foregrounds m n a b (Many [("zodiacal"%string, zodi_only {| z_map := fit; z_map_file := None; z_factor := factor |})]) t.
Proof.
  intros m n a b t file fit factor (I1 & I2 & I3 & I4 & I5 & I6) Hf. cbn. unfold estimate_zodi, zodi_factor. cbn [z_map z_map_file z_factor].
  assert (E : map_file m (Some file) = map_file m None).
  { unfold map_file. destruct (String.eqb file ""); auto. rewrite Hf. change (map_in package_dir) with "exorad/data/Zodi_map.hdf5"%string. rewrite I1.
    unfold module_dir. cbn [climb]. rewrite I4, I5, I3, I6, I2. reflexivity. }
  unfold fit_direction. rewrite E. reflexivity.
Qed.
Print Assumptions C79_missing_custom_map.

(** ** C80: names *)
Lemma contribution_fresh m n a b t p c : contribution m n a b (g_ra t) (g_dec t) p = Ok c -> stored_as p (fst c) /\ gives m n a b t p (snd c).
Proof.
  intros H. pose proof H as H0. apply contribution_grid in H as (wl & Hw & Hg & _ & H). split; [unfold stored_as; destruct (zodiacal p); tauto|].
  assert (exists t', absorb_all [c] (fresh t) = Ok t') as (t' & E).
  { cbn [absorb_all]. unfold absorb, dim. cbn [fresh g_sky]. destruct (f_transmission (snd c)); cbn [bind]; eauto. }
  exists (fst c), t'. split; [apply many_iff; exists [c]; split; auto|]. apply absorb_all_entries in E. rewrite E. destruct c. reflexivity.
Qed.
Lemma gives_unique m n a b t p c f : contribution m n a b (g_ra t) (g_dec t) p = Ok c -> gives m n a b t p f -> f = snd c.
Proof.
  intros H (name & t' & E & Hg). apply many_iff in E as (cs & HF & E). inversion HF as [|? c' ? cs' Hc' HF']; subst. inversion HF'; subst. cbn [fresh g_ra g_dec] in Hc'. assert (c' = c) as -> by congruence.
  apply absorb_all_entries in E. rewrite Hg in E. cbn in E. congruence.
Qed.
Lemma sget_rev_split (cs : list (string * foreground)) name : match sget name (rev cs) with
  | Some f => exists l1 l2, cs = l1 ++ (name, f) :: l2 /\ ~ In name (map fst l2)
  | None => ~ In name (map fst cs) end.
Proof.
  induction cs as [|[k f] cs IH]; cbn [rev map]; [cbn; auto|]. assert (E : forall l (x : string * foreground), sget name (l ++ [x]) = match sget name l with Some v => Some v | None => sget name [x] end).
  { clear. induction l as [|[k f] l IH]; intros x; cbn; auto. destruct (String.eqb name k); auto. rewrite IH. reflexivity. }
  rewrite E. destruct (sget name (rev cs)) as [g|].
  - destruct IH as (l1 & l2 & -> & H). exists ((k, f) :: l1), l2. auto.
  - cbn. destruct (String.eqb name k) eqn:Ek.
    + apply String.eqb_eq in Ek. subst. exists [], cs. auto.
    + apply String.eqb_neq in Ek. cbn. intuition congruence.
Qed.
(** Every foreground of the payload is as it would be alone; of those stored under one name the last
    remains; what was there before stays unless its name is used. *)
Theorem C80_last_wins : forall m n a b l t t', l <> [] -> estimate_foregrounds m n a b (Many l) t = Ok t' ->
  exists fs, g_foreground t' = Some fs
  /\ (forall name f, sget name fs = Some f ->
       (exists l1 p l2, l = l1 ++ p :: l2 /\ stored_as p name /\ gives m n a b t p f /\ forall q, In q l2 -> ~ stored_as q name)
       \/ ((forall q, In q l -> ~ stored_as q name) /\ exists old, g_foreground t = Some old /\ sget name old = Some f))
  /\ (forall p, In p l -> exists name f, stored_as p name /\ sget name fs = Some f)
  /\ forall old name, g_foreground t = Some old -> sget name old <> None -> sget name fs <> None.
Proof.
  intros m n a b l t t' Hne E. apply many_iff in E as (cs & HF & E). apply absorb_all_entries in E.
  set (old := match g_foreground t with Some d => d | None => [] end).
  assert (Ho : entries cs (g_foreground t) = entries cs (Some old)). { unfold old. destruct (g_foreground t); auto. destruct HF; [contradiction|reflexivity]. }
  assert (exists fs, entries cs (Some old) = Some fs) as (fs & Hfs). { clear. generalize old. induction cs; intros o; cbn; eauto. }
  exists fs. split; [congruence|]. pose proof (fun k => entries_get _ _ k _ Hfs) as Hget.
  assert (Hstored : forall q name, In q l -> stored_as q name -> In name (map fst cs)).
  { clear - HF. intros q name Hq Hs. induction HF as [|p c l cs Hc HF IH]; [destruct Hq|]. destruct Hq as [->|Hq]; [left|right; auto].
    apply contribution_fresh in Hc as [Hst _]. unfold stored_as in *. destruct (zodiacal q); congruence. }
  split; [|split].
  - intros name f Hf. rewrite Hget in Hf. pose proof (sget_rev_split cs name) as Hs. destruct (sget name (rev cs)) as [g|] eqn:Eg.
    + assert (g = f) as -> by congruence. left. destruct Hs as (c1 & c2 & -> & Hno). apply Forall2_app_inv_r in HF as (l1 & l2' & HF1 & HF2 & ->). inversion HF2 as [|p c l2 cs2 Hc HF3]; subst.
      destruct (contribution_fresh _ _ _ _ _ _ _ Hc) as [H1 H2]. exists l1, p, l2. split; auto. split; auto. split; auto. intros q Hq Hst. apply Hno.
      clear - HF3 Hq Hst. induction HF3 as [|p' c' l cs Hc HF IH]; [destruct Hq|]. destruct Hq as [->|Hq]; [left|right; auto]. apply contribution_fresh in Hc as [Hs _]. unfold stored_as in *. destruct (zodiacal q); congruence.
    + right. split; [intros q Hq Hst; apply Hs; eauto|]. unfold old in Hf. destruct (g_foreground t) as [o|]; [eauto|discriminate].
  - intros p Hp. assert (exists c, In c cs /\ contribution m n a b (g_ra t) (g_dec t) p = Ok c) as (c & Hc & Hcc).
    { clear - HF Hp. induction HF as [|p' c l cs Hc HF IH]; [destruct Hp|]. destruct Hp as [->|Hp]; [exists c; cbn; auto|]. destruct (IH Hp) as (c' & H1 & H2). exists c'. cbn. auto. }
    destruct (contribution_fresh _ _ _ _ _ _ _ Hcc) as [Hst _]. exists (fst c). assert (sget (fst c) fs <> None) as Hsome.
    { rewrite Hget. pose proof (sget_rev_split cs (fst c)) as Hs. destruct (sget (fst c) (rev cs)); [congruence|]. exfalso. apply Hs. now apply in_map. }
    destruct (sget (fst c) fs) as [f|]; [exists f; auto|congruence].
  - intros o name Ho' Hsome. rewrite Hget. unfold old. rewrite Ho'. destruct (sget name (rev cs)); [congruence|auto].
Qed.
Print Assumptions C80_last_wins.
(** So a payload's foregrounds do not all count: of two with the same value one radiance remains, but
    both transmissions. *)
Definition micron (x : R) : wavelength := {| value := x; in_um := Some 1 |}.
Definition no_maps : maps := {| m_isfile := fun _ => false; m_has_data := fun _ => false; m_parent := fun x => x; m_read := fun _ => Err OSError |}.
Definition anywhere : tgt := {| g_ra := None; g_dec := None; g_foreground := None; g_sky := None |}.
Definition haze (radiance tr : R) : any_descr := described "haze" (table_from 1 1 [(1, radiance, tr); (10, radiance, tr)]) {| z_map := None; z_map_file := None; z_factor := None |}.
Lemma haze_complete r tr : complete (as_sky (haze r tr)).
Proof. unfold complete, haze, described, table_from. cbn. do 7 eexists. repeat (split; [reflexivity|]). split; [discriminate|]. split; reflexivity. Qed.
Lemma haze_distinct r tr : distinct_wavelengths (as_sky (haze r tr)).
Proof.
  intros t w u Ht Hw Hu. cbn in Ht. assert (t = table_from 1 1 [(1, r, tr); (10, r, tr)]) as -> by congruence. cbn in Hw. assert (w = {| c_values := [1; 10]; c_unit := Some 1 |}) as -> by congruence.
  cbn in Hu. assert (u = 1) as -> by congruence. cbn. constructor; [intros [H|[]]; lra|]. constructor; [intros []|constructor].
Qed.
Lemma haze_transmits r tr w v : 1 <= w <= 10 -> transmission_at (as_sky (haze r tr)) w v -> v = tr.
Proof.
  intros Hw (t & tab & tab' & Ht & (wc & u & c & H1 & H2 & H3 & H4 & ->) & HP & Hi & Hc). cbn in Ht. assert (t = table_from 1 1 [(1, r, tr); (10, r, tr)]) as -> by congruence.
  cbn in H1, H3. assert (wc = {| c_values := [1; 10]; c_unit := Some 1 |}) as -> by congruence. assert (c = {| c_values := [tr; tr]; c_unit := None |}) as -> by congruence. cbn in H2. assert (u = 1) as -> by congruence. cbn in HP.
  assert (Hin : forall p, In p tab' <-> p = (1 * 1, tr) \/ p = (10 * 1, tr)). { intros p. split; intros H; [apply (Permutation_in _ (Permutation_sym HP)) in H; cbn in H; intuition|]. apply (Permutation_in _ HP). cbn. intuition. }
  destruct Hc as [Hc|[[Hc|Hc] _]].
  - apply (read_constant tab' w v tr Hc). intros p Hp. apply Hin in Hp as [->| ->]; reflexivity.
  - specialize (Hc (1 * 1, tr) (proj2 (Hin _) (or_introl eq_refl))). cbn in Hc. lra.
  - specialize (Hc (10 * 1, tr) (proj2 (Hin _) (or_intror eq_refl))). cbn in Hc. lra.
Qed.
Theorem C80_all_foregrounds_count_refuted : exists t' fs s, estimate_foregrounds no_maps 2 (micron 1) (micron 2) (Many [("fog"%string, haze 1 0.5); ("mist"%string, haze 3 0.2)]) anywhere = Ok t'
  /\ g_foreground t' = Some fs /\ length fs = 1%nat /\ g_sky t' = Some s /\ at_ 0 (s_data s) = 0.5 * 0.2.
Proof.
  destruct (C78_complete_tables_suffice no_maps 2 (micron 1) (micron 2) [("fog"%string, haze 1 0.5); ("mist"%string, haze 3 0.2)] anywhere) as (t' & E); try discriminate; auto.
  { intros p [<-|[<-|[]]]; split; try reflexivity; apply haze_complete. }
  pose proof E as E'. apply many_iff in E' as (cs & HF & E'). inversion HF as [|? c1 ? cs1 Hc1 HF1]; subst. inversion HF1 as [|? c2 ? cs2 Hc2 HF2]; subst. inversion HF2; subst. clear HF HF1 HF2.
  apply contribution_fresh in Hc1 as [S1 _]. apply contribution_fresh in Hc2 as [S2 _]. cbn in S1, S2. apply absorb_all_entries in E'. cbn [entries anywhere g_foreground] in E'.
  assert (fst c1 = "haze"%string) as Hn1 by congruence. assert (fst c2 = "haze"%string) as Hn2 by congruence. rewrite Hn1, Hn2 in E'. cbn in E'.
  pose proof (C29_product no_maps 2 (micron 1) (micron 2) [("fog"%string, haze 1 0.5); ("mist"%string, haze 3 0.2)] anywhere t' eq_refl) as HP. cbn [filters zodiacal filter negb map] in HP. specialize (HP (Forall_cons _ (haze_distinct _ _) (Forall_cons _ (haze_distinct _ _) (Forall_nil _))) E).
  cbn in HP. destruct HP as (s & Hs & Hg & Hl & Hv). exists t', [("haze"%string, snd c2)], s. split; auto. split; auto. split; auto. split; auto. destruct (Hv 0%nat) as (trs & HF & ->); [lia|].
  assert (at_ 0 (s_wl s) = 1) as Hw. { destruct Hg as [_ Hg]. rewrite Hg by lia. unfold microns, micron. cbn [value in_um]. replace (INR 0 / INR (2 - 1)) with 0 by (cbn; field). rewrite Rpower_O by lra. lra. }
  rewrite Hw in HF. inversion HF as [|? v1 ? trs1 H1 HF1]; subst. inversion HF1 as [|? v2 ? trs2 H2 HF2]; subst. inversion HF2; subst.
  apply haze_transmits in H1; [|lra]. apply haze_transmits in H2; [|lra]. subst. unfold product. cbn. lra.
Qed.
Print Assumptions C80_all_foregrounds_count_refuted.
(** A filter called "zodi" replaces the zodiacal light. *)
Definition named_zodi : any_descr := described "zodi" (table_from 1 1 [(1, 3, 0.5); (10, 3, 0.5)]) {| z_map := None; z_map_file := None; z_factor := None |}.
Example zodi_replaced : exists t' f, estimate_foregrounds no_maps 2 (micron 1) (micron 2) (Many [("zodiacal"%string, by_factor 1); ("dust"%string, named_zodi)]) anywhere = Ok t'
  /\ g_foreground t' = Some [("zodi"%string, f)] /\ f_transmission f <> None.
Proof.
  cbn. eexists _, _. split; [reflexivity|]. split; [reflexivity|]. cbn. discriminate.
Qed.

(** ** The hypotheses are met *)
Example two_filters_and_zodi : exists t', estimate_foregrounds no_maps 100 (micron 1) (micron 8) (Many [("zodiacal"%string, by_factor 2); ("fog"%string, haze 1 0.5); ("mist"%string, haze 3 0.2)]) anywhere = Ok t'.
Proof.
  destruct (C77_always_without_map no_maps 100 (micron 1) (micron 8) (by_factor 2) anywhere) as (t1 & E1); try discriminate; auto.
  pose proof (C29_zodi_transparent _ _ _ _ _ _ _ E1) as Hs. cbn [anywhere g_sky] in Hs.
  destruct (C78_complete_tables_suffice no_maps 100 (micron 1) (micron 8) [("fog"%string, haze 1 0.5); ("mist"%string, haze 3 0.2)] t1) as (t' & E'); try discriminate; auto.
  { intros p [<-|[<-|[]]]; split; try reflexivity; apply haze_complete. }
  exists t'. cbn [estimate_foregrounds estimate_all] in *. destruct (estimate_one no_maps 100 (micron 1) (micron 8) "zodiacal" (by_factor 2) anywhere) as [t2|]; cbn [bind] in *; [|discriminate]. assert (t2 = t1) as -> by congruence. exact E'.
Qed.
Example filters_of_three : filters [("zodiacal"%string, by_factor 2); ("fog"%string, haze 1 0.5); ("mist"%string, haze 3 0.2)] = [as_sky (haze 1 0.5); as_sky (haze 3 0.2)].
Proof. reflexivity. Qed.
Example anywhere_sound : sound anywhere. Proof. intros d H. discriminate. Qed.
Example a_map : zodiacal_map [("ra_icrs"%string, [359; 10]); ("dec_icrs"%string, [0; 0]); ("zodi_coeff"%string, [1; 2])] two_points.
Proof. repeat split. Qed.
Example an_installation : installed {| m_isfile := fun f => String.eqb f "exorad/data/Zodi_map.hdf5"; m_has_data := fun d => String.eqb d "exorad";
  m_parent := fun d => if String.eqb d "exorad/models/foregrounds" then "exorad/models" else "exorad"; m_read := fun _ => Err OSError |}.
Proof. repeat split. Qed.
(** Twice the same haze of transmission 0.5: 0.25 *)
Example twice : exists t' s, repeated (estimate_foregrounds no_maps 2 (micron 1) (micron 2) (Many [("fog"%string, haze 1 0.5)])) 2 anywhere t' /\ g_sky t' = Some s /\ at_ 0 (s_data s) = 0.25.
Proof.
  destruct (C78_complete_tables_suffice no_maps 2 (micron 1) (micron 2) [("fog"%string, haze 1 0.5)] anywhere) as (t1 & E); try discriminate; auto.
  { intros p [<-|[]]; split; try reflexivity; apply haze_complete. }
  pose proof (C29_product no_maps 2 (micron 1) (micron 2) [("fog"%string, haze 1 0.5)] anywhere t1 eq_refl) as HP. cbn [filters zodiacal filter negb map] in HP. specialize (HP (Forall_cons _ (haze_distinct _ _) (Forall_nil _)) E). cbn in HP. destruct HP as (s & Hs & Hg & Hl & Hv).
  assert (Hne : filters [("fog"%string, haze 1 0.5)] <> []) by discriminate.
  destruct (C31_power no_maps 2 (micron 1) (micron 2) _ anywhere t1 s 1 anywhere_sound eq_refl Hne E Hs) as [(t' & Ht') H]. destruct (H t' Ht') as (_ & s' & Hs' & _ & _ & Hp). exists t', s'. split; auto. split; auto. rewrite Hp.
  destruct (Hv 0%nat) as (trs & HF & ->); [lia|]. assert (at_ 0 (s_wl s) = 1) as Hw. { destruct Hg as [_ Hg]. rewrite Hg by lia. unfold microns, micron. cbn [value in_um]. replace (INR 0 / INR (2 - 1)) with 0 by (cbn; field). rewrite Rpower_O by lra. lra. }
  rewrite Hw in HF. inversion HF as [|? v1 ? trs1 H1 HF1]; subst. inversion HF1; subst. apply haze_transmits in H1; [|lra]. subst. unfold product. cbn. lra.
Qed.
