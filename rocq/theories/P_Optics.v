(** Properties of optical elements and paths (C24, C25, C26, C59). *)
From Verif Require Import Base Dict XR M_Signal M_Optics S_Signal S_Optics L_Signal L_Optics.
From Coq Require Import Lia Permutation.
Open Scope list_scope.
Open Scope R_scope.

(** ** C24: total transmission *)
(** Paths built from descriptions have one transmission value per wavelength ... *)
Theorem C24_paths_are_sampled : forall o1 o2 wl common channel,
  prepare_elements o1 wl = Ok common -> prepare_elements o2 wl = Ok channel ->
  Forall (sampled_on wl) (sequence (prepend common channel)) /\ NoDup (map fst (prepend common channel)).
Proof.
  intros o1 o2 wl common channel H1 H2. split; [|apply prepend_keys].
  apply prepend_sampled; eapply prepare_sampled; eauto.
Qed.
Print Assumptions C24_paths_are_sampled.

(** ... and then the total column of the table is, wavelength by wavelength, the product of all. *)
Theorem C24_total_is_product : forall wl els, Forall (sampled_on wl) (sequence els) ->
  exists total, sget "total" (transmission_table wl els) = Some total /\ length total = length wl
  /\ forall k, (k < length wl)%nat -> at_ k total = product (map (fun e => at_ k (e_tr e)) (sequence els)).
Proof.
  intros wl els Hs. unfold transmission_table.
  pose proof (transmission_columns_spec wl els [("Wavelength"%string, wl)] (ones wl 1) Hs (ones_length wl 1)) as H.
  destruct (transmission_columns els _ _) as [t total]. destruct H as (H1 & H2 & _). exists total. repeat split; auto.
  - apply dget_dset_same. apply String_eqb_spec.
  - intros k Hk. rewrite H2, ones_at by auto. lra.
Qed.
Print Assumptions C24_total_is_product.

(** The table has the column of each element too, unless its name is that of another column. *)
Theorem C24_element_columns : forall wl els k e, Forall (sampled_on wl) (sequence els) -> NoDup (map fst els) -> In (k, e) els -> k <> "total"%string ->
  sget k (transmission_table wl els) = Some (e_tr e).
Proof.
  intros wl els k e Hs Hn Hin Hk. unfold transmission_table.
  pose proof (transmission_columns_spec wl els [("Wavelength"%string, wl)] (ones wl 1) Hs (ones_length wl 1)) as H.
  destruct (transmission_columns els _ _) as [t total]. destruct H as (_ & _ & ->).
  rewrite dget_dset_other by (auto; apply String_eqb_spec). rewrite (dget_dupdate _ String_eqb_spec).
  assert (E : sget k (rev (map (fun p : string * element => (fst p, e_tr (snd p))) els)) = Some (e_tr e)); [|now rewrite E].
  apply NoDup_In_dget; [apply String_eqb_spec| |].
  - rewrite map_rev. apply NoDup_rev. rewrite map_map. cbn. exact Hn.
  - apply -> in_rev. apply in_map_iff. exists (k, e). auto.
Qed.
Print Assumptions C24_element_columns.

Theorem C24_within_unit_interval : forall wl els total k, Forall (sampled_on wl) (sequence els) ->
  Forall (transmits_within_unit (length wl)) (sequence els) ->
  sget "total" (transmission_table wl els) = Some total -> (k < length wl)%nat -> 0 <= at_ k total <= 1.
Proof.
  intros wl els total k Hs Hu Ht Hk. destruct (C24_total_is_product wl els Hs) as (total' & E & _ & H).
  assert (total' = total) as -> by congruence. rewrite H by auto. apply product_unit. intros x Hx. apply in_map_iff in Hx. destruct Hx as (e & <- & He).
  rewrite Forall_forall in Hu. now apply Hu.
Qed.
Print Assumptions C24_within_unit_interval.

(** One more element anywhere in the path never increases the total. *)
Theorem C24_more_elements_less_light : forall wl l1 x l2 total total' k,
  Forall (sampled_on wl) (sequence (l1 ++ x :: l2)) -> Forall (transmits_within_unit (length wl)) (sequence (l1 ++ x :: l2)) ->
  sget "total" (transmission_table wl (l1 ++ l2)) = Some total -> sget "total" (transmission_table wl (l1 ++ x :: l2)) = Some total' ->
  (k < length wl)%nat -> at_ k total' <= at_ k total.
Proof.
  intros wl l1 x l2 total total' k Hs Hu Ht Ht' Hk.
  assert (Hs2 : Forall (sampled_on wl) (sequence (l1 ++ l2))).
  { unfold sequence in *. rewrite Forall_forall in *. intros e He. apply Hs. rewrite map_app in *. cbn. apply in_app_or in He. apply in_or_app. cbn. tauto. }
  destruct (C24_total_is_product wl _ Hs) as (a & Ea & _ & Ha). destruct (C24_total_is_product wl _ Hs2) as (b & Eb & _ & Hb).
  assert (a = total') as -> by congruence. assert (b = total) as -> by congruence. rewrite Ha, Hb by auto.
  unfold sequence in *. rewrite !map_app in *. cbn [map] in *. rewrite !product_app, product_cons.
  rewrite Forall_app in Hu. destruct Hu as [Hu1 Hu2]. apply Forall_cons_iff in Hu2 as [Hx Hu2]. specialize (Hx k Hk).
  rewrite Forall_forall in *.
  assert (0 <= product (map (fun e => at_ k (e_tr e)) (map snd l1))) by (apply product_nonneg; intros y Hy; apply in_map_iff in Hy; destruct Hy as (e & <- & He); now apply Hu1).
  assert (0 <= product (map (fun e => at_ k (e_tr e)) (map snd l2))) by (apply product_nonneg; intros y Hy; apply in_map_iff in Hy; destruct Hy as (e & <- & He); now apply Hu2).
  assert (0 <= product (map (fun e => at_ k (e_tr e)) (map snd l1)) * product (map (fun e => at_ k (e_tr e)) (map snd l2))) by (apply Rmult_le_pos; auto). nra.
Qed.
Print Assumptions C24_more_elements_less_light.

Theorem C24_order_irrelevant : forall wl els els' total, Forall (sampled_on wl) (sequence els) -> Permutation els els' ->
  sget "total" (transmission_table wl els) = Some total -> sget "total" (transmission_table wl els') = Some total.
Proof.
  intros wl els els' total Hs Hp Ht.
  assert (Hs' : Forall (sampled_on wl) (sequence els')) by (unfold sequence in *; eapply Permutation_Forall; [apply Permutation_map, Hp|auto]).
  destruct (C24_total_is_product wl _ Hs) as (a & Ea & La & Ha). destruct (C24_total_is_product wl _ Hs') as (b & Eb & Lb & Hb).
  assert (a = total) as -> by congruence. rewrite Eb. f_equal. apply at_ext; [congruence|]. rewrite Lb. intros k Hk. rewrite Ha, Hb by auto.
  apply product_perm. unfold sequence. rewrite !map_map. apply Permutation_map. now apply Permutation_sym.
Qed.
Print Assumptions C24_order_irrelevant.

(** ** C25: emission *)
Theorem C25_attenuated_by_what_follows : forall planck wl els rads slit,
  Forall (sampled_on wl) (sequence els) -> NoDup (map e_name (sequence els)) -> chain planck wl els = Ok (rads, slit) ->
  forall l1 e l2, sequence els = l1 ++ e :: l2 ->
  match e_temp e with
  | None => sget (e_name e) rads = None
  | Some T => exists rad, sget (e_name e) rads = Some rad /\ length (r_data rad) = length wl
      /\ (forall k, (k < length wl)%nat ->
          at_ k (r_data rad) = at_ k (e_em e) * planck (at_ k wl) T * product (map (fun x => at_ k (e_tr x)) l2))
      /\ r_pos rad = e_pos e /\ (r_slit rad = true <-> Exists is_slit l2)
  end.
Proof.
  intros planck wl els rads slit Hs Hn E l1 e l2 El. unfold chain in E. fold (sequence els) in E. destruct (e_temp e) as [T|] eqn:Et.
  - destruct (chain_from_spec planck wl _ Hs Hn _ _ _ _ E l1 e l2 T El Et) as (rad & s & s' & Hg & Hp).
    rewrite El in Hs. apply Forall_app in Hs as [_ Hs]. apply Forall_cons_iff in Hs as [[_ Hem] Hs].
    exists rad. split; auto. apply (pass_through_spec wl) in Hp; auto; [|cbn; now apply surface_length].
    destruct Hp as (H1 & H2 & H3 & H4). cbn [r_data r_pos r_slit] in *. repeat split; auto.
    + intros k Hk. rewrite H2, surface_at by auto. reflexivity.
    + intros H. apply H4 in H. destruct H; [discriminate|auto].
    + intros H. apply H4. auto.
  - rewrite (chain_from_other _ _ _ _ _ _ _ (e_name e) E); auto. intros e' He' Hem Hne. rewrite El in *.
    apply in_app_or in He'. rewrite map_app in Hn. cbn in Hn. apply NoDup_remove_2 in Hn. destruct He' as [H|[<-|H]].
    + apply Hn. rewrite <- Hne. apply in_or_app. left. now apply in_map.
    + unfold emits in Hem. congruence.
    + apply Hn. rewrite <- Hne. apply in_or_app. right. now apply in_map.
Qed.
Print Assumptions C25_attenuated_by_what_follows.

(** Nothing but the emitting elements is in the result. *)
Theorem C25_only_emitting_elements : forall planck wl els rads slit n, chain planck wl els = Ok (rads, slit) ->
  (exists rad, sget n rads = Some rad) -> exists e, In e (sequence els) /\ emits e /\ e_name e = n.
Proof.
  intros planck wl els rads slit n E [rad H]. destruct (Classical_Prop.classic (exists e, In e (sequence els) /\ emits e /\ e_name e = n)) as [|Hno]; auto.
  exfalso. rewrite (chain_from_other _ _ _ _ _ _ _ n E) in H; [discriminate|]. intros e He Hem Hne. apply Hno. eauto.
Qed.
Print Assumptions C25_only_emitting_elements.

(** The slit that counts is the last one, and only if an emitting element precedes it. *)
Lemma fold_slit_none rest s : ~ Exists is_slit rest -> fold_left (fun s e => if String.eqb (e_type e) "slit" then slit_width_of e else s) rest s = s.
Proof.
  revert s. induction rest as [|e rest IH]; intros s H; auto. cbn. destruct (String.eqb (e_type e) "slit") eqn:E.
  - exfalso. apply H. left. now apply String_eqb_spec.
  - apply IH. intros H'. apply H. now right.
Qed.
Lemma fold_slit_last l1 x l2 s : is_slit x -> ~ Exists is_slit l2 -> fold_left (fun s e => if String.eqb (e_type e) "slit" then slit_width_of e else s) (l1 ++ x :: l2) s = slit_width_of x.
Proof.
  intros Hx H. rewrite fold_left_app. cbn. unfold is_slit in Hx. rewrite Hx. cbn. now apply fold_slit_none.
Qed.
Lemma pass_through_width rest rad slit rad' slit' : pass_through rest rad slit = Ok (rad', slit') ->
  slit' = fold_left (fun s e => if String.eqb (e_type e) "slit" then slit_width_of e else s) rest slit.
Proof.
  intros E. destruct (pass_through_ok rest rad slit) as [H1 H2].
  destruct (Forall_Exists_dec (fun e => is_slit e -> slit_width_of e <> None)) with (l := rest) as [H|H].
  - intros e. unfold is_slit. destruct (String.string_dec (e_type e) "slit") as [Hs|Hs]; [|left; congruence].
    destruct (slit_width_of e); [left; congruence|right; tauto].
  - destruct (H1 H) as [r Hr]. congruence.
  - destruct H2 as [er Her]; [|congruence]. eapply Exists_impl; [|exact H]. cbn. intros e He. unfold is_slit in *.
    destruct (String.string_dec (e_type e) "slit") as [Hs|Hs]; [|exfalso; apply He; congruence]. destruct (slit_width_of e) eqn:Ew; [exfalso; apply He; congruence|auto].
Qed.
Lemma chain_from_keeps planck wl els : forall out slit rads slit', chain_from planck wl els out slit = Ok (rads, slit') ->
  (forall l1 s l2, els = l1 ++ s :: l2 -> is_slit s -> ~ Exists emits l1) -> slit' = slit.
Proof.
  induction els as [|e rest IH]; intros out slit rads slit' E H; cbn [chain_from] in E; [congruence|].
  assert (Hr : forall l1 s l2, rest = l1 ++ s :: l2 -> is_slit s -> ~ Exists emits l1).
  { intros l1 s l2 -> Hsl He. apply (H (e :: l1) s l2); auto. }
  destruct (e_temp e) as [T|] eqn:Et; [|eapply IH; eauto].
  match type of E with bind ?r _ = _ => destruct r as [[rad s]|] eqn:Ep; cbn [bind] in E; [|discriminate] end.
  apply pass_through_width in Ep. rewrite fold_slit_none in Ep.
  - subst s. eapply IH; eauto.
  - intros He. apply Exists_exists in He. destruct He as (x & Hx & Hsl). apply in_split in Hx. destruct Hx as (l1 & l2 & ->).
    apply (H (e :: l1) x l2); auto. left. unfold emits. congruence.
Qed.
Lemma chain_from_width planck wl els : forall out slit rads slit', chain_from planck wl els out slit = Ok (rads, slit') ->
  forall l1 s l2, els = l1 ++ s :: l2 -> is_slit s -> ~ Exists is_slit l2 -> Exists emits l1 -> slit' = slit_width_of s.
Proof.
  induction els as [|e rest IH]; intros out slit rads slit' E l1 s l2 El Hsl Hlast Hem; [destruct l1; discriminate|].
  destruct l1 as [|y l1]; [inversion Hem|]. cbn in El. injection El as -> ->. cbn [chain_from] in E.
  destruct (e_temp y) as [T|] eqn:Et.
  - match type of E with bind ?r _ = _ => destruct r as [[rad s']|] eqn:Ep; cbn [bind] in E; [|discriminate] end.
    apply pass_through_width in Ep. rewrite (fold_slit_last l1 s l2) in Ep by auto.
    destruct (Exists_dec emits l1) as [Hd|Hd]; [intros x; unfold emits; destruct (e_temp x); [left|right]; congruence| |].
    + eapply IH; eauto.
    + rewrite <- Ep. eapply chain_from_keeps; eauto. intros k1 x k2 Ek Hx Hex.
      (* a slit after an emitter of l1 ++ s :: l2 would be after s *)
      destruct (app_eq_app _ _ _ _ Ek) as (m & [[E1 E2]|[E1 E2]]).
      * apply Hd. rewrite E1. apply Exists_app. now left.
      * destruct m as [|z m].
        { apply Hd. rewrite app_nil_r in E1. now subst k1. }
        cbn in E2. injection E2 as -> E2. apply Hlast. rewrite E2. apply Exists_app. right. now left.
  - apply Exists_cons in Hem as [Hem|Hem]; [unfold emits in Hem; congruence|]. eapply IH; eauto.
Qed.
Theorem C25_slit_width : forall planck wl els rads slit, chain planck wl els = Ok (rads, slit) ->
  (forall l1 s l2, sequence els = l1 ++ s :: l2 -> is_slit s -> ~ Exists is_slit l2 -> Exists emits l1 -> slit = slit_width_of s)
  /\ ((forall l1 s l2, sequence els = l1 ++ s :: l2 -> is_slit s -> ~ Exists emits l1) -> slit = None).
Proof.
  intros planck wl els rads slit E. split.
  - intros. eapply chain_from_width; eauto.
  - intros. eapply chain_from_keeps; eauto.
Qed.
Print Assumptions C25_slit_width.

(** The construction fails exactly when an emitting element is followed by a slit without width. *)
Lemma chain_from_fails planck wl els : forall out slit, (exists er, chain_from planck wl els out slit = Err er) <->
  exists l1 x l2, els = l1 ++ x :: l2 /\ emits x /\ Exists (fun s => is_slit s /\ slit_width_of s = None) l2.
Proof.
  induction els as [|e rest IH]; intros out slit; cbn [chain_from].
  - split; [intros [er [=]]|]. intros (l1 & x & l2 & E & _). destruct l1; discriminate.
  - assert (Hcons : (exists l1 x l2, rest = l1 ++ x :: l2 /\ emits x /\ Exists (fun s => is_slit s /\ slit_width_of s = None) l2) ->
      exists l1 x l2, e :: rest = l1 ++ x :: l2 /\ emits x /\ Exists (fun s => is_slit s /\ slit_width_of s = None) l2).
    { intros (l1 & x & l2 & -> & H). exists (e :: l1), x, l2. split; [reflexivity|exact H]. }
    assert (Hinv : forall l1 x l2, e :: rest = l1 ++ x :: l2 -> emits x -> Exists (fun s => is_slit s /\ slit_width_of s = None) l2 ->
      (emits e /\ Exists (fun s => is_slit s /\ slit_width_of s = None) rest) \/ exists l1 x l2, rest = l1 ++ x :: l2 /\ emits x /\ Exists (fun s => is_slit s /\ slit_width_of s = None) l2).
    { intros [|y l1] x l2 El Hx Hex; cbn in El; injection El as -> ->; [left; auto|right; exists l1, x, l2; auto]. }
    destruct (e_temp e) as [T|] eqn:Et.
    + match goal with |- context [pass_through rest ?r ?s] => set (r0 := r); destruct (pass_through rest r0 s) as [[rad s']|er] eqn:Ep; cbn [bind] end.
      * rewrite IH. split; auto. intros (l1 & x & l2 & El & Hx & Hex). destruct (Hinv l1 x l2) as [[_ H]|H]; auto.
        exfalso. destruct (proj2 (pass_through_ok rest r0 slit) H) as [er Her]. rewrite Her in Ep. discriminate.
      * split; [|eauto]. intros _. exists [], e, rest. split; auto. split; [unfold emits; congruence|].
        destruct (Exists_dec (fun s => is_slit s /\ slit_width_of s = None) rest) as [Hd|Hd]; auto.
        { intros s. unfold is_slit. destruct (String.string_dec (e_type s) "slit"); [|right; tauto]. destruct (slit_width_of s); [right; intros [_ ?]; discriminate|left; auto]. }
        exfalso. destruct (proj1 (pass_through_ok rest r0 slit)) as [r Hr]; [|congruence].
        rewrite Forall_forall. intros s Hin Hsl Hw. apply Hd. apply Exists_exists. eauto.
    + rewrite IH. split; auto. intros (l1 & x & l2 & El & Hx & Hex). destruct (Hinv l1 x l2) as [[H _]|H]; auto. unfold emits in H. congruence.
Qed.
Theorem C25_fails_iff_slit_without_width : forall planck wl els, (exists er, chain planck wl els = Err er) <->
  exists l1 x l2, sequence els = l1 ++ x :: l2 /\ emits x /\ Exists (fun s => is_slit s /\ slit_width_of s = None) l2.
Proof. intros. apply chain_from_fails. Qed.
Print Assumptions C25_fails_iff_slit_without_width.

(** ** C26: common optics first *)
Theorem C26_distinct_names_all_kept : forall common channel, NoDup (map fst (common ++ channel)) -> prepend common channel = common ++ channel.
Proof. intros. unfold prepend. apply dof_list_distinct; auto. apply String_eqb_spec. Qed.
Print Assumptions C26_distinct_names_all_kept.

Lemma firsts_app_filter (l acc : list string) : NoDup l ->
  fold_left (fun acc x => if existsb (String.eqb x) acc then acc else acc ++ [x]) l acc = acc ++ filter (fun x => negb (existsb (String.eqb x) acc)) l.
Proof.
  revert acc. induction l as [|x l IH]; intros acc H; cbn [fold_left filter]; [now rewrite app_nil_r|].
  apply NoDup_cons_iff in H as [Hx H]. destruct (existsb (String.eqb x) acc) eqn:E; cbn [negb].
  - now apply IH.
  - rewrite IH by auto. rewrite <- app_assoc. cbn. do 2 f_equal. apply filter_ext_in. intros y Hy.
    rewrite existsb_app. cbn. destruct (String.eqb_spec y x) as [->|]; [contradiction|]. now rewrite ?Bool.orb_false_r.
Qed.
(** In general: common names in their order, then the channel's new names in theirs; a name in both has
    the channel's element at the common one's place. *)
Theorem C26_shared_name_takes_common_place : forall common channel, NoDup (map fst common) -> NoDup (map fst channel) ->
  map fst (prepend common channel) = map fst common ++ filter (fun k => negb (existsb (String.eqb k) (map fst common))) (map fst channel)
  /\ forall k, sget k (prepend common channel) = match sget k channel with Some e => Some e | None => sget k common end.
Proof.
  intros common channel H1 H2. unfold prepend. split.
  - rewrite keys_dof_list, map_app. unfold firsts. rewrite fold_left_app.
    rewrite (firsts_app_filter (map fst common) []) by auto. cbn [app]. 
    replace (filter (fun x => negb (existsb (String.eqb x) [])) (map fst common)) with (map fst common); [now apply firsts_app_filter|].
    clear. induction (map fst common) as [|x l IH]; cbn; [reflexivity|]. f_equal. exact IH.
  - intros k. unfold dof_list. rewrite (dget_dupdate _ String_eqb_spec), rev_app_distr. cbn.
    assert (Hr : forall l : elements, NoDup (map fst l) -> sget k (rev l) = sget k l).
    { intros l Hl. destruct (sget k l) as [v|] eqn:E.
      - apply NoDup_In_dget; [apply String_eqb_spec|rewrite map_rev; now apply NoDup_rev|]. apply -> in_rev. now apply (dget_Some_In _ String_eqb_spec).
      - apply (dget_None_notIn _ String_eqb_spec). rewrite map_rev. intros H. apply in_rev in H. revert H. now apply (dget_None_notIn _ String_eqb_spec). }
    assert (Ha : forall l1 l2 : elements, sget k (l1 ++ l2) = match sget k l1 with Some v => Some v | None => sget k l2 end).
    { intros l1 l2. induction l1 as [|[a b] l1 IH]; auto. cbn. destruct (String.eqb k a); auto. }
    rewrite Ha, !Hr by auto. destruct (sget k channel); auto. now destruct (sget k common).
Qed.
Print Assumptions C26_shared_name_takes_common_place.

(** The elements of a section appear under the names they have in it, in its order; a section with
    one element only uses that element's own name; a section with none yields one element that lets
    everything pass. *)
Theorem C26_elements_of_a_section : forall wl els,
  (forall d, prepare_elements (One d) wl = Ok els -> exists v e, els = [(v, e)] /\ sget "value" d = Some (Txt v) /\ build_element d wl = Ok e)
  /\ (forall ds, NoDup (map fst ds) -> prepare_elements (Several ds) wl = Ok els ->
      Forall2 (fun kd ke => fst ke = fst kd /\ build_element (snd kd) wl = Ok (snd ke)) ds els)
  /\ (prepare_elements NoElement wl = Ok els -> exists e, els = [("noElement"%string, e)] /\ sampled_on wl e /\ e_temp e = None /\ ~ is_slit e
      /\ forall k, (k < length wl)%nat -> at_ k (e_tr e) = 1).
Proof.
  intros wl els. split; [|split].
  - intros d E. unfold prepare_elements in E. dbind E e He. dbind E v Hv. exists v, e. split; [congruence|]. split; auto. unfold text in Hv. destruct (sget "value" d) as [[]|]; congruence.
  - intros ds Hn E. unfold prepare_elements in E. apply build_elements_inv in E. destruct E as (es & H & ->).
    assert (Hk : map fst (combine (map fst ds) es) = map fst ds). { clear Hn. induction H; cbn; congruence. }
    change (dupdate String.eqb [] (combine (map fst ds) es)) with (dof_list String.eqb (combine (map fst ds) es)). rewrite (dof_list_distinct _ String_eqb_spec). 2: now rewrite Hk.
    clear Hn Hk. induction H; cbn; constructor; auto.
  - intros E. unfold prepare_elements in E. dbind E e He. exists e. split; [congruence|]. pose proof (build_element_sampled _ _ _ He) as Hs. split; auto.
    apply build_element_inv in He. destruct He as (_ & Hy & _ & Ht & _ & He & _). cbn in Ht, He, Hy. split; [congruence|]. split; [unfold is_slit; intros X; rewrite X in Hy; discriminate|].
    assert (e_tr e = ones wl 1) as -> by congruence. intros. now apply ones_at.
Qed.
Print Assumptions C26_elements_of_a_section.

(** ** C59: what an element description means *)
Lemma silent_given d k : silent d k <-> given d k = false.
Proof. unfold silent, given, dmem. destruct (sget k d); split; congruence. Qed.
Lemma says_given d k v : says d k v -> given d k = true /\ number d k = Ok v.
Proof. unfold says, given, dmem, number. intros ->. auto. Qed.

(** A constant transmission or reflectivity holds within the band, nothing passes outside. *)
Theorem C59_constant_in_band : forall d wl v tr, silent d "data" -> constant_transmission d v -> get_transmission d wl = Ok tr ->
  length tr = length wl /\ forall k, (k < length wl)%nat ->
  (out_of_band d (at_ k wl) -> at_ k tr = 0) /\ (~ out_of_band d (at_ k wl) -> at_ k tr = v).
Proof.
  intros d wl v tr Hd Hc E. split; [eapply get_transmission_length; eauto|]. intros k Hk.
  apply silent_given in Hd. unfold get_transmission in E. rewrite Hd in E.
  assert (Hb : given d "transmission" && given d "reflectivity" = false /\ given d "transmission" || given d "reflectivity" = true
    /\ (if given d "transmission" then number d "transmission" else number d "reflectivity") = Ok v).
  { destruct Hc as [[H1 H2]|[H1 H2]]; apply says_given in H1; apply silent_given in H2; destruct H1 as [H1 H3]; rewrite H1, H2; cbn; auto. }
  destruct Hb as (Hb0 & Hb & Hv). rewrite Hb0, Hb, Hv in E. cbn [bind] in E.
  dbind E t Ht.
  assert (H1 : length t = length wl /\ ((exists m, says d "wl_min" m /\ at_ k wl < m) -> at_ k t = 0) /\ (~ (exists m, says d "wl_min" m /\ at_ k wl < m) -> at_ k t = v)).
  { unfold given, dmem, number, says in *. destruct (sget "wl_min" d) as [[m| |]|]; cbn [bind] in Ht; try discriminate; injection Ht as <-.
    - rewrite zero_where_length by (rewrite ones_length; auto). rewrite ones_length. split; auto. rewrite zero_where_at by (rewrite ?ones_length; auto). rewrite ones_at by auto.
      destruct (Rltb (at_ k wl) m) eqn:El; [apply Rltb_true in El|apply Rltb_false in El]; split; auto.
      + intros H. exfalso. apply H. eauto.
      + intros (m' & [= <-] & H). lra.
    - rewrite ones_length, ones_at by auto. split; auto. split; auto. intros (m & H & _). discriminate. }
  destruct H1 as (Hl & Hz & Hv').
  unfold given, dmem, number in E. unfold out_of_band.
  destruct (sget "wl_max" d) as [[m| |]|] eqn:Em; cbn [bind] in E; try discriminate; injection E as <-.
  - rewrite zero_where_at by auto. assert (Hs : says d "wl_max" m) by exact Em.
    destruct (Rltb m (at_ k wl)) eqn:El; [apply Rltb_true in El|apply Rltb_false in El]; split; auto.
    + intros H. exfalso. apply H. right. eauto.
    + intros [H|(m' & Hm' & H)]; auto. exfalso. unfold says in Hm'. rewrite Em in Hm'. injection Hm' as <-. lra.
  - split; [intros [H|(m' & Hm' & _)]; auto; unfold says in Hm'; congruence|intros H; apply Hv'; tauto].
Qed.
Print Assumptions C59_constant_in_band.

(** Without any transmission the element is transparent; with both a transmission and a reflectivity and
    no choice the construction fails; with a choice the band is ignored. *)
Theorem C59_defaults_and_choice : forall d wl,
  (silent d "data" -> silent d "transmission" -> silent d "reflectivity" -> exists tr, get_transmission d wl = Ok tr /\ length tr = length wl /\ forall k, (k < length wl)%nat -> at_ k tr = 1)
  /\ (forall a b, silent d "data" -> says d "transmission" a -> says d "reflectivity" b -> silent d "use" -> get_transmission d wl = Err KeyError)
  /\ (forall a b, silent d "data" -> says d "transmission" a -> says d "reflectivity" b -> forall use v, sget "use" d = Some (Txt use) -> says d use v ->
      exists tr, get_transmission d wl = Ok tr /\ length tr = length wl /\ forall k, (k < length wl)%nat -> at_ k tr = v).
Proof.
  intros d wl. repeat split.
  - intros H1 H2 H3. apply silent_given in H1, H2, H3. unfold get_transmission. rewrite H1, H2, H3. cbn. eexists. split; [reflexivity|]. split; [apply ones_length|]. intros. now apply ones_at.
  - intros a b H1 H2 H3 H4. apply silent_given in H1, H4. apply says_given in H2, H3. destruct H2 as [H2 _], H3 as [H3 _]. unfold get_transmission. now rewrite H1, H2, H3, H4.
  - intros a b H1 H2 H3 use v H4 H5. apply silent_given in H1. apply says_given in H2, H3, H5. destruct H2 as [H2 _], H3 as [H3 _], H5 as [_ H5].
    unfold get_transmission. rewrite H1, H2, H3. cbn [andb]. unfold given at 1, dmem, text. rewrite H4. cbn [bind]. rewrite H5. cbn. eexists. split; [reflexivity|]. split; [apply ones_length|]. intros. now apply ones_at.
Qed.
Print Assumptions C59_defaults_and_choice.

(** Emissivity: the given constant; else 1 for a detector box and 0 for all others. *)
Theorem C59_emissivity : forall d type wl, silent d "data" ->
  (forall v, says d "emissivity" v -> exists em, get_emissivity d type wl = Ok em /\ length em = length wl /\ forall k, (k < length wl)%nat -> at_ k em = v)
  /\ (silent d "emissivity" -> exists em, get_emissivity d type wl = Ok em /\ length em = length wl
      /\ forall k, (k < length wl)%nat -> (type = "detector box"%string -> at_ k em = 1) /\ (type <> "detector box"%string -> at_ k em = 0)).
Proof.
  intros d type wl Hd. apply silent_given in Hd. unfold get_emissivity. rewrite Hd. split.
  - intros v Hv. apply says_given in Hv. destruct Hv as [-> ->]. cbn. eexists. split; [reflexivity|]. split; [apply ones_length|]. intros. now apply ones_at.
  - intros H. apply silent_given in H. rewrite H. destruct (String.eqb_spec type "detector box") as [->|Hne]; eexists; (split; [reflexivity|]); (split; [apply ones_length|]); intros k Hk; rewrite ones_at by auto; split; congruence.
Qed.
Print Assumptions C59_emissivity.

(** With a data file the values stay within those of its column, and 0 outside its wavelengths. *)
Theorem C59_file_values_in_range : forall d t wl tr hi, sget "data" d = Some (Tab t) -> get_transmission d wl = Ok tr -> 0 <= hi ->
  (forall name c v, sget name t = Some c -> In v c -> name <> "Wavelength"%string -> name <> "wavelength"%string -> 0 <= v <= hi) ->
  (forall u, sget "use" d = Some (Txt u) -> u <> "Wavelength"%string /\ u <> "wavelength"%string) ->
  forall k, (k < length wl)%nat -> 0 <= at_ k tr <= hi.
Proof.
  intros d t wl tr hi Hd E Hh Hb Hu k Hk. unfold get_transmission in E. unfold given at 1 in E. unfold dmem in E. rewrite Hd in E. cbn iota in E.
  unfold table_of in E. rewrite Hd in E. cbn [bind] in E. dbind E c Hc. dbind E n Hn. dbind E x Hx. dbind E y Hy.
  assert (Hcn : c <> "Wavelength"%string /\ c <> "wavelength"%string).
  { destruct (given d "use") eqn:Eu.
    - unfold text in Hc. destruct (sget "use" d) as [[?|u|?]|]; try discriminate. injection Hc as <-. now apply Hu.
    - revert Hc. destruct (sget "Transmission" t); [|destruct (sget "Reflectivity" t); [|intros Hc; discriminate Hc]]; intros Hc; split; intros ->; discriminate Hc. }
  unfold col in Hy. destruct (sget c t) as [yc|] eqn:Ey; [|discriminate]. assert (yc = y) as -> by congruence.
  unfold interp1d in E. destruct x as [|x0 x]; [discriminate|]. destruct (Nat.eqb _ _); [|discriminate].
  assert (Etr : tr = map (interp (sort_src (combine (x0 :: x) y))) wl) by congruence. subst tr. unfold at_.
  rewrite nth_indep with (d' := interp (sort_src (combine (x0 :: x) y)) 0) by (rewrite map_length; auto). rewrite map_nth.
  destruct (interp_bounds (sort_src (combine (x0 :: x) y)) (nth k wl 0) 0 hi (sort_sorted _)) as [H|H]; [|rewrite H; lra|exact H].
  intros [a b] Hp. apply (proj1 (sort_In _ _)) in Hp. apply in_combine_r in Hp. cbn. eapply Hb; eauto; tauto.
Qed.
Print Assumptions C59_file_values_in_range.

(** Naming the wavelength column of the file always fails. *)
Theorem C59_named_wavelength_column_fails : forall d type wl t w, sget "data" d = Some (Tab t) -> sget "wl_col_name" d = Some w ->
  (exists e, get_transmission d wl = Err e) /\ get_emissivity d type wl = Err UnboundLocalError.
Proof.
  intros d type wl t w Hd Hw.
  assert (Eg : given d "data" = true) by (unfold given, dmem; now rewrite Hd).
  assert (Et : table_of d = Ok t) by (unfold table_of; now rewrite Hd).
  assert (En : get_wl_col_name t d = Err UnboundLocalError) by (unfold get_wl_col_name, given, dmem; now rewrite Hw).
  unfold get_transmission, get_emissivity. rewrite Eg, Et. cbn [bind]. rewrite En. split; [|reflexivity].
  match goal with |- context [bind ?r _] => destruct r as [c|]; cbn [bind]; eauto end.
Qed.
Print Assumptions C59_named_wavelength_column_fails.

(** ** A concrete path *)
Definition mirror : descr := [("value", Txt "M1"); ("type", Txt "surface"); ("reflectivity", Num 0.9); ("emissivity", Num 0.03); ("temperature", Num 80)]%string.
Definition slit_d : descr := [("value", Txt "slit"); ("type", Txt "slit"); ("width", Num 100)]%string.
Definition filter_d : descr := [("value", Txt "F"); ("type", Txt "filter"); ("transmission", Num 0.8); ("wl_min", Num 1); ("wl_max", Num 2)]%string.
Definition box_d : descr := [("value", Txt "box"); ("type", Txt "detector box"); ("temperature", Num 42)]%string.
Definition grid3 : list R := [0.5; 1.5; 2.5].
Example ex_path : exists common channel, prepare_elements (One mirror) grid3 = Ok common
  /\ prepare_elements (Several [("slit", slit_d); ("F", filter_d); ("box", box_d)]%string) grid3 = Ok channel
  /\ map fst (prepend common channel) = ["M1"; "slit"; "F"; "box"]%string.
Proof. eexists. eexists. split; [reflexivity|]. split; [reflexivity|]. reflexivity. Qed.
Example ex_chain : exists common channel rads, prepare_elements (One mirror) grid3 = Ok common
  /\ prepare_elements (Several [("slit", slit_d); ("F", filter_d); ("box", box_d)]%string) grid3 = Ok channel
  /\ chain (fun _ _ => 5) grid3 (prepend common channel) = Ok (rads, Some 100) /\ map fst rads = ["M1"; "box"]%string
  /\ map (fun p => r_slit (snd p)) rads = [true; false].
Proof.
  eexists. eexists. eexists. split; [reflexivity|]. split; [reflexivity|]. split; [reflexivity|]. split; reflexivity.
Qed.
(** an element called "total" loses its own column *)
Example C24_ex_total_name : let e := {| e_name := "total"; e_descr := []; e_type := "surface"; e_tr := [0.5]; e_em := [0]; e_temp := None; e_pos := Path; e_angle := None |} in
  let f := {| e_name := "f"; e_descr := []; e_type := "surface"; e_tr := [0.5]; e_em := [0]; e_temp := None; e_pos := Path; e_angle := None |} in
  sget "total" (transmission_table [1] [("total"%string, e); ("f"%string, f)]) <> Some (e_tr e).
Proof. cbn. intros H. assert (1 * 1 * 0.5 * 0.5 = 0.5) by congruence. lra. Qed.
