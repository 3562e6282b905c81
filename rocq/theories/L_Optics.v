(** Lemmas about optical elements and paths. *)
From Verif Require Import Base Dict XR M_Signal M_Optics S_Signal S_Optics L_Signal.
From Coq Require Import Lia Permutation.
Open Scope list_scope.
Open Scope R_scope.

Lemma at_ext a b : length a = length b -> (forall k, (k < length a)%nat -> at_ k a = at_ k b) -> a = b.
Proof. intros H1 H2. apply nth_ext with (d := 0) (d' := 0); auto. Qed.
Lemma ones_length wl v : length (ones wl v) = length wl.
Proof. unfold ones. now rewrite map_length. Qed.
Lemma ones_at wl v k : (k < length wl)%nat -> at_ k (ones wl v) = v.
Proof.
  unfold at_, ones. intros H. rewrite nth_indep with (d' := 1 * v) by (rewrite map_length; auto).
  rewrite (map_nth (fun _ => 1 * v) wl 0 k). lra.
Qed.
Lemma mul_length a b : length a = length b -> length (mul a b) = length a.
Proof. intros H. unfold mul. rewrite map_length, combine_length. lia. Qed.
Lemma mul_at a b k : length a = length b -> at_ k (mul a b) = at_ k a * at_ k b.
Proof.
  intros H. unfold at_, mul. revert b k H. induction a as [|x a IH]; intros [|y b] k H; cbn in H; try lia; destruct k; cbn; try lra; auto.
Qed.
Lemma zero_where_length p wl tr : length wl = length tr -> length (zero_where p wl tr) = length tr.
Proof. intros H. unfold zero_where. rewrite map_length, combine_length. lia. Qed.
Lemma zero_where_at p wl tr k : length wl = length tr -> (k < length wl)%nat -> at_ k (zero_where p wl tr) = if p (at_ k wl) then 0 else at_ k tr.
Proof.
  intros H. unfold at_, zero_where. revert tr k H. induction wl as [|x wl IH]; intros [|y tr] k H Hk; cbn in *; try lia.
  destruct k; auto. apply IH; lia.
Qed.
Lemma interp1d_length x y wl r : interp1d x y wl = Ok r -> length r = length wl.
Proof.
  unfold interp1d. destruct x; [discriminate|]. destruct (Nat.eqb _ _); [|discriminate]. intros E.
  assert (r = map (interp (sort_src (combine (r0 :: x) y))) wl) as -> by congruence. now rewrite map_length.
Qed.
Ltac dbind E x Hx := match type of E with bind ?r _ = Ok _ => destruct r as [x|] eqn:Hx; cbn [bind] in E; [|discriminate] end.
Lemma get_transmission_length d wl tr : get_transmission d wl = Ok tr -> length tr = length wl.
Proof.
  unfold get_transmission. intros E. destruct (given d "data").
  - dbind E t Ht. dbind E c Hc. dbind E n Hn. dbind E x Hx. dbind E y Hy. eapply interp1d_length; eauto.
  - destruct (_ && _).
    + destruct (given d "use"); [|discriminate]. dbind E c Hc. dbind E v Hv. injection E as <-. apply ones_length.
    + destruct (_ || _); [|injection E as <-; apply ones_length].
      dbind E v Hv. dbind E t Ht.
      assert (Hl : length t = length wl).
      { destruct (given d "wl_min"); [dbind Ht m Hm|]; injection Ht as <-; rewrite ?zero_where_length; rewrite ?ones_length; auto. }
      destruct (given d "wl_max"); [dbind E m Hm|]; injection E as <-; rewrite ?zero_where_length; auto.
Qed.
Lemma get_emissivity_length d ty wl em : get_emissivity d ty wl = Ok em -> length em = length wl.
Proof.
  unfold get_emissivity. intros E. destruct (given d "data").
  - dbind E t Ht. dbind E c Hc. dbind E n Hn. dbind E x Hx. dbind E y Hy. eapply interp1d_length; eauto.
  - destruct (given d "emissivity"); [dbind E v Hv|destruct (String.eqb _ _)]; injection E as <-; apply ones_length.
Qed.
Lemma build_element_inv d wl e : build_element d wl = Ok e ->
  sget "value" d = Some (Txt (e_name e)) /\ sget "type" d = Some (Txt (e_type e)) /\ e_descr e = d
  /\ get_transmission d wl = Ok (e_tr e) /\ get_emissivity d (e_type e) wl = Ok (e_em e)
  /\ optional d "temperature" = Ok (e_temp e) /\ e_pos e = get_position (e_type e) /\ optional d "solid_angle" = Ok (e_angle e).
Proof.
  unfold build_element. intros E. dbind E n Hn. dbind E ty Hty. dbind E tr Htr. dbind E em Hem. dbind E tp Htp. dbind E an Han.
  injection E as <-. cbn. unfold text in *.
  destruct (sget "value" d) as [[?|?|?]|]; try discriminate. destruct (sget "type" d) as [[?|?|?]|]; try discriminate.
  repeat split; auto; congruence.
Qed.
Lemma build_element_sampled d wl e : build_element d wl = Ok e -> sampled_on wl e.
Proof.
  intros E. apply build_element_inv in E. destruct E as (_ & _ & _ & Ht & He & _). split; [eapply get_transmission_length|eapply get_emissivity_length]; eauto.
Qed.
Lemma build_elements_inv ds wl : forall out els, build_elements ds wl out = Ok els ->
  exists es, Forall2 (fun kd e => build_element (snd kd) wl = Ok e) ds es /\ els = dupdate String.eqb out (combine (map fst ds) es).
Proof.
  induction ds as [|[k d] ds IH]; intros out els E; cbn [build_elements] in E.
  - injection E as <-. exists []. split; [constructor|reflexivity].
  - dbind E e He. apply IH in E. destruct E as (es & H1 & ->). exists (e :: es). split; [constructor; auto|reflexivity].
Qed.
Lemma dupdate_In {V} (l d : sdict V) x : In x (dupdate String.eqb d l) -> In x d \/ In x l.
Proof.
  unfold dupdate. revert d. induction l as [|[k v] l IH]; intros d H; cbn in H; auto.
  apply IH in H. destruct H as [H|H]; [|right; now right]. 
  assert (Hs : In x d \/ x = (k, v)).
  { clear - H. induction d as [|[a b] d IH]; cbn in H; [intuition congruence|]. destruct (String.eqb k a) eqn:E; cbn in H |- *.
    - apply String_eqb_spec in E. subst a. intuition congruence.
    - intuition congruence. }
  destruct Hs as [Hs | ->]; auto. right. now left.
Qed.
Lemma dof_list_In {V} (l : sdict V) x : In x (dof_list String.eqb l) -> In x l.
Proof. intros H. apply dupdate_In in H. destruct H as [[]|H]; auto. Qed.
Lemma prepare_sampled o wl els : prepare_elements o wl = Ok els -> Forall (sampled_on wl) (sequence els).
Proof.
  unfold prepare_elements. intros E. destruct o as [|d|ds].
  - dbind E e He. injection E as <-. constructor; [|constructor]. eapply build_element_sampled; eauto.
  - dbind E e He. dbind E v Hv. injection E as <-. constructor; [|constructor]. eapply build_element_sampled; eauto.
  - apply build_elements_inv in E. destruct E as (es & H & ->). unfold sequence. rewrite Forall_forall. intros e He.
    apply in_map_iff in He. destruct He as ([k e'] & <- & He). apply dof_list_In in He. apply in_combine_r in He. cbn.
    clear - H He. induction H as [|kd e1 ds es H1 H2 IH]; [destruct He|]. destruct He as [<-|He]; auto. eapply build_element_sampled; eauto.
Qed.
Lemma prepend_sampled wl c1 c2 : Forall (sampled_on wl) (sequence c1) -> Forall (sampled_on wl) (sequence c2) -> Forall (sampled_on wl) (sequence (prepend c1 c2)).
Proof.
  unfold sequence, prepend. rewrite !Forall_forall. intros H1 H2 e He. apply in_map_iff in He. destruct He as ([k e'] & <- & He).
  apply dof_list_In in He. apply in_app_or in He. destruct He as [He|He]; [apply H1|apply H2]; apply (in_map snd _ _ He).
Qed.
Lemma prepare_keys o wl els : prepare_elements o wl = Ok els -> NoDup (map fst els).
Proof.
  unfold prepare_elements. intros E. destruct o as [|d|ds].
  - dbind E e He. injection E as <-. cbn. repeat constructor. intros [].
  - dbind E e He. dbind E v Hv. injection E as <-. cbn. repeat constructor. intros [].
  - apply build_elements_inv in E. destruct E as (es & H & ->). apply dupdate_NoDup; [apply String_eqb_spec|constructor].
Qed.
Lemma prepend_keys c1 c2 : NoDup (map fst (prepend c1 c2)).
Proof. unfold prepend, dof_list. apply dupdate_NoDup; [apply String_eqb_spec|constructor]. Qed.

(** ** Transmission table *)
Lemma product_cons x l : product (x :: l) = x * product l.
Proof. reflexivity. Qed.
Lemma product_app a b : product (a ++ b) = product a * product b.
Proof. unfold product. induction a as [|x a IH]; cbn; [lra|]. rewrite IH. lra. Qed.
Lemma product_perm a b : Permutation a b -> product a = product b.
Proof. unfold product. induction 1; cbn; try lra; nra. Qed.
Lemma product_unit l : (forall x, In x l -> 0 <= x <= 1) -> 0 <= product l <= 1.
Proof.
  unfold product. induction l as [|x l IH]; intros H; cbn; [lra|].
  assert (0 <= x <= 1) by (apply H; now left). assert (0 <= fold_right Rmult 1 l <= 1) by (apply IH; intros; apply H; now right). nra.
Qed.
Lemma product_nonneg l : (forall x, In x l -> 0 <= x) -> 0 <= product l.
Proof.
  unfold product. induction l as [|x l IH]; intros H; cbn; [lra|].
  apply Rmult_le_pos; [apply H; now left|apply IH; intros; apply H; now right].
Qed.
Lemma transmission_columns_spec wl els : forall t total, Forall (sampled_on wl) (sequence els) -> length total = length wl ->
  let (t', total') := transmission_columns els t total in
  length total' = length wl
  /\ (forall k, at_ k total' = at_ k total * product (map (fun e => at_ k (e_tr e)) (sequence els)))
  /\ t' = dupdate String.eqb t (map (fun p => (fst p, e_tr (snd p))) els).
Proof.
  induction els as [|[n e] els IH]; intros t total Hs Hl; cbn [transmission_columns].
  - repeat split; auto. intros k. cbn. lra.
  - apply Forall_cons_iff in Hs as [[He _] Hs]. cbn in He.
    specialize (IH (sset n (e_tr e) t) (mul total (e_tr e)) Hs). destruct (transmission_columns els _ _) as [t' total'].
    destruct IH as (H1 & H2 & H3); [rewrite mul_length; congruence|]. repeat split; auto.
    intros k. rewrite H2, mul_at by congruence. unfold sequence. cbn [map snd]. rewrite product_cons. ring.
Qed.

(** ** Emission *)
Lemma pass_through_spec wl rest : forall rad slit rad' slit', Forall (sampled_on wl) rest -> length (r_data rad) = length wl ->
  pass_through rest rad slit = Ok (rad', slit') ->
  length (r_data rad') = length wl
  /\ (forall k, at_ k (r_data rad') = at_ k (r_data rad) * product (map (fun e => at_ k (e_tr e)) rest))
  /\ r_pos rad' = r_pos rad
  /\ (r_slit rad' = true <-> r_slit rad = true \/ Exists is_slit rest).
Proof.
  induction rest as [|e rest IH]; intros rad slit rad' slit' Hs Hl E; cbn [pass_through] in E.
  - injection E as <- <-. repeat split; auto; [intros k; cbn; lra|intros [|H]; auto; inversion H].
  - apply Forall_cons_iff in Hs as [[He _] Hs].
    assert (Hm : length (mul (r_data rad) (e_tr e)) = length wl) by (rewrite mul_length; congruence).
    destruct (String.eqb (e_type e) "slit") eqn:Et.
    + dbind E w Hw. apply IH in E; auto. destruct E as (H1 & H2 & H3 & H4). cbn [r_data r_pos r_slit] in *. repeat split; auto.
      * intros k. rewrite H2, mul_at by congruence. cbn [map]. rewrite product_cons. ring.
      * intros _. right. left. now apply String_eqb_spec.
      * intros _. apply H4. auto.
    + apply IH in E; auto. destruct E as (H1 & H2 & H3 & H4). cbn [r_data r_pos r_slit] in *. repeat split; auto.
      * intros k. rewrite H2, mul_at by congruence. cbn [map]. rewrite product_cons. ring.
      * intros H. apply H4 in H. destruct H; auto.
      * intros H. apply H4. destruct H as [H|H]; auto. apply Exists_cons in H as [H|H]; auto.
        unfold is_slit in H. rewrite H in Et. discriminate.
Qed.
Lemma surface_length planck wl T em : length em = length wl -> length (surface_radiance planck wl T em) = length wl.
Proof. intros H. unfold surface_radiance. rewrite mul_length; rewrite ?map_length; auto. Qed.
Lemma surface_at planck wl T em k : length em = length wl -> (k < length wl)%nat -> at_ k (surface_radiance planck wl T em) = at_ k em * planck (at_ k wl) T.
Proof.
  intros H Hk. unfold surface_radiance. rewrite mul_at by (rewrite map_length; auto). f_equal. unfold at_.
  rewrite nth_indep with (d' := planck 0 T) by (rewrite map_length; auto). apply (map_nth (fun w => planck w T)).
Qed.
Lemma chain_from_other planck wl els : forall out slit rads slit' n, chain_from planck wl els out slit = Ok (rads, slit') ->
  (forall e, In e els -> emits e -> e_name e <> n) -> sget n rads = sget n out.
Proof.
  induction els as [|e els IH]; intros out slit rads slit' n E H; cbn [chain_from] in E; [congruence|].
  destruct (e_temp e) as [T|] eqn:Et.
  - match type of E with bind ?r _ = _ => destruct r as [[rad s]|]; cbn [bind] in E; [|discriminate] end.
    rewrite (IH _ _ _ _ _ E) by (intros; apply H; auto; now right).
    rewrite dget_dset_other; auto; [apply String_eqb_spec|]. intros Hn. apply (H e); [now left|unfold emits; congruence|auto].
  - apply (IH _ _ _ _ _ E). intros; apply H; auto. now right.
Qed.
Lemma chain_from_spec planck wl els : Forall (sampled_on wl) els -> NoDup (map e_name els) ->
  forall out slit rads slit', chain_from planck wl els out slit = Ok (rads, slit') ->
  forall l1 e l2 T, els = l1 ++ e :: l2 -> e_temp e = Some T ->
  exists rad s s', sget (e_name e) rads = Some rad /\ pass_through l2 {| r_data := surface_radiance planck wl T (e_em e); r_pos := e_pos e; r_slit := false |} s = Ok (rad, s').
Proof.
  intros Hs Hn. induction els as [|x els IH]; intros out slit rads slit' E l1 e l2 T El Et; [destruct l1; discriminate|].
  apply Forall_cons_iff in Hs as [_ Hs]. cbn [map] in Hn. apply NoDup_cons_iff in Hn as [Hx Hn]. cbn [chain_from] in E.
  destruct l1 as [|y l1]; cbn in El; injection El as -> ->.
  - rewrite Et in E. match type of E with bind ?r _ = _ => destruct r as [[rad s]|] eqn:Ep; cbn [bind] in E; [|discriminate] end.
    exists rad, slit, s. split; auto. rewrite (chain_from_other _ _ _ _ _ _ _ (e_name e) E); [apply dget_dset_same; apply String_eqb_spec|].
    intros e' He' _ Hne. apply Hx. rewrite <- Hne. now apply in_map.
  - destruct (e_temp y) as [Ty|].
    + match type of E with bind ?r _ = _ => destruct r as [[rad s]|] eqn:Ep; cbn [bind] in E; [|discriminate] end. eapply IH; eauto.
    + eapply IH; eauto.
Qed.
(** success and slit width of the inner loop *)
Lemma pass_through_ok rest : forall rad slit,
  (Forall (fun e => is_slit e -> slit_width_of e <> None) rest ->
   exists rad', pass_through rest rad slit = Ok (rad', fold_left (fun s e => if String.eqb (e_type e) "slit" then slit_width_of e else s) rest slit))
  /\ (Exists (fun e => is_slit e /\ slit_width_of e = None) rest -> exists e, pass_through rest rad slit = Err e).
Proof.
  induction rest as [|e rest IH]; intros rad slit; cbn [pass_through fold_left].
  - split; [eauto|]. intros H. inversion H.
  - split.
    + intros H. apply Forall_cons_iff in H as [He H]. destruct (String.eqb (e_type e) "slit") eqn:Et.
      * apply String_eqb_spec in Et. specialize (He Et). unfold slit_width_of, number in *. destruct (sget "width" (e_descr e)) as [[w| |]|]; try congruence.
        cbn [bind]. apply (IH _ (Some w)). auto.
      * apply IH. auto.
    + intros H. destruct (String.eqb (e_type e) "slit") eqn:Et.
      * destruct (number (e_descr e) "width") as [w|er] eqn:Ew; cbn [bind]; [|eauto].
        apply IH. apply Exists_cons in H as [[_ H]|H]; auto. unfold slit_width_of, number in *.
        destruct (sget "width" (e_descr e)) as [[w'| |]|]; congruence.
      * apply IH. apply Exists_cons in H as [[H _]|H]; auto. unfold is_slit in H. rewrite H in Et. discriminate.
Qed.
