From Verif Require Import Base M_Task.

Section TaskFacts.
  Context {V B : Type} (vnone : V).
  Notation call := (@call V B).
  Notation task := (@task V B).
  Notation body := (@body V B).

  Lemma validate_Some (p : sdict V) keys :
    validate (Some p) keys =
      if forallb (fun k => smem k p) keys then Ok tt else @Err unit ValueError.
  Proof.
    induction keys as [|k ks IH]; cbn; auto. destruct (smem k p); cbn; auto.
  Qed.

  Lemma populate_fold_get (p input : sdict V) k :
    NoDup (map fst p) ->
    sget k (fold_left (fun inp kd => if smem (fst kd) inp then inp
                                     else sset (fst kd) (snd kd) inp) p input)
    = match sget k input with Some v => Some v | None => sget k p end.
  Proof.
    revert input; induction p as [|[a d] p IH]; intros input ND; cbn.
    - destruct (sget k input); auto.
    - cbn in ND. inversion ND as [|? ? NI ND']; subst. rewrite IH; auto.
      destruct (smem a input) eqn:E.
      + destruct (sget k input) eqn:G; auto.
        destruct (String.eqb k a) eqn:K; auto.
        apply String.eqb_eq in K; subst. unfold dmem in E. rewrite G in E; discriminate.
      + rewrite (dget_dset String.eqb String_eqb_spec).
        destruct (String.eqb k a) eqn:K.
        * apply String.eqb_eq in K; subst. unfold dmem in E. destruct (sget a input); auto; discriminate.
        * reflexivity.
  Qed.

  Lemma declare_params (b : B) decls :
    t_params (declare vnone b decls)
    = match decls with [] => None | _ => Some (dof_list String.eqb decls) end.
  Proof.
    unfold declare, dof_list, dupdate.
    assert (H : forall (l : list (string * V)) (t : task),
      t_params (fold_left (fun t nd => add_task_param t (fst nd) (snd nd)) l t) =
      match l with [] => t_params t | _ =>
        Some (fold_left (fun d kv => sset (fst kv) (snd kv) d) l
                (match t_params t with None => [] | Some p => p end)) end).
    { induction l as [|[n d] l IH]; intros t; cbn; auto. rewrite IH. cbn.
      destruct l; auto. }
    rewrite H. cbn. destruct decls; auto.
  Qed.

  Lemma declare_NoDup (b : B) decls p :
    t_params (declare vnone b decls) = Some p -> NoDup (map fst p).
  Proof.
    rewrite declare_params. destruct decls; [discriminate|]. intros [= <-].
    unfold dof_list. apply (dupdate_NoDup String.eqb String_eqb_spec [] (p0 :: decls)).
    constructor.
  Qed.

  Lemma call_params exec (t : task) kw : t_params (fst (fst (call exec t kw))) = t_params t.
  Proof.
    unfold M_Task.call. destruct (validate _ _); auto. destruct (populate _ _); auto.
    destruct (exec _ _ _) as [[b outs] err]; auto.
  Qed.

  Lemma run_calls_params (exec : body) h : forall t : task,
      t_params (fst (run_calls exec t h)) = t_params t.
  Proof.
    induction h as [|kw h IH]; intros t; cbn [run_calls]; auto.
    pose proof (call_params exec t kw) as P.
    destruct (call exec t kw) as [[t1 ev] r]. cbn in P.
    specialize (IH t1). destruct (run_calls exec t1 h). cbn in *. congruence.
  Qed.

  Lemma last_app_ne {A} (l1 l2 : list A) d : last (l1 ++ l2) d = last l2 (last l1 d).
  Proof.
    revert d; induction l1 as [|a l1 IH]; intros d; auto.
    rewrite <- app_comm_cons. destruct l1 as [|a' l1].
    - cbn [app last]. destruct l2 as [|b l2]; auto.
      clear. revert b; induction l2 as [|c l2 IH]; intros b; auto. cbn in *. destruct l2; auto.
    - change (last (a :: (a' :: l1) ++ l2) d) with (last ((a' :: l1) ++ l2) d).
      rewrite IH. auto.
  Qed.
End TaskFacts.

(** Keyword validation, over all histories. *)
Section TaskTheorems.
  Context {V B : Type} (vnone : V).
  Variable exec : @body V B.

  Lemma task_unknown_keyword_lemma decls b h kw k :
    In k (map fst kw) -> ~ In k (map fst decls) -> decls <> [] ->
    let t := fst (run_calls exec (declare vnone b decls) h) in
    call exec t kw = (t, None, Err ValueError).
  Proof.
    intros Ik Nk Nd t. unfold call.
    assert (P : t_params t = Some (dof_list String.eqb decls)).
    { unfold t. rewrite run_calls_params, declare_params. destruct decls; congruence. }
    rewrite P, validate_Some.
    destruct (forallb _ _) eqn:F; auto.
    rewrite forallb_forall in F. specialize (F k Ik).
    apply (dmem_In String.eqb String_eqb_spec) in F.
    unfold dof_list in F.
    apply (dupdate_In_keys String.eqb String_eqb_spec k [] decls) in F. cbn in F. tauto.
  Qed.

  Lemma task_known_keywords_run decls b h kw :
    decls <> [] -> (forall k, In k (map fst kw) -> In k (map fst decls)) ->
    let t := fst (run_calls exec (declare vnone b decls) h) in
    exists inp outs err,
      snd (fst (call exec t kw)) = Some (inp, outs) /\
      snd (fst (exec (t_state t) inp (t_output t))) = outs /\
      snd (exec (t_state t) inp (t_output t)) = err /\
      (snd (call exec t kw) = match err with Some e => Err e
                              | None => Ok (last outs (t_output t)) end) /\
      (forall k, sget k inp =
         match sget k kw with Some v => Some v | None => sget k (rev decls) end).
  Proof.
    intros Nd Hk t. unfold call.
    assert (P : t_params t = Some (dof_list String.eqb decls)).
    { unfold t. rewrite run_calls_params, declare_params. destruct decls; congruence. }
    rewrite P, validate_Some.
    replace (forallb (fun k => smem k (dof_list String.eqb decls)) (map fst kw)) with true.
    2:{ symmetry. apply forallb_forall. intros k Ik.
        apply (dmem_In String.eqb String_eqb_spec). unfold dof_list.
        apply (dupdate_In_keys String.eqb String_eqb_spec k [] decls). right; auto. }
    cbn [populate].
    set (inp := fold_left _ _ _).
    destruct (exec (t_state t) inp (t_output t)) as [[b' outs] err] eqn:E.
    exists inp, outs, err. rewrite E. cbn. repeat split.
    intros k. unfold inp. rewrite populate_fold_get.
    - destruct (sget k kw); auto. unfold dof_list.
      rewrite (dget_dupdate String.eqb String_eqb_spec k [] decls). cbn.
      destruct (sget k (rev decls)); auto.
    - apply (dupdate_NoDup String.eqb String_eqb_spec [] decls). constructor.
  Qed.

  (** All products set in a history, in order. *)
  Definition products (evs : list (option (@event V) * res V)) : list V :=
    flat_map (fun er => match fst er with Some (_, outs) => outs | None => [] end) evs.

  Lemma run_calls_output h : forall t,
    t_output (fst (run_calls exec t h)) = last (products (snd (run_calls exec t h))) (t_output t).
  Proof.
    induction h as [|kw h IH]; intros t; cbn [run_calls]; auto.
    destruct (call exec t kw) as [[t1 ev] r] eqn:C.
    specialize (IH t1). destruct (run_calls exec t1 h) as [t2 evs]. cbn [fst snd products flat_map] in *.
    rewrite IH, last_app_ne. f_equal.
    unfold call in C. destruct (validate _ _).
    2:{ injection C as <- <- <-; auto. }
    destruct (populate _ _).
    2:{ injection C as <- <- <-; auto. }
    destruct (exec _ _ _) as [[b' outs] err]. injection C as <- <- <-. auto.
  Qed.

  Lemma run_calls_app h1 h2 : forall t,
    run_calls exec t (h1 ++ h2) =
    (fst (run_calls exec (fst (run_calls exec t h1)) h2),
     snd (run_calls exec t h1) ++ snd (run_calls exec (fst (run_calls exec t h1)) h2)).
  Proof.
    induction h1 as [|kw h1 IH]; intros t.
    - cbn. destruct (run_calls exec t h2); auto.
    - cbn [app run_calls]. destruct (call exec t kw) as [[t1 ev] r].
      rewrite IH. destruct (run_calls exec t1 h1) as [t2 evs]. cbn. auto.
  Qed.

  Lemma task_return_value_lemma decls b h kw v :
    let t := fst (run_calls exec (declare vnone b decls) h) in
    snd (call exec t kw) = Ok v ->
    v = last (products (snd (run_calls exec (declare vnone b decls) (h ++ [kw])))) vnone.
  Proof.
    intros t Hok.
    rewrite run_calls_app. cbn [snd]. fold t. cbn [run_calls].
    pose proof (run_calls_output (h ++ [kw]) (declare vnone b decls)) as O.
    rewrite run_calls_app in O. cbn [snd fst] in O. fold t in O. cbn [run_calls] in O.
    assert (D : t_output (declare vnone b decls) = vnone).
    { unfold declare. assert (G : forall (l : list (string * V)) (t0 : @task V B),
        t_output (fold_left (fun t nd => add_task_param t (fst nd) (snd nd)) l t0) = t_output t0).
      { induction l as [|? l IH]; intros t0; cbn; auto. rewrite IH; auto. }
      rewrite G; auto. }
    rewrite D in O. destruct (call exec t kw) as [[t1 ev] r] eqn:C. cbn [fst snd] in *.
    rewrite <- O. subst r. unfold call in C. destruct (validate _ _); [|discriminate].
    destruct (populate _ _); [|discriminate]. destruct (exec _ _ _) as [[b' outs] err].
    destruct err; [discriminate|]. injection C as <- _ <-. auto.
  Qed.

  Lemma task_no_params_lemma b h kw :
    let t := fst (run_calls exec (declare vnone b []) h) in
    call exec t kw = (t, None, Err AttributeError).
  Proof.
    intros t. assert (P : t_params t = None) by (unfold t; rewrite run_calls_params; auto).
    unfold call. rewrite P. destruct kw as [|[a v] kw]; auto.
  Qed.
End TaskTheorems.
