(** C111-C113: a run and the file system around it. *)
From Coq Require Import FunctionalExtensionality.
From Verif Require Import Base M_Hdf5 S_Hdf5 L_Hdf5 L_Keep M_Pipeline S_Pipeline L_Pipeline M_Command S_Command L_Command.
Open Scope list_scope.

(** ** C111: which files a run may touch *)
(** the files of a run with output [o] in directory [d]: the output, the two copies, and images if asked for *)
Definition files_of_run (options targets : argument) (d : path) (o : string) (plot : bool) (p : path) : Prop :=
  p = d ++ [o] \/
  (exists q x, (options = Path (q ++ [x]) \/ targets = Path (q ++ [x])) /\ p = d ++ [x]) \/
  (plot = true /\ exists x, image_name x /\ p = d ++ [x]).

Section Run.
  Context {B V P L : Type}.
  Notation fs := (fs B V P).
  Variable meaning : argument -> option (content B V P) -> res (payload_arg V).
  Variable listing : argument -> option (content B V P) -> res L.
  Variable further : payload_arg V -> res (payload_arg V).
  Variable efficiency : payload_arg V -> res P.
  Variable observing : payload_arg V -> L -> bool -> option path ->
                       res (list (option string * option (list (string * item V))) * list (string * P)).
  Notation run := (run meaning listing further efficiency observing).
  Implicit Types s : fs.

  Lemma files_of_run_in options targets d o plot p : files_of_run options targets d o plot p -> exists x, p = d ++ [x].
  Proof. intros [->|[(q & x & _ & ->)|(_ & x & _ & ->)]]; eauto. Qed.
  Lemma files_of_run_not_around options targets d o plot p : files_of_run options targets d o plot p -> ~ around p d.
  Proof. intros F. apply files_of_run_in in F as (x & ->). eapply around_snoc; eauto. Qed.

  Lemma copy_within s a d s' r :
    s [] = Some Folder -> s d = Some Folder -> copy s a d = (s', r) ->
    within (fun p => exists q x, a = Path (q ++ [x]) /\ p = d ++ [x]) s s'.
  Proof.
    intros RT F. unfold copy. destruct a as [p|]; [|intros [= <- <-]; apply within_refl]. rewrite F.
    destruct (snoc_cases p) as [->|(q & x & ->)].
    - rewrite RT. destruct (path_eqb _ _); intros [= <- <-]; apply within_refl.
    - rewrite basename_snoc. destruct (s (q ++ [x])) as [[|c]|]; [| |intros [= <- <-]; apply within_refl].
      + destruct (path_eqb _ _); intros [= <- <-]; apply within_refl.
      + destruct (path_eqb _ _); [intros [= <- <-]; apply within_refl|].
        destruct (s (d ++ [x])) as [[|c']|]; intros [= <- <-]; try apply within_refl; apply within_put; eauto.
  Qed.

  Lemma within_at {Q : path -> Prop} {s s' : fs} p : within Q s s' -> ~ Q p -> s' p = s p.
  Proof. auto. Qed.

  Lemma remove_within replace s p s' r (Q : path -> Prop) :
    Q p -> (if replace && there s p then remove s p else (s, Ok tt)) = (s', r) -> within Q s s'.
  Proof.
    intros HQ. destruct (replace && there s p); [|intros [= <- <-]; apply within_refl].
    unfold remove. destruct (s p) as [[|c]|]; intros [= <- <-]; try apply within_refl. apply within_put. auto.
  Qed.

  Lemma set_out_spec options targets d o plot replace s s' r :
    sound_fs s -> (forall c, s d <> Some (File c)) ->
    set_out options targets (Some (d ++ [o])) replace s = (s', r) ->
    (forall p, ~ files_of_run options targets d o plot p ->
       s' p = s p \/ (s p = None /\ s' p = Some Folder /\ around p d)) /\
    (forall x, r = Ok x -> x = Some d /\ s' d = Some Folder).
  Proof.
    intros (RT & PA) ND. unfold set_out. rewrite parent_snoc.
    set (Q := files_of_run options targets d o plot).
    destruct (if replace && there s (d ++ [o]) then remove s (d ++ [o]) else (s, Ok tt)) as [s1 r1] eqn:E1.
    assert (W1 : within Q s s1) by (eapply remove_within; eauto; left; auto).
    destruct r1 as [[]|e]; cbn [andso].
    2:{ intros [= <- <-]. split; [|discriminate]. intros p N. left. auto. }
    assert (NA : forall p, around p d -> ~ Q p) by (intros p A F; eapply files_of_run_not_around; eauto).
    assert (AR : forall p, around p d -> s1 p = s p) by (intros p A; apply W1; auto).
    destruct (if there s1 d then (s1, Ok tt) else makedirs s1 [] d) as [s2 r2] eqn:E2.
    assert (W2 : forall p, s2 p = s1 p \/ (s1 p = None /\ s2 p = Some Folder /\ around p d)).
    { destruct (there s1 d); [injection E2 as <- <-; auto|]. intros p.
      destruct (makedirs_spec _ _ _ _ _ E2 p) as [|(X1 & X2 & q & _ & _ & A)]; auto. }
    assert (W12 : forall p, ~ Q p -> s2 p = s p \/ (s p = None /\ s2 p = Some Folder /\ around p d)).
    { intros p N. destruct (W2 p) as [X|(X1 & X2 & A)]; [left; rewrite X; auto|right; rewrite <- AR; auto]. }
    destruct r2 as [[]|e]; cbn [andso].
    2:{ intros [= <- <-]. split; [exact W12|discriminate]. }
    assert (D2 : s2 d = Some Folder).
    { destruct (there s1 d) eqn:T.
      - injection E2 as <- . unfold there in T. destruct (s1 d) as [[|c]|] eqn:X; auto; [|discriminate].
        rewrite AR in X by apply around_refl. exfalso. eapply ND; eauto.
      - apply (makedirs_made d s1 [] s2 E2). rewrite AR; auto. exists d. auto. }
    assert (RT2 : s2 [] = Some Folder).
    { assert (A0 : around [] d) by (exists d; auto). destruct (W12 [] (NA [] A0)) as [X|(_ & X & _)]; congruence. }
    destruct (copy s2 options d) as [s3 r3] eqn:E3. pose proof (copy_within _ _ _ _ _ RT2 D2 E3) as W3.
    assert (W3' : within Q s2 s3).
    { intros p N. apply W3. intros (q & x & -> & ->). apply N. right. left. exists q, x. auto. }
    assert (W13 : forall p, ~ Q p -> s3 p = s p \/ (s p = None /\ s3 p = Some Folder /\ around p d)).
    { intros p N. rewrite (W3' p N). auto. }
    destruct r3 as [[]|e]; cbn [andso].
    2:{ intros [= <- <-]. split; [exact W13|discriminate]. }
    assert (AR3 : forall p, around p d -> s3 p = s2 p) by (intros p A; apply W3'; auto).
    destruct (copy s3 targets d) as [s4 r4] eqn:E4.
    assert (W4 : within Q s3 s4).
    { intros p N. eapply copy_within; [| |exact E4|].
      - rewrite AR3; auto. exists d. auto.
      - rewrite AR3; auto. apply around_refl.
      - intros (q & x & -> & ->). apply N. right. left. exists q, x. auto. }
    assert (W14 : forall p, ~ Q p -> s4 p = s p \/ (s p = None /\ s4 p = Some Folder /\ around p d)).
    { intros p N. rewrite (W4 p N). auto. }
    destruct r4 as [[]|e]; cbn [andso]; intros [= <- <-].
    - split; [exact W14|]. intros x [= <-]. split; auto. rewrite (W4 d), (W3' d); auto using around_refl.
    - split; [exact W14|discriminate].
  Qed.

  (** everything after the copies *)
  Lemma rest_within options targets d o (plot : bool) info s s' (r : res unit) (dir : option path) :
    dir = Some d ->
    andso (prepare meaning s options (Some (d ++ [o])) info) (fun s arg =>
      match further arg with
      | Err e => (s, Err e)
      | Ok arg =>
          andso (if plot then match efficiency arg with
                              | Ok p => (save_image s dir "efficiency.png" p, Ok tt)
                              | Err e => (s, Err e)
                              end
                 else (s, Ok tt)) (fun s _ =>
          match listing targets (found s targets) with
          | Err e => (s, Err e)
          | Ok l =>
              match observing arg l plot dir with
              | Err e => (s, Err e)
              | Ok (es, images) => save (if plot then save_images s dir images else s) (Some (d ++ [o])) info es
              end
          end)
      end) = (s', r) ->
    within (fun p => p = d ++ [o] \/ (plot = true /\ exists x, image_name x /\ p = d ++ [x])) s s'.
  Proof.
    intros ->. set (Q := fun p : path => p = d ++ [o] \/ (plot = true /\ exists x, image_name x /\ p = d ++ [x])). intros H. revert H.
    apply within_andso; [|intros s1 arg s2 r2 _; destruct (further arg) as [arg'|e]; [|intros [= <- <-]; apply within_refl];
                          apply within_andso].
    - intros s1 r1. unfold prepare. destruct (meaning options _) as [[pl cs| |]|e]; try (intros [= <- <-]; apply within_refl).
      destruct (archive_at s (d ++ [o])) as [prev|e]; [|intros [= <- <-]; apply within_refl].
      destruct (open_file prev _ info) as [f [u|e]].
      + destruct (build_channels f pl cs) as [f' r']. intros [= <- <-]. apply (within_store Q s (d ++ [o]) (Some f')). left. auto.
      + intros [= <- <-]. apply (within_store Q s (d ++ [o]) (Some f)). left. auto.
    - intros s3 r3. destruct plot; [|intros [= <- <-]; apply within_refl].
      destruct (efficiency arg') as [p|e]; intros [= <- <-]; [|apply within_refl].
      cbn. apply within_put. right. split; auto. exists "efficiency.png"%string. split; auto. exists "efficiency"%string. auto.
    - intros s3 a s4 r4 _. destruct (listing targets _) as [l|e]; [|intros [= <- <-]; apply within_refl].
      destruct (observing arg' l plot (Some d)) as [[es images]|e]; [|intros [= <- <-]; apply within_refl].
      intros H. apply (within_trans _ _ (if plot then save_images s3 (Some d) images else s3)).
      + destruct plot; [|apply within_refl]. apply within_images. intros x p _. right. split; auto.
        exists (x ++ ".png")%string. split; auto. exists x. auto.
      + revert H. generalize (if plot then save_images s3 (Some d) images else s3). intros s5. unfold save.
        destruct es as [|e0 es]; [intros [= <- <-]; apply within_refl|].
        destruct (archive_at s5 (d ++ [o])) as [prev|e]; [|intros [= <- <-]; apply within_refl].
        destruct (save_targets prev info (e0 :: es)) as [f r']. intros [= <- <-]. apply within_store. left. auto.
  Qed.
End Run.

(** A run with an output file touches nothing but that file, one copy of each input beside it, and images if plots are asked for; directories are made where there was nothing.  Whatever
    the inputs contain, whether or not the run fails, and whenever it does. *)
Theorem C111_a_run_stays_in_its_directory :
  forall (B V P L : Type) meaning listing further efficiency observing options targets d o plot replace info
         (s s' : fs B V P) r,
    sound_fs s -> (forall c, s d <> Some (File c)) ->
    run (L := L) meaning listing further efficiency observing options targets (Some (d ++ [o])) plot replace info s = (s', r) ->
    forall p, ~ files_of_run options targets d o plot p ->
      s' p = s p \/ (s p = None /\ s' p = Some Folder /\ around p d).
Proof.
  intros B V P L meaning listing further efficiency observing options targets d o plot replace info s s' r SF ND H p NQ.
  unfold run in H.
  destruct (set_out options targets (Some (d ++ [o])) replace s) as [s1 r1] eqn:E1.
  destruct (set_out_spec options targets d o plot replace s s1 r1 SF ND E1) as (W1 & R1).
  destruct r1 as [dir|e]; cbn [andso] in H; [|injection H as <- <-; auto].
  destruct (R1 dir eq_refl) as (-> & _).
  rewrite (rest_within meaning listing further efficiency observing options targets d o plot info s1 s' r _ eq_refl H p); auto.
  intros [->|(PL & X)]; apply NQ; [left|right; right]; auto.
Qed.
Print Assumptions C111_a_run_stays_in_its_directory.

(** Without an output nothing at all is written: plots are shown, not saved. *)
Theorem C111_no_output_no_file :
  forall (B V P L : Type) meaning listing further efficiency observing options targets plot replace info (s s' : fs B V P) r,
    run (L := L) meaning listing further efficiency observing options targets None plot replace info s = (s', r) -> forall p, s' p = s p.
Proof.
  intros B V P L meaning listing further efficiency observing options targets plot replace info s s' r. unfold run. cbn [set_out andso].
  assert (PR : forall x, prepare meaning s options None info = (fst x, snd x) -> fst x = s).
  { intros [s1 r1]. unfold prepare. destruct (meaning options _) as [[pl cs| |]|e]; cbn; intros [= <- _]; auto. }
  destruct (prepare meaning s options None info) as [s1 r1] eqn:E1. specialize (PR (s1, r1) eq_refl). cbn in PR. subst s1.
  destruct r1 as [arg|e]; cbn [andso]; [|intros [= <- <-]; auto].
  destruct (further arg) as [arg'|e]; [|intros [= <- <-]; auto].
  assert (IM : forall l, save_images s None l = s) by (intros l; unfold save_images; induction l; cbn; auto).
  destruct plot; [destruct (efficiency arg') as [q|e]|]; cbn [andso save_image]; try (intros [= <- <-]; auto; fail);
    (destruct (listing targets _) as [l|e]; [|intros [= <- <-]; auto]);
    (destruct (observing arg' l _ _) as [[es images]|e]; [|intros [= <- <-]; auto]);
    try rewrite IM; cbn; intros [= <- <-]; auto.
Qed.
Print Assumptions C111_no_output_no_file.

(** ** C112: what becomes of the inputs *)
Lemma set_out_ok {B V P} (s : fs B V P) a x b y d o c e replace :
  sound_fs s -> no_file_around s d ->
  s (a ++ [x]) = Some (File c) -> s (b ++ [y]) = Some (File e) ->
  x <> y -> x <> o -> y <> o ->
  s (d ++ [x]) <> Some Folder -> s (d ++ [y]) <> Some Folder -> (replace = true -> s (d ++ [o]) <> Some Folder) ->
  exists s', set_out (Path (a ++ [x])) (Path (b ++ [y])) (Some (d ++ [o])) replace s = (s', Ok (Some d)) /\
    s' d = Some Folder /\ s' (a ++ [x]) = Some (File c) /\ s' (b ++ [y]) = Some (File e) /\
    s' (d ++ [x]) = Some (File c) /\ s' (d ++ [y]) = Some (File e) /\
    s' (d ++ [o]) = (if replace then None else s (d ++ [o])).
Proof.
  intros (RT & PA) NF A1 B1 XY XO YO NX NY NO. unfold set_out. rewrite parent_snoc.
  assert (NE : forall (p q : path) u v, u <> v -> p ++ [u] <> q ++ [v]).
  { intros p q u v N E. apply app_inj_tail in E as [_ E]. auto. }
  set (s1 := if replace then put s (d ++ [o]) None else s).
  assert (S1 : exists s1', (if replace && there s (d ++ [o]) then remove s (d ++ [o]) else (s, Ok tt)) = (s1', Ok tt) /\ forall p, s1' p = s1 p).
  { subst s1. destruct replace; cbn [andb]; [|exists s; auto]. unfold there, remove. destruct (s (d ++ [o])) as [[|c0]|] eqn:E.
    - exfalso. apply (NO eq_refl). auto.
    - exists (put s (d ++ [o]) None). auto.
    - exists s. split; auto. intros p. symmetry. apply put_id. auto. }
  destruct S1 as (s1' & -> & S1). cbn [andso].
  assert (O1 : forall p, p <> d ++ [o] -> s1' p = s p).
  { intros p N. rewrite S1. subst s1. destruct replace; auto. apply put_other. auto. }
  assert (DO : s1' (d ++ [o]) = if replace then None else s (d ++ [o])).
  { rewrite S1. subst s1. destruct replace; auto. apply put_same. }
  assert (AD : forall p, around p d -> s1' p = s p).
  { intros p A. apply O1. intros E. eapply around_snoc; eauto. }
  assert (S2 : exists s2, (if there s1' d then (s1', Ok tt) else makedirs s1' [] d) = (s2, Ok tt) /\ s2 d = Some Folder /\
             forall p, s2 p = s1' p \/ (s1' p = None /\ around p d)).
  { destruct (there s1' d) eqn:T.
    - exists s1'. split; auto. split; auto. unfold there in T. destruct (s1' d) as [[|c0]|] eqn:E; auto; [|discriminate].
      rewrite AD in E by apply around_refl. exfalso. eapply NF; eauto. apply around_refl.
    - destruct (makedirs_ok d s1' []) as (s2 & E & F).
      + cbn. intros q c0 A. rewrite AD by auto. apply NF. auto.
      + rewrite AD; auto. exists d. auto.
      + exists s2. split; auto. split; auto. intros p. destruct (makedirs_spec _ _ _ _ _ E p) as [|(X & _ & _ & _ & _ & A)]; auto. }
  destruct S2 as (s2 & -> & D2 & W2). cbn [andso].
  assert (K2 : forall p n, s p = Some n -> p <> d ++ [o] -> s2 p = Some n).
  { intros p n E N. destruct (W2 p) as [X|(X & _)]; rewrite O1 in X by auto; congruence. }
  assert (I2 : forall z, s2 (d ++ [z]) = s1' (d ++ [z])).
  { intros z. destruct (W2 (d ++ [z])) as [X|(_ & X)]; auto. exfalso. eapply around_snoc; eauto. }
  assert (A2 : s2 (a ++ [x]) = Some (File c)) by (apply K2; auto).
  assert (B2 : s2 (b ++ [y]) = Some (File e)) by (apply K2; auto).
  assert (CP : exists s3, copy s2 (Path (a ++ [x])) d = (s3, Ok tt) /\ s3 (d ++ [x]) = Some (File c) /\ forall p, p <> d ++ [x] -> s3 p = s2 p).
  { unfold copy. rewrite D2, basename_snoc, A2. destruct (path_eqb_spec (a ++ [x]) (d ++ [x])) as [E|N].
    - exists s2. rewrite <- E. auto.
    - exists (put s2 (d ++ [x]) (Some (File c))). rewrite I2, O1 by auto.
      destruct (s (d ++ [x])) as [[|c0]|]; [congruence| |]; split; auto; split; try apply put_same; intros; apply put_other; auto. }
  destruct CP as (s3 & -> & C3 & W3). cbn [andso].
  assert (CQ : exists s4, copy s3 (Path (b ++ [y])) d = (s4, Ok tt) /\ s4 (d ++ [y]) = Some (File e) /\ forall p, p <> d ++ [y] -> s4 p = s3 p).
  { unfold copy. rewrite (W3 d) by (intros E; eapply around_snoc; [exact E|apply around_refl]). rewrite D2, basename_snoc.
    rewrite (W3 (b ++ [y])) by auto. rewrite B2. destruct (path_eqb_spec (b ++ [y]) (d ++ [y])) as [E|N].
    - exists s3. rewrite <- E, W3; auto.
    - exists (put s3 (d ++ [y]) (Some (File e))). rewrite W3, I2, O1 by auto.
      destruct (s (d ++ [y])) as [[|c0]|]; [congruence| |]; split; auto; split; try apply put_same; intros; apply put_other; auto. }
  destruct CQ as (s4 & -> & C4 & W4). cbn [andso].
  assert (ND : forall z, d <> d ++ [z]) by (intros z E; eapply around_snoc; [exact E|apply around_refl]).
  exists s4. split; auto. split; [rewrite W4, W3; auto|]. split; [|split; [|split; [|split]]].
  - rewrite W4 by auto. destruct (list_eq_dec string_dec (a ++ [x]) (d ++ [x])) as [->|N]; auto. rewrite W3; auto.
  - destruct (list_eq_dec string_dec (b ++ [y]) (d ++ [y])) as [->|N]; auto. rewrite W4, W3; auto.
  - rewrite W4; auto.
  - auto.
  - rewrite W4, W3, I2, DO; auto.
Qed.

(** A run leaves both inputs as they were and an exact copy of each beside the output - provided
    their names differ from each other and from the output's (and from images'), wherever they lie; even if the run fails. *)
Theorem C112_inputs_are_kept_and_copied :
  forall (B V P L : Type) meaning listing further efficiency observing (s s' : fs B V P) r a x b y d o c e plot replace info,
    sound_fs s -> no_file_around s d ->
    s (a ++ [x]) = Some (File c) -> s (b ++ [y]) = Some (File e) ->
    x <> y -> x <> o -> y <> o -> (plot = true -> ~ image_name x /\ ~ image_name y) ->
    s (d ++ [x]) <> Some Folder -> s (d ++ [y]) <> Some Folder -> (replace = true -> s (d ++ [o]) <> Some Folder) ->
    run (L := L) meaning listing further efficiency observing (Path (a ++ [x])) (Path (b ++ [y])) (Some (d ++ [o])) plot replace info s = (s', r) ->
    s' (a ++ [x]) = Some (File c) /\ s' (b ++ [y]) = Some (File e) /\
    s' (d ++ [x]) = Some (File c) /\ s' (d ++ [y]) = Some (File e).
Proof.
  intros B V P L meaning listing further efficiency observing s s' r a x b y d o c e plot replace info SF NF A1 B1 XY XO YO IM NX NY NO H.
  destruct (set_out_ok s a x b y d o c e replace SF NF A1 B1 XY XO YO NX NY NO) as (s1 & E1 & _ & A2 & B2 & C2 & D2 & _).
  unfold run in H. rewrite E1 in H. cbn [andso] in H.
  pose proof (rest_within meaning listing further efficiency observing _ _ d o plot info s1 s' r _ eq_refl H) as W.
  assert (NQ : forall p z, z = x \/ z = y -> ~ (p ++ [z] = d ++ [o] \/ (plot = true /\ exists n, image_name n /\ p ++ [z] = d ++ [n]))).
  { intros p z Z [E|(PL & n & IN & E)]; apply app_inj_tail in E as [_ E].
    - destruct Z; congruence.
    - destruct (IM PL). destruct Z; congruence. }
  rewrite !W by auto. auto.
Qed.
Print Assumptions C112_inputs_are_kept_and_copied.

(** Inputs of the same name: one copy only, that of the target list; and if the payload lies in the output
    directory it is overwritten by the target list. *)
Theorem C112_inputs_of_the_same_name :
  forall (B V P L : Type) meaning listing further efficiency observing (s s' : fs B V P) r a b x d o c e plot replace info,
    sound_fs s -> s d = Some Folder -> a ++ [x] <> b ++ [x] -> b <> d ->
    s (a ++ [x]) = Some (File c) -> s (b ++ [x]) = Some (File e) ->
    x <> o -> (plot = true -> ~ image_name x) ->
    s (d ++ [x]) <> Some Folder -> (replace = true -> s (d ++ [o]) <> Some Folder) ->
    run (L := L) meaning listing further efficiency observing (Path (a ++ [x])) (Path (b ++ [x])) (Some (d ++ [o])) plot replace info s = (s', r) ->
    s' (d ++ [x]) = Some (File e).
Proof.
  intros B V P L meaning listing further efficiency observing s s' r a b x d o c e plot replace info SF D AB BD A1 B1 XO IM NX NO H.
  unfold run, set_out in H. rewrite parent_snoc in H.
  assert (NE : forall p, p ++ [x] <> d ++ [o]) by (intros p E; apply app_inj_tail in E as [_ E]; auto).
  assert (ND : forall z, d <> d ++ [z]) by (intros z E; eapply around_snoc; [exact E|apply around_refl]).
  assert (S1 : exists s1, (if replace && there s (d ++ [o]) then remove s (d ++ [o]) else (s, Ok tt)) = (s1, Ok tt) /\ forall p, p <> d ++ [o] -> s1 p = s p).
  { destruct replace; cbn [andb]; [|exists s; auto]. unfold there, remove. destruct (s (d ++ [o])) as [[|c0]|] eqn:E.
    - exfalso. apply (NO eq_refl). auto.
    - eexists. split; [reflexivity|]. intros. apply put_other. auto.
    - exists s. auto. }
  destruct S1 as (s1 & E1 & W1). rewrite E1 in H. cbn [andso] in H. clear E1.
  assert (D1 : s1 d = Some Folder) by (rewrite W1; auto).
  assert (T : there s1 d = true) by (unfold there; rewrite D1; auto). rewrite T in H. cbn [andso] in H.
  assert (CP : exists s3, copy s1 (Path (a ++ [x])) d = (s3, Ok tt) /\ forall p, p <> d ++ [x] -> s3 p = s1 p).
  { unfold copy. rewrite D1, basename_snoc, W1, A1 by auto. destruct (path_eqb_spec (a ++ [x]) (d ++ [x])) as [E|N]; [eauto|].
    rewrite W1 by auto. destruct (s (d ++ [x])) as [[|c0]|]; [congruence| |]; (eexists; split; [reflexivity|]; intros; apply put_other; auto). }
  destruct CP as (s3 & E3 & W3). rewrite E3 in H. cbn [andso] in H.
  assert (BX : b ++ [x] <> d ++ [x]) by (intros E; apply app_inj_tail in E as [E _]; auto).
  assert (N3 : s3 (d ++ [x]) <> Some Folder).
  { unfold copy in E3. rewrite D1, basename_snoc, W1, A1 in E3 by auto. destruct (path_eqb_spec (a ++ [x]) (d ++ [x])) as [E|N].
    - injection E3 as <-. rewrite W1; auto.
    - rewrite W1 in E3 by auto. destruct (s (d ++ [x])) as [[|c0]|]; [congruence| |]; injection E3 as <-; rewrite put_same; discriminate. }
  assert (CQ : copy s3 (Path (b ++ [x])) d = (put s3 (d ++ [x]) (Some (File e)), Ok tt)).
  { unfold copy. rewrite (W3 d) by auto. rewrite D1, basename_snoc, W3, W1, B1 by auto.
    destruct (path_eqb_spec (b ++ [x]) (d ++ [x])); [congruence|]. destruct (s3 (d ++ [x])) as [[|c0]|]; congruence. }
  rewrite CQ in H. cbn [andso] in H.
  rewrite (rest_within meaning listing further efficiency observing _ _ d o plot info _ s' r _ eq_refl H (d ++ [x])); [apply put_same|].
  intros [E|(PL & n & IN & E)]; apply app_inj_tail in E as [_ E]; [auto|]. apply (IM PL). congruence.
Qed.
Print Assumptions C112_inputs_of_the_same_name.

(** An input named as the output is deleted before it is read: the run fails and the file is lost. *)
Theorem C112_output_over_an_input :
  forall (B V P L : Type) meaning listing further efficiency observing (s s' : fs B V P) r options targets d o c plot info,
    sound_fs s -> s (d ++ [o]) = Some (File c) ->
    options = Path (d ++ [o]) \/ (targets = Path (d ++ [o]) /\ forall q, options <> Path (q ++ [o])) ->
    run (L := L) meaning listing further efficiency observing options targets (Some (d ++ [o])) plot true info s = (s', r) ->
    s' (d ++ [o]) = None /\ exists x, r = Err x.
Proof.
  intros B V P L meaning listing further efficiency observing s s' r options targets d o c plot info SF E C H.
  unfold run, set_out in H. rewrite parent_snoc in H. unfold there at 1, remove in H. rewrite E in H. cbn [andb andso] in H.
  set (s1 := put s (d ++ [o]) None) in *.
  assert (ND : forall z, d <> d ++ [z]) by (intros z X; eapply around_snoc; [exact X|apply around_refl]).
  assert (FD : s d = Some Folder) by (destruct SF as (_ & PA); apply (PA d o); rewrite E; discriminate).
  assert (D1 : s1 d = Some Folder) by (subst s1; rewrite put_other; auto).
  unfold there in H. rewrite D1 in H. cbn [andso] in H.
  assert (O1 : s1 (d ++ [o]) = None) by (subst s1; apply put_same).
  destruct C as [-> |(-> & NO)].
  - unfold copy at 1 in H. rewrite O1 in H. cbn [andso] in H. injection H as <- <-. eauto.
  - assert (W : forall s3 r3, copy s1 options d = (s3, r3) -> s3 (d ++ [o]) = None).
    { intros s3 r3 X. rewrite (copy_within s1 options d s3 r3); auto.
      - subst s1. rewrite put_other; [apply SF|]. destruct d; discriminate.
      - intros (q & x & -> & Y). apply app_inj_tail in Y as [_ <-]. eapply NO; eauto. }
    destruct (copy s1 options d) as [s3 [[]|x]]; specialize (W _ _ eq_refl); cbn [andso] in H; [|injection H as <- <-; eauto].
    unfold copy in H. rewrite W in H. cbn [andso] in H. injection H as <- <-. eauto.
Qed.
Print Assumptions C112_output_over_an_input.

(** If the output directory is in fact a file, that file is overwritten with the inputs and the run
    fails. *)
Theorem C112_a_file_in_place_of_the_directory :
  forall (B V P L : Type) meaning listing further efficiency observing (s s' : fs B V P) r a x b y d o c e k plot replace info,
    sound_fs s -> s d = Some (File k) -> a ++ [x] <> d -> b ++ [y] <> d ->
    s (a ++ [x]) = Some (File c) -> s (b ++ [y]) = Some (File e) ->
    (forall arg, meaning (Path (a ++ [x])) (Some c) = Ok arg -> exists p cs, arg = Xml p cs) ->
    run (L := L) meaning listing further efficiency observing (Path (a ++ [x])) (Path (b ++ [y])) (Some (d ++ [o])) plot replace info s = (s', r) ->
    s' d = Some (File e) /\ exists x, r = Err x.
Proof.
  intros B V P L meaning listing further efficiency observing s s' r a x b y d o c e k plot replace info SF D AD BD A1 B1 MX H.
  unfold run, set_out in H. rewrite parent_snoc in H.
  assert (NO : s (d ++ [o]) = None).
  { destruct (s (d ++ [o])) eqn:E; auto. destruct SF as (_ & PA). rewrite (PA d o) in D; congruence. }
  unfold there at 1 in H. rewrite NO, andb_false_r in H. cbn [andso] in H. unfold there in H. rewrite D in H. cbn [andso] in H.
  set (s1 := put s d (Some (File c))) in *.
  assert (C1 : copy s (Path (a ++ [x])) d = (s1, Ok tt)).
  { unfold copy. rewrite D, A1. destruct (path_eqb_spec (a ++ [x]) d); [congruence|]. rewrite D. reflexivity. }
  rewrite C1 in H. cbn [andso] in H.
  assert (B2 : s1 (b ++ [y]) = Some (File e)) by (subst s1; rewrite put_other; auto).
  assert (D2 : s1 d = Some (File c)) by (subst s1; apply put_same).
  set (s2 := put s1 d (Some (File e))) in *.
  assert (C2 : copy s1 (Path (b ++ [y])) d = (s2, Ok tt)).
  { unfold copy. rewrite D2, B2. destruct (path_eqb_spec (b ++ [y]) d); [congruence|]. rewrite D2. reflexivity. }
  rewrite C2 in H. cbn [andso] in H.
  assert (D3 : s2 d = Some (File e)) by (subst s2; apply put_same).
  assert (A3 : found s2 (Path (a ++ [x])) = Some c).
  { unfold found, content_at. subst s2 s1. rewrite !put_other, A1; auto. }
  assert (O3 : s2 (d ++ [o]) = None).
  { subst s2 s1. rewrite !put_other; auto; intros X; symmetry in X; eapply around_snoc; try exact X; apply around_refl. }
  unfold prepare in H. rewrite A3 in H. destruct (meaning (Path (a ++ [x])) (Some c)) as [arg|z] eqn:M.
  - destruct (MX arg eq_refl) as (p & cs & ->). unfold archive_at in H. rewrite O3, parent_snoc, D3 in H. cbn [andso] in H.
    injection H as <- <-. eauto.
  - cbn [andso] in H. injection H as <- <-. eauto.
Qed.
Print Assumptions C112_a_file_in_place_of_the_directory.

(** ** C113: the output of a run, and the results it held before *)
(** The old output is deleted before anything is checked: with a payload file that does not exist
    the run fails at once, and the former results are gone. *)
Theorem C113_a_failed_run_destroys_former_results :
  forall (B V P L : Type) meaning listing further efficiency observing (s s' : fs B V P) r q targets d o k plot info,
    sound_fs s -> s (d ++ [o]) = Some (File k) -> s q = None ->
    run (L := L) meaning listing further efficiency observing (Path q) targets (Some (d ++ [o])) plot true info s = (s', r) ->
    r = Err OSError /\ s' (d ++ [o]) = None /\ forall p, p <> d ++ [o] -> s' p = s p.
Proof.
  intros B V P L meaning listing further efficiency observing s s' r q targets d o k plot info SF E Q H.
  unfold run, set_out in H. rewrite parent_snoc in H. unfold there at 1, remove in H. rewrite E in H. cbn [andb andso] in H.
  assert (FD : s d = Some Folder) by (destruct SF as (_ & PA); apply (PA d o); rewrite E; discriminate).
  assert (ND : d <> d ++ [o]) by (intros X; eapply around_snoc; [exact X|apply around_refl]).
  unfold there in H. rewrite (put_other s (d ++ [o]) None d ND), FD in H. cbn [andso] in H.
  unfold copy at 1 in H. rewrite put_other in H by (intros ->; congruence). rewrite Q in H. cbn [andso] in H.
  injection H as <- <-. split; auto. split; [apply put_same|]. intros. apply put_other. auto.
Qed.
Print Assumptions C113_a_failed_run_destroys_former_results.

(** With [replace] nothing of a run depends on what the output held before. *)
Theorem C113_former_results_do_not_matter :
  forall (B V P L : Type) meaning listing further efficiency observing (s : fs B V P) k options targets d o plot info,
    run (L := L) meaning listing further efficiency observing options targets (Some (d ++ [o])) plot true info (put s (d ++ [o]) (Some (File k))) =
    run (L := L) meaning listing further efficiency observing options targets (Some (d ++ [o])) plot true info (put s (d ++ [o]) None).
Proof.
  intros B V P L meaning listing further efficiency observing s k options targets d o plot info.
  unfold run. f_equal. unfold set_out. f_equal.
  unfold there, remove. rewrite !put_same. cbn [andb]. f_equal. apply functional_extensionality. intros p.
  unfold put. destruct (path_eqb (d ++ [o]) p); auto.
Qed.
Print Assumptions C113_former_results_do_not_matter.

(** The inputs exist and are read as they are; the output is written as Model M_Pipeline says: what C105
    and its like state of [standard_pipeline] is what is found at the output's path. *)
Theorem C113_the_output_of_a_run :
  forall (B V P L : Type) meaning listing further efficiency observing (s s' : fs B V P) r a x b y d o c e plot replace info
         arg arg' l es images prev so oo,
    sound_fs s -> no_file_around s d ->
    s (a ++ [x]) = Some (File c) -> s (b ++ [y]) = Some (File e) ->
    x <> y -> x <> o -> y <> o -> (plot = true -> ~ image_name x /\ ~ image_name y /\ ~ image_name o) ->
    s (d ++ [x]) <> Some Folder -> s (d ++ [y]) <> Some Folder ->
    s (d ++ [o]) = option_map (fun f => File (Archive f)) prev ->
    meaning (Path (a ++ [x])) (Some c) = Ok arg -> further arg = Ok arg' -> (plot = true -> exists p, efficiency arg' = Ok p) ->
    listing (Path (b ++ [y])) (Some e) = Ok l -> observing arg' l plot (Some d) = Ok (es, images) ->
    so <> oo ->
    run (L := L) meaning listing further efficiency observing (Path (a ++ [x])) (Path (b ++ [y])) (Some (d ++ [o])) plot replace info s = (s', r) ->
    exists f, standard_pipeline so oo replace info arg (Ok es) prev = (f, r) /\
              s' (d ++ [o]) = option_map (fun f => File (Archive f)) f.
Proof.
  intros B V P L meaning listing further efficiency observing s s' r a x b y d o c e plot replace info arg arg' l es images prev so oo
         SF NF A1 B1 XY XO YO IM NX NY NO M FU EF LI OB SO H.
  assert (NO' : replace = true -> s (d ++ [o]) <> Some Folder) by (intros _; rewrite NO; destruct prev; discriminate).
  destruct (set_out_ok s a x b y d o c e replace SF NF A1 B1 XY XO YO NX NY NO') as (s1 & E1 & D1 & A2 & B2 & _ & _ & O1).
  unfold run in H. rewrite E1 in H. cbn [andso] in H. clear E1.
  set (prev1 := if replace then None else prev) in *.
  assert (O2 : s1 (d ++ [o]) = option_map (fun f => File (Archive f)) prev1) by (rewrite O1, NO; destruct replace; auto).
  assert (AA : archive_at s1 (d ++ [o]) = Ok prev1).
  { unfold archive_at. rewrite O2, parent_snoc, D1. destruct prev1; auto. }
  unfold standard_pipeline. fold prev1. apply String.eqb_neq in SO. rewrite SO. cbn [andb].
  assert (PI : is_file s1 (d ++ [o]) = match prev1 with Some _ => true | None => false end).
  { unfold is_file. rewrite O2. destruct prev1; auto. }
  unfold prepare in H. unfold found at 1, content_at in H. rewrite A2, M in H.
  (* the state after the payload *)
  assert (REST : forall s2 f2, s2 d = Some Folder -> s2 (b ++ [y]) = Some (File e) -> s2 (d ++ [o]) = option_map (fun f => File (Archive f)) f2 ->
     match further arg with
      | Err e => (s2, Err e)
      | Ok arg =>
          andso (if plot then match efficiency arg with
                              | Ok p => (save_image s2 (Some d) "efficiency.png" p, Ok tt)
                              | Err e => (s2, Err e)
                              end
                 else (s2, Ok tt)) (fun s _ =>
          match listing (Path (b ++ [y])) (found s (Path (b ++ [y]))) with
          | Err e => (s, Err e)
          | Ok l =>
              match observing arg l plot (Some d) with
              | Err e => (s, Err e)
              | Ok (es, images) => save (if plot then save_images s (Some d) images else s) (Some (d ++ [o])) info es
              end
          end)
      end = (s', r) -> exists f, save_targets f2 info es = (f, r) /\ s' (d ++ [o]) = option_map (fun f => File (Archive f)) f).
  { clear H. intros s2 f2 D2 B3 O3. rewrite FU.
    set (s3 := if plot then match efficiency arg' with Ok p => save_image s2 (Some d) "efficiency.png" p | Err _ => s2 end else s2).
    assert (NE : forall (p : path) z n, image_name n -> ~ image_name z -> p ++ [z] <> d ++ [n]).
    { intros p z n I N E. apply app_inj_tail in E as [_ E]. congruence. }
    assert (K3 : forall p z, (plot = true -> ~ image_name z) -> s3 (p ++ [z]) = s2 (p ++ [z])).
    { intros p z N. subst s3. destruct plot; auto. destruct (efficiency arg'); auto. cbn. apply put_other. apply NE; auto. exists "efficiency"%string. auto. }
    assert (ND : forall z, d <> d ++ [z]) by (intros z E; eapply around_snoc; [exact E|apply around_refl]).
    assert (D3 : s3 d = Some Folder).
    { subst s3. destruct plot; auto. destruct (efficiency arg'); auto. cbn. rewrite put_other; auto. }
    replace (if plot then _ else _) with (s3, @Ok unit tt).
    2:{ subst s3. destruct plot; auto. destruct (EF eq_refl) as (p & ->). auto. }
    cbn [andso]. unfold found, content_at. rewrite K3, B3 by (intros PL; apply IM in PL; tauto). rewrite LI, OB.
    set (s4 := if plot then save_images s3 (Some d) images else s3).
    assert (W4 : within (fun p => plot = true /\ exists n, image_name n /\ p = d ++ [n]) s3 s4).
    { subst s4. destruct plot; [|apply within_refl]. apply within_images. intros n p _. split; auto. exists (n ++ ".png")%string. split; auto. exists n. auto. }
    assert (O4 : s4 (d ++ [o]) = option_map (fun f => File (Archive f)) f2).
    { rewrite W4. - rewrite K3; auto. intros PL. apply IM in PL. tauto.
      - intros (PL & n & I & E). apply IM in PL as (_ & _ & N). exact (NE d o n I N E). }
    assert (D4 : s4 d = Some Folder).
    { rewrite W4; auto. intros (_ & n & _ & E). exact (ND n E). }
    unfold save. destruct es as [|e0 es0]; [intros [= <- <-]; cbn; eauto|].
    assert (A4 : archive_at s4 (d ++ [o]) = Ok f2) by (unfold archive_at; rewrite O4, parent_snoc, D4; destruct f2; auto).
    rewrite A4. destruct (save_targets f2 info (e0 :: es0)) as [f r'] eqn:SV. intros [= <- <-]. exists f. split; auto.
    destruct f as [f|]; [apply put_same|]. cbn. rewrite O4.
    destruct f2 as [f2|]; auto. exfalso. clear - SV. cbn in SV.
    destruct e0 as [kk vv]. destruct (open_file (Some f2) true info) as [g [u|z]]; [|discriminate].
    destruct vv; [|discriminate].
    destruct (write_target g _ _) as [g' [u'|z']]; [|discriminate].
    assert (X := save_targets_keeps info es0 (Some g') None r' SV). cbn in X. destruct X as (yy & X & _). discriminate. }
  destruct arg as [payload cs| |].
  - rewrite AA, PI in H. destruct (open_file prev1 _ info) as [f [u|z]].
    + destruct (build_channels f payload cs) as [f' [u'|z]]; cbn [andso] in H.
      * apply (REST _ (Some f')) in H; auto.
        -- cbn [store]; rewrite put_other; auto. intros E; eapply around_snoc; [exact E|apply around_refl].
        -- cbn [store]; rewrite put_other; auto. intros E; apply app_inj_tail in E as [_ E]; auto.
        -- apply put_same.
      * injection H as <- <-. exists (Some f'). split; auto. apply put_same.
    + cbn [andso] in H. injection H as <- <-. exists (Some f). split; auto. apply put_same.
  - cbn [andso] in H. apply (REST _ prev1) in H; auto.
  - cbn [andso] in H. injection H as <- <-. exists prev1. auto.
Qed.
Print Assumptions C113_the_output_of_a_run.

(** Without [replace] a run adds to the archive at the output and takes nothing away, whether it ends well or not. *)
Theorem C113_without_replace_nothing_is_lost :
  forall (B V P L : Type) meaning listing further efficiency observing (s s' : fs B V P) r a x b y d o c e f0 plot info,
    sound_fs s -> no_file_around s d ->
    s (a ++ [x]) = Some (File c) -> s (b ++ [y]) = Some (File e) ->
    x <> y -> x <> o -> y <> o -> (plot = true -> ~ image_name o) ->
    s (d ++ [x]) <> Some Folder -> s (d ++ [y]) <> Some Folder ->
    s (d ++ [o]) = Some (File (Archive f0)) ->
    run (L := L) meaning listing further efficiency observing (Path (a ++ [x])) (Path (b ++ [y])) (Some (d ++ [o])) plot false info s = (s', r) ->
    exists f, s' (d ++ [o]) = Some (File (Archive f)) /\ keeps (G f0) (G f).
Proof.
  intros B V P L meaning listing further efficiency observing s s' r a x b y d o c e f0 plot info SF NF A1 B1 XY XO YO IM NX NY NO H.
  destruct (set_out_ok s a x b y d o c e false SF NF A1 B1 XY XO YO NX NY) as (s1 & E1 & D1 & _ & _ & _ & _ & O1); [discriminate|].
  unfold run in H. rewrite E1 in H. cbn [andso] in H. clear E1. rewrite NO in O1.
  set (good := fun s2 : fs B V P => exists f, s2 (d ++ [o]) = Some (File (Archive f)) /\ keeps (G f0) (G f)).
  change (good s').
  assert (G1 : good s1) by (exists f0; split; auto; apply keeps_refl).
  destruct (prepare meaning s1 (Path (a ++ [x])) (Some (d ++ [o])) info) as [s2 r2] eqn:E2.
  assert (G2 : good s2).
  { unfold prepare in E2. destruct (meaning _ _) as [[pl cs| |]|z]; try (injection E2 as <- <-; exact G1).
    unfold archive_at, is_file in E2. rewrite O1 in E2.
    assert (OK := fun f1 r1 => open_file_append f0 info f1 r1).
    destruct (open_file (Some f0) true info) as [f [u|z]].
    - destruct (build_channels f pl cs) as [f' r'] eqn:EB. injection E2 as <- <-. exists f'. split; [apply put_same|].
      eapply keeps_trans; [eapply OK; eauto|]. eapply build_channels_keeps; eauto.
    - injection E2 as <- <-. exists f. split; [apply put_same|]. eapply OK; eauto. }
  destruct r2 as [arg|z]; cbn [andso] in H; [|injection H as <- <-; auto].
  destruct (further arg) as [arg'|z]; [|injection H as <- <-; auto].
  assert (GI : forall s3 n p, image_name n -> plot = true -> good s3 -> good (put s3 (d ++ [n]) (Some (File (Picture p))))).
  { intros s3 n p I PL (f & F1 & F2). exists f. split; auto. rewrite put_other; auto. intros E. apply app_inj_tail in E as [_ E].
    apply (IM PL). congruence. }
  destruct (if plot then _ else _) as [s3 r3] eqn:E3 in H.
  assert (G3 : good s3).
  { destruct plot; [|injection E3 as <- <-; auto]. destruct (efficiency arg'); injection E3 as <- <-; auto. apply GI; auto.
    exists "efficiency"%string. auto. }
  destruct r3 as [u|z]; cbn [andso] in H; [|injection H as <- <-; auto].
  destruct (listing _ _) as [l|z]; [|injection H as <- <-; auto].
  destruct (observing arg' l plot (Some d)) as [[es images]|z]; [|injection H as <- <-; auto].
  set (s4 := if plot then save_images s3 (Some d) images else s3) in *.
  assert (G4 : good s4).
  { subst s4. destruct plot; auto. unfold save_images. clear - GI G3. revert s3 G3. induction images as [|i images IH]; intros s3 G3; cbn; auto.
    apply IH. apply GI; auto. eexists; eauto. }
  destruct G4 as (f & F1 & F2). unfold save in H. destruct es as [|e0 es]; [injection H as <- <-; exists f; auto|].
  unfold archive_at in H. rewrite F1 in H. destruct (save_targets (Some f) info (e0 :: es)) as [f' r'] eqn:SV. injection H as <- <-.
  pose proof (save_targets_keeps _ _ _ _ _ SV) as (f2 & -> & K). exists f2. split; [apply put_same|]. eapply keeps_trans; eauto.
Qed.
Print Assumptions C113_without_replace_nothing_is_lost.

(** Without [replace], whatever stands at the output and is no archive stays there untouched, and the run
    of a payload description fails with an OSError. *)
Theorem C113_what_is_no_archive_is_left_alone :
  forall (B V P L : Type) meaning listing further efficiency observing (s s' : fs B V P) r a x b y d o c e n plot info,
    sound_fs s -> no_file_around s d ->
    s (a ++ [x]) = Some (File c) -> s (b ++ [y]) = Some (File e) ->
    x <> y -> x <> o -> y <> o -> (plot = true -> ~ image_name o) ->
    s (d ++ [x]) <> Some Folder -> s (d ++ [y]) <> Some Folder ->
    s (d ++ [o]) = Some n -> (forall f, n <> File (Archive f)) ->
    run (L := L) meaning listing further efficiency observing (Path (a ++ [x])) (Path (b ++ [y])) (Some (d ++ [o])) plot false info s = (s', r) ->
    s' (d ++ [o]) = Some n /\
    (forall p cs, meaning (Path (a ++ [x])) (Some c) = Ok (Xml p cs) -> r = Err OSError).
Proof.
  intros B V P L meaning listing further efficiency observing s s' r a x b y d o c e n plot info SF NF A1 B1 XY XO YO IM NX NY NO NA H.
  destruct (set_out_ok s a x b y d o c e false SF NF A1 B1 XY XO YO NX NY) as (s1 & E1 & D1 & AX & BX & CX & CY & O1); [discriminate|].
  unfold run in H. rewrite E1 in H. cbn [andso] in H. clear E1. rewrite NO in O1.
  assert (AR : forall s2 : fs B V P, s2 (d ++ [o]) = Some n -> archive_at s2 (d ++ [o]) = Err OSError).
  { intros s2 X. unfold archive_at. rewrite X. destruct n as [|[w|f|w]]; auto. now destruct (NA f). }
  set (good := fun s2 : fs B V P => s2 (d ++ [o]) = Some n).
  destruct (prepare meaning s1 (Path (a ++ [x])) (Some (d ++ [o])) info) as [s2 r2] eqn:E2.
  assert (G2 : good s2 /\ forall p cs, meaning (Path (a ++ [x])) (Some c) = Ok (Xml p cs) -> r2 = Err OSError).
  { unfold prepare, found, content_at in E2. rewrite AX, (AR s1 O1) in E2. destruct (meaning _ _) as [[pl cs| |]|z]; injection E2 as <- <-; (split; [exact O1|]); intros; congruence. }
  destruct G2 as [G2 R2].
  assert (W : s' (d ++ [o]) = Some n); [|split; auto; intros p cs M; rewrite (R2 p cs M) in H; cbn [andso] in H; congruence].
  change (good s').
  destruct r2 as [arg|z]; cbn [andso] in H; [|injection H as <- <-; auto].
  destruct (further arg) as [arg'|z]; [|injection H as <- <-; auto].
  assert (GI : forall s3 m p, image_name m -> plot = true -> good s3 -> good (put s3 (d ++ [m]) (Some (File (Picture p))))).
  { intros s3 m p I PL F. unfold good. rewrite put_other; auto. intros E. apply app_inj_tail in E as [_ E].
    apply (IM PL). congruence. }
  destruct (if plot then _ else _) as [s3 r3] eqn:E3 in H.
  assert (G3 : good s3).
  { destruct plot; [|injection E3 as <- <-; auto]. destruct (efficiency arg'); injection E3 as <- <-; auto. apply GI; auto.
    exists "efficiency"%string. auto. }
  destruct r3 as [u|z]; cbn [andso] in H; [|injection H as <- <-; auto].
  destruct (listing _ _) as [l|z]; [|injection H as <- <-; auto].
  destruct (observing arg' l plot (Some d)) as [[es images]|z]; [|injection H as <- <-; auto].
  set (s4 := if plot then save_images s3 (Some d) images else s3) in *.
  assert (G4 : good s4).
  { subst s4. destruct plot; auto. unfold save_images. clear - GI G3. revert s3 G3. induction images as [|i images IH]; intros s3 G3; cbn; auto.
    apply IH. apply GI; auto. eexists; eauto. }
  unfold save in H. destruct es as [|e0 es]; [injection H as <- <-; auto|].
  rewrite (AR s4 G4) in H. injection H as <- <-. exact G4.
Qed.
Print Assumptions C113_what_is_no_archive_is_left_alone.

(** ** Images *)
Lemma save_images_at {B V P} d n : forall (l : list (string * P)) (s : fs B V P),
  ~ In n (map fst l) -> save_images s (Some d) l (d ++ [n ++ ".png"]%string) = s (d ++ [n ++ ".png"]%string).
Proof.
  unfold save_images. induction l as [|[m p] l IH]; intros s N; cbn in *; auto.
  rewrite IH by tauto. apply put_other. intros E. apply app_inj_tail in E as [_ E].
  apply N. left. assert (X : str_chars n ++ str_chars ".png" = str_chars m ++ str_chars ".png") by (rewrite <- !str_chars_app; congruence).
  apply app_inv_tail in X. symmetry. apply str_chars_inj. auto.
Qed.
Lemma save_images_in {B V P} d n q : forall (l : list (string * P)) (s : fs B V P),
  NoDup (map fst l) -> In (n, q) l -> save_images s (Some d) l (d ++ [n ++ ".png"]%string) = Some (File (Picture q)).
Proof.
  induction l as [|[m p] l IH]; intros s N I; cbn in *; [tauto|]. inversion N as [|? ? N1 N2]; subst.
  destruct I as [[= -> ->]|I].
  - change (save_images (put s (d ++ [n ++ ".png"]%string) (Some (File (Picture q)))) (Some d) l (d ++ [n ++ ".png"]%string) = Some (File (Picture q))).
    rewrite save_images_at by auto. apply put_same.
  - apply IH; auto.
Qed.

(** With plots, a run that ends well leaves one image per target drawn (of distinct names) beside the output, and the
    efficiency of the payload in efficiency.png - unless a target is called "efficiency", whose image then takes its place. *)
Theorem C111_images_of_a_run :
  forall (B V P L : Type) meaning listing further efficiency observing options targets d o replace info (s s' : fs B V P),
    sound_fs s -> (forall c, s d <> Some (File c)) -> ~ image_name o ->
    run (L := L) meaning listing further efficiency observing options targets (Some (d ++ [o])) true replace info s = (s', Ok tt) ->
    exists k1 k2 arg arg' l p es images,
      meaning options k1 = Ok arg /\ further arg = Ok arg' /\ listing targets k2 = Ok l /\
      efficiency arg' = Ok p /\ observing arg' l true (Some d) = Ok (es, images) /\
      (NoDup (map fst images) ->
         (forall n q, In (n, q) images -> s' (d ++ [n ++ ".png"]%string) = Some (File (Picture q))) /\
         (~ In "efficiency"%string (map fst images) -> s' (d ++ ["efficiency.png"%string]) = Some (File (Picture p)))).
Proof.
  intros B V P L meaning listing further efficiency observing options targets d o replace info s s' SF ND NO H.
  unfold run in H.
  destruct (set_out options targets (Some (d ++ [o])) replace s) as [s1 r1] eqn:E1.
  destruct (set_out_spec options targets d o true replace s s1 r1 SF ND E1) as (_ & R1).
  destruct r1 as [dir|z]; cbn [andso] in H; [|discriminate]. destruct (R1 dir eq_refl) as (-> & _).
  destruct (prepare meaning s1 options (Some (d ++ [o])) info) as [s2 [arg|z]] eqn:E2; cbn [andso] in H; [|discriminate].
  assert (M : exists k1, meaning options k1 = Ok arg).
  { unfold prepare in E2. exists (found s1 options). destruct (meaning options (found s1 options)) as [[pl cs| |]|z]; try discriminate.
    - destruct (archive_at s1 (d ++ [o])) as [prev|]; [|discriminate]. destruct (open_file _ _ _) as [f [u|z]]; [|discriminate].
      destruct (build_channels f pl cs) as [f' [u'|z]]; congruence.
    - congruence. }
  destruct M as (k1 & M).
  destruct (further arg) as [arg'|z] eqn:FU; [|discriminate].
  destruct (efficiency arg') as [p|z] eqn:EF; cbn [andso save_image] in H; [|discriminate].
  set (s3 := put s2 (d ++ ["efficiency.png"%string]) (Some (File (Picture p)))) in *.
  destruct (listing targets (found s3 targets)) as [l|z] eqn:LI; [|discriminate].
  destruct (observing arg' l true (Some d)) as [[es images]|z] eqn:OB; [|discriminate].
  assert (W : forall n, image_name n -> s' (d ++ [n]) = save_images s3 (Some d) images (d ++ [n])).
  { intros n I. unfold save in H. destruct es as [|e0 es]; [injection H as <-; auto|].
    destruct (archive_at _ (d ++ [o])) as [prev|]; [|discriminate].
    destruct (save_targets prev info (e0 :: es)) as [f r']. injection H as <- _. destruct f; auto. cbn. apply put_other.
    intros E. apply app_inj_tail in E as [_ E]. congruence. }
  exists k1, (found s3 targets), arg, arg', l, p, es, images. split; [exact M|]. split; [exact FU|]. split; [exact LI|].
  split; [exact EF|]. split; [exact OB|]. intros NN. split.
  - intros n q I. rewrite W by (exists n; auto). apply save_images_in; auto.
  - intros NI. rewrite W by (exists "efficiency"%string; auto).
    change "efficiency.png"%string with ("efficiency" ++ ".png")%string. rewrite save_images_at by auto. apply put_same.
Qed.
Print Assumptions C111_images_of_a_run.
