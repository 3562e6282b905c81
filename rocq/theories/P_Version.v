(** C57: the update check. *)
From Verif Require Import Base PyStr M_Version L_Str.
Open Scope list_scope.

(** A release heading of the change log: a line with "## [" other than the Unreleased one. *)
Definition heading (l : string) : Prop :=
  (exists u v, l = (u ++ "## [" ++ v)%string) /\ ~ (exists u v, l = (u ++ "## [Unreleased]" ++ v)%string).
(** [l] is the first release heading, followed by [post] *)
Definition first_heading (lines : list string) (l : string) (post : list string) : Prop :=
  exists pre, lines = pre ++ l :: post /\ heading l /\ Forall (fun x => ~ heading x) pre.
Definition mentions (sub l : string) : Prop := exists u v, l = (u ++ sub ++ v)%string.

Definition is_heading (l : string) : bool := contains "## [" l && negb (contains "## [Unreleased]" l).
Lemma is_heading_spec l : is_heading l = true <-> heading l.
Proof.
  unfold is_heading, heading. rewrite andb_true_iff, negb_true_iff.
  rewrite <- (contains_spec "## [" l), <- (contains_spec "## [Unreleased]" l).
  destruct (contains "## [Unreleased]" l); intuition congruence.
Qed.

Lemma get_message_cons current l ls :
  get_message current (l :: ls) =
  if is_heading l then
    if contains ("[" ++ current ++ "]")%string l then ("", "")
    else ((l ++ nl ++ changes current ls)%string,
          str_slice (str_find "["%char l 0 + 1)%Z (str_find "]"%char l 0) l)
  else get_message current ls.
Proof.
  cbn [get_message]. unfold is_heading.
  destruct (contains "## [" l); [|reflexivity].
  destruct (contains "## [Unreleased]" l); reflexivity.
Qed.

Lemma get_message_first current lines l post : first_heading lines l post ->
  get_message current lines =
    if contains ("[" ++ current ++ "]")%string l then ("", "")
    else ((l ++ nl ++ changes current post)%string,
          str_slice (str_find "["%char l 0 + 1)%Z (str_find "]"%char l 0) l).
Proof.
  intros (pre & -> & H & F). induction F as [|x pre N F IH].
  - cbn [app]. rewrite get_message_cons. apply is_heading_spec in H. rewrite H. reflexivity.
  - cbn [app]. rewrite get_message_cons.
    destruct (is_heading x) eqn:E; [apply is_heading_spec in E; contradiction|]. exact IH.
Qed.
Lemma get_message_none current lines : (forall l post, ~ first_heading lines l post) ->
  get_message current lines = ("", "").
Proof.
  induction lines as [|x lines IH]; intros N; [reflexivity|]. rewrite get_message_cons.
  destruct (is_heading x) eqn:E.
  - exfalso. apply (N x lines). exists []. split; auto. split; auto. apply is_heading_spec; auto.
  - apply IH. intros l post (pre & -> & H & F). apply (N l post). exists (x :: pre). split; auto. split; auto.
    constructor; auto. rewrite <- is_heading_spec, E. discriminate.
Qed.
Lemma first_heading_dec lines : (exists l post, first_heading lines l post) \/ (forall l post, ~ first_heading lines l post).
Proof.
  induction lines as [|x lines IH].
  - right. intros l post (pre & E & _). destruct pre; discriminate.
  - destruct (is_heading x) eqn:E.
    + left. exists x, lines, []. split; auto. split; [apply is_heading_spec; auto|constructor].
    + assert (N : ~ heading x) by (rewrite <- is_heading_spec, E; discriminate).
      destruct IH as [(l & post & pre & -> & H & F)|IH].
      * left. exists l, post, (x :: pre). split; auto.
      * right. intros l post ([|y pre] & EQ & H & F); cbn in EQ; injection EQ as -> EQ; [contradiction|].
        inversion F; subst. apply (IH l post). exists pre; auto.
Qed.

Lemma app_nonempty a b c : (a ++ String b "" ++ c)%string <> "".
Proof. destruct a; discriminate. Qed.

Lemma message_nonempty l m : String.eqb (l ++ nl ++ m)%string "" = false.
Proof. apply String.eqb_neq. apply app_nonempty. Qed.

(** An update is reported exactly when the first release heading does not have the current
    version between brackets. *)
Theorem C57_reports_iff_first_heading_is_another_version :
  forall current force lines,
    (exists r e, check_version current force lines = (Some r, e)) <->
    (exists l post, first_heading lines l post /\ ~ mentions ("[" ++ current ++ "]") l).
Proof.
  intros current force lines. split.
  - intros (r & e & H). destruct (first_heading_dec lines) as [(l & post & F)|N].
    + exists l, post. split; auto. unfold mentions. rewrite <- (contains_spec _ l).
      unfold check_version in H. destruct lines; [discriminate|].
      rewrite (get_message_first _ _ _ _ F) in H.
      destruct (contains ("[" ++ current ++ "]")%string l); [discriminate|congruence].
    + unfold check_version in H. destruct lines; [discriminate|].
      rewrite get_message_none in H by auto. discriminate.
  - intros (l & post & F & N). unfold mentions in N. rewrite <- (contains_spec _ l) in N.
    unfold check_version. destruct lines; [destruct F as ([|] & ? & _); discriminate|].
    rewrite (get_message_first _ _ _ _ F).
    destruct (contains ("[" ++ current ++ "]")%string l); [congruence|]. rewrite message_nonempty. eauto.
Qed.
Print Assumptions C57_reports_iff_first_heading_is_another_version.

(** With force, an error is raised exactly when an update is reported. *)
Theorem C57_force_raises_iff_reported :
  forall current force lines r e,
    check_version current force lines = (r, e) ->
    e = if force then (match r with Some _ => Err VersionError | None => Ok tt end) else Ok tt.
Proof.
  intros current force lines r e. unfold check_version. destruct lines.
  - intros [= <- <-]. destruct force; auto.
  - destruct (get_message _ _) as [m v]. destruct (String.eqb m ""); intros [= <- <-]; destruct force; auto.
Qed.
Print Assumptions C57_force_raises_iff_reported.

(** The reported version is the text between the brackets of that heading. *)
Theorem C57_reported_version_is_between_the_brackets :
  forall current force lines v rest post r e,
    (forall a, In a (str_chars v) -> a <> "]"%char) ->
    first_heading lines ("## [" ++ v ++ "]" ++ rest) post ->
    check_version current force lines = (Some r, e) -> fst r = v.
Proof.
  intros current force lines v rest post r e NV F H.
  remember ("## [" ++ v ++ "]" ++ rest)%string as l eqn:EL. unfold check_version in H.
  destruct lines; [discriminate|]. rewrite (get_message_first _ _ _ _ F) in H.
  destruct (contains _ _); [discriminate|]. rewrite message_nonempty in H. injection H as <- _.
  cbn [fst].
  assert (E1 : str_find "["%char l 0 = 3%Z) by (subst l; reflexivity).
  assert (E2 : str_find "]"%char l 0 = (4 + Z.of_nat (String.length v))%Z).
  { replace l with (("## [" ++ v) ++ String "]" rest)%string by (subst l; reflexivity).
    rewrite str_find_app.
    - rewrite length_app. cbn [String.length]. lia.
    - intros a I. cbn in I. destruct I as [<-|[<-|[<-|[<-|I]]]]; try discriminate. apply NV; auto. }
  rewrite E1, E2. unfold str_slice.
  assert (LN : String.length l = 4 + (String.length v + S (String.length rest))).
  { subst l. rewrite !length_app. reflexivity. }
  assert (C1 : clip (String.length l) (3 + 1) = 4).
  { unfold clip. destruct (Z.ltb_spec (3 + 1) 0); [lia|]. rewrite LN. lia. }
  assert (C2 : clip (String.length l) (4 + Z.of_nat (String.length v)) = 4 + String.length v).
  { unfold clip. destruct (Z.ltb_spec (4 + Z.of_nat (String.length v)) 0); [lia|]. rewrite LN. lia. }
  rewrite C1, C2, EL. replace (4 + String.length v - 4) with (String.length v) by lia.
  apply (substring_app "## [" v ("]" ++ rest)%string).
Qed.
Print Assumptions C57_reported_version_is_between_the_brackets.

(** A heading whose bracket is never closed: the reported version lacks its last character. *)
Lemma str_find_none c s : (forall a, In a (str_chars s) -> a <> c) -> forall i, str_find c s i = (-1)%Z.
Proof.
  induction s as [|a s IH]; intros N i; cbn; auto. destruct (Ascii.eqb_spec a c) as [->|_]; [destruct (N c); auto; now left|]. apply IH. intros b I. apply N. now right.
Qed.
Theorem C57_bracket_never_closed :
  forall current force lines v a post r e,
    (forall b, In b (str_chars (v ++ String a ""))  -> b <> "]"%char) ->
    first_heading lines ("## [" ++ v ++ String a "") post ->
    check_version current force lines = (Some r, e) -> fst r = v.
Proof.
  intros current force lines v a post r e NV F H.
  remember ("## [" ++ v ++ String a "")%string as l eqn:EL. unfold check_version in H.
  destruct lines; [discriminate|]. rewrite (get_message_first _ _ _ _ F) in H.
  destruct (contains _ _); [discriminate|]. rewrite message_nonempty in H. injection H as <- _.
  cbn [fst].
  assert (E1 : str_find "["%char l 0 = 3%Z) by (subst l; reflexivity).
  assert (E2 : str_find "]"%char l 0 = (-1)%Z).
  { apply str_find_none. subst l. intros b I. cbn in I. destruct I as [<-|[<-|[<-|[<-|I]]]]; try discriminate. apply NV; auto. }
  rewrite E1, E2. unfold str_slice.
  assert (LN : String.length l = 4 + (String.length v + 1)).
  { subst l. rewrite !length_app. reflexivity. }
  assert (C1 : clip (String.length l) (3 + 1) = 4).
  { unfold clip. destruct (Z.ltb_spec (3 + 1) 0); [lia|]. rewrite LN. lia. }
  assert (C2 : clip (String.length l) (-1) = 4 + String.length v).
  { unfold clip. destruct (Z.ltb_spec (-1) 0); [|lia]. rewrite LN. lia. }
  rewrite C1, C2, EL. replace (4 + String.length v - 4) with (String.length v) by lia.
  apply (substring_app "## [" v (String a "")).
Qed.
Print Assumptions C57_bracket_never_closed.
Example C57_unclosed : check_version "2.1.0" false ["## [3.0.0"] = (Some ("3.0.", ("## [3.0.0" ++ nl)%string), Ok tt).
Proof. reflexivity. Qed.

(** The change log shown: the heading and the non-empty lines before the first line
    mentioning the current version. *)
Theorem C57_reported_changes :
  forall current force lines l post r e,
    first_heading lines l post -> check_version current force lines = (Some r, e) ->
    exists shown rest, post = shown ++ rest /\
      Forall (fun x => ~ mentions current x) shown /\
      (rest = [] \/ exists x rest', rest = x :: rest' /\ mentions current x) /\
      snd r = fold_right (fun x m => (x ++ nl ++ m)%string) ""
                (l :: filter (fun x => negb (String.eqb x "")) shown).
Proof.
  intros current force lines l post r e F H. unfold check_version in H.
  destruct lines; [discriminate|]. rewrite (get_message_first _ _ _ _ F) in H.
  destruct (contains _ _); [discriminate|]. rewrite message_nonempty in H. injection H as <- _.
  cbn [snd fold_right]. clear F. unfold mentions.
  enough (X : exists shown rest, post = shown ++ rest /\
      Forall (fun x => ~ contains current x = true) shown /\
      (rest = [] \/ exists x rest', rest = x :: rest' /\ contains current x = true) /\
      changes current post = fold_right (fun x m => (x ++ nl ++ m)%string) ""
                (filter (fun x => negb (String.eqb x "")) shown)).
  { destruct X as (sh & re & E & A & B & C). exists sh, re. split; auto. split.
    - eapply Forall_impl; [|exact A]. cbn. intros x N. rewrite <- (contains_spec current x). auto.
    - split; [|rewrite C; auto]. destruct B as [B|(x & re' & -> & B)]; auto. right. exists x, re'. split; auto.
      apply contains_spec; auto. }
  induction post as [|x post IH]; cbn [changes].
  - exists [], []. repeat split; auto.
  - destruct (contains current x) eqn:E.
    + exists [], (x :: post). repeat split; auto. right; eauto.
    + destruct IH as (sh & re & -> & A & B & C). exists (x :: sh), re. split; auto. split.
      * constructor; auto. congruence.
      * split; auto. cbn [filter]. destruct (String.eqb x ""); cbn [negb fold_right]; rewrite C; auto.
Qed.
Print Assumptions C57_reported_changes.

(** The claim "reported exactly when the published version is newer" is refuted: there is no
    comparison, any other version counts, older ones included. *)
Theorem C57_newer_only_refuted :
  exists r e, check_version "2.1.0" true ["# Changelog"; "## [Unreleased]"; "## [2.0.9]"; "- fix"]
              = (Some r, e) /\ fst r = "2.0.9" /\ e = Err VersionError.
Proof. do 2 eexists. split; [vm_compute; reflexivity|]. split; reflexivity. Qed.
Print Assumptions C57_newer_only_refuted.

Example C57_ex :
  check_version "2.1.0" false ["# Changelog"; "## [2.1.0] - today"] = (None, Ok tt) /\
  first_heading ["# Changelog"; "## [Unreleased]"; "## [2.2.0]"; "- fix"] "## [2.2.0]" ["- fix"].
Proof.
  split; [vm_compute; reflexivity|]. exists ["# Changelog"; "## [Unreleased]"]. split; auto. split.
  - apply is_heading_spec. vm_compute. reflexivity.
  - repeat constructor; rewrite <- is_heading_spec; vm_compute; discriminate.
Qed.
