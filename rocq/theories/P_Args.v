(** C127: the command line. *)
From Coq Require Import ZArith Permutation.
From Verif Require Import Base M_Args S_Args.
Open Scope string_scope.
Open Scope list_scope.

(** ** the words that name an option *)
Fixpoint prefixes (s : string) : list string := match s with "" => [""] | String c r => "" :: map (String c) (prefixes r) end.
Lemma prefix_enum s : forall w r, s = (w ++ r)%string -> In w (prefixes s).
Proof.
  induction s as [|c s IH]; intros [|d w] r E; cbn in *; try discriminate; auto. injection E as <- E. right. apply in_map. eapply IH; eauto.
Qed.
Definition takes (a : action) (l : bool) (e : option string) (w : string) : Prop := w <> "--" /\ classify w = Some (Known a l e).
Lemma names_taken w a : names w a -> (exists l, takes a l None w) /\ forall v, exists l, takes a l (Some v) (w ++ "=" ++ v)%string.
Proof.
  intros [->|[[r E] U]].
  - destruct a; (split; [|intros v]); exists false; (split; [discriminate|reflexivity]).
  - apply prefix_enum in E.
    destruct a; cbn in E; repeat (destruct E as [E|E]; [subst w; first
      [ discriminate (U Help _ eq_refl) | discriminate (U Payload _ eq_refl) | discriminate (U Plot _ eq_refl)
      | (split; [|intros v]; exists true; (split; [discriminate|reflexivity])) ]|]); contradiction.
Qed.
Lemma no_such a c o : sget (String "-" (String (short_name a) (String c o))) option_strings = None.
Proof. destruct a; reflexivity. Qed.
Lemma joined_tuples a c o : option_tuples (String "-" (String (short_name a) (String c o))) = [Known a false (Some (String c o))].
Proof. destruct a; reflexivity. Qed.
Lemma split_dash x c v : split_eq (String "-" (String (short_name x) (String c v))) = match split_eq (String c v) with Some (a, b) => Some (String "-" (String (short_name x) a), b) | None => None end.
Proof. destruct x; cbn [split_eq short_name Ascii.eqb Bool.eqb]; destruct (Ascii.eqb c "="); try reflexivity; destruct (split_eq v) as [[]|]; reflexivity. Qed.
Lemma joined_taken a c v : c <> "="%char -> takes a false (Some (String c v)) (String "-" (String (short_name a) (String c v))).
Proof.
  intros N. split; [destruct a; discriminate|]. unfold classify. rewrite no_such, joined_tuples, split_dash.
  change (String.eqb (String (short_name a) (String c v)) "") with false. cbn [split_eq].
  destruct (Ascii.eqb_spec c "="); [contradiction|]. destruct (split_eq v) as [[o e]|]; [|reflexivity]. now rewrite no_such.
Qed.
Lemma plain_value v : plain v -> v <> "--" /\ classify v = Some (Value v).
Proof.
  intros P. split; [apply P|]. destruct v as [|c v]; [reflexivity|]. unfold classify.
  destruct c as [[] [] [] [] [] [] [] []]; try reflexivity. now destruct (P v).
Qed.
Lemma takes_on w a l e ws : takes a l e w -> classify_all (w :: ws) = match classify_all ws with Some ts => Some (Known a l e :: ts) | None => None end.
Proof. intros [N C]. cbn [classify_all]. apply String.eqb_neq in N. now rewrite N, C. Qed.
Lemma value_on v ws : plain v -> classify_all (v :: ws) = match classify_all ws with Some ts => Some (Value v :: ts) | None => None end.
Proof. intros P. apply plain_value in P as [N C]. cbn [classify_all]. apply String.eqb_neq in N. now rewrite N, C. Qed.
Lemma needs a : with_value a -> takes_value a = true.
Proof. now intros [->|[->|[->| ->]]]. Qed.
Lemma needs_not a : a_flag a -> takes_value a = false.
Proof. now intros [->|[->|[->| ->]]]. Qed.

(** ** what is said, acted upon *)
Section Integer.
Variable integer : string -> option Z.
Definition do_said (x : said) (s : settings) : settings + nat :=
  match x with Says a v => store integer a v s | Flag a => flag a s end.
Fixpoint do_all (l : list said) (s : settings) : settings + nat :=
  match l with [] => inl s | x :: r => match do_said x s with inl s => do_all r s | inr n => inr n end end.
Lemma spelled_taken rest : forall ws l, spelled ws l -> exists ts, classify_all (ws ++ rest) = match classify_all rest with Some tr => Some (ts ++ tr) | None => None end
  /\ forall tr s ex, consume integer (ts ++ tr) s ex = match do_all l s with inl s => consume integer tr s ex | inr n => Left n end.
Proof.
  induction 1 as [|w a v ws l N W P _ (ts & C & IH)|w a v ws l N W D _ (ts & C & IH)|a c v ws l W E D _ (ts & C & IH)|w a ws l N F _ (ts & C & IH)]; rewrite <- ?app_comm_cons.
  - exists []. split; auto. cbn. now destruct (classify_all rest).
  - destruct (names_taken _ _ N) as [(lg & T) _]. rewrite (takes_on _ _ _ _ _ T), (value_on _ _ P), C. exists (Known a lg None :: Value v :: ts). split; [now destruct (classify_all rest)|]. intros tr s ex.
    rewrite <- !app_comm_cons. cbn [consume explicit_actions waits last]. rewrite (needs _ W). cbn [give last removelast app fst acts act snd do_all do_said]. destruct (store integer a v s); [apply IH|reflexivity].
  - destruct (names_taken _ _ N) as [_ T]. destruct (T v) as (lg & T'). rewrite (takes_on _ _ _ _ _ T'), C. exists (Known a lg (Some v) :: ts). split; [now destruct (classify_all rest)|]. intros tr s ex.
    rewrite <- !app_comm_cons. cbn [consume explicit_actions]. rewrite (needs _ W). cbn [waits last acts act fst snd do_all do_said]. destruct (store integer a v s); [apply IH|reflexivity].
  - rewrite (takes_on _ _ _ _ _ (joined_taken a c v E)), C. exists (Known a false (Some (String c v)) :: ts). split; [now destruct (classify_all rest)|]. intros tr s ex.
    rewrite <- !app_comm_cons. cbn [consume explicit_actions]. rewrite (needs _ W). cbn [waits last acts act fst snd do_all do_said]. destruct (store integer a (String c v) s); [apply IH|reflexivity].
  - destruct (names_taken _ _ N) as [(lg & T) _]. rewrite (takes_on _ _ _ _ _ T), C. exists (Known a lg None :: ts). split; [now destruct (classify_all rest)|]. intros tr s ex.
    rewrite <- !app_comm_cons. cbn [consume explicit_actions waits last]. rewrite (needs_not _ F). cbn [acts act fst snd do_all do_said]. destruct (flag a s); [apply IH|reflexivity].
Qed.
Lemma spelled_parsed ws l : spelled ws l -> parse_args integer ws = match do_all l defaults with inl s => finish s false | inr n => Left n end.
Proof. intros P. destruct (spelled_taken [] _ _ P) as (ts & C & E). rewrite !app_nil_r in C. cbn [classify_all] in C. unfold parse_args. rewrite C, E. now destruct (do_all l defaults). Qed.

(** the settings after it *)
Definition after_said (l : list said) (s s' : settings) : Prop :=
  a_payload s' = match last_said Payload l with Some v => Some v | None => a_payload s end /\
  a_targets s' = match last_said Targets l with Some v => Some v | None => a_targets s end /\
  a_output s' = match last_said Output l with Some v => Some v | None => a_output s end /\
  match last_said Threads l with Some v => integer v = Some (a_threads s') | None => a_threads s' = a_threads s end /\
  (a_contrib s' = true <-> a_contrib s = true \/ In (Flag Contrib) l) /\ (a_debug s' = true <-> a_debug s = true \/ In (Flag Debug) l) /\
  (a_log s' = true <-> a_log s = true \/ In (Flag Log) l) /\ (a_plot s' = true <-> a_plot s = true \/ In (Flag Plot) l).
Lemma done_said l : forall s s', do_all l s = inl s' -> after_said l s s'.
Proof.
  unfold after_said. induction l as [|x l IH]; intros s s' E; cbn [do_all] in E.
  - injection E as <-. cbn. intuition.
  - destruct (do_said x s) as [s1|] eqn:D; [|discriminate]. apply IH in E as (E1 & E2 & E3 & E4 & E5 & E6 & E7 & E8). rewrite E1, E2, E3, E5, E6, E7, E8. cbn [last_said].
    clear E1 E2 E3 E5 E6 E7 E8 IH. destruct x as [a v|a]; cbn [do_said] in D.
    + unfold store in D. destruct (String.eqb v "--"); [discriminate|]. destruct a; try (destruct (integer v) eqn:I; [|discriminate]); injection D as <-; cbn in *;
        (split; [|split; [|split; [|split; [|split; [|split; [|split]]]]]]);
        try (clear; intuition congruence); try (revert E4; destruct (last_said Threads l); congruence); match goal with |- context [last_said ?a l] => destruct (last_said a l); congruence end.
    + destruct a; cbn in D; try discriminate; injection D as <-; cbn in *;
        (split; [|split; [|split; [|split; [|split; [|split; [|split]]]]]]);
        try (clear; intuition congruence); try (revert E4; destruct (last_said Threads l); congruence); match goal with |- context [last_said ?a l] => destruct (last_said a l); congruence end.
Qed.

(** ** what was read is what was written *)
Lemma prefix_rest p : forall s, String.prefix p s = true -> exists r, s = (p ++ r)%string.
Proof.
  induction p as [|c p IH]; intros s H; [now exists s|]. destruct s as [|d s]; [discriminate|]. change (String.prefix (String c p) (String d s)) with (if ascii_dec c d then String.prefix p s else false) in H. destruct (ascii_dec c d) as [<-|]; [|discriminate].
  apply IH in H as (r & ->). now exists r.
Qed.
Lemma split_joined w : forall o e, split_eq w = Some (o, e) -> w = (o ++ "=" ++ e)%string.
Proof.
  induction w as [|c w IH]; intros o e E; cbn in E; [discriminate|]. destruct (Ascii.eqb_spec c "=") as [->|]; [injection E as <- <-; reflexivity|].
  destruct (split_eq w) as [[o' e']|]; [|discriminate]. injection E as <- <-. cbn. f_equal. now apply IH.
Qed.
Lemma listed o a : sget o option_strings = Some a -> In (o, a) option_strings.
Proof.
  generalize option_strings. induction l as [|[k v] l IH]; cbn; [discriminate|]. destruct (String.eqb_spec o k) as [->|]; [intros [= ->]; auto|auto].
Qed.
Definition dashed (a : action) : string := String "-" (String (short_name a) "").
Lemma in_options o a : In (o, a) option_strings -> o = dashed a \/ o = long_name a.
Proof. cbn. intuition (match goal with H : (_, _) = _ |- _ => injection H as <- <- end; auto). Qed.
Lemma options_in a : In (dashed a, a) option_strings /\ In (long_name a, a) option_strings.
Proof. destruct a; cbn; auto 25. Qed.
Lemma exact a : names (long_name a) a.
Proof. right. split; [exists ""; destruct a; reflexivity|]. destruct a, b; intros r; cbn; congruence. Qed.
Lemma listed_names o a : sget o option_strings = Some a -> names o a /\ (is_long o = true \/ o = dashed a).
Proof.
  intros H. apply listed, in_options in H as [->| ->]; [split; [now left|auto]|]. split; [apply exact|left; now destruct a].
Qed.
Lemma cut_short p o a e : (forall x, In x (filter (fun oa => String.prefix ("--" ++ p) (fst oa)) option_strings) <-> x = (o, a)) ->
  e = is_long o -> cut ("--" ++ p) a /\ e = true.
Proof.
  intros F ->. pose proof (proj2 (F (o, a)) eq_refl) as I. apply filter_In in I as [I P]. cbn [fst] in P. apply in_options in I as [->| ->].
  - destruct a; discriminate.
  - split; [|now destruct a]. split; [now apply prefix_rest|]. intros b r E.
    assert (X : (long_name b, b) = (long_name a, a)). { apply (proj1 (F (long_name b, b))). apply (proj2 (filter_In _ _ _)). split; [exact (proj2 (options_in b))|]. cbn [fst]. rewrite E. clear. induction ("--" ++ p)%string as [|c q IH]; [now destruct r|]. change (String.prefix (String c q) (String c q ++ r)) with (if ascii_dec c c then String.prefix q (q ++ r) else false). destruct (ascii_dec c c); [auto|congruence]. }
    congruence.
Qed.
(** how a word is taken for an option *)
Definition taken_as (w : string) (a : action) (l : bool) (e : option string) : Prop :=
  (e = None /\ names w a) \/ (exists o v, e = Some v /\ w = (o ++ "=" ++ v)%string /\ names o a /\ (l = true \/ o = dashed a))
  \/ (exists v, e = Some v /\ v <> "" /\ l = false /\ w = String "-" (String (short_name a) v)).
Lemma tuples_taken r a l e : sget (String "-" r) option_strings = None -> option_tuples (String "-" r) = [Known a l e] -> taken_as (String "-" r) a l e.
Proof.
  intros N T. unfold option_tuples in T. destruct (is_long (String "-" r)) eqn:L.
  - assert (exists q, r = String "-" q) as [q ->]. { destruct r as [|d r]; [discriminate|]. change (is_long (String "-" (String d r))) with (if ascii_dec "-" d then String.prefix "" r else false) in L. destruct (ascii_dec "-" d) as [<-|]; [eauto|discriminate]. }
    change (String "-" (String "-" q)) with ("--" ++ q)%string in *.
    assert (K : exists p, (match split_eq ("--" ++ q) with Some (p, e) => (p, Some e) | None => (("--" ++ q)%string, None) end) = (("--" ++ p)%string, match split_eq q with Some (_, e) => Some e | None => None end)
      /\ match split_eq q with Some (_, v) => q = (p ++ "=" ++ v)%string | None => p = q end).
    { cbn [split_eq append Ascii.eqb Bool.eqb]. destruct (split_eq q) as [[p v]|] eqn:S; [exists p|exists q]; (split; [reflexivity|]); auto. now apply split_joined. }
    destruct K as (p & K & Q). rewrite K in T.
    destruct (filter _ option_strings) as [|[o b] [|]] eqn:F in T; try discriminate. cbn in T. injection T as -> EL EE.
    destruct (cut_short p o a l) as [C ->]; [intros x; rewrite F; cbn; intuition congruence|auto|].
    destruct (split_eq q) as [[q' v]|]; subst e.
    + right. left. exists ("--" ++ p)%string, v. split; auto. subst q. split; [reflexivity|]. split; [now right|now left].
    + left. subst p. split; auto. now right.
  - destruct r as [|y v]; [discriminate|].
    assert (I : In (Known a l e) [Known a l e]) by now left. rewrite <- T in I. apply in_flat_map in I as ([o b] & I & J). cbn [fst snd] in J.
    destruct (String.eqb_spec o (String "-" (String y ""))) as [->|ND].
    + destruct J as [[= -> <- <-]|[]]. apply in_options in I as [D|D]; [|destruct a; discriminate]. unfold dashed in D. injection D as ->.
      right. right. exists v. split; auto. split; [|split; [now destruct a|auto]]. intros ->. destruct a; discriminate.
    + destruct (String.prefix (String "-" (String y v)) o) eqn:P; [|destruct J]. destruct J as [[= -> <- <-]|[]]. apply in_options in I as [->| ->].
      * left. split; auto. left. apply prefix_rest in P as (z & P). unfold dashed in *. cbn in P. injection P as P1 P2. destruct v; [|discriminate]. now subst.
      * exfalso. apply prefix_rest in P as (z & P). assert (y = "-"%char) as -> by (destruct a; cbn in P; congruence). destruct v; discriminate L.
Qed.
Lemma classify_taken w a l e : classify w = Some (Known a l e) -> taken_as w a l e.
Proof.
  unfold classify. destruct w as [|c r]; [discriminate|]. destruct (ascii_dec c "-") as [->|NC].
  2: { intros H. exfalso. destruct c as [[] [] [] [] [] [] [] []]; try discriminate. now apply NC. }
  destruct (sget (String "-" r) option_strings) as [b|] eqn:G.
  { intros [= -> <- <-]. left. split; auto. now apply listed_names in G. }
  destruct (String.eqb r ""); [discriminate|].
  destruct (split_eq (String "-" r)) as [[o v]|] eqn:S; [destruct (sget o option_strings) as [b|] eqn:GO|].
  { intros [= -> <- <-]. right. left. exists o, v. split; auto. split; [now apply split_joined|]. now apply listed_names in GO. }
  all: destruct (option_tuples (String "-" r)) as [|t [|]] eqn:T; try discriminate; [destruct (negative_number _); [|destruct (has_char _ _)]; discriminate|].
  all: intros [= ->]; now apply tuples_taken.
Qed.
Lemma classify_itself w v : classify w = Some (Value v) -> v = w.
Proof.
  unfold classify. destruct w as [|c r]; [congruence|]. destruct (ascii_dec c "-") as [->|NC].
  2: { intros H. destruct c as [[] [] [] [] [] [] [] []]; congruence. }
  destruct (sget (String "-" r) option_strings); [discriminate|]. destruct (String.eqb r ""); [congruence|].
  destruct (split_eq (String "-" r)) as [[o e]|]; [destruct (sget o option_strings); [discriminate|]|].
  all: destruct (option_tuples (String "-" r)) as [|t [|]] eqn:T; try discriminate; [destruct (negative_number _); [|destruct (has_char _ _)]; congruence|].
  all: intros [= ->]; exfalso; assert (I : In (Value v) (option_tuples (String "-" r))) by (rewrite T; now left); clear T; unfold option_tuples in I.
  all: destruct (is_long _); [destruct (split_eq (String "-" r)) as [[p x]|]; apply in_map_iff in I as (y & Y & _); discriminate|].
  all: destruct r; [destruct I|]; apply in_flat_map in I as (y & _ & Y); destruct (String.eqb _ _); [destruct Y as [|[]]; discriminate|]; destruct (String.prefix _ _); [destruct Y as [|[]]; discriminate|destruct Y].
Qed.

Lemma said_flag a : takes_value a = false -> a <> Help -> a_flag a.
Proof. unfold a_flag. destruct a; auto; try discriminate. congruence. Qed.
Lemma said_value a : takes_value a = true -> with_value a.
Proof. unfold with_value. destruct a; auto; discriminate. Qed.
Definition said_of (av : action * option string) : said := match snd av with Some v => Says (fst av) v | None => Flag (fst av) end.
Lemma acts_said l : forall s, acts integer l s = do_all (map said_of l) s.
Proof. induction l as [|[a [v|]] l IH]; intros s; cbn [acts do_all map said_of fst snd do_said act]; auto. - destruct (store integer a v s); auto. - destruct (flag a s); auto. Qed.
Lemma no_help l : forall s s', acts integer l s = inl s' -> ~ In (Help, None) l.
Proof.
  induction l as [|x l IH]; intros s s' E; cbn in *; [auto|]. destruct (act integer x s) as [s1|] eqn:A; [|discriminate]. intros [->|H]; [discriminate|]. eapply IH; eauto.
Qed.
(** what the letters say *)
Definition tells (R : list said -> option action -> Prop) (l : list (action * option string)) : Prop :=
  if waits l then R (map said_of (removelast l)) (Some (fst (last l (Help, None)))) else R (map said_of l) None.
Lemma letters_some e : forall a l, letters a e = inr l -> l <> [].
Proof. destruct e as [|c e]; intros a l E; cbn [letters] in E; destruct (takes_value a); try congruence. destruct (sget (String "-" (String c "")) option_strings) as [b|]; [|discriminate]. destruct (String.eqb e ""); [congruence|]. destruct (letters b e); congruence. Qed.
Lemma letters_read e : e <> "" -> forall a l, letters a e = inr l -> ~ In (Help, None) l -> tells (in_letters (String (short_name a) e)) l.
Proof.
  induction e as [|c e IH]; intros NE a l E NH; [congruence|]. cbn [letters] in E. destruct (takes_value a) eqn:V.
  - injection E as <-. unfold tells. cbn [waits last map said_of fst snd]. constructor; [now apply said_value|discriminate].
  - destruct (sget (String "-" (String c "")) option_strings) as [b|] eqn:G; [|discriminate].
    assert (B : c = short_name b). { apply listed, in_options in G as [G|G]; unfold dashed in G; [congruence|destruct b; discriminate]. } subst c.
    destruct (String.eqb_spec e "") as [->|NE'].
    + injection E as <-. assert (FA : a_flag a). { apply said_flag; auto. intros ->. apply NH. now left. } unfold tells. cbn [waits last]. destruct (takes_value b) eqn:VB; cbn [removelast map said_of fst snd last].
      * constructor; auto. constructor. now apply said_value.
      * constructor; auto. constructor. apply said_flag; auto. intros ->. apply NH. right. now left.
    + destruct (letters b e) as [|l'] eqn:L; [discriminate|]. injection E as <-. assert (FA : a_flag a). { apply said_flag; auto. intros ->. apply NH. now left. }
      assert (T : tells (in_letters (String (short_name b) e)) l') by (apply IH; auto; intros I; apply NH; now right).
      apply letters_some in L. destruct l' as [|x l']; [congruence|]. unfold tells, waits in *. change (last ((a, None) :: x :: l') (Help, None)) with (last (x :: l') (Help, None)). change (removelast ((a, None) :: x :: l')) with ((a, None) :: removelast (x :: l')).
      destruct (last (x :: l') (Help, None)) as [y [z|]]; [|destruct (takes_value y)]; cbn [map said_of fst snd] in *; now constructor.
Qed.
Lemma explicit_read w a lg e l : taken_as w a lg e -> explicit_actions a lg e = inr l -> ~ In (Help, None) l -> tells (word w) l.
Proof.
  intros [[-> N]|[(o & v & -> & -> & N & LG)|(v & -> & NV & -> & ->)]] E NH; cbn [explicit_actions] in E.
  - injection E as <-. unfold tells. cbn [waits last]. destruct (takes_value a) eqn:V; cbn [removelast map said_of fst snd last].
    + constructor; auto. now apply said_value.
    + constructor; auto. apply said_flag; auto. intros ->. apply NH. now left.
  - destruct (takes_value a) eqn:V.
    + injection E as <-. unfold tells. cbn [waits last map said_of fst snd]. constructor; auto. now apply said_value.
    + destruct LG as [->| ->]; [discriminate|]. destruct lg; [discriminate|].
      destruct v as [|c v]; [cbn [letters] in E; rewrite V in E; discriminate|].
      pose proof (letters_read (String c v) ltac:(discriminate) a l E NH) as T. unfold tells in *. clear N E.
      assert (NH' : forall l o, in_letters (String (short_name a) (String c v)) l o -> word (dashed a ++ "=" ++ String c v) l o).
      { intros l0 o I. inversion I as [? ? E0|? ? E0|b v0 W0 ? E0|b s0 l1 o1 F0 I0 E0]; subst.
        - assert (b = a) as -> by (destruct a, b; cbn in E0; congruence). exfalso. apply needs in W0. congruence.
        - assert (b = a) as -> by (destruct a, b; cbn in E0; congruence). apply (word_passed a (String c v)); auto. }
      destruct (waits l); auto.
  - assert (E' : letters a v = inr l). { destruct (takes_value a) eqn:V; [|exact E]. destruct v; [congruence|]. cbn [letters]. now rewrite V. }
    pose proof (letters_read v NV a l E' NH) as T. unfold tells in *. destruct (waits l); now constructor.
Qed.

Lemma never_ran ts : forall s s', consume integer ts s true <> Ran s'.
Proof.
  assert (H : forall n ts s s', length ts <= n -> consume integer ts s true <> Ran s').
  { induction n as [|n IH]; intros [|t ts'] s s' L; cbn in L; try lia.
    1,2: cbn [consume]; unfold finish; destruct (a_payload s), (a_targets s); discriminate.
    destruct t as [v| |a lg e|]; cbn [consume]; try (apply IH; lia). destruct (explicit_actions a lg e); [discriminate|]. destruct (waits l).
    - destruct ts' as [|[v| |? ? ?|] ts']; try discriminate. destruct (acts integer _ s); [|discriminate]. apply IH. cbn in L. lia.
    - destruct (acts integer l s); [|discriminate]. apply IH. lia. }
  intros s s'. now apply (H (length ts)).
Qed.
Lemma do_all_app l m : forall s, do_all (l ++ m) s = match do_all l s with inl s => do_all m s | inr n => inr n end.
Proof. induction l as [|x l IH]; intros s; cbn; auto. destruct (do_said x s); auto. Qed.
Lemma consumed n : forall ws ts s ex s', length ws <= n -> classify_all ws = Some ts -> consume integer ts s ex = Ran s' ->
  exists l, read ws l /\ do_all l s = inl s' /\ a_payload s' <> None /\ a_targets s' <> None.
Proof.
  induction n as [|n IH]; intros [|w ws] ts s ex s' L C E; cbn in L; try lia.
  1,2: cbn in C; injection C as <-; cbn [consume] in E; unfold finish in E; destruct (a_payload s) eqn:HP; try discriminate; destruct (a_targets s) eqn:HT; try discriminate; destruct ex; try discriminate; injection E as <-; exists []; (split; [constructor|]); (split; [reflexivity|]); split; congruence.
  cbn [classify_all] in C. destruct (String.eqb w "--").
  { injection C as <-. cbn [consume] in E. now apply never_ran in E. }
  destruct (classify w) as [t|] eqn:CW; [|discriminate]. destruct (classify_all ws) as [tr|] eqn:CR; [|discriminate]. injection C as <-.
  destruct t as [v| |a lg e|]; cbn [consume] in E; try (now apply never_ran in E).
  destruct (explicit_actions a lg e) as [|l] eqn:X; [discriminate|]. apply classify_taken in CW.
  destruct (waits l) eqn:W.
  - destruct tr as [|[v| |? ? ?|] tr]; try discriminate. destruct (acts integer (give l v) s) as [s1|] eqn:A; [|discriminate].
    destruct ws as [|w2 ws]; [discriminate|]. cbn [classify_all] in CR. destruct (String.eqb w2 "--"); [discriminate|]. destruct (classify w2) as [t2|] eqn:C2; [|discriminate]. destruct (classify_all ws) as [tr'|] eqn:CR'; [|discriminate].
    injection CR as -> ->. apply classify_itself in C2 as ->.
    destruct (IH ws tr s1 ex s') as (m & M1 & M2 & M3); [cbn in L; lia|auto|auto|].
    assert (NH : ~ In (Help, None) l). { intros I. destruct l as [|x l] using rev_ind; [destruct I|]. unfold waits in W. rewrite last_last in W. unfold give in A. rewrite removelast_last in A. apply no_help in A. apply in_app_iff in I as [I|[->|[]]]; [|discriminate]. apply A. apply in_app_iff. now left. }
    pose proof (explicit_read _ _ _ _ _ CW X NH) as T. unfold tells in T. rewrite W in T.
    exists (map said_of (removelast l) ++ Says (fst (last l (Help, None))) w2 :: m). split; [now apply read_with|]. split; [|exact M3].
    rewrite do_all_app. rewrite acts_said in A. unfold give in A. rewrite map_app, do_all_app in A. destruct (do_all (map said_of (removelast l)) s) as [s2|]; [|discriminate].
    cbn [map said_of fst snd do_all] in *. destruct (do_said (Says (fst (last l (Help, None))) w2) s2) as [s3|]; [|discriminate]. injection A as ->. exact M2.
  - destruct (acts integer l s) as [s1|] eqn:A; [|discriminate]. destruct (IH ws tr s1 ex s') as (m & M1 & M2 & M3); [lia|auto|auto|].
    pose proof (explicit_read _ _ _ _ _ CW X (no_help _ _ _ A)) as T. unfold tells in T. rewrite W in T.
    exists (map said_of l ++ m). split; [now apply read_word|]. split; [|exact M3]. rewrite do_all_app, <- acts_said, A. exact M2.
Qed.
End Integer.

Definition sayable (x : said) : Prop := match x with Says a v => with_value a /\ v <> "--" | Flag a => a_flag a end.
Lemma spelled_sayable ws l : spelled ws l -> forall x, In x l -> sayable x.
Proof.
  induction 1 as [|w a v ws l N W P _ IH|w a v ws l N W D _ IH|a c v ws l W E D _ IH|w a ws l N F _ IH]; intros x I; [destruct I| | | |]; (destruct I as [<-|I]; [|now apply IH]); cbn; auto.
Qed.
Lemma all_done integer l : (forall x, In x l -> sayable x) -> integers integer l -> forall s, exists s', do_all integer l s = inl s'.
Proof.
  induction l as [|x l IH]; intros SA I s; [now exists s|]. cbn [do_all].
  assert (S : exists s1, do_said integer x s = inl s1).
  { specialize (SA x (or_introl eq_refl)). destruct x as [a v|a]; cbn in SA |- *.
    - destruct SA as [W N]. unfold store. apply String.eqb_neq in N. rewrite N. destruct W as [->|[->|[->| ->]]]; eauto. destruct (integer v) eqn:IV; eauto. exfalso. apply (I v); [now left|exact IV].
    - destruct SA as [->|[->|[->| ->]]]; cbn; eauto. }
  destruct S as [s1 ->]. apply IH; [intros; apply SA; now right|intros v H; apply I; now right].
Qed.
Lemma all_failed integer l n : (forall x, In x l -> sayable x) -> forall s, do_all integer l s = inr n -> n = 2.
Proof.
  induction l as [|x l IH]; intros SA s E; [discriminate|]. cbn [do_all] in E. destruct (do_said integer x s) as [s1|m] eqn:D; [eapply IH; eauto; intros; apply SA; now right|].
  injection E as ->. specialize (SA x (or_introl eq_refl)). destruct x as [a v|a]; cbn in SA, D.
  - destruct SA as [W N]. unfold store in D. apply String.eqb_neq in N. rewrite N in D. destruct W as [->|[->|[->| ->]]]; try discriminate. destruct (integer v); congruence.
  - destruct SA as [->|[->|[->| ->]]]; discriminate.
Qed.

(** ** C127 *)
(** What is asked for in the usual spelling is what the pipeline is called with. *)
Theorem C127_as_asked : forall integer ws l, spelled ws l -> integers integer l -> last_said Payload l <> None -> last_said Targets l <> None ->
  exists c, main integer ws = inl c /\ asked integer l c.
Proof.
  intros integer ws l P I LP LT. unfold main. rewrite (spelled_parsed _ _ _ P).
  destruct (do_all integer l defaults) as [s|] eqn:D.
  - pose proof (done_said integer l _ _ D) as (E1 & E2 & E3 & E4 & E5 & E6 & E7 & E8). cbn in *. unfold finish. rewrite E1, E2.
    destruct (last_said Payload l) as [p|] eqn:HP; [|congruence]. destruct (last_said Targets l) as [t|] eqn:HT; [|congruence]. rewrite E1, E2. eexists. split; [reflexivity|].
    constructor; cbn; auto; try (clear -E5; intuition congruence); try (clear -E6; intuition congruence); try (clear -E7; intuition congruence); try (clear -E8; intuition congruence). rewrite E3. now destruct (last_said Output l).
  - exfalso. destruct (all_done integer l (spelled_sayable _ _ P) I defaults) as [s' E]. congruence.
Qed.
Print Assumptions C127_as_asked.

(** Only the last value of each option and the flags count; the order of the rest does not. *)
Theorem C127_any_order : forall integer ws1 l1 ws2 l2, spelled ws1 l1 -> spelled ws2 l2 -> integers integer l1 -> integers integer l2 ->
  (forall a, last_said a l1 = last_said a l2) -> (forall a, In (Flag a) l1 <-> In (Flag a) l2) ->
  last_said Payload l1 <> None -> last_said Targets l1 <> None -> main integer ws1 = main integer ws2.
Proof.
  intros integer ws1 l1 ws2 l2 P1 P2 I1 I2 LS FL LP LT. destruct (C127_as_asked integer ws1 l1 P1 I1 LP LT) as (c1 & -> & A1).
  rewrite LS in LP, LT. destruct (C127_as_asked integer ws2 l2 P2 I2 LP LT) as (c2 & -> & A2). f_equal.
  destruct A1 as [B1 B2 B3 B4 B5 B6 B7 B8 B9], A2 as [D1 D2 D3 D4 D5 D6 D7 D8 D9]. rewrite LS in *. rewrite FL in *. destruct c1, c2; cbn in *.
  assert (BE : forall (b c : bool) (Q : Prop), (b = true <-> Q) -> (c = true <-> Q) -> b = c) by (clear; intros [] [] Q; intuition congruence).
  f_equal; try congruence; try (eapply BE; eassumption).
  destruct (last_said Threads l2); congruence.
Qed.
Print Assumptions C127_any_order.

(** Without a payload or a target list, or with a number of threads that is none, the program leaves with
    status 2 and nothing is run. *)
Theorem C127_refused : forall integer ws l, spelled ws l -> last_said Payload l = None \/ last_said Targets l = None \/ ~ integers integer l -> exists n, main integer ws = inr n.
Proof.
  intros integer ws l P H. unfold main. rewrite (spelled_parsed _ _ _ P). destruct (do_all integer l defaults) as [s|n] eqn:D; [|eauto].
  pose proof (done_said integer l _ _ D) as (E1 & E2 & _). cbn in E1, E2. unfold finish. destruct H as [H|[H|H]].
  - rewrite H in E1. rewrite E1. eauto.
  - rewrite H in E2. rewrite E1, E2. destruct (last_said Payload l); eauto.
  - exfalso. apply H. intros v I. revert D I. clear. generalize defaults. induction l as [|x l IH]; intros s0 D I; [destruct I|]. cbn [do_all] in D. destruct (do_said integer x s0) as [s1|] eqn:S; [|discriminate].
    destruct I as [->|I]; [|eapply IH; eauto]. cbn [do_said] in S. unfold store in S. destruct (String.eqb v "--"); [discriminate|]. destruct (integer v); congruence.
Qed.
Print Assumptions C127_refused.
Theorem C127_status_of_refusals : forall integer ws l n, spelled ws l -> main integer ws = inr n -> n = 2.
Proof.
  intros integer ws l n P. unfold main. rewrite (spelled_parsed _ _ _ P). destruct (do_all integer l defaults) as [s|m] eqn:D.
  - unfold finish. destruct (a_payload s) eqn:E1; [destruct (a_targets s) eqn:E2|]; try congruence. now rewrite E1, E2.
  - intros [= <-]. eapply all_failed; [eapply spelled_sayable; eauto|eauto].
Qed.
Print Assumptions C127_status_of_refusals.

(** --help leaves with status 0, whatever follows it. *)
Theorem C127_help : forall integer ws l w ws' l', spelled ws l -> integers integer l -> names w Help -> spelled ws' l' -> main integer (ws ++ w :: ws') = inr 0.
Proof.
  intros integer ws l w ws' l' P I N P'. unfold main, parse_args. destruct (spelled_taken integer (w :: ws') _ _ P) as (ts & C & E).
  destruct (names_taken _ _ N) as [(lg & T) _]. rewrite (takes_on _ _ _ _ _ T) in C. destruct (spelled_taken integer [] _ _ P') as (ts' & C' & _). rewrite app_nil_r in C'. cbn [classify_all] in C'. rewrite C' in C. rewrite C, E.
  destruct (all_done integer l (spelled_sayable _ _ P) I defaults) as [s' ->]. reflexivity.
Qed.
Print Assumptions C127_help.

(** Nothing is passed over: whenever the pipeline is called, every word of the command line was read as an
    option, a flag or a value, and the call is the one they ask for. *)
Theorem C127_nothing_passed_over : forall integer ws c, main integer ws = inl c -> exists l, read ws l /\ asked integer l c.
Proof.
  intros integer ws c M. unfold main in M. destruct (parse_args integer ws) as [s|] eqn:P; [|discriminate]. unfold parse_args in P. destruct (classify_all ws) as [ts|] eqn:C; [|discriminate].
  destruct (consumed integer (length ws) ws ts defaults false s (le_n _) C P) as (l & R & D & _). exists l. split; [exact R|].
  pose proof (done_said integer l _ _ D) as (E1 & E2 & E3 & E4 & E5 & E6 & E7 & E8). cbn in *.
  destruct (a_payload s) as [p|]; [|discriminate]. destruct (a_targets s) as [t|]; [|discriminate]. injection M as <-.
  constructor; cbn; auto; try (clear -E5; intuition congruence); try (clear -E6; intuition congruence); try (clear -E7; intuition congruence); try (clear -E8; intuition congruence).
  - now destruct (last_said Payload l).
  - now destruct (last_said Targets l).
  - rewrite E3. now destruct (last_said Output l).
Qed.
Print Assumptions C127_nothing_passed_over.

(** ** Examples *)
Definition two (s : string) : option Z := if String.eqb s "2" then Some 2%Z else None.
Example C127_ex : spelled ["-p"; "ariel.xml"; "--tar"; "targets.csv"; "--output=out.h5"; "-n2"; "--plot"; "-d"]
  [Says Payload "ariel.xml"; Says Targets "targets.csv"; Says Output "out.h5"; Says Threads "2"; Flag Plot; Flag Debug].
Proof.
  apply spelled_apart; [now left|unfold with_value; auto|intros r; discriminate|].
  apply spelled_apart; [right; split; [now exists "getList"|intros [] r; cbn; congruence]|unfold with_value; auto|intros r; discriminate|].
  apply (spelled_equal "--output" Output "out.h5"); [exact (exact Output)|unfold with_value; auto|discriminate|].
  apply (spelled_joined Threads "2" ""); [unfold with_value; auto|discriminate|discriminate|].
  apply spelled_flag; [exact (exact Plot)|unfold a_flag; auto|]. apply spelled_flag; [now left|unfold a_flag; auto|]. constructor.
Qed.
Example C127_ex_call : main two ["-p"; "ariel.xml"; "--tar"; "targets.csv"; "--output=out.h5"; "-n2"; "--plot"; "-d"] =
  inl {| c_options := "ariel.xml"; c_target_list := "targets.csv"; c_output := Some "out.h5"; c_plot := true; c_full_contrib := false; c_debug := true; c_n_thread := 2; c_log := false; c_replace := true |}.
Proof. reflexivity. Qed.
Example C127_ex_unknown : main two ["-p"; "a"; "-t"; "b"; "c"] = inr 2 /\ main two ["-p"; "a"; "-t"; "b"; "--pl"; "-x"] = inr 2 /\ main two ["--p"; "a"; "-t"; "b"] = inr 2 /\ main two ["-p"; "a"; "--help"; "-t"] = inr 0.
Proof. repeat split. Qed.
