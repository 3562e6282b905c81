(** The log (C116). *)
From Coq Require Import ZArith Lia.
From Verif Require Import Base M_Log S_Log.
Open Scope Z_scope.
Open Scope list_scope.

Lemma written_app k a b : written k (a ++ b) = written k a ++ written k b.
Proof. apply flat_map_app. Qed.
Lemma copies_app n a b : copies n (a ++ b) = copies n a ++ copies n b.
Proof. apply flat_map_app. Qed.
Definition count (f : string) (l : list string) : nat := length (filter (fun g => if string_dec g f then true else false) l).
Lemma written_handlers f t l : written (LogFile f) (map (fun g => (LogFile g, t)) l) = repeat t (count f l).
Proof. unfold count. induction l as [|g l IH]; cbn; auto. fold (written (LogFile f) (map (fun g => (LogFile g, t)) l)). rewrite IH. destruct (string_dec g f); reflexivity. Qed.
Lemma console_handlers t l : written Console (map (fun g => (LogFile g, t)) l) = [].
Proof. induction l; cbn; auto. Qed.
Lemma filter_const {A} (b : bool) (l : list A) : filter (fun _ => b) l = if b then l else [].
Proof. induction l; cbn; destruct b; auto. now rewrite IHl. Qed.
Lemma emit_file s l t f : written (LogFile f) (emit s l t) = if Z_le_dec 10 l then repeat t (count f (files s)) else [].
Proof.
  unfold emit, DEBUG. destruct (Z.ltb_spec l 10); destruct (Z_le_dec 10 l); try lia; auto. rewrite written_app, filter_const. assert ((10 <=? l) = true) as -> by (apply Z.leb_le; lia). rewrite written_handlers. destruct (_ && _); reflexivity.
Qed.
Lemma emit_console s l t : written Console (emit s l t) = if seen_at (rank s) (console s) l then [t] else [].
Proof.
  unfold emit, seen_at, DEBUG, ERROR. destruct (Z.ltb_spec l 10).
  - assert ((10 <=? l) = false) as -> by (apply Z.leb_gt; lia). rewrite andb_false_r. reflexivity.
  - assert ((10 <=? l) = true) as -> by (apply Z.leb_le; lia). rewrite andb_true_r, written_app, filter_const, console_handlers, app_nil_r. destruct (_ && _); reflexivity.
Qed.
Lemma act_spec b : forall s, files (fst (act s b)) = files s /\ rank (fst (act s b)) = rank s /\ console (fst (act s b)) = set_by (console s) b /\
  (forall f, written (LogFile f) (snd (act s b)) = copies (count f (files s)) (messages b)) /\ written Console (snd (act s b)) = on_console (rank s) (console s) b.
Proof.
  induction b as [|[l t|l] b IH]; intros s; cbn [act messages flat_map set_by on_console].
  - cbn. auto.
  - specialize (IH s). destruct (act s b) as [s' o]. cbn [fst snd] in *. destruct IH as (A & B & C & D & E). split; [auto|]. split; [auto|]. split; [auto|]. split.
    + intros f. rewrite written_app, emit_file, D. fold (messages b). rewrite copies_app. f_equal. destruct (Z_le_dec 10 l); cbn; rewrite ?app_nil_r; reflexivity.
    + rewrite written_app, emit_console, E. reflexivity.
  - specialize (IH (setLogLevel l s)). cbn in IH. exact IH.
Qed.

Definition opened1 (opens : string -> bool) (abs : string -> string) (f : string) (r : run) : nat :=
  match log_file r with Some g => if string_dec (abs g) f then if opens f then 1 else 0 else 0 | None => 0 end.
Lemma opened_cons opens abs f r l : opened opens abs f (r :: l) = (opened1 opens abs f r + opened opens abs f l)%nat.
Proof. reflexivity. Qed.
Lemma opened_app opens abs f a b : opened opens abs f (a ++ b) = (opened opens abs f a + opened opens abs f b)%nat.
Proof. induction a as [|r a IH]; cbn [app]; [reflexivity|]. rewrite !opened_cons, IH. lia. Qed.
Lemma count_app f a b : count f (a ++ b) = (count f a + count f b)%nat.
Proof. unfold count. now rewrite filter_app, app_length. Qed.

Definition startsb (opens : string -> bool) (abs : string -> string) (r : run) : bool := match log_file r with Some f => opens (abs f) | None => true end.
Lemma starts_b opens abs r : starts opens abs r <-> startsb opens abs r = true.
Proof. unfold starts, startsb. destruct (log_file r) as [f|]; [split; [auto|intros H g [= <-]; auto]|split; [auto|discriminate]]. Qed.

Lemma run_spec opens abs s r : let '(s', o, res) := standard_pipeline opens abs s r in
  (forall f, count f (files s') = (count f (files s) + opened1 opens abs f r)%nat) /\ rank s' = rank s /\
  console s' = (let lvl := if r_debug r then 10 else console s in if startsb opens abs r then set_by lvl (r_body r) else lvl) /\
  (forall f, written (LogFile f) o = copies (count f (files s)) [ascii_art; code_version] ++ if startsb opens abs r then copies (count f (files s) + opened1 opens abs f r) (messages (r_body r)) else []) /\
  written Console o = (if seen_at (rank s) (console s) 20 then [ascii_art; code_version] else []) ++ (if startsb opens abs r then on_console (rank s) (if r_debug r then 10 else console s) (r_body r) else []) /\
  (res = Ok tt <-> starts opens abs r).
Proof.
  unfold standard_pipeline. set (s0 := if r_debug r then setLogLevel DEBUG s else s).
  assert (F0 : files s0 = files s) by (unfold s0; destruct (r_debug r); reflexivity). assert (R0 : rank s0 = rank s) by (unfold s0; destruct (r_debug r); reflexivity). assert (C0 : console s0 = if r_debug r then 10 else console s) by (unfold s0; destruct (r_debug r); reflexivity).
  assert (HF : forall f, written (LogFile f) (emit s INFO ascii_art ++ emit s INFO code_version) = copies (count f (files s)) [ascii_art; code_version]).
  { intros f. rewrite written_app, !emit_file. destruct (Z_le_dec 10 INFO) as [|N]; [|exfalso; apply N; discriminate]. cbn. now rewrite app_nil_r. }
  assert (HC : written Console (emit s INFO ascii_art ++ emit s INFO code_version) = if seen_at (rank s) (console s) 20 then [ascii_art; code_version] else []).
  { rewrite written_app, !emit_console. unfold INFO. destruct (seen_at _ _ _); reflexivity. }
  assert (GO : forall g, log_file r = Some g -> match addLogFile opens abs g s0 with Ok s1 => opens (abs g) = true /\ s1 = {| console := console s0; files := files s0 ++ [abs g]; rank := rank s0 |} | Err e => opens (abs g) = false end).
  { intros g _. unfold addLogFile. destruct (opens (abs g)); auto. }
  set (q := match r_log r with LogName f => addLogFile opens abs f s0 | LogFlag true => addLogFile opens abs "exorad.log" s0 | LogFlag false => Ok s0 end).
  assert (Q : match q with
              | Err e => startsb opens abs r = false /\ forall f, opened1 opens abs f r = 0%nat
              | Ok s1 => startsb opens abs r = true /\ rank s1 = rank s /\ console s1 = console s0 /\ forall f, count f (files s1) = (count f (files s) + opened1 opens abs f r)%nat end).
  { assert (NM : forall g, log_file r = Some g -> match addLogFile opens abs g s0 with
              | Err e => startsb opens abs r = false /\ forall f, opened1 opens abs f r = 0%nat
              | Ok s1 => startsb opens abs r = true /\ rank s1 = rank s /\ console s1 = console s0 /\ forall f, count f (files s1) = (count f (files s) + opened1 opens abs f r)%nat end).
    { intros g G. specialize (GO g G). unfold startsb, opened1. rewrite G. destruct (addLogFile opens abs g s0) as [s1|].
      - destruct GO as [O ->]. split; [auto|]. split; [auto|]. split; [reflexivity|]. intros f. cbn [files]. rewrite count_app, F0. f_equal. unfold count. cbn. destruct (string_dec (abs g) f) as [E|E]; [subst; rewrite O|]; reflexivity.
      - split; [auto|]. intros f. destruct (string_dec (abs g) f) as [E|E]; auto. subst. now rewrite GO. }
    unfold q. unfold log_file in NM. destruct (r_log r) as [[]|g] eqn:E; [now apply NM| |now apply NM].
    unfold startsb, opened1, log_file. rewrite E. split; [auto|]. split; [auto|]. split; [auto|]. intros f. rewrite F0. lia. }
  destruct q as [s1|e]; [destruct Q as (ST & R1 & C1 & F1)|destruct Q as (ST & F1)].
  - destruct (act_spec (r_body r) s1) as (A1 & A2 & A3 & A4 & A5). destruct (act s1 (r_body r)) as [s' o]. cbn [fst snd] in *. rewrite ST. split; [intros f; now rewrite A1|]. split; [congruence|]. split; [cbv zeta; rewrite A3, C1, C0; reflexivity|].
    split; [intros f; rewrite written_app, HF, A4, F1; reflexivity|]. split; [rewrite written_app, HC, A5, R1, C1, C0; reflexivity|]. rewrite starts_b. tauto.
  - rewrite ST. split; [intros f; rewrite F1, F0; lia|]. split; [auto|]. split; [auto|]. split; [intros f; rewrite HF, app_nil_r; reflexivity|]. split; [rewrite HC, app_nil_r; reflexivity|]. rewrite starts_b, ST. split; discriminate.
Qed.

Lemma runs_app opens abs a b : forall s, runs opens abs s (a ++ b) = let (s1, o) := runs opens abs s a in let (s2, o') := runs opens abs s1 b in (s2, o ++ o').
Proof.
  induction a as [|r a IH]; intros s; cbn [app runs].
  - now destruct (runs opens abs s b).
  - destruct (standard_pipeline opens abs s r) as [[s1 o1] res]. rewrite IH. destruct (runs opens abs s1 a) as [s2 o2]. destruct (runs opens abs s2 b) as [s3 o3]. now rewrite app_assoc.
Qed.
Lemma history opens abs l : forall s, (forall f, count f (files (fst (runs opens abs s l))) = (count f (files s) + opened opens abs f l)%nat) /\ rank (fst (runs opens abs s l)) = rank s /\ console (fst (runs opens abs s l)) = left_by opens abs (console s) l.
Proof.
  induction l as [|r l IH]; intros s; cbn [runs].
  - cbn. split; [intros; lia|auto].
  - pose proof (run_spec opens abs s r) as RS. destruct (standard_pipeline opens abs s r) as [[s1 o1] res]. destruct RS as (A & B & C & _). specialize (IH s1). destruct (runs opens abs s1 l) as [s2 o2]. cbn [fst] in *. destruct IH as (I1 & I2 & I3).
    split; [intros f; rewrite I1, A, opened_cons; lia|]. split; [congruence|]. rewrite I3, C. cbn [left_by]. cbv zeta. unfold startsb. destruct (log_file r); reflexivity.
Qed.
Lemma added opens abs rk before r : exists o, adds opens abs rk before r o /\
  (forall f, let n := opened opens abs f before in let n' := opened opens abs f (before ++ [r]) in
     written (LogFile f) o = copies n [ascii_art; code_version] ++ if startsb opens abs r then copies n' (messages (r_body r)) else []) /\
  (let lvl := left_by opens abs 20 before in
   written Console o = (if seen_at rk lvl 20 then [ascii_art; code_version] else []) ++ (if startsb opens abs r then on_console rk (if r_debug r then 10 else lvl) (r_body r) else [])).
Proof.
  unfold adds. rewrite runs_app. cbn [runs]. destruct (history opens abs before (imported rk)) as (H1 & H2 & H3). destruct (runs opens abs (imported rk) before) as [s o0]. cbn [fst snd] in *.
  pose proof (run_spec opens abs s r) as RS. destruct (standard_pipeline opens abs s r) as [[s1 o1] res]. destruct RS as (A & B & C & D & E & _). cbn [snd]. rewrite app_nil_r. exists o1. split; [reflexivity|]. cbn [imported files rank console] in *. split.
  - intros f. set (n := opened opens abs f before). set (n' := opened opens abs f (before ++ [r])). cbv zeta. assert (N : count f (files s) = n) by (rewrite H1; reflexivity). rewrite D, N. replace n' with (n + opened1 opens abs f r)%nat; [reflexivity|]. unfold n'. rewrite opened_app, opened_cons. cbn [opened]. fold n. lia.
  - cbv zeta. rewrite E, H2, H3. reflexivity.
Qed.
Lemma adds_unique opens abs rk before r o o' : adds opens abs rk before r o -> adds opens abs rk before r o' -> o = o'.
Proof. unfold adds. intros A B. rewrite A in B. now apply app_inv_head in B. Qed.

(** ** C116: what a log file receives *)
(** A log file receives every message of the steps, once for each run so far that was asked to log to
    it, whatever the levels set, the messages and the rank; and the banner once for each run before. *)
Theorem C116_log_file : forall opens abs rk before r f o, adds opens abs rk before r o -> starts opens abs r ->
  written (LogFile f) o = copies (opened opens abs f before) [ascii_art; code_version] ++ copies (opened opens abs f (before ++ [r])) (messages (r_body r)).
Proof.
  intros opens abs rk before r f o A S. destruct (added opens abs rk before r) as (o' & A' & F & _). rewrite (adds_unique _ _ _ _ _ _ _ A A'). specialize (F f). cbv zeta in F. rewrite F. apply starts_b in S. now rewrite S.
Qed.
Print Assumptions C116_log_file.
(** The first run of a process: exactly its messages, in order, once; not the banner. *)
Theorem C116_first_log : forall opens abs rk r f o, log_file r = Some f -> opens (abs f) = true -> adds opens abs rk [] r o -> written (LogFile (abs f)) o = messages (r_body r).
Proof.
  intros opens abs rk r f o L O A. rewrite (C116_log_file opens abs rk [] r (abs f) o A); [|intros g G; congruence]. cbn [opened app]. rewrite L. destruct (string_dec (abs f) (abs f)) as [_|N]; [|contradiction]. rewrite O. cbn [copies flat_map app repeat Nat.add].
  induction (messages (r_body r)) as [|t l IH]; cbn; [reflexivity|]. unfold copies in IH. cbn in IH. now rewrite IH.
Qed.
Print Assumptions C116_first_log.
(** A file never loses a message: each message of a run is there if the run, or one before it, was to log there. *)
Theorem C116_nothing_is_lost : forall opens abs rk before r r0 f o l t, In r0 (before ++ [r]) -> log_file r0 = Some f -> opens (abs f) = true -> starts opens abs r -> adds opens abs rk before r o ->
  In (Say l t) (r_body r) -> 10 <= l -> In t (written (LogFile (abs f)) o).
Proof.
  intros opens abs rk before r r0 f o l t I L O S A J P. rewrite (C116_log_file opens abs rk before r (abs f) o A S). apply in_app_iff. right. unfold copies. apply in_flat_map. exists t. split.
  - unfold messages. apply in_flat_map. exists (Say l t). split; auto. destruct (Z_le_dec 10 l); [now left|contradiction].
  - assert (N : (0 < opened opens abs (abs f) (before ++ [r]))%nat).
    { induction (before ++ [r]) as [|x xs IH]; [destruct I|]. rewrite opened_cons. destruct I as [<-|I]; [|specialize (IH I); lia]. unfold opened1. rewrite L, O. destruct (string_dec (abs f) (abs f)); [lia|contradiction]. }
    destruct (opened _ _ _ _); [lia|]. now left.
Qed.
Print Assumptions C116_nothing_is_lost.
(** It is not so that a run writes its messages once, nor that a run without log file writes none. *)
Theorem C116_once_refuted : ~ (forall opens abs rk before r f o, log_file r = Some f -> opens (abs f) = true -> adds opens abs rk before r o -> written (LogFile (abs f)) o = messages (r_body r)) /\
  ~ (forall opens abs rk before r f o, log_file r = None -> adds opens abs rk before r o -> written (LogFile f) o = []).
Proof.
  split; intros H.
  - specialize (H (fun _ => true) (fun f => f) 0 [{| r_debug := false; r_log := LogFlag true; r_body := [] |}] {| r_debug := false; r_log := LogFlag true; r_body := [Say 20 "hello"] |} "exorad.log"%string _ eq_refl eq_refl eq_refl). discriminate H.
  - specialize (H (fun _ => true) (fun f => f) 0 [{| r_debug := false; r_log := LogFlag true; r_body := [] |}] {| r_debug := false; r_log := LogFlag false; r_body := [Say 20 "hello"] |} "exorad.log"%string _ eq_refl eq_refl). discriminate H.
Qed.
Print Assumptions C116_once_refuted.
(** The console: messages at the level in force or above, on processes other than the first only
    errors; log files make no difference to it. *)
Theorem C116_console : forall opens abs rk before r o, adds opens abs rk before r o -> starts opens abs r ->
  let lvl := left_by opens abs 20 before in
  written Console o = (if seen_at rk lvl 20 then [ascii_art; code_version] else []) ++ on_console rk (if r_debug r then 10 else lvl) (r_body r).
Proof.
  intros opens abs rk before r o A S. destruct (added opens abs rk before r) as (o' & A' & _ & C). rewrite (adds_unique _ _ _ _ _ _ _ A A'). cbv zeta in *. rewrite C. apply starts_b in S. now rewrite S.
Qed.
Print Assumptions C116_console.
(** Only a log file that cannot be opened stops a run here; then nothing but the banner is written. *)
Theorem C116_log_file_that_cannot_be_opened : forall opens abs rk before r f o, log_file r = Some f -> opens (abs f) = false -> adds opens abs rk before r o ->
  (forall g, written (LogFile g) o = copies (opened opens abs g before) [ascii_art; code_version]) /\ snd (standard_pipeline opens abs (fst (runs opens abs (imported rk) before)) r) = Err OSError.
Proof.
  intros opens abs rk before r f o L O A. destruct (added opens abs rk before r) as (o' & A' & F & _). rewrite (adds_unique _ _ _ _ _ _ _ A A'). assert (ST : startsb opens abs r = false) by (unfold startsb; now rewrite L). split.
  - intros g. specialize (F g). cbv zeta in F. rewrite F, ST, app_nil_r. reflexivity.
  - unfold standard_pipeline. unfold log_file in L. destruct (r_log r) as [[]|g]; [injection L as <-|discriminate|injection L as ->]; unfold addLogFile; rewrite O; reflexivity.
Qed.
Print Assumptions C116_log_file_that_cannot_be_opened.

(** Two runs with the default log file, the second while observing quietly *)
Example C116_ex : let first := {| r_debug := false; r_log := LogFlag true; r_body := [Say 20 "payload"; SetLevel 40; Say 10 "detail"; SetLevel 20; Say 30 "skipped"] |} in
  let second := {| r_debug := true; r_log := LogName "./exorad.log"; r_body := [Say 10 "again"] |} in
  let o := snd (runs (fun _ => true) (fun f => if string_dec f "./exorad.log" then "exorad.log"%string else f) (imported 0) [first; second]) in
  written (LogFile "exorad.log") o = ["payload"; "detail"; "skipped"; ascii_art; code_version; "again"; "again"]%string /\ written Console o = [ascii_art; code_version; "payload"; "skipped"; ascii_art; code_version; "again"]%string.
Proof. split; reflexivity. Qed.
