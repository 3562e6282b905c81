(** Lemmas about the names of stellar models and the choice among them. *)
From Verif Require Import Base PyStr XR M_Signal M_Optics M_Light M_Bins M_Psf M_Source S_Signal S_Optics S_Light S_Source L_Util L_Signal L_Optics L_Light L_Bins.
From Coq Require Import Qreals.
Open Scope list_scope.
Open Scope R_scope.

Lemma split_head sep l : exists w ws, split_l sep l = w :: ws /\ ~ In sep w /\ ((ws = [] /\ l = w) \/ exists l', l = w ++ sep :: l' /\ split_l sep l' = ws).
Proof.
  induction l as [|c l IH]; [exists [], []; cbn; auto|]. cbn [split_l]. destruct (Ascii.eqb_spec c sep) as [->|Hc].
  - exists [], (split_l sep l). split; auto. split; auto. right. exists l. auto.
  - destruct IH as (w & ws & E & Hn & H). rewrite E. exists (c :: w), ws. split; auto. split; [intros [->|H']; auto|].
    destruct H as [[-> ->]|(l' & -> & H)]; [left; auto|right]. exists l'. auto.
Qed.
Lemma number_reads s x : number_in s = Ok x <-> reads s x.
Proof.
  unfold number_in, reads. destruct (py_float s) as [[q| |]|]; split; try discriminate; try (intros (q' & H & _); discriminate).
  - intros H. exists q. split; auto. congruence.
  - intros (q' & H & ->). congruence.
Qed.
Lemma str_of_chars s : str_of (str_chars s) = s.
Proof. apply string_of_list_ascii_of_string. Qed.
Lemma str_of_app a b : str_of (a ++ b) = (str_of a ++ str_of b)%string.
Proof. apply str_chars_inj. rewrite str_chars_app, !chars_of_str. auto. Qed.
Lemma length_str_of l : String.length (str_of l) = length l.
Proof. induction l; cbn; auto. Qed.
Lemma length_chars s : length (str_chars s) = String.length s.
Proof. rewrite <- (str_of_chars s) at 2. now rewrite length_str_of. Qed.
(** the parts of a name with two dashes *)
Lemma parts name : three_parts name -> exists a b c rest, str_chars name = a ++ "-"%char :: b ++ "-"%char :: c ++ rest /\ ~ In "-"%char a /\ ~ In "-"%char b /\ ~ In "-"%char c
  /\ (rest = [] \/ exists r, rest = "-"%char :: r) /\ part 0 name = Ok (str_of a) /\ part 1 name = Ok (str_of b) /\ part 2 name = Ok (str_of c).
Proof.
  intros (a0 & b0 & c0 & ->). set (l := str_chars _). unfold part, py_split. fold l.
  assert (Hd : (2 <= length (filter (Ascii.eqb "-") l))%nat). { unfold l. rewrite !str_chars_app, !filter_app, !app_length. cbn. lia. }
  clearbody l. destruct (split_head "-" l) as (w & ws & E & Hn & H). rewrite E.
  assert (H0 : forall v, ~ In "-"%char v -> filter (Ascii.eqb "-") v = []). { induction v as [|c v IH]; intros Hv; auto. cbn [filter]. destruct (Ascii.eqb_spec "-" c) as [<-|]; [exfalso; apply Hv; now left|]. apply IH. intros H'. apply Hv. now right. }
  destruct H as [[-> ->]|(l' & -> & E')]; [rewrite H0 in Hd by auto; cbn in Hd; lia|].
  destruct (split_head "-" l') as (w' & ws' & E2 & Hn' & H'). destruct H' as [[-> ->]|(l'' & -> & E'')].
  { rewrite filter_app in Hd. cbn [filter] in Hd. rewrite !H0 in Hd by auto. cbn in Hd. lia. }
  destruct (split_head "-" l'') as (w'' & ws'' & E3 & Hn'' & H''). exists w, w', w''.
  rewrite <- E', E2, <- E'', E3. cbn [map nth_error]. destruct H'' as [[-> ->]|(r & -> & _)].
  - exists []. rewrite app_nil_r. repeat (split; [solve [auto]|]). auto.
  - exists ("-"%char :: r). repeat (split; [solve [eauto]|]). auto.
Qed.
Lemma parts_conv name s : part 2 name = Ok s -> three_parts name.
Proof.
  unfold part, py_split. destruct (split_head "-" (str_chars name)) as (w & ws & E & Hn & H). rewrite E. destruct H as [[-> H]|(l' & H & E')]; [discriminate|].
  destruct (split_head "-" l') as (w' & ws' & E2 & Hn' & H'). rewrite <- E', E2. destruct H' as [[-> H']|(l'' & H' & E'')]; [discriminate|]. intros _.
  exists (str_of w), (str_of w'), (str_of l''). apply str_chars_inj. rewrite H, H', !str_chars_app, !chars_of_str. reflexivity.
Qed.
Lemma app_firstn {A} (a b : list A) n : length a = n -> firstn n (a ++ b) = a /\ skipn n (a ++ b) = b.
Proof. intros <-. split; [rewrite firstn_app, Nat.sub_diag, firstn_all; cbn; apply app_nil_r|rewrite skipn_app, Nat.sub_diag, skipn_all; auto]. Qed.
Lemma named_iff name T g z : named name T g z <-> temperature_in name = Ok T /\ gravity_in name = Ok g /\ metallicity_in name = Ok z.
Proof.
  split.
  - intros (pre & t & lg & m & rest & En & Hpre & D1 & D2 & D3 & D4 & Hm & Ht & Hg & Hz). unfold no_dash in *.
    assert (Es : split_l "-" (str_chars name) = (str_chars pre ++ str_chars t) :: str_chars lg :: split_l "-" (str_chars m ++ str_chars rest)).
    { rewrite En, !str_chars_app. change (str_chars "-") with ["-"%char]. cbn [app]. rewrite app_assoc, split_l_sep. { f_equal. now rewrite split_l_sep. } intros H. apply in_app_or in H. tauto. }
    unfold temperature_in, gravity_in, metallicity_in, part, py_split. rewrite Es. cbn [map nth_error bind]. split; [|split].
    + apply number_reads. unfold drop3. rewrite chars_of_str. rewrite (proj2 (app_firstn (str_chars pre) (str_chars t) 3 ltac:(now rewrite length_chars))), str_of_chars. auto.
    + apply number_reads. now rewrite str_of_chars.
    + assert (E3 : exists w ws, split_l "-" (str_chars m ++ str_chars rest) = w :: ws /\ firstn 3 w = str_chars m).
      { destruct Hm as [Hm|[Hm [->|[r ->]]]].
        - destruct (split_head "-" (str_chars rest)) as (w & ws & E & Hw & H). exists (str_chars m ++ w), ws. split; [|apply app_firstn; now rewrite length_chars].
          destruct H as [[-> H]|(l' & H & El)]; rewrite H; [apply split_l_nosep; intros Hi; apply in_app_or in Hi; tauto|]. rewrite app_assoc, split_l_sep by (intros Hi; apply in_app_or in Hi; tauto). now rewrite El.
        - exists (str_chars m), []. cbn [str_chars list_ascii_of_string]. rewrite app_nil_r, split_l_nosep by auto. split; auto. apply firstn_all2. rewrite length_chars. lia.
        - exists (str_chars m), (split_l "-" (str_chars r)). rewrite str_chars_app. cbn [app str_chars list_ascii_of_string]. rewrite split_l_sep by auto. split; auto. apply firstn_all2. rewrite length_chars. lia. }
      destruct E3 as (w & ws & -> & Ef). cbn [map nth_error bind]. apply number_reads. unfold take3. now rewrite chars_of_str, Ef, str_of_chars.
  - intros (Ht & Hg & Hz). unfold temperature_in, gravity_in, metallicity_in in *. destruct (part 2 name) as [s2|] eqn:E2; [|discriminate]. destruct (parts name (parts_conv _ _ E2)) as (a & b & c & rest & En & Da & Db & Dc & Hr & P0 & P1 & P2).
    rewrite P0 in Ht. rewrite P1 in Hg. assert (s2 = str_of c) as -> by congruence. cbn [bind] in *. apply number_reads in Ht, Hg, Hz. unfold drop3, take3 in *. rewrite chars_of_str in *.
    assert (Hl : (3 < length a)%nat). { destruct (Nat.lt_ge_cases 3 (length a)) as [|Hl]; auto. rewrite skipn_all2 in Ht by auto. destruct Ht as (q & Hq & _). vm_compute in Hq. discriminate. }
    exists (str_of (firstn 3 a)), (str_of (skipn 3 a)), (str_of b), (str_of (firstn 3 c)), (str_of (skipn 3 c ++ rest)). unfold no_dash. rewrite !chars_of_str.
    assert (Hin : forall (l : list ascii) k, ~ In "-"%char l -> ~ In "-"%char (firstn k l) /\ ~ In "-"%char (skipn k l)).
    { intros l k Hl'. rewrite <- (firstn_skipn k l) in Hl'. split; intros H; apply Hl', in_or_app; auto. }
    split; [|split; [|split; [|split; [|split; [|split; [|split; [|split; [|split]]]]]]]]; auto; try (apply Hin; auto; fail).
    + apply str_chars_inj. rewrite En, !str_chars_app, !chars_of_str. change (str_chars "-") with ["-"%char]. cbn [app]. rewrite app_assoc, firstn_skipn. f_equal. f_equal. f_equal. f_equal. now rewrite app_assoc, firstn_skipn.
    + rewrite length_str_of, firstn_length. lia.
    + rewrite length_str_of, firstn_length. destruct (Nat.le_gt_cases 3 (length c)) as [H3|H3]; [left; lia|right]. split; [lia|]. rewrite skipn_all2 by lia. cbn [app]. destruct Hr as [->|[r ->]]; [left; auto|right; exists (str_of r); reflexivity].
Qed.
(** ** The first of the smallest *)
Definition first_least (k : nat) (l : list R) : Prop := (k < length l)%nat /\ forall j, (j < length l)%nat -> at_ k l <= at_ j l /\ ((j < k)%nat -> at_ k l < at_ j l).
Lemma argmin_from_spec : forall l pre best, first_least best pre -> first_least (argmin_from best (at_ best pre) (length pre) l) (pre ++ l).
Proof.
  induction l as [|x l IH]; intros pre best H; cbn [argmin_from]; [now rewrite app_nil_r|]. destruct H as [Hb H].
  assert (E : pre ++ x :: l = (pre ++ [x]) ++ l) by now rewrite <- app_assoc. rewrite E.
  assert (Hl : length (pre ++ [x]) = S (length pre)) by (rewrite app_length; cbn; lia).
  assert (Hold : forall j, (j < length pre)%nat -> at_ j (pre ++ [x]) = at_ j pre) by (intros j Hj; unfold at_; now apply app_nth1).
  assert (Hnew : at_ (length pre) (pre ++ [x]) = x) by (unfold at_; rewrite app_nth2, Nat.sub_diag; auto).
  destruct (Rltb x (at_ best pre)) eqn:El.
  - apply Rltb_true in El. rewrite <- Hl. rewrite <- Hnew at 1. apply IH. split; [lia|]. intros j Hj. rewrite Hnew. destruct (Nat.eq_dec j (length pre)) as [->|Hne]; [rewrite Hnew; split; [lra|lia]|].
    rewrite Hold by lia. destruct (H j ltac:(lia)). split; [lra|intros; lra].
  - apply Rltb_false in El. rewrite <- Hl, <- (Hold best) by auto. apply IH. split; [lia|]. intros j Hj. rewrite (Hold best) by auto. destruct (Nat.eq_dec j (length pre)) as [->|Hne]; [rewrite Hnew; split; [lra|lia]|].
    rewrite Hold by lia. apply H. lia.
Qed.
Lemma argmin_spec l : match argmin l with Ok k => first_least k l | Err e => l = [] /\ e = ValueError end.
Proof.
  destruct l as [|x l]; cbn; auto. apply (argmin_from_spec l [x] 0). split; [cbn; lia|]. intros j Hj. cbn in Hj. assert (j = 0)%nat as -> by lia. split; [lra|lia].
Qed.
(** ** Rounding *)
Lemma rint_rounded x : rounded x (rint x).
Proof.
  split; [apply rint_spec|]. unfold rint. destruct (Rfloor_spec x) as [H1 H2]. destruct (Rlt_dec _ _) as [H3|H3]; [rewrite Rabs_pos_eq; lra|].
  destruct (Rlt_dec _ _) as [H4|H4]; [rewrite plus_IZR; intros H; unfold Rabs in H; destruct (Rcase_abs _); lra|]. intros _. destruct (Z.even (Rfloor x)) eqn:Ev; [now apply Z.even_spec|].
  apply Z.even_spec. rewrite Z.even_add, Ev. reflexivity.
Qed.
Lemma rounded_unique x k k' : rounded x k -> rounded x k' -> k = k'.
Proof.
  intros [A1 A2] [B1 B2]. assert (H : IZR k' - 1 <= IZR k <= IZR k' + 1) by (unfold Rabs in A1, B1; destruct (Rcase_abs _), (Rcase_abs _); lra).
  rewrite <- minus_IZR, <- plus_IZR in H. destruct H as [Hl Hu]. apply le_IZR in Hl, Hu. destruct (Z.eq_dec k k') as [|Hne]; auto. exfalso.
  assert (Hc : k = (k' + 1)%Z \/ k = (k' - 1)%Z) by lia. destruct Hc as [-> | ->].
  - rewrite plus_IZR in *. assert (Rabs (x - (IZR k' + 1)) = 0.5 /\ Rabs (x - IZR k') = 0.5) as [E1 E2] by (unfold Rabs in *; destruct (Rcase_abs (x - (IZR k' + 1))), (Rcase_abs (x - IZR k')); lra).
    destruct (A2 E1) as [a Ha], (B2 E2) as [b Hb]. lia.
  - rewrite minus_IZR in *. assert (Rabs (x - (IZR k' - 1)) = 0.5 /\ Rabs (x - IZR k') = 0.5) as [E1 E2] by (unfold Rabs in *; destruct (Rcase_abs (x - (IZR k' - 1))), (Rcase_abs (x - IZR k')); lra).
    destruct (A2 E1) as [a Ha], (B2 E2) as [b Hb]. lia.
Qed.
(** ** The readings of all names *)
Definition readings (names : list string) (v : list (R * R * R)) : Prop := Forall2 (fun n p => named n (fst (fst p)) (snd (fst p)) (snd p)) names v.
Lemma named_unique n T g z T' g' z' : named n T g z -> named n T' g' z' -> T = T' /\ g = g' /\ z = z'.
Proof. intros A B. apply named_iff in A, B. destruct A as (A1 & A2 & A3), B as (B1 & B2 & B3). repeat split; congruence. Qed.
Lemma mapM_readings names : (exists Ts Gs Zs v, mapM temperature_in names = Ok Ts /\ mapM gravity_in names = Ok Gs /\ mapM metallicity_in names = Ok Zs
     /\ readings names v /\ Ts = map (fun p => fst (fst p)) v /\ Gs = map (fun p => snd (fst p)) v /\ Zs = map snd v)
  \/ (exists n, In n names /\ forall T g z, ~ named n T g z) /\ (forall Ts Gs Zs, mapM temperature_in names = Ok Ts -> mapM gravity_in names = Ok Gs -> mapM metallicity_in names = Ok Zs -> False).
Proof.
  destruct (mapM temperature_in names) as [Ts|e] eqn:Et, (mapM gravity_in names) as [Gs|e'] eqn:Eg, (mapM metallicity_in names) as [Zs|e''] eqn:Ez.
  1:{ left. exists Ts, Gs, Zs, (combine (combine Ts Gs) Zs). split; auto. split; auto. split; auto. apply mapM_Ok_Forall2 in Et, Eg, Ez. revert Gs Zs Eg Ez.
      induction Et as [|n T names Ts Hn Et IH]; intros Gs Zs Eg Ez; inversion Eg; inversion Ez; subst; cbn; [repeat split; constructor|]. destruct (IH _ _ H3 H8) as (A & B & C & D). split; [constructor; auto; cbn; now apply named_iff|]. split; [|split]; f_equal; assumption. }
  all: right; split; [|intros; congruence].
  all: assert (Hf : forall (f : string -> res R) l e, mapM f l = Err e -> exists n, In n l /\ f n = Err e) by
    (clear; intros f l; induction l as [|x l IH]; intros e E; [discriminate|]; cbn in E; destruct (f x) as [y|] eqn:Ef; cbn in E; [destruct (mapM f l) as [ys|] eqn:Em; cbn in E; [discriminate|]; destruct (IH e ltac:(congruence)) as (n & Hn & H'); exists n; split; [now right|auto]|exists x; split; [now left|congruence]]).
  all: first [apply Hf in Et; destruct Et as (n & Hn & E) | apply Hf in Eg; destruct Eg as (n & Hn & E) | apply Hf in Ez; destruct Ez as (n & Hn & E)]; exists n; split; auto; intros T g z Hnm; apply named_iff in Hnm; destruct Hnm as (A & B & C); congruence.
Qed.
Lemma distances_at t g z v i : (i < length v)%nat -> forall d, at_ i (distances t g z (map (fun p => fst (fst p)) v) (map (fun p => snd (fst p)) v) (map snd v)) =
  Rabs (fst (fst (nth i v d)) - t) + Rabs (snd (fst (nth i v d)) - g) + Rabs (snd (nth i v d) - z).
Proof. revert i. induction v as [|p v IH]; intros [|i] H d; cbn in *; try lia; auto. apply IH. lia. Qed.
Lemma distances_length t g z v : length (distances t g z (map (fun p => fst (fst p)) v) (map (fun p : R * R * R => snd (fst p)) v) (map snd v)) = length v.
Proof. induction v as [|p v IH]; cbn; auto. Qed.
