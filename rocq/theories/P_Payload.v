(** C100-C103: listing, loading and preparing payloads. *)
From Coq Require Import Sorting.Sorted Permutation.
From Verif Require Import Base PyStr M_Options M_Hdf5 M_Pipeline M_Payload S_Hdf5 S_Payload L_Hdf5 L_Keep.
Open Scope list_scope.

(** ** C100: channel lists *)
Lemma class_index n s : class_text n = Some s ->
  (let* c := index_node n "channelClass" in let* v := index_node c "value" in lower_of v) = Ok (py_lower s).
Proof.
  destruct n as [|d| |]; cbn; try discriminate. destruct (sget "channelClass" d) as [[|e| |]|]; try discriminate.
  cbn. destruct (sget "value" e) as [[[| | |t| |]| | |]|]; try discriminate. intros [= ->]. reflexivity.
Qed.

(** With several channels, each described by a class: the list asked for holds exactly the
    names of the channels of that class (up to case), in the order of the payload. *)
Theorem C100_channels_of_a_class :
  forall options l ctype, sget "channel" options = Some (NODict l) ->
    (forall name n, In (name, n) l -> exists s, class_text n = Some s) ->
    exists chosen, get_channel_list options ctype = Ok (map fst chosen) /\
      picked (fun x => exists s, class_text (snd x) = Some s /\ same_word s ctype) l chosen.
Proof.
  intros options l ctype E H. unfold get_channel_list. rewrite E. clear E.
  induction l as [|[name n] l IH].
  - exists []. split; [reflexivity|constructor].
  - destruct IH as (chosen & E & P); [intros; eapply H; right; eauto|].
    destruct (H name n (or_introl eq_refl)) as (s & CS). pose proof (class_index _ _ CS) as CI.
    cbn [channels_of_type]. destruct (index_node n "channelClass") as [c|]; cbn in CI |- *; [|discriminate].
    destruct (index_node c "value") as [v|]; cbn in CI |- *; [|discriminate]. rewrite CI. cbn. rewrite E. cbn.
    destruct (String.eqb (py_lower s) (py_lower ctype)) eqn:EQ.
    + apply String.eqb_eq in EQ. exists ((name, n) :: chosen). split; auto. constructor; auto.
      exists s. auto.
    + apply String.eqb_neq in EQ. exists chosen. split; auto. apply picked_skip; auto.
      intros (s' & CS' & W). cbn in CS'. rewrite CS in CS'. injection CS' as <-. auto.
Qed.
Print Assumptions C100_channels_of_a_class.

(** A payload with a single channel (which the parser does not wrap into a mapping from names)
    is not supported: whatever class is asked for, the call fails. *)
Theorem C100_single_channel_fails :
  forall options d e ctype, sget "channel" options = Some (NDict d) ->
    In ("channelClass", NDict e) d -> sget "channelClass" e = None ->
    exists x, get_channel_list options ctype = Err x.
Proof.
  intros options d e ctype E I N. unfold get_channel_list. rewrite E. clear E.
  induction d as [|[k n] d IH]; [destruct I|]. cbn [map channels_of_type fst snd].
  destruct I as [X|I].
  - injection X as -> ->. cbn. rewrite N. cbn. eauto.
  - destruct (IH I) as [x X]. cbn in X. rewrite X.
    destruct (index_node n "channelClass") as [c|]; cbn; eauto.
    destruct (index_node c "value") as [v|]; cbn; eauto.
    destruct (lower_of v) as [s|]; cbn; eauto.
Qed.
Print Assumptions C100_single_channel_fails.

(** A channel without class, wherever it stands, makes every listing fail. *)
Theorem C100_class_is_needed :
  forall options l name d ctype, sget "channel" options = Some (NODict l) ->
    In (name, NDict d) l -> sget "channelClass" d = None ->
    exists x, get_channel_list options ctype = Err x.
Proof.
  intros options l name d ctype E I N. unfold get_channel_list. rewrite E. clear E.
  induction l as [|[k n] l IH]; [destruct I|]. cbn [channels_of_type].
  destruct I as [X|I].
  - injection X as -> ->. cbn. rewrite N. cbn. eauto.
  - destruct (IH I) as [x X]. rewrite X.
    destruct (index_node n "channelClass") as [c|]; cbn; eauto.
    destruct (index_node c "value") as [v|]; cbn; eauto.
    destruct (lower_of v) as [s|]; cbn; eauto.
Qed.
Print Assumptions C100_class_is_needed.
(** No channel section: a KeyError; an empty one: no channels. *)
Theorem C100_no_channels :
  forall options ctype, sget "channel" options = None -> get_channel_list options ctype = Err KeyError.
Proof. intros options ctype E. unfold get_channel_list. rewrite E. reflexivity. Qed.
Print Assumptions C100_no_channels.

(** a channel element of a payload file, and payloads with two and with one of them *)
Definition ch_elem (name cls : string) : xml :=
  Elem "channel" [] (Some name) [Elem "channelClass" [] (Some cls) []].
Definition listed (l : list xml) : res (list (string * node)) :=
  snd (parse (fun _ => true) (fun _ => Err OSError) (fun _ => Err OSError) None pstate0 (Elem "root" [] (Some "") l)).
Example C100_ex_two :
  match listed [ch_elem "Phot" "Photometer"; ch_elem "Spec" "Spectrometer"; ch_elem "Vis" "photometer"] with
  | Ok d => get_channel_list d "PHOTOMETER" = Ok [PStr "Phot"; PStr "Vis"] /\ get_channel_list d "spectrometer" = Ok [PStr "Spec"] /\
            exists l, sget "channel" d = Some (NODict l) /\ forall name n, In (name, n) l -> exists s, class_text n = Some s
  | Err _ => False
  end.
Proof.
  vm_compute. split; auto. split; auto. eexists; split; [reflexivity|].
  intros name n [E|[E|[E|[]]]]; injection E as <- <-; eauto.
Qed.
Example C100_ex_one :
  match listed [ch_elem "Phot" "Photometer"] with
  | Ok d => get_channel_list d "photometer" = Err KeyError /\
            exists c e, sget "channel" d = Some (NDict c) /\ In ("channelClass", NDict e) c /\ sget "channelClass" e = None
  | Err _ => False
  end.
Proof. vm_compute. split; auto. do 2 eexists. split; [reflexivity|]. split; [left; reflexivity|reflexivity]. Qed.

(** ** C101: payloads written to a file are loaded *)
(** A channel that can be written and loaded: built, with storable description and processed
    data, a known class, and a name that is none of the two groups beside its table. *)
Definition loadable {V} (unit_ok : string -> bool) (c : M_Pipeline.channel V) (t : table V) (b : list (string * item V))
  (k : instrument_class) : Prop :=
  c_built c = Ok (t, b) /\ storable unit_ok (IDict (c_descr c)) /\ storable unit_ok (IDict b) /\
  c_name c <> "description" /\ c_name c <> "built_instr" /\
  exists e s, In ("channelClass", IDict e) (c_descr c) /\ In ("value", IStr s) e /\
    match k with Photometer => same_word s "photometer" | Spectrometer => same_word s "spectrometer" end.

(** what loading must give back for it *)
Definition given_back {V} (c : M_Pipeline.channel V) (t : table V) (b : list (string * item V)) (k : instrument_class)
  (i : instrument V) : Prop :=
  i_class i = k /\ Restores (c_descr c) (i_descr i) /\ i_table i = LTab (tb_array t) (tb_header t) /\
  Restores b (i_built i) /\ i_loaded i = true.

Section Load.
  Context {V : Type}.
  Variable unit_ok : string -> bool.
  Notation file := (list (string * h5 V)).

  (** the group of a channel *)
  Definition holds (c : M_Pipeline.channel V) (t : table V) (b : list (string * item V)) (x : string * h5 V) : Prop :=
    fst x = c_name c /\ exists g dg bg l l', snd x = G g /\
      sget "description" g = Some (G dg) /\ load unit_ok dg = Ok l /\ Restores (c_descr c) l /\
      sget "built_instr" g = Some (G bg) /\ load unit_ok bg = Ok l' /\ Restores b l' /\
      sget (c_name c) g = Some (D (DV (tb_array t))) /\
      sget (c_name c ++ meta_suffix)%string g = Some (D (DV (tb_header t))).

  Lemma fixed_names n : "description" <> (n ++ meta_suffix)%string /\ "description" <> (n ++ "_to_group")%string /\
    "built_instr" <> (n ++ meta_suffix)%string /\ "built_instr" <> (n ++ "_to_group")%string.
  Proof.
    repeat split; intros E.
    - pose proof (meta_self n) as X. rewrite <- E in X. vm_compute in X; discriminate.
    - apply (f_equal str_chars) in E. rewrite str_chars_app in E. apply (f_equal (@rev ascii)) in E.
      rewrite rev_app_distr in E. vm_compute in E. discriminate.
    - pose proof (meta_self n) as X. rewrite <- E in X. vm_compute in X; discriminate.
    - apply (f_equal str_chars) in E. rewrite str_chars_app in E. apply (f_equal (@rev ascii)) in E.
      rewrite rev_app_distr in E. vm_compute in E. discriminate.
  Qed.

  Lemma write_one (c : M_Pipeline.channel V) t b k g : loadable unit_ok c t b k -> sget (c_name c) g = None ->
    exists x, write_channel g c = (g ++ [x], Ok tt) /\ holds c t b x.
  Proof.
    intros (EB & SD & SB & N1 & N2 & _) N. unfold write_channel. rewrite EB. unfold in_group. rewrite N.
    destruct (roundtrip unit_ok _ SD) as (dg & l & ED & LD & RD).
    destruct (roundtrip unit_ok _ SB) as (bg & l' & EB' & LB & RB).
    destruct (names_distinct (c_name c)) as (D1 & D2 & D3).
    destruct (fixed_names (c_name c)) as (F1 & F2 & F3 & F4).
    unfold write_table, then_, create_dataset. cbn [dget app].
    rewrite (eqb_neq _ _ (not_eq_sym D1)).
    cbn [dget app]. rewrite (eqb_neq _ _ (not_eq_sym D2)), (eqb_neq _ _ (not_eq_sym D3)). cbn [dget app].
    unfold store_dictionary. cbn [dget app].
    rewrite (eqb_neq _ _ (not_eq_sym N1)), (eqb_neq _ _ F1), (eqb_neq _ _ F2), ED. cbn [dget app].
    rewrite (eqb_neq _ _ (not_eq_sym N2)), (eqb_neq _ _ F3), (eqb_neq _ _ F4).
    change (String.eqb "built_instr" "description") with false. cbn [dget app]. rewrite EB'.
    eexists. split; [reflexivity|]. split; [reflexivity|]. do 5 eexists. split; [reflexivity|].
    cbn [dget]. rewrite (eqb_neq _ _ (not_eq_sym N1)), (eqb_neq _ _ F1), (eqb_neq _ _ F2).
    rewrite String.eqb_refl. split; [reflexivity|]. split; [exact LD|]. split; [exact RD|].
    rewrite (eqb_neq _ _ (not_eq_sym N2)), (eqb_neq _ _ F3), (eqb_neq _ _ F4).
    change (String.eqb "built_instr" "description") with false. rewrite String.eqb_refl.
    split; [reflexivity|]. split; [exact LB|]. split; [exact RB|].
    rewrite String.eqb_refl. split; [reflexivity|].
    rewrite (eqb_neq _ _ (not_eq_sym D1)), String.eqb_refl. reflexivity.
  Qed.

  Definition spec := (M_Pipeline.channel V * table V * list (string * item V) * instrument_class)%type.
  Definition ok_spec (q : spec) : Prop := let '(c, t, b, k) := q in loadable unit_ok c t b k.
  Definition held (q : spec) (x : string * h5 V) : Prop := let '(c, t, b, k) := q in holds c t b x.
  Definition chan (q : spec) : M_Pipeline.channel V := let '(c, _, _, _) := q in c.

  Lemma write_all_channels (qs : list spec) : Forall ok_spec qs -> NoDup (map (fun q => c_name (chan q)) qs) ->
    forall g, (forall q, In q qs -> sget (c_name (chan q)) g = None) ->
    exists xs, write_channels g (map chan qs) = (g ++ xs, Ok tt) /\ Forall2 held qs xs.
  Proof.
    induction 1 as [|[[[c t] b] k] qs H F IH]; intros ND g NG.
    - exists []. cbn. rewrite app_nil_r. auto.
    - cbn in ND, H. inversion ND as [|? ? N1 N2]; subst.
      destruct (write_one c t b k g H) as (x & E & HX); [apply (NG (c, t, b, k)); left; auto|].
      cbn [map chan write_channels]. rewrite E. unfold then_.
      destruct (IH N2 (g ++ [x])) as (xs & EX & FX).
      { intros q I. rewrite sget_app, (NG q) by (right; auto). destruct x as [nx hx]. destruct HX as [HN _]. cbn in HN.
        cbn [dget]. rewrite HN. destruct (String.eqb (c_name (chan q)) (c_name c)) eqn:EQ; auto.
        apply String.eqb_eq in EQ. exfalso. apply N1. rewrite <- EQ. apply in_map_iff. exists q; auto. }
      rewrite EX. exists (x :: xs). rewrite <- app_assoc. split; [reflexivity|]. constructor; auto.
  Qed.

  Lemma load_one (q : spec) x dir : ok_spec q -> held q x -> sget (fst x) dir = Some (snd x) ->
    exists i, load_channel unit_ok dir (fst x) = Ok (fst x, i) /\
      (let '(c, t, b, k) := q in given_back c t b k i).
  Proof.
    destruct q as [[[c t] b] k], x as [n h]. intros (EB & SD & SB & N1 & N2 & e & s & IC & IS & W).
    intros (HN & g & dg & bg & l & l' & HG & GD & LD & RD & GB & LB & RB & GT & GH) G. cbn in HN, HG, G. cbn [fst].
    subst n h. unfold load_channel, subgroup. rewrite G. cbn [bind]. rewrite GD. cbn [bind]. rewrite LD. cbn [bind].
    assert (CL : class_of l = Ok k).
    { inversion RD as [? ? KS IT _]; subst. destruct (IT _ _ IC) as (lv & GL & RI).
      inversion RI as [| | | | | | | | | | | |? ? ? le RE|]; subst.
      inversion RE as [? ? KE IE _]; subst. destruct (IE _ _ IS) as (lv & GV & RV). inversion RV; subst.
      unfold class_of. rewrite GL, GV. destruct k; unfold same_word in W; rewrite W; reflexivity. }
    rewrite CL. cbn [bind]. unfold read_table. rewrite GT, GH. cbn [bind]. rewrite GB. cbn [bind]. rewrite LB. cbn [bind].
    eexists. split; [reflexivity|]. unfold given_back; cbn. auto.
  Qed.
End Load.

(** A list sorted by names is alphabetical. *)
Lemma leb_total a b : String.leb a b = true \/ String.leb b a = true.
Proof. destruct (String.leb_total a b); auto. Qed.
Lemma str_lt_trans : forall a b c, String.compare a b = Lt -> String.compare b c = Lt -> String.compare a c = Lt.
Proof.
  assert (AT : forall x y z, Ascii.compare x y = Lt -> Ascii.compare y z = Lt -> Ascii.compare x z = Lt).
  { intros x y z. unfold Ascii.compare. rewrite !N.compare_lt_iff. apply N.lt_trans. }
  assert (AE : forall x y, Ascii.compare x y = Eq -> x = y).
  { intros x y. unfold Ascii.compare. rewrite N.compare_eq_iff. intros E.
    rewrite <- (ascii_N_embedding x), E. apply ascii_N_embedding. }
  assert (AR : forall x, Ascii.compare x x = Eq).
  { intros x. unfold Ascii.compare. apply N.compare_refl. }
  induction a as [|x a IH]; intros [|y b] [|z c]; cbn; try discriminate; auto.
  destruct (Ascii.compare x y) eqn:E1; try discriminate; destruct (Ascii.compare y z) eqn:E2; try discriminate.
  - apply AE in E1, E2; subst. rewrite AR. apply IH.
  - apply AE in E1; subst. rewrite E2. auto.
  - apply AE in E2; subst. rewrite E1. auto.
  - rewrite (AT _ _ _ E1 E2). auto.
Qed.
Lemma leb_trans a b c : String.leb a b = true -> String.leb b c = true -> String.leb a c = true.
Proof.
  unfold String.leb. destruct (String.compare a b) eqn:E1; try discriminate; destruct (String.compare b c) eqn:E2; try discriminate; intros _ _.
  - apply String.compare_eq_iff in E1, E2; subst. destruct (String.compare c c) eqn:E; auto. pose proof (String.compare_antisym c c) as X. rewrite E in X. discriminate.
  - apply String.compare_eq_iff in E1; subst. rewrite E2; auto.
  - apply String.compare_eq_iff in E2; subst. rewrite E1; auto.
  - rewrite (str_lt_trans _ _ _ E1 E2); auto.
Qed.
Lemma insert_alphabetical {A} (x : string * A) l : alphabetical (map fst l) -> alphabetical (map fst (insert_sorted x l)).
Proof.
  unfold alphabetical. induction l as [|y l IH]; cbn; intros S; [repeat constructor|].
  inversion S as [|? ? S1 F]; subst. destruct (String.leb (fst x) (fst y)) eqn:E.
  - cbn. constructor; auto. constructor; auto. eapply Forall_impl; [|exact F]. cbn. intros a. apply leb_trans; auto.
  - cbn. constructor; auto. apply Forall_forall. intros k I. apply insert_sorted_keys in I as [->|I].
    + destruct (leb_total (fst x) (fst y)); congruence.
    + rewrite Forall_forall in F. auto.
Qed.
Lemma sort_alphabetical {A} (l : list (string * A)) : alphabetical (map fst (sort_names l)).
Proof. induction l as [|x l IH]; cbn; [constructor|]. apply insert_alphabetical; auto. Qed.
Lemma insert_perm {A} (x : string * A) l : Permutation (x :: l) (insert_sorted x l).
Proof.
  induction l as [|y l IH]; cbn; auto. destruct (String.leb (fst x) (fst y)); auto.
  eapply perm_trans; [apply perm_swap|]. auto.
Qed.
Lemma sort_perm {A} (l : list (string * A)) : Permutation l (sort_names l).
Proof. induction l as [|x l IH]; cbn; auto. eapply perm_trans; [|apply insert_perm]. auto. Qed.

(** Channels built and written to a file that has no payload yet: the task finds the payload
    again and one channel of the same name, class, description, table and processed data for
    each - in alphabetical order. *)
Theorem C101_written_channels_are_loaded :
  forall (V : Type) (unit_ok : string -> bool) (f : list (string * h5 V)) payload
         (qs : list (M_Pipeline.channel V * table V * list (string * item V) * instrument_class)),
    sget "payload" f = None -> storable unit_ok (IDict payload) ->
    (forall c t b k, In (c, t, b, k) qs -> loadable unit_ok c t b k) ->
    NoDup (map (fun q => let '(c, _, _, _) := q in c_name c) qs) ->
    exists f' p chs, build_channels f payload (map (fun q => let '(c, _, _, _) := q in c) qs) = (f', Ok tt) /\
      load_payload unit_ok f' = Ok (p, chs) /\ Restores payload p /\
      alphabetical (map fst chs) /\
      Permutation (map fst chs) (map (fun q => let '(c, _, _, _) := q in c_name c) qs) /\
      forall c t b k, In (c, t, b, k) qs -> exists i, sget (c_name c) chs = Some i /\ given_back c t b k i.
Proof.
  intros V unit_ok f payload qs NP SP OK ND.
  assert (FO : Forall (ok_spec unit_ok) qs).
  { apply Forall_forall. intros [[[c t] b] k] I. apply OK; auto. }
  assert (ND' : NoDup (map (fun q => c_name (chan q)) qs)).
  { erewrite map_ext; [exact ND|]. intros [[[c t] b] k]; reflexivity. }
  destruct (write_all_channels unit_ok qs FO ND' []) as (xs & EW & FH); [reflexivity|]. cbn in EW.
  destruct (roundtrip unit_ok _ SP) as (pg & p & EP & LP & RP).
  assert (KX : map fst xs = map (fun q => c_name (chan q)) qs).
  { clear - FH. induction FH as [|[[[c t] b] k] x qs xs H F IH]; cbn; auto. rewrite IH. f_equal. apply H. }
  assert (NX : NoDup (map fst xs)) by (rewrite KX; auto).
  set (f' := f ++ [("payload", G [("payload description", G pg); ("channels", G xs)])]).
  assert (EB : build_channels f payload (map (fun q : M_Pipeline.channel V * table V * list (string * item V) * instrument_class => let '(c, _, _, _) := q in c) qs) = (f', Ok tt)).
  { rewrite (map_ext _ (@chan V)) by (intros [[[? ?] ?] ?]; reflexivity).
    unfold build_channels, in_group. rewrite NP. unfold then_, store_dictionary. cbn [dget]. rewrite EP.
    change (sget "channels" ([] ++ [("payload description", G pg)])) with (@None (h5 V)).
    rewrite EW. reflexivity. }
  exists f', p.
  assert (LC : exists chs, mapM (fun kv => load_channel unit_ok xs (fst kv)) (sort_names xs) = Ok chs /\ map fst chs = map fst (sort_names xs) /\
      forall c t b k, In (c, t, b, k) qs -> exists i, In (c_name c, i) chs /\ given_back c t b k i).
  { assert (ONE : forall x, In x xs -> exists i, load_channel unit_ok xs (fst x) = Ok (fst x, i) /\
                    exists q, In q qs /\ fst x = c_name (chan q) /\ let '(c, t, b, k) := q in given_back c t b k i).
    { intros x I. assert (exists q, In q qs /\ held unit_ok q x) as (q & IQ & HQ).
      { clear - FH I. induction FH as [|q y qs xs H F IH]; [destruct I|]. destruct I as [->|I].
        - exists q; split; [left; auto|auto].
        - destruct (IH I) as (q' & J & K). exists q'; split; [right; auto|auto]. }
      destruct (load_one unit_ok q x xs) as (i & E & GB); auto.
      - rewrite Forall_forall in FO; auto.
      - apply in_get; auto. destruct x; auto.
      - exists i. split; auto. exists q. split; auto. split; auto. destruct q as [[[c t] b] k]. apply HQ. }
    assert (GEN : forall ys, incl ys xs -> exists chs, mapM (fun kv => load_channel unit_ok xs (fst kv)) ys = Ok chs /\
              Forall2 (fun y z => load_channel unit_ok xs (fst y) = Ok z /\ fst z = fst y) ys chs).
    { induction ys as [|y ys' IHy]; intros IN; [exists []; split; [reflexivity|constructor]|].
      destruct (ONE y) as (i & E & _); [apply IN; left; auto|].
      destruct IHy as (chs & EC & FC); [intros z J; apply IN; right; auto|].
      exists ((fst y, i) :: chs). cbn. rewrite E. cbn. rewrite EC. cbn. split; [auto|constructor; [split; [exact E|auto]|auto]]. }
    destruct (GEN (sort_names xs)) as (chs & EC & FC).
    { intros x J. apply (proj1 (sort_names_In x xs)) in J. exact J. }
    exists chs. split; auto. split.
    { clear - FC. induction FC as [|y z ys zs [_ H] F IH]; cbn; auto. rewrite IH, H; auto. }
    intros c t b k IQ.
    assert (exists x, In x xs /\ fst x = c_name c) as (x & IX & NX').
    { assert (In (c_name c) (map fst xs)) as J.
      { rewrite KX. apply in_map_iff. exists (c, t, b, k). auto. }
      apply in_map_iff in J as (x & E & J). eauto. }
    destruct (ONE x IX) as (i & E & q & JQ & EN & GB).
    assert (q = (c, t, b, k)) as ->.
    { assert (A : c_name (chan q) = c_name (chan (c, t, b, k))) by (rewrite <- EN; auto).
      clear - ND' JQ IQ A. induction qs as [|q0 qs IH]; [destruct JQ|]. cbn in ND'. inversion ND' as [|? ? N1 N2]; subst.
      destruct JQ as [->|JQ], IQ as [->|IQ]; auto.
      - exfalso. apply N1. rewrite A. apply in_map_iff. eexists; split; [|exact IQ]. reflexivity.
      - exfalso. apply N1. rewrite <- A. apply in_map_iff. eexists; split; [|exact JQ]. reflexivity. }
    exists i. split; auto. clear - FC IX E NX'. apply (proj2 (sort_names_In x xs)) in IX.
    induction FC as [|y z ys zs [H _] F IH]; [destruct IX|]. destruct IX as [->|IX].
    - rewrite E in H. injection H as <-. left. rewrite NX'. auto.
    - right; auto. }
  destruct LC as (chs & EC & KC & HC). exists chs. split; [exact EB|]. split; [|split; [exact RP|split; [|split]]].
  - unfold load_payload, subgroup at 1, f'. rewrite sget_app, NP. cbn [dget]. rewrite String.eqb_refl. cbn [bind].
    unfold subgroup at 1. cbn [dget]. rewrite String.eqb_refl. cbn [bind]. rewrite LP. cbn [bind].
    unfold subgroup at 1. cbn. rewrite EC. reflexivity.
  - rewrite KC. apply sort_alphabetical.
  - rewrite KC. eapply perm_trans; [apply Permutation_map, Permutation_sym, sort_perm|].
    rewrite KX. erewrite map_ext; [apply Permutation_refl|]. intros [[[c t] b] k]; reflexivity.
  - intros c t b k IQ. destruct (HC _ _ _ _ IQ) as (i & J & GB). exists i. split; auto.
    apply in_get; auto. rewrite KC. apply sort_names_NoDup; auto.
Qed.
Print Assumptions C101_written_channels_are_loaded.

(** The order of the payload is lost: a claim that loaded channels come in the order in which
    they were written is refuted. *)
Definition tiny (name cls : string) : M_Pipeline.channel nat :=
  {| c_name := name; c_descr := [("channelClass", IDict [("value", IStr cls)])];
     c_built := Ok ({| tb_array := 1; tb_header := 2; tb_cols := [] |},
                    [("qe_data", IDict [("wl_grid", IDict [("value", IArr 3); ("unit", IStr "um")]);
                                        ("data", IDict [("value", IArr 4); ("unit", IStr "")])]);
                     ("table", ITab {| tb_array := 7; tb_header := 8; tb_cols := [("QE", (5, Some "um"))] |})]) |}.
Definition known (u : string) : bool := String.eqb u "um" || String.eqb u "".
Definition tiny_payload : list (string * item nat) := [("common", IDict [("wl_min", IDict [("value", IQuant 1 "um"); ("unit", IStr "um")])])].
Definition tiny_specs :=
  [(tiny "Vis" "Photometer", {| tb_array := 1; tb_header := 2; tb_cols := [] |},
    match c_built (tiny "Vis" "") with Ok (_, b) => b | _ => [] end, Photometer);
   (tiny "AIRS" "spectrometer", {| tb_array := 1; tb_header := 2; tb_cols := [] |},
    match c_built (tiny "Vis" "") with Ok (_, b) => b | _ => [] end, Spectrometer)].
Lemma tiny_loadable : forall c t b k, In (c, t, b, k) tiny_specs -> loadable known c t b k.
Proof.
  assert (SB : storable known (IDict (match c_built (tiny "Vis" "") with Ok (_, b) => b | _ => [] end))).
  { cbn. split; [|split; [|split; [|split; [|split; [|exact I]]]]].
    - repeat constructor; cbn; intuition discriminate.
    - intros k i [E|[E|[]]]; injection E as <- <-; reflexivity.
    - intros a b [E|[E|[]]]; discriminate.
    - split; [repeat constructor; cbn; intuition discriminate|]. split; [|split; [|split; [|split; [|exact I]]]].
      + intros k i [E|[E|[]]]; injection E as <- <-; reflexivity.
      + intros a b [E|[E|[]]]; discriminate.
      + split; [repeat constructor; cbn; intuition discriminate|]. split; [|split; [|auto]].
        * intros k i [E|[E|[]]]; injection E as <- <-; reflexivity.
        * intros a b [E|[E|[]]] [E'|[E'|[]]]; try discriminate. injection E as <-. injection E' as <-.
          split; [reflexivity|]. exists "um". auto.
      + split; [repeat constructor; cbn; intuition discriminate|]. split; [|split; [|auto]].
        * intros k i [E|[E|[]]]; injection E as <- <-; reflexivity.
        * intros a b [E|[E|[]]] [E'|[E'|[]]]; try discriminate. injection E as <-. injection E' as <-.
          split; [reflexivity|]. exists "". auto.
    - split; [repeat constructor; cbn; intuition discriminate|]. split.
      + intros c v u [E|[]]; injection E as <- <- <-. split; reflexivity.
      + intros [[E|[]] _]; discriminate. }
  assert (SD : forall s, storable known (IDict [("channelClass", IDict [("value", @IStr nat s)])])).
  { intros s. cbn. split; [repeat constructor; cbn; intuition discriminate|]. split; [|split; [|split; [|exact I]]].
    - intros k i [E|[]]; injection E as <- <-; reflexivity.
    - intros a b [E|[]]; discriminate.
    - split; [repeat constructor; cbn; intuition discriminate|]. split; [|split; [|auto]].
      + intros k i [E|[]]; injection E as <- <-; reflexivity.
      + intros a b _ [E|[]]; discriminate. }
  intros c t b k [E|[E|[]]]; injection E as <- <- <- <-; (split; [reflexivity|]); (split; [apply SD|]); (split; [exact SB|]);
    (split; [discriminate|]); (split; [discriminate|]); do 2 eexists; (split; [left; reflexivity|]); (split; [left; reflexivity|]);
    reflexivity.
Qed.
Lemma tiny_payload_storable : storable known (IDict tiny_payload).
Proof.
  cbn. split; [repeat constructor; cbn; intuition discriminate|]. split; [|split; [|split; [|exact I]]].
  - intros k i [E|[]]; injection E as <- <-; reflexivity.
  - intros a b [E|[]]; discriminate.
  - split; [repeat constructor; cbn; intuition discriminate|]. split; [|split; [|split; [|exact I]]].
    + intros k i [E|[]]; injection E as <- <-; reflexivity.
    + intros a b [E|[]]; discriminate.
    + split; [repeat constructor; cbn; intuition discriminate|]. split; [|split; [|auto]].
      * intros k i [E|[E|[]]]; injection E as <- <-; reflexivity.
      * intros a b [E|[E|[]]] [E'|[E'|[]]]; try discriminate. injection E as <-. injection E' as <-.
        split; [reflexivity|]. exists "um". auto.
Qed.
Theorem C101_order_of_channels_is_kept_refuted :
  exists (f' : list (string * h5 nat)) p chs,
    (forall c t b k, In (c, t, b, k) tiny_specs -> loadable known c t b k) /\
    build_channels [] tiny_payload (map (fun q => let '(c, _, _, _) := q in c) tiny_specs) = (f', Ok tt) /\
    load_payload known f' = Ok (p, chs) /\
    map (fun q => let '(c, _, _, _) := q in c_name c) tiny_specs = ["Vis"; "AIRS"] /\ map fst chs = ["AIRS"; "Vis"].
Proof.
  do 3 eexists. split; [exact tiny_loadable|]. split; [vm_compute; reflexivity|]. split; [vm_compute; reflexivity|].
  split; reflexivity.
Qed.
Print Assumptions C101_order_of_channels_is_kept_refuted.

(** A file written by something else: an unknown class is a KeyError (not the ValueError of
    building), a channel without table an OSError. *)
Theorem C101_unknown_class :
  forall (V : Type) unit_ok (dir cd dg : list (string * h5 V)) ch d e s,
    sget ch dir = Some (G cd) -> sget "description" cd = Some (G dg) -> load unit_ok dg = Ok d ->
    sget "channelClass" d = Some (LDict e) -> sget "value" e = Some (LBytes s) ->
    ~ same_word s "photometer" -> ~ same_word s "spectrometer" ->
    load_channel unit_ok dir ch = Err KeyError.
Proof.
  intros V unit_ok dir cd dg ch d e s E1 E2 E3 E4 E5 N1 N2. unfold load_channel, subgroup. rewrite E1. cbn [bind].
  rewrite E2. cbn [bind]. rewrite E3. cbn [bind]. unfold class_of. rewrite E4, E5. unfold instruments.
  assert (Q1 : String.eqb (py_lower s) "photometer" = false) by (apply eqb_neq; exact N1).
  assert (Q2 : String.eqb (py_lower s) "spectrometer" = false) by (apply eqb_neq; exact N2).
  rewrite Q1, Q2. reflexivity.
Qed.
Print Assumptions C101_unknown_class.

(** A file without payload, or with a payload that lacks one of its parts, is a KeyError; a
    channel without its table is an OSError. *)
Theorem C101_missing_parts :
  forall (V : Type) unit_ok (f : list (string * h5 V)),
    (sget "payload" f = None -> load_payload unit_ok f = Err KeyError) /\
    forall d, sget "payload" f = Some (G d) ->
      (sget "payload description" d = None -> load_payload unit_ok f = Err KeyError) /\
      forall g p, sget "payload description" d = Some (G g) -> load unit_ok g = Ok p ->
        (sget "channels" d = None -> load_payload unit_ok f = Err KeyError) /\
        forall dir ch cd dg e k, sget "channels" d = Some (G dir) -> map fst dir = [ch] -> sget ch dir = Some (G cd) ->
          sget "description" cd = Some (G dg) -> load unit_ok dg = Ok e -> class_of e = Ok k ->
          (sget ch cd = None -> load_payload unit_ok f = Err OSError) /\
          forall v, sget ch cd = Some (D (DV v)) -> sget "built_instr" cd = None -> load_payload unit_ok f = Err KeyError.
Proof.
  intros V unit_ok f. unfold load_payload, subgroup. split; [intros ->; reflexivity|]. intros d ->. cbn [bind].
  split; [intros ->; reflexivity|]. intros g p EG EL. rewrite EG. cbn [bind]. rewrite EL. cbn [bind]. split; [intros ->; reflexivity|].
  intros dir ch cd dg e k -> KD EC ED LD CL. cbn [bind].
  destruct dir as [|[n x] [|? ?]]; try discriminate. injection KD as ->. change (sort_names [(ch, x)]) with [(ch, x)]. cbn [mapM fst].
  unfold load_channel, subgroup. rewrite EC. cbn [bind]. rewrite ED. cbn [bind]. rewrite LD. cbn [bind]. rewrite CL. cbn [bind].
  unfold read_table. split.
  - intros ->. reflexivity.
  - intros v -> NB. rewrite NB. destruct (sget (ch ++ meta_suffix)%string cd) as [[[]|]|]; reflexivity.
Qed.
Print Assumptions C101_missing_parts.

(** ** C102: what loaded channels are good for *)
Lemma rest_signal {V} (unit_ok : string -> bool) dims (b : list (string * item V)) l name wl data u w :
  Restores b l -> has_signal dims unit_ok b name wl data u w -> dims "um" = length_dims ->
  forall check, stored_signal unit_ok dims check l name = Err UnitConversionError.
Proof.
  intros RB (s & g & d & IS & IG & IV & IU & ID & IDV & IDU & DU & UO) UM check.
  inversion RB as [? ? _ HB _]; subst.
  destruct (HB _ _ IS) as (ls & GS & RS). inversion RS as [| | | | | | | | | | | |? ? ? ss XS|]; subst.
  inversion XS as [? ? _ HS _]; subst.
  destruct (HS _ _ IG) as (lg & GG & RG). inversion RG as [| | | | | | | | | | | |? ? ? gg XG|]; subst.
  destruct (HS _ _ ID) as (ld & GD & RD). inversion RD as [| | | | | | | | | | | |? ? ? dd XD|]; subst.
  inversion XG as [? ? _ HG _]; subst. inversion XD as [? ? _ HD _]; subst.
  destruct (HG _ _ IU) as (lu & GU & RU). inversion RU; subst.
  destruct (HG _ _ IV) as (lv & GV & RV).
  assert (lv = LQuant wl u) as ->.
  { inversion RV as [|? ? ? O| | |? ? u' IU'| | | | | | | | | ]; subst.
    - exfalso. destruct O as [O|O]; auto. apply O. apply in_map_iff. exists ("unit", IStr u); auto.
    - destruct (HG _ _ IU') as (lu' & GU' & RU'). inversion RU'; subst. congruence. }
  destruct (HD _ _ IDV) as (lx & GX & _).
  unfold stored_signal. cbn [index_lval bind]. rewrite GS. cbn [bind index_lval]. rewrite GG. cbn [bind].
  unfold times_own_unit. cbn [index_lval]. rewrite GV. cbn [bind]. rewrite GU. cbn [bind]. rewrite UO. cbn [bind].
  rewrite GD. cbn [bind index_lval]. rewrite GX. cbn [bind]. unfold as_microns, quant_dims. cbn [n_units fold_right].
  rewrite DU, UM. cbn [length_dims add_dims]. destruct (list_eq_dec _ _ _) as [E|E]; [discriminate|reflexivity].
Qed.

(** Channels written and loaded again, whose processed data hold the quantum efficiency as a
    signal over wavelengths (as those of every built channel do): they refuse to be built, and
    neither the star nor the foregrounds can be propagated through them. *)
Theorem C102_loaded_channels_cannot_observe :
  forall (V : Type) (unit_ok : string -> bool) dims (f : list (string * h5 V)) payload
         (qs : list (M_Pipeline.channel V * table V * list (string * item V) * instrument_class)),
    sget "payload" f = None -> storable unit_ok (IDict payload) ->
    (forall c t b k, In (c, t, b, k) qs -> loadable unit_ok c t b k /\
       exists wl data u w, has_signal dims unit_ok b "qe_data" wl data u w) ->
    NoDup (map (fun q => let '(c, _, _, _) := q in c_name c) qs) -> dims "um" = length_dims ->
    exists f' p chs, build_channels f payload (map (fun q => let '(c, _, _, _) := q in c) qs) = (f', Ok tt) /\
      load_payload unit_ok f' = Ok (p, chs) /\
      forall c t b k, In (c, t, b, k) qs -> exists i, sget (c_name c) chs = Some i /\
        forall (X : Type) builder check rebin rest optics rest',
          @M_Payload.build V X i builder = Err ValueError /\
          propagate_target unit_ok dims (X := X) check i rebin rest = Err UnitConversionError /\
          exists e, propagate_foreground unit_ok dims (X := X) check i optics rest' = Err e.
Proof.
  intros V unit_ok dims f payload qs NP SP OK ND UM.
  destruct (C101_written_channels_are_loaded V unit_ok f payload qs NP SP) as (f' & p & chs & EB & EL & _ & _ & _ & H); auto.
  { intros c t b k J. apply OK; auto. }
  exists f', p, chs. split; auto. split; auto. intros c t b k J. destruct (H _ _ _ _ J) as (i & GI & CL & RD & TB & RB & LD).
  exists i. split; auto. destruct (OK _ _ _ _ J) as (_ & wl & data & u & w & HS).
  intros X builder check rebin rest optics rest'. pose proof (rest_signal unit_ok dims b (i_built i) "qe_data" wl data u w RB HS UM check) as E.
  split; [unfold build; rewrite LD; reflexivity|]. split.
  - unfold propagate_target. rewrite E. reflexivity.
  - unfold propagate_foreground. destruct optics as [[]|e]; cbn; [|eauto]. rewrite E. cbn. eauto.
Qed.
Print Assumptions C102_loaded_channels_cannot_observe.

(** The same data in memory, before they are stored, do give the signal: the wavelengths in
    their unit of length. *)
Theorem C102_in_memory_they_can :
  forall (V : Type) (unit_ok : string -> bool) dims (b : list (string * item V)) name wl data u w check,
    storable unit_ok (IDict b) -> has_signal dims unit_ok b name wl data u w -> dims "um" = length_dims ->
    check wl (LV data) = Ok tt ->
    stored_signal unit_ok dims check (map (fun kv => (fst kv, in_memory (snd kv))) b) name = Ok (wl, LV data).
Proof.
  intros V unit_ok dims b name wl data u w check SB (s & g & d & IS & IG & IV & IU & ID & IDV & IDU & DU & UO) UM CK.
  assert (GET : forall (e : list (string * item V)) k i, storable unit_ok (IDict e) -> In (k, i) e ->
            sget k (map (fun kv => (fst kv, in_memory (snd kv))) e) = Some (in_memory i) /\ storable unit_ok i).
  { intros e k i SE IE. apply storable_good in SE as (NE & _ & _ & FE).
    assert (NK : NoDup (map fst e)).
    { clear - NE. induction e as [|[k i] e IH]; cbn in *; [constructor|]. pose proof (NoDup_app_remove_l _ _ NE) as N'.
      constructor; auto. intros J. apply names_incl in J. revert NE. unfold names_of at 1; cbn.
      destruct i; cbn; intros NE; inversion NE; subst; auto. apply H1. cbn. auto. }
    split.
    - apply NoDup_In_dget; [apply String_eqb_spec| |].
      + rewrite map_map. cbn. auto.
      + apply in_map_iff. exists (k, i). auto.
    - rewrite Forall_forall in FE. apply (FE _ IE). }
  destruct (GET _ _ _ SB IS) as (G1 & S1). destruct (GET _ _ _ S1 IG) as (G2 & S2). destruct (GET _ _ _ S1 ID) as (G3 & S3).
  destruct (GET _ _ _ S2 IV) as (G4 & _). destruct (GET _ _ _ S2 IU) as (G5 & _). destruct (GET _ _ _ S3 IDV) as (G6 & _).
  unfold stored_signal. cbn [index_lval]. rewrite G1. cbn [bind in_memory index_lval]. rewrite G2. cbn [bind in_memory].
  unfold times_own_unit. cbn [index_lval]. rewrite G4. cbn [bind in_memory]. rewrite G5. cbn [bind in_memory]. rewrite UO.
  cbn [bind]. rewrite G3. cbn [bind in_memory index_lval]. rewrite G6. cbn [bind in_memory].
  unfold as_microns, quant_dims. cbn [n_units fold_right]. rewrite DU, UM. cbn [length_dims add_dims].
  destruct (list_eq_dec _ _ _) as [E|E]; [|exfalso; apply E; reflexivity]. cbn [bind n_value]. rewrite CK. reflexivity.
Qed.
Print Assumptions C102_in_memory_they_can.

Definition tiny_dims (u : string) : list Z := if String.eqb u "um" then length_dims else [0; 0; 0; 0; 0; 0; 0]%Z.
Example C102_ex : forall c t b k, In (c, t, b, k) tiny_specs -> loadable known c t b k /\
  exists wl data u w, has_signal tiny_dims known b "qe_data" wl data u w.
Proof.
  intros c t b k J. split; [apply tiny_loadable; auto|].
  destruct J as [E|[E|[]]]; injection E as <- <- <- <-; exists 3, 4, "um", ""; do 3 eexists;
    repeat (split; [cbn; auto|]); try reflexivity; cbn; auto 10.
Qed.

(** ** C103: what may be passed as payload *)
Lemma until_app stop l r : ~ In stop l -> until stop (l ++ stop :: r) = l.
Proof.
  induction l as [|c l IH]; cbn; intros N; [rewrite Ascii.eqb_refl; auto|].
  destruct (Ascii.eqb c stop) eqn:E; [apply Ascii.eqb_eq in E; subst; tauto|]. rewrite IH; auto.
Qed.
Lemma until_all stop l : ~ In stop l -> until stop l = l.
Proof.
  induction l as [|c l IH]; cbn; intros N; auto.
  destruct (Ascii.eqb c stop) eqn:E; [apply Ascii.eqb_eq in E; subst; tauto|]. rewrite IH; auto.
Qed.
Lemma after_app stop l r : ~ In stop l -> after stop (l ++ stop :: r) = Some r.
Proof.
  induction l as [|c l IH]; cbn; intros N; [rewrite Ascii.eqb_refl; auto|].
  destruct (Ascii.eqb c stop) eqn:E; [apply Ascii.eqb_eq in E; subst; tauto|]. apply IH; auto.
Qed.
Lemma until_prefix stop l : exists r, l = until stop l ++ r.
Proof.
  induction l as [|c l (r & IH)]; cbn; [exists []; auto|].
  destruct (Ascii.eqb c stop); [exists (c :: l); auto|]. exists r. cbn. f_equal; auto.
Qed.
Lemma after_until stop l r : after stop l = Some r -> l = until stop l ++ stop :: r.
Proof.
  induction l as [|c l IH]; cbn; [discriminate|]. destruct (Ascii.eqb c stop) eqn:E.
  - intros [= ->]. apply Ascii.eqb_eq in E; subst; auto.
  - intros H. cbn. f_equal; auto.
Qed.
Lemma splitext_named stem e : named_file stem -> ~ In "."%char (str_chars e) -> ~ In "/"%char (str_chars e) ->
  splitext (stem ++ "." ++ e) = ("." ++ e)%string.
Proof.
  intros (dir & base & -> & DIR & NB & c & IC & NC) ND NS. unfold splitext.
  rewrite !str_chars_app. change (str_chars ".") with ["."%char].
  rewrite !rev_app_distr. cbn [rev app].
  assert (NE : ~ In "/"%char (rev (str_chars e))) by (rewrite <- in_rev; auto).
  assert (NE' : ~ In "."%char (rev (str_chars e))) by (rewrite <- in_rev; auto).
  assert (NB' : ~ In "/"%char (rev (str_chars base))) by (rewrite <- in_rev; auto).
  assert (CO : until "/"%char ((rev (str_chars e) ++ ["."%char]) ++ rev (str_chars base) ++ rev (str_chars dir)) =
               rev (str_chars e) ++ "."%char :: rev (str_chars base)).
  { rewrite <- app_assoc. cbn [app].
    assert (NA : ~ In "/"%char (rev (str_chars e) ++ "."%char :: rev (str_chars base))).
    { rewrite in_app_iff. cbn. intros [X|[X|X]]; [auto|discriminate|auto]. }
    destruct DIR as [->|(d & ->)].
    - cbn [str_chars rev]. change (rev (str_chars "")) with (@nil ascii). rewrite app_nil_r. apply until_all; auto.
    - rewrite str_chars_app. change (str_chars "/") with ["/"%char]. rewrite rev_app_distr. cbn [rev app].
      change (rev (str_chars e) ++ "."%char :: rev (str_chars base) ++ "/"%char :: rev (str_chars d)) with
        (rev (str_chars e) ++ ("."%char :: rev (str_chars base)) ++ "/"%char :: rev (str_chars d)).
      rewrite app_assoc. apply until_app; auto. }
  rewrite CO, after_app, until_app by auto.
  destruct (forallb _ _) eqn:FA.
  - exfalso. rewrite forallb_forall in FA. apply NC. apply Ascii.eqb_eq. apply FA. rewrite <- in_rev. exact IC.
  - rewrite rev_involutive. unfold str_of, str_chars. cbn [string_of_list_ascii].
    rewrite string_of_list_ascii_of_string. reflexivity.
Qed.
Lemma splitext_ends s e : splitext s = e -> e <> ""%string -> exists stem, s = (stem ++ e)%string.
Proof.
  unfold splitext. set (comp := until "/"%char (rev (str_chars s))).
  destruct (after "."%char comp) as [st|] eqn:A; [|intros <- N; exfalso; auto].
  destruct (forallb _ _); [intros <- N; exfalso; auto|]. intros <- _.
  apply after_until in A. destruct (until_prefix "/"%char (rev (str_chars s))) as (r & E). fold comp in E.
  exists (str_of (rev r ++ rev st)). apply str_chars_inj. rewrite str_chars_app.
  unfold str_of, str_chars at 2 3. rewrite !list_ascii_of_string_of_list_ascii.
  rewrite <- (rev_involutive (str_chars s)), E. rewrite A at 1. rewrite !rev_app_distr. cbn [rev]. rewrite <- !app_assoc.
  reflexivity.
Qed.

Section Prepare.
  Context {W P C R : Type}.
  Variable load_options : string -> W -> W * res P.
  Variable build_into : string -> bool -> P -> W -> W * res C.
  Variable build_only : P -> W -> W * res C.
  Variable load_file : string -> W -> W * res (P * C).
  Variable is_file : string -> W -> bool.
  Variable range_of : P -> res R.
  Notation prepare := (prepare_payload load_options build_into build_only load_file is_file range_of).

  (** A path that does not end in .xml, .h5 or .hdf5 (exactly: capitals count) is refused
      before anything is read, built or written; so is anything but a path or a dictionary. *)
  Theorem C103_other_files_are_refused : forall s output w,
    (forall stem, s <> (stem ++ ".xml")%string /\ s <> (stem ++ ".h5")%string /\ s <> (stem ++ ".hdf5")%string) ->
    prepare (Path s) output w = (w, Err OSError).
  Proof.
    intros s output w H. unfold prepare_payload.
    assert (X : forall e, e <> ""%string -> (forall stem, s <> (stem ++ e)%string) -> String.eqb (splitext s) e = false).
    { intros e N NE. apply eqb_neq. intros E. destruct (splitext_ends s e E N) as [st ES]. exact (NE st ES). }
    rewrite (X ".xml"), (X ".h5"), (X ".hdf5"); try discriminate; try (intros st; apply H). reflexivity.
  Qed.
  Theorem C103_other_objects_are_refused : forall output w, prepare Other output w = (w, Err OSError).
  Proof. reflexivity. Qed.

  (** An .xml file is parsed, then treated as the dictionary it contains. *)
  Theorem C103_xml_files : forall stem output w, named_file stem ->
    prepare (Path (stem ++ ".xml")) output w =
      match load_options (stem ++ ".xml") w with
      | (w1, Ok p) => prepare (Mapping p) output w1
      | (w1, Err e) => (w1, Err e)
      end.
  Proof.
    intros stem output w N. unfold prepare_payload.
    assert (SX : splitext (stem ++ ".xml") = ".xml"%string)
      by (exact (splitext_named stem "xml" N ltac:(cbn; intuition discriminate) ltac:(cbn; intuition discriminate))).
    rewrite SX. cbn. destruct (load_options _ w) as [w1 [p|e]]; reflexivity.
  Qed.
  (** An .h5 or .hdf5 file is loaded: nothing is built, and the output file is not used. *)
  Theorem C103_hdf5_files : forall stem ext output w, named_file stem -> ext = ".h5"%string \/ ext = ".hdf5"%string ->
    prepare (Path (stem ++ ext)) output w =
      match load_file (stem ++ ext) w with
      | (w1, Ok (p, c)) => match range_of p with Ok r => (w1, Ok (p, c, r)) | Err e => (w1, Err e) end
      | (w1, Err e) => (w1, Err e)
      end.
  Proof.
    intros stem ext output w N [->| ->]; unfold prepare_payload.
    - assert (SX : splitext (stem ++ ".h5") = ".h5"%string)
        by (exact (splitext_named stem "h5" N ltac:(cbn; intuition discriminate) ltac:(cbn; intuition discriminate))).
      rewrite SX. cbn.
      destruct (load_file _ w) as [w1 [[p c]|e]]; reflexivity.
    - assert (SX : splitext (stem ++ ".hdf5") = ".hdf5"%string)
        by (exact (splitext_named stem "hdf5" N ltac:(cbn; intuition discriminate) ltac:(cbn; intuition discriminate))).
      rewrite SX. cbn.
      destruct (load_file _ w) as [w1 [[p c]|e]]; reflexivity.
  Qed.
  (** A dictionary is built: without output file in memory, with one into that file, which is
      kept if it exists.  The channels returned are those built. *)
  Theorem C103_dictionaries : forall p output w w1 c r,
    (match output with Some o => build_into o (is_file o w) p w | None => build_only p w end) = (w1, Ok c) ->
    range_of p = Ok r -> prepare (Mapping p) output w = (w1, Ok (p, c, r)).
  Proof.
    intros p output w w1 c r E RG. unfold prepare_payload. cbn. rewrite E. cbn. rewrite RG. reflexivity.
  Qed.
  (** A payload whose wavelength range is missing fails only after its channels have been built
      and written. *)
  Theorem C103_range_is_read_last : forall p output w w1 c e,
    (match output with Some o => build_into o (is_file o w) p w | None => build_only p w end) = (w1, Ok c) ->
    range_of p = Err e -> prepare (Mapping p) output w = (w1, Err e).
  Proof.
    intros p output w w1 c e E RG. unfold prepare_payload. cbn. rewrite E. cbn. rewrite RG. reflexivity.
  Qed.
End Prepare.
Print Assumptions C103_other_files_are_refused.
Print Assumptions C103_other_objects_are_refused.
Print Assumptions C103_xml_files.
Print Assumptions C103_hdf5_files.
Print Assumptions C103_dictionaries.
Print Assumptions C103_range_is_read_last.

Example C103_ex_names : named_file "data/my.payload" /\
  forall stem, "payload.XML" <> (stem ++ ".xml")%string /\ "payload.XML" <> (stem ++ ".h5")%string /\ "payload.XML" <> (stem ++ ".hdf5")%string.
Proof.
  split.
  - exists "data/", "my.payload". split; [reflexivity|]. split; [right; exists "data"; reflexivity|]. split.
    + cbn. intuition discriminate.
    + exists "m"%char. split; [cbn; auto|discriminate].
  - intros stem. repeat split; intros E; apply (f_equal str_chars) in E; rewrite str_chars_app in E;
      apply (f_equal (@rev ascii)) in E; rewrite rev_app_distr in E; vm_compute in E; discriminate.
Qed.
