(** Property theorems about files named in an options document (C122): datafile (a table),
    datadict (a pickled dictionary) and config_dict (a pickled dictionary standing for the
    whole section).  [parse unit_ok read_table read_pickle ov st x] is as in P_Options;
    [read_table] and [read_pickle] are what reading a file gives. *)
From Verif Require Import Base PyStr M_Options S_Options L_Options S_Files L_Files.

(** Whatever is loaded represents the document, with the contents of the files in their
    place at every level ([RepF]). *)
Theorem C122_documents_with_files :
  forall unit_ok read_table read_pickle ov st x st' d,
    parse unit_ok read_table read_pickle ov st x = (st', Ok d) ->
    RepF unit_ok read_table read_pickle ov st x st' d.
Proof. intros; apply parse_RepF; auto. Qed.
Print Assumptions C122_documents_with_files.

(** Under a path in force throughout, a document with readable elements whose files can be
    read loads. *)
Theorem C122_readable_documents_load :
  forall unit_ok read_table read_pickle ov p st x,
    st_cfg st = Some (PStr p) -> steady ov p x ->
    readable unit_ok read_table read_pickle p x ->
    exists st' d, parse unit_ok read_table read_pickle ov st x = (st', Ok d) /\
                  st_cfg st' = Some (PStr p).
Proof.
  intros uo rt rp ov p st x C S R.
  destruct (parse_readable uo rt rp ov p x st C S R) as (st' & d & P & C' & _). eauto.
Qed.
Print Assumptions C122_readable_documents_load.

(** A table that cannot be read anywhere in the document: nothing is loaded. *)
Theorem C122_unreadable_table_fails :
  forall unit_ok read_table read_pickle ov st x y c s e,
    within x y -> In c (x_children y) -> x_tag c = "datafile" ->
    unit_free c -> x_children c = [] -> text_of c = Some s -> s <> "" -> plain s ->
    read_table s = Err e ->
    forall d, snd (parse unit_ok read_table read_pickle ov st x) <> Ok d.
Proof.
  intros uo rt rp ov st x y c s e W I TG U NC T NB PL RT d.
  destruct (parse uo rt rp ov st x) as [st' r] eqn:P; cbn. intros ->.
  apply parse_RepF in P. destruct (RepF_within _ _ _ _ _ _ W _ _ _ P) as (s1 & s2 & e' & R).
  inversion R as [? t a tx chs ? ents d0 ? RS G KS A]; subst. cbn in I.
  destruct (attached_names _ _ _ _ _ A) as (AF & _ & _).
  destruct AF as (f & g & i & NM & LO & _ & RD).
  { rewrite <- TG. eapply (present_entry uo rt rp); eauto. }
  rewrite <- TG in NM. assert (f = s) by (eapply named_plain; eauto). subst f.
  destruct PL as (_ & _ & _ & NP). destruct LO as [[_ ->]|(p & E & _)]; congruence.
Qed.
Print Assumptions C122_unreadable_table_fails.

(** So does a table declared to be of another type than ecsv. *)
Theorem C122_other_table_types_fail :
  forall unit_ok read_table read_pickle ov st x y c k s,
    within x y -> In c (x_children y) -> x_tag c = "datafile" ->
    filter (fun ch => String.eqb (x_tag ch) "datatype") (x_children y) = [k] ->
    unit_free k -> x_children k = [] -> text_of k = Some s -> s <> "" -> plain s -> s <> "ecsv" ->
    forall d, snd (parse unit_ok read_table read_pickle ov st x) <> Ok d.
Proof.
  intros uo rt rp ov st x y c k s W I TG FK [U1 _] NC T NB PL NE d.
  destruct (parse uo rt rp ov st x) as [st' r] eqn:P; cbn. intros ->.
  apply parse_RepF in P. destruct (RepF_within _ _ _ _ _ _ W _ _ _ P) as (s1 & s2 & e' & R).
  inversion R as [? t a tx chs ? ents d0 ? RS G KS A]; subst. cbn in I, FK.
  destruct (attached_names _ _ _ _ _ A) as (AF & _ & _).
  destruct AF as (f & g & i & NM & LO & EC & RD).
  { rewrite <- TG. eapply (present_entry uo rt rp); eauto. }
  (* the entry of datatype *)
  assert (F : Forall2 (fun c ke => exists s1 sub s2 s3, RepF uo rt rp ov s1 c s2 sub /\
                RepElem uo ov s2 c sub s3 (fst ke) (snd ke)) chs ents).
  { clear -RS. induction RS; constructor; eauto 7. }
  apply (occurrences_combine "datatype") in F. rewrite FK in F.
  inversion F as [|? [key e] ? l' (q1 & sub & q2 & q3 & RR & RE) F' E1 E2]; subst.
  inversion F'; subst. cbn in RE.
  destruct RE as (s' & T' & _ & NB'). rewrite T in T'; injection T' as <-.
  destruct (NB' NB) as ((un & UN & D) & _ & _ & GE).
  assert (key = PStr s) as ->.
  { destruct un as [u|].
    - exfalso. assert (NU : sget "unit" sub = None).
      { eapply RepF_no_unit; eauto; rewrite NC; cbn; tauto. }
      rewrite (sget_rev_None _ _ U1), NU in UN. destruct UN as [?|[? ?]]; discriminate.
    - apply (denotes_plain _ _ _ _ PL D). }
  assert (EN : sget "datatype" d0 = Some (NDict e)) by (rewrite G; unfold grouped; rewrite <- E2; auto).
  specialize (EC (NDict e) (NVal (PStr s)) EN). cbn in EC. rewrite GE in EC. cbn in EC.
  specialize (EC eq_refl). congruence.
Qed.
Print Assumptions C122_other_table_types_fail.

(** A dictionary is read from a pickle file only; any other file (.h5 included) and any
    unreadable pickle file make the load fail. *)
Theorem C122_other_dictionaries_fail :
  forall unit_ok read_table read_pickle ov st x y c s,
    within x y -> In c (x_children y) -> (x_tag c = "datadict" \/ x_tag c = "config_dict") ->
    unit_free c -> x_children c = [] -> text_of c = Some s -> s <> "" -> plain s ->
    (splitext s <> ".pickle" \/ exists e, read_pickle s = Err e) ->
    forall d, snd (parse unit_ok read_table read_pickle ov st x) <> Ok d.
Proof.
  intros uo rt rp ov st x y c s W I TG U NC T NB PL BAD d.
  destruct (parse uo rt rp ov st x) as [st' r] eqn:P; cbn. intros ->.
  apply parse_RepF in P. destruct (RepF_within _ _ _ _ _ _ W _ _ _ P) as (s1 & s2 & e' & R).
  inversion R as [? t a tx chs ? ents d0 ? RS G KS A]; subst. cbn in I.
  destruct (attached_names _ _ _ _ _ A) as (_ & AD & AC).
  assert (exists f g q, names_file d0 (x_tag c) f /\ unpickled rp (st_cfg s2) f g q) as (f & g & q & NM & p & _ & -> & SX & RD).
  { pose proof (present_entry uo rt rp chs d0 c KS I) as PE. destruct TG as [TG|TG]; rewrite TG in *.
    - apply AD; auto.
    - destruct (AC PE) as (f & g & q & ? & ? & _). eauto 6. }
  assert (f = s) by (eapply named_plain; eauto). subst f.
  destruct PL as (_ & _ & _ & NP). rewrite py_replace_none in SX, RD by auto.
  destruct BAD as [BAD|[e BAD]]; congruence.
Qed.
Print Assumptions C122_other_dictionaries_fail.

(** Two datafile (datadict, config_dict) elements in one section: nothing is loaded. *)
Theorem C122_two_files_fail :
  forall unit_ok read_table read_pickle ov st x y tag,
    within x y -> In tag ["datafile"; "datadict"; "config_dict"] ->
    2 <= length (filter (fun c => String.eqb (x_tag c) tag) (x_children y)) ->
    forall d, snd (parse unit_ok read_table read_pickle ov st x) <> Ok d.
Proof.
  intros uo rt rp ov st x y tag W I L d.
  destruct (parse uo rt rp ov st x) as [st' r] eqn:P; cbn. intros ->.
  apply parse_RepF in P. destruct (RepF_within _ _ _ _ _ _ W _ _ _ P) as (s1 & s2 & e' & R).
  inversion R as [? t a tx chs ? ents d0 ? RS G KS A]; subst. cbn in L.
  destruct (attached_names _ _ _ _ _ A) as (AF & AD & AC).
  assert (PE : sget tag d0 <> None).
  { destruct (filter (fun c => String.eqb (x_tag c) tag) chs) as [|c l] eqn:FI; [cbn in L; lia|].
    assert (IC : In c (filter (fun c => String.eqb (x_tag c) tag) chs)) by (rewrite FI; cbn; auto).
    apply filter_In in IC as [IC E]. apply String.eqb_eq in E. rewrite <- E.
    eapply (present_entry uo rt rp); eauto. }
  assert (exists f, names_file d0 tag f) as [f NM].
  { destruct I as [<-|[<-|[<-|[]]]].
    - destruct (AF PE) as (f & g & i & ? & _); eauto.
    - destruct (AD PE) as (f & g & i & ? & _); eauto.
    - destruct (AC PE) as (f & g & i & ? & _); eauto. }
  destruct (named_elem _ _ _ _ _ _ _ _ _ _ _ RS G NM) as (c & FI & _). rewrite FI in L. cbn in L. lia.
Qed.
Print Assumptions C122_two_files_fail.

(** Without any configuration path a document with a datadict or config_dict never loads,
    even if the file name has no placeholder. *)
Theorem C122_dictionaries_need_a_path :
  forall unit_ok read_table read_pickle ov st x y c,
    no_override ov -> st_cfg st = None -> lacks "ConfigPath" x ->
    within x y -> In c (x_children y) -> (x_tag c = "datadict" \/ x_tag c = "config_dict") ->
    forall d, snd (parse unit_ok read_table read_pickle ov st x) <> Ok d.
Proof.
  intros uo rt rp ov st x y c NO C LK W I TG d.
  destruct (parse uo rt rp ov st x) as [st' r] eqn:P; cbn. intros ->.
  apply parse_RepF in P.
  destruct (RepF_within_nopath _ _ _ _ _ _ NO W LK _ _ _ P) as (s1 & s2 & e' & R & E).
  assert (E2 : st_cfg s2 = None).
  { rewrite <- C, <- E. eapply RepF_nopath; eauto. intros z q W' J. apply (LK z q); auto.
    eapply within_trans; eauto. }
  inversion R as [? t a tx chs ? ents d0 ? RS G KS A]; subst. cbn in I.
  destruct (attached_names _ _ _ _ _ A) as (_ & AD & AC).
  pose proof (present_entry uo rt rp chs d0 c KS I) as PE.
  destruct TG as [TG|TG]; rewrite TG in PE.
  - destruct (AD PE) as (f & g & q & _ & p & EP & _). congruence.
  - destruct (AC PE) as (f & g & q & _ & (p & EP & _) & _). congruence.
Qed.
Print Assumptions C122_dictionaries_need_a_path.

(** A section with a config_dict is the contents of the file, with the file name added; its
    other elements are gone. *)
Theorem C122_config_dict_is_the_section :
  forall unit_ok read_table read_pickle ov st t a tx chs st' d,
    parse unit_ok read_table read_pickle ov st (Elem t a tx chs) = (st', Ok d) ->
    In "config_dict" (map x_tag chs) ->
    exists g c, splitext g = ".pickle" /\ read_pickle g = Ok c /\
      forall k, sget k d = if String.eqb k "config_dict" then Some (NVal (PStr g)) else sget k c.
Proof.
  intros uo rt rp ov st t a tx chs st' d P I. apply parse_RepF in P.
  inversion P as [? ? ? ? ? ? ents d0 ? RS G KS A]; subst.
  destruct (attached_names _ _ _ _ _ A) as (_ & _ & AC).
  apply in_map_iff in I as (c & TG & I).
  destruct AC as (f & g & q & _ & (p & _ & _ & SX & RD) & PU & _).
  { rewrite <- TG. eapply (present_entry uo rt rp); eauto. }
  eauto 6.
Qed.
Print Assumptions C122_config_dict_is_the_section.

(** ... so a sibling's value is not there, contrary to what one may expect. *)
Definition merged_doc : xml :=
  Elem "root" [] (Some "")
    [Elem "ConfigPath" [] (Some "/data") [];
     Elem "config_dict" [] (Some "__ConfigPath__/c.pickle") [];
     Elem "area" [] (Some "3") []].
Definition merged_file : string -> res dict := fun _ => Ok [("detector", NDict [])].
Theorem C122_config_dict_keeps_its_siblings_refuted :
  exists d st', parse (fun _ => true) (fun _ => Err OSError) merged_file None pstate0 merged_doc = (st', Ok d) /\
    In "area" (map x_tag (x_children merged_doc)) /\ sget "area" d = None.
Proof. do 2 eexists. split; [vm_compute; reflexivity|]. split; [cbn; auto|reflexivity]. Qed.
Print Assumptions C122_config_dict_keeps_its_siblings_refuted.

(** Without config_dict every other tag has the entry made of its elements. *)
Theorem C122_other_tags_are_untouched :
  forall unit_ok read_table read_pickle ov st t a tx chs st' d,
    parse unit_ok read_table read_pickle ov st (Elem t a tx chs) = (st', Ok d) ->
    ~ In "config_dict" (map x_tag chs) ->
    exists ents, RepSeqF unit_ok read_table read_pickle ov st chs ents st' /\
      forall k, k <> "data" -> sget k d = grouped k (combine (map x_tag chs) ents).
Proof.
  intros uo rt rp ov st t a tx chs st' d P N. apply parse_RepF in P.
  inversion P as [? ? ? ? ? ? ents d0 ? RS G KS A]; subst.
  exists ents. split; auto. intros k NK. rewrite <- G.
  assert (E : sget "config_dict" d0 = None).
  { apply dget_None_notIn; [apply String_eqb_spec|]. rewrite KS.
    intros I. apply N. exact (proj1 (firsts_In uo rt rp _ _) I). }
  eapply attached_other; eauto.
Qed.
Print Assumptions C122_other_tags_are_untouched.

(** A quantum efficiency in a table, found under the configuration path. *)
Definition qe_doc : xml :=
  Elem "root" [] (Some "")
    [Elem "channel" [] (Some "AIRS")
       [Elem "QE" [] (Some "") [Elem "datafile" [] (Some "__ConfigPath__/qe.ecsv") []];
        Elem "PSF" [] (Some "x") [Elem "datadict" [] (Some "/opt/psf.pickle") []]]].
Definition at_home : pstate := {| st_cfg := Some (PStr "/home/me"); st_wR := PInt 6000 |}.
Definition tables (f : string) : res nat := if String.eqb f "/home/me/qe.ecsv" then Ok 7 else Err OSError.
Definition pickles (f : string) : res dict :=
  if String.eqb f "/opt/psf.pickle" then Ok [("prf", NData 3)] else Err OSError.
Example qe_loads :
  parse (fun _ => true) tables pickles None at_home qe_doc
  = (at_home,
     Ok [("channel", NDict
           [("QE", NDict [("datafile", NDict [("value", NVal (PStr "/home/me/qe.ecsv"))]);
                          ("data", NData 7)]);
            ("PSF", NDict [("datadict", NDict [("value", NVal (PStr "/opt/psf.pickle"))]);
                           ("data", NDict [("prf", NData 3)]); ("value", NVal (PStr "x"))]);
            ("value", NVal (PStr "AIRS"))])]).
Proof. vm_compute. reflexivity. Qed.

Lemma within_children x y : within x y -> y = x \/ exists c, In c (x_children x) /\ within c y.
Proof. inversion 1; subst; eauto. Qed.
Ltac descend W :=
  let c := fresh "c" in let I := fresh "I" in let W' := fresh "W" in
  apply within_children in W as [->|(c & I & W')];
  [|cbn [x_children In] in I;
    repeat (let E := fresh "E" in destruct I as [E|I]; [subst c; descend W'|]); try (destruct I)].
Example qe_readable : readable (fun _ => true) tables pickles "/home/me" qe_doc /\
  steady None "/home/me" qe_doc /\ lacks "config_dict" qe_doc.
Proof.
  split; [|split].
  - intros y W. unfold qe_doc in W.
    assert (N : forall tag P chs, ~ In tag (map x_tag chs) -> only tag P chs).
    { intros tag P chs H. split.
      - enough (filter (fun c => String.eqb (x_tag c) tag) chs = []) as -> by (cbn; lia).
        induction chs as [|c chs IH]; cbn in *; auto. destruct (String.eqb (x_tag c) tag) eqn:E; [|apply IH; tauto].
        apply String.eqb_eq in E; tauto.
      - intros c I E. exfalso. apply H. rewrite <- E. apply in_map; auto. }
    assert (RL : forall chs, (forall t, In t ["datafile"; "datadict"; "config_dict"; "datatype"] -> ~ In t (map x_tag chs)) ->
                 readable_level tables pickles "/home/me" chs).
    { intros chs H. split; [|split; [|split]]; apply N, H; cbn; auto. }
    assert (RE : forall c, ~ In "unit" (map x_tag (x_children c)) -> x_attrs c = [] -> text_of c <> None ->
                 readable_elem (fun _ => true) c).
    { intros c U A T. destruct (text_of c) as [s|] eqn:E; [|congruence]. exists s. split; auto.
      intros _. split; auto. rewrite A. discriminate. }
    descend W; cbn [x_children].
    all: split; [reflexivity|]; split;
         [intros c I; cbn [In] in I; repeat (destruct I as [<-|I]; [apply RE; [cbn; intuition discriminate|reflexivity|discriminate]|]); destruct I|].
    all: try solve [apply RL; cbn; intros t I J;
              repeat (let E := fresh in destruct I as [E|I]; [subst t; cbn in J; intuition discriminate|]); destruct I].
    + split; [|split; [|split]]; try (apply N; cbn; intuition discriminate).
      split; [cbn; lia|]. intros c [<-|[]] _. split; [split; cbn; tauto|].
      eexists. split; [reflexivity|]. repeat split; try discriminate.
      exists 7. vm_compute. reflexivity.
    + split; [|split; [|split]]; try (apply N; cbn; intuition discriminate).
      split; [cbn; lia|]. intros c [<-|[]] _. split; [split; cbn; tauto|].
      eexists. split; [reflexivity|]. repeat split; try discriminate.
      exists [("prf", NData 3)]. vm_compute. reflexivity.
  - right. split; [left; auto|]. intros y c W. unfold qe_doc in W.
    descend W; cbn [x_children In]; intros I; repeat (destruct I as [<-|I]); try (destruct I); discriminate.
  - intros y c W. unfold qe_doc in W.
    descend W; cbn [x_children In]; intros I; repeat (destruct I as [<-|I]); try (destruct I); discriminate.
Qed.

(** instances of the failures *)
Definition h5_doc : xml :=
  Elem "root" [] (Some "") [Elem "ConfigPath" [] (Some "/data") []; Elem "datadict" [] (Some "/opt/psf.h5") []].
Example h5_fails : forall d, snd (parse (fun _ => true) tables (fun _ => Ok []) None pstate0 h5_doc) <> Ok d.
Proof.
  apply (C122_other_dictionaries_fail (fun _ => true) tables (fun _ => Ok []) None pstate0 h5_doc h5_doc
           (Elem "datadict" [] (Some "/opt/psf.h5") []) "/opt/psf.h5").
  - constructor.
  - cbn; auto.
  - auto.
  - split; cbn; tauto.
  - reflexivity.
  - reflexivity.
  - discriminate.
  - split; [split; reflexivity|]. split; [discriminate|]. split; [discriminate|reflexivity].
  - left. discriminate.
Qed.
Definition two_doc : xml :=
  Elem "root" [] (Some "") [Elem "datafile" [] (Some "/a.ecsv") []; Elem "datafile" [] (Some "/b.ecsv") []].
Example two_fail : forall d, snd (parse (fun _ => true) (fun _ => Ok 1) (fun _ => Ok []) None pstate0 two_doc) <> Ok d.
Proof. eapply C122_two_files_fail with (y := two_doc) (tag := "datafile"); cbn; auto. constructor. Qed.
