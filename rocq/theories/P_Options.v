(** Property theorems about LoadOptions (C04-C07).  [parse unit_ok read_table read_pickle ov st x]
    is the parsing of the document with root [x] by a LoadOptions instance in state [st]
    (configuration path kept on the instance, process-wide working resolution), [ov] being
    the config_path argument; it returns the state left behind and the dictionary or the
    exception.  [Rep], [RepElem], [denotes], [Trace] are the specification of S_Options. *)
From Verif Require Import Base PyStr M_Options S_Options L_Options S_Files L_Files.

(** C04: whatever is loaded from a document (without datafile/datadict/config_dict elements)
    represents it: see [Rep]. *)
Theorem C04_loaded_dictionary_represents_document :
  forall unit_ok read_table read_pickle ov st x st' d,
    no_file_tags x = true ->
    parse unit_ok read_table read_pickle ov st x = (st', Ok d) ->
    Rep unit_ok ov st x st' d.
Proof. intros; eapply parse_Rep; eauto. Qed.
Print Assumptions C04_loaded_dictionary_represents_document.

(** The typing of texts is a function and [denotes] captures it exactly. *)
Theorem C04_denotation_unique :
  forall unit_ok cfg un s v w, denotes unit_ok cfg un s v -> denotes unit_ok cfg un s w -> v = w.
Proof. exact denotes_functional. Qed.
Print Assumptions C04_denotation_unique.

(** ... every well-formed document loads ... *)
Theorem C04_wellformed_documents_load :
  forall unit_ok read_table read_pickle ov st x,
    no_file_tags x = true -> wellformed unit_ok x = true ->
    exists st' d, parse unit_ok read_table read_pickle ov st x = (st', Ok d).
Proof. intros; apply parse_ok; auto. Qed.
Print Assumptions C04_wellformed_documents_load.

(** ... and one with an element written without text (<a/>) anywhere below the root never
    does. *)
Theorem C04_element_without_text_fails :
  forall unit_ok read_table read_pickle ov st x, has_textless x = true ->
    forall d, snd (parse unit_ok read_table read_pickle ov st x) <> Ok d.
Proof. intros; apply parse_textless; auto. Qed.
Print Assumptions C04_element_without_text_fails.

(** C05: all occurrences of a repeated tag are kept in document order when their values are
    pairwise different. *)
Theorem C05_distinct_repetitions_all_kept :
  forall unit_ok read_table read_pickle ov st t a tx chs st' d tag,
    parse unit_ok read_table read_pickle ov st (Elem t a tx chs) = (st', Ok d) ->
    ~ In "config_dict" (map x_tag chs) -> tag <> "data" ->
    (forall ch, In ch chs -> x_tag ch = tag -> is_valued ch = true) ->
    exists ents, RepSeqF unit_ok read_table read_pickle ov st chs ents st' /\
      let occ := occurrences tag (combine (map x_tag chs) ents) in
      length occ = length (filter (fun ch => String.eqb (x_tag ch) tag) chs) /\
      (2 <= length occ -> ForallOrdPairs (fun a b => key_eqb b a = false) (map fst occ) ->
       sget tag d = Some (NODict (map (fun ke => (fst ke, NDict (snd ke))) occ))).
Proof. intros; eapply repeated_all_keptF; eauto. Qed.
Print Assumptions C05_distinct_repetitions_all_kept.

(** Repetitions with equal values are not all kept: one of two customNoise entries of 10 ppm
    is lost. *)
Definition noise_doc : xml :=
  Elem "channel" [] (Some "")
    [Elem "customNoise" [] (Some "10") [Elem "name" [] (Some "gain noise") []];
     Elem "customNoise" [] (Some "10") [Elem "name" [] (Some "jitter") []];
     Elem "customNoise" [] (Some "20") [Elem "name" [] (Some "other") []]].
Theorem C05_equal_values_are_kept_refuted :
  exists x st d l, no_file_tags x = true /\
    parse (fun _ => true) (fun _ => Err OSError) (fun _ => Err OSError) None st x
      = (st, Ok d) /\
    length (filter (fun ch => String.eqb (x_tag ch) "customNoise") (x_children x)) = 3 /\
    sget "customNoise" d = Some (NODict l) /\ length l = 2.
Proof.
  exists noise_doc, pstate0. do 2 eexists. repeat split; vm_compute; reflexivity.
Qed.
Print Assumptions C05_equal_values_are_kept_refuted.

(** A repeated tag whose first occurrence has no value: the load fails. *)
Theorem C05_first_occurrence_without_value_fails :
  forall unit_ok read_table read_pickle ov st t a tx pre c1 mid c2 post,
    ~ In (x_tag c1) (map x_tag pre) -> x_tag c2 = x_tag c1 ->
    text_of c1 = Some "" -> ~ In "value" (map fst (x_attrs c1)) ->
    ~ In "value" (map x_tag (x_children c1)) -> ~ In "config_dict" (map x_tag (x_children c1)) ->
    forall d, snd (parse unit_ok read_table read_pickle ov st
                     (Elem t a tx (pre ++ c1 :: mid ++ c2 :: post))) <> Ok d.
Proof. intros; apply first_without_value_failsF; auto. Qed.
Print Assumptions C05_first_occurrence_without_value_fails.

(** C06: a load (of a document without config_dict elements) is a sequence of valued elements in document order (children first); each
    one's value is what its text denotes under the path then in force ([denotes]: in
    particular placeholders are replaced by it), and it updates the path by [path_after]. *)
Theorem C06_values_resolved_with_path_in_force :
  forall unit_ok read_table read_pickle ov st x st' d,
    lacks "config_dict" x ->
    parse unit_ok read_table read_pickle ov st x = (st', Ok d) ->
    exists tr, map fst tr = valued x /\ Trace unit_ok ov st tr st'.
Proof. intros; eapply parse_TraceF; eauto. Qed.
Print Assumptions C06_values_resolved_with_path_in_force.

(** The path left behind: with an override, the override (once something was valued);
    without, the text of the last ConfigPath element, else the path of the previous load. *)
Theorem C06_path_after_load :
  forall unit_ok read_table read_pickle ov st x st' d,
    lacks "config_dict" x ->
    parse unit_ok read_table read_pickle ov st x = (st', Ok d) ->
    (forall c p, ov = Some (String c p) ->
       st_cfg st' = match valued x with [] => st_cfg st | _ => Some (PStr (String c p)) end) /\
    (no_override ov ->
       match last_tagged "ConfigPath" (valued x) with
       | None => st_cfg st' = st_cfg st
       | Some e => forall s, unit_free e -> text_of e = Some s -> plain s ->
                             st_cfg st' = Some (PStr s)
       end).
Proof.
  intros unit_ok rt rp ov st x st' d NF P.
  destruct (parse_TraceF _ _ _ _ _ _ _ _ NF P) as (tr & M & T). split.
  - intros c p ->. rewrite <- M, (Trace_override _ _ _ _ _ _ T). destruct tr; auto.
  - intros NO. rewrite <- M, last_with_tagged, (Trace_path _ _ _ _ _ NO T).
    destruct (last_with "ConfigPath" tr) as [[e v]|] eqn:E; cbn; auto.
    intros s U TX PL. apply find_some in E as [I _]. rewrite <- in_rev in I.
    destruct (Trace_denotes _ _ _ _ _ _ _ T I U) as (cfg & s' & TX' & D).
    rewrite TX in TX'; injection TX' as <-. f_equal; eapply denotes_plain; eauto.
Qed.
Print Assumptions C06_path_after_load.

(** A placeholder in the first valued element fails on a fresh instance - whatever
    config_path the caller gives. *)
Theorem C06_placeholder_without_path_fails :
  forall unit_ok read_table read_pickle ov st x ch rest s,
    lacks "config_dict" x -> valued x = ch :: rest -> unit_free ch -> text_of ch = Some s ->
    not_number s -> contains path_mark s = true -> st_cfg st = None ->
    forall d, snd (parse unit_ok read_table read_pickle ov st x) <> Ok d.
Proof. intros; eapply early_placeholderF; eauto. Qed.
Print Assumptions C06_placeholder_without_path_fails.

(** C07: after any sequence of loads (each by any LoadOptions instance, i.e. with any
    instance path [c]) the working resolution is the number in the last working_R element of
    all the documents, and is inherited when no document mentions it. *)
Inductive Loads unit_ok read_table read_pickle : pyval -> list xml -> pyval -> Prop :=
| Loads_nil w : Loads unit_ok read_table read_pickle w [] w
| Loads_cons w c ov x st' d xs w' :
    parse unit_ok read_table read_pickle ov {| st_cfg := c; st_wR := w |} x = (st', Ok d) ->
    Loads unit_ok read_table read_pickle (st_wR st') xs w' ->
    Loads unit_ok read_table read_pickle w (x :: xs) w'.

Theorem C07_working_resolution_is_the_last_one_loaded :
  forall unit_ok read_table read_pickle w xs w',
    Forall (lacks "config_dict") xs ->
    Loads unit_ok read_table read_pickle w xs w' ->
    match last_tagged "working_R" (flat_map valued xs) with
    | None => w' = w
    | Some e => forall s n, unit_free e -> text_of e = Some s -> number s n -> w' = n
    end.
Proof.
  intros unit_ok rt rp w xs w' NF L.
  enough (H : match last_tagged "working_R" (flat_map valued xs) with
              | None => w' = w
              | Some e => unit_free e -> exists cfg s, text_of e = Some s /\ denotes unit_ok cfg None s w'
              end).
  { destruct (last_tagged _ _) as [e|]; auto. intros s n U TX N.
    destruct (H U) as (cfg & s' & TX' & D). rewrite TX in TX'; injection TX' as <-.
    eapply denotes_number; eauto. }
  induction L as [w|w c ov x st' d xs w' P L IH]; cbn; auto.
  inversion NF as [|? ? NF1 NF2]; subst. specialize (IH NF2).
  unfold last_tagged in *. rewrite rev_app_distr, find_app.
  destruct (find _ (rev (flat_map valued xs))) as [e|]; auto.
  destruct (parse_TraceF _ _ _ _ _ _ _ _ NF1 P) as (tr & M & T).
  pose proof (Trace_wR _ _ _ _ _ T) as TW. cbn in TW. pose proof (last_with_tagged "working_R" tr) as LT.
  unfold last_tagged in LT. rewrite M in LT. rewrite LT, IH, TW.
  destruct (last_with "working_R" tr) as [[e v]|] eqn:E; cbn; auto.
  intros U. apply find_some in E as [I _]. rewrite <- in_rev in I.
  eapply Trace_denotes; eauto.
Qed.
Print Assumptions C07_working_resolution_is_the_last_one_loaded.

(** Concrete documents meeting the hypotheses. *)
Definition payload_doc : xml :=
  Elem "root" [] (Some "")
    [Elem "ConfigPath" [] (Some " /home/x ") [];
     Elem "working_R" [] (Some "5000") [];
     Elem "channel" [] (Some "AIRS") [Elem "QE" [("unit", "m")] (Some "0.55") []];
     Elem "channel" [] (Some "FGS") [Elem "file" [] (Some "__ConfigPath__/qe.csv") []]].
Example payload_wf : no_file_tags payload_doc = true /\ wellformed (fun _ => true) noise_doc = true
  /\ wellformed (fun _ => true) payload_doc = false /\ has_textless payload_doc = false
  /\ lacks "config_dict" payload_doc.
Proof. split; [reflexivity|]. split; [reflexivity|]. split; [reflexivity|]. split; [reflexivity|]. apply lacksb_ok; reflexivity. Qed.
Example payload_loads :
  match parse (fun _ => true) (fun _ => Err OSError) (fun _ => Err OSError) None pstate0 payload_doc with
  | (st, Ok d) =>
      st_wR st = PInt 5000 /\ st_cfg st = Some (PStr "/home/x") /\
      (exists l, sget "channel" d = Some (NODict l) /\ map fst l = [PStr "AIRS"; PStr "FGS"] /\
         dget key_eqb (PStr "FGS") l =
           Some (NDict [("file", NDict [("value", NVal (PStr "/home/x/qe.csv"))]);
                        ("value", NVal (PStr "FGS"))]))
  | _ => False
  end.
Proof. vm_compute. repeat split. eexists; repeat split. Qed.
Example payload_other : last_tagged "working_R" (valued payload_doc)
  = Some (Elem "working_R" [] (Some "5000") []) /\ number "5000" (PInt 5000) /\ plain "/home/x".
Proof. repeat split; try (vm_compute; reflexivity); try discriminate. constructor; reflexivity. Qed.
