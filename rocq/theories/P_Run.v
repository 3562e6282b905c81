(** C105: a whole run of the standard pipeline, and what is in its output file. *)
From Coq Require Import Sorting.Sorted Permutation.
From Verif Require Import Base Dict PyStr M_Options M_Hdf5 S_Hdf5 L_Hdf5 L_Keep M_Pipeline S_Pipeline L_Pipeline P_Hdf5 P_Pipeline.
From Verif Require Import M_Payload S_Payload P_Payload.
Open Scope list_scope.

(** the target [n], saved from the dictionary [d], can be read from the file *)
Definition readable {V} (unit_ok : string -> bool) (f : list (string * h5 V)) (n : string) (d : list (string * item V)) : Prop :=
  exists g l, at_ ["targets"; n] (G f) = Some (G g) /\ load unit_ok g = Ok l /\ Restores d l.
(** the names under "targets", in the order of saving *)
Definition saved_names {V} (f : list (string * h5 V)) : list string :=
  match sget "targets" f with Some (G g) => map fst g | _ => [] end.

Section Save.
  Context {V : Type} (unit_ok : string -> bool).
  Notation file := (list (string * h5 V)).
  Notation dict := (list (string * item V)).

  Lemma open_again (f : file) info : sget "info" f <> None -> open_file (Some f) true info = (f, Ok tt).
  Proof. intros N. unfold open_file, dmem. cbn. destruct (sget "info" f); [reflexivity|congruence]. Qed.

  Lemma write_fresh (f : file) n d : storable unit_ok (IDict d) ->
    (sget "targets" f = None \/ exists g, sget "targets" f = Some (G g) /\ sget n g = None) ->
    exists f' x, write_target f n d = (f', Ok tt) /\ saved_names f' = saved_names f ++ [n] /\
      sget "targets" f' = Some (G (match sget "targets" f with Some (G g) => g | _ => [] end ++ [(n, G x)])) /\
      (exists l, load unit_ok x = Ok l /\ Restores d l) /\ forall k, k <> "targets" -> sget k f' = sget k f.
  Proof.
    intros S H. destruct (roundtrip unit_ok d S) as (x & l & E & L & B).
    unfold write_target, in_group, store_dictionary.
    destruct H as [N|(g & G0 & N)].
    - rewrite N. cbn [dget]. rewrite E. eexists _, x. split; [reflexivity|].
      assert (T : sget "targets" (f ++ [("targets", G ([] ++ [(n, G x)]))]) = Some (G [(n, G x)])).
      { rewrite sget_app, N. reflexivity. }
      unfold saved_names. rewrite T, N. split; [reflexivity|]. split; [reflexivity|]. split; [eauto|].
      intros k K. rewrite sget_app. destruct (sget k f); auto. cbn. destruct (String.eqb_spec k "targets"); [congruence|auto].
    - rewrite G0, N, E. eexists _, x. split; [reflexivity|].
      assert (T : sget "targets" (sset "targets" (G (g ++ [(n, G x)])) f) = Some (G (g ++ [(n, G x)]))).
      { apply (dget_dset_same _ String_eqb_spec). }
      unfold saved_names. rewrite T, G0. split; [rewrite map_app; reflexivity|]. split; [reflexivity|]. split; [eauto|].
      intros k K. apply (dget_dset_other _ String_eqb_spec); congruence.
  Qed.

  Lemma save_all info : forall (es : list (string * dict)) (f : file),
    sget "info" f <> None -> NoDup (map fst es) -> (forall n d, In (n, d) es -> storable unit_ok (IDict d)) ->
    (sget "targets" f = None \/ exists g, sget "targets" f = Some (G g) /\ forall n, In n (map fst es) -> sget n g = None) ->
    exists f', save_targets (Some f) info (map (fun e => (Some (fst e), Some (snd e))) es) = (Some f', Ok tt) /\
      saved_names f' = saved_names f ++ map fst es /\ (forall n d, In (n, d) es -> readable unit_ok f' n d) /\
      (forall n, ~ In n (map fst es) -> at_ ["targets"; n] (G f') = at_ ["targets"; n] (G f)) /\
      forall k, k <> "targets" -> sget k f' = sget k f.
  Proof.
    induction es as [|[n d] es IH]; intros f I ND S T.
    - exists f. cbn. rewrite app_nil_r. split; auto. split; auto. split; [tauto|]. auto.
    - cbn [map fst] in ND. inversion ND as [|? ? N1 N2]; subst.
      destruct (write_fresh f n d) as (f1 & x & E & SN & TG & (l & L & B) & O).
      { apply (S n). now left. }
      { destruct T as [T|(g & T & H)]; [auto|right]. exists g. split; auto. apply H. now left. }
      set (g0 := match sget "targets" f with Some (G g) => g | _ => [] end) in *.
      assert (NG : forall m, In m (n :: map fst es) -> sget m g0 = None).
      { intros m Hm. unfold g0. destruct T as [->|(g & -> & H)]; auto. }
      destruct (IH f1) as (f2 & E2 & SN2 & RD & OT & O2).
      + rewrite O by discriminate. auto.
      + auto.
      + intros m e J. apply (S m e). now right.
      + right. eexists. split; [exact TG|]. intros m J. rewrite sget_app, NG by (now right). cbn.
        destruct (String.eqb_spec m n); [subst; contradiction|auto].
      + exists f2. cbn [map fst snd save_targets]. rewrite (open_again f info I), E. split; [exact E2|].
        split; [rewrite SN2, SN, <- app_assoc; reflexivity|].
        assert (AT1 : forall m, at_ ["targets"; m] (G f1) = if String.eqb m n then Some (G x) else at_ ["targets"; m] (G f)).
        { intros m. cbn [at_]. rewrite TG. rewrite sget_app. cbn [dget].
          destruct (String.eqb_spec m n) as [->|N].
          - rewrite NG by (now left). reflexivity.
          - unfold g0. destruct T as [->|(g & -> & H)]; cbn; auto. destruct (sget m g); auto. }
        split; [|split].
        * intros m e [[= <- <-]|J]; [|auto]. exists x, l. split; auto. rewrite OT by auto. rewrite AT1, String.eqb_refl. reflexivity.
        * intros m J. rewrite OT, AT1. { destruct (String.eqb_spec m n); [subst; exfalso; apply J; now left|auto]. } { intros K. apply J. now right. }
        * intros k K. rewrite O2, O; auto.
  Qed.
End Save.

(** A run of the pipeline with an output file of its own, on a payload whose channels can be
    built and stored, and targets with distinct names that can be observed and stored: it ends
    without error whatever was in the output file before, and the file holds exactly the
    information, the payload and the targets; the payload with all its channels is loaded from
    it again, and every target is read back, the targets in the order of the list. *)
Theorem C105_a_run_is_read_back :
  forall (V : Type) (unit_ok : string -> bool) options output info payload
         (qs : list (M_Pipeline.channel V * table V * list (string * item V) * instrument_class))
         (ts : list (string * list (string * item V))) prev,
    options <> output -> NoDup (map fst info) -> storable unit_ok (IDict payload) ->
    (forall c t b k, In (c, t, b, k) qs -> loadable unit_ok c t b k) ->
    NoDup (map (fun q => let '(c, _, _, _) := q in c_name c) qs) ->
    (forall n d, In (n, d) ts -> storable unit_ok (IDict d)) -> NoDup (map fst ts) ->
    exists f p chs,
      standard_pipeline options output true info (Xml payload (map (fun q => let '(c, _, _, _) := q in c) qs))
        (Ok (map (fun e => (Some (fst e), Some (snd e))) ts)) prev = (Some f, Ok tt) /\
      load_payload unit_ok f = Ok (p, chs) /\ Restores payload p /\
      Permutation (map fst chs) (map (fun q => let '(c, _, _, _) := q in c_name c) qs) /\
      (forall c t b k, In (c, t, b, k) qs -> exists i, sget (c_name c) chs = Some i /\ given_back c t b k i) /\
      saved_names f = map fst ts /\ (forall n d, In (n, d) ts -> readable unit_ok f n d) /\
      (forall k, sget k f <> None -> k = "info" \/ k = "payload" \/ k = "targets").
Proof.
  intros V unit_ok options output info payload qs ts prev NO NI SP LQ NQ ST NT.
  unfold standard_pipeline. apply String.eqb_neq in NO. rewrite NO. cbn [andb].
  change (match @None (list (string * h5 V)) with Some _ => true | None => false end) with false.
  pose proof (C49_new_file_has_info V info NI) as OP.
  assert (OPF : open_file (V := V) None false info = open_file None true info) by reflexivity.
  rewrite OPF, OP. set (f0 := [("info", G [("ExoRad", G (map (fun kv => (fst kv, D (DS (snd kv)))) info))])]) in *.
  destruct (C101_written_channels_are_loaded V unit_ok f0 payload qs eq_refl SP LQ NQ) as (f1 & p & chs & EB & LP & RP & _ & PM & GB).
  rewrite EB.
  assert (OTH : forall k, k <> "payload" -> sget k f1 = sget k f0).
  { intros k K. unfold build_channels in EB. eapply in_group_other; eauto. }
  destruct (save_all unit_ok info ts f1) as (f & ES & SN & RD & _ & O).
  - rewrite OTH by discriminate. cbn. discriminate.
  - auto.
  - auto.
  - left. rewrite OTH by discriminate. reflexivity.
  - rewrite ES. exists f, p, chs. split; [reflexivity|].
    assert (LP' : load_payload unit_ok f = load_payload unit_ok f1).
    { unfold load_payload, subgroup. rewrite (O "payload") by discriminate. reflexivity. }
    rewrite LP'. split; [exact LP|]. split; [exact RP|]. split; [exact PM|]. split; [exact GB|]. split.
    { rewrite SN. unfold saved_names. rewrite (OTH "targets") by discriminate. reflexivity. }
    split; [exact RD|].
    intros k K. destruct (String.eqb_spec k "targets") as [->|N1]; auto. destruct (String.eqb_spec k "payload") as [->|N2]; auto.
    rewrite O, OTH in K by auto. cbn in K. destruct (String.eqb_spec k "info"); auto. congruence.
Qed.
Print Assumptions C105_a_run_is_read_back.

(** The same when the run does not replace a file holding other targets: theirs stay. *)
Theorem C105_further_targets :
  forall (V : Type) (unit_ok : string -> bool) info (f : list (string * h5 V)) g (ts : list (string * list (string * item V))),
    sget "info" f <> None -> sget "targets" f = Some (G g) -> (forall n, In n (map fst ts) -> sget n g = None) ->
    (forall n d, In (n, d) ts -> storable unit_ok (IDict d)) -> NoDup (map fst ts) ->
    exists f', save_targets (Some f) info (map (fun e => (Some (fst e), Some (snd e))) ts) = (Some f', Ok tt) /\
      saved_names f' = map fst g ++ map fst ts /\ (forall n d, In (n, d) ts -> readable unit_ok f' n d) /\
      (forall n, ~ In n (map fst ts) -> at_ ["targets"; n] (G f') = at_ ["targets"; n] (G f)) /\
      (forall k, k <> "targets" -> sget k f' = sget k f).
Proof.
  intros V unit_ok info f g ts NI T NG ST NT.
  destruct (save_all unit_ok info ts f NI NT ST) as (f' & E & SN & RD & OT & O); [right; eauto|].
  exists f'. split; auto. split; auto. rewrite SN. unfold saved_names. rewrite T. reflexivity.
Qed.
Print Assumptions C105_further_targets.

(** The channels of C101's example, and two targets. *)
Example C105_ex :
  let ts := [("HD 1", [("R", IQuant 3 "um"); ("name", IStr "HD 1")]); ("55 Cnc", [("R", IQuant 4 "um")])] in
  (forall c t b k, In (c, t, b, k) tiny_specs -> loadable known c t b k) /\
  (forall n d, In (n, d) ts -> storable known (IDict d)) /\ NoDup (map fst ts).
Proof.
  cbv zeta. split; [exact tiny_loadable|]. split.
  - intros n d [[= <- <-]|[[= <- <-]|[]]]; (split; [cbn; repeat constructor; cbn; intuition discriminate|]); split; [|split|idtac|split].
    + intros k i [E|[E|[]]]; injection E as <- <-; reflexivity.
    + intros a b [E|[E|[]]]; discriminate.
    + cbn; auto.
    + intros k i [E|[]]; injection E as <- <-; reflexivity.
    + intros a b [E|[]]; discriminate.
    + cbn; auto.
  - repeat constructor; cbn; intuition discriminate.
Qed.
