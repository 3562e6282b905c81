(** C113 continued: a run of the command, from the files it reads to the file it leaves. *)
From Coq Require Import Permutation.
From Verif Require Import Base Dict M_Options M_Hdf5 S_Hdf5 L_Hdf5 L_Keep M_Pipeline S_Pipeline L_Pipeline P_Pipeline.
From Verif Require Import M_Payload S_Payload P_Payload P_Run M_Command S_Command L_Command P_Command.
Open Scope list_scope.

(** The command, given a payload file and a target list that can be read and observed, ends without error, whatever the output held before;
    at the output's path there is then an archive in which the payload, its channels and every target are found again,
    and both inputs are where they were, with a copy beside the output. *)
Theorem C113_the_command_leaves_a_readable_output :
  forall (B V P L : Type) (unit_ok : string -> bool) meaning listing further efficiency observing (s : fs B V P) a x b y d o c e prev plot info
         payload (qs : list (M_Pipeline.channel V * table V * list (string * item V) * instrument_class))
         arg' l (ts : list (string * list (string * item V))) images,
    sound_fs s -> no_file_around s d ->
    s (a ++ [x]) = Some (File c) -> s (b ++ [y]) = Some (File e) ->
    x <> y -> x <> o -> y <> o -> (plot = true -> ~ image_name x /\ ~ image_name y /\ ~ image_name o) ->
    s (d ++ [x]) <> Some Folder -> s (d ++ [y]) <> Some Folder ->
    s (d ++ [o]) = option_map (fun f => File (Archive f)) prev ->
    meaning (Path (a ++ [x])) (Some c) = Ok (Xml payload (map (fun q => let '(c, _, _, _) := q in c) qs)) ->
    further (Xml payload (map (fun q => let '(c, _, _, _) := q in c) qs)) = Ok arg' ->
    (plot = true -> exists p, efficiency arg' = Ok p) ->
    listing (Path (b ++ [y])) (Some e) = Ok l ->
    observing arg' l plot (Some d) = Ok (map (fun t => (Some (fst t), Some (snd t))) ts, images) ->
    NoDup (map fst info) -> storable unit_ok (IDict payload) ->
    (forall c t b k, In (c, t, b, k) qs -> loadable unit_ok c t b k) ->
    NoDup (map (fun q => let '(c, _, _, _) := q in c_name c) qs) ->
    (forall n d, In (n, d) ts -> storable unit_ok (IDict d)) -> NoDup (map fst ts) ->
    exists s' f p chs,
      main (L := L) meaning listing further efficiency observing (a ++ [x]) (b ++ [y]) (Some (d ++ [o])) plot info s = (s', Ok tt) /\
      s' (d ++ [o]) = Some (File (Archive f)) /\
      load_payload unit_ok f = Ok (p, chs) /\ Restores payload p /\
      Permutation (map fst chs) (map (fun q => let '(c, _, _, _) := q in c_name c) qs) /\
      (forall c t b k, In (c, t, b, k) qs -> exists i, sget (c_name c) chs = Some i /\ given_back c t b k i) /\
      saved_names f = map fst ts /\ (forall n d, In (n, d) ts -> readable unit_ok f n d) /\
      s' (a ++ [x]) = Some (File c) /\ s' (b ++ [y]) = Some (File e) /\
      s' (d ++ [x]) = Some (File c) /\ s' (d ++ [y]) = Some (File e).
Proof.
  intros B V P L unit_ok meaning listing further efficiency observing s a x b y d o c e prev plot info payload qs arg' l ts images
         SF NF A1 B1 XY XO YO IM NX NY NO M FU EF LI OB NI SP LQ NQ ST NT.
  destruct (C105_a_run_is_read_back V unit_ok "options" "output" info payload qs ts prev) as (f & p & chs & E & LP & RP & PM & GB & SN & RD & _); auto.
  { discriminate. }
  destruct (main meaning listing further efficiency observing (a ++ [x]) (b ++ [y]) (Some (d ++ [o])) plot info s) as [s' r] eqn:H.
  unfold main in H.
  destruct (C113_the_output_of_a_run B V P L meaning listing further efficiency observing s s' r a x b y d o c e plot true info
             _ arg' l _ images prev "options"%string "output"%string SF NF A1 B1 XY XO YO IM NX NY NO M FU EF LI OB) as (g & EG & OG); auto.
  { discriminate. }
  rewrite E in EG. injection EG as <- <-.
  destruct (C112_inputs_are_kept_and_copied B V P L meaning listing further efficiency observing s s' (Ok tt) a x b y d o c e plot true info)
    as (I1 & I2 & I3 & I4); auto.
  { intros PL. apply IM in PL. tauto. }
  { intros _. rewrite NO. destruct prev; discriminate. }
  exists s', f, p, chs. split; [reflexivity|]. split; [exact OG|]. split; [exact LP|]. split; [exact RP|]. split; [exact PM|].
  split; [exact GB|]. split; [exact SN|]. split; [exact RD|]. split; [exact I1|]. split; [exact I2|]. auto.
Qed.
Print Assumptions C113_the_command_leaves_a_readable_output.

(** A home directory with a payload file and a target list, and no output directory yet. *)
Open Scope string_scope. Open Scope list_scope.
Definition home : fs nat nat nat := fun p =>
  if path_eqb p [] then Some Folder else if path_eqb p ["home"] then Some Folder
  else if path_eqb p ["home"; "payload.xml"] then Some (File (Raw 1)) else if path_eqb p ["home"; "targets.csv"] then Some (File (Raw 2))
  else None.

Example C111_ex : sound_fs home /\ no_file_around home ["home"; "out"].
Proof.
  split.
  - split; [reflexivity|]. intros p n. unfold home.
    destruct (path_eqb_spec (p ++ [n]) []) as [E|_]; [destruct p; discriminate|].
    destruct (path_eqb_spec (p ++ [n]) ["home"]) as [E|_].
    { change ["home"] with ([] ++ ["home"]) in E. apply app_inj_tail in E as [-> _]. reflexivity. }
    destruct (path_eqb_spec (p ++ [n]) ["home"; "payload.xml"]) as [E|_].
    { change ["home"; "payload.xml"] with (["home"] ++ ["payload.xml"]) in E. apply app_inj_tail in E as [-> _]. reflexivity. }
    destruct (path_eqb_spec (p ++ [n]) ["home"; "targets.csv"]) as [E|_].
    { change ["home"; "targets.csv"] with (["home"] ++ ["targets.csv"]) in E. apply app_inj_tail in E as [-> _]. reflexivity. }
    congruence.
  - intros p c (q & E). destruct p as [|u [|v [|w p]]]; cbn in E; try discriminate; try (injection E; intros; subst); intros X; vm_compute in X; discriminate.
Qed.

(** The command on it, with a target, and again with the target list as output (which loses it). *)
Example C112_ex :
  let meaning := fun (_ : argument) (k : option (content nat nat nat)) => match k with Some _ => Ok (M_Pipeline.Xml [] []) | None => Err OSError end in
  let listing := fun (_ : argument) (k : option (content nat nat nat)) => match k with Some _ => Ok tt | None => Err OSError end in
  let observing := fun (_ : M_Pipeline.payload_arg nat) (_ : unit) (_ : bool) (_ : option path) => Ok ([(Some "star", Some [("x", INum 1)])], [("star", 7)]) in
  let go out s := main (L := unit) meaning listing Ok (fun _ => Ok 9) observing ["home"; "payload.xml"] ["home"; "targets.csv"] (Some out) true [] s in
  (exists s', go ["home"; "out"; "run.h5"] home = (s', Ok tt) /\ s' ["home"; "out"; "payload.xml"] = Some (File (Raw 1)) /\
     s' ["home"; "out"; "star.png"] = Some (File (Picture 7)) /\ s' ["home"; "out"; "efficiency.png"] = Some (File (Picture 9)) /\
     exists f, s' ["home"; "out"; "run.h5"] = Some (File (Archive f)) /\ at_ ["targets"; "star"; "x"] (G f) = Some (D (DV 1))) /\
  (exists s', go ["home"; "targets.csv"] home = (s', Err OSError) /\ s' ["home"; "targets.csv"] = None).
Proof.
  cbv zeta. split.
  - eexists. split; [reflexivity|]. split; [reflexivity|]. split; [reflexivity|]. split; [reflexivity|].
    eexists. split; reflexivity.
  - eexists. split; reflexivity.
Qed.

(** A note standing where the output should go is kept when [replace] is off. *)
Example C113_ex :
  let meaning := fun (_ : argument) (k : option (content nat nat nat)) => match k with Some _ => Ok (M_Pipeline.Xml [] []) | None => Err OSError end in
  let listing := fun (_ : argument) (k : option (content nat nat nat)) => match k with Some _ => Ok tt | None => Err OSError end in
  let observing := fun (_ : M_Pipeline.payload_arg nat) (_ : unit) (_ : bool) (_ : option path) => Ok ([(Some "star", Some [("x", INum 1)])], [("star", 7)]) in
  let s := put home ["home"; "notes.txt"] (Some (File (Raw 3))) in
  exists s', run (L := unit) meaning listing Ok (fun _ => Ok 9) observing (Path ["home"; "payload.xml"]) (Path ["home"; "targets.csv"]) (Some ["home"; "notes.txt"]) true false [] s = (s', Err OSError) /\
    s' ["home"; "notes.txt"] = Some (File (Raw 3)).
Proof. cbv zeta. eexists. split; reflexivity. Qed.
