(** Model of what a run does to the file system: exorad/exorad.py:39-121 (standard_pipeline)
    and exorad/exorad.py:124-213 (main).  Definitions only.
    Simplifications: paths are absolute lists of names, without links, permissions or "..";
    the log file of [log=True] is not modelled; reading a payload or a target list is any
    function of the argument and of the content found there; observing is any function of the
    payload and the list that returns the entries (Model M_Pipeline) and the images drawn, an
    image that cannot be saved not being among them; the content of the output file is that of
    M_Hdf5.  os.path.exists, os.remove, os.makedirs and shutil.copy follow their
    documentation. *)
From Verif Require Import Base M_Hdf5 M_Pipeline.
Open Scope list_scope.

Definition path := list string.
Fixpoint path_eqb (p q : path) : bool :=
  match p, q with
  | [], [] => true
  | a :: p', b :: q' => String.eqb a b && path_eqb p' q'
  | _, _ => false
  end.
(** pathlib.Path(p).parent and os.path.basename(p) *)
Definition parent (p : path) : path := removelast p.
Definition basename (p : path) : string := last p ""%string.

(** an argument of standard_pipeline: a path, or something else (a dictionary, a table) *)
Inductive argument := Path (p : path) | Object.

Section Command.
  Variables B V P L : Type.     (* raw contents, numbers, images, target lists *)
  Notation file := (list (string * h5 V)).
  Notation dict := (list (string * item V)).
  Inductive content := Raw (b : B) | Archive (f : file) | Picture (p : P).
  Inductive node := Folder | File (c : content).
  (** the file system: what is found at a path *)
  Definition fs := path -> option node.
  Definition put (s : fs) (p : path) (n : option node) : fs := fun q => if path_eqb p q then n else s q.

  (** a step that may fail, leaving the file system as it is at that point *)
  Definition andso {A C} (x : fs * res A) (k : fs -> A -> fs * res C) : fs * res C :=
    match x with (s, Ok a) => k s a | (s, Err e) => (s, Err e) end.

  (** os.path.exists, os.path.isfile *)
  Definition there (s : fs) (p : path) : bool := match s p with Some _ => true | None => false end.
  Definition is_file (s : fs) (p : path) : bool := match s p with Some (File _) => true | _ => false end.
  Definition content_at (s : fs) (p : path) : option content :=
    match s p with Some (File c) => Some c | _ => None end.

  (** os.remove *)
  Definition remove (s : fs) (p : path) : fs * res unit :=
    match s p with Some (File _) => (put s p None, Ok tt) | _ => (s, Err OSError) end.

  (** os.makedirs: the missing directories along the path, from the outermost inwards *)
  Fixpoint makedirs (s : fs) (above : path) (names : list string) : fs * res unit :=
    match names with
    | [] => (s, Ok tt)
    | n :: ns =>
        let p := above ++ [n] in
        match s p with
        | None => makedirs (put s p (Some Folder)) p ns
        | Some Folder => makedirs s p ns
        | Some (File _) => (s, Err OSError)
        end
    end.

  (** shutil.copy(src, dst) with SameFileError passed over, exorad.py:71-78 *)
  Definition copy (s : fs) (src : argument) (dst : path) : fs * res unit :=
    match src with
    | Object => (s, Err TypeError)
    | Path p =>
        let to := match s dst with Some Folder => dst ++ [basename p] | _ => dst end in
        match s p with
        | None => (s, Err OSError)
        | Some n =>
            if path_eqb p to then (s, Ok tt)
            else match n, s to with
                 | Folder, _ => (s, Err OSError)
                 | _, Some Folder => (s, Err OSError)
                 | File c, _ => (put s to (Some (File c)), Ok tt)
                 end
        end
    end.

  (** exorad.py:60-80: with an output, remove it if asked to, make its directory, and copy the
      two inputs there; the result is the output directory *)
  Definition set_out (options targets : argument) (output : option path) (replace : bool) (s : fs)
    : fs * res (option path) :=
    match output with
    | None => (s, Ok None)
    | Some out =>
        andso (if replace && there s out then remove s out else (s, Ok tt)) (fun s _ =>
        let dir := parent out in
        andso (if there s dir then (s, Ok tt) else makedirs s [] dir) (fun s _ =>
        andso (copy s options dir) (fun s _ =>
        andso (copy s targets dir) (fun s _ => (s, Ok (Some dir))))))
    end.

  (** opening the output file with h5py: the file there, None if there is none *)
  Definition archive_at (s : fs) (p : path) : res (option file) :=
    match s p with
    | Some (File (Archive f)) => Ok (Some f)
    | Some _ => Err OSError
    | None => match s (parent p) with Some Folder => Ok None | _ => Err OSError end
    end.
  Definition store (s : fs) (p : path) (f : option file) : fs :=
    match f with Some f => put s p (Some (File (Archive f))) | None => s end.

  Variable meaning : argument -> option content -> res (payload_arg V).  (* reading the payload file *)
  Variable listing : argument -> option content -> res L.                (* LoadTargetList *)
  (** between writing the payload and drawing: the wavelength range (instrumentHandler.py:283-286)
      and the full contributions (exorad.py:87-97) *)
  Variable further : payload_arg V -> res (payload_arg V).
  Variable efficiency : payload_arg V -> res P.                          (* exorad.py:26-28 *)
  (** ObserveTargetlist with the payload, plots into a directory (if any) asked for or not *)
  Variable observing : payload_arg V -> L -> bool -> option path ->
                       res (list (option string * option dict) * list (string * P)).

  Definition found (s : fs) (a : argument) : option content :=
    match a with Path p => content_at s p | Object => None end.

  (** PreparePayload, instrumentHandler.py:248-282, and its use of the output file *)
  Definition prepare (s : fs) (options : argument) (output : option path) (info : list (string * string))
    : fs * res (payload_arg V) :=
    match meaning options (found s options) with
    | Err e => (s, Err e)
    | Ok arg =>
        match arg, output with
        | Xml payload cs, Some out =>
            match archive_at s out with
            | Err e => (s, Err e)
            | Ok prev =>
                match open_file prev (is_file s out) info with
                | (f, Err e) => (store s out (Some f), Err e)
                | (f, Ok _) => let '(f', r) := build_channels f payload cs in
                               (store s out (Some f'), match r with Ok _ => Ok arg | Err e => Err e end)
                end
            end
        | Unsupported, _ => (s, Err OSError)
        | _, _ => (s, Ok arg)
        end
    end.

  (** Plotter.save_fig: an image at [dir/name] *)
  Definition save_image (s : fs) (dir : option path) (name : string) (p : P) : fs :=
    match dir with Some d => put s (d ++ [name]) (Some (File (Picture p))) | None => s end.
  Definition save_images (s : fs) (dir : option path) (l : list (string * P)) : fs :=
    fold_left (fun s i => save_image s dir (fst i ++ ".png")%string (snd i)) l s.

  (** step 4, exorad.py:117-121 *)
  Definition save (s : fs) (output : option path) (info : list (string * string))
             (es : list (option string * option dict)) : fs * res unit :=
    match output, es with
    | None, _ | _, [] => (s, Ok tt)
    | Some out, _ =>
        match archive_at s out with
        | Err e => (s, Err e)
        | Ok prev => let '(f, r) := save_targets prev info es in (store s out f, r)
        end
    end.

  (** standard_pipeline, exorad.py:39-121 *)
  Definition run (options targets : argument) (output : option path) (plot replace : bool)
             (info : list (string * string)) (s : fs) : fs * res unit :=
    andso (set_out options targets output replace s) (fun s dir =>
    andso (prepare s options output info) (fun s arg =>
    match further arg with
    | Err e => (s, Err e)
    | Ok arg =>
        andso (if plot then match efficiency arg with
                            | Ok p => (save_image s dir "efficiency.png" p, Ok tt)
                            | Err e => (s, Err e)
                            end
               else (s, Ok tt)) (fun s _ =>
        match listing targets (found s targets) with
        | Err e => (s, Err e)
        | Ok l =>
            match observing arg l plot dir with
            | Err e => (s, Err e)
            | Ok (es, images) => save (if plot then save_images s dir images else s) output info es
            end
        end)
    end)).

  (** main, exorad.py:199-213: the command gives no [replace], whose default is True *)
  Definition main (options targets : path) (output : option path) (plot : bool)
             (info : list (string * string)) (s : fs) : fs * res unit :=
    run (Path options) (Path targets) output plot true info s.
End Command.
Arguments Raw {B V P}. Arguments Archive {B V P}. Arguments Picture {B V P}.
Arguments Folder {B V P}. Arguments File {B V P}.
Arguments put {B V P}. Arguments andso {B V P A C}. Arguments there {B V P}. Arguments is_file {B V P}.
Arguments content_at {B V P}. Arguments remove {B V P}. Arguments makedirs {B V P}. Arguments copy {B V P}.
Arguments set_out {B V P}. Arguments archive_at {B V P}. Arguments store {B V P}. Arguments found {B V P}.
Arguments prepare {B V P}. Arguments save_image {B V P}. Arguments save_images {B V P}. Arguments save {B V P}.
Arguments run {B V P L}. Arguments main {B V P L}.
