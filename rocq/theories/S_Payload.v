(** Vocabulary for the payload tasks, independent of the functions of M_Payload. *)
From Coq Require Import Sorting.Sorted Permutation.
From Verif Require Import Base PyStr M_Options M_Hdf5.

(** the text of the entry "channelClass" of a channel *)
Definition class_text (n : node) : option string :=
  match n with
  | NDict d => match sget "channelClass" d with
               | Some (NDict e) => match sget "value" e with
                                   | Some (NVal (PStr s)) => Some s
                                   | _ => None
                                   end
               | _ => None
               end
  | _ => None
  end.
(** equal up to upper and lower case *)
Definition same_word (a b : string) : Prop := py_lower a = py_lower b.

(** [picked P l m]: [m] are the elements of [l] satisfying [P], in the order of [l] *)
Inductive picked {A} (P : A -> Prop) : list A -> list A -> Prop :=
| picked_nil : picked P [] []
| picked_take x l m : P x -> picked P l m -> picked P (x :: l) (x :: m)
| picked_skip x l m : ~ P x -> picked P l m -> picked P (x :: l) m.

(** names in alphabetical order *)
Definition alphabetical (l : list string) : Prop := StronglySorted (fun a b => String.leb a b = true) l.

(** dimensions of a length, and of a square: exponents of length and six other base units *)
Definition length_dims : list Z := [1; 0; 0; 0; 0; 0; 0]%Z.

(** A processed instrument holds, under "qe_data", a wavelength grid (numbers and the name of a
    unit of length) and data, as Signal.to_dict exports them. *)
Definition has_signal {V} (dims : string -> list Z) (unit_ok : string -> bool) (b : list (string * item V)) (name : string)
  (wl data : V) (u w : string) : Prop :=
  exists s g d, In (name, IDict s) b /\
    In ("wl_grid", IDict g) s /\ In ("value", IArr wl) g /\ In ("unit", IStr u) g /\
    In ("data", IDict d) s /\ In ("value", IArr data) d /\ In ("unit", IStr w) d /\
    dims u = length_dims /\ unit_ok u = true.

(** a dictionary as it is in memory, before it is stored *)
Fixpoint in_memory {V} (it : item V) : lval V :=
  match it with
  | INum v | IArr v | IList (Ok v) _ => LV v
  | IStr s => LBytes s
  | IStrArr l => LBytesArr l
  | IQuant v u => LQuant v u
  | ITab t => LTab (tb_array t) (tb_header t)
  | IDict d | ISignal d => LDict (map (fun kv => (fst kv, in_memory (snd kv))) d)
  | _ => LBytesArr []
  end.

(** a file name with a proper stem: in its last component something other than dots precedes
    the extension *)
Definition named_file (stem : string) : Prop :=
  exists dir base, stem = (dir ++ base)%string /\ (dir = "" \/ exists d, dir = (d ++ "/")%string) /\
    ~ In "/"%char (list_ascii_of_string base) /\ exists c, In c (list_ascii_of_string base) /\ c <> "."%char.
