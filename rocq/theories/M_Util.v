(** Model of exorad/utils/util.py: parse_range, chunks, to_dict (and progressbar's iteration).
    vstack_tables is in M_Table.  Definitions only. *)
From Verif Require Import Base PyStr.
Open Scope list_scope.

(** ** parse_range, util.py:97-122 *)

(** Python [range(a, b)] on integers. *)
Fixpoint zrange_n (a : Z) (n : nat) : list Z :=
  match n with O => [] | S n' => a :: zrange_n (a + 1)%Z n' end.
Definition zrange (a b : Z) : list Z := zrange_n a (Z.to_nat (b - a)).

(** One comma-separated piece, util.py:107-121: [s = a.split("-")]; start and end are
    s[0], s[1]; no s[1] (IndexError) means the single integer a; a non-integer (ValueError)
    makes the whole function return None. Further pieces s[2:] are ignored. *)
Definition range_piece (a : string) : option (list Z) :=
  match py_split "-"%char a with
  | [] => None
  | [_] => match py_int a with Some n => Some (zrange n (n + 1)) | None => None end
  | s0 :: s1 :: _ =>
      match py_int s0 with
      | None => None
      | Some m => match py_int s1 with
                  | None => None
                  | Some n => Some (zrange m (n + 1)%Z)
                  end
      end
  end.

Fixpoint range_pieces (l : list string) : option (list Z) :=
  match l with
  | [] => Some []
  | a :: l' => match range_piece a with
               | None => None
               | Some r => match range_pieces l' with
                           | None => None
                           | Some rs => Some (r ++ rs)
                           end
               end
  end.

Definition parse_range (inp : string) (avail : Z) : option (list Z) :=
  if String.eqb (py_strip inp) "all" then Some (zrange 0 avail)
  else if String.eqb (py_strip inp) "none" then Some []
  else range_pieces (py_split ","%char inp).

(** ** chunks, util.py:125-127.
    [range(0, len(l), n)]: n = 0 raises ValueError, n < 0 yields nothing. *)
Fixpoint starts (len i n : nat) (fuel : nat) : list nat :=
  match fuel with
  | O => []
  | S f => if Nat.ltb i len then i :: starts len (i + n) n f else []
  end.
Definition slice {A} (l : list A) (i j : nat) : list A := firstn (j - i) (skipn i l).
Definition chunks {A} (l : list A) (n : Z) : res (list (list A)) :=
  if Z.eqb n 0 then Err ValueError
  else if Z.ltb n 0 then Ok []
  else let k := Z.to_nat n in
       Ok (map (fun i => slice l i (i + k)) (starts (length l) 0 k (length l))).

(** ** to_dict, util.py:30-76.
    Python objects as finite trees.  [Inst cls attrs]: an object with a __dict__; each
    attribute says whether its value is callable.  [Ast o]: an object with an _ast method
    returning [o].  [Plain v]: anything else (number, string, list, array, None).
    Tables are opaque. *)
Section ToDict.
  Variables (V T : Type).
  Inductive obj :=
  | Dict (d : list (string * obj))
  | Quant (value : V) (unit : V)
  | Ast (o : obj)
  | QTab (t : T)
  | Tab (cols : list (string * V))
  | Inst (cls : V) (attrs : list (string * (bool * obj)))
  | Plain (v : V).

  Definition exported (name : string) (callable : bool) : bool :=
    negb callable && negb (starts_with "_" name) && negb (String.eqb name "name").

  (** [classkey]: the optional key under which the class name is stored; it is not passed
      on through _ast (util.py:40). *)
  Fixpoint to_dict (classkey : option string) (o : obj) {struct o} : obj :=
    match o with
    | Dict d => Dict (map (fun kv => (fst kv, to_dict classkey (snd kv))) d)
    | Quant v u => Dict [("value", Plain v); ("unit", Plain u)]
    | Ast o' => to_dict None o'
    | QTab t => Dict [("table", QTab t)]
    | Tab cols => Dict (map (fun kv => (fst kv, Dict [("value", Plain (snd kv))])) cols)
    | Inst cls attrs =>
        let data := (fix go (l : list (string * (bool * obj))) : list (string * obj) :=
                       match l with
                       | [] => []
                       | (k, (c, v)) :: l' =>
                           if exported k c then (k, to_dict classkey v) :: go l' else go l'
                       end) attrs in
        match classkey with
        | Some ck => Dict (sset ck (Plain cls) data)
        | None => Dict data
        end
    | Plain v => Plain v
    end.
End ToDict.
Arguments Dict {V T}. Arguments Quant {V T}. Arguments Ast {V T}. Arguments QTab {V T}.
Arguments Tab {V T}. Arguments Inst {V T}. Arguments Plain {V T}.
Arguments to_dict {V T}.
