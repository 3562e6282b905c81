(** Specifications for exorad/utils/util.py, independent of M_Util's functions. *)
From Verif Require Import Base PyStr M_Util.

(** ** Range expressions *)
Definition is_digit (c : ascii) : bool :=
  Nat.leb 48 (nat_of_ascii c) && Nat.leb (nat_of_ascii c) 57.
(** A decimal numeral with optional blanks around it, as written by a user. *)
Record numeral := { n_before : chars; n_digits : chars; n_after : chars }.
Definition numeral_ok (n : numeral) : Prop :=
  n_digits n <> [] /\ forallb is_digit (n_digits n) = true /\
  forallb is_space (n_before n) = true /\ forallb is_space (n_after n) = true.
Definition numeral_text (n : numeral) : chars := n_before n ++ n_digits n ++ n_after n.
Definition numeral_value (n : numeral) : Z :=
  fold_left (fun acc c => acc * 10 + (Z.of_nat (nat_of_ascii c) - 48))%Z (n_digits n) 0%Z.

Inductive item := Single (n : numeral) | Between (a b : numeral).
Definition item_ok (i : item) : Prop :=
  match i with Single n => numeral_ok n | Between a b => numeral_ok a /\ numeral_ok b end.
Definition item_text (i : item) : chars :=
  match i with
  | Single n => numeral_text n
  | Between a b => numeral_text a ++ "-"%char :: numeral_text b
  end.
(** the integers from a to b, both included, in increasing order *)
Definition interval (a b : Z) : list Z :=
  map (fun i => a + Z.of_nat i)%Z (seq 0 (Z.to_nat (b - a + 1))).
Definition item_values (i : item) : list Z :=
  match i with
  | Single n => [numeral_value n]
  | Between a b => interval (numeral_value a) (numeral_value b)
  end.
Fixpoint items_text (l : list item) : chars :=
  match l with
  | [] => []
  | [i] => item_text i
  | i :: l' => item_text i ++ ","%char :: items_text l'
  end.

(** ** Public data of an object *)
Section Obj.
  Context {V T : Type}.
  Notation obj := (obj V T).

  (** One step into an object by a name: a key of a dict, or a public non-callable
      attribute other than [name] of an instance. *)
  Definition public (k : string) : Prop :=
    k <> "name" /\ match k with String "_"%char _ => False | _ => True end.
  Inductive step : obj -> string -> obj -> Prop :=
  | St_dict d k v : In (k, v) d -> step (Dict d) k v
  | St_inst c attrs k v : In (k, (false, v)) attrs -> public k -> step (Inst c attrs) k v
  | St_ast o k v : step o k v -> step (Ast o) k v.

  (** Reaching by a path of names. *)
  Inductive reach : obj -> list string -> obj -> Prop :=
  | R_here o : reach o [] o
  | R_step o k o' p o'' : step o k o' -> reach o' p o'' -> reach o (k :: p) o''.

  (** What a node of the object exports under further names: plain data, the two parts of a
      quantity, a table. *)
  Inductive exports : obj -> list string -> obj -> Prop :=
  | E_plain v : exports (Plain v) [] (Plain v)
  | E_value v u : exports (Quant v u) ["value"] (Plain v)
  | E_unit v u : exports (Quant v u) ["unit"] (Plain u)
  | E_qtab t : exports (QTab t) ["table"] (QTab t)
  | E_col cols k v : In (k, v) cols -> exports (Tab cols) [k; "value"] (Plain v)
  | E_ast o p v : exports o p v -> exports (Ast o) p v.

  (** leaves: anything that is not a dictionary *)
  Definition leaf (o : obj) : Prop := match o with Dict _ => False | _ => True end.

  (** no two entries with the same name at any level *)
  Fixpoint tables_free (o : obj) : bool :=
    match o with
    | Dict d => forallb (fun kv => tables_free (snd kv)) d
    | Ast o => tables_free o
    | QTab _ => false
    | Inst _ attrs => forallb (fun kv => tables_free (snd (snd kv))) attrs
    | _ => true
    end.
End Obj.
