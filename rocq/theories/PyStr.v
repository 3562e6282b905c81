(** Python string built-ins used by the modelled code, on ASCII strings:
    str.strip, str.replace, str.split, str.lower, str.find, int(), float().
    (Non-ASCII characters, and the Unicode digits that int() also accepts, are not modelled.) *)
From Verif Require Import Base.
From Coq Require Export QArith.
Open Scope string_scope.
Open Scope list_scope.
Open Scope nat_scope.

Definition chars := list ascii.

(** ASCII whitespace as seen by str.strip / str.isspace: 9-13, 28-31, 32. *)
Definition is_space (c : ascii) : bool :=
  let n := nat_of_ascii c in
  (Nat.leb 9 n && Nat.leb n 13) || (Nat.leb 28 n && Nat.leb n 32).

Fixpoint lstrip (l : chars) : chars :=
  match l with
  | c :: l' => if is_space c then lstrip l' else l
  | [] => []
  end.
Definition strip_l (l : chars) : chars := rev (lstrip (rev (lstrip l))).
Definition py_strip (s : string) : string := str_of (strip_l (str_chars s)).

(** str.replace(old, new) for a non-empty [old]: leftmost, non-overlapping. *)
Fixpoint replace_go (old new : chars) (l : chars) (skip : nat) : chars :=
  match l with
  | [] => []
  | c :: l' =>
      match skip with
      | S k => replace_go old new l' k
      | O => if is_prefix old l then new ++ replace_go old new l' (length old - 1)
             else c :: replace_go old new l' 0
      end
  end.
Definition replace_l (old new l : chars) : chars := replace_go old new l 0.
Definition py_replace (old new s : string) : string :=
  str_of (replace_l (str_chars old) (str_chars new) (str_chars s)).

(** str.split(sep) for a one-character separator. *)
Fixpoint split_l (sep : ascii) (l : chars) : list chars :=
  match l with
  | [] => [[]]
  | c :: l' =>
      if Ascii.eqb c sep then [] :: split_l sep l'
      else match split_l sep l' with
           | [] => [[c]]
           | w :: ws => (c :: w) :: ws
           end
  end.
Definition py_split (sep : ascii) (s : string) : list string :=
  map str_of (split_l sep (str_chars s)).

(** str.lower *)
Definition lower_c (c : ascii) : ascii :=
  let n := nat_of_ascii c in
  if Nat.leb 65 n && Nat.leb n 90 then ascii_of_nat (n + 32) else c.
Definition py_lower (s : string) : string := str_of (map lower_c (str_chars s)).

(** str.find(c) as an option (None for -1). *)
Fixpoint find_c (c : ascii) (l : chars) : option nat :=
  match l with
  | [] => None
  | a :: l' => if Ascii.eqb a c then Some 0 else option_map S (find_c c l')
  end.

(** ** Numbers *)
Definition digit_val (c : ascii) : option Z :=
  let n := nat_of_ascii c in
  if Nat.leb 48 n && Nat.leb n 57 then Some (Z.of_nat (n - 48)) else None.

(** digit (_? digit)* : value of the digits and what is left; [acc] accumulates,
    [n] counts digits. *)
Fixpoint digits_go (l : chars) (acc : Z) (n : nat) (us : bool) : option (Z * nat * chars) :=
  (* [us]: the previous character was an underscore *)
  match l with
  | [] => if us then None else Some (acc, n, [])
  | c :: l' =>
      match digit_val c with
      | Some d => digits_go l' (acc * 10 + d)%Z (S n) false
      | None =>
          if Ascii.eqb c "_"%char
          then if us || Nat.eqb n 0 then None else digits_go l' acc n true
          else if us then None else Some (acc, n, l)
      end
  end.
(** at least one digit *)
Definition digits1 (l : chars) : option (Z * nat * chars) :=
  match digits_go l 0 0 false with
  | Some (z, S n, r) => Some (z, S n, r)
  | _ => None
  end.

Definition split_sign (l : chars) : bool * chars :=
  match l with
  | c :: l' => if Ascii.eqb c "-"%char then (true, l')
               else if Ascii.eqb c "+"%char then (false, l') else (false, l)
  | [] => (false, [])
  end.

(** int(s): surrounding whitespace, sign, decimal digits with single underscores. *)
Definition int_l (l : chars) : option Z :=
  let '(neg, r) := split_sign (strip_l l) in
  match digits1 r with
  | Some (z, _, []) => Some (if neg then (- z)%Z else z)
  | _ => None
  end.
Definition py_int (s : string) : option Z := int_l (str_chars s).

(** float(s): the exact rational denoted by the literal (binary rounding is not modelled),
    or inf/nan. *)
Inductive fl := FQ (q : Q) | FInf (neg : bool) | FNaN.

Definition pow10 (e : Z) : Q := Qpower 10 e.

Definition exponent (l : chars) : option (Z * chars) :=
  match l with
  | c :: l' =>
      if Ascii.eqb c "e"%char || Ascii.eqb c "E"%char then
        let '(neg, r) := split_sign l' in
        match digits1 r with
        | Some (z, _, r') => Some (if neg then (- z)%Z else z, r')
        | None => None
        end
      else Some (0%Z, l)
  | [] => Some (0%Z, [])
  end.

Definition dec_literal (l : chars) : option Q :=
  let '(ipart, n1, r) := match digits1 l with
                         | Some (z, n, r) => (z, n, r) | None => (0%Z, 0, l) end in
  let '(fpart, n2, r2) :=
    match r with
    | c :: r' => if Ascii.eqb c "."%char
                 then match digits1 r' with
                      | Some (z, n, r'') => (z, n, r'') | None => (0%Z, 0, r') end
                 else (0%Z, 0, r)
    | [] => (0%Z, 0, [])
    end in
  if Nat.eqb (n1 + n2) 0 then None
  else match exponent r2 with
       | Some (e, []) =>
           Some ((inject_Z ipart + inject_Z fpart * pow10 (- Z.of_nat n2)) * pow10 e)%Q
       | _ => None
       end.

Definition float_l (l : chars) : option fl :=
  let '(neg, r) := split_sign (strip_l l) in
  let w := py_lower (str_of r) in
  if String.eqb w "inf" || String.eqb w "infinity" then Some (FInf neg)
  else if String.eqb w "nan" then Some FNaN
  else match dec_literal r with
       | Some q => Some (FQ (if neg then (- q)%Q else q))
       | None => None
       end.
Definition py_float (s : string) : option fl := float_l (str_chars s).

Definition fl_eqb (a b : fl) : bool :=
  match a, b with
  | FQ p, FQ q => Qeq_bool p q
  | FInf n, FInf m => Bool.eqb n m
  | _, _ => false
  end.

(** os.path.splitext(name)[1] (POSIX): in the last path component, from the last dot on,
    unless everything before that dot is dots. *)
Fixpoint until (stop : ascii) (l : chars) : chars :=
  match l with
  | [] => []
  | c :: l' => if Ascii.eqb c stop then [] else c :: until stop l'
  end.
Fixpoint after (stop : ascii) (l : chars) : option chars :=
  match l with
  | [] => None
  | c :: l' => if Ascii.eqb c stop then Some l' else after stop l'
  end.
Definition splitext (s : string) : string :=
  let comp := until "/"%char (rev (str_chars s)) in
  match after "."%char comp with
  | None => ""
  | Some stem => if forallb (fun c => Ascii.eqb c "."%char) stem then ""
                 else str_of ("."%char :: rev (until "."%char comp))
  end.

Example splitext_ex : splitext "a/b.c/.x" = "" /\ splitext "d.e/f.tar.gz" = ".gz"
  /\ splitext "..." = "" /\ splitext "a." = "." /\ splitext "p.q/r" = "".
Proof. repeat split; reflexivity. Qed.
Example int_ex1 : py_int " -1_200 " = Some (-1200)%Z. Proof. reflexivity. Qed.
Example int_ex2 : py_int "1__2" = None. Proof. reflexivity. Qed.
Example replace_ex : py_replace "ab" "X" "aabbabc" = "aXbXc". Proof. reflexivity. Qed.
Example split_ex : py_split ","%char "1,2-3,,4" = ["1"; "2-3"; ""; "4"]. Proof. reflexivity. Qed.
Example strip_ex : py_strip "  a b
 " = "a b". Proof. reflexivity. Qed.
Example float_ex1 : match py_float "-2.50e1" with Some (FQ q) => Qeq_bool q (-25) | _ => false end = true.
Proof. reflexivity. Qed.
Example float_ex2 : py_float "1.2.3" = None /\ py_float "." = None /\ py_float "nan" = Some FNaN.
Proof. repeat split; reflexivity. Qed.
