(** Vocabulary of the properties of rebin_. *)
From Coq Require Import Reals List.
Import ListNotations.
Open Scope list_scope.
Open Scope R_scope.

(** the width of the bin around the i-th target: the mean of the distances to its neighbours; the
    first and the last have one neighbour *)
Definition width (xs : list R) (i : nat) : R :=
  match i with
  | O => nth 1 xs 0 - nth 0 xs 0
  | S j => if Nat.eqb (S i) (length xs) then nth i xs 0 - nth j xs 0
           else (nth (S i) xs 0 - nth j xs 0) / 2
  end.
Definition low_border (xs : list R) (i : nat) : R := nth i xs 0 - width xs i / 2.
Definition high_border (xs : list R) (i : nat) : R := nth i xs 0 + width xs i / 2.
(** the interval from [a] to [b] lies between the second and the last source *)
Definition covered (src : list (R * R)) (a b : R) : Prop :=
  exists first second rest, src = first :: second :: rest /\ fst second <= a
  /\ exists p, In p src /\ b <= fst p.
(** the area under straight lines through the samples *)
Fixpoint area (src : list (R * R)) : R :=
  match src with
  | p :: ((q :: _) as l) => (fst q - fst p) * (snd p + snd q) / 2 + area l
  | _ => 0
  end.
(** all steps of a grid are [d] *)
Definition evenly (d : R) (xs : list R) : Prop := forall i, (S i < length xs)%nat -> nth (S i) xs 0 - nth i xs 0 = d.
Definition sum (l : list R) : R := fold_right Rplus 0 l.
