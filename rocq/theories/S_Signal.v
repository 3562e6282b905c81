(** Vocabulary of the properties about signals and rebinning. *)
From Verif Require Import Base XR M_Signal.
From Coq Require Import Sorted.
Open Scope list_scope.
Open Scope R_scope.

(** the array and the unit of what a user passes in; bare numbers are in the class unit [u] *)
Definition array_of (q : input) : arr := match q with Quantity _ a => a | Bare a => a end.
Definition unit_of (q : input) (u : unit_) : unit_ := match q with Quantity w _ => w | Bare _ => u end.
(** [u] and [w] measure the same physical dimension *)
Definition convertible (w u : unit_) : Prop := dim w = dim u.
(** the physical value of a number in a unit *)
Definition physical (u : unit_) (x : R) : R := x * scale u.

(** shapes that fit together: one value per wavelength, or one per wavelength and time *)
Definition fitting (wl data time : list nat) : Prop :=
  exists n m, wl = [n] /\ time = [m] /\ ((data = [n] /\ (m <= 1)%nat) \/ data = [n; m]).

(** Numbers in order; [a] and [b] are neighbours in [l] *)
Definition increasing (l : list R) : Prop := StronglySorted Rlt l.
Definition nondecreasing (l : list R) : Prop := StronglySorted Rle l.
Definition neighbours {A} (l : list A) (a b : A) : Prop := exists l1 l2, l = l1 ++ a :: b :: l2.
Definition least (m : R) (l : list R) : Prop := In m l /\ forall y, In y l -> m <= y.
Definition greatest (m : R) (l : list R) : Prop := In m l /\ forall y, In y l -> y <= m.

Definition wls {V} (src : list (R * V)) : list R := map fst src.
(** a source given by numbers only, as an argument of rebin *)
Definition known {V} (src : list (R * V)) : list (option R * V) := map (fun p => (Some (fst p), snd p)) src.
(** the sources within 10% below the lowest and above the highest target *)
Definition visible {V} (lo hi : R) (src : list (R * V)) : list (R * V) :=
  filter (fun p => (if Rlt_dec (0.9 * lo) (fst p) then true else false)
                   && (if Rlt_dec (fst p) (1.1 * hi) then true else false)) src.
(** of neighbours with the same wavelength only the last *)
Fixpoint keep_last {V} (l : list (R * V)) : list (R * V) :=
  match l with
  | p :: ((q :: _) as l') => if Req_EM_T (fst p) (fst q) then keep_last l' else p :: keep_last l'
  | _ => l
  end.
(** every gap between sources is smaller than every step between targets *)
Definition finer {V} (src : list (R * V)) (xs : list R) : Prop :=
  forall p q a b, neighbours src p q -> neighbours xs a b -> fst q - fst p < b - a.
(** the average of some numbers *)
Definition average (l : list R) (v : R) : Prop := l <> [] /\ v * INR (length l) = fold_right Rplus 0 l.
(** the borders of the bin around the i-th target: half way to the neighbours, a quarter of the step
    beyond the first and the last target *)
Definition bin_low (xs : list R) (i : nat) : R :=
  match i with
  | O => nth 0 xs 0 - (nth 1 xs 0 - nth 0 xs 0) / 4
  | S j => (nth j xs 0 + nth i xs 0) / 2
  end.
Definition bin_high (xs : list R) (i : nat) : R :=
  if Nat.eqb (S i) (length xs)
  then nth i xs 0 + (nth i xs 0 - nth (i - 1) xs 0) / 4
  else (nth i xs 0 + nth (S i) xs 0) / 2.
(** [w] is in the bin of the i-th target: the lower border is included, the upper one for the last
    target only *)
Definition in_bin_of (xs : list R) (i : nat) (w : R) : Prop :=
  bin_low xs i <= w /\ (w < bin_high xs i \/ S i = length xs /\ w = bin_high xs i).
Definition bin_samples (xs : list R) (i : nat) (src : list (R * R)) (l : list R) : Prop :=
  exists keep, (forall p, In p src -> keep p = true <-> in_bin_of xs i (fst p)) /\ l = map snd (filter keep src).
