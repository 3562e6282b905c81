(** Vocabulary of the properties about point spread functions. *)
From Verif Require Import Base XR M_Signal M_Optics M_Light M_Bins M_Psf S_Signal S_Optics S_Light S_Bins.
Open Scope list_scope.
Open Scope R_scope.

(** An image of [h] rows and [w] columns, its samples, its light *)
Definition rectangular (h w : nat) (im : image) : Prop := length im = h /\ forall r, In r im -> length r = w.
Definition entry (im : image) (i j : nat) : R := nth j (nth i im []) 0.
Definition light (im : image) : R := total (map total im).
Definition dark_nowhere (im : image) : Prop := forall r x, In r im -> In x r -> 0 <= x.
(** the share of the [i]-th of [n] samples in a pixel along one axis: all of it, but at both ends
    half of the fraction [f] *)
Definition share (n : nat) (f : R) (i : nat) : R := if Nat.eqb i 0 then f / 2 else if Nat.eqb i (n - 1) then f / 2 else 1.
(** [k] samples: [n] whole ones and a fraction *)
Definition whole_and_fraction (k : R) (n : nat) (f : R) : Prop := k = INR n + f /\ 0 <= f < 1.
(** one bright sample *)
Definition point_image (h w r c : nat) (s : R) (im : image) : Prop :=
  rectangular h w im /\ (r < h)%nat /\ (c < w)%nat /\ forall i j, entry im i j = if Nat.eqb i r && Nat.eqb j c then s else 0.
(** the columns of an image, summed *)
Definition column_light (im : image) (j : nat) : R := total (map (fun r => nth j r 0) im).
(** nearest element of a list: none is nearer, none before it is as near *)
Definition nearest (v : R) (l : list R) (i : nat) : Prop :=
  (i < length l)%nat /\ forall j, (j < length l)%nat -> Rabs (at_ i l - v) <= Rabs (at_ j l - v) /\ ((j < i)%nat -> Rabs (at_ i l - v) < Rabs (at_ j l - v)).
(** [y] lies on the straight line through (x0, y0) and (x1, y1) at [x] *)
Definition on_line (x0 y0 x1 y1 x y : R) : Prop := (y - y0) * (x1 - x0) = (y1 - y0) * (x - x0).
(** linear combination of images of the same shape *)
Definition mixed (k l : R) (a b c : image) : Prop := forall i j, entry c i j = k * entry a i j + l * entry b i j.
