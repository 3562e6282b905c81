(** Model of rebin_, the second rebinning function of exorad/utils/exolib.py (118-164).
    Grids and samples are real numbers (NaN is not modelled); numpy.interp is the linear
    interpolation of M_Signal, which is what it computes on sources of increasing wavelength. *)
From Verif Require Import Base XR M_Signal.
Open Scope list_scope.
Open Scope R_scope.

(** exolib.py:141-143: the sources strictly within 10% of the new grid; the minimum of an empty grid
    is an error *)
Definition window_ (x : list R) (src : list (R * R)) : res (list (R * R)) :=
  match x with
  | [] => Err ValueError
  | a :: l => Ok (filter (fun p => Rltb (0.9 * rmin a l) (fst p) && Rltb (fst p) (1.1 * rmax a l)) src)
  end.

(** cumulative_trapezoid(fp, x=xp) on xp[1:], exolib.py:147-148: at each source but the first the
    area under the samples up to it *)
Fixpoint accumulate (acc : R) (p : R * R) (l : list (R * R)) : list (R * R) :=
  match l with
  | [] => []
  | q :: l' => let s := acc + (fst q - fst p) * (snd q + snd p) / 2 in (fst q, s) :: accumulate s q l'
  end.
Definition cumulative (src : list (R * R)) : list (R * R) :=
  match src with [] => [] | p :: l => accumulate 0 p l end.

(** np.gradient(x), exolib.py:150: the mean of the steps on both sides, at the ends the only step *)
Definition gradient (x : list R) : list R :=
  match diffs x with
  | [] => []
  | d :: ds => d :: mids (d :: ds) ++ [last (d :: ds) 0]
  end.

(** new_f, exolib.py:151-157 *)
Definition bin_value (c : list (R * R)) (w d : R) : R :=
  (interp c (w + 0.5 * d) - interp c (w - 0.5 * d)) / d.
Fixpoint bin_values (c : list (R * R)) (x ds : list R) : list R :=
  match x, ds with
  | w :: x', d :: ds' => bin_value c w d :: bin_values c x' ds'
  | _, _ => []
  end.

(** rebin_(x, xp, fp), exolib.py:118-164; [xu], [xpu]: the units of x and xp.  The maximum or minimum
    of no differences is a ValueError. *)
Definition rebin_ (xu xpu : unit_) (x : list R) (src : list (R * R)) : res (list R * list R) :=
  if negb (same_unit xu xpu) then Err ValueError else
  let* win := window_ x src in
  match diffs (map fst win), diffs x with
  | d :: ds, e :: es =>
      if Rltb (rmax d ds) (rmin e es)
      then Ok (x, bin_values (cumulative win) x (gradient x))
      else Ok (x, map (interp win) x)
  | _, _ => Err ValueError
  end.
