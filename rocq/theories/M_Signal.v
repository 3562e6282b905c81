(** Model of exorad/models/signal.py and of exorad/utils/exolib.py: rebin.  Definitions only. *)
From Verif Require Import Base XR.
Open Scope list_scope.
Open Scope R_scope.

(** ** Signals *)
(** A unit: a physical dimension and a scale. *)
Record unit_ := { dim : string; scale : R }.
(** An array of any number of axes: shape and elements.  Values are real numbers. *)
Record arr := { shape : list nat; elems : list R }.
Definition ndim (a : arr) : nat := length (shape a).
(** Input data: a quantity, or something without unit (list, bare array) *)
Inductive input := Quantity (u : unit_) (a : arr) | Bare (a : arr).
Record quantity := { q_unit : unit_; q_arr : arr }.

Definition same_unit (u w : unit_) : bool :=
  String.eqb (dim u) (dim w) && if Req_EM_T (scale u) (scale w) then true else false.
(** check_quantities, signal.py:79-125.  UnitConversionError stands as TypeError (it is a
    subclass of it). *)
Definition check_quantities (q : input) (u : unit_) : res quantity :=
  match q with
  | Bare a => Ok {| q_unit := u; q_arr := a |}
  | Quantity w a =>
      if same_unit w u then Ok {| q_unit := w; q_arr := a |}
      else if String.eqb (dim w) (dim u)
           then Ok {| q_unit := u; q_arr := {| shape := shape a; elems := map (fun x => x * (scale w / scale u)) (elems a) |} |}
           else Err TypeError
  end.

Record signal := { wl_grid : quantity; data : quantity; time_grid : quantity }.
Definition qndim (q : quantity) := ndim (q_arr q).
(** q.shape[i] *)
Definition dimension (q : quantity) (i : nat) : res nat :=
  match nth_error (shape (q_arr q)) i with Some n => Ok n | None => Err IndexError end.
(** check_sizes, signal.py:127-151 *)
Definition check_sizes (s : signal) : res unit :=
  if Nat.ltb 1 (qndim (wl_grid s)) then Err ValueError
  else if Nat.ltb 1 (qndim (time_grid s)) then Err ValueError
  else if Nat.ltb 2 (qndim (data s)) then Err ValueError
  else let* d0 := dimension (data s) 0 in
       let* w0 := dimension (wl_grid s) 0 in
       if negb (Nat.eqb d0 w0) then Err ValueError
       else let* t0 := dimension (time_grid s) 0 in
            if Nat.ltb 1 t0 || Nat.ltb 1 (qndim (data s))
            then let* d1 := dimension (data s) 1 in
                 if negb (Nat.eqb d1 t0) then Err ValueError else Ok tt
            else Ok tt.
Definition micron : unit_ := {| dim := "length"; scale := 1 / 1000000 |}.
Definition hour_u : unit_ := {| dim := "time"; scale := 3600 |}.
(** CustomSignal.__init__ (194-204) with the unit of the class: Signal (dimensionless),
    Sed, Radiance, CountsPerSeconds *)
Definition build_signal (u : unit_) (wl d t : input) : res signal :=
  let* w := check_quantities wl micron in
  let* x := check_quantities d u in
  let* tm := check_quantities t hour_u in
  let s := {| wl_grid := w; data := x; time_grid := tm |} in
  let* _ := check_sizes s in Ok s.
(** time_dependent, signal.py:63-77 *)
Definition time_dependent (s : signal) : res bool :=
  if forallb (fun x => if Req_EM_T x 0 then true else false) (elems (q_arr (time_grid s)))
  then Ok false else Err NotImplementedError.

(** ** Rebinning, exolib.py:19-115, for one-dimensional samples *)
(** Grid points are numbers or NaN (None); samples are numbers; infinities are not modelled.
    The result has NaN (None) for empty bins. *)
Notation source V := (R * V)%type (only parsing).

Fixpoint rmin (a : R) (l : list R) : R := match l with [] => a | x :: l' => rmin (Rmin a x) l' end.
Fixpoint rmax (a : R) (l : list R) : R := match l with [] => a | x :: l' => rmax (Rmax a x) l' end.
Fixpoint all_numbers (l : list (option R)) : option (list R) :=
  match l with
  | [] => Some []
  | Some x :: l' => match all_numbers l' with Some r => Some (x :: r) | None => None end
  | None :: _ => None
  end.
Definition Rltb (a b : R) : bool := if Rlt_dec a b then true else false.
(** exolib.py:44-46; a NaN in the new grid makes its minimum NaN and all comparisons false *)
Definition in_window {V} (x : list (option R)) (src : list (option R * V)) : res (list (source V)) :=
  match x with
  | [] => Err ValueError                                  (* minimum of an empty array *)
  | _ => Ok match all_numbers x with
            | None | Some [] => []
            | Some (a :: l) =>
                flat_map (fun p => match fst p with
                                   | Some w => if Rltb (0.9 * rmin a l) w && Rltb w (1.1 * rmax a l)
                                               then [(w, snd p)] else []
                                   | None => []
                                   end) src
            end
  end.
(** np.delete(x, isnan), exolib.py:60-63 *)
Definition numbers (l : list (option R)) : list R :=
  flat_map (fun o => match o with Some x => [x] | None => [] end) l.

Fixpoint diffs (l : list R) : list R :=
  match l with
  | a :: ((b :: _) as l') => (b - a) :: diffs l'
  | _ => []
  end.
(** np.delete(l, np.argmin(np.diff(l))) when the minimum is 0: the first element equal to
    its successor *)
Fixpoint drop_first_dup {V} (l : list (source V)) : list (source V) :=
  match l with
  | a :: ((b :: _) as l') => if Req_EM_T (fst b - fst a) 0 then l' else a :: drop_first_dup l'
  | _ => l
  end.
(** while np.diff(xp).min() == 0, exolib.py:66-75; [fuel] bounds the number of rounds by the
    length, each round removes an element: the error for exhausted fuel is never reached *)
Fixpoint dedup {V} (fuel : nat) (l : list (source V)) : res (list (source V)) :=
  match diffs (map fst l) with
  | [] => Err ValueError
  | d :: ds => if Req_EM_T (rmin d ds) 0
               then match fuel with 0%nat => Err OtherError | S k => dedup k (drop_first_dup l) end
               else Ok l
  end.

(** bin edges, exolib.py:80-84 *)
Fixpoint mids (l : list R) : list R :=
  match l with
  | a :: ((b :: _) as l') => (0.5 * (b + a)) :: mids l'
  | _ => []
  end.
Definition edges (x : list R) : list R :=
  let m := mids x in
  let x0 := hd 0 x - (hd 0 m - hd 0 x) / 2 in
  let x1 := last x 0 + (last x 0 - last m 0) / 2 in
  x0 :: m ++ [x1].
(** scipy.stats.binned_statistic(xp, fp, bins, "mean"): bins are half open, the last one is
    closed (the tolerance for points numerically on the last edge is not modelled) *)
Definition in_bin (lo hi : R) (is_last : bool) (w : R) : bool :=
  negb (Rltb w lo) && (Rltb w hi || (is_last && if Req_EM_T w hi then true else false)).
Fixpoint rsum (l : list R) : R := match l with [] => 0 | x :: l' => x + rsum l' end.
Definition mean (l : list R) : option R :=
  match l with [] => None | _ => Some (rsum l / INR (length l)) end.
Fixpoint bins (es : list R) (src : list (source R)) : list (option R) :=
  match es with
  | a :: ((b :: rest) as es') =>
      mean (map snd (filter (fun p => in_bin a b (match rest with [] => true | _ => false end) (fst p)) src))
      :: bins es' src
  | _ => []
  end.

(** binned_statistic fails with ValueError when the smallest edge distance is zero or negative
    (int of the logarithm is NaN) *)
Definition binned (es : list R) (src : list (source R)) : res (list (option R)) :=
  match diffs es with
  | d :: ds => if Rltb 0 (rmin d ds) then Ok (bins es src) else Err ValueError
  | [] => Err ValueError
  end.

(** interp1d(assume_sorted=False, kind="linear", fill_value=0): stable sort, then numpy.interp *)
Fixpoint insert {V} (p : source V) (l : list (source V)) : list (source V) :=
  match l with
  | [] => [p]
  | q :: l' => if Rltb (fst q) (fst p) then q :: insert p l' else p :: q :: l'
  end.
Definition sort_src {V} (l : list (source V)) : list (source V) := fold_right insert [] l.
(** the last source at or before [w] and its successor *)
Fixpoint locate {V} (w : R) (l : list (source V)) : option (source V * option (source V)) :=
  match l with
  | [] => None
  | p :: l' => if Rltb w (fst p) then None
               else match locate w l' with
                    | Some r => Some r
                    | None => Some (p, match l' with [] => None | q :: _ => Some q end)
                    end
  end.
Definition interp (l : list (source R)) (w : R) : R :=
  match locate w l with
  | None => 0                                              (* before the first *)
  | Some (p, None) => if Rltb (fst p) w then 0 else snd p  (* after the last, or on it *)
  | Some (p, Some q) => (snd q - snd p) / (fst q - fst p) * (w - fst p) + snd p
  end.

(** rebin(x, xp, fp); [fu], [xu]: the units of x and xp *)
Definition rebin (xu xpu : unit_) (x : list (option R)) (src : list (option R * R)) : res (list R * list (option R)) :=
  if negb (same_unit xu xpu) then Err ValueError else
  let* win := in_window x src in
  let xs := numbers x in
  let* win := dedup (length win) win in
  let* xs' := dedup (length xs) (map (fun w => (w, tt)) xs) in
  let xs := map fst xs' in
  match diffs (map fst win), diffs xs with
  | d :: ds, e :: es =>
      if Rltb (rmax d ds) (rmin e es)
      then let* f := binned (edges xs) win in Ok (xs, f)
      else Ok (xs, map (fun w => Some (interp (sort_src win) w)) xs)
  | _, _ => Err ValueError
  end.

(** Signal.spectral_rebin, signal.py:153-160: NaN becomes 0, the grid is the one given.  For
    signals without time axis; the result is (grid, data). *)
Definition spectral_rebin (xu xpu : unit_) (new : list (option R)) (src : list (option R * R)) : res (list (option R) * list R) :=
  let* (_, f) := rebin xu xpu new src in
  Ok (new, map (fun o => match o with Some v => v | None => 0 end) f).
