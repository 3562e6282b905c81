(** Specification of the full contributions. *)
From Coq Require Import Reals.
From Verif Require Import Base XR M_Light M_Bins M_Star M_Foreground M_Table M_Observe S_Observe S_Noise.
From Verif Require Import M_Table M_Observe.
Open Scope list_scope.

Definition reals (l : list R) : list cell := map (fun r => Num (Fin r)) l.
(** The light of each emitting element, row by row *)
Definition lights (em : emission) : list (string * list R) := map (fun e => (fst e, snd (snd e))) (by_element em).
(** In every row, the lights add up to the total. *)
Definition makes_up (n : nat) (l : list (string * list R)) (total : list R) : Prop :=
  NoDup (map fst l) /\ length total = n /\ (forall e v, In (e, v) l -> length v = n /\ forall a, In a v -> (0 <= a)%R) /\
  forall i, (i < n)%nat -> nth i total 0%R = sum_over (fun e => nth i (snd e) 0%R) l.
(** A channel whose instrument_signal is the light of its elements; these are not named after other
    columns, nor after a maximum. *)
Definition itemised (ns : list string) (em : string -> emission) (nc : string * chan) : Prop :=
  let (name, c) := nc in
  (exists total, sget "instrument_signal" (cols (h_table c)) = Some (reals total) /\ makes_up (length (c_bins (h_star c))) (lights (em name)) total) /\
  forall e v, In (e, v) (lights (em name)) -> ~ In (e ++ " signal")%string ns /\ contains "Max" (e ++ " signal") = false.
(** An observation through no sky, whose foregrounds are not named after columns *)
Definition plain_sky (ns : list string) (sx : setting * target) : Prop :=
  forall g, foregrounds_of (fst sx) (x_sky (snd sx)) = Ok g -> g_sky g = None /\ foreign ns (g_foreground g).
(** A column reporting an element of some channel *)
Definition element_column (chs : list (string * chan)) (em : string -> emission) (k : string) : Prop :=
  exists name c e v, In (name, c) chs /\ In (e, v) (lights (em name)) /\ k = (e ++ " signal")%string.
