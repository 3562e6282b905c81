(** Specification vocabulary for observing a target list and saving it. *)
From Verif Require Import Base Dict M_Hdf5 S_Hdf5 M_Pipeline.
Open Scope list_scope.

Section Spec.
  Context {Tgt Ch : Type} (name : Tgt -> string) (observe : Ch -> Tgt -> Ch * res Tgt)
          (plotting : Tgt -> res unit).

  (** The channels as left behind by observing [ts] one after the other. *)
  Fixpoint channels_after (ch : Ch) (ts : list Tgt) : Ch :=
    match ts with
    | [] => ch
    | t :: ts' => channels_after (fst (observe ch t)) ts'
    end.

  (** Observing [t] with channels [ch] succeeds with result [t'] *)
  Definition succeeds (plot : bool) (ch : Ch) (t t' : Tgt) : Prop :=
    snd (observe ch t) = Ok t' /\ (plot = true -> plotting t' = Ok tt).

  (** The [i]-th target of the list, observed with the channels its predecessors left,
      succeeds with [t']. *)
  Definition ith_succeeds (plot : bool) (ch : Ch) (ts : list Tgt) (i : nat) (t' : Tgt) : Prop :=
    exists t, nth_error ts i = Some t /\ succeeds plot (channels_after ch (firstn i ts)) t t'.

  Definition ith_fails (plot : bool) (ch : Ch) (ts : list Tgt) (i : nat) : Prop :=
    i < length ts /\ forall t', ~ ith_succeeds plot ch ts i t'.
End Spec.

(** the object at a path of a possibly missing file; what was in the file is still there *)
Definition file_at {V} (p : list string) (f : option (list (string * h5 V))) : option (h5 V) :=
  match f with Some x => at_ p (G x) | None => None end.
Definition okeeps {V} (a b : option (list (string * h5 V))) : Prop :=
  match a with Some x => exists y, b = Some y /\ keeps (G x) (G y) | None => True end.
