(** * [async for x in program]: the AsyncIteratorObserver of observers.py:20-94 as the subscriber of a
      program of cold observables. *)
From Verif Require Export Consume Programs9.
Set Implicit Arguments.

(** observables.py:49-59, observers.py:20-94: [h] is a history of the iterator in which the calls made so far are what a run of [c] has
    come to.  A program makes its next call when the one before has returned ([in_turn]); however long the consumer makes it wait, it is
    a schedule of its parts.  Simplification: neither the consumer nor the program's tasks are cancelled. *)
Definition loops {A} (c : cold A) (h : list (@ilabel A)) (s : istate A) : Prop :=
  isteps Iterate.in_turn i_init h s /\ so_far c (i_calls s).

(** The same, when the run of the program has come to its end. *)
Definition loops_all {A} (c : cold A) (h : list (@ilabel A)) (s : istate A) : Prop :=
  isteps Iterate.in_turn i_init h s /\ makes c (i_calls s).

(** ** Specification *)

(** What the body of the loop has been run with, and what the calls of __anext__ after that have raised. *)
Definition looped {A} (s : istate A) (got : list A) (ends : list (Run.outcome A)) : Prop :=
  i_res s = map Returned got ++ ends.

(** The results of a loop over all of [vs] and [e]. *)
Definition whole_loop {A} (vs : list A) (e : ending) : list (Run.outcome A) :=
  map Returned vs ++ match loop_end e with Some x => [Raised x] | None => [] end.
