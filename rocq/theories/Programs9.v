(** * run of a program, and results that do not depend on the schedule: vocabulary. *)
From Coq Require Export Permutation.
From Verif Require Export Run Programs6.
Set Implicit Arguments.

(** observers.py:249-318: the AsyncAwaitableObserver that run makes, as a future, after the calls [l]. *)
Definition awaited {A} (l : list (notif A)) : fut A := w_fut (wrun well_behaved w_init (map (@WCall A) l)).

(** subscription.py:17-44 run(c): at some moment of a run that nobody else
    disposes, the observer is done, and run returns or raises what it says;
    or it is not done when the time is over. *)
Inductive run_gives {A} (c : cold A) : Run.outcome A -> Prop :=
| run_done l o : so_far c l -> await_fut (awaited l) = Some o -> run_gives c o
| run_late l : so_far c l -> await_fut (awaited l) = None -> run_gives c TimedOut.

(** ** Specification *)

(** Not in the code: [c] always completes, and produces the elements [xs], in
    an order that may depend on the schedule. *)
Definition gathers {A} (c : cold A) (xs : list A) : Prop := forall vs e, outcome c vs e -> Permutation vs xs /\ e = Completed.

(** Not in the code: the order of the elements does not matter to [f], as for sums, maxima, sets. *)
Definition order_free {A B} (f : B -> A -> B) : Prop := forall b x y, f (f b x) y = f (f b y) x.
