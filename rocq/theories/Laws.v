(** * When two chains of operators may be exchanged for one another. *)
From Verif Require Export Ops Spec.
Set Implicit Arguments.

(** An operator as the user applies it: it turns what follows it in a pipeline
    into something that accepts the source's notifications (transform.py:43-56:
    an operator is a function of observables; here of observers, since
    subscribing passes the observer from the end of the chain to its source). *)
Definition operator (A B : Type) : Type := forall Z, pipe Z B -> pipe Z A.

(** __init__.py:302-305 and all other methods of AsyncRx, xs.f().g() or
    pipe(xs, f, g): first [f], then [g]. *)
Definition followed_by {A B C} (f : operator A B) (g : operator B C) : operator A C :=
  fun Z r => f Z (g Z r).
Infix ">>" := followed_by (at level 55, left associativity).

(** Not in the code: no operator at all. *)
Definition nothing {A} : operator A A := fun Z r => r.

(** Not in the code: whatever the source does, whatever follows in the pipeline,
    whether or not the subscriber raises, and in every schedule: the subscriber
    is told the same. *)
Definition interchangeable {A B} (f g : operator A B) : Prop :=
  forall Z (pol : policy Z) (r : pipe Z B) (ms : list (notif A)),
  behaves_like (psys pol (safe (f Z r))) ms (psys pol (safe (g Z r))) ms.

(** Not in the code: [f] makes, of the source's elements and ending, elements and
    an ending, and what follows it behaves as if these were its source. *)
Definition streamwise {A B} (f : operator A B) : Prop :=
  exists F : list A -> ending -> list B * ending,
  forall Z (pol : policy Z) (r : pipe Z B) vs e junk,
  behaves_like (psys pol (safe (f Z r))) (source_calls vs e junk)
    (psys pol (safe r)) (trace (fst (F vs e)) (snd (F vs e))).

(** filtering.py:235-261 take for a count that is not refused. *)
Definition taking {A} (n : Z) : operator A A := fun Z r =>
  match take_ n with Ok opr => opr r | Err _ => r end.

(** Not in the code: what becomes of one call, if an element becomes the elements [h]. *)
Definition each {A B} (h : A -> list B) (m : notif A) : list (notif B) :=
  match m with OnNext a => map OnNext (h a) | OnError x => [OnError x] | OnCompleted => [OnCompleted] end.

(** Not in the code: the results of [f] where it does not raise. *)
Definition returned {A B} (f : A -> res B) (vs : list A) : list B :=
  flat_map (fun v => match f v with Ok b => [b] | Err _ => [] end) vs.
