(** * Operators of two observables in programs: vocabulary. *)
From Verif Require Export Programs2.
Set Implicit Arguments.

(** combine.py:174-251 combine_latest(other)(source) *)
Definition combine_latest_of {A B} (c : cold A) (d : cold B) : cold (A * B) := Pair (PCombine A B) c d.
(** combine.py:254-333 with_latest_from(other)(source) *)
Definition with_latest_from_of {A B} (c : cold A) (d : cold B) : cold (A * B) := Pair (PWith A B) c d.
(** filtering.py:302-332 take_until(other)(source) *)
Definition take_until_of {A B} (c : cold A) (d : cold B) : cold A := Pair (PUntil A B) c d.

(** Not in the code: the ending of the first of two to end. *)
Definition ends_first (da db e : ending) : Prop := match e with Open => da = Open /\ db = Open | _ => da = e \/ db = e end.
