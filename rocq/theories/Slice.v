(** * slice of streams that have not ended, or that fail (filtering.py:335-396),
    and slicing with brackets (__init__.py:85-122). *)
From Verif Require Export Ops Spec.
Set Implicit Arguments.

(** __init__.py:117-122 AsyncRx.__getitem__ with a slice key: [step or 1]. *)
Definition getslice_ {Z0 A} (is_none : A -> bool) (start stop step : option Z) : res (pipe Z0 A -> pipe Z0 A) :=
  slice_ is_none start stop (match step with Some k => if (k =? 0)%Z then 1%Z else k | None => 1%Z end).

(** ** Specification *)
(** What a slice of the stream with elements [vs] and ending [e] shows: with a
    negative start nothing is known before the source completes, ... *)
Definition slice_shown {A} (start stop : option Z) (step : Z) (vs : list A) (e : ending) : list A :=
  match start, e with
  | Some i, (Open | Failed _) => if (i <? 0)%Z then [] else py_slice start stop step vs
  | _, _ => py_slice start stop step vs
  end.
(** ... and how it ends: with a positive [stop] as soon as that many elements have
    arrived (unless [start = stop]); otherwise as the source does. *)
Definition slice_ending (start stop : option Z) (arrived : nat) (e : ending) : ending :=
  match stop with
  | Some j => if ((0 <? j) && (match start with Some i => i | None => 0 end <? j) && (j <=? Z.of_nat arrived))%Z
              then Completed else e
  | None => e
  end.
