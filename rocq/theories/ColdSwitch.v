(** * switch_latest of cold observables: vocabulary.

    The model of switch_latest (Switch.v) with the environment of Cold.v: the
    outer source makes the calls of a given list, and a subscription to the
    inner observable [o] makes the calls of a script given by [o], or a
    beginning of them, if it is disposed before.  This is flat_map_latest too
    (transform.py:366-382: switch_latest of map). *)
From Verif Require Export Cold Switch.
Set Implicit Arguments.

Section ColdSwitch.
  Context {O A : Type}.

  (** Not in the code: the elements that the subscription number [k] has sent. *)
  Definition heard (k : nat) (h : list (mlabel O A)) : list A :=
    map snd (filter (fun p => fst p =? k) (sends h)).

  (** The calls a subscription to [o] makes, at any time. *)
  Variable script : O -> list (notif A).
  (** The calls the outer source makes. *)
  Variable outer : list (notif O).

  (** Not in the code: outer source and inners keep to that; switch_latest is not
      disposed and no subscribe_async or dispose_async fails. *)
  Definition sfollows (h : list (mlabel O A)) (s : sstate O A) : Prop :=
    (forall l, In l h -> l <> LCancel) /\ never_fails h /\ prefix (outer_calls h) outer /\
    forall k o, In (ESub k o) (w_log s) -> prefix (inner_calls k h) (script o).

  (** Not in the code: all that are not disposed have said what they have to say,
      and the worker has nothing left to do. *)
  Definition sfinished (h : list (mlabel O A)) (s : sstate O A) : Prop :=
    outer_calls h = outer /\
    (forall k o, In (ESub k o) (w_log s) -> ~ In k (disposed (w_log s)) -> inner_calls k h = script o) /\
    sresting s.
End ColdSwitch.
