(** * merge_inner of cold observables: vocabulary.

    The model of merge_inner (Merge.v) with an environment: the outer source
    makes the calls of a given list, and a subscription to the inner observable
    [o] makes the calls of a script given by [o]; both at any time.  This is
    flat_map (transform.py:151-169: merge_inner of map), concat_map
    (transform.py:239-245), concat_seq (combine.py:160-172), merge_seq and
    merge, when their sources are cold. *)
From Verif Require Export MergeSpec.
Set Implicit Arguments.

Section Cold.
  Context {O A : Type}.

  (** The calls of the subscriptions to inner observables; those of subscription [k]. *)
  Definition icalls (h : list (mlabel O A)) : list (nat * notif A) :=
    flat_map (fun l => match l with LInner k n => [(k, n)] | _ => [] end) h.
  (** Not in the code: the calls inner source [k] makes in a history. *)
  Definition inner_calls (k : nat) (h : list (mlabel O A)) : list (notif A) :=
    map snd (filter (fun p => fst p =? k) (icalls h)).

  (** The calls a subscription to [o] makes, at any time. *)
  Variable script : O -> list (notif A).
  (** The calls the outer source makes. *)
  Variable outer : list (notif O).

  (** Outer source and inners keep to that; nothing is disposed and no subscribe_async fails. *)
  Definition follows (h : list (mlabel O A)) (s : mstate O A) : Prop :=
    (forall l, In l h -> l <> LCancel) /\ never_fails h /\ prefix (outer_calls h) outer /\
    forall k o, In (ESub k o) (m_log s) -> prefix (inner_calls k h) (script o).

  (** All have said what they have to say, and the worker has nothing left to do. *)
  Definition finished (maxc : Z) (h : list (mlabel O A)) (s : mstate O A) : Prop :=
    outer_calls h = outer /\ (forall k o, In (ESub k o) (m_log s) -> inner_calls k h = script o) /\ resting maxc s.
End Cold.

(** The elements of the first observable, then those of the second, ...; up
    to the first one that does not complete. *)
Fixpoint one_after_the_other {A} (l : list (list A * ending)) (e : ending) : list (notif A) :=
  match l with
  | [] => trace [] e
  | (vs, Completed) :: r => map OnNext vs ++ one_after_the_other r e
  | (vs, e') :: _ => trace vs e'
  end.

(** [l] consists of the elements of the lists [ls], each list in its order. *)
Definition interleaves {A} (ls : list (list A)) (l : list A) : Prop :=
  exists t : list (nat * A), map snd t = l /\ (forall p, In p t -> fst p < length ls) /\
    forall k vs, nth_error ls k = Some vs -> map snd (filter (fun p => fst p =? k) t) = vs.

(** The calls of a cold observable that produces [vs] and ends with [e]. *)
Definition script_of {A} (c : list A * ending) : list (notif A) := trace (fst c) (snd c).
