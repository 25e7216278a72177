(** * Operators that are made once and used several times: slice (filtering.py:335-396),
    whose function changes the variable [start] of the operator, and zip_seq
    (combine.py:336-367) with an iterator, which all subscriptions take from. *)
From Verif Require Export Laws.
Set Implicit Arguments.

(** ** slice *)

(** filtering.py:376-378: what the variable [start] of the operator is after the operator
    was applied to a source. *)
Definition start_after (stop start : option Z) : option Z :=
  match stop with
  | Some j => if (0 <? j)%Z then Some (match start with Some i => i | None => 0%Z end) else start
  | None => start
  end.

(** filtering.py:335-396 slice: what applying the operator to a source does, if it was
    applied to [n] sources before. *)
Definition nth_use {Z0 A} (is_none : A -> bool) (start stop : option Z) (step : Z) (n : nat) : res (pipe Z0 A -> pipe Z0 A) :=
  slice_ is_none (Nat.iter n (start_after stop) start) stop step.

(** ** zip_seq with an iterator *)

(** combine.py:340-342, observers.py:190-197: what the observer of zip_seq passes to its safe_observer is
    posted to a mailbox; the call does not suspend. *)
Definition posting {B} (l : list (notif B)) (a : act B) : list (notif B) * option exn :=
  match a with Deliver n => (l ++ [n], None) | _ => (l, None) end.

(** combine.py:343-360: several subscriptions of zip_seq(it), of the same or of different sources,
    where [it] is an iterator: iter(it) is [it], so that all observers take from it.  [h]: which
    observer is called with what, in order.  [i]: how often [next] was called.  The
    result: what is posted to which safe_observer. *)
Fixpoint posts {A B} (it : iterator B) (i : nat) (h : list (nat * notif A)) : list (nat * notif (A * B)) :=
  match h with
  | [] => []
  | (k, n) :: h' =>
      let '(i', l, _) := exec posting (body (zip_op it) n) i [] in map (pair k) l ++ posts it i' h'
  end.

(** Not in the code: the entries of the subscription [k]. *)
Definition of_sub {M} (k : nat) (h : list (nat * M)) : list M := map snd (filter (fun c => fst c =? k) h).

(** ** Specification *)

(** Not in the code: the elements among the calls, whoever is called. *)
Fixpoint elements {A} (h : list (nat * notif A)) : list (nat * A) :=
  match h with
  | [] => []
  | (k, OnNext a) :: r => (k, a) :: elements r
  | _ :: r => elements r
  end.
(** Not in the code: at which places of this list (counted from [j]) the subscription [k] is. *)
Fixpoint places_from {A} (k j : nat) (l : list (nat * A)) : list nat :=
  match l with
  | [] => []
  | (m, _) :: r => (if m =? k then [j] else []) ++ places_from k (S j) r
  end.
(** Not in the code: ... counted from 0. *)
Definition places {A} (k : nat) (h : list (nat * notif A)) : list nat := places_from k 0 (elements h).
(** Not in the code: the iterator of which the subscription [k] sees the items: those at its places. *)
Definition its_items {A B} (it : iterator B) (k : nat) (h : list (nat * notif A)) : iterator B :=
  fun i => it (nth i (places k h) 0).

(** Not in the code: the iterator over a list. *)
Definition over {B} (bs : list B) : iterator B :=
  fun i => match nth_error bs i with Some b => Item b | None => IStop end.
