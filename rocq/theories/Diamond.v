(** * An operator with two sources, both of which are the same AsyncSubject.

    pipe(subject.map(f), combine_latest(subject.map(g))) subscribes two
    observers to the subject (Subject.v), one behind the other; each call of the
    subject calls first the one, then the other (subject.py:122-123).  Both post
    to a mailbox (combine.py:238-242, observers.py:190-197), so they neither suspend
    nor raise.  The operators themselves are those of Ops.v. *)
From Verif Require Export Subject Ops Spec MergeSpec.
Set Implicit Arguments.

(** transform.py:95-105 map with a function that does not raise: what its observer passes on. *)
Definition renamed {A B} (f : A -> B) (n : notif A) : notif B :=
  match n with
  | OnNext a => OnNext (f a)
  | OnError x => OnError x
  | OnCompleted => OnCompleted
  end.

(** subject.py:122-123 and combine.py:238-247: the messages that the subject's observers [p] and [q] have put in,
    in their order: [p] is the observer of the source subscribed first, and puts in [m1 n] when called with [n];
    [q] is the other one.  The calls of other observers of the subject put nothing in. *)
Definition put_in {A M} (p q : nat) (m1 m2 : notif A -> M) (s : ustate A) : list M :=
  flat_map (fun e => if snd (fst e) =? p then [m1 (snd e)] else if snd (fst e) =? q then [m2 (snd e)] else []) (u_log s).

(** combine.py:246-247, 329-330: the source is subscribed first, then the other one. *)
Definition pair_in {A B C} (p q : nat) (f : A -> B) (g : A -> C) (s : ustate A) : list (either B C) :=
  put_in p q (fun n => Src (renamed f n)) (fun n => Oth (renamed g n)) s.

(** filtering.py:325-326: take_until subscribes to the other one first, then to the source. *)
Definition until_in {A B C} (p q : nat) (f : A -> B) (g : A -> C) (s : ustate A) : list (either B C) :=
  put_in p q (fun n => Oth (renamed g n)) (fun n => Src (renamed f n)) s.

(** ** Specification *)

(** Not in the code: the calls of the subject in a history, until the subject is disposed. *)
Fixpoint asked {A} (h : list (ulabel A)) : list (notif A) :=
  match h with
  | [] => []
  | UDispose :: _ => []
  | UCall n :: r => n :: asked r
  | _ :: r => asked r
  end.

(** Not in the code: [h] is a history of a subject in which a result is subscribed to whose two sources are both that subject:
    the observers [p] and [q] are subscribed, one right after the other, and [during] is what then happens, until the
    subscription to the result is disposed, if it is (composite: 249, one disposal right after the other;
    auto_detach, observers.py:226-227, does the same).  Other observers may come and go at any time. *)
Inductive both_sides {A} (p q : nat) : list (ulabel A) -> list (ulabel A) -> Prop :=
| both_on before during : u_off before = false -> u_ended before = false ->
    (forall k, In (UUnsub k) during -> k <> length (subscribers before) /\ k <> S (length (subscribers before))) ->
    both_sides p q (before ++ USub p :: USub q :: during) during
| both_left before during after : u_off before = false -> u_ended before = false ->
    (forall k, In (UUnsub k) during -> k <> length (subscribers before) /\ k <> S (length (subscribers before))) ->
    both_sides p q (before ++ USub p :: USub q :: during ++
      UUnsub (length (subscribers before)) :: UUnsub (S (length (subscribers before))) :: after) during.

(** Not in the code: the subject is called with the elements [vs], then ends as [e] says; it is called again after that or not. *)
Definition emits {A} (h : list (ulabel A)) (vs : list A) (e : ending) : Prop :=
  exists junk, asked h = trace vs e ++ junk /\ (e = Open -> junk = []).

(** Not in the code: combine_latest of the subject with itself.  Each element meets first its predecessor, then itself. *)
Fixpoint self_combined {A B C} (f : A -> B) (g : A -> C) (last : option A) (vs : list A) : list (B * C) :=
  match vs with
  | [] => []
  | v :: r => match last with Some u => [(f v, g u); (f v, g v)] | None => [(f v, g v)] end ++ self_combined f g (Some v) r
  end.

(** Not in the code: with_latest_from of the subject with itself.  Each element meets its predecessor. *)
Fixpoint self_latest {A B C} (f : A -> B) (g : A -> C) (vs : list A) : list (B * C) :=
  match vs with
  | u :: ((v :: _) as r) => (f v, g u) :: self_latest f g r
  | _ => []
  end.

(** Not in the code: the calls of merge_inner's inner observers (combine.py:69-79) in a history of Merge.v, with their keys. *)
Definition inner_calls {O A} (h : list (mlabel O A)) : list (nat * notif A) :=
  flat_map (fun x => match x with LInner k n => [(k, n)] | _ => [] end) h.

(** __init__.py:801-813 merge: the source has key 0, the other one has key 1; both are the subject.  A history of merge_inner
    in which both have been subscribed, the list of the two is at its end, and the worker waits. *)
Record merged_twice {O A} (h : list (mlabel O A)) (s : mstate O A) : Prop := MergedTwice {
  mt_reach : mreach 0 h s;
  mt_keys : keys (m_log s) = [0; 1];
  mt_outer : grammatical (outer_calls h) /\ In (LOuter OnCompleted) h;
  mt_calm : never_fails h /\ forall l, In l h -> ~ stops l;
  mt_rest : resting 0 s
}.
