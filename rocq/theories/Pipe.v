(** * Pipelines of operators. *)
From Verif Require Export Comp.
Set Implicit Arguments.

(** What an operator body awaits: delivering a notification to the next
    observer, disposing the subscription it was given, or a coroutine of the
    user (an async mapper, predicate, ...), which only suspends. *)
Inductive act (A : Type) : Type :=
| Deliver (n : notif A)
| Dispose
| Await.
Arguments Deliver {A} n.
Arguments Dispose {A}.
Arguments Await {A}.

(** Observer [o2] called directly by [o1]. *)
Definition inline {M B C} (o1 : op M (act B)) (o2 : op (notif B) (act C)) : op M (act C) :=
  Op (ini o1, ini o2)
     (fun m => inlinep (fun a => match a with
                                 | Deliver n => body o2 n
                                 | Dispose => awaitp Dispose
                                 | Await => awaitp Await
                                 end) (body o1 m))
     (fun s => live o1 (fst s)).

(** A component of notifications as the target of [act]s; counts disposals. *)
Definition act_comp {A} (c : comp (notif A)) : comp (act A) :=
  Comp (cst := nat * cst c)
    (fun nd a => match a with
                 | Deliver n => let (d', r) := ccall c (snd nd) n in ((fst nd, d'), r)
                 | Dispose => ((S (fst nd), snd nd), None)
                 | Await => (nd, None)
                 end)
    (fun k nd => match cstep c k (snd nd) with Some d' => Some (fst nd, d') | None => None end).

(** The subscriber: logs every call; [pol] says, as a function of all calls so
    far (the last one being the current), whether this call raises. *)
Definition policy (A : Type) := list (notif A) -> option exn.
(** A user's observer that never raises. *)
Definition well_behaved {A} : policy A := fun _ => None.

(** The user's observer (observers.py:97-128 with the user's functions): it records its calls and raises as [pol] says. *)
Definition sink {A} (pol : policy A) : comp (notif A) :=
  user_comp (fun (l : list (notif A)) n => (l ++ [n], pol (l ++ [n]))).

(** observers.py:151-199 safe_observer, the worker (167-186).
    State: [true] once [running = False]. *)
Definition safe_op {A} : op (notif A) (act A) :=
  Op false
     (fun m => match m with
       | OnNext a =>                                   (* 171-176 *)
           tryp (awaitp (Deliver (OnNext a)))
                (fun e => seqp (awaitp (Deliver (OnError e))) (Write true Ret))
       | OnError e =>                                  (* 177-180 *)
           seqp (awaitp Dispose) (seqp (awaitp (Deliver (OnError e))) (Write true Ret))
       | OnCompleted =>                                (* 181-184 *)
           seqp (awaitp Dispose) (seqp (awaitp (Deliver OnCompleted)) (Write true Ret))
       end)
     negb.                                             (* 169 while running *)

(** Pipelines accepting notifications of [A]s, with a subscriber of [Z]s,
    from the source's side to the subscriber.
    [PEnd]: the subscriber's own observer.
    [PSafe o r]: a safe_observer worker calling the observer [o] directly
    (chains of direct observers are one [o] via [inline]), which calls [r].
    [PMbox o r]: a MailboxProcessor whose loop body is [o], calling [r].
    [PSync o r]: observer [o] without any mailbox in front, calling [r]. *)
Inductive pipe (Z : Type) : Type -> Type :=
| PEnd : pipe Z Z
| PSafe A B (o : op (notif A) (act B)) (r : pipe Z B) : pipe Z A
| PMbox A B (o : op (notif A) (act B)) (r : pipe Z B) : pipe Z A
| PSync A B (o : op (notif A) (act B)) (r : pipe Z B) : pipe Z A.
Arguments PEnd {Z}.
Arguments PSafe {Z A B} o r.
Arguments PMbox {Z A B} o r.
Arguments PSync {Z A B} o r.

(** What subscribe_async of a chain of operators builds (e.g. transform.py:48-56 on filtering.py:189-206): observers nested in one another, from the source side to the user's. *)
Fixpoint pcomp {Z A} (pol : policy Z) (p : pipe Z A) : comp (notif A) :=
  match p in pipe _ A return comp (notif A) with
  | PEnd => sink pol
  | PSafe o r => agent_comp (inline safe_op o) (act_comp (pcomp pol r))
  | PMbox o r => agent_comp o (act_comp (pcomp pol r))
  | PSync o r => sync_comp o (act_comp (pcomp pol r))
  end.

(** State just after subscribing: empty queues, initial closures, nothing seen. *)
Fixpoint pinit {Z A} (pol : policy Z) (p : pipe Z A) : cst (pcomp pol p) :=
  match p in pipe _ A return cst (pcomp pol p) with
  | PEnd => []
  | PSafe o r => (Agent [] (ini (inline safe_op o)) Idle, (0, pinit pol r))
  | PMbox o r => (Agent [] (ini o) Idle, (0, pinit pol r))
  | PSync o r => (ini o, (0, pinit pol r))
  end.

(** All calls received by the subscriber, in order. *)
Fixpoint plog {Z A} (pol : policy Z) (p : pipe Z A) : cst (pcomp pol p) -> list (notif Z) :=
  match p in pipe _ A return cst (pcomp pol p) -> list (notif Z) with
  | PEnd => fun l => l
  | PSafe o r => fun s => plog pol r (snd (snd s))
  | PMbox o r => fun s => plog pol r (snd (snd s))
  | PSync o r => fun s => plog pol r (snd (snd s))
  end.

(** A subscribed pipeline: accepts messages [M], is observed through the log. *)
Record system (Z M : Type) : Type := System {
  sc : comp M;
  s0 : cst sc;
  slog : cst sc -> list (notif Z)
}.
Arguments sc {Z M} s.
Arguments s0 {Z M} s.
Arguments slog {Z M} s x.

(** Not in the code: a pipeline together with its initial state and what the user's observer has recorded. *)
Definition psys {Z A} (pol : policy Z) (p : pipe Z A) : system Z (notif A) :=
  System (pcomp pol p) (pinit pol p) (plog pol p).

(** A worker fed by several sources (messages [M]) in front of a pipeline. *)
Definition msys {Z M B} (pol : policy Z) (o : op M (act B)) (r : pipe Z B) : system Z M :=
  System (agent_comp o (act_comp (pcomp pol r)))
         (Agent [] (ini o) Idle, (0, pinit pol r))
         (fun s => plog pol r (snd (snd s))).

(** Direct observers fed by several sources in front of a pipeline. *)
Definition ssys {Z M B} (pol : policy Z) (o : op M (act B)) (r : pipe Z B) : system Z M :=
  System (sync_comp o (act_comp (pcomp pol r)))
         (ini o, (0, pinit pol r))
         (fun s => plog pol r (snd (snd s))).

(** The subscriber has seen [l] after some execution in which the sources made
    the calls [ms]. *)
Definition sees {Z M} (S : system Z M) (ms : list M) (l : list (notif Z)) : Prop :=
  exists s, run (sc S) (s0 S) ms s /\ slog S s = l.

(** ... and nothing more can happen without further calls of the sources. *)
Definition finally {Z M} (S : system Z M) (ms : list M) (l : list (notif Z)) : Prop :=
  exists s, run (sc S) (s0 S) ms s /\ quiet (sc S) s /\ slog S s = l.

(** Direct observers. *)
Definition direct (M B : Type) (S : Type) (s0 : S) (b : M -> prog S (act B)) : op M (act B) :=
  Op s0 b (fun _ => true).

(** An observer that passes every call on (observers.py:173-183: safe_observer calls obv directly). *)
Definition id_op {A} : op (notif A) (act A) := direct tt (fun n => awaitp (Deliver n)).

(** Putting a direct observer, or a safe_observer, in front of a pipeline.
    Adjacent direct observers are inlined, so that every await of the combined
    body is a separate scheduling point. *)
Definition pre {Z A B} (o : op (notif A) (act B)) (r : pipe Z B) : pipe Z A :=
  match r in pipe _ B return op (notif A) (act B) -> pipe Z A with
  | PSync o2 r2 => fun o => PSync (inline o o2) r2
  | r' => fun o => PSync o r'
  end o.

(** observers.py:151-199 safe_observer around an observer. *)
Definition safe {Z A} (r : pipe Z A) : pipe Z A :=
  match r in pipe _ A return pipe Z A with
  | PSync o r' => PSafe o r'
  | r' => PSafe id_op r'
  end.

(** In every schedule the subscriber gets exactly [l]: some execution is
    complete, every complete one ends with [l], and at every moment of every
    execution a prefix of [l] has been received. *)
Definition delivers {Z M} (S : system Z M) (ms : list M) (l : list (notif Z)) : Prop :=
  finally S ms l /\
  (forall l', finally S ms l' -> l' = l) /\
  (forall l', sees S ms l' -> prefix l' l).

(** [S] with input [ms] behaves, for the subscriber, like [T] with input [ms']. *)
Definition behaves_like {Z M N} (S : system Z M) (ms : list M) (T : system Z N) (ms' : list N) : Prop :=
  forall l, delivers S ms l <-> delivers T ms' l.

(** ** An observer of the user with suspension points.

    The user's [asend]/[athrow]/[aclose] are coroutines: [react] gives, for
    the user's state and the notification, the next state, how often the
    coroutine suspends, and whether it finally raises.  The log shows where
    each call begins and ends. *)
Inductive event (A : Type) : Type :=
| Begin (n : notif A)
| End (n : notif A).
Arguments Begin {A} n.
Arguments End {A} n.

(** observers.py:121-128: a user's observer whose functions await some times before they return or raise. *)
Definition user_op {A S} (react : S -> notif A -> S * nat * option exn) (u0 : S) : op (notif A) (act (event A)) :=
  direct u0 (fun n => Read (fun u =>
    let '(u', k, r) := react u n in
    Write u'
      (seqp (awaitp (Deliver (OnNext (Begin n))))
      (seqp (forp (repeat tt k) (fun _ => awaitp Await))
      (seqp (awaitp (Deliver (OnNext (End n))))
            (match r with Some e => Raise e | None => Ret end)))))).

(** The user's observer behind a safe_observer. *)
Definition guarded {A S} (react : S -> notif A -> S * nat * option exn) (u0 : S) : system (event A) (notif A) :=
  psys well_behaved (safe (pre (user_op react u0) PEnd)).

(** safe_observer with an observer and a disposable that record what is done
    with them, in order; [out] says which of these actions raise. *)
Definition recorder {A} (out : list (act A) -> option exn) : comp (act A) :=
  user_comp (fun (l : list (act A)) a => (l ++ [a], out (l ++ [a]))).
(** observers.py:151-199: safe_observer around an arbitrary observer, with the calls it makes recorded. *)
Definition recorded {A} (out : list (act A) -> option exn) : comp (notif A) :=
  agent_comp safe_op (recorder out).
(** observers.py:186-188: its initial state, an empty mailbox and a worker that has not seen a terminal. *)
Definition recorded0 {A} (out : list (act A) -> option exn) : cst (recorded out) := (Agent [] false Idle, []).

(** Pipelines whose last stage before the subscriber is a safe_observer. *)
Inductive ends_guarded {Z} : forall {A}, pipe Z A -> Prop :=
| eg_last : ends_guarded (safe PEnd)
| eg_safe A B (o : op (notif A) (act B)) r : ends_guarded r -> ends_guarded (PSafe o r)
| eg_mbox A B (o : op (notif A) (act B)) r : ends_guarded r -> ends_guarded (PMbox o r)
| eg_sync A B (o : op (notif A) (act B)) r : ends_guarded r -> ends_guarded (PSync o r).
