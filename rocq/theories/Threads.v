(** * Calls that overlap.

    A hot source (subject.py:120-150) may be called by several tasks at the
    same time.  Each call runs the bodies of the observers down to the first
    mailbox inside the caller's task, so that several calls may be suspended
    inside one observer.  Here every call is a task of its own; Comp.v and
    Pipe.v treat a call as one step. *)
From Verif Require Export Ops.
Set Implicit Arguments.

(** Not in the code: a task runs until it awaits something that suspends it
    ([waits]); awaiting a coroutine that does not suspend goes on at once.  The
    third component is the rest of the task: [Read (fun _ => ...)] while it is
    suspended, [Ret] or [Raise] once it is over. *)
Fixpoint turn {S N D} (waits : N -> bool) (call : D -> N -> D * option exn) (p : prog S N) (s : S) (d : D)
  : S * D * prog S N :=
  match p with
  | Ret => (s, d, Ret)
  | Raise e => (s, d, Raise e)
  | Read k => turn waits call (k s) s d
  | Write s' k => turn waits call k s' d
  | Call n k => let (d', r) := call d n in
      if waits n then (s, d', Read (fun _ => k r)) else turn waits call (k r) s d'
  end.

(** Which awaits suspend the caller: those of the user's functions
    (e.g. transform.py:72, 465), and those of the subscriber's own observer; but
    not the methods of a safe_observer or of a mailbox, which only post
    (observers.py:190-197, filtering.py:163-164). *)
Definition waits {Z B} (r : pipe Z B) (a : act B) : bool :=
  match a with
  | Deliver _ => match r with PSafe _ _ | PMbox _ _ => false | _ => true end
  | _ => true
  end.

(** Not in the code: the task has returned or raised. *)
Definition over {S N} (p : prog S N) : bool :=
  match p with Ret | Raise _ => true | _ => false end.

(** What can happen: a new call of the observer, the [i]-th call goes on, the [k]-th worker behind goes on. *)
Inductive tlabel (M : Type) : Type :=
| TCall (m : M)
| TGo (i : nat)
| TWork (k : nat).
Arguments TCall {M} m.
Arguments TGo {M} i.
Arguments TWork {M} k.

(** Not in the code: the calls made, in the order in which they began. *)
Fixpoint issued {M} (h : list (tlabel M)) : list M :=
  match h with
  | [] => []
  | TCall m :: h' => m :: issued h'
  | _ :: h' => issued h'
  end.

(** Not in the code: the list with its [i]-th entry replaced. *)
Fixpoint replace_nth {X} (i : nat) (x : X) (l : list X) : list X :=
  match l, i with
  | [], _ => []
  | _ :: l', O => x :: l'
  | y :: l', S j => y :: replace_nth j x l'
  end.

Section Threads.
  Context {Z M B : Type} (pol : policy Z) (o : op M (act B)) (r : pipe Z B).

  (** Observer [o] in front of [r]: the variables of the observer (e.g. transform.py:459 [current]), what is behind it, and the calls of [o] begun so far. *)
  Record tstate : Type := TState {
    t_vars : st o;
    t_next : cst (act_comp (pcomp pol r));
    t_calls : list (prog (st o) (act B))
  }.

  (** Just subscribed (e.g. transform.py:458-459). *)
  Definition tinit : tstate := TState (ini o) (0, pinit pol r) [].

  (** One step: asyncio runs one task until it suspends. *)
  Definition tstep (s : tstate) (l : tlabel M) : option tstate :=
    match l with
    | TCall m =>
        let '(v, d, p) := turn (waits r) (ccall (act_comp (pcomp pol r))) (body o m) (t_vars s) (t_next s) in
        Some (TState v d (t_calls s ++ [p]))
    | TGo i =>
        match nth_error (t_calls s) i with
        | Some p =>
            if over p then None else
            let '(v, d, p') := turn (waits r) (ccall (act_comp (pcomp pol r))) p (t_vars s) (t_next s) in
            Some (TState v d (replace_nth i p' (t_calls s)))
        | None => None
        end
    | TWork k =>
        match cstep (act_comp (pcomp pol r)) k (t_next s) with
        | Some d => Some (TState (t_vars s) d (t_calls s))
        | None => None
        end
    end.

  (** The executions: any schedule of the calls and the workers. *)
  Inductive treach : list (tlabel M) -> tstate -> Prop :=
  | treach_0 : treach [] tinit
  | treach_s h s l s' : treach h s -> tstep s l = Some s' -> treach (h ++ [l]) s'.

  (** All calls of the subscriber, in the order in which they began. *)
  Definition tlog (s : tstate) : list (notif Z) := plog pol r (snd (t_next s)).

  (** Every call has returned or raised. *)
  Definition idle (s : tstate) : bool := forallb over (t_calls s).

  (** Nobody calls before the calls made so far are over. *)
  Definition one_at_a_time (h : list (tlabel M)) : Prop :=
    forall h1 m h2 s, h = h1 ++ TCall m :: h2 -> treach h1 s -> idle s = true.
End Threads.
Arguments TState {Z M B pol o r} t_vars t_next t_calls.
Arguments tinit {Z M B} pol o r.
Arguments treach {Z M B} pol o r _ _.
Arguments one_at_a_time {Z M B} pol o r h.

(** The subscriber of pipeline [p] has seen [l] after [h], the calls of the
    source being tasks of their own.  (If [p] begins with a mailbox, or is the
    subscriber itself, there is no observer in front of it: [id_op].) *)
Definition overlapping {Z A} (pol : policy Z) (p : pipe Z A) (h : list (tlabel (notif A))) (l : list (notif Z)) : Prop :=
  match p in pipe _ A return list (tlabel (notif A)) -> Prop with
  | PSync o r => fun h => exists s, treach pol o r h s /\ tlog s = l
  | r => fun h => exists s, treach pol id_op r h s /\ tlog s = l
  end h.

(** ... and nothing more can happen without further calls. *)
Definition overlapping_done {Z A} (pol : policy Z) (p : pipe Z A) (h : list (tlabel (notif A))) (l : list (notif Z)) : Prop :=
  match p in pipe _ A return list (tlabel (notif A)) -> Prop with
  | PSync o r => fun h => exists s, treach pol o r h s /\ idle s = true /\ quiet (pcomp pol r) (snd (t_next s)) /\ tlog s = l
  | r => fun h => exists s, treach pol id_op r h s /\ idle s = true /\ quiet (pcomp pol r) (snd (t_next s)) /\ tlog s = l
  end h.

(** transform.py:489-496 scan: as scan_async, but the accumulator does not suspend (493-494). *)
Definition scan_sync_op {A B} (f : B -> A -> res B) (initial : B) : op (notif A) (act B) :=
  direct initial (fun n => match n with
    | OnNext a =>
        Read (fun current =>
          match f current a with
          | Err e => awaitp (Deliver (OnError e))                (* 466-467 *)
          | Ok b => Write b (awaitp (Deliver (OnNext b)))        (* 468-471 *)
          end)
    | OnError e => awaitp (Deliver (OnError e))
    | OnCompleted => awaitp (Deliver OnCompleted)
    end).

(** transform.py:489-496 *)
Definition scan_sync_ {Z0 A B} (f : B -> A -> res B) (initial : B) (r : pipe Z0 B) : pipe Z0 A :=
  pre (scan_sync_op f initial) r.

(** transform.py:515-525 reduce *)
Definition reduce_sync_ {Z0 A B} (f : B -> A -> res B) (initial : B) (r : pipe Z0 B) : pipe Z0 A :=
  scan_sync_ f initial (take_last_ 1 r).

(** Not in the code: pipelines that contain no async function of the user
    before the first mailbox.  Behind the first operator with a mailbox
    anything may follow. *)
Inductive no_await {Z0 : Type} : forall A, pipe Z0 A -> Prop :=
| na_end : no_await PEnd
| na_map A B (f : A -> res B) r : no_await r -> no_await (map_ f r)
| na_filter A (p : A -> res bool) r : no_await r -> no_await (filter_ p r)
| na_choose A B (f : A -> res (option B)) r : no_await r -> no_await (choose_ f r)
| na_scan A B (f : B -> A -> res B) b r : no_await r -> no_await (scan_sync_ f b r)
| na_skip A n (r : pipe Z0 A) : no_await (skip_ n r)
| na_skip_last A isn n (r : pipe Z0 A) : no_await (skip_last_ isn n r)
| na_take A n opr (r : pipe Z0 A) : take_ n = Ok opr -> no_await (opr r)
| na_take_last A n (r : pipe Z0 A) : no_await (take_last_ n r)
| na_zip A B (it : iterator B) (r : pipe Z0 (A * B)) : no_await (zip_seq_ it r)
| na_distinct A eqb (r : pipe Z0 A) : no_await (distinct_until_changed_ eqb r)
| na_safe A (r : pipe Z0 A) : no_await (safe r).
Arguments no_await {Z0 A} p.

(** ** Vocabulary *)

(** The elements among some calls. *)
Fixpoint elements {A} (l : list (notif A)) : list A :=
  match l with
  | [] => []
  | OnNext a :: l' => a :: elements l'
  | _ :: l' => elements l'
  end.

(** The numbers in a list, in the order of their first occurrences. *)
Definition firsts (l : list nat) : list nat := rev (nodup Nat.eq_dec (rev l)).

(** The calls that went on, in this order. *)
Fixpoint gone {M} (h : list (tlabel M)) : list nat :=
  match h with
  | [] => []
  | TGo i :: h' => i :: gone h'
  | _ :: h' => gone h'
  end.

(** What the observer behind an async function is told, given the calls [ms]
    made and the calls [seen] that have gone on before: the answers [ans] of
    the function in the order in which its calls end, and terminals at once. *)
Fixpoint told {A B} (ans : A -> list B) (ms : list (notif A)) (seen : list nat) (h : list (tlabel (notif A)))
  : list (notif B) :=
  match h with
  | [] => []
  | TCall m :: h' =>
      (match m with OnNext _ => [] | OnError e => [OnError e] | OnCompleted => [OnCompleted] end)
      ++ told ans (ms ++ [m]) seen h'
  | TGo i :: h' =>
      (if in_dec Nat.eq_dec i seen then [] else
       match nth_error ms i with Some (OnNext a) => map OnNext (ans a) | _ => [] end)
      ++ told ans ms (i :: seen) h'
  | TWork _ :: h' => told ans ms seen h'
  end.

(** The answer of an async mapper: nothing if it raises. *)
Definition mapped {A B} (f : A -> res B) (a : A) : list B := match f a with Ok b => [b] | Err _ => [] end.
(** The answer of an async predicate: the element itself if it holds. *)
Definition kept {A} (p : A -> res bool) (a : A) : list A := match p a with Ok true => [a] | _ => [] end.
(** The answer of an async chooser. *)
Definition chosen {A B} (f : A -> res (option B)) (a : A) : list B := match f a with Ok (Some b) => [b] | _ => [] end.

(** The last element among some calls, [b] if there is none. *)
Definition last_element {A} (b : A) (l : list (notif A)) : A := last (elements l) b.
