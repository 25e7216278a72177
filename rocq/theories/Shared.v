(** * Several subscriptions of one observable (create.py:44-76, 161-181).

    of_seq(xs) and of_async(workflow) keep the object they were given and use
    it anew in the worker of every subscription.  This is the model of all
    subscriptions of one such observable. *)
From Verif Require Export Source.
Set Implicit Arguments.

(** A coroutine object: not awaited yet, awaited by the worker of subscription
    [i], or finished. *)
Inductive cophase : Type :=
| CoFresh
| CoRunning (i : nat)
| CoFinished.

(** The object the subscriptions share:
    - an iterable such as a list or range, [iter] of which starts anew; it
      yields [xs] and then stops or raises [e];
    - an iterator or generator, with the items [xs] left, then stopping or
      raising [e]; [iter] of it is itself, and a generator that has raised stops;
    - a coroutine object, which may be awaited once: a further [await] raises
      RuntimeError (cannot reuse already awaited coroutine; coroutine is being
      awaited already);
    - a future or task: pending, or done with the outcome ([None]: cancelled). *)
Inductive shared (A : Type) : Type :=
| HIterable (xs : list A) (e : option exn)
| HIterator (xs : list A) (e : option exn)
| HCoroutine (c : cophase)
| HFuture (o : option (option (res A))).
Arguments HIterable {A} xs e.
Arguments HIterator {A} xs e.
Arguments HCoroutine {A} c.
Arguments HFuture {A} o.

(** The worker task of a subscription: created; suspended in [await workflow]
    (create.py:68), [cancelled] if CancelledError will be thrown into it; over. *)
Inductive hphase : Type :=
| KNew
| KWaiting (cancelled : bool)
| KOver.

(** A subscription: its task, and the calls made on its safe_observer. *)
Record hsub (A : Type) : Type := HSubs { k_task : hphase; k_calls : list (notif A) }.
Arguments HSubs {A} k_task k_calls.
Arguments k_task {A} _.
Arguments k_calls {A} _.

(** What can happen: somebody subscribes (the subscriptions are numbered 0, 1,
    ...); the task of subscription [i] is started; the future is resolved, or
    the running coroutine finishes, with [r]; the task of [i] is resumed; the
    subscription [i] is disposed. *)
Inductive hlabel (A : Type) : Type :=
| HSub
| HStart (i : nat)
| HResolve (r : res A)
| HWake (i : nat)
| HCancel (i : nat).
Arguments HSub {A}.
Arguments HStart {A} i.
Arguments HResolve {A} r.
Arguments HWake {A} i.
Arguments HCancel {A} i.

(** Not in the code: the shared object, and the subscriptions so far. *)
Record hstate (A : Type) : Type := HState { h_obj : shared A; h_subs : list (hsub A) }.
Arguments HState {A} h_obj h_subs.
Arguments h_obj {A} _.
Arguments h_subs {A} _.

Section Shared.
  Context {A : Type}.

  (** Not in the code: list update. *)
  Fixpoint hput (i : nat) (u : hsub A) (l : list (hsub A)) : list (hsub A) :=
    match l, i with
    | [], _ => []
    | _ :: r, O => u :: r
    | v :: r, S j => v :: hput j u r
    end.

  (** The calls of a worker body; posting to the mailbox never raises. *)
  Definition hcalls (p : prog unit (notif A)) : list (notif A) :=
    texec (fun l n => (l ++ [n], None)) p [].

  (** The task runs [p] to its end. *)
  Definition hrun (u : hsub A) (p : prog unit (notif A)) : hsub A := HSubs KOver (k_calls u ++ hcalls p).

  (** Not in the code: no subscription yet. *)
  Definition h_init (o : shared A) : hstate A := HState o [].

  (** create.py:44-76, 161-181: one step of the subscriptions of one observable. *)
  Definition hstep (s : hstate A) (x : hlabel A) : option (hstate A) :=
    match x with
    | HSub => Some (HState (h_obj s) (h_subs s ++ [HSubs KNew []]))            (* create.py:49-54 *)
    | HStart i =>
        match nth_error (h_subs s) i with
        | Some u =>
            match k_task u with
            | KNew =>
                match h_obj s with
                | HIterable xs e => Some (HState (h_obj s) (hput i (hrun u (seq_body xs e)) (h_subs s)))
                | HIterator xs e => Some (HState (HIterator [] None) (hput i (hrun u (seq_body xs e)) (h_subs s)))
                | HCoroutine CoFresh => Some (HState (HCoroutine (CoRunning i)) (hput i (HSubs (KWaiting false) (k_calls u)) (h_subs s)))
                | HCoroutine _ =>
                    Some (HState (h_obj s) (hput i (hrun u (async_body (Some (Err RuntimeErr)))) (h_subs s)))
                | HFuture None => Some (HState (h_obj s) (hput i (HSubs (KWaiting false) (k_calls u)) (h_subs s)))
                | HFuture (Some o) => Some (HState (h_obj s) (hput i (hrun u (async_body o)) (h_subs s)))
                end
            | _ => None
            end
        | None => None
        end
    | HResolve r =>
        match h_obj s with
        | HCoroutine (CoRunning i) =>
            match nth_error (h_subs s) i with
            | Some u =>
                match k_task u with
                | KWaiting false => Some (HState (HCoroutine CoFinished) (hput i (hrun u (async_body (Some r))) (h_subs s)))
                | _ => None
                end
            | None => None
            end
        | HFuture None => Some (HState (HFuture (Some (Some r))) (h_subs s))
        | _ => None
        end
    | HWake i =>
        match nth_error (h_subs s) i with
        | Some u =>
            match k_task u, h_obj s with
            | KWaiting c, HFuture (Some o) =>
                Some (HState (h_obj s) (hput i (hrun u (async_body (if c then None else o))) (h_subs s)))
            | KWaiting true, HCoroutine _ =>                  (* CancelledError in the coroutine *)
                Some (HState (HCoroutine CoFinished) (hput i (hrun u (async_body None)) (h_subs s)))
            | _, _ => None
            end
        | None => None
        end
    | HCancel i =>                                            (* create.py:28-30: task.cancel() *)
        match nth_error (h_subs s) i with
        | Some u =>
            match k_task u, h_obj s with
            | KNew, _ => Some (HState (h_obj s) (hput i (HSubs KOver (k_calls u)) (h_subs s)))
            | KWaiting c, HFuture None =>                     (* Task.cancel cancels the future awaited *)
                Some (HState (HFuture (Some None)) (h_subs s))
            | KWaiting _, _ => Some (HState (h_obj s) (hput i (HSubs (KWaiting true) (k_calls u)) (h_subs s)))
            | KOver, _ => Some s
            end
        | None => None
        end
    end.

  (** Not in the code: the states that histories lead to. *)
  Inductive hreach (o : shared A) : list (hlabel A) -> hstate A -> Prop :=
  | hr_nil : hreach o [] (h_init o)
  | hr_snoc h x s s' : hreach o h s -> hstep s x = Some s' -> hreach o (h ++ [x]) s'.

  (** Not in the code: runs a history. *)
  Fixpoint hruns (s : hstate A) (h : list (hlabel A)) : option (hstate A) :=
    match h with
    | [] => Some s
    | x :: r => match hstep s x with Some s' => hruns s' r | None => None end
    end.

  (** ** Vocabulary for C66 *)
  (** The calls made on the safe_observer of subscription [i]. *)
  Definition requested (i : nat) (s : hstate A) : list (notif A) :=
    match nth_error (h_subs s) i with Some u => k_calls u | None => [] end.
  (** Not in the code: the task of subscription [i] is over. *)
  Definition over (i : nat) (s : hstate A) : Prop :=
    match nth_error (h_subs s) i with Some u => k_task u = KOver | None => False end.
  (** The subscriptions whose task was started, in that order. *)
  Definition starts (h : list (hlabel A)) : list nat :=
    flat_map (fun x => match x with HStart i => [i] | _ => [] end) h.
  (** The outcomes the workflow came to by itself. *)
  Definition outcomes (h : list (hlabel A)) : list (res A) :=
    flat_map (fun x => match x with HResolve r => [r] | _ => [] end) h.
  (** What iterating gives: all items, then completion, or nothing if the iterator raises. *)
  Definition iterated (xs : list A) (e : option exn) : list (notif A) :=
    trace xs (match e with Some _ => Open | None => Completed end).
  (** What awaiting gives. *)
  Definition outcome (r : res A) : list (notif A) :=
    match r with Ok v => [OnNext v; OnCompleted] | Err e => [OnError e; OnCompleted] end.
End Shared.
