(** * Cold sources (aioreactive/create.py). *)
From Verif Require Export Pipe Spec.
Set Implicit Arguments.

(** Bodies of the worker coroutines given to of_async_worker; the calls go to
    the safe_observer [obv] that of_async_worker has made. *)

(** create.py:168-179 of_seq.worker: the iterable yields [xs] and then either
    stops or raises [e].  Line 171 (throw_if_cancellation_requested) is left
    out: the token is cancelled only together with the task (aiotools.start
    registers task.cancel), and nothing suspends between line 170 and 179
    because posting to a mailbox never suspends.  An infinite iterable would
    never let the event loop run again and is not modelled. *)
Definition seq_body {A} (xs : list A) (e : option exn) : prog unit (notif A) :=
  seqp (forp xs (fun x =>                                          (* 170 *)
          tryp (awaitp (OnNext x))                                 (* 174-175 *)
               (fun ex => awaitp (OnError ex))))                   (* 176-177 *)
       (match e with
        | Some e => Raise e                                        (* 170: next() raises *)
        | None => awaitp OnCompleted                               (* 179 *)
        end).

(** create.py:155-156 fail.worker. *)
Definition fail_body {A} (e : exn) : prog unit (notif A) := awaitp (OnError e).

(** create.py:67-74 of_async.worker, from the moment the workflow has an
    outcome: [Some (Ok v)] its result, [Some (Err e)] its exception, [None]
    it was cancelled (CancelledError is not an Exception: line 71 is skipped
    and line 74 is executed). *)
Definition finallyp {S N} (p q : prog S N) : prog S N :=
  bindp p (fun r => seqp q (match r with None => Ret | Some e => Raise e end)).
(** create.py:67-74 of_async.worker, from the moment the workflow has an outcome ([w], see above). *)
Definition async_body {A} (w : option (res A)) : prog unit (notif A) :=
  finallyp
    (match w with
     | Some w => tryp (match w with Ok v => awaitp (OnNext v) | Err e => Raise e end)  (* 67-70 *)
                      (fun ex => awaitp (OnError ex))                                  (* 71-72 *)
     | None => Ret
     end)
    (awaitp OnCompleted).                                          (* 73-74 *)

(** The worker of a source. *)
Inductive worker (A : Type) : Type :=
| WSeq (xs : list A) (e : option exn)       (* of_seq *)
| WFail (e : exn)                           (* fail *)
| WAsync (w : option (res A)).              (* of_async; [w]: outcome of the workflow *)
Arguments WSeq {A} xs e.
Arguments WFail {A} e.
Arguments WAsync {A} w.

(** The sources of create.py: of_async_worker (44-56), single (112-126), empty
    (129-136), never (139-145), defer (184-199; what the factory does when
    called at this subscription). *)
Inductive source (A : Type) : Type :=
| Worker (w : worker A)
| Single (v : A)
| Empty
| Never
| Defer (factory : res (source A)).
Arguments Worker {A} w.
Arguments Single {A} v.
Arguments Empty {A}.
Arguments Never {A}.
Arguments Defer {A} factory.

(** create.py:161-181 of_seq, for a list *)
Definition of_seq {A} (xs : list A) : source A := Worker (WSeq xs None).
(** create.py:161-181 of_seq, for an iterable that yields [xs] and then ends or raises *)
Definition of_iterable {A} (xs : list A) (e : option exn) : source A := Worker (WSeq xs e).
(** create.py:148-158 fail *)
Definition fail {A} (e : exn) : source A := Worker (WFail e).
(** create.py:59-76 of_async *)
Definition of_async {A} (w : option (res A)) : source A := Worker (WAsync w).

(** Which observer the source talks to: a safe_observer around the one given
    (create.py:51, 120) or that one itself (133). *)
Fixpoint src_pipe {Z A} (src : source A) (p : pipe Z A) : pipe Z A :=
  match src with
  | Worker _ | Single _ => safe p
  | Empty | Never => p
  | Defer (Ok s) => src_pipe s p                 (* 193, 197 *)
  | Defer (Err _) => safe p                      (* 194-197: fail(ex) *)
  end.

(** State of the worker task: not there, created, waiting for the workflow, over. *)
Inductive tphase (A : Type) : Type :=
| TNew (w : worker A)
| TWaiting (w : option (res A))
| TOver.
Arguments TNew {A} w.
Arguments TWaiting {A} w.
Arguments TOver {A}.

(** Not in the code: where the task of the source is (create.py:44-56), and the observer it calls. *)
Record sstate (A D : Type) : Type := SState { s_task : tphase A; s_obv : D }.
Arguments SState {A D} s_task s_obv.
Arguments s_task {A D} s.
Arguments s_obv {A D} s.

(** subscribe_async: the task it creates (create.py:53) ... *)
Fixpoint src_task {A} (src : source A) : tphase A :=
  match src with
  | Worker w => TNew w
  | Single _ | Empty | Never => TOver
  | Defer (Ok s) => src_task s
  | Defer (Err e) => TNew (WFail e)
  end.
(** ... and what it does itself. *)
Fixpoint src_body {A} (src : source A) : prog unit (notif A) :=
  match src with
  | Worker _ | Never => Ret
  | Single v => seqp (awaitp (OnNext v)) (awaitp OnCompleted)      (* 122-123 *)
  | Empty => awaitp OnCompleted                                    (* 133 *)
  | Defer (Ok s) => src_body s
  | Defer (Err _) => Ret
  end.

(** Scheduling: the task is started; the workflow it awaits is done; the
    subscription is disposed (canceller, create.py:28-30, cancels the task: one
    that has not started never runs, one that waits gets CancelledError); a
    worker behind the observer makes a step. *)
Inductive slabel : Type :=
| TStart
| TWake
| TCancel
| TPipe (k : nat).

(** Not in the code: runs a coroutine of the source that is not interrupted. *)
Definition texec {A D} (call : D -> notif A -> D * option exn) (p : prog unit (notif A)) (d : D) : D :=
  snd (fst (exec call p tt d)).

Section Src.
  Context {Z A : Type} (pol : policy Z) (src : source A) (p : pipe Z A).
  Let c := pcomp pol (src_pipe src p).

  (** create.py:48-56, 119-124, 132-135: the state after subscribe_async has returned. *)
  Definition src_init : sstate A (cst c) :=
    SState (src_task src) (texec (ccall c) (src_body src) (pinit pol (src_pipe src p))).

  (** create.py:44-56, 66-74, 155-156, 168-179: one step of the task of the source, or of the tasks of its observer. *)
  Definition src_step (s : sstate A (cst c)) (x : slabel) : option (sstate A (cst c)) :=
    match x with
    | TStart =>
        match s_task s with
        | TNew (WSeq xs e) => Some (SState TOver (texec (ccall c) (seq_body xs e) (s_obv s)))
        | TNew (WFail e) => Some (SState TOver (texec (ccall c) (fail_body e) (s_obv s)))
        | TNew (WAsync w) => Some (SState (TWaiting w) (s_obv s))
        | _ => None
        end
    | TWake =>
        match s_task s with
        | TWaiting w => Some (SState TOver (texec (ccall c) (async_body w) (s_obv s)))
        | _ => None
        end
    | TCancel =>
        match s_task s with
        | TWaiting _ => Some (SState TOver (texec (ccall c) (async_body None) (s_obv s)))
        | _ => Some (SState TOver (s_obv s))
        end
    | TPipe k =>
        match cstep c k (s_obv s) with Some d => Some (SState (s_task s) d) | None => None end
    end.

  (** [src_reach h s]: the history [h] since the subscription leads to [s]. *)
  Inductive src_reach : list slabel -> sstate A (cst c) -> Prop :=
  | sr_nil : src_reach [] src_init
  | sr_snoc h x s s' : src_reach h s -> src_step s x = Some s' -> src_reach (h ++ [x]) s'.

  (** What the subscriber has seen. *)
  Definition src_log (s : sstate A (cst c)) : list (notif Z) := plog pol (src_pipe src p) (s_obv s).

  (** Nothing can happen any more (but a disposal). *)
  Definition src_done (s : sstate A (cst c)) : Prop := forall x, x <> TCancel -> src_step s x = None.

  (** ** Specification *)
  (** As long as the subscription is not disposed: some execution comes to an
      end, every one that does has shown the subscriber exactly [l], and at
      every moment they have seen a prefix of [l]. *)
  Definition source_delivers (l : list (notif Z)) : Prop :=
    (exists h s, src_reach h s /\ ~ In TCancel h /\ src_done s) /\
    (forall h s, src_reach h s -> ~ In TCancel h -> src_done s -> src_log s = l) /\
    (forall h s, src_reach h s -> ~ In TCancel h -> prefix (src_log s) l).
End Src.
Arguments src_reach {Z A} pol src p h s.
Arguments source_delivers {Z A} pol src p l.
