(** * AsyncAwaitableObserver (observers.py:249-318) and run (subscription.py:17-44). *)
From Verif Require Export Source.
Set Implicit Arguments.

(** An asyncio.Future. *)
Inductive fut (A : Type) : Type :=
| FPending
| FResult (v : A)
| FExn (e : exn)
| FCancelled.
Arguments FPending {A}.
Arguments FResult {A} v.
Arguments FExn {A} e.
Arguments FCancelled {A}.

(** observers.py:257-276.  [w_last]: [_last_value], [None] while [_has_value]
    is False; [w_fut]: the observer as a future; [w_log]: the user's functions
    [_asend], [_athrow], [_aclose] called. *)
Record wstate (A : Type) : Type := WState {
  w_last : option A;
  w_stopped : bool;
  w_fut : fut A;
  w_log : list (notif A)
}.
Arguments WState {A} w_last w_stopped w_fut w_log.
Arguments w_last {A} w.
Arguments w_stopped {A} w.
Arguments w_fut {A} w.
Arguments w_log {A} w.

(** observers.py:257-276: a new AsyncAwaitableObserver. *)
Definition w_init {A} : wstate A := WState None false FPending [].

(** Future.set_result, Future.set_exception: refused if the future is done;
    Future.cancel: ignored then. *)
Definition fset {A} (x f : fut A) : fut A * option exn :=
  match f with FPending => (x, None) | _ => (f, Some InvalidState) end.
(** Future.cancel of asyncio (observers.py:249: the observer is a Future). *)
Definition fcancel {A} (f : fut A) : fut A := match f with FPending => FCancelled | _ => f end.

Section Awaitable.
  Context {A : Type}.
  (** Whether the user's function raises, as a function of its calls so far. *)
  Variable pol : policy A.

  (** The rest of a method: the user's function is awaited, unless setting the
      future has raised. *)
  Definition wcallback (s : wstate A) (n : notif A) (r : option exn) : wstate A * option exn :=
    match r with
    | Some e => (s, Some e)
    | None => (WState (w_last s) (w_stopped s) (w_fut s) (w_log s ++ [n]), pol (w_log s ++ [n]))
    end.

  (** observers.py:278-314: a call of asend, athrow or aclose. *)
  Definition wcall (s : wstate A) (n : notif A) : wstate A * option exn :=
    if w_stopped s then (s, None)                                              (* 281-283, 291-293, 303-305 *)
    else match n with
    | OnNext v => wcallback (WState (Some v) false (w_fut s) (w_log s)) n None (* 285-287 *)
    | OnError e =>                                                             (* 295-298 *)
        let (f, r) := fset (FExn e) (w_fut s) in
        wcallback (WState (w_last s) true f (w_log s)) n r
    | OnCompleted =>                                                           (* 307-313 *)
        match w_last s with
        | Some v => let (f, r) := fset (FResult v) (w_fut s) in
                    wcallback (WState (w_last s) true f (w_log s)) n r
        | None => wcallback (WState (w_last s) true (fcancel (w_fut s)) (w_log s)) n None
        end
    end.

  (** What happens to the observer: a call; dispose() (315-318); the future is
      cancelled by somebody else (a timeout of asyncio.wait_for). *)
  Inductive wlabel : Type :=
  | WCall (n : notif A)
  | WDispose
  | WCancel.

  (** observers.py:278-318, subscription.py:42-44: a call of the observer, or what run does. *)
  Definition wstep (s : wstate A) (x : wlabel) : wstate A * option exn :=
    match x with
    | WCall n => wcall s n
    | WDispose => (WState (w_last s) true (w_fut s) (w_log s), None)
    | WCancel => (WState (w_last s) (w_stopped s) (fcancel (w_fut s)) (w_log s), None)
    end.

  (** The state after [h]. *)
  Definition wrun (s : wstate A) (h : list wlabel) : wstate A := fold_left (fun s x => fst (wstep s x)) h s.
End Awaitable.
Arguments WDispose {A}.
Arguments WCancel {A}.

(** ** run(source) (subscription.py:17-44)

    [source] in front of the pipeline [p], subscribed to by an
    AsyncAwaitableObserver without functions of the user.  What the observer
    has seen determines its state: nobody else touches it before run returns. *)
Inductive outcome (A : Type) : Type :=
| Returned (v : A)
| Raised (e : exn)
| Cancelled
| TimedOut.
Arguments Returned {A} v.
Arguments Raised {A} e.
Arguments Cancelled {A}.
Arguments TimedOut {A}.

(** Awaiting a future that is done. *)
Definition await_fut {A} (f : fut A) : option (outcome A) :=
  match f with
  | FPending => None
  | FResult v => Some (Returned v)
  | FExn e => Some (Raised e)
  | FCancelled => Some Cancelled
  end.

(** Not in the code: what can happen during run (subscription.py:17-44). *)
Inductive rlabel : Type :=
| RSrc (x : slabel)      (* the source or a worker makes a step *)
| RDone                  (* the observer is done: wait_for returns (44), the subscription is disposed (42) *)
| RTimeout.              (* it is not and the time is over *)

Section Run.
  Context {Z A : Type} (src : source A) (p : pipe Z A).
  Let pol : policy Z := well_behaved.

  (** subscription.py:17-44: the source, and what run returned or raised. *)
  Record rstate : Type := RState {
    r_src : sstate A (cst (pcomp pol (src_pipe src p)));
    r_out : option (outcome Z)
  }.

  (** subscription.py:41-42: run has subscribed. *)
  Definition r_init : rstate := RState (src_init pol src p) None.
  (** observers.py:249-318: the AsyncAwaitableObserver that run made, after the calls so far. *)
  Definition r_observer (s : rstate) : wstate Z :=
    wrun well_behaved w_init (map (@WCall Z) (src_log pol src p (r_src s))).

  (** [r_src] also stands for what remains to be executed after run has returned. *)
  Definition rstep (s : rstate) (x : rlabel) : option rstate :=
    match r_out s with
    | Some _ => None
    | None =>
        match x with
        | RSrc TCancel => None                       (* nobody but run has the subscription *)
        | RSrc x => match src_step pol src p (r_src s) x with Some d => Some (RState d None) | None => None end
        | RDone =>
            match await_fut (w_fut (r_observer s)), src_step pol src p (r_src s) TCancel with
            | Some o, Some d => Some (RState d (Some o))
            | _, _ => None
            end
        | RTimeout =>
            match await_fut (w_fut (r_observer s)), src_step pol src p (r_src s) TCancel with
            | None, Some d => Some (RState d (Some TimedOut))
            | _, _ => None
            end
        end
    end.

  (** Not in the code: the states that histories lead to. *)
  Inductive rreach : list rlabel -> rstate -> Prop :=
  | rr_nil : rreach [] r_init
  | rr_snoc h x s s' : rreach h s -> rstep s x = Some s' -> rreach (h ++ [x]) s'.
End Run.
Arguments rreach {Z A} src p h s.
Arguments r_src {Z A src p} r.
Arguments r_out {Z A src p} r.

(** ** Specification *)
(** What the observer becomes for a stream of the elements [vs] and the
    ending [e]: the last element; cancelled if there is none; the error. *)
Definition last_value {A} (vs : list A) (e : ending) : fut A :=
  match e with
  | Open => FPending
  | Failed x => FExn x
  | Completed => match rev vs with v :: _ => FResult v | [] => FCancelled end
  end.
