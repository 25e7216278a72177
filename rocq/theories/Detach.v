(** * auto_detach_observer (observers.py:202-246), with the safe_observer in it (151-199).

    Two workers: the one of safe_observer, which calls the observer, and the
    one that keeps the upstream subscriptions.  Each handles one message at a
    time; a call of the observer or of a subscription's dispose_async is one
    step here, since nothing else happens to the state of either worker
    meanwhile. *)
From Verif Require Export Base.
Set Implicit Arguments.

(** What a mailbox does once its token is cancelled (the Expression library):
    [Stops]: its worker is cancelled, and messages are not delivered any more
    (this is what the library does); [GoesOn]: nothing. *)
Inductive library : Type := Stops | GoesOn.

(** Messages of the second worker (msg.py): a subscription (a number here), or dispose. *)
Inductive dmsg : Type := Register (d : nat) | DisposeAll.

(** Where it stands: not started; waiting in [receive]; disposing; ended. *)
Inductive keeper : Type :=
| KFresh
| KWaits
| KDisposes (ds : list nat)
| KOver.

(** [d_inbox], [d_running], [d_calls]: the mailbox of safe_observer, whether its
    loop goes on, the calls of the observer; [d_mail], [d_keeper], [d_held]: the
    mailbox of the second worker, its place, its list [disposables]; [d_token]:
    the token is cancelled; [d_registered]: the subscriptions that went through
    auto_detach; [d_disposed]: the calls of dispose_async on subscriptions. *)
Record dstate (A : Type) : Type := DState {
  d_inbox : list (notif A);
  d_running : bool;
  d_calls : list (notif A);
  d_mail : list dmsg;
  d_keeper : keeper;
  d_held : list nat;
  d_token : bool;
  d_registered : list nat;
  d_disposed : list nat
}.
Arguments DState {A} d_inbox d_running d_calls d_mail d_keeper d_held d_token d_registered d_disposed.

(** observers.py:188, 208-231: the state after auto_detach_observer has started its worker. *)
Definition d_init {A} : dstate A := DState [] true [] [] KFresh [] false [] [].

Section Detach.
  Context {A : Type}.
  Variable lib : library.

  (** Not in the code: what can happen (observers.py:151-246). *)
  Inductive dlabel : Type :=
  | DPost (n : notif A)              (* a call of the observer returned (190-197) *)
  | DSafe (r : option exn)           (* the worker of safe_observer handles a message; the observer's call raises or not *)
  | DRegister (d : nat)              (* auto_detach has a subscription (241-244) *)
  | DKeeper (r : option exn).        (* the second worker goes on; a dispose_async raises or not *)

  (** 233-235 cancel. *)
  Definition cancel_ (s : dstate A) : dstate A :=
    DState (d_inbox s) (d_running s) (d_calls s) (d_mail s ++ [DisposeAll])
      (match lib with Stops => KOver | GoesOn => d_keeper s end) (d_held s) true (d_registered s) (d_disposed s).

  (** The observer is called. *)
  Definition call_ (s : dstate A) (running : bool) (ns : list (notif A)) : dstate A :=
    DState (d_inbox s) running (d_calls s ++ ns) (d_mail s) (d_keeper s) (d_held s) (d_token s) (d_registered s) (d_disposed s).

  (** 168-184 one round of message_loop in safe_observer. *)
  Definition safe_step (s : dstate A) (r : option exn) : option (dstate A) :=
    match d_running s, d_inbox s with
    | true, n :: inbox =>
        let s := DState inbox true (d_calls s) (d_mail s) (d_keeper s) (d_held s) (d_token s) (d_registered s) (d_disposed s) in
        match n, r with
        | OnNext _, None => Some (call_ s true [n])
        | OnNext _, Some e => Some (call_ s false [n; OnError e])
        | _, _ => Some (call_ (cancel_ s) false [n])
        end
    | _, _ => None
    end.

  (** 217: the loop begins: it waits for a message unless the token is cancelled. *)
  Definition loop_ (token : bool) : keeper := if token then KOver else KWaits.

  (** 213-229 the second worker. *)
  Definition keeper_step (s : dstate A) (r : option exn) : option (dstate A) :=
    let put mail k held disposed :=
      Some (DState (d_inbox s) (d_running s) (d_calls s) mail k held (d_token s) (d_registered s) disposed) in
    match d_keeper s, d_mail s with
    | KFresh, mail => put mail (loop_ (d_token s)) (d_held s) (d_disposed s)
    | KWaits, Register d :: mail => put mail (loop_ (d_token s)) (d_held s ++ [d]) (d_disposed s)       (* 221-222 *)
    | KWaits, DisposeAll :: mail => put mail (KDisposes (d_held s)) (d_held s) (d_disposed s)
    | KDisposes (d :: ds), mail =>                                                                     (* 224-225 *)
        put mail (match r with None => KDisposes ds | Some _ => KOver end) (d_held s) (d_disposed s ++ [d])
    | KDisposes [], mail => put mail KOver (d_held s) (d_disposed s)
    | _, _ => None
    end.

  (** observers.py:151-199, 202-246: one step of the mailboxes or of the source's subscription. *)
  Definition dstep (s : dstate A) (x : dlabel) : option (dstate A) :=
    match x with
    | DPost n => Some (DState (d_inbox s ++ [n]) (d_running s) (d_calls s) (d_mail s) (d_keeper s) (d_held s) (d_token s) (d_registered s) (d_disposed s))
    | DSafe r => safe_step s r
    | DRegister d => Some (DState (d_inbox s) (d_running s) (d_calls s) (d_mail s ++ [Register d]) (d_keeper s) (d_held s) (d_token s) (d_registered s ++ [d]) (d_disposed s))
    | DKeeper r => keeper_step s r
    end.

  (** Not in the code: the states that histories lead to. *)
  Inductive dsteps : dstate A -> list dlabel -> dstate A -> Prop :=
  | ds_nil s : dsteps s [] s
  | ds_snoc s h x s' s'' : dsteps s h s' -> dstep s' x = Some s'' -> dsteps s (h ++ [x]) s''.

  (** Not in the code: runs a history. *)
  Fixpoint drun (s : dstate A) (h : list dlabel) : option (dstate A) :=
    match h with
    | [] => Some s
    | x :: h => match dstep s x with Some s => drun s h | None => None end
    end.
End Detach.

(** ** Specification *)
(** The second worker waits and has picked up all subscriptions. *)
Definition caught_up {A} (s : dstate A) : Prop := d_keeper s = KWaits /\ d_mail s = [].
(** The next message of safe_observer is a terminal one. *)
Definition terminates {A} (s : dstate A) : Prop := d_running s = true /\ exists n inbox, d_inbox s = n :: inbox /\ is_term n = true.
(** It has nothing to do any more. *)
Definition idle {A} (s : dstate A) : Prop := forall r, keeper_step s r = None.
(** No dispose_async raises. *)
Definition no_raise {A} (h : list (dlabel (A := A))) : Prop := forall e, ~ In (DKeeper (Some e)) h.
