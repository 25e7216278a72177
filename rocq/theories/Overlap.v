(** * Several __anext__ calls at once on one AsyncIteratorObserver
    (observers.py:20-94), for instance two [async for] over one iterator.

    As in Iterate.v the ready queue of the loop is part of the model.  Here any
    number of __anext__ calls may be outstanding, so the futures that were
    [_push] at some time are kept, with those who wait for them.  The producers
    call one at a time (Iterate.v has several at once) and nothing is cancelled
    (Iterate.v has cancellation). *)
From Verif Require Export Run.
Set Implicit Arguments.

(** In the ready queue: something that is not ours; the producer's task, the
    future it waits for in _wait_for_pull (56) being done; the task of __anext__
    call [k], the future it waits for in wait_for_push (74) being done. *)
Inductive ohandle : Type := OForeign | OPull | OWake (k : nat).

(** Where an __anext__ call is: in [await source.subscribe_async] (72); in the
    await of 74, for future number [f]; it has returned or raised. *)
Inductive nstage (A : Type) : Type :=
| NSubscribing
| NWaiting (f : nat)
| NEnded (o : outcome A).
Arguments NSubscribing {A}.
Arguments NWaiting {A} f.
Arguments NEnded {A} o.

(** observers.py:23-32.  [o_calls]: the calls of asend, athrow and aclose so far;
    [o_busy]: [_busy]; [o_futs]: the futures made for [_push]; [o_push]: the
    number of the one that is [_push]; [o_pull]: [_pull] is done; [o_puller]: the
    producer's task waits for it; [o_next]: the __anext__ calls; [o_wait]: those
    that wait, with the future, in the order in which they began to; [o_sub]:
    [_subscription], named by the call that made it; [o_disp]: the subscriptions
    disposed; [o_yield]: how __anext__ calls ended, in order. *)
Record ostate (A : Type) : Type := OState {
  o_calls : list (notif A);
  o_busy : bool;
  o_futs : list (fut A);
  o_push : nat;
  o_pull : bool;
  o_puller : bool;
  o_next : list (nstage A);
  o_wait : list (nat * nat);
  o_sub : option nat;
  o_disp : list nat;
  o_yield : list (nat * outcome A);
  o_ready : list ohandle
}.
Arguments OState {A}.
Arguments o_calls {A} o.
Arguments o_busy {A} o.
Arguments o_futs {A} o.
Arguments o_push {A} o.
Arguments o_pull {A} o.
Arguments o_puller {A} o.
Arguments o_next {A} o.
Arguments o_wait {A} o.
Arguments o_sub {A} o.
Arguments o_disp {A} o.
Arguments o_yield {A} o.
Arguments o_ready {A} o.

(** observers.py:23-32: a new AsyncIteratorObserver. *)
Definition o_init {A} : ostate A := OState [] false [FPending] 0 false false [] [] None [] [] [].

(** Not in the code: what the running task does. *)
Inductive oact (A : Type) : Type :=
| OSend (n : notif A)          (* asend, athrow or aclose is called *)
| ONext                        (* __anext__ is called *)
| OSubscribed (k : nat)        (* subscribe_async, called by __anext__ call [k], returns *)
| ODispose.                    (* dispose_async *)
Arguments OSend {A} n.
Arguments ONext {A}.
Arguments OSubscribed {A} k.
Arguments ODispose {A}.

Section Overlap.
  Context {A : Type}.
  Notation ostate := (ostate A).

  (** Not in the code: list update. *)
  Definition oput {X} (l : list X) (k : nat) (x : X) : list X := firstn k l ++ x :: skipn (S k) l.
  (** loop.call_soon of asyncio. *)
  Definition o_soon (s : ostate) (r : list ohandle) : ostate :=
    OState (o_calls s) (o_busy s) (o_futs s) (o_push s) (o_pull s) (o_puller s) (o_next s) (o_wait s) (o_sub s) (o_disp s) (o_yield s) (o_ready s ++ r).
  (** Not in the code: a field update. *)
  Definition o_set_ready (s : ostate) (r : list ohandle) : ostate :=
    OState (o_calls s) (o_busy s) (o_futs s) (o_push s) (o_pull s) (o_puller s) (o_next s) (o_wait s) (o_sub s) (o_disp s) (o_yield s) r.
  (** __anext__ call [k] ends. *)
  Definition o_end (s : ostate) (k : nat) (o : outcome A) : ostate :=
    OState (o_calls s) (o_busy s) (o_futs s) (o_push s) (o_pull s) (o_puller s) (oput (o_next s) k (NEnded o))
      (filter (fun x => negb (snd x =? k)) (o_wait s)) (o_sub s) (o_disp s) (o_yield s ++ [(k, o)]) (o_ready s).

  (** 75-81, [value] being the result of the await of 74. *)
  Definition o_take (s : ostate) (k : nat) (value : A) : ostate :=
    let s := OState (o_calls s) (o_busy s) (o_futs s ++ [FPending]) (length (o_futs s)) (o_pull s) (o_puller s)       (* 75 *)
               (o_next s) (o_wait s) (o_sub s) (o_disp s) (o_yield s) (o_ready s) in
    if o_pull s then o_end s k (Raised InvalidState)                                                                (* 76 *)
    else o_end (OState (o_calls s) (o_busy s) (o_futs s) (o_push s) true (o_puller s) (o_next s) (o_wait s) (o_sub s) (o_disp s) (o_yield s)
                  (if o_puller s then o_ready s ++ [OPull] else o_ready s)) k (Returned value).

  (** The await of 74 for a future that is done. *)
  Definition o_pushed (s : ostate) (k f : nat) : option ostate :=
    match nth_error (o_futs s) f with
    | Some (FResult v) => Some (o_take s k v)
    | Some (FExn e) => Some (o_end s k (Raised e))
    | _ => None
    end.

  (** 74; and whether the task suspends. *)
  Definition o_await (s : ostate) (k : nat) : option (ostate * bool) :=
    match nth_error (o_futs s) (o_push s) with
    | Some FPending =>
        Some (OState (o_calls s) (o_busy s) (o_futs s) (o_push s) (o_pull s) (o_puller s) (oput (o_next s) k (NWaiting (o_push s)))
                (o_wait s ++ [(o_push s, k)]) (o_sub s) (o_disp s) (o_yield s) (o_ready s), true)
    | _ => match o_pushed s k (o_push s) with Some s => Some (s, false) | None => None end
    end.

  (** 57-58: the producer's call returns. *)
  Definition o_pulled (s : ostate) : ostate :=
    OState (o_calls s) false (o_futs s) (o_push s) false false (o_next s) (o_wait s) (o_sub s) (o_disp s) (o_yield s) (o_ready s).

  (** observers.py:39, 46, 52: what each method sets the _push future to. *)
  Definition fut_of_notif (n : notif A) : fut A :=
    match n with OnNext v => FResult v | OnError e => FExn e | OnCompleted => FExn StopAsyncIter end.

  (** The tasks that wait for future [f]. *)
  Definition wakes (s : ostate) (f : nat) : list ohandle :=
    map (fun x => OWake (snd x)) (filter (fun x => fst x =? f) (o_wait s)).

  (** observers.py:34-94: what the running task does until it suspends. *)
  Definition o_act (s : ostate) (a : oact A) : option (ostate * bool) :=
    match a with
    | OSend n =>
        if o_busy s then None        (* one at a time *)
        else match nth_error (o_futs s) (o_push s) with
        | Some FPending =>
            let s := OState (o_calls s ++ [n]) true (oput (o_futs s) (o_push s) (fut_of_notif n)) (o_push s) (o_pull s) (o_puller s)   (* 68, 39, 46, 52 *)
                       (o_next s) (o_wait s) (o_sub s) (o_disp s) (o_yield s) (o_ready s ++ wakes s (o_push s)) in
            if o_pull s then Some (o_pulled s, false)
            else Some (OState (o_calls s) (o_busy s) (o_futs s) (o_push s) false true (o_next s) (o_wait s) (o_sub s) (o_disp s) (o_yield s) (o_ready s), true)  (* 56 *)
        | _ => None
        end
    | ONext =>
        let k := length (o_next s) in
        let s := OState (o_calls s) (o_busy s) (o_futs s) (o_push s) (o_pull s) (o_puller s) (o_next s ++ [NSubscribing]) (o_wait s) (o_sub s) (o_disp s) (o_yield s) (o_ready s) in
        match o_sub s with
        | None => Some (s, false)                                                                       (* 71-72 *)
        | Some _ => o_await s k                                                                         (* 74 *)
        end
    | OSubscribed k =>
        match nth_error (o_next s) k with
        | Some NSubscribing =>                                                                          (* 72, 74 *)
            o_await (OState (o_calls s) (o_busy s) (o_futs s) (o_push s) (o_pull s) (o_puller s) (o_next s) (o_wait s) (Some k) (o_disp s) (o_yield s) (o_ready s)) k
        | _ => None
        end
    | ODispose =>                                                                                       (* 83-86 *)
        Some (OState (o_calls s) (o_busy s) (o_futs s) (o_push s) (o_pull s) (o_puller s) (o_next s) (o_wait s) None
                (match o_sub s with Some k => o_disp s ++ [k] | None => o_disp s end) (o_yield s) (o_ready s), false)
    end.

  (** The running task goes on until it suspends (or stops using the observer). *)
  Fixpoint o_acts (s : ostate) (l : list (oact A)) : option ostate :=
    match l with
    | [] => Some s
    | a :: l =>
        match o_act s a with
        | Some (s, false) => o_acts s l
        | Some (s, true) => match l with [] => Some s | _ => None end
        | None => None
        end
    end.

  (** observers.py:55-81: a task goes on where it waited. *)
  Definition o_resume (s : ostate) (h : ohandle) : option ostate :=
    match h with
    | OForeign => Some s
    | OPull => Some (o_pulled s)
    | OWake k => match nth_error (o_next s) k with Some (NWaiting f) => o_pushed s k f | _ => None end
    end.

  (** Not in the code: labels of histories. *)
  Inductive olabel : Type :=
  | OArrive                        (* something else becomes ready *)
  | OTurn (l : list (oact A)).     (* the loop runs the head of the ready queue; then the task does [l] *)

  (** observers.py:20-94 on asyncio's ready queue: one step. *)
  Definition ostep (s : ostate) (x : olabel) : option ostate :=
    match x with
    | OArrive => Some (o_soon s [OForeign])
    | OTurn l =>
        match o_ready s with
        | [] => None
        | h :: r => match o_resume (o_set_ready s r) h with Some s => o_acts s l | None => None end
        end
    end.

  (** Not in the code: the states that histories lead to. *)
  Inductive osteps : ostate -> list olabel -> ostate -> Prop :=
  | os_nil s : osteps s [] s
  | os_snoc s h x s' s'' : osteps s h s' -> ostep s' x = Some s'' -> osteps s (h ++ [x]) s''.

  (** Not in the code: runs a history. *)
  Fixpoint orun (s : ostate) (h : list olabel) : option ostate :=
    match h with
    | [] => Some s
    | x :: h => match ostep s x with Some s => orun s h | None => None end
    end.
End Overlap.
Arguments OArrive {A}.

(** ** Vocabulary of the theorems *)
Section Vocabulary.
  Context {A : Type}.
  (** The elements that were sent, and those that __anext__ calls have returned. *)
  Definition sent_elements (s : ostate A) : list A := flat_map (fun n => match n with OnNext v => [v] | _ => [] end) (o_calls s).
  (** Not in the code: the elements returned by __anext__ calls. *)
  Definition got_elements (s : ostate A) : list A := flat_map (fun x => match snd x with Returned v => [v] | _ => [] end) (o_yield s).
  (** Call [k] was made and has not ended. *)
  Definition outstanding (s : ostate A) (k : nat) : Prop := k < length (o_next s) /\ ~ In k (map fst (o_yield s)).
  (** The calls that are waiting for the next notification. *)
  Definition queue (s : ostate A) : list nat := map snd (filter (fun x => fst x =? o_push s) (o_wait s)).
End Vocabulary.
