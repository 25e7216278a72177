(** * Iterating an observable: AsyncIteratorObserver (observers.py:20-94).

    Producers call asend, athrow and aclose of the observer, a consumer calls
    __anext__ (for instance by [async for x in source], observables.py:53-59).
    The two are coupled by asyncio futures, and the code relies on the order in
    which the event loop runs what has become ready, so the ready queue of the
    loop is part of the model: a turn runs the handle at its head until the
    task suspends.  Several producers may call at the same time; at most one
    __anext__ is outstanding at a time (several are in Overlap.v). *)
From Verif Require Export Run.
Set Implicit Arguments.

(** What is in the ready queue: a task suspended on a future that is done by
    now, in _wait_for_pull (56), in _serialize_access (65) or in wait_for_push
    (74); or a handle that is not ours (a new task, a timer, I/O, ...).  The
    flag: Task.cancel was called after the future was done, CancelledError is
    going to be raised at the await (asyncio's [_must_cancel]). *)
Inductive handle : Type :=
| HForeign
| HPull (id : nat) (cancel : bool)
| HAwait (id : nat) (cancel : bool)
| HPush (cancel : bool).

(** The consumer: outside of __anext__; in [await source.subscribe_async] (72);
    in [await self._push] (74). *)
Inductive consumer : Type := CIdle | CSubscribing | CWaiting.

(** What the call number [id] has come to. *)
Inductive ended : Type := Success | Exception (e : exn) | CallCancelled.

(** observers.py:23-32.  Calls are numbered in the order in which they are made.
    [i_calls]: the calls made; [i_adm]: those that got past _serialize_access,
    in order; [i_ret]: those that have returned or raised; [i_res]: the
    results of the __anext__ calls (without those whose subscribe_async has
    raised); [i_puller]: the call whose task waits for [_pull]; [i_wait]:
    [_awaiters], each with the call whose task waits for it; [i_sub]:
    [_subscription] is not None; [i_subs]: how often the source was
    subscribed to; [i_disp]: how often the subscription was disposed. *)
Record istate (A : Type) : Type := IState {
  i_calls : list (notif A);
  i_adm : list nat;
  i_ret : list (nat * ended);
  i_res : list (outcome A);
  i_busy : bool;
  i_push : fut A;
  i_pull : fut unit;
  i_puller : option nat;
  i_wait : list (nat * fut unit);
  i_cons : consumer;
  i_sub : bool;
  i_subs : nat;
  i_disp : nat;
  i_ready : list handle
}.
Arguments IState {A}.
Arguments i_calls {A} i.
Arguments i_adm {A} i.
Arguments i_ret {A} i.
Arguments i_res {A} i.
Arguments i_busy {A} i.
Arguments i_push {A} i.
Arguments i_pull {A} i.
Arguments i_puller {A} i.
Arguments i_wait {A} i.
Arguments i_cons {A} i.
Arguments i_sub {A} i.
Arguments i_subs {A} i.
Arguments i_disp {A} i.
Arguments i_ready {A} i.

(** observers.py:23-32: a new AsyncIteratorObserver. *)
Definition i_init {A} : istate A := IState [] [] [] [] false FPending FPending None [] CIdle false 0 0 [].

(** What the users do, in a turn of one of their tasks. *)
Inductive act (A : Type) : Type :=
| ASend (n : notif A)       (* asend, athrow or aclose is called *)
| ANext                     (* __anext__ is called *)
| ASubscribed               (* subscribe_async, called by __anext__, returns *)
| ASubFailed                (* or raises *)
| ADispose                  (* dispose_async *)
| ACancelNext               (* the task that waits in __anext__ is cancelled *)
| ACancelSend (id : nat).   (* the task that waits in call [id] is cancelled *)
Arguments ASend {A} n.
Arguments ANext {A}.
Arguments ASubscribed {A}.
Arguments ASubFailed {A}.
Arguments ADispose {A}.
Arguments ACancelNext {A}.
Arguments ACancelSend {A} id.

(** Future.done of asyncio. *)
Definition done {A} (f : fut A) : bool := match f with FPending => false | _ => true end.

Section Iterate.
  Context {A : Type}.
  Notation istate := (istate A).

  (** Record updates. *)
  Definition set_ready (s : istate) r := IState (i_calls s) (i_adm s) (i_ret s) (i_res s) (i_busy s) (i_push s) (i_pull s)
    (i_puller s) (i_wait s) (i_cons s) (i_sub s) (i_subs s) (i_disp s) r.
  (** loop.call_soon of asyncio. *)
  Definition soon (s : istate) h := set_ready s (i_ready s ++ [h]).
  (** Not in the code: a field update. *)
  Definition set_cons (s : istate) c := IState (i_calls s) (i_adm s) (i_ret s) (i_res s) (i_busy s) (i_push s) (i_pull s)
    (i_puller s) (i_wait s) c (i_sub s) (i_subs s) (i_disp s) (i_ready s).
  (** Not in the code: a field update (observers.py:26, 75 _push). *)
  Definition set_push (s : istate) f := IState (i_calls s) (i_adm s) (i_ret s) (i_res s) (i_busy s) f (i_pull s)
    (i_puller s) (i_wait s) (i_cons s) (i_sub s) (i_subs s) (i_disp s) (i_ready s).
  (** Not in the code: a field update (observers.py:27, 57, 76 _pull). *)
  Definition set_pull (s : istate) f p := IState (i_calls s) (i_adm s) (i_ret s) (i_res s) (i_busy s) (i_push s) f
    p (i_wait s) (i_cons s) (i_sub s) (i_subs s) (i_disp s) (i_ready s).
  (** Not in the code: a field update. *)
  Definition set_wait (s : istate) w := IState (i_calls s) (i_adm s) (i_ret s) (i_res s) (i_busy s) (i_push s) (i_pull s)
    (i_puller s) w (i_cons s) (i_sub s) (i_subs s) (i_disp s) (i_ready s).
  (** Not in the code: a field update (observers.py:32, 58, 68 _busy). *)
  Definition set_busy (s : istate) b := IState (i_calls s) (i_adm s) (i_ret s) (i_res s) b (i_push s) (i_pull s)
    (i_puller s) (i_wait s) (i_cons s) (i_sub s) (i_subs s) (i_disp s) (i_ready s).
  (** Not in the code: a field update (observers.py:30, 72, 86 _subscription). *)
  Definition set_sub (s : istate) b n d := IState (i_calls s) (i_adm s) (i_ret s) (i_res s) (i_busy s) (i_push s) (i_pull s)
    (i_puller s) (i_wait s) (i_cons s) b n d (i_ready s).
  (** Not in the code: records that a call of the source returns. *)
  Definition returns (s : istate) id e := IState (i_calls s) (i_adm s) (i_ret s ++ [(id, e)]) (i_res s) (i_busy s) (i_push s) (i_pull s)
    (i_puller s) (i_wait s) (i_cons s) (i_sub s) (i_subs s) (i_disp s) (i_ready s).
  (** Not in the code: records what __anext__ returned or raised. *)
  Definition yields (s : istate) o := IState (i_calls s) (i_adm s) (i_ret s) (i_res s ++ [o]) (i_busy s) (i_push s) (i_pull s)
    (i_puller s) (i_wait s) CIdle (i_sub s) (i_subs s) (i_disp s) (i_ready s).
  (** observers.py:60-68: a call passes _serialize_access and sets _busy. *)
  Definition admitted_as (s : istate) id := IState (i_calls s) (i_adm s ++ [id]) (i_ret s) (i_res s) true (i_push s) (i_pull s)
    (i_puller s) (i_wait s) (i_cons s) (i_sub s) (i_subs s) (i_disp s) (i_ready s).
  (** Not in the code: records a call of the source. *)
  Definition called (s : istate) n := IState (i_calls s ++ [n]) (i_adm s) (i_ret s) (i_res s) (i_busy s) (i_push s) (i_pull s)
    (i_puller s) (i_wait s) (i_cons s) (i_sub s) (i_subs s) (i_disp s) (i_ready s).

  (** The functions below give the new state and whether the task suspends. *)

  (** wait_for_push after the await: 75-81. *)
  Definition take (s : istate) (v : A) : istate :=
    let s := set_push s FPending in                                              (* 75 *)
    if done (i_pull s) then yields s (Raised InvalidState)                       (* 76 *)
    else
      let s := set_pull s (FResult tt) (i_puller s) in
      let s := match i_puller s with Some id => soon s (HPull id false) | None => s end in
      match i_wait s with                                                        (* 79 *)
      | [] => yields s (Returned v)                                              (* 81 *)
      | (id, f) :: w =>
          if done f then yields s (Raised InvalidState)                          (* 80 *)
          else yields (soon (set_wait s ((id, FResult tt) :: w)) (HAwait id false)) (Returned v)
      end.

  (** [await self._push] (74), the future being done. *)
  Definition pushed (s : istate) : istate :=
    match i_push s with
    | FPending => s
    | FResult v => take s v
    | FExn e => yields s (Raised e)
    | FCancelled => yields s Cancelled
    end.

  (** observers.py:70-81: wait_for_push, up to its await of _push or to its end. *)
  Definition await_push (s : istate) : istate * bool :=
    if done (i_push s) then (pushed s, false) else (set_cons s CWaiting, true).

  (** __anext__ (92-94, 70-81). *)
  Definition next_ (s : istate) : option (istate * bool) :=
    match i_cons s with
    | CIdle =>
        if i_sub s then Some (await_push s)
        else Some (set_cons (set_sub s false (S (i_subs s)) (i_disp s)) CSubscribing, false)  (* 71-72: in subscribe_async *)
    | _ => None
    end.

  (** _wait_for_pull after the await (57-58). *)
  Definition pulled (s : istate) (id : nat) : istate :=
    returns (set_busy (set_pull s FPending None) false) id Success.

  (** observers.py:39, 46, 52: what each method sets the _push future to. *)
  Definition fut_of (n : notif A) : fut A :=
    match n with OnNext v => FResult v | OnError e => FExn e | OnCompleted => FExn StopAsyncIter end.

  (** 68; set_result or set_exception of [_push] (39, 46, 52); [await self._pull] (56). *)
  Definition admit (s : istate) (id : nat) (n : notif A) : istate * bool :=
    let s := admitted_as s id in
    if done (i_push s) then (returns s id (Exception InvalidState), false)
    else
      let s := set_push s (fut_of n) in
      let s := match i_cons s with CWaiting => soon s (HPush false) | _ => s end in
      match i_pull s with
      | FPending => (set_pull s FPending (Some id), true)
      | FResult _ => (pulled s id, false)
      | FExn e => (returns s id (Exception e), false)
      | FCancelled => (returns s id CallCancelled, false)
      end.

  (** _serialize_access (60-68): wait while [_busy]. *)
  Definition serialize (s : istate) (id : nat) (n : notif A) : istate * bool :=
    if i_busy s then (set_wait s (i_wait s ++ [(id, FPending)]), true) else admit s id n.

  (** observers.py:34-53: a call of asend, athrow or aclose begins. *)
  Definition send_ (s : istate) (n : notif A) : istate * bool :=
    serialize (called s n) (length (i_calls s)) n.

  (** Task.cancel of the task in __anext__: the future it waits for is
      cancelled, or, if that is done already, CancelledError is raised when the
      task runs. *)
  Definition cancel_next (s : istate) : option istate :=
    match i_cons s with
    | CWaiting =>
        Some (if done (i_push s)
              then set_ready s (map (fun h => match h with HPush _ => HPush true | _ => h end) (i_ready s))
              else soon (set_push s FCancelled) (HPush false))
    | _ => None
    end.

  (** Task.cancel of the task in the call [id]. *)
  Definition flag_send (id : nat) (h : handle) : handle :=
    match h with
    | HPull i b => if i =? id then HPull i true else h
    | HAwait i b => if i =? id then HAwait i true else h
    | _ => h
    end.
  (** Not in the code: whether call [id] has returned. *)
  Definition returned (s : istate) (id : nat) : bool := existsb (fun x => fst x =? id) (i_ret s).
  (** A caller cancels its call of asend, athrow or aclose while it waits at observers.py:56 or 65: asyncio's Task.cancel. *)
  Definition cancel_send (s : istate) (id : nat) : option istate :=
    if returned s id then None
    else if match i_puller s with Some i => i =? id | None => false end then
      Some (if done (i_pull s) then set_ready s (map (flag_send id) (i_ready s))
            else soon (set_pull s FCancelled (i_puller s)) (HPull id false))
    else match find (fun x => fst x =? id) (i_wait s) with
    | None => None
    | Some (_, f) =>
        Some (if done f then set_ready s (map (flag_send id) (i_ready s))
              else soon (set_wait s (map (fun x => if fst x =? id then (id, FCancelled) else x) (i_wait s))) (HAwait id false))
    end.

  (** observers.py:34-94: what the running task does until it suspends. *)
  Definition do_act (s : istate) (a : act A) : option (istate * bool) :=
    match a with
    | ASend n => Some (send_ s n)
    | ANext => next_ s
    | ASubscribed =>
        match i_cons s with
        | CSubscribing => Some (await_push (set_cons (set_sub s true (i_subs s) (i_disp s)) CIdle))   (* 72-74 *)
        | _ => None
        end
    | ASubFailed => match i_cons s with CSubscribing => Some (set_cons s CIdle, false) | _ => None end
    | ADispose =>                                                                                     (* 83-86 *)
        Some (if i_sub s then set_sub s false (i_subs s) (S (i_disp s)) else s, false)
    | ACancelNext => match cancel_next s with Some s => Some (s, false) | None => None end
    | ACancelSend id => match cancel_send s id with Some s => Some (s, false) | None => None end
    end.

  (** What the users are assumed to do: [ok s a] if they may do [a] in state [s]. *)
  Variable ok : istate -> act A -> bool.

  (** The running task goes on until it suspends (or stops using the observer). *)
  Fixpoint do_acts (s : istate) (l : list (act A)) : option istate :=
    match l with
    | [] => Some s
    | a :: l =>
        if ok s a then
          match do_act s a with
          | Some (s, false) => do_acts s l
          | Some (s, true) => match l with [] => Some s | _ => None end
          | None => None
          end
        else None
    end.

  (** The await in the task of handle [h] goes on; [None]: never. *)
  Definition resume (s : istate) (h : handle) : option (istate * bool) :=
    match h with
    | HForeign => Some (s, false)
    | HPull id b =>
        if b then Some (returns (set_pull s (i_pull s) None) id CallCancelled, false)
        else match i_pull s with
        | FResult _ => Some (pulled s id, false)
        | FCancelled => Some (returns (set_pull s FCancelled None) id CallCancelled, false)
        | _ => None
        end
    | HAwait id b =>
        match find (fun x => fst x =? id) (i_wait s), nth_error (i_calls s) id with
        | Some (_, f), Some n =>
            if b then Some (returns s id CallCancelled, false)
            else match f with
            | FResult _ => Some (serialize (set_wait s (filter (fun x => negb (fst x =? id)) (i_wait s))) id n)  (* 66, 62 *)
            | FCancelled => Some (returns s id CallCancelled, false)
            | _ => None
            end
        | _, _ => None
        end
    | HPush b =>
        match i_cons s with
        | CWaiting => Some (if b then yields s Cancelled else pushed s, false)
        | _ => None
        end
    end.

  (** Not in the code: labels of histories. *)
  Inductive ilabel : Type :=
  | LArrive                       (* something else becomes ready *)
  | LTurn (l : list (act A)).     (* the loop runs the head of the ready queue; then the task does [l] *)

  (** observers.py:20-94 on asyncio's ready queue: one step. *)
  Definition istep (s : istate) (x : ilabel) : option istate :=
    match x with
    | LArrive => Some (soon s HForeign)
    | LTurn l =>
        match i_ready s with
        | [] => None
        | h :: r =>
            match resume (set_ready s r) h with
            | Some (s, false) => do_acts s l
            | Some (s, true) => match l with [] => Some s | _ => None end
            | None => None
            end
        end
    end.

  (** Not in the code: the states that histories lead to. *)
  Inductive isteps : istate -> list ilabel -> istate -> Prop :=
  | is_nil s : isteps s [] s
  | is_snoc s h x s' s'' : isteps s h s' -> istep s' x = Some s'' -> isteps s (h ++ [x]) s''.

  (** Not in the code: runs a history. *)
  Fixpoint irun (s : istate) (h : list ilabel) : option istate :=
    match h with
    | [] => Some s
    | x :: h => match istep s x with Some s => irun s h | None => None end
    end.
End Iterate.
Arguments LArrive {A}.

(** ** Specification *)
(** The users cancel none of the calls. *)
Definition calm {A} (s : istate A) (a : act A) : bool :=
  match a with ACancelNext | ACancelSend _ => false | _ => true end.

(** And a producer calls only when all calls so far have returned. *)
Definition in_turn {A} (s : istate A) (a : act A) : bool :=
  calm s a && match a with ASend _ => length (i_calls s) =? length (i_ret s) | _ => true end.

(** Not in the code: no restriction on histories. *)
Definition anything {A} (s : istate A) (a : act A) : bool := true.

(** Nothing is ready and the consumer waits for an element. *)
Definition starving {A} (s : istate A) : Prop := i_ready s = [] /\ i_cons s = CWaiting.

(** The notifications of the calls admitted, in order. *)
Definition admitted {A} (s : istate A) : list (option (notif A)) := map (nth_error (i_calls s)) (i_adm s).

(** What __anext__ raises after a terminal call. *)
Definition err {A} (n : notif A) : exn := match n with OnError e => e | _ => StopAsyncIter end.
