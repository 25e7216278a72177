(** * Operators that work with time: delay (timeshift.py:33-100) and interval,
    timer (create.py:202-236).

    Time is an integer (datetime.now / loop.time in any unit); it passes in
    steps of any positive size.  asyncio.sleep(x) does not end before x has
    passed (and ends at once for x <= 0). *)
From Verif Require Export Spec.
Set Implicit Arguments.

(** What can happen: time passes, the source calls, the worker makes a step,
    the observer's call in progress returns or raises, the token is cancelled. *)
Inductive xlabel (A : Type) : Type :=
| XTick (dt : Z)
| XArr (n : notif A)
| XWork
| XReturn
| XRaise (e : exn)
| XCancel.
Arguments XTick {A} dt.
Arguments XArr {A} n.
Arguments XWork {A}.
Arguments XReturn {A}.
Arguments XRaise {A} e.
Arguments XCancel {A}.

(** ** delay

    Where the loop (54-82) is: before or in [inbox.receive()] (57-60), in
    asyncio.sleep until [u] (65), in the call of the observer for [n] (79),
    ended because of the token (57-58, or receive cancelled), or ended by an
    exception of the observer. *)
Inductive xphase (A : Type) : Type :=
| XIdle
| XSleep (n : notif A) (u : Z)
| XCall (n : notif A)
| XOver
| XDead.
Arguments XIdle {A}.
Arguments XSleep {A} n u.
Arguments XCall {A} n.
Arguments XOver {A}.
Arguments XDead {A}.

(** [x_log]: calls of the observer with the time at which they began;
    [x_ends]: the times at which they returned. *)
Record xstate (A : Type) : Type := XState {
  x_now : Z;
  x_box : list (notif A * Z);
  x_phase : xphase A;
  x_cancelled : bool;
  x_log : list (notif A * Z);
  x_ends : list Z
}.
Arguments XState {A} _ _ _ _ _ _.

(** timeshift.py:53-84: the state when subscribe_async has started the worker. *)
Definition x_init {A} (t0 : Z) : xstate A := XState t0 [] XIdle false [] [].

Section Delay.
  Context {A : Type}.
  (** timeshift.py:36 [seconds] *)
  Variable d : Z.

  (** timeshift.py:67-79: the worker calls the observer, and the call is recorded with its time. *)
  Definition x_begin (n : notif A) (box : list (notif A * Z)) (s : xstate A) : xstate A :=
    XState (x_now s) box (XCall n) (x_cancelled s) (x_log s ++ [(n, x_now s)]) (x_ends s).

  (** timeshift.py:54-80 *)
  Definition xwork (s : xstate A) : option (xstate A) :=
    match x_phase s with
    | XIdle =>
        if x_cancelled s then Some (XState (x_now s) (x_box s) XOver true (x_log s) (x_ends s))
        else match x_box s with
             | [] => None
             | (n, due) :: r =>
                 if (0 <? due - x_now s)%Z then Some (XState (x_now s) r (XSleep n due) false (x_log s) (x_ends s))
                 else Some (x_begin n r s)
             end
    | XSleep n u => if (u <=? x_now s)%Z then Some (x_begin n (x_box s) s) else None
    | _ => None
    end.

  (** timeshift.py:34-100 delay: one step of a subscription. *)
  Definition xstep (s : xstate A) (l : xlabel A) : option (xstate A) :=
    match l with
    | XTick dt => if (0 <? dt)%Z then Some (XState (x_now s + dt) (x_box s) (x_phase s) (x_cancelled s) (x_log s) (x_ends s)) else None
    | XArr n =>                                                     (* 86-88 *)
        Some (XState (x_now s) (x_box s ++ [(n, x_now s + d)%Z]) (x_phase s) (x_cancelled s) (x_log s) (x_ends s))
    | XWork => xwork s
    | XReturn =>
        match x_phase s with
        | XCall _ => Some (XState (x_now s) (x_box s) XIdle (x_cancelled s) (x_log s) (x_ends s ++ [x_now s]))
        | _ => None
        end
    | XRaise _ =>
        match x_phase s with
        | XCall _ => Some (XState (x_now s) (x_box s) XDead (x_cancelled s) (x_log s) (x_ends s))
        | _ => None
        end
    | XCancel => Some (XState (x_now s) (x_box s) (x_phase s) true (x_log s) (x_ends s))   (* 93-96 *)
    end.

  (** Not in the code: the states that histories lead to. *)
  Inductive xreach (t0 : Z) : list (xlabel A) -> xstate A -> Prop :=
  | xr_nil : xreach t0 [] (x_init t0)
  | xr_snoc h s l s' : xreach t0 h s -> xstep s l = Some s' -> xreach t0 (h ++ [l]) s'.

  (** Several subscriptions of the same delayed observable (timeshift.py:50-51:
      the token belongs to the observable, not to the subscription).
      [(i, l)]: subscription [i] makes step [l]; time passes for all, and
      disposing one of them ([XCancel]) cancels the token of all. *)
  Definition xstep_all (s : nat -> xstate A) (x : nat * xlabel A) (s' : nat -> xstate A) : Prop :=
    forall j, match snd x with
              | XTick _ | XCancel => xstep (s j) (snd x) = Some (s' j)
              | _ => if fst x =? j then xstep (s j) (snd x) = Some (s' j) else s' j = s j
              end.
  (** Not in the code: histories of several subscriptions. *)
  Inductive xreach_all (t0 : Z) : list (nat * xlabel A) -> (nat -> xstate A) -> Prop :=
  | xa_nil s : (forall j, s j = x_init t0) -> xreach_all t0 [] s
  | xa_snoc h s x s' : xreach_all t0 h s -> xstep_all s x s' -> xreach_all t0 (h ++ [x]) s'.
End Delay.

(** ** interval (create.py:202-227); timer(due) is interval(due, 0) (230-236)

    Where the handler is: not started, in asyncio.sleep (215), in
    aobv.asend (216), in aobv.aclose (219), ended. *)
Inductive iphase : Type :=
| IStart
| ISleep (u : Z) (next : nat)
| ICall (next : nat)
| IClose
| IDone
| IDead.

(** create.py:214-222: where the handler of interval is, and its calls with their times. *)
Record ivstate : Type := IvState {
  v_now : Z;
  v_phase : iphase;
  v_log : list (notif nat * Z);
  v_ends : list Z
}.
(** create.py:224-225: the task of interval is started. *)
Definition iv_init (t0 : Z) : ivstate := IvState t0 IStart [] [].

Section Interval.
  Variables seconds period : Z.

  (** create.py:214-222: one step of the task of interval. *)
  Definition ivwork (s : ivstate) : option ivstate :=
    match v_phase s with
    | IStart => Some (IvState (v_now s) (ISleep (v_now s + Z.max 0 seconds) 0) (v_log s) (v_ends s))
    | ISleep u n =>
        if (u <=? v_now s)%Z then Some (IvState (v_now s) (ICall n) (v_log s ++ [(OnNext n, v_now s)]) (v_ends s))
        else None
    | _ => None
    end.

  (** The labels of [xlabel] without arrivals.  Cancellation cancels the task,
      wherever it is (aiotools.start registers task.cancel, 224). *)
  Definition ivstep (s : ivstate) (l : xlabel nat) : option ivstate :=
    match l with
    | XTick dt => if (0 <? dt)%Z then Some (IvState (v_now s + dt) (v_phase s) (v_log s) (v_ends s)) else None
    | XArr _ => None
    | XWork => ivwork s
    | XReturn =>
        match v_phase s with
        | ICall n =>                                                (* 218-222 *)
            if (period =? 0)%Z then Some (IvState (v_now s) IClose (v_log s ++ [(OnCompleted, v_now s)]) (v_ends s ++ [v_now s]))
            else Some (IvState (v_now s) (ISleep (v_now s + Z.max 0 period) (S n)) (v_log s) (v_ends s ++ [v_now s]))
        | IClose => Some (IvState (v_now s) IDone (v_log s) (v_ends s))
        | _ => None
        end
    | XRaise _ =>
        match v_phase s with
        | ICall _ | IClose => Some (IvState (v_now s) IDead (v_log s) (v_ends s))
        | _ => None
        end
    | XCancel => Some (IvState (v_now s) (match v_phase s with IDead => IDead | _ => IDone end) (v_log s) (v_ends s))
    end.

  (** Not in the code: the states that histories lead to. *)
  Inductive ivreach (t0 : Z) : list (xlabel nat) -> ivstate -> Prop :=
  | ir_nil : ivreach t0 [] (iv_init t0)
  | ir_snoc h s l s' : ivreach t0 h s -> ivstep s l = Some s' -> ivreach t0 (h ++ [l]) s'.
End Interval.
