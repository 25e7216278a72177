(** * asend_later, athrow_later, aclose_later and the scheduled ones
    (testing/subject.py:38-52, 69-84, 100-114) on the
    virtual time event loop.

    asend_later sleeps, then calls the method of the subject; asend_later_scheduled
    starts a task that does.  From asyncio: a task starts with call_soon;
    asyncio.sleep with a delay of at most 0 suspends once (the task goes on with
    call_soon), otherwise call_at(time + delay) sets a future, which wakes the
    task with call_soon. *)
From Verif Require Export Loop.
Set Implicit Arguments.
Local Open Scope Z_scope.

(** Where a call is: its task has been made and starts with handle [id]; it
    sleeps, with the timer [id]; it goes on with handle [id]; the method of the
    subject has been called. *)
Inductive stage : Type :=
| Starting (id : nat)
| Sleeping (id : nat)
| Waking (id : nat)
| Sent.

(** A call: the time at which it is made, the delay, whether it is one of the
    scheduled ones. *)
Record lcall (A : Type) : Type := LCall {
  c_time : Z;
  c_delay : Z;
  c_scheduled : bool;
  c_notif : notif A;
  c_stage : stage
}.
Arguments LCall {A} c_time c_delay c_scheduled c_notif c_stage.

(** [l_sent]: the calls of the subject's methods, with the time; [l_tasks]:
    [_running_tasks]; [l_fin]: those that have returned or raised. *)
Record lstate (A : Type) : Type := LState {
  l_loop : vstate;
  l_calls : list (lcall A);
  l_sent : list (Z * nat);
  l_tasks : list nat;
  l_fin : list (nat * option exn)
}.
Arguments LState {A} l_loop l_calls l_sent l_tasks l_fin.

(** testing/subject.py:19-21, virtual_events.py:43-50: a new subject on a new loop. *)
Definition l_init {A} : lstate A := LState v_init [] [] [] [].

Section Later.
  Context {A : Type}.
  Variable top : nat -> list hinfo -> list nat -> nat.

  (** Not in the code: the handle a call waits for. *)
  Definition pending (g : stage) : option nat :=
    match g with Starting id | Sleeping id | Waking id => Some id | Sent => None end.
  (** Not in the code: the call waits for the handle. *)
  Definition waits (id : nat) (c : lcall A) : bool :=
    match pending (c_stage c) with Some i => (i =? id)%nat | None => false end.
  (** The first call that waits for a handle. *)
  Fixpoint waiting (id : nat) (l : list (lcall A)) : option nat :=
    match l with
    | [] => None
    | c :: l => if waits id c then Some O else option_map S (waiting id l)
    end.
  (** Not in the code: list update. *)
  Fixpoint put_stage (j : nat) (g : stage) (l : list (lcall A)) : list (lcall A) :=
    match l, j with
    | [], _ => []
    | c :: l, O => LCall (c_time c) (c_delay c) (c_scheduled c) (c_notif c) g :: l
    | c :: l, S j => c :: put_stage j g l
    end.

  (** asyncio.sleep(delay): what is scheduled, and the stage. *)
  Definition sleep (v : vstate) (delay : Z) : vact * stage :=
    if delay <=? 0 then (VSoon, Waking (length (v_tab v))) else (VAt (v_time v + delay), Sleeping (length (v_tab v))).

  (** What is done by a piece of code. *)
  Inductive lact : Type :=
  | LLater (scheduled : bool) (delay : Z) (n : notif A)   (* one of the six methods *)
  | LOther (a : vact)                                     (* something else; the handles of the calls are not known to others *)
  | LReturn (j : nat) (r : option exn).                   (* the subject's method returns, or raises, in call [j] *)

  (** Not in the code: list membership. *)
  Definition lhas (j : nat) (l : list nat) : bool := existsb (Nat.eqb j) l.

  (** testing/subject.py:38-52, 69-84, 100-114: an action of the running callback. *)
  Definition lact_do (s : lstate A) (a : lact) : option (lstate A) :=
    let v := l_loop s in
    let j := length (l_calls s) in
    match a with
    | LLater true d n =>                                                   (* 42-52, 73-84, 104-114 *)
        Some (LState (vact_do v VSoon) (l_calls s ++ [LCall (v_time v) d true n (Starting (length (v_tab v)))]) (l_sent s) (l_tasks s ++ [j]) (l_fin s))
    | LLater false d n =>                                                  (* 39, 70, 101 *)
        Some (LState (vact_do v (fst (sleep v d))) (l_calls s ++ [LCall (v_time v) d false n (snd (sleep v d))]) (l_sent s) (l_tasks s) (l_fin s))
    | LOther (VCancel id) =>
        match waiting id (l_calls s) with
        | None => Some (LState (vact_do v (VCancel id)) (l_calls s) (l_sent s) (l_tasks s) (l_fin s))
        | Some _ => None
        end
    | LOther a => Some (LState (vact_do v a) (l_calls s) (l_sent s) (l_tasks s) (l_fin s))
    | LReturn j r =>
        if lhas j (map snd (l_sent s)) && negb (lhas j (map fst (l_fin s))) then
          Some (LState v (l_calls s) (l_sent s)
            (match r with None => remove Nat.eq_dec j (l_tasks s) | Some _ => l_tasks s end)       (* 48-49, 80-81, 110-111 *)
            (l_fin s ++ [(j, r)]))
        else None
    end.

  (** Not in the code: what a callback does, one action after another. *)
  Fixpoint lacts_do (s : lstate A) (l : list lact) : option (lstate A) :=
    match l with
    | [] => Some s
    | a :: l => match lact_do s a with Some s => lacts_do s l | None => None end
    end.

  (** The next handle is run. *)
  Definition lrun (s : lstate A) (acts : list lact) : option (lstate A) :=
    match v_ready (l_loop s), run_handle (l_loop s) [] with
    | id :: _, Some v =>
        let go v g j := Some (LState v (put_stage j g (l_calls s)) (l_sent s) (l_tasks s) (l_fin s)) in
        match waiting id (l_calls s) with
        | None =>
            let s1 := LState v (l_calls s) (l_sent s) (l_tasks s) (l_fin s) in
            if cancelled (v_tab (l_loop s)) id then match acts with [] => Some s1 | _ => None end else lacts_do s1 acts
        | Some j =>
            match nth_error (l_calls s) j with
            | None => None
            | Some c =>
                match c_stage c, acts with
                | Starting _, [] => go (vact_do v (fst (sleep v (c_delay c)))) (snd (sleep v (c_delay c))) j    (* 46, 78, 108 *)
                | Sleeping _, [] => go (vact_do v VSoon) (Waking (length (v_tab v))) j
                | Waking _, _ =>                                                         (* 40, 47, 71, 79, 102, 109 *)
                    lacts_do (LState v (put_stage j Sent (l_calls s)) (l_sent s ++ [(v_time v, j)]) (l_tasks s) (l_fin s)) acts
                | _, _ => None
                end
            end
        end
    | _, _ => None
    end.

  (** Not in the code: labels of histories. *)
  Inductive llabel : Type :=
  | LOutside (a : lact)
  | LBegin
  | LRun (acts : list lact)
  | LEnd
  | LAbort.

  (** Not in the code: a step of the loop that runs no callback. *)
  Definition lplain (s : lstate A) (x : vlabel) : option (lstate A) :=
    match vstep top (l_loop s) x with
    | Some v => Some (LState v (l_calls s) (l_sent s) (l_tasks s) (l_fin s))
    | None => None
    end.

  (** testing/virtual_events.py:55-123: one step of the loop, with the coroutines of testing/subject.py:38-52, 69-84, 100-114. *)
  Definition lstep (s : lstate A) (x : llabel) : option (lstate A) :=
    match x with
    | LOutside a => match v_todo (l_loop s) with None => lact_do s a | Some _ => None end
    | LBegin => lplain s VBegin
    | LRun acts => lrun s acts
    | LEnd => lplain s VEnd
    | LAbort => lplain s VAbort
    end.

  (** Not in the code: runs a history. *)
  Fixpoint lrun_all (s : lstate A) (h : list llabel) : option (lstate A) :=
    match h with
    | [] => Some s
    | x :: h => match lstep s x with Some s => lrun_all s h | None => None end
    end.

  (** Not in the code: the states that histories lead to. *)
  Inductive lsteps : lstate A -> list llabel -> lstate A -> Prop :=
  | ls_nil s : lsteps s [] s
  | ls_snoc s h x s' s'' : lsteps s h s' -> lstep s' x = Some s'' -> lsteps s (h ++ [x]) s''.
End Later.
Arguments LBegin {A}.
Arguments LEnd {A}.
Arguments LAbort {A}.
Arguments LOther {A} a.
Arguments LReturn {A} j r.

(** ** Vocabulary of the theorems *)
Section Vocabulary.
  Context {A : Type}.

  (** The calls of the six methods in a history: scheduled or not, the delay,
      what is to be sent. *)
  Definition asked_by (a : @lact A) : list (bool * Z * notif A) :=
    match a with LLater b d n => [(b, d, n)] | _ => [] end.
  (** Not in the code: the calls made in a history. *)
  Definition asked (h : list (@llabel A)) : list (bool * Z * notif A) :=
    flat_map (fun x => match x with LOutside a => asked_by a | LRun l => flat_map asked_by l | _ => [] end) h.
  (** What a call asks for. *)
  Definition request (c : lcall A) : bool * Z * notif A := (c_scheduled c, c_delay c, c_notif c).

  (** Nothing but the loop itself goes on. *)
  Definition on_its_own (x : @llabel A) : Prop := x = LBegin \/ x = LRun [] \/ x = LEnd.
End Vocabulary.
