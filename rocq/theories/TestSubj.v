(** * The subjects for tests (testing/subject.py:12-114) on the virtual time event loop.

    asend_at (23-36), athrow_at (54-67) and aclose_at (86-98): a timer starts
    a task, which calls the method of the subject.  The other methods
    (asend_later, ...) sleep before the call: asyncio.sleep is a timer as well;
    they are not modelled. *)
From Verif Require Export Loop.
Set Implicit Arguments.
Local Open Scope Z_scope.

(** What a handle of the loop is: not ours; the callback of the call number [j]
    of asend_at, athrow_at or aclose_at; the first step of its worker (a task
    starts with call_soon). *)
Inductive job : Type := JOther | JCallback (j : nat) | JWorker (j : nat).

(** [k_job]: the handles of the loop, by number; [k_calls]: the calls of
    asend_at etc., with [when]; [k_sent]: the calls of the subject's methods by
    the workers, with the time; [k_tasks]: [_running_tasks]; [k_fin]: the workers
    that are over, with the exception. *)
Record kstate (A : Type) : Type := KState {
  k_loop : vstate;
  k_job : list job;
  k_calls : list (Z * notif A);
  k_sent : list (Z * nat);
  k_tasks : list nat;
  k_fin : list (nat * option exn)
}.
Arguments KState {A} k_loop k_job k_calls k_sent k_tasks k_fin.

(** testing/subject.py:19-21, virtual_events.py:43-50: a new subject on a new loop. *)
Definition k_init {A} : kstate A := KState v_init [] [] [] [] [].

Section TestSubj.
  Context {A : Type}.
  Variable top : nat -> list hinfo -> list nat -> nat.

  (** What is done by a piece of code. *)
  Inductive kact : Type :=
  | KAt (w : Z) (n : notif A)              (* asend_at, athrow_at, aclose_at *)
  | KOther (a : vact)                      (* something else; the handles of the subject are not known to others *)
  | KReturn (j : nat) (r : option exn).    (* the subject's method returns, or raises, in worker [j] *)

  (** Not in the code: handle [id] does not belong to the subject. *)
  Definition is_other (jobs : list job) (id : nat) : bool :=
    match nth_error jobs id with Some (JCallback _) | Some (JWorker _) => false | _ => true end.

  (** Not in the code: list membership. *)
  Definition has (j : nat) (l : list nat) : bool := existsb (Nat.eqb j) l.

  (** testing/subject.py:12-114: an action of the running callback. *)
  Definition kact_do (s : kstate A) (a : kact) : option (kstate A) :=
    match a with
    | KAt w n =>                                                                     (* 36, 67, 98 *)
        Some (KState (vact_do (k_loop s) (VAt w)) (k_job s ++ [JCallback (length (k_calls s))]) (k_calls s ++ [(w, n)]) (k_sent s) (k_tasks s) (k_fin s))
    | KOther (VCancel id) =>
        if is_other (k_job s) id then Some (KState (vact_do (k_loop s) (VCancel id)) (k_job s) (k_calls s) (k_sent s) (k_tasks s) (k_fin s)) else None
    | KOther a => Some (KState (vact_do (k_loop s) a) (k_job s ++ [JOther]) (k_calls s) (k_sent s) (k_tasks s) (k_fin s))
    | KReturn j r =>
        if has j (map snd (k_sent s)) && negb (has j (map fst (k_fin s))) then
          Some (KState (k_loop s) (k_job s) (k_calls s) (k_sent s)
            (match r, nth_error (k_calls s) j with
             | Some _, _ => k_tasks s                                                (* the rest of the worker is skipped *)
             | None, Some (_, OnCompleted) => k_tasks s                              (* 91: [task] is None: 95 assigns another variable *)
             | None, _ => remove Nat.eq_dec j (k_tasks s)                            (* 28-29, 59-60 *)
             end) (k_fin s ++ [(j, r)]))
        else None
    end.

  (** Not in the code: what a callback does, one action after another. *)
  Fixpoint kacts_do (s : kstate A) (l : list kact) : option (kstate A) :=
    match l with
    | [] => Some s
    | a :: l => match kact_do s a with Some s => kacts_do s l | None => None end
    end.

  (** The next handle is run. *)
  Definition krun (s : kstate A) (acts : list kact) : option (kstate A) :=
    match v_ready (k_loop s), run_handle (k_loop s) [] with
    | id :: _, Some v =>
        let s1 := KState v (k_job s) (k_calls s) (k_sent s) (k_tasks s) (k_fin s) in
        if cancelled (v_tab (k_loop s)) id then match acts with [] => Some s1 | _ => None end
        else match nth_error (k_job s) id with
        | Some (JCallback j) =>                                                      (* 31-34, 62-65, 94-96 *)
            match acts with
            | [] => Some (KState (vact_do v VSoon) (k_job s ++ [JWorker j]) (k_calls s) (k_sent s) (k_tasks s ++ [j]) (k_fin s))
            | _ => None
            end
        | Some (JWorker j) =>                                                        (* 27, 58, 90 *)
            kacts_do (KState v (k_job s) (k_calls s) (k_sent s ++ [(v_time v, j)]) (k_tasks s) (k_fin s)) acts
        | _ => kacts_do s1 acts
        end
    | _, _ => None
    end.

  (** Not in the code: labels of histories. *)
  Inductive klabel : Type :=
  | KOutside (a : kact)
  | KBegin
  | KRun (acts : list kact)
  | KEnd
  | KAbort.

  (** Not in the code: a step of the loop that runs no callback. *)
  Definition kplain (s : kstate A) (x : vlabel) : option (kstate A) :=
    match vstep top (k_loop s) x with
    | Some v => Some (KState v (k_job s) (k_calls s) (k_sent s) (k_tasks s) (k_fin s))
    | None => None
    end.

  (** testing/virtual_events.py:55-123: one step of the loop, with the callbacks of testing/subject.py:23-36, 54-67, 86-98. *)
  Definition kstep (s : kstate A) (x : klabel) : option (kstate A) :=
    match x with
    | KOutside a => match v_todo (k_loop s) with None => kact_do s a | Some _ => None end
    | KBegin => kplain s VBegin
    | KRun acts => krun s acts
    | KEnd => kplain s VEnd
    | KAbort => kplain s VAbort
    end.

  (** Not in the code: runs a history. *)
  Fixpoint krun_all (s : kstate A) (h : list klabel) : option (kstate A) :=
    match h with
    | [] => Some s
    | x :: h => match kstep s x with Some s => krun_all s h | None => None end
    end.

  Variable ok : kstate A -> klabel -> Prop.
  (** Not in the code: the states that histories lead to. *)
  Inductive ksteps : kstate A -> list klabel -> kstate A -> Prop :=
  | ks_nil s : ksteps s [] s
  | ks_snoc s h x s' s'' : ksteps s h s' -> ok s' x -> kstep s' x = Some s'' -> ksteps s (h ++ [x]) s''.
End TestSubj.
Arguments KBegin {A}.
Arguments KEnd {A}.
Arguments KAbort {A}.
Arguments KOther {A} a.
Arguments KReturn {A} j r.

(** ** Specification *)
(** All histories; those in which nothing is scheduled in the past. *)
Definition any_time {A} (s : kstate A) (x : klabel (A := A)) : Prop := True.
(** Not in the code: no timer is scheduled in the past by this action. *)
Definition not_past {A} (now : Z) (a : kact (A := A)) : Prop :=
  match a with KAt w _ | KOther (VAt w) => now <= w | _ => True end.
(** Not in the code: ... by this label. *)
Definition in_time {A} (s : kstate A) (x : klabel (A := A)) : Prop :=
  match x with
  | KOutside a => not_past (v_time (k_loop s)) a
  | KRun acts => Forall (not_past (v_time (k_loop s))) acts
  | _ => True
  end.
