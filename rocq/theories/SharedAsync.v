(** * Several subscriptions of one from_async_iterable observable (create.py:79-109).

    The observable keeps the object it was given; the task of every
    subscription runs [async for] over it. *)
From Verif Require Export AsyncIter.
Set Implicit Arguments.

(** The object the subscriptions share:
    - an async iterable whose __aiter__ gives a new iterator every time, all
      alike (the iterator [it]);
    - an async generator object, whose __aiter__ is itself: suspended, with the
      items [xs] left, after which it ends or raises [e]; running, for the
      __anext__ of subscription [i]; or finished.  A further __anext__ while it
      is running raises RuntimeError, and one after it has finished
      StopAsyncIteration.  The generator does not catch CancelledError. *)
Inductive ashared (A : Type) : Type :=
| AIterable (it : iterator A)
| ASuspended (xs : list A) (e : option exn)
| ARunning (i : nat) (xs : list A) (e : option exn)
| AFinished.
Arguments AIterable {A} it.
Arguments ASuspended {A} xs e.
Arguments ARunning {A} i xs e.
Arguments AFinished {A}.

(** create.py:89-98: where the task of a subscription is; how many items its own iterator
    has given (iterables only); [a_cancel]: CancelledError will be thrown into it. *)
Record asub : Type := ASub_ { a_phase : gphase; a_pos : nat; a_cancel : bool }.

(** What can happen: somebody subscribes (numbered 0, 1, ...); the task of
    subscription [i] makes the step [x] of AsyncIter.v ([GCancel]: the
    subscription is disposed, which calls task.cancel()); the task of [i] is
    resumed with CancelledError. *)
Inductive alabel : Type :=
| ASubscribe
| AOf (i : nat) (x : glabel)
| AThrown (i : nat).

(** Not in the code: the shared object, the subscriptions so far, and all calls
    of observers in the order in which they were made. *)
Record astate (A : Type) : Type := AState { a_obj : ashared A; a_subs : list asub; a_log : list (nat * notif A) }.
Arguments AState {A} a_obj a_subs a_log.
Arguments a_obj {A} _.
Arguments a_subs {A} _.
Arguments a_log {A} _.

(** Not in the code: list update. *)
Fixpoint aput (i : nat) (u : asub) (l : list asub) : list asub :=
  match l, i with
  | [], _ => []
  | _ :: r, O => u :: r
  | v :: r, S j => v :: aput j u r
  end.

Section SharedAsync.
  Context {A : Type}.

  (** create.py:79-80: the observable, without subscriptions. *)
  Definition as_init (o : ashared A) : astate A := AState o [] [].

  (** Not in the code: the task of [i] gets to [p] and has made the calls [l]; the object is [o]. *)
  Definition amove (i : nat) (p : gphase) (n : nat) (o : ashared A) (l : list (notif A)) (s : astate A) : astate A :=
    AState o (aput i (ASub_ p n false) (a_subs s)) (a_log s ++ map (pair i) l).

  (** create.py:90: the call of __anext__. *)
  Definition anext (i : nat) (u : asub) (s : astate A) : astate A :=
    match a_obj s with
    | AIterable it => amove i GNext (a_pos u) (AIterable it) [] s
    | ASuspended xs e => amove i GNext (a_pos u) (ARunning i xs e) [] s
    | ARunning j xs e => amove i (GDied RuntimeErr) (a_pos u) (ARunning j xs e) [] s
    | AFinished => amove i GClose (a_pos u) AFinished [OnCompleted] s          (* 97 *)
    end.

  (** create.py:90: __anext__ of subscription [i] is done: 92, 97, or the task ends with the exception. *)
  Definition ayield (i : nat) (u : asub) (s : astate A) : option (astate A) :=
    match a_obj s with
    | AIterable it =>
        Some match it (a_pos u) with
             | Item v => amove i GSend (S (a_pos u)) (a_obj s) [OnNext v] s
             | IStop => amove i GClose (S (a_pos u)) (a_obj s) [OnCompleted] s
             | IRaise e => amove i (GDied e) (S (a_pos u)) (a_obj s) [] s
             end
    | ARunning j (v :: xs) e => if j =? i then Some (amove i GSend (a_pos u) (ASuspended xs e) [OnNext v] s) else None
    | ARunning j [] None => if j =? i then Some (amove i GClose (a_pos u) AFinished [OnCompleted] s) else None
    | ARunning j [] (Some e) => if j =? i then Some (amove i (GDied e) (a_pos u) AFinished [] s) else None
    | _ => None
    end.

  (** create.py:84-85: task.cancel() has no effect on a task that is over. *)
  Definition aover (u : asub) : bool := match a_phase u with GEnd | GDied _ => true | _ => false end.

  (** create.py:82-107 *)
  Definition astep (s : astate A) (l : alabel) : option (astate A) :=
    match l with
    | ASubscribe => Some (AState (a_obj s) (a_subs s ++ [ASub_ GNew 0 false]) (a_log s))
    | AOf i x =>
        match nth_error (a_subs s) i with
        | None => None
        | Some u =>
            match x with
            | GCancel =>
                Some (if aover u then s
                      else AState (a_obj s) (aput i (ASub_ (a_phase u) (a_pos u) true) (a_subs s)) (a_log s))
            | _ =>
                if a_cancel u then None
                else match x, a_phase u with
                     | GStart, GNew => Some (anext i u s)
                     | GYield, GNext => ayield i u s
                     | GRet, GSend => Some (anext i u s)
                     | GRet, GThrow | GRet, GClose => Some (amove i GEnd (a_pos u) (a_obj s) [] s)           (* 95, 98 *)
                     | GExn e, GSend => Some (amove i GThrow (a_pos u) (a_obj s) [OnError e] s)              (* 93-94 *)
                     | GExn e, GThrow | GExn e, GClose => Some (amove i (GDied e) (a_pos u) (a_obj s) [] s)
                     | _, _ => None
                     end
            end
        end
    | AThrown i =>
        match nth_error (a_subs s) i with
        | None => None
        | Some u =>
            if a_cancel u
            then Some (amove i GEnd (a_pos u)
                         (match a_phase u, a_obj s with
                          | GNext, ARunning _ _ _ => AFinished     (* thrown into the generator, which ends *)
                          | _, o => o
                          end) [] s)
            else None
        end
    end.

  (** Not in the code: the states that histories lead to. *)
  Inductive areach (o : ashared A) : list alabel -> astate A -> Prop :=
  | as_nil : areach o [] (as_init o)
  | as_snoc h l s s' : areach o h s -> astep s l = Some s' -> areach o (h ++ [l]) s'.

  (** Not in the code: runs a history. *)
  Fixpoint aruns (s : astate A) (h : list alabel) : option (astate A) :=
    match h with
    | [] => Some s
    | x :: r => match astep s x with Some s' => aruns s' r | None => None end
    end.

  (** ** Vocabulary for C74 *)
  (** The calls the observer of subscription [i] has got. *)
  Definition got (i : nat) (s : astate A) : list (notif A) :=
    map snd (filter (fun p => fst p =? i) (a_log s)).
  (** All elements sent to any observer, in order. *)
  Definition handed_out (s : astate A) : list A :=
    flat_map (fun p => match snd p with OnNext v => [v] | _ => [] end) (a_log s).
  (** The task of subscription [i] has come to its end. *)
  Definition task_over (i : nat) (s : astate A) : Prop := exists u, nth_error (a_subs s) i = Some u /\ aover u = true.
  (** The task of subscription [i] is waiting for the answer of __anext__. *)
  Definition awaits_next (i : nat) (s : astate A) : Prop := exists u, nth_error (a_subs s) i = Some u /\ a_phase u = GNext.
  (** The steps of subscription [i]. *)
  Definition steps_of (i : nat) (h : list alabel) : list glabel :=
    flat_map (fun l => match l with AOf j x => if j =? i then [x] else [] | _ => [] end) h.
  (** No subscription is disposed. *)
  Definition none_disposed (h : list alabel) : Prop := forall i, ~ In (AOf i GCancel) h.
  (** No observer raises. *)
  Definition none_raised (h : list alabel) : Prop := forall i e, ~ In (AOf i (GExn e)) h.
  (** Subscription [i] asked for an element while another one was waiting for its own. *)
  Definition overlapped (o : ashared A) (i : nat) (h : list alabel) : Prop :=
    exists h1 x h2 s1 j, h = h1 ++ AOf i x :: h2 /\ (x = GStart \/ x = GRet) /\ areach o h1 s1 /\ awaits_next j s1 /\ j <> i.
End SharedAsync.
Arguments areach {A} o h s.
