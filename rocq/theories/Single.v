(** * AsyncSingleSubject (aioreactive/subject.py:16-94). *)
From Verif Require Export Subject Spec.
Set Implicit Arguments.

(** A call of asend/athrow/aclose: waiting for the future [_wait] (45, 55, 67),
    in the coroutine of observer [o] (49, 59, 72), over (returned or raised),
    or spinning: [_observer] is None and [_wait] is done, so that the loop
    (43-46, 54-55, 65-67) goes round without suspending. *)
Inductive vcall (A : Type) : Type :=
| VWaiting (n : notif A)
| VIn (n : notif A) (o : nat)
| VOver (r : option exn)
| VSpin.
Arguments VWaiting {A} n.
Arguments VIn {A} n o.
Arguments VOver {A} r.
Arguments VSpin {A}.

(** subject.py:25-31.  [v_wait]: [_wait] is done; [v_queue]: the calls awaiting
    it, oldest first (a future wakes them up in this order); [v_hung]: a call
    is spinning, the event loop never gets control back; [v_log]: calls of
    observers: by which call, which observer, with what. *)
Record vstate (A : Type) : Type := VState {
  v_wait : bool;
  v_obs : option nat;
  v_disposed : bool;
  v_stopped : bool;
  v_calls : list (vcall A);
  v_queue : list nat;
  v_hung : bool;
  v_log : list (nat * nat * notif A)
}.
Arguments VState {A} v_wait v_obs v_disposed v_stopped v_calls v_queue v_hung v_log.
Arguments v_wait {A} v.
Arguments v_obs {A} v.
Arguments v_disposed {A} v.
Arguments v_stopped {A} v.
Arguments v_calls {A} v.
Arguments v_queue {A} v.
Arguments v_hung {A} v.
Arguments v_log {A} v.

(** subject.py:25-31: a new single subject. *)
Definition v_init {A} : vstate A := VState false None false false [] [] false [].

(** What happens: somebody calls the subject; the oldest waiting call is
    resumed; the observer called by call number [c] returns, or raises;
    observer [o] subscribes; the subject, or a subscription (94), is disposed. *)
Inductive vlabel (A : Type) : Type :=
| VCall (n : notif A)
| VResume
| VRet (c : nat)
| VExn (c : nat) (e : exn)
| VSub (o : nat)
| VDispose.
Arguments VCall {A} n.
Arguments VResume {A}.
Arguments VRet {A} c.
Arguments VExn {A} c e.
Arguments VSub {A} o.
Arguments VDispose {A}.

(** From the head of the loop "while self._observer is None" on. *)
Definition vloop {A} (c : nat) (n : notif A) (s : vstate A) : vcall A * list (nat * nat * notif A) :=
  match v_obs s with
  | None => (if v_wait s then VSpin else VWaiting n, [])                 (* 43-46, 54-55, 65-67 *)
  | Some o =>
      if match n with OnNext _ => false | _ => v_disposed s end          (* 57, 69 *)
      then (VOver (Some ObjectDisposed), [])
      else if v_stopped s then (VOver None, [])                          (* 48, 58, 70 *)
      else (VIn n o, [(c, o, n)])                                        (* 49, 59, 72 *)
  end.

(** subject.py:45, 55, 67: a call that waits is queued on the future _wait. *)
Definition vplace {A} (c : nat) (p : vcall A) (q : list nat) : list nat :=
  match p with VWaiting _ => q ++ [c] | _ => q end.
(** Not in the code: a call that never lets the loop run. *)
Definition vspins {A} (p : vcall A) : bool := match p with VSpin => true | _ => false end.

(** subject.py:16-94 AsyncSingleSubject: one step. *)
Definition vstep {A} (s : vstate A) (x : vlabel A) : option (vstate A) :=
  if v_hung s then None else
  match x with
  | VCall n =>                                                           (* asend 37-49, athrow 51-60, aclose 62-73 *)
      let c := length (v_calls s) in
      let (p, l) := if match n with OnNext _ => v_disposed s | _ => false end    (* 40 *)
                    then (VOver (Some ObjectDisposed), [])
                    else vloop c n s in
      Some (VState (v_wait s) (v_obs s) (v_disposed s) (v_stopped s) (v_calls s ++ [p]) (vplace c p (v_queue s)) (vspins p) (v_log s ++ l))
  | VResume =>
      match v_wait s, v_queue s with
      | true, c :: q =>
          match nth_error (v_calls s) c with
          | Some (VWaiting n) =>
              let (p, l) := vloop c n s in
              Some (VState (v_wait s) (v_obs s) (v_disposed s) (v_stopped s) (upd c p (v_calls s)) (vplace c p q) (vspins p) (v_log s ++ l))
          | _ => None
          end
      | _, _ => None
      end
  | VRet c =>
      match nth_error (v_calls s) c with
      | Some (VIn n o) =>                                                (* 49; 60; 73 *)
          Some (VState (v_wait s) (v_obs s) (v_disposed s) (match n with OnNext _ => v_stopped s | _ => true end)
                       (upd c (VOver None) (v_calls s)) (v_queue s) false (v_log s))
      | _ => None
      end
  | VExn c e =>
      match nth_error (v_calls s) c with
      | Some (VIn n o) =>
          Some (VState (v_wait s) (v_obs s) (v_disposed s) (v_stopped s) (upd c (VOver (Some e)) (v_calls s)) (v_queue s) false (v_log s))
      | _ => None
      end
  | VSub o =>                                                            (* 88-94; the call that raises changes nothing *)
      if v_disposed s then Some s
      else Some (VState true (Some o) (v_disposed s) (v_stopped s) (v_calls s) (v_queue s) false (v_log s))
  | VDispose =>                                                          (* 78-79 *)
      Some (VState (v_wait s) None true (v_stopped s) (v_calls s) (v_queue s) false (v_log s))
  end.

(** Not in the code: the states that histories lead to. *)
Inductive vreach {A} : list (vlabel A) -> vstate A -> Prop :=
| vr_nil : vreach [] v_init
| vr_snoc h x s s' : vreach h s -> vstep s x = Some s' -> vreach (h ++ [x]) s'.

(** ** Specification, in terms of the history only *)

(** The observer listening after [h]: the last one that subscribed, if the
    subject has not been disposed. *)
Fixpoint listener_from {A} (o : option nat) (h : list (vlabel A)) : option nat :=
  match h with
  | [] => o
  | VDispose :: _ => None
  | VSub o' :: r => listener_from (Some o') r
  | _ :: r => listener_from o r
  end.
(** Not in the code: the subscription that a history leaves in force. *)
Definition listener {A} (h : list (vlabel A)) : option nat := listener_from None h.

(** Disposed; somebody subscribed successfully, that is, before it was. *)
Definition v_off {A} (h : list (vlabel A)) : bool := existsb (fun x => match x with VDispose => true | _ => false end) h.
(** Not in the code: whether a subscription was made in a history. *)
Fixpoint had_listener {A} (h : list (vlabel A)) : bool :=
  match h with
  | [] => false
  | VDispose :: _ => false
  | VSub _ :: _ => true
  | _ :: r => had_listener r
  end.

(** What was sent to the subject; number of calls. *)
Definition v_sent {A} (h : list (vlabel A)) : list (notif A) :=
  flat_map (fun x => match x with VCall n => [n] | _ => [] end) h.
(** Not in the code: how many calls were made in a history. *)
Definition v_ncalls {A} (h : list (vlabel A)) : nat := length (v_sent h).

(** What call number [c] did: the observers it called, with what. *)
Definition v_effect {A} (c : nat) (s : vstate A) : list (nat * notif A) :=
  map (fun e => (snd (fst e), snd e)) (filter (fun e => fst (fst e) =? c) (v_log s)).

(** Not in the code: every call is over. *)
Definition v_idle {A} (s : vstate A) : Prop := forall c p, nth_error (v_calls s) c = Some p -> exists r, p = VOver r.

(** One producer, which awaits each of its calls; no observer raises, the
    subject is not disposed. *)
Definition v_awaited {A} (h : list (vlabel A)) : Prop :=
  (forall c e, ~ In (VExn c e) h) /\ ~ In VDispose h /\
  forall h1 n h2 s1, h = h1 ++ VCall n :: h2 -> vreach h1 s1 -> v_idle s1.
