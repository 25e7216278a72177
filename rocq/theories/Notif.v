(** * Notifications and the observers made from functions
    (notification.py; observers.py:97-148; utils.py). *)
From Verif Require Export Base.
Set Implicit Arguments.

Section Notif.
  Context {A St : Type}.

  (** An async function or method: what it does to the state of the world, and
      whether it raises. *)
  Definition act : Type := St -> St * option exn.

  (** An AsyncObserver: three methods. *)
  Record observer : Type := Obs {
    o_asend : A -> act;
    o_athrow : exn -> act;
    o_aclose : act
  }.

  (** Notification.accept (notification.py:51-57, 81-87, 111-117). *)
  Definition accept (n : notif A) (asend : A -> act) (athrow : exn -> act) (aclose : act) : act :=
    match n with
    | OnNext a => asend a
    | OnError e => athrow e
    | OnCompleted => aclose
    end.

  (** Notification.accept_observer (notification.py:59-60, 89-90, 119-120). *)
  Definition accept_observer (n : notif A) (obv : observer) : act :=
    match n with
    | OnNext a => o_asend obv a
    | OnError e => o_athrow obv e
    | OnCompleted => o_aclose obv
    end.

  (** utils.anoop (utils.py:16-17): takes one argument or none. *)
  Definition anoop : act := fun s => (s, None).

  (** AsyncAnonymousObserver(asend, athrow, aclose), each of which may be None
      (observers.py:105-128). *)
  Definition anonymous (asend : option (A -> act)) (athrow : option (exn -> act)) (aclose : option act) : observer :=
    Obs (match asend with Some f => f | None => fun _ => anoop end)
        (match athrow with Some f => f | None => fun _ => anoop end)
        (match aclose with Some f => f | None => anoop end).

  (** AsyncNotificationObserver(fn) (observers.py:134-144). *)
  Definition notification_observer (fn : notif A -> act) : observer :=
    Obs (fun a => fn (OnNext a)) (fun e => fn (OnError e)) (fn OnCompleted).

  (** noop() (observers.py:147-148), and NoopObserver (utils.py:20-28). *)
  Definition noop_observer : observer := anonymous (Some (fun _ => anoop)) (Some (fun _ => anoop)) (Some anoop).

  (** A source that calls the observer, once for each notification, and goes on
      whatever comes of it: the state at the end and what each call raised. *)
  Fixpoint calls (obv : observer) (l : list (notif A)) (s : St) : St * list (option exn) :=
    match l with
    | [] => (s, [])
    | n :: l =>
        let '(s1, r) := match n with OnNext a => o_asend obv a s | OnError e => o_athrow obv e s | OnCompleted => o_aclose obv s end in
        let '(s2, rs) := calls obv l s1 in (s2, r :: rs)
    end.

  (** The arguments of subscribe_async(send, throw, close): [send] is an observer,
      a function, or None.  AsyncAnonymousObservable.subscribe_async
      (observables.py:25-33).  Simplification: the functions are coroutine
      functions, as the constructor of AsyncAnonymousObserver asserts. *)
  Inductive sender : Type :=
  | SObserver (obv : observer)
  | SFunction (f : A -> act)
  | SNone.
  (** observers.py:105-119: the observer made from functions, or the observer given. *)
  Definition observer_of (send : sender) (throw : option (exn -> act)) (close : option act) : observer :=
    match send with
    | SObserver obv => obv
    | SFunction f => anonymous (Some f) throw close
    | SNone => anonymous None throw close
    end.
  (** Through [n] AsyncRx or AsyncIterableObservable around it (__init__.py:62-83,
      observables.py:40-47). *)
  Fixpoint observer_through (n : nat) (send : sender) (throw : option (exn -> act)) (close : option act) : observer :=
    match n with
    | 0 => observer_of send throw close
    | S n => observer_through n (SObserver (observer_of send throw close)) None None
    end.

  (** ** The ways to put an observer behind another. *)
  Inductive adapter : Type :=
  | ByObserver                            (* AsyncNotificationObserver(lambda n: n.accept_observer(obv)) *)
  | ByAccept                              (* AsyncNotificationObserver(lambda n: n.accept(obv.asend, obv.athrow, obv.aclose)) *)
  | Some3 (s t c : bool).                 (* AsyncAnonymousObserver with those of the methods of obv *)

  (** observers.py:97-148, notification.py: the observer made from [obv] by an adapter. *)
  Definition adapt (x : adapter) (obv : observer) : observer :=
    match x with
    | ByObserver => notification_observer (fun n => accept_observer n obv)
    | ByAccept => notification_observer (fun n => accept n (o_asend obv) (o_athrow obv) (o_aclose obv))
    | Some3 s t c => anonymous (if s then Some (o_asend obv) else None) (if t then Some (o_athrow obv) else None) (if c then Some (o_aclose obv) else None)
    end.
End Notif.
Arguments act : clear implicits.
Arguments observer : clear implicits.

(** ** Equality of notifications *)
Section Eq.
  Context {A : Type}.
  (** [==] of the elements and of the exceptions: whatever Python's objects do. *)
  Variable veq : A -> A -> bool.
  Variable eeq : exn -> exn -> bool.

  (** Notification.__eq__ (notification.py:62-65, 92-95, 122-125). *)
  Definition notif_eq (n m : notif A) : bool :=
    match n with
    | OnNext a => match m with OnNext b => veq a b | _ => false end
    | OnError e => match m with OnError f => eeq e f | _ => false end
    | OnCompleted => match m with OnCompleted => true | _ => false end
    end.

  (** Python's [==] of two lists of pairs of a time and a notification, as of
      AsyncTestObserver.values and what a test expects (testing/observer.py:72-74).
      Simplification: elements that are the same object are compared too. *)
  Fixpoint values_eq (l m : list (Z * notif A)) : bool :=
    match l, m with
    | [], [] => true
    | (t, n) :: l, (u, k) :: m => (t =? u)%Z && notif_eq n k && values_eq l m
    | _, _ => false
    end.
End Eq.

(** ** Specification *)
(** Whether a notification gets through an adapter, and through several. *)
Definition lets {A} (x : adapter) (n : notif A) : bool :=
  match x, n with
  | Some3 s _ _, OnNext _ => s
  | Some3 _ t _, OnError _ => t
  | Some3 _ _ c, OnCompleted => c
  | _, _ => true
  end.
(** Not in the code: a call gets through all adapters. *)
Definition lets_all {A} (xs : list adapter) (n : notif A) : bool := forallb (fun x => lets x n) xs.
(** What each call raises: those that do not get through raise nothing. *)
Fixpoint spread {A} (p : notif A -> bool) (l : list (notif A)) (rs : list (option exn)) : list (option exn) :=
  match l with
  | [] => []
  | n :: l => if p n then match rs with r :: rs => r :: spread p l rs | [] => [] end else None :: spread p l rs
  end.
(** What a subscriber that gave functions for some kinds of notification expects:
    each function given is called with what it is for, the others are ignored. *)
Definition run_functions {A St} (send : option (A -> act St)) (throw : option (exn -> act St)) (close : option (act St)) (n : notif A) (s : St) : St :=
  match n, send, throw, close with
  | OnNext a, Some f, _, _ => fst (f a s)
  | OnError e, _, Some f, _ => fst (f e s)
  | OnCompleted, _, _, Some f => fst (f s)
  | _, _, _, _ => s
  end.
(** Two notifications say the same, given when two elements, two exceptions do. *)
Inductive same {A} (R : A -> A -> Prop) (Q : exn -> exn -> Prop) : notif A -> notif A -> Prop :=
| same_next a b : R a b -> same R Q (OnNext a) (OnNext b)
| same_error e f : Q e f -> same R Q (OnError e) (OnError f)
| same_completed : same R Q OnCompleted OnCompleted.
