(** * C68: notifications and observers made from functions *)
From Verif Require Import NotifProofs.
Set Implicit Arguments.

(** Any observer behind any number of adapters: AsyncNotificationObserver with
    accept or accept_observer, AsyncAnonymousObserver with all its methods.
    Every call does the same and raises the same as without them. *)
Theorem C68_adapters {A St : Type} (o : observer A St) (xs : list adapter) (l : list (notif A)) (s : St) :
  Forall (fun x => x = ByObserver \/ x = ByAccept \/ x = Some3 true true true) xs ->
  calls (fold_right adapt o xs) l s = calls o l s.
Proof.
  intros H. apply calls_ext. intros n. rewrite call_adapt_all. replace (lets_all xs n) with true; [reflexivity|].
  symmetry. apply forallb_forall. intros x Hx. rewrite Forall_forall in H. destruct (H x Hx) as [->|[->| ->]]; destruct n; reflexivity.
Qed.
Print Assumptions C68_adapters.

(** If some leave out methods: the observer gets exactly the notifications that
    get through all of them, and the other calls do nothing and do not raise. *)
Theorem C68_missing {A St : Type} (o : observer A St) (xs : list adapter) (l : list (notif A)) (s : St) :
  calls (fold_right adapt o xs) l s =
    (fst (calls o (filter (lets_all xs) l) s), spread (lets_all xs) l (snd (calls o (filter (lets_all xs) l) s))).
Proof. apply adapted. Qed.
Print Assumptions C68_missing.

(** Subscribing with functions, through any number of AsyncRx or
    AsyncIterableObservable: each is called for its kind of notification, with
    its argument, in order; those not given do not matter. *)
Theorem C68_functions {A St : Type} (k : nat) (send : option (A -> act St)) throw close (l : list (notif A)) (s : St) :
  fst (calls (observer_through k (match send with Some f => SFunction f | None => SNone end) throw close) l s) =
  fold_left (fun s n => run_functions send throw close n s) l s.
Proof. rewrite through. apply calls_functions. Qed.
Print Assumptions C68_functions.

(** Subscribing with an observer, through any number of layers: it is that
    observer that is called; functions given besides are never called. *)
Theorem C68_observer {A St : Type} (k : nat) (o : observer A St) throw close (l : list (notif A)) (s : St) :
  calls (observer_through k (SObserver o) throw close) l s = calls o l s.
Proof. now rewrite through. Qed.
Print Assumptions C68_observer.

(** noop() and NoopObserver ignore everything. *)
Theorem C68_noop {A St : Type} (l : list (notif A)) (s : St) : calls (A := A) noop_observer l s = (s, repeat None (length l)).
Proof. apply noop_calls. Qed.
Print Assumptions C68_noop.

(** Two notifications are equal if they are of the same kind and their contents
    are equal. *)
Theorem C68_eq {A : Type} (veq : A -> A -> bool) (eeq : exn -> exn -> bool) (n m : notif A) :
  notif_eq veq eeq n m = true <-> same (fun a b => veq a b = true) (fun a b => eeq a b = true) n m.
Proof. apply notif_eq_same. Qed.
Print Assumptions C68_eq.

(** So it is an equivalence if equality of elements and of exceptions is. *)
Theorem C68_eq_equivalence {A : Type} (veq : A -> A -> bool) (eeq : exn -> exn -> bool) :
  (forall a, veq a a = true) -> (forall a b, veq a b = true -> veq b a = true) -> (forall a b c, veq a b = true -> veq b c = true -> veq a c = true) ->
  (forall a, eeq a a = true) -> (forall a b, eeq a b = true -> eeq b a = true) -> (forall a b c, eeq a b = true -> eeq b c = true -> eeq a c = true) ->
  (forall n, notif_eq veq eeq n n = true) /\
  (forall n m, notif_eq veq eeq n m = true -> notif_eq veq eeq m n = true) /\
  (forall n m k, notif_eq veq eeq n m = true -> notif_eq veq eeq m k = true -> notif_eq veq eeq n k = true).
Proof.
  intros r s t r' s' t'. repeat split.
  - destruct n; cbn; auto.
  - intros n m. destruct n, m; cbn; auto.
  - intros n m k. destruct n, m, k; cbn; try discriminate; eauto.
Qed.
Print Assumptions C68_eq_equivalence.

(** Comparing what AsyncTestObserver recorded with a list holds exactly if that
    list has the same times and equal notifications, in the same order. *)
Theorem C68_values_eq {A : Type} (veq : A -> A -> bool) (eeq : exn -> exn -> bool) (l m : list (Z * notif A)) :
  values_eq veq eeq l m = true <->
  Forall2 (fun x y => fst x = fst y /\ same (fun a b => veq a b = true) (fun a b => eeq a b = true) (snd x) (snd y)) l m.
Proof. apply values_eq_iff. Qed.
Print Assumptions C68_values_eq.

(** An observer that keeps all notifications, and raises at element 3. *)
Definition keep : observer nat (list (notif nat)) :=
  Obs (fun a s => (s ++ [OnNext a], if Nat.eqb a 3 then Some (UserExn 1) else None))
      (fun e s => (s ++ [OnError e], None)) (fun s => (s ++ [OnCompleted], None)).
Example C68_example_adapters :
  calls (fold_right adapt keep [ByObserver; Some3 true true true; ByAccept]) [OnNext 2; OnNext 3; OnError (UserExn 9); OnCompleted] [] =
  ([OnNext 2; OnNext 3; OnError (UserExn 9); OnCompleted], [None; Some (UserExn 1); None; None]).
Proof. reflexivity. Qed.
Example C68_example_missing :
  calls (fold_right adapt keep [ByObserver; Some3 true false true]) [OnNext 2; OnNext 3; OnError (UserExn 9); OnCompleted] [] =
  ([OnNext 2; OnNext 3; OnCompleted], [None; Some (UserExn 1); None; None]).
Proof. reflexivity. Qed.
Example C68_example_functions :
  fst (calls (observer_through 2 (SFunction (fun a (s : list nat) => (s ++ [a], None))) None (Some (fun s => (s ++ [99], None)))) [OnNext 2; OnError (UserExn 9); OnNext 3; OnCompleted] []) = [2; 3; 99].
Proof. reflexivity. Qed.
Example C68_example_values :
  values_eq Nat.eqb (fun _ _ => true) [(1%Z, OnNext 4); (2%Z, OnCompleted)] [(1%Z, OnNext 4); (2%Z, OnCompleted)] = true /\
  values_eq Nat.eqb (fun _ _ => true) [(1%Z, OnNext 4); (2%Z, OnCompleted)] [(1%Z, OnNext 4)] = false /\
  values_eq Nat.eqb (fun _ _ => true) [(1%Z, OnNext 4)] [(2%Z, OnNext 4)] = false.
Proof. repeat split. Qed.
