(** * Base: exceptions, notifications, prefixes.

    Notifications model aioreactive/notification.py; exceptions are values. *)
From Coq Require Export List ZArith Lia Bool Arith.
Export ListNotations.
Set Implicit Arguments.

(** Python exceptions that occur in the modelled code. [UserExn z] is any
    exception raised by user code (mapper, predicate, observer, iterator).
    [ObjectDisposed]: expression.system.ObjectDisposedException (subject.py:35).
    [ValueError]: filtering.py:239.  [TypeError]: filtering.py:392.
    [InvalidState]: asyncio.InvalidStateError (Future.set_result on a done future).
    [StopAsyncIter]: StopAsyncIteration (observers.py:52). *)
Inductive exn : Type :=
| UserExn (z : Z)
| ObjectDisposed
| ValueError
| TypeError
| InvalidState
| StopAsyncIter
| KeyError
| RuntimeErr.

(** notification.py:41-128: OnNext(value), OnError(exception), OnCompleted(). *)
Inductive notif (A : Type) : Type :=
| OnNext (a : A)
| OnError (e : exn)
| OnCompleted.
Arguments OnNext {A} a.
Arguments OnError {A} e.
Arguments OnCompleted {A}.

(** Result of a user callback: a value, or the exception it raised. *)
Inductive res (A : Type) : Type :=
| Ok (a : A)
| Err (e : exn).
Arguments Ok {A} a.
Arguments Err {A} e.

(** notification.py:71-101: OnError and OnCompleted are the notifications that end a stream. *)
Definition is_term {A} (n : notif A) : bool :=
  match n with OnNext _ => false | _ => true end.

(** What [next(enumerator)] does: yields an item, raises StopIteration, or
    raises another exception. *)
Inductive istep (B : Type) : Type :=
| Item (b : B)
| IStop
| IRaise (e : exn).
Arguments Item {B} b.
Arguments IStop {B}.
Arguments IRaise {B} e.

(** An iterator: the outcome of its i-th [next]. *)
Definition iterator (B : Type) := nat -> istep B.

(** The two sources of a binary operator. *)
Inductive either (A B : Type) : Type :=
| Src (n : notif A)
| Oth (n : notif B).
Arguments Src {A B} n.
Arguments Oth {A B} n.

(** ** Prefixes of lists *)
Definition prefix {X} (a b : list X) : Prop := exists c, b = a ++ c.

Lemma prefix_refl X (a : list X) : prefix a a.
Proof. exists []. now rewrite app_nil_r. Qed.

Lemma prefix_trans X (a b c : list X) : prefix a b -> prefix b c -> prefix a c.
Proof. intros [x ->] [y ->]. exists (x ++ y). now rewrite app_assoc. Qed.

Lemma prefix_app X (a b : list X) : prefix a (a ++ b).
Proof. now exists b. Qed.

Lemma prefix_nil X (a : list X) : prefix [] a.
Proof. now exists a. Qed.

Lemma prefix_length X (a b : list X) : prefix a b -> length a <= length b.
Proof. intros [c ->]. rewrite app_length. lia. Qed.

Lemma prefix_cons X (x : X) a b : prefix a b -> prefix (x :: a) (x :: b).
Proof. intros [c ->]. now exists c. Qed.

Lemma prefix_app_l X (p a b : list X) : prefix a b -> prefix (p ++ a) (p ++ b).
Proof. intros [c ->]. exists c. now rewrite app_assoc. Qed.
