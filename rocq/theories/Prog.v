(** * Coroutine bodies as programs.

    [prog S N] is the body of an [async def] of the library: [S] is the closure
    state ([nonlocal] variables), [N] the messages it can send to the next
    observer.  [Call n k] is [await downstream.<method n>], whose outcome
    ([None]: returned, [Some e]: raised [e]) is passed to the continuation. *)
From Verif Require Export Base.
Set Implicit Arguments.

(** The coroutines of /repo as a sequence of reads and writes of the operator's variables and awaited calls (e.g. observers.py:167-188); not one definition of the code. *)
Inductive prog (S N : Type) : Type :=
| Ret
| Raise (e : exn)
| Read (k : S -> prog S N)
| Write (s : S) (k : prog S N)
| Call (n : N) (k : option exn -> prog S N).
Arguments Ret {S N}.
Arguments Raise {S N} e.
Arguments Read {S N} k.
Arguments Write {S N} s k.
Arguments Call {S N} n k.

(** Continue with [K None] if [p] returned, with [K (Some e)] if it raised. *)
Fixpoint bindp {S N} (p : prog S N) (K : option exn -> prog S N) : prog S N :=
  match p with
  | Ret => K None
  | Raise e => K (Some e)
  | Read k => Read (fun s => bindp (k s) K)
  | Write s k => Write s (bindp k K)
  | Call n k => Call n (fun r => bindp (k r) K)
  end.

(** [p; q] *)
Definition seqp {S N} (p q : prog S N) : prog S N :=
  bindp p (fun r => match r with None => q | Some e => Raise e end).

(** [try: p  except Exception as ex: h ex] *)
Definition tryp {S N} (p : prog S N) (h : exn -> prog S N) : prog S N :=
  bindp p (fun r => match r with None => Ret | Some e => h e end).

(** [await downstream.<n>] : an exception of the callee propagates. *)
Definition awaitp {S N} (n : N) : prog S N :=
  Call n (fun r => match r with None => Ret | Some e => Raise e end).

(** [for x in xs: await downstream.<f x>] *)
Fixpoint forp {S N X} (xs : list X) (f : X -> prog S N) : prog S N :=
  match xs with
  | [] => Ret
  | x :: r => seqp (f x) (forp r f)
  end.

(** Execution against a downstream [D] whose method calls are [call]. *)
Fixpoint exec {S N D} (call : D -> N -> D * option exn) (p : prog S N) (s : S) (d : D)
  : S * D * option exn :=
  match p with
  | Ret => (s, d, None)
  | Raise e => (s, d, Some e)
  | Read k => exec call (k s) s d
  | Write s' k => exec call k s' d
  | Call n k => let (d', r) := call d n in exec call (k r) s d'
  end.

(** Run [p] up to and including its next [await]: Python code between two
    awaits is not interrupted.  The third component is the rest of the body
    ([Ret]/[Raise] when it has finished). *)
Fixpoint advance {S N D} (call : D -> N -> D * option exn) (p : prog S N) (s : S) (d : D)
  : S * D * prog S N :=
  match p with
  | Ret => (s, d, Ret)
  | Raise e => (s, d, Raise e)
  | Read k => advance call (k s) s d
  | Write s' k => advance call k s' d
  | Call n k => let (d', r) := call d n in (s, d', k r)
  end.

(** An operator: closure state, its value at subscription, one body per
    message, and (for workers) whether the loop keeps receiving. *)
Record op (M N : Type) : Type := Op {
  st : Type;
  ini : st;
  body : M -> prog st N;
  live : st -> bool
}.
Arguments st {M N} o.
Arguments ini {M N} o.
Arguments body {M N} o m.
Arguments live {M N} o s.

(** ** Direct calls between observers: inlining.

    When an observer awaits a method of another observer that is not a mailbox
    (e.g. transform.py:48-54), the callee runs inside the caller's task.
    [inlinep f p] replaces each call [n] of [p] by the body [f n]. *)
Fixpoint lift2 {S1 S2 N} (p : prog S2 N) : prog (S1 * S2) N :=
  match p with
  | Ret => Ret
  | Raise e => Raise e
  | Read k => Read (fun s => lift2 (k (snd s)))
  | Write s2 k => Read (fun s => Write (fst s, s2) (lift2 k))
  | Call n k => Call n (fun r => lift2 (k r))
  end.

(** A coroutine whose awaited calls run another coroutine (e.g. the mailbox worker of observers.py:167-188 awaiting transform.py:49-56). *)
Fixpoint inlinep {S1 S2 N P} (f : N -> prog S2 P) (p : prog S1 N) : prog (S1 * S2) P :=
  match p with
  | Ret => Ret
  | Raise e => Raise e
  | Read k => Read (fun s => inlinep f (k (fst s)))
  | Write s1 k => Read (fun s => Write (s1, snd s) (inlinep f k))
  | Call n k => bindp (lift2 (f n)) (fun r => inlinep f (k r))
  end.
