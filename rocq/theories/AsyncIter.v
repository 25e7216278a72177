(** * from_async_iterable / of_async_iterable (aioreactive/create.py:79-109). *)
From Verif Require Export Base Spec.
Set Implicit Arguments.

(** Where the worker task (create.py:89-98) is: created, awaiting __anext__
    (90), awaiting observer.asend (92), observer.athrow (94) or observer.aclose
    (97), over, or ended by an exception.  The observer is called directly,
    without a safe_observer.  Line 98 and the set [tasks] have no effect
    a user can observe and are left out. *)
Inductive gphase : Type :=
| GNew
| GNext
| GSend
| GThrow
| GClose
| GEnd
| GDied (e : exn).

(** [g_pos]: how many times __anext__ was called; [g_log]: calls to the observer. *)
Record gstate (A : Type) : Type := GState { g_phase : gphase; g_pos : nat; g_log : list (notif A) }.
Arguments GState {A} g_phase g_pos g_log.
Arguments g_phase {A} g.
Arguments g_pos {A} g.
Arguments g_log {A} g.

(** The task starts; __anext__ is done; the call of the observer returns, or
    raises; the subscription is disposed (84-85: the task is cancelled; a
    CancelledError is not an Exception, so line 93 does not catch it). *)
Inductive glabel : Type :=
| GStart
| GYield
| GRet
| GExn (e : exn)
| GCancel.

Section AsyncIter.
  Context {A : Type} (it : iterator A).

  (** create.py:79-109: the state after subscribe_async has started the task. *)
  Definition g_init : gstate A := GState GNew 0 [].

  (** create.py:79-109 of_async_iterable: one step of a subscription. *)
  Definition gstep (s : gstate A) (x : glabel) : option (gstate A) :=
    match x with
    | GStart => match g_phase s with GNew => Some (GState GNext (g_pos s) (g_log s)) | _ => None end
    | GYield =>
        match g_phase s with
        | GNext =>
            match it (g_pos s) with
            | Item v => Some (GState GSend (S (g_pos s)) (g_log s ++ [OnNext v]))         (* 92 *)
            | IStop => Some (GState GClose (S (g_pos s)) (g_log s ++ [OnCompleted]))      (* 97 *)
            | IRaise e => Some (GState (GDied e) (S (g_pos s)) (g_log s))
            end
        | _ => None
        end
    | GRet =>
        match g_phase s with
        | GSend => Some (GState GNext (g_pos s) (g_log s))
        | GThrow | GClose => Some (GState GEnd (g_pos s) (g_log s))                       (* 95, 98 *)
        | _ => None
        end
    | GExn e =>
        match g_phase s with
        | GSend => Some (GState GThrow (g_pos s) (g_log s ++ [OnError e]))                (* 93-94 *)
        | GThrow | GClose => Some (GState (GDied e) (g_pos s) (g_log s))
        | _ => None
        end
    | GCancel =>
        Some (GState (match g_phase s with GDied e => GDied e | _ => GEnd end) (g_pos s) (g_log s))
    end.

  (** Not in the code: the states that histories lead to. *)
  Inductive greach : list glabel -> gstate A -> Prop :=
  | gr_nil : greach [] g_init
  | gr_snoc h x s s' : greach h s -> gstep s x = Some s' -> greach (h ++ [x]) s'.

  (** The task has come to an end. *)
  Definition g_over (s : gstate A) : Prop := match g_phase s with GEnd | GDied _ => True | _ => False end.
End AsyncIter.
Arguments greach {A} it h s.

(** ** Specification *)
(** The async iterable yields [xs] and then stops ([Completed]) or raises ([Open]). *)
Definition iterates {A} (it : iterator A) (xs : list A) (e : ending) : Prop :=
  (forall i, i < length xs -> exists v, nth_error xs i = Some v /\ it i = Item v) /\
  (it (length xs) = IStop /\ e = Completed \/ (exists x, it (length xs) = IRaise x) /\ e = Open).

(** A call of the observer raised. *)
Definition observer_raised (h : list glabel) : Prop := exists e, In (GExn e) h.
