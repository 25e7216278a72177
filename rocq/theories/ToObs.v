(** * to_observable (leave.py:32-65): one subscription to the reactivex observable.

    The observer [obv] is the one reactivex passes to [subscribe]; its methods are
    synchronous.  [Disposable(dispose)] of reactivex runs [dispose] at most once. *)
From Verif Require Export Base Spec.
Set Implicit Arguments.

(** The task of [start] (39-52): created (54); in [source.subscribe_async] (51);
    over, its done callback not yet run; over, with the callback run. *)
Inductive tophase : Type := TNew | TSubscribing | TEnded | TCalledBack.

(** The tasks kept in [tasks] (34): that of [start], that of [dispose_async]. *)
Inductive totask : Type := StartTask | DisposeTask.
(** Not in the code: the kind of a task. *)
Definition is_start (t : totask) : bool := match t with StartTask => true | DisposeTask => false end.

(** [t_sub]: [subscription] is not None; [t_tasks]: [tasks]; [t_used]: the
    Disposable was disposed; [t_out]: the calls of [obv]; [t_created]: the task
    of 60 exists; [t_disposed]: how often the source's subscription
    was disposed; [t_lost]: exceptions that reach nobody but the event loop's
    exception handler. *)
Record tostate (A : Type) : Type := ToState {
  t_phase : tophase;
  t_sub : bool;
  t_tasks : list totask;
  t_used : bool;
  t_created : bool;
  t_out : list (notif A);
  t_disposed : nat;
  t_lost : list exn
}.
Arguments ToState {A}.
Arguments t_phase {A} t.
Arguments t_sub {A} t.
Arguments t_tasks {A} t.
Arguments t_used {A} t.
Arguments t_created {A} t.
Arguments t_out {A} t.
Arguments t_disposed {A} t.
Arguments t_lost {A} t.

(** After [subscribe] (36-63) has returned. *)
Definition t_init {A} : tostate A := ToState TNew false [StartTask] false false [] 0 [].

(** Not in the code: what can happen (leave.py:32-65). *)
Inductive tolabel (A : Type) : Type :=
| TStart                  (* the task of [start] runs: subscribe_async is called *)
| TCall (n : notif A)     (* the source calls the observer given to it *)
| TSubscribed             (* subscribe_async returns *)
| TSubFailed (e : exn)    (* or raises *)
| TCallback               (* the done callback of the task (56) runs *)
| TDispose                (* the user (or reactivex, at the end) disposes *)
| TDisposing.             (* the task of 60 runs: dispose_async is called *)
Arguments TStart {A}.
Arguments TCall {A} n.
Arguments TSubscribed {A}.
Arguments TSubFailed {A} e.
Arguments TCallback {A}.
Arguments TDispose {A}.
Arguments TDisposing {A}.

Section ToObs.
  Context {A : Type}.
  Notation tostate := (tostate A).

  (** set.remove *)
  Definition drop (s : tostate) : tostate :=
    if existsb is_start (t_tasks s)
    then ToState (t_phase s) (t_sub s) (filter (fun t => negb (is_start t)) (t_tasks s)) (t_used s) (t_created s) (t_out s) (t_disposed s) (t_lost s)
    else ToState (t_phase s) (t_sub s) (t_tasks s) (t_used s) (t_created s) (t_out s) (t_disposed s) (t_lost s ++ [KeyError]).

  (** leave.py:32-65 to_observable: one step of a subscription. *)
  Definition tostep (s : tostate) (l : tolabel A) : option tostate :=
    match l with
    | TStart =>
        match t_phase s with
        | TNew => Some (ToState TSubscribing (t_sub s) (t_tasks s) (t_used s) (t_created s) (t_out s) (t_disposed s) (t_lost s))
        | _ => None
        end
    | TCall n =>                                                                     (* 42-49 *)
        match t_phase s with
        | TNew => None
        | _ => Some (ToState (t_phase s) (t_sub s) (t_tasks s) (t_used s) (t_created s) (t_out s ++ [n]) (t_disposed s) (t_lost s))
        end
    | TSubscribed =>                                                                 (* 51-52 *)
        match t_phase s with
        | TSubscribing => Some (drop (ToState TEnded true (t_tasks s) (t_used s) (t_created s) (t_out s) (t_disposed s) (t_lost s)))
        | _ => None
        end
    | TSubFailed e =>
        match t_phase s with
        | TSubscribing => Some (ToState TEnded (t_sub s) (t_tasks s) (t_used s) (t_created s) (t_out s) (t_disposed s) (t_lost s ++ [e]))
        | _ => None
        end
    | TCallback =>                                                                   (* 56 *)
        match t_phase s with
        | TEnded => Some (drop (ToState TCalledBack (t_sub s) (t_tasks s) (t_used s) (t_created s) (t_out s) (t_disposed s) (t_lost s)))
        | _ => None
        end
    | TDispose =>                                                                    (* 58-61 *)
        Some (if t_used s then s
              else if t_sub s then ToState (t_phase s) true (t_tasks s ++ [DisposeTask]) true true (t_out s) (t_disposed s) (t_lost s)
              else ToState (t_phase s) false (t_tasks s) true (t_created s) (t_out s) (t_disposed s) (t_lost s))
    | TDisposing =>
        if t_created s && (t_disposed s =? 0) then
          Some (ToState (t_phase s) (t_sub s) (t_tasks s) (t_used s) (t_created s) (t_out s) (S (t_disposed s)) (t_lost s))
        else None
    end.

  (** Not in the code: the states that histories lead to. *)
  Inductive toreach : list (tolabel A) -> tostate -> Prop :=
  | to_nil : toreach [] t_init
  | to_snoc h s l s' : toreach h s -> tostep s l = Some s' -> toreach (h ++ [l]) s'.

  (** Not in the code: runs a history. *)
  Fixpoint torun (s : tostate) (h : list (tolabel A)) : option tostate :=
    match h with
    | [] => Some s
    | l :: h => match tostep s l with Some s => torun s h | None => None end
    end.

  (** ** Specification *)
  (** The calls the source makes. *)
  Definition source_made (h : list (tolabel A)) : list (notif A) := flat_map (fun l => match l with TCall n => [n] | _ => [] end) h.
  (** Not in the code: the subscription was made in the history. *)
  Definition made (h : list (tolabel A)) : Prop := In TSubscribed h.
  (** No task or callback is left to run. *)
  Definition settled (s : tostate) : Prop := t_phase s = TCalledBack /\ (t_created s = true -> t_disposed s = 1).
End ToObs.
