(** * Components: pipelines of observers and mailbox workers.

    A component accepts messages of type [M] ([ccall]: a method call on the
    observer, possibly raising) and contains workers that may take steps
    ([cstep k]: the [k]-th worker processes its next queued message). *)
From Verif Require Export Prog.
Set Implicit Arguments.

(** An AsyncObserver (types.py) as an object: what a call does, and the steps its tasks can take afterwards. *)
Record comp (M : Type) : Type := Comp {
  cst : Type;
  ccall : cst -> M -> cst * option exn;
  cstep : nat -> cst -> option cst
}.
Arguments cst {M} c.
Arguments ccall {M} c s m.
Arguments cstep {M} c k s.

(** The subscriber: arbitrary state and arbitrary reaction (may raise). *)
Definition user_comp (M D : Type) (call : D -> M -> D * option exn) : comp M :=
  Comp call (fun _ _ => None).

(** An observer that calls the next one directly (e.g. transform.py:48-54). *)
Definition sync_comp (M N : Type) (o : op M N) (c : comp N) : comp M :=
  Comp (cst := st o * cst c)
    (fun sd m => let '(s', d', r) := exec (ccall c) (body o m) (fst sd) (snd sd) in ((s', d'), r))
    (fun k sd => match cstep c k (snd sd) with Some d' => Some (fst sd, d') | None => None end).

(** State of a MailboxProcessor: queue, loop state, and what the worker task
    does: waits in [receive], is suspended inside the body of the loop with
    the given rest to execute, or has ended with an exception. *)
Inductive phase (S N : Type) : Type :=
| Idle
| Busy (p : prog S N)
| Dead (e : exn).
Arguments Idle {S N}.
Arguments Busy {S N} p.
Arguments Dead {S N} e.

(** A MailboxProcessor of the expression library (used at observers.py:188, filtering.py:163, ...): its inbox, the worker's variables, and where the worker is. *)
Record agent (M S N : Type) : Type := Agent { aq : list M; as_ : S; ph : phase S N }.
Arguments Agent {M S N} aq as_ ph.
Arguments aq {M S N} a.
Arguments as_ {M S N} a.
Arguments ph {M S N} a.

(** Phase of the worker when [p] is left to execute. *)
Definition phase_of {S N} (p : prog S N) : phase S N :=
  match p with Ret => Idle | Raise e => Dead e | _ => Busy p end.

(** MailboxProcessor (third-party, see DESIGN.md): [post] appends to a FIFO
    queue and never raises or suspends; the worker runs the body for one
    message at a time and may be suspended at each await of the body.
    Worker number 0 is this one, [S k] is worker [k] of the rest. *)
Definition agent_step (M N : Type) (o : op M N) (D : Type) (call : D -> N -> D * option exn)
  (a : agent M (st o) N) (d : D) : option (agent M (st o) N * D) :=
  match ph a with
  | Dead _ => None
  | Busy p =>
      let '(s', d', p') := advance call p (as_ a) d in
      Some (Agent (aq a) s' (phase_of p'), d')
  | Idle =>
      match aq a with
      | m :: q =>
          if live o (as_ a) then
            let '(s', d', p') := advance call (body o m) (as_ a) d in
            Some (Agent q s' (phase_of p'), d')
          else None
      | [] => None
      end
  end.

(** observers.py:188-199: an observer whose methods post to a mailbox, with the worker task that empties it. *)
Definition agent_comp (M N : Type) (o : op M N) (c : comp N) : comp M :=
  Comp (cst := agent M (st o) N * cst c)
    (fun ad m => ((Agent (aq (fst ad) ++ [m]) (as_ (fst ad)) (ph (fst ad)), snd ad), None))
    (fun k ad =>
       match k with
       | O => agent_step o (ccall c) (fst ad) (snd ad)
       | S k' => match cstep c k' (snd ad) with Some d' => Some (fst ad, d') | None => None end
       end).

(** ** Executions *)
Section Runs.
  Context {M : Type} (c : comp M).

  (** [run s ms s']: some interleaving of worker steps with upstream calls
      [ms] (in this order) leads from [s] to [s']. *)
  Inductive run : cst c -> list M -> cst c -> Prop :=
  | run_nil s : run s [] s
  | run_in s m ms s' : run (fst (ccall c s m)) ms s' -> run s (m :: ms) s'
  | run_step s k s1 ms s' : cstep c k s = Some s1 -> run s1 ms s' -> run s ms s'.

  (** No worker can make a step. *)
  Definition quiet (s : cst c) : Prop := forall k, cstep c k s = None.

  (** [n] worker steps. *)
  Inductive steps : nat -> cst c -> cst c -> Prop :=
  | steps_0 s : steps 0 s s
  | steps_S n s k s1 s' : cstep c k s = Some s1 -> steps n s1 s' -> steps (S n) s s'.

  (** All upstream calls at once. *)
  Definition calls (s : cst c) (ms : list M) : cst c :=
    fold_left (fun s m => fst (ccall c s m)) ms s.
End Runs.
Arguments run {M} c _ _ _.
Arguments steps {M} c _ _ _.
Arguments quiet {M} c s.
Arguments calls {M} c s ms.
