(** * [async for x in pipeline]: a pipeline whose subscriber is the
      AsyncIteratorObserver of observers.py:20-94.

    The pipeline of Pipe.v ends with an observer whose calls begin and end
    ([user_op]); here a call that begins is a call of asend, athrow or aclose of
    the iterator of Iterate.v, and it ends no sooner than that one returns.
    Everything runs on the one ready queue of the event loop. *)
From Verif Require Export Iterate Laws.
Set Implicit Arguments.

(** observers.py:34-53: asend, athrow and aclose as the pipeline sees them: they
    begin, and they end without an exception (that they do not raise is C50_returned). *)
Definition handing {B} : op (notif B) (Pipe.act (event B)) := user_op (fun (u : unit) _ => (u, 0, None)) tt.

(** observables.py:49-59 and observers.py:71-72: the pipeline [f] applied to a source and subscribed
    to by the iterator.  The source's calls arrive at a safe_observer (observers.py:151-199). *)
Definition iterated {A B} (f : operator A B) : system (event B) (notif A) :=
  psys well_behaved (safe (f (event B) (pre handing PEnd))).

(** What a task may do in its turn, in the order of the code: the source calls the
    pipeline; the [k]-th worker of the pipeline goes on to its next await; the consumer calls
    __anext__ (92-94); the subscribe_async of that __anext__ returns (72). *)
Inductive jact (M : Type) : Type :=
| JIn (m : M)
| JWork (k : nat)
| JNext
| JSubscribed.
Arguments JIn {M} m.
Arguments JWork {M} k.
Arguments JNext {M}.
Arguments JSubscribed {M}.

(** Not in the code: labels of histories, as in Iterate.v. *)
Inductive jlabel (M : Type) : Type :=
| JArrive
| JTurn (l : list (jact M)).
Arguments JArrive {M}.
Arguments JTurn {M} l.

Section Joint.
  Context {B M : Type} (S : system (event B) M).
  Notation jstate := (cst (sc S) * istate B)%type.

  (** observers.py:34-58: what the worker's step means for the iterator.  If a call begins,
      asend, athrow or aclose is called.  It has to have returned before it ends. *)
  Definition notice (s : istate B) (old new : list (notif (event B))) : option (istate B * bool) :=
    match skipn (length old) new with
    | [] => Some (s, false)
    | [OnNext (Begin n)] => Some (send_ s n)
    | [OnNext (End n)] => if length (i_calls s) =? length (i_ret s) then Some (s, false) else None
    | _ => None
    end.

  (** observers.py:34-94 and the pipeline's tasks: what the running task does until it suspends. *)
  Definition jdo (x : jstate) (a : jact M) : option (jstate * bool) :=
    let (d, s) := x in
    match a with
    | JIn m => if 0 <? i_subs s then Some ((fst (ccall (sc S) d m), s), false) else None
    | JWork k =>
        if 0 <? i_subs s then
          match cstep (sc S) k d with
          | Some d' => match notice s (slog S d) (slog S d') with Some (s', b) => Some ((d', s'), b) | None => None end
          | None => None
          end
        else None
    | JNext => match do_act s ANext with Some (s', b) => Some ((d, s'), b) | None => None end
    | JSubscribed => match do_act s ASubscribed with Some (s', b) => Some ((d, s'), b) | None => None end
    end.

  (** The running task goes on until it suspends. *)
  Fixpoint jdo_acts (x : jstate) (l : list (jact M)) : option jstate :=
    match l with
    | [] => Some x
    | a :: l =>
        match jdo x a with
        | Some (x, false) => jdo_acts x l
        | Some (x, true) => match l with [] => Some x | _ => None end
        | None => None
        end
    end.

  (** The event loop of asyncio, as in Iterate.v: something else becomes ready; or the head of
      the ready queue runs. *)
  Definition jstep (x : jstate) (lb : jlabel M) : option jstate :=
    let (d, s) := x in
    match lb with
    | JArrive => Some (d, soon s HForeign)
    | JTurn l =>
        match i_ready s with
        | [] => None
        | h :: r =>
            match resume (set_ready s r) h with
            | Some (s, false) => jdo_acts (d, s) l
            | Some (s, true) => match l with [] => Some (d, s) | _ => None end
            | None => None
            end
        end
    end.

  (** Not in the code: runs a history. *)
  Fixpoint jrun (x : jstate) (h : list (jlabel M)) : option jstate :=
    match h with
    | [] => Some x
    | lb :: h => match jstep x lb with Some x => jrun x h | None => None end
    end.

  (** Not in the code: what the source has called in a history. *)
  Definition inputs (h : list (jlabel M)) : list M :=
    flat_map (fun lb => match lb with JArrive => [] | JTurn l => flat_map (fun a => match a with JIn m => [m] | _ => [] end) l end) h.

  (** Nothing goes on by itself: nothing is ready, and each worker waits for a message, has
      ended, or is in a call of the iterator that has not returned. *)
  Definition at_rest (x : jstate) : Prop :=
    i_ready (snd x) = [] /\
    forall k d', cstep (sc S) k (fst x) = Some d' ->
      exists n, slog S d' = slog S (fst x) ++ [OnNext (End n)] /\ length (i_calls (snd x)) <> length (i_ret (snd x)).
End Joint.

(** Not in the code: histories of [async for x in f(source)] from its beginning. *)
Definition iterates {A B} (f : operator A B) (h : list (jlabel (notif A))) (x : cst (sc (iterated f)) * istate B) : Prop :=
  jrun (iterated f) (s0 (iterated f), i_init) h = Some x.

(** ** Specification *)
(** What ends the [async for] loop over a stream with this ending: nothing yet; the error of the
    stream; or StopAsyncIteration. *)
Definition loop_end (e : ending) : option exn :=
  match e with Open => None | Failed x => Some x | Completed => Some StopAsyncIter end.
