(** * merge_inner (combine.py:52-157): the worker, its mailbox and its environment.

    A history is a list of labels: what the outer source, the inner
    observables and the user do, and the steps of the worker, in the order in
    which they happen.  Worker steps end at the awaits of the worker at which
    it can be suspended: [inbox.receive()], [xs.subscribe_async(...)] and
    [dispose.dispose_async()].  (Awaiting a method of [safe_obv] does not
    suspend: it posts to the mailbox of the safe observer.) *)
From Verif Require Export Spec.
Set Implicit Arguments.

(** msg.py:18-26 Msg *)
Inductive mmsg (O : Type) : Type :=
| MInner (o : O)          (* inner_observable *)
| MInnerDone (k : nat)    (* inner_completed *)
| MOuterDone              (* completed *)
| MDispose.               (* dispose *)
Arguments MInner {O} o.
Arguments MInnerDone {O} k.
Arguments MOuterDone {O}.
Arguments MDispose {O}.

(** Where the worker is: in [receive]; in [subscribe_async] of an inner, with
    the subscriptions and the queue to be stored afterwards; in the loop of
    117-119 with the subscriptions still to be disposed; returned; or ended
    by an exception of one of these awaits. *)
Inductive mphase (O : Type) : Type :=
| WIdle
| WSub (subs : list nat) (queue : list O)
| WDisp (rest : list nat)
| WEnded
| WDead.
Arguments WIdle {O}.
Arguments WSub {O} subs queue.
Arguments WDisp {O} rest.
Arguments WEnded {O}.
Arguments WDead {O}.

(** What is done to the outside. *)
Inductive effect (O A : Type) : Type :=
| ESub (k : nat) (o : O)     (* o.subscribe_async(obv(k)) begins *)
| EDispose (k : nat)         (* the disposable of subscription k is disposed *)
| EReq (n : notif A).        (* safe_obv.asend/athrow/aclose *)
Arguments ESub {O A} k o.
Arguments EDispose {O A} k.
Arguments EReq {O A} n.

(** Not in the code: what can happen (combine.py:52-157). *)
Inductive mlabel (O A : Type) : Type :=
| LOuter (n : notif O)            (* the outer source calls the observer of 135-146 *)
| LInner (k : nat) (n : notif A)  (* subscription k calls the observer of 69-79 *)
| LCancel                         (* cancel(), 149-151 (the disposal of the source is not shown) *)
| LWork                           (* the worker goes on *)
| LFail (e : exn).                (* the awaited subscribe_async / dispose_async raises *)
Arguments LOuter {O A} n.
Arguments LInner {O A} k n.
Arguments LCancel {O A}.
Arguments LWork {O A}.
Arguments LFail {O A} e.

(** Model (combine.py:40-49), mailbox, phase and everything done so far.
    [subscriptions] is a map from keys to disposables; a disposable is
    identified with its key, and the keys are kept in increasing order, as
    the values of expression.Map are. *)
Record mstate (O A : Type) : Type := MState {
  m_box : list (mmsg O);
  m_subs : list nat;
  m_queue : list O;
  m_stopped : bool;
  m_key : nat;
  m_phase : mphase O;
  m_log : list (effect O A)
}.
Arguments MState {O A} _ _ _ _ _ _ _.

(** combine.py:61-66 initial_model *)
Definition m_init {O A} : mstate O A := MState [] [] [] false 0 WIdle [].

Section Merge.
  Context {O A : Type} (maxc : Z).

  (** MailboxProcessor.post *)
  Definition post (m : mmsg O) (s : mstate O A) : mstate O A :=
    MState (m_box s ++ [m]) (m_subs s) (m_queue s) (m_stopped s) (m_key s) (m_phase s) (m_log s).
  (** Not in the code: records an effect. *)
  Definition emit (x : effect O A) (s : mstate O A) : mstate O A :=
    MState (m_box s) (m_subs s) (m_queue s) (m_stopped s) (m_key s) (m_phase s) (m_log s ++ [x]).
  (** Not in the code: updates where the worker is. *)
  Definition at_phase (p : mphase O) (s : mstate O A) : mstate O A :=
    MState (m_box s) (m_subs s) (m_queue s) (m_stopped s) (m_key s) p (m_log s).

  (** The model returned by [update] is stored, and the loop goes on or ends
      (combine.py:123-129). *)
  Definition store (subs : list nat) (queue : list O) (stopped : bool) (key : nat) (s : mstate O A) : mstate O A :=
    MState (m_box s) subs queue stopped key
      (match stopped, subs with true, [] => WEnded | _, _ => WIdle end) (m_log s).

  (** combine.py:88 *)
  Definition room (s : mstate O A) : bool :=
    (maxc =? 0)%Z || (Z.of_nat (length (m_subs s)) <? maxc)%Z.

  (** combine.py:94: the map of inner subscriptions without a key. *)
  Definition remove_key (k : nat) (l : list nat) : list nat := filter (fun j => negb (j =? k)) l.

  (** combine.py:81-121 update, up to its first await that suspends. *)
  Definition update (m : mmsg O) (s : mstate O A) : mstate O A :=
    match m with
    | MInner o =>                                                       (* 84-92 *)
        if room s then at_phase (WSub (m_subs s) (m_queue s)) (emit (ESub (m_key s) o) s)
        else store (m_subs s) (m_queue s ++ [o]) (m_stopped s) (m_key s) s
    | MInnerDone k =>                                                   (* 93-109 *)
        let subs := remove_key k (m_subs s) in
        match m_queue s with
        | o :: q => at_phase (WSub subs q) (emit (ESub (m_key s) o) s)
        | [] =>
            match subs with
            | _ :: _ => store subs (m_queue s) (m_stopped s) (m_key s) s
            | [] => store [] (m_queue s) (m_stopped s) (m_key s)
                      (if m_stopped s then emit (EReq OnCompleted) s else s)
            end
        end
    | MOuterDone =>                                                     (* 110-115 *)
        store (m_subs s) (m_queue s) true (m_key s)
          (match m_subs s with [] => emit (EReq OnCompleted) s | _ => s end)
    | MDispose =>                                                       (* 117-121 *)
        match m_subs s with
        | [] => store [] [] true 0 s
        | l => at_phase (WDisp l) s
        end
    end.

  (** combine.py:123-131 the worker's loop, up to its next await (81-121 update). *)
  Definition work (s : mstate O A) : option (mstate O A) :=
    match m_phase s with
    | WIdle =>
        match m_box s with
        | m :: r => Some (update m (MState r (m_subs s) (m_queue s) (m_stopped s) (m_key s) WIdle (m_log s)))
        | [] => None
        end
    | WSub subs q => Some (store (subs ++ [m_key s]) q (m_stopped s) (S (m_key s)) s)    (* 87-90, 99-103 *)
    | WDisp (k :: r) =>
        let s' := emit (EDispose k) s in
        Some (match r with [] => store [] [] true 0 s' | _ => at_phase (WDisp r) s' end)
    | WDisp [] | WEnded | WDead => None
    end.

  (** Subscription [k] has begun. *)
  Definition begun (k : nat) (s : mstate O A) : bool :=
    existsb (fun x => match x with ESub j _ => j =? k | _ => false end) (m_log s).

  (** combine.py:52-157: one step of a subscription. *)
  Definition mstep (s : mstate O A) (l : mlabel O A) : option (mstate O A) :=
    match l with
    | LOuter (OnNext o) => Some (post (MInner o) s)                     (* 135-137 *)
    | LOuter (OnError e) => Some (post MDispose (emit (EReq (OnError e)) s))   (* 139-141 *)
    | LOuter OnCompleted => Some (post MOuterDone s)                    (* 143-144 *)
    | LInner k n =>
        if begun k s then
          Some (match n with
                | OnCompleted => post (MInnerDone k) s                  (* 76-77 *)
                | _ => emit (EReq n) s                                  (* 70-74 *)
                end)
        else None
    | LCancel => Some (post MDispose s)
    | LWork => work s
    | LFail _ =>
        match m_phase s with
        | WSub _ _ => Some (at_phase WDead s)
        | WDisp (k :: _) => Some (at_phase WDead (emit (EDispose k) s))
        | _ => None
        end
    end.

  (** [mreach h s]: history [h] is possible after subscribing and leads to [s]. *)
  Inductive mreach : list (mlabel O A) -> mstate O A -> Prop :=
  | mr_nil : mreach [] m_init
  | mr_snoc h s l s' : mreach h s -> mstep s l = Some s' -> mreach (h ++ [l]) s'.

  (** The worker has nothing to do. *)
  Definition resting (s : mstate O A) : Prop := work s = None.
End Merge.
