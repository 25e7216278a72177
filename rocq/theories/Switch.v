(** * switch_latest (transform.py:248-344): the worker, its mailbox and its environment.

    Same vocabulary (labels, messages, effects) as merge_inner; the worker can
    be suspended in [inbox.receive()], [disp.dispose_async()] and
    [xs.subscribe_async(...)]. *)
From Verif Require Export MergeSpec.
Set Implicit Arguments.

(** Where the worker is: in [receive]; disposing the current subscription
    before subscribing to [o] (292-293); subscribing (294); disposing because
    of a dispose message (307-308); or ended by an exception. *)
Inductive sphase (O : Type) : Type :=
| SIdle
| SSwitch (o : O)
| SSub
| SDisp
| SDead.
Arguments SIdle {O}.
Arguments SSwitch {O} o.
Arguments SSub {O}.
Arguments SDisp {O}.
Arguments SDead {O}.

(** The arguments of message_loop (284-286), mailbox, phase and everything
    done so far.  A disposable is identified with the id of its subscription. *)
Record sstate (O A : Type) : Type := SState {
  w_box : list (mmsg O);
  w_cur : option nat;
  w_stopped : bool;
  w_id : nat;
  w_phase : sphase O;
  w_log : list (effect O A)
}.
Arguments SState {O A} _ _ _ _ _ _.

(** transform.py:314 message_loop(Nothing, False, 0) *)
Definition s_init {O A} : sstate O A := SState [] None false 0 SIdle [].

Section Switch.
  Context {O A : Type}.

  (** transform.py:268-280, 319-330: posts a message. *)
  Definition spost (m : mmsg O) (s : sstate O A) : sstate O A :=
    SState (w_box s ++ [m]) (w_cur s) (w_stopped s) (w_id s) (w_phase s) (w_log s).
  (** Not in the code: records an effect. *)
  Definition semit (x : effect O A) (s : sstate O A) : sstate O A :=
    SState (w_box s) (w_cur s) (w_stopped s) (w_id s) (w_phase s) (w_log s ++ [x]).
  (** Not in the code: updates where the worker is. *)
  Definition sat (p : sphase O) (s : sstate O A) : sstate O A :=
    SState (w_box s) (w_cur s) (w_stopped s) (w_id s) p (w_log s).
  (** transform.py:313: the arguments of the next message_loop. *)
  Definition sset (c : option nat) (b : bool) (i : nat) (s : sstate O A) : sstate O A :=
    SState (w_box s) c b i SIdle (w_log s).

  (** transform.py:287-313, up to the first await that suspends. *)
  Definition supdate (m : mmsg O) (s : sstate O A) : sstate O A :=
    match m with
    | MInner o =>                                                   (* 290-295 *)
        match w_cur s with
        | Some k => sat (SSwitch o) (semit (EDispose k) s)
        | None => sat SSub (semit (ESub (S (w_id s)) o) s)
        end
    | MInnerDone k =>                                               (* 297-300 *)
        if w_stopped s && (k =? w_id s) then sset None true (w_id s) (semit (EReq OnCompleted) s)
        else s
    | MOuterDone =>                                                 (* 302-304 *)
        match w_cur s with None => semit (EReq OnCompleted) s | Some _ => s end
    | MDispose =>                                                   (* 306-309 *)
        match w_cur s with
        | Some k => sat SDisp (semit (EDispose k) s)
        | None => sset None true (w_id s) s
        end
    end.

  (** transform.py:282-315: one step of the worker. *)
  Definition swork (s : sstate O A) : option (sstate O A) :=
    match w_phase s with
    | SIdle =>
        match w_box s with
        | m :: r => Some (supdate m (SState r (w_cur s) (w_stopped s) (w_id s) SIdle (w_log s)))
        | [] => None
        end
    | SSwitch o => Some (sat SSub (semit (ESub (S (w_id s)) o) s))
    | SSub => Some (sset (Some (S (w_id s))) (w_stopped s) (S (w_id s)) s)
    | SDisp => Some (sset None true (w_id s) s)
    | SDead => None
    end.

  (** Not in the code: an inner source can call only once its subscribe_async was called. *)
  Definition sbegun (k : nat) (s : sstate O A) : bool :=
    existsb (fun x => match x with ESub j _ => j =? k | _ => false end) (w_log s).

  (** transform.py:248-344: one step of a subscription. *)
  Definition sstep (s : sstate O A) (l : mlabel O A) : option (sstate O A) :=
    match l with
    | LOuter (OnNext o) => Some (spost (MInner o) s)                (* 319-323 *)
    | LOuter (OnError e) => Some (semit (EReq (OnError e)) s)       (* 325-326 *)
    | LOuter OnCompleted => Some (spost MOuterDone s)               (* 328-329 *)
    | LInner k n =>
        if sbegun k s then
          Some (match n with
                | OnCompleted => spost (MInnerDone k) s             (* 274-278 *)
                | _ => semit (EReq n) s                             (* 268-272 *)
                end)
        else None
    | LCancel => Some (spost MDispose s)                            (* 338-340 *)
    | LWork => swork s
    | LFail _ =>
        match w_phase s with
        | SSwitch _ | SSub | SDisp => Some (sat SDead s)
        | _ => None
        end
    end.

  (** Not in the code: the states that histories lead to. *)
  Inductive sreach : list (mlabel O A) -> sstate O A -> Prop :=
  | sr_nil : sreach [] s_init
  | sr_snoc h s l s' : sreach h s -> sstep s l = Some s' -> sreach (h ++ [l]) s'.

  (** Not in the code: the worker has nothing to do. *)
  Definition sresting (s : sstate O A) : Prop := swork s = None.

  (** Inner observables that arrived and still wait. *)
  Definition swaiting (s : sstate O A) : list O :=
    (match w_phase s with SSwitch o => [o] | _ => [] end) ++
    flat_map (fun m => match m with MInner o => [o] | _ => [] end) (w_box s).
  (** A subscription whose disposal has been called, or which has completed, is silent. *)
  Definition silent_after_disposal (h : list (mlabel O A)) : Prop :=
    forall h1 k n h2 s1, h = h1 ++ LInner k n :: h2 -> sreach h1 s1 -> ~ In k (disposed (w_log s1)) /\ ~ In k (completions h1).
End Switch.
