(** * Properties C47-C48: awaiting a stream. *)
From Verif Require Import RunProofs Properties2 Properties9.
Set Implicit Arguments.

(** ** C47 *)
(** The elements [vs], the ending [e], and after that anything (further calls,
    dispose, cancellation of the future), whatever the user's functions do:
    the future is the last element, or cancelled if there is none, or the
    error; and the user's functions are called up to the ending only. *)
Theorem C47_result : forall A (pol : policy A) vs e h, e <> Open ->
  w_fut (wrun pol w_init (map (@WCall A) (trace vs e) ++ h)) = last_value vs e /\
  w_log (wrun pol w_init (map (@WCall A) (trace vs e) ++ h)) = trace vs e.
Proof. intros A pol vs e h. apply w_stream. Qed.
Print Assumptions C47_result.

(** Without an ending nothing is decided. *)
Theorem C47_open : forall A (pol : policy A) vs,
  w_fut (wrun pol w_init (map (@WCall A) (map OnNext vs))) = FPending.
Proof. intros A pol vs. exact (proj1 (w_open pol vs)). Qed.
Print Assumptions C47_open.

(** Disposed before the ending: it will never be done. *)
Theorem C47_disposed : forall A (pol : policy A) vs h,
  ~ In WCancel h -> w_fut (wrun pol w_init (map (@WCall A) (map OnNext vs) ++ WDispose :: h)) = FPending.
Proof. intros A pol vs h. exact (proj2 (w_disposed pol vs h)). Qed.
Print Assumptions C47_disposed.

(** Cancelled from outside before the ending (run timed out): it stays
    cancelled, and the terminal call that comes too late raises
    InvalidStateError into the source, unless it is the completion of an
    empty stream. *)
Theorem C47_cancelled : forall A (pol : policy A) vs ws n h,
  w_fut (wrun pol w_init (map (@WCall A) (map OnNext vs) ++ WCancel :: h)) = FCancelled /\
  (is_term n = true -> snd (wcall pol (wrun pol w_init (map (@WCall A) (map OnNext vs) ++ WCancel :: map (@WCall A) (map OnNext ws))) n) =
     match n, vs ++ ws with OnCompleted, [] => pol [OnCompleted] | _, _ => Some InvalidState end).
Proof. intros A pol vs ws n h. split; [exact (w_cancelled pol vs h)|apply w_late]. Qed.
Print Assumptions C47_cancelled.

(** The documentation of run promises StopAsyncIteration for an empty stream. *)
Theorem C47_empty_raises_refuted :
  ~ (forall h, w_fut (wrun (@well_behaved nat) w_init (WCall OnCompleted :: h)) = FExn StopAsyncIter).
Proof. intros F. specialize (F []). discriminate. Qed.
Print Assumptions C47_empty_raises_refuted.

Example C47_case : w_fut (wrun well_behaved w_init [WCall (OnNext 1); WCall (OnNext 2); WCall OnCompleted; WCall (OnNext 3); WDispose]) = FResult 2.
Proof. reflexivity. Qed.
Example C47_case_error : w_fut (wrun well_behaved w_init [WCall (OnNext 1); WCall (OnError ValueError); WCall OnCompleted]) = FExn ValueError.
Proof. reflexivity. Qed.

(** ** C48 *)
(** [source] delivers the stream [vs], [e] through the pipeline [p] to any
    well-behaved subscriber.  Whenever run returns, at whatever moment, it
    gives the last of [vs] (or the error of [e], or is cancelled if there is
    no element), or it has timed out. *)
Theorem C48_run : forall Z A (src : source A) (p : pipe Z A) vs e h s o,
  source_delivers well_behaved src p (trace vs e) -> rreach src p h s -> r_out s = Some o ->
  o = TimedOut \/ Some o = await_fut (last_value vs e).
Proof. intros Z A src p vs e h s o. apply run_outcome. Qed.
Print Assumptions C48_run.

(** It returns if the stream ends: when nothing else can happen, it does; and
    there is an execution in which it does before any timeout. *)
Theorem C48_returns : forall Z A (src : source A) (p : pipe Z A) vs e,
  source_delivers well_behaved src p (trace vs e) -> e <> Open ->
  (forall h s, rreach src p h s -> r_out s = None -> (forall x, x <> RDone -> x <> RTimeout -> rstep s x = None) ->
     exists s' o, rstep s RDone = Some s' /\ r_out s' = Some o /\ Some o = await_fut (last_value vs e)) /\
  (exists h s o, rreach src p h s /\ ~ In RTimeout h /\ r_out s = Some o /\ Some o = await_fut (last_value vs e)).
Proof. intros Z A src p vs e Hd He. split; [|exact (run_can _ Hd He)]. intros h s. exact (run_returns _ Hd He). Qed.
Print Assumptions C48_returns.

(** A stream without end: only by timing out. *)
Theorem C48_endless : forall Z A (src : source A) (p : pipe Z A) vs h s o,
  source_delivers well_behaved src p (trace vs Open) -> rreach src p h s -> r_out s = Some o -> o = TimedOut.
Proof. intros Z A src p vs h s o. apply run_open. Qed.
Print Assumptions C48_endless.

(** When it returns it has disposed the subscription. *)
Theorem C48_disposed : forall Z A (src : source A) (p : pipe Z A) h s o,
  rreach src p h s -> r_out s = Some o -> s_task (r_src s) = TOver.
Proof.
  intros Z A src p h s o Hr Ho. destruct (run_disposes Hr Ho) as [d Hd]. unfold src_step in Hd.
  destruct (s_task d); injection Hd as <-; reflexivity.
Qed.
Print Assumptions C48_disposed.

(** run(from_iterable(xs) | operators). *)
Theorem C48_from_iterable : forall Z A (p : pipe Z A) (xs : list A) ys e h s o,
  delivers (psys well_behaved (safe p)) (trace xs Completed) (trace ys e) ->
  rreach (of_seq xs) p h s -> r_out s = Some o -> o = TimedOut \/ Some o = await_fut (last_value ys e).
Proof. intros Z A p xs ys e h s o Hd. apply C48_run. now apply C39_of_seq_in_pipeline. Qed.
Print Assumptions C48_from_iterable.

(** For instance: map, filter, reduce. *)
Theorem C48_instances : forall A B (xs : list A),
  (forall (f : A -> B) h s o, rreach (of_seq xs) (map_ (fun a => Ok (f a)) PEnd) h s -> r_out s = Some o ->
     o = TimedOut \/ Some o = await_fut (last_value (map f xs) Completed)) /\
  (forall (p : A -> bool) h s o, rreach (of_seq xs) (filter_ (fun a => Ok (p a)) PEnd) h s -> r_out s = Some o ->
     o = TimedOut \/ Some o = await_fut (last_value (filter p xs) Completed)) /\
  (forall (f : B -> A -> B) b h s o, rreach (of_seq xs) (reduce_ (fun s a => Ok (f s a)) b PEnd) h s -> r_out s = Some o ->
     o = TimedOut \/ o = match xs with [] => Cancelled | _ => Returned (fold_left f xs b) end).
Proof.
  intros A B xs. split; [|split].
  - intros f h s o. apply C48_from_iterable. pose proof (C09_map_total f xs Completed []) as H. unfold source_calls in H. now rewrite app_nil_r in H.
  - intros p h s o. apply C48_from_iterable. pose proof (C10_filter p xs Completed []) as H. unfold source_calls in H. now rewrite app_nil_r in H.
  - intros f b h s o Hr Ho. pose proof (C18_reduce f b xs []) as H. unfold source_calls in H. rewrite app_nil_r in H.
    destruct (C48_from_iterable _ _ H Hr Ho) as [|F]; [auto|]. right. destruct xs; cbn in F; injection F as ->; reflexivity.
Qed.
Print Assumptions C48_instances.

(** run(single(7)): the worker of the safe_observer delivers 7 and the completion. *)
Example C48_case : exists s, rreach (Single 7) PEnd [RSrc (TPipe 0); RSrc (TPipe 0); RSrc (TPipe 0); RDone] s /\ r_out s = Some (Returned 7).
Proof.
  assert (R : exists s1 s2 s3 s4, rstep (r_init (Single 7) PEnd) (RSrc (TPipe 0)) = Some s1 /\ rstep s1 (RSrc (TPipe 0)) = Some s2 /\
    rstep s2 (RSrc (TPipe 0)) = Some s3 /\ rstep s3 RDone = Some s4 /\ r_out s4 = Some (Returned 7)).
  { do 4 eexists. repeat (split; [vm_compute; reflexivity|]). reflexivity. }
  destruct R as (s1 & s2 & s3 & s4 & E1 & E2 & E3 & E4 & Ro). exists s4. split; [|exact Ro].
  pose proof (rr_nil (Single 7) PEnd) as R0.
  pose proof (rr_snoc _ R0 E1) as R1. pose proof (rr_snoc _ R1 E2) as R2. pose proof (rr_snoc _ R2 E3) as R3. exact (rr_snoc _ R3 E4).
Qed.
