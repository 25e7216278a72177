(** * Property C65: to_observable.

    [toreach h s]: after a subscription to the reactivex observable, the history
    [h] (steps of the tasks, calls of the source, disposal, in any order) can
    happen and leads to [s].  [t_out s]: the calls of the reactivex observer;
    [t_disposed s]: how often the subscription to the source was disposed;
    [t_lost s]: exceptions that go to the event loop's handler. *)
From Verif Require Import ToObsProofs.
Set Implicit Arguments.

(** Every notification of the source is passed on, at once and in order (also
    after the end, and after disposal as long as the source goes on). *)
Theorem C65_forwards : forall A h (s : tostate A), toreach h s -> t_out s = source_made h.
Proof. exact @to_forwards. Qed.
Print Assumptions C65_forwards.

(** Disposed after subscribe_async has returned: when nothing is left to be
    done, the subscription to the source has been disposed, exactly once, ... *)
Theorem C65_disposed : forall A h1 h2 (s : tostate A), toreach (h1 ++ TDispose :: h2) s ->
  made h1 -> ~ In TDispose h1 -> settled s -> t_disposed s = 1.
Proof. intros A h1 h2 s H Hm Hd [_ S]. exact (S (late _ _ H Hm Hd)). Qed.
Print Assumptions C65_disposed.

Theorem C65_at_most_once : forall A h (s : tostate A), toreach h s ->
  t_disposed s <= 1 /\ (t_disposed s = 1 -> made h /\ In TDispose h).
Proof.
  intros A h s H. destruct (reach_tinv H) as [_ I2 _ _ I5 I6 _ [I8 I9]]. split; [exact I8|]. intros E. destruct (I6 (I9 E)) as [S U]. split; [now apply I2|now apply I5].
Qed.
Print Assumptions C65_at_most_once.

(** ... but disposed earlier, it never is, whatever happens later: the source goes on. *)
Theorem C65_early_disposal_refuted : forall A h1 h2 (s : tostate A), toreach (h1 ++ TDispose :: h2) s ->
  ~ made h1 -> t_disposed s = 0.
Proof.
  intros A h1 h2 s H Hn. destruct (early _ _ H Hn) as [C _]. destruct (reach_tinv H) as [_ _ _ _ _ _ _ [I8 I9]].
  destruct (t_disposed s) as [|n] eqn:E; [reflexivity|]. assert (n = 0) as -> by lia. rewrite (I9 eq_refl) in C. discriminate.
Qed.
Print Assumptions C65_early_disposal_refuted.

(** If subscribe_async raises, the reactivex observer hears nothing of it: the
    exception goes to the event loop (and so it does not end). *)
Theorem C65_failure_reported_refuted : forall A h (s : tostate A) e, toreach h s -> In (TSubFailed e) h ->
  t_out s = source_made h /\ t_lost s = [e].
Proof. intros A h s e H F. split; [exact (to_forwards H)|]. now destruct (ti_failed (reach_tinv H) e F) as (_ & E & _). Qed.
Print Assumptions C65_failure_reported_refuted.

(** Every successful subscription ends with a KeyError in the event loop. *)
Theorem C65_no_error_refuted : forall A h (s : tostate A), toreach h s -> made h -> t_phase s = TCalledBack -> t_lost s = [KeyError].
Proof. intros A h s H M P. destruct (ti_ok (reach_tinv H) M) as (_ & _ & [[P' _]|[_ E]]); [congruence|exact E]. Qed.
Print Assumptions C65_no_error_refuted.

(** The task of [start] is given up; that of a disposal is kept for ever. *)
Theorem C65_tasks : forall A h (s : tostate A), toreach h s -> settled s ->
  ~ In StartTask (t_tasks s) /\ (In DisposeTask (t_tasks s) <-> t_disposed s = 1).
Proof.
  intros A h s H [P S]. destruct (reach_tinv H) as [I1 I2 I3 I4 I5 I6 I7 [I8 I9]]. split.
  - destruct (reach_ended H) as [M|[e F]]; [rewrite P; split; discriminate| now destruct (I3 M) as (_ & N & _)|].
    destruct (I4 e F) as (_ & _ & _ & X). intros N. apply X in N. congruence.
  - rewrite I7. split; [exact S|exact I9].
Qed.
Print Assumptions C65_tasks.

Example C65_case : exists s : tostate nat,
  toreach ([TStart; TCall (OnNext 1); TSubscribed; TCall (OnNext 2); TCallback] ++ TDispose :: [TCall (OnNext 3); TDispose; TDisposing; TCall OnCompleted]) s /\
  settled s /\ t_out s = [OnNext 1; OnNext 2; OnNext 3; OnCompleted] /\ t_disposed s = 1 /\ t_lost s = [KeyError].
Proof. eexists. split; [apply (to_run _ (to_nil (A := nat))); vm_compute; reflexivity|]. repeat split. Qed.
Example C65_early_case : exists s : tostate nat,
  toreach ([TStart; TCall (OnNext 1)] ++ TDispose :: [TSubscribed; TCallback; TDispose; TCall (OnNext 2)]) s /\ settled s /\ t_out s = [OnNext 1; OnNext 2] /\ t_disposed s = 0.
Proof. eexists. split; [apply (to_run _ (to_nil (A := nat))); vm_compute; reflexivity|]. repeat split. discriminate. Qed.
Example C65_failed_case : exists s : tostate nat, toreach [TStart; TSubFailed ValueError; TCallback] s /\ settled s /\ t_lost s = [ValueError].
Proof. eexists. split; [apply (to_run [_; _; _] (to_nil (A := nat))); vm_compute; reflexivity|]. repeat split. discriminate. Qed.
