(** * Property C37, continued: timer runs to its end, and when.

    timer(due) is interval(due, 0); see Properties7.v for the vocabulary. *)
From Verif Require Import TimerProofs.
Set Implicit Arguments.
Local Open Scope Z_scope.

(** A timer whose task has ended without being disposed has delivered the
    element 0, not early, and then the completion. *)
Theorem C37_timer_complete : forall seconds t0 h s, ivreach seconds 0 t0 h s -> ~ In XCancel h -> v_phase s = IDone ->
  exists t t', t0 + Z.max 0 seconds <= t /\ t <= t' /\ v_log s = [(OnNext 0%nat, t); (OnCompleted, t')].
Proof. exact timer_done. Qed.
Print Assumptions C37_timer_complete.

(** As long as it is not disposed and its observer does not raise, it gets there,
    whatever has happened before, by time passing, its own steps and the
    returns of the observer's calls. *)
Theorem C37_timer_ends : forall seconds t0 h s, ivreach seconds 0 t0 h s -> ~ In XCancel h -> (forall x, ~ In (XRaise x) h) ->
  exists h2 s', ivreach seconds 0 t0 (h ++ h2) s' /\
    (forall l, In l h2 -> (exists dt, l = XTick dt) \/ l = XWork \/ l = XReturn) /\ v_phase s' = IDone.
Proof. exact timer_ends. Qed.
Print Assumptions C37_timer_ends.

(** On a punctual loop the element comes exactly at the due time, and the
    completion when the call with the element returns. *)
Theorem C37_timer_punctual : forall seconds t0 h s n t, ivreach seconds 0 t0 h s -> iv_punctual seconds 0 t0 h ->
  In (n, t) (v_log s) ->
  n = OnNext 0%nat /\ t = t0 + Z.max 0 seconds \/ n = OnCompleted /\ v_ends s = [t].
Proof. exact timer_punctual. Qed.
Print Assumptions C37_timer_punctual.

Definition hist37t : list (xlabel nat) := [XWork; XTick 2; XTick 3; XWork; XTick 4; XReturn; XReturn].
Example C37_timer_ends_case : exists s, ivreach 5 0 100 hist37t s /\ ~ In XCancel hist37t /\ (forall x, ~ In (XRaise x) hist37t) /\
  iv_punctual 5 0 100 hist37t /\ v_phase s = IDone /\ v_log s = [(OnNext 0%nat, 105); (OnCompleted, 109)].
Proof.
  eexists. split; [apply ivrun_init; vm_compute; reflexivity|].
  split; [cbn; intuition discriminate|]. split; [intros x; cbn; intuition discriminate|].
  split; [apply iv_punctual_check; vm_compute; reflexivity|]. auto.
Qed.
