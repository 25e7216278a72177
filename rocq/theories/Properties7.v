(** * Properties C35, C37 and C57: delay, interval, timer.

    [xreach d t0 h s]: after subscribing to [source | delay(d)] at time [t0]
    the history [h] (time passing, calls of the source, steps of the worker,
    returns of the observer's calls, disposal) can happen and leads to [s].
    [x_log s]: the calls the observer got, with the time each began;
    [x_ends s]: when they returned.  [arrivals t0 h]: the source's calls with
    their times.  [ivreach seconds period t0 h s]: the same for
    interval(seconds, period). *)
From Verif Require Import TimeProofs.
Set Implicit Arguments.
Local Open Scope Z_scope.

(** ** C35 *)
(** Whatever the schedule, the calls are the source's calls in order (a
    prefix), none begins earlier than [d] after its arrival ... *)
Theorem C35_never_early : forall A d t0 (h : list (xlabel A)) s, xreach d t0 h s ->
  exists D rest, arrivals t0 h = D ++ rest /\
    Forall2 (fun call arr => fst call = fst arr /\ snd arr + Z.max 0 d <= snd call) (x_log s) D.
Proof. intros A. exact (@x_never_early A). Qed.
Print Assumptions C35_never_early.

(** ... and none is lost: without disposal, an observer's exception apart, a
    worker with nothing left to do has delivered everything ... *)
Theorem C35_all_delivered : forall A d t0 (h : list (xlabel A)) s, xreach d t0 h s ->
  ~ In XCancel h -> x_phase s = XIdle -> xwork s = None -> map fst (x_log s) = map fst (arrivals t0 h).
Proof. intros A. exact (@x_all A). Qed.
Print Assumptions C35_all_delivered.

(** ... and a worker that still has something gets it delivered. *)
Theorem C35_progress : forall A d t0 (h : list (xlabel A)) s n due r, xreach d t0 h s ->
  x_phase s = XIdle -> x_cancelled s = false -> x_box s = (n, due) :: r ->
  exists h2 s', xreach d t0 (h ++ h2) s' /\ arrivals 0 h2 = [] /\
    x_log s' = x_log s ++ [(n, Z.max due (x_now s))] /\ x_phase s' = XCall n /\ x_box s' = r.
Proof. exact x_progress. Qed.
Print Assumptions C35_progress.

(** With a punctual event loop, each call begins [d] after its arrival or
    when the previous call returned, whichever is later ... *)
Theorem C35_punctual : forall A d t0 (h : list (xlabel A)) s, xreach d t0 h s -> punctual d t0 h ->
  prefix (x_log s) (expected d t0 (arrivals t0 h) (x_ends s)).
Proof. intros A d t0 h s Hr HP. exact (x_punctual Hr HP). Qed.
Print Assumptions C35_punctual.

(** ... and if moreover the observer's calls take no time, each call begins
    exactly [d] after its arrival. *)
Theorem C35_exact : forall A d t0 (h : list (xlabel A)) s, xreach d t0 h s -> instantaneous d t0 h ->
  x_log s = map (fun a => (fst a, snd a + Z.max 0 d)) (firstn (length (x_log s)) (arrivals t0 h)).
Proof. intros A. exact (@x_instantaneous A). Qed.
Print Assumptions C35_exact.

(** Disposing: at most one more call, and none unless the worker was just
    sleeping for it. *)
Theorem C35_dispose : forall A d t0 (h1 h2 : list (xlabel A)) s1 s2,
  xreach d t0 h1 s1 -> xreach d t0 (h1 ++ XCancel :: h2) s2 ->
  exists more, x_log s2 = x_log s1 ++ more /\ (length more <= match x_phase s1 with XSleep _ _ => 1 | _ => 0 end)%nat.
Proof. intros A d t0 h1 h2 s1 s2. apply x_cancel. Qed.
Print Assumptions C35_dispose.

Definition hist35 : list (xlabel Z) :=
  [XTick 2; XArr (OnNext 7); XWork; XTick 1; XArr (OnNext 8); XTick 9; XWork; XReturn; XWork; XTick 1; XWork; XReturn;
   XTick 3; XArr OnCompleted; XWork; XTick 10; XWork; XReturn].
Example C35_case : exists s, xreach 10 0 hist35 s /\ instantaneous 10 0 hist35 /\ punctual 10 0 hist35 /\ ~ In XCancel hist35 /\
  x_phase s = XIdle /\ xwork s = None /\
  arrivals 0 hist35 = [(OnNext 7, 2); (OnNext 8, 3); (OnCompleted, 16)] /\
  x_log s = [(OnNext 7, 12); (OnNext 8, 13); (OnCompleted, 26)].
Proof.
  eexists. split; [apply xrun_init; vm_compute; reflexivity|].
  split; [apply instantaneous_check; vm_compute; reflexivity|].
  split; [apply punctual_check; vm_compute; reflexivity|].
  split; [cbn; intuition discriminate|]. repeat split.
Qed.

(** A slow observer: the first call takes 20, the second waits for it. *)
Definition hist35_slow : list (xlabel Z) :=
  [XArr (OnNext 7); XWork; XTick 1; XArr (OnNext 8); XTick 9; XWork; XTick 20; XReturn; XWork].
Example C35_slow_case : exists s, xreach 10 0 hist35_slow s /\ punctual 10 0 hist35_slow /\
  x_log s = [(OnNext 7, 10); (OnNext 8, 30)] /\ x_ends s = [30] /\
  expected 10 0 (arrivals 0 hist35_slow) (x_ends s) = [(OnNext 7, 10); (OnNext 8, 30)].
Proof.
  eexists. split; [apply xrun_init; vm_compute; reflexivity|].
  split; [apply punctual_check; vm_compute; reflexivity|]. repeat split.
Qed.

(** Nothing after dispose?  Not quite: the element being slept for still comes. *)
Theorem C35_silent_after_dispose_refuted :
  ~ (forall A d t0 (h1 h2 : list (xlabel A)) s1 s2,
       xreach d t0 h1 s1 -> xreach d t0 (h1 ++ XCancel :: h2) s2 -> x_log s2 = x_log s1).
Proof.
  intros F. specialize (F Z 10 0 [XArr (OnNext 7); XWork] [XTick 10; XWork] _ _
    (@xrun_init Z 10 0 [XArr (OnNext 7); XWork] _ eq_refl)
    (@xrun_init Z 10 0 ([XArr (OnNext 7); XWork] ++ XCancel :: [XTick 10; XWork]) _ eq_refl)).
  vm_compute in F. discriminate.
Qed.
Print Assumptions C35_silent_after_dispose_refuted.

(** ** C57: the token belongs to the observable, not to the subscription *)
(** [xreach_all d t0 h s]: several subscriptions to the same delayed
    observable; [(i, l)] in [h]: step [l] of subscription [i]; [s j] is the
    state of subscription [j].  After any one of them has been disposed, every
    other gets at most one more call, and none unless it was just waiting for it. *)
Theorem C57_dispose_silences_all : forall A d t0 (h1 h2 : list (nat * xlabel A)) (s1 s2 : nat -> xstate A) i j,
  xreach_all d t0 h1 s1 -> xreach_all d t0 (h1 ++ (i, XCancel) :: h2) s2 ->
  exists more, x_log (s2 j) = x_log (s1 j) ++ more /\ (length more <= match x_phase (s1 j) with XSleep _ _ => 1 | _ => 0 end)%nat.
Proof. intros A. exact (@x_cancel_all A). Qed.
Print Assumptions C57_dispose_silences_all.

(** Before any of them is disposed, they are independent: each one has a
    history of its own. *)
Theorem C57_independent_before : forall A d t0 (h : list (nat * xlabel A)) s, xreach_all d t0 h s ->
  forall j, exists hj, xreach d t0 hj (s j) /\
    hj = flat_map (fun x => match snd x with XTick _ | XCancel => [snd x] | _ => if (fst x =? j)%nat then [snd x] else [] end) h.
Proof. intros A d t0 h s Hr j. exists (project j h). split; [now apply project_reach|reflexivity]. Qed.
Print Assumptions C57_independent_before.

(** Subscription 1 is disposed; subscription 0, never disposed, then gets
    nothing of what its source sends. *)
Definition s57 (j : nat) : xstate Z :=
  match j with
  | O => XState 20 [(OnNext 7, 10)] XOver true [] []
  | _ => XState 20 [] XIdle true [] []
  end.
Example C57_case : xreach_all 10 0 ([] ++ (1%nat, XCancel) :: [(0%nat, XArr (OnNext 7)); (0%nat, XTick 20); (0%nat, XWork)]) s57.
Proof.
  change (xreach_all 10 0 ((([] ++ [(1%nat, XCancel)]) ++ [(0%nat, XArr (OnNext 7))]) ++ [(0%nat, XTick 20)] ++ [(0%nat, XWork)]) s57).
  rewrite app_assoc.
  eapply xa_snoc with (s := fun j => match j with O => XState 20 [(OnNext 7, 10)] XIdle true [] [] | _ => XState 20 [] XIdle true [] [] end);
  [eapply xa_snoc with (s := fun j => match j with O => XState 0 [(OnNext 7, 10)] XIdle true [] [] | _ => XState 0 [] XIdle true [] [] end);
  [eapply xa_snoc with (s := fun j => XState 0 [] XIdle true [] []);
  [eapply xa_snoc with (s := fun j => x_init 0); [apply xa_nil; reflexivity|]|]|]|];
  intros [|j]; reflexivity.
Qed.

(** ** C37 *)
(** interval with a period: the k-th call is the element [k], and it does not
    begin before seconds + k * period ... *)
Theorem C37_elements : forall seconds period t0 h s, ivreach seconds period t0 h s -> period <> 0 ->
  forall k n u, nth_error (v_log s) k = Some (n, u) ->
  n = OnNext k /\ t0 + Z.max 0 seconds + Z.of_nat k * Z.max 0 period <= u.
Proof. exact iv_elements. Qed.
Print Assumptions C37_elements.

(** ... exactly then if the loop is punctual and the calls take no time ... *)
Theorem C37_exact : forall seconds period t0 h s, ivreach seconds period t0 h s ->
  iv_instantaneous seconds period t0 h -> period <> 0 ->
  forall k n u, nth_error (v_log s) k = Some (n, u) ->
  n = OnNext k /\ u = t0 + Z.max 0 seconds + Z.of_nat k * Z.max 0 period.
Proof. exact iv_instant. Qed.
Print Assumptions C37_exact.

(** ... and, if they do take time, [period] after the previous one returned
    (so the interval drifts by the time the observer takes) ... *)
Theorem C37_punctual : forall seconds period t0 h s, ivreach seconds period t0 h s ->
  iv_punctual seconds period t0 h -> period <> 0 ->
  prefix (v_log s) (ticks (Z.max 0 period) (t0 + Z.max 0 seconds) 0 (v_ends s)).
Proof. exact iv_punct. Qed.
Print Assumptions C37_punctual.

(** ... and it never stops by itself: a sleeping interval gets to its next element. *)
Theorem C37_progress : forall seconds period t0 h s u n, ivreach seconds period t0 h s -> v_phase s = ISleep u n ->
  exists h2 s', ivreach seconds period t0 (h ++ h2) s' /\
    v_log s' = v_log s ++ [(OnNext n, Z.max u (v_now s))] /\ v_phase s' = ICall n.
Proof. exact iv_progress. Qed.
Print Assumptions C37_progress.

(** With period 0 (timer): nothing, or the element 0, or it and completion. *)
Theorem C37_timer : forall seconds t0 h s, ivreach seconds 0 t0 h s ->
  v_log s = [] \/
  exists t, t0 + Z.max 0 seconds <= t /\
    (v_log s = [(OnNext 0%nat, t)] \/ exists t', t <= t' /\ v_log s = [(OnNext 0%nat, t); (OnCompleted, t')]).
Proof. intros seconds t0 h s Hr. now apply iv_timer with (1 := Hr). Qed.
Print Assumptions C37_timer.

(** After dispose there is no further call. *)
Theorem C37_dispose : forall seconds period t0 h1 s1 h2 s2,
  ivreach seconds period t0 h1 s1 -> ivreach seconds period t0 (h1 ++ XCancel :: h2) s2 -> v_log s2 = v_log s1.
Proof. exact iv_cancel. Qed.
Print Assumptions C37_dispose.

Definition hist37 : list (xlabel nat) := [XWork; XTick 5; XWork; XReturn; XTick 3; XWork; XReturn; XTick 2; XTick 1; XWork].
Example C37_case : exists s, ivreach 5 3 100 hist37 s /\ iv_instantaneous 5 3 100 hist37 /\ iv_punctual 5 3 100 hist37 /\
  v_log s = [(OnNext 0%nat, 105); (OnNext 1%nat, 108); (OnNext 2%nat, 111)].
Proof.
  eexists. split; [apply ivrun_init; vm_compute; reflexivity|].
  split; [apply iv_instantaneous_check; vm_compute; reflexivity|].
  split; [apply iv_punctual_check; vm_compute; reflexivity|reflexivity].
Qed.
Example C37_timer_case : exists s, ivreach 5 0 0 [XWork; XTick 5; XWork; XTick 1; XReturn; XReturn] s /\
  v_log s = [(OnNext 0%nat, 5); (OnCompleted, 6)].
Proof. eexists. split; [apply ivrun_init; vm_compute; reflexivity|reflexivity]. Qed.
Example C37_dispose_case : exists s, ivreach 5 3 0 ([XWork; XTick 5] ++ XCancel :: [XTick 7]) s /\ v_log s = [].
Proof. eexists. split; [apply ivrun_init; vm_compute; reflexivity|reflexivity]. Qed.

(** The k-th element at seconds + k * period whatever the observer takes?  No,
    the time the observer takes adds up. *)
Theorem C37_no_drift_refuted :
  ~ (forall seconds period t0 h s, ivreach seconds period t0 h s -> iv_punctual seconds period t0 h -> period <> 0 ->
       forall k n u, nth_error (v_log s) k = Some (n, u) -> u = t0 + Z.max 0 seconds + Z.of_nat k * Z.max 0 period).
Proof.
  intros F. specialize (F 5 3 0 [XWork; XTick 5; XWork; XTick 1; XReturn; XTick 3; XWork] _
    (@ivrun_init 5 3 0 [XWork; XTick 5; XWork; XTick 1; XReturn; XTick 3; XWork] _ eq_refl)
    (@iv_punctual_check 5 3 0 [XWork; XTick 5; XWork; XTick 1; XReturn; XTick 3; XWork] eq_refl) ltac:(discriminate) 1%nat (OnNext 1%nat) 9 eq_refl).
  vm_compute in F. discriminate.
Qed.
Print Assumptions C37_no_drift_refuted.
