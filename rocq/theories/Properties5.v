(** * Properties C30-C31: switch_latest.

    [sreach h s]: after subscribing to switch_latest, the history [h] (calls of
    the outer source and of the inner subscriptions, disposal, worker steps,
    failures of subscribe_async/dispose_async, in any order) can happen and
    leads to [s]; [w_log s] is everything done to the outside so far.
    Subscriptions are numbered 1, 2, ... in the order in which they are made. *)
From Verif Require Import SwitchProofs.
From Coq Require Import Sorting.Sorted.
Set Implicit Arguments.

(** ** C30 *)
(** When a subscription is made, every earlier one has been disposed or had
    completed; nothing is disposed twice, nothing that was not subscribed. *)
Theorem C30_one_at_a_time : forall O A h (s : sstate O A),
  sreach h s ->
  (forall j k, In j (keys (w_log s)) -> In k (keys (w_log s)) -> j < k ->
     In j (disposed (w_log s)) \/ In j (completions h)) /\
  NoDup (disposed (w_log s)) /\ incl (disposed (w_log s)) (keys (w_log s)) /\ NoDup (keys (w_log s)).
Proof. exact @one_at_a_time. Qed.
Print Assumptions C30_one_at_a_time.

(** Inners are subscribed in order of arrival, none is skipped ... *)
Theorem C30_in_order : forall O A h (s : sstate O A),
  sreach h s -> prefix (subscribed (w_log s)) (arrived h).
Proof. intros O A h s H. exact (proj1 (s_in_order H)). Qed.
Print Assumptions C30_in_order.

Theorem C30_none_forgotten : forall O A h (s : sstate O A),
  sreach h s -> never_fails h -> subscribed (w_log s) ++ swaiting s = arrived h.
Proof. intros O A h s H Hf. exact (proj2 (proj2 (s_in_order H) Hf)). Qed.
Print Assumptions C30_none_forgotten.

(** ... and the worker always comes to rest, with none waiting. *)
Theorem C30_worker_rests : forall O A h (s : sstate O A),
  sreach h s -> exists n s', sreach (h ++ repeat LWork n) s' /\ sresting s'.
Proof. exact @s_worker_rests. Qed.
Print Assumptions C30_worker_rests.

Theorem C30_latest_current : forall O A h (s : sstate O A),
  sreach h s -> never_fails h -> sresting s -> subscribed (w_log s) = arrived h.
Proof.
  intros O A h s H Hf Hr. destruct (s_in_order H) as [_ Ho]. destruct (Ho Hf) as [Hd Hs].
  assert (swaiting s = []) as E; [|now rewrite E, app_nil_r in Hs].
  unfold sresting, swork, swaiting in *. destruct (w_phase s); try discriminate; [|congruence].
  destruct (w_box s); [reflexivity|discriminate].
Qed.
Print Assumptions C30_latest_current.

(** If inners fall silent when they are disposed and after completing, the
    elements come from the first, then from the second, and so on: once a
    later inner is subscribed, none come from an earlier one. *)
Theorem C30_only_latest_speaks : forall O A h (s : sstate O A),
  sreach h s -> silent_after_disposal h -> StronglySorted le (map fst (sends h)).
Proof. exact @s_latest_only. Qed.
Print Assumptions C30_only_latest_speaks.

(** All elements and errors are forwarded, in the order of their production. *)
Theorem C30_forwards_all : forall O A h (s : sstate O A),
  sreach h s ->
  filter (fun n => match n with OnCompleted => false | _ => true end) (requests (w_log s)) = produced h.
Proof. exact @s_forwards. Qed.
Print Assumptions C30_forwards_all.

(** There is no filter of its own: an inner that goes on sending after its
    disposal is still heard. *)
Theorem C30_stale_element_refuted : exists h (s : sstate nat nat),
  sreach h s /\ w_log s = [ESub 1 10; EDispose 1; ESub 2 11; EReq (OnNext 7)] /\ sends h = [(1, 7)].
Proof.
  exists [LOuter (OnNext 10); LOuter (OnNext 11); LWork; LWork; LWork; LWork; LWork; LInner 1 (OnNext 7)].
  eexists. split; [apply srun_init; vm_compute; reflexivity|]. split; reflexivity.
Qed.
Print Assumptions C30_stale_element_refuted.

(** After disposal (no inner arriving later, nothing failing) no
    subscription is left, once the worker is at rest. *)
Theorem C30_disposed : forall O A h1 h2 (s : sstate O A),
  sreach (h1 ++ LCancel :: h2) s -> arrived h2 = [] -> never_fails (h1 ++ LCancel :: h2) -> sresting s ->
  forall k, In k (keys (w_log s)) -> In k (disposed (w_log s)) \/ In k (completions (h1 ++ LCancel :: h2)).
Proof. exact @s_disposed. Qed.
Print Assumptions C30_disposed.

(** An error of the outer source is passed on, but the inner stays subscribed. *)
Theorem C30_outer_error_refuted : exists h (s : sstate nat nat),
  sreach h s /\ sresting s /\ In (LOuter (OnError ValueError)) h /\ w_log s = [ESub 1 10; EReq (OnError ValueError)].
Proof.
  exists [LOuter (OnNext 10); LWork; LWork; LOuter (OnError ValueError)].
  eexists. split; [apply srun_init; vm_compute; reflexivity|]. split; [reflexivity|]. split; [|reflexivity]. now do 3 right; left.
Qed.
Print Assumptions C30_outer_error_refuted.

Definition C30_history : list (mlabel nat nat) :=
  [LOuter (OnNext 10); LWork; LInner 1 (OnNext 1); LWork; LOuter (OnNext 11); LInner 1 (OnNext 2); LWork; LWork;
   LInner 2 (OnNext 3); LWork; LCancel; LWork; LWork].
Example C30_case : exists s, sreach C30_history s /\ sresting s /\
  w_log s = [ESub 1 10; EReq (OnNext 1); EReq (OnNext 2); EDispose 1; ESub 2 11; EReq (OnNext 3); EDispose 2] /\
  sends C30_history = [(1, 1); (1, 2); (2, 3)].
Proof. eexists. split; [apply srun_init; vm_compute; reflexivity|]. repeat split. Qed.

(** ** C31 *)
(** Undisposed, with an outer source that is silent after its completion: as
    soon as one inner has arrived, completion is never requested - in no
    schedule, however far the run goes. *)
Theorem C31_never_completes : forall O A h (s : sstate O A),
  sreach h s -> ~ In LCancel h -> grammatical (outer_calls h) -> arrived h <> [] ->
  ~ In OnCompleted (requests (w_log s)).
Proof. exact @s_never_completes. Qed.
Print Assumptions C31_never_completes.

(** Without inners it completes with the outer source. *)
Theorem C31_completes_if : forall O A h (s : sstate O A),
  sreach h s -> arrived h = [] -> sresting s -> In (LOuter OnCompleted) h -> In OnCompleted (requests (w_log s)).
Proof. exact @s_completes_if. Qed.
Print Assumptions C31_completes_if.

Theorem C31_completes_only_if : forall O A h (s : sstate O A),
  sreach h s -> ~ In LCancel h -> In OnCompleted (requests (w_log s)) -> In (LOuter OnCompleted) h.
Proof. exact @s_completes_only_if. Qed.
Print Assumptions C31_completes_only_if.

(** What Rx promises does not hold: outer and inner have both completed, the
    worker is at rest, and completion has not been requested. *)
Theorem C31_completion_refuted : exists h (s : sstate nat nat),
  sreach h s /\ sresting s /\ In (LOuter OnCompleted) h /\ completions h = keys (w_log s) /\
  requests (w_log s) = [OnNext 5].
Proof.
  exists [LOuter (OnNext 10); LWork; LWork; LOuter OnCompleted; LWork; LInner 1 (OnNext 5); LInner 1 OnCompleted; LWork].
  eexists. split; [apply srun_init; vm_compute; reflexivity|]. repeat split. now do 3 right; left.
Qed.
Print Assumptions C31_completion_refuted.

(** ... whereas after disposal the completion of the disposed inner does
    request completion. *)
Theorem C31_completes_after_disposal_refuted : exists h (s : sstate nat nat),
  sreach h s /\ w_log s = [ESub 1 10; EDispose 1; EReq OnCompleted] /\ outer_calls h = [OnNext 10].
Proof.
  exists [LOuter (OnNext 10); LWork; LWork; LCancel; LWork; LWork; LInner 1 OnCompleted; LWork].
  eexists. split; [apply srun_init; vm_compute; reflexivity|]. repeat split.
Qed.
Print Assumptions C31_completes_after_disposal_refuted.

Example C31_case : exists s : sstate nat nat,
  sreach [LOuter OnCompleted; LWork] s /\ sresting s /\ w_log s = [EReq OnCompleted].
Proof. eexists. split; [apply srun_init; vm_compute; reflexivity|]. repeat split. Qed.
