(** * Properties C24-C29: merge_inner, concat_seq.

    [mreach maxc h s]: after subscribing to merge_inner(maxc), the history [h]
    (calls of the outer source and of the inner subscriptions, disposal, worker
    steps, failures of subscribe_async/dispose_async, in any order) can happen
    and leads to [s]; [m_log s] is everything done to the outside so far:
    subscriptions, disposals, calls of the safe observer of the subscriber. *)
From Verif Require Import Merge2Proofs.
Set Implicit Arguments.

(** ** C24 *)
(** The subscriptions made are those of the inners that arrived, in order of
    arrival, each arrival at most once. *)
Theorem C24_subscribed_in_order : forall O A maxc h (s : mstate O A),
  mreach maxc h s -> prefix (subscribed (m_log s)) (arrived h) /\ NoDup (keys (m_log s)).
Proof. exact @in_order. Qed.
Print Assumptions C24_subscribed_in_order.

(** Without disposal and failures, an arrived inner has been subscribed or is waiting. *)
Theorem C24_none_forgotten : forall O A maxc h (s : mstate O A),
  mreach maxc h s -> never_fails h -> (forall l, In l h -> ~ stops l) ->
  subscribed (m_log s) ++ waiting s = arrived h.
Proof. exact @none_forgotten. Qed.
Print Assumptions C24_none_forgotten.

(** The worker always comes to rest. *)
Theorem C24_worker_rests : forall O A maxc h (s : mstate O A),
  mreach maxc h s -> exists n s', mreach maxc (h ++ repeat LWork n) s' /\ resting maxc s'.
Proof. exact @worker_rests. Qed.
Print Assumptions C24_worker_rests.

(** Three inners arrive, two run at a time; the first completes before its
    subscribe_async has returned. *)
Definition C24_history : list (mlabel nat nat) :=
  [LOuter (OnNext 10); LOuter (OnNext 11); LOuter (OnNext 12); LWork; LInner 0 (OnNext 5); LInner 0 OnCompleted;
   LWork; LWork; LWork; LWork; LInner 1 (OnNext 6); LWork; LWork].
Example C24_case : exists s, mreach 2 C24_history s /\ resting 2 s /\
  m_log s = [ESub 0 10; EReq (OnNext 5); ESub 1 11; EReq (OnNext 6); ESub 2 12] /\ waiting s = [].
Proof. eexists. split; [apply mrun_init; vm_compute; reflexivity|]. repeat split. Qed.

(** ** C25 *)
Theorem C25_bound : forall O A maxc h (s : mstate O A),
  (0 < maxc)%Z -> mreach maxc h s -> NoDup (completions h) ->
  (Z.of_nat (length (active h (m_log s))) <= maxc)%Z.
Proof. intros O A maxc h s Hc H Hn. exact (proj1 (bound Hc H Hn)). Qed.
Print Assumptions C25_bound.

(** ... and at rest an inner waits only while the bound is reached; with
    max_concurrent = 0 none waits. *)
Theorem C25_no_idle_waiting : forall O A maxc h (s : mstate O A),
  (0 <= maxc)%Z -> mreach maxc h s -> never_fails h -> (forall l, In l h -> ~ stops l) ->
  grammatical (outer_calls h) -> resting maxc s -> waiting s <> [] ->
  (0 < maxc <= Z.of_nat (length (active h (m_log s))))%Z.
Proof. exact @no_idle_waiting. Qed.
Print Assumptions C25_no_idle_waiting.

(** An inner that completes twice breaks the bound. *)
Theorem C25_bound_double_completion_refuted : exists h (s : mstate nat nat),
  mreach 1 h s /\ length (active h (m_log s)) = 2.
Proof.
  exists [LOuter (OnNext 10); LOuter (OnNext 11); LOuter (OnNext 12); LWork; LWork; LWork; LWork;
          LInner 0 OnCompleted; LInner 0 OnCompleted; LWork; LWork; LWork].
  eexists. split; [apply mrun_init; vm_compute; reflexivity|reflexivity].
Qed.
Print Assumptions C25_bound_double_completion_refuted.

Example C25_case : exists h (s : mstate nat nat),
  mreach 2 h s /\ NoDup (completions h) /\ resting 2 s /\ length (active h (m_log s)) = 2 /\ waiting s = [12].
Proof.
  exists [LOuter (OnNext 10); LOuter (OnNext 11); LOuter (OnNext 12); LWork; LWork; LWork; LWork; LWork].
  eexists. split; [apply mrun_init; vm_compute; reflexivity|]. repeat split. constructor.
Qed.

(** ** C26 *)
Theorem C26_completes_only_if : forall O A maxc h (s : mstate O A),
  (0 <= maxc)%Z -> mreach maxc h s -> grammatical (outer_calls h) ->
  In OnCompleted (requests (m_log s)) ->
  In (LOuter OnCompleted) h /\ subscribed (m_log s) = arrived h /\
  forall k, In k (keys (m_log s)) -> In k (completions h).
Proof. exact @completes_only_if. Qed.
Print Assumptions C26_completes_only_if.

Theorem C26_completes_if : forall O A maxc h (s : mstate O A),
  (0 <= maxc)%Z -> mreach maxc h s -> never_fails h -> (forall l, In l h -> ~ stops l) -> resting maxc s ->
  In (LOuter OnCompleted) h -> (forall k, In k (keys (m_log s)) -> In k (completions h)) ->
  In OnCompleted (requests (m_log s)).
Proof. exact @completes_if. Qed.
Print Assumptions C26_completes_if.

Theorem C26_completes_once : forall O A maxc h (s : mstate O A) a b,
  mreach maxc h s -> requests (m_log s) = a ++ OnCompleted :: b -> ~ In OnCompleted (a ++ b).
Proof. exact @completes_once. Qed.
Print Assumptions C26_completes_once.

(** With a negative max_concurrent it completes although inners wait. *)
Theorem C26_negative_refuted : exists h (s : mstate nat nat),
  mreach (-1) h s /\ In OnCompleted (requests (m_log s)) /\ arrived h = [10] /\ subscribed (m_log s) = [].
Proof.
  exists [LOuter (OnNext 10); LOuter OnCompleted; LWork; LWork]. eexists.
  split; [apply mrun_init; vm_compute; reflexivity|]. repeat split. now left.
Qed.
Print Assumptions C26_negative_refuted.

Example C26_case : exists s : mstate nat nat,
  mreach 1 [LOuter (OnNext 10); LOuter (OnNext 11); LOuter OnCompleted; LWork; LWork; LWork; LWork;
            LInner 0 (OnNext 1); LInner 0 OnCompleted; LWork; LInner 1 OnCompleted; LWork; LWork] s /\
  resting 1 s /\ m_log s = [ESub 0 10; EReq (OnNext 1); ESub 1 11; EReq OnCompleted].
Proof. eexists. split; [apply mrun_init; vm_compute; reflexivity|]. repeat split. Qed.

(** ** C27 *)
(** The calls made on the subscriber's safe observer are, apart from the
    completion, exactly the elements and errors produced, in order. *)
Theorem C27_forwards_all : forall O A maxc h (s : mstate O A),
  mreach maxc h s ->
  filter (fun n => match n with OnCompleted => false | _ => true end) (requests (m_log s)) = produced h.
Proof. exact @forwards. Qed.
Print Assumptions C27_forwards_all.

(** Hence a well-behaved subscriber gets the elements produced so far, as
    long as nothing failed and completion was not requested ... *)
Theorem C27_elements_delivered : forall O A maxc h (s : mstate O A) vs,
  mreach maxc h s -> produced h = map OnNext vs -> ~ In OnCompleted (requests (m_log s)) ->
  delivers (psys well_behaved (safe PEnd)) (requests (m_log s)) (trace vs Open).
Proof.
  intros O A maxc h s vs H Hp Hn.
  rewrite <- (norm_trace0 vs Open). unfold trace. rewrite app_nil_r, <- Hp, <- (forwards H), filter_eq_all.
  - apply (delivers_iff (sane_psys _ _)), subscriber. reflexivity.
  - intros n Hin. destruct n; [reflexivity|reflexivity|contradiction].
Qed.
Print Assumptions C27_elements_delivered.

(** ... and up to the first error, if one occurred before completion. *)
Theorem C27_first_error : forall O A maxc h (s : mstate O A) vs x rest,
  mreach maxc h s -> produced h = map OnNext vs ++ OnError x :: rest ->
  ~ In OnCompleted (requests (m_log s)) ->
  delivers (psys well_behaved (safe PEnd)) (requests (m_log s)) (trace vs (Failed x)).
Proof.
  intros O A maxc h s vs x rest H Hp Hn. apply (delivers_iff (sane_psys _ _)), subscriber.
  symmetry. apply (@upto_first_error _ _ vs x rest).
  - rewrite <- Hp. exact (forwards H).
  - intros a b E. exfalso. apply Hn. rewrite E. apply in_or_app. right. now left.
Qed.
Print Assumptions C27_first_error.

(** ... and all of them, then completion, once it is requested (no errors,
    grammatical outer source, subscriptions silent after completion). *)
Theorem C27_completed : forall O A maxc h (s : mstate O A),
  (0 <= maxc)%Z -> mreach maxc h s -> grammatical (outer_calls h) -> quiet_after_completion h ->
  (forall x, ~ In (OnError x) (produced h)) -> In OnCompleted (requests (m_log s)) ->
  delivers (psys well_behaved (safe PEnd)) (requests (m_log s)) (trace (map snd (sends h)) Completed).
Proof.
  intros O A maxc h s Hc H Hg Hq He Hin. apply (delivers_iff (sane_psys _ _)), subscriber.
  rewrite (completed_requests Hc H Hg Hq He Hin). symmetry. apply norm_trace0.
Qed.
Print Assumptions C27_completed.

Example C27_case : exists s : mstate nat nat,
  mreach 0 [LOuter (OnNext 10); LOuter (OnNext 11); LWork; LWork; LWork; LInner 1 (OnNext 1);
            LInner 0 (OnNext 2); LInner 1 (OnNext 3); LInner 0 (OnError ValueError); LInner 1 (OnNext 4)] s /\
  delivers (psys well_behaved (safe PEnd)) (requests (m_log s)) [OnNext 1; OnNext 2; OnNext 3; OnError ValueError].
Proof.
  eexists. split; [apply mrun_init; vm_compute; reflexivity|].
  apply (delivers_iff (sane_psys _ _)), subscriber. reflexivity.
Qed.

(** ** C28 *)
(** With max_concurrent = 1 (concat), a subscription is made only after all
    earlier ones have completed; *)
Theorem C28_sequential : forall O A h (s : mstate O A),
  mreach 1 h s -> NoDup (completions h) ->
  forall j k, In k (keys (m_log s)) -> j < k -> In j (completions h).
Proof. intros O A h s H Hn j k. exact (sequential eq_refl H Hn (j := j) (k := k)). Qed.
Print Assumptions C28_sequential.

(** and the elements of the result are the elements of the first
    subscription, then those of the second, and so on. *)
Theorem C28_concatenates : forall O A h (s : mstate O A),
  mreach 1 h s -> quiet_after_completion h ->
  map snd (sends h) =
  flat_map (fun k => map snd (filter (fun p => fst p =? k) (sends h))) (keys (m_log s)).
Proof. exact @concatenates. Qed.
Print Assumptions C28_concatenates.

Example C28_case : exists s : mstate nat nat,
  mreach 1 [LOuter (OnNext 10); LOuter (OnNext 11); LWork; LInner 0 (OnNext 1); LWork; LWork;
            LInner 0 (OnNext 2); LInner 0 OnCompleted; LWork; LInner 1 (OnNext 3)] s /\
  requests (m_log s) = [OnNext 1; OnNext 2; OnNext 3].
Proof. eexists. split; [apply mrun_init; vm_compute; reflexivity|reflexivity]. Qed.

(** ** C29 *)
(** After disposal, or an error of the outer source, and with the worker at
    rest: every subscription that has not completed was disposed, none twice ... *)
Theorem C29_all_disposed : forall O A maxc h (s : mstate O A),
  mreach maxc h s -> never_fails h -> (exists l, In l h /\ stops l) -> resting maxc s ->
  NoDup (disposed (m_log s)) /\
  forall k, In k (keys (m_log s)) -> In k (completions h) \/ In k (disposed (m_log s)).
Proof. exact @all_disposed. Qed.
Print Assumptions C29_all_disposed.

(** ... and nothing is subscribed any more. *)
Theorem C29_no_more_subscriptions : forall O A maxc h (s : mstate O A) h' s',
  mreach maxc h s -> never_fails h -> (exists l, In l h /\ stops l) -> resting maxc s ->
  mreach maxc (h ++ h') s' -> keys (m_log s') = keys (m_log s).
Proof. intros O A maxc h s h' s' H Hf Hs Hr H'. exact (proj2 (stays_ended h' H (rest_ended H Hf Hs Hr) H')). Qed.
Print Assumptions C29_no_more_subscriptions.

(** An error of an inner ends the result, but disposes no other inner. *)
Theorem C29_inner_error_refuted : exists h (s : mstate nat nat),
  mreach 0 h s /\ resting 0 s /\ In (OnError ValueError) (requests (m_log s)) /\
  active h (m_log s) = [0; 1] /\ disposed (m_log s) = [].
Proof.
  exists [LOuter (OnNext 10); LOuter (OnNext 11); LWork; LWork; LWork; LWork; LInner 0 (OnError ValueError)].
  eexists. split; [apply mrun_init; vm_compute; reflexivity|]. repeat split. now left.
Qed.
Print Assumptions C29_inner_error_refuted.

(** If subscribing to an inner raises, the worker dies and disposal reaches nobody. *)
Theorem C29_subscribe_failure_refuted : exists h (s : mstate nat nat),
  mreach 0 h s /\ resting 0 s /\ In LCancel h /\ active h (m_log s) = [0; 1] /\ disposed (m_log s) = [].
Proof.
  exists [LOuter (OnNext 10); LOuter (OnNext 11); LWork; LWork; LWork; LFail ValueError; LCancel].
  eexists. split; [apply mrun_init; vm_compute; reflexivity|]. repeat split. repeat (try (now left); right).
Qed.
Print Assumptions C29_subscribe_failure_refuted.

Example C29_case : exists s : mstate nat nat,
  mreach 2 [LOuter (OnNext 10); LOuter (OnNext 11); LOuter (OnNext 12); LWork; LWork; LWork; LWork; LWork;
            LInner 0 OnCompleted; LCancel; LWork; LWork; LWork; LWork; LWork] s /\
  resting 2 s /\ m_log s = [ESub 0 10; ESub 1 11; ESub 2 12; EDispose 1; EDispose 2].
Proof. eexists. split; [apply mrun_init; vm_compute; reflexivity|]. repeat split. Qed.
