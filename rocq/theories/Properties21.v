(** * Property C66: several subscribers of one from_iterable or from_async observable.

    [hreach o h s]: with the object [o] (iterable, iterator, coroutine, future)
    given to from_iterable or from_async, the history [h] (subscriptions, starts
    and resumptions of their tasks, the workflow's end, disposals, in any order)
    can happen and leads to [s].  [requested i s]: the calls made for subscriber
    [i] on its safe observer, which passes them on up to the first terminal one
    (C01, C02).  [over i s]: the task of [i] has ended.  [starts h]: the
    subscriptions in the order in which their tasks were started. *)
From Verif Require Import SharedProofs.
Set Implicit Arguments.

(** A list, range or other object that can be iterated again: everybody gets everything. *)
Theorem C66_iterable : forall A (xs : list A) e h s i,
  hreach (HIterable xs e) h s -> over i s -> ~ In (HCancel i) h -> requested i s = iterated xs e.
Proof. exact @iterable_over. Qed.
Print Assumptions C66_iterable.

(** An iterator or generator: the one whose task starts first gets everything, ... *)
Theorem C66_iterator_first : forall A (xs : list A) e h s i,
  hreach (HIterator xs e) h s -> hd_error (starts h) = Some i -> requested i s = iterated xs e.
Proof.
  intros A xs e h s i H Hs. destruct (iterator_inv H) as (_ & _ & G). rewrite G. destruct (starts h) as [|j r]; [discriminate|].
  injection Hs as ->. cbn. now rewrite Nat.eqb_refl.
Qed.
Print Assumptions C66_iterator_first.

(** ... all the others nothing but the completion. *)
Theorem C66_iterator_later : forall A (xs : list A) e h s i j,
  hreach (HIterator xs e) h s -> hd_error (starts h) = Some j -> In i (starts h) -> i <> j -> requested i s = [OnCompleted].
Proof.
  intros A xs e h s i j H Hs Hi Hij. destruct (iterator_inv H) as (_ & _ & G). rewrite G. destruct (starts h) as [|k r]; [discriminate|].
  injection Hs as ->. cbn. destruct (Nat.eqb_spec i j) as [->|_]; [contradiction|]. destruct Hi as [->|Hi]; [contradiction|].
  apply mem_in in Hi. now rewrite Hi.
Qed.
Print Assumptions C66_iterator_later.

(** A coroutine: the one whose task starts first gets the outcome, ... *)
Theorem C66_coroutine_first : forall A h (s : hstate A) j, hreach (HCoroutine CoFresh) h s ->
  hd_error (starts h) = Some j -> over j s -> ~ In (HCancel j) h ->
  exists r, outcomes h = [r] /\ requested j s = outcome r.
Proof. exact @coroutine_first. Qed.
Print Assumptions C66_coroutine_first.

(** ... all the others an error, at once. *)
Theorem C66_coroutine_later : forall A h (s : hstate A) j i, hreach (HCoroutine CoFresh) h s ->
  hd_error (starts h) = Some j -> In i (starts h) -> i <> j -> requested i s = [OnError RuntimeErr; OnCompleted].
Proof. exact @coroutine_later. Qed.
Print Assumptions C66_coroutine_later.

(** A future or task: everybody gets the outcome, unless some subscription is disposed, ... *)
Theorem C66_future : forall A h (s : hstate A) i, hreach (HFuture None) h s -> over i s ->
  (forall j, ~ In (HCancel j) h) -> exists r, outcomes h = [r] /\ requested i s = outcome r.
Proof.
  intros A h s i H Ho Hn. destruct (future_over i H Ho (Hn i)) as [G|(_ & (j & Hj) & _)]; [exact G|]. now elim (Hn j).
Qed.
Print Assumptions C66_future.

(** ... whatever is disposed, nobody gets anything else, ... *)
Theorem C66_future_only : forall A h (s : hstate A) i, hreach (HFuture None) h s -> over i s -> ~ In (HCancel i) h ->
  (exists r, outcomes h = [r] /\ requested i s = outcome r) \/
  (outcomes h = [] /\ (exists j, In (HCancel j) h) /\ requested i s = [OnCompleted]).
Proof. exact @future_over. Qed.
Print Assumptions C66_future_only.

(** ... and disposing one subscription that waits cancels the future for all:
    it has no outcome and nobody gets an element or an error, now or later. *)
Theorem C66_future_disposed_refuted : forall A h1 i h2 (s : hstate A),
  hreach (HFuture None) (h1 ++ HCancel i :: h2) s -> In i (starts h1) -> outcomes h1 = [] ->
  outcomes (h1 ++ HCancel i :: h2) = [] /\ forall j, requested j s = [] \/ requested j s = [OnCompleted].
Proof. exact @future_disposed. Qed.
Print Assumptions C66_future_disposed_refuted.

(** Two subscribers of each kind of object; the second never cancelled. *)
Example C66_iterable_case : exists s : hstate nat,
  hreach (HIterable [1; 2] None) [HSub; HStart 0; HSub; HStart 1] s /\ over 1 s /\
  requested 1 s = [OnNext 1; OnNext 2; OnCompleted].
Proof. eexists. split; [apply hrun_init; vm_compute; reflexivity|]. vm_compute. auto. Qed.

Example C66_iterator_case : exists s : hstate nat,
  hreach (HIterator [1; 2] None) [HSub; HSub; HStart 1; HStart 0] s /\
  requested 1 s = [OnNext 1; OnNext 2; OnCompleted] /\ requested 0 s = [OnCompleted].
Proof. eexists. split; [apply hrun_init; vm_compute; reflexivity|]. vm_compute. auto. Qed.

Example C66_coroutine_case : exists s : hstate nat,
  hreach (HCoroutine CoFresh) [HSub; HSub; HStart 0; HStart 1; HResolve (Ok 7)] s /\ over 0 s /\
  requested 0 s = [OnNext 7; OnCompleted] /\ requested 1 s = [OnError RuntimeErr; OnCompleted].
Proof. eexists. split; [apply hrun_init; vm_compute; reflexivity|]. vm_compute. auto. Qed.

Example C66_future_case : exists s : hstate nat,
  hreach (HFuture None) [HSub; HSub; HStart 0; HStart 1; HResolve (Ok 7); HWake 1; HSub; HWake 0; HStart 2] s /\
  (forall i, i < 3 -> over i s /\ requested i s = [OnNext 7; OnCompleted]).
Proof.
  eexists. split; [apply hrun_init; vm_compute; reflexivity|]. intros i Hi.
  destruct i as [|[|[|i]]]; [vm_compute; auto..|lia].
Qed.

Example C66_disposed_case : exists s : hstate nat,
  hreach (HFuture None) ([HSub; HSub; HStart 0; HStart 1] ++ HCancel 0 :: [HWake 1; HSub; HStart 2]) s /\
  over 1 s /\ requested 1 s = [OnCompleted] /\ over 2 s /\ requested 2 s = [OnCompleted].
Proof. eexists. split; [apply hrun_init; vm_compute; reflexivity|]. vm_compute. auto. Qed.
