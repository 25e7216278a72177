(** * Property C62: the subjects for tests on the virtual time event loop.

    [k_calls]: the calls of asend_at, athrow_at and aclose_at, in order;
    [k_sent]: the calls of asend, athrow and aclose they lead to. *)
From Coq Require Import Sorted.
From Verif Require Import TestSubjProofs.
Set Implicit Arguments.
Local Open Scope Z_scope.

(** Provided that nothing is scheduled in the past, what is scheduled for [w]
    is sent at [w]. *)
Theorem C62_on_time : forall A top h (s : kstate A) t j, heap_top top -> ksteps top in_time k_init h s -> In (t, j) (k_sent s) ->
  exists n, nth_error (k_calls s) j = Some (t, n).
Proof.
  intros A top h s t j T H F. destruct (sent_call _ _ (reach_kinv T H) F) as (w & n & id & C & L & J). exists n.
  destruct (reach_due T H _ J C) as [_ G]. rewrite <- (G t L). exact C.
Qed.
Print Assumptions C62_on_time.

(** In any case it is not sent before. *)
Theorem C62_not_early : forall A top ok h (s : kstate A) t j, heap_top top -> ksteps top ok k_init h s -> In (t, j) (k_sent s) ->
  exists w n, nth_error (k_calls s) j = Some (w, n) /\ w <= t.
Proof.
  intros A top ok h s t j T H F. destruct (sent_call _ _ (reach_kinv T H) F) as (w & n & id & C & L & J). exists w, n.
  split; [exact C|]. exact (proj2 (reach_late T H _ J C) t L).
Qed.
Print Assumptions C62_not_early.

(** It is not sent twice, what is sent is sent in the order of time, and once
    the loop has nothing left to do everything has been sent. *)
Theorem C62_once : forall A top ok h (s : kstate A), heap_top top -> ksteps top ok k_init h s ->
  NoDup (map snd (k_sent s)) /\ StronglySorted Z.le (map fst (k_sent s)) /\
  (drained (k_loop s) -> forall j, (j < length (k_calls s))%nat -> In j (map snd (k_sent s))).
Proof.
  intros A top ok h s T H. pose proof (reach_kinv T H) as K. split; [exact (sent_once K)|]. split; [exact (sent_sorted K)|].
  intros D j Hj. exact (sent_all K D Hj).
Qed.
Print Assumptions C62_once.

(** The task of a call is kept ([_running_tasks]) until the method of the
    subject has returned without an exception, and no longer... *)
Theorem C62_tasks : forall A top ok h (s : kstate A) j w n, heap_top top -> ksteps top ok k_init h s ->
  In j (map snd (k_sent s)) -> nth_error (k_calls s) j = Some (w, n) -> n <> OnCompleted ->
  (In j (k_tasks s) <-> ~ In (j, None) (k_fin s)).
Proof.
  intros A top ok h s j w n T H F C N. pose proof (reach_kinv T H) as K. rewrite (kt_iff (reach_tasks T H) j). unfold gone.
  split; [intros [_ G] I; apply G; split; [exact I|eauto]|]. intros G. split; [exact (sent_started _ K F)|]. intros [I _]. auto.
Qed.
Print Assumptions C62_tasks.

(** ... except that the task of aclose_at is never given up. *)
Theorem C62_tasks_refuted : forall A top ok h (s : kstate A) j w, heap_top top -> ksteps top ok k_init h s ->
  In j (map snd (k_sent s)) -> nth_error (k_calls s) j = Some (w, OnCompleted) -> In j (k_tasks s).
Proof.
  intros A top ok h s j w T H F C. pose proof (reach_kinv T H) as K. apply (kt_iff (reach_tasks T H) j). split; [exact (sent_started _ K F)|].
  intros [_ (w' & n & C' & N)]. rewrite C in C'. injection C' as _ <-. now apply N.
Qed.
Print Assumptions C62_tasks_refuted.

(** aclose_at(7), asend_at(5, 1), athrow_at(6, 9); the value is sent on while a
    timer of others is scheduled. *)
Definition three_calls : list (klabel (A := Z)) :=
  [KOutside (KAt 7 OnCompleted); KOutside (KAt 5 (OnNext 1)); KOutside (KAt 6 (OnError (UserExn 9)));
   KBegin; KRun []; KEnd; KBegin; KRun [KOther (VAt 6); KReturn 1 None]; KEnd;
   KBegin; KRun []; KEnd; KBegin; KRun [KReturn 2 None]; KEnd; KBegin; KRun []; KEnd;
   KBegin; KRun []; KEnd; KBegin; KRun [KReturn 0 None]; KEnd].
Example C62_case : exists s, ksteps first_least in_time k_init three_calls s /\ drained (k_loop s) /\
  k_sent s = [(5, 1%nat); (6, 2%nat); (7, 0%nat)] /\ k_fin s = [(1%nat, None); (2%nat, None); (0%nat, None)] /\ k_tasks s = [0%nat].
Proof.
  eexists. split.
  - unfold three_calls. repeat (eapply ksteps_head; [|vm_compute; reflexivity|]); [..|apply ks_nil]; cbn; try lia; try exact I; repeat (apply Forall_cons || apply Forall_nil); cbn; try lia; exact I.
  - vm_compute. repeat split.
Qed.
