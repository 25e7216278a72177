(** * C70: the methods of the test subject that send later. *)
From Coq Require Import Sorted.
From Verif Require Import LaterProofs.
Set Implicit Arguments.
Local Open Scope Z_scope.

(** ** On time: what call [j] of a history (they are listed in the order in which
    they are made) asks for is sent exactly [max 0 delay] after the time at which
    it is made, whatever else is scheduled and however the loop breaks ties. *)
Theorem C70_on_time : forall A (top : nat -> list hinfo -> list nat -> nat) h (s : lstate A) t j,
  heap_top top -> lsteps top l_init h s -> In (t, j) (l_sent s) ->
  exists b d n h1 x h2 s1 s2,
    nth_error (asked h) j = Some (b, d, n) /\                          (* it asks for [n] in [d] seconds *)
    h = h1 ++ x :: h2 /\ lsteps top l_init h1 s1 /\ lstep top s1 x = Some s2 /\
    (length (asked h1) <= j < length (asked (h1 ++ [x])))%nat /\      (* it is made in step [x] *)
    v_time (l_loop s1) = v_time (l_loop s2) /\ t = v_time (l_loop s2) + Z.max 0 d.
Proof.
  intros A top h s t j Top H Hs. pose proof (reach_linv Top H) as L. destruct (li_sent L _ _ Hs) as (c & Hc & _ & Et & _).
  destruct (@reach_made _ _ _ _ _ _ H Hc) as (h1 & x & h2 & s1 & s2 & -> & H1 & E & Hj & T1 & T2).
  exists (c_scheduled c), (c_delay c), (c_notif c), h1, x, h2, s1, s2.
  pose proof (ls_snoc _ H1 E) as H2. rewrite <- (reach_asked H), <- (reach_asked H1), <- (reach_asked H2), !map_length.
  split; [rewrite nth_error_map, Hc; reflexivity|]. repeat split; auto; try tauto; try congruence. rewrite T2. exact Et.
Qed.
Print Assumptions C70_on_time.

(** ** Once, in the order of the times, and not before it is asked for. *)
Theorem C70_once : forall A (top : nat -> list hinfo -> list nat -> nat) h (s : lstate A),
  heap_top top -> lsteps top l_init h s ->
  NoDup (map snd (l_sent s)) /\ StronglySorted Z.le (map fst (l_sent s)) /\
  forall t j, In (t, j) (l_sent s) -> (j < length (asked h))%nat /\ t <= v_time (l_loop s).
Proof.
  intros A top h s Top H. pose proof (reach_linv Top H) as L. split; [apply (li_once L)|]. split; [apply (li_sorted L)|].
  intros t j Hs. destruct (li_sent L _ _ Hs) as (c & Hc & _ & _ & Ht). split; [|exact Ht]. rewrite <- (reach_asked H), map_length. apply nth_error_Some. congruence.
Qed.
Print Assumptions C70_once.

(** ** All: when the loop has nothing left to do, every call has been sent; and
    left to itself it gets there. *)
Theorem C70_all : forall A (top : nat -> list hinfo -> list nat -> nat) h (s : lstate A),
  heap_top top -> lsteps top l_init h s ->
  (drained (l_loop s) -> forall j, (j < length (asked h))%nat -> exists t, In (t, j) (l_sent s)) /\
  exists h' s', Forall on_its_own h' /\ lsteps top l_init (h ++ h') s' /\ drained (l_loop s') /\
    forall j, (j < length (asked h))%nat -> exists t, In (t, j) (l_sent s').
Proof.
  assert (G : forall A (top : nat -> list hinfo -> list nat -> nat) h (s : lstate A) j, heap_top top -> lsteps top l_init h s -> drained (l_loop s) ->
    (j < length (asked h))%nat -> exists t, In (t, j) (l_sent s)).
  { intros A top h s j Top H D Hj. rewrite <- (reach_asked H), map_length in Hj. pose proof (all_sent (reach_linv Top H) D Hj) as F.
    apply in_map_iff in F as ([t k] & <- & F). eauto. }
  intros A top h s Top H. split; [intros D j Hj; eauto|]. destruct (drains_more Top (reach_linv Top H)) as (h' & s' & P & H' & D).
  pose proof (lsteps_app H H') as H2. exists h', s'. repeat split; try assumption; try apply D. intros j Hj. apply (G _ _ _ _ _ Top H2 D).
  rewrite asked_app, app_length. lia.
Qed.
Print Assumptions C70_all.

(** ** The tasks kept by the subject: those of the scheduled calls whose send has
    not returned normally. *)
Theorem C70_tasks : forall A (top : nat -> list hinfo -> list nat -> nat) h (s : lstate A) j,
  lsteps top l_init h s ->
  (In j (l_tasks s) <-> (exists d n, nth_error (asked h) j = Some (true, d, n)) /\ ~ In (j, None) (l_fin s)) /\
  (forall r, In (j, r) (l_fin s) -> exists t, In (t, j) (l_sent s)).
Proof.
  intros A top h s j H. pose proof (reach_tinv H) as T. split.
  - rewrite (ti_tasks T), <- (reach_asked H). unfold scheduled_call. rewrite nth_error_map. unfold request. split; intros [G F]; (split; [|exact F]).
    + destruct G as (c & -> & E). cbn. rewrite E. eauto.
    + destruct G as (d & n & G). destruct (nth_error (l_calls s) j) as [c|]; [|discriminate]. injection G as E _ _. eauto.
  - intros r F. destruct (ti_fin T _ _ F) as [G _]. apply in_map_iff in G as ([t k] & <- & G). eauto.
Qed.
Print Assumptions C70_tasks.

(** ** The task of a scheduled call is let go of once it is over: refuted if an
    observer raises. *)
Theorem C70_forgotten_refuted : exists h (s : lstate nat) j e, lsteps first_least l_init h s /\ drained (l_loop s) /\
  In (j, Some e) (l_fin s) /\ In j (l_tasks s).
Proof.
  exists [LOutside (LLater true 3 (OnNext 7%nat)); LBegin; LRun []; LEnd; LBegin; LRun []; LEnd; LBegin; LRun [LReturn 0 (Some (UserExn 1))]; LEnd].
  eexists. exists 0%nat, (UserExn 1). split; [repeat (eapply lsteps_head; [vm_compute; reflexivity|]); constructor|]. vm_compute. auto.
Qed.
Print Assumptions C70_forgotten_refuted.

(** Three calls, one with a negative delay, and a timer in the past; the second
    is sent first, the others at time 5; the fourth is made in a callback at 5. *)
Example C70_case : exists h s, lsteps first_least l_init h s /\ drained (l_loop s) /\
  asked h = [(true, 5, OnNext 1%nat); (false, -2, OnError (UserExn 3)); (false, 5, OnCompleted); (true, 0, OnNext 9%nat)] /\
  l_sent s = [(0, 1%nat); (5, 2%nat); (5, 0%nat); (5, 3%nat)] /\ l_tasks s = [3%nat] /\ l_fin s = [(1%nat, None); (0%nat, None)].
Proof.
  exists ([LOutside (LLater true 5 (OnNext 1%nat)); LOutside (LLater false (-2) (OnError (UserExn 3))); LOutside (LLater false 5 OnCompleted); LOutside (LOther (VAt (-4)));
    LBegin; LRun []; LRun [LReturn 1 None]; LEnd; LBegin; LRun []; LEnd; LBegin; LRun []; LEnd; LBegin; LRun []; LEnd; LBegin; LRun []; LEnd; LBegin; LRun [LReturn 0 None; LLater true 0 (OnNext 9%nat)]; LEnd;
    LBegin; LRun []; LEnd; LBegin; LRun []; LEnd]).
  eexists. split; [repeat (eapply lsteps_head; [vm_compute; reflexivity|]); constructor|]. vm_compute. auto 10.
Qed.
