(** * Properties C52, C53, C60, C61: the virtual time event loop.

    [top] is the heap: any function that returns an entry of least deadline. *)
From Coq Require Import Sorted.
From Verif Require Import LoopProofs.
Set Implicit Arguments.
Local Open Scope Z_scope.

(** ** C52 *)
Theorem C52_monotone : forall top ok s h s', vsteps top ok s h s' -> v_time s <= v_time s'.
Proof. intros top ok s h s' H. exact (steps_time H). Qed.
Print Assumptions C52_monotone.

(** The times at which callbacks run never decrease; a timer does not run
    before its deadline. *)
Theorem C52_not_early : forall top ok h s, heap_top top -> vsteps top ok v_init h s ->
  StronglySorted Z.le (map snd (v_log s)) /\
  forall id t w, In (id, t) (v_log s) -> timer s id = Some w -> w <= t <= v_time s.
Proof.
  intros top ok h s T H. pose proof (reach_wf T H) as W. split; [exact (wf_sorted W)|]. intros id t w H1 H2.
  destruct (wf_log W id t H1) as [H3 H4]. split; [exact (H4 w H2)|exact H3].
Qed.
Print Assumptions C52_not_early.

(** Provided that no timer is scheduled in the past, timers run exactly at
    their deadlines, hence in the order of their deadlines. *)
Theorem C52_exact : forall top h s, heap_top top -> vsteps top timely v_init h s ->
  (forall id t w, In (id, t) (v_log s) -> timer s id = Some w -> t = w) /\
  forall a i t b j t' c w w', v_log s = a ++ (i, t) :: b ++ (j, t') :: c -> timer s i = Some w -> timer s j = Some w' -> w <= w'.
Proof.
  intros top h s T H. pose proof (reach_exact T H) as E. pose proof (wf_sorted (reach_wf T H)) as So.
  assert (G : forall id t w, In (id, t) (v_log s) -> timer s id = Some w -> t = w) by (intros id t w H1 H2; symmetry; exact (ex_log E _ _ H1 H2)).
  split; [exact G|]. intros a i t b j t' c w w' El Hi Hj.
  assert (t = w) by (apply (G i); [rewrite El, in_app_iff; right; now left|exact Hi]).
  assert (t' = w') by (apply (G j); [rewrite El, in_app_iff; right; right; rewrite in_app_iff; right; now left|exact Hj]).
  subst. rewrite El, map_app in So. cbn in So. rewrite map_app in So. cbn in So. clear -So.
  induction (map snd a) as [|x l IH]; cbn in So.
  - inversion So as [|? ? _ F]; subst. rewrite Forall_forall in F. apply F, in_app_iff. right. now left.
  - inversion So; subst. auto.
Qed.
Print Assumptions C52_exact.

(** In any case an iteration that finds no ready callback takes a timer that
    is not cancelled, and none that is still to be run has an earlier deadline;
    time advances to that deadline and not further. *)
Theorem C52_next : forall top ok h s s' id, heap_top top -> vsteps top ok v_init h s ->
  vstep top s VBegin = Some s' -> v_ready s = [] -> v_ready s' = [id] ->
  exists w, timer s id = Some w /\ ~ was_cancelled s id /\ ~ was_run s id /\ v_time s' = Z.max w (v_time s) /\
    forall j w', timer s j = Some w' -> ~ was_cancelled s j -> ~ was_run s j -> w <= w'.
Proof.
  intros top ok h s s' id T H E Hr Hr'. pose proof (reach_wf T H) as W. destruct (begin_next T W E Hr Hr') as (H1 & H2 & H3 & H4).
  destruct (timer s id) as [w|] eqn:Ew; [|elim (wf_sched W _ H2); exact Ew]. exists w. pose proof (tm_deadline (v_tab s) id Ew) as Ed. rewrite Ed in *.
  split; [reflexivity|]. split; [unfold was_cancelled; congruence|]. split; [|split; [exact H3|]].
  - intros F. pose proof (wf_nodup W) as N. unfold ids in N. apply NoDup_app_iff in N as (_ & _ & N). apply (N id F), in_app_iff. auto.
  - intros j w' Hj Hc Hn. rewrite <- (tm_deadline (v_tab s) j Hj). unfold was_cancelled in Hc. apply not_true_is_false in Hc. apply H4; [|exact Hc].
    destruct (wf_all W (id := j)) as [F|F]; [| |congruence].
    + unfold timer in Hj. destruct (nth_error (v_tab s) j) eqn:En; [|discriminate]. apply nth_error_Some. congruence.
    + apply in_ids in F as [F|[F|F]]; [contradiction| |exact F]. rewrite Hr in F. destruct F.
Qed.
Print Assumptions C52_next.

(** Timers for 5, 3 and 4; the callback of the second one schedules one for 4. *)
Definition three_timers : list vlabel :=
  [VOutside (VAt 5); VOutside (VAt 3); VOutside (VAt 4);
   VBegin; VRun [VAt 4]; VEnd; VBegin; VRun []; VEnd; VBegin; VRun []; VEnd; VBegin; VRun []; VEnd].
Example C52_case : heap_top first_least /\ exists s, vsteps first_least timely v_init three_timers s /\
  v_log s = [(1%nat, 3); (2%nat, 4); (3%nat, 4); (0%nat, 5)] /\ timer s 1 = Some 3.
Proof.
  split; [exact first_least_top|]. eexists. split.
  - unfold three_timers. repeat (eapply vsteps_head; [|vm_compute; reflexivity|]); [..|constructor]; cbn; intros; try lia; intuition; congruence || (injection H0 as <-; lia).
  - split; vm_compute; reflexivity.
Qed.
(** A timer in the past runs late and after a later one. *)
Example C52_past : exists s, vsteps first_least always v_init [VOutside (VAt 5); VBegin; VRun [VAt 2]; VEnd; VBegin; VRun []; VEnd] s /\
  v_log s = [(0%nat, 5); (1%nat, 5)] /\ timer s 1 = Some 2.
Proof. eexists. split; [apply vrun_steps; [intros; exact I|vm_compute; reflexivity]|split; reflexivity]. Qed.

(** ** C53 *)
(** No callback runs twice; one that runs is that of a handle. *)
Theorem C53_once : forall top ok h s, heap_top top -> vsteps top ok v_init h s ->
  NoDup (map fst (v_log s)) /\ forall id, was_run s id -> (id < length (v_tab s))%nat.
Proof.
  intros top ok h s T H. pose proof (reach_wf T H) as W. pose proof (wf_nodup W) as N. apply NoDup_app_iff in N as (N & _).
  split; [exact N|]. intros id F. apply (wf_lt W), in_ids. auto.
Qed.
Print Assumptions C53_once.

(** A handle that was cancelled before it was run stays so and is never run. *)
Theorem C53_cancelled : forall top ok s h s' id, vsteps top ok s h s' -> was_cancelled s id ->
  was_cancelled s' id /\ (~ was_run s id -> ~ was_run s' id).
Proof. intros top ok s h s' id H Hc. destruct (steps_cancelled id H Hc) as [H1 H2]. split; [exact H1|tauto]. Qed.
Print Assumptions C53_cancelled.

(** Nothing is lost: once nothing is left to do, every handle was run or
    cancelled. *)
Theorem C53_none_lost : forall top ok h s id, heap_top top -> vsteps top ok v_init h s -> drained s ->
  (id < length (v_tab s))%nat -> was_run s id \/ was_cancelled s id.
Proof.
  intros top ok h s id T H (_ & D1 & D2) L. destruct (wf_all (reach_wf T H) L) as [F|F]; [|auto].
  apply in_ids in F as [F|[F|F]]; [auto|rewrite D1 in F; destruct F|rewrite D2 in F; destruct F].
Qed.
Print Assumptions C53_none_lost.

(** And the loop gets there as soon as callbacks schedule nothing more: from
    every state, whether or not an iteration is going on. *)
Theorem C53_drains : forall top ok h s, heap_top top -> vsteps top ok v_init h s ->
  exists h' s', Forall (fun x => x = VBegin \/ x = VRun [] \/ x = VEnd) h' /\ vsteps top always s h' s' /\ drained s'.
Proof. intros top ok h s T H. exact (drains_any T (reach_wf T H)). Qed.
Print Assumptions C53_drains.

(** call_soon callbacks run in the order of the calls, and none is passed over. *)
Theorem C53_fifo : forall top ok h s, heap_top top -> vsteps top ok v_init h s ->
  (forall a i b j c, timer s i = None -> timer s j = None -> map fst (v_log s) = a ++ i :: b ++ j :: c -> (i < j)%nat) /\
  (forall i j, timer s i = None -> timer s j = None -> (i < j)%nat -> was_run s j -> ~ was_cancelled s i -> was_run s i).
Proof.
  intros top ok h s T H. pose proof (reach_wf T H) as W. split.
  - intros a i b j c Hi Hj E. exact (fifo _ _ _ _ _ W Hj Hi E).
  - intros i j Hi Hj L Hr Hc. unfold was_cancelled in Hc. apply not_true_is_false in Hc. exact (fifo_all W Hi Hj L Hr Hc).
Qed.
Print Assumptions C53_fifo.

(** 110 timers, of which all but the last two are cancelled: these are run. *)
Definition many_timers : list vlabel :=
  repeat (VOutside (VAt 7)) 110 ++ map (fun i => VOutside (VCancel i)) (seq 0 108) ++
  [VOutside VSoon; VOutside VSoon; VBegin; VRun []; VRun []; VEnd; VBegin; VRun []; VEnd; VBegin; VRun []; VEnd].
Example C53_case : exists s, vsteps first_least always v_init many_timers s /\ drained s /\
  v_log s = [(110%nat, 0); (111%nat, 0); (108%nat, 7); (109%nat, 7)] /\ was_cancelled s 3 /\ timer s 110 = None.
Proof. eexists. split; [apply vrun_steps; [intros; exact I|vm_compute; reflexivity]|]. vm_compute. auto 10. Qed.

(** ** C60 *)
(** A due timer is never run while every callback schedules another one with
    call_soon: the loop is not "the same as a normal event loop". *)
Theorem C60_starved : forall top n, heap_top top -> exists h s, vsteps top always v_init h s /\
  length (filter (fun x => match x with VBegin => true | _ => false end) h) = n /\
  timer s 0 = Some 0 /\ v_time s = 0 /\ ~ was_cancelled s 0 /\ ~ was_run s 0.
Proof.
  intros top n T. destruct (starve T n) as (s & H & _ & _ & _ & H1 & H2 & _ & _ & H3 & H4). exists (busy_for n), s.
  split; [exact H|]. split; [|split; [exact H4|split; [exact H1|split; [|exact H2]]]].
  - clear. induction n as [|n IH]; [reflexivity|]. cbn [busy_for]. rewrite filter_app, app_length, IH. cbn. lia.
  - unfold was_cancelled. now rewrite H3.
Qed.
Print Assumptions C60_starved.

(** ** C61 *)
(** When an iteration has begun, at most 100 timers are kept, or (but for one)
    at most half of them are cancelled. *)
Theorem C61_bounded : forall top ok h s s', heap_top top -> vsteps top ok v_init h s -> vstep top s VBegin = Some s' ->
  (length (v_sched s') <= 100)%nat \/
  (2 * length (filter (cancelled (v_tab s')) (v_sched s')) <= length (v_sched s') + 1)%nat.
Proof.
  intros top ok h s s' T H E. destruct (begin_bound T (reach_wf T H) E) as [F|F]; [auto|]. unfold ncancel in F. right. lia.
Qed.
Print Assumptions C61_bounded.

(** 102 timers, 51 of them cancelled, none at the head: nothing is cleaned up
    and the bound is met exactly. *)
Example C61_case : exists s s', vsteps first_least always v_init
    (VOutside (VAt 1) :: repeat (VOutside (VAt 7)) 101 ++ map (fun i => VOutside (VCancel i)) (seq 1 51)) s /\
  vstep first_least s VBegin = Some s' /\ length (v_sched s') = 101%nat /\ length (filter (cancelled (v_tab s')) (v_sched s')) = 51%nat.
Proof. eexists. eexists. split; [apply vrun_steps; [intros; exact I|vm_compute; reflexivity]|]. split; [vm_compute; reflexivity|]. vm_compute. auto. Qed.
