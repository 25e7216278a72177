(** * C69: timers with Python's heap *)
From Coq Require Import Sorted.
From Verif Require Import HLoopProofs.
Set Implicit Arguments.
Local Open Scope Z_scope.

(** ** heapq *)
Theorem C69_heappush (key : nat -> Z) (h : list nat) (x : nat) : is_heap key h ->
  is_heap key (heappush key h x) /\ Permutation (heappush key h x) (x :: h).
Proof. rewrite <- !from_is_heap. intros H. destruct (heappush_spec x H). auto. Qed.
Print Assumptions C69_heappush.

Theorem C69_heappop (key : nat -> Z) (h : list nat) : is_heap key h ->
  match heappop key h with
  | None => h = []
  | Some (x, h') => Permutation h (x :: h') /\ (forall y, In y h -> key x <= key y) /\ is_heap key h'
  end.
Proof.
  rewrite <- from_is_heap. intros H. pose proof (heappop_spec H) as S. destruct (heappop key h) as [[x h']|]; [|exact S].
  rewrite <- from_is_heap. tauto.
Qed.
Print Assumptions C69_heappop.

Theorem C69_heapify (key : nat -> Z) (h : list nat) : is_heap key (heapify key h) /\ Permutation (heapify key h) h.
Proof. rewrite <- from_is_heap. destruct (heapify_spec key h). auto. Qed.
Print Assumptions C69_heapify.

(** ** The loop with it behaves as Loop.v says, for some choice among the timers
    with the least deadline: so C52, C53, C60, C61 and C62 hold of it. *)
Theorem C69_refines (ok : vstate -> vlabel -> Prop) (h : list vlabel) (hs : vstate) :
  (forall s s' x, v_time s = v_time s' -> ok s x -> ok s' x) -> hsteps ok v_init h hs ->
  exists top s, heap_top top /\ vsteps top ok v_init h s /\ Permutation (v_sched hs) (v_sched s) /\
    v_time hs = v_time s /\ v_tab hs = v_tab s /\ v_ready hs = v_ready s /\ v_count hs = v_count s /\
    v_todo hs = v_todo s /\ v_iter hs = v_iter s /\ v_log hs = v_log s.
Proof.
  intros Ho H. destruct (heap_loop Ho H) as (arrays & s & _ & V & E & P & _). exists (topA arrays), s.
  split; [apply topA_top|]. split; [exact V|]. split; [exact P|]. rewrite E. repeat split.
Qed.
Print Assumptions C69_refines.

(** In particular: provided that no timer is scheduled in the past, timers run
    exactly at their deadlines; no callback runs twice; once nothing is left to
    do every handle was run or cancelled. *)
Theorem C69_exact (h : list vlabel) (s : vstate) : hsteps timely v_init h s ->
  (forall id t w, In (id, t) (v_log s) -> timer s id = Some w -> t = w) /\
  StronglySorted Z.le (map snd (v_log s)) /\ NoDup (map fst (v_log s)) /\
  (drained s -> forall id, (id < length (v_tab s))%nat -> was_run s id \/ was_cancelled s id).
Proof.
  intros H. assert (Ho : forall s s' x, v_time s = v_time s' -> timely s x -> timely s' x).
  { clear. intros s s' x E. destruct x as [[]| | | |]; cbn; auto; rewrite E; auto. }
  destruct (heap_loop Ho H) as (arrays & v & _ & V & E & P & _). pose proof (topA_top arrays) as T.
  pose proof (reach_wf T V) as W. pose proof (reach_exact T V) as X.
  assert (El : v_log v = v_log s) by (rewrite E; reflexivity). assert (Et : v_tab v = v_tab s) by (rewrite E; reflexivity).
  split; [|split; [|split]].
  - intros id t w F G. symmetry. rewrite <- El in F. apply (ex_log X _ _ F). unfold timer in G. rewrite <- Et in G. exact G.
  - rewrite <- El. exact (wf_sorted W).
  - rewrite <- El. pose proof (wf_nodup W) as N. apply NoDup_app_iff in N. tauto.
  - intros (_ & D1 & D2) id L. unfold was_run, was_cancelled. rewrite <- El, <- Et. rewrite <- Et in L. destruct (wf_all W L) as [F|F]; [|auto].
    apply in_ids in F as [F|[F|F]]; [auto| |].
    + rewrite E in F. cbn [v_ready] in F. rewrite D1 in F. destruct F.
    + rewrite <- P, D2 in F. destruct F.
Qed.
Print Assumptions C69_exact.

(** ** Timers with the same deadline run in the order in which they were
    scheduled: refuted.  For 1, 2, 2 and 9 the second of the two at 2 runs first. *)
Definition four_timers : list vlabel :=
  [VOutside (VAt 1); VOutside (VAt 2); VOutside (VAt 2); VOutside (VAt 9);
   VBegin; VRun []; VEnd; VBegin; VRun []; VEnd; VBegin; VRun []; VEnd; VBegin; VRun []; VEnd].
Theorem C69_fifo_refuted : exists h s a b c w i j, hsteps timely v_init h s /\
  map fst (v_log s) = a ++ j :: b ++ i :: c /\ (i < j)%nat /\ timer s i = Some w /\ timer s j = Some w /\
  (forall k, ~ was_cancelled s k).
Proof.
  exists four_timers. eexists. exists [0%nat], [], [3%nat], 2, 1%nat, 2%nat. split; [|split; [|split; [|split; [|split]]]].
  - unfold four_timers. repeat (eapply hsteps_head; [|vm_compute; reflexivity|]); [..|apply hs_nil]; cbn; try lia; try exact I; intros ? [].
  - vm_compute. reflexivity.
  - lia.
  - vm_compute. reflexivity.
  - vm_compute. reflexivity.
  - intros k. unfold was_cancelled. cbn. destruct k as [|[|[|[|k]]]]; try discriminate. cbn. destruct k; discriminate.
Qed.
Print Assumptions C69_fifo_refuted.

(** The same with four timers for the same time. *)
Example C69_equal : exists s, hrun v_init (repeat (VOutside (VAt 5)) 4 ++ concat (repeat [VBegin; VRun []; VEnd] 4)) = Some s /\
  v_log s = [(0%nat, 5); (2%nat, 5); (1%nat, 5); (3%nat, 5)].
Proof. eexists. split; vm_compute; reflexivity. Qed.
(** The hypotheses: the timers of C52, and 110 timers most of which are cancelled. *)
Example C69_case : exists s, hsteps always v_init
    (repeat (VOutside (VAt 7)) 110 ++ map (fun i => VOutside (VCancel i)) (seq 0 108) ++ [VBegin; VRun [VAt 3; VSoon]; VEnd] ++ concat (repeat [VBegin; VRun []; VEnd] 3)) s /\
  drained s /\ v_log s = [(109%nat, 7); (111%nat, 7); (110%nat, 7); (108%nat, 7)].
Proof. eexists. split; [apply hrun_steps; [intros; exact I|vm_compute; reflexivity]|]. vm_compute. auto. Qed.
