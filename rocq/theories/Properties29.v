(** * C71: several __anext__ calls at once on one iterator. *)
From Verif Require Import OverlapProofs.
Set Implicit Arguments.

(** ** Whatever calls overlap, the elements returned are the elements sent, each
    returned by one call, in order; at most the last one sent is not returned
    yet; and a call ends once. *)
Theorem C71_once : forall A h (s : ostate A), osteps o_init h s ->
  (exists rest, sent_elements s = got_elements s ++ rest /\ length rest <= 1) /\ NoDup (map fst (o_yield s)).
Proof.
  intros A h s H. pose proof (reach_oinv H) as I. split; [|exact (oi_ynodup I)].
  destruct (oi_phase I) as [? ? ? ? ? ? G|v ? ? ? ? ? ? G|? ? ? ? ? ? ? ? ? ? ? G|? ? ? ? ? ? ? ? ? G]; rewrite <- G; [exists []|exists [v]|exists []|exists []]; rewrite ?app_nil_r; auto.
Qed.
Print Assumptions C71_once.

(** ** What a call that ends returns or raises. *)
Theorem C71_results : forall A h (s : ostate A) k o, osteps o_init h s -> In (k, o) (o_yield s) ->
  (exists v, o = Returned v /\ In (OnNext v) (o_calls s)) \/
  (exists e, o = Raised e /\ In (OnError e) (o_calls s)) \/
  (o = Raised StopAsyncIter /\ In OnCompleted (o_calls s)) \/
  o = Raised InvalidState.
Proof. intros A h s k o H F. destruct (oi_yield (reach_oinv H) _ _ F) as [_ [G|[G|[G|G]]]]; auto. Qed.
Print Assumptions C71_results.

(** ** An element for several calls that wait: the first of them returns it, the
    others raise InvalidStateError. *)
Theorem C71_element : forall A h (s : ostate A) v k ks, osteps o_init h s ->
  o_ready s = [OForeign] -> o_busy s = false -> queue s = k :: ks ->
  exists s', orun s (OTurn [OSend (OnNext v)] :: repeat (OTurn []) (S (length ks))) = Some s' /\
    o_yield s' = o_yield s ++ (k, Returned v) :: map (fun j => (j, Raised InvalidState)) ks.
Proof.
  intros A h s v k ks H Hr Hb Hq. pose proof (reach_oinv H) as I. destruct (first_takes v I Hr Hb Hq) as (s1 & s2 & E1 & E2 & R & P & Y & _ & _ & _ & W).
  pose proof (queue_nodup I) as N. rewrite Hq in N. inversion N as [|? ? _ N']; subst. destruct (@late A ks s2 [] R P N' W) as (s' & E & Y'). exists s'.
  cbn [orun repeat]. rewrite E1, (E2 []). split; [exact E|]. rewrite Y', Y, <- app_assoc. reflexivity.
Qed.
Print Assumptions C71_element.

(** ** A terminal notification for several calls that wait: all of them raise it. *)
Theorem C71_terminal : forall A h (s : ostate A) n, osteps o_init h s ->
  o_ready s = [OForeign] -> o_busy s = false -> is_term n = true ->
  exists s', orun s (OTurn [OSend n] :: repeat (OTurn []) (length (queue s))) = Some s' /\
    o_yield s' = o_yield s ++ map (fun j => (j, Raised (match n with OnError e => e | _ => StopAsyncIter end))) (queue s).
Proof.
  intros A h s n H Hr Hb Hn. pose proof (reach_oinv H) as I. destruct (send_shape n I Hr Hb) as (s1 & E1 & R1 & _ & _ & N1 & _ & _ & F1 & Y1).
  destruct (@all_raise A (match n with OnError e => e | _ => StopAsyncIter end) (queue s) s1 R1 (queue_nodup I)) as (s' & E & Y).
  - intros k F. exists (o_push s). rewrite N1. split; [exact (queue_wait k I F)|]. rewrite F1. destruct n; [discriminate|reflexivity|reflexivity].
  - exists s'. cbn [orun]. rewrite E1. split; [exact E|]. now rewrite Y, Y1.
Qed.
Print Assumptions C71_terminal.

(** ** Two loops: if at least two calls wait when an element is sent and the task
    that gets it asks for the next one (as [async for] does), then that call
    never ends, whatever anybody does afterwards. *)
Theorem C71_two_loops : forall A h (s : ostate A) v k j ks, osteps o_init h s ->
  o_ready s = [OForeign] -> o_busy s = false -> o_sub s <> None -> queue s = k :: j :: ks ->
  exists s', orun s [OTurn [OSend (OnNext v)]; OTurn [ONext]] = Some s' /\
    o_yield s' = o_yield s ++ [(k, Returned v)] /\
    forall h' s'', osteps s' h' s'' -> outstanding s'' (length (o_next s)).
Proof.
  intros A h s v k j ks H Hr Hb Hs Hq. pose proof (reach_oinv H) as I. destruct (first_takes v I Hr Hb Hq) as (s1 & s2 & E1 & E2 & R & P & Y & S2 & L & F & W).
  assert (E : exists s', o_acts s2 [ONext] = Some s' /\ o_yield s' = o_yield s2 /\ doomed s' (length (o_next s))).
  { cbn [o_acts o_act]. cbn [o_sub]. rewrite S2. destruct (o_sub s) as [i|]; [|now elim Hs]. unfold o_await. cbn [o_futs o_push]. rewrite F. eexists. split; [reflexivity|]. split; [reflexivity|].
    right. cbn. rewrite L. split; [|split; [exact P|exists j; rewrite R; cbn; eauto]]. rewrite nth_oput by (rewrite app_length; cbn; lia). now rewrite Nat.eqb_refl. }
  destruct E as (s' & E & Y' & D). exists s'. assert (Eo : orun s [OTurn [OSend (OnNext v)]; OTurn [ONext]] = Some s') by (cbn [orun]; rewrite E1, (E2 [ONext]), E; reflexivity).
  split; [exact Eo|]. split; [congruence|]. intros h' s'' H'.
  assert (I' : oinv s'). { cbn [orun] in Eo. rewrite E1 in Eo. destruct (ostep s1 (OTurn [ONext])) as [t|] eqn:Et; [|discriminate]. injection Eo as ->. exact (step_inv _ (step_inv _ I E1) Et). }
  destruct (steps_doomed I' D H') as [I2 D2]. exact (doomed_out I2 D2).
Qed.
Print Assumptions C71_two_loops.

(** ** Two first calls that overlap subscribe twice, and one of the subscriptions
    is never disposed (it is refuted that disposing releases what the iterator
    has subscribed to). *)
Theorem C71_released_refuted : exists h (s : ostate nat), osteps o_init h s /\ 
  In (OTurn [OSubscribed 0]) h /\ In (OTurn [OSubscribed 1]) h /\ o_disp s = [1] /\
  forall h' s', osteps s h' s' -> ~ In 0 (o_disp s').
Proof.
  exists [OArrive; OArrive; OArrive; OArrive; OArrive; OTurn [ONext]; OTurn [ONext]; OTurn [OSubscribed 0]; OTurn [OSubscribed 1]; OTurn [ODispose]].
  eexists. split; [apply orun_steps; vm_compute; reflexivity|]. split; [cbn; auto 10|]. split; [cbn; auto 10|]. split; [reflexivity|].
  intros h' s' H. refine (proj2 (proj2 (proj2 (steps_dropped _ H)))). repeat split; cbn; try lia; try discriminate.
Qed.
Print Assumptions C71_released_refuted.

(** Two loops over one iterator: 10 goes to the first loop, which asks for more;
    the second loop gets InvalidStateError; a third call gets 20, and 30 and the
    end go to calls made later; the call of the first loop is still waiting. *)
Definition before : list (@olabel nat) :=
  [OArrive; OArrive; OArrive; OArrive; OTurn [ONext; OSubscribed 0]; OTurn [ONext]; OTurn []].
Example C71_case : exists s, osteps o_init before s /\ o_ready s = [OForeign] /\ o_busy s = false /\ o_sub s <> None /\ queue s = [0; 1].
Proof. eexists. split; [apply orun_steps; vm_compute; reflexivity|]. repeat split. discriminate. Qed.
Example C71_case_after : exists s, osteps o_init (before ++
    [OTurn [OSend (OnNext 10)]; OTurn [ONext]; OTurn []; OTurn [OSend (OnNext 20)]; OArrive; OTurn [ONext]; OTurn [OSend (OnNext 30)]; OArrive; OTurn [ONext]; OTurn [OSend OnCompleted]; OArrive; OTurn [ONext]]) s /\
  o_yield s = [(0, Returned 10); (1, Raised InvalidState); (3, Returned 20); (4, Returned 30); (5, Raised StopAsyncIter)] /\
  o_ready s = [] /\ outstanding s 2 /\ sent_elements s = [10; 20; 30].
Proof.
  eexists. split; [apply orun_steps; vm_compute; reflexivity|]. split; [reflexivity|]. split; [reflexivity|]. split; [|reflexivity].
  split; [cbn; lia|]. cbn. intros [F|[F|[F|[F|[F|[]]]]]]; discriminate.
Qed.
