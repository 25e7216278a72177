(** * Property C75: operators called by several tasks at once.

    [treach pol o r h s]: the observer [o] in front of [r], each call of [o] a
    task of its own ([TCall]: it begins, [TGo i]: the [i]-th goes on after
    what it awaited); [issued h]: the calls, in the order in which they began;
    [tlog s]: what the subscriber has been told; [idle s]: all calls are over.
    [overlapping pol p h l]: the subscriber of pipeline [p] has seen [l]. *)
From Verif Require Import HotProofs Properties2 ThreadsProofs.
From Coq Require Import Permutation.
Set Implicit Arguments.

(** Calls made one after the other, of any operator: the subscriber sees what
    it would see if each call were a single step. *)
Theorem C75_one_at_a_time : forall Z M B (pol : policy Z) (o : op M (act B)) (r : pipe Z B) h s,
  treach pol o r h s -> one_at_a_time pol o r h ->
  (idle s = true -> sees (ssys pol o r) (issued h) (tlog s)) /\
  exists l, sees (ssys pol o r) (issued h) l /\ prefix (tlog s) l.
Proof.
  intros Z M B pol o r h s H H1. split; [|exact (apart_prefix H H1)].
  intros Hi. exists (t_vars s, t_next s). split; [exact (apart_run H H1 Hi)|reflexivity].
Qed.
Print Assumptions C75_one_at_a_time.

(** Pipelines without async functions of the user before the first mailbox:
    overlapping calls make no difference, everything is as if each call were a
    single step, in the order in which the calls began. *)
Theorem C75_no_await : forall Z A (pol : policy Z) (p : pipe Z A) h l, no_await p ->
  (overlapping pol p h l -> sees (psys pol p) (issued h) l) /\
  (overlapping_done pol p h l -> finally (psys pol p) (issued h) l).
Proof.
  intros Z A pol p h l H. split; [apply prompt_sees|apply prompt_finally]; exact (no_await_prompt H).
Qed.
Print Assumptions C75_no_await.

(** These are, beside the operators named in [no_await], also the following
    (behind those with an index any operator [r] may follow). *)
Theorem C75_no_await_operators : forall Z A B C,
  (forall (f : A -> B -> res C) (r : pipe Z C), no_await r -> no_await (starmap_ f r)) /\
  (forall (p : A -> B -> res bool) (r : pipe Z (A * B)), no_await r -> no_await (starfilter_ p r)) /\
  (forall (f : A -> nat -> res B) (r : pipe Z B), no_await (mapi_ f r)) /\
  (forall (f : A -> nat -> res B) (r : pipe Z B), no_await (mapi_async_ f r)) /\
  (forall (p : A -> nat -> res bool) (r : pipe Z A), no_await (filteri_ p r)) /\
  (forall (f : B -> A -> res B) b (r : pipe Z B), no_await (reduce_sync_ f b r)) /\
  (forall isn start stop step opr (r : pipe Z A), slice_ isn start stop step = Ok opr -> no_await r -> no_await (opr r)).
Proof. exact no_await_operators. Qed.
Print Assumptions C75_no_await_operators.

Theorem C75_no_await_delivers : forall Z A (pol : policy Z) (p : pipe Z A) h l out, no_await p ->
  delivers (psys pol p) (issued h) out ->
  (overlapping pol p h l -> prefix l out) /\ (overlapping_done pol p h l -> l = out).
Proof.
  intros Z A pol p h l out H (_ & D1 & D2). destruct (C75_no_await pol h l H) as [H1 H2].
  split; intros X; [apply D2, H1, X|apply D1, H2, X].
Qed.
Print Assumptions C75_no_await_delivers.

(** For instance take(n): exactly the first n elements, however the calls overlap. *)
Theorem C75_take : forall A n (opr : pipe A A -> pipe A A) vs e junk h l,
  take_ n = Ok opr -> issued h = source_calls vs e junk ->
  (overlapping well_behaved (opr PEnd) h l -> prefix l (take_out n vs e)) /\
  (overlapping_done well_behaved (opr PEnd) h l -> l = take_out n vs e).
Proof.
  intros A n opr vs e junk h l H M. apply C75_no_await_delivers; [exact (@na_take A A n opr PEnd H)|]. rewrite M.
  apply (C12_take_hot well_behaved n PEnd vs e junk H).
  assert (D : forall ws e', delivers (psys well_behaved (safe (@PEnd A))) (trace ws e') (trace ws e')).
  { intros ws e'. now apply to_subscriber. }
  unfold take_out. destruct (_ && _)%bool; [|destruct (n =? 0)%Z]; apply D.
Qed.
Print Assumptions C75_take.

(** scan: the running fold. *)
Theorem C75_scan : forall A B (f : B -> A -> B) b vs h l,
  issued h = map OnNext vs ->
  overlapping well_behaved (scan_sync_ (fun c a => Ok (f c a)) b PEnd) h l -> l = map OnNext (scanl f b vs).
Proof.
  intros A B f b vs h l M H. apply C75_no_await in H; [|exact (na_scan _ _ na_end)]. rewrite M in H.
  destruct H as (s & R & <-). apply run_quiet_calls in R; [|reflexivity]. rewrite R.
  exact (f_equal (fun x => snd (snd x)) (seq_scan f b vs b [] 0)).
Qed.
Print Assumptions C75_scan.

(** reduce: the fold of all elements, in the order in which the calls began. *)
Theorem C75_reduce : forall A B (f : B -> A -> B) b vs e junk h l,
  issued h = source_calls vs e junk ->
  (overlapping well_behaved (reduce_sync_ (fun c a => Ok (f c a)) b PEnd) h l -> prefix l (reduce_out f b vs e)) /\
  (overlapping_done well_behaved (reduce_sync_ (fun c a => Ok (f c a)) b PEnd) h l -> l = reduce_out f b vs e).
Proof.
  intros A B f b vs e junk h l M. apply C75_no_await_delivers; [exact (na_scan _ _ (na_take_last 1 PEnd))|]. rewrite M.
  apply (delivers_iff (sane_psys _ _)). apply reduce_sync_hot.
  assert (G : exists ws e', reduce_out f b vs e = trace ws e') by (unfold reduce_out; destruct e; eauto).
  destruct G as (ws & e' & ->). apply subscriber. now rewrite norm_trace0.
Qed.
Print Assumptions C75_reduce.

Example C75_reduce_case : overlapping_done well_behaved (reduce_sync_ (fun c a => Ok (c + a)) 0 PEnd)
  [TCall (OnNext 1); TCall (OnNext 2); TCall OnCompleted; TWork 0; TWork 0; TWork 0; TWork 0] [OnNext 3; OnCompleted].
Proof.
  eexists. split; [apply tend_reach; vm_compute; reflexivity|]. split; [vm_compute; reflexivity|].
  split; [intros [|k]; vm_compute; reflexivity|vm_compute; reflexivity].
Qed.

(** take_until: the calls of both sources may overlap in any way. *)
Theorem C75_take_until : forall Z A B (pol : policy Z) (r : pipe Z A) h s,
  treach pol (@take_until_op A B) (safe r) h s -> sees (take_until_sys pol r) (issued h) (tlog s).
Proof.
  intros Z A B pol r h s H. destruct (prompt_inv (@prompt_take_until A B _) H) as [_ R].
  exists (t_vars s, t_next s). split; [exact R|reflexivity].
Qed.
Print Assumptions C75_take_until.

(** map_async: whatever follows gets the results in the order in which the
    mapper's calls end (nothing for a call that raises), and terminals at once. *)
Theorem C75_map_async : forall Z A B (pol : policy Z) (r : pipe Z B) (f : A -> res B) h s,
  treach pol (map_async_op f) r h s -> sees (psys pol r) (told (mapped f) [] [] h) (tlog s).
Proof.
  intros Z A B pol r f h s H. exists (snd (t_next s)). split; [exact (proj1 (map_async_spec H))|reflexivity].
Qed.
Print Assumptions C75_map_async.

Theorem C75_filter_async : forall Z A (pol : policy Z) (r : pipe Z A) (p : A -> res bool) h s,
  treach pol (filter_async_op p) r h s -> sees (psys pol r) (told (kept p) [] [] h) (tlog s).
Proof.
  intros Z A pol r p h s H. exists (snd (t_next s)). split; [exact (proj1 (filter_async_spec H))|reflexivity].
Qed.
Print Assumptions C75_filter_async.

Theorem C75_choose_async : forall Z A B (pol : policy Z) (r : pipe Z B) (f : A -> res (option B)) h s,
  treach pol (choose_async_op f) r h s -> sees (psys pol r) (told (chosen f) [] [] h) (tlog s).
Proof.
  intros Z A B pol r f h s H. exists (snd (t_next s)). split; [exact (proj1 (choose_async_spec H))|reflexivity].
Qed.
Print Assumptions C75_choose_async.

(** Nothing is lost or duplicated on the way to a subscriber without a
    safe_observer: once all calls are over, it has got the result of every call
    exactly once, in some order. *)
Theorem C75_map_async_all : forall A B (pol : policy B) (f : A -> res B) h s,
  treach pol (map_async_op f) PEnd h s -> idle s = true ->
  Permutation (elements (tlog s)) (flat_map (mapped f) (elements (issued h))).
Proof.
  intros A B pol f h s H Hi. destruct (map_async_spec H) as (R & _ & P). apply run_sink in R.
  unfold tlog. cbn [plog]. rewrite R. exact (P Hi).
Qed.
Print Assumptions C75_map_async_all.

Theorem C75_filter_async_all : forall A (pol : policy A) (p : A -> res bool) h s,
  treach pol (filter_async_op p) PEnd h s -> idle s = true ->
  Permutation (elements (tlog s)) (flat_map (kept p) (elements (issued h))).
Proof.
  intros A pol p h s H Hi. destruct (filter_async_spec H) as (R & _ & P). apply run_sink in R.
  unfold tlog. cbn [plog]. rewrite R. exact (P Hi).
Qed.
Print Assumptions C75_filter_async_all.

(** But the order of the sends is not kept, ... *)
Theorem C75_map_async_order_refuted :
  ~ (forall h s, treach well_behaved (map_async_op (fun x : nat => Ok x)) PEnd h s -> idle s = true ->
       elements (tlog s) = elements (issued h)).
Proof.
  intros H.
  pose proof (@tend_reach _ _ _ well_behaved (map_async_op (fun x : nat => Ok x)) PEnd
    [TCall (OnNext 1); TCall (OnNext 2); TGo 1; TGo 0; TGo 0; TGo 1] eq_refl) as R.
  specialize (H _ _ R eq_refl).
  discriminate H.
Qed.
Print Assumptions C75_map_async_order_refuted.

(** ... a completion overtakes the elements sent before it, ... *)
Theorem C75_grammar_refuted :
  ~ (forall h s, treach well_behaved (map_async_op (fun x : nat => Ok x)) PEnd h s ->
       grammatical (issued h) -> grammatical (tlog s)).
Proof.
  intros H.
  pose proof (@tend_reach _ _ _ well_behaved (map_async_op (fun x : nat => Ok x)) PEnd
    [TCall (OnNext 1); TCall OnCompleted; TGo 0] eq_refl) as R.
  specialize (H _ _ R).
  destruct H as (vs & e & H).
  - exists [1], Completed. reflexivity.
  - cbn in H. destruct vs; [destruct e; discriminate|discriminate].
Qed.
Print Assumptions C75_grammar_refuted.

(** ... and behind a safe_observer these elements are lost. *)
Theorem C75_nothing_lost_refuted :
  ~ (forall h l, overlapping_done well_behaved (map_async_ (fun x : nat => Ok x) (skip_ 0 PEnd)) h l ->
       grammatical (issued h) -> length l = length (issued h)).
Proof.
  intros H.
  specialize (H [TCall (OnNext 1); TCall OnCompleted; TGo 0; TWork 0; TWork 0; TWork 0] [OnCompleted]).
  cut (length [@OnCompleted nat] = 2); [discriminate|]. apply H.
  - eexists. split; [apply tend_reach; reflexivity|]. split; [reflexivity|]. split; [|reflexivity].
    intros [|k]; reflexivity.
  - exists [1], Completed. reflexivity.
Qed.
Print Assumptions C75_nothing_lost_refuted.

(** scan_async: a call passes on the accumulation of its element and of what
    had been passed on last when the call began, ... *)
Theorem C75_scan_async : forall A B (pol : policy B) (f : B -> A -> res B) b h1 a h2 s1 s2,
  treach pol (scan_op f b) PEnd h1 s1 -> treach pol (scan_op f b) PEnd (h1 ++ TCall (OnNext a) :: h2) s2 ->
  ~ In (TGo (length (issued h1))) h2 ->
  exists s3, tstep s2 (TGo (length (issued h1))) = Some s3 /\
    tlog s3 = tlog s2 ++ [match f (last_element b (tlog s1)) a with Ok x => OnNext x | Err e => OnError e end].
Proof. exact @scan_step. Qed.
Print Assumptions C75_scan_async.

(** ... once; terminals are passed on at once, and nothing else. *)
Theorem C75_scan_async_only : forall A B (pol : policy B) (f : B -> A -> res B) b h x s s',
  treach pol (scan_op f b) PEnd h s -> tstep s x = Some s' ->
  match x with
  | TCall (OnNext _) => tlog s' = tlog s
  | TCall (OnError e) => tlog s' = tlog s ++ [OnError e]
  | TCall OnCompleted => tlog s' = tlog s ++ [OnCompleted]
  | TGo i => forall h1 n h2, h = h1 ++ TCall n :: h2 -> length (issued h1) = i ->
               is_term n = true \/ In (TGo i) h2 -> tlog s' = tlog s
  | TWork _ => False
  end.
Proof. exact @scan_other. Qed.
Print Assumptions C75_scan_async_only.

(** So updates are lost: the last value is not the fold of the elements in any order. *)
Theorem C75_scan_async_fold_refuted :
  ~ (forall h s, treach well_behaved (scan_op (fun c a => Ok (c + a)) 0) PEnd h s -> idle s = true ->
       exists order, Permutation order (elements (issued h)) /\ elements (tlog s) = scanl Nat.add 0 order).
Proof.
  intros H.
  pose proof (@tend_reach _ _ _ well_behaved (scan_op (fun c a => Ok (c + a)) 0) PEnd
    [TCall (OnNext 1); TCall (OnNext 2); TGo 0; TGo 1; TGo 0; TGo 1] eq_refl) as R.
  destruct (H _ _ R eq_refl) as (order & P & E).
  cbn in P, E. destruct order as [|x [|y [|z l]]]; try discriminate. cbn in E. injection E as E1 E2. subst x.
  assert (y = 1) by (cbn in E2; congruence || lia). subst y.
  assert (In 2 [1; 1]) as I by (apply (Permutation_in _ (Permutation_sym P)); right; now left).
  destruct I as [I|[I|[]]]; discriminate.
Qed.
Print Assumptions C75_scan_async_fold_refuted.

(** The same for reduce_async: the result misses elements. *)
Theorem C75_reduce_async_refuted :
  ~ (forall h l, overlapping_done well_behaved (reduce_ (fun c a => Ok (c + a)) 0 PEnd) h l ->
       issued h = [OnNext 1; OnNext 2; OnCompleted] -> l = [OnNext 3; OnCompleted]).
Proof.
  intros H.
  specialize (H [TCall (OnNext 1); TCall (OnNext 2); TGo 0; TGo 1; TCall OnCompleted; TWork 0; TWork 0; TWork 0; TWork 0] [OnNext 2; OnCompleted]).
  cut ([OnNext 2; OnCompleted] = [OnNext 3; OnCompleted]); [discriminate|]. apply H; [|reflexivity].
  eexists. split; [apply tend_reach; reflexivity|]. split; [reflexivity|]. split; [|reflexivity].
  intros [|k]; reflexivity.
Qed.
Print Assumptions C75_reduce_async_refuted.

(** Two sends one after the other, the mapper and the subscriber suspending. *)
Example C75_one_at_a_time_case : exists s,
  let h := [TCall (OnNext 1); TGo 0; TGo 0; TCall (OnNext 2); TGo 1; TGo 1] in
  treach well_behaved (map_async_op (fun x => Ok (10 * x))) PEnd h s /\
  one_at_a_time well_behaved (map_async_op (fun x => Ok (10 * x))) PEnd h /\ idle s = true /\
  tlog s = [OnNext 10; OnNext 20].
Proof.
  eexists. split; [apply tend_reach; reflexivity|]. split; [apply apart_check_ok; reflexivity|]. split; reflexivity.
Qed.

(** Three sends at once through filter and map: in the order in which they began. *)
Example C75_no_await_case :
  no_await (filter_ (fun x => Ok (negb (x =? 2))) (map_ (fun x => Ok (10 * x)) PEnd)) /\
  overlapping_done well_behaved (filter_ (fun x => Ok (negb (x =? 2))) (map_ (fun x => Ok (10 * x)) PEnd))
    [TCall (OnNext 1); TCall (OnNext 2); TCall (OnNext 3); TGo 2; TGo 0] [OnNext 10; OnNext 30].
Proof.
  split; [apply na_filter, na_map, na_end|].
  eexists. split; [apply tend_reach; reflexivity|]. split; [reflexivity|]. split; [intros k; reflexivity|reflexivity].
Qed.

(** take(1), two sends at once. *)
Example C75_take_case : exists opr, take_ 1 = Ok opr /\
  overlapping_done well_behaved (opr PEnd)
    [TCall (OnNext 1); TCall (OnNext 2); TWork 0; TWork 0; TWork 0; TWork 0] [OnNext 1; OnCompleted].
Proof.
  eexists. split; [reflexivity|].
  eexists. split; [apply tend_reach; reflexivity|]. split; [reflexivity|]. split; [intros [|k]; reflexivity|reflexivity].
Qed.

Example C75_scan_case :
  overlapping well_behaved (scan_sync_ (fun c a => Ok (c + a)) 0 PEnd) [TCall (OnNext 1); TCall (OnNext 2); TGo 1] [OnNext 1; OnNext 3].
Proof. eexists. split; [apply tend_reach; reflexivity|reflexivity]. Qed.

(** Three sends at once; the mapper answers the third first, and raises on the second. *)
Example C75_map_async_case : exists s,
  treach well_behaved (map_async_op (fun x => if x =? 2 then Err ValueError else Ok (10 * x))) PEnd
    [TCall (OnNext 1); TCall (OnNext 2); TCall (OnNext 3); TGo 2; TGo 1; TGo 0; TGo 2; TGo 0] s /\
  idle s = true /\ tlog s = [OnNext 30; OnNext 10] /\ t_calls s = [Ret; Raise ValueError; Ret].
Proof. eexists. split; [apply tend_reach; reflexivity|]. repeat split; reflexivity. Qed.

(** The second send begins before the first has been accumulated. *)
Example C75_scan_async_case : exists s1 s2,
  let h1 := [TCall (OnNext 1)] in
  treach well_behaved (scan_op (fun c a => Ok (c + a)) 0) PEnd h1 s1 /\
  treach well_behaved (scan_op (fun c a => Ok (c + a)) 0) PEnd (h1 ++ TCall (OnNext 2) :: [TGo 0]) s2 /\
  ~ In (@TGo (notif nat) (length (issued h1))) [TGo 0] /\ tlog s2 = [OnNext 1] /\
  option_map (fun s => tlog s) (tstep s2 (TGo 1)) = Some [OnNext 1; OnNext 2].
Proof.
  eexists. eexists. split; [apply tend_reach; reflexivity|]. split; [apply tend_reach; reflexivity|].
  split; [intros [H|[]]; discriminate|]. split; reflexivity.
Qed.
