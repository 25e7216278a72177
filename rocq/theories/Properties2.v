(** * Properties C09-C20: operators on one source.

    Shape of the statements.  [source_calls vs e junk] is what the source does:
    elements [vs], ending [e] (also: not yet ended), and after a terminal any
    further calls [junk].  [safe] in front: the source is cold, i.e. wraps the
    observer it is given in a safe_observer (from_iterable, create, every
    operator with its own safe_observer).
    - [delivers S ms l]: a well-behaved subscriber gets exactly [l] in every schedule.
    - [behaves_like]: in front of any pipeline [r] with any (also raising)
      subscriber, the operator acts as if its specified output were the input of [r].
    - [_hot]: the source calls the operator directly (a subject, say). *)
From Verif Require Import Ops3Proofs.
Set Implicit Arguments.

Tactic Notation "to_sub" uconstr(H) := apply to_subscriber; intros l; rewrite H; reflexivity.
Tactic Notation "pipeline" uconstr(H) := apply behaves; [apply sane_psys|apply sane_psys|]; intros l; apply H.

(** Every sequence of calls of a source has the form used below. *)
Theorem C09_every_history : forall A (ms : list (notif A)), exists vs e junk, ms = source_calls vs e junk.
Proof. exact source_calls_any. Qed.
Print Assumptions C09_every_history.

(** ** C09 map, map_async *)
Theorem C09_map : forall A B (f : A -> res B) vs e junk,
  delivers (psys well_behaved (safe (map_ f PEnd))) (source_calls vs e junk)
    (let (bs, x) := results f vs in trace bs (or_failed x e)).
Proof.
  intros. destruct (results f vs) as [bs x] eqn:E. apply to_subscriber. intros l.
  rewrite map_stage. unfold map_out. rewrite E. reflexivity.
Qed.
Print Assumptions C09_map.

Theorem C09_map_async : forall A B (f : A -> res B) vs e junk,
  delivers (psys well_behaved (safe (map_async_ f PEnd))) (source_calls vs e junk)
    (let (bs, x) := results f vs in trace bs (or_failed x e)).
Proof.
  intros. destruct (results f vs) as [bs x] eqn:E. apply to_subscriber. intros l.
  rewrite map_async_stage. unfold map_out. rewrite E. reflexivity.
Qed.
Print Assumptions C09_map_async.

Theorem C09_map_in_pipeline : forall Z A B (pol : policy Z) (f : A -> res B) (r : pipe Z B) vs e junk,
  behaves_like (psys pol (safe (map_ f r))) (source_calls vs e junk) (psys pol (safe r)) (map_out f vs e).
Proof. intros. pipeline map_stage. Qed.
Print Assumptions C09_map_in_pipeline.

Theorem C09_map_async_in_pipeline : forall Z A B (pol : policy Z) (f : A -> res B) (r : pipe Z B) vs e junk,
  behaves_like (psys pol (safe (map_async_ f r))) (source_calls vs e junk) (psys pol (safe r)) (map_out f vs e).
Proof. intros. pipeline map_async_stage. Qed.
Print Assumptions C09_map_async_in_pipeline.

(** For a function that never raises, this is [map f]. *)
Theorem C09_map_total : forall A B (f : A -> B) vs e junk,
  delivers (psys well_behaved (safe (map_ (fun a => Ok (f a)) PEnd))) (source_calls vs e junk) (trace (map f vs) e).
Proof. intros. pose proof (C09_map (fun a => Ok (f a)) vs e junk) as H. rewrite results_total in H. exact H. Qed.
Print Assumptions C09_map_total.

(** Behind a hot source an exception of the mapper does not end the stream:
    it is raised to the sender, and the subscriber sees nothing of it. *)
Theorem C09_map_hot_exception : forall Z A (pol : policy Z) (f : A -> res Z) a x s,
  f a = Err x -> ccall (pcomp pol (map_ f PEnd)) s (OnNext a) = (s, Some x).
Proof. exact map_hot_raises. Qed.
Print Assumptions C09_map_hot_exception.

Example C09_case : delivers
  (psys well_behaved (safe (map_ (fun x => if x =? 3 then Err ValueError else Ok (x * 10)) PEnd)))
  [OnNext 1; OnNext 2; OnNext 3; OnNext 4; OnCompleted; OnNext 5] [OnNext 10; OnNext 20; OnError ValueError].
Proof. exact (C09_map (fun x => if x =? 3 then Err ValueError else Ok (x * 10)) [1; 2; 3; 4] Completed [OnNext 5]). Qed.

(** ** C10 filter, choose, starfilter *)
Theorem C10_filter : forall A (p : A -> bool) vs e junk,
  delivers (psys well_behaved (safe (filter_ (fun a => Ok (p a)) PEnd))) (source_calls vs e junk) (trace (filter p vs) e).
Proof.
  intros. apply to_subscriber. intros l. rewrite filter_stage. unfold choose_out.
  rewrite keep_total, somes_filter. reflexivity.
Qed.
Print Assumptions C10_filter.

(** With exceptions: what was selected before, then the exception. *)
Theorem C10_filter_in_pipeline : forall Z A (pol : policy Z) (p : A -> res bool) (r : pipe Z A) vs e junk,
  behaves_like (psys pol (safe (filter_ p r))) (source_calls vs e junk)
    (psys pol (safe r)) (let (bs, x) := results (keep p) vs in trace (somes bs) (or_failed x e)).
Proof. intros. pipeline filter_stage. Qed.
Print Assumptions C10_filter_in_pipeline.

Theorem C10_filter_async_in_pipeline : forall Z A (pol : policy Z) (p : A -> res bool) (r : pipe Z A) vs e junk,
  behaves_like (psys pol (safe (filter_async_ p r))) (source_calls vs e junk)
    (psys pol (safe r)) (let (bs, x) := results (keep p) vs in trace (somes bs) (or_failed x e)).
Proof. intros. pipeline filter_async_stage. Qed.
Print Assumptions C10_filter_async_in_pipeline.

Theorem C10_choose_in_pipeline : forall Z A B (pol : policy Z) (f : A -> res (option B)) (r : pipe Z B) vs e junk,
  behaves_like (psys pol (safe (choose_ f r))) (source_calls vs e junk)
    (psys pol (safe r)) (let (bs, x) := results f vs in trace (somes bs) (or_failed x e)).
Proof. intros. pipeline choose_stage. Qed.
Print Assumptions C10_choose_in_pipeline.

Theorem C10_choose_async_in_pipeline : forall Z A B (pol : policy Z) (f : A -> res (option B)) (r : pipe Z B) vs e junk,
  behaves_like (psys pol (safe (choose_async_ f r))) (source_calls vs e junk)
    (psys pol (safe r)) (let (bs, x) := results f vs in trace (somes bs) (or_failed x e)).
Proof. intros. pipeline choose_async_stage. Qed.
Print Assumptions C10_choose_async_in_pipeline.

Theorem C10_starfilter : forall A B (p : A -> B -> bool) vs e junk,
  delivers (psys well_behaved (safe (starfilter_ (fun a b => Ok (p a b)) PEnd))) (source_calls vs e junk)
    (trace (filter (fun ab => p (fst ab) (snd ab)) vs) e).
Proof. intros. exact (C10_filter (fun ab => p (fst ab) (snd ab)) vs e junk). Qed.
Print Assumptions C10_starfilter.

Example C10_case : delivers (psys well_behaved (safe (filter_ (fun x => Ok (Nat.even x)) PEnd)))
  [OnNext 1; OnNext 2; OnNext 3; OnNext 4; OnError ValueError] [OnNext 2; OnNext 4; OnError ValueError].
Proof. exact (C10_filter Nat.even [1; 2; 3; 4] (Failed ValueError) []). Qed.

(** ** C11 mapi, filteri *)
Theorem C11_mapi : forall Z A B (pol : policy Z) (f : A -> nat -> res B) (r : pipe Z B) vs e junk,
  behaves_like (psys pol (safe (mapi_ f r))) (source_calls vs e junk)
    (psys pol (safe r)) (map_out (fun ai => f (fst ai) (snd ai)) (indexed 0 vs) e).
Proof. intros. pipeline mapi_stage. Qed.
Print Assumptions C11_mapi.

Theorem C11_mapi_async : forall Z A B (pol : policy Z) (f : A -> nat -> res B) (r : pipe Z B) vs e junk,
  behaves_like (psys pol (safe (mapi_async_ f r))) (source_calls vs e junk)
    (psys pol (safe r)) (map_out (fun ai => f (fst ai) (snd ai)) (indexed 0 vs) e).
Proof. intros. pipeline mapi_async_stage. Qed.
Print Assumptions C11_mapi_async.

Theorem C11_filteri : forall A (p : A -> nat -> bool) vs e junk,
  delivers (psys well_behaved (safe (filteri_ (fun a i => Ok (p a i)) PEnd))) (source_calls vs e junk)
    (trace (map fst (filter (fun ai => p (fst ai) (snd ai)) (indexed 0 vs))) e).
Proof.
  intros. apply to_subscriber. intros l. rewrite filteri_stage, (somes_keep p).
  rewrite (somes_filter (fun ai : A * nat => p (fst ai) (snd ai))). reflexivity.
Qed.
Print Assumptions C11_filteri.

Theorem C11_filteri_in_pipeline : forall Z A (pol : policy Z) (p : A -> nat -> res bool) (r : pipe Z A) vs e junk,
  behaves_like (psys pol (safe (filteri_ p r))) (source_calls vs e junk)
    (psys pol (safe r))
    (let (ps, x) := results (keep (fun ai => p (fst ai) (snd ai))) (indexed 0 vs) in
     trace (map fst (somes ps)) (or_failed x e)).
Proof. intros. pipeline filteri_stage. Qed.
Print Assumptions C11_filteri_in_pipeline.

Example C11_case : delivers (psys well_behaved (safe (mapi_ (fun a i => Ok (a * 100 + i)) PEnd)))
  [OnNext 5; OnNext 6; OnNext 7; OnCompleted] [OnNext 500; OnNext 601; OnNext 702; OnCompleted].
Proof.
  apply (proj2 (C11_mapi well_behaved (fun a i => Ok (a * 100 + i)) PEnd [5; 6; 7] Completed [] _)).
  exact (proj2 (delivers_iff (sane_psys _ _) _ _) (proj2 (subscriber _ _) eq_refl)).
Qed.

(** ** C12 take *)
Theorem C12_take : forall A n (opr : pipe A A -> pipe A A) vs e junk,
  take_ n = Ok opr ->
  delivers (psys well_behaved (safe (opr PEnd))) (source_calls vs e junk)
    (if ((0 <? n) && (n <=? Z.of_nat (length vs)))%Z
     then trace (firstn (Z.to_nat n) vs) Completed
     else if (n =? 0)%Z then trace [] e else trace vs e).
Proof.
  intros A n opr vs e junk H. unfold take_ in H. destruct (Z.ltb_spec n 0); [discriminate|].
  injection H as <-. pose proof (fun l => take_stage (Z0 := A) well_behaved PEnd vs e junk l H0) as Hs.
  unfold take_out in Hs. destruct ((0 <? n) && (n <=? Z.of_nat (length vs)))%Z; [|destruct (n =? 0)%Z];
    apply to_subscriber; exact Hs.
Qed.
Print Assumptions C12_take.

Theorem C12_take_in_pipeline : forall Z A (pol : policy Z) n (opr : pipe Z A -> pipe Z A) r vs e junk,
  take_ n = Ok opr ->
  behaves_like (psys pol (safe (opr r))) (source_calls vs e junk) (psys pol (safe r)) (take_out n vs e).
Proof.
  intros Z A pol n opr r vs e junk H. unfold take_ in H. destruct (Z.ltb_spec n 0); [discriminate|].
  injection H as <-. pipeline take_stage. assumption.
Qed.
Print Assumptions C12_take_in_pipeline.

Theorem C12_take_hot : forall Z A (pol : policy Z) n (opr : pipe Z A -> pipe Z A) r vs e junk,
  take_ n = Ok opr ->
  behaves_like (psys pol (opr r)) (source_calls vs e junk) (psys pol (safe r)) (take_out n vs e).
Proof.
  intros Z A pol n opr r vs e junk H. unfold take_ in H. destruct (Z.ltb_spec n 0); [discriminate|].
  injection H as <-. apply behaves; [apply sane_psys|apply sane_psys|]. intros l.
  rewrite (hot_cold pol r vs e junk l (tame_take A n)). apply take_stage. assumption.
Qed.
Print Assumptions C12_take_hot.

(** Negative counts are refused, others accepted. *)
Theorem C12_take_refuses : forall Z A n,
  ((n < 0)%Z -> take_ (Z0 := Z) (A := A) n = Err ValueError) /\
  ((0 <= n)%Z -> exists opr, take_ (Z0 := Z) (A := A) n = Ok opr).
Proof.
  intros Z A n. unfold take_. destruct (Z.ltb_spec n 0); split; intros; try lia; [reflexivity|eauto].
Qed.
Print Assumptions C12_take_refuses.

(** The result completes although the source has not. *)
Example C12_case : exists opr, take_ 2 = Ok opr /\
  delivers (psys well_behaved (safe (opr PEnd))) [OnNext 1; OnNext 2; OnNext 3] [OnNext 1; OnNext 2; OnCompleted].
Proof. eexists. split; [reflexivity|]. exact (C12_take 2 [1; 2; 3] Open [] eq_refl). Qed.

(** ** C13 skip *)
Theorem C13_skip : forall A n (vs : list A) e junk,
  delivers (psys well_behaved (safe (skip_ n PEnd))) (source_calls vs e junk) (trace (skipn (Z.to_nat n) vs) e).
Proof. intros. to_sub (skip_stage (Z0 := A)). Qed.
Print Assumptions C13_skip.

Theorem C13_skip_in_pipeline : forall Z A (pol : policy Z) n (r : pipe Z A) vs e junk,
  behaves_like (psys pol (safe (skip_ n r))) (source_calls vs e junk) (psys pol (safe r)) (trace (skipn (Z.to_nat n) vs) e).
Proof. intros. pipeline skip_stage. Qed.
Print Assumptions C13_skip_in_pipeline.

Theorem C13_skip_hot : forall Z A (pol : policy Z) n (r : pipe Z A) vs e junk,
  behaves_like (psys pol (skip_ n r)) (source_calls vs e junk) (psys pol (safe r)) (trace (skipn (Z.to_nat n) vs) e).
Proof.
  intros. apply behaves; [apply sane_psys|apply sane_psys|]. intros l.
  unfold skip_. rewrite (hot_cold pol r vs e junk l (tame_skip A n)). apply skip_stage.
Qed.
Print Assumptions C13_skip_hot.

Example C13_case : delivers (psys well_behaved (safe (skip_ 2 PEnd))) [OnNext 1; OnNext 2; OnNext 3; OnCompleted] [OnNext 3; OnCompleted].
Proof. exact (C13_skip 2 [1; 2; 3] Completed []). Qed.

(** ** C14 take_last *)
Theorem C14_take_last : forall A n (vs : list A) e junk,
  delivers (psys well_behaved (safe (take_last_ n PEnd))) (source_calls vs e junk)
    (match e with Completed => trace (lastn (Z.to_nat n) vs) Completed | _ => trace [] e end).
Proof.
  intros. pose proof (fun l => take_last_stage (Z0 := A) well_behaved PEnd n vs e junk l) as Hs.
  unfold take_last_out in Hs. destruct e; apply to_subscriber; exact Hs.
Qed.
Print Assumptions C14_take_last.

Theorem C14_take_last_in_pipeline : forall Z A (pol : policy Z) n (r : pipe Z A) vs e junk,
  behaves_like (psys pol (safe (take_last_ n r))) (source_calls vs e junk) (psys pol (safe r)) (take_last_out n vs e).
Proof. intros. pipeline take_last_stage. Qed.
Print Assumptions C14_take_last_in_pipeline.

Theorem C14_take_last_hot : forall Z A (pol : policy Z) n (r : pipe Z A) vs e junk,
  behaves_like (psys pol (take_last_ n r)) (source_calls vs e junk) (psys pol (safe r)) (take_last_out n vs e).
Proof.
  intros. apply behaves; [apply sane_psys|apply sane_psys|]. intros l.
  unfold take_last_. rewrite (hot_cold pol r vs e junk l (tame_take_last A n)). apply take_last_stage.
Qed.
Print Assumptions C14_take_last_hot.

Example C14_case : delivers (psys well_behaved (safe (take_last_ 2 PEnd)))
  [OnNext 1; OnNext 2; OnNext 3; OnCompleted] [OnNext 2; OnNext 3; OnCompleted].
Proof. exact (C14_take_last 2 [1; 2; 3] Completed []). Qed.

(** ** C15 skip_last; [isn] tells which elements are None *)
Theorem C15_skip_last : forall A (isn : A -> bool) n vs e junk,
  delivers (psys well_behaved (safe (skip_last_ isn n PEnd))) (source_calls vs e junk)
    (trace (filter (fun a => negb (isn a)) (butlastn (Z.to_nat n) vs)) e).
Proof. intros. to_sub (skip_last_stage (Z0 := A)). Qed.
Print Assumptions C15_skip_last.

Theorem C15_skip_last_in_pipeline : forall Z A (pol : policy Z) isn n (r : pipe Z A) vs e junk,
  behaves_like (psys pol (safe (skip_last_ isn n r))) (source_calls vs e junk)
    (psys pol (safe r)) (trace (not_none isn (butlastn (Z.to_nat n) vs)) e).
Proof. intros. pipeline skip_last_stage. Qed.
Print Assumptions C15_skip_last_in_pipeline.

Theorem C15_skip_last_hot : forall Z A (pol : policy Z) isn n (r : pipe Z A) vs e junk,
  behaves_like (psys pol (skip_last_ isn n r)) (source_calls vs e junk)
    (psys pol (safe r)) (trace (not_none isn (butlastn (Z.to_nat n) vs)) e).
Proof.
  intros. apply behaves; [apply sane_psys|apply sane_psys|]. intros l.
  unfold skip_last_. rewrite (hot_cold pol r vs e junk l (tame_skip_last isn n)). apply skip_last_stage.
Qed.
Print Assumptions C15_skip_last_hot.

(** Elements equal to None are lost. *)
Theorem C15_keeps_all_elements_refuted : exists vs : list (option nat), forall l,
  delivers (psys well_behaved (safe (skip_last_ (fun o => match o with None => true | _ => false end) 0 PEnd)))
    (source_calls vs Completed []) l -> l <> trace vs Completed.
Proof.
  exists [None; Some 1]. intros l H. apply (delivers_iff (sane_psys _ _)) in H.
  pose proof (proj1 (delivers_iff (sane_psys _ _) _ _) (C15_skip_last (fun o => match o with None => true | _ => false end) 0 [None; Some 1] Completed [])) as H'.
  rewrite (finally_unique (sane_psys _ _) H H'). discriminate.
Qed.
Print Assumptions C15_keeps_all_elements_refuted.

Example C15_case : delivers (psys well_behaved (safe (skip_last_ (fun _ => false) 1 PEnd)))
  [OnNext 1; OnNext 2; OnNext 3] [OnNext 1; OnNext 2].
Proof. exact (C15_skip_last (fun _ => false) 1 [1; 2; 3] Open []). Qed.

(** ** C16 distinct_until_changed; [eqb] is == on elements *)
Theorem C16_distinct : forall A (eqb : A -> A -> bool) vs e junk,
  delivers (psys well_behaved (safe (distinct_until_changed_ eqb PEnd))) (source_calls vs e junk)
    (trace (changes eqb None vs) e).
Proof. intros. to_sub (distinct_stage (Z0 := A)). Qed.
Print Assumptions C16_distinct.

Theorem C16_distinct_in_pipeline : forall Z A (pol : policy Z) eqb (r : pipe Z A) vs e junk,
  behaves_like (psys pol (safe (distinct_until_changed_ eqb r))) (source_calls vs e junk)
    (psys pol (safe r)) (trace (changes eqb None vs) e).
Proof. intros. pipeline distinct_stage. Qed.
Print Assumptions C16_distinct_in_pipeline.

Theorem C16_distinct_hot : forall Z A (pol : policy Z) eqb (r : pipe Z A) vs e junk,
  behaves_like (psys pol (distinct_until_changed_ eqb r)) (source_calls vs e junk)
    (psys pol (safe r)) (trace (changes eqb None vs) e).
Proof. intros. pipeline hot_distinct. Qed.
Print Assumptions C16_distinct_hot.

(** [changes] does what it should when == is an equivalence: neighbours in the
    output differ, and at any moment the last input equals the last output. *)
Theorem C16_neighbours_differ : forall A (eqb : A -> A -> bool),
  (forall x, eqb x x = true) -> (forall x y, eqb x y = true -> eqb y x = true) ->
  (forall x y z, eqb x y = true -> eqb y z = true -> eqb x z = true) ->
  forall vs l1 x y l2, changes eqb None vs = l1 ++ x :: y :: l2 -> eqb y x = false.
Proof. intros A eqb H1 H2 H3 vs. exact (changes_adjacent eqb H1 H2 H3 vs None). Qed.
Print Assumptions C16_neighbours_differ.

Theorem C16_up_to_date : forall A (eqb : A -> A -> bool),
  (forall x, eqb x x = true) -> (forall x y z, eqb x y = true -> eqb y z = true -> eqb x z = true) ->
  forall v vs, eqb (last (v :: vs) v) (last (changes eqb None (v :: vs)) v) = true.
Proof. intros A eqb H1 H2 v vs. exact (distinct_last eqb v vs H1 H2). Qed.
Print Assumptions C16_up_to_date.

Example C16_case : delivers (psys well_behaved (safe (distinct_until_changed_ Nat.eqb PEnd)))
  [OnNext 1; OnNext 1; OnNext 2; OnNext 2; OnNext 1; OnCompleted] [OnNext 1; OnNext 2; OnNext 1; OnCompleted].
Proof. exact (C16_distinct Nat.eqb [1; 1; 2; 2; 1] Completed []). Qed.

(** ** C17 scan *)
Theorem C17_scan : forall A B (f : B -> A -> B) b vs e junk,
  delivers (psys well_behaved (safe (scan_ (fun s a => Ok (f s a)) b PEnd))) (source_calls vs e junk) (trace (scanl f b vs) e).
Proof. intros. to_sub (scan_stage (Z0 := B)). Qed.
Print Assumptions C17_scan.

Theorem C17_scan_in_pipeline : forall Z A B (pol : policy Z) (f : B -> A -> B) b (r : pipe Z B) vs e junk,
  behaves_like (psys pol (safe (scan_ (fun s a => Ok (f s a)) b r))) (source_calls vs e junk)
    (psys pol (safe r)) (trace (scanl f b vs) e).
Proof. intros. pipeline scan_stage. Qed.
Print Assumptions C17_scan_in_pipeline.

(** The i-th output is the fold of the first i+1 elements. *)
Theorem C17_scan_folds : forall A B (f : B -> A -> B) b vs i,
  nth_error (scanl f b vs) i = if i <? length vs then Some (fold_left f (firstn (S i) vs) b) else None.
Proof. intros. apply scanl_nth. Qed.
Print Assumptions C17_scan_folds.

(** A raising accumulator: OnError, then on with the previous accumulation. *)
Theorem C17_scan_raising : forall A B (f : B -> A -> res B) b vs e junk,
  delivers (psys well_behaved (safe (scan_ f b PEnd))) (source_calls vs e junk) (scan_raw f b vs ++ trace [] e).
Proof.
  intros. apply (delivers_iff (sane_psys _ _)). apply scan_raw_stage; [intros s m; reflexivity|]. now apply finally_end.
Qed.
Print Assumptions C17_scan_raising.

(** ... unless a safe_observer follows, which ends the stream at the first exception. *)
Theorem C17_scan_raising_guarded : forall Z A B (pol : policy Z) (f : B -> A -> res B) b (r : pipe Z B) vs e junk,
  behaves_like (psys pol (safe (scan_ f b (safe r)))) (source_calls vs e junk)
    (psys pol (safe r)) (let (bs, x) := scan_results f b vs in trace bs (or_failed x e)).
Proof. intros. pipeline scan_safe_stage. Qed.
Print Assumptions C17_scan_raising_guarded.

Example C17_case : delivers
  (psys well_behaved (safe (scan_ (fun s a => if a =? 0 then Err ValueError else Ok (s + a)) 0 PEnd)))
  [OnNext 1; OnNext 0; OnNext 2; OnCompleted] [OnNext 1; OnError ValueError; OnNext 3; OnCompleted].
Proof. exact (C17_scan_raising (fun s a => if a =? 0 then Err ValueError else Ok (s + a)) 0 [1; 0; 2] Completed []). Qed.

(** ** C18 reduce (the accumulator may raise) *)
Theorem C18_reduce_in_pipeline : forall Z A B (pol : policy Z) (f : B -> A -> res B) b (r : pipe Z B) vs e junk,
  behaves_like (psys pol (safe (reduce_ f b r))) (source_calls vs e junk) (psys pol (safe r)) (reduce_res f b vs e).
Proof. intros. pipeline reduce_res_stage. Qed.
Print Assumptions C18_reduce_in_pipeline.

(** For a total accumulator: the fold, if there was an element. *)
Theorem C18_reduce : forall A B (f : B -> A -> B) b vs junk,
  delivers (psys well_behaved (safe (reduce_ (fun s a => Ok (f s a)) b PEnd))) (source_calls vs Completed junk)
    (trace (match vs with [] => [] | _ => [fold_left f vs b] end) Completed).
Proof. intros. to_sub (reduce_stage (Z0 := B)). Qed.
Print Assumptions C18_reduce.

Theorem C18_reduce_error : forall A B (f : B -> A -> B) b vs x junk,
  delivers (psys well_behaved (safe (reduce_ (fun s a => Ok (f s a)) b PEnd))) (source_calls vs (Failed x) junk)
    [OnError x].
Proof. intros. change [@OnError B x] with (trace (@nil B) (Failed x)). apply to_subscriber. intros l. rewrite reduce_stage. reflexivity. Qed.
Print Assumptions C18_reduce_error.

Example C18_case : delivers (psys well_behaved (safe (reduce_ (fun s a => Ok (s + a)) 0 PEnd)))
  [OnNext 1; OnNext 2; OnNext 3; OnCompleted] [OnNext 6; OnCompleted].
Proof. exact (C18_reduce Nat.add 0 [1; 2; 3] []). Qed.

(** ** C19 zip_seq *)
Theorem C19_zip_seq : forall A B (it : iterator B) (vs : list A) e junk,
  delivers (psys well_behaved (safe (zip_seq_ it PEnd))) (source_calls vs e junk)
    (let (ps, x) := zip_from it 0 vs e in trace ps x).
Proof.
  intros. pose proof (fun l => zip_stage (Z0 := A * B) well_behaved it PEnd vs e junk l) as Hs.
  unfold zip_out in Hs. destruct (zip_from it 0 vs e) as [ps x]. apply to_subscriber; exact Hs.
Qed.
Print Assumptions C19_zip_seq.

Theorem C19_zip_seq_in_pipeline : forall Z A B (pol : policy Z) (it : iterator B) (r : pipe Z (A * B)) vs e junk,
  behaves_like (psys pol (safe (zip_seq_ it r))) (source_calls vs e junk) (psys pol (safe r)) (zip_out it vs e).
Proof. intros. pipeline zip_stage. Qed.
Print Assumptions C19_zip_seq_in_pipeline.

Theorem C19_zip_seq_hot : forall Z A B (pol : policy Z) (it : iterator B) (r : pipe Z (A * B)) vs e junk,
  behaves_like (psys pol (zip_seq_ it r)) (source_calls vs e junk) (psys pol (safe r)) (zip_out it vs e).
Proof.
  intros. apply behaves; [apply sane_psys|apply sane_psys|]. intros l.
  unfold zip_seq_. rewrite (hot_cold pol r vs e junk l (@tame_zip A B it)). apply zip_stage.
Qed.
Print Assumptions C19_zip_seq_hot.

Example C19_case : delivers
  (psys well_behaved (safe (zip_seq_ (fun i => if i <? 2 then Item (i + 7) else IStop) PEnd)))
  [OnNext 1; OnNext 2; OnNext 3; OnNext 4] [OnNext (1, 7); OnNext (2, 8); OnCompleted].
Proof. exact (C19_zip_seq (fun i => if i <? 2 then Item (i + 7) else IStop) [1; 2; 3; 4] Open []). Qed.

(** ** C20 slice *)
(** Wherever the four conditions hold, the slice of a completed stream is
    Python's slice of its elements. *)
Theorem C20_slice : forall A (isn : A -> bool) start stop step (opr : pipe A A -> pipe A A) vs junk,
  slice_ isn start stop step = Ok opr ->
  (1 <= step)%Z ->
  stop <> Some 0%Z ->
  (match start, stop with Some i, Some j => ~ (i < 0 < j)%Z | _, _ => True end) ->
  (forall v, In v vs -> isn v = false) ->
  delivers (psys well_behaved (safe (opr PEnd))) (source_calls vs Completed junk)
    (trace (py_slice start stop step vs) Completed).
Proof.
  intros A isn start stop step opr vs junk H Hst H0 Hneg Hn.
  pose proof (slice_refuses A isn start stop step) as Hr. rewrite H in Hr.
  destruct (slice_error start stop step) eqn:He; [discriminate|].
  rewrite <- (@slice_python A isn start stop step vs He Hst H0 Hneg Hn).
  apply to_subscriber. intros l. apply slice_stage, H.
Qed.
Print Assumptions C20_slice.

(** In any pipeline, for all arguments: the exact behaviour. *)
Theorem C20_slice_exact : forall Z0 A (pol : policy Z0) isn start stop step (opr : pipe Z0 A -> pipe Z0 A) r vs junk,
  slice_ isn start stop step = Ok opr ->
  behaves_like (psys pol (safe (opr r))) (source_calls vs Completed junk)
    (psys pol (safe r)) (trace (slice_out isn start stop step vs) Completed).
Proof. intros. pipeline slice_stage. assumption. Qed.
Print Assumptions C20_slice_exact.

(** When it refuses: ValueError for 0 < stop < start, else TypeError for negative steps. *)
Theorem C20_slice_refuses : forall Z0 A (isn : A -> bool) start stop step,
  match slice_error start stop step with
  | Some x => slice_ (Z0 := Z0) isn start stop step = Err x
  | None => exists opr, slice_ (Z0 := Z0) isn start stop step = Ok opr
  end.
Proof. intros. apply slice_refuses. Qed.
Print Assumptions C20_slice_refuses.

(** obs[k] for integers k: the k-th element (from the end if negative), or nothing. *)
Theorem C20_getitem : forall A (isn : A -> bool) k (opr : pipe A A -> pipe A A) vs junk,
  getitem_ isn k = Ok opr -> (forall v, In v vs -> isn v = false) ->
  delivers (psys well_behaved (safe (opr PEnd))) (source_calls vs Completed junk) (trace (at_index k vs) Completed).
Proof.
  intros A isn k opr vs junk H Hn. rewrite <- (getitem_out isn k vs Hn).
  apply to_subscriber. intros l. apply slice_stage, H.
Qed.
Print Assumptions C20_getitem.

(** Outside the conditions it is not Python's slice: stop = 0, and start < 0 < stop. *)
Theorem C20_stop_zero_refuted : exists (opr : pipe nat nat -> pipe nat nat),
  slice_ (fun _ => false) None (Some 0%Z) 1 = Ok opr /\
  delivers (psys well_behaved (safe (opr PEnd))) (trace [1; 2; 3] Completed) (trace [1; 2; 3] Completed) /\
  py_slice None (Some 0%Z) 1 [1; 2; 3] = [].
Proof.
  eexists. split; [reflexivity|]. split; [|reflexivity]. rewrite (source_calls_nil [1; 2; 3] Completed) at 1.
  apply to_subscriber. intros l. exact (slice_stage well_behaved (fun _ => false) None (Some 0%Z) 1 PEnd [1; 2; 3] [] l eq_refl).
Qed.
Print Assumptions C20_stop_zero_refuted.

Theorem C20_negative_start_refuted : exists (opr : pipe nat nat -> pipe nat nat),
  slice_ (fun _ => false) (Some (-2)%Z) (Some 1%Z) 1 = Ok opr /\
  delivers (psys well_behaved (safe (opr PEnd))) (trace [1; 2; 3] Completed) (trace [2; 3] Completed) /\
  py_slice (Some (-2)%Z) (Some 1%Z) 1 [1; 2; 3] = [].
Proof.
  eexists. split; [reflexivity|]. split; [|reflexivity]. rewrite (source_calls_nil [1; 2; 3] Completed).
  apply to_subscriber. intros l. exact (slice_stage well_behaved (fun _ => false) (Some (-2)%Z) (Some 1%Z) 1 PEnd [1; 2; 3] [] l eq_refl).
Qed.
Print Assumptions C20_negative_start_refuted.

Example C20_case : exists opr, slice_ (fun _ => false) (Some 1%Z) (Some (-1)%Z) 2 = Ok opr /\
  delivers (psys well_behaved (safe (opr PEnd))) (source_calls [0; 1; 2; 3; 4; 5; 6] Completed [OnNext 9])
    [OnNext 1; OnNext 3; OnNext 5; OnCompleted].
Proof.
  eexists. split; [reflexivity|].
  refine (@C20_slice nat (fun _ => false) (Some 1%Z) (Some (-1)%Z) 2 _ [0; 1; 2; 3; 4; 5; 6] [OnNext 9] eq_refl _ _ _ _).
  - lia.
  - discriminate.
  - lia.
  - reflexivity.
Qed.
