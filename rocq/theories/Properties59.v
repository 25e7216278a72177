(** * C09, C10, C20, continued: starmap and starfilter with functions that raise,
    and slice behind a hot source.

    For the shape of the statements see Properties2.v (cold) and Properties36.v
    (hot: the source calls the operator directly, with no safe_observer before it). *)
From Verif Require Import HotSliceProofs.
Set Implicit Arguments.

Tactic Notation "pipeline" uconstr(H) := apply behaves; [apply sane_psys|apply sane_psys|]; intros l; apply H.

(** ** C09 starmap, C10 starfilter *)
Theorem C09_starmap_hot : forall Z A B C (pol : policy Z) (f : A -> B -> res C) (r : pipe Z C) vs e junk,
  behaves_like (psys pol (starmap_ f (safe r))) (source_calls vs e junk)
    (psys pol (safe r)) (trace (returned (fun ab => f (fst ab) (snd ab)) vs) e).
Proof. intros. pipeline map_hot. Qed.
Print Assumptions C09_starmap_hot.

Theorem C10_starfilter_in_pipeline : forall Z A B (pol : policy Z) (p : A -> B -> res bool) (r : pipe Z (A * B)) vs e junk,
  behaves_like (psys pol (safe (starfilter_ p r))) (source_calls vs e junk)
    (psys pol (safe r)) (let (bs, x) := results (keep (fun ab => p (fst ab) (snd ab))) vs in trace (somes bs) (or_failed x e)).
Proof. intros. pipeline filter_stage. Qed.
Print Assumptions C10_starfilter_in_pipeline.

Theorem C10_starfilter_hot : forall Z A B (pol : policy Z) (p : A -> B -> res bool) (r : pipe Z (A * B)) vs e junk,
  behaves_like (psys pol (starfilter_ p (safe r))) (source_calls vs e junk)
    (psys pol (safe r)) (trace (filter (fun ab => match p (fst ab) (snd ab) with Ok b => b | Err _ => false end) vs) e).
Proof. intros. pipeline filter_hot. Qed.
Print Assumptions C10_starfilter_hot.

Example C10_starfilter_case :
  let p a b := if b =? 0 then Err ValueError else Ok (a <? b) in
  delivers (psys well_behaved (safe (starfilter_ p PEnd)))
    [OnNext (1, 2); OnNext (2, 1); OnNext (3, 0); OnNext (4, 5)] [OnNext (1, 2); OnError ValueError] /\
  delivers (psys well_behaved (starfilter_ p (safe PEnd)))
    [OnNext (1, 2); OnNext (2, 1); OnNext (3, 0); OnNext (4, 5)] [OnNext (1, 2); OnNext (4, 5)].
Proof.
  intros p. split.
  - apply (C10_starfilter_in_pipeline well_behaved p PEnd [(1, 2); (2, 1); (3, 0); (4, 5)] Open []).
    exact (proj2 (delivers_iff (sane_psys _ _) _ _) (proj2 (subscriber _ _) eq_refl)).
  - apply (C10_starfilter_hot well_behaved p PEnd [(1, 2); (2, 1); (3, 0); (4, 5)] Open []).
    exact (proj2 (delivers_iff (sane_psys _ _) _ _) (proj2 (subscriber _ _) eq_refl)).
Qed.

(** ** C20 slice behind a hot source: as behind a cold one (C20_any_ending_in_pipeline).
    With neither start nor stop nor a step above 1 there is no operator at all. *)
Theorem C20_hot : forall Z0 A (pol : policy Z0) isn start stop step (opr : pipe Z0 A -> pipe Z0 A) r vs e junk,
  slice_ isn start stop step = Ok opr ->
  (1 <= step)%Z ->
  (start = None -> stop = None -> (1 < step)%Z) ->
  stop <> Some 0%Z ->
  (match start, stop with Some i, Some j => ~ (i < 0 < j)%Z | _, _ => True end) ->
  (forall v, In v vs -> isn v = false) ->
  behaves_like (psys pol (opr r)) (source_calls vs e junk)
    (psys pol (safe r)) (trace (slice_shown start stop step vs e) (slice_ending start stop (length vs) e)).
Proof.
  intros Z0 A pol isn start stop step opr r vs e junk H Hst Hsome H0 Hneg Hn.
  pose proof (slice_refuses Z0 isn start stop step) as Hr. rewrite H in Hr.
  destruct (slice_error start stop step) eqn:He; [discriminate|].
  rewrite <- (@slice_any A isn start stop step vs e He Hst H0 Hneg Hn).
  apply behaves; [apply sane_psys|apply sane_psys|]. intros l. apply slice_hot_any; assumption.
Qed.
Print Assumptions C20_hot.

Theorem C20_hot_whole : forall Z0 A (pol : policy Z0) (isn : A -> bool) step (opr : pipe Z0 A -> pipe Z0 A) r ms,
  slice_ isn None None step = Ok opr -> (step <= 1)%Z ->
  behaves_like (psys pol (opr r)) ms (psys pol r) ms.
Proof.
  intros Z0 A pol isn step opr r ms H Hst. apply behaves; [apply sane_psys|apply sane_psys|]. intros l.
  unfold slice_ in H. destruct (Z.ltb_spec 1 step); [lia|]. destruct (step <? 0)%Z; [discriminate|]. inversion H. reflexivity.
Qed.
Print Assumptions C20_hot_whole.

(** subject[1:4:2]: two elements, and the completion with the fourth arrival;
    what the subject sends later is not seen. *)
Example C20_hot_case : exists opr, slice_ (fun _ => false) (Some 1%Z) (Some 4%Z) 2 = Ok opr /\
  delivers (psys well_behaved (opr PEnd)) (map OnNext [0; 1; 2; 3; 4; 5]) [OnNext 1; OnNext 3; OnCompleted].
Proof.
  eexists. split; [reflexivity|].
  apply (@C20_hot _ _ well_behaved (fun _ => false) (Some 1%Z) (Some 4%Z) 2 _ PEnd [0; 1; 2; 3; 4; 5] Open []);
    try reflexivity; try lia; try discriminate.
  exact (proj2 (delivers_iff (sane_psys _ _) _ _) (proj2 (subscriber _ _) eq_refl)).
Qed.
