(** * Property C20, continued: streams that fail or have not ended, slicing with
    brackets, and the arguments for which it is not Python's slice.

    For the shape of the statements see Properties2.v; the ending [e] may be
    [Open] (the calls up to now), [Failed x] or [Completed]. *)
From Verif Require Import SliceProofs.
Set Implicit Arguments.

(** Where the conditions of C20_slice hold, the slice of any stream shows Python's
    slice of the elements that have arrived (nothing before the completion if
    [start] is negative), completes as soon as [stop] elements have arrived if
    [start < stop] and [stop] is positive, and otherwise ends as the source does. *)
Theorem C20_any_ending : forall A (isn : A -> bool) start stop step (opr : pipe A A -> pipe A A) vs e junk,
  slice_ isn start stop step = Ok opr ->
  (1 <= step)%Z ->
  stop <> Some 0%Z ->
  (match start, stop with Some i, Some j => ~ (i < 0 < j)%Z | _, _ => True end) ->
  (forall v, In v vs -> isn v = false) ->
  delivers (psys well_behaved (safe (opr PEnd))) (source_calls vs e junk)
    (trace (slice_shown start stop step vs e) (slice_ending start stop (length vs) e)).
Proof.
  intros A isn start stop step opr vs e junk H Hst H0 Hneg Hn.
  pose proof (slice_refuses A isn start stop step) as Hr. rewrite H in Hr.
  destruct (slice_error start stop step) eqn:He; [discriminate|].
  rewrite <- (@slice_any A isn start stop step vs e He Hst H0 Hneg Hn).
  apply to_subscriber. intros l. apply slice_any_stage, H.
Qed.
Print Assumptions C20_any_ending.

(** The same in front of any pipeline and any subscriber. *)
Theorem C20_any_ending_in_pipeline :
  forall Z0 A (pol : policy Z0) isn start stop step (opr : pipe Z0 A -> pipe Z0 A) r vs e junk,
  slice_ isn start stop step = Ok opr ->
  (1 <= step)%Z ->
  stop <> Some 0%Z ->
  (match start, stop with Some i, Some j => ~ (i < 0 < j)%Z | _, _ => True end) ->
  (forall v, In v vs -> isn v = false) ->
  behaves_like (psys pol (safe (opr r))) (source_calls vs e junk)
    (psys pol (safe r)) (trace (slice_shown start stop step vs e) (slice_ending start stop (length vs) e)).
Proof.
  intros Z0 A pol isn start stop step opr r vs e junk H Hst H0 Hneg Hn.
  pose proof (slice_refuses Z0 isn start stop step) as Hr. rewrite H in Hr.
  destruct (slice_error start stop step) eqn:He; [discriminate|].
  rewrite <- (@slice_any A isn start stop step vs e He Hst H0 Hneg Hn).
  apply behaves; [apply sane_psys|apply sane_psys|]. intros l. apply slice_any_stage, H.
Qed.
Print Assumptions C20_any_ending_in_pipeline.

(** With [stop = 0], or [start < 0 < stop], the stop has no effect: what is
    delivered is [xs[start::step]]. *)
Theorem C20_stop_ignored : forall A (isn : A -> bool) start j step (opr : pipe A A -> pipe A A) vs junk,
  slice_ isn start (Some j) step = Ok opr ->
  (1 <= step)%Z ->
  (j = 0 \/ exists i, start = Some i /\ i < 0 < j)%Z ->
  (forall v, In v vs -> isn v = false) ->
  delivers (psys well_behaved (safe (opr PEnd))) (source_calls vs Completed junk)
    (trace (py_slice start None step vs) Completed).
Proof.
  intros A isn start j step opr vs junk H Hst Hj Hn.
  rewrite <- (@slice_python A isn start None step vs), <- (@stop_ignored A isn start j step vs Hj Hn); auto.
  - apply to_subscriber. intros l. apply slice_stage, H.
  - unfold slice_error. destruct (Z.ltb_spec step 0); [lia|reflexivity].
  - discriminate.
  - now destruct start.
Qed.
Print Assumptions C20_stop_ignored.

(** obs[start:stop:step] is slice(start, stop, step), with a missing step and step
    0 (ValueError for a list) read as 1. *)
Theorem C20_brackets : forall Z0 A (isn : A -> bool) start stop step,
  getslice_ (Z0 := Z0) isn start stop step =
  slice_ isn start stop (match step with None | Some 0%Z => 1%Z | Some k => k end).
Proof. intros. unfold getslice_. destruct step as [[|p|p]|]; reflexivity. Qed.
Print Assumptions C20_brackets.

(** obs[1:3] of a source that never ends: two elements, then completion. *)
Example C20_early_case : exists opr, getslice_ (fun _ => false) (Some 1%Z) (Some 3%Z) None = Ok opr /\
  delivers (psys well_behaved (safe (opr PEnd))) (source_calls [7; 8; 9] Open [])
    [OnNext 8; OnNext 9; OnCompleted].
Proof.
  eexists. split; [reflexivity|].
  refine (@C20_any_ending nat (fun _ => false) (Some 1%Z) (Some 3%Z) 1 _ [7; 8; 9] Open [] eq_refl _ _ _ _); first [lia|discriminate|reflexivity].
Qed.

(** obs[-2:] of a source that fails: only the error. *)
Example C20_failed_case : exists opr, getslice_ (fun _ => false) (Some (-2)%Z) None None = Ok opr /\
  delivers (psys well_behaved (safe (opr PEnd))) (source_calls [7; 8; 9] (Failed (UserExn 1)) [])
    [OnError (UserExn 1)].
Proof.
  eexists. split; [reflexivity|].
  refine (@C20_any_ending nat (fun _ => false) (Some (-2)%Z) None 1 _ [7; 8; 9] (Failed (UserExn 1)) [] eq_refl _ _ _ _); first [lia|discriminate|reflexivity|exact I].
Qed.

(** obs[1:0:2] *)
Example C20_ignored_case : exists opr, getslice_ (fun _ => false) (Some 1%Z) (Some 0%Z) (Some 2%Z) = Ok opr /\
  delivers (psys well_behaved (safe (opr PEnd))) (source_calls [0; 1; 2; 3; 4; 5] Completed []) [OnNext 1; OnNext 3; OnNext 5; OnCompleted] /\
  py_slice (Some 1%Z) (Some 0%Z) 2 [0; 1; 2; 3; 4; 5] = [].
Proof.
  eexists. split; [reflexivity|]. split; [|reflexivity].
  refine (@C20_stop_ignored nat (fun _ => false) (Some 1%Z) 0%Z 2 _ [0; 1; 2; 3; 4; 5] [] eq_refl _ _ _); first [lia|auto].
Qed.
