(** * Properties C21-C23: operators with two sources.

    The input is the order in which the workers of the two sources make their
    calls: elements [arr] of either source, then possibly the call [t] that
    ends the result, then anything.  Every history has this form
    ([C21_every_history], [C23_every_history]). *)
From Verif Require Import Ops3Proofs.
Set Implicit Arguments.

Theorem C21_every_history : forall A B (ms : list (either A B)),
  exists arr t junk, (forall m, t = Some m -> ends m <> Open) /\ ms = two_sources arr t junk.
Proof. exact two_sources_any. Qed.
Print Assumptions C21_every_history.

(** ** C21 combine_latest: one pair of latest values per arrival, once both
    sources have produced; ends with the first terminal call of either source. *)
Theorem C21_combine_latest : forall A B (arr : arrivals A B) t junk,
  (forall m, t = Some m -> ends m <> Open) ->
  delivers (combine_latest_sys well_behaved PEnd) (two_sources arr t junk) (trace (combined arr) (ending_of t)).
Proof. intros A B arr t junk H. apply to_subscriber_s; [apply sane_msys|]. intros l. now apply cl_stage. Qed.
Print Assumptions C21_combine_latest.

Theorem C21_combine_latest_in_pipeline : forall Z A B (pol : policy Z) (r : pipe Z (A * B)) (arr : arrivals A B) t junk,
  (forall m, t = Some m -> ends m <> Open) ->
  behaves_like (combine_latest_sys pol r) (two_sources arr t junk) (psys pol (safe r)) (trace (combined arr) (ending_of t)).
Proof. intros. apply behaves; [apply sane_msys|apply sane_psys|]. intros l. now apply cl_stage. Qed.
Print Assumptions C21_combine_latest_in_pipeline.

(** The completion of one source ends the result although the other goes on. *)
Theorem C21_waits_for_both_refuted : exists l,
  delivers (combine_latest_sys well_behaved PEnd)
    [Src (OnNext 1); Oth (OnNext 2); Src OnCompleted; Oth (OnNext 3); Oth OnCompleted] l /\
  l = [OnNext (1, 2); OnCompleted].
Proof.
  eexists. split; [|reflexivity].
  refine (@C21_combine_latest nat nat [inl 1; inr 2] (Some (Src OnCompleted)) [Oth (OnNext 3); Oth OnCompleted] _).
  now intros m [= <-].
Qed.
Print Assumptions C21_waits_for_both_refuted.

Example C21_case : delivers (combine_latest_sys well_behaved PEnd)
  [Src (OnNext 1); Src (OnNext 2); Oth (OnNext 10); Oth (OnNext 11); Src (OnNext 3); Oth (OnError ValueError); Src (OnNext 4)]
  [OnNext (2, 10); OnNext (2, 11); OnNext (3, 11); OnError ValueError].
Proof.
  refine (@C21_combine_latest nat nat [inl 1; inl 2; inr 10; inr 11; inl 3] (Some (Oth (OnError ValueError))) [Src (OnNext 4)] _).
  now intros m [= <-].
Qed.

(** ** C22 with_latest_from: one pair per element of the first source that
    follows an element of the second. *)
Theorem C22_with_latest_from : forall A B (arr : arrivals A B) t junk,
  (forall m, t = Some m -> ends m <> Open) ->
  delivers (with_latest_from_sys well_behaved PEnd) (two_sources arr t junk) (trace (with_latest arr) (ending_of t)).
Proof. intros A B arr t junk H. apply to_subscriber_s; [apply sane_msys|]. intros l. now apply wl_stage. Qed.
Print Assumptions C22_with_latest_from.

Theorem C22_with_latest_from_in_pipeline : forall Z A B (pol : policy Z) (r : pipe Z (A * B)) (arr : arrivals A B) t junk,
  (forall m, t = Some m -> ends m <> Open) ->
  behaves_like (with_latest_from_sys pol r) (two_sources arr t junk) (psys pol (safe r)) (trace (with_latest arr) (ending_of t)).
Proof. intros. apply behaves; [apply sane_msys|apply sane_psys|]. intros l. now apply wl_stage. Qed.
Print Assumptions C22_with_latest_from_in_pipeline.

(** The completion of the second source ends the result, although the first goes on. *)
Theorem C22_outlives_other_refuted : exists l,
  delivers (with_latest_from_sys well_behaved PEnd)
    [Oth (OnNext 2); Src (OnNext 1); Oth OnCompleted; Src (OnNext 3); Src OnCompleted] l /\
  l = [OnNext (1, 2); OnCompleted].
Proof.
  eexists. split; [|reflexivity].
  refine (@C22_with_latest_from nat nat [inr 2; inl 1] (Some (Oth OnCompleted)) [Src (OnNext 3); Src OnCompleted] _).
  now intros m [= <-].
Qed.
Print Assumptions C22_outlives_other_refuted.

Example C22_case : delivers (with_latest_from_sys well_behaved PEnd)
  [Src (OnNext 1); Oth (OnNext 10); Oth (OnNext 11); Src (OnNext 2); Src (OnNext 3); Src OnCompleted]
  [OnNext (2, 11); OnNext (3, 11); OnCompleted].
Proof.
  refine (@C22_with_latest_from nat nat [inl 1; inr 10; inr 11; inl 2; inl 3] (Some (Src OnCompleted)) [] _).
  now intros m [= <-].
Qed.

(** ** C23 take_until: the elements of the source up to the first of: a
    terminal of the source, an element or an error of the other source.
    [arr] may contain completions of the other source: these do nothing. *)
Theorem C23_every_history : forall A B (ms : list (either A B)),
  exists arr t junk, (forall m, t = Some m -> tu_ends m <> Open) /\ ms = tu_calls arr t junk.
Proof. exact tu_calls_any. Qed.
Print Assumptions C23_every_history.

Theorem C23_take_until : forall A B (arr : arrivals A unit) (t : option (either A B)) junk,
  (forall m, t = Some m -> tu_ends m <> Open) ->
  delivers (take_until_sys well_behaved PEnd) (tu_calls arr t junk)
    (trace (lefts arr) (match t with Some m => tu_ends m | None => Open end)).
Proof. intros A B arr t junk H. apply to_subscriber_s; [apply sane_ssys|]. intros l. now apply tu_stage. Qed.
Print Assumptions C23_take_until.

Theorem C23_take_until_in_pipeline : forall Z A B (pol : policy Z) (r : pipe Z A) (arr : arrivals A unit) (t : option (either A B)) junk,
  (forall m, t = Some m -> tu_ends m <> Open) ->
  behaves_like (take_until_sys pol r) (tu_calls arr t junk)
    (psys pol (safe r)) (trace (lefts arr) (match t with Some m => tu_ends m | None => Open end)).
Proof. intros. apply behaves; [apply sane_ssys|apply sane_psys|]. intros l. now apply tu_stage. Qed.
Print Assumptions C23_take_until_in_pipeline.

Example C23_case : delivers (take_until_sys well_behaved PEnd)
  [Src (OnNext 1); Src (OnNext 2); Oth (OnNext true); Src (OnNext 3); Oth OnCompleted; Src OnCompleted]
  [OnNext 1; OnNext 2; OnCompleted].
Proof.
  refine (@C23_take_until nat bool [inl 1; inl 2] (Some (Oth (OnNext true))) [Src (OnNext 3); Oth OnCompleted; Src OnCompleted] _).
  now intros m [= <-].
Qed.
