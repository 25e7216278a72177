(** * Properties C36 and C38: debounce, sample.

    [dreach d t0 h s]: after subscribing to [source | debounce(d)] at time
    [t0] the history [h] (time passing, calls of the source, ends of the
    sleeps, steps of the worker, disposal) can happen and leads to [s].
    [d_log s]: what was requested of the safe observer in front of the
    subscriber, each with the number of the source's call it stems from and
    the time. *)
From Coq Require Import Sorting.Sorted.
From Verif Require Import DebounceProofs Properties1 Properties2 Properties3.
Set Implicit Arguments.
Local Open Scope Z_scope.

(** ** C36 *)
(** In every history: once the worker has emptied its mailbox, exactly the
    reactions of the specification have been requested - an element when its
    sleep ended, if no other element had come since - ... *)
Theorem C36_exactly : forall A d t0 (h : list (dlabel A)) s, dreach d t0 h s -> d_box s = [] ->
  map fst (d_log s) = reactions [] h.
Proof. intros A. exact (@d_exact A). Qed.
Print Assumptions C36_exactly.

(** ... before that, a prefix of them. *)
Theorem C36_prefix : forall A d t0 (h : list (dlabel A)) s, dreach d t0 h s ->
  prefix (map fst (d_log s)) (reactions [] h).
Proof. intros A. exact (@d_prefix A). Qed.
Print Assumptions C36_prefix.

(** Elements come in source order and at most once each, with the value of
    the source's call. *)
Theorem C36_in_order : forall A d t0 (h : list (dlabel A)) s, dreach d t0 h s ->
  StronglySorted lt (flat_map (fun x => match fst (fst x) with OnNext _ => [snd (fst x)] | _ => [] end) (d_log s)) /\
  forall v i t, In (OnNext v, i, t) (d_log s) -> nth_error (map fst (darrivals t0 h)) i = Some (OnNext v).
Proof.
  intros A d t0 h s Hr. destruct (d_in_order Hr) as [H1 H2]. split; [|exact H2].
  unfold element_numbers in H1. rewrite flat_map_concat_map in *. rewrite map_map in H1. exact H1.
Qed.
Print Assumptions C36_in_order.

(** With a punctual event loop: an element is requested exactly [d] after it
    arrived, and only if no other element arrived in between ... *)
Theorem C36_window : forall A d t0 (h : list (dlabel A)) s, dreach d t0 h s -> d_punctual d t0 h ->
  forall v i t, In (OnNext v, i, t) (d_log s) ->
  exists a, nth_error (darrivals t0 h) i = Some (OnNext v, a) /\ t = a + Z.max 0 d /\
    forall j w b, (i < j)%nat -> nth_error (darrivals t0 h) j = Some (OnNext w, b) -> a + Z.max 0 d <= b.
Proof. intros A. exact (@d_window_sound A). Qed.
Print Assumptions C36_window.

(** ... and it is requested if none did (at the very end of the window either
    may be the case: it depends on which of the two comes first). *)
Theorem C36_window_converse : forall A d t0 (h : list (dlabel A)) s, dreach d t0 h s -> d_punctual d t0 h -> d_box s = [] ->
  forall v i a, nth_error (darrivals t0 h) i = Some (OnNext v, a) -> a + Z.max 0 d < d_now s ->
  (forall j w b, (i < j)%nat -> nth_error (darrivals t0 h) j = Some (OnNext w, b) -> a + Z.max 0 d < b) ->
  In (OnNext v, i, a + Z.max 0 d) (d_log s).
Proof. intros A. exact (@d_window_complete A). Qed.
Print Assumptions C36_window_converse.

(** What the subscriber gets: the requests up to the first terminal one. *)
Theorem C36_delivered : forall A d t0 (h : list (dlabel A)) s, dreach d t0 h s -> d_box s = [] ->
  delivers (psys well_behaved (safe PEnd)) (map (fun x => fst (fst x)) (d_log s)) (upto_terminal (map fst (reactions [] h))).
Proof.
  intros A d t0 h s Hr Eb. rewrite <- (d_exact Hr Eb), map_map. apply C03_nothing_lost.
Qed.
Print Assumptions C36_delivered.

(** Nothing that comes after a terminal call of the source counts: in
    particular an element still waiting for its time is lost.  The same holds
    for disposing, which makes the subscriber's observer complete. *)
Theorem C36_terminal_is_final : forall A (h1 h2 : list (dlabel A)) n, is_terminal n = true ->
  upto_terminal (map fst (reactions [] (h1 ++ DArr n :: h2))) = upto_terminal (map fst (reactions [] (h1 ++ [DArr n]))).
Proof. intros A. exact (@d_after_terminal A). Qed.
Print Assumptions C36_terminal_is_final.
Theorem C36_dispose_is_final : forall A (h1 h2 : list (dlabel A)),
  upto_terminal (map fst (reactions [] (h1 ++ DCancel :: h2))) = upto_terminal (map fst (reactions [] (h1 ++ [DCancel]))).
Proof. intros A. exact (@d_after_dispose A). Qed.
Print Assumptions C36_dispose_is_final.

Definition hist36 : list (dlabel nat) :=
  [DArr (OnNext 1%nat); DWork; DTick 5; DArr (OnNext 2%nat); DWork; DTick 5; DTimer 0; DWork; DTick 5; DTimer 1; DWork;
   DTick 1; DArr OnCompleted; DWork; DTick 10; DTimer 2; DWork].
Example C36_case : exists s, dreach 10 0 hist36 s /\ d_punctual 10 0 hist36 /\ d_box s = [] /\
  darrivals 0 hist36 = [(OnNext 1%nat, 0); (OnNext 2%nat, 5); (OnCompleted, 16)] /\
  d_log s = [(OnNext 2%nat, 1%nat, 15); (OnCompleted, 2%nat, 16); (OnCompleted, 2%nat, 26)] /\
  upto_terminal (map fst (reactions [] hist36)) = [OnNext 2%nat; OnCompleted].
Proof.
  eexists. split; [apply drun_init; vm_compute; reflexivity|].
  split; [apply d_punctual_check; vm_compute; reflexivity|]. repeat split.
Qed.

(** A pending element is flushed when the source completes?  No, it is lost. *)
Theorem C36_flush_refuted :
  ~ (forall (h : list (dlabel nat)) s, dreach 10 0 h s -> d_punctual 10 0 h -> d_box s = [] -> d_timers s = [] ->
       forall v, In (OnNext v, 0) (darrivals 0 h) ->
       (forall w b, In (OnNext w, b) (darrivals 0 h) -> w = v) ->
       In (OnNext v) (upto_terminal (map fst (reactions [] h)))).
Proof.
  intros F.
  set (h := [DArr (OnNext 1%nat); DWork; DTick 5; DArr OnCompleted; DWork; DTick 5; DTimer 0; DWork; DTick 5; DTimer 1; DWork]).
  assert (P : d_punctual 10 0 h) by (apply d_punctual_check; vm_compute; reflexivity).
  assert (R : exists s, dreach 10 0 h s /\ d_box s = [] /\ d_timers s = []).
  { eexists. split; [apply drun_init; vm_compute; reflexivity|]. split; reflexivity. }
  destruct R as (s & R & R1 & R2). specialize (F h s R P R1 R2 1%nat).
  vm_compute in F. destruct F as [F|[]]; [now left| |discriminate].
  intros w b [E|[E|[]]]; [now injection E|discriminate].
Qed.
Print Assumptions C36_flush_refuted.

(** After disposing, the subscriber's observer is still called (completed). *)
Theorem C36_silent_after_dispose_refuted :
  ~ (forall (h1 h2 : list (dlabel nat)) s1 s2, dreach 10 0 h1 s1 -> dreach 10 0 (h1 ++ DCancel :: h2) s2 -> d_log s2 = d_log s1).
Proof.
  intros F.
  assert (R : exists s, dreach (A := nat) 10 0 [DCancel; DWork] s /\ d_log s = [(OnCompleted, 0%nat, 0)]).
  { eexists. split; [apply drun_init; vm_compute; reflexivity|]. reflexivity. }
  destruct R as (s & R & E). specialize (F [] [DWork] _ _ (@dr_nil nat 10 0) R). rewrite E in F. discriminate.
Qed.
Print Assumptions C36_silent_after_dispose_refuted.

(** ** C38 *)
(** Whatever the interleaving [arr] of the source's elements and the ticks of
    the interval: every element of the source after the first tick comes
    through, and none before it. *)
Theorem C38_sample : forall A (arr : Spec.arrivals A nat) t junk,
  (forall m, t = Some m -> ends m <> Open) ->
  delivers (sample_sys well_behaved PEnd) (two_sources arr t junk) (trace (after_tick arr) (ending_of t)).
Proof.
  intros A arr t junk Ht. unfold sample_sys.
  apply (@C22_with_latest_from_in_pipeline A A nat well_behaved (map_ (fun ab => Ok (fst ab)) PEnd) arr t junk Ht).
  rewrite <- sample_spec.
  pose proof (@C09_map_total (A * nat) A fst (with_latest arr) (ending_of t) []) as H.
  unfold source_calls in H. replace (match ending_of t with Open => [] | _ => [] end) with (@nil (notif (A * nat))) in H by (destruct (ending_of t); reflexivity).
  rewrite app_nil_r in H. exact H.
Qed.
Print Assumptions C38_sample.

(** At most one element per tick?  No. *)
Theorem C38_one_per_tick_refuted :
  ~ (forall (arr : Spec.arrivals nat nat) l, delivers (sample_sys well_behaved PEnd) (two_sources arr None []) l ->
       (length l <= length (filter (fun x => match x with inr _ => true | _ => false end) arr))%nat).
Proof.
  intros F. specialize (F [inr 0%nat; inl 1%nat; inl 2%nat] _ (@C38_sample nat [inr 0%nat; inl 1%nat; inl 2%nat] None [] ltac:(discriminate))).
  vm_compute in F. lia.
Qed.
Print Assumptions C38_one_per_tick_refuted.

Example C38_case : delivers (sample_sys well_behaved PEnd)
  [Src (OnNext 1%nat); Oth (OnNext 0%nat); Src (OnNext 2%nat); Src (OnNext 3%nat); Oth (OnNext 1%nat); Src OnCompleted]
  [OnNext 2%nat; OnNext 3%nat; OnCompleted].
Proof.
  refine (@C38_sample nat [inl 1%nat; inr 0%nat; inl 2%nat; inl 3%nat; inr 1%nat] (Some (Src OnCompleted)) [] _).
  now intros m [= <-].
Qed.
