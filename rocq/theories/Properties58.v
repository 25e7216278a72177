(** * Property C100: interval and timer in front of sample. *)
From Coq Require Import Lia.
From Verif Require Import SampledProofs.
Set Implicit Arguments.
Local Open Scope Z_scope.

(** ** C100 *)

(** interval(seconds, period).sample(d), whatever the event loop does: of the elements 0, 1, 2, ... that the source has made, the subscriber is told all
    from some element [m] on, in order, each once. *)
Theorem C100_from_some_on : forall ok seconds period d t0 h q, qreach seconds period d ok t0 h q -> period <> 0 -> 0 < d -> ~ In QCancel h ->
  exists m, (m <= length (q_made q))%nat /\ q_shows q (map OnNext (seq m (length (q_made q) - m))).
Proof. intros ok seconds period d t0 h q R Pz Dp _. exact (q_shown Pz (Z.neq_sym _ _ (Z.lt_neq _ _ Dp)) R). Qed.
Print Assumptions C100_from_some_on.

(** If the event loop is on time: what is left out are the elements made in the first [d] seconds, and nothing else; an element that is made exactly
    after [d] seconds may or may not be told. *)
Theorem C100_exact : forall seconds period d t0 h q, qreach seconds period d (q_on_time seconds d) t0 h q -> period <> 0 -> 0 < d -> ~ In QCancel h ->
  exists m, (m <= length (q_made q))%nat /\ q_shows q (map OnNext (seq m (length (q_made q) - m))) /\
    (forall j, (j < length (q_made q))%nat -> Z.max 0 seconds + Z.of_nat j * Z.max 0 period < d -> (j < m)%nat) /\
    (forall j, (j < length (q_made q))%nat -> d < Z.max 0 seconds + Z.of_nat j * Z.max 0 period -> (m <= j)%nat).
Proof.
  intros seconds period d t0 h q R Pz Dp C. destruct (q_exact Pz Dp R C) as (m & L & S & B & A). exists m. split; [exact L|]. split; [exact S|]. split; intros j Hj H.
  - destruct (Nat.lt_ge_cases j m) as [|G]; [assumption|]. specialize (A j (conj G Hj)). lia.
  - destruct (Nat.lt_ge_cases j m) as [G|]; [|assumption]. specialize (B j G). lia.
Qed.
Print Assumptions C100_exact.

(** And every element whose time has come has been made, once the source's task has nothing to do. *)
Theorem C100_no_beat_lost : forall seconds period d t0 h q, qreach seconds period d (q_on_time seconds d) t0 h q -> period <> 0 -> ~ In QCancel h ->
  ivwork seconds (q_source q) = None ->
  forall n, t0 + Z.max 0 seconds + Z.of_nat n * Z.max 0 period <= v_now (q_source q) -> (n < length (q_made q))%nat.
Proof. intros seconds period d t0 h q R Pz. exact (q_no_beat_lost Pz R). Qed.
Print Assumptions C100_no_beat_lost.

(** In particular a sampling period shorter than the first wait changes nothing. *)
Theorem C100_nothing_left_out : forall seconds period d t0 h q, qreach seconds period d (q_on_time seconds d) t0 h q -> period <> 0 -> 0 < d < seconds -> ~ In QCancel h ->
  q_shows q (map OnNext (seq 0 (length (q_made q)))).
Proof.
  intros seconds period d t0 h q R Pz Dp C. destruct (C100_exact R Pz (proj1 Dp) C) as (m & L & S & _ & A).
  assert (m = 0%nat) as ->; [|now rewrite Nat.sub_0_r in S].
  destruct m as [|m]; [reflexivity|]. specialize (A 0%nat ltac:(lia) ltac:(lia)). lia.
Qed.
Print Assumptions C100_nothing_left_out.

(** timer(seconds).sample(d): its completion, and before it its element, unless it comes in the first [d] seconds. *)
Theorem C100_timer : forall seconds d t0 h q, qreach seconds 0 d (q_on_time seconds d) t0 h q -> 0 < d -> ~ In QCancel h -> q_made q <> [] ->
  q_made q = [(OnNext 0%nat, t0 + Z.max 0 seconds); (OnCompleted, t0 + Z.max 0 seconds)] /\
  (d < seconds -> q_shows q [OnNext 0%nat; OnCompleted]) /\
  (seconds < d -> q_shows q [OnCompleted]).
Proof.
  intros seconds d t0 h q R Dp C M. destruct (q_timer_shown eq_refl Dp R C) as [E|(E & [[S D]|[S D]])]; [contradiction| |];
    (split; [exact E|]); split; intros H; try exact S; lia.
Qed.
Print Assumptions C100_timer.

(** interval(1, 2).sample(4), subscribed at 10: calls at 11, 13, 15 and 17; the first tick is at 14, and both later elements come before the second. *)
Definition hist100 : list qlabel :=
  [QSource; QTimer; QTick 1; QSource; QTick 2; QSource; QTick 1; QTimer; QTick 1; QSource; QTick 2; QSource].
Example C100_case : exists q, qreach 1 2 4 (q_on_time 1 4) 10 hist100 q /\ ~ In QCancel hist100 /\
  q_made q = [(OnNext 0%nat, 11); (OnNext 1%nat, 13); (OnNext 2%nat, 15); (OnNext 3%nat, 17)] /\
  q_shows q [OnNext 2%nat; OnNext 3%nat] /\ ivwork 1 (q_source q) = None.
Proof.
  eexists. split; [change hist100 with ([] ++ hist100); eapply q_run_ok; [apply qr_nil|vm_compute; reflexivity]|].
  split; [cbn; intuition discriminate|]. split; [reflexivity|]. split; [|reflexivity].
  exact (@Properties8.C38_sample nat [inl 0%nat; inl 1%nat; inr 0%nat; inl 2%nat; inl 3%nat] None [] ltac:(discriminate)).
Qed.
(** timer(5).sample(4), subscribed at 10. *)
Definition hist100t : list qlabel := [QSource; QTimer; QTick 4; QTimer; QTick 1; QSource].
Example C100_timer_case : exists q, qreach 5 0 4 (q_on_time 5 4) 10 hist100t q /\ ~ In QCancel hist100t /\
  q_made q = [(OnNext 0%nat, 15); (OnCompleted, 15)] /\ q_shows q [OnNext 0%nat; OnCompleted].
Proof.
  eexists. split; [change hist100t with ([] ++ hist100t); eapply q_run_ok; [apply qr_nil|vm_compute; reflexivity]|].
  split; [cbn; intuition discriminate|]. split; [reflexivity|].
  exact (@Properties8.C38_sample nat [inr 0%nat; inl 0%nat] (Some (Src OnCompleted)) [] ltac:(intros x [= <-]; discriminate)).
Qed.
