(** * Property C84: delay, debounce, sample and timer in programs. *)
From Verif Require Import Properties9 Programs TimedProofs ProgramsProofs Programs2 Programs2Proofs Programs3 Programs3Proofs Programs4Proofs Programs5Proofs.
Set Implicit Arguments.

(** ** What they are: exactly these outcomes *)

(** delay: whatever the delay and the times at which the source acts, the subscriber sees what it would see without it. *)
Theorem C84_delay : forall A d (c : cold A), bounded c -> alike (Shifted (Delay d) c) c.
Proof. exact delay_alike. Qed.
Print Assumptions C84_delay.

(** debounce: the ending of the source, and any of its elements in their order; if the source does not end, its last element is among them. *)
Theorem C84_debounce : forall A d (c : cold A), bounded c -> forall l,
  makes (Shifted (Debounce d) c) l <->
  exists xs e vs, outcome c xs e /\ l = trace vs e /\ part_of vs xs /\
    (e = Open -> forall us x, xs = us ++ [x] -> exists ws, vs = ws ++ [x] /\ part_of ws us).
Proof.
  intros A d c Hb l. rewrite (@shifted_makes A (Debounce d) c l Hb). split.
  - intros (xs & e & vs & O & S1 & ->). exists xs, e, vs. split; [exact O|]. split; [reflexivity|]. split; [exact (shifted_part _ _ _ _ S1)|].
    intros -> us x ->. destruct S1 as [[E _]|(xs' & vs' & y & E & -> & P)]; [now destruct us|]. apply app_inj_tail in E as [-> ->]. now exists vs'.
  - intros (xs & e & vs & O & -> & P & L). exists xs, e, vs. split; [exact O|]. split; [|reflexivity]. cbn. destruct e as [|x|]; [|exact P..].
    destruct xs as [|x xs _] using rev_ind; [left; split; [reflexivity|now inversion P]|right]. destruct (L eq_refl xs x eq_refl) as (ws & -> & P'). now exists xs, ws, x.
Qed.
Print Assumptions C84_debounce.

(** sample(d), d > 0: the ending of the source, and its elements from some place on. *)
Theorem C84_sample : forall A d (c : cold A), bounded c -> (0 < d)%Z -> forall l,
  makes (Shifted (Sample d) c) l <-> exists us vs e, outcome c (us ++ vs) e /\ l = trace vs e.
Proof.
  intros A d c Hb Hd l. rewrite (@shifted_makes A (Sample d) c l Hb). cbn. apply Z.ltb_lt in Hd. rewrite Hd. split.
  - intros (xs & e & vs & O & [us ->] & ->). now exists us, vs, e.
  - intros (us & vs & e & O & ->). exists (us ++ vs), e, vs. split; [exact O|]. split; [now exists us|reflexivity].
Qed.
Print Assumptions C84_sample.
Theorem C84_sample_off : forall A d (c : cold A), (d <= 0)%Z -> alike (Shifted (Sample d) c) c.
Proof. exact sample_off. Qed.
Print Assumptions C84_sample_off.

(** timer: 0 and the completion. *)
Theorem C84_timer : forall due l, makes (Timer due) l <-> l = [OnNext 0; OnCompleted].
Proof. exact timer_makes. Qed.
Print Assumptions C84_timer.

(** All of them: nothing is invented, nothing changes its place, the ending stays. *)
Theorem C84_nothing_new : forall A k (c : cold A) l, bounded c -> makes (Shifted k c) l ->
  exists xs e vs, outcome c xs e /\ part_of vs xs /\ l = trace vs e.
Proof.
  intros A k c l Hb H. apply (@shifted_makes A k c l Hb) in H as (xs & e & vs & O & S1 & ->). exists xs, e, vs. split; [exact O|]. split; [exact (shifted_part _ _ _ _ S1)|reflexivity].
Qed.
Print Assumptions C84_nothing_new.
(** All of them may let everything through. *)
Theorem C84_all_may_come : forall A k (c : cold A) l, bounded c -> makes c l -> makes (Shifted k c) l.
Proof.
  intros A k c l Hb H. destruct (outcomes Hb H) as (vs & e & O & ->). apply (shifted_outcome k c vs Hb). exists vs. split; [exact O|apply shifted_self].
Qed.
Print Assumptions C84_all_may_come.

Theorem C84_lively : forall A k (c : cold A) due, (lively c -> lively (Shifted k c)) /\ lively (Timer due).
Proof. intros A k c due. split; [apply lively_shifted|apply lively_timer]. Qed.
Print Assumptions C84_lively.
Theorem C84_replace : forall A k (c d : cold A), alike c d -> alike (Shifted k c) (Shifted k d).
Proof. exact alike_shifted. Qed.
Print Assumptions C84_replace.

(** ** Laws *)

(** For the order of what is seen, one time is as good as another; *)
Theorem C84_debounce_time : forall A d d' (c : cold A), bounded c -> alike (Shifted (Debounce d) c) (Shifted (Debounce d') c).
Proof. exact same_kind. Qed.
Print Assumptions C84_debounce_time.
(** doing it twice is doing it once. *)
Theorem C84_debounce_debounce : forall A d d' (c : cold A), bounded c ->
  alike (Shifted (Debounce d') (Shifted (Debounce d) c)) (Shifted (Debounce d) c).
Proof. exact debounce_debounce. Qed.
Print Assumptions C84_debounce_debounce.
Theorem C84_sample_sample : forall A d d' (c : cold A), bounded c -> (0 < d)%Z ->
  alike (Shifted (Sample d') (Shifted (Sample d) c)) (Shifted (Sample d) c).
Proof. exact sample_sample. Qed.
Print Assumptions C84_sample_sample.

Theorem C84_timer_single : forall due, alike (Timer due) (From (Single 0)).
Proof. exact timer_single. Qed.
Print Assumptions C84_timer_single.

(** map before or behind debounce; *)
Theorem C84_map_of_debounce : forall A B (f : A -> B) d (c : cold A), bounded c ->
  alike (Stage (SMap (fun x => Ok (f x))) (Shifted (Debounce d) c)) (Shifted (Debounce d) (Stage (SMap (fun x => Ok (f x))) c)).
Proof. intros A B f d c. exact (@map_debounce A B f c d). Qed.
Print Assumptions C84_map_of_debounce.
(** filter: what it makes before debounce, it may make behind it; *)
Theorem C84_filter_of_debounce : forall A (p : A -> bool) d (c : cold A) l, bounded c ->
  makes (Shifted (Debounce d) (Stage (SFilter (fun x => Ok (p x))) c)) l -> makes (Stage (SFilter (fun x => Ok (p x))) (Shifted (Debounce d) c)) l.
Proof. intros A p d c l Hb. exact (@debounce_each A A _ _ c d l (each_filter p) Hb). Qed.
Print Assumptions C84_filter_of_debounce.
(** but not the converse: behind it, the element that is kept may be one that does not pass. *)
Theorem C84_filter_order_refuted : exists (p : nat -> bool) (c : cold nat), lively c /\ forall d,
  ~ alike (Stage (SFilter (fun x => Ok (p x))) (Shifted (Debounce d) c)) (Shifted (Debounce d) (Stage (SFilter (fun x => Ok (p x))) c)).
Proof.
  exists (fun x => x =? 1), (From (Worker (WSeq [1; 2] (Some ValueError)))). split; [apply lively_source|]. intros d E.
  set (c := From (Worker (WSeq [1; 2] (Some ValueError)))) in *.
  assert (O : outcome (Stage (SFilter (fun x => Ok (x =? 1))) (Shifted (Debounce d) c)) [] Open).
  { apply (@stage_outcome nat nat _ _ (Shifted (Debounce d) c) [] Open (each_filter (fun x => x =? 1)) I). exists [2]. split; [|reflexivity].
    apply (@shifted_outcome nat (Debounce d) c [2] Open I). exists [1; 2]. split; [apply outcome_means; [exact I|reflexivity]|]. right. exists [1], [], 2. repeat split. apply part_none. }
  apply E in O. apply (@shifted_outcome nat (Debounce d) (Stage (SFilter (fun x => Ok (x =? 1))) c) [] Open I) in O as (xs & O & S1).
  apply (@stage_outcome nat nat _ _ c xs Open (each_filter (fun x => x =? 1)) I) in O as (ys & O & ->). apply outcome_means in O; [|exact I]. cbn in O. injection O as <-.
  cbn in S1. destruct S1 as [[E1 _]|(xs' & vs' & x & E1 & E2 & _)]; [discriminate|]. now destruct vs'.
Qed.
Print Assumptions C84_filter_order_refuted.

(** map, filter, choose and skip: before or behind sample. *)
Theorem C84_map_of_sample : forall A B (f : A -> B) d (c : cold A), bounded c ->
  alike (Stage (SMap (fun x => Ok (f x))) (Shifted (Sample d) c)) (Shifted (Sample d) (Stage (SMap (fun x => Ok (f x))) c)).
Proof. intros A B f d c Hb. exact (@each_sample A B _ _ c d (each_map f) Hb). Qed.
Print Assumptions C84_map_of_sample.
Theorem C84_filter_of_sample : forall A (p : A -> bool) d (c : cold A), bounded c ->
  alike (Stage (SFilter (fun x => Ok (p x))) (Shifted (Sample d) c)) (Shifted (Sample d) (Stage (SFilter (fun x => Ok (p x))) c)).
Proof. intros A p d c Hb. exact (@each_sample A A _ _ c d (each_filter p) Hb). Qed.
Print Assumptions C84_filter_of_sample.
Theorem C84_choose_of_sample : forall A B (f : A -> option B) d (c : cold A), bounded c ->
  alike (Stage (SChoose (fun x => Ok (f x))) (Shifted (Sample d) c)) (Shifted (Sample d) (Stage (SChoose (fun x => Ok (f x))) c)).
Proof. intros A B f d c Hb. exact (@each_sample A B _ _ c d (each_choose f) Hb). Qed.
Print Assumptions C84_choose_of_sample.
Theorem C84_skip_of_sample : forall A n d (c : cold A), bounded c ->
  alike (Stage (SSkip A n) (Shifted (Sample d) c)) (Shifted (Sample d) (Stage (SSkip A n) c)).
Proof. exact skip_sample. Qed.
Print Assumptions C84_skip_of_sample.

(** ** What is lost *)

(** Debouncing does not hand out the pending element when the source completes:
    whatever the source has produced, the subscriber may see nothing of it. *)
Theorem C84_flush_refuted : forall A d (c : cold A) xs, bounded c -> outcome c xs Completed ->
  makes (Shifted (Debounce d) c) [OnCompleted].
Proof. intros A d c xs Hb O. apply (@shifted_outcome A (Debounce d) c [] Completed Hb). exists xs. split; [exact O|apply part_none]. Qed.
Print Assumptions C84_flush_refuted.

(** ** Timers with other operators *)

(** take_until(timer(d)): a run that always ends; with all of the source and
    its ending, or completed after some of its first elements. *)
Theorem C84_timeout : forall A (c : cold A) due l, lively c ->
  (makes (take_until_of c (Timer due)) l <->
   exists vs e, outcome c vs e /\ (e <> Open /\ l = trace vs e \/ exists us, prefix us vs /\ l = trace us Completed)).
Proof. exact timeout. Qed.
Print Assumptions C84_timeout.
Theorem C84_timeout_ends : forall A (c : cold A) due vs, lively c -> ~ outcome (take_until_of c (Timer due)) vs Open.
Proof.
  intros A c due vs Lc O. apply (timeout due _ Lc) in O as (us & e & _ & [(Ne & E)|(ws & _ & E)]); apply trace_inj in E as [_ E]; [now elim Ne|discriminate].
Qed.
Print Assumptions C84_timeout_ends.

(** debounce and flat_map_latest of timers: while the source does not end, what the first makes the second makes; *)
Theorem C84_debounce_by_latest : forall A d (c : cold A) vs, lively c ->
  outcome (Shifted (Debounce d) c) vs Open ->
  outcome (flat_map_latest_ (fun x => Stage (SMap (fun _ => Ok x)) (Timer d)) c) vs Open.
Proof. exact debounce_latest. Qed.
Print Assumptions C84_debounce_by_latest.
(** but they differ: the second does not complete. *)
Theorem C84_debounce_by_latest_refuted : exists (c : cold nat), lively c /\ forall d,
  ~ alike (Shifted (Debounce d) c) (flat_map_latest_ (fun x => Stage (SMap (fun _ => Ok x)) (Timer d)) c).
Proof.
  exists (From (Single 1)). split; [apply lively_source|]. intros d E.
  assert (O : outcome (Shifted (Debounce d) (From (Single 1))) [1] Completed).
  { apply (@shifted_outcome nat (Debounce d) (From (Single 1)) [1] Completed I). exists [1]. split; [apply outcome_means; [exact I|reflexivity]|apply part_refl]. }
  apply E in O. apply (latest_switched _ (lively_source (Single 1))) in O.
  apply (@switched_is _ _ _ (fun x => Stage (SMap (fun _ => Ok x)) (Timer d)) (lively_source (Single 1)) (fun x => lively_after_timer d x)) in O as (xs & oe & vs & e & O & (cs & ps & _ & _ & _ & H) & Et).
  apply trace_inj in Et as [<- <-]. destruct H as [-> _]. apply outcome_means in O; [|exact I]. discriminate.
Qed.
Print Assumptions C84_debounce_by_latest_refuted.

(** ** Examples *)

(** A search box: from_iterable(["a", "ab", "abc"]), here by their lengths, is
    debounced, and every string that is left asks a service that answers after a while. *)
Definition answer (n : nat) : cold nat := Shifted (Delay 2) (From (Single (10 * n))).
Definition search : cold nat := flat_map_latest_ answer (Shifted (Debounce 1) (From (of_seq [1; 2; 3]))).
Example C84_search_lively : lively search.
Proof.
  apply lively_latest; [apply lively_shifted, lively_source|]. intros x. apply lively_shifted, lively_source.
Qed.
(** The debounce may keep 1 and 3, ... *)
Example C84_debounce_case : makes (Shifted (Debounce 1) (From (of_seq [1; 2; 3]))) [OnNext 1; OnNext 3; OnCompleted].
Proof.
  apply (@shifted_outcome nat (Debounce 1) (From (of_seq [1; 2; 3])) [1; 3] Completed I). exists [1; 2; 3]. split; [apply outcome_means; [exact I|reflexivity]|].
  cbn. repeat constructor.
Qed.
(** ... not 3 and 1. *)
Example C84_debounce_order : ~ makes (Shifted (Debounce 1) (From (of_seq [1; 2; 3]))) [OnNext 3; OnNext 1; OnCompleted].
Proof.
  intros H. apply (@shifted_outcome nat (Debounce 1) (From (of_seq [1; 2; 3])) [3; 1] Completed I) in H as (xs & O & S1). apply outcome_means in O; [|exact I]. cbn in O. injection O as <-.
  cbn in S1. repeat match goal with H : part_of _ _ |- _ => inversion H; clear H; subst end.
Qed.
(** The answers to 1 and to 3, in their order, or only the last one. *)
Example C84_search_outcome : outcome search [30] Open.
Proof.
  unfold search, outcome. assert (Ld : lively (Shifted (Debounce 1) (From (of_seq [1; 2; 3])))) by apply lively_shifted, lively_source.
  assert (La : forall x, lively (answer x)) by (intros x; apply lively_shifted, lively_source).
  rewrite (latest_switched _ Ld _), (@switched_is _ _ _ answer Ld La). exists [1; 3], Completed, [30], Open. split; [exact C84_debounce_case|]. split; [|reflexivity].
  assert (Oa : forall x, outcome (answer x) [10 * x] Completed) by (intros x; apply (@C84_delay nat 2 (From (Single (10 * x))) I), outcome_means; [exact I|reflexivity]).
  exists [([10], Completed); ([30], Completed)], [[]; [30]].
  split; [constructor; [exact (Oa 1)|constructor; [exact (Oa 3)|constructor]]|].
  split; [constructor; [apply prefix_nil|constructor; [now exists []|constructor]]|].
  split; [apply (@interleaves_left nat []); now apply interleaves_one|].
  split; [discriminate|]. split; [discriminate|]. intros [|[|k]] c0 Lk E; try discriminate. injection E as <-. split; [reflexivity|discriminate].
Qed.
(** The last three of five, with sample; the first two until the timer. *)
Example C84_sample_case : makes (Shifted (Sample 3) (From (of_seq [1; 2; 3; 4; 5]))) [OnNext 3; OnNext 4; OnNext 5; OnCompleted].
Proof.
  apply (@C84_sample nat 3 (From (of_seq [1; 2; 3; 4; 5])) I); [lia|]. exists [1; 2], [3; 4; 5], Completed. split; [apply outcome_means; [exact I|reflexivity]|reflexivity].
Qed.
Example C84_timeout_case : makes (take_until_of (From (Worker (WSeq [1; 2; 3] (Some ValueError)))) (Timer 5)) [OnNext 1; OnNext 2; OnCompleted].
Proof.
  apply (@C84_timeout nat _ 5 _ (lively_source _)). exists [1; 2; 3], Open. split; [apply outcome_means; [exact I|reflexivity]|]. right. exists [1; 2]. split; [now exists [3]|reflexivity].
Qed.
