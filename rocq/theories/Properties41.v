(** * Property C82: take_until, combine_latest and with_latest_from in programs. *)
From Verif Require Import Programs ProgramsProofs Programs2 Programs2Proofs Programs3 Programs3Proofs.
Set Implicit Arguments.

(** ** What they are: exactly these outcomes *)

(** take_until: what the source makes, up to its end; or a beginning of it,
    completed by an element of the other, or failed by the other's error if that
    comes before any element.  If the other has no elements and does not fail, it
    is as if it were not there. *)
Theorem C82_take_until : forall A B (c : cold A) (d : cold B), lively c -> lively d -> forall l,
  makes (take_until_of c d) l <->
  exists xs da ys db, outcome c xs da /\ outcome d ys db /\
    (da <> Open /\ l = trace xs da \/
     ys <> [] /\ (exists vs, prefix vs xs /\ l = trace vs Completed) \/
     (exists x vs, ys = [] /\ db = Failed x /\ prefix vs xs /\ l = trace vs (Failed x)) \/
     ys = [] /\ (forall x, db <> Failed x) /\ da = Open /\ l = trace xs Open).
Proof.
  intros A B c d Lc Ld l. unfold take_until_of, combine_latest_of, with_latest_from_of. rewrite (pair_is _ _ _ (proj1 Lc) (proj1 Ld) l). split.
  - intros (xs & da & ys & db & vs & e & Oc & Od & U & ->). exists xs, da, ys, db. split; [exact Oc|]. split; [exact Od|].
    destruct U as [(-> & -> & N)|[(p & N & ->)|[(x & p & -> & -> & ->)|(-> & -> & -> & D & ->)]]]; eauto 10.
    right. right. right. repeat split. destruct D as [-> | ->]; discriminate.
  - intros (xs & da & ys & db & Oc & Od & [(N & ->)|[(N & vs & p & ->)|[(x & vs & -> & -> & p & ->)|(-> & N & -> & ->)]]]).
    + exists xs, da, ys, db, xs, da. split; [exact Oc|]. split; [exact Od|]. split; [left; auto|reflexivity].
    + exists xs, da, ys, db, vs, Completed. split; [exact Oc|]. split; [exact Od|]. split; [right; left; auto|reflexivity].
    + exists xs, da, [], (Failed x), vs, (Failed x). split; [exact Oc|]. split; [exact Od|]. split; [right; right; left; eauto 10|reflexivity].
    + exists xs, Open, [], db, xs, Open. split; [exact Oc|]. split; [exact Od|]. split; [|reflexivity]. right. right. right. repeat split.
      destruct db as [|x|]; auto. now elim (N x).
Qed.
Print Assumptions C82_take_until.

(** combine_latest and with_latest_from: the elements of both arrive in some
    order, up to the first end; the pairs are those of that order (C21, C22). *)
Theorem C82_combine_latest : forall A B (c : cold A) (d : cold B), lively c -> lively d -> forall l,
  makes (combine_latest_of c d) l <->
  exists xs da ys db arr e, outcome c xs da /\ outcome d ys db /\ first_end xs da ys db arr e /\ l = trace (combined arr) e.
Proof.
  intros A B c d Lc Ld l. unfold take_until_of, combine_latest_of, with_latest_from_of. rewrite (pair_is _ _ _ (proj1 Lc) (proj1 Ld) l). split.
  - intros (xs & da & ys & db & vs & e & Oc & Od & (arr & F & ->) & ->). eauto 12.
  - intros (xs & da & ys & db & arr & e & Oc & Od & F & ->). exists xs, da, ys, db, (combined arr), e. repeat split; auto. now exists arr.
Qed.
Print Assumptions C82_combine_latest.

Theorem C82_with_latest_from : forall A B (c : cold A) (d : cold B), lively c -> lively d -> forall l,
  makes (with_latest_from_of c d) l <->
  exists xs da ys db arr e, outcome c xs da /\ outcome d ys db /\ first_end xs da ys db arr e /\ l = trace (with_latest arr) e.
Proof.
  intros A B c d Lc Ld l. unfold take_until_of, combine_latest_of, with_latest_from_of. rewrite (pair_is _ _ _ (proj1 Lc) (proj1 Ld) l). split.
  - intros (xs & da & ys & db & vs & e & Oc & Od & (arr & F & ->) & ->). eauto 12.
  - intros (xs & da & ys & db & arr & e & Oc & Od & F & ->). exists xs, da, ys, db, (with_latest arr), e. repeat split; auto. now exists arr.
Qed.
Print Assumptions C82_with_latest_from.

(** These are lively again. *)
Theorem C82_lively : forall A B (c : cold A) (d : cold B), lively c -> lively d ->
  lively (take_until_of c d) /\ lively (combine_latest_of c d) /\ lively (with_latest_from_of c d).
Proof. intros A B c d Lc Ld. split; [|split]; now apply lively_pair. Qed.
Print Assumptions C82_lively.

(** Parts may be replaced by others that look the same. *)
Theorem C82_replace : forall A B (c c' : cold A) (d d' : cold B), alike c c' -> alike d d' ->
  alike (take_until_of c d) (take_until_of c' d') /\ alike (combine_latest_of c d) (combine_latest_of c' d') /\
  alike (with_latest_from_of c d) (with_latest_from_of c' d').
Proof. intros A B c c' d d' Hc Hd. split; [|split]; now apply pair_alike. Qed.
Print Assumptions C82_replace.

(** ** take_until *)
Theorem C82_until_never : forall A B (c : cold A), lively c -> alike (take_until_of c (From (@Never B))) c.
Proof. exact until_never. Qed.
Print Assumptions C82_until_never.

(** The other's completion is ignored. *)
Theorem C82_until_empty : forall A B (c : cold A), lively c -> alike (take_until_of c (From (@Empty B))) c.
Proof. exact until_empty. Qed.
Print Assumptions C82_until_empty.

Theorem C82_until_single : forall A B (c : cold A) (y : B), lively c -> forall l,
  makes (take_until_of c (From (Single y))) l <->
  exists vs e, outcome c vs e /\ (e <> Open /\ l = trace vs e \/ exists us, prefix us vs /\ l = trace us Completed).
Proof. exact until_single. Qed.
Print Assumptions C82_until_single.

Theorem C82_until_fail : forall A B (c : cold A) x, lively c -> forall l,
  makes (take_until_of c (From (Worker (@WFail B x)))) l <->
  exists vs e, outcome c vs e /\ (e <> Open /\ l = trace vs e \/ exists us, prefix us vs /\ l = trace us (Failed x)).
Proof. exact until_fail. Qed.
Print Assumptions C82_until_fail.

(** Several of them: in any order, or merged into one. *)
Theorem C82_until_order : forall A B C (c : cold A) (d : cold B) (d' : cold C), lively c -> lively d -> lively d' ->
  alike (take_until_of (take_until_of c d) d') (take_until_of (take_until_of c d') d).
Proof. exact until_order. Qed.
Print Assumptions C82_until_order.

Theorem C82_until_merge : forall A B (c : cold A) (d d' : cold B), lively c -> lively d -> lively d' ->
  alike (take_until_of (take_until_of c d) d') (take_until_of c (merge_ d d')).
Proof. exact until_merge. Qed.
Print Assumptions C82_until_merge.

(** map, filter, choose: before or behind it. *)
Theorem C82_operator_of_until : forall A B C (g : stage A C) (c : cold A) (d : cold B), elementwise g -> sheltered (Stage g c) -> lively c -> lively d ->
  alike (Stage g (take_until_of c d)) (take_until_of (Stage g c) d).
Proof. intros A B C g c d E _. now apply operator_of_until. Qed.
Print Assumptions C82_operator_of_until.

(** take: behind it, it makes nothing that it does not make before it; *)
Theorem C82_take_of_until : forall A B n (c : cold A) (d : cold B) l, lively c -> lively d ->
  makes (Stage (STake A (S n)) (take_until_of c d)) l -> makes (take_until_of (Stage (STake A (S n)) c) d) l.
Proof. exact take_of_until. Qed.
Print Assumptions C82_take_of_until.

(** but the converse fails: before it, the other's error can come between the last element and the completion. *)
Theorem C82_until_of_take_refuted : exists (c : cold nat) (d : cold nat) l, lively c /\ lively d /\
  makes (take_until_of (Stage (STake nat 1) c) d) l /\ ~ makes (Stage (STake nat 1) (take_until_of c d)) l.
Proof.
  exists (From (Single 1)), (From (Worker (WFail ValueError))), (trace [1] (Failed ValueError)).
  assert (L1 : lively (From (Single 1))) by apply lively_source. assert (L2 : lively (From (Worker (@WFail nat ValueError)))) by apply lively_source.
  split; [exact L1|]. split; [exact L2|]. split.
  - apply C82_until_fail; [now apply lively_stage|]. exists [1], Completed. split; [apply outcome_means; [exact I|]; exists [1], Completed; now split|].
    right. exists [1]. split; [apply prefix_refl|reflexivity].
  - intros M. apply regular_makes in M; [|exact (proj1 (lively_stage _ (lively_pair _ L1 L2)))]. destruct M as (vs & e & (us & d & _ & R) & T).
    apply trace_inj in T as [<- <-]. cbn in R. destruct us as [|u us]; discriminate.
Qed.
Print Assumptions C82_until_of_take_refuted.

(** ** combine_latest and with_latest_from *)

(** combine_latest treats its two sources alike. *)
Theorem C82_combine_commutes : forall A B (c : cold A) (d : cold B), lively c -> lively d ->
  alike (Stage (SMap (fun p => Ok (snd p, fst p))) (combine_latest_of c d)) (combine_latest_of d c).
Proof. exact combine_commutes. Qed.
Print Assumptions C82_combine_commutes.

(** Without an element of the other there are no pairs; the end is that of the first to end. *)
Theorem C82_silent_other : forall A B (c : cold A) (d : cold B), lively c -> lively d -> (forall ys db, outcome d ys db -> ys = []) -> forall l,
  (makes (combine_latest_of c d) l <-> exists vs da db e, outcome c vs da /\ outcome d [] db /\ ends_first da db e /\ l = trace [] e) /\
  (makes (with_latest_from_of c d) l <-> exists vs da db e, outcome c vs da /\ outcome d [] db /\ ends_first da db e /\ l = trace [] e).
Proof. exact latest_silent. Qed.
Print Assumptions C82_silent_other.

(** with_latest_from makes at most one pair of each element of its source, in their order. *)
Theorem C82_with_latest_elements : forall A B (c : cold A) (d : cold B) vs e, lively c -> lively d ->
  makes (with_latest_from_of c d) (trace vs e) -> exists xs da, outcome c xs da /\ part_of (map fst vs) xs.
Proof. exact with_latest_elements. Qed.
Print Assumptions C82_with_latest_elements.

(** ** Examples *)

(** take_until(single) of a merge under a map is lively, and may be cut after the second element. *)
Definition cut : cold nat := take_until_of (Stage (SMap (fun v => Ok (10 * v))) (merge_ (From (of_seq [1; 2])) (From (of_seq [3])))) (From (Single 0)).
Example C82_cut_lively : lively cut.
Proof. apply lively_pair; [apply lively_stage, lively_merge; apply lively_source|apply lively_source]. Qed.
Example C82_cut_sees : makes cut (trace [10; 30] Completed).
Proof.
  assert (L : lively (merge_ (From (of_seq [1; 2])) (From (of_seq [3])))) by (apply lively_merge; apply lively_source).
  apply C82_until_single; [now apply lively_stage|]. exists [10; 30; 20], Completed. split; [|right; exists [10; 30]; split; [now exists [20]|reflexivity]].
  apply outcome_means; [exact (proj1 (lively_stage _ L))|]. exists [1; 3; 2], Completed. split; [|reflexivity].
  apply means_merge; [apply lively_source|apply lively_source|]. exists [1; 2], Completed, [3], Completed. repeat split. repeat constructor.
Qed.
(** combine_latest of 1, 2 and 5: what a subscriber may see. *)
Example C82_latest : makes (combine_latest_of (From (of_seq [1; 2])) (From (Single 5))) (trace [(1, 5); (2, 5)] Completed).
Proof.
  apply C82_combine_latest; [apply lively_source|apply lively_source|]. exists [1; 2], Completed, [5], Completed, [inl 1; inr 5; inl 2], Completed.
  split; [now apply (outcome_same (lively_source _))|]. split; [now apply (outcome_same (lively_source _))|]. split; [|reflexivity].
  split; [apply prefix_refl|]. split; [apply prefix_refl|]. now left.
Qed.
