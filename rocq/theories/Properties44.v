(** * Property C85: retry in programs. *)
From Verif Require Import Properties9 Programs TimedProofs ProgramsProofs Programs2 Programs2Proofs Programs3 Programs3Proofs Programs4Proofs Programs5Proofs.
Set Implicit Arguments.

(** ** What it is: exactly these outcomes *)

(** The runs of retry(n) that come to an end are the runs of its source that do
    not fail and, unless n = 0, those that fail followed by one that does not. *)
Theorem C85_retry : forall A n (c : cold A) l,
  makes (Retried n c) l <->
  exists vs e, (forall x, e <> Failed x) /\ l = trace vs e /\
    (outcome c vs e \/ n <> 0%Z /\ exists us x ws, outcome c us (Failed x) /\ outcome c ws e /\ vs = us ++ ws).
Proof.
  intros A n c l. rewrite retried_makes. unfold retried. split.
  - intros (vs & e & [H1 H2] & ->). exists vs, e. auto.
  - intros (vs & e & H1 & -> & H2). exists vs, e. auto.
Qed.
Print Assumptions C85_retry.

(** The same for catch, with any handler that has no state of its own. *)
Theorem C85_catch : forall A (c : cold A) handler l,
  makes (Caught c handler) l <->
  exists vs e, recovered (fun x => match handler x with Ok c' => Some (outcome c') | Err _ => None end) (outcome c) vs e /\ l = trace vs e.
Proof. exact caught_makes. Qed.
Print Assumptions C85_catch.

Theorem C85_replace : forall A n (c d : cold A), alike c d -> alike (Retried n c) (Retried n d).
Proof. exact alike_retried. Qed.
Print Assumptions C85_replace.

(** ** Errors *)

(** No error gets through. *)
Theorem C85_no_errors : forall A n (c : cold A) l x, makes (Retried n c) l -> ~ In (OnError x) l.
Proof. intros A n c. exact (@retried_calm A n c). Qed.
Print Assumptions C85_no_errors.
(** If there are no errors, it does nothing. *)
Theorem C85_unneeded : forall A n (c : cold A), bounded c -> reliable c -> alike (Retried n c) c.
Proof. exact retried_reliable. Qed.
Print Assumptions C85_unneeded.
(** retry of something that always fails never comes to an end: it neither hands the error on nor falls silent. *)
Theorem C85_gives_up_refuted : forall A n (c : cold A), (forall vs e, outcome c vs e -> exists x, e = Failed x) -> ~ productive (Retried n c).
Proof. exact retried_hopeless. Qed.
Print Assumptions C85_gives_up_refuted.

(** ** The count *)

(** retry(n) is retry(m), unless one of them is 0: the count is not counted down but set to 0. *)
Theorem C85_count : forall A n m (c : cold A), n <> 0%Z -> m <> 0%Z -> alike (Retried n c) (Retried m c).
Proof. exact retried_count. Qed.
Print Assumptions C85_count.
(** So retry(n) does not stand n failures: an attempt that fails twice and would succeed the third time does not succeed. *)
Theorem C85_attempts_refuted : exists (c : cold nat), lively c /\ (exists us x ws y vs, outcome c us (Failed x) /\ outcome c ws (Failed y) /\ outcome c vs Completed /\
  forall n, ~ outcome (Retried n c) (us ++ ws ++ vs) Completed).
Proof.
  set (c := take_until_of (Stage (SMap (fun v => if v =? 2 then Err ValueError else Ok v)) (From (of_seq [1; 2]))) (From (Single tt))).
  assert (R : regular c) by (split; exact I). assert (M : forall vs e, outcome c vs e <-> means c vs e) by (apply outcome_means; exact R).
  assert (K : forall vs e, outcome c vs e -> length vs <= 1).
  { intros vs e O. apply M in O as (xs & da & ys & db & (us & d & Ms & Er) & _ & P). cbn in Ms, Er. injection Ms as <- <-. cbn in Er. injection Er as <- <-.
    assert (Hp : prefix vs [1]) by (destruct P as [(-> & _)|[(P & _)|[(x & P & _)|(-> & _)]]]; [now exists []|exact P|exact P|now exists []]).
    destruct Hp as [q Eq]. apply (f_equal (@length nat)) in Eq. rewrite app_length in Eq. cbn in Eq. lia. }
  assert (F : outcome c [1] (Failed ValueError)).
  { apply M. exists [1], (Failed ValueError), [tt], Completed. split; [exists [1; 2], Completed; split; reflexivity|]. split; [reflexivity|]. left. repeat split. discriminate. }
  assert (D : outcome c [1] Completed).
  { apply M. exists [1], (Failed ValueError), [tt], Completed. split; [exists [1; 2], Completed; split; reflexivity|]. split; [reflexivity|]. right; left. split; [now exists []|]. split; [discriminate|reflexivity]. }
  exists c. split; [split; [exact R|now exists (trace [1] Completed)]|].
  exists [1], ValueError, [1], ValueError, [1]. split; [exact F|]. split; [exact F|]. split; [exact D|]. intros n O.
  apply retried_outcome in O as [_ [O|(_ & us & x & ws & O1 & O2 & E)]].
  - apply K in O. cbn in O. lia.
  - apply K in O1. apply K in O2. apply (f_equal (@length nat)) in E. rewrite (app_length us ws) in E. cbn in E. lia.
Qed.
Print Assumptions C85_attempts_refuted.

(** ** Laws *)
Theorem C85_twice : forall A n m (c : cold A), bounded c -> alike (Retried n (Retried m c)) (Retried m c).
Proof. exact retried_retried. Qed.
Print Assumptions C85_twice.
Theorem C85_as_catch : forall A n (c : cold A), n <> 0%Z -> alike (Retried n c) (Caught c (fun _ => Ok (Retried 0 c))).
Proof. exact retried_caught. Qed.
Print Assumptions C85_as_catch.
(** A catch that goes back to the source at every error makes more. *)
Theorem C85_within_catch : forall A n (c : cold A) l, makes (Retried n c) l -> makes (Caught c (fun _ => Ok c)) l.
Proof. exact retried_within. Qed.
Print Assumptions C85_within_catch.

(** map, filter and choose that do not raise: before or behind it; *)
Theorem C85_map : forall A B (f : A -> B) n (c : cold A), bounded c ->
  alike (Stage (SMap (fun x => Ok (f x))) (Retried n c)) (Retried n (Stage (SMap (fun x => Ok (f x))) c)).
Proof. intros A B f n c Hb. exact (@retried_each A B _ _ n c (each_map f) Hb). Qed.
Print Assumptions C85_map.
Theorem C85_filter : forall A (p : A -> bool) n (c : cold A), bounded c ->
  alike (Stage (SFilter (fun x => Ok (p x))) (Retried n c)) (Retried n (Stage (SFilter (fun x => Ok (p x))) c)).
Proof. intros A p n c Hb. exact (@retried_each A A _ _ n c (each_filter p) Hb). Qed.
Print Assumptions C85_filter.
Theorem C85_choose : forall A B (f : A -> option B) n (c : cold A), bounded c ->
  alike (Stage (SChoose (fun x => Ok (f x))) (Retried n c)) (Retried n (Stage (SChoose (fun x => Ok (f x))) c)).
Proof. intros A B f n c Hb. exact (@retried_each A B _ _ n c (each_choose f) Hb). Qed.
Print Assumptions C85_choose.
(** but not operators with a state: behind it, it goes on; before it, every attempt begins with a new one. *)
Theorem C85_scan_refuted : exists (c : cold nat), lively c /\ forall n, n <> 0%Z ->
  ~ alike (Stage (SScan Nat.add 0) (Retried n c)) (Retried n (Stage (SScan Nat.add 0) c)).
Proof.
  set (c := take_until_of (Stage (SMap (fun v => if v =? 2 then Err ValueError else Ok v)) (From (of_seq [1; 2]))) (From (Single tt))).
  assert (R : regular c) by (split; exact I). assert (M : forall vs e, outcome c vs e <-> means c vs e) by (apply outcome_means; exact R).
  assert (F : outcome c [1] (Failed ValueError)).
  { apply M. exists [1], (Failed ValueError), [tt], Completed. split; [exists [1; 2], Completed; split; reflexivity|]. split; [reflexivity|]. left. repeat split. discriminate. }
  assert (D : outcome c [1] Completed).
  { apply M. exists [1], (Failed ValueError), [tt], Completed. split; [exists [1; 2], Completed; split; reflexivity|]. split; [reflexivity|]. right; left. split; [now exists []|]. split; [discriminate|reflexivity]. }
  exists c. split; [split; [exact R|now exists (trace [1] Completed)]|]. intros n En E.
  assert (O : outcome (Stage (SScan Nat.add 0) (Retried n c)) [1; 2] Completed).
  { exists (trace [1; 1] Completed). split; [|apply stage_delivers; reflexivity]. apply retried_outcome. split; [discriminate|]. right. split; [exact En|]. now exists [1], ValueError, [1]. }
  apply E in O. apply retried_outcome in O as [_ O].
  assert (K : forall vs e, outcome (Stage (SScan Nat.add 0) c) vs e -> ~ In 2 vs).
  { intros vs e H. apply outcome_means in H; [|exact R]. destruct H as (us & d & H & Er). cbn in Er. injection Er as <- <-.
    destruct H as (xs & da & ys & db & (zs & d' & Ms & Er) & _ & P). cbn in Ms, Er. injection Ms as <- <-. cbn in Er. injection Er as <- <-.
    assert (Hp : prefix us [1]) by (destruct P as [(-> & _)|[(P & _)|[(x & P & _)|(-> & _)]]]; [now exists []|exact P|exact P|now exists []]).
    destruct Hp as [q Eq]. destruct us as [|u us]; cbn in Eq; [intros []|]. injection Eq as <- Eq. symmetry in Eq. apply app_eq_nil in Eq as [-> _]. cbn. intros [H|[]]. discriminate. }
  destruct O as [O|(_ & us & x & ws & O1 & O2 & Eq)]; [apply K in O; apply O; right; now left|].
  assert (H2 : In 2 (us ++ ws)) by (rewrite <- Eq; right; now left). apply in_app_or in H2 as [H2|H2]; [exact (K _ _ O1 H2)|exact (K _ _ O2 H2)].
Qed.
Print Assumptions C85_scan_refuted.

(** ** Examples *)

(** The first attempt fails at 2, the second is cut off by its timer: 1, 1, completed. *)
Definition flaky : cold nat := take_until_of (Stage (SMap (fun v => if v =? 2 then Err ValueError else Ok v)) (From (of_seq [1; 2]))) (Timer 3).
Lemma flaky_regular : regular flaky.
Proof. split; exact I. Qed.
Example C85_flaky : outcome (Retried 5 flaky) [1; 1] Completed /\ outcome (Retried 5 flaky) [1] Completed /\ outcome (Retried 0 flaky) [1] Completed.
Proof.
  assert (M : forall vs e, outcome flaky vs e <-> means flaky vs e) by (apply outcome_means, flaky_regular).
  assert (F : outcome flaky [1] (Failed ValueError)).
  { apply M. exists [1], (Failed ValueError), [0], Completed. split; [exists [1; 2], Completed; split; reflexivity|]. split; [now split|]. left. repeat split. discriminate. }
  assert (D : outcome flaky [1] Completed).
  { apply M. exists [1], (Failed ValueError), [0], Completed. split; [exists [1; 2], Completed; split; reflexivity|]. split; [now split|]. right; left. split; [now exists []|]. split; [discriminate|reflexivity]. }
  split; [|split]; apply C85_retry.
  - exists [1; 1], Completed. split; [discriminate|]. split; [reflexivity|]. right. split; [discriminate|]. now exists [1], ValueError, [1].
  - exists [1], Completed. split; [discriminate|]. split; [reflexivity|now left].
  - exists [1], Completed. split; [discriminate|]. split; [reflexivity|now left].
Qed.
(** retry(3) of fail(e): no run comes to an end. *)
Example C85_fail : ~ productive (Retried 3 (From (Worker (@WFail nat ValueError)))).
Proof. apply C85_gives_up_refuted. intros vs e O. apply outcome_means in O; [|exact I]. injection O as <- <-. now exists ValueError. Qed.
