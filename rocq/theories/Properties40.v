(** * Property C81: programs in which observables run at the same time. *)
From Coq Require Import Permutation.
From Verif Require Import Properties9 Programs ProgramsProofs Programs2 Programs2Proofs.
Set Implicit Arguments.

(** What a subscriber may see is exactly what the program means. *)
Theorem C81_exact : forall A (c : cold A), sheltered c -> regular c -> forall l, makes c l <-> exists vs e, means c vs e /\ l = trace vs e.
Proof. intros A c _. exact (regular_makes c). Qed.
Print Assumptions C81_exact.

(** ** What merge, merge_seq, flat_map and flat_mapi are *)
Theorem C81_merge : forall A (c d : cold A), lively c -> lively d -> forall l,
  makes (merge_ c d) l <-> exists vs e, merged (outcome c) (outcome d) vs e /\ l = trace vs e.
Proof. exact merge_is. Qed.
Print Assumptions C81_merge.

Theorem C81_merge_seq : forall A (cs : list (cold A)), Forall lively cs -> forall l,
  makes (merge_seq_ cs) l <-> exists vs e, all_merged (map outcome cs) vs e /\ l = trace vs e.
Proof. exact merge_seq_is. Qed.
Print Assumptions C81_merge_seq.

(** The observables named by the elements of the source, together with the ending of the source. *)
Theorem C81_flat_map : forall X A (f : X -> cold A) c, lively c -> (forall x, lively (f x)) -> forall l,
  makes (flat_map_ f c) l <->
  exists xs oe vs e, outcome c xs oe /\ merged (ended oe) (all_merged (map (fun x => outcome (f x)) xs)) vs e /\ l = trace vs e.
Proof. exact flat_map_is. Qed.
Print Assumptions C81_flat_map.

Theorem C81_flat_mapi : forall X A (f : X -> nat -> cold A) c, lively c -> (forall x i, lively (f x i)) -> forall l,
  makes (flat_mapi_ f c) l <->
  exists xs oe vs e, outcome c xs oe /\
    merged (ended oe) (all_merged (map (fun xi => outcome (f (fst xi) (snd xi))) (combine xs (seq 0 (length xs))))) vs e /\ l = trace vs e.
Proof.
  intros X A f c Lc L l. rewrite (flat_mapi_is f Lc L).
  assert (E : forall (xs : list X) k, indexed k xs = combine xs (seq k (length xs))) by (induction xs as [|x xs IH]; intros k; cbn; [reflexivity|now rewrite IH]).
  split; intros (xs & oe & vs & e & H); exists xs, oe, vs, e; [now rewrite <- E|now rewrite E].
Qed.
Print Assumptions C81_flat_mapi.

(** These are lively again, so the theorems above and below apply to programs of any depth. *)
Theorem C81_lively : forall A,
  (forall s : source A, lively (From s)) /\
  (forall B (g : stage A B) c, lively c -> lively (Stage g c)) /\
  (forall cs : list (cold A), Forall lively cs -> lively (merge_seq_ cs) /\ lively (concat_seq_ cs)) /\
  (forall X (f : X -> cold A) c, lively c -> (forall x, lively (f x)) -> lively (flat_map_ f c)).
Proof. intros A. auto 10 using lively_source, lively_stage, lively_merge_seq, lively_concat_seq, lively_flat_map. Qed.
Print Assumptions C81_lively.

(** ** merge is commutative and associative, with empty() as its neutral element. *)
Theorem C81_merge_commutes : forall A (c d : cold A), lively c -> lively d -> alike (merge_ c d) (merge_ d c).
Proof. exact merge_commutes. Qed.
Print Assumptions C81_merge_commutes.

Theorem C81_merge_associates : forall A (a b c : cold A), lively a -> lively b -> lively c ->
  alike (merge_ a (merge_ b c)) (merge_ (merge_ a b) c).
Proof. exact merge_associates. Qed.
Print Assumptions C81_merge_associates.

Theorem C81_merge_empty : forall A (c : cold A), lively c -> alike (merge_ c (From Empty)) c.
Proof. exact merge_empty. Qed.
Print Assumptions C81_merge_empty.

Theorem C81_merge_one : forall A (c : cold A), lively c -> alike (merge_seq_ [c]) c.
Proof. exact merge_one. Qed.
Print Assumptions C81_merge_one.

(** The order in which merge_seq is given the observables makes no difference, nor does merging some of them first. *)
Theorem C81_merge_order : forall A (l m : list (cold A)), Forall lively l -> Permutation l m -> alike (merge_seq_ l) (merge_seq_ m).
Proof. exact merge_order. Qed.
Print Assumptions C81_merge_order.

Theorem C81_merge_grouped : forall A (l m : list (cold A)), Forall lively l -> Forall lively m ->
  alike (merge_ (merge_seq_ l) (merge_seq_ m)) (merge_seq_ (l ++ m)).
Proof. exact merge_grouped. Qed.
Print Assumptions C81_merge_grouped.

(** With never(): the same elements, the same error if there is one, but it does not complete. *)
Theorem C81_merge_never : forall A (c : cold A), lively c -> forall l,
  makes (merge_ c (From Never)) l <-> exists vs e, outcome c vs e /\ l = trace vs (match e with Completed => Open | _ => e end).
Proof. exact merge_never. Qed.
Print Assumptions C81_merge_never.

(** With fail(x): some of the first elements and [x], unless the other one fails before. *)
Theorem C81_merge_fail : forall A (c : cold A) x, lively c -> forall l,
  makes (merge_ c (From (Worker (WFail x)))) l <->
  exists vs e, outcome c vs e /\ ((exists us, prefix us vs /\ l = trace us (Failed x)) \/ exists y, e = Failed y /\ l = trace vs e).
Proof. exact merge_fail. Qed.
Print Assumptions C81_merge_fail.

(** One after the other is one of the interleavings. *)
Theorem C81_concat_among_merges : forall A (cs : list (cold A)) vs e, Forall lively cs -> e <> Open ->
  makes (concat_seq_ cs) (trace vs e) -> makes (merge_seq_ cs) (trace vs e).
Proof. exact concat_among. Qed.
Print Assumptions C81_concat_among_merges.

(** ** flat_map *)
Theorem C81_flat_map_single : forall X A (f : X -> cold A) v, (forall x, lively (f x)) -> alike (flat_map_ f (From (Single v))) (f v).
Proof. exact flat_map_single. Qed.
Print Assumptions C81_flat_map_single.

Theorem C81_flat_map_seq : forall X A (f : X -> cold A) xs, (forall x, lively (f x)) ->
  alike (flat_map_ f (From (of_seq xs))) (merge_seq_ (map f xs)).
Proof. exact flat_map_seq. Qed.
Print Assumptions C81_flat_map_seq.

Theorem C81_flat_map_associates : forall X Y A (f : X -> cold Y) (g : Y -> cold A) c, lively c -> (forall x, lively (f x)) -> (forall y, lively (g y)) ->
  alike (flat_map_ g (flat_map_ f c)) (flat_map_ (fun x => flat_map_ g (f x)) c).
Proof. exact flat_map_associates. Qed.
Print Assumptions C81_flat_map_associates.

Theorem C81_flat_map_of_merge : forall X A (f : X -> cold A) c d, lively c -> lively d -> (forall x, lively (f x)) ->
  alike (flat_map_ f (merge_ c d)) (merge_ (flat_map_ f c) (flat_map_ f d)).
Proof. exact flat_map_merge. Qed.
Print Assumptions C81_flat_map_of_merge.

(** ** map, filter, choose of what was merged: of each observable by itself, also if the function raises. *)
Theorem C81_operator_of_merge : forall A B (g : stage A B) c d, elementwise g -> sheltered (Stage g c) -> sheltered (Stage g d) -> lively c -> lively d ->
  alike (Stage g (merge_ c d)) (merge_ (Stage g c) (Stage g d)).
Proof. intros A B g c d E _ _. now apply operator_of_merge. Qed.
Print Assumptions C81_operator_of_merge.

Theorem C81_operator_of_merge_seq : forall A B (g : stage A B) cs, elementwise g -> Forall (fun c => sheltered (Stage g c)) cs -> Forall lively cs ->
  alike (Stage g (merge_seq_ cs)) (merge_seq_ (map (Stage g) cs)).
Proof. intros A B g cs E _. now apply operator_of_merge_seq. Qed.
Print Assumptions C81_operator_of_merge_seq.

Theorem C81_operator_of_flat_map : forall X A B (g : stage A B) (f : X -> cold A) c, elementwise g -> (forall x, sheltered (Stage g (f x))) -> lively c -> (forall x, lively (f x)) ->
  alike (Stage g (flat_map_ f c)) (flat_map_ (fun x => Stage g (f x)) c).
Proof. intros X A B g f c E _. now apply operator_of_flat_map. Qed.
Print Assumptions C81_operator_of_flat_map.

(** An operator that counts does not: take(1) of a merge is one element, not one of each. *)
Theorem C81_take_of_merge_refuted : exists c d : cold nat, lively c /\ lively d /\
  ~ alike (Stage (STake nat 1) (merge_ c d)) (merge_ (Stage (STake nat 1) c) (Stage (STake nat 1) d)).
Proof.
  exists (From (Single 1)), (From (Single 2)). split; [apply lively_source|]. split; [apply lively_source|]. intros E.
  assert (L : forall v : nat, lively (From (Single v))) by (intros v; apply lively_source).
  assert (M : makes (merge_ (Stage (STake nat 1) (From (Single 1))) (Stage (STake nat 1) (From (Single 2)))) (trace [1; 2] Completed)).
  { apply C81_merge; [now apply lively_stage|now apply lively_stage|]. exists [1; 2], Completed. split; [|reflexivity]. exists [1], Completed, [2], Completed.
    split; [apply outcome_means; [exact I|]; exists [1], Completed; now split|]. split; [apply outcome_means; [exact I|]; exists [2], Completed; now split|]. repeat split. repeat constructor. }
  apply E in M. apply regular_makes in M; [|apply (lively_stage (STake nat 1)), lively_merge; apply L]. destruct M as (vs & e & (us & d & M & R) & T).
  apply trace_inj in T as [<- <-]. cbn in R. destruct us as [|u us]; cbn in R; discriminate.
Qed.
Print Assumptions C81_take_of_merge_refuted.

(** ** Examples *)

(** merge of 1, 2 and 3: the three interleavings, and nothing else. *)
Example C81_three : forall l, makes (merge_ (From (of_seq [1; 2])) (From (of_seq [3]))) l <->
  exists vs, (vs = [1; 2; 3] \/ vs = [1; 3; 2] \/ vs = [3; 1; 2]) /\ l = trace vs Completed.
Proof.
  intros l. rewrite (C81_merge (lively_source (of_seq [1; 2])) (lively_source (of_seq [3]))). split.
  - intros (vs & e & (us & d & ws & d' & Hc & Hd & H) & ->). apply (outcome_same (lively_source _)) in Hc, Hd. cbn in Hc, Hd. injection Hc as <- <-. injection Hd as <- <-.
    destruct e as [|x|].
    + destruct H as [D _]. intuition discriminate.
    + destruct H as [[D _]|[D _]]; discriminate.
    + destruct H as (_ & _ & S). exists vs. split; [|reflexivity].
      repeat match goal with K : shuffle _ _ _ |- _ => inversion K; clear K; subst end; auto.
  - intros (vs & H & ->). exists vs, Completed. split; [|reflexivity]. exists [1; 2], Completed, [3], Completed.
    split; [now apply (outcome_same (lively_source _))|]. split; [now apply (outcome_same (lively_source _))|]. repeat split. destruct H as [->|[->| ->]]; repeat constructor.
Qed.

(** A program with a flat_map of merges under a filter and a catch is regular. *)
Definition busy : cold nat :=
  Caught (Stage (SFilter (fun v => if v =? 4 then Err ValueError else Ok true))
            (flat_map_ (fun v => merge_ (From (of_seq [v; 2 * v])) (From (Single v))) (From (of_seq [1; 2; 3]))))
         (fun _ => Ok (From Empty)).
Example C81_busy : regular busy.
Proof. split; [|intros x; exact I]. apply (lively_stage (SFilter _)), lively_flat_map; [apply lively_source|]. intros v. apply lively_merge; apply lively_source. Qed.
Example C81_busy_sheltered : sheltered busy.
Proof. cbn. repeat split; auto; try (intros [|[|i]]; exact I). intros [|[|i]]; cbn; auto; destruct i; exact I. Qed.
Example C81_busy_sees : makes busy (trace [1; 2; 3; 2; 2; 3; 1] Completed).
Proof.
  apply C81_exact; [exact C81_busy_sheltered|exact C81_busy|]. exists [1; 2; 3; 2; 2; 3; 1], Completed. split; [|reflexivity].
  apply (@rec_next _ _ _ [1; 2; 3; 2; 2; 3; 1] ValueError (means (From Empty)) []); [|reflexivity|now apply rec_end].
  exists ([1; 2; 3; 2; 2; 3; 1] ++ [4; 6]), Completed. split; [|reflexivity]. apply means_flat_map; [intros v; apply lively_merge; apply lively_source|].
  exists [1; 2; 3], Completed. split; [reflexivity|]. apply merged_unit_left.
  assert (K : forall v, same (means (merge_ (From (of_seq [v; 2 * v])) (From (Single v)))) (merged (means (From (of_seq [v; 2 * v]))) (means (From (Single v))))) by (intros v; apply means_merge; apply lively_source).
  exists [1; 2; 1], Completed, [3; 2; 2; 3; 4; 6], Completed. split; [apply K; exists [1; 2], Completed, [1], Completed; repeat split; repeat constructor|]. split; [|repeat split; repeat constructor].
  exists [2; 2; 4], Completed, [3; 3; 6], Completed. split; [apply K; exists [2; 4], Completed, [2], Completed; repeat split; repeat constructor|].
  split; [|split; [reflexivity|split; [reflexivity|]]; apply sh_right, sh_left, sh_left, sh_right, sh_left, sh_right, sh_nil].
  exists [3; 3; 6], Completed, [], Completed. split; [apply K; exists [3; 6], Completed, [3], Completed; repeat split; repeat constructor|]. repeat split. repeat constructor.
Qed.
