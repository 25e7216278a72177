(** * Property C83: switch_latest and flat_map_latest in programs. *)
From Verif Require Import Properties9 Programs ProgramsProofs Programs2 Programs2Proofs Programs3 Programs3Proofs Programs4Proofs.
Set Implicit Arguments.

(** ** What they are: exactly these outcomes *)

(** [Switched c f] is switch_latest of the observables that [c] names.  All of
    them are subscribed; of each a beginning is heard, in any interleaving (a
    disposed one may still go on: C30), of the last one everything.  It ends with the
    first error that is heard; it completes only if there is no observable at all. *)
Theorem C83_switch_latest : forall X A (c : cold X) (f : X -> cold A), lively c -> (forall x, lively (f x)) -> forall l,
  makes (Switched c f) l <->
  exists xs oe vs e, outcome c xs oe /\ switched (fun x => outcome (f x)) oe xs vs e /\ l = trace vs e.
Proof. exact switched_is. Qed.
Print Assumptions C83_switch_latest.

(** flat_map_latest is switch_latest of the observables that the mapper answers with. *)
Theorem C83_flat_map_latest : forall X A (f : X -> cold A) c, lively c -> (forall x, lively (f x)) -> forall l,
  makes (flat_map_latest_ f c) l <->
  exists xs oe vs e, outcome c xs oe /\ switched (fun x => outcome (f x)) oe xs vs e /\ l = trace vs e.
Proof. intros X A f c Hc Hf l. rewrite (latest_switched f Hc l). now apply switched_is. Qed.
Print Assumptions C83_flat_map_latest.

Theorem C83_flat_map_latest_async : forall X A (f : X -> cold A) c, lively c ->
  alike (flat_map_latest_async_ f c) (flat_map_latest_ f c).
Proof. intros X A f c Hc l. now rewrite (latest_async_switched f Hc l), (latest_switched f Hc l). Qed.
Print Assumptions C83_flat_map_latest_async.

Theorem C83_lively : forall X A (f : X -> cold A) c, lively c -> (forall x, lively (f x)) -> lively (Switched c f) /\ lively (flat_map_latest_ f c).
Proof. intros X A f c Hc Hf. split; [now apply lively_switched|now apply lively_latest]. Qed.
Print Assumptions C83_lively.

Theorem C83_replace : forall X A (f g : X -> cold A) c d, alike c d -> (forall x, alike (f x) (g x)) ->
  alike (Switched c f) (Switched d g) /\ alike (flat_map_latest_ f c) (flat_map_latest_ g d).
Proof. intros X A f g c d Hc Hf. split; apply switched_alike; auto. now apply alike_stage. Qed.
Print Assumptions C83_replace.

(** ** When it ends *)

(** It completes only if the source names no observable. *)
Theorem C83_completes : forall X A (f : X -> cold A) c vs, lively c -> (forall x, lively (f x)) ->
  (outcome (flat_map_latest_ f c) vs Completed <-> vs = [] /\ outcome c [] Completed).
Proof. intros X A f c vs Hc Hf. rewrite <- (switched_completes f vs Hc Hf). apply latest_switched, Hc. Qed.
Print Assumptions C83_completes.

(** If nothing in it fails, it does not fail. *)
Theorem C83_reliable : forall X A (f : X -> cold A) c, lively c -> (forall x, lively (f x)) ->
  reliable c -> (forall x, reliable (f x)) -> reliable (flat_map_latest_ f c).
Proof. intros X A f c Hc Hf Rc Rf l z M. apply (latest_switched f Hc) in M. exact (switched_reliable Hc Hf Rc Rf z M). Qed.
Print Assumptions C83_reliable.

(** ** Special sources *)
Theorem C83_empty : forall X A (f : X -> cold A), (forall x, lively (f x)) -> alike (flat_map_latest_ f (From Empty)) (From Empty).
Proof. intros X A f Hf l. rewrite (latest_switched f (lively_source _) l). now apply switched_ended. Qed.
Print Assumptions C83_empty.

Theorem C83_never : forall X A (f : X -> cold A), (forall x, lively (f x)) -> alike (flat_map_latest_ f (From Never)) (From Never).
Proof. intros X A f Hf l. rewrite (latest_switched f (lively_source _) l). now apply switched_ended. Qed.
Print Assumptions C83_never.

Theorem C83_fail : forall X A (f : X -> cold A) e, (forall x, lively (f x)) -> alike (flat_map_latest_ f (From (Worker (WFail e)))) (From (Worker (WFail e))).
Proof. intros X A f e Hf l. rewrite (latest_switched f (lively_source _) l). now apply switched_ended. Qed.
Print Assumptions C83_fail.

(** With one element it is the observable of that, but without the completion. *)
Theorem C83_single : forall X A (f : X -> cold A) v, (forall x, lively (f x)) ->
  alike (flat_map_latest_ f (From (Single v))) (concat_seq_ [f v; From Never]).
Proof. exact latest_single. Qed.
Print Assumptions C83_single.

(** So the left identity, which concat_map and flat_map have (C80, C81), fails. *)
Theorem C83_left_identity_refuted : exists (f : nat -> cold nat) v, (forall x, lively (f x)) /\
  ~ alike (flat_map_latest_ f (From (Single v))) (f v).
Proof.
  exists (fun x => From (Single x)), 1. assert (Hf : forall x : nat, lively (From (Single x))) by (intros; apply lively_source). split; [exact Hf|].
  intros E. assert (O : outcome (From (Single 1)) [1] Completed) by (apply outcome_means; [exact I|reflexivity]).
  apply E in O. apply (C83_completes (fun x => From (Single x)) [1] (lively_source _) Hf) in O as [O _]. discriminate.
Qed.
Print Assumptions C83_left_identity_refuted.

(** ** Compared with other operators *)

(** For a list of observables: the merge of all, each but the last cut off at some time, the last without its completion. *)
Theorem C83_cuts : forall X A (f : X -> cold A) xs x, (forall y, lively (f y)) ->
  alike (flat_map_latest_ f (From (of_seq (xs ++ [x]))))
        (merge_seq_ (map (fun y => take_until_of (f y) (From (Single tt))) xs ++ [concat_seq_ [f x; From Never]])).
Proof. exact switched_cuts. Qed.
Print Assumptions C83_cuts.

(** What it makes is a beginning of something that flat_map makes. *)
Theorem C83_within_flat_map : forall X A (f : X -> cold A) c vs e, lively c -> (forall x, lively (f x)) ->
  outcome (flat_map_latest_ f c) vs e -> exists ws d, outcome (flat_map_ f c) ws d /\ prefix vs ws.
Proof. intros X A f c vs e Hc Hf O. apply (latest_switched f Hc) in O. exact (switched_within Hc Hf O). Qed.
Print Assumptions C83_within_flat_map.

(** map, filter, choose: behind it or behind each observable. *)
Theorem C83_operator_of_latest : forall X A B (g : stage A B) (f : X -> cold A) c, elementwise g -> (forall x, sheltered (Stage g (f x))) -> lively c -> (forall x, lively (f x)) ->
  alike (Stage g (flat_map_latest_ f c)) (flat_map_latest_ (fun x => Stage g (f x)) c).
Proof.
  intros X A B g f c Hg _ Hc Hf l. rewrite (alike_stage g (latest_switched f Hc) l), (latest_switched _ Hc l). now apply operator_of_switched.
Qed.
Print Assumptions C83_operator_of_latest.

(** ** Examples *)

(** flat_map_latest(lambda x: from_iterable([10*x, 10*x+1]))(merge(from_iterable([1]), single(2))) under a map. *)
Definition tens (x : nat) : cold nat := From (of_seq [10 * x; 10 * x + 1]).
Definition latest : cold nat := Stage (SMap (fun v => Ok (v + 1))) (flat_map_latest_ tens (merge_ (From (of_seq [1])) (From (Single 2)))).
Example C83_latest_lively : lively latest.
Proof.
  apply lively_stage. apply C83_lively; [apply lively_merge; apply lively_source|intros x; apply lively_source].
Qed.
(** It may make [11; 21; 22], without an end. *)
Example C83_latest_outcome : outcome latest [11; 21; 22] Open.
Proof.
  assert (L : lively (merge_ (From (of_seq [1])) (From (Single 2)))) by (apply lively_merge; apply lively_source).
  assert (Lt : forall x, lively (tens x)) by (intros; apply lively_source).
  exists (trace [10; 20; 21] Open). split; [|apply stage_delivers; reflexivity].
  apply (C83_flat_map_latest tens L Lt). exists [1; 2], Completed, [10; 20; 21], Open.
  split; [|split; [|reflexivity]].
  - apply merge_is; [apply lively_source|apply lively_source|]. exists [1; 2], Completed. split; [|reflexivity].
    exists [1], Completed, [2], Completed. split; [apply outcome_means; [exact I|reflexivity]|]. split; [apply outcome_means; [exact I|reflexivity]|]. repeat split. repeat constructor.
  - exists [([10; 11], Completed); ([20; 21], Completed)], [[10]; [20; 21]].
    split; [repeat constructor; apply outcome_means; [exact I|reflexivity|exact I|reflexivity]|].
    split; [constructor; [now exists [11]|constructor; [now exists []|constructor]]|].
    split; [exists [(0, 10); (1, 20); (1, 21)]; split; [reflexivity|]; split; [intros p [<-|[<-|[<-|[]]]]; cbn; lia|intros [|[|k]] p E; try (destruct k); try discriminate; injection E as <-; reflexivity]|].
    split; [discriminate|]. split; [discriminate|]. intros [|[|k]] c0 Lk E; try discriminate. injection E as <-. split; [reflexivity|discriminate].
Qed.
(** The cut and merged form of a list of two. *)
Example C83_cuts_example : alike (flat_map_latest_ tens (From (of_seq [1; 2])))
  (merge_seq_ [take_until_of (tens 1) (From (Single tt)); concat_seq_ [tens 2; From Never]]).
Proof. apply (C83_cuts tens [1] 2). intros x. apply lively_source. Qed.
