(** * Property C88: interval in programs. *)
From Verif Require Import Properties9 ColdProofs ColdCatchProofs LawsProofs Programs TimedProofs ProgramsProofs Programs2 Programs2Proofs Programs3 Programs3Proofs Programs4Proofs Programs5Proofs Programs6 Programs6Proofs Programs7 Programs7Proofs AsyncIter Programs8Proofs.
Set Implicit Arguments.

(** ** What it is *)

(** interval with a period counts up from 0 and does not end, whatever the period. *)
Theorem C88_interval : forall seconds period l, period <> 0%Z ->
  (makes (Ticking seconds period) l <-> exists n, l = map OnNext (seq 0 n)).
Proof.
  intros seconds period l Hp. rewrite (ticks_make seconds l Hp). unfold trace. split; intros (n & ->); exists n; [apply app_nil_r|symmetry; apply app_nil_r].
Qed.
Print Assumptions C88_interval.
Theorem C88_alike : forall seconds period seconds' period', period <> 0%Z -> period' <> 0%Z -> alike (Ticking seconds period) (Ticking seconds' period').
Proof. exact ticks_alike. Qed.
Print Assumptions C88_alike.
Theorem C88_lively : forall seconds period, lively (Ticking seconds period) /\ reliable (Ticking seconds period).
Proof. intros seconds period. split; [apply lively_ticks|apply ticks_reliable]. Qed.
Print Assumptions C88_lively.

(** ** With operators *)

(** Any operator makes of it what it makes of the first n numbers without an end. *)
Theorem C88_operator : forall B (g : stage nat B) seconds period l, calm g -> period <> 0%Z ->
  (makes (Stage g (Ticking seconds period)) l <-> exists n vs e, result_of g (seq 0 n) Open = (vs, e) /\ l = trace vs e).
Proof. intros B g seconds period l _. apply ticks_stage. Qed.
Print Assumptions C88_operator.

(** take(n): 0 .. n-1 and completion; or it has not got so far. *)
Theorem C88_take : forall seconds period n l, period <> 0%Z -> 0 < n ->
  (makes (Stage (STake nat n) (Ticking seconds period)) l <->
   l = trace (seq 0 n) Completed \/ exists k, k < n /\ l = map OnNext (seq 0 k)).
Proof.
  intros seconds period n l Hp Hn. rewrite (ticks_take seconds l Hp Hn). unfold trace at 2. setoid_rewrite app_nil_r. reflexivity.
Qed.
Print Assumptions C88_take.
(** At any moment of any run, also if it is disposed, a beginning of that. *)
Theorem C88_take_moment : forall seconds period n l, period <> 0%Z -> 0 < n ->
  cut (Stage (STake nat n) (Ticking seconds period)) l -> prefix l (trace (seq 0 n) Completed).
Proof.
  intros seconds period n l Hp Hn Hl. destruct (cut_so_far (Stage (STake nat n) (Ticking seconds period)) I l Hl) as (m & Hm & P).
  destruct (continues (Stage (STake nat n) (Ticking seconds period)) I m Hm) as (vs & e & M & P'). refine (prefix_trans P (prefix_trans P' _)).
  apply (ticks_take seconds _ Hp Hn) in M as [->|(k & Hk & ->)]; [apply prefix_refl|apply trace_ticks_prefix; lia].
Qed.
Print Assumptions C88_take_moment.

(** zip_seq(ys): the elements of ys at the pace of the interval; it completes
    when the interval ticks once more. *)
Theorem C88_zip_seq : forall B (it : iterator B) ys seconds period l, period <> 0%Z -> iterates it ys Completed ->
  (makes (Stage (SZip nat it) (Ticking seconds period)) l <->
   l = trace (combine (seq 0 (length ys)) ys) Completed \/ exists k, k <= length ys /\ l = map OnNext (combine (seq 0 k) (firstn k ys))).
Proof.
  intros B it ys seconds period l Hp Hi. rewrite (ticks_zip seconds l Hp Hi). unfold trace at 2. setoid_rewrite app_nil_r. reflexivity.
Qed.
Print Assumptions C88_zip_seq.

(** ** With other observables *)

(** take_until(timer): some of the first numbers, and completion. *)
Theorem C88_timeout : forall seconds period due l, period <> 0%Z ->
  (makes (take_until_of (Ticking seconds period) (Timer due)) l <-> exists n, l = trace (seq 0 n) Completed).
Proof. exact ticks_timeout. Qed.
Print Assumptions C88_timeout.

(** What is behind it in concat never comes. *)
Theorem C88_concat : forall seconds period cs, period <> 0%Z -> Forall lively cs ->
  alike (concat_seq_ (Ticking seconds period :: cs)) (Ticking seconds period).
Proof. exact ticks_concat. Qed.
Print Assumptions C88_concat.

(** merge: all elements of the other one among the numbers; it ends only with the error of the other one. *)
Theorem C88_merge : forall seconds period c l, period <> 0%Z -> lively c ->
  (makes (merge_ c (Ticking seconds period)) l <->
   exists us d n vs, outcome c us d /\ shuffle us (seq 0 n) vs /\ l = trace vs (match d with Failed x => Failed x | _ => Open end)).
Proof. exact ticks_merge. Qed.
Print Assumptions C88_merge.

(** concat_map (polling): the observables for 0, 1, ..., one after the other, up
    to the first that does not complete. *)
Theorem C88_concat_map : forall A seconds period (f : nat -> cold A) l, period <> 0%Z -> (forall i, lively (f i)) ->
  (makes (concat_map_ f (Ticking seconds period)) l <->
   exists n vs e, in_turn (fun i => outcome (f i)) Open (seq 0 n) vs e /\ l = trace vs e).
Proof. exact ticks_concat_map. Qed.
Print Assumptions C88_concat_map.

(** catch and retry do nothing to it. *)
Theorem C88_catch : forall seconds period handler, alike (Caught (Ticking seconds period) handler) (Ticking seconds period).
Proof. exact ticks_caught. Qed.
Print Assumptions C88_catch.
Theorem C88_retry : forall seconds period n, alike (Retried n (Ticking seconds period)) (Ticking seconds period).
Proof. intros seconds period n. apply retried_reliable; [exact I|apply ticks_reliable]. Qed.
Print Assumptions C88_retry.

(** ** Examples *)

Example C88_take_case : makes (Stage (STake nat 3) (Ticking 1 2)) [OnNext 0; OnNext 1; OnNext 2; OnCompleted].
Proof. apply C88_take; [discriminate|lia|now left]. Qed.
Example C88_zip_case : let it := fun i => match nth_error [7; 8] i with Some v => Item v | None => IStop end in
  iterates it [7; 8] Completed /\ makes (Stage (SZip nat it) (Ticking 1 2)) [OnNext (0, 7); OnNext (1, 8); OnCompleted].
Proof.
  cbn zeta. assert (H : iterates (fun i => match nth_error [7; 8] i with Some v => Item v | None => IStop end) [7; 8] Completed).
  { split; [|now left]. intros [|[|i]] L; [now exists 7|now exists 8|cbn in L; lia]. }
  split; [exact H|]. apply (C88_zip_seq 1 (period := 2) _ ltac:(discriminate) H). now left.
Qed.
(** A program that polls every 2 seconds, with a timeout. *)
Example C88_poll : makes (take_until_of (concat_map_ (fun i => From (of_seq [i; i])) (Ticking 0 2)) (Timer 5)) [OnNext 0; OnNext 0; OnNext 1; OnCompleted].
Proof.
  assert (Lf : forall i : nat, lively (From (of_seq [i; i]))) by (intros i; apply lively_source).
  assert (M : makes (concat_map_ (fun i => From (of_seq [i; i])) (Ticking 0 2)) (trace [0; 0; 1; 1] Open)).
  { apply C88_concat_map; [discriminate|exact Lf|]. exists 2, [0; 0; 1; 1], Open. split; [|reflexivity]. cbn.
    apply (@turn_next nat nat (fun i => outcome (From (of_seq [i; i]))) Open 0 [1] [0; 0] [1; 1] Open); [now apply outcome_means|].
    apply (@turn_next nat nat (fun i => outcome (From (of_seq [i; i]))) Open 1 [] [1; 1] [] Open); [now apply outcome_means|constructor]. }
  apply timeout; [split; [|exact (ex_intro _ _ M)]|exists [0; 0; 1; 1], Open; split; [exact M|right; exists [0; 0; 1]; split; [now exists [1]|reflexivity]]].
  split; [right; split; [reflexivity|]|]; [|split; [exact I|intros x; exact I]].
  intros m x Hm. apply (named_alike (lively_ticks 0 2)) in Hm. exact (ticks_reliable 0 2 _ x Hm).
Qed.
