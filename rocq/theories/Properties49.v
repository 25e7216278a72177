(** * Property C91: functions that raise, in chains of operators and behind catch, retry, delay and interval. *)
From Verif Require Import ProgramsProofs Programs5Proofs Programs6Proofs Behind BehindProofs BehindBackProofs.
Set Implicit Arguments.

(** ** Chains as they are in the code are what programs say. *)

(** Where a safe_observer calls the chain (behind sources, merge_inner, and so on: [guarded]). *)
Theorem C91_guarded : forall A C (ch : chain A C) (c : cold A) l, bounded c ->
  ((exists ms, makes c ms /\ delivers (psys well_behaved (safe (hung ch PEnd))) ms l) <-> makes (over ch c) l).
Proof. intros A C ch c l. apply hung_makes. Qed.
Print Assumptions C91_guarded.

(** Where nothing but the observer of catch, retry, delay or interval calls it, if the operators up to the
    first with a safe_observer of its own do not raise. *)
Theorem C91_direct : forall A C (ch : chain A C) (c : cold A) l, bounded c -> calm_front ch ->
  ((exists ms, makes c ms /\ delivers (psys well_behaved (hung ch PEnd)) ms l) <-> makes (over ch c) l).
Proof. intros A C ch c l. apply direct_makes. Qed.
Print Assumptions C91_direct.

(** ** A function that raises directly behind catch: the handler is asked, as if the function were in front of catch
    (and in front of what the handler answers). *)
Theorem C91_catch : forall A B (g : stage A B) c handler l, elementwise g -> guarded c ->
  (forall x c', handler x = Ok c' -> guarded c') ->
  behind_catch g c handler l ->
  makes (Caught (Stage g c) (fun x => match handler x with Ok c' => Ok (Stage g c') | Err y => Err y end)) l.
Proof. intros A B g c handler l Hg _ _. now apply behind_catch_makes. Qed.
Print Assumptions C91_catch.

(** ... behind retry: the source is subscribed once more. *)
Theorem C91_retry : forall A B (g : stage A B) n c l, elementwise g -> guarded c ->
  behind_retry g n c l -> makes (Retried n (Stage g c)) l.
Proof. intros A B g n c l Hg _. now apply behind_retry_makes. Qed.
Print Assumptions C91_retry.

(** Both say everything: whatever the program with the operator in front can do happens in some schedule of the one with the operator behind. *)
Theorem C91_catch_all : forall A B (g : stage A B) c handler l, elementwise g -> guarded c -> bounded c ->
  (forall x c', handler x = Ok c' -> guarded c' /\ bounded c') ->
  (behind_catch g c handler l <->
   makes (Caught (Stage g c) (fun x => match handler x with Ok c' => Ok (Stage g c') | Err y => Err y end)) l).
Proof.
  intros A B g c handler l Hg _ Hb Hh. split; [now apply behind_catch_makes|]. apply makes_behind_catch; [exact Hg|exact Hb|]. intros x c' E. exact (proj2 (Hh x c' E)).
Qed.
Print Assumptions C91_catch_all.

Theorem C91_retry_all : forall A B (g : stage A B) n c l, elementwise g -> guarded c -> bounded c ->
  (behind_retry g n c l <-> makes (Retried n (Stage g c)) l).
Proof. intros A B g n c l Hg _ Hb. split; [now apply behind_retry_makes|now apply makes_behind_retry]. Qed.
Print Assumptions C91_retry_all.

(** So the subscriber is not told of an error, raised there or in front. *)
Theorem C91_no_errors : forall A B (g : stage A B) n c handler l x, elementwise g -> guarded c ->
  (forall x c', handler x = Ok c' -> guarded c') ->
  behind_catch g c handler l \/ behind_retry g n c l -> ~ In (OnError x) l.
Proof.
  intros A B g n c handler l x Hg Hc Hh [H|H].
  - apply (C91_catch Hg Hc Hh) in H. exact (caught_calm (last_moment _ _ H) x).
  - apply (C91_retry Hg Hc) in H. exact (@retried_calm _ _ _ l x H).
Qed.
Print Assumptions C91_no_errors.

(** A user may expect that an exception raised behind a catch is not handled by it: *)
Definition at_two (v : nat) : res nat := if v =? 2 then Err ValueError else Ok v.
Theorem C91_catch_refuted : exists (g : stage nat nat) c handler l, elementwise g /\ guarded c /\
  (forall x c', handler x = Ok c' -> guarded c') /\
  behind_catch g c handler l /\ ~ makes (Stage g (Caught c handler)) l.
Proof.
  exists (SMap at_two), (From (of_seq [1; 2])), (fun _ => Ok (From (Single 9))), [OnNext 1; OnNext 9; OnCompleted].
  split; [exact I|]. split; [exact I|]. split; [intros x c' [= <-]; exact I|]. split.
  - set (h := [CAct 0; CAct 0; CCall 0 (OnNext 1); CCall 0 (OnNext 2); CAct 1; CAct 1; CCall 1 (OnNext 9); CCall 1 OnCompleted] : list (clabel nat)).
    exists (fun _ o => match o with None => ([1; 2], Completed) | Some _ => ([9], Completed) end), h.
    destruct (fold_left (fun r l => match r with Some s => behind_step (answers_to (fun _ => Ok (From (Single 9)))) (does (SMap at_two)) s l | None => None end) h (Some (c_init None tt))) as [s|] eqn:Er; [|vm_compute in Er; discriminate].
    exists s. split; [|split; [|split; [|split]]].
    + apply (@tail_run _ _ _ _ _ _ _ _ h [] (c_init None tt) s (br_nil _ _ _ _) Er).
    + intros i e F. repeat (destruct F as [F|F]; [discriminate|]). contradiction.
    + vm_compute in Er. injection Er as <-. reflexivity.
    + vm_compute in Er. injection Er as <-. intros k o Hk. repeat (destruct Hk as [Hk|Hk]; [try discriminate; injection Hk as <- <-|]); try contradiction.
      * split; [reflexivity|]. now apply makes_from_iff.
      * split; [reflexivity|]. now apply makes_from_iff.
    + vm_compute in Er. injection Er as <-. reflexivity.
  - intros M. apply (makes_means (Stage (SMap at_two) (Caught (From (of_seq [1; 2])) (fun _ => Ok (From (Single 9))))) (conj I (fun _ => I))) in M as (vs & e & (us & d & Hm & Hr) & E).
    change (recovered (fun _ : exn => Some (means (From (Single 9)))) (means (From (of_seq [1; 2]))) us d) in Hm.
    inversion Hm as [Q ws d' Hs He E1 E2 E3|Q ws y Q' ws' d' Hs|Q ws y Hs]; subst; cbn in Hs; injection Hs; intros; subst; try discriminate.
    cbn in Hr. injection Hr as <- <-. discriminate.
Qed.
Print Assumptions C91_catch_refuted.

(** ... or that retry passes every element on once: here the element 1 has come twice, and the error never comes. *)
Theorem C91_retry_refuted : exists (g : stage nat nat) c h s, elementwise g /\ guarded c /\
  makes c [OnNext 1; OnNext 2; OnCompleted] /\
  tail_reach retry_factory ROrig (does g) 5%Z h s /\ no_failures h /\
  (forall k, In (ESub k ROrig) (c_log s) -> calls_of k h = until_raise (does g) [OnNext 1; OnNext 2; OnCompleted]) /\
  requests (c_log s) = [OnNext 1; OnNext 1].
Proof.
  set (h := [CAct 0; CAct 0; CCall 0 (OnNext 1); CCall 0 (OnNext 2); CAct 1; CAct 1; CCall 1 (OnNext 1); CCall 1 (OnNext 2)] : list (clabel nat)).
  destruct (fold_left (fun r l => match r with Some s => behind_step retry_factory (does (SMap at_two)) s l | None => None end) h (Some (c_init ROrig 5%Z))) as [s|] eqn:Er; [|vm_compute in Er; discriminate].
  exists (SMap at_two), (From (of_seq [1; 2])), h, s. split; [exact I|]. split; [exact I|]. split; [now apply makes_from_iff|]. split; [|split; [|split]].
  - exact (@tail_run _ _ _ _ _ _ _ _ h [] _ s (br_nil _ _ _ _) Er).
  - intros i e F. repeat (destruct F as [F|F]; [discriminate|]). contradiction.
  - vm_compute in Er. injection Er as <-. intros k Hk. repeat (destruct Hk as [Hk|Hk]; [try discriminate; injection Hk as <-; reflexivity|]). contradiction.
  - vm_compute in Er. injection Er as <-. reflexivity.
Qed.
Print Assumptions C91_retry_refuted.

(** ** ... directly behind delay: the worker of delay ends with the exception.  Nothing comes after
    the element at which the function raises: no element, and no ending. *)
Theorem C91_delay : forall A B (g : stage A B) d t0 h s vs e a x, elementwise g ->
  delay_reach (does g) d t0 h s -> prefix (map fst (TimeSpec.arrivals t0 h)) (trace vs e) ->
  In (OnNext a) (map fst (x_log s)) -> does g a = Err x ->
  (exists us, map fst (x_log s) = map OnNext (us ++ [a]) /\ forall u, In u us -> exists o, does g u = Ok o) /\
  forall n, In n (told (does g) (map fst (x_log s))) -> exists b, n = OnNext b.
Proof.
  intros A B g d t0 h s vs e a x _ R P Ha Ex. destruct (@delay_silent _ _ _ _ _ _ _ _ _ _ _ R P Ha Ex) as (us & E & F). split; [now exists us|].
  intros n Hn. rewrite E in Hn. exact (@told_elements _ _ _ _ _ Hn).
Qed.
Print Assumptions C91_delay.

(** ... directly behind interval and timer: the same. *)
Theorem C91_interval : forall B (g : stage nat B) seconds period t0 h s i x, elementwise g ->
  interval_reach (does g) seconds period t0 h s -> In (OnNext i) (map fst (v_log s)) -> does g i = Err x ->
  map fst (v_log s) = map OnNext (seq 0 (S i)) /\ (forall j, j < i -> exists o, does g j = Ok o) /\
  forall n, In n (told (does g) (map fst (v_log s))) -> exists b, n = OnNext b.
Proof.
  intros B g seconds period t0 h s i x _ R Hi Ex. destruct (@interval_silent _ _ _ _ _ _ _ _ _ R Hi Ex) as (E & F). split; [exact E|]. split; [exact F|].
  intros n Hn. rewrite E in Hn. exact (@told_elements _ _ _ _ _ Hn).
Qed.
Print Assumptions C91_interval.

(** ... and that is the only way in which something gets lost: without disposal, a worker of delay that has nothing left to do has passed on everything, or has
    come to an element at which the function raises.  An exception ends the task of interval only there. *)
Theorem C91_delay_lost : forall A B (g : stage A B) d t0 h s, elementwise g -> delay_reach (does g) d t0 h s -> ~ In XCancel h ->
  xwork s = None -> x_calling s = None -> (forall n u, x_phase s <> XSleep n u) ->
  map fst (x_log s) = map fst (TimeSpec.arrivals t0 h) \/ exists us a x, map fst (x_log s) = us ++ [OnNext a] /\ does g a = Err x.
Proof. intros A B g d t0 h s _. apply delay_lost. Qed.
Print Assumptions C91_delay_lost.
Theorem C91_interval_dead : forall B (g : stage nat B) seconds period t0 h s, elementwise g -> interval_reach (does g) seconds period t0 h s ->
  v_phase s = IDead -> exists us i x, map fst (v_log s) = us ++ [OnNext i] /\ does g i = Err x.
Proof. intros B g seconds period t0 h s _ R. exact (proj2 (interval_dead R)). Qed.
Print Assumptions C91_interval_dead.

(** ** Examples *)

(** map(f).filter(p).take(1) of a list, as in the code: map raises at 2, but take has completed before. *)
Example C91_chain : let ch := CCons (SMap at_two) (CCons (SFilter (fun v => Ok (v =? 1))) (CCons (STake nat 1) CNil)) in
  exists l, makes (From (of_seq [1; 2])) l /\ delivers (psys well_behaved (safe (hung ch PEnd))) l [OnNext 1; OnCompleted].
Proof.
  intros ch. destruct (proj2 (C91_guarded ch (From (of_seq [1; 2])) [OnNext 1; OnCompleted] I)) as (ms & M & D).
  - apply over_makes; [exact I|]. exists [1; 2], Completed. split; [now apply makes_from_iff|reflexivity].
  - now exists ms.
Qed.
(** scan and take behind a catch: nothing in front of take can raise, so it is as the program says, whatever map does behind take. *)
Example C91_calm : calm_front (CCons (SScan Nat.add 0) (CCons (STake nat 2) (CCons (SMap at_two) CNil))).
Proof. cbn. auto. Qed.

(** delay(3) of 1, 2, 4, with a map that raises at 2: the subscriber gets 1, and the worker is dead. *)
Example C91_delay_run : let h := [XArr (OnNext 1); XWork; XArr (OnNext 2); XArr (OnNext 4); XTick 3%Z; XWork; XReturn; XWork; XRaise ValueError; XArr OnCompleted; XTick 9%Z] in
  exists s, delay_reach (does (SMap at_two)) 3%Z 0%Z h s /\
  map fst (TimeSpec.arrivals 0%Z h) = trace [1; 2; 4] Completed /\ map fst (x_log s) = [OnNext 1; OnNext 2] /\
  told (does (SMap at_two)) (map fst (x_log s)) = [OnNext 1] /\ x_phase s = XDead.
Proof.
  intros h. eexists. split; [apply (@delay_run _ _ _ _ _ h [] _ _ (dr_nil _ _ _))|].
  - subst h. vm_compute. repeat split; eauto.
  - repeat split.
Qed.
(** interval(1, 1), with a map that raises at 2: the subscriber gets 0 and 1. *)
Example C91_interval_run : let h := [XWork; XTick 1%Z; XWork; XReturn; XTick 1%Z; XWork; XReturn; XTick 1%Z; XWork; XRaise ValueError; XTick 9%Z] in
  exists s, interval_reach (does (SMap at_two)) 1%Z 1%Z 0%Z h s /\
  map fst (v_log s) = [OnNext 0; OnNext 1; OnNext 2] /\ told (does (SMap at_two)) (map fst (v_log s)) = [OnNext 0; OnNext 1] /\ v_phase s = IDead.
Proof.
  intros h. eexists. split; [apply (@interval_run _ _ _ _ _ h [] _ _ (ird_nil _ _ _ _))|].
  - subst h. vm_compute. repeat split; eauto.
  - repeat split.
Qed.
