(** * Property C87: disposing programs. *)
From Verif Require Import Properties9 ColdProofs ColdCatchProofs LawsProofs Programs TimedProofs ProgramsProofs Programs2 Programs2Proofs Programs3 Programs3Proofs Programs4Proofs Programs5Proofs Programs6 Programs6Proofs Programs7 Programs7Proofs.
Set Implicit Arguments.

(** Whenever the subscription is disposed, the calls the subscriber has got follow the grammar, before and after. *)
Theorem C87_grammar : forall A (c : cold A) l, cut c l -> grammatical l.
Proof. intros A c l. apply cut_grammatical. Qed.
Print Assumptions C87_grammar.

(** Disposing shows nothing new: what the subscriber has seen then, it could have seen without disposing. *)
Theorem C87_nothing_new : forall A (c : cold A) l, sheltered c -> undisturbed c -> cut c l -> exists r, so_far c (l ++ r).
Proof. intros A c l _ Hu Hl. destruct (cut_so_far c Hu l Hl) as (m & Hm & [r ->]). now exists r. Qed.
Print Assumptions C87_nothing_new.
(** It has seen the beginning of one of the outcomes; *)
Theorem C87_moment : forall A (c : cold A) l, sheltered c -> undisturbed c -> steady c -> cut c l -> exists vs e, outcome c vs e /\ prefix l (trace vs e).
Proof.
  intros A c l _ Hu Hs Hl. destruct (cut_so_far c Hu l Hl) as (m & Hm & P). destruct (continues c Hs m Hm) as (vs & e & M & P'). exists vs, e. split; [exact M|exact (prefix_trans P P')].
Qed.
Print Assumptions C87_moment.
(** so programs that are alike are alike when disposed; *)
Theorem C87_alike : forall A (c d : cold A) l, sheltered c -> undisturbed c -> steady c -> alike c d -> cut c l -> exists r, makes d (l ++ r).
Proof. intros A c d l Hh Hu Hs E Hl. destruct (@C87_moment A c l Hh Hu Hs Hl) as (vs & e & M & [r P]). exists r. rewrite <- P. now apply E. Qed.
Print Assumptions C87_alike.
(** in particular it is told nothing about an end that has not come; *)
Theorem C87_no_completion : forall A (c : cold A) l, sheltered c -> undisturbed c -> steady c -> cut c l -> In OnCompleted l -> makes c l /\ exists vs, l = trace vs Completed.
Proof.
  intros A c l Hh Hu Hs Hl F. destruct (@C87_moment A c l Hh Hu Hs Hl) as (vs & e & M & P). destruct (@C87_grammar A c l Hl) as (us & d & ->).
  assert (Ed : d = Completed).
  { unfold trace in F. apply in_app_or in F as [F|F]; [apply in_map_iff in F as (? & ? & _); discriminate|]. destruct d; cbn in F; [contradiction|destruct F as [F|[]]; discriminate|reflexivity]. }
  subst d. apply prefix_trace in P as [_ [P|[<- <-]]]; [discriminate|]. split; [exact M|now exists us].
Qed.
Print Assumptions C87_no_completion.
(** and errors stay caught. *)
Theorem C87_no_errors : forall A (c : cold A) handler n l x, cut (Caught c handler) l \/ cut (Retried n c) l -> ~ In (OnError x) l.
Proof. intros A c handler n l x [Hl|Hl]; [exact (@caught_cut_calm _ _ _ _ Hl x)|exact (@retried_cut_calm _ _ _ _ Hl x)]. Qed.
Print Assumptions C87_no_errors.

Theorem C87_undisposed : forall A (c : cold A) l, so_far c l -> cut c l.
Proof. intros A c l. apply so_far_cut. Qed.
Print Assumptions C87_undisposed.

Lemma sums (us : list nat) n : fold_res (fun a v => Ok (a + v)) n us = Ok (fold_left Nat.add us n).
Proof. revert n. induction us as [|u us IH]; intros n; [reflexivity|exact (IH _)]. Qed.

(** ** The exceptions: what tells its observer that it has completed, because it is disposed *)

(** from_async: reduce ends without the element. *)
Theorem C87_from_async_refuted : let c := Stage (SReduce (fun a v => Ok (a + v)) 0) (From (of_async (Some (Ok 5)))) in
  steady c /\ (forall l, makes c l <-> l = [OnNext 5; OnCompleted]) /\ cut c [OnCompleted].
Proof.
  cbn zeta. split; [exact I|]. split.
  - intros l. rewrite makes_means by exact I. split; [intros (vs & e & (us & d & Ms & E) & ->)|intros ->].
    + cbn in Ms. injection Ms as <- <-. cbn in E. now injection E as <- <-.
    + exists [5], Completed. split; [exists [5], Completed; now split|reflexivity].
  - exists [OnCompleted]. split; [|apply delivers_sees, (stage_delivers _ [] Completed); reflexivity].
    assert (R : src_reach well_behaved (of_async (Some (Ok 5))) PEnd [TStart; TCancel] _)
      by exact (Source.sr_snoc (h := [TStart]) TCancel (Source.sr_snoc (h := []) TStart (Source.sr_nil well_behaved (of_async (Some (Ok 5))) PEnd) eq_refl) eq_refl).
    destruct (@C41_of_async_dispose_completes _ _ well_behaved (Some (Ok 5)) PEnd [TStart] [] _ [OnCompleted] R) as (_ & ks & s' & R' & _ & E').
    + now left.
    + intros [F|[]]; discriminate.
    + intros [F|[]]; discriminate.
    + apply (delivers_iff (sane_psys _ _)), subscriber. reflexivity.
    + eexists _, s'. split; [exact R'|exact E'].
Qed.
Print Assumptions C87_from_async_refuted.

(** debounce: reduce shows the sum so far as if it were the sum. *)
Theorem C87_debounce_refuted : let c := Stage (SReduce (fun a v => Ok (a + v)) 0) (Shifted (Debounce 1) (From (of_iterable [1] (Some ValueError)))) in
  steady c /\ (forall l, makes c l -> l = []) /\ cut c [OnNext 1; OnCompleted].
Proof.
  cbn zeta. split; [exact I|]. split.
  - intros l M. apply sound in M as (vs & e & (us & d & Ms & E) & ->); [|exact I]. destruct Ms as (xs & Ms & S). cbn in Ms. injection Ms as <- <-. cbn in E.
    rewrite sums in E. now injection E as <- <-.
  - exists [OnNext 1; OnCompleted]. split; [|apply delivers_sees, (stage_delivers _ [1] Completed); reflexivity].
    exists [OnNext 1]. split; [apply so_far_cut, last_moment; now apply makes_from|].
    set (h := [DArr (OnNext 1); DWork; DTick 1; DTimer 0; DWork; DCancel; DWork]).
    destruct (fold_left (fun r l => match r with Some s => dstep 1 s l | None => None end) h (Some (d_init 0))) as [s|] eqn:Er; [|vm_compute in Er; discriminate].
    exists 0%Z, h, s. split; [exact (@dreach_run nat 1 0 h [] (d_init 0) s (dr_nil _ _) Er)|]. split; [reflexivity|].
    vm_compute in Er. injection Er as <-. apply delivers_sees, (delivers_iff (sane_psys _ _)), subscriber. reflexivity.
Qed.
Print Assumptions C87_debounce_refuted.

(** switch_latest: the same, and without disposing it does not complete at all. *)
Theorem C87_switch_latest_refuted : let c := Stage (SReduce (fun a v => Ok (a + v)) 0) (Switched (From (Single tt)) (fun _ => From (of_seq [1]))) in
  steady c /\ (forall l, makes c l -> l = []) /\ cut c [OnNext 1; OnCompleted].
Proof.
  cbn zeta. split; [split; [exact I|intros x; exact I]|]. split.
  - intros l (ms & Mc & D). destruct (outcomes (c := Switched (From (Single tt)) (fun _ => From (of_seq [1]))) (conj I (fun x => I)) Mc) as (us & d & O & ->).
    apply stage_delivers in D. subst l. cbn. rewrite sums. destruct d as [|x|]; [reflexivity| |].
    + exfalso. refine (switched_reliable (lively_source _) (fun x => lively_source _) _ _ x O _); [apply reliable_source; discriminate|intros y; apply reliable_source; discriminate|].
      apply in_or_app. right. now left.
    + exfalso. apply switched_completes in O as [_ O]; [|apply lively_source|intros x; apply lively_source]. apply makes_from_iff in O. discriminate.
  - exists [OnNext 1; OnCompleted]. split; [|apply delivers_sees, (stage_delivers _ [1] Completed); reflexivity].
    set (h := [LOuter (OnNext (tt, 0)); LWork; LWork; LInner 1 (OnNext 1); LCancel; LInner 1 OnCompleted; LWork; LWork; LWork] : list (mlabel (unit * nat) nat)).
    destruct (fold_left (fun r l => match r with Some s => sstep s l | None => None end) h (Some s_init)) as [s|] eqn:Er; [|vm_compute in Er; discriminate].
    exists [OnNext tt; OnCompleted], h, s. split; [apply so_far_cut, last_moment; now apply makes_from|]. split; [exact (@sreach_fold _ _ h [] s_init s sr_nil Er)|].
    vm_compute in Er. injection Er as <-.
    split; [intros e F; repeat (destruct F as [F|F]; [discriminate|]); contradiction|]. split; [now eexists|]. split.
    + intros k x i Hk. exists [OnNext 1; OnCompleted]. split; [apply so_far_cut, last_moment; now apply makes_from|].
      destruct Hk as [Hk|Hk]; [injection Hk as <- <- <-; now exists []|]. repeat (destruct Hk as [Hk|Hk]; [discriminate|]); contradiction.
    + apply delivers_sees, (delivers_iff (sane_psys _ _)), subscriber. reflexivity.
Qed.
Print Assumptions C87_switch_latest_refuted.

(** ** Examples *)

(** merge of of_seq [1; 2] and single 3, disposed in the middle; 3 comes between the disposal and its effect. *)
Example C87_merge_disposed : let c := merge_seq_ [From (of_seq [1; 2]); From (Single 3)] in
  undisturbed c /\ steady c /\ cut c [OnNext 1; OnNext 3].
Proof.
  cbn zeta. split; [split; [exact I|]; intros [|[|[|i]]]; exact I|]. split; [split; [lia|]; split; [exact I|]; intros [|[|[|i]]]; exact I|].
  set (h := [LOuter (OnNext (0, 0)); LWork; LWork; LOuter (OnNext (1, 1)); LWork; LWork; LInner 0 (OnNext 1); LCancel; LWork; LInner 1 (OnNext 3); LWork; LWork] : list (mlabel (nat * nat) nat)).
  destruct (fold_left (fun r l => match r with Some s => mstep 0 s l | None => None end) h (Some m_init)) as [s|] eqn:Er; [|vm_compute in Er; discriminate].
  exists [OnNext 0; OnNext 1; OnCompleted], h, s. pose proof (@mreach_run _ _ 0 h [] m_init s (mr_nil _) Er) as R. vm_compute in Er. injection Er as <-.
  assert (P : forall k o, In (ESub k o) [@ESub (nat * nat) nat 0 (0, 0); ESub 1 (1, 1); EReq (OnNext 1); EReq (OnNext 3); EDispose 0; EDispose 1] -> k = 0 /\ o = (0, 0) \/ k = 1 /\ o = (1, 1)).
  { intros k o [Hk|[Hk|Hk]]; [injection Hk as <- <-; now left|injection Hk as <- <-; now right|repeat (destruct Hk as [Hk|Hk]; [discriminate|]); contradiction]. }
  split; [apply C87_undisposed, last_moment; now apply makes_from_iff|]. split; [exact R|].
  split; [intros e F; repeat (destruct F as [F|F]; [discriminate|]); contradiction|]. split; [now eexists|]. split.
  - intros k x i Hk. destruct (P k (x, i) Hk) as [[-> [= -> ->]]|[-> [= -> ->]]].
    + exists [OnNext 1; OnNext 2; OnCompleted]. split; [apply C87_undisposed, last_moment; now apply makes_from_iff|now eexists].
    + exists [OnNext 3; OnCompleted]. split; [apply C87_undisposed, last_moment; now apply makes_from_iff|now eexists].
  - apply delivers_sees, (delivers_iff (sane_psys _ _)), subscriber. reflexivity.
Qed.
(** The timer disposed before it fires: the subscriber sees nothing, and that is a beginning of 0, completed. *)
Example C87_timer_disposed : undisturbed (Timer 3) /\ steady (Timer 3) /\ cut (Timer 3) [].
Proof.
  split; [exact I|]. split; [exact I|]. eexists 0%Z, ((([] ++ [XWork]) ++ [XCancel]) ++ [XTick 5]), _. split; [|split].
  - eapply ir_snoc; [eapply ir_snoc; [eapply ir_snoc; [constructor|reflexivity]|reflexivity]|reflexivity].
  - intros x F. repeat (destruct F as [F|F]; [discriminate|]); contradiction.
  - reflexivity.
Qed.
