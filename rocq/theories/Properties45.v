(** * Property C86: programs at any moment. *)
From Verif Require Import Properties9 ColdProofs ColdCatchProofs LawsProofs Programs TimedProofs ProgramsProofs Programs2 Programs2Proofs Programs3 Programs3Proofs Programs4Proofs Programs5Proofs Programs6 Programs6Proofs.
Set Implicit Arguments.

(** At any moment of any run, the calls the subscriber has got follow the grammar. *)
Theorem C86_grammar : forall A (c : cold A) l, so_far c l -> grammatical l.
Proof. intros A c l. apply seen_grammatical. Qed.
Print Assumptions C86_grammar.

(** At any moment of any run, the subscriber has seen the beginning of one of the outcomes. *)
Theorem C86_moment : forall A (c : cold A) l, sheltered c -> steady c -> so_far c l -> exists vs e, outcome c vs e /\ prefix l (trace vs e).
Proof. intros A c l _ Hs Hl. exact (continues c Hs l Hl). Qed.
Print Assumptions C86_moment.
(** The end of a run is one of its moments. *)
Theorem C86_end : forall A (c : cold A) l, makes c l -> so_far c l.
Proof. intros A c l. exact (@last_moment A c l). Qed.
Print Assumptions C86_end.
(** Every program has a first moment, and a steady one comes to an end. *)
Theorem C86_starts : forall A (c : cold A), exists l, so_far c l.
Proof. exact starts. Qed.
Print Assumptions C86_starts.
Theorem C86_productive : forall A (c : cold A), sheltered c -> steady c -> productive c.
Proof. intros A c _. exact (@steady_productive A c). Qed.
Print Assumptions C86_productive.

(** ** Consequences *)

(** Programs that are alike when they have come to their ends are alike at any
    moment: what the one has shown so far, a run of the other also begins with. *)
Theorem C86_alike : forall A (c d : cold A) l, sheltered c -> steady c -> alike c d -> so_far c l -> exists r, makes d (l ++ r).
Proof. intros A c d l _ Hs E Hl. destruct (continues c Hs l Hl) as (vs & e & M & [r P]). exists r. rewrite <- P. now apply E. Qed.
Print Assumptions C86_alike.

(** If nothing in it runs at the same time as something else, moments differ only in how far they are. *)
Theorem C86_determined : forall A (c : cold A) l l', sheltered c -> one_at_a_time c -> steady c -> so_far c l -> so_far c l' -> prefix l l' \/ prefix l' l.
Proof.
  intros A c l l' _ Ho Hs Hl Hl'. destruct (continues c Hs l Hl) as (vs & e & M & P), (continues c Hs l' Hl') as (vs' & e' & M' & P').
  apply (makes_means c Ho) in M as (us & d & M & E), M' as (us' & d' & M' & E'). destruct (determined c Ho _ _ _ _ M M') as [-> ->]. rewrite <- E in E'. rewrite E' in P'.
  destruct P as [r P], P' as [r' P']. rewrite P in P'. clear -P'. revert l' P'.
  induction l as [|x l IH]; intros l' P'; [left; now exists l'|]. destruct l' as [|y l']; [right; now eexists|].
  cbn in P'. injection P' as <- P'. destruct (IH l' P') as [[q ->]|[q ->]]; [left|right]; now exists q.
Qed.
Print Assumptions C86_determined.

(** What shows no error in the end shows none before. *)
Theorem C86_reliable : forall A (c : cold A) l x, sheltered c -> steady c -> reliable c -> so_far c l -> ~ In (OnError x) l.
Proof.
  intros A c l x _ Hs R Hl F. destruct (continues c Hs l Hl) as (vs & e & M & [r P]). apply (R _ x M). rewrite P. apply in_or_app. now left.
Qed.
Print Assumptions C86_reliable.

(** ** catch and retry, whether they come to an end or not *)

Theorem C86_catch_no_errors : forall A (c : cold A) handler l x, so_far (Caught c handler) l -> ~ In (OnError x) l.
Proof. intros A c handler l x Hl. exact (@caught_calm _ _ _ _ Hl x). Qed.
Print Assumptions C86_catch_no_errors.
Theorem C86_retry_no_errors : forall A n (c : cold A) l x, so_far (Retried n c) l -> ~ In (OnError x) l.
Proof. intros A n c l x Hl. exact (@retried_so_calm _ _ _ _ Hl x). Qed.
Print Assumptions C86_retry_no_errors.

Theorem C86_catch : forall A (c : cold A) handler l, steady c -> (forall x, match handler x with Ok c' => steady c' | Err _ => True end) ->
  so_far (Caught c handler) l -> recovering (fun x => match handler x with Ok c' => Some (outcome c') | Err _ => None end) (outcome c) l.
Proof. exact caught_recovering. Qed.
Print Assumptions C86_catch.

(** retry: at any moment a beginning of an attempt; or, unless n = 0, one that failed and a beginning of a second.  There is no third. *)
Theorem C86_retry : forall A n (c : cold A) l, steady c -> so_far (Retried n c) l ->
  exists us d, outcome c us d /\
    (prefix l (trace us d) \/ n <> 0%Z /\ exists x ws e l', d = Failed x /\ outcome c ws e /\ l = map OnNext us ++ l' /\ prefix l' (trace ws e)).
Proof. intros A n c l Hs Hl. exact (proj2 (retried_recovering Hs Hl)). Qed.
Print Assumptions C86_retry.

(** Without [steady] there need not be an outcome: retry of something that fails. *)
Theorem C86_unsteady_refuted : exists (c : cold nat) l, bounded c /\ so_far c l /\ ~ exists vs e, outcome c vs e /\ prefix l (trace vs e).
Proof.
  set (c := Retried 3 (From (Worker (@WFail nat ValueError)))). destruct (starts c) as [l Hl]. exists c, l. split; [exact I|]. split; [exact Hl|].
  intros (vs & e & M & _). assert (N : ~ productive c); [|apply N; now exists (trace vs e)].
  apply retried_hopeless. intros us d O. apply outcome_means in O; [|exact I]. injection O as <- <-. now exists ValueError.
Qed.
Print Assumptions C86_unsteady_refuted.

(** ** Examples *)

(** merge of of_seq [1; 2] and single 3, in the middle: 1 and 3 have come. *)
Example C86_merge_moment : let c := merge_seq_ [From (of_seq [1; 2]); From (Single 3)] in
  steady c /\ so_far c [OnNext 1; OnNext 3].
Proof.
  cbn zeta. split; [split; [lia|]; split; [exact I|]; intros [|[|[|i]]]; exact I|].
  set (h := [LOuter (OnNext (0, 0)); LWork; LWork; LOuter (OnNext (1, 1)); LWork; LWork; LInner 0 (OnNext 1); LInner 1 (OnNext 3)] : list (mlabel (nat * nat) nat)).
  destruct (fold_left (fun r l => match r with Some s => mstep 0 s l | None => None end) h (Some m_init)) as [s|] eqn:Er; [|vm_compute in Er; discriminate].
  exists [OnNext 0; OnNext 1; OnCompleted], h, s. pose proof (@mreach_run _ _ 0 h [] m_init s (mr_nil _) Er) as R. vm_compute in Er. injection Er as <-.
  assert (P : forall k o, In (ESub k o) [@ESub (nat * nat) nat 0 (0, 0); ESub 1 (1, 1); EReq (OnNext 1); EReq (OnNext 3)] -> k = 0 /\ o = (0, 0) \/ k = 1 /\ o = (1, 1)).
  { intros k o [Hk|[Hk|Hk]]; [injection Hk as <- <-; now left|injection Hk as <- <-; now right|repeat (destruct Hk as [Hk|Hk]; [discriminate|]); contradiction]. }
  split; [apply C86_end; now apply makes_from_iff|]. split; [exact R|].
  split; [intros F; repeat (destruct F as [F|F]; [discriminate|]); contradiction|].
  split; [intros e F; repeat (destruct F as [F|F]; [discriminate|]); contradiction|]. split; [now eexists|]. split.
  - intros k x i Hk. destruct (P k (x, i) Hk) as [[-> [= -> ->]]|[-> [= -> ->]]].
    + exists [OnNext 1; OnNext 2; OnCompleted]. split; [apply C86_end; now apply makes_from_iff|now eexists].
    + exists [OnNext 3; OnCompleted]. split; [apply C86_end; now apply makes_from_iff|now eexists].
  - apply delivers_sees, (delivers_iff (sane_psys _ _)), subscriber. reflexivity.
Qed.
(** So one of its outcomes begins with 1, 3. *)
Example C86_merge_outcome : exists vs e, outcome (merge_seq_ [From (of_seq [1; 2]); From (Single 3)]) vs e /\ prefix [OnNext 1; OnNext 3] (trace vs e).
Proof. apply C86_moment; [|apply C86_merge_moment|apply C86_merge_moment]. split; [exact I|]. intros [|[|[|i]]]; exact I. Qed.

(** A steady program with a catch, a retry, a delay and a timer in it; it does not run one thing at a time. *)
Example C86_steady : let c := take_until_of (Shifted (Delay 5) (Caught (Stage (SMap (fun v => if v =? 2 then Err ValueError else Ok v)) (From (of_seq [1; 2]))) (fun _ => Ok (Retried 3 (From (Single 9)))))) (Timer 3) in
  sheltered c /\ steady c /\ productive c /\ exists l, so_far c l.
Proof.
  cbn zeta. match goal with |- sheltered ?c /\ _ => assert (H : sheltered c) by (cbn; auto 10); assert (S : steady c) end.
  { split; [|exact I]. split; [exact I|]. intros x. split; [|intros l y M; exact (@retried_calm _ _ _ l y M)]. split; [exact I|]. apply reliable_source. discriminate. }
  split; [exact H|]. split; [exact S|]. split; [exact (C86_productive _ H S)|apply C86_starts].
Qed.

