(** * Proofs about further operators in programs. *)
From Verif Require Import Ops2Proofs Ops3Proofs TraceProofs ProgramsProofs.
From Verif Require Export Variants BehindProofs SliceProofs LawsProofs MulticastProofs Programs5Proofs.
Set Implicit Arguments.

(** ** Chains that may be exchanged *)
Lemma acts_chain A C (ch : chain A C) : acts (fun Z => hung ch (Z := Z)) (chain_result ch).
Proof.
  intros Z pol r vs e junk l. rewrite <- (chain_acts ch pol r vs e l).
  apply safe_norm_eq. now rewrite norm_trace, norm_trace0.
Qed.

Lemma exchange A C (ch ch' : chain A C) c : interchangeable (fun Z => hung ch (Z := Z)) (fun Z => hung ch' (Z := Z)) -> bounded c ->
  alike (over ch c) (over ch' c).
Proof.
  intros H Hc l. rewrite <- (hung_makes ch c l Hc), <- (hung_makes ch' c l Hc).
  split; intros (ms & M & D); exists ms; (split; [exact M|]); now apply (H _ well_behaved PEnd ms l).
Qed.

Lemma exchange_only A C (ch ch' : chain A C) : (forall vs e, alike (over ch (only vs e)) (over ch' (only vs e))) ->
  interchangeable (fun Z => hung ch (Z := Z)) (fun Z => hung ch' (Z := Z)).
Proof.
  intros H. refine (acts_same (acts_chain ch) (acts_chain ch') _). intros vs e.
  assert (M : makes (over ch (only vs e)) (trace (fst (chain_result ch vs e)) (snd (chain_result ch vs e)))) by now apply only_makes.
  apply (H vs e), only_makes, trace_inj in M as [E1 E2]. now apply injective_projections.
Qed.

Lemma exchange_stage A B (g g' : stage A B) : (forall vs e, result_of g vs e = result_of g' vs e) -> forall c, alike (Stage g c) (Stage g' c).
Proof.
  intros E c. assert (I : interchangeable (fun Z => op_of g (Z := Z)) (fun Z => op_of g' (Z := Z))) by exact (acts_same (stage_acts g) (stage_acts g') E).
  intros l. cbn. split; intros (ms & M & D); exists ms; (split; [exact M|]); now apply (I _ well_behaved PEnd ms l).
Qed.

(** ** slice *)
Lemma slice_chain_is Z0 A (isn : A -> bool) start stop step :
  match slice_chain isn start stop step with
  | Ok ch => exists opr, slice_ (Z0 := Z0) isn start stop step = Ok opr /\ forall r, opr r = hung ch r
  | Err x => slice_ (Z0 := Z0) isn start stop step = Err x
  end.
Proof.
  unfold slice_chain, slice_, take_. set (from := match start with Some i => i | None => 0%Z end).
  assert (T : forall n (r : pipe Z0 A), (n <? 0)%Z = false -> taking (Z.of_nat (Z.to_nat n)) r = pre (take_op n) (safe r)).
  { intros n r Hn. apply Z.ltb_ge in Hn. unfold taking, take_. rewrite Z2Nat.id by exact Hn. destruct (Z.ltb_spec n 0); [lia|reflexivity]. }
  destruct stop as [j|]; [destruct (0 <? j)%Z; [destruct (j - from <? 0)%Z eqn:Ej; [reflexivity|]|]|];
    destruct (Z.ltb_spec 1 step), (Z.ltb_spec step 0); try lia; try reflexivity;
    (eexists; split; [reflexivity|]); intros r; destruct start as [i|]; try destruct (i <? 0)%Z; cbn [hung op_of]; rewrite ?T by exact Ej; reflexivity.
Qed.

Lemma slice_chain_result A (isn : A -> bool) start stop step ch vs e : slice_chain isn start stop step = Ok ch ->
  trace (fst (chain_result ch vs e)) (snd (chain_result ch vs e)) = tr (slice_s isn start stop step (vs, e)).
Proof.
  intros Hc. pose proof (slice_chain_is A isn start stop step) as H. rewrite Hc in H. destruct H as (opr & Ho & Hr).
  pose proof (slice_any_stage well_behaved isn start stop step PEnd vs e [] (tr (slice_s isn start stop step (vs, e))) Ho) as K.
  rewrite Hr in K. rewrite <- source_calls_nil in K. rewrite (chain_acts ch well_behaved PEnd vs e) in K. rewrite !subscriber, !norm_trace0 in K.
  symmetry. apply K. unfold tr. now rewrite norm_trace0.
Qed.

Lemma slice_outcome A (isn : A -> bool) start stop step ch (c : cold A) : slice_chain isn start stop step = Ok ch ->
  (1 <= step)%Z -> stop <> Some 0%Z -> (match start, stop with Some i, Some j => ~ (i < 0 < j)%Z | _, _ => True end) ->
  (forall v, isn v = false) -> bounded c -> forall l,
  makes (over ch c) l <-> exists vs e, outcome c vs e /\ l = trace (slice_shown start stop step vs e) (slice_ending start stop (length vs) e).
Proof.
  intros Hc Hst H0 Hneg Hn Hb l. rewrite (over_makes ch c Hb l).
  assert (He : slice_error start stop step = None).
  { pose proof (slice_refuses A isn start stop step) as Hr. pose proof (slice_chain_is A isn start stop step) as H. rewrite Hc in H. destruct H as (opr & Ho & _).
    rewrite Ho in Hr. destruct (slice_error start stop step); [discriminate|reflexivity]. }
  split; intros (vs & e & M & E); exists vs, e; (split; [exact M|]); rewrite E, (slice_chain_result isn start stop step vs e Hc), slice_any; auto.
Qed.

Lemma item_outcome A (isn : A -> bool) k ch vs : item_chain isn k = Ok ch -> (forall v, isn v = false) ->
  trace (fst (chain_result ch vs Completed)) (snd (chain_result ch vs Completed)) = trace (at_index k vs) Completed.
Proof.
  intros Hc Hn. unfold item_chain in Hc. pose proof (slice_chain_is A isn (Some k) (Some (k + 1)%Z) 1) as H. rewrite Hc in H. destruct H as (opr & Ho & Hr).
  pose proof (slice_stage well_behaved isn (Some k) (Some (k + 1)%Z) 1 PEnd vs [] (trace (at_index k vs) Completed) Ho) as K.
  rewrite Hr in K. rewrite <- source_calls_nil in K. rewrite (chain_acts ch well_behaved PEnd vs Completed) in K. rewrite !subscriber, !norm_trace0 in K.
  symmetry. apply K. now rewrite (getitem_out isn k vs).
Qed.

Lemma item_makes A (isn : A -> bool) k ch (c : cold A) : item_chain isn k = Ok ch -> (forall v, isn v = false) -> bounded c ->
  (forall vs e, outcome c vs e -> e = Completed) -> forall l,
  makes (over ch c) l <-> exists vs, outcome c vs Completed /\ l = trace (at_index k vs) Completed.
Proof.
  intros Hc Hn Hb He l. rewrite (over_makes ch c Hb l). split.
  - intros (vs & e & M & ->). assert (e = Completed) as -> by exact (He _ _ M). exists vs. split; [exact M|]. now apply (item_outcome isn k).
  - intros (vs & M & ->). exists vs, Completed. split; [exact M|]. symmetry. now apply (item_outcome isn k).
Qed.

Lemma chain_from A (isn : A -> bool) n : (0 <= n)%Z -> slice_chain isn (Some n) None 1 = Ok (CCons (SSkip A n) CNil).
Proof. intros Hn. unfold slice_chain. destruct (Z.ltb_spec n 0); [lia|reflexivity]. Qed.
Lemma chain_upto A (isn : A -> bool) n : (0 < n)%Z -> slice_chain isn None (Some n) 1 = Ok (CCons (STake A (Z.to_nat n)) CNil).
Proof. intros Hn. unfold slice_chain. rewrite Z.sub_0_r. destruct (Z.ltb_spec 0 n), (Z.ltb_spec n 0); try lia. reflexivity. Qed.

Lemma skip_twice A m n (c : cold A) : (0 <= m)%Z -> (0 <= n)%Z -> alike (Stage (SSkip A n) (Stage (SSkip A m) c)) (Stage (SSkip A (m + n)) c).
Proof.
  intros Hm Hn.
  assert (I : interchangeable (fun Z => hung (CCons (SSkip A m) (CCons (SSkip A n) CNil)) (Z := Z)) (fun Z => hung (CCons (SSkip A (m + n)) CNil) (Z := Z))).
  { refine (acts_same (acts_chain _) (acts_chain _) _). intros vs e. cbn. rewrite skipn_skipn. do 2 f_equal. lia. }
  intros l. cbn [makes op_of]. split.
  - intros (ms & (ms' & M & D) & D'). exists ms'. split; [exact M|]. apply (I _ well_behaved PEnd ms' l). cbn [hung op_of].
    destruct (source_calls_any ms') as (vs & e & junk & ->). apply (delivers_iff (sane_psys _ _)) in D. apply (delivers_iff (sane_psys _ _)) in D'. apply (delivers_iff (sane_psys _ _)).
    pose proof (proj1 (@acts_skip A m _ well_behaved PEnd vs e junk ms) D) as D1. rewrite subscriber, norm_trace0 in D1. cbn [fst snd] in D1. subst ms.
    apply (@acts_skip A m _ well_behaved (skip_ n PEnd) vs e junk l). exact D'.
  - intros (ms & M & D). destruct (source_calls_any ms) as (vs & e & junk & ->). exists (trace (skipn (Z.to_nat m) vs) e). split.
    + exists (source_calls vs e junk). split; [exact M|]. apply (delivers_iff (sane_psys _ _)). apply (@acts_skip A m _ well_behaved PEnd vs e junk).
      now rewrite subscriber, norm_trace0.
    + apply (I _ well_behaved PEnd (source_calls vs e junk) l) in D. cbn [hung op_of] in D. apply (delivers_iff (sane_psys _ _)) in D. apply (delivers_iff (sane_psys _ _)).
      exact (proj1 (@acts_skip A m _ well_behaved (skip_ n PEnd) vs e junk l) D).
Qed.

Lemma split_means A (c : cold A) n k vs e : one_at_a_time c -> 0 < n -> Z.to_nat k = n ->
  means (concat_seq_ [Stage (STake A n) c; Stage (SSkip A k) c]) vs e <-> means c vs e.
Proof.
  intros Hc Hn Hk. rewrite means_concat_seq. destruct n as [|n]; [lia|]. split.
  - intros T. inversion T as [|x r us ws e' M T'|x r us e' M Ne]; subst; clear T.
    + destruct M as (zs & d & M & E). cbn [result_of] in E. destruct (S n <=? length zs) eqn:L.
      * assert (us = firstn (S n) zs) as -> by congruence. inversion T' as [|x r us' ws' e' M' T''|x r us' e' M' Ne]; subst; clear T'.
        -- inversion T''; subst. destruct M' as (zs' & d' & M' & E'). cbn [result_of] in E'. apply pair_equal_spec in E' as [<- ->].
           destruct (determined c Hc _ _ _ _ M M') as [-> ->]. rewrite app_nil_r, Hk, firstn_skipn. exact M.
        -- destruct M' as (zs' & d' & M' & E'). cbn [result_of] in E'. apply pair_equal_spec in E' as [<- ->].
           destruct (determined c Hc _ _ _ _ M M') as [-> ->]. rewrite Hk, firstn_skipn. exact M.
      * injection E as -> ->. apply Nat.leb_gt in L.
        inversion T' as [|x r us' ws' e' M' T''|x r us' e' M' Ne]; subst; clear T'.
        -- inversion T''; subst. destruct M' as (zs' & d' & M' & E'). cbn [result_of] in E'. apply pair_equal_spec in E' as [<- ->].
           destruct (determined c Hc _ _ _ _ M M') as [-> _]. rewrite skipn_all2 by lia. rewrite !app_nil_r. exact M.
        -- destruct M' as (zs' & d' & M' & E'). cbn [result_of] in E'. apply pair_equal_spec in E' as [<- ->].
           destruct (determined c Hc _ _ _ _ M M') as [-> ->]. now elim Ne.
    + destruct M as (zs & d & M & E). cbn [result_of] in E. destruct (S n <=? length zs); apply pair_equal_spec in E as [<- <-]; [now elim Ne|exact M].
  - intros M. destruct (S n <=? length vs) eqn:L.
    + rewrite <- (firstn_skipn (S n) vs). apply turn_next.
      * exists vs, e. split; [exact M|]. cbn [result_of]. now rewrite L.
      * assert (M' : means (Stage (SSkip A (k)) c) (skipn (S n) vs) e) by (exists vs, e; split; [exact M|]; cbn [result_of]; now rewrite Hk).
        destruct e as [|x|]; [apply turn_last; [exact M'|discriminate]|apply turn_last; [exact M'|discriminate]|].
        rewrite <- (app_nil_r (skipn (S n) vs)). eapply turn_next; [exact M'|constructor].
    + assert (M' : means (Stage (STake A (S n)) c) vs e) by (exists vs, e; split; [exact M|]; cbn [result_of]; now rewrite L).
      destruct e as [|x|]; [apply turn_last; [exact M'|discriminate]|apply turn_last; [exact M'|discriminate]|].
      rewrite <- (app_nil_r vs). eapply turn_next; [exact M'|]. change (@nil A) with ([] ++ @nil A). eapply turn_next; [|constructor].
      exists vs, Completed. split; [exact M|]. cbn [result_of]. rewrite Hk. apply Nat.leb_gt in L. now rewrite skipn_all2 by lia.
Qed.

(** ** starmap and starfilter *)
Lemma results_total A B (f : A -> B) vs : results (fun a => Ok (f a)) vs = (map f vs, None).
Proof. induction vs as [|v vs IH]; [reflexivity|]. cbn. now rewrite IH. Qed.
Lemma results_filter A (p : A -> bool) vs : somes (fst (results (keep (fun a => Ok (p a))) vs)) = filter p vs /\ snd (results (keep (fun a => Ok (p a))) vs) = None.
Proof.
  induction vs as [|v vs [IH1 IH2]]; [split; reflexivity|]. cbn [results filter]. unfold keep at 1 3. destruct (results (keep (fun a => Ok (p a))) vs) as [bs x].
  cbn [fst snd] in *. subst x. destruct (p v); cbn; rewrite IH1; split; reflexivity.
Qed.
Lemma starmap_makes A B C (f : A -> B -> C) (c : cold (A * B)) l : bounded c -> (makes (Stage (SStarmap (fun a b => Ok (f a b))) c) l <->
  exists vs e, outcome c vs e /\ l = trace (map (fun ab => f (fst ab) (snd ab)) vs) e).
Proof.
  intros Hb. rewrite (over_makes (CCons (SStarmap (fun a b => Ok (f a b))) CNil) c Hb l).
  assert (E : forall vs e, chain_result (CCons (SStarmap (fun a b => Ok (f a b))) CNil) vs e = (map (fun ab => f (fst ab) (snd ab)) vs, e))
    by (intros vs e; cbn; now rewrite (results_total (fun ab => f (fst ab) (snd ab)))).
  split; intros (vs & e & M & L); exists vs, e; (split; [exact M|]); rewrite E in *; exact L.
Qed.
Lemma starfilter_makes A B (p : A -> B -> bool) (c : cold (A * B)) l : bounded c -> (makes (Stage (SStarfilter (fun a b => Ok (p a b))) c) l <->
  exists vs e, outcome c vs e /\ l = trace (filter (fun ab => p (fst ab) (snd ab)) vs) e).
Proof.
  intros Hb. rewrite (over_makes (CCons (SStarfilter (fun a b => Ok (p a b))) CNil) c Hb l).
  assert (E : forall vs e, chain_result (CCons (SStarfilter (fun a b => Ok (p a b))) CNil) vs e = (filter (fun ab => p (fst ab) (snd ab)) vs, e)).
  { intros vs e. destruct (results_filter (fun ab => p (fst ab) (snd ab)) vs) as [E1 E2]. cbn.
    destruct (results (keep (fun ab : A * B => Ok (p (fst ab) (snd ab)))) vs) as [bs x]. cbn [fst snd] in *. subst x. now rewrite <- E1. }
  split; intros (vs & e & M & L); exists vs, e; (split; [exact M|]); rewrite E in *; exact L.
Qed.
