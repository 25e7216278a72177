(** * Proofs about programs of cold observables. *)
From Verif Require Import Properties9 ColdProofs ColdCatchProofs ColdSwitchProofs SwitchAnyProofs LawsProofs Programs PairProofs TimedProofs.
From Verif Require Export TraceProofs.
Set Implicit Arguments.

(** ** Induction over expressions *)
Section Ind.
  Variable P : forall A, cold A -> Prop.
  Hypothesis Hf : forall A (s : source A), P (From s).
  Hypothesis Hs : forall A B (g : stage A B) c, P c -> P (Stage g c).
  Hypothesis Hi : forall X A maxc (c : cold X) (inner : X -> cold A), P c -> (forall x, P (inner x)) -> P (Inner maxc c inner).
  Hypothesis Hc : forall A (c : cold A) handler, P c -> (forall x, match handler x with Ok c' => P c' | Err _ => True end) -> P (Caught c handler).
  Hypothesis Hp : forall A B C (k : pairing A B C) c d, P c -> P d -> P (Pair k c d).
  Hypothesis Hw : forall X A (c : cold X) (inner : X -> cold A), P c -> (forall x, P (inner x)) -> P (Switched c inner).
  Hypothesis Ht : forall A k (c : cold A), P c -> P (Shifted k c).
  Hypothesis Hd : forall sec per, P (Ticking sec per).
  Hypothesis Hr : forall A n (c : cold A), P c -> P (Retried n c).
  Hypothesis Hg : forall A (Q : list A -> ending -> Prop), P (Given Q).
  Fixpoint cold_induct A (c : cold A) {struct c} : P c.
  Proof.
    destruct c as [A s|A B g c|X A maxc c inner|A c handler|A B C k c d|X A c inner|A k c|sec per|A n c|A Q].
    - exact (Hf s).
    - exact (Hs g (cold_induct _ c)).
    - exact (Hi maxc inner (cold_induct _ c) (fun x => cold_induct _ (inner x))).
    - refine (Hc handler (cold_induct _ c) _). intros x. destruct (handler x) as [c'|y]; [exact (cold_induct _ c')|exact I].
    - exact (Hp k (cold_induct _ c) (cold_induct _ d)).
    - exact (Hw inner (cold_induct _ c) (fun x => cold_induct _ (inner x))).
    - exact (Ht k (cold_induct _ c)).
    - exact (Hd sec per).
    - exact (Hr n (cold_induct _ c)).
    - exact (Hg Q).
  Defined.
End Ind.

Lemma trace_inj A (vs ws : list A) e d : trace vs e = trace ws d -> vs = ws /\ e = d.
Proof.
  unfold trace. revert ws. induction vs as [|v vs IH]; intros [|w ws] E; cbn in E.
  - destruct e, d; try discriminate; split; congruence.
  - destruct e; discriminate.
  - destruct d; discriminate.
  - injection E as -> E. destruct (IH _ E) as [-> ->]. now split.
Qed.

(** ** Sources *)
Lemma source_trace A (s : source A) : source_delivers well_behaved s PEnd (trace (fst (source_means s)) (snd (source_means s))).
Proof.
  revert s. fix IH 1. intros [[xs [e|]|e|[[v|e]|]]|v| | |[s|e]]; cbn [source_means fst snd].
  - apply C39_raising_iterator.
  - apply C39_of_seq.
  - apply C40_fail.
  - apply C40_of_async_result.
  - apply C40_of_async_raises.
  - apply C40_of_async_cancelled.
  - apply C40_single.
  - apply C40_empty.
  - apply C40_never.
  - apply (proj1 (C40_defer well_behaved PEnd s _)), IH.
  - apply C40_defer_raises.
Qed.

Lemma makes_from A (s : source A) l : makes (From s) l <-> l = trace (fst (source_means s)) (snd (source_means s)).
Proof.
  destruct (source_trace s) as (S1 & S2 & _). cbn. split.
  - intros (h & st & R & N & D & <-). exact (S2 h st R N D).
  - intros ->. destruct S1 as (h & st & R & N & D). exists h, st. exact (conj R (conj N (conj D (S2 h st R N D)))).
Qed.

(** ** Operators *)
Lemma stage_acts A B (g : stage A B) : acts (op_of g) (result_of g).
Proof.
  destruct g as [A B f|A B f|A B f|A p|A p|A B f|A n|A n|A n|A i n|A q|A B f b|A B f b|A B it|A B f|A p|A B f]; cbn [op_of result_of].
  - intros Z pol r vs e junk l. rewrite (acts_map f pol). unfold F_map. now destruct (results f vs).
  - intros Z pol r vs e junk l. rewrite (acts_map_async f pol). unfold F_map. now destruct (results f vs).
  - intros Z pol r vs e junk l. rewrite (acts_mapi f pol). unfold F_map. now destruct (results _ (indexed 0 vs)).
  - intros Z pol r vs e junk l. rewrite (acts_filter p pol). unfold F_choose. now destruct (results (keep p) vs).
  - intros Z pol r vs e junk l. rewrite (acts_filteri p pol). unfold F_choose. now destruct (results _ (indexed 0 vs)).
  - intros Z pol r vs e junk l. rewrite (acts_choose f pol). unfold F_choose. now destruct (results f vs).
  - intros Z pol r vs e junk l. rewrite (acts_take (Zle_0_nat n) pol). unfold F_take. destruct n as [|n]; [reflexivity|].
    replace (0 <? Z.of_nat (S n))%Z with true by (symmetry; apply Z.ltb_lt; lia).
    replace (Z.of_nat (S n) =? 0)%Z with false by (symmetry; apply Z.eqb_neq; lia).
    rewrite Nat2Z.id. cbn [andb]. destruct (S n <=? length vs) eqn:E.
    + apply Nat.leb_le in E. replace (Z.of_nat (S n) <=? Z.of_nat (length vs))%Z with true by (symmetry; apply Z.leb_le; lia). reflexivity.
    + apply Nat.leb_gt in E. replace (Z.of_nat (S n) <=? Z.of_nat (length vs))%Z with false by (symmetry; apply Z.leb_gt; lia). reflexivity.
  - apply acts_take_last.
  - apply acts_skip.
  - apply acts_skip_last.
  - apply acts_distinct.
  - apply acts_scan.
  - apply acts_reduce.
  - apply acts_zip.
  - intros Z pol r vs e junk l. rewrite (acts_mapi_async f pol). unfold F_map. now destruct (results _ (indexed 0 vs)).
  - intros Z pol r vs e junk l. rewrite (acts_filter_async p pol). unfold F_choose. now destruct (results (keep p) vs).
  - intros Z pol r vs e junk l. rewrite (acts_choose_async f pol). unfold F_choose. now destruct (results f vs).
Qed.

Lemma stage_delivers A B (g : stage A B) vs e l :
  delivers (psys well_behaved (safe (op_of g PEnd))) (trace vs e) l <-> l = trace (fst (result_of g vs e)) (snd (result_of g vs e)).
Proof.
  rewrite (delivers_iff (sane_psys _ _)). rewrite (source_calls_nil vs e), (stage_acts g well_behaved PEnd vs e []), subscriber, norm_trace0. split; congruence.
Qed.

(** ** Numbering *)
Lemma placed_trace X (xs : list X) e : forall i, placed i (trace xs e) = trace (indexed i xs) e.
Proof.
  unfold trace. induction xs as [|x xs IH]; intros i; cbn; [now destruct e|]. now rewrite IH.
Qed.
Lemma indexed_fst X (xs : list X) : forall i, map fst (indexed i xs) = xs.
Proof. induction xs as [|x xs IH]; intros i; cbn; [reflexivity|]. now rewrite IH. Qed.

(** ** merge_inner, with any endings *)
Section Merge.
  Context {O A : Type} (maxc : Z).
  Implicit Types (h : list (mlabel O A)) (s : mstate O A).

  Lemma step_requests s l s' : mstep maxc s l = Some s' ->
    exists d, requests (m_log s') = requests (m_log s) ++ d /\ (d = [OnCompleted] \/ d = produced [l]).
  Proof.
    intros Hs.
    assert (Hw : forall es, m_log s' = m_log s ++ es -> (requests es = [OnCompleted] \/ requests es = produced [l]) ->
      exists d, requests (m_log s') = requests (m_log s) ++ d /\ (d = [OnCompleted] \/ d = produced [l])).
    { intros es -> E. exists (requests es). split; [|exact E]. unfold requests. now rewrite flat_map_app. }
    destruct l as [[o|e|]|k n| | |e]; cbn [mstep] in Hs.
    - injection Hs as <-. apply (Hw []); [cbn; now rewrite app_nil_r|now right].
    - injection Hs as <-. apply (Hw [EReq (OnError e)]); [reflexivity|now right].
    - injection Hs as <-. apply (Hw []); [cbn; now rewrite app_nil_r|now right].
    - destruct (begun k s); [|discriminate]. injection Hs as <-. destruct n as [a|e|].
      + apply (Hw [EReq (OnNext a)]); [reflexivity|now right].
      + apply (Hw [EReq (OnError e)]); [reflexivity|now right].
      + apply (Hw []); [cbn; now rewrite app_nil_r|now right].
    - injection Hs as <-. apply (Hw []); [cbn; now rewrite app_nil_r|now right].
    - enough (X : exists es, m_log s' = m_log s ++ es /\ (requests es = [OnCompleted] \/ requests es = []))
        by (destruct X as (es & E & F); exact (Hw es E F)).
      clear Hw. unfold work in Hs. destruct (m_phase s) as [|subs q|[|k r]| |] eqn:P; try discriminate.
      + destruct (m_box s) as [|m r] eqn:Bx; [discriminate|]. injection Hs as <-.
        destruct m as [o|k| |]; cbn.
        * destruct (room maxc _); cbn; [exists [ESub (m_key s) o]|exists []]; cbn; rewrite ?app_nil_r; auto.
        * destruct (m_queue s) as [|o q]; cbn.
          -- destruct (remove_key k (m_subs s)); cbn; [destruct (m_stopped s); cbn; [exists [EReq OnCompleted]|exists []]|exists []]; cbn; rewrite ?app_nil_r; auto.
          -- exists [ESub (m_key s) o]; auto.
        * destruct (m_subs s); cbn; [exists [EReq OnCompleted]|exists []]; cbn; rewrite ?app_nil_r; auto.
        * destruct (m_subs s); cbn; exists []; cbn; rewrite ?app_nil_r; auto.
      + injection Hs as <-. exists []; cbn; rewrite ?app_nil_r; auto.
      + injection Hs as <-. exists [EDispose k]. split; [destruct r; reflexivity|auto].
    - destruct (m_phase s) as [|subs q|[|k r]| |] eqn:P; try discriminate; injection Hs as <-.
      + apply (Hw []); cbn; rewrite ?app_nil_r; auto.
      + apply (Hw [EDispose k]); auto.
  Qed.

  Lemma error_split h s : mreach maxc h s -> forall p x q, requests (m_log s) = p ++ OnError x :: q ->
    exists h1 l h2 s1, h = h1 ++ l :: h2 /\ mreach maxc h1 s1 /\ requests (m_log s1) = p /\ prefix (m_log s1) (m_log s) /\
      (l = LOuter (OnError x) \/ exists k, l = LInner k (OnError x) /\ In k (keys (m_log s1))).
  Proof.
    induction 1 as [|h s l s' H IH Hs]; intros p x q E; [destruct p; discriminate|].
    destruct (step_requests _ _ Hs) as (d & Ed & Hd). rewrite Ed in E.
    assert (Hold : forall q', requests (m_log s) = p ++ OnError x :: q' ->
      exists h1 l0 h2 s1, h ++ [l] = h1 ++ l0 :: h2 /\ mreach maxc h1 s1 /\ requests (m_log s1) = p /\ prefix (m_log s1) (m_log s') /\
      (l0 = LOuter (OnError x) \/ exists k, l0 = LInner k (OnError x) /\ In k (keys (m_log s1)))).
    { intros q' E'. destruct (IH p x q' E') as (h1 & l0 & h2 & s1 & -> & R & Q & P & L). exists h1, l0, (h2 ++ [l]), s1.
      rewrite <- app_assoc. cbn. repeat split; auto. destruct P as [c1 P1], (log_mono maxc _ _ Hs) as [c2 P2]. exists (c1 ++ c2). now rewrite P2, P1, app_assoc. }
    destruct d as [|n d]; [rewrite app_nil_r in E; exact (Hold q E)|].
    assert (d = []) as ->.
    { destruct Hd as [[= -> ->]|Hd]; [reflexivity|]. destruct l as [[o|e|]|k [a|e|]| | |e]; cbn in Hd; try discriminate; now injection Hd as -> ->. }
    destruct (rev_case q) as [->|(q' & z & ->)].
    - apply app_inj_tail in E as [E ->]. exists h, l, [], s. repeat split; auto; [exact (log_mono maxc _ _ Hs)|].
      destruct Hd as [Hd|Hd]; [discriminate|]. destruct l as [[o|e|]|k [a|e|]| | |e]; cbn in Hd; try discriminate; injection Hd as <-; [now left|].
      right. exists k. split; [reflexivity|]. cbn in Hs. destruct (begun k s) eqn:B; [|discriminate]. now apply begun_keys.
    - replace (p ++ OnError x :: q' ++ [z]) with ((p ++ OnError x :: q') ++ [z]) in E by (now rewrite <- app_assoc).
      apply app_inj_tail in E as [E _]. exact (Hold q' E).
  Qed.
End Merge.


Section Any.
  Context {O A : Type} (maxc : Z) (content : O -> list A * ending) (os : list O) (oe : ending).
  Notation script := (fun o => script_of (content o)).
  Notation outer := (trace os oe).
  Implicit Types (h : list (mlabel O A)) (s : mstate O A).

  (** What the subscription [k] has sent. *)
  Definition sent (k : nat) h : list A := map snd (filter (fun p => fst p =? k) (sends h)).
  Definition sents h s : list (list A) := map (fun k => sent k h) (seq 0 (length (subscribed (m_log s)))).

  Lemma sent_next k h : map OnNext (sent k h) = filter is_next (inner_calls k h).
  Proof. unfold sent. apply sends_inner. Qed.

  Lemma sents_interleave h h1 h2 s s1 : mreach maxc h s -> h = h1 ++ h2 -> mreach maxc h1 s1 -> interleaves (sents h1 s) (map snd (sends h1)).
  Proof.
    intros H E H1. exists (sends h1). split; [reflexivity|]. unfold sents. rewrite map_length, seq_length. split.
    - intros [k a] Hin. cbn. assert (Hin' : In (k, a) (sends h)) by (rewrite E; unfold sends; rewrite flat_map_app; apply in_or_app; now left).
      pose proof (senders_begun H _ _ Hin') as Hk. rewrite (keys_seq H) in Hk. apply in_seq in Hk. rewrite subs_length. lia.
    - intros k vs En. assert (L : k < length (subscribed (m_log s))).
      { rewrite <- (seq_length (length (subscribed (m_log s))) 0), <- (map_length (fun k => sent k h1)). apply nth_error_Some. congruence. }
      rewrite nth_map_seq in En by exact L. now injection En as <-.
  Qed.

  Lemma sent_prefix h h1 h2 s k o : h = h1 ++ h2 -> finished script outer maxc h s -> In (ESub k o) (m_log s) -> prefix (sent k h1) (fst (content o)).
  Proof.
    intros E (_ & D & _) Hk. specialize (D k o Hk). rewrite E, inner_app in D. unfold script_of in D.
    apply (f_equal (filter is_next)) in D. rewrite filter_app, nexts_trace, <- sent_next in D. exact (map_next_prefix _ _ _ (eq_sym D)).
  Qed.
  Lemma sent_all h s k o : finished script outer maxc h s -> In (ESub k o) (m_log s) -> sent k h = fst (content o).
  Proof.
    intros (_ & D & _) Hk. specialize (D k o Hk). unfold script_of in D.
    apply (f_equal (filter is_next)) in D. rewrite nexts_trace, <- sent_next in D. exact (map_next_inj _ _ D).
  Qed.

  Lemma open_sends h s vs : mreach maxc h s -> requests (m_log s) = map OnNext vs -> vs = map snd (sends h).
  Proof.
    intros H E. pose proof (forwards H) as F. rewrite E in F.
    assert (F' : map OnNext vs = produced h) by (rewrite <- F; symmetry; apply filter_eq_all; intros n Hn; apply in_map_iff in Hn as (a & <- & _); reflexivity).
    apply map_next_inj. rewrite F'. apply produced_sends. intros x Hx. rewrite <- F' in Hx. apply in_map_iff in Hx as (a & Ha & _). discriminate.
  Qed.

  Lemma subscribed_prefix h s : mreach maxc h s -> finished script outer maxc h s -> prefix (subscribed (m_log s)) os.
  Proof. intros H D. rewrite <- (arrived_all content os oe D). exact (proj1 (in_order H)). Qed.

  Lemma produced_in h n : In n (produced h) <-> exists l, In l h /\ In n (produced [l]).
  Proof.
    unfold produced. rewrite in_flat_map. split; intros (l & Hl & Hn); exists l; (split; [exact Hl|]); cbn in *; rewrite app_nil_r in *; exact Hn.
  Qed.

  Lemma merge_any h s : (0 <= maxc)%Z -> mreach maxc h s -> follows script outer h s -> finished script outer maxc h s ->
    exists ps vs e, upto_terminal (requests (m_log s)) = trace vs e /\ prefix (subscribed (m_log s)) os /\
      Forall2 (fun p o => prefix p (fst (content o))) ps (subscribed (m_log s)) /\ interleaves ps vs /\
      match e with
      | Completed => oe = Completed /\ subscribed (m_log s) = os /\ ps = map (fun o => fst (content o)) os /\ forall o, In o os -> snd (content o) = Completed
      | Failed x => oe = Failed x \/ exists k o, nth_error (subscribed (m_log s)) k = Some o /\ snd (content o) = Failed x /\ nth_error ps k = Some (fst (content o))
      | Open => ps = map (fun o => fst (content o)) (subscribed (m_log s)) /\ (forall o x, In o (subscribed (m_log s)) -> snd (content o) <> Failed x) /\
                (oe = Open \/ oe = Completed /\ exists o, In o (subscribed (m_log s)) /\ snd (content o) = Open) /\
                (subscribed (m_log s) = os \/ (0 < maxc)%Z /\
                 (maxc <= Z.of_nat (length (filter (fun o => match snd (content o) with Open => true | _ => false end) (subscribed (m_log s)))))%Z)
      end.
  Proof.
    intros Hm H F D. pose proof (subscribed_prefix H D) as P. pose proof D as (D1 & D2 & D3).
    assert (Hg : grammatical (outer_calls h)) by (rewrite D1; now exists os, oe).
    destruct (first_terminal (requests (m_log s))) as (vs & [E|[(q & E)|(x & q & E)]]).
    - (* no end *)
      assert (NoErr : forall x, ~ In (OnError x) (produced h)).
      { intros x Hx. rewrite <- (forwards H) in Hx. apply filter_In in Hx as [Hx _]. rewrite E in Hx. apply in_map_iff in Hx as (a & Ha & _). discriminate. }
      assert (Hoe : forall x, oe <> Failed x).
      { intros x Ex. apply (NoErr x), produced_in. exists (LOuter (OnError x)). split; [|now left]. apply in_outer. rewrite D1, Ex. apply in_or_app. right. now left. }
      assert (Hno : forall o x, In o (subscribed (m_log s)) -> snd (content o) <> Failed x).
      { intros o x Ho Ex. apply In_nth_error in Ho as [k Ek]. apply (nth_sub _ H) in Ek. apply (NoErr x), produced_in.
        exists (LInner k (OnError x)). split; [|now left]. apply in_calls, in_inner. rewrite (D2 k o Ek). unfold script_of. rewrite Ex. apply in_or_app. right. now left. }
      pose proof (open_sends _ H E) as Ev. exists (sents h s), vs, Open. split; [rewrite E; clear; induction vs as [|v vs IH]; [reflexivity|cbn; rewrite IH; reflexivity]|].
      assert (Eps : sents h s = map (fun o => fst (content o)) (subscribed (m_log s))).
      { unfold sents. apply map_nth_seq. intros k o Ek. exact (@sent_all h s k o D (nth_sub _ H Ek)). }
      split; [exact P|]. split; [|split; [|split; [exact Eps|split; [exact Hno|split]]]].
      + unfold sents. apply forall2_seq. intros k o Ek. exact (@sent_prefix h h [] s k o (eq_sym (app_nil_r h)) D (nth_sub _ H Ek)).
      + rewrite Ev. exact (@sents_interleave h h [] s s H (eq_sym (app_nil_r h)) H).
      + destruct (open_or_completed Hoe) as [Eo|Eo]; [now left|]. right. split; [exact Eo|].
        destruct (first_not_completed content (subscribed (m_log s))) as [Hall|(a & o & b & Es & _ & Ho)].
        * exfalso. assert (X : In OnCompleted (requests (m_log s))).
          { destruct (all_subscribed content os Hoe Hm H F D Hall) as [_ S2].
            apply (completes_if Hm H (proj1 (proj2 F)) (no_stop content os Hoe F) D3); [|exact S2]. apply in_outer. rewrite D1, Eo. apply in_or_app. right. now left. }
          rewrite E in X. apply in_map_iff in X as (a & Ha & _). discriminate.
        * exists o. assert (Ho' : In o (subscribed (m_log s))) by (rewrite Es; apply in_or_app; right; now left). split; [exact Ho'|].
          destruct (snd (content o)) as [|x|] eqn:Ex; [reflexivity|now elim (Hno o x Ho')|congruence].
      + destruct (waiting s) as [|w ws] eqn:W.
        * left. pose proof (none_forgotten H (proj1 (proj2 F)) (no_stop content os Hoe F)) as N. rewrite W, app_nil_r in N. rewrite N. exact (arrived_all content os oe D).
        * right. assert (Hw : waiting s <> []) by (rewrite W; discriminate).
          pose proof (no_idle_waiting Hm H (proj1 (proj2 F)) (no_stop content os Hoe F) Hg D3 Hw) as [L1 L2]. split; [exact L1|].
          replace (length (filter _ (subscribed (m_log s)))) with (length (active h (m_log s))); [exact L2|].
          unfold active. rewrite <- pairs_fst, <- pairs_snd.
          assert (X : forall p, (forall y, In y p -> In y (pairs (m_log s))) ->
            length (filter (fun k => negb (existsb (Nat.eqb k) (completions h))) (map fst p)) =
            length (filter (fun o => match snd (content o) with Open => true | _ => false end) (map snd p))).
          { induction p as [|[k o] p IH]; intros Hp; [reflexivity|]. cbn. pose proof (Hp _ (or_introl eq_refl)) as Hk. apply in_pairs in Hk.
            specialize (IH (fun y Hy => Hp y (or_intror Hy))).
            assert (Hs : In o (subscribed (m_log s))) by (rewrite <- pairs_snd; apply in_pairs in Hk; exact (in_map snd _ _ Hk)).
            assert (C : existsb (Nat.eqb k) (completions h) = match snd (content o) with Completed => true | _ => false end).
            { pose proof (D2 k o Hk) as Dk. unfold script_of in Dk. destruct (snd (content o)) as [|x|] eqn:Ex.
              - apply Bool.not_true_is_false. intros T. apply existsb_eqb, in_completions, in_calls, in_inner in T. rewrite Dk in T. unfold trace in T. rewrite app_nil_r in T. apply in_map_iff in T as (? & ? & _). discriminate.
              - now elim (Hno o x Hs).
              - apply existsb_eqb, in_completions, in_calls, in_inner. rewrite Dk. apply in_or_app. right. now left. }
            rewrite C. destruct (snd (content o)) as [|x|] eqn:Ex; cbn; [now rewrite IH|now elim (Hno o x Hs)|exact IH]. }
          apply X. auto.
    - (* completion *)
      assert (X : In OnCompleted (requests (m_log s))) by (rewrite E; apply in_or_app; right; now left).
      destruct (completes_only_if Hm H Hg X) as (Lo & Sub & Comp).
      assert (Eo : oe = Completed).
      { apply in_outer in Lo. rewrite D1 in Lo. unfold trace in Lo. apply in_app_or in Lo as [Lo|Lo]; [apply in_map_iff in Lo as (? & ? & _); discriminate|].
        destruct oe; cbn in Lo; try contradiction; [destruct Lo as [Lo|[]]; discriminate|reflexivity]. }
      rewrite (arrived_all content os oe D) in Sub.
      assert (Hall : forall o, In o os -> snd (content o) = Completed).
      { intros o Ho. rewrite <- Sub in Ho. apply In_nth_error in Ho as [k Ek]. apply (nth_sub _ H) in Ek.
        assert (Hk : In k (keys (m_log s))) by (apply in_keys; eauto). apply Comp, in_completions, in_calls, in_inner in Hk. rewrite (D2 k o Ek) in Hk.
        unfold script_of, trace in Hk. apply in_app_or in Hk as [Hk|Hk]; [apply in_map_iff in Hk as (? & ? & _); discriminate|].
        destruct (snd (content o)); cbn in Hk; try contradiction; [destruct Hk as [Hk|[]]; discriminate|reflexivity]. }
      assert (Hoe : forall x, oe <> Failed x) by (rewrite Eo; discriminate).
      destruct (merge_all content os Hoe Hm H F D Eo Hall) as (l & I & El).
      exists (map (fun o => fst (content o)) os), l, Completed. rewrite El. split; [apply norm_trace0|]. split; [exact P|]. split; [|split; [exact I|auto]].
      rewrite Sub. clear. induction os as [|o l IH]; cbn; [constructor|]. constructor; [apply prefix_refl|exact IH].
    - (* an error *)
      destruct (error_split H _ _ _ E) as (h1 & l & h2 & s1 & Eh & H1 & E1 & Pl & Hl). pose proof (open_sends _ H1 E1) as Ev.
      exists (sents h1 s), vs, (Failed x). split; [rewrite E; clear; unfold trace; induction vs as [|v vs IH]; [reflexivity|cbn; rewrite IH; reflexivity]|].
      split; [exact P|]. split; [|split].
      + unfold sents. apply forall2_seq. intros k o Ek. exact (@sent_prefix h h1 _ s k o Eh D (nth_sub _ H Ek)).
      + rewrite Ev. exact (@sents_interleave h h1 _ s s1 H Eh H1).
      + destruct Hl as [->|(k & -> & Hk)].
        * left. assert (L : In (OnError x) (outer_calls h)) by (apply in_outer; rewrite Eh; apply in_or_app; right; now left). rewrite D1 in L.
          unfold trace in L. apply in_app_or in L as [L|L]; [apply in_map_iff in L as (? & ? & _); discriminate|].
          destruct oe; cbn in L; try contradiction; destruct L as [L|[]]; try discriminate. congruence.
        * right. assert (Hk' : In k (keys (m_log s))) by (destruct Pl as [c ->]; unfold keys; rewrite flat_map_app; apply in_or_app; now left).
          apply in_keys in Hk' as [o Ho]. exists k, o.
          assert (Hn : nth_error (subscribed (m_log s)) k = Some o).
          { apply in_pairs, In_nth_error in Ho as [i Ei]. pose proof (map_nth_error fst _ _ Ei) as G. rewrite pairs_fst, (keys_seq H) in G. cbn in G.
            assert (L : i < length (seq 0 (length (keys (m_log s))))) by (apply nth_error_Some; congruence).
            rewrite seq_length in L. apply nth_error_nth with (d := 0) in G. rewrite seq_nth in G by exact L. cbn in G. subst i.
            rewrite <- pairs_snd. exact (map_nth_error snd _ _ Ei). }
          pose proof (D2 k o Ho) as Dk. rewrite Eh, inner_app in Dk. unfold script_of in Dk.
          replace (inner_calls k (LInner k (OnError x) :: h2)) with (OnError x :: inner_calls k h2) in Dk by (unfold inner_calls; cbn; now rewrite Nat.eqb_refl).
          destruct (@trace_error _ _ _ _ _ _ (eq_sym Dk)) as [Hs Hx]. split; [exact Hn|]. split; [exact Hx|].
          unfold sents. rewrite nth_map_seq by (apply nth_error_Some; congruence). f_equal. apply map_next_inj. rewrite sent_next, Hs. apply nexts_map.
  Qed.
End Any.

(** ** One at a time: which observables are subscribed *)
Lemma concat_reached O A (content : O -> list A * ending) (os : list O) oe (h : list (mlabel O A)) (s : mstate O A) :
  (forall x, oe <> Failed x) -> mreach 1 h s ->
  follows (fun o => script_of (content o)) (trace os oe) h s -> finished (fun o => script_of (content o)) (trace os oe) 1 h s ->
  (subscribed (m_log s) = os /\ forall o, In o os -> snd (content o) = Completed) \/
  exists a o b, os = a ++ o :: b /\ subscribed (m_log s) = a ++ [o] /\ (forall x, In x a -> snd (content x) = Completed) /\ snd (content o) <> Completed.
Proof.
  intros Hoe H F D. pose proof D as (D1 & D2 & D3). pose proof F as (_ & F2 & _).
  destruct (proj1 (in_order H)) as [c Ec]. rewrite (arrived_all content os oe D) in Ec.
  destruct (first_not_completed content os) as [Hall|(a & o & b & Eos & Ha & Ho)].
  - left. split; [|exact Hall].
    assert (Hsub : forall o, In o (subscribed (m_log s)) -> snd (content o) = Completed) by (intros o Ho; apply Hall; rewrite Ec; apply in_or_app; now left).
    exact (proj1 (all_subscribed content os Hoe Z.le_0_1 H F D Hsub)).
  - right. exists a, o, b. split; [exact Eos|]. split; [|now split].
    assert (Hat : forall o', nth_error (subscribed (m_log s)) (length a) = Some o' -> o' = o).
    { intros o' E. assert (L : length a < length (subscribed (m_log s))) by (apply nth_error_Some; congruence).
      assert (E' : nth_error os (length a) = Some o') by (rewrite Ec, nth_error_app1 by exact L; exact E).
      rewrite Eos, nth_error_app2, Nat.sub_diag in E' by lia. now injection E' as <-. }
    assert (Lge : length a < length (subscribed (m_log s))).
    { destruct (le_lt_dec (length (subscribed (m_log s))) (length a)) as [Hle|]; [|assumption]. exfalso.
      assert (Hsub : forall x, In x (subscribed (m_log s)) -> snd (content x) = Completed).
      { intros x Hx. apply Ha. apply In_nth_error in Hx as [i Ei]. assert (L : i < length (subscribed (m_log s))) by (apply nth_error_Some; congruence).
        assert (Ei' : nth_error os i = Some x) by (rewrite Ec, nth_error_app1 by exact L; exact Ei).
        rewrite Eos, nth_error_app1 in Ei' by lia. exact (nth_error_In _ _ Ei'). }
      destruct (all_subscribed content os Hoe Z.le_0_1 H F D Hsub) as [S1 _]. rewrite S1, Eos, app_length in Hle. cbn in Hle. lia. }
    assert (Hin : In (length a) (keys (m_log s))) by (rewrite (keys_seq H); apply in_seq; rewrite <- subs_length; lia).
    assert (Lle : length (subscribed (m_log s)) = S (length a)).
    { destruct (le_lt_dec (length (subscribed (m_log s))) (S (length a))) as [|Hlt]; [lia|]. exfalso.
      assert (Hin2 : In (S (length a)) (keys (m_log s))) by (rewrite (keys_seq H); apply in_seq; rewrite <- subs_length; lia).
      pose proof (sequential eq_refl H (quiet_nodup (follows_quiet (script_gram content) H F)) Hin2 (Nat.lt_succ_diag_r _)) as Hcp.
      apply in_completions, in_calls, in_inner in Hcp.
      destruct (nth_error (subscribed (m_log s)) (length a)) as [o'|] eqn:En; [|apply nth_error_None in En; lia].
      rewrite (D2 _ _ (nth_sub _ H En)), (Hat _ eq_refl) in Hcp.
      unfold script_of, trace in Hcp. apply in_app_or in Hcp as [Hcp|Hcp]; [apply in_map_iff in Hcp as (? & ? & _); discriminate|].
      destruct (snd (content o)) as [|x|]; cbn in Hcp; try contradiction; try congruence; destruct Hcp as [Hcp|[]]; discriminate. }
    rewrite Eos in Ec. replace (a ++ o :: b) with ((a ++ [o]) ++ b) in Ec by (now rewrite <- app_assoc).
    assert (L : length (a ++ [o]) = length (subscribed (m_log s))) by (rewrite app_length; cbn; lia).
    clear -Ec L. revert Ec L. generalize (subscribed (m_log s)) as p. generalize (a ++ [o]) as q. induction q as [|x q IH]; intros [|y p] E L; try discriminate; [reflexivity|].
    injection E as -> E. f_equal. symmetry. rewrite (IH p E); [reflexivity|]. cbn in L. lia.
Qed.

(** ** What the models make is what is meant *)
Lemma follows_ext O A (f g : O -> list (notif A)) outer h (s : mstate O A) :
  (forall k o, In (ESub k o) (m_log s) -> f o = g o) -> follows f outer h s -> follows g outer h s.
Proof.
  intros E (F1 & F2 & F3 & F4). split; [exact F1|]. split; [exact F2|]. split; [exact F3|]. intros k o Ho. rewrite <- (E k o Ho). exact (F4 k o Ho).
Qed.
Lemma finished_ext O A (f g : O -> list (notif A)) outer maxc h (s : mstate O A) :
  (forall k o, In (ESub k o) (m_log s) -> f o = g o) -> finished f outer maxc h s -> finished g outer maxc h s.
Proof. intros E (D1 & D2 & D3). split; [exact D1|]. split; [|exact D3]. intros k o Ho. rewrite <- (E k o Ho). exact (D2 k o Ho). Qed.

Lemma in_subscribed O A maxc h (s : mstate O A) o : mreach maxc h s -> In o (subscribed (m_log s)) -> exists k, In (ESub k o) (m_log s).
Proof. intros H Ho. apply In_nth_error in Ho as [k Ek]. exists k. exact (nth_sub _ H Ek). Qed.

Lemma turns X A (Means : X -> list A -> ending -> Prop) (f : X * nat -> list A * ending) oe (os : list (X * nat)) :
  (forall o, In o os -> Means (fst o) (fst (f o)) (snd (f o))) -> (forall o, In o os -> snd (f o) = Completed) ->
  in_turn Means oe (map fst os) (concat (map (fun o => fst (f o)) os)) oe.
Proof.
  induction os as [|o os IH]; intros H1 H2; cbn; [constructor|]. constructor.
  - rewrite <- (H2 o (or_introl eq_refl)). apply H1. now left.
  - apply IH; intros p Hp; [apply H1|apply H2]; now right.
Qed.
Lemma turns_split X A (Means : X -> list A -> ending -> Prop) (f : X * nat -> list A * ending) oe a o b :
  (forall p, In p (a ++ [o]) -> Means (fst p) (fst (f p)) (snd (f p))) -> (forall p, In p a -> snd (f p) = Completed) -> snd (f o) <> Completed ->
  in_turn Means oe (map fst (a ++ o :: b)) (concat (map (fun o => fst (f o)) a) ++ fst (f o)) (snd (f o)).
Proof.
  induction a as [|p a IH]; intros H1 H2 H3; cbn.
  - apply turn_last; [apply H1; now left|exact H3].
  - rewrite <- app_assoc. constructor.
    + rewrite <- (H2 p (or_introl eq_refl)). apply H1. now left.
    + apply IH; [intros q Hq; apply H1; now right|intros q Hq; apply H2; now right|exact H3].
Qed.

Lemma prefix_map X Y (f : X -> Y) a b : prefix a b -> prefix (map f a) (map f b).
Proof. intros [c ->]. exists (map f c). apply map_app. Qed.

Lemma inner_sound X A maxc (xs : list X) oe (Means : X -> list A -> ending -> Prop) script h (s : mstate (X * nat) A) l :
  (0 <= maxc)%Z -> mreach maxc h s ->
  follows script (placed 0 (trace xs oe)) h s -> finished script (placed 0 (trace xs oe)) maxc h s ->
  (forall k x i, In (ESub k (x, i)) (m_log s) -> exists vs e, Means x vs e /\ script (x, i) = trace vs e) ->
  delivers (psys well_behaved (safe PEnd)) (requests (m_log s)) l ->
  exists vs e, l = trace vs e /\
    if (maxc =? 1)%Z && match oe with Failed _ => false | _ => true end
    then in_turn Means oe xs vs e
    else together Means maxc oe xs vs e.
Proof.
  intros Hm H F D Hsc Hl. apply (delivers_iff (sane_psys _ _)), subscriber in Hl. rewrite placed_trace in F, D.
  set (f := fun o => content_of (script o)).
  assert (Eq : forall k o, In (ESub k o) (m_log s) -> script o = script_of (f o)).
  { intros k [x i] Ho. destruct (Hsc k x i Ho) as (vs & e & _ & E). symmetry. apply script_content. now exists vs, e. }
  assert (Mn : forall o, In o (subscribed (m_log s)) -> Means (fst o) (fst (f o)) (snd (f o))).
  { intros [x i] Ho. destruct (in_subscribed _ H Ho) as [k Hk]. destruct (Hsc k x i Hk) as (vs & e & M & E). unfold f. rewrite E, content_trace. exact M. }
  apply (@follows_ext _ _ _ (fun o => script_of (f o)) _ _ _ Eq) in F. apply (@finished_ext _ _ _ (fun o => script_of (f o)) _ _ _ _ Eq) in D.
  destruct ((maxc =? 1)%Z && match oe with Failed _ => false | _ => true end)%bool eqn:C.
  - apply andb_prop in C as [C1 C2]. apply Z.eqb_eq in C1. subst maxc.
    assert (Hoe : forall x, oe <> Failed x) by (intros x ->; discriminate).
    pose proof (concat_requests f _ Hoe Z.le_0_1 eq_refl H F D) as E. rewrite E in Hl.
    destruct (concat_reached f _ Hoe H F D) as [[S1 Hall]|(a & o & b & Eos & S1 & Ha & Ho)]; rewrite S1 in Mn.
    + rewrite (one_all f oe _ Hall), norm_trace0 in Hl. eexists _, oe. split; [exact Hl|]. pose proof (turns Means f oe (indexed 0 xs) Mn Hall) as T. rewrite indexed_fst in T. exact T.
    + rewrite Eos, (one_split f oe _ o b Ha Ho), norm_trace0 in Hl. eexists _, _. split; [exact Hl|].
      pose proof (turns_split Means f oe a o b Mn Ha Ho) as T. rewrite <- Eos, indexed_fst in T. exact T.
  - destruct (merge_any f _ _ Hm H F D) as (ps & vs & e & E & P & P2 & I & M). rewrite E in Hl. exists vs, e. split; [exact Hl|].
    exists (map fst (subscribed (m_log s))), (map f (subscribed (m_log s))), ps.
    split; [rewrite <- (indexed_fst xs 0); now apply prefix_map|].
    split; [|split; [|split; [exact I|]]].
    + clear -Mn. induction (subscribed (m_log s)) as [|o r IH]; cbn; constructor; [apply Mn; now left|apply IH; intros p Hp; apply Mn; now right].
    + clear -P2. induction P2; cbn; constructor; assumption.
    + destruct e as [|x|].
      * destruct M as (M1 & M2 & M3 & M4). split; [now rewrite map_map|]. split; [|split].
        -- apply Forall_map, Forall_forall. intros o Ho x. exact (M2 o x Ho).
        -- destruct M3 as [M3|[M3 (o & Ho & Eo)]]; [now left|right]. split; [exact M3|]. apply Exists_exists. exists (f o). split; [now apply in_map|exact Eo].
        -- destruct M4 as [M4|[M4 M5]]; [left; now rewrite M4, indexed_fst|right]. split; [exact M4|].
           replace (length (filter _ (map f (subscribed (m_log s))))) with (length (filter (fun o => match snd (f o) with Open => true | _ => false end) (subscribed (m_log s)))); [exact M5|].
           clear. clearbody f. induction (subscribed (m_log s)) as [|o r IH]; [reflexivity|]. cbn. destruct (snd (f o)); cbn; [f_equal; exact IH|exact IH|exact IH].
      * destruct M as [M|(k & o & M1 & M2 & M3)]; [now left|right]. exists k, (fst (f o)). split; [|exact M3].
        rewrite (map_nth_error f _ _ M1), <- M2. now destruct (f o).
      * destruct M as (M1 & M2 & M3 & M4). split; [exact M1|]. split; [now rewrite M2, indexed_fst|]. split; [now rewrite map_map, M2|].
        apply Forall_map, Forall_forall. rewrite M2. exact M4.
Qed.

Lemma nth_indexed X (xs : list X) : forall k p x i, nth_error (indexed k xs) p = Some (x, i) -> i = k + p /\ nth_error xs p = Some x.
Proof.
  induction xs as [|y xs IH]; intros k [|p] x i E; cbn in E; try discriminate.
  - injection E as -> ->. split; [lia|reflexivity].
  - destruct (IH (S k) p x i E) as [-> F]. split; [lia|exact F].
Qed.
Lemma indexed_length X (xs : list X) : forall k, length (indexed k xs) = length xs.
Proof. induction xs as [|x xs IH]; intros k; cbn; [reflexivity|]. now rewrite IH. Qed.

(** switch_latest *)
Lemma sfollows_ext O A (f g : O -> list (notif A)) outer h (s : sstate O A) :
  (forall k o, In (ESub k o) (w_log s) -> f o = g o) -> sfollows f outer h s -> sfollows g outer h s.
Proof.
  intros E (F1 & F2 & F3 & F4). split; [exact F1|]. split; [exact F2|]. split; [exact F3|]. intros k o Ho. rewrite <- (E k o Ho). exact (F4 k o Ho).
Qed.
Lemma sfinished_ext O A (f g : O -> list (notif A)) outer h (s : sstate O A) :
  (forall k o, In (ESub k o) (w_log s) -> f o = g o) -> sfinished f outer h s -> sfinished g outer h s.
Proof. intros E (D1 & D2 & D3). split; [exact D1|]. split; [|exact D3]. intros k o Ho Hd. rewrite <- (E k o Ho). exact (D2 k o Ho Hd). Qed.

Lemma switch_sound X A (xs : list X) oe (Means : X -> list A -> ending -> Prop) script h (s : sstate (X * nat) A) l :
  sreach h s -> sfollows script (placed 0 (trace xs oe)) h s -> sfinished script (placed 0 (trace xs oe)) h s ->
  (forall k x i, In (ESub k (x, i)) (w_log s) -> exists vs e, Means x vs e /\ script (x, i) = trace vs e) ->
  delivers (psys well_behaved (safe PEnd)) (requests (w_log s)) l ->
  exists vs e, l = trace vs e /\ switched Means oe xs vs e.
Proof.
  intros H F D Hsc Hl. apply (delivers_iff (sane_psys _ _)), subscriber in Hl. rewrite placed_trace in F, D.
  set (f := fun o => content_of (script o)).
  assert (Eq : forall k o, In (ESub k o) (w_log s) -> script o = script_of (f o)).
  { intros k [x i] Ho. destruct (Hsc k x i Ho) as (vs & e & _ & E). symmetry. apply script_content. now exists vs, e. }
  apply (@sfollows_ext _ _ _ (fun o => script_of (f o)) _ _ _ Eq) in F. apply (@sfinished_ext _ _ _ (fun o => script_of (f o)) _ _ _ Eq) in D.
  destruct (switch_any f (indexed 0 xs) oe H F D) as (ps & vs & e & E & Sub & P2 & I & M). rewrite E in Hl. exists vs, e. split; [exact Hl|].
  assert (Mn : forall o, In o (indexed 0 xs) -> Means (fst o) (fst (f o)) (snd (f o))).
  { intros [x i] Ho. rewrite <- Sub in Ho. apply In_nth_error in Ho as [k Ek]. pose proof (snth_sub _ H Ek) as Hk. destruct (Hsc _ x i Hk) as (us & d & Mx & Es). unfold f. rewrite Es, content_trace. exact Mx. }
  exists (map f (indexed 0 xs)), ps. split; [|split; [|split; [exact I|]]].
  - rewrite <- (indexed_fst xs 0) at 1. clear -Mn. induction (indexed 0 xs) as [|o r IH]; cbn; constructor; [apply Mn; now left|apply IH; intros p Hp; apply Mn; now right].
  - clear -P2. induction P2; cbn; constructor; assumption.
  - destruct e as [|x|].
    + destruct M as (M1 & M2 & M3). split; [exact M1|]. split; [intros ->; now apply M2|].
      intros k c Lk Ek. destruct (nth_error (indexed 0 xs) k) as [o|] eqn:Eo.
      * rewrite (map_nth_error f _ _ Eo) in Ek. injection Ek as <-. apply M3; [now rewrite indexed_length|exact Eo].
      * apply nth_error_None in Eo. assert (Q : k < length (map f (indexed 0 xs))) by (apply nth_error_Some; congruence). rewrite map_length in Q. lia.
    + destruct M as [M|(k & o & M1 & M2 & M3)]; [now left|right]. exists k, (fst (f o)). split; [|exact M3]. rewrite (map_nth_error f _ _ M1), <- M2. now destruct (f o).
    + destruct M as [M1 M2]. split; [destruct xs; [reflexivity|discriminate]|exact M2].
Qed.

Lemma switch_complete X A (Means : X -> list A -> ending -> Prop) oe xs vs e : switched Means oe xs vs e ->
  exists script h (s : sstate (X * nat) A), sreach h s /\ sfollows script (placed 0 (trace xs oe)) h s /\ sfinished script (placed 0 (trace xs oe)) h s /\
    (forall k x i, In (ESub k (x, i)) (w_log s) -> exists us d, Means x us d /\ script (x, i) = trace us d) /\
    delivers (psys well_behaved (safe PEnd)) (requests (w_log s)) (trace vs e).
Proof.
  intros (cs & ps & Hcs & Hps & I & He). rewrite placed_trace. set (f := fun o : X * nat => nth (snd o) cs ([], Open)).
  assert (Ef : map f (indexed 0 xs) = cs).
  { assert (L : length xs = length cs) by (clear -Hcs; induction Hcs; cbn; congruence). unfold f. clear -L. apply nth_ext with (d := ([], Open)) (d' := ([], Open)); [now rewrite map_length, indexed_length|].
    intros n Hn. rewrite map_length, indexed_length in Hn. destruct (nth_error (indexed 0 xs) n) as [[x i]|] eqn:E.
    - destruct (nth_indexed _ _ _ E) as [-> _]. apply (map_nth_error (fun o : X * nat => nth (snd o) cs ([], Open))) in E. exact (nth_error_nth _ _ _ E).
    - apply nth_error_None in E. rewrite indexed_length in E. lia. }
  assert (Ef' : forall k o, nth_error (indexed 0 xs) k = Some o -> nth_error cs k = Some (f o)) by (intros k o E; rewrite <- Ef at 1; exact (map_nth_error f _ _ E)).
  assert (Hn : forall k c, nth_error cs k = Some c -> exists o, nth_error (indexed 0 xs) k = Some o /\ f o = c).
  { intros k c E. destruct (nth_error (indexed 0 xs) k) as [o|] eqn:Eo; [|apply nth_error_None in Eo; assert (k < length cs) by (apply nth_error_Some; congruence); rewrite <- Ef, map_length in *; lia].
    exists o. split; [reflexivity|]. rewrite (Ef' _ _ Eo) in E. congruence. }
  assert (Hps' : Forall2 (fun p o => prefix p (fst (f o))) ps (indexed 0 xs)).
  { clear -Hps Ef. rewrite <- Ef in Hps. clear Ef. revert ps Hps. induction (indexed 0 xs) as [|o r IH]; intros ps H; inversion H; subst; constructor; auto. }
  assert (He' : switch_ends f (indexed 0 xs) oe ps e).
  { destruct e as [|x|]; cbn.
    - destruct He as (H1 & H2 & H3). split; [exact H1|]. split; [intros E; apply H2; destruct xs; [reflexivity|discriminate]|].
      intros k o Lk Eo. rewrite indexed_length in Lk. apply H3; [exact Lk|exact (Ef' _ _ Eo)].
    - destruct He as [He|(k & us & E1 & E2)]; [now left|right]. destruct (Hn _ _ E1) as (o & Eo & Fo). exists k, o. rewrite Fo. auto.
    - destruct He as [-> He]. now split. }
  destruct (switch_all f _ _ Hps' I He') as (h & s & H & F & D & E). exists (fun o => script_of (f o)), h, s. split; [exact H|]. split; [exact F|]. split; [exact D|]. split.
  - intros k x i Hk. destruct (ssub_nth _ _ H Hk) as (j & -> & Ej). rewrite (ssubscribed f _ _ H F D) in Ej. destruct (nth_indexed _ _ _ Ej) as [_ Ex].
    exists (fst (f (x, i))), (snd (f (x, i))). split; [|reflexivity]. pose proof (Ef' _ _ Ej) as Ec. revert Ec. generalize (f (x, i)). clear -Hcs Ex. intros c0 Ec. revert j Ex Ec.
    induction Hcs as [|y c xs cs H1 H2 IH]; intros [|j] Ex Ec; try discriminate; [injection Ex as ->; injection Ec as ->; exact H1|]. exact (IH j Ex Ec).
  - apply (delivers_iff (sane_psys _ _)), subscriber. now symmetry.
Qed.

Lemma recovered_ext A (f g : exn -> option (list A -> ending -> Prop)) P vs e : (forall x, f x = g x) -> recovered f P vs e -> recovered g P vs e.
Proof.
  intros E. induction 1 as [P vs e H1 H2|P vs x Q ws e H1 H2 H3 IH|P vs x H1 H2].
  - now apply rec_end.
  - apply rec_next with x Q; [exact H1|now rewrite <- E|exact IH].
  - apply rec_raise with x; [exact H1|now rewrite <- E].
Qed.

Section Catch.
  Context {H O A : Type} (hd : H -> exn -> res O * H) (src : O) (h0 : H) (Means : O -> list A -> ending -> Prop).

  (** The observables that are subscribed one after the other make [cs], the subscriber sees [vs] and [e]. *)
  Inductive played : H -> O -> list (list A * ending) -> list A -> ending -> Prop :=
  | pl_end st o vs e : Means o vs e -> (forall x, e <> Failed x) -> played st o [(vs, e)] vs e
  | pl_next st o vs x o' st' cs ws e : Means o vs (Failed x) -> hd st x = (Ok o', st') -> played st' o' cs ws e -> played st o ((vs, Failed x) :: cs) (vs ++ ws) e
  | pl_raise st o vs x y st' : Means o vs (Failed x) -> hd st x = (Err y, st') -> played st o [(vs, Failed x)] vs Open.

  Lemma chain_played (act : nat -> list A * ending) l : forall k st o, l = answers hd st (ColdCatchProofs.ends act (seq k (S (length l)))) -> all_but_last_failed act k l ->
    late_raise hd st (ColdCatchProofs.ends act (seq k (S (length l)))) ->
    (forall j o', nth_error (o :: l) j = Some o' -> Means o' (fst (act (k + j))) (snd (act (k + j)))) ->
    exists cs vs e, played st o cs vs e /\ ColdCatchProofs.outs act (seq k (S (length l))) = trace vs e.
  Proof.
    induction l as [|o1 l IH]; intros k st o El Hf Hl Ha.
    - pose proof (Ha 0 o eq_refl) as E. rewrite Nat.add_0_r in E. cbn [length] in *. unfold ColdCatchProofs.ends in El. cbn in El. rewrite app_nil_r in El.
      unfold ColdCatchProofs.outs. cbn. rewrite app_nil_r. destruct (act k) as [vs e]. unfold script_of in *. cbn [fst snd] in *. rewrite errs_trace in El. rewrite not_error_trace. exists [(vs, e)], vs.
      destruct e as [|x|]; eexists; (split; [|reflexivity]).
      + apply pl_end; [exact E|discriminate].
      + cbn in El. destruct (hd st x) as [[o'|y] st'] eqn:Ex; [discriminate|]. now apply pl_raise with y st'.
      + apply pl_end; [exact E|discriminate].
    - destruct (@chain_first H O A hd act k st (o1 :: l)) as (vs & x & o' & st' & l' & E1 & E2 & E3 & E4 & E5 & E6); auto; [discriminate|].
      injection E3 as <- <-. destruct (IH (S k) st' o1 E4 E5 E6) as (cs & ws & e & C & Eo).
      + intros j o' E. specialize (Ha (S j) o' E). now rewrite Nat.add_succ_r in Ha.
      + exists ((vs, Failed x) :: cs), (vs ++ ws), e. pose proof (Ha 0 o eq_refl) as E. rewrite Nat.add_0_r, E1 in E. split.
        * now apply pl_next with o1 st'.
        * cbn [length]. rewrite outs_cons, Eo, E1. unfold script_of. cbn [fst snd]. rewrite not_error_trace, trace_app. unfold trace at 1. now rewrite app_nil_r.
  Qed.

  Lemma catch_played content h (s : cstate H O A) : creach hd src h0 h s -> cfollows content h s -> cfinished content h s ->
    (forall k o, In (ESub k o) (c_log s) -> Means o (fst (content k o)) (snd (content k o))) ->
    exists cs vs e, played h0 src cs vs e /\ requests (c_log s) = trace vs e.
  Proof.
    intros Hr F [D1 D2] Hm. pose proof (cgram Hr F) as Hg. pose proof F as [Hf _].
    destruct (@chain_played (acted h) (answers hd h0 (errors h)) 0 h0 src) as (cs & vs & e & C & E).
    - exact (chain_list Hr Hg Hf).
    - exact (chain_failed Hr Hg Hf).
    - exact (chain_late Hr Hg Hf).
    - intros j o Ej. change (0 + j) with j. destruct (chain_nth Hr Hg Hf _ Ej) as [Ho|L].
      + unfold acted. rewrite (D2 j o Ho). unfold script_of. rewrite content_trace. exact (Hm j o Ho).
      + exfalso. assert (X : j < length (src :: answers hd h0 (errors h))) by (apply nth_error_Some; congruence). cbn [length] in X.
        rewrite (chain_length Hr Hg Hf) in X. rewrite upcoming_ups, D1 in X. rewrite ups_nil in X. cbn [length] in X. lia.
    - exists cs, vs, e. split; [exact C|]. rewrite <- E. symmetry. exact (chain_outs Hr Hg Hf).
  Qed.
End Catch.

Section Recovered.
  Context {O A : Type} (hd : unit -> exn -> res O * unit) (src : O) (Means : O -> list A -> ending -> Prop).
  Definition answered (x : exn) : option (list A -> ending -> Prop) := match fst (hd tt x) with Ok o => Some (Means o) | Err _ => None end.

  Lemma played_recovered st o cs vs e : played hd Means st o cs vs e -> recovered answered (Means o) vs e.
  Proof.
    induction 1 as [st o vs e M1 M2|[] o vs x o' st' cs ws e M1 M2 M3 IH|[] o vs x y st' M1 M2].
    - now apply rec_end.
    - apply rec_next with x (Means o'); [exact M1| |exact IH]. unfold answered. now rewrite M2.
    - apply rec_raise with x; [exact M1|]. unfold answered. now rewrite M2.
  Qed.

  Lemma catch_recovered content h (s : cstate unit O A) : creach hd src tt h s -> cfollows content h s -> cfinished content h s ->
    (forall k o, In (ESub k o) (c_log s) -> Means o (fst (content k o)) (snd (content k o))) ->
    exists vs e, recovered answered (Means src) vs e /\ requests (c_log s) = trace vs e.
  Proof.
    intros Hr F D Hm. destruct (catch_played Means Hr F D Hm) as (cs & vs & e & P & E). exists vs, e. split; [exact (played_recovered P)|exact E].
  Qed.

  Lemma recovered_played (obs : exn -> option O) : (forall x, match obs x with Some o => fst (hd tt x) = Ok o | None => exists y, fst (hd tt x) = Err y end) ->
    forall P vs e, recovered (fun x => match obs x with Some o => Some (Means o) | None => None end) P vs e -> forall o, P = Means o -> exists cs, played hd Means tt o cs vs e.
  Proof.
    intros Ho P vs e. induction 1 as [P vs e H1 H2|P vs x Q ws e H1 H2 H3 IH|P vs x H1 H2]; intros o ->.
    - exists [(vs, e)]. now apply pl_end.
    - specialize (Ho x). destruct (obs x) as [o'|]; [|discriminate]. injection H2 as <-. destruct (IH o' eq_refl) as [cs Hc]. exists ((vs, Failed x) :: cs). apply pl_next with o' tt; [exact H1| |exact Hc].
      destruct (hd tt x) as [r []]. cbn in Ho. now subst r.
    - specialize (Ho x). destruct (obs x) as [o'|]; [discriminate|]. destruct Ho as [y Hy]. exists [(vs, Failed x)]. apply pl_raise with y tt; [exact H1|]. destruct (hd tt x) as [r []]. cbn in Hy. now subst r.
  Qed.
End Recovered.

(** retry *)
Section Retry.
  Context {A : Type} (P : list A -> ending -> Prop).
  Definition retry_obs (o : robs) (vs : list A) (e : ending) : Prop := match o with ROrig => P vs e | RFail x => vs = [] /\ e = Failed x end.
  Lemma failed_for_good st o cs vs e : played retry_factory retry_obs st o cs vs e -> st = 0%Z -> forall x, o <> RFail x.
  Proof.
    induction 1 as [st o vs e M1 M2|st o vs x o' st' cs ws e M1 M2 M3 IH|st o vs x y st' M1 M2]; intros -> z ->; cbn in M1.
    - destruct M1 as [_ ->]. now apply (M2 z).
    - cbn in M2. injection M2 as <- <-. now apply (IH eq_refl x).
    - discriminate.
  Qed.
  Lemma retry_played n vs e : (exists cs, played retry_factory retry_obs n ROrig cs vs e) <-> retried n P vs e.
  Proof.
    unfold retried. split.
    - intros [cs Hp]. inversion Hp as [st o us d M1 M2|st o us x o' st' cs' ws d M1 M2 M3|st o us x y st' M1 M2]; subst.
      + split; [exact M2|now left].
      + unfold retry_factory in M2. destruct (n =? 0)%Z eqn:En.
        * injection M2 as <- <-. apply Z.eqb_eq in En. exfalso. exact (failed_for_good M3 En eq_refl).
        * injection M2 as <- <-. apply Z.eqb_neq in En.
          inversion M3 as [st o us' d M4 M5|st o us' x' o' st' cs'' ws' d M4 M5 M6|st o us' x' y st' M4 M5]; subst.
          -- split; [exact M5|]. right. split; [exact En|]. now exists us, x, ws.
          -- exfalso. unfold retry_factory in M5. rewrite Z.sub_diag in M5. cbn in M5. injection M5 as <- <-. exact (failed_for_good M6 eq_refl eq_refl).
          -- unfold retry_factory in M5. rewrite Z.sub_diag in M5. discriminate.
      + unfold retry_factory in M2. destruct (n =? 0)%Z; discriminate.
    - intros [Hn [M|(En & us & x & ws & M1 & M2 & ->)]].
      + exists [(vs, e)]. now apply pl_end.
      + exists ((us, Failed x) :: [(ws, e)]). apply pl_next with ROrig (n - n)%Z; [exact M1| |now apply pl_end].
        unfold retry_factory. apply Z.eqb_neq in En. now rewrite En.
  Qed.
End Retry.

Theorem sound A (c : cold A) : bounded c -> forall l, makes c l -> exists vs e, means c vs e /\ l = trace vs e.
Proof.
  induction c as [A s|A B g c IH|X A maxc c inner IH IHi|A c handler IH IHh|A B C k c d IHc IHd|X A c inner IH IHi|A k c IH|sec per|A n c IH|A P] using cold_induct; intros Hb l Hl.
  - apply makes_from in Hl. exists (fst (source_means s)), (snd (source_means s)). split; [cbn; now destruct (source_means s)|exact Hl].
  - destruct Hl as (ms & Hc & Hd). destruct (IH Hb ms Hc) as (us & d & M & ->). apply stage_delivers in Hd.
    eexists _, _. split; [|exact Hd]. cbn. exists us, d. split; [exact M|now destruct (result_of g us d)].
  - destruct Hb as (Hm & Hb & Hbi). destruct Hl as (ms & script & h & s & Hc & H & F & D & Hs & Hd).
    destruct (IH Hb ms Hc) as (xs & oe & M & ->).
    destruct (@inner_sound X A maxc xs oe (fun x => means (inner x)) script h s l Hm H F D) as (vs & e & El & R).
    + intros k x i Hk. exact (IHi x (Hbi x) _ (Hs k x i Hk)).
    + exact Hd.
    + exists vs, e. split; [|exact El]. cbn. exists xs, oe. split; [exact M|exact R].
  - destruct Hb as (Hb & Hbh). destruct Hl as (content & h & s & H & F & D & Hs & <-).
    set (Means := fun o : option exn => match o with None => means c | Some x => match handler x with Ok c' => means c' | Err _ => fun _ _ => False end end).
    destruct (@catch_recovered (option exn) A (answers_to handler) None Means content h s H F D) as (vs & e & R & E).
    + intros k o Hk. specialize (Hs k o Hk). destruct o as [x|]; cbn.
      * specialize (IHh x). specialize (Hbh x). destruct (handler x) as [c'|y]; [|contradiction].
        destruct (IHh Hbh _ Hs) as (us & d & M & E). unfold script_of in E. apply trace_inj in E as [-> ->]. exact M.
      * destruct (IH Hb _ Hs) as (us & d & M & E). unfold script_of in E. apply trace_inj in E as [-> ->]. exact M.
    + exists vs, e. split; [|exact E]. cbn. refine (recovered_ext _ _ R). intros x. unfold answered, answers_to, Means. cbn. destruct (handler x) eqn:Ex; cbn; rewrite ?Ex; reflexivity.
  - destruct Hb as [Hc Hd]. destruct Hl as (ms & M & M' & D). destruct (IHc Hc _ M) as (xs & da & Mc & Ex). destruct (IHd Hd _ M') as (ys & db & Md & Ey).
    destruct (pair_sound k _ _ _ _ Ex Ey D) as (vs & e & P & ->). exists vs, e. split; [|reflexivity]. exists xs, da, ys, db. auto.
  - destruct Hb as (Hb & Hbi). destruct Hl as (ms & script & h & s & Hc & H & F & D & Hs & Hd).
    destruct (IH Hb ms Hc) as (xs & oe & M & ->).
    destruct (@switch_sound X A xs oe (fun x => means (inner x)) script h s l H F D) as (vs & e & El & R).
    + intros k x i Hk. exact (IHi x (Hbi x) _ (Hs k x i Hk)).
    + exact Hd.
    + exists vs, e. split; [|exact El]. cbn. exists xs, oe. split; [exact M|exact R].
  - destruct Hl as (ms & Hc & Hs). destruct (IH Hb ms Hc) as (xs & e & M & ->). apply shift_means in Hs as (vs & Hv & ->). exists vs, e. split; [|reflexivity]. now exists xs.
  - apply ticking_makes in Hl as (vs & e & Hv & ->). now exists vs, e.
  - destruct Hl as (content & h & s & H & F & D & Hs & <-).
    destruct (catch_played (retry_obs (means c)) H F D) as (cs & vs & e & Hp & E).
    + intros k o Hk. specialize (Hs k o Hk). destruct o as [|x]; cbn.
      * destruct (IH Hb _ Hs) as (us & d & M & E). unfold script_of in E. apply trace_inj in E as [-> ->]. exact M.
      * now rewrite Hs.
    + exists vs, e. split; [|exact E]. cbn. apply retry_played. now exists cs.
  - destruct Hl as (vs & e & Hp & ->). now exists vs, e.
Qed.

(** ** Programs that do one thing at a time *)
Lemma turn_contents X A (Means : X -> list A -> ending -> Prop) oe xs vs e : in_turn Means oe xs vs e ->
  exists cs, length cs = length xs /\ one_after_the_other cs oe = trace vs e /\
    forall i x, nth_error xs i = Some x -> (forall j c, j < i -> nth_error cs j = Some c -> snd c = Completed) ->
      exists c, nth_error cs i = Some c /\ Means x (fst c) (snd c).
Proof.
  induction 1 as [|x r vs ws e Hx H (cs & L & E & G)|x r vs e Hx Hn].
  - exists []. repeat split. intros [|i] x E; discriminate.
  - exists ((vs, Completed) :: cs). split; [cbn; now rewrite L|]. split; [cbn; rewrite E; unfold trace; now rewrite map_app, app_assoc|].
    intros [|i] y Ey Hj; cbn in Ey.
    + injection Ey as <-. exists (vs, Completed). now split.
    + apply (G i y Ey). intros j c Lj Ej. apply (Hj (S j)); [lia|exact Ej].
  - exists ((vs, e) :: repeat ([], Open) (length r)). split; [cbn; now rewrite repeat_length|]. split; [cbn; destruct e; try reflexivity; now elim Hn|].
    intros [|i] y Ey Hj; cbn in Ey.
    + injection Ey as <-. exists (vs, e). now split.
    + elim Hn. exact (Hj 0 (vs, e) (Nat.lt_0_succ i) eq_refl).
Qed.

Lemma nth_all X Y (d : Y) (cs : list Y) (xs : list X) : length cs = length xs ->
  map (fun o : X * nat => nth (snd o) cs d) (indexed 0 xs) = cs.
Proof.
  enough (G : forall pre, length cs = length xs -> map (fun o : X * nat => nth (snd o) (pre ++ cs) d) (indexed (length pre) xs) = cs) by (intros L; exact (G [] L)).
  revert cs. induction xs as [|x xs IH]; intros [|c cs] pre L; cbn in L; try discriminate; [reflexivity|]. cbn. rewrite app_nth2, Nat.sub_diag by lia. cbn. f_equal.
  specialize (IH cs (pre ++ [c])). rewrite <- app_assoc, app_length, Nat.add_1_r in IH. apply IH. lia.
Qed.

Lemma follows_start O A (script : O -> list (notif A)) outer : follows script outer [] m_init.
Proof. split; [intros l []|]. split; [intros e []|]. split; [apply prefix_nil|]. intros k o []. Qed.

Lemma turn_complete X A (Means : X -> list A -> ending -> Prop) oe xs vs e : (forall x, oe <> Failed x) -> in_turn Means oe xs vs e ->
  exists script h (s : mstate (X * nat) A), mreach 1 h s /\ follows script (placed 0 (trace xs oe)) h s /\ finished script (placed 0 (trace xs oe)) 1 h s /\
    (forall k x i, In (ESub k (x, i)) (m_log s) -> exists us d, Means x us d /\ script (x, i) = trace us d) /\
    delivers (psys well_behaved (safe PEnd)) (requests (m_log s)) (trace vs e).
Proof.
  intros Hoe Ht. destruct (turn_contents Ht) as (cs & L & E & G). set (f := fun o : X * nat => nth (snd o) cs ([], Open)).
  rewrite placed_trace.
  destruct (@extends (X * nat) A 1 f (indexed 0 xs) oe Hoe [] m_init (mr_nil _) (follows_start _ _)) as (h & s & H & F & D & _).
  cbn [app] in H, F, D. exists (fun o => script_of (f o)), h, s. split; [exact H|]. split; [exact F|]. split; [exact D|].
  assert (Ef : forall p q, nth_error (indexed 0 xs) p = Some q -> nth_error cs p = Some (f q)).
  { intros p [x i] Eq. destruct (nth_indexed _ _ _ Eq) as [-> Ex]. cbn. unfold f. cbn [snd]. apply nth_error_nth'. rewrite L. apply nth_error_Some. congruence. }
  split.
  - intros k x i Ho. assert (Hs : In (x, i) (subscribed (m_log s))) by (rewrite <- pairs_snd; apply in_map_iff; exists (k, (x, i)); split; [reflexivity|now apply in_pairs]).
    exists (fst (f (x, i))), (snd (f (x, i))). split; [|reflexivity].
    assert (Q : exists p, nth_error (indexed 0 xs) p = Some (x, i) /\ forall j q, j < p -> nth_error (indexed 0 xs) j = Some q -> snd (f q) = Completed).
    { destruct (concat_reached f _ Hoe H F D) as [[S1 Hall]|(a & o & b & Eos & S1 & Ha & Ho')]; rewrite S1 in Hs; apply In_nth_error in Hs as [p Ep]; exists p.
      - split; [exact Ep|]. intros j q _ Eq. apply Hall, (nth_error_In _ _ Eq).
      - assert (Lp : p < length (a ++ [o])) by (apply nth_error_Some; congruence). rewrite app_length in Lp. cbn in Lp.
        rewrite Eos. split; [change (o :: b) with ([o] ++ b); rewrite app_assoc, nth_error_app1 by (rewrite app_length; cbn; lia); exact Ep|].
        intros j q Lj Eq. rewrite nth_error_app1 in Eq by lia. apply Ha, (nth_error_In _ _ Eq). }
    destruct Q as (p & Ep & Hp). destruct (nth_indexed _ _ _ Ep) as [Ei Ex]. cbn in Ei. subst i.
    destruct (G p x Ex) as (c & Ec & M).
    + intros j c Lj Ec. destruct (nth_error (indexed 0 xs) j) as [q|] eqn:Eq.
      * rewrite (Ef j q Eq) in Ec. injection Ec as <-. exact (Hp j q Lj Eq).
      * apply nth_error_None in Eq. rewrite indexed_length, <- L in Eq. apply nth_error_None in Eq. congruence.
    + rewrite (Ef _ _ Ep) in Ec. injection Ec as <-. exact M.
  - rewrite (concat_requests f _ Hoe Z.le_0_1 eq_refl H F D). unfold f. rewrite (nth_all ([], Open) cs xs L), E. now apply (@delivers_trace A _ vs e).
Qed.

Section Chain.
  Context {H0 O A : Type} (hd : H0 -> exn -> res O * H0) (src : O) (h0 : H0) (Means : O -> list A -> ending -> Prop).

  Lemma calls_of_other k j n (h : list (clabel A)) : k <> j -> calls_of j (h ++ [CCall k n]) = calls_of j h.
  Proof. intros Hn. rewrite calls_of_snoc. unfold calls_of at 2. cbn. apply Nat.eqb_neq in Hn. rewrite Hn. cbn. apply app_nil_r. Qed.
  Lemma calls_of_same k n (h : list (clabel A)) : calls_of k (h ++ [CCall k n]) = calls_of k h ++ [n].
  Proof. rewrite calls_of_snoc. f_equal. unfold calls_of. cbn. now rewrite Nat.eqb_refl. Qed.
  Lemma no_failures_call h k (n : notif A) : no_failures h -> no_failures (h ++ [CCall k n]).
  Proof. intros Hf i e Hi. apply in_app_or in Hi as [Hi|[Hi|[]]]; [exact (Hf i e Hi)|discriminate]. Qed.
  Lemma no_failures_act h i : no_failures h -> @no_failures A (h ++ [CAct i]).
  Proof. intros Hf j e Hi. apply in_app_or in Hi as [Hi|[Hi|[]]]; [exact (Hf j e Hi)|discriminate]. Qed.

  Lemma cbegun_last k (s : cstate H0 O A) : c_next s = S k -> cbegun k s = true.
  Proof. intros E. unfold cbegun. rewrite E. apply Nat.ltb_lt. lia. Qed.

  (** Subscription [k], the last one, makes calls. *)
  Lemma play_values k vs : forall h (s : cstate H0 O A), creach hd src h0 h s -> no_failures h -> c_next s = S k ->
    exists h' s', creach hd src h0 h' s' /\ no_failures h' /\ c_next s' = S k /\ c_acts s' = c_acts s /\ c_h s' = c_h s /\
      (forall j o, In (ESub j o) (c_log s') -> In (ESub j o) (c_log s)) /\
      (forall j, j <> k -> calls_of j h' = calls_of j h) /\ calls_of k h' = calls_of k h ++ map OnNext vs.
  Proof.
    induction vs as [|v vs IH]; intros h s H Hf Hn.
    - exists h, s. cbn. rewrite app_nil_r. auto 10.
    - assert (Hs : catch_step hd s (CCall k (OnNext v)) = Some (cemit (EReq (OnNext v)) s)) by (cbn [catch_step]; rewrite (cbegun_last _ Hn); reflexivity).
      destruct (IH (h ++ [CCall k (OnNext v)]) (cemit (EReq (OnNext v)) s)) as (h' & s' & R1 & R2 & R3 & R4 & R8 & R5 & R6 & R7).
      + eapply cr_snoc; eassumption.
      + now apply no_failures_call.
      + exact Hn.
      + exists h', s'. split; [exact R1|]. split; [exact R2|]. split; [exact R3|]. split; [exact R4|]. split; [exact R8|]. split; [|split].
        * intros j o Hj. apply R5 in Hj. cbn in Hj. apply in_app_or in Hj as [Hj|[Hj|[]]]; [exact Hj|discriminate].
        * intros j Hj. rewrite (R6 j Hj). apply calls_of_other. congruence.
        * rewrite R7, calls_of_same, <- app_assoc. reflexivity.
  Qed.

  Lemma Last : forall k (content : nat -> O -> list A * ending) h (s : cstate H0 O A) o, creach hd src h0 h s -> no_failures h -> c_acts s = [] ->
      (forall j o', In (ESub j o') (c_log s) -> j = k /\ o' = o \/ j < k /\ calls_of j h = script_of (content j o') /\ Means o' (fst (content j o')) (snd (content j o'))) ->
      calls_of k h = script_of (content k o) -> Means o (fst (content k o)) (snd (content k o)) ->
      exists h' s', creach hd src h0 h' s' /\ no_failures h' /\ cfinished content h' s' /\
        forall j o', In (ESub j o') (c_log s') -> Means o' (fst (content j o')) (snd (content j o')).
  Proof. intros k content h s o H Hf Ha Hsub Ek Mk. exists h, s. split; [exact H|]. split; [exact Hf|]. split; [split; [exact Ha|]|]; intros j o' Hj; destruct (Hsub j o' Hj) as [[-> ->]|(_ & E & M)]; assumption. Qed.


  Lemma play_all st o cs vs e : played hd Means st o cs vs e -> forall k (content : nat -> O -> list A * ending) h (s : cstate H0 O A),
    (forall j o', content (k + j) o' = nth j cs ([], Open)) ->
    creach hd src h0 h s -> no_failures h -> c_acts s = [] -> c_h s = st -> c_next s = S k -> calls_of k h = [] ->
    (forall j o', In (ESub j o') (c_log s) -> j = k /\ o' = o \/ j < k /\ calls_of j h = script_of (content j o') /\ Means o' (fst (content j o')) (snd (content j o'))) ->
    exists h' s', creach hd src h0 h' s' /\ no_failures h' /\ cfinished content h' s' /\
      forall j o', In (ESub j o') (c_log s') -> Means o' (fst (content j o')) (snd (content j o')).
  Proof.
    induction 1 as [st o vs e M1 M2|st o vs x o' st' cs ws e M1 M2 M3 IH|st o vs x y st' M1 M2]; intros k content h s Hc H Hf Ha Hh Hn Ek Hsub;
      destruct (@play_values k vs h s H Hf Hn) as (h1 & s1 & R1 & R2 & R3 & R4 & Rh & R5 & R6 & R7); rewrite Hh in Rh; rewrite Ek in R7; cbn [app] in R7;
      pose proof (Hc 0) as Hc0; cbn [nth] in Hc0; rewrite Nat.add_0_r in Hc0.
    - assert (Hsub1 : forall j o', In (ESub j o') (c_log s1) -> j = k /\ o' = o \/ j < k /\ calls_of j h1 = script_of (content j o') /\ Means o' (fst (content j o')) (snd (content j o'))).
      { intros j o' Hj. destruct (Hsub j o' (R5 _ _ Hj)) as [S1|(L & S1 & S2)]; [now left|right]. split; [exact L|]. split; [rewrite R6 by lia; exact S1|exact S2]. }
      destruct e as [|x|]; [|now elim (M2 x)|].
      + apply (@Last k content h1 s1 o R1 R2); [congruence|exact Hsub1| |rewrite Hc0; exact M1]. rewrite R7, Hc0. unfold script_of, trace. cbn. now rewrite app_nil_r.
      + assert (Hs : catch_step hd s1 (CCall k OnCompleted) = Some (cemit (EReq OnCompleted) s1)) by (cbn [catch_step]; rewrite (cbegun_last _ R3); reflexivity).
        apply (@Last k content (h1 ++ [CCall k OnCompleted]) (cemit (EReq OnCompleted) s1) o).
        * eapply cr_snoc; eassumption.
        * now apply no_failures_call.
        * cbn. congruence.
        * intros j o' Hj. cbn in Hj. apply in_app_or in Hj as [Hj|[Hj|[]]]; [|discriminate]. destruct (Hsub1 j o' Hj) as [S1|(L & S1 & S2)]; [now left|right]. split; [exact L|]. split; [rewrite calls_of_other by lia; exact S1|exact S2].
        * rewrite calls_of_same, R7, Hc0. reflexivity.
        * rewrite Hc0. exact M1.
    - set (h2 := h1 ++ [CCall k (OnError x)]). assert (R2' : no_failures h2) by (now apply no_failures_call).
      assert (Hs : exists s2, catch_step hd s1 (CCall k (OnError x)) = Some s2 /\ c_next s2 = S k /\ c_acts s2 = [(c_born s1, ADisp o')] /\ c_h s2 = st' /\ forall j o1, In (ESub j o1) (c_log s2) -> In (ESub j o1) (c_log s1)).
      { cbn [catch_step]. rewrite (cbegun_last _ R3). eexists. split; [reflexivity|]. unfold failover. rewrite Rh, M2. cbn.
        split; [exact R3|]. split; [now rewrite R4, Ha|]. split; [reflexivity|]. intros j o1 Hj. apply in_app_or in Hj as [Hj|Hj]; [exact Hj|]. destruct (c_var s1); cbn in Hj; [destruct Hj as [Hj|[]]; discriminate|contradiction]. }
      destruct Hs as (s2 & Hs & N2 & A2 & Q2 & L2). pose proof (cr_snoc _ R1 Hs) as R8. fold h2 in R8.
      set (i := c_born s1) in *.
      set (s3 := CState (c_var s2) (S (c_next s2)) (c_born s2) (put i (ASub (c_next s2)) (c_acts s2)) (c_h s2) (c_ret s2) (c_used s2) (c_log s2 ++ [ESub (c_next s2) o'])).
      assert (Hs3 : catch_step hd s2 (CAct i) = Some s3) by (cbn [catch_step]; replace (lookup i (c_acts s2)) with (Some (ADisp o')) by (rewrite A2; unfold lookup; cbn; now rewrite Nat.eqb_refl); reflexivity).
      pose proof (cr_snoc _ R8 Hs3) as R9.
      set (s4 := CState (Some (c_next s2)) (c_next s3) (c_born s3) (drop i (c_acts s3)) (c_h s3) (if i =? 0 then Some (c_next s2) else c_ret s3) (c_used s3) (c_log s3)).
      assert (Hs4 : catch_step hd s3 (CAct i) = Some s4).
      { cbn [catch_step]. replace (lookup i (c_acts s3)) with (Some (@ASub O (c_next s2))); [reflexivity|]. unfold s3. cbn [c_acts]. rewrite A2. unfold lookup, put. cbn. rewrite Nat.eqb_refl. cbn. now rewrite Nat.eqb_refl. }
      pose proof (cr_snoc _ R9 Hs4) as R10.
      assert (Eh : forall j, calls_of j ((h2 ++ [CAct i]) ++ [CAct i]) = calls_of j h2) by (intros j; rewrite !calls_of_snoc; unfold calls_of at 2 3; cbn; now rewrite !app_nil_r).
      apply (IH (S k) content ((h2 ++ [CAct i]) ++ [CAct i]) s4).
      + intros j o1. replace (S k + j) with (k + S j) by lia. exact (Hc (S j) o1).
      + exact R10.
      + now apply no_failures_act, no_failures_act.
      + unfold s4, s3. cbn. rewrite A2. unfold put, drop. cbn. rewrite Nat.eqb_refl. cbn. now rewrite Nat.eqb_refl.
      + exact Q2.
      + unfold s4, s3. cbn. now rewrite N2.
      + rewrite Eh. unfold h2. rewrite calls_of_other, R6 by lia. apply (none_yet H). lia.
      + intros j o1 Hj. unfold s4, s3 in Hj. cbn in Hj. apply in_app_or in Hj as [Hj|[Hj|[]]]; [right|left; injection Hj as <- <-; split; [exact N2|reflexivity]].
        rewrite Eh. unfold h2. destruct (Hsub j o1 (R5 _ _ (L2 _ _ Hj))) as [[-> ->]|(L & S1 & S2)].
        * split; [lia|]. rewrite calls_of_same, R7, Hc0. split; [reflexivity|exact M1].
        * split; [lia|]. rewrite calls_of_other, R6 by lia. now split.
    - assert (Hs : exists s2, catch_step hd s1 (CCall k (OnError x)) = Some s2 /\ c_acts s2 = [] /\ forall j o1, In (ESub j o1) (c_log s2) -> In (ESub j o1) (c_log s1)).
      { cbn [catch_step]. rewrite (cbegun_last _ R3). eexists. split; [reflexivity|]. unfold failover. rewrite Rh, M2. cbn.
        split; [congruence|auto]. }
      destruct Hs as (s2 & Hs & A2 & L2). apply (@Last k content (h1 ++ [CCall k (OnError x)]) s2 o).
      + eapply cr_snoc; eassumption.
      + now apply no_failures_call.
      + exact A2.
      + intros j o1 Hj. destruct (Hsub j o1 (R5 _ _ (L2 _ _ Hj))) as [S1|(L & S1 & S2)]; [now left|right]. split; [exact L|]. split; [rewrite calls_of_other, R6 by lia; exact S1|exact S2].
      + rewrite calls_of_same, R7, Hc0. reflexivity.
      + rewrite Hc0. exact M1.
  Qed.

  Lemma played_caught st o cs vs e : played hd Means st o cs vs e -> forall k (content : nat -> O -> list A * ending), (forall j o', content (k + j) o' = nth j cs ([], Open)) -> caught hd content k st o vs e.
  Proof.
    induction 1 as [st o vs e M1 M2|st o vs x o' st' cs ws e M1 M2 M3 IH|st o vs x y st' M1 M2]; intros k content Hc; pose proof (Hc 0 o) as Hc0; rewrite Nat.add_0_r in Hc0; cbn in Hc0.
    - now apply caught_end.
    - apply caught_next with x o' st'; [exact Hc0|exact M2|].
      apply IH. intros j o1. replace (S k + j) with (k + S j) by lia. exact (Hc (S j) o1).
    - now apply caught_raise with x y st'.
  Qed.

  Lemma catch_complete cs vs e : played hd Means h0 src cs vs e ->
    exists content h (s : cstate H0 O A), creach hd src h0 h s /\ cfollows content h s /\ cfinished content h s /\
      (forall k o, In (ESub k o) (c_log s) -> Means o (fst (content k o)) (snd (content k o))) /\ requests (c_log s) = trace vs e.
  Proof.
    intros Hp. set (content := fun (k : nat) (_ : O) => nth k cs ([], Open)).
    set (s1 := CState None 1 1 [(0, ASub 0)] h0 None false [ESub 0 src] : cstate H0 O A).
    set (s2 := CState (Some 0) 1 1 [] h0 (Some 0) false [ESub 0 src] : cstate H0 O A).
    assert (R1 : creach hd src h0 [CAct 0] s1) by (apply (@cr_snoc _ _ _ hd src h0 [] (c_init src h0) (CAct 0) s1); [constructor|reflexivity]).
    assert (R2 : creach hd src h0 ([CAct 0] ++ [CAct 0]) s2) by (apply (cr_snoc _ R1); reflexivity).
    destruct (@play_all h0 src cs vs e Hp 0 content ([CAct 0] ++ [CAct 0]) s2) as (h & s & H & Hf & D & M).
    - reflexivity.
    - exact R2.
    - intros i e' [Hi|[Hi|[]]]; discriminate.
    - reflexivity.
    - reflexivity.
    - reflexivity.
    - reflexivity.
    - intros j o' [Hj|[]]. injection Hj as <- <-. now left.
    - assert (F : cfollows content h s).
      { split; [exact Hf|]. intros k o Ho. rewrite (proj2 D k o Ho). apply prefix_refl. }
      exists content, h, s. split; [exact H|]. split; [exact F|]. split; [exact D|]. split; [exact M|].
      destruct (catch_all H F D) as (ws & d & C & ->).
      destruct (caught_det C (played_caught Hp 0 content (fun j o' => eq_refl))) as [-> ->]. reflexivity.
  Qed.
End Chain.

Theorem complete A (c : cold A) : one_at_a_time c -> forall vs e, means c vs e -> makes c (trace vs e).
Proof.
  induction c as [A s|A B g c IH|X A maxc c inner IH IHi|A c handler IH IHh|A B C k c d IHc IHd|X A c inner IH IHi|A k c IH|sec per|A n c IH|A P] using cold_induct; intros Hb vs e Hm.
  - apply makes_from. cbn in Hm. now rewrite Hm.
  - destruct Hm as (us & d & M & E). exists (trace us d). split; [exact (IH Hb _ _ M)|]. apply stage_delivers. now rewrite E.
  - destruct Hb as (-> & Hb & Hnf & Hbi). destruct Hm as (xs & oe & M & T).
    assert (Hoe : forall x, oe <> Failed x) by (intros x ->; apply (Hnf (trace xs (Failed x)) x); [exact (IH Hb _ _ M)|apply in_or_app; right; now left]).
    assert (T' : in_turn (fun x => means (inner x)) oe xs vs e) by (destruct oe as [|x|]; [exact T|now elim (Hoe x)|exact T]).
    destruct (turn_complete Hoe T') as (script & h & s & H & F & D & G & Hd).
    exists (trace xs oe), script, h, s. split; [exact (IH Hb _ _ M)|]. split; [exact H|]. split; [exact F|]. split; [exact D|]. split; [|exact Hd].
    intros k x i Hk. destruct (G k x i Hk) as (us & d & Mx & ->). exact (IHi x (Hbi x) _ _ Mx).
  - destruct Hb as (Hb & Hbh).
    set (Means := fun o : option exn => match o with None => means c | Some x => match handler x with Ok c' => means c' | Err _ => fun _ _ => False end end).
    assert (Hp : exists cs, played (answers_to handler) Means tt None cs vs e).
    { apply (@recovered_played (option exn) A (answers_to handler) Means (fun x => match handler x with Ok _ => Some (Some x) | Err _ => None end)) with (P := means c); [|clear -Hm|reflexivity].
      - intros x. unfold answers_to. destruct (handler x) as [c'|y]; cbn; eauto.
      - cbn in Hm. refine (recovered_ext _ _ Hm). intros x. unfold Means. destruct (handler x) eqn:Ex; [rewrite Ex|]; reflexivity. }
    destruct Hp as [cs Hp]. destruct (catch_complete Hp) as (content & h & s & H & F & D & G & E).
    exists content, h, s. split; [exact H|]. split; [exact F|]. split; [exact D|]. split; [|exact E].
    intros k o Hk. specialize (G k o Hk). destruct o as [x|]; cbn in G.
    + specialize (IHh x). specialize (Hbh x). destruct (handler x) as [c'|y]; [|contradiction]. exact (IHh Hbh _ _ G).
    + exact (IH Hb _ _ G).
  - contradiction.
  - contradiction.
  - destruct Hm as (xs & M & Hs). exists (trace xs e). split; [|apply shift_means; now exists vs].
    apply IH; [destruct k; [exact Hb|contradiction..]|exact M].
  - apply ticking_makes. now exists vs, e.
  - cbn in Hm. apply retry_played in Hm as [cs Hp]. destruct (catch_complete Hp) as (content & h & s & H & F & D & G & E).
    exists content, h, s. split; [exact H|]. split; [exact F|]. split; [exact D|]. split; [|exact E].
    intros k o Hk. specialize (G k o Hk). destruct o as [|x]; cbn in G; [exact (IH Hb _ _ G)|]. destruct (content k (RFail x)) as [us d]. cbn in G. destruct G as [-> ->]. reflexivity.
  - exists vs, e. now split.
Qed.

Lemma turn_det X A (Means : X -> list A -> ending -> Prop) oe xs vs e :
  (forall x us d us' d', Means x us d -> Means x us' d' -> us' = us /\ d' = d) ->
  in_turn Means oe xs vs e -> forall vs' e', in_turn Means oe xs vs' e' -> vs' = vs /\ e' = e.
Proof.
  intros Hd. induction 1 as [|x r vs ws e H1 H2 IH|x r vs e H1 H2]; intros vs' e' T; inversion T as [|x1 r1 us1 ws1 e1 T1 T2|x1 r1 us1 e1 T1 T2]; subst.
  - now split.
  - destruct (Hd _ _ _ _ _ H1 T1) as [-> _]. destruct (IH _ _ T2) as [-> ->]. now split.
  - destruct (Hd _ _ _ _ _ H1 T1) as [-> ->]. now elim T2.
  - destruct (Hd _ _ _ _ _ H1 T1) as [-> <-]. now elim H2.
  - exact (Hd _ _ _ _ _ H1 T1).
Qed.

Lemma recovered_det A (answer : exn -> option (list A -> ending -> Prop)) (D : (list A -> ending -> Prop) -> Prop) P vs e :
  (forall Q, D Q -> forall us d us' d', Q us d -> Q us' d' -> us' = us /\ d' = d) -> (forall x Q, answer x = Some Q -> D Q) -> D P ->
  recovered answer P vs e -> forall vs' e', recovered answer P vs' e' -> vs' = vs /\ e' = e.
Proof.
  intros HD HA HP R. revert HP. induction R as [P vs e H1 H2|P vs x Q ws e H1 H2 H3 IH|P vs x H1 H2]; intros HP vs' e' T;
    inversion T as [P1 us1 e1 T1 T2|P1 us1 x1 Q1 ws1 e1 T1 T2 T3|P1 us1 x1 T1 T2]; subst; pose proof (HD _ HP _ _ _ _ H1 T1) as [-> Ee]; try (injection Ee as ->); subst; try (now split).
  - now elim (H2 x1).
  - now elim (H2 x1).
  - now elim (T2 x).
  - rewrite H2 in T2. injection T2 as <-. destruct (IH (HA _ _ H2) _ _ T3) as [-> ->]. now split.
  - congruence.
  - now elim (T2 x).
  - congruence.
Qed.

Theorem determined A (c : cold A) : one_at_a_time c -> forall vs e vs' e', means c vs e -> means c vs' e' -> vs' = vs /\ e' = e.
Proof.
  induction c as [A s|A B g c IH|X A maxc c inner IH IHi|A c handler IH IHh|A B C k c d IHc IHd|X A c inner IH IHi|A k c IH|sec per|A n c IH|A P] using cold_induct; intros Hb vs e vs' e' M M'.
  - cbn in M, M'. rewrite M in M'. injection M' as -> ->. now split.
  - destruct M as (us & d & M & E). destruct M' as (us' & d' & M' & E'). destruct (IH Hb _ _ _ _ M M') as [-> ->]. rewrite E in E'. injection E' as -> ->. now split.
  - destruct Hb as (-> & Hb & Hnf & Hbi). destruct M as (xs & oe & M & T). destruct M' as (xs' & oe' & M' & T'). destruct (IH Hb _ _ _ _ M M') as [-> ->].
    destruct oe as [|x|]; [|elim (Hnf (trace xs (Failed x)) x); [exact (complete _ Hb _ _ M)|apply in_or_app; right; now left]|]; cbn in T, T'; refine (turn_det _ T T'); intros y us d us' d'; apply IHi, Hbi.
  - destruct Hb as (Hb & Hbh). cbn in M, M'.
    refine (@recovered_det A _ (fun Q => Q = means c \/ exists x c', handler x = Ok c' /\ Q = means c') _ vs e _ _ _ M _ _ M').
    + intros Q [->|(x & c' & Ex & ->)] us d us' d' H1 H2; [exact (IH Hb _ _ _ _ H1 H2)|]. specialize (IHh x). specialize (Hbh x). rewrite Ex in IHh, Hbh. exact (IHh Hbh _ _ _ _ H1 H2).
    + intros x Q E. right. destruct (handler x) as [c'|y] eqn:Ex; [|discriminate]. injection E as <-. now exists x, c'.
    + now left.
  - contradiction.
  - contradiction.
  - destruct M as (xs & M & S1). destruct M' as (xs' & M' & S1'). destruct k; [|contradiction..]. cbn in S1, S1'. subst. exact (IH Hb _ _ _ _ M M').
  - cbn in Hb. subst per. destruct M as [-> ->]. destruct M' as [-> ->]. now split.
  - destruct M as [Hn M]. destruct M' as [Hn' M']. destruct M as [M|(En & us & x & ws & M1 & M2 & ->)]; destruct M' as [M'|(En' & us' & x' & ws' & M1' & M2' & ->)].
    + exact (IH Hb _ _ _ _ M M').
    + destruct (IH Hb _ _ _ _ M M1') as [_ E]. now elim (Hn x').
    + destruct (IH Hb _ _ _ _ M' M1) as [_ E]. now elim (Hn' x).
    + destruct (IH Hb _ _ _ _ M1 M1') as [-> _]. destruct (IH Hb _ _ _ _ M2 M2') as [-> ->]. now split.
  - exact (Hb _ _ _ _ M M').
Qed.

(** ** Programs that are alike *)
Lemma sequential_bounded A (c : cold A) : one_at_a_time c -> bounded c.
Proof.
  induction c as [A s|A B g c IH|X A maxc c inner IH IHi|A c handler IH IHh|A B C k c d IHc IHd|X A c inner IH IHi|A k c IH|sec per|A n c IH|A P] using cold_induct; intros Hb.
  - exact I.
  - exact (IH Hb).
  - destruct Hb as (-> & Hb & _ & Hi). split; [lia|]. split; [exact (IH Hb)|]. intros x. exact (IHi x (Hi x)).
  - destruct Hb as (Hb & Hh). split; [exact (IH Hb)|]. intros x. specialize (IHh x). specialize (Hh x). destruct (handler x); auto.
  - contradiction.
  - contradiction.
  - apply IH. destruct k; [exact Hb|contradiction..].
  - exact I.
  - exact (IH Hb).
  - exact I.
Qed.

Lemma makes_means A (c : cold A) : one_at_a_time c -> forall l, makes c l <-> exists vs e, means c vs e /\ l = trace vs e.
Proof. intros Hb l. split; [apply sound, sequential_bounded, Hb|]. intros (vs & e & M & ->). now apply complete. Qed.
Lemma means_makes A (c : cold A) : one_at_a_time c -> forall vs e, means c vs e <-> makes c (trace vs e).
Proof. intros Hb vs e. split; [now apply complete|]. intros H. apply (makes_means c Hb) in H as (us & d & M & E). apply trace_inj in E as [-> ->]. exact M. Qed.

Lemma alike_means A (c d : cold A) : one_at_a_time c -> one_at_a_time d -> (forall vs e, means c vs e <-> means d vs e) -> alike c d.
Proof.
  intros Hc Hd E l. rewrite (makes_means c Hc), (makes_means d Hd). split; intros (vs & e & M & ->); exists vs, e; split; [now apply E|reflexivity|now apply E|reflexivity].
Qed.

Lemma reliable_means A (c : cold A) : one_at_a_time c -> (reliable c <-> forall vs x, ~ means c vs (Failed x)).
Proof.
  intros Hc. split.
  - intros R vs x M. apply (R (trace vs (Failed x)) x); [now apply complete|apply in_or_app; right; now left].
  - intros N l x H F. apply (makes_means c Hc) in H as (vs & e & M & ->). unfold trace in F. apply in_app_or in F as [F|F]; [apply in_map_iff in F as (? & ? & _); discriminate|].
    destruct e as [|y|]; cbn in F; try contradiction; destruct F as [F|[]]; try discriminate. exact (N _ _ M).
Qed.
Lemma productive_means A (c : cold A) : one_at_a_time c -> productive c -> exists vs e, means c vs e.
Proof. intros Hc [l H]. apply (makes_means c Hc) in H as (vs & e & M & _). eauto. Qed.

(** *** Equals for equals *)
Lemma alike_refl A (c : cold A) : alike c c.
Proof. intros l. reflexivity. Qed.
Lemma alike_stage A B (g : stage A B) c d : alike c d -> alike (Stage g c) (Stage g d).
Proof. intros E l. cbn. split; intros (ms & H & D); exists ms; (split; [now apply E|exact D]). Qed.
Lemma alike_inner X A maxc (c d : cold X) (f g : X -> cold A) : alike c d -> (forall x, alike (f x) (g x)) -> alike (Inner maxc c f) (Inner maxc d g).
Proof.
  intros E F l. cbn. split; intros (ms & script & h & s & H1 & H2 & H3 & H4 & H5 & H6); exists ms, script, h, s;
    (split; [now apply E|]); (split; [exact H2|]); (split; [exact H3|]); (split; [exact H4|]); (split; [|exact H6]); intros k x i Hk; apply F; exact (H5 k x i Hk).
Qed.
Lemma alike_caught A (c d : cold A) (f g : exn -> res (cold A)) : alike c d ->
  (forall x, match f x, g x with Ok c', Ok d' => alike c' d' | Err y, Err z => y = z | _, _ => False end) -> alike (Caught c f) (Caught d g).
Proof.
  intros E F.
  assert (R : forall h s, creach (answers_to f) None tt h s <-> @creach unit (option exn) A (answers_to g) None tt h s).
  { assert (Ea : forall u x, answers_to f u x = answers_to g u x) by (intros [] x; unfold answers_to; specialize (F x); destruct (f x), (g x); try contradiction; [reflexivity|now subst]).
    assert (Es : forall (s : cstate unit (option exn) A) l, catch_step (answers_to f) s l = catch_step (answers_to g) s l).
    { intros s [k [a|e|]|i|i e|]; try reflexivity. cbn [catch_step]. unfold failover. now rewrite Ea. }
    intros h s. split; (induction 1 as [|h s l s' H IH Hs]; [constructor|eapply cr_snoc; [exact IH|]]); [now rewrite <- Es|now rewrite Es]. }
  intros l. cbn. split; intros (content & h & s & H1 & H2 & H3 & H4 & H5); exists content, h, s;
    (split; [now apply R|]); (split; [exact H2|]); (split; [exact H3|]); (split; [|exact H5]); intros k o Hk; specialize (H4 k o Hk);
    (destruct o as [x|]; [specialize (F x); destruct (f x), (g x); try contradiction; now apply F|now apply E]).
Qed.

Lemma alike_shifted A k (c d : cold A) : alike c d -> alike (Shifted k c) (Shifted k d).
Proof. intros E l. cbn. split; intros (ms & H & D); exists ms; (split; [now apply E|exact D]). Qed.
Lemma alike_retried A n (c d : cold A) : alike c d -> alike (Retried n c) (Retried n d).
Proof.
  intros E l. cbn. split; intros (content & h & s & H1 & H2 & H3 & H4 & H5); exists content, h, s;
    (split; [exact H1|]); (split; [exact H2|]); (split; [exact H3|]); (split; [|exact H5]); intros k o Hk; specialize (H4 k o Hk); (destruct o as [|x]; [now apply E|exact H4]).
Qed.

(** *** in_turn *)
Section Turn.
  Context {X A : Type} (M : X -> list A -> ending -> Prop).
  Lemma turn_completed oe xs vs e : in_turn M oe xs vs e -> e = Completed -> oe = Completed.
  Proof. induction 1 as [|x r vs ws e H1 H2 IH|x r vs e H1 H2]; intros E; auto. now elim H2. Qed.
  Lemma turn_failed oe xs vs e x : in_turn M oe xs vs e -> e = Failed x -> oe = Failed x \/ exists y us, In y xs /\ M y us (Failed x).
  Proof.
    induction 1 as [|y r vs ws e H1 H2 IH|y r vs e H1 H2]; intros E; auto.
    - destruct (IH E) as [->|(z & us & Hz & Mz)]; [now left|right; exists z, us; split; [now right|exact Mz]].
    - right. exists y, vs. subst e. split; [now left|exact H1].
  Qed.
  Lemma turn_app xs : forall ys oe us ws e, in_turn M Completed xs us Completed -> in_turn M oe ys ws e -> in_turn M oe (xs ++ ys) (us ++ ws) e.
  Proof.
    induction xs as [|x xs IH]; intros ys oe us ws e H1 H2; inversion H1 as [|x1 r1 us1 ws1 e1 T1 T2|x1 r1 us1 e1 T1 T2]; subst.
    - exact H2.
    - rewrite <- app_assoc. cbn. constructor; [exact T1|]. now apply IH.
    - now elim T2.
  Qed.
  Lemma turn_stop xs : forall ys oe oe' us e, in_turn M oe xs us e -> e <> Completed -> oe = Completed -> in_turn M oe' (xs ++ ys) us e.
  Proof.
    intros ys oe oe' us e. induction 1 as [|x r vs ws e H1 H2 IH|x r vs e H1 H2]; intros He Eo.
    - congruence.
    - cbn. constructor; auto.
    - cbn. now apply turn_last.
  Qed.
  Lemma turn_split xs : forall ys oe vs e, in_turn M oe (xs ++ ys) vs e ->
    (exists us ws, vs = us ++ ws /\ in_turn M Completed xs us Completed /\ in_turn M oe ys ws e) \/ e <> Completed /\ in_turn M Completed xs vs e.
  Proof.
    induction xs as [|x xs IH]; intros ys oe vs e H.
    - left. exists [], vs. split; [reflexivity|]. split; [constructor|exact H].
    - cbn in H. inversion H as [|x1 r1 us1 ws1 e1 T1 T2|x1 r1 us1 e1 T1 T2]; subst.
      + destruct (IH _ _ _ _ T2) as [(us & ws & -> & P & Q)|[P Q]].
        * left. exists (us1 ++ us), ws. split; [apply app_assoc|]. split; [now constructor|exact Q].
        * right. split; [exact P|now constructor].
      + right. split; [exact T2|now apply turn_last].
  Qed.
  Lemma turn_total oe xs : (forall x, exists vs e, M x vs e) -> exists vs e, in_turn M oe xs vs e.
  Proof.
    intros T. induction xs as [|x xs (ws & e & IH)]; [exists [], oe; constructor|]. destruct (T x) as (vs & d & Hx).
    destruct d as [|y|]; [exists vs, Open|exists vs, (Failed y)|exists (vs ++ ws), e]; [now apply turn_last|now apply turn_last|now constructor].
  Qed.
  Lemma turn_single oe x vs e : oe = Completed -> (in_turn M oe [x] vs e <-> M x vs e).
  Proof.
    intros ->. split; intros H.
    - inversion H as [|x1 r1 us1 ws1 e1 T1 T2|x1 r1 us1 e1 T1 T2]; subst; [|exact T1]. inversion T2; subst. now rewrite app_nil_r.
    - destruct e as [|y|]; [now apply turn_last|now apply turn_last|]. rewrite <- (app_nil_r vs). constructor; [exact H|constructor].
  Qed.
End Turn.

Lemma turn_ext X A (M N : X -> list A -> ending -> Prop) oe xs : (forall x, In x xs -> forall vs e, M x vs e <-> N x vs e) -> forall vs e, in_turn M oe xs vs e <-> in_turn N oe xs vs e.
Proof.
  enough (G : forall (M N : X -> list A -> ending -> Prop), (forall x, In x xs -> forall vs e, M x vs e <-> N x vs e) -> forall vs e, in_turn M oe xs vs e -> in_turn N oe xs vs e).
  { intros E vs e. split; apply G; [exact E|]. intros x Hx us d. symmetry. now apply E. }
  clear M N. intros M N E vs e H. induction H as [|x r vs ws e H1 H2 IH|x r vs e H1 H2].
  - constructor.
  - constructor; [apply E; [now left|exact H1]|]. apply IH. intros y Hy. apply E. now right.
  - apply turn_last; [apply E; [now left|exact H1]|exact H2].
Qed.
Lemma turn_map X Y A (M : Y -> list A -> ending -> Prop) (f : X -> Y) oe xs : forall vs e, in_turn (fun x => M (f x)) oe xs vs e <-> in_turn M oe (map f xs) vs e.
Proof.
  intros vs e. split; intros H.
  - induction H as [|x r vs ws e H1 H2 IH|x r vs e H1 H2]; cbn; [constructor|now constructor|now apply turn_last].
  - revert vs e H. induction xs as [|x xs IH]; intros vs e H; cbn in H; inversion H as [|x1 r1 us1 ws1 e1 T1 T2|x1 r1 us1 e1 T1 T2]; subst; [constructor|constructor; auto|now apply turn_last].
Qed.

Section Nested.
  Context {X Y A : Type} (F : X -> list Y -> ending -> Prop) (G : Y -> list A -> ending -> Prop).
  Definition through (x : X) (vs : list A) (e : ending) : Prop := exists ys d, F x ys d /\ in_turn G d ys vs e.
  Lemma nested oe xs ys d : in_turn F oe xs ys d -> forall vs e, in_turn G d ys vs e -> in_turn through oe xs vs e.
  Proof.
    induction 1 as [|x r us ws d H1 H2 IH|x r us d H1 H2]; intros vs e T.
    - inversion T; subst. constructor.
    - destruct (turn_split _ _ T) as [(a & b & -> & T1 & T2)|[Ne T1]].
      + constructor; [now exists us, Completed|now apply IH].
      + apply turn_last; [now exists us, Completed|exact Ne].
    - apply turn_last; [now exists us, d|]. intros ->. now apply H2, (turn_completed T).
  Qed.
  Lemma unnested oe xs vs e : (forall x, exists ys d, F x ys d) -> in_turn through oe xs vs e -> exists ys d, in_turn F oe xs ys d /\ in_turn G d ys vs e.
  Proof.
    intros Tot. induction 1 as [|x r us ws e (ys & d & H1 & H2) H3 (zs & d' & IH1 & IH2)|x r us e (ys & d & H1 & H2) H3].
    - exists [], oe. split; constructor.
    - pose proof (turn_completed H2 eq_refl) as ->. exists (ys ++ zs), d'. split; [now constructor|now apply turn_app].
    - destruct d as [|y|]; [exists ys, Open|exists ys, (Failed y)|]; [split; [now apply turn_last|exact H2]..|].
      destruct (turn_total F oe r Tot) as (zs & d & T). exists (ys ++ zs), d. split; [now constructor|]. now apply (turn_stop zs d H2).
  Qed.
End Nested.

(** *** concat_map and concat_seq *)
Lemma results_ok X (xs : list X) : results (fun x => Ok x) xs = (xs, None).
Proof. induction xs as [|x xs IH]; cbn; [reflexivity|]. now rewrite IH. Qed.
Lemma means_named X (c : cold X) xs oe : means (Stage (SMap (fun x => Ok x)) c) xs oe <-> means c xs oe.
Proof.
  cbn. split.
  - intros (us & d & M & E). rewrite results_ok in E. cbn in E. injection E as <- <-. exact M.
  - intros M. exists xs, oe. split; [exact M|]. now rewrite results_ok.
Qed.
Lemma means_concat_map X A (f : X -> cold A) c vs e : one_at_a_time c -> reliable c ->
  (means (concat_map_ f c) vs e <-> exists xs oe, means c xs oe /\ in_turn (fun x => means (f x)) oe xs vs e).
Proof.
  intros Hc Hr. pose proof (proj1 (reliable_means _ Hc) Hr) as N. unfold concat_map_. change (means (Inner 1 ?c ?f) vs e) with
    (exists xs oe, means c xs oe /\ if (1 =? 1)%Z && match oe with Failed _ => false | _ => true end then in_turn (fun x => means (f x)) oe xs vs e else together (fun x => means (f x)) 1 oe xs vs e).
  split; intros (xs & oe & M & T); exists xs, oe.
  - apply (proj1 (means_named _ _ _)) in M. split; [exact M|]. destruct oe as [|x|]; [exact T|now elim (N _ _ M)|exact T].
  - split; [now apply means_named|]. destruct oe as [|x|]; [exact T|now elim (N _ _ M)|exact T].
Qed.

Lemma seq_concat_map X A (f : X -> cold A) c : one_at_a_time c -> reliable c -> (forall x, one_at_a_time (f x)) -> one_at_a_time (concat_map_ f c).
Proof.
  intros Hc Hr Hf. split; [reflexivity|]. split; [exact Hc|]. split; [|exact Hf].
  apply reliable_means; [exact Hc|]. intros xs x M. apply (proj1 (means_named _ _ _)) in M. exact (proj1 (reliable_means _ Hc) Hr _ _ M).
Qed.
Lemma reliable_concat_map X A (f : X -> cold A) c : one_at_a_time c -> reliable c -> (forall x, one_at_a_time (f x)) -> (forall x, reliable (f x)) -> reliable (concat_map_ f c).
Proof.
  intros Hc Hr Hf Hrf. apply reliable_means; [now apply seq_concat_map|]. intros vs x M. apply (means_concat_map f vs (Failed x) Hc Hr) in M as (xs & oe & M & T).
  destruct (turn_failed T eq_refl) as [->|(y & us & _ & My)]; [exact (proj1 (reliable_means _ Hc) Hr _ _ M)|exact (proj1 (reliable_means _ (Hf y)) (Hrf y) _ _ My)].
Qed.

Lemma left_identity X A (f : X -> cold A) v : (forall x, one_at_a_time (f x)) -> alike (concat_map_ f (From (Single v))) (f v).
Proof.
  intros Hf. assert (Hr : reliable (From (Single v))) by (apply reliable_means; [exact I|]; intros xs x M; discriminate M).
  apply alike_means; [now apply seq_concat_map|apply Hf|]. intros vs e. rewrite (@means_concat_map X A f (From (Single v)) vs e I Hr). split.
  - intros (xs & oe & M & T). cbn in M. injection M as <- <-. now apply turn_single in T.
  - intros M. exists [v], Completed. split; [reflexivity|now apply turn_single].
Qed.

Lemma turn_values X oe (xs : list X) : forall vs e, in_turn (fun x vs e => ([x], Completed) = (vs, e)) oe xs vs e <-> vs = xs /\ e = oe.
Proof.
  induction xs as [|x xs IH]; intros vs e; split.
  - intros H. inversion H. now split.
  - intros [-> ->]. constructor.
  - intros H. inversion H as [|x1 r1 us1 ws1 e1 T1 T2|x1 r1 us1 e1 T1 T2]; subst.
    + injection T1 as <-. apply IH in T2 as [-> ->]. now split.
    + injection T1 as <- <-. now elim T2.
  - intros [-> ->]. change (x :: xs) with ([x] ++ xs) at 2. constructor; [reflexivity|]. apply IH. now split.
Qed.
Lemma right_identity X (c : cold X) : one_at_a_time c -> reliable c -> alike (concat_map_ (fun x => From (Single x)) c) c.
Proof.
  intros Hc Hr. apply alike_means; [apply seq_concat_map; [exact Hc|exact Hr|exact (fun _ => I)]|exact Hc|]. intros vs e. rewrite (means_concat_map _ vs e Hc Hr). split.
  - intros (xs & oe & M & T). apply (turn_values oe xs) in T as [-> ->]. exact M.
  - intros M. exists vs, e. split; [exact M|]. now apply (turn_values e vs).
Qed.

Lemma associativity X Y A (f : X -> cold Y) (g : Y -> cold A) c : one_at_a_time c -> reliable c ->
  (forall x, one_at_a_time (f x) /\ reliable (f x) /\ productive (f x)) -> (forall y, one_at_a_time (g y)) ->
  alike (concat_map_ g (concat_map_ f c)) (concat_map_ (fun x => concat_map_ g (f x)) c).
Proof.
  intros Hc Hr Hf Hg. assert (F1 : forall x, one_at_a_time (f x)) by apply Hf. assert (F2 : forall x, reliable (f x)) by apply Hf.
  assert (C1 : one_at_a_time (concat_map_ f c)) by (now apply seq_concat_map). assert (C2 : reliable (concat_map_ f c)) by (now apply reliable_concat_map).
  apply alike_means; [now apply seq_concat_map|apply seq_concat_map; [exact Hc|exact Hr|intros x; now apply seq_concat_map]|]. intros vs e.
  rewrite (means_concat_map _ vs e C1 C2), (means_concat_map _ vs e Hc Hr). split.
  - intros (ys & d & M & T). apply (means_concat_map f ys d Hc Hr) in M as (xs & oe & M & S). exists xs, oe. split; [exact M|].
    pose proof (nested S T) as N. refine (proj1 (turn_ext _ _ _ _ _ _ _) N). intros x _ us d'. symmetry. apply (means_concat_map _ us d' (F1 x) (F2 x)).
  - intros (xs & oe & M & T).
    assert (T' : in_turn (through (fun x => means (f x)) (fun y => means (g y))) oe xs vs e)
      by (refine (proj1 (turn_ext _ _ _ _ _ _ _) T); intros x _ us d; apply (means_concat_map _ us d (F1 x) (F2 x))).
    destruct (unnested (fun x => productive_means (F1 x) (proj2 (proj2 (Hf x)))) T') as (ys & d & S & T2).
    exists ys, d. split; [|exact T2]. apply (means_concat_map f ys d Hc Hr). eauto.
Qed.

Lemma map_nth_seq0 Y (d : Y) (l : list Y) : map (fun i => nth i l d) (seq 0 (length l)) = l.
Proof.
  apply nth_ext with d d; [now rewrite map_length, seq_length|]. intros n L. rewrite map_length, seq_length in L.
  rewrite nth_indep with (d' := nth 0 l d) by (now rewrite map_length, seq_length). rewrite (map_nth (fun i => nth i l d)), seq_nth by exact L. reflexivity.
Qed.
Lemma means_concat_seq A (l : list (cold A)) vs e : means (concat_seq_ l) vs e <-> in_turn means Completed l vs e.
Proof.
  pose proof (turn_map means (fun i => nth i l (From Empty)) Completed (seq 0 (length l)) vs e) as E. rewrite map_nth_seq0 in E. rewrite <- E. cbn. split.
  - intros (xs & oe & M & T). injection M as <- <-. exact T.
  - intros T. exists (seq 0 (length l)), Completed. split; [reflexivity|exact T].
Qed.
Lemma seq_concat_seq A (l : list (cold A)) : Forall one_at_a_time l -> one_at_a_time (concat_seq_ l).
Proof.
  intros H. split; [reflexivity|]. split; [exact I|]. split; [apply reliable_means; [exact I|]; intros xs x M; discriminate M|].
  intros i. destruct (nth_in_or_default i l (From Empty)) as [Hi| ->]; [|exact I]. rewrite Forall_forall in H. exact (H _ Hi).
Qed.

Lemma concat_none A : alike (concat_seq_ (@nil (cold A))) (From Empty).
Proof.
  apply alike_means; [now apply seq_concat_seq|exact I|]. intros vs e. rewrite means_concat_seq. cbn. split; intros H; [inversion H; reflexivity|injection H as <- <-; constructor].
Qed.
Lemma concat_one A (c : cold A) : one_at_a_time c -> alike (concat_seq_ [c]) c.
Proof. intros Hc. apply alike_means; [apply seq_concat_seq; now constructor|exact Hc|]. intros vs e. rewrite means_concat_seq. now apply turn_single. Qed.
Lemma concat_grouped A (l m : list (cold A)) : Forall one_at_a_time l -> Forall one_at_a_time m ->
  alike (concat_seq_ [concat_seq_ l; concat_seq_ m]) (concat_seq_ (l ++ m)).
Proof.
  intros Hl Hm. pose proof (seq_concat_seq Hl) as Sl. pose proof (seq_concat_seq Hm) as Sm.
  apply alike_means; [exact (seq_concat_seq (Forall_cons _ Sl (Forall_cons _ Sm (Forall_nil _))))|apply seq_concat_seq, Forall_app; now split|].
  intros vs e. rewrite !means_concat_seq. split; intros H.
  - inversion H as [|x1 r1 us1 ws1 e1 T1 T2|x1 r1 us1 e1 T1 T2]; subst; apply means_concat_seq in T1.
    + apply turn_single in T2; [|reflexivity]. apply means_concat_seq in T2. now apply turn_app.
    + now apply (turn_stop m Completed T1).
  - destruct (turn_split _ _ H) as [(us & ws & -> & P & Q)|[P Q]].
    + constructor; [now apply means_concat_seq|]. apply turn_single; [reflexivity|now apply means_concat_seq].
    + apply turn_last; [now apply means_concat_seq|exact P].
Qed.
Lemma concat_flat A (l : list (cold A)) c m : Forall one_at_a_time l -> one_at_a_time c -> Forall one_at_a_time m ->
  (forall vs, ~ means c vs Completed) -> alike (concat_seq_ (l ++ c :: m)) (concat_seq_ (l ++ [c])).
Proof.
  intros Hl Hc Hm N. apply alike_means; [apply seq_concat_seq, Forall_app; split; [exact Hl|exact (Forall_cons _ Hc Hm)]|apply seq_concat_seq, Forall_app; split; [exact Hl|exact (Forall_cons _ Hc (Forall_nil _))]|].
  intros vs e. rewrite !means_concat_seq. split; intros H; (destruct (turn_split _ _ H) as [(us & ws & -> & P & Q)|[P Q]]; [apply turn_app; [exact P|]|now apply (turn_stop _ Completed Q)]);
    inversion Q as [|x1 r1 us1 ws1 e1 T1 T2|x1 r1 us1 e1 T1 T2]; subst; try (now elim (N us1)); now apply turn_last.
Qed.

(** *** catch *)
Lemma recovered_reliable A (answer : exn -> option (list A -> ending -> Prop)) P vs e : recovered answer P vs e -> forall x, e <> Failed x.
Proof. induction 1 as [P vs e H1 H2|P vs x Q ws e H1 H2 H3 IH|P vs x H1 H2]; intros y; auto. discriminate. Qed.
Lemma caught_reliable A (c : cold A) handler : bounded (Caught c handler) -> reliable (Caught c handler).
Proof.
  intros Hb l x H F. destruct (sound _ Hb _ H) as (vs & e & M & ->). pose proof (recovered_reliable M) as N. unfold trace in F.
  apply in_app_or in F as [F|F]; [apply in_map_iff in F as (? & ? & _); discriminate|]. destruct e as [|y|]; cbn in F; try contradiction; destruct F as [F|[]]; try discriminate. now elim (N y).
Qed.
Lemma catch_unneeded A (c : cold A) handler : one_at_a_time (Caught c handler) -> reliable c -> alike (Caught c handler) c.
Proof.
  intros Hh Hr. pose proof Hh as [Hc _]. apply alike_means; [exact Hh|exact Hc|]. pose proof (proj1 (reliable_means _ Hc) Hr) as N.
  intros vs e. cbn. split.
  - intros R. inversion R as [P1 us1 e1 T1 T2|P1 us1 x1 Q1 ws1 e1 T1 T2 T3|P1 us1 x1 T1 T2]; subst; [exact T1|now elim (N _ _ T1)..].
  - intros M. apply rec_end; [exact M|]. intros x ->. exact (N _ _ M).
Qed.
Lemma catch_twice A (c : cold A) handler handler' : one_at_a_time (Caught (Caught c handler) handler') -> alike (Caught (Caught c handler) handler') (Caught c handler).
Proof. intros H. apply catch_unneeded; [exact H|]. apply caught_reliable, sequential_bounded, (proj1 H). Qed.
Lemma catch_fail A x (handler : exn -> res (cold A)) c : one_at_a_time (Caught (From (Worker (WFail x))) handler) -> handler x = Ok c ->
  alike (Caught (From (Worker (WFail x))) handler) (Caught c handler).
Proof.
  intros Hh Ex. pose proof Hh as [_ Hall]. assert (Hc : one_at_a_time c) by (specialize (Hall x); now rewrite Ex in Hall).
  apply alike_means; [exact Hh|now split|]. intros vs e. cbn. split.
  - intros R. inversion R as [P1 us1 e1 T1 T2|P1 us1 x1 Q1 ws1 e1 T1 T2 T3|P1 us1 x1 T1 T2]; subst.
    + injection T1 as <- <-. now elim (T2 x).
    + injection T1 as <- <-. rewrite Ex in T2. injection T2 as <-. exact T3.
    + injection T1 as <- <-. now rewrite Ex in T2.
  - intros R. change vs with ([] ++ vs). apply rec_next with x (means c); [reflexivity|now rewrite Ex|exact R].
Qed.

(** *** Operators that treat every element by itself *)
Lemma results_app X Y (m : X -> res Y) us ws : results m (us ++ ws) =
  match results m us with (bs, Some x) => (bs, Some x) | (bs, None) => (bs ++ fst (results m ws), snd (results m ws)) end.
Proof.
  induction us as [|u us IH]; cbn; [now destruct (results m ws)|]. destruct (m u) as [b|x]; [|reflexivity]. rewrite IH.
  destruct (results m us) as [bs [x|]]; reflexivity.
Qed.
Lemma somes_app Y (a b : list (option Y)) : somes (a ++ b) = somes a ++ somes b.
Proof. induction a as [|[y|] a IH]; cbn; [reflexivity| |exact IH]. now rewrite IH. Qed.

Section Elementwise.
  Context {A B : Type} (R : list A -> ending -> list B * ending).
  Definition local : Prop := (forall d, R [] d = ([], d)) /\
    (forall us bs, R us Completed = (bs, Completed) -> forall ws d, R (us ++ ws) d = (bs ++ fst (R ws d), snd (R ws d))) /\
    (forall us bs e, R us Completed = (bs, e) -> e <> Completed -> forall ws d, R (us ++ ws) d = (bs, e)) /\
    (forall us d bs, R us d = (bs, Completed) -> d = Completed).
  Hypothesis HR : local.
  Context {X : Type} (F : X -> list A -> ending -> Prop).
  Definition staged (x : X) (vs : list B) (e : ending) : Prop := exists us d, F x us d /\ R us d = (vs, e).

  Lemma spread oe xs us d : in_turn F oe xs us d -> forall vs e, R us d = (vs, e) -> in_turn staged oe xs vs e.
  Proof.
    destruct HR as (R1 & R2 & R3 & R4). induction 1 as [|x r us ws d H1 H2 IH|x r us d H1 H2]; intros vs e E.
    - rewrite R1 in E. injection E as <- <-. constructor.
    - destruct (R us Completed) as [bs e1] eqn:E1. destruct e1 as [|y|].
      + rewrite (R3 _ _ _ E1) in E by discriminate. injection E as <- <-. apply turn_last; [now exists us, Completed|discriminate].
      + rewrite (R3 _ _ _ E1) in E by discriminate. injection E as <- <-. apply turn_last; [now exists us, Completed|discriminate].
      + rewrite (R2 _ _ E1) in E. injection E as <- <-. constructor; [now exists us, Completed|]. apply IH. now destruct (R ws d).
    - apply turn_last; [now exists us, d|]. intros ->. exact (H2 (R4 _ _ _ E)).
  Qed.
  Lemma gathered oe xs vs e : (forall x, exists us d, F x us d) -> in_turn staged oe xs vs e -> exists us d, in_turn F oe xs us d /\ R us d = (vs, e).
  Proof.
    destruct HR as (R1 & R2 & R3 & R4). intros Tot. induction 1 as [|x r vs ws e (us & d & H1 & H2) H3 (us' & d' & IH1 & IH2)|x r vs e (us & d & H1 & H2) H3].
    - exists [], oe. split; [constructor|apply R1].
    - pose proof (R4 _ _ _ H2) as ->. exists (us ++ us'), d'. split; [now constructor|]. rewrite (R2 _ _ H2), IH2. reflexivity.
    - destruct d as [|y|]; [exists us, Open|exists us, (Failed y)|]; [split; [now apply turn_last|exact H2]..|].
      destruct (turn_total F oe r Tot) as (zs & d & T). exists (us ++ zs), d. split; [now constructor|]. now apply R3.
  Qed.
End Elementwise.

Lemma local_map A B C (m : A -> res B) (k : list B -> list C) : k [] = [] -> (forall a b, k (a ++ b) = k a ++ k b) ->
  local (fun vs e => let (bs, x) := results m vs in (k bs, or_failed x e)).
Proof.
  intros K0 K. split; [|split; [|split]].
  - intros d. cbn. now rewrite K0.
  - intros us bs E ws d. rewrite results_app. destruct (results m us) as [cs [x|]]; cbn in E; [discriminate|]. injection E as <-. destruct (results m ws) as [es y]. cbn. now rewrite K.
  - intros us bs e E Ne ws d. rewrite results_app. destruct (results m us) as [cs [x|]]; cbn in E; [exact E|]. injection E as <- <-. now elim Ne.
  - intros us d bs E. destruct (results m us) as [cs [x|]]; cbn in E; [discriminate|congruence].
Qed.
Lemma local_stage A B (g : stage A B) : elementwise g -> local (result_of g).
Proof.
  destruct g; intros []; cbn [result_of].
  - exact (local_map f (fun l => l) eq_refl (fun _ _ => eq_refl)).
  - exact (local_map f (fun l => l) eq_refl (fun _ _ => eq_refl)).
  - exact (local_map (keep p) (@somes A) eq_refl (@somes_app A)).
  - exact (local_map f (@somes B) eq_refl (@somes_app B)).
  - exact (local_map (keep p) (@somes A) eq_refl (@somes_app A)).
  - exact (local_map f (@somes B) eq_refl (@somes_app B)).
Qed.

Lemma stage_concat_map X A B (g : stage A B) (f : X -> cold A) c : elementwise g -> one_at_a_time c -> reliable c ->
  (forall x, one_at_a_time (f x) /\ productive (f x)) ->
  alike (Stage g (concat_map_ f c)) (concat_map_ (fun x => Stage g (f x)) c).
Proof.
  intros Hg Hc Hr Hf. pose proof (local_stage g Hg) as L. assert (F1 : forall x, one_at_a_time (f x)) by apply Hf.
  apply alike_means; [exact (seq_concat_map f Hc Hr F1)|apply seq_concat_map; [exact Hc|exact Hr|exact F1]|].
  intros vs e. rewrite (means_concat_map _ vs e Hc Hr). split.
  - intros (us & d & M & E). apply (means_concat_map f us d Hc Hr) in M as (xs & oe & M & S). exists xs, oe. split; [exact M|]. exact (spread L S E).
  - intros (xs & oe & M & T). destruct (@gathered _ _ _ L X (fun x => means (f x)) oe xs vs e (fun x => productive_means (F1 x) (proj2 (Hf x))) T) as (us & d & S & E).
    exists us, d. split; [|exact E]. apply (means_concat_map f us d Hc Hr). eauto.
Qed.

(** ** Examples of runs *)
Lemma reliable_source A (s : source A) : (forall x, snd (source_means s) <> Failed x) -> reliable (From s).
Proof. intros N. apply reliable_means; [exact I|]. intros vs x M. cbn in M. apply (N x). now rewrite M. Qed.

Lemma makes_from_iff A (s : source A) l : makes (From s) l <-> l = trace (fst (source_means s)) (snd (source_means s)).
Proof.
  rewrite (makes_means (From s) I). cbn. split; [intros (vs & e & -> & ->); reflexivity|]. intros ->. exists (fst (source_means s)), (snd (source_means s)). split; [now destruct (source_means s)|reflexivity].
Qed.

Lemma mreach_run O A maxc (h : list (mlabel O A)) : forall h0 s0 s, mreach maxc h0 s0 ->
  fold_left (fun r l => match r with Some s => mstep maxc s l | None => None end) h (Some s0) = Some s -> mreach maxc (h0 ++ h) s.
Proof.
  induction h as [|l h IH]; intros h0 s0 s H E; cbn in E; [injection E as <-; now rewrite app_nil_r|].
  destruct (mstep maxc s0 l) as [s1|] eqn:Es.
  - replace (h0 ++ l :: h) with ((h0 ++ [l]) ++ h) by (now rewrite <- app_assoc). apply (IH _ s1); [eapply mr_snoc; eassumption|exact E].
  - exfalso. clear -E. induction h as [|l h IH]; cbn in E; [discriminate|auto].
Qed.
