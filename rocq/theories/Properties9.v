(** * Properties C39-C41 and C56: cold sources. *)
From Verif Require Import SourceProofs AsyncIterProofs Properties2.
Set Implicit Arguments.

(** ** C39 *)
(** from_iterable(xs) in front of any pipeline [p] and any subscriber: whatever
    the schedule, the same as the calls "elements of xs, then completion"
    on a safe_observer in front of [p]. *)
Theorem C39_of_seq_in_pipeline : forall Z A (pol : policy Z) (p : pipe Z A) (xs : list A) l,
  delivers (psys pol (safe p)) (trace xs Completed) l -> source_delivers pol (of_seq xs) p l.
Proof. intros Z A pol p xs l [H _]. exact (src_delivers (of_seq xs) p H). Qed.
Print Assumptions C39_of_seq_in_pipeline.

Lemma safe_end A (vs : list A) e junk : delivers (psys well_behaved (safe PEnd)) (source_calls vs e junk) (trace vs e).
Proof.
  apply delivers_iff; [apply sane_psys|]. apply finally_raising.
  enough (H : forall l, user_calls well_behaved l (source_calls vs e junk) = l ++ trace vs e) by now rewrite H.
  unfold source_calls, trace. induction vs as [|v vs IH]; intros l; cbn.
  - destruct e; cbn; now rewrite ?app_nil_r.
  - rewrite IH. now rewrite <- app_assoc.
Qed.

Theorem C39_of_seq : forall A (xs : list A), source_delivers well_behaved (of_seq xs) PEnd (trace xs Completed).
Proof.
  intros A xs. apply C39_of_seq_in_pipeline. pose proof (safe_end xs Completed []) as H.
  unfold source_calls in H. now rewrite app_nil_r in H.
Qed.
Print Assumptions C39_of_seq.

(** An iterator that raises [e] after [xs]: the elements, and then nothing. *)
Theorem C39_raising_iterator : forall A (xs : list A) e,
  source_delivers well_behaved (of_iterable xs (Some e)) PEnd (trace xs Open).
Proof.
  intros A xs e. apply src_delivers. unfold all_calls. cbn.
  pose proof (safe_end xs Open []) as [H _]. unfold source_calls in H. now rewrite app_nil_r in H.
Qed.
Print Assumptions C39_raising_iterator.

(** The subscriber is told about the iterator's exception?  No. *)
Theorem C39_error_reported_refuted :
  ~ (forall (xs : list nat) e l, source_delivers well_behaved (of_iterable xs (Some e)) PEnd l -> In (OnError e) l).
Proof.
  intros F. specialize (F [1] ValueError _ (C39_raising_iterator [1] ValueError)). destruct F as [F|[]]. discriminate.
Qed.
Print Assumptions C39_error_reported_refuted.

(** from_iterable(xs) | filter(p). *)
Example C39_case : source_delivers well_behaved (of_seq [1; 2; 3]) (filter_ (fun x => Ok (Nat.odd x)) PEnd)
  [OnNext 1; OnNext 3; OnCompleted].
Proof.
  apply C39_of_seq_in_pipeline.
  exact (@C10_filter nat Nat.odd [1; 2; 3] Completed []).
Qed.
(** A history with these hypotheses: the worker starts, two steps of the safe_observer. *)
Example C39_case_history : exists s, src_reach well_behaved (of_seq [7; 8]) PEnd [TStart; TPipe 0] s /\
  src_log well_behaved (of_seq [7; 8]) PEnd s = [OnNext 7].
Proof.
  eexists. split; [exact (sr_snoc (h := [TStart]) (TPipe 0) (sr_snoc (h := []) TStart (sr_nil well_behaved (of_seq [7; 8]) PEnd) eq_refl) eq_refl)|].
  reflexivity.
Qed.

(** ** C40 *)
Theorem C40_single : forall A (v : A), source_delivers well_behaved (Single v) PEnd (trace [v] Completed).
Proof. intros A v. apply src_delivers. exact (proj1 (safe_end [v] Completed [])). Qed.
Print Assumptions C40_single.

Theorem C40_empty : forall A, source_delivers well_behaved (@Empty A) PEnd (trace [] Completed).
Proof. intros A. apply src_delivers. now apply finally_end. Qed.
Print Assumptions C40_empty.

Theorem C40_never : forall A, source_delivers well_behaved (@Never A) PEnd (trace [] Open).
Proof. intros A. apply src_delivers. now apply finally_end. Qed.
Print Assumptions C40_never.

Theorem C40_fail : forall A e, source_delivers well_behaved (@fail A e) PEnd (trace [] (Failed e)).
Proof. intros A e. apply src_delivers. exact (proj1 (safe_end [] (Failed e) [])). Qed.
Print Assumptions C40_fail.

(** of_async: the workflow returns [v], raises [e], or is cancelled. *)
Theorem C40_of_async_result : forall A (v : A), source_delivers well_behaved (of_async (Some (Ok v))) PEnd (trace [v] Completed).
Proof. intros A v. apply src_delivers. exact (proj1 (safe_end [v] Completed [])). Qed.
Print Assumptions C40_of_async_result.

Theorem C40_of_async_raises : forall A e, source_delivers well_behaved (@of_async A (Some (Err e))) PEnd (trace [] (Failed e)).
Proof. intros A e. apply src_delivers. exact (proj1 (safe_end [] (Failed e) [OnCompleted])). Qed.
Print Assumptions C40_of_async_raises.

Theorem C40_of_async_cancelled : forall A, source_delivers well_behaved (@of_async A None) PEnd (trace [] Completed).
Proof. intros A. apply src_delivers. exact (proj1 (safe_end [] Completed [])). Qed.
Print Assumptions C40_of_async_cancelled.

(** In front of any pipeline and any subscriber. *)
Theorem C40_in_pipeline : forall Z A (pol : policy Z) (p : pipe Z A) l,
  (forall v, delivers (psys pol (safe p)) (trace [v] Completed) l -> source_delivers pol (Single v) p l) /\
  (forall e, delivers (psys pol (safe p)) (trace [] (Failed e)) l -> source_delivers pol (fail e) p l) /\
  (forall v, delivers (psys pol (safe p)) (trace [v] Completed) l -> source_delivers pol (of_async (Some (Ok v))) p l) /\
  (delivers (psys pol p) (trace [] Completed) l -> source_delivers pol Empty p l) /\
  (delivers (psys pol p) (trace [] Open) l -> source_delivers pol Never p l).
Proof. 
  intros Z A pol p l. split; [|split; [|split; [|split]]]; [intros v|intros e|intros v| |]; intros [H _]; apply src_delivers; exact H.
Qed.
Print Assumptions C40_in_pipeline.

(** defer: as the observable the factory returns at this subscription, or its exception. *)
Theorem C40_defer : forall Z A (pol : policy Z) (p : pipe Z A) (s : source A) l,
  source_delivers pol s p l <-> source_delivers pol (Defer (Ok s)) p l.
Proof.
  intros Z A pol p s l.
  assert (R : forall h x, src_reach pol s p h x <-> src_reach pol (Defer (Ok s)) p h x).
  { intros h x. split; intros H.
    - induction H as [|h y x x' _ IH E]; [exact (sr_nil pol (Defer (Ok s)) p)|exact (sr_snoc y IH E)].
    - induction H as [|h y x x' _ IH E]; [exact (sr_nil pol s p)|exact (sr_snoc y IH E)]. }
  split; intros (H1 & H2 & H3); (split; [|split]).
  - destruct H1 as (h & x & H). exists h, x. now rewrite <- R.
  - intros h x Hr. apply R in Hr. exact (H2 h x Hr).
  - intros h x Hr. apply R in Hr. exact (H3 h x Hr).
  - destruct H1 as (h & x & H). exists h, x. now rewrite R.
  - intros h x Hr. apply R in Hr. exact (H2 h x Hr).
  - intros h x Hr. apply R in Hr. exact (H3 h x Hr).
Qed.
Print Assumptions C40_defer.

Theorem C40_defer_raises : forall A e, source_delivers well_behaved (@Defer A (Err e)) PEnd (trace [] (Failed e)).
Proof. intros A e. apply src_delivers. exact (proj1 (safe_end [] (Failed e) [])). Qed.
Print Assumptions C40_defer_raises.

Example C40_case : source_delivers well_behaved (Defer (Ok (Single 5))) PEnd [OnNext 5; OnCompleted].
Proof. exact (proj1 (C40_defer well_behaved PEnd (Single 5) _) (C40_single 5)). Qed.

(** ** C41 *)
(** Disposed before the worker task has started: nothing, for every source
    with a worker, whatever follows. *)
Theorem C41_dispose_before_start : forall Z A (pol : policy Z) (w : worker A) (p : pipe Z A) h1 h2 s,
  src_reach pol (Worker w) p (h1 ++ TCancel :: h2) s -> ~ In TStart h1 -> src_log pol (Worker w) p s = [].
Proof. exact cancelled_before_start. Qed.
Print Assumptions C41_dispose_before_start.

(** Once the worker has run, everything is delivered, disposed or not: at every
    moment a prefix of [l], the outcome of an undisturbed subscription, and
    from every state the workers alone complete it to [l]. *)
Theorem C41_not_retracted : forall Z A (pol : policy Z) (xs : list A) (p : pipe Z A) h s l,
  src_reach pol (of_seq xs) p h s -> In TStart h ->
  delivers (psys pol (safe p)) (trace xs Completed) l ->
  prefix (src_log pol (of_seq xs) p s) l /\
  exists ks s', src_reach pol (of_seq xs) p (h ++ map TPipe ks) s' /\ src_done pol (of_seq xs) p s' /\
                src_log pol (of_seq xs) p s' = l.
Proof. intros Z A pol xs p h s l Hr Hi [Hf _]. exact (seq_not_retracted Hr Hi Hf). Qed.
Print Assumptions C41_not_retracted.

Theorem C41_silent_after_dispose_refuted :
  ~ (forall (xs : list nat) h1 h2 s1 s2, src_reach well_behaved (of_seq xs) PEnd h1 s1 ->
       src_reach well_behaved (of_seq xs) PEnd (h1 ++ TCancel :: h2) s2 ->
       src_log well_behaved (of_seq xs) PEnd s2 = src_log well_behaved (of_seq xs) PEnd s1).
Proof.
  intros F.
  pose proof (sr_snoc (h := []) TStart (sr_nil well_behaved (of_seq [7]) PEnd) eq_refl) as R1.
  pose proof (sr_snoc (h := [TStart; TCancel]) (TPipe 0) (sr_snoc (h := [TStart]) TCancel R1 eq_refl) eq_refl) as R2.
  specialize (F [7] [TStart] [TPipe 0] _ _ R1 R2). discriminate.
Qed.
Print Assumptions C41_silent_after_dispose_refuted.

(** Disposing a subscription of of_async while the workflow runs makes the
    subscriber's observer complete (it gets completion after the disposal). *)
Theorem C41_of_async_dispose_completes : forall Z A (pol : policy Z) (o : option (res A)) (p : pipe Z A) h1 h2 s l,
  src_reach pol (of_async o) p (h1 ++ TCancel :: h2) s -> In TStart h1 -> ~ In TWake h1 -> ~ In TCancel h1 ->
  delivers (psys pol (safe p)) (trace [] Completed) l ->
  prefix (src_log pol (of_async o) p s) l /\
  exists ks s', src_reach pol (of_async o) p ((h1 ++ TCancel :: h2) ++ map TPipe ks) s' /\ src_done pol (of_async o) p s' /\
                src_log pol (of_async o) p s' = l.
Proof. intros Z A pol o p h1 h2 s l Hr H1 H2 H3 [Hf _]. exact (async_disposed h1 h2 Hr H1 H2 H3 Hf). Qed.
Print Assumptions C41_of_async_dispose_completes.

Example C41_case : exists s, src_reach well_behaved (@of_async nat (Some (Ok 1))) PEnd [TStart; TCancel] s /\
  delivers (psys well_behaved (safe PEnd)) (trace (A := nat) [] Completed) [OnCompleted].
Proof.
  eexists. split.
  - exact (sr_snoc (h := [TStart]) TCancel (sr_snoc (h := []) TStart (sr_nil well_behaved (of_async (Some (Ok 1))) PEnd) eq_refl) eq_refl).
  - exact (safe_end [] Completed []).
Qed.

(** ** C56 *)
(** The async iterable yields [xs] and then stops ([e = Completed]) or raises
    ([e = Open]).  As long as the observer does not raise, it has received a
    prefix of the elements followed by completion (nothing if the iterable
    raised), and all of it when the task is over and was not cancelled. *)
Theorem C56_items : forall A (it : iterator A) xs e h s,
  iterates it xs e -> greach it h s -> ~ observer_raised h ->
  prefix (g_log s) (trace xs e) /\ (g_over s -> ~ In GCancel h -> g_log s = trace xs e).
Proof.
  intros A it xs e h s Hi Hr Hn. pose proof (gl Hi Hr Hn) as G. unfold GL, g_over in *.
  destruct (g_phase s).
  - destruct G as [_ ->]. split; [apply prefix_nil|intros []].
  - destruct G as [_ ->]. split; [apply prefix_firstn|intros []].
  - destruct G as [_ ->]. split; [apply prefix_firstn|intros []].
  - destruct G.
  - rewrite G. split; [apply prefix_refl|intros []].
  - destruct G as [G1 [G2|G2]]; (split; [exact G1|]); intros _ Hc; [contradiction|exact G2].
  - rewrite G. split; [apply prefix_refl|reflexivity].
Qed.
Print Assumptions C56_items.

(** It does not get stuck: until the task is over, either __anext__ or the
    observer's coroutine can finish, and the task goes on. *)
Theorem C56_progress : forall A (it : iterator A) h s, greach it h s ->
  g_over s \/ exists x s', x <> GCancel /\ (forall e, x <> GExn e) /\ gstep it s x = Some s'.
Proof. exact @g_progress. Qed.
Print Assumptions C56_progress.

(** The observer's asend (the last call is OnNext) raises [e]: it gets OnError e
    and nothing more. *)
Theorem C56_observer_raises : forall A (it : iterator A) h1 e h2 s1 s l v,
  greach it h1 s1 -> g_log s1 = l ++ [OnNext v] -> greach it (h1 ++ GExn e :: h2) s ->
  g_log s = l ++ [OnNext v; OnError e].
Proof.
  intros A it h1 e h2 s1 s l v H1 Hl H.
  assert (E : exists s2, gstep it s1 (GExn e) = Some s2).
  { replace (h1 ++ GExn e :: h2) with ((h1 ++ [GExn e]) ++ h2) in H by now rewrite <- app_assoc.
    destruct (greach_app _ _ H) as [s2 H2]. destruct (greach_last H2) as [[F _]|(h' & y & s3 & F & H3 & Q)]; [destruct h1; discriminate|].
    apply app_inj_tail in F as [<- <-]. rewrite (greach_fun H1 H3). eauto. }
  destruct E as [s2 E]. rewrite (raise_final e h2 H1 (in_send _ _ H1 Hl _ E) H), Hl, <- app_assoc. reflexivity.
Qed.
Print Assumptions C56_observer_raises.

(** After a disposal the observer is not called any more. *)
Theorem C56_dispose : forall A (it : iterator A) h1 h2 s1 s,
  greach it h1 s1 -> greach it (h1 ++ GCancel :: h2) s -> g_log s = g_log s1.
Proof. exact @cancel_final. Qed.
Print Assumptions C56_dispose.

Example C56_case : let it := fun i => match i with 0 => Item 4 | 1 => Item 5 | _ => IStop end in
  iterates it [4; 5] Completed /\
  (exists s, greach it [GStart; GYield; GRet; GYield; GRet; GYield; GRet] s /\ g_over s /\ g_log s = [OnNext 4; OnNext 5; OnCompleted]) /\
  (exists s1 s, greach it [GStart; GYield; GRet; GYield] s1 /\ g_log s1 = [OnNext 4] ++ [OnNext 5] /\
     greach it ([GStart; GYield; GRet; GYield] ++ GExn ValueError :: [GRet]) s).
Proof.
  intros it. split; [|split].
  - split; [|left; auto]. intros [|[|i]] Hi; cbn in *; [eauto|eauto|lia].
  - eexists. split; [|split].
    + exact (gr_snoc (h := [GStart; GYield; GRet; GYield; GRet; GYield]) GRet
        (gr_snoc (h := [GStart; GYield; GRet; GYield; GRet]) GYield
        (gr_snoc (h := [GStart; GYield; GRet; GYield]) GRet
        (gr_snoc (h := [GStart; GYield; GRet]) GYield
        (gr_snoc (h := [GStart; GYield]) GRet
        (gr_snoc (h := [GStart]) GYield
        (gr_snoc (h := []) GStart (gr_nil it) eq_refl) eq_refl) eq_refl) eq_refl) eq_refl) eq_refl) eq_refl).
    + exact I.
    + reflexivity.
  - pose proof (gr_snoc (h := [GStart; GYield; GRet]) GYield
        (gr_snoc (h := [GStart; GYield]) GRet
        (gr_snoc (h := [GStart]) GYield
        (gr_snoc (h := []) GStart (gr_nil it) eq_refl) eq_refl) eq_refl) eq_refl) as R.
    eexists _, _. split; [exact R|]. split; [reflexivity|].
    exact (gr_snoc (h := [GStart; GYield; GRet; GYield; GExn ValueError]) GRet (gr_snoc (h := [GStart; GYield; GRet; GYield]) (GExn ValueError) R eq_refl) eq_refl).
Qed.
