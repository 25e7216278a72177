(** * Proofs about the cold sources. *)
From Verif Require Export Source HotProofs.
Set Implicit Arguments.

(** ** Executing a body that only makes calls *)
(** The calls made if none of them raises. *)
Fixpoint made_calls {N} (p : prog unit N) : list N :=
  match p with
  | Ret | Raise _ => []
  | Read k => made_calls (k tt)
  | Write _ k => made_calls k
  | Call n k => n :: made_calls (k None)
  end.

Lemma texec_calls A (c : comp (notif A)) : noraise c -> forall (p : prog unit (notif A)) d,
  texec (ccall c) p d = calls c d (made_calls p).
Proof.
  intros Hc. unfold texec. induction p as [|e|k IH|s k IH|n k IH]; intros d; cbn [exec made_calls]; try reflexivity.
  - apply IH.
  - destruct s. apply IH.
  - specialize (Hc d n). destruct (ccall c d n) as [d' r] eqn:E. cbn in Hc. subst r.
    rewrite IH. cbn. now rewrite E.
Qed.

Lemma made_seq_await N (n : N) (q : prog unit N) : made_calls (seqp (awaitp n) q) = n :: made_calls q.
Proof. reflexivity. Qed.

Lemma made_seq_body A (xs : list A) e :
  made_calls (seq_body xs e) = map OnNext xs ++ match e with Some _ => [] | None => [OnCompleted] end.
Proof.
  unfold seq_body. induction xs as [|x xs IH].
  - destruct e; reflexivity.
  - cbn in *. f_equal. exact IH.
Qed.

(** The calls of a worker that runs to its end. *)
Definition tcalls {A} (w : worker A) : list (notif A) :=
  match w with
  | WSeq xs e => map OnNext xs ++ match e with Some _ => [] | None => [OnCompleted] end
  | WFail e => [OnError e]
  | WAsync (Some (Ok v)) => [OnNext v; OnCompleted]
  | WAsync (Some (Err e)) => [OnError e; OnCompleted]
  | WAsync None => [OnCompleted]
  end.

Lemma made_async A (w : option (res A)) : made_calls (async_body w) = tcalls (WAsync w).
Proof. destruct w as [[v|e]|]; reflexivity. Qed.

(** ** The task alone *)
Definition ttrans {A} (t : tphase A) (x : slabel) : tphase A * list (notif A) :=
  match x, t with
  | TStart, TNew (WAsync w) => (TWaiting w, [])
  | TStart, TNew w => (TOver, tcalls w)
  | TWake, TWaiting w => (TOver, tcalls (WAsync w))
  | TCancel, TWaiting _ => (TOver, [OnCompleted])
  | TCancel, _ => (TOver, [])
  | _, _ => (t, [])
  end.
Fixpoint trun {A} (t : tphase A) (h : list slabel) : tphase A * list (notif A) :=
  match h with
  | [] => (t, [])
  | x :: h' => let (t1, l1) := ttrans t x in let (t2, l2) := trun t1 h' in (t2, l1 ++ l2)
  end.

Lemma trun_snoc A h x : forall (t : tphase A), trun t (h ++ [x]) =
  let (t1, l1) := trun t h in let (t2, l2) := ttrans t1 x in (t2, l1 ++ l2).
Proof.
  induction h as [|y h IH]; intros t; cbn.
  - destruct (ttrans t x). now rewrite app_nil_r.
  - destruct (ttrans t y) as [t1 l1]. rewrite IH. destruct (trun t1 h) as [t2 l2]. destruct (ttrans t2 x). now rewrite app_assoc.
Qed.

Lemma trun_app A h1 h2 : forall (t : tphase A), trun t (h1 ++ h2) =
  let (t1, l1) := trun t h1 in let (t2, l2) := trun t1 h2 in (t2, l1 ++ l2).
Proof.
  induction h1 as [|y h IH]; intros t; cbn.
  - now destruct (trun t h2).
  - destruct (ttrans t y) as [t1 l1]. rewrite IH. destruct (trun t1 h) as [t2 l2]. destruct (trun t2 h2). now rewrite app_assoc.
Qed.

Lemma trun_over A h : trun (@TOver A) h = (TOver, []).
Proof. induction h as [|x h IH]; [reflexivity|]. cbn. destruct x; cbn; now rewrite IH. Qed.

(** ** The observer's side *)
Section SrcProofs.
  Context {Z A : Type} (pol : policy Z).

  (** A source with a task talks to a safe_observer. *)
  Lemma src_safe (p : pipe Z A) : forall src : source A, src_task src <> TOver -> noraise (pcomp pol (src_pipe src p)).
  Proof.
    fix IH 1. intros [w|v| | |[s|e]] H; cbn in *; try (now elim H); try apply noraise_safe. exact (IH s H).
  Qed.

  Lemma src_body_run (p : pipe Z A) : forall src : source A,
    run (pcomp pol (src_pipe src p)) (pinit pol (src_pipe src p)) (made_calls (src_body src))
        (texec (ccall (pcomp pol (src_pipe src p))) (src_body src) (pinit pol (src_pipe src p))).
  Proof.
    fix IH 1. intros [w|v| | |[s|e]].
    - constructor.
    - cbn [src_body src_pipe]. rewrite texec_calls by apply noraise_safe. apply calls_run.
    - cbn [src_body src_pipe]. unfold texec. cbn. destruct (ccall (pcomp pol p) (pinit pol p) OnCompleted) as [d r] eqn:E.
      apply run_in. rewrite E. destruct r; constructor.
    - constructor.
    - exact (IH s).
    - constructor.
  Qed.

  Lemma src_inv (src : source A) (p : pipe Z A) h s : src_reach pol src p h s ->
    s_task s = fst (trun (src_task src) h) /\
    run (pcomp pol (src_pipe src p)) (pinit pol (src_pipe src p))
        (made_calls (src_body src) ++ snd (trun (src_task src) h)) (s_obv s).
  Proof.
    induction 1 as [|h x s s' Hr [IH1 IH2] E].
    - split; [reflexivity|]. cbn [trun snd]. rewrite app_nil_r. apply src_body_run.
    - rewrite trun_snoc. destruct (trun (src_task src) h) as [t l] eqn:Et. cbn [fst snd] in IH1, IH2. subst t.
      assert (HN : s_task s <> TOver -> noraise (pcomp pol (src_pipe src p))).
      { intros Hn. apply src_safe. intros Ho. rewrite Ho, trun_over in Et. congruence. }
      destruct x as [| | |k]; cbn [src_step] in E.
      + destruct (s_task s) as [w| |]; try discriminate. specialize (HN ltac:(discriminate)).
        destruct w as [xs e|e|w]; injection E as <-; cbn [s_task s_obv ttrans fst snd].
        * split; [reflexivity|]. rewrite texec_calls, made_seq_body by assumption. rewrite app_assoc. eapply run_app; [exact IH2|apply calls_run].
        * split; [reflexivity|]. rewrite texec_calls by assumption. rewrite app_assoc. eapply run_app; [exact IH2|apply calls_run].
        * split; [reflexivity|]. now rewrite app_nil_r.
      + destruct (s_task s) as [w|w|]; try discriminate. injection E as <-. specialize (HN ltac:(discriminate)).
        split; [reflexivity|]. cbn [s_obv ttrans snd]. rewrite texec_calls, made_async by assumption.
        rewrite app_assoc. eapply run_app; [exact IH2|apply calls_run].
      + destruct (s_task s) as [w|w|] eqn:Es; injection E as <-; cbn [s_task s_obv ttrans fst snd]; rewrite ?app_nil_r; try (split; [reflexivity|exact IH2]).
        specialize (HN ltac:(discriminate)). split; [reflexivity|].
        rewrite texec_calls, made_async by assumption. cbn [tcalls]. rewrite app_assoc. eapply run_app; [exact IH2|apply calls_run].
      + destruct (cstep (pcomp pol (src_pipe src p)) k (s_obv s)) as [d|] eqn:Ek; [|discriminate]. injection E as <-.
        replace (ttrans (s_task s) (TPipe k)) with (s_task s, @nil (notif A)) by (destruct (s_task s); reflexivity). cbn [s_task s_obv fst snd].
        split; [reflexivity|]. rewrite app_nil_r. rewrite <- (app_nil_r (_ ++ l)). eapply run_app; [exact IH2|].
        eapply run_step; [exact Ek|constructor].
  Qed.

  (** ** Complete executions *)
  Definition all_calls (src : source A) : list (notif A) :=
    made_calls (src_body src) ++ match src_task src with TNew w => tcalls w | _ => [] end.

  Lemma trun_quiet (w : worker A) h t l : ~ In TCancel h -> trun (TNew w) h = (t, l) ->
    t = TNew w /\ l = [] \/ (exists o, w = WAsync o /\ t = TWaiting o /\ l = []) \/ t = TOver /\ l = tcalls w.
  Proof.
    revert t l. induction h as [|x h IH] using rev_ind; intros t l Hn E.
    - injection E as <- <-. now left.
    - rewrite trun_snoc in E. destruct (trun (TNew w) h) as [t1 l1].
      assert (Hn1 : ~ In TCancel h) by (intros F; apply Hn, in_app_iff; now left).
      assert (Hx : x <> TCancel) by (intros ->; apply Hn, in_app_iff; right; now left).
      destruct (IH t1 l1 Hn1 eq_refl) as [[-> ->]|[(o & -> & -> & ->)|[-> ->]]]; destruct x; try now elim Hx.
      all: try (destruct w; injection E as <- <-; try (now left); try (now right; right); right; left; eexists; now repeat split).
      all: cbn in E; injection E as <- <-; rewrite ?app_nil_r; try (now right; right); right; left; eexists; now repeat split.
  Qed.

  Lemma src_task_shape : forall src : source A, src_task src = TOver \/ exists w, src_task src = TNew w.
  Proof. fix IH 1. intros [w|v| | |[s|e]]; cbn; eauto. Qed.

  Lemma trun_src (src : source A) h : ~ In TCancel h ->
    prefix (made_calls (src_body src) ++ snd (trun (src_task src) h)) (all_calls src) /\
    (fst (trun (src_task src) h) = TOver -> made_calls (src_body src) ++ snd (trun (src_task src) h) = all_calls src).
  Proof.
    intros Hn. unfold all_calls. destruct (src_task_shape src) as [E|[w E]]; rewrite E.
    - rewrite trun_over. cbn. split; [apply prefix_refl|reflexivity].
    - destruct (trun (TNew w) h) as [t l] eqn:Et. cbn [fst snd].
      destruct (trun_quiet w _ Hn Et) as [[-> ->]|[(o & -> & -> & ->)|[-> ->]]].
      + split; [apply prefix_app_l, prefix_nil|discriminate].
      + split; [apply prefix_app_l, prefix_nil|discriminate].
      + split; [apply prefix_refl|reflexivity].
  Qed.

  Lemma done_over (src : source A) (p : pipe Z A) (s : sstate A (cst (pcomp pol (src_pipe src p)))) :
    src_done pol src p s -> s_task s = TOver /\ quiet (pcomp pol (src_pipe src p)) (s_obv s).
  Proof.
    intros H. split.
    - destruct (s_task s) as [w|w|] eqn:E; [|specialize (H TWake ltac:(discriminate)); cbn in H; rewrite E in H; discriminate|reflexivity].
      specialize (H TStart ltac:(discriminate)). cbn in H. rewrite E in H. destruct w; discriminate.
    - intros k. specialize (H (TPipe k) ltac:(discriminate)). cbn in H. destruct (cstep _ k (s_obv s)); [discriminate|reflexivity].
  Qed.

  Lemma over_done (src : source A) (p : pipe Z A) (s : sstate A (cst (pcomp pol (src_pipe src p)))) :
    s_task s = TOver -> quiet (pcomp pol (src_pipe src p)) (s_obv s) -> src_done pol src p s.
  Proof.
    intros E Q [| | |k] Hx; cbn; rewrite ?E; try reflexivity; [now elim Hx|]. now rewrite Q.
  Qed.

  (** From any state the workers behind the observer can finish. *)
  Lemma src_settle (src : source A) (p : pipe Z A) h s : src_reach pol src p h s ->
    exists ks s', src_reach pol src p (h ++ map TPipe ks) s' /\ s_task s' = s_task s /\ quiet (pcomp pol (src_pipe src p)) (s_obv s').
  Proof.
    intros Hr. set (c := pcomp pol (src_pipe src p)).
    destruct (completable (good_pipe pol (src_pipe src p)) (run_nil c (s_obv s))) as (y & R & Q & _).
    assert (H : forall d ms y, run c d ms y -> ms = [] -> forall h (s : sstate A (cst c)), s_obv s = d -> src_reach pol src p h s ->
              exists ks s', src_reach pol src p (h ++ map TPipe ks) s' /\ s_task s' = s_task s /\ s_obv s' = y).
    { clear. induction 1 as [d|d m ms s' R IH|d k d1 ms s' E R IH]; intros Em h s Es Hr.
      - exists [], s. cbn. rewrite app_nil_r. auto.
      - discriminate.
      - destruct (IH Em (h ++ [TPipe k]) (SState (s_task s) d1) eq_refl) as (ks & s2 & R2 & E2 & E3).
        { eapply sr_snoc; [exact Hr|]. subst d. exact (f_equal (fun o => match o with Some d => Some (SState (s_task s) d) | None => None end) E). }
        exists (k :: ks), s2. split; [|auto]. cbn. now rewrite <- app_assoc in R2. }
    destruct (H _ _ _ R eq_refl h s eq_refl Hr) as (ks & s' & R' & E1 & E2). exists ks, s'. subst y. auto.
  Qed.

  Lemma src_start (src : source A) (p : pipe Z A) : exists h s, src_reach pol src p h s /\ ~ In TCancel h /\ s_task s = TOver.
  Proof.
    destruct (src_task_shape src) as [E|[w E]].
    - exists [], (src_init pol src p). split; [constructor|]. split; [intros []|exact E].
    - destruct w as [xs e|e|w].
      + eexists ([] ++ [TStart]), _. split; [eapply sr_snoc; [constructor|cbn; rewrite E; reflexivity]|]. split; [intros [F|[]]; discriminate|reflexivity].
      + eexists ([] ++ [TStart]), _. split; [eapply sr_snoc; [constructor|cbn; rewrite E; reflexivity]|]. split; [intros [F|[]]; discriminate|reflexivity].
      + eexists (([] ++ [TStart]) ++ [TWake]), _. split; [eapply sr_snoc; [eapply sr_snoc; [constructor|cbn; rewrite E; reflexivity]|reflexivity]|].
        split; [intros [F|[F|[]]]; discriminate|reflexivity].
  Qed.

  Lemma not_in_tpipes ks : ~ In TCancel (map TPipe ks).
  Proof. induction ks as [|k ks IH]; intros F; [destruct F|destruct F as [F|F]; [discriminate|tauto]]. Qed.

  Theorem src_delivers (src : source A) (p : pipe Z A) l :
    finally (psys pol (src_pipe src p)) (all_calls src) l -> source_delivers pol src p l.
  Proof.
    intros Hf. pose proof (sane_psys pol (src_pipe src p)) as HS. repeat split.
    - destruct (src_start src p) as (h & s & Hr & Hn & Ho). destruct (src_settle Hr) as (ks & s' & Hr' & Ht & Q).
      exists (h ++ map TPipe ks), s'. split; [exact Hr'|]. split.
      + rewrite in_app_iff. intros [F|F]; [tauto|exact (not_in_tpipes ks F)].
      + apply over_done; [now rewrite Ht|exact Q].
    - intros h s Hr Hn Hd. apply done_over in Hd as [Ho Q]. destruct (src_inv Hr) as [I1 I2].
      destruct (trun_src src _ Hn) as [_ T]. rewrite T in I2 by congruence.
      apply (finally_unique HS (ms := all_calls src)); [|exact Hf]. exists (s_obv s). auto.
    - intros h s Hr Hn. destruct (src_inv Hr) as [I1 I2]. destruct (trun_src src _ Hn) as [[ms' T] _].
      eapply (sees_prefix HS ms'); [exists (s_obv s); split; [exact I2|reflexivity]|]. now rewrite <- T.
  Qed.

  (** ** Disposing *)
  Lemma src_final (src : source A) (p : pipe Z A) h s l : src_reach pol src p h s -> src_done pol src p s ->
    finally (psys pol (src_pipe src p)) (made_calls (src_body src) ++ snd (trun (src_task src) h)) l -> src_log pol src p s = l.
  Proof.
    intros Hr Hd Hf. apply done_over in Hd as [_ Q]. destruct (src_inv Hr) as [_ I].
    eapply (finally_unique (sane_psys pol (src_pipe src p))); [|exact Hf]. exists (s_obv s). auto.
  Qed.
  Lemma src_sees (src : source A) (p : pipe Z A) h s : src_reach pol src p h s ->
    sees (psys pol (src_pipe src p)) (made_calls (src_body src) ++ snd (trun (src_task src) h)) (src_log pol src p s).
  Proof. intros Hr. destruct (src_inv Hr) as [_ I]. exists (s_obv s). auto. Qed.

  Lemma trun_cancel_first (w : worker A) h1 h2 : ~ In TStart h1 -> trun (TNew w) (h1 ++ TCancel :: h2) = (TOver, []).
  Proof.
    intros Hn. assert (H : trun (TNew w) h1 = (TNew w, []) \/ trun (TNew w) h1 = (TOver, [])).
    { induction h1 as [|x h IH]; [now left|]. assert (Hn' : ~ In TStart h) by (intros F; apply Hn; now right).
      destruct x; cbn.
      - elim Hn. now left.
      - destruct (IH Hn') as [E|E]; rewrite E; auto.
      - right. now rewrite trun_over.
      - destruct (IH Hn') as [E|E]; rewrite E; auto. }
    rewrite trun_app. destruct H as [E|E]; rewrite E; cbn; now rewrite trun_over.
  Qed.

  (** Once over, with all its calls made, it stays so. *)
  Lemma trun_started (w : worker A) h1 h2 : ~ In TCancel h1 -> fst (trun (TNew w) h1) = TOver ->
    trun (TNew w) (h1 ++ h2) = (TOver, tcalls w).
  Proof.
    intros Hn Ho. rewrite trun_app. destruct (trun (TNew w) h1) as [t l] eqn:E. cbn in Ho. subst t.
    destruct (trun_quiet w _ Hn E) as [[F _]|[(o & _ & F & _)|[_ ->]]]; try discriminate.
    rewrite trun_over. now rewrite app_nil_r.
  Qed.

  Lemma started_seq xs e h : ~ In TCancel h -> In TStart h -> fst (trun (TNew (@WSeq A xs e)) h) = TOver.
  Proof.
    induction h as [|x h IH]; intros Hn Hi; [destruct Hi|]. destruct x; cbn.
    - now rewrite trun_over.
    - destruct Hi as [F|Hi]; [discriminate|]. assert (H := IH ltac:(intros F; apply Hn; now right) Hi). now destruct (trun _ h).
    - elim Hn. now left.
    - destruct Hi as [F|Hi]; [discriminate|]. assert (H := IH ltac:(intros F; apply Hn; now right) Hi). now destruct (trun _ h).
  Qed.
End SrcProofs.

(** ** More about disposing *)
Lemma pinit_quiet Z A (pol : policy Z) (p : pipe Z A) : quiet (pcomp pol p) (pinit pol p) /\ plog pol p (pinit pol p) = [].
Proof.
  induction p as [|A B o r [Q L]|A B o r [Q L]|A B o r [Q L]]; cbn; split; try exact L; try reflexivity; intros [|k]; cbn; try reflexivity.
  all: try (now rewrite Q).
Qed.

Lemma sees_nothing Z A (pol : policy Z) (p : pipe Z A) l : sees (psys pol p) [] l -> l = [].
Proof.
  intros (s & R & <-). destruct (pinit_quiet pol p) as [Q L]. cbn in *. inversion R as [? E1 E2|? m ms s' Hm E1|? k s1 ms s' Hk Hm]; subst.
  - exact L.
  - rewrite Q in Hk. discriminate.
Qed.

Lemma src_reach_app Z A (pol : policy Z) (src : source A) (p : pipe Z A) h1 x h2 : forall s, src_reach pol src p (h1 ++ x :: h2) s ->
  exists s1 s2, src_reach pol src p h1 s1 /\ src_step pol src p s1 x = Some s2.
Proof.
  induction h2 as [|y h2 IH] using rev_ind; intros s H.
  - inversion H as [E|h z s1 s' H1 H2 E]; [destruct h1; discriminate|]. apply app_inj_tail in E as [-> ->]. eauto.
  - replace (h1 ++ x :: h2 ++ [y]) with ((h1 ++ x :: h2) ++ [y]) in H by now rewrite <- app_assoc.
    inversion H as [E|h z s1 s' H1 H2 E]; [destruct h1; discriminate|]. apply app_inj_tail in E as [-> ->]. eauto.
Qed.

Lemma trun_new A (w w' : worker A) h l : trun (TNew w) h = (TNew w', l) -> w' = w /\ l = [].
Proof.
  revert w' l. induction h as [|x h IH] using rev_ind; intros w' l E; [now injection E|].
  rewrite trun_snoc in E. destruct (trun (TNew w) h) as [t1 l1]. destruct t1 as [w1|o|].
  - destruct (IH w1 l1 eq_refl) as [-> ->]. destruct x; cbn in E; [destruct w; discriminate| |discriminate|]; now injection E.
  - destruct x; discriminate.
  - destruct x; discriminate.
Qed.

Lemma trun_start_seq A (xs : list A) e h1 h2 : trun (TNew (WSeq xs e)) h1 = (TNew (WSeq xs e), []) ->
  trun (TNew (WSeq xs e)) (h1 ++ TStart :: h2) = (TOver, tcalls (WSeq xs e)).
Proof. intros E. rewrite trun_app, E. cbn. rewrite trun_over. now rewrite app_nil_r. Qed.

Lemma seq_started Z A (pol : policy Z) (xs : list A) e (p : pipe Z A) h s :
  src_reach pol (of_iterable xs e) p h s -> In TStart h -> trun (TNew (WSeq xs e)) h = (TOver, tcalls (WSeq xs e)).
Proof.
  intros Hr Hi. apply in_split in Hi as (h1 & h2 & ->). destruct (src_reach_app _ _ _ Hr) as (s1 & s2 & R1 & E).
  assert (Hw : exists w, s_task s1 = TNew w).
  { unfold src_step in E. destruct (s_task s1) as [w|o|]; [eauto|discriminate|discriminate]. }
  destruct Hw as [w Hw]. destruct (src_inv R1) as [I _]. rewrite Hw in I. apply trun_start_seq.
  change (src_task (of_iterable xs e)) with (TNew (WSeq xs e)) in I.
  destruct (trun (TNew (WSeq xs e)) h1) as [t l] eqn:Et. cbn in I. subst t.
  destruct (trun_new _ _ Et) as [-> ->]. reflexivity.
Qed.

Lemma seq_not_retracted Z A (pol : policy Z) (xs : list A) e (p : pipe Z A) h s l :
  src_reach pol (of_iterable xs e) p h s -> In TStart h ->
  finally (psys pol (safe p)) (tcalls (WSeq xs e)) l ->
  prefix (src_log pol (of_iterable xs e) p s) l /\
  exists ks s', src_reach pol (of_iterable xs e) p (h ++ map TPipe ks) s' /\ src_done pol (of_iterable xs e) p s' /\
                src_log pol (of_iterable xs e) p s' = l.
Proof.
  intros Hr Hi Hf. pose proof (seq_started Hr Hi) as E. split.
  - pose proof (src_sees Hr) as Hs. cbn [src_body of_iterable src_task made_calls app] in Hs. rewrite E in Hs. cbn [snd src_pipe] in Hs.
    apply (sees_prefix (sane_psys pol (safe p)) [] Hs). now rewrite app_nil_r.
  - destruct (src_settle Hr) as (ks & s' & Hr' & Ht & Q). exists ks, s'. split; [exact Hr'|].
    assert (Ho : s_task s' = TOver) by (rewrite Ht, (proj1 (src_inv Hr)); cbn [src_task of_iterable]; now rewrite E).
    assert (Hd : src_done pol (of_iterable xs e) p s') by (now apply over_done). split; [exact Hd|].
    apply (src_final Hr' Hd). assert (Hi' : In TStart (h ++ map TPipe ks)) by (apply in_app_iff; now left).
    cbn [src_body of_iterable src_task made_calls app]. rewrite (seq_started Hr' Hi'). exact Hf.
Qed.

Lemma cancelled_before_start Z A (pol : policy Z) (w : worker A) (p : pipe Z A) h1 h2 s :
  src_reach pol (Worker w) p (h1 ++ TCancel :: h2) s -> ~ In TStart h1 -> src_log pol (Worker w) p s = [].
Proof.
  intros Hr Hn. pose proof (src_sees Hr) as Hs. cbn [src_body src_task made_calls app] in Hs.
  rewrite (trun_cancel_first w _ h2 Hn) in Hs. exact (sees_nothing Hs).
Qed.

Lemma trun_waiting A (o : option (res A)) h : ~ In TWake h -> ~ In TCancel h ->
  In TStart h -> trun (TNew (WAsync o)) h = (TWaiting o, []).
Proof.
  induction h as [|x h IH] using rev_ind; intros H1 H2 H3; [destruct H3|]. rewrite trun_snoc.
  rewrite in_app_iff in H1, H2, H3.
  destruct (in_dec (fun x y : slabel => ltac:(decide equality; apply Nat.eq_dec)) TStart h) as [Hi|Hi].
  - rewrite IH by tauto. destruct x; try reflexivity; [elim H1|elim H2]; right; now left.
  - destruct H3 as [H3|[->|[]]]; [tauto|].
    assert (E : trun (TNew (WAsync o)) h = (TNew (WAsync o), [])); [|now rewrite E].
    clear IH. induction h as [|y h IHh]; [reflexivity|].
    destruct y; try (elim Hi; now left); try (elim H2; left; now left); cbn in *; rewrite IHh by tauto; reflexivity.
Qed.

Lemma async_disposed Z A (pol : policy Z) (o : option (res A)) (p : pipe Z A) h1 h2 s l :
  src_reach pol (of_async o) p (h1 ++ TCancel :: h2) s -> In TStart h1 -> ~ In TWake h1 -> ~ In TCancel h1 ->
  finally (psys pol (safe p)) [OnCompleted] l ->
  prefix (src_log pol (of_async o) p s) l /\
  exists ks s', src_reach pol (of_async o) p ((h1 ++ TCancel :: h2) ++ map TPipe ks) s' /\ src_done pol (of_async o) p s' /\
                src_log pol (of_async o) p s' = l.
Proof.
  intros Hr H1 H2 H3 Hf.
  assert (E : forall h2, trun (TNew (WAsync o)) (h1 ++ TCancel :: h2) = (TOver, [OnCompleted])).
  { intros h. rewrite trun_app, (trun_waiting o h1 H2 H3 H1). cbn. now rewrite trun_over. }
  split.
  - pose proof (src_sees Hr) as Hs. cbn [src_body of_async src_task made_calls app] in Hs. rewrite E in Hs. cbn [snd src_pipe] in Hs.
    apply (sees_prefix (sane_psys pol (safe p)) [] Hs). now rewrite app_nil_r.
  - destruct (src_settle Hr) as (ks & s' & Hr' & Ht & Q). exists ks, s'. split; [exact Hr'|].
    assert (Ho : s_task s' = TOver) by (rewrite Ht, (proj1 (src_inv Hr)); cbn [src_task of_async]; now rewrite E).
    assert (Hd : src_done pol (of_async o) p s') by (now apply over_done). split; [exact Hd|].
    apply (src_final Hr' Hd). cbn [src_body of_async src_task made_calls app].
    rewrite <- app_assoc. cbn [app]. rewrite E. exact Hf.
Qed.
