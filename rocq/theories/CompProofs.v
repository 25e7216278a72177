(** * Theory of components: confluence, termination, prefixes. *)
From Verif Require Export Comp.
Set Implicit Arguments.

Record Good {M} (c : comp M) : Prop := {
  g_comm : forall k s s1 m, cstep c k s = Some s1 ->
     cstep c k (fst (ccall c s m)) = Some (fst (ccall c s1 m))
     /\ snd (ccall c s m) = snd (ccall c s1 m);
  g_diamond : forall i j s a b, i <> j -> cstep c i s = Some a -> cstep c j s = Some b ->
     exists d, cstep c j a = Some d /\ cstep c i b = Some d;
  g_term : forall s, exists n s', steps c n s s' /\ quiet c s'
}.

(** ** Building blocks are good *)
Lemma good_user M D (call : D -> M -> D * option exn) : Good (user_comp call).
Proof.
  split; simpl.
  - intros; discriminate.
  - intros; discriminate.
  - intros s. exists 0, s. split; [constructor|]. intros k; reflexivity.
Qed.

Section Exec.
  Context {N : Type} (c : comp N) (Hc : Good c).
  Lemma exec_comm S (p : prog S N) : forall s d k d1,
    cstep c k d = Some d1 ->
    exists s' d' d1' r,
      exec (ccall c) p s d = (s', d', r) /\
      exec (ccall c) p s d1 = (s', d1', r) /\
      cstep c k d' = Some d1'.
  Proof.
    induction p as [|e|k IH|s0 k IH|n k IH]; intros s d i d1 Hs; cbn [exec].
    - exists s, d, d1, None. auto.
    - exists s, d, d1, (Some e). auto.
    - apply IH, Hs.
    - apply IH, Hs.
    - destruct (g_comm Hc i d n Hs) as [H1 H2].
      destruct (ccall c d n) as [d' r] eqn:E. destruct (ccall c d1 n) as [d1' r1] eqn:E1.
      cbn [fst snd] in *. subst r1. apply IH, H1.
  Qed.

  Lemma advance_comm S (p : prog S N) : forall s d k d1,
    cstep c k d = Some d1 ->
    exists s' d' d1' p',
      advance (ccall c) p s d = (s', d', p') /\
      advance (ccall c) p s d1 = (s', d1', p') /\
      cstep c k d' = Some d1'.
  Proof.
    induction p as [|e|k IH|s0 k IH|n k IH]; intros s d i d1 Hs; cbn [advance].
    - exists s, d, d1, Ret. auto.
    - exists s, d, d1, (Raise e). auto.
    - apply IH, Hs.
    - apply IH, Hs.
    - destruct (g_comm Hc i d n Hs) as [H1 H2].
      destruct (ccall c d n) as [d' r] eqn:E. destruct (ccall c d1 n) as [d1' r1] eqn:E1.
      cbn [fst snd] in *. subst r1. exists s, d', d1', (k r). auto.
  Qed.
End Exec.

(** Advancing once and then executing the rest is executing. *)
Lemma advance_exec S N D (call : D -> N -> D * option exn) (p : prog S N) : forall s d s' d' p',
  advance call p s d = (s', d', p') -> exec call p s d = exec call p' s' d'.
Proof.
  induction p as [|e|k IH|s0 k IH|n k IH]; intros s d s' d' p' H; cbn [advance exec] in *.
  - inversion H; reflexivity.
  - inversion H; reflexivity.
  - eauto.
  - eauto.
  - destruct (call d n) as [d1 r]. inversion H; subst. reflexivity.
Qed.

(** Phase after a complete execution. *)
Definition done_phase {S N} (r : option exn) : phase S N :=
  match r with None => Idle | Some e => Dead e end.

Lemma steps_app M (c : comp M) n s s1 : steps c n s s1 ->
  forall m s2, steps c m s1 s2 -> steps c (n + m) s s2.
Proof. induction 1; intros; [assumption|]. simpl. econstructor; eauto. Qed.

Lemma steps_1 M (c : comp M) k s s1 : cstep c k s = Some s1 -> steps c 1 s s1.
Proof. intros. econstructor; [eassumption|constructor]. Qed.

Lemma sync_steps M N (o : op M N) (c : comp N) n d d' s :
  steps c n d d' -> steps (sync_comp o c) n (s, d) (s, d').
Proof.
  induction 1 as [d|n d k d1 d' H1 H2 IH]; [constructor|].
  econstructor; [|exact IH]. simpl. rewrite H1. reflexivity.
Qed.

Lemma agent_steps M N (o : op M N) (c : comp N) n d d' a :
  steps c n d d' -> steps (agent_comp o c) n (a, d) (a, d').
Proof.
  induction 1 as [d|n d k d1 d' H1 H2 IH]; [constructor|].
  apply steps_S with (k := S k) (s1 := (a, d1)); [|exact IH]. simpl. rewrite H1. reflexivity.
Qed.

Lemma good_sync M N (o : op M N) (c : comp N) : Good c -> Good (sync_comp o c).
Proof.
  intros Hc. split.
  - intros k [s d] s1 m Hs. simpl in *.
    destruct (cstep c k d) as [d1|] eqn:E; [|discriminate]. inversion Hs; subst; clear Hs.
    destruct (exec_comm Hc (body o m) s _ _ E) as (s' & d' & d1' & r & H1 & H2 & H3).
    simpl. rewrite H1, H2. simpl. rewrite H3. auto.
  - intros i j [s d] a b Hij Ha Hb. simpl in *.
    destruct (cstep c i d) as [d1|] eqn:E1; [|discriminate].
    destruct (cstep c j d) as [d2|] eqn:E2; [|discriminate].
    inversion Ha; inversion Hb; subst; simpl.
    destruct (g_diamond Hc _ Hij E1 E2) as (d3 & H1 & H2).
    rewrite H1, H2. eauto.
  - intros [s d]. destruct (g_term Hc d) as (n & d' & H1 & H2).
    exists n, (s, d'). split; [now apply sync_steps|].
    intros k. simpl. now rewrite H2.
Qed.

Lemma agent_finish M N (o : op M N) (c : comp N) q : forall (p : prog (st o) N) s d s' d' r s1 d1 p1,
  exec (ccall c) p s d = (s', d', r) -> advance (ccall c) p s d = (s1, d1, p1) ->
  exists n, steps (agent_comp o c) n (Agent q s1 (phase_of p1), d1) (Agent q s' (done_phase r), d').
Proof.
  induction p as [|e|k IH|s0 k IH|m k IH]; intros s d s' d' r s1 d1 p1 He Ha; cbn [exec advance] in *.
  - inversion He; inversion Ha; subst. exists 0. constructor.
  - inversion He; inversion Ha; subst. exists 0. constructor.
  - eapply IH; eauto.
  - eapply IH; eauto.
  - destruct (ccall c d m) as [d2 r2]. inversion Ha; subst; clear Ha.
    destruct (advance (ccall c) (k r2) s1 d1) as [[s3 d3] p3] eqn:E3.
    destruct (IH _ _ _ _ _ _ _ _ _ He E3) as [n Hn].
    assert (Hb : phase_of (k r2) = Busy (k r2) ->
       exists n, steps (agent_comp o c) n (Agent q s1 (phase_of (k r2)), d1) (Agent q s' (done_phase r), d')).
    { intros Hp. exists (S n). apply steps_S with (k := 0) (s1 := (Agent q s3 (phase_of p3), d3)).
      - simpl. unfold agent_step. simpl. rewrite Hp. rewrite E3. reflexivity.
      - exact Hn. }
    destruct (k r2) eqn:Ek; try (apply Hb; reflexivity);
      cbn [exec] in He; inversion He; subst; exists 0; constructor.
Qed.

(** One message is processed completely. *)
Lemma agent_process M N (o : op M N) (c : comp N) q m s d s' d' r :
  live o s = true -> exec (ccall c) (body o m) s d = (s', d', r) ->
  exists n, steps (agent_comp o c) n (Agent (m :: q) s Idle, d) (Agent q s' (done_phase r), d').
Proof.
  intros Hl He. destruct (advance (ccall c) (body o m) s d) as [[s1 d1] p1] eqn:Ea.
  destruct (agent_finish o c q _ _ _ He Ea) as [n Hn].
  exists (S n). apply steps_S with (k := 0) (s1 := (Agent q s1 (phase_of p1), d1)); [|exact Hn].
  simpl. unfold agent_step. simpl. rewrite Hl, Ea. reflexivity.
Qed.

Lemma agent_finish_busy M N (o : op M N) (c : comp N) q p s d :
  exists n s' d' r, steps (agent_comp o c) n (Agent q s (Busy p), d) (Agent q s' (done_phase r), d').
Proof.
  destruct (exec (ccall c) p s d) as [[s' d'] r] eqn:He.
  destruct (advance (ccall c) p s d) as [[s1 d1] p1] eqn:Ea.
  destruct (agent_finish o c q _ _ _ He Ea) as [n Hn].
  exists (S n), s', d', r. apply steps_S with (k := 0) (s1 := (Agent q s1 (phase_of p1), d1)); [|exact Hn].
  simpl. unfold agent_step. simpl. rewrite Ea. reflexivity.
Qed.

Lemma agent_drain M N (o : op M N) (c : comp N) :
  forall q s ph d, exists n a d', steps (agent_comp o c) n (Agent q s ph, d) (a, d')
     /\ forall d'', agent_step o (ccall c) a d'' = None.
Proof.
  assert (Hidle : forall q s r d, exists n a d',
     steps (agent_comp o c) n (Agent q s (done_phase r), d) (a, d')
     /\ forall d'', agent_step o (ccall c) a d'' = None).
  { induction q as [|m q IH]; intros s r d.
    - eexists 0, _, d. split; [constructor|]. intros. destruct r; reflexivity.
    - destruct r as [e|]; [eexists 0, _, d; split; [constructor|reflexivity]|].
      simpl. destruct (live o s) eqn:El.
      + destruct (exec (ccall c) (body o m) s d) as [[s' d'] r] eqn:E.
        destruct (agent_process o c q m s d El E) as [n1 H1].
        destruct (IH s' r d') as (n & a & d'' & H2 & H3).
        exists (n1 + n), a, d''. split; [|exact H3]. eapply steps_app; eassumption.
      + eexists 0, _, d. split; [constructor|]. intros. unfold agent_step. simpl. now rewrite El. }
  intros q s ph d. destruct ph as [|p|e].
  - apply (Hidle q s None d).
  - destruct (agent_finish_busy o c q p s d) as (n & s' & d' & r & H1).
    destruct (Hidle q s' r d') as (n2 & a & d2 & H2 & H3).
    exists (n + n2), a, d2. split; [|exact H3]. eapply steps_app; eassumption.
  - apply (Hidle q s (Some e) d).
Qed.

Lemma agent_step_comm N (c : comp N) (Hc : Good c) M (o : op M N) a d k d1 x :
  cstep c k d = Some d1 -> agent_step o (ccall c) a d = Some x ->
  exists d2, agent_step o (ccall c) a d1 = Some (fst x, d2) /\ cstep c k (snd x) = Some d2.
Proof.
  intros Hk Ha. unfold agent_step in *. destruct (ph a) as [|p|e]; [|  |discriminate].
  - destruct (aq a) as [|m q]; [discriminate|]. destruct (live o (as_ a)); [|discriminate].
    destruct (advance_comm Hc (body o m) (as_ a) _ _ Hk) as (s' & d' & d1' & p' & H1 & H2 & H3).
    rewrite H1 in Ha. rewrite H2. inversion Ha; subst; simpl. eauto.
  - destruct (advance_comm Hc p (as_ a) _ _ Hk) as (s' & d' & d1' & p' & H1 & H2 & H3).
    rewrite H1 in Ha. rewrite H2. inversion Ha; subst; simpl. eauto.
Qed.

Lemma good_agent M N (o : op M N) (c : comp N) : Good c -> Good (agent_comp o c).
Proof.
  intros Hc. split.
  - intros k [[q s p] d] s1 m Hs. destruct k as [|k].
    + simpl in *. unfold agent_step in *. simpl in *. destruct p as [|p|e]; [| |discriminate].
      * destruct q as [|m0 q]; [discriminate|]. simpl in *. destruct (live o s); [|discriminate].
        destruct (advance (ccall c) (body o m0) s d) as [[s' d'] r].
        inversion Hs; subst; simpl. auto.
      * destruct (advance (ccall c) p s d) as [[s' d'] r].
        inversion Hs; subst; simpl. auto.
    + simpl in *. destruct (cstep c k d) as [d1|]; [|discriminate].
      inversion Hs; subst; simpl. auto.
  - assert (Hown : forall j s a b, cstep (agent_comp o c) 0 s = Some a ->
        cstep (agent_comp o c) (S j) s = Some b ->
        exists d, cstep (agent_comp o c) (S j) a = Some d /\ cstep (agent_comp o c) 0 b = Some d).
    { intros j [ag d] a b Ha Hb. simpl in *.
      destruct (cstep c j d) as [d1|] eqn:Ej; [|discriminate]. inversion Hb; subst; simpl.
      destruct (agent_step_comm Hc _ _ _ _ Ej Ha) as (d2 & H1 & H2).
      rewrite H1, H2. eauto. }
    intros i j s a b Hij Ha Hb. destruct i as [|i]; destruct j as [|j].
    + congruence.
    + eapply Hown; eauto.
    + destruct (Hown i s b a Hb Ha) as (d & H1 & H2). eauto.
    + destruct s as [ag d]. simpl in *.
      destruct (cstep c i d) as [d1|] eqn:E1; [|discriminate].
      destruct (cstep c j d) as [d2|] eqn:E2; [|discriminate].
      inversion Ha; inversion Hb; subst; simpl.
      assert (Hij' : i <> j) by congruence.
      destruct (g_diamond Hc _ Hij' E1 E2) as (d3 & H1 & H2). rewrite H1, H2. eauto.
  - intros [[q s p] d].
    destruct (agent_drain o c q s p d) as (n & a & d' & H1 & H2).
    destruct (g_term Hc d') as (n2 & d2 & H3 & H4).
    exists (n + n2), (a, d2). split.
    + eapply steps_app; [exact H1|]. now apply agent_steps.
    + intros [|k]; simpl; [apply H2|now rewrite H4].
Qed.

(** ** Consequences for every good component *)
Section Confluence.
  Context {M : Type} (c : comp M) (Hc : Good c).

  Lemma run_app s ms1 s1 : run c s ms1 s1 -> forall ms2 s2, run c s1 ms2 s2 -> run c s (ms1 ++ ms2) s2.
  Proof.
    induction 1 as [s|s m ms s' H IH|s k s1 ms s' H1 H IH]; intros ms2 s2 H2; simpl.
    - assumption.
    - apply run_in, IH, H2.
    - eapply run_step; eauto.
  Qed.

  Lemma steps_run n s s' : steps c n s s' -> run c s [] s'.
  Proof. induction 1; [constructor|]. eapply run_step; eauto. Qed.

  Lemma calls_run s ms : run c s ms (calls c s ms).
  Proof. revert s. induction ms as [|m ms IH]; intros s; [constructor|]. apply run_in, IH. Qed.

  Lemma calls_step k s s1 ms : cstep c k s = Some s1 ->
    cstep c k (calls c s ms) = Some (calls c s1 ms).
  Proof.
    revert s s1. induction ms as [|m ms IH]; intros s s1 H; simpl; [assumption|].
    apply IH. apply (g_comm Hc), H.
  Qed.

  Lemma calls_steps n s s1 ms : steps c n s s1 -> steps c n (calls c s ms) (calls c s1 ms).
  Proof.
    induction 1; [constructor|]. econstructor; [|eassumption]. apply calls_step. eassumption.
  Qed.

  (** Inputs can always be moved to the front. *)
  Lemma run_steps s ms s' : run c s ms s' -> exists n, steps c n (calls c s ms) s'.
  Proof.
    induction 1 as [s|s m ms s' H [n IH]|s k s1 ms s' H1 H [n IH]].
    - exists 0. constructor.
    - exists n. exact IH.
    - exists (S n). econstructor; [|exact IH]. apply calls_step, H1.
  Qed.

  (** One step against many. *)
  Lemma strip n s a : steps c n s a -> forall k b, cstep c k s = Some b ->
    (exists d, steps c n b d /\ cstep c k a = Some d) \/
    (exists n', n = S n' /\ steps c n' b a).
  Proof.
    induction 1 as [s|n s i s1 a H1 H IH]; intros k b Hk.
    - left. exists b. split; [constructor|assumption].
    - destruct (Nat.eq_dec i k) as [->|Hik].
      + right. exists n. split; [reflexivity|]. congruence.
      + destruct (g_diamond Hc _ Hik H1 Hk) as (d & Hd1 & Hd2).
        destruct (IH _ _ Hd1) as [(e & He1 & He2)|(n' & -> & Hn)].
        * left. exists e. split; [|assumption]. econstructor; eauto.
        * right. exists (S n'). split; [reflexivity|]. econstructor; eauto.
  Qed.

  (** A complete execution absorbs every partial one; the number of steps adds up. *)
  Lemma absorb n s a : steps c n s a -> quiet c a ->
    forall m b, steps c m s b -> exists k, n = m + k /\ steps c k b a.
  Proof.
    intros Hn Hq m b Hm. revert n Hn. induction Hm as [s|m s i s1 b H1 H IH]; intros n Hn.
    - exists n. auto.
    - destruct (strip Hn _ H1) as [(d & _ & Hd)|(n' & -> & Hn')].
      + rewrite Hq in Hd. discriminate.
      + destruct (IH _ Hn') as (k & -> & Hk). exists k. auto.
  Qed.

  Lemma quiet_steps n s s' : quiet c s -> steps c n s s' -> n = 0 /\ s' = s.
  Proof. intros Hq H. inversion H; subst; [auto|]. rewrite Hq in *. discriminate. Qed.

  Theorem confluence s ms a b : run c s ms a -> quiet c a -> run c s ms b -> quiet c b -> a = b.
  Proof.
    intros Ha Qa Hb Qb.
    destruct (run_steps Ha) as [n Hn]. destruct (run_steps Hb) as [m Hm].
    destruct (absorb Hn Qa Hm) as (k & _ & Hk).
    destruct (quiet_steps Qb Hk) as [_ ->]. reflexivity.
  Qed.

  Theorem same_length s n a m b : steps c n s a -> quiet c a -> steps c m s b -> quiet c b -> n = m /\ a = b.
  Proof.
    intros Hn Qa Hm Qb. destruct (absorb Hn Qa Hm) as (k & -> & Hk).
    destruct (quiet_steps Qb Hk) as [-> ->]. split; [lia|reflexivity].
  Qed.

  (** Every execution can be completed, and the number of remaining steps is bounded. *)
  Theorem bounded s : exists n a, steps c n s a /\ quiet c a /\
    forall m b, steps c m s b -> m <= n /\ steps c (n - m) b a.
  Proof.
    destruct (g_term Hc s) as (n & a & H1 & H2). exists n, a. repeat split; auto.
    - destruct (absorb H1 H2 H) as (k & -> & _). lia.
    - destruct (absorb H1 H2 H) as (k & -> & Hk). replace (m + k - m) with k by lia. exact Hk.
  Qed.

  Theorem completable s ms b : run c s ms b -> exists a, run c s ms a /\ quiet c a /\ run c b [] a.
  Proof.
    intros H. destruct (g_term Hc b) as (n & a & H1 & H2). exists a. split; [|split].
    - rewrite <- (app_nil_r ms). eapply run_app; [eassumption|]. eapply steps_run; eassumption.
    - exact H2.
    - eapply steps_run; eassumption.
  Qed.

  (** A log that only grows. *)
  Definition grows {X} (log : cst c -> list X) : Prop :=
    (forall s m, prefix (log s) (log (fst (ccall c s m)))) /\
    (forall k s s', cstep c k s = Some s' -> prefix (log s) (log s')).

  Lemma grows_run X (log : cst c -> list X) : grows log ->
    forall s ms s', run c s ms s' -> prefix (log s) (log s').
  Proof.
    intros [H1 H2] s ms s' H. induction H as [s|s m ms s' H IH|s k s1 ms s' Hk H IH].
    - apply prefix_refl.
    - eapply prefix_trans; [apply H1|exact IH].
    - eapply prefix_trans; [eapply H2; eassumption|exact IH].
  Qed.

  Theorem prefix_of_final X (log : cst c -> list X) : grows log ->
    forall s ms b ms' a, run c s ms b -> run c s (ms ++ ms') a -> quiet c a -> prefix (log b) (log a).
  Proof.
    intros Hg s ms b ms' a Hb Ha Qa.
    destruct (run_steps Hb) as [m Hm]. destruct (run_steps Ha) as [n Hn].
    assert (Hm' : steps c m (calls c s (ms ++ ms')) (calls c b ms')).
    { unfold calls. rewrite fold_left_app. apply calls_steps. exact Hm. }
    destruct (absorb Hn Qa Hm') as (k & _ & Hk).
    eapply prefix_trans; eapply (grows_run Hg).
    - apply calls_run.
    - eapply steps_run; eassumption.
  Qed.
End Confluence.
