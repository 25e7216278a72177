(** * Theory of pipelines. *)
From Verif Require Export Pipe CompProofs.
Set Implicit Arguments.

Lemma good_act A (c : comp (notif A)) : Good c -> Good (act_comp c).
Proof.
  intros Hc. split.
  - intros k [n d] s1 m Hs. simpl in *.
    destruct (cstep c k d) as [d1|] eqn:E; [|discriminate]. inversion Hs; subst; clear Hs.
    destruct m as [x| |]; simpl.
    + destruct (g_comm Hc k d x E) as [H1 H2].
      destruct (ccall c d x) as [d' r]; destruct (ccall c d1 x) as [d1' r1]; simpl in *.
      rewrite H1. auto.
    + rewrite E. auto.
    + rewrite E. auto.
  - intros i j [n d] a b Hij Ha Hb. simpl in *.
    destruct (cstep c i d) as [d1|] eqn:E1; [|discriminate].
    destruct (cstep c j d) as [d2|] eqn:E2; [|discriminate].
    inversion Ha; inversion Hb; subst; simpl.
    destruct (g_diamond Hc _ Hij E1 E2) as (d3 & H1 & H2). rewrite H1, H2. eauto.
  - intros [n d]. destruct (g_term Hc d) as (m & d' & H1 & H2).
    exists m, (n, d'). split.
    + clear H2. induction H1; [constructor|]. econstructor; [|exact IHsteps]. simpl. now rewrite H.
    + intros k. simpl. now rewrite H2.
Qed.

Lemma good_pipe Z (pol : policy Z) A (p : pipe Z A) : Good (pcomp pol p).
Proof.
  induction p; simpl.
  - apply good_user.
  - apply good_agent, good_act, IHp.
  - apply good_agent, good_act, IHp.
  - apply good_sync, good_act, IHp.
Qed.

(** ** The log only grows *)
Lemma exec_grows S N D X (call : D -> N -> D * option exn) (log : D -> list X) :
  (forall d n, prefix (log d) (log (fst (call d n)))) ->
  forall (p : prog S N) s d, prefix (log d) (log (snd (fst (exec call p s d)))).
Proof.
  intros H. induction p as [|e|k IH|s0 k IH|n k IH]; intros s d; cbn [exec].
  - apply prefix_refl.
  - apply prefix_refl.
  - apply IH.
  - apply IH.
  - specialize (H d n). destruct (call d n) as [d' r]. eapply prefix_trans; [exact H|apply IH].
Qed.

Lemma advance_grows S N D X (call : D -> N -> D * option exn) (log : D -> list X) :
  (forall d n, prefix (log d) (log (fst (call d n)))) ->
  forall (p : prog S N) s d, prefix (log d) (log (snd (fst (advance call p s d)))).
Proof.
  intros H. induction p as [|e|k IH|s0 k IH|n k IH]; intros s d; cbn [advance].
  - apply prefix_refl.
  - apply prefix_refl.
  - apply IH.
  - apply IH.
  - specialize (H d n). destruct (call d n) as [d' r]. exact H.
Qed.

Lemma grows_act A (c : comp (notif A)) X (log : cst c -> list X) :
  grows c log -> grows (act_comp c) (fun s => log (snd s)).
Proof.
  intros [H1 H2]. split.
  - intros [n d] [x| |]; simpl; try apply prefix_refl.
    specialize (H1 d x). destruct (ccall c d x). exact H1.
  - intros k [n d] s' H. simpl in *. destruct (cstep c k d) eqn:E; [|discriminate].
    inversion H; subst. eapply H2; eassumption.
Qed.

Lemma grows_agent M N (o : op M N) (c : comp N) X (log : cst c -> list X) :
  grows c log -> grows (agent_comp o c) (fun s => log (snd s)).
Proof.
  intros [H1 H2]. split.
  - intros [a d] m; simpl. apply prefix_refl.
  - intros [|k] [a d] s' H; simpl in *.
    + unfold agent_step in H. destruct (ph a) as [|p|e]; [| |discriminate].
      * destruct (aq a) as [|m q]; [discriminate|]. destruct (live o (as_ a)); [|discriminate].
        pose proof (advance_grows (ccall c) log H1 (body o m) (as_ a) d) as H3.
        destruct (advance (ccall c) (body o m) (as_ a) d) as [[s1 d1] r]. inversion H; subst. exact H3.
      * pose proof (advance_grows (ccall c) log H1 p (as_ a) d) as H3.
        destruct (advance (ccall c) p (as_ a) d) as [[s1 d1] r]. inversion H; subst. exact H3.
    + destruct (cstep c k d) eqn:E; [|discriminate]. inversion H; subst. eapply H2; eassumption.
Qed.

Lemma grows_sync M N (o : op M N) (c : comp N) X (log : cst c -> list X) :
  grows c log -> grows (sync_comp o c) (fun s => log (snd s)).
Proof.
  intros [H1 H2]. split.
  - intros [a d] m; simpl. pose proof (exec_grows (ccall c) log H1 (body o m) a d) as H3.
    destruct (exec (ccall c) (body o m) a d) as [[s1 d1] r]. exact H3.
  - intros k [a d] s' H; simpl in *.
    destruct (cstep c k d) eqn:E; [|discriminate]. inversion H; subst. eapply H2; eassumption.
Qed.

Lemma grows_pipe Z (pol : policy Z) A (p : pipe Z A) : grows (pcomp pol p) (plog pol p).
Proof.
  induction p; simpl.
  - split; simpl; [intros; apply prefix_app|discriminate].
  - exact (grows_agent _ (grows_act IHp)).
  - exact (grows_agent _ (grows_act IHp)).
  - exact (grows_sync _ (grows_act IHp)).
Qed.

(** ** Consequences *)
Record Sane {Z M} (S : system Z M) : Prop := {
  sn_good : Good (sc S);
  sn_grows : grows (sc S) (slog S)
}.

Lemma sane_psys Z A (pol : policy Z) (p : pipe Z A) : Sane (psys pol p).
Proof. split; [apply good_pipe|apply grows_pipe]. Qed.

Lemma sane_msys Z M B (pol : policy Z) (o : op M (act B)) (r : pipe Z B) : Sane (msys pol o r).
Proof.
  split.
  - apply good_agent, good_act, good_pipe.
  - exact (grows_agent _ (grows_act (grows_pipe pol r))).
Qed.

Section Consequences.
  Context {Z M : Type} (S : system Z M) (HS : Sane S).

  Lemma finally_unique ms l1 l2 : finally S ms l1 -> finally S ms l2 -> l1 = l2.
  Proof.
    intros (s1 & R1 & Q1 & <-) (s2 & R2 & Q2 & <-).
    now rewrite (confluence (sn_good HS) R1 Q1 R2 Q2).
  Qed.

  Lemma finally_exists ms : exists l, finally S ms l.
  Proof.
    destruct (completable (sn_good HS) (calls_run (sc S) (s0 S) ms)) as (a & H1 & H2 & _).
    exists (slog S a). exists a. auto.
  Qed.

  Lemma finally_sees ms l : finally S ms l -> sees S ms l.
  Proof. intros (s & H1 & _ & H2). exists s. auto. Qed.

  Lemma sees_prefix ms ms' l l' : sees S ms l -> finally S (ms ++ ms') l' -> prefix l l'.
  Proof.
    intros (s & H1 & <-) (s' & H2 & H3 & <-).
    eapply (prefix_of_final (sn_good HS) (sn_grows HS)); eassumption.
  Qed.
End Consequences.

(** ** Big-step semantics *)

(** [F S x l]: from state [x], once the workers are done, the log is [l]. *)
Definition settles {M} (c : comp M) (x y : cst c) : Prop := exists n, steps c n x y /\ quiet c y.
Definition F {Z M} (S : system Z M) (x : cst (sc S)) (l : list (notif Z)) : Prop :=
  exists y, settles (sc S) x y /\ slog S y = l.

Lemma finally_F Z M (S : system Z M) (HS : Sane S) ms l :
  finally S ms l <-> F S (calls (sc S) (s0 S) ms) l.
Proof.
  split.
  - intros (s & R & Q & <-). destruct (run_steps (sn_good HS) R) as [n Hn].
    exists s. split; [exists n; auto|reflexivity].
  - intros (s & (n & H & Q) & <-). exists s. split; [|auto].
    rewrite <- (app_nil_r ms). eapply run_app; [apply calls_run|eapply steps_run; eassumption].
Qed.

Lemma settles_unique M (c : comp M) (Hc : Good c) x y z : settles c x y -> settles c x z -> y = z.
Proof. intros (n & H1 & H2) (m & H3 & H4). eapply (same_length Hc H1 H2 H3 H4). Qed.

Lemma settles_steps M (c : comp M) (Hc : Good c) n x y z : steps c n x y -> settles c x z <-> settles c y z.
Proof.
  intros H. split.
  - intros (m & H1 & H2). destruct (absorb Hc H1 H2 H) as (k & _ & Hk). exists k. auto.
  - intros (m & H1 & H2). exists (n + m). split; [eapply steps_app; eassumption|assumption].
Qed.

Lemma F_steps Z M (S : system Z M) (HS : Sane S) n x y l : steps (sc S) n x y -> F S x l <-> F S y l.
Proof.
  intros H. split; intros (z & H1 & H2); exists z; (split; [|assumption]);
    [rewrite <- (settles_steps (sn_good HS) z H)|rewrite (settles_steps (sn_good HS) z H)]; assumption.
Qed.

(** Recording the notifications delivered, with nobody raising. *)
Definition lcall {B} (l : list (notif B)) (a : act B) : list (notif B) * option exn :=
  match a with Deliver n => (l ++ [n], None) | _ => (l, None) end.

Lemma lcall_shift S B (p : prog S (act B)) : forall s l0 l,
  exec lcall p s (l0 ++ l) = let '(s', l', r) := exec lcall p s l in (s', l0 ++ l', r).
Proof.
  induction p as [|e|k IH|s0 k IH|n k IH]; intros s l0 l; cbn [exec]; auto.
  destruct n as [n| |]; cbn [lcall]; [rewrite <- app_assoc|..]; apply IH.
Qed.

Lemma lcall_from S B (p : prog S (act B)) s l :
  exec lcall p s l = let '(s', l', r) := exec lcall p s [] in (s', l ++ l', r).
Proof. rewrite <- (app_nil_r l) at 1. apply lcall_shift. Qed.

Definition noraise {M} (c : comp M) : Prop := forall s m, snd (ccall c s m) = None.

Lemma exec_noraise A (c : comp (notif A)) : noraise c ->
  forall S (p : prog S (act A)) s n d s' l r,
  exec lcall p s [] = (s', l, r) ->
  exists n', exec (ccall (act_comp c)) p s (n, d) = (s', (n', calls c d l), r).
Proof.
  intros Hn S p. induction p as [|e|k IH|s0 k IH|a k IH]; intros s n d s' l r H; cbn [exec] in *.
  - inversion H; subst. exists n. reflexivity.
  - inversion H; subst. exists n. reflexivity.
  - eauto.
  - eauto.
  - destruct a as [x| |].
    + cbn [lcall] in H. rewrite lcall_from in H.
      destruct (exec lcall (k None) s []) as [[s1 l1] r1] eqn:E1. inversion H; subst.
      specialize (Hn d x).
      assert (Hcl : calls c d ([] ++ [x] ++ l1) = calls c (fst (ccall c d x)) l1) by reflexivity.
      simpl app in *. rewrite Hcl. cbn [ccall act_comp fst snd].
      destruct (ccall c d x) as [d' r'] eqn:Ec. cbn [fst snd] in *. subst r'.
      destruct (IH None s n d' s' l1 r E1) as [n' Hn']. exists n'. exact Hn'.
    + cbn [lcall] in H. simpl. destruct (IH None s (Datatypes.S n) d s' l r H) as [n' Hn']. exists n'. apply Hn'.
    + cbn [lcall] in H. simpl. destruct (IH None s n d s' l r H) as [n' Hn']. exists n'. apply Hn'.
Qed.

(** What a mailbox worker delivers for the queue [ms]. *)
Fixpoint deliver {M B} (o : op M (act B)) (s : st o) (ms : list M) : list (notif B) :=
  match ms with
  | [] => []
  | m :: ms' =>
      if live o s then
        let '(s', l, r) := exec lcall (body o m) s [] in
        l ++ match r with None => deliver o s' ms' | Some _ => [] end
      else []
  end.

(** What a direct observer delivers for the calls [ms]. *)
Fixpoint feed {M B} (o : op M (act B)) (s : st o) (ms : list M) : list (notif B) :=
  match ms with
  | [] => []
  | m :: ms' =>
      let '(s', l, r) := exec lcall (body o m) s [] in l ++ feed o s' ms'
  end.

Lemma calls_agent M N (o : op M N) (c : comp N) ms : forall a d,
  calls (agent_comp o c) (a, d) ms = (Agent (aq a ++ ms) (as_ a) (ph a), d).
Proof.
  induction ms as [|m ms IH]; intros [q s p] d.
  - simpl. now rewrite app_nil_r.
  - change (calls (agent_comp o c) (Agent (q ++ [m]) s p, d) ms = (Agent (q ++ m :: ms) s p, d)).
    rewrite IH. simpl. now rewrite <- app_assoc.
Qed.

Lemma calls_app M (c : comp M) s a b : calls c s (a ++ b) = calls c (calls c s a) b.
Proof. apply fold_left_app. Qed.

Lemma act_steps A (c : comp (notif A)) k n d d' : steps c n d d' -> steps (act_comp c) n (k, d) (k, d').
Proof.
  induction 1; [constructor|]. econstructor; [|exact IHsteps]. simpl. now rewrite H.
Qed.


(** The state of the downstream after a worker has processed its queue. *)
Fixpoint drainD {M N D} (o : op M N) (call : D -> N -> D * option exn) (ms : list M) (s : st o) (d : D) : D :=
  match ms with
  | [] => d
  | m :: ms' =>
      if live o s then
        let '(s', d', r) := exec call (body o m) s d in
        match r with None => drainD o call ms' s' d' | Some _ => d' end
      else d
  end.

Lemma drain_steps M N (o : op M N) (c : comp N) :
  forall ms s d, exists m a,
    steps (agent_comp o c) m (Agent ms s Idle, d) (a, drainD o (ccall c) ms s d)
    /\ forall d', agent_step o (ccall c) a d' = None.
Proof.
  induction ms as [|m ms IH]; intros s d; cbn [drainD].
  - exists 0, (Agent [] s Idle). split; [constructor|reflexivity].
  - destruct (live o s) eqn:El.
    + destruct (exec (ccall c) (body o m) s d) as [[s' d'] r] eqn:E.
      destruct (agent_process o c ms m s d El E) as [k1 H1].
      destruct r as [e|].
      * exists k1, (Agent ms s' (Dead e)). split; [exact H1|reflexivity].
      * destruct (IH s' d') as (k2 & a & H2 & H3).
        exists (k1 + k2), a. split; [|exact H3]. eapply steps_app; [exact H1|exact H2].
    + exists 0, (Agent (m :: ms) s Idle). split; [constructor|].
      intros d'. unfold agent_step. simpl. now rewrite El.
Qed.

Lemma F_stuck_agent Z M B (pol : policy Z) (o : op M (act B)) (r : pipe Z B) a n d l :
  (forall d', agent_step o (ccall (act_comp (pcomp pol r))) a d' = None) ->
  F (msys pol o r) (a, (n, d)) l <-> F (psys pol r) d l.
Proof.
  intros Ha.
  assert (Hto : forall l, F (psys pol r) d l -> F (msys pol o r) (a, (n, d)) l).
  { intros l0 (y & (m & H1 & H2) & <-). exists (a, (n, y)). split; [|reflexivity].
    exists m. split; [apply agent_steps, act_steps, H1|].
    intros [|k]; simpl; [apply Ha|]. pose proof (H2 k : cstep (pcomp pol r) k y = None) as H3. now rewrite H3. }
  split; [|apply Hto].
  intros (y & Hy & <-).
  destruct (g_term (good_pipe pol r) d) as (m & d' & H1 & H2).
  assert (Hd : F (psys pol r) d (plog pol r d')) by (exists d'; split; [exists m; auto|reflexivity]).
  destruct (Hto _ Hd) as (z & Hz & Hl).
  rewrite (settles_unique (sn_good (sane_msys pol o r)) Hy Hz). rewrite Hl. exact Hd.
Qed.

Lemma F_mbox Z M B (pol : policy Z) (o : op M (act B)) (r : pipe Z B) ms s nd l :
  F (msys pol o r) (Agent ms s Idle, nd) l <->
  F (psys pol r) (snd (drainD o (ccall (act_comp (pcomp pol r))) ms s nd)) l.
Proof.
  destruct (drain_steps o (act_comp (pcomp pol r)) ms s nd) as (m & a & H1 & H2).
  rewrite (F_steps (sane_msys pol o r) l H1).
  destruct (drainD o (ccall (act_comp (pcomp pol r))) ms s nd) as [n d].
  apply F_stuck_agent, H2.
Qed.

Lemma F_sync Z A B (pol : policy Z) (o : op (notif A) (act B)) (r : pipe Z B) s n d l :
  F (psys pol (PSync o r)) (s, (n, d)) l <-> F (psys pol r) d l.
Proof.
  assert (Hto : forall l, F (psys pol r) d l -> F (psys pol (PSync o r)) (s, (n, d)) l).
  { intros l0 (y & (m & H1 & H2) & <-). exists (s, (n, y)). split; [|reflexivity].
    exists m. split; [apply sync_steps, act_steps, H1|].
    intros k; simpl. pose proof (H2 k : cstep (pcomp pol r) k y = None) as H3. now rewrite H3. }
  split; [|apply Hto].
  intros (y & Hy & <-).
  destruct (g_term (good_pipe pol r) d) as (m & d' & H1 & H2).
  assert (Hd : F (psys pol r) d (plog pol r d')) by (exists d'; split; [exists m; auto|reflexivity]).
  destruct (Hto _ Hd) as (z & Hz & Hl).
  rewrite (settles_unique (sn_good (sane_psys pol (PSync o r))) Hy Hz). rewrite Hl. exact Hd.
Qed.

Lemma F_sync' Z A B (pol : policy Z) (o : op (notif A) (act B)) (r : pipe Z B) (x : st o * (nat * cst (pcomp pol r))) l :
  F (psys pol (PSync o r)) x l <-> F (psys pol r) (snd (snd x)) l.
Proof. destruct x as [s [n d]]. apply F_sync. Qed.

Theorem stage_msys Z M B (pol : policy Z) (o : op M (act B)) (r : pipe Z B) ms l :
  finally (msys pol o r) ms l <->
  F (psys pol r) (snd (drainD o (ccall (act_comp (pcomp pol r))) ms (ini o) (0, pinit pol r))) l.
Proof.
  rewrite (finally_F (sane_msys pol o r)). simpl.
  rewrite (calls_agent o (act_comp (pcomp pol r)) ms). simpl. apply F_mbox.
Qed.

(** ** Safe stages: closed form *)
Lemma exec_bind S N D (call : D -> N -> D * option exn) (p : prog S N) K : forall s d,
  exec call (bindp p K) s d =
  let '(s', d', r) := exec call p s d in exec call (K r) s' d'.
Proof.
  induction p as [|e|k IH|s0 k IH|n k IH]; intros s d; cbn [bindp exec]; auto.
  destruct (call d n) as [d' r]. apply IH.
Qed.

Lemma exec_lift2 S1 S2 N D (call : D -> N -> D * option exn) (p : prog S2 N) : forall (s1 : S1) s2 d,
  exec call (lift2 p) (s1, s2) d = let '(s2', d', r) := exec call p s2 d in ((s1, s2'), d', r).
Proof.
  induction p as [|e|k IH|s0 k IH|n k IH]; intros s1 s2 d; cbn [lift2 exec]; auto.
  destruct (call d n) as [d' r]. apply IH.
Qed.

Definition through {S2 N P D} (f : N -> prog S2 P) (call : D -> P -> D * option exn) (sd : S2 * D) (n : N) :=
  let '(s2, d, r) := exec call (f n) (fst sd) (snd sd) in ((s2, d), r).

Lemma exec_inline S1 S2 N P D (call : D -> P -> D * option exn) (f : N -> prog S2 P) (p : prog S1 N) :
  forall s1 s2 d,
  exec call (inlinep f p) (s1, s2) d =
  let '(s1', (s2', d'), r) := exec (through f call) p s1 (s2, d) in ((s1', s2'), d', r).
Proof.
  induction p as [|e|k IH|s0 k IH|n k IH]; intros s1 s2 d; cbn [inlinep exec].
  - reflexivity.
  - reflexivity.
  - apply IH.
  - cbn [snd]. apply IH.
  - rewrite exec_bind, exec_lift2. unfold through at 1. cbn [fst snd].
    destruct (exec call (f n) s2 d) as [[s2' d'] r]. apply IH.
Qed.

Definition to_obs {B C} (o2 : op (notif B) (act C)) (a : act B) : prog (st o2) (act C) :=
  match a with
  | Deliver n => body o2 n
  | Dispose => awaitp Dispose
  | Await => awaitp Await
  end.

Lemma exec_inline_op M B C (o1 : op M (act B)) (o2 : op (notif B) (act C)) D
  (call : D -> act C -> D * option exn) m s1 s2 d :
  exec call (body (inline o1 o2) m) ((s1, s2) : st (inline o1 o2)) d =
  let '(s1', (s2', d'), r) := exec (through (to_obs o2) call) (body o1 m) s1 (s2, d) in
  ((s1', s2') : st (inline o1 o2), d', r).
Proof. apply exec_inline. Qed.


(** *** safe_observer, big-step, in front of any observer *)
Fixpoint bsafe {D A} (call : D -> notif A -> D * option exn) (ms : list (notif A)) (d : D) : D :=
  match ms with
  | [] => d
  | OnNext a :: ms' =>
      let (d', r) := call d (OnNext a) in
      match r with
      | None => bsafe call ms' d'
      | Some e => fst (call d' (OnError e))
      end
  | t :: _ => fst (call d t)
  end.

Lemma drain_dead A B D (o : op (notif A) (act B)) (call : D -> act B -> D * option exn) s ms d :
  drainD (inline safe_op o) call ms (true, s) d = d.
Proof. destruct ms; reflexivity. Qed.

(** Calls of [o] in front of [c], and their independence of the disposal count. *)
Definition ocall {A B} (o : op (notif A) (act B)) (c : comp (notif B)) : comp (notif A) :=
  sync_comp o (act_comp c).

Definition sameD {S X} (a b : S * (nat * X)) : Prop := fst a = fst b /\ snd (snd a) = snd (snd b).

Lemma exec_count B (c : comp (notif B)) S (p : prog S (act B)) : forall s n1 n2 d,
  exists s' n1' n2' d' r,
  exec (ccall (act_comp c)) p s (n1, d) = (s', (n1', d'), r) /\
  exec (ccall (act_comp c)) p s (n2, d) = (s', (n2', d'), r).
Proof.
  induction p as [|e|k IH|s0 k IH|a k IH]; intros s n1 n2 d; cbn [exec].
  - exists s, n1, n2, d, None. auto.
  - exists s, n1, n2, d, (Some e). auto.
  - apply IH.
  - apply IH.
  - destruct a as [x| |]; cbn [ccall act_comp fst snd].
    + destruct (ccall c d x) as [d' r]. apply IH.
    + apply IH.
    + apply IH.
Qed.

Lemma bsafe_count A B (o : op (notif A) (act B)) (c : comp (notif B)) : forall ms s n1 n2 d,
  sameD (bsafe (ccall (ocall o c)) ms (s, (n1, d))) (bsafe (ccall (ocall o c)) ms (s, (n2, d))).
Proof.
  induction ms as [|m ms IH]; intros s n1 n2 d; [split; reflexivity|].
  destruct (exec_count c (body o m) s n1 n2 d) as (s' & n1' & n2' & d' & r & H1 & H2).
  destruct m as [a|e|]; cbn [bsafe ccall ocall sync_comp fst snd]; rewrite H1, H2.
  - destruct r as [e|]; [|apply IH].
    destruct (exec_count c (body o (OnError e)) s' n1' n2' d') as (s2 & n3 & n4 & d2 & r2 & H3 & H4).
    cbn [fst snd]. rewrite H3, H4. split; reflexivity.
  - split; reflexivity.
  - split; reflexivity.
Qed.

Lemma drain_safe A B (o : op (notif A) (act B)) (c : comp (notif B)) : forall ms s n d,
  snd (drainD (inline safe_op o) (ccall (act_comp c)) ms (false, s) (n, d)) =
  snd (snd (bsafe (ccall (ocall o c)) ms (s, (n, d)))).
Proof.
  induction ms as [|m ms IH]; intros s n d; [reflexivity|].
  cbn [drainD]. change (live (inline safe_op o) (false, s)) with true. cbn match.
  rewrite exec_inline_op.
  destruct m as [a|e|]; cbn [body safe_op tryp seqp awaitp bindp exec bsafe].
  - unfold through at 1; cbn [to_obs fst snd].
    cbn [ccall ocall sync_comp fst snd].
    destruct (exec (ccall (act_comp c)) (body o (OnNext a)) s (n, d)) as [[s' [n' d']] r].
    destruct r as [e|]; cbn [exec bindp].
    + unfold through; cbn [to_obs fst snd].
      destruct (exec (ccall (act_comp c)) (body o (OnError e)) s' (n', d')) as [[s2 [n2 d2]] r2].
      destruct r2; cbn [exec bindp fst snd]; [reflexivity|].
      rewrite drain_dead. reflexivity.
    + apply IH.
  - unfold through; cbn [to_obs fst snd exec ccall act_comp bindp awaitp ocall sync_comp].
    destruct (exec_count c (body o (OnError e)) s n (S n) d) as (s' & n1' & n2' & d' & r & H1 & H2).
    cbn [ccall act_comp] in H1, H2. rewrite H1, H2.
    destruct r; cbn [exec bindp fst snd]; [reflexivity|]. rewrite drain_dead. reflexivity.
  - unfold through; cbn [to_obs fst snd exec ccall act_comp bindp awaitp ocall sync_comp].
    destruct (exec_count c (body o OnCompleted) s n (S n) d) as (s' & n1' & n2' & d' & r & H1 & H2).
    cbn [ccall act_comp] in H1, H2. rewrite H1, H2.
    destruct r; cbn [exec bindp fst snd]; [reflexivity|]. rewrite drain_dead. reflexivity.
Qed.

(** A safe_observer in front of the direct observer [o] and [r]. *)
Lemma finally_psafe Z A B (pol : policy Z) (o : op (notif A) (act B)) (r : pipe Z B) ms l :
  finally (psys pol (PSafe o r)) ms l <->
  F (psys pol r) (snd (snd (bsafe (ccall (ocall o (pcomp pol r))) ms (ini o, (0, pinit pol r))))) l.
Proof.
  rewrite <- drain_safe. apply (stage_msys pol (inline safe_op o) r ms l).
Qed.

Lemma bsafe_id B (c : comp (notif B)) : forall ms n d,
  snd (snd (bsafe (ccall (ocall id_op c)) ms (tt, (n, d)))) = bsafe (ccall c) ms d.
Proof.
  assert (H : forall m n d, ccall (ocall id_op c) (tt, (n, d)) m =
     ((tt, (n, fst (ccall c d m))), snd (ccall c d m))).
  { intros m n d. cbn. destruct (ccall c d m) as [d' [e|]]; reflexivity. }
  induction ms as [|m ms IH]; intros n d; [reflexivity|].
  destruct m as [a|e|]; cbn [bsafe]; rewrite H; cbn [fst snd]; try reflexivity.
  destruct (ccall c d (OnNext a)) as [d' [e|]]; cbn [fst snd].
  - now rewrite H.
  - apply IH.
Qed.

Theorem finally_safe Z A (pol : policy Z) (p : pipe Z A) ms l :
  finally (psys pol (safe p)) ms l <-> F (psys pol p) (bsafe (ccall (pcomp pol p)) ms (pinit pol p)) l.
Proof.
  destruct p as [|A B o r|A B o r|A B o r]; cbn [safe].
  - rewrite finally_psafe. cbn [ini id_op direct]. now rewrite bsafe_id.
  - rewrite finally_psafe. cbn [ini id_op direct]. now rewrite bsafe_id.
  - rewrite finally_psafe. cbn [ini id_op direct]. now rewrite bsafe_id.
  - rewrite finally_psafe. symmetry. apply F_sync'.
Qed.

(** *** Direct observers in front of a pipeline *)

(** Observational equality of two observers. *)
Record Sim {Z A} (pol : policy Z) (p q : pipe Z A)
  (R : cst (pcomp pol p) -> cst (pcomp pol q) -> Prop) : Prop := {
  sim_init : R (pinit pol p) (pinit pol q);
  sim_call : forall x y m, R x y -> R (fst (ccall (pcomp pol p) x m)) (fst (ccall (pcomp pol q) y m))
                 /\ snd (ccall (pcomp pol p) x m) = snd (ccall (pcomp pol q) y m);
  sim_F : forall x y l, R x y -> F (psys pol p) x l <-> F (psys pol q) y l
}.

Lemma sim_bsafe Z A (pol : policy Z) (p q : pipe Z A) R : Sim pol p q R ->
  forall ms x y, R x y -> R (bsafe (ccall (pcomp pol p)) ms x) (bsafe (ccall (pcomp pol q)) ms y).
Proof.
  intros HR. induction ms as [|m ms IH]; intros x y H; [exact H|].
  destruct (sim_call HR x y m H) as [H1 H2].
  destruct m as [a|e|]; cbn [bsafe]; try exact H1.
  destruct (ccall (pcomp pol p) x (OnNext a)) as [x' r]. destruct (ccall (pcomp pol q) y (OnNext a)) as [y' r'].
  cbn [fst snd] in *. subst r'. destruct r as [e|]; [|apply IH, H1].
  apply (sim_call HR x' y' (OnError e) H1).
Qed.

Lemma sim_calls Z A (pol : policy Z) (p q : pipe Z A) R : Sim pol p q R ->
  forall ms x y, R x y -> R (calls (pcomp pol p) x ms) (calls (pcomp pol q) y ms).
Proof.
  intros HR. induction ms as [|m ms IH]; intros x y H; [exact H|].
  apply IH. apply (sim_call HR x y m H).
Qed.

Lemma sim_finally Z A (pol : policy Z) (p q : pipe Z A) R : Sim pol p q R ->
  forall ms l, finally (psys pol p) ms l <-> finally (psys pol q) ms l.
Proof.
  intros HR ms l. rewrite !finally_F by apply sane_psys.
  apply (sim_F HR). apply (sim_calls HR), (sim_init HR).
Qed.

Lemma sim_finally_safe Z A (pol : policy Z) (p q : pipe Z A) R : Sim pol p q R ->
  forall ms l, finally (psys pol (safe p)) ms l <-> finally (psys pol (safe q)) ms l.
Proof.
  intros HR ms l. rewrite !finally_safe.
  apply (sim_F HR). apply (sim_bsafe HR), (sim_init HR).
Qed.

Definition pre_rel {S1 S2 X} (x : (S1 * S2) * (nat * X)) (y : S1 * (nat * (S2 * (nat * X)))) : Prop :=
  fst (fst x) = fst y /\ snd (fst x) = fst (snd (snd y)) /\ snd (snd x) = snd (snd (snd (snd y))).

Lemma exec_pre B C (o2 : op (notif B) (act C)) (c : comp (notif C)) S (p : prog S (act B)) :
  forall s1 s2 n d na nb, exists s1' s2' n' d' na' nb' r,
  exec (through (to_obs o2) (ccall (act_comp c))) p s1 (s2, (n, d)) = (s1', (s2', (n', d')), r) /\
  exec (ccall (act_comp (ocall o2 c))) p s1 (na, (s2, (nb, d))) = (s1', (na', (s2', (nb', d'))), r).
Proof.
  induction p as [|e|k IH|s0 k IH|a k IH]; intros s1 s2 n d na nb; cbn [exec].
  - exists s1, s2, n, d, na, nb, None. auto.
  - exists s1, s2, n, d, na, nb, (Some e). auto.
  - apply IH.
  - apply IH.
  - unfold through at 1. destruct a as [x| |]; cbn [to_obs fst snd].
    + cbn [ccall act_comp ocall sync_comp fst snd].
      destruct (exec_count c (body o2 x) s2 n nb d) as (s' & n1 & n2 & d' & r & H1 & H2).
      cbn [ccall act_comp] in H1, H2. rewrite H1, H2. apply IH.
    + cbn [awaitp exec ccall act_comp fst snd]. apply IH.
    + cbn [awaitp exec ccall act_comp fst snd]. apply IH.
Qed.

Lemma sim_inline Z A B C (pol : policy Z) (o1 : op (notif A) (act B)) (o2 : op (notif B) (act C)) (r : pipe Z C) :
  Sim pol (PSync (inline o1 o2) r) (PSync o1 (PSync o2 r)) pre_rel.
Proof.
  split.
  - repeat split.
  - intros [[s1 s2] [n d]] [s1' [na [s2' [nb d']]]] m (H1 & H2 & H3). cbn [fst snd] in *. subst s1' s2' d'.
    cbn [pcomp ccall sync_comp fst snd].
    destruct (exec_pre o2 (pcomp pol r) (body o1 m) s1 s2 n d na nb) as (t1 & t2 & n' & d' & na' & nb' & x & E1 & E2).
    pose proof (eq_trans (exec_inline_op o1 o2 (ccall (act_comp (pcomp pol r))) m s1 s2 (n, d))
       (f_equal (fun t : st o1 * (st o2 * (nat * cst (pcomp pol r))) * option exn =>
                   let '(a, (b, e), y) := t in ((a, b), e, y)) E1)) as He.
    unfold ocall in E2.
    assert (G : forall (t : st (inline o1 o2) * (nat * cst (pcomp pol r)) * option exn) u,
       t = ((t1, t2), (n', d'), x) -> u = (t1, (na', (t2, (nb', d'))), x) ->
       pre_rel (fst (let '(s', d', r) := t in ((s', d'), r))) (fst (let '(s', d', r) := u in ((s', d'), r)))
       /\ snd (let '(s', d', r) := t in ((s', d'), r)) = snd (let '(s', d', r) := u in ((s', d'), r))).
    { intros t u -> ->. repeat split. }
    exact (G _ _ He E2).
  - intros [[s1 s2] [n d]] [s1' [na [s2' [nb d']]]] l (H1 & H2 & H3). cbn [fst snd] in *. subst s1' s2' d'.
    rewrite F_sync. symmetry. etransitivity; [apply (F_sync pol o1 (PSync o2 r))|]. apply F_sync.
Qed.

Definition eq_rel {X} (x y : X) : Prop := x = y.
Lemma sim_refl Z A (pol : policy Z) (p : pipe Z A) : Sim pol p p eq_rel.
Proof.
  split.
  - reflexivity.
  - intros x y m ->. split; reflexivity.
  - intros x y l ->. reflexivity.
Qed.

Lemma sim_pre Z A B (pol : policy Z) (o : op (notif A) (act B)) (r : pipe Z B) :
  exists R, Sim pol (pre o r) (PSync o r) R.
Proof.
  destruct r; cbn [pre]; try (eexists; apply sim_refl).
  eexists; apply sim_inline.
Qed.

Theorem finally_pre Z A B (pol : policy Z) (o : op (notif A) (act B)) (r : pipe Z B) ms l :
  finally (psys pol (pre o r)) ms l <->
  F (psys pol r) (snd (snd (calls (ocall o (pcomp pol r)) (ini o, (0, pinit pol r)) ms))) l.
Proof.
  destruct (sim_pre pol o r) as [R HR]. rewrite (sim_finally HR).
  rewrite finally_F by apply sane_psys. apply F_sync'.
Qed.

Theorem finally_safe_pre Z A B (pol : policy Z) (o : op (notif A) (act B)) (r : pipe Z B) ms l :
  finally (psys pol (safe (pre o r))) ms l <->
  F (psys pol r) (snd (snd (bsafe (ccall (ocall o (pcomp pol r))) ms (ini o, (0, pinit pol r))))) l.
Proof.
  destruct (sim_pre pol o r) as [R HR]. rewrite (sim_finally_safe HR).
  rewrite finally_safe. apply F_sync'.
Qed.

(** *** Observers that never raise *)
Lemma noraise_agent M N (o : op M N) (c : comp N) : noraise (agent_comp o c).
Proof. intros s m. reflexivity. Qed.

Lemma noraise_safe Z (pol : policy Z) A (p : pipe Z A) : noraise (pcomp pol (safe p)).
Proof. destruct p; intros s m; reflexivity. Qed.

Lemma noraise_mbox Z (pol : policy Z) A B (o : op (notif A) (act B)) r : noraise (pcomp pol (PMbox o r)).
Proof. apply noraise_agent. Qed.

Lemma noraise_end Z : noraise (pcomp (Z := Z) well_behaved PEnd).
Proof. intros s m. reflexivity. Qed.

Lemma finally_end Z (pol : policy Z) ms l : finally (psys pol PEnd) ms l <-> l = ms.
Proof.
  assert (H : finally (psys pol PEnd) ms ms).
  { exists (calls (sink pol) [] ms). split; [apply calls_run|]. split; [intros k; reflexivity|].
    change (calls (sink pol) [] ms = ms).
    assert (G : forall l0, calls (sink pol) l0 ms = l0 ++ ms).
    { clear. induction ms as [|m ms IH]; intros l0; [simpl; now rewrite app_nil_r|].
      change (calls (sink pol) (l0 ++ [m]) ms = l0 ++ m :: ms).
      rewrite IH. now rewrite <- app_assoc. }
    apply G. }
  split; [|intros ->; exact H].
  intros H'. eapply finally_unique; [apply (sane_psys pol PEnd)|eassumption|eassumption].
Qed.

(** Output of a safe_observer worker followed by the direct observer [o]. *)
Fixpoint srun {A B} (o : op (notif A) (act B)) (s : st o) (ms : list (notif A)) : list (notif B) :=
  match ms with
  | [] => []
  | OnNext a :: ms' =>
      let '(s', l, r) := exec lcall (body o (OnNext a)) s [] in
      l ++ match r with
           | None => srun o s' ms'
           | Some e => snd (fst (exec lcall (body o (OnError e)) s' []))
           end
  | t :: _ => snd (fst (exec lcall (body o t) s []))
  end.

Lemma bsafe_srun A B (o : op (notif A) (act B)) (c : comp (notif B)) : noraise c ->
  forall ms s n d, snd (snd (bsafe (ccall (ocall o c)) ms (s, (n, d)))) = calls c d (srun o s ms).
Proof.
  intros Hn. induction ms as [|m ms IH]; intros s n d; [reflexivity|].
  assert (He : forall m s n d, exists n', exec (ccall (act_comp c)) (body o m) s (n, d) =
     let '(s', l, r) := exec lcall (body o m) s [] in (s', (n', calls c d l), r)).
  { intros m' s1 n1 d1. destruct (exec lcall (body o m') s1 []) as [[s' l] r] eqn:E.
    apply (exec_noraise Hn _ _ n1 d1 E). }
  destruct (He m s n d) as [n' H1].
  destruct m as [a|e|]; cbn [bsafe ccall ocall sync_comp fst snd srun]; rewrite H1.
  - destruct (exec lcall (body o (OnNext a)) s []) as [[s' l] r].
    rewrite calls_app. destruct r as [e|]; [|apply IH].
    cbn [fst snd]. destruct (He (OnError e) s' n' (calls c d l)) as [n2 H2]. rewrite H2.
    destruct (exec lcall (body o (OnError e)) s' []) as [[s2 l2] r2]. reflexivity.
  - destruct (exec lcall (body o (OnError e)) s []) as [[s' l] r]. reflexivity.
  - destruct (exec lcall (body o OnCompleted) s []) as [[s' l] r]. reflexivity.
Qed.

Theorem stage_safe Z (pol : policy Z) A B (o : op (notif A) (act B)) (r : pipe Z B) ms l :
  noraise (pcomp pol r) ->
  finally (psys pol (safe (pre o r))) ms l <-> finally (psys pol r) (srun o (ini o) ms) l.
Proof.
  intros Hn. rewrite finally_safe_pre, (bsafe_srun o Hn).
  symmetry. apply (finally_F (sane_psys pol r)).
Qed.

Lemma calls_sync A B (o : op (notif A) (act B)) (c : comp (notif B)) : noraise c ->
  forall ms s n d, snd (snd (calls (ocall o c) (s, (n, d)) ms)) = calls c d (feed o s ms).
Proof.
  intros Hn. induction ms as [|m ms IH]; intros s n d; cbn [feed].
  - reflexivity.
  - destruct (exec lcall (body o m) s []) as [[s' l] x] eqn:E.
    destruct (exec_noraise Hn _ _ n d E) as [n' He].
    change (calls (ocall o c) (s, (n, d)) (m :: ms)) with
      (calls (ocall o c) (fst (let '(s', d', r0) :=
          exec (ccall (act_comp c)) (body o m) s (n, d) in ((s', d'), r0))) ms).
    rewrite He. cbn [fst]. rewrite calls_app. apply IH.
Qed.

(** The same with the source calling the observer directly (a subject). *)
Theorem stage_sync Z (pol : policy Z) A B (o : op (notif A) (act B)) (r : pipe Z B) ms l :
  noraise (pcomp pol r) ->
  finally (psys pol (pre o r)) ms l <-> finally (psys pol r) (feed o (ini o) ms) l.
Proof.
  intros Hn. rewrite finally_pre, (calls_sync o Hn).
  symmetry. apply (finally_F (sane_psys pol r)).
Qed.

(** Mailbox workers. *)
Lemma drain_deliver M B (o : op M (act B)) (c : comp (notif B)) : noraise c ->
  forall ms s n d, snd (drainD o (ccall (act_comp c)) ms s (n, d)) = calls c d (deliver o s ms).
Proof.
  intros Hn. induction ms as [|m ms IH]; intros s n d; cbn [drainD deliver]; [reflexivity|].
  destruct (live o s); [|reflexivity].
  destruct (exec lcall (body o m) s []) as [[s' l] r] eqn:E.
  destruct (exec_noraise Hn _ _ n d E) as [n' He]. rewrite He, calls_app.
  destruct r as [e|]; [reflexivity|apply IH].
Qed.

Theorem stage_mbox Z (pol : policy Z) M B (o : op M (act B)) (r : pipe Z B) ms l :
  noraise (pcomp pol r) ->
  finally (msys pol o r) ms l <-> finally (psys pol r) (deliver o (ini o) ms) l.
Proof.
  intros Hn. rewrite stage_msys, (drain_deliver o Hn).
  symmetry. apply (finally_F (sane_psys pol r)).
Qed.

Lemma msys_psys Z (pol : policy Z) A B (o : op (notif A) (act B)) (r : pipe Z B) ms l :
  finally (psys pol (PMbox o r)) ms l <-> finally (msys pol o r) ms l.
Proof. reflexivity. Qed.

(** *** Relays: observers that pass on at most one element per element *)
Definition relay {S A B} (h : S -> A -> res (S * option B)) : S -> list (notif A) -> list (notif B) :=
  fix go s ms :=
  match ms with
  | [] => []
  | OnNext a :: ms' =>
      match h s a with
      | Err e => [OnError e]
      | Ok (s', Some b) => OnNext b :: go s' ms'
      | Ok (s', None) => go s' ms'
      end
  | OnError e :: _ => [OnError e]
  | OnCompleted :: _ => [OnCompleted]
  end.

Definition is_relay {S A B} (h : S -> A -> res (S * option B)) (o : op (notif A) (act B)) (enc : S -> st o) : Prop :=
  forall D (call : D -> act B -> D * option exn), (forall d, call d Await = (d, None)) ->
  (forall s d a, exec call (body o (OnNext a)) (enc s) d =
     match h s a with
     | Err e => (enc s, d, Some e)
     | Ok (s', Some b) => (enc s', fst (call d (Deliver (OnNext b))), snd (call d (Deliver (OnNext b))))
     | Ok (s', None) => (enc s', d, None)
     end) /\
  (forall s d e, exec call (body o (OnError e)) (enc s) d =
     (enc s, fst (call d (Deliver (OnError e))), snd (call d (Deliver (OnError e))))) /\
  (forall s d, exec call (body o OnCompleted) (enc s) d =
     (enc s, fst (call d (Deliver OnCompleted)), snd (call d (Deliver OnCompleted)))).

Lemma bsafe_relay S A B h (o : op (notif A) (act B)) (enc : S -> st o) (c : comp (notif B)) :
  is_relay h o enc ->
  forall ms s n d, snd (snd (bsafe (ccall (ocall o c)) ms (enc s, (n, d)))) = bsafe (ccall c) (relay h s ms) d.
Proof.
  intros Hr. destruct (Hr _ (ccall (act_comp c))) as (Hn & He & Hc).
  { intros [n d]. reflexivity. }
  induction ms as [|m ms IH]; intros s n d; [reflexivity|].
  destruct m as [a|e|]; cbn [bsafe ccall ocall sync_comp fst snd].
  - rewrite Hn. cbn [relay]. destruct (h s a) as [[s' [b|]]|e].
    + cbn [ccall act_comp fst snd bsafe].
      destruct (ccall c d (OnNext b)) as [d' [e|]] eqn:E; cbn [fst snd].
      * rewrite He. cbn [ccall act_comp fst snd].
        destruct (ccall c d' (OnError e)) as [d2 r2]. reflexivity.
      * apply IH.
    + apply IH.
    + cbn [bsafe fst snd]. rewrite He. cbn [ccall act_comp fst snd].
      destruct (ccall c d (OnError e)) as [d2 r2]. reflexivity.
  - rewrite He. cbn [relay bsafe ccall act_comp fst snd].
    destruct (ccall c d (OnError e)) as [d2 r2]. reflexivity.
  - rewrite Hc. cbn [relay bsafe ccall act_comp fst snd].
    destruct (ccall c d OnCompleted) as [d2 r2]. reflexivity.
Qed.

(** Whatever follows (and whatever it raises), a relay only changes the input. *)
Theorem stage_relay Z (pol : policy Z) S A B h (o : op (notif A) (act B)) (enc : S -> st o) s0 (r : pipe Z B) ms l :
  is_relay h o enc -> ini o = enc s0 ->
  finally (psys pol (safe (pre o r))) ms l <-> finally (psys pol (safe r)) (relay h s0 ms) l.
Proof.
  intros Hr Hi. rewrite finally_safe_pre, finally_safe, Hi, (bsafe_relay _ Hr). reflexivity.
Qed.
