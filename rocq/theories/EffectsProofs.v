(** * Functions with side effects: proofs. *)
From Verif Require Export Effects Ops3Proofs.
Set Implicit Arguments.

(** ** The state of a worker once it is done *)
Fixpoint drainS {M B} (o : op M (act B)) (ms : list M) (s : st o) : st o :=
  match ms with
  | [] => s
  | m :: ms' =>
      if live o s then
        let '(s', _, r) := exec lcall (body o m) s [] in
        match r with None => drainS o ms' s' | Some _ => s' end
      else s
  end.

Lemma drain_states M B (o : op M (act B)) (c : comp (notif B)) : noraise c ->
  forall ms s n d, exists k a nd,
    steps (agent_comp o (act_comp c)) k (Agent ms s Idle, (n, d)) (a, nd)
    /\ as_ a = drainS o ms s /\ forall d', agent_step o (ccall (act_comp c)) a d' = None.
Proof.
  intros Hn. induction ms as [|m ms IH]; intros s n d; cbn [drainS].
  - exists 0, (Agent [] s Idle), (n, d). repeat split. constructor.
  - destruct (live o s) eqn:El.
    + destruct (exec lcall (body o m) s []) as [[s' l] r] eqn:E.
      destruct (exec_noraise Hn _ _ n d E) as [n' He].
      destruct (agent_process o (act_comp c) ms m s (n, d) El He) as [k1 H1].
      destruct r as [e|].
      * exists k1, (Agent ms s' (Dead e)), (n', calls c d l). repeat split. exact H1.
      * destruct (IH s' n' (calls c d l)) as (k2 & a & nd & H2 & H3 & H4).
        exists (k1 + k2), a, nd. repeat split; [|exact H3|exact H4].
        eapply steps_app; [exact H1|exact H2].
    + exists 0, (Agent (m :: ms) s Idle), (n, d). repeat split; [constructor|].
      intros d'. unfold agent_step. simpl. now rewrite El.
Qed.

(** The same behind a safe_observer. *)
Fixpoint sstate {A B} (o : op (notif A) (act B)) (s : st o) (ms : list (notif A)) : st o :=
  match ms with
  | [] => s
  | OnNext a :: ms' =>
      let '(s', _, r) := exec lcall (body o (OnNext a)) s [] in
      match r with
      | None => sstate o s' ms'
      | Some e => fst (fst (exec lcall (body o (OnError e)) s' []))
      end
  | t :: _ => fst (fst (exec lcall (body o t) s []))
  end.

Lemma drainS_dead A B (o : op (notif A) (act B)) s ms :
  drainS (inline safe_op o) ms ((true, s) : st (inline safe_op o)) = (true, s).
Proof. destruct ms; reflexivity. Qed.

Lemma lcall_from B S (p : prog S (act B)) : forall s l,
  exec lcall p s l = let '(s', l', r) := exec lcall p s [] in (s', l ++ l', r).
Proof.
  assert (H : forall s l1 l2, exec lcall p s (l1 ++ l2) = let '(s', l', r) := exec lcall p s l2 in (s', l1 ++ l', r)).
  { induction p as [|e|k IH|s0 k IH|a k IH]; intros s l1 l2; cbn [exec].
    - reflexivity.
    - reflexivity.
    - apply IH.
    - apply IH.
    - destruct a as [x| |]; cbn [lcall].
      + rewrite <- app_assoc. apply IH.
      + apply IH.
      + apply IH. }
  intros s l. rewrite <- (app_nil_r l) at 1. apply H.
Qed.

Lemma drainS_safe A B (o : op (notif A) (act B)) : forall ms s,
  snd (drainS (inline safe_op o) ms ((false, s) : st (inline safe_op o))) = sstate o s ms.
Proof.
  induction ms as [|m ms IH]; intros s; [reflexivity|].
  cbn [drainS]. change (live (inline safe_op o) (false, s)) with true. cbn match.
  rewrite exec_inline_op.
  destruct m as [a|e|]; cbn [body safe_op tryp seqp awaitp bindp exec sstate].
  - unfold through at 1; cbn [to_obs fst snd].
    destruct (exec lcall (body o (OnNext a)) s []) as [[s' l] r].
    destruct r as [e|]; cbn [exec bindp].
    + unfold through; cbn [to_obs fst snd]. rewrite lcall_from.
      destruct (exec lcall (body o (OnError e)) s' []) as [[s2 l2] r2].
      destruct r2; cbn [exec bindp fst snd]; [reflexivity|].
      now rewrite drainS_dead.
    + apply IH.
  - unfold through; cbn [to_obs fst snd exec lcall bindp awaitp].
    destruct (exec lcall (body o (OnError e)) s []) as [[s' l] r].
    destruct r; cbn [exec bindp fst snd]; [reflexivity|]. now rewrite drainS_dead.
  - unfold through; cbn [to_obs fst snd exec lcall bindp awaitp].
    destruct (exec lcall (body o OnCompleted) s []) as [[s' l] r].
    destruct r; cbn [exec bindp fst snd]; [reflexivity|]. now rewrite drainS_dead.
Qed.

Lemma stuck_settles M B (o : op M (act B)) (c : comp (notif B)) (Hc : Good c) a nd :
  (forall d', agent_step o (ccall (act_comp c)) a d' = None) ->
  exists nd', settles (agent_comp o (act_comp c)) (a, nd) (a, nd').
Proof.
  intros Ha. destruct (g_term (good_act Hc) nd) as (m & nd' & H1 & H2).
  exists nd', m. split; [now apply agent_steps|].
  intros [|k]; simpl; [apply Ha|]. pose proof (H2 k) as H3. simpl in H3. now rewrite H3.
Qed.

Lemma psafe_final Z A B (pol : policy Z) (o : op (notif A) (act B)) (r : pipe Z B) ms s :
  noraise (pcomp pol r) ->
  run (pcomp pol (PSafe o r)) (pinit pol (PSafe o r)) ms s -> quiet (pcomp pol (PSafe o r)) s ->
  @state_of _ _ _ pol o r s = sstate o (ini o) ms.
Proof.
  intros Hn R Q.
  pose proof (good_agent (inline safe_op o) (good_act (good_pipe pol r))) as HG.
  destruct (run_steps HG R) as [n Hs].
  assert (Hc : forall q nd, calls (agent_comp (inline safe_op o) (act_comp (pcomp pol r)))
      (Agent q (ini (inline safe_op o)) Idle, nd) ms = (Agent (q ++ ms) (ini (inline safe_op o)) Idle, nd)).
  { clear. induction ms as [|m ms IH]; intros q nd; [now rewrite app_nil_r|].
    change (calls (agent_comp (inline safe_op o) (act_comp (pcomp pol r)))
      (Agent (q ++ [m]) (ini (inline safe_op o)) Idle, nd) ms = (Agent (q ++ m :: ms) (ini (inline safe_op o)) Idle, nd)).
    rewrite IH. now rewrite <- app_assoc. }
  cbn [pinit] in Hs. rewrite Hc in Hs. cbn [app] in Hs.
  destruct (drain_states (inline safe_op o) Hn ms (ini (inline safe_op o)) 0 (pinit pol r)) as (k & a & nd & H1 & H2 & H3).
  destruct (stuck_settles (inline safe_op o) (good_pipe pol r) a nd H3) as (nd' & m & H4 & H5).
  assert (E : s = (a, nd')).
  { eapply (settles_unique HG); [exists n; split; [exact Hs|exact Q]|].
    exists (k + m). split; [eapply steps_app; [exact H1|exact H4]|exact H5]. }
  subst s. unfold state_of. cbn [fst]. rewrite H2. exact (drainS_safe o ms (ini o)).
Qed.

(** ** Along an execution *)
Fixpoint mono {S N} (le : S -> S -> Prop) (p : prog S N) (s : S) : Prop :=
  match p with
  | Ret => True
  | Raise _ => True
  | Read k => mono le (k s) s
  | Write s' k => le s s' /\ mono le k s'
  | Call n k => forall r, mono le (k r) s
  end.

Lemma advance_mono S N D (call : D -> N -> D * option exn) (le : S -> S -> Prop) :
  (forall s, le s s) -> (forall a b c, le a b -> le b c -> le a c) ->
  forall (p : prog S N) s d, mono le p s ->
  let '(s', _, p') := advance call p s d in le s s' /\ mono le p' s'.
Proof.
  intros Hr Ht. induction p as [|e|k IH|s1 k IH|n k IH]; intros s d H; cbn [advance mono] in *.
  - split; [apply Hr|exact I].
  - split; [apply Hr|exact I].
  - apply IH, H.
  - destruct H as [H1 H2]. specialize (IH s1 d H2). destruct (advance call k s1 d) as [[s' d'] p'].
    split; [eapply Ht; [exact H1|apply IH]|apply IH].
  - destruct (call d n) as [d' r]. split; [apply Hr|apply H].
Qed.

Definition phase_mono {S N} (le : S -> S -> Prop) (ph : phase S N) (s : S) : Prop :=
  match ph with Busy p => mono le p s | _ => True end.

Lemma phase_of_mono S N (le : S -> S -> Prop) (p : prog S N) s : mono le p s -> phase_mono le (phase_of p) s.
Proof. destruct p; cbn; auto. Qed.

Lemma run_mono M N (o : op M N) (c : comp N) (le : st o -> st o -> Prop) :
  (forall s, le s s) -> (forall a b c, le a b -> le b c -> le a c) ->
  (forall m s, mono le (body o m) s) ->
  forall x ms y, run (agent_comp o c) x ms y -> phase_mono le (ph (fst x)) (as_ (fst x)) ->
  le (as_ (fst x)) (as_ (fst y)) /\ phase_mono le (ph (fst y)) (as_ (fst y)).
Proof.
  intros Hr Ht Hb x ms y R. induction R as [x|x m ms y R IH|x k x1 ms y H R IH]; intros Hx.
  - split; [apply Hr|exact Hx].
  - apply IH. exact Hx.
  - assert (G : le (as_ (fst x)) (as_ (fst x1)) /\ phase_mono le (ph (fst x1)) (as_ (fst x1))).
    { destruct x as [[q s p] d]. destruct k as [|k]; cbn in *.
      - unfold agent_step in H. cbn in *. destruct p as [|p|e]; [| |discriminate].
        + destruct q as [|m q]; [discriminate|]. destruct (live o s); [|discriminate].
          pose proof (advance_mono (ccall c) le Hr Ht (body o m) s d (Hb m s)) as G.
          destruct (advance (ccall c) (body o m) s d) as [[s' d'] p']. injection H as <-. cbn.
          split; [apply G|apply phase_of_mono, G].
        + pose proof (advance_mono (ccall c) le Hr Ht p s d Hx) as G.
          destruct (advance (ccall c) p s d) as [[s' d'] p']. injection H as <-. cbn.
          split; [apply G|apply phase_of_mono, G].
      - destruct (cstep c k d); [|discriminate]. injection H as <-. split; [apply Hr|exact Hx]. }
    destruct (IH (proj2 G)) as [H1 H2]. split; [eapply Ht; [exact (proj1 G)|exact H1]|exact H2].
Qed.

(** ** Both together *)
Definition lower {A B X} (o : op (notif A) (act B)) (log : st o -> list X) (s s' : st (inline safe_op o)) : Prop :=
  prefix (log (snd s)) (log (snd s')).

Lemma exactly Z A B X (pol : policy Z) (o : op (notif A) (act B)) (log : st o -> list X) (r : pipe Z B) ms cs :
  noraise (pcomp pol r) ->
  (forall m s, mono (@lower _ _ _ o log) (body (inline safe_op o) m) s) ->
  log (sstate o (ini o) ms) = cs ->
  @calls_exactly _ _ _ _ pol o log r ms cs.
Proof.
  intros Hn Hm <-.
  pose proof (good_agent (inline safe_op o) (good_act (good_pipe pol r))) as HG.
  assert (Hf : forall s, run (pcomp pol (PSafe o r)) (pinit pol (PSafe o r)) ms s -> quiet (pcomp pol (PSafe o r)) s ->
     log (@state_of _ _ _ pol o r s) = log (sstate o (ini o) ms)).
  { intros s R Q. now rewrite (@psafe_final _ _ _ pol o r ms s Hn R Q). }
  split; [|split].
  - destruct (completable HG (calls_run _ (pinit pol (PSafe o r)) ms)) as (a & H1 & H2 & _).
    exists a. split; [exact H1|]. split; [exact H2|]. now apply Hf.
  - intros cs' (s & R & Q & <-). now apply Hf.
  - intros cs' (s & R & <-).
    destruct (completable HG R) as (a & H1 & H2 & H3).
    rewrite <- (Hf a H1 H2).
    assert (G : forall x ms y, run (pcomp pol (PSafe o r)) x ms y -> phase_mono (@lower _ _ _ o log) (ph (fst x)) (as_ (fst x)) ->
       @lower _ _ _ o log (as_ (fst x)) (as_ (fst y)) /\ phase_mono (@lower _ _ _ o log) (ph (fst y)) (as_ (fst y))).
    { apply (@run_mono _ _ (inline safe_op o) (act_comp (pcomp pol r)) (@lower _ _ _ o log)).
      - intros t. apply prefix_refl.
      - intros t1 t2 t3. apply prefix_trans.
      - exact Hm. }
    destruct (G _ _ _ R I) as [_ G2]. destruct (G _ _ _ H3 G2) as [G3 _]. exact G3.
Qed.

(** ** Relays whose function has effects *)
Definition relay_fx {A B} (h : list A -> A -> res (option B)) : list A -> list (notif A) -> list (notif B) :=
  fix go s ms :=
  match ms with
  | [] => []
  | OnNext a :: ms' =>
      match h s a with
      | Err e => [OnError e]
      | Ok (Some b) => OnNext b :: go (s ++ [a]) ms'
      | Ok None => go (s ++ [a]) ms'
      end
  | OnError e :: _ => [OnError e]
  | OnCompleted :: _ => [OnCompleted]
  end.

Definition is_fx {A B} (h : list A -> A -> res (option B)) (o : op (notif A) (act B)) (enc : list A -> st o) : Prop :=
  forall D (call : D -> act B -> D * option exn), (forall d, call d Await = (d, None)) ->
  (forall s d a, exec call (body o (OnNext a)) (enc s) d =
     match h s a with
     | Err e => (enc (s ++ [a]), d, Some e)
     | Ok (Some b) => (enc (s ++ [a]), fst (call d (Deliver (OnNext b))), snd (call d (Deliver (OnNext b))))
     | Ok None => (enc (s ++ [a]), d, None)
     end) /\
  (forall s d e, exec call (body o (OnError e)) (enc s) d =
     (enc s, fst (call d (Deliver (OnError e))), snd (call d (Deliver (OnError e))))) /\
  (forall s d, exec call (body o OnCompleted) (enc s) d =
     (enc s, fst (call d (Deliver OnCompleted)), snd (call d (Deliver OnCompleted)))).

Lemma bsafe_fx A B h (o : op (notif A) (act B)) (enc : list A -> st o) (c : comp (notif B)) :
  is_fx h o enc ->
  forall ms s n d, snd (snd (bsafe (ccall (ocall o c)) ms (enc s, (n, d)))) = bsafe (ccall c) (relay_fx h s ms) d.
Proof.
  intros Hr. destruct (Hr _ (ccall (act_comp c))) as (Hn & He & Hc).
  { intros [n d]. reflexivity. }
  induction ms as [|m ms IH]; intros s n d; [reflexivity|].
  destruct m as [a|e|]; cbn [bsafe ccall ocall sync_comp fst snd].
  - rewrite Hn. cbn [relay_fx]. destruct (h s a) as [[b|]|e].
    + cbn [ccall act_comp fst snd bsafe].
      destruct (ccall c d (OnNext b)) as [d' [e|]] eqn:E; cbn [fst snd].
      * rewrite He. cbn [ccall act_comp fst snd].
        destruct (ccall c d' (OnError e)) as [d2 r2]. reflexivity.
      * apply IH.
    + apply IH.
    + cbn [bsafe fst snd]. rewrite He. cbn [ccall act_comp fst snd].
      destruct (ccall c d (OnError e)) as [d2 r2]. reflexivity.
  - rewrite He. cbn [relay_fx bsafe ccall act_comp fst snd].
    destruct (ccall c d (OnError e)) as [d2 r2]. reflexivity.
  - rewrite Hc. cbn [relay_fx bsafe ccall act_comp fst snd].
    destruct (ccall c d OnCompleted) as [d2 r2]. reflexivity.
Qed.

Theorem stage_fx Z A B h (pol : policy Z) (o : op (notif A) (act B)) (enc : list A -> st o) (r : pipe Z B) ms l :
  is_fx h o enc -> ini o = enc [] ->
  finally (psys pol (safe (pre o r))) ms l <-> finally (psys pol (safe r)) (relay_fx h [] ms) l.
Proof.
  intros Hr Hi. rewrite finally_safe_pre, finally_safe, Hi, (bsafe_fx _ Hr). reflexivity.
Qed.

Lemma in_order_fx A B (h : list A -> A -> res (option B)) e junk vs : forall s,
  relay_fx h s (source_calls vs e junk) =
  let '(_, bs, x) := in_order h s vs in trace (somes bs) (or_failed x e).
Proof.
  unfold source_calls. induction vs as [|v vs IH]; intros s.
  - destruct e; reflexivity.
  - cbn [trace map app relay_fx in_order]. destruct (h s v) as [[b|]|x]; [| |reflexivity].
    + change (map OnNext vs ++ _) with (trace vs e). rewrite IH. destruct (in_order h (s ++ [v]) vs) as [[cs bs] x]. reflexivity.
    + change (map OnNext vs ++ _) with (trace vs e). rewrite IH. destruct (in_order h (s ++ [v]) vs) as [[cs bs] x]. reflexivity.
Qed.

Lemma sstate_fx A B h (o : op (notif A) (act B)) (enc : list A -> st o) e junk vs :
  is_fx h o enc -> forall s, sstate o (enc s) (source_calls vs e junk) = enc (fst (fst (in_order h s vs))).
Proof.
  intros Hr. destruct (Hr _ (@lcall B) ltac:(reflexivity)) as (Hn & He & Hc).
  unfold source_calls. induction vs as [|v vs IH]; intros s.
  - destruct e; cbn [trace map app sstate in_order fst]; [reflexivity| |]; now rewrite ?He, ?Hc.
  - cbn [trace map app sstate in_order]. rewrite Hn. destruct (h s v) as [[b|]|x].
    + cbn [lcall fst snd]. change (map OnNext vs ++ _) with (trace vs e). rewrite IH.
      destruct (in_order h (s ++ [v]) vs) as [[cs bs] x]. reflexivity.
    + change (map OnNext vs ++ _) with (trace vs e). rewrite IH.
      destruct (in_order h (s ++ [v]) vs) as [[cs bs] x]. reflexivity.
    + cbn [fst]. now rewrite He.
Qed.

(** ** The operators *)
Definition map_fxh {A B} (f : list A -> A -> res B) (h : list A) (a : A) : res (option B) :=
  match f h a with Ok b => Ok (Some b) | Err e => Err e end.

Ltac fx_tac :=
  intros D call Ha; split; [|split];
  [ intros s d a; cbn; try (rewrite Ha; cbn)
  | intros s d e; cbn; destruct (call d (Deliver (OnError e))) as [d' [e'|]]; reflexivity
  | intros s d; cbn; destruct (call d (Deliver OnCompleted)) as [d' [e'|]]; reflexivity ].

Section FxOps.
  Context {A B : Type}.
  Lemma map_fx (f : list A -> A -> res B) : is_fx (map_fxh f) (map_fx_op f) (fun s => s).
  Proof. fx_tac. unfold map_fxh. destruct (f s a) as [b|e]; [apply exec_deliver|reflexivity]. Qed.
  Lemma map_async_fx (f : list A -> A -> res B) : is_fx (map_fxh f) (map_async_fx_op f) (fun s => s).
  Proof. fx_tac. unfold map_fxh. destruct (f s a) as [b|e]; [apply exec_deliver|reflexivity]. Qed.
  Lemma choose_fx (f : list A -> A -> res (option B)) : is_fx f (choose_fx_op f) (fun s => s).
  Proof. fx_tac. destruct (f s a) as [[b|]|e]; [apply exec_deliver|reflexivity|reflexivity]. Qed.
  Lemma choose_async_fx (f : list A -> A -> res (option B)) : is_fx f (choose_async_fx_op f) (fun s => s).
  Proof. fx_tac. destruct (f s a) as [[b|]|e]; [apply exec_deliver|reflexivity|reflexivity]. Qed.
  Lemma filter_fx (p : list A -> A -> res bool) : is_fx (keep_fx p) (filter_fx_op p) (fun s => s).
  Proof. fx_tac. unfold keep_fx. destruct (p s a) as [[|]|e]; [apply exec_deliver|reflexivity|reflexivity]. Qed.
  Lemma filter_async_fx (p : list A -> A -> res bool) : is_fx (keep_fx p) (filter_async_fx_op p) (fun s => s).
  Proof. fx_tac. unfold keep_fx. destruct (p s a) as [[|]|e]; [apply exec_deliver|reflexivity|reflexivity]. Qed.
End FxOps.

Lemma in_order_map A B (f : list A -> A -> res B) vs : forall s,
  in_order (map_fxh f) s vs = let '(cs, bs, x) := in_order f s vs in (cs, map Some bs, x).
Proof.
  induction vs as [|v vs IH]; intros s; [reflexivity|]. cbn [in_order]. unfold map_fxh at 1.
  destruct (f s v) as [b|x]; [|reflexivity]. rewrite IH. destruct (in_order f (s ++ [v]) vs) as [[cs bs] x]. reflexivity.
Qed.

Lemma somes_Some A (l : list A) : somes (map Some l) = l.
Proof. induction l as [|a l IH]; [reflexivity|]. cbn. now rewrite IH. Qed.

Lemma in_order_keep A (p : list A -> A -> res bool) vs : forall s,
  fst (fst (in_order (keep_fx p) s vs)) = fst (fst (in_order p s vs)).
Proof.
  induction vs as [|v vs IH]; intros s; [reflexivity|]. cbn [in_order]. unfold keep_fx at 1.
  specialize (IH (s ++ [v])).
  destruct (p s v) as [[|]|x]; [| |reflexivity];
    destruct (in_order (keep_fx p) (s ++ [v]) vs) as [[cs bs] x]; destruct (in_order p (s ++ [v]) vs) as [[cs' bs'] x']; exact IH.
Qed.

(** ** The calls, when the next observer may raise *)
Fixpoint drainR {M N D} (o : op M N) (call : D -> N -> D * option exn) (ms : list M) (s : st o) (d : D) : st o * D :=
  match ms with
  | [] => (s, d)
  | m :: ms' =>
      if live o s then
        let '(s', d', r) := exec call (body o m) s d in
        match r with None => drainR o call ms' s' d' | Some _ => (s', d') end
      else (s, d)
  end.

Lemma drainR_steps M N (o : op M N) (c : comp N) :
  forall ms s d, exists m a,
    steps (agent_comp o c) m (Agent ms s Idle, d) (a, snd (drainR o (ccall c) ms s d))
    /\ as_ a = fst (drainR o (ccall c) ms s d)
    /\ forall d', agent_step o (ccall c) a d' = None.
Proof.
  induction ms as [|m ms IH]; intros s d; cbn [drainR].
  - exists 0, (Agent [] s Idle). repeat split. constructor.
  - destruct (live o s) eqn:El.
    + destruct (exec (ccall c) (body o m) s d) as [[s' d'] r] eqn:E.
      destruct (agent_process o c ms m s d El E) as [k1 H1].
      destruct r as [e|].
      * exists k1, (Agent ms s' (Dead e)). repeat split. exact H1.
      * destruct (IH s' d') as (k2 & a & H2 & H3 & H4).
        exists (k1 + k2), a. repeat split; [|exact H3|exact H4]. eapply steps_app; [exact H1|exact H2].
    + exists 0, (Agent (m :: ms) s Idle). repeat split; [constructor|].
      intros d'. unfold agent_step. simpl. now rewrite El.
Qed.

Lemma drainR_dead A B D (o : op (notif A) (act B)) (call : D -> act B -> D * option exn) s ms d :
  drainR (inline safe_op o) call ms ((true, s) : st (inline safe_op o)) d = ((true, s), d).
Proof. destruct ms; reflexivity. Qed.

Lemma drainR_safe A B (o : op (notif A) (act B)) (c : comp (notif B)) : forall ms s n d,
  snd (fst (drainR (inline safe_op o) (ccall (act_comp c)) ms ((false, s) : st (inline safe_op o)) (n, d))) =
  fst (bsafe (ccall (ocall o c)) ms (s, (n, d))).
Proof.
  induction ms as [|m ms IH]; intros s n d; [reflexivity|].
  cbn [drainR]. change (live (inline safe_op o) (false, s)) with true. cbn match.
  rewrite exec_inline_op.
  destruct m as [a|e|]; cbn [body safe_op tryp seqp awaitp bindp exec bsafe].
  - unfold through at 1; cbn [to_obs fst snd].
    cbn [ccall ocall sync_comp fst snd].
    destruct (exec (ccall (act_comp c)) (body o (OnNext a)) s (n, d)) as [[s' [n' d']] r].
    destruct r as [e|]; cbn [exec bindp].
    + unfold through; cbn [to_obs fst snd].
      destruct (exec (ccall (act_comp c)) (body o (OnError e)) s' (n', d')) as [[s2 [n2 d2]] r2].
      destruct r2; cbn [exec bindp fst snd]; [reflexivity|].
      rewrite drainR_dead. reflexivity.
    + apply IH.
  - unfold through; cbn [to_obs fst snd exec ccall act_comp bindp awaitp ocall sync_comp].
    destruct (exec_count c (body o (OnError e)) s n (S n) d) as (s' & n1' & n2' & d' & r & H1 & H2).
    cbn [ccall act_comp] in H1, H2. rewrite H1, H2.
    destruct r; cbn [exec bindp fst snd]; [reflexivity|]. rewrite drainR_dead. reflexivity.
  - unfold through; cbn [to_obs fst snd exec ccall act_comp bindp awaitp ocall sync_comp].
    destruct (exec_count c (body o OnCompleted) s n (S n) d) as (s' & n1' & n2' & d' & r & H1 & H2).
    cbn [ccall act_comp] in H1, H2. rewrite H1, H2.
    destruct r; cbn [exec bindp fst snd]; [reflexivity|]. rewrite drainR_dead. reflexivity.
Qed.

Lemma psafe_final_any Z A B (pol : policy Z) (o : op (notif A) (act B)) (r : pipe Z B) ms s :
  run (pcomp pol (PSafe o r)) (pinit pol (PSafe o r)) ms s -> quiet (pcomp pol (PSafe o r)) s ->
  @state_of _ _ _ pol o r s = fst (bsafe (ccall (ocall o (pcomp pol r))) ms (ini o, (0, pinit pol r))).
Proof.
  intros R Q.
  pose proof (good_agent (inline safe_op o) (good_act (good_pipe pol r))) as HG.
  destruct (run_steps HG R) as [n Hs].
  assert (Hc : forall q nd, calls (agent_comp (inline safe_op o) (act_comp (pcomp pol r)))
      (Agent q (ini (inline safe_op o)) Idle, nd) ms = (Agent (q ++ ms) (ini (inline safe_op o)) Idle, nd)).
  { clear. induction ms as [|m ms IH]; intros q nd; [now rewrite app_nil_r|].
    change (calls (agent_comp (inline safe_op o) (act_comp (pcomp pol r)))
      (Agent (q ++ [m]) (ini (inline safe_op o)) Idle, nd) ms = (Agent (q ++ m :: ms) (ini (inline safe_op o)) Idle, nd)).
    rewrite IH. now rewrite <- app_assoc. }
  cbn [pinit] in Hs. rewrite Hc in Hs. cbn [app] in Hs.
  destruct (drainR_steps (inline safe_op o) (act_comp (pcomp pol r)) ms (ini (inline safe_op o)) (0, pinit pol r)) as (k & a & H1 & H2 & H3).
  destruct (stuck_settles (inline safe_op o) (good_pipe pol r) a
     (snd (drainR (inline safe_op o) (ccall (act_comp (pcomp pol r))) ms (ini (inline safe_op o)) (0, pinit pol r))) H3) as (nd' & m & H4 & H5).
  assert (E : s = (a, nd')).
  { eapply (settles_unique HG); [exists n; split; [exact Hs|exact Q]|].
    exists (k + m). split; [eapply steps_app; [exact H1|exact H4]|exact H5]. }
  subst s. unfold state_of. cbn [fst]. rewrite H2. exact (drainR_safe o (pcomp pol r) ms (ini o) 0 (pinit pol r)).
Qed.

Lemma in_order_from A B (h : list A -> A -> res B) vs : forall s, prefix s (fst (fst (in_order h s vs))).
Proof.
  induction vs as [|v vs IH]; intros s; [apply prefix_refl|]. cbn [in_order].
  destruct (h s v) as [b|x]; [|exists [v]; reflexivity].
  specialize (IH (s ++ [v])). destruct (in_order h (s ++ [v]) vs) as [[cs bs] x]. cbn in *.
  destruct IH as [t ->]. exists ([v] ++ t). now rewrite app_assoc.
Qed.

Lemma bsafe_calls A B h (o : op (notif A) (act B)) (enc : list A -> st o) (c : comp (notif B)) e junk vs :
  is_fx h o enc ->
  forall s n d, exists s', fst (bsafe (ccall (ocall o c)) (source_calls vs e junk) (enc s, (n, d))) = enc s'
    /\ prefix s' (fst (fst (in_order h s vs))).
Proof.
  intros Hr. destruct (Hr _ (ccall (act_comp c))) as (Hn & He & Hc).
  { intros [n d]. reflexivity. }
  unfold source_calls. induction vs as [|v vs IH]; intros s n d.
  - exists s. split; [|apply prefix_refl].
    destruct e; cbn [trace map app bsafe ccall ocall sync_comp fst snd]; [reflexivity| |]; now rewrite ?He, ?Hc.
  - cbn [trace map app bsafe ccall ocall sync_comp fst snd in_order].
    rewrite Hn. pose proof (in_order_from h vs (s ++ [v])) as Hp.
    destruct (h s v) as [[b|]|x].
    + change (map OnNext vs ++ _) with (trace vs e).
      cbn [ccall act_comp fst snd].
      destruct (ccall c d (OnNext b)) as [d' [x|]]; cbn [fst snd].
      * rewrite He. cbn [fst]. exists (s ++ [v]). split; [reflexivity|].
        destruct (in_order h (s ++ [v]) vs) as [[cs bs] y]. exact Hp.
      * destruct (IH (s ++ [v]) n d') as (s' & H1 & H2). exists s'. split; [exact H1|].
        destruct (in_order h (s ++ [v]) vs) as [[cs bs] y]. exact H2.
    + change (map OnNext vs ++ _) with (trace vs e).
      destruct (IH (s ++ [v]) n d) as (s' & H1 & H2). exists s'. split; [exact H1|].
      destruct (in_order h (s ++ [v]) vs) as [[cs bs] y]. exact H2.
    + cbn [fst snd]. rewrite He. exists (s ++ [v]). split; [reflexivity|apply prefix_refl].
Qed.

Lemma at_most A B Z X (pol : policy Z) (o : op (notif A) (act B)) (log : st o -> list X) (r : pipe Z B) ms cs cs' :
  (forall m s, mono (@lower _ _ _ o log) (body (inline safe_op o) m) s) ->
  prefix (log (fst (bsafe (ccall (ocall o (pcomp pol r))) ms (ini o, (0, pinit pol r))))) cs ->
  @called _ _ _ _ pol o log r ms cs' -> prefix cs' cs.
Proof.
  intros Hm Hp (s & R & <-).
  pose proof (good_agent (inline safe_op o) (good_act (good_pipe pol r))) as HG.
  destruct (completable HG R) as (a & H1 & H2 & H3).
  assert (G : forall x ms y, run (pcomp pol (PSafe o r)) x ms y -> phase_mono (@lower _ _ _ o log) (ph (fst x)) (as_ (fst x)) ->
     @lower _ _ _ o log (as_ (fst x)) (as_ (fst y)) /\ phase_mono (@lower _ _ _ o log) (ph (fst y)) (as_ (fst y))).
  { apply (@run_mono _ _ (inline safe_op o) (act_comp (pcomp pol r)) (@lower _ _ _ o log)).
    - intros t. apply prefix_refl.
    - intros t1 t2 t3. apply prefix_trans.
    - exact Hm. }
  destruct (G _ _ _ R I) as [_ G2]. destruct (G _ _ _ H3 G2) as [G3 _].
  eapply prefix_trans; [exact G3|].
  change (prefix (log (@state_of _ _ _ pol o r a)) cs). now rewrite (@psafe_final_any _ _ _ pol o r ms a H1 H2).
Qed.

(** The bodies only extend the list of calls. *)
Ltac mono_tac :=
  repeat match goal with
  | |- forall _, _ => intros
  | |- _ /\ _ => split
  | |- True => exact I
  | |- lower _ _ _ => unfold lower; cbn; first [apply prefix_refl | apply prefix_app]
  | |- mono _ (match ?x with _ => _ end) _ => destruct x
  | |- mono _ _ _ => progress cbn
  | |- context [match ?x with _ => _ end] => destruct x
  end.

Section Mono.
  Context {A B : Type}.
  Lemma map_fx_mono (f : list A -> A -> res B) m s :
    mono (@lower _ _ _ (map_fx_op f) (fun h => h)) (body (inline safe_op (map_fx_op f)) m) s.
  Proof. destruct m, s. all: cbn. all: mono_tac. Qed.
  Lemma map_async_fx_mono (f : list A -> A -> res B) m s :
    mono (@lower _ _ _ (map_async_fx_op f) (fun h => h)) (body (inline safe_op (map_async_fx_op f)) m) s.
  Proof. destruct m, s. all: cbn. all: mono_tac. Qed.
  Lemma choose_fx_mono (f : list A -> A -> res (option B)) m s :
    mono (@lower _ _ _ (choose_fx_op f) (fun h => h)) (body (inline safe_op (choose_fx_op f)) m) s.
  Proof. destruct m, s. all: cbn. all: mono_tac. Qed.
  Lemma choose_async_fx_mono (f : list A -> A -> res (option B)) m s :
    mono (@lower _ _ _ (choose_async_fx_op f) (fun h => h)) (body (inline safe_op (choose_async_fx_op f)) m) s.
  Proof. destruct m, s. all: cbn. all: mono_tac. Qed.
  Lemma filter_fx_mono (p : list A -> A -> res bool) m s :
    mono (@lower _ _ _ (filter_fx_op p) (fun h => h)) (body (inline safe_op (filter_fx_op p)) m) s.
  Proof. destruct m, s. all: cbn. all: mono_tac. Qed.
  Lemma filter_async_fx_mono (p : list A -> A -> res bool) m s :
    mono (@lower _ _ _ (filter_async_fx_op p) (fun h => h)) (body (inline safe_op (filter_async_fx_op p)) m) s.
  Proof. destruct m, s. all: cbn. all: mono_tac. Qed.
  Lemma scan_fx_mono (f : list (B * A) -> B -> A -> res B) b m s :
    mono (@lower _ _ _ (scan_fx_op f b) snd) (body (inline safe_op (scan_fx_op f b)) m) s.
  Proof. destruct m, s. all: cbn. all: mono_tac. Qed.
End Mono.

Lemma fx_exactly Z A B h (pol : policy Z) (o : op (notif A) (act B)) (enc : list A -> st o) (log : st o -> list A) (r : pipe Z B) vs e junk :
  is_fx h o enc -> ini o = enc [] -> (forall l, log (enc l) = l) ->
  (forall m s, mono (@lower _ _ _ o log) (body (inline safe_op o) m) s) ->
  noraise (pcomp pol r) ->
  @calls_exactly _ _ _ _ pol o log r (source_calls vs e junk) (calls_made h vs).
Proof.
  intros Hr Hi Hl Hm Hn. apply exactly; [exact Hn|exact Hm|].
  rewrite Hi, (@sstate_fx _ _ _ _ _ e junk vs Hr). apply Hl.
Qed.

Lemma fx_at_most Z A B h (pol : policy Z) (o : op (notif A) (act B)) (enc : list A -> st o) (log : st o -> list A) (r : pipe Z B) vs e junk cs :
  is_fx h o enc -> ini o = enc [] -> (forall l, log (enc l) = l) ->
  (forall m s, mono (@lower _ _ _ o log) (body (inline safe_op o) m) s) ->
  @called _ _ _ _ pol o log r (source_calls vs e junk) cs -> prefix cs (calls_made h vs).
Proof.
  intros Hr Hi Hl Hm. apply at_most; [exact Hm|]. rewrite Hi.
  destruct (@bsafe_calls _ _ _ _ _ (pcomp pol r) e junk vs Hr [] 0 (pinit pol r)) as (s' & -> & H). now rewrite Hl.
Qed.

(** ** scan *)
Lemma sstate_scan A B (f : list (B * A) -> B -> A -> res B) c e junk vs : forall b h,
  snd (sstate (scan_fx_op f c) (b, h) (source_calls vs e junk)) = scan_calls f h b vs.
Proof.
  unfold source_calls. induction vs as [|v vs IH]; intros b h.
  - destruct e; reflexivity.
  - cbn [trace map app sstate scan_fx_op transform_fx_op direct body exec fst snd seqp bindp awaitp lcall scan_calls].
    change (map OnNext vs ++ _) with (trace vs e).
    destruct (f h b v) as [b'|x]; cbn [exec awaitp lcall]; apply IH.
Qed.

Lemma srun_scan_fx A B (f : list (B * A) -> B -> A -> res B) c e vs : forall b h,
  upto_terminal (srun (scan_fx_op f c) (b, h) (trace vs e)) =
  let (bs, x) := scan_fx_results f h b vs in upto_terminal (trace bs (or_failed x e)).
Proof.
  induction vs as [|v vs IH]; intros b h.
  - destruct e; reflexivity.
  - rewrite trace_cons. cbn [srun scan_fx_op transform_fx_op direct body exec fst snd seqp bindp awaitp lcall scan_fx_results].
    destruct (f h b v) as [b'|x]; cbn [exec awaitp lcall app upto_terminal].
    + rewrite IH. destruct (scan_fx_results f (h ++ [(b, v)]) b' vs) as [bs x]. reflexivity.
    + reflexivity.
Qed.

Lemma scan_fx_stage Z A B (pol : policy Z) (f : list (B * A) -> B -> A -> res B) b (r : pipe Z B) vs e junk l :
  finally (psys pol (safe (pre (scan_fx_op f b) (safe r)))) (source_calls vs e junk) l <->
  finally (psys pol (safe r)) (let (bs, x) := scan_fx_results f [] b vs in trace bs (or_failed x e)) l.
Proof.
  apply detach_stage. rewrite srun_norm, norm_trace. change (ini (scan_fx_op f b)) with (b, @nil (B * A)).
  rewrite srun_scan_fx. destruct (scan_fx_results f [] b vs). reflexivity.
Qed.

(** ** Behind a source without a safe_observer *)
Fixpoint elements {A} (ms : list (notif A)) : list A :=
  match ms with
  | [] => []
  | OnNext a :: r => a :: elements r
  | _ :: r => elements r
  end.

Lemma hot_calls Z A B h (pol : policy Z) (o : op (notif A) (act B)) (enc : list A -> st o) (r : pipe Z B) :
  is_fx h o enc ->
  forall x ms y, run (pcomp pol (PSync o r)) x ms y -> forall l, fst x = enc l -> fst y = enc (l ++ elements ms).
Proof.
  intros Hr x ms y R. destruct (Hr _ (ccall (act_comp (pcomp pol r)))) as (Hn & He & Hc).
  { intros [n d]. reflexivity. }
  induction R as [x|x m ms y R IH|x k x1 ms y H R IH]; intros l Hx.
  - now rewrite app_nil_r.
  - destruct x as [s d]. cbn in Hx. subst s. destruct m as [a|e|]; cbn [elements].
    + rewrite (IH (l ++ [a])); [now rewrite <- app_assoc|].
      cbn [pcomp ccall sync_comp fst snd]. rewrite Hn. destruct (h l a) as [[b|]|e]; reflexivity.
    + apply IH. cbn [pcomp ccall sync_comp fst snd]. rewrite He. reflexivity.
    + apply IH. cbn [pcomp ccall sync_comp fst snd]. rewrite Hc. reflexivity.
  - apply IH. destruct x as [s d]. cbn in H. destruct (cstep (pcomp pol r) k (snd d)); [|discriminate].
    injection H as <-. exact Hx.
Qed.

(** ** Functions without effects *)
Lemma in_order_pure A B (f : A -> res B) vs : forall h,
  in_order (fun _ a => f a) h vs =
  (h ++ firstn (length (fst (results f vs)) + match snd (results f vs) with Some _ => 1 | None => 0 end) vs,
   fst (results f vs), snd (results f vs)).
Proof.
  induction vs as [|v vs IH]; intros h; [now rewrite app_nil_r|]. cbn [in_order results].
  destruct (f v) as [b|x]; [|reflexivity]. rewrite IH. destruct (results f vs) as [bs x]. cbn.
  now rewrite <- app_assoc.
Qed.

(** ** About the specification *)
Lemma in_order_spec A B (f : list A -> A -> res B) vs : forall h, let '(cs, bs, x) := in_order f h vs in
  exists k, cs = h ++ firstn k vs /\ (k <= length vs)%nat /\
  match x with
  | None => k = length vs /\ length bs = k
  | Some e => k = S (length bs) /\ exists v, nth_error vs (length bs) = Some v /\ f (h ++ firstn (length bs) vs) v = Err e
  end /\
  (forall i b, nth_error bs i = Some b -> exists v, nth_error vs i = Some v /\ f (h ++ firstn i vs) v = Ok b).
Proof.
  induction vs as [|v vs IH]; intros h; cbn [in_order].
  - exists 0. rewrite app_nil_r. cbn. repeat split; auto. intros [|i] b; discriminate.
  - destruct (f h v) as [b|e] eqn:E.
    + specialize (IH (h ++ [v])). destruct (in_order f (h ++ [v]) vs) as [[cs bs] x].
      destruct IH as (k & H1 & H2 & H3 & H4). exists (S k). cbn [firstn length].
      rewrite <- app_assoc in H1. cbn [app] in H1. split; [exact H1|]. split; [lia|]. split.
      * destruct x as [e|].
        -- destruct H3 as (H3 & w & H5 & H6). split; [lia|]. exists w. cbn. split; [exact H5|].
           rewrite <- app_assoc in H6. exact H6.
        -- cbn in *. lia.
      * intros [|i] b' Hb; cbn in Hb.
        -- injection Hb as <-. exists v. cbn. now rewrite app_nil_r.
        -- destruct (H4 _ _ Hb) as (w & H5 & H6). exists w. cbn. split; [exact H5|].
           rewrite <- app_assoc in H6. exact H6.
    + exists 1. cbn. repeat split; [lia| |intros [|i] b; discriminate].
      exists v. rewrite app_nil_r. auto.
Qed.

Lemma scan_calls_all A B (f : list (B * A) -> B -> A -> res B) vs : forall h b,
  map snd (scan_calls f h b vs) = map snd h ++ vs.
Proof.
  induction vs as [|v vs IH]; intros h b; cbn [scan_calls]; [now rewrite app_nil_r|].
  rewrite IH, map_app, <- app_assoc. reflexivity.
Qed.

(** ** Stages *)
Section FxStages.
  Context {Z A B : Type} (pol : policy Z).

  Lemma fx_stage h (o : op (notif A) (act B)) (enc : list A -> st o) (r : pipe Z B) vs e junk l :
    is_fx h o enc -> ini o = enc [] ->
    finally (psys pol (safe (pre o r))) (source_calls vs e junk) l <->
    finally (psys pol (safe r)) (trace (somes (returned h vs)) (or_failed (raised h vs) e)) l.
  Proof.
    intros Hr Hi. rewrite (stage_fx pol r _ l Hr Hi), in_order_fx. unfold returned, raised.
    destruct (in_order h [] vs) as [[cs bs] x]. reflexivity.
  Qed.

  Lemma map_like_stage (f : list A -> A -> res B) (o : op (notif A) (act B)) (enc : list A -> st o) (r : pipe Z B) vs e junk l :
    is_fx (map_fxh f) o enc -> ini o = enc [] ->
    finally (psys pol (safe (pre o r))) (source_calls vs e junk) l <->
    finally (psys pol (safe r)) (trace (returned f vs) (or_failed (raised f vs) e)) l.
  Proof.
    intros Hr Hi. rewrite (fx_stage r vs e junk l Hr Hi). unfold returned, raised. rewrite in_order_map.
    destruct (in_order f [] vs) as [[cs bs] x]. cbn. now rewrite somes_Some.
  Qed.

  Lemma map_fx_calls (f : list A -> A -> res B) vs : calls_made (map_fxh f) vs = calls_made f vs.
  Proof. unfold calls_made. rewrite in_order_map. destruct (in_order f [] vs) as [[cs bs] x]. reflexivity. Qed.
End FxStages.

Lemma mapi_fx_stage Z A B (pol : policy Z) (f : list (A * nat) -> A * nat -> res B) (r : pipe Z B) vs e junk l :
  finally (psys pol (safe (zip_seq_ infinite (pre (map_fx_op f) r)))) (source_calls vs e junk) l <->
  finally (psys pol (safe r)) (trace (returned f (indexed 0 vs)) (or_failed (raised f (indexed 0 vs)) e)) l.
Proof.
  rewrite zip_stage. unfold zip_out. rewrite zip_infinite, source_calls_nil.
  exact (map_like_stage pol r _ _ _ _ (map_fx f) eq_refl).
Qed.

Lemma map_fx_pure Z A B (pol : policy Z) (f : A -> res B) (r : pipe Z B) vs e junk l :
  finally (psys pol (safe (pre (map_fx_op (fun _ a => f a)) r))) (source_calls vs e junk) l <->
  finally (psys pol (safe (map_ f r))) (source_calls vs e junk) l.
Proof.
  rewrite map_stage. rewrite (map_like_stage pol r vs e junk l (map_fx _) eq_refl).
  unfold returned, raised, map_out. rewrite in_order_pure. cbn. destruct (results f vs). reflexivity.
Qed.

Lemma choose_fx_pure Z A B (pol : policy Z) (f : A -> res (option B)) (r : pipe Z B) vs e junk l :
  finally (psys pol (safe (pre (choose_fx_op (fun _ a => f a)) r))) (source_calls vs e junk) l <->
  finally (psys pol (safe (choose_ f r))) (source_calls vs e junk) l.
Proof.
  rewrite choose_stage. rewrite (fx_stage pol r vs e junk l (choose_fx _) eq_refl).
  unfold returned, raised, choose_out. rewrite in_order_pure. cbn. destruct (results f vs). reflexivity.
Qed.

Lemma filter_fx_pure Z A (pol : policy Z) (p : A -> res bool) (r : pipe Z A) vs e junk l :
  finally (psys pol (safe (pre (filter_fx_op (fun _ a => p a)) r))) (source_calls vs e junk) l <->
  finally (psys pol (safe (filter_ p r))) (source_calls vs e junk) l.
Proof.
  rewrite filter_stage. rewrite (fx_stage pol r vs e junk l (filter_fx _) eq_refl).
  unfold returned, raised, choose_out.
  pose proof (in_order_pure (keep p) vs [] : in_order (keep_fx (fun (_ : list A) a => p a)) [] vs = _) as H.
  rewrite H. cbn. destruct (results (keep p) vs). reflexivity.
Qed.

Lemma scan_fx_results_pure A B (f : B -> A -> res B) vs : forall h b,
  scan_fx_results (fun _ => f) h b vs = scan_results f b vs.
Proof.
  induction vs as [|v vs IH]; intros h b; [reflexivity|]. cbn. destruct (f b v) as [b'|x]; [|reflexivity].
  now rewrite IH.
Qed.

Lemma scan_fx_pure Z A B (pol : policy Z) (f : B -> A -> res B) b (r : pipe Z B) vs e junk l :
  finally (psys pol (safe (pre (scan_fx_op (fun _ => f) b) (safe r)))) (source_calls vs e junk) l <->
  finally (psys pol (safe (scan_ f b (safe r)))) (source_calls vs e junk) l.
Proof. rewrite scan_safe_stage, scan_fx_stage, scan_fx_results_pure. reflexivity. Qed.
