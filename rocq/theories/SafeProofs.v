(** * General facts about safe_observer and pipelines (C01-C08). *)
From Verif Require Export Ops2Proofs.
Set Implicit Arguments.

(** ** delivers *)
Lemma delivers_iff Z M (S : system Z M) (HS : Sane S) ms l : delivers S ms l <-> finally S ms l.
Proof.
  split; [intros [H _]; exact H|]. intros H. split; [exact H|]. split.
  - intros l' H'. exact (finally_unique HS H' H).
  - intros l' H'. apply (sees_prefix HS [] H'). now rewrite app_nil_r.
Qed.

Lemma behaves Z M N (S : system Z M) (T : system Z N) (HS : Sane S) (HT : Sane T) ms ms' :
  (forall l, finally S ms l <-> finally T ms' l) -> behaves_like S ms T ms'.
Proof. intros H l. now rewrite (delivers_iff HS), (delivers_iff HT). Qed.

Lemma sees_final Z M (S : system Z M) (HS : Sane S) ms l : sees S ms l -> exists l', finally S ms l' /\ prefix l l'.
Proof.
  intros H. destruct (finally_exists HS ms) as [l' H']. exists l'. split; [exact H'|].
  apply (sees_prefix HS [] H). now rewrite app_nil_r.
Qed.

Lemma prefix_map X Y (f : X -> Y) vs a tl : prefix a (map f vs ++ tl) ->
  (exists vs1 vs2, vs = vs1 ++ vs2 /\ a = map f vs1) \/ (exists t1 t2, tl = t1 ++ t2 /\ a = map f vs ++ t1).
Proof.
  revert a. induction vs as [|v vs IH]; intros a [c Hc]; cbn in Hc.
  - right. exists a, c. auto.
  - destruct a as [|x a].
    + left. exists [], (v :: vs). auto.
    + cbn in Hc. injection Hc as <- Hc. destruct (IH a (ex_intro _ c Hc)) as [(v1 & v2 & -> & ->)|(t1 & t2 & -> & ->)].
      * left. exists (v :: v1), v2. auto.
      * right. exists t1, t2. auto.
Qed.

Lemma grammatical_prefix A (a b : list (notif A)) : prefix a b -> grammatical b -> grammatical a.
Proof.
  intros Hp (vs & e & ->). unfold trace in Hp. destruct (prefix_map _ _ _ Hp) as [(v1 & v2 & -> & ->)|(t1 & t2 & Ht & ->)].
  - exists v1, Open. unfold trace. now rewrite app_nil_r.
  - destruct t1 as [|t t1].
    + exists vs, Open. reflexivity.
    + destruct e as [|x|]; cbn in Ht; [discriminate| |]; injection Ht as <- Ht;
        symmetry in Ht; apply app_eq_nil in Ht; destruct Ht as [-> _].
      * exists vs, (Failed x). reflexivity.
      * exists vs, Completed. reflexivity.
Qed.

(** ** safe_observer in front of an arbitrary observer *)
Lemma final_end Z (pol : policy Z) d l : F (psys pol PEnd) d l <-> l = d.
Proof.
  split.
  - intros (y & (n & H1 & _) & <-). destruct n; inversion H1; subst; [reflexivity|].
    match goal with H : cstep _ _ _ = Some _ |- _ => discriminate H end.
  - intros ->. exists d. split; [|reflexivity]. exists 0. split; [constructor|intros k; reflexivity].
Qed.

(** Calls reaching an observer that raises according to [pol]. *)
Fixpoint user_calls {Z} (pol : policy Z) (l ms : list (notif Z)) : list (notif Z) :=
  match ms with
  | [] => l
  | OnNext a :: ms' =>
      match pol (l ++ [OnNext a]) with
      | None => user_calls pol (l ++ [OnNext a]) ms'
      | Some e => l ++ [OnNext a; OnError e]
      end
  | t :: _ => l ++ [t]
  end.

Lemma finally_raising Z (pol : policy Z) ms l :
  finally (psys pol (safe PEnd)) ms l <-> l = user_calls pol [] ms.
Proof.
  rewrite finally_safe, final_end. cbn [pinit].
  enough (H : forall ms d, bsafe (ccall (pcomp pol PEnd)) ms d = user_calls pol d ms) by now rewrite H.
  clear. induction ms as [|m ms IH]; intros d; [reflexivity|]. destruct m; cbn; try reflexivity.
  destruct (pol (d ++ [OnNext a])); [|apply IH]. cbn. now rewrite <- app_assoc.
Qed.

Lemma user_calls_grammatical Z (pol : policy Z) ms : forall vs, grammatical (user_calls pol (map OnNext vs) ms).
Proof.
  induction ms as [|m ms IH]; intros vs; cbn [user_calls].
  - exists vs, Open. unfold trace. now rewrite app_nil_r.
  - destruct m as [a|e|].
    + change [OnNext a] with (map (@OnNext Z) [a]). rewrite <- map_app.
      destruct (pol (map OnNext (vs ++ [a]))) as [e|]; [|apply IH].
      exists (vs ++ [a]), (Failed e). unfold trace. rewrite map_app, <- app_assoc. reflexivity.
    + exists vs, (Failed e). reflexivity.
    + exists vs, Completed. reflexivity.
Qed.

(** Every execution of [p] gives the subscriber a grammatical sequence of calls. *)
Definition polite {Z M} (S : system Z M) : Prop := forall ms l, sees S ms l -> grammatical l.

Lemma polite_final Z M (S : system Z M) (HS : Sane S) : (forall ms l, finally S ms l -> grammatical l) -> polite S.
Proof.
  intros H ms l Hl. destruct (sees_final HS Hl) as (l' & Hf & Hp).
  eapply grammatical_prefix; [exact Hp|]. eapply H; eassumption.
Qed.

Lemma polite_safe_end Z (pol : policy Z) : polite (psys pol (safe PEnd)).
Proof.
  apply polite_final; [apply sane_psys|]. intros ms l H. apply finally_raising in H. subst l.
  exact (user_calls_grammatical pol ms []).
Qed.

(** What is called by a program. *)
Lemma run_calls1 M (c : comp M) s m s' : run c (fst (ccall c s m)) [] s' -> run c s [m] s'.
Proof. intros H. now constructor. Qed.

Lemma exec_run B (c : comp (notif B)) S (p : prog S (act B)) : forall s n d s' n' d' r,
  exec (ccall (act_comp c)) p s (n, d) = (s', (n', d'), r) -> exists ms, run c d ms d'.
Proof.
  induction p as [|e|k IH|s0 k IH|a k IH]; intros s n d s' n' d' r H; cbn [exec] in H.
  - inversion H; subst. exists []. constructor.
  - inversion H; subst. exists []. constructor.
  - eapply IH; eassumption.
  - eapply IH; eassumption.
  - destruct a as [m| |]; cbn [ccall act_comp fst snd] in H.
    + destruct (ccall c d m) as [d2 r2] eqn:E. destruct (IH _ _ _ _ _ _ _ _ H) as [ms Hms].
      exists (m :: ms). constructor. rewrite E. exact Hms.
    + eapply IH; eassumption.
    + eapply IH; eassumption.
Qed.

Lemma advance_run B (c : comp (notif B)) S (p : prog S (act B)) : forall s n d s' n' d' r,
  advance (ccall (act_comp c)) p s (n, d) = (s', (n', d'), r) -> exists ms, run c d ms d'.
Proof.
  induction p as [|e|k IH|s0 k IH|a k IH]; intros s n d s' n' d' r H; cbn [advance] in H.
  - inversion H; subst. exists []. constructor.
  - inversion H; subst. exists []. constructor.
  - eapply IH; eassumption.
  - eapply IH; eassumption.
  - destruct a as [m| |]; cbn [ccall act_comp fst snd] in H.
    + destruct (ccall c d m) as [d2 r2] eqn:E. inversion H; subst.
      exists [m]. constructor. rewrite E. constructor.
    + inversion H; subst. exists []. constructor.
    + inversion H; subst. exists []. constructor.
Qed.

Lemma run_cons_app M (c : comp M) s ms1 s1 ms2 s2 : run c s ms1 s1 -> run c s1 ms2 s2 -> exists ms, run c s ms s2.
Proof. intros H1 H2. exists (ms1 ++ ms2). exact (run_app H1 H2). Qed.

Lemma agent_project M B (o : op M (act B)) (c : comp (notif B)) s ms s' :
  run (agent_comp o (act_comp c)) s ms s' -> exists ms', run c (snd (snd s)) ms' (snd (snd s')).
Proof.
  induction 1 as [s|s m ms s' H IH|s k s1 ms s' H1 H IH].
  - exists []. constructor.
  - exact IH.
  - destruct IH as [ms2 Hms2]. destruct s as [a [n d]].
    assert (Hs : exists ms1, run c d ms1 (snd (snd s1))).
    { destruct k as [|k]; cbn [cstep agent_comp fst snd] in H1.
      - unfold agent_step in H1. destruct (ph a) as [|p|e]; [| |discriminate].
        + destruct (aq a) as [|m q]; [discriminate|]. destruct (live o (as_ a)); [|discriminate].
          destruct (advance (ccall (act_comp c)) (body o m) (as_ a) (n, d)) as [[s2 [n2 d2]] p2] eqn:E.
          inversion H1; subst. exact (advance_run _ _ _ _ E).
        + destruct (advance (ccall (act_comp c)) p (as_ a) (n, d)) as [[s2 [n2 d2]] p2] eqn:E.
          inversion H1; subst. exact (advance_run _ _ _ _ E).
      - cbn [cstep act_comp fst snd] in H1. destruct (cstep c k d) as [d'|] eqn:E; [|discriminate].
        inversion H1; subst. cbn. exists []. econstructor; [exact E|constructor]. }
    destruct Hs as [ms1 Hms1]. eapply run_cons_app; eassumption.
Qed.

Lemma sync_project M B (o : op M (act B)) (c : comp (notif B)) s ms s' :
  run (sync_comp o (act_comp c)) s ms s' -> exists ms', run c (snd (snd s)) ms' (snd (snd s')).
Proof.
  induction 1 as [s|s m ms s' H IH|s k s1 ms s' H1 H IH].
  - exists []. constructor.
  - destruct IH as [ms2 Hms2]. destruct s as [a [n d]]. cbn [ccall sync_comp fst snd] in Hms2.
    destruct (exec (ccall (act_comp c)) (body o m) a (n, d)) as [[s2 [n2 d2]] r2] eqn:E.
    destruct (exec_run _ _ _ _ E) as [ms1 Hms1]. cbn in *. eapply run_cons_app; eassumption.
  - destruct IH as [ms2 Hms2]. destruct s as [a [n d]]. cbn [cstep sync_comp act_comp fst snd] in H1.
    destruct (cstep c k d) as [d'|] eqn:E; [|discriminate]. inversion H1; subst.
    exists ms2. econstructor; [exact E|exact Hms2].
Qed.

Lemma polite_PSafe Z A B (pol : policy Z) (o : op (notif A) (act B)) (r : pipe Z B) :
  polite (psys pol r) -> polite (psys pol (PSafe o r)).
Proof.
  intros H ms l (s & Hr & <-). destruct (agent_project Hr) as [ms' Hr'].
  apply (H ms'). exists (snd (snd s)). split; [exact Hr'|reflexivity].
Qed.
Lemma polite_PMbox Z A B (pol : policy Z) (o : op (notif A) (act B)) (r : pipe Z B) :
  polite (psys pol r) -> polite (psys pol (PMbox o r)).
Proof.
  intros H ms l (s & Hr & <-). destruct (agent_project Hr) as [ms' Hr'].
  apply (H ms'). exists (snd (snd s)). split; [exact Hr'|reflexivity].
Qed.
Lemma polite_PSync Z A B (pol : policy Z) (o : op (notif A) (act B)) (r : pipe Z B) :
  polite (psys pol r) -> polite (psys pol (PSync o r)).
Proof.
  intros H ms l (s & Hr & <-). destruct (sync_project Hr) as [ms' Hr'].
  apply (H ms'). exists (snd (snd s)). split; [exact Hr'|reflexivity].
Qed.
Lemma polite_msys Z M B (pol : policy Z) (o : op M (act B)) (r : pipe Z B) :
  polite (psys pol r) -> polite (msys pol o r).
Proof.
  intros H ms l (s & Hr & <-). destruct (agent_project Hr) as [ms' Hr'].
  apply (H ms'). exists (snd (snd s)). split; [exact Hr'|reflexivity].
Qed.
Lemma polite_ssys Z M B (pol : policy Z) (o : op M (act B)) (r : pipe Z B) :
  polite (psys pol r) -> polite (ssys pol o r).
Proof.
  intros H ms l (s & Hr & <-). destruct (sync_project Hr) as [ms' Hr'].
  apply (H ms'). exists (snd (snd s)). split; [exact Hr'|reflexivity].
Qed.
(** ** C02: calls do not overlap *)
Definition bracket {A} (n : notif A) : list (event A) := [Begin n; End n].

(** The calls made to an observer of the user, given what was requested. *)
Fixpoint made {A S} (react : S -> notif A -> S * nat * option exn) (u : S) (ms : list (notif A)) : list (notif A) :=
  match ms with
  | [] => []
  | OnNext a :: ms' =>
      OnNext a :: (let '(u', _, r) := react u (OnNext a) in
                   match r with None => made react u' ms' | Some e => [OnError e] end)
  | t :: _ => [t]
  end.

Lemma exec_awaits S D B (call : D -> act B -> D * option exn) k (s : S) (d : D) K :
  (forall d, call d Await = (d, None)) ->
  exec call (seqp (forp (repeat tt k) (fun _ => awaitp Await)) K) s d = exec call K s d.
Proof.
  intros Ha. unfold seqp. induction k as [|k IH]; [reflexivity|].
  cbn [repeat forp]. unfold seqp at 1. cbn. rewrite Ha. exact IH.
Qed.

Lemma exec_user A S (react : S -> notif A -> S * nat * option exn) u0 n u :
  exec lcall (body (user_op react u0) n) u [] =
  (fst (fst (react u n)), map OnNext (bracket n), snd (react u n)).
Proof.
  cbn [user_op direct body exec]. destruct (react u n) as [[u' k] r].
  unfold seqp at 1. cbn [exec awaitp bindp lcall app].
  rewrite (exec_awaits (@lcall (event A)) k) by reflexivity.
  cbn. destruct r; reflexivity.
Qed.

Lemma srun_user A S (react : S -> notif A -> S * nat * option exn) u0 ms : forall u,
  srun (user_op react u0) u ms = map OnNext (flat_map bracket (made react u ms)).
Proof.
  induction ms as [|m ms IH]; intros u; [reflexivity|].
  destruct m as [a|e|]; cbn [srun made flat_map].
  - rewrite exec_user. destruct (react u (OnNext a)) as [[u' k] r]. cbn [fst snd].
    rewrite map_app. f_equal. destruct r as [x|]; [|apply IH]. rewrite exec_user. reflexivity.
  - rewrite exec_user. reflexivity.
  - rewrite exec_user. reflexivity.
Qed.

Lemma guarded_final A S (react : S -> notif A -> S * nat * option exn) u0 ms l :
  finally (guarded react u0) ms l <-> l = map OnNext (flat_map bracket (made react u0 ms)).
Proof.
  unfold guarded. rewrite stage_safe by (intros s m; reflexivity).
  rewrite finally_end. change (ini (user_op react u0)) with u0. now rewrite srun_user.
Qed.

Lemma made_grammatical A S (react : S -> notif A -> S * nat * option exn) ms : forall u, grammatical (made react u ms).
Proof.
  induction ms as [|m ms IH]; intros u; cbn [made].
  - exists [], Open. reflexivity.
  - destruct m as [a|e|].
    + destruct (react u (OnNext a)) as [[u' k] [x|]].
      * exists [a], (Failed x). reflexivity.
      * destruct (IH u') as (vs & e & ->). exists (a :: vs), e. reflexivity.
    + exists [], (Failed e). reflexivity.
    + exists [], Completed. reflexivity.
Qed.

Lemma made_order A S (react : S -> notif A -> S * nat * option exn) ms : forall u,
  prefix (made react u ms) ms \/ exists a e, made react u ms = a ++ [OnError e] /\ prefix a ms.
Proof.
  induction ms as [|m ms IH]; intros u; cbn [made].
  - left. apply prefix_refl.
  - destruct m as [a|e|].
    + destruct (react u (OnNext a)) as [[u' k] [x|]].
      * right. exists [OnNext a], x. split; [reflexivity|]. exists ms. reflexivity.
      * destruct (IH u') as [H|(b & e & -> & H)].
        -- left. now apply prefix_cons.
        -- right. exists (OnNext a :: b), e. split; [reflexivity|now apply prefix_cons].
    + left. exists ms. reflexivity.
    + left. exists ms. reflexivity.
Qed.

Lemma prefix_brackets A (ns : list (notif A)) : forall l, prefix l (flat_map bracket ns) ->
  exists ns1 rest, prefix (ns1 ++ rest) ns /\
    ((rest = [] /\ l = flat_map bracket ns1) \/ exists n, rest = [n] /\ l = flat_map bracket ns1 ++ [Begin n]).
Proof.
  induction ns as [|n ns IH]; intros l [c Hc]; cbn in Hc.
  - symmetry in Hc. apply app_eq_nil in Hc. destruct Hc as [-> ->].
    exists [], []. split; [apply prefix_refl|]. left. auto.
  - destruct l as [|x l].
    + exists [], []. split; [apply prefix_nil|]. left. auto.
    + cbn in Hc. injection Hc as <- Hc. destruct l as [|y l].
      * exists [], [n]. split; [exists ns; reflexivity|]. right. exists n. auto.
      * cbn in Hc. injection Hc as <- Hc. destruct (IH l (ex_intro _ c Hc)) as (ns1 & rest & Hp & H).
        exists (n :: ns1), rest. split; [now apply prefix_cons|].
        destruct H as [[-> ->]|(n' & -> & ->)]; [left|right]; [auto|]. exists n'. auto.
Qed.

Lemma prefix_unmap X Y (f : X -> Y) a bs : prefix a (map f bs) -> exists as_, a = map f as_ /\ prefix as_ bs.
Proof.
  intros H. rewrite <- (app_nil_r (map f bs)) in H. destruct (prefix_map _ _ _ H) as [(v1 & v2 & -> & ->)|(t1 & t2 & Ht & ->)].
  - exists v1. split; [reflexivity|]. now exists v2.
  - symmetry in Ht. apply app_eq_nil in Ht. destruct Ht as [-> _]. exists bs. split; [now rewrite app_nil_r|apply prefix_refl].
Qed.

Lemma guarded_sees A S (react : S -> notif A -> S * nat * option exn) u0 ms l :
  sees (guarded react u0) ms l ->
  exists ns rest, prefix (ns ++ rest) (made react u0 ms) /\
    ((rest = [] /\ l = map OnNext (flat_map bracket ns)) \/
     exists n, rest = [n] /\ l = map OnNext (flat_map bracket ns ++ [Begin n])).
Proof.
  intros H. destruct (sees_final (sane_psys _ _) H) as (l' & Hf & Hp).
  apply (proj1 (guarded_final react u0 ms l')) in Hf. subst l'.
  destruct (prefix_unmap _ _ Hp) as (es & -> & Hp').
  destruct (prefix_brackets _ Hp') as (ns1 & rest & H1 & [[-> ->]|(n & -> & ->)]);
    exists ns1; eexists; (split; [exact H1|]); eauto.
Qed.

(** ** C05: the disposable *)
Fixpoint acts {A} (out : list (act A) -> option exn) (l : list (act A)) (ms : list (notif A)) : list (act A) :=
  match ms with
  | [] => l
  | OnNext a :: ms' =>
      match out (l ++ [Deliver (OnNext a)]) with
      | None => acts out (l ++ [Deliver (OnNext a)]) ms'
      | Some e => l ++ [Deliver (OnNext a); Deliver (OnError e)]
      end
  | t :: _ =>
      match out (l ++ [Dispose]) with
      | None => l ++ [Dispose; Deliver t]
      | Some _ => l ++ [Dispose]
      end
  end.

Lemma recorded_drain A (out : list (act A) -> option exn) ms : forall l,
  drainD safe_op (ccall (recorder out)) ms false l = acts out l ms.
Proof.
  assert (Hd : forall ms l, drainD (@safe_op A) (ccall (recorder out)) ms true l = l) by (intros [|m ms'] l; reflexivity).
  induction ms as [|m ms IH]; intros l; [reflexivity|].
  cbn [drainD acts]. change (live safe_op false) with true. cbn iota.
  destruct m as [a|e|]; cbn.
  - destruct (out (l ++ [Deliver (OnNext a)])) as [x|]; cbn; [|apply IH].
    rewrite <- app_assoc. cbn. destruct (out _); cbn; [reflexivity|apply Hd].
  - destruct (out (l ++ [Dispose])) as [x|]; cbn; [reflexivity|].
    rewrite <- app_assoc. cbn. destruct (out _); cbn; [reflexivity|apply Hd].
  - destruct (out (l ++ [Dispose])) as [x|]; cbn; [reflexivity|].
    rewrite <- app_assoc. cbn. destruct (out _); cbn; [reflexivity|apply Hd].
Qed.

Lemma good_recorded A (out : list (act A) -> option exn) : Good (recorded out).
Proof. apply good_agent, good_user. Qed.
Lemma grows_recorded A (out : list (act A) -> option exn) : grows (recorded out) snd.
Proof.
  refine (grows_agent safe_op (c := recorder out) (log := fun l => l) _).
  split; simpl; [intros; apply prefix_app|discriminate].
Qed.

Lemma recorded_final A (out : list (act A) -> option exn) ms :
  exists s, run (recorded out) (recorded0 out) ms s /\ quiet (recorded out) s /\ snd s = acts out [] ms.
Proof.
  destruct (drain_steps safe_op (recorder out) ms false []) as (m & a & H1 & H2).
  exists (a, drainD safe_op (ccall (recorder out)) ms false []). split; [|split].
  - rewrite <- (app_nil_r ms) at 1. eapply run_app; [apply calls_run|].
    unfold recorded0, recorded. rewrite calls_agent. cbn [aq as_ ph app]. eapply steps_run. exact H1.
  - intros [|k]; [apply H2|reflexivity].
  - cbn [snd]. apply recorded_drain.
Qed.

Lemma recorded_prefix A (out : list (act A) -> option exn) ms s :
  run (recorded out) (recorded0 out) ms s -> prefix (snd s) (acts out [] ms).
Proof.
  intros H. destruct (recorded_final out ms) as (s' & H1 & H2 & <-).
  refine (prefix_of_final (good_recorded out) (grows_recorded out) [] H _ H2). now rewrite app_nil_r.
Qed.

(** Shape of the record. *)
Definition shape {A} (out : list (act A) -> option exn) (ms : list (notif A)) (l : list (act A)) : Prop :=
  exists vs,
    prefix (map OnNext vs) ms /\
    (l = map (fun a => Deliver (OnNext a)) vs \/
     (exists t rest, is_term t = true /\ ms = map OnNext vs ++ t :: rest /\
        (l = map (fun a => Deliver (OnNext a)) vs ++ [Dispose] \/
         l = map (fun a => Deliver (OnNext a)) vs ++ [Dispose; Deliver t])) \/
     (exists e, out (map (fun a => Deliver (OnNext a)) vs) = Some e /\
        l = map (fun a => Deliver (OnNext a)) vs ++ [Deliver (OnError e)])).

Lemma acts_shape A (out : list (act A) -> option exn) ms : forall ws,
  exists vs, prefix (map OnNext vs) ms /\
    let D := map (fun a => Deliver (OnNext a)) (ws ++ vs) in
    (acts out (map (fun a => Deliver (OnNext a)) ws) ms = D \/
     (exists t rest, is_term t = true /\ ms = map OnNext vs ++ t :: rest /\
        (acts out (map (fun a => Deliver (OnNext a)) ws) ms = D ++ [Dispose] \/
         acts out (map (fun a => Deliver (OnNext a)) ws) ms = D ++ [Dispose; Deliver t])) \/
     (exists e, out D = Some e /\ acts out (map (fun a => Deliver (OnNext a)) ws) ms = D ++ [Deliver (OnError e)])).
Proof.
  induction ms as [|m ms IH]; intros ws; cbn [acts].
  - exists []. split; [apply prefix_refl|]. cbn. rewrite app_nil_r. auto.
  - destruct m as [a|e|].
    + change [Deliver (OnNext a)] with (map (fun a : A => Deliver (OnNext a)) [a]). rewrite <- map_app.
      destruct (out (map (fun a : A => Deliver (OnNext a)) (ws ++ [a]))) as [x|] eqn:E.
      * exists [a]. split; [exists ms; reflexivity|]. cbn. right. right. exists x. split; [exact E|].
        rewrite map_app, <- app_assoc. reflexivity.
      * destruct (IH (ws ++ [a])) as (vs & Hp & H). exists (a :: vs). split; [now apply prefix_cons|].
        cbn zeta in *. rewrite <- app_assoc in H. cbn [app] in H.
        destruct H as [H|[(t & rest & Ht & -> & H)|H]]; auto.
        right. left. exists t, rest. auto.
    + exists []. split; [apply prefix_nil|]. cbn. rewrite app_nil_r. right. left.
      exists (OnError e), ms. split; [reflexivity|]. split; [reflexivity|]. destruct (out _); auto.
    + exists []. split; [apply prefix_nil|]. cbn. rewrite app_nil_r. right. left.
      exists OnCompleted, ms. split; [reflexivity|]. split; [reflexivity|]. destruct (out _); auto.
Qed.

Lemma recorded_shape A (out : list (act A) -> option exn) ms s :
  run (recorded out) (recorded0 out) ms s -> shape out ms (snd s).
Proof.
  intros H. apply recorded_prefix in H.
  destruct (acts_shape out ms []) as (vs & Hp & Hs). cbn [app map] in Hs. cbn zeta in Hs.
  set (D := map (fun a : A => Deliver (OnNext a)) vs) in *.
  assert (Hpre : forall vs1 vs2, vs = vs1 ++ vs2 -> prefix (map OnNext vs1) ms).
  { intros v1 v2 ->. eapply prefix_trans; [|exact Hp]. rewrite map_app. apply prefix_app. }
  assert (Hshort : forall tl, prefix (snd s) (D ++ tl) ->
     shape out ms (snd s) \/ exists t1 t2, tl = t1 ++ t2 /\ snd s = D ++ t1 /\ t1 <> []).
  { intros tl Ht. destruct (prefix_map _ _ _ Ht) as [(v1 & v2 & Hv & Hl)|(t1 & t2 & -> & Hl)].
    - left. exists v1. split; [eapply Hpre; eassumption|]. auto.
    - destruct t1 as [|x t1].
      + left. exists vs. split; [exact Hp|]. left. rewrite Hl. apply app_nil_r.
      + right. exists (x :: t1), t2. repeat split; auto. discriminate. }
  destruct Hs as [Hs|[(t & rest & Ht & Hms & Hs)|(e & He & Hs)]].
  - rewrite Hs in H. rewrite <- (app_nil_r D) in H. destruct (Hshort _ H) as [|(t1 & t2 & Hn & _ & Hne)]; [assumption|].
    symmetry in Hn. apply app_eq_nil in Hn. tauto.
  - destruct Hs as [Hs|Hs]; rewrite Hs in H; destruct (Hshort _ H) as [|(t1 & t2 & Hn & Hl & Hne)]; try assumption;
      exists vs; (split; [exact Hp|]); right; left; exists t, rest; (split; [exact Ht|split; [exact Hms|]]); fold D; rewrite Hl.
    + destruct t1 as [|x [|y t1]]; [congruence| |discriminate]. injection Hn as <- _. auto.
    + destruct t1 as [|x [|y [|z t1]]]; [congruence| | |discriminate].
      * injection Hn as <- _. auto.
      * injection Hn as <- <- _. auto.
  - rewrite Hs in H. destruct (Hshort _ H) as [|(t1 & t2 & Hn & Hl & Hne)]; [assumption|].
    exists vs. split; [exact Hp|]. right. right. exists e. split; [exact He|]. fold D. rewrite Hl.
    destruct t1 as [|x [|y t1]]; [congruence| |discriminate]. injection Hn as <- _. reflexivity.
Qed.
