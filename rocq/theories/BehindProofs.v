(** * Operators without a safe_observer of their own: proofs. *)
From Verif Require Import TimeProofs PipeProofs OpsProofs LawsProofs ProgramsProofs ColdProofs ColdCatchProofs.
From Verif Require Export Behind.
Set Implicit Arguments.

(** ** Chains *)

Lemma noraise_sync Z A B (pol : policy Z) (o : op (notif A) (act B)) (q : pipe Z B) :
  noraise (pcomp pol q) -> (forall s m, snd (exec lcall (body o m) s []) = None) -> noraise (pcomp pol (PSync o q)).
Proof.
  intros Hq Ho [s [n d]] m. specialize (Ho s m).
  destruct (exec lcall (body o m) s []) as [[s' l] x] eqn:E. cbn [snd] in Ho. subst x.
  destruct (exec_noraise Hq _ _ n d E) as [n' E'].
  assert (G : forall t : st o * (nat * cst (pcomp pol q)) * option exn, t = (s', (n', calls (pcomp pol q) d l), None) ->
    snd (let '(a, b, c) := t in ((a, b), c)) = None) by (intros t ->; reflexivity).
  exact (G _ E').
Qed.

Lemma noraise_pre Z A B (pol : policy Z) (o : op (notif A) (act B)) (r : pipe Z B) :
  noraise (pcomp pol r) -> (forall s m, snd (exec lcall (body o m) s []) = None) -> noraise (pcomp pol (pre o r)).
Proof.
  intros Hr Ho. destruct r as [|? ? o2 r|? ? o2 r|? ? o2 r]; cbn [pre]; try (now apply noraise_sync).
  intros [[s1 s2] [n d]] m.
  pose proof (sim_call (sim_inline pol o o2 r) ((s1, s2), (n, d)) (s1, (0, (s2, (0, d)))) m) as S.
  destruct S as [_ S]; [now repeat split|]. etransitivity; [exact S|]. now apply noraise_sync.
Qed.

Lemma calm_take A c s m : snd (exec lcall (body (@take_op A c) m) s []) = None.
Proof.
  destruct m; cbn; try reflexivity. destruct (0 <? s)%Z; [|reflexivity]. cbn. now destruct (s - 1 =? 0)%Z.
Qed.
Lemma calm_take_last A c s m : snd (exec lcall (body (@take_last_op A c) m) s []) = None.
Proof.
  destruct m; cbn; try reflexivity.
  - now destruct (c <? _)%Z.
  - unfold seqp. rewrite exec_bind, exec_forp_send. reflexivity.
Qed.
Lemma calm_skip A c s m : snd (exec lcall (body (@skip_op A c) m) s []) = None.
Proof. destruct m; cbn; try reflexivity. now destruct (s <=? 0)%Z. Qed.
Lemma calm_skip_last A i c s m : snd (exec lcall (body (@skip_last_op A i c) m) s []) = None.
Proof. destruct m; cbn; try reflexivity. destruct (c <? _)%Z; [|reflexivity]. destruct (s ++ [a]); cbn; [reflexivity|]. now destruct (i a0). Qed.
Lemma calm_zip A B (it : iterator B) s m : snd (exec lcall (body (@zip_op A B it) m) s []) = None.
Proof. destruct m; cbn; try reflexivity. now destruct (it s). Qed.
Lemma calm_scan A B (f : B -> A -> res B) b s m : snd (exec lcall (body (scan_op f b) m) s []) = None.
Proof. destruct m; cbn; try reflexivity. now destruct (f s a). Qed.

Lemma calm_noraise Z A B (pol : policy Z) (g : stage A B) (r : pipe Z B) :
  calm g -> (if bare g then noraise (pcomp pol r) else True) -> noraise (pcomp pol (op_of g r)).
Proof.
  destruct g as [A B f|A B f|A B f|A p|A p|A B f|A n|A n|A n|A i n|A q|A B f b|A B f b|A B it|A B f|A p|A B f]; cbn [op_of calm bare]; intros Hc Hr.
  - apply noraise_pre; [exact Hr|]. intros s [a|e|]; cbn; try reflexivity. destruct (f a) eqn:E; [reflexivity|]. now apply Hc in E.
  - apply noraise_pre; [exact Hr|]. intros s [a|e|]; cbn; try reflexivity. destruct (f a) eqn:E; [reflexivity|]. now apply Hc in E.
  - apply noraise_pre; [apply noraise_safe|apply calm_zip].
  - apply noraise_pre; [exact Hr|]. intros s [a|e|]; cbn; try reflexivity. destruct (p a) as [[|]|] eqn:E; [reflexivity|reflexivity|]. now apply Hc in E.
  - apply noraise_pre; [apply noraise_safe|apply calm_zip].
  - apply noraise_pre; [exact Hr|]. intros s [a|e|]; cbn; try reflexivity. destruct (f a) as [[|]|] eqn:E; [reflexivity|reflexivity|]. now apply Hc in E.
  - unfold taking, take_. destruct (Z.of_nat n <? 0)%Z eqn:E; [apply Z.ltb_lt in E; lia|].
    apply noraise_pre; [apply noraise_safe|apply calm_take].
  - apply noraise_pre; [apply noraise_safe|apply calm_take_last].
  - apply noraise_pre; [apply noraise_safe|apply calm_skip].
  - apply noraise_pre; [apply noraise_safe|apply calm_skip_last].
  - apply noraise_mbox.
  - apply noraise_pre; [exact Hr|apply calm_scan].
  - apply noraise_pre; [|apply calm_scan]. apply noraise_pre; [apply noraise_safe|apply calm_take_last].
  - apply noraise_pre; [apply noraise_safe|apply calm_zip].
  - apply noraise_pre; [apply noraise_safe|apply calm_zip].
  - apply noraise_pre; [exact Hr|]. intros s [a|e|]; cbn; try reflexivity. destruct (p a) as [[|]|] eqn:E; [reflexivity|reflexivity|]. now apply Hc in E.
  - apply noraise_pre; [exact Hr|]. intros s [a|e|]; cbn; try reflexivity. destruct (f a) as [[|]|] eqn:E; [reflexivity|reflexivity|]. now apply Hc in E.
Qed.

Lemma front_noraise A C (ch : chain A C) : calm_front ch -> noraise (pcomp well_behaved (hung ch PEnd)).
Proof.
  induction ch as [A|A B C g r IH]; cbn [calm_front hung].
  - intros _. apply noraise_end.
  - intros [Hg Hr]. apply calm_noraise; [exact Hg|]. destruct (bare g); [now apply IH|exact I].
Qed.

(** Not in the code: what the operators of a chain make of elements and ending. *)
Fixpoint chain_result {A C} (ch : chain A C) : list A -> ending -> list C * ending :=
  match ch in chain A C return list A -> ending -> list C * ending with
  | CNil => fun vs e => (vs, e)
  | CCons g r => fun vs e => chain_result r (fst (result_of g vs e)) (snd (result_of g vs e))
  end.

Lemma chain_acts A C (ch : chain A C) : forall Z (pol : policy Z) (r : pipe Z C) vs e l,
  finally (psys pol (safe (hung ch r))) (trace vs e) l <->
  finally (psys pol (safe r)) (trace (fst (chain_result ch vs e)) (snd (chain_result ch vs e))) l.
Proof.
  induction ch as [A|A B C g r IH]; intros Z pol p vs e l; cbn [hung chain_result]; [reflexivity|].
  rewrite (source_calls_nil vs e), (stage_acts g pol). apply IH.
Qed.

Lemma chain_delivers A C (ch : chain A C) vs e l :
  delivers (psys well_behaved (safe (hung ch PEnd))) (trace vs e) l <-> l = trace (fst (chain_result ch vs e)) (snd (chain_result ch vs e)).
Proof.
  rewrite (delivers_iff (sane_psys _ _)). rewrite (chain_acts ch well_behaved PEnd vs e), subscriber, norm_trace0. split; congruence.
Qed.

Lemma bounded_over A C (ch : chain A C) : forall c, bounded c -> bounded (over ch c).
Proof. induction ch as [A|A B C g r IH]; intros c Hc; [exact Hc|]. apply IH. exact Hc. Qed.

Lemma over_makes A C (ch : chain A C) : forall c, bounded c -> forall l,
  makes (over ch c) l <-> exists vs e, makes c (trace vs e) /\ l = trace (fst (chain_result ch vs e)) (snd (chain_result ch vs e)).
Proof.
  induction ch as [A|A B C g r IH]; intros c Hc l; cbn [over chain_result].
  - split.
    + intros M. destruct (sound c Hc l M) as (vs & e & _ & ->). now exists vs, e.
    + intros (vs & e & M & ->). exact M.
  - rewrite (IH (Stage g c) Hc l). split.
    + intros (us & d & (ms & M & D) & ->). destruct (sound c Hc ms M) as (vs & e & _ & ->). exists vs, e. split; [exact M|].
      apply stage_delivers in D. apply trace_inj in D as [-> ->]. reflexivity.
    + intros (vs & e & M & ->). exists (fst (result_of g vs e)), (snd (result_of g vs e)). split; [|reflexivity].
      exists (trace vs e). split; [exact M|]. now apply stage_delivers.
Qed.

Lemma hung_makes A C (ch : chain A C) c l : bounded c ->
  ((exists ms, makes c ms /\ delivers (psys well_behaved (safe (hung ch PEnd))) ms l) <-> makes (over ch c) l).
Proof.
  intros Hc. rewrite (over_makes ch c Hc l). split.
  - intros (ms & M & D). destruct (sound c Hc ms M) as (vs & e & _ & ->). exists vs, e. split; [exact M|]. now apply chain_delivers.
  - intros (vs & e & M & E). exists (trace vs e). split; [exact M|]. now apply chain_delivers.
Qed.

Lemma front_delivers A C (ch : chain A C) vs e l : calm_front ch ->
  (delivers (psys well_behaved (hung ch PEnd)) (trace vs e) l <-> delivers (psys well_behaved (safe (hung ch PEnd))) (trace vs e) l).
Proof.
  intros Hf. rewrite (delivers_iff (sane_psys _ _)), (delivers_iff (sane_psys _ _)).
  rewrite (safe_noraise well_behaved (hung ch PEnd)) by now apply front_noraise. now rewrite norm_trace0.
Qed.

Lemma direct_makes A C (ch : chain A C) c l : bounded c -> calm_front ch ->
  ((exists ms, makes c ms /\ delivers (psys well_behaved (hung ch PEnd)) ms l) <-> makes (over ch c) l).
Proof.
  intros Hc Hf. rewrite <- (hung_makes ch c l Hc). split; intros (ms & M & D); destruct (sound c Hc ms M) as (vs & e & _ & ->); exists (trace vs e); (split; [exact M|]); now apply (front_delivers ch).
Qed.

(** ** Behind catch and retry *)

Definition hears {A B} (f : A -> res (option B)) (n : notif A) : list (notif B) :=
  match n with
  | OnNext a => match f a with Ok (Some b) => [OnNext b] | Ok None => [] | Err x => [OnError x] end
  | OnError x => [OnError x]
  | OnCompleted => [OnCompleted]
  end.
Definition relabel {A B} (f : A -> res (option B)) (l : clabel A) : list (clabel B) :=
  match l with
  | CCall k n => map (CCall k) (hears f n)
  | CAct i => [CAct i]
  | CActFail i e => [CActFail i e]
  | CUser => [CUser]
  end.

Lemma tail_creach H O A B (hd : H -> exn -> res O * H) src (f : A -> res (option B)) h0 h s :
  tail_reach hd src f h0 h s -> creach hd src h0 (flat_map (relabel f) h) s.
Proof.
  induction 1 as [|h s l s' R IH E]; [constructor|]. rewrite flat_map_app. cbn [flat_map]. rewrite app_nil_r.
  destruct l as [k n|i|i e|]; cbn [behind_step relabel] in *.
  - destruct (cbegun k s) eqn:Hb; [|discriminate]. injection E as <-.
    destruct n as [a|x|]; cbn [hears]; [destruct (f a) as [[b|]|x]|..]; cbn [map];
      try (rewrite app_nil_r; exact IH); (eapply cr_snoc; [exact IH|]); cbn [catch_step]; now rewrite Hb.
  - eapply cr_snoc; eassumption.
  - eapply cr_snoc; eassumption.
  - eapply cr_snoc; eassumption.
Qed.

Lemma calls_relabel A B (f : A -> res (option B)) k h : calls_of k (flat_map (relabel f) h) = flat_map (hears f) (calls_of k h).
Proof.
  unfold calls_of. induction h as [|l h IH]; [reflexivity|]. cbn [flat_map]. unfold ccalls in *. rewrite flat_map_app, filter_app, map_app, IH.
  destruct l as [j n|i|i e|]; cbn [flat_map relabel app]; try reflexivity.
  assert (E : forall ms, flat_map (fun l : clabel B => match l with CCall k n => [(k, n)] | _ => [] end) (map (CCall j) ms) = map (fun m => (j, m)) ms) by (induction ms as [|m ms IHm]; cbn; congruence).
  rewrite E. cbn [filter fst]. destruct (j =? k) eqn:Ej.
  - cbn [map snd flat_map]. f_equal. generalize (hears f n) as ms. induction ms as [|m ms IHm]; [reflexivity|]. cbn [map filter fst]. rewrite Ej. cbn. now rewrite IHm.
  - replace (filter (fun x : nat * notif B => fst x =? k) (map (fun m => (j, m)) (hears f n))) with (@nil (nat * notif B)); [reflexivity|].
    generalize (hears f n) as ms. induction ms as [|m ms IHm]; [reflexivity|]. cbn [map filter fst]. now rewrite Ej.
Qed.

Lemma relabel_failures A B (f : A -> res (option B)) h : no_failures h -> no_failures (flat_map (relabel f) h).
Proof.
  intros N i e F. apply in_flat_map in F as (l & Hl & F). destruct l as [k n|j|j x|]; cbn [relabel] in F.
  - apply in_map_iff in F as (m & F & _). discriminate.
  - destruct F as [F|[]]. discriminate.
  - destruct F as [F|[]]. injection F as -> ->. exact (N i e Hl).
  - destruct F as [F|[]]. discriminate.
Qed.

Lemma hears_choose A B (f : A -> res (option B)) vs e :
  flat_map (hears f) (until_raise f (trace vs e)) =
  trace (somes (fst (results f vs))) (or_failed (snd (results f vs)) e).
Proof.
  induction vs as [|v vs IH].
  - destruct e; reflexivity.
  - change (trace (v :: vs) e) with (OnNext v :: trace vs e). cbn [until_raise flat_map hears results].
    destruct (f v) as [[b|]|x]; [| |reflexivity]; destruct (results f vs) as [bs x] eqn:E; cbn [fst snd somes] in *; rewrite IH; reflexivity.
Qed.

Lemma result_does A B (g : stage A B) vs e : elementwise g ->
  result_of g vs e = (somes (fst (results (does g) vs)), or_failed (snd (results (does g) vs)) e).
Proof.
  destruct g as [A B f|A B f|A B f|A p|A p|A B f|A n|A n|A n|A i n|A q|A B f b|A B f b|A B it|A B f|A p|A B f]; cbn [elementwise]; intros F; try contradiction; cbn [result_of does].
  1, 2: (assert (E : results (fun a => match f a with Ok b => Ok (Some b) | Err x => Err x end) vs = (map Some (fst (results f vs)), snd (results f vs)));
    [induction vs as [|v vs IH]; [reflexivity|]; cbn [results]; destruct (f v); [|reflexivity]; rewrite IH; now destruct (results f vs)
    |rewrite E; cbn [fst snd]; destruct (results f vs) as [bs x]; cbn [fst snd]; f_equal; clear; induction bs as [|b bs IH]; [reflexivity|]; cbn; now rewrite <- IH]).
  - now destruct (results (keep p) vs).
  - now destruct (results f vs).
  - now destruct (results (keep p) vs).
  - now destruct (results f vs).
Qed.

Lemma hears_stage A B (g : stage A B) vs e : elementwise g ->
  flat_map (hears (does g)) (until_raise (does g) (trace vs e)) = script_of (result_of g vs e).
Proof. intros Hg. rewrite (result_does _ _ _ Hg). apply hears_choose. Qed.

Lemma tail_run H O A B (hd : H -> exn -> res O * H) src (f : A -> res (option B)) h0 : forall h2 h1 s s', tail_reach hd src f h0 h1 s ->
  fold_left (fun r l => match r with Some s => behind_step hd f s l | None => None end) h2 (Some s) = Some s' ->
  tail_reach hd src f h0 (h1 ++ h2) s'.
Proof.
  induction h2 as [|l h2 IH]; intros h1 s s' R E; cbn in E.
  - injection E as <-. now rewrite app_nil_r.
  - destruct (behind_step hd f s l) as [s1|] eqn:E1.
    + replace (h1 ++ l :: h2) with ((h1 ++ [l]) ++ h2) by now rewrite <- app_assoc. eapply IH; [|exact E]. econstructor; eassumption.
    + exfalso. clear -E. induction h2; cbn in E; [discriminate|auto].
Qed.

Definition staged {A B} (g : stage A B) (handler : exn -> res (cold A)) (x : exn) : res (cold B) :=
  match handler x with Ok c => Ok (Stage g c) | Err y => Err y end.

Lemma tail_answers H O A B (hd hd' : H -> exn -> res O * H) src (f : A -> res (option B)) h0 h s : (forall st x, hd st x = hd' st x) ->
  tail_reach hd src f h0 h s -> tail_reach hd' src f h0 h s.
Proof.
  intros E. induction 1 as [|h s l s' R IH S]; [constructor|]. eapply br_snoc; [exact IH|]. rewrite <- S.
  destruct l as [k n|i|i e|]; cbn [behind_step]; try reflexivity.
  destruct (cbegun k s); [|reflexivity]. f_equal. destruct n as [a|x|]; [destruct (f a) as [[b|]|x]|..]; try reflexivity; unfold failover; now rewrite E.
Qed.

Lemma behind_catch_makes A B (g : stage A B) c handler l : elementwise g ->
  behind_catch g c handler l -> makes (Caught (Stage g c) (staged g handler)) l.
Proof.
  intros Hg (content & h & s & R & N & Q & Hk & E).
  exists (fun k o => result_of g (fst (content k o)) (snd (content k o))), (flat_map (relabel (does g)) h), s.
  assert (C : forall k o, In (ESub k o) (c_log s) -> calls_of k (flat_map (relabel (does g)) h) = script_of (result_of g (fst (content k o)) (snd (content k o)))).
  { intros k o Hs. rewrite calls_relabel, (proj1 (Hk k o Hs)). now apply hears_stage. }
  split; [|split; [|split; [|split]]].
  - apply tail_creach. eapply tail_answers; [|exact R]. intros st x. unfold answers_to, staged. now destruct (handler x).
  - split; [now apply relabel_failures|]. intros k o Hs. rewrite (C k o Hs). exists []. now rewrite app_nil_r.
  - split; [exact Q|exact C].
  - intros k o Hs. destruct (Hk k o Hs) as [_ M]. destruct o as [x|].
    + unfold staged. destruct (handler x); [|exact M]. exists (script_of (content k (Some x))). split; [exact M|]. now apply stage_delivers.
    + exists (script_of (content k None)). split; [exact M|]. now apply stage_delivers.
  - exact E.
Qed.

Lemma behind_retry_makes A B (g : stage A B) n c l : elementwise g ->
  behind_retry g n c l -> makes (Retried n (Stage g c)) l.
Proof.
  intros Hg (content & h & s & R & N & Q & Hk & E).
  exists (fun k o => result_of g (fst (content k o)) (snd (content k o))), (flat_map (relabel (does g)) h), s.
  assert (C : forall k o, In (ESub k o) (c_log s) -> calls_of k (flat_map (relabel (does g)) h) = script_of (result_of g (fst (content k o)) (snd (content k o)))).
  { intros k o Hs. rewrite calls_relabel, (proj1 (Hk k o Hs)). now apply hears_stage. }
  split; [|split; [|split; [|split]]].
  - now apply tail_creach.
  - split; [now apply relabel_failures|]. intros k o Hs. rewrite (C k o Hs). exists []. now rewrite app_nil_r.
  - split; [exact Q|exact C].
  - intros k o Hs. destruct (Hk k o Hs) as [_ M]. destruct o as [|x].
    + exists (script_of (content k ROrig)). split; [exact M|]. now apply stage_delivers.
    + rewrite M. cbn [fst snd]. now rewrite (result_does _ _ _ Hg).
  - exact E.
Qed.

(** ** Behind delay and interval *)

Definition fine {A B} (f : A -> res (option B)) (n : notif A) : Prop := match n with OnNext a => exists o, f a = Ok o | _ => True end.

Lemma delay_raise A B (f : A -> res (option B)) d t0 h s : delay_reach f d t0 h s ->
  Forall (fine f) (map fst (x_log s)) \/
  exists us a x, map fst (x_log s) = us ++ [OnNext a] /\ Forall (fine f) us /\ f a = Err x /\ (x_phase s = XCall (OnNext a) \/ x_phase s = XDead).
Proof.
  assert (G : forall n us, Forall (fine f) us ->
    Forall (fine f) (us ++ [n]) \/ exists vs a x, us ++ [n] = vs ++ [OnNext a] /\ Forall (fine f) vs /\ f a = Err x /\ n = OnNext a).
  { intros n us F. destruct n as [a|e|]; [|left; apply Forall_app; split; [exact F|now repeat constructor]|left; apply Forall_app; split; [exact F|now repeat constructor]].
    destruct (f a) as [o|x] eqn:Ef; [left; apply Forall_app; split; [exact F|]; constructor; [|constructor]; now exists o|].
    right. exists us, a, x. auto. }
  induction 1 as [|h s l s' R IH W E]; [left; constructor|].
  assert (K : x_log s' = x_log s -> (forall us a x, map fst (x_log s) = us ++ [OnNext a] -> f a = Err x -> x_phase s = XCall (OnNext a) -> x_phase s' = XCall (OnNext a) \/ x_phase s' = XDead) ->
     (x_phase s = XDead -> x_phase s' = XDead) ->
     Forall (fine f) (map fst (x_log s')) \/ exists us a x, map fst (x_log s') = us ++ [OnNext a] /\ Forall (fine f) us /\ f a = Err x /\ (x_phase s' = XCall (OnNext a) \/ x_phase s' = XDead)).
  { intros L P1 P2. rewrite L. destruct IH as [F|(us & a & x & El & F & Ef & P)]; [now left|right]. exists us, a, x. split; [exact El|]. split; [exact F|]. split; [exact Ef|].
    destruct P as [P|P]; [exact (P1 us a x El Ef P)|right; now apply P2]. }
  destruct l as [dt|n| | |x|]; cbn [xstep] in E.
  - destruct (0 <? dt)%Z; [|discriminate]. injection E as <-. apply K; cbn; auto.
  - injection E as <-. apply K; cbn; auto.
  - unfold xwork in E. destruct (x_phase s) as [|n u|n| |] eqn:P; try discriminate.
    + destruct IH as [F|(us & a & x & El & F & Ef & [Q|Q])]; [|congruence|congruence].
      destruct (x_cancelled s); [injection E as <-; now left|]. destruct (x_box s) as [|[n due] r]; [discriminate|].
      destruct (0 <? due - x_now s)%Z; injection E as <-; [now left|]. cbn [x_begin x_log x_phase]. rewrite map_app. cbn [map fst].
      destruct (G n _ F) as [F'|(vs & a & x & El & F' & Ef & ->)]; [now left|right]. exists vs, a, x. auto.
    + destruct IH as [F|(us & a & x & El & F & Ef & [Q|Q])]; [|congruence|congruence].
      destruct (u <=? x_now s)%Z; [|discriminate]. injection E as <-. cbn [x_begin x_log x_phase]. rewrite map_app. cbn [map fst].
      destruct (G n _ F) as [F'|(vs & a & x & El & F' & Ef & ->)]; [now left|right]. exists vs, a, x. auto.
  - unfold x_calling in W. destruct (x_phase s) as [|n u|n| |] eqn:P; try discriminate. injection E as <-.
    apply K; cbn [x_log x_phase]; [reflexivity| |congruence]. intros us a x El Ef Q. injection Q as ->. cbn in W. destruct W as [o W]. congruence.
  - destruct (x_phase s) as [|n u|n| |] eqn:P; try discriminate. injection E as <-. apply K; cbn; auto.
  - injection E as <-. apply K; cbn; auto.
Qed.

Lemma delay_xreach A B (f : A -> res (option B)) d t0 h s : delay_reach f d t0 h s -> xreach d t0 h s.
Proof. induction 1; econstructor; eassumption. Qed.
Lemma interval_ivreach B (f : nat -> res (option B)) sec per t0 h s : interval_reach f sec per t0 h s -> ivreach sec per t0 h s.
Proof. induction 1; econstructor; eassumption. Qed.

Lemma delay_silent A B (f : A -> res (option B)) d t0 h s vs e a x :
  delay_reach f d t0 h s -> prefix (map fst (TimeSpec.arrivals t0 h)) (trace vs e) ->
  In (OnNext a) (map fst (x_log s)) -> f a = Err x ->
  exists us, map fst (x_log s) = map OnNext (us ++ [a]) /\ forall u, In u us -> exists o, f u = Ok o.
Proof.
  intros R [q Pa] Ha Ef. destruct (delay_raise R) as [F|(us & b & y & El & F & Eb & _)].
  { rewrite Forall_forall in F. destruct (F _ Ha) as [o Fo]. congruence. }
  destruct (x_never_early (delay_xreach R)) as (D & rest & Ea & F2).
  assert (EL : map fst (x_log s) = map fst D) by (clear -F2; induction F2 as [|p r l D [H _] _ IH]; cbn; congruence).
  assert (P : exists q', trace vs e = map fst (x_log s) ++ q') by (rewrite Pa, Ea, map_app, EL, <- app_assoc; now eexists).
  destruct P as [q' P]. rewrite El, <- app_assoc in P. cbn [app] in P.
  assert (V : exists ws, us = map OnNext ws /\ Forall (fine f) us).
  { clear -P F. unfold trace in P. revert us P F. induction vs as [|v vs IH]; intros [|u us] P F.
    - now exists [].
    - destruct e; cbn in P; destruct us; discriminate.
    - now exists [].
    - cbn in P. injection P as <- P. destruct (IH us P (Forall_inv_tail F)) as (ws & -> & _). exists (v :: ws). auto. }
  destruct V as (ws & -> & Fw). rewrite El in Ha. apply in_app_or in Ha as [Ha|[Ha|[]]].
  - rewrite Forall_forall in Fw. destruct (Fw _ Ha) as [o Fo]. congruence.
  - injection Ha as ->. exists ws. split; [rewrite El, map_app; reflexivity|]. intros u Hu. rewrite Forall_forall in Fw. exact (Fw _ (in_map OnNext _ _ Hu)).
Qed.

Lemma told_elements A B (f : A -> res (option B)) us n : In n (told f (map OnNext us)) -> exists b, n = OnNext b.
Proof.
  intros H. apply in_flat_map in H as (m & Hm & H). apply in_map_iff in Hm as (u & <- & _). destruct (f u) as [[b|]|x]; [|contradiction|contradiction].
  destruct H as [<-|[]]. now exists b.
Qed.

Lemma interval_raise B (f : nat -> res (option B)) sec per t0 h s : interval_reach f sec per t0 h s ->
  exists n, (forall j, S j < n -> exists o, f j = Ok o) /\
    (map fst (v_log s) = map OnNext (seq 0 n) \/ map fst (v_log s) = map OnNext (seq 0 n) ++ [OnCompleted] /\ forall j, j < n -> exists o, f j = Ok o) /\
    match v_phase s with
    | IStart => n = 0 /\ v_log s = []
    | ISleep _ m => n = m /\ map fst (v_log s) = map OnNext (seq 0 n) /\ forall j, j < n -> exists o, f j = Ok o
    | ICall m => n = S m /\ map fst (v_log s) = map OnNext (seq 0 n)
    | _ => True
    end.
Proof.
  induction 1 as [|h s l s' R (n & I1 & I2 & I3) W E].
  { exists 0. split; [intros j Hj; lia|]. split; [now left|]. now split. }
  destruct l as [dt|m| | |x|]; cbn [ivstep] in E.
  - destruct (0 <? dt)%Z; [|discriminate]. injection E as <-. exists n. auto.
  - discriminate.
  - unfold ivwork in E. destruct (v_phase s) as [|u m|m| | |] eqn:P; try discriminate.
    + destruct I3 as [-> L]. injection E as <-. exists 0. cbn [v_log v_phase]. rewrite L in *. repeat split; auto; intros j Hj; lia.
    + destruct I3 as (-> & L & F). destruct (u <=? v_now s)%Z; [|discriminate]. injection E as <-. exists (S m). cbn [v_log v_phase].
      assert (L' : map fst (v_log s ++ [(OnNext m, v_now s)]) = map OnNext (seq 0 (S m))) by (rewrite map_app, L, seq_S, map_app; reflexivity).
      split; [intros j Hj; apply F; lia|]. split; [now left|]. now split.
  - unfold v_calling in W. destruct (v_phase s) as [|u m|m| | |] eqn:P; try discriminate.
    + destruct I3 as [-> L]. cbn in W. destruct W as [o W].
      assert (F : forall j, j < S m -> exists o, f j = Ok o) by (intros j Hj; destruct (Nat.eq_dec j m) as [->|]; [now exists o|apply I1; lia]).
      destruct (per =? 0)%Z; injection E as <-; exists (S m); cbn [v_log v_phase].
      * split; [exact I1|]. split; [|exact I]. right. split; [now rewrite map_app, L|exact F].
      * split; [exact I1|]. split; [now left|]. now split.
    + injection E as <-. exists n. cbn [v_log v_phase]. auto.
  - unfold v_calling in W. destruct (v_phase s) as [|u m|m| | |] eqn:P; try discriminate; injection E as <-; exists n; cbn [v_log v_phase]; auto.
  - injection E as <-. exists n. cbn [v_log v_phase]. split; [exact I1|]. split; [exact I2|]. now destruct (v_phase s).
Qed.

Lemma interval_silent B (f : nat -> res (option B)) sec per t0 h s i x : interval_reach f sec per t0 h s ->
  In (OnNext i) (map fst (v_log s)) -> f i = Err x ->
  map fst (v_log s) = map OnNext (seq 0 (S i)) /\ forall j, j < i -> exists o, f j = Ok o.
Proof.
  intros R Hi Ef. destruct (interval_raise R) as (n & I1 & I2 & _).
  assert (Hn : i < n).
  { destruct I2 as [L|[L _]]; rewrite L in Hi; [|apply in_app_or in Hi as [Hi|[Hi|[]]]; [|discriminate]];
      apply in_map_iff in Hi as (j & Ej & Hj); injection Ej as ->; apply in_seq in Hj; lia. }
  assert (En : n = S i).
  { destruct (Nat.eq_dec n (S i)) as [|N]; [assumption|]. destruct (I1 i) as [o Eo]; [lia|congruence]. }
  subst n. destruct I2 as [L|[L F]].
  - split; [exact L|]. intros j Hj. apply I1. lia.
  - destruct (F i) as [o Eo]; [lia|congruence].
Qed.

Fixpoint delay_plays {A B} (f : A -> res (option B)) d (h : list (xlabel A)) (s s' : xstate A) : Prop :=
  match h with
  | [] => s = s'
  | l :: r => goes f (x_calling s) l /\ match xstep d s l with Some s1 => delay_plays f d r s1 s' | None => False end
  end.
Lemma delay_run A B (f : A -> res (option B)) d t0 : forall h2 h1 s s', delay_reach f d t0 h1 s -> delay_plays f d h2 s s' -> delay_reach f d t0 (h1 ++ h2) s'.
Proof.
  induction h2 as [|l h2 IH]; intros h1 s s' R P; cbn [delay_plays] in P; [subst; now rewrite app_nil_r|].
  destruct P as [G P]. destruct (xstep d s l) as [s1|] eqn:E; [|contradiction].
  replace (h1 ++ l :: h2) with ((h1 ++ [l]) ++ h2) by now rewrite <- app_assoc. eapply IH; [|exact P]. econstructor; eassumption.
Qed.
Fixpoint interval_plays {B} (f : nat -> res (option B)) sec per (h : list (xlabel nat)) (s s' : ivstate) : Prop :=
  match h with
  | [] => s = s'
  | l :: r => goes f (v_calling s) l /\ match ivstep sec per s l with Some s1 => interval_plays f sec per r s1 s' | None => False end
  end.
Lemma interval_run B (f : nat -> res (option B)) sec per t0 : forall h2 h1 s s', interval_reach f sec per t0 h1 s -> interval_plays f sec per h2 s s' -> interval_reach f sec per t0 (h1 ++ h2) s'.
Proof.
  induction h2 as [|l h2 IH]; intros h1 s s' R P; cbn [interval_plays] in P; [subst; now rewrite app_nil_r|].
  destruct P as [G P]. destruct (ivstep sec per s l) as [s1|] eqn:E; [|contradiction].
  replace (h1 ++ l :: h2) with ((h1 ++ [l]) ++ h2) by now rewrite <- app_assoc. eapply IH; [|exact P]. econstructor; eassumption.
Qed.

Lemma delay_dead A B (f : A -> res (option B)) d t0 h s : delay_reach f d t0 h s -> ~ In XCancel h ->
  x_cancelled s = false /\ x_phase s <> XOver /\ (forall n, x_phase s = XCall n -> exists us, map fst (x_log s) = us ++ [n]) /\
  (x_phase s = XDead -> exists us a x, map fst (x_log s) = us ++ [OnNext a] /\ f a = Err x).
Proof.
  induction 1 as [|h s l s' R IH W E]; intros Hc; [repeat split; discriminate|].
  destruct IH as (I1 & I2 & I3 & I4); [intros F; apply Hc, in_or_app; now left|].
  assert (Nl : l <> XCancel) by (intros ->; apply Hc, in_or_app; right; now left).
  destruct l as [dt|n| | |x|]; cbn in E; try congruence.
  - destruct (0 <? dt)%Z; [|discriminate]. injection E as <-. auto.
  - injection E as <-. auto.
  - unfold xwork, x_begin in E. rewrite I1 in E. destruct (x_phase s) as [|n u|n| |] eqn:Ep; try discriminate.
    + destruct (x_box s) as [|[n due] r]; [discriminate|]. destruct (0 <? due - x_now s)%Z; injection E as <-; cbn; repeat split; try congruence; try discriminate.
      intros m F. injection F as <-. rewrite map_app. cbn. eauto.
    + destruct (u <=? x_now s)%Z; [|discriminate]. injection E as <-. cbn. repeat split; try congruence; try discriminate. intros m F. injection F as <-. rewrite map_app. cbn. eauto.
  - destruct (x_phase s) as [|n u|n| |] eqn:Ep; try discriminate. injection E as <-. cbn. repeat split; try congruence; try discriminate.
  - unfold x_calling in W. destruct (x_phase s) as [|n u|n| |] eqn:Ep; try discriminate. injection E as <-. cbn. repeat split; try congruence; try discriminate. intros _.
    destruct (I3 n eq_refl) as [us El]. cbn in W. destruct n as [a|e|]; try contradiction. eauto.
Qed.

Lemma delay_lost A B (f : A -> res (option B)) d t0 h s : delay_reach f d t0 h s -> ~ In XCancel h ->
  xwork s = None -> x_calling s = None -> (forall n u, x_phase s <> XSleep n u) ->
  map fst (x_log s) = map fst (TimeSpec.arrivals t0 h) \/ exists us a x, map fst (x_log s) = us ++ [OnNext a] /\ f a = Err x.
Proof.
  intros R Hc Hw Hn Hs. destruct (delay_dead R Hc) as (_ & I2 & _ & I4). unfold x_calling in Hn. destruct (x_phase s) as [|n u|n| |] eqn:Ep; try easy.
  - left. exact (x_all (delay_xreach R) Hc Ep Hw).
  - now elim (Hs n u).
  - right. auto.
Qed.

Lemma interval_dead B (f : nat -> res (option B)) sec per t0 h s : interval_reach f sec per t0 h s ->
  (forall n, v_calling s = Some n -> exists us, map fst (v_log s) = us ++ [n]) /\
  (v_phase s = IDead -> exists us i x, map fst (v_log s) = us ++ [OnNext i] /\ f i = Err x).
Proof.
  induction 1 as [|h s l s' R IH W E]; [split; discriminate|]. destruct IH as (I3 & I4). unfold v_calling in *.
  destruct l as [dt|n| | |x|]; cbn in E; try discriminate.
  - destruct (0 <? dt)%Z; [|discriminate]. injection E as <-. auto.
  - unfold ivwork in E. destruct (v_phase s) as [|u n|n| | |] eqn:Ep; try discriminate.
    + injection E as <-. split; discriminate.
    + destruct (u <=? v_now s)%Z; [|discriminate]. injection E as <-. cbn. split; [|discriminate]. intros m F. injection F as <-. rewrite map_app. cbn. eauto.
  - destruct (v_phase s) as [|u n|n| | |] eqn:Ep; try discriminate.
    + destruct (per =? 0)%Z; injection E as <-; cbn; (split; [|discriminate]); [|discriminate]. intros m F. injection F as <-. rewrite map_app. cbn. eauto.
    + injection E as <-. split; discriminate.
  - destruct (v_phase s) as [|u n|n| | |] eqn:Ep; try discriminate; injection E as <-; cbn; (split; [discriminate|]); intros _.
    + destruct (I3 _ eq_refl) as [us El]. cbn in W. eauto.
    + destruct W.
  - injection E as <-. cbn. split; [destruct (v_phase s); discriminate|]. intros F. apply I4. destruct (v_phase s); try discriminate. reflexivity.
Qed.
