(** * Proofs about iterating a pipeline. *)
From Verif Require Export Consume LawsProofs IterateProofs.
Set Implicit Arguments.

(** ** Calls that begin and end *)
Definition begun {B} (l : list (notif (event B))) : list (notif B) :=
  flat_map (fun x => match x with OnNext (Begin n) => [n] | _ => [] end) l.
Definition ends {B} (l : list (notif (event B))) : list (notif B) :=
  flat_map (fun x => match x with OnNext (End n) => [n] | _ => [] end) l.

Lemma begun_app B (a b : list (notif (event B))) : begun (a ++ b) = begun a ++ begun b.
Proof. apply flat_map_app. Qed.
Lemma ends_app B (a b : list (notif (event B))) : ends (a ++ b) = ends a ++ ends b.
Proof. apply flat_map_app. Qed.
Lemma begun_brackets B (ns : list (notif B)) : begun (map OnNext (flat_map bracket ns)) = ns.
Proof. induction ns as [|n ns IH]; [reflexivity|]. cbn. f_equal. exact IH. Qed.
Lemma ends_brackets B (ns : list (notif B)) : ends (map OnNext (flat_map bracket ns)) = ns.
Proof. induction ns as [|n ns IH]; [reflexivity|]. cbn. f_equal. exact IH. Qed.

Lemma brackets_shape B (ns : list (notif B)) l : prefix l (map OnNext (flat_map bracket ns)) ->
  (prefix (begun l) ns /\ ends l = begun l /\ l = map OnNext (flat_map bracket (begun l))) \/
  (exists ns1 n, prefix (begun l) ns /\ l = map OnNext (flat_map bracket ns1) ++ [OnNext (Begin n)] /\ begun l = ns1 ++ [n] /\ ends l = ns1).
Proof.
  intros H. apply prefix_unmap in H as (l' & -> & H). destruct (prefix_brackets _ H) as (ns1 & rest & Hp & [[-> ->]|(n & -> & ->)]).
  - left. rewrite begun_brackets, ends_brackets. rewrite app_nil_r in Hp. auto.
  - right. exists ns1, n. rewrite map_app, begun_app, ends_app, begun_brackets, ends_brackets. cbn. rewrite app_nil_r. auto.
Qed.

Lemma returned_le A b (s : istate A) : inv b s -> tidy s -> length (i_ret s) <= length (i_calls s).
Proof.
  intros H [_ T]. destruct (inv_returned H) as (a & -> & P & _). unfold rets. rewrite map_length.
  apply prefix_length in P. rewrite T, seq_length in P. exact P.
Qed.

(** ** Histories *)
Section Joint.
  Context {B M : Type} (S : system (event B) M) (HS : Sane S).
  Hypothesis posts : forall d m, slog S (fst (ccall (sc S) d m)) = slog S d.
  Variables (total : list M) (ns : list (notif B)).
  Hypothesis total_log : finally S total (map OnNext (flat_map bracket ns)).

  Definition jinv (mid : bool) (ms : list M) (x : cst (sc S) * istate B) : Prop :=
    run (sc S) (s0 S) ms (fst x) /\ inv mid (snd x) /\ tidy (snd x) /\
    begun (slog S (fst x)) = i_calls (snd x) /\ length (ends (slog S (fst x))) <= length (i_ret (snd x)).

  Lemma log_prefix ms d : prefix ms total -> run (sc S) (s0 S) ms d -> prefix (slog S d) (map OnNext (flat_map bracket ns)).
  Proof. intros [c ->] R. apply (@sees_prefix _ _ S HS ms c); [exists d; auto|exact total_log]. Qed.

  Lemma run_snoc ms d m : run (sc S) (s0 S) ms d -> run (sc S) (s0 S) (ms ++ [m]) (fst (ccall (sc S) d m)).
  Proof. intros R. eapply run_app; [exact R|]. apply run_in, run_nil. Qed.
  Lemma run_work ms d k d' : run (sc S) (s0 S) ms d -> cstep (sc S) k d = Some d' -> run (sc S) (s0 S) ms d'.
  Proof. intros R E. rewrite <- (app_nil_r ms). eapply run_app; [exact R|]. eapply run_step; [exact E|apply run_nil]. Qed.

  Definition ins (l : list (jact M)) : list M := flat_map (fun a => match a with JIn m => [m] | _ => [] end) l.

  (** One action: what it is for the iterator. *)
  Lemma jdo_inv ms x a x' b : jinv true ms x -> jdo S x a = Some (x', b) -> prefix (ms ++ ins [a]) total ->
    jinv (negb b) (ms ++ ins [a]) x' /\
    (snd x' = snd x /\ b = false \/ exists a', in_turn (snd x) a' = true /\ do_act (snd x) a' = Some (snd x', b)).
  Proof.
    destruct x as [d s]. intros (R & V & T & Hb & He) E P. cbn [fst snd] in *. destruct a as [m|k| |]; cbn [jdo] in E.
    - destruct (0 <? i_subs s); [|discriminate]. injection E as <- <-. cbn [fst snd]. split; [|auto].
      split; [apply run_snoc, R|]. cbn [fst snd negb]. rewrite posts. auto.
    - destruct (0 <? i_subs s); [|discriminate]. destruct (cstep (sc S) k d) as [d'|] eqn:Ek; [|discriminate].
      cbn [ins flat_map] in *. rewrite app_nil_r in *.
      pose proof (run_work _ R Ek) as R'. pose proof (log_prefix P R') as L'. destruct (sn_grows HS) as [_ G]. destruct (G _ _ _ Ek) as [new Hn].
      unfold notice in E. rewrite Hn, skipn_app, skipn_all, Nat.sub_diag in E. cbn [skipn app] in E. rewrite Hn in L'.
      destruct new as [|[[n|n]|?|] [|? ?]]; try discriminate.
      + injection E as <- <-. cbn [fst snd]. split; [|auto]. split; [exact R'|]. cbn [fst snd negb]. rewrite Hn, app_nil_r. auto.
      + destruct (send_ s n) as [s' b'] eqn:Es. injection E as <- <-. cbn [fst snd].
        destruct (send_inv _ V Es) as [-> V'].
        assert (Et : length (i_calls s) = length (i_ret s)).
        { apply Nat.le_antisymm; [|exact (returned_le V T)]. rewrite <- Hb.
          destruct (brackets_shape _ L') as [(_ & Hq & _)|(ns1 & n' & _ & _ & Hq1 & Hq2)].
          - rewrite begun_app, ends_app in Hq. cbn in Hq. rewrite app_nil_r in Hq. rewrite Hq in He. rewrite app_length in He. lia.
          - rewrite begun_app in Hq1. rewrite ends_app in Hq2. cbn in Hq1, Hq2. rewrite app_nil_r in Hq2. apply app_inj_tail in Hq1 as [Hq1 _]. congruence. }
        assert (Ho : in_turn s (ASend n) = true) by (cbn; now apply Nat.eqb_eq).
        assert (Ed : do_act s (ASend n) = Some (s', true)) by (cbn; now rewrite Es).
        split; [|right; exists (ASend n); auto]. split; [exact R'|]. split; [exact V'|]. split; [exact (act_tidy _ V T Ho Ed)|].
        cbn [fst snd negb]. rewrite Hn, begun_app, ends_app. cbn [begun ends flat_map app length]. rewrite app_nil_r, Hb.
        assert (Q : i_calls s' = i_calls s ++ [n] /\ length (i_ret s) <= length (i_ret s')).
        { unfold send_, serialize, admit, pulled in Es. cbn in Es. cases; cbn; rewrite ?app_length; cbn; split; auto; lia. }
        destruct Q as [-> Q]. split; [reflexivity|lia].
      + destruct (Nat.eqb_spec (length (i_calls s)) (length (i_ret s))) as [Et|]; [|discriminate]. injection E as <- <-. cbn [fst snd].
        split; [|auto]. split; [exact R'|]. split; [exact V|]. split; [exact T|]. cbn [fst snd].
        assert (Hb' : begun (slog S d') = i_calls s) by (rewrite Hn, begun_app; cbn; now rewrite app_nil_r).
        split; [exact Hb'|]. rewrite <- Et, <- Hb'. rewrite <- Hn in L'.
        destruct (brackets_shape _ L') as [(_ & -> & _)|(ns1 & n' & _ & _ & -> & ->)]; [lia|rewrite app_length; lia].
    - cbn [ins flat_map] in *. rewrite app_nil_r in *. destruct (do_act s ANext) as [[s' b']|] eqn:Ed; [|discriminate]. injection E as <- <-. cbn [fst snd].
      assert (Ho : in_turn s ANext = true) by reflexivity.
      split; [|right; exists ANext; auto]. split; [exact R|]. split; [exact (act_inv _ V (in_turn_calm _ _ Ho) Ed)|]. split; [exact (act_tidy _ V T Ho Ed)|].
      assert (Q : i_calls s' = i_calls s /\ i_ret s' = i_ret s) by (act_cases Ed; auto). cbn [fst snd]. destruct Q as [-> ->]. auto.
    - cbn [ins flat_map] in *. rewrite app_nil_r in *. destruct (do_act s ASubscribed) as [[s' b']|] eqn:Ed; [|discriminate]. injection E as <- <-. cbn [fst snd].
      assert (Ho : in_turn s ASubscribed = true) by reflexivity.
      split; [|right; exists ASubscribed; auto]. split; [exact R|]. split; [exact (act_inv _ V (in_turn_calm _ _ Ho) Ed)|]. split; [exact (act_tidy _ V T Ho Ed)|].
      assert (Q : i_calls s' = i_calls s /\ i_ret s' = i_ret s) by (act_cases Ed; auto). cbn [fst snd]. destruct Q as [-> ->]. auto.
  Qed.

  Lemma jdo_acts_inv l : forall ms x x', jinv true ms x -> jdo_acts S x l = Some x' -> prefix (ms ++ ins l) total ->
    jinv false (ms ++ ins l) x' /\ exists al, do_acts in_turn (snd x) al = Some (snd x').
  Proof.
    induction l as [|a l IH]; intros ms x x' J E P; cbn [jdo_acts] in E.
    - injection E as <-. cbn [ins flat_map]. rewrite app_nil_r. split; [|exists []; reflexivity].
      destruct J as (R & V & J). split; [exact R|]. split; [now apply inv_weaken|exact J].
    - assert (Ei : ins (a :: l) = ins [a] ++ ins l) by (cbn; now rewrite app_nil_r). rewrite Ei, app_assoc in *.
      destruct (jdo S x a) as [[x1 b]|] eqn:Ea; [|discriminate].
      assert (P1 : prefix (ms ++ ins [a]) total) by (eapply prefix_trans; [apply prefix_app|exact P]).
      destruct (jdo_inv _ J Ea P1) as (J1 & Hd). destruct b.
      + destruct l; [|discriminate]. injection E as <-. replace (ins []) with (@nil M) by reflexivity. rewrite app_nil_r. split; [exact J1|].
        destruct Hd as [[_ F]|(a' & Ho & Ed)]; [discriminate|]. exists [a']. cbn [do_acts]. now rewrite Ho, Ed.
      + destruct (IH _ _ _ J1 E P) as (J2 & al & Hal). split; [exact J2|].
        destruct Hd as [[Es _]|(a' & Ho & Ed)]; [exists al; congruence|]. exists (a' :: al). cbn [do_acts]. now rewrite Ho, Ed.
  Qed.

  Lemma jstep_inv ms x lb x' ih : jinv false ms x -> isteps in_turn i_init ih (snd x) -> jstep S x lb = Some x' -> prefix (ms ++ inputs [lb]) total ->
    exists ih', jinv false (ms ++ inputs [lb]) x' /\ isteps in_turn i_init ih' (snd x').
  Proof.
    destruct x as [d s]. intros (R & V & T & Hb & He) Hi E P. cbn [fst snd] in *. destruct lb as [|l]; cbn [jstep] in E.
    - injection E as <-. exists (ih ++ [LArrive]). cbn [inputs flat_map fst snd]. rewrite app_nil_r.
      split; [split; [exact R|]; split; [now apply soon_inv|]; split; [exact T|]; split; [exact Hb|exact He]|].
      eapply is_snoc; [exact Hi|reflexivity].
    - destruct (i_ready s) as [|h r] eqn:Er; [discriminate|]. destruct (resume_inv V Er) as (t & b & Et & Vt). rewrite Et in E.
      assert (H0 : isteps in_turn i_init (ih ++ [LTurn []]) t).
      { eapply is_snoc; [exact Hi|]. cbn. rewrite Er, Et. now destruct b. }
      assert (Q : i_calls t = i_calls s /\ length (i_ret s) <= length (i_ret t)).
      { clear -Et. resume_cases Et; cbn; rewrite ?app_length; cbn; split; auto; lia. }
      destruct Q as [Q1 Q2]. assert (Ei : inputs [JTurn l] = ins l) by (cbn; now rewrite app_nil_r). rewrite Ei in *.
      destruct b; cbn [negb] in Vt.
      + destruct l; [|discriminate]. injection E as <-. exists (ih ++ [LTurn []]). cbn [ins flat_map fst snd]. rewrite app_nil_r.
        split; [|exact H0]. split; [exact R|]. split; [exact Vt|]. split; [exact (steps_tidy H0)|]. cbn [fst snd]. split; [congruence|lia].
      + assert (J : jinv true ms (d, t)).
        { split; [exact R|]. split; [exact Vt|]. split; [exact (steps_tidy H0)|]. cbn [fst snd]. split; [congruence|lia]. }
        destruct (jdo_acts_inv _ J E P) as (J' & al & Hal). exists (ih ++ [LTurn al]). split; [exact J'|].
        eapply is_snoc; [exact Hi|]. cbn. rewrite Er, Et. exact Hal.
  Qed.

  Lemma jrun_inv h : forall ms x x' ih, jinv false ms x -> isteps in_turn i_init ih (snd x) -> jrun S x h = Some x' -> prefix (ms ++ inputs h) total ->
    exists ih', jinv false (ms ++ inputs h) x' /\ isteps in_turn i_init ih' (snd x').
  Proof.
    induction h as [|lb h IH]; intros ms x x' ih J Hi E P; cbn [jrun] in E.
    - injection E as <-. exists ih. cbn [inputs flat_map]. rewrite app_nil_r. auto.
    - destruct (jstep S x lb) as [x1|] eqn:Ea; [|discriminate].
      assert (Ei : inputs (lb :: h) = inputs [lb] ++ inputs h) by (unfold inputs; cbn [flat_map]; now rewrite app_nil_r). rewrite Ei, app_assoc in *.
      destruct (jstep_inv _ J Hi Ea) as (ih1 & J1 & H1); [eapply prefix_trans; [apply prefix_app|exact P]|].
      exact (IH _ _ _ _ J1 H1 E P).
  Qed.
End Joint.

(** ** Pipelines *)
Lemma safe_posts Z A (pol : policy Z) (p : pipe Z A) d m : plog pol (safe p) (fst (ccall (pcomp pol (safe p)) d m)) = plog pol (safe p) d.
Proof. destruct p; reflexivity. Qed.

Lemma plog_init Z A (pol : policy Z) (p : pipe Z A) : plog pol p (pinit pol p) = [].
Proof. induction p; cbn; auto. Qed.

Lemma made_trace B (ws : list B) w : forall u : unit, made (fun u _ => (u, 0, None)) u (trace ws w) = trace ws w.
Proof. induction ws as [|v ws IH]; intros u; [now destruct w|]. cbn. f_equal. apply IH. Qed.

Lemma trace_inj B (vs ws : list B) e e' : trace vs e = trace ws e' -> vs = ws /\ e = e'.
Proof.
  revert ws. induction vs as [|v vs IH]; intros [|x ws]; cbn; intros H.
  - split; [reflexivity|]. destruct e, e'; try discriminate; [reflexivity|now injection H as ->|reflexivity].
  - destruct e; discriminate.
  - destruct e'; discriminate.
  - injection H as -> H. apply IH in H as [-> ->]. auto.
Qed.

Lemma iterated_log A B (f : operator A B) vs e junk ws w : streamwise f ->
  finally (psys well_behaved (safe (f B PEnd))) (source_calls vs e junk) (trace ws w) ->
  finally (iterated f) (source_calls vs e junk) (map OnNext (flat_map bracket (trace ws w))).
Proof.
  intros Hf H. destruct (streamwise_acts Hf) as (F & Fs). apply (Fs _ well_behaved) in H. apply subscriber in H. rewrite norm_trace0 in H.
  apply trace_inj in H as [-> ->]. unfold iterated. apply (Fs _ well_behaved).
  pose proof (@guarded_final B unit (fun u _ => (u, 0, None)) tt (trace (fst (F vs e)) (snd (F vs e)))
    (map OnNext (flat_map bracket (trace (fst (F vs e)) (snd (F vs e)))))) as K.
  apply K. now rewrite made_trace.
Qed.

Lemma reach_iterates A B (f : operator A B) ms ws w h x : streamwise f ->
  delivers (psys well_behaved (safe (f B PEnd))) ms (trace ws w) -> iterates f h x -> prefix (inputs h) ms ->
  finally (iterated f) ms (map OnNext (flat_map bracket (trace ws w))) /\
  jinv (iterated f) false (inputs h) x /\ exists ih, isteps in_turn i_init ih (snd x).
Proof.
  intros Hf D Hi P. destruct (source_calls_any ms) as (vs & e & junk & ->). apply (delivers_iff (sane_psys _ _)) in D.
  pose proof (iterated_log _ _ _ _ _ Hf D) as Hl. split; [exact Hl|].
  assert (J0 : jinv (iterated f) false [] (s0 (iterated f), i_init)).
  { split; [apply run_nil|]. split; [apply init_inv|]. split; [split; reflexivity|]. cbn [fst snd].
    assert (E : slog (iterated f) (s0 (iterated f)) = []) by apply plog_init.
    rewrite E. cbn. auto. }
  destruct (@jrun_inv _ _ (iterated f) (sane_psys _ _) (@safe_posts _ _ _ _) _ _ Hl h [] _ x [] J0 (is_nil _ _) Hi P) as (ih & J & H).
  split; [exact J|]. exists ih. exact H.
Qed.

Lemma iterates_yields A B (f : operator A B) ms ws w h x : streamwise f ->
  delivers (psys well_behaved (safe (f B PEnd))) ms (trace ws w) -> iterates f h x -> prefix (inputs h) ms ->
  exists got ends, i_res (snd x) = map Returned got ++ ends /\ prefix got ws /\
    (ends = [] \/ got = ws /\ exists e, loop_end w = Some e /\ Forall (eq (Raised e)) ends) /\
    length (i_calls (snd x)) <= S (length (i_res (snd x))).
Proof.
  intros Hf D Hi P. destruct (reach_iterates _ _ Hf D Hi P) as (Hl & (R & V & T & Hb & He) & ih & H).
  pose proof (@log_prefix _ _ (iterated f) (sane_psys _ _) _ _ Hl _ _ P R) as L. pose proof (tidy_admitted T) as Ha.
  destruct (inv_order V) as (vs & rest & errs & H1 & H2 & H3 & H4). rewrite Ha in H1.
  assert (Ec : i_calls (snd x) = map OnNext vs ++ rest).
  { clear -H1. revert H1. generalize (i_calls (snd x)) (map (@OnNext B) vs ++ rest). intros l. induction l as [|y l IH]; intros [|z r] E; try discriminate; [reflexivity|].
    cbn in E. injection E as -> E. f_equal. auto. }
  assert (Pc : prefix (map OnNext vs ++ rest) (trace ws w)).
  { rewrite <- Ec, <- Hb. destruct (brackets_shape _ L) as [(Q & _)|(? & ? & Q & _)]; exact Q. }
  exists vs, errs. split; [exact H2|]. split; [|split].
  - assert (Q : prefix (trace vs Open) (trace ws w)) by (eapply prefix_trans; [|exact Pc]; unfold trace; rewrite app_nil_r; apply prefix_app).
    clear -Q. revert ws Q. induction vs as [|v vs IH]; intros ws Q; [apply prefix_nil|]. destruct Q as [c Q]. destruct ws as [|y ws].
    + destruct w; discriminate.
    + cbn in Q. injection Q as -> Q. apply prefix_cons, IH. now exists c.
  - destruct H4 as [->|(n & -> & Ht & Hf')]; [now left|]. right.
    assert (Q : vs = ws /\ loop_end w = Some (err n)).
    { clear -Pc Ht. destruct Pc as [c Q]. revert ws Q. induction vs as [|v vs IH]; intros ws Q.
      - destruct ws as [|y ws]; cbn in Q.
        + destruct w; cbn in Q; try discriminate; injection Q as <- _; auto.
        + injection Q as <- _. discriminate.
      - destruct ws as [|y ws]; cbn in Q; [destruct w; discriminate|]. injection Q as -> Q. apply IH in Q as [-> Q]. auto. }
    destruct Q as [-> Q]. split; [reflexivity|]. exists (err n). auto.
  - rewrite Ec, H2, !app_length, !map_length. lia.
Qed.

Lemma iterates_all A B (f : operator A B) ms ws w h x : streamwise f ->
  delivers (psys well_behaved (safe (f B PEnd))) ms (trace ws w) -> iterates f h x -> inputs h = ms ->
  at_rest (iterated f) x -> i_cons (snd x) = CWaiting -> w = Open /\ i_res (snd x) = map Returned ws.
Proof.
  intros Hf D Hi Em [Hr Hq] Hc. assert (P : prefix (inputs h) ms) by (rewrite Em; apply prefix_refl).
  destruct (reach_iterates _ _ Hf D Hi P) as (Hl & (R & V & T & Hb & He) & ih & H). rewrite Em in R.
  pose proof (tidy_admitted T) as Ha.
  destruct (inv_starving V (conj Hr Hc)) as (vs & H1 & H2 & H3). rewrite Ha in H2.
  assert (Ec : i_calls (snd x) = map OnNext vs).
  { clear -H2. revert H2. generalize (i_calls (snd x)) (map (@OnNext B) vs). intros l. induction l as [|y l IH]; intros [|z r] E; try discriminate; [reflexivity|].
    cbn in E. injection E as -> E. f_equal. auto. }
  assert (El : length (i_calls (snd x)) = length (i_ret (snd x))).
  { rewrite H1. unfold rets. rewrite map_length. destruct T as [_ ->]. now rewrite seq_length. }
  assert (Q : quiet (sc (iterated f)) (fst x)).
  { intros k. destruct (cstep (sc (iterated f)) k (fst x)) as [d'|] eqn:Ek; [|reflexivity]. destruct (Hq _ _ Ek) as (n & _ & F). contradiction. }
  pose proof (@finally_unique _ _ (iterated f) (sane_psys _ _) _ _ _ Hl (ex_intro _ (fst x) (conj R (conj Q eq_refl)))) as E.
  apply (f_equal begun) in E. rewrite begun_brackets, Hb, Ec in E. assert (E' : trace ws w = trace vs Open) by (rewrite E; unfold trace; now rewrite app_nil_r).
  apply trace_inj in E' as [-> ->]. auto.
Qed.

(** The source goes on at once. *)
Lemma jdo_inputs B M (S : system (event B) M) ms : forall d (s : istate B), 0 < i_subs s -> jdo_acts S (d, s) (map JIn ms) = Some (calls (sc S) d ms, s).
Proof.
  induction ms as [|m ms IH]; intros d s H; [reflexivity|]. cbn [map jdo_acts jdo]. destruct (Nat.ltb_spec 0 (i_subs s)); [|lia].
  rewrite IH by assumption. reflexivity.
Qed.
Lemma jrun_app B M (S : system (event B) M) h1 h2 : forall x, jrun S x (h1 ++ h2) = match jrun S x h1 with Some y => jrun S y h2 | None => None end.
Proof. induction h1 as [|lb h1 IH]; intros x; [reflexivity|]. cbn [app jrun]. destruct (jstep S x lb); auto. Qed.
Lemma jturn_foreign B M (S : system (event B) M) d (s : istate B) r l : i_ready s = HForeign :: r ->
  jstep S (d, s) (JTurn l) = jdo_acts S (d, set_ready s r) l.
Proof. intros E. cbn [jstep]. rewrite E. reflexivity. Qed.
Lemma jrun_ahead B M (S : system (event B) M) d ms : exists s : istate B,
  jrun S (d, i_init) ([JArrive; JTurn [JNext; JSubscribed]; JArrive] ++ [JTurn (map JIn ms)]) = Some (calls (sc S) d ms, s) /\ i_res s = [].
Proof.
  rewrite jrun_app.
  assert (E : jrun S (d, i_init) [JArrive; JTurn [JNext; JSubscribed]; JArrive] =
    Some (d, IState [] [] [] [] false FPending FPending None [] CWaiting true 1 0 [HForeign])) by reflexivity.
  rewrite E. cbn [jrun]. rewrite (@jturn_foreign _ _ S d _ []) by reflexivity. rewrite jdo_inputs by (cbn; lia). eexists. split; reflexivity.
Qed.
Lemma iterates_ahead A B (f : operator A B) ms : exists h x, iterates f h x /\ inputs h = ms /\ i_res (snd x) = [].
Proof.
  destruct (jrun_ahead (iterated f) (s0 (iterated f)) ms) as (s & E & R).
  eexists _, _. split; [exact E|]. split; [|exact R].
  unfold inputs. cbn [flat_map app]. rewrite app_nil_r. clear. induction ms as [|m ms IH]; [reflexivity|]. cbn [map flat_map app]. now rewrite IH.
Qed.
