(** * Proofs about the methods that send later. *)
From Coq Require Import Sorted.
From Verif Require Export Later LoopProofs.
Set Implicit Arguments.
Local Open Scope Z_scope.

Section LaterProofs.
  Context {A : Type}.
  Variable top : nat -> list hinfo -> list nat -> nat.
  Hypothesis Top : heap_top top.
  Implicit Types (c : lcall A) (s : lstate A) (v : vstate).

  (** When it is to be sent. *)
  Definition due c : Z := c_time c + Z.max 0 (c_delay c).

  (** ** One call and the loop *)
  Definition soon_now v id : Prop := In id (v_ready v) /\ timer v id = None /\ cancelled (v_tab v) id = false.
  Definition callinv v c : Prop :=
    match c_stage c with
    | Starting id => soon_now v id /\ v_time v = c_time c
    | Sleeping id => timer v id = Some (due c) /\ cancelled (v_tab v) id = false /\
        ((In id (v_sched v) /\ v_time v <= due c) \/ (In id (v_ready v) /\ v_time v = due c))
    | Waking id => soon_now v id /\ v_time v = due c
    | Sent => True
    end.

  Lemma act_frame v a : wf v -> v_time (vact_do v a) = v_time v /\ incl (v_ready v) (v_ready (vact_do v a)) /\ incl (v_sched v) (v_sched (vact_do v a)) /\
    (forall id, (id < length (v_tab v))%nat -> timer (vact_do v a) id = timer v id) /\
    (forall id, (id < length (v_tab v))%nat -> a <> VCancel id -> cancelled (v_tab (vact_do v a)) id = cancelled (v_tab v) id).
  Proof.
    intros W. destruct a as [|w|i]; cbn [vact_do v_time v_ready v_sched v_tab].
    - split; [reflexivity|]. split; [apply incl_appl, incl_refl|]. split; [apply incl_refl|]. split.
      + intros id H. apply (tm_snoc (v_tab v)). exact H.
      + intros. apply cancelled_snoc.
    - split; [reflexivity|]. split; [apply incl_refl|]. split; [apply incl_appl, incl_refl|]. split.
      + intros id H. apply (tm_snoc (v_tab v)). exact H.
      + intros. apply cancelled_snoc.
    - destruct (negb (i <? length (v_tab v))%nat || cancelled (v_tab v) i) eqn:E; [split; [|split; [|split; [|split]]]; auto using incl_refl|]. cbn [v_time v_ready v_sched v_tab].
      split; [reflexivity|]. split; [apply incl_refl|]. split; [apply incl_refl|]. split.
      + intros id H. exact (tm_mark (v_tab v) i id).
      + intros id H Hn. apply orb_false_iff in E as [E _]. apply negb_false_iff, Nat.ltb_lt in E. rewrite cancelled_mark by exact E.
        destruct (Nat.eqb_spec id i) as [->|_]; [congruence|reflexivity].
  Qed.

  Lemma ready_lt v id : wf v -> In id (v_ready v) -> (id < length (v_tab v))%nat.
  Proof. intros W H. apply (wf_lt W), in_ids. auto. Qed.
  Lemma sched_lt v id : wf v -> In id (v_sched v) -> (id < length (v_tab v))%nat.
  Proof. intros W H. apply (wf_lt W), in_ids. auto. Qed.

  Lemma act_call v a c : wf v -> callinv v c -> (forall id, a = VCancel id -> pending (c_stage c) <> Some id) -> callinv (vact_do v a) c.
  Proof.
    intros W C N. destruct (act_frame a W) as (T & R & S & Ti & Ca). unfold callinv, soon_now in *. rewrite T.
    destruct (c_stage c) as [id|id|id|]; cbn [pending] in N; auto.
    - destruct C as [(C1 & C2 & C3) C4]. pose proof (@ready_lt v id W C1). rewrite Ti, Ca by (auto; intros ->; now apply (N id)). repeat split; auto.
    - destruct C as (C1 & C2 & C3). assert (L : (id < length (v_tab v))%nat) by (destruct C3 as [[C3 _]|[C3 _]]; [apply (@sched_lt v)|apply (@ready_lt v)]; auto).
      rewrite Ti, Ca by (auto; intros ->; now apply (N id)). repeat split; auto. destruct C3 as [[C3 C4]|[C3 C4]]; auto.
    - destruct C as [(C1 & C2 & C3) C4]. pose proof (@ready_lt v id W C1). rewrite Ti, Ca by (auto; intros ->; now apply (N id)). repeat split; auto.
  Qed.

  Lemma run_frame v id r v' : v_ready v = id :: r -> run_handle v [] = Some v' ->
    v_tab v' = v_tab v /\ v_time v' = v_time v /\ v_ready v' = r /\ v_sched v' = v_sched v.
  Proof.
    intros Hr E. unfold run_handle in *. rewrite Hr in *. destruct (v_todo v) as [[|n]|]; try discriminate.
    destruct (cancelled (v_tab v) id); injection E as <-; repeat split; auto.
  Qed.
  Lemma run_call v id r v' c : v_ready v = id :: r -> run_handle v [] = Some v' -> callinv v c -> pending (c_stage c) <> Some id -> callinv v' c.
  Proof.
    intros Hr E C N. destruct (@run_frame _ _ _ _ Hr E) as (T & Ti & R & S). unfold callinv, soon_now, timer in *. rewrite T, Ti, R, S. rewrite Hr in C.
    assert (G : forall i, pending (c_stage c) = Some i -> In i (id :: r) -> In i r) by (intros i Hi [->|F]; [contradiction|exact F]).
    destruct (c_stage c) as [i|i|i|]; auto; cbn [pending] in *.
    - destruct C as [(C1 & C2 & C3) C4]. repeat split; auto.
    - destruct C as (C1 & C2 & C3). repeat split; auto. destruct C3 as [C3|[C3 C4]]; auto.
    - destruct C as [(C1 & C2 & C3) C4]. repeat split; auto.
  Qed.

  Lemma begin_frame v v' : wf v -> vstep top v VBegin = Some v' ->
    v_tab v' = v_tab v /\
    (forall id, In id (v_ready v) -> In id (v_ready v') /\ v_time v' = v_time v) /\
    (forall id, In id (v_sched v) -> cancelled (v_tab v) id = false -> v_time v <= deadline (v_tab v) id ->
       (In id (v_sched v') /\ v_time v' <= deadline (v_tab v) id) \/ (In id (v_ready v') /\ v_time v' = deadline (v_tab v) id)).
  Proof.
    intros W E. unfold vstep in E. destruct (v_todo v) eqn:Et; [discriminate|]. injection E as <-. unfold begin_iteration.
    destruct (clean top v) as [l k] eqn:Ec. pose proof (wf_nodup W) as N. unfold ids in N. apply NoDup_app_iff in N as (_ & N & _). apply NoDup_app_iff in N as (_ & N & _).
    destruct (clean_spec Top _ N (wf_count W) Ec) as (C1 & C2 & C3 & C4 & _).
    destruct (v_ready v) as [|x r] eqn:Er.
    - destruct l as [|y l0] eqn:El.
      + cbn. split; [reflexivity|]. split; [intros id []|]. intros id H1 H2 H3. destruct (C3 id H1) as [[]|F]; congruence.
      + rewrite <- El in *. assert (Hne : l <> []) by (rewrite El; discriminate). clear El y l0. destruct (Top (v_iter v) (v_tab v) Hne) as [Hin Hmin].
        cbn. split; [reflexivity|]. split; [intros id []|]. intros id H1 H2 H3. destruct (C3 id H1) as [F|F]; [|congruence]. pose proof (Hmin id F) as M.
        destruct (Nat.eq_dec id (top (v_iter v) (v_tab v) l)) as [->|D]; [right; split; [auto|lia]|]. left. split; [now apply in_in_remove|lia].
    - cbn. split; [reflexivity|]. split; [auto|]. intros id H1 H2 H3. left. split; [|exact H3]. destruct (C3 id H1); [assumption|congruence].
  Qed.
  Lemma begin_call v v' c : wf v -> vstep top v VBegin = Some v' -> callinv v c -> callinv v' c.
  Proof.
    intros W E C. destruct (begin_frame W E) as (T & R & S). unfold callinv, soon_now, timer in *. rewrite T.
    destruct (c_stage c) as [i|i|i|]; auto.
    - destruct C as [(C1 & C2 & C3) C4]. destruct (R i C1) as [R1 ->]. auto.
    - destruct C as (C1 & C2 & C3). repeat split; auto. destruct C3 as [[C3 C4]|[C3 C4]].
      + pose proof (tm_deadline (v_tab v) i C1) as D. rewrite <- D. apply S; auto. lia.
      + destruct (R i C3) as [R1 ->]. auto.
    - destruct C as [(C1 & C2 & C3) C4]. destruct (R i C1) as [R1 ->]. auto.
  Qed.
  Lemma end_call v v' x c : x = VEnd \/ x = VAbort -> vstep top v x = Some v' -> callinv v c -> callinv v' c.
  Proof.
    intros [->| ->] E C; unfold vstep in E; destruct (v_todo v) as [[|n]|]; try discriminate; injection E as <-; exact C.
  Qed.

  (** ** All calls *)
  Lemma waiting_some id l j : waiting id l = Some j -> exists c, nth_error l j = Some c /\ pending (c_stage c) = Some id.
  Proof.
    revert j. induction l as [|c l IH]; cbn; intros j H; [discriminate|]. unfold waits in H. destruct (pending (c_stage c)) as [i|] eqn:Ep.
    - destruct (Nat.eqb_spec i id) as [->|D]; [injection H as <-; exists c; auto|]. destruct (waiting id l) as [k|]; [|discriminate]. injection H as <-. exact (IH k eq_refl).
    - destruct (waiting id l) as [k|]; [|discriminate]. injection H as <-. exact (IH k eq_refl).
  Qed.
  Lemma waiting_none id l : waiting id l = None -> forall c, In c l -> pending (c_stage c) <> Some id.
  Proof.
    induction l as [|c l IH]; cbn; intros H d; [intros []|]. unfold waits in H. destruct (pending (c_stage c)) as [i|] eqn:Ep.
    - destruct (Nat.eqb_spec i id) as [->|D]; [discriminate|]. destruct (waiting id l); [discriminate|]. intros [<-|F]; [congruence|auto].
    - destruct (waiting id l); [discriminate|]. intros [<-|F]; [congruence|auto].
  Qed.
  Definition with_stage c g : lcall A := LCall (c_time c) (c_delay c) (c_scheduled c) (c_notif c) g.
  Lemma nth_put j g l i : nth_error (put_stage j g l) i = if (i =? j)%nat then option_map (fun c => with_stage c g) (nth_error l i) else nth_error l i.
  Proof.
    revert j i. induction l as [|c l IH]; intros [|j] [|i]; cbn; auto; now destruct (i =? j)%nat.
  Qed.
  Lemma put_length j g (l : list (lcall A)) : length (put_stage j g l) = length l.
  Proof. revert j. induction l as [|c l IH]; intros [|j]; cbn; auto. Qed.

  Record linv s : Prop := Linv {
    li_wf : wf (l_loop s);
    li_call : forall j c, nth_error (l_calls s) j = Some c -> callinv (l_loop s) c;
    li_one : forall i j c d id, nth_error (l_calls s) i = Some c -> nth_error (l_calls s) j = Some d ->
               pending (c_stage c) = Some id -> pending (c_stage d) = Some id -> i = j;
    li_sent : forall t j, In (t, j) (l_sent s) -> exists c, nth_error (l_calls s) j = Some c /\ c_stage c = Sent /\ t = due c /\ t <= v_time (l_loop s);
    li_done : forall j c, nth_error (l_calls s) j = Some c -> c_stage c = Sent -> In j (map snd (l_sent s));
    li_once : NoDup (map snd (l_sent s));
    li_sorted : StronglySorted Z.le (map fst (l_sent s))
  }.

  Lemma linv_init : linv l_init.
  Proof. constructor; cbn; try (exact wf_init); try (intros [|] ?; discriminate); try (intros [|] [|]; discriminate); try (intros ? ? []); constructor. Qed.

  Lemma pending_lt v c id : wf v -> callinv v c -> pending (c_stage c) = Some id -> (id < length (v_tab v))%nat.
  Proof.
    intros W C E. unfold callinv, soon_now in C. destruct (c_stage c) as [i|i|i|]; cbn in E; try discriminate; injection E as ->.
    - apply ready_lt; tauto.
    - destruct C as (_ & _ & [[C _]|[C _]]); [now apply sched_lt|now apply ready_lt].
    - apply ready_lt; tauto.
  Qed.

  (** Another thing is done that has nothing to do with the calls. *)
  Lemma linv_act s a tasks fin : linv s -> (forall id, a = VCancel id -> waiting id (l_calls s) = None) ->
    linv (LState (vact_do (l_loop s) a) (l_calls s) (l_sent s) tasks fin).
  Proof.
    intros [W C O Se D On So] N. constructor; cbn [l_loop l_calls l_sent]; auto.
    - now apply act_wf.
    - intros j c H. apply act_call; [exact W|eauto|]. intros id ->. refine (@waiting_none _ _ (N id eq_refl) c _). apply nth_error_In in H. exact H.
    - intros t j H. destruct (Se _ _ H) as (c & F). exists c. destruct (act_frame a W) as (-> & _). exact F.
  Qed.

  (** The stage of a call made, or changed, together with the new handle. *)
  Lemma sleep_call v t0 d b n : wf v -> v_time v = t0 ->
    callinv (vact_do v (fst (sleep v d))) (LCall t0 d b n (snd (sleep v d))).
  Proof.
    intros W E. unfold sleep, callinv, due. destruct (Z.leb_spec d 0) as [H|H]; cbn.
    - unfold soon_now, timer. cbn. rewrite nth_error_app2, Nat.sub_diag by lia. cbn. repeat split; try lia.
      + apply in_app_iff. right. now left.
      + unfold cancelled. rewrite nth_error_app2, Nat.sub_diag by lia. reflexivity.
    - unfold timer. cbn. rewrite nth_error_app2, Nat.sub_diag by lia. cbn. repeat split; try lia.
      + f_equal. lia.
      + unfold cancelled. rewrite nth_error_app2, Nat.sub_diag by lia. reflexivity.
      + left. split; [apply in_app_iff; right; now left|lia].
  Qed.
  Lemma soon_call v : wf v -> soon_now (vact_do v VSoon) (length (v_tab v)).
  Proof.
    intros W. unfold soon_now, timer. cbn. rewrite nth_error_app2, Nat.sub_diag by lia. repeat split.
    - apply in_app_iff. right. now left.
    - unfold cancelled. rewrite nth_error_app2, Nat.sub_diag by lia. reflexivity.
  Qed.
  Lemma sleep_pending v d : pending (snd (sleep v d)) = Some (length (v_tab v)).
  Proof. unfold sleep. now destruct (d <=? 0). Qed.
  Lemma sleep_act v d id : fst (sleep v d) <> VCancel id.
  Proof. unfold sleep. now destruct (d <=? 0). Qed.
  Lemma sleep_sent v d : snd (sleep v d) <> Sent.
  Proof. unfold sleep. now destruct (d <=? 0). Qed.

  Lemma linv_new s a c tasks fin : linv s -> (forall id, a <> VCancel id) -> callinv (vact_do (l_loop s) a) c -> pending (c_stage c) = Some (length (v_tab (l_loop s))) ->
    linv (LState (vact_do (l_loop s) a) (l_calls s ++ [c]) (l_sent s) tasks fin).
  Proof.
    intros L Na Cc Pc. pose proof (linv_act tasks fin L (a := a)) as [W C O Se D On So]; [intros id ->; now elim (Na id)|].
    destruct L as [W0 C0 _ _ _ _ _]. cbn [l_loop l_calls l_sent] in *.
    assert (Nth : forall j d, nth_error (l_calls s ++ [c]) j = Some d -> nth_error (l_calls s) j = Some d \/ (j = length (l_calls s) /\ d = c)).
    { intros j d H. destruct (Nat.lt_ge_cases j (length (l_calls s))) as [F|F]; [rewrite nth_error_app1 in H by exact F; auto|].
      rewrite nth_error_app2 in H by exact F. destruct (j - length (l_calls s))%nat as [|k] eqn:Ek; [injection H as <-; right; split; [lia|reflexivity]|]. cbn in H. now destruct k. }
    constructor; cbn [l_loop l_calls l_sent]; auto.
    - intros j d H. apply Nth in H as [H|[_ ->]]; eauto.
    - intros i j d e id Hi Hj Pi Pj. apply Nth in Hi as [Hi|[-> ->]], Hj as [Hj|[-> ->]]; [eauto| | |reflexivity].
      + rewrite Pc in Pj. injection Pj as <-. pose proof (@pending_lt _ _ _ W0 (C0 _ _ Hi) Pi). lia.
      + rewrite Pc in Pi. injection Pi as <-. pose proof (@pending_lt _ _ _ W0 (C0 _ _ Hj) Pj). lia.
    - intros t j H. destruct (Se _ _ H) as (d & F & G). exists d. split; [|exact G]. rewrite nth_error_app1; [exact F|]. apply nth_error_Some. congruence.
    - intros j d H Sd. apply Nth in H as [H|[_ ->]]; [eauto|]. rewrite Sd in Pc. discriminate.
  Qed.

  Lemma lact_inv s a s' : linv s -> lact_do s a = Some s' -> linv s'.
  Proof.
    intros L E. destruct a as [[] d n|[|w|id]|j r]; cbn [lact_do] in E.
    - injection E as <-. refine (@linv_new s VSoon _ _ _ L _ _ _); [discriminate| |reflexivity]. unfold callinv. cbn [c_stage c_time]. split; [apply soon_call, (li_wf L)|reflexivity].
    - injection E as <-. refine (@linv_new s _ _ _ _ L _ _ _).
      + intros id. apply sleep_act.
      + now apply sleep_call; [apply (li_wf L)|].
      + apply sleep_pending.
    - injection E as <-. refine (@linv_act s VSoon _ _ L _). discriminate.
    - injection E as <-. refine (@linv_act s (VAt w) _ _ L _). discriminate.
    - destruct (waiting id (l_calls s)) eqn:Ew; [discriminate|]. injection E as <-. refine (@linv_act s (VCancel id) _ _ L _). intros i Hi. now injection Hi as <-.
    - destruct (_ && _); [|discriminate]. injection E as <-. destruct L. constructor; auto.
  Qed.
  Lemma lacts_inv l : forall s s', linv s -> lacts_do s l = Some s' -> linv s'.
  Proof.
    induction l as [|a l IH]; intros s s' L E; cbn in E; [now injection E as <-|]. destruct (lact_do s a) as [s1|] eqn:E1; [|discriminate].
    exact (IH _ _ (lact_inv _ L E1) E).
  Qed.

  (** A call goes to another stage: after the handle [id] it waited for has been
      taken, [a] is done (if anything). *)
  Lemma linv_move s id r v' j c g v2 : linv s -> v_ready (l_loop s) = id :: r -> run_handle (l_loop s) [] = Some v' ->
    nth_error (l_calls s) j = Some c -> pending (c_stage c) = Some id ->
    (v2 = v' /\ g = Sent \/ exists a, v2 = vact_do v' a /\ (forall i, a <> VCancel i) /\ pending g = Some (length (v_tab v'))) ->
    callinv v2 (with_stage c g) -> (g = Sent -> v_time v' = due c) ->
    linv (LState v2 (put_stage j g (l_calls s)) (match g with Sent => l_sent s ++ [(v_time v', j)] | _ => l_sent s end) (l_tasks s) (l_fin s)).
  Proof.
    intros [W C O Se D On So] Hr E Hj Pc Hv Cg Hd. destruct (@run_frame _ _ _ _ Hr E) as (T & Ti & R & S). pose proof (@run_wf _ _ _ W E) as W'.
    assert (Cj : forall i d, nth_error (l_calls s) i = Some d -> i <> j -> callinv v' d /\ pending (c_stage d) <> Some id).
    { intros i d Hi Hn. assert (N : pending (c_stage d) <> Some id) by (intros F; apply Hn; eauto). split; [|exact N]. eapply run_call; eauto. }
    assert (Tv : v_time v2 = v_time v') by (destruct Hv as [[-> _]|(a & -> & _)]; [reflexivity|apply (act_frame a W')]).
    assert (Nth : forall i d, nth_error (put_stage j g (l_calls s)) i = Some d -> (i = j /\ d = with_stage c g) \/ (i <> j /\ nth_error (l_calls s) i = Some d)).
    { intros i d H. rewrite nth_put in H. destruct (Nat.eqb_spec i j) as [->|Hn]; [rewrite Hj in H; cbn in H; injection H as <-; auto|auto]. }
    assert (Fr : forall i d k, nth_error (l_calls s) i = Some d -> i <> j -> pending (c_stage d) = Some k -> pending g = Some k -> False).
    { intros i d k Hi Hn P1 P2. destruct Hv as [[_ ->]|(a & _ & _ & P3)]; [discriminate|]. rewrite P2 in P3. injection P3 as ->.
      destruct (Cj _ _ Hi Hn) as [G _]. pose proof (@pending_lt _ _ _ W' G P1). lia. }
    constructor; cbn [l_loop l_calls l_sent].
    - destruct Hv as [[-> _]|(a & -> & _)]; [exact W'|now apply act_wf].
    - intros i d H. apply Nth in H as [[_ ->]|[Hn H]]; [exact Cg|]. destruct (Cj _ _ H Hn) as [G _]. destruct Hv as [[-> _]|(a & -> & Na & _)]; [exact G|].
      apply act_call; [exact W'|exact G|]. intros k ->. now elim (Na k).
    - intros i k d e m Hi Hk Pi Pk. apply Nth in Hi as [[-> ->]|[Ni Hi]], Hk as [[-> ->]|[Nk Hk]]; [reflexivity| | |eauto]; cbn in *; exfalso; eauto.
    - intros t i H. rewrite Tv.
      assert (Old : In (t, i) (l_sent s) -> exists d, nth_error (put_stage j g (l_calls s)) i = Some d /\ c_stage d = Sent /\ t = due d /\ t <= v_time v').
      { intros F. destruct (Se _ _ F) as (d & F1 & F2 & F3 & F4). exists d. rewrite nth_put. destruct (Nat.eqb_spec i j) as [->|Hn]; [|rewrite Ti; auto].
        rewrite Hj in F1. injection F1 as <-. rewrite F2 in Pc. discriminate. }
      destruct g; try (exact (Old H)). apply in_app_iff in H as [H|[H|[]]]; [exact (Old H)|]. injection H as <- <-. exists (with_stage c Sent).
      rewrite nth_put, Nat.eqb_refl, Hj. repeat split; try lia. rewrite (Hd eq_refl). reflexivity.
    - intros i d H Sd. apply Nth in H as [[-> ->]|[Hn H]].
      + cbn in Sd. subst g. rewrite map_app, in_app_iff. right. now left.
      + specialize (D _ _ H Sd). destruct g; auto. rewrite map_app, in_app_iff. auto.
    - destruct g; auto. rewrite map_app. cbn. apply NoDup_app_iff. split; [exact On|]. split; [repeat constructor; auto|]. intros x Hx [<-|[]].
      apply in_map_iff in Hx as ([t i] & Ei & Hx). cbn in Ei. subst i. destruct (Se _ _ Hx) as (d & F1 & F2 & _). rewrite Hj in F1. injection F1 as <-. rewrite F2 in Pc. discriminate.
    - destruct g; auto. rewrite map_app. cbn. apply sorted_snoc; [exact So|]. apply Forall_forall. intros x Hx. apply in_map_iff in Hx as ([t i] & <- & Hx).
      destruct (Se _ _ Hx) as (_ & _ & _ & _ & F). cbn. lia.
  Qed.

  Lemma lrun_inv s acts s' : linv s -> lrun s acts = Some s' -> linv s'.
  Proof.
    intros L E. unfold lrun in E. destruct (v_ready (l_loop s)) as [|id r] eqn:Er; [discriminate|].
    destruct (run_handle (l_loop s) []) as [v|] eqn:Ev; [|discriminate]. pose proof (@run_wf _ _ _ (li_wf L) Ev) as W'. destruct (@run_frame _ _ _ _ Er Ev) as (T & Ti & R & S).
    destruct (waiting id (l_calls s)) as [j|] eqn:Ew.
    - destruct (@waiting_some _ _ _ Ew) as (c & Hc & Pc). rewrite Hc in E. pose proof (li_call L _ Hc) as Ci. destruct (c_stage c) as [i|i|i|] eqn:Ec; cbn in Pc; try discriminate; injection Pc as ->.
      + destruct acts; [|discriminate]. injection E as <-. unfold callinv in Ci. rewrite Ec in Ci. destruct Ci as [_ Ct].
        pose proof (@linv_move s id r v j c (snd (sleep v (c_delay c))) (vact_do v (fst (sleep v (c_delay c)))) L Er Ev Hc) as M.
        destruct (snd (sleep v (c_delay c))) eqn:Es; try (now elim (sleep_sent v (c_delay c)));
          (apply M; [now rewrite Ec|right; eexists; split; [reflexivity|]; split; [intros k; apply sleep_act|rewrite <- Es; apply sleep_pending]|rewrite <- Es; apply sleep_call; [exact W'|congruence]|discriminate]).
      + destruct acts; [|discriminate]. injection E as <-. unfold callinv in Ci. rewrite Ec in Ci. destruct Ci as (C1 & C2 & C3).
        apply (@linv_move s id r v j c (Waking (length (v_tab v))) (vact_do v VSoon) L Er Ev Hc); [now rewrite Ec|right; exists VSoon; repeat split; discriminate| |discriminate].
        unfold callinv. cbn [with_stage c_stage]. split; [now apply soon_call|]. cbn [vact_do v_time]. rewrite Ti. change (due (with_stage c (Waking (length (v_tab v))))) with (due c).
        destruct C3 as [[C3 _]|[_ C3]]; [|exact C3]. exfalso.
        pose proof (wf_nodup (li_wf L)) as N. unfold ids in N. apply NoDup_app_iff in N as (_ & N & _). apply NoDup_app_iff in N as (_ & _ & N). apply (N id); [rewrite Er; now left|exact C3].
      + unfold callinv in Ci. rewrite Ec in Ci. destruct Ci as [_ Ct]. refine (lacts_inv _ _ E).
        apply (@linv_move s id r v j c Sent v L Er Ev Hc); [now rewrite Ec|auto|exact I|]. intros _. congruence.
    - assert (Ls : linv (LState v (l_calls s) (l_sent s) (l_tasks s) (l_fin s))).
      { destruct L as [W C O Se D On So]. constructor; cbn [l_loop l_calls l_sent]; auto.
        - intros k c H. eapply run_call; eauto. refine (@waiting_none _ _ Ew c _). apply nth_error_In in H. exact H.
        - intros t k H. rewrite Ti. eauto. }
      destruct (cancelled (v_tab (l_loop s)) id); [destruct acts; [|discriminate]; now injection E as <-|]. exact (lacts_inv _ Ls E).
  Qed.

  Lemma lstep_inv s x s' : linv s -> lstep top s x = Some s' -> linv s'.
  Proof.
    intros L E. destruct x as [a| |acts| |]; cbn [lstep] in E.
    - destruct (v_todo (l_loop s)); [discriminate|]. exact (lact_inv _ L E).
    - unfold lplain in E. destruct (vstep top (l_loop s) VBegin) as [v|] eqn:Ev; [|discriminate]. injection E as <-. destruct L as [W C O Se D On So].
      constructor; cbn [l_loop l_calls l_sent]; auto.
      + exact (step_wf Top _ W Ev).
      + intros j c H. eapply begin_call; eauto.
      + intros t j H. destruct (Se _ _ H) as (c & F1 & F2 & F3 & F4). exists c. pose proof (step_time _ _ _ Ev). repeat split; auto. lia.
    - exact (lrun_inv _ L E).
    - unfold lplain in E. destruct (vstep top (l_loop s) VEnd) as [v|] eqn:Ev; [|discriminate]. injection E as <-. destruct L as [W C O Se D On So].
      constructor; cbn [l_loop l_calls l_sent]; auto.
      + exact (step_wf Top _ W Ev).
      + intros j c H. apply (@end_call (l_loop s) v VEnd); eauto.
      + intros t j H. destruct (Se _ _ H) as (c & F1 & F2 & F3 & F4). exists c. pose proof (step_time _ _ _ Ev). repeat split; auto. lia.
    - unfold lplain in E. destruct (vstep top (l_loop s) VAbort) as [v|] eqn:Ev; [|discriminate]. injection E as <-. destruct L as [W C O Se D On So].
      constructor; cbn [l_loop l_calls l_sent]; auto.
      + exact (step_wf Top _ W Ev).
      + intros j c H. apply (@end_call (l_loop s) v VAbort); eauto.
      + intros t j H. destruct (Se _ _ H) as (c & F1 & F2 & F3 & F4). exists c. pose proof (step_time _ _ _ Ev). repeat split; auto. lia.
  Qed.

  Lemma reach_linv h s : lsteps top l_init h s -> linv s.
  Proof. intros H. remember l_init as s0 eqn:E0. induction H as [s0|s0 h x s1 s2 H IH E]; subst; [exact linv_init|]. exact (lstep_inv _ (IH eq_refl) E). Qed.

  Lemma all_sent s j : linv s -> drained (l_loop s) -> (j < length (l_calls s))%nat -> In j (map snd (l_sent s)).
  Proof.
    intros L (_ & Hr & Hs) Hj. destruct (nth_error (l_calls s) j) as [c|] eqn:Ec; [|apply nth_error_None in Ec; lia].
    apply (li_done L _ Ec). pose proof (li_call L _ Ec) as C. unfold callinv, soon_now in C. rewrite Hr, Hs in C.
    destruct (c_stage c); cbn in C; [tauto|tauto|tauto|reflexivity].
  Qed.

  (** ** Everything is sent in the end *)
  Definition ex (c : lcall A) : nat := match c_stage c with Starting _ => 2 | Sleeping _ => 1 | _ => 0 end.
  Definition extra (l : list (lcall A)) : nat := list_sum (map ex l).
  Definition msr s : nat := (length (v_ready (l_loop s)) + length (v_sched (l_loop s)) + extra (l_calls s))%nat.

  Lemma extra_put l : forall j g c, nth_error l j = Some c -> (extra (put_stage j g l) + ex c = extra l + ex (with_stage c g))%nat.
  Proof.
    assert (X : forall d l, extra (d :: l) = (ex d + extra l)%nat) by reflexivity.
    induction l as [|d l IH]; intros [|j] g c H; cbn in H; try discriminate; cbn [put_stage]; rewrite !X.
    - injection H as ->. change (LCall (c_time c) (c_delay c) (c_scheduled c) (c_notif c) g) with (with_stage c g). lia.
    - specialize (IH j g c H). lia.
  Qed.

  Lemma lsteps_head s x s1 h s' : lstep top s x = Some s1 -> lsteps top s1 h s' -> lsteps top s (x :: h) s'.
  Proof.
    intros E H. remember s1 as t eqn:Et. induction H as [t|t h y s2 s3 H IH E']; subst.
    - apply (@ls_snoc A top s [] x s s1); [constructor|exact E].
    - apply (@ls_snoc A top s (x :: h) y s2 s3); [exact (IH eq_refl E)|exact E'].
  Qed.
  Lemma lsteps_app s h1 s1 h2 s2 : lsteps top s h1 s1 -> lsteps top s1 h2 s2 -> lsteps top s (h1 ++ h2) s2.
  Proof.
    intros H G. induction G as [|t h y u u' G IH E]; [now rewrite app_nil_r|]. rewrite app_assoc. econstructor; eauto.
  Qed.

  Lemma run_more s n : linv s -> v_todo (l_loop s) = Some (S n) -> exists s', lrun s [] = Some s' /\ v_todo (l_loop s') = Some n /\ (msr s' < msr s)%nat.
  Proof.
    intros L Ht. pose proof (wf_todo (li_wf L) Ht) as Hl. destruct (v_ready (l_loop s)) as [|id r] eqn:Er; [cbn in Hl; lia|].
    assert (E : exists v, run_handle (l_loop s) [] = Some v /\ v_todo v = Some n).
    { unfold run_handle. rewrite Ht, Er. destruct (cancelled (v_tab (l_loop s)) id); eexists; split; reflexivity. }
    destruct E as (v & Ev & Tv). destruct (@run_frame _ _ _ _ Er Ev) as (T & Ti & R & S). unfold lrun. rewrite Er, Ev.
    destruct (waiting id (l_calls s)) as [j|] eqn:Ew.
    - destruct (@waiting_some _ _ _ Ew) as (c & Hc & Pc). rewrite Hc. destruct (c_stage c) as [i|i|i|] eqn:Ec; cbn in Pc; try discriminate.
      + eexists. split; [reflexivity|]. unfold msr. cbn [l_loop l_calls]. pose proof (@extra_put _ j (snd (sleep v (c_delay c))) _ Hc) as X. unfold ex in X at 1. rewrite Ec in X.
        unfold sleep in *. destruct (c_delay c <=? 0); cbn in *; rewrite R, S, Er; rewrite ?app_length; cbn; split; try exact Tv; lia.
      + eexists. split; [reflexivity|]. unfold msr. cbn [l_loop l_calls]. pose proof (@extra_put _ j (Waking (length (v_tab v))) _ Hc) as X. unfold ex in X at 1. rewrite Ec in X.
        cbn in *. rewrite R, S, Er, app_length. cbn. split; [exact Tv|lia].
      + eexists. split; [reflexivity|]. unfold msr. cbn [l_loop l_calls]. pose proof (@extra_put _ j Sent _ Hc) as X. unfold ex in X at 1. rewrite Ec in X.
        cbn in *. rewrite R, S, Er. cbn. split; [exact Tv|lia].
    - set (t := LState v (l_calls s) (l_sent s) (l_tasks s) (l_fin s)). exists t. split; [cbn [lacts_do]; now destruct (cancelled (v_tab (l_loop s)) id)|].
      unfold msr, t. cbn [l_loop l_calls]. rewrite R, S, Er. cbn. split; [exact Tv|lia].
  Qed.

  Lemma end_more s : linv s -> v_todo (l_loop s) = Some O -> exists s', lstep top s LEnd = Some s' /\ v_todo (l_loop s') = None /\ v_ready (l_loop s') = v_ready (l_loop s) /\ v_sched (l_loop s') = v_sched (l_loop s) /\ l_calls s' = l_calls s.
  Proof. intros L Ht. cbn. unfold lplain, vstep. rewrite Ht. eexists. split; [reflexivity|]. cbn. auto. Qed.

  Lemma finish_more n : forall s, linv s -> v_todo (l_loop s) = Some n ->
    exists h s', Forall on_its_own h /\ lsteps top s h s' /\ linv s' /\ v_todo (l_loop s') = None /\ (msr s' + n <= msr s)%nat.
  Proof.
    induction n as [|n IH]; intros s L Ht.
    - destruct (end_more L Ht) as (s' & E & H1 & H2 & H3 & H4). exists [LEnd], s'. split; [repeat constructor; now right; right|]. split; [apply (lsteps_head _ _ E); constructor|].
      split; [exact (lstep_inv _ L E)|]. split; [exact H1|]. unfold msr. rewrite H2, H3, H4. lia.
    - destruct (run_more L Ht) as (s1 & E & H1 & H2). destruct (IH s1 (lrun_inv _ L E) H1) as (h & s' & G1 & G2 & G3 & G4 & G5).
      exists (LRun [] :: h), s'. split; [constructor; [now right; left|exact G1]|]. split; [exact (@lsteps_head s (LRun []) s1 h s' E G2)|]. split; [exact G3|]. split; [exact G4|lia].
  Qed.

  Lemma idle_more k : forall s, linv s -> v_todo (l_loop s) = None -> (msr s <= k)%nat -> exists h s', Forall on_its_own h /\ lsteps top s h s' /\ drained (l_loop s').
  Proof.
    induction k as [|k IH]; intros s L Ht Hk.
    - exists [], s. split; [constructor|]. split; [constructor|]. unfold msr in Hk. split; [exact Ht|]. destruct (v_ready (l_loop s)), (v_sched (l_loop s)); cbn in Hk; try (exfalso; lia). auto.
    - destruct (begin_shape Top (li_wf L) Ht) as (v & E & Ht1 & Le & Z0).
      assert (E1 : lstep top s LBegin = Some (LState v (l_calls s) (l_sent s) (l_tasks s) (l_fin s))) by (cbn [lstep]; unfold lplain; now rewrite E).
      set (s1 := LState v (l_calls s) (l_sent s) (l_tasks s) (l_fin s)) in *. pose proof (lstep_inv _ L E1) as L1.
      assert (M1 : (msr s1 <= msr s)%nat) by (unfold msr, s1; cbn [l_loop l_calls]; lia). destruct (v_ready v) as [|x r] eqn:Er.
      + destruct (end_more L1) as (s2 & E2 & H1 & H2 & H3 & _); [exact Ht1|]. exists [LBegin; LEnd], s2. split; [constructor; [now left|]; constructor; [now right; right|constructor]|].
        split; [apply (lsteps_head _ _ E1), (lsteps_head _ _ E2); constructor|]. destruct (Z0 eq_refl) as [_ Z1]. split; [exact H1|]. rewrite H2, H3. cbn. auto.
      + destruct (finish_more L1 Ht1) as (h & s2 & G1 & G2 & G3 & G4 & G5). cbn [length] in G5. destruct (IH s2 G3 G4 ltac:(lia)) as (h' & s' & K1 & K2 & K3).
        exists (LBegin :: h ++ h'), s'. split; [constructor; [now left|now apply Forall_app]|]. split; [|exact K3]. apply (lsteps_head _ _ E1). exact (lsteps_app G2 K2).
  Qed.
  Lemma drains_more s : linv s -> exists h s', Forall on_its_own h /\ lsteps top s h s' /\ drained (l_loop s').
  Proof.
    intros L. destruct (v_todo (l_loop s)) as [n|] eqn:Et; [|exact (idle_more L Et (le_n _))].
    destruct (finish_more L Et) as (h & s1 & H1 & H2 & H3 & H4 & _). destruct (idle_more H3 H4 (le_n _)) as (h' & s' & G1 & G2 & G3).
    exists (h ++ h'), s'. split; [now apply Forall_app|]. split; [exact (lsteps_app H2 G2)|exact G3].
  Qed.

  (** ** The record of a call *)
  Definition same_call c c' : Prop := c_time c' = c_time c /\ c_delay c' = c_delay c /\ c_scheduled c' = c_scheduled c /\ c_notif c' = c_notif c.
  Definition grows s s' : Prop := v_time (l_loop s) = v_time (l_loop s') /\ (length (l_calls s) <= length (l_calls s'))%nat /\
    (exists sent, l_sent s' = l_sent s ++ sent) /\
    (forall j c, nth_error (l_calls s) j = Some c -> exists c', nth_error (l_calls s') j = Some c' /\ same_call c c') /\
    (forall j c', nth_error (l_calls s') j = Some c' -> (j < length (l_calls s))%nat \/ c_time c' = v_time (l_loop s')).
  Lemma same_refl c : same_call c c.
  Proof. repeat split. Qed.
  Lemma grows_keep s v sent tasks fin : v_time v = v_time (l_loop s) -> grows s (LState v (l_calls s) (l_sent s ++ sent) tasks fin).
  Proof.
    intros H. split; [now symmetry|]. split; [cbn; lia|]. split; [cbn; eauto|]. cbn. split; [eauto using same_refl|]. intros j c' Hj. left. apply nth_error_Some. congruence.
  Qed.
  Lemma grows_trans s1 s2 s3 : grows s1 s2 -> grows s2 s3 -> grows s1 s3.
  Proof.
    intros (A1 & A2 & (x & A3) & A4 & A5) (B1 & B2 & (y & B3) & B4 & B5). split; [congruence|]. split; [lia|]. split; [rewrite B3, A3, <- app_assoc; eauto|]. split.
    - intros j c H. destruct (A4 _ _ H) as (d & H1 & H2). destruct (B4 _ _ H1) as (e & H3 & H4). exists e. split; [exact H3|]. unfold same_call in *. intuition congruence.
    - intros j c H. destruct (B5 _ _ H) as [F|F]; [|auto]. destruct (nth_error (l_calls s2) j) as [d|] eqn:Ed; [|apply nth_error_None in Ed; lia].
      destruct (A5 _ _ Ed) as [G|G]; [auto|]. right. destruct (B4 _ _ Ed) as (e & E1 & E2). rewrite H in E1. injection E1 as <-. destruct E2 as (E2 & _). congruence.
  Qed.
  Lemma act_time v a : v_time (vact_do v a) = v_time v.
  Proof. destruct a; cbn; auto. now destruct (_ || _). Qed.
  Lemma grows_new s v c tasks fin : v_time v = v_time (l_loop s) -> c_time c = v_time (l_loop s) -> grows s (LState v (l_calls s ++ [c]) (l_sent s) tasks fin).
  Proof.
    intros H1 H2. split; [now symmetry|]. split; [cbn; rewrite app_length; lia|]. split; [exists []; cbn; now rewrite app_nil_r|]. cbn. split.
    - intros j d Hj. exists d. split; [|apply same_refl]. rewrite nth_error_app1; [exact Hj|]. apply nth_error_Some. congruence.
    - intros j d Hj. destruct (Nat.lt_ge_cases j (length (l_calls s))) as [F|F]; [auto|]. right. rewrite nth_error_app2 in Hj by exact F.
      destruct (j - length (l_calls s))%nat as [|k]; [injection Hj as <-; congruence|]. cbn in Hj. now destruct k.
  Qed.
  Lemma act_grows s a s' : lact_do s a = Some s' -> grows s s'.
  Proof.
    intros E. assert (G0 : forall v tasks fin, v_time v = v_time (l_loop s) -> grows s (LState v (l_calls s) (l_sent s) tasks fin))
      by (intros v tk fin H; pose proof (@grows_keep s v [] tk fin H) as G; now rewrite app_nil_r in G).
    destruct a as [[] d n|[|w|id]|j r]; cbn [lact_do] in E.
    - injection E as <-. apply grows_new; [first [reflexivity|apply act_time]|reflexivity].
    - injection E as <-. apply grows_new; [first [reflexivity|apply act_time]|reflexivity].
    - injection E as <-. apply G0; first [reflexivity|apply act_time].
    - injection E as <-. apply G0; first [reflexivity|apply act_time].
    - destruct (waiting id (l_calls s)); [discriminate|]. injection E as <-. apply G0; exact (act_time (l_loop s) (VCancel id)).
    - destruct (_ && _); [|discriminate]. injection E as <-. now apply G0.
  Qed.
  Lemma acts_grows l : forall s s', lacts_do s l = Some s' -> grows s s'.
  Proof.
    induction l as [|a l IH]; intros s s' E; cbn in E.
    - injection E as <-. destruct s. rewrite <- (app_nil_r l_sent) at 2. now apply grows_keep.
    - destruct (lact_do s a) as [s1|] eqn:E1; [|discriminate]. exact (grows_trans (act_grows _ _ E1) (IH _ _ E)).
  Qed.
  Lemma grows_put s v j g sent : v_time v = v_time (l_loop s) -> grows s (LState v (put_stage j g (l_calls s)) (l_sent s ++ sent) (l_tasks s) (l_fin s)).
  Proof.
    intros H. split; [now symmetry|]. split; [cbn; rewrite put_length; lia|]. split; [cbn; eauto|]. cbn. split.
    - intros i c Hi. rewrite nth_put, Hi. destruct (i =? j)%nat; cbn; eexists; (split; [reflexivity|]); repeat split.
    - intros i c Hi. left. rewrite <- (put_length j g). apply nth_error_Some. congruence.
  Qed.
  Lemma run_grows s acts s' : lrun s acts = Some s' -> grows s s'.
  Proof.
    intros E. unfold lrun in E. destruct (v_ready (l_loop s)) as [|id r] eqn:Er; [discriminate|].
    destruct (run_handle (l_loop s) []) as [v|] eqn:Ev; [|discriminate]. destruct (@run_frame _ _ _ _ Er Ev) as (_ & Ti & _ & _).
    assert (G1 : forall v2 j g, v_time v2 = v_time v -> grows s (LState v2 (put_stage j g (l_calls s)) (l_sent s) (l_tasks s) (l_fin s)))
      by (intros v2 j g H; pose proof (@grows_put s v2 j g [] ltac:(congruence)) as G; now rewrite app_nil_r in G).
    destruct (waiting id (l_calls s)) as [j|] eqn:Ew.
    - destruct (nth_error (l_calls s) j) as [c|]; [|discriminate]. destruct (c_stage c); try (destruct acts; [|discriminate]); try discriminate.
      + injection E as <-. apply G1, act_time.
      + injection E as <-. now apply G1.
      + eapply grows_trans; [|exact (acts_grows _ _ E)]. now apply grows_put.
    - assert (G : grows s (LState v (l_calls s) (l_sent s) (l_tasks s) (l_fin s))) by (pose proof (@grows_keep s v [] (l_tasks s) (l_fin s) Ti) as G; now rewrite app_nil_r in G).
      destruct (cancelled (v_tab (l_loop s)) id); [destruct acts; [|discriminate]; now injection E as <-|]. exact (grows_trans G (acts_grows _ _ E)).
  Qed.

  (** ** The tasks *)
  Definition scheduled_call s j : Prop := exists c, nth_error (l_calls s) j = Some c /\ c_scheduled c = true.
  Record tinv s : Prop := Tinv {
    ti_tasks : forall j, In j (l_tasks s) <-> scheduled_call s j /\ ~ In (j, None) (l_fin s);
    ti_fin : forall j r, In (j, r) (l_fin s) -> In j (map snd (l_sent s)) /\ (j < length (l_calls s))%nat;
    ti_sent : forall j, In j (map snd (l_sent s)) -> (j < length (l_calls s))%nat;
    ti_nodup : NoDup (map fst (l_fin s))
  }.
  Lemma lhas_in j l : lhas j l = true <-> In j l.
  Proof.
    unfold lhas. rewrite existsb_exists. split.
    - intros (x & H & E). apply Nat.eqb_eq in E. now subst.
    - intros H. exists j. split; [exact H|apply Nat.eqb_refl].
  Qed.
  Lemma tinv_init : tinv l_init.
  Proof. constructor; cbn; [|tauto|tauto|constructor]. intros j. split; [tauto|]. intros [(c & H & _) _]. now destruct j. Qed.
  Lemma tinv_loop s v : tinv s -> tinv (LState v (l_calls s) (l_sent s) (l_tasks s) (l_fin s)).
  Proof. intros [T1 T2 T3 T4]. now constructor. Qed.
  Lemma tinv_put s v j g sent : tinv s -> (forall x, In x sent -> (snd x < length (l_calls s))%nat) -> tinv (LState v (put_stage j g (l_calls s)) (l_sent s ++ sent) (l_tasks s) (l_fin s)).
  Proof.
    intros [T1 T2 T3 T4] Hs. constructor; cbn.
    - intros k. rewrite T1. assert (Q : scheduled_call s k <-> scheduled_call (LState v (put_stage j g (l_calls s)) (l_sent s ++ sent) (l_tasks s) (l_fin s)) k); [|tauto].
      unfold scheduled_call. cbn. split.
      + intros (c & H & E). rewrite nth_put, H. destruct (k =? j)%nat; cbn; eauto.
      + intros (c & H & E). rewrite nth_put in H. destruct (k =? j)%nat; [|eauto]. destruct (nth_error (l_calls s) k) as [d|]; [|discriminate]. injection H as <-. exists d. auto.
    - intros k r H. rewrite put_length, map_app, in_app_iff. destruct (T2 _ _ H). auto.
    - intros k H. rewrite put_length. rewrite map_app, in_app_iff in H. destruct H as [H|H]; [auto|]. apply in_map_iff in H as (x & <- & H). auto.
    - exact T4.
  Qed.
  Lemma tinv_new s v c tasks : tinv s -> (forall j, In j tasks <-> In j (l_tasks s) \/ (j = length (l_calls s) /\ c_scheduled c = true)) ->
    tinv (LState v (l_calls s ++ [c]) (l_sent s) tasks (l_fin s)).
  Proof.
    intros [T1 T2 T3 T4] Ht. constructor; cbn.
    - intros j. rewrite Ht, T1. unfold scheduled_call. cbn. split.
      + intros [[(d & H & E) F]|[-> E]].
        * split; [|exact F]. exists d. split; [|exact E]. rewrite nth_error_app1; [exact H|]. apply nth_error_Some. congruence.
        * split; [exists c; split; [rewrite nth_error_app2, Nat.sub_diag by lia; reflexivity|exact E]|]. intros F. apply T2 in F as [_ F]. lia.
      + intros [(d & H & E) F]. destruct (Nat.lt_ge_cases j (length (l_calls s))) as [G|G].
        * rewrite nth_error_app1 in H by exact G. eauto.
        * rewrite nth_error_app2 in H by exact G. destruct (j - length (l_calls s))%nat as [|k] eqn:Ek; [|cbn in H; now destruct k]. injection H as ->. right. split; [lia|exact E].
    - intros j r H. rewrite app_length. destruct (T2 _ _ H). split; [assumption|lia].
    - intros j H. rewrite app_length. specialize (T3 _ H). lia.
    - exact T4.
  Qed.
  Lemma act_tinv s a s' : tinv s -> lact_do s a = Some s' -> tinv s'.
  Proof.
    intros L E. destruct a as [[] d n|[|w|id]|j r]; cbn [lact_do] in E.
    - injection E as <-. apply tinv_new; [exact L|]. intros j. rewrite in_app_iff. cbn. intuition.
    - injection E as <-. apply tinv_new; [exact L|]. intros j. cbn. intuition discriminate.
    - injection E as <-. now apply tinv_loop.
    - injection E as <-. now apply tinv_loop.
    - destruct (waiting id (l_calls s)); [discriminate|]. injection E as <-. now apply tinv_loop.
    - destruct (lhas j (map snd (l_sent s)) && negb (lhas j (map fst (l_fin s)))) eqn:Eb; [|discriminate]. injection E as <-.
      apply andb_true_iff in Eb as [E1 E2]. apply lhas_in in E1. apply negb_true_iff in E2. assert (E3 : ~ In j (map fst (l_fin s))) by (rewrite <- lhas_in, E2; discriminate).
      destruct L as [T1 T2 T3 T4]. constructor; cbn.
      + intros k. unfold scheduled_call. cbn. rewrite in_app_iff. cbn. destruct r as [e|].
        * rewrite T1. unfold scheduled_call. split; [intros [H F]; split; [exact H|]; intros [G|[G|[]]]; [contradiction|discriminate]|intros [H F]; tauto].
        * split.
          -- intros H. apply in_remove in H as [H Hn]. apply T1 in H as [H F]. split; [exact H|]. intros [G|[G|[]]]; [contradiction|]. injection G as ->. contradiction.
          -- intros [H F]. apply in_in_remove; [intros ->; tauto|]. apply T1. unfold scheduled_call. tauto.
      + intros k q H. rewrite in_app_iff in H. destruct H as [H|[H|[]]]; [eauto|]. assert (k = j) as -> by congruence. auto.
      + exact T3.
      + rewrite map_app. apply NoDup_app_iff. split; [exact T4|]. split; [repeat constructor; auto|]. intros x Hx [<-|[]]. contradiction.
  Qed.
  Lemma acts_tinv l : forall s s', tinv s -> lacts_do s l = Some s' -> tinv s'.
  Proof.
    induction l as [|a l IH]; intros s s' L E; cbn in E; [now injection E as <-|]. destruct (lact_do s a) as [s1|] eqn:E1; [|discriminate].
    exact (IH _ _ (act_tinv _ L E1) E).
  Qed.
  Lemma step_tinv s x s' : tinv s -> lstep top s x = Some s' -> tinv s'.
  Proof.
    intros L E. destruct x as [a| |acts| |]; cbn [lstep] in E.
    - destruct (v_todo (l_loop s)); [discriminate|]. exact (act_tinv _ L E).
    - unfold lplain in E. destruct (vstep _ _ _); [|discriminate]. injection E as <-. now apply tinv_loop.
    - unfold lrun in E. destruct (v_ready (l_loop s)) as [|id r]; [discriminate|]. destruct (run_handle (l_loop s) []) as [v|]; [|discriminate].
      assert (G1 : forall v2 j g, tinv (LState v2 (put_stage j g (l_calls s)) (l_sent s) (l_tasks s) (l_fin s)))
        by (intros v2 j g; pose proof (@tinv_put s v2 j g [] L) as G; rewrite app_nil_r in G; apply G; intros ? []).
      destruct (waiting id (l_calls s)) as [j|] eqn:Ew.
      + destruct (nth_error (l_calls s) j) as [c|] eqn:Ej; [|discriminate]. destruct (c_stage c); try (destruct acts; [|discriminate]); try discriminate; try (injection E as <-; apply G1).
        refine (acts_tinv _ _ E). apply tinv_put; [exact L|]. intros y [<-|[]]. cbn. apply nth_error_Some. congruence.
      + destruct (cancelled (v_tab (l_loop s)) id); [destruct acts; [|discriminate]; injection E as <-; now apply tinv_loop|]. refine (acts_tinv _ _ E). now apply tinv_loop.
    - unfold lplain in E. destruct (vstep _ _ _); [|discriminate]. injection E as <-. now apply tinv_loop.
    - unfold lplain in E. destruct (vstep _ _ _); [|discriminate]. injection E as <-. now apply tinv_loop.
  Qed.
  Lemma reach_tinv h s : lsteps top l_init h s -> tinv s.
  Proof. intros H. remember l_init as s0 eqn:E0. induction H as [s0|s0 h x s1 s2 H IH E]; subst; [exact tinv_init|]. exact (step_tinv _ (IH eq_refl) E). Qed.

  (** ** The calls of a history *)
  Lemma act_asked s a s' : lact_do s a = Some s' -> map (@request A) (l_calls s') = map (@request A) (l_calls s) ++ asked_by a.
  Proof.
    intros E. destruct a as [[] d n|[|w|id]|j r]; cbn [lact_do asked_by] in *.
    - injection E as <-. cbn. now rewrite map_app.
    - injection E as <-. cbn. now rewrite map_app.
    - injection E as <-. cbn. now rewrite app_nil_r.
    - injection E as <-. cbn. now rewrite app_nil_r.
    - destruct (waiting id (l_calls s)); [discriminate|]. injection E as <-. cbn. now rewrite app_nil_r.
    - destruct (_ && _); [|discriminate]. injection E as <-. cbn. now rewrite app_nil_r.
  Qed.
  Lemma acts_asked l : forall s s', lacts_do s l = Some s' -> map (@request A) (l_calls s') = map (@request A) (l_calls s) ++ flat_map asked_by l.
  Proof.
    induction l as [|a l IH]; intros s s' E; cbn in E; [injection E as <-; now rewrite app_nil_r|]. destruct (lact_do s a) as [s1|] eqn:E1; [|discriminate].
    rewrite (IH _ _ E), (act_asked _ _ E1), <- app_assoc. reflexivity.
  Qed.
  Lemma put_request j g l : map (@request A) (put_stage j g l) = map (@request A) l.
  Proof. revert j. induction l as [|c l IH]; intros [|j]; cbn; auto. now rewrite IH. Qed.
  Lemma step_asked s x s' : lstep top s x = Some s' -> map (@request A) (l_calls s') = map (@request A) (l_calls s) ++ asked [x].
  Proof.
    intros E. unfold asked. cbn [flat_map]. rewrite app_nil_r. destruct x as [a| |acts| |]; cbn [lstep] in E.
    - destruct (v_todo (l_loop s)); [discriminate|]. exact (act_asked _ _ E).
    - unfold lplain in E. destruct (vstep _ _ _); [|discriminate]. injection E as <-. cbn. now rewrite app_nil_r.
    - unfold lrun in E. destruct (v_ready (l_loop s)) as [|id r]; [discriminate|]. destruct (run_handle (l_loop s) []) as [v|]; [|discriminate].
      destruct (waiting id (l_calls s)) as [j|] eqn:Ew.
      + destruct (nth_error (l_calls s) j) as [c|] eqn:Ej; [|discriminate].
        destruct (c_stage c); try (destruct acts; [|discriminate]); try discriminate; try (injection E as <-; cbn; rewrite put_request; now rewrite app_nil_r).
        rewrite (acts_asked _ _ E). cbn. now rewrite put_request.
      + destruct (cancelled (v_tab (l_loop s)) id); [destruct acts; [|discriminate]; injection E as <-; cbn; now rewrite app_nil_r|]. exact (acts_asked _ _ E).
    - unfold lplain in E. destruct (vstep _ _ _); [|discriminate]. injection E as <-. cbn. now rewrite app_nil_r.
    - unfold lplain in E. destruct (vstep _ _ _); [|discriminate]. injection E as <-. cbn. now rewrite app_nil_r.
  Qed.
  Lemma asked_app h1 h2 : asked (A := A) (h1 ++ h2) = asked h1 ++ asked h2.
  Proof. unfold asked. apply flat_map_app. Qed.
  Lemma reach_asked h s : lsteps top l_init h s -> map (@request A) (l_calls s) = asked h.
  Proof.
    intros H. remember l_init as s0 eqn:E0. induction H as [s0|s0 h x s1 s2 H IH E]; subst; [reflexivity|].
    rewrite (step_asked _ _ E), (IH eq_refl), asked_app. reflexivity.
  Qed.
  Lemma step_made s x s' j c : lstep top s x = Some s' -> nth_error (l_calls s') j = Some c ->
    (exists c0, nth_error (l_calls s) j = Some c0 /\ c_time c = c_time c0) \/ (nth_error (l_calls s) j = None /\ c_time c = v_time (l_loop s) /\ v_time (l_loop s') = v_time (l_loop s)).
  Proof.
    intros E H.
    assert (G : grows s s' -> (exists c0, nth_error (l_calls s) j = Some c0 /\ c_time c = c_time c0) \/ (nth_error (l_calls s) j = None /\ c_time c = v_time (l_loop s) /\ v_time (l_loop s') = v_time (l_loop s))).
    { intros (G1 & _ & _ & G2 & G3). destruct (nth_error (l_calls s) j) as [c0|] eqn:E0.
      - left. exists c0. split; [reflexivity|]. destruct (G2 _ _ E0) as (c' & F1 & F2 & _). congruence.
      - right. split; [reflexivity|]. destruct (G3 _ _ H) as [F|F]; [apply nth_error_None in E0; lia|]. split; congruence. }
    destruct x as [a| |acts| |]; cbn [lstep] in E.
    - destruct (v_todo (l_loop s)); [discriminate|]. exact (G (act_grows _ _ E)).
    - unfold lplain in E. destruct (vstep _ _ _); [|discriminate]. injection E as <-. cbn in *. eauto.
    - exact (G (run_grows _ _ E)).
    - unfold lplain in E. destruct (vstep _ _ _); [|discriminate]. injection E as <-. cbn in *. eauto.
    - unfold lplain in E. destruct (vstep _ _ _); [|discriminate]. injection E as <-. cbn in *. eauto.
  Qed.
  Lemma reach_made h s j c : lsteps top l_init h s -> nth_error (l_calls s) j = Some c ->
    exists h1 x h2 s1 s2, h = h1 ++ x :: h2 /\ lsteps top l_init h1 s1 /\ lstep top s1 x = Some s2 /\
      (length (l_calls s1) <= j < length (l_calls s2))%nat /\ v_time (l_loop s1) = c_time c /\ v_time (l_loop s2) = c_time c.
  Proof.
    intros H. remember l_init as s0 eqn:E0. revert c. induction H as [s0|s0 h x s1 s2 H IH E]; intros c Hj; subst; [now destruct j|].
    destruct (step_made _ _ _ E Hj) as [(c0 & F1 & F2)|(F1 & F2 & F3)].
    - destruct (IH eq_refl _ F1) as (h1 & y & h2 & t1 & t2 & -> & G). exists h1, y, (h2 ++ [x]), t1, t2. rewrite F2. split; [now rewrite <- app_assoc|exact G].
    - exists h, x, [], s1, s2. split; [reflexivity|]. split; [exact H|]. split; [exact E|]. split; [|split; congruence].
      split; [now apply nth_error_None|]. apply nth_error_Some. congruence.
  Qed.
End LaterProofs.
