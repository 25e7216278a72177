(** * Proofs about the subjects for tests. *)
From Coq Require Import Sorted.
From Verif Require Export TestSubj LoopProofs.
Set Implicit Arguments.
Local Open Scope Z_scope.

Lemma flat_map_ext' X Y (f g : X -> list Y) l : (forall x, In x l -> f x = g x) -> flat_map f l = flat_map g l.
Proof. induction l as [|x l IH]; intros H; cbn; [reflexivity|]. rewrite (H x), IH; auto with datatypes. Qed.

Lemma nth_snoc_iff X (l : list X) x y id : nth_error (l ++ [x]) id = Some y <-> nth_error l id = Some y \/ (id = length l /\ y = x).
Proof.
  destruct (Nat.lt_trichotomy id (length l)) as [H|[H|H]].
  - rewrite nth_error_app1 by exact H. split; [auto|]. intros [F|[F _]]; [exact F|lia].
  - subst. rewrite nth_error_app2, Nat.sub_diag by lia. cbn. split; [intros F; injection F as <-; auto|]. intros [F|[_ ->]]; [|reflexivity].
    apply nth_error_Some_lt in F || (assert (length l < length l)%nat by (apply nth_error_Some; congruence); lia).
  - split; [|intros [F|[F _]]; [|lia]]; intros; exfalso.
    + assert (id < length (l ++ [x]))%nat by (apply nth_error_Some; congruence). rewrite app_length in *. cbn in *. lia.
    + assert (id < length l)%nat by (apply nth_error_Some; congruence). lia.
Qed.
Lemma nth_lt X (l : list X) id y : nth_error l id = Some y -> (id < length l)%nat.
Proof. intros H. apply nth_error_Some. congruence. Qed.

Section TestSubj.
  Context {A : Type}.

  (** ** A history of the loop *)
  Definition vacts (a : kact (A := A)) : list vact :=
    match a with KAt w _ => [VAt w] | KOther a => [a] | KReturn _ _ => [] end.

  Lemma act_loop (s s' : kstate A) a : kact_do s a = Some s' -> k_loop s' = fold_left vact_do (vacts a) (k_loop s).
  Proof.
    destruct a as [w n|[|w|id]|j r]; cbn; intros E.
    - now injection E as <-.
    - now injection E as <-.
    - now injection E as <-.
    - destruct (is_other (k_job s) id); [|discriminate]. now injection E as <-.
    - destruct (_ && _); [|discriminate]. now injection E as <-.
  Qed.
  Lemma acts_loop l : forall (s s' : kstate A), kacts_do s l = Some s' -> k_loop s' = fold_left vact_do (flat_map vacts l) (k_loop s).
  Proof.
    induction l as [|a l IH]; intros s s' E; cbn in *; [now injection E as <-|]. destruct (kact_do s a) as [s1|] eqn:E1; [|discriminate].
    rewrite (IH _ _ E), (act_loop _ _ E1), fold_left_app. reflexivity.
  Qed.

  Lemma pop_case v id r v' : v_ready v = id :: r -> run_handle v [] = Some v' ->
    v_tab v' = v_tab v /\ v_time v' = v_time v /\ v_ready v' = r /\ v_sched v' = v_sched v /\
    v_log v' = (if cancelled (v_tab v) id then v_log v else v_log v ++ [(id, v_time v)]) /\
    (cancelled (v_tab v) id = false -> forall acts, run_handle v acts = Some (fold_left vact_do acts v')).
  Proof.
    intros Hr E. unfold run_handle in *. rewrite Hr in *. destruct (v_todo v) as [[|n]|]; try discriminate.
    destruct (cancelled (v_tab v) id); injection E as <-; repeat split; auto. discriminate.
  Qed.

  Lemma krun_loop (s s' : kstate A) acts : krun s acts = Some s' ->
    exists va, run_handle (k_loop s) va = Some (k_loop s') /\ (forall w, In (VAt w) va -> exists n, In (KAt w n) acts \/ In (KOther (VAt w)) acts).
  Proof.
    unfold krun. destruct (v_ready (k_loop s)) as [|id r] eqn:Er; [discriminate|]. destruct (run_handle (k_loop s) []) as [v|] eqn:Ev; [|discriminate].
    destruct (pop_case _ Er Ev) as (_ & _ & _ & _ & _ & Hp). destruct (cancelled (v_tab (k_loop s)) id) eqn:Ec.
    - destruct acts; [|discriminate]. intros E. injection E as <-. exists []. split; [exact Ev|intros w []].
    - specialize (Hp eq_refl).
      assert (G : forall s1, k_loop s1 = v -> kacts_do s1 acts = Some s' ->
        exists va, run_handle (k_loop s) va = Some (k_loop s') /\ (forall w, In (VAt w) va -> exists n, In (KAt w n) acts \/ In (KOther (VAt w)) acts)).
      { intros s1 H1 E. exists (flat_map vacts acts). rewrite Hp, (acts_loop _ _ E), H1. split; [reflexivity|].
        intros w H. apply in_flat_map in H as (a & Ha & Hw). destruct a as [w' n|a|j r']; cbn in Hw.
        - destruct Hw as [Hw|[]]. injection Hw as ->. exists n. auto.
        - destruct Hw as [->|[]]. exists OnCompleted. auto.
        - destruct Hw. }
      destruct (nth_error (k_job s) id) as [[|j|j]|]; [intros E; refine (G _ _ E); reflexivity| |intros E; refine (G _ _ E); reflexivity|intros E; refine (G _ _ E); reflexivity].
      destruct acts; [|discriminate]. intros E. injection E as <-. exists [VSoon]. rewrite Hp. split; [reflexivity|]. intros w [F|[]]. discriminate.
  Qed.

  Variable top : nat -> list hinfo -> list nat -> nat.
  Hypothesis Top : heap_top top.

  Lemma step_loop (s s' : kstate A) x : kstep top s x = Some s' ->
    k_loop s' = k_loop s \/ exists y, vstep top (k_loop s) y = Some (k_loop s') /\ (in_time s x -> timely (k_loop s) y).
  Proof.
    assert (P : forall y, kplain top s y = Some s' -> vstep top (k_loop s) y = Some (k_loop s')).
    { unfold kplain. intros y E. destruct (vstep top (k_loop s) y); [|discriminate]. now injection E as <-. }
    destruct x as [a| |acts| |]; cbn [kstep]; intros E.
    - destruct (v_todo (k_loop s)) eqn:Et; [discriminate|]. rewrite (act_loop _ _ E). destruct a as [w n|a|j r]; cbn [vacts fold_left].
      + right. exists (VOutside (VAt w)). split; [unfold vstep; now rewrite Et|auto].
      + right. exists (VOutside a). split; [unfold vstep; now rewrite Et|destruct a; auto].
      + auto.
    - right. exists VBegin. split; [auto|intros _; exact I].
    - right. destruct (krun_loop _ _ E) as (va & Ev & Hv). exists (VRun va). split; [exact Ev|]. cbn. intros H w Hw. rewrite Forall_forall in H.
      destruct (Hv w Hw) as [n [F|F]]; exact (H _ F).
    - right. exists VEnd. split; [auto|intros _; exact I].
    - right. exists VAbort. split; [auto|intros _; exact I].
  Qed.

  Lemma steps_loop ok (s s' : kstate A) h : ksteps top ok s h s' -> exists h', vsteps top always (k_loop s) h' (k_loop s').
  Proof.
    intros H. induction H as [|s h x s1 s2 H [h' IH] O E]; [exists []; constructor|]. destruct (step_loop _ _ E) as [->|(y & Ey & _)]; [eauto|].
    exists (h' ++ [y]). econstructor; [exact IH|exact I|exact Ey].
  Qed.
  Lemma steps_loop_timely (s s' : kstate A) h : ksteps top in_time s h s' -> exists h', vsteps top timely (k_loop s) h' (k_loop s').
  Proof.
    intros H. induction H as [|s h x s1 s2 H [h' IH] O E]; [exists []; constructor|]. destruct (step_loop _ _ E) as [->|(y & Ey & Hy)]; [eauto|].
    exists (h' ++ [y]). econstructor; [exact IH|exact (Hy O)|exact Ey].
  Qed.
  Lemma reach_kwf ok h (s : kstate A) : ksteps top ok k_init h s -> wf (k_loop s).
  Proof. intros H. destruct (steps_loop H) as [h' H']. exact (reach_wf Top H'). Qed.
  Lemma reach_kexact h (s : kstate A) : ksteps top in_time k_init h s -> exact_ (k_loop s).
  Proof. intros H. destruct (steps_loop_timely H) as [h' H']. exact (reach_exact Top H'). Qed.

  (** ** The handles of the subject *)
  Definition sends (jobs : list job) (log : list (nat * Z)) : list (Z * nat) :=
    flat_map (fun e => match nth_error jobs (fst e) with Some (JWorker j) => [(snd e, j)] | _ => [] end) log.

  Record kinv (s : kstate A) : Prop := Kinv {
    ki_wf : wf (k_loop s);
    ki_len : length (k_job s) = length (v_tab (k_loop s));
    ki_cb : forall id j, nth_error (k_job s) id = Some (JCallback j) -> exists w n, nth_error (k_calls s) j = Some (w, n) /\ timer (k_loop s) id = Some w;
    ki_wk : forall id j, nth_error (k_job s) id = Some (JWorker j) -> timer (k_loop s) id = None /\
              exists id', nth_error (k_job s) id' = Some (JCallback j) /\ was_run (k_loop s) id';
    ki_safe : forall id, is_other (k_job s) id = false -> cancelled (v_tab (k_loop s)) id = false;
    ki_cb1 : forall id id' j, nth_error (k_job s) id = Some (JCallback j) -> nth_error (k_job s) id' = Some (JCallback j) -> id = id';
    ki_wk1 : forall id id' j, nth_error (k_job s) id = Some (JWorker j) -> nth_error (k_job s) id' = Some (JWorker j) -> id = id';
    ki_all : forall j, (j < length (k_calls s))%nat -> exists id, nth_error (k_job s) id = Some (JCallback j);
    ki_started : forall id j, nth_error (k_job s) id = Some (JCallback j) -> was_run (k_loop s) id -> exists id', nth_error (k_job s) id' = Some (JWorker j);
    ki_sent : k_sent s = sends (k_job s) (v_log (k_loop s))
  }.

  Lemma kinv_init : kinv k_init.
  Proof.
    constructor; try (exact wf_init); cbn; try reflexivity; try lia; try (intros [|]; discriminate); try (intros [|] [|]; discriminate); try (intros j F; lia).
  Qed.

  Lemma log_lt s id t : wf s -> In (id, t) (v_log s) -> (id < length (v_tab s))%nat.
  Proof. intros H F. apply (wf_lt H), in_ids. left. change id with (fst (id, t)). now apply in_map. Qed.
  Lemma run_lt s id : wf s -> was_run s id -> (id < length (v_tab s))%nat.
  Proof. intros H F. apply (wf_lt H), in_ids. auto. Qed.

  Lemma sends_snoc jobs x log : (forall e, In e log -> (fst e < length jobs)%nat) -> sends (jobs ++ [x]) log = sends jobs log.
  Proof. intros H. apply flat_map_ext'. intros e He. now rewrite nth_error_app1 by auto. Qed.

  (** Another handle of the loop. *)
  Definition adds (v v' : vstate) (w : option Z) : Prop :=
    v_tab v' = v_tab v ++ [HInfo w false] /\ v_log v' = v_log v /\ wf v'.
  Lemma adds_timer v v' w id : adds v v' w -> (id < length (v_tab v))%nat -> timer v' id = timer v id.
  Proof. intros (E & _) H. unfold timer. rewrite E, nth_error_app1 by exact H. reflexivity. Qed.
  Lemma adds_new v v' w : adds v v' w -> timer v' (length (v_tab v)) = w.
  Proof. intros (E & _). unfold timer. rewrite E, nth_error_app2, Nat.sub_diag by lia. reflexivity. Qed.
  Lemma is_other_snoc jobs x id : is_other (jobs ++ [x]) id = false -> is_other jobs id = false \/ id = length jobs.
  Proof.
    unfold is_other. destruct (Nat.lt_trichotomy id (length jobs)) as [H|[H|H]]; [rewrite nth_error_app1 by exact H; auto|auto|].
    rewrite (proj2 (nth_error_None _ _)); [discriminate|]. rewrite app_length. cbn. lia.
  Qed.

  Lemma kinv_other (s : kstate A) v w tasks fin : kinv s -> adds (k_loop s) v w -> kinv (KState v (k_job s ++ [JOther]) (k_calls s) (k_sent s) tasks fin).
  Proof.
    intros [W L Cb Wk Sa C1 W1 Al St Se] Ad. pose proof Ad as (Et & El & Ew).
    assert (J : forall id x, x <> JOther -> nth_error (k_job s ++ [JOther]) id = Some x -> nth_error (k_job s) id = Some x /\ (id < length (v_tab (k_loop s)))%nat).
    { intros id x Hx H. apply nth_snoc_iff in H as [H|[_ H]]; [|contradiction]. split; [exact H|]. rewrite <- L. exact (nth_lt _ _ H). }
    constructor; cbn [k_loop k_job k_calls k_sent]; auto.
    - rewrite Et, !app_length. cbn. lia.
    - intros id j H. apply J in H as [H Hl]; [|discriminate]. rewrite (adds_timer Ad Hl). auto.
    - intros id j H. apply J in H as [H Hl]; [|discriminate]. rewrite (adds_timer Ad Hl). destruct (Wk _ _ H) as (H1 & id' & H2 & H3). split; [exact H1|].
      exists id'. split; [apply nth_snoc_iff; auto|unfold was_run; now rewrite El].
    - intros id H. rewrite Et, cancelled_snoc. apply is_other_snoc in H as [H|H]; [auto|]. unfold cancelled. rewrite (proj2 (nth_error_None _ _)); [reflexivity|lia].
    - intros id id' j H H'. apply J in H as [H _], H' as [H' _]; try discriminate. eauto.
    - intros id id' j H H'. apply J in H as [H _], H' as [H' _]; try discriminate. eauto.
    - intros j H. destruct (Al j H) as [id F]. exists id. apply nth_snoc_iff. auto.
    - intros id j H F. apply J in H as [H _]; [|discriminate]. unfold was_run in F. rewrite El in F. destruct (St _ _ H F) as [id' G]. exists id'. apply nth_snoc_iff. auto.
    - rewrite El, sends_snoc; [exact Se|]. intros [id t] F. rewrite L. exact (log_lt _ _ W F).
  Qed.

  Lemma kinv_at (s : kstate A) v w n tasks fin : kinv s -> adds (k_loop s) v (Some w) ->
    kinv (KState v (k_job s ++ [JCallback (length (k_calls s))]) (k_calls s ++ [(w, n)]) (k_sent s) tasks fin).
  Proof.
    intros [W L Cb Wk Sa C1 W1 Al St Se] Ad. pose proof Ad as (Et & El & Ew).
    assert (B : forall id j, nth_error (k_job s) id = Some (JCallback j) -> (j < length (k_calls s))%nat).
    { intros id j H. destruct (Cb _ _ H) as (w' & n' & F & _). exact (nth_lt _ _ F). }
    assert (T : forall id x, nth_error (k_job s) id = Some x -> (id < length (v_tab (k_loop s)))%nat) by (intros id x H; rewrite <- L; exact (nth_lt _ _ H)).
    constructor; cbn [k_loop k_job k_calls k_sent]; auto.
    - rewrite Et, !app_length. cbn. lia.
    - intros id j H. apply nth_snoc_iff in H as [H|[-> H]].
      + destruct (Cb _ _ H) as (w' & n' & F & G). exists w', n'. rewrite (adds_timer Ad (T _ _ H)). split; [apply nth_snoc_iff; auto|exact G].
      + injection H as ->. exists w, n. split; [apply nth_snoc_iff; auto|]. rewrite L. exact (adds_new Ad).
    - intros id j H. apply nth_snoc_iff in H as [H|[_ H]]; [|discriminate]. rewrite (adds_timer Ad (T _ _ H)). destruct (Wk _ _ H) as (H1 & id' & H2 & H3). split; [exact H1|].
      exists id'. split; [apply nth_snoc_iff; auto|unfold was_run; now rewrite El].
    - intros id H. rewrite Et, cancelled_snoc. apply is_other_snoc in H as [H|H]; [auto|]. unfold cancelled. rewrite (proj2 (nth_error_None _ _)); [reflexivity|lia].
    - intros id id' j H H'. apply nth_snoc_iff in H as [H|[-> H]], H' as [H'|[-> H']]; [eauto| | |reflexivity].
      + injection H' as ->. apply B in H. lia.
      + injection H as ->. apply B in H'. lia.
    - intros id id' j H H'. apply nth_snoc_iff in H as [H|[_ H]], H' as [H'|[_ H']]; try discriminate. eauto.
    - intros j H. rewrite app_length in H. cbn in H. destruct (Nat.eq_dec j (length (k_calls s))) as [->|D].
      + exists (length (k_job s)). apply nth_snoc_iff. auto.
      + destruct (Al j) as [id F]; [lia|]. exists id. apply nth_snoc_iff. auto.
    - intros id j H F. unfold was_run in F. rewrite El in F. apply nth_snoc_iff in H as [H|[-> H]].
      + destruct (St _ _ H F) as [id' G]. exists id'. apply nth_snoc_iff. auto.
      + apply (run_lt _ W) in F. lia.
    - rewrite El, sends_snoc; [exact Se|]. intros [id t] F. rewrite L. exact (log_lt _ _ W F).
  Qed.

  Lemma act_adds v a w : wf v -> (a = VSoon /\ w = None) \/ (exists d, a = VAt d /\ w = Some d) -> adds v (vact_do v a) w.
  Proof. intros W [[-> ->]|(d & -> & ->)]; (split; [reflexivity|split; [reflexivity|now apply act_wf]]). Qed.

  Lemma kinv_cancel (s : kstate A) id tasks fin : kinv s -> is_other (k_job s) id = true ->
    kinv (KState (vact_do (k_loop s) (VCancel id)) (k_job s) (k_calls s) (k_sent s) tasks fin).
  Proof.
    intros [W L Cb Wk Sa C1 W1 Al St Se] Ho. pose proof (act_wf (VCancel id) W) as W'. 
    assert (T : forall i, timer (vact_do (k_loop s) (VCancel id)) i = timer (k_loop s) i).
    { intros i. change (tm (v_tab (vact_do (k_loop s) (VCancel id))) i = tm (v_tab (k_loop s)) i). unfold vact_do. destruct (_ || _); [reflexivity|]. cbn [v_tab]. apply tm_mark. }
    assert (E : v_log (vact_do (k_loop s) (VCancel id)) = v_log (k_loop s)) by (unfold vact_do; destruct (_ || _); reflexivity).
    constructor; cbn [k_loop k_job k_calls k_sent]; auto.
    - rewrite L. unfold vact_do. destruct (_ || _); [reflexivity|]. cbn [v_tab]. now rewrite mark_length.
    - intros i j H. rewrite T. auto.
    - intros i j H. rewrite T. unfold was_run. rewrite E. exact (Wk _ _ H).
    - intros i H. unfold vact_do. destruct (Nat.ltb_spec id (length (v_tab (k_loop s)))) as [Hl|Hl]; cbn [negb orb]; [|auto].
      destruct (cancelled (v_tab (k_loop s)) id) eqn:Ec; [auto|]. cbn [v_tab]. rewrite cancelled_mark by exact Hl. rewrite (Sa i H).
      destruct (Nat.eqb_spec i id) as [->|]; [congruence|reflexivity].
    - unfold was_run. rewrite E. exact St.
    - now rewrite E.
  Qed.

  Lemma kinv_act (s s' : kstate A) a : kinv s -> kact_do s a = Some s' -> kinv s'.
  Proof.
    intros H E. pose proof (ki_wf H) as W. destruct a as [w n|[|w|id]|j r]; cbn [kact_do] in E.
    - injection E as <-. refine (kinv_at _ _ _ H _). exact (@act_adds _ (VAt w) (Some w) W (or_intror (ex_intro _ w (conj eq_refl eq_refl)))).
    - injection E as <-. refine (@kinv_other _ _ None _ _ H _). exact (@act_adds _ VSoon None W (or_introl (conj eq_refl eq_refl))).
    - injection E as <-. refine (@kinv_other _ _ (Some w) _ _ H _). exact (@act_adds _ (VAt w) (Some w) W (or_intror (ex_intro _ w (conj eq_refl eq_refl)))).
    - destruct (is_other (k_job s) id) eqn:Eo; [|discriminate]. injection E as <-. exact (kinv_cancel id _ _ H Eo).
    - destruct (_ && _); [|discriminate]. injection E as <-. destruct H. constructor; auto.
  Qed.
  Lemma kinv_acts l : forall (s s' : kstate A), kinv s -> kacts_do s l = Some s' -> kinv s'.
  Proof.
    induction l as [|a l IH]; intros s s' H E; cbn in E; [now injection E as <-|]. destruct (kact_do s a) as [s1|] eqn:E1; [|discriminate].
    apply (IH s1); [|exact E]. exact (kinv_act _ H E1).
  Qed.

  (** The loop goes on, nothing is run. *)
  Lemma kinv_same (s : kstate A) v : kinv s -> wf v -> v_tab v = v_tab (k_loop s) -> v_log v = v_log (k_loop s) ->
    kinv (KState v (k_job s) (k_calls s) (k_sent s) (k_tasks s) (k_fin s)).
  Proof.
    intros [W L Cb Wk Sa C1 W1 Al St Se] W' Et El. constructor; cbn [k_loop k_job k_calls k_sent]; auto; unfold timer, was_run in *; rewrite ?Et, ?El; auto.
  Qed.

  (** A handle of others, or a worker, is run. *)
  Lemma kinv_run (s : kstate A) v id : kinv s -> wf v -> v_tab v = v_tab (k_loop s) -> v_log v = v_log (k_loop s) ++ [(id, v_time v)] ->
    (forall j, nth_error (k_job s) id <> Some (JCallback j)) ->
    kinv (KState v (k_job s) (k_calls s)
            (k_sent s ++ match nth_error (k_job s) id with Some (JWorker j) => [(v_time v, j)] | _ => [] end) (k_tasks s) (k_fin s)).
  Proof.
    intros [W L Cb Wk Sa C1 W1 Al St Se] W' Et El Hn. constructor; cbn [k_loop k_job k_calls k_sent]; auto; unfold timer, was_run in *; rewrite ?Et, ?El; auto.
    - intros i j H. destruct (Wk i j H) as (H1 & id' & H2 & H3). split; [exact H1|]. exists id'. split; [exact H2|]. rewrite map_app, in_app_iff. auto.
    - intros i j H F. rewrite map_app, in_app_iff in F. destruct F as [F|[F|[]]]; [eauto|]. cbn in F. subst. elim (Hn j H).
    - rewrite Se. unfold sends. rewrite flat_map_app. cbn. now rewrite app_nil_r.
  Qed.

  (** A callback is run: it starts its worker. *)
  Lemma kinv_callback (s : kstate A) v v' id j tasks fin : kinv s -> wf v -> v_tab v = v_tab (k_loop s) -> v_log v = v_log (k_loop s) ++ [(id, v_time v)] ->
    nth_error (k_job s) id = Some (JCallback j) -> ~ was_run (k_loop s) id -> v' = vact_do v VSoon ->
    kinv (KState v' (k_job s ++ [JWorker j]) (k_calls s) (k_sent s) tasks fin).
  Proof.
    intros [W L Cb Wk Sa C1 W1 Al St Se] Wv Et El Hj Hr ->. pose proof (act_wf VSoon Wv) as W'.
    assert (Lv : v_log (vact_do v VSoon) = v_log (k_loop s) ++ [(id, v_time v)]) by exact El.
    assert (Tv : v_tab (vact_do v VSoon) = v_tab (k_loop s) ++ [HInfo None false]) by (cbn; now rewrite Et).
    assert (T : forall i x, nth_error (k_job s) i = Some x -> timer (vact_do v VSoon) i = timer (k_loop s) i).
    { intros i x H. unfold timer. rewrite Tv, nth_error_app1; [reflexivity|]. rewrite <- L. exact (nth_lt _ _ H). }
    assert (R : forall i, was_run (vact_do v VSoon) i <-> was_run (k_loop s) i \/ i = id).
    { intros i. unfold was_run. rewrite Lv, map_app, in_app_iff. cbn. intuition. }
    assert (N : forall i, nth_error (k_job s) i = Some (JWorker j) -> False).
    { intros i H. destruct (Wk _ _ H) as (_ & id' & H2 & H3). rewrite (C1 _ _ _ H2 Hj) in H3. contradiction. }
    constructor; cbn [k_loop k_job k_calls k_sent]; auto.
    - rewrite Tv, !app_length. cbn. lia.
    - intros i i' H. apply nth_snoc_iff in H as [H|[_ H]]; [|discriminate]. rewrite (T _ _ H). auto.
    - intros i i' H. apply nth_snoc_iff in H as [H|[-> H]].
      + rewrite (T _ _ H). destruct (Wk _ _ H) as (H1 & id' & H2 & H3). split; [exact H1|]. exists id'. split; [apply nth_snoc_iff; auto|apply R; auto].
      + injection H as ->. split.
        * unfold timer. rewrite Tv, L, nth_error_app2, Nat.sub_diag by lia. reflexivity.
        * exists id. split; [apply nth_snoc_iff; auto|apply R; auto].
    - intros i H. rewrite Tv, cancelled_snoc. apply is_other_snoc in H as [H|H]; [auto|]. unfold cancelled. rewrite (proj2 (nth_error_None _ _)); [reflexivity|lia].
    - intros i i' k H H'. apply nth_snoc_iff in H as [H|[_ H]], H' as [H'|[_ H']]; try discriminate. eauto.
    - intros i i' k H H'. apply nth_snoc_iff in H as [H|[-> H]], H' as [H'|[-> H']]; [eauto| | |reflexivity].
      + injection H' as ->. elim (N _ H).
      + injection H as ->. elim (N _ H').
    - intros k H. destruct (Al k H) as [i F]. exists i. apply nth_snoc_iff. auto.
    - intros i k H F. apply nth_snoc_iff in H as [H|[_ H]]; [|discriminate]. apply R in F as [F|F].
      + destruct (St _ _ H F) as [i' G]. exists i'. apply nth_snoc_iff. auto.
      + subst. rewrite Hj in H. injection H as <-. exists (length (k_job s)). apply nth_snoc_iff. auto.
    - rewrite Lv. unfold sends. rewrite flat_map_app. cbn. rewrite nth_error_app1 by exact (nth_lt _ _ Hj). rewrite Hj, !app_nil_r.
      fold (sends (k_job s ++ [JWorker j]) (v_log (k_loop s))). rewrite sends_snoc; [exact Se|]. intros [i t] F. rewrite L. exact (log_lt _ _ W F).
  Qed.

  Lemma ready_not_run v id r : wf v -> v_ready v = id :: r -> ~ was_run v id.
  Proof.
    intros W E F. pose proof (wf_nodup W) as N. unfold ids in N. apply NoDup_app_iff in N as (_ & _ & N). apply (N id F). rewrite E. now left.
  Qed.

  Lemma kinv_step (s s' : kstate A) x : kinv s -> kstep top s x = Some s' -> kinv s'.
  Proof.
    intros H E. pose proof (ki_wf H) as W. destruct x as [a| |acts| |]; cbn [kstep] in E.
    - destruct (v_todo (k_loop s)); [discriminate|]. exact (kinv_act _ H E).
    - unfold kplain in E. destruct (vstep top (k_loop s) VBegin) as [v|] eqn:Ev; [|discriminate]. injection E as <-.
      apply kinv_same; [exact H|exact (step_wf Top _ W Ev)|..]; unfold vstep in Ev; destruct (v_todo (k_loop s)); [discriminate| |discriminate|]; injection Ev as <-;
        unfold begin_iteration; destruct (clean top (k_loop s)); destruct (v_ready (k_loop s)); try reflexivity; destruct l; reflexivity.
    - unfold krun in E. destruct (v_ready (k_loop s)) as [|id r] eqn:Er; [discriminate|]. destruct (run_handle (k_loop s) []) as [v|] eqn:Ev; [|discriminate].
      destruct (pop_case _ Er Ev) as (P1 & P2 & _ & _ & P3 & _). pose proof (run_wf _ W Ev) as W'.
      destruct (cancelled (v_tab (k_loop s)) id) eqn:Ec; [destruct acts; [|discriminate]; injection E as <-; now apply kinv_same|].
      assert (P4 : v_log v = v_log (k_loop s) ++ [(id, v_time v)]) by (rewrite P2; exact P3).
      pose proof (kinv_run id H W' P1 P4) as K. destruct (nth_error (k_job s) id) as [[|j|j]|] eqn:Ej.
      + rewrite app_nil_r in K. eapply kinv_acts; [|exact E]. apply K. discriminate.
      + destruct acts; [|discriminate]. injection E as <-. exact (kinv_callback id _ _ H W' P1 P4 Ej (ready_not_run W Er) eq_refl).
      + eapply kinv_acts; [|exact E]. apply K. discriminate.
      + rewrite app_nil_r in K. eapply kinv_acts; [|exact E]. apply K. discriminate.
    - unfold kplain in E. destruct (vstep top (k_loop s) VEnd) as [v|] eqn:Ev; [|discriminate]. injection E as <-.
      apply kinv_same; [exact H|exact (step_wf Top _ W Ev)|..]; unfold vstep in Ev; destruct (v_todo (k_loop s)) as [[|]|]; try discriminate; injection Ev as <-; reflexivity.
    - unfold kplain in E. destruct (vstep top (k_loop s) VAbort) as [v|] eqn:Ev; [|discriminate]. injection E as <-.
      apply kinv_same; [exact H|exact (step_wf Top _ W Ev)|..]; unfold vstep in Ev; destruct (v_todo (k_loop s)) as [|]; try discriminate; injection Ev as <-; reflexivity.
  Qed.
  Lemma reach_kinv ok h (s : kstate A) : ksteps top ok k_init h s -> kinv s.
  Proof. intros H. remember k_init as s0. induction H as [|s0 h x s1 s2 H IH O E]; subst; [exact kinv_init|exact (kinv_step _ (IH eq_refl) E)]. Qed.

  (** ** What is sent *)
  Lemma in_sends jobs log t j : In (t, j) (sends jobs log) <-> exists id, In (id, t) log /\ nth_error jobs id = Some (JWorker j).
  Proof.
    unfold sends. rewrite in_flat_map. split.
    - intros ([id t'] & H & F). cbn in F. exists id. destruct (nth_error jobs id) as [[|i|i]|]; [destruct F|destruct F| |destruct F]. destruct F as [F|[]]. injection F as -> ->. auto.
    - intros (id & H & F). exists (id, t). split; [exact H|]. cbn. rewrite F. now left.
  Qed.
  Lemma sends_nodup jobs log : (forall id id' j, nth_error jobs id = Some (JWorker j) -> nth_error jobs id' = Some (JWorker j) -> id = id') ->
    NoDup (map fst log) -> NoDup (map snd (sends jobs log)).
  Proof.
    intros U. induction log as [|[id t] log IH]; cbn; intros N; [constructor|]. inversion N as [|? ? N1 N2]; subst. specialize (IH N2). fold (sends jobs log).
    destruct (nth_error jobs id) as [[|i|i]|] eqn:E; cbn; auto. constructor; [|exact IH]. intros F. apply in_map_iff in F as ([t' i'] & E' & F). cbn in E'. subst.
    apply in_sends in F as (id' & F & G). rewrite (U _ _ _ E G) in N1. apply N1. change id' with (fst (id', t')). now apply in_map.
  Qed.
  Lemma log_nodup v : wf v -> NoDup (map fst (v_log v)).
  Proof. intros W. pose proof (wf_nodup W) as N. unfold ids in N. now apply NoDup_app_iff in N as (N & _). Qed.

  Lemma sent_once (s : kstate A) : kinv s -> NoDup (map snd (k_sent s)).
  Proof. intros H. rewrite (ki_sent H). apply sends_nodup; [exact (ki_wk1 H)|exact (log_nodup (ki_wf H))]. Qed.
  Lemma sent_call (s : kstate A) t j : kinv s -> In (t, j) (k_sent s) -> exists w n id, nth_error (k_calls s) j = Some (w, n) /\
    In (id, t) (v_log (k_loop s)) /\ nth_error (k_job s) id = Some (JWorker j).
  Proof.
    intros H F. rewrite (ki_sent H) in F. apply in_sends in F as (id & F & G). destruct (ki_wk H _ G) as (_ & id' & G' & _).
    destruct (ki_cb H _ G') as (w & n & C & _). exists w, n, id. auto.
  Qed.
  Lemma sent_all (s : kstate A) j : kinv s -> drained (k_loop s) -> (j < length (k_calls s))%nat -> In j (map snd (k_sent s)).
  Proof.
    intros H (_ & D1 & D2) Hj. pose proof (ki_wf H) as W.
    assert (R : forall id, is_other (k_job s) id = false -> (id < length (k_job s))%nat -> was_run (k_loop s) id).
    { intros id Ho Hl. rewrite (ki_len H) in Hl. destruct (wf_all W Hl) as [F|F]; [|rewrite (ki_safe H id Ho) in F; discriminate].
      apply in_ids in F as [F|[F|F]]; [exact F|rewrite D1 in F; destruct F|rewrite D2 in F; destruct F]. }
    destruct (ki_all H Hj) as [id F]. destruct (ki_started H _ F) as [id' F'].
    { apply R; [unfold is_other; now rewrite F|exact (nth_lt _ _ F)]. }
    assert (G : was_run (k_loop s) id') by (apply R; [unfold is_other; now rewrite F'|exact (nth_lt _ _ F')]).
    unfold was_run in G. apply in_map_iff in G as ([i t] & E & G). cbn in E. subst i. rewrite (ki_sent H). change j with (snd (t, j)). apply in_map, in_sends. eauto.
  Qed.
  Lemma sent_sorted (s : kstate A) : kinv s -> StronglySorted Z.le (map fst (k_sent s)).
  Proof.
    intros H. rewrite (ki_sent H). pose proof (wf_sorted (ki_wf H)) as So. induction (v_log (k_loop s)) as [|[id t] log IH]; cbn; [constructor|].
    inversion So as [|? ? S1 S2]; subst. specialize (IH S1). fold (sends (k_job s) log). destruct (nth_error (k_job s) id) as [[|i|i]|]; cbn; auto.
    constructor; [exact IH|]. rewrite Forall_forall in *. intros t' F. apply in_map_iff in F as ([t'' i'] & E & F). cbn in E. subst t''.
    apply in_sends in F as (id' & F & _). apply S2. change t' with (snd (id', t')). now apply in_map.
  Qed.

  (** ** When it is sent *)
  Lemma sched_nodup v : wf v -> NoDup (v_sched v).
  Proof. intros W. pose proof (wf_nodup W) as N. unfold ids in N. apply NoDup_app_iff in N as (_ & N & _). now apply NoDup_app_iff in N as (_ & N & _). Qed.
  Section When.
    (** [R w t]: the call for [w] may be done at [t]. *)
    Variable R : Z -> Z -> Prop.
    Definition kdue (s : kstate A) : Prop := forall id j w n, nth_error (k_job s) id = Some (JWorker j) -> nth_error (k_calls s) j = Some (w, n) ->
      (In id (v_ready (k_loop s)) -> R w (v_time (k_loop s))) /\ (forall t, In (id, t) (v_log (k_loop s)) -> R w t).

    Lemma call_bound (s : kstate A) id j : kinv s -> nth_error (k_job s) id = Some (JWorker j) -> (j < length (k_calls s))%nat.
    Proof. intros H F. destruct (ki_wk H _ F) as (_ & id' & G & _). destruct (ki_cb H _ G) as (w & n & C & _). exact (nth_lt _ _ C). Qed.

    Lemma due_act (s s' : kstate A) a : kinv s -> kdue s -> kact_do s a = Some s' -> kdue s'.
    Proof.
      intros Hk H E. unfold kdue in *.
      assert (F : forall id j w n x, nth_error (k_job s) id = Some (JWorker j) -> nth_error (k_calls s ++ x) j = Some (w, n) ->
        (In id (v_ready (k_loop s)) -> R w (v_time (k_loop s))) /\ (forall t, In (id, t) (v_log (k_loop s)) -> R w t)).
      { intros id j w n x H1 H2. rewrite nth_error_app1 in H2 by exact (call_bound _ Hk H1). eauto. }
      destruct a as [w0 n0|[|w0|i]|j0 r]; cbn [kact_do] in E.
      - injection E as <-. cbn. intros id j w n H1 H2. apply nth_snoc_iff in H1 as [H1|[_ H1]]; [|discriminate]. eauto.
      - injection E as <-. cbn. intros id j w n H1 H2. apply nth_snoc_iff in H1 as [H1|[_ H1]]; [|discriminate]. destruct (H _ _ _ _ H1 H2) as [G1 G2]. split; [|exact G2].
        intros G. apply in_app_iff in G as [G|[G|[]]]; [auto|]. subst. apply nth_lt in H1. rewrite (ki_len Hk) in H1. lia.
      - injection E as <-. cbn. intros id j w n H1 H2. apply nth_snoc_iff in H1 as [H1|[_ H1]]; [|discriminate]. eauto.
      - destruct (is_other (k_job s) i); [|discriminate]. injection E as <-. cbn [k_job k_calls k_loop]. unfold vact_do. destruct (_ || _); [exact H|]. cbn. exact H.
      - destruct (_ && _); [|discriminate]. injection E as <-. exact H.
    Qed.
    Lemma due_acts l : forall (s s' : kstate A), kinv s -> kdue s -> kacts_do s l = Some s' -> kdue s'.
    Proof.
      induction l as [|a l IH]; intros s s' Hk H E; cbn in E; [now injection E as <-|]. destruct (kact_do s a) as [s1|] eqn:E1; [|discriminate].
      apply (IH s1); [|exact (due_act _ Hk H E1)|exact E]. exact (kinv_act _ Hk E1).
    Qed.

    Lemma due_run (s s' : kstate A) acts : kinv s -> kdue s ->
      (forall id w, In id (v_ready (k_loop s)) -> timer (k_loop s) id = Some w -> R w (v_time (k_loop s))) ->
      krun s acts = Some s' -> kdue s'.
    Proof.
      intros H D Dr E. pose proof (ki_wf H) as W. unfold krun in E. destruct (v_ready (k_loop s)) as [|id r] eqn:Er; [discriminate|].
      destruct (run_handle (k_loop s) []) as [v|] eqn:Ev; [|discriminate].
      destruct (pop_case _ Er Ev) as (P1 & P2 & P5 & _ & P3 & _). pose proof (run_wf _ W Ev) as W'. unfold kdue in *. rewrite Er in D.
      destruct (cancelled (v_tab (k_loop s)) id) eqn:Ec.
      { destruct acts; [|discriminate]. injection E as <-. cbn. rewrite P2, P3, P5. intros i j w n H1 H2. destruct (D _ _ _ _ H1 H2). split; auto with datatypes. }
      assert (P4 : v_log v = v_log (k_loop s) ++ [(id, v_time v)]) by (rewrite P2; exact P3).
      assert (B : forall i j w n, nth_error (k_job s) i = Some (JWorker j) -> nth_error (k_calls s) j = Some (w, n) ->
        (In i (v_ready v) -> R w (v_time v)) /\ (forall t, In (i, t) (v_log v) -> R w t)).
      { intros i j w n H1 H2. destruct (D _ _ _ _ H1 H2) as [G1 G2]. rewrite P2, P3, P5. split; [auto with datatypes|]. intros t F.
        apply in_app_iff in F as [F|[F|[]]]; [auto|]. injection F as -> <-. apply G1. now left. }
      pose proof (kinv_run id H W' P1 P4) as K. destruct (nth_error (k_job s) id) as [[|j|j]|] eqn:Ej.
      - rewrite app_nil_r in K. refine (due_acts _ _ _ E); [apply K; discriminate|exact B].
      - destruct acts; [|discriminate]. injection E as <-. cbn [k_job k_calls k_loop]. intros i j' w n H1 H2. apply nth_snoc_iff in H1 as [H1|[-> H1]].
        + destruct (B _ _ _ _ H1 H2) as [G1 G2]. split; [|exact G2]. cbn. intros F. apply in_app_iff in F as [F|[F|[]]]; [auto|]. subst. apply nth_lt in H1. rewrite (ki_len H), P1 in H1. lia.
        + injection H1 as ->. destruct (ki_cb H _ Ej) as (w' & n' & C & T). rewrite H2 in C. injection C as <- <-. split.
          * intros _. cbn. rewrite P2. apply (Dr id); [now left|exact T].
          * intros t F. cbn in F. apply (log_lt _ _ W') in F. rewrite P1, <- (ki_len H) in F. lia.
      - refine (due_acts _ _ _ E); [apply K; discriminate|exact B].
      - rewrite app_nil_r in K. refine (due_acts _ _ _ E); [apply K; discriminate|exact B].
    Qed.
  End When.

  Lemma due_step (R : Z -> Z -> Prop) (s s' : kstate A) x : kinv s -> kdue R s ->
    (forall id w, In id (v_ready (k_loop s)) -> timer (k_loop s) id = Some w -> R w (v_time (k_loop s))) ->
    kstep top s x = Some s' -> kdue R s'.
  Proof.
    intros H D Dr E. pose proof (ki_wf H) as W. destruct x as [a| |acts| |]; cbn [kstep] in E.
    - destruct (v_todo (k_loop s)); [discriminate|]. exact (due_act _ H D E).
    - unfold kplain in E. destruct (vstep top (k_loop s) VBegin) as [v|] eqn:Ev; [|discriminate]. injection E as <-. intros id j w n H1 H2. cbn [k_job k_calls k_loop] in *.
      destruct (D _ _ _ _ H1 H2) as [G1 G2]. unfold vstep in Ev. destruct (v_todo (k_loop s)); [discriminate|]. injection Ev as <-.
      unfold begin_iteration in *. destruct (clean top (k_loop s)) as [l c] eqn:Ec.
      destruct (clean_spec Top _ (sched_nodup W) (wf_count W) Ec) as (_ & Cl & _).
      destruct (v_ready (k_loop s)) as [|i r] eqn:Er; [|cbn; auto]. destruct l as [|i l]; [cbn; auto|]. cbn [v_ready v_time v_log]. split; [|exact G2].
      intros [F|[]]. exfalso. destruct (ki_wk H _ H1) as [T _]. 
      assert (F' : In id (i :: l)) by (rewrite <- F; apply Top; discriminate).
      exact (wf_sched W id (Cl _ F') T).
    - exact (due_run _ H D Dr E).
    - unfold kplain in E. destruct (vstep top (k_loop s) VEnd) as [v|] eqn:Ev; [|discriminate]. injection E as <-.
      unfold vstep in Ev; destruct (v_todo (k_loop s)) as [[|]|]; try discriminate; injection Ev as <-; exact D.
    - unfold kplain in E. destruct (vstep top (k_loop s) VAbort) as [v|] eqn:Ev; [|discriminate]. injection E as <-.
      unfold vstep in Ev; destruct (v_todo (k_loop s)) as [|]; try discriminate; injection Ev as <-; exact D.
  Qed.

  Lemma due_init R : kdue R (k_init (A := A)).
  Proof. intros [|id] j w n F; discriminate. Qed.
  Lemma reach_late ok h (s : kstate A) : ksteps top ok k_init h s -> kdue Z.le s.
  Proof.
    intros H. remember k_init as s0. induction H as [|s0 h x s1 s2 H IH O E]; subst; [exact (due_init _)|]. pose proof (reach_kinv H) as K.
    refine (due_step _ K (IH eq_refl) _ E). intros id w F T. exact (wf_ready (ki_wf K) _ F T).
  Qed.
  Lemma reach_due h (s : kstate A) : ksteps top in_time k_init h s -> kdue eq s.
  Proof.
    intros H. remember k_init as s0. induction H as [|s0 h x s1 s2 H IH O E]; subst; [exact (due_init _)|]. pose proof (reach_kinv H) as K.
    refine (due_step _ K (IH eq_refl) _ E). intros id w F T. exact (ex_ready (reach_kexact H) _ F T).
  Qed.

  (** ** The tasks *)
  Definition started (s : kstate A) (j : nat) : Prop := exists id, nth_error (k_job s) id = Some (JWorker j).
  Definition gone (s : kstate A) (j : nat) : Prop := In (j, None) (k_fin s) /\ exists w n, nth_error (k_calls s) j = Some (w, n) /\ n <> OnCompleted.
  Record ktasks (s : kstate A) : Prop := Ktasks {
    kt_fin : forall j r, In (j, r) (k_fin s) -> started s j;
    kt_iff : forall j, In j (k_tasks s) <-> started s j /\ ~ gone s j
  }.

  Lemma has_in j l : has j l = true <-> In j l.
  Proof. unfold has. rewrite existsb_exists. split; [intros (x & H & E); apply Nat.eqb_eq in E; now subst|intros H; exists j; now rewrite Nat.eqb_refl]. Qed.
  Lemma sent_started (s : kstate A) j : kinv s -> In j (map snd (k_sent s)) -> started s j.
  Proof. intros H F. apply in_map_iff in F as ([t j'] & E & F). cbn in E. subst. destruct (sent_call _ _ H F) as (w & n & id & _ & _ & J). exists id. exact J. Qed.
  Lemma started_call (s : kstate A) j : kinv s -> started s j -> exists w n, nth_error (k_calls s) j = Some (w, n).
  Proof. intros H (id & F). destruct (ki_wk H _ F) as (_ & id' & G & _). destruct (ki_cb H _ G) as (w & n & C & _). eauto. Qed.

  Lemma tasks_job (s : kstate A) v x calls sent : kinv s -> ktasks s -> (forall j, x <> JWorker j) -> 
    ktasks (KState v (k_job s ++ [x]) (k_calls s ++ calls) sent (k_tasks s) (k_fin s)).
  Proof.
    intros K [F I] Hx.
    assert (St : forall j, started (KState v (k_job s ++ [x]) (k_calls s ++ calls) sent (k_tasks s) (k_fin s)) j <-> started s j).
    { intros j. split; intros (id & H); exists id; cbn in *.
      - apply nth_snoc_iff in H as [H|[_ H]]; [exact H|]. elim (Hx j). now symmetry.
      - apply nth_snoc_iff. auto. }
    constructor; cbn [k_tasks k_fin].
    - intros j r H. apply St. eauto.
    - intros j. rewrite St, I. unfold gone. cbn [k_fin k_calls]. split; intros [H1 H2]; (split; [exact H1|]); intros [G1 (w & n & G2 & G3)]; apply H2; (split; [exact G1|]); exists w, n; (split; [|exact G3]).
      + destruct (started_call K H1) as (w' & n' & C). pose proof (nth_lt _ _ C) as L. rewrite nth_error_app1 in G2 by exact L. exact G2.
      + rewrite nth_error_app1; [exact G2|exact (nth_lt _ _ G2)].
  Qed.
  Lemma tasks_same (s : kstate A) v sent : ktasks s -> ktasks (KState v (k_job s) (k_calls s) sent (k_tasks s) (k_fin s)).
  Proof. intros [F I]. constructor; [exact F|exact I]. Qed.

  Lemma tasks_act (s s' : kstate A) a : kinv s -> ktasks s -> kact_do s a = Some s' -> ktasks s'.
  Proof.
    intros K T E. destruct a as [w0 n0|[|w0|i]|j0 r]; cbn [kact_do] in E.
    - injection E as <-. apply tasks_job; [exact K|exact T|discriminate].
    - injection E as <-. rewrite <- (app_nil_r (k_calls s)). apply tasks_job; [exact K|exact T|discriminate].
    - injection E as <-. rewrite <- (app_nil_r (k_calls s)). apply tasks_job; [exact K|exact T|discriminate].
    - destruct (is_other (k_job s) i); [|discriminate]. injection E as <-. now apply tasks_same.
    - destruct (has j0 (map snd (k_sent s))) eqn:Eh; [|discriminate]. apply has_in, (sent_started _ K) in Eh. cbn in E.
      destruct (negb _); [|discriminate]. injection E as <-. destruct T as [F I]. destruct (started_call K Eh) as (w & n & C). constructor; cbn [k_fin k_tasks].
      + intros j r' H. apply in_app_iff in H as [H|[H|[]]]; [exact (F _ _ H)|]. injection H as <- <-. exact Eh.
      + intros j.
        assert (G : gone (KState (k_loop s) (k_job s) (k_calls s) (k_sent s)
           match r with Some _ => k_tasks s | None => match nth_error (k_calls s) j0 with Some (_, OnCompleted) => k_tasks s | _ => remove Nat.eq_dec j0 (k_tasks s) end end
           (k_fin s ++ [(j0, r)])) j <-> gone s j \/ (j = j0 /\ r = None /\ n <> OnCompleted)).
        { unfold gone. cbn [k_fin k_calls]. rewrite in_app_iff. cbn [In]. split.
          - intros [[H|[H|[]]] (w' & n' & H2 & H3)]; [left; eauto|]. injection H as -> ->. rewrite C in H2. injection H2 as <- <-. auto.
          - intros [[H1 H2]|(-> & -> & H)]; [auto|]. split; [auto|]. exists w, n. auto. }
        unfold started in *. cbn [k_job]. rewrite G. clear G. rewrite C. specialize (I j). unfold started in I.
        destruct r as [e|]; [rewrite I; split; intros [H1 H2]; (split; [exact H1|]); [|auto]; intros [H|(_ & H & _)]; [auto|discriminate]|].
        destruct n as [a|e|].
        * split.
          -- intros H. apply in_remove in H as [H D]. apply I in H as [H1 H2]. split; [exact H1|]. intros [H|(H & _)]; auto.
          -- intros [H1 H2]. apply in_in_remove; [intros ->; apply H2; right; repeat split; discriminate|]. apply I. split; [exact H1|]. auto.
        * split.
          -- intros H. apply in_remove in H as [H D]. apply I in H as [H1 H2]. split; [exact H1|]. intros [H|(H & _)]; auto.
          -- intros [H1 H2]. apply in_in_remove; [intros ->; apply H2; right; repeat split; discriminate|]. apply I. split; [exact H1|]. auto.
        * rewrite I. split; intros [H1 H2]; (split; [exact H1|]); [|auto]. intros [H|(_ & _ & H)]; auto.
  Qed.
  Lemma tasks_acts l : forall (s s' : kstate A), kinv s -> ktasks s -> kacts_do s l = Some s' -> ktasks s'.
  Proof.
    induction l as [|a l IH]; intros s s' K T E; cbn in E; [now injection E as <-|]. destruct (kact_do s a) as [s1|] eqn:E1; [|discriminate].
    apply (IH s1); [exact (kinv_act _ K E1)|exact (tasks_act _ K T E1)|exact E].
  Qed.

  Lemma tasks_step (s s' : kstate A) x : kinv s -> ktasks s -> kstep top s x = Some s' -> ktasks s'.
  Proof.
    intros K T E. pose proof (ki_wf K) as W.
    assert (P : forall y, kplain top s y = Some s' -> ktasks s').
    { unfold kplain. intros y F. destruct (vstep top (k_loop s) y); [|discriminate]. injection F as <-. now apply tasks_same. }
    destruct x as [a| |acts| |]; cbn [kstep] in E; eauto.
    - destruct (v_todo (k_loop s)); [discriminate|]. exact (tasks_act _ K T E).
    - unfold krun in E. destruct (v_ready (k_loop s)) as [|id r] eqn:Er; [discriminate|]. destruct (run_handle (k_loop s) []) as [v|] eqn:Ev; [|discriminate].
      destruct (pop_case _ Er Ev) as (P1 & P2 & _ & _ & P3 & _). pose proof (run_wf _ W Ev) as W'.
      destruct (cancelled (v_tab (k_loop s)) id) eqn:Ec; [destruct acts; [|discriminate]; injection E as <-; now apply tasks_same|].
      assert (P4 : v_log v = v_log (k_loop s) ++ [(id, v_time v)]) by (rewrite P2; exact P3).
      pose proof (kinv_run id K W' P1 P4) as Kr. destruct (nth_error (k_job s) id) as [[|j|j]|] eqn:Ej.
      + rewrite app_nil_r in Kr. refine (tasks_acts _ _ _ E); [apply Kr; discriminate|now apply tasks_same].
      + destruct acts; [|discriminate]. injection E as <-. destruct T as [F I].
        assert (N : ~ started s j).
        { intros (i & H). destruct (ki_wk K _ H) as (_ & id' & H2 & H3). rewrite (ki_cb1 K _ _ H2 Ej) in H3. exact (ready_not_run W Er H3). }
        assert (St : forall i, started (KState (vact_do v VSoon) (k_job s ++ [JWorker j]) (k_calls s) (k_sent s) (k_tasks s ++ [j]) (k_fin s)) i <-> started s i \/ i = j).
        { intros i. split.
          - intros (i' & H). apply nth_snoc_iff in H as [H|[_ H]]; [left; exists i'; exact H|]. injection H as ->. auto.
          - intros [(i' & H)| ->]; [exists i'|exists (length (k_job s))]; apply nth_snoc_iff; auto. }
        constructor.
        * intros i r' H. apply St. left. exact (F _ _ H).
        * intros i. rewrite St. unfold gone in *. cbn [k_tasks k_fin k_calls]. rewrite in_app_iff, I. cbn [In]. split.
          -- intros [[H1 H2]|[<-|[]]]; [auto|]. split; [auto|]. intros [H _]. apply N. exact (F _ _ H).
          -- intros [[H1| ->] H2]; auto.
      + refine (tasks_acts _ _ _ E); [apply Kr; discriminate|now apply tasks_same].
      + rewrite app_nil_r in Kr. refine (tasks_acts _ _ _ E); [apply Kr; discriminate|now apply tasks_same].
  Qed.
  Lemma reach_tasks ok h (s : kstate A) : ksteps top ok k_init h s -> ktasks s.
  Proof.
    intros H. remember k_init as s0. induction H as [|s0 h x s1 s2 H IH O E]; subst; [|exact (tasks_step _ (reach_kinv H) (IH eq_refl) E)].
    constructor; cbn; [intros j r []|]. intros j. split; [intros []|]. intros [([|] & F) _]; discriminate.
  Qed.

  Lemma ksteps_head (ok : kstate A -> klabel -> Prop) s x s1 h s' : ok s x -> kstep top s x = Some s1 -> ksteps top ok s1 h s' -> ksteps top ok s (x :: h) s'.
  Proof.
    intros Hx E H. remember s1 as t eqn:Et. induction H as [t|t h y s2 s3 H IH O E']; subst.
    - apply (@ks_snoc A top ok s [] x s s1); [constructor|exact Hx|exact E].
    - apply (@ks_snoc A top ok s (x :: h) y s2 s3); [exact (IH eq_refl E)|exact O|exact E'].
  Qed.
End TestSubj.
