(** * Proofs about AsyncAwaitableObserver and run. *)
From Verif Require Export Run SourceProofs.
Set Implicit Arguments.
Arguments wrun : simpl never.

Section Awaitable.
  Context {A : Type} (pol : policy A).
  Notation wrun := (wrun pol).

  Lemma wrun_app (s : wstate A) h1 h2 : wrun s (h1 ++ h2) = wrun (wrun s h1) h2.
  Proof. apply fold_left_app. Qed.

  Lemma wrun_cons (s : wstate A) x h : wrun s (x :: h) = wrun (fst (wstep pol s x)) h.
  Proof. reflexivity. Qed.

  Lemma wrun_nil (s : wstate A) : wrun s [] = s.
  Proof. reflexivity. Qed.

  (** A future that is done does not change. *)
  Lemma wstep_done (s : wstate A) x : w_fut s <> FPending -> w_fut (fst (wstep pol s x)) = w_fut s.
  Proof.
    intros H. destruct x as [n| |]; cbn.
    - unfold wcall. destruct (w_stopped s); [reflexivity|]. destruct n as [v|e|]; cbn; [reflexivity|..].
      + unfold fset. destruct (w_fut s); try contradiction; reflexivity.
      + destruct (w_last s); unfold fset, fcancel; destruct (w_fut s); try contradiction; reflexivity.
    - reflexivity.
    - destruct (w_fut s); try contradiction; reflexivity.
  Qed.

  Lemma wrun_done h : forall (s : wstate A), w_fut s <> FPending -> w_fut (wrun s h) = w_fut s.
  Proof.
    induction h as [|x h IH]; intros s H; [reflexivity|]. rewrite wrun_cons, IH; [now apply wstep_done|]. now rewrite wstep_done.
  Qed.

  (** A stopped observer calls no functions of the user. *)
  Lemma wstep_stopped (s : wstate A) x : w_stopped s = true -> w_stopped (fst (wstep pol s x)) = true /\ w_log (fst (wstep pol s x)) = w_log s /\
    (x <> WCancel -> w_fut (fst (wstep pol s x)) = w_fut s).
  Proof.
    intros H. destruct x as [n| |]; cbn.
    - unfold wcall. rewrite H. auto.
    - auto.
    - repeat split; auto. intros F. contradiction.
  Qed.

  Lemma wrun_stopped h : forall (s : wstate A), w_stopped s = true -> w_log (wrun s h) = w_log s /\ (~ In WCancel h -> w_fut (wrun s h) = w_fut s).
  Proof.
    induction h as [|x h IH]; intros s H; [auto|]. rewrite wrun_cons. destruct (wstep_stopped _ x H) as (E1 & E2 & E3).
    destruct (IH _ E1) as [F1 F2]. split; [congruence|]. intros Hn. rewrite F2, E3; [reflexivity| |]; intros F; apply Hn; [now left|now right].
  Qed.

  (** Elements. *)
  Lemma wrun_elements vs : forall (s : wstate A), w_stopped s = false -> wrun s (map (@WCall A) (map OnNext vs)) =
    WState (match rev vs with v :: _ => Some v | [] => w_last s end) false (w_fut s) (w_log s ++ map OnNext vs).
  Proof.
    induction vs as [|v vs IH] using rev_ind; intros s H.
    - cbn. rewrite wrun_nil, app_nil_r. destruct s. cbn in *. now subst.
    - rewrite !map_app, wrun_app, IH by exact H. cbn. rewrite wrun_cons, wrun_nil. cbn. rewrite rev_app_distr. cbn. now rewrite app_assoc.
  Qed.

  Definition elements (vs : list A) : list (@wlabel A) := map (@WCall A) (map OnNext vs).

  Lemma w_stream vs e junk : e <> Open ->
    w_fut (wrun w_init (map (@WCall A) (trace vs e) ++ junk)) = last_value vs e /\
    w_log (wrun w_init (map (@WCall A) (trace vs e) ++ junk)) = trace vs e.
  Proof.
    intros He. unfold trace. rewrite map_app, !wrun_app. rewrite wrun_elements by reflexivity.
    destruct e as [|x|]; [contradiction|..]; cbn [map w_init w_last w_fut w_log app]; rewrite wrun_cons, wrun_nil.
    - split.
      + rewrite wrun_done; [reflexivity|cbn; discriminate].
      + match goal with |- w_log (Run.wrun _ ?s _) = _ => destruct (wrun_stopped junk s) as [F _]; [reflexivity|] end.
        rewrite F. reflexivity.
    - unfold last_value. destruct (rev vs) as [|v r]; cbn; unfold wcall; cbn.
      + split; [rewrite wrun_done; [reflexivity|cbn; discriminate]|].
        now rewrite (proj1 (wrun_stopped junk (WState None true FCancelled (map OnNext vs ++ [OnCompleted])) eq_refl)).
      + split; [rewrite wrun_done; [reflexivity|cbn; discriminate]|].
        now rewrite (proj1 (wrun_stopped junk (WState (Some v) true (FResult v) (map OnNext vs ++ [OnCompleted])) eq_refl)).
  Qed.

  Lemma w_open vs : w_fut (wrun w_init (elements vs)) = FPending /\ w_log (wrun w_init (elements vs)) = map OnNext vs.
  Proof. unfold elements. rewrite wrun_elements by reflexivity. auto. Qed.

  Lemma w_disposed vs h : w_log (wrun w_init (elements vs ++ WDispose :: h)) = map OnNext vs /\
    (~ In WCancel h -> w_fut (wrun w_init (elements vs ++ WDispose :: h)) = FPending).
  Proof.
    unfold elements. rewrite wrun_app, wrun_elements by reflexivity. cbn. rewrite wrun_cons. cbn.
    exact (wrun_stopped h (WState (match rev vs with v :: _ => Some v | [] => None end) true FPending (map OnNext vs)) eq_refl).
  Qed.

  Lemma w_cancelled vs h : w_fut (wrun w_init (elements vs ++ WCancel :: h)) = FCancelled.
  Proof.
    unfold elements. rewrite wrun_app, wrun_elements by reflexivity. cbn. rewrite wrun_cons. cbn. rewrite wrun_done; [reflexivity|cbn; discriminate].
  Qed.

  Lemma w_late vs ws n : is_term n = true ->
    snd (wcall pol (wrun w_init (elements vs ++ WCancel :: elements ws)) n) =
    match n, vs ++ ws with OnCompleted, [] => pol [OnCompleted] | _, _ => Some InvalidState end.
  Proof.
    intros Hn. unfold elements. rewrite wrun_app, wrun_elements by reflexivity. cbn. rewrite wrun_cons. cbn.
    rewrite wrun_elements by reflexivity. cbn. unfold wcall. cbn. destruct n as [v|e|]; [discriminate|reflexivity|].
    destruct (rev ws) as [|w r] eqn:E.
    - apply (f_equal (@rev A)) in E. rewrite rev_involutive in E. cbn in E. subst ws. rewrite app_nil_r.
      destruct (rev vs) as [|v r] eqn:E.
      + apply (f_equal (@rev A)) in E. rewrite rev_involutive in E. cbn in E. subst vs. reflexivity.
      + destruct vs; [discriminate|]. reflexivity.
    - cbn. destruct (vs ++ ws) as [|y l] eqn:F; [|reflexivity]. apply app_eq_nil in F as [_ ->]. discriminate.
  Qed.
End Awaitable.

(** ** run *)
Lemma prefix_trace A (q : list (notif A)) vs e : prefix q (trace vs e) -> q = trace vs e \/ exists ws, q = map OnNext ws.
Proof.
  revert q. induction vs as [|v vs IH]; intros q [r E].
  - destruct q as [|n q]; [right; now exists []|]. left. unfold trace in *. cbn in *.
    destruct e; cbn in E; [discriminate|..]; injection E as <- E; symmetry in E; apply app_eq_nil in E as [-> _]; reflexivity.
  - destruct q as [|n q]; [right; now exists []|]. cbn in E. injection E as <- E.
    destruct (IH q) as [->|[ws ->]]; [now exists r|now left|]. right. now exists (v :: ws).
Qed.

Section RunProofs.
  Context {Z A : Type} (src : source A) (p : pipe Z A).

  Definition seen_outcome (l : list (notif Z)) : option (outcome Z) :=
    await_fut (w_fut (wrun well_behaved w_init (map (@WCall Z) l))).

  Lemma rreach_src h s : rreach src p h s ->
    match r_out s with
    | None => exists h', src_reach well_behaved src p h' (r_src s) /\ ~ In TCancel h'
    | Some o => exists h' d, src_reach well_behaved src p h' d /\ ~ In TCancel h' /\ src_step well_behaved src p d TCancel = Some (r_src s) /\
        match seen_outcome (src_log well_behaved src p d) with Some o' => o = o' | None => o = TimedOut end
    end.
  Proof.
    induction 1 as [|h x s s' Hr IH E]; [exists []; split; [constructor|auto]|].
    unfold rstep in E. destruct (r_out s) eqn:Ro; [discriminate|]. destruct IH as (h' & IH & Hn). destruct x as [x| |].
    - assert (Hx : x <> TCancel) by (intros ->; discriminate).
      assert (E' : match src_step well_behaved src p (r_src s) x with Some d => Some (RState src p d None) | None => None end = Some s').
      { destruct x; try exact E. contradiction. }
      destruct (src_step well_behaved src p (r_src s) x) as [d|] eqn:Q; [|discriminate]. injection E' as <-. cbn.
      exists (h' ++ [x]). split; [eapply sr_snoc; eassumption|]. intros F. apply in_app_iff in F as [F|[F|[]]]; auto.
    - fold (seen_outcome (src_log well_behaved src p (r_src s))) in E. unfold r_observer in E.
      destruct (await_fut _) as [o|] eqn:Aw; [|discriminate]. destruct (src_step well_behaved src p (r_src s) TCancel) as [d|] eqn:Q; [|discriminate].
      injection E as <-. cbn. exists h', (r_src s). unfold seen_outcome. rewrite Aw. auto.
    - unfold r_observer in E. destruct (await_fut _) as [o|] eqn:Aw; [discriminate|]. destruct (src_step well_behaved src p (r_src s) TCancel) as [d|] eqn:Q; [|discriminate].
      injection E as <-. cbn. exists h', (r_src s). unfold seen_outcome. rewrite Aw. auto.
  Qed.

  Lemma seen_prefix l vs e : prefix l (trace vs e) ->
    seen_outcome l = None \/ e <> Open /\ l = trace vs e /\ seen_outcome l = await_fut (last_value vs e).
  Proof.
    intros Hp. destruct (prefix_trace _ _ Hp) as [->|[ws ->]].
    - destruct e as [|x|].
      + left. unfold trace, seen_outcome. rewrite app_nil_r. fold (elements vs). now rewrite (proj1 (w_open well_behaved vs)).
      + right. split; [discriminate|]. split; [reflexivity|]. unfold seen_outcome. pose proof (proj1 (w_stream well_behaved vs [] (e := Failed x) ltac:(discriminate))) as F.
        rewrite app_nil_r in F. now rewrite F.
      + right. split; [discriminate|]. split; [reflexivity|]. unfold seen_outcome. pose proof (proj1 (w_stream well_behaved vs [] (e := Completed) ltac:(discriminate))) as F.
        rewrite app_nil_r in F. now rewrite F.
    - left. unfold seen_outcome. fold (elements ws). now rewrite (proj1 (w_open well_behaved ws)).
  Qed.

  Lemma run_outcome vs e h s o : source_delivers well_behaved src p (trace vs e) -> rreach src p h s -> r_out s = Some o ->
    o = TimedOut \/ Some o = await_fut (last_value vs e).
  Proof.
    intros (_ & _ & Hp) Hr Ho. pose proof (rreach_src Hr) as F. rewrite Ho in F. destruct F as (h' & d & F1 & F2 & _ & F3).
    destruct (seen_prefix _ _ (Hp _ _ F1 F2)) as [E|(_ & _ & E)]; rewrite E in F3; [auto|].
    destruct (await_fut (last_value vs e)); [right; congruence|left; exact F3].
  Qed.

  Lemma run_open vs h s o : source_delivers well_behaved src p (trace vs Open) -> rreach src p h s -> r_out s = Some o -> o = TimedOut.
  Proof. intros Hd Hr Ho. destruct (run_outcome _ _ Hd Hr Ho) as [|F]; [assumption|discriminate]. Qed.

  Lemma run_disposes h s o : rreach src p h s -> r_out s = Some o ->
    exists d, src_step well_behaved src p d TCancel = Some (r_src s).
  Proof. intros Hr Ho. pose proof (rreach_src Hr) as F. rewrite Ho in F. destruct F as (h' & d & F1 & F2 & F3 & _). eauto. Qed.

  Lemma cancel_possible s : exists d, src_step well_behaved src p s TCancel = Some d.
  Proof. unfold src_step. destruct (s_task s); eauto. Qed.

  (** When nothing else can happen, run returns. *)
  Lemma run_returns vs e h s : source_delivers well_behaved src p (trace vs e) -> e <> Open -> rreach src p h s -> r_out s = None ->
    (forall x, x <> RDone -> x <> RTimeout -> rstep s x = None) ->
    exists s' o, rstep s RDone = Some s' /\ r_out s' = Some o /\ Some o = await_fut (last_value vs e).
  Proof.
    intros (_ & Hd & _) He Hr Ho Hq. pose proof (rreach_src Hr) as F. rewrite Ho in F. destruct F as (h' & F1 & F2).
    assert (Q : src_done well_behaved src p (r_src s)).
    { intros x Hx. specialize (Hq (RSrc x) ltac:(discriminate) ltac:(discriminate)). unfold rstep in Hq. rewrite Ho in Hq.
      destruct x; try contradiction; destruct (src_step well_behaved src p (r_src s) _) eqn:K; try discriminate; reflexivity. }
    specialize (Hd _ _ F1 F2 Q). unfold rstep. rewrite Ho. unfold r_observer. rewrite Hd.
    pose proof (proj1 (w_stream well_behaved vs [] He)) as G. rewrite app_nil_r in G. rewrite G.
    destruct (cancel_possible (r_src s)) as [d Hc]. rewrite Hc.
    assert (K : exists o, await_fut (last_value vs e) = Some o).
    { destruct e as [|x|]; [contradiction|cbn; eauto|]. cbn. destruct (rev vs); cbn; eauto. }
    destruct K as [o K]. rewrite K. eexists. exists o. repeat split; reflexivity.
  Qed.

  (** Executions of source and workers are executions of run, until it returns. *)
  Lemma src_rreach h : forall s, src_reach well_behaved src p h s -> ~ In TCancel h -> rreach src p (map RSrc h) (RState src p s None).
  Proof.
    intros s H. induction H as [|h x s s' H IH E]; intros Hn; [constructor|].
    rewrite map_app. cbn. eapply rr_snoc; [apply IH; intros F; apply Hn, in_app_iff; now left|]. unfold rstep. cbn.
    destruct x; try (rewrite E; reflexivity). elim Hn. apply in_app_iff. right. now left.
  Qed.

  Lemma run_can vs e : source_delivers well_behaved src p (trace vs e) -> e <> Open ->
    exists h s o, rreach src p h s /\ ~ In RTimeout h /\ r_out s = Some o /\ Some o = await_fut (last_value vs e).
  Proof.
    intros Hd He. pose proof Hd as ((h & s & H1 & H2 & H3) & _ & _).
    pose proof (src_rreach H1 H2) as R.
    destruct (run_returns _ Hd He R eq_refl) as (s' & o & E1 & E2 & E3).
    { intros [x| |] N1 N2; try contradiction. unfold rstep. cbn. destruct x; try reflexivity; rewrite H3 by discriminate; reflexivity. }
    exists (map RSrc h ++ [RDone]), s', o. split; [eapply rr_snoc; eassumption|]. split; [|auto].
    intros F. apply in_app_iff in F as [F|[F|[]]]; [|discriminate]. apply in_map_iff in F as (x & F & _). discriminate.
  Qed.
End RunProofs.
