(** * Proofs about timer: it runs to its end, and when. *)
From Verif Require Export TimeProofs.
Set Implicit Arguments.
Local Open Scope Z_scope.

Section Timer.
  Variables sec t0 : Z.
  Let due : Z := t0 + Z.max 0 sec.

  (** Without cancellation. *)
  Definition tm_inv (s : ivstate) : Prop :=
    match v_phase s with
    | IStart => v_log s = []
    | ISleep _ n => n = 0%nat /\ v_log s = []
    | ICall n => n = 0%nat /\ exists t, v_log s = [(OnNext 0%nat, t)]
    | IClose | IDone => exists t t', v_log s = [(OnNext 0%nat, t); (OnCompleted, t')]
    | IDead => True
    end.

  Lemma tm_reach h s : ivreach sec 0 t0 h s -> ~ In XCancel h -> tm_inv s.
  Proof.
    induction 1 as [|h s l s' Hr IH E]; intros Hn; [reflexivity|].
    assert (Hn' : ~ In XCancel h) by (intros G; apply Hn, in_or_app; now left). specialize (IH Hn'). unfold tm_inv in *.
    destruct l as [dt|n| | |e|]; cbn in E; try discriminate.
    - destruct (0 <? dt); [|discriminate]. injection E as <-. exact IH.
    - unfold ivwork in E. destruct (v_phase s) as [|u n|n| | |] eqn:Ep; try discriminate.
      + injection E as <-. cbn. auto.
      + destruct (u <=? v_now s); [|discriminate]. injection E as <-. cbn. destruct IH as [-> ->]. split; [reflexivity|]. now eexists.
    - destruct (v_phase s) as [|u n|n| | |] eqn:Ep; try discriminate; injection E as <-; cbn; [|exact IH].
      destruct IH as (-> & t & ->). cbn. eauto.
    - destruct (v_phase s) as [|u n|n| | |] eqn:Ep; try discriminate; injection E as <-; exact I.
    - elim Hn. apply in_or_app. right. now left.
  Qed.

  Lemma dead_raised p h s : ivreach sec p t0 h s -> v_phase s = IDead -> exists x, In (XRaise x) h.
  Proof.
    induction 1 as [|h s l s' Hr IH E]; intros Ed; [discriminate|].
    destruct l as [dt|n| | |e|]; cbn in E; try discriminate.
    - destruct (0 <? dt); [|discriminate]. injection E as <-. destruct (IH Ed) as [x Hx]. exists x. apply in_or_app. now left.
    - unfold ivwork in E. destruct (v_phase s) as [|u n|n| | |]; try discriminate; [|destruct (u <=? v_now s); [|discriminate]]; injection E as <-; discriminate.
    - destruct (v_phase s) as [|u n|n| | |]; try discriminate; [destruct (p =? 0)|]; injection E as <-; discriminate.
    - exists e. apply in_or_app. right. now left.
    - injection E as <-. cbn in Ed. destruct (v_phase s); try discriminate. destruct (IH eq_refl) as [x Hx]. exists x. apply in_or_app. now left.
  Qed.

  (** The worker on its own: sleeping until the deadline, calling, returning. *)
  Lemma timer_ends h s : ivreach sec 0 t0 h s -> ~ In XCancel h -> (forall x, ~ In (XRaise x) h) ->
    exists h2 s', ivreach sec 0 t0 (h ++ h2) s' /\
      (forall l, In l h2 -> (exists dt, l = XTick dt) \/ l = XWork \/ l = XReturn) /\ v_phase s' = IDone.
  Proof.
    intros Hr Hn Hx. pose proof (tm_reach Hr Hn) as Hi. unfold tm_inv in Hi.
    assert (Hclose : forall s, v_phase s = IClose -> exists s', ivrun sec 0 s [XReturn] = Some s' /\ v_phase s' = IDone).
    { intros u Ep. cbn. rewrite Ep. eauto. }
    assert (Hcall : forall s n, v_phase s = ICall n -> exists s', ivrun sec 0 s [XReturn; XReturn] = Some s' /\ v_phase s' = IDone).
    { intros u n Ep. cbn. rewrite Ep. cbn. eauto. }
    assert (Hsleep : forall s u n, v_phase s = ISleep u n ->
      exists s', ivrun sec 0 s [XTick (Z.max 1 (u - v_now s)); XWork; XReturn; XReturn] = Some s' /\ v_phase s' = IDone).
    { intros v u n Ep. cbn [ivrun ivstep]. replace (0 <? Z.max 1 (u - v_now v)) with true by (symmetry; apply Z.ltb_lt; lia).
      unfold ivwork. cbn [v_phase v_now]. rewrite Ep. replace (u <=? v_now v + Z.max 1 (u - v_now v)) with true by (symmetry; apply Z.leb_le; lia).
      cbn. eauto. }
    destruct (v_phase s) as [|u n|n| | |] eqn:Ep.
    - set (s1 := IvState (v_now s) (ISleep (v_now s + Z.max 0 sec) 0) (v_log s) (v_ends s)).
      destruct (Hsleep s1 _ _ eq_refl) as (s' & Hs' & Hd).
      exists (XWork :: [XTick (Z.max 1 (v_now s + Z.max 0 sec - v_now s1)); XWork; XReturn; XReturn]), s'. split; [|split; [|exact Hd]].
      + apply (ivrun_reach _ Hr). cbn [ivrun ivstep]. unfold ivwork. rewrite Ep. exact Hs'.
      + intros l [<-|[<-|[<-|[<-|[<-|[]]]]]]; eauto.
    - destruct (Hsleep s _ _ Ep) as (s' & Hs' & Hd). eexists _, s'. split; [exact (ivrun_reach _ Hr Hs')|split; [|exact Hd]].
      intros l [<-|[<-|[<-|[<-|[]]]]]; eauto.
    - destruct (Hcall s _ Ep) as (s' & Hs' & Hd). eexists _, s'. split; [exact (ivrun_reach _ Hr Hs')|split; [|exact Hd]].
      intros l [<-|[<-|[]]]; eauto.
    - destruct (Hclose s Ep) as (s' & Hs' & Hd). eexists _, s'. split; [exact (ivrun_reach _ Hr Hs')|split; [|exact Hd]].
      intros l [<-|[]]; eauto.
    - exists [], s. rewrite app_nil_r. split; [exact Hr|split; [|exact Ep]]. intros l [].
    - destruct (dead_raised Hr Ep) as [x G]. now elim (Hx x).
  Qed.

  Lemma iv_punctual_snoc p h l : iv_punctual sec p t0 (h ++ [l]) -> iv_punctual sec p t0 h.
  Proof. intros H h1 dt h2 s1 E Hr. apply (H h1 dt (h2 ++ [l]) s1); [|exact Hr]. now rewrite E, <- app_assoc. Qed.

  (** With a punctual loop: when. *)
  Definition tp_inv (s : ivstate) : Prop :=
    match v_phase s with
    | IStart => v_log s = [] /\ v_now s = t0 /\ v_ends s = []
    | ISleep u n => n = 0%nat /\ v_log s = [] /\ u = due /\ v_now s <= u /\ v_ends s = []
    | ICall n => n = 0%nat /\ v_log s = [(OnNext 0%nat, due)] /\ v_ends s = []
    | IClose => exists t', v_log s = [(OnNext 0%nat, due); (OnCompleted, t')] /\ v_ends s = [t']
    | _ => v_log s = [] \/ v_log s = [(OnNext 0%nat, due)] \/
           exists t', v_log s = [(OnNext 0%nat, due); (OnCompleted, t')] /\ v_ends s = [t']
    end.

  Lemma tp_reach h s : ivreach sec 0 t0 h s -> iv_punctual sec 0 t0 h -> tp_inv s.
  Proof.
    induction 1 as [|h s l s' Hr IH E]; intros Hp; [repeat split|].
    specialize (IH (iv_punctual_snoc _ Hp)). unfold tp_inv in *.
    destruct l as [dt|n| | |e|]; cbn in E; try discriminate.
    - destruct (0 <? dt); [|discriminate]. injection E as <-. cbn. destruct (Hp h dt [] s eq_refl Hr) as [P1 P2].
      unfold ivwork in P1. destruct (v_phase s) as [|u n|n| | |]; try discriminate; try exact IH. destruct IH as (-> & -> & -> & _ & He). auto.
    - unfold ivwork in E. destruct (v_phase s) as [|u n|n| | |] eqn:Ep; try discriminate.
      + injection E as <-. cbn. destruct IH as (-> & -> & He). repeat split; auto; unfold due; lia.
      + destruct (u <=? v_now s) eqn:Eu; [|discriminate]. apply Z.leb_le in Eu. injection E as <-. cbn.
        destruct IH as (-> & -> & -> & Hle & He). repeat split; auto. replace (v_now s) with due by lia. reflexivity.
    - destruct (v_phase s) as [|u n|n| | |] eqn:Ep; try discriminate; injection E as <-; cbn.
      + destruct IH as (-> & -> & ->). eexists. split; reflexivity.
      + right. right. exact IH.
    - destruct (v_phase s) as [|u n|n| | |] eqn:Ep; try discriminate; injection E as <-; cbn.
      + destruct IH as (-> & -> & _). auto.
      + auto.
    - injection E as <-. cbn. destruct (v_phase s); auto.
      + destruct IH as [-> _]. auto.
      + destruct IH as (_ & -> & _). auto.
      + destruct IH as (_ & -> & _). auto.
  Qed.

  Lemma timer_done h s : ivreach sec 0 t0 h s -> ~ In XCancel h -> v_phase s = IDone ->
    exists t t', t0 + Z.max 0 sec <= t /\ t <= t' /\ v_log s = [(OnNext 0%nat, t); (OnCompleted, t')].
  Proof.
    intros Hr Hn Ed. pose proof (tm_reach Hr Hn) as Hi. unfold tm_inv in Hi. rewrite Ed in Hi. destruct Hi as (t & t' & El).
    destruct (iv_timer Hr eq_refl) as [G|(u & Hu & [G|(u' & Hu' & G)])]; rewrite El in G; try discriminate.
    injection G as -> ->. eauto 6.
  Qed.

  Lemma timer_punctual h s n t : ivreach sec 0 t0 h s -> iv_punctual sec 0 t0 h -> In (n, t) (v_log s) ->
    n = OnNext 0%nat /\ t = t0 + Z.max 0 sec \/ n = OnCompleted /\ v_ends s = [t].
  Proof.
    intros Hr Hp Hi. pose proof (tp_reach Hr Hp) as H. unfold tp_inv in H.
    assert (G : v_log s = [] \/ v_log s = [(OnNext 0%nat, due)] \/
           exists t', v_log s = [(OnNext 0%nat, due); (OnCompleted, t')] /\ v_ends s = [t']).
    { destruct (v_phase s); auto; [left|left|right; left]; now destruct H as (? & ? & ?). }
    destruct G as [G|[G|(t' & G & Ge)]]; rewrite G in Hi.
    - destruct Hi.
    - destruct Hi as [Hi|[]]. injection Hi as <- <-. auto.
    - destruct Hi as [Hi|[Hi|[]]]; injection Hi as <- <-; auto.
  Qed.
End Timer.
