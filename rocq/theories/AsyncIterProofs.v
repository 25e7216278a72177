(** * Proofs about of_async_iterable. *)
From Verif Require Export AsyncIter.
Set Implicit Arguments.

Section AI.
  Context {A : Type} (it : iterator A).

  Lemma greach_last h s : greach it h s -> h = [] /\ s = g_init \/
    exists h1 x s1, h = h1 ++ [x] /\ greach it h1 s1 /\ gstep it s1 x = Some s.
  Proof. intros H. inversion H; subst; [left; auto|right; eauto 8]. Qed.

  Lemma greach_app h1 h2 : forall s, greach it (h1 ++ h2) s -> exists s1, greach it h1 s1.
  Proof.
    induction h2 as [|x h2 IH] using rev_ind; intros s H; [rewrite app_nil_r in H; eauto|].
    rewrite app_assoc in H. destruct (greach_last H) as [[E _]|(h' & y & s1 & E & H1 & _)].
    - apply app_eq_nil in E as [_ E]. discriminate.
    - apply app_inj_tail in E as [<- <-]. eauto.
  Qed.

  Lemma greach_fun h : forall s s', greach it h s -> greach it h s' -> s = s'.
  Proof.
    induction h as [|x h IH] using rev_ind; intros s s' H H'.
    - destruct (greach_last H) as [[_ ->]|(h1 & y & s1 & E & _)]; [|destruct h1; discriminate].
      destruct (greach_last H') as [[_ ->]|(h1 & y & s1 & E & _)]; [reflexivity|destruct h1; discriminate].
    - destruct (greach_last H) as [[E _]|(h1 & y & s1 & E & H1 & Q)]; [destruct h; discriminate|].
      apply app_inj_tail in E as [<- <-].
      destruct (greach_last H') as [[E _]|(h1 & y & s2 & E & H2 & Q')]; [destruct h; discriminate|].
      apply app_inj_tail in E as [<- <-]. rewrite (IH _ _ H1 H2) in Q. congruence.
  Qed.

  (** The items yielded so far. *)
  Fixpoint first_items (n : nat) : list A :=
    match n with
    | 0 => []
    | S n => first_items n ++ match it n with Item v => [v] | _ => [] end
    end.

  (** Where the log stands in each phase. *)
  Definition GI (h : list glabel) (s : gstate A) : Prop :=
    (forall i, S i < g_pos s -> exists v, it i = Item v) /\
    match g_phase s with
    | GNew => g_pos s = 0 /\ g_log s = []
    | GNext => g_log s = map OnNext (first_items (g_pos s)) /\ forall i, i < g_pos s -> exists v, it i = Item v
    | GSend => g_log s = map OnNext (first_items (g_pos s)) /\ forall i, i < g_pos s -> exists v, it i = Item v
    | GThrow => observer_raised h
    | GClose => g_log s = map OnNext (first_items (g_pos s)) ++ [OnCompleted] /\ exists n, g_pos s = S n /\ it n = IStop
    | GEnd | GDied _ => True
    end.

  Lemma raised_app h x : observer_raised h -> observer_raised (h ++ [x]).
  Proof. intros [e F]. exists e. apply in_app_iff. now left. Qed.

  Lemma gi h s : greach it h s -> GI h s.
  Proof.
    induction 1 as [|h x s s' Hr [I1 I2] E]; [split; [cbn; lia|cbn; auto]|].
    destruct s as [ph n l]. cbn [g_phase g_pos g_log] in *.
    destruct x; cbn in E; destruct ph; try discriminate.
    all: try (injection E as <-; split; cbn; [assumption|]; auto; try (destruct I2 as [-> ->]; cbn; split; [reflexivity|lia]); fail).
    - destruct I2 as [-> I2]. destruct (it n) as [v| |e] eqn:Ei; injection E as <-; unfold GI; cbn [g_phase g_pos g_log].
      + split; [intros i Hi; apply I2; lia|]. split.
        * cbn. now rewrite Ei, map_app.
        * intros i Hi. destruct (Nat.eq_dec i n) as [->|]; [eauto|apply I2; lia].
      + split; [intros i Hi; apply I2; lia|]. split; [|eauto]. cbn. now rewrite Ei, app_nil_r.
      + split; [intros i Hi; apply I2; lia|exact I].
    - injection E as <-. split; cbn; [assumption|]. exists e. apply in_app_iff. right. now left.
  Qed.

  Lemma iterates_items xs e n : iterates it xs e -> n <= length xs -> first_items n = firstn n xs.
  Proof.
    intros [H _]. induction n as [|n IH]; intros Hn; [reflexivity|]. cbn [first_items]. rewrite IH by lia.
    destruct (H n) as (v & Hv & ->); [lia|]. clear IH H.
    revert xs Hn Hv. induction n as [|n IH]; intros [|x xs] Hn Hv; try (cbn in *; lia); cbn in *; [congruence|].
    f_equal. apply IH; [lia|assumption].
  Qed.

  Lemma iterates_pos xs e h s : iterates it xs e -> greach it h s -> g_pos s <= S (length xs).
  Proof.
    intros [_ H] Hr. destruct (gi Hr) as [I _]. destruct (le_lt_dec (g_pos s) (S (length xs))) as [?|Hl]; [assumption|].
    destruct (I (length xs) Hl) as [v Hv]. destruct H as [[H _]|[[x H] _]]; congruence.
  Qed.

  Definition GL (xs : list A) (e : ending) (h : list glabel) (s : gstate A) : Prop :=
    match g_phase s with
    | GNew => g_pos s = 0 /\ g_log s = []
    | GNext | GSend => g_pos s <= length xs /\ g_log s = map OnNext (firstn (g_pos s) xs)
    | GThrow => False
    | GClose => g_log s = trace xs e
    | GEnd => prefix (g_log s) (trace xs e) /\ (In GCancel h \/ g_log s = trace xs e)
    | GDied _ => g_log s = trace xs e
    end.

  Lemma prefix_firstn xs e n : prefix (map OnNext (firstn n xs)) (@trace A xs e).
  Proof.
    unfold trace. rewrite <- (firstn_skipn n xs) at 2. rewrite map_app, <- app_assoc. apply prefix_app.
  Qed.

  Lemma gl xs e h s : iterates it xs e -> greach it h s -> ~ observer_raised h -> GL xs e h s.
  Proof.
    intros Hit. induction 1 as [|h x s s' Hr IH E]; intros Hn; [cbn; auto|].
    assert (Hn' : ~ observer_raised h) by (intros F; exact (Hn (raised_app x F))).
    specialize (IH Hn'). destruct s as [ph n l]. unfold GL in *. cbn [g_phase g_pos g_log] in *.
    destruct x; cbn in E; destruct ph; try discriminate; try contradiction.
    - injection E as <-. cbn. destruct IH as [-> ->]. split; [lia|reflexivity].
    - destruct IH as [Hle ->]. pose proof (proj1 Hit) as Hi. pose proof (proj2 Hit) as Hstop.
      destruct (Nat.eq_dec n (length xs)) as [->|Hne].
      + rewrite firstn_all in E. destruct Hstop as [[Es ->]|[[y Es] ->]]; rewrite Es in E; injection E as <-; cbn.
        * reflexivity.
        * unfold trace. now rewrite app_nil_r.
      + destruct (Hi n) as (v & Hv & Ev); [lia|]. rewrite Ev in E. injection E as <-. cbn [g_phase g_pos g_log]. split; [lia|].
        replace [OnNext v] with (map (@OnNext A) [v]) by reflexivity. rewrite <- map_app. f_equal.
        rewrite <- (@iterates_items xs e (S n)) by (assumption || lia). cbn. rewrite Ev. f_equal. symmetry. apply (@iterates_items xs e n); [assumption|lia].
    - injection E as <-. cbn. exact IH.
    - injection E as <-. cbn. subst l. split; [apply prefix_refl|now right].
    - elim Hn. exists e0. apply in_app_iff. right. now left.
    - injection E as <-. cbn. exact IH.
    - injection E as <-. cbn. destruct IH as [_ ->]. split; [apply prefix_nil|]. left. apply in_app_iff. right. now left.
    - injection E as <-. cbn. destruct IH as [_ ->]. split; [apply prefix_firstn|]. left. apply in_app_iff. right. now left.
    - injection E as <-. cbn. destruct IH as [_ ->]. split; [apply prefix_firstn|]. left. apply in_app_iff. right. now left.
    - injection E as <-. cbn. subst l. split; [apply prefix_refl|now right].
    - injection E as <-. cbn. destruct IH as [H1 [H2|H2]]; (split; [exact H1|]); [|now right]. left. apply in_app_iff. now left.
    - injection E as <-. cbn. exact IH.
  Qed.

  (** Ended: nothing more happens. *)
  Lemma over_step s x s' : g_over s -> gstep it s x = Some s' -> g_over s' /\ g_log s' = g_log s.
  Proof. destruct s as [ph n l]. destruct ph, x; cbn; intros H E; try contradiction; try discriminate; injection E as <-; cbn; auto. Qed.

  Lemma over_final h1 h2 : forall s1 s, greach it h1 s1 -> g_over s1 -> greach it (h1 ++ h2) s -> g_over s /\ g_log s = g_log s1.
  Proof.
    induction h2 as [|x h2 IH] using rev_ind; intros s1 s H1 Ho H.
    - rewrite app_nil_r in H. rewrite (greach_fun H H1). auto.
    - rewrite app_assoc in H. destruct (greach_last H) as [[E _]|(h' & y & s2 & E & H2 & Q)]; [destruct (h1 ++ h2); discriminate|].
      apply app_inj_tail in E as [<- <-]. destruct (IH s1 s2 H1 Ho H2) as [Ho2 <-]. exact (over_step _ _ Ho2 Q).
  Qed.

  Lemma cancel_final h1 h2 s1 s : greach it h1 s1 -> greach it (h1 ++ GCancel :: h2) s -> g_log s = g_log s1.
  Proof.
    intros H1 H. replace (h1 ++ GCancel :: h2) with ((h1 ++ [GCancel]) ++ h2) in H by now rewrite <- app_assoc.
    assert (H2 : exists s2, greach it (h1 ++ [GCancel]) s2 /\ g_over s2 /\ g_log s2 = g_log s1).
    { eexists. split; [eapply gr_snoc; [exact H1|reflexivity]|]. cbn. destruct (g_phase s1); cbn; auto. }
    destruct H2 as (s2 & R2 & O2 & <-). exact (proj2 (over_final _ R2 O2 H)).
  Qed.

  (** The observer's exception. *)
  Lemma raise_final h1 e h2 s1 s : greach it h1 s1 -> g_phase s1 = GSend -> greach it (h1 ++ GExn e :: h2) s ->
    g_log s = g_log s1 ++ [OnError e].
  Proof.
    intros H1 Hp. replace (h1 ++ GExn e :: h2) with ((h1 ++ [GExn e]) ++ h2) by now rewrite <- app_assoc.
    assert (R2 : greach it (h1 ++ [GExn e]) (GState GThrow (g_pos s1) (g_log s1 ++ [OnError e]))).
    { eapply gr_snoc; [exact H1|]. cbn. now rewrite Hp. }
    assert (K : forall h2 s, greach it ((h1 ++ [GExn e]) ++ h2) s ->
              (g_phase s = GThrow \/ g_over s) /\ g_log s = g_log s1 ++ [OnError e]).
    { clear - R2. induction h2 as [|x h2 IH] using rev_ind; intros s H.
      - rewrite app_nil_r in H. rewrite (greach_fun H R2). cbn. auto.
      - rewrite app_assoc in H. destruct (greach_last H) as [[E _]|(h' & y & s2 & E & H2 & Q)]; [destruct ((h1 ++ [GExn e]) ++ h2); discriminate|].
        apply app_inj_tail in E as [<- <-]. destruct (IH s2 H2) as [[Hp|Ho] <-].
        + destruct s2 as [ph n l]. cbn in *. subst ph. destruct x; cbn in Q; try discriminate; injection Q as <-; cbn; auto.
        + destruct (over_step _ _ Ho Q) as [O ->]. auto. }
    intros H. exact (proj2 (K _ _ H)).
  Qed.

  (** In which phases a call can raise, in terms of the last call. *)
  Lemma in_send h s v l : greach it h s -> g_log s = l ++ [OnNext v] -> forall e s', gstep it s (GExn e) = Some s' -> g_phase s = GSend.
  Proof.
    intros Hr Hl e s' E. destruct s as [ph n l0]. cbn in *. destruct ph; try discriminate; [reflexivity| |].
    - (* GThrow: the last call is OnError *)
      exfalso. clear E. remember (GState GThrow n l0) as s eqn:Es. assert (Hp : g_phase s = GThrow) by now subst. assert (Hl' : g_log s = l ++ [OnNext v]) by now subst.
      clear Es Hl. revert Hp Hl'. induction Hr as [|h x s s1 Hr IH E]; intros Hp Hl; [discriminate|].
      destruct s as [ph m l1]. destruct x; cbn in E; destruct ph; try discriminate; try (destruct (it m); injection E as <-; discriminate).
      all: injection E as <-; cbn in *; try discriminate.
      apply app_inj_tail in Hl as [_ Hl]. discriminate.
    - exfalso. destruct (gi Hr) as [_ [Hc _]]. cbn in Hc. rewrite Hc in Hl. apply app_inj_tail in Hl as [_ Hl]. discriminate.
  Qed.

  (** The loop goes on: from each phase but the last ones something can happen. *)
  Lemma g_progress h s : greach it h s -> g_over s \/ exists x s', x <> GCancel /\ (forall e, x <> GExn e) /\ gstep it s x = Some s'.
  Proof.
    intros _. destruct s as [ph n l]. destruct ph; try (left; exact I); right.
    - exists GStart. eexists. repeat split; try discriminate.
    - exists GYield. destruct (it n) eqn:E; cbn; rewrite E; eexists; (repeat split; discriminate).
    - exists GRet. eexists. repeat split; try discriminate.
    - exists GRet. eexists. repeat split; try discriminate.
    - exists GRet. eexists. repeat split; try discriminate.
  Qed.
End AI.
