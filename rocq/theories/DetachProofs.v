(** * Proofs about auto_detach_observer. *)
From Verif Require Export Detach.
Set Implicit Arguments.

Ltac cases E := repeat match type of E with
  | context [match ?x with _ => _ end] => destruct x eqn:?; try discriminate E
  end; try (injection E as E); subst; cbn in *.

Section Detach.
  Context {A : Type}.

  Lemma dsteps_trans lib (s s' s'' : dstate A) h h' : dsteps lib s h s' -> dsteps lib s' h' s'' -> dsteps lib s (h ++ h') s''.
  Proof.
    intros H H'. induction H' as [t|t h' x s1 s2 H' IH E]; [now rewrite app_nil_r|]. rewrite app_assoc. exact (ds_snoc _ (IH H) E).
  Qed.
  Lemma drun_steps lib h : forall s s' : dstate A, drun lib s h = Some s' -> dsteps lib s h s'.
  Proof.
    induction h as [|x h IH]; intros s s' E; cbn in E; [injection E as <-; constructor|].
    destruct (dstep lib s x) as [s1|] eqn:E1; [|discriminate]. apply (dsteps_trans (s' := s1) (h := [x])); [|auto].
    exact (ds_snoc (h := []) _ (ds_nil _ s) E1).
  Qed.

  Definition regs (l : list dmsg) : list nat := flat_map (fun m => match m with Register d => [d] | DisposeAll => [] end) l.
  Lemma regs_app a b : regs (a ++ b) = regs a ++ regs b.
  Proof. apply flat_map_app. Qed.

  (** *** Nothing was cancelled yet *)
  Record before (s : dstate A) : Prop := Before {
    be_token : d_token s = false;
    be_keeper : d_keeper s = KFresh \/ d_keeper s = KWaits;
    be_regs : d_registered s = d_held s ++ regs (d_mail s);
    be_no : ~ In DisposeAll (d_mail s);
    be_disposed : d_disposed s = []
  }.

  (** *** The upstream is never disposed *)
  Definition never (s : dstate A) : Prop := d_token s = true /\ d_running s = false /\ d_keeper s = KOver /\ d_disposed s = [].

  (** The subscriptions [ds] are disposed. *)
  Record detaching (ds : list nat) (s : dstate A) : Prop := Detaching {
    de_token : d_token s = true;
    de_running : d_running s = false;
    de_regs : exists l, d_registered s = ds ++ l;
    de_keeper : (d_keeper s = KWaits /\ d_held s = ds /\ d_disposed s = [] /\ exists m, d_mail s = DisposeAll :: m) \/
                (exists l, d_keeper s = KDisposes l /\ ds = d_disposed s ++ l) \/
                (d_keeper s = KOver /\ exists l, ds = d_disposed s ++ l)
  }.
  (** They are not, as the worker is late: it takes one message more at most. *)
  Definition missing (s : dstate A) : Prop :=
    d_token s = true /\ d_running s = false /\ d_disposed s = [] /\
    (d_keeper s = KFresh \/ d_keeper s = KOver \/ (d_keeper s = KWaits /\ exists d m, d_mail s = Register d :: m)).

  Definition inv (lib : library) (s : dstate A) : Prop :=
    before s \/ match lib with Stops => never s | GoesOn => missing s \/ exists ds, detaching ds s end.

  Lemma inv_init lib : inv lib d_init.
  Proof. left. constructor; cbn; auto. Qed.

  Lemma before_term lib s r s' : before s -> terminates s -> dstep lib s (DSafe r) = Some s' ->
    match lib with
    | Stops => never s'
    | GoesOn => (caught_up s -> detaching (d_registered s) s') /\ (~ caught_up s -> missing s')
    end.
  Proof.
    intros [H1 H2 H3 H4 H5] (Hr & n & inbox & Hi & Hn) E. cbn in E. unfold safe_step in E. rewrite Hr, Hi in E.
    assert (E' : s' = call_ (cancel_ lib (DState inbox true (d_calls s) (d_mail s) (d_keeper s) (d_held s) (d_token s) (d_registered s) (d_disposed s))) false [n])
      by (destruct n; [discriminate| |]; now injection E as <-).
    subst s'. clear E. destruct lib; [repeat split; auto|]. unfold caught_up. split.
    - intros [K M]. constructor; cbn; auto; [exists []; now rewrite app_nil_r|]. left. rewrite M in *. cbn in *. rewrite app_nil_r in H3. repeat split; eauto.
    - intros C. repeat split; auto. cbn. destruct H2 as [K|K]; [auto|]. right. right. split; [exact K|].
      destruct (d_mail s) as [|[d|] m]; [elim C; auto| |elim H4; now left]. cbn. eauto.
  Qed.

  Lemma before_step lib s x s' : before s -> dstep lib s x = Some s' -> before s' \/ (exists r, x = DSafe r /\ terminates s).
  Proof.
    intros [H1 H2 H3 H4 H5] E. destruct x as [n|r|d|r]; cbn in E.
    - injection E as <-. left. constructor; auto.
    - unfold safe_step in E. destruct (d_running s) eqn:Er; [|discriminate]. destruct (d_inbox s) as [|n inbox] eqn:Ei; [discriminate|].
      destruct n as [a|e|]; [|right; exists r; split; [reflexivity|]; split; [exact Er|]; eauto..].
      left. destruct r; injection E as <-; constructor; auto.
    - injection E as <-. left. constructor; cbn; auto.
      + rewrite regs_app. cbn. rewrite H3, app_assoc. reflexivity.
      + rewrite in_app_iff. intros [F|[F|[]]]; [auto|discriminate].
    - left. unfold keeper_step, loop_ in E. rewrite H1 in E. destruct H2 as [K|K]; rewrite K in E.
      + injection E as <-. constructor; cbn; auto.
      + destruct (d_mail s) as [|[d|] m] eqn:Em; [discriminate| |elim H4; now left]. injection E as <-. constructor; cbn; auto.
        * rewrite H3, <- app_assoc. reflexivity.
        * intros F. apply H4. now right.
  Qed.

  Lemma never_step lib s x s' : never s -> dstep lib s x = Some s' -> never s'.
  Proof.
    intros (H1 & H2 & H3 & H4) E. destruct x as [n|r|d|r]; cbn in E; [injection E as <-; repeat split; auto| |injection E as <-; repeat split; auto|].
    - unfold safe_step in E. now rewrite H2 in E.
    - unfold keeper_step in E. rewrite H3 in E. discriminate.
  Qed.

  Lemma missing_step lib s x s' : missing s -> dstep lib s x = Some s' -> missing s'.
  Proof.
    intros (H1 & H2 & H3 & H4) E. destruct x as [n|r|d|r]; cbn in E.
    - injection E as <-. repeat split; auto.
    - unfold safe_step in E. now rewrite H2 in E.
    - injection E as <-. repeat split; auto. cbn. destruct H4 as [K|[K|(K & d' & m & M)]]; auto. right. right. rewrite M. cbn. eauto.
    - unfold keeper_step, loop_ in E. rewrite H1 in E. destruct H4 as [K|[K|(K & d' & m & M)]]; rewrite K in E; [injection E as <-|discriminate|rewrite M in E; injection E as <-];
        repeat split; cbn; auto.
  Qed.

  Lemma detaching_step lib ds s x s' : detaching ds s -> dstep lib s x = Some s' -> detaching ds s'.
  Proof.
    intros [H1 H2 [l H3] H4] E. destruct x as [n|r|d|r]; cbn in E.
    - injection E as <-. constructor; cbn; eauto.
    - unfold safe_step in E. now rewrite H2 in E.
    - injection E as <-. constructor; cbn; auto; [rewrite H3; exists (l ++ [d]); now rewrite app_assoc|].
      destruct H4 as [(K & K1 & K2 & m & M)|H4]; [|auto]. left. repeat split; auto. rewrite M. cbn. eauto.
    - unfold keeper_step in E. destruct H4 as [(K & K1 & K2 & m & M)|[(l' & K & K1)|[K _]]]; rewrite K in E.
      + rewrite M in E. injection E as <-. constructor; cbn; eauto. right. left. exists (d_held s). rewrite K1, K2. auto.
      + destruct l' as [|d l'].
        * injection E as <-. constructor; cbn; eauto.
        * injection E as <-. constructor; cbn; eauto. right. destruct r; [right|left]; [split; [reflexivity|]; exists l'|exists l'; split; [reflexivity|]]; rewrite <- app_assoc; exact K1.
      + discriminate.
  Qed.

  Lemma inv_step lib s x s' : inv lib s -> dstep lib s x = Some s' -> inv lib s'.
  Proof.
    intros [H|H] E.
    - destruct (before_step lib x H E) as [F|(r & -> & F)]; [now left|]. right. pose proof (before_term lib r H F E) as G. destruct lib; [exact G|].
      destruct G as [G1 G2]. destruct (d_keeper s) eqn:Ek.
      1,3,4: left; apply G2; unfold caught_up; rewrite Ek; intros [F' _]; discriminate.
      destruct (d_mail s) eqn:Em; [right; exists (d_registered s); apply G1; split; assumption|left; apply G2; unfold caught_up; rewrite Em; intros [_ F']; discriminate].
    - right. destruct lib; [exact (never_step _ _ H E)|]. destruct H as [H|[ds H]]; [left; exact (missing_step _ _ H E)|right; exists ds; exact (detaching_step _ _ H E)].
  Qed.
  Lemma reach_inv lib h s : dsteps lib d_init h s -> inv lib s.
  Proof. intros H. remember d_init as s0. induction H as [|s0 h x s1 s2 H IH E]; subst; [apply inv_init|]. eapply inv_step; [exact (IH eq_refl)|exact E]. Qed.
  Lemma reach_before lib h s : dsteps lib d_init h s -> d_running s = true -> before s.
  Proof.
    intros H Hr. destruct (reach_inv H) as [F|F]; [exact F|]. destruct lib; [destruct F as (_ & F & _); congruence|].
    destruct F as [(_ & F & _)|[ds [_ F _ _]]]; congruence.
  Qed.

  Lemma never_steps lib s h s' : never s -> dsteps lib s h s' -> never s'.
  Proof. intros Hn H. induction H as [|s h x s1 s2 H IH E]; [exact Hn|exact (never_step _ _ (IH Hn) E)]. Qed.
  Lemma missing_steps lib s h s' : missing s -> dsteps lib s h s' -> missing s'.
  Proof. intros Hn H. induction H as [|s h x s1 s2 H IH E]; [exact Hn|exact (missing_step _ _ (IH Hn) E)]. Qed.
  Lemma detaching_steps lib ds s h s' : detaching ds s -> dsteps lib s h s' -> detaching ds s'.
  Proof. intros Hn H. induction H as [|s h x s1 s2 H IH E]; [exact Hn|exact (detaching_step _ _ (IH Hn) E)]. Qed.

  (** If no dispose_async raises, all are disposed. *)
  Definition all_or_going (ds : list nat) (s : dstate A) : Prop :=
    detaching ds s /\ (d_keeper s = KOver -> d_disposed s = ds).
  Lemma going_step lib ds s x s' : all_or_going ds s -> (forall e, x <> DKeeper (Some e)) -> dstep lib s x = Some s' -> all_or_going ds s'.
  Proof.
    intros [H Ho] Hx E. split; [exact (detaching_step _ _ H E)|]. destruct H as [H1 H2 H3 H4]. destruct x as [n|r|d|r]; cbn in E.
    - injection E as <-. exact Ho.
    - unfold safe_step in E. now rewrite H2 in E.
    - injection E as <-. exact Ho.
    - unfold keeper_step in E. destruct H4 as [(K & K1 & K2 & m & M)|[(l' & K & K1)|[K _]]]; rewrite K in E.
      + rewrite M in E. injection E as <-. discriminate.
      + destruct l' as [|d l']; injection E as <-; cbn; [intros _; now rewrite app_nil_r in K1|]. destruct r as [e|]; [elim (Hx e); reflexivity|discriminate].
      + discriminate.
  Qed.
  Lemma going_steps lib ds s h s' : all_or_going ds s -> no_raise h -> dsteps lib s h s' -> all_or_going ds s'.
  Proof.
    intros Hg Hn H. induction H as [|s h x s1 s2 H IH E]; [exact Hg|]. eapply going_step; [apply (IH Hg)| |exact E].
    - intros e F. apply (Hn e), in_app_iff. auto.
    - intros e ->. apply (Hn e), in_app_iff. right. now left.
  Qed.
  Lemma detaching_idle ds s : all_or_going ds s -> idle s -> d_disposed s = ds.
  Proof.
    intros [[H1 H2 H3 H4] Ho] Hi. destruct H4 as [(K & K1 & K2 & m & M)|[(l' & K & K1)|[K _]]]; [| |auto]; specialize (Hi None); unfold keeper_step in Hi; rewrite K in Hi.
    - rewrite M in Hi. discriminate.
    - destruct l'; discriminate.
  Qed.

  (** The worker gets there. *)
  Lemma detaching_ends ds s : detaching ds s -> exists k s', dsteps GoesOn s (repeat (DKeeper None) k) s' /\ idle s'.
  Proof.
    intros H.
    assert (O : forall s, d_keeper s = KOver -> exists k s', dsteps GoesOn s (repeat (DKeeper None) k) s' /\ idle (A := A) s').
    { clear. intros s K. exists 0, s. split; [constructor|]. intros r. unfold keeper_step. now rewrite K. }
    assert (C : forall s s1, dstep GoesOn s (DKeeper None) = Some s1 -> (exists k s', dsteps GoesOn s1 (repeat (DKeeper None) k) s' /\ idle (A := A) s') ->
      exists k s', dsteps GoesOn s (repeat (DKeeper None) k) s' /\ idle (A := A) s').
    { clear. intros s s1 E (k & s' & H & Hi). exists (S k), s'. split; [|exact Hi]. change (repeat (DKeeper None) (S k)) with ([DKeeper None] ++ repeat (@DKeeper A None) k).
      refine (dsteps_trans _ H). exact (ds_snoc (h := []) _ (ds_nil _ s) E). }
    assert (D : forall l s, d_keeper s = KDisposes l -> exists k s', dsteps GoesOn s (repeat (DKeeper None) k) s' /\ idle (A := A) s').
    { clear -O C. induction l as [|d l IH]; intros s K.
      - eapply C; [cbn; unfold keeper_step; rewrite K; reflexivity|]. now apply O.
      - eapply C; [cbn; unfold keeper_step; rewrite K; reflexivity|]. now apply IH. }
    destruct (de_keeper H) as [(K & K1 & K2 & m & M)|[(l' & K & K1)|[K _]]]; [|exact (D _ _ K)|exact (O _ K)].
    eapply C; [cbn; unfold keeper_step; rewrite K, M; reflexivity|]. now eapply D.
  Qed.

  (** The observer raises in asend: safe_observer ends and cancels nothing. *)
  Definition abandoned (s : dstate A) : Prop := before s /\ d_running s = false.
  Lemma abandoned_step lib s x s' : abandoned s -> dstep lib s x = Some s' -> abandoned s'.
  Proof.
    intros [H Hr] E. destruct (before_step lib x H E) as [F|(r & -> & (F & _))]; [|congruence]. split; [exact F|].
    destruct x as [n|r|d|r]; cbn in E; [injection E as <-; exact Hr|unfold safe_step in E; now rewrite Hr in E|injection E as <-; exact Hr|].
    unfold keeper_step in E. destruct (be_keeper H) as [K|K]; rewrite K in E; [injection E as <-; exact Hr|]. destruct (d_mail s) as [|[d|] m]; [discriminate|injection E as <-; exact Hr..].
  Qed.
  Lemma abandoned_steps lib s h s' : abandoned s -> dsteps lib s h s' -> abandoned s'.
  Proof. intros Hn H. induction H as [|s h x s1 s2 H IH E]; [exact Hn|exact (abandoned_step _ _ (IH Hn) E)]. Qed.
End Detach.
