(** * Proofs about to_observable. *)
From Verif Require Export ToObs.
Set Implicit Arguments.

Section P.
  Context {A : Type}.
  Implicit Types (h : list (tolabel A)) (s : tostate A).

  Lemma to_forwards h s : toreach h s -> t_out s = source_made h.
  Proof.
    induction 1 as [|h s l s' H IH Hs]; [reflexivity|]. unfold source_made in *. rewrite flat_map_app, <- IH. clear IH H.
    destruct l; cbn in Hs |- *; rewrite ?app_nil_r; unfold drop in Hs; cbn in Hs;
      repeat match type of Hs with context [match ?x with _ => _ end] => destruct x; try discriminate end; injection Hs as <-; reflexivity.
  Qed.

  (** What the state says about the history. *)
  Definition failed h : Prop := exists e, In (TSubFailed e) h.
  Record tinv h s : Prop := {
    ti_new : t_phase s = TNew \/ t_phase s = TSubscribing -> ~ made h /\ ~ failed h /\ t_lost s = [] /\ In StartTask (t_tasks s);
    ti_made : made h <-> t_sub s = true;
    ti_ok : made h -> ~ failed h /\ ~ In StartTask (t_tasks s) /\
            (t_phase s = TEnded /\ t_lost s = [] \/ t_phase s = TCalledBack /\ t_lost s = [KeyError]);
    ti_failed : forall e, In (TSubFailed e) h -> ~ made h /\ t_lost s = [e] /\ (t_phase s = TEnded \/ t_phase s = TCalledBack) /\
            (In StartTask (t_tasks s) <-> t_phase s = TEnded);
    ti_used : t_used s = true <-> In TDispose h;
    ti_created : t_created s = true -> t_sub s = true /\ t_used s = true;
    ti_task : In DisposeTask (t_tasks s) <-> t_created s = true;
    ti_disposed : t_disposed s <= 1 /\ (t_disposed s = 1 -> t_created s = true)
  }.

  Lemma in_snoc X (l : list X) x y : In y (l ++ [x]) <-> In y l \/ x = y.
  Proof. rewrite in_app_iff. cbn. tauto. Qed.
  Lemma made_snoc h l : made (h ++ [l]) <-> made h \/ l = TSubscribed.
  Proof. unfold made. apply in_snoc. Qed.

  Lemma failed_snoc h l : failed (h ++ [l]) <-> failed h \/ exists e, l = TSubFailed e.
  Proof.
    unfold failed. split.
    - intros [e H]. apply in_snoc in H as [H|H]; eauto.
    - intros [[e H]|[e H]]; exists e; apply in_snoc; auto.
  Qed.

  Notation others := (filter (fun t => negb (is_start t))).
  Lemma remove_other (l : list totask) : In DisposeTask (others l) <-> In DisposeTask l.
  Proof. rewrite filter_In. cbn. tauto. Qed.
  Lemma remove_start (l : list totask) : ~ In StartTask (others l).
  Proof. rewrite filter_In. cbn. intros [_ F]. discriminate. Qed.
  Lemma has_start (l : list totask) : {In StartTask l /\ existsb is_start l = true} + {~ In StartTask l /\ existsb is_start l = false}.
  Proof.
    destruct (existsb is_start l) eqn:E; [left|right]; (split; [|reflexivity]).
    - apply existsb_exists in E as ([|] & H & E); [exact H|discriminate].
    - intros F. assert (X : existsb is_start l = true) by (apply existsb_exists; exists StartTask; auto). congruence.
  Qed.

  Lemma reach_tinv h s : toreach h s -> tinv h s.
  Proof.
    induction 1 as [|h s l s' H IH Hs].
    - constructor; cbn; unfold made, failed.
      + intros _. split; [intros []|]. split; [intros [e []]|]. auto.
      + split; [intros []|discriminate].
      + intros [].
      + intros e [].
      + split; [discriminate|intros []].
      + discriminate.
      + split; [intros [F|[]]|]; discriminate.
      + split; [lia|discriminate].
    - destruct IH as [I1 I2 I3 I4 I5 I6 I7 [I8 I9]].
      destruct l; cbn in Hs.
      + (* TStart *) destruct (t_phase s) eqn:P; try discriminate. injection Hs as <-. destruct (I1 (or_introl eq_refl)) as (N1 & N2 & N3 & N4).
        constructor; cbn; rewrite ?made_snoc, ?failed_snoc, ?in_snoc.
        * intros _. split; [intros [F|F]; [auto|discriminate]|]. split; [intros [F|[e F]]; [auto|discriminate]|]. auto.
        * rewrite <- I2. split; [intros [F|F]; [auto|discriminate]|auto].
        * intros [F|F]; [contradiction|discriminate].
        * intros e F. apply in_snoc in F as [F|F]; [elim N2; now exists e|discriminate].
        * rewrite I5. split; [auto|intros [F|F]; [auto|discriminate]].
        * exact I6.
        * exact I7.
        * auto.
      + (* TCall *) assert (E : s' = ToState (t_phase s) (t_sub s) (t_tasks s) (t_used s) (t_created s) (t_out s ++ [n]) (t_disposed s) (t_lost s))
          by (destruct (t_phase s); congruence). subst s'.
        assert (M : made (h ++ [TCall n]) <-> made h) by (rewrite made_snoc; split; [intros [F|F]; [auto|discriminate]|auto]).
        assert (Fa : failed (h ++ [TCall n]) <-> failed h) by (rewrite failed_snoc; split; [intros [F|[e F]]; [auto|discriminate]|auto]).
        constructor; cbn; rewrite ?M, ?Fa; auto.
        * intros e F. apply in_snoc in F as [F|F]; [rewrite M; now apply I4|discriminate].
        * rewrite in_snoc, I5. split; [auto|intros [F|F]; [auto|discriminate]].
      + (* TSubscribed *) destruct (t_phase s) eqn:P; try discriminate. injection Hs as <-. destruct (I1 (or_intror eq_refl)) as (N1 & N2 & N3 & N4).
        unfold drop. cbn. destruct (has_start (t_tasks s)) as [[D E]|[D E]]; [|contradiction]; rewrite E.
        constructor; cbn; rewrite ?made_snoc, ?failed_snoc, ?in_snoc.
        * intros [F|F]; discriminate.
        * split; auto.
        * intros _. split; [intros [F|[e F]]; [auto|discriminate]|]. split; [apply remove_start|auto].
        * intros e F. apply in_snoc in F as [F|F]; [elim N2; now exists e|discriminate].
        * rewrite I5. split; [auto|intros [F|F]; [auto|discriminate]].
        * intros F. split; [reflexivity|now apply I6].
        * rewrite remove_other. exact I7.
        * auto.
      + (* TSubFailed *) destruct (t_phase s) eqn:P; try discriminate. injection Hs as <-. destruct (I1 (or_intror eq_refl)) as (N1 & N2 & N3 & N4).
        constructor; cbn; rewrite ?made_snoc, ?failed_snoc, ?in_snoc.
        * intros [F|F]; discriminate.
        * rewrite <- I2. split; [intros [F|F]; [auto|discriminate]|auto].
        * intros [F|F]; [contradiction|discriminate].
        * intros e' F. apply in_snoc in F as [F|F]; [elim N2; now exists e'|]. injection F as ->. rewrite made_snoc, N3.
          split; [intros [F|F]; [auto|discriminate]|]. split; [reflexivity|]. split; [auto|tauto].
        * rewrite I5. split; [auto|intros [F|F]; [auto|discriminate]].
        * exact I6.
        * exact I7.
        * auto.
      + (* TCallback *) destruct (t_phase s) eqn:P; try discriminate. injection Hs as <-. unfold drop. cbn.
        assert (M : made (h ++ [TCallback]) <-> made h) by (rewrite made_snoc; split; [intros [F|F]; [auto|discriminate]|auto]).
        assert (Fa : failed (h ++ [TCallback]) <-> failed h) by (rewrite failed_snoc; split; [intros [F|[e F]]; [auto|discriminate]|auto]).
        destruct (has_start (t_tasks s)) as [[D E]|[D E]]; rewrite E.
        * constructor; cbn; rewrite ?M, ?Fa; auto.
          -- intros [F|F]; discriminate.
          -- intros F. destruct (I3 F) as (_ & X & _). contradiction.
          -- intros e F. apply in_snoc in F as [F|F]; [|discriminate]. rewrite M. destruct (I4 e F) as (X1 & X2 & X3 & X4).
             repeat split; auto; [intros G; elim (remove_start (t_tasks s)); exact G|discriminate].
          -- rewrite in_snoc, I5. split; [auto|intros [F|F]; [auto|discriminate]].
          -- rewrite remove_other. exact I7.
        * constructor; cbn; rewrite ?M, ?Fa; auto.
          -- intros [F|F]; discriminate.
          -- intros F. destruct (I3 F) as (X1 & X2 & [[X3 X4]|[X3 _]]); [|discriminate]. rewrite X4. auto.
          -- intros e F. apply in_snoc in F as [F|F]; [|discriminate]. destruct (I4 e F) as (X1 & X2 & X3 & X4). elim D. now apply X4.
          -- rewrite in_snoc, I5. split; [auto|intros [F|F]; [auto|discriminate]].
      + (* TDispose *) injection Hs as <-.
        assert (M : made (h ++ [TDispose]) <-> made h) by (rewrite made_snoc; split; [intros [F|F]; [auto|discriminate]|auto]).
        assert (Fa : failed (h ++ [TDispose]) <-> failed h) by (rewrite failed_snoc; split; [intros [F|[e F]]; [auto|discriminate]|auto]).
        assert (I4' : forall e, In (TSubFailed e) (h ++ [TDispose]) -> In (TSubFailed e) h) by (intros e F; apply in_snoc in F as [F|F]; [auto|discriminate]).
        destruct (t_used s) eqn:U; [|destruct (t_sub s) eqn:S].
        * constructor; rewrite ?M, ?Fa; auto; try (rewrite in_snoc, U; tauto).
          -- intros e F. rewrite M. auto.
          -- intros F. rewrite U; now apply I6.
        * assert (Hm : made h) by now apply I2. destruct (I3 Hm) as (X1 & X2 & X3).
          constructor; cbn; rewrite ?M, ?Fa; auto.
          -- intros [F|F]; rewrite F in X3; destruct X3 as [[? _]|[? _]]; discriminate.
          -- intros _. split; [exact X1|]. split; [intros F; apply in_snoc in F as [F|F]; [auto|discriminate]|exact X3].
          -- intros e F. elim X1. exists e. auto.
          -- rewrite in_snoc. tauto.
          -- rewrite in_snoc. tauto.
        * constructor; cbn; rewrite ?M, ?Fa; auto.
          -- intros e F. rewrite M. auto.
          -- rewrite in_snoc. tauto.
          -- intros F. destruct (I6 F). discriminate.
      + (* TDisposing *) destruct (t_created s && (t_disposed s =? 0)) eqn:E; [|discriminate]. injection Hs as <-. apply andb_true_iff in E as [E1 E2]. apply Nat.eqb_eq in E2.
        assert (M : made (h ++ [TDisposing]) <-> made h) by (rewrite made_snoc; split; [intros [F|F]; [auto|discriminate]|auto]).
        assert (Fa : failed (h ++ [TDisposing]) <-> failed h) by (rewrite failed_snoc; split; [intros [F|[e F]]; [auto|discriminate]|auto]).
        constructor; cbn; rewrite ?M, ?Fa; auto.
        * intros e F. apply in_snoc in F as [F|F]; [|discriminate]. rewrite M. auto.
        * rewrite in_snoc, I5. split; [auto|intros [F|F]; [auto|discriminate]].
        * split; [lia|auto].
  Qed.

  Lemma reach_ended h s : toreach h s -> t_phase s <> TNew /\ t_phase s <> TSubscribing -> made h \/ failed h.
  Proof.
    induction 1 as [|h s l s' H IH Hs]; intros [N1 N2]; [now elim N1|]. rewrite made_snoc, failed_snoc.
    destruct l; cbn in Hs; unfold drop in Hs; cbn in Hs.
    - destruct (t_phase s); try discriminate. injection Hs as <-. now elim N2.
    - assert (E : t_phase s' = t_phase s) by (destruct (t_phase s); try discriminate; now injection Hs as <-). rewrite E in *. destruct IH; auto.
    - auto.
    - right. right. eauto.
    - destruct (t_phase s); try discriminate. destruct IH; auto. split; discriminate.
    - assert (E : t_phase s' = t_phase s) by (injection Hs as <-; destruct (t_used s), (t_sub s); reflexivity). rewrite E in *. destruct IH; auto.
    - assert (E : t_phase s' = t_phase s) by (destruct (t_created s && (t_disposed s =? 0)); [now injection Hs as <-|discriminate]). rewrite E in *. destruct IH; auto.
  Qed.

  Lemma to_app_inv h l s : toreach (h ++ [l]) s -> exists s0, toreach h s0 /\ tostep s0 l = Some s.
  Proof.
    intros H. inversion H as [E|h' s0 l' s' H' Hs E]; [destruct h; discriminate|]. apply app_inj_tail in E as [-> ->]. eauto.
  Qed.

  (** A disposal before the subscription was made. *)
  Lemma early h1 h2 s : toreach (h1 ++ TDispose :: h2) s -> ~ made h1 -> t_created s = false /\ t_used s = true.
  Proof.
    revert s. induction h2 as [|x h2 IH] using rev_ind; intros s H Hn.
    - apply to_app_inv in H as (s0 & H & Hs). pose proof (reach_tinv H) as [_ I2 _ _ I5 I6 _ _]. cbn in Hs. injection Hs as <-.
      assert (S : t_sub s0 = false) by (destruct (t_sub s0); [elim Hn; now apply I2|reflexivity]).
      assert (C : t_created s0 = false) by (destruct (t_created s0); [destruct (I6 eq_refl); congruence|reflexivity]).
      destruct (t_used s0) eqn:U; [auto|]. rewrite S. cbn. auto.
    - replace (h1 ++ TDispose :: h2 ++ [x]) with ((h1 ++ TDispose :: h2) ++ [x]) in H by (now rewrite <- app_assoc).
      apply to_app_inv in H as (s0 & H & Hs). destruct (IH s0 H Hn) as [C U].
      destruct x; cbn in Hs; unfold drop in Hs; cbn in Hs; rewrite ?C, ?U in Hs; cbn in Hs;
        repeat match type of Hs with context [match ?x with _ => _ end] => destruct x; try discriminate end; try discriminate; injection Hs as <-; cbn; auto.
  Qed.

  (** A disposal afterwards. *)
  Lemma late h1 h2 s : toreach (h1 ++ TDispose :: h2) s -> made h1 -> ~ In TDispose h1 -> t_created s = true.
  Proof.
    revert s. induction h2 as [|x h2 IH] using rev_ind; intros s H Hm Hd.
    - apply to_app_inv in H as (s0 & H & Hs). pose proof (reach_tinv H) as [_ I2 _ _ I5 I6 _ _]. cbn in Hs. injection Hs as <-.
      assert (U : t_used s0 = false) by (destruct (t_used s0); [elim Hd; now apply I5|reflexivity]).
      rewrite U. apply I2 in Hm. now rewrite Hm.
    - replace (h1 ++ TDispose :: h2 ++ [x]) with ((h1 ++ TDispose :: h2) ++ [x]) in H by (now rewrite <- app_assoc).
      apply to_app_inv in H as (s0 & H & Hs). pose proof (IH s0 H Hm Hd) as C.
      destruct x; cbn in Hs; unfold drop in Hs; cbn in Hs; rewrite ?C in Hs; cbn in Hs;
        repeat match type of Hs with context [match ?x with _ => _ end] => destruct x; try discriminate end; try discriminate; injection Hs as <-; cbn; auto.
  Qed.

  Lemma to_run h2 : forall h1 s s', toreach h1 s -> torun s h2 = Some s' -> toreach (h1 ++ h2) s'.
  Proof.
    induction h2 as [|x h2 IH]; intros h1 s s' H E; cbn in E; [injection E as <-; now rewrite app_nil_r|].
    destruct (tostep s x) as [s1|] eqn:Hs; [|discriminate]. replace (h1 ++ x :: h2) with ((h1 ++ [x]) ++ h2) by (now rewrite <- app_assoc).
    apply (IH _ s1); [|exact E]. exact (to_snoc _ H Hs).
  Qed.
End P.
