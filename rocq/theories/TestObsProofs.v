(** * Proofs about AsyncTestObserver. *)
From Verif Require Export TestObs RunProofs.
Set Implicit Arguments.

Section TestObs.
  Context {A : Type}.
  Variable pol : policy A.

  Lemma values_begun (s s' : tstate A) h : tsteps pol s h s' -> t_values s' = t_values s ++ begun h.
  Proof.
    intros H. induction H as [|s h x s1 s2 H IH E]; [now rewrite app_nil_r|]. unfold begun in *. rewrite flat_map_app, app_assoc, <- IH. cbn.
    destruct x as [t n|id r|[n| |]]; cbn in E; [injection E as <-; reflexivity| |discriminate|injection E as <-; cbn; now rewrite app_nil_r..].
    destruct (pick id (t_wait s1)) as [[n l]|]; [|discriminate]. injection E as <-. cbn. now rewrite app_nil_r.
  Qed.

  Lemma tsteps_head (s : tstate A) x s1 h s' : tstep pol s x = Some s1 -> tsteps pol s1 h s' -> tsteps pol s (x :: h) s'.
  Proof.
    intros E H. remember s1 as t eqn:Et. induction H as [t|t h y s2 s3 H IH E']; subst.
    - exact (ts_snoc (h := []) _ (ts_nil _ s) E).
    - exact (ts_snoc (h := x :: h) _ (IH eq_refl E) E').
  Qed.
  Lemma tsteps_snoc (s : tstate A) l t h x : tsteps pol s l t -> l = h ++ [x] -> exists s1, tsteps pol s h s1 /\ tstep pol s1 x = Some t.
  Proof. intros H. destruct H as [|s k y s1 s2 H E]; intros F; [now destruct h|]. apply app_inj_tail in F as [-> ->]. eauto. Qed.
  Lemma tsteps_fun (s : tstate A) h : forall s1 s2, tsteps pol s h s1 -> tsteps pol s h s2 -> s1 = s2.
  Proof.
    induction h as [|x h IH] using rev_ind; intros s1 s2 H1 H2.
    - assert (G : forall t, tsteps pol s [] t -> s = t).
      { intros t H. remember [] as l eqn:El. destruct H as [|? k y ? ? ? ?]; [reflexivity|now destruct k]. }
      now rewrite <- (G _ H1), (G _ H2).
    - destruct (tsteps_snoc _ _ H1 eq_refl) as (t1 & G1 & E1). destruct (tsteps_snoc _ _ H2 eq_refl) as (t2 & G2 & E2). rewrite (IH _ _ G1 G2) in E1. congruence.
  Qed.

  (** One call after the other: the base class sees the calls; the log. *)
  Definition seq_base (s : wstate A) (n : notif A) : wstate A :=
    fst (wcall pol (WState (w_last s) (w_stopped s) (w_fut s) (w_log s ++ [n])) n).
  Lemma one_by_one_run l : forall (s : tstate A), t_wait s = [] ->
    tsteps pol s (one_by_one (t_next s) l) (TState (t_values s ++ l) [] (t_next s + length l) (fold_left seq_base (map snd l) (t_base s))).
  Proof.
    induction l as [|[t n] l IH]; intros s Hw; cbn.
    - rewrite app_nil_r, Nat.add_0_r. destruct s; cbn in *; subst. constructor.
    - eapply tsteps_head; [reflexivity|]. eapply tsteps_head; [cbn; rewrite Hw; cbn; rewrite Nat.eqb_refl; reflexivity|].
      cbn. fold (seq_base (t_base s) n).
      specialize (IH (TState (t_values s ++ [(t, n)]) [] (S (t_next s)) (seq_base (t_base s) n)) eq_refl). cbn in IH.
      rewrite <- app_assoc in IH. cbn in IH. rewrite Nat.add_succ_r. exact IH.
  Qed.

  (** The future of the base class does not depend on the log. *)
  Definition same (s s' : wstate A) : Prop := w_last s = w_last s' /\ w_stopped s = w_stopped s' /\ w_fut s = w_fut s'.
  Lemma same_call s s' n : same s s' -> same (fst (wcall pol s n)) (fst (wcall pol s' n)).
  Proof.
    destruct s as [a b f l], s' as [a' b' f' l']. intros (H1 & H2 & H3). cbn in *. subst. unfold wcall. cbn. destruct b'; [repeat split|]. destruct n as [v|e|]; cbn.
    - repeat split.
    - unfold fset. destruct f'; cbn; repeat split.
    - destruct a'; [|repeat split]. unfold fset. destruct f'; cbn; repeat split.
  Qed.
  Lemma same_run l : forall s s', same s s' -> same (fold_left seq_base l s) (fold_left (fun s n => fst (wcall pol s n)) l s').
  Proof.
    induction l as [|n l IH]; intros s s' H; cbn; [exact H|]. apply IH. unfold seq_base. apply same_call. exact H.
  Qed.
  Lemma wrun_calls l : forall (s : wstate A), wrun pol s (map (@WCall A) l) = fold_left (fun s n => fst (wcall pol s n)) l s.
  Proof. induction l as [|n l IH]; intros s; cbn; [reflexivity|]. apply IH. Qed.

  Lemma seq_stopped l : forall (s : wstate A), w_stopped s = true -> w_log (fold_left seq_base l s) = w_log s ++ l.
  Proof.
    induction l as [|n l IH]; intros s H; cbn; [now rewrite app_nil_r|]. unfold seq_base at 2, wcall. cbn. rewrite H. cbn. rewrite IH by reflexivity. cbn. now rewrite <- app_assoc.
  Qed.
  Lemma seq_log l : forall (s : wstate A), w_stopped s = false -> w_fut s = FPending -> w_log (fold_left seq_base l s) = w_log s ++ doubled l.
  Proof.
    induction l as [|n l IH]; intros s H Hf; cbn [fold_left doubled]; [now rewrite app_nil_r|]. unfold seq_base at 2, wcall. cbn [w_stopped w_last w_fut w_log]. rewrite H, Hf.
    destruct n as [v|e|]; cbn.
    - rewrite IH by reflexivity. cbn. now rewrite <- !app_assoc.
    - rewrite seq_stopped by reflexivity. cbn. now rewrite <- !app_assoc.
    - destruct (w_last s); cbn; rewrite seq_stopped by reflexivity; cbn; now rewrite <- !app_assoc.
  Qed.

  (** If the function of the user raises, the base class is not called. *)
  Lemma raised_step (s s' : tstate A) id e : tstep pol s (TResume id (Some e)) = Some s' -> t_base s' = t_base s /\ t_values s' = t_values s.
  Proof. cbn. destruct (pick id (t_wait s)) as [[n l]|]; [|discriminate]. intros E. injection E as <-. split; reflexivity. Qed.

  (** The future is touched by the rests of calls only, and by others. *)
  Definition all_raise (h : list (tlabel (A := A))) : Prop := Forall (fun x => match x with TResume _ None | TBase _ => False | _ => True end) h.
  Lemma all_raise_same (s s' : tstate A) h : all_raise h -> tsteps pol s h s' -> same (t_base s') (t_base s).
  Proof.
    intros Hr H. unfold all_raise in Hr. induction H as [|s h x s1 s2 H IH E]; [repeat split|]. apply Forall_app in Hr as [Hr Hx]. inversion Hx as [|? ? Hy _]; subst.
    destruct (IH Hr) as (G1 & G2 & G3). destruct x as [t n|id [e|]|y]; [|apply raised_step in E as [-> _]; repeat split; auto|destruct Hy..].
    injection E as <-. repeat split; auto.
  Qed.
End TestObs.
