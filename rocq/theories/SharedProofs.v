(** * Proofs about several subscriptions of one observable. *)
From Verif Require Export Shared.
Set Implicit Arguments.

Section SharedProofs.
  Context {A : Type}.
  Implicit Types (s : hstate A) (h : list (hlabel A)) (u v : hsub A).

  Lemma hput_length i u l : length (hput i u l) = length l.
  Proof. revert i. induction l as [|w l IH]; intros [|i]; cbn; auto. Qed.

  Lemma hput_same i u v l : nth_error l i = Some v -> nth_error (hput i u l) i = Some u.
  Proof. revert i. induction l as [|w l IH]; intros [|i]; cbn; try discriminate; auto. Qed.

  Lemma hput_other i j u l : i <> j -> nth_error (hput i u l) j = nth_error l j.
  Proof. revert i j. induction l as [|w l IH]; intros [|i] [|j] H; cbn; auto; try congruence. Qed.

  Lemma hrun_init o h : forall s, hruns (h_init o) h = Some s -> hreach o h s.
  Proof.
    assert (G : forall h2 h1 s1 s, hreach o h1 s1 -> hruns s1 h2 = Some s -> hreach o (h1 ++ h2) s).
    { induction h2 as [|x h2 IH]; intros h1 s1 s Hr E; cbn in E.
      - injection E as <-. now rewrite app_nil_r.
      - destruct (hstep s1 x) as [s2|] eqn:Ex; [|discriminate].
        replace (h1 ++ x :: h2) with ((h1 ++ [x]) ++ h2) by now rewrite <- app_assoc.
        apply (IH _ s2); [|exact E]. exact (hr_snoc _ Hr Ex). }
    intros s E. exact (G h [] _ s (hr_nil o) E).
  Qed.

  Lemma hreach_app o h1 : forall h2 s, hreach o (h1 ++ h2) s ->
    exists s1, hreach o h1 s1 /\ hruns s1 h2 = Some s.
  Proof.
    induction h2 as [|x h2 IH] using rev_ind; intros s H.
    - rewrite app_nil_r in H. now exists s.
    - rewrite app_assoc in H. inversion H as [E|h0 y s0 s' Hr Hs E].
      + destruct (app_cons_not_nil _ _ _ E).
      + apply app_inj_tail in E. destruct E as [-> ->]. destruct (IH _ Hr) as (s1 & Ha & H2).
        exists s1. split; [exact Ha|]. clear - H2 Hs. revert s1 H2.
        induction h2 as [|z h2 IH]; intros s1 H2; cbn in *.
        * injection H2 as <-. now rewrite Hs.
        * destruct (hstep s1 z); [now apply IH|discriminate].
  Qed.

  (** ** The calls of the worker bodies *)
  Lemma hcalls_seq (xs : list A) e : hcalls (seq_body xs e) = iterated xs e.
  Proof.
    assert (G : forall (xs : list A) l, texec (fun l n => (l ++ [n], None)) (seq_body xs e) l = l ++ iterated xs e).
    { unfold texec, seq_body, iterated. induction xs0 as [|x xs0 IH]; intros l.
      - destruct e; cbn; [now rewrite app_nil_r|reflexivity].
      - cbn in *. rewrite IH. now rewrite <- app_assoc. }
    exact (G xs []).
  Qed.

  Lemma hcalls_async (o : option (res A)) :
    hcalls (async_body o) = match o with Some r => outcome r | None => [OnCompleted] end.
  Proof. destruct o as [[v|e]|]; reflexivity. Qed.

  (** ** For every shared object *)
  Definition ginv h s : Prop := forall i,
    match nth_error (h_subs s) i with
    | Some u =>
        match k_task u with
        | KNew => ~ In i (starts h) /\ k_calls u = [] /\ ~ In (HCancel i) h
        | KWaiting c => In i (starts h) /\ k_calls u = [] /\ (c = true -> In (HCancel i) h)
        | KOver => In i (starts h) \/ k_calls u = [] /\ In (HCancel i) h
        end
    | None => ~ In i (starts h) /\ ~ In (HCancel i) h
    end.

  Lemma starts_snoc h x : starts (h ++ [x]) = starts h ++ match x with HStart i => [i] | _ => [] end.
  Proof. unfold starts. rewrite flat_map_app. cbn. now rewrite app_nil_r. Qed.
  Lemma outcomes_snoc h x : outcomes (h ++ [x]) = outcomes h ++ match x with HResolve r => [r] | _ => [] end.
  Proof. unfold outcomes. rewrite flat_map_app. cbn. now rewrite app_nil_r. Qed.
  Lemma in_snoc X (a b : X) l : In a (l ++ [b]) <-> In a l \/ a = b.
  Proof. rewrite in_app_iff. cbn. intuition. Qed.

  (** What a step does to the subscription it concerns. *)
  Inductive change (s : hstate A) : hlabel A -> nat -> hsub A -> hsub A -> Prop :=
  | ch_run i u p : k_task u = KNew -> change s (HStart i) i u (hrun u p)
  | ch_wait i u : k_task u = KNew -> change s (HStart i) i u (HSubs (KWaiting false) (k_calls u))
  | ch_end i u r c : k_task u = KWaiting c -> change s (HResolve r) i u (hrun u (async_body (Some r)))
  | ch_wake i u c p : k_task u = KWaiting c -> change s (HWake i) i u (hrun u p)
  | ch_drop i u : k_task u = KNew -> change s (HCancel i) i u (HSubs KOver (k_calls u))
  | ch_mark i u c : k_task u = KWaiting c -> change s (HCancel i) i u (HSubs (KWaiting true) (k_calls u)).

  Lemma hstep_change s x s' : hstep s x = Some s' ->
    (h_subs s' = h_subs s /\ (forall i, x <> HStart i) /\ x <> HSub /\
       (forall i, x = HCancel i -> exists u, nth_error (h_subs s) i = Some u /\ k_task u <> KNew)) \/
    (x = HSub /\ h_subs s' = h_subs s ++ [HSubs KNew []] /\ h_obj s' = h_obj s) \/
    (exists i u u', nth_error (h_subs s) i = Some u /\ change s x i u u' /\ h_subs s' = hput i u' (h_subs s)).
  Proof.
    intros E. destruct x as [|i|r|i|i]; cbn in E.
    - injection E as <-. right. left. now repeat split.
    - destruct (nth_error (h_subs s) i) as [u|] eqn:Eu; [|discriminate].
      destruct (k_task u) eqn:Ek; try discriminate.
      right. right. exists i, u.
      destruct (h_obj s) as [xs e|xs e|[|j|]|[o|]]; injection E as <-; cbn [h_subs];
        eexists; (split; [exact Eu|split; [|reflexivity]]); constructor; assumption.
    - destruct (h_obj s) as [xs e|xs e|[|j|]|[o|]]; try discriminate.
      + destruct (nth_error (h_subs s) j) as [u|] eqn:Eu; [|discriminate].
        destruct (k_task u) as [|[]|] eqn:Ek; try discriminate. injection E as <-. right. right. exists j, u. eexists.
        split; [exact Eu|]. split; [|reflexivity]. econstructor. eassumption.
      + injection E as <-. left. repeat split; intros; discriminate.
    - destruct (nth_error (h_subs s) i) as [u|] eqn:Eu; [|discriminate].
      destruct (k_task u) as [|c|] eqn:Ek; try discriminate. right. right. exists i, u.
      destruct c, (h_obj s) as [xs e|xs e|[|j|]|[o|]]; try discriminate; injection E as <-; eexists;
        (split; [exact Eu|split; [|reflexivity]]); econstructor; eassumption.
    - destruct (nth_error (h_subs s) i) as [u|] eqn:Eu; [|discriminate].
      destruct (k_task u) as [|c|] eqn:Ek.
      + injection E as <-. right. right. exists i, u. eexists. split; [exact Eu|]. split; [|reflexivity]. now constructor.
      + destruct (h_obj s) as [xs e|xs e|[|j|]|[o|]]; injection E as <-;
          try (right; right; exists i, u; eexists; split; [exact Eu|split; [|reflexivity]]; econstructor; eassumption).
        left. split; [reflexivity|]. repeat split; try discriminate. intros j [= <-]. exists u. split; [exact Eu|congruence].
      + injection E as <-. left. split; [reflexivity|]. repeat split; try discriminate. intros j [= <-]. exists u. split; [exact Eu|congruence].
  Qed.

  Lemma reach_ginv o h s : hreach o h s -> ginv h s.
  Proof.
    induction 1 as [|h x s s' Hr IH E].
    - intros i. cbn. destruct i; cbn; auto.
    - intros j. specialize (IH j). rewrite starts_snoc.
      destruct (hstep_change _ _ E) as [(Es & Hx & Hy & Hc)|[(-> & Es & _)|(i & u & u' & Eu & Hch & Es)]]; rewrite Es.
      + assert (Ex : match x with HStart i => [i] | _ => [] end = []) by (destruct x; try reflexivity; now elim (Hx i)).
        rewrite Ex, app_nil_r.
        destruct (nth_error (h_subs s) j) as [w|] eqn:Ew.
        * destruct (k_task w) eqn:Ek; rewrite ?in_snoc.
          -- destruct IH as (H1 & H2 & H3). repeat split; auto. intros [H|H]; [auto|].
             destruct (Hc j (eq_sym H)) as (w' & Hw & Hn). congruence.
          -- intuition.
          -- intuition.
        * rewrite in_snoc. destruct IH as [H1 H2]. split; [assumption|]. intros [H|H]; [auto|].
          destruct (Hc j (eq_sym H)) as (w' & Hw & _). congruence.
      + rewrite app_nil_r. destruct (Nat.lt_ge_cases j (length (h_subs s))) as [Hl|Hl].
        * rewrite nth_error_app1 by assumption. destruct (nth_error (h_subs s) j) as [w|] eqn:Ew.
          -- destruct (k_task w); rewrite in_snoc; intuition discriminate.
          -- apply nth_error_None in Ew. lia.
        * assert (En : nth_error (h_subs s) j = None) by now apply nth_error_None. rewrite En in IH.
          rewrite nth_error_app2 by assumption. destruct (j - length (h_subs s)) as [|n] eqn:Ed.
          -- cbn. rewrite in_snoc. intuition discriminate.
          -- cbn. destruct n; cbn; rewrite in_snoc; intuition discriminate.
      + destruct (Nat.eq_dec i j) as [->|Hij].
        * rewrite (hput_same j u' _ Eu). rewrite Eu in IH.
          inversion Hch; subst; cbn [hrun k_task k_calls]; rewrite ?in_snoc.
          -- left. now right.
          -- rewrite H in IH. destruct IH as (H1 & H2 & H3). repeat split; auto; try discriminate.
          -- rewrite H in IH. rewrite app_nil_r. tauto.
          -- rewrite H in IH. rewrite app_nil_r. tauto.
          -- rewrite H in IH. right. tauto.
          -- rewrite H in IH. rewrite app_nil_r. tauto.
        * rewrite hput_other by assumption.
          assert (Hs : In j (starts h ++ match x with HStart i => [i] | _ => [] end) <-> In j (starts h)).
          { rewrite in_app_iff. inversion Hch; subst; cbn; intuition. }
          assert (Hc : In (HCancel j) (h ++ [x]) <-> In (HCancel j) h).
          { rewrite in_snoc. inversion Hch; subst; intuition congruence. }
          destruct (nth_error (h_subs s) j) as [w|]; [destruct (k_task w)|]; rewrite Hs, Hc; exact IH.
  Qed.

  (** A step changes the calls of one subscription only. *)
  Lemma requested_other s x s' j : hstep s x = Some s' ->
    (forall i u u', nth_error (h_subs s) i = Some u -> change s x i u u' -> h_subs s' = hput i u' (h_subs s) -> i <> j) ->
    requested j s' = requested j s.
  Proof.
    intros E H. unfold requested.
    destruct (hstep_change _ _ E) as [(Es & _)|[(-> & Es & _)|(i & u & u' & Eu & Hch & Es)]]; rewrite Es.
    - reflexivity.
    - destruct (Nat.lt_ge_cases j (length (h_subs s))) as [Hl|Hl].
      + now rewrite nth_error_app1.
      + assert (En : nth_error (h_subs s) j = None) by now apply nth_error_None. rewrite En.
        rewrite nth_error_app2 by assumption. destruct (j - length (h_subs s)) as [|[|n]]; reflexivity.
    - rewrite hput_other by (eapply H; eauto). reflexivity.
  Qed.

  Lemma requested_put o i u xs s :
    nth_error (h_subs s) i = Some u ->
    forall j, requested j (HState o (hput i (HSubs KOver xs) (h_subs s))) = if i =? j then xs else requested j s.
  Proof.
    intros Eu j. unfold requested. cbn [h_subs]. destruct (Nat.eqb_spec i j) as [->|H].
    - now rewrite (hput_same j _ _ Eu).
    - now rewrite hput_other.
  Qed.

  Lemma requested_put_wait o i u c s :
    nth_error (h_subs s) i = Some u ->
    forall j, requested j (HState o (hput i (HSubs c (k_calls u)) (h_subs s))) = requested j s.
  Proof.
    intros Eu j. unfold requested. cbn [h_subs]. destruct (Nat.eqb_spec i j) as [->|H].
    - now rewrite (hput_same j _ _ Eu), Eu.
    - now rewrite hput_other.
  Qed.

  Lemma requested_sub o s : forall j, requested j (HState o (h_subs s ++ [HSubs KNew []])) = requested j s.
  Proof.
    intros j. unfold requested. cbn [h_subs]. destruct (Nat.lt_ge_cases j (length (h_subs s))) as [Hl|Hl].
    - now rewrite nth_error_app1.
    - assert (En : nth_error (h_subs s) j = None) by now apply nth_error_None. rewrite En.
      rewrite nth_error_app2 by assumption. destruct (j - length (h_subs s)) as [|[|n]]; reflexivity.
  Qed.

  (** ** Iterables *)
  Definition mem (i : nat) (l : list nat) : bool := existsb (Nat.eqb i) l.
  Lemma mem_in i l : mem i l = true <-> In i l.
  Proof. unfold mem. rewrite existsb_exists. split; [intros (j & H1 & H2)|intros H; exists i]; rewrite ?Nat.eqb_eq in *; now subst. Qed.
  Lemma mem_snoc i l j : mem i (l ++ [j]) = mem i l || (i =? j).
  Proof. unfold mem. rewrite existsb_app. cbn. now rewrite orb_false_r. Qed.

  Lemma iterable_inv xs e h s : hreach (HIterable xs e) h s ->
    h_obj s = HIterable xs e /\ (forall i u c, nth_error (h_subs s) i = Some u -> k_task u <> KWaiting c) /\
    forall i, requested i s = if mem i (starts h) then iterated xs e else [].
  Proof.
    induction 1 as [|h x s s' Hr (IH1 & IH2 & IH3) E].
    - cbn. repeat split; intros i; destruct i; cbn; try discriminate; auto.
    - rewrite starts_snoc. pose proof (reach_ginv Hr) as G.
      destruct x as [|i|r|i|i]; cbn in E; rewrite ?IH1 in E; cbn in E; try discriminate.
      + injection E as <-. split; [reflexivity|]. split.
        * intros i u c Hn. cbn [h_subs] in Hn. destruct (Nat.lt_ge_cases i (length (h_subs s))) as [Hl|Hl].
          -- rewrite nth_error_app1 in Hn by assumption. eapply IH2; eauto.
          -- rewrite nth_error_app2 in Hn by assumption. destruct (i - length (h_subs s)) as [|[|n]]; try discriminate.
             injection Hn as <-. discriminate.
        * intros i. rewrite requested_sub, app_nil_r. apply IH3.
      + destruct (nth_error (h_subs s) i) as [u|] eqn:Eu; [|discriminate]. specialize (G i). rewrite Eu in G.
        destruct (k_task u) eqn:Ek; try discriminate. injection E as <-. destruct G as (G1 & G2 & G3).
        split; [reflexivity|]. split.
        * intros j v c Hn. cbn [h_subs] in Hn. destruct (Nat.eq_dec i j) as [->|Hij].
          -- rewrite (hput_same j _ _ Eu) in Hn. injection Hn as <-. discriminate.
          -- rewrite hput_other in Hn by assumption. eapply IH2; eauto.
        * intros j. unfold hrun. rewrite (requested_put _ _ _ _ Eu), G2, hcalls_seq, mem_snoc, IH3, (Nat.eqb_sym j i).
          destruct (Nat.eqb_spec i j) as [->|Hij]; [now rewrite orb_true_r|now rewrite orb_false_r].
      + destruct (nth_error (h_subs s) i) as [u|] eqn:Eu; [|discriminate].
        destruct (k_task u) as [|[]|] eqn:Ek; discriminate.
      + destruct (nth_error (h_subs s) i) as [u|] eqn:Eu; [|discriminate].
        destruct (k_task u) as [|c|] eqn:Ek.
        * injection E as <-. split; [reflexivity|]. split.
          -- intros j v c Hn. cbn [h_subs] in Hn. destruct (Nat.eq_dec i j) as [->|Hij].
             ++ rewrite (hput_same j _ _ Eu) in Hn. injection Hn as <-. discriminate.
             ++ rewrite hput_other in Hn by assumption. eapply IH2; eauto.
          -- intros j. rewrite (requested_put_wait _ _ _ _ Eu), app_nil_r. apply IH3.
        * now elim (IH2 _ _ c Eu).
        * injection E as <-. rewrite app_nil_r. now repeat split.
  Qed.

  Lemma over_started o h s i : hreach o h s -> over i s -> ~ In (HCancel i) h -> In i (starts h).
  Proof.
    intros H Ho Hn. pose proof (reach_ginv H i) as G. unfold over in Ho.
    destruct (nth_error (h_subs s) i) as [u|]; [|contradiction]. rewrite Ho in G. tauto.
  Qed.

  Lemma iterable_over xs e h s i : hreach (HIterable xs e) h s -> over i s -> ~ In (HCancel i) h ->
    requested i s = iterated xs e.
  Proof.
    intros H Ho Hn. pose proof (over_started i H Ho Hn) as Hs.
    destruct (iterable_inv H) as (_ & _ & G). rewrite G. apply mem_in in Hs. now rewrite Hs.
  Qed.

  (** ** Iterators *)
  Definition first_only (a b : list (notif A)) (ss : list nat) (i : nat) : list (notif A) :=
    match ss with
    | [] => []
    | j :: r => if i =? j then a else if mem i r then b else []
    end.

  Lemma first_only_snoc a b ss i j : ~ In i ss -> i <> j ->
    first_only a b (ss ++ [i]) j = first_only a b ss j.
  Proof.
    intros Hi Hj. destruct ss as [|k r]; cbn.
    - now rewrite (proj2 (Nat.eqb_neq j i)) by congruence.
    - rewrite mem_snoc. now rewrite (proj2 (Nat.eqb_neq j i)), orb_false_r by congruence.
  Qed.

  Lemma iterator_inv xs e h s : hreach (HIterator xs e) h s ->
    h_obj s = (match starts h with [] => HIterator xs e | _ => HIterator [] None end) /\
    (forall i u c, nth_error (h_subs s) i = Some u -> k_task u <> KWaiting c) /\
    forall i, requested i s = first_only (iterated xs e) [OnCompleted] (starts h) i.
  Proof.
    induction 1 as [|h x s s' Hr (IH1 & IH2 & IH3) E].
    - cbn. repeat split; intros i; destruct i; cbn; try discriminate; auto.
    - rewrite starts_snoc. pose proof (reach_ginv Hr) as G.
      assert (Ho : exists ys f, h_obj s = HIterator ys f) by (rewrite IH1; destruct (starts h); eauto).
      destruct Ho as (ys & f & Ho).
      destruct x as [|i|r|i|i]; cbn in E; rewrite ?Ho in E; cbn in E; try discriminate.
      + injection E as <-. cbn [h_obj]. rewrite app_nil_r, <- Ho. split; [exact IH1|]. split.
        * intros i u c Hn. cbn [h_subs] in Hn. destruct (Nat.lt_ge_cases i (length (h_subs s))) as [Hl|Hl].
          -- rewrite nth_error_app1 in Hn by assumption. eapply IH2; eauto.
          -- rewrite nth_error_app2 in Hn by assumption. destruct (i - length (h_subs s)) as [|[|n]]; try discriminate.
             injection Hn as <-. discriminate.
        * intros i. rewrite requested_sub. apply IH3.
      + destruct (nth_error (h_subs s) i) as [u|] eqn:Eu; [|discriminate]. specialize (G i). rewrite Eu in G.
        destruct (k_task u) eqn:Ek; try discriminate. injection E as <-. destruct G as (G1 & G2 & G3).
        split; [destruct (starts h); reflexivity|]. split.
        * intros j v c Hn. cbn [h_subs] in Hn. destruct (Nat.eq_dec i j) as [->|Hij].
          -- rewrite (hput_same j _ _ Eu) in Hn. injection Hn as <-. discriminate.
          -- rewrite hput_other in Hn by assumption. eapply IH2; eauto.
        * intros j. unfold hrun. rewrite (requested_put _ _ _ _ Eu), G2, hcalls_seq.
          destruct (Nat.eqb_spec i j) as [->|Hij].
          -- destruct (starts h) as [|k r] eqn:Es; cbn.
             ++ rewrite Nat.eqb_refl. rewrite Ho in IH1. now injection IH1 as -> ->.
             ++ rewrite mem_snoc, Nat.eqb_refl, orb_true_r. rewrite Ho in IH1. injection IH1 as -> ->.
                destruct (Nat.eqb_spec j k) as [->|]; [|reflexivity]. elim G1. now left.
          -- rewrite first_only_snoc by assumption. apply IH3.
      + destruct (nth_error (h_subs s) i) as [u|] eqn:Eu; [|discriminate].
        destruct (k_task u) as [|[]|] eqn:Ek; discriminate.
      + rewrite app_nil_r. destruct (nth_error (h_subs s) i) as [u|] eqn:Eu; [|discriminate].
        destruct (k_task u) as [|c|] eqn:Ek.
        * injection E as <-. cbn [h_obj]. rewrite <- Ho. split; [exact IH1|]. split.
          -- intros j v c Hn. cbn [h_subs] in Hn. destruct (Nat.eq_dec i j) as [->|Hij].
             ++ rewrite (hput_same j _ _ Eu) in Hn. injection Hn as <-. discriminate.
             ++ rewrite hput_other in Hn by assumption. eapply IH2; eauto.
          -- intros j. rewrite (requested_put_wait _ _ _ _ Eu). apply IH3.
        * now elim (IH2 _ _ c Eu).
        * injection E as <-. now repeat split.
  Qed.

  (** ** Coroutines *)
  Lemma coroutine_inv h s : hreach (HCoroutine CoFresh) h s ->
    match starts h with
    | [] => h_obj s = HCoroutine CoFresh /\ outcomes h = [] /\ forall i, requested i s = []
    | j :: r =>
        (forall i, i <> j -> requested i s = if mem i r then [OnError RuntimeErr; OnCompleted] else []) /\
        (exists u, nth_error (h_subs s) j = Some u /\
          ((exists c, h_obj s = HCoroutine (CoRunning j) /\ k_task u = KWaiting c /\ outcomes h = []) \/
           (h_obj s = HCoroutine CoFinished /\ k_task u = KOver /\
             ((exists o, outcomes h = [o] /\ k_calls u = outcome o) \/
              (outcomes h = [] /\ In (HCancel j) h /\ k_calls u = [OnCompleted])))))
    end /\ (forall i u c, nth_error (h_subs s) i = Some u -> k_task u = KWaiting c -> hd_error (starts h) = Some i).
  Proof.
    induction 1 as [|h x s s' Hr [IH IHw] E].
    - cbn. repeat split; auto; intros [|i]; cbn; auto; discriminate.
    - rewrite starts_snoc, outcomes_snoc. pose proof (reach_ginv Hr) as G.
      destruct x as [|i|r0|i|i]; cbn [hstep] in E.
      + injection E as <-. rewrite !app_nil_r. cbn [h_obj h_subs]. split.
        * destruct (starts h) as [|j r].
          -- destruct IH as (H1 & H2 & H3). repeat split; auto. intros i. rewrite requested_sub. apply H3.
          -- destruct IH as (H1 & u & Hu & H2). split.
             ++ intros i Hi. rewrite requested_sub. now apply H1.
             ++ exists u. split; [now rewrite nth_error_app1 by (apply nth_error_Some; congruence)|].
                destruct H2 as [H2|(H2 & H3 & [H4|(H4 & H5 & H6)])]; [now left|right; repeat split; auto..].
                right. repeat split; auto. apply in_snoc. now left.
        * intros i u c Hn Hk. destruct (Nat.lt_ge_cases i (length (h_subs s))) as [Hl|Hl].
          -- rewrite nth_error_app1 in Hn by assumption. eapply IHw; eauto.
          -- rewrite nth_error_app2 in Hn by assumption. destruct (i - length (h_subs s)) as [|[|n]]; try discriminate.
             injection Hn as <-. discriminate.
      + rewrite app_nil_r. destruct (nth_error (h_subs s) i) as [u|] eqn:Eu; [|discriminate]. specialize (G i). rewrite Eu in G.
        destruct (k_task u) eqn:Ek; try discriminate. destruct G as (G1 & G2 & G3).
        destruct (starts h) as [|j r] eqn:Es.
        * destruct IH as (H1 & H2 & H3). rewrite H1 in E. injection E as <-. cbn [app]. split.
          -- split.
             ++ intros j Hj. cbn [mem existsb]. rewrite (requested_put_wait _ _ _ _ Eu). apply H3.
             ++ exists (HSubs (KWaiting false) (k_calls u)). split; [now apply (hput_same i _ _ Eu)|]. left. exists false. now repeat split.
          -- intros j v c Hn Hk. cbn [h_subs] in Hn. destruct (Nat.eq_dec i j) as [->|Hij]; [reflexivity|].
             rewrite hput_other in Hn by assumption. specialize (IHw j v c Hn Hk). discriminate.
        * destruct IH as (H1 & v & Hv & H2).
          assert (Hij : i <> j) by (intros ->; elim G1; now left).
          assert (E2 : s' = HState (h_obj s) (hput i (hrun u (async_body (Some (Err RuntimeErr)))) (h_subs s))).
          { destruct H2 as [(c & -> & _)|(-> & _)] in E; now injection E as <-. }
          subst s'. cbn [app h_obj h_subs]. split.
          -- split.
             ++ intros k Hk. unfold hrun. rewrite (requested_put _ _ _ _ Eu), G2, hcalls_async, mem_snoc.
                destruct (Nat.eqb_spec i k) as [->|Hik].
                ** now rewrite Nat.eqb_refl, orb_true_r.
                ** rewrite (proj2 (Nat.eqb_neq k i)), orb_false_r by congruence. now apply H1.
             ++ exists v. split; [now rewrite hput_other|].
                destruct H2 as [H2|(H2 & H3 & [H4|(H4 & H5 & H6)])]; [now left|right; repeat split; auto..].
                right. repeat split; auto. apply in_snoc. now left.
          -- intros k w c Hn Hk. destruct (Nat.eq_dec i k) as [->|Hik].
             ++ rewrite (hput_same k _ _ Eu) in Hn. injection Hn as <-. discriminate.
             ++ rewrite hput_other in Hn by assumption. exact (IHw k w c Hn Hk).
      + rewrite app_nil_r. destruct (starts h) as [|j r] eqn:Es.
        { destruct IH as (H1 & _). rewrite H1 in E. discriminate. }
        destruct IH as (H1 & u & Eu & [(c & H2 & H3 & H4)|(H2 & _)]); rewrite H2 in E; [|discriminate].
        rewrite Eu, H3 in E. destruct c; [discriminate|]. injection E as <-. cbn [h_obj h_subs].
        specialize (G j). rewrite Eu, H3 in G. destruct G as (G1 & G2 & _). split.
        * split.
          -- intros i Hi. unfold hrun. rewrite (requested_put _ _ _ _ Eu), (proj2 (Nat.eqb_neq j i)) by congruence. now apply H1.
          -- eexists. split; [exact (hput_same j _ _ Eu)|]. right. repeat split. left. exists r0.
             split; [now rewrite H4|]. cbn [hrun k_calls]. now rewrite G2, hcalls_async.
        * intros k w c Hn Hk. destruct (Nat.eq_dec j k) as [->|Hik]; [reflexivity|].
          rewrite hput_other in Hn by assumption. exact (IHw k w c Hn Hk).
      + rewrite !app_nil_r. destruct (nth_error (h_subs s) i) as [u|] eqn:Eu; [|discriminate]. specialize (G i). rewrite Eu in G.
        destruct (k_task u) as [|c|] eqn:Ek; try discriminate.
        pose proof (IHw i u c Eu Ek) as Hf. destruct (starts h) as [|j r] eqn:Es; [discriminate|]. injection Hf as ->.
        destruct IH as (H1 & v & Hv & H2). rewrite Eu in Hv. injection Hv as <-.
        destruct H2 as [(c' & H2 & H3 & H4)|(H2 & H3 & _)]; [|congruence].
        rewrite H2 in E. destruct c; [|discriminate]. injection E as <-. cbn [h_obj h_subs]. destruct G as (G1 & G2 & G3). split.
        * split.
          -- intros k Hi. unfold hrun. rewrite (requested_put _ _ _ _ Eu), (proj2 (Nat.eqb_neq i k)) by congruence. now apply H1.
          -- eexists. split; [exact (hput_same i _ _ Eu)|]. right. repeat split. right.
             split; [assumption|]. split; [apply in_snoc; left; auto|]. cbn [hrun k_calls]. now rewrite G2.
        * intros k w c Hn Hk. destruct (Nat.eq_dec i k) as [->|Hik]; [reflexivity|].
          rewrite hput_other in Hn by assumption. exact (IHw k w c Hn Hk).
      + rewrite !app_nil_r. destruct (nth_error (h_subs s) i) as [u|] eqn:Eu; [|discriminate].
        destruct (k_task u) as [|c|] eqn:Ek.
        * injection E as <-. cbn [h_obj h_subs]. split.
          -- destruct (starts h) as [|j r] eqn:Es.
             ++ destruct IH as (H1 & H2 & H3). repeat split; auto. intros k. rewrite (requested_put_wait _ _ _ _ Eu). apply H3.
             ++ destruct IH as (H1 & v & Hv & H2).
                assert (Hij : i <> j) by (intros ->; rewrite Eu in Hv; injection Hv as <-; destruct H2 as [(c & _ & H2 & _)|(_ & H2 & _)]; congruence).
                split; [intros k Hk; rewrite (requested_put_wait _ _ _ _ Eu); now apply H1|].
                exists v. split; [now rewrite hput_other|].
                destruct H2 as [H2|(H2 & H3 & [H4|(H4 & H5 & H6)])]; [now left|right; repeat split; auto..].
                right. repeat split; auto. apply in_snoc. now left.
          -- intros k w c Hn Hk. destruct (Nat.eq_dec i k) as [->|Hik].
             ++ rewrite (hput_same k _ _ Eu) in Hn. injection Hn as <-. discriminate.
             ++ rewrite hput_other in Hn by assumption. exact (IHw k w c Hn Hk).
        * pose proof (IHw i u c Eu Ek) as Hf. destruct (starts h) as [|j r] eqn:Es; [discriminate|]. injection Hf as ->.
          destruct IH as (H1 & v & Hv & H2). rewrite Eu in Hv. injection Hv as <-.
          destruct H2 as [(c' & H2 & H3 & H4)|(H2 & H3 & _)]; [|congruence].
          rewrite H2 in E. injection E as <-. cbn [h_obj h_subs]. split.
          -- split.
             ++ intros k Hk. rewrite (requested_put_wait _ _ _ _ Eu). now apply H1.
             ++ eexists. split; [exact (hput_same i _ _ Eu)|]. left. exists true. now repeat split.
          -- intros k w c0 Hn Hk. destruct (Nat.eq_dec i k) as [->|Hik]; [reflexivity|].
             rewrite hput_other in Hn by assumption. exact (IHw k w c0 Hn Hk).
        * injection E as <-. split; [|exact IHw]. destruct (starts h) as [|j r]; [exact IH|].
          destruct IH as (H1 & v & Hv & H2). split; [exact H1|]. exists v. split; [exact Hv|].
          destruct H2 as [H2|(H2 & H3 & [H4|(H4 & H5 & H6)])]; [now left|right; repeat split; auto..].
          right. repeat split; auto. apply in_snoc. now left.
  Qed.

  Lemma coroutine_first h s j : hreach (HCoroutine CoFresh) h s -> hd_error (starts h) = Some j -> over j s ->
    ~ In (HCancel j) h -> exists r, outcomes h = [r] /\ requested j s = outcome r.
  Proof.
    intros H Hf Ho Hn. destruct (coroutine_inv H) as [G _]. destruct (starts h) as [|k r]; [discriminate|]. injection Hf as ->.
    destruct G as (_ & u & Hu & G). unfold over in Ho. unfold requested. rewrite Hu in *.
    destruct G as [(c & _ & G & _)|(_ & _ & [(r0 & G1 & G2)|(_ & G & _)])]; [congruence|eauto|contradiction].
  Qed.

  Lemma coroutine_later h s j i : hreach (HCoroutine CoFresh) h s -> hd_error (starts h) = Some j -> In i (starts h) -> i <> j ->
    requested i s = [OnError RuntimeErr; OnCompleted].
  Proof.
    intros H Hf Hi Hij. destruct (coroutine_inv H) as [G _]. destruct (starts h) as [|k r]; [discriminate|]. injection Hf as ->.
    destruct G as (G & _). rewrite G by assumption. destruct Hi as [->|Hi]; [contradiction|]. apply mem_in in Hi. now rewrite Hi.
  Qed.

  (** ** Futures *)
  Definition finv h s : Prop :=
    match h_obj s with
    | HFuture None => outcomes h = [] /\ (forall i, requested i s = []) /\
        forall i u, nth_error (h_subs s) i = Some u -> In i (starts h) -> k_task u = KWaiting false
    | HFuture (Some None) => outcomes h = [] /\ (exists i, In (HCancel i) h) /\
        forall i, requested i s = [] \/ requested i s = [OnCompleted]
    | HFuture (Some (Some r)) => outcomes h = [r]
    | _ => False
    end /\
    forall i u, nth_error (h_subs s) i = Some u -> ~ In (HCancel i) h ->
      match k_task u, h_obj s with
      | KOver, HFuture (Some (Some r)) => k_calls u = outcome r
      | KOver, HFuture (Some None) => k_calls u = [OnCompleted]
      | KOver, _ => False
      | KWaiting c, _ => c = false
      | _, _ => True
      end.

  Lemma nth_sub s i u : nth_error (h_subs s ++ [HSubs KNew []]) i = Some u ->
    nth_error (h_subs s) i = Some u \/ i = length (h_subs s) /\ u = HSubs KNew [].
  Proof.
    intros Hn. destruct (Nat.lt_ge_cases i (length (h_subs s))) as [Hl|Hl].
    - rewrite nth_error_app1 in Hn by assumption. now left.
    - rewrite nth_error_app2 in Hn by assumption. destruct (i - length (h_subs s)) as [|[|n]] eqn:Ed; try discriminate.
      injection Hn as <-. right. split; [lia|reflexivity].
  Qed.

  Lemma future_inv h s : hreach (HFuture None) h s -> finv h s.
  Proof.
    induction 1 as [|h x s s' Hr IH E].
    - split; cbn.
      + repeat split; auto; intros [|i]; cbn; auto; discriminate.
      + intros [|i]; cbn; discriminate.
    - pose proof (reach_ginv Hr) as G. destruct IH as [IH1 IH2].
      assert (Ho : exists o, h_obj s = HFuture o) by (destruct (h_obj s); try contradiction; eauto). destruct Ho as [o Ho].
      rewrite Ho in IH1, IH2.
      assert (Hc : forall i, ~ In (HCancel i) (h ++ [x]) -> ~ In (HCancel i) h) by (intros i F F'; apply F, in_snoc; now left).
      unfold finv. rewrite outcomes_snoc, starts_snoc.
      destruct x as [|i|r0|i|i]; cbn [hstep] in E; rewrite ?Ho in E.
      + injection E as <-. cbn [h_obj h_subs]. rewrite !app_nil_r. split.
        * destruct o as [[r|]|].
          -- exact IH1.
          -- destruct IH1 as (H1 & (j & Hj) & H3). repeat split; auto; [exists j; apply in_snoc; now left|].
             intros i. rewrite requested_sub. apply H3.
          -- destruct IH1 as (H1 & H2 & H3). repeat split; auto; [intros i; rewrite requested_sub; apply H2|].
             intros i u Hn Hi. destruct (nth_sub _ _ Hn) as [Hn'|[-> ->]]; [eauto|].
             pose proof (G (length (h_subs s))) as G'. rewrite (proj2 (nth_error_None _ _)) in G' by lia. tauto.
        * intros i u Hn Hi. destruct (nth_sub _ _ Hn) as [Hn'|[-> ->]]; [|exact I].
          exact (IH2 i u Hn' (Hc i Hi)).
      + rewrite !app_nil_r. destruct (nth_error (h_subs s) i) as [u|] eqn:Eu; [|discriminate]. pose proof (G i) as Gi. rewrite Eu in Gi.
        destruct (k_task u) eqn:Ek; try discriminate. destruct Gi as (G1 & G2 & G3).
        destruct o as [o|]; injection E as <-; cbn [h_obj h_subs].
        * split.
          -- destruct o as [r|]; [exact IH1|]. destruct IH1 as (H1 & (j & Hj) & H3). repeat split; auto; [exists j; apply in_snoc; now left|].
             intros k. unfold hrun. rewrite (requested_put _ _ _ _ Eu). destruct (i =? k); [|apply H3].
             rewrite G2, hcalls_async. now right.
          -- intros k v Hn Hk. destruct (Nat.eq_dec i k) as [->|Hik].
             ++ rewrite (hput_same k _ _ Eu) in Hn. injection Hn as <-. cbn [hrun k_task k_calls]. rewrite G2, hcalls_async.
                destruct o; reflexivity.
             ++ rewrite hput_other in Hn by assumption. exact (IH2 k v Hn (Hc k Hk)).
        * split.
          -- destruct IH1 as (H1 & H2 & H3). repeat split; auto; [intros k; rewrite (requested_put_wait _ _ _ _ Eu); apply H2|].
             intros k v Hn Hk. destruct (Nat.eq_dec i k) as [->|Hik].
             ++ rewrite (hput_same k _ _ Eu) in Hn. injection Hn as <-. reflexivity.
             ++ rewrite hput_other in Hn by assumption. apply (H3 k v Hn). apply in_app_iff in Hk. destruct Hk as [Hk|[Hk|[]]]; [assumption|contradiction].
          -- intros k v Hn Hk. destruct (Nat.eq_dec i k) as [->|Hik].
             ++ rewrite (hput_same k _ _ Eu) in Hn. injection Hn as <-. reflexivity.
             ++ rewrite hput_other in Hn by assumption. exact (IH2 k v Hn (Hc k Hk)).
      + destruct o as [o|]; [discriminate|]. injection E as <-. cbn [h_obj h_subs]. destruct IH1 as (H1 & H2 & H3). split; [now rewrite H1|].
        intros k v Hn Hk. specialize (IH2 k v Hn (Hc k Hk)). destruct (k_task v); [exact I|exact IH2|contradiction].
      + rewrite !app_nil_r. destruct (nth_error (h_subs s) i) as [u|] eqn:Eu; [|discriminate]. pose proof (G i) as Gi. rewrite Eu in Gi.
        destruct (k_task u) as [|c|] eqn:Ek; try discriminate. destruct Gi as (G1 & G2 & G3).
        destruct o as [o|]; [|destruct c; discriminate].
        assert (E2 : s' = HState (HFuture (Some o)) (hput i (hrun u (async_body (if c then None else o))) (h_subs s))).
        { destruct c; injection E as <-; reflexivity. }
        subst s'. cbn [h_obj h_subs]. split.
        * destruct o as [r|]; [exact IH1|]. destruct IH1 as (H1 & (j & Hj) & H3). repeat split; auto; [exists j; apply in_snoc; now left|].
          intros k. unfold hrun. rewrite (requested_put _ _ _ _ Eu). destruct (i =? k); [|apply H3].
          rewrite G2, hcalls_async. right. destruct c; reflexivity.
        * intros k v Hn Hk. destruct (Nat.eq_dec i k) as [->|Hik].
          -- rewrite (hput_same k _ _ Eu) in Hn. injection Hn as <-. cbn [hrun k_task k_calls].
             pose proof (IH2 k u Eu (Hc k Hk)) as Hcf. rewrite Ek in Hcf. subst c. rewrite G2, hcalls_async. destruct o; reflexivity.
          -- rewrite hput_other in Hn by assumption. exact (IH2 k v Hn (Hc k Hk)).
      + rewrite !app_nil_r. destruct (nth_error (h_subs s) i) as [u|] eqn:Eu; [|discriminate]. pose proof (G i) as Gi. rewrite Eu in Gi.
        assert (Hin : In (HCancel i) (h ++ [HCancel i])) by (apply in_snoc; now right).
        destruct (k_task u) as [|c|] eqn:Ek.
        * injection E as <-. cbn [h_obj h_subs]. destruct Gi as (G1 & G2 & G3). split.
          -- destruct o as [[r|]|]; [exact IH1| |].
             ++ destruct IH1 as (H1 & (j & Hj) & H3). repeat split; auto; [exists i; exact Hin|].
                intros k. rewrite (requested_put_wait _ _ _ _ Eu). apply H3.
             ++ destruct IH1 as (H1 & H2 & H3). repeat split; auto; [intros k; rewrite (requested_put_wait _ _ _ _ Eu); apply H2|].
                intros k v Hn Hk. destruct (Nat.eq_dec i k) as [->|Hik]; [contradiction|].
                rewrite hput_other in Hn by assumption. eauto.
          -- intros k v Hn Hk. destruct (Nat.eq_dec i k) as [->|Hik]; [contradiction|].
             rewrite hput_other in Hn by assumption. exact (IH2 k v Hn (Hc k Hk)).
        * destruct o as [o|]; injection E as <-; cbn [h_obj h_subs].
          -- split.
             ++ destruct o as [r|]; [exact IH1|]. destruct IH1 as (H1 & (j & Hj) & H3). repeat split; auto; [exists i; exact Hin|].
                intros k. rewrite (requested_put_wait _ _ _ _ Eu). apply H3.
             ++ intros k v Hn Hk. destruct (Nat.eq_dec i k) as [->|Hik]; [contradiction|].
                rewrite hput_other in Hn by assumption. exact (IH2 k v Hn (Hc k Hk)).
          -- destruct IH1 as (H1 & H2 & H3). split.
             ++ repeat split; auto; [exists i; exact Hin|]. intros k. left. exact (H2 k).
             ++ intros k v Hn Hk. specialize (IH2 k v Hn (Hc k Hk)). destruct (k_task v); [exact I|exact IH2|contradiction].
        * injection E as <-. rewrite Ho. split.
          -- destruct o as [[r|]|]; [exact IH1| |exact IH1].
             destruct IH1 as (H1 & (j & Hj) & H3). repeat split; auto. exists i. exact Hin.
          -- intros k v Hn Hk. exact (IH2 k v Hn (Hc k Hk)).
  Qed.

  Lemma future_over h s i : hreach (HFuture None) h s -> over i s -> ~ In (HCancel i) h ->
    (exists r, outcomes h = [r] /\ requested i s = outcome r) \/
    (outcomes h = [] /\ (exists j, In (HCancel j) h) /\ requested i s = [OnCompleted]).
  Proof.
    intros H Ho Hn. destruct (future_inv H) as [F1 F2]. unfold over in Ho. unfold requested.
    destruct (nth_error (h_subs s) i) as [u|] eqn:Eu; [|contradiction].
    specialize (F2 i u Eu Hn). rewrite Ho in F2. destruct (h_obj s) as [| | |[[r|]|]]; try contradiction.
    - left. eauto.
    - right. destruct F1 as (F1 & F3 & _). auto.
  Qed.

  Lemma cancelled_stays h : forall s s', hruns s h = Some s' -> h_obj s = HFuture (Some None) -> h_obj s' = HFuture (Some None).
  Proof.
    induction h as [|x h IH]; intros s s' E Ho; cbn in E.
    - now injection E as <-.
    - destruct (hstep s x) as [s1|] eqn:Ex; [|discriminate]. apply (IH s1 s' E). clear - Ex Ho.
      destruct x as [|i|r0|i|i]; cbn [hstep] in Ex; rewrite ?Ho in Ex; try discriminate.
      + now injection Ex as <-.
      + destruct (nth_error (h_subs s) i) as [u|]; [|discriminate]. destruct (k_task u); try discriminate. now injection Ex as <-.
      + destruct (nth_error (h_subs s) i) as [u|]; [|discriminate]. destruct (k_task u) as [|[]|]; try discriminate; now injection Ex as <-.
      + destruct (nth_error (h_subs s) i) as [u|]; [|discriminate]. destruct (k_task u) as [|[]|]; injection Ex as <-; auto.
  Qed.

  Lemma future_disposed h1 i h2 s : hreach (HFuture None) (h1 ++ HCancel i :: h2) s ->
    In i (starts h1) -> outcomes h1 = [] ->
    outcomes (h1 ++ HCancel i :: h2) = [] /\ forall j, requested j s = [] \/ requested j s = [OnCompleted].
  Proof.
    intros H Hs Ho. destruct (hreach_app _ _ H) as (s1 & H1 & E). cbn [hruns] in E.
    destruct (hstep s1 (HCancel i)) as [s2|] eqn:Ex; [|discriminate].
    assert (Hf : h_obj s2 = HFuture (Some None)).
    { pose proof (reach_ginv H1 i) as G. destruct (future_inv H1) as [F _]. cbn in Ex.
      destruct (h_obj s1) as [| | |[[r|]|]] eqn:Eo; try contradiction.
      - rewrite Ho in F. discriminate.
      - destruct (nth_error (h_subs s1) i) as [u|]; [|discriminate]. destruct (k_task u) as [|[]|]; injection Ex as <-; auto.
      - destruct F as (F1 & F2 & F3). destruct (nth_error (h_subs s1) i) as [u|] eqn:Eu; [|discriminate].
        rewrite (F3 i u Eu Hs) in Ex. injection Ex as <-. reflexivity. }
    pose proof (cancelled_stays _ _ E Hf) as Hf'. destruct (future_inv H) as [F _]. rewrite Hf' in F. tauto.
  Qed.
End SharedProofs.
