(** * Proofs about debounce. *)
From Coq Require Import Permutation Sorting.Sorted.
From Verif Require Export Debounce PipeProofs Ops3Proofs.
Set Implicit Arguments.
Local Open Scope Z_scope.

Section Proofs.
  Context {A : Type}.
  Variables d t0 : Z.
  Let m := Z.max 0 d.

  Fixpoint run_box (cur : Z) (box : list (notif A * nat)) : list (notif A * nat) * Z :=
    match box with
    | [] => ([], cur)
    | x :: r => let '(out, cur1) := dmsg cur x in
                let '(outs, cur2) := run_box cur1 r in
                (map (fun n => (n, snd x)) out ++ outs, cur2)
    end.
  Lemma run_box_snoc box : forall cur x, run_box cur (box ++ [x]) =
    let '(outs, cur1) := run_box cur box in let '(out, cur2) := dmsg cur1 x in (outs ++ map (fun n => (n, snd x)) out, cur2).
  Proof.
    induction box as [|y box IH]; intros cur x.
    - unfold app. cbn [run_box]. destruct (dmsg cur x) as [o c]. now rewrite app_nil_r.
    - change ((y :: box) ++ [x]) with (y :: (box ++ [x])). cbn [run_box]. destruct (dmsg cur y) as [o c]. rewrite IH.
      destruct (run_box c box) as [os c1]. destruct (dmsg c1 x). now rewrite app_assoc.
  Qed.

  Definition d_elapsed (h : list (dlabel A)) : Z := fold_right (fun l z => match l with DTick dt => dt + z | _ => z end) 0 h.
  Lemma darrivals_snoc (h : list (dlabel A)) l : forall t, darrivals t (h ++ [l]) = darrivals t h ++ match l with DArr n => [(n, t + d_elapsed h)] | _ => [] end.
  Proof.
    induction h as [|x h IH]; intros t; cbn.
    - destruct l; cbn; rewrite ?Z.add_0_r; reflexivity.
    - destruct x; rewrite ?IH; cbn; try reflexivity. now rewrite Z.add_assoc.
  Qed.
  Lemma d_elapsed_snoc h l : d_elapsed (h ++ [l]) = d_elapsed h + match l with DTick dt => dt | _ => 0 end.
  Proof. induction h as [|x h IH]; cbn; [destruct l; lia|]. unfold d_elapsed in IH. destruct x; rewrite IH; lia. Qed.

  Definition calls_in (h : list (dlabel A)) : list (notif A) := map fst (darrivals t0 h).
  Lemma reactions_snoc (h : list (dlabel A)) l : forall past t, reactions past (h ++ [l]) = reactions past h ++ reaction (past ++ map fst (darrivals t h)) l.
  Proof.
    induction h as [|x h IH]; intros past t; cbn.
    - now rewrite !app_nil_r.
    - destruct x as [dt|n|i| |]; cbn [darrivals map fst]; [rewrite (IH _ (t + dt))|rewrite (IH _ t)..]; rewrite <- ?app_assoc; reflexivity.
  Qed.

  Definition enc (o : option nat) : Z := match o with Some i => Z.of_nat i | None => -1 end.
  Lemma last_snoc (l : list (notif A)) n : last_element (l ++ [n]) = match n with OnNext _ => Some (length l) | _ => last_element l end.
  Proof. induction l as [|x l IH]; cbn; [destruct n; reflexivity|]. rewrite IH. destruct n; auto. Qed.
  Lemma last_lt (l : list (notif A)) i : last_element l = Some i -> (i < length l)%nat.
  Proof. revert i. induction l as [|x l IH]; cbn; intros i H; [discriminate|]. destruct (last_element l) as [j|]; [injection H as <-; specialize (IH j eq_refl); lia|]. destruct x; try discriminate. injection H as <-. lia. Qed.
  Lemma last_ge (l : list (notif A)) i v : nth_error l i = Some (OnNext v) -> exists j, last_element l = Some j /\ (i <= j)%nat.
  Proof.
    revert i. induction l as [|x l IH]; intros [|i] H; try discriminate; cbn in *.
    - injection H as ->. destruct (last_element l); eexists; split; eauto; lia.
    - destruct (IH i H) as (j & -> & Hj). eexists. split; [reflexivity|lia].
  Qed.
  Lemma last_is (l : list (notif A)) i : last_element l = Some i -> exists v, nth_error l i = Some (OnNext v).
  Proof.
    revert i. induction l as [|x l IH]; intros i H; cbn in H; [discriminate|].
    destruct (last_element l) as [j|]; [injection H as <-; apply IH; reflexivity|]. destruct x as [v| |]; try discriminate. injection H as <-. now exists v.
  Qed.

  Record DI (h : list (dlabel A)) (s : dstate A) : Prop := {
    di_now : d_now s = t0 + d_elapsed h;
    di_next : d_next s = length (darrivals t0 h);
    di_timers : forall n i u, In (n, i, u) (d_timers s) -> nth_error (darrivals t0 h) i = Some (n, u - m);
    di_nodup : NoDup (map (fun x => snd (fst x)) (d_timers s));
    di_out : map fst (d_log s) ++ fst (run_box (d_cur s) (d_box s)) = reactions [] h;
    di_cur : snd (run_box (d_cur s) (d_box s)) = enc (last_element (calls_in h));
    di_time : forall n b, In (n, b) (darrivals t0 h) -> b <= d_now s;
    di_logt : forall n i t, In (n, i, t) (d_log s) -> t <= d_now s
  }.

  Lemma dtimer_in i s n u : dtimer i s = Some (n, u) -> In (n, i, u) (@d_timers A s).
  Proof.
    unfold dtimer. destruct (find _ _) as [[[n' j] u']|] eqn:E; [|discriminate]. intros H. injection H as -> ->.
    apply find_some in E as [E1 E2]. cbn in E2. apply Nat.eqb_eq in E2. now subst.
  Qed.
  Lemma drop_in i (l : list (notif A * nat * Z)) x : In x (drop_timer i l) <-> In x l /\ snd (fst x) <> i.
  Proof. unfold drop_timer. rewrite filter_In. destruct (Nat.eqb_spec (snd (fst x)) i); cbn; intuition congruence. Qed.
  Lemma drop_nodup i (l : list (notif A * nat * Z)) : NoDup (map (fun x => snd (fst x)) l) -> NoDup (map (fun x => snd (fst x)) (drop_timer i l)).
  Proof.
    induction l as [|x l IH]; cbn; [constructor|]. intros H. inversion H; subst. destruct (negb _); cbn; auto. constructor; auto.
    intros F. apply in_map_iff in F as (y & E & F). apply drop_in in F as [F _]. apply H2. rewrite <- E. now apply (in_map (fun x => snd (fst x))).
  Qed.

  Lemma dmsg_arr cur (n : notif A) i : cur < Z.of_nat i -> dmsg cur (n, i) = (match n with OnNext _ => [] | _ => [n] end, match n with OnNext _ => Z.of_nat i | _ => cur end : Z).
  Proof.
    intros H. unfold dmsg. cbn. destruct n as [x| |]; auto.
    replace (Z.of_nat i =? cur) with false by (symmetry; apply Z.eqb_neq; lia). replace (cur <? Z.of_nat i) with true by (symmetry; apply Z.ltb_lt; lia). reflexivity.
  Qed.
  Lemma enc_lt (l : list (notif A)) : enc (last_element l) < Z.of_nat (length l).
  Proof. destruct (last_element l) as [i|] eqn:E; cbn; [apply last_lt in E; lia|lia]. Qed.

  Lemma in_snoc_timer (l : list (notif A * nat * Z)) x y : In x (l ++ [y]) -> In x l \/ x = y.
  Proof. rewrite in_app_iff. cbn. intuition. Qed.

  Lemma calls_snoc h l : calls_in (h ++ [l]) = calls_in h ++ match l with DArr n => [n] | _ => [] end.
  Proof. unfold calls_in. rewrite darrivals_snoc, map_app. f_equal. destruct l; reflexivity. Qed.
  Lemma calls_len h : length (calls_in h) = length (darrivals t0 h).
  Proof. apply map_length. Qed.

  (** What a timer message does. *)
  Lemma dmsg_timer h n i b : nth_error (darrivals t0 h) i = Some (n, b) ->
    map (fun x => (x, i)) (fst (dmsg (enc (last_element (calls_in h))) (n, i))) = reaction (calls_in h) (DTimer i) /\
    snd (dmsg (enc (last_element (calls_in h))) (n, i)) = enc (last_element (calls_in h)).
  Proof.
    intros H. assert (Hn : nth_error (calls_in h) i = Some n) by (unfold calls_in; now rewrite nth_error_map, H).
    cbn. rewrite Hn. unfold dmsg. cbn. destruct n as [v|e|]; auto.
    destruct (last_ge _ _ Hn) as (j & -> & Hj). cbn. destruct (Nat.eqb_spec j i) as [->|Hne].
    - rewrite Z.eqb_refl. auto.
    - replace (Z.of_nat i =? Z.of_nat j) with false by (symmetry; apply Z.eqb_neq; lia).
      replace (Z.of_nat j <? Z.of_nat i) with false by (symmetry; apply Z.ltb_ge; lia). auto.
  Qed.

  Lemma di_reach h s : dreach d t0 h s -> DI h s.
  Proof.
    induction 1 as [|h s l s' Hr [I1 I2 I3 I4 I5 I6 I7 I8] Hs].
    { constructor; cbn; auto; try contradiction; try lia; try constructor. }
    assert (HR : reactions [] (h ++ [l]) = reactions [] h ++ reaction (calls_in h) l) by (rewrite (reactions_snoc h l [] t0); reflexivity).
    destruct l as [dt|n|i| |]; cbn in Hs.
    - destruct (0 <? dt) eqn:E; [|discriminate]. apply Z.ltb_lt in E. injection Hs as <-.
      constructor; cbn; rewrite ?calls_snoc, ?d_elapsed_snoc, ?darrivals_snoc, ?app_nil_r; auto.
      + lia.
      + now rewrite HR, app_nil_r.
      + intros n b F. specialize (I7 n b F). lia.
      + intros n i t F. specialize (I8 n i t F). lia.
    - injection Hs as <-. constructor; cbn; rewrite ?calls_snoc, ?d_elapsed_snoc, ?darrivals_snoc, ?Z.add_0_r; auto.
      + rewrite app_length. cbn. lia.
      + intros n' i u F. apply in_snoc_timer in F as [F|F].
        * rewrite nth_error_app1; [now apply I3|]. apply nth_error_Some. rewrite (I3 _ _ _ F). discriminate.
        * injection F as -> -> ->. rewrite nth_error_app2 by lia. rewrite I2, Nat.sub_diag. cbn. rewrite <- I1. f_equal. f_equal. unfold m. lia.
      + rewrite map_app. cbn.
        eapply Permutation_NoDup; [apply Permutation_cons_append|]. constructor; [|exact I4].
        intros F. apply in_map_iff in F as ([[n' i] u] & E & F). cbn in E. subst i. apply I3 in F. assert (d_next s < length (darrivals t0 h))%nat by (apply nth_error_Some; rewrite F; discriminate). lia.
      + rewrite HR, <- I5. rewrite run_box_snoc. destruct (run_box (d_cur s) (d_box s)) as [o c]. cbn in I6. subst c.
        rewrite dmsg_arr by (rewrite I2, <- calls_len; apply enc_lt). cbn. rewrite app_assoc. f_equal.
        rewrite I2, <- calls_len. destruct n; reflexivity.
      + rewrite run_box_snoc. destruct (run_box (d_cur s) (d_box s)) as [o c]. cbn in I6. subst c.
        rewrite dmsg_arr by (rewrite I2, <- calls_len; apply enc_lt). cbn. rewrite last_snoc. destruct n; auto. cbn. now rewrite I2, <- calls_len.
      + intros n' b F. apply in_app_or in F as [F|[F|[]]]; [now apply (I7 n')|]. injection F as <- <-. lia.
    - destruct (dtimer i s) as [[n u]|] eqn:Et; [|discriminate]. destruct (u <=? d_now s) eqn:E; [|discriminate]. injection Hs as <-.
      apply dtimer_in in Et. pose proof (I3 _ _ _ Et) as Hn. destruct (dmsg_timer h _ Hn) as [Q1 Q2].
      constructor; cbn; rewrite ?calls_snoc, ?d_elapsed_snoc, ?darrivals_snoc, ?app_nil_r, ?Z.add_0_r; auto.
      + intros n' j u' F. apply drop_in in F as [F _]. now apply I3.
      + now apply drop_nodup.
      + rewrite HR, <- I5. rewrite run_box_snoc. destruct (run_box (d_cur s) (d_box s)) as [o c]. cbn in I6. subst c.
        rewrite <- Q1. destruct (dmsg _ _) as [o1 c1]. cbn. now rewrite app_assoc.
      + rewrite run_box_snoc. destruct (run_box (d_cur s) (d_box s)) as [o c]. cbn in I6. subst c.
        destruct (dmsg _ _) as [o1 c1]. exact Q2.
    - unfold dwork in Hs. destruct (d_box s) as [|x r] eqn:Eb; [discriminate|]. cbn [run_box] in I5, I6. destruct (dmsg (d_cur s) x) as [out c] eqn:Ed.
      injection Hs as <-. destruct (run_box c r) as [outs c2] eqn:Er.
      constructor; cbn; rewrite ?calls_snoc, ?d_elapsed_snoc, ?darrivals_snoc, ?app_nil_r, ?Z.add_0_r, ?Er; auto.
      + rewrite HR. cbn. rewrite app_nil_r, <- I5. cbn. rewrite map_app, map_map. cbn. now rewrite <- app_assoc.
      + intros n' i t F. apply in_app_or in F as [F|F]; [now apply (I8 n' i)|]. apply in_map_iff in F as (y & E & _). injection E as _ _ <-. lia.
    - injection Hs as <-. constructor; cbn; rewrite ?calls_snoc, ?d_elapsed_snoc, ?darrivals_snoc, ?app_nil_r, ?Z.add_0_r; auto.
      + rewrite HR, <- I5. rewrite run_box_snoc. destruct (run_box (d_cur s) (d_box s)) as [o c]. cbn. now rewrite app_assoc.
      + rewrite run_box_snoc. destruct (run_box (d_cur s) (d_box s)) as [o c]. exact I6.
  Qed.

  Lemma d_exact (h : list (dlabel A)) s : dreach d t0 h s -> d_box s = [] -> map fst (d_log s) = reactions [] h.
  Proof. intros Hr Eb. rewrite <- (di_out (di_reach Hr)), Eb. cbn. now rewrite app_nil_r. Qed.
  Lemma d_prefix (h : list (dlabel A)) s : dreach d t0 h s -> prefix (map fst (d_log s)) (reactions [] h).
  Proof. intros Hr. rewrite <- (di_out (di_reach Hr)). apply prefix_app. Qed.

  (** ** Order *)
  Definition element_numbers (l : list (notif A * nat)) : list nat :=
    flat_map (fun x => match fst x with OnNext _ => [snd x] | _ => [] end) l.
  Lemma element_numbers_app a b : element_numbers (a ++ b) = element_numbers a ++ element_numbers b.
  Proof. apply flat_map_app. Qed.
  Lemma in_element_numbers l i : In i (element_numbers l) <-> exists v, In (OnNext v, i) l.
  Proof.
    unfold element_numbers. rewrite in_flat_map. split.
    - intros ([[v| |] j] & H1 & H2); cbn in H2; intuition. subst. eauto.
    - intros (v & H). exists (OnNext v, i). cbn. auto.
  Qed.

  Lemma sorted_snoc_lt (l : list nat) x : StronglySorted lt l -> (forall y, In y l -> (y < x)%nat) -> StronglySorted lt (l ++ [x]).
  Proof.
    induction 1 as [|y l Hs IH Hf]; cbn; intros H; [repeat constructor|]. constructor; [apply IH; auto|].
    apply Forall_app. split; [exact Hf|]. repeat constructor. apply H. now left.
  Qed.
  Lemma sorted_app_l (l r : list nat) : StronglySorted lt (l ++ r) -> StronglySorted lt l.
  Proof. induction l as [|x l IH]; cbn; intros H; [constructor|]. inversion H; subst. constructor; auto. apply Forall_app in H3. tauto. Qed.

  Lemma d_sorted (h : list (dlabel A)) s : dreach d t0 h s -> StronglySorted lt (element_numbers (reactions [] h)) /\
    (forall i, In i (element_numbers (reactions [] h)) -> (i < d_next s)%nat /\ (exists v, nth_error (calls_in h) i = Some (OnNext v) /\ In (OnNext v, i) (reactions [] h))
      /\ forall n u, ~ In (n, i, u) (d_timers s)).
  Proof.
    induction 1 as [|h s l s' Hr IH Hs]; [cbn; split; [constructor|contradiction]|]. destruct IH as [J1 J2].
    pose proof (di_reach Hr) as [I1 I2 I3 I4 I5 I6 I7 I8].
    rewrite (reactions_snoc h l [] t0). cbn [app]. fold (calls_in h). rewrite element_numbers_app.
    assert (Hk : forall i, In i (element_numbers (reactions [] h)) -> exists v, nth_error (calls_in (h ++ [l])) i = Some (OnNext v) /\ In (OnNext v, i) (reactions [] h ++ reaction (calls_in h) l)).
    { intros i F. destruct (J2 i F) as (_ & (v & H1 & H2) & _). exists v. rewrite calls_snoc. rewrite nth_error_app1; [|apply nth_error_Some; rewrite H1; discriminate].
      split; [exact H1|]. apply in_or_app. now left. }
    destruct l as [dt|n|i| |]; cbn in Hs.
    - destruct (0 <? dt); [|discriminate]. injection Hs as <-. cbn. rewrite app_nil_r. split; [exact J1|]. intros i F. destruct (J2 i F) as (K1 & _ & K3). rewrite !app_nil_r in Hk. rewrite app_nil_r. auto.
    - injection Hs as <-. assert (element_numbers (reaction (calls_in h) (DArr n)) = []) as E by (destruct n; reflexivity). rewrite E, app_nil_r.
      split; [exact J1|]. intros i F. destruct (J2 i F) as (K1 & _ & K3). split; [cbn; lia|]. split; [apply Hk; exact F|].
      cbn. intros n' u F'. apply in_snoc_timer in F' as [F'|F']; [eapply K3; eauto|]. injection F' as _ -> _. lia.
    - destruct (dtimer i s) as [[n u]|] eqn:Et; [|discriminate]. destruct (u <=? d_now s); [|discriminate]. injection Hs as <-.
      apply dtimer_in in Et. pose proof (I3 _ _ _ Et) as Hn.
      assert (Hc : nth_error (calls_in h) i = Some n) by (unfold calls_in; now rewrite nth_error_map, Hn).
      assert (Hi : (i < d_next s)%nat) by (rewrite I2; apply nth_error_Some; rewrite Hn; discriminate).
      assert (Hold : forall j, In j (element_numbers (reactions [] h)) -> (j < d_next s)%nat /\ (exists v, nth_error (calls_in (h ++ [DTimer i])) j = Some (OnNext v) /\ In (OnNext v, j) (reactions [] h ++ reaction (calls_in h) (DTimer i))) /\
         forall n' u', ~ In (n', j, u') (drop_timer i (d_timers s))).
      { intros j F. destruct (J2 j F) as (K1 & _ & K3). split; [exact K1|]. split; [apply Hk; exact F|]. intros n' u' F'. apply drop_in in F' as [F' _]. eapply K3; eauto. }
      cbn [d_next d_timers].
      destruct (reaction (calls_in h) (DTimer i)) as [|r0 rs] eqn:ER; [cbn; rewrite (app_nil_r (element_numbers _)); split; [exact J1|exact Hold]|].
      cbn in ER. rewrite Hc in ER. destruct n as [v|e|].
      + destruct (last_element (calls_in h)) as [j|] eqn:El; [|discriminate]. destruct (Nat.eqb_spec j i) as [->|]; [|discriminate].
        injection ER as <- <-. cbn [element_numbers flat_map fst snd app]. split.
        * apply sorted_snoc_lt; [exact J1|]. intros y F. destruct (J2 y F) as (_ & (w & K & _) & K3).
          destruct (last_ge _ _ K) as (j & Ej & Hj). rewrite El in Ej. injection Ej as <-.
          assert (y <> i) by (intros ->; eapply K3; eauto). lia.
        * intros j F. apply in_app_or in F as [F|F]; [apply Hold; exact F|]. destruct F as [<-|[]]. split; [exact Hi|]. split.
          -- exists v. rewrite calls_snoc, app_nil_r. split; [exact Hc|]. apply in_or_app. right. now left.
          -- intros n' u' F'. apply drop_in in F' as [_ F']. now apply F'.
      + injection ER as <- <-. cbn [element_numbers flat_map fst snd app]. rewrite app_nil_r. split; [exact J1|exact Hold].
      + injection ER as <- <-. cbn [element_numbers flat_map fst snd app]. rewrite app_nil_r. split; [exact J1|exact Hold].
    - unfold dwork in Hs. destruct (d_box s) as [|x r]; [discriminate|]. destruct (dmsg (d_cur s) x) as [out c]. injection Hs as <-.
      cbn. rewrite app_nil_r. split; [exact J1|]. intros i F. destruct (J2 i F) as (K1 & _ & K3). rewrite !app_nil_r in Hk. rewrite app_nil_r. auto.
    - injection Hs as <-. cbn. rewrite app_nil_r. split; [exact J1|]. intros i F. destruct (J2 i F) as (K1 & _ & K3). split; [exact K1|]. split; [apply Hk; exact F|exact K3].
  Qed.

  Lemma d_in_order (h : list (dlabel A)) s : dreach d t0 h s -> StronglySorted lt (element_numbers (map fst (d_log s))) /\
    forall v i t, In (OnNext v, i, t) (d_log s) -> nth_error (map fst (darrivals t0 h)) i = Some (OnNext v).
  Proof.
    intros Hr. destruct (d_sorted Hr) as [J1 J2]. destruct (d_prefix Hr) as [r E]. split.
    - rewrite E, element_numbers_app in J1. eapply sorted_app_l; exact J1.
    - intros v i t F. assert (F' : In (OnNext v, i) (reactions [] h)) by (rewrite E; apply in_or_app; left; now apply (in_map fst) in F).
      destruct (J2 i) as (_ & (w & K1 & K2) & _); [apply in_element_numbers; eauto|]. fold (calls_in h). rewrite K1. f_equal. f_equal.
      (* the element with number i occurs once *)
      clear -J1 F' K2. apply in_split in F' as (a & b & Eq). rewrite Eq in *. rewrite element_numbers_app in J1. cbn in J1.
      apply in_app_or in K2 as [K2|[K2|K2]].
      + exfalso. assert (In i (element_numbers a)) as Hi by (apply in_element_numbers; eauto). clear -J1 Hi.
        induction (element_numbers a) as [|y l IH]; [contradiction|]. cbn in J1. inversion J1; subst. destruct Hi as [->|Hi]; [|auto].
        apply Forall_app in H2 as [_ H2]. inversion H2; subst. lia.
      + now injection K2 as <-.
      + exfalso. assert (In i (element_numbers b)) as Hi by (apply in_element_numbers; eauto). clear -J1 Hi.
        induction (element_numbers a) as [|y l IH]; [|cbn in J1; inversion J1; subst; auto]. cbn in J1. inversion J1; subst. rewrite Forall_forall in H2. specialize (H2 i Hi). lia.
  Qed.

  (** ** Time *)
  Definition d_all (s : dstate A) : list (notif A * nat * Z) :=
    d_log s ++ map (fun x => (x, d_now s)) (fst (run_box (d_cur s) (d_box s))).
  Record DP (h : list (dlabel A)) (s : dstate A) : Prop := {
    dp_timers : forall n i u, In (n, i, u) (d_timers s) -> d_now s <= u;
    dp_sound : forall v i t, In (OnNext v, i, t) (d_all s) -> t <= d_now s /\ exists a, nth_error (darrivals t0 h) i = Some (OnNext v, a) /\ t = a + m /\
      forall j w b, (i < j)%nat -> nth_error (darrivals t0 h) j = Some (OnNext w, b) -> a + m <= b;
    dp_complete : forall i v a, nth_error (darrivals t0 h) i = Some (OnNext v, a) ->
      (exists n u, In (n, i, u) (d_timers s)) \/ a + m <= d_now s /\
      (In (OnNext v, i, a + m) (d_all s) \/ exists j w b, (i < j)%nat /\ nth_error (darrivals t0 h) j = Some (OnNext w, b) /\ b <= a + m)
  }.
  Lemma d_punctual_snoc (h : list (dlabel A)) l : d_punctual d t0 (h ++ [l]) -> d_punctual d t0 h.
  Proof. intros P h1 dt h2 s1 -> H1. eapply (P h1 dt (h2 ++ [l])); [now rewrite <- app_assoc|exact H1]. Qed.

  Lemma dp_reach (h : list (dlabel A)) s : dreach d t0 h s -> d_punctual d t0 h -> DP h s.
  Proof.
    induction 1 as [|h s l s' Hr IH Hs]; intros HP.
    { constructor; cbn; try contradiction. intros [|i]; discriminate. }
    specialize (IH (@d_punctual_snoc h l HP)). destruct IH as [P1 P2 P3]. pose proof (di_reach Hr) as [I1 I2 I3 I4 I5 I6 I7 I8].
    destruct l as [dt|n|i| |]; cbn in Hs.
    - destruct (0 <? dt) eqn:E; [|discriminate]. apply Z.ltb_lt in E. injection Hs as <-.
      destruct (HP h dt [] s eq_refl Hr) as [Hb Hu]. unfold d_all in *. rewrite Hb in *.
      constructor; unfold d_all; cbn; rewrite ?darrivals_snoc, ?app_nil_r; cbn in P2, P3; rewrite ?app_nil_r in P2, P3.
      + intros n i u F. destruct (Hu n i u F). lia.
      + intros v i t F. destruct (P2 v i t F) as [Q1 Q2]. split; [lia|exact Q2].
      + intros i v a F. destruct (P3 i v a F) as [Q|[Q1 Q2]]; [now left|right]. split; [lia|exact Q2].
    - injection Hs as <-.
      assert (EA : d_all (DState (d_now s) (d_box s ++ [(n, d_next s)]) (d_cur s) (S (d_next s)) (d_timers s ++ [(n, d_next s, d_now s + Z.max 0 d)]) (d_log s))
                   = d_all s ++ match n with OnNext _ => [] | _ => [(n, d_next s, d_now s)] end).
      { unfold d_all. cbn. rewrite run_box_snoc. destruct (run_box (d_cur s) (d_box s)) as [o c]. cbn in I6. subst c.
        rewrite dmsg_arr by (rewrite I2, <- calls_len; apply enc_lt). cbn. rewrite map_app, <- app_assoc. do 2 f_equal. destruct n; reflexivity. }
      constructor; rewrite ?EA; cbn [d_timers d_now]; rewrite ?darrivals_snoc.
      + intros n' i u F. apply in_snoc_timer in F as [F|F]; [eapply P1; eauto|]. injection F as _ _ ->. lia.
      + intros v i t F. apply in_app_or in F as [F|F]; [|destruct n; cbn in F; intuition discriminate].
        destruct (P2 v i t F) as [Q1 (a & Q2 & Q3 & Q4)]. split; [exact Q1|]. exists a. split; [|split; [exact Q3|]].
        * rewrite nth_error_app1; [exact Q2|]. apply nth_error_Some. rewrite Q2. discriminate.
        * intros j w b Hj Hn. destruct (Nat.lt_ge_cases j (length (darrivals t0 h))) as [L|L].
          -- rewrite nth_error_app1 in Hn by exact L. eapply Q4; eauto.
          -- rewrite nth_error_app2 in Hn by exact L. destruct (j - length (darrivals t0 h))%nat as [|k]; cbn in Hn; [injection Hn as _ <-; lia|destruct k; discriminate].
      + intros i v a F. destruct (Nat.lt_ge_cases i (length (darrivals t0 h))) as [L|L].
        * rewrite nth_error_app1 in F by exact L. destruct (P3 i v a F) as [(n' & u & Q)|[Q1 [Q2|(j & w & b & Q2 & Q3 & Q4)]]].
          -- left. exists n', u. apply in_or_app. now left.
          -- right. split; [exact Q1|]. left. apply in_or_app. now left.
          -- right. split; [exact Q1|]. right. exists j, w, b. split; [exact Q2|]. split; [|exact Q4].
             rewrite nth_error_app1; [exact Q3|]. apply nth_error_Some. rewrite Q3. discriminate.
        * left. rewrite nth_error_app2 in F by exact L. destruct (i - length (darrivals t0 h))%nat as [|k] eqn:Ek; cbn in F; [|destruct k; discriminate].
          exists n, (d_now s + Z.max 0 d). apply in_or_app. right. left. f_equal. f_equal. lia.
    - destruct (dtimer i s) as [[n u]|] eqn:Et; [|discriminate]. destruct (u <=? d_now s) eqn:E; [|discriminate]. apply Z.leb_le in E.
      injection Hs as <-. apply dtimer_in in Et. pose proof (I3 _ _ _ Et) as Hn. pose proof (P1 _ _ _ Et) as Hu. assert (u = d_now s) as -> by lia.
      destruct (dmsg_timer h _ Hn) as [Q1 Q2].
      assert (EA : d_all (DState (d_now s) (d_box s ++ [(n, i)]) (d_cur s) (d_next s) (drop_timer i (d_timers s)) (d_log s))
                   = d_all s ++ map (fun x => (x, d_now s)) (reaction (calls_in h) (DTimer i))).
      { unfold d_all. cbn [d_log d_now d_cur d_box]. rewrite run_box_snoc. destruct (run_box (d_cur s) (d_box s)) as [o c]. cbn in I6. subst c.
        rewrite <- Q1. destruct (dmsg _ _) as [o1 c1]. cbn. now rewrite map_app, <- app_assoc. }
      assert (Hc : nth_error (calls_in h) i = Some n) by (unfold calls_in; now rewrite nth_error_map, Hn).
      constructor; rewrite ?EA; cbn [d_timers d_now]; rewrite ?darrivals_snoc, ?app_nil_r.
      + intros n' j u F. apply drop_in in F as [F _]. eapply P1; eauto.
      + intros v j t F. apply in_app_or in F as [F|F]; [now apply P2|]. apply in_map_iff in F as (x & Ex & F). injection Ex as -> <-.
        cbn in F. rewrite Hc in F. destruct n as [w|e|]; [|destruct F as [F|[]]; discriminate|destruct F as [F|[]]; discriminate].
        destruct (last_element (calls_in h)) as [k|] eqn:El; [|contradiction]. destruct (Nat.eqb_spec k i) as [->|]; [|contradiction].
        destruct F as [F|[]]. injection F as -> ->. split; [lia|]. exists (d_now s - m). split; [exact Hn|]. split; [lia|].
        intros k w b Hk Hnk. exfalso. assert (Hck : nth_error (calls_in h) k = Some (OnNext w)) by (unfold calls_in; now rewrite nth_error_map, Hnk).
        destruct (last_ge _ _ Hck) as (k' & Ek & Hk'). rewrite El in Ek. injection Ek as <-. lia.
      + intros j v a F. destruct (Nat.eq_dec j i) as [->|Hne].
        * rewrite Hn in F. injection F as -> <-. right. split; [lia|].
          destruct (last_ge _ _ Hc) as (k & Ek & Hk). destruct (Nat.eq_dec k i) as [->|Hki].
          -- left. apply in_or_app. right. replace (d_now s - m + m) with (d_now s) by lia. apply (in_map (fun x => (x, d_now s)) _ (OnNext v, i)). cbn. rewrite Hc, Ek, Nat.eqb_refl. now left.
          -- right. destruct (last_is _ Ek) as (w & Hw). unfold calls_in in Hw. rewrite nth_error_map in Hw.
             destruct (nth_error (darrivals t0 h) k) as [[n' b]|] eqn:Eb; [|discriminate]. injection Hw as ->. exists k, w, b. split; [lia|]. split; [exact Eb|].
             specialize (I7 (OnNext w) b (nth_error_In _ _ Eb)). lia.
        * destruct (P3 j v a F) as [(n' & u & Q)|[R1 [R2|R2]]].
          -- left. exists n', u. apply drop_in. auto.
          -- right. split; [exact R1|]. left. apply in_or_app. now left.
          -- right. auto.
    - unfold dwork in Hs. destruct (d_box s) as [|x r] eqn:Eb; [discriminate|]. destruct (dmsg (d_cur s) x) as [out c] eqn:Ed. injection Hs as <-.
      assert (EA : d_all (DState (d_now s) r c (d_next s) (d_timers s) (d_log s ++ map (fun n => (n, snd x, d_now s)) out)) = d_all s).
      { unfold d_all. cbn [d_log d_now d_cur d_box]. rewrite Eb. cbn [run_box]. rewrite Ed. destruct (run_box c r) as [o c2]. cbn. rewrite map_app, map_map, <- app_assoc. reflexivity. }
      constructor; rewrite ?EA; cbn [d_timers d_now]; rewrite ?darrivals_snoc, ?app_nil_r; auto.
    - injection Hs as <-.
      assert (EA : d_all (DState (d_now s) (d_box s ++ [(OnCompleted, 0%nat)]) (d_cur s) (d_next s) (d_timers s) (d_log s)) = d_all s ++ [(OnCompleted, 0%nat, d_now s)]).
      { unfold d_all. cbn. rewrite run_box_snoc. destruct (run_box (d_cur s) (d_box s)) as [o c]. cbn. now rewrite map_app, <- app_assoc. }
      constructor; rewrite ?EA; cbn [d_timers d_now]; rewrite ?darrivals_snoc, ?app_nil_r; auto.
      + intros v i t F. apply in_app_or in F as [F|[F|[]]]; [now apply P2|discriminate].
      + intros i v a F. destruct (P3 i v a F) as [Q|[Q1 [Q2|Q2]]]; auto. right. split; [exact Q1|]. left. apply in_or_app. now left.
  Qed.

  Lemma d_window_sound (h : list (dlabel A)) s : dreach d t0 h s -> d_punctual d t0 h -> forall v i t, In (OnNext v, i, t) (d_log s) ->
    exists a, nth_error (darrivals t0 h) i = Some (OnNext v, a) /\ t = a + m /\
    forall j w b, (i < j)%nat -> nth_error (darrivals t0 h) j = Some (OnNext w, b) -> a + m <= b.
  Proof. intros Hr HP v i t F. apply (dp_sound (dp_reach Hr HP) v i t). apply in_or_app. now left. Qed.
  Lemma d_window_complete (h : list (dlabel A)) s : dreach d t0 h s -> d_punctual d t0 h -> d_box s = [] -> forall v i a,
    nth_error (darrivals t0 h) i = Some (OnNext v, a) -> a + m < d_now s ->
    (forall j w b, (i < j)%nat -> nth_error (darrivals t0 h) j = Some (OnNext w, b) -> a + m < b) ->
    In (OnNext v, i, a + m) (d_log s).
  Proof.
    intros Hr HP Eb v i a Hn Ha Hno. pose proof (dp_reach Hr HP) as [P1 P2 P3]. pose proof (di_reach Hr) as [I1 I2 I3 I4 I5 I6 I7 I8].
    destruct (P3 i v a Hn) as [(n & u & Q)|[Q1 [Q2|(j & w & b & Q2 & Q3 & Q4)]]].
    - pose proof (P1 _ _ _ Q). apply I3 in Q. rewrite Hn in Q. injection Q as _ ->. lia.
    - unfold d_all in Q2. rewrite Eb in Q2. cbn in Q2. now rewrite app_nil_r in Q2.
    - specialize (Hno j w b Q2 Q3). lia.
  Qed.
End Proofs.

(** ** After a terminal call *)
Lemma upto_terminal_app {A} (l r : list (notif A)) : (exists n, In n l /\ is_terminal n = true) -> upto_terminal (l ++ r) = upto_terminal l.
Proof.
  intros (n & Hn & He). induction l as [|x l IH]; [contradiction|]. destruct x as [a| |]; cbn; auto.
  f_equal. apply IH. destruct Hn as [<-|Hn]; [discriminate|exact Hn].
Qed.

Lemma reactions_app {A} (h1 h2 : list (dlabel A)) : forall past, exists past', reactions past (h1 ++ h2) = reactions past h1 ++ reactions past' h2.
Proof.
  induction h1 as [|l h1 IH]; intros past; [exists past; reflexivity|]. cbn.
  destruct (IH (match l with DArr n => past ++ [n] | _ => past end)) as (p' & ->). exists p'. now rewrite app_assoc.
Qed.

Lemma d_after_terminal {A} (h1 h2 : list (dlabel A)) n : is_terminal n = true ->
  upto_terminal (map fst (reactions [] (h1 ++ DArr n :: h2))) = upto_terminal (map fst (reactions [] (h1 ++ [DArr n]))).
Proof.
  intros He. change (DArr n :: h2) with ([DArr n] ++ h2). rewrite app_assoc. destruct (reactions_app (h1 ++ [DArr n]) h2 []) as (p & ->).
  rewrite map_app. apply upto_terminal_app. rewrite (reactions_snoc h1 (DArr n) [] 0). exists n. split; [|exact He].
  rewrite map_app. apply in_or_app. right. destruct n; try discriminate; now left.
Qed.
Lemma d_after_dispose {A} (h1 h2 : list (dlabel A)) :
  upto_terminal (map fst (reactions [] (h1 ++ DCancel :: h2))) = upto_terminal (map fst (reactions [] (h1 ++ [DCancel]))).
Proof.
  change (DCancel :: h2) with ([@DCancel A] ++ h2). rewrite app_assoc. destruct (reactions_app (h1 ++ [DCancel]) h2 []) as (p & ->).
  rewrite map_app. apply upto_terminal_app. rewrite (reactions_snoc h1 DCancel [] 0). exists OnCompleted. split; [|reflexivity].
  rewrite map_app. apply in_or_app. right. now left.
Qed.

(** ** Running a history; deciding whether it is punctual *)
Fixpoint drun {A} (d : Z) (s : dstate A) (h : list (dlabel A)) : option (dstate A) :=
  match h with
  | [] => Some s
  | l :: r => match dstep d s l with Some s' => drun d s' r | None => None end
  end.
Lemma drun_reach A d t0 (h2 : list (dlabel A)) : forall h1 s s', dreach d t0 h1 s -> drun d s h2 = Some s' -> dreach d t0 (h1 ++ h2) s'.
Proof.
  induction h2 as [|l h2 IH]; intros h1 s s' Hr E; cbn [drun] in E.
  - injection E as <-. now rewrite app_nil_r.
  - destruct (dstep d s l) as [s1|] eqn:E1; [|discriminate].
    change (l :: h2) with ([l] ++ h2). rewrite app_assoc. eapply IH; [|exact E]. eapply dr_snoc; eauto.
Qed.
Lemma drun_init A d t0 (h : list (dlabel A)) s : drun d (d_init t0) h = Some s -> dreach d t0 h s.
Proof. intros E. exact (drun_reach _ (dr_nil d t0) E). Qed.

Definition on_tick_d {A} (s : dstate A) (dt : Z) : bool :=
  match d_box s with [] => true | _ => false end &&
  forallb (fun x => (d_now s + dt <=? snd x) && (d_now s <? snd x)) (d_timers s).
Fixpoint dpunct_b {A} (d : Z) (s : dstate A) (h : list (dlabel A)) : bool :=
  match h with
  | [] => true
  | l :: r => match l with DTick dt => on_tick_d s dt | _ => true end &&
              match dstep d s l with Some s' => dpunct_b d s' r | None => true end
  end.
Lemma dreach_det A (d t0 : Z) (h : list (dlabel A)) s s' : dreach d t0 h s -> dreach d t0 h s' -> s = s'.
Proof.
  intros H. revert s'. induction H as [|h s l s1 H IH Hs]; intros s' H'.
  - inversion H' as [|h' ? l' ? ? ? E]; [reflexivity|]. destruct h'; discriminate.
  - inversion H' as [E|h' s0 l' s2 H0 Hs0 E]; [destruct h; discriminate|].
    apply app_inj_tail in E as [-> ->]. apply IH in H0. subst s0. congruence.
Qed.
Lemma dreach_split A (d t0 : Z) (h1 : list (dlabel A)) l s : dreach d t0 (h1 ++ [l]) s -> exists s0, dreach d t0 h1 s0 /\ dstep d s0 l = Some s.
Proof. intros H. inversion H as [E|h s0 l' s2 H0 Hs0 E]; [destruct h1; discriminate|]. apply app_inj_tail in E as [-> ->]. eauto. Qed.
Lemma dreach_prefix A (d t0 : Z) (a : list (dlabel A)) : forall h1 s, dreach d t0 (h1 ++ a) s -> exists s0, dreach d t0 h1 s0.
Proof.
  induction a as [|l a IH] using rev_ind; intros h1 s H; [rewrite app_nil_r in H; eauto|].
  rewrite app_assoc in H. apply dreach_split in H as (s0 & H & _). eauto.
Qed.
Lemma dpunct_b_ok A (d t0 : Z) (a : list (dlabel A)) : forall h1 s h2 dt b s1, dreach d t0 h1 s -> dpunct_b d s h2 = true ->
  h2 = a ++ DTick dt :: b -> dreach d t0 (h1 ++ a) s1 -> on_tick_d s1 dt = true.
Proof.
  induction a as [|l a IH]; intros h1 s h2 dt b s1 Hr Hb -> Hr'.
  - rewrite app_nil_r in Hr'. rewrite <- (dreach_det Hr Hr'). cbn [dpunct_b app] in Hb. apply andb_true_iff in Hb. tauto.
  - change (l :: a) with ([l] ++ a) in Hr'. rewrite app_assoc in Hr'. destruct (@dreach_prefix A d t0 a (h1 ++ [l]) s1 Hr') as (s0 & H0).
    pose proof (dreach_split _ _ H0) as (s' & H1 & Hs). rewrite <- (dreach_det Hr H1) in Hs. cbn [dpunct_b app] in Hb. apply andb_true_iff in Hb as [_ Hb].
    rewrite Hs in Hb. eapply IH; [exact H0|exact Hb|reflexivity|exact Hr'].
Qed.
Lemma d_punctual_check A (d t0 : Z) (h : list (dlabel A)) : dpunct_b d (d_init t0) h = true -> d_punctual d t0 h.
Proof.
  intros Hb h1 dt h2 s1 E Hr. pose proof (@dpunct_b_ok A d t0 h1 [] _ h dt h2 s1 (dr_nil d t0) Hb E Hr) as Ho.
  unfold on_tick_d in Ho. destruct (d_box s1); [|discriminate]. split; [reflexivity|]. cbn in Ho. rewrite forallb_forall in Ho.
  intros n i u F. specialize (Ho _ F). cbn in Ho. apply andb_true_iff in Ho as [H1 H2]. apply Z.leb_le in H1. apply Z.ltb_lt in H2. lia.
Qed.

(** ** sample *)
Lemma somes_app A (a b : list (option A)) : somes (a ++ b) = somes a ++ somes b.
Proof. induction a as [|x a IH]; [reflexivity|]. cbn [app]. rewrite !somes_cons, IH. now rewrite app_assoc. Qed.
Lemma prefixes_snoc X (l : list X) x : prefixes (l ++ [x]) = prefixes l ++ [l ++ [x]].
Proof.
  unfold prefixes. rewrite app_length. cbn [length]. replace (length l + 1)%nat with (S (length l)) by lia.
  rewrite seq_S, map_app. cbn [map]. f_equal.
  - apply map_ext_in. intros k Hk. apply in_seq in Hk. rewrite firstn_app. replace (k - length l)%nat with 0%nat by lia. cbn. now rewrite app_nil_r.
  - f_equal. rewrite firstn_all2; [reflexivity|]. rewrite app_length. cbn. lia.
Qed.
Lemma after_tick_snoc A (p : Spec.arrivals A nat) x : after_tick (p ++ [x]) = after_tick p ++
  match x with inl a => match last_right p with Some _ => [a] | None => [] end | inr _ => [] end.
Proof.
  assert (Hl : forall (q : Spec.arrivals A nat), lefts (q ++ [x]) = lefts q ++ match x with inl a => [a] | inr _ => [] end).
  { intros q. unfold lefts. rewrite map_app, somes_app. destruct x; reflexivity. }
  assert (Hr : forall (q : Spec.arrivals A nat) o, o <> None -> fold_left (fun acc y => match y with inr b => Some b | inl _ => acc end) q o <> None).
  { induction q as [|[a|b] q IH]; cbn; intros o Ho; auto. apply IH. discriminate. }
  unfold last_right. induction p as [|[a|b] p IH]; cbn.
  - destruct x; reflexivity.
  - exact IH.
  - rewrite Hl. specialize (Hr p (Some b)). destruct (fold_left _ p (Some b)); [reflexivity|]. exfalso. now apply Hr.
Qed.
Lemma sample_spec A (arr : Spec.arrivals A nat) : map fst (with_latest arr) = after_tick arr.
Proof.
  induction arr as [|x p IH] using rev_ind; [reflexivity|].
  unfold with_latest in *. rewrite prefixes_snoc, map_app, somes_app, map_app, after_tick_snoc. f_equal; [exact IH|].
  cbn. unfold sampled. rewrite rev_app_distr. cbn. destruct x as [a|b]; [|reflexivity].
  assert (E : last_right (p ++ [inl a]) = last_right p) by (unfold last_right; rewrite fold_left_app; reflexivity). rewrite E.
  destruct (last_right p); reflexivity.
Qed.
