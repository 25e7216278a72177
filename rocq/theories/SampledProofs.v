(** * Proofs for Sampled.v *)
From Coq Require Import Lia Sorting.Sorted.
From Verif Require Import DebounceProofs Properties8.
From Verif Require Export Sampled ClockedProofs.
Set Implicit Arguments.
Local Open Scope Z_scope.

(** ** Lists of posted calls *)
Definition src_calls (l : list (either nat nat * Z)) : list (notif nat * Z) :=
  flat_map (fun x => match fst x with Src n => [(n, snd x)] | Oth _ => [] end) l.
Definition oth_calls (l : list (either nat nat * Z)) : list (notif nat * Z) :=
  flat_map (fun x => match fst x with Oth n => [(n, snd x)] | Src _ => [] end) l.

Lemma src_calls_app l1 l2 : src_calls (l1 ++ l2) = src_calls l1 ++ src_calls l2.
Proof. apply flat_map_app. Qed.
Lemma oth_calls_app l1 l2 : oth_calls (l1 ++ l2) = oth_calls l1 ++ oth_calls l2.
Proof. apply flat_map_app. Qed.
Lemma src_src (cs : list (notif nat * Z)) : src_calls (map (fun c => (Src (fst c), snd c)) cs) = cs.
Proof. induction cs as [|[n u] cs IH]; [reflexivity|]. cbn. unfold src_calls in IH. now rewrite IH. Qed.
Lemma src_oth (cs : list (notif nat * Z)) : src_calls (map (fun c => (Oth (fst c), snd c)) cs) = [].
Proof. induction cs as [|[n u] cs IH]; [reflexivity|]. exact IH. Qed.
Lemma oth_oth (cs : list (notif nat * Z)) : oth_calls (map (fun c => (Oth (fst c), snd c)) cs) = cs.
Proof. induction cs as [|[n u] cs IH]; [reflexivity|]. cbn. unfold oth_calls in IH. now rewrite IH. Qed.
Lemma oth_src (cs : list (notif nat * Z)) : oth_calls (map (fun c => (Src (fst c), snd c)) cs) = [].
Proof. induction cs as [|[n u] cs IH]; [reflexivity|]. exact IH. Qed.

Lemma sorted_app_same (l : list Z) now k : StronglySorted Z.le l -> Forall (fun u => u <= now) l -> StronglySorted Z.le (l ++ repeat now k) /\ Forall (fun u => u <= now) (l ++ repeat now k).
Proof.
  intros S F. split.
  - induction l as [|x l IH]; cbn.
    + clear. induction k as [|k IH]; cbn; constructor; auto. apply Forall_forall. intros y Hy. apply repeat_spec in Hy. lia.
    + inversion S; subst. inversion F; subst. constructor; auto. apply Forall_app. split; [assumption|]. apply Forall_forall. intros y Hy. apply repeat_spec in Hy. lia.
  - apply Forall_app. split; [exact F|]. apply Forall_forall. intros y Hy. apply repeat_spec in Hy. lia.
Qed.

Lemma sorted_split (l1 : list Z) u l2 : StronglySorted Z.le (l1 ++ u :: l2) -> Forall (fun x => x <= u) l1 /\ Forall (fun x => u <= x) l2.
Proof.
  induction l1 as [|x l1 IH]; cbn; intros S; inversion S; subst.
  - split; [constructor|assumption].
  - destruct (IH H1) as [A B]. split; [|exact B]. constructor; [|exact A]. rewrite Forall_app in H2. destruct H2 as [_ H2]. now inversion H2.
Qed.

(** ** One turn of a task *)
Lemma task_turn_kstep sec per v v' cs : task_turn sec per v = Some (v', cs) ->
  kstep sec per [] (v, []) KTurn = Some (v', []) /\ v_log v' = v_log v ++ cs /\ v_now v' = v_now v /\ map snd cs = repeat (v_now v) (length cs).
Proof.
  unfold task_turn. cbn [kstep]. unfold iv_turn. cbn [fst snd]. unfold ivwork.
  destruct (v_phase v) as [|u n|n| | |] eqn:Ph; try discriminate.
  - cbn. intros H. injection H as <- <-. cbn. now rewrite skipn_all, app_nil_r.
  - destruct (u <=? v_now v); [|discriminate]. cbn [v_phase ivstep].
    destruct (per =? 0); cbn [v_phase v_log v_now v_ends]; intros H; injection H as <- <-; cbn [v_log v_now].
    + rewrite <- app_assoc. rewrite skipn_app, skipn_all, Nat.sub_diag. cbn. auto.
    + rewrite skipn_app, skipn_all, Nat.sub_diag. cbn. auto.
Qed.

Lemma phase_turn sec per v v' cs : per <> 0 -> task_turn sec per v = Some (v', cs) -> v_phase v' <> IDone.
Proof.
  intros Pz. unfold task_turn, iv_turn, ivwork. cbn [fst snd].
  destruct (v_phase v) as [|u n|n| | |] eqn:Ph; try discriminate.
  - cbn. intros H. injection H as <- <-. discriminate.
  - destruct (u <=? v_now v); [|discriminate]. cbn [v_phase ivstep]. apply Z.eqb_neq in Pz. rewrite Pz. cbn [v_phase]. intros H. injection H as <- <-. discriminate.
Qed.

Section SampledProofs.
  Context (seconds period d : Z).

  Record qparts (kok kok' : kstate -> klabel -> Prop) (t0 : Z) (h : list qlabel) (q : qstate) (h1 h2 : list klabel) : Prop := QParts {
    qp_source : kreach seconds period [] kok t0 h1 (q_source q, []);
    qp_timer : kreach d d [] kok' t0 h2 (q_timer q, []);
    qp_made : v_log (q_source q) = src_calls (q_posted q);
    qp_ticks : v_log (q_timer q) = oth_calls (q_posted q);
    qp_now : v_now (q_timer q) = v_now (q_source q);
    qp_sorted : StronglySorted Z.le (map snd (q_posted q));
    qp_past : Forall (fun u => u <= v_now (q_source q)) (map snd (q_posted q));
    qp_alive : d <> 0 -> ~ In QCancel h -> v_phase (q_timer q) <> IDone;
    qp_cancel : In KCancel h1 -> In QCancel h
  }.

  Lemma qreach_parts (kok kok' : kstate -> klabel -> Prop) (ok : qstate -> qlabel -> Prop) t0 h q :
    (forall q l, ok q l -> match l with QTick dt => kok (q_source q, []) (KTick dt) /\ kok' (q_timer q, []) (KTick dt) | _ => True end) ->
    (forall k l, match l with KTick _ => False | _ => True end -> kok k l /\ kok' k l) ->
    qreach seconds period d ok t0 h q -> exists h1 h2, qparts kok kok' t0 h q h1 h2.
  Proof.
    intros Hok Hk. induction 1 as [|h q l q' R (h1 & h2 & P) O E].
    - exists [], []. constructor; cbn; try (now constructor); try reflexivity; [discriminate|intros []].
    - destruct P as [P1 P2 Pm Pt Pn Ps Pp Pa Pc]. pose proof (Hok _ _ O) as Ol. destruct q as [v w arr]. cbn [q_source q_timer q_posted] in *.
      assert (Mono : ~ In QCancel (h ++ [l]) -> ~ In QCancel h) by (intros F G; apply F, in_app_iff; now left).
      assert (Mono' : In QCancel h -> In QCancel (h ++ [l])) by (intros G; apply in_app_iff; now left).
      assert (Mc : forall x, x <> KCancel -> In KCancel (h1 ++ [x]) -> In QCancel (h ++ [l])).
      { intros x Nx F. apply in_app_iff in F as [F|[F|[]]]; [now apply Mono', Pc|contradiction]. }
      destruct l as [dt| | |]; cbn [qstep q_source q_timer q_posted] in E.
      + destruct Ol as [O1 O2].
        destruct (ivstep seconds period v (XTick dt)) as [v'|] eqn:Ev; [|discriminate]. destruct (ivstep d d w (XTick dt)) as [w'|] eqn:Ew; [|discriminate]. injection E as <-.
        exists (h1 ++ [KTick dt]), (h2 ++ [KTick dt]).
        assert (Dt : (0 <? dt) = true) by (cbn in Ev; now destruct (0 <? dt)).
        assert (K1 : kstep seconds period [] (v, []) (KTick dt) = Some (v', [])) by (cbn [kstep fst snd]; rewrite Ev; cbn; now rewrite Dt).
        assert (K2 : kstep d d [] (w, []) (KTick dt) = Some (w', [])) by (cbn [kstep fst snd]; rewrite Ew; cbn; now rewrite Dt).
        cbn in Ev, Ew. rewrite Dt in Ev, Ew. injection Ev as <-. injection Ew as <-.
        constructor; cbn [q_source q_timer q_posted v_log v_now v_phase]; auto.
        * eapply kr_snoc; eassumption.
        * eapply kr_snoc; eassumption.
        * congruence.
        * eapply Forall_impl; [|exact Pp]. cbn. intros u Hu. apply Z.ltb_lt in Dt. lia.
        * apply Mc. discriminate.
      + destruct (task_turn seconds period v) as [[v' cs]|] eqn:G; [|discriminate]. injection E as <-.
        destruct (task_turn_kstep _ _ _ G) as (K & L & N & T). exists (h1 ++ [KTurn]), h2.
        assert (S : map snd (arr ++ map (fun c => (@Src nat nat (fst c), snd c)) cs) = map snd arr ++ repeat (v_now v) (length cs)).
        { rewrite map_app, map_map. f_equal. rewrite <- T. apply map_ext. reflexivity. }
        destruct (@sorted_app_same _ _ (length cs) Ps Pp) as [S1 S2].
        constructor; cbn [q_source q_timer q_posted]; auto.
        * eapply kr_snoc; [exact P1|apply Hk; exact I|exact K].
        * now rewrite src_calls_app, src_src, L, Pm.
        * now rewrite oth_calls_app, oth_src, app_nil_r.
        * congruence.
        * now rewrite S.
        * now rewrite S, N.
        * apply Mc. discriminate.
      + destruct (task_turn d d w) as [[w' cs]|] eqn:G; [|discriminate]. injection E as <-.
        destruct (task_turn_kstep _ _ _ G) as (K & L & N & T). exists h1, (h2 ++ [KTurn]).
        assert (S : map snd (arr ++ map (fun c => (@Oth nat nat (fst c), snd c)) cs) = map snd arr ++ repeat (v_now v) (length cs)).
        { rewrite map_app, map_map. f_equal. rewrite <- Pn, <- T. apply map_ext. reflexivity. }
        destruct (@sorted_app_same _ _ (length cs) Ps Pp) as [S1 S2].
        constructor; cbn [q_source q_timer q_posted]; auto.
        * eapply kr_snoc; [exact P2|apply Hk; exact I|exact K].
        * now rewrite src_calls_app, src_oth, app_nil_r.
        * now rewrite oth_calls_app, oth_oth, L, Pt.
        * congruence.
        * now rewrite S.
        * now rewrite S.
        * intros Dz _. eapply phase_turn; [exact Dz|exact G].
      + injection E as <-. exists (h1 ++ [KCancel]), (h2 ++ [KCancel]).
        constructor; cbn [q_source q_timer q_posted v_log v_now]; auto.
        * eapply kr_snoc; [exact P1|apply Hk; exact I|reflexivity].
        * eapply kr_snoc; [exact P2|apply Hk; exact I|reflexivity].
        * intros _ F. exfalso. apply F, in_app_iff. right. now left.
        * intros _. apply in_app_iff. right. now left.
  Qed.

  Lemma qreach_any (ok : qstate -> qlabel -> Prop) t0 h q : qreach seconds period d ok t0 h q -> exists h1 h2, qparts k_any k_any t0 h q h1 h2.
  Proof. apply qreach_parts; [intros ? [] _; try exact I; split; exact I|intros; split; exact I]. Qed.

  Lemma qreach_on_time t0 h q : qreach seconds period d (q_on_time seconds d) t0 h q -> exists h1 h2, qparts (ticks_on_time seconds) (ticks_on_time d) t0 h q h1 h2.
  Proof. apply qreach_parts; [intros q' [] H; cbn in *; tauto|intros k [] H; try (split; exact I); contradiction]. Qed.
End SampledProofs.

(** ** What sample makes of them *)
Definition arrival (x : either nat nat * Z) : list (nat + nat) :=
  match fst x with Src (OnNext n) => [inl n] | Oth (OnNext n) => [inr n] | _ => [] end.

(** Only elements: the calls are the arrivals. *)
Lemma posted_arrivals (l : list (either nat nat * Z)) :
  (forall n u, In (n, u) (src_calls l) -> exists v, n = OnNext v) -> (forall n u, In (n, u) (oth_calls l) -> exists v, n = OnNext v) ->
  map fst l = map msg_of (flat_map arrival l) /\ map fst (src_calls l) = map OnNext (lefts (flat_map arrival l)).
Proof.
  induction l as [|[[n|n] u] l IH]; intros Hs Ho; [auto| |].
  - destruct (Hs n u (or_introl eq_refl)) as [v ->]. destruct IH as [E1 E2]; [intros m t F; exact (Hs m t (or_intror F))|exact Ho|].
    split; [cbn; now rewrite E1|]. cbn. unfold lefts in *. cbn. now rewrite <- E2.
  - destruct (Ho n u (or_introl eq_refl)) as [v ->]. destruct IH as [E1 E2]; [exact Hs|intros m t F; exact (Ho m t (or_intror F))|].
    split; [cbn; now rewrite E1|]. cbn. unfold lefts in *. cbn. now rewrite <- E2.
Qed.

Lemma lefts_app (a b : Spec.arrivals nat nat) : lefts (a ++ b) = lefts a ++ lefts b.
Proof. unfold lefts. rewrite map_app. induction a as [|[x|y] a IH]; cbn; [reflexivity| |exact IH]. f_equal. exact IH. Qed.

(** Split at the first tick. *)
Lemma first_tick (l : list (either nat nat * Z)) : oth_calls l = [] \/ exists l1 n u l2, l = l1 ++ (Oth n, u) :: l2 /\ oth_calls l1 = [].
Proof.
  induction l as [|[[n|n] u] l IH]; [now left| |].
  - destruct IH as [H|(l1 & m & t & l2 & -> & H)]; [now left|]. right. exists ((Src n, u) :: l1), m, t, l2. auto.
  - right. exists [], n, u, l. auto.
Qed.

Lemma no_tick_none (l : list (either nat nat * Z)) : oth_calls l = [] -> after_tick (flat_map arrival l) = [].
Proof.
  induction l as [|[[[v|e|]|n] u] l IH]; cbn; intros H; auto. discriminate.
Qed.
Lemma after_tick_split (l1 : list (either nat nat * Z)) v u l2 : oth_calls l1 = [] -> after_tick (flat_map arrival (l1 ++ (Oth (OnNext v), u) :: l2)) = lefts (flat_map arrival l2).
Proof.
  induction l1 as [|[[[x|e|]|n] t] l1 IH]; cbn; intros H; auto. discriminate.
Qed.

(** The arrivals after the first tick, given the elements. *)
Lemma shown_from (l : list (either nat nat * Z)) N :
  map fst (src_calls l) = map OnNext (seq 0 N) -> (forall n u, In (n, u) (oth_calls l) -> exists v, n = OnNext v) ->
  exists m, (m <= N)%nat /\ map fst l = map msg_of (flat_map arrival l) /\ after_tick (flat_map arrival l) = seq m (N - m) /\
    (oth_calls l = [] /\ m = N \/
     exists l1 n u l2, l = l1 ++ (Oth n, u) :: l2 /\ oth_calls l1 = [] /\ length (src_calls l1) = m).
Proof.
  intros Hs Ho.
  assert (Hs' : forall n u, In (n, u) (src_calls l) -> exists v, n = OnNext v).
  { intros n u F. apply (in_map fst) in F. rewrite Hs in F. apply in_map_iff in F as (v & F & _). exists v. now symmetry. }
  destruct (posted_arrivals l Hs' Ho) as [E1 E2].
  destruct (first_tick l) as [H|(l1 & n & u & l2 & El & H)].
  - exists N. rewrite (no_tick_none l H), Nat.sub_diag. repeat split; auto.
  - destruct (Ho n u) as [v ->]; [rewrite El, oth_calls_app; apply in_app_iff; right; now left|].
    set (m := length (src_calls l1)).
    assert (L : length (src_calls l) = N) by (rewrite <- (map_length fst), Hs, map_length, seq_length; reflexivity).
    assert (L2 : src_calls l = src_calls l1 ++ src_calls l2) by (rewrite El, src_calls_app; reflexivity).
    assert (M : (m <= N)%nat) by (rewrite <- L, L2, app_length; unfold m; lia).
    exists m. split; [exact M|]. split; [exact E1|]. split; [|right; exists l1, (OnNext v), u, l2; auto].
    rewrite El. rewrite after_tick_split by exact H.
    destruct (posted_arrivals l2) as [_ F2].
    + intros k t F. apply (Hs' k t). rewrite L2. apply in_app_iff. now right.
    + intros k t F. apply (Ho k t). rewrite El, oth_calls_app. apply in_app_iff. right. now right.
    + assert (G : map OnNext (lefts (flat_map arrival l2)) = map (@OnNext nat) (seq m (N - m))).
      { rewrite <- F2. rewrite L2, map_app in Hs.
        replace N with (m + (N - m))%nat in Hs by lia. rewrite seq_app, map_app in Hs. cbn [Nat.add] in Hs.
        apply (f_equal (skipn m)) in Hs. rewrite !skipn_app in Hs. rewrite !map_length, seq_length in Hs. fold m in Hs.
        rewrite Nat.sub_diag in Hs. cbn [skipn] in Hs. rewrite !skipn_all2 in Hs by (rewrite map_length; try rewrite seq_length; unfold m; lia). exact Hs. }
      clear -G. revert G. generalize (seq m (N - m)) (lefts (flat_map arrival l2)). intros a b. revert a.
      induction b as [|x b IH]; intros [|y a] G; cbn in G; try discriminate; [reflexivity|]. injection G as -> G. f_equal. now apply IH.
Qed.

(** The times on the two sides of the first tick. *)
Lemma around_tick (l l1 l2 : list (either nat nat * Z)) n u : l = l1 ++ (Oth n, u) :: l2 -> StronglySorted Z.le (map snd l) ->
  (forall c, In c (src_calls l1) -> snd c <= u) /\ (forall c, In c (src_calls l2) -> u <= snd c).
Proof.
  intros -> S. rewrite map_app in S. cbn in S. apply sorted_split in S as [A B]. rewrite Forall_forall in A, B.
  assert (G : forall k c, In c (src_calls k) -> In (snd c) (map snd k)).
  { intros k c F. unfold src_calls in F. apply in_flat_map in F as ([[x|x] t] & F & K); cbn in K; [|contradiction].
    destruct K as [<-|[]]. cbn. apply in_map_iff. now exists (Src x, t). }
  split; intros c F; [apply A|apply B]; now apply G.
Qed.

Section Shown.
  Context (seconds period d : Z).

  Lemma only_elements sec per kok t0 h v : per <> 0 -> kreach sec per [] kok t0 h (v, []) -> map fst (v_log v) = map OnNext (seq 0 (length (v_log v))).
  Proof.
    intros Pz R. destruct (kreach_any R) as (hv & hd & P). pose proof (iv_elements (pa_iv P) Pz) as E. cbn [fst] in E.
    apply nth_ext with (d := OnCompleted) (d' := OnCompleted); [now rewrite !map_length, seq_length|]. rewrite map_length. intros j Hj.
    destruct (nth_error (v_log v) j) as [[n u]|] eqn:F; [|apply nth_error_None in F; lia].
    destruct (E _ _ _ F) as [-> _]. rewrite (nth_error_nth _ j OnCompleted (map_nth_error fst _ _ F)). cbn.
    rewrite (nth_indep _ OnCompleted (OnNext 0%nat)) by now rewrite map_length, seq_length.
    rewrite map_nth, seq_nth by exact Hj. reflexivity.
  Qed.

  Lemma oths_elements sec per kok t0 h v l : per <> 0 -> kreach sec per [] kok t0 h (v, []) -> v_log v = oth_calls l ->
    forall n u, In (n, u) (oth_calls l) -> exists x, n = OnNext x.
  Proof.
    intros Pz R E n u F. rewrite <- E in F. apply (in_map fst) in F. rewrite (only_elements Pz R) in F. apply in_map_iff in F as (x & F & _). exists x. now symmetry.
  Qed.

  Lemma q_shown (ok : qstate -> qlabel -> Prop) t0 h q : period <> 0 -> d <> 0 -> qreach seconds period d ok t0 h q ->
    exists m, (m <= length (q_made q))%nat /\ q_shows q (map OnNext (seq m (length (q_made q) - m))).
  Proof.
    intros Pz Dz R. destruct (qreach_any R) as (h1 & h2 & P).
    assert (S : map fst (src_calls (q_posted q)) = map OnNext (seq 0 (length (q_made q)))).
    { rewrite <- (qp_made P). exact (only_elements Pz (qp_source P)). }
    destruct (shown_from (q_posted q) _ S (oths_elements _ Dz (qp_timer P) (qp_ticks P))) as (m & Lm & E & A & _).
    exists m. split; [exact Lm|]. unfold q_shows. rewrite E. rewrite <- A.
    pose proof (@C38_sample nat (flat_map arrival (q_posted q)) None [] ltac:(discriminate)) as C. unfold two_sources, trace in C. cbn in C. now rewrite !app_nil_r in C.
  Qed.

  Lemma q_exact t0 h q : period <> 0 -> 0 < d -> qreach seconds period d (q_on_time seconds d) t0 h q -> ~ In QCancel h ->
    exists m, (m <= length (q_made q))%nat /\ q_shows q (map OnNext (seq m (length (q_made q) - m))) /\
      (forall j, (j < m)%nat -> t0 + Z.max 0 seconds + Z.of_nat j * Z.max 0 period <= t0 + d) /\
      (forall j, (m <= j < length (q_made q))%nat -> t0 + d <= t0 + Z.max 0 seconds + Z.of_nat j * Z.max 0 period).
  Proof.
    intros Pz Dp R C. assert (Dz : d <> 0) by lia. destruct (qreach_on_time R) as (h1 & h2 & P).
    assert (S : map fst (src_calls (q_posted q)) = map OnNext (seq 0 (length (q_made q)))).
    { rewrite <- (qp_made P). exact (only_elements Pz (qp_source P)). }
    destruct (shown_from (q_posted q) _ S (oths_elements _ Dz (qp_timer P) (qp_ticks P))) as (m & Lm & E & A & W).
    assert (B : q_made q = beats seconds period t0 (length (q_made q))) by exact (k_beats (fun _ _ H => H) Pz (qp_source P)).
    assert (T : forall j x, nth_error (src_calls (q_posted q)) j = Some x -> snd x = t0 + Z.max 0 seconds + Z.of_nat j * Z.max 0 period).
    { intros j x F. rewrite <- (qp_made P) in F. fold (q_made q) in F. rewrite B in F. apply nth_beats in F. now subst x. }
    assert (Len : length (src_calls (q_posted q)) = length (q_made q)) by (rewrite <- (qp_made P); reflexivity).
    exists m. split; [exact Lm|]. split.
    { unfold q_shows. rewrite E. rewrite <- A.
      pose proof (@C38_sample nat (flat_map arrival (q_posted q)) None [] ltac:(discriminate)) as D. unfold two_sources, trace in D. cbn in D. now rewrite !app_nil_r in D. }
    destruct W as [[N ->]|(l1 & n & u & l2 & El & N & M)].
    - split; [|lia]. intros j Hj. destruct (nth_error (src_calls (q_posted q)) j) as [x|] eqn:F; [|apply nth_error_None in F; lia].
      rewrite <- (T _ _ F). apply nth_error_In in F.
      assert (Now : v_now (q_source q) <= t0 + d).
      { rewrite <- (qp_now P). destruct (k_on_beat (fun _ _ H => H) Dz (qp_timer P)) as (k & Lk & Ph). cbn [fst] in *. pose proof (qp_alive P Dz C) as Al.
        rewrite (qp_ticks P), N in Lk. assert (k = 0%nat) as -> by (destruct k; [reflexivity|discriminate]).
        destruct (v_phase (q_timer q)); try contradiction; [lia|]. destruct Ph as (_ & -> & Ph). unfold due in Ph. lia. }
      pose proof (qp_past P) as Pa. rewrite Forall_forall in Pa.
      assert (In (snd x) (map snd (q_posted q))).
      { unfold src_calls in F. apply in_flat_map in F as ([[y|y] t] & F & K); cbn in K; [|contradiction]. destruct K as [<-|[]]. apply in_map_iff. now exists (Src y, t). }
      specialize (Pa _ H). lia.
    - assert (U : u = t0 + d).
      { assert (F : nth_error (v_log (q_timer q)) 0 = Some (n, u)) by (rewrite (qp_ticks P), El, oth_calls_app, N; reflexivity).
        pose proof (k_beats (fun _ _ H => H) Dz (qp_timer P)) as Bt. unfold k_made in Bt. cbn [fst] in Bt. rewrite Bt in F. apply nth_beats in F. injection F as _ ->. lia. }
      destruct (@around_tick _ _ _ _ _ El (qp_sorted P)) as [Before After].
      assert (L2 : src_calls (q_posted q) = src_calls l1 ++ src_calls l2) by (rewrite El, src_calls_app; reflexivity).
      rewrite <- U. split.
      + intros j Hj. destruct (nth_error (src_calls l1) j) as [x|] eqn:F; [|apply nth_error_None in F; lia].
        rewrite <- (T j x); [apply Before; now apply nth_error_In in F|]. rewrite L2, nth_error_app1; [exact F|lia].
      + intros j Hj. rewrite <- Len, L2, app_length in Hj. destruct (nth_error (src_calls l2) (j - m)) as [x|] eqn:F; [|apply nth_error_None in F; lia].
        rewrite <- (T j x); [apply After; now apply nth_error_In in F|]. rewrite L2, nth_error_app2 by lia. now rewrite M.
  Qed.

  Lemma q_no_beat_lost t0 h q : period <> 0 -> qreach seconds period d (q_on_time seconds d) t0 h q -> ~ In QCancel h -> ivwork seconds (q_source q) = None ->
    forall n, t0 + Z.max 0 seconds + Z.of_nat n * Z.max 0 period <= v_now (q_source q) -> (n < length (q_made q))%nat.
  Proof.
    intros Pz R C W. destruct (qreach_on_time R) as (h1 & h2 & P). refine (k_all_beats (fun _ _ H => H) Pz (qp_source P) _ W).
    intros F. now apply C, (qp_cancel P).
  Qed.

  Section Ticks.
    Context (kok : kstate -> klabel -> Prop) (t0 : Z) (h : list qlabel) (q : qstate) (h1 h2 : list klabel).
    Context (Dp : 0 < d) (P : qparts seconds period d kok (ticks_on_time d) t0 h q h1 h2) (C : ~ In QCancel h).

    Lemma first_time l1 n u l2 : q_posted q = l1 ++ (Oth n, u) :: l2 -> oth_calls l1 = [] -> u = t0 + d.
    Proof.
      intros El N. assert (Dz : d <> 0) by lia.
      assert (F : nth_error (v_log (q_timer q)) 0 = Some (n, u)) by (rewrite (qp_ticks P), El, oth_calls_app, N; reflexivity).
      pose proof (k_beats (fun _ _ H => H) Dz (qp_timer P)) as Bt. unfold k_made in Bt. cbn [fst] in Bt. rewrite Bt in F. apply nth_beats in F. injection F as _ ->. lia.
    Qed.

    Lemma le_tick l1 rest c : q_posted q = l1 ++ rest -> oth_calls l1 = [] -> In c (src_calls l1) -> snd c <= t0 + d.
    Proof.
      intros El N F. assert (Dz : d <> 0) by lia. destruct (first_tick rest) as [N2|(r1 & n & u & r2 & -> & N2)].
      - assert (Now : v_now (q_source q) <= t0 + d).
        { rewrite <- (qp_now P). destruct (k_on_beat (fun _ _ H => H) Dz (qp_timer P)) as (k & Lk & Ph). cbn [fst] in *. pose proof (qp_alive P Dz C) as Al.
          rewrite (qp_ticks P), El, oth_calls_app, N, N2 in Lk. assert (k = 0%nat) as -> by (destruct k; [reflexivity|discriminate]).
          destruct (v_phase (q_timer q)); try contradiction; [lia|]. destruct Ph as (_ & -> & Ph). unfold due in Ph. lia. }
        pose proof (qp_past P) as Pa. rewrite Forall_forall in Pa.
        assert (G : In (snd c) (map snd (q_posted q))).
        { rewrite El, map_app. apply in_app_iff. left. unfold src_calls in F. apply in_flat_map in F as ([[y|y] t] & F & K); cbn in K; [|contradiction]. destruct K as [<-|[]]. apply in_map_iff. now exists (Src y, t). }
        specialize (Pa _ G). lia.
      - rewrite app_assoc in El. assert (U : u = t0 + d) by (eapply first_time; [exact El|now rewrite oth_calls_app, N, N2]).
        destruct (@around_tick _ _ _ _ _ El (qp_sorted P)) as [Before _]. rewrite <- U. apply Before. rewrite src_calls_app. apply in_app_iff. now left.
    Qed.

    Lemma ge_tick l1 n u l2 c : q_posted q = l1 ++ (Oth n, u) :: l2 -> oth_calls l1 = [] -> In c (src_calls l2) -> t0 + d <= snd c.
    Proof.
      intros El N F. assert (U : u = t0 + d) by (eapply first_time; eassumption). rewrite <- U. destruct (@around_tick _ _ _ _ _ El (qp_sorted P)) as [_ After]. now apply After.
    Qed.
  End Ticks.

  Lemma src_split (l : list (either nat nat * Z)) : forall a n u b, src_calls l = a ++ (n, u) :: b ->
    exists l1 l2, l = l1 ++ (Src n, u) :: l2 /\ src_calls l1 = a /\ src_calls l2 = b.
  Proof.
    induction l as [|[[x|x] t] l IH]; intros a n u b E.
    - now destruct a.
    - destruct a as [|y a]; cbn in E; injection E as E1 E2.
      + intros. subst. exists [], l. auto.
      + destruct (IH _ _ _ _ E2) as (l1 & l2 & -> & <- & <-). exists ((Src x, t) :: l1), l2. subst y. auto.
    - destruct (IH _ _ _ _ E) as (l1 & l2 & -> & <- & <-). exists ((Oth x, t) :: l1), l2. auto.
  Qed.

  Lemma q_timer_shown t0 h q : period = 0 -> 0 < d -> qreach seconds period d (q_on_time seconds d) t0 h q -> ~ In QCancel h ->
    q_made q = [] \/
    (q_made q = [(OnNext 0%nat, t0 + Z.max 0 seconds); (OnCompleted, t0 + Z.max 0 seconds)] /\
     (q_shows q [OnNext 0%nat; OnCompleted] /\ d <= Z.max 0 seconds \/ q_shows q [OnCompleted] /\ Z.max 0 seconds <= d)).
  Proof.
    intros Pz Dp R C. assert (Dz : d <> 0) by lia. destruct (qreach_on_time R) as (h1 & h2 & P).
    destruct (k_timer (fun _ _ H => H) Pz (qp_source P)) as [E|E]; [now left|right]. split; [exact E|].
    unfold k_made in E. cbn [fst] in E. rewrite (qp_made P) in E. set (t := t0 + Z.max 0 seconds) in *.
    destruct (src_split _ [(OnNext 0%nat, t)] _ _ _ E) as (p & lc & El & Ep & Ec).
    assert (Op : forall n u, In (n, u) (oth_calls p) -> exists v, n = OnNext v).
    { intros n u F. apply (oths_elements _ Dz (qp_timer P) (qp_ticks P) n u). rewrite El, oth_calls_app. apply in_app_iff. now left. }
    assert (Sp : map fst (src_calls p) = map OnNext (seq 0 1)) by now rewrite Ep.
    destruct (shown_from p 1 Sp Op) as (m & Lm & F & A & W).
    assert (D : q_shows q (trace (seq m (1 - m)) Completed)).
    { unfold q_shows. rewrite El, map_app, F. cbn [map fst]. rewrite <- A.
      exact (@C38_sample nat (flat_map arrival p) (Some (Src OnCompleted)) (map fst lc) ltac:(intros x [= <-]; discriminate)). }
    destruct m as [|[|m]]; [|right|lia].
    - left. split; [exact D|]. destruct W as [[_ W]|(l1 & n & u & l2 & -> & N & M)]; [discriminate|].
      rewrite <- app_assoc in El. cbn [app] in El.
      assert (G : t0 + d <= t); [|unfold t in G; lia]. change t with (snd (@OnNext nat 0%nat, t)).
      eapply (ge_tick Dp P); [exact El|exact N|]. rewrite src_calls_app in Ep. destruct (src_calls l1); [|discriminate].
      rewrite src_calls_app. apply in_app_iff. left. cbn in Ep. unfold src_calls. rewrite Ep. now left.
    - split; [exact D|]. assert (G : t <= t0 + d); [|unfold t in G; lia]. change t with (snd (@OnNext nat 0%nat, t)).
      destruct W as [[N _]|(l1 & n & u & l2 & -> & N & M)].
      + eapply (le_tick Dp P C); [exact El|exact N|]. rewrite Ep. now left.
      + rewrite <- app_assoc in El. eapply (le_tick Dp P C); [exact El|exact N|]. rewrite src_calls_app in Ep.
        destruct (src_calls l1) as [|x [|y r]]; try discriminate. injection Ep as -> _. now left.
  Qed.
End Shown.

(** ** Running a history *)
Definition sleeps_b (sec : Z) (v : ivstate) (dt : Z) : bool :=
  match ivwork sec v with Some _ => false | None => match v_phase v with ISleep u _ => v_now v + dt <=? u | _ => true end end.
Definition q_on_time_b (seconds d : Z) (q : qstate) (l : qlabel) : bool :=
  match l with QTick dt => sleeps_b seconds (q_source q) dt && sleeps_b d (q_timer q) dt | _ => true end.
Fixpoint q_run (seconds period d : Z) (q : qstate) (h : list qlabel) : option qstate :=
  match h with
  | [] => Some q
  | l :: r => if q_on_time_b seconds d q l then match qstep seconds period d q l with Some q' => q_run seconds period d q' r | None => None end else None
  end.
Lemma q_on_time_ok seconds d q l : q_on_time_b seconds d q l = true -> q_on_time seconds d q l.
Proof.
  destruct l as [dt| | |]; cbn [q_on_time_b q_on_time]; intros H; try exact I. apply andb_prop in H as [H1 H2]. unfold sleeps_b in *.
  split; [destruct (ivwork seconds (q_source q)); [discriminate|]|destruct (ivwork d (q_timer q)); [discriminate|]]; (split; [reflexivity|]).
  - destruct (v_phase (q_source q)); auto. now apply Z.leb_le.
  - destruct (v_phase (q_timer q)); auto. now apply Z.leb_le.
Qed.
Lemma q_run_ok seconds period d t0 h : forall h0 q q', qreach seconds period d (q_on_time seconds d) t0 h0 q -> q_run seconds period d q h = Some q' ->
  qreach seconds period d (q_on_time seconds d) t0 (h0 ++ h) q'.
Proof.
  induction h as [|l h IH]; intros h0 q q' R E; cbn [q_run] in E; [injection E as <-; now rewrite app_nil_r|].
  destruct (q_on_time_b seconds d q l) eqn:B; [|discriminate]. destruct (qstep seconds period d q l) as [q1|] eqn:S; [|discriminate].
  replace (h0 ++ l :: h) with ((h0 ++ [l]) ++ h) by now rewrite <- app_assoc. eapply IH; [|exact E]. econstructor; [exact R|now apply q_on_time_ok|exact S].
Qed.
