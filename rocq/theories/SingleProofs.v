(** * Proofs about AsyncSingleSubject. *)
From Coq Require Import Permutation.
From Verif Require Export Single SubjectProofs.
Set Implicit Arguments.
Arguments v_effect : simpl never.

Lemma vreach_last A (h : list (vlabel A)) s : vreach h s -> h = [] /\ s = v_init \/
  exists h1 x s1, h = h1 ++ [x] /\ vreach h1 s1 /\ vstep s1 x = Some s.
Proof. intros H. inversion H; subst; [left; auto|right; eauto 8]. Qed.

Lemma vreach_snoc A (h : list (vlabel A)) x s : vreach (h ++ [x]) s -> exists s1, vreach h s1 /\ vstep s1 x = Some s.
Proof.
  intros H. destruct (vreach_last H) as [[E _]|(h1 & y & s1 & E & H1 & Q)]; [destruct h; discriminate|].
  apply app_inj_tail in E as [<- <-]. eauto.
Qed.

Lemma vreach_fun A (h : list (vlabel A)) : forall s s', vreach h s -> vreach h s' -> s = s'.
Proof.
  induction h as [|x h IH] using rev_ind; intros s s' H H'.
  - destruct (vreach_last H) as [[_ ->]|(h1 & y & s1 & E & _)]; [|destruct h1; discriminate].
    destruct (vreach_last H') as [[_ ->]|(h1 & y & s1 & E & _)]; [reflexivity|destruct h1; discriminate].
  - apply vreach_snoc in H as (s1 & H1 & Q). apply vreach_snoc in H' as (s2 & H2 & Q').
    rewrite (IH _ _ H1 H2) in Q. congruence.
Qed.

Lemma vreach_app A (h1 h2 : list (vlabel A)) : forall s, vreach (h1 ++ h2) s -> exists s1, vreach h1 s1.
Proof.
  induction h2 as [|x h2 IH] using rev_ind; intros s H; [rewrite app_nil_r in H; eauto|].
  rewrite app_assoc in H. apply vreach_snoc in H as (s1 & H1 & _). eauto.
Qed.

Lemma v_off_snoc A (h : list (vlabel A)) x : v_off (h ++ [x]) = v_off h || match x with VDispose => true | _ => false end.
Proof. unfold v_off. rewrite existsb_app. cbn. now rewrite orb_false_r. Qed.

Lemma listener_snoc A (h : list (vlabel A)) x : listener (h ++ [x]) =
  if v_off h then None else match x with VSub o => Some o | VDispose => None | _ => listener h end.
Proof.
  unfold listener. assert (G : forall o, listener_from o (h ++ [x]) =
    if v_off h then None else match x with VSub o => Some o | VDispose => None | _ => listener_from o h end); [|apply G].
  induction h as [|y h IH]; intros o; cbn; [destruct x; reflexivity|]. destruct y; cbn; try apply IH. reflexivity.
Qed.

Lemma listener_off A (h : list (vlabel A)) : v_off h = true -> listener h = None.
Proof.
  unfold listener. assert (G : forall o, v_off h = true -> listener_from o h = None); [|apply G].
  induction h as [|y h IH]; intros o E; cbn in *; [discriminate|]. destruct y; cbn in *; auto.
Qed.

Lemma had_snoc A (h : list (vlabel A)) x : had_listener (h ++ [x]) =
  had_listener h || (negb (v_off h) && match x with VSub _ => true | _ => false end).
Proof.
  induction h as [|y h IH]; cbn; [destruct x; reflexivity|]. destruct y; cbn; try exact IH; reflexivity.
Qed.

Lemma had_listener_some A (h : list (vlabel A)) o : listener h = Some o -> had_listener h = true.
Proof.
  unfold listener. induction h as [|y h IH]; cbn; [discriminate|]. destruct y; cbn; auto; discriminate.
Qed.

Lemma sent_snoc A (h : list (vlabel A)) x : v_sent (h ++ [x]) = v_sent h ++ match x with VCall n => [n] | _ => [] end.
Proof. unfold v_sent. rewrite flat_map_app. cbn. now rewrite app_nil_r. Qed.

(** ** The state against the history *)
Record VI {A} (h : list (vlabel A)) (s : vstate A) : Prop := {
  vi_obs : v_obs s = listener h;
  vi_off : v_disposed s = v_off h;
  vi_wait : v_wait s = had_listener h;
  vi_calls : length (v_calls s) = length (v_sent h);
  vi_log : forall c o n, In (c, o, n) (v_log s) -> c < length (v_calls s);
  vi_queue : forall c, In c (v_queue s) <-> exists n, nth_error (v_calls s) c = Some (VWaiting n);
  vi_nodup : NoDup (v_queue s);
  vi_spin : v_hung s = false -> forall c, nth_error (v_calls s) c <> Some VSpin;
  vi_hung : v_hung s = true -> v_off h = true /\ had_listener h = true;
  vi_stop : v_stopped s = true -> exists n, In n (v_sent h) /\ is_term n = true;
  vi_sent : forall c n, nth_error (v_calls s) c = Some (VWaiting n) \/ (exists o, nth_error (v_calls s) c = Some (VIn n o)) -> nth_error (v_sent h) c = Some n
}.

Lemma vloop_spin A c n (s : vstate A) p l : vloop c n s = (p, l) -> vspins p = true -> v_obs s = None /\ v_wait s = true.
Proof.
  unfold vloop. destruct (v_obs s); intros E F.
  - destruct (match n with OnNext _ => false | _ => v_disposed s end); [injection E as <- <-; discriminate|].
    destruct (v_stopped s); injection E as <- <-; discriminate.
  - destruct (v_wait s); injection E as <- <-; [auto|discriminate].
Qed.

Lemma vloop_log A c n (s : vstate A) p l c' o m : vloop c n s = (p, l) -> In (c', o, m) l -> c' = c.
Proof.
  unfold vloop. destruct (v_obs s); intros E F.
  - destruct (match n with OnNext _ => false | _ => v_disposed s end); [injection E as <- <-; destruct F|].
    destruct (v_stopped s); injection E as <- <-; [destruct F|]. destruct F as [[= <- _ _]|[]]. reflexivity.
  - destruct (v_wait s); injection E as <- <-; destruct F.
Qed.

Lemma nth_snoc_inv X (l : list X) x c y : nth_error (l ++ [x]) c = Some y -> (c < length l /\ nth_error l c = Some y) \/ (c = length l /\ y = x).
Proof.
  intros H. destruct (Nat.lt_ge_cases c (length l)) as [L|L]; [left; rewrite nth_error_app1 in H by lia; auto|].
  rewrite nth_error_app2 in H by lia. destruct (c - length l) as [|d] eqn:E; [|destruct d; discriminate].
  cbn in H. right. split; [lia|congruence].
Qed.

Lemma nth_upd_inv X i (x : X) l c y : nth_error (upd i x l) c = Some y -> (c = i /\ y = x) \/ (c <> i /\ nth_error l c = Some y).
Proof.
  intros H. destruct (Nat.eq_dec c i) as [->|N]; [left|right; rewrite nth_upd_ne in H by auto; auto].
  assert (L : i < length l). { rewrite <- (upd_length i x l). eapply nth_some_length, H. }
  rewrite nth_upd_eq in H by exact L. split; congruence.
Qed.

Lemma vi A (h : list (vlabel A)) s : vreach h s -> VI h s.
Proof.
  induction 1 as [|h x s s' Hr IH E].
  - constructor; cbn; try discriminate; try reflexivity; try tauto.
    + intros c. split; [intros []|]. intros [n F]. destruct c; discriminate.
    + constructor.
    + intros _ [|c]; discriminate.
    + intros [|c] n [F|[o F]]; discriminate.
  - destruct IH as [I1 I2 I3 I4 I5 I6 I7 I8 I9 I10 I11]. unfold vstep in E. destruct (v_hung s) eqn:Hh; [discriminate|].
    specialize (I8 eq_refl). clear I9.
    assert (Lis : match x with VSub _ | VDispose => False | _ => True end -> listener (h ++ [x]) = listener h /\ v_off (h ++ [x]) = v_off h /\ had_listener (h ++ [x]) = had_listener h).
    { intros Hx. rewrite listener_snoc, v_off_snoc, had_snoc. destruct (v_off h) eqn:O; [rewrite (listener_off _ O)|]; destruct x; try contradiction; cbn; rewrite ?orb_false_r; auto. }
    destruct x as [n| |c|c e|o|].
    + destruct (Lis I) as (L1 & L2 & L3). clear Lis.
      assert (G : forall p l, (vspins p = true -> v_obs s = None /\ v_wait s = true) -> (forall c' o m, In (c', o, m) l -> c' = length (v_calls s)) ->
        (forall m, p = VWaiting m -> m = n) -> (forall m o, p = VIn m o -> m = n) -> (p = VSpin -> vspins p = true) ->
        (vspins p = true -> v_off h = true /\ had_listener h = true) ->
        VI (h ++ [VCall n]) (VState (v_wait s) (v_obs s) (v_disposed s) (v_stopped s) (v_calls s ++ [p]) (vplace (length (v_calls s)) p (v_queue s)) (vspins p) (v_log s ++ l))).
      { intros p l Hs Hl Hw Hi Hsp Hsp2. constructor; cbn.
        - now rewrite L1.
        - now rewrite L2.
        - now rewrite L3.
        - rewrite sent_snoc, !app_length. cbn. lia.
        - intros c o m F. rewrite app_length. cbn. apply in_app_iff in F as [F|F]; [apply I5 in F|apply Hl in F]; lia.
        - intros c. split.
          + intros F. assert (F' : In c (v_queue s) \/ c = length (v_calls s) /\ exists m, p = VWaiting m).
            { destruct p; cbn in F; auto. apply in_app_iff in F as [F|[<-|[]]]; [auto|right; eauto]. }
            destruct F' as [F'|[-> [m ->]]].
            * apply I6 in F' as [m F']. exists m. rewrite nth_error_app1; [exact F'|]. eapply nth_some_length, F'.
            * exists m. apply nth_snoc.
          + intros [m F]. apply nth_snoc_inv in F as [[L F]|[-> <-]].
            * assert (In c (v_queue s)) as K by (apply I6; eauto). destruct p; cbn; auto. apply in_app_iff. now left.
            * cbn. apply in_app_iff. right. now left.
        - destruct p; cbn; auto. apply (Permutation_NoDup (Permutation_sym (Permutation_app_comm _ _))). cbn. constructor; [|exact I7].
          intros F. apply I6 in F as [m F]. apply nth_some_length in F. lia.
        - intros Hf c F. apply nth_snoc_inv in F as [[L F]|[-> <-]]; [exact (I8 _ F)|]. discriminate.
        - rewrite L2, L3. exact Hsp2.
        - intros F. destruct (I10 F) as (m & F1 & F2). exists m. split; [|exact F2]. rewrite sent_snoc. apply in_app_iff. now left.
        - intros c m F. rewrite sent_snoc.
          assert (F' : (c < length (v_calls s) /\ (nth_error (v_calls s) c = Some (VWaiting m) \/ (exists o, nth_error (v_calls s) c = Some (VIn m o)))) \/ c = length (v_calls s) /\ m = n).
          { destruct F as [F|[o F]]; apply nth_snoc_inv in F as [[L F]|[-> F]]; [left; eauto|right; eauto|left; eauto|right; eauto]. }
          destruct F' as [[L F']|[-> ->]].
          + rewrite nth_error_app1 by (rewrite <- I4; exact L). now apply I11.
          + rewrite I4. apply nth_snoc. }
      destruct (match n with OnNext _ => v_disposed s | _ => false end).
      * injection E as <-. apply G; cbn; (discriminate || (intros; contradiction) || (intros ? ? ? F; destruct F)).
      * destruct (vloop (length (v_calls s)) n s) as [p l] eqn:V. injection E as <-. apply G.
        -- exact (vloop_spin _ _ _ V).
        -- intros c' o m F. eapply vloop_log; eassumption.
        -- intros m ->. unfold vloop in V. destruct (v_obs s); [destruct (match n with OnNext _ => false | _ => v_disposed s end); [discriminate|]; destruct (v_stopped s); discriminate|].
           destruct (v_wait s); congruence.
        -- intros m o ->. unfold vloop in V. destruct (v_obs s); [destruct (match n with OnNext _ => false | _ => v_disposed s end); [discriminate|]; destruct (v_stopped s); congruence|].
           destruct (v_wait s); discriminate.
        -- intros ->. reflexivity.
        -- intros F. destruct (vloop_spin _ _ _ V F) as [F1 F2]. rewrite I1 in F1. rewrite I3 in F2. split; [|exact F2].
           destruct (v_off h) eqn:O; [reflexivity|]. exfalso. clear - F1 F2 O. revert F1 F2 O. unfold listener.
           assert (K : forall (h : list (vlabel A)) o, v_off h = false -> listener_from (Some o) h <> None).
           { induction h0 as [|y h0 IH]; intros o O; cbn; [discriminate|]. destruct y; cbn in *; auto; discriminate. }
           induction h as [|y h IH]; cbn; [discriminate|]. destruct y; cbn; auto; [|discriminate]. intros F1 _ O. exact (K _ _ O F1).
    + destruct (Lis I) as (L1 & L2 & L3). clear Lis.
      destruct (v_wait s) eqn:W; [|discriminate]. destruct (v_queue s) as [|c q] eqn:Q; [discriminate|].
      destruct (nth_error (v_calls s) c) as [[n| | |]|] eqn:K; try discriminate.
      destruct (vloop c n s) as [p l] eqn:V. injection E as <-. pose proof (nth_some_length _ _ K) as Lc.
      assert (Hw : forall m, p <> VWaiting m).
      { intros m ->. unfold vloop in V. destruct (v_obs s); [destruct (match n with OnNext _ => false | _ => v_disposed s end); [discriminate|]; destruct (v_stopped s); discriminate|].
           rewrite W in V. discriminate. }
      assert (Hi : forall m o, p = VIn m o -> m = n).
      { intros m o ->. unfold vloop in V. destruct (v_obs s); [destruct (match n with OnNext _ => false | _ => v_disposed s end); [discriminate|]; destruct (v_stopped s); congruence|].
           destruct (v_wait s); discriminate. }
      assert (Hp : vplace c p q = q) by (destruct p; auto; elim (Hw n0 eq_refl)).
      constructor; cbn; rewrite ?Hp.
      * now rewrite L1.
      * now rewrite L2.
      * now rewrite L3.
      * rewrite sent_snoc, app_nil_r, upd_length. exact I4.
      * intros c' o m F. rewrite upd_length. apply in_app_iff in F as [F|F]; [exact (I5 _ _ _ F)|]. assert (c' = c) as -> by (eapply vloop_log; eassumption). exact Lc.
      * intros d. inversion I7 as [|? ? Hd Hq]; subst. split.
        -- intros F. destruct (proj1 (I6 d)) as [m Fm]; [now right|]. exists m. rewrite nth_upd_ne; [exact Fm|]. intros ->. contradiction.
        -- intros [m F]. apply nth_upd_inv in F as [[-> F]|[Hne F]]; [elim (Hw m); auto|].
           destruct (proj2 (I6 d)) as [->|F']; [eauto|congruence|exact F'].
      * now inversion I7.
      * intros Hf d F. apply nth_upd_inv in F as [[-> F]|[Hne F]]; [subst p; discriminate|exact (I8 _ F)].
      * intros F. destruct (vloop_spin _ _ _ V F) as [F1 F2]. rewrite I1 in F1. rewrite L2, L3. rewrite <- I3. split; [|reflexivity].
           destruct (v_off h) eqn:O; [reflexivity|]. exfalso. symmetry in I3. clear - F1 I3 O. revert F1 I3 O. unfold listener.
           assert (K : forall (h : list (vlabel A)) o, v_off h = false -> listener_from (Some o) h <> None).
           { induction h0 as [|y h0 IH]; intros o O; cbn; [discriminate|]. destruct y; cbn in *; auto; discriminate. }
           induction h as [|y h IH]; cbn; [discriminate|]. destruct y; cbn; auto; [|discriminate]. intros F1 _ O. exact (K _ _ O F1).
      * intros F. destruct (I10 F) as (m & F1 & F2). exists m. split; [|exact F2]. rewrite sent_snoc, app_nil_r. exact F1.
      * intros d m F. rewrite sent_snoc, app_nil_r. destruct F as [F|[o F]]; apply nth_upd_inv in F as [[-> F]|[Hne F]].
        -- elim (Hw m); auto.
        -- apply I11. auto.
        -- symmetry in F. rewrite (Hi _ _ F). apply I11. auto.
        -- apply I11. eauto.
    + destruct (Lis I) as (L1 & L2 & L3). clear Lis. destruct (nth_error (v_calls s) c) as [[|n o| |]|] eqn:K; try discriminate. injection E as <-.
      constructor; cbn; rewrite ?L1, ?L2, ?L3, ?sent_snoc, ?app_nil_r, ?upd_length; auto; try discriminate.
      * intros d. rewrite I6. split; intros [m F].
        -- exists m. rewrite nth_upd_ne; [exact F|congruence].
        -- apply nth_upd_inv in F as [[_ F]|[_ F]]; [discriminate|eauto].
      * intros _ d F. apply nth_upd_inv in F as [[_ F]|[_ F]]; [discriminate|exact (I8 _ F)].
      * destruct n; [exact I10|..]; intros _; eexists; (split; [eapply nth_error_In, (I11 c); right; eauto|reflexivity]).
      * intros d m F. destruct F as [F|[p F]]; apply nth_upd_inv in F as [[_ F]|[_ F]]; try discriminate; apply I11; eauto.
    + destruct (Lis I) as (L1 & L2 & L3). clear Lis. destruct (nth_error (v_calls s) c) as [[|n o| |]|] eqn:K; try discriminate. injection E as <-.
      constructor; cbn; rewrite ?L1, ?L2, ?L3, ?sent_snoc, ?app_nil_r, ?upd_length; auto; try discriminate.
      * intros d. rewrite I6. split; intros [m F].
        -- exists m. rewrite nth_upd_ne; [exact F|congruence].
        -- apply nth_upd_inv in F as [[_ F]|[_ F]]; [discriminate|eauto].
      * intros _ d F. apply nth_upd_inv in F as [[_ F]|[_ F]]; [discriminate|exact (I8 _ F)].
      * intros d m F. destruct F as [F|[p F]]; apply nth_upd_inv in F as [[_ F]|[_ F]]; try discriminate; apply I11; eauto.
    + clear Lis. rewrite I2 in E. destruct (v_off h) eqn:O; injection E as <-.
      * constructor; rewrite ?listener_snoc, ?v_off_snoc, ?had_snoc, ?sent_snoc, ?O, ?app_nil_r; cbn; rewrite ?orb_false_r; auto; rewrite ?I1, ?(listener_off _ O); auto; congruence.
      * constructor; cbn; rewrite ?listener_snoc, ?v_off_snoc, ?had_snoc, ?sent_snoc, ?O, ?app_nil_r; cbn; rewrite ?orb_false_r, ?orb_true_r; auto; discriminate.
    + clear Lis. injection E as <-.
      constructor; cbn; rewrite ?listener_snoc, ?v_off_snoc, ?had_snoc, ?sent_snoc, ?app_nil_r; cbn; rewrite ?andb_false_r, ?orb_false_r, ?orb_true_r; auto; try discriminate.
      destruct (v_off h); reflexivity.
Qed.

Lemma obs_not_off A (h : list (vlabel A)) s o : vreach h s -> v_obs s = Some o -> v_disposed s = false.
Proof.
  intros Hr E. destruct (vi Hr). rewrite vi_off0. destruct (v_off h) eqn:O; [|reflexivity]. rewrite (listener_off _ O) in vi_obs0. congruence.
Qed.

(** ** One call *)
Definition v_call_state {A} (n : notif A) (c : nat) (s : vstate A) : Prop :=
  exists p, nth_error (v_calls s) c = Some p /\
  match p with
  | VWaiting m => m = n /\ v_effect c s = []
  | VIn m o => m = n /\ v_effect c s = [(o, n)]
  | VOver (Some _) => exists o, v_effect c s = [(o, n)]
  | VOver None => (exists o, v_effect c s = [(o, n)]) \/ v_effect c s = [] /\ v_stopped s = true
  | VSpin => v_effect c s = [] /\ v_hung s = true
  end.

Lemma effect_app A c (s s' : vstate A) l : v_log s' = v_log s ++ l ->
  v_effect c s' = v_effect c s ++ map (fun e => (snd (fst e), snd e)) (filter (fun e => fst (fst e) =? c) l).
Proof. intros E. unfold v_effect. rewrite E, filter_app, map_app. reflexivity. Qed.

Lemma effect_same A c (s s' : vstate A) l : v_log s' = v_log s ++ l -> (forall o m, ~ In (c, o, m) l) -> v_effect c s' = v_effect c s.
Proof. intros E H. rewrite (effect_app c s s' _ E), (@filter_out A c l H). cbn. apply app_nil_r. Qed.

Lemma stopped_mono A (s s' : vstate A) x : vstep s x = Some s' -> v_stopped s = true -> v_stopped s' = true.
Proof.
  unfold vstep. intros E F. destruct (v_hung s); [discriminate|]. destruct x as [n| |c|c e|o|].
  - destruct (if match n with OnNext _ => v_disposed s | _ => false end then _ else _) as [p l]. injection E as <-. exact F.
  - destruct (v_wait s); [|discriminate]. destruct (v_queue s); [discriminate|]. destruct (nth_error (v_calls s) n) as [[m| | |]|]; try discriminate.
    destruct (vloop n m s). injection E as <-. exact F.
  - destruct (nth_error (v_calls s) c) as [[|m o| |]|]; try discriminate. injection E as <-. cbn. destruct m; auto.
  - destruct (nth_error (v_calls s) c) as [[|m o| |]|]; try discriminate. injection E as <-. exact F.
  - destruct (v_disposed s); injection E as <-; exact F.
  - injection E as <-; exact F.
Qed.

(** The call is not touched. *)
Lemma v_call_keep A n c (s s' : vstate A) : nth_error (v_calls s') c = nth_error (v_calls s) c -> v_effect c s' = v_effect c s ->
  (v_stopped s = true -> v_stopped s' = true) -> v_hung s = false -> v_call_state n c s -> v_call_state n c s'.
Proof.
  intros E1 E2 E3 E4 (p & Hp & Hc). exists p. rewrite E1. split; [exact Hp|]. destruct p as [m|m o|[e|]|]; rewrite E2; try exact Hc.
  - destruct Hc as [Hc|[Hc Hs]]; auto.
  - destruct Hc. congruence.
Qed.

Lemma vloop_call A (h : list (vlabel A)) s c n p l s' : vreach h s -> vloop c n s = (p, l) -> v_effect c s = [] ->
  nth_error (v_calls s') c = Some p -> v_log s' = v_log s ++ l -> v_stopped s' = v_stopped s -> v_hung s' = vspins p -> v_call_state n c s'.
Proof.
  intros Hr V He Hp El Es Eh. exists p. split; [exact Hp|]. pose proof (effect_app c s s' _ El) as F. rewrite He in F. cbn in F.
  unfold vloop in V. destruct (v_obs s) as [o|] eqn:O.
  - rewrite (obs_not_off Hr O) in V. replace (match n with OnNext _ => false | _ => false end) with false in V by now destruct n.
    destruct (v_stopped s); injection V as <- <-.
    + right. cbn in F. auto.
    + split; [reflexivity|]. rewrite F. cbn. now rewrite Nat.eqb_refl.
  - destruct (v_wait s); injection V as <- <-; cbn in F; auto.
Qed.

Lemma v_call_step A n c (h : list (vlabel A)) x s s' : vreach h s -> v_call_state n c s -> vstep s x = Some s' -> v_call_state n c s'.
Proof.
  intros Hr Hs E. pose proof (stopped_mono _ _ E) as Hm. pose proof Hs as (p & Hp & Hc). pose proof (nth_some_length _ _ Hp) as Hl.
  unfold vstep in E. destruct (v_hung s) eqn:Hh; [discriminate|]. destruct x as [m| |d|d e|o|].
  - destruct (if match m with OnNext _ => v_disposed s | _ => false end then _ else _) as [q l] eqn:V. injection E as <-.
    apply v_call_keep with (s := s); auto.
    + cbn. now rewrite nth_error_app1.
    + apply effect_same with (l := l); [reflexivity|]. intros o' m' F.
      destruct (match m with OnNext _ => v_disposed s | _ => false end); [injection V as <- <-; destruct F|]. assert (c = length (v_calls s)) by (eapply vloop_log; eassumption). lia.
  - destruct (v_wait s) eqn:W; [|discriminate]. destruct (v_queue s) as [|d q]; [discriminate|]. destruct (nth_error (v_calls s) d) as [[m| | |]|] eqn:K; try discriminate.
    destruct (vloop d m s) as [r l] eqn:V. injection E as <-. destruct (Nat.eq_dec d c) as [->|Hne].
    + rewrite Hp in K. injection K as ->. destruct Hc as [-> Hc]. eapply vloop_call; [exact Hr|exact V|exact Hc|cbn; apply nth_upd_eq; exact Hl|reflexivity..].
    + apply v_call_keep with (s := s); auto.
      * cbn. now rewrite nth_upd_ne.
      * apply effect_same with (l := l); [reflexivity|]. intros o' m' F. assert (c = d) by (eapply vloop_log; eassumption). congruence.
  - destruct (nth_error (v_calls s) d) as [[|m o| |]|] eqn:K; try discriminate. injection E as <-. destruct (Nat.eq_dec d c) as [->|Hne].
    + rewrite Hp in K. injection K as ->. destruct Hc as [-> Hc]. exists (VOver None). cbn. rewrite nth_upd_eq by exact Hl. split; [reflexivity|]. left. exists o. exact Hc.
    + apply v_call_keep with (s := s); auto. cbn. now rewrite nth_upd_ne.
  - destruct (nth_error (v_calls s) d) as [[|m o| |]|] eqn:K; try discriminate. injection E as <-. destruct (Nat.eq_dec d c) as [->|Hne].
    + rewrite Hp in K. injection K as ->. destruct Hc as [-> Hc]. exists (VOver (Some e)). cbn. rewrite nth_upd_eq by exact Hl. split; [reflexivity|]. exists o. exact Hc.
    + apply v_call_keep with (s := s); auto. cbn. now rewrite nth_upd_ne.
  - destruct (v_disposed s); injection E as <-; [exact Hs|]. apply v_call_keep with (s := s); auto.
  - injection E as <-. apply v_call_keep with (s := s); auto.
Qed.

Lemma v_call_later A n c (h1 h2 : list (vlabel A)) : forall s, (forall s1, vreach h1 s1 -> v_call_state n c s1) ->
  vreach (h1 ++ h2) s -> v_call_state n c s.
Proof.
  induction h2 as [|x h2 IH] using rev_ind; intros s H0 H; [rewrite app_nil_r in H; auto|].
  rewrite app_assoc in H. apply vreach_snoc in H as (s1 & H1 & Q). eapply v_call_step; [exact H1| |exact Q]. apply IH; assumption.
Qed.

Lemma effect_none A (h : list (vlabel A)) s c : vreach h s -> length (v_calls s) <= c -> v_effect c s = [].
Proof.
  intros Hr Hc. unfold v_effect. rewrite filter_out; [reflexivity|]. intros o m F. apply (vi_log (vi Hr)) in F. lia.
Qed.

Lemma v_call_made A (h1 : list (vlabel A)) n h2 s : vreach (h1 ++ VCall n :: h2) s -> v_off h1 = false \/ is_term n = true ->
  v_call_state n (v_ncalls h1) s.
Proof.
  intros H O. replace (h1 ++ VCall n :: h2) with ((h1 ++ [VCall n]) ++ h2) in H by now rewrite <- app_assoc.
  eapply v_call_later; [|exact H]. intros s2 H2. apply vreach_snoc in H2 as (s1 & H1 & Q).
  unfold v_ncalls. rewrite <- (vi_calls (vi H1)). unfold vstep in Q. destruct (v_hung s1); [discriminate|].
  replace (match n with OnNext _ => v_disposed s1 | _ => false end) with false in Q.
  - destruct (vloop (length (v_calls s1)) n s1) as [p l] eqn:V. injection Q as <-.
    eapply vloop_call; [exact H1|exact V|exact (effect_none H1 (le_n _))|cbn; apply nth_snoc|reflexivity..].
  - destruct n; cbn in *; auto. rewrite (vi_off (vi H1)). destruct O as [->|O]; [reflexivity|discriminate].
Qed.

(** ** To whom *)
Lemma v_to_listener A (h : list (vlabel A)) s c o n : vreach h s -> In (c, o, n) (v_log s) ->
  exists h1 x h2, h = h1 ++ x :: h2 /\ listener h1 = Some o /\ (x = VResume \/ x = VCall n).
Proof.
  induction 1 as [|h x s s' Hr IH E]; intros F; [destruct F|].
  assert (G : In (c, o, n) (v_log s) \/ listener h = Some o /\ (x = VResume \/ x = VCall n)).
  { unfold vstep in E. destruct (v_hung s); [discriminate|]. 
    assert (Lp : forall d m p l, vloop d m s = (p, l) -> In (c, o, n) l -> listener h = Some o /\ n = m).
    { intros d m p l V K. unfold vloop in V. rewrite <- (vi_obs (vi Hr)). destruct (v_obs s) as [o'|].
      - destruct (match m with OnNext _ => false | _ => v_disposed s end); [injection V as <- <-; destruct K|]. destruct (v_stopped s); injection V as <- <-; [destruct K|].
        destruct K as [[= -> -> ->]|[]]. auto.
      - destruct (v_wait s); injection V as <- <-; destruct K. }
    destruct x as [m| |d|d e|p|].
    - destruct (match m with OnNext _ => v_disposed s | _ => false end).
      + injection E as <-. cbn in F. rewrite app_nil_r in F. auto.
      + destruct (vloop _ m s) as [q l] eqn:V. injection E as <-. cbn in F. apply in_app_iff in F as [F|F]; [auto|]. destruct (Lp _ _ _ _ V F) as [K ->]. auto.
    - destruct (v_wait s); [|discriminate]. destruct (v_queue s) as [|d q]; [discriminate|]. destruct (nth_error (v_calls s) d) as [[m| | |]|]; try discriminate.
      destruct (vloop _ m s) as [r l] eqn:V. injection E as <-. cbn in F. apply in_app_iff in F as [F|F]; [auto|]. destruct (Lp _ _ _ _ V F) as [K ->]. auto.
    - destruct (nth_error (v_calls s) d) as [[|m q| |]|]; try discriminate. injection E as <-. auto.
    - destruct (nth_error (v_calls s) d) as [[|m q| |]|]; try discriminate. injection E as <-. auto.
    - destruct (v_disposed s); injection E as <-; auto.
    - injection E as <-; auto. }
  destruct G as [G|[G1 G2]].
  - destruct (IH G) as (h1 & y & h2 & -> & G1 & G2). exists h1, y, (h2 ++ [x]). rewrite <- app_assoc. auto.
  - exists h, x, []. auto.
Qed.

(** ** Calls that wait keep their order *)
Inductive increasing : list nat -> Prop :=
| inc_nil : increasing []
| inc_cons x l : (forall y, In y l -> x < y) -> increasing l -> increasing (x :: l).

Lemma inc_snoc l x : increasing l -> (forall y, In y l -> y < x) -> increasing (l ++ [x]).
Proof.
  induction 1 as [|y l Hy Hl IH]; intros Hx; cbn; constructor; try (intros ? []); try constructor.
  - intros z F. apply in_app_iff in F as [F|[<-|[]]]; [auto|apply Hx; now left].
  - apply IH. intros z F. apply Hx. now right.
Qed.

Lemma v_queue_inc A (h : list (vlabel A)) s : vreach h s -> increasing (v_queue s).
Proof.
  induction 1 as [|h x s s' Hr IH E]; [constructor|]. unfold vstep in E. destruct (v_hung s); [discriminate|]. pose proof (vi Hr) as V0.
  assert (Place : forall p : vcall A, increasing (vplace (length (v_calls s)) p (v_queue s))).
  { intros p. destruct p; cbn; auto. apply inc_snoc; [exact IH|]. intros y F. apply (vi_queue V0) in F as [m F]. eapply nth_some_length, F. }
  destruct x as [m| |d|d e|p|].
  - destruct (if match m with OnNext _ => v_disposed s | _ => false end then _ else _) as [q l]. injection E as <-. apply Place.
  - destruct (v_wait s) eqn:W; [|discriminate]. destruct (v_queue s) as [|d q]; [discriminate|]. destruct (nth_error (v_calls s) d) as [[m| | |]|]; try discriminate.
    destruct (vloop _ m s) as [r l] eqn:V. injection E as <-. cbn. inversion IH; subst. destruct r; cbn; auto.
    unfold vloop in V. destruct (v_obs s); [destruct (match m with OnNext _ => false | _ => v_disposed s end); [discriminate|]; destruct (v_stopped s); discriminate|].
    rewrite W in V. discriminate.
  - destruct (nth_error (v_calls s) d) as [[|m q| |]|]; try discriminate. injection E as <-. auto.
  - destruct (nth_error (v_calls s) d) as [[|m q| |]|]; try discriminate. injection E as <-. auto.
  - destruct (v_disposed s); injection E as <-; auto.
  - injection E as <-; auto.
Qed.

Definition waits {A} (c : nat) (s : vstate A) : Prop := exists n, nth_error (v_calls s) c = Some (VWaiting n).

Lemma waits_step A (h : list (vlabel A)) c s x s' : vreach h s -> vstep s x = Some s' -> c < length (v_calls s) ->
  waits c s' -> waits c s.
Proof.
  intros Hr E L [n F]. unfold waits. unfold vstep in E. destruct (v_hung s); [discriminate|]. destruct x as [m| |d|d e|p|].
  - destruct (if match m with OnNext _ => v_disposed s | _ => false end then _ else _) as [q l]. injection E as <-. cbn in F. rewrite nth_error_app1 in F by exact L. eauto.
  - destruct (v_wait s); [|discriminate]. destruct (v_queue s) as [|d q]; [discriminate|]. destruct (nth_error (v_calls s) d) as [[m| | |]|] eqn:K; try discriminate.
    destruct (vloop _ m s) as [r l]. injection E as <-. cbn in F. apply nth_upd_inv in F as [[-> _]|[_ F]]; eauto.
  - destruct (nth_error (v_calls s) d) as [[|m q| |]|]; try discriminate. injection E as <-. cbn in F. apply nth_upd_inv in F as [[_ F]|[_ F]]; [discriminate|eauto].
  - destruct (nth_error (v_calls s) d) as [[|m q| |]|]; try discriminate. injection E as <-. cbn in F. apply nth_upd_inv in F as [[_ F]|[_ F]]; [discriminate|eauto].
  - destruct (v_disposed s); injection E as <-; eauto.
  - injection E as <-; eauto.
Qed.

Lemma calls_grow A (h1 h2 : list (vlabel A)) : forall s1 s, vreach h1 s1 -> vreach (h1 ++ h2) s -> length (v_calls s1) <= length (v_calls s).
Proof.
  intros s1 s H1 H. rewrite (vi_calls (vi H1)), (vi_calls (vi H)). unfold v_sent. rewrite flat_map_app, app_length. lia.
Qed.

Lemma v_fifo A (h1 h2 : list (vlabel A)) c d : forall s1 s, vreach h1 s1 -> vreach (h1 ++ h2) s -> c < d -> waits d s1 -> waits c s -> waits d s.
Proof.
  induction h2 as [|x h2 IH] using rev_ind; intros s1 s H1 H Hcd Hd Hc.
  - rewrite app_nil_r in H. now rewrite <- (vreach_fun H1 H).
  - rewrite app_assoc in H. apply vreach_snoc in H as (s2 & H2 & E). pose proof (calls_grow _ H1 H2) as G.
    assert (Ld : d < length (v_calls s2)) by (destruct Hd as [n Hd]; apply nth_some_length in Hd; lia).
    assert (Hc2 : waits c s2) by (eapply waits_step; [exact H2|exact E|lia|exact Hc]).
    specialize (IH _ _ H1 H2 Hcd Hd Hc2) as [n Hn]. unfold waits.
    unfold vstep in E. destruct (v_hung s2); [discriminate|]. destruct x as [m| |b|b e|p|].
    + destruct (if match m with OnNext _ => v_disposed s2 | _ => false end then _ else _) as [q l]. injection E as <-. cbn. rewrite nth_error_app1 by exact Ld. eauto.
    + destruct (v_wait s2) eqn:W; [|discriminate]. pose proof (v_queue_inc H2) as Q. pose proof (vi_queue (vi H2)) as VQ.
      destruct (v_queue s2) as [|b q]; [discriminate|]. destruct (nth_error (v_calls s2) b) as [[m| | |]|] eqn:K; try discriminate.
      destruct (vloop _ m s2) as [r l] eqn:V. injection E as <-. cbn. rewrite nth_upd_ne; [eauto|]. intros ->.
      assert (F : In c (d :: q)) by (apply VQ; exact Hc2). inversion Q; subst. destruct F as [->|F]; [lia|]. specialize (H3 _ F). lia.
    + destruct (nth_error (v_calls s2) b) as [[|m q| |]|] eqn:K; try discriminate. injection E as <-. cbn. rewrite nth_upd_ne; [eauto|congruence].
    + destruct (nth_error (v_calls s2) b) as [[|m q| |]|] eqn:K; try discriminate. injection E as <-. cbn. rewrite nth_upd_ne; [eauto|congruence].
    + destruct (v_disposed s2); injection E as <-; eauto.
    + injection E as <-; eauto.
Qed.

(** ** One producer *)
Lemma upto_snoc A (l : list (notif A)) n : upto_terminal (l ++ [n]) = if existsb is_term l then upto_terminal l else upto_terminal l ++ [n].
Proof.
  induction l as [|m l IH]; cbn; [destruct n; reflexivity|]. destruct m; cbn; try reflexivity. rewrite IH. destruct (existsb is_term l); reflexivity.
Qed.

Lemma v_awaited_snoc A (h : list (vlabel A)) x s : vreach h s -> v_awaited (h ++ [x]) ->
  v_awaited h /\ match x with VCall _ => v_idle s | VExn _ _ => False | VDispose => False | _ => True end.
Proof.
  intros Hr (H1 & H2 & H3). split.
  - split; [intros c e F; apply (H1 c e), in_app_iff; now left|]. split; [intros F; apply H2, in_app_iff; now left|].
    intros h1 n h2 s1 -> Hs. specialize (H3 h1 n (h2 ++ [x]) s1). rewrite <- app_assoc in H3. now apply H3.
  - destruct x as [m| |d|d e|p|]; auto.
    + exact (H3 h m [] s eq_refl Hr).
    + apply (H1 d e), in_app_iff. right. now left.
    + apply H2, in_app_iff. right. now left.
Qed.

(** Not disposed: had a listener, then it still has one. *)
Lemma listener_had A (h : list (vlabel A)) : ~ In VDispose h -> had_listener h = true -> exists o, listener h = Some o.
Proof.
  unfold listener. assert (G : forall (h : list (vlabel A)) o, ~ In VDispose h -> exists o', listener_from (Some o) h = Some o').
  { induction h0 as [|y h0 IH]; intros o Hn; cbn; [eauto|]. destruct y; try (apply IH; intros F; apply Hn; now right). elim Hn. now left. }
  induction h as [|y h IH]; intros Hn Hh; cbn in *; [discriminate|]. destruct y; try (apply IH; [intros F; apply Hn; now right|exact Hh]).
  - apply G. intros F. apply Hn. now right.
  - discriminate.
Qed.

Definition producing {A} (h : list (vlabel A)) (s : vstate A) : Prop :=
  v_idle s /\ map snd (v_log s) = upto_terminal (v_sent h) /\ v_stopped s = existsb is_term (v_sent h) \/
  exists n, v_sent h = [n] /\ v_log s = [] /\ v_stopped s = false /\ v_calls s = [VWaiting n] \/
  exists n c o, nth_error (v_calls s) c = Some (VIn n o) /\ (forall d p, d <> c -> nth_error (v_calls s) d = Some p -> exists r, p = VOver r) /\
    map snd (v_log s) = upto_terminal (v_sent h) /\ v_stopped s = false /\ existsb is_term (v_sent h) = is_term n.

Lemma produce_inv A (h : list (vlabel A)) s : vreach h s -> v_awaited h -> producing h s.
Proof.
  induction 1 as [|h x s s' Hr IH E]; intros Hw.
  - left. split; [|split; reflexivity]. intros [|c] p; discriminate.
  - destruct (v_awaited_snoc x Hr Hw) as [Hw' Hx]. specialize (IH Hw'). pose proof (vi Hr) as V0. destruct Hw' as (_ & Hnd & _).
    assert (Same : v_calls s' = v_calls s -> v_log s' = v_log s -> v_stopped s' = v_stopped s -> (match x with VCall _ => False | _ => True end) -> producing (h ++ [x]) s').
    { intros E1 E2 E3 E4. unfold producing, v_idle. rewrite E1, E2, E3, sent_snoc. destruct x; try contradiction; rewrite app_nil_r; exact IH. }
    assert (Off : v_disposed s = false).
    { rewrite (vi_off V0). unfold v_off. destruct (existsb _ h) eqn:F; [|reflexivity]. apply existsb_exists in F as (y & F1 & F2). destruct y; try discriminate. contradiction. }
    unfold vstep in E. destruct (v_hung s) eqn:Hh; [discriminate|]. destruct x as [m| |d|d e|p|].
    + rewrite Off in E. replace (match m with OnNext _ => false | _ => false end) with false in E by now destruct m.
      destruct IH as [(Hi & Hl & Hs)|(n0 & [(_ & _ & _ & Hc)|(n1 & c & o & Hc & _)])].
      2: { specialize (Hx 0). rewrite Hc in Hx. destruct (Hx _ eq_refl) as [r F]. discriminate. }
      2: { destruct (Hx _ _ Hc) as [r F]. discriminate. }
      unfold producing. rewrite sent_snoc, upto_snoc, existsb_app. cbn [existsb]. rewrite orb_false_r.
      unfold vloop in E. rewrite Off in E. replace (match m with OnNext _ => false | _ => false end) with false in E by now destruct m.
      destruct (v_obs s) as [o|] eqn:O.
      * destruct (v_stopped s) eqn:St; injection E as <-.
        -- left. rewrite <- Hs. cbn. rewrite app_nil_r. split; [|split; [exact Hl|reflexivity]].
           intros c p F. cbn in F. apply nth_snoc_inv in F as [[_ F]|[_ ->]]; [exact (Hi _ _ F)|eauto].
        -- right. exists m. right. exists m, (length (v_calls s)), o. cbn. rewrite <- Hs. split; [apply nth_snoc|]. split.
           ++ intros d p Hd F. apply nth_snoc_inv in F as [[_ F]|[-> _]]; [exact (Hi _ _ F)|contradiction].
           ++ rewrite map_app, Hl. repeat split; reflexivity.
      * destruct (v_wait s) eqn:W.
        -- exfalso. rewrite (vi_wait V0) in W. destruct (listener_had _ Hnd W) as [o F]. rewrite (vi_obs V0) in O. congruence.
        -- right. exists m. left. injection E as <-. cbn.
           assert (K : v_sent h = []).
           { destruct (v_sent h) as [|a l] eqn:Sh; [reflexivity|]. exfalso.
             assert (Ln : v_log s = []).
             { destruct (v_log s) as [|[[c o] n] r] eqn:Lg; [reflexivity|]. exfalso.
               destruct (v_to_listener c o n Hr) as (h1 & y & h2 & Eh & F1 & _); [rewrite Lg; now left|].
               rewrite (vi_wait V0) in W. apply had_listener_some in F1. clear - W F1 Eh. subst h. revert W F1.
               induction h1 as [|z h1 IH]; cbn; [discriminate|]. destruct z; auto; discriminate. }
             rewrite Ln in Hl. cbn in Hl. destruct a; discriminate. }
           rewrite K in *. cbn in *. rewrite Hs.
           assert (Cn : v_calls s = []) by (pose proof (vi_calls V0) as F; rewrite K in F; destruct (v_calls s); [reflexivity|discriminate]).
           assert (Ln : v_log s = []) by (destruct (v_log s); [reflexivity|discriminate]).
           rewrite Cn, Ln. repeat split; reflexivity.
    + destruct (v_wait s) eqn:W; [|discriminate]. pose proof (vi_queue V0) as VQ. destruct (v_queue s) as [|b q]; [discriminate|]. destruct (nth_error (v_calls s) b) as [[m| | |]|] eqn:K; try discriminate.
      destruct IH as [(Hi & _)|(n0 & [(Hse & Hlo & Hst & Hc)|(n1 & c & o & Hc & Ho & _)])].
      * destruct (Hi _ _ K) as [r F]. discriminate.
      * rewrite Hc in K. destruct b as [|[|b]]; try discriminate. cbn in K. injection K as <-.
        unfold vloop in E. rewrite Off, Hst, Hlo, Hc in E. replace (match n0 with OnNext _ => false | _ => false end) with false in E by now destruct n0.
        rewrite (vi_wait V0) in W. destruct (listener_had _ Hnd W) as [o Fo]. rewrite (vi_obs V0), Fo in E. injection E as <-.
        right. exists n0. right. exists n0, 0, o. cbn. rewrite sent_snoc, app_nil_r, Hse. cbn. rewrite orb_false_r. split; [reflexivity|]. split.
        -- intros [|[|d]] p Hd F; [contradiction|discriminate..].
        -- destruct n0; repeat split; reflexivity.
      * destruct (Nat.eq_dec b c) as [->|Hne]; [congruence|]. destruct (Ho _ _ Hne K) as [r F]. discriminate.
    + destruct (nth_error (v_calls s) d) as [[|m q| |]|] eqn:K; try discriminate. injection E as <-.
      destruct IH as [(Hi & _)|(n0 & [(Hse & Hlo & Hst & Hc)|(n1 & c & o & Hc & Ho & Hl & Hst & Ht)])].
      * destruct (Hi _ _ K) as [r F]. discriminate.
      * rewrite Hc in K. destruct d as [|[|d]]; discriminate.
      * assert (d = c) as -> by (destruct (Nat.eq_dec d c) as [|Hne]; [auto|destruct (Ho _ _ Hne K) as [r F]; discriminate]).
        rewrite Hc in K. injection K as -> ->. left. cbn. rewrite sent_snoc, app_nil_r. split; [|split; [exact Hl|]].
        -- intros d p F. cbn in F. apply nth_upd_inv in F as [[_ ->]|[Hne F]]; [eauto|exact (Ho _ _ Hne F)].
        -- rewrite Ht. destruct m; auto.
    + contradiction.
    + apply Same; [..|exact I]; (destruct (v_disposed s); now injection E as <-).
    + contradiction.
Qed.

Lemma produce_idle A (h : list (vlabel A)) s : vreach h s -> v_awaited h -> v_idle s -> map snd (v_log s) = upto_terminal (v_sent h).
Proof.
  intros Hr Hw Hi. destruct (produce_inv Hr Hw) as [(_ & Hl & _)|(n0 & [(Hse & Hlo & Hst & Hc)|(n1 & c & o & Hc & Ho & Hl & _)])]; auto.
  destruct (Hi 0 (VWaiting n0)) as [r F]; [now rewrite Hc|discriminate].
Qed.

(** ** After disposal *)
Lemma v_hangs A (h : list (vlabel A)) s n : vreach h s -> v_hung s = false -> had_listener h = true -> v_off h = true -> is_term n = true ->
  exists s', vstep s (VCall n) = Some s' /\ v_hung s' = true.
Proof.
  intros Hr Hh Hl Ho Hn. destruct (vi Hr). unfold vstep. rewrite Hh. replace (match n with OnNext _ => v_disposed s | _ => false end) with false by now destruct n.
  unfold vloop. rewrite vi_obs0, (listener_off _ Ho), vi_wait0, Hl. eexists. split; reflexivity.
Qed.

Lemma had_off A (h1 h2 : list (vlabel A)) : v_off h1 = true -> had_listener (h1 ++ h2) = had_listener h1.
Proof. induction h1 as [|y h1 IH]; intros O; cbn in *; [discriminate|]. destruct y; auto. Qed.

Lemma v_off_app A (h1 h2 : list (vlabel A)) : v_off h1 = true -> v_off (h1 ++ h2) = true.
Proof. unfold v_off. rewrite existsb_app. now intros ->. Qed.

Lemma v_waits_forever A (h1 h2 : list (vlabel A)) n s : vreach (h1 ++ VCall n :: h2) s -> v_off h1 = true -> had_listener h1 = false -> is_term n = true ->
  nth_error (v_calls s) (v_ncalls h1) = Some (VWaiting n).
Proof.
  intros H O L T. replace (h1 ++ VCall n :: h2) with ((h1 ++ [VCall n]) ++ h2) in H by now rewrite <- app_assoc.
  revert s H. induction h2 as [|x h2 IH] using rev_ind; intros s H.
  - rewrite app_nil_r in H. apply vreach_snoc in H as (s1 & H1 & E). destruct (vi H1). unfold vstep in E. destruct (v_hung s1); [discriminate|].
    replace (match n with OnNext _ => v_disposed s1 | _ => false end) with false in E by now destruct n.
    unfold vloop in E. rewrite vi_obs0, (listener_off _ O), vi_wait0, L in E. injection E as <-. cbn. unfold v_ncalls. rewrite <- vi_calls0. apply nth_snoc.
  - rewrite app_assoc in H. apply vreach_snoc in H as (s1 & H1 & E). specialize (IH _ H1). pose proof (nth_some_length _ _ IH) as Lc.
    assert (W : v_wait s1 = false). { rewrite (vi_wait (vi H1)). rewrite <- app_assoc. rewrite had_off by exact O. exact L. }
    unfold vstep in E. destruct (v_hung s1); [discriminate|]. destruct x as [m| |b|b e|p|].
    + destruct (if match m with OnNext _ => v_disposed s1 | _ => false end then _ else _) as [q l]. injection E as <-. cbn. rewrite nth_error_app1 by exact Lc. exact IH.
    + rewrite W in E. discriminate.
    + destruct (nth_error (v_calls s1) b) as [[|m q| |]|] eqn:K; try discriminate. injection E as <-. cbn. rewrite nth_upd_ne; [exact IH|congruence].
    + destruct (nth_error (v_calls s1) b) as [[|m q| |]|] eqn:K; try discriminate. injection E as <-. cbn. rewrite nth_upd_ne; [exact IH|congruence].
    + destruct (v_disposed s1); injection E as <-; exact IH.
    + injection E as <-; exact IH.
Qed.

Lemma v_log_off A (h1 h2 : list (vlabel A)) : forall s1 s, vreach h1 s1 -> vreach (h1 ++ h2) s -> v_off h1 = true -> v_log s = v_log s1.
Proof.
  induction h2 as [|x h2 IH] using rev_ind; intros s1 s H1 H O.
  - rewrite app_nil_r in H. now rewrite (vreach_fun H1 H).
  - rewrite app_assoc in H. apply vreach_snoc in H as (s2 & H2 & E). rewrite <- (IH _ _ H1 H2 O). destruct (vi H2).
    rewrite (listener_off _ (v_off_app _ _ O)) in vi_obs0.
    assert (G : forall c n, snd (vloop c n s2) = []) by (intros c n; unfold vloop; rewrite vi_obs0; reflexivity).
    unfold vstep in E. destruct (v_hung s2); [discriminate|]. destruct x as [m| |b|b e|p|].
    + destruct (match m with OnNext _ => v_disposed s2 | _ => false end); [injection E as <-; cbn; apply app_nil_r|].
      specialize (G (length (v_calls s2)) m). destruct (vloop _ m s2) as [q l]. cbn in G. subst l. injection E as <-. cbn. apply app_nil_r.
    + destruct (v_wait s2); [|discriminate]. destruct (v_queue s2) as [|b q]; [discriminate|]. destruct (nth_error (v_calls s2) b) as [[m| | |]|]; try discriminate.
      specialize (G b m). destruct (vloop _ m s2) as [r l]. cbn in G. subst l. injection E as <-. cbn. apply app_nil_r.
    + destruct (nth_error (v_calls s2) b) as [[|m q| |]|] eqn:K; try discriminate. injection E as <-. reflexivity.
    + destruct (nth_error (v_calls s2) b) as [[|m q| |]|] eqn:K; try discriminate. injection E as <-. reflexivity.
    + destruct (v_disposed s2); injection E as <-; reflexivity.
    + injection E as <-; reflexivity.
Qed.

(** ** Running a history *)
Fixpoint vrun {A} (s : vstate A) (h : list (vlabel A)) : option (vstate A) :=
  match h with
  | [] => Some s
  | x :: r => match vstep s x with Some s' => vrun s' r | None => None end
  end.

Lemma vrun_reach A (h : list (vlabel A)) : forall h0 s0 s, vreach h0 s0 -> vrun s0 h = Some s -> vreach (h0 ++ h) s.
Proof.
  induction h as [|x h IH]; intros h0 s0 s H E; cbn in E; [injection E as <-; now rewrite app_nil_r|].
  destruct (vstep s0 x) as [s1|] eqn:Q; [|discriminate].
  replace (h0 ++ x :: h) with ((h0 ++ [x]) ++ h) by now rewrite <- app_assoc.
  eapply IH; [|exact E]. eapply vr_snoc; eassumption.
Qed.

Lemma vrun_init A (h : list (vlabel A)) s : vrun v_init h = Some s -> vreach h s.
Proof. intros E. exact (vrun_reach h (@vr_nil A) E). Qed.

Lemma vrun_of A (h : list (vlabel A)) s : vreach h s -> vrun v_init h = Some s.
Proof.
  intros H. assert (G : forall h x (s0 : vstate A), vrun s0 (h ++ [x]) = match vrun s0 h with Some s1 => vstep s1 x | None => None end).
  { clear. induction h as [|y h IH]; intros x s0; cbn [app vrun]; [destruct (vstep s0 x); reflexivity|]. destruct (vstep s0 y); [apply IH|reflexivity]. }
  induction H as [|h x s s' H IH E]; [reflexivity|]. now rewrite G, IH.
Qed.

Definition v_idleb {A} (s : vstate A) : bool := forallb (fun p => match p with VOver _ => true | _ => false end) (v_calls s).

Lemma v_idleb_ok A (s : vstate A) : v_idleb s = true -> v_idle s.
Proof.
  unfold v_idleb, v_idle. generalize (v_calls s). intros l F c p K. rewrite forallb_forall in F.
  specialize (F _ (nth_error_In _ _ K)). destruct p as [| |r|]; try discriminate. eauto.
Qed.

Fixpoint v_awaitedb {A} (s : vstate A) (h : list (vlabel A)) : bool :=
  match h with
  | [] => true
  | x :: r => match vstep s x with
              | None => false
              | Some s' => (match x with VCall _ => v_idleb s | VExn _ _ => false | VDispose => false | _ => true end) && v_awaitedb s' r
              end
  end.

Lemma v_awaitedb_ok A (h : list (vlabel A)) : v_awaitedb v_init h = true -> v_awaited h.
Proof.
  intros F. assert (G : forall s x, v_awaitedb s h = true -> In x h -> match x with VExn _ _ => False | VDispose => False | _ => True end).
  { clear. induction h as [|y h IH]; intros s x F G; [destruct G|]. cbn [v_awaitedb] in F. destruct (vstep s y); [|discriminate].
    apply andb_true_iff in F as [F1 F2]. destruct G as [->|G]; [|exact (IH _ _ F2 G)]. destruct x; auto; discriminate. }
  split; [|split].
  - intros c e K. exact (G _ _ F K).
  - intros K. exact (G _ _ F K).
  - intros h1 x h2 s1 -> Hr. apply vrun_of in Hr. clear G. revert F Hr. generalize (@v_init A).
    induction h1 as [|y h1 IH]; intros s F Hr; cbn [app v_awaitedb vrun] in *.
    + injection Hr as ->. destruct (vstep s1 (VCall x)); [|discriminate]. apply andb_true_iff in F as [F _]. now apply v_idleb_ok.
    + destruct (vstep s y); [|discriminate]. apply andb_true_iff in F as [_ F]. exact (IH _ F Hr).
Qed.
