(** * Invariants of merge_inner. *)
From Verif Require Export MergeSpec.
Set Implicit Arguments.
Local Arguments Nat.sub : simpl never.

Lemma flat_map_snoc X Y (f : X -> list Y) l x : flat_map f (l ++ [x]) = flat_map f l ++ f x.
Proof. rewrite flat_map_app. cbn. now rewrite app_nil_r. Qed.

Section P.
  Context {O A : Type} (maxc : Z).
  Implicit Types (h : list (mlabel O A)) (s : mstate O A) (p : list (mmsg O)).

  Definition inners p : list O := flat_map (fun m => match m with MInner o => [o] | _ => [] end) p.
  Definition dones p : list nat := flat_map (fun m => match m with MInnerDone k => [k] | _ => [] end) p.
  Definition posts h : list (mmsg O) :=
    flat_map (fun l => match l with
      | LOuter (OnNext o) => [MInner o]
      | LOuter (OnError _) | LCancel => [MDispose]
      | LOuter OnCompleted => [MOuterDone]
      | LInner k OnCompleted => [MInnerDone k]
      | _ => []
      end) h.

  Lemma inners_posts h : inners (posts h) = arrived h.
  Proof.
    unfold inners, posts, arrived. induction h as [|l h IH]; [reflexivity|]. cbn. rewrite flat_map_app, IH.
    destruct l as [[o|e|]|k [a|e|]| | |]; reflexivity.
  Qed.
  Lemma dones_posts h : dones (posts h) = completions h.
  Proof.
    unfold dones, posts, completions. induction h as [|l h IH]; [reflexivity|]. cbn. rewrite flat_map_app, IH.
    destruct l as [[o|e|]|k [a|e|]| | |]; reflexivity.
  Qed.
  Lemma inners_app p q : inners (p ++ q) = inners p ++ inners q.
  Proof. apply flat_map_app. Qed.
  Lemma dones_app p q : dones (p ++ q) = dones p ++ dones q.
  Proof. apply flat_map_app. Qed.

  Definition closes (l : list (effect O A)) : list unit :=
    flat_map (fun x => match x with EReq OnCompleted => [tt] | _ => [] end) l.

  Arguments closes : simpl never.

  (** The subscriptions and the queue as they will be stored. *)
  Definition subs' s := match m_phase s with WSub l _ => l | _ => m_subs s end.
  Definition queue' s := match m_phase s with WSub _ q => q | _ => m_queue s end.
  Definition started s := match m_phase s with WSub _ _ => S (m_key s) | _ => m_key s end.
  Definition open_keys p n := filter (fun k => negb (existsb (Nat.eqb k) (dones p))) (seq 0 n).

  Arguments open_keys : simpl never.

  (** Nothing disposed so far; the messages [p] have been processed. *)
  Record Live h s p : Prop := {
    lv_posts : posts h = p ++ m_box s;
    lv_nodisp : ~ In MDispose p;
    lv_phase : match m_phase s with WDisp _ | WDead => False | _ => True end;
    lv_inners : subscribed (m_log s) ++ queue' s = inners p;
    lv_keys : keys (m_log s) = seq 0 (started s);
    lv_subs : subs' s = open_keys p (m_key s);
    lv_done : forall k, In k (dones p) -> k < m_key s;
    lv_box : forall k, In k (dones (m_box s)) -> k < started s;
    lv_stop : m_stopped s = true <-> In MOuterDone p;
    lv_closes : closes (m_log s) = match m_phase s with WEnded => [tt] | _ => [] end;
    lv_ended : m_phase s = WEnded -> m_stopped s = true /\ m_subs s = [];
    lv_idle : m_phase s = WIdle -> m_stopped s = true -> m_subs s <> [];
    lv_disposed : disposed (m_log s) = [];
    lv_queue : (0 <= maxc)%Z -> queue' s <> [] ->
      (0 < maxc)%Z /\ (maxc <= Z.of_nat (length (subs' s) + (started s - m_key s)))%Z
  }.

  (** A dispose message has been processed. *)
  Record Gone h s p : Prop := {
    gn_posts : posts h = p ++ m_box s;
    gn_disp : In MDispose p;
    gn_inners : prefix (subscribed (m_log s)) (inners p);
    gn_keys : keys (m_log s) = seq 0 (length (keys (m_log s)));
    gn_phase : match m_phase s with
               | WDisp rest => rest <> [] /\ disposed (m_log s) ++ rest = open_keys p (length (keys (m_log s)))
               | WEnded => disposed (m_log s) = open_keys p (length (keys (m_log s)))
               | _ => False
               end;
    gn_closes : closes (m_log s) = []
  }.

  (** The worker died. *)
  Record Died h s : Prop := {
    dd_phase : m_phase s = WDead;
    dd_inners : prefix (subscribed (m_log s)) (arrived h);
    dd_keys : keys (m_log s) = seq 0 (length (keys (m_log s)));
    dd_closes : closes (m_log s) = [];
    dd_fail : exists e, In (LFail e) h
  }.

  Definition Inv h s : Prop := (exists p, Live h s p) \/ (exists p, Gone h s p) \/ Died h s.

  Lemma existsb_eqb k l : existsb (Nat.eqb k) l = true <-> In k l.
  Proof.
    rewrite existsb_exists. split.
    - intros (x & Hx & E). apply Nat.eqb_eq in E. now subst.
    - intros H. exists k. split; [exact H|apply Nat.eqb_refl].
  Qed.

  Lemma open_keys_done p k n : open_keys (p ++ [MInnerDone k]) n = remove_key k (open_keys p n).
  Proof.
    unfold open_keys, remove_key. rewrite dones_app. cbn [dones flat_map app].
    induction (seq 0 n) as [|j l IH]; [reflexivity|]. cbn [filter].
    rewrite existsb_app. cbn [existsb]. rewrite orb_false_r.
    destruct (existsb (Nat.eqb j) (dones p)); cbn; [exact IH|].
    destruct (j =? k); cbn; rewrite IH; reflexivity.
  Qed.

  Lemma open_keys_same p m n : dones [m] = [] -> open_keys (p ++ [m]) n = open_keys p n.
  Proof. intros H. unfold open_keys. now rewrite dones_app, H, app_nil_r. Qed.

  Lemma open_keys_S p n : (forall k, In k (dones p) -> k < n) -> open_keys p (S n) = open_keys p n ++ [n].
  Proof.
    intros H. unfold open_keys. rewrite seq_S, filter_app. cbn [filter plus].
    destruct (existsb (Nat.eqb n) (dones p)) eqn:E; [|reflexivity].
    apply existsb_eqb, H in E. lia.
  Qed.

  Lemma posts_snoc h l : posts (h ++ [l]) = posts h ++ posts [l].
  Proof. unfold posts. now rewrite flat_map_app. Qed.
  Lemma arrived_snoc h l : arrived (h ++ [l]) = arrived h ++ arrived [l].
  Proof. unfold arrived. now rewrite flat_map_app. Qed.

  Lemma live_post h s p l m : Live h s p -> posts [l] = [m] ->
    (forall k, m = MInnerDone k -> k < started s) -> Live (h ++ [l]) (post m s) p.
  Proof.
    intros [] Hl Hk. constructor; cbn; try assumption.
    - rewrite posts_snoc, Hl, lv_posts0. now rewrite app_assoc.
    - intros k. rewrite dones_app, in_app_iff. intros [H|H]; [now apply lv_box0|].
      apply Hk. destruct m; cbn in H; try contradiction. destruct H as [->|[]]. reflexivity.
  Qed.

  Lemma live_emit h s p l n : Live h s p -> posts [l] = [] -> n <> OnCompleted -> Live (h ++ [l]) (emit (EReq n) s) p.
  Proof.
    intros [] Hl Hn. constructor; cbn; try assumption.
    - now rewrite posts_snoc, Hl, app_nil_r.
    - unfold subscribed. rewrite flat_map_snoc, app_nil_r. assumption.
    - unfold keys. rewrite flat_map_snoc, app_nil_r. assumption.
    - unfold closes. rewrite flat_map_snoc. destruct n; try (now rewrite app_nil_r). congruence.
    - unfold disposed. rewrite flat_map_snoc, app_nil_r. assumption.
  Qed.

  Lemma live_error h s p e : Live h s p -> Live (h ++ [LOuter (OnError e)]) (post MDispose (emit (EReq (OnError e)) s)) p.
  Proof.
    intros [] . constructor; cbn; try assumption.
    - rewrite posts_snoc, lv_posts0. cbn. now rewrite app_assoc.
    - unfold subscribed. rewrite flat_map_snoc, app_nil_r. assumption.
    - unfold keys. rewrite flat_map_snoc, app_nil_r. assumption.
    - intros k. rewrite dones_app. cbn. rewrite app_nil_r. apply lv_box0.
    - unfold closes. rewrite flat_map_snoc, app_nil_r. assumption.
    - unfold disposed. rewrite flat_map_snoc, app_nil_r. assumption.
  Qed.

  Lemma keys_length h s p : Live h s p -> length (keys (m_log s)) = started s.
  Proof. intros []. rewrite lv_keys0. apply seq_length. Qed.

  (** A work step in a live state. *)
  Lemma live_work h s p s' : Live h s p -> work maxc s = Some s' -> Inv (h ++ [LWork]) s'.
  Proof.
    intros L. pose proof (keys_length L) as Hkl. destruct L. unfold work. destruct s as [box subs queue stopped key ph log]. cbn in *.
    destruct ph as [|subs0 q0|rest| |]; try contradiction; try discriminate.
    - (* WIdle *)
      destruct box as [|m r]; [discriminate|]. intros [= <-].
      unfold queue', subs', started in *. cbn in *.
      assert (Hp : posts (h ++ [LWork]) = (p ++ [m]) ++ r).
      { rewrite posts_snoc, lv_posts0. cbn. rewrite app_nil_r, <- app_assoc. reflexivity. }
      destruct m as [o|k| |]; cbn [update].
      + (* MInner *)
        unfold room. cbn [m_subs].
        destruct ((maxc =? 0)%Z || (Z.of_nat (length subs) <? maxc)%Z) eqn:Eroom.
        * left. exists (p ++ [MInner o]). constructor; cbn; unfold queue', subs', started; cbn; try assumption; try reflexivity; try discriminate.
          -- intros H. apply in_app_or in H as [H|[H|[]]]; [now apply lv_nodisp0|discriminate].
          -- unfold subscribed. rewrite flat_map_snoc. rewrite inners_app. cbn.
             assert (queue = []) as ->; [|now rewrite app_nil_r, <- lv_inners0, app_nil_r].
             destruct queue as [|x q]; [reflexivity|]. exfalso.
             assert (Hc : (0 <= maxc)%Z).
             { apply orb_true_iff in Eroom as [E|E]; [apply Z.eqb_eq in E|apply Z.ltb_lt in E]; lia. }
             destruct (lv_queue0 Hc ltac:(discriminate)) as [H1 H2].
             apply orb_true_iff in Eroom as [E|E]; [apply Z.eqb_eq in E|apply Z.ltb_lt in E]; lia.
          -- unfold keys. rewrite flat_map_snoc. fold (keys log). rewrite lv_keys0. cbn. now rewrite <- seq_S.
          -- now rewrite open_keys_same.
          -- rewrite dones_app. cbn. rewrite app_nil_r. exact lv_done0.
          -- intros k Hk. apply lv_box0 in Hk. lia.
          -- rewrite in_app_iff. rewrite lv_stop0. split; [tauto|]. intros [H|[H|[]]]; [exact H|discriminate].
          -- unfold closes. now rewrite flat_map_snoc, app_nil_r.
          -- unfold disposed. now rewrite flat_map_snoc, app_nil_r.
          -- intros Hc Hq. destruct (lv_queue0 Hc Hq). split; [assumption|lia].
        * left. exists (p ++ [MInner o]).
          assert (Hph : match stopped, subs with true, [] => @WEnded O | _, _ => WIdle end = WIdle).
          { destruct stopped; [|reflexivity]. destruct subs; [|reflexivity]. now destruct lv_idle0. }
          constructor; cbn; unfold queue', subs', started; cbn; rewrite ?Hph; try assumption; try reflexivity; try discriminate.
          -- intros H. apply in_app_or in H as [H|[H|[]]]; [now apply lv_nodisp0|discriminate].
          -- rewrite inners_app. cbn. now rewrite app_assoc, lv_inners0.
          -- now rewrite open_keys_same.
          -- rewrite dones_app. cbn. rewrite app_nil_r. exact lv_done0.
          -- rewrite in_app_iff. rewrite lv_stop0. split; [tauto|]. intros [H|[H|[]]]; [exact H|discriminate].
          -- intros Hc _. apply orb_false_iff in Eroom as [E1 E2]. apply Z.eqb_neq in E1. apply Z.ltb_ge in E2. lia.
      + (* MInnerDone *)
        assert (Hk : k < key) by (apply lv_box0; now left).
        assert (Hbox : forall j, In j (dones r) -> j < key) by (intros j Hj; apply lv_box0; right; exact Hj).
        assert (Hdone : forall j, In j (dones (p ++ [MInnerDone k])) -> j < key).
        { intros j Hj. rewrite dones_app in Hj. apply in_app_or in Hj as [Hj|[->|[]]]; [now apply lv_done0|exact Hk]. }
        assert (Hstop : stopped = true <-> In MOuterDone (p ++ [MInnerDone k])).
        { rewrite in_app_iff, lv_stop0. split; [tauto|]. intros [H|[H|[]]]; [exact H|discriminate]. }
        assert (Hnd : ~ In MDispose (p ++ [MInnerDone k])).
        { intros H. apply in_app_or in H as [H|[H|[]]]; [now apply lv_nodisp0|discriminate]. }
        assert (Hin : inners (p ++ [MInnerDone k]) = inners p) by (rewrite inners_app; cbn; now rewrite app_nil_r).
        assert (Hsub : remove_key k subs = open_keys (p ++ [MInnerDone k]) key) by (now rewrite open_keys_done, lv_subs0).
        cbn [m_subs m_queue m_stopped m_key]. cbv zeta. destruct queue as [|o q].
        * destruct (remove_key k subs) as [|x xs] eqn:Er; cbn.
          -- left. exists (p ++ [MInnerDone k]). destruct stopped.
             ++ constructor; cbn; unfold queue', subs', started; cbn; try assumption; try reflexivity; try discriminate.
                ** unfold subscribed. rewrite flat_map_snoc, app_nil_r, app_nil_r. fold (subscribed log). rewrite Hin, <- lv_inners0. now rewrite app_nil_r.
                ** unfold keys. now rewrite flat_map_snoc, app_nil_r.
                ** unfold closes. rewrite flat_map_snoc. fold (closes log). now rewrite lv_closes0.
                ** tauto.
                ** unfold disposed. now rewrite flat_map_snoc, app_nil_r.
                ** intros _ H. now contradiction H.
             ++ constructor; cbn; unfold queue', subs', started; cbn; try assumption; try reflexivity; try discriminate.
                ** now rewrite Hin.
                ** intros _ H. now contradiction H.
          -- left. exists (p ++ [MInnerDone k]).
             assert (Hph : match stopped, x :: xs with true, [] => @WEnded O | _, _ => WIdle end = WIdle) by (destruct stopped; reflexivity).
             constructor; cbn; unfold queue', subs', started; cbn in *; rewrite ?Hph; try assumption; try reflexivity; try discriminate.
             ++ now rewrite Hin.
             ++ intros _ H. now contradiction H.
        * left. exists (p ++ [MInnerDone k]).
          constructor; cbn; unfold queue', subs', started; cbn in *; try assumption; try reflexivity; try discriminate.
          -- unfold subscribed. rewrite flat_map_snoc, <- app_assoc. cbn. now rewrite Hin.
          -- unfold keys. rewrite flat_map_snoc. fold (keys log). rewrite lv_keys0. cbn. now rewrite <- seq_S.
          -- intros j Hj. apply Hbox in Hj. lia.
          -- unfold closes. now rewrite flat_map_snoc, app_nil_r.
          -- unfold disposed. now rewrite flat_map_snoc, app_nil_r.
          -- intros Hc Hq. destruct (lv_queue0 Hc ltac:(discriminate)) as [H1 H2]. split; [assumption|].
             assert (Hlen : length subs <= S (length (remove_key k subs))); [|lia].
             assert (Hnd' : NoDup subs) by (rewrite lv_subs0; apply NoDup_filter, seq_NoDup).
             clear - Hnd'. induction Hnd' as [|x l Hx Hl IH]; [cbn; lia|].
             unfold remove_key in *. cbn [filter length]. destruct (Nat.eqb_spec x k) as [->|]; cbn [negb length].
             ++ enough (Hr : filter (fun j => negb (j =? k)) l = l) by (rewrite Hr; lia).
                clear - Hx. induction l as [|y l IH]; [reflexivity|]. cbn.
                destruct (Nat.eqb_spec y k) as [->|]; [exfalso; apply Hx; now left|]. cbn. rewrite IH; [reflexivity|].
                intros H. apply Hx. now right.
             ++ lia.
      + (* MOuterDone *)
        left. exists (p ++ [MOuterDone]).
        assert (Hnd : ~ In MDispose (p ++ [MOuterDone])).
        { intros H. apply in_app_or in H as [H|[H|[]]]; [now apply lv_nodisp0|discriminate]. }
        assert (Hin : inners (p ++ [MOuterDone]) = inners p) by (rewrite inners_app; cbn; now rewrite app_nil_r).
        assert (Hd : dones (p ++ [MOuterDone]) = dones p) by (rewrite dones_app; cbn; now rewrite app_nil_r).
        assert (Hs : true = true <-> In MOuterDone (p ++ [MOuterDone])) by (rewrite in_app_iff; cbn; tauto).
        destruct subs as [|x subs]; cbn.
        * constructor; cbn; unfold queue', subs', started; cbn; rewrite ?Hd; try assumption; try reflexivity; try discriminate.
          -- unfold subscribed. rewrite flat_map_snoc, app_nil_r. fold (subscribed log). now rewrite Hin.
          -- unfold keys. now rewrite flat_map_snoc, app_nil_r.
          -- now rewrite open_keys_same.
          -- unfold closes. rewrite flat_map_snoc. fold (closes log). now rewrite lv_closes0.
          -- tauto.
          -- unfold disposed. now rewrite flat_map_snoc, app_nil_r.
        * constructor; cbn; unfold queue', subs', started; cbn; rewrite ?Hd; try assumption; try reflexivity; try discriminate.
          -- now rewrite Hin.
          -- now rewrite open_keys_same.
      + (* MDispose *)
        right; left. exists (p ++ [MDispose]).
        assert (Hpre : prefix (subscribed log) (inners (p ++ [MDispose]))).
        { rewrite inners_app. cbn. rewrite app_nil_r, <- lv_inners0. apply prefix_app. }
        destruct subs as [|x subs]; cbn.
        * constructor; cbn; try assumption.
          -- apply in_or_app. right. now left.
          -- now rewrite Hkl.
          -- rewrite open_keys_same by reflexivity. rewrite Hkl, <- lv_subs0. assumption.
        * constructor; cbn; try assumption.
          -- apply in_or_app. right. now left.
          -- now rewrite Hkl.
          -- split; [discriminate|]. rewrite open_keys_same by reflexivity. rewrite Hkl, <- lv_subs0, lv_disposed0. reflexivity.
    - (* WSub *)
      intros [= <-]. left. exists p. unfold queue', subs', started in *. cbn in *.
      assert (Hph : match stopped, subs0 ++ [key] with true, [] => @WEnded O | _, _ => WIdle end = WIdle).
      { destruct stopped; [|reflexivity]. destruct subs0; reflexivity. }
      constructor; cbn; unfold queue', subs', started; cbn; rewrite ?Hph; try assumption; try reflexivity; try discriminate.
      + rewrite posts_snoc, lv_posts0. cbn. now rewrite app_nil_r.
      + rewrite open_keys_S by assumption. now rewrite lv_subs0.
      + intros k Hk. apply lv_done0 in Hk. lia.
      + intros _ _. destruct subs0; discriminate.
      + intros Hc Hq. destruct (lv_queue0 Hc Hq). split; [assumption|]. rewrite app_length. cbn. lia.
  Qed.

  Lemma begun_keys k s : begun k s = true <-> In k (keys (m_log s)).
  Proof.
    unfold begun, keys. rewrite existsb_exists, in_flat_map. split.
    - intros (x & Hx & E). exists x. split; [exact Hx|]. destruct x; try discriminate. apply Nat.eqb_eq in E. subst. now left.
    - intros (x & Hx & E). exists x. split; [exact Hx|]. destruct x; cbn in E; try contradiction. destruct E as [->|[]]. apply Nat.eqb_refl.
  Qed.

  Lemma open_keys_incl p q n : length (open_keys (p ++ q) n) <= length (open_keys p n).
  Proof.
    unfold open_keys. rewrite dones_app. induction (seq 0 n) as [|k l IH]; [cbn; lia|]. cbn.
    rewrite existsb_app. destruct (existsb (Nat.eqb k) (dones p)); cbn; [lia|].
    destruct (existsb (Nat.eqb k) (dones q)); cbn; lia.
  Qed.

  Lemma gone_env h s p l ms es : Gone h s p -> posts [l] = ms ->
    forall s', m_box s' = m_box s ++ ms -> m_phase s' = m_phase s -> m_log s' = m_log s ++ es ->
    (forall x, In x es -> exists n, x = EReq n /\ n <> OnCompleted) -> Gone (h ++ [l]) s' p.
  Proof.
    intros [] Hl s' Hb Hp Hg He.
    assert (Hk : keys (m_log s') = keys (m_log s) /\ subscribed (m_log s') = subscribed (m_log s) /\
                 disposed (m_log s') = disposed (m_log s) /\ closes (m_log s') = closes (m_log s)).
    { rewrite Hg. unfold keys, subscribed, disposed, closes. rewrite !flat_map_app. clear - He.
      induction es as [|x es IH]; [cbn; now rewrite !app_nil_r|].
      destruct (He x (or_introl eq_refl)) as (n & -> & Hn). cbn [flat_map app].
      destruct n; try congruence; apply IH; intros y Hy; apply He; now right. }
    destruct Hk as (E1 & E2 & E3 & E4).
    constructor; rewrite ?E1, ?E2, ?E3, ?E4, ?Hp, ?Hb; try assumption.
    rewrite posts_snoc, Hl, gn_posts0. now rewrite app_assoc.
  Qed.

  Lemma died_env h s l es : Died h s ->
    forall s', m_phase s' = m_phase s -> m_log s' = m_log s ++ es ->
    (forall x, In x es -> exists n, x = EReq n /\ n <> OnCompleted) -> Died (h ++ [l]) s'.
  Proof.
    intros [] s' Hp Hg He.
    assert (Hk : keys (m_log s') = keys (m_log s) /\ subscribed (m_log s') = subscribed (m_log s) /\
                 closes (m_log s') = closes (m_log s)).
    { rewrite Hg. unfold keys, subscribed, closes. rewrite !flat_map_app. clear - He.
      induction es as [|x es IH]; [cbn; now rewrite !app_nil_r|].
      destruct (He x (or_introl eq_refl)) as (n & -> & Hn). cbn [flat_map app].
      destruct n; try congruence; apply IH; intros y Hy; apply He; now right. }
    destruct Hk as (E1 & E2 & E3).
    constructor; rewrite ?E1, ?E2, ?E3, ?Hp; try assumption.
    - rewrite arrived_snoc. eapply prefix_trans; [exact dd_inners0|apply prefix_app].
    - destruct dd_fail0 as [e H]. exists e. apply in_or_app. now left.
  Qed.

  Lemma gone_work h s p s' : Gone h s p -> work maxc s = Some s' -> Gone (h ++ [LWork]) s' p.
  Proof.
    intros []. unfold work. destruct s as [box subs queue stopped key ph log]. cbn in *.
    destruct ph as [|subs0 q0|rest| |]; try contradiction; try discriminate.
    destruct rest as [|k rest]; [discriminate|]. destruct gn_phase0 as [_ Hd]. intros [= <-].
    assert (E : keys (log ++ [EDispose k]) = keys log /\ subscribed (log ++ [EDispose k]) = subscribed log /\
                disposed (log ++ [EDispose k]) = disposed log ++ [k] /\ closes (log ++ [EDispose k]) = closes log).
    { unfold keys, subscribed, disposed, closes. rewrite !flat_map_snoc, !app_nil_r. repeat split. }
    destruct E as (E1 & E2 & E3 & E4).
    destruct rest as [|k2 rest]; constructor; cbn; rewrite ?E1, ?E2, ?E3, ?E4; try assumption;
      try (rewrite posts_snoc, gn_posts0; cbn; now rewrite app_nil_r).
    split; [discriminate|]. now rewrite <- app_assoc.
  Qed.

  Lemma in_one X (x y : X) : In y [x] -> y = x.
  Proof. intros [->|[]]. reflexivity. Qed.

  Ltac one_req := intros ?x Hx; apply in_one in Hx; subst; eexists; split; [reflexivity|discriminate].

  Lemma inv_step h s l s' : Inv h s -> mstep maxc s l = Some s' -> Inv (h ++ [l]) s'.
  Proof.
    intros [[p L]|[[p G]|D]] Hs.
    - destruct l as [[o|e|]|k n| | |e]; cbn [mstep] in Hs.
      + injection Hs as <-. left. exists p. eapply live_post; [exact L|reflexivity|discriminate].
      + injection Hs as <-. left. exists p. now apply live_error.
      + injection Hs as <-. left. exists p. eapply live_post; [exact L|reflexivity|discriminate].
      + destruct (begun k s) eqn:B; [|discriminate]. injection Hs as <-. left. exists p.
        destruct n as [a|e|].
        * apply live_emit; [exact L|reflexivity|discriminate].
        * apply live_emit; [exact L|reflexivity|discriminate].
        * eapply live_post; [exact L|reflexivity|]. intros j [= <-]. apply begun_keys in B. rewrite (lv_keys L) in B. apply in_seq in B. lia.
      + injection Hs as <-. left. exists p. eapply live_post; [exact L|reflexivity|discriminate].
      + eapply live_work; eassumption.
      + right; right. destruct s as [box subs queue stopped key ph log]. destruct L. cbn in *. unfold queue' in *. cbn in *.
        destruct ph as [|subs0 q0|rest| |]; try discriminate; try contradiction. injection Hs as <-.
        constructor; cbn.
        * reflexivity.
        * rewrite arrived_snoc, <- inners_posts, lv_posts0, inners_app, <- lv_inners0, <- !app_assoc. apply prefix_app.
        * rewrite lv_keys0 at 2. rewrite seq_length. exact lv_keys0.
        * exact lv_closes0.
        * exists e. apply in_or_app. right. now left.
    - destruct l as [[o|e|]|k n| | |e]; cbn [mstep] in Hs.
      + injection Hs as <-. right; left. exists p. eapply (@gone_env _ _ _ _ _ [] G); try reflexivity; cbn; [now rewrite app_nil_r|contradiction].
      + injection Hs as <-. right; left. exists p. eapply (@gone_env _ _ _ _ _ [EReq (OnError e)] G); try reflexivity. one_req.
      + injection Hs as <-. right; left. exists p. eapply (@gone_env _ _ _ _ _ [] G); try reflexivity; cbn; [now rewrite app_nil_r|contradiction].
      + destruct (begun k s) eqn:B; [|discriminate]. injection Hs as <-. right; left. exists p.
        destruct n as [a|e|].
        * eapply (@gone_env _ _ _ _ _ [EReq (OnNext a)] G); try reflexivity; [cbn; now rewrite app_nil_r|]. one_req.
        * eapply (@gone_env _ _ _ _ _ [EReq (OnError e)] G); try reflexivity; [cbn; now rewrite app_nil_r|]. one_req.
        * eapply (@gone_env _ _ _ _ _ [] G); try reflexivity; cbn; [now rewrite app_nil_r|contradiction].
      + injection Hs as <-. right; left. exists p. eapply (@gone_env _ _ _ _ _ [] G); try reflexivity; cbn; [now rewrite app_nil_r|contradiction].
      + right; left. exists p. eapply gone_work; eassumption.
      + right; right. destruct s as [box subs queue stopped key ph log]. destruct G. cbn in *.
        destruct ph as [|subs0 q0|[|k rest]| |]; try discriminate; try contradiction. injection Hs as <-.
        constructor; cbn.
        * reflexivity.
        * unfold subscribed. rewrite flat_map_snoc, app_nil_r. rewrite arrived_snoc, <- inners_posts, gn_posts0, inners_app.
          eapply prefix_trans; [exact gn_inners0|]. rewrite <- app_assoc. apply prefix_app.
        * unfold keys. rewrite flat_map_snoc, app_nil_r. exact gn_keys0.
        * unfold closes. rewrite flat_map_snoc, app_nil_r. exact gn_closes0.
        * exists e. apply in_or_app. right. now left.
    - right; right. destruct l as [[o|e|]|k n| | |e]; cbn [mstep] in Hs.
      + injection Hs as <-. eapply (@died_env _ _ _ [] D); try reflexivity; cbn; [now rewrite app_nil_r|contradiction].
      + injection Hs as <-. eapply (@died_env _ _ _ [EReq (OnError e)] D); try reflexivity. one_req.
      + injection Hs as <-. eapply (@died_env _ _ _ [] D); try reflexivity; cbn; [now rewrite app_nil_r|contradiction].
      + destruct (begun k s) eqn:B; [|discriminate]. injection Hs as <-. destruct n as [a|e|].
        * eapply (@died_env _ _ _ [EReq (OnNext a)] D); try reflexivity. one_req.
        * eapply (@died_env _ _ _ [EReq (OnError e)] D); try reflexivity. one_req.
        * eapply (@died_env _ _ _ [] D); try reflexivity; cbn; [now rewrite app_nil_r|contradiction].
      + injection Hs as <-. eapply (@died_env _ _ _ [] D); try reflexivity; cbn; [now rewrite app_nil_r|contradiction].
      + unfold work in Hs. rewrite (dd_phase D) in Hs. discriminate.
      + rewrite (dd_phase D) in Hs. discriminate.
  Qed.

  Lemma inv_init : Inv [] (@m_init O A).
  Proof.
    left. exists []. constructor; cbn; try reflexivity; try contradiction; try discriminate; auto.
    - split; [discriminate|contradiction].
  Qed.

  Theorem reach_inv h s : mreach maxc h s -> Inv h s.
  Proof. induction 1; [exact inv_init|]. eapply inv_step; eassumption. Qed.
End P.
