(** * Proofs of C24-C29. *)
From Verif Require Export MergeProofs HotProofs.
Set Implicit Arguments.
Local Arguments Nat.sub : simpl never.

Section P.
  Context {O A : Type} (maxc : Z).
  Implicit Types (h : list (mlabel O A)) (s : mstate O A) (p : list (mmsg O)).

  Lemma posts_dispose h : In MDispose (posts h) <-> exists l, In l h /\ stops l.
  Proof.
    unfold posts. rewrite in_flat_map. split.
    - intros (l & Hl & Hm). exists l. split; [exact Hl|].
      destruct l as [[o|e|]|k [a|e|]| | |e]; cbn in Hm; try contradiction; destruct Hm as [E|[]]; try discriminate.
      + right. eauto.
      + now left.
    - intros (l & Hl & [->|[e ->]]); eexists; (split; [exact Hl|]); now left.
  Qed.

  Lemma posts_outer h : In MOuterDone (posts h) <-> In (LOuter OnCompleted) h.
  Proof.
    unfold posts. rewrite in_flat_map. split.
    - intros (l & Hl & Hm).
      destruct l as [[o|e|]|k [a|e|]| | |e]; cbn in Hm; try contradiction; destruct Hm as [E|[]]; try discriminate. exact Hl.
    - intros Hl; eexists; (split; [exact Hl|]); now left.
  Qed.

  Lemma waiting_split s : waiting s = queue' s ++ inners (m_box s).
  Proof. reflexivity. Qed.

  (** ** C24 *)
  Lemma in_order h s : mreach maxc h s -> prefix (subscribed (m_log s)) (arrived h) /\ NoDup (keys (m_log s)).
  Proof.
    intros H. apply reach_inv in H as [[p L]|[[p G]|D]].
    - split.
      + rewrite <- inners_posts, (lv_posts L), inners_app, <- (lv_inners L), <- app_assoc. apply prefix_app.
      + rewrite (lv_keys L). apply seq_NoDup.
    - split.
      + rewrite <- inners_posts, (gn_posts G), inners_app. eapply prefix_trans; [apply (gn_inners G)|apply prefix_app].
      + rewrite (gn_keys G). apply seq_NoDup.
    - split; [apply (dd_inners D)|]. rewrite (dd_keys D). apply seq_NoDup.
  Qed.

  Lemma none_forgotten h s : mreach maxc h s -> never_fails h -> (forall l, In l h -> ~ stops l) ->
    subscribed (m_log s) ++ waiting s = arrived h.
  Proof.
    intros H Hf Hn. apply reach_inv in H as [[p L]|[[p G]|D]].
    - rewrite waiting_split, app_assoc, (lv_inners L), <- inners_app, <- (lv_posts L). apply inners_posts.
    - exfalso. assert (Hd : In MDispose (posts h)) by (rewrite (gn_posts G); apply in_or_app; left; apply (gn_disp G)).
      apply posts_dispose in Hd as (l & Hl & Hst). exact (Hn l Hl Hst).
    - destruct (dd_fail D) as [e He]. exfalso. exact (Hf e He).
  Qed.

  (** The worker comes to rest. *)

  Lemma repeat_snoc X (x : X) n : repeat x (S n) = repeat x n ++ [x].
  Proof. induction n as [|n IH]; [reflexivity|]. cbn in *. now rewrite <- IH. Qed.

  Definition can_rest s : Prop := forall h, mreach maxc h s -> exists n s', mreach maxc (h ++ repeat LWork n) s' /\ resting maxc s'.

  Lemma can_rest_step s s1 : work maxc s = Some s1 -> can_rest s1 -> can_rest s.
  Proof.
    intros Hs Hc h H. destruct (Hc (h ++ [LWork])) as (n & s' & Hr & Hq).
    - eapply mr_snoc; [exact H|exact Hs].
    - exists (S n), s'. split; [|exact Hq]. rewrite <- app_assoc in Hr. exact Hr.
  Qed.

  Lemma can_rest_now s : work maxc s = None -> can_rest s.
  Proof. intros Hs h H. exists 0, s. split; [cbn; now rewrite app_nil_r|exact Hs]. Qed.

  Lemma rests_box b : forall s, m_box s = b -> can_rest s.
  Proof.
    induction b as [|m b IH]; intros s Hb.
    - (* empty mailbox: no message can start *)
      assert (Hidle : forall s, m_box s = [] -> match m_phase s with WIdle | WEnded | WDead => True | _ => False end -> can_rest s).
      { intros x Hx Hp. apply can_rest_now. unfold work. destruct (m_phase x); try contradiction; [now rewrite Hx|reflexivity|reflexivity]. }
      destruct (m_phase s) as [|l q|rest| |] eqn:E; try (apply Hidle; [exact Hb|rewrite E; exact I]).
      + eapply can_rest_step; [unfold work; rewrite E; reflexivity|]. apply Hidle; [exact Hb|].
        unfold store. cbn. destruct (m_stopped s); [destruct (l ++ [m_key s])|]; exact I.
      + revert s Hb E. induction rest as [|k rest IHr]; intros s Hb E.
        * apply can_rest_now. unfold work. now rewrite E.
        * eapply can_rest_step; [unfold work; rewrite E; reflexivity|]. destruct rest as [|k2 rest].
          -- apply Hidle; [exact Hb|exact I].
          -- apply IHr; [exact Hb|reflexivity].
    - assert (Hupd : forall m s, m_box (update maxc m s) = m_box s).
      { intros m0 s0. destruct m0; cbn.
        - destruct (room maxc s0); reflexivity.
        - destruct (m_queue s0); [|reflexivity]. destruct (remove_key k (m_subs s0)); [|reflexivity]. destruct (m_stopped s0); reflexivity.
        - destruct (m_subs s0); reflexivity.
        - destruct (m_subs s0); reflexivity. }
      assert (Hidle : forall s, m_box s = m :: b -> match m_phase s with WIdle | WEnded | WDead => True | _ => False end -> can_rest s).
      { intros x Hx Hp. destruct (m_phase x) eqn:Ex; try contradiction.
        - eapply can_rest_step; [unfold work; rewrite Ex, Hx; reflexivity|]. apply IH. now rewrite Hupd.
        - apply can_rest_now. unfold work. now rewrite Ex.
        - apply can_rest_now. unfold work. now rewrite Ex. }
      destruct (m_phase s) as [|l q|rest| |] eqn:E; try (apply Hidle; [exact Hb|rewrite E; exact I]).
      + eapply can_rest_step; [unfold work; rewrite E; reflexivity|]. apply Hidle; [exact Hb|].
        unfold store. cbn. destruct (m_stopped s); [destruct (l ++ [m_key s])|]; exact I.
      + revert s Hb E. induction rest as [|k rest IHr]; intros s Hb E.
        * apply can_rest_now. unfold work. now rewrite E.
        * eapply can_rest_step; [unfold work; rewrite E; reflexivity|]. destruct rest as [|k2 rest].
          -- apply Hidle; [exact Hb|exact I].
          -- apply IHr; [exact Hb|reflexivity].
  Qed.

  Lemma worker_rests h s : mreach maxc h s -> exists n s', mreach maxc (h ++ repeat LWork n) s' /\ resting maxc s'.
  Proof. exact (rests_box eq_refl (h := h)). Qed.

  (** ** C25 *)
  Definition Bnd s : Prop :=
    match m_phase s with
    | WSub l _ => (Z.of_nat (S (length l)) <= maxc)%Z
    | WIdle => (Z.of_nat (length (m_subs s)) <= maxc)%Z
    | _ => True
    end.

  Lemma completions_snoc h l : completions (h ++ [l]) = completions h ++ completions [l].
  Proof. unfold completions. now rewrite flat_map_app. Qed.

  Lemma NoDup_app_l X (a b : list X) : NoDup (a ++ b) -> NoDup a.
  Proof.
    induction a as [|x a IH]; intros H; [constructor|]. inversion H; subst. constructor; [|auto].
    intros Hx. apply H2. apply in_or_app. now left.
  Qed.

  Lemma remove_length k l : NoDup l -> In k l -> S (length (remove_key k l)) = length l.
  Proof.
    unfold remove_key. induction 1 as [|x l Hx Hl IH]; [contradiction|]. intros [->|Hk].
    - cbn. rewrite Nat.eqb_refl. cbn. f_equal.
      clear - Hx. induction l as [|y l IH]; [reflexivity|]. cbn.
      destruct (Nat.eqb_spec y k) as [->|]; [exfalso; apply Hx; now left|]. cbn. rewrite IH; [reflexivity|].
      intros H. apply Hx. now right.
    - cbn. destruct (Nat.eqb_spec x k) as [->|]; [contradiction|]. cbn. now rewrite IH.
  Qed.

  Lemma active_snoc h l log : length (active (h ++ [l]) log) <= length (active h log).
  Proof.
    unfold active. rewrite completions_snoc. generalize (completions h) (completions [l]). intros c c'. induction (keys log) as [|k ks IH]; [cbn; lia|]. cbn.
    rewrite existsb_app. destruct (existsb (Nat.eqb k) c); cbn; [lia|].
    destruct (existsb (Nat.eqb k) c'); cbn; lia.
  Qed.

  Lemma active_keys h log log' : keys log' = keys log -> active h log' = active h log.
  Proof. unfold active. now intros ->. Qed.

  Lemma live_active h s p : Live maxc h s p -> length (active h (m_log s)) <= length (subs' s) + (started s - m_key s).
  Proof.
    intros L. unfold active. rewrite (lv_keys L), <- dones_posts, (lv_posts L). fold (open_keys (p ++ m_box s) (started s)).
    eapply Nat.le_trans; [apply open_keys_incl|]. rewrite (lv_subs L). unfold started.
    destruct (m_phase s); try lia.
    rewrite open_keys_S by (apply (lv_done L)). rewrite app_length. cbn. lia.
  Qed.

  Lemma bound h s : (0 < maxc)%Z -> mreach maxc h s -> NoDup (completions h) ->
    (Z.of_nat (length (active h (m_log s))) <= maxc)%Z /\ Bnd s.
  Proof.
    intros Hc. induction 1 as [|h s l s' H IH Hs]; intros Hnd.
    - split; change (0 <= maxc)%Z; lia.
    - rewrite completions_snoc in Hnd. destruct (IH (NoDup_app_l _ _ Hnd)) as [IHa IHb].
      pose proof (mr_snoc l H Hs) as H'. pose proof (active_snoc h l (m_log s)) as Hmono.
      assert (Hkeep : keys (m_log s') = keys (m_log s) -> Bnd s' -> (Z.of_nat (length (active (h ++ [l]) (m_log s'))) <= maxc)%Z /\ Bnd s').
      { intros Hk HB. split; [|exact HB]. rewrite (active_keys _ _ _ Hk). lia. }
      assert (Hlog : forall n, keys (m_log s ++ [EReq n]) = keys (m_log s)).
      { intros n. unfold keys. now rewrite flat_map_snoc, app_nil_r. }
      destruct l as [[o|e|]|k n| | |e]; cbn [mstep] in Hs.
      + injection Hs as <-. now apply Hkeep.
      + injection Hs as <-. apply Hkeep; [apply Hlog|exact IHb].
      + injection Hs as <-. now apply Hkeep.
      + destruct (begun k s); [|discriminate]. injection Hs as <-.
        destruct n; apply Hkeep; try apply Hlog; try exact IHb; reflexivity.
      + injection Hs as <-. now apply Hkeep.
      + (* work *)
        assert (Hlive : Bnd s' -> keys (m_log s') <> keys (m_log s) -> (Z.of_nat (length (active (h ++ [LWork]) (m_log s'))) <= maxc)%Z /\ Bnd s').
        { intros HB Hk. split; [|exact HB]. apply (reach_inv) in H' as [[p L]|[[p G]|D]].
          - pose proof (live_active L) as Ha. unfold subs', started in Ha. unfold Bnd in HB.
            pose proof (lv_phase L) as Hph. pose proof (lv_ended L) as He. destruct (m_phase s') eqn:E; try contradiction; try lia.
            destruct (He eq_refl) as [_ He']. rewrite He' in Ha. cbn in Ha. lia.
          - exfalso. apply Hk. unfold work in Hs. destruct s as [box subs queue stopped key ph log]. cbn in *.
            destruct ph as [|l q|[|k rest]| |]; try discriminate.
            + destruct box as [|m r]; [discriminate|]. injection Hs as <-. destruct m; cbn in *.
              * pose proof (gn_phase G) as F. cbn in F. unfold room in *. cbn in *.
                destruct ((maxc =? 0)%Z || (Z.of_nat (length subs) <? maxc)%Z); cbn in *; [contradiction|].
                reflexivity.
              * pose proof (gn_phase G) as F. cbn in F. destruct queue; [|contradiction F].
                destruct (remove_key k subs); [|reflexivity]. destruct stopped; [|reflexivity]. cbn. apply Hlog.
              * destruct subs; [apply Hlog|reflexivity].
              * destruct subs; reflexivity.
            + injection Hs as <-. reflexivity.
            + injection Hs as <-. destruct rest; cbn; unfold keys; now rewrite flat_map_snoc, app_nil_r.
          - exfalso. pose proof (dd_phase D) as F. unfold work in Hs. destruct s as [box subs queue stopped key ph log]. cbn in *.
            destruct ph as [|l q|[|k rest]| |]; try discriminate.
            + destruct box as [|m r]; [discriminate|]. injection Hs as <-. destruct m; cbn in *.
              * unfold room in *. cbn in *. destruct ((maxc =? 0)%Z || (Z.of_nat (length subs) <? maxc)%Z); cbn in *; [discriminate|].
                destruct stopped; [destruct subs|]; discriminate.
              * destruct queue; [|discriminate F].
                destruct (remove_key k subs); [destruct stopped|]; cbn in F; try discriminate. destruct stopped; discriminate.
              * destruct subs; discriminate.
              * destruct subs; discriminate.
            + injection Hs as <-. cbn in F. destruct stopped; [destruct (l ++ [key])|]; discriminate.
            + injection Hs as <-. destruct rest; discriminate. }
        assert (Hall : Bnd s' -> (Z.of_nat (length (active (h ++ [LWork]) (m_log s'))) <= maxc)%Z /\ Bnd s').
        { intros HB. destruct (list_eq_dec Nat.eq_dec (keys (m_log s')) (keys (m_log s))); auto. }
        apply Hall. clear Hlive Hall Hkeep.
        pose proof (reach_inv H) as HI.
        unfold work in Hs. destruct s as [box subs queue stopped key ph log]. unfold Bnd in *. cbn in *.
        destruct ph as [|l q|[|k rest]| |]; try discriminate.
        * destruct HI as [[p L]|[[p G]|D]]; [|exfalso; exact (gn_phase G)|exfalso; discriminate (dd_phase D)].
          destruct box as [|m r]; [discriminate|]. injection Hs as <-. destruct m; cbn in *.
          -- unfold room. cbn. destruct ((maxc =? 0)%Z || (Z.of_nat (length subs) <? maxc)%Z) eqn:E; cbn.
             ++ apply orb_true_iff in E as [E|E]; [apply Z.eqb_eq in E|apply Z.ltb_lt in E]; lia.
             ++ destruct stopped; [destruct subs; [exact I|]|]; assumption.
          -- pose proof (lv_subs L) as Hsubs. unfold subs' in Hsubs. cbn in Hsubs.
             assert (HndS : NoDup subs) by (rewrite Hsubs; apply NoDup_filter, seq_NoDup).
             assert (Hk : In k subs).
             { rewrite Hsubs. apply filter_In. split.
               - apply in_seq. pose proof (lv_box L k (or_introl eq_refl)) as Hb. unfold started in Hb. cbn in Hb. lia.
               - apply negb_true_iff. destruct (existsb (Nat.eqb k) (dones p)) eqn:E; [|reflexivity].
                 apply existsb_eqb in E. exfalso. apply NoDup_app_l in Hnd.
                 rewrite <- dones_posts, (lv_posts L), dones_app in Hnd. cbn in Hnd.
                 apply NoDup_remove_2 in Hnd. apply Hnd. apply in_or_app. now left. }
             pose proof (remove_length k HndS Hk) as Hlen.
             destruct queue; cbn.
             ++ destruct (remove_key k subs) as [|x xs] eqn:Er; cbn.
                ** destruct stopped; cbn; [exact I|lia].
                ** destruct stopped; cbn; cbn in Hlen; lia.
             ++ lia.
          -- destruct subs; cbn; [exact I|cbn in *; lia].
          -- destruct subs; exact I.
        * injection Hs as <-. cbn. destruct stopped; [destruct (l ++ [key]) eqn:E; [exact I|rewrite <- E]|]; rewrite app_length; cbn; lia.
        * injection Hs as <-. destruct rest; exact I.
      + (* fail *)
        destruct (m_phase s) as [|l q|[|k rest]| |]; try discriminate; injection Hs as <-; apply Hkeep; try exact I; [reflexivity|].
        cbn. unfold keys. now rewrite flat_map_snoc, app_nil_r.
  Qed.

  (** ** Outer grammar *)
  Definition oc p : list (notif O) :=
    flat_map (fun m => match m with MInner o => [OnNext o] | MOuterDone => [OnCompleted] | _ => [] end) p.

  Lemma oc_posts h : oc (posts h) = filter (fun n => match n with OnError _ => false | _ => true end) (outer_calls h).
  Proof.
    unfold oc, posts, outer_calls. induction h as [|l h IH]; [reflexivity|]. cbn. rewrite flat_map_app, filter_app, IH.
    destruct l as [[o|e|]|k [a|e|]| | |e]; reflexivity.
  Qed.

  Lemma oc_inners p : oc p = [] -> inners p = [].
  Proof.
    unfold oc, inners. induction p as [|m p IH]; [reflexivity|]. cbn. destruct m; cbn; try discriminate; exact IH.
  Qed.

  Lemma outer_last h p box : grammatical (outer_calls h) -> posts h = p ++ box -> In MOuterDone p -> inners box = [].
  Proof.
    intros (vs & e & Hg) Hp Hin. apply oc_inners.
    assert (Ho : oc p ++ oc box = trace vs (match e with Completed => Completed | _ => Open end)).
    { unfold oc at 1 2. rewrite <- flat_map_app. fold (oc (p ++ box)). rewrite <- Hp, oc_posts, Hg. unfold trace.
      rewrite filter_app. f_equal; [|destruct e; reflexivity].
      clear. induction vs as [|v vs IH]; [reflexivity|]. cbn. now rewrite IH. }
    assert (Hc : In OnCompleted (oc p)).
    { unfold oc. apply in_flat_map. exists MOuterDone. split; [exact Hin|now left]. }
    clear - Ho Hc. revert vs Ho. induction (oc p) as [|n l IH]; intros vs Ho; [contradiction|].
    destruct vs as [|v vs].
    - destruct e; cbn in Ho; try discriminate. injection Ho as -> Ho. destruct l; [|discriminate]. exact Ho.
    - cbn in Ho. injection Ho as -> Ho. destruct Hc as [Hc|Hc]; [discriminate|]. exact (IH Hc vs Ho).
  Qed.

  Lemma resting_live h s p : Live maxc h s p -> resting maxc s -> m_phase s = WEnded \/ m_phase s = WIdle /\ m_box s = [].
  Proof.
    intros L. unfold resting, work. pose proof (lv_phase L) as F. destruct (m_phase s); try contradiction; auto; [|discriminate].
    destruct (m_box s); [auto|discriminate].
  Qed.

  Lemma ended_queue h s p : (0 <= maxc)%Z -> Live maxc h s p -> m_phase s = WEnded -> queue' s = [].
  Proof.
    intros Hc L E. destruct (queue' s) as [|x q] eqn:Eq; [reflexivity|]. exfalso.
    destruct (lv_queue L Hc) as [H1 H2]; [rewrite Eq; discriminate|]. unfold subs', started in H2. rewrite E in H2.
    destruct (lv_ended L E) as [_ Hs]. rewrite Hs in H2. cbn in H2. lia.
  Qed.

  Lemma live_of h s : mreach maxc h s -> never_fails h -> (forall l, In l h -> ~ stops l) -> exists p, Live maxc h s p.
  Proof.
    intros H Hf Hn. apply reach_inv in H as [[p L]|[[p G]|D]].
    - now exists p.
    - exfalso. assert (Hd : In MDispose (posts h)) by (rewrite (gn_posts G); apply in_or_app; left; apply (gn_disp G)).
      apply posts_dispose in Hd as (l & Hl & Hst). exact (Hn l Hl Hst).
    - destruct (dd_fail D) as [e He]. exfalso. exact (Hf e He).
  Qed.

  (** At rest, an inner waits only if the bound is reached. *)
  Lemma no_idle_waiting h s : (0 <= maxc)%Z -> mreach maxc h s -> never_fails h -> (forall l, In l h -> ~ stops l) ->
    grammatical (outer_calls h) -> resting maxc s -> waiting s <> [] ->
    (0 < maxc <= Z.of_nat (length (active h (m_log s))))%Z.
  Proof.
    intros Hc H Hf Hn Hg Hr Hw. destruct (live_of H Hf Hn) as [p L].
    destruct (resting_live L Hr) as [E|[E Eb]].
    - exfalso. apply Hw. rewrite waiting_split, (ended_queue Hc L E). cbn.
      eapply outer_last; [exact Hg|exact (lv_posts L)|]. apply (lv_stop L). apply (lv_ended L E).
    - rewrite waiting_split, Eb, app_nil_r in Hw. destruct (lv_queue L Hc Hw) as [H1 H2]. split; [exact H1|].
      unfold active. rewrite (lv_keys L), <- dones_posts, (lv_posts L), Eb, app_nil_r. fold (open_keys p (started s)).
      rewrite (lv_subs L) in H2. unfold started in *. rewrite E in *. lia.
  Qed.

  (** ** C26 *)
  Lemma closes_requests (l : list (effect O A)) : closes l <> [] <-> In OnCompleted (requests l).
  Proof.
    unfold closes, requests. induction l as [|x l IH]; cbn; [tauto|].
    destruct x as [k o|k|[a|e|]]; cbn; try exact IH.
    - rewrite IH. split; [tauto|]. intros [H|H]; [discriminate|exact H].
    - rewrite IH. split; [tauto|]. intros [H|H]; [discriminate|exact H].
    - split; [now left|discriminate].
  Qed.

  Lemma open_keys_nil p n : open_keys p n = [] -> forall k, k < n -> In k (dones p).
  Proof.
    intros H k Hk. destruct (existsb (Nat.eqb k) (dones p)) eqn:E; [now apply existsb_eqb|]. exfalso.
    assert (Hin : In k (open_keys p n)).
    { apply filter_In. rewrite in_seq, E. split; [lia|reflexivity]. }
    rewrite H in Hin. exact Hin.
  Qed.

  Lemma ended_done h s p : Live maxc h s p -> m_phase s = WEnded -> forall k, In k (keys (m_log s)) -> In k (completions h).
  Proof.
    intros L E k Hk. rewrite (lv_keys L) in Hk. apply in_seq in Hk. unfold started in Hk. rewrite E in Hk.
    rewrite <- dones_posts, (lv_posts L), dones_app. apply in_or_app. left. apply (@open_keys_nil p (m_key s)); [|lia].
    rewrite <- (lv_subs L). unfold subs'. rewrite E. apply (lv_ended L E).
  Qed.

  Lemma completes_only_if h s : (0 <= maxc)%Z -> mreach maxc h s -> grammatical (outer_calls h) ->
    In OnCompleted (requests (m_log s)) ->
    In (LOuter OnCompleted) h /\ subscribed (m_log s) = arrived h /\ forall k, In k (keys (m_log s)) -> In k (completions h).
  Proof.
    intros Hc H Hg Hin. apply closes_requests in Hin. apply reach_inv in H as [[p L]|[[p G]|D]].
    - assert (E : m_phase s = WEnded).
      { rewrite (lv_closes L) in Hin. destruct (m_phase s); congruence. }
      destruct (lv_ended L E) as [Hst Hsub]. apply (lv_stop L) in Hst.
      split; [|split].
      + apply posts_outer. rewrite (lv_posts L). apply in_or_app. now left.
      + rewrite <- inners_posts, (lv_posts L), inners_app, (outer_last h p (m_box s) Hg (lv_posts L) Hst), app_nil_r.
        rewrite <- (lv_inners L), (ended_queue Hc L E). now rewrite app_nil_r.
      + exact (ended_done L E).
    - rewrite (gn_closes G) in Hin. congruence.
    - rewrite (dd_closes D) in Hin. congruence.
  Qed.

  Lemma completes_if h s : (0 <= maxc)%Z -> mreach maxc h s -> never_fails h -> (forall l, In l h -> ~ stops l) ->
    resting maxc s -> In (LOuter OnCompleted) h -> (forall k, In k (keys (m_log s)) -> In k (completions h)) ->
    In OnCompleted (requests (m_log s)).
  Proof.
    intros Hc H Hf Hn Hr Ho Hk. destruct (live_of H Hf Hn) as [p L]. apply closes_requests.
    destruct (resting_live L Hr) as [E|[E Eb]].
    - rewrite (lv_closes L), E. discriminate.
    - exfalso. apply (lv_idle L E).
      + apply (lv_stop L). apply posts_outer in Ho. rewrite (lv_posts L), Eb, app_nil_r in Ho. exact Ho.
      + pose proof (lv_subs L) as Hs. unfold subs' in Hs. rewrite E in Hs. rewrite Hs. unfold open_keys.
        assert (Hall : forall k, In k (seq 0 (m_key s)) -> In k (dones p)).
        { intros k Hin. specialize (Hk k). rewrite (lv_keys L) in Hk. unfold started in Hk. rewrite E in Hk.
          specialize (Hk Hin). rewrite <- dones_posts, (lv_posts L), Eb, app_nil_r in Hk. exact Hk. }
        clear - Hall. induction (seq 0 (m_key s)) as [|k l IH]; [reflexivity|]. cbn.
        rewrite (proj2 (existsb_eqb k (dones p)) (Hall k (or_introl eq_refl))). cbn. apply IH. intros j Hj. apply Hall. now right.
  Qed.

  Lemma completes_once h s a b : mreach maxc h s -> requests (m_log s) = a ++ OnCompleted :: b -> ~ In OnCompleted (a ++ b).
  Proof.
    intros H E. assert (Hc : length (closes (m_log s)) <= 1).
    { apply reach_inv in H as [[p L]|[[p G]|D]].
      - rewrite (lv_closes L). destruct (m_phase s); cbn; lia.
      - rewrite (gn_closes G). cbn; lia.
      - rewrite (dd_closes D). cbn; lia. }
    assert (Hr : closes (m_log s) = flat_map (fun n => match n with OnCompleted => [tt] | _ => [] end) (requests (m_log s))).
    { unfold closes, requests. clear. induction (m_log s) as [|x l IH]; [reflexivity|]. cbn. rewrite flat_map_app, <- IH.
      destruct x as [k o|k|[v|e|]]; reflexivity. }
    rewrite Hr, E, flat_map_app in Hc. cbn in Hc. rewrite app_length in Hc. cbn in Hc. intros Hin.
    assert (H2 : forall c, In OnCompleted c -> 1 <= length (flat_map (fun n : notif A => match n with OnCompleted => [tt] | _ => [] end) c)).
    { intros c. induction c as [|n c IH]; [contradiction|]. intros [->|Hn]; cbn; [lia|]. rewrite app_length. specialize (IH Hn). lia. }
    apply in_app_or in Hin as [Hin|Hin]; apply H2 in Hin; lia.
  Qed.

  (** ** C27 *)
  Definition not_done (n : notif A) : bool := match n with OnCompleted => false | _ => true end.

  Lemma requests_snoc (l : list (effect O A)) x : requests (l ++ [x]) = requests l ++ requests [x].
  Proof. unfold requests. now rewrite flat_map_app. Qed.
  Lemma produced_snoc h l : produced (h ++ [l]) = produced h ++ produced [l].
  Proof. unfold produced. now rewrite flat_map_app. Qed.

  Lemma forwards h s : mreach maxc h s -> filter not_done (requests (m_log s)) = produced h.
  Proof.
    induction 1 as [|h s l s' H IH Hs]; [reflexivity|].
    rewrite produced_snoc, <- IH. clear IH.
    assert (Hw : forall es, m_log s' = m_log s ++ es -> filter not_done (requests es) = produced [l] ->
      filter not_done (requests (m_log s')) = filter not_done (requests (m_log s)) ++ produced [l]).
    { intros es -> <-. unfold requests. now rewrite flat_map_app, filter_app. }
    destruct l as [[o|e|]|k n| | |e]; cbn [mstep] in Hs.
    - injection Hs as <-. apply (Hw []); [cbn; now rewrite app_nil_r|reflexivity].
    - injection Hs as <-. apply (Hw [EReq (OnError e)]); reflexivity.
    - injection Hs as <-. apply (Hw []); [cbn; now rewrite app_nil_r|reflexivity].
    - destruct (begun k s); [|discriminate]. injection Hs as <-. destruct n as [a|e|].
      + apply (Hw [EReq (OnNext a)]); reflexivity.
      + apply (Hw [EReq (OnError e)]); reflexivity.
      + apply (Hw []); [cbn; now rewrite app_nil_r|reflexivity].
    - injection Hs as <-. apply (Hw []); [cbn; now rewrite app_nil_r|reflexivity].
    - assert (exists es, m_log s' = m_log s ++ es /\ filter not_done (requests es) = []) as (es & E1 & E2);
        [|apply (Hw es E1); rewrite E2; reflexivity].
      assert (H0 : forall x : effect O A, filter not_done (requests [x]) = [] -> exists es, m_log s ++ [x] = m_log s ++ es /\ filter not_done (requests es) = []) by eauto.
      assert (H00 : exists es, m_log s = m_log s ++ es /\ filter not_done (requests es) = []) by (exists []; rewrite app_nil_r; auto).
      unfold work in Hs. destruct (m_phase s) as [|l q|[|k rest]| |]; try discriminate.
      + destruct (m_box s) as [|m r]; [discriminate|]. injection Hs as <-. destruct m; cbn.
        * destruct (room _ _); [now apply H0|exact H00].
        * destruct (m_queue s); [|now apply H0]. destruct (remove_key k (m_subs s)); [|exact H00]. destruct (m_stopped s); [now apply H0|exact H00].
        * destruct (m_subs s); [now apply H0|exact H00].
        * destruct (m_subs s); exact H00.
      + injection Hs as <-. exact H00.
      + injection Hs as <-. destruct rest; cbn; now apply H0.
    - destruct (m_phase s) as [|l q|[|k rest]| |]; try discriminate; injection Hs as <-.
      + apply (Hw []); [cbn; now rewrite app_nil_r|reflexivity].
      + apply (Hw [EDispose k]); reflexivity.
  Qed.

  (** ** C29 *)
  Lemma all_disposed h s : mreach maxc h s -> never_fails h -> (exists l, In l h /\ stops l) -> resting maxc s ->
    NoDup (disposed (m_log s)) /\ forall k, In k (keys (m_log s)) -> In k (completions h) \/ In k (disposed (m_log s)).
  Proof.
    intros H Hf Hst Hr. apply reach_inv in H as [[p L]|[[p G]|D]].
    - split; [rewrite (lv_disposed L); constructor|]. intros k Hk. left. destruct (resting_live L Hr) as [E|[E Eb]].
      + exact (ended_done L E k Hk).
      + exfalso. apply (lv_nodisp L). apply posts_dispose in Hst. rewrite (lv_posts L), Eb, app_nil_r in Hst. exact Hst.
    - pose proof (gn_phase G) as F. unfold resting, work in Hr.
      destruct (m_phase s) as [|l q|[|k0 rest]| |]; try contradiction; [destruct F; congruence|discriminate|].
      split; [rewrite F; apply NoDup_filter, seq_NoDup|]. intros k Hk.
      destruct (existsb (Nat.eqb k) (dones p)) eqn:E.
      + left. apply existsb_eqb in E. rewrite <- dones_posts, (gn_posts G), dones_app. apply in_or_app. now left.
      + right. rewrite F. apply filter_In. rewrite E. split; [|reflexivity]. now rewrite <- (gn_keys G).
    - destruct (dd_fail D) as [e He]. exfalso. exact (Hf e He).
  Qed.

  Lemma stays_ended h s h' s' : mreach maxc h s -> m_phase s = WEnded -> mreach maxc (h ++ h') s' ->
    m_phase s' = WEnded /\ keys (m_log s') = keys (m_log s).
  Proof.
    intros H E. revert s'. induction h' as [|l h' IH] using rev_ind; intros s' H'.
    - rewrite app_nil_r in H'. assert (s' = s) as ->; [|auto].
      clear E. revert s H s' H'. induction h as [|l h IHh] using rev_ind; intros s H s' H'.
      + inversion H; subst; [|destruct h; discriminate]. inversion H'; subst; [reflexivity|destruct h; discriminate].
      + inversion H; subst; [destruct h; discriminate|]. inversion H'; subst; [destruct h; discriminate|].
        apply app_inj_tail in H0 as [-> ->]. apply app_inj_tail in H3 as [-> ->].
        rewrite (IHh _ H1 _ H4) in H5. congruence.
    - rewrite app_assoc in H'. inversion H'; subst; [destruct (h ++ h'); discriminate|].
      apply app_inj_tail in H0 as [-> ->]. destruct (IH s0 H1) as [E0 K0].
      destruct l as [[o|e|]|k n| | |e]; cbn [mstep] in H2.
      + injection H2 as <-. cbn. auto.
      + injection H2 as <-. cbn. unfold keys. now rewrite flat_map_snoc, app_nil_r.
      + injection H2 as <-. cbn. auto.
      + destruct (begun k s0); [|discriminate]. injection H2 as <-. destruct n; cbn; auto; unfold keys; now rewrite flat_map_snoc, app_nil_r.
      + injection H2 as <-. cbn. auto.
      + unfold work in H2. rewrite E0 in H2. discriminate.
      + rewrite E0 in H2. discriminate.
  Qed.

  Lemma rest_ended h s : mreach maxc h s -> never_fails h -> (exists l, In l h /\ stops l) -> resting maxc s -> m_phase s = WEnded.
  Proof.
    intros H Hf Hst Hr. apply reach_inv in H as [[p L]|[[p G]|D]].
    - destruct (resting_live L Hr) as [E|[E Eb]]; [exact E|].
      exfalso. apply (lv_nodisp L). apply posts_dispose in Hst. rewrite (lv_posts L), Eb, app_nil_r in Hst. exact Hst.
    - pose proof (gn_phase G) as F. unfold resting, work in Hr.
      destruct (m_phase s) as [|l q|[|k0 rest]| |]; try contradiction; [destruct F; congruence|discriminate|reflexivity].
    - destruct (dd_fail D) as [e He]. exfalso. exact (Hf e He).
  Qed.

  (** ** C28 *)
  Lemma keys_req (l : list (effect O A)) n : keys (l ++ [EReq n]) = keys l.
  Proof. unfold keys. now rewrite flat_map_snoc, app_nil_r. Qed.
  Lemma keys_disp (l : list (effect O A)) n : keys (l ++ [EDispose n]) = keys l.
  Proof. unfold keys. now rewrite flat_map_snoc, app_nil_r. Qed.

  Lemma keys_step s l s' : mstep maxc s l = Some s' ->
    keys (m_log s') = keys (m_log s) \/ exists x q, m_phase s' = WSub x q.
  Proof.
    intros Hs. destruct l as [[o|e|]|k n| | |e]; cbn [mstep] in Hs.
    - injection Hs as <-. now left.
    - injection Hs as <-. left. apply keys_req.
    - injection Hs as <-. now left.
    - destruct (begun k s); [|discriminate]. injection Hs as <-. left. destruct n; try apply keys_req. reflexivity.
    - injection Hs as <-. now left.
    - unfold work in Hs. destruct (m_phase s) as [|l q|[|k rest]| |]; try discriminate.
      + destruct (m_box s) as [|m r]; [discriminate|]. injection Hs as <-. destruct m; cbn.
        * destruct (room _ _); [right; cbn; eauto|now left].
        * destruct (m_queue s); [|right; cbn; eauto]. left. destruct (remove_key k (m_subs s)); [|reflexivity]. destruct (m_stopped s); [apply keys_req|reflexivity].
        * left. destruct (m_subs s); [apply keys_req|reflexivity].
        * left. destruct (m_subs s); reflexivity.
      + injection Hs as <-. now left.
      + injection Hs as <-. left. destruct rest; apply keys_disp.
    - destruct (m_phase s) as [|l q|[|k rest]| |]; try discriminate; injection Hs as <-; left; [reflexivity|apply keys_disp].
  Qed.

  Lemma quiet_app h l : quiet_after_completion (h ++ [l]) -> quiet_after_completion h.
  Proof. intros H h1 k n h2 ->. apply (H h1 k n (h2 ++ [l])). now rewrite <- app_assoc. Qed.

  Lemma NoDup_snoc X (l : list X) x : NoDup l -> ~ In x l -> NoDup (l ++ [x]).
  Proof.
    induction 1 as [|y l Hy Hl IH]; intros Hx; [repeat constructor; auto|]. cbn. constructor.
    - rewrite in_app_iff. intros [H|[->|[]]]; [contradiction|]. apply Hx. now left.
    - apply IH. intros H. apply Hx. now right.
  Qed.

  Lemma quiet_nodup h : quiet_after_completion h -> NoDup (completions h).
  Proof.
    induction h as [|l h IH] using rev_ind; intros H; [constructor|]. rewrite completions_snoc.
    pose proof (IH (quiet_app _ H)) as Hn.
    destruct l as [[o|e|]|k [a|e|]| | |e]; cbn; rewrite ?app_nil_r; try exact Hn.
    apply NoDup_snoc; [exact Hn|]. apply (H h k OnCompleted []). reflexivity.
  Qed.

  Lemma sequential h s : maxc = 1%Z -> mreach maxc h s -> NoDup (completions h) ->
    forall j k, In k (keys (m_log s)) -> j < k -> In j (completions h).
  Proof.
    intros Hc. induction 1 as [|h s l s' H IH Hs]; intros Hnd j k Hk Hj; [contradiction|].
    destruct (keys_step _ _ Hs) as [E|(x & q & E)].
    - rewrite E in Hk. rewrite completions_snoc in *. apply in_or_app. left. exact (IH (NoDup_app_l _ _ Hnd) j k Hk Hj).
    - pose proof (mr_snoc l H Hs) as H'. destruct (bound ltac:(lia) H' Hnd) as [_ HB]. unfold Bnd in HB. rewrite E in HB.
      pose proof (reach_inv H') as [[p L]|[[p G]|D]].
      + assert (x = []) as -> by (destruct x; [reflexivity|cbn in HB; lia]).
        pose proof (lv_subs L) as Hsub. unfold subs' in Hsub. rewrite E in Hsub. symmetry in Hsub.
        rewrite (lv_keys L) in Hk. unfold started in Hk. rewrite E in Hk. apply in_seq in Hk.
        rewrite <- dones_posts, (lv_posts L), dones_app. apply in_or_app. left. apply (open_keys_nil p Hsub). lia.
      + pose proof (gn_phase G) as F. rewrite E in F. contradiction.
      + pose proof (dd_phase D) as F. congruence.
  Qed.

  Lemma sends_snoc h l : sends (h ++ [l]) = sends h ++ sends [l].
  Proof. unfold sends. now rewrite flat_map_app. Qed.

  Lemma log_mono s l s' : mstep maxc s l = Some s' -> prefix (m_log s) (m_log s').
  Proof.
    intros Hs. destruct l as [[o|e|]|k n| | |e]; cbn [mstep] in Hs.
    - injection Hs as <-. apply prefix_refl.
    - injection Hs as <-. apply prefix_app.
    - injection Hs as <-. apply prefix_refl.
    - destruct (begun k s); [|discriminate]. injection Hs as <-. destruct n; try apply prefix_app. apply prefix_refl.
    - injection Hs as <-. apply prefix_refl.
    - unfold work in Hs. destruct (m_phase s) as [|l q|[|k rest]| |]; try discriminate.
      + destruct (m_box s) as [|m r]; [discriminate|]. injection Hs as <-. destruct m; cbn.
        * destruct (room _ _); [apply prefix_app|apply prefix_refl].
        * destruct (m_queue s); [|apply prefix_app]. destruct (remove_key k (m_subs s)); [|apply prefix_refl]. destruct (m_stopped s); [apply prefix_app|apply prefix_refl].
        * destruct (m_subs s); [apply prefix_app|apply prefix_refl].
        * destruct (m_subs s); apply prefix_refl.
      + injection Hs as <-. apply prefix_refl.
      + injection Hs as <-. destruct rest; apply prefix_app.
    - destruct (m_phase s) as [|l q|[|k rest]| |]; try discriminate; injection Hs as <-; [apply prefix_refl|apply prefix_app].
  Qed.

  Lemma keys_mono s l s' k : mstep maxc s l = Some s' -> In k (keys (m_log s)) -> In k (keys (m_log s')).
  Proof.
    intros Hs Hk. destruct (log_mono _ _ Hs) as [es ->]. unfold keys. rewrite flat_map_app. apply in_or_app. now left.
  Qed.

  Lemma senders_begun h s : mreach maxc h s -> forall k a, In (k, a) (sends h) -> In k (keys (m_log s)).
  Proof.
    induction 1 as [|h s l s' H IH Hs]; intros k a Hin; [contradiction|].
    rewrite sends_snoc in Hin. apply in_app_or in Hin as [Hin|Hin].
    - eapply keys_mono; [exact Hs|]. exact (IH k a Hin).
    - destruct l as [[o|e|]|j [b|e|]| | |e]; cbn in Hin; try contradiction. destruct Hin as [[= -> ->]|[]].
      pose proof Hs as Hs0. cbn in Hs. destruct (begun k s) eqn:B; [|discriminate]. eapply keys_mono; [exact Hs0|]. now apply begun_keys.
  Qed.

  Lemma keys_seq h s : mreach maxc h s -> keys (m_log s) = seq 0 (length (keys (m_log s))).
  Proof.
    intros H. apply reach_inv in H as [[p L]|[[p G]|D]].
    - rewrite (lv_keys L), seq_length. reflexivity.
    - apply (gn_keys G).
    - apply (dd_keys D).
  Qed.

  (** Elements come in the order of their subscriptions. *)
  Lemma sends_sorted h s : maxc = 1%Z -> mreach maxc h s -> quiet_after_completion h ->
    forall l1 x l2 y l3, sends h = l1 ++ x :: l2 ++ y :: l3 -> fst x <= fst y.
  Proof.
    intros Hc. induction 1 as [|h s l s' H IH Hs]; intros Hq l1 x l2 y l3 E; [destruct l1; discriminate|].
    rewrite sends_snoc in E. destruct (rev_case l3) as [->|(l3' & z & ->)].
    - destruct (sends [l]) as [|w ws] eqn:El.
      + rewrite app_nil_r in E. exact (IH (quiet_app _ Hq) _ _ _ _ _ E).
      + destruct l as [[o|e|]|k [b|e|]| | |e]; cbn in El; try discriminate. injection El as <- <-.
        replace (l1 ++ x :: l2 ++ [y]) with ((l1 ++ x :: l2) ++ [y]) in E by (now rewrite <- app_assoc).
        apply app_inj_tail in E as [E <-]. cbn [fst].
        assert (Hin : In (fst x) (keys (m_log s))).
        { destruct x as [j b']. eapply (senders_begun H). rewrite E. apply in_or_app. right. now left. }
        destruct (le_lt_dec (fst x) k) as [|Hlt]; [assumption|]. exfalso.
        apply (Hq h k (OnNext b) [] eq_refl).
        exact (sequential Hc H (quiet_nodup (quiet_app _ Hq)) Hin Hlt).
    - destruct (sends [l]) as [|w ws] eqn:El.
      + rewrite app_nil_r in E. exact (IH (quiet_app _ Hq) _ _ _ _ _ E).
      + destruct l as [[o|e|]|k [b|e|]| | |e]; cbn in El; try discriminate. injection El as <- <-.
        replace (l1 ++ x :: l2 ++ y :: l3' ++ [z]) with ((l1 ++ x :: l2 ++ y :: l3') ++ [z]) in E
          by (rewrite <- !app_assoc; cbn; now rewrite <- app_assoc).
        apply app_inj_tail in E as [E _]. exact (IH (quiet_app _ Hq) _ _ _ _ _ E).
  Qed.
End P.

Lemma filter_eq_all X (f : X -> bool) l : (forall x, In x l -> f x = true) -> filter f l = l.
Proof.
  induction l as [|x l IH]; intros H; [reflexivity|]. cbn. rewrite (H x (or_introl eq_refl)), IH; [reflexivity|].
  intros y Hy. apply H. now right.
Qed.
Lemma filter_eq_none X (f : X -> bool) l : (forall x, In x l -> f x = false) -> filter f l = [].
Proof.
  induction l as [|x l IH]; intros H; [reflexivity|]. cbn. rewrite (H x (or_introl eq_refl)). apply IH.
  intros y Hy. apply H. now right.
Qed.

(** A list sorted by keys is the concatenation of its parts with equal keys. *)
Lemma by_keys X (l : list (nat * X)) : forall lo n,
  (forall l1 x l2 y l3, l = l1 ++ x :: l2 ++ y :: l3 -> fst x <= fst y) ->
  (forall x, In x l -> lo <= fst x < lo + n) ->
  l = flat_map (fun k => filter (fun p => fst p =? k) l) (seq lo n).
Proof.
  induction l as [|x l IH]; intros lo n Hs Hb.
  - clear. revert lo. induction n as [|n IH]; intros lo; [reflexivity|]. cbn. apply IH.
  - assert (Hs' : forall l1 x l2 y l3, l = l1 ++ x :: l2 ++ y :: l3 -> fst x <= fst y).
    { intros l1 a l2 b l3 ->. apply (Hs (x :: l1) a l2 b l3). reflexivity. }
    assert (Hx : forall y, In y l -> fst x <= fst y).
    { intros y Hy. apply in_split in Hy as (l2 & l3 & ->). exact (Hs [] x l2 y l3 eq_refl). }
    pose proof (Hb x (or_introl eq_refl)) as Hbx.
    assert (Hr : l = flat_map (fun k => filter (fun p => fst p =? k) l) (seq (fst x) (lo + n - fst x))).
    { apply IH; [exact Hs'|]. intros y Hy. specialize (Hx y Hy). specialize (Hb y (or_intror Hy)). lia. }
    replace (seq lo n) with (seq lo (fst x - lo) ++ seq (fst x) (lo + n - fst x))
      by (replace (fst x) with (lo + (fst x - lo)) at 2 by lia; rewrite <- seq_app; f_equal; lia).
    rewrite flat_map_app.
    replace (flat_map (fun k => filter (fun p => fst p =? k) (x :: l)) (seq lo (fst x - lo))) with (@nil (nat * X)).
    + cbn [app]. replace (lo + n - fst x) with (S (lo + n - S (fst x))) in * by lia. cbn [seq flat_map] in *.
      cbn [filter]. rewrite Nat.eqb_refl. cbn [app]. f_equal. rewrite Hr at 1. f_equal.
      rewrite !flat_map_concat_map. f_equal. apply map_ext_in. intros k Hk. apply in_seq in Hk. cbn. destruct (Nat.eqb_spec (fst x) k); [lia|reflexivity].
    + symmetry. clear - Hx.
      assert (Hn : forall k, In k (seq lo (fst x - lo)) -> filter (fun p => fst p =? k) (x :: l) = []).
      { intros k Hk. apply in_seq in Hk. apply filter_eq_none. intros y [<-|Hy]; apply Nat.eqb_neq; [lia|]. specialize (Hx y Hy). lia. }
      induction (seq lo (fst x - lo)) as [|k ks IH]; [reflexivity|]. cbn [flat_map].
      rewrite (Hn k (or_introl eq_refl)). apply IH. intros j Hj. apply Hn. now right.
Qed.

Lemma concatenates O A h (s : mstate O A) : mreach 1 h s -> quiet_after_completion h ->
  map snd (sends h) = flat_map (fun k => map snd (filter (fun p => fst p =? k) (sends h))) (keys (m_log s)).
Proof.
  intros H Hq. rewrite (keys_seq H).
  rewrite (@by_keys _ (sends h) 0 (length (keys (m_log s)))) at 1.
  - rewrite flat_map_concat_map, concat_map, map_map, <- flat_map_concat_map. reflexivity.
  - exact (sends_sorted eq_refl H Hq).
  - intros [k a] Hin. apply (senders_begun H) in Hin. rewrite (keys_seq H) in Hin. apply in_seq in Hin. cbn. lia.
Qed.

(** Running a history. *)
Fixpoint mrun {O A} (maxc : Z) (s : mstate O A) (h : list (mlabel O A)) : option (mstate O A) :=
  match h with
  | [] => Some s
  | l :: r => match mstep maxc s l with Some s' => mrun maxc s' r | None => None end
  end.

Lemma mrun_reach O A maxc (h2 : list (mlabel O A)) : forall h1 s s', mreach maxc h1 s -> mrun maxc s h2 = Some s' -> mreach maxc (h1 ++ h2) s'.
Proof.
  induction h2 as [|l h2 IH]; intros h1 s s' H E; cbn in E.
  - injection E as <-. now rewrite app_nil_r.
  - destruct (mstep maxc s l) as [s1|] eqn:El; [|discriminate].
    replace (h1 ++ l :: h2) with ((h1 ++ [l]) ++ h2) by (now rewrite <- app_assoc).
    eapply IH; [|exact E]. eapply mr_snoc; eassumption.
Qed.
Lemma mrun_init O A maxc (h : list (mlabel O A)) s : mrun maxc m_init h = Some s -> mreach maxc h s.
Proof. intros H. exact (mrun_reach _ (mr_nil maxc) H). Qed.

(** What the subscriber sees of the requests made so far. *)
Lemma upto_first_error A (l : list (notif A)) vs x rest : filter not_done l = map OnNext vs ++ OnError x :: rest ->
  (forall a b, l = a ++ OnCompleted :: b -> ~ In (OnError x) b) -> upto_terminal l = map OnNext vs ++ [OnError x].
Proof.
  revert vs. induction l as [|n l IH]; intros vs H Hn; [destruct vs; discriminate|].
  destruct n as [a|e|]; cbn in H.
  - destruct vs as [|v vs]; [discriminate|]. injection H as -> H. cbn. f_equal. apply IH; [exact H|].
    intros a b E. apply (Hn (OnNext v :: a) b). now rewrite E.
  - destruct vs as [|v vs]; [|discriminate]. injection H as -> _. reflexivity.
  - exfalso. apply (Hn [] l eq_refl). apply (proj1 (filter_In not_done (OnError x) l)). rewrite H. apply in_or_app. right. now left.
Qed.

Lemma log_step O A maxc (s : mstate O A) l s' : mstep maxc s l = Some s' ->
  exists es, m_log s' = m_log s ++ es /\ length es <= 1.
Proof.
  intros Hs.
  assert (H0 : exists es, m_log s = m_log s ++ es /\ length es <= 1) by (exists []; rewrite app_nil_r; cbn; auto).
  assert (H1 : forall x, exists es, m_log s ++ [x] = m_log s ++ es /\ length es <= 1) by (intros x; exists [x]; auto).
  destruct l as [[o|e|]|k n| | |e]; cbn [mstep] in Hs; try (injection Hs as <-; cbn; auto; fail).
  - destruct (begun k s); [|discriminate]. injection Hs as <-. destruct n; cbn; auto.
  - unfold work in Hs. destruct (m_phase s) as [|l q|[|k rest]| |]; try discriminate.
    + destruct (m_box s) as [|m r]; [discriminate|]. injection Hs as <-. destruct m; cbn.
      * destruct (room _ _); cbn; auto.
      * destruct (m_queue s); [|cbn; auto]. destruct (remove_key k (m_subs s)); [|cbn; auto]. destruct (m_stopped s); cbn; auto.
      * destruct (m_subs s); cbn; auto.
      * destruct (m_subs s); cbn; auto.
    + injection Hs as <-. cbn. auto.
    + injection Hs as <-. destruct rest; cbn; auto.
  - destruct (m_phase s) as [|l q|[|k rest]| |]; try discriminate; injection Hs as <-; cbn; auto.
Qed.

Lemma outer_snoc O A (h : list (mlabel O A)) l : outer_calls (h ++ [l]) = outer_calls h ++ outer_calls [l].
Proof. unfold outer_calls. now rewrite flat_map_app. Qed.

Lemma grammatical_last A (l : list (notif A)) x : grammatical (l ++ [x]) -> grammatical l /\ ~ In OnCompleted l.
Proof.
  intros H. split; [eapply grammatical_prefix; [apply prefix_app|exact H]|].
  destruct H as (vs & e & H). unfold trace in H. intros Hin.
  assert (Hl : l = map OnNext (removelast (vs ++ match e with Open => [] | _ => vs end)) \/ exists ws, l = map OnNext ws).
  { right. destruct e.
    - rewrite app_nil_r in H. exists (removelast vs). rewrite <- (removelast_last l x), H. clear.
      induction vs as [|v [|w vs] IH]; [reflexivity|reflexivity|]. cbn [map removelast] in *. now rewrite IH.
    - apply app_inj_tail in H as [-> _]. eauto.
    - apply app_inj_tail in H as [-> _]. eauto. }
  destruct Hl as [->|[ws ->]]; apply in_map_iff in Hin as (v & Hv & _); discriminate.
Qed.

Lemma completion_last O A maxc h (s : mstate O A) : (0 <= maxc)%Z -> mreach maxc h s -> grammatical (outer_calls h) ->
  quiet_after_completion h -> In OnCompleted (requests (m_log s)) -> exists a, requests (m_log s) = a ++ [OnCompleted].
Proof.
  intros Hc. induction 1 as [|h s l s' H IH Hs]; intros Hg Hq Hin; [contradiction|].
  rewrite outer_snoc in Hg.
  assert (Hg0 : grammatical (outer_calls h)) by (eapply grammatical_prefix; [apply prefix_app|exact Hg]).
  pose proof (quiet_app _ Hq) as Hq0.
  destruct (log_step _ _ _ Hs) as (es & E & Hlen). rewrite E in *.
  assert (Er : requests (m_log s ++ es) = requests (m_log s) ++ requests es) by (unfold requests; apply flat_map_app).
  rewrite Er in *. apply in_app_or in Hin as [Hin|Hin].
  - destruct (IH Hg0 Hq0 Hin) as [a Ha].
    destruct (completes_only_if Hc H Hg0 Hin) as (Ho & _ & Hk).
    assert (Hend : m_phase s = WEnded).
    { apply closes_requests in Hin. destruct (reach_inv H) as [[p L]|[[p G]|D]].
      - rewrite (lv_closes L) in Hin. destruct (m_phase s); congruence.
      - rewrite (gn_closes G) in Hin. congruence.
      - rewrite (dd_closes D) in Hin. congruence. }
    assert (Hes : requests es = []).
    { destruct l as [[o|e|]|k n| | |e]; cbn [mstep] in Hs.
      - injection Hs as <-. cbn in E. rewrite <- (app_nil_r (m_log s)) in E at 1. apply app_inv_head in E as <-. reflexivity.
      - exfalso. apply grammatical_last in Hg as [_ Hg]. apply Hg. unfold outer_calls. apply in_flat_map. eexists. split; [exact Ho|now left].
      - injection Hs as <-. cbn in E. rewrite <- (app_nil_r (m_log s)) in E at 1. apply app_inv_head in E as <-. reflexivity.
      - destruct (begun k s) eqn:B; [|discriminate]. exfalso. apply (Hq h k n [] eq_refl). apply Hk. now apply begun_keys.
      - injection Hs as <-. cbn in E. rewrite <- (app_nil_r (m_log s)) in E at 1. apply app_inv_head in E as <-. reflexivity.
      - unfold work in Hs. rewrite Hend in Hs. discriminate.
      - rewrite Hend in Hs. discriminate. }
    rewrite Hes, app_nil_r. eauto.
  - destruct es as [|x [|y es]]; [contradiction| |cbn in Hlen; lia].
    destruct x as [k o|k|n]; cbn in Hin; try contradiction. destruct Hin as [->|[]]. eauto.
Qed.

Lemma produced_sends O A (h : list (mlabel O A)) : (forall x, ~ In (OnError x) (produced h)) -> produced h = map OnNext (map snd (sends h)).
Proof.
  unfold produced, sends. induction h as [|l h IH]; intros Hn; [reflexivity|]. cbn in *.
  assert (Hn' : forall x, ~ In (OnError x) (flat_map (fun l : mlabel O A => match l with
                       | LInner _ (OnNext a) => [OnNext a]
                       | LInner _ (OnError e) | LOuter (OnError e) => [OnError e]
                       | _ => []
                       end) h)) by (intros x Hx; apply (Hn x); apply in_or_app; now right).
  rewrite !map_app, <- IH by exact Hn'.
  destruct l as [[o|e|]|k [a|e|]| | |e]; try reflexivity; exfalso; apply (Hn e); now left.
Qed.

Lemma completed_requests O A maxc h (s : mstate O A) : (0 <= maxc)%Z -> mreach maxc h s -> grammatical (outer_calls h) ->
  quiet_after_completion h -> (forall x, ~ In (OnError x) (produced h)) -> In OnCompleted (requests (m_log s)) ->
  requests (m_log s) = trace (map snd (sends h)) Completed.
Proof.
  intros Hc H Hg Hq He Hin. destruct (completion_last Hc H Hg Hq Hin) as [a Ha].
  pose proof (forwards H) as Hf. rewrite Ha, filter_app in Hf. cbn in Hf. rewrite app_nil_r in Hf.
  rewrite filter_eq_all in Hf.
  - rewrite Ha, Hf. unfold trace. f_equal. apply produced_sends, He.
  - intros n Hn. destruct n; try reflexivity. exfalso.
    apply (completes_once a [] H Ha). rewrite app_nil_r. exact Hn.
Qed.
