(** * Invariants of switch_latest. *)
From Verif Require Export Switch Merge2Proofs.
From Coq Require Import Sorting.Sorted.
Set Implicit Arguments.
Local Arguments Nat.sub : simpl never.

Lemma sorted_snoc (l : list nat) k : StronglySorted le l -> (forall j, In j l -> j <= k) -> StronglySorted le (l ++ [k]).
Proof.
  induction 1 as [|x l H IH F]; cbn; intros Hk; [repeat constructor|].
  constructor; [apply IH; auto|]. apply Forall_app. split; [exact F|]. repeat constructor. apply Hk. now left.
Qed.

Section P.
  Context {O A : Type}.
  Implicit Types (h : list (mlabel O A)) (s : sstate O A) (p : list (mmsg O)).

  Definition sposts h : list (mmsg O) :=
    flat_map (fun l => match l with
      | LOuter (OnNext o) => [MInner o]
      | LCancel => [MDispose]
      | LOuter OnCompleted => [MOuterDone]
      | LInner k OnCompleted => [MInnerDone k]
      | _ => []
      end) h.
  Lemma sposts_snoc h l : sposts (h ++ [l]) = sposts h ++ sposts [l].
  Proof. unfold sposts. now rewrite flat_map_app. Qed.
  Lemma sposts_inners h : inners (sposts h) = arrived h.
  Proof.
    unfold inners, sposts, arrived. induction h as [|l h IH]; [reflexivity|]. cbn. rewrite flat_map_app, IH.
    destruct l as [[o|e|]|k [a|e|]| | |]; reflexivity.
  Qed.
  Lemma sposts_dones h : dones (sposts h) = completions h.
  Proof.
    unfold dones, sposts, completions. induction h as [|l h IH]; [reflexivity|]. cbn. rewrite flat_map_app, IH.
    destruct l as [[o|e|]|k [a|e|]| | |]; reflexivity.
  Qed.

  (** Number of the last subscription. *)
  Definition last_id s := match w_phase s with SSub => S (w_id s) | _ => w_id s end.

  Definition handled h s k : Prop := In k (disposed (w_log s)) \/ In k (completions h).

  Record SInv h s : Prop := {
    si_keys : exists n, keys (w_log s) = seq 1 n /\ (w_phase s <> SDead -> n = last_id s) /\
                 (forall j, 1 <= j < n -> handled h s j) /\ w_id s <= n;
    si_disposed : NoDup (disposed (w_log s)) /\ (forall j, In j (disposed (w_log s)) -> 1 <= j <= w_id s);
    si_cur : match w_phase s with
             | SIdle => match w_cur s with
                        | Some k => k = w_id s /\ 1 <= k /\ ~ In k (disposed (w_log s))
                        | None => w_id s = 0 \/ handled h s (w_id s)
                        end
             | SSwitch _ | SDisp => w_id s = 0 \/ handled h s (w_id s)
             | SSub => w_id s = 0 \/ handled h s (w_id s)
             | SDead => True
             end
  }.

  Lemma handled_snoc h s l s' k : handled h s k -> prefix (w_log s) (w_log s') -> handled (h ++ [l]) s' k.
  Proof.
    intros [H|H] [es E]; [left|right].
    - rewrite E. unfold disposed. rewrite flat_map_app. apply in_or_app. now left.
    - rewrite completions_snoc. apply in_or_app. now left.
  Qed.

  Lemma sinv_same h s l s' : SInv h s -> w_phase s' = w_phase s -> w_cur s' = w_cur s -> w_id s' = w_id s ->
    keys (w_log s') = keys (w_log s) -> disposed (w_log s') = disposed (w_log s) -> prefix (w_log s) (w_log s') ->
    SInv (h ++ [l]) s'.
  Proof.
    intros [(n & K1 & K2 & K3 & K4) [D1 D2] C] Ep Ec Ei Ek Ed Hp.
    constructor.
    - exists n. rewrite Ek, Ep, Ei. unfold last_id in *. rewrite Ep, Ei. repeat split; auto.
      intros j Hj. eapply handled_snoc; [apply K3, Hj|exact Hp].
    - rewrite Ed, Ei. auto.
    - rewrite Ep, Ec, Ei, Ed. destruct (w_phase s); auto; [destruct (w_cur s); auto|..]; destruct C as [C|C]; auto; right; eapply handled_snoc; eauto.
  Qed.

  Lemma skeys_req (l : list (effect O A)) n : keys (l ++ [EReq n]) = keys l /\ disposed (l ++ [EReq n]) = disposed l.
  Proof. unfold keys, disposed. now rewrite !flat_map_snoc, !app_nil_r. Qed.
  Lemma skeys_sub (l : list (effect O A)) k o : keys (l ++ [ESub k o]) = keys l ++ [k] /\ disposed (l ++ [ESub k o]) = disposed l.
  Proof. unfold keys, disposed. now rewrite !flat_map_snoc, !app_nil_r. Qed.
  Lemma skeys_disp (l : list (effect O A)) k : keys (l ++ [EDispose k]) = keys l /\ disposed (l ++ [EDispose k]) = disposed l ++ [k].
  Proof. unfold keys, disposed. now rewrite !flat_map_snoc, !app_nil_r. Qed.

  Lemma sinv_step h s l s' : (exists p, sposts h = p ++ w_box s) -> SInv h s -> sstep s l = Some s' ->
    SInv (h ++ [l]) s' /\ (exists p, sposts (h ++ [l]) = p ++ w_box s').
  Proof.
    intros [p Hp] I Hs.
    assert (Hpost : forall m, sposts [l] = [m] -> SInv (h ++ [l]) (spost m s) /\ (exists p, sposts (h ++ [l]) = p ++ w_box (spost m s))).
    { intros m Hm. split.
      - eapply sinv_same; try eassumption; try reflexivity. apply prefix_refl.
      - exists p. rewrite sposts_snoc, Hm, Hp. cbn. now rewrite app_assoc. }
    assert (Hreq : forall n, sposts [l] = [] -> SInv (h ++ [l]) (semit (EReq n) s) /\ (exists p, sposts (h ++ [l]) = p ++ w_box (semit (EReq n) s))).
    { intros n Hm. split.
      - eapply sinv_same; try eassumption; try reflexivity; [apply skeys_req|apply skeys_req|apply prefix_app].
      - exists p. rewrite sposts_snoc, Hm, Hp. cbn. now rewrite app_nil_r. }
    destruct l as [[o|e|]|k n| | |e]; cbn [sstep] in Hs; try (injection Hs as <-; auto; fail).
    - destruct (sbegun k s); [|discriminate]. injection Hs as <-. destruct n; auto.
    - (* work *)
      assert (Hl : sposts (h ++ [LWork]) = p ++ w_box s) by (rewrite sposts_snoc; cbn; now rewrite app_nil_r).
      destruct I as [(n & K1 & K2 & K3 & K4) [D1 D2] C].
      unfold swork in Hs. destruct s as [box cur stopped id ph log]. unfold last_id in *. cbn in *.
      destruct ph as [|o| | |]; try discriminate.
      + destruct box as [|m r]; [discriminate|]. injection Hs as <-. specialize (K2 ltac:(discriminate)). subst n.
        assert (Hl' : sposts (h ++ [LWork]) = (p ++ [m]) ++ r) by (rewrite Hl, <- app_assoc; reflexivity).
        destruct m as [o|k| |]; cbn.
        * destruct cur as [k|]; cbn.
          -- destruct C as (-> & C1 & C2). split; [|eauto]. destruct (skeys_disp log id) as [E1 E2].
             constructor; cbn; unfold last_id; cbn; rewrite ?E1, ?E2.
             ++ exists id. repeat split; auto. intros j Hj. eapply handled_snoc; [apply K3, Hj|]. cbn. apply prefix_app.
             ++ split; [apply NoDup_snoc; assumption|]. intros j Hj. apply in_app_or in Hj as [Hj|[<-|[]]]; auto.
             ++ right. left. cbn. rewrite E2. apply in_or_app. right. now left.
          -- split; [|eauto]. destruct (skeys_sub log (S id) o) as [E1 E2].
             constructor; cbn; unfold last_id; cbn; rewrite ?E1, ?E2.
             ++ exists (S id). rewrite K1, seq_S. repeat split; auto.
                intros j Hj. destruct (Nat.eq_dec j id) as [->|].
                ** destruct C as [C|C]; [lia|]. eapply handled_snoc; [exact C|apply prefix_app].
                ** eapply handled_snoc; [apply K3; lia|apply prefix_app].
             ++ auto.
             ++ destruct C as [C|C]; auto. right. eapply handled_snoc; [exact C|apply prefix_app].
        * destruct (stopped && (k =? id)) eqn:E; cbn.
          -- apply andb_true_iff in E as [-> E]. apply Nat.eqb_eq in E. subst k.
             split; [|eauto]. destruct (skeys_req log OnCompleted) as [E1 E2].
             constructor; cbn; unfold last_id; cbn; rewrite ?E1, ?E2; auto.
             ++ exists id. repeat split; auto. intros j Hj. eapply handled_snoc; [apply K3, Hj|apply prefix_app].
             ++ right. right. rewrite completions_snoc. apply in_or_app. left.
                rewrite <- sposts_dones, Hp, dones_app. apply in_or_app. right. now left.
          -- split; [|eauto]. constructor; cbn; unfold last_id; cbn; auto.
             ++ exists id. repeat split; auto. intros j Hj. eapply handled_snoc; [apply K3, Hj|apply prefix_refl].
             ++ destruct cur; auto. destruct C as [C|C]; auto. right. eapply handled_snoc; [exact C|apply prefix_refl].
        * split; [|destruct cur; eauto]. destruct (skeys_req log OnCompleted) as [E1 E2].
          destruct cur; constructor; cbn; unfold last_id; cbn; rewrite ?E1, ?E2; auto.
          -- exists id. repeat split; auto. intros j Hj. eapply handled_snoc; [apply K3, Hj|apply prefix_refl].
          -- exists id. repeat split; auto. intros j Hj. eapply handled_snoc; [apply K3, Hj|apply prefix_app].
          -- destruct C as [C|C]; auto. right. eapply handled_snoc; [exact C|apply prefix_app].
        * destruct cur as [k|]; cbn.
          -- destruct C as (-> & C1 & C2). split; [|eauto]. destruct (skeys_disp log id) as [E1 E2].
             constructor; cbn; unfold last_id; cbn; rewrite ?E1, ?E2.
             ++ exists id. repeat split; auto. intros j Hj. eapply handled_snoc; [apply K3, Hj|]. cbn. apply prefix_app.
             ++ split; [apply NoDup_snoc; assumption|]. intros j Hj. apply in_app_or in Hj as [Hj|[<-|[]]]; auto.
             ++ right. left. cbn. rewrite E2. apply in_or_app. right. now left.
          -- split; [|eauto]. constructor; cbn; unfold last_id; cbn; auto.
             ++ exists id. repeat split; auto. intros j Hj. eapply handled_snoc; [apply K3, Hj|apply prefix_refl].
             ++ destruct C as [C|C]; auto. right. eapply handled_snoc; [exact C|apply prefix_refl].
      + injection Hs as <-. specialize (K2 ltac:(discriminate)). subst n. split; [|eauto].
        destruct (skeys_sub log (S id) o) as [E1 E2].
        constructor; cbn; unfold last_id; cbn; rewrite ?E1, ?E2.
        * exists (S id). rewrite K1, seq_S. repeat split; auto.
          intros j Hj. destruct (Nat.eq_dec j id) as [->|].
          -- destruct C as [C|C]; [lia|]. eapply handled_snoc; [exact C|apply prefix_app].
          -- eapply handled_snoc; [apply K3; lia|apply prefix_app].
        * auto.
        * destruct C as [C|C]; auto. right. eapply handled_snoc; [exact C|apply prefix_app].
      + injection Hs as <-. specialize (K2 ltac:(discriminate)). subst n. split; [|eauto].
        constructor; cbn; unfold last_id; cbn.
        * exists (S id). repeat split; auto. intros j Hj. eapply handled_snoc; [apply K3, Hj|apply prefix_refl].
        * split; [exact D1|]. intros j Hj. apply D2 in Hj. lia.
        * repeat split; [lia|]. intros Hj. apply D2 in Hj. lia.
      + injection Hs as <-. specialize (K2 ltac:(discriminate)). subst n. split; [|eauto].
        constructor; cbn; unfold last_id; cbn; auto.
        * exists id. repeat split; auto. intros j Hj. eapply handled_snoc; [apply K3, Hj|apply prefix_refl].
        * destruct C as [C|C]; auto. right. eapply handled_snoc; [exact C|apply prefix_refl].
    - assert (Hl : sposts (h ++ [LFail e]) = p ++ w_box s) by (rewrite sposts_snoc; cbn; now rewrite app_nil_r).
      destruct I as [(n & K1 & K2 & K3 & K4) [D1 D2] C].
      assert (s' = sat SDead s) as -> by (destruct (w_phase s); try discriminate; now injection Hs as <-).
      split; [|eauto]. constructor; cbn; auto.
      exists n. repeat split; auto; [congruence|]. intros j Hj. eapply handled_snoc; [apply K3, Hj|apply prefix_refl].
  Qed.

  Lemma sreach_inv h s : sreach h s -> SInv h s /\ (exists p, sposts h = p ++ w_box s).
  Proof.
    induction 1 as [|h s l s' H [IH1 IH2] Hs].
    - split; [|now exists []]. constructor; cbn; auto.
      + exists 0. repeat split; auto. intros j Hj. lia.
      + split; [constructor|contradiction].
    - eapply sinv_step; eassumption.
  Qed.

  (** ** C30 *)
  Lemma one_at_a_time h s : sreach h s ->
    (forall j k, In j (keys (w_log s)) -> In k (keys (w_log s)) -> j < k -> In j (disposed (w_log s)) \/ In j (completions h)) /\
    NoDup (disposed (w_log s)) /\ incl (disposed (w_log s)) (keys (w_log s)) /\ NoDup (keys (w_log s)).
  Proof.
    intros H. apply sreach_inv in H as [[(n & K1 & K2 & K3 & K4) [D1 D2] C] _]. rewrite K1. repeat split; auto.
    - intros j k Hj Hk Hlt. apply in_seq in Hj. apply in_seq in Hk. apply K3. lia.
    - intros j Hj. apply D2 in Hj. apply in_seq. lia.
    - apply seq_NoDup.
  Qed.

  Lemma s_in_order h s : sreach h s -> prefix (subscribed (w_log s)) (arrived h) /\
    ((forall e, ~ In (LFail e) h) -> w_phase s <> SDead /\ subscribed (w_log s) ++ swaiting s = arrived h).
  Proof.
    intros H.
    assert (Hm : (w_phase s <> SDead -> subscribed (w_log s) ++ swaiting s = arrived h) /\
                 prefix (subscribed (w_log s)) (arrived h) /\ ((forall e, ~ In (LFail e) h) -> w_phase s <> SDead));
      [|destruct Hm as (H1 & H2 & H3); auto].
    induction H as [|h s l s' H IH Hs]; [repeat split; [apply prefix_nil|discriminate]|].
    destruct IH as (IH1 & IH2 & IH3).
    assert (Hgen : (w_phase s' <> SDead -> w_phase s <> SDead /\ subscribed (w_log s') ++ swaiting s' = (subscribed (w_log s) ++ swaiting s) ++ arrived [l]) ->
                   (w_phase s' = SDead -> subscribed (w_log s') = subscribed (w_log s) /\ (w_phase s = SDead \/ exists e, l = LFail e)) ->
       (w_phase s' <> SDead -> subscribed (w_log s') ++ swaiting s' = arrived (h ++ [l])) /\
       prefix (subscribed (w_log s')) (arrived (h ++ [l])) /\ ((forall e, ~ In (LFail e) (h ++ [l])) -> w_phase s' <> SDead)).
    { intros G1 G2. rewrite arrived_snoc.
      assert (F1 : w_phase s' <> SDead -> subscribed (w_log s') ++ swaiting s' = arrived h ++ arrived [l]).
      { intros E. destruct (G1 E) as [E0 ->]. now rewrite (IH1 E0). }
      split; [exact F1|]. split.
      - assert (w_phase s' = SDead \/ w_phase s' <> SDead) as [E|E] by (destruct (w_phase s'); auto; right; discriminate).
        + destruct (G2 E) as [-> _]. eapply prefix_trans; [exact IH2|apply prefix_app].
        + rewrite <- (F1 E). apply prefix_app.
      - intros Hf E. destruct (G2 E) as [_ [E0|[e ->]]].
        + apply IH3; [|exact E0]. intros e Hin. apply (Hf e). apply in_or_app. now left.
        + apply (Hf e). apply in_or_app. right. now left. }
    assert (Hreq : forall (lg : list (effect O A)) n, subscribed (lg ++ [EReq n]) = subscribed lg) by (intros; unfold subscribed; now rewrite flat_map_snoc, app_nil_r).
    assert (Hdis : forall (lg : list (effect O A)) n, subscribed (lg ++ [EDispose n]) = subscribed lg) by (intros; unfold subscribed; now rewrite flat_map_snoc, app_nil_r).
    assert (Hsub : forall (lg : list (effect O A)) n o, subscribed (lg ++ [ESub n o]) = subscribed lg ++ [o]) by (intros; unfold subscribed; now rewrite flat_map_snoc).
    apply Hgen; clear Hgen IH1 IH2 IH3; intros E.
    - unfold swaiting. destruct s as [box cur stopped id ph log]. cbn in *.
      destruct l as [[o|e|]|k n| | |e]; cbn [sstep] in Hs.
      + injection Hs as <-. cbn in *. split; [exact E|]. rewrite flat_map_app. cbn. now rewrite <- !app_assoc.
      + injection Hs as <-. cbn in *. split; [exact E|]. now rewrite Hreq, app_nil_r.
      + injection Hs as <-. cbn in *. split; [exact E|]. rewrite flat_map_app. cbn. now rewrite !app_nil_r.
      + destruct (sbegun k _); [|discriminate]. injection Hs as <-. cbn in *. destruct n; cbn in *; (split; [exact E|]); rewrite ?Hreq, ?flat_map_app; cbn; now rewrite !app_nil_r.
      + injection Hs as <-. cbn in *. split; [exact E|]. rewrite flat_map_app. cbn. now rewrite !app_nil_r.
      + unfold swork in Hs. cbn in Hs. cbn [arrived flat_map app]. rewrite app_nil_r.
        destruct ph as [|o| | |]; try discriminate; (split; [discriminate|]).
        * destruct box as [|m r]; [discriminate|]. injection Hs as <-. destruct m; cbn.
          -- destruct cur; cbn; rewrite ?Hdis, ?Hsub; [reflexivity|]. now rewrite <- app_assoc.
          -- destruct (stopped && (k =? id)); cbn; now rewrite ?Hreq.
          -- destruct cur; cbn; now rewrite ?Hreq.
          -- destruct cur; cbn; now rewrite ?Hdis.
        * injection Hs as <-. cbn. rewrite Hsub. now rewrite <- app_assoc.
        * injection Hs as <-. reflexivity.
        * injection Hs as <-. reflexivity.
      + cbn in Hs. destruct ph; try discriminate; injection Hs as <-; exfalso; apply E; reflexivity.
    - destruct s as [box cur stopped id ph log]. cbn in *.
      destruct l as [[o|e|]|k n| | |e]; cbn [sstep] in Hs.
      + injection Hs as <-. cbn in *. auto.
      + injection Hs as <-. cbn in *. auto.
      + injection Hs as <-. cbn in *. auto.
      + destruct (sbegun k _); [|discriminate]. injection Hs as <-. destruct n; cbn in *; auto.
      + injection Hs as <-. cbn in *. auto.
      + unfold swork in Hs. cbn in Hs. destruct ph as [|o| | |]; try discriminate.
        * destruct box as [|m r]; [discriminate|]. injection Hs as <-. exfalso. destruct m; cbn in E.
          -- destruct cur; discriminate.
          -- destruct (stopped && (k =? id)); discriminate.
          -- destruct cur; discriminate.
          -- destruct cur; discriminate.
        * injection Hs as <-. discriminate.
        * injection Hs as <-. discriminate.
        * injection Hs as <-. discriminate.
      + cbn in Hs. destruct ph; try discriminate; injection Hs as <-; eauto.
  Qed.

  (** ** Worker steps *)
  Definition smeasure s : nat :=
    3 * length (w_box s) + match w_phase s with SSwitch _ => 2 | SSub | SDisp => 1 | _ => 0 end.
  Lemma swork_measure s s' : swork s = Some s' -> smeasure s' < smeasure s.
  Proof.
    unfold swork, smeasure. destruct s as [box cur stopped id ph log]; cbn. destruct ph as [|o| | |]; try discriminate.
    - destruct box as [|m r]; [discriminate|]. intros H. injection H as <-. destruct m; cbn.
      + destruct cur; cbn; lia.
      + destruct (stopped && (k =? id)); cbn; lia.
      + destruct cur; cbn; lia.
      + destruct cur; cbn; lia.
    - intros H. injection H as <-. cbn. lia.
    - intros H. injection H as <-. cbn. lia.
    - intros H. injection H as <-. cbn. lia.
  Qed.

  Lemma s_worker_rests h s : sreach h s -> exists n s', sreach (h ++ repeat LWork n) s' /\ sresting s'.
  Proof.
    remember (smeasure s) as m eqn:Em. revert h s Em. induction m as [m IH] using lt_wf_ind. intros h s -> H.
    destruct (swork s) as [s1|] eqn:E.
    - destruct (IH _ (swork_measure _ E) (h ++ [LWork]) s1 eq_refl) as (n & s' & H1 & H2).
      + eapply sr_snoc; [exact H|exact E].
      + exists (S n), s'. split; [|exact H2]. cbn. now rewrite <- app_assoc in H1.
    - exists 0, s. cbn. rewrite app_nil_r. auto.
  Qed.

  (** ** Generic invariants over the messages processed. *)
  Section Processed.
    Variable I : list (mmsg O) -> sstate O A -> Prop.
    Hypothesis I_init : I [] s_init.
    Hypothesis I_post : forall p s m, I p s -> I p (spost m s).
    Hypothesis I_req : forall p s n, n <> OnCompleted -> I p s -> I p (semit (EReq n) s).
    Hypothesis I_recv : forall p s m r, w_phase s = SIdle -> w_box s = m :: r -> I p s ->
      I (p ++ [m]) (supdate m (SState r (w_cur s) (w_stopped s) (w_id s) SIdle (w_log s))).
    Hypothesis I_step : forall p s s', w_phase s <> SIdle -> swork s = Some s' -> I p s -> I p s'.
    Hypothesis I_fail : forall p s, w_phase s <> SIdle -> w_phase s <> SDead -> I p s -> I p (sat SDead s).

    Lemma processed_ind h s : sreach h s -> exists p, sposts h = p ++ w_box s /\ I p s.
    Proof.
      induction 1 as [|h s l s' H (p & Hp & IH) Hs]; [exists []; auto|].
      rewrite sposts_snoc.
      assert (Hpost : forall m, sposts [l] = [m] -> exists q, sposts h ++ sposts [l] = q ++ w_box (spost m s) /\ I q (spost m s)).
      { intros m ->. exists p. rewrite Hp, <- app_assoc. auto. }
      destruct l as [[o|e|]|k n| | |e]; cbn [sstep] in Hs; try (injection Hs as <-; apply Hpost; reflexivity).
      - injection Hs as <-. exists p. cbn. rewrite app_nil_r. split; auto. apply I_req; auto. discriminate.
      - destruct (sbegun k s); [|discriminate]. injection Hs as <-. destruct n; [| |apply Hpost; reflexivity].
        + exists p. cbn. rewrite app_nil_r. split; auto. apply I_req; auto. discriminate.
        + exists p. cbn. rewrite app_nil_r. split; auto. apply I_req; auto. discriminate.
      - cbn [sposts flat_map app]. rewrite app_nil_r.
        assert (w_phase s = SIdle \/ w_phase s <> SIdle) as [E|E] by (destruct (w_phase s); auto; right; discriminate).
        + pose proof Hs as Hs0. unfold swork in Hs. rewrite E in Hs. destruct (w_box s) as [|m r] eqn:Eb; [discriminate|].
          injection Hs as <-. exists (p ++ [m]). split; [|apply I_recv; auto].
          rewrite Hp, <- app_assoc. f_equal. cbn. f_equal. clear.
          destruct m; cbn; [destruct (w_cur s)|destruct (w_stopped s && (k =? w_id s))|destruct (w_cur s)|destruct (w_cur s)]; reflexivity.
        + exists p. split; [|eapply I_step; eauto]. rewrite Hp. f_equal. clear - Hs E. unfold swork in Hs.
          destruct (w_phase s); try congruence; try discriminate; injection Hs as <-; reflexivity.
      - cbn [sposts flat_map app]. rewrite app_nil_r. exists p.
        assert (w_phase s <> SIdle /\ w_phase s <> SDead /\ s' = sat SDead s) as (E1 & E2 & ->).
        { destruct (w_phase s); try discriminate; repeat split; try discriminate; now injection Hs as <-. }
        auto.
    Qed.
  End Processed.

  (** ** Disposal *)
  Definition last_disp p : bool :=
    fold_left (fun b m => match m with MInner _ => false | MDispose => true | _ => b end) p false.
  Lemma last_disp_snoc p m : last_disp (p ++ [m]) = match m with MInner _ => false | MDispose => true | _ => last_disp p end.
  Proof. unfold last_disp. now rewrite fold_left_app. Qed.

  Definition DInv p s : Prop :=
    match w_phase s with
    | SIdle => w_cur s <> None -> last_disp p = false
    | SSwitch _ | SSub => last_disp p = false
    | _ => True
    end.
  Lemma dinv h s : sreach h s -> exists p, sposts h = p ++ w_box s /\ DInv p s.
  Proof.
    apply processed_ind; clear h s; unfold DInv; cbn.
    - congruence.
    - auto.
    - auto.
    - intros p s m r E Eb I. rewrite E in I. rewrite last_disp_snoc. destruct m; cbn.
      + destruct (w_cur s); cbn; auto.
      + destruct (w_stopped s && (k =? w_id s)); cbn; auto; try congruence.
      + destruct (w_cur s); cbn; auto; try congruence.
      + destruct (w_cur s); cbn; auto; try congruence.
    - intros p s s' E Hs I. unfold swork in Hs. destruct (w_phase s); try congruence; injection Hs as <-; cbn; auto; try congruence.
    - auto.
  Qed.

  Lemma last_disp_app p1 p2 : last_disp (p1 ++ p2) = match inners p2 with [] => if existsb (fun m => match m with MDispose => true | _ => false end) p2 then true else last_disp p1 | _ => last_disp p2 end.
  Proof.
    induction p2 as [|m p2 IH] using rev_ind; [cbn; now rewrite app_nil_r|].
    rewrite app_assoc, !last_disp_snoc, existsb_app, IH. unfold inners. rewrite flat_map_app. cbn.
    destruct m; cbn; rewrite ?app_nil_r, ?orb_false_r; try reflexivity.
    - destruct (flat_map _ p2); reflexivity.
    - destruct (flat_map _ p2); [now rewrite orb_true_r|reflexivity].
  Qed.

  Lemma s_disposed h1 h2 s : sreach (h1 ++ LCancel :: h2) s -> arrived h2 = [] -> never_fails (h1 ++ LCancel :: h2) -> sresting s ->
    forall k, In k (keys (w_log s)) -> In k (disposed (w_log s)) \/ In k (completions (h1 ++ LCancel :: h2)).
  Proof.
    intros H Ha Hf Hr k Hk.
    destruct (s_in_order H) as [_ Ho]. destruct (Ho Hf) as [Hd _].
    destruct (dinv H) as (p & Hp & D). destruct (sreach_inv H) as [[(n & K1 & K2 & K3 & K4) _ C] _].
    assert (w_phase s = SIdle /\ w_box s = []) as [E Eb].
    { unfold sresting, swork in Hr. destruct (w_phase s); try discriminate; [|congruence]. destruct (w_box s); [auto|discriminate]. }
    rewrite Eb, app_nil_r in Hp.
    assert (last_disp p = true).
    { rewrite <- Hp. unfold sposts. rewrite flat_map_app. fold (sposts h1). rewrite last_disp_app. cbn [flat_map app].
      unfold inners. cbn. fold (sposts h2). fold (inners (sposts h2)). now rewrite sposts_inners, Ha. }
    unfold DInv in D. rewrite E in *. destruct (w_cur s); [specialize (D ltac:(discriminate)); congruence|].
    rewrite (K2 ltac:(discriminate)) in *. unfold last_id in *. rewrite E in *. rewrite K1 in Hk. apply in_seq in Hk.
    destruct (Nat.eq_dec k (w_id s)) as [->|]; [destruct C as [C|C]; [lia|exact C]|]. apply K3. lia.
  Qed.

  (** ** Completion *)
  Definition early p : Prop := exists p1 p2, p = p1 ++ MOuterDone :: p2 /\ inners p1 = [].
  Lemma early_snoc p m : early (p ++ [m]) <-> early p \/ (m = MOuterDone /\ inners p = []).
  Proof.
    split.
    - intros (p1 & p2 & E & Hi). destruct p2 as [|x p2 _] using rev_ind.
      + apply app_inj_tail in E as [<- ->]. auto.
      + left. change (p1 ++ MOuterDone :: p2 ++ [x]) with (p1 ++ (MOuterDone :: p2) ++ [x]) in E. rewrite app_assoc in E.
        apply app_inj_tail in E as [-> _]. now exists p1, p2.
    - intros [(p1 & p2 & -> & Hi)|[-> Hi]].
      + exists p1, (p2 ++ [m]). split; [now rewrite <- app_assoc|exact Hi].
      + now exists p, [].
  Qed.

  Lemma inners_snoc p m : inners (p ++ [m]) = inners p ++ inners [m].
  Proof. unfold inners. now rewrite flat_map_app. Qed.
  Lemma req_snoc (l : list (effect O A)) x : requests (l ++ [x]) = requests l ++ requests [x].
  Proof. unfold requests. now rewrite flat_map_app. Qed.
  Definition CInv p s : Prop :=
    ~ In MDispose p ->
    w_stopped s = false /\ w_phase s <> SDisp /\
    match w_phase s with
    | SIdle => w_cur s = None <-> inners p = []
    | _ => inners p <> []
    end /\ (In OnCompleted (requests (w_log s)) <-> early p).
  Lemma cinv h s : sreach h s -> exists p, sposts h = p ++ w_box s /\ CInv p s.
  Proof.
    apply processed_ind; clear h s; unfold CInv; cbn.
    - intros _. repeat split; auto; try discriminate; [contradiction|]. intros (p1 & p2 & E & _). now destruct p1.
    - auto.
    - intros p s n Hn I Hd. destruct (I Hd) as (I1 & I2 & I3 & I4). repeat split; auto.
      + rewrite req_snoc, in_app_iff. intros [F|[F|[]]]; [now apply I4|congruence].
      + rewrite req_snoc, in_app_iff. intros F. left. now apply I4.
    - intros p s m r E Eb I Hd. rewrite E in I.
      assert (Hd' : ~ In MDispose p) by (intros F; apply Hd, in_or_app; now left).
      destruct (I Hd') as (I1 & I2 & I3 & I4). rewrite I1.
      assert (Hs : forall x, (forall n, x <> EReq n) -> requests (w_log s ++ [x]) = requests (w_log s)).
      { intros x Hx. rewrite req_snoc. destruct x; cbn; try now rewrite app_nil_r. now destruct (Hx n). }
      rewrite early_snoc, inners_snoc.
      destruct m as [o|k| |]; cbn.
      + destruct (w_cur s); cbn; rewrite Hs by discriminate; (repeat split; auto; try discriminate; [intros F; destruct (inners p); discriminate|tauto|intros [F|[F _]]; [tauto|discriminate]]).
      + rewrite app_nil_r. repeat split; auto; try tauto; try discriminate. intros [F|[F _]]; [tauto|discriminate].
      + rewrite app_nil_r. destruct (w_cur s) as [c|] eqn:Ec; cbn; rewrite ?Ec.
        * repeat split; auto; try tauto; try discriminate.
          intros [F|[_ F]]; [tauto|]. apply I3 in F. congruence.
        * split; [reflexivity|]. split; [discriminate|]. split; [tauto|]. rewrite req_snoc, in_app_iff. cbn. split; [right; split; [reflexivity|now apply I3]|right; now left].
      + exfalso. apply Hd, in_or_app. right. now left.
    - intros p s s' E Hs I Hd. destruct (I Hd) as (I1 & I2 & I3 & I4). unfold swork in Hs.
      destruct (w_phase s); try congruence; injection Hs as <-; cbn.
      + rewrite req_snoc. cbn. rewrite app_nil_r. repeat split; auto; try discriminate; tauto.
      + repeat split; auto; try discriminate; try tauto. 
    - intros p s E1 E2 I Hd. destruct (I Hd) as (I1 & I2 & I3 & I4). repeat split; auto; try discriminate; try tauto.
      destruct (w_phase s); auto; congruence.
  Qed.

  Lemma no_cancel_msg h : ~ In LCancel h -> ~ In MDispose (sposts h).
  Proof.
    intros H F. apply H. unfold sposts in F. apply in_flat_map in F as (l & Hl & F).
    destruct l as [[o|e|]|k [a|e|]| | |]; cbn in F; try contradiction; destruct F as [F|[]]; try discriminate; exact Hl.
  Qed.

  Lemma outer_msg h : In MOuterDone (sposts h) <-> In (LOuter OnCompleted) h.
  Proof.
    unfold sposts. rewrite in_flat_map. split.
    - intros (l & Hl & F). destruct l as [[o|e|]|k [a|e|]| | |]; cbn in F; try contradiction; destruct F as [F|[]]; try discriminate; exact Hl.
    - intros H. exists (LOuter OnCompleted). split; [exact H|now left].
  Qed.

  (** Messages of a grammatical outer source: none after its completion. *)
  Lemma grammatical_late h p1 p2 : grammatical (outer_calls h) -> sposts h = p1 ++ MOuterDone :: p2 -> inners p2 = [].
  Proof.
    intros Hg. revert p1 p2. induction h as [|l h IH] using rev_ind; intros p1 p2 E; [now destruct p1|].
    rewrite sposts_snoc in E.
    assert (Hg' : grammatical (outer_calls h)).
    { unfold outer_calls in Hg. rewrite flat_map_app in Hg. eapply grammatical_prefix; [|exact Hg]. apply prefix_app. }
    destruct (sposts [l]) as [|m [|]] eqn:El.
    - rewrite app_nil_r in E. eapply IH; eauto.
    - destruct p2 as [|x p2 _] using rev_ind; [reflexivity|].
      change (p1 ++ MOuterDone :: p2 ++ [x]) with (p1 ++ (MOuterDone :: p2) ++ [x]) in E. rewrite app_assoc in E.
      apply app_inj_tail in E as [E <-]. pose proof (IH Hg' _ _ E) as Hi. rewrite inners_snoc, Hi. cbn.
      destruct m as [o|k| |]; try reflexivity. exfalso.
      destruct l as [[o'|e|]|k [a|e|]| | |]; try discriminate. injection El as ->.
      assert (In (LOuter OnCompleted) h) as Hin by (apply outer_msg; rewrite E; apply in_or_app; right; now left).
      unfold outer_calls in Hg. rewrite flat_map_app in Hg. cbn in Hg.
      apply grammatical_last in Hg as [_ Hg]. apply Hg. apply in_flat_map. exists (LOuter OnCompleted). split; [exact Hin|now left].
    - exfalso. destruct l as [[o'|e|]|k [a|e|]| | |]; discriminate.
  Qed.

  Lemma s_never_completes h s : sreach h s -> ~ In LCancel h -> grammatical (outer_calls h) -> arrived h <> [] ->
    ~ In OnCompleted (requests (w_log s)).
  Proof.
    intros H Hc Hg Ha F. destruct (cinv H) as (p & Hp & C).
    assert (~ In MDispose p) as Hd by (intros G; apply (no_cancel_msg _ Hc); rewrite Hp; apply in_or_app; now left).
    destruct (C Hd) as (_ & _ & _ & C4). apply C4 in F. clear C C4 Hd. destruct F as (p1 & p2 & -> & Hi).
    rewrite <- app_assoc in Hp. cbn in Hp. pose proof (grammatical_late _ _ _ Hg Hp) as Hl.
    apply Ha. rewrite <- sposts_inners, Hp. unfold inners in *. rewrite flat_map_app, Hi. exact Hl.
  Qed.

  Lemma s_completes_only_if h s : sreach h s -> ~ In LCancel h -> In OnCompleted (requests (w_log s)) -> In (LOuter OnCompleted) h.
  Proof.
    intros H Hc F. destruct (cinv H) as (p & Hp & C).
    assert (~ In MDispose p) as Hd by (intros G; apply (no_cancel_msg _ Hc); rewrite Hp; apply in_or_app; now left).
    destruct (C Hd) as (_ & _ & _ & C4). apply C4 in F. clear C C4 Hd. destruct F as (p1 & p2 & -> & Hi). apply outer_msg. rewrite Hp.
    apply in_or_app. left. apply in_or_app. right. now left.
  Qed.

  Definition EInv p s : Prop :=
    inners p = [] -> w_phase s = SIdle /\ w_cur s = None /\ (In MOuterDone p -> In OnCompleted (requests (w_log s))).
  Lemma einv h s : sreach h s -> exists p, sposts h = p ++ w_box s /\ EInv p s.
  Proof.
    apply processed_ind; clear h s; unfold EInv; cbn.
    - intros _. repeat split; auto; contradiction.
    - auto.
    - intros p s n Hn I Hi. destruct (I Hi) as (I1 & I2 & I3). repeat split; auto. intros F. rewrite req_snoc. apply in_or_app. auto.
    - intros p s m r E Eb I Hi. rewrite inners_snoc in Hi. apply app_eq_nil in Hi as [Hi Hm].
      destruct (I Hi) as (I1 & I2 & I3). rewrite in_app_iff. destruct m; cbn; rewrite ?I2.
      + discriminate.
      + destruct (w_stopped s && (k =? w_id s)); cbn; rewrite ?req_snoc, ?in_app_iff; intuition (try discriminate).
      + cbn. split; [reflexivity|]. split; [reflexivity|]. intros _. rewrite req_snoc. apply in_or_app. right. now left.
      + cbn. intuition (try discriminate).
    - intros p s s' E Hs I Hi. destruct (I Hi). contradiction.
    - intros p s E1 E2 I Hi. destruct (I Hi). contradiction.
  Qed.
  Lemma s_completes_if h s : sreach h s -> arrived h = [] -> sresting s -> In (LOuter OnCompleted) h -> In OnCompleted (requests (w_log s)).
  Proof.
    intros H Ha Hr Ho. destruct (einv H) as (p & Hp & E).
    rewrite <- sposts_inners, Hp in Ha. unfold inners in *. rewrite flat_map_app in Ha. apply app_eq_nil in Ha as [Ha _].
    destruct (E Ha) as (E1 & E2 & E3). unfold sresting, swork in Hr. rewrite E1 in Hr.
    destruct (w_box s); [|discriminate]. apply E3. apply outer_msg in Ho. now rewrite Hp, app_nil_r in Ho.
  Qed.

  (** ** Forwarding *)
  Lemma s_forwards h s : sreach h s ->
    filter (fun n => match n with OnCompleted => false | _ => true end) (requests (w_log s)) = produced h.
  Proof.
    induction 1 as [|h s l s' H IH Hs]; [reflexivity|].
    assert (Hx : forall x, filter (fun n => match n with OnCompleted => false | _ => true end) (requests (w_log s ++ [x])) =
        produced h ++ filter (fun n => match n with OnCompleted => false | _ => true end) (requests [x])).
    { intros x. now rewrite req_snoc, filter_app, IH. }
    unfold produced. rewrite flat_map_app. fold (produced h). 
    destruct l as [[o|e|]|k n| | |e]; cbn [sstep] in Hs; cbn [flat_map app]; rewrite ?app_nil_r.
    - injection Hs as <-. exact IH.
    - injection Hs as <-. cbn. apply Hx.
    - injection Hs as <-. exact IH.
    - destruct (sbegun k s); [|discriminate]. injection Hs as <-. destruct n; cbn; rewrite ?app_nil_r; try apply Hx. exact IH.
    - injection Hs as <-. exact IH.
    - unfold swork in Hs. destruct (w_phase s); try discriminate; try (injection Hs as <-; exact IH).
      + destruct (w_box s) as [|m r]; [discriminate|]. injection Hs as <-. destruct m; cbn.
        * destruct (w_cur s); cbn; rewrite Hx; apply app_nil_r.
        * destruct (w_stopped s && (k =? w_id s)); cbn; [rewrite Hx; apply app_nil_r|exact IH].
        * destruct (w_cur s); cbn; [exact IH|rewrite Hx; apply app_nil_r].
        * destruct (w_cur s); cbn; [rewrite Hx; apply app_nil_r|exact IH].
      + injection Hs as <-. cbn. rewrite Hx. apply app_nil_r.
    - destruct (w_phase s); try discriminate; injection Hs as <-; exact IH.
  Qed.

  Lemma slog_grows s l s' : sstep s l = Some s' -> prefix (w_log s) (w_log s').
  Proof.
    destruct l as [[o|e|]|k n| | |e]; cbn [sstep]; intros Hs; try (injection Hs as <-; (apply prefix_refl || apply prefix_app)).
    - destruct (sbegun k s); [|discriminate]. injection Hs as <-. destruct n; (apply prefix_refl || apply prefix_app).
    - unfold swork in Hs. destruct (w_phase s); try discriminate; try (injection Hs as <-; (apply prefix_refl || apply prefix_app)).
      destruct (w_box s) as [|m r]; [discriminate|]. injection Hs as <-.
      destruct m; cbn; [destruct (w_cur s)|destruct (w_stopped s && (k =? w_id s))|destruct (w_cur s)|destruct (w_cur s)]; cbn; (apply prefix_refl || apply prefix_app).
    - destruct (w_phase s); try discriminate; injection Hs as <-; apply prefix_refl.
  Qed.

  Lemma sbegun_keys k s : sbegun k s = true -> In k (keys (w_log s)).
  Proof.
    unfold sbegun, keys. intros H. apply existsb_exists in H as (x & Hx & E). apply in_flat_map. exists x. split; [exact Hx|].
    destruct x; try discriminate. apply Nat.eqb_eq in E. subst. now left.
  Qed.

  Lemma sends_begun h s : sreach h s -> forall k a, In (k, a) (sends h) -> In k (keys (w_log s)).
  Proof.
    induction 1 as [|h s l s' H IH Hs]; [contradiction|]. intros k a Hin.
    unfold sends in Hin. rewrite flat_map_app in Hin. apply in_app_or in Hin as [Hin|Hin].
    - destruct (slog_grows _ _ Hs) as [es E]. rewrite E. unfold keys. rewrite flat_map_app. apply in_or_app. left. eapply IH, Hin.
    - destruct l as [n|j n| | |]; try destruct n; cbn in Hin; try contradiction. destruct Hin as [Hin|[]]. injection Hin as -> ->.
      cbn in Hs. destruct (sbegun k s) eqn:E; [|discriminate]. injection Hs as <-. cbn.
      unfold keys. rewrite flat_map_app. apply in_or_app. left. apply sbegun_keys, E.
  Qed.


  Lemma s_latest_only h s : sreach h s -> silent_after_disposal h -> StronglySorted le (map fst (sends h)).
  Proof.
    induction 1 as [|h s l s' H IH Hs]; intros Hq; [constructor|].
    assert (Hq' : silent_after_disposal h).
    { intros h1 k n h2 s1 -> H1. eapply (Hq h1 k n (h2 ++ [l])); [now rewrite <- app_assoc|exact H1]. }
    unfold sends. rewrite flat_map_app, map_app. fold (sends h).
    destruct l as [n|k n| | |]; try destruct n; cbn [flat_map app map fst]; rewrite ?app_nil_r; auto.
    apply sorted_snoc; [auto|]. intros j Hj. apply in_map_iff in Hj as ([j' b] & <- & Hj). cbn.
    pose proof (sends_begun H _ _ Hj) as Hk. cbn in Hs. destruct (sbegun k s) eqn:E; [|discriminate].
    apply sbegun_keys in E. destruct (le_lt_dec j' k) as [|Hlt]; [assumption|exfalso].
    destruct (Hq h k (OnNext a) [] s eq_refl H) as [Q1 Q2].
    destruct (one_at_a_time H) as [O1 _]. destruct (O1 _ _ E Hk Hlt); contradiction.
  Qed.
End P.

(** Running a history. *)
Fixpoint srun {O A} (s : sstate O A) (h : list (mlabel O A)) : option (sstate O A) :=
  match h with
  | [] => Some s
  | l :: r => match sstep s l with Some s' => srun s' r | None => None end
  end.
Lemma srun_reach O A (h2 : list (mlabel O A)) : forall h1 s s', sreach h1 s -> srun s h2 = Some s' -> sreach (h1 ++ h2) s'.
Proof.
  induction h2 as [|l h2 IH]; cbn; intros h1 s s' H E.
  - injection E as <-. now rewrite app_nil_r.
  - destruct (sstep s l) as [s1|] eqn:E1; [|discriminate].
    change (l :: h2) with ([l] ++ h2). rewrite app_assoc. eapply IH; [|exact E]. eapply sr_snoc; eauto.
Qed.
Lemma srun_init O A (h : list (mlabel O A)) s : srun s_init h = Some s -> sreach h s.
Proof. intros H. exact (srun_reach _ (sr_nil) H). Qed.
