(** * Proofs for Ticking.v *)
From Coq Require Import Lia.
From Verif Require Export Ticking ClockedProofs HotSliceProofs.
Set Implicit Arguments.
Local Open Scope Z_scope.

Section TickingProofs.
  Context (seconds period : Z) {U : Type} (pol : policy U) (p : pipe U nat).
  Notation zreach := (zreach seconds period U pol p).
  Notation zstate := (zstate pol p).
  Notation step := (@zstep seconds period U pol p).

  (** What a step does to the calls of interval, the pipeline and the subscriber. *)
  Record effect (z z' : zstate) (ms : list (notif nat)) : Prop := Effect {
    ef_made : z_made z' = z_made z ++ map (fun n => (n, z_now z')) ms;
    ef_run : run (pcomp pol p) (z_pipe z) ms (z_pipe z');
    ef_told : z_told z' = z_told z ++ map (fun n => (n, z_now z')) (skipn (length (plog pol p (z_pipe z))) (plog pol p (z_pipe z')));
    ef_now : z_now z <= z_now z';
    ef_iv : forall t0 h, ivreach seconds period t0 h (z_iv z) -> exists h', ivreach seconds period t0 h' (z_iv z')
  }.

  Lemma untold (z : zstate) : z_told z = z_told z ++ map (fun n => (n, z_now z)) (skipn (length (plog pol p (z_pipe z))) (plog pol p (z_pipe z))).
  Proof. rewrite skipn_all. cbn. now rewrite app_nil_r. Qed.

  Lemma answered_raise v x e : answered seconds period v (Some x) = Some e -> v_log e = v_log v /\ v_now e = v_now v /\ v_phase e = IDead.
  Proof. unfold answered. cbn. destruct (v_phase v); try discriminate; intros H; injection H as <-; auto. Qed.

  Lemma step_effect z l z' : step z l = Some z' -> exists ms, effect z z' ms.
  Proof.
    destruct z as [v s told]. destruct l as [dt| |k|]; cbn [zstep z_iv z_pipe z_told].
    - cbn [ivstep]. destruct (0 <? dt) eqn:Dt; [|discriminate]. apply Z.ltb_lt in Dt. intros H. injection H as <-. exists [].
      split; cbn.
      + now rewrite app_nil_r.
      + constructor.
      + rewrite skipn_all. cbn. now rewrite app_nil_r.
      + unfold z_now. cbn. lia.
      + intros t0 h R. exists (h ++ [XTick dt]). econstructor; [exact R|]. cbn. apply Z.ltb_lt in Dt. now rewrite Dt.
    - unfold z_turn. cbn [z_iv z_pipe z_told]. destruct (ivwork seconds v) as [v1|] eqn:W; [|discriminate].
      assert (R1 : forall t0 h, ivreach seconds period t0 h v -> ivreach seconds period t0 (h ++ [XWork]) v1) by (intros; econstructor; [eassumption|exact W]).
      unfold ivwork in W. destruct (v_phase v) as [|u n|n| | |] eqn:Ph; try discriminate.
      + injection W as <-. cbn [v_phase]. intros H. injection H as <-. exists []. split; cbn.
        * now rewrite app_nil_r.
        * constructor.
        * rewrite skipn_all. cbn. now rewrite app_nil_r.
        * reflexivity.
        * intros t0 h R. eexists. apply R1, R.
      + destruct (u <=? v_now v) eqn:Le; [|discriminate]. injection W as <-. cbn [v_phase].
        destruct (ccall (pcomp pol p) s (OnNext n)) as [s1 x1] eqn:C1.
        assert (Run1 : run (pcomp pol p) s [OnNext n] s1).
        { apply run_in. rewrite C1. constructor. }
        destruct (answered seconds period _ x1) as [v2|] eqn:A1; [|discriminate].
        assert (R2 : forall t0 h, ivreach seconds period t0 h v -> exists h', ivreach seconds period t0 h' v2).
        { intros t0 h R. eexists. econstructor; [apply R1, R|exact A1]. }
        assert (Cases : (v_phase v2 <> IClose /\ v_log v2 = v_log v ++ [(OnNext n, v_now v)] /\ v_now v2 = v_now v) \/
                        (v_phase v2 = IClose /\ v_log v2 = v_log v ++ [(OnNext n, v_now v); (OnCompleted, v_now v)] /\ v_now v2 = v_now v)).
        { unfold answered in A1. destruct x1 as [e|]; cbn in A1.
          - injection A1 as <-. left. cbn. split; [discriminate|auto].
          - destruct (period =? 0); injection A1 as <-; cbn; [right|left; split; [discriminate|auto]].
            rewrite <- app_assoc. auto. }
        destruct Cases as [(Q & L & T)|(Q & L & T)].
        * assert (G : match v_phase v2 with IClose => let (s2, x2) := ccall (pcomp pol p) s1 OnCompleted in match answered seconds period v2 x2 with None => None | Some v3 => Some (ZState pol p v3 s2 (noted (ZState pol p v s told) s2)) end | _ => Some (ZState pol p v2 s1 (noted (ZState pol p v s told) s1)) end = Some (ZState pol p v2 s1 (noted (ZState pol p v s told) s1)))
            by (destruct (v_phase v2); congruence).
          rewrite G. intros H. injection H as <-. exists [OnNext n]. split; unfold z_made, z_now, noted; cbn.
          -- now rewrite L, T.
          -- exact Run1.
          -- now rewrite T.
          -- lia.
          -- exact R2.
        * rewrite Q. destruct (ccall (pcomp pol p) s1 OnCompleted) as [s2 x2] eqn:C2.
          destruct (answered seconds period v2 x2) as [v3|] eqn:A2; [|discriminate]. intros H. injection H as <-.
          assert (L3 : v_log v3 = v_log v2 /\ v_now v3 = v_now v2).
          { unfold answered in A2. destruct x2; cbn in A2; rewrite Q in A2; injection A2 as <-; auto. }
          destruct L3 as [L3 T3]. exists [OnNext n; OnCompleted]. split; unfold z_made, z_now, noted; cbn.
          -- rewrite L3, L, T3, T. reflexivity.
          -- change [OnNext n; OnCompleted] with ([OnNext n] ++ [@OnCompleted nat]). eapply run_app; [exact Run1|].
             apply run_in. rewrite C2. constructor.
          -- now rewrite T3, T.
          -- lia.
          -- intros t0 h R. destruct (R2 _ _ R) as [h' R']. eexists. econstructor; [exact R'|exact A2].
    - destruct (cstep (pcomp pol p) k s) as [s1|] eqn:C; [|discriminate]. intros H. injection H as <-. exists []. split; unfold z_made, z_now, noted; cbn.
      + now rewrite app_nil_r.
      + eapply run_step; [exact C|constructor].
      + reflexivity.
      + lia.
      + eauto.
    - intros H. injection H as <-. exists []. split; cbn.
      + now rewrite app_nil_r.
      + constructor.
      + rewrite skipn_all. cbn. now rewrite app_nil_r.
      + unfold z_now. cbn. lia.
      + intros t0 h R. exists (h ++ [XCancel]). econstructor; [exact R|reflexivity].
  Qed.

  (** ** The pipeline gets what interval makes, the subscriber what the pipeline shows *)
  Record joint (t0 : Z) (z : zstate) : Prop := Joint {
    jo_iv : exists h, ivreach seconds period t0 h (z_iv z);
    jo_run : run (pcomp pol p) (pinit pol p) (map fst (z_made z)) (z_pipe z);
    jo_told : map fst (z_told z) = plog pol p (z_pipe z);
    jo_made_past : Forall (fun c => snd c <= z_now z) (z_made z);
    jo_told_past : Forall (fun c => snd c <= z_now z) (z_told z);
    jo_since : t0 <= z_now z
  }.

  Lemma grows_run s ms s' : run (pcomp pol p) s ms s' -> prefix (plog pol p s) (plog pol p s').
  Proof.
    destruct (grows_pipe pol p) as [G1 G2]. induction 1 as [s|s m ms s' R IH|s k s1 ms s' C R IH]; [apply prefix_refl| |].
    - eapply prefix_trans; [apply G1|exact IH].
    - eapply prefix_trans; [eapply G2; exact C|exact IH].
  Qed.

  Lemma plog_init : plog pol p (pinit pol p) = [].
  Proof. clear. induction p; cbn; auto. Qed.

  Lemma stamped_fst X (t : Z) (l : list X) : map fst (map (fun n => (n, t)) l) = l.
  Proof. rewrite map_map. cbn. apply map_id. Qed.

  Lemma stamped_past X (t t' : Z) (old : list (X * Z)) new : Forall (fun c => snd c <= t) old -> t <= t' -> Forall (fun c => snd c <= t') (old ++ map (fun n => (n, t')) new).
  Proof.
    intros H L. apply Forall_app. split; [eapply Forall_impl; [|exact H]; cbn; intros; lia|].
    apply Forall_forall. intros c G. apply in_map_iff in G as (n & <- & _). cbn. lia.
  Qed.

  Lemma zreach_joint ok t0 h z : zreach ok t0 h z -> joint t0 z.
  Proof.
    induction 1 as [|h z l z' R IH O E].
    - split; cbn; try constructor; try (unfold z_now; cbn; lia).
      + exists []. constructor.
      + now rewrite plog_init.
    - destruct (step_effect _ _ E) as (ms & [M Rn T N I]). destruct IH as [J1 J2 J3 J4 J5 J6]. split.
      + destruct J1 as [hv J1]. exact (I _ _ J1).
      + rewrite M, map_app, stamped_fst. eapply run_app; [exact J2|exact Rn].
      + rewrite T, map_app, stamped_fst, J3. destruct (grows_run Rn) as [c ->]. rewrite skipn_app, skipn_all, Nat.sub_diag. reflexivity.
      + rewrite M. eapply stamped_past; eassumption.
      + rewrite T. eapply stamped_past; eassumption.
      + lia.
  Qed.

  Lemma z_sees ok t0 h z : zreach ok t0 h z -> sees (psys pol p) (map fst (z_made z)) (map fst (z_told z)).
  Proof. intros R. destruct (zreach_joint R). exists (z_pipe z). split; [assumption|]. symmetry. assumption. Qed.

  Lemma z_finally ok t0 h z : zreach ok t0 h z -> z_quiet z -> finally (psys pol p) (map fst (z_made z)) (map fst (z_told z)).
  Proof. intros R Q. destruct (zreach_joint R). exists (z_pipe z). split; [assumption|]. split; [exact Q|]. symmetry. assumption. Qed.

  Lemma z_delivers ok t0 h z l : zreach ok t0 h z -> delivers (psys pol p) (map fst (z_made z)) l ->
    prefix (map fst (z_told z)) l /\ (z_quiet z -> map fst (z_told z) = l).
  Proof.
    intros R (_ & D2 & D3). split; [apply D3; eapply z_sees; exact R|]. intros Q. apply D2. eapply z_finally; eassumption.
  Qed.

  (** ** On time *)
  Lemma by_time_all X t t' (l : list (X * Z)) : Forall (fun c => snd c <= t) l -> t <= t' -> by_time t' l = map fst l.
  Proof.
    intros H L. unfold by_time. f_equal. induction H as [|c l Hc H IH]; [reflexivity|]. cbn.
    destruct (Z.leb_spec (snd c) t'); [now rewrite IH|lia].
  Qed.

  Lemma by_time_new X t t' (l : list (X * Z)) new : t < t' -> by_time t (l ++ map (fun n => (n, t')) new) = by_time t l.
  Proof.
    intros L. unfold by_time. rewrite filter_app.
    replace (filter (fun c => snd c <=? t) (map (fun n : X => (n, t')) new)) with (@nil (X * Z)); [now rewrite app_nil_r|].
    symmetry. induction new as [|n new IH]; [reflexivity|]. cbn. destruct (Z.leb_spec t' t); [lia|exact IH].
  Qed.

  Lemma z_on_time t0 h z : zreach (@z_prompt seconds U pol p) t0 h z -> forall t, t0 <= t < z_now z ->
    finally (psys pol p) (by_time t (z_made z)) (by_time t (z_told z)).
  Proof.
    induction 1 as [|h z l z' R IH O E]; intros t T; [unfold z_now in T; cbn in T; lia|].
    destruct (step_effect _ _ E) as (ms & [M Rn Td N _]).
    destruct (Z_lt_ge_dec t (z_now z)) as [Lt|Ge].
    - rewrite M, Td, !by_time_new by lia. apply IH. lia.
    - destruct l as [dt| |k|].
      + cbn [zstep] in E. destruct (ivstep seconds period (z_iv z) (XTick dt)) as [v|] eqn:Ev; [|discriminate]. injection E as <-.
        cbn [ivstep] in Ev. destruct (0 <? dt); [|discriminate]. injection Ev as <-. destruct O as (_ & Q & _).
        destruct (zreach_joint R) as [_ _ _ P1 P2 _].
        change (finally (psys pol p) (by_time t (z_made z)) (by_time t (z_told z))).
        rewrite (by_time_all P1), (by_time_all P2) by lia. eapply z_finally; [exact R|exact Q].
      + exfalso. enough (z_now z' = z_now z) by lia. clear -E. cbn [zstep] in E. unfold z_turn in E.
        destruct (ivwork seconds (z_iv z)) as [v1|] eqn:W; [|discriminate]. unfold ivwork in W. unfold z_now.
        destruct (v_phase (z_iv z)) as [|u n|n| | |]; try discriminate.
        * injection W as <-. injection E as <-. reflexivity.
        * destruct (u <=? v_now (z_iv z)); [|discriminate]. injection W as <-. cbn [v_phase] in E.
          destruct (ccall _ _ _) as [s1 [x1|]]; unfold answered in E; cbn in E; [injection E as <-; reflexivity|].
          destruct (period =? 0); cbn in E; [|injection E as <-; reflexivity].
          destruct (ccall _ _ _) as [s2 [x2|]]; cbn in E; injection E as <-; reflexivity.
      + exfalso. cbn [zstep] in E. destruct (cstep _ _ _); [|discriminate]. injection E as <-. unfold z_now in *. cbn in T. lia.
      + exfalso. cbn in E. injection E as <-. unfold z_now in *. cbn in T. lia.
  Qed.

  (** ** What interval makes *)
  Lemma same_nth X (a : list X) : forall b, (forall i, nth_error a i = nth_error b i) -> a = b.
  Proof.
    induction a as [|x a IH]; intros [|y b] H; [reflexivity|discriminate (H 0%nat)|discriminate (H 0%nat)|].
    injection (H 0%nat) as ->. f_equal. apply IH. intros i. exact (H (S i)).
  Qed.

  Lemma z_elements ok t0 h z : zreach ok t0 h z -> period <> 0 -> map fst (z_made z) = map OnNext (seq 0 (length (z_made z))).
  Proof.
    intros R Pz. destruct (jo_iv (zreach_joint R)) as [hv Iv]. unfold z_made. apply same_nth. intros i.
    rewrite !nth_error_map. destruct (nth_error (v_log (z_iv z)) i) as [[n u]|] eqn:G.
    - destruct (iv_elements Iv Pz _ G) as [-> _]. assert (i < length (v_log (z_iv z)))%nat by (apply nth_error_Some; congruence).
      cbn. rewrite (nth_error_nth' _ 0%nat) by now rewrite seq_length. rewrite seq_nth by assumption. reflexivity.
    - apply nth_error_None in G. rewrite (proj2 (nth_error_None (seq 0 _) i)); [reflexivity|now rewrite seq_length].
  Qed.

  Lemma z_by_time ok t0 h z t : zreach ok t0 h z -> exists n, (n <= length (z_made z))%nat /\ by_time t (z_made z) = firstn n (map fst (z_made z)).
  Proof.
    induction 1 as [|h z l z' R IH O E]; [exists 0%nat; auto|]. destruct IH as (n & Ln & IH).
    assert (R' : zreach ok t0 (h ++ [l]) z') by (econstructor; eassumption).
    destruct (Z_lt_ge_dec t (z_now z')) as [Lt|Ge].
    - destruct (step_effect _ _ E) as (ms & [M _ _ _ _]). exists n. rewrite M, app_length. split; [lia|]. rewrite by_time_new by exact Lt.
      rewrite map_app, firstn_app, map_length. replace (n - length (z_made z))%nat with 0%nat by lia. cbn. now rewrite app_nil_r.
    - exists (length (z_made z')). split; [lia|]. rewrite (by_time_all (jo_made_past (zreach_joint R'))) by lia.
      rewrite firstn_all2; [reflexivity|rewrite map_length; lia].
  Qed.

  Lemma z_elements_by ok t0 h z t : zreach ok t0 h z -> period <> 0 ->
    by_time t (z_made z) = map OnNext (seq 0 (length (by_time t (z_made z)))).
  Proof.
    intros R Pz. destruct (z_by_time t R) as (n & L & E). rewrite E, (z_elements R Pz), firstn_map, map_length. f_equal.
    rewrite firstn_length, seq_length, Nat.min_l by exact L.
    replace (length (z_made z)) with (n + (length (z_made z) - n))%nat by lia. rewrite seq_app, firstn_app, seq_length, Nat.sub_diag.
    rewrite firstn_all2 by (rewrite seq_length; lia). cbn. now rewrite app_nil_r.
  Qed.

  (** ** The beats *)
  Definition z_beat (t0 : Z) (v : ivstate) : Prop :=
    exists n, v_log v = beats seconds period t0 n /\
      match v_phase v with
      | IStart => n = 0%nat /\ v_now v = t0
      | ISleep u m => m = n /\ u = due seconds period t0 n /\ v_now v <= u
      | IDone | IDead => True
      | _ => False
      end.

  Lemma z_on_beat t0 h z : period <> 0 -> zreach (@z_prompt seconds U pol p) t0 h z -> z_beat t0 (z_iv z).
  Proof.
    intros Pz. induction 1 as [|h z l z' R IH O E]; [exists 0%nat; cbn; auto|].
    destruct z as [v s told]. cbn [z_iv] in *. destruct IH as (n & L & Ph).
    destruct l as [dt| |k|]; cbn [zstep z_iv z_pipe z_told] in E.
    - cbn [ivstep] in E. destruct (0 <? dt) eqn:Dt; [|discriminate]. injection E as <-. exists n. cbn [z_iv v_log v_phase v_now]. split; [exact L|].
      destruct O as (W & _ & S). cbn [z_iv] in *. unfold ivwork in W. destruct (v_phase v) as [|u m|m| | |]; try contradiction; try exact I; [discriminate|].
      destruct Ph as (-> & -> & _). auto.
    - unfold z_turn, ivwork in E. cbn [z_iv z_pipe z_told] in E. destruct (v_phase v) as [|u m|m| | |] eqn:Q; try discriminate.
      + destruct Ph as [-> Ph]. cbn in E. injection E as <-. exists 0%nat. cbn. split; [exact L|]. split; [reflexivity|]. unfold due. lia.
      + destruct Ph as (-> & -> & Ph). destruct (due seconds period t0 n <=? v_now v) eqn:Le; [|discriminate]. apply Z.leb_le in Le. cbn [v_phase] in E.
        assert (T : v_now v = due seconds period t0 n) by lia. apply Z.eqb_neq in Pz.
        destruct (ccall _ _ _) as [s1 [x1|]]; unfold answered in E; cbn in E.
        * injection E as <-. exists (S n). cbn [z_iv v_log v_phase v_now]. split; [now rewrite L, beats_snoc, T|exact I].
        * rewrite Pz in E. cbn in E. injection E as <-. exists (S n). cbn [z_iv v_log v_phase v_now]. split; [now rewrite L, beats_snoc, T|].
          split; [reflexivity|]. rewrite T. unfold due. lia.
    - destruct (cstep _ _ _); [|discriminate]. injection E as <-. exists n. auto.
    - cbn in E. injection E as <-. exists n. cbn. split; [exact L|]. destruct (v_phase v); try exact I; contradiction.
  Qed.

  Lemma z_beats t0 h z : period <> 0 -> zreach (@z_prompt seconds U pol p) t0 h z -> z_made z = beats seconds period t0 (length (z_made z)).
  Proof. intros Pz R. destruct (z_on_beat Pz R) as (n & L & _). unfold z_made. rewrite L, beats_length. reflexivity. Qed.

  (** ** It goes on *)
  Definition calm : Prop := forall s m, snd (ccall (pcomp pol p) s m) = None.

  Lemma z_alive ok t0 h z : calm -> period <> 0 -> zreach ok t0 h z -> ~ In ZCancel h ->
    match v_phase (z_iv z) with IStart | ISleep _ _ => True | _ => False end.
  Proof.
    intros Hc Pz. apply Z.eqb_neq in Pz. induction 1 as [|h z l z' R IH O E]; intros C; [exact I|].
    assert (C' : ~ In ZCancel h) by (intros G; apply C, in_app_iff; auto). specialize (IH C').
    destruct l as [dt| |k|]; cbn [zstep] in E.
    - cbn [ivstep] in E. destruct (0 <? dt); [|discriminate]. injection E as <-. exact IH.
    - unfold z_turn, ivwork in E. destruct (v_phase (z_iv z)) as [|u m|m| | |]; try contradiction.
      + injection E as <-. exact I.
      + destruct (u <=? v_now (z_iv z)); [|discriminate]. cbn [v_phase] in E. pose proof (Hc (z_pipe z) (OnNext m)) as Hm.
        destruct (ccall _ _ _) as [s1 x1]. cbn in Hm. subst x1. unfold answered in E. cbn in E. rewrite Pz in E. cbn in E. injection E as <-. exact I.
    - destruct (cstep _ _ _); [|discriminate]. injection E as <-. exact IH.
    - exfalso. apply C, in_app_iff. right. left. reflexivity.
  Qed.

  Lemma z_all_beats t0 h z : calm -> period <> 0 -> zreach (@z_prompt seconds U pol p) t0 h z -> ~ In ZCancel h -> ivwork seconds (z_iv z) = None ->
    forall n, due seconds period t0 n <= z_now z -> (n < length (z_made z))%nat.
  Proof.
    intros Hc Pz R C W n D. destruct (z_on_beat Pz R) as (m & L & Ph). pose proof (z_alive Hc Pz R C) as Al. unfold z_made, z_now in *. rewrite L, beats_length.
    unfold ivwork in W. destruct (v_phase (z_iv z)) as [|u j|j| | |]; try contradiction; [discriminate|].
    destruct Ph as (-> & -> & _). destruct (due seconds period t0 m <=? v_now (z_iv z)) eqn:Le; [discriminate|]. apply Z.leb_gt in Le.
    destruct (Nat.lt_ge_cases n m) as [|G]; [assumption|]. unfold due in *. exfalso.
    assert (Z.of_nat m * Z.max 0 period <= Z.of_nat n * Z.max 0 period) by (apply Z.mul_le_mono_nonneg_r; lia). lia.
  Qed.

  Definition own_z (l : zlabel) : Prop := match l with ZTick _ | ZTurn => True | _ => False end.

  Lemma z_next t0 h z : calm -> period <> 0 -> zreach (@z_any U pol p) t0 h z -> ~ In ZCancel h ->
    exists h' z', Forall own_z h' /\ zreach (@z_any U pol p) t0 (h ++ h') z' /\ length (z_made z') = S (length (z_made z)).
  Proof.
    intros Hc Pz R C. pose proof (z_alive Hc Pz R C) as Al. apply Z.eqb_neq in Pz.
    assert (Turn : forall h z u n, zreach (@z_any U pol p) t0 h z -> v_phase (z_iv z) = ISleep u n -> u <= v_now (z_iv z) ->
      exists z', zreach (@z_any U pol p) t0 (h ++ [ZTurn]) z' /\ length (z_made z') = S (length (z_made z))).
    { intros h0 z0 u n R0 Ph Le. apply Z.leb_le in Le. pose proof (Hc (z_pipe z0) (OnNext n)) as Hm.
      destruct (ccall (pcomp pol p) (z_pipe z0) (OnNext n)) as [s1 x1] eqn:C1. cbn in Hm. subst x1.
      eexists. split; [eapply zr_snoc; [exact R0|exact I|cbn; unfold z_turn, ivwork; rewrite Ph, Le; cbn; rewrite C1; unfold answered; cbn; rewrite Pz; cbn; reflexivity]|].
      unfold z_made. cbn. rewrite app_length. cbn. lia. }
    assert (Wait : forall h z u n, zreach (@z_any U pol p) t0 h z -> v_phase (z_iv z) = ISleep u n ->
      exists h' z', Forall own_z h' /\ zreach (@z_any U pol p) t0 (h ++ h') z' /\ length (z_made z') = S (length (z_made z))).
    { intros h0 z0 u n R0 Ph. destruct (Z_le_gt_dec u (v_now (z_iv z0))) as [Le|Gt].
      - destruct (Turn _ _ _ _ R0 Ph Le) as (k1 & R1 & L). exists [ZTurn], k1. split; [constructor; [exact I|constructor]|]. auto.
      - assert (Dt : (0 <? u - v_now (z_iv z0)) = true) by (apply Z.ltb_lt; lia).
        assert (St : step z0 (ZTick (u - v_now (z_iv z0))) =
          Some (ZState pol p (IvState (v_now (z_iv z0) + (u - v_now (z_iv z0))) (v_phase (z_iv z0)) (v_log (z_iv z0)) (v_ends (z_iv z0))) (z_pipe z0) (z_told z0))).
        { cbn. rewrite Dt. reflexivity. }
        assert (R1 := @zr_snoc seconds period U pol p (@z_any U pol p) t0 _ _ _ _ R0 I St).
        destruct (Turn _ _ u n R1 Ph) as (k2 & R2 & L); [cbn; lia|]. rewrite <- app_assoc in R2.
        exists [ZTick (u - v_now (z_iv z0)); ZTurn], k2. split; [repeat constructor|]. auto. }
    destruct (v_phase (z_iv z)) as [|u n|n| | |] eqn:Ph; try contradiction.
    - assert (St : exists k1, step z ZTurn = Some k1 /\ (exists u n, v_phase (z_iv k1) = ISleep u n) /\ z_made k1 = z_made z).
      { eexists. cbn. unfold z_turn, ivwork. rewrite Ph. cbn. split; [reflexivity|]. split; [cbn; eauto|reflexivity]. }
      destruct St as (k1 & St & (u & n & Ph1) & L1). assert (R1 := @zr_snoc seconds period U pol p (@z_any U pol p) t0 _ _ _ _ R I St).
      destruct (Wait _ _ _ _ R1 Ph1) as (h' & k' & F & R' & L). rewrite <- app_assoc in R'.
      exists ([ZTurn] ++ h'), k'. split; [constructor; [exact I|exact F]|]. split; [exact R'|congruence].
    - exact (Wait _ _ _ _ R Ph).
  Qed.

  Lemma z_many t0 n : forall h z, calm -> period <> 0 -> zreach (@z_any U pol p) t0 h z -> ~ In ZCancel h ->
    exists h' z', Forall own_z h' /\ zreach (@z_any U pol p) t0 (h ++ h') z' /\ length (z_made z') = (n + length (z_made z))%nat.
  Proof.
    induction n as [|n IH]; intros h z Hc Pz R C; [exists [], z; rewrite app_nil_r; auto|].
    destruct (z_next Hc Pz R C) as (h1 & k1 & F1 & R1 & L1).
    assert (C1 : ~ In ZCancel (h ++ h1)).
    { intros G. apply in_app_iff in G as [G|G]; [auto|]. rewrite Forall_forall in F1. exact (F1 _ G). }
    destruct (IH _ _ Hc Pz R1 C1) as (h2 & k2 & F2 & R2 & L2).
    exists (h1 ++ h2), k2. split; [apply Forall_app; auto|]. rewrite app_assoc. split; [exact R2|lia].
  Qed.
End TickingProofs.

(** ** take behind interval *)
Lemma take_seq n m (opr : pipe nat nat -> pipe nat nat) : (0 < n)%nat -> take_ (Z.of_nat n) = Ok opr ->
  delivers (psys well_behaved (opr PEnd)) (map OnNext (seq 0 m)) (trace (seq 0 (Nat.min n m)) (if (n <=? m)%nat then Completed else Open)).
Proof.
  intros Hn H. unfold take_ in H. destruct (Z.ltb_spec (Z.of_nat n) 0); [discriminate|]. injection H as <-.
  apply to_subscriber_s; [apply sane_psys|]. intros l.
  replace (map OnNext (seq 0 m)) with (source_calls (seq 0 m) Open []) by (unfold source_calls, trace; now rewrite !app_nil_r).
  rewrite (hot_cold well_behaved PEnd _ _ _ l (tame_take nat (Z.of_nat n))), take_stage by assumption.
  unfold take_out. rewrite seq_length. destruct (Z.ltb_spec 0 (Z.of_nat n)); [|lia]. cbn [andb].
  destruct (Nat.leb_spec n m) as [L|L].
  - destruct (Z.leb_spec (Z.of_nat n) (Z.of_nat m)); [|lia]. rewrite Nat2Z.id, Nat.min_l by exact L.
    replace m with (n + (m - n))%nat by lia. rewrite seq_app, firstn_app, seq_length, Nat.sub_diag.
    rewrite firstn_all2 by (rewrite seq_length; lia). cbn [firstn]. rewrite app_nil_r. reflexivity.
  - destruct (Z.leb_spec (Z.of_nat n) (Z.of_nat m)); [lia|]. destruct (Z.eqb_spec (Z.of_nat n) 0); [lia|].
    rewrite Nat.min_r by lia. reflexivity.
Qed.

Lemma take_calm U (pol : policy U) n (opr : pipe U nat -> pipe U nat) r : take_ n = Ok opr -> calm pol (opr r).
Proof.
  intros H. unfold take_ in H. destruct (n <? 0); [discriminate|]. injection H as <-. rewrite pre_safe. exact (@tame_noraise _ _ _ pol _ r (tame_take nat n)).
Qed.

Lemma iv_timer_calls seconds t0 h v : ivreach seconds 0 t0 h v -> prefix (map fst (v_log v)) [OnNext 0%nat; OnCompleted].
Proof.
  intros R. assert (C : v_log v = [] \/ exists t, t0 + Z.max 0 seconds <= t /\
    (v_log v = [(OnNext 0%nat, t)] \/ exists t', t <= t' /\ v_log v = [(OnNext 0%nat, t); (OnCompleted, t')])) by now apply iv_timer with (1 := R).
  destruct C as [->|(t & _ & [->|(t' & _ & ->)])]; cbn.
  - eexists. reflexivity.
  - exists [OnCompleted]. reflexivity.
  - exists []. reflexivity.
Qed.

(** ** Running histories *)
Section Running.
  Context (seconds period : Z) {U : Type} (pol : policy U) (p : pipe U nat) (q : cst (pcomp pol p) -> bool).
  Context (Hq : forall s, q s = true -> quiet (pcomp pol p) s).

  Definition on_time (z : zstate pol p) (l : zlabel) : bool :=
    match l with
    | ZTick dt => match ivwork seconds (z_iv z) with
                  | Some _ => false
                  | None => q (z_pipe z) && match v_phase (z_iv z) with ISleep u _ => v_now (z_iv z) + dt <=? u | _ => true end
                  end
    | _ => true
    end.

  Fixpoint z_go (h : list zlabel) (z : zstate pol p) : option (zstate pol p) :=
    match h with
    | [] => Some z
    | l :: h => if on_time z l then match zstep seconds period z l with Some z' => z_go h z' | None => None end else None
    end.

  Lemma z_go_ok t0 h' : forall h z z', zreach seconds period U pol p (@z_prompt seconds U pol p) t0 h z -> z_go h' z = Some z' ->
    zreach seconds period U pol p (@z_prompt seconds U pol p) t0 (h ++ h') z'.
  Proof.
    induction h' as [|l h' IH]; intros h z z' R E; cbn in E; [injection E as <-; now rewrite app_nil_r|].
    destruct (on_time z l) eqn:O; [|discriminate]. destruct (zstep seconds period z l) as [z1|] eqn:S; [|discriminate].
    change (l :: h') with ([l] ++ h'). rewrite app_assoc. apply (IH _ z1); [|exact E]. econstructor; [exact R| |exact S].
    destruct l as [dt| |k|]; try exact I. cbn in O. destruct (ivwork seconds (z_iv z)) eqn:W; [discriminate|].
    apply andb_true_iff in O as [O1 O2]. split; [exact W|]. split; [now apply Hq|].
    destruct (v_phase (z_iv z)); try exact I. now apply Z.leb_le.
  Qed.
End Running.

Definition idle2 : cst (pcomp (@well_behaved nat) (pre (take_op 2) (safe PEnd))) -> bool :=
  fun s => match cstep (pcomp (@well_behaved nat) (pre (take_op 2) (safe PEnd))) 0 s with None => true | _ => false end.
Lemma idle2_ok s : idle2 s = true -> quiet (pcomp (@well_behaved nat) (pre (take_op 2) (safe PEnd))) s.
Proof.
  unfold idle2. intros H [|k].
  - destruct (cstep _ 0 s); [discriminate|reflexivity].
  - reflexivity.
Qed.

(** ** Ended *)
Section Ended.
  Context (seconds period : Z) {U : Type} (pol : policy U) (p : pipe U nat).
  Notation step := (@zstep seconds period U pol p).
  Definition over (v : ivstate) : Prop := v_phase v = IDone \/ v_phase v = IDead.

  Lemma over_stays h : forall z z', over (z_iv z) ->
    fold_left (fun o l => match o with Some z => step z l | None => None end) h (Some z) = Some z' -> z_made z' = z_made z.
  Proof.
    induction h as [|l h IH]; intros z z' O E; cbn in E; [now injection E as <-|].
    destruct (step z l) as [z1|] eqn:S.
    2:{ exfalso. clear -E. induction h as [|l h IH]; cbn in E; [discriminate|auto]. }
    assert (over (z_iv z1) /\ z_made z1 = z_made z) as [O1 M1].
    { clear -O S. destruct z as [v s told]. unfold over, z_made in *. cbn [z_iv] in *. destruct l as [dt| |k|]; cbn [zstep z_iv z_pipe z_told] in S.
      - cbn [ivstep] in S. destruct (0 <? dt); [|discriminate]. injection S as <-. cbn. auto.
      - unfold z_turn, ivwork in S. cbn [z_iv] in S. destruct O as [O|O]; rewrite O in S; discriminate.
      - destruct (cstep _ _ _); [|discriminate]. injection S as <-. auto.
      - cbn in S. injection S as <-. cbn. split; [|reflexivity]. destruct O as [-> | ->]; auto. }
    rewrite <- M1. exact (IH _ _ O1 E).
  Qed.

  Lemma cancel_over z z' : step z ZCancel = Some z' -> over (z_iv z') /\ z_made z' = z_made z.
  Proof. cbn. intros H. injection H as <-. unfold over. cbn. split; [|reflexivity]. destruct (v_phase (z_iv z)); auto. Qed.

  Lemma raise_over z z' n u e : v_phase (z_iv z) = ISleep u n -> step z ZTurn = Some z' -> snd (ccall (pcomp pol p) (z_pipe z) (OnNext n)) = Some e ->
    over (z_iv z') /\ z_made z' = z_made z ++ [(OnNext n, z_now z)].
  Proof.
    intros Ph S X. cbn [zstep] in S. unfold z_turn, ivwork in S. rewrite Ph in S. destruct (u <=? v_now (z_iv z)); [|discriminate]. cbn [v_phase] in S.
    destruct (ccall (pcomp pol p) (z_pipe z) (OnNext n)) as [s1 x1]. cbn in X. subst x1. unfold answered in S. cbn in S. injection S as <-.
    split; [right; reflexivity|reflexivity].
  Qed.

  Lemma sleeping ok t0 h z u n : zreach seconds period U pol p ok t0 h z -> period <> 0 -> v_phase (z_iv z) = ISleep u n -> n = length (z_made z).
  Proof.
    intros R Pz. revert u n. induction R as [|h z l z' R IH O E]; intros u n Ph; [discriminate|].
    destruct l as [dt| |k|]; cbn [zstep] in E.
    - cbn [ivstep] in E. destruct (0 <? dt); [|discriminate]. injection E as <-. exact (IH _ _ Ph).
    - unfold z_turn, ivwork in E. destruct (v_phase (z_iv z)) as [|u0 m|m| | |] eqn:Q; try discriminate.
      + injection E as <-. cbn in Ph. injection Ph as _ <-. unfold z_made. cbn.
        pose proof (jo_iv (zreach_joint R)) as [hv Iv]. clear -Iv Q. enough (v_log (z_iv z) = []) as -> by reflexivity.
        induction Iv as [|hv v l v' Iv IH E]; [reflexivity|]. destruct l; cbn in E.
        * destruct (0 <? dt); [|discriminate]. injection E as <-. auto.
        * discriminate.
        * unfold ivwork in E. destruct (v_phase v) as [|u m|m| | |]; try discriminate; [injection E as <-; discriminate|].
          destruct (u <=? v_now v); [|discriminate]. injection E as <-. discriminate.
        * destruct (v_phase v); try discriminate; [destruct (period =? 0)|]; injection E as <-; discriminate.
        * destruct (v_phase v); try discriminate; injection E as <-; discriminate.
        * injection E as <-. cbn in Q. destruct (v_phase v); discriminate.
      + destruct (u0 <=? v_now (z_iv z)); [|discriminate]. cbn [v_phase] in E. apply Z.eqb_neq in Pz.
        destruct (ccall _ _ _) as [s1 [x1|]]; unfold answered in E; cbn in E; [injection E as <-; discriminate|].
        rewrite Pz in E. cbn in E. injection E as <-. cbn in Ph. injection Ph as _ <-. unfold z_made. cbn. rewrite app_length. cbn.
        rewrite <- (IH _ _ eq_refl : m = length (v_log (z_iv z))). lia.
    - destruct (cstep _ _ _); [|discriminate]. injection E as <-. exact (IH _ _ Ph).
    - cbn in E. injection E as <-. cbn in Ph. destruct (v_phase (z_iv z)); discriminate.
  Qed.
End Ended.
