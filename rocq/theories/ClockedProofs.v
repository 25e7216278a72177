(** * Proofs for Clocked.v *)
From Coq Require Import Lia.
From Verif Require Export Clocked DelaysProofs TimeProofs.
Set Implicit Arguments.
Local Open Scope Z_scope.

Section ClockedProofs.
  Context (seconds period : Z) (ls : list (link nat)).

  (** ** Every history is one of interval and one of the delays *)
  Record parts (dok : list (xstate nat) -> dlabel nat -> Prop) (t0 : Z) (h : list klabel) (k : kstate) (hv : list (xlabel nat)) (hd : list (dlabel nat)) : Prop := Parts {
    pa_iv : ivreach seconds period t0 hv (fst k);
    pa_d : dreach dok ls t0 hd (snd k);
    pa_calls : calls_at t0 hd = v_log (fst k);
    pa_now : dnow t0 hd = v_now (fst k);
    pa_cancel : In DCancel hd -> In KCancel h;
    pa_raise : forall e, In (DRaise e) hd -> In (KRaise e) h;
    pa_phase : match v_phase (fst k) with ICall _ | IClose | IDead => False | IDone => In KCancel h \/ period = 0 | _ => True end
  }.

  Lemma kreach_parts (ok : kstate -> klabel -> Prop) (dok : list (xstate nat) -> dlabel nat -> Prop) t0 h k :
    (forall k l, ok k l -> match l with KTick dt => dok (snd k) (DTick dt) | _ => True end) ->
    (forall xs l, match l with DTick _ => False | _ => True end -> dok xs l) ->
    kreach seconds period ls ok t0 h k -> exists hv hd, parts dok t0 h k hv hd.
  Proof.
    intros Hok Hd. induction 1 as [|h k l k' R (hv & hd & P) O E].
    - exists [], []. constructor; cbn; try tauto; try reflexivity; constructor.
    - destruct P as [Pv Pd Pc Pn Px Pr Pp]. specialize (Hok _ _ O). destruct k as [v xs]. cbn [fst snd] in *.
      assert (Mono : forall x, In x h -> In x (h ++ [l])) by (intros x F; apply in_app_iff; now left).
      assert (Pp' : match v_phase v with ICall _ | IClose | IDead => False | IDone => In KCancel (h ++ [l]) \/ period = 0 | _ => True end).
      { destruct (v_phase v); auto. destruct Pp; [left; now apply Mono|now right]. }
      assert (Dl : forall d, match d with DWork _ | DReturn => True | DRaise e => l = KRaise e | _ => False end ->
        forall xs', dstep ls xs d = Some xs' -> k' = (v, xs') -> exists hv hd, parts dok t0 (h ++ [l]) k' hv hd).
      { intros d D xs' Q ->. exists hv, (hd ++ [d]). constructor; cbn [fst snd]; auto.
        - eapply dl_snoc; [exact Pd| |exact Q]. apply Hd. now destruct d.
        - rewrite calls_at_snoc, Pc. destruct d; try contradiction; apply app_nil_r.
        - rewrite dnow_snoc. now destruct d.
        - intros F. apply in_app_iff in F as [F|[F|[]]]; [now apply Mono, Px|]. subst d. contradiction.
        - intros e F. apply in_app_iff in F as [F|[F|[]]]; [now apply Mono, Pr|]. subst d. subst l. apply in_app_iff. right. now left. }
      destruct l as [dt| |i| |e|]; cbn [kstep fst snd] in E.
      + destruct (ivstep seconds period v (XTick dt)) as [v'|] eqn:Ev; [|discriminate]. destruct (dstep ls xs (DTick dt)) as [xs'|] eqn:Ed; [|discriminate]. injection E as <-.
        exists (hv ++ [XTick dt]), (hd ++ [DTick dt]).
        assert (Vv : v_now v' = v_now v + dt /\ v_phase v' = v_phase v /\ v_log v' = v_log v) by (cbn in Ev; destruct (0 <? dt); [injection Ev as <-; auto|discriminate]).
        destruct Vv as (V1 & V2 & V3). constructor; cbn [fst snd].
        * econstructor; eassumption.
        * eapply dl_snoc; eassumption.
        * rewrite calls_at_snoc, Pc, V3. apply app_nil_r.
        * rewrite dnow_snoc, Pn. now rewrite V1.
        * intros F. apply in_app_iff in F as [F|[F|[]]]; [now apply Mono, Px|discriminate].
        * intros e F. apply in_app_iff in F as [F|[F|[]]]; [now apply Mono, Pr|discriminate].
        * rewrite V2. exact Pp'.
      + unfold iv_turn in E. cbn [fst snd] in E.
        destruct (ivwork seconds v) as [v1|] eqn:Ev; [|discriminate].
        assert (R1 : ivreach seconds period t0 (hv ++ [XWork]) v1) by (econstructor; eassumption).
        unfold ivwork in Ev. destruct (v_phase v) as [|u n|n| | |] eqn:Ph; try discriminate.
        * injection Ev as <-. cbn [v_phase] in E. injection E as <-. exists (hv ++ [XWork]), hd. constructor; cbn [fst snd]; auto.
        * destruct (u <=? v_now v); [|discriminate]. injection Ev as <-. cbn [v_phase ivstep] in E.
          assert (D1 : forall m, dreach dok ls t0 (hd ++ [DArr m]) (feed ls xs m)) by (intros m; eapply dl_snoc; [exact Pd|apply Hd; exact I|reflexivity]).
          destruct (period =? 0) eqn:Pz; cbn [v_phase v_now v_log v_ends] in E; injection E as <-.
          -- exists (((hv ++ [XWork]) ++ [XReturn]) ++ [XReturn]), ((hd ++ [DArr (OnNext n)]) ++ [DArr OnCompleted]).
             constructor; cbn [fst snd v_log v_now v_phase].
             ++ econstructor; [econstructor; [exact R1|cbn; rewrite Pz; reflexivity]|reflexivity].
             ++ eapply dl_snoc; [apply D1|apply Hd; exact I|reflexivity].
             ++ rewrite !calls_at_snoc, Pc, dnow_snoc, Pn. reflexivity.
             ++ rewrite !dnow_snoc. exact Pn.
             ++ intros F. apply in_app_iff in F as [F|[F|[]]]; [|discriminate]. apply in_app_iff in F as [F|[F|[]]]; [now apply Mono, Px|discriminate].
             ++ intros e F. apply in_app_iff in F as [F|[F|[]]]; [|discriminate]. apply in_app_iff in F as [F|[F|[]]]; [now apply Mono, Pr|discriminate].
             ++ right. now apply Z.eqb_eq.
          -- exists ((hv ++ [XWork]) ++ [XReturn]), (hd ++ [DArr (OnNext n)]).
             constructor; cbn [fst snd v_log v_now v_phase].
             ++ econstructor; [exact R1|cbn; rewrite Pz; reflexivity].
             ++ apply D1.
             ++ rewrite !calls_at_snoc, Pc, Pn. reflexivity.
             ++ rewrite !dnow_snoc. exact Pn.
             ++ intros F. apply in_app_iff in F as [F|[F|[]]]; [now apply Mono, Px|discriminate].
             ++ intros e F. apply in_app_iff in F as [F|[F|[]]]; [now apply Mono, Pr|discriminate].
             ++ exact I.
      + destruct (dstep ls xs (DWork i)) as [xs'|] eqn:Ed; [|discriminate]. injection E as <-. exact (Dl (DWork i) I xs' Ed eq_refl).
      + destruct (dstep ls xs DReturn) as [xs'|] eqn:Ed; [|discriminate]. injection E as <-. exact (Dl DReturn I xs' Ed eq_refl).
      + destruct (dstep ls xs (DRaise e)) as [xs'|] eqn:Ed; [|discriminate]. injection E as <-. exact (Dl (DRaise e) eq_refl xs' Ed eq_refl).
      + injection E as <-. exists (hv ++ [XCancel]), (hd ++ [DCancel]). constructor; cbn [fst snd v_log v_now v_phase].
        * econstructor; [exact Pv|reflexivity].
        * eapply dl_snoc; [exact Pd|apply Hd; exact I|reflexivity].
        * rewrite calls_at_snoc, Pc. apply app_nil_r.
        * rewrite dnow_snoc. exact Pn.
        * intros _. apply in_app_iff. right. now left.
        * intros e F. apply in_app_iff in F as [F|[F|[]]]; [now apply Mono, Pr|discriminate].
        * destruct (v_phase v); try contradiction; left; apply in_app_iff; right; now left.
  Qed.

  Lemma kreach_any (ok : kstate -> klabel -> Prop) t0 h k : kreach seconds period ls ok t0 h k -> exists hv hd, parts any_time t0 h k hv hd.
  Proof. apply kreach_parts; [intros ? [] _; exact I|intros; exact I]. Qed.

  Lemma kreach_prompt t0 h k : kreach seconds period ls (k_prompt seconds) t0 h k -> exists hv hd, parts (@prompt nat) t0 h k hv hd.
  Proof. apply kreach_parts; [intros k' [] [_ H]; exact H|intros xs [] H; try exact I; contradiction]. Qed.

  (** ** Delays *)
  Lemma k_early (ok : kstate -> klabel -> Prop) t0 h k : kreach seconds period ls ok t0 h k ->
    exists D rest, through ls (k_made k) = D ++ rest /\ Forall2 (fun call arr => fst call = fst arr /\ snd arr + total ls <= snd call) (k_told k) D.
  Proof.
    intros R. destruct (kreach_any R) as (hv & hd & P). unfold k_made, k_told. rewrite <- (pa_calls P).
    eapply linked_early. exact (dreach_linked (pr := False) (nc := False) (pa_d P) (fun F => False_ind _ F) (fun F => False_ind _ F)).
  Qed.

  Lemma k_all (ok : kstate -> klabel -> Prop) t0 h k : ls <> [] -> kreach seconds period ls ok t0 h k -> ~ In KCancel h -> k_waiting k ->
    map fst (k_told k) = map fst (through ls (k_made k)).
  Proof.
    intros N R C W. destruct (kreach_any R) as (hv & hd & P). unfold k_made, k_told. rewrite <- (pa_calls P).
    apply (delays_all N (pa_d P)); [|exact W]. intros F. now apply C, (pa_cancel P).
  Qed.

  Lemma k_exact t0 h k : kreach seconds period ls (k_prompt seconds) t0 h k -> prefix (k_told k) (later (total ls) (through ls (k_made k))).
  Proof.
    intros R. destruct (kreach_prompt R) as (hv & hd & P). unfold k_made, k_told. rewrite <- (pa_calls P). exact (delays_exact (pa_d P)).
  Qed.

  Lemma k_exact_all t0 h k : ls <> [] -> kreach seconds period ls (k_prompt seconds) t0 h k -> ~ In KCancel h -> k_waiting k ->
    k_told k = later (total ls) (through ls (k_made k)).
  Proof.
    intros N R C W. destruct (kreach_prompt R) as (hv & hd & P). unfold k_made, k_told. rewrite <- (pa_calls P).
    apply (delays_prompt_all N (pa_d P)); [|exact W]. intros F. now apply C, (pa_cancel P).
  Qed.

  (** ** The beats *)
  Definition due (t0 : Z) (n : nat) : Z := t0 + Z.max 0 seconds + Z.of_nat n * Z.max 0 period.

  Lemma beats_snoc t0 n : beats seconds period t0 (S n) = beats seconds period t0 n ++ [(OnNext n, due t0 n)].
  Proof. unfold beats. rewrite seq_S, map_app. reflexivity. Qed.

  Lemma beats_length t0 n : length (beats seconds period t0 n) = n.
  Proof. unfold beats. now rewrite map_length, seq_length. Qed.

  Definition on_beat (t0 : Z) (v : ivstate) : Prop :=
    exists n, v_log v = beats seconds period t0 n /\
      match v_phase v with
      | IStart => n = 0%nat /\ v_now v = t0
      | ISleep u m => m = n /\ u = due t0 n /\ v_now v <= u
      | IDone => True
      | _ => False
      end.

  Lemma k_on_beat (ok : kstate -> klabel -> Prop) t0 h k : (forall k l, ok k l -> ticks_on_time seconds k l) -> period <> 0 -> kreach seconds period ls ok t0 h k -> on_beat t0 (fst k).
  Proof.
    intros Hok Pz. induction 1 as [|h k l k' R IH O E]; [exists 0%nat; cbn; auto|].
    specialize (Hok _ _ O). destruct k as [v xs]. cbn [fst snd] in *. destruct IH as (n & L & Ph).
    destruct l as [dt| |i| |e|]; cbn [kstep fst snd] in E.
    - destruct (ivstep seconds period v (XTick dt)) as [v'|] eqn:Ev; [|discriminate]. destruct (dstep ls xs (DTick dt)) as [xs'|] eqn:Ed; [|discriminate]. injection E as <-.
      cbn in Ev. destruct (0 <? dt) eqn:Dt; [|discriminate]. injection Ev as <-. exists n. cbn [fst v_log v_phase v_now]. split; [exact L|].
      cbn [ticks_on_time fst] in Hok. destruct Hok as [W S]. unfold ivwork in W. destruct (v_phase v) as [|u m|m| | |]; try contradiction; [discriminate| |exact I].
      destruct Ph as (-> & -> & _). auto.
    - unfold iv_turn, ivwork in E. cbn [fst snd] in E. destruct (v_phase v) as [|u m|m| | |] eqn:Q; try discriminate.
      + destruct Ph as [-> Ph]. cbn in E. injection E as <-. exists 0%nat. cbn. split; [exact L|]. split; [reflexivity|]. unfold due. lia.
      + destruct Ph as (-> & -> & Ph). destruct (due t0 n <=? v_now v) eqn:Le; [|discriminate]. apply Z.leb_le in Le. cbn [v_phase ivstep] in E.
        apply Z.eqb_neq in Pz. rewrite Pz in E. cbn [v_phase] in E. injection E as <-. exists (S n). cbn [fst v_log v_phase v_now].
        assert (T : v_now v = due t0 n) by lia. split; [now rewrite L, beats_snoc, T|]. split; [reflexivity|]. rewrite T. unfold due. lia.
    - destruct (dstep ls xs (DWork i)); [|discriminate]. injection E as <-. exists n. auto.
    - destruct (dstep ls xs DReturn); [|discriminate]. injection E as <-. exists n. auto.
    - destruct (dstep ls xs (DRaise e)); [|discriminate]. injection E as <-. exists n. auto.
    - injection E as <-. exists n. cbn. split; [exact L|]. destruct (v_phase v); try exact I; contradiction.
  Qed.

  Lemma k_beats (ok : kstate -> klabel -> Prop) t0 h k : (forall k l, ok k l -> ticks_on_time seconds k l) -> period <> 0 -> kreach seconds period ls ok t0 h k ->
    k_made k = beats seconds period t0 (length (k_made k)).
  Proof. intros Hok Pz R. destruct (k_on_beat Hok Pz R) as (n & L & _). unfold k_made. rewrite L, beats_length. reflexivity. Qed.

  Lemma k_all_beats (ok : kstate -> klabel -> Prop) t0 h k : (forall k l, ok k l -> ticks_on_time seconds k l) -> period <> 0 -> kreach seconds period ls ok t0 h k ->
    ~ In KCancel h -> ivwork seconds (fst k) = None -> forall n, due t0 n <= k_now k -> (n < length (k_made k))%nat.
  Proof.
    intros Hok Pz R C W n D. destruct (k_on_beat Hok Pz R) as (m & L & Ph). unfold k_made, k_now in *. rewrite L, beats_length.
    destruct (kreach_any R) as (hv & hd & P). pose proof (pa_phase P) as Q. unfold ivwork in W. destruct (v_phase (fst k)) as [|u j|j| | |]; try contradiction.
    - discriminate.
    - destruct Ph as (-> & -> & _). destruct (due t0 m <=? v_now (fst k)) eqn:Le; [discriminate|]. apply Z.leb_gt in Le.
      destruct (Nat.lt_ge_cases n m) as [|G]; [assumption|]. unfold due in *. exfalso.
      assert (Z.of_nat m * Z.max 0 period <= Z.of_nat n * Z.max 0 period) by (apply Z.mul_le_mono_nonneg_r; lia). lia.
    - destruct Q; contradiction.
  Qed.

  (** ** The timer *)
  Definition timed (t0 : Z) (v : ivstate) : Prop :=
    match v_phase v with
    | IStart => v_log v = [] /\ v_now v = t0
    | ISleep u m => v_log v = [] /\ m = 0%nat /\ u = t0 + Z.max 0 seconds /\ v_now v <= u
    | IDone => v_log v = [] \/ v_log v = [(OnNext 0%nat, t0 + Z.max 0 seconds); (OnCompleted, t0 + Z.max 0 seconds)]
    | _ => False
    end.

  Lemma k_timed (ok : kstate -> klabel -> Prop) t0 h k : (forall k l, ok k l -> ticks_on_time seconds k l) -> period = 0 -> kreach seconds period ls ok t0 h k -> timed t0 (fst k).
  Proof.
    intros Hok Pz. induction 1 as [|h k l k' R IH O E]; [cbn; auto|].
    specialize (Hok _ _ O). destruct k as [v xs]. cbn [fst snd] in *. unfold timed in *.
    destruct l as [dt| |i| |e|]; cbn [kstep fst snd] in E.
    - destruct (ivstep seconds period v (XTick dt)) as [v'|] eqn:Ev; [|discriminate]. destruct (dstep ls xs (DTick dt)) as [xs'|] eqn:Ed; [|discriminate]. injection E as <-.
      cbn in Ev. destruct (0 <? dt) eqn:Dt; [|discriminate]. injection Ev as <-. cbn [fst v_log v_phase v_now].
      cbn [ticks_on_time fst] in Hok. destruct Hok as [W S]. unfold ivwork in W. destruct (v_phase v) as [|u m|m| | |]; try contradiction; [discriminate| |exact IH].
      tauto.
    - unfold iv_turn, ivwork in E. cbn [fst snd] in E. destruct (v_phase v) as [|u m|m| | |] eqn:Q; try discriminate.
      + destruct IH as [L Ph]. cbn in E. injection E as <-. cbn. repeat split; [exact L|now rewrite Ph|lia].
      + destruct IH as (L & -> & -> & Ph). destruct (_ <=? v_now v) eqn:Le; [|discriminate]. apply Z.leb_le in Le. cbn [v_phase ivstep] in E.
        apply Z.eqb_eq in Pz. rewrite Pz in E. cbn [v_phase] in E. injection E as <-. cbn [fst v_log v_phase v_now].
        assert (T : v_now v = t0 + Z.max 0 seconds) by lia. right. rewrite L, T. reflexivity.
    - destruct (dstep ls xs (DWork i)); [|discriminate]. injection E as <-. exact IH.
    - destruct (dstep ls xs DReturn); [|discriminate]. injection E as <-. exact IH.
    - destruct (dstep ls xs (DRaise e)); [|discriminate]. injection E as <-. exact IH.
    - injection E as <-. cbn. destruct (v_phase v); try contradiction; tauto.
  Qed.

  Lemma k_timer (ok : kstate -> klabel -> Prop) t0 h k : (forall k l, ok k l -> ticks_on_time seconds k l) -> period = 0 -> kreach seconds period ls ok t0 h k ->
    k_made k = [] \/ k_made k = [(OnNext 0%nat, t0 + Z.max 0 seconds); (OnCompleted, t0 + Z.max 0 seconds)].
  Proof. intros Hok Pz R. pose proof (k_timed Hok Pz R) as T. unfold timed, k_made in *. destruct (v_phase (fst k)); try contradiction; tauto. Qed.

  (** ** Everything arrives *)
  Definition own_k (l : klabel) : Prop := match l with KTick _ | KTurn | KWork _ | KReturn => True | _ => False end.

  Lemma kreach_app (ok : kstate -> klabel -> Prop) t0 h k l k' : kreach seconds period ls ok t0 h k -> ok k l -> kstep seconds period ls k l = Some k' -> kreach seconds period ls ok t0 (h ++ [l]) k'.
  Proof. intros. econstructor; eassumption. Qed.

  Lemma k_next t0 h k : period <> 0 -> kreach seconds period ls k_any t0 h k -> ~ In KCancel h ->
    exists h' k', Forall own_k h' /\ kreach seconds period ls k_any t0 (h ++ h') k' /\ length (k_made k') = S (length (k_made k)).
  Proof.
    intros Pz R C. apply Z.eqb_neq in Pz.
    assert (Turn : forall h k u n, kreach seconds period ls k_any t0 h k -> v_phase (fst k) = ISleep u n -> u <= v_now (fst k) ->
      exists k', kreach seconds period ls k_any t0 (h ++ [KTurn]) k' /\ length (k_made k') = S (length (k_made k))).
    { intros h0 k0 u n R0 Ph Le. apply Z.leb_le in Le.
      eexists. split; [eapply kreach_app; [exact R0|exact I|cbn; unfold iv_turn, ivwork; rewrite Ph, Le; cbn; rewrite Pz; cbn; reflexivity]|].
      unfold k_made. cbn. rewrite app_length. cbn. lia. }
    assert (Wait : forall h k u n, kreach seconds period ls k_any t0 h k -> v_phase (fst k) = ISleep u n ->
      exists h' k', Forall own_k h' /\ kreach seconds period ls k_any t0 (h ++ h') k' /\ length (k_made k') = S (length (k_made k))).
    { intros h0 k0 u n R0 Ph. destruct (Z_le_gt_dec u (v_now (fst k0))) as [Le|Gt].
      - destruct (Turn _ _ _ _ R0 Ph Le) as (k1 & R1 & L). exists [KTurn], k1. split; [constructor; [exact I|constructor]|]. auto.
      - assert (Dt : (0 <? u - v_now (fst k0)) = true) by (apply Z.ltb_lt; lia).
        assert (St : kstep seconds period ls k0 (KTick (u - v_now (fst k0))) =
          Some (IvState (v_now (fst k0) + (u - v_now (fst k0))) (v_phase (fst k0)) (v_log (fst k0)) (v_ends (fst k0)), map (ticks_on (u - v_now (fst k0))) (snd k0))).
        { cbn. rewrite Dt. reflexivity. }
        pose proof (@kreach_app k_any t0 h0 k0 _ _ R0 I St) as R1.
        destruct (Turn _ _ u n R1 Ph) as (k2 & R2 & L); [cbn; lia|]. rewrite <- app_assoc in R2.
        exists [KTick (u - v_now (fst k0)); KTurn], k2. split; [repeat constructor|]. auto. }
    destruct (kreach_any R) as (hv & hd & P). pose proof (pa_phase P) as Q. destruct (v_phase (fst k)) as [|u n|n| | |] eqn:Ph; try contradiction.
    - assert (St : exists k1, kstep seconds period ls k KTurn = Some k1 /\ (exists u n, v_phase (fst k1) = ISleep u n) /\ k_made k1 = k_made k).
      { eexists. cbn. unfold iv_turn, ivwork. rewrite Ph. cbn. split; [reflexivity|]. split; [cbn; eauto|reflexivity]. }
      destruct St as (k1 & St & (u & n & Ph1) & L1). pose proof (@kreach_app k_any t0 h k _ _ R I St) as R1.
      destruct (Wait _ _ _ _ R1 Ph1) as (h' & k' & F & R' & L). rewrite <- app_assoc in R'.
      exists ([KTurn] ++ h'), k'. split; [constructor; [exact I|exact F]|]. split; [exact R'|congruence].
    - exact (Wait _ _ _ _ R Ph).
    - apply Z.eqb_neq in Pz. destruct Q; contradiction.
  Qed.

  Lemma own_not h h' : Forall own_k h' -> ~ In KCancel h -> ~ In KCancel (h ++ h').
  Proof. intros F C G. apply in_app_iff in G as [G|G]; [auto|]. rewrite Forall_forall in F. exact (F _ G). Qed.
  Lemma own_calm h h' : Forall own_k h' -> (forall e, ~ In (KRaise e) h) -> forall e, ~ In (KRaise e) (h ++ h').
  Proof. intros F C e G. apply in_app_iff in G as [G|G]; [exact (C e G)|]. rewrite Forall_forall in F. exact (F _ G). Qed.

  Lemma k_many t0 n : forall h k, period <> 0 -> kreach seconds period ls k_any t0 h k -> ~ In KCancel h ->
    exists h' k', Forall own_k h' /\ kreach seconds period ls k_any t0 (h ++ h') k' /\ length (k_made k') = (n + length (k_made k))%nat.
  Proof.
    induction n as [|n IH]; intros h k Pz R C; [exists [], k; rewrite app_nil_r; auto|].
    destruct (k_next Pz R C) as (h1 & k1 & F1 & R1 & L1). destruct (IH _ _ Pz R1 (@own_not _ _ F1 C)) as (h2 & k2 & F2 & R2 & L2).
    exists (h1 ++ h2), k2. split; [apply Forall_app; auto|]. rewrite app_assoc. split; [exact R2|lia].
  Qed.

  Definition k_of (l : dlabel nat) : klabel := match l with DTick dt => KTick dt | DWork i => KWork i | _ => KReturn end.

  Lemma k_lift (hd' : list (dlabel nat)) : forall t0 h k hd xs', Forall own hd' -> kreach seconds period ls k_any t0 h k -> dreach any_time ls t0 hd (snd k) ->
    dreach any_time ls t0 (hd ++ hd') xs' ->
    exists k', kreach seconds period ls k_any t0 (h ++ map k_of hd') k' /\ snd k' = xs' /\ k_made k' = k_made k.
  Proof.
    induction hd' as [|l hd' IH] using rev_ind; intros t0 h k hd xs' F R D D'.
    - rewrite app_nil_r in *. exists k. split; [exact R|]. split; [|reflexivity].
      clear -D D'. revert xs' D'. induction D as [|h xs l xs1 D IHd O E]; intros xs' D'.
      + inversion D' as [|? ? ? ? ? ? ? Q]; [reflexivity|]. now destruct h.
      + inversion D' as [Q|h' ys l' ys' Hd Ho He Q]; [now destruct h|]. apply app_inj_tail in Q as [-> ->]. rewrite (IHd _ Hd) in E. congruence.
    - apply Forall_app in F as [F Fl]. inversion Fl as [|? ? Ol _]; subst.
      rewrite app_assoc in D'. inversion D' as [Q|h' ys l' ys' Hd Ho He Q]; [now destruct (hd ++ hd')|]. apply app_inj_tail in Q as [-> ->].
      destruct (IH _ _ _ _ _ F R D Hd) as (k1 & R1 & <- & M).
      rewrite map_app, app_assoc. cbn [map].
      assert (St : exists k', kstep seconds period ls k1 (k_of l) = Some k' /\ snd k' = xs' /\ k_made k' = k_made k1).
      { destruct l; try contradiction; cbn [k_of kstep].
        - pose proof He as He'. cbn [dstep] in He'. destruct (0 <? dt) eqn:Dt; [|discriminate].
          rewrite He. cbn [ivstep]. rewrite Dt. eexists. split; [reflexivity|]. split; reflexivity.
        - rewrite He. eexists. split; [reflexivity|]. split; reflexivity.
        - rewrite He. eexists. split; [reflexivity|]. split; reflexivity. }
      destruct St as (k' & St & Sx & Sm). exists k'. split; [eapply kreach_app; [exact R1|exact I|exact St]|]. split; [exact Sx|congruence].
  Qed.

  Lemma k_arrive t0 h k n : period <> 0 -> kreach seconds period ls k_any t0 h k -> ~ In KCancel h -> (forall e, ~ In (KRaise e) h) ->
    exists h' k', Forall own_k h' /\ kreach seconds period ls k_any t0 (h ++ h') k' /\ (n <= length (k_made k'))%nat /\ k_waiting k'.
  Proof.
    intros Pz R C Rs. destruct (k_many n Pz R C) as (h1 & k1 & F1 & R1 & L1).
    pose proof (@own_not _ _ F1 C) as C1. pose proof (@own_calm _ _ F1 Rs) as Rs1.
    destruct (kreach_any R1) as (hv & hd & P).
    destruct (delays_arrive (ok := any_time) (fun _ _ _ => I) (pa_d P)) as (hd' & xs' & Fd & D' & W).
    { intros F. now apply C1, (pa_cancel P). }
    { intros e F. now apply (Rs1 e), (pa_raise P). }
    destruct (k_lift Fd R1 (pa_d P) D') as (k2 & R2 & E2 & M2). exists (h1 ++ map k_of hd'), k2.
    split.
    { apply Forall_app. split; [exact F1|]. clear -Fd. induction Fd as [|l hd' O F IH]; [constructor|]. cbn. constructor; [destruct l; try contradiction; exact I|exact IH]. }
    rewrite app_assoc. split; [exact R2|]. split; [rewrite M2; lia|]. unfold k_waiting. now rewrite E2.
  Qed.
End ClockedProofs.

Lemma through_plain ds : forall l, through (plain ds) l = l.
Proof.
  induction ds as [|d ds IH]; intros l; [reflexivity|]. unfold through, plain in *. cbn [map fold_left fst]. rewrite IH.
  unfold sifted. induction l as [|[[a|x|] t] l IHl]; cbn; rewrite ?IHl; reflexivity.
Qed.

Lemma later_beats a p t0 c n : 0 <= c -> later c (beats a p t0 n) = beats (Z.max 0 a + c) p t0 n.
Proof. intros C. unfold later, beats. rewrite map_map. apply map_ext. intros j. cbn. f_equal. lia. Qed.

Lemma total_nonneg A (ls : list (link A)) : 0 <= total ls.
Proof. induction ls as [|k ls IH]; cbn; [lia|]. fold (total ls). lia. Qed.

Lemma nth_beats a p t0 n j x : nth_error (beats a p t0 n) j = Some x -> x = (OnNext j, t0 + Z.max 0 a + Z.of_nat j * Z.max 0 p).
Proof.
  unfold beats. intros H. rewrite nth_error_map in H. destruct (nth_error (seq 0 n) j) as [i|] eqn:E; [|discriminate]. injection H as <-.
  assert (L : (j < n)%nat) by (rewrite <- (seq_length n 0); apply nth_error_Some; congruence).
  apply (nth_error_nth _ _ 0%nat) in E. rewrite seq_nth in E by exact L. cbn in E. now subst i.
Qed.

(** ** Checking concrete histories *)
Definition k_prompt_b (seconds : Z) (k : kstate) (l : klabel) : bool :=
  match l with
  | KTick dt =>
      match ivwork seconds (fst k) with None => match v_phase (fst k) with ISleep u _ => v_now (fst k) + dt <=? u | _ => true end | Some _ => false end &&
      forallb (fun x => match xwork x with None => match x_phase x with XSleep _ u => x_now x + dt <=? u | XCall _ => false | _ => true end | Some _ => false end) (snd k)
  | _ => true
  end.

Fixpoint k_run (seconds period : Z) (ls : list (link nat)) (k : kstate) (h : list klabel) : option kstate :=
  match h with
  | [] => Some k
  | l :: h => if k_prompt_b seconds k l then match kstep seconds period ls k l with Some k' => k_run seconds period ls k' h | None => None end else None
  end.

Lemma k_prompt_ok seconds k l : k_prompt_b seconds k l = true -> k_prompt seconds k l.
Proof.
  destruct l as [dt| | | | |]; cbn [k_prompt_b]; intros H; try (split; exact I). apply andb_prop in H as [H1 H2]. split.
  - cbn. destruct (ivwork seconds (fst k)); [discriminate|]. split; [reflexivity|]. destruct (v_phase (fst k)); auto. now apply Z.leb_le.
  - cbn. rewrite forallb_forall in H2. apply Forall_forall. intros x Hx. specialize (H2 x Hx). destruct (xwork x); [discriminate|]. split; [reflexivity|].
    destruct (x_phase x); auto; try discriminate. now apply Z.leb_le.
Qed.

Lemma k_run_ok seconds period ls t0 h : forall h0 k k', kreach seconds period ls (k_prompt seconds) t0 h0 k -> k_run seconds period ls k h = Some k' ->
  kreach seconds period ls (k_prompt seconds) t0 (h0 ++ h) k'.
Proof.
  induction h as [|l h IH]; intros h0 k k' R E; cbn [k_run] in E; [injection E as <-; now rewrite app_nil_r|].
  destruct (k_prompt_b seconds k l) eqn:B; [|discriminate]. destruct (kstep seconds period ls k l) as [k1|] eqn:S; [|discriminate].
  replace (h0 ++ l :: h) with ((h0 ++ [l]) ++ h) by now rewrite <- app_assoc. eapply IH; [|exact E]. econstructor; [exact R|now apply k_prompt_ok|exact S].
Qed.
