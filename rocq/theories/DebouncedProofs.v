(** * Proofs for Debounced.v *)
From Coq Require Import Lia Sorting.Sorted.
From Verif Require Import DebounceProofs.
From Verif Require Export Debounced ClockedProofs.
Set Implicit Arguments.
Local Open Scope Z_scope.

Lemma punctual_snoc A d t0 (h : list (Debounce.dlabel A)) s l : d_punctual d t0 h -> Debounce.dreach d t0 h s ->
  (forall dt, l = Debounce.DTick dt -> d_box s = [] /\ forall n i u, In (n, i, u) (d_timers s) -> d_now s + dt <= u /\ d_now s < u) ->
  d_punctual d t0 (h ++ [l]).
Proof.
  intros P R Hl h1 dt h2 s1 E R1. destruct h2 as [|x h2 _] using rev_ind.
  - apply app_inj_tail in E as [-> ->]. rewrite (dreach_det R1 R). now apply Hl.
  - replace (h1 ++ Debounce.DTick dt :: h2 ++ [x]) with ((h1 ++ Debounce.DTick dt :: h2) ++ [x]) in E by now rewrite <- app_assoc.
    apply app_inj_tail in E as [-> ->]. exact (P h1 dt h2 s1 eq_refl R1).
Qed.

Lemma arrivals_quiet A t (h : list (Debounce.dlabel A)) l : match l with Debounce.DArr _ => False | _ => True end -> darrivals t (h ++ [l]) = darrivals t h.
Proof. intros H. rewrite darrivals_snoc. destruct l; try contradiction; apply app_nil_r. Qed.

Section DebouncedProofs.
  Context (seconds period d : Z).

  (** ** Every history is one of interval, with nothing behind it, and one of debounce *)
  Record jparts (kok : kstate -> klabel -> Prop) (ok : jstate -> jlabel -> Prop) (t0 : Z) (h : list jlabel) (j : jstate) (hk : list klabel) (hd : list (Debounce.dlabel nat)) : Prop := JParts {
    jp_k : kreach seconds period [] kok t0 hk (fst j, []);
    jp_d : Debounce.dreach d t0 hd (snd j);
    jp_calls : darrivals t0 hd = v_log (fst j);
    jp_now : d_now (snd j) = v_now (fst j);
    jp_kcancel : In KCancel hk -> In JCancel h;
    jp_dcancel : In Debounce.DCancel hd -> In JCancel h;
    jp_timer : period = 0 -> darrivals t0 hd = [] \/
      exists h1 h2, darrivals t0 h1 = [] /\ hd = h1 ++ Debounce.DArr (OnNext 0%nat) :: Debounce.DArr OnCompleted :: h2;
    jp_punct : (forall j l, ok j l -> j_prompt seconds j l) -> d_punctual d t0 hd
  }.

  Lemma jreach_parts (kok : kstate -> klabel -> Prop) (ok : jstate -> jlabel -> Prop) t0 h j :
    (forall j l, ok j l -> match l with JTick dt => kok (fst j, []) (KTick dt) | _ => True end) ->
    (forall k l, match l with KTick _ => False | _ => True end -> kok k l) ->
    jreach seconds period d ok t0 h j -> exists hk hd, jparts kok ok t0 h j hk hd.
  Proof.
    intros Hok Hk. induction 1 as [|h j l j' R (hk & hd & P) O E].
    - exists [], []. constructor; cbn; try tauto; try reflexivity; try (now constructor); intros F h1 dt h2 s1 G; destruct h1; discriminate.
    - destruct P as [Pk Pd Pc Pn Px Py Pt Pp]. pose proof (Hok _ _ O) as Ol. destruct j as [v s]. cbn [fst snd] in *.
      assert (Mono : forall x, In x h -> In x (h ++ [l])) by (intros x F; apply in_app_iff; now left).
      assert (Nd : t0 + d_elapsed hd = v_now v) by (rewrite <- Pn; symmetry; exact (di_now (di_reach Pd))).
      assert (Late : forall x, darrivals t0 (hd ++ [x]) = darrivals t0 hd -> period = 0 -> darrivals t0 (hd ++ [x]) = [] \/
        exists h1 h2, darrivals t0 h1 = [] /\ hd ++ [x] = h1 ++ Debounce.DArr (OnNext 0%nat) :: Debounce.DArr OnCompleted :: h2).
      { intros x Ex Pz. rewrite Ex. destruct (Pt Pz) as [F|(h1 & h2 & F & ->)]; [now left|right]. exists h1, (h2 ++ [x]). split; [exact F|]. now rewrite <- app_assoc. }
      assert (Alone : forall x s', match x with DTimer _ | Debounce.DWork => True | _ => False end -> Debounce.dstep d s x = Some s' -> j' = (v, s') -> exists hk hd, jparts kok ok t0 (h ++ [l]) j' hk hd).
      { intros x s' Hx Es ->. exists hk, (hd ++ [x]).
        assert (Ax : darrivals t0 (hd ++ [x]) = darrivals t0 hd) by (apply arrivals_quiet; now destruct x).
        constructor; cbn [fst snd]; auto.
        - econstructor; eassumption.
        - now rewrite Ax.
        - rewrite <- Pn. destruct x; try contradiction; cbn in Es.
          + destruct (dtimer i s) as [[n u]|]; [|discriminate]. destruct (u <=? d_now s); [|discriminate]. now injection Es as <-.
          + unfold dwork in Es. destruct (d_box s); [discriminate|]. destruct (dmsg (d_cur s) p). now injection Es as <-.
        - intros F. apply in_app_iff in F as [F|[F|[]]]; [now apply Mono, Py|]. subst x. contradiction.
        - intros Hp. eapply punctual_snoc; [exact (Pp Hp)|exact Pd|]. intros dt ->. contradiction. }
      destruct l as [dt| |i| |]; cbn [jstep fst snd] in E.
      + destruct (ivstep seconds period v (XTick dt)) as [v'|] eqn:Ev; [|discriminate]. destruct (Debounce.dstep d s (Debounce.DTick dt)) as [s'|] eqn:Ed; [|discriminate]. injection E as <-.
        assert (Dt : (0 <? dt) = true) by (cbn in Ev; now destruct (0 <? dt)).
        assert (Vv : v_now v' = v_now v + dt /\ v_log v' = v_log v) by (cbn in Ev; rewrite Dt in Ev; injection Ev as <-; auto).
        destruct Vv as (V1 & V2).
        assert (Ax : darrivals t0 (hd ++ [Debounce.DTick dt]) = darrivals t0 hd) by now apply arrivals_quiet.
        exists (hk ++ [KTick dt]), (hd ++ [Debounce.DTick dt]). constructor; cbn [fst snd].
        * eapply kr_snoc; [exact Pk|exact Ol|]. cbn [kstep fst snd]. rewrite Ev. cbn. now rewrite Dt.
        * econstructor; eassumption.
        * now rewrite Ax, V2.
        * rewrite V1, <- Pn. cbn in Ed. rewrite Dt in Ed. now injection Ed as <-.
        * intros F. apply in_app_iff in F as [F|[F|[]]]; [now apply Mono, Px|discriminate].
        * intros F. apply in_app_iff in F as [F|[F|[]]]; [now apply Mono, Py|discriminate].
        * now apply Late.
        * intros Hp. eapply punctual_snoc; [exact (Pp Hp)|exact Pd|]. intros dt' G. injection G as <-. specialize (Hp _ _ O). cbn in Hp. tauto.
      + assert (Kt : forall v', iv_turn seconds period [] (v, []) = Some (v', []) -> kreach seconds period [] kok t0 (hk ++ [KTurn]) (v', [])).
        { intros v' G. eapply kr_snoc; [exact Pk|apply Hk; exact I|exact G]. }
        assert (Px' : In KCancel (hk ++ [KTurn]) -> In JCancel (h ++ [JTurn])) by (intros F; apply in_app_iff in F as [F|[F|[]]]; [now apply Mono, Px|discriminate]).
        unfold j_turn in E. unfold iv_turn in Kt. cbn [fst snd] in E, Kt.
        destruct (ivwork seconds v) as [v1|] eqn:Ev; [|discriminate]. unfold ivwork in Ev.
        assert (D1 : forall n, Debounce.dreach d t0 (hd ++ [Debounce.DArr n]) (called_with d s n)) by (intros n; econstructor; [exact Pd|reflexivity]).
        destruct (v_phase v) as [|u n|n| | |] eqn:Ph; try discriminate.
        * injection Ev as <-. cbn [v_phase] in E, Kt. injection E as <-. exists (hk ++ [KTurn]), hd.
          constructor; cbn [fst snd]; auto.
        * destruct (u <=? v_now v); [|discriminate]. injection Ev as <-. cbn [v_phase ivstep] in E, Kt.
          destruct (period =? 0) eqn:Pz; cbn [v_phase v_now v_log v_ends] in E, Kt; injection E as <-.
          -- exists (hk ++ [KTurn]), ((hd ++ [Debounce.DArr (OnNext n)]) ++ [Debounce.DArr OnCompleted]).
             assert (Ax : darrivals t0 ((hd ++ [Debounce.DArr (OnNext n)]) ++ [Debounce.DArr OnCompleted]) = v_log v ++ [(OnNext n, v_now v); (OnCompleted, v_now v)]).
             { rewrite !darrivals_snoc, (d_elapsed_snoc d), Z.add_0_r, Nd, Pc, <- app_assoc. reflexivity. }
             constructor; cbn [fst snd v_log v_now v_phase].
             ++ apply Kt. reflexivity.
             ++ econstructor; [apply D1|reflexivity].
             ++ rewrite Ax, <- app_assoc. reflexivity.
             ++ exact Pn.
             ++ exact Px'.
             ++ intros F. apply in_app_iff in F as [F|[F|[]]]; [|discriminate]. apply in_app_iff in F as [F|[F|[]]]; [now apply Mono, Py|discriminate].
             ++ intros P0. right. destruct (kreach_any Pk) as (hv & hd' & Q). exists hd, []. rewrite <- app_assoc.
                assert (Z0 : v_log v = [] /\ n = 0%nat).
                { destruct (iv_reach (pa_iv Q)) as (_ & W & _). cbn [fst] in W. rewrite Ph in W. destruct W as (_ & W1 & _ & W2).
                  destruct n as [|n]; [|now elim W2]. split; [now destruct (v_log v)|reflexivity]. }
                destruct Z0 as [Z0 ->]. split; [now rewrite Pc|reflexivity].
             ++ intros Hp. eapply punctual_snoc; [eapply punctual_snoc; [exact (Pp Hp)|exact Pd|intros; discriminate]|apply D1|intros; discriminate].
          -- exists (hk ++ [KTurn]), (hd ++ [Debounce.DArr (OnNext n)]).
             constructor; cbn [fst snd v_log v_now v_phase].
             ++ apply Kt. reflexivity.
             ++ apply D1.
             ++ rewrite darrivals_snoc, Pc, Nd. reflexivity.
             ++ exact Pn.
             ++ exact Px'.
             ++ intros F. apply in_app_iff in F as [F|[F|[]]]; [now apply Mono, Py|discriminate].
             ++ intros P0. rewrite P0 in Pz. discriminate.
             ++ intros Hp. eapply punctual_snoc; [exact (Pp Hp)|exact Pd|intros; discriminate].
      + destruct (Debounce.dstep d s (DTimer i)) as [s'|] eqn:Ed; [|discriminate]. injection E as <-. exact (Alone (DTimer i) s' I Ed eq_refl).
      + destruct (Debounce.dstep d s Debounce.DWork) as [s'|] eqn:Ed; [|discriminate]. injection E as <-. exact (Alone Debounce.DWork s' I Ed eq_refl).
      + destruct (ivstep seconds period v XCancel) as [v'|] eqn:Ev; [|discriminate]. cbn in E. injection E as <-.
        exists (hk ++ [KCancel]), (hd ++ [Debounce.DCancel]). constructor; cbn [fst snd].
        * eapply kr_snoc; [exact Pk|apply Hk; exact I|]. cbn [kstep fst snd]. rewrite Ev. reflexivity.
        * econstructor; [exact Pd|reflexivity].
        * rewrite arrivals_quiet by exact I. rewrite Pc. cbn in Ev. now injection Ev as <-.
        * cbn. rewrite Pn. cbn in Ev. now injection Ev as <-.
        * intros _. apply in_app_iff. right. now left.
        * intros _. apply in_app_iff. right. now left.
        * apply Late. now apply arrivals_quiet.
        * intros Hp. eapply punctual_snoc; [exact (Pp Hp)|exact Pd|intros; discriminate].
  Qed.

  Lemma jreach_any (ok : jstate -> jlabel -> Prop) t0 h j : jreach seconds period d ok t0 h j -> exists hk hd, jparts k_any ok t0 h j hk hd.
  Proof. apply jreach_parts; [intros ? [] _; exact I|intros; exact I]. Qed.

  Lemma jreach_prompt t0 h j : jreach seconds period d (j_prompt seconds) t0 h j -> exists hk hd, jparts (ticks_on_time seconds) (j_prompt seconds) t0 h j hk hd.
  Proof. apply jreach_parts; [intros j' [] H; cbn in *; tauto|intros k [] H; try exact I; contradiction]. Qed.

  (** ** Only elements, while nothing ends *)
  Lemma reaction_kinds (past : list (notif nat)) l x : (forall n, In n past -> exists v, n = OnNext v) ->
    match l with Debounce.DArr n => exists v, n = OnNext v | Debounce.DCancel => False | _ => True end ->
    In x (reaction past l) -> exists v, fst x = OnNext v.
  Proof.
    intros Hp Hl Hx. destruct l as [dt|n|i| |]; cbn in Hx; try contradiction.
    - destruct Hl as [v ->]. contradiction.
    - destruct (nth_error past i) as [n|] eqn:E; [|contradiction]. destruct (Hp n (nth_error_In _ _ E)) as [v ->].
      destruct (last_element past) as [j|]; [|contradiction]. destruct (j =? i)%nat; [|contradiction]. destruct Hx as [<-|[]]. now exists v.
  Qed.

  Lemma reactions_kinds t0 (h : list (Debounce.dlabel nat)) : (forall n b, In (n, b) (darrivals t0 h) -> exists v, n = OnNext v) -> ~ In Debounce.DCancel h ->
    forall x, In x (reactions [] h) -> exists v, fst x = OnNext v.
  Proof.
    induction h as [|l h IH] using rev_ind; intros Ha Hc x Hx; [contradiction|].
    assert (Ha' : forall n b, In (n, b) (darrivals t0 h) -> exists v, n = OnNext v) by (intros n b F; apply (Ha n b); rewrite darrivals_snoc; apply in_or_app; now left).
    rewrite (reactions_snoc h l [] t0) in Hx. apply in_app_or in Hx as [Hx|Hx].
    - apply IH; [exact Ha'|intros F; apply Hc, in_or_app; now left|exact Hx].
    - eapply reaction_kinds; [| |exact Hx].
      + cbn [app]. intros n F. apply in_map_iff in F as ([m b] & <- & F). exact (Ha' _ _ F).
      + destruct l as [dt|n|i| |]; try exact I.
        * apply (Ha n (t0 + d_elapsed h)). rewrite darrivals_snoc. apply in_or_app. right. now left.
        * apply Hc, in_or_app. right. now left.
  Qed.

  Lemma log_elements (ok : jstate -> jlabel -> Prop) kok t0 h j hk hd : jparts kok ok t0 h j hk hd -> period <> 0 -> ~ In JCancel h ->
    forall n i t, In (n, i, t) (d_log (snd j)) -> n = OnNext i.
  Proof.
    intros P Pz C n i t H. destruct (d_prefix (jp_d P)) as [c E].
    assert (Hx : In (n, i) (reactions [] hd)) by (rewrite E; apply in_or_app; left; apply (in_map fst) in H; exact H).
    destruct (kreach_any (jp_k P)) as (hv & hd' & Q).
    assert (El : forall q m b, nth_error (darrivals t0 hd) q = Some (m, b) -> m = OnNext q).
    { intros q m b F. rewrite (jp_calls P) in F. exact (proj1 (iv_elements (pa_iv Q) Pz _ F)). }
    destruct (@reactions_kinds t0 hd) with (x := (n, i)) as [v Hv]; [|intros F; exact (C (jp_dcancel P F))|exact Hx|].
    { intros m b F. apply In_nth_error in F as [q F]. rewrite (El q m b F). eauto. }
    cbn in Hv. subst n. destruct (d_in_order (jp_d P)) as [_ V]. specialize (V v i t H). rewrite nth_error_map in V.
    destruct (nth_error (darrivals t0 hd) i) as [[m b]|] eqn:E'; [|discriminate]. cbn in V. injection V as V. rewrite (El i m b E') in V. congruence.
  Qed.

  Lemma arrival_due t0 h j hk hd : jparts (ticks_on_time seconds) (j_prompt seconds) t0 h j hk hd -> period <> 0 ->
    forall i n a, nth_error (darrivals t0 hd) i = Some (n, a) -> n = OnNext i /\ a = due seconds period t0 i.
  Proof.
    intros P Pz i n a H. rewrite (jp_calls P) in H.
    pose proof (k_beats (ok := ticks_on_time seconds) (fun _ _ H => H) Pz (jp_k P)) as B. unfold k_made in B. cbn [fst] in B. rewrite B in H.
    apply nth_beats in H. injection H as -> ->. auto.
  Qed.

  (** Once a beat is over, it has been made. *)
  Lemma beat_over t0 h j hk hd : jparts (ticks_on_time seconds) (j_prompt seconds) t0 h j hk hd -> period <> 0 -> ~ In JCancel h ->
    forall i, due seconds period t0 i < v_now (fst j) -> nth_error (darrivals t0 hd) i = Some (OnNext i, due seconds period t0 i).
  Proof.
    intros P Pz C i H. rewrite (jp_calls P). destruct (k_on_beat (ok := ticks_on_time seconds) (fun _ _ H => H) Pz (jp_k P)) as (n & L & Ph). cbn [fst] in *.
    destruct (kreach_any (jp_k P)) as (hv & hd' & Q). pose proof (pa_phase Q) as Qp. cbn [fst] in Qp.
    assert (Ln : (i < n)%nat).
    { destruct (v_phase (fst j)) as [|u m|m| | |]; try contradiction.
      - destruct Ph as [-> E]. unfold due in H. nia.
      - destruct Ph as (-> & -> & E). destruct (Nat.lt_ge_cases i n) as [|G]; [assumption|]. unfold due in *. exfalso.
        assert (Z.of_nat n * Z.max 0 period <= Z.of_nat i * Z.max 0 period) by (apply Z.mul_le_mono_nonneg_r; lia). lia.
      - destruct Qp as [Qp|Qp]; [elim C; exact (jp_kcancel P Qp)|contradiction]. }
    rewrite L. unfold beats. rewrite nth_error_map. assert (E : nth_error (seq 0 n) i = Some i).
    { rewrite (nth_error_nth' _ 0%nat) by now rewrite seq_length. now rewrite seq_nth by exact Ln. }
    rewrite E. reflexivity.
  Qed.

  Lemma sorted_down (l : list nat) : StronglySorted lt l -> (forall x y, In x l -> (y < x)%nat -> In y l) -> l = seq 0 (length l).
  Proof.
    induction l as [|x l IH] using rev_ind; intros S Dn; [reflexivity|].
    assert (Sl : StronglySorted lt l) by (eapply sorted_app_l; exact S).
    assert (Lt : forall y, In y l -> (y < x)%nat).
    { clear -S. induction l as [|z l IHl]; intros y []; cbn in S; inversion S as [|? ? S' F]; subst; [|now apply IHl]. rewrite Forall_forall in F. apply F. apply in_or_app. right. now left. }
    assert (E : l = seq 0 (length l)).
    { apply IH; [exact Sl|]. intros a b Ha Hb. specialize (Lt a Ha). destruct (in_app_or _ _ _ (Dn a b (in_or_app _ _ _ (or_introl Ha)) Hb)) as [G|[G|[]]]; [exact G|lia]. }
    rewrite app_length. cbn [length]. rewrite Nat.add_1_r, seq_S, <- E. cbn. f_equal. f_equal.
    set (n := length l) in *. destruct (Nat.lt_trichotomy x n) as [L|[L|L]]; [|exact L|].
    - assert (In x l) by (rewrite E; apply in_seq; lia). specialize (Lt x H). lia.
    - exfalso. assert (G : In n (l ++ [x])) by (apply (Dn x n); [apply in_or_app; right; now left|exact L]). apply in_app_or in G as [G|[G|[]]]; [|lia]. rewrite E in G. apply in_seq in G. lia.
  Qed.

  Lemma numbers_all (l : list (notif nat * nat)) : (forall n i, In (n, i) l -> n = OnNext i) -> element_numbers l = map snd l.
  Proof.
    unfold element_numbers. induction l as [|[n i] l IH]; intros H; [reflexivity|]. cbn. rewrite (H n i (or_introl eq_refl)). cbn. f_equal. apply IH. intros m q F. apply H. now right.
  Qed.

  (** ** An interval that is slower than debounce *)
  Lemma j_slow t0 h j : jreach seconds period d (j_prompt seconds) t0 h j -> Z.max 0 d < period -> ~ In JCancel h -> j_idle j ->
    exists n, j_asked j = beats (Z.max 0 seconds + Z.max 0 d) period t0 n /\
      forall i, t0 + Z.max 0 seconds + Z.of_nat i * period + Z.max 0 d < j_now j -> (i < n)%nat.
  Proof.
    intros R Lp C W. assert (Pz : period <> 0) by lia. destruct (jreach_prompt R) as (hk & hd & P). pose proof (jp_punct P (fun _ _ H => H)) as Pu.
    assert (El := log_elements P Pz C).
    assert (Tm : forall n i t, In (n, i, t) (d_log (snd j)) -> t = due seconds period t0 i + Z.max 0 d /\ t <= v_now (fst j)).
    { intros n i t H. pose proof (El _ _ _ H) as ->. destruct (d_window_sound (jp_d P) Pu _ _ _ H) as (a & Ha & -> & _).
      destruct (arrival_due P Pz _ Ha) as [_ ->]. split; [reflexivity|]. rewrite <- (jp_now P). exact (di_logt (di_reach (jp_d P)) _ _ _ H). }
    assert (In_ : forall i, due seconds period t0 i + Z.max 0 d < v_now (fst j) -> In (OnNext i, i, due seconds period t0 i + Z.max 0 d) (d_log (snd j))).
    { intros i H. apply (d_window_complete (jp_d P) Pu W).
      - apply (beat_over P Pz C). lia.
      - rewrite (jp_now P). exact H.
      - intros q w b Lq Hq. destruct (arrival_due P Pz _ Hq) as [_ ->]. unfold due. rewrite (Z.max_r 0 period) by lia.
        assert (Z.of_nat (S i) * period <= Z.of_nat q * period) by (apply Z.mul_le_mono_nonneg_r; lia). lia. }
    destruct (d_in_order (jp_d P)) as [So _]. rewrite numbers_all in So.
    2:{ intros n i F. apply in_map_iff in F as ([[m q] t] & G & F). cbn in G. injection G as <- <-. exact (El _ _ _ F). }
    rewrite map_map in So. set (l := map (fun x => snd (fst x)) (d_log (snd j))) in *.
    assert (E : l = seq 0 (length l)).
    { apply sorted_down; [exact So|]. intros x y Hx Ly. apply in_map_iff in Hx as ([[n i] t] & G & F). cbn in G. subst i. destruct (Tm _ _ _ F) as [-> T].
      assert (D : due seconds period t0 y + Z.max 0 d < v_now (fst j)).
      { unfold due in *. rewrite (Z.max_r 0 period) in * by lia. assert (Z.of_nat (S y) * period <= Z.of_nat x * period) by (apply Z.mul_le_mono_nonneg_r; lia). lia. }
      apply In_ in D. apply (in_map (fun x => snd (fst x))) in D. exact D. }
    exists (length l). split.
    - unfold beats. rewrite <- E. unfold l, j_asked. rewrite map_map. apply map_ext_in. intros [[n i] t] F. cbn. rewrite (El _ _ _ F). destruct (Tm _ _ _ F) as [-> _]. f_equal. unfold due. lia.
    - intros i H. assert (D : due seconds period t0 i + Z.max 0 d < v_now (fst j)) by (unfold due, j_now in *; rewrite (Z.max_r 0 period) by lia; lia).
      apply In_ in D. apply (in_map (fun x => snd (fst x))) in D. cbn in D. fold l in D. rewrite E in D. apply in_seq in D. lia.
  Qed.

  (** ** An interval that is faster than debounce *)
  Lemma j_fast t0 h j : jreach seconds period d (j_prompt seconds) t0 h j -> period <> 0 -> period < d -> 0 < d -> ~ In JCancel h -> j_asked j = [].
  Proof.
    intros R Pz Lp Ld C. destruct (jreach_prompt R) as (hk & hd & P). pose proof (jp_punct P (fun _ _ H => H)) as Pu. unfold j_asked.
    destruct (d_log (snd j)) as [|[[n i] t] l] eqn:E; [reflexivity|exfalso].
    assert (F : In (n, i, t) (d_log (snd j))) by (rewrite E; now left).
    pose proof (log_elements P Pz C _ _ _ F) as ->. destruct (d_window_sound (jp_d P) Pu _ _ _ F) as (a & Ha & Et & Hb). destruct (arrival_due P Pz _ Ha) as [_ ->].
    assert (T : t <= v_now (fst j)) by (rewrite <- (jp_now P); exact (di_logt (di_reach (jp_d P)) _ _ _ F)).
    assert (D : due seconds period t0 (S i) < due seconds period t0 i + Z.max 0 d) by (unfold due; nia).
    pose proof (beat_over P Pz C (S i) ltac:(lia)) as N. specialize (Hb _ _ _ (Nat.lt_succ_diag_r i) N). lia.
  Qed.

  (** ** A timer *)
  Lemma quiet_reactions t0 (h : list (Debounce.dlabel nat)) : darrivals t0 h = [] -> forall x, In x (reactions [] h) -> fst x = OnCompleted.
  Proof.
    induction h as [|l h IH] using rev_ind; intros Ha x Hx; [contradiction|]. rewrite darrivals_snoc in Ha. apply app_eq_nil in Ha as [Ha Hl].
    rewrite (reactions_snoc h l [] t0), Ha in Hx. cbn [map app] in Hx. apply in_app_or in Hx as [Hx|Hx]; [now apply IH|].
    destruct l as [dt|n|i| |]; cbn in Hx, Hl; try contradiction; try discriminate.
    - now destruct i.
    - destruct Hx as [<-|[]]. reflexivity.
  Qed.

  Lemma j_timer (ok : jstate -> jlabel -> Prop) t0 h j : jreach seconds period d ok t0 h j -> period = 0 -> j_idle j -> j_made j <> [] ->
    exists r, map fst (j_asked j) = OnCompleted :: r.
  Proof.
    intros R P0 W M. destruct (jreach_any R) as (hk & hd & P). destruct (jp_timer P P0) as [F|(h1 & h2 & F & E)].
    { elim M. unfold j_made. now rewrite <- (jp_calls P). }
    unfold j_asked. rewrite map_map. cbn [fst]. rewrite <- (map_map fst fst), (d_exact (jp_d P) W), E.
    assert (G : exists past, reactions [] (h1 ++ Debounce.DArr (OnNext 0%nat) :: Debounce.DArr OnCompleted :: h2) = reactions [] h1 ++ reactions past (Debounce.DArr (OnNext 0%nat) :: Debounce.DArr OnCompleted :: h2)) by apply reactions_app.
    destruct G as [past ->]. pose proof (@quiet_reactions t0 h1 F) as Q. destruct (reactions [] h1) as [|x l]; cbn.
    - eauto.
    - rewrite (Q x (or_introl eq_refl)). eauto.
  Qed.
End DebouncedProofs.

(** ** Checking concrete histories *)
Definition j_prompt_b (seconds : Z) (j : jstate) (l : jlabel) : bool :=
  match l with
  | JTick dt =>
      match ivwork seconds (fst j) with None => match v_phase (fst j) with ISleep u _ => v_now (fst j) + dt <=? u | _ => true end | Some _ => false end &&
      match d_box (snd j) with [] => forallb (fun x => (d_now (snd j) + dt <=? snd x) && (d_now (snd j) <? snd x)) (d_timers (snd j)) | _ => false end
  | _ => true
  end.
Fixpoint j_run (seconds period d : Z) (j : jstate) (h : list jlabel) : option jstate :=
  match h with
  | [] => Some j
  | l :: h => if j_prompt_b seconds j l then match jstep seconds period d j l with Some j' => j_run seconds period d j' h | None => None end else None
  end.
Lemma j_prompt_ok seconds j l : j_prompt_b seconds j l = true -> j_prompt seconds j l.
Proof.
  destruct l as [dt| | | |]; cbn [j_prompt_b]; intros H; try exact I. apply andb_prop in H as [H1 H2]. cbn.
  destruct (ivwork seconds (fst j)); [discriminate|]. split; [reflexivity|]. split; [destruct (v_phase (fst j)); auto; now apply Z.leb_le|].
  destruct (d_box (snd j)); [|discriminate]. split; [reflexivity|]. intros n i u Hx. rewrite forallb_forall in H2. specialize (H2 _ Hx). cbn in H2.
  apply andb_prop in H2 as [A B]. apply Z.leb_le in A. apply Z.ltb_lt in B. auto.
Qed.
Lemma j_run_ok seconds period d t0 h : forall h0 j j', jreach seconds period d (j_prompt seconds) t0 h0 j -> j_run seconds period d j h = Some j' ->
  jreach seconds period d (j_prompt seconds) t0 (h0 ++ h) j'.
Proof.
  induction h as [|l h IH]; intros h0 j j' R E; cbn [j_run] in E; [injection E as <-; now rewrite app_nil_r|].
  destruct (j_prompt_b seconds j l) eqn:B; [|discriminate]. destruct (jstep seconds period d j l) as [j1|] eqn:S; [|discriminate].
  replace (h0 ++ l :: h) with ((h0 ++ [l]) ++ h) by now rewrite <- app_assoc. eapply IH; [|exact E]. econstructor; [exact R|now apply j_prompt_ok|exact S].
Qed.
