(** * Proofs about programs that are disposed. *)
From Verif Require Import Properties9 Properties24 SourceProofs ColdProofs ColdCatchProofs ColdSwitchProofs SwitchAnyProofs LawsProofs PairProofs DebounceProofs TimedProofs ProgramsProofs Programs2Proofs Programs6 Programs6Proofs Programs7.
From Verif Require TimeProofs.
Set Implicit Arguments.

Lemma up_to_cut A (P Q : list (notif A) -> Prop) l : (forall m, P m -> up_to Q m) -> up_to P l -> up_to Q l.
Proof. intros H (m & Hm & Pl). destruct (H m Hm) as (m' & Hm' & Pl'). exists m'. split; [exact Hm'|exact (prefix_trans Pl Pl')]. Qed.

(** ** Sources *)
Lemma trun_any A (w : worker A) h t l : (forall o, w <> WAsync o) -> trun (TNew w) h = (t, l) -> t = TNew w /\ l = [] \/ t = TOver /\ (l = [] \/ l = tcalls w).
Proof.
  intros Hw. revert t l. induction h as [|x h IH] using rev_ind; intros t l E; [injection E as <- <-; now left|].
  rewrite trun_snoc in E. destruct (trun (TNew w) h) as [t1 l1]. destruct (IH t1 l1 eq_refl) as [[-> ->]|[-> Hl]].
  - destruct x; destruct w as [xs e|e|o]; try (now elim (Hw o)); cbn in E; injection E as <- <-; auto.
  - destruct x; cbn in E; injection E as <- <-; rewrite app_nil_r; auto.
Qed.
Lemma finally_all A (s : source A) : finally (psys well_behaved (src_pipe s PEnd)) (all_calls s) (trace (fst (source_means s)) (snd (source_means s))).
Proof.
  destruct (source_trace s) as ((h & st & R & N & D) & E & _). rewrite <- (E h st R N D). apply done_over in D as [Ho Q]. destruct (src_inv R) as [I1 I2].
  destruct (trun_src s _ N) as [_ T]. rewrite T in I2 by congruence. exists (s_obv st). auto.
Qed.
Lemma source_cut A (s : source A) h st : (forall o, src_task s <> TNew (WAsync o)) -> src_reach well_behaved s PEnd h st ->
  prefix (src_log well_behaved s PEnd st) (trace (fst (source_means s)) (snd (source_means s))).
Proof.
  intros Hs R. assert (P : prefix (made_calls (src_body s) ++ snd (trun (src_task s) h)) (all_calls s)).
  { unfold all_calls. destruct (src_task_shape s) as [E|[w E]]; rewrite E; [rewrite trun_over; apply prefix_refl|]. rewrite E in Hs.
    destruct (trun (TNew w) h) as [t l] eqn:Et. cbn [snd]. destruct (@trun_any _ w h t l) as [[_ ->]|[_ [-> | ->]]]; [intros o ->; exact (Hs o eq_refl)|exact Et|apply prefix_app_l, prefix_nil..|apply prefix_refl]. }
  destruct P as [r P]. eapply (sees_prefix (sane_psys _ _) r); [exact (src_sees R)|]. rewrite <- P. apply finally_all.
Qed.
Lemma source_pipe A (s : source A) : src_task s = TOver \/ src_pipe s (@PEnd A) = safe PEnd.
Proof. revert s. fix IH 1. intros [w|v| | |[s|e]]; cbn; auto. Qed.
Lemma source_grammatical A (s : source A) h st : src_reach well_behaved s PEnd h st -> grammatical (src_log well_behaved s PEnd st).
Proof.
  intros R. destruct (source_pipe s) as [E|E].
  - eapply grammatical_prefix; [apply source_cut with (2 := R); rewrite E; discriminate|]. now eexists _, _.
  - pose proof (src_sees R) as S. remember (src_log well_behaved s PEnd st) as l. clear -E S. rewrite E in S. exact (sees_grammatical S).
Qed.

(** ** merge *)
Section Merge.
  Context {O A : Type} (maxc : Z).
  Implicit Types (h : list (mlabel O A)) (s : mstate O A).

  (** The same mailbox without some of the requests to dispose. *)
  Inductive without : list (mmsg O) -> list (mmsg O) -> Prop :=
  | wo_nil : without [] []
  | wo_keep m l l' : without l l' -> without (m :: l) (m :: l')
  | wo_drop l l' : without l l' -> without (MDispose :: l) l'.
  Lemma wo_snoc m l l' : without l l' -> without (l ++ [m]) (l' ++ [m]).
  Proof. induction 1; cbn; [apply wo_keep, wo_nil|now apply wo_keep|now apply wo_drop]. Qed.
  Lemma wo_more l l' : without l l' -> without (l ++ [MDispose]) l'.
  Proof. induction 1; cbn; [apply wo_drop, wo_nil|now apply wo_keep|now apply wo_drop]. Qed.

  Definition shown (l : list (effect O A)) : list (effect O A) := filter (fun x => match x with EDispose _ => false | _ => true end) l.
  Lemma shown_requests (l l' : list (effect O A)) : shown l = shown l' -> requests l = requests l'.
  Proof.
    assert (E : forall m : list (effect O A), requests m = requests (shown m)) by (induction m as [|[k o|k|n] m IH]; unfold requests, shown in *; cbn; rewrite ?IH; reflexivity).
    intros H. now rewrite (E l), (E l'), H.
  Qed.
  Lemma shown_sub (l l' : list (effect O A)) k o : shown l = shown l' -> In (ESub k o) l' -> In (ESub k o) l.
  Proof. intros H F. assert (G : In (ESub k o) (shown l')) by (apply filter_In; auto). rewrite <- H in G. now apply filter_In in G. Qed.
  Lemma shown_begun k s s' : shown (m_log s) = shown (m_log s') -> begun k s = begun k s'.
  Proof.
    assert (E : forall m : list (effect O A), existsb (fun x => match x with ESub j _ => j =? k | _ => false end) m = existsb (fun x => match x with ESub j _ => j =? k | _ => false end) (shown m))
      by (induction m as [|[j o|j|n] m IH]; unfold shown in *; cbn; rewrite ?IH; reflexivity).
    intros H. unfold begun. now rewrite (E (m_log s)), (E (m_log s')), H.
  Qed.
  Lemma shown_app (l m : list (effect O A)) : shown (l ++ m) = shown l ++ shown m.
  Proof. apply filter_app. Qed.

  (** The run without the cancellations: the worker is in the same place, or it
      was stopped by one of them, and here it waits for ever. *)
  Definition alongside s s' : Prop :=
    (exists box', without (m_box s) box' /\ s' = MState box' (m_subs s) (m_queue s) (m_stopped s) (m_key s) (m_phase s) (m_log s)) \/
    ((exists k r, m_phase s = WDisp (k :: r)) \/ m_phase s = WEnded) /\ shown (m_log s) = shown (m_log s').

  Lemma uncancel h s : mreach maxc h s -> never_fails h ->
    exists h' s', mreach maxc h' s' /\ ~ In LCancel h' /\ never_fails h' /\ outer_calls h' = outer_calls h /\ (forall k, inner_calls k h' = inner_calls k h) /\ alongside s s'.
  Proof.
    induction 1 as [|h s l s1 R IH E]; intros Hf.
    - exists [], m_init. split; [constructor|]. split; [tauto|]. split; [exact Hf|]. split; [reflexivity|]. split; [reflexivity|]. left. exists []. split; [constructor|reflexivity].
    - assert (Hf' : never_fails h) by (intros e F; apply (Hf e), in_or_app; now left).
      destruct (IH Hf') as (h' & s' & R' & N & F & Eo & Ei & Al). clear IH.
      assert (Stay : outer_calls [l] = [] -> (forall k, inner_calls k [l] = []) -> alongside s1 s' ->
        exists h' s', mreach maxc h' s' /\ ~ In LCancel h' /\ never_fails h' /\ outer_calls h' = outer_calls (h ++ [l]) /\ (forall k, inner_calls k h' = inner_calls k (h ++ [l])) /\ alongside s1 s').
      { intros E1 E2 Al'. exists h', s'. repeat (split; [assumption|]). split; [|split; [|exact Al']].
        - now rewrite outer_snoc', E1, app_nil_r.
        - intros k. now rewrite inner_snoc, E2, app_nil_r. }
      assert (Move : forall s1', mstep maxc s' l = Some s1' -> l <> LCancel -> (forall e, l <> LFail e) -> alongside s1 s1' ->
        exists h' s', mreach maxc h' s' /\ ~ In LCancel h' /\ never_fails h' /\ outer_calls h' = outer_calls (h ++ [l]) /\ (forall k, inner_calls k h' = inner_calls k (h ++ [l])) /\ alongside s1 s').
      { intros s1' E' Nc Nf Al'. exists (h' ++ [l]), s1'. split; [exact (mr_snoc _ R' E')|]. split; [rewrite in_app_iff; cbn; intuition congruence|].
        split; [intros e; rewrite in_app_iff; cbn; intros [G|[G|[]]]; [exact (F e G)|exact (Nf e G)]|].
        split; [now rewrite !outer_snoc', Eo|]. split; [|exact Al']. intros k. now rewrite !inner_snoc, Ei. }
      destruct l as [[o|e|]|k n| | |e].
      + cbn in E. injection E as <-. apply Move with (s1' := post (MInner o) s'); try discriminate; [reflexivity|].
        destruct Al as [(box & W & ->)|[P Sh]]; [left|right; split; [exact P|exact Sh]]. exists (box ++ [MInner o]). split; [now apply wo_snoc|reflexivity].
      + cbn in E. injection E as <-. apply Move with (s1' := post MDispose (emit (EReq (OnError e)) s')); try discriminate; [reflexivity|].
        destruct Al as [(box & W & ->)|[P Sh]]; [left|right; split; [exact P|]]. { exists (box ++ [MDispose]). split; [now apply wo_snoc|reflexivity]. }
        cbn. now rewrite !shown_app, Sh.
      + cbn in E. injection E as <-. apply Move with (s1' := post MOuterDone s'); try discriminate; [reflexivity|].
        destruct Al as [(box & W & ->)|[P Sh]]; [left|right; split; [exact P|exact Sh]]. exists (box ++ [MOuterDone]). split; [now apply wo_snoc|reflexivity].
      + cbn in E. destruct (begun k s) eqn:Eb; [|discriminate]. injection E as <-.
        assert (Eb' : begun k s' = true). { destruct Al as [(box & W & ->)|[P Sh]]; [exact Eb|]. now rewrite <- (@shown_begun k s s' Sh). }
        eapply Move; try discriminate; [cbn; rewrite Eb'; reflexivity|].
        destruct Al as [(box & W & ->)|[P Sh]].
        * left. destruct n as [v|e|]; [exists box|exists box|exists (box ++ [MInnerDone k])]; (split; [|reflexivity]); [exact W|exact W|now apply wo_snoc].
        * right. split; [destruct n; exact P|]. destruct n; cbn [m_log emit post]; rewrite ?shown_app, ?Sh; reflexivity.
      + (* cancel *)
        cbn in E. injection E as <-. apply Stay; [reflexivity|reflexivity|].
        destruct Al as [(box & W & ->)|[P Sh]]; [left|right; split; [exact P|exact Sh]]. exists box. split; [now apply wo_more|reflexivity].
      + (* work *)
        cbn in E. destruct Al as [(box & W & ->)|[P Sh]].
        * unfold work in E. destruct (m_phase s) as [|subs q|[|k r]| |] eqn:Ep; try discriminate.
          -- destruct (m_box s) as [|m b] eqn:Ebx; [discriminate|]. injection E as <-. inversion W as [|m' b' box' W'|b' box' W']; subst.
             ++ eapply Move; try discriminate; [cbn; unfold work; cbn; reflexivity|]. left. exists box'.
                destruct m as [o|j| |]; unfold update, room, store, at_phase, emit; cbn.
                ** destruct ((maxc =? 0)%Z || _); (split; [exact W'|reflexivity]).
                ** destruct (m_queue s); [destruct (remove_key j (m_subs s)); [destruct (m_stopped s)|]|]; (split; [exact W'|reflexivity]).
                ** destruct (m_subs s); (split; [exact W'|reflexivity]).
                ** destruct (m_subs s); (split; [exact W'|reflexivity]).
             ++ apply Stay; [reflexivity|reflexivity|]. right. unfold update, store, at_phase. cbn. destruct (m_subs s) as [|k r]; cbn; (split; [eauto|reflexivity]).
          -- injection E as <-. eapply Move; try discriminate; [cbn; unfold work; cbn; reflexivity|]. left. exists box. split; [exact W|reflexivity].
          -- injection E as <-. eapply Move; try discriminate; [cbn; unfold work; cbn; reflexivity|]. left. exists box. destruct r; (split; [exact W|reflexivity]).
        * unfold work in E. apply Stay; [reflexivity|reflexivity|]. right. destruct P as [(k & r & P)|P]; rewrite P in E; [|discriminate]. injection E as <-.
          destruct r as [|k' r]; cbn; rewrite shown_app, Sh; cbn; rewrite app_nil_r; (split; [eauto|reflexivity]).
      + exfalso. apply (Hf e), in_or_app. right. now left.
  Qed.
  Lemma alongside_shown s s' : alongside s s' -> shown (m_log s) = shown (m_log s').
  Proof. intros [(box & _ & ->)|[_ E]]; [reflexivity|exact E]. Qed.
End Merge.

(** ** interval *)
Lemma interval_uncut sec per l : interval_cut sec per l -> exists l', interval_calls sec per l' /\ l' = l.
Proof.
  intros (t0 & h & s & R & N & <-).
  assert (G : exists h' s', ivreach sec per t0 h' s' /\ ~ In XCancel h' /\ (forall x, ~ In (XRaise x) h') /\ (s' = s \/ v_phase s = IDone /\ v_log s' = v_log s)).
  { induction R as [|h s l s1 R IH E]; [exists [], (iv_init t0); split; [constructor|auto]|].
    destruct IH as (h' & s' & R' & N1 & N2 & H); [intros x F; apply (N x), in_or_app; now left|].
    assert (Nr : forall x, l <> XRaise x) by (intros x ->; apply (N x), in_or_app; right; now left).
    destruct H as [->|[Ph El]].
    - destruct l as [dt|n| | |x|]; try (eexists (h' ++ [_]), s1; split; [exact (ir_snoc _ R' E)|]; split; [rewrite in_app_iff; cbn; intuition discriminate|];
        split; [intros y; rewrite in_app_iff; cbn; intros [F|[F|[]]]; [exact (N2 y F)|discriminate]|now left]).
      + now elim (Nr x).
      + cbn in E. injection E as <-. exists h', s. repeat (split; [assumption|]). destruct (v_phase s) eqn:Ep; try (right; split; reflexivity).
        left. destruct s as [a b c d]. cbn in *. now rewrite Ep.
    - exists h', s'. repeat (split; [assumption|]). right. destruct l as [dt|n| | |x|]; cbn in E; try discriminate.
      + destruct (0 <? dt)%Z; [|discriminate]. now injection E as <-.
      + unfold ivwork in E. rewrite Ph in E. discriminate.
      + rewrite Ph in E. discriminate.
      + now elim (Nr x).
      + injection E as <-. cbn. now rewrite Ph. }
  destruct G as (h' & s' & R' & N1 & N2 & H). exists (map fst (v_log s')). split; [exists t0, h', s'; auto|]. destruct H as [->|[_ ->]]; reflexivity.
Qed.

(** ** Disposing shows nothing new *)
Theorem cut_so_far A (c : cold A) : undisturbed c -> forall l, cut c l -> up_to (so_far c) l.
Proof.
  induction c as [A s|A B g c IH|X A maxc c inner IH IHi|A c handler IH IHh|A B C k c d IHc IHd|X A c inner IH IHi|A k c IH|sec per|A n c IH|A P] using cold_induct; intros Hu l Hl.
  - destruct Hl as (h & st & R & <-). exists (trace (fst (source_means s)) (snd (source_means s))). split; [apply last_moment; now apply makes_from|].
    apply source_cut with (2 := R). intros o E. cbn in Hu. now rewrite E in Hu.
  - destruct Hl as (ms & Hc & Hs). destruct (IH Hu ms Hc) as (ms' & Hm & P). destruct (goes_on (sane_psys _ _) Hs P) as (l' & D & Pl).
    exists l'. split; [|exact Pl]. exists ms'. split; [exact Hm|exact (delivers_sees D)].
  - destruct Hl as (ms & h & s & Hc & R & N2 & P & Hi & S). destruct Hu as [Hu Hui]. destruct (IH Hu ms Hc) as (ms' & Hm & Pm).
    destruct (uncancel R N2) as (h' & s' & R' & N1' & N2' & Eo & Ei & Al). apply alongside_shown in Al.
    exists l. split; [|apply prefix_refl]. exists ms', h', s'. repeat (split; [assumption|]). split; [rewrite Eo; exact (prefix_trans P (placed_prefix Pm 0))|].
    split; [|rewrite <- (shown_requests _ _ Al); exact S]. intros k x i Hk. rewrite Ei. exact (up_to_cut (IHi x (Hui x)) (Hi k x i (@shown_sub _ _ _ _ _ _ Al Hk))).
  - destruct Hl as (h & s & R & N & H & <-). destruct Hu as [Hu Huh]. exists (requests (c_log s)). split; [|apply prefix_refl]. exists h, s. repeat (split; [assumption|]). split; [|reflexivity].
    intros k o Ho. specialize (H k o Ho). destruct o as [x|]; [|exact (up_to_cut (IH Hu) H)]. specialize (IHh x). specialize (Huh x). destruct (handler x); [exact (up_to_cut (IHh Huh) H)|exact H].
  - destruct Hl as (ms & Hc & Hd & S). destruct Hu as [Hu1 Hu2]. destruct (IHc Hu1 _ Hc) as (m1 & H1 & [r1 P1]), (IHd Hu2 _ Hd) as (m2 & H2 & [r2 P2]).
    destruct (goes_on (sane_pair k) S (ms' := ms ++ map Src r1 ++ map Oth r2)) as (l' & D & Pl); [now eexists|].
    exists l'. split; [|exact Pl]. exists (ms ++ map Src r1 ++ map Oth r2). rewrite !srcs_app, !oths_app, srcs_src, srcs_oth, oths_src, oths_oth, app_nil_r.
    cbn. rewrite <- P1, <- P2. split; [exact H1|]. split; [exact H2|exact (delivers_sees D)].
  - destruct Hu.
  - destruct Hl as (ms & Hc & Hs). destruct k as [d|d|d]; [|destruct Hu|]; destruct (IH Hu ms Hc) as (ms' & Hm & P).
    + destruct Hs as (t0 & h & s & R & N & <- & <-). exists ms'. split; [exists ms'; split; [exact Hm|apply shifts_moment; now apply delay_shifts]|].
      destruct (TimeProofs.x_never_early R) as (D & r & Ea & F). refine (prefix_trans _ P). rewrite Ea. exists (map fst r). rewrite map_app. f_equal.
      clear -F. induction F as [|x y a b [F1 _] _ IH]; cbn; [reflexivity|now rewrite F1, IH].
    + cbn in Hs. unfold up_to. cbn [so_far shifts_so_far]. destruct (0 <? d)%Z eqn:Ed.
      * destruct Hs as (ns & <- & I & S). destruct P as [r P]. destruct (interval_uncut I) as (l0 & I' & E0). rewrite E0 in I'.
        destruct (goes_on (@sane_sample A) S (ms' := ns ++ map Src r)) as (l' & D & Pl); [now eexists|].
        exists l'. split; [|exact Pl]. exists ms'. split; [exact Hm|]. exists (ns ++ map Src r). rewrite srcs_app, oths_app, srcs_src, oths_src, app_nil_r.
        split; [now symmetry|]. split; [exact I'|exact (delivers_sees D)].
      * subst l. exists ms'. split; [exists ms'; now split|exact P].
  - destruct (interval_uncut Hl) as (l0 & I' & ->). exists l. split; [exact I'|apply prefix_refl].
  - destruct Hl as (h & s & R & N & H & <-). exists (requests (c_log s)). split; [|apply prefix_refl]. exists h, s. repeat (split; [assumption|]). split; [|reflexivity].
    intros k o Ho. specialize (H k o Ho). destruct o as [|x]; [exact (up_to_cut (IH Hu) H)|exact H].
  - exists l. split; [exact Hl|apply prefix_refl].
Qed.

(** Without cancelling anything, [cut] is [so_far]. *)
Theorem so_far_cut A (c : cold A) : forall l, so_far c l -> cut c l.
Proof.
  induction c as [A s|A B g c IH|X A maxc c inner IH IHi|A c handler IH IHh|A B C k c d IHc IHd|X A c inner IH IHi|A k c IH|sec per|A n c IH|A P] using cold_induct; intros l Hl.
  - destruct Hl as (h & st & R & _ & E). now exists h, st.
  - destruct Hl as (ms & Hc & Hs). exists ms. auto.
  - destruct Hl as (ms & h & s & Hc & R & _ & N2 & P & Hi & S). exists ms, h, s. split; [auto|]. repeat (split; [assumption|]). split; [|exact S].
    intros k x i Hk. exact (up_to_incl _ (IHi x) (Hi k x i Hk)).
  - destruct Hl as (h & s & R & N & H & E). exists h, s. repeat (split; [assumption|]). split; [|exact E]. intros k o Ho. specialize (H k o Ho).
    destruct o as [x|]; [|exact (up_to_incl _ IH H)]. specialize (IHh x). destruct (handler x); [exact (up_to_incl _ IHh H)|exact H].
  - destruct Hl as (ms & Hc & Hd & S). exists ms. auto.
  - destruct Hl as (ms & h & s & Hc & R & _ & N2 & P & Hi & S). exists ms, h, s. split; [auto|]. repeat (split; [assumption|]). split; [|exact S].
    intros k x i Hk. exact (up_to_incl _ (IHi x) (Hi k x i Hk)).
  - destruct Hl as (ms & Hc & Hs). exists ms. split; [auto|]. destruct k as [d|d|d]; cbn in *.
    + destruct Hs as (t0 & h & s & R & _ & H). exists t0, h, s. tauto.
    + destruct Hs as (t0 & h & s & R & _ & H). exists t0, h, s. tauto.
    + destruct (0 <? d)%Z; [|exact Hs]. destruct Hs as (ns & E & (t0 & h & s & R & _ & H) & S). exists ns. split; [exact E|]. split; [exists t0, h, s; tauto|exact S].
  - destruct Hl as (t0 & h & s & R & _ & H). exists t0, h, s. tauto.
  - destruct Hl as (h & s & R & N & H & E). exists h, s. repeat (split; [assumption|]). split; [|exact E]. intros k o Ho. specialize (H k o Ho).
    destruct o as [|x]; [exact (up_to_incl _ IH H)|exact H].
  - exact Hl.
Qed.

(** ** The grammar holds all the same *)
Theorem cut_grammatical A (c : cold A) : forall l, cut c l -> grammatical l.
Proof.
  induction c as [A s|A B g c IH|X A maxc c inner IH IHi|A c handler IH IHh|A B C k c d IHc IHd|X A c inner IH IHi|A k c IH|sec per|A n c IH|A P] using cold_induct; intros l Hl.
  - destruct Hl as (h & st & R & <-). exact (source_grammatical R).
  - destruct Hl as (ms & Hc & Hs). destruct (IH ms Hc) as (us & d & ->). destruct (goes_on (sane_psys _ _) Hs (prefix_refl _)) as (l' & D & Pl).
    apply stage_delivers in D. subst l'. eapply grammatical_prefix; [exact Pl|]. now eexists _, _.
  - destruct Hl as (ms & h & s & _ & _ & _ & _ & _ & S). exact (sees_grammatical S).
  - destruct Hl as (h & s & R & N & H & <-). refine (playing_grammatical (catch_playing (fun _ _ _ => True) R N _)).
    intros k o Ho. specialize (H k o Ho). destruct o as [x|]; [|exact (prefix_grammatical IH H)].
    specialize (IHh x). destruct (handler x) as [c'|y]; [exact (prefix_grammatical IHh H)|contradiction].
  - destruct Hl as (ms & Hc & Hd & S). destruct (IHc _ Hc) as (xs & da & E1), (IHd _ Hd) as (ys & db & E2).
    destruct (goes_on (sane_pair k) S (prefix_refl ms)) as (l' & D & Pl). destruct (pair_sound k _ _ _ _ E1 E2 D) as (vs & e & _ & ->).
    eapply grammatical_prefix; [exact Pl|]. now eexists _, _.
  - destruct Hl as (ms & h & s & _ & _ & _ & _ & _ & S). exact (sees_grammatical S).
  - destruct Hl as (ms & Hc & Hs). destruct (IH ms Hc) as (xs & e & ->). destruct k as [d|d|d].
    + destruct Hs as (t0 & h & s & R & N & Ea & <-). eapply grammatical_prefix; [|now exists xs, e]. rewrite <- Ea.
      destruct (TimeProofs.x_never_early R) as (D & r & Er & F). rewrite Er. exists (map fst r). rewrite map_app. f_equal.
      clear -F. induction F as [|x y a b [F1 _] _ IH]; cbn; [reflexivity|now rewrite F1, IH].
    + destruct Hs as (t0 & h & s & _ & _ & S). exact (sees_grammatical S).
    + cbn in Hs. destruct (0 <? d)%Z eqn:Ed; [|subst l; now exists xs, e]. destruct Hs as (ns & E & I & S). destruct (interval_uncut I) as (l0 & I' & E0). rewrite E0 in I'.
      destruct (goes_on (@sane_sample A) S (prefix_refl ns)) as (l' & D & Pl). assert (Sh : shifts (Sample d) (trace xs e) l') by (cbn; rewrite Ed; now exists ns).
      apply shift_means in Sh as (vs & _ & ->). eapply grammatical_prefix; [exact Pl|]. now eexists _, _.
  - destruct (interval_uncut Hl) as (l0 & I' & ->). exact (@seen_grammatical nat (Ticking sec per) l I').
  - destruct Hl as (h & s & R & N & H & <-). refine (playing_grammatical (catch_playing (fun _ _ _ => True) R N _)).
    intros k o Ho. specialize (H k o Ho). destruct o as [|x]; [exact (prefix_grammatical IH H)|]. now exists [], (Failed x).
  - destruct Hl as [->|(vs & e & _ & Pl)]; [now exists [], Open|]. eapply grammatical_prefix; [exact Pl|]. now eexists _, _.
Qed.

Lemma caught_cut_calm A (c : cold A) handler l : cut (Caught c handler) l -> forall y, ~ In (OnError y) l.
Proof.
  intros (h & s & R & N & H & <-). refine (playing_calm (catch_playing (fun _ _ _ => True) R N _)).
  intros k o Ho. specialize (H k o Ho). destruct o as [x|]; [|exact (prefix_grammatical (@cut_grammatical A c) H)].
  destruct (handler x) as [c'|y]; [exact (prefix_grammatical (@cut_grammatical A c') H)|contradiction].
Qed.
Lemma retried_cut_calm A n (c : cold A) l : cut (Retried n c) l -> forall y, ~ In (OnError y) l.
Proof.
  intros (h & s & R & N & H & <-). refine (playing_calm (catch_playing (fun _ _ _ => True) R N _)).
  intros k o Ho. specialize (H k o Ho). destruct o as [|x]; [exact (prefix_grammatical (@cut_grammatical A c) H)|]. now exists [], (Failed x).
Qed.

(** ** Runs, for examples *)
Lemma dreach_run A d t0 (h : list (dlabel A)) : forall h0 s0 s, dreach d t0 h0 s0 ->
  fold_left (fun r l => match r with Some s => dstep d s l | None => None end) h (Some s0) = Some s -> dreach d t0 (h0 ++ h) s.
Proof.
  induction h as [|l h IH]; intros h0 s0 s H E; cbn in E; [injection E as <-; now rewrite app_nil_r|].
  destruct (dstep d s0 l) as [s1|] eqn:E1.
  - replace (h0 ++ l :: h) with ((h0 ++ [l]) ++ h) by (now rewrite <- app_assoc). apply IH with s1; [exact (dr_snoc _ H E1)|exact E].
  - exfalso. clear -E. induction h as [|x h IH]; cbn in E; [discriminate|exact (IH E)].
Qed.
Lemma sreach_fold O A (h : list (mlabel O A)) : forall h0 s0 s, sreach h0 s0 ->
  fold_left (fun r l => match r with Some s => sstep s l | None => None end) h (Some s0) = Some s -> sreach (h0 ++ h) s.
Proof.
  induction h as [|l h IH]; intros h0 s0 s H E; cbn in E; [injection E as <-; now rewrite app_nil_r|].
  destruct (sstep s0 l) as [s1|] eqn:E1.
  - replace (h0 ++ l :: h) with ((h0 ++ [l]) ++ h) by (now rewrite <- app_assoc). apply IH with s1; [exact (sr_snoc _ H E1)|exact E].
  - exfalso. clear -E. induction h as [|x h IH]; cbn in E; [discriminate|exact (IH E)].
Qed.
