(** * Proofs about programs at any moment. *)
From Verif Require Import Properties9 Properties24 ColdProofs ColdCatchProofs ColdSwitchProofs SwitchAnyProofs LawsProofs PairProofs DebounceProofs TimedProofs ProgramsProofs Programs2Proofs Programs6.
From Verif Require TimeProofs.
Set Implicit Arguments.

(** ** A pipeline goes on *)
Lemma delivers_any Z M (S : system Z M) : Sane S -> forall ms, exists l, delivers S ms l.
Proof. intros HS ms. destruct (finally_exists HS ms) as [l F]. exists l. now apply (delivers_iff HS). Qed.
Lemma goes_on Z M (S : system Z M) ms l : Sane S -> sees S ms l -> forall ms', prefix ms ms' -> exists l', delivers S ms' l' /\ prefix l l'.
Proof.
  intros HS H ms' [r ->]. destruct (delivers_any HS (ms ++ r)) as [l' D]. exists l'. split; [exact D|].
  apply (delivers_iff HS) in D. exact (sees_prefix HS _ H D).
Qed.
Lemma delivers_sees Z M (S : system Z M) ms l : delivers S ms l -> sees S ms l.
Proof. intros (F & _ & _). exact (finally_sees F). Qed.
Lemma sees_any Z M (S : system Z M) : Sane S -> forall ms, exists l, sees S ms l.
Proof. intros HS ms. destruct (delivers_any HS ms) as [l D]. exists l. exact (delivers_sees D). Qed.
Lemma sane_pair A B C (k : pairing A B C) : Sane (pair_sys k).
Proof. destruct k; cbn; [apply sane_msys|apply sane_msys|apply sane_ssys]. Qed.
Lemma sane_sample A : Sane (@sample_sys A A well_behaved PEnd).
Proof. apply sane_msys. Qed.

Lemma up_to_nil A (P : list (notif A) -> Prop) : (exists l, P l) -> up_to P [].
Proof. intros [l H]. exists l. split; [exact H|apply prefix_nil]. Qed.
Lemma up_to_incl A (P Q : list (notif A) -> Prop) l : (forall m, P m -> Q m) -> up_to P l -> up_to Q l.
Proof. intros H (m & Hm & Pl). exists m. auto. Qed.

(** ** Everything starts *)
Lemma debounce_arrivals A d t0 (ms : list (notif A)) : exists h s, dreach d t0 h s /\ ~ In DCancel h /\ map fst (darrivals t0 h) = ms.
Proof.
  induction ms as [|n ms (h & s & R & N & E)] using rev_ind; [exists [], (d_init t0); repeat split; [constructor|tauto]|].
  eexists (h ++ [DArr n]), _. split; [exact (dr_snoc (DArr n) R eq_refl)|]. split; [rewrite in_app_iff; cbn; intuition discriminate|].
  pose proof (@DebounceProofs.calls_snoc A t0 h (DArr n)) as C. unfold calls_in in C. rewrite C. cbn. now rewrite E.
Qed.
Lemma shift_starts A k (ms : list (notif A)) : exists l, shifts_so_far k ms l.
Proof.
  destruct k as [d|d|d]; cbn.
  - destruct (delay_run d ms) as (h & s & R & N & E & M & _). eexists. exists 0%Z, h, s. eauto.
  - destruct (debounce_arrivals d 0 ms) as (h & s & R & N & E).
    destruct (sees_any (sane_psys well_behaved (safe PEnd)) (map (fun x => fst (fst x)) (d_log s))) as [l S]. exists l, 0%Z, h, s. auto.
  - destruct (0 <? d)%Z; [|eauto]. destruct (sees_any (@sane_sample A) (map Src ms)) as [l S]. exists l, (map Src ms). rewrite srcs_src, oths_src.
    split; [reflexivity|]. split; [|exact S]. exists 0%Z, [], (iv_init 0). split; [constructor|]. repeat split; cbn; tauto.
Qed.
Lemma starts A (c : cold A) : exists l, so_far c l.
Proof.
  induction c as [A s|A B g c IH|X A maxc c inner IH IHi|A c handler IH IHh|A B C k c d IHc IHd|X A c inner IH IHi|A k c IH|sec per|A n c IH|A P] using cold_induct; cbn [so_far].
  - eexists. exists [], (src_init well_behaved s PEnd). split; [constructor|]. split; [tauto|reflexivity].
  - destruct IH as [ms H]. destruct (sees_any (sane_psys well_behaved (safe (op_of g PEnd))) ms) as [l S]. eauto.
  - destruct IH as [ms H]. destruct (sees_any (sane_psys (@well_behaved A) (safe PEnd)) []) as [l S]. exists l, ms, [], m_init.
    split; [exact H|]. split; [constructor|]. split; [tauto|]. split; [intros e []|]. split; [apply prefix_nil|]. split; [intros k x i []|exact S].
  - eexists. exists [], (c_init None tt). split; [constructor|]. split; [intros i e []|]. split; [intros k o []|reflexivity].
  - destruct IHc as [l1 H1], IHd as [l2 H2]. set (ms := map Src l1 ++ map Oth l2). destruct (sees_any (sane_pair k) ms) as [l S]. exists l, ms.
    unfold ms. rewrite srcs_app, oths_app, srcs_src, oths_src, srcs_oth, oths_oth, app_nil_r. auto.
  - destruct IH as [ms H]. destruct (sees_any (sane_psys (@well_behaved A) (safe PEnd)) []) as [l S]. exists l, ms, [], s_init.
    split; [exact H|]. split; [constructor|]. split; [tauto|]. split; [intros e []|]. split; [apply prefix_nil|]. split; [intros k x i []|exact S].
  - destruct IH as [ms H]. destruct (shift_starts k ms) as [l S]. eauto.
  - eexists. exists 0%Z, [], (iv_init 0). split; [constructor|]. split; [tauto|]. split; [intros x []|reflexivity].
  - eexists. exists [], (c_init ROrig n). split; [constructor|]. split; [intros i e []|]. split; [intros k o []|reflexivity].
  - exists []. now left.
Qed.

(** ** The end of a run is one of its moments *)
Lemma shifts_moment A k (ms l : list (notif A)) : shifts k ms l -> shifts_so_far k ms l.
Proof.
  destruct k as [d|d|d]; cbn.
  - intros (t0 & h & s & R & N & E & M & _ & _ & L). exists t0, h, s. auto.
  - intros (t0 & h & s & R & N & M & _ & _ & D). exists t0, h, s. repeat (split; [assumption|]). exact (delivers_sees D).
  - destruct (0 <? d)%Z; [|auto]. intros (ns & H1 & H2 & D). exists ns. repeat (split; [assumption|]). exact (delivers_sees D).
Qed.
Lemma last_moment A (c : cold A) : forall l, makes c l -> so_far c l.
Proof.
  induction c as [A s|A B g c IH|X A maxc c inner IH IHi|A c handler IH IHh|A B C k c d IHc IHd|X A c inner IH IHi|A k c IH|sec per|A n c IH|A P] using cold_induct; cbn [so_far makes]; intros l Hl.
  - destruct Hl as (h & st & R & N & D & E). eauto.
  - destruct Hl as (ms & H & D). exists ms. split; [auto|exact (delivers_sees D)].
  - destruct Hl as (ms & script & h & s & H & R & F & Fi & Hi & D). exists ms, h, s. destruct F as (F1 & F2 & F3 & F4).
    split; [auto|]. split; [exact R|]. split; [intros F; exact (F1 _ F eq_refl)|]. split; [exact F2|]. split; [exact F3|]. split; [|exact (delivers_sees D)].
    intros k x i Hk. exists (script (x, i)). split; [exact (IHi x _ (Hi k x i Hk))|exact (F4 k (x, i) Hk)].
  - destruct Hl as (content & h & s & R & [F1 F2] & Fi & Hi & E). exists h, s. split; [exact R|]. split; [exact F1|]. split; [|exact E].
    intros k o Hk. specialize (Hi k o Hk). specialize (F2 k o Hk). destruct o as [x|].
    + specialize (IHh x). destruct (handler x) as [c'|y]; [|exact Hi]. exists (script_of (content k (Some x))). auto.
    + exists (script_of (content k None)). auto.
  - destruct Hl as (ms & H1 & H2 & D). exists ms. repeat split; [auto|auto|exact (delivers_sees D)].
  - destruct Hl as (ms & script & h & s & H & R & F & Fi & Hi & D). exists ms, h, s. destruct F as (F1 & F2 & F3 & F4).
    split; [auto|]. split; [exact R|]. split; [intros F; exact (F1 _ F eq_refl)|]. split; [exact F2|]. split; [exact F3|]. split; [|exact (delivers_sees D)].
    intros k x i Hk. exists (script (x, i)). split; [exact (IHi x _ (Hi k x i Hk))|exact (F4 k (x, i) Hk)].
  - destruct Hl as (ms & H & S). exists ms. split; [auto|exact (shifts_moment k _ _ S)].
  - destruct (per =? 0)%Z; [|exact Hl]. destruct Hl as (t0 & h & s & R & N & E & _ & L). exists t0, h, s. auto.
  - destruct Hl as (content & h & s & R & [F1 F2] & Fi & Hi & E). exists h, s. split; [exact R|]. split; [exact F1|]. split; [|exact E].
    intros k o Hk. specialize (Hi k o Hk). specialize (F2 k o Hk). destruct o as [|x].
    + exists (script_of (content k ROrig)). auto.
    + rewrite Hi in F2. exact F2.
  - destruct Hl as (vs & e & Hp & ->). right. exists vs, e. split; [exact Hp|apply prefix_refl].
Qed.

(** What has been seen stays seen. *)
Section Stays.
  Context {L S : Type} (step : S -> L -> option S) (reach : list L -> S -> Prop) (init : S).
  Hypothesis Hnil : forall s, reach [] s -> s = init.
  Hypothesis Hsnoc : forall h l s', reach (h ++ [l]) s' -> exists s, reach h s /\ step s l = Some s'.
  Lemma reach_det h : forall s s', reach h s -> reach h s' -> s = s'.
  Proof.
    induction h as [|l h IH] using rev_ind; intros s s' R R'; [now rewrite (Hnil R), (Hnil R')|].
    destruct (Hsnoc _ _ R) as (a & Ra & Sa), (Hsnoc _ _ R') as (b & Rb & Sb). rewrite (IH a b Ra Rb) in Sa. congruence.
  Qed.
  Lemma reach_grows X (log : S -> list X) : (forall s l s', step s l = Some s' -> prefix (log s) (log s')) ->
    forall h2 h s s', reach h s -> reach (h ++ h2) s' -> prefix (log s) (log s').
  Proof.
    intros G. induction h2 as [|l h2 IH] using rev_ind; intros h s s' R R'.
    - rewrite app_nil_r in R'. rewrite (reach_det R R'). apply prefix_refl.
    - rewrite app_assoc in R'. destruct (Hsnoc _ _ R') as (a & Ra & Sa). exact (prefix_trans (IH _ _ _ R Ra) (G _ _ _ Sa)).
  Qed.
End Stays.
Lemma debounce_log A d t0 (h h2 : list (dlabel A)) s s' : dreach d t0 h s -> dreach d t0 (h ++ h2) s' -> prefix (d_log s) (d_log s').
Proof.
  apply (@reach_grows _ _ (dstep d) (dreach d t0) (d_init t0)).
  - intros x H. inversion H as [|h0 a l b _ _ E]; [reflexivity|]. destruct h0; discriminate.
  - intros h0 l x H. inversion H as [E|h1 a l1 b R1 S1 E]; [destruct h0; discriminate|]. apply app_inj_tail in E as [-> ->]. eauto.
  - intros a l b. unfold dstep, dwork. destruct l as [dt|n|i| |].
    + destruct (0 <? dt)%Z; [|discriminate]. intros [= <-]. apply prefix_refl.
    + intros [= <-]. apply prefix_refl.
    + destruct (dtimer i a) as [[n u]|]; [|discriminate]. destruct (u <=? d_now a)%Z; [|discriminate]. intros [= <-]. apply prefix_refl.
    + destruct (d_box a) as [|m r]; [discriminate|]. destruct (dmsg (d_cur a) m) as [out cur]. intros [= <-]. cbn. now eexists.
    + intros [= <-]. apply prefix_refl.
Qed.
Lemma interval_log sec per t0 h h2 s s' : ivreach sec per t0 h s -> ivreach sec per t0 (h ++ h2) s' -> prefix (v_log s) (v_log s').
Proof.
  apply (@reach_grows _ _ (ivstep sec per) (ivreach sec per t0) (iv_init t0)).
  - intros x H. inversion H as [|h0 a l b _ _ E]; [reflexivity|]. destruct h0; discriminate.
  - intros h0 l x H. inversion H as [E|h1 a l1 b R1 S1 E]; [destruct h0; discriminate|]. apply app_inj_tail in E as [-> ->]. eauto.
  - intros a l b. unfold ivstep, ivwork. destruct l as [dt|n| | |x|].
    + destruct (0 <? dt)%Z; [|discriminate]. intros [= <-]. apply prefix_refl.
    + discriminate.
    + destruct (v_phase a) as [|u n|n| | |]; try discriminate; [intros [= <-]; apply prefix_refl|]. destruct (u <=? v_now a)%Z; [|discriminate]. intros [= <-]. cbn. now eexists.
    + destruct (v_phase a) as [|u n|n| | |]; try discriminate; [|intros [= <-]; apply prefix_refl]. destruct (per =? 0)%Z; intros [= <-]; cbn; [now eexists|apply prefix_refl].
    + destruct (v_phase a); try discriminate; intros [= <-]; apply prefix_refl.
    + intros [= <-]. apply prefix_refl.
Qed.

(** ** Every moment can be continued to the end *)
Lemma shift_goes_on A k (ms l : list (notif A)) xs e : shifts_so_far k ms l -> prefix ms (trace xs e) -> exists l', shifts k (trace xs e) l' /\ prefix l l'.
Proof.
  intros H P. destruct k as [d|d|d].
  - destruct H as (t0 & h & s & R & N & E & <- & <-). exists (trace xs e). split; [now apply delay_shifts|].
    destruct (TimeProofs.x_never_early R) as (D & r & Ea & F). refine (prefix_trans _ P). rewrite Ea. exists (map fst r). rewrite map_app. f_equal.
    clear -F. induction F as [|x y a b [F1 _] _ IH]; cbn; [reflexivity|now rewrite F1, IH].
  - destruct H as (t0 & h & s & R & N & <- & S). destruct P as [r P].
    assert (G : forall r (h : list (dlabel A)) s, dreach d t0 h s -> ~ In DCancel h -> exists h' s', dreach d t0 h' s' /\ ~ In DCancel h' /\ calls_in t0 h' = calls_in t0 h ++ r /\ prefix (d_log s) (d_log s')).
    { clear. induction r as [|n r IH]; intros h s R N; [exists h, s; rewrite app_nil_r; repeat split; auto; apply prefix_refl|].
      pose proof (dr_snoc (DArr n) R eq_refl) as R1. destruct (IH _ _ R1) as (h' & s' & R' & N' & E' & P'); [rewrite in_app_iff; cbn; intuition discriminate|].
      exists h', s'. repeat (split; [assumption|]). rewrite E', DebounceProofs.calls_snoc, <- app_assoc. split; [reflexivity|exact P']. }
    destruct (G r h s R N) as (h1 & s1 & R1 & N1 & E1 & P1). unfold calls_in in E1. rewrite <- P in E1.
    destruct (@flush A d t0 h1 s1 R1) as (h2 & s2 & R2 & B2 & T2 & Q2).
    assert (P2 : prefix (d_log s1) (d_log s2)) by exact (@debounce_log A d t0 h1 h2 s1 s2 R1 R2).
    destruct (goes_on (sane_psys well_behaved (safe PEnd)) S (ms' := map (fun x => fst (fst x)) (d_log s2))) as (l' & D & Pl).
    { apply prefix_map. exact (prefix_trans P1 P2). }
    exists l'. split; [|exact Pl]. exists t0, (h1 ++ h2), s2. split; [exact R2|]. split.
    { rewrite in_app_iff. intros [F|F]; [exact (N1 F)|]. destruct (Q2 _ F) as [[dt F']|[[i F']|F']]; discriminate. }
    split; [rewrite (@calls_quiet A t0 h1 h2 Q2 : map fst _ = _); exact E1|]. auto.
  - cbn in *. destruct (0 <? d)%Z; [|subst l; eauto]. destruct H as (ns & <- & I & S). destruct P as [r P].
    destruct (goes_on (@sane_sample A) S (ms' := ns ++ map Src r)) as (l' & D & Pl); [now eexists|].
    exists l'. split; [|exact Pl]. exists (ns ++ map Src r). rewrite srcs_app, oths_app, srcs_src, oths_src, app_nil_r. auto.
Qed.

Section SExtend.
  Context {O A : Type} (content : O -> list A * ending) (os : list O) (oe : ending).
  Notation script := (fun o => script_of (content o)).
  Notation outer := (trace os oe).
  Implicit Types (h : list (mlabel O A)) (s : sstate O A).

  Lemma sextends h s : sreach h s -> sfollows script outer h s ->
    exists h' s', sreach (h ++ h') s' /\ sfollows script outer (h ++ h') s' /\ sfinished script outer (h ++ h') s' /\ prefix (w_log s) (w_log s').
  Proof.
    set (N := 4 * (length outer + list_sum (map (fun o => length (script o)) os))).
    intros H F. remember (N - length h) as n eqn:En. revert h s H F En. induction n as [n IH] using lt_wf_ind. intros h s H F En.
    destruct (sprogress H F) as [D|(l & s1 & Hs & F' & _)].
    - exists [], s. rewrite app_nil_r. repeat split; try apply F; try apply D; [exact H|apply prefix_refl].
    - pose proof (sr_snoc _ H Hs) as H1. pose proof (@sfinite O A content os oe _ _ H1 F') as L. fold N in L. rewrite app_length in L. cbn [length] in L.
      destruct (IH (N - length (h ++ [l]))) with (h := h ++ [l]) (s := s1) as (h' & s' & R & Fo & Fi & Pr); auto.
      + rewrite app_length. cbn [length]. lia.
      + exists (l :: h'), s'. replace (h ++ l :: h') with ((h ++ [l]) ++ h') by (now rewrite <- app_assoc). repeat split; auto; try apply Fo; try apply Fi.
        exact (prefix_trans (slog_grows _ _ Hs) Pr).
  Qed.
End SExtend.

Lemma placed_prefix X (a b : list (notif X)) : prefix a b -> forall i, prefix (placed i a) (placed i b).
Proof.
  intros [r ->]. induction a as [|n a IH]; intros i; [apply prefix_nil|]. destruct n; cbn; destruct (IH (S i)) as [q1 Q1], (IH i) as [q2 Q2];
    [exists q1; now rewrite Q1|exists q2; now rewrite Q2|exists q2; now rewrite Q2].
Qed.

(** Outcomes for all observables a source names, those that run being continued. *)
Lemma choose_contents X A (Q : X -> nat -> list A -> ending -> Prop) (xs : list X) : (forall i x, nth_error xs i = Some x -> exists us d, Q x i us d) ->
  exists content : X * nat -> list A * ending, forall i x, nth_error xs i = Some x -> Q x i (fst (content (x, i))) (snd (content (x, i))).
Proof.
  intros H. destruct (@choose_all (X * nat) (list A * ending) (fun o c => Q (fst o) (snd o) (fst c) (snd c)) (indexed 0 xs)) as [cs Hcs].
  { intros [x i] Hin. apply In_nth_error in Hin as [p E]. apply nth_indexed in E as [-> E]. destruct (H _ _ E) as (us & d & G). now exists (us, d). }
  exists (fun o => nth (snd o) cs ([], Open)). intros i x E. cbn.
  assert (Ei : nth_error (indexed 0 xs) i = Some (x, i)).
  { clear -E. enough (G : forall k, nth_error (indexed k xs) i = Some (x, k + i)) by exact (G 0). revert i E. induction xs as [|y xs IH]; intros [|i] E k; try discriminate; cbn in *.
    - injection E as ->. now rewrite Nat.add_0_r.
    - rewrite (IH _ E). do 2 f_equal. lia. }
  destruct (forall2_nth Hcs _ Ei) as (c & Ec & G). now rewrite (nth_error_nth _ _ _ Ec).
Qed.

Lemma nth_prefix X (a b : list X) p x : prefix a b -> nth_error a p = Some x -> nth_error b p = Some x.
Proof. intros [r ->] E. rewrite nth_error_app1; [exact E|]. apply nth_error_Some. congruence. Qed.

Section Parts.
  Context {X A : Type} (Runs : X -> list (notif A) -> Prop) (Means : X -> list A -> ending -> Prop).
  Hypothesis Hruns : forall x l, Runs x l -> exists us d, Means x us d /\ prefix l (trace us d).
  Hypothesis Hsome : forall x, exists l, Runs x l.

  Lemma part_contents (xs : list X) (sub : list (X * nat)) (calls : nat -> list (notif A)) : prefix sub (indexed 0 xs) ->
    (forall p x i, nth_error sub p = Some (x, i) -> up_to (Runs x) (calls p)) ->
    exists content : X * nat -> list A * ending,
      (forall i x, nth_error xs i = Some x -> Means x (fst (content (x, i))) (snd (content (x, i)))) /\
      (forall p o, nth_error sub p = Some o -> prefix (calls p) (script_of (content o))).
  Proof.
    intros P H. destruct (@choose_contents X A (fun x i us d => Means x us d /\ (i < length sub -> prefix (calls i) (trace us d))) xs) as [content C].
    - intros i x E. destruct (nth_error sub i) as [[y j]|] eqn:Si.
      + pose proof (nth_prefix _ P Si) as Si'. apply nth_indexed in Si' as [_ Si']. replace y with x in * by congruence.
        destruct (H _ _ _ Si) as (m & Rm & Pm). destruct (Hruns Rm) as (us & d & M & Pu). exists us, d. split; [exact M|]. intros _. exact (prefix_trans Pm Pu).
      + destruct (Hsome x) as [l Rl]. destruct (Hruns Rl) as (us & d & M & _). exists us, d. split; [exact M|]. intros L. apply nth_error_Some in L. contradiction.
    - exists content. split; [intros i x E; now apply C|]. intros p [x i] E. assert (L : p < length sub) by (apply nth_error_Some; congruence).
      apply (nth_prefix _ P), nth_indexed in E as [-> E]. unfold script_of. exact (proj2 (C _ _ E) L).
  Qed.
End Parts.

Lemma steady_bounded A (c : cold A) : steady c -> bounded c.
Proof.
  induction c as [A s|A B g c IH|X A maxc c inner IH IHi|A c handler IH IHh|A B C k c d IHc IHd|X A c inner IH IHi|A k c IH|sec per|A n c IH|A P] using cold_induct; cbn; auto.
  - intros (Hm & Hc & Hi). split; [exact Hm|]. split; [auto|]. intros x. auto.
  - intros (Hc & Hh). split; [auto|]. intros x. specialize (IHh x). specialize (Hh x). destruct (handler x); [tauto|exact I].
  - intros [Hc Hd]. auto.
  - intros (Hc & Hi). split; [auto|]. intros x. auto.
  - intros [Hc _]. auto.
Qed.

(** ** catch and retry, somewhere in the middle *)
Section Playing.
  Context {H O A : Type} (hd : H -> exn -> res O * H).
  Variable Means : O -> list A -> ending -> Prop.
  Definition quiet (e : ending) : ending := match e with Failed _ => Open | _ => e end.

  Inductive playing : H -> O -> list (notif A) -> Prop :=
  | pg_wait st o : playing st o []
  | pg_here st o us d l : Means o us d -> prefix l (trace us (quiet d)) -> playing st o l
  | pg_next st o us x o' st' l : Means o us (Failed x) -> hd st x = (Ok o', st') -> playing st' o' l -> playing st o (map OnNext us ++ l).

  Lemma prefix_filter X (f : X -> bool) (l m : list X) : prefix l m -> prefix (filter f l) (filter f m).
  Proof. intros [r ->]. rewrite filter_app. now eexists. Qed.

  Lemma chain_playing (act : nat -> list A * ending) l : forall k st o, l = answers hd st (ColdCatchProofs.ends act (seq k (S (length l)))) -> all_but_last_failed act k l ->
    late_raise hd st (ColdCatchProofs.ends act (seq k (S (length l)))) ->
    (forall j o', nth_error (o :: l) j = Some o' -> script_of (act (k + j)) = [] \/ exists us d, Means o' us d /\ prefix (script_of (act (k + j))) (trace us d)) ->
    playing st o (ColdCatchProofs.outs act (seq k (S (length l)))).
  Proof.
    induction l as [|o1 l IH]; intros k st o El Hf Hl Ha.
    - pose proof (Ha 0 o eq_refl) as E. rewrite Nat.add_0_r in E. unfold ColdCatchProofs.outs. cbn. rewrite app_nil_r.
      destruct E as [-> | (us & d & M & P)]; [apply pg_wait|]. apply pg_here with us d; [exact M|]. apply (prefix_filter (@not_error A)) in P. rewrite (not_error_trace us d) in P. exact P.
    - destruct (@chain_first H O A hd act k st (o1 :: l)) as (vs & x & o' & st' & l' & E1 & E2 & E3 & E4 & E5 & E6); auto; [discriminate|].
      injection E3 as <- <-. specialize (IH (S k) st' o1 E4 E5 E6).
      cbn [length]. rewrite outs_cons, E1. unfold script_of. cbn [fst snd]. rewrite not_error_trace. unfold trace. rewrite app_nil_r.
      apply pg_next with x o1 st'; [|exact E2|].
      + pose proof (Ha 0 o eq_refl) as E. rewrite Nat.add_0_r, E1 in E. unfold script_of in E. cbn [fst snd] in E. destruct E as [E|(us & d & M & P)]; [destruct vs; discriminate|].
        apply prefix_trace in P as [_ [P|[P1 P2]]]; [discriminate|]. congruence.
      + apply IH. intros j o' E. specialize (Ha (S j) o' E). now rewrite Nat.add_succ_r in Ha.
  Qed.

  Variables (src : O) (h0 : H).
  Lemma catch_playing h (s : cstate H O A) : creach hd src h0 h s -> no_failures h ->
    (forall k o, In (ESub k o) (c_log s) -> exists us d, Means o us d /\ prefix (calls_of k h) (trace us d)) ->
    playing h0 src (requests (c_log s)).
  Proof.
    intros Hr Hf Hm.
    assert (Hg : sources_grammatical h).
    { intros k. destruct (le_lt_dec (c_next s) k) as [L|L]; [rewrite (none_yet Hr L); now exists [], Open|].
      assert (Hk : In k (keys (c_log s))) by (rewrite (ci_keys (ci_reach Hr)); apply in_seq; lia).
      apply in_keys in Hk as [o Ho]. destruct (Hm k o Ho) as (us & d & _ & P). eapply grammatical_prefix; [exact P|]. now exists us, d. }
    rewrite <- (chain_outs Hr Hg Hf). apply chain_playing.
    - exact (chain_list Hr Hg Hf).
    - exact (chain_failed Hr Hg Hf).
    - exact (chain_late Hr Hg Hf).
    - intros j o Ej. cbn [Nat.add]. rewrite (acted_script Hg). destruct (chain_nth Hr Hg Hf _ Ej) as [Ho|L]; [right; exact (Hm j o Ho)|left; exact (none_yet Hr L)].
  Qed.

  Lemma playing_played l : playing h0 src l -> (exists us d, Means src us d) ->
    (forall us x o st, Means src us (Failed x) -> hd h0 x = (Ok o, st) -> (exists ws e, Means o ws e) /\ forall ws y, ~ Means o ws (Failed y)) ->
    exists cs vs e, played hd Means h0 src cs vs e /\ prefix l (trace vs e).
  Proof.
    assert (One : forall st o us d l', Means o us d -> (forall ws y, ~ Means o ws (Failed y)) -> prefix l' (trace us (quiet d)) ->
              exists cs, played hd Means st o cs us d /\ prefix l' (trace us d)).
    { intros st o us d l' M N P. assert (Hd : forall x, d <> Failed x) by (intros x ->; exact (N _ _ M)). exists [(us, d)]. split; [now apply pl_end|].
      destruct d as [|x|]; [exact P|now elim (Hd x)|exact P]. }
    intros Hp (us0 & d0 & M0) Hh.
    assert (Two : forall us d, Means src us d -> exists cs ws e, played hd Means h0 src cs (us ++ ws) e /\ forall l', prefix l' (trace us (quiet d)) -> prefix l' (trace (us ++ ws) e)).
    { intros us d M. destruct d as [|x|].
      - exists [(us, Open)], [], Open. rewrite app_nil_r. split; [apply pl_end; [exact M|discriminate]|auto].
      - destruct (hd h0 x) as [[o|y] st] eqn:E.
        + destruct (Hh _ _ _ _ M E) as [(ws & e & Mo) No]. destruct (One st o ws e [] Mo No (prefix_nil _)) as (cs & Po & _).
          exists ((us, Failed x) :: cs), ws, e. split; [now apply pl_next with o st|]. intros l' P. refine (prefix_trans P _). cbn. rewrite trace_app. unfold trace at 1. rewrite app_nil_r. now eexists.
        + exists [(us, Failed x)], [], Open. rewrite app_nil_r. split; [now apply pl_raise with y st|auto].
      - exists [(us, Completed)], [], Completed. rewrite app_nil_r. split; [apply pl_end; [exact M|discriminate]|auto]. }
    inversion Hp; subst.
    - destruct (Two _ _ M0) as (cs & ws & e & P & _). exists cs, (us0 ++ ws), e. split; [exact P|apply prefix_nil].
    - destruct (Two _ _ H0) as (cs & ws & e & P & Q). exists cs, (us ++ ws), e. auto.
    - destruct (Hh _ _ _ _ H0 H1) as [(ws & e & Mo) No].
      assert (X : exists cs ws e, played hd Means st' o' cs ws e /\ prefix l0 (trace ws e)).
      { inversion H2; subst.
        - destruct (One st' o' ws e [] Mo No (prefix_nil _)) as (cs & P & Q). eauto.
        - destruct (One st' o' us1 d l0 H3 No H4) as (cs & P & Q). eauto.
        - now elim (No _ _ H3). }
      destruct X as (cs & ws' & e' & P & Q). exists ((us, Failed x) :: cs), (us ++ ws'), e'. split; [now apply pl_next with o' st'|].
      rewrite trace_app. destruct Q as [r ->]. exists r. now rewrite app_assoc.
  Qed.
End Playing.

Definition catch_obs A (c : cold A) (handler : exn -> res (cold A)) (o : option exn) : list A -> ending -> Prop :=
  match o with
  | None => fun us d => makes c (trace us d)
  | Some x => match handler x with Ok c' => fun us d => makes c' (trace us d) | Err _ => fun _ _ => False end
  end.

Lemma catch_made A (c : cold A) handler cs vs e : played (answers_to handler) (catch_obs c handler) tt None cs vs e -> makes (Caught c handler) (trace vs e).
Proof.
  intros P. destruct (catch_complete P) as (content & h & s & H & F & D & G & E).
  exists content, h, s. split; [exact H|]. split; [exact F|]. split; [exact D|]. split; [|exact E].
  intros k o Hk. specialize (G k o Hk). destruct o as [x|]; cbn in G; [|exact G]. destruct (handler x) as [c'|y]; exact G.
Qed.

Lemma caught_steady A (c : cold A) handler :
  (forall l, so_far c l -> exists us d, makes c (trace us d) /\ prefix l (trace us d)) ->
  (forall x, match handler x with
             | Ok c' => reliable c' /\ forall l, so_far c' l -> exists us d, makes c' (trace us d) /\ prefix l (trace us d)
             | Err _ => True
             end) ->
  forall l, so_far (Caught c handler) l -> exists vs e, makes (Caught c handler) (trace vs e) /\ prefix l (trace vs e).
Proof.
  intros IH IHh l (h & s & R & N & H & <-).
  assert (P : playing (answers_to handler) (catch_obs c handler) tt None (requests (c_log s))).
  { apply (catch_playing (catch_obs c handler) R N). intros k o Ho. specialize (H k o Ho). destruct o as [x|]; cbn in *.
    - specialize (IHh x). destruct (handler x) as [c'|y]; [|contradiction]. destruct H as (m & Hm & Pm), IHh as [_ IHx]. destruct (IHx m Hm) as (us & d & M & Pd). exists us, d. split; [exact M|exact (prefix_trans Pm Pd)].
    - destruct H as (m & Hm & Pm), (IH m Hm) as (us & d & M & Pd). exists us, d. split; [exact M|exact (prefix_trans Pm Pd)]. }
  destruct (playing_played P) as (cs & vs & e & Pl & Pp).
  - destruct (starts c) as [m Hm], (IH m Hm) as (us & d & M & _). now exists us, d.
  - intros us x o st _ E. specialize (IHh x). unfold answers_to in E. destruct (handler x) as [c'|y] eqn:Ex; [|discriminate]. injection E as <- <-. cbn. rewrite Ex.
    destruct IHh as [Rc IHx]. split.
    + destruct (starts c') as [m Hm], (IHx m Hm) as (us' & d & M & _). now exists us', d.
    + intros ws y M. apply (Rc _ y M). apply in_or_app. right. now left.
  - exists vs, e. split; [exact (catch_made Pl)|exact Pp].
Qed.

Lemma retry_made A (c : cold A) n cs vs e : played retry_factory (retry_obs (fun us d => makes c (trace us d))) n ROrig cs vs e -> makes (Retried n c) (trace vs e).
Proof.
  intros P. destruct (catch_complete P) as (content & h & s & H & F & D & G & E).
  exists content, h, s. split; [exact H|]. split; [exact F|]. split; [exact D|]. split; [|exact E].
  intros k o Hk. specialize (G k o Hk). destruct o as [|x]; cbn in G; [exact G|]. destruct (content k (RFail x)) as [us d]. cbn in G. destruct G as [-> ->]. reflexivity.
Qed.

Lemma retry_playing A (c : cold A) n : (forall l, so_far c l -> exists us d, makes c (trace us d) /\ prefix l (trace us d)) ->
  forall l, so_far (Retried n c) l -> playing retry_factory (retry_obs (fun us d => makes c (trace us d))) n ROrig l.
Proof.
  intros IH l (h & s & R & N & H & <-). apply (catch_playing _ R N). intros k o Ho. specialize (H k o Ho). destruct o as [|x]; cbn in *.
  - destruct H as (m & Hm & Pm), (IH m Hm) as (us & d & M & Pd). exists us, d. split; [exact M|exact (prefix_trans Pm Pd)].
  - exists [], (Failed x). split; [auto|exact H].
Qed.

Theorem continues A (c : cold A) : steady c -> forall l, so_far c l -> exists vs e, makes c (trace vs e) /\ prefix l (trace vs e).
Proof.
  induction c as [A s|A B g c IH|X A maxc c inner IH IHi|A c handler IH IHh|A B C k c d IHc IHd|X A c inner IH IHi|A k c IH|sec per|A n c IH|A P] using cold_induct; intros Hb l Hl.
  - destruct Hl as (h & st & R & N & <-). eexists _, _. split; [now apply makes_from|]. exact (proj2 (proj2 (source_trace s)) h st R N).
  - destruct Hl as (ms & Hc & Hs). destruct (IH Hb ms Hc) as (us & d & M & P). destruct (goes_on (sane_psys _ _) Hs P) as (l' & D & Pl).
    pose proof D as D'. apply stage_delivers in D'. subst l'. eexists _, _. split; [|exact Pl]. exists (trace us d). auto.
  - destruct Hl as (ms & h & s & Hc & R & N1 & N2 & P & Hi & S). destruct Hb as (Hm & Hb & Hbi).
    destruct (IH Hb ms Hc) as (xs & oe & M & Pm). pose proof (prefix_trans P (placed_prefix Pm 0)) as P'. rewrite placed_trace in P'.
    assert (Psub : prefix (subscribed (m_log s)) (indexed 0 xs)).
    { refine (prefix_trans (proj1 (in_order R)) _). rewrite arrived_outer. rewrite <- (vals_trace (indexed 0 xs) oe). exact (prefix_flat_map _ P'). }
    destruct (@part_contents X A (fun x => so_far (inner x)) (fun x us d => makes (inner x) (trace us d)) (fun x => IHi x (Hbi x)) (fun x => starts (inner x))
      xs (subscribed (m_log s)) (fun p => inner_calls p h) Psub) as (content & C1 & C2).
    { intros p x i E. exact (Hi p x i (nth_sub _ R E)). }
    assert (F : follows (fun o => script_of (content o)) (trace (indexed 0 xs) oe) h s).
    { split; [intros x Hx ->; contradiction|]. split; [exact N2|]. split; [exact P'|]. intros k o Ho. exact (C2 k o (sub_nth k o R Ho)). }
    destruct (@extends_any _ _ maxc content (indexed 0 xs) oe h s R F) as (h' & s' & R' & F' & D' & Pl).
    destruct (goes_on (sane_psys well_behaved (safe PEnd)) S (ms' := requests (m_log s'))) as (l' & D & Pl').
    { unfold requests. exact (prefix_flat_map _ Pl). }
    assert (Mk : makes (Inner maxc c inner) l').
    { exists (trace xs oe), (fun o => script_of (content o)), (h ++ h'), s'. rewrite placed_trace. repeat (split; [assumption|]). split; [|exact D].
      intros k x i Hk. assert (E : nth_error (indexed 0 xs) k = Some (x, i)).
      { refine (nth_prefix _ _ (sub_nth _ _ R' Hk)). refine (prefix_trans (proj1 (in_order R')) _). destruct F' as (_ & _ & F3 & _). rewrite arrived_outer. rewrite <- (vals_trace (indexed 0 xs) oe). exact (prefix_flat_map _ F3). }
      apply nth_indexed in E as [-> E]. exact (C1 _ _ E). }
    destruct (sound _ (steady_bounded (Inner maxc c inner) (conj Hm (conj Hb Hbi))) _ Mk) as (vs & e & _ & ->). eauto.
  - destruct Hb as [Hb Hh]. apply caught_steady; [exact (IH Hb)| |exact Hl]. intros x. specialize (IHh x). specialize (Hh x). destruct (handler x); [tauto|exact I].
  - destruct Hl as (ms & Hc & Hd & S). destruct Hb as [Hbc Hbd]. destruct (IHc Hbc _ Hc) as (xs & da & Mc & [r1 P1]), (IHd Hbd _ Hd) as (ys & db & Md & [r2 P2]).
    destruct (goes_on (sane_pair k) S (ms' := ms ++ map Src r1 ++ map Oth r2)) as (l' & D & Pl); [now eexists|].
    assert (E1 : srcs (ms ++ map Src r1 ++ map Oth r2) = trace xs da) by (rewrite !srcs_app, srcs_src, srcs_oth, app_nil_r; now symmetry).
    assert (E2 : oths (ms ++ map Src r1 ++ map Oth r2) = trace ys db) by (rewrite !oths_app, oths_src, oths_oth; now symmetry).
    destruct (pair_sound k _ _ _ _ E1 E2 D) as (vs & e & _ & ->). exists vs, e. split; [|exact Pl]. eexists. rewrite E1, E2. eauto.
  - destruct Hl as (ms & h & s & Hc & R & N1 & N2 & P & Hi & S). destruct Hb as (Hb & Hbi).
    destruct (IH Hb ms Hc) as (xs & oe & M & Pm). pose proof (prefix_trans P (placed_prefix Pm 0)) as P'. rewrite placed_trace in P'.
    assert (Psub : prefix (subscribed (w_log s)) (indexed 0 xs)).
    { refine (prefix_trans (proj1 (s_in_order R)) _). rewrite arrived_outer. rewrite <- (vals_trace (indexed 0 xs) oe). exact (prefix_flat_map _ P'). }
    destruct (@part_contents X A (fun x => so_far (inner x)) (fun x us d => makes (inner x) (trace us d)) (fun x => IHi x (Hbi x)) (fun x => starts (inner x))
      xs (subscribed (w_log s)) (fun p => inner_calls (Datatypes.S p) h) Psub) as (content & C1 & C2).
    { intros p x i E. exact (Hi _ x i (snth_sub _ R E)). }
    assert (F : sfollows (fun o => script_of (content o)) (trace (indexed 0 xs) oe) h s).
    { split; [intros x Hx ->; contradiction|]. split; [exact N2|]. split; [exact P'|]. intros k o Ho. destruct (ssub_nth k o R Ho) as (j & -> & Ej). exact (C2 j o Ej). }
    destruct (@sextends _ _ content (indexed 0 xs) oe h s R F) as (h' & s' & R' & F' & D' & Pl).
    destruct (goes_on (sane_psys well_behaved (safe PEnd)) S (ms' := requests (w_log s'))) as (l' & D & Pl').
    { unfold requests. exact (prefix_flat_map _ Pl). }
    assert (Mk : makes (Switched c inner) l').
    { exists (trace xs oe), (fun o => script_of (content o)), (h ++ h'), s'. rewrite placed_trace. repeat (split; [assumption|]). split; [|exact D].
      intros k x i Hk. destruct (ssub_nth _ _ R' Hk) as (j & -> & Ej). assert (E : nth_error (indexed 0 xs) j = Some (x, i)).
      { refine (nth_prefix _ _ Ej). refine (prefix_trans (proj1 (s_in_order R')) _). destruct F' as (_ & _ & F3 & _). rewrite arrived_outer. rewrite <- (vals_trace (indexed 0 xs) oe). exact (prefix_flat_map _ F3). }
      apply nth_indexed in E as [-> E]. exact (C1 _ _ E). }
    destruct (sound _ (steady_bounded (Switched c inner) (conj Hb Hbi)) _ Mk) as (vs & e & _ & ->). eauto.
  - destruct Hl as (ms & Hc & Hs). destruct (IH Hb ms Hc) as (xs & e & M & P). destruct (@shift_goes_on _ k _ _ _ _ Hs P) as (l' & S & Pl).
    pose proof S as S'. apply shift_means in S' as (vs & _ & ->). exists vs, e. split; [|exact Pl]. exists (trace xs e). auto.
  - destruct (per =? 0)%Z eqn:Ep; [apply Z.eqb_eq in Ep as ->|].
    2:{ assert (M : makes (Ticking sec per) l) by (cbn; now rewrite Ep). pose proof M as M'. cbn in M'. apply ticking_makes in M' as (vs & e & _ & ->). exists vs, e. split; [exact M|apply prefix_refl]. }
    destruct Hl as (t0 & h & s & R & N1 & N2 & <-). destruct (C37_timer_ends R N1 N2) as (h2 & s' & R' & Q & D). exists [0], Completed. split; [now apply timer_makes|].
    assert (N' : ~ In XCancel (h ++ h2)). { rewrite in_app_iff. intros [F|F]; [exact (N1 F)|]. destruct (Q _ F) as [[dt E]|[E|E]]; discriminate. }
    destruct (C37_timer_complete R' N' D) as (t & t' & _ & _ & E). pose proof (prefix_map fst (interval_log _ R R')) as P. rewrite E in P. exact P.
  - destruct Hb as [Hb Rc]. destruct (playing_played (retry_playing (IH Hb) Hl)) as (cs & vs & e & Pl & Pp).
    + destruct (starts c) as [m Hm], (IH Hb m Hm) as (us & d & M & _). now exists us, d.
    + intros us x o st M _. exfalso. apply (Rc _ x M). apply in_or_app. right. now left.
    + exists vs, e. split; [exact (retry_made _ Pl)|exact Pp].
  - destruct Hl as [->|(vs & e & Hp & Pl)].
    + destruct Hb as (vs & e & Hp). exists vs, e. split; [now exists vs, e|apply prefix_nil].
    + exists vs, e. split; [now exists vs, e|exact Pl].
Qed.

(** ** Consequences *)
Lemma playing_grammatical H O A (hd : H -> exn -> res O * H) (Means : O -> list A -> ending -> Prop) st o l : playing hd Means st o l -> grammatical l.
Proof.
  induction 1 as [st o|st o us d l _ P|st o us x o' st' l _ _ _ IH].
  - now exists [], Open.
  - eapply grammatical_prefix; [exact P|]. now eexists _, _.
  - destruct IH as (vs & e & ->). rewrite <- trace_app. now eexists _, _.
Qed.
Lemma playing_calm H O A (hd : H -> exn -> res O * H) (Means : O -> list A -> ending -> Prop) st o l : playing hd Means st o l -> forall y, ~ In (OnError y) l.
Proof.
  induction 1 as [st o|st o us d l _ P|st o us x o' st' l _ _ _ IH]; intros y F.
  - exact F.
  - destruct P as [r E]. assert (G : In (OnError y) (trace us (quiet d))) by (rewrite E; apply in_or_app; now left).
    unfold trace in G. apply in_app_or in G as [G|G]; [apply in_map_iff in G as (? & ? & _); discriminate|].
    destruct d; cbn in G; try contradiction. destruct G as [G|[]]. discriminate.
  - apply in_app_or in F as [F|F]; [apply in_map_iff in F as (? & ? & _); discriminate|exact (IH y F)].
Qed.

Lemma sees_grammatical A (ms l : list (notif A)) : sees (psys well_behaved (safe PEnd)) ms l -> grammatical l.
Proof.
  intros S. destruct (goes_on (sane_psys well_behaved (safe PEnd)) S (prefix_refl ms)) as (l' & D & P). apply (delivers_iff (sane_psys _ _)), subscriber in D. subst l'.
  eapply grammatical_prefix; [exact P|apply norm_grammatical].
Qed.

Lemma prefix_grammatical A (P : list (notif A) -> Prop) l : (forall m, P m -> grammatical m) -> up_to P l -> exists us d, True /\ prefix l (trace us d).
Proof. intros H (m & Hm & Pl). destruct (H m Hm) as (us & d & ->). now exists us, d. Qed.

Theorem seen_grammatical A (c : cold A) : forall l, so_far c l -> grammatical l.
Proof.
  induction c as [A s|A B g c IH|X A maxc c inner IH IHi|A c handler IH IHh|A B C k c d IHc IHd|X A c inner IH IHi|A k c IH|sec per|A n c IH|A P] using cold_induct; intros l Hl.
  - destruct Hl as (h & st & R & N & <-). eapply grammatical_prefix; [exact (proj2 (proj2 (source_trace s)) h st R N)|]. now eexists _, _.
  - destruct Hl as (ms & Hc & Hs). destruct (IH ms Hc) as (us & d & ->). destruct (goes_on (sane_psys _ _) Hs (prefix_refl _)) as (l' & D & Pl).
    apply stage_delivers in D. subst l'. eapply grammatical_prefix; [exact Pl|]. now eexists _, _.
  - destruct Hl as (ms & h & s & _ & _ & _ & _ & _ & _ & S). exact (sees_grammatical S).
  - destruct Hl as (h & s & R & N & H & <-). refine (playing_grammatical (catch_playing (fun _ _ _ => True) R N _)).
    intros k o Ho. specialize (H k o Ho). destruct o as [x|]; [|exact (prefix_grammatical IH H)].
    specialize (IHh x). destruct (handler x) as [c'|y]; [exact (prefix_grammatical IHh H)|contradiction].
  - destruct Hl as (ms & Hc & Hd & S). destruct (IHc _ Hc) as (xs & da & E1), (IHd _ Hd) as (ys & db & E2).
    destruct (goes_on (sane_pair k) S (prefix_refl ms)) as (l' & D & Pl). destruct (pair_sound k _ _ _ _ E1 E2 D) as (vs & e & _ & ->).
    eapply grammatical_prefix; [exact Pl|]. now eexists _, _.
  - destruct Hl as (ms & h & s & _ & _ & _ & _ & _ & _ & S). exact (sees_grammatical S).
  - destruct Hl as (ms & Hc & Hs). destruct (IH ms Hc) as (xs & e & ->). destruct (@shift_goes_on _ k _ _ _ _ Hs (prefix_refl _)) as (l' & S & Pl).
    apply shift_means in S as (vs & _ & ->). eapply grammatical_prefix; [exact Pl|]. now eexists _, _.
  - destruct (@continues nat (Ticking sec per) I l Hl) as (vs & e & _ & P). eapply grammatical_prefix; [exact P|]. now eexists _, _.
  - destruct Hl as (h & s & R & N & H & <-). refine (playing_grammatical (catch_playing (fun _ _ _ => True) R N _)).
    intros k o Ho. specialize (H k o Ho). destruct o as [|x]; [exact (prefix_grammatical IH H)|]. now exists [], (Failed x).
  - destruct Hl as [->|(vs & e & _ & Pl)]; [now exists [], Open|]. eapply grammatical_prefix; [exact Pl|]. now eexists _, _.
Qed.

Lemma caught_calm A (c : cold A) handler l : so_far (Caught c handler) l -> forall y, ~ In (OnError y) l.
Proof.
  intros (h & s & R & N & H & <-). refine (playing_calm (catch_playing (fun _ _ _ => True) R N _)).
  intros k o Ho. specialize (H k o Ho). destruct o as [x|]; [|exact (prefix_grammatical (@seen_grammatical A c) H)].
  destruct (handler x) as [c'|y]; [exact (prefix_grammatical (@seen_grammatical A c') H)|contradiction].
Qed.
Lemma retried_so_calm A n (c : cold A) l : so_far (Retried n c) l -> forall y, ~ In (OnError y) l.
Proof.
  intros (h & s & R & N & H & <-). refine (playing_calm (catch_playing (fun _ _ _ => True) R N _)).
  intros k o Ho. specialize (H k o Ho). destruct o as [|x]; [exact (prefix_grammatical (@seen_grammatical A c) H)|]. now exists [], (Failed x).
Qed.

Lemma steady_productive A (c : cold A) : steady c -> productive c.
Proof. intros Hs. destruct (starts c) as [l Hl], (continues _ Hs _ Hl) as (vs & e & M & _). now exists (trace vs e). Qed.

Lemma quiet_prefix A (us : list A) d l : prefix l (trace us (quiet d)) -> prefix l (trace us d) /\ forall y, ~ In (OnError y) l.
Proof.
  intros P. split.
  - destruct d as [|x|]; [exact P| |exact P]. refine (prefix_trans P _). unfold trace. cbn. rewrite app_nil_r. now eexists.
  - intros y F. destruct P as [r E]. assert (G : In (OnError y) (trace us (quiet d))) by (rewrite E; apply in_or_app; now left).
    unfold trace in G. apply in_app_or in G as [G|G]; [apply in_map_iff in G as (? & ? & _); discriminate|].
    destruct d; cbn in G; try contradiction. destruct G as [G|[]]. discriminate.
Qed.

Lemma caught_recovering A (c : cold A) handler l : steady c -> (forall x, match handler x with Ok c' => steady c' | Err _ => True end) ->
  so_far (Caught c handler) l -> recovering (fun x => match handler x with Ok c' => Some (outcome c') | Err _ => None end) (outcome c) l.
Proof.
  intros Hc Hh (h & s & R & N & H & <-).
  assert (P : playing (answers_to handler) (catch_obs c handler) tt None (requests (c_log s))).
  { apply (catch_playing (catch_obs c handler) R N). intros k o Ho. specialize (H k o Ho). destruct o as [x|]; cbn in *.
    - specialize (Hh x). destruct (handler x) as [c'|y]; [|contradiction]. destruct H as (m & Hm & Pm). destruct (continues _ Hh _ Hm) as (us & d & M & Pd). exists us, d. split; [exact M|exact (prefix_trans Pm Pd)].
    - destruct H as (m & Hm & Pm), (continues _ Hc _ Hm) as (us & d & M & Pd). exists us, d. split; [exact M|exact (prefix_trans Pm Pd)]. }
  set (answer := fun x => match handler x with Ok c' => Some (outcome c') | Err _ => None end).
  assert (G : forall st o l', playing (answers_to handler) (catch_obs c handler) st o l' -> (match o with None => True | Some x => exists c', handler x = Ok c' end) ->
            recovering answer (match o with None => outcome c | Some x => match handler x with Ok c' => outcome c' | Err _ => fun _ _ => False end end) l').
  { intros st o l' Q. induction Q as [st o|st o us d l' M P'|st o us x o' st' l' M E Q IH]; intros Ho.
    - assert (Pr : exists us d, match o with None => outcome c | Some x => match handler x with Ok c' => outcome c' | Err _ => fun _ _ => False end end us d).
      { assert (G : forall (d : cold A), steady d -> exists us e, outcome d us e) by (intros d Hd; destruct (starts d) as [m Hm], (continues _ Hd _ Hm) as (us & e & M & _); now exists us, e).
        destruct o as [x|]; [|exact (G c Hc)]. destruct Ho as [c' E]. specialize (Hh x). rewrite E in *. exact (G c' Hh). }
      destruct Pr as (us & d & M). apply ring_here with us d; [exact M|apply prefix_nil|intros x []].
    - destruct (quiet_prefix _ _ P') as [P1 P2]. apply ring_here with us d; [|exact P1|exact P2]. destruct o as [x|]; cbn in M; [|exact M]. destruct (handler x); exact M.
    - unfold answers_to in E. destruct (handler x) as [c'|y] eqn:Ex; [|discriminate]. injection E as <- <-.
      apply ring_next with x (outcome c'); [destruct o as [z|]; cbn in M; [destruct (handler z); exact M|exact M]|unfold answer; now rewrite Ex|].
      cbn in IH. rewrite Ex in IH. apply IH. now exists c'. }
  exact (G tt None _ P I).
Qed.

Lemma retried_recovering A n (c : cold A) l : steady c -> so_far (Retried n c) l ->
  (forall x, ~ In (OnError x) l) /\ exists us d, outcome c us d /\
    (prefix l (trace us d) \/ n <> 0%Z /\ exists x ws e l', d = Failed x /\ outcome c ws e /\ l = map OnNext us ++ l' /\ prefix l' (trace ws e)).
Proof.
  intros Hc Hl. split; [exact (retried_so_calm Hl)|]. pose proof (retry_playing (fun m => @continues A c Hc m) Hl) as P.
  assert (G0 : forall st x l', playing retry_factory (retry_obs (fun us d => makes c (trace us d))) st (RFail x) l' -> st = 0%Z -> l' = []).
  { intros st x l' Q. remember (RFail x) as o eqn:Eo. revert x Eo. induction Q as [st o|st o us d l' M P'|st o us y o' st' l' M E Q IH]; intros x -> Es; [reflexivity| |].
    - destruct M as [-> ->]. destruct P' as [r E]. symmetry in E. now apply app_eq_nil in E.
    - destruct M as [-> _]. subst st. unfold retry_factory in E. cbn in E. injection E as <- <-. cbn. eapply IH; reflexivity. }
  assert (G1 : forall l', playing retry_factory (retry_obs (fun us d => makes c (trace us d))) 0%Z ROrig l' -> exists us d, outcome c us d /\ prefix l' (trace us d)).
  { intros l' Q. inversion Q; subst.
    - destruct (steady_productive c Hc) as [m M]. destruct (sound c (steady_bounded _ Hc) _ M) as (us & d & _ & ->). exists us, d. split; [exact M|apply prefix_nil].
    - exists us, d. split; [exact H|apply quiet_prefix; assumption].
    - unfold retry_factory in H0. cbn in H0. injection H0 as <- <-. rewrite (G0 _ _ _ H1 eq_refl), app_nil_r. exists us, (Failed x). split; [exact H|]. unfold trace. now eexists. }
  inversion P; subst.
  - destruct (steady_productive c Hc) as [m M]. destruct (sound c (steady_bounded _ Hc) _ M) as (us & d & _ & ->). exists us, d. split; [exact M|left; apply prefix_nil].
  - exists us, d. split; [exact H|left; apply quiet_prefix; assumption].
  - exists us, (Failed x). split; [exact H|]. unfold retry_factory in H0. destruct (n =? 0)%Z eqn:En.
    + apply Z.eqb_eq in En. injection H0 as <- <-. subst n. rewrite (G0 _ _ _ H1 eq_refl), app_nil_r. left. unfold trace. now eexists.
    + apply Z.eqb_neq in En. right. split; [exact En|]. injection H0 as <- <-. rewrite Z.sub_diag in H1. destruct (G1 _ H1) as (ws & e & O & Pl). exists x, ws, e, l0. auto.
Qed.
