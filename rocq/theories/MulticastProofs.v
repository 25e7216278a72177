(** * A program behind a subject: proofs. *)
From Verif Require Import SubjectProofs ThreadsProofs HubProofs PipeProofs OpsProofs LawsProofs ProgramsProofs Programs6Proofs BehindProofs.
From Verif Require Export Multicast.
Set Implicit Arguments.

Lemma joined_nsubs A (h : list (blabel A)) : joined h = nsubs h.
Proof. unfold joined. induction h as [|x h IH]; [reflexivity|]. destruct x; cbn; try exact IH. now rewrite IH. Qed.

Lemma relayed_app A (h1 h2 : list (blabel A)) : relayed (h1 ++ h2) = relayed h1 ++ relayed h2.
Proof. apply flat_map_app. Qed.

(** ** Lines *)
Definition same_line {A} (v w : line A) : Prop := forall Z pol (p : pipe Z A) x, v = Line pol p x -> exists y, w = Line pol p y.
Lemma same_refl A (v : line A) : same_line v v.
Proof. intros Z pol p x ->. eauto. Qed.
Lemma lstep_same A (v v' : line A) x : lstep v x = Some v' -> same_line v v'.
Proof. unfold lstep. intros E Z pol p y ->. cbn in E. destruct (tstep y x) as [s|]; [|discriminate]. injection E as <-. eauto. Qed.

Lemma upd_same A (ls : list (line A)) o v v' k w : nth_error ls o = Some v -> same_line v v' -> nth_error ls k = Some w ->
  exists w', nth_error (upd o v' ls) k = Some w' /\ same_line w w'.
Proof.
  revert o k. induction ls as [|u ls IH]; intros o k Ho S Hk; [destruct k; discriminate|].
  destruct o as [|o], k as [|k]; cbn in *.
  - injection Ho as ->. injection Hk as ->. eauto.
  - exists w. split; [exact Hk|apply same_refl].
  - exists w. split; [exact Hk|apply same_refl].
  - exact (IH o k Ho S Hk).
Qed.

Lemma tell_same A c (s : ustate A) ls ts b k w : tell c s ls ts = Some b -> nth_error ls k = Some w ->
  exists w', nth_error (b_lines b) k = Some w' /\ same_line w w'.
Proof.
  unfold tell. intros E Hk. destruct (nth_error (u_calls s) c) as [[n o r|r]|]; try (injection E as <-; cbn; exists w; split; [exact Hk|apply same_refl]).
  destruct (nth_error ls o) as [v|] eqn:V; [|discriminate]. destruct (lstep v (TCall n)) as [v'|] eqn:L; [|discriminate].
  injection E as <-. exact (@upd_same _ _ _ _ _ _ _ V (@lstep_same _ _ _ _ L) Hk).
Qed.

Lemma bstep_same A (b b' : hub A) x k w : bstep b x = Some b' -> nth_error (b_lines b) k = Some w ->
  exists w', nth_error (b_lines b') k = Some w' /\ same_line w w'.
Proof.
  intros E Hk. destruct x as [Z pol p|j|n|c|c|c e|o j|]; unfold bstep in E.
  - destruct (ustep _ _); [|discriminate]. injection E as <-. cbn. exists w. split; [|apply same_refl]. rewrite nth_error_app1; [exact Hk|]. apply nth_error_Some. congruence.
  - destruct (ustep _ _); [|discriminate]. injection E as <-. exists w. split; [exact Hk|apply same_refl].
  - destruct (ustep _ _); [|discriminate]. exact (@tell_same _ _ _ _ _ _ _ _ E Hk).
  - destruct (pending b c) as [[[o i] [y|]]|]; try discriminate. destruct (nth_error (b_lines b) o) as [v|] eqn:V; [|discriminate].
    destruct (lstep v (TGo i)) as [v'|] eqn:L; [|discriminate]. injection E as <-. exact (@upd_same _ _ _ _ _ _ _ V (@lstep_same _ _ _ _ L) Hk).
  - destruct (pending b c) as [[[o i] [[y|]|]]|]; try discriminate. destruct (ustep _ _); [|discriminate]. exact (@tell_same _ _ _ _ _ _ _ _ E Hk).
  - destruct (pending b c) as [[[o i] [[y|]|]]|]; try discriminate. destruct (exn_eqb _ _); [|discriminate]. destruct (ustep _ _); [|discriminate].
    injection E as <-. exists w. split; [exact Hk|apply same_refl].
  - destruct (nth_error (b_lines b) o) as [v|] eqn:V; [|discriminate].
    destruct (lstep v (TWork j)) as [v'|] eqn:L; [|discriminate]. injection E as <-. exact (@upd_same _ _ _ _ _ _ _ V (@lstep_same _ _ _ _ L) Hk).
  - destruct (ustep _ _); [|discriminate]. injection E as <-. exists w. split; [exact Hk|apply same_refl].
Qed.

Lemma line_there A Z (pol : policy Z) (p : pipe Z A) h1 : forall h2 b, breach (h1 ++ BSub pol p :: h2) b ->
  exists x, nth_error (b_lines b) (joined h1) = Some (Line pol p x).
Proof.
  induction h2 as [|x h2 IH] using rev_ind; intros b H.
  - apply breach_snoc in H as (b1 & H1 & E). unfold bstep in E. destruct (ustep _ _) as [s'|]; [|discriminate]. injection E as <-.
    cbn. rewrite joined_nsubs, (bi_n (bi H1)), nth_error_app2, Nat.sub_diag by lia. cbn. eauto.
  - replace (h1 ++ BSub pol p :: h2 ++ [x]) with ((h1 ++ BSub pol p :: h2) ++ [x]) in H by now rewrite <- app_assoc.
    apply breach_snoc in H as (b1 & H1 & E). destruct (IH b1 H1) as (y & Hy). destruct (@bstep_same _ _ _ _ _ _ E Hy) as (w & Hw & S).
    destruct (S _ _ _ _ eq_refl) as (z & ->). eauto.
Qed.

(** ** What a subscriber hears *)
Lemma never_off A (h : list (blabel A)) : ~ In BDispose h -> u_off (at_subject h) = false.
Proof.
  induction h as [|x h IH] using rev_ind; intros N; [reflexivity|]. rewrite at_subject_snoc.
  assert (u_off (at_subject h) = false) by (apply IH; intros F; apply N, in_app_iff; now left).
  destruct x; cbn [at_one]; rewrite ?app_nil_r, ?u_off_snoc, ?H; try reflexivity. exfalso. apply N, in_app_iff. right. now left.
Qed.

Lemma ended_sent A (h : list (blabel A)) : ~ In BDispose h -> u_ended (at_subject h) = existsb (@is_term A) (relayed h).
Proof.
  induction h as [|x h IH] using rev_ind; intros N; [reflexivity|]. rewrite at_subject_snoc, relayed_app, existsb_app.
  assert (N' : ~ In BDispose h) by (intros F; apply N, in_app_iff; now left).
  specialize (IH N'). rewrite <- IH. pose proof (never_off _ N') as O.
  destruct x; cbn [at_one relayed flat_map existsb app]; rewrite ?app_nil_r, ?u_ended_snoc, ?O; cbn; rewrite ?orb_false_r; reflexivity.
Qed.

Definition force_state {A} (h : list (blabel A)) := fold_left (@sub_step A) (at_subject h) (0, false, []).
Lemma force_snoc A (h : list (blabel A)) x : force_state (h ++ [x]) = fold_left (@sub_step A) (at_one (nsubs h) x) (force_state h).
Proof. unfold force_state. now rewrite at_subject_snoc, fold_left_app. Qed.

Lemma force_ok A (h : list (blabel A)) : ~ In BDispose h ->
  exists l, force_state h = (nsubs h, false, l) /\ NoDup l /\ forall p, In p l -> fst p < nsubs h /\ snd p = fst p.
Proof.
  induction h as [|x h IH] using rev_ind; intros N; [exists []; repeat split; [constructor| |]; contradiction|].
  destruct IH as (l & E & D & B); [intros F; apply N, in_app_iff; now left|]. rewrite force_snoc, E, nsubs_snoc.
  destruct x as [Z pol p|j|n|c|c|c e|o j|]; cbn [at_one fold_left sub_step]; rewrite ?Nat.add_0_r; try (exists l; auto; fail).
  - exists (l ++ [(nsubs h, nsubs h)]). rewrite Nat.add_1_r. split; [reflexivity|]. split.
    + assert (F : ~ In (nsubs h, nsubs h) l) by (intros F; apply B in F; cbn in F; lia). clear -D F. induction D as [|q l Hq D IH]; cbn; constructor; try (intros []); try constructor.
      * intros G. apply in_app_iff in G as [G|[<-|[]]]; [exact (Hq G)|]. apply F. now left.
      * apply IH. intros G. apply F. now right.
    + intros q Hq. apply in_app_iff in Hq as [Hq|[<-|[]]]; [apply B in Hq; lia|cbn; lia].
  - exists (filter (fun q => negb (fst q =? j)) l). split; [reflexivity|]. split; [now apply NoDup_filter|].
    intros q Hq. apply filter_In in Hq as [Hq _]. now apply B.
  - exfalso. apply N, in_app_iff. right. now left.
Qed.

Lemma force_members A (h : list (blabel A)) k : ~ In BDispose h ->
  count_occ Nat.eq_dec (members (at_subject h)) k = if in_dec (fun p q : nat * nat => ltac:(decide equality; apply Nat.eq_dec)) (k, k) (snd (force_state h)) then 1 else 0.
Proof.
  intros N. destruct (force_ok _ N) as (l & E & D & B). unfold members, in_force. fold (force_state h). rewrite E. cbn [snd].
  assert (D' : NoDup (map snd l)).
  { assert (B' : forall p, In p l -> snd p = fst p) by (intros p Hp; now apply B). clear -D B'. induction D as [|p l Hp D IH]; [constructor|]. cbn. constructor.
    - intros F. apply in_map_iff in F as (q & Eq & Hq). apply Hp. replace p with q; [exact Hq|].
      rewrite (surjective_pairing p), (surjective_pairing q). rewrite <- (B' q (or_intror Hq)), <- (B' p (or_introl eq_refl)). now rewrite Eq.
    - apply IH. intros q Hq. apply B'. now right. }
  destruct (in_dec _ (k, k) l) as [Y|Y].
  - apply NoDup_count_occ'; [exact D'|]. apply in_map_iff. now exists (k, k).
  - apply count_occ_not_In. intros F. apply in_map_iff in F as (q & Eq & Hq). apply Y. replace (k, k) with q; [exact Hq|].
    rewrite (surjective_pairing q). destruct (B q Hq) as [_ Es]. congruence.
Qed.

(** In force since it was subscribed. *)
Lemma in_force_since A Z (pol : policy Z) (p : pipe Z A) h1 : forall h2, ~ In BDispose (h1 ++ BSub pol p :: h2) -> ~ In (BUnsub (joined h1)) h2 ->
  In (joined h1, joined h1) (snd (force_state (h1 ++ BSub pol p :: h2))).
Proof.
  induction h2 as [|x h2 IH] using rev_ind; intros N U.
  - rewrite force_snoc. destruct (force_ok h1) as (l & -> & _); [intros F; apply N, in_app_iff; now left|]. cbn. rewrite joined_nsubs. apply in_app_iff. right. now left.
  - replace (h1 ++ BSub pol p :: h2 ++ [x]) with ((h1 ++ BSub pol p :: h2) ++ [x]) in * by now rewrite <- app_assoc.
    rewrite force_snoc. assert (N' : ~ In BDispose (h1 ++ BSub pol p :: h2)) by (intros F; apply N, in_app_iff; now left).
    specialize (IH N'). destruct (force_ok _ N') as (l & E & D & B). rewrite E in *. cbn [snd] in *.
    assert (I0 : In (joined h1, joined h1) l) by (apply IH; intros F; apply U, in_app_iff; now left).
    destruct x as [Z' pol' p'|j|n|c|c|c e|o j|]; cbn [at_one fold_left sub_step snd]; try exact I0.
    + apply in_app_iff. now left.
    + apply filter_In. split; [exact I0|]. cbn. destruct (joined h1 =? j) eqn:Ej; [|reflexivity]. apply Nat.eqb_eq in Ej. subst j. exfalso. apply U, in_app_iff. right. now left.
Qed.

(** Not in force before. *)
Lemma not_before A (h : list (blabel A)) : ~ In BDispose h -> count_occ Nat.eq_dec (members (at_subject h)) (nsubs h) = 0.
Proof.
  intros N. rewrite (force_members _ _ N). destruct (force_ok _ N) as (l & E & D & B). rewrite E. cbn [snd].
  destruct (in_dec _ _ l) as [Y|Y]; [|reflexivity]. apply B in Y. cbn in Y. lia.
Qed.

Lemma heard_not_before A (h : list (blabel A)) k : ~ In BDispose h -> nsubs h <= k -> Subject.heard k (at_subject h) = [].
Proof.
  induction h as [|x h IH] using rev_ind; intros N L; [reflexivity|]. rewrite nsubs_snoc in L.
  assert (N' : ~ In BDispose h) by (intros F; apply N, in_app_iff; now left).
  assert (Ih : Subject.heard k (at_subject h) = []) by (apply IH; [exact N'|lia]).
  rewrite at_subject_snoc. destruct x as [Z' pol' p'|j|n|c|c|c e|o j|]; cbn [at_one]; rewrite ?app_nil_r, ?SubjectProofs.heard_snoc, ?Ih; try reflexivity.
  cbn [app]. destruct (u_off _ || u_ended _); [reflexivity|].
  rewrite (force_members _ _ N'). destruct (force_ok _ N') as (l & E & D & B). rewrite E. cbn [snd].
  destruct (in_dec _ _ l) as [Y|Y]; [|reflexivity]. apply B in Y. cbn in Y. lia.
Qed.

Fixpoint to_end {A} (ms : list (notif A)) : list (notif A) :=
  match ms with [] => [] | n :: r => n :: if is_term n then [] else to_end r end.
Lemma to_end_snoc A (ms : list (notif A)) n : to_end (ms ++ [n]) = to_end ms ++ if existsb (@is_term A) ms then [] else [n].
Proof. induction ms as [|m ms IH]; cbn; [now destruct (is_term n)|]. destruct (is_term m); [reflexivity|]. cbn. now rewrite IH. Qed.

Lemma heard_since A Z (pol : policy Z) (p : pipe Z A) h1 : forall h2, ~ In BDispose (h1 ++ BSub pol p :: h2) -> ~ In (BUnsub (joined h1)) h2 ->
  Subject.heard (joined h1) (at_subject (h1 ++ BSub pol p :: h2)) = if existsb (@is_term A) (relayed h1) then [] else to_end (relayed h2).
Proof.
  induction h2 as [|x h2 IH] using rev_ind; intros N U.
  - rewrite at_subject_snoc. cbn [at_one]. rewrite SubjectProofs.heard_snoc, app_nil_r, joined_nsubs, heard_not_before; [now destruct (existsb _ _)| |reflexivity].
    intros F; apply N, in_app_iff; now left.
  - replace (h1 ++ BSub pol p :: h2 ++ [x]) with ((h1 ++ BSub pol p :: h2) ++ [x]) in * by now rewrite <- app_assoc.
    assert (N' : ~ In BDispose (h1 ++ BSub pol p :: h2)) by (intros F; apply N, in_app_iff; now left).
    assert (U' : ~ In (BUnsub (joined h1)) h2) by (intros F; apply U, in_app_iff; now left).
    specialize (IH N' U'). rewrite at_subject_snoc, relayed_app.
    destruct x as [Z' pol' p'|j|n|c|c|c e|o j|]; cbn [at_one]; rewrite ?app_nil_r, ?SubjectProofs.heard_snoc, ?IH; cbn [relayed flat_map app]; rewrite ?app_nil_r; try reflexivity.
    rewrite (never_off _ N'), (ended_sent _ N'), (force_members _ _ N'). cbn [orb].
    destruct (in_dec _ _ _) as [_|Y]; [|exfalso; apply Y; now apply in_force_since].
    rewrite relayed_app, existsb_app, to_end_snoc. cbn [relayed flat_map app repeat]. fold (relayed h2).
    destruct (existsb _ (relayed h1)); [reflexivity|]. cbn [orb]. now destruct (existsb _ (relayed h2)).
Qed.

(** ** Chains do not raise into the subject *)
Lemma calm_smooth Z A B (pol : policy Z) (g : stage A B) (r : pipe Z B) :
  calm g -> (if bare g then smooth_line pol r else True) -> smooth_line pol (op_of g r).
Proof.
  destruct g as [A B f|A B f|A B f|A p|A p|A B f|A n|A n|A n|A i n|A q|A B f b|A B f b|A B it|A B f|A p|A B f]; cbn [op_of calm bare]; intros Hc Hr.
  - apply smooth_pre; [|exact Hr]. intros [x|e|]; cbn; [|smooth_..]. destruct (f x) eqn:E; [smooth_|now apply Hc in E].
  - apply smooth_pre; [|exact Hr]. intros [x|e|]; cbn; [|smooth_..]. destruct (f x) eqn:E; [smooth_|now apply Hc in E].
  - apply smooth_pre; [|apply smooth_safe]. intros [x|e|]; cbn; [|smooth_..].
    apply sm_read. intros i. apply sm_write. unfold tryp. cbn; smooth_.
  - apply smooth_pre; [|exact Hr]. intros [x|e|]; cbn; [|smooth_..]. destruct (p x) as [[|]|] eqn:E; [smooth_|smooth_|now apply Hc in E].
  - apply smooth_pre; [|apply smooth_safe]. intros [x|e|]; cbn; [|smooth_..].
    apply sm_read. intros i. apply sm_write. unfold tryp. cbn; smooth_.
  - apply smooth_pre; [|exact Hr]. intros [x|e|]; cbn; [|smooth_..]. destruct (f x) as [[|]|] eqn:E; [smooth_|smooth_|now apply Hc in E].
  - unfold taking, take_. destruct (Z.of_nat n <? 0)%Z eqn:E; [apply Z.ltb_lt in E; lia|].
    apply smooth_pre; [|apply smooth_safe]. intros [x|e|]; cbn; smooth_.
  - apply smooth_pre; [|apply smooth_safe]. intros [x|e|]; cbn; smooth_. apply smooth_forp. intros y. smooth_.
  - apply smooth_pre; [|apply smooth_safe]. intros [x|e|]; cbn; smooth_.
  - apply smooth_pre; [|apply smooth_safe]. intros [x|e|]; cbn; smooth_.
  - split; [intros m; apply smooth_await|intros d [n| |]; reflexivity].
  - apply smooth_pre; [|exact Hr]. intros [x|e|]; cbn; smooth_.
  - apply smooth_pre; [intros [x|e|]; cbn; smooth_|]. apply smooth_pre; [|apply smooth_safe]. intros [x|e|]; cbn; smooth_. apply smooth_forp. intros y. smooth_.
  - apply smooth_pre; [|apply smooth_safe]. intros [x|e|]; cbn; [|smooth_..].
    apply sm_read. intros i. apply sm_write. unfold tryp. destruct (it i); cbn; smooth_.
  - apply smooth_pre; [|apply smooth_safe]. intros [x|e|]; cbn; [|smooth_..].
    apply sm_read. intros i. apply sm_write. unfold tryp. cbn; smooth_.
  - apply smooth_pre; [|exact Hr]. intros [x|e|]; cbn; [|smooth_..]. destruct (p x) as [[|]|] eqn:E; [smooth_|smooth_|now apply Hc in E].
  - apply smooth_pre; [|exact Hr]. intros [x|e|]; cbn; [|smooth_..]. destruct (f x) as [[|]|] eqn:E; [smooth_|smooth_|now apply Hc in E].
Qed.

Lemma front_smooth A C (ch : chain A C) : calm_front ch -> smooth_line well_behaved (hung ch PEnd).
Proof.
  induction ch as [A|A B C g r IH]; cbn [calm_front hung].
  - intros _. split; [intros m; apply smooth_await|]. intros [n l] [m| |]; reflexivity.
  - intros [Hg Hr]. apply calm_smooth; [exact Hg|]. destruct (bare g); [now apply IH|exact I].
Qed.

Lemma shares_quiet A (h : list (blabel A)) b : shares h b -> forall c e, ~ In (BExn c e) h.
Proof.
  intros S. apply (courteous_inv (sh_reach S)). intros x Hx. pose proof (sh_chains S x Hx) as P. destruct x; try exact I. destruct P. now apply front_smooth.
Qed.

(** ** What the subscribers of the chains are told *)
Lemma only_makes A C (ch : chain A C) vs e l : makes (over ch (only vs e)) l <-> l = trace (fst (chain_result ch vs e)) (snd (chain_result ch vs e)).
Proof.
  rewrite (over_makes ch (only vs e) I l). split.
  - intros (us & d & (vs' & e' & [-> ->] & E) & ->). apply trace_inj in E as [-> ->]. reflexivity.
  - intros ->. exists vs, e. split; [|reflexivity]. now exists vs, e.
Qed.

Lemma to_end_trace A (vs : list A) e : to_end (trace vs e) = trace vs e.
Proof. induction vs as [|v vs IH]; [now destruct e|]. change (trace (v :: vs) e) with (OnNext v :: trace vs e). cbn [to_end is_term]. now rewrite IH. Qed.

Lemma told_heard A C (ch : chain A C) h1 h2 b ms : calm_front ch -> shares (h1 ++ BSub well_behaved (hung ch PEnd) :: h2) b ->
  Subject.heard (joined h1) (at_subject (h1 ++ BSub well_behaved (hung ch PEnd) :: h2)) = ms ->
  exists l, was_told ch (joined h1) b l /\
    (forall vs e, prefix ms (trace vs e) -> exists l', makes (over ch (only vs e)) l' /\ prefix l l') /\
    (at_rest b -> forall vs e, ms = trace vs e -> makes (over ch (only vs e)) l).
Proof.
  intros Hf S Eh. destruct (line_there _ _ _ _ (sh_reach S)) as (x & Hx). exists (tlog x). split; [now exists x|].
  pose proof (in_turn_awaited (sh_reach S) (sh_turn S) (shares_quiet S)) as W.
  destruct (hot_sees _ (sh_reach S) W Hx) as (_ & H2 & m1 & m2 & l & E & Sl & Pl). cbn [l_pol l_pipe] in *. rewrite Eh in *.
  assert (F : forall vs e, finally (psys well_behaved (hung ch PEnd)) (trace vs e) (trace (fst (chain_result ch vs e)) (snd (chain_result ch vs e)))
            /\ forall out, finally (psys well_behaved (hung ch PEnd)) (trace vs e) out -> out = trace (fst (chain_result ch vs e)) (snd (chain_result ch vs e))).
  { intros vs e. destruct (proj2 (front_delivers ch vs e _ Hf) (proj2 (chain_delivers ch vs e _) eq_refl)) as (F & D & _). split; [exact F|]. intros out Ho. now apply D. }
  split.
  - intros vs e [z Ez]. eexists. split; [now apply only_makes|].
    destruct (F vs e) as [F1 _]. rewrite Ez, E in F1. rewrite <- app_assoc in F1. destruct Pl as [q Eq]. unfold lines_log in Eq. cbn in Eq.
    destruct (@sees_prefix _ _ _ (sane_psys well_behaved (hung ch PEnd)) _ _ _ _ Sl F1) as [y Ey].
    exists (q ++ y). rewrite Ey, Eq. now rewrite <- app_assoc.
  - intros [Hi Hq] vs e Em. apply only_makes. apply (proj2 (F vs e)). rewrite <- Em. apply (H2 Hi). apply (Hq _ (nth_error_In _ _ Hx)).
Qed.

Lemma shared_told A C (ch : chain A C) h1 h2 b : calm_front ch -> shares (h1 ++ BSub well_behaved (hung ch PEnd) :: h2) b -> ~ In (BUnsub (joined h1)) h2 ->
  exists l, was_told ch (joined h1) b l /\
    let ms := if existsb (@is_term A) (relayed h1) then [] else to_end (relayed h2) in
    (forall vs e, prefix ms (trace vs e) -> exists l', makes (over ch (only vs e)) l' /\ prefix l l') /\
    (at_rest b -> forall vs e, ms = trace vs e -> makes (over ch (only vs e)) l).
Proof. intros Hf S U. apply (told_heard ch h1 h2 Hf S). exact (heard_since well_behaved (hung ch PEnd) h1 h2 (sh_open S) U). Qed.

(** ... after its subscription was disposed *)
Lemma out_of_force A k h : forall h3 : list (blabel A), ~ In BDispose (h ++ BUnsub k :: h3) -> k < nsubs h -> ~ In (k, k) (snd (force_state (h ++ BUnsub k :: h3))).
Proof.
  induction h3 as [|x h3 IH] using rev_ind; intros N L.
  - rewrite force_snoc. destruct (force_ok h) as (l & -> & _); [intros F; apply N, in_app_iff; now left|]. cbn. intros F. apply filter_In in F as [_ F]. cbn in F. now rewrite Nat.eqb_refl in F.
  - replace (h ++ BUnsub k :: h3 ++ [x]) with ((h ++ BUnsub k :: h3) ++ [x]) in * by now rewrite <- app_assoc.
    assert (N' : ~ In BDispose (h ++ BUnsub k :: h3)) by (intros F; apply N, in_app_iff; now left).
    specialize (IH N' L). rewrite force_snoc. destruct (force_ok _ N') as (l & E & D & B). rewrite E in *. cbn [snd] in *.
    destruct x as [Z' pol' p'|j|n|c|c|c e|o j|]; cbn [at_one fold_left sub_step snd]; try exact IH.
    + intros F. apply in_app_iff in F as [F|[F|[]]]; [exact (IH F)|]. injection F as F _. clear -F L. 
      assert (G : nsubs h <= nsubs (h ++ BUnsub k :: h3)) by (clear; induction h as [|y h IHh]; cbn; [lia|destruct y; cbn; lia]). lia.
    + intros F. apply filter_In in F as [F _]. exact (IH F).
Qed.

Lemma heard_until A k h : forall h3 : list (blabel A), ~ In BDispose (h ++ BUnsub k :: h3) -> k < nsubs h ->
  Subject.heard k (at_subject (h ++ BUnsub k :: h3)) = Subject.heard k (at_subject h).
Proof.
  induction h3 as [|x h3 IH] using rev_ind; intros N L.
  - rewrite at_subject_snoc. cbn [at_one]. now rewrite SubjectProofs.heard_snoc, app_nil_r.
  - replace (h ++ BUnsub k :: h3 ++ [x]) with ((h ++ BUnsub k :: h3) ++ [x]) in * by now rewrite <- app_assoc.
    assert (N' : ~ In BDispose (h ++ BUnsub k :: h3)) by (intros F; apply N, in_app_iff; now left).
    specialize (IH N' L). rewrite at_subject_snoc.
    destruct x as [Z' pol' p'|j|n|c|c|c e|o j|]; cbn [at_one]; rewrite ?app_nil_r, ?SubjectProofs.heard_snoc, ?IH, ?app_nil_r; try reflexivity.
    rewrite (force_members _ _ N'). destruct (in_dec _ _ _) as [Y|_]; [exfalso; exact (@out_of_force _ _ _ _ N' L Y)|].
    cbn. destruct (_ || _); apply app_nil_r.
Qed.

Lemma shared_left A C (ch : chain A C) h1 h2 h3 b vs e : calm_front ch ->
  shares (h1 ++ BSub well_behaved (hung ch PEnd) :: h2 ++ BUnsub (joined h1) :: h3) b -> ~ In (BUnsub (joined h1)) h2 -> at_rest b ->
  existsb (@is_term A) (relayed h1) = false -> relayed h2 = trace vs e ->
  exists l, was_told ch (joined h1) b l /\ makes (over ch (only vs e)) l.
Proof.
  intros Hf S U Q T E. set (p := hung ch PEnd) in *.
  assert (N : ~ In BDispose (h1 ++ BSub well_behaved p :: h2)).
  { intros F. apply (sh_open S). replace (h1 ++ BSub well_behaved p :: h2 ++ BUnsub (joined h1) :: h3) with ((h1 ++ BSub well_behaved p :: h2) ++ BUnsub (joined h1) :: h3) by now rewrite <- app_assoc.
    apply in_app_iff. now left. }
  destruct (@told_heard _ _ ch h1 (h2 ++ BUnsub (joined h1) :: h3) b (trace vs e) Hf S) as (l & Ht & _ & H).
  - fold p. replace (h1 ++ BSub well_behaved p :: h2 ++ BUnsub (joined h1) :: h3) with ((h1 ++ BSub well_behaved p :: h2) ++ BUnsub (joined h1) :: h3) by now rewrite <- app_assoc.
    rewrite heard_until.
    + rewrite (heard_since well_behaved p h1 h2 N U), T, E. apply to_end_trace.
    + pose proof (sh_open S) as O. now rewrite <- app_assoc.
    + rewrite joined_nsubs. clear. induction h1 as [|y h1 IH]; cbn; [lia|]. destruct y; cbn; lia.
  - exists l. split; [exact Ht|]. now apply H.
Qed.

Lemma split_trace A : forall (ws : list A) e a b, a ++ b = trace ws e ->
  (exists us vs, a = map OnNext us /\ b = trace vs e /\ ws = us ++ vs) \/ (b = [] /\ a = trace ws e /\ e <> Open).
Proof.
  induction ws as [|w ws IH]; intros e a b E.
  - destruct a as [|m a]; [left; exists [], []; auto|]. right. destruct e as [|y|]; cbn in E; [discriminate|injection E as -> E|injection E as -> E];
    apply app_eq_nil in E as [-> ->]; repeat split; discriminate.
  - destruct a as [|m a]; [left; exists [], (w :: ws); auto|].
    change (trace (w :: ws) e) with (OnNext w :: trace ws e) in E. cbn in E. injection E as -> E. destruct (IH e a b E) as [(us & vs & -> & -> & ->)|(-> & -> & He)].
    + left. exists (w :: us), vs. auto.
    + right. auto.
Qed.

Lemma term_map A (us : list A) : existsb (@is_term A) (map OnNext us) = false.
Proof. induction us; cbn; auto. Qed.
Lemma term_trace A (us : list A) e : e <> Open -> existsb (@is_term A) (trace us e) = true.
Proof. intros He. induction us as [|u us IH]; [destruct e; cbn; congruence|]. exact IH. Qed.

(** The next chain subscribed hears the rest of the outcome, or nothing. *)
Lemma shared_rest A C (ch : chain A C) c h1 h2 b : bounded c -> calm_front ch ->
  shares (h1 ++ BSub well_behaved (hung ch PEnd) :: h2) b -> ~ In (BUnsub (joined h1)) h2 -> at_rest b ->
  makes c (relayed (h1 ++ h2)) ->
  (exists us vs e l, relayed h1 = map OnNext us /\ outcome c (us ++ vs) e /\ was_told ch (joined h1) b l /\ makes (over ch (only vs e)) l) \/
  (exists us e, e <> Open /\ relayed h1 = trace us e /\ outcome c us e /\ exists l, was_told ch (joined h1) b l /\ makes (over ch (only [] Open)) l).
Proof.
  intros Hc Hf S U Q M. destruct (shared_told ch h1 h2 Hf S U) as (l & Ht & _ & H). specialize (H Q).
  destruct (sound c Hc _ M) as (ws & e & _ & E). rewrite relayed_app in E. destruct (split_trace _ _ _ _ E) as [(us & vs & E1 & E2 & ->)|(E2 & E1 & He)].
  - left. exists us, vs, e, l. split; [exact E1|]. split; [unfold outcome; rewrite <- E, <- relayed_app; exact M|]. split; [exact Ht|].
    apply H. now rewrite E1, term_map, E2, to_end_trace.
  - right. exists ws, e. split; [exact He|]. split; [exact E1|]. split; [unfold outcome; rewrite <- E, <- relayed_app; exact M|].
    exists l. split; [exact Ht|]. apply H. now rewrite E1, term_trace.
Qed.

Lemma shared_begin A C (ch : chain A C) h1 h2 b ws e : calm_front ch ->
  shares (h1 ++ BSub well_behaved (hung ch PEnd) :: h2) b -> ~ In (BUnsub (joined h1)) h2 ->
  relayed h1 = [] -> prefix (relayed h2) (trace ws e) ->
  exists l l', was_told ch (joined h1) b l /\ makes (over ch (only ws e)) l' /\ prefix l l'.
Proof.
  intros Hf S U E1 P. destruct (shared_told ch h1 h2 Hf S U) as (l & Ht & H & _). rewrite E1 in H. cbn in H.
  destruct (H ws e) as (l' & M & P').
  - destruct P as [z Ez]. destruct (split_trace _ _ (relayed h2) z (eq_sym Ez)) as [(us & vs & E2 & _)|(E2 & E3 & _)].
    + exists z. rewrite Ez. f_equal. rewrite E2. clear. induction us as [|u us IH]; [reflexivity|]. cbn. now rewrite <- IH.
    + exists []. now rewrite E3, to_end_trace, app_nil_r.
  - eauto.
Qed.

Lemma only_outcome A C (ch : chain A C) c vs e l : bounded c -> outcome c vs e -> makes (over ch (only vs e)) l -> makes (over ch c) l.
Proof. intros Hc O M. apply only_makes in M. apply (over_makes ch c Hc l). now exists vs, e. Qed.

(** ** Every run of the program can be shared *)
Lemma call_there A (h : list (blabel A)) b n : breach h b -> exists b', bstep b (BCall n) = Some b'.
Proof.
  intros H. unfold bstep, ustep. destruct (u_disposed (b_subj b)); [unfold tell; cbn; rewrite nth_snoc; eauto|].
  destruct (u_stopped (b_subj b)); [unfold tell; cbn; rewrite nth_snoc; eauto|].
  destruct (u_obs (b_subj b)) as [|o r] eqn:Eo; cbn [uloop]; unfold tell; cbn [u_calls]; rewrite nth_snoc; [eauto|].
  assert (L : o < length (b_lines b)) by (apply (obs_known (bi H)); rewrite Eo; now left).
  destruct (nth_error (b_lines b) o) as [v|] eqn:Ev; [|apply nth_error_None in Ev; lia].
  destruct (lstep_call v n) as (v' & x & -> & _). eauto.
Qed.

Lemma turn_snoc A (h : list (blabel A)) b x : Hub.in_turn h -> breach h b -> match x with BCall _ => u_idle (b_subj b) | _ => True end -> Hub.in_turn (h ++ [x]).
Proof.
  intros T H X h1 n h2 b1 E H1. destruct h2 as [|y h2 _] using rev_ind.
  - apply app_inj_tail in E as [-> ->]. rewrite (breach_fun H1 H). exact X.
  - replace (h1 ++ BCall n :: h2 ++ [y]) with ((h1 ++ BCall n :: h2) ++ [y]) in E by now rewrite <- app_assoc.
    apply app_inj_tail in E as [-> _]. exact (T h1 n h2 b1 eq_refl H1).
Qed.
Lemma turn_going A (h h' : list (blabel A)) b : Hub.in_turn h -> breach (h ++ h') b -> Forall going h' -> Hub.in_turn (h ++ h').
Proof.
  revert b. induction h' as [|x h' IH] using rev_ind; intros b T H F; [now rewrite app_nil_r|].
  rewrite app_assoc in *. apply Forall_app in F as [F Fx]. destruct (breach_snoc _ _ H) as (b1 & H1 & _).
  eapply turn_snoc; [now eapply IH; eauto|exact H1|]. inversion Fx as [|? ? G]; subst. destruct x; try exact I. contradiction.
Qed.

Lemma chains_app A (h h' : list (blabel A)) : each_pipeline (fun Z pol p => chained pol p) h -> each_pipeline (fun Z pol p => chained pol p) h' -> each_pipeline (fun Z pol p => chained pol p) (h ++ h').
Proof. intros H1 H2 x Hx. apply in_app_iff in Hx as [Hx|Hx]; [now apply H1|now apply H2]. Qed.
Lemma going_chains A (h : list (blabel A)) : Forall going h -> each_pipeline (fun Z pol p => chained pol p) h.
Proof. intros F x Hx. rewrite Forall_forall in F. specialize (F x Hx). now destruct x. Qed.
Lemma going_sent A (h : list (blabel A)) : Forall going h -> relayed h = [].
Proof. induction 1 as [|x h G F IH]; [reflexivity|]. destruct x; try contradiction; exact IH. Qed.

Definition running {A} (x : blabel A) : Prop := going x \/ exists n, x = BCall n.
Lemma shares_settle A (h : list (blabel A)) b : shares h b -> exists h' b', Forall going h' /\ shares (h ++ h') b' /\ at_rest b'.
Proof.
  intros [S1 S2 S3 S4]. destruct (hot_settles S1) as (h' & b' & F & R & Q). exists h', b'. split; [exact F|]. split; [|exact Q].
  constructor; [exact R|apply chains_app; [exact S2|now apply going_chains]|exact (turn_going S3 R F)|].
  intros G. apply in_app_iff in G as [G|G]; [exact (S4 G)|]. rewrite Forall_forall in F. exact (F _ G).
Qed.

Lemma shares_calls A (h : list (blabel A)) b : shares h b -> forall l, exists h' b', Forall running h' /\ shares (h ++ h') b' /\ at_rest b' /\ relayed h' = l.
Proof.
  intros S l. induction l as [|n l IH] using rev_ind.
  - destruct (shares_settle S) as (h' & b' & F & S' & Q). exists h', b'. split; [eapply Forall_impl; [|exact F]; now left|]. split; [exact S'|]. split; [exact Q|now apply going_sent].
  - destruct IH as (h1 & b1 & F1 & [S1 S2 S3 S4] & Q1 & E1). destruct (call_there n S1) as (b2 & E2).
    assert (S' : shares ((h ++ h1) ++ [BCall n]) b2).
    { constructor; [econstructor; eassumption|apply chains_app; [exact S2|intros x [<-|[]]; exact I]|eapply turn_snoc; [exact S3|exact S1|apply Q1]|].
      intros G. apply in_app_iff in G as [G|[G|[]]]; [exact (S4 G)|discriminate]. }
    destruct (shares_settle S') as (h3 & b3 & F3 & S3' & Q3). exists ((h1 ++ [BCall n]) ++ h3), b3. split; [|split; [|split]].
    + apply Forall_app. split; [apply Forall_app; split; [exact F1|constructor; [right; eauto|constructor]]|]. eapply Forall_impl; [|exact F3]. now left.
    + rewrite !app_assoc in *. exact S3'.
    + exact Q3.
    + now rewrite !relayed_app, E1, (going_sent F3), app_nil_r.
Qed.

Lemma shares_sub A (h : list (blabel A)) b Z (pol : policy Z) p : shares h b -> chained pol p -> exists b', shares (h ++ [BSub pol p]) b'.
Proof.
  intros [S1 S2 S3 S4] Hp. assert (E : exists b', bstep b (BSub pol p) = Some b') by (unfold bstep, ustep; destruct (u_disposed (b_subj b)); eauto).
  destruct E as (b' & E). exists b'. constructor.
  - econstructor; eassumption.
  - apply chains_app; [exact S2|]. intros x [<-|[]]. exact Hp.
  - eapply turn_snoc; [exact S3|exact S1|exact I].
  - intros G. apply in_app_iff in G as [G|[G|[]]]; [exact (S4 G)|discriminate].
Qed.
Lemma shares_nil A : shares ([] : list (blabel A)) b_init.
Proof. constructor; [constructor|intros x []|intros h1 n h2 b E; destruct h1; discriminate|intros []]. Qed.
Lemma running_unsub A (h : list (blabel A)) k : Forall running h -> ~ In (BUnsub k) h.
Proof. intros F G. rewrite Forall_forall in F. destruct (F _ G) as [[]|[n E]]. discriminate. Qed.

Lemma told_nothing Z A (pol : policy Z) (p : pipe Z A) : tlog (tinit pol (front_op p) (front_rest p)) = [].
Proof. unfold tlog. cbn [tinit t_next snd]. generalize (front_rest p) as r. intros r. induction r; cbn in *; auto. Qed.

Lemma shares_join A C (ch : chain A C) (h : list (blabel A)) b : shares h b -> calm_front ch ->
  exists b', shares (h ++ [BSub well_behaved (hung ch PEnd)]) b' /\ was_told ch (joined h) b' [].
Proof.
  intros S Hf. destruct (shares_sub S (chained_intro ch Hf)) as (b' & S'). exists b'. split; [exact S'|].
  destruct (breach_snoc _ _ (sh_reach S')) as (b1 & H1 & E). unfold bstep in E. destruct (ustep _ _) as [s'|]; [|discriminate]. injection E as <-.
  eexists. cbn [b_lines]. rewrite joined_nsubs, (bi_n (bi H1)), nth_error_app2, Nat.sub_diag by lia. split; [reflexivity|].
  apply told_nothing.
Qed.

Lemma only_next A (ms : list (notif A)) : (forall n, In n ms -> exists v, n = OnNext v) -> existsb (@is_term A) ms = false.
Proof. induction ms as [|m ms IH]; intros H; [reflexivity|]. destruct (H m (or_introl eq_refl)) as [v ->]. apply IH. intros n Hn. apply H. now right. Qed.
