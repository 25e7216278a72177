(** * Proofs about programs in which observables run at the same time. *)
From Coq Require Import Permutation.
From Verif Require Import Properties9 ColdProofs ColdCatchProofs LawsProofs Programs PairProofs TimedProofs ProgramsProofs Programs2.
Set Implicit Arguments.

(** ** merge_inner comes to its end, also if the outer source fails *)
Section Bound.
  Context {O A : Type} (maxc : Z).
  Implicit Types (h : list (mlabel O A)) (s : mstate O A).

  Definition phi s : nat :=
    3 * length (m_box s) +
    match m_phase s with
    | WIdle => length (m_subs s) + length (m_queue s)
    | WSub subs q => length subs + length q + 2
    | WDisp r => length r
    | _ => 0
    end.

  Lemma remove_key_length k l : length (remove_key k l) <= length l.
  Proof. unfold remove_key. induction l as [|j l IH]; [apply le_n|]. cbn. destruct (negb (j =? k)); cbn; lia. Qed.

  Lemma work_phi s s' : work maxc s = Some s' -> S (phi s') <= phi s.
  Proof.
    unfold work, phi. intros Hs. destruct (m_phase s) as [|subs q|[|k r]| |] eqn:P; try discriminate.
    - destruct (m_box s) as [|m r] eqn:Bx; [discriminate|]. injection Hs as <-. destruct m as [o|k| |]; cbn.
      + destruct (room maxc _); cbn; [lia|]. destruct (m_stopped s), (m_subs s); cbn; rewrite ?app_length; cbn; lia.
      + pose proof (remove_key_length k (m_subs s)) as L. destruct (m_queue s) as [|o q]; cbn.
        * destruct (remove_key k (m_subs s)); cbn in *; destruct (m_stopped s); cbn; lia.
        * lia.
      + destruct (m_subs s); cbn; lia.
      + destruct (m_subs s); cbn; lia.
    - injection Hs as <-. cbn. destruct (m_stopped s), (subs ++ [m_key s]) eqn:E; cbn; try lia;
        apply (f_equal (@length nat)) in E; rewrite app_length in E; cbn in E; lia.
    - injection Hs as <-. destruct r; cbn; lia.
  Qed.

  Lemma work_bound_any h s : mreach maxc h s -> (forall l, In l h -> l <> LCancel) -> never_fails h ->
    works h + phi s <= 3 * (length (outer_calls h) + length (icalls h)).
  Proof.
    induction 1 as [|h s l s' H IH Hs]; intros Hc Hf; [cbn; lia|].
    assert (IH' : works h + phi s <= 3 * (length (outer_calls h) + length (icalls h))).
    { apply IH; [intros x Hx; apply Hc, in_or_app; now left|intros e He; apply (Hf e), in_or_app; now left]. }
    rewrite outer_snoc, calls_snoc, !app_length. unfold works in *. rewrite filter_app, app_length.
    destruct l as [[o|e|]|k n| | |e]; cbn [mstep] in Hs.
    - injection Hs as <-. unfold phi in *. cbn. rewrite app_length. cbn. lia.
    - injection Hs as <-. unfold phi in *. cbn. rewrite app_length. cbn. lia.
    - injection Hs as <-. unfold phi in *. cbn. rewrite app_length. cbn. lia.
    - destruct (begun k s); [|discriminate]. injection Hs as <-. unfold phi in *. destruct n; cbn; rewrite ?app_length; cbn; lia.
    - elim (Hc LCancel); [apply in_or_app; right; now left|reflexivity].
    - apply work_phi in Hs. cbn - [phi Nat.mul]. lia.
    - elim (Hf e). apply in_or_app; right; now left.
  Qed.
End Bound.

Section Extend.
  Context {O A : Type} (maxc : Z) (content : O -> list A * ending) (os : list O) (oe : ending).
  Notation script := (fun o => script_of (content o)).
  Notation outer := (trace os oe).
  Implicit Types (h : list (mlabel O A)) (s : mstate O A).

  Lemma finite_any h s : mreach maxc h s -> follows script outer h s -> length h <= 4 * size content os oe.
  Proof.
    intros H F. pose proof (calls_length H F) as L. pose proof F as (F1 & F2 & [c3 P3] & _).
    pose proof (work_bound_any H F1 F2) as W.
    destruct (proj1 (in_order H)) as [c1 P1]. destruct (arrived_prefix _ _ _ F) as [c2 P2].
    rewrite (history_length s F1 F2). unfold size. rewrite P3 at 1. rewrite app_length. rewrite P2, P1 at 1. rewrite !map_app, !list_sum_app. lia.
  Qed.

  Lemma extends_any h s : mreach maxc h s -> follows script outer h s ->
    exists h' s', mreach maxc (h ++ h') s' /\ follows script outer (h ++ h') s' /\ finished script outer maxc (h ++ h') s' /\ prefix (m_log s) (m_log s').
  Proof.
    intros H F. remember (4 * size content os oe - length h) as n eqn:En. revert h s H F En. induction n as [n IH] using lt_wf_ind. intros h s H F En.
    destruct (progress H F) as [D|(l & s1 & Hs & F')].
    - exists [], s. rewrite app_nil_r. repeat split; try apply F; try apply D; [exact H|apply prefix_refl].
    - pose proof (mr_snoc _ H Hs) as H1. pose proof (finite_any H1 F') as L. rewrite app_length in L. cbn [length] in L.
      destruct (IH (4 * size content os oe - length (h ++ [l]))) with (h := h ++ [l]) (s := s1) as (h' & s' & R & Fo & Fi & Pr); auto.
      + rewrite app_length. cbn [length]. lia.
      + exists (l :: h'), s'. replace (h ++ l :: h') with ((h ++ [l]) ++ h') by (now rewrite <- app_assoc). repeat split; auto; try apply Fo; try apply Fi.
        destruct (log_mono maxc _ _ Hs) as [d Hd], Pr as [d' Hd']. exists (d ++ d'). now rewrite Hd', Hd, app_assoc.
  Qed.
End Extend.

(** ** A schedule for every interleaving *)
Section Schedule.
  Context {O A : Type}.
  Implicit Types (h : list (mlabel O A)) (s : mstate O A).

  Record begins (a : list O) h s : Prop := {
    b_reach : mreach 0 h s;
    b_outer : outer_calls h = map OnNext a;
    b_cancel : forall l, In l h -> l <> LCancel;
    b_fails : never_fails h;
    b_subs : subscribed (m_log s) = a }.

  Lemma subscribe_all (a : list O) : exists h s, begins a h s /\ icalls h = [] /\ requests (m_log s) = [] /\
    m_box s = [] /\ m_phase s = WIdle.
  Proof.
    induction a as [|o a IH] using rev_ind.
    - exists [], m_init. split; [|auto]. constructor; try reflexivity; [constructor|intros l []|intros e []].
    - destruct IH as (h & s & B & C & R & Bx & Ph).
      set (s1 := post (MInner o) s).
      assert (S1 : mstep 0 s (LOuter (OnNext o)) = Some s1) by reflexivity.
      set (s2 := MState [] (m_subs s) (m_queue s) (m_stopped s) (m_key s) (WSub (m_subs s) (m_queue s)) (m_log s ++ [ESub (m_key s) o])).
      assert (S2 : mstep 0 s1 LWork = Some s2) by (cbn; unfold work; cbn; rewrite Ph, Bx; reflexivity).
      set (s3 := store (m_subs s ++ [m_key s]) (m_queue s) (m_stopped s) (S (m_key s)) s2).
      assert (S3 : mstep 0 s2 LWork = Some s3) by reflexivity.
      exists (((h ++ [LOuter (OnNext o)]) ++ [LWork]) ++ [LWork]), s3. split; [constructor|].
      + exact (mr_snoc _ (mr_snoc _ (mr_snoc _ (b_reach B) S1) S2) S3).
      + rewrite !outer_snoc, (b_outer B), map_app. cbn. now rewrite !app_nil_r.
      + intros l Hl. repeat (apply in_app_or in Hl as [Hl|[<-|[]]]; [|discriminate]). exact (b_cancel B Hl).
      + intros e Hl. repeat (apply in_app_or in Hl as [Hl|[Hl|[]]]; [|discriminate]). exact (b_fails B e Hl).
      + cbn. unfold subscribed. rewrite flat_map_app. fold (subscribed (m_log s)). now rewrite (b_subs B).
      + split; [rewrite !calls_snoc, C; reflexivity|]. split; [cbn; unfold requests; rewrite flat_map_app; fold (requests (m_log s)); now rewrite R|].
        split; [reflexivity|]. cbn. destruct (m_stopped s), (m_subs s ++ [m_key s]) eqn:E; try reflexivity. destruct (m_subs s); discriminate.
  Qed.

  Definition sending (t : list (nat * A)) : list (mlabel O A) := map (fun p => LInner (fst p) (OnNext (snd p))) t.

  Lemma send_all t : forall h s, mreach 0 h s -> (forall p, In p t -> In (fst p) (keys (m_log s))) ->
    mreach 0 (h ++ sending t) (MState (m_box s) (m_subs s) (m_queue s) (m_stopped s) (m_key s) (m_phase s) (m_log s ++ map (fun p => EReq (OnNext (snd p))) t)).
  Proof.
    induction t as [|[k v] t IH]; intros h s H Hk.
    - cbn. rewrite !app_nil_r. now destruct s.
    - assert (S1 : mstep 0 s (LInner k (OnNext v)) = Some (emit (EReq (OnNext v)) s)).
      { cbn. assert (B : begun k s = true) by (apply begun_keys, (Hk (k, v)); now left). now rewrite B. }
      pose proof (IH _ _ (mr_snoc _ H S1)) as R. rewrite <- app_assoc in R. cbn in R. rewrite <- app_assoc in R. apply R.
      intros p Hp. unfold keys. rewrite flat_map_app. apply in_or_app. left. apply Hk. now right.
  Qed.

  Lemma sending_inner k t : inner_calls k (sending t) = map OnNext (map snd (filter (fun p => fst p =? k) t)).
  Proof.
    unfold inner_calls, sending. induction t as [|[j v] t IH]; [reflexivity|]. cbn. destruct (j =? k); cbn; [f_equal|]; exact IH.
  Qed.
  Lemma sending_outer t : outer_calls (sending t) = [].
  Proof. unfold sending, outer_calls. induction t as [|p t IH]; [reflexivity|exact IH]. Qed.
  Lemma sending_sends t : sends (sending t) = t.
  Proof. unfold sending, sends. induction t as [|[k v] t IH]; [reflexivity|]. cbn. now rewrite IH. Qed.
  Lemma sending_in t l : In l (sending t) -> exists k v, l = LInner k (OnNext v).
  Proof. intros H. apply in_map_iff in H as ([k v] & <- & _). now exists k, v. Qed.
  Lemma outer_app h h' : outer_calls (h ++ h') = outer_calls h ++ outer_calls h'.
  Proof. unfold outer_calls. apply flat_map_app. Qed.
  Lemma sends_app h h' : sends (h ++ h') = sends h ++ sends h'.
  Proof. unfold sends. apply flat_map_app. Qed.
  Lemma requests_app (l l' : list (effect O A)) : requests (l ++ l') = requests l ++ requests l'.
  Proof. unfold requests. apply flat_map_app. Qed.
  Lemma subscribed_app (l l' : list (effect O A)) : subscribed (l ++ l') = subscribed l ++ subscribed l'.
  Proof. unfold subscribed. apply flat_map_app. Qed.
  Lemma no_calls_of k h : icalls h = [] -> inner_calls k h = [].
  Proof. unfold inner_calls. now intros ->. Qed.

  (** The observables [a] are subscribed, and have made the elements [t]. *)
  Lemma interleaved (a : list O) t : (forall p, In p t -> fst p < length a) ->
    exists h s, begins a h s /\ sends h = t /\ (forall k, inner_calls k h = map OnNext (map snd (filter (fun p => fst p =? k) t))) /\
      requests (m_log s) = map OnNext (map snd t).
  Proof.
    intros Ht. destruct (subscribe_all a) as (h & s & B & C & R & Bx & Ph).
    exists (h ++ sending t). eexists. split; [constructor|].
    - apply (send_all t (b_reach B)). intros p Hp. rewrite (keys_seq (b_reach B)), <- subs_length, (b_subs B). apply in_seq. specialize (Ht p Hp). lia.
    - rewrite outer_app, sending_outer, app_nil_r. exact (b_outer B).
    - intros l Hl. apply in_app_or in Hl as [Hl|Hl]; [exact (b_cancel B Hl)|]. apply sending_in in Hl as (k & v & ->). discriminate.
    - intros e Hl. apply in_app_or in Hl as [Hl|Hl]; [exact (b_fails B e Hl)|]. apply sending_in in Hl as (k & v & ?). discriminate.
    - cbn. rewrite subscribed_app, (b_subs B). replace (subscribed (map _ t)) with (@nil O); [apply app_nil_r|]. clear. unfold subscribed. induction t as [|p t IH]; [reflexivity|exact IH].
    - split; [|split].
      + rewrite sends_app, sending_sends. replace (sends h) with (@nil (nat * A)); [reflexivity|].
        clear -C. unfold icalls, sends in *. induction h as [|l h IH]; [reflexivity|]. cbn in *. destruct l as [n|k n| | |e]; cbn in *; try exact (IH C). discriminate.
      + intros k. rewrite inner_app, (no_calls_of _ _ C), sending_inner. reflexivity.
      + cbn. rewrite requests_app, R. clear. unfold requests. induction t as [|p t IH]; [reflexivity|]. cbn in *. now rewrite IH.
  Qed.
End Schedule.

Lemma sub_nth O A maxc h (s : mstate O A) k o : mreach maxc h s -> In (ESub k o) (m_log s) -> nth_error (subscribed (m_log s)) k = Some o.
Proof.
  intros H Ho. apply in_pairs, In_nth_error in Ho as [i Ei]. pose proof (map_nth_error fst _ _ Ei) as G. rewrite pairs_fst, (keys_seq H) in G. cbn in G.
  assert (L : i < length (seq 0 (length (keys (m_log s))))) by (apply nth_error_Some; congruence).
  rewrite seq_length in L. apply nth_error_nth with (d := 0) in G. rewrite seq_nth in G by exact L. cbn in G. subst i.
  rewrite <- pairs_snd. exact (map_nth_error snd _ _ Ei).
Qed.
Lemma indexed_app X (a b : list X) : forall i, indexed i (a ++ b) = indexed i a ++ indexed (i + length a) b.
Proof. induction a as [|x a IH]; intros i; cbn; [now rewrite Nat.add_0_r|]. rewrite IH. do 2 f_equal. f_equal. lia. Qed.
Lemma forall2_nth X Y (P : X -> Y -> Prop) xs ys : Forall2 P xs ys -> forall k x, nth_error xs k = Some x -> exists y, nth_error ys k = Some y /\ P x y.
Proof.
  induction 1 as [|x y xs ys H1 H2 IH]; intros [|k] z E; try discriminate.
  - injection E as <-. now exists y.
  - exact (IH k z E).
Qed.
Lemma forall2_len X Y (P : X -> Y -> Prop) xs ys : Forall2 P xs ys -> length xs = length ys.
Proof. induction 1; cbn; congruence. Qed.
Lemma choose_all X Y (P : X -> Y -> Prop) xs : (forall x, In x xs -> exists y, P x y) -> exists ys, Forall2 P xs ys.
Proof.
  induction xs as [|x xs IH]; intros H; [now exists []|].
  destruct (H x (or_introl eq_refl)) as [y Hy]. destruct IH as [ys Hys]; [intros z Hz; apply H; now right|]. exists (y :: ys). now constructor.
Qed.
Lemma trace_cons_prefix A (vs ws : list A) e : prefix vs ws -> prefix (map OnNext vs) (trace ws e).
Proof. intros [c ->]. unfold trace. rewrite map_app, <- app_assoc. now eexists. Qed.
Lemma upto_failed A (vs : list A) x q : upto_terminal (map OnNext vs ++ OnError x :: q) = trace vs (Failed x).
Proof. unfold trace. induction vs as [|v vs IH]; [reflexivity|]. cbn. now rewrite IH. Qed.

Lemma post_outer O A maxc (os : list O) : forall h (s : mstate O A), mreach maxc h s ->
  exists s', mreach maxc (h ++ map (fun o => LOuter (OnNext o)) os) s' /\ m_log s' = m_log s.
Proof.
  induction os as [|o os IH]; intros h s H.
  - exists s. cbn. now rewrite app_nil_r.
  - assert (S1 : mstep maxc s (LOuter (OnNext o)) = Some (post (MInner o) s)) by reflexivity.
    destruct (IH _ _ (mr_snoc _ H S1)) as (s' & R & E). exists s'. rewrite <- app_assoc in R. split; [exact R|exact E].
Qed.

Section Complete.
  Context {X A : Type} (Means : X -> list A -> ending -> Prop).

  Lemma together_complete xs oe vs e : together Means 0 oe xs vs e -> (forall x, In x xs -> exists us d, Means x us d) ->
    exists script h (s : mstate (X * nat) A), mreach 0 h s /\ follows script (placed 0 (trace xs oe)) h s /\ finished script (placed 0 (trace xs oe)) 0 h s /\
      (forall k x i, In (ESub k (x, i)) (m_log s) -> exists us d, Means x us d /\ script (x, i) = trace us d) /\
      delivers (psys well_behaved (safe PEnd)) (requests (m_log s)) (trace vs e).
  Proof.
    intros (xs' & cs & ps & [r Er] & Hcs & Hps & (t & Et & Lt & Ht) & He) Hall. rewrite placed_trace.
    destruct (@choose_all X (list A * ending) (fun x c => Means x (fst c) (snd c)) r) as [cr Hcr].
    { intros x Hx. destruct (Hall x) as (us & d & M); [rewrite Er; apply in_or_app; now right|]. now exists (us, d). }
    set (f := fun o : X * nat => nth (snd o) (cs ++ cr) ([], Open)). set (script := fun o => script_of (f o)). set (outer := trace (indexed 0 xs) oe).
    assert (Hf : forall k x i, nth_error (indexed 0 xs) k = Some (x, i) -> i = k /\ Means x (fst (f (x, i))) (snd (f (x, i)))).
    { intros k x i E. destruct (nth_indexed _ _ _ E) as [-> Ex]. cbn [plus] in *. split; [reflexivity|].
      pose proof (Forall2_app Hcs Hcr) as H2. rewrite <- Er in H2. destruct (forall2_nth H2 _ Ex) as (c & Ec & M).
      unfold f. cbn [snd]. now rewrite (nth_error_nth _ _ _ Ec). }
    assert (Lps : length ps = length xs') by (rewrite (forall2_len Hps), (forall2_len Hcs); reflexivity).
    assert (Lix : length (indexed 0 xs') = length xs') by apply indexed_length.
    destruct (@interleaved (X * nat) A (indexed 0 xs') t) as (h0 & s0 & B & Sn & In0 & Rq); [intros p Hp; rewrite Lix, <- Lps; exact (Lt p Hp)|].
    assert (Hsub : forall h (s : mstate (X * nat) A) k x i, mreach 0 h s -> prefix (subscribed (m_log s)) (indexed 0 xs) -> In (ESub k (x, i)) (m_log s) -> i = k /\ Means x (fst (f (x, i))) (snd (f (x, i)))).
    { intros h s k x i H [c P] Hk. apply (sub_nth _ _ H) in Hk. apply (Hf k x i). rewrite P. rewrite nth_error_app1; [exact Hk|]. apply nth_error_Some. congruence. }
    assert (Hp : forall k o, In (ESub k o) (m_log s0) -> exists p c, nth_error ps k = Some p /\ nth_error cs k = Some c /\ f o = c /\ prefix p (fst c) /\ inner_calls k h0 = map OnNext p).
    { intros k o Ho. apply (sub_nth _ _ (b_reach B)) in Ho. rewrite (b_subs B) in Ho. destruct o as [x i]. destruct (nth_indexed _ _ _ Ho) as [-> Ex]. cbn [plus].
      destruct (forall2_nth Hcs _ Ex) as (c & Ec & _).
      destruct (nth_error ps k) as [p|] eqn:Ep; [|apply nth_error_None in Ep; rewrite Lps in Ep; apply nth_error_None in Ep; congruence].
      exists p, c. destruct (forall2_nth Hps _ Ep) as (c' & Ec' & Pp). rewrite Ec in Ec'. injection Ec' as <-.
      split; [reflexivity|]. split; [exact Ec|]. split; [|split; [exact Pp|]].
      - unfold f. cbn [snd]. rewrite app_nth1 by (apply nth_error_Some; congruence). exact (nth_error_nth _ _ _ Ec).
      - rewrite In0. f_equal. exact (Ht k p Ep). }
    assert (Po : prefix (outer_calls h0) outer).
    { rewrite (b_outer B). apply trace_cons_prefix. rewrite Er, indexed_app. now eexists. }
    assert (F0 : follows script outer h0 s0).
    { split; [exact (b_cancel B)|]. split; [exact (b_fails B)|]. split; [exact Po|]. intros k o Ho. destruct (Hp k o Ho) as (p & c & _ & _ & Ef & Pp & ->).
      unfold script, script_of. rewrite Ef. now apply trace_cons_prefix. }
    (* what remains to be shown when the schedule has been chosen *)
    assert (Fin : forall h s, mreach 0 h s -> follows script outer h s ->
      (forall h' s', mreach 0 (h ++ h') s' -> follows script outer (h ++ h') s' -> finished script outer 0 (h ++ h') s' -> prefix (m_log s) (m_log s') -> upto_terminal (requests (m_log s')) = trace vs e) ->
      exists script h (s : mstate (X * nat) A), mreach 0 h s /\ follows script outer h s /\ finished script outer 0 h s /\
      (forall k x i, In (ESub k (x, i)) (m_log s) -> exists us d, Means x us d /\ script (x, i) = trace us d) /\
      delivers (psys well_behaved (safe PEnd)) (requests (m_log s)) (trace vs e)).
    { intros h s H F G. destruct (extends_any f (indexed 0 xs) oe H F) as (h' & s' & H' & F' & D' & P').
      exists script, (h ++ h'), s'. split; [exact H'|]. split; [exact F'|]. split; [exact D'|]. split.
      - intros k x i Hk. destruct (Hsub _ _ _ _ _ H' (subscribed_prefix f _ _ H' D') Hk) as [_ M]. eexists _, _. split; [exact M|reflexivity].
      - apply (delivers_iff (sane_psys _ _)), subscriber. symmetry. exact (G h' s' H' F' D' P'). }
    assert (Rest : ps = map fst cs -> xs' = xs -> forall h' s', mreach 0 (h0 ++ h') s' -> finished script outer 0 (h0 ++ h') s' -> sends (h0 ++ h') = t).
    { intros Eps Exs h' s' H' D'. rewrite sends_app, Sn. enough (E : sends h' = []) by (rewrite E; apply app_nil_r).
      destruct (sends h') as [|[k v] q] eqn:E; [reflexivity|]. exfalso.
      assert (Hin : In (k, v) (sends (h0 ++ h'))) by (rewrite sends_app, E; apply in_or_app; right; now left).
      pose proof (senders_begun H' _ _ Hin) as Hk. apply in_keys in Hk as [o Ho].
      pose proof (@sent_all _ _ 0 f (indexed 0 xs) oe _ _ _ _ D' Ho) as S1.
      unfold sent in S1. rewrite sends_app, Sn, filter_app, map_app in S1.
      destruct o as [x i]. destruct (Hsub _ _ _ _ _ H' (subscribed_prefix f _ _ H' D') Ho) as [-> _].
      assert (Ek : nth_error ps k = Some (fst (f (x, k)))).
      { pose proof (sub_nth _ _ H' Ho) as N. destruct (subscribed_prefix f _ _ H' D') as [c Pc]. 
        assert (N' : nth_error (indexed 0 xs) k = Some (x, k)) by (rewrite Pc, nth_error_app1; [exact N|apply nth_error_Some; congruence]).
        destruct (nth_indexed _ _ _ N') as [_ Ex]. rewrite <- Exs in Ex. destruct (forall2_nth Hcs _ Ex) as (c' & Ec & _).
        unfold f. cbn [snd]. rewrite app_nth1 by (apply nth_error_Some; congruence). rewrite (nth_error_nth _ _ _ Ec). rewrite Eps. exact (map_nth_error fst _ _ Ec). }
      rewrite (Ht k _ Ek) in S1. rewrite E in S1. cbn in S1. rewrite Nat.eqb_refl in S1. cbn in S1.
      apply (f_equal (@length A)) in S1. rewrite app_length in S1. cbn in S1. lia. }
    destruct e as [|x|].
    - (* no end *)
      destruct He as (Eps & Hno & Hoe & Hx). assert (Exs : xs' = xs) by (destruct Hx as [Hx|[Hx _]]; [exact Hx|lia]).
      assert (Hcr0 : cs ++ cr = cs) by (rewrite Exs in Er; assert (r = []) as -> by (apply (app_inv_head xs); now rewrite app_nil_r); inversion Hcr; apply app_nil_r).
      apply (Fin h0 s0 (b_reach B) F0). intros h' s' H' F' D' P'. pose proof (Rest Eps Exs h' s' H' D') as Es.
      assert (Nf : forall o, In o (subscribed (m_log s')) -> forall x, snd (f o) <> Failed x).
      { intros [y i] Ho z. destruct (in_subscribed _ H' Ho) as [k Hk]. pose proof (sub_nth _ _ H' Hk) as N. destruct (subscribed_prefix f _ _ H' D') as [c Pc].
        assert (N' : nth_error (indexed 0 xs) k = Some (y, i)) by (rewrite Pc, nth_error_app1; [exact N|apply nth_error_Some; congruence]).
        destruct (nth_indexed _ _ _ N') as [-> Ex]. cbn [plus]. rewrite <- Exs in Ex. destruct (forall2_nth Hcs _ Ex) as (c' & Ec & _).
        unfold f. cbn [snd]. rewrite Hcr0, (nth_error_nth _ _ _ Ec). exact (proj1 (Forall_forall _ _) Hno c' (nth_error_In _ _ Ec) z). }
      destruct (@merge_any _ _ 0 f (indexed 0 xs) oe (h0 ++ h') s' (Z.le_refl 0) H' F' D') as (ps' & ws & e & Eu & Pu & Pp & I & M).
      destruct e as [|y|].
      + rewrite Eu. f_equal. destruct (first_terminal (requests (m_log s'))) as (us & [E|[(q & E)|(z & q & E)]]).
        * rewrite E in Eu. assert (E' : trace us Open = trace ws Open) by (rewrite <- Eu; symmetry; unfold trace; rewrite app_nil_r; clear; induction us as [|u us IH]; [reflexivity|cbn; now rewrite IH]).
          apply trace_inj in E' as [<- _]. rewrite (open_sends _ H' E), Es. exact Et.
        * exfalso. rewrite E in Eu. assert (E' : trace us Completed = trace ws Open) by (rewrite <- Eu; clear; unfold trace; induction us as [|u us IH]; [reflexivity|cbn; now rewrite <- IH]). apply trace_inj in E' as [_ ?]. discriminate.
        * exfalso. rewrite E, upto_failed in Eu. apply trace_inj in Eu as [_ ?]. discriminate.
      + exfalso. destruct M as [M|(k & o & Ek & Eo & _)]; [destruct Hoe as [Hoe|[Hoe _]]; congruence|]. exact (Nf o (nth_error_In _ _ Ek) y Eo).
      + exfalso. destruct M as (M1 & M2 & M3 & M4). destruct Hoe as [Hoe|[_ Hex]]; [congruence|].
        apply Exists_exists in Hex as (c & Hc & Eo). apply In_nth_error in Hc as [k Ek].
        assert (Ex : exists x, nth_error xs k = Some x) by (destruct (nth_error xs k) eqn:N; [eauto|]; apply nth_error_None in N; assert (k < length cs) by (apply nth_error_Some; congruence); rewrite <- (forall2_len Hcs), Exs in *; lia).
        destruct Ex as [x Ex].
        assert (N : nth_error (indexed 0 xs) k = Some (x, k)).
        { destruct (nth_error (indexed 0 xs) k) as [[y i]|] eqn:N; [destruct (nth_indexed _ _ _ N) as [-> Ey]; cbn in *; congruence|]. apply nth_error_None in N. rewrite indexed_length in N. apply nth_error_None in N. congruence. }
        specialize (M4 _ (nth_error_In _ _ N)). unfold f in M4. cbn [snd] in M4. rewrite Hcr0, (nth_error_nth _ _ _ Ek) in M4. congruence.
    - (* an error *)
      destruct He as [Eoe|(k & us & Ec & Ep)].
      + destruct (@post_outer _ _ 0 (indexed (length xs') r) h0 s0 (b_reach B)) as (s1 & R1 & L1).
        assert (S2 : mstep 0 s1 (LOuter (OnError x)) = Some (post MDispose (emit (EReq (OnError x)) s1))) by reflexivity.
        pose proof (mr_snoc _ R1 S2) as R2. set (s2 := post MDispose (emit (EReq (OnError x)) s1)) in *.
        set (h2 := (h0 ++ map (fun o => LOuter (OnNext o)) (indexed (length xs') r)) ++ [LOuter (OnError x)]) in *.
        assert (L2 : m_log s2 = m_log s0 ++ [EReq (OnError x)]) by (cbn; now rewrite L1).
        assert (I2 : forall k, inner_calls k h2 = inner_calls k h0).
        { intros k. unfold h2. rewrite !inner_app. replace (inner_calls k [LOuter (OnError x)]) with (@nil (notif A)) by reflexivity.
          replace (inner_calls k (map _ _)) with (@nil (notif A)); [now rewrite !app_nil_r|]. symmetry. apply no_calls_of. unfold icalls. clear. induction (indexed (length xs') r) as [|o l IH]; [reflexivity|exact IH]. }
        assert (O2 : outer_calls h2 = outer).
        { unfold h2, outer, trace. rewrite !outer_app, (b_outer B), Eoe, Er, indexed_app, map_app. cbn [plus]. f_equal. f_equal. clear. unfold outer_calls. induction (indexed (length xs') r) as [|o l IH]; [reflexivity|]. cbn. now rewrite <- IH. }
        assert (F2 : follows script outer h2 s2).
        { split; [|split; [|split]].
          - intros l Hl. unfold h2 in Hl. apply in_app_or in Hl as [Hl|[<-|[]]]; [|discriminate]. apply in_app_or in Hl as [Hl|Hl]; [exact (b_cancel B Hl)|]. apply in_map_iff in Hl as (o & <- & _). discriminate.
          - intros z Hl. unfold h2 in Hl. apply in_app_or in Hl as [Hl|[Hl|[]]]; [|discriminate]. apply in_app_or in Hl as [Hl|Hl]; [exact (b_fails B z Hl)|]. apply in_map_iff in Hl as (o & ? & _). discriminate.
          - rewrite O2. apply prefix_refl.
          - intros k o Ho. rewrite I2. rewrite L2 in Ho. apply in_app_or in Ho as [Ho|[Ho|[]]]; [|discriminate]. exact (proj2 (proj2 (proj2 F0)) k o Ho). }
        apply (Fin h2 s2 R2 F2). intros h' s' _ _ _ [c P']. rewrite P', L2, !requests_app, Rq, Et. rewrite <- app_assoc. apply upto_failed.
      + assert (Lk : k < length xs') by (rewrite <- Lps; apply nth_error_Some; congruence).
        assert (Bk : begun k s0 = true).
        { apply begun_keys. rewrite (keys_seq (b_reach B)), <- subs_length, (b_subs B), Lix. apply in_seq. lia. }
        assert (S2 : mstep 0 s0 (LInner k (OnError x)) = Some (emit (EReq (OnError x)) s0)) by (cbn; now rewrite Bk).
        assert (F2 : follows script outer (h0 ++ [LInner k (OnError x)]) (emit (EReq (OnError x)) s0)).
        { apply (@follows_step _ _ 0 script outer _ _ _ _ (b_reach B) F0 S2). intros o Ho. destruct (Hp k o Ho) as (p & c & Ep' & Ec' & Ef & _ & ->).
          rewrite Ep in Ep'. rewrite Ec in Ec'. injection Ep' as <-. injection Ec' as <-. unfold script, script_of. rewrite Ef. apply prefix_refl. }
        apply (Fin _ _ (mr_snoc _ (b_reach B) S2) F2). intros h' s' _ _ _ [c P']. rewrite P'. cbn [emit m_log]. rewrite !requests_app, Rq, Et. rewrite <- app_assoc. apply upto_failed.
    - (* completion *)
      destruct He as (Eoe & Exs & Eps & Hc).
      assert (Hoe : forall x, oe <> Failed x) by (rewrite Eoe; discriminate).
      assert (Hcr0 : cs ++ cr = cs) by (rewrite Exs in Er; assert (r = []) as -> by (apply (app_inv_head xs); now rewrite app_nil_r); inversion Hcr; apply app_nil_r).
      apply (Fin h0 s0 (b_reach B) F0). intros h' s' H' F' D' P'. pose proof (Rest Eps Exs h' s' H' D') as Es.
      rewrite (complete_requests f (indexed 0 xs) Hoe (Z.le_refl 0) H' F' D' Eoe), Es, Et; [apply norm_trace0|].
      intros [y i] Ho. apply In_nth_error in Ho as [k N]. destruct (nth_indexed _ _ _ N) as [-> Ex]. cbn [plus]. rewrite <- Exs in Ex.
      destruct (forall2_nth Hcs _ Ex) as (c' & Ec & _). unfold f. cbn [snd]. rewrite Hcr0, (nth_error_nth _ _ _ Ec). exact (proj1 (Forall_forall _ _) Hc c' (nth_error_In _ _ Ec)).
  Qed.
End Complete.

(** ** Programs mean what they make *)
Lemma regular_bounded A (c : cold A) : regular c -> bounded c.
Proof.
  induction c as [A s|A B g c IH|X A maxc c inner IH IHi|A c handler IH IHh|A B C k c d IHc IHd|X A c inner IH IHi|A k c IH|sec per|A n c IH|A P] using cold_induct; cbn; auto.
  - intros (Hm & Hc & Hi). split; [destruct Hm as [[-> _]|[-> _]]; lia|]. split; [exact (IH Hc)|]. intros x. exact (IHi x (Hi x)).
  - intros (Hc & Hh). split; [exact (IH Hc)|]. intros x. specialize (IHh x). specialize (Hh x). destruct (handler x); auto.
  - intros (Hc & Hd). auto.
  - intros (Hc & Hi). split; [exact (IH Hc)|]. intros x. exact (IHi x (Hi x)).
Qed.

Lemma seq_regular A (c : cold A) : one_at_a_time c -> regular c.
Proof.
  induction c as [A s|A B g c IH|X A maxc c inner IH IHi|A c handler IH IHh|A B C k c d IHc IHd|X A c inner IH IHi|A k c IH|sec per|A n c IH|A P] using cold_induct; cbn; auto.
  - intros (-> & Hc & Hr & Hi). split; [right; now split|]. split; [exact (IH Hc)|]. intros x. exact (IHi x (Hi x)).
  - intros (Hc & Hh). split; [exact (IH Hc)|]. intros x. specialize (IHh x). specialize (Hh x). destruct (handler x); auto.
  - contradiction.
  - contradiction.
  - intros Hc. apply IH. destruct k; [exact Hc|contradiction..].
Qed.

Theorem complete_any A (c : cold A) : regular c -> forall vs e, means c vs e -> makes c (trace vs e).
Proof.
  induction c as [A s|A B g c IH|X A maxc c inner IH IHi|A c handler IH IHh|A B C k c d IHc IHd|X A c inner IH IHi|A k c IH|sec per|A n c IH|A P] using cold_induct; intros Hb vs e Hm.
  - apply makes_from. cbn in Hm. now rewrite Hm.
  - destruct Hm as (us & d & M & E). exists (trace us d). split; [exact (IH Hb _ _ M)|]. apply stage_delivers. now rewrite E.
  - destruct Hb as (Hmx & Hb & Hbi). destruct Hm as (xs & oe & M & T). destruct Hmx as [[-> Hp]|[-> Hnf]].
    + change (together (fun x => means (inner x)) 0 oe xs vs e) in T.
      destruct (together_complete T) as (script & h & s & H & F & D & G & Hd).
      { intros x _. destruct (Hp x) as [l Hl]. apply (sound _ (regular_bounded _ (Hbi x))) in Hl as (us & d & Mx & _). now exists us, d. }
      exists (trace xs oe), script, h, s. split; [exact (IH Hb _ _ M)|]. split; [exact H|]. split; [exact F|]. split; [exact D|]. split; [|exact Hd].
      intros k x i Hk. destruct (G k x i Hk) as (us & d & Mx & ->). exact (IHi x (Hbi x) _ _ Mx).
    + assert (Hoe : forall x, oe <> Failed x) by (intros x ->; apply (Hnf (trace xs (Failed x)) x); [exact (IH Hb _ _ M)|apply in_or_app; right; now left]).
      assert (T' : in_turn (fun x => means (inner x)) oe xs vs e) by (destruct oe as [|x|]; [exact T|now elim (Hoe x)|exact T]).
      destruct (turn_complete Hoe T') as (script & h & s & H & F & D & G & Hd).
      exists (trace xs oe), script, h, s. split; [exact (IH Hb _ _ M)|]. split; [exact H|]. split; [exact F|]. split; [exact D|]. split; [|exact Hd].
      intros k x i Hk. destruct (G k x i Hk) as (us & d & Mx & ->). exact (IHi x (Hbi x) _ _ Mx).
  - destruct Hb as (Hb & Hbh).
    set (Means := fun o : option exn => match o with None => means c | Some x => match handler x with Ok c' => means c' | Err _ => fun _ _ => False end end).
    assert (Hp : exists cs, played (answers_to handler) Means tt None cs vs e).
    { apply (@recovered_played (option exn) A (answers_to handler) Means (fun x => match handler x with Ok _ => Some (Some x) | Err _ => None end)) with (P := means c); [|clear -Hm|reflexivity].
      - intros x. unfold answers_to. destruct (handler x) as [c'|y]; cbn; eauto.
      - cbn in Hm. refine (recovered_ext _ _ Hm). intros x. unfold Means. destruct (handler x) eqn:Ex; [rewrite Ex|]; reflexivity. }
    destruct Hp as [cs Hp]. destruct (catch_complete Hp) as (content & h & s & H & F & D & G & E).
    exists content, h, s. split; [exact H|]. split; [exact F|]. split; [exact D|]. split; [|exact E].
    intros k o Hk. specialize (G k o Hk). destruct o as [x|]; cbn in G.
    + specialize (IHh x). specialize (Hbh x). destruct (handler x) as [c'|y]; [|contradiction]. exact (IHh Hbh _ _ G).
    + exact (IH Hb _ _ G).
  - destruct Hb as [Hc Hd]. destruct Hm as (xs & da & ys & db & Mc & Md & P). destruct (@pair_complete _ _ _ k _ _ _ _ _ _ P) as (ms & Ex & Ey & D).
    exists ms. rewrite Ex, Ey. split; [exact (IHc Hc _ _ Mc)|]. split; [exact (IHd Hd _ _ Md)|exact D].
  - destruct Hb as (Hb & Hbi). destruct Hm as (xs & oe & M & T). destruct (switch_complete T) as (script & h & s & H & F & D & G & Hd).
    exists (trace xs oe), script, h, s. split; [exact (IH Hb _ _ M)|]. split; [exact H|]. split; [exact F|]. split; [exact D|]. split; [|exact Hd].
    intros k x i Hk. destruct (G k x i Hk) as (us & d & Mx & ->). exact (IHi x (Hbi x) _ _ Mx).
  - destruct Hm as (xs & M & Hs). exists (trace xs e). split; [exact (IH Hb _ _ M)|]. apply shift_means. now exists vs.
  - apply ticking_makes. now exists vs, e.
  - cbn in Hm. apply retry_played in Hm as [cs Hp]. destruct (catch_complete Hp) as (content & h & s & H & F & D & G & E).
    exists content, h, s. split; [exact H|]. split; [exact F|]. split; [exact D|]. split; [|exact E].
    intros k o Hk. specialize (G k o Hk). destruct o as [|x]; cbn in G; [exact (IH Hb _ _ G)|]. destruct (content k (RFail x)) as [us d]. cbn in G. destruct G as [-> ->]. reflexivity.
  - exists vs, e. now split.
Qed.

Lemma regular_makes A (c : cold A) : regular c -> forall l, makes c l <-> exists vs e, means c vs e /\ l = trace vs e.
Proof.
  intros Hr l. split; [exact (sound c (regular_bounded _ Hr) l)|]. intros (vs & e & M & ->). exact (complete_any c Hr _ _ M).
Qed.
Lemma regular_means A (c : cold A) : regular c -> forall vs e, means c vs e <-> makes c (trace vs e).
Proof.
  intros Hr vs e. split; [exact (complete_any c Hr vs e)|]. intros H. apply (regular_makes c Hr) in H as (us & d & M & E). apply trace_inj in E as [-> ->]. exact M.
Qed.
Lemma regular_alike A (c d : cold A) : regular c -> regular d -> (forall vs e, means c vs e <-> means d vs e) -> alike c d.
Proof.
  intros Hc Hd E l. rewrite (regular_makes c Hc), (regular_makes d Hd). split; intros (vs & e & M & ->); exists vs, e; (split; [now apply E|reflexivity]).
Qed.
Lemma alike_regular A (c d : cold A) : regular c -> regular d -> alike c d -> forall vs e, means c vs e <-> means d vs e.
Proof. intros Hc Hd E vs e. rewrite (regular_means c Hc), (regular_means d Hd). apply E. Qed.
Lemma regular_productive A (c : cold A) : regular c -> (productive c <-> exists vs e, means c vs e).
Proof.
  intros Hr. split.
  - intros [l H]. apply (regular_makes c Hr) in H as (vs & e & M & _). eauto.
  - intros (vs & e & M). exists (trace vs e). now apply complete_any.
Qed.

(** ** Shuffles *)
Section Shuffles.
  Context {A : Type}.
  Implicit Types a b c l : list A.

  Lemma shuffle_comm a b l : shuffle a b l -> shuffle b a l.
  Proof. induction 1; now constructor. Qed.
  Lemma shuffle_nil a : shuffle a [] a.
  Proof. induction a; now constructor. Qed.
  Lemma shuffle_nil_eq a l : shuffle a [] l -> l = a.
  Proof. remember [] as b eqn:E. induction 1; try discriminate; [reflexivity|now rewrite IHshuffle]. Qed.
  Lemma shuffle_app a b l a' b' l' : shuffle a b l -> shuffle a' b' l' -> shuffle (a ++ a') (b ++ b') (l ++ l').
  Proof. intros H H'. induction H; cbn; [exact H'|now constructor|now constructor]. Qed.
  Lemma shuffle_both a b : shuffle a b (a ++ b).
  Proof. pose proof (shuffle_app (shuffle_nil a) (shuffle_comm (shuffle_nil b))) as H. now rewrite app_nil_r in H. Qed.
  Lemma shuffle_split a b l p : shuffle a b l -> prefix p l -> exists a' b', prefix a' a /\ prefix b' b /\ shuffle a' b' p.
  Proof.
    intros H. revert p. induction H as [|x a b l H IH|x a b l H IH]; intros p [q E].
    - destruct p; [|discriminate]. exists [], []. repeat split; [apply prefix_refl|apply prefix_refl|constructor].
    - destruct p as [|y p]; [exists [], []; repeat split; [apply prefix_nil|apply prefix_nil|constructor]|]. injection E as <- E.
      destruct (IH p) as (a' & b' & [a2 ->] & Hb & Hs); [now exists q|]. exists (x :: a'), b'. split; [now exists a2|]. split; [exact Hb|now constructor].
    - destruct p as [|y p]; [exists [], []; repeat split; [apply prefix_nil|apply prefix_nil|constructor]|]. injection E as <- E.
      destruct (IH p) as (a' & b' & Ha & [b2 ->] & Hs); [now exists q|]. exists a', (x :: b'). split; [exact Ha|]. split; [now exists b2|now constructor].
  Qed.
  Lemma shuffle_ext a b l a' b' : shuffle a b l -> prefix a a' -> prefix b b' -> exists l', prefix l l' /\ shuffle a' b' l'.
  Proof.
    intros H [p ->] [q ->]. exists (l ++ p ++ q). split; [now eexists|]. exact (shuffle_app H (shuffle_both p q)).
  Qed.
  Lemma shuffle_assoc a m l : shuffle a m l -> forall b c, shuffle b c m -> exists n, shuffle a b n /\ shuffle n c l.
  Proof.
    induction 1 as [|x a m l H IH|x a m l H IH]; intros b c Hm.
    - inversion Hm; subst. exists []. split; constructor.
    - destruct (IH b c Hm) as (n & H1 & H2). exists (x :: n). split; now constructor.
    - inversion Hm as [|y b' c' m' Hm'|y b' c' m' Hm']; subst.
      + destruct (IH _ _ Hm') as (n & H1 & H2). exists (x :: n). split; now constructor.
      + destruct (IH _ _ Hm') as (n & H1 & H2). exists n. split; [exact H1|now constructor].
  Qed.
  Lemma shuffle_perm a b l : shuffle a b l -> Permutation (a ++ b) l.
  Proof.
    induction 1 as [|x a b l H IH|x a b l H IH]; cbn; [constructor|now constructor|].
    apply Permutation_sym, Permutation_cons_app, Permutation_sym. exact IH.
  Qed.
  Lemma shuffle_length a b l : shuffle a b l -> length l = length a + length b.
  Proof. induction 1; cbn; lia. Qed.
End Shuffles.

Lemma prefix_trans A (a b c : list A) : prefix a b -> prefix b c -> prefix a c.
Proof. intros [x ->] [y ->]. exists (x ++ y). now rewrite app_assoc. Qed.

(** Interleavings of many lists. *)
Lemma interleaves_nil A (vs : list A) : interleaves [] vs <-> vs = [].
Proof.
  split.
  - intros (t & <- & H & _). destruct t as [|p t]; [reflexivity|]. specialize (H p (or_introl eq_refl)). cbn in H. lia.
  - intros ->. exists []. split; [reflexivity|]. split; [intros p []|]. intros [|k] us E; discriminate.
Qed.

Definition down {A} (t : list (nat * A)) : list (nat * A) := map (fun p => (pred (fst p), snd p)) (filter (fun p => negb (fst p =? 0)) t).
Lemma down_filter A (t : list (nat * A)) k : map snd (filter (fun p => fst p =? k) (down t)) = map snd (filter (fun p => fst p =? S k) t).
Proof.
  unfold down. induction t as [|[j v] t IH]; [reflexivity|]. cbn. destruct j as [|j]; cbn; [exact IH|]. destruct (j =? k); cbn; [f_equal|]; exact IH.
Qed.
Lemma down_shuffle A (t : list (nat * A)) : shuffle (map snd (filter (fun p => fst p =? 0) t)) (map snd (down t)) (map snd t).
Proof.
  unfold down. induction t as [|[[|k] v] t IH]; cbn; now constructor.
Qed.

Lemma interleaves_cons A (p : list A) ps vs : interleaves (p :: ps) vs <-> exists ws, interleaves ps ws /\ shuffle p ws vs.
Proof.
  split.
  - intros (t & <- & L & H). exists (map snd (down t)). split.
    + exists (down t). split; [reflexivity|]. split.
      * intros q Hq. unfold down in Hq. apply in_map_iff in Hq as ([j v] & <- & Hq). apply filter_In in Hq as [Hq E]. cbn in *. specialize (L _ Hq). cbn in L.
        destruct j; [discriminate|]. cbn. lia.
      * intros k us E. rewrite down_filter. exact (H (S k) us E).
    + rewrite <- (H 0 p eq_refl) at 1. apply down_shuffle.
  - intros (ws & (t & Et & L & H) & Hs).
    assert (G : exists t', map snd t' = vs /\ map snd (filter (fun q => fst q =? 0) t') = p /\ down t' = t).
    { clear L H. revert t Et. induction Hs as [|x a b l Hs IH|x a b l Hs IH]; intros t Et.
      - destruct t; [|discriminate]. now exists [].
      - destruct (IH t Et) as (t' & <- & <- & <-). now exists ((0, x) :: t').
      - destruct t as [|[k v] t]; [discriminate|]. injection Et as <- Et. destruct (IH t Et) as (t' & <- & <- & <-). now exists ((S k, v) :: t'). }
    destruct G as (t' & E1 & E2 & E3). exists t'. split; [exact E1|]. split.
    + intros [[|k] v] Hq; cbn; [lia|]. assert (Hd : In (k, v) t) by (rewrite <- E3; unfold down; apply in_map_iff; exists (S k, v); split; [reflexivity|now apply filter_In]).
      specialize (L _ Hd). cbn in L. lia.
    + intros [|k] us E; [injection E as <-; exact E2|]. rewrite <- down_filter, E3. exact (H k us E).
Qed.
Lemma interleaves_split A (ps : list (list A)) : forall vs ws, interleaves ps vs -> prefix ws vs -> exists qs, Forall2 prefix qs ps /\ interleaves qs ws.
Proof.
  induction ps as [|p ps IH]; intros vs ws H P.
  - apply interleaves_nil in H as ->. destruct P as [q E]. destruct ws; [|discriminate]. exists []. split; [constructor|now apply interleaves_nil].
  - apply interleaves_cons in H as (us & H & S). destruct (shuffle_split S P) as (a & b & Pa & Pb & S').
    destruct (IH _ _ H Pb) as (qs & F & I). exists (a :: qs). split; [now constructor|]. apply interleaves_cons. now exists b.
Qed.
Lemma interleaves_ext A (ps qs : list (list A)) : Forall2 prefix ps qs -> forall vs, interleaves ps vs -> exists ws, interleaves qs ws /\ prefix vs ws.
Proof.
  induction 1 as [|p q ps qs P F IH]; intros vs H.
  - exists vs. split; [exact H|apply prefix_refl].
  - apply interleaves_cons in H as (us & H & S). destruct (IH _ H) as (us' & I & P'). destruct (shuffle_ext S P P') as (l & Pl & S').
    exists l. split; [apply interleaves_cons; now exists us'|exact Pl].
Qed.
Lemma interleaves_more A (ps : list (list A)) vs n : interleaves ps vs -> interleaves (ps ++ repeat [] n) vs.
Proof.
  revert vs. induction ps as [|p ps IH]; intros vs H; cbn.
  - apply interleaves_nil in H as ->. induction n as [|n IHn]; cbn; [now apply interleaves_nil|]. apply interleaves_cons. exists []. split; [exact IHn|constructor].
  - apply interleaves_cons in H as (us & H & S). apply interleaves_cons. exists us. split; [now apply IH|exact S].
Qed.

(** ** The algebra of [merged] *)
Section Algebra.
  Context {A : Type}.
  Implicit Types P Q R : list A -> ending -> Prop.
  Definition same P Q : Prop := forall vs e, P vs e <-> Q vs e.

  Lemma same_refl P : same P P.
  Proof. intros vs e. reflexivity. Qed.
  Lemma same_sym P Q : same P Q -> same Q P.
  Proof. intros H vs e. symmetry. apply H. Qed.
  Lemma same_trans P Q R : same P Q -> same Q R -> same P R.
  Proof. intros H H' vs e. rewrite (H vs e). apply H'. Qed.

  Lemma merged_incl P P' Q Q' : (forall vs e, P vs e -> P' vs e) -> (forall vs e, Q vs e -> Q' vs e) -> forall vs e, merged P Q vs e -> merged P' Q' vs e.
  Proof. intros HP HQ vs e (us & d & ws & d' & H1 & H2 & H3). exists us, d, ws, d'. auto. Qed.
  Lemma merged_same P P' Q Q' : same P P' -> same Q Q' -> same (merged P Q) (merged P' Q').
  Proof. intros HP HQ vs e. split; apply merged_incl; intros; (apply HP || apply HQ); assumption. Qed.

  Lemma merged_comm_incl P Q vs e : merged P Q vs e -> merged Q P vs e.
  Proof.
    intros (us & d & ws & d' & H1 & H2 & H3). exists ws, d', us, d. split; [exact H2|]. split; [exact H1|]. destruct e as [|x|].
    - destruct H3 as [H3 S]. split; [tauto|now apply shuffle_comm].
    - destruct H3 as [(E & w & Pw & S)|(E & w & Pw & S)]; [right|left]; (split; [exact E|]); exists w; (split; [exact Pw|now apply shuffle_comm]).
    - destruct H3 as (E1 & E2 & S). split; [exact E2|]. split; [exact E1|now apply shuffle_comm].
  Qed.
  Lemma merged_comm P Q : same (merged P Q) (merged Q P).
  Proof. intros vs e. split; apply merged_comm_incl. Qed.

  (** Every beginning can be continued. *)
  Lemma merged_begin P Q us d ws d' us' ws' l : P us d -> Q ws d' -> prefix us' us -> prefix ws' ws -> shuffle us' ws' l -> exists l' e, prefix l l' /\ merged P Q l' e.
  Proof.
    intros HP HQ Pu Pw S.
    assert (C1 : forall x, d = Failed x -> exists l' e, prefix l l' /\ merged P Q l' e).
    { intros x Ex. destruct (shuffle_ext S Pu (prefix_refl ws')) as (l' & Pl & S'). exists l', (Failed x). split; [exact Pl|].
      exists us, d, ws, d'. split; [exact HP|]. split; [exact HQ|]. left. split; [exact Ex|]. now exists ws'. }
    assert (C2 : forall x, d' = Failed x -> exists l' e, prefix l l' /\ merged P Q l' e).
    { intros x Ex. destruct (shuffle_ext S (prefix_refl us') Pw) as (l' & Pl & S'). exists l', (Failed x). split; [exact Pl|].
      exists us, d, ws, d'. split; [exact HP|]. split; [exact HQ|]. right. split; [exact Ex|]. now exists us'. }
    destruct (shuffle_ext S Pu Pw) as (l' & Pl & S').
    destruct d as [|x|], d' as [|y|]; try (now apply (C1 x)); try (now apply (C2 y)).
    - exists l', Open. split; [exact Pl|]. exists us, Open, ws, Open. auto 10.
    - exists l', Open. split; [exact Pl|]. exists us, Open, ws, Completed. auto 10.
    - exists l', Open. split; [exact Pl|]. exists us, Completed, ws, Open. auto 10.
    - exists l', Completed. split; [exact Pl|]. exists us, Completed, ws, Completed. auto 10.
  Qed.
  (** A beginning consists of beginnings. *)
  Lemma merged_parts P Q l e l' : merged P Q l e -> prefix l' l ->
    exists us d ws d' us' ws', P us d /\ Q ws d' /\ prefix us' us /\ prefix ws' ws /\ shuffle us' ws' l'.
  Proof.
    intros (us & d & ws & d' & H1 & H2 & H3) Pl. exists us, d, ws, d'.
    assert (G : exists us1 ws1, prefix us1 us /\ prefix ws1 ws /\ shuffle us1 ws1 l).
    { destruct e as [|x|].
      - exists us, ws. split; [apply prefix_refl|]. split; [apply prefix_refl|tauto].
      - destruct H3 as [(E & w & Pw & S)|(E & w & Pw & S)]; [exists us, w|exists w, ws]; auto using prefix_refl.
      - exists us, ws. split; [apply prefix_refl|]. split; [apply prefix_refl|tauto]. }
    destruct G as (us1 & ws1 & Pu & Pw & S). destruct (shuffle_split S Pl) as (us' & ws' & Pu' & Pw' & S').
    exists us', ws'. split; [exact H1|]. split; [exact H2|]. split; [exact (prefix_trans Pu' Pu)|]. split; [exact (prefix_trans Pw' Pw)|exact S'].
  Qed.

  Lemma merged_assoc_incl P Q R vs e : merged P (merged Q R) vs e -> merged (merged P Q) R vs e.
  Proof.
    intros (us & d & ws & d' & HP & HQR & H3). destruct e as [|x|].
    - destruct H3 as [D S]. destruct HQR as (q & dq & r & dr & HQ & HR & H4).
      assert (G : exists n, shuffle us q n /\ shuffle n r vs /\ (dq = Open \/ dq = Completed) /\ (dr = Open \/ dr = Completed) /\ (d' = Open -> dq = Open \/ dr = Open) /\ (d' = Completed -> dq = Completed /\ dr = Completed)).
      { destruct d' as [|y|]; [| |].
        - destruct H4 as [D' S']. destruct (shuffle_assoc S S') as (n & S1 & S2). exists n. split; [exact S1|]. split; [exact S2|]. split; [tauto|]. split; [tauto|]. split; [tauto|discriminate].
        - exfalso. clear -D. intuition discriminate.
        - destruct H4 as (D1 & D2 & S'). destruct (shuffle_assoc S S') as (n & S1 & S2). exists n. split; [exact S1|]. split; [exact S2|]. split; [tauto|]. split; [tauto|]. split; [discriminate|tauto]. }
      destruct G as (n & S1 & S2 & Dq & Dr & G1 & G2).
      assert (M : merged P Q n (match d, dq with Completed, Completed => Completed | _, _ => Open end)).
      { exists us, d, q, dq. split; [exact HP|]. split; [exact HQ|]. destruct D as [[-> ->]|[[-> ->]|[-> ->]]], Dq as [-> | ->]; auto 10. }
      exists n, (match d, dq with Completed, Completed => Completed | _, _ => Open end), r, dr. split; [exact M|]. split; [exact HR|]. split; [|exact S2].
      destruct D as [[-> ->]|[[-> ->]|[-> ->]]].
      + destruct Dr as [-> | ->]; auto.
      + destruct (G2 eq_refl) as [-> ->]. auto.
      + destruct (G1 eq_refl) as [-> | ->]; [destruct Dr as [-> | ->]|destruct Dq as [-> | ->]]; auto.
    - destruct H3 as [(-> & w & Pw & S)|(-> & u & Pu & S)].
      + destruct (merged_parts HQR Pw) as (q & dq & r & dr & q' & r' & HQ & HR & Pq & Pr & S').
        destruct (shuffle_assoc S S') as (n & S1 & S2).
        exists n, (Failed x), r, dr. split; [|split; [exact HR|left; split; [reflexivity|now exists r']]].
        exists us, (Failed x), q, dq. split; [exact HP|]. split; [exact HQ|]. left. split; [reflexivity|]. now exists q'.
      + destruct HQR as (q & dq & r & dr & HQ & HR & [(-> & r' & Pr & S')|(-> & q' & Pq & S')]).
        * destruct (shuffle_assoc S S') as (n & S1 & S2).
          exists n, (Failed x), r, dr. split; [|split; [exact HR|left; split; [reflexivity|now exists r']]].
          exists us, d, q, (Failed x). split; [exact HP|]. split; [exact HQ|]. right. split; [reflexivity|]. now exists u.
        * destruct (shuffle_assoc S S') as (n & S1 & S2). destruct (@merged_begin P Q _ _ _ _ _ _ _ HP HQ Pu Pq S1) as (m & dm & Pm & M).
          exists m, dm, r, (Failed x). split; [exact M|]. split; [exact HR|]. right. split; [reflexivity|]. now exists n.
    - destruct H3 as (-> & -> & S). destruct HQR as (q & dq & r & dr & HQ & HR & -> & -> & S').
      destruct (shuffle_assoc S S') as (n & S1 & S2).
      exists n, Completed, r, Completed. split; [|auto]. exists us, Completed, q, Completed. auto.
  Qed.
  Lemma merged_assoc P Q R : same (merged P (merged Q R)) (merged (merged P Q) R).
  Proof.
    intros vs e. split; [apply merged_assoc_incl|]. intros H. apply merged_comm_incl in H.
    apply (@merged_incl R R (merged P Q) (merged Q P)) in H; [|auto|intros; now apply merged_comm_incl].
    apply merged_assoc_incl in H. apply merged_comm_incl in H. revert H. apply merged_incl; [auto|]. intros; now apply merged_comm_incl.
  Qed.

  Lemma merged_unit P : same (merged P (ended Completed)) P.
  Proof.
    intros vs e. split.
    - intros (us & d & ws & d' & HP & [-> ->] & H). destruct e as [|x|].
      + destruct H as [D S]. apply shuffle_nil_eq in S as ->. destruct D as [[_ D]|[[-> _]|[_ D]]]; try discriminate. exact HP.
      + destruct H as [(-> & w & [q Pw] & S)|(D & _)]; [|discriminate]. destruct w; [|discriminate]. apply shuffle_nil_eq in S as ->. exact HP.
      + destruct H as (-> & _ & S). apply shuffle_nil_eq in S as ->. exact HP.
    - intros HP. exists vs, e, [], Completed. split; [exact HP|]. split; [now split|]. destruct e as [|x|]; [split; [auto|apply shuffle_nil]|left|]; auto using shuffle_nil.
      split; [reflexivity|]. exists []. split; [apply prefix_refl|apply shuffle_nil].
  Qed.

  Lemma all_merged_app (a b : list (list A -> ending -> Prop)) : same (all_merged (a ++ b)) (merged (all_merged a) (all_merged b)).
  Proof.
    induction a as [|P a IH]; cbn.
    - apply same_sym. refine (same_trans (merged_comm _ _) _). apply merged_unit.
    - refine (same_trans (merged_same (same_refl P) IH) _). apply merged_assoc.
  Qed.
  Lemma all_merged_perm (a b : list (list A -> ending -> Prop)) : Permutation a b -> same (all_merged a) (all_merged b).
  Proof.
    induction 1 as [|P a b _ IH|P Q a|a b c _ IH1 _ IH2]; cbn.
    - apply same_refl.
    - now apply merged_same; [apply same_refl|].
    - refine (same_trans (merged_assoc _ _ _) _). refine (same_trans (merged_same (merged_comm _ _) (same_refl _)) _). apply same_sym, merged_assoc.
    - exact (same_trans IH1 IH2).
  Qed.
  Lemma all_merged_same X (f g : X -> list A -> ending -> Prop) xs : (forall x, In x xs -> same (f x) (g x)) -> same (all_merged (map f xs)) (all_merged (map g xs)).
  Proof.
    induction xs as [|x xs IH]; intros H; cbn; [apply same_refl|]. apply merged_same; [apply H; now left|apply IH; intros y Hy; apply H; now right].
  Qed.
End Algebra.

(** ** merge_inner in terms of [merged] *)
Section Inner.
  Context {X A : Type} (Means : X -> list A -> ending -> Prop).

  Definition full (xs : list X) (vs : list A) (e : ending) : Prop :=
    exists cs ps, Forall2 (fun x c => Means x (fst c) (snd c)) xs cs /\ Forall2 (fun p (c : list A * ending) => prefix p (fst c)) ps cs /\ interleaves ps vs /\
    match e with
    | Completed => ps = map fst cs /\ Forall (fun c => snd c = Completed) cs
    | Failed x => exists k us, nth_error cs k = Some (us, Failed x) /\ nth_error ps k = Some us
    | Open => ps = map fst cs /\ Forall (fun c => forall x, snd c <> Failed x) cs /\ Exists (fun c => snd c = Open) cs
    end.

  Lemma all_or_open (cs : list (list A * ending)) : Forall (fun c => forall x, snd c <> Failed x) cs ->
    Forall (fun c => snd c = Completed) cs \/ Exists (fun c => snd c = Open) cs.
  Proof.
    induction 1 as [|[us d] cs H1 H2 [IH|IH]]; [left; constructor| |right; now constructor 2].
    destruct d as [|x|]; [right; now constructor|now elim (H1 x)|left; now constructor].
  Qed.
  Lemma completed_not_failed (cs : list (list A * ending)) : Forall (fun c => snd c = Completed) cs -> Forall (fun c => forall x, snd c <> Failed x) cs.
  Proof. apply Forall_impl. intros c -> x. discriminate. Qed.
  Lemma prefix_map_fst (cs : list (list A * ending)) : Forall2 (fun p c => prefix p (fst c)) (map fst cs) cs.
  Proof. induction cs; constructor; [apply prefix_refl|assumption]. Qed.

  Lemma begin_all xs cs : Forall2 (fun x c => Means x (fst c) (snd c)) xs cs -> forall ps vs, Forall2 (fun p (c : list A * ending) => prefix p (fst c)) ps cs -> interleaves ps vs ->
    exists l e, prefix vs l /\ all_merged (map Means xs) l e.
  Proof.
    induction 1 as [|x c xs cs H1 H2 IH]; intros ps vs F I; inversion F as [|p c' ps' cs' Pp F']; subst.
    - apply interleaves_nil in I as ->. exists [], Completed. split; [apply prefix_refl|now split].
    - apply interleaves_cons in I as (ws & I & S). destruct (IH _ _ F' I) as (l & e & Pl & M). cbn.
      exact (@merged_begin _ (Means x) (all_merged (map Means xs)) _ _ _ _ _ _ _ H1 M Pp Pl S).
  Qed.

  Lemma full_all xs : same (full xs) (all_merged (map Means xs)).
  Proof.
    induction xs as [|x xs IH]; intros vs e.
    - cbn. split.
      + intros (cs & ps & F1 & F2 & I & H). inversion F1; subst. inversion F2; subst. apply interleaves_nil in I as ->. destruct e as [|x|].
        * destruct H as (_ & _ & H). inversion H.
        * destruct H as (k & us & E & _). destruct k; discriminate.
        * now split.
      + intros [-> ->]. exists [], []. repeat split; try constructor. now apply interleaves_nil.
    - cbn [map all_merged fold_right]. fold (all_merged (map Means xs)). split.
      + intros (cs & ps & F1 & F2 & I & H). inversion F1 as [|x' [us d] xs' cs' M1 F1']; subst. inversion F2 as [|p c' ps' cs'' Pp F2']; subst.
        apply interleaves_cons in I as (ws & I & S). cbn [fst snd] in *.
        destruct e as [|y|].
        * destruct H as (E & H1 & H2). injection E as -> ->. inversion H1 as [|c1 cs1 N1 N2]; subst. cbn in N1.
          assert (G : exists d', all_merged (map Means xs) ws d' /\ (d' = Open \/ d' = Completed /\ Forall (fun c => snd c = Completed) cs')).
          { destruct (all_or_open N2) as [C|C].
            - exists Completed. split; [|now right]. apply IH. exists cs', (map fst cs'). auto 10.
            - exists Open. split; [|now left]. apply IH. exists cs', (map fst cs'). auto 10. }
          destruct G as (d' & M2 & D). exists us, d, ws, d'. split; [exact M1|]. split; [exact M2|]. split; [|exact S].
          destruct d as [|z|]; [destruct D as [->|[-> _]]; auto|now elim (N1 z)|].
          destruct D as [->|[-> C]]; [auto|]. exfalso. inversion H2 as [c1 cs1 E|c1 cs1 E]; subst; [discriminate|].
          apply Exists_exists in E as (c & Hc & Ec). rewrite (proj1 (Forall_forall _ _) C c Hc) in Ec. discriminate.
        * destruct H as ([|k] & us0 & E1 & E2).
          -- injection E1 as -> ->. injection E2 as ->. destruct (begin_all F1' F2' I) as (l & d' & Pl & M2).
             exists us0, (Failed y), l, d'. split; [exact M1|]. split; [exact M2|]. left. split; [reflexivity|]. now exists ws.
          -- exists us, d, ws, (Failed y). split; [exact M1|]. split; [apply IH; exists cs', ps'; split; [exact F1'|]; split; [exact F2'|]; split; [exact I|now exists k, us0]|].
             right. split; [reflexivity|]. now exists p.
        * destruct H as (E & H1). injection E as -> ->. inversion H1 as [|c1 cs1 N1 N2]; subst. cbn in N1. subst d.
          exists us, Completed, ws, Completed. split; [exact M1|]. split; [apply IH; exists cs', (map fst cs'); auto 10|auto].
      + intros (us & d & ws & d' & M1 & M2 & H). apply IH in M2 as (cs & ps & F1 & F2 & I & H2).
        destruct e as [|y|].
        * destruct H as [D S]. exists ((us, d) :: cs), (us :: map fst cs). split; [now constructor|]. split; [constructor; [apply prefix_refl|apply prefix_map_fst]|].
          assert (Ep : ps = map fst cs) by (destruct d' as [|z|]; [exact (proj1 H2)|intuition discriminate|exact (proj1 H2)]). rewrite Ep in I.
          split; [apply interleaves_cons; now exists ws|]. split; [reflexivity|].
          assert (N : Forall (fun c : list A * ending => forall x, snd c <> Failed x) cs) by (destruct d' as [|z|]; [exact (proj1 (proj2 H2))|intuition discriminate|apply completed_not_failed; exact (proj2 H2)]).
          split; [constructor; [intros z; cbn; intuition congruence|exact N]|].
          destruct d as [|z|]; [now constructor|intuition discriminate|]. constructor 2. destruct d' as [|z|]; [exact (proj2 (proj2 H2))|intuition discriminate|intuition discriminate].
        * destruct H as [(-> & w & Pw & S)|(-> & u & Pu & S)].
          -- destruct (interleaves_split I Pw) as (qs & Fq & Iq). exists ((us, Failed y) :: cs), (us :: qs). split; [now constructor|]. split; [|split].
             ++ constructor; [apply prefix_refl|]. clear -F2 Fq. revert qs Fq. induction F2 as [|p c ps cs Pp F IH]; intros qs Fq; inversion Fq; subst; constructor; [eapply prefix_trans; eassumption|now apply IH].
             ++ apply interleaves_cons. now exists w.
             ++ now exists 0, us.
          -- destruct H2 as (k & us0 & E1 & E2). exists ((us, d) :: cs), (u :: ps). split; [now constructor|]. split; [now constructor|].
             split; [apply interleaves_cons; now exists ws|]. now exists (1 + k), us0.
        * destruct H as (-> & -> & S). destruct H2 as [-> C]. exists ((us, Completed) :: cs), (us :: map fst cs). split; [now constructor|].
          split; [constructor; [apply prefix_refl|exact F2]|]. split; [apply interleaves_cons; now exists ws|]. split; [reflexivity|]. now constructor.
  Qed.

  Lemma together_merged oe xs : (forall x, In x xs -> exists us d, Means x us d) ->
    same (together Means 0 oe xs) (merged (ended oe) (all_merged (map Means xs))).
  Proof.
    intros Hp vs e. split.
    - intros (xs' & cs & ps & [r Er] & F1 & F2 & I & H).
      destruct e as [|x|].
      + destruct H as (-> & N & Ho & Hx). assert (xs' = xs) as -> by (destruct Hx as [Hx|[Hx _]]; [exact Hx|lia]).
        destruct Ho as [->|[-> Ex]].
        * destruct (all_or_open N) as [C|C].
          -- exists [], Open, vs, Completed. split; [now split|]. split; [apply full_all; exists cs, (map fst cs); auto 10|]. split; [auto|apply shuffle_comm, shuffle_nil].
          -- exists [], Open, vs, Open. split; [now split|]. split; [apply full_all; exists cs, (map fst cs); auto 10|]. split; [auto|apply shuffle_comm, shuffle_nil].
        * exists [], Completed, vs, Open. split; [now split|]. split; [apply full_all; exists cs, (map fst cs); auto 10|]. split; [auto|apply shuffle_comm, shuffle_nil].
      + destruct (@choose_all X (list A * ending) (fun x c => Means x (fst c) (snd c)) r) as [cr Hcr].
        { intros z Hz. destruct (Hp z) as (us & d & M); [rewrite Er; apply in_or_app; now right|]. now exists (us, d). }
        pose proof (Forall2_app F1 Hcr) as F1'. rewrite <- Er in F1'.
        assert (F2' : Forall2 (fun p (c : list A * ending) => prefix p (fst c)) (ps ++ repeat [] (length cr)) (cs ++ cr)).
        { apply Forall2_app; [exact F2|]. clear. induction cr; constructor; [apply prefix_nil|assumption]. }
        pose proof (interleaves_more (length cr) I) as I'.
        destruct H as [->|(k & us & E1 & E2)].
        * destruct (begin_all F1' F2' I') as (l & d & Pl & M). exists [], (Failed x), l, d. split; [now split|]. split; [exact M|]. left. split; [reflexivity|].
          exists vs. split; [exact Pl|apply shuffle_comm, shuffle_nil].
        * exists [], oe, vs, (Failed x). split; [now split|]. split.
          -- apply full_all. exists (cs ++ cr), (ps ++ repeat [] (length cr)). split; [exact F1'|]. split; [exact F2'|]. split; [exact I'|].
             exists k, us. rewrite !nth_error_app1 by (apply nth_error_Some; congruence). auto.
          -- right. split; [reflexivity|]. exists []. split; [apply prefix_nil|apply shuffle_comm, shuffle_nil].
      + destruct H as (-> & -> & -> & C). exists [], Completed, vs, Completed. split; [now split|]. split; [apply full_all; exists cs, (map fst cs); auto 10|]. auto using shuffle_comm, shuffle_nil.
    - intros (us & d & ws & d' & [-> ->] & M & H). apply full_all in M as (cs & ps & F1 & F2 & I & H2).
      destruct e as [|x|].
      + destruct H as [D S]. apply shuffle_comm, shuffle_nil_eq in S as ->.
        exists xs, cs, ps. split; [apply prefix_refl|]. split; [exact F1|]. split; [exact F2|]. split; [exact I|].
        destruct d' as [|z|]; [|intuition discriminate|].
        * destruct H2 as (-> & N & Ex). split; [reflexivity|]. split; [exact N|]. split; [|now left]. destruct D as [[-> _]|[[-> _]|[-> _]]]; auto.
        * destruct H2 as (-> & C). split; [reflexivity|]. split; [now apply completed_not_failed|]. split; [|now left]. left. intuition discriminate.
      + destruct H as [(-> & w & Pw & S)|(-> & u & [q Pu] & S)].
        * apply shuffle_comm, shuffle_nil_eq in S as ->. destruct (interleaves_split I Pw) as (qs & Fq & Iq). exists xs, cs, qs.
          split; [apply prefix_refl|]. split; [exact F1|]. split; [|split; [exact Iq|now left]].
          clear -F2 Fq. revert qs Fq. induction F2 as [|p c ps cs Pp F IH]; intros qs Fq; inversion Fq; subst; constructor; [eapply prefix_trans; eassumption|now apply IH].
        * destruct u; [|discriminate]. apply shuffle_comm, shuffle_nil_eq in S as ->. exists xs, cs, ps. split; [apply prefix_refl|]. split; [exact F1|]. split; [exact F2|]. split; [exact I|now right].
      + destruct H as (-> & -> & S). apply shuffle_comm, shuffle_nil_eq in S as ->. destruct H2 as [-> C]. exists xs, cs, (map fst cs).
        split; [apply prefix_refl|]. auto 10.
  Qed.
End Inner.

(** ** Naming observables and merging them *)
Section Binds.
  Context {X A : Type}.
  Implicit Types (P Q : list X -> ending -> Prop) (M : X -> list A -> ending -> Prop).
  Definition binds P M (vs : list A) (e : ending) : Prop := exists xs oe, P xs oe /\ merged (ended oe) (all_merged (map M xs)) vs e.

  Lemma binds_same P Q M N : same P Q -> (forall x, same (M x) (N x)) -> same (binds P M) (binds Q N).
  Proof.
    intros HP HM vs e.
    assert (E : forall xs oe, merged (ended oe) (all_merged (map M xs)) vs e <-> merged (ended oe) (all_merged (map N xs)) vs e).
    { intros xs oe. apply merged_same; [apply same_refl|]. apply all_merged_same. intros x _. apply HM. }
    split; intros (xs & oe & H1 & H2); exists xs, oe; (split; [now apply HP|now apply E]).
  Qed.

  Lemma binds_ended oe M : same (binds (ended oe) M) (ended oe).
  Proof.
    intros vs e. split.
    - intros (xs & d & [-> ->] & H). exact (proj1 (merged_unit _ _ _) H).
    - intros H. exists [], oe. split; [now split|]. now apply merged_unit.
  Qed.

  Lemma all_merged_some M xs : (forall x, exists us d, M x us d) -> exists vs e, all_merged (map M xs) vs e.
  Proof.
    intros Hp. induction xs as [|x xs (vs & e & IH)]; [now exists [], Completed|]. destruct (Hp x) as (us & d & H). cbn.
    destruct (@merged_begin _ (M x) (all_merged (map M xs)) us d vs e [] [] [] H IH (prefix_nil _) (prefix_nil _) sh_nil) as (l & e' & _ & G). eauto.
  Qed.

  Lemma merged_four (P Q R S : list A -> ending -> Prop) : same (merged (merged P Q) (merged R S)) (merged (merged P R) (merged Q S)).
  Proof.
    refine (same_trans (same_sym (merged_assoc _ _ _)) _). refine (same_trans _ (merged_assoc _ _ _)). apply merged_same; [apply same_refl|].
    refine (same_trans (merged_assoc _ _ _) _). refine (same_trans _ (same_sym (merged_assoc _ _ _))). apply merged_same; [apply merged_comm|apply same_refl].
  Qed.

  Lemma failing_more x (Y Z : list A -> ending -> Prop) vs e : (exists z d, Z z d) -> merged (ended (Failed x)) Y vs e -> merged (ended (Failed x)) (merged Y Z) vs e.
  Proof.
    intros (z & dz & HZ) (us & d & ys & dy & [-> ->] & HY & H). destruct e as [|y|]; [intuition discriminate| |intuition discriminate].
    destruct H as [(E & w & Pw & S)|(-> & u & [q Pu] & S)].
    - injection E as <-. destruct (@merged_begin _ Y Z _ _ _ _ w [] w HY HZ Pw (prefix_nil _) (shuffle_nil w)) as (l & e & Pl & M).
      exists [], (Failed x), l, e. split; [now split|]. split; [exact M|]. left. split; [reflexivity|]. now exists w.
    - destruct u; [|discriminate]. exists [], (Failed x), ys, (Failed y). split; [now split|]. split.
      + exists ys, (Failed y), z, dz. split; [exact HY|]. split; [exact HZ|]. left. split; [reflexivity|]. exists []. split; [apply prefix_nil|apply shuffle_nil].
      + right. split; [reflexivity|]. exists []. split; [apply prefix_nil|exact S].
  Qed.

  Lemma binds_merged P Q M : (forall x, exists us d, M x us d) -> same (binds (merged P Q) M) (merged (binds P M) (binds Q M)).
  Proof.
    intros Hp vs e. split.
    - intros (ys & oe & (us & d & ws & d' & HP & HQ & H) & G).
      enough (K : merged (merged (ended d) (all_merged (map M us))) (merged (ended d') (all_merged (map M ws))) vs e).
      { revert K. apply merged_incl; intros v f K; [exists us, d|exists ws, d']; now split. }
      apply merged_four. assert (Ea : same (merged (all_merged (map M us)) (all_merged (map M ws))) (all_merged (map M (us ++ ws)))) by (rewrite map_app; apply same_sym, all_merged_app).
      enough (K : merged (merged (ended d) (ended d')) (all_merged (map M (us ++ ws))) vs e) by (revert K; apply merged_incl; [auto|]; intros v f K; now apply Ea).
      assert (Perm : forall a b l, shuffle a b l -> same (all_merged (map M l)) (all_merged (map M (a ++ b)))).
      { intros a b l S. apply all_merged_perm, Permutation_map, Permutation_sym, shuffle_perm. exact S. }
      destruct oe as [|x|].
      + destruct H as [D S]. revert G. apply merged_incl; [|intros v f K; now apply (Perm _ _ _ S)].
        intros v f [-> ->]. exists [], d, [], d'. split; [now split|]. split; [now split|]. split; [exact D|constructor].
      + destruct H as [(-> & w & [q ->] & S)|(-> & u & [q ->] & S)].
        * apply (failing_more (all_merged (map M q))) in G; [|apply all_merged_some; exact Hp]. revert G. apply merged_incl.
          -- intros v f [-> ->]. exists [], (Failed x), [], d'. split; [now split|]. split; [now split|]. left. split; [reflexivity|]. exists []. split; [apply prefix_nil|constructor].
          -- intros v f K. rewrite app_assoc, map_app. apply all_merged_app. revert K. apply merged_incl; [|auto]. intros v' f' K. now apply (Perm _ _ _ S).
        * apply (failing_more (all_merged (map M q))) in G; [|apply all_merged_some; exact Hp]. revert G. apply merged_incl.
          -- intros v f [-> ->]. exists [], d, [], (Failed x). split; [now split|]. split; [now split|]. right. split; [reflexivity|]. exists []. split; [apply prefix_nil|constructor].
          -- intros v f K. apply (@all_merged_perm _ (map M ((u ++ ws) ++ q))).
             ++ apply Permutation_map. rewrite <- !app_assoc. apply Permutation_app_head. apply Permutation_app_comm.
             ++ rewrite map_app. apply all_merged_app. revert K. apply merged_incl; [|auto]. intros v' f' K. now apply (Perm _ _ _ S).
      + destruct H as (-> & -> & S). revert G. apply merged_incl; [|intros v f K; now apply (Perm _ _ _ S)].
        intros v f [-> ->]. exists [], Completed, [], Completed. split; [now split|]. split; [now split|]. auto using sh_nil.
    - intros (a & da & b & db & (us & d & HP & Ha) & (ws & d' & HQ & Hb) & H).
      assert (K : merged (merged (ended d) (all_merged (map M us))) (merged (ended d') (all_merged (map M ws))) vs e) by (exists a, da, b, db; auto).
      apply merged_four in K. assert (Ea : same (merged (all_merged (map M us)) (all_merged (map M ws))) (all_merged (map M (us ++ ws)))) by (rewrite map_app; apply same_sym, all_merged_app).
      apply (@merged_incl _ _ (merged (ended d) (ended d')) _ (all_merged (map M (us ++ ws)))) in K; [|auto|intros v f G; now apply Ea].
      destruct K as (z & e0 & zs & ez & Hz & HZ & G).
      assert (z = []) as ->.
      { destruct Hz as (u1 & f1 & u2 & f2 & [-> _] & [-> _] & H1). destruct e0 as [|y|].
        - destruct H1 as [_ S]. now inversion S.
        - destruct H1 as [(_ & w & [q Pw] & S)|(_ & w & [q Pw] & S)]; (destruct w; [|discriminate]); now inversion S.
        - destruct H1 as (_ & _ & S). now inversion S. }
      exists (us ++ ws), e0. split.
      + exists us, d, ws, d'. split; [exact HP|]. split; [exact HQ|]. destruct Hz as (u1 & f1 & u2 & f2 & [-> ->] & [-> ->] & H1). destruct e0 as [|y|].
        * destruct H1 as [D _]. split; [exact D|apply shuffle_both].
        * destruct H1 as [(-> & _)|(-> & _)]; [left|right]; (split; [reflexivity|]); eexists; (split; [apply prefix_refl|apply shuffle_both]).
        * destruct H1 as (-> & -> & _). auto using shuffle_both.
      + exists [], e0, zs, ez. split; [now split|]. split; [exact HZ|exact G].
  Qed.

  Lemma binds_all (Ps : list (list X -> ending -> Prop)) M : (forall x, exists us d, M x us d) ->
    same (binds (all_merged Ps) M) (all_merged (map (fun P => binds P M) Ps)).
  Proof.
    intros Hp. induction Ps as [|P Ps IH]; cbn; [apply binds_ended|]. refine (same_trans (binds_merged _ _ _ Hp) _). now apply merged_same; [apply same_refl|].
  Qed.

  Lemma binds_one x M : same (binds (fun vs e => ([x], Completed) = (vs, e)) M) (M x).
  Proof.
    intros vs e. split.
    - intros (xs & oe & [= <- <-] & H). apply merged_comm_incl in H. apply (proj1 (merged_unit _ _ _)) in H. exact (proj1 (merged_unit _ _ _) H).
    - intros H. exists [x], Completed. split; [reflexivity|]. apply merged_comm_incl, merged_unit. cbn. now apply merged_unit.
  Qed.
End Binds.

Lemma binds_assoc X Y A (P : list X -> ending -> Prop) (M : X -> list Y -> ending -> Prop) (N : Y -> list A -> ending -> Prop) :
  (forall y, exists us d, N y us d) -> same (binds (binds P M) N) (binds P (fun x => binds (M x) N)).
Proof.
  intros Hp vs e.
  assert (E : forall xs oe, binds (merged (ended oe) (all_merged (map M xs))) N vs e <-> merged (ended oe) (all_merged (map (fun x => binds (M x) N) xs)) vs e).
  { intros xs oe. refine (same_trans (binds_merged _ _ _ Hp) _ vs e). apply merged_same; [apply binds_ended|].
    refine (same_trans (binds_all _ _ Hp) _). rewrite map_map. apply same_refl. }
  split.
  - intros (ys & oe & (xs & d & HP & H) & G). exists xs, d. split; [exact HP|]. apply E. now exists ys, oe.
  - intros (xs & d & HP & H). apply E in H as (ys & oe & H & G). exists ys, oe. split; [|exact G]. now exists xs, d.
Qed.

(** ** Operators that treat every element by itself *)
Section Each.
  Context {A B : Type} (m : A -> res (option B)).
  Fixpoint run (vs : list A) (e : ending) : list B * ending :=
    match vs with
    | [] => ([], e)
    | v :: r => match m v with
                | Err x => ([], Failed x)
                | Ok None => run r e
                | Ok (Some b) => let (bs, d) := run r e in (b :: bs, d)
                end
    end.
  (** Nothing is raised; something is raised. *)
  Inductive goes : list A -> list B -> Prop :=
  | goes_nil : goes [] []
  | goes_none v vs bs : m v = Ok None -> goes vs bs -> goes (v :: vs) bs
  | goes_some v b vs bs : m v = Ok (Some b) -> goes vs bs -> goes (v :: vs) (b :: bs).
  Definition raises (vs : list A) (bs : list B) (x : exn) : Prop := exists a v r, vs = a ++ v :: r /\ goes a bs /\ m v = Err x.

  Lemma run_goes vs bs e : goes vs bs -> run vs e = (bs, e).
  Proof. induction 1 as [|v vs bs E H IH|v b vs bs E H IH]; cbn; [reflexivity| |]; rewrite E; [exact IH|]. now rewrite IH. Qed.
  Lemma run_app vs bs ws e : goes vs bs -> run (vs ++ ws) e = (bs ++ fst (run ws e), snd (run ws e)).
  Proof. induction 1 as [|v vs bs E H IH|v b vs bs E H IH]; cbn; [now destruct (run ws e)| |]; rewrite E; [exact IH|]. now rewrite IH. Qed.
  Lemma run_raises vs bs x e : raises vs bs x -> run vs e = (bs, Failed x).
  Proof. intros (a & v & r & -> & G & E). rewrite (run_app _ _ G). cbn. rewrite E. cbn. now rewrite app_nil_r. Qed.
  Lemma goes_or_raises vs : (exists bs, goes vs bs) \/ exists bs x, raises vs bs x.
  Proof.
    induction vs as [|v vs IH]; [left; exists []; constructor|]. destruct (m v) as [[b|]|x] eqn:E.
    - destruct IH as [[bs G]|(bs & x & a & u & r & -> & G & R)]; [left; exists (b :: bs); now apply goes_some|right; exists (b :: bs), x, (v :: a), u, r].
      split; [reflexivity|]. split; [now apply goes_some|exact R].
    - destruct IH as [[bs G]|(bs & x & a & u & r & -> & G & R)]; [left; exists bs; now apply goes_none|right; exists bs, x, (v :: a), u, r].
      split; [reflexivity|]. split; [now apply goes_none|exact R].
    - right. exists [], x, [], v, vs. split; [reflexivity|]. split; [constructor|exact E].
  Qed.
  Lemma goes_begin vs ws bs e : prefix vs ws -> goes vs bs -> prefix bs (fst (run ws e)).
  Proof. intros [q ->] G. rewrite (run_app _ _ G). cbn. now eexists. Qed.
  Lemma raises_more vs ws bs x : prefix vs ws -> raises vs bs x -> raises ws bs x.
  Proof. intros [q ->] (a & v & r & -> & G & E). exists a, v, (r ++ q). rewrite <- app_assoc. auto. Qed.
  Lemma goes_app a b c d : goes a b -> goes c d -> goes (a ++ c) (b ++ d).
  Proof. intros H H'. induction H; cbn; [exact H'|now apply goes_none|now apply goes_some]. Qed.

  (** A beginning of the result comes from a beginning. *)
  Lemma begin_goes vs : forall bs e, prefix bs (fst (run vs e)) -> exists us, prefix us vs /\ goes us bs.
  Proof.
    induction vs as [|v vs IH]; intros bs e H; cbn in H.
    - destruct H as [q E]. destruct bs; [|discriminate]. exists []. split; [apply prefix_nil|constructor].
    - destruct bs as [|b bs]; [exists []; split; [apply prefix_nil|constructor]|]. destruct (m v) as [[b'|]|x] eqn:E.
      + destruct (run vs e) as [bs' d] eqn:R. destruct H as [q Eq]. injection Eq as -> Eq. destruct (IH bs e) as (us & [r ->] & G); [rewrite R; now exists q|].
        exists (v :: us). split; [now exists r|now apply goes_some].
      + destruct (IH _ _ H) as (us & [r ->] & G). exists (v :: us). split; [now exists r|now apply goes_none].
      + destruct H as [q Eq]. discriminate.
  Qed.
  Lemma run_inv vs e bs d : run vs e = (bs, d) -> goes vs bs /\ d = e \/ exists x, raises vs bs x /\ d = Failed x.
  Proof.
    intros R. destruct (goes_or_raises vs) as [[bs' G]|(bs' & x & G)].
    - rewrite (run_goes _ G) in R. injection R as <- <-. now left.
    - rewrite (run_raises _ G) in R. injection R as <- <-. right. now exists x.
  Qed.

  Lemma through a b l : shuffle a b l ->
    (exists a' b' l', goes a a' /\ goes b b' /\ goes l l' /\ shuffle a' b' l') \/
    (exists x a' l' b1 b', raises a a' x /\ raises l l' x /\ prefix b1 b /\ goes b1 b' /\ shuffle a' b' l') \/
    (exists x b' l' a1 a', raises b b' x /\ raises l l' x /\ prefix a1 a /\ goes a1 a' /\ shuffle a' b' l').
  Proof.
    assert (Cn : forall v r bs x, m v = Ok None -> raises r bs x -> raises (v :: r) bs x).
    { intros v r bs x E (a1 & u & q & -> & G & R). exists (v :: a1), u, q. split; [reflexivity|]. split; [now apply goes_none|exact R]. }
    assert (Cs : forall v w r bs x, m v = Ok (Some w) -> raises r bs x -> raises (v :: r) (w :: bs) x).
    { intros v w r bs x E (a1 & u & q & -> & G & R). exists (v :: a1), u, q. split; [reflexivity|]. split; [now apply goes_some|exact R]. }
    induction 1 as [|v a b l H IH|v a b l H IH].
    - left. exists [], [], []. repeat split; constructor.
    - destruct (m v) as [[w|]|x] eqn:E.
      + destruct IH as [(a' & b' & l' & Ga & Gb & Gl & S)|[(x & a' & l' & b1 & b' & Ra & Rl & Pb & Gb & S)|(x & b' & l' & a1 & a' & Rb & Rl & [q ->] & Ga & S)]].
        * left. exists (w :: a'), b', (w :: l'). split; [now apply goes_some|]. split; [exact Gb|]. split; [now apply goes_some|now constructor].
        * right. left. exists x, (w :: a'), (w :: l'), b1, b'. split; [now apply Cs|]. split; [now apply Cs|]. split; [exact Pb|]. split; [exact Gb|now constructor].
        * right. right. exists x, b', (w :: l'), (v :: a1), (w :: a'). split; [exact Rb|]. split; [now apply Cs|]. split; [now exists q|]. split; [now apply goes_some|now constructor].
      + destruct IH as [(a' & b' & l' & Ga & Gb & Gl & S)|[(x & a' & l' & b1 & b' & Ra & Rl & Pb & Gb & S)|(x & b' & l' & a1 & a' & Rb & Rl & [q ->] & Ga & S)]].
        * left. exists a', b', l'. split; [now apply goes_none|]. split; [exact Gb|]. split; [now apply goes_none|exact S].
        * right. left. exists x, a', l', b1, b'. split; [now apply Cn|]. split; [now apply Cn|]. auto.
        * right. right. exists x, b', l', (v :: a1), a'. split; [exact Rb|]. split; [now apply Cn|]. split; [now exists q|]. split; [now apply goes_none|exact S].
      + right. left. exists x, [], [], [], []. split; [exists [], v, a; repeat split; [constructor|exact E]|]. split; [exists [], v, l; repeat split; [constructor|exact E]|].
        split; [apply prefix_nil|]. split; constructor.
    - destruct (m v) as [[w|]|x] eqn:E.
      + destruct IH as [(a' & b' & l' & Ga & Gb & Gl & S)|[(x & a' & l' & b1 & b' & Ra & Rl & [q ->] & Gb & S)|(x & b' & l' & a1 & a' & Rb & Rl & Pa & Ga & S)]].
        * left. exists a', (w :: b'), (w :: l'). split; [exact Ga|]. split; [now apply goes_some|]. split; [now apply goes_some|now constructor].
        * right. left. exists x, a', (w :: l'), (v :: b1), (w :: b'). split; [exact Ra|]. split; [now apply Cs|]. split; [now exists q|]. split; [now apply goes_some|now constructor].
        * right. right. exists x, (w :: b'), (w :: l'), a1, a'. split; [now apply Cs|]. split; [now apply Cs|]. split; [exact Pa|]. split; [exact Ga|now constructor].
      + destruct IH as [(a' & b' & l' & Ga & Gb & Gl & S)|[(x & a' & l' & b1 & b' & Ra & Rl & [q ->] & Gb & S)|(x & b' & l' & a1 & a' & Rb & Rl & Pa & Ga & S)]].
        * left. exists a', b', l'. split; [exact Ga|]. split; [now apply goes_none|]. split; [now apply goes_none|exact S].
        * right. left. exists x, a', l', (v :: b1), b'. split; [exact Ra|]. split; [now apply Cn|]. split; [now exists q|]. split; [now apply goes_none|exact S].
        * right. right. exists x, b', l', a1, a'. split; [now apply Cn|]. split; [now apply Cn|]. auto.
      + right. right. exists x, [], [], [], []. split; [exists [], v, b; repeat split; [constructor|exact E]|]. split; [exists [], v, l; repeat split; [constructor|exact E]|].
        split; [apply prefix_nil|]. split; constructor.
  Qed.

  Lemma back a a' : goes a a' -> forall b b', goes b b' -> forall l', shuffle a' b' l' -> exists l, shuffle a b l /\ goes l l'.
  Proof.
    induction 1 as [|v a a' E H IH|v w a a' E H IH]; intros b b' G l' S.
    - apply shuffle_comm, shuffle_nil_eq in S as ->. exists b. split; [apply shuffle_comm, shuffle_nil|exact G].
    - destruct (IH _ _ G _ S) as (l & S' & G'). exists (v :: l). split; [now constructor|now apply goes_none].
    - revert l' S. induction G as [|u b b' Eu G IHb|u z b b' Eu G IHb]; intros l' S.
      + apply shuffle_nil_eq in S as ->. exists (v :: a). split; [apply shuffle_nil|now apply goes_some].
      + destruct (IHb _ S) as (l & S' & G'). exists (u :: l). split; [now constructor|now apply goes_none].
      + inversion S as [|y p q l0 S0|y p q l0 S0]; subst.
        * destruct (IH (u :: b) (z :: b')) with (l' := l0) as (l & S' & G'); [now apply goes_some|exact S0|]. exists (v :: l). split; [now constructor|now apply goes_some].
        * destruct (IHb _ S0) as (l & S' & G'). exists (u :: l). split; [now constructor|now apply goes_some].
  Qed.

  Implicit Types P Q : list A -> ending -> Prop.
  Definition runs P (vs : list B) (e : ending) : Prop := exists us d, P us d /\ run us d = (vs, e).

  Lemma runs_same P Q : same P Q -> same (runs P) (runs Q).
  Proof. intros E vs e. split; intros (us & d & H & R); exists us, d; (split; [now apply E|exact R]). Qed.
  Lemma runs_ended oe : same (runs (ended oe)) (ended oe).
  Proof.
    intros vs e. split.
    - intros (us & d & [-> ->] & R). cbn in R. injection R as <- <-. now split.
    - intros [-> ->]. exists [], oe. split; [now split|reflexivity].
  Qed.

  Lemma runs_merged_1 P Q vs e : runs (merged P Q) vs e -> merged (runs P) (runs Q) vs e.
  Proof.
    intros (us & d & (p & dp & q & dq & HP & HQ & H) & R).
    destruct (run p dp) as [p' dp'] eqn:Rp. destruct (run q dq) as [q' dq'] eqn:Rq.
    assert (HP' : runs P p' dp') by (exists p, dp; auto). assert (HQ' : runs Q q' dq') by (exists q, dq; auto).
    (* an element of the one makes it end *)
    assert (K1 : forall x a' l' b1 b', raises p a' x -> raises us l' x -> prefix b1 q -> goes b1 b' -> shuffle a' b' l' -> merged (runs P) (runs Q) vs e).
    { intros x a' l' b1 b' Ra Rl Pb Gb S. rewrite (run_raises _ Rl) in R. injection R as <- <-. rewrite (run_raises _ Ra) in Rp. injection Rp as <- <-.
      exists a', (Failed x), q', dq'. split; [exact HP'|]. split; [exact HQ'|]. left. split; [reflexivity|]. exists b'. split; [|exact S].
      pose proof (goes_begin dq Pb Gb) as G. rewrite Rq in G. exact G. }
    assert (K2 : forall x b' l' a1 a', raises q b' x -> raises us l' x -> prefix a1 p -> goes a1 a' -> shuffle a' b' l' -> merged (runs P) (runs Q) vs e).
    { intros x b' l' a1 a' Rb Rl Pa Ga S. rewrite (run_raises _ Rl) in R. injection R as <- <-. rewrite (run_raises _ Rb) in Rq. injection Rq as <- <-.
      exists p', dp', b', (Failed x). split; [exact HP'|]. split; [exact HQ'|]. right. split; [reflexivity|]. exists a'. split; [|exact S].
      pose proof (goes_begin dp Pa Ga) as G. rewrite Rp in G. exact G. }
    destruct d as [|y|].
    - destruct H as [D S]. destruct (through S) as [(a' & b' & l' & Ga & Gb & Gl & S')|[(x & a' & l' & b1 & b' & Ra & Rl & Pb & Gb & S')|(x & b' & l' & a1 & a' & Rb & Rl & Pa & Ga & S')]].
      + rewrite (run_goes _ Gl) in R. injection R as <- <-. rewrite (run_goes _ Ga) in Rp. injection Rp as <- <-. rewrite (run_goes _ Gb) in Rq. injection Rq as <- <-.
        exists a', dp, b', dq. auto.
      + exact (K1 x a' l' b1 b' Ra Rl Pb Gb S').
      + exact (K2 x b' l' a1 a' Rb Rl Pa Ga S').
    - destruct H as [(-> & w & Pw & S)|(-> & u & Pu & S)].
      + destruct (through S) as [(a' & b' & l' & Ga & Gb & Gl & S')|[(x & a' & l' & b1 & b' & Ra & Rl & Pb & Gb & S')|(x & b' & l' & a1 & a' & Rb & Rl & Pa & Ga & S')]].
        * rewrite (run_goes _ Gl) in R. injection R as <- <-. rewrite (run_goes _ Ga) in Rp. injection Rp as <- <-.
          exists a', (Failed y), q', dq'. split; [exact HP'|]. split; [exact HQ'|]. left. split; [reflexivity|]. exists b'. split; [|exact S'].
          pose proof (goes_begin dq Pw Gb) as G. rewrite Rq in G. exact G.
        * exact (K1 x a' l' b1 b' Ra Rl (prefix_trans Pb Pw) Gb S').
        * exact (K2 x b' l' a1 a' (raises_more Pw Rb) Rl Pa Ga S').
      + destruct (through S) as [(a' & b' & l' & Ga & Gb & Gl & S')|[(x & a' & l' & b1 & b' & Ra & Rl & Pb & Gb & S')|(x & b' & l' & a1 & a' & Rb & Rl & Pa & Ga & S')]].
        * rewrite (run_goes _ Gl) in R. injection R as <- <-. rewrite (run_goes _ Gb) in Rq. injection Rq as <- <-.
          exists p', dp', b', (Failed y). split; [exact HP'|]. split; [exact HQ'|]. right. split; [reflexivity|]. exists a'. split; [|exact S'].
          pose proof (goes_begin dp Pu Ga) as G. rewrite Rp in G. exact G.
        * exact (K1 x a' l' b1 b' (raises_more Pu Ra) Rl Pb Gb S').
        * exact (K2 x b' l' a1 a' Rb Rl (prefix_trans Pa Pu) Ga S').
    - destruct H as (-> & -> & S). destruct (through S) as [(a' & b' & l' & Ga & Gb & Gl & S')|[(x & a' & l' & b1 & b' & Ra & Rl & Pb & Gb & S')|(x & b' & l' & a1 & a' & Rb & Rl & Pa & Ga & S')]].
      + rewrite (run_goes _ Gl) in R. injection R as <- <-. rewrite (run_goes _ Ga) in Rp. injection Rp as <- <-. rewrite (run_goes _ Gb) in Rq. injection Rq as <- <-.
        exists a', Completed, b', Completed. auto.
      + exact (K1 x a' l' b1 b' Ra Rl Pb Gb S').
      + exact (K2 x b' l' a1 a' Rb Rl Pa Ga S').
  Qed.

  Lemma runs_failed_first P Q p dp q dq p' w vs y : P p dp -> Q q dq -> run p dp = (p', Failed y) -> prefix w (fst (run q dq)) -> shuffle p' w vs -> runs (merged P Q) vs (Failed y).
  Proof.
    intros HP HQ Rp Pw S. destruct (begin_goes _ _ Pw) as (q1 & Pq & Gq).
    destruct (run_inv _ _ Rp) as [[G <-]|(x & (a & v & r & -> & G & E) & [= <-])].
    - destruct (back G Gq S) as (l & Sl & Gl). exists l, (Failed y). split; [|now apply run_goes]. exists p, (Failed y), q, dq. split; [exact HP|]. split; [exact HQ|].
      left. split; [reflexivity|]. now exists q1.
    - destruct (back G Gq S) as (l & Sl & Gl).
      assert (S2 : shuffle (a ++ [v]) q1 (l ++ [v])) by (pose proof (shuffle_app Sl (shuffle_nil [v])) as K; now rewrite app_nil_r in K).
      assert (Pv : prefix (a ++ [v]) (a ++ v :: r)) by (exists r; now rewrite <- app_assoc).
      destruct (@merged_begin _ P Q _ _ _ _ _ _ _ HP HQ Pv Pq S2) as (l' & e & Pl & M). exists l', e. split; [exact M|].
      apply run_raises. apply (raises_more Pl). exists l, v, []. auto.
  Qed.

  Lemma runs_merged P Q : same (runs (merged P Q)) (merged (runs P) (runs Q)).
  Proof.
    intros vs e. split; [apply runs_merged_1|]. intros (p' & dp' & q' & dq' & (p & dp & HP & Rp) & (q & dq & HQ & Rq) & H).
    assert (K : forall f, (dp' = Completed \/ dp' = Open) -> (dq' = Completed \/ dq' = Open) -> shuffle p' q' vs -> (forall l, shuffle p q l -> dp = dp' -> dq = dq' -> merged P Q l f) -> runs (merged P Q) vs f).
    { intros f Dp Dq S M. destruct (run_inv _ _ Rp) as [[Gp Ep]|(x & _ & ->)]; [|intuition discriminate].
      destruct (run_inv _ _ Rq) as [[Gq Eq]|(x & _ & ->)]; [|intuition discriminate].
      destruct (back Gp Gq S) as (l & Sl & Gl). exists l, f. split; [now apply M|now apply run_goes]. }
    destruct e as [|y|].
    - destruct H as [D S]. apply K; [tauto|tauto|exact S|]. intros l Sl -> ->. exists p, dp', q, dq'. auto.
    - destruct H as [(-> & w & Pw & S)|(-> & u & Pu & S)].
      + apply (@runs_failed_first P Q p dp q dq p' w); auto. now rewrite Rq.
      + apply (runs_same (merged_comm Q P)). apply (@runs_failed_first Q P q dq p dp q' u); auto; [now rewrite Rp|now apply shuffle_comm].
    - destruct H as (-> & -> & S). apply K; [tauto|tauto|exact S|]. intros l Sl -> ->. exists p, Completed, q, Completed. auto.
  Qed.

  Lemma runs_all (Ps : list (list A -> ending -> Prop)) : same (runs (all_merged Ps)) (all_merged (map runs Ps)).
  Proof.
    induction Ps as [|P Ps IH]; cbn; [apply runs_ended|]. refine (same_trans (runs_merged _ _) _). now apply merged_same; [apply same_refl|].
  Qed.
  Lemma runs_binds X (P : list X -> ending -> Prop) (M : X -> list A -> ending -> Prop) : same (runs (binds P M)) (binds P (fun x => runs (M x))).
  Proof.
    intros vs e.
    assert (E : forall xs oe, runs (merged (ended oe) (all_merged (map M xs))) vs e <-> merged (ended oe) (all_merged (map (fun x => runs (M x)) xs)) vs e).
    { intros xs oe. refine (same_trans (runs_merged _ _) _ vs e). apply merged_same; [apply runs_ended|]. refine (same_trans (runs_all _) _). rewrite map_map. apply same_refl. }
    split.
    - intros (us & d & (xs & oe & HP & H) & R). exists xs, oe. split; [exact HP|]. apply E. now exists us, d.
    - intros (xs & oe & HP & H). apply E in H as (us & d & H & R). exists us, d. split; [|exact R]. now exists xs, oe.
  Qed.
End Each.

Lemma results_run A B (f : A -> res B) vs e : (let (bs, x) := results f vs in (bs, or_failed x e)) = run (fun v => match f v with Ok b => Ok (Some b) | Err x => Err x end) vs e.
Proof.
  induction vs as [|v vs IH]; cbn; [reflexivity|]. destruct (f v) as [b|x]; [|reflexivity]. destruct (results f vs) as [bs x]. now rewrite <- IH.
Qed.
Lemma somes_run A B (f : A -> res (option B)) vs e : (let (bs, x) := results f vs in (somes bs, or_failed x e)) = run f vs e.
Proof.
  induction vs as [|v vs IH]; cbn; [reflexivity|]. destruct (f v) as [[b|]|x]; [| |reflexivity]; destruct (results f vs) as [bs x]; cbn; now rewrite <- IH.
Qed.
Lemma stage_run A B (g : stage A B) : elementwise g -> exists m, forall vs e, result_of g vs e = run m vs e.
Proof.
  destruct g; intros []; cbn [result_of]; eexists; intros vs e; (apply results_run || apply somes_run).
Qed.

(** ** Programs *)
Lemma outcome_means A (c : cold A) : regular c -> same (outcome c) (means c).
Proof. intros R vs e. symmetry. now apply regular_means. Qed.
Lemma makes_outcome A (c : cold A) : regular c -> forall l, makes c l <-> exists vs e, outcome c vs e /\ l = trace vs e.
Proof.
  intros R l. rewrite (regular_makes c R). split; intros (vs & e & M & ->); exists vs, e; (split; [now apply (outcome_means c R)|reflexivity]).
Qed.
Lemma lively_some A (c : cold A) : lively c -> exists vs e, means c vs e.
Proof. intros [R P]. now apply regular_productive. Qed.
Lemma lively_source A (s : source A) : lively (From s).
Proof. split; [exact I|]. apply regular_productive; [exact I|]. cbn. destruct (source_means s) as [vs e]. now exists vs, e. Qed.
Lemma lively_stage A B (g : stage A B) c : lively c -> lively (Stage g c).
Proof.
  intros L. destruct (lively_some L) as (vs & e & M). destruct L as [R _]. split; [exact R|]. apply regular_productive; [exact R|].
  destruct (result_of g vs e) as [us d] eqn:E. exists us, d, vs, e. auto.
Qed.
Lemma lively_nth A (l : list (cold A)) : Forall lively l -> forall i, lively (nth i l (From Empty)).
Proof.
  intros H i. destruct (nth_in_or_default i l (From Empty)) as [K| ->]; [|apply lively_source]. rewrite Forall_forall in H. auto.
Qed.

Lemma means_inner0 X A (c : cold X) (f : X -> cold A) : (forall x, lively (f x)) -> same (means (Inner 0 c f)) (binds (means c) (fun x => means (f x))).
Proof.
  intros L vs e. cbn. split; intros (xs & oe & M & T); exists xs, oe; (split; [exact M|]); apply together_merged; try assumption; intros x _; now apply lively_some.
Qed.
Lemma lively_inner0 X A (c : cold X) (f : X -> cold A) : lively c -> (forall x, lively (f x)) -> lively (Inner 0 c f).
Proof.
  intros Lc L. assert (R : regular (Inner 0 c f)).
  { cbn. split; [left; split; [reflexivity|]; intros x; apply L|]. split; [apply Lc|intros x; apply L]. }
  split; [exact R|]. apply regular_productive; [exact R|]. destruct (lively_some Lc) as (xs & oe & M).
  destruct (@all_merged_some _ _ (fun x => means (f x)) xs (fun x => lively_some (L x))) as (vs & e & H).
  destruct (@merged_begin _ (ended oe) _ [] oe vs e [] [] [] (conj eq_refl eq_refl) H (prefix_nil _) (prefix_nil _) sh_nil) as (vs' & e' & _ & H').
  exists vs', e'. apply means_inner0; [exact L|]. now exists xs, oe.
Qed.

Lemma lively_flat_map X A (f : X -> cold A) c : lively c -> (forall x, lively (f x)) -> lively (flat_map_ f c).
Proof. intros Lc L. apply lively_inner0; [now apply lively_stage|exact L]. Qed.
Lemma lively_flat_mapi X A (f : X -> nat -> cold A) c : lively c -> (forall x i, lively (f x i)) -> lively (flat_mapi_ f c).
Proof. intros Lc L. apply lively_inner0; [now apply lively_stage|]. intros [x i]. apply L. Qed.
Lemma lively_merge_seq A (l : list (cold A)) : Forall lively l -> lively (merge_seq_ l).
Proof. intros H. apply lively_inner0; [apply lively_source|]. now apply lively_nth. Qed.
Lemma lively_merge A (c d : cold A) : lively c -> lively d -> lively (merge_ c d).
Proof. intros Lc Ld. apply lively_merge_seq. auto. Qed.

Lemma means_flat_map X A (f : X -> cold A) c : (forall x, lively (f x)) -> same (means (flat_map_ f c)) (binds (means c) (fun x => means (f x))).
Proof.
  intros L. refine (same_trans (means_inner0 _ _ L) _). apply binds_same; [|intros x; apply same_refl]. intros xs oe. apply means_named.
Qed.
Lemma means_indexed X (c : cold X) xs oe : means (Stage (SMapi (fun x i => Ok (x, i))) c) xs oe <-> exists us, means c us oe /\ xs = indexed 0 us.
Proof.
  assert (E : forall us, results (fun ai : X * nat => Ok (fst ai, snd ai)) us = (us, None)).
  { induction us as [|[u i] us IH]; cbn; [reflexivity|]. now rewrite IH. }
  cbn. split.
  - intros (us & d & M & K). rewrite E in K. injection K as <- <-. now exists us.
  - intros (us & M & ->). exists us, oe. split; [exact M|]. now rewrite E.
Qed.
Lemma means_flat_mapi X A (f : X -> nat -> cold A) c : (forall x i, lively (f x i)) -> forall vs e,
  means (flat_mapi_ f c) vs e <-> exists xs oe, means c xs oe /\ merged (ended oe) (all_merged (map (fun xi => means (f (fst xi) (snd xi))) (indexed 0 xs))) vs e.
Proof.
  intros L vs e. unfold flat_mapi_. rewrite (means_inner0 _ (fun xi => f (fst xi) (snd xi)) (fun xi => L (fst xi) (snd xi)) vs e). unfold binds. split.
  - intros (xs & oe & M & H). apply means_indexed in M as (us & M & ->). now exists us, oe.
  - intros (us & oe & M & H). exists (indexed 0 us), oe. split; [|exact H]. apply means_indexed. now exists us.
Qed.

Lemma merged_unit_left A (P : list A -> ending -> Prop) : same (merged (ended Completed) P) P.
Proof. exact (same_trans (merged_comm _ _) (merged_unit P)). Qed.
Lemma binds_list X A (xs : list X) (M : X -> list A -> ending -> Prop) : same (binds (fun vs e => (xs, Completed) = (vs, e)) M) (all_merged (map M xs)).
Proof.
  intros vs e. split.
  - intros (ys & oe & [= <- <-] & H). now apply merged_unit_left.
  - intros H. exists xs, Completed. split; [reflexivity|]. now apply merged_unit_left.
Qed.
Lemma means_merge_seq A (l : list (cold A)) : Forall lively l -> same (means (merge_seq_ l)) (all_merged (map means l)).
Proof.
  intros L. refine (same_trans (means_inner0 _ _ (lively_nth L)) _). refine (same_trans (binds_list _ _) _).
  rewrite <- (map_map (fun i => nth i l (From Empty)) means), map_nth_seq0. apply same_refl.
Qed.
Lemma means_merge A (c d : cold A) : lively c -> lively d -> same (means (merge_ c d)) (merged (means c) (means d)).
Proof.
  intros Lc Ld. refine (same_trans (means_merge_seq _) _); [auto|]. cbn. apply merged_same; [apply same_refl|apply merged_unit].
Qed.

Lemma same_alike A (c d : cold A) : lively c -> lively d -> same (means c) (means d) -> alike c d.
Proof. intros [Rc _] [Rd _] S. now apply regular_alike. Qed.

Lemma outcome_same A (c : cold A) : lively c -> same (means c) (outcome c).
Proof. intros [R _]. now apply same_sym, outcome_means. Qed.

(** *** What they are *)
Lemma merge_is A (c d : cold A) : lively c -> lively d -> forall l, makes (merge_ c d) l <-> exists vs e, merged (outcome c) (outcome d) vs e /\ l = trace vs e.
Proof.
  intros Lc Ld l. rewrite (regular_makes _ (proj1 (lively_merge Lc Ld))).
  assert (E : same (means (merge_ c d)) (merged (outcome c) (outcome d))).
  { refine (same_trans (means_merge Lc Ld) _). now apply merged_same; apply outcome_same. }
  split; intros (vs & e & M & ->); exists vs, e; (split; [now apply E|reflexivity]).
Qed.
Lemma all_outcome A (l : list (cold A)) : Forall lively l -> same (all_merged (map means l)) (all_merged (map outcome l)).
Proof. intros L. apply all_merged_same. intros c Hc. rewrite Forall_forall in L. now apply outcome_same, L. Qed.
Lemma merge_seq_is A (cs : list (cold A)) : Forall lively cs -> forall l, makes (merge_seq_ cs) l <-> exists vs e, all_merged (map outcome cs) vs e /\ l = trace vs e.
Proof.
  intros L l. rewrite (regular_makes _ (proj1 (lively_merge_seq L))).
  assert (E : same (means (merge_seq_ cs)) (all_merged (map outcome cs))) by exact (same_trans (means_merge_seq L) (all_outcome L)).
  split; intros (vs & e & M & ->); exists vs, e; (split; [now apply E|reflexivity]).
Qed.
Lemma flat_map_is X A (f : X -> cold A) c : lively c -> (forall x, lively (f x)) -> forall l,
  makes (flat_map_ f c) l <-> exists xs oe vs e, outcome c xs oe /\ merged (ended oe) (all_merged (map (fun x => outcome (f x)) xs)) vs e /\ l = trace vs e.
Proof.
  intros Lc L l. rewrite (regular_makes _ (proj1 (lively_flat_map _ Lc L))).
  assert (E : same (means (flat_map_ f c)) (binds (outcome c) (fun x => outcome (f x)))).
  { refine (same_trans (means_flat_map _ _ L) _). apply binds_same; [now apply outcome_same|]. intros x. now apply outcome_same. }
  split.
  - intros (vs & e & M & ->). apply E in M as (xs & oe & M & H). exists xs, oe, vs, e. auto.
  - intros (xs & oe & vs & e & M & H & ->). exists vs, e. split; [|reflexivity]. apply E. now exists xs, oe.
Qed.
Lemma flat_mapi_is X A (f : X -> nat -> cold A) c : lively c -> (forall x i, lively (f x i)) -> forall l,
  makes (flat_mapi_ f c) l <-> exists xs oe vs e, outcome c xs oe /\ merged (ended oe) (all_merged (map (fun xi => outcome (f (fst xi) (snd xi))) (indexed 0 xs))) vs e /\ l = trace vs e.
Proof.
  intros Lc L l. rewrite (regular_makes _ (proj1 (lively_flat_mapi _ Lc L))).
  assert (E : forall xs oe, same (merged (ended oe) (all_merged (map (fun xi => means (f (fst xi) (snd xi))) (indexed 0 xs)))) (merged (ended oe) (all_merged (map (fun xi => outcome (f (fst xi) (snd xi))) (indexed 0 xs))))).
  { intros xs oe. apply merged_same; [apply same_refl|]. apply all_merged_same. intros xi _. now apply outcome_same. }
  split.
  - intros (vs & e & M & ->). apply means_flat_mapi in M as (xs & oe & M & H); [|exact L]. exists xs, oe, vs, e. split; [now apply outcome_same|]. split; [now apply E|reflexivity].
  - intros (xs & oe & vs & e & M & H & ->). exists vs, e. split; [|reflexivity]. apply means_flat_mapi; [exact L|]. exists xs, oe. split; [now apply outcome_same|now apply E].
Qed.

(** *** Laws *)
Lemma merge_commutes A (c d : cold A) : lively c -> lively d -> alike (merge_ c d) (merge_ d c).
Proof.
  intros Lc Ld. apply same_alike; try now apply lively_merge.
  exact (same_trans (means_merge Lc Ld) (same_trans (merged_comm _ _) (same_sym (means_merge Ld Lc)))).
Qed.
Lemma merge_associates A (a b c : cold A) : lively a -> lively b -> lively c -> alike (merge_ a (merge_ b c)) (merge_ (merge_ a b) c).
Proof.
  intros La Lb Lc. pose proof (lively_merge La Lb) as Lab. pose proof (lively_merge Lb Lc) as Lbc. apply same_alike; try now apply lively_merge.
  refine (same_trans (means_merge La Lbc) _). refine (same_trans _ (same_sym (means_merge Lab Lc))).
  refine (same_trans (merged_same (same_refl _) (means_merge Lb Lc)) _). refine (same_trans (merged_assoc _ _ _) _).
  apply merged_same; [apply same_sym, means_merge; assumption|apply same_refl].
Qed.
Lemma means_empty A : same (means (From (@Empty A))) (ended Completed).
Proof. intros vs e. cbn. split; [intros [= <- <-]; now split|intros [-> ->]; reflexivity]. Qed.
Lemma merge_empty A (c : cold A) : lively c -> alike (merge_ c (From Empty)) c.
Proof.
  intros L. pose proof (lively_source (@Empty A)) as Le. apply same_alike; [now apply lively_merge|exact L|].
  refine (same_trans (means_merge L Le) _). refine (same_trans (merged_same (same_refl _) (@means_empty A)) _). apply merged_unit.
Qed.
Lemma merge_order A (l m : list (cold A)) : Forall lively l -> Permutation l m -> alike (merge_seq_ l) (merge_seq_ m).
Proof.
  intros L Pm. assert (L' : Forall lively m) by now apply (Permutation_Forall Pm).
  apply same_alike; try now apply lively_merge_seq. refine (same_trans (means_merge_seq L) _). refine (same_trans _ (same_sym (means_merge_seq L'))).
  now apply all_merged_perm, Permutation_map.
Qed.
Lemma merge_grouped A (l m : list (cold A)) : Forall lively l -> Forall lively m -> alike (merge_ (merge_seq_ l) (merge_seq_ m)) (merge_seq_ (l ++ m)).
Proof.
  intros Ll Lm. assert (L : Forall lively (l ++ m)) by now apply Forall_app. pose proof (lively_merge_seq Ll) as Kl. pose proof (lively_merge_seq Lm) as Km.
  apply same_alike; [now apply lively_merge|now apply lively_merge_seq|].
  refine (same_trans (means_merge Kl Km) _). refine (same_trans (merged_same (means_merge_seq Ll) (means_merge_seq Lm)) _).
  refine (same_trans _ (same_sym (means_merge_seq L))). rewrite map_app. apply same_sym, all_merged_app.
Qed.
Lemma merge_one A (c : cold A) : lively c -> alike (merge_seq_ [c]) c.
Proof.
  intros L. assert (K : Forall lively [c]) by auto. apply same_alike; [now apply lively_merge_seq|exact L|]. refine (same_trans (means_merge_seq K) _). cbn. apply merged_unit.
Qed.

Lemma flat_map_single X A (f : X -> cold A) v : (forall x, lively (f x)) -> alike (flat_map_ f (From (Single v))) (f v).
Proof.
  intros L. apply same_alike; [apply lively_flat_map; [apply lively_source|exact L]|apply L|]. refine (same_trans (means_flat_map _ _ L) _). exact (binds_one v (fun x => means (f x))).
Qed.
Lemma flat_map_associates X Y A (f : X -> cold Y) (g : Y -> cold A) c : lively c -> (forall x, lively (f x)) -> (forall y, lively (g y)) ->
  alike (flat_map_ g (flat_map_ f c)) (flat_map_ (fun x => flat_map_ g (f x)) c).
Proof.
  intros Lc Lf Lg. assert (K : forall x, lively (flat_map_ g (f x))) by (intros x; apply lively_flat_map; auto).
  apply same_alike; [apply lively_flat_map; [now apply lively_flat_map|exact Lg]|now apply lively_flat_map|].
  refine (same_trans (means_flat_map _ _ Lg) _). refine (same_trans (binds_same _ _ (means_flat_map _ _ Lf) (fun x => same_refl _)) _).
  refine (same_trans (@binds_assoc _ _ _ _ _ _ _) _); [intros y; now apply lively_some|]. apply same_sym.
  refine (same_trans (means_flat_map _ _ K) _). apply binds_same; [apply same_refl|]. intros x. now apply means_flat_map.
Qed.
Lemma flat_map_merge X A (f : X -> cold A) c d : lively c -> lively d -> (forall x, lively (f x)) ->
  alike (flat_map_ f (merge_ c d)) (merge_ (flat_map_ f c) (flat_map_ f d)).
Proof.
  intros Lc Ld L. pose proof (lively_flat_map f Lc L) as Kc. pose proof (lively_flat_map f Ld L) as Kd.
  apply same_alike; [apply lively_flat_map; [now apply lively_merge|exact L]|now apply lively_merge|].
  refine (same_trans (means_flat_map _ _ L) _). refine (same_trans (binds_same _ _ (means_merge Lc Ld) (fun x => same_refl _)) _).
  refine (same_trans (@binds_merged _ _ _ _ _ _) _); [intros x; now apply lively_some|]. apply same_sym.
  refine (same_trans (means_merge Kc Kd) _). now apply merged_same; apply means_flat_map.
Qed.
Lemma flat_map_seq X A (f : X -> cold A) xs : (forall x, lively (f x)) -> alike (flat_map_ f (From (of_seq xs))) (merge_seq_ (map f xs)).
Proof.
  intros L. assert (K : Forall lively (map f xs)) by (apply Forall_forall; intros c Hc; apply in_map_iff in Hc as (x & <- & _); apply L).
  apply same_alike; [apply lively_flat_map; [apply lively_source|exact L]|now apply lively_merge_seq|].
  refine (same_trans (means_flat_map _ _ L) _). refine (same_trans _ (same_sym (means_merge_seq K))). rewrite map_map. exact (binds_list xs (fun x => means (f x))).
Qed.

Lemma means_stage A B (g : stage A B) m c : (forall vs e, result_of g vs e = run m vs e) -> same (means (Stage g c)) (runs m (means c)).
Proof. intros E vs e. cbn. unfold runs. split; intros (us & d & M & R); exists us, d; (split; [exact M|]); [now rewrite <- E|now rewrite E]. Qed.
Lemma operator_of_merge A B (g : stage A B) c d : elementwise g -> lively c -> lively d -> alike (Stage g (merge_ c d)) (merge_ (Stage g c) (Stage g d)).
Proof.
  intros Hg Lc Ld. destruct (stage_run g Hg) as [m E]. pose proof (lively_stage g Lc) as Kc. pose proof (lively_stage g Ld) as Kd.
  apply same_alike; [now apply lively_stage, lively_merge|now apply lively_merge|].
  refine (same_trans (means_stage _ _ _ E) _). refine (same_trans (runs_same m (means_merge Lc Ld)) _). refine (same_trans (runs_merged _ _ _) _).
  refine (same_trans _ (same_sym (means_merge Kc Kd))). now apply merged_same; apply same_sym, means_stage.
Qed.
Lemma operator_of_merge_seq A B (g : stage A B) cs : elementwise g -> Forall lively cs -> alike (Stage g (merge_seq_ cs)) (merge_seq_ (map (Stage g) cs)).
Proof.
  intros Hg L. destruct (stage_run g Hg) as [m E].
  assert (K : Forall lively (map (Stage g) cs)) by (apply Forall_forall; intros c Hc; apply in_map_iff in Hc as (x & <- & Hx); rewrite Forall_forall in L; now apply lively_stage, L).
  apply same_alike; [now apply lively_stage, lively_merge_seq|now apply lively_merge_seq|].
  refine (same_trans (means_stage _ _ _ E) _). refine (same_trans (runs_same m (means_merge_seq L)) _). refine (same_trans (runs_all _ _) _).
  refine (same_trans _ (same_sym (means_merge_seq K))). rewrite !map_map. apply all_merged_same. intros c _. now apply same_sym, means_stage.
Qed.
Lemma operator_of_flat_map X A B (g : stage A B) (f : X -> cold A) c : elementwise g -> lively c -> (forall x, lively (f x)) ->
  alike (Stage g (flat_map_ f c)) (flat_map_ (fun x => Stage g (f x)) c).
Proof.
  intros Hg Lc L. destruct (stage_run g Hg) as [m E]. assert (K : forall x, lively (Stage g (f x))) by (intros x; now apply lively_stage).
  apply same_alike; [now apply lively_stage, lively_flat_map|now apply lively_flat_map|].
  refine (same_trans (means_stage _ _ _ E) _). refine (same_trans (runs_same m (means_flat_map _ _ L)) _). refine (same_trans (runs_binds _ _ _) _).
  refine (same_trans _ (same_sym (means_flat_map _ _ K))). apply binds_same; [apply same_refl|]. intros x. now apply same_sym, means_stage.
Qed.

(** *** Never, errors, concat *)
Lemma merge_never A (c : cold A) : lively c -> forall l,
  makes (merge_ c (From Never)) l <-> exists vs e, outcome c vs e /\ l = trace vs (match e with Completed => Open | _ => e end).
Proof.
  intros L l. rewrite (merge_is L (lively_source Never)). split.
  - intros (vs & e & (us & d & ws & d' & Hc & Hn & H) & ->). apply (outcome_same (lively_source Never)) in Hn. cbn in Hn. injection Hn as <- <-. destruct e as [|x|].
    + destruct H as [D S]. apply shuffle_nil_eq in S as ->. exists us, d. split; [exact Hc|]. destruct d; [reflexivity| |reflexivity]. intuition discriminate.
    + destruct H as [(-> & w & [q Pw] & S)|(D & _)]; [|discriminate]. destruct w; [|discriminate]. apply shuffle_nil_eq in S as ->. now exists us, (Failed x).
    + destruct H as (_ & D & _). discriminate.
  - intros (vs & e & Hc & ->). exists vs, (match e with Completed => Open | _ => e end). split; [|reflexivity]. exists vs, e, [], Open. split; [exact Hc|].
    split; [now apply (outcome_same (lively_source Never))|]. pose proof (shuffle_nil vs) as S. destruct e; [auto| |auto]. left. split; [reflexivity|]. exists []. split; [apply prefix_nil|exact S].
Qed.
Lemma merge_fail A (c : cold A) x : lively c -> forall l,
  makes (merge_ c (From (Worker (WFail x)))) l <->
  exists vs e, outcome c vs e /\ ((exists us, prefix us vs /\ l = trace us (Failed x)) \/ exists y, e = Failed y /\ l = trace vs e).
Proof.
  intros L l. rewrite (merge_is L (lively_source (Worker (WFail x)))). split.
  - intros (vs & e & (us & d & ws & d' & Hc & Hn & H) & ->). apply (outcome_same (lively_source _)) in Hn. cbn in Hn. injection Hn as <- <-. exists us, d. split; [exact Hc|]. destruct e as [|y|].
    + destruct H as [D _]. intuition discriminate.
    + destruct H as [(-> & w & [q Pw] & S)|([= ->] & w & P & S)].
      * destruct w; [|discriminate]. apply shuffle_nil_eq in S as ->. right. now exists y.
      * apply shuffle_nil_eq in S as ->. left. now exists w.
    + destruct H as (_ & D & _). discriminate.
  - assert (N : outcome (From (@Worker A (WFail x))) [] (Failed x)) by now apply (outcome_same (lively_source _)).
    intros (vs & e & Hc & [(us & P & ->)|(y & -> & ->)]).
    + exists us, (Failed x). split; [|reflexivity]. exists vs, e, [], (Failed x). split; [exact Hc|]. split; [exact N|]. right. split; [reflexivity|]. exists us. split; [exact P|apply shuffle_nil].
    + exists vs, (Failed y). split; [|reflexivity]. exists vs, (Failed y), [], (Failed x). split; [exact Hc|]. split; [exact N|]. left. split; [reflexivity|]. exists []. split; [apply prefix_nil|apply shuffle_nil].
Qed.

Lemma regular_concat_seq A (l : list (cold A)) : Forall regular l -> regular (concat_seq_ l).
Proof.
  intros H. cbn. split; [right; split; [reflexivity|apply reliable_source; discriminate]|]. split; [exact I|]. intros i.
  destruct (nth_in_or_default i l (From Empty)) as [K| ->]; [|exact I]. rewrite Forall_forall in H. auto.
Qed.
Lemma lively_concat_seq A (l : list (cold A)) : Forall lively l -> lively (concat_seq_ l).
Proof.
  intros H. assert (R : regular (concat_seq_ l)) by (apply regular_concat_seq; eapply Forall_impl; [|exact H]; intros c [R _]; exact R).
  split; [exact R|]. apply regular_productive; [exact R|].
  destruct (@turn_total _ _ (fun i => means (nth i l (From Empty))) Completed (seq 0 (length l))) as (vs & e & T); [intros i; apply lively_some; now apply lively_nth|].
  exists vs, e. apply means_concat_seq. apply (turn_map means) in T. now rewrite map_nth_seq0 in T.
Qed.
Lemma turn_merged A (Ps : list (list A -> ending -> Prop)) : (forall P, In P Ps -> exists us d, P us d) -> forall vs e, e <> Open ->
  in_turn (fun P : list A -> ending -> Prop => P) Completed Ps vs e -> all_merged Ps vs e.
Proof.
  intros N vs e He T. remember Completed as oe eqn:Eo. revert N. induction T as [|P Ps us ws e HP T IH|P Ps us e HP Hn]; intros N.
  - subst. now split.
  - assert (K : all_merged Ps ws e) by (apply IH; [exact He|]; intros Q HQ; apply N; now right). cbn. exists us, Completed, ws, e. split; [exact HP|]. split; [exact K|].
    destruct e as [|x|]; [contradiction| |]; [right; split; [reflexivity|]; exists us; split; [now exists []; rewrite app_nil_r|apply shuffle_both]|]. auto using shuffle_both.
  - destruct e as [|x|]; [contradiction| |contradiction]. cbn.
    assert (K : exists ws d, all_merged Ps ws d).
    { clear -N. induction Ps as [|Q Ps IH]; [exists [], Completed; now split|]. destruct (N Q) as (q & dq & HQ); [right; now left|].
      destruct IH as (ws & d & K); [intros R [->|HR]; apply N; [now left|right; now right]|].
      destruct (@merged_begin _ Q (all_merged Ps) q dq ws d [] [] [] HQ K (prefix_nil _) (prefix_nil _) sh_nil) as (l' & e' & _ & M). now exists l', e'. }
    destruct K as (ws & d & K). exists us, (Failed x), ws, d. split; [exact HP|]. split; [exact K|]. left. split; [reflexivity|]. exists []. split; [apply prefix_nil|apply shuffle_nil].
Qed.
Lemma concat_among A (cs : list (cold A)) vs e : Forall lively cs -> e <> Open -> makes (concat_seq_ cs) (trace vs e) -> makes (merge_seq_ cs) (trace vs e).
Proof.
  intros L He M. pose proof (lively_concat_seq L) as [R _]. apply (regular_means _ R) in M. apply means_concat_seq in M.
  apply (regular_means _ (proj1 (lively_merge_seq L))). apply (means_merge_seq L). apply turn_merged; [|exact He|].
  - intros P HP. apply in_map_iff in HP as (c & <- & Hc). rewrite Forall_forall in L. now apply lively_some, L.
  - now apply (turn_map (fun P : list A -> ending -> Prop => P) means).
Qed.
