(** * Proofs about merge_inner of cold observables. *)
From Verif Require Export Cold Merge2Proofs.
Set Implicit Arguments.

Lemma prefix_snoc_r X (a b : list X) x : prefix a b -> prefix a (b ++ [x]).
Proof. intros [c ->]. exists (c ++ [x]). now rewrite app_assoc. Qed.
Lemma prefix_nil X (a : list X) : prefix [] a.
Proof. now exists a. Qed.
Lemma in_upto_last A (vs : list A) e a n b : trace vs e = a ++ n :: b -> n = OnCompleted -> b = [].
Proof.
  unfold trace. intros E ->. revert a E. induction vs as [|v vs IH]; intros a E.
  - destruct e; cbn in E; destruct a as [|? a]; cbn in E; try discriminate; try (injection E as _ E); try (destruct a; discriminate). now injection E as <-.
  - destruct a as [|? a]; cbn in E; [discriminate|]. injection E as _ E. exact (IH a E).
Qed.

Section P.
  Context {O A : Type} (maxc : Z).
  Implicit Types (h : list (mlabel O A)) (s : mstate O A).

  Lemma calls_snoc h l : icalls (h ++ [l]) = icalls h ++ icalls [l].
  Proof. unfold icalls. now rewrite flat_map_app. Qed.
  Lemma inner_snoc k h l : inner_calls k (h ++ [l]) = inner_calls k h ++ inner_calls k [l].
  Proof. unfold inner_calls. now rewrite calls_snoc, filter_app, map_app. Qed.
  Lemma inner_app k h h' : inner_calls k (h ++ h') = inner_calls k h ++ inner_calls k h'.
  Proof. unfold inner_calls, icalls. now rewrite flat_map_app, filter_app, map_app. Qed.
  Lemma in_calls h k n : In (k, n) (icalls h) <-> In (LInner k n) h.
  Proof.
    unfold icalls. rewrite in_flat_map. split.
    - intros (l & H & F). destruct l; cbn in F; try contradiction. destruct F as [F|[]]. injection F as -> ->. exact H.
    - intros H. exists (LInner k n). split; [exact H|now left].
  Qed.
  Lemma in_inner h k n : In n (inner_calls k h) <-> In (k, n) (icalls h).
  Proof.
    unfold inner_calls. rewrite in_map_iff. split.
    - intros ([j n'] & <- & H). apply filter_In in H as [H E]. apply Nat.eqb_eq in E. cbn in E. now subst.
    - intros H. exists (k, n). split; [reflexivity|]. apply filter_In. split; [exact H|apply Nat.eqb_refl].
  Qed.
  Lemma in_completions h k : In k (completions h) <-> In (LInner k OnCompleted) h.
  Proof.
    unfold completions. rewrite in_flat_map. split.
    - intros (l & H & F). destruct l as [|j [| |]| | |]; cbn in F; try contradiction. destruct F as [F|[]]. now subst.
    - intros H. exists (LInner k OnCompleted). split; [exact H|now left].
  Qed.

  Lemma callers_begun h s : mreach maxc h s -> forall k n, In (k, n) (icalls h) -> In k (keys (m_log s)).
  Proof.
    induction 1 as [|h s l s' H IH Hs]; intros k n Hin; [contradiction|].
    rewrite calls_snoc in Hin. apply in_app_or in Hin as [Hin|Hin].
    - eapply keys_mono; [exact Hs|]. exact (IH k n Hin).
    - destruct l as [[o|e|]|j b| | |e]; cbn in Hin; try contradiction. destruct Hin as [[= -> ->]|[]].
      pose proof Hs as Hs0. cbn in Hs. destruct (begun k s) eqn:B; [|discriminate]. eapply keys_mono; [exact Hs0|]. now apply begun_keys.
  Qed.

  Lemma in_keys (l : list (effect O A)) k : In k (keys l) <-> exists o, In (ESub k o) l.
  Proof.
    unfold keys. rewrite in_flat_map. split.
    - intros (x & H & F). destruct x; cbn in F; try contradiction. destruct F as [<-|[]]. eauto.
    - intros (o & H). exists (ESub k o). split; [exact H|now left].
  Qed.

  Variable script : O -> list (notif A).
  Variable outer : list (notif O).
  Notation follows := (follows script outer).
  Notation finished := (finished script outer maxc).

  (** ** A subscription makes no call after its completion. *)
  Hypothesis Script : forall o, grammatical (script o).

  Lemma follows_quiet h s : mreach maxc h s -> follows h s -> quiet_after_completion h.
  Proof.
    intros H (_ & _ & _ & F) h1 k n h2 E Hc. apply in_completions in Hc. rewrite E in *.
    assert (Hk : In k (keys (m_log s))) by (apply (callers_begun H) with n; apply in_calls, in_or_app; right; now left).
    apply in_keys in Hk as [o Ho]. destruct (F k o Ho) as [c Ec]. destruct (Script o) as (vs & e & Et). rewrite Et, inner_app in Ec.
    replace (inner_calls k (LInner k n :: h2)) with (n :: inner_calls k h2) in Ec by (unfold inner_calls; cbn; now rewrite Nat.eqb_refl).
    apply in_calls, in_inner, in_split in Hc as (a & b & Hc). rewrite Hc in Ec.
    replace (((a ++ OnCompleted :: b) ++ n :: inner_calls k h2) ++ c) with (a ++ OnCompleted :: (b ++ n :: inner_calls k h2 ++ c)) in Ec
      by (repeat (rewrite <- app_assoc; cbn); reflexivity).
    apply in_upto_last in Ec; [|reflexivity]. destruct b; discriminate.
  Qed.

  Lemma calls_sorted h s : maxc = 1%Z -> mreach maxc h s -> quiet_after_completion h ->
    forall l1 x l2 y l3, icalls h = l1 ++ x :: l2 ++ y :: l3 -> fst x <= fst y.
  Proof.
    intros Hc. induction 1 as [|h s l s' H IH Hs]; intros Hq l1 x l2 y l3 E; [destruct l1; discriminate|].
    rewrite calls_snoc in E. destruct (rev_case l3) as [->|(l3' & z & ->)].
    - destruct (icalls [l]) as [|w ws] eqn:El.
      + rewrite app_nil_r in E. exact (IH (quiet_app _ Hq) _ _ _ _ _ E).
      + destruct l as [[o|e|]|k b| | |e]; cbn in El; try discriminate. injection El as <- <-.
        replace (l1 ++ x :: l2 ++ [y]) with ((l1 ++ x :: l2) ++ [y]) in E by (now rewrite <- app_assoc).
        apply app_inj_tail in E as [E <-]. cbn [fst].
        assert (Hin : In (fst x) (keys (m_log s))).
        { destruct x as [j b']. eapply (callers_begun H). rewrite E. apply in_or_app. right. now left. }
        destruct (le_lt_dec (fst x) k) as [|Hlt]; [assumption|]. exfalso.
        apply (Hq h k b [] eq_refl).
        exact (sequential Hc H (quiet_nodup (quiet_app _ Hq)) Hin Hlt).
    - destruct (icalls [l]) as [|w ws] eqn:El.
      + rewrite app_nil_r in E. exact (IH (quiet_app _ Hq) _ _ _ _ _ E).
      + destruct l as [[o|e|]|k b| | |e]; cbn in El; try discriminate. injection El as <- <-.
        replace (l1 ++ x :: l2 ++ y :: l3' ++ [z]) with ((l1 ++ x :: l2 ++ y :: l3') ++ [z]) in E
          by (repeat (rewrite <- app_assoc; cbn); reflexivity).
        apply app_inj_tail in E as [E _]. exact (IH (quiet_app _ Hq) _ _ _ _ _ E).
  Qed.

  (** Subscriptions and their keys. *)
  Definition pairs (l : list (effect O A)) : list (nat * O) := flat_map (fun x => match x with ESub k o => [(k, o)] | _ => [] end) l.
  Lemma pairs_fst l : map fst (pairs l) = keys l.
  Proof. unfold pairs, keys. induction l as [|x l IH]; cbn; [reflexivity|]. rewrite map_app, IH. destruct x; reflexivity. Qed.
  Lemma pairs_snd l : map snd (pairs l) = subscribed l.
  Proof. unfold pairs, subscribed. induction l as [|x l IH]; cbn; [reflexivity|]. rewrite map_app, IH. destruct x; reflexivity. Qed.
  Lemma in_pairs l k o : In (k, o) (pairs l) <-> In (ESub k o) l.
  Proof.
    unfold pairs. rewrite in_flat_map. split.
    - intros (x & H & F). destruct x; cbn in F; try contradiction. destruct F as [F|[]]. injection F as -> ->. exact H.
    - intros H. exists (ESub k o). split; [exact H|now left].
  Qed.
  Lemma nth_sub h s k o : mreach maxc h s -> nth_error (subscribed (m_log s)) k = Some o -> In (ESub k o) (m_log s).
  Proof.
    intros H E. rewrite <- pairs_snd, nth_error_map in E. destruct (nth_error (pairs (m_log s)) k) as [[j o']|] eqn:F; [|discriminate]. injection E as <-.
    apply in_pairs. replace k with j; [exact (nth_error_In _ _ F)|].
    pose proof (map_nth_error fst _ _ F) as G. rewrite pairs_fst, (keys_seq H) in G. cbn in G.
    assert (L : k < length (seq 0 (length (keys (m_log s))))) by (apply nth_error_Some; congruence).
    rewrite seq_length in L. apply nth_error_nth with (d := 0) in G. rewrite seq_nth in G by exact L. cbn in G. now subst.
  Qed.
  Lemma subs_length (l : list (effect O A)) : length (subscribed l) = length (keys l).
  Proof. now rewrite <- pairs_snd, <- pairs_fst, !map_length. Qed.

  Lemma map_nth_seq X Y (f : nat -> Y) (g : X -> Y) (l : list X) : (forall k x, nth_error l k = Some x -> f k = g x) -> map f (seq 0 (length l)) = map g l.
  Proof.
    revert f. induction l as [|x l IH]; intros f H; cbn; [reflexivity|]. f_equal; [exact (H 0 x eq_refl)|].
    rewrite <- seq_shift, map_map. apply IH. intros k y E. exact (H (S k) y E).
  Qed.

  (** The calls made, if there is one subscription at a time. *)
  Lemma calls_concat h s : maxc = 1%Z -> mreach maxc h s -> follows h s -> finished h s ->
    map snd (icalls h) = flat_map script (subscribed (m_log s)).
  Proof.
    intros Hc H Hf (_ & Hi & _). pose proof (follows_quiet H Hf) as Hq.
    rewrite (@by_keys _ (icalls h) 0 (length (keys (m_log s)))).
    - rewrite !flat_map_concat_map, concat_map, map_map, <- subs_length. f_equal. apply map_nth_seq.
      intros k o E. exact (Hi k o (nth_sub _ H E)).
    - exact (calls_sorted Hc H Hq).
    - intros [k a] Hin. apply (callers_begun H) in Hin. rewrite (keys_seq H) in Hin. apply in_seq in Hin. cbn. lia.
  Qed.

  Lemma produced_calls h : (forall e, ~ In (LOuter (OnError e)) h) -> produced h = filter not_done (map snd (icalls h)).
  Proof.
    induction h as [|l h IH]; intros Hn; [reflexivity|]. unfold produced, icalls in *. cbn. rewrite map_app, filter_app, <- IH by (intros e F; apply (Hn e); now right).
    destruct l as [[o|e|]|k [a|e|]| | |e]; try reflexivity. elim (Hn e). now left.
  Qed.

  (** ** Going on *)
  Lemma follows_step h s l s' : mreach maxc h s -> follows h s -> mstep maxc s l = Some s' ->
    match l with
    | LOuter n => prefix (outer_calls h ++ [n]) outer
    | LInner k n => forall o, In (ESub k o) (m_log s) -> prefix (inner_calls k h ++ [n]) (script o)
    | LWork => True
    | LCancel | LFail _ => False
    end -> follows (h ++ [l]) s'.
  Proof.
    intros H (F1 & F2 & F3 & F4) Hs Hl. pose proof (mr_snoc _ H Hs) as H'. split; [|split; [|split]].
    - intros x Hx. apply in_app_or in Hx as [Hx|[<-|[]]]; [now apply F1|]. intros ->. exact Hl.
    - intros e Hx. apply in_app_or in Hx as [Hx|[->|[]]]; [now apply (F2 e)|exact Hl].
    - rewrite outer_snoc. destruct l; try contradiction; cbn; rewrite ?app_nil_r; assumption.
    - intros k o Ho. destruct (log_mono maxc _ _ Hs) as [d Hd].
      assert (Hold : In (ESub k o) (m_log s) \/ inner_calls k h = []).
      { rewrite Hd in Ho. apply in_app_or in Ho as [Ho|Ho]; [now left|]. right.
        destruct (inner_calls k h) as [|n c] eqn:E; [reflexivity|]. exfalso.
        assert (Hn : In n (inner_calls k h)) by (rewrite E; now left). apply in_inner, (callers_begun H) in Hn.
        destruct (in_order H') as [_ N]. rewrite Hd in N. unfold keys in N. rewrite flat_map_app in N. fold (keys (m_log s)) in N. fold (keys d) in N.
        assert (Hk : In k (keys d)) by (apply in_keys; eauto).
        apply in_split in Hn as (a & b & Hn). rewrite Hn, <- app_assoc in N. apply NoDup_remove_2 in N. apply N, in_or_app. right. apply in_or_app. now right. }
      rewrite inner_snoc. destruct l as [n|j n| | |e]; try contradiction; cbn.
      + destruct Hold as [Ho'| ->]; [rewrite app_nil_r; now apply F4|apply prefix_nil].
      + destruct (j =? k) eqn:E; cbn.
        * apply Nat.eqb_eq in E as ->. destruct Hold as [Ho'|E]; [now apply Hl|].
          (* the subscription had begun *)
          cbn in Hs. destruct (begun k s) eqn:B; [|discriminate]. apply begun_keys, in_keys in B as [o' Ho'].
          replace o with o'; [now apply Hl|]. assert (Ho2 : In (ESub k o') (m_log s')) by (rewrite Hd; apply in_or_app; now left).
          apply in_pairs in Ho, Ho2. destruct (in_order H') as [_ N]. rewrite <- pairs_fst in N.
          clear -Ho Ho2 N. induction (pairs (m_log s')) as [|[i x] p IH]; [contradiction|]. cbn in N. inversion N; subst.
          destruct Ho as [E|Ho], Ho2 as [E2|Ho2]; auto; [congruence| |].
          -- injection E as -> ->. elim H1. exact (in_map fst _ _ Ho2).
          -- injection E2 as -> ->. elim H1. exact (in_map fst _ _ Ho).
        * rewrite app_nil_r. destruct Hold as [Ho'| ->]; [now apply F4|apply prefix_nil].
      + destruct Hold as [Ho'| ->]; [rewrite app_nil_r; now apply F4|apply prefix_nil].
  Qed.

  Lemma progress h s : mreach maxc h s -> follows h s ->
    finished h s \/ exists l s', mstep maxc s l = Some s' /\ follows (h ++ [l]) s'.
  Proof.
    intros H F. pose proof F as (F1 & F2 & [c Hc] & F4).
    destruct (work maxc s) as [s'|] eqn:W; [right; exists LWork, s'; split; [exact W|]; now apply (@follows_step h s LWork s' H F W)|].
    destruct c as [|n c].
    2:{ right. assert (X : exists s', mstep maxc s (LOuter n) = Some s') by (destruct n; cbn; eauto). destruct X as [s' Hs].
        exists (LOuter n), s'. split; [exact Hs|]. apply (@follows_step _ _ _ _ H F Hs). exists c. now rewrite <- app_assoc. }
    rewrite app_nil_r in Hc.
    assert (D : forall p, (forall q, In q p -> In q (pairs (m_log s))) ->
              (forall k o, In (k, o) p -> inner_calls k h = script o) \/ exists k o n c, In (k, o) p /\ script o = inner_calls k h ++ n :: c).
    { induction p as [|[k o] p IH]; intros Hp; [left; intros k o []|].
      destruct IH as [IH|(k' & o' & n & c & Hin & E)]; [intros q Hq; apply Hp; now right| |right; exists k', o', n, c; split; [now right|exact E]].
      destruct (F4 k o) as [[|n c] E]; [apply in_pairs, Hp; now left| |right; exists k, o, n, c; split; [now left|exact E]].
      rewrite app_nil_r in E. left. intros k' o' [[= <- <-]|Hin]; [now symmetry|now apply IH]. }
    destruct (D _ (fun q Hq => Hq)) as [All|(k & o & n & c & Hin & E)].
    - left. split; [now symmetry|]. split; [|exact W]. intros k o Ho. now apply All, in_pairs.
    - right. apply in_pairs in Hin.
      assert (B : begun k s = true) by (apply begun_keys, in_keys; eauto).
      assert (X : exists s', mstep maxc s (LInner k n) = Some s') by (cbn; rewrite B; eauto). destruct X as [s' Hs].
      exists (LInner k n), s'. split; [exact Hs|]. apply (@follows_step _ _ _ _ H F Hs). intros o' Ho'.
      replace o' with o; [exists c; now rewrite <- app_assoc|].
      apply in_pairs in Hin, Ho'. destruct (in_order H) as [_ N]. rewrite <- pairs_fst in N.
      clear -Hin Ho' N. induction (pairs (m_log s)) as [|[i x] p IH]; [contradiction|]. cbn in N. inversion N; subst.
      destruct Hin as [E|Ho], Ho' as [E2|Ho2]; auto; [congruence| |].
      + injection E as -> ->. elim H1. exact (in_map fst _ _ Ho2).
      + injection E2 as -> ->. elim H1. exact (in_map fst _ _ Ho).
  Qed.

  (** ** How long it can take *)
  Definition works h := length (filter (fun l => match l with LWork => true | _ => false end) h).
  Definition clean s : Prop := ~ In MDispose (m_box s) /\ forall r, m_phase s <> WDisp r.

  Lemma work_bound h s : mreach maxc h s -> (forall l, In l h -> ~ stops l) -> clean s /\
    works h + 2 * length (m_box s) + (match m_phase s with WSub _ _ => 1 | _ => 0 end) <= 2 * (length (outer_calls h) + length (icalls h)).
  Proof.
    induction 1 as [|h s l s' H IH Hs]; intros Hst.
    - split; [split; [intros []|intros r; discriminate]|cbn; lia].
    - assert (Hst' : forall x, In x h -> ~ stops x) by (intros x Hx; apply Hst, in_or_app; now left).
      destruct (IH Hst') as [[C1 C2] B]. assert (Hl : ~ stops l) by (apply Hst, in_or_app; right; now left).
      rewrite outer_snoc, calls_snoc, !app_length. unfold works in *. rewrite filter_app, app_length.
      destruct l as [[o|e|]|k n| | |e]; cbn in Hs |- *.
      + injection Hs as <-. cbn. rewrite app_length. cbn. split; [|destruct (m_phase s); lia].
        split; [|exact C2]. cbn. intros F. apply in_app_or in F as [F|[F|[]]]; [auto|discriminate].
      + elim Hl. right. eauto.
      + injection Hs as <-. cbn. rewrite app_length. cbn. split; [|destruct (m_phase s); lia].
        split; [|exact C2]. cbn. intros F. apply in_app_or in F as [F|[F|[]]]; [auto|discriminate].
      + destruct (begun k s); [|discriminate]. injection Hs as <-. destruct n as [a|e|]; cbn.
        * split; [now split|destruct (m_phase s); lia].
        * split; [now split|destruct (m_phase s); lia].
        * rewrite app_length. cbn. split; [|destruct (m_phase s); lia].
          split; [|exact C2]. cbn. intros F. apply in_app_or in F as [F|[F|[]]]; [auto|discriminate].
      + elim Hl. now left.
      + unfold work in Hs. destruct (m_phase s) as [|subs q|r| |] eqn:P; try discriminate.
        * destruct (m_box s) as [|m r] eqn:Bx; [discriminate|]. injection Hs as <-. cbn in B.
          assert (C3 : ~ In MDispose r) by (intros F; apply C1; now right).
          destruct m as [o|k| |]; cbn.
          -- destruct (room maxc _); cbn; [split; [split; [exact C3|intros r'; discriminate]|lia]|].
             split; [split; [exact C3|]|]; cbn; destruct (m_stopped s), (m_subs s); cbn; try discriminate; lia.
          -- destruct (m_queue s) as [|o q]; cbn.
             ++ destruct (remove_key k (m_subs s)); cbn.
                ** destruct (m_stopped s); cbn; (split; [split; [exact C3|intros r'; discriminate]|lia]).
                ** split; [split; [exact C3|]|]; cbn; destruct (m_stopped s); cbn; try discriminate; lia.
             ++ split; [split; [exact C3|intros r'; discriminate]|lia].
          -- split; [split; [destruct (m_subs s); exact C3|]|]; destruct (m_subs s); cbn; try discriminate; lia.
          -- elim C1. now left.
        * injection Hs as <-. cbn. split; [split; [exact C1|]|]; cbn; destruct (m_stopped s), (subs ++ [m_key s]); cbn; try discriminate; lia.
        * elim (C2 r). reflexivity.
      + destruct (m_phase s) as [|subs q|[|k r]| |] eqn:P; try discriminate.
        * injection Hs as <-. cbn. split; [split; [exact C1|discriminate]|lia].
        * elim (C2 (k :: r)). reflexivity.
  Qed.

  Lemma len_by_keys X m : forall l : list (nat * X), (forall p, In p l -> fst p < m) ->
    length l = list_sum (map (fun k => length (filter (fun p => fst p =? k) l)) (seq 0 m)).
  Proof.
    induction m as [|m IH]; intros l Hl.
    - destruct l as [|p l]; [reflexivity|]. specialize (Hl p (or_introl eq_refl)). lia.
    - rewrite seq_S, map_app, list_sum_app. cbn. rewrite Nat.add_0_r.
      set (l' := filter (fun p => negb (fst p =? m)) l).
      assert (E1 : length l = length l' + length (filter (fun p => fst p =? m) l)).
      { subst l'. clear. induction l as [|p l IH]; [reflexivity|]. cbn. destruct (fst p =? m); cbn; lia. }
      rewrite E1. f_equal. rewrite (IH l').
      + f_equal. apply map_ext_in. intros k Hk. apply in_seq in Hk. subst l'. f_equal. clear -Hk.
        induction l as [|p l IH]; [reflexivity|]. cbn. destruct (fst p =? m) eqn:E; cbn.
        * apply Nat.eqb_eq in E. replace (fst p =? k) with false by (symmetry; apply Nat.eqb_neq; lia). exact IH.
        * destruct (fst p =? k); cbn; now rewrite IH.
      + intros p Hp. subst l'. apply filter_In in Hp as [Hp E]. specialize (Hl p Hp). destruct (fst p =? m) eqn:E'; [discriminate|]. apply Nat.eqb_neq in E'. lia.
  Qed.

  Lemma sum_le X (f g : X -> nat) l : (forall x, In x l -> f x <= g x) -> list_sum (map f l) <= list_sum (map g l).
  Proof. induction l as [|x l IH]; intros H; [apply Nat.le_refl|]. change (f x + list_sum (map f l) <= g x + list_sum (map g l)). apply Nat.add_le_mono; [apply H; now left|apply IH; intros y Hy; apply H; now right]. Qed.

  Lemma calls_length h s : mreach maxc h s -> follows h s ->
    length (icalls h) <= list_sum (map (fun o => length (script o)) (subscribed (m_log s))).
  Proof.
    intros H (_ & _ & _ & F). rewrite (@len_by_keys _ (length (keys (m_log s)))).
    2:{ intros [k n] Hin. apply (callers_begun H) in Hin. rewrite (keys_seq H) in Hin. apply in_seq in Hin. cbn. lia. }
    rewrite <- pairs_fst, map_length.
    rewrite (map_nth_seq _ (fun q : nat * O => length (filter (fun p => fst p =? fst q) (icalls h))) (pairs (m_log s))).
    - rewrite <- pairs_snd, map_map. apply sum_le. intros [k o] Hin. apply in_pairs in Hin. destruct (F k o Hin) as [c E]. cbn. rewrite E, app_length.
      unfold inner_calls. rewrite map_length. lia.
    - intros k q E. pose proof (map_nth_error fst _ _ E) as G. rewrite pairs_fst, (keys_seq H) in G.
      assert (L : k < length (seq 0 (length (keys (m_log s))))) by (apply nth_error_Some; congruence).
      rewrite seq_length in L. apply nth_error_nth with (d := 0) in G. rewrite seq_nth in G by exact L. cbn in G. now rewrite G.
  Qed.

  Lemma arrived_outer h : arrived h = flat_map (fun n => match n with OnNext o => [o] | _ => [] end) (outer_calls h).
  Proof.
    unfold arrived, outer_calls. induction h as [|l h IH]; [reflexivity|]. cbn. rewrite flat_map_app, <- IH.
    destruct l as [[o|e|]|k n| | |e]; reflexivity.
  Qed.
  Lemma in_outer h n : In n (outer_calls h) <-> In (LOuter n) h.
  Proof.
    unfold outer_calls. rewrite in_flat_map. split.
    - intros (l & H & F). destruct l; cbn in F; try contradiction. destruct F as [F|[]]. now subst.
    - intros H. exists (LOuter n). split; [exact H|now left].
  Qed.

  Lemma history_length h s : (forall l, In l h -> l <> LCancel) -> never_fails h -> length h = length (outer_calls h) + length (icalls h) + works h.
  Proof.
    clear. unfold works, outer_calls, icalls. induction h as [|l h IH]; intros F1 F2; [reflexivity|]. cbn. rewrite !app_length.
    assert (F1' : forall x, In x h -> x <> LCancel) by (intros x Hx; apply F1; now right).
    assert (F2' : never_fails h) by (intros e He; apply (F2 e); now right). specialize (IH F1' F2').
    destruct l as [n|k n| | |e]; cbn; try lia; [elim (F1 LCancel); [now left|reflexivity]|elim (F2 e); now left].
  Qed.
End P.

Lemma open_or_completed e : (forall x, e <> Failed x) -> e = Open \/ e = Completed.
Proof. intros H. destruct e as [|x|]; [now left|now elim (H x)|now right]. Qed.

Section Ends.
  Context {O A : Type} (maxc : Z) (content : O -> list A * ending) (os : list O) (oe : ending).
  Hypothesis Hoe : forall x, oe <> Failed x.
  Notation script := (fun o => script_of (content o)).
  Notation outer := (trace os oe).
  Implicit Types (h : list (mlabel O A)) (s : mstate O A).

  Lemma script_gram o : grammatical (script o).
  Proof. unfold script_of. now exists (fst (content o)), (snd (content o)). Qed.

  Lemma outer_no_error x : ~ In (OnError x) outer.
  Proof.
    unfold trace. intros H. apply in_app_or in H as [H|H]; [apply in_map_iff in H as (? & ? & _); discriminate|].
    destruct oe as [|y|]; cbn in H; try contradiction; [|destruct H as [H|[]]; discriminate]. now elim (Hoe (x := y)).
  Qed.

  Lemma no_stop h s : follows script outer h s -> forall l, In l h -> ~ stops l.
  Proof.
    intros (F1 & _ & [c F] & _) l Hl [->|[e ->]]; [now elim (F1 _ Hl)|]. apply in_outer in Hl.
    apply (@outer_no_error e). rewrite F. apply in_or_app. now left.
  Qed.

  Lemma arrived_prefix h s : follows script outer h s -> prefix (arrived h) os.
  Proof.
    intros (_ & _ & [c F] & _). rewrite arrived_outer.
    assert (E : os = flat_map (fun n => match n with OnNext o => [o] | _ => [] end) outer).
    { unfold trace. rewrite flat_map_app. clear. replace (flat_map _ _) with os.
      - destruct oe; cbn; now rewrite app_nil_r.
      - induction os as [|o l IH]; [reflexivity|]. cbn. now f_equal. }
    rewrite E, F, flat_map_app. eexists. reflexivity.
  Qed.

  Lemma arrived_all h s : finished script outer maxc h s -> arrived h = os.
  Proof.
    intros (F & _). rewrite arrived_outer, F. unfold trace. rewrite flat_map_app. clear.
    replace (flat_map _ (map OnNext os)) with os; [destruct oe; cbn; now rewrite app_nil_r|].
    induction os as [|o l IH]; [reflexivity|]. cbn. now f_equal.
  Qed.

  Definition size : nat := length outer + list_sum (map (fun o => length (script o)) os).

  Lemma finite h s : mreach maxc h s -> follows script outer h s -> length h <= 3 * size.
  Proof.
    intros H F. pose proof (calls_length H F) as L. destruct (work_bound H (no_stop F)) as [_ W].
    destruct (proj1 (in_order H)) as [c1 P1]. destruct (arrived_prefix F) as [c2 P2].
    pose proof F as (F1 & F2 & [c3 P3] & _).
    rewrite (history_length s F1 F2). unfold size. rewrite P3 at 1. rewrite app_length. rewrite P2, P1 at 1. rewrite !map_app, !list_sum_app. lia.
  Qed.

  Lemma extends h s : mreach maxc h s -> follows script outer h s ->
    exists h' s', mreach maxc (h ++ h') s' /\ follows script outer (h ++ h') s' /\ finished script outer maxc (h ++ h') s' /\ prefix (m_log s) (m_log s').
  Proof.
    intros H F. remember (3 * size - length h) as n eqn:En. revert h s H F En. induction n as [n IH] using lt_wf_ind. intros h s H F En.
    destruct (progress H F) as [D|(l & s1 & Hs & F')].
    - exists [], s. rewrite app_nil_r. repeat split; try apply F; try apply D; [exact H|apply prefix_refl].
    - pose proof (mr_snoc _ H Hs) as H1. pose proof (finite H1 F') as L. rewrite app_length in L. cbn in L.
      destruct (IH (3 * size - length (h ++ [l]))) with (h := h ++ [l]) (s := s1) as (h' & s' & R & Fo & Fi & Pr); auto.
      + rewrite app_length. cbn. lia.
      + exists (l :: h'), s'. replace (h ++ l :: h') with ((h ++ [l]) ++ h') by (now rewrite <- app_assoc). repeat split; auto; try apply Fo; try apply Fi.
        destruct (log_mono maxc _ _ Hs) as [d Hd], Pr as [d' Hd']. exists (d ++ d'). now rewrite Hd', Hd, app_assoc.
  Qed.

  (** ** All observables complete *)
  Hypothesis Hmax : (0 <= maxc)%Z.

  Lemma outer_grammatical h s : finished script outer maxc h s -> grammatical (outer_calls h).
  Proof. intros (E & _). exists os, oe. exact E. Qed.

  Lemma all_subscribed h s : mreach maxc h s -> follows script outer h s -> finished script outer maxc h s ->
    (forall o, In o (subscribed (m_log s)) -> snd (content o) = Completed) ->
    subscribed (m_log s) = os /\ forall k, In k (keys (m_log s)) -> In k (completions h).
  Proof.
    intros H F D Hall. pose proof F as (_ & F2 & _). pose proof D as (_ & D2 & D3).
    assert (Hk : forall k, In k (keys (m_log s)) -> In k (completions h)).
    { intros k Hk. apply in_keys in Hk as [o Ho]. apply in_completions, in_calls, in_inner. rewrite (D2 k o Ho).
      unfold script_of, trace. rewrite (Hall o); [apply in_or_app; right; now left|]. rewrite <- pairs_snd. apply in_pairs in Ho. exact (in_map snd _ _ Ho). }
    split; [|exact Hk].
    assert (W : waiting s = []).
    { destruct (waiting s) eqn:E; [reflexivity|]. exfalso.
      assert (Hw : waiting s <> []) by (rewrite E; discriminate).
      pose proof (no_idle_waiting Hmax H F2 (no_stop F) (outer_grammatical D) D3 Hw) as [L1 L2].
      replace (active h (m_log s)) with (@nil nat) in L2; [cbn in L2; lia|]. symmetry. unfold active. apply filter_eq_none.
      intros k Hin. apply Hk in Hin. apply existsb_eqb in Hin. now rewrite Hin. }
    pose proof (none_forgotten H F2 (no_stop F)) as N. rewrite W, app_nil_r in N. rewrite N. exact (arrived_all D).
  Qed.

  Lemma requests_open h s : mreach maxc h s -> follows script outer h s -> ~ In OnCompleted (requests (m_log s)) ->
    requests (m_log s) = filter not_done (map snd (icalls h)).
  Proof.
    intros H F Hn. rewrite <- produced_calls by (intros e Hi; apply (no_stop F Hi); right; eauto). rewrite <- (forwards H). symmetry. apply filter_eq_all.
    intros [a|e|] Hi; [reflexivity|reflexivity|contradiction].
  Qed.

  Lemma not_done_trace (vs : list A) e : filter not_done (trace vs e) = trace vs (match e with Completed => Open | _ => e end).
  Proof. unfold trace. rewrite filter_app. f_equal; [|now destruct e]. induction vs as [|v vs IH]; [reflexivity|]. cbn. now rewrite IH. Qed.

  Lemma open_of_all (l : list O) : (forall o, In o l -> snd (content o) = Completed) ->
    filter not_done (flat_map script l) = map OnNext (concat (map (fun o => fst (content o)) l)).
  Proof.
    induction l as [|o l IH]; intros H; [reflexivity|]. cbn [flat_map map concat]. rewrite filter_app, IH by (intros x Hx; apply H; now right).
    unfold script_of. rewrite not_done_trace, (H o (or_introl eq_refl)). unfold trace. now rewrite app_nil_r, map_app.
  Qed.

  Lemma complete_requests h s : mreach maxc h s -> follows script outer h s -> finished script outer maxc h s -> oe = Completed ->
    (forall o, In o os -> snd (content o) = Completed) ->
    requests (m_log s) = trace (map snd (sends h)) Completed.
  Proof.
    intros H F D Eoe Hall. pose proof F as (_ & F2 & _). pose proof D as (D1 & D2 & D3).
    assert (Hsub : forall o, In o (subscribed (m_log s)) -> snd (content o) = Completed).
    { intros o Ho. apply Hall. destruct (proj1 (in_order H)) as [c E]. rewrite <- (arrived_all D), E. apply in_or_app. now left. }
    destruct (all_subscribed H F D Hsub) as [S1 S2].
    apply (completed_requests Hmax H (outer_grammatical D) (follows_quiet script_gram H F)).
    - intros x Hx. rewrite produced_calls in Hx by (intros e Hi; apply (no_stop F Hi); right; eauto).
      apply filter_In in Hx as [Hx _]. apply in_map_iff in Hx as ([k n] & En & Hx). cbn in En. subst n.
      pose proof (callers_begun H _ _ Hx) as Hk. apply in_keys in Hk as [o Ho]. apply in_inner in Hx. rewrite (D2 k o Ho) in Hx.
      unfold script_of, trace in Hx. rewrite Hsub in Hx by (rewrite <- pairs_snd; apply in_pairs in Ho; exact (in_map snd _ _ Ho)).
      apply in_app_or in Hx as [Hx|[Hx|[]]]; [apply in_map_iff in Hx as (? & ? & _)|]; discriminate.
    - apply (completes_if Hmax H F2 (no_stop F) D3); [|exact S2]. apply in_outer. rewrite D1, Eoe. apply in_or_app. right. now left.
  Qed.

  Lemma sends_inner k h : map OnNext (map snd (filter (fun p => fst p =? k) (sends h))) =
    filter (fun n => match n with OnNext _ => true | _ => false end) (inner_calls k h).
  Proof.
    unfold inner_calls. induction h as [|l h IH]; [reflexivity|]. unfold sends, icalls in *. cbn. rewrite !filter_app, !map_app, filter_app, IH.
    destruct l as [n|j [a|e|]| | |e]; cbn; try reflexivity; destruct (j =? k); reflexivity.
  Qed.

  Lemma merge_all h s : mreach maxc h s -> follows script outer h s -> finished script outer maxc h s -> oe = Completed ->
    (forall o, In o os -> snd (content o) = Completed) ->
    exists l, interleaves (map (fun o => fst (content o)) os) l /\ requests (m_log s) = trace l Completed.
  Proof.
    intros H F D Eoe Hall. exists (map snd (sends h)). split; [|exact (complete_requests H F D Eoe Hall)].
    assert (Hsub : forall o, In o (subscribed (m_log s)) -> snd (content o) = Completed).
    { intros o Ho. apply Hall. destruct (proj1 (in_order H)) as [c E]. rewrite <- (arrived_all D), E. apply in_or_app. now left. }
    destruct (all_subscribed H F D Hsub) as [S1 S2]. pose proof D as (_ & D2 & _).
    exists (sends h). split; [reflexivity|]. split.
    - intros [k a] Hin. pose proof (senders_begun H _ _ Hin) as Hk. rewrite (keys_seq H) in Hk. apply in_seq in Hk. cbn [fst].
      rewrite map_length, <- S1, subs_length. lia.
    - intros k vs E. rewrite nth_error_map in E. destruct (nth_error os k) as [o|] eqn:Eo; [|discriminate]. injection E as <-.
      rewrite <- S1 in Eo. apply (nth_sub _ H) in Eo.
      assert (X : map OnNext (map snd (filter (fun p : nat * A => fst p =? k) (sends h))) = map OnNext (fst (content o))).
      { rewrite sends_inner, (D2 k o Eo). unfold script_of, trace. rewrite filter_app. clear.
        replace (filter _ (map OnNext (fst (content o)))) with (map OnNext (fst (content o))).
        - destruct (snd (content o)); cbn; now rewrite app_nil_r.
        - induction (fst (content o)) as [|v l IH]; [reflexivity|]. cbn. now f_equal. }
      revert X. generalize (map snd (filter (fun p : nat * A => fst p =? k) (sends h))) as a. generalize (fst (content o)) as b. clear.
      induction b as [|y b IH]; intros [|x a] X; try discriminate; [reflexivity|]. injection X as -> X. f_equal. now apply IH.
  Qed.

  (** ** One after the other *)
  Lemma first_not_completed (l : list O) : (forall o, In o l -> snd (content o) = Completed) \/
    exists a o b, l = a ++ o :: b /\ (forall x, In x a -> snd (content x) = Completed) /\ snd (content o) <> Completed.
  Proof.
    induction l as [|o l [IH|(a & o' & b & -> & Ha & Hb)]]; [left; intros ? []| |].
    - destruct (snd (content o)) eqn:E; [right; exists [], o, l; rewrite E; repeat split; [intros ? []|discriminate]..|].
      left. intros x [<-|Hx]; auto.
    - destruct (snd (content o)) eqn:E; [right; exists [], o, (a ++ o' :: b); rewrite E; repeat split; [intros ? []|discriminate]..|].
      right. exists (o :: a), o', b. repeat split; [intros x [<-|Hx]; auto|exact Hb].
  Qed.

  Lemma one_all (l : list O) : (forall o, In o l -> snd (content o) = Completed) ->
    one_after_the_other (map content l) oe = trace (concat (map (fun o => fst (content o)) l)) oe.
  Proof.
    induction l as [|o l IH]; intros H; [reflexivity|]. cbn. pose proof (H o (or_introl eq_refl)) as E. destruct (content o) as [vs e]. cbn in *. subst e.
    rewrite IH by (intros x Hx; apply H; now right). unfold trace. now rewrite map_app, app_assoc.
  Qed.
  Lemma one_split a o b : (forall x, In x a -> snd (content x) = Completed) -> snd (content o) <> Completed ->
    one_after_the_other (map content (a ++ o :: b)) oe = trace (concat (map (fun o => fst (content o)) a) ++ fst (content o)) (snd (content o)).
  Proof.
    induction a as [|x a IH]; intros H Ho.
    - cbn. destruct (content o) as [vs [| |]]; cbn in Ho |- *; try reflexivity; congruence.
    - cbn. pose proof (H x (or_introl eq_refl)) as E. destruct (content x) as [vs e]. cbn in *. subst e.
      rewrite IH by (try exact Ho; intros y Hy; apply H; now right). unfold trace. now rewrite !map_app, <- !app_assoc.
  Qed.
  Lemma one_gram (l : list O) : exists vs e, one_after_the_other (map content l) oe = trace vs e.
  Proof.
    destruct (first_not_completed l) as [Ha|(a & o & b & -> & Ha & Ho)]; [rewrite one_all by assumption|rewrite one_split by assumption]; eauto.
  Qed.

  Lemma concat_requests h s : maxc = 1%Z -> mreach maxc h s -> follows script outer h s -> finished script outer maxc h s ->
    requests (m_log s) = one_after_the_other (map content os) oe.
  Proof.
    intros Hc H F D. pose proof D as (D1 & D2 & D3). pose proof F as (_ & F2 & _).
    pose proof (calls_concat script_gram Hc H F D) as Hcalls.
    destruct (proj1 (in_order H)) as [c Ec]. rewrite (arrived_all D) in Ec.
    destruct (first_not_completed os) as [Hall|(a & o & b & Eos & Ha & Ho)].
    - assert (Hsub : forall o, In o (subscribed (m_log s)) -> snd (content o) = Completed)
        by (intros o Ho; apply Hall; rewrite Ec; apply in_or_app; now left).
      destruct (all_subscribed H F D Hsub) as [S1 S2]. rewrite one_all by exact Hall. destruct (open_or_completed Hoe) as [Eoe|Eoe]; rewrite Eoe at 1.
      + rewrite requests_open with (h := h); [| exact H | exact F |].
        * rewrite Hcalls, S1, open_of_all by exact Hall. unfold trace. now rewrite app_nil_r.
        * intros Hin. destruct (completes_only_if Hmax H (outer_grammatical D) Hin) as (Hx & _). apply in_outer in Hx. rewrite D1, Eoe in Hx.
          unfold trace in Hx. rewrite app_nil_r in Hx. apply in_map_iff in Hx as (? & ? & _). discriminate.
      + rewrite (complete_requests H F D Eoe Hall). f_equal.
        assert (X : map OnNext (map snd (sends h)) = map OnNext (concat (map (fun o => fst (content o)) os))).
        { rewrite <- (open_of_all _ Hall), <- S1, <- Hcalls. 
          pose proof (forwards H) as Fw. rewrite produced_calls in Fw by (intros e Hi; apply (no_stop F Hi); right; eauto). rewrite <- Fw.
          rewrite (complete_requests H F D Eoe Hall), not_done_trace. unfold trace. now rewrite app_nil_r. }
        revert X. generalize (map snd (sends h)) as p. generalize (concat (map (fun o => fst (content o)) os)) as q. clear.
        induction q as [|y q IH]; intros [|x p] X; try discriminate; [reflexivity|]. injection X as -> X. f_equal. now apply IH.
    - assert (Hat : forall o', nth_error (subscribed (m_log s)) (length a) = Some o' -> o' = o).
      { intros o' E. assert (L : length a < length (subscribed (m_log s))) by (apply nth_error_Some; congruence).
        assert (E' : nth_error os (length a) = Some o') by (rewrite Ec, nth_error_app1 by exact L; exact E).
        rewrite Eos, nth_error_app2, Nat.sub_diag in E' by lia. now injection E' as <-. }
      assert (Hkey : forall h2 (Hin : In (length a) (keys (m_log s))), In (length a) (completions h) -> h2 = h -> False).
      { intros h2 Hin Hcp _. apply in_keys in Hin as [o' Ho']. apply in_completions, in_calls, in_inner in Hcp. rewrite (D2 _ _ Ho') in Hcp.
        assert (o' = o) as ->.
        { apply in_pairs, In_nth_error in Ho' as [i Ei]. pose proof (map_nth_error fst _ _ Ei) as G. rewrite pairs_fst, (keys_seq H) in G. cbn in G.
          assert (L : i < length (seq 0 (length (keys (m_log s))))) by (apply nth_error_Some; congruence).
          rewrite seq_length in L. apply nth_error_nth with (d := 0) in G. rewrite seq_nth in G by exact L. cbn in G. subst i.
          apply Hat. rewrite <- pairs_snd. exact (map_nth_error snd _ _ Ei). }
        unfold script_of, trace in Hcp. apply in_app_or in Hcp as [Hcp|Hcp]; [apply in_map_iff in Hcp as (? & ? & _); discriminate|].
        destruct (snd (content o)) as [|x|]; cbn in Hcp; try contradiction; destruct Hcp as [Hcp|[]]; discriminate. }
      assert (Lge : length a < length (subscribed (m_log s))).
      { destruct (le_lt_dec (length (subscribed (m_log s))) (length a)) as [Hle|]; [|assumption]. exfalso.
        assert (Hsub : forall x, In x (subscribed (m_log s)) -> snd (content x) = Completed).
        { intros x Hx. apply Ha. apply In_nth_error in Hx as [i Ei]. assert (L : i < length (subscribed (m_log s))) by (apply nth_error_Some; congruence).
          assert (Ei' : nth_error os i = Some x) by (rewrite Ec, nth_error_app1 by exact L; exact Ei).
          rewrite Eos, nth_error_app1 in Ei' by lia. exact (nth_error_In _ _ Ei'). }
        destruct (all_subscribed H F D Hsub) as [S1 _]. rewrite S1, Eos, app_length in Hle. cbn in Hle. lia. }
      assert (Hin : In (length a) (keys (m_log s))) by (rewrite (keys_seq H); apply in_seq; rewrite <- subs_length; lia).
      assert (Lle : length (subscribed (m_log s)) = S (length a)).
      { destruct (le_lt_dec (length (subscribed (m_log s))) (S (length a))) as [|Hlt]; [lia|]. exfalso.
        assert (Hin2 : In (S (length a)) (keys (m_log s))) by (rewrite (keys_seq H); apply in_seq; rewrite <- subs_length; lia).
        apply (Hkey h Hin); [|reflexivity]. exact (sequential Hc H (quiet_nodup (follows_quiet script_gram H F)) Hin2 (Nat.lt_succ_diag_r _)). }
      assert (S1 : subscribed (m_log s) = a ++ [o]).
      { rewrite Eos in Ec. replace (a ++ o :: b) with ((a ++ [o]) ++ b) in Ec by (now rewrite <- app_assoc).
        assert (L : length (a ++ [o]) = length (subscribed (m_log s))) by (rewrite app_length; cbn; lia).
        clear -Ec L. revert Ec L. generalize (subscribed (m_log s)) as p. generalize (a ++ [o]) as q. induction q as [|x q IH]; intros [|y p] E L; try discriminate; [reflexivity|].
        injection E as -> E. f_equal. symmetry. rewrite (IH p E); [reflexivity|]. cbn in L. lia. }
      rewrite requests_open with (h := h); [| exact H | exact F |].
      + rewrite Hcalls, S1, flat_map_app, filter_app, open_of_all by exact Ha. cbn. rewrite app_nil_r. unfold script_of. rewrite not_done_trace.
        rewrite Eos, one_split by assumption. unfold trace. rewrite map_app, <- app_assoc. do 2 f_equal. destruct (snd (content o)); congruence.
      + intros Hx. destruct (completes_only_if Hmax H (outer_grammatical D) Hx) as (_ & _ & Hk). exact (Hkey h Hin (Hk _ Hin) eq_refl).
  Qed.
End Ends.

Lemma delivers_trace A (l : list (notif A)) vs e : l = trace vs e -> delivers (psys well_behaved (safe PEnd)) l l.
Proof. intros ->. apply (delivers_iff (sane_psys _ _)), subscriber. now rewrite norm_trace0. Qed.

Lemma prefix_upto A (vs : list A) e l : prefix l (trace vs e) -> upto_terminal l = l.
Proof.
  intros [c E]. revert l E. induction vs as [|v vs IH]; intros [|n l] E; try reflexivity; cbn in E.
  - destruct e; cbn in E; try discriminate; injection E as <- E; destruct l; try discriminate; reflexivity.
  - injection E as <- E. cbn. f_equal. exact (IH l E).
Qed.
Lemma delivers_prefix A (l : list (notif A)) vs e : prefix l (trace vs e) -> delivers (psys well_behaved (safe PEnd)) l l.
Proof. intros H. apply (delivers_iff (sane_psys _ _)), subscriber. now rewrite (prefix_upto _ _ H). Qed.
