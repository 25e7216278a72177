(** * Proofs about switch_latest of cold observables. *)
From Verif Require Export ColdSwitch ColdProofs SwitchProofs.
From Coq Require Import Sorting.Sorted.
Set Implicit Arguments.

Lemma prefix_flat_map X Y (f : X -> list Y) a b : prefix a b -> prefix (flat_map f a) (flat_map f b).
Proof. intros [c ->]. rewrite flat_map_app. eexists. reflexivity. Qed.
Definition vals {A} (l : list (notif A)) : list A := flat_map (fun n => match n with OnNext v => [v] | _ => [] end) l.
Lemma vals_trace A (vs : list A) e : vals (trace vs e) = vs.
Proof.
  unfold vals, trace. rewrite flat_map_app. replace (flat_map _ (map OnNext vs)) with vs; [destruct e; cbn; now rewrite app_nil_r|].
  induction vs as [|v vs IH]; [reflexivity|]. cbn. now f_equal.
Qed.

Section P.
  Context {O A : Type}.
  Implicit Types (h : list (mlabel O A)) (s : sstate O A).

  Lemma heard_vals k h : heard k h = vals (inner_calls k h).
  Proof.
    unfold heard, inner_calls, vals. induction h as [|l h IH]; [reflexivity|].
    unfold sends, icalls in *. cbn. rewrite !filter_app, !map_app, flat_map_app, <- IH. f_equal.
    destruct l as [n|j [a|e|]| | |e]; cbn; try reflexivity; destruct (j =? k); reflexivity.
  Qed.

  Lemma skeys_seq h s : sreach h s -> keys (w_log s) = seq 1 (length (keys (w_log s))).
  Proof. intros H. destruct (proj1 (sreach_inv H)) as [(n & E & _) _ _]. now rewrite E, seq_length. Qed.

  Lemma snth_sub h s k o : sreach h s -> nth_error (subscribed (w_log s)) k = Some o -> In (ESub (S k) o) (w_log s).
  Proof.
    intros H E. rewrite <- pairs_snd, nth_error_map in E. destruct (nth_error (pairs (w_log s)) k) as [[j o']|] eqn:F; [|discriminate]. injection E as <-.
    apply in_pairs. replace (S k) with j; [exact (nth_error_In _ _ F)|].
    pose proof (map_nth_error fst _ _ F) as G. rewrite pairs_fst, (skeys_seq H) in G. cbn in G.
    assert (L : k < length (seq 1 (length (keys (w_log s))))) by (apply nth_error_Some; congruence).
    rewrite seq_length in L. apply nth_error_nth with (d := 0) in G. rewrite seq_nth in G by exact L. cbn in G. now subst.
  Qed.

  Lemma ssub_unique h s k o o' : sreach h s -> In (ESub k o) (w_log s) -> In (ESub k o') (w_log s) -> o = o'.
  Proof.
    intros H Hin Ho'. apply in_pairs in Hin, Ho'. destruct (one_at_a_time H) as (_ & _ & _ & N). rewrite <- pairs_fst in N.
    clear -Hin Ho' N. induction (pairs (w_log s)) as [|[i x] p IH]; [contradiction|]. cbn in N. inversion N; subst.
    destruct Hin as [E|Ho], Ho' as [E2|Ho2]; auto; [congruence| |].
    - injection E as -> ->. elim H1. exact (in_map fst _ _ Ho2).
    - injection E2 as -> ->. elim H1. exact (in_map fst _ _ Ho).
  Qed.

  Lemma skeys_mono s l s' k : sstep s l = Some s' -> In k (keys (w_log s)) -> In k (keys (w_log s')).
  Proof. intros Hs Hk. destruct (slog_grows _ _ Hs) as [es E]. rewrite E. unfold keys. rewrite flat_map_app. apply in_or_app. now left. Qed.

  Lemma scallers h s : sreach h s -> forall k n, In (k, n) (icalls h) -> In k (keys (w_log s)).
  Proof.
    induction 1 as [|h s l s' H IH Hs]; intros k n Hin; [contradiction|].
    rewrite calls_snoc in Hin. apply in_app_or in Hin as [Hin|Hin].
    - eapply skeys_mono; [exact Hs|]. exact (IH k n Hin).
    - destruct l as [[o|e|]|j b| | |e]; cbn in Hin; try contradiction. destruct Hin as [[= -> ->]|[]].
      pose proof Hs as Hs0. cbn in Hs. destruct (sbegun k s) eqn:B; [|discriminate]. eapply skeys_mono; [exact Hs0|]. now apply sbegun_keys.
  Qed.

  Lemma keys_sbegun k s o : In (ESub k o) (w_log s) -> sbegun k s = true.
  Proof. intros H. unfold sbegun. apply existsb_exists. exists (ESub k o). split; [exact H|apply Nat.eqb_refl]. Qed.

  (** New subscriptions have not called yet. *)
  Lemma new_sub h s l s' k o : sreach h s -> sstep s l = Some s' -> In (ESub k o) (w_log s') ->
    In (ESub k o) (w_log s) \/ (inner_calls k h = [] /\ l = LWork).
  Proof.
    intros H Hs Hin. destruct (in_dec Nat.eq_dec k (keys (w_log s))) as [Hk|Hk].
    - left. apply in_keys in Hk as [o' Ho']. pose proof (@sr_snoc _ _ _ _ _ _ H Hs) as H'. destruct (slog_grows _ _ Hs) as [es E].
      replace o with o'; [exact Ho'|]. apply (@ssub_unique (h ++ [l]) s' k o' o H'); [rewrite E; apply in_or_app; now left|exact Hin].
    - right. split.
      + destruct (inner_calls k h) as [|n c] eqn:E; [reflexivity|]. elim Hk. apply (scallers H) with n, in_inner. rewrite E. now left.
      + destruct l as [[x|e|]|j n| | |e]; [exfalso|exfalso|exfalso|exfalso|exfalso|reflexivity|exfalso]; apply Hk, in_keys; exists o; cbn in Hs.
        * injection Hs as <-. exact Hin.
        * injection Hs as <-. cbn in Hin. apply in_app_or in Hin as [F|[F|[]]]; [exact F|discriminate].
        * injection Hs as <-. exact Hin.
        * destruct (sbegun j s); [|discriminate]. injection Hs as <-. destruct n; cbn in Hin; [| |exact Hin];
            (apply in_app_or in Hin as [F|[F|[]]]; [exact F|discriminate]).
        * injection Hs as <-. exact Hin.
        * destruct (w_phase s); try discriminate; injection Hs as <-; exact Hin.
  Qed.

  Variable script : O -> list (notif A).
  Variable outer : list (notif O).
  Notation sfollows := (sfollows script outer).
  Notation sfinished := (sfinished script outer).

  Lemma outer_snoc' h l : outer_calls (h ++ [l]) = outer_calls h ++ outer_calls [l].
  Proof. unfold outer_calls. now rewrite flat_map_app. Qed.

  Lemma sfollows_step h s l s' : sreach h s -> sfollows h s -> sstep s l = Some s' ->
    match l with
    | LOuter n => prefix (outer_calls h ++ [n]) outer
    | LInner k n => forall o, In (ESub k o) (w_log s) -> prefix (inner_calls k h ++ [n]) (script o)
    | LWork => True
    | _ => False
    end -> sfollows (h ++ [l]) s'.
  Proof.
    intros H (F1 & F2 & F3 & F4) Hs Hl. split; [|split; [|split]].
    - intros x Hx. apply in_app_or in Hx as [Hx|[<-|[]]]; [now apply F1|]. intros ->. exact Hl.
    - intros e Hx. apply in_app_or in Hx as [Hx|[E|[]]]; [now apply (F2 e)|]. subst l. exact Hl.
    - rewrite outer_snoc'. destruct l; cbn; rewrite ?app_nil_r; auto.
    - intros k o Hin. destruct (new_sub _ _ _ H Hs Hin) as [Ho|[E ->]].
      + rewrite inner_snoc. destruct l as [n|j n| | |e]; try (change (inner_calls k [_]) with (@nil (notif A)); rewrite app_nil_r); try contradiction; try (now apply F4).
        replace (inner_calls k [LInner j n]) with (if j =? k then [n] else []) by (unfold inner_calls; cbn; now destruct (j =? k)). destruct (j =? k) eqn:Ej; [|rewrite app_nil_r; now apply F4].
        apply Nat.eqb_eq in Ej. subst j. now apply Hl.
      + rewrite inner_snoc, E. apply prefix_nil.
  Qed.

  Lemma sprogress h s : sreach h s -> sfollows h s ->
    sfinished h s \/ exists l s', sstep s l = Some s' /\ sfollows (h ++ [l]) s' /\
       match l with LInner k _ => ~ In k (disposed (w_log s)) | _ => True end.
  Proof.
    intros H F. pose proof F as (F1 & F2 & [c Hc] & F4).
    destruct (swork s) as [s'|] eqn:W; [right; exists LWork, s'; split; [exact W|]; split; [now apply (@sfollows_step h s LWork s' H F W)|exact I]|].
    destruct c as [|n c].
    2:{ right. assert (X : exists s', sstep s (LOuter n) = Some s') by (destruct n; cbn; eauto). destruct X as [s' Hs].
        exists (LOuter n), s'. split; [exact Hs|]. split; [|exact I]. apply (@sfollows_step _ _ _ _ H F Hs). exists c. now rewrite <- app_assoc. }
    rewrite app_nil_r in Hc.
    assert (D : forall p, (forall q, In q p -> In q (pairs (w_log s))) ->
              (forall k o, In (k, o) p -> ~ In k (disposed (w_log s)) -> inner_calls k h = script o) \/
              exists k o n c, In (k, o) p /\ ~ In k (disposed (w_log s)) /\ script o = inner_calls k h ++ n :: c).
    { induction p as [|[k o] p IH]; intros Hp; [left; intros k o []|].
      destruct IH as [IH|(k' & o' & n & c & Hin & E)]; [intros q Hq; apply Hp; now right| |right; exists k', o', n, c; split; [now right|exact E]].
      destruct (in_dec Nat.eq_dec k (disposed (w_log s))) as [Hd|Hd].
      { left. intros k' o' [[= <- <-]|Hin]; [contradiction|now apply IH]. }
      destruct (F4 k o) as [[|n c] E]; [apply in_pairs, Hp; now left| |right; exists k, o, n, c; split; [now left|now split]].
      rewrite app_nil_r in E. left. intros k' o' [[= <- <-]|Hin]; [now symmetry|now apply IH]. }
    destruct (D _ (fun q Hq => Hq)) as [All|(k & o & n & c & Hin & Hd & E)].
    - left. split; [now symmetry|]. split; [|exact W]. intros k o Ho. now apply All, in_pairs.
    - right. apply in_pairs in Hin.
      assert (X : exists s', sstep s (LInner k n) = Some s') by (cbn; rewrite (keys_sbegun k s o Hin); eauto). destruct X as [s' Hs].
      exists (LInner k n), s'. split; [exact Hs|]. split; [|exact Hd]. apply (@sfollows_step _ _ _ _ H F Hs). intros o' Ho'.
      replace o' with o; [exists c; now rewrite <- app_assoc|]. exact (ssub_unique k o o' H Hin Ho').
  Qed.

  (** ** How long it can take *)
  Lemma swork_bound h s : sreach h s -> (forall l, In l h -> l <> LCancel) ->
    works h + smeasure s <= 3 * (length (outer_calls h) + length (icalls h)).
  Proof.
    induction 1 as [|h s l s' H IH Hs]; intros Hc; [cbn; lia|].
    assert (B : works h + smeasure s <= 3 * (length (outer_calls h) + length (icalls h))) by (apply IH; intros x Hx; apply Hc, in_or_app; now left).
    rewrite outer_snoc', calls_snoc, !app_length. unfold works in *. rewrite filter_app, app_length.
    destruct l as [[o|e|]|k n| | |e]; cbn in Hs |- *.
    - injection Hs as <-. unfold smeasure in *. cbn. rewrite app_length. cbn. lia.
    - injection Hs as <-. unfold smeasure in *. cbn. lia.
    - injection Hs as <-. unfold smeasure in *. cbn. rewrite app_length. cbn. lia.
    - destruct (sbegun k s); [|discriminate]. injection Hs as <-. unfold smeasure in *. destruct n; cbn; rewrite ?app_length; cbn; lia.
    - elim (Hc LCancel); [apply in_or_app; right; now left|reflexivity].
    - pose proof (swork_measure _ Hs) as X. unfold smeasure in *. lia.
    - unfold smeasure in *. destruct (w_phase s); try discriminate; injection Hs as <-; cbn; lia.
  Qed.

  Lemma scalls_length h s : sreach h s -> sfollows h s ->
    length (icalls h) <= list_sum (map (fun o => length (script o)) (subscribed (w_log s))).
  Proof.
    intros H (_ & _ & _ & F). 
    replace (length (icalls h)) with (length (map (fun p => (pred (fst p), snd p)) (icalls h))) by apply map_length.
    rewrite (@len_by_keys _ (length (keys (w_log s)))).
    2:{ intros p Hp. apply in_map_iff in Hp as ([k n] & <- & Hin). apply (scallers H) in Hin. rewrite (skeys_seq H) in Hin. apply in_seq in Hin. cbn. lia. }
    rewrite <- pairs_fst, map_length.
    rewrite (map_nth_seq _ (fun q : nat * O => length (filter (fun p => fst p =? fst q) (icalls h))) (pairs (w_log s))).
    - rewrite <- pairs_snd, map_map. apply sum_le. intros [k o] Hin. apply in_pairs in Hin. destruct (F k o Hin) as [c E]. cbn. rewrite E, app_length.
      unfold inner_calls. rewrite map_length. lia.
    - intros k q E. pose proof (map_nth_error fst _ _ E) as G. rewrite pairs_fst, (skeys_seq H) in G.
      assert (L : k < length (seq 1 (length (keys (w_log s))))) by (apply nth_error_Some; congruence).
      rewrite seq_length in L. apply nth_error_nth with (d := 0) in G. rewrite seq_nth in G by exact L. rewrite <- G.
      assert (Hpos : forall p, In p (icalls h) -> 1 <= fst p).
      { intros [j n] Hin. apply (scallers H) in Hin. rewrite (skeys_seq H) in Hin. apply in_seq in Hin. cbn. lia. }
      clear -Hpos. induction (icalls h) as [|[j n] l IH]; [reflexivity|].
      assert (IH' := IH (fun p Hp => Hpos p (or_intror Hp))). pose proof (Hpos _ (or_introl eq_refl)) as L. cbn in L.
      destruct j as [|j]; [lia|]. cbn in IH' |- *. destruct (j =? k); cbn; rewrite IH'; reflexivity.
  Qed.
End P.

Section Ends.
  Context {O A : Type} (content : O -> list A * ending) (os : list O) (oe : ending).
  Hypothesis Hoe : forall x, oe <> Failed x.
  Notation script := (fun o => script_of (content o)).
  Notation outer := (trace os oe).
  Implicit Types (h : list (mlabel O A)) (s : sstate O A).

  Lemma sno_outer_error h s : sfollows script outer h s -> forall e, ~ In (LOuter (OnError e)) h.
  Proof.
    intros (_ & _ & [c F] & _) e Hl. apply in_outer in Hl.
    apply (outer_no_error os Hoe e). rewrite F. apply in_or_app. now left.
  Qed.

  Lemma vals_outer : vals outer = os.
  Proof. apply vals_trace. Qed.

  Lemma sarrived_prefix h s : sfollows script outer h s -> prefix (arrived h) os.
  Proof. intros (_ & _ & F & _). rewrite arrived_outer. rewrite <- vals_outer at 1. exact (prefix_flat_map _ F). Qed.

  Lemma sarrived_all h s : sfinished script outer h s -> arrived h = os.
  Proof. intros (F & _). rewrite arrived_outer, F. exact vals_outer. Qed.

  Lemma sfinite h s : sreach h s -> sfollows script outer h s ->
    length h <= 4 * (length outer + list_sum (map (fun o => length (script o)) os)).
  Proof.
    intros H F. pose proof (scalls_length H F) as L. pose proof F as (F1 & F2 & [c3 P3] & _).
    pose proof (swork_bound H F1) as W. destruct (proj1 (s_in_order H)) as [c1 P1]. destruct (sarrived_prefix F) as [c2 P2].
    assert (E : length h = length (outer_calls h) + length (icalls h) + works h).
    { clear -F1 F2. unfold works, outer_calls, icalls. induction h as [|l h IH]; [reflexivity|]. cbn. rewrite !app_length.
      assert (F1' : forall x, In x h -> x <> LCancel) by (intros x Hx; apply F1; now right).
      assert (F2' : never_fails h) by (intros e He; apply (F2 e); now right). specialize (IH F1' F2').
      destruct l as [n|k n| | |e]; cbn; try lia; [elim (F1 LCancel); [now left|reflexivity]|elim (F2 e); now left]. }
    rewrite E. rewrite P3 at 1. rewrite app_length. rewrite P2, P1 at 1. rewrite !map_app, !list_sum_app. lia.
  Qed.

  Lemma sgram h s : sfollows script outer h s -> grammatical (outer_calls h).
  Proof.
    intros (_ & _ & [c F] & _). revert F. generalize (outer_calls h) as l. intros l F.
    assert (X : forall (vs : list O) e l c, trace vs e = l ++ c -> exists vs' e', l = trace vs' e').
    { clear. intros vs e. induction vs as [|v vs IH]; intros l c E.
      - destruct l as [|n l]; [now exists [], Open|]. exists [], e. unfold trace in *. cbn in E |- *. destruct e; cbn in E; try discriminate; injection E as <- E; destruct l; try discriminate; reflexivity.
      - destruct l as [|n l]; [now exists [], Open|]. cbn in E. injection E as <- E. destruct (IH _ _ E) as (vs' & e' & ->). now exists (v :: vs'), e'. }
    exact (X _ _ _ _ F).
  Qed.

  Lemma sfirst_part h s : sfollows script outer h s -> forall l, In l h -> ~ In LCancel h.
  Proof. intros (F & _) l _ Hc. now apply (F _ Hc). Qed.
  Lemma sno_cancel h s : sfollows script outer h s -> ~ In LCancel h.
  Proof. intros (F & _) Hc. now apply (F _ Hc). Qed.

  Lemma ssubscribed h s : sreach h s -> sfollows script outer h s -> sfinished script outer h s -> subscribed (w_log s) = os.
  Proof.
    intros H (_ & F2 & _) D. destruct (s_in_order H) as [_ Ho]. destruct (Ho F2) as [Hd Hs].
    rewrite (sarrived_all D) in Hs. destruct D as (_ & _ & Hr).
    assert (swaiting s = []) as E; [|now rewrite E, app_nil_r in Hs].
    unfold sresting, swork, swaiting in *. destruct (w_phase s); try discriminate; [|congruence].
    destruct (w_box s); [reflexivity|discriminate].
  Qed.

  Lemma srests h s : sreach h s -> never_fails h -> sresting s -> w_phase s = SIdle /\ w_box s = [].
  Proof.
    intros H F2 Hr. destruct (s_in_order H) as [_ Ho]. destruct (Ho F2) as [Hd _].
    unfold sresting, swork in *. destruct (w_phase s); try discriminate; [|congruence].
    destruct (w_box s); [auto|discriminate].
  Qed.

  (** The last subscription is not disposed. *)
  Lemma slast h s : sreach h s -> sfollows script outer h s -> sfinished script outer h s -> os <> [] ->
    ~ In (length os) (disposed (w_log s)).
  Proof.
    intros H F D Hne. pose proof F as (_ & F2 & _). pose proof D as (_ & _ & Hr). destruct (srests H F2 Hr) as [Ep Eb].
    destruct (cinv H) as (p & Ep' & C). rewrite Eb, app_nil_r in Ep'.
    destruct C as (_ & _ & C & _); [rewrite <- Ep'; exact (no_cancel_msg h (sno_cancel F))|]. rewrite Ep in C.
    destruct (sreach_inv H) as [[(n & I1 & I2 & _) _ I3] _]. rewrite Ep in I3.
    destruct (w_cur s) as [k|] eqn:Ec.
    - destruct I3 as (-> & _ & I3). unfold last_id in I2. rewrite Ep in I2.
      replace (length os) with (w_id s); [exact I3|]. rewrite <- (ssubscribed H F D), subs_length, I1, seq_length. symmetry. apply I2. discriminate.
    - elim Hne. rewrite <- (sarrived_all D), <- sposts_inners, Ep'. now apply C.
  Qed.

  Lemma sheard_prefix h s k o : sfollows script outer h s -> In (ESub k o) (w_log s) -> prefix (heard k h) (fst (content o)).
  Proof.
    intros (_ & _ & _ & F) Ho. rewrite heard_vals. rewrite <- (vals_trace (fst (content o)) (snd (content o))). apply prefix_flat_map. exact (F k o Ho).
  Qed.
  Lemma sheard_all h k o : inner_calls k h = script o -> heard k h = fst (content o).
  Proof. intros E. rewrite heard_vals, E. apply vals_trace. Qed.

  Definition parts h (n : nat) : list (list A) := map (fun k => heard k h) (seq 1 n).

  Lemma parts_forall2 (R : list A -> O -> Prop) (f : nat -> list A) (l : list O) : forall j, (forall k o, nth_error l k = Some o -> R (f (j + k)) o) -> Forall2 R (map f (seq j (length l))) l.
  Proof.
    induction l as [|o l IH]; intros j H; [constructor|]. cbn. constructor.
    - specialize (H 0 o eq_refl). now rewrite Nat.add_0_r in H.
    - apply IH. intros k x E. specialize (H (S k) x E). now rewrite Nat.add_succ_r in H.
  Qed.

  Lemma parts_interleave h s : sreach h s -> interleaves (parts h (length (keys (w_log s)))) (map snd (sends h)).
  Proof.
    intros H. exists (map (fun p => (pred (fst p), snd p)) (sends h)).
    assert (Hpos : forall p, In p (sends h) -> 1 <= fst p <= length (keys (w_log s))).
    { intros [k a] Hin. pose proof (sends_begun H _ _ Hin) as Hk. rewrite (skeys_seq H) in Hk. apply in_seq in Hk. cbn. lia. }
    split; [rewrite map_map; reflexivity|]. split.
    - intros p Hp. apply in_map_iff in Hp as (q & <- & Hq). apply Hpos in Hq. unfold parts. rewrite map_length, seq_length. cbn. lia.
    - intros k vs E. unfold parts in E. rewrite nth_error_map in E. destruct (nth_error (seq 1 _) k) as [j|] eqn:Ej; [|discriminate]. injection E as <-.
      assert (L : k < length (seq 1 (length (keys (w_log s))))) by (apply nth_error_Some; congruence).
      rewrite seq_length in L. apply nth_error_nth with (d := 0) in Ej. rewrite seq_nth in Ej by exact L. subst j.
      unfold heard. assert (Hp : forall p, In p (sends h) -> 1 <= fst p) by (intros p Hp; apply Hpos in Hp; lia). clear -Hp.
      induction (sends h) as [|[j n] l IH]; [reflexivity|].
      assert (IH' := IH (fun p Hq => Hp p (or_intror Hq))). pose proof (Hp _ (or_introl eq_refl)) as L. cbn in L.
      destruct j as [|j]; [lia|]. cbn in IH' |- *. destruct (j =? k); cbn; now rewrite IH'.
  Qed.

  Lemma parts_concat h s : sreach h s -> silent_after_disposal h -> map snd (sends h) = concat (parts h (length (keys (w_log s)))).
  Proof.
    intros H Hq. rewrite (@by_keys _ (sends h) 1 (length (keys (w_log s)))) at 1.
    - unfold parts, heard. rewrite flat_map_concat_map, concat_map, map_map. reflexivity.
    - intros l1 x l2 y l3 E. pose proof (s_latest_only H Hq) as S. rewrite E in S. rewrite map_app in S. cbn in S. rewrite map_app in S. cbn in S. clear -S.
      induction l1 as [|z l1 IH]; cbn in S; [|apply IH; now inversion S]. inversion S as [|? ? _ F]; subst. rewrite Forall_forall in F. apply F, in_or_app. right. now left.
    - intros [k a] Hin. pose proof (sends_begun H _ _ Hin) as Hk. rewrite (skeys_seq H) in Hk. apply in_seq in Hk. cbn. lia.
  Qed.

  (** What is asked of the observer. *)
  Lemma produced_sends h : (forall e, ~ In (OnError e) (produced h)) -> produced h = map OnNext (map snd (sends h)).
  Proof.
    clear. induction h as [|l h IH]; intros H; [reflexivity|]. unfold produced, sends in *. cbn in H |- *. rewrite !map_app, <- IH by (intros e F; apply (H e), in_or_app; now right). f_equal.
    destruct l as [[o|e|]|k [a|e|]| | |e]; try reflexivity; elim (H e); now left.
  Qed.

  Lemma no_error_produced h s : sreach h s -> sfollows script outer h s -> (forall o x, In o os -> snd (content o) <> Failed x) ->
    forall e, ~ In (OnError e) (produced h).
  Proof.
    intros H F Hc e He. rewrite produced_calls in He by exact (sno_outer_error F). apply filter_In in He as [He _].
    apply in_map_iff in He as ([k n] & En & Hin). cbn in En. subst n. pose proof (scallers H _ _ Hin) as Hk. apply in_keys in Hk as [o Ho].
    pose proof F as (_ & _ & _ & F4). destruct (F4 k o Ho) as [c E]. apply in_inner in Hin.
    assert (X : In (OnError e) (script o)) by (rewrite E; apply in_or_app; now left).
    apply in_app_or in X as [X|X]; [apply in_map_iff in X as (? & ? & _); discriminate|].
    apply (Hc o e).
    - destruct (proj1 (s_in_order H)) as [c1 P1]. destruct (sarrived_prefix F) as [c2 P2]. rewrite P2, P1. apply in_or_app. left. apply in_or_app. left.
      rewrite <- pairs_snd. apply in_pairs in Ho. exact (in_map snd _ _ Ho).
    - destruct (snd (content o)); cbn in X; try contradiction; destruct X as [X|[]]; [now injection X as ->|discriminate].
  Qed.

  Lemma srequests h s : sreach h s -> sfollows script outer h s -> arrived h <> [] ->
    requests (w_log s) = produced h.
  Proof.
    intros H F Hne. rewrite <- (s_forwards H). symmetry. apply filter_eq_all.
    intros [a|e|] Hi; [reflexivity|reflexivity|]. exfalso. exact (s_never_completes H (sno_cancel F) (sgram F) Hne Hi).
  Qed.

  Lemma sends_arrived h s : sreach h s -> arrived h = [] -> icalls h = [].
  Proof.
    intros H Ha. destruct (icalls h) as [|[k n] l] eqn:E; [reflexivity|]. exfalso.
    assert (Hk : In k (keys (w_log s))) by (apply (scallers H) with n; rewrite E; now left).
    pose proof (subs_length (w_log s)) as L. destruct (proj1 (s_in_order H)) as [c P]. rewrite Ha in P. destruct (subscribed (w_log s)); [|discriminate].
    destruct (keys (w_log s)); [contradiction|discriminate].
  Qed.

  (** What the subscriber gets, when no inner fails. *)
  Lemma sgets h s : sreach h s -> sfollows script outer h s -> (forall o x, In o os -> snd (content o) <> Failed x) ->
    exists e, delivers (psys well_behaved (safe PEnd)) (requests (w_log s)) (trace (map snd (sends h)) e) /\
      (e = Open \/ (os = [] /\ e = Completed /\ oe = Completed)) /\ (sfinished script outer h s -> e = match os with [] => oe | _ => Open end).
  Proof.
    intros H F Hc. pose proof (no_error_produced H F Hc) as Hn.
    destruct (arrived h) as [|o l] eqn:Ea.
    - pose proof (sends_arrived H Ea) as Ei. assert (Es : sends h = []).
      { destruct (sends h) as [|[k a] l] eqn:E; [reflexivity|]. exfalso. assert (X : In (LInner k (OnNext a)) h).
        { assert (X : In (k, a) (sends h)) by (rewrite E; now left). unfold sends in X. apply in_flat_map in X as (y & Hy & X). destruct y as [[| |]|j [b| |]| | |]; cbn in X; try contradiction. destruct X as [[= -> ->]|[]]. exact Hy. }
        apply in_calls in X. rewrite Ei in X. exact X. }
      assert (Ep : produced h = []) by (rewrite produced_sends by exact Hn; now rewrite Es).
      pose proof (s_forwards H) as Fo. rewrite Ep in Fo. rewrite Es.
      destruct (requests (w_log s)) as [|n r] eqn:Er.
      + exists Open. split; [exact (@delivers_trace A [] [] Open eq_refl)|]. split; [now left|]. intros D.
        assert (Eo : os = []) by (now rewrite <- (sarrived_all D)). rewrite Eo. destruct (open_or_completed Hoe) as [E|E]; [now symmetry|]. exfalso.
        pose proof D as (D1 & _ & D3). assert (X : In OnCompleted (requests (w_log s))); [|now rewrite Er in X].
        apply (s_completes_if H Ea D3). apply in_outer. rewrite D1, E. apply in_or_app. right. now left.
      + cbn in Fo. destruct n as [a|e|]; try discriminate. exists Completed.
        assert (Hl : In (LOuter OnCompleted) h) by (apply (s_completes_only_if H (sno_cancel F)); rewrite Er; now left).
        assert (Ho : oe = Completed /\ os = []).
        { apply in_outer in Hl. pose proof F as (_ & _ & [c Fc] & _). rewrite arrived_outer in Ea.
          assert (E1 : oe = Completed).
          { destruct (open_or_completed Hoe) as [E|E]; [|exact E]. exfalso. assert (X : In OnCompleted outer) by (rewrite Fc; apply in_or_app; now left).
            rewrite E in X. unfold trace in X. rewrite app_nil_r in X. apply in_map_iff in X as (? & ? & _). discriminate. }
          split; [exact E1|]. apply in_split in Hl as (l1 & l2 & El). rewrite El in Fc.
          replace ((l1 ++ OnCompleted :: l2) ++ c) with (l1 ++ OnCompleted :: (l2 ++ c)) in Fc by (now rewrite <- app_assoc).
          pose proof (in_upto_last _ _ _ _ Fc eq_refl) as Z. assert (c = []) as -> by (destruct l2; [exact Z|discriminate]).
          rewrite <- (vals_trace os oe), Fc. change (l1 ++ OnCompleted :: l2 ++ []) with (l1 ++ OnCompleted :: (l2 ++ [])). rewrite app_nil_r, <- El. exact Ea. }
        destruct Ho as [-> ->]. split; [|split; [right; auto|reflexivity]].
        apply (delivers_iff (sane_psys _ _)), subscriber. reflexivity.
    - exists Open. assert (Hne : arrived h <> []) by (rewrite Ea; discriminate). split; [|split; [now left|]].
      + rewrite (srequests H F Hne), (produced_sends h Hn). unfold trace. rewrite app_nil_r. apply (@delivers_trace A _ (map snd (sends h)) Open). unfold trace. now rewrite app_nil_r.
      + intros D. rewrite (sarrived_all D) in Ea. now rewrite Ea.
  Qed.

  Lemma slast_whole h s os' o : sreach h s -> sfollows script outer h s -> sfinished script outer h s -> os = os' ++ [o] ->
    exists ps', parts h (length os) = ps' ++ [fst (content o)].
  Proof.
    intros H F D E. exists (parts h (length os')). unfold parts. rewrite E, app_length. cbn [length]. rewrite Nat.add_1_r, seq_S, map_app. f_equal. cbn [map].
    f_equal. apply sheard_all. pose proof D as (_ & D2 & _).
    assert (Ho : In (ESub (1 + length os') o) (w_log s)).
    { apply (@snth_sub _ _ h s (length os') o H). rewrite (ssubscribed H F D), E, nth_error_app2, Nat.sub_diag by lia. reflexivity. }
    apply (D2 _ _ Ho). replace (1 + length os') with (length os) by (rewrite E, app_length; cbn; lia).
    apply (slast H F D). rewrite E. now destruct os'.
  Qed.

  Lemma sparts (R : list A -> O -> Prop) h s : sreach h s -> (forall k o, In (ESub k o) (w_log s) -> R (heard k h) o) ->
    Forall2 R (parts h (length (keys (w_log s)))) (subscribed (w_log s)).
  Proof.
    intros H HR. rewrite <- subs_length. apply parts_forall2. intros k o E. apply HR. exact (snth_sub _ H E).
  Qed.
End Ends.

(** Checking that subscriptions fall silent, for the examples. *)
Fixpoint quiet_run {O A} (s : sstate O A) (d : list nat) (h : list (mlabel O A)) : bool :=
  match h with
  | [] => true
  | l :: r =>
      match l with LInner k _ => negb (existsb (Nat.eqb k) (disposed (w_log s))) && negb (existsb (Nat.eqb k) d) | _ => true end &&
      match sstep s l with Some s' => quiet_run s' (d ++ completions [l]) r | None => true end
  end.
Lemma srun_app O A (h1 h2 : list (mlabel O A)) : forall s, srun s (h1 ++ h2) = match srun s h1 with Some s' => srun s' h2 | None => None end.
Proof. induction h1 as [|l h IH]; intros s; cbn; [reflexivity|]. destruct (sstep s l); [apply IH|reflexivity]. Qed.
Lemma sreach_run O A (h : list (mlabel O A)) s : sreach h s -> srun s_init h = Some s.
Proof. induction 1 as [|h s l s' H IH Hs]; [reflexivity|]. rewrite srun_app, IH. cbn. now rewrite Hs. Qed.
Lemma quiet_run_app O A (h1 h2 : list (mlabel O A)) : forall s d s1, srun s h1 = Some s1 -> quiet_run s d (h1 ++ h2) = true -> quiet_run s1 (d ++ completions h1) h2 = true.
Proof.
  induction h1 as [|l h IH]; intros s d s1 E Q; cbn in *; [injection E as <-; now rewrite app_nil_r|].
  destruct (sstep s l) as [s'|]; [|discriminate]. apply andb_prop in Q as [_ Q]. apply (IH _ _ _ E) in Q.
  rewrite <- app_assoc in Q. unfold completions in Q |- *. cbn in Q |- *. rewrite app_nil_r in Q. exact Q.
Qed.
Lemma quiet_run_silent O A (h : list (mlabel O A)) : quiet_run s_init [] h = true -> silent_after_disposal h.
Proof.
  intros Q h1 k n h2 s1 -> H1. apply (@quiet_run_app _ _ h1 _ _ _ _ (sreach_run H1)) in Q. cbn in Q. apply andb_prop in Q as [Q _].
  apply andb_prop in Q as [Q1 Q2]. apply negb_true_iff in Q1, Q2.
  assert (X : forall l, existsb (Nat.eqb k) l = false -> ~ In k l).
  { intros l E Hl. enough (existsb (Nat.eqb k) l = true) by congruence. apply existsb_exists. exists k. split; [exact Hl|apply Nat.eqb_refl]. }
  split; now apply X.
Qed.
