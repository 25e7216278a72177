(** * Operators that work with time, as parts of programs: proofs. *)
From Verif Require Import Properties1 Ops3Proofs TimeProofs TimerProofs DebounceProofs Properties8 Programs PairProofs.
From Coq Require Import Sorting.Sorted.
From Verif Require Export TraceProofs.
Set Implicit Arguments.

(** ** Parts of lists *)
Lemma part_app A (a b a' b' : list A) : part_of a b -> part_of a' b' -> part_of (a ++ a') (b ++ b').
Proof. intros H H'. induction H; cbn; [exact H'|now apply part_keep|now apply part_drop]. Qed.
Lemma part_refl A (a : list A) : part_of a a.
Proof. induction a; [apply part_nil|now apply part_keep]. Qed.
Lemma part_none A (a : list A) : part_of [] a.
Proof. induction a; [apply part_nil|now apply part_drop]. Qed.
Lemma part_prefix A (a b : list A) : prefix a b -> part_of a b.
Proof. intros [q ->]. rewrite <- (app_nil_r a) at 1. apply part_app; [apply part_refl|apply part_none]. Qed.
Lemma part_trans A (b c : list A) : part_of b c -> forall a, part_of a b -> part_of a c.
Proof.
  induction 1 as [|x b c H IH|x b c H IH]; intros a K; [exact K| |].
  - inversion K; subst; [now apply part_keep, IH|now apply part_drop, IH].
  - now apply part_drop, IH.
Qed.
Lemma part_snoc A (xs : list A) x : forall vs, part_of vs (xs ++ [x]) -> (exists vs', vs = vs' ++ [x] /\ part_of vs' xs) \/ part_of vs xs.
Proof.
  induction xs as [|y xs IH]; cbn; intros vs H; inversion H as [|y' a b H'|y' a b H']; subst.
  - inversion H'; subst. left. exists []. split; [reflexivity|apply part_nil].
  - inversion H'; subst. right. apply part_nil.
  - destruct (IH _ H') as [(vs' & -> & K)|K]; [left|right]; [exists (y :: vs'); split; [reflexivity|]|]; now apply part_keep.
  - destruct (IH _ H') as [(vs' & -> & K)|K]; [left|right]; [exists vs'; split; [reflexivity|]|]; now apply part_drop.
Qed.
(** Elements picked by increasing places. *)
Lemma pick A (xs : list A) : forall k (rs : list (A * nat)), StronglySorted lt (map snd rs) ->
  (forall p, In p rs -> k <= snd p /\ nth_error xs (snd p - k) = Some (fst p)) -> part_of (map fst rs) xs.
Proof.
  induction xs as [|x xs IH]; intros k rs So H.
  - destruct rs as [|p rs]; [apply part_nil|]. destruct (H p (or_introl eq_refl)) as [_ E]. destruct (snd p - k); discriminate.
  - destruct rs as [|[v i] rs]; [apply part_none|]. cbn in So. inversion So as [|i' l S' F]; subst. rewrite Forall_forall in F.
    assert (Hr : forall p, In p rs -> i < snd p) by (intros p Hp; apply F, in_map, Hp).
    destruct (H (v, i) (or_introl eq_refl)) as [Hk E]. cbn in Hk, E. destruct (Nat.eq_dec i k) as [->|N].
    + rewrite Nat.sub_diag in E. injection E as ->. cbn. apply part_keep, (IH (S k)); [exact S'|].
      intros p Hp. specialize (Hr p Hp). destruct (H p (or_intror Hp)) as [_ E]. split; [lia|].
      replace (snd p - k) with (S (snd p - S k)) in E by lia. exact E.
    + apply part_drop, (IH (S k)); [exact So|].
      intros p Hp. assert (Hi : i <= snd p) by (destruct Hp as [<-|Hp]; [reflexivity|specialize (Hr p Hp); lia]).
      destruct (H p Hp) as [_ Ep]. split; [lia|]. replace (snd p - k) with (S (snd p - S k)) in Ep by lia. exact Ep.
Qed.

(** ** delay *)
Section Delay.
  Context {A : Type} (d : Z).
  Lemma delay_run (ms : list (notif A)) : exists h s, xreach d 0 h s /\ ~ In XCancel h /\ (forall x, ~ In (XRaise x) h) /\
    map fst (TimeSpec.arrivals 0 h) = ms /\ x_phase s = XIdle /\ x_box s = [] /\ x_cancelled s = false.
  Proof.
    induction ms as [|n ms (h & s & R & N & E & M & P & B & C)] using rev_ind.
    { exists [], (x_init 0). repeat split; auto; constructor. }
    assert (K : forall h2 s2, xrun d s (XArr n :: h2) = Some s2 -> (forall l, In l h2 -> (exists dt, l = XTick dt) \/ l = XWork \/ l = XReturn) ->
      x_phase s2 = XIdle -> x_box s2 = [] -> x_cancelled s2 = false ->
      exists h s, xreach d 0 h s /\ ~ In XCancel h /\ (forall x, ~ In (XRaise x) h) /\
      map fst (TimeSpec.arrivals 0 h) = ms ++ [n] /\ x_phase s = XIdle /\ x_box s = [] /\ x_cancelled s = false).
    { intros h2 s2 R2 L P2 B2 C2. exists (h ++ XArr n :: h2), s2. split; [exact (xrun_reach _ R R2)|].
      split; [rewrite in_app_iff; intros [F|[F|F]]; [tauto|discriminate|destruct (L _ F) as [[dt X]|[X|X]]; discriminate]|].
      split; [intros x; rewrite in_app_iff; intros [F|[F|F]]; [now apply (E x)|discriminate|destruct (L _ F) as [[dt X]|[X|X]]; discriminate]|].
      split; [|auto]. change (XArr n :: h2) with ([XArr n] ++ h2). rewrite app_assoc.
      assert (Z : forall g t, (forall l, In l h2 -> (exists dt, l = XTick dt) \/ l = XWork \/ l = XReturn) -> TimeSpec.arrivals t (g ++ h2) = TimeSpec.arrivals t g).
      { clear. induction h2 as [|l h2 IH]; intros g t L; [now rewrite app_nil_r|]. change (l :: h2) with ([l] ++ h2). rewrite app_assoc, IH by (intros; apply L; now right).
        rewrite arrivals_snoc. destruct (L l (or_introl eq_refl)) as [[dt ->]|[->| ->]]; now rewrite app_nil_r. }
      rewrite (Z _ _ L), arrivals_snoc, map_app, M. reflexivity. }
    destruct s as [now box ph can lg en]. cbn in P, B, C. subst.
    destruct (0 <? d)%Z eqn:Ed.
    - apply (K [XWork; XTick d; XWork; XReturn] (XState (now + d) [] XIdle false (lg ++ [(n, now + d)%Z]) (en ++ [(now + d)%Z]))); auto; [|cbn; intuition (subst; eauto)].
      cbn. rewrite Z.add_simpl_l, Ed. cbn. rewrite Z.leb_refl. reflexivity.
    - apply (K [XWork; XReturn] (XState now [] XIdle false (lg ++ [(n, now)]) (en ++ [now]))); auto; [|cbn; intuition (subst; eauto)].
      cbn. rewrite Z.add_simpl_l, Ed. reflexivity.
  Qed.
  Lemma delay_shifts (ms l : list (notif A)) : shifts (Delay d) ms l <-> l = ms.
  Proof.
    cbn. split.
    - intros (t0 & h & s & R & N & _ & M & P & W & L). now rewrite <- L, <- M, (x_all R N P W).
    - intros ->. destruct (delay_run ms) as (h & s & R & N & E & M & P & B & C). exists 0%Z, h, s.
      assert (W : xwork s = None) by (unfold xwork; now rewrite P, C, B). repeat (split; [assumption|]). now rewrite (x_all R N P W).
  Qed.
End Delay.

(** ** debounce *)
Section Deb.
  Context {A : Type} (d t0 : Z).
  Implicit Types h : list (dlabel A).
  Lemma reaction_value h : forall t v i, In (OnNext v, i) (reactions [] h) -> nth_error (map fst (darrivals t h)) i = Some (OnNext v).
  Proof.
    induction h as [|l h IH] using rev_ind; intros t v i H; [contradiction|]. rewrite (reactions_snoc h l [] t), in_app_iff in H.
    assert (G : nth_error (map fst (darrivals t h)) i = Some (OnNext v) -> nth_error (map fst (darrivals t (h ++ [l]))) i = Some (OnNext v)).
    { intros E. rewrite darrivals_snoc, map_app, nth_error_app1; [exact E|]. apply nth_error_Some. congruence. }
    destruct H as [H|H]; [now apply G, IH|]. apply G. cbn [app] in H. destruct l as [dt|n|j| |]; cbn in H; try contradiction.
    - destruct n; cbn in H; [contradiction|destruct H as [H|[]]; discriminate..].
    - destruct (nth_error (map fst (darrivals t h)) j) as [[w|x|]|] eqn:En; try contradiction; [|destruct H as [H|[]]; discriminate..].
      destruct (last_element _) as [k|]; [|contradiction]. destruct (k =? j)%nat; [|contradiction]. destruct H as [H|[]]. injection H as -> ->. exact En.
    - destruct H as [H|[]]; discriminate.
  Qed.
  (** While the source sends elements, only elements come. *)
  Lemma reactions_elements h : ~ In DCancel h -> forall xs, calls_in t0 h = map OnNext xs ->
    exists rs : list (A * nat), reactions [] h = map (fun p => (OnNext (fst p), snd p)) rs.
  Proof.
    induction h as [|l h IH] using rev_ind; intros N xs E; [now exists []|].
    assert (Nh : ~ In DCancel h) by (intros F; apply N, in_or_app; now left).
    rewrite calls_snoc in E. rewrite (reactions_snoc h l [] t0). change ([] ++ map fst (darrivals t0 h)) with (calls_in t0 h).
    assert (P : exists ys, calls_in t0 h = map OnNext ys).
    { exists (firstn (length (calls_in t0 h)) xs). rewrite <- firstn_map, <- E, firstn_app, firstn_all, Nat.sub_diag. cbn. now rewrite app_nil_r. }
    destruct P as (ys & Ey). destruct (IH Nh ys Ey) as (rs & ->).
    assert (Q : exists r2 : list (A * nat), reaction (calls_in t0 h) l = map (fun p => (OnNext (fst p), snd p)) r2).
    { destruct l as [dt|n|j| |]; try (now exists []).
      - assert (F : In n (map OnNext xs)) by (rewrite <- E; apply in_or_app; right; now left). apply in_map_iff in F as (y & <- & _). now exists [].
      - cbn. destruct (nth_error (calls_in t0 h) j) as [n|] eqn:En; [|now exists []]. rewrite Ey, nth_error_map in En.
        destruct (nth_error ys j); [|discriminate]. injection En as <-. destruct (last_element _) as [k|]; [|now exists []].
        destruct (k =? j)%nat; [|now exists []]. now exists [(a, j)].
      - exfalso. apply N, in_or_app. right. now left. }
    destruct Q as (r2 & ->). exists (rs ++ r2). now rewrite map_app.
  Qed.
  Lemma elements_sorted h s : dreach d t0 h s -> forall rs : list (A * nat), reactions [] h = map (fun p => (OnNext (fst p), snd p)) rs ->
    StronglySorted lt (map snd rs).
  Proof.
    intros R rs E. destruct (d_sorted R) as [S _]. rewrite E in S. unfold element_numbers in S.
    replace (flat_map _ _) with (map snd rs) in S; [exact S|]. clear. induction rs as [|p rs IH]; cbn; [reflexivity|now rewrite IH].
  Qed.
  Lemma elements_part h s xs : dreach d t0 h s -> ~ In DCancel h -> calls_in t0 h = map OnNext xs ->
    exists rs : list (A * nat), reactions [] h = map (fun p => (OnNext (fst p), snd p)) rs /\ StronglySorted lt (map snd rs) /\
      forall p, In p rs -> nth_error xs (snd p) = Some (fst p).
  Proof.
    intros R N E. destruct (reactions_elements h N xs E) as (rs & Er). exists rs. split; [exact Er|]. split; [exact (elements_sorted R rs Er)|].
    intros [v i] Hp. assert (H : In (OnNext v, i) (reactions [] h)) by (rewrite Er; apply in_map_iff; now exists (v, i)).
    apply (reaction_value h t0) in H. fold (calls_in t0 h) in H. rewrite E, nth_error_map in H. cbn. destruct (nth_error xs i); [|discriminate]. now injection H as ->.
  Qed.
  Lemma part_of_elements xs (rs : list (A * nat)) : StronglySorted lt (map snd rs) -> (forall p, In p rs -> nth_error xs (snd p) = Some (fst p)) ->
    part_of (map fst rs) xs.
  Proof. intros S H. apply (pick xs (k := 0) rs S). intros p Hp. split; [lia|]. rewrite Nat.sub_0_r. now apply H. Qed.

  (** A call whose timer is gone has been reacted to. *)
  Lemma timer_fired h s : dreach d t0 h s -> forall i, i < length (calls_in t0 h) ->
    (exists n u, In (n, i, u) (d_timers s)) \/ exists h1 h2, h = h1 ++ DTimer i :: h2 /\ i < length (calls_in t0 h1).
  Proof.
    induction 1 as [|h s l s' R IH Hs]; intros i Hi; [cbn in Hi; lia|]. rewrite calls_snoc, app_length in Hi.
    assert (G : (exists h1 h2, h = h1 ++ DTimer i :: h2 /\ i < length (calls_in t0 h1)) -> exists h1 h2, h ++ [l] = h1 ++ DTimer i :: h2 /\ i < length (calls_in t0 h1)).
    { intros (h1 & h2 & -> & L). exists h1, (h2 ++ [l]). split; [now rewrite <- app_assoc|exact L]. }
    destruct l as [dt|n|j| |]; cbn in Hs, Hi.
    - destruct (0 <? dt)%Z; [|discriminate]. injection Hs as <-. cbn. destruct (IH i ltac:(lia)) as [L|L]; auto.
    - injection Hs as <-. cbn. destruct (Nat.lt_ge_cases i (length (calls_in t0 h))) as [L|L].
      + destruct (IH i L) as [(m & u & F)|F]; [left; exists m, u; apply in_or_app; now left|right; now apply G].
      + left. exists n, (d_now s + Z.max 0 d)%Z. apply in_or_app. right. left. f_equal. f_equal. rewrite (di_next (di_reach R)), <- calls_len. lia.
    - destruct (dtimer j s) as [[n u]|] eqn:Et; [|discriminate]. destruct (u <=? d_now s)%Z; [|discriminate]. injection Hs as <-. cbn.
      destruct (Nat.eq_dec i j) as [->|Nj].
      + right. exists h, []. split; [reflexivity|lia].
      + destruct (IH i ltac:(lia)) as [(m & w & F)|F]; [left; exists m, w; apply drop_in; auto|right; now apply G].
    - unfold dwork in Hs. destruct (d_box s) as [|m r]; [discriminate|]. destruct (dmsg (d_cur s) m) as [o c]. injection Hs as <-. cbn.
      destruct (IH i ltac:(lia)) as [L|L]; auto.
    - injection Hs as <-. cbn. destruct (IH i ltac:(lia)) as [L|L]; auto.
  Qed.
  Lemma last_elements (xs : list A) x : last_element (map OnNext (xs ++ [x])) = Some (length xs).
  Proof. rewrite map_app. cbn. now rewrite last_snoc, map_length. Qed.
  Lemma last_fires h s xs x : dreach d t0 h s -> calls_in t0 h = map OnNext (xs ++ [x]) -> d_timers s = [] ->
    In (OnNext x, length xs) (reactions [] h).
  Proof.
    intros R E T. assert (L : length xs < length (calls_in t0 h)) by (rewrite E, map_length, app_length; cbn; lia).
    destruct (timer_fired R L) as [(n & u & F)|(h1 & h2 & Eh & L1)]; [rewrite T in F; contradiction|]. subst h.
    change (DTimer (length xs) :: h2) with ([@DTimer A (length xs)] ++ h2) in *. rewrite app_assoc in *.
    destruct (reactions_app (h1 ++ [DTimer (length xs)]) h2 []) as (p & ->). apply in_or_app. left.
    rewrite (reactions_snoc h1 _ [] t0). apply in_or_app. right. cbn [app reaction]. fold (calls_in t0 h1).
    assert (Q : calls_in t0 h1 = map OnNext (xs ++ [x])).
    { assert (P : prefix (calls_in t0 h1) (calls_in t0 ((h1 ++ [DTimer (length xs)]) ++ h2))).
      { rewrite <- app_assoc. generalize ([@DTimer A (length xs)] ++ h2). intros g. revert g. induction g as [|l g IH] using rev_ind; [rewrite app_nil_r; exists []; now rewrite app_nil_r|].
        destruct IH as [q IH]. rewrite app_assoc, calls_snoc, IH. eexists. rewrite <- app_assoc. reflexivity. }
      destruct P as [q P]. rewrite E in P. assert (q = []); [|subst q; now rewrite app_nil_r in P].
      apply (f_equal (@length _)) in P. rewrite app_length, map_length, app_length in P. cbn in P. destruct q; [reflexivity|cbn in P; lia]. }
    rewrite Q, nth_error_map, nth_error_app2, Nat.sub_diag, last_elements, Nat.eqb_refl by lia. cbn. now left.
  Qed.
  Lemma upto_elements (xs : list A) q : upto_terminal (map OnNext xs ++ q) = map OnNext xs ++ upto_terminal q.
  Proof. induction xs; cbn; [reflexivity|now f_equal]. Qed.
  Lemma darrivals_split h : forall t a n b, map fst (darrivals t h) = a ++ n :: b -> exists h1 h2, h = h1 ++ DArr n :: h2 /\ map fst (darrivals t h1) = a.
  Proof.
    induction h as [|l h IH]; intros t a n b E; [destruct a; discriminate|]. 
    destruct l as [dt|m|i| |]; cbn in E; [| destruct a as [|m' a]; [injection E as -> E; now exists [], h|cbn in E; injection E as <- E] | | |];
      (destruct (IH _ _ _ _ E) as (h1 & h2 & -> & M)); [exists (DTick dt :: h1)|exists (DArr m :: h1)|exists (DTimer i :: h1)|exists (DWork :: h1)|exists (DCancel :: h1)]; exists h2;
      cbn; rewrite M; split; reflexivity.
  Qed.

  Lemma debounce_sound xs e h s : dreach d t0 h s -> ~ In DCancel h -> calls_in t0 h = trace xs e -> d_timers s = [] ->
    exists vs, shifted (Debounce d) xs e vs /\ upto_terminal (map fst (reactions [] h)) = trace vs e.
  Proof.
    intros R N E T.
    assert (F : forall m, is_terminal m = true -> calls_in t0 h = map OnNext xs ++ [m] ->
      exists vs, part_of vs xs /\ upto_terminal (map fst (reactions [] h)) = map OnNext vs ++ [m]).
    { intros m Hm Em. destruct (darrivals_split h t0 _ _ _ Em) as (h1 & h2 & -> & M1).
      rewrite (d_after_terminal h1 h2 m Hm), (reactions_snoc h1 (DArr m) [] t0), map_app.
      destruct (dreach_prefix (DArr m :: h2) h1 R) as (s1 & R1).
      destruct (@elements_part h1 s1 xs R1) as (rs & Er & S & P); [intros G; apply N, in_or_app; now left|exact M1|].
      exists (map fst rs). split; [now apply part_of_elements|]. rewrite Er, map_map. cbn [fst].
      replace (map (fun p : A * nat => OnNext (fst p)) rs) with (map OnNext (map fst rs)) by now rewrite map_map.
      rewrite upto_elements. f_equal. cbn. destruct m; [discriminate|reflexivity..]. }
    destruct e as [|x|]; cbn [shifted].
    - unfold trace in E. rewrite app_nil_r in E. destruct (@elements_part h s xs R N E) as (rs & Er & S & P).
      exists (map fst rs). split.
      + destruct xs as [|y ys] using rev_ind; [left|clear IHys; right].
        * destruct rs as [|p rs]; [auto|]. specialize (P p (or_introl eq_refl)). destruct (snd p); discriminate.
        * pose proof (@last_fires h s ys y R E T) as L. rewrite Er in L. apply in_map_iff in L as ([v i] & Ei & L). cbn in Ei. injection Ei as -> ->.
          destruct rs as [|q rs] using rev_ind; [contradiction|clear IHrs].
          assert (Eq : q = (y, length ys)).
          { apply in_app_iff in L as [L|[L|[]]]; [|now rewrite L]. exfalso. rewrite map_app in S.
            assert (H : snd q < length (ys ++ [y])). { apply nth_error_Some. rewrite (P q); [discriminate|]. apply in_or_app. right. now left. }
            rewrite app_length in H. cbn in H.
            assert (K : length ys < snd q). { clear -S L. induction rs as [|p rs IH]; [contradiction|]. cbn in S. inversion S as [|? ? S' F]; subst. destruct L as [->|L]; [|now apply IH].
              rewrite Forall_forall in F. apply F. apply in_or_app. right. now left. }
            lia. }
          subst q. exists ys, (map fst rs), y. split; [reflexivity|]. split; [now rewrite map_app|].
          rewrite map_app in S. apply part_of_elements; [eapply sorted_app_l; exact S|].
          intros p Hp. assert (K : snd p < length ys). { clear -S Hp. induction rs as [|q rs IH]; [contradiction|]. cbn in S. inversion S as [|? ? S' F]; subst.
            destruct Hp as [->|Hp]; [|now apply IH]. rewrite Forall_forall in F. apply F. apply in_or_app. right. now left. }
          rewrite <- (P p) by (apply in_or_app; now left). symmetry. now apply nth_error_app1.
      + rewrite Er, map_map. cbn. replace (map (fun p : A * nat => OnNext (fst p)) rs) with (map OnNext (map fst rs)) by now rewrite map_map.
        unfold trace. rewrite <- (app_nil_r (map OnNext (map fst rs))) at 1. now rewrite upto_elements.
    - destruct (F (OnError x) eq_refl E) as (vs & P & U). now exists vs.
    - destruct (F OnCompleted eq_refl E) as (vs & P & U). now exists vs.
  Qed.

  (** ... and back: schedules for all the outcomes. *)
  Definition quiet_label (l : dlabel A) : Prop := (exists dt, l = DTick dt) \/ (exists i, l = DTimer i) \/ l = DWork.
  Lemma calls_quiet h h2 : (forall l, In l h2 -> quiet_label l) -> calls_in t0 (h ++ h2) = calls_in t0 h.
  Proof.
    induction h2 as [|l h2 IH] using rev_ind; intros Q; [now rewrite app_nil_r|]. rewrite app_assoc, calls_snoc, IH by (intros; apply Q, in_or_app; now left).
    destruct (Q l) as [[dt ->]|[[i ->]| ->]]; [apply in_or_app; right; now left|now rewrite app_nil_r..].
  Qed.
  Lemma drain h s : dreach d t0 h s -> exists h2 s', dreach d t0 (h ++ h2) s' /\ d_box s' = [] /\ d_timers s' = d_timers s /\ d_now s' = d_now s /\ (forall l, In l h2 -> l = DWork).
  Proof.
    intros R. remember (length (d_box s)) as n eqn:En. revert h s R En. induction n as [|n IH]; intros h s R En.
    - exists [], s. rewrite app_nil_r. destruct (d_box s); [|discriminate]. repeat split; auto; contradiction.
    - destruct (d_box s) as [|m r] eqn:Eb; [discriminate|]. injection En as En.
      assert (S : exists s1, dstep d s DWork = Some s1 /\ d_box s1 = r /\ d_timers s1 = d_timers s /\ d_now s1 = d_now s).
      { cbn. unfold dwork. rewrite Eb. destruct (dmsg (d_cur s) m). eexists. split; [reflexivity|]. auto. }
      destruct S as (s1 & S & B & T & W). destruct (IH (h ++ [DWork]) s1 (dr_snoc DWork R S)) as (h2 & s2 & R2 & B2 & T2 & W2 & Q); [now rewrite B|].
      exists (DWork :: h2), s2. rewrite <- app_assoc in R2. split; [exact R2|]. split; [exact B2|]. split; [now rewrite T2|]. split; [now rewrite W2|].
      intros l [<-|H]; auto.
  Qed.
  Lemma flush h s : dreach d t0 h s -> exists h2 s', dreach d t0 (h ++ h2) s' /\ d_box s' = [] /\ d_timers s' = [] /\ (forall l, In l h2 -> quiet_label l).
  Proof.
    intros R. remember (length (d_timers s)) as n eqn:En. revert h s R En. induction n as [n IH] using lt_wf_ind. intros h s R En.
    destruct (d_timers s) as [|[[m i] u] r] eqn:Et.
    - destruct (drain R) as (h2 & s2 & R2 & B2 & T2 & _ & Q). exists h2, s2. rewrite Et in T2. repeat split; auto. intros l Hl. right. right. auto.
    - set (dt := (1 + Z.max 0 (u - d_now s))%Z).
      assert (S : exists s1, drun d s [DTick dt; DTimer i] = Some s1 /\ length (d_timers s1) < length (d_timers s)).
      { exists (DState (d_now s + dt) (d_box s ++ [(m, i)]) (d_cur s) (d_next s) (drop_timer i (d_timers s)) (d_log s)). split.
        - cbn [drun dstep]. replace (0 <? dt)%Z with true by (symmetry; apply Z.ltb_lt; unfold dt; lia). cbn [dstep]. unfold dtimer. cbn [d_timers d_now d_box d_cur d_next d_log].
          rewrite Et. cbn [find fst snd]. rewrite Nat.eqb_refl. now replace (u <=? d_now s + dt)%Z with true by (symmetry; apply Z.leb_le; unfold dt; lia).
        - cbn [d_timers]. rewrite Et. unfold drop_timer. cbn [filter fst snd length]. rewrite Nat.eqb_refl. cbn [negb].
          clear. induction r as [|x r IH]; cbn [filter length]; [lia|]. destruct (negb _); cbn [length]; lia. }
      destruct S as (s1 & S & L). pose proof (drun_reach _ R S) as R1. rewrite Et in L. destruct (IH (length (d_timers s1)) ltac:(rewrite En; exact L) _ _ R1 eq_refl) as (h2 & s2 & R2 & B2 & T2 & Q).
      exists ([DTick dt; DTimer i] ++ h2), s2. rewrite app_assoc. repeat split; auto.
      intros l H. apply in_app_iff in H as [[<-|[<-|[]]]|H]; [left; eauto|right; left; eauto|now apply Q].
  Qed.
  Lemma fire h s n : dreach d t0 h s -> d_box s = [] -> exists h2 s', dreach d t0 (h ++ DArr n :: h2) s' /\ d_box s' = [] /\ (forall l, In l h2 -> quiet_label l) /\
    reactions [] (h ++ DArr n :: h2) = reactions [] h ++ reaction (calls_in t0 h) (DArr n) ++ reaction (calls_in t0 h ++ [n]) (DTimer (length (calls_in t0 h))).
  Proof.
    intros R B. set (i := length (calls_in t0 h)). set (dt := (1 + Z.max 0 d)%Z).
    assert (S : exists s1, drun d s [DArr n; DTick dt; DTimer i] = Some s1).
    { cbn [drun dstep]. replace (0 <? dt)%Z with true by (symmetry; apply Z.ltb_lt; unfold dt; lia). cbn [dstep]. unfold dtimer. cbn [d_timers d_now d_box d_cur d_next d_log].
      assert (Ei : d_next s = i) by (unfold i; rewrite calls_len; exact (di_next (di_reach R))). rewrite Ei.
      assert (F : find (fun x : notif A * nat * Z => (snd (fst x) =? i)%nat) (d_timers s ++ [(n, i, (d_now s + Z.max 0 d)%Z)]) = Some (n, i, (d_now s + Z.max 0 d)%Z)).
      { pose proof (di_timers (di_reach R)) as D. assert (D' : forall x, In x (d_timers s) -> snd (fst x) <> i).
        { intros [[m j] u] Hx. cbn. intros ->. apply D in Hx. assert (L : i < length (darrivals t0 h)) by (apply nth_error_Some; congruence). unfold i in L. rewrite calls_len in L. lia. }
        clear -D'. induction (d_timers s) as [|x l IH]; cbn [find app fst snd]; [now rewrite Nat.eqb_refl|]. destruct (Nat.eqb_spec (snd (fst x)) i) as [F|_]; [now elim (D' x (or_introl eq_refl))|].
        apply IH. intros y Hy. apply D'. now right. }
      rewrite F. replace (d_now s + Z.max 0 d <=? d_now s + dt)%Z with true by (symmetry; apply Z.leb_le; unfold dt; lia). eauto. }
    destruct S as (s1 & S). pose proof (drun_reach _ R S) as R1. destruct (drain R1) as (h2 & s2 & R2 & B2 & _ & _ & Q).
    exists ([DTick dt; DTimer i] ++ h2), s2. rewrite <- app_assoc in R2. split; [exact R2|]. split; [exact B2|]. split.
    { intros l H. apply in_app_iff in H as [[<-|[<-|[]]]|H]; [left; eauto|right; left; eauto|right; right; now apply Q]. }
    replace (h ++ DArr n :: [DTick dt; DTimer i] ++ h2) with ((((h ++ [DArr n]) ++ [DTick dt]) ++ [DTimer i]) ++ h2) by (rewrite <- !app_assoc; reflexivity).
    assert (Z : forall g, reactions [] (g ++ h2) = reactions [] g).
    { clear -Q t0. induction h2 as [|l h2 IH]; intros g; [now rewrite app_nil_r|]. change (l :: h2) with ([l] ++ h2). rewrite app_assoc, IH by (intros; apply Q; now right).
      rewrite (reactions_snoc g l [] t0), (Q l (or_introl eq_refl)). cbn. now rewrite app_nil_r. }
    rewrite Z, !(reactions_snoc _ _ [] t0). fold (calls_in t0 h) (calls_in t0 (h ++ [DArr n])) (calls_in t0 ((h ++ [DArr n]) ++ [DTick dt])).
    rewrite !calls_snoc, app_nil_r. cbn [app]. change (reaction (calls_in t0 h ++ [n]) (DTick dt)) with (@nil (notif A * nat)). rewrite app_nil_r, <- app_assoc. reflexivity.
  Qed.
  Lemma post h s n : dreach d t0 h s -> d_box s = [] -> exists h2 s', dreach d t0 (h ++ DArr n :: h2) s' /\ d_box s' = [] /\ (forall l, In l h2 -> quiet_label l) /\
    reactions [] (h ++ DArr n :: h2) = reactions [] h ++ reaction (calls_in t0 h) (DArr n).
  Proof.
    intros R B. destruct (drain (dr_snoc (DArr n) R eq_refl)) as (h2 & s2 & R2 & B2 & _ & _ & Q). rewrite <- app_assoc in R2. cbn in R2.
    exists h2, s2. split; [exact R2|]. split; [exact B2|]. split; [intros l Hl; right; right; now apply Q|].
    change (DArr n :: h2) with ([DArr n] ++ h2). rewrite app_assoc.
    assert (Z : forall g, reactions [] (g ++ h2) = reactions [] g).
    { clear -Q t0. induction h2 as [|l h2 IH]; intros g; [now rewrite app_nil_r|]. change (l :: h2) with ([l] ++ h2). rewrite app_assoc, IH by (intros; apply Q; now right).
      rewrite (reactions_snoc g l [] t0), (Q l (or_introl eq_refl)). cbn. now rewrite app_nil_r. }
    rewrite Z, (reactions_snoc h _ [] t0). reflexivity.
  Qed.
  Lemma not_cancelled h n h2 : ~ In DCancel h -> (forall l, In l h2 -> quiet_label l) -> ~ In DCancel (h ++ DArr n :: h2).
  Proof. intros N Q. rewrite in_app_iff. intros [F|[F|F]]; [tauto|discriminate|]. destruct (Q _ F) as [[dt F']|[[i F']|F']]; discriminate. Qed.
  Lemma calls_more h n h2 : (forall l, In l h2 -> quiet_label l) -> calls_in t0 (h ++ DArr n :: h2) = calls_in t0 h ++ [n].
  Proof. intros Q. change (DArr n :: h2) with ([DArr n] ++ h2). now rewrite app_assoc, calls_quiet, calls_snoc. Qed.
  Lemma keep_one ys x us h s : dreach d t0 h s -> ~ In DCancel h -> d_box s = [] -> calls_in t0 h = map OnNext ys -> map fst (reactions [] h) = map OnNext us ->
    exists h s, dreach d t0 h s /\ ~ In DCancel h /\ d_box s = [] /\ calls_in t0 h = map OnNext (ys ++ [x]) /\ map fst (reactions [] h) = map OnNext (us ++ [x]) /\
      In (OnNext x, length ys) (reactions [] h).
  Proof.
    intros R N B C M. destruct (fire (OnNext x) R B) as (h2 & s2 & R2 & B2 & Q & E). exists (h ++ DArr (OnNext x) :: h2), s2.
    split; [exact R2|]. split; [now apply not_cancelled|]. split; [exact B2|]. split; [rewrite calls_more, C, map_app by exact Q; reflexivity|].
    assert (Er : reaction (calls_in t0 h ++ [OnNext x]) (DTimer (length (calls_in t0 h))) = [(OnNext x, length ys)]).
    { cbn. rewrite C. replace (map OnNext ys ++ [OnNext x]) with (map OnNext (ys ++ [x])) by now rewrite map_app.
      rewrite map_length, nth_error_map, nth_error_app2, Nat.sub_diag, last_elements, Nat.eqb_refl by lia. reflexivity. }
    rewrite E, Er. cbn. split; [now rewrite map_app, M, map_app|]. apply in_or_app. right. now left.
  Qed.
  Lemma debounce_elements (xs : list A) : forall vs, part_of vs xs -> exists h s, dreach d t0 h s /\ ~ In DCancel h /\ d_box s = [] /\
    calls_in t0 h = map OnNext xs /\ map fst (reactions [] h) = map OnNext vs.
  Proof.
    induction xs as [|x xs IH] using rev_ind; intros vs P.
    { inversion P; subst. exists [], (d_init t0). split; [constructor|]. repeat split; auto. }
    destruct (part_snoc _ _ P) as [(us & -> & Pu)|Pv].
    - destruct (IH us Pu) as (h & s & R & N & B & C & M). destruct (@keep_one xs x us h s R N B C M) as (h' & s' & R' & N' & B' & C' & M' & _). now exists h', s'.
    - destruct (IH vs Pv) as (h & s & R & N & B & C & M). destruct (post (OnNext x) R B) as (h2 & s2 & R2 & B2 & Q & E). exists (h ++ DArr (OnNext x) :: h2), s2.
      split; [exact R2|]. split; [now apply not_cancelled|]. split; [exact B2|]. split; [rewrite calls_more, C, map_app by exact Q; reflexivity|].
      rewrite E. cbn. now rewrite app_nil_r.
  Qed.
  Lemma debounce_complete xs e vs : shifted (Debounce d) xs e vs -> exists h s, dreach d t0 h s /\ ~ In DCancel h /\ calls_in t0 h = trace xs e /\ d_box s = [] /\ d_timers s = [] /\
    upto_terminal (map fst (reactions [] h)) = trace vs e.
  Proof.
    assert (F : forall m, is_terminal m = true -> part_of vs xs -> exists h s, dreach d t0 h s /\ ~ In DCancel h /\ calls_in t0 h = map OnNext xs ++ [m] /\ d_box s = [] /\ d_timers s = [] /\
      upto_terminal (map fst (reactions [] h)) = map OnNext vs ++ [m]).
    { intros m Hm P. destruct (debounce_elements P) as (h & s & R & N & B & C & M). destruct (flush (dr_snoc (DArr m) R eq_refl)) as (h2 & s2 & R2 & B2 & T2 & Q).
      rewrite <- app_assoc in R2. cbn in R2. exists (h ++ DArr m :: h2), s2. split; [exact R2|]. split; [now apply not_cancelled|]. split; [now rewrite calls_more, C|].
      split; [exact B2|]. split; [exact T2|]. rewrite (d_after_terminal h h2 m Hm), (reactions_snoc h _ [] t0), map_app, M, upto_elements. f_equal.
      cbn. destruct m; [discriminate|reflexivity..]. }
    destruct e as [|x|]; cbn [shifted]; intros H; [|exact (F (OnError x) eq_refl H)|exact (F OnCompleted eq_refl H)].
    destruct H as [[-> ->]|(ys & us & x & -> & -> & P)].
    - exists [], (d_init t0). split; [constructor|]. repeat split; auto.
    - destruct (debounce_elements P) as (h0 & s0 & R0 & N0 & B0 & C0 & M0). destruct (@keep_one ys x us h0 s0 R0 N0 B0 C0 M0) as (h & s & R & N & B & C & M & I).
      destruct (flush R) as (h2 & s2 & R2 & B2 & T2 & Q). assert (C2 : calls_in t0 (h ++ h2) = map OnNext (ys ++ [x])) by now rewrite calls_quiet.
      assert (N2 : ~ In DCancel (h ++ h2)) by (rewrite in_app_iff; intros [G|G]; [tauto|destruct (Q _ G) as [[dt F']|[[i F']|F']]; discriminate]).
      exists (h ++ h2), s2. split; [exact R2|]. split; [exact N2|]. split; [unfold trace; now rewrite app_nil_r|]. split; [exact B2|]. split; [exact T2|].
      destruct (@elements_part _ _ _ R2 N2 C2) as (rs & Er & S & V). destruct (reactions_app h h2 []) as (past & Ea). rewrite Ea in Er |- *.
      assert (Z : reactions past h2 = []).
      { destruct (@elements_part _ _ _ R N C) as (r1 & Er1 & _ & _). assert (Es : exists r2, rs = r1 ++ r2 /\ reactions past h2 = map (fun p => (OnNext (fst p), snd p)) r2).
        { rewrite Er1 in Er. clear -Er. revert rs Er. induction r1 as [|p r1 IH]; intros rs Er; [now exists rs|]. destruct rs as [|q rs]; [discriminate|]. cbn in Er. injection Er as E1 E2 Er.
          destruct (IH rs Er) as (r2 & -> & E). exists r2. split; [|exact E]. cbn. f_equal. destruct p, q; cbn in *; congruence. }
        destruct Es as (r2 & -> & ->). destruct r2 as [|q r2]; [reflexivity|exfalso].
        rewrite Er1 in I. apply in_map_iff in I as (p & Ep & I). injection Ep as E1 E2.
        assert (L : snd p < snd q).
        { rewrite map_app in S. clear -S I. induction r1 as [|p' r1 IH]; [contradiction|]. cbn in S. inversion S as [|? ? S' F]; subst. destruct I as [->|I]; [|now apply IH].
          rewrite Forall_forall in F. apply F. apply in_or_app. right. now left. }
        specialize (V q (in_or_app r1 (q :: r2) q (or_intror (or_introl eq_refl)))). assert (L2 : snd q < length (ys ++ [x])) by (apply nth_error_Some; congruence).
        rewrite app_length in L2. cbn in L2. lia. }
      rewrite Z, app_nil_r, M. unfold trace. rewrite <- (app_nil_r (map OnNext (us ++ [x]))) at 1. now rewrite upto_elements.
  Qed.
End Deb.
Lemma debounce_shifts A d (xs : list A) e l : shifts (Debounce d) (trace xs e) l <-> exists vs, shifted (Debounce d) xs e vs /\ l = trace vs e.
Proof.
  split.
  - intros (t0 & h & s & R & N & C & B & T & D). destruct (@debounce_sound A d t0 xs e h s R N C T) as (vs & S & U). exists vs. split; [exact S|].
    rewrite <- U. exact (eq_sym (delivers_det D (C36_delivered R B))).
  - intros (vs & S & ->). destruct (@debounce_complete A d 0%Z xs e vs S) as (h & s & R & N & C & B & T & U). exists 0%Z, h, s. repeat (split; [assumption|]).
    rewrite <- U. apply (C36_delivered R B).
Qed.

(** ** sample *)
Lemma ticks_seq sec per k l : per <> 0%Z -> interval_calls sec per l -> k = length l -> l = trace (seq 0 k) Open.
Proof.
  intros Hd (t0 & h & s & R & _ & _ & <-) ->. unfold trace. rewrite app_nil_r. apply nth_ext with (d := OnCompleted) (d' := OnCompleted); [now rewrite !map_length, seq_length|].
  intros i Hi. rewrite map_length in Hi. apply nth_error_Some in Hi. destruct (nth_error (v_log s) i) as [[n u]|] eqn:E; [|contradiction].
  destruct (iv_elements R Hd _ E) as [-> _].
  assert (L : i < length (v_log s)) by (apply nth_error_Some; congruence).
  rewrite (nth_error_nth (map fst (v_log s)) i OnCompleted (x := OnNext i)) by (rewrite nth_error_map, E; reflexivity).
  rewrite map_length, (nth_error_nth (map OnNext (seq 0 (length (v_log s)))) i OnCompleted (x := OnNext i)); [reflexivity|].
  rewrite nth_error_map, (nth_error_nth' _ 0) by now rewrite seq_length. now rewrite seq_nth.
Qed.
Lemma ticks_open d k l : (0 < d)%Z -> interval_calls d d l -> k = length l -> l = trace (seq 0 k) Open.
Proof. intros Hd. apply ticks_seq. lia. Qed.
Lemma after_tick_lefts A (arr : Spec.arrivals A nat) : exists us, lefts arr = us ++ after_tick arr.
Proof. induction arr as [|[a|b] arr (us & E)]; [now exists []| |now exists []]. exists (a :: us). cbn. unfold lefts in *. cbn. now rewrite <- E. Qed.
Lemma sample_shifts A d (xs : list A) e l : shifts (Sample d) (trace xs e) l <-> exists vs, shifted (Sample d) xs e vs /\ l = trace vs e.
Proof.
  cbn. destruct (0 <? d)%Z eqn:Ed.
  2:{ split; [intros ->; now exists xs|intros (vs & -> & ->); reflexivity]. }
  apply Z.ltb_lt in Ed. split.
  - intros (ns & Hx & Hy & D). apply (ticks_open (k := length (oths ns)) Ed) in Hy; [|reflexivity].
    destruct (two_sources_any ns) as (arr & t & junk & Ht & En). rewrite En in Hx, Hy, D. rewrite (delivers_det (@C38_sample A arr t junk Ht) D).
    pose proof (first_end_of xs e _ _ arr junk Ht Hx Hy) as (_ & _ & F). destruct (after_tick_lefts arr) as (us & E).
    assert (G : lefts arr = xs /\ ending_of t = e) by (destruct (ending_of t); intuition congruence). destruct G as [<- <-].
    exists (after_tick arr). split; [now exists us|reflexivity].
  - intros (vs & (us & ->) & ->). set (arr := map inl us ++ inr 0 :: map inl vs : Spec.arrivals A nat).
    assert (El : lefts arr = us ++ vs). { unfold arr. rewrite lefts_app, lefts_inl. f_equal. exact (lefts_inl nat vs). }
    assert (Er : rights arr = [0]).
    { unfold arr, rights. rewrite map_app. cbn. rewrite !map_map. assert (N : forall (zs : list A) q, somes (map (fun _ => None) zs ++ q) = @somes nat q) by (intros zs q; induction zs; auto).
      rewrite N. cbn. f_equal. rewrite <- (app_nil_r (map _ vs)). apply N. }
    assert (F : first_end (us ++ vs) e [0] Open arr e).
    { split; [exists []; now rewrite El, app_nil_r|]. split; [exists []; now rewrite Er|]. destruct e; auto. }
    destruct (first_end_by F) as (t & junk & Ht & <- & Hx & Hy). exists (two_sources arr t junk). split; [exact Hx|]. split.
    + rewrite Hy. exists 0%Z, [XWork; XTick d; XWork]. eexists. split; [apply ivrun_init; cbn|split; [|split]].
      * replace (0 <? d)%Z with true by (symmetry; now apply Z.ltb_lt). cbn. replace (Z.max 0 d <=? d)%Z with true by (symmetry; apply Z.leb_le; lia). reflexivity.
      * cbn. intuition discriminate.
      * intros x. cbn. intuition discriminate.
      * reflexivity.
    + assert (Ea : after_tick arr = vs). { unfold arr. clear. induction us as [|u us IH]; cbn; [apply lefts_inl|exact IH]. }
      pose proof (@C38_sample A arr t junk Ht) as D. now rewrite Ea in D.
Qed.

Lemma shift_means A k (xs : list A) e l : shifts k (trace xs e) l <-> exists vs, shifted k xs e vs /\ l = trace vs e.
Proof.
  destruct k as [d|d|d]; [|apply debounce_shifts|apply sample_shifts]. rewrite delay_shifts. cbn. split; [intros ->; now exists xs|intros (vs & -> & ->); reflexivity].
Qed.

(** ** timer *)
Lemma timer_makes due l : interval_makes due 0 l <-> l = trace [0] Completed.
Proof.
  split.
  - intros (t0 & h & s & R & N & _ & P & <-). destruct (timer_done R N P) as (t & t' & _ & _ & ->). reflexivity.
  - intros ->. destruct (@timer_ends due 0%Z [] (iv_init 0) (ir_nil _ _ _)) as (h2 & s & R & Q & P); [cbn; tauto|cbn; tauto|]. cbn in R.
    assert (N : ~ In XCancel h2) by (intros F; destruct (Q _ F) as [[dt E]|[E|E]]; discriminate).
    exists 0%Z, h2, s. split; [exact R|]. split; [exact N|]. split; [intros x F; destruct (Q _ F) as [[dt E]|[E|E]]; discriminate|]. split; [exact P|].
    destruct (timer_done R N P) as (t & t' & _ & _ & ->). reflexivity.
Qed.

(** ** interval *)
Lemma ticks_all sec per n : per <> 0%Z -> exists h s, ivreach sec per 0 h s /\ ~ In XCancel h /\ (forall x, ~ In (XRaise x) h) /\
  length (v_log s) = n /\ exists u, v_phase s = ISleep u n.
Proof.
  intros Hp. induction n as [|n (h & s & R & N1 & N2 & L & u & E)].
  - exists ([] ++ [XWork]), (IvState 0 (ISleep (0 + Z.max 0 sec) 0) [] []). split; [apply ir_snoc with (iv_init 0); [constructor|reflexivity]|]. split; [cbn; intuition discriminate|].
    split; [intros x; cbn; intuition discriminate|]. split; [reflexivity|now eexists].
  - set (dt := Z.max 1 (u - v_now s)).
    set (s1 := IvState (v_now s + dt) (ISleep u n) (v_log s) (v_ends s)).
    set (s2 := IvState (v_now s + dt) (ICall n) (v_log s ++ [(OnNext n, (v_now s + dt)%Z)]) (v_ends s)).
    set (s3 := IvState (v_now s + dt) (ISleep (v_now s + dt + Z.max 0 per) (S n)) (v_log s ++ [(OnNext n, (v_now s + dt)%Z)]) (v_ends s ++ [(v_now s + dt)%Z])).
    exists (((h ++ [XTick dt]) ++ [XWork]) ++ [XReturn]), s3. split; [|split; [|split; [|split]]].
    + apply ir_snoc with s2; [apply ir_snoc with s1; [apply ir_snoc with s; [exact R|]|]|].
      * cbn. replace (0 <? dt)%Z with true by (symmetry; apply Z.ltb_lt; lia). now rewrite E.
      * cbn. unfold ivwork. cbn. replace (u <=? v_now s + dt)%Z with true by (symmetry; apply Z.leb_le; lia). reflexivity.
      * cbn. replace (per =? 0)%Z with false by (symmetry; now apply Z.eqb_neq). reflexivity.
    + rewrite !in_app_iff. cbn. intuition discriminate.
    + intros x. rewrite !in_app_iff. cbn. specialize (N2 x). intuition discriminate.
    + cbn. rewrite app_length, L. cbn. lia.
    + cbn. now eexists.
Qed.
Lemma ticking_makes sec per l : (if (per =? 0)%Z then interval_makes sec per l else interval_calls sec per l) <->
  exists vs e, (if (per =? 0)%Z then vs = [0] /\ e = Completed else vs = seq 0 (length vs) /\ e = Open) /\ l = trace vs e.
Proof.
  destruct (per =? 0)%Z eqn:E.
  - apply Z.eqb_eq in E as ->. rewrite timer_makes. split; [intros ->; now exists [0], Completed|intros (vs & e & [-> ->] & ->); reflexivity].
  - apply Z.eqb_neq in E. split.
    + intros H. exists (seq 0 (length l)), Open. split; [now rewrite seq_length|exact (ticks_seq E H eq_refl)].
    + intros (vs & e & [Ev ->] & ->). destruct (@ticks_all sec per (length vs) E) as (h & s & R & N1 & N2 & L & _).
      assert (H : interval_calls sec per (map fst (v_log s))) by (now exists 0%Z, h, s).
      pose proof (ticks_seq E H eq_refl) as G. rewrite map_length, L in G. rewrite Ev, <- G. exact H.
Qed.
