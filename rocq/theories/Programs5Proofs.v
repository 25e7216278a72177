(** * Proofs about programs with delay, debounce, sample, timer and retry. *)
From Verif Require Import Properties9 LawsProofs Programs PairProofs TimedProofs ProgramsProofs Programs2 Programs2Proofs Programs3 Programs3Proofs Programs4Proofs.
Set Implicit Arguments.

(** ** Time *)
Lemma shifted_makes A k (c : cold A) l : bounded c ->
  (makes (Shifted k c) l <-> exists xs e vs, outcome c xs e /\ shifted k xs e vs /\ l = trace vs e).
Proof.
  intros Hb. cbn. split.
  - intros (ms & H & Hs). destruct (sound c Hb _ H) as (xs & e & _ & ->). apply shift_means in Hs as (vs & S1 & ->). now exists xs, e, vs.
  - intros (xs & e & vs & H & S1 & ->). exists (trace xs e). split; [exact H|]. apply shift_means. now exists vs.
Qed.
Lemma shifted_outcome A k (c : cold A) vs e : bounded c -> (outcome (Shifted k c) vs e <-> exists xs, outcome c xs e /\ shifted k xs e vs).
Proof.
  intros Hb. unfold outcome at 1. rewrite (@shifted_makes A k c (trace vs e) Hb). split.
  - intros (xs & d & ws & H & S1 & E). apply trace_inj in E as [-> ->]. now exists xs.
  - intros (xs & H & S1). now exists xs, e, vs.
Qed.
Arguments shifted_outcome {A} k c vs {e} _.
Lemma outcomes A (c : cold A) l : bounded c -> makes c l -> exists vs e, outcome c vs e /\ l = trace vs e.
Proof. intros Hb H. destruct (sound c Hb _ H) as (vs & e & _ & ->). now exists vs, e. Qed.
Arguments outcomes {A c l} _ _.
Lemma alike_outcome A (c d : cold A) : bounded c -> bounded d -> (forall vs e, outcome c vs e <-> outcome d vs e) -> alike c d.
Proof.
  intros Hc Hd E l. split; intros H.
  - destruct (outcomes Hc H) as (vs & e & O & ->). now apply E.
  - destruct (outcomes Hd H) as (vs & e & O & ->). now apply E.
Qed.

Lemma shifted_part A k (xs : list A) e vs : shifted k xs e vs -> part_of vs xs.
Proof.
  destruct k as [d|d|d]; cbn.
  - intros ->. apply part_refl.
  - destruct e as [|x|]; [|auto..]. intros [[-> ->]|(xs' & vs' & x & -> & -> & P)]; [apply part_nil|]. apply part_app; [exact P|apply part_refl].
  - destruct (0 <? d)%Z; [|intros ->; apply part_refl]. intros [us ->]. change vs with ([] ++ vs) at 1. apply part_app; [apply part_none|apply part_refl].
Qed.
Lemma shifted_self A k (xs : list A) e : shifted k xs e xs.
Proof.
  destruct k as [d|d|d]; cbn; [reflexivity| |destruct (0 <? d)%Z; [now exists []|reflexivity]].
  destruct e as [|x|]; [|apply part_refl..]. destruct xs as [|x xs] using rev_ind; [now left|right]. exists xs, xs, x. repeat split. apply part_refl.
Qed.
Lemma lively_shifted A k (c : cold A) : lively c -> lively (Shifted k c).
Proof.
  intros [R [l H]]. split; [exact R|]. destruct (outcomes (regular_bounded _ R) H) as (vs & e & O & ->). exists (trace vs e).
  apply (shifted_outcome k _ _ (regular_bounded _ R)). exists vs. split; [exact O|apply shifted_self].
Qed.
Lemma delay_alike A d (c : cold A) : bounded c -> alike (Shifted (Delay d) c) c.
Proof.
  intros Hb. apply alike_outcome; [exact Hb|exact Hb|]. intros vs e. rewrite (shifted_outcome _ _ _ Hb). cbn. split; [now intros (xs & O & ->)|]. intros O. now exists vs.
Qed.
Lemma same_kind A d d' (c : cold A) : bounded c -> alike (Shifted (Debounce d) c) (Shifted (Debounce d') c).
Proof. intros Hb. apply alike_outcome; [exact Hb|exact Hb|]. intros vs e. rewrite !(shifted_outcome _ _ _ Hb). reflexivity. Qed.

Lemma debounce_twice A (xs : list A) e vs d d' : (exists us, shifted (Debounce d) xs e us /\ shifted (Debounce d') us e vs) <-> shifted (Debounce d) xs e vs.
Proof.
  split; [|intros H; exists xs; split; [apply shifted_self|exact H]]. intros (us & H1 & H2). cbn in *. destruct e as [|x|].
  - destruct H1 as [[-> ->]|(xs' & us' & x & -> & -> & P)]; [destruct H2 as [[_ ->]|(p & q & z & E & _)]; [now left|now destruct p]|].
    right. destruct H2 as [[E _]|(us2 & vs' & y & E & -> & P')]; [now destruct us'|]. apply app_inj_tail in E as [-> ->]. exists xs', vs', y. repeat split. exact (part_trans P P').
  - exact (part_trans H1 H2).
  - exact (part_trans H1 H2).
Qed.
Lemma debounce_debounce A d d' (c : cold A) : bounded c -> alike (Shifted (Debounce d') (Shifted (Debounce d) c)) (Shifted (Debounce d) c).
Proof.
  intros Hb. apply alike_outcome; [exact Hb|exact Hb|]. intros vs e. rewrite (@shifted_outcome A (Debounce d') (Shifted (Debounce d) c) vs e Hb), (shifted_outcome _ _ _ Hb). split.
  - intros (us & O & S1). rewrite (shifted_outcome _ _ _ Hb) in O. destruct O as (xs & O & S2). exists xs. split; [exact O|]. apply (debounce_twice xs e vs d d'). now exists us.
  - intros (xs & O & S1). exists vs. rewrite (shifted_outcome _ _ _ Hb). split; [now exists xs|]. apply shifted_self.
Qed.
Lemma sample_sample A d d' (c : cold A) : bounded c -> (0 < d)%Z -> alike (Shifted (Sample d') (Shifted (Sample d) c)) (Shifted (Sample d) c).
Proof.
  intros Hb Hd. apply alike_outcome; [exact Hb|exact Hb|]. intros vs e. rewrite (@shifted_outcome A (Sample d') (Shifted (Sample d) c) vs e Hb), (shifted_outcome _ _ _ Hb). split.
  - intros (us & O & S1). rewrite (shifted_outcome _ _ _ Hb) in O. destruct O as (xs & O & S2). exists xs. split; [exact O|]. cbn in *. apply Z.ltb_lt in Hd. rewrite Hd in *.
    destruct S2 as [us1 ->]. destruct (0 <? d')%Z; [|subst; now exists us1]. destruct S1 as [us2 ->]. exists (us1 ++ us2). apply app_assoc.
  - intros (xs & O & S1). exists vs. rewrite (shifted_outcome _ _ _ Hb). split; [now exists xs|]. apply shifted_self.
Qed.
Lemma sample_off A d (c : cold A) : (d <= 0)%Z -> alike (Shifted (Sample d) c) c.
Proof.
  intros Hd l. cbn. destruct (0 <? d)%Z eqn:E; [apply Z.ltb_lt in E; lia|]. split; [now intros (ms & H & ->)|]. intros H. now exists l.
Qed.

(** Operators that make of each element at most one, whatever else comes. *)
Definition each A B (g : stage A B) (h : A -> option B) : Prop := forall xs e, result_of g xs e = (somes (map h xs), e).
Lemma each_map A B (f : A -> B) : each (SMap (fun x => Ok (f x))) (fun x => Some (f x)).
Proof. intros xs e. cbn. replace (results (fun x => Ok (f x)) xs) with (map f xs, @None exn); [cbn; f_equal; induction xs; cbn; congruence|]. induction xs as [|x xs IH]; cbn; [reflexivity|]. now rewrite <- IH. Qed.
Lemma each_choose A B (f : A -> option B) : each (SChoose (fun x => Ok (f x))) f.
Proof. intros xs e. cbn. replace (results (fun x => Ok (f x)) xs) with (map f xs, @None exn); [reflexivity|]. induction xs as [|x xs IH]; cbn; [reflexivity|]. now rewrite <- IH. Qed.
Lemma each_filter A (p : A -> bool) : each (SFilter (fun x => Ok (p x))) (fun x => if p x then Some x else None).
Proof. intros xs e. cbn. replace (results (keep (fun x => Ok (p x))) xs) with (map (fun x => if p x then Some x else None) xs, @None exn); [reflexivity|]. induction xs as [|x xs IH]; cbn; [reflexivity|]. rewrite <- IH. unfold keep. now destruct (p x). Qed.

Lemma stage_outcome A B (g : stage A B) h (c : cold A) vs e : each g h -> bounded c -> (outcome (Stage g c) vs e <-> exists xs, outcome c xs e /\ vs = somes (map h xs)).
Proof.
  intros Hg Hb. unfold outcome. cbn. split.
  - intros (ms & H & D). destruct (sound c Hb _ H) as (xs & d & _ & ->). apply stage_delivers in D. rewrite Hg in D. cbn in D. apply trace_inj in D as [-> ->]. now exists xs.
  - intros (xs & H & ->). exists (trace xs e). split; [exact H|]. apply stage_delivers. now rewrite Hg.
Qed.
Arguments stage_outcome {A B g h} c vs {e} _ _.
Lemma stage_shift A B (g : stage A B) h (c : cold A) k : each g h -> bounded c ->
  (forall xs e vs, (exists ys, shifted k xs e ys /\ vs = somes (map h ys)) <-> shifted k (somes (map h xs)) e vs) ->
  alike (Stage g (Shifted k c)) (Shifted k (Stage g c)).
Proof.
  intros Hg Hb Hk. apply alike_outcome; [exact Hb|exact Hb|]. intros vs e. rewrite (@stage_outcome A B g h (Shifted k c) vs e Hg Hb), (@shifted_outcome B k (Stage g c) vs e Hb). split.
  - intros (ys & O & E). rewrite (shifted_outcome _ _ _ Hb) in O. destruct O as (xs & O & S1). exists (somes (map h xs)). rewrite (stage_outcome _ _ Hg Hb). split; [now exists xs|]. apply Hk. now exists ys.
  - intros (us & O & S1). rewrite (stage_outcome _ _ Hg Hb) in O. destruct O as (xs & O & ->). apply Hk in S1 as (ys & S1 & ->). exists ys. rewrite (shifted_outcome _ _ _ Hb). split; [now exists xs|reflexivity].
Qed.
Lemma somes_app2 X (a b : list (option X)) : somes (a ++ b) = somes a ++ somes b.
Proof. induction a as [|[x|] a IH]; cbn; congruence. Qed.
Lemma suffix_somes X Y (h : X -> option Y) (xs : list X) us vs : somes (map h xs) = us ++ vs -> exists a b, xs = a ++ b /\ vs = somes (map h b).
Proof.
  revert us. induction xs as [|x xs IH]; intros us E; cbn in E.
  - symmetry in E. apply app_eq_nil in E as [_ ->]. now exists [], [].
  - destruct us as [|u us].
    + exists [], (x :: xs). split; [reflexivity|]. cbn in E. symmetry. exact E.
    + destruct (h x) as [y|].
      * injection E as _ E. destruct (IH _ E) as (a & b & -> & ->). now exists (x :: a), b.
      * destruct (IH _ E) as (a & b & -> & ->). now exists (x :: a), b.
Qed.
Lemma each_sample A B (g : stage A B) h (c : cold A) d : each g h -> bounded c -> alike (Stage g (Shifted (Sample d) c)) (Shifted (Sample d) (Stage g c)).
Proof.
  intros Hg Hb. apply stage_shift with h; [exact Hg|exact Hb|]. intros xs e vs. cbn. destruct (0 <? d)%Z.
  - split.
    + intros (ys & [us ->] & ->). exists (somes (map h us)). now rewrite map_app, somes_app2.
    + intros [us E]. destruct (suffix_somes _ _ _ _ E) as (a & b & -> & ->). exists b. split; [now exists a|reflexivity].
  - split; [now intros (ys & -> & ->)|]. intros ->. now exists xs.
Qed.
Lemma part_map X Y (f : X -> Y) (a b : list X) : part_of a b -> part_of (map f a) (map f b).
Proof. induction 1; cbn; [apply part_nil|now apply part_keep|now apply part_drop]. Qed.
Lemma part_map_inv X Y (f : X -> Y) (b : list X) : forall a, part_of a (map f b) -> exists a', part_of a' b /\ a = map f a'.
Proof.
  induction b as [|x b IH]; intros a H; cbn in H; inversion H as [|y a1 b1 H1|y a1 b1 H1]; subst.
  - exists []. split; [apply part_nil|reflexivity].
  - destruct (IH _ H1) as (a' & P & ->). exists (x :: a'). split; [now apply part_keep|reflexivity].
  - destruct (IH _ H1) as (a' & P & ->). exists a'. split; [now apply part_drop|reflexivity].
Qed.
Lemma somes_some X Y (f : X -> Y) xs : somes (map (fun x => Some (f x)) xs) = map f xs.
Proof. induction xs; cbn; congruence. Qed.
Lemma map_debounce A B (f : A -> B) (c : cold A) d : bounded c ->
  alike (Stage (SMap (fun x => Ok (f x))) (Shifted (Debounce d) c)) (Shifted (Debounce d) (Stage (SMap (fun x => Ok (f x))) c)).
Proof.
  intros Hb. apply stage_shift with (fun x => Some (f x)); [apply each_map|exact Hb|]. intros xs e vs. rewrite somes_some.
  transitivity (exists ys, shifted (Debounce d) xs e ys /\ vs = map f ys); [split; intros (ys & H1 & H2); exists ys; (split; [exact H1|]); rewrite H2; [apply somes_some|symmetry; apply somes_some]|].
  cbn. destruct e as [|x|].
  - split.
    + intros (ys & [[-> ->]|(xs' & vs' & x & -> & -> & P)] & ->); [now left|right]. exists (map f xs'), (map f vs'), (f x). rewrite !map_app. repeat split. now apply part_map.
    + intros [[E ->]|(xs' & vs' & x & E & -> & P)].
      * apply map_eq_nil in E as ->. exists []. split; [now left|reflexivity].
      * apply map_eq_app in E as (a & b & -> & <- & E). destruct b as [|y [|z b]]; cbn in E; try discriminate. injection E as <-.
        destruct (part_map_inv _ _ P) as (a' & P' & ->). exists (a' ++ [y]). split; [right; now exists a, a', y|now rewrite map_app].
  - split; [intros (ys & P & ->); now apply part_map|intros P; destruct (part_map_inv _ _ P) as (a' & P' & ->); now exists a'].
  - split; [intros (ys & P & ->); now apply part_map|intros P; destruct (part_map_inv _ _ P) as (a' & P' & ->); now exists a'].
Qed.
Lemma part_somes_inv X Y (h : X -> option Y) (b : list X) : forall a, part_of a (somes (map h b)) -> exists a', part_of a' b /\ a = somes (map h a').
Proof.
  induction b as [|x b IH]; intros a H; cbn in H.
  - inversion H; subst. exists []. split; [apply part_nil|reflexivity].
  - destruct (h x) as [y|] eqn:Ex.
    + inversion H as [|y1 a1 b1 H1|y1 a1 b1 H1]; subst; destruct (IH _ H1) as (a' & P & ->).
      * exists (x :: a'). split; [now apply part_keep|]. cbn. now rewrite Ex.
      * exists a'. split; [now apply part_drop|reflexivity].
    + destruct (IH _ H) as (a' & P & ->). exists a'. split; [now apply part_drop|reflexivity].
Qed.
(** Any such operator before debounce makes nothing that it does not make behind it. *)
Lemma debounce_each A B (g : stage A B) h (c : cold A) d l : each g h -> bounded c -> makes (Shifted (Debounce d) (Stage g c)) l -> makes (Stage g (Shifted (Debounce d) c)) l.
Proof.
  intros Hg Hb H. apply (@shifted_makes B (Debounce d) (Stage g c) l Hb) in H as (us & e & vs & O & S1 & ->). rewrite (stage_outcome _ _ Hg Hb) in O. destruct O as (xs & O & ->).
  apply (@stage_outcome A B g h (Shifted (Debounce d) c) vs e Hg Hb).
  enough (G : exists ys, shifted (Debounce d) xs e ys /\ vs = somes (map h ys)) by (destruct G as (ys & S2 & ->); exists ys; rewrite (shifted_outcome _ _ _ Hb); split; [now exists xs|reflexivity]).
  cbn in *. destruct e as [|x|].
  - destruct xs as [|x xs _] using rev_ind.
    + exists []. split; [now left|]. destruct S1 as [[_ ->]|(p & q & z & E & _)]; [reflexivity|]. cbn in E. now destruct p.
    + rewrite map_app, somes_app2 in S1. cbn in S1. destruct (h x) as [y|] eqn:Ex.
      * destruct S1 as [[E _]|(xs' & vs' & z & E & -> & P)]; [now destruct (somes (map h xs))|]. apply app_inj_tail in E as [E ->]. subst xs'.
        destruct (part_somes_inv _ _ P) as (a' & P' & ->). exists (a' ++ [x]). split; [right; now exists xs, a', x|]. rewrite map_app, somes_app2. cbn. now rewrite Ex.
      * rewrite app_nil_r in S1.
        assert (P : part_of vs (somes (map h xs))).
        { destruct S1 as [[-> ->]|(xs' & vs' & z & -> & -> & P)]; [apply part_nil|]. apply part_app; [exact P|apply part_refl]. }
        destruct (part_somes_inv _ _ P) as (a' & P' & ->). exists (a' ++ [x]). split; [right; now exists xs, a', x|]. rewrite map_app, somes_app2. cbn. rewrite Ex. now rewrite app_nil_r.
  - destruct (part_somes_inv _ _ S1) as (a' & P' & ->). now exists a'.
  - destruct (part_somes_inv _ _ S1) as (a' & P' & ->). now exists a'.
Qed.

Lemma skip_outcome A n (c : cold A) vs e : bounded c -> (outcome (Stage (SSkip A n) c) vs e <-> exists xs, outcome c xs e /\ vs = skipn (Z.to_nat n) xs).
Proof.
  intros Hb. unfold outcome. cbn [makes]. split.
  - intros (ms & H & D). destruct (sound c Hb _ H) as (xs & d & _ & ->). apply stage_delivers in D. cbn in D. apply trace_inj in D as [-> ->]. now exists xs.
  - intros (xs & H & ->). exists (trace xs e). split; [exact H|]. apply stage_delivers. reflexivity.
Qed.
Arguments skip_outcome {A} n c vs {e} _.
Lemma skipn_skipn2 X a b (l : list X) : skipn a (skipn b l) = skipn (b + a) l.
Proof. revert l. induction b as [|b IH]; intros l; [reflexivity|]. destruct l; cbn; [apply skipn_nil|apply IH]. Qed.
Lemma suffix_skipn X (us vs : list X) : skipn (length us) (us ++ vs) = vs.
Proof. induction us; cbn; auto. Qed.
Lemma skip_sample A n d (c : cold A) : bounded c -> alike (Stage (SSkip A n) (Shifted (Sample d) c)) (Shifted (Sample d) (Stage (SSkip A n) c)).
Proof.
  intros Hb. apply alike_outcome; [exact Hb|exact Hb|]. intros vs e. rewrite (@skip_outcome A n (Shifted (Sample d) c) vs e Hb), (@shifted_outcome A (Sample d) (Stage (SSkip A n) c) vs e Hb). split.
  - intros (ys & O & ->). rewrite (shifted_outcome _ _ _ Hb) in O. destruct O as (xs & O & S1). exists (skipn (Z.to_nat n) xs). rewrite (skip_outcome _ _ _ Hb). split; [now exists xs|]. cbn in *.
    destruct (0 <? d)%Z; [|now subst]. destruct S1 as [us ->]. exists (firstn (length us) (skipn (Z.to_nat n) (us ++ ys))). rewrite <- (firstn_skipn (length us) (skipn (Z.to_nat n) (us ++ ys))) at 1. f_equal.
    rewrite skipn_skipn2, Nat.add_comm, <- skipn_skipn2, suffix_skipn. reflexivity.
  - intros (us & O & S1). rewrite (skip_outcome _ _ _ Hb) in O. destruct O as (xs & O & ->). cbn in S1. destruct (0 <? d)%Z eqn:Ed.
    + destruct S1 as [us E]. exists (skipn (length us) xs). rewrite (shifted_outcome _ _ _ Hb). split.
      * exists xs. split; [exact O|]. cbn. rewrite Ed. exists (firstn (length us) xs). now rewrite firstn_skipn.
      * rewrite skipn_skipn2, Nat.add_comm, <- skipn_skipn2, E. now rewrite suffix_skipn.
    + exists xs. split; [|exact S1]. rewrite (shifted_outcome _ _ _ Hb). exists xs. split; [exact O|]. cbn. now rewrite Ed.
Qed.

Lemma timer_single due : alike (Timer due) (From (Single 0)).
Proof. intros l. rewrite makes_from. exact (timer_makes due l). Qed.
Lemma lively_timer due : lively (Timer due).
Proof. split; [exact I|]. exists (trace [0] Completed). now apply timer_makes. Qed.
Lemma timeout A (c : cold A) due l : lively c ->
  (makes (take_until_of c (Timer due)) l <-> exists vs e, outcome c vs e /\ (e <> Open /\ l = trace vs e \/ exists us, prefix us vs /\ l = trace us Completed)).
Proof.
  intros Lc. rewrite <- (until_single 0 Lc l). apply (pair_alike (PUntil A nat)); [apply alike_refl|apply timer_single].
Qed.

(** ** retry *)
Lemma retried_makes A n (c : cold A) l : makes (Retried n c) l <-> exists vs e, retried n (outcome c) vs e /\ l = trace vs e.
Proof.
  cbn [makes]. split.
  - intros (content & h & s & H & F & D & Hs & <-). destruct (catch_played (retry_obs (outcome c)) H F D) as (cs & vs & e & Hp & E).
    + intros k o Hk. specialize (Hs k o Hk). destruct o as [|x]; cbn; [exact Hs|now rewrite Hs].
    + exists vs, e. split; [|exact E]. apply retry_played. now exists cs.
  - intros (vs & e & R & ->). apply retry_played in R as [cs Hp]. destruct (catch_complete Hp) as (content & h & s & H & F & D & G & E).
    exists content, h, s. split; [exact H|]. split; [exact F|]. split; [exact D|]. split; [|exact E].
    intros k o Hk. specialize (G k o Hk). destruct o as [|x]; cbn in G; [exact G|]. destruct (content k (RFail x)) as [us d]. cbn in G. destruct G as [-> ->]. reflexivity.
Qed.
Lemma retried_outcome A n (c : cold A) vs e : outcome (Retried n c) vs e <-> retried n (outcome c) vs e.
Proof.
  unfold outcome at 1. rewrite retried_makes. split; [|intros R; now exists vs, e]. intros (us & d & R & E). apply trace_inj in E as [-> ->]. exact R.
Qed.
Lemma retried_calm A n (c : cold A) : reliable (Retried n c).
Proof.
  intros l x H F. apply retried_makes in H as (vs & e & [Hn _] & ->). unfold trace in F. apply in_app_or in F as [F|F]; [apply in_map_iff in F as (? & ? & _); discriminate|].
  destruct e as [|y|]; cbn in F; try contradiction; destruct F as [F|[]]; try discriminate. now apply (Hn y).
Qed.
Lemma reliable_outcome A (c : cold A) vs x : reliable c -> ~ outcome c vs (Failed x).
Proof. intros R O. apply (R _ x O). unfold trace. apply in_or_app. right. now left. Qed.
Arguments reliable_outcome {A c vs x} _ _.
Lemma retried_reliable A n (c : cold A) : bounded c -> reliable c -> alike (Retried n c) c.
Proof.
  intros Hb R. apply alike_outcome; [exact Hb|exact Hb|]. intros vs e. rewrite retried_outcome. unfold retried. split.
  - intros [_ [O|(_ & us & x & ws & O & _)]]; [exact O|]. now apply (reliable_outcome R) in O.
  - intros O. split; [intros x ->; now apply (reliable_outcome R) in O|now left].
Qed.
Lemma retried_count A n m (c : cold A) : n <> 0%Z -> m <> 0%Z -> alike (Retried n c) (Retried m c).
Proof. intros Hn Hm l. rewrite !retried_makes. unfold retried. split; intros (vs & e & [H1 [H2|(_ & H2)]] & ->); exists vs, e; (split; [|reflexivity]); split; auto. Qed.
Lemma retried_hopeless A n (c : cold A) : (forall vs e, outcome c vs e -> exists x, e = Failed x) -> ~ productive (Retried n c).
Proof.
  intros Hf [l H]. apply retried_makes in H as (vs & e & [Hn [O|(_ & us & x & ws & _ & O & _)]] & _); destruct (Hf _ _ O) as [y ->]; now apply (Hn y).
Qed.
Lemma retried_retried A n m (c : cold A) : bounded c -> alike (Retried n (Retried m c)) (Retried m c).
Proof. intros Hb. apply retried_reliable; [exact Hb|apply retried_calm]. Qed.
Lemma retried_each A B (g : stage A B) h n (c : cold A) : each g h -> bounded c -> alike (Stage g (Retried n c)) (Retried n (Stage g c)).
Proof.
  intros Hg Hb. apply alike_outcome; [exact Hb|exact Hb|]. intros vs e. rewrite (@stage_outcome A B g h (Retried n c) vs e Hg Hb), retried_outcome. unfold retried. split.
  - intros (xs & O & ->). apply retried_outcome in O as [Hn [O|(En & us & x & ws & O1 & O2 & ->)]]; (split; [exact Hn|]).
    + left. rewrite (stage_outcome _ _ Hg Hb). now exists xs.
    + right. split; [exact En|]. exists (somes (map h us)), x, (somes (map h ws)). rewrite map_app, somes_app2. split; [apply (stage_outcome _ _ Hg Hb); now exists us|]. split; [apply (stage_outcome _ _ Hg Hb); now exists ws|reflexivity].
  - intros [Hn [O|(En & us & x & ws & O1 & O2 & ->)]].
    + rewrite (stage_outcome _ _ Hg Hb) in O. destruct O as (xs & O & ->). exists xs. split; [|reflexivity]. apply retried_outcome. split; [exact Hn|now left].
    + rewrite (stage_outcome _ _ Hg Hb) in O1. rewrite (stage_outcome _ _ Hg Hb) in O2. destruct O1 as (xs & O1 & ->). destruct O2 as (ys & O2 & ->). exists (xs ++ ys). split; [|now rewrite map_app, somes_app2].
      apply retried_outcome. split; [exact Hn|]. right. split; [exact En|]. now exists xs, x, ys.
Qed.

Lemma caught_makes A (c : cold A) handler l : makes (Caught c handler) l <->
  exists vs e, recovered (fun x => match handler x with Ok c' => Some (outcome c') | Err _ => None end) (outcome c) vs e /\ l = trace vs e.
Proof.
  set (Means := fun o : option exn => match o with None => outcome c | Some x => match handler x with Ok c' => outcome c' | Err _ => fun _ _ => False end end). cbn [makes]. split.
  - intros (content & h & s & H & F & D & Hs & <-).
    destruct (@catch_recovered (option exn) A (answers_to handler) None Means content h s H F D) as (vs & e & R & E).
    + intros k o Hk. specialize (Hs k o Hk). destruct o as [x|]; cbn; [|exact Hs]. destruct (handler x); [exact Hs|contradiction].
    + exists vs, e. split; [|exact E]. refine (recovered_ext _ _ R). intros x. unfold answered, answers_to, Means. cbn. destruct (handler x) eqn:Ex; cbn; rewrite ?Ex; reflexivity.
  - intros (vs & e & R & ->).
    assert (Hp : exists cs, played (answers_to handler) Means tt None cs vs e).
    { apply (@recovered_played (option exn) A (answers_to handler) Means (fun x => match handler x with Ok _ => Some (Some x) | Err _ => None end)) with (P := outcome c); [|clear -R|reflexivity].
      - intros x. unfold answers_to. destruct (handler x) as [c'|y]; cbn; eauto.
      - refine (recovered_ext _ _ R). intros x. unfold Means. destruct (handler x) eqn:Ex; [rewrite Ex|]; reflexivity. }
    destruct Hp as [cs Hp]. destruct (catch_complete Hp) as (content & h & s & H & F & D & G & E).
    exists content, h, s. split; [exact H|]. split; [exact F|]. split; [exact D|]. split; [|exact E].
    intros k o Hk. specialize (G k o Hk). destruct o as [x|]; cbn in G; [|exact G]. destruct (handler x); [exact G|contradiction].
Qed.

(** retry as catch: *)
Lemma retried_caught A n (c : cold A) : n <> 0%Z -> alike (Retried n c) (Caught c (fun _ => Ok (Retried 0 c))).
Proof.
  intros En l. rewrite retried_makes, caught_makes. split; intros (vs & e & R & ->); exists vs, e; (split; [|reflexivity]).
  - destruct R as [Hn [O|(_ & us & x & ws & O1 & O2 & ->)]]; [now apply rec_end|].
    apply rec_next with x (outcome (Retried 0 c)); [exact O1|reflexivity|]. apply rec_end; [|exact Hn]. apply retried_outcome. split; [exact Hn|now left].
  - inversion R as [P us d O Hn|P us x Q ws d O E R'|P us x O E]; subst; [split; [exact Hn|now left]| |discriminate].
    injection E as <-. inversion R' as [P us' d O' Hn|P us' x' Q us'' d O' E R''|P us' x' O' E]; subst.
    + apply retried_outcome in O' as [_ [O'|(N & _)]]; [|now elim N]. split; [exact Hn|]. right. split; [exact En|]. now exists us, x, ws.
    + exfalso. exact (reliable_outcome (@retried_calm A 0 c) O').
    + exfalso. exact (reliable_outcome (@retried_calm A 0 c) O').
Qed.
(** What retry makes, a catch that goes back to the source at every error makes too. *)
Lemma retried_within A n (c : cold A) l : makes (Retried n c) l -> makes (Caught c (fun _ => Ok c)) l.
Proof.
  rewrite retried_makes, caught_makes. intros (vs & e & [Hn R] & ->). exists vs, e. split; [|reflexivity]. destruct R as [O|(_ & us & x & ws & O1 & O2 & ->)]; [now apply rec_end|].
  apply rec_next with x (outcome c); [exact O1|reflexivity|]. now apply rec_end.
Qed.

(** debounce as flat_map_latest of timers: *)
Definition after_timer A (d : Z) (x : A) : cold A := Stage (SMap (fun _ => Ok x)) (Timer d).
Lemma after_timer_outcome A d (x : A) : outcome (after_timer d x) [x] Completed.
Proof.
  unfold after_timer. apply (@stage_outcome nat A _ (fun _ => Some x) (Timer d) [x] Completed (each_map (fun _ => x)) I). exists [0]. split; [|reflexivity]. now apply timer_makes.
Qed.
Lemma lively_after_timer A d (x : A) : lively (after_timer d x).
Proof. apply lively_stage, lively_timer. Qed.
Lemma interleaves_left A (p : list A) ps ws : interleaves ps ws -> interleaves (p :: ps) (p ++ ws).
Proof.
  intros H. apply interleaves_cons. exists ws. split; [exact H|]. induction p as [|x p IH]; cbn; [|now constructor].
  clear H. induction ws; constructor; auto.
Qed.
Lemma part_picks A (vs xs : list A) : part_of vs xs -> exists ps, Forall2 (fun p x => p = [] \/ p = [x]) ps xs /\ forall qs ws, interleaves qs ws -> interleaves (ps ++ qs) (vs ++ ws).
Proof.
  induction 1 as [|x a b H (ps & F & G)|x a b H (ps & F & G)].
  - exists []. split; [constructor|auto].
  - exists ([x] :: ps). split; [constructor; auto|]. intros qs ws I1. apply (@interleaves_left A [x]), G, I1.
  - exists ([] :: ps). split; [constructor; auto|]. intros qs ws I1. apply (@interleaves_left A []), G, I1.
Qed.
Lemma debounce_latest A d (c : cold A) vs : lively c -> outcome (Shifted (Debounce d) c) vs Open -> outcome (flat_map_latest_ (after_timer d) c) vs Open.
Proof.
  intros Lc O. apply (shifted_outcome _ _ _ (regular_bounded _ (proj1 Lc))) in O as (xs & O & S1). cbn in S1.
  unfold outcome. rewrite (latest_switched _ Lc _), (@switched_is _ _ c (after_timer d) Lc (fun x => lively_after_timer d x)). exists xs, Open, vs, Open. split; [exact O|]. split; [|reflexivity]. clear O Lc c.
  set (M := fun x => outcome (after_timer d x)).
  assert (HM : forall l, Forall2 (fun x (c : list A * ending) => M x (fst c) (snd c)) l (map (fun x => ([x], Completed)) l)) by (induction l; cbn; constructor; [apply after_timer_outcome|assumption]).
  destruct S1 as [[-> ->]|(xs' & vs' & x & -> & -> & P)].
  - exists [], []. split; [constructor|]. split; [constructor|]. split; [now apply interleaves_nil|]. split; [discriminate|]. split; [auto|]. intros [|k] c E; discriminate.
  - destruct (part_picks P) as (ps & F & G). exists (map (fun x => ([x], Completed)) (xs' ++ [x])), (ps ++ [[x]]). split; [apply HM|]. split; [|split; [apply G; now apply interleaves_one|split; [discriminate|split; [intros E; now destruct xs'|]]]].
    + rewrite map_app. apply Forall2_app; [|cbn; constructor; [now exists []|constructor]]. clear -F. induction F as [|p y ps xs [->| ->] F IH]; cbn; constructor; auto; [apply prefix_nil|now exists []].
    + intros k c0 Lk Ek. rewrite app_length in Lk. cbn in Lk. assert (k = length xs') as -> by lia. assert (L : length ps = length xs') by (clear -F; induction F; cbn; congruence). rewrite <- L. rewrite nth_error_app2, Nat.sub_diag by lia.
      rewrite map_app in Ek. rewrite nth_error_app2, map_length, Nat.sub_diag in Ek by (rewrite map_length; lia). cbn in Ek. injection Ek as <-. split; [reflexivity|discriminate].
Qed.
