(** * Proofs about interval in programs. *)
From Verif Require Import Properties9 ColdProofs ColdCatchProofs LawsProofs Programs TimedProofs ProgramsProofs Programs2 Programs2Proofs Programs3 Programs3Proofs Programs4Proofs Programs5Proofs Programs6 Programs6Proofs Programs7 Programs7Proofs AsyncIter.
Set Implicit Arguments.

Lemma ticks_outcome sec per vs e : per <> 0%Z -> (outcome (Ticking sec per) vs e <-> vs = seq 0 (length vs) /\ e = Open).
Proof.
  intros Hp. unfold outcome. cbn [makes]. rewrite ticking_makes. apply Z.eqb_neq in Hp as ->. split.
  - intros (us & d & H & E). apply trace_inj in E as [-> ->]. exact H.
  - intros H. now exists vs, e.
Qed.
Lemma ticks_make sec per l : per <> 0%Z -> (makes (Ticking sec per) l <-> exists n, l = trace (seq 0 n) Open).
Proof.
  intros Hp. split.
  - intros H. destruct (outcomes (c := Ticking sec per) I H) as (vs & e & O & ->). apply ticks_outcome in O as [Ev ->]; [|exact Hp]. exists (length vs). now rewrite <- Ev.
  - intros (n & ->). apply (ticks_outcome sec (seq 0 n) Open Hp). now rewrite seq_length.
Qed.
Lemma lively_ticks sec per : lively (Ticking sec per).
Proof.
  split; [exact I|]. destruct (Z.eq_dec per 0) as [->|Hp]; [exact (proj2 (lively_timer sec))|]. exists (trace (seq 0 0) Open). apply ticks_make; [exact Hp|now eexists].
Qed.
Lemma ticks_reliable sec per : reliable (Ticking sec per).
Proof.
  intros l x M F. destruct (Z.eq_dec per 0) as [->|Hp].
  - apply timer_makes in M. subst l. destruct F as [F|[F|[]]]; discriminate.
  - apply (ticks_make sec l Hp) in M as [n ->]. unfold trace in F. rewrite app_nil_r in F. apply in_map_iff in F as (? & ? & _). discriminate.
Qed.
Lemma ticks_stage B (g : stage nat B) sec per l : per <> 0%Z ->
  (makes (Stage g (Ticking sec per)) l <-> exists n vs e, result_of g (seq 0 n) Open = (vs, e) /\ l = trace vs e).
Proof.
  intros Hp. cbn [makes]. split.
  - intros (ms & M & D). assert (M' : makes (Ticking sec per) ms) by exact M. apply (ticks_make sec ms Hp) in M' as [n ->]. apply stage_delivers in D.
    exists n, (fst (result_of g (seq 0 n) Open)), (snd (result_of g (seq 0 n) Open)). split; [apply surjective_pairing|exact D].
  - intros (n & vs & e & E & ->). exists (trace (seq 0 n) Open). split; [apply (ticks_make sec _ Hp); now exists n|]. apply stage_delivers. now rewrite E.
Qed.
Lemma first_ticks n m : n <= m -> firstn n (seq 0 m) = seq 0 n.
Proof.
  intros L. replace m with (n + (m - n)) by lia. rewrite seq_app, firstn_app, seq_length, Nat.sub_diag, firstn_O, app_nil_r. apply firstn_all2. now rewrite seq_length.
Qed.
Lemma ticks_take sec per n l : per <> 0%Z -> 0 < n ->
  (makes (Stage (STake nat n) (Ticking sec per)) l <-> l = trace (seq 0 n) Completed \/ exists k, k < n /\ l = trace (seq 0 k) Open).
Proof.
  intros Hp Hn. rewrite ticks_stage by exact Hp. destruct n as [|n]; [lia|]. cbn [result_of]. split.
  - intros (m & vs & e & E & ->). rewrite seq_length in E. destruct (S n <=? m) eqn:L.
    + apply Nat.leb_le in L. rewrite first_ticks in E by exact L. pose proof (f_equal fst E) as E1. pose proof (f_equal snd E) as E2. cbn [fst snd] in E1, E2. subst vs e. now left.
    + injection E as <- <-. apply Nat.leb_gt in L. right. now exists m.
  - intros [->|(k & Hk & ->)].
    + exists (S n), (seq 0 (S n)), Completed. rewrite seq_length, Nat.leb_refl, first_ticks by lia. now split.
    + exists k, (seq 0 k), Open. rewrite seq_length. apply Nat.leb_gt in Hk as ->. now split.
Qed.
Lemma trace_ticks_prefix k n : k <= n -> prefix (trace (seq 0 k) Open) (trace (seq 0 n) Completed).
Proof.
  intros L. exists (map OnNext (seq k (n - k)) ++ [OnCompleted]). unfold trace. rewrite app_nil_r. replace n with (k + (n - k)) at 1 by lia.
  rewrite seq_app, map_app, <- app_assoc. reflexivity.
Qed.

Lemma skipn_nth B (ys : list B) : forall i v, nth_error ys i = Some v -> skipn i ys = v :: skipn (S i) ys.
Proof. induction ys as [|y ys IH]; intros [|i] v E; try discriminate; [now injection E as ->|exact (IH i v E)]. Qed.
Lemma zip_items B (it : iterator B) ys : iterates it ys Completed -> forall n i, i <= length ys ->
  zip_from it i (seq i n) Open = (combine (seq i n) (skipn i ys), if n <=? length ys - i then Open else Completed).
Proof.
  intros [H1 H2]. induction n as [|n IH]; intros i L; [reflexivity|]. cbn [seq zip_from]. destruct (Nat.eq_dec i (length ys)) as [->|Ne].
  - destruct H2 as [[-> _]|[_ H2]]; [|discriminate]. rewrite Nat.sub_diag, skipn_all. now destruct n.
  - destruct (H1 i ltac:(lia)) as (v & E & ->). rewrite IH by lia. rewrite (skipn_nth _ _ E). cbn [combine].
    replace (S n <=? length ys - i) with (n <=? length ys - S i); [reflexivity|]. destruct (n <=? length ys - S i) eqn:L1; symmetry; [apply Nat.leb_le|apply Nat.leb_gt]; [apply Nat.leb_le in L1|apply Nat.leb_gt in L1]; lia.
Qed.
Lemma combine_firstn_l A B (xs : list A) : forall (ys : list B), combine xs ys = combine xs (firstn (length xs) ys).
Proof. induction xs as [|x xs IH]; intros [|y ys]; cbn; [reflexivity..|]. now rewrite IH. Qed.
Lemma combine_longer A B (xs zs : list A) : forall (ys : list B), length ys <= length xs -> combine (xs ++ zs) ys = combine xs ys.
Proof. induction xs as [|x xs IH]; intros [|y ys] L; cbn in *; [now destruct zs|lia|reflexivity|]. f_equal. apply IH. lia. Qed.
Lemma ticks_zip B (it : iterator B) ys sec per l : per <> 0%Z -> iterates it ys Completed ->
  (makes (Stage (SZip nat it) (Ticking sec per)) l <->
   l = trace (combine (seq 0 (length ys)) ys) Completed \/ exists k, k <= length ys /\ l = trace (combine (seq 0 k) (firstn k ys)) Open).
Proof.
  intros Hp Hi. rewrite ticks_stage by exact Hp. cbn [result_of]. split.
  - intros (n & vs & e & E & ->). rewrite (zip_items Hi) in E by lia. cbn [skipn] in E. rewrite Nat.sub_0_r in E. destruct (n <=? length ys) eqn:L; injection E as <- <-.
    + apply Nat.leb_le in L. right. exists n. split; [exact L|]. rewrite combine_firstn_l, seq_length. reflexivity.
    + apply Nat.leb_gt in L. left. replace n with (length ys + (n - length ys)) by lia. rewrite seq_app, combine_longer by (now rewrite seq_length). reflexivity.
  - intros [->|(k & Hk & ->)].
    + exists (S (length ys)). eexists _, _. split; [rewrite (zip_items Hi) by lia; reflexivity|]. rewrite Nat.sub_0_r. replace (S (length ys) <=? length ys) with false by (symmetry; apply Nat.leb_gt; lia).
      rewrite seq_S, combine_longer by (now rewrite seq_length). reflexivity.
    + exists k. eexists _, _. split; [rewrite (zip_items Hi) by lia; reflexivity|]. rewrite Nat.sub_0_r. apply Nat.leb_le in Hk as ->. cbn [skipn]. rewrite (combine_firstn_l (seq 0 k) ys), seq_length. reflexivity.
Qed.

Lemma ticks_alike sec per sec' per' : per <> 0%Z -> per' <> 0%Z -> alike (Ticking sec per) (Ticking sec' per').
Proof. intros Hp Hp' l. now rewrite (ticks_make sec l Hp), (ticks_make sec' l Hp'). Qed.
Lemma ticks_concat sec per cs : per <> 0%Z -> Forall lively cs -> alike (concat_seq_ (Ticking sec per :: cs)) (Ticking sec per).
Proof.
  intros Hp Hc. apply regular_alike; [apply (lively_concat_seq (l := Ticking sec per :: cs)); constructor; [apply lively_ticks|exact Hc]|exact I|].
  intros vs e. rewrite means_concat_seq. pose proof (regular_means (Ticking sec per) I) as Hm. split.
  - intros T. inversion T as [|x r us ws d M T' Ex Ev|x r us d M Ne Ex Ev Ed]; subst; [|exact M].
    apply Hm, (ticks_outcome sec us Completed Hp) in M as [_ M]. discriminate.
  - intros M. apply turn_last; [exact M|]. apply Hm, (ticks_outcome sec vs e Hp) in M as [_ ->]. discriminate.
Qed.
Lemma ticks_caught sec per handler : alike (Caught (Ticking sec per) handler) (Ticking sec per).
Proof.
  intros l. rewrite caught_makes. split.
  - intros (vs & e & R & ->). inversion R as [P us d M Ne|P us x Q ws d M E R'|P us x M E]; subst; [exact M|..]; exfalso; apply (ticks_reliable sec per _ x M); apply in_or_app; right; now left.
  - intros M. destruct (outcomes (c := Ticking sec per) I M) as (vs & e & O & ->). exists vs, e. split; [|reflexivity]. apply rec_end; [exact O|].
    intros x ->. apply (ticks_reliable sec per _ x O). apply in_or_app. right. now left.
Qed.
Lemma ticks_timeout sec per due l : per <> 0%Z -> (makes (take_until_of (Ticking sec per) (Timer due)) l <-> exists n, l = trace (seq 0 n) Completed).
Proof.
  intros Hp. rewrite (timeout due l (lively_ticks sec per)). split.
  - intros (vs & e & O & [(Ne & ->)|(us & P & ->)]); apply (ticks_outcome sec vs e Hp) in O as [Ev ->]; [now elim Ne|].
    exists (length us). rewrite Ev in P. destruct P as [r E]. pose proof (f_equal (firstn (length us)) E) as G. rewrite firstn_app, Nat.sub_diag, firstn_O, app_nil_r, firstn_all in G.
    rewrite <- G at 1. rewrite first_ticks; [reflexivity|]. apply (f_equal (@length nat)) in E. rewrite app_length, seq_length in E. lia.
  - intros (n & ->). exists (seq 0 n), Open. split; [apply (ticks_outcome sec _ _ Hp); now rewrite seq_length|]. right. exists (seq 0 n). split; [apply prefix_refl|reflexivity].
Qed.
Lemma prefix_ticks us n : prefix us (seq 0 n) -> us = seq 0 (length us).
Proof.
  intros [r E]. pose proof (f_equal (firstn (length us)) E) as G. rewrite firstn_app, Nat.sub_diag, firstn_O, app_nil_r, firstn_all in G.
  rewrite <- G at 1. apply first_ticks. apply (f_equal (@length nat)) in E. rewrite app_length, seq_length in E. lia.
Qed.
Lemma ticks_merge sec per c l : per <> 0%Z -> lively c ->
  (makes (merge_ c (Ticking sec per)) l <->
   exists us d n vs, outcome c us d /\ shuffle us (seq 0 n) vs /\ l = trace vs (match d with Failed x => Failed x | _ => Open end)).
Proof.
  intros Hp Lc. rewrite (merge_is Lc (lively_ticks sec per)). split.
  - intros (vs & e & (us & d & ws & d' & O & O' & H) & ->). apply (ticks_outcome sec ws d' Hp) in O' as [Ew ->]. destruct e as [|x|].
    + destruct H as [H S]. exists us, d, (length ws), vs. rewrite <- Ew. split; [exact O|]. split; [exact S|]. destruct H as [[-> _]|[[-> H]|[-> _]]]; [reflexivity|discriminate|reflexivity].
    + destruct H as [[-> (ws' & P & S)]|[H _]]; [|discriminate]. exists us, (Failed x), (length ws'), vs. rewrite Ew in P. rewrite <- (prefix_ticks _ P). auto.
    + destruct H as (_ & H & _). discriminate.
  - intros (us & d & n & vs & O & S & ->). eexists vs, _. split; [|reflexivity]. exists us, d, (seq 0 n), Open. split; [exact O|]. split; [apply (ticks_outcome sec _ _ Hp); now rewrite seq_length|].
    destruct d as [|x|]; [split; [now left|exact S]| |split; [now right; right|exact S]]. left. split; [reflexivity|]. exists (seq 0 n). split; [apply prefix_refl|exact S].
Qed.
Lemma turn_same X A (M N : X -> list A -> ending -> Prop) oe xs vs e : (forall x, same (M x) (N x)) -> in_turn M oe xs vs e -> in_turn N oe xs vs e.
Proof. intros H. induction 1 as [|x r vs ws e H1 H2 IH|x r vs e H1 H2]; [constructor|apply turn_next; [now apply H|exact IH]|apply turn_last; [now apply H|exact H2]]. Qed.
Lemma ticks_concat_map A sec per (f : nat -> cold A) l : per <> 0%Z -> (forall i, lively (f i)) ->
  (makes (concat_map_ f (Ticking sec per)) l <-> exists n vs e, in_turn (fun i => outcome (f i)) Open (seq 0 n) vs e /\ l = trace vs e).
Proof.
  intros Hp Hf.
  assert (Rl : reliable (Stage (SMap (fun x : nat => Ok x)) (Ticking sec per))).
  { intros m x M. apply (named_alike (lively_ticks sec per)) in M. exact (ticks_reliable sec per _ x M). }
  assert (Rg : regular (concat_map_ f (Ticking sec per))).
  { split; [right; split; [reflexivity|exact Rl]|]. split; [exact I|intros x; exact (proj1 (Hf x))]. }
  rewrite (regular_makes _ Rg). split.
  - intros (vs & e & (xs & oe & M & T) & ->). apply (proj1 (means_named _ _ _)) in M. apply (regular_means (Ticking sec per) I), (ticks_outcome sec xs oe Hp) in M as [Ex ->]. cbn in T.
    exists (length xs), vs, e. rewrite <- Ex. split; [|reflexivity]. refine (@turn_same _ _ _ _ _ _ _ _ _ T). intros x. apply outcome_same. apply Hf.
  - intros (n & vs & e & T & ->). exists vs, e. split; [|reflexivity]. exists (seq 0 n), Open. split.
    + apply means_named, (regular_means (Ticking sec per) I), (ticks_outcome sec _ _ Hp). now rewrite seq_length.
    + cbn. refine (@turn_same _ _ _ _ _ _ _ _ _ T). intros x vs' e'. symmetry. apply outcome_same. apply Hf.
Qed.
