(** * Proofs about heapq and the loop with it. *)
From Coq Require Export Permutation.
From Verif Require Export Heap.
Set Implicit Arguments.

Lemma upd_length h i x : length (upd h i x) = length h.
Proof. revert i. induction h as [|y h IH]; intros [|i]; cbn; auto. Qed.
Lemma nth_upd h i j x d : i < length h -> nth j (upd h i x) d = if j =? i then x else nth j h d.
Proof.
  revert i j. induction h as [|y h IH]; intros i j H; [cbn in H; lia|]. destruct i, j; cbn; auto. apply IH. cbn in H. lia.
Qed.
Lemma upd_same h i d : upd h i (nth i h d) = h.
Proof. revert i. induction h as [|y h IH]; intros [|i]; cbn; auto. now rewrite IH. Qed.
Lemma upd_upd h i x y : upd (upd h i x) i y = upd h i y.
Proof. revert i. induction h as [|z h IH]; intros [|i]; cbn; auto. now rewrite IH. Qed.
Lemma upd_perm h i x d : i < length h -> Permutation (x :: h) (nth i h d :: upd h i x).
Proof.
  revert i. induction h as [|y h IH]; intros i H; [cbn in H; lia|]. destruct i as [|i]; cbn.
  - apply perm_swap.
  - rewrite perm_swap. rewrite (IH i) by (cbn in H; lia). apply perm_swap.
Qed.
Lemma move_perm h i j x : i < length h -> j < length h -> i <> j ->
  Permutation (upd (upd h i (nth j h 0)) j x) (upd h i x).
Proof.
  intros Hi Hj Hn. set (h1 := upd h i (nth j h 0)).
  assert (L : length h1 = length h) by apply upd_length.
  pose proof (upd_perm h (nth j h 0) 0 Hi) as P1. fold h1 in P1.
  assert (Hj1 : j < length h1) by lia.
  pose proof (upd_perm h1 x 0 Hj1) as P2.
  assert (E : nth j h1 0 = nth j h 0). { unfold h1. rewrite nth_upd by lia. now destruct (Nat.eqb_spec j i); [lia|]. }
  rewrite E in P2. pose proof (upd_perm h x 0 Hi) as P3.
  apply (Permutation_cons_inv (a := nth j h 0)), (Permutation_cons_inv (a := nth i h 0)).
  rewrite (perm_swap (nth j h 0) (nth i h 0) (upd h i x)).
  rewrite <- P3, <- P2. rewrite (perm_swap x (nth i h 0)), <- P1. apply perm_swap.
Qed.

Lemma par_spec i : 0 < i -> i = 2 * par i + 1 \/ i = 2 * par i + 2.
Proof. intros H. unfold par. pose proof (Nat.div_mod (i - 1) 2). pose proof (Nat.mod_upper_bound (i - 1) 2). lia. Qed.
Lemma par_left p : par (2 * p + 1) = p.
Proof. pose proof (@par_spec (2 * p + 1)). lia. Qed.
Lemma par_right p : par (S (2 * p + 1)) = p.
Proof. pose proof (@par_spec (S (2 * p + 1))). lia. Qed.

Inductive desc (s : nat) : nat -> Prop :=
| desc_refl : desc s s
| desc_child p c : desc s p -> 0 < c -> par c = p -> desc s c.
Lemma desc_le s p : desc s p -> s <= p.
Proof. induction 1 as [|p c H IH Hc E]; [lia|]. pose proof (par_spec Hc). lia. Qed.
Lemma desc_par s p : desc s p -> s < p -> desc s (par p).
Proof. intros H. destruct H as [|p c H Hc E]; [lia|]. intros _. now subst. Qed.
Lemma desc_zero p : desc 0 p.
Proof.
  induction p as [p IH] using lt_wf_ind. destruct p as [|p]; [constructor|].
  apply (@desc_child 0 (par (S p))); [|lia|reflexivity]. apply IH. pose proof (@par_spec (S p)). lia.
Qed.

Section HeapProofs.
  Variable key : nat -> Z.
  Notation K h i := (key (nth i h 0%nat)).
  (** Ordered as far as the parents from [s] on are concerned. *)
  Definition from (s : nat) (h : list nat) : Prop :=
    forall i, 0 < i < length h -> s <= par i -> (K h (par i) <= K h i)%Z.

  Lemma siftdown_spec fuel : forall h s pos x, pos < length h -> pos <= fuel -> desc s pos ->
    let g := upd h pos x in
    (forall i, 0 < i < length h -> s <= par i -> i <> pos -> (K g (par i) <= K g i)%Z) ->
    (forall i, 0 < i < length h -> par i = pos -> s < pos -> (K g (par pos) <= K g i)%Z) ->
    let r := siftdown_loop key fuel h s pos x in
    length r = length h /\ Permutation r g /\ from s r.
  Proof.
    induction fuel as [|fuel IH]; intros h s pos x Hp Hf Hd g H1 H2; cbn zeta; cbn [siftdown_loop].
    - fold g. unfold g at 1. rewrite upd_length. split; [reflexivity|]. split; [reflexivity|].
      intros i Hi Hs. unfold g in Hi. rewrite upd_length in Hi. apply H1; auto. lia.
    - destruct (Nat.ltb_spec s pos) as [Hlt|Hge].
      + pose proof (par_spec (i := pos) ltac:(lia)) as Hpar. set (p := par pos) in *.
        destruct (Z.ltb_spec (key x) (K h p)) as [Hx|Hx].
        * set (h1 := upd h pos (nth p h 0)). assert (L1 : length h1 = length h) by apply upd_length.
          assert (Eg : forall i, i <> pos -> nth i g 0 = nth i h 0). { intros i Hi. unfold g. rewrite nth_upd by lia. now destruct (Nat.eqb_spec i pos). }
          assert (Egp : nth pos g 0 = x). { unfold g. rewrite nth_upd by lia. now rewrite Nat.eqb_refl. }
          assert (E1 : forall i, i <> p -> i <> pos -> nth i (upd h1 p x) 0 = nth i h 0).
          { intros i Hi Hi'. rewrite nth_upd by lia. destruct (Nat.eqb_spec i p); [lia|]. unfold h1. rewrite nth_upd by lia. now destruct (Nat.eqb_spec i pos). }
          assert (E2 : nth p (upd h1 p x) 0 = x). { rewrite nth_upd by lia. now rewrite Nat.eqb_refl. }
          assert (E3 : nth pos (upd h1 p x) 0 = nth p h 0).
          { rewrite nth_upd by lia. destruct (Nat.eqb_spec pos p); [lia|]. unfold h1. rewrite nth_upd by lia. now rewrite Nat.eqb_refl. }
          assert (Dp : desc s p) by (apply desc_par; auto).
          pose proof (desc_le Dp) as Lp.
          destruct (IH h1 s p x) as (A & B & C); [lia|lia|exact Dp| | |].
          -- intros i Hi Hs Hn. rewrite L1 in Hi. pose proof (par_spec (i := i) ltac:(lia)) as Hpi.
             destruct (Nat.eq_dec i pos) as [->|Hip]; [fold p; rewrite E2, E3; lia|].
             rewrite (E1 i) by auto. destruct (Nat.eq_dec (par i) pos) as [Eq|Nq].
             ++ rewrite Eq, E3. pose proof (H2 i Hi Eq Hlt) as G. fold p in G. rewrite !Eg in G by lia. exact G.
             ++ destruct (Nat.eq_dec (par i) p) as [Eq|Nq'].
                ** rewrite Eq, E2. pose proof (H1 i Hi Hs Hip) as G. rewrite Eq, !Eg in G by lia. lia.
                ** rewrite E1 by auto. pose proof (H1 i Hi Hs Hip) as G. rewrite !Eg in G by lia. exact G.
          -- intros i Hi Eq Hs. rewrite L1 in Hi. pose proof (par_spec (i := p) ltac:(lia)) as Hpp. pose proof (par_spec (i := i) ltac:(lia)) as Hpi.
             rewrite (E1 (par p)) by lia. pose proof (desc_le (desc_par Dp Hs)) as Lpp.
             pose proof (H1 p ltac:(lia) Lpp ltac:(lia)) as G. rewrite !Eg in G by lia.
             destruct (Nat.eq_dec i pos) as [->|Hip]; [rewrite E3; exact G|]. rewrite (E1 i) by lia.
             pose proof (H1 i Hi ltac:(lia) Hip) as G2. rewrite Eq, !Eg in G2 by lia. lia.
          -- split; [lia|]. split; [|exact C]. rewrite B. unfold h1, g. apply move_perm; lia.
        * fold g. split; [unfold g; apply upd_length|]. split; [reflexivity|]. intros i Hi Hs. unfold g in Hi. rewrite upd_length in Hi.
          destruct (Nat.eq_dec i pos) as [->|Hn]; [|apply H1; auto]. unfold g. fold p. rewrite !nth_upd, Nat.eqb_refl by lia.
          destruct (Nat.eqb_spec p pos); lia.
      + fold g. split; [unfold g; apply upd_length|]. split; [reflexivity|]. intros i Hi Hs. unfold g in Hi. rewrite upd_length in Hi.
        apply H1; auto. intros ->. pose proof (par_spec (i := pos) ltac:(lia)). lia.
  Qed.

  Lemma siftup_loop_spec fuel : forall h s pos x, pos < length h -> length h <= pos + fuel -> desc s pos ->
    (forall i, 0 < i < length h -> s <= par i -> i <> pos -> par i <> pos -> (K h (par i) <= K h i)%Z) ->
    (forall i, 0 < i < length h -> par i = pos -> s < pos -> (K h (par pos) <= K h i)%Z) ->
    let (h', p) := siftup_loop key fuel h pos in
    length h' = length h /\ p < length h /\ desc s p /\ length h <= 2 * p + 1 /\ Permutation (upd h' p x) (upd h pos x) /\
    (forall i, 0 < i < length h -> s <= par i -> i <> p -> par i <> p -> (K h' (par i) <= K h' i)%Z).
  Proof.
    induction fuel as [|fuel IH]; intros h s pos x Hp Hf Hd HA HB; [lia|].
    cbn [siftup_loop]. destruct (Nat.ltb_spec (2 * pos + 1) (length h)) as [Hc|Hc].
    - set (c := if (S (2 * pos + 1) <? length h) && negb (K h (2 * pos + 1) <? K h (S (2 * pos + 1)))%Z then S (2 * pos + 1) else 2 * pos + 1).
      assert (Hcl : c < length h /\ 0 < c /\ par c = pos /\ pos < c).
      { unfold c. destruct (Nat.ltb_spec (S (2 * pos + 1)) (length h)); cbn [andb]; [destruct (negb _)|]; rewrite ?par_left, ?par_right; lia. }
      assert (Hmin : forall i, 0 < i < length h -> par i = pos -> (K h c <= K h i)%Z).
      { intros i Hi Ei. pose proof (par_spec (i := i) ltac:(lia)) as Hpi. rewrite Ei in Hpi. unfold c.
        destruct (Nat.ltb_spec (S (2 * pos + 1)) (length h)) as [Hr|Hr]; cbn [andb].
        - destruct (Z.ltb_spec (K h (2 * pos + 1)) (K h (S (2 * pos + 1)))) as [Hk|Hk]; cbn [negb];
            destruct Hpi as [->| ->]; replace (2 * pos + 2) with (S (2 * pos + 1)) by lia; lia.
        - assert (i = 2 * pos + 1) as -> by lia. lia. }
      clearbody c. destruct Hcl as (C1 & C2 & C3 & C4). set (h1 := upd h pos (nth c h 0)).
      assert (L1 : length h1 = length h) by apply upd_length.
      assert (E1 : forall i, i <> pos -> nth i h1 0 = nth i h 0). { intros i Hi. unfold h1. rewrite nth_upd by lia. now destruct (Nat.eqb_spec i pos). }
      assert (E2 : nth pos h1 0 = nth c h 0). { unfold h1. rewrite nth_upd by lia. now rewrite Nat.eqb_refl. }
      pose proof (desc_le Hd) as Ls.
      specialize (IH h1 s c x). destruct (siftup_loop key fuel h1 c) as [h' p]. destruct IH as (A & B & C & D & P & F).
      + lia.
      + lia.
      + apply (desc_child (p := pos)); auto.
      + intros i Hi Hs N1 N2. rewrite L1 in Hi. pose proof (par_spec (i := i) ltac:(lia)) as Hpi. destruct (Nat.eq_dec i pos) as [->|Ni].
        * rewrite E2, E1 by lia. apply HB; auto; lia.
        * rewrite (E1 i) by auto. destruct (Nat.eq_dec (par i) pos) as [Eq|Nq].
          -- rewrite Eq, E2. apply Hmin; auto.
          -- rewrite E1 by auto. apply HA; auto.
      + intros i Hi Ei Hs. rewrite L1 in Hi. pose proof (par_spec (i := i) ltac:(lia)) as Hpi. rewrite C3, E2, E1 by lia. rewrite <- Ei. apply HA; lia.
      + rewrite L1 in *. repeat split; auto. rewrite P. unfold h1. apply move_perm; lia.
    - repeat split; auto.
  Qed.

  Lemma siftup_spec h s : s < length h -> from (S s) h ->
    length (siftup key h s) = length h /\ Permutation (siftup key h s) h /\ from s (siftup key h s).
  Proof.
    intros Hs F. unfold siftup. pose proof (@siftup_loop_spec (length h) h s s (nth s h 0) Hs ltac:(lia) (desc_refl s)) as G.
    destruct (siftup_loop key (length h) h s) as [h' p]. destruct G as (A & B & C & D & P & G).
    - intros i Hi H1 H2 H3. apply F; lia.
    - intros. lia.
    - unfold siftdown. rewrite nth_upd by lia. rewrite Nat.eqb_refl.
      assert (Eu : upd (upd h' p (nth s h 0)) p (nth s h 0) = upd h' p (nth s h 0)) by apply upd_upd.
      destruct (@siftdown_spec p (upd h' p (nth s h 0)) s p (nth s h 0)) as (R1 & R2 & R3).
      + rewrite upd_length. lia.
      + lia.
      + exact C.
      + rewrite upd_length, Eu. intros i Hi Hsi Hn. pose proof (par_spec (i := i) ltac:(lia)) as Hpi.
        rewrite !nth_upd by lia. destruct (Nat.eqb_spec i p); [lia|]. destruct (Nat.eqb_spec (par i) p); [lia|]. apply G; lia.
      + rewrite upd_length. intros i Hi Ei _. pose proof (par_spec (i := i) ltac:(lia)) as Hpi. lia.
      + rewrite upd_length in R1. split; [lia|]. split; [|exact R3]. rewrite R2, Eu, P. now rewrite upd_same.
  Qed.

  Lemma heappush_spec h x : from 0 h -> Permutation (heappush key h x) (x :: h) /\ from 0 (heappush key h x).
  Proof.
    intros F. unfold heappush, siftdown. set (g := h ++ [x]). assert (L : length g = S (length h)) by (unfold g; rewrite app_length; cbn; lia).
    assert (Eg : upd g (length h) (nth (length h) g 0) = g) by apply upd_same.
    destruct (@siftdown_spec (length h) g 0 (length h) (nth (length h) g 0)) as (R1 & R2 & R3); [lia|lia|apply desc_zero| | |].
    - rewrite Eg. intros i Hi _ Hn. pose proof (par_spec (i := i) ltac:(lia)) as Hpi. unfold g. rewrite !app_nth1 by lia. apply F; lia.
    - intros i Hi Ei _. pose proof (par_spec (i := i) ltac:(lia)) as Hpi. lia.
    - split; [|exact R3]. rewrite R2, Eg. unfold g. symmetry. apply Permutation_cons_append.
  Qed.

  Lemma heap_min h i : from 0 h -> i < length h -> (K h 0 <= K h i)%Z.
  Proof.
    intros F. induction i as [i IH] using lt_wf_ind. intros Hi. destruct i as [|i]; [lia|].
    pose proof (par_spec (i := S i) ltac:(lia)) as Hpi. pose proof (IH (par (S i)) ltac:(lia) ltac:(lia)). pose proof (F (S i) ltac:(lia) ltac:(lia)). lia.
  Qed.

  Lemma heappop_spec h : from 0 h ->
    match heappop key h with
    | None => h = []
    | Some (x, h') => Permutation h (x :: h') /\ x = nth 0 h 0 /\ (forall y, In y h -> (key x <= key y)%Z) /\ from 0 h'
    end.
  Proof.
    intros F. unfold heappop. destruct h as [|x h]; [reflexivity|].
    assert (M : forall y, In y (x :: h) -> (key x <= key y)%Z).
    { intros y Hy. apply (In_nth _ _ 0) in Hy as (i & Hi & <-). apply (@heap_min (x :: h) i F Hi). }
    destruct (removelast (x :: h)) as [|z r] eqn:Er.
    - destruct h as [|y h]; [|cbn in Er; discriminate]. repeat split; auto. intros i Hi. cbn in Hi. lia.
    - assert (E : x :: h = (z :: r) ++ [last (x :: h) 0]) by (rewrite <- Er; apply app_removelast_last; discriminate).
      set (w := last (x :: h) 0) in *.
      assert (z = x) as -> by (cbn in E; congruence).
      assert (L : length (x :: r) = length h). { apply (f_equal (@length nat)) in E. rewrite app_length in E. cbn in E |- *. lia. }
      assert (F1 : from 1 (upd (x :: r) 0 w)).
      { intros i Hi Hs. rewrite upd_length in Hi. pose proof (par_spec (i := i) ltac:(lia)) as Hpi.
        pose proof (F i ltac:(cbn [length] in *; lia) ltac:(lia)) as G. rewrite E, !app_nth1 in G by lia.
        rewrite !nth_upd by (cbn; lia). destruct (Nat.eqb_spec i 0); [lia|]. destruct (Nat.eqb_spec (par i) 0); [lia|]. exact G. }
      destruct (@siftup_spec (upd (x :: r) 0 w) 0) as (S1 & S2 & S3); [rewrite upd_length; cbn; lia|exact F1|].
      repeat split; auto. rewrite S2. cbn [upd]. rewrite E. cbn. constructor. symmetry. apply Permutation_cons_append.
  Qed.

  Lemma heapify_from_spec i : forall h, i <= length h -> from i h ->
    Permutation (heapify_from key i h) h /\ from 0 (heapify_from key i h).
  Proof.
    induction i as [|i IH]; intros h Hi F; [auto|]. cbn [heapify_from]. destruct (@siftup_spec h i ltac:(lia) F) as (S1 & S2 & S3).
    destruct (IH (siftup key h i) ltac:(lia) S3) as [P G]. split; [now rewrite P|exact G].
  Qed.
  Lemma heapify_spec h : Permutation (heapify key h) h /\ from 0 (heapify key h).
  Proof.
    apply heapify_from_spec.
    - apply Nat.div_le_upper_bound; lia.
    - intros i Hi Hs. pose proof (par_spec (i := i) ltac:(lia)) as Hpi. pose proof (Nat.div_mod (length h) 2 ltac:(lia)). pose proof (Nat.mod_upper_bound (length h) 2 ltac:(lia)). lia.
  Qed.

  Lemma from_is_heap h : from 0 h <-> is_heap key h.
  Proof. unfold from, is_heap, par. split; intros F i Hi; [apply F; lia|intros _; apply F; lia]. Qed.
End HeapProofs.
