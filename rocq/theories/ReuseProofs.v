(** * Proofs about Reuse.v. *)
From Verif Require Export Reuse LawsProofs.
From Coq Require Import Sorted.
Set Implicit Arguments.

(** ** slice *)
Lemma start_after_twice stop start : start_after stop (start_after stop start) = start_after stop start.
Proof. destruct stop as [j|]; cbn; [|reflexivity]. destruct (0 <? j)%Z eqn:E; cbn; rewrite ?E; reflexivity. Qed.

Lemma start_after_iter stop start n : Nat.iter (S n) (start_after stop) start = start_after stop start.
Proof. induction n as [|n IH]; [reflexivity|]. change (Nat.iter (S (S n)) (start_after stop) start) with (start_after stop (Nat.iter (S n) (start_after stop) start)). now rewrite IH, start_after_twice. Qed.

Lemma start_after_same stop start : start_after stop start = start \/
  (start = None /\ start_after stop start = Some 0%Z /\ exists j, stop = Some j /\ (0 <? j)%Z = true).
Proof.
  destruct stop as [j|]; [|now left]. cbn. destruct (0 <? j)%Z eqn:E; [|now left].
  destruct start as [i|]; [now left|]. right. repeat split. now exists j.
Qed.

Lemma skip0 Z A (pol : policy Z) (r : pipe Z A) ms :
  behaves_like (psys pol (safe (skip_ 0 r))) ms (psys pol (safe r)) ms.
Proof.
  refine (@acts_same A A (fun Z => @skip_ Z A 0) nothing _ _ (@acts_skip A 0) (@acts_nothing A) _ Z pol r ms).
  reflexivity.
Qed.

(** ** zip_seq *)
Lemma posts_cons A B (it : iterator B) i k (n : notif A) h :
  posts it i ((k, n) :: h) =
  match n with
  | OnNext x => (k, match it i with Item b => OnNext (x, b) | IStop => OnCompleted | IRaise e => OnError e end) :: posts it (S i) h
  | OnError e => (k, OnError e) :: posts it i h
  | OnCompleted => (k, OnCompleted) :: posts it i h
  end.
Proof.
  destruct n as [x|e|]; cbn; [|reflexivity|reflexivity]. destruct (it i); reflexivity.
Qed.

Lemma of_sub_cons M k m (x : M) h : of_sub k ((m, x) :: h) = (if m =? k then [x] else []) ++ of_sub k h.
Proof. unfold of_sub. cbn. destruct (m =? k); reflexivity. Qed.

Lemma zip_shared A B (it : iterator B) k (h : list (nat * notif A)) : forall i (it' : iterator B) c,
  (forall x, x < length (places_from k i (elements h)) -> it' (c + x) = it (nth x (places_from k i (elements h)) 0)) ->
  upto_terminal (of_sub k (posts it i h)) =
  (let '(vs, e) := (fix go (ms : list (notif A)) : list A * ending :=
     match ms with
     | [] => ([], Open)
     | OnNext a :: r => let (vs, e) := go r in (a :: vs, e)
     | OnError x :: _ => ([], Failed x)
     | OnCompleted :: _ => ([], Completed)
     end) (of_sub k h) in let (ps, x) := zip_from it' c vs e in trace ps x).
Proof.
  induction h as [|[m n] h IH]; intros i it' c H; [reflexivity|].
  rewrite posts_cons. rewrite (of_sub_cons k m n h).
  destruct n as [x|e|]; cbn [elements places_from] in H; rewrite of_sub_cons; destruct (m =? k) eqn:E; cbn [app].
  - cbn [app] in H. pose proof (H 0 ltac:(cbn; lia)) as H0. cbn in H0. rewrite Nat.add_0_r in H0.
    assert (H' : forall x, x < length (places_from k (S i) (elements h)) -> it' (S c + x) = it (nth x (places_from k (S i) (elements h)) 0)).
    { intros y Hy. pose proof (H (S y) ltac:(cbn; lia)) as Hs. cbn in Hs. rewrite <- Hs. f_equal. lia. }
    specialize (IH (S i) it' (S c) H').
    match goal with |- _ = (let '(_, _) := (let (_, _) := ?g in _) in _) => destruct g as [vs e] end.
    cbn [zip_from]. rewrite H0. destruct (it i) as [b| |y]; cbn [upto_terminal].
    + rewrite IH. destruct (zip_from it' (S c) vs e) as [ps z]. reflexivity.
    + reflexivity.
    + reflexivity.
  - apply IH. exact H.
  - reflexivity.
  - apply IH. exact H.
  - reflexivity.
  - apply IH. exact H.
Qed.

Lemma zip_shared_calls A B (it : iterator B) k (h : list (nat * notif A)) vs e junk :
  of_sub k h = source_calls vs e junk ->
  upto_terminal (of_sub k (posts it 0 h)) = zip_out (its_items it k h) vs e.
Proof.
  intros E. rewrite (@zip_shared _ _ it k h 0 (its_items it k h) 0); [|intros; reflexivity].
  rewrite E. unfold source_calls, trace, zip_out.
  match goal with |- (let '(_, _) := ?g in _) = _ => assert (Hg : g = (vs, e)) end.
  { clear E. induction vs as [|v vs IH]; cbn [map app].
    - destruct e; reflexivity.
    - cbn [app map] in IH |- *. rewrite IH. reflexivity. }
  now rewrite Hg.
Qed.

Lemma places_from_bounds A k (l : list (nat * A)) : forall j x, In x (places_from k j l) -> j <= x < j + length l.
Proof.
  induction l as [|[m a] l IH]; intros j x H; [destruct H|]. cbn in *. apply in_app_or in H. destruct H as [H|H].
  - destruct (m =? k); [|destruct H]. destruct H as [<-|[]]. lia.
  - apply IH in H. lia.
Qed.

Lemma places_from_sorted A k (l : list (nat * A)) : forall j, StronglySorted lt (places_from k j l).
Proof.
  induction l as [|[m a] l IH]; intros j; [constructor|]. cbn. destruct (m =? k); cbn; [|apply IH].
  constructor; [apply IH|]. apply Forall_forall. intros x Hx. apply places_from_bounds in Hx. lia.
Qed.

Lemma places_from_iff A k (l : list (nat * A)) : forall j x,
  In (j + x) (places_from k j l) <-> exists a, nth_error l x = Some (k, a).
Proof.
  induction l as [|[m a] l IH]; intros j x.
  - cbn. split; [intros []|]. intros (a & H). now destruct x.
  - cbn. rewrite in_app_iff. destruct x as [|x]; cbn.
    + rewrite Nat.add_0_r. split.
      * intros [H|H].
        -- destruct (m =? k) eqn:E; [|destruct H]. apply Nat.eqb_eq in E. subst. now exists a.
        -- apply places_from_bounds in H. lia.
      * intros (b & H). injection H as -> ->. left. rewrite Nat.eqb_refl. now left.
    + rewrite <- (IH (S j) x). replace (S j + x) with (j + S x) by lia. split; [|now right].
      intros [H|H]; [|exact H]. destruct (m =? k); [|destruct H]. destruct H as [H|[]]. lia.
Qed.

Lemma places_length A k (h : list (nat * notif A)) :
  length (places k h) = length (filter (fun c => fst c =? k) (elements h)).
Proof.
  unfold places. generalize 0. induction (elements h) as [|[m a] l IH]; intros j; [reflexivity|].
  cbn. rewrite app_length, IH. destruct (m =? k); reflexivity.
Qed.

Lemma places_alone A k (h : list (nat * notif A)) : (forall c, In c h -> fst c = k) ->
  places k h = seq 0 (length (elements h)).
Proof.
  intros H. unfold places.
  assert (H' : forall c, In c (elements h) -> fst c = k).
  { induction h as [|[m [x|e|]] h IH]; cbn; intros c Hc; [destruct Hc| | |].
    - destruct Hc as [<-|Hc]; [exact (H (m, OnNext x) (or_introl eq_refl))|]. apply IH; [|exact Hc]. intros; apply H; now right.
    - apply IH; [|exact Hc]. intros; apply H; now right.
    - apply IH; [|exact Hc]. intros; apply H; now right. }
  clear H. generalize 0. induction (elements h) as [|[m a] l IH]; intros j; [reflexivity|].
  cbn. pose proof (H' _ (or_introl eq_refl)) as E. cbn in E. subst m. rewrite Nat.eqb_refl. cbn. f_equal.
  apply IH. intros; apply H'. now right.
Qed.

(** Which items are posted, over all subscriptions. *)
Lemma items_posted A B (bs : list B) (h : list (nat * notif A)) : forall i,
  map (fun p => snd (snd p)) (elements (posts (over bs) i h)) = firstn (length (elements h)) (skipn i bs).
Proof.
  induction h as [|[m n] h IH]; intros i; [reflexivity|]. rewrite posts_cons.
  destruct n as [x|e|]; cbn [elements]; [|apply IH|apply IH].
  unfold over at 1. destruct (nth_error bs i) as [b|] eqn:E; cbn [elements map length].
  - assert (Hs : skipn i bs = b :: skipn (S i) bs).
    { clear -E. revert bs E. induction i as [|i IH]; intros [|c bs] E; cbn in *; try discriminate.
      - now injection E as ->.
      - now apply IH. }
    rewrite Hs. cbn [firstn snd]. f_equal. apply IH.
  - assert (Hs : forall n, n >= i -> skipn n bs = []).
    { intros n Hn. apply skipn_all2. apply nth_error_None in E. lia. }
    rewrite IH, !Hs by lia. now rewrite !firstn_nil.
Qed.

Lemma elements_of_posts A B (it : iterator B) (h : list (nat * notif A)) : forall i k x b,
  In (k, (x, b)) (elements (posts it i h)) -> exists j, nth_error (elements h) j = Some (k, x) /\ it (i + j) = Item b.
Proof.
  induction h as [|[m n] h IH]; intros i k x b H; [destruct H|]. rewrite posts_cons in H.
  destruct n as [y|e|]; cbn [elements] in *; [|now apply IH|now apply IH].
  destruct (it i) as [b'| |] eqn:E; cbn [elements] in H.
  - destruct H as [H|H].
    + injection H as -> -> ->. exists 0. cbn. now rewrite Nat.add_0_r.
    + apply IH in H. destruct H as (j & H1 & H2). exists (S j). split; [exact H1|]. now rewrite <- H2, <- Nat.add_succ_comm.
  - apply IH in H. destruct H as (j & H1 & H2). exists (S j). split; [exact H1|]. now rewrite <- H2, <- Nat.add_succ_comm.
  - apply IH in H. destruct H as (j & H1 & H2). exists (S j). split; [exact H1|]. now rewrite <- H2, <- Nat.add_succ_comm.
Qed.

Lemma elements_app A (h1 h2 : list (nat * notif A)) : elements (h1 ++ h2) = elements h1 ++ elements h2.
Proof. induction h1 as [|[m [x|e|]] h1 IH]; cbn; [reflexivity|now rewrite IH|exact IH|exact IH]. Qed.

Lemma places_from_app A k (l1 l2 : list (nat * A)) : forall j,
  places_from k j (l1 ++ l2) = places_from k j l1 ++ places_from k (j + length l1) l2.
Proof.
  induction l1 as [|[m a] l1 IH]; intros j; cbn; [now rewrite Nat.add_0_r|].
  rewrite IH, app_assoc. now rewrite <- Nat.add_succ_comm.
Qed.

Lemma places_from_shift A k (l : list (nat * A)) : forall j, places_from k j l = map (Nat.add j) (places_from k 0 l).
Proof.
  assert (H : forall j n, places_from k (j + n) l = map (Nat.add j) (places_from k n l)).
  { induction l as [|[m a] l IH]; intros j n; [reflexivity|]. cbn. rewrite map_app.
    replace (S (j + n)) with (j + S n) by lia. rewrite IH. now destruct (m =? k). }
  intros j. rewrite <- (H j 0). now rewrite Nat.add_0_r.
Qed.

Lemma places_none A k (h : list (nat * notif A)) : (forall c, In c h -> fst c <> k) -> places k h = [].
Proof.
  intros H. unfold places. generalize 0. induction h as [|[m [x|e|]] h IH]; intros j; cbn; [reflexivity| | |].
  - pose proof (H _ (or_introl eq_refl)) as Hm. cbn in Hm. apply Nat.eqb_neq in Hm. rewrite Hm. cbn. apply IH. intros; apply H; now right.
  - apply IH. intros; apply H; now right.
  - apply IH. intros; apply H; now right.
Qed.

Lemma places_after A k (h1 h2 : list (nat * notif A)) :
  (forall c, In c h1 -> fst c <> k) -> (forall c, In c h2 -> fst c = k) ->
  places k (h1 ++ h2) = map (Nat.add (length (elements h1))) (seq 0 (length (elements h2))).
Proof.
  intros H1 H2. unfold places. rewrite elements_app, places_from_app.
  pose proof (@places_none A k h1 H1) as E1. unfold places in E1. rewrite E1. cbn [app].
  rewrite places_from_shift. pose proof (@places_alone A k h2 H2) as E2. unfold places in E2. now rewrite E2.
Qed.
