(** * Property C99: operators that are made once and used several times.

    slice(start, stop, step) is a function of observables that changes its own variable
    [start]; zip_seq(it) with an iterator [it] lets all subscriptions take from [it]. *)
From Verif Require Import ReuseProofs.
From Coq Require Import Sorted.
Set Implicit Arguments.

(** ** slice *)
(** Applied to a source after any number [n] of other sources, the operator does what it does
    when it is new: it raises the same, or what the subscriber is told is the same, for all
    calls of the source, all that follows, all (also raising) subscribers and schedules. *)
Theorem C99_slice : forall Z0 A (pol : policy Z0) (isn : A -> bool) start stop step n,
  match nth_use (Z0 := Z0) isn start stop step n, slice_ (Z0 := Z0) isn start stop step with
  | Ok opr, Ok fresh => forall r ms, behaves_like (psys pol (safe (opr r))) ms (psys pol (safe (fresh r))) ms
  | Err x, Err y => x = y
  | _, _ => False
  end.
Proof.
  intros Z0 A pol isn start stop step n. unfold nth_use.
  destruct n as [|n].
  - cbn. destruct (slice_ isn start stop step); [|reflexivity]. intros r ms l. reflexivity.
  - rewrite start_after_iter. destruct (start_after_same stop start) as [->|(-> & -> & j & -> & Hj)].
    + destruct (slice_ isn start stop step); [|reflexivity]. intros r ms l. reflexivity.
    + unfold slice_. rewrite Hj. cbn [Z.ltb Z.compare]. destruct (take_ (j - 0)); [|reflexivity].
      destruct (1 <? step)%Z; [|destruct (step <? 0)%Z; [reflexivity|]]; intros r ms; apply skip0.
Qed.
Print Assumptions C99_slice.

(** The variable does change: slice(None, 2) becomes slice(0, 2). *)
Example C99_slice_case :
  start_after (Some 2%Z) None = Some 0%Z /\
  exists opr, nth_use (Z0 := nat) (fun _ => false) None (Some 2%Z) 1 3 = Ok opr /\
  delivers (psys well_behaved (safe (opr PEnd))) [OnNext 1; OnNext 2; OnNext 3; OnCompleted] [OnNext 1; OnNext 2; OnCompleted].
Proof.
  split; [reflexivity|]. eexists. split; [reflexivity|].
  change [OnNext 1; OnNext 2; OnNext 3; OnCompleted] with (source_calls [1; 2; 3] Completed []).
  change [OnNext 1; OnNext 2; OnCompleted] with (trace [1; 2] Completed).
  apply to_subscriber. intros l. exact (slice_stage well_behaved (fun _ => false) (Some 0%Z) (Some 2%Z) 1 PEnd [1; 2; 3] [] l eq_refl).
Qed.

(** ** zip_seq with an iterator *)
(** A subscription sees what it would see with an iterator of its own over the items at its
    places: the i-th of its elements is paired with the item whose number is the number of all
    elements, of any subscription, that arrived before it. *)
Theorem C99_zip : forall Z A B (pol : policy Z) (r : pipe Z (A * B)) (it : iterator B) (h : list (nat * notif A)) k,
  behaves_like (psys pol (safe r)) (of_sub k (posts it 0 h))
    (psys pol (safe (zip_seq_ (its_items it k h) r))) (of_sub k h).
Proof.
  intros. destruct (source_calls_any (of_sub k h)) as (vs & e & junk & E). rewrite E.
  apply behaves; [apply sane_psys|apply sane_psys|]. intros l. rewrite zip_stage.
  apply safe_norm_eq. rewrite (@zip_shared_calls _ _ it k h _ _ _ E). unfold zip_out.
  destruct (zip_from (its_items it k h) 0 vs e). now rewrite norm_trace0.
Qed.
Print Assumptions C99_zip.

(** In other words, for a source that follows the grammar: *)
Theorem C99_zip_shown : forall A B (it : iterator B) (h : list (nat * notif A)) k vs e junk,
  of_sub k h = source_calls vs e junk ->
  delivers (psys well_behaved (safe PEnd)) (of_sub k (posts it 0 h)) (zip_out (its_items it k h) vs e).
Proof.
  intros A B it h k vs e junk E. unfold zip_out.
  pose proof (@zip_shared_calls _ _ it k h _ _ _ E) as Hz. unfold zip_out in Hz.
  destruct (zip_from (its_items it k h) 0 vs e) as [ps x].
  apply to_subscriber. intros l. apply safe_norm_eq. now rewrite Hz, norm_trace0.
Qed.
Print Assumptions C99_zip_shown.

(** The places of a subscription increase, it has one for each of its elements, and each place
    belongs to exactly one subscription: no item is handed out twice. *)
Theorem C99_places : forall A (h : list (nat * notif A)),
  (forall k, StronglySorted lt (places k h)) /\
  (forall k, length (places k h) = length (filter (fun c => fst c =? k) (elements h))) /\
  (forall j, j < length (elements h) -> exists! k, In j (places k h)) /\
  (forall k j, In j (places k h) -> j < length (elements h)).
Proof.
  intros A h. split; [intros; apply places_from_sorted|]. split; [intros k; apply places_length|]. split.
  - intros j Hj. destruct (nth_error (elements h) j) as [[k a]|] eqn:E; [|apply nth_error_None in E; lia].
    exists k. split; [apply (places_from_iff k (elements h) 0 j); now exists a|].
    intros k' Hk'. apply (places_from_iff k' (elements h) 0 j) in Hk'. destruct Hk' as (a' & E'). congruence.
  - intros k j H. apply places_from_bounds in H. lia.
Qed.
Print Assumptions C99_places.

(** A single subscription sees the items from the first on. *)
Theorem C99_alone : forall A B (it : iterator B) (h : list (nat * notif A)) k,
  (forall c, In c h -> fst c = k) ->
  forall i, i < length (elements h) -> its_items it k h i = it i.
Proof. intros A B it h k H i Hi. unfold its_items. rewrite places_alone by exact H. now rewrite seq_nth by exact Hi. Qed.
Print Assumptions C99_alone.

(** A subscription after others (as the second one of concat, or after catch or retry have
    subscribed again) goes on where they have stopped. *)
Theorem C99_afterwards : forall A B (it : iterator B) (before h : list (nat * notif A)) k,
  (forall c, In c before -> fst c <> k) -> (forall c, In c h -> fst c = k) ->
  forall i, i < length (elements h) -> its_items it k (before ++ h) i = it (length (elements before) + i).
Proof.
  intros A B it before h k H1 H2 i Hi. unfold its_items. rewrite places_after by assumption. f_equal.
  rewrite (nth_indep _ 0 (length (elements before) + 0)) by now rewrite map_length, seq_length.
  rewrite map_nth. now rewrite seq_nth by exact Hi.
Qed.
Print Assumptions C99_afterwards.

(** All subscriptions together post the items of a list in its order, each once, until there are
    none left, and every pair is of an element and the item at its place. *)
Theorem C99_items : forall A B (bs : list B) (h : list (nat * notif A)),
  map (fun p => snd (snd p)) (elements (posts (over bs) 0 h)) = firstn (length (elements h)) bs /\
  (forall k x b, In (k, (x, b)) (elements (posts (over bs) 0 h)) ->
   exists j, nth_error (elements h) j = Some (k, x) /\ nth_error bs j = Some b).
Proof.
  intros A B bs h. split; [apply items_posted|]. intros k x b H. apply elements_of_posts in H.
  destruct H as (j & H1 & H2). exists j. split; [exact H1|]. cbn in H2. unfold over in H2.
  destruct (nth_error bs j); [congruence|discriminate].
Qed.
Print Assumptions C99_items.

(** Not every item is seen: a call after the end of its subscription uses one up. *)
Theorem C99_lost_refuted : exists (h : list (nat * notif nat)),
  delivers (psys well_behaved (safe PEnd)) (of_sub 0 (posts (over [7; 8; 9]) 0 h)) [OnCompleted] /\
  delivers (psys well_behaved (safe PEnd)) (of_sub 1 (posts (over [7; 8; 9]) 0 h)) [OnNext (5, 8)].
Proof.
  exists [(0, OnCompleted); (0, OnNext 4); (1, OnNext 5)]. split.
  - exact (@C99_zip_shown nat nat (over [7; 8; 9]) [(0, OnCompleted); (0, OnNext 4); (1, OnNext 5)] 0 [] Completed [OnNext 4] eq_refl).
  - exact (@C99_zip_shown nat nat (over [7; 8; 9]) [(0, OnCompleted); (0, OnNext 4); (1, OnNext 5)] 1 [5] Open [] eq_refl).
Qed.
Print Assumptions C99_lost_refuted.

(** Two subscriptions share [7; 8; 9]; the second one completes when the items are used up. *)
Example C99_zip_case : let h := [(0, OnNext 1); (1, OnNext 2); (0, OnNext 3); (1, OnNext 4)] in
  places 0 h = [0; 2] /\ places 1 h = [1; 3] /\
  delivers (psys well_behaved (safe PEnd)) (of_sub 0 (posts (over [7; 8; 9]) 0 h)) [OnNext (1, 7); OnNext (3, 9)] /\
  delivers (psys well_behaved (safe PEnd)) (of_sub 1 (posts (over [7; 8; 9]) 0 h)) [OnNext (2, 8); OnCompleted].
Proof.
  split; [reflexivity|]. split; [reflexivity|]. split.
  - exact (@C99_zip_shown nat nat (over [7; 8; 9]) [(0, OnNext 1); (1, OnNext 2); (0, OnNext 3); (1, OnNext 4)] 0 [1; 3] Open [] eq_refl).
  - exact (@C99_zip_shown nat nat (over [7; 8; 9]) [(0, OnNext 1); (1, OnNext 2); (0, OnNext 3); (1, OnNext 4)] 1 [2; 4] Open [] eq_refl).
Qed.

(** The second subscription after the first one, which has used two items. *)
Example C99_afterwards_case : forall i, i < 2 ->
  its_items (over [7; 8; 9; 10]) 1 ([(0, OnNext 1); (0, OnNext 2); (0, OnCompleted)] ++ [(1, OnNext 1); (1, OnNext 2)]) i =
  over [7; 8; 9; 10] (2 + i).
Proof.
  refine (@C99_afterwards nat nat (over [7; 8; 9; 10]) [(0, OnNext 1); (0, OnNext 2); (0, OnCompleted)] [(1, OnNext 1); (1, OnNext 2)] 1 _ _).
  - intros c [<-|[<-|[<-|[]]]]; discriminate.
  - intros c [<-|[<-|[]]]; reflexivity.
Qed.
