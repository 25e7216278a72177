(** * Property C64: concat, concat_map, merge and flat_map of cold observables.

    [content o] are the elements and the ending of the inner observable [o];
    the outer source sends the observables [os] and then ends with [oe].
    [follows]: the outer source and the subscriptions make their calls, in
    their order, at any time; nothing is disposed, subscribe_async does not
    raise.  [finished]: all calls have been made and the worker rests. *)
From Verif Require Import ColdProofs Ops3Proofs.
Set Implicit Arguments.

Notation script content := (fun o => script_of (content o)).

(** concat_seq, concat_map (max_concurrent = 1): at the end the subscriber has
    got the elements of the first observable, then those of the second, ..., up
    to the first that failed or did not end; and completion at the end of all. *)
Theorem C64_concat : forall O A (content : O -> list A * ending) os oe h (s : mstate O A),
  (forall x, oe <> Failed x) ->
  mreach 1 h s -> follows (script content) (trace os oe) h s -> finished (script content) (trace os oe) 1 h s ->
  delivers (psys well_behaved (safe PEnd)) (requests (m_log s)) (one_after_the_other (map content os) oe).
Proof.
  intros O A content os oe h s Ho H F D. destruct (one_gram content oe os) as (vs & e & E).
  rewrite (concat_requests content os Ho Z.le_0_1 eq_refl H F D). exact (delivers_trace vs e E).
Qed.
Print Assumptions C64_concat.

(** Before the end, a beginning of that. *)
Theorem C64_concat_so_far : forall O A (content : O -> list A * ending) os oe h (s : mstate O A),
  (forall x, oe <> Failed x) -> mreach 1 h s -> follows (script content) (trace os oe) h s ->
  exists l, delivers (psys well_behaved (safe PEnd)) (requests (m_log s)) l /\
            prefix l (one_after_the_other (map content os) oe).
Proof.
  intros O A content os oe h s Ho H F. destruct (extends content os Ho H F) as (h' & s' & H' & F' & D' & [d Hd]).
  pose proof (concat_requests content os Ho Z.le_0_1 eq_refl H' F' D') as E. rewrite Hd in E. unfold requests in E. rewrite flat_map_app in E.
  destruct (one_gram content oe os) as (vs & e & Eg). exists (requests (m_log s)). split.
  - apply (@delivers_prefix _ _ vs e). rewrite <- Eg, <- E. eexists. reflexivity.
  - rewrite <- E. eexists. reflexivity.
Qed.
Print Assumptions C64_concat_so_far.

(** merge_inner with any bound, when all complete: the elements of all
    observables, those of each in their order, and then completion. *)
Theorem C64_merge : forall O A maxc (content : O -> list A * ending) os h (s : mstate O A),
  (0 <= maxc)%Z -> (forall o, In o os -> snd (content o) = Completed) ->
  mreach maxc h s -> follows (script content) (trace os Completed) h s -> finished (script content) (trace os Completed) maxc h s ->
  exists l, interleaves (map (fun o => fst (content o)) os) l /\
            delivers (psys well_behaved (safe PEnd)) (requests (m_log s)) (trace l Completed).
Proof.
  intros O A maxc content os h s Hm Hall H F D. assert (Ho : forall x, Completed <> Failed x) by discriminate.
  destruct (merge_all content os Ho Hm H F D eq_refl Hall) as (l & I & E). exists l. split; [exact I|]. rewrite E. exact (delivers_trace l Completed eq_refl).
Qed.
Print Assumptions C64_merge.

(** It ends: a history of this kind is not longer than a bound, and can always
    be continued to the end. *)
Theorem C64_finite : forall O A maxc (content : O -> list A * ending) os oe h (s : mstate O A),
  (forall x, oe <> Failed x) -> mreach maxc h s -> follows (script content) (trace os oe) h s ->
  length h <= 3 * (length (trace os oe) + list_sum (map (fun o => length (script content o)) os)).
Proof. intros O A maxc content os oe h s Ho H F. exact (finite content os Ho H F). Qed.
Print Assumptions C64_finite.

Theorem C64_continues : forall O A maxc (content : O -> list A * ending) os oe h (s : mstate O A),
  mreach maxc h s -> follows (script content) (trace os oe) h s ->
  finished (script content) (trace os oe) maxc h s \/
  exists l s', mreach maxc (h ++ [l]) s' /\ follows (script content) (trace os oe) (h ++ [l]) s'.
Proof.
  intros O A maxc content os oe h s H F. destruct (progress H F) as [D|(l & s' & Hs & F')]; [now left|].
  right. exists l, s'. split; [exact (mr_snoc _ H Hs)|exact F'].
Qed.
Print Assumptions C64_continues.

(** concat_map and flat_map: the outer calls are those map(f) makes. *)
Theorem C64_concat_map : forall X O A (f : X -> O) (content : O -> list A * ending) xs junk outer h (s : mstate O A),
  delivers (psys well_behaved (safe (map_ (fun x => Ok (f x)) PEnd))) (source_calls xs Completed junk) outer ->
  mreach 1 h s -> follows (script content) outer h s -> finished (script content) outer 1 h s ->
  delivers (psys well_behaved (safe PEnd)) (requests (m_log s)) (one_after_the_other (map (fun x => content (f x)) xs) Completed).
Proof.
  intros X O A f content xs junk outer h s Hd. apply (delivers_iff (sane_psys _ _)), map_stage, subscriber in Hd.
  unfold map_out in Hd. rewrite results_total in Hd. cbn [or_failed] in Hd. rewrite norm_trace0 in Hd. subst outer.
  intros H F D. rewrite <- (map_map f content). apply (@C64_concat O A content (map f xs) Completed h s); auto. discriminate.
Qed.
Print Assumptions C64_concat_map.

Theorem C64_flat_map : forall X O A (f : X -> O) (content : O -> list A * ending) xs junk outer h (s : mstate O A),
  (forall x, In x xs -> snd (content (f x)) = Completed) ->
  delivers (psys well_behaved (safe (map_ (fun x => Ok (f x)) PEnd))) (source_calls xs Completed junk) outer ->
  mreach 0 h s -> follows (script content) outer h s -> finished (script content) outer 0 h s ->
  exists l, interleaves (map (fun x => fst (content (f x))) xs) l /\
            delivers (psys well_behaved (safe PEnd)) (requests (m_log s)) (trace l Completed).
Proof.
  intros X O A f content xs junk outer h s Hall Hd. apply (delivers_iff (sane_psys _ _)), map_stage, subscriber in Hd.
  unfold map_out in Hd. rewrite results_total in Hd. cbn [or_failed] in Hd. rewrite norm_trace0 in Hd. subst outer.
  intros H F D. rewrite <- (map_map f (fun o => fst (content o))). apply (@C64_merge O A 0 content (map f xs) h s); auto; [lia|].
  intros o Ho. apply in_map_iff in Ho as (x & <- & Hx). now apply Hall.
Qed.
Print Assumptions C64_flat_map.

(** Two observables, the second of which arrives while the first runs. *)
Definition C64_content (o : nat) : list nat * ending := ([o; S o], Completed).
Definition C64_history : list (mlabel nat nat) :=
  [LOuter (OnNext 10); LWork; LInner 0 (OnNext 10); LWork; LOuter (OnNext 20); LWork; LInner 0 (OnNext 11); LInner 0 OnCompleted;
   LOuter OnCompleted; LWork; LInner 1 (OnNext 20); LInner 1 (OnNext 21); LWork; LWork; LInner 1 OnCompleted; LWork].
Example C64_case : exists s, mreach 1 C64_history s /\
  follows (script C64_content) (trace [10; 20] Completed) C64_history s /\
  finished (script C64_content) (trace [10; 20] Completed) 1 C64_history s /\
  requests (m_log s) = [OnNext 10; OnNext 11; OnNext 20; OnNext 21; OnCompleted].
Proof.
  eexists. split; [apply mrun_init; vm_compute; reflexivity|].
  assert (E : forall l, In l C64_history -> l <> LCancel /\ forall e, l <> LFail e)
    by (intros l Hl; cbn in Hl; repeat (destruct Hl as [<-|Hl]; [split; discriminate|]); contradiction).
  split; [split; [intros l Hl; now apply E|]; split; [intros e He; now apply (proj2 (E _ He) e)|]; split; [exists []; reflexivity|]|split; [split; [reflexivity|split; [|reflexivity]]|reflexivity]].
  - intros k o Ho. cbn in Ho. repeat (destruct Ho as [[= <- <-]|Ho] || destruct Ho as [Ho|Ho]); try discriminate; try contradiction; now exists [].
  - intros k o Ho. cbn in Ho. repeat (destruct Ho as [[= <- <-]|Ho] || destruct Ho as [Ho|Ho]); try discriminate; try contradiction; reflexivity.
Qed.
