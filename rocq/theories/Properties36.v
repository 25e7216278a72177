(** * C09, C10, C11, C17, C18 behind a hot source.

    As in Properties2.v; here the source (a subject, say) calls the operator
    directly, with no safe_observer before it.  [safe r] is what follows.  The
    source awaits each call before it makes the next; for calls that overlap
    see C75. *)
From Verif Require Import HotMapProofs.
Set Implicit Arguments.

Tactic Notation "pipeline" uconstr(H) := apply behaves; [apply sane_psys|apply sane_psys|]; intros l; apply H.

(** ** C09 starmap on pairs *)
Theorem C09_starmap_in_pipeline : forall Z A B C (pol : policy Z) (f : A -> B -> res C) (r : pipe Z C) vs e junk,
  behaves_like (psys pol (safe (starmap_ f r))) (source_calls vs e junk)
    (psys pol (safe r)) (map_out (fun ab => f (fst ab) (snd ab)) vs e).
Proof. intros. pipeline map_stage. Qed.
Print Assumptions C09_starmap_in_pipeline.

(** ** C09 map: the elements for which the mapper does not raise.  [returned f vs]
    are the results of [f] where it returns one. *)
Theorem C09_map_hot : forall Z A B (pol : policy Z) (f : A -> res B) (r : pipe Z B) vs e junk,
  behaves_like (psys pol (map_ f (safe r))) (source_calls vs e junk)
    (psys pol (safe r)) (trace (returned f vs) e).
Proof. intros. pipeline map_hot. Qed.
Print Assumptions C09_map_hot.

Theorem C09_map_async_hot : forall Z A B (pol : policy Z) (f : A -> res B) (r : pipe Z B) vs e junk,
  behaves_like (psys pol (map_async_ f (safe r))) (source_calls vs e junk)
    (psys pol (safe r)) (trace (returned f vs) e).
Proof. intros. pipeline map_async_hot. Qed.
Print Assumptions C09_map_async_hot.

(** With nothing at all between map and the subscriber, every call is passed on,
    also after a terminal call. *)
Theorem C09_map_hot_bare : forall A B (f : A -> res B) (ms : list (notif A)),
  delivers (psys well_behaved (map_ f PEnd)) ms
    (flat_map (fun m => match m with
      | OnNext v => match f v with Ok b => [OnNext b] | Err _ => [] end
      | OnError x => [OnError x]
      | OnCompleted => [OnCompleted]
      end) ms).
Proof.
  intros. apply (delivers_iff (sane_psys _ _)), map_direct. apply flat_map_ext. intros [v|x|]; try reflexivity.
  cbn. destruct (f v); reflexivity.
Qed.
Print Assumptions C09_map_hot_bare.

Example C09_hot_case : delivers (psys well_behaved (map_ (fun a => if a =? 2 then Err ValueError else Ok (10 * a)) (safe PEnd)))
  [OnNext 1; OnNext 2; OnNext 3; OnCompleted; OnNext 4] [OnNext 10; OnNext 30; OnCompleted].
Proof.
  apply (C09_map_hot well_behaved (fun a => if a =? 2 then Err ValueError else Ok (10 * a)) PEnd [1; 2; 3] Completed [OnNext 4]).
  exact (proj2 (delivers_iff (sane_psys _ _) _ _) (proj2 (subscriber _ _) eq_refl)).
Qed.

(** ** C10 filter, choose: an element for which the function raises is dropped *)
Theorem C10_filter_hot : forall Z A (pol : policy Z) (p : A -> res bool) (r : pipe Z A) vs e junk,
  behaves_like (psys pol (filter_ p (safe r))) (source_calls vs e junk)
    (psys pol (safe r)) (trace (filter (fun v => match p v with Ok b => b | Err _ => false end) vs) e).
Proof. intros. pipeline filter_hot. Qed.
Print Assumptions C10_filter_hot.

Theorem C10_filter_async_hot : forall Z A (pol : policy Z) (p : A -> res bool) (r : pipe Z A) vs e junk,
  behaves_like (psys pol (filter_async_ p (safe r))) (source_calls vs e junk)
    (psys pol (safe r)) (trace (filter (fun v => match p v with Ok b => b | Err _ => false end) vs) e).
Proof. intros. pipeline filter_async_hot. Qed.
Print Assumptions C10_filter_async_hot.

Theorem C10_choose_hot : forall Z A B (pol : policy Z) (f : A -> res (option B)) (r : pipe Z B) vs e junk,
  behaves_like (psys pol (choose_ f (safe r))) (source_calls vs e junk)
    (psys pol (safe r)) (trace (somes (returned f vs)) e).
Proof. intros. pipeline choose_hot. Qed.
Print Assumptions C10_choose_hot.

Theorem C10_choose_async_hot : forall Z A B (pol : policy Z) (f : A -> res (option B)) (r : pipe Z B) vs e junk,
  behaves_like (psys pol (choose_async_ f (safe r))) (source_calls vs e junk)
    (psys pol (safe r)) (trace (somes (returned f vs)) e).
Proof. intros. pipeline choose_async_hot. Qed.
Print Assumptions C10_choose_async_hot.

Theorem C10_filter_hot_bare : forall A (p : A -> res bool) (ms : list (notif A)),
  delivers (psys well_behaved (filter_ p PEnd)) ms
    (filter (fun m => match m with OnNext v => match p v with Ok b => b | Err _ => false end | _ => true end) ms).
Proof.
  intros. apply (delivers_iff (sane_psys _ _)), filter_direct.
  induction ms as [|[v|x|] ms IH]; cbn; try (now rewrite IH); [reflexivity|].
  destruct (p v) as [[]|y]; cbn; now rewrite IH.
Qed.
Print Assumptions C10_filter_hot_bare.

Example C10_hot_case : delivers
  (psys well_behaved (filter_ (fun a => if a =? 2 then Err ValueError else Ok (Nat.odd a)) (safe PEnd)))
  [OnNext 1; OnNext 2; OnNext 3; OnNext 4; OnError ValueError; OnNext 5] [OnNext 1; OnNext 3; OnError ValueError].
Proof.
  apply (C10_filter_hot well_behaved (fun a => if a =? 2 then Err ValueError else Ok (Nat.odd a)) PEnd [1; 2; 3; 4] (Failed ValueError) [OnNext 5]).
  exact (proj2 (delivers_iff (sane_psys _ _) _ _) (proj2 (subscriber _ _) eq_refl)).
Qed.

(** ** C11 mapi, filteri: as behind a cold source; an exception ends the stream *)
Theorem C11_mapi_hot : forall Z A B (pol : policy Z) (f : A -> nat -> res B) (r : pipe Z B) vs e junk,
  behaves_like (psys pol (mapi_ f r)) (source_calls vs e junk)
    (psys pol (safe r)) (map_out (fun ai => f (fst ai) (snd ai)) (indexed 0 vs) e).
Proof. intros. pipeline mapi_hot. Qed.
Print Assumptions C11_mapi_hot.

Theorem C11_mapi_async_hot : forall Z A B (pol : policy Z) (f : A -> nat -> res B) (r : pipe Z B) vs e junk,
  behaves_like (psys pol (mapi_async_ f r)) (source_calls vs e junk)
    (psys pol (safe r)) (map_out (fun ai => f (fst ai) (snd ai)) (indexed 0 vs) e).
Proof. intros. pipeline mapi_async_hot. Qed.
Print Assumptions C11_mapi_async_hot.

Theorem C11_filteri_hot : forall Z A (pol : policy Z) (p : A -> nat -> res bool) (r : pipe Z A) vs e junk,
  behaves_like (psys pol (filteri_ p r)) (source_calls vs e junk)
    (psys pol (safe r))
    (let (ps, x) := results (keep (fun ai => p (fst ai) (snd ai))) (indexed 0 vs) in
     trace (map fst (somes ps)) (or_failed x e)).
Proof. intros. pipeline filteri_hot. Qed.
Print Assumptions C11_filteri_hot.

Example C11_hot_case : delivers
  (psys well_behaved (mapi_ (fun a i => if i =? 2 then Err ValueError else Ok (a + i)) PEnd))
  [OnNext 5; OnNext 6; OnNext 7; OnNext 8] [OnNext 5; OnNext 7; OnError ValueError].
Proof.
  apply (C11_mapi_hot well_behaved (fun a i => if i =? 2 then Err ValueError else Ok (a + i)) PEnd [5; 6; 7; 8] Open []).
  exact (proj2 (delivers_iff (sane_psys _ _) _ _) (proj2 (subscriber _ _) eq_refl)).
Qed.

(** ** C17, C18 scan, reduce (the accumulator may raise) *)
Theorem C17_scan_hot : forall Z A B (pol : policy Z) (f : B -> A -> res B) b (r : pipe Z B) vs e junk,
  behaves_like (psys pol (scan_ f b (safe r))) (source_calls vs e junk)
    (psys pol (safe r)) (let (bs, x) := scan_results f b vs in trace bs (or_failed x e)).
Proof. intros. pipeline scan_hot. Qed.
Print Assumptions C17_scan_hot.

Theorem C18_reduce_hot : forall Z A B (pol : policy Z) (f : B -> A -> res B) b (r : pipe Z B) vs e junk,
  behaves_like (psys pol (reduce_ f b r)) (source_calls vs e junk) (psys pol (safe r)) (reduce_res f b vs e).
Proof. intros. pipeline reduce_hot. Qed.
Print Assumptions C18_reduce_hot.

Example C18_hot_case : delivers (psys well_behaved (reduce_ (fun s a => Ok (s + a)) 0 PEnd))
  [OnNext 1; OnNext 2; OnNext 3; OnCompleted; OnNext 4; OnCompleted] [OnNext 6; OnCompleted].
Proof.
  apply (C18_reduce_hot well_behaved (fun s a => Ok (s + a)) 0 PEnd [1; 2; 3] Completed [OnNext 4; OnCompleted]).
  exact (proj2 (delivers_iff (sane_psys _ _) _ _) (proj2 (subscriber _ _) eq_refl)).
Qed.
