(** * Property C79: functions with side effects passed to operators. *)
From Verif Require Import EffectsProofs.
Set Implicit Arguments.

Tactic Notation "pipeline" uconstr(H) := apply behaves; [apply sane_psys|apply sane_psys|]; intros l; apply H.

(** What the specification says: [calls_made f vs] are the first [k] values;
    either no call raised and these are all values, or the last of these calls
    raised; the [i]-th result is that of the call with the [i]-th value, made
    after the calls with the values before. *)
Theorem C79_spec : forall A B (f : list A -> A -> res B) vs, exists k,
  calls_made f vs = firstn k vs /\ k <= length vs /\
  match raised f vs with
  | None => k = length vs /\ length (returned f vs) = k
  | Some e => k = S (length (returned f vs)) /\
      exists v, nth_error vs (length (returned f vs)) = Some v /\ f (firstn (length (returned f vs)) vs) v = Err e
  end /\
  (forall i b, nth_error (returned f vs) i = Some b -> exists v, nth_error vs i = Some v /\ f (firstn i vs) v = Ok b).
Proof.
  intros A B f vs. pose proof (in_order_spec f vs []) as H. unfold calls_made, raised, returned.
  destruct (in_order f [] vs) as [[cs bs] x]. exact H.
Qed.
Print Assumptions C79_spec.

(** ** The elements: the results of calling the function from left to right. *)
Theorem C79_map : forall Z A B (pol : policy Z) (f : list A -> A -> res B) (r : pipe Z B) vs e junk,
  behaves_like (psys pol (safe (pre (map_fx_op f) r))) (source_calls vs e junk)
    (psys pol (safe r)) (trace (returned f vs) (or_failed (raised f vs) e)).
Proof. intros. pipeline (map_like_stage pol r vs e junk _ (map_fx f) eq_refl). Qed.
Print Assumptions C79_map.

Theorem C79_map_async : forall Z A B (pol : policy Z) (f : list A -> A -> res B) (r : pipe Z B) vs e junk,
  behaves_like (psys pol (safe (pre (map_async_fx_op f) r))) (source_calls vs e junk)
    (psys pol (safe r)) (trace (returned f vs) (or_failed (raised f vs) e)).
Proof. intros. pipeline (map_like_stage pol r vs e junk _ (map_async_fx f) eq_refl). Qed.
Print Assumptions C79_map_async.

Theorem C79_choose : forall Z A B (pol : policy Z) (f : list A -> A -> res (option B)) (r : pipe Z B) vs e junk,
  behaves_like (psys pol (safe (pre (choose_fx_op f) r))) (source_calls vs e junk)
    (psys pol (safe r)) (trace (somes (returned f vs)) (or_failed (raised f vs) e)).
Proof. intros. pipeline (fx_stage pol r vs e junk _ (choose_fx f) eq_refl). Qed.
Print Assumptions C79_choose.

Theorem C79_choose_async : forall Z A B (pol : policy Z) (f : list A -> A -> res (option B)) (r : pipe Z B) vs e junk,
  behaves_like (psys pol (safe (pre (choose_async_fx_op f) r))) (source_calls vs e junk)
    (psys pol (safe r)) (trace (somes (returned f vs)) (or_failed (raised f vs) e)).
Proof. intros. pipeline (fx_stage pol r vs e junk _ (choose_async_fx f) eq_refl). Qed.
Print Assumptions C79_choose_async.

Theorem C79_filter : forall Z A (pol : policy Z) (p : list A -> A -> res bool) (r : pipe Z A) vs e junk,
  behaves_like (psys pol (safe (pre (filter_fx_op p) r))) (source_calls vs e junk)
    (psys pol (safe r)) (trace (somes (returned (keep_fx p) vs)) (or_failed (raised (keep_fx p) vs) e)).
Proof. intros. pipeline (fx_stage pol r vs e junk _ (filter_fx p) eq_refl). Qed.
Print Assumptions C79_filter.

Theorem C79_filter_async : forall Z A (pol : policy Z) (p : list A -> A -> res bool) (r : pipe Z A) vs e junk,
  behaves_like (psys pol (safe (pre (filter_async_fx_op p) r))) (source_calls vs e junk)
    (psys pol (safe r)) (trace (somes (returned (keep_fx p) vs)) (or_failed (raised (keep_fx p) vs) e)).
Proof. intros. pipeline (fx_stage pol r vs e junk _ (filter_async_fx p) eq_refl). Qed.
Print Assumptions C79_filter_async.

Theorem C79_mapi : forall Z A B (pol : policy Z) (f : list (A * nat) -> A * nat -> res B) (r : pipe Z B) vs e junk,
  behaves_like (psys pol (safe (zip_seq_ infinite (pre (map_fx_op f) r)))) (source_calls vs e junk)
    (psys pol (safe r)) (trace (returned f (indexed 0 vs)) (or_failed (raised f (indexed 0 vs)) e)).
Proof. intros. pipeline mapi_fx_stage. Qed.
Print Assumptions C79_mapi.

Theorem C79_scan : forall Z A B (pol : policy Z) (f : list (B * A) -> B -> A -> res B) b (r : pipe Z B) vs e junk,
  behaves_like (psys pol (safe (pre (scan_fx_op f b) (safe r)))) (source_calls vs e junk)
    (psys pol (safe r)) (let (bs, x) := scan_fx_results f [] b vs in trace bs (or_failed x e)).
Proof. intros. pipeline scan_fx_stage. Qed.
Print Assumptions C79_scan.

(** For functions without effects these are the operators of C09, C10, C17. *)
Theorem C79_pure : forall Z (pol : policy Z),
  (forall A B (f : A -> res B) (r : pipe Z B) xs e junk,
     behaves_like (psys pol (safe (pre (map_fx_op (fun _ => f)) r))) (source_calls xs e junk)
       (psys pol (safe (map_ f r))) (source_calls xs e junk)) /\
  (forall A B (f : A -> res (option B)) (r : pipe Z B) xs e junk,
     behaves_like (psys pol (safe (pre (choose_fx_op (fun _ => f)) r))) (source_calls xs e junk)
       (psys pol (safe (choose_ f r))) (source_calls xs e junk)) /\
  (forall A (p : A -> res bool) (r : pipe Z A) xs e junk,
     behaves_like (psys pol (safe (pre (filter_fx_op (fun _ => p)) r))) (source_calls xs e junk)
       (psys pol (safe (filter_ p r))) (source_calls xs e junk)) /\
  (forall A B (f : B -> A -> res B) b (r : pipe Z B) xs e junk,
     behaves_like (psys pol (safe (pre (scan_fx_op (fun _ => f) b) (safe r)))) (source_calls xs e junk)
       (psys pol (safe (scan_ f b (safe r)))) (source_calls xs e junk)).
Proof.
  intros Z pol. split; [|split; [|split]]; intros.
  - pipeline map_fx_pure.
  - pipeline choose_fx_pure.
  - pipeline filter_fx_pure.
  - pipeline scan_fx_pure.
Qed.
Print Assumptions C79_pure.

(** ** The calls.  In front of an observer that does not raise (any pipeline
    behind a safe_observer, or a subscriber that does not raise): exactly these,
    each once, in this order, none after one that raised, and none for calls of
    the source after its terminal. *)
Theorem C79_map_calls : forall Z A B (pol : policy Z) (f : list A -> A -> res B) (r : pipe Z B) vs e junk,
  noraise (pcomp pol r) ->
  calls_exactly pol (map_fx_op f) (fun h => h) r (source_calls vs e junk) (calls_made f vs).
Proof.
  intros * H. rewrite <- map_fx_calls.
  exact (@fx_exactly _ _ _ _ pol (map_fx_op f) (fun h => h) (fun h => h) r vs e junk (map_fx f) eq_refl (fun l => eq_refl) (@map_fx_mono _ _ f) H).
Qed.
Print Assumptions C79_map_calls.

Theorem C79_map_async_calls : forall Z A B (pol : policy Z) (f : list A -> A -> res B) (r : pipe Z B) vs e junk,
  noraise (pcomp pol r) ->
  calls_exactly pol (map_async_fx_op f) (fun h => h) r (source_calls vs e junk) (calls_made f vs).
Proof.
  intros * H. rewrite <- map_fx_calls.
  exact (@fx_exactly _ _ _ _ pol (map_async_fx_op f) (fun h => h) (fun h => h) r vs e junk (map_async_fx f) eq_refl (fun l => eq_refl) (@map_async_fx_mono _ _ f) H).
Qed.
Print Assumptions C79_map_async_calls.

Theorem C79_choose_calls : forall Z A B (pol : policy Z) (f : list A -> A -> res (option B)) (r : pipe Z B) vs e junk,
  noraise (pcomp pol r) ->
  calls_exactly pol (choose_fx_op f) (fun h => h) r (source_calls vs e junk) (calls_made f vs).
Proof.
  intros * H. exact (@fx_exactly _ _ _ _ pol (choose_fx_op f) (fun h => h) (fun h => h) r vs e junk (choose_fx f) eq_refl (fun l => eq_refl) (@choose_fx_mono _ _ f) H).
Qed.
Print Assumptions C79_choose_calls.

Theorem C79_choose_async_calls : forall Z A B (pol : policy Z) (f : list A -> A -> res (option B)) (r : pipe Z B) vs e junk,
  noraise (pcomp pol r) ->
  calls_exactly pol (choose_async_fx_op f) (fun h => h) r (source_calls vs e junk) (calls_made f vs).
Proof.
  intros * H. exact (@fx_exactly _ _ _ _ pol (choose_async_fx_op f) (fun h => h) (fun h => h) r vs e junk (choose_async_fx f) eq_refl (fun l => eq_refl) (@choose_async_fx_mono _ _ f) H).
Qed.
Print Assumptions C79_choose_async_calls.

Theorem C79_filter_calls : forall Z A (pol : policy Z) (p : list A -> A -> res bool) (r : pipe Z A) vs e junk,
  noraise (pcomp pol r) ->
  calls_exactly pol (filter_fx_op p) (fun h => h) r (source_calls vs e junk) (calls_made p vs).
Proof.
  intros * H. unfold calls_made. rewrite <- in_order_keep.
  exact (@fx_exactly _ _ _ _ pol (filter_fx_op p) (fun h => h) (fun h => h) r vs e junk (filter_fx p) eq_refl (fun l => eq_refl) (@filter_fx_mono _ p) H).
Qed.
Print Assumptions C79_filter_calls.

Theorem C79_filter_async_calls : forall Z A (pol : policy Z) (p : list A -> A -> res bool) (r : pipe Z A) vs e junk,
  noraise (pcomp pol r) ->
  calls_exactly pol (filter_async_fx_op p) (fun h => h) r (source_calls vs e junk) (calls_made p vs).
Proof.
  intros * H. unfold calls_made. rewrite <- in_order_keep.
  exact (@fx_exactly _ _ _ _ pol (filter_async_fx_op p) (fun h => h) (fun h => h) r vs e junk (filter_async_fx p) eq_refl (fun l => eq_refl) (@filter_async_fx_mono _ p) H).
Qed.
Print Assumptions C79_filter_async_calls.

(** scan calls its accumulator for every element, also after a call that raised. *)
Theorem C79_scan_calls : forall Z A B (pol : policy Z) (f : list (B * A) -> B -> A -> res B) b (r : pipe Z B) vs e junk,
  noraise (pcomp pol r) ->
  calls_exactly pol (scan_fx_op f b) snd r (source_calls vs e junk) (scan_calls f [] b vs) /\
  map snd (scan_calls f [] b vs) = vs.
Proof.
  intros. split; [|apply scan_calls_all]. apply exactly; [assumption|apply scan_fx_mono|apply sstate_scan].
Qed.
Print Assumptions C79_scan_calls.

(** In front of anything, also of further operators whose functions raise, and
    of subscribers that raise: at every moment a prefix of these calls. *)
Theorem C79_map_at_most : forall Z A B (pol : policy Z) (f : list A -> A -> res B) (r : pipe Z B) vs e junk cs,
  called pol (map_fx_op f) (fun h => h) r (source_calls vs e junk) cs -> prefix cs (calls_made f vs).
Proof.
  intros *. rewrite <- map_fx_calls.
  exact (@fx_at_most _ _ _ _ pol (map_fx_op f) (fun h => h) (fun h => h) r vs e junk cs (map_fx f) eq_refl (fun l => eq_refl) (@map_fx_mono _ _ f)).
Qed.
Print Assumptions C79_map_at_most.

Theorem C79_map_async_at_most : forall Z A B (pol : policy Z) (f : list A -> A -> res B) (r : pipe Z B) vs e junk cs,
  called pol (map_async_fx_op f) (fun h => h) r (source_calls vs e junk) cs -> prefix cs (calls_made f vs).
Proof.
  intros *. rewrite <- map_fx_calls.
  exact (@fx_at_most _ _ _ _ pol (map_async_fx_op f) (fun h => h) (fun h => h) r vs e junk cs (map_async_fx f) eq_refl (fun l => eq_refl) (@map_async_fx_mono _ _ f)).
Qed.
Print Assumptions C79_map_async_at_most.

Theorem C79_choose_at_most : forall Z A B (pol : policy Z) (f : list A -> A -> res (option B)) (r : pipe Z B) vs e junk cs,
  called pol (choose_fx_op f) (fun h => h) r (source_calls vs e junk) cs -> prefix cs (calls_made f vs).
Proof.
  intros *. exact (@fx_at_most _ _ _ _ pol (choose_fx_op f) (fun h => h) (fun h => h) r vs e junk cs (choose_fx f) eq_refl (fun l => eq_refl) (@choose_fx_mono _ _ f)).
Qed.
Print Assumptions C79_choose_at_most.

Theorem C79_filter_at_most : forall Z A (pol : policy Z) (p : list A -> A -> res bool) (r : pipe Z A) vs e junk cs,
  called pol (filter_fx_op p) (fun h => h) r (source_calls vs e junk) cs -> prefix cs (calls_made p vs).
Proof.
  intros *. unfold calls_made. rewrite <- in_order_keep.
  exact (@fx_at_most _ _ _ _ pol (filter_fx_op p) (fun h => h) (fun h => h) r vs e junk cs (filter_fx p) eq_refl (fun l => eq_refl) (@filter_fx_mono _ p)).
Qed.
Print Assumptions C79_filter_at_most.

(** Behind a source that calls the operator directly (a subject) the function
    is called for every element, also after a call that raised and after the
    terminal. *)
Theorem C79_map_hot : forall Z A B (pol : policy Z) (f : list A -> A -> res B) (r : pipe Z B) ms s,
  run (pcomp pol (PSync (map_fx_op f) r)) (pinit pol (PSync (map_fx_op f) r)) ms s -> fst s = elements ms.
Proof. intros Z A B pol f r ms s R. exact (@hot_calls _ _ _ _ pol (map_fx_op f) (fun h => h) r (map_fx f) _ ms s R [] eq_refl). Qed.
Print Assumptions C79_map_hot.

(** A function that counts its calls and fails on the third. *)
Example C79_case : behaves_like
  (psys well_behaved (safe (pre (map_fx_op (fun h a => if length h =? 2 then Err ValueError else Ok (a + length h))) PEnd))) [OnNext 5; OnNext 5; OnNext 5; OnNext 5; OnCompleted; OnNext 1]
  (psys well_behaved (safe PEnd)) [OnNext 5; OnNext 6; OnError ValueError].
Proof. exact (C79_map well_behaved (fun h a => if length h =? 2 then Err ValueError else Ok (a + length h)) PEnd [5; 5; 5; 5] Completed [OnNext 1]). Qed.

Example C79_case_calls : calls_exactly well_behaved (map_fx_op (fun h a => if length h =? 2 then Err ValueError else Ok (a + length h))) (fun h => h) PEnd
  [OnNext 5; OnNext 6; OnNext 7; OnNext 8; OnCompleted; OnNext 1] [5; 6; 7].
Proof. exact (@C79_map_calls _ _ _ well_behaved (fun h a => if length h =? 2 then Err ValueError else Ok (a + length h)) PEnd [5; 6; 7; 8] Completed [OnNext 1] (@noraise_end nat)). Qed.

Example C79_case_pipeline : forall (pol : policy nat), noraise (pcomp pol (safe (filter_ (fun x => Ok (Nat.even x)) PEnd))).
Proof. intros pol. apply noraise_safe. Qed.
