(** * Property C98: interval and timer in front of debounce. *)
From Coq Require Import Lia Sorting.Sorted.
From Verif Require Import DebouncedProofs DebounceProofs Properties1.
Set Implicit Arguments.
Local Open Scope Z_scope.

(** ** C98 *)

(** Whatever the steps are restricted to ([ok]: not at all, or to prompt ones) and whatever the event loop does: unless the subscription is disposed, only elements get through, never one twice or out of order. *)
Theorem C98_in_order : forall seconds period d ok t0 h j, jreach seconds period d ok t0 h j -> period <> 0 -> ~ In JCancel h ->
  exists is, map fst (j_asked j) = map OnNext is /\ StronglySorted lt is /\ forall i, In i is -> exists t, nth_error (j_made j) i = Some (OnNext i, t).
Proof.
  intros seconds period d ok t0 h j R Pz C. destruct (jreach_any R) as (hk & hd & P). pose proof (log_elements P Pz C) as El. destruct (d_in_order (jp_d P)) as [So V].
  exists (map (fun x => snd (fst x)) (d_log (snd j))). rewrite numbers_all in So.
  2:{ intros n i F. apply in_map_iff in F as ([[m q] t] & G & F). cbn in G. injection G as <- <-. exact (El _ _ _ F). }
  rewrite map_map in So. split; [|split; [exact So|]].
  - unfold j_asked. rewrite !map_map. apply map_ext_in. intros [[n i] t] F. exact (El _ _ _ F).
  - intros i F. apply in_map_iff in F as ([[n q] t] & G & F). cbn in G. subst q. pose proof (El _ _ _ F) as ->. specialize (V _ _ _ F).
    rewrite nth_error_map, (jp_calls P) in V. fold (j_made j) in V. destruct (nth_error (j_made j) i) as [[m b]|]; [|discriminate]. cbn in V. injection V as ->. now exists b.
Qed.
Print Assumptions C98_in_order.

(** If nothing is late and interval is slower than debounce, every element gets through, and comes exactly [d] later: it is interval(seconds + d, period). *)
Theorem C98_slow : forall seconds period d t0 h j, jreach seconds period d (j_prompt seconds) t0 h j -> Z.max 0 d < period -> ~ In JCancel h -> j_idle j ->
  exists n, j_asked j = map (fun i => (OnNext i, t0 + Z.max 0 seconds + Z.of_nat i * period + Z.max 0 d)) (seq 0 n) /\
    forall i, t0 + Z.max 0 seconds + Z.of_nat i * period + Z.max 0 d < j_now j -> (i < n)%nat.
Proof.
  intros seconds period d t0 h j R L C W. destruct (j_slow R L C W) as (n & E & H). exists n. split; [|exact H]. rewrite E. unfold beats. apply map_ext. intros i. f_equal. lia.
Qed.
Print Assumptions C98_slow.

(** If interval is faster than debounce, nothing gets through, ever. *)
Theorem C98_fast : forall seconds period d t0 h j, jreach seconds period d (j_prompt seconds) t0 h j -> period <> 0 -> period < d -> 0 < d -> ~ In JCancel h ->
  j_asked j = [].
Proof. intros seconds period d t0 h j. apply j_fast. Qed.
Print Assumptions C98_fast.

(** The element of a timer does not get through, whatever the times, and whatever the event loop does: its completion overtakes it. *)
Theorem C98_timer : forall seconds d ok t0 h j, jreach seconds 0 d ok t0 h j -> j_idle j -> j_made j <> [] ->
  delivers (psys well_behaved (safe PEnd)) (map fst (j_asked j)) [OnCompleted].
Proof.
  intros seconds d ok t0 h j R W M. destruct (j_timer R eq_refl W M) as [r ->]. exact (C03_nothing_lost (OnCompleted :: r)).
Qed.
Print Assumptions C98_timer.

(** interval(1, 5).debounce(3), subscribed at 10; *)
Definition hist98 : list jlabel :=
  [JTurn; JTick 1; JTurn; JWork; JTick 3; JSleep 0; JWork; JTick 2; JTurn; JWork; JTick 3; JSleep 1; JWork; JTick 1].
Example C98_case : exists j, jreach 1 5 3 (j_prompt 1) 10 hist98 j /\ ~ In JCancel hist98 /\ j_idle j /\
  j_made j = [(OnNext 0%nat, 11); (OnNext 1%nat, 16)] /\ j_asked j = [(OnNext 0%nat, 14); (OnNext 1%nat, 19)].
Proof.
  eexists. split; [change hist98 with ([] ++ hist98); eapply j_run_ok; [apply jr_nil|vm_compute; reflexivity]|].
  split; [cbn; intuition discriminate|]. repeat split.
Qed.
(** interval(1, 2).debounce(3); *)
Definition hist98f : list jlabel :=
  [JTurn; JTick 1; JTurn; JWork; JTick 2; JTurn; JWork; JTick 1; JSleep 0; JWork; JTick 1; JTurn; JWork; JTick 1; JSleep 1; JWork; JTick 1].
Example C98_fast_case : exists j, jreach 1 2 3 (j_prompt 1) 10 hist98f j /\ ~ In JCancel hist98f /\ j_idle j /\
  j_made j = [(OnNext 0%nat, 11); (OnNext 1%nat, 13); (OnNext 2%nat, 15)].
Proof.
  eexists. split; [change hist98f with ([] ++ hist98f); eapply j_run_ok; [apply jr_nil|vm_compute; reflexivity]|].
  split; [cbn; intuition discriminate|]. repeat split.
Qed.
(** timer(2).debounce(3). *)
Definition hist98t : list jlabel := [JTurn; JTick 2; JTurn; JWork; JWork; JTick 3; JSleep 0; JSleep 1; JWork; JWork].
Example C98_timer_case : exists j, jreach 2 0 3 (j_prompt 2) 10 hist98t j /\ j_idle j /\ j_made j = [(OnNext 0%nat, 12); (OnCompleted, 12)] /\
  j_asked j = [(OnCompleted, 12); (OnNext 0%nat, 15); (OnCompleted, 15)].
Proof.
  eexists. split; [change hist98t with ([] ++ hist98t); eapply j_run_ok; [apply jr_nil|vm_compute; reflexivity]|]. repeat split.
Qed.
