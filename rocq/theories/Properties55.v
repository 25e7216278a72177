(** * Property C97: interval and timer in front of delays. *)
From Coq Require Import Lia.
From Verif Require Import ClockedProofs.
From Verif Require Programs2Proofs.
Set Implicit Arguments.
Local Open Scope Z_scope.

(** ** C97 *)

(** Whatever the event loop, the workers of the delays and the subscriber do: the [j]-th call of the subscriber has the element [j], and
    comes not before the first wait, [j] periods and all delays have passed. *)
Theorem C97_never_early : forall seconds period ds t0 h k, kreach seconds period (plain ds) k_any t0 h k -> period <> 0 ->
  forall j n u, nth_error (k_told k) j = Some (n, u) ->
  n = OnNext j /\ t0 + Z.max 0 seconds + Z.of_nat j * Z.max 0 period + total (plain ds) <= u.
Proof.
  intros seconds period ds t0 h k R Pz j n u H. destruct (k_early R) as (D & rest & E & F). rewrite through_plain in E.
  destruct (Programs2Proofs.forall2_nth F _ H) as (arr & Ha & E1 & E2). cbn [fst snd] in *.
  destruct (kreach_any R) as (hv & hd & P).
  assert (G : nth_error (v_log (fst k)) j = Some arr) by (fold (k_made k); rewrite E; rewrite nth_error_app1; [exact Ha|apply nth_error_Some; congruence]).
  destruct arr as [m t]. cbn [fst snd] in *. destruct (iv_elements (pa_iv P) Pz _ G) as [-> Le]. split; [exact E1|lia].
Qed.
Print Assumptions C97_never_early.

(** With functions in front of the delays: they see what interval calls, in that order, and nothing comes before the delays have passed. *)
Theorem C97_functions : forall seconds period ls t0 h k, kreach seconds period ls k_any t0 h k ->
  exists D rest, through ls (k_made k) = D ++ rest /\ Forall2 (fun call arr => fst call = fst arr /\ snd arr + total ls <= snd call) (k_told k) D.
Proof. intros seconds period ls t0 h k. apply k_early. Qed.
Print Assumptions C97_functions.

(** Nothing is lost, *)
Theorem C97_all : forall seconds period ls t0 h k, ls <> [] -> kreach seconds period ls k_any t0 h k -> ~ In KCancel h -> k_waiting k ->
  map fst (k_told k) = map fst (through ls (k_made k)).
Proof. intros seconds period ls t0 h k. apply k_all. Qed.
Print Assumptions C97_all.

(** and it goes on for ever: unless the subscription is disposed or the subscriber raises, any number of elements gets made,
    and everything made gets through. *)
Theorem C97_arrive : forall seconds period ls t0 h k n, period <> 0 -> kreach seconds period ls k_any t0 h k -> ~ In KCancel h -> (forall e, ~ In (KRaise e) h) ->
  exists h' k', (forall l, In l h' -> (exists dt, l = KTick dt) \/ l = KTurn \/ (exists i, l = KWork i) \/ l = KReturn) /\
    kreach seconds period ls k_any t0 (h ++ h') k' /\ (n <= length (k_made k'))%nat /\ k_waiting k'.
Proof.
  intros seconds period ls t0 h k n Pz R C Rs. destruct (k_arrive n Pz R C Rs) as (h' & k' & F & H). exists h', k'. split; [|exact H].
  intros l Hl. rewrite Forall_forall in F. specialize (F l Hl). destruct l; try contradiction; eauto.
Qed.
Print Assumptions C97_arrive.

(** Behind a delay interval does not drift (C37_no_drift_refuted says that it does in front of a slow observer): if only the event loop runs its
    task on time, its calls are made exactly at the multiples of the period, however long the subscriber's calls and the workers take, *)
Theorem C97_no_drift : forall seconds period ls t0 h k, kreach seconds period ls (ticks_on_time seconds) t0 h k -> period <> 0 ->
  k_made k = beats seconds period t0 (length (k_made k)).
Proof. intros seconds period ls t0 h k R Pz. exact (k_beats (fun _ _ H => H) Pz R). Qed.
Print Assumptions C97_no_drift.

(** and none is left out. *)
Theorem C97_no_beat_lost : forall seconds period ls t0 h k, kreach seconds period ls (ticks_on_time seconds) t0 h k -> period <> 0 ->
  ~ In KCancel h -> ivwork seconds (fst k) = None ->
  forall n, t0 + Z.max 0 seconds + Z.of_nat n * Z.max 0 period <= k_now k -> (n < length (k_made k))%nat.
Proof. intros seconds period ls t0 h k R Pz. exact (k_all_beats (fun _ _ H => H) Pz R). Qed.
Print Assumptions C97_no_beat_lost.

(** If nothing is late and the subscriber takes no time, every call comes exactly when it is due, *)
Theorem C97_exact : forall seconds period ls t0 h k, kreach seconds period ls (k_prompt seconds) t0 h k -> period <> 0 ->
  prefix (k_told k) (later (total ls) (through ls (beats seconds period t0 (length (k_made k))))).
Proof.
  intros seconds period ls t0 h k R Pz. rewrite <- (k_beats (ok := k_prompt seconds) (fun _ _ H => proj1 H) Pz R). exact (k_exact R).
Qed.
Print Assumptions C97_exact.

Theorem C97_exact_all : forall seconds period ls t0 h k, ls <> [] -> kreach seconds period ls (k_prompt seconds) t0 h k -> period <> 0 ->
  ~ In KCancel h -> k_waiting k ->
  k_told k = later (total ls) (through ls (beats seconds period t0 (length (k_made k)))).
Proof.
  intros seconds period ls t0 h k N R Pz C W. rewrite <- (k_beats (ok := k_prompt seconds) (fun _ _ H => proj1 H) Pz R). exact (k_exact_all N R C W).
Qed.
Print Assumptions C97_exact_all.

(** so that interval(a, p).delay(d) is interval(a + d, p), *)
Theorem C97_interval_delay : forall a d p t0 h k h' v, 0 <= a -> 0 <= d -> p <> 0 ->
  kreach a p (plain [d]) (k_prompt a) t0 h k ->
  ivreach (a + d) p t0 h' v -> iv_instantaneous (a + d) p t0 h' ->
  forall j x y, nth_error (k_told k) j = Some x -> nth_error (v_log v) j = Some y -> x = y.
Proof.
  intros a d p t0 h k h' v Ha Hd Pz R R' I j x [n u] Hx Hy. destruct (iv_instant R' I Pz _ Hy) as [-> ->].
  destruct (C97_exact R Pz) as [c C]. rewrite through_plain, later_beats in C by apply total_nonneg.
  assert (Hb : nth_error (k_told k ++ c) j = Some x) by (rewrite nth_error_app1; [exact Hx|apply nth_error_Some; congruence]).
  rewrite <- C in Hb. apply nth_beats in Hb. rewrite Hb. f_equal. unfold total, plain. cbn [map fold_right snd]. lia.
Qed.
Print Assumptions C97_interval_delay.

(** and timer gives its element and its completion at the same time, after its own wait and all delays. *)
Theorem C97_timer : forall seconds ls t0 h k, ls <> [] -> kreach seconds 0 ls (k_prompt seconds) t0 h k -> ~ In KCancel h -> k_waiting k -> k_made k <> [] ->
  k_told k = later (total ls) (through ls [(OnNext 0%nat, t0 + Z.max 0 seconds); (OnCompleted, t0 + Z.max 0 seconds)]).
Proof.
  intros seconds ls t0 h k N R C W M. rewrite (k_exact_all N R C W). destruct (k_timer (ok := k_prompt seconds) (fun _ _ H => proj1 H) eq_refl R) as [E|E]; [contradiction|now rewrite E].
Qed.
Print Assumptions C97_timer.

(** interval(1, 5).delay(3), subscribed at 10. *)
Definition hist97 : list klabel :=
  [KTurn; KTick 1; KTurn; KWork 0; KTick 3; KWork 0; KReturn; KTick 2; KTurn; KWork 0; KTick 3; KWork 0; KReturn; KTick 1].
Example C97_case : exists k, kreach 1 5 (plain [3]) (k_prompt 1) 10 hist97 k /\ ~ In KCancel hist97 /\ k_waiting k /\ ivwork 1 (fst k) = None /\
  k_made k = [(OnNext 0%nat, 11); (OnNext 1%nat, 16)] /\ k_told k = [(OnNext 0%nat, 14); (OnNext 1%nat, 19)].
Proof.
  eexists. split; [change hist97 with ([] ++ hist97); eapply k_run_ok; [apply kr_nil|vm_compute; reflexivity]|].
  split; [cbn; intuition discriminate|]. split; [repeat constructor|]. repeat split.
Qed.
(** timer(2).delay(3), subscribed at 10. *)
Definition hist97t : list klabel := [KTurn; KTick 2; KTurn; KWork 0; KTick 3; KWork 0; KReturn; KWork 0; KReturn].
Example C97_timer_case : exists k, kreach 2 0 (plain [3]) (k_prompt 2) 10 hist97t k /\ ~ In KCancel hist97t /\ k_waiting k /\ k_made k <> [] /\
  k_told k = [(OnNext 0%nat, 15); (OnCompleted, 15)].
Proof.
  eexists. split; [change hist97t with ([] ++ hist97t); eapply k_run_ok; [apply kr_nil|vm_compute; reflexivity]|].
  split; [cbn; intuition discriminate|]. split; [repeat constructor|]. split; [vm_compute; discriminate|reflexivity].
Qed.
