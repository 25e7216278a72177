(** * Property C101: interval and timer in front of a pipeline of operators.

    [zreach seconds period U pol p ok t0 h z]: interval(seconds, period) in front
    of the pipeline [p] with a subscriber of policy [pol] (which calls raise) is
    subscribed at time [t0]; [h] is what happened since (time passing, turns of
    the task of interval, steps of the workers of [p], disposal), every step being
    [ok].  [z_made]: the calls made by interval with their times; [z_told]: the
    calls the subscriber has got with their times.  [by_time t l]: those of [l]
    up to time [t]. *)
From Verif Require Import TickingProofs.
Set Implicit Arguments.
Local Open Scope Z_scope.

(** Whatever the event loop does, the subscriber gets what the pipeline makes of the calls of interval: every theorem about
    pipelines behind a hot source (C06-C20, C75-C77) says what that is. *)
Theorem C101_pipeline : forall seconds period U pol p ok t0 h z l, zreach seconds period U pol p ok t0 h z ->
  delivers (psys pol p) (map fst (z_made z)) l ->
  prefix (map fst (z_told z)) l /\ (z_quiet z -> map fst (z_told z) = l).
Proof. intros seconds period U pol p ok t0 h z l R D. exact (z_delivers R D). Qed.
Print Assumptions C101_pipeline.

(** The calls of interval are 0, 1, 2, ...; those of a timer 0 and the completion. *)
Theorem C101_elements : forall seconds period U pol p ok t0 h z, zreach seconds period U pol p ok t0 h z ->
  (period <> 0 -> map fst (z_made z) = map OnNext (seq 0 (length (z_made z)))) /\
  (period = 0 -> prefix (map fst (z_made z)) [OnNext 0%nat; OnCompleted]).
Proof.
  intros seconds period U pol p ok t0 h z R. split; [exact (z_elements R)|]. intros ->.
  destruct (jo_iv (zreach_joint R)) as [hv Iv]. exact (iv_timer_calls Iv).
Qed.
Print Assumptions C101_elements.

(** If nothing is late, the subscriber has got at every moment what the pipeline makes of the calls made up to then, *)
Theorem C101_on_time : forall seconds period U pol p t0 h z t l, zreach seconds period U pol p (@z_prompt seconds U pol p) t0 h z ->
  t0 <= t < z_now z -> delivers (psys pol p) (by_time t (z_made z)) l -> by_time t (z_told z) = l.
Proof. intros seconds period U pol p t0 h z t l R T (_ & D & _). exact (D _ (z_on_time R T)). Qed.
Print Assumptions C101_on_time.

(** and interval does not drift: its calls are made exactly at the multiples of the period, *)
Theorem C101_no_drift : forall seconds period U pol p t0 h z, zreach seconds period U pol p (@z_prompt seconds U pol p) t0 h z -> period <> 0 ->
  z_made z = beats seconds period t0 (length (z_made z)).
Proof. intros seconds period U pol p t0 h z R Pz. exact (z_beats Pz R). Qed.
Print Assumptions C101_no_drift.

(** and unless it is disposed or an observer of the pipeline raises, none is left out. *)
Theorem C101_no_beat_lost : forall seconds period U pol p t0 h z, zreach seconds period U pol p (@z_prompt seconds U pol p) t0 h z -> period <> 0 ->
  (forall s m, snd (ccall (pcomp pol p) s m) = None) -> ~ In ZCancel h -> ivwork seconds (z_iv z) = None ->
  forall n, t0 + Z.max 0 seconds + Z.of_nat n * Z.max 0 period <= z_now z -> (n < length (z_made z))%nat.
Proof. intros seconds period U pol p t0 h z R Pz Hc C W n D. exact (z_all_beats Hc Pz R C W n D). Qed.
Print Assumptions C101_no_beat_lost.

(** It goes on for ever, whatever the subscriber does, *)
Theorem C101_goes_on : forall seconds period U pol p t0 h z n, zreach seconds period U pol p (@z_any U pol p) t0 h z -> period <> 0 ->
  (forall s m, snd (ccall (pcomp pol p) s m) = None) -> ~ In ZCancel h ->
  exists h' z', (forall l, In l h' -> (exists dt, l = ZTick dt) \/ l = ZTurn) /\
    zreach seconds period U pol p (@z_any U pol p) t0 (h ++ h') z' /\ length (z_made z') = (n + length (z_made z))%nat.
Proof.
  intros seconds period U pol p t0 h z n R Pz Hc C. destruct (z_many n Hc Pz R C) as (h' & z' & F & R' & L). exists h', z'. split; [|auto].
  intros l G. rewrite Forall_forall in F. specialize (F l G). destruct l; try contradiction; eauto.
Qed.
Print Assumptions C101_goes_on.

(** Disposing ends it, at whatever moment, *)
Theorem C101_disposed : forall seconds period U pol (p : pipe U nat) z z' h z'', zstep seconds period z ZCancel = Some z' ->
  fold_left (fun o l => match o with Some x => @zstep seconds period U pol p x l | None => None end) h (Some z') = Some z'' ->
  z_made z'' = z_made z.
Proof.
  intros seconds period U pol p z z' h z'' C E. destruct (@cancel_over seconds period U pol p z z' C) as [O <-].
  exact (@over_stays seconds period U pol p h z' z'' O E).
Qed.
Print Assumptions C101_disposed.

(** and so does an exception that comes back from a call. *)
Theorem C101_raised : forall seconds period U pol p ok t0 h z z' e h' z'', zreach seconds period U pol p ok t0 h z -> period <> 0 ->
  zstep seconds period z ZTurn = Some z' -> z_made z' <> z_made z ->
  snd (ccall (pcomp pol p) (z_pipe z) (OnNext (length (z_made z)))) = Some e ->
  fold_left (fun o l => match o with Some x => zstep seconds period x l | None => None end) h' (Some z') = Some z'' ->
  z_made z'' = z_made z ++ [(OnNext (length (z_made z)), z_now z)].
Proof.
  intros seconds period U pol p ok t0 h z z' e h' z'' R Pz S N X E.
  assert (exists u n, v_phase (z_iv z) = ISleep u n) as (u & n & Ph).
  { cbn [zstep] in S. unfold z_turn, ivwork in S. destruct (v_phase (z_iv z)); try discriminate; [|eauto].
    injection S as <-. exfalso. apply N. reflexivity. }
  pose proof (@sleeping seconds period U pol p ok t0 h z u n R Pz Ph) as L. rewrite <- L in X |- *.
  destruct (@raise_over seconds period U pol p z z' n u e Ph S X) as [O <-]. exact (@over_stays seconds period U pol p h' z' z'' O E).
Qed.
Print Assumptions C101_raised.

(** ** interval(seconds, period).take(n) shows 0, ..., n-1 and completes with the n-th element, *)
Theorem C101_take : forall seconds period n (opr : pipe nat nat -> pipe nat nat) ok t0 h z, (0 < n)%nat -> take_ (Z.of_nat n) = Ok opr -> period <> 0 ->
  zreach seconds period nat well_behaved (opr PEnd) ok t0 h z ->
  let shown := trace (seq 0 (Nat.min n (length (z_made z)))) (if (n <=? length (z_made z))%nat then Completed else Open) in
  prefix (map fst (z_told z)) shown /\ (z_quiet z -> map fst (z_told z) = shown).
Proof.
  intros seconds period n opr ok t0 h z Hn Ht Pz R shown. apply (z_delivers R). rewrite (z_elements R Pz). exact (take_seq _ Hn Ht).
Qed.
Print Assumptions C101_take.

(** if nothing is late each of them at its beat, the completion at the beat of the last, *)
Theorem C101_take_on_time : forall seconds period n (opr : pipe nat nat -> pipe nat nat) t0 h z t, (0 < n)%nat -> take_ (Z.of_nat n) = Ok opr -> period <> 0 ->
  zreach seconds period nat well_behaved (opr PEnd) (@z_prompt seconds nat well_behaved (opr PEnd)) t0 h z -> t0 <= t < z_now z ->
  exists m, by_time t (z_made z) = map OnNext (seq 0 m) /\
    by_time t (z_told z) = trace (seq 0 (Nat.min n m)) (if (n <=? m)%nat then Completed else Open).
Proof.
  intros seconds period n opr t0 h z t Hn Ht Pz R T. exists (length (by_time t (z_made z))).
  pose proof (z_elements_by t R Pz) as E. split; [exact E|].
  destruct (take_seq (length (by_time t (z_made z))) Hn Ht) as (_ & D & _). apply D. rewrite <- E. exact (z_on_time R T).
Qed.
Print Assumptions C101_take_on_time.

(** but the task of interval is not stopped by it (see C54): it goes on for ever. *)
Theorem C101_take_leaves_interval : forall seconds period U (pol : policy U) n (opr : pipe U nat -> pipe U nat) r t0 h z k, take_ n = Ok opr -> period <> 0 ->
  zreach seconds period U pol (opr r) (@z_any U pol (opr r)) t0 h z -> ~ In ZCancel h ->
  exists h' z', (forall l, In l h' -> (exists dt, l = ZTick dt) \/ l = ZTurn) /\
    zreach seconds period U pol (opr r) (@z_any U pol (opr r)) t0 (h ++ h') z' /\ length (z_made z') = (k + length (z_made z))%nat.
Proof. intros seconds period U pol n opr r t0 h z k Ht Pz R C. exact (C101_goes_on k R Pz (@take_calm _ pol n opr r Ht) C). Qed.
Print Assumptions C101_take_leaves_interval.

(** interval(1, 5).take(2), subscribed at 10: the interval makes a third call, which is not shown. *)
Definition hist101 : list zlabel := [ZTurn; ZTick 1; ZTurn; ZWork 0; ZTick 5; ZTurn; ZWork 0; ZWork 0; ZWork 0; ZWork 0; ZTick 5; ZTurn; ZTick 1].
Example C101_case : exists opr, take_ (Z.of_nat 2) = Ok opr /\
  exists z, zreach 1 5 nat well_behaved (opr PEnd) (@z_prompt 1 nat well_behaved (opr PEnd)) 10 hist101 z /\ ~ In ZCancel hist101 /\ z_quiet z /\
  z_made z = [(OnNext 0%nat, 11); (OnNext 1%nat, 16); (OnNext 2%nat, 21)] /\
  z_told z = [(OnNext 0%nat, 11); (OnNext 1%nat, 16); (OnCompleted, 16)].
Proof.
  exists (fun r => pre (take_op 2) (safe r)). split; [reflexivity|].
  eexists. split; [change hist101 with ([] ++ hist101); eapply (@z_go_ok 1 5 nat well_behaved _ idle2 idle2_ok); [apply zr_nil|vm_compute; reflexivity]|].
  split; [cbn; intuition discriminate|]. split; [apply idle2_ok; reflexivity|]. split; reflexivity.
Qed.

(** interval(1, 5), subscribed at 10 by an observer that raises on its second call: that call is the last. *)
Definition raises_second : policy nat := fun l => if (length l =? 2)%nat then Some ValueError else None.
Example C101_raised_case :
  exists z z', zreach 1 5 nat raises_second PEnd (@z_any nat raises_second PEnd) 10 [ZTurn; ZTick 1; ZTurn; ZTick 5] z /\
  zstep 1 5 z ZTurn = Some z' /\ z_made z' <> z_made z /\
  snd (ccall (pcomp raises_second PEnd) (z_pipe z) (OnNext (length (z_made z)))) = Some ValueError /\
  z_made z' = [(OnNext 0%nat, 11); (OnNext 1%nat, 16)].
Proof.
  do 2 eexists. split.
  - eapply (@zr_snoc _ _ _ _ _ _ _ [ZTurn; ZTick 1; ZTurn]).
    + eapply (@zr_snoc _ _ _ _ _ _ _ [ZTurn; ZTick 1]).
      * eapply (@zr_snoc _ _ _ _ _ _ _ [ZTurn]).
        -- eapply (@zr_snoc _ _ _ _ _ _ _ []); [apply zr_nil|exact I|vm_compute; reflexivity].
        -- exact I.
        -- vm_compute; reflexivity.
      * exact I.
      * vm_compute; reflexivity.
    + exact I.
    + vm_compute; reflexivity.
  - split; [vm_compute; reflexivity|]. split; [discriminate|]. split; vm_compute; reflexivity.
Qed.
