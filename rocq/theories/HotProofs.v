(** * Operators subscribed directly to a source without safe_observer
    (a subject, another operator's relay, interval, ...). *)
From Verif Require Export SafeProofs.
Set Implicit Arguments.

(** The operator's body never raises and maps a terminal to some values and
    that terminal. *)
Record Tame {A B} (o : op (notif A) (act B)) : Prop := {
  tm_next : forall s a, snd (exec lcall (body o (OnNext a)) s []) = None;
  tm_error : forall s x, exists vs,
     snd (fst (exec lcall (body o (OnError x)) s [])) = trace vs (Failed x) /\ snd (exec lcall (body o (OnError x)) s []) = None;
  tm_done : forall s, exists vs,
     snd (fst (exec lcall (body o OnCompleted) s [])) = trace vs Completed /\ snd (exec lcall (body o OnCompleted) s []) = None
}.

Lemma norm_app_cut A (ms : list (notif A)) tl1 tl2 :
  upto_terminal tl1 = upto_terminal tl2 -> upto_terminal (ms ++ tl1) = upto_terminal (ms ++ tl2).
Proof.
  intros H. induction ms as [|m ms IH]; [exact H|]. destruct m; cbn; [now rewrite IH|reflexivity|reflexivity].
Qed.

Lemma feed_tame A B (o : op (notif A) (act B)) (Ho : Tame o) vs e junk : forall s,
  upto_terminal (feed o s (source_calls vs e junk)) = upto_terminal (srun o s (trace vs e)).
Proof.
  induction vs as [|v vs IH]; intros s.
  - destruct e as [|x|]; cbn [source_calls trace map app feed srun].
    + reflexivity.
    + destruct (tm_error Ho s x) as (ws & H1 & H2).
      destruct (exec lcall (body o (OnError x)) s []) as [[s' l] r]. cbn in H1, H2 |- *. subst.
      rewrite norm_app by discriminate. now rewrite norm_trace0.
    + destruct (tm_done Ho s) as (ws & H1 & H2).
      destruct (exec lcall (body o OnCompleted) s []) as [[s' l] r]. cbn in H1, H2 |- *. subst.
      rewrite norm_app by discriminate. now rewrite norm_trace0.
  - change (source_calls (v :: vs) e junk) with (OnNext v :: source_calls vs e junk).
    rewrite trace_cons. cbn [feed srun]. pose proof (tm_next Ho s v) as Hn.
    destruct (exec lcall (body o (OnNext v)) s []) as [[s' l] r]. cbn in Hn. subst r.
    apply norm_app_cut, IH.
Qed.

(** Hot and cold sources give the same output. *)
Theorem hot_cold Z A B (pol : policy Z) (o : op (notif A) (act B)) (r : pipe Z B) vs e junk l : Tame o ->
  finally (psys pol (pre o (safe r))) (source_calls vs e junk) l <->
  finally (psys pol (safe (pre o (safe r)))) (source_calls vs e junk) l.
Proof.
  intros Ho. rewrite (stage_sync pol o (safe r)) by apply noraise_safe.
  rewrite (stage_safe pol o (safe r)) by apply noraise_safe.
  apply safe_norm_eq. rewrite (feed_tame Ho). rewrite (srun_norm o (source_calls vs e junk)), norm_trace. reflexivity.
Qed.

Ltac tame_tac :=
  split; [ intros s a; cbn | intros s x; exists []; cbn; split; reflexivity | intros s; exists []; cbn; split; reflexivity ].

Lemma tame_skip A c : Tame (@skip_op A c).
Proof. tame_tac. destruct (s <=? 0)%Z; reflexivity. Qed.
Lemma tame_skip_last A isn c : Tame (@skip_last_op A isn c).
Proof.
  tame_tac. destruct (s ++ [a]) as [|f q]; [destruct (c <? _)%Z; reflexivity|].
  destruct (c <? _)%Z; [|reflexivity]. cbn. destruct (isn f); reflexivity.
Qed.
Lemma tame_take A c : Tame (@take_op A c).
Proof. tame_tac. destruct (0 <? s)%Z; [|reflexivity]. cbn. destruct (s - 1 =? 0)%Z; reflexivity. Qed.

Lemma exec_forp A S (q : list A) K (s : S) : forall l,
  exec (@lcall A) (seqp (forp q (fun item => awaitp (Deliver (OnNext item)))) K) s l =
  exec lcall K s (l ++ map OnNext q).
Proof.
  unfold seqp. induction q as [|x q IH]; intros l; cbn.
  - now rewrite app_nil_r.
  - rewrite IH. now rewrite <- app_assoc.
Qed.

Lemma tame_take_last A c : Tame (@take_last_op A c).
Proof.
  split.
  - intros s a. cbn. destruct (c <? _)%Z; reflexivity.
  - intros s x. exists []. cbn. auto.
  - intros s. exists s. cbn [take_last_op direct body exec].
    rewrite exec_forp. cbn. auto.
Qed.
Lemma tame_zip A B (it : iterator B) : Tame (@zip_op A B it).
Proof. tame_tac. destruct (it s); reflexivity. Qed.
Lemma tame_scan A B (f : B -> A -> res B) b : Tame (scan_op f b).
Proof. tame_tac. destruct (f s a); reflexivity. Qed.

(** distinct_until_changed owns a mailbox. *)
Lemma hot_distinct Z0 (pol : policy Z0) A eqb (r : pipe Z0 A) vs e junk l :
  finally (psys pol (distinct_until_changed_ eqb r)) (source_calls vs e junk) l <->
  finally (psys pol (safe r)) (trace (changes eqb None vs) e) l.
Proof.
  unfold distinct_until_changed_. rewrite msys_psys.
  rewrite (stage_mbox pol (distinct_op eqb) (safe r)) by apply noraise_safe.
  apply safe_norm_eq. rewrite norm_trace0.
  assert (Hx : forall (ws : list A) s, upto_terminal (deliver (distinct_op eqb) s (source_calls ws e junk)) =
     trace (changes eqb (match s with OnNext p => Some p | _ => None end) ws) e).
  { induction ws as [|v ws IH]; intros s.
    - destruct e; reflexivity.
    - change (source_calls (v :: ws) e junk) with (OnNext v :: source_calls ws e junk).
      cbn [deliver distinct_op direct live body exec changes].
      destruct s as [p|x|]; cbn [notif_neqb].
      + destruct (eqb v p); cbn; rewrite IH; reflexivity.
      + cbn. rewrite IH. reflexivity.
      + cbn. rewrite IH. reflexivity. }
  apply (Hx vs OnCompleted).
Qed.

(** ** Exceptions of user functions behind a hot source *)

(** The call itself raises, the subscriber sees nothing of the element. *)
Lemma pre_end_call Z A (pol : policy Z) (o : op (notif A) (act Z)) : pre o (@PEnd Z) = PSync o PEnd.
Proof. reflexivity. Qed.

Lemma map_hot_raises Z A (pol : policy Z) (f : A -> res Z) a x (s : cst (pcomp pol (map_ f PEnd))) :
  f a = Err x ->
  ccall (pcomp pol (map_ f PEnd)) s (OnNext a) = (s, Some x).
Proof. intros H. destruct s as [[] [n d]]. cbn. rewrite H. reflexivity. Qed.

(** ** Grammar at the end of pipelines *)
Lemma polite_guarded Z A (pol : policy Z) (p : pipe Z A) : ends_guarded p -> polite (psys pol p).
Proof.
  induction 1; [apply polite_safe_end|now apply polite_PSafe|now apply polite_PMbox|now apply polite_PSync].
Qed.

Lemma polite_relay Z (pol : policy Z) S A B h (o : op (notif A) (act B)) (enc : S -> st o) s0 (r : pipe Z B) :
  is_relay h o enc -> ini o = enc s0 -> polite (psys pol (safe r)) -> polite (psys pol (safe (pre o r))).
Proof.
  intros Hr Hi Hp. apply polite_final; [apply sane_psys|]. intros ms l H.
  apply (stage_relay pol s0 r ms l Hr Hi) in H. destruct H as (s & H1 & H2 & H3).
  apply (Hp (relay h s0 ms)). exists s. auto.
Qed.

Lemma to_subscriber A B (p : pipe B A) ms vs e :
  (forall l, finally (psys well_behaved (safe p)) ms l <-> finally (psys well_behaved (safe PEnd)) (trace vs e) l) ->
  delivers (psys well_behaved (safe p)) ms (trace vs e).
Proof.
  intros H. apply (delivers_iff (sane_psys _ _)). apply H. apply subscriber. now rewrite norm_trace0.
Qed.

Lemma raising_calls Z (pol : policy Z) vs a rest x :
  (forall ws, prefix ws vs -> ws <> [] -> pol (map OnNext ws) = None) ->
  pol (map OnNext (vs ++ [a])) = Some x ->
  user_calls pol [] (map OnNext vs ++ OnNext a :: rest) = map OnNext (vs ++ [a]) ++ [OnError x].
Proof.
  intros H1 H2.
  assert (G : forall ws us, vs = ws ++ us ->
     user_calls pol (map OnNext ws) (map OnNext us ++ OnNext a :: rest) = map OnNext (vs ++ [a]) ++ [OnError x]).
  { intros ws us. revert ws. induction us as [|u us IH]; intros ws Hv.
    - rewrite app_nil_r in Hv. subst ws. cbn [map app user_calls].
      change [OnNext a] with (map (@OnNext Z) [a]). rewrite <- map_app, H2.
      rewrite map_app, <- app_assoc. reflexivity.
    - cbn [map app user_calls]. change [OnNext u] with (map (@OnNext Z) [u]). rewrite <- map_app.
      rewrite H1.
      + apply IH. now rewrite <- app_assoc.
      + exists us. now rewrite <- app_assoc.
      + now destruct ws. }
  exact (G [] vs eq_refl).
Qed.

Lemma rev_case X (l : list X) : l = [] \/ exists l' x, l = l' ++ [x].
Proof. destruct (rev l) as [|x r] eqn:E.
  - left. rewrite <- (rev_involutive l), E. reflexivity.
  - right. exists (rev r), x. rewrite <- (rev_involutive l), E. reflexivity.
Qed.

(** ** Final forms used in Properties1.v *)
Lemma scan_ungrammatical : exists (f : nat -> nat -> res nat) ms l,
  grammatical ms /\ sees (psys well_behaved (safe (scan_ f 0 PEnd))) ms l /\ ~ grammatical l.
Proof.
  exists (fun s a => if a =? 0 then Err ValueError else Ok (s + a)), [OnNext 0; OnNext 5],
    [OnError ValueError; OnNext 5].
  split; [|split].
  - exists [0; 5], Open. reflexivity.
  - apply finally_sees.
    change [OnNext 0; OnNext 5] with (source_calls [0; 5] Open []).
    apply scan_raw_stage; [intros s m; reflexivity|]. apply finally_end. reflexivity.
  - intros (vs & e & H). destruct vs as [|v [|w vs]]; destruct e; discriminate H.
Qed.

Lemma no_overlap A S (react : S -> notif A -> S * nat * option exn) (u0 : S) ms l :
  sees (guarded react u0) ms l ->
  exists ns current,
    (l = map OnNext (flat_map (fun n => [Begin n; End n]) ns) /\ current = [] \/
     exists n, l = map OnNext (flat_map (fun n => [Begin n; End n]) ns ++ [Begin n]) /\ current = [n]) /\
    grammatical (ns ++ current) /\
    (prefix (ns ++ current) ms \/ exists before e, ns ++ current = before ++ [OnError e] /\ prefix before ms).
Proof.
  intros H. destruct (guarded_sees H) as (ns & rest & Hp & Hl). exists ns, rest. split; [|split].
  - destruct Hl as [[-> ->]|(n & -> & ->)]; [left; auto|right; exists n; auto].
  - eapply grammatical_prefix; [exact Hp|apply made_grammatical].
  - destruct (made_order react ms u0) as [Hm|(a & e & Hm & Ha)].
    + left. eapply prefix_trans; eassumption.
    + rewrite Hm in Hp. destruct Hp as [c Hc]. destruct (rev_case c) as [->|(c' & x & ->)].
      * rewrite app_nil_r in Hc. right. exists a, e. auto.
      * left. rewrite app_assoc in Hc. apply app_inj_tail in Hc. destruct Hc as [-> _].
        eapply prefix_trans; [|exact Ha]. apply prefix_app.
Qed.

Lemma no_overlap_case : exists l,
  sees (guarded (fun (u : nat) (_ : notif nat) => (S u, 2, if u =? 1 then Some ValueError else None)) 0)
    [OnNext 1; OnNext 2; OnNext 3] l /\ length l = 6.
Proof.
  eexists. split; [apply finally_sees; apply guarded_final; reflexivity|reflexivity].
Qed.

Lemma observer_exception_case : delivers
  (psys (fun l : list (notif nat) => if length l =? 3 then Some ValueError else None) (safe PEnd))
  [OnNext 1; OnNext 2; OnNext 3; OnNext 4; OnCompleted] [OnNext 1; OnNext 2; OnNext 3; OnError ValueError].
Proof. apply (delivers_iff (sane_psys _ _)). apply finally_raising. reflexivity. Qed.

Lemma dispose_happens A (vs : list A) t rest s :
  is_term t = true ->
  run (recorded (fun _ => None)) (recorded0 (fun _ => None)) (map OnNext vs ++ t :: rest) s ->
  quiet (recorded (fun _ => None)) s ->
  snd s = map (fun a => Deliver (OnNext a)) vs ++ [Dispose; Deliver t].
Proof.
  intros Ht Hr Hq. destruct (recorded_final (fun _ => None) (map OnNext vs ++ t :: rest)) as (s' & H1 & H2 & H3).
  rewrite (confluence (good_recorded _) Hr Hq H1 H2), H3. clear - Ht.
  assert (G : forall ws, acts (fun _ => None) (map (fun a : A => Deliver (OnNext a)) ws) (map OnNext vs ++ t :: rest) =
     map (fun a => Deliver (OnNext a)) (ws ++ vs) ++ [Dispose; Deliver t]).
  { induction vs as [|v vs IH]; intros ws.
    - rewrite app_nil_r. destruct t; [discriminate|reflexivity|reflexivity].
    - cbn [map app acts]. change [Deliver (OnNext v)] with (map (fun a : A => Deliver (OnNext a)) [v]).
      rewrite <- map_app, IH. now rewrite <- app_assoc. }
  exact (G []).
Qed.

Lemma two_schedules : exists s a b,
  run (pcomp well_behaved (safe (skip_ 1 (@PEnd nat)))) (pinit well_behaved (safe (skip_ 1 PEnd)))
    [OnNext 1; OnNext 2; OnNext 3] s /\
  cstep (pcomp well_behaved (safe (skip_ 1 PEnd))) 0 s = Some a /\
  cstep (pcomp well_behaved (safe (skip_ 1 PEnd))) 1 s = Some b /\ a <> b.
Proof.
  eexists _, _, _. split; [|split; [|split]].
  - apply run_in, run_in, run_in.
    do 2 (eapply run_step; [instantiate (2 := 0); reflexivity|]). constructor.
  - reflexivity.
  - reflexivity.
  - intros H. apply (f_equal (fun x => length (aq (fst x)))) in H. discriminate H.
Qed.

(** Three elements sent to skip(1): two messages for the worker. *)
Lemma some_steps :
  let S := psys well_behaved (skip_ 1 (@PEnd nat)) in
  exists s a, run (sc S) (s0 S) [OnNext 1; OnNext 2; OnNext 3] s /\ steps (sc S) 2 s a /\ quiet (sc S) a /\ s <> a.
Proof.
  eexists _, _. split; [apply run_in, run_in, run_in, run_nil|]. split; [|split].
  - do 2 (eapply steps_S; [instantiate (2 := 0); reflexivity|]). apply steps_0.
  - intros [|k]; reflexivity.
  - intros H. apply (f_equal (fun x => plog well_behaved (skip_ 1 PEnd) x)) in H. discriminate H.
Qed.

Lemma early_look :
  let S := psys well_behaved (skip_ 1 (@PEnd nat)) in
  sees S [OnNext 1; OnNext 2] [OnNext 2] /\
  finally S ([OnNext 1; OnNext 2] ++ [OnNext 3; OnCompleted]) [OnNext 2; OnNext 3; OnCompleted].
Proof.
  split.
  - eexists. split; [apply run_in, run_in; eapply run_step; [instantiate (2 := 0); reflexivity|apply run_nil]|reflexivity].
  - apply (hot_cold well_behaved PEnd [1; 2; 3] Completed [] [OnNext 2; OnNext 3; OnCompleted] (tame_skip nat 1)).
    apply skip_stage. apply subscriber. reflexivity.
Qed.
