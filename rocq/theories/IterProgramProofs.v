(** * Proofs about iterating a program. *)
From Verif Require Export IterProgram ConsumeProofs Programs9Proofs Programs6Proofs.
Set Implicit Arguments.

Lemma map_some_inj X (l l' : list X) : map Some l = map Some l' -> l = l'.
Proof. revert l'. induction l as [|x l IH]; intros [|y l'] E; try discriminate; [reflexivity|]. injection E as -> E. f_equal. auto. Qed.

Lemma in_turn_shape A h (s : istate A) : isteps Iterate.in_turn i_init h s -> exists vs rest errs,
  i_calls s = map OnNext vs ++ rest /\ looped s vs errs /\ length rest <= 1 /\
  (errs = [] \/ exists n, rest = [n] /\ is_term n = true /\ Forall (eq (Raised (err n))) errs).
Proof.
  intros H. pose proof (tidy_admitted (steps_tidy H)) as Ha. destruct (inv_order (reach_inv (@in_turn_calm A) H)) as (vs & rest & errs & H1 & H2 & H3 & H4).
  rewrite Ha in H1. apply map_some_inj in H1. exists vs, rest, errs. auto.
Qed.

Lemma prefix_parts A (vs ws : list A) rest w : prefix (map OnNext vs ++ rest) (trace ws w) ->
  prefix vs ws /\ forall n, rest = [n] -> is_term n = true -> vs = ws /\ loop_end w = Some (err n).
Proof.
  revert ws. induction vs as [|v vs IH]; intros ws [c Q].
  - split; [apply prefix_nil|]. intros n -> Ht. destruct ws as [|y ws]; cbn in Q.
    + destruct w; cbn in Q; try discriminate; injection Q as <- _; auto.
    + injection Q as <- _. discriminate.
  - destruct ws as [|y ws]; cbn in Q; [destruct w; discriminate|]. injection Q as -> Q.
    destruct (IH ws (ex_intro _ c Q)) as [P1 P2]. split; [now apply prefix_cons|]. intros n E Ht. destruct (P2 n E Ht) as [-> E']. auto.
Qed.

Lemma loop_prefix A h (s : istate A) vs e : isteps Iterate.in_turn i_init h s -> prefix (i_calls s) (trace vs e) ->
  exists got ends, looped s got ends /\ prefix got vs /\ (ends = [] \/ got = vs /\ exists x, loop_end e = Some x /\ Forall (eq (Raised x)) ends) /\
    length (i_calls s) <= S (length (i_res s)).
Proof.
  intros H P. destruct (in_turn_shape H) as (us & rest & errs & E1 & E2 & L & E3). rewrite E1 in P. destruct (@prefix_parts _ _ _ _ _ P) as [P1 P2].
  exists us, errs. split; [exact E2|]. split; [exact P1|]. split.
  - destruct E3 as [->|(n & -> & Ht & F)]; [now left|]. right. destruct (P2 n eq_refl Ht) as [-> E]. split; [reflexivity|]. eauto.
  - rewrite E1, E2, !app_length, !map_length. lia.
Qed.

Lemma loop_starving A h (s : istate A) : isteps Iterate.in_turn i_init h s -> starving s -> exists vs, i_calls s = trace vs Open /\ looped s vs [].
Proof.
  intros H Q. pose proof (tidy_admitted (steps_tidy H)) as Ha. destruct (inv_starving (reach_inv (@in_turn_calm A) H) Q) as (vs & _ & E1 & E2).
  rewrite Ha in E1. apply map_some_inj in E1. exists vs. unfold looped, trace. rewrite !app_nil_r. auto.
Qed.

(** ** Every outcome can be iterated. *)
Definition waits {A} (vs : list A) : istate A :=
  IState (map OnNext vs) (seq 0 (length vs)) (map (fun id => (id, Success)) (seq 0 (length vs))) (map Returned vs)
    false FPending FPending None [] CWaiting true 1 0 [].

Lemma waits_first A : irun Iterate.in_turn i_init [LArrive; LTurn [ANext; ASubscribed]] = Some (waits (@nil A)).
Proof. reflexivity. Qed.

Lemma waits_sent A (vs : list A) n : irun Iterate.in_turn (waits vs) [LArrive; LTurn [ASend n]] = Some
  (IState (map OnNext vs ++ [n]) (seq 0 (length vs) ++ [length vs]) (map (fun id => (id, Success)) (seq 0 (length vs))) (map Returned vs)
    true (fut_of n) FPending (Some (length vs)) [] CWaiting true 1 0 [HPush false]).
Proof.
  assert (Ho : Iterate.in_turn (soon (waits vs) HForeign) (ASend n) = true) by (cbn; rewrite !map_length, seq_length; apply Nat.eqb_refl).
  assert (Hs : do_act (set_ready (soon (waits vs) HForeign) []) (ASend n) = Some
    (IState (map OnNext vs ++ [n]) (seq 0 (length vs) ++ [length vs]) (map (fun id => (id, Success)) (seq 0 (length vs))) (map Returned vs)
      true (fut_of n) FPending (Some (length vs)) [] CWaiting true 1 0 [HPush false], true)).
  { cbn. rewrite map_length. reflexivity. }
  unfold irun, istep. change (i_ready (soon (waits vs) HForeign)) with [HForeign]. cbn iota. unfold resume. cbn iota. unfold do_acts.
  change (Iterate.in_turn (set_ready (soon (waits vs) HForeign) []) (ASend n)) with (Iterate.in_turn (soon (waits vs) HForeign) (ASend n)).
  rewrite Ho, Hs. reflexivity.
Qed.

Lemma waits_next A (vs : list A) v : irun Iterate.in_turn (waits vs) [LArrive; LTurn [ASend (OnNext v)]; LTurn [ANext]; LTurn []] = Some (waits (vs ++ [v])).
Proof.
  change [LArrive; LTurn [ASend (OnNext v)]; LTurn [ANext]; LTurn []] with ([LArrive; LTurn [ASend (OnNext v)]] ++ [LTurn [@ANext A]; LTurn []]).
  rewrite irun_app, waits_sent. unfold waits. rewrite !map_app, app_length. cbn [length]. rewrite Nat.add_1_r, seq_S, map_app. reflexivity.
Qed.

Lemma waits_end A (vs : list A) n : is_term n = true -> exists s, irun Iterate.in_turn (waits vs) [LArrive; LTurn [ASend n]; LTurn []] = Some s /\
  i_calls s = map OnNext vs ++ [n] /\ i_res s = map Returned vs ++ [Raised (err n)].
Proof.
  intros Ht. change [LArrive; LTurn [ASend n]; LTurn []] with ([LArrive; LTurn [ASend n]] ++ [LTurn []]). rewrite irun_app, waits_sent.
  destruct n as [v|e|]; [discriminate|..]; eexists; (split; [reflexivity|]); auto.
Qed.

Lemma waits_reach A (vs : list A) : exists h, isteps Iterate.in_turn i_init h (waits vs).
Proof.
  induction vs as [|v vs IH] using rev_ind; [eexists; apply isteps_irun, waits_first|]. destruct IH as [h H].
  eexists. apply isteps_app. exists (waits vs). split; [exact H|]. apply isteps_irun, waits_next.
Qed.

Lemma whole_loop_reach A (vs : list A) e : exists h s, isteps Iterate.in_turn i_init h s /\ i_calls s = trace vs e /\ i_res s = whole_loop vs e.
Proof.
  destruct (waits_reach vs) as [h H]. destruct (loop_end e) eqn:E.
  - assert (F : exists n, is_term n = true /\ trace vs e = map OnNext vs ++ [n] /\ err n = e0) by (destruct e; try discriminate; injection E as <-; [now exists (OnError x)|now exists OnCompleted]).
    destruct F as (n & Ht & Et & En). destruct (@waits_end _ vs n Ht) as (s & R & E1 & E2). exists (h ++ [LArrive; LTurn [ASend n]; LTurn []]), s.
    split; [apply isteps_app; exists (waits vs); split; [exact H|now apply isteps_irun]|]. split; [congruence|]. unfold whole_loop. rewrite E, E2. congruence.
  - destruct e; try discriminate. exists h, (waits vs). split; [exact H|]. unfold whole_loop, trace. cbn. rewrite !app_nil_r. auto.
Qed.
