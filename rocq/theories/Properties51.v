(** * Property C93: iterating a program with [async for]. *)
From Verif Require Import IterProgramProofs Programs2Proofs Programs4Proofs ProgramsProofs.
Set Implicit Arguments.

(** At any moment the loop has been run with the first elements of one outcome of the program; if it has ended, with all of them,
    by StopAsyncIteration if the program completes and by the error of the program if it fails.  The program is never more than one call ahead. *)
Theorem C93_loop : forall A (c : cold A) h s, sheltered c -> steady c -> loops c h s ->
  exists vs e got ends, Programs2.outcome c vs e /\ looped s got ends /\ prefix got vs /\
    (ends = [] \/ got = vs /\ exists x, loop_end e = Some x /\ Forall (eq (Raised x)) ends) /\
    length (i_calls s) <= S (length (i_res s)).
Proof.
  intros A c h s _ Hs [H M]. destruct (continues c Hs _ M) as (vs & e & O & P). destruct (loop_prefix _ _ H P) as (got & ends & H1 & H2 & H3 & H4).
  exists vs, e, got, ends. auto.
Qed.
Print Assumptions C93_loop.

(** If the run of the program has come to its end and the loop waits for more, the program does not end, and the loop has been run with all of its elements. *)
Theorem C93_all : forall A (c : cold A) h s, sheltered c -> loops_all c h s -> starving s ->
  exists vs, Programs2.outcome c vs Open /\ looped s vs [].
Proof.
  intros A c h s _ [H M] Q. destruct (loop_starving H Q) as (vs & E & L). exists vs. split; [|exact L]. unfold Programs2.outcome. now rewrite <- E.
Qed.
Print Assumptions C93_all.

(** Every outcome is what some loop sees, to its end. *)
Theorem C93_every : forall A (c : cold A) vs e, Programs2.outcome c vs e -> exists h s, loops_all c h s /\ i_res s = whole_loop vs e.
Proof.
  intros A c vs e O. destruct (whole_loop_reach vs e) as (h & s & H & E1 & E2). exists h, s. split; [|exact E2]. split; [exact H|]. rewrite E1. exact O.
Qed.
Print Assumptions C93_every.

(** A loop that has ended by StopAsyncIteration or an error has seen an outcome of the program, and every such outcome is that of a loop. *)
Theorem C93_ended : forall A (c : cold A) got x, sheltered c -> steady c ->
  ((exists h s, loops c h s /\ looped s got [Raised x]) <-> exists e, Programs2.outcome c got e /\ loop_end e = Some x).
Proof.
  intros A c got x Hw Hs. split.
  - intros (h & s & L & E). destruct (C93_loop Hw Hs L) as (vs & e & got' & ends & O & E' & _ & H & _). unfold looped in E, E'. rewrite E in E'.
    assert (Q : forall (a b : list A) l, map Returned a ++ [Raised x] = map Returned b ++ l -> (l = [] -> False) -> Forall (fun o => exists y, o = Raised y) l -> a = b /\ l = [Raised x]).
    { clear. induction a as [|u a IH]; intros [|v b] l E Hl F; cbn in E.
      - subst l. auto.
      - injection E. intros. discriminate.
      - subst l. inversion F as [|? ? [y Fy] _]. discriminate.
      - injection E as -> E. destruct (IH b l E Hl F) as [-> ->]. auto. }
    destruct H as [->|(-> & y & Hy & F)].
    + exfalso. rewrite app_nil_r in E'. clear -E'. revert got' E'. induction got as [|u got IH]; intros [|v b] E; try discriminate. injection E as -> E. exact (IH _ E).
    + assert (N : ends = [] -> False). { intros ->. rewrite app_nil_r in E'. clear -E'. revert vs E'. induction got as [|u got IH]; intros [|v b] E; try discriminate. injection E as -> E. exact (IH _ E). }
      destruct (Q got vs ends E' N) as [-> ->].
      { eapply Forall_impl; [|exact F]. intros o <-. eauto. }
      inversion F as [|? ? F1 _]. injection F1 as <-. eauto.
  - intros (e & O & E). destruct (@C93_every _ c _ _ O) as (h & s & [L M] & R). exists h, s. split; [split; [exact L|now apply last_moment]|]. unfold looped. rewrite R. unfold whole_loop. now rewrite E.
Qed.
Print Assumptions C93_ended.

(** So programs that are alike are alike in a loop, *)
Theorem C93_alike : forall A (c d : cold A) got x, sheltered c -> steady c -> alike c d ->
  (exists h s, loops c h s /\ looped s got [Raised x]) -> exists h s, loops d h s /\ looped s got [Raised x].
Proof.
  intros A c d got x Hw Hs E H. apply (@C93_ended _ c got x Hw Hs) in H as (e & O & El). apply E in O. destruct (@C93_every _ d _ _ O) as (h & s & [L M] & R).
  exists h, s. split; [split; [exact L|now apply last_moment]|]. unfold looped. rewrite R. unfold whole_loop. now rewrite El.
Qed.
Print Assumptions C93_alike.

(** a loop over a program that gathers [xs] ends by StopAsyncIteration, and has then been run once with each of [xs], *)
Theorem C93_gathers : forall A (c : cold A) xs got x, sheltered c -> steady c -> gathers c xs ->
  (exists h s, loops c h s /\ looped s got [Raised x]) -> Permutation got xs /\ x = StopAsyncIter.
Proof.
  intros A c xs got x Hw Hs G H. apply (@C93_ended _ c got x Hw Hs) in H as (e & O & El). destruct (G _ _ O) as [P ->]. injection El as <-. auto.
Qed.
Print Assumptions C93_gathers.

(** and a loop over catch or retry never ends by an error of what is caught, whether that goes round for ever or not. *)
Theorem C93_caught : forall A (c : cold A) handler n h s o, loops (Caught c handler) h s \/ loops (Retried n c) h s -> In o (i_res s) ->
  o = Raised StopAsyncIter \/ exists v, o = Returned v.
Proof.
  assert (G : forall A (c : cold A) h s o, (forall l y, so_far c l -> ~ In (OnError y) l) -> loops c h s -> In o (i_res s) -> o = Raised StopAsyncIter \/ exists v, o = Returned v).
  { intros A c h s o N [H M] F. destruct (in_turn_shape H) as (vs & rest & errs & E1 & E2 & _ & E3). rewrite E2 in F. apply in_app_iff in F as [F|F].
    - right. apply in_map_iff in F as (v & <- & _). eauto.
    - left. destruct E3 as [->|(m & -> & Ht & Fe)]; [destruct F|]. rewrite Forall_forall in Fe. rewrite <- (Fe _ F). destruct m as [v|e|]; [discriminate| |reflexivity].
      elim (N _ e M). rewrite E1. apply in_or_app. right. now left. }
  intros A c handler n h s o [L|L] F; [refine (G _ _ _ _ _ _ L F); intros l y Hl; exact (@caught_calm _ _ _ _ Hl y)|refine (G _ _ _ _ _ _ L F); intros l y Hl; exact (@retried_so_calm _ _ _ _ Hl y)].
Qed.
Print Assumptions C93_caught.

(** A program that has ended keeps waiting in its last call, and each further call of __anext__ raises the same again: whoever goes on after the loop
    gets nothing else. *)
Theorem C93_again : forall A (c : cold A) h s vs e x h' s', loops_all c h s -> i_calls s = trace vs e -> loop_end e = Some x ->
  isteps Iterate.calm s h' s' -> i_ret s' = i_ret s /\ exists k, i_res s' = i_res s ++ repeat (Raised x) k.
Proof.
  intros A c h s vs e x h' s' [H _] E El H'. set (n := match e with Failed y => OnError y | _ => @OnCompleted A end).
  assert (Et : i_calls s = map OnNext vs ++ [n] /\ is_term n = true /\ err n = x) by (destruct e; try discriminate; injection El as <-; auto). destruct Et as (Et & Ht & En).
  pose proof (steps_tidy H) as [_ T]. pose proof (reach_inv (@in_turn_calm A) H) as V.
  assert (Hn : nth_error (i_calls s) (length vs) = Some n) by (rewrite Et, nth_error_app2, map_length, Nat.sub_diag by (rewrite map_length; lia); reflexivity).
  assert (Hi : In (length vs) (i_adm s)) by (rewrite T; apply in_seq; rewrite Et, app_length, map_length; cbn; lia).
  destruct (inv_terminal _ V Hi Hn Ht) as (Hp & _ & _). destruct (steps_still V Hp H') as (_ & _ & _ & E2 & E3). rewrite En in E3. auto.
Qed.
Print Assumptions C93_again.

(** ** Example: a loop over merge of of_seq [1] and of_seq [2] may be run with 2 and then 1, and StopAsyncIteration ends it. *)
Example C93_case : let c := merge_ (From (of_seq [1])) (From (of_seq [2])) in
  sheltered c /\ steady c /\ gathers c [1; 2] /\ exists h s, loops_all c h s /\ i_res s = [Returned 2; Returned 1; Raised StopAsyncIter].
Proof.
  cbn zeta. set (c := merge_ (From (of_seq [1])) (From (of_seq [2]))).
  assert (O : forall vs, shuffle [1] [2] vs -> Programs2.outcome c vs Completed).
  { intros vs Hv. apply (merge_is (lively_source (of_seq [1])) (lively_source (of_seq [2]))). exists vs, Completed. split; [|reflexivity]. exists [1], Completed, [2], Completed.
    split; [now apply makes_from_iff|]. split; [now apply makes_from_iff|]. auto. }
  split; [split; [exact I|intros [|[|[|i]]]; exact I]|]. split; [split; [lia|split; [exact I|intros [|[|[|i]]]; exact I]]|]. split.
  - apply (gathers_seq (cs := [From (of_seq [1]); From (of_seq [2])]) (xss := [[1]; [2]])); [lia|repeat constructor|].
    constructor; [now apply gathers_source|]. constructor; [now apply gathers_source|constructor].
  - destruct (@C93_every _ c _ _ (O [2; 1] ltac:(repeat constructor))) as (h & s & L & E). exists h, s. auto.
Qed.
