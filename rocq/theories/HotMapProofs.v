(** * Operators without a safe_observer of their own behind a hot source. *)
From Verif Require Export LawsProofs.
Set Implicit Arguments.

Section Hot.
  Context {Z0 : Type} (pol : policy Z0).

  Lemma feed_next A B (o : op (notif A) (act B)) (h : A -> list B) (ini0 : st o) :
    (forall a, fst (exec lcall (body o (OnNext a)) ini0 []) = (ini0, map OnNext (h a))) ->
    (forall x, fst (exec lcall (body o (OnError x)) ini0 []) = (ini0, [OnError x])) ->
    fst (exec lcall (body o OnCompleted) ini0 []) = (ini0, [OnCompleted]) ->
    forall ms, feed o ini0 ms =
      flat_map (each h) ms.
  Proof.
    intros H1 H2 H3. induction ms as [|m ms IH]; [reflexivity|]. cbn [feed flat_map].
    assert (E : fst (exec lcall (body o m) ini0 []) =
      (ini0, each h m))
      by (destruct m; [apply H1|apply H2|apply H3]).
    destruct (exec lcall (body o m) ini0 []) as [[s l] x]. cbn in E. injection E as -> ->. now rewrite IH.
  Qed.

  Lemma upto_flat A B (h : A -> list B) vs e junk :
    upto_terminal (flat_map (each h)
                    (source_calls vs e junk)) = trace (flat_map h vs) e.
  Proof.
    induction vs as [|v vs IH].
    - destruct e; reflexivity.
    - change (source_calls (v :: vs) e junk) with (OnNext v :: source_calls vs e junk). cbn [flat_map each].
      rewrite norm_map, IH. unfold trace. now rewrite map_app, app_assoc.
  Qed.

  Lemma hot_next A B (o : op (notif A) (act B)) (h : A -> list B) (r : pipe Z0 B) vs e junk l :
    (forall a, fst (exec lcall (body o (OnNext a)) (ini o) []) = (ini o, map OnNext (h a))) ->
    (forall x, fst (exec lcall (body o (OnError x)) (ini o) []) = (ini o, [OnError x])) ->
    fst (exec lcall (body o OnCompleted) (ini o) []) = (ini o, [OnCompleted]) ->
    finally (psys pol (pre o (safe r))) (source_calls vs e junk) l <->
    finally (psys pol (safe r)) (trace (flat_map h vs) e) l.
  Proof.
    intros H1 H2 H3. rewrite (stage_sync pol o (safe r)) by apply noraise_safe.
    apply safe_norm_eq. rewrite (@feed_next _ _ o h (ini o) H1 H2 H3), upto_flat, norm_trace0. reflexivity.
  Qed.

  Lemma direct_next A B (o : op (notif A) (act B)) (h : A -> list B) ms l :
    (forall a, fst (exec lcall (body o (OnNext a)) (ini o) []) = (ini o, map OnNext (h a))) ->
    (forall x, fst (exec lcall (body o (OnError x)) (ini o) []) = (ini o, [OnError x])) ->
    fst (exec lcall (body o OnCompleted) (ini o) []) = (ini o, [OnCompleted]) ->
    finally (psys well_behaved (pre o PEnd)) ms l <->
    l = flat_map (each h) ms.
  Proof.
    intros H1 H2 H3. rewrite (stage_sync well_behaved o PEnd) by apply noraise_end.
    rewrite (@feed_next _ _ o h (ini o) H1 H2 H3). apply finally_end.
  Qed.

  Ltac one := intros; cbn; repeat match goal with |- context [match ?x with _ => _ end] => destruct x end; reflexivity.

  Lemma map_hot A B (f : A -> res B) (r : pipe Z0 B) vs e junk l :
    finally (psys pol (map_ f (safe r))) (source_calls vs e junk) l <-> finally (psys pol (safe r)) (trace (returned f vs) e) l.
  Proof. apply hot_next; one. Qed.
  Lemma map_async_hot A B (f : A -> res B) (r : pipe Z0 B) vs e junk l :
    finally (psys pol (map_async_ f (safe r))) (source_calls vs e junk) l <-> finally (psys pol (safe r)) (trace (returned f vs) e) l.
  Proof. apply hot_next; one. Qed.
  Lemma choose_hot A B (f : A -> res (option B)) (r : pipe Z0 B) vs e junk l :
    finally (psys pol (choose_ f (safe r))) (source_calls vs e junk) l <-> finally (psys pol (safe r)) (trace (somes (returned f vs)) e) l.
  Proof.
    assert (E : somes (returned f vs) = flat_map (fun v => match f v with Ok (Some b) => [b] | _ => [] end) vs).
    { induction vs as [|v vs IH]; [reflexivity|]. unfold returned in *. cbn. destruct (f v) as [[b|]|x]; cbn; now rewrite IH. }
    rewrite E. apply hot_next; one.
  Qed.
  Lemma choose_async_hot A B (f : A -> res (option B)) (r : pipe Z0 B) vs e junk l :
    finally (psys pol (choose_async_ f (safe r))) (source_calls vs e junk) l <-> finally (psys pol (safe r)) (trace (somes (returned f vs)) e) l.
  Proof.
    assert (E : somes (returned f vs) = flat_map (fun v => match f v with Ok (Some b) => [b] | _ => [] end) vs).
    { induction vs as [|v vs IH]; [reflexivity|]. unfold returned in *. cbn. destruct (f v) as [[b|]|x]; cbn; now rewrite IH. }
    rewrite E. apply hot_next; one.
  Qed.
  Lemma somes_keep_hot A (p : A -> res bool) vs :
    flat_map (fun v => match p v with Ok true => [v] | _ => [] end) vs = filter (fun v => match p v with Ok b => b | Err _ => false end) vs.
  Proof. induction vs as [|v vs IH]; [reflexivity|]. cbn. destruct (p v) as [[]|x]; cbn; now rewrite IH. Qed.
  Lemma filter_hot A (p : A -> res bool) (r : pipe Z0 A) vs e junk l :
    finally (psys pol (filter_ p (safe r))) (source_calls vs e junk) l <->
    finally (psys pol (safe r)) (trace (filter (fun v => match p v with Ok b => b | Err _ => false end) vs) e) l.
  Proof. rewrite <- somes_keep_hot. apply hot_next; one. Qed.
  Lemma filter_async_hot A (p : A -> res bool) (r : pipe Z0 A) vs e junk l :
    finally (psys pol (filter_async_ p (safe r))) (source_calls vs e junk) l <->
    finally (psys pol (safe r)) (trace (filter (fun v => match p v with Ok b => b | Err _ => false end) vs) e) l.
  Proof. rewrite <- somes_keep_hot. apply hot_next; one. Qed.

  Lemma map_direct A B (f : A -> res B) ms l :
    finally (psys well_behaved (map_ f PEnd)) ms l <-> l = flat_map (each (fun v => match f v with Ok b => [b] | Err _ => [] end)) ms.
  Proof. apply direct_next; one. Qed.
  Lemma filter_direct A (p : A -> res bool) ms l :
    finally (psys well_behaved (filter_ p PEnd)) ms l <-> l = flat_map (each (fun v => match p v with Ok true => [v] | _ => [] end)) ms.
  Proof. apply direct_next; one. Qed.

  Lemma scan_hot A B (f : B -> A -> res B) b (r : pipe Z0 B) vs e junk l :
    finally (psys pol (scan_ f b (safe r))) (source_calls vs e junk) l <->
    finally (psys pol (safe r)) (let (bs, x) := scan_results f b vs in trace bs (or_failed x e)) l.
  Proof. rewrite <- (scan_safe_stage pol f b r vs e junk l). exact (hot_cold pol r vs e junk l (tame_scan f b)). Qed.

  Lemma mapi_hot A B (f : A -> nat -> res B) (r : pipe Z0 B) vs e junk l :
    finally (psys pol (mapi_ f r)) (source_calls vs e junk) l <->
    finally (psys pol (safe r)) (map_out (fun ai => f (fst ai) (snd ai)) (indexed 0 vs) e) l.
  Proof. rewrite <- (mapi_stage pol f r vs e junk l). exact (hot_cold pol _ vs e junk l (@tame_zip _ _ _)). Qed.
  Lemma mapi_async_hot A B (f : A -> nat -> res B) (r : pipe Z0 B) vs e junk l :
    finally (psys pol (mapi_async_ f r)) (source_calls vs e junk) l <->
    finally (psys pol (safe r)) (map_out (fun ai => f (fst ai) (snd ai)) (indexed 0 vs) e) l.
  Proof. rewrite <- (mapi_async_stage pol f r vs e junk l). exact (hot_cold pol _ vs e junk l (@tame_zip _ _ _)). Qed.
  Lemma filteri_hot A (p : A -> nat -> res bool) (r : pipe Z0 A) vs e junk l :
    finally (psys pol (filteri_ p r)) (source_calls vs e junk) l <->
    finally (psys pol (safe r))
      (let (ps, x) := results (keep (fun ai => p (fst ai) (snd ai))) (indexed 0 vs) in trace (map fst (somes ps)) (or_failed x e)) l.
  Proof. rewrite <- (filteri_stage pol p r vs e junk l). exact (hot_cold pol _ vs e junk l (@tame_zip _ _ _)). Qed.
End Hot.

(** ** reduce: scan calls take_last directly *)
Lemma exec_lifted_for S1 S2 A (q : list A) K1 K2 : forall (s : S1 * S2) l,
  exec (@lcall A) (bindp (lift2 (S1 := S1) (seqp (forp q (fun item => awaitp (Deliver (OnNext item)))) K1)) K2) s l =
  exec lcall (bindp (lift2 K1) K2) s (l ++ map OnNext q).
Proof.
  unfold seqp. induction q as [|x q IH]; intros s l.
  - cbn. now rewrite app_nil_r.
  - cbn. rewrite IH. now rewrite <- app_assoc.
Qed.

Lemma tame_scan_last A B (f : B -> A -> res B) b n : Tame (inline (scan_op f b) (take_last_op n)).
Proof.
  split.
  - intros [s q] a. cbn. destruct (f s a); cbn; [destruct (n <? _)%Z; reflexivity|reflexivity].
  - intros [s q] x. exists []. cbn. auto.
  - intros [s q]. exists q. cbn [inline scan_op direct take_last_op body awaitp inlinep exec lift2 bindp].
    match goal with |- context [bindp _ ?K] =>
      pose proof (@exec_lifted_for B (list B) B q (awaitp (Deliver OnCompleted)) K (s, q) []) as E end.
    split; [exact (eq_trans (f_equal (fun z => snd (fst z)) E) eq_refl)|exact (eq_trans (f_equal snd E) eq_refl)].
Qed.

Lemma reduce_hot Z0 (pol : policy Z0) A B (f : B -> A -> res B) b (r : pipe Z0 B) vs e junk l :
  finally (psys pol (reduce_ f b r)) (source_calls vs e junk) l <->
  finally (psys pol (safe r)) (reduce_res f b vs e) l.
Proof.
  rewrite <- (reduce_res_stage pol f b r vs e junk l).
  assert (E : reduce_ f b r = pre (inline (scan_op f b) (take_last_op 1)) (safe r)) by (destruct r; reflexivity).
  rewrite E. exact (hot_cold pol r vs e junk l (tame_scan_last f b 1)).
Qed.
