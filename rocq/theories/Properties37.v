(** * Property C78: iterating a pipeline with [async for]. *)
From Verif Require Import ConsumeProofs.
Set Implicit Arguments.

(** If an ordinary observer of the pipeline is told the elements [ws] and then the
    ending [w] when the source makes the calls [ms] (in every schedule, that is what
    [delivers] says), then at every moment of every history of [async for] over the
    pipeline, also before the source has made all of these calls, the iterator has
    yielded the first elements of [ws], in order; it has raised only after all of
    them, and then the error of the ending, again and again; and no more than one
    call is on its way to it. *)
Theorem C78_yields : forall A B (f : operator A B) ms ws w h x, streamwise f ->
  delivers (psys well_behaved (safe (f B PEnd))) ms (trace ws w) ->
  iterates f h x -> prefix (inputs h) ms ->
  exists got ends, i_res (snd x) = map Returned got ++ ends /\ prefix got ws /\
    (ends = [] \/ got = ws /\ exists e, loop_end w = Some e /\ Forall (eq (Raised e)) ends) /\
    length (i_calls (snd x)) <= S (length (i_res (snd x))).
Proof. exact iterates_yields. Qed.
Print Assumptions C78_yields.

(** The loop gets everything and does not get stuck: if the source has made all of its calls,
    nothing goes on by itself, and the consumer waits in __anext__, then the stream has not
    ended and the consumer has got every element. *)
Theorem C78_all : forall A B (f : operator A B) ms ws w h x, streamwise f ->
  delivers (psys well_behaved (safe (f B PEnd))) ms (trace ws w) ->
  iterates f h x -> inputs h = ms ->
  at_rest (iterated f) x -> i_cons (snd x) = CWaiting -> w = Open /\ i_res (snd x) = map Returned ws.
Proof. exact iterates_all. Qed.
Print Assumptions C78_all.

(** The documentation of [async for] says "The source will await for the iterator to pick up the
    value before continuing to avoid queuing values" (observables.py:52-54).  That does not hold:
    the safe_observer between the source and the iterator takes any number of calls while the
    consumer has picked up nothing. *)
Theorem C78_awaits_refuted : ~ exists bound, forall A B (f : operator A B) h x,
  iterates f h x -> length (inputs h) <= length (i_res (snd x)) + bound.
Proof.
  intros (b & H). destruct (iterates_ahead (@nothing nat) (repeat (OnNext 0) (S b))) as (h & x & Hi & E & R).
  specialize (H _ _ _ _ _ Hi). rewrite E, R, repeat_length in H. cbn in H. lia.
Qed.
Print Assumptions C78_awaits_refuted.

(** [async for x in source.map(+1).take(2)] over 1, 2, 3: yields 2 and 3 and ends. *)
Definition plus_one_take_2 : operator nat nat := (fun Z => map_ (fun a => Ok (a + 1))) >> taking 2.
Arguments plus_one_take_2 Z _ : clear implicits.
Definition C78_history : list (jlabel (notif nat)) :=
  [JArrive; JTurn [JNext; JSubscribed];
   JArrive; JTurn [JIn (OnNext 1); JIn (OnNext 2); JIn (OnNext 3); JIn OnCompleted];
   JArrive; JTurn [JWork 0; JWork 0; JWork 0; JWork 0; JWork 0];
   JArrive; JTurn [JWork 1]; JTurn [JNext]; JTurn [JWork 1; JWork 1]; JTurn [JNext]; JTurn [JWork 1; JWork 1; JWork 1]; JTurn []].
Example C78_case : streamwise plus_one_take_2 /\
  delivers (psys well_behaved (safe (plus_one_take_2 nat PEnd))) [OnNext 1; OnNext 2; OnNext 3; OnCompleted] (trace [2; 3] Completed) /\
  exists x, iterates plus_one_take_2 C78_history x /\ inputs C78_history = [OnNext 1; OnNext 2; OnNext 3; OnCompleted] /\
    i_res (snd x) = [Returned 2; Returned 3; Raised StopAsyncIter].
Proof.
  assert (Ha : acts plus_one_take_2 (fun vs e => F_take 2 (fst (F_map (fun a => Ok (a + 1)) vs e)) (snd (F_map (fun a => Ok (a + 1)) vs e)))).
  { apply acts_then; [apply acts_map|apply acts_take; lia]. }
  split; [exact (acts_streamwise Ha)|]. split.
  - apply (delivers_iff (sane_psys _ _)). apply (Ha _ well_behaved PEnd [1; 2; 3] Completed []). apply subscriber. reflexivity.
  - eexists. split; [vm_compute; reflexivity|]. split; reflexivity.
Qed.

(** And a loop that waits for more: the source has not ended. *)
Example C78_case_waits : exists h x, iterates plus_one_take_2 h x /\ inputs h = [OnNext 1] /\
  at_rest (iterated plus_one_take_2) x /\ i_cons (snd x) = CWaiting /\ i_res (snd x) = [Returned 2].
Proof.
  exists [JArrive; JTurn [JNext; JSubscribed]; JArrive; JTurn [JIn (OnNext 1)]; JArrive; JTurn [JWork 0; JWork 0]; JArrive; JTurn [JWork 1];
    JTurn [JNext]; JTurn [JWork 1]].
  eexists. split; [vm_compute; reflexivity|]. split; [reflexivity|]. split; [|split; reflexivity].
  split; [reflexivity|]. intros [|[|k]] d' E; vm_compute in E; discriminate.
Qed.
