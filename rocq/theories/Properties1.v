(** * Properties C01-C08: the safe observer and pipelines in general. *)
From Verif Require Import HotProofs.
Set Implicit Arguments.

(** C01. Whatever calls are made on the observer returned by safe_observer, and
    whatever the wrapped observer does (raise or not, [pol]), at every moment
    of every schedule the wrapped observer has seen OnNext* (OnError|OnCompleted)?. *)
Theorem C01_grammar : forall Z (pol : policy Z) ms l,
  sees (psys pol (safe PEnd)) ms l -> grammatical l.
Proof. exact polite_safe_end. Qed.
Print Assumptions C01_grammar.

(** The same for every pipeline of any stages whose last one is a safe_observer
    (every operator but the plain relays map/filter/choose/scan ends with one),
    with one source ... *)
Theorem C01_grammar_pipelines : forall Z A (pol : policy Z) (p : pipe Z A) ms l,
  ends_guarded p -> sees (psys pol p) ms l -> grammatical l.
Proof. intros Z A pol p ms l H. exact (polite_guarded H (l := l)). Qed.
Print Assumptions C01_grammar_pipelines.

(** ... or with several sources feeding a worker or direct observers. *)
Theorem C01_grammar_many_sources : forall Z M B (pol : policy Z) (o : op M (act B)) (r : pipe Z B) ms l,
  ends_guarded r -> sees (msys pol o r) ms l \/ sees (ssys pol o r) ms l -> grammatical l.
Proof.
  intros Z M B pol o r ms l H [Hs|Hs].
  - exact (polite_msys (polite_guarded H) Hs).
  - exact (polite_ssys (polite_guarded H) Hs).
Qed.
Print Assumptions C01_grammar_many_sources.

(** Relays directly in front of the subscriber, behind a safe_observer (a cold source). *)
Theorem C01_grammar_map : forall Z A (pol : policy Z) (f : A -> res Z) ms l,
  sees (psys pol (safe (map_ f PEnd))) ms l -> grammatical l.
Proof.
  intros Z A pol f ms l. exact (polite_relay tt PEnd (map_is_relay f) eq_refl (polite_safe_end (pol := pol)) (l := l)).
Qed.
Print Assumptions C01_grammar_map.

Theorem C01_grammar_filter : forall Z (pol : policy Z) (f : Z -> res bool) ms l,
  sees (psys pol (safe (filter_ f PEnd))) ms l -> grammatical l.
Proof.
  intros Z pol f ms l. exact (polite_relay tt PEnd (filter_is_relay f) eq_refl (polite_safe_end (pol := pol)) (l := l)).
Qed.
Print Assumptions C01_grammar_filter.

Theorem C01_grammar_choose : forall Z A (pol : policy Z) (f : A -> res (option Z)) ms l,
  sees (psys pol (safe (choose_ f PEnd))) ms l -> grammatical l.
Proof.
  intros Z A pol f ms l. exact (polite_relay tt PEnd (choose_is_relay f) eq_refl (polite_safe_end (pol := pol)) (l := l)).
Qed.
Print Assumptions C01_grammar_choose.

(** The grammar does not hold for scan in front of the subscriber: after the
    OnError for a raising accumulator, elements go on (cold source, well-behaved
    subscriber). *)
Theorem C01_grammar_scan_refuted : exists (f : nat -> nat -> res nat) ms l,
  grammatical ms /\ sees (psys well_behaved (safe (scan_ f 0 PEnd))) ms l /\ ~ grammatical l.
Proof. exact scan_ungrammatical. Qed.
Print Assumptions C01_grammar_scan_refuted.

Example C01_case : sees (psys (fun l : list (notif nat) => if length l =? 2 then Some ValueError else None) (safe PEnd))
  [OnNext 1; OnNext 2; OnNext 3; OnCompleted; OnNext 4]
  [OnNext 1; OnNext 2; OnError ValueError].
Proof.
  exact (finally_sees (proj2 (finally_raising _ [OnNext 1; OnNext 2; OnNext 3; OnCompleted; OnNext 4] _) eq_refl)).
Qed.
Example C01_case_take : exists opr, take_ 2 = Ok opr /\ ends_guarded (opr (@PEnd nat)).
Proof. exact (ex_intro _ _ (conj eq_refl (eg_sync _ eg_last))). Qed.

(** C02. The user's observer has any state and reaction: it may suspend any
    number of times in each call and may raise.  At every moment the log of
    beginnings and ends of calls is a sequence of complete calls, possibly
    followed by one call in progress: two calls never overlap.  The calls
    obey the grammar and begin in the order in which they were requested
    (except that an OnError for the observer's own exception is inserted, as
    the last call). *)
Theorem C02_no_overlap : forall A S (react : S -> notif A -> S * nat * option exn) (u0 : S) ms l,
  sees (guarded react u0) ms l ->
  exists ns current,
    (l = map OnNext (flat_map (fun n => [Begin n; End n]) ns) /\ current = [] \/
     exists n, l = map OnNext (flat_map (fun n => [Begin n; End n]) ns ++ [Begin n]) /\ current = [n]) /\
    grammatical (ns ++ current) /\
    (prefix (ns ++ current) ms \/ exists before e, ns ++ current = before ++ [OnError e] /\ prefix before ms).
Proof. exact no_overlap. Qed.
Print Assumptions C02_no_overlap.

Example C02_case : exists l,
  sees (guarded (fun (u : nat) (_ : notif nat) => (S u, 2, if u =? 1 then Some ValueError else None)) 0)
    [OnNext 1; OnNext 2; OnNext 3] l /\ length l = 6.
Proof. exact no_overlap_case. Qed.

(** C03. If the wrapped observer does not raise, every complete execution has
    delivered exactly the requested calls up to the first terminal one, in
    order, every moment before a prefix of that. *)
Theorem C03_nothing_lost : forall Z (ms : list (notif Z)),
  delivers (psys well_behaved (safe PEnd)) ms (upto_terminal ms).
Proof. exact (fun Z ms => proj2 (delivers_iff (sane_psys _ _) _ _) (proj2 (subscriber _ _) eq_refl)). Qed.
Print Assumptions C03_nothing_lost.

Example C03_case : delivers (psys well_behaved (safe PEnd))
  [OnNext 1; OnNext 2; OnCompleted; OnNext 3; OnError ValueError] [OnNext 1; OnNext 2; OnCompleted].
Proof. exact (C03_nothing_lost [OnNext 1; OnNext 2; OnCompleted; OnNext 3; OnError ValueError]). Qed.

(** C04. If the wrapped observer raises [x] for the element [a] (and not
    before), it gets OnError x next and nothing else, whatever was or will be
    requested. *)
Theorem C04_observer_exception : forall Z (pol : policy Z) vs a rest x,
  (forall ws, prefix ws vs -> ws <> [] -> pol (map OnNext ws) = None) ->
  pol (map OnNext (vs ++ [a])) = Some x ->
  delivers (psys pol (safe PEnd)) (map OnNext vs ++ OnNext a :: rest)
    (map OnNext (vs ++ [a]) ++ [OnError x]).
Proof.
  exact (fun Z pol vs a rest x H1 H2 => proj2 (delivers_iff (sane_psys _ _) _ _)
    (proj2 (finally_raising _ _ _) (eq_sym (raising_calls pol a rest H1 H2)))).
Qed.
Print Assumptions C04_observer_exception.

Example C04_case : delivers
  (psys (fun l : list (notif nat) => if length l =? 3 then Some ValueError else None) (safe PEnd))
  [OnNext 1; OnNext 2; OnNext 3; OnNext 4; OnCompleted] [OnNext 1; OnNext 2; OnNext 3; OnError ValueError].
Proof. exact observer_exception_case. Qed.

(** C05. Everything safe_observer does with the observer and the disposable,
    at any moment of any schedule: it delivers elements [vs], the first
    requested ones; then either the terminal call [t] requested next, preceded
    by exactly one dispose (or only the dispose so far); or, if the observer
    raised [e] on the last element, OnError e, without any dispose. *)
Theorem C05_dispose_first : forall A (out : list (act A) -> option exn) ms s,
  run (recorded out) (recorded0 out) ms s ->
  exists vs,
    prefix (map OnNext vs) ms /\
    (snd s = map (fun a => Deliver (OnNext a)) vs \/
     (exists t rest, is_term t = true /\ ms = map OnNext vs ++ t :: rest /\
        (snd s = map (fun a => Deliver (OnNext a)) vs ++ [Dispose] \/
         snd s = map (fun a => Deliver (OnNext a)) vs ++ [Dispose; Deliver t])) \/
     (exists e, out (map (fun a => Deliver (OnNext a)) vs) = Some e /\
        snd s = map (fun a => Deliver (OnNext a)) vs ++ [Deliver (OnError e)])).
Proof. exact recorded_shape. Qed.
Print Assumptions C05_dispose_first.

(** ... and when nothing raises, a requested terminal is delivered, after the dispose. *)
Theorem C05_dispose_happens : forall A (vs : list A) t rest s,
  is_term t = true ->
  run (recorded (fun _ => None)) (recorded0 (fun _ => None)) (map OnNext vs ++ t :: rest) s ->
  quiet (recorded (fun _ => None)) s ->
  snd s = map (fun a => Deliver (OnNext a)) vs ++ [Dispose; Deliver t].
Proof. exact dispose_happens. Qed.
Print Assumptions C05_dispose_happens.

Example C05_case : exists s,
  run (recorded (fun _ => None)) (recorded0 (fun _ => None)) [OnNext 1; OnCompleted; OnNext 2] s /\
  quiet (recorded (fun _ => None)) s /\
  snd s = [Deliver (OnNext 1); Dispose; Deliver OnCompleted].
Proof. exact (recorded_final (fun _ => None) [OnNext 1; OnCompleted; OnNext 2]). Qed.

(** C06. Any two complete executions of a pipeline with the same input calls
    end in the same state, whatever the schedules: for pipelines of any
    length, and for workers or observers fed by several sources (the input is
    then the merged sequence of calls). *)
Theorem C06_schedule_independent : forall Z A (pol : policy Z) (p : pipe Z A) ms a b,
  let S := psys pol p in
  run (sc S) (s0 S) ms a -> quiet (sc S) a -> run (sc S) (s0 S) ms b -> quiet (sc S) b -> a = b.
Proof. exact (fun Z A pol p ms a b => @confluence _ _ (good_pipe pol p) _ ms a b). Qed.
Print Assumptions C06_schedule_independent.

Theorem C06_schedule_independent_many_sources :
  forall Z M B (pol : policy Z) (o : op M (act B)) (r : pipe Z B) ms,
  (forall a b, let S := msys pol o r in
     run (sc S) (s0 S) ms a -> quiet (sc S) a -> run (sc S) (s0 S) ms b -> quiet (sc S) b -> a = b) /\
  (forall a b, let S := ssys pol o r in
     run (sc S) (s0 S) ms a -> quiet (sc S) a -> run (sc S) (s0 S) ms b -> quiet (sc S) b -> a = b).
Proof.
  exact (fun Z M B pol o r ms => conj (fun a b => @confluence _ _ (sn_good (sane_msys pol o r)) _ ms a b)
                                      (fun a b => @confluence _ _ (sn_good (sane_ssys pol o r)) _ ms a b)).
Qed.
Print Assumptions C06_schedule_independent_many_sources.

(** C07. From any state a pipeline becomes quiet after [n] worker steps;
    no schedule can make more than [n] steps, and every schedule can be
    completed to exactly [n] steps with the same final state. *)
Theorem C07_quiesces : forall Z A (pol : policy Z) (p : pipe Z A) (s : cst (pcomp pol p)),
  exists n a, steps (pcomp pol p) n s a /\ quiet (pcomp pol p) a /\
    forall m b, steps (pcomp pol p) m s b -> m <= n /\ steps (pcomp pol p) (n - m) b a.
Proof. exact (fun Z A pol p => bounded (good_pipe pol p)). Qed.
Print Assumptions C07_quiesces.

Theorem C07_quiesces_many_sources : forall Z M B (pol : policy Z) (o : op M (act B)) (r : pipe Z B)
  (s : cst (sc (msys pol o r))),
  exists n a, steps (sc (msys pol o r)) n s a /\ quiet (sc (msys pol o r)) a /\
    forall m b, steps (sc (msys pol o r)) m s b -> m <= n /\ steps (sc (msys pol o r)) (n - m) b a.
Proof. exact (fun Z M B pol o r => bounded (sn_good (sane_msys pol o r))). Qed.
Print Assumptions C07_quiesces_many_sources.

(** The same if the calls of several sources are handled at once, not through a mailbox. *)
Theorem C07_quiesces_many_sources_direct : forall Z M B (pol : policy Z) (o : op M (act B)) (r : pipe Z B)
  (s : cst (sc (ssys pol o r))),
  exists n a, steps (sc (ssys pol o r)) n s a /\ quiet (sc (ssys pol o r)) a /\
    forall m b, steps (sc (ssys pol o r)) m s b -> m <= n /\ steps (sc (ssys pol o r)) (n - m) b a.
Proof. exact (fun Z M B pol o r => bounded (sn_good (sane_ssys pol o r))). Qed.
Print Assumptions C07_quiesces_many_sources_direct.

(** C08. What the subscriber has seen at any moment is a prefix of what it has
    seen at the end of any complete execution with these and further inputs. *)
Theorem C08_prefix : forall Z A (pol : policy Z) (p : pipe Z A) ms ms' l l',
  sees (psys pol p) ms l -> finally (psys pol p) (ms ++ ms') l' -> prefix l l'.
Proof. exact (fun Z A pol p ms ms' l l' => @sees_prefix _ _ _ (sane_psys pol p) ms ms' l l'). Qed.
Print Assumptions C08_prefix.

Theorem C08_prefix_many_sources : forall Z M B (pol : policy Z) (o : op M (act B)) (r : pipe Z B) ms ms' l l',
  sees (msys pol o r) ms l -> finally (msys pol o r) (ms ++ ms') l' -> prefix l l'.
Proof. exact (fun Z M B pol o r ms ms' l l' => @sees_prefix _ _ _ (sane_msys pol o r) ms ms' l l'). Qed.
Print Assumptions C08_prefix_many_sources.

Theorem C08_prefix_many_sources_direct : forall Z M B (pol : policy Z) (o : op M (act B)) (r : pipe Z B) ms ms' l l',
  sees (ssys pol o r) ms l -> finally (ssys pol o r) (ms ++ ms') l' -> prefix l l'.
Proof. exact (fun Z M B pol o r ms ms' l l' => @sees_prefix _ _ _ (sane_ssys pol o r) ms ms' l l'). Qed.
Print Assumptions C08_prefix_many_sources_direct.

(** Complete executions exist for every input (so C06-C08 are not vacuous),
    and the number of workers matters: here two, with work left for both. *)
Theorem C06_complete_executions_exist : forall Z A (pol : policy Z) (p : pipe Z A) ms,
  exists l, finally (psys pol p) ms l.
Proof. exact (fun Z A pol p ms => finally_exists (sane_psys pol p) ms). Qed.
Print Assumptions C06_complete_executions_exist.

Example C06_case : exists s a b,
  run (pcomp well_behaved (safe (skip_ 1 (@PEnd nat)))) (pinit well_behaved (safe (skip_ 1 PEnd)))
    [OnNext 1; OnNext 2; OnNext 3] s /\
  cstep (pcomp well_behaved (safe (skip_ 1 PEnd))) 0 s = Some a /\
  cstep (pcomp well_behaved (safe (skip_ 1 PEnd))) 1 s = Some b /\ a <> b.
Proof. exact two_schedules. Qed.

Example C07_case :
  let S := psys well_behaved (skip_ 1 (@PEnd nat)) in
  exists s a, run (sc S) (s0 S) [OnNext 1; OnNext 2; OnNext 3] s /\ steps (sc S) 2 s a /\ quiet (sc S) a /\ s <> a.
Proof. exact some_steps. Qed.

Example C08_case :
  let S := psys well_behaved (skip_ 1 (@PEnd nat)) in
  sees S [OnNext 1; OnNext 2] [OnNext 2] /\
  finally S ([OnNext 1; OnNext 2] ++ [OnNext 3; OnCompleted]) [OnNext 2; OnNext 3; OnCompleted].
Proof. exact early_look. Qed.
