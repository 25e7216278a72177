# Formal model of aioreactive in Rocq (Coq 8.16)

`properties.jsonl` lists the properties (C01, C02, ...), `MANIFEST.json` the
theorems proved for each, `rocq/theories/` holds the model and the proofs,
`seeded/LOG.jsonl` the wrong programs the theorems were tried on.
(`tools/props.py` and `tools/manifest.py` generate the first two.)

Build: `cd rocq && coq_makefile -f _CoqProject -o Makefile && make -j4` (about two minutes).

## 1. Approach

The code is read as text (it is not run here) and transcribed, function by
function, into small executable Gallina definitions. Each definition cites the
file and lines it models. There are three kinds of model:

1. **Coroutine bodies as programs** (`Prog.v`). The body of an observer method
   is a value of the inductive type `prog S N`: return, raise, read/write the
   closure state `S`, `Call n` (= `await` a method of the downstream observer,
   with the outcome "returned" or "raised e" passed to the continuation).
   `try/except` and sequencing are functions on programs. An operator is an
   initial closure state plus one body per incoming message (`op M N`).
2. **Components** (`Comp.v`, `Pipe.v`). A pipeline is composed from the
   subscriber, synchronous operators (an observer that calls the next one
   directly) and agents (a `MailboxProcessor`: FIFO queue + worker). A *run* is
   any interleaving of upstream calls and worker steps. Schedule independence,
   termination and prefix properties are proved once for the whole algebra
   (`CompProofs.v`, `PipeProofs.v`) and instantiated by every operator.
3. **Dedicated transition systems** where the state of the code is not a linear
   pipeline. A history is a list of labels: what sources, subscribers and users
   do, and the steps of the worker, timers and futures, in any order. The state
   carries a log of everything done to the outside (subscriptions, disposals,
   calls of observers). Theorems are by induction over histories.

Each group has four kinds of file:

* the model (`Merge.v`, `Iterate.v`, ...): definitions only, with citations;
* the specification: `Spec.v` (streams as lists with an ending, list functions
  for the operators, Python's slicing), `MergeSpec.v`, `TimeSpec.v`, or the last
  section of the model file;
* the proofs (`*Proofs.v`): invariants and closed forms;
* the theorems (`PropertiesN.v`): statements, short proofs from the lemmas,
  `Print Assumptions` beneath each, and an `Example` that a concrete
  non-trivial case meets the hypotheses.

Where the code does not do what one would expect of it, the property in
`properties.jsonl` says what it does, that exact behaviour is proved, and a
theorem with the suffix `_refuted` shows that the expectation fails (by a
witness, or, where the failure is systematic, for all histories).

## 2. Properties, models and methods

| id | code | model | theorems | method |
|----|------|-------|----------|--------|
| C01-C05 | observers.py safe_observer | Pipe.v `safe`, SafeProofs.v | Properties1.v | closed form of the worker; invariant over all schedules, any subscriber policy |
| C06-C08 | MailboxProcessor pipelines | Comp.v, Pipe.v | Properties1.v | diamond property, commutation of calls and steps, termination measure; induction over pipelines |
| C09-C20 | transform.py, filtering.py operators | Ops.v, Slice.v | Properties2.v, Properties23.v, Properties36.v, Properties59.v | closed form of the operator on lists, lifted to all schedules by C06-C08; in front of any pipeline and any subscriber |
| C21-C23 | combine_latest, with_latest_from, take_until | Ops.v | Properties3.v | as C09, on the arrival order of both sources |
| C24-C29, C64 | combine.py merge_inner, concat_seq; flat_map*, concat_map | Merge.v, Cold.v | Properties4.v, Properties19.v | invariant over histories; sorting of calls by subscription; termination measure |
| C30-C31, C72 | switch_latest, flat_map_latest | Switch.v, ColdSwitch.v | Properties5.v, Properties30.v | invariant over histories; sorting of elements by subscription; termination measure |
| C32-C34, C73 | catch, retry | Catch.v, Retry.v, ColdCatch.v | Properties6.v, Properties22.v, Properties31.v | invariant over histories, induction over failing sources and over the chain of answers |
| C35, C37, C57 | delay, interval, timer | Time.v | Properties7.v, Properties24.v | timed histories, invariants |
| C36, C38 | debounce, sample | Debounce.v | Properties8.v | timed histories, invariants |
| C39-C41, C56 | create.py | Source.v, AsyncIter.v | Properties9.v | as C09; histories with disposal |
| C42-C44 | AsyncMultiSubject | Subject.v | Properties10.v | task-interleaving machine, invariants |
| C45-C46 | AsyncSingleSubject | Single.v | Properties11.v | task-interleaving machine, invariants |
| C47-C48 | AsyncAwaitableObserver, run | Run.v | Properties12.v | induction, composed with C09-C20 |
| C49-C51, C58, C59, C63 | AsyncIteratorObserver | Iterate.v | Properties13.v, Properties18.v | futures, awaiters and the loop's ready queue; invariants |
| C71 | AsyncIteratorObserver, overlapping `__anext__` calls | Overlap.v | Properties29.v | all futures kept, ready queue; phase invariant; calls and subscriptions that are lost stay lost |
| C52, C53, C60, C61 | VirtualTimeEventLoop | Loop.v | Properties14.v | histories of loop iterations; accounting of handles |
| C54 | auto_detach_observer | Detach.v | Properties15.v | invariant over histories; the mailbox's cancellation policy is a parameter |
| C55 | AsyncTestObserver | TestObs.v | Properties16.v | induction |
| C65 | to_observable | ToObs.v | Properties20.v | invariant over histories; reactivex is the environment |
| C66 | of_seq, of_async with several subscribers | Shared.v | Properties21.v | invariant over histories of all subscriptions of one observable |
| C74 | of_async_iterable with several subscribers | SharedAsync.v | Properties32.v | invariant over histories of all subscriptions; projection of each subscription of an iterable onto AsyncIter.v |
| C75 | operators of a hot source called by several tasks at once | Threads.v on Pipe.v, Ops.v | Properties33.v | every call a task that runs from one suspending await to the next; refinement to atomic calls for callers that take turns and for operators without async functions of the user; invariant for the others, with refutations |
| C76 | pipelines subscribed to an AsyncSubject, end to end | Hub.v on Subject.v, Threads.v | Properties34.v | the calls of the subject are the tasks that run the observers of the pipelines; an invariant projects each history to Subject.v (C42-C44) and to one history of Threads.v (C75) per pipeline; termination by structural induction on the coroutines |
| C77 | laws: which chains of operators may replace one another | Laws.v on Ops.v | Properties35.v | every operator turns elements and ending into elements and ending (the stage lemmas of OpsProofs.v), so a law is an equation between functions on lists; the converse cases are refuted by one run |
| C78 | `async for` over a pipeline yields what an observer would be told | Consume.v: Pipe.v and Iterate.v on one ready queue | Properties37.v | every joint history is a history of the iterator in which calls are made in turn (invariant: the log of beginnings and ends is a prefix of complete calls, from C02), so C49-C51 apply; completeness from the pipeline's unique final log |
| C79 | functions with side effects: called once per element, in order, not after a failure | Effects.v: the operators of Ops.v with functions that depend on their earlier calls, recorded in the operator's state | Properties38.v | relays with state as in C09; the calls: final state of the worker (confluence), every program of the worker only extends the list of calls, so every moment has a prefix of it |
| C80 | programs: expressions of sources, operators, merge_inner, catch and two-source operators, nested to any depth, make their subscriber see what they mean; laws | Programs.v: [makes] connects the models of the parts (Source.v, Ops.v, Merge.v with Cold.v, Catch.v with ColdCatch.v); [means] is a denotation with lists; complete runs, in which sources are not disposed after the subscriber's end (the subscriber sees no difference, the safe observer drops what they send) | Properties39.v | soundness by induction over expressions from C39/C40, C77, C05-C07 (merge with any endings), C73; completeness for sequential programs by building runs; the laws from equality of meanings; refuted by an explicit run |
| C81 | programs in which observables run at the same time (merge, merge_seq, flat_map, flat_mapi) may make their subscriber see exactly the interleavings; laws of merge and flat_map | Programs2.v on top of Programs.v: [merged] says with lists what two observables at the same time are; [regular] (every merge unbounded and of observables that have some complete run, or one at a time). "May see" ranges over schedules in which a source makes its calls at any time, so a permutation that needs a source to wait is counted as possible | Properties40.v | completeness by building, for a given interleaving, the run of merge_inner that makes it; then the algebra of shuffles (commutative, associative, unit, errors cut the other side); laws from equality of meanings; refuted by an explicit run |
| C82 | take_until, combine_latest, with_latest_from in programs: exactly the outcomes their two sources allow; laws | [Pair] in Programs.v: the two parts make their calls in any interleaving, into the models of Ops.v (combine_latest_sys, with_latest_from_sys, take_until_sys); [paired] is the denotation with lists; Programs3.v names the operators | Properties41.v | from C21, C22, C23 by splitting the calls at the first end (PairProofs.v), both directions; the laws from equality of the sets of outcomes; refuted by an outcome |
| C83 | switch_latest, flat_map_latest, flat_map_latest_async in programs: exactly the outcomes their parts allow; when they end; laws | [Switched] in Programs.v: the source and the observables make their calls into the model of switch_latest (Switch.v, ColdSwitch.v), a disposed one possibly only a beginning of them (the model does not say when a disposed one falls silent: any beginning is possible); [switched] is the denotation with lists | Properties42.v | soundness from the step invariants of C30/C72, completeness by a schedule that plays a given interleaving (SwitchAnyProofs.v); the laws by expressing [switched] with [merged] (Programs4Proofs.v); refuted by an outcome |
| C84 | delay, debounce, sample, timer in programs: exactly the outcomes their source allows; laws | [Shifted] and [Ticking] in Programs.v, Timed.v: a source that makes given calls at any times in front of the models of Time.v, Debounce.v and sample_sys; runs in which every timer has run out and every message has been dealt with; [shifted] is the denotation with lists. Every subscription is to an observable of its own (those to one delayed observable share a token, C57) | Properties43.v | soundness from the invariants of C35-C38, completeness by a schedule with the required pauses (TimedProofs.v); the laws from equality of the sets of outcomes (Programs5Proofs.v); refuted by an outcome |
| C85 | retry in programs: exactly the outcomes its source allows; laws; the same for catch without conditions | [Retried] in Programs.v: the model of catch (Catch.v) with retry's factory, which is the handler with a state; [retried] is the denotation | Properties44.v | the chain of subscriptions of C73 with a handler that has a state; completeness by playing a chain; retry after two failures never ends (no finite chain); laws from the sets of outcomes |
| C86 | At any moment of any run of a program its subscriber has seen a beginning of one of its outcomes, by the grammar | [so_far] in Programs6.v: the models of the parts connected as in [makes], each somewhere in the middle of its run | Properties45.v | by induction over programs: every part in the middle can be brought to an end (runs of each model extend, and their logs only grow); catch and retry by the chain of subscriptions, for those that cannot go round for ever ([steady]) |
| C87 | Disposing a program shows its subscriber nothing new | [cut] in Programs7.v: as [so_far], but every part may be cancelled at any time | Properties46.v | by induction over programs; merge by a simulation by a run without the cancellations; the exceptions (from_async, debounce, switch_latest) by runs |
| C88 | interval in programs: what it makes with operators, concat, merge, concat_map, take_until(timer), catch, retry | [Ticking] in Programs.v: the model of interval (Time.v); a run of it has no end and is looked at at any moment; timer(d) is interval(d, 0) | Properties47.v | runs with any number of ticks; the laws from the sets of outcomes (Programs8Proofs.v) |
| C89 | run() of a program | Programs9.v: [run_gives] puts the future of Run.v (set by every element, then by the ending; timeout) behind [so_far] of a program | Properties48.v | from C86 and the invariant of Run.v; both directions |
| C90 | results that do not depend on the order do not depend on the schedule | Programs9.v: [gathers], [order_free] | Properties48.v | permutations through [means] of each operator (C80_sound), fold over a permutation; refuted by two runs |
| C91 | functions that raise: chains as they are in the code, and directly behind catch, retry, delay and interval | Behind.v: [hung] is the chain without the safe observers that [Stage] has; [behind_step] is the step of Catch.v with an operator behind it that may raise out of asend; [delay_reach], [interval_reach] restrict the histories of Time.v to those in which the operator decides which call raises | Properties49.v | chains by induction over the chain with the laws of safe_observer; catch and retry by translating histories to histories of Catch.v, and back (what a subscription makes and nobody hears of is put in between); delay and interval by invariants |
| C92 | a program shared by means of an AsyncSubject | Multicast.v: the calls of the subject of Hub.v are those of a run of a program (Programs.v), its pipelines are chains (Behind.v) | Properties50.v | what each subscriber hears is computed from the history (subscriptions in force), then C76 for the pipeline and C91 for the chain; that every run can be shared by running the hub to rest after every call |
| C93 | `async for` over a program | IterProgram.v: the calls of the iterator (Iterate.v) are what a run of a program (Programs.v, Programs6.v) has come to | Properties51.v | the iterator's invariant (C49-C51) applied to the calls of a program at a moment (C86); that every outcome can be iterated by running consumer and program in turn |
| C94 | delays in a chain add up | Delays.v: any number of workers and mailboxes of delay (Time.v) on one clock; what one worker calls goes through functions (map, filter, choose that do not raise) into the next mailbox | Properties52.v | every stage of a history of the chain is a history of Time.v whose arrivals are the log of the stage before, then induction over the chain with C35; that everything arrives by a measure (3 per element in a mailbox and stage still to go) |
| C95 | laws of operators, slices and coroutine functions in programs | Variants.v: slice as a chain of stages, starmap, starfilter; Programs.v: mapi_async, filter_async, choose_async, flat_map_async, flat_mapi_async | Properties53.v | what the observers of a chain make of a source (C91) lifted to all programs; slice by C20 for any ending; c[:n] + c[n:] by the meaning of concat and that a sequential program has one outcome |
| C96 | a subject combined with itself | Diamond.v: the messages that two observers of one subject (Subject.v) put into an operator with two sources (Ops.v) or into merge_inner (Merge.v); maps between as total functions | Properties54.v | invariant: the log of the subject is, call by call, the list of its members; the two subscriptions stay next to each other among the members; then the theorems of the operators (C21-C23, C26, C27) for that order of arrivals |
| C97 | interval and timer in front of delays | Clocked.v: the task of interval (Time.v) and the workers of a chain of delays (Delays.v) on one clock; a call of the first delay only posts, so that the task goes on at once | Properties55.v | every joint history projects onto a history of interval and one of the delays, with the calls of the one as the arrivals of the other; then C37 and C94; the times of the calls by an invariant of the task's sleep |
| C98 | interval and timer in front of debounce | Debounced.v: the task of interval (Time.v) and the worker and sleeps of debounce (Debounce.v) on one clock; the observer of debounce returns at once | Properties56.v | every joint history projects onto one of interval with nothing behind it (Clocked.v, no delays) and one of debounce; then C36 (window) and C97 (times of the calls); the numbers of the elements that get through are sorted and downward closed, hence an initial segment |
| C99 | operators made once and used several times: slice, zip_seq with an iterator | Reuse.v: the variable `start` that slice's function changes; one counter of `next` for the observers (Ops.v, zip_op) of all subscriptions | Properties57.v | slice: the variable is stable after one application, skip(0) changes nothing (C77); zip_seq: induction over the interleaving, projection of each subscription onto zip_seq with an iterator of its own |
| C100 | interval and timer in front of sample | Sampled.v: the tasks of the source and of the interval inside sample (Time.v) on one clock, posting to with_latest_from | Properties58.v | every joint history projects onto two histories of interval with nothing behind them (Clocked.v); the posted calls are sorted by time; C38 for what sample makes of them, split at the first tick, whose time is known from C97 |
| C101 | interval and timer in front of a pipeline, interval.take(n) | Ticking.v: the task of interval (Time.v) calls the first observer of a pipeline (Pipe.v), whose workers run on the same clock | Properties60.v | every step appends to the calls of interval and extends a run of the pipeline, so that the theorems about pipelines apply; at a tick of a prompt history the pipeline is quiet; the beats by induction over histories. Simplification: a call takes no time |
| C67 | subscribe_async and disposables of all operators | Tree.v | Properties25.v | induction over pipelines |
| C68 | notification.py; observers made from functions | Notif.v | Properties26.v | induction over adapters and calls |
| C69 | VirtualTimeEventLoop with heapq | Heap.v | Properties27.v | heap invariant; simulation of the loop with the array by that of Loop.v |
| C62 | testing/subject.py | TestSubj.v on Loop.v | Properties17.v | invariant over histories |
| C70 | testing/subject.py, asend_later and the others | Later.v on Loop.v | Properties28.v | invariant of each call over histories; progress measure for the draining |

No property is `partial` or `not_applicable`.

## 3. Trusted base

* **Coq's kernel** (8.16.1) and `vm_compute` (used for examples and for the
  witnesses of refutations; it is part of the kernel).
* **Axioms: none.** `Print Assumptions` says "Closed under the global context"
  for every theorem listed in MANIFEST.json. No axiom, parameter, functor or
  module type is declared. Scanning the compiled files also shows seven items of
  the standard library's `Coq.ssr.ssrunder.Under_rel` (`Under_rel`, `Under_relE`,
  `Under_rel_from_rel`, `Over_rel`, `over_rel`, `over_rel_done`,
  `under_rel_done`): they are fields of a module
  type that is loaded with `lia`; no theorem depends on them.
* **The reading of the Python code**: the definitions, whose comments cite the
  lines and name the simplifications.
* **Third-party code** the repository imports, which is not in the sandbox. What
  is assumed of it:
  * Expression's `MailboxProcessor`: FIFO queue and one worker; `post` neither
    suspends nor raises; if its token is cancelled, `receive` is cancelled and
    queued messages are dropped ("cancellation overrides messages"). For
    auto_detach_observer (C54) both policies are considered.
  * `aiotools.start(coro, token)` creates a task and registers its cancellation
    on the token; `start_immediate` likewise, running at once.
  * `AsyncDisposable.create(action)` runs the action on the first dispose only;
    `AsyncDisposable.composite` disposes in order; `__aexit__` disposes.
  * `CancellationTokenSource.cancel` is idempotent.
  * `Map.remove` of a missing key changes nothing; the values of a Map come in
    the order of the keys; `Block` is an immutable list; `Option` is an option.
  * `seq.infinite` counts 0, 1, 2, ... anew for each `iter()`.
  * `tailrec_async` is a loop that does not suspend by itself.
  * asyncio: a task runs until it awaits something that is not done; awaiting
    a future that is done does not suspend; a future wakes its waiters in order;
    `Task.cancel` cancels the future awaited, or raises CancelledError at the
    next resumption if that is done; a task cancelled before its first step does
    not run its body; `asyncio.sleep` never ends early; `wait_for` cancels at
    the timeout; `call_soon`, `call_at` and `Handle.cancel` as documented.
  * `heapq`: Loop.v only assumes that the first entry of the heap is a minimal one
    (parameter `top`); Heap.v transcribes CPython's Lib/heapq.py and proves it.

## 4. What is modelled

All of `aioreactive/` except what is listed in section 5. In particular:

| file | modelled |
|------|----------|
| observers.py | AsyncIteratorObserver, safe_observer, auto_detach_observer, AsyncAwaitableObserver, AsyncAnonymousObserver, AsyncNotificationObserver, noop |
| notification.py, utils.py | all but `__str__` and `kind` |
| observables.py | AsyncAnonymousObservable (subscribing wraps nothing; iteration in Iterate.v) |
| subject.py | AsyncSingleSubject, AsyncMultiSubject |
| leave.py | to_observable, to_async_iterable |
| subscription.py | run |
| create.py | of_async_worker, of_async, of_async_iterable, single, empty, never, fail, of_seq, defer, interval, timer |
| combine.py | zip_seq, merge_inner, concat_seq, combine_latest, with_latest_from |
| filtering.py | all operators |
| transform.py | all operators |
| timeshift.py | delay, debounce, sample |
| testing/ | VirtualTimeEventLoop._run_once, AsyncTestObserver, asend_at/athrow_at/aclose_at, the later methods |
| \_\_init\_\_.py | AsyncRx.\_\_getitem\_\_ (slice); the other methods and functions delegate |

Simplifications that apply throughout (others are stated at the definitions):

* Exceptions are values of a small type with constructors for those the code
  itself raises, and one with a number for the user's. `BaseException`s that are
  not `Exception`s occur only as cancellation, where it is modelled.
* Log messages, type annotations, `__repr__`, names and debug output are left out.
* User functions (mappers, predicates, accumulators, handlers) are pure functions
  with a result or an exception; the handler of catch may have a state, and Effects.v
  (C79) has functions with side effects for map, choose, filter, mapi and scan. User
  coroutines suspend any number of times (other workers may run meanwhile).
* A subscriber is a policy: for each notification, given those before it, it
  returns or raises. Theorems called `..._in_pipeline` hold for all policies;
  `delivers` speaks about a subscriber that does not raise.
* In Comp.v and Pipe.v a call of an observer that is not behind a mailbox is one
  step. C75 shows when this loses nothing: the callers take turns, or the
  pipeline has no async function of the user before its first mailbox; and what
  happens otherwise.
* Time is an integer.
* Subscriptions, observables and observers are identified by numbers or by
  elements of an arbitrary type.

## 5. What is not modelled

* `iterable/to_async_observable.py` (an alias of from_async_iterable).
* On one iterator both overlapping `__anext__` calls and overlapping producers or
  cancellations (Overlap.v has the first, Iterate.v the others).
* `AsyncRx` methods (they delegate to functions that are modelled), `pipe`,
  type checks at run time.
* Threads; the library is meant for one event loop.

## 6. Findings

Deviations from what a user would expect, each with a proof in the model:

* scan/scan_async go on after an exception of the accumulator (C17), so in front
  of a subscriber they break the grammar (C01_grammar_scan_refuted).
* skip_last drops elements equal to None (C15). take(0) waits for the source (C12).
* slice: stop = 0 gives everything; start < 0 < stop and 0 < stop < start differ
  from Python (C20).
* combine_latest and with_latest_from end at the first completion of either
  source (C21, C22).
* merge_inner: a negative bound completes although inners wait (C26); after an
  error of an inner nothing is disposed (C29); if subscribe_async of an inner
  raises, the worker is dead and disposal does nothing (C29).
* switch_latest never completes once an inner was subscribed, may deliver
  elements of a disposed inner, and ignores errors of the outer source as far as
  the inner is concerned (C30, C31).
* retry(n) retries once for every n other than 0 (C85_count, C85_attempts_refuted), then resubscribes to a failing
  source for ever without delivering the error; the count is shared by all
  subscriptions (C33). catch's disposable disposes only the first subscription (C34).
* debounce loses a pending value at completion, and disposing it completes the
  subscriber (C36); reduce behind it then shows the sum so far as if it were the sum, and so behind
  switch_latest (C87). sample does not sample (C38). Disposing one subscription of
  a delayed observable silences the others (C57); so retry or catch that goes back to
  one delayed observable, whose first subscription it disposes, gets nothing from it.
* `async for` over an observable does not hold the source back: sources run ahead of
  the loop's body although asend waits for the loop to take the element (C78).
* from_iterable of a generator and from_async of a coroutine serve one subscriber
  only; disposing one subscriber of from_async(future) cancels the future for all (C66). Of several
  subscribers of one async generator some are left without an ending, its
  exception is told to nobody, and disposing one can end the stream for all (C74).
* an iterator that raises leaves from_iterable without a terminal call (C39);
  disposing does not retract what was queued (C41).
* subjects: an observer can get elements after the terminal call, and observers
  can see different orders (C44); a single subject delivers a waiting send to the
  last subscriber and out of order (C45); athrow/aclose on a disposed single
  subject hang the loop (C46).
* concat_map over a source that fails can lose elements that came before the error:
  the error overtakes observables that are still waiting or running (C80_right_identity_failing_refuted).
* overlapping sends through map_async, filter_async and choose_async change their
  order, a completion overtakes elements, which a safe_observer then drops;
  scan_async and reduce_async lose updates (C75).
* AsyncSubject: a function of the user that raises in one subscriber's pipeline
  (before its first mailbox) makes asend raise, and the subscribers after it miss
  the element (C76_isolation_refuted).
* a function that raises directly behind catch or retry is handled by them, as if it
  were in front: the handler is asked, elements come a second time, and the error is
  lost (C91_catch_refuted, C91_retry_refuted); directly behind delay, interval and
  timer it silences the stream for good (C91_delay, C91_interval).
* run of an empty stream is cancelled (C47).
* concurrent producers of an iterated observable can be left waiting for ever or
  be overtaken (C49); of two loops over one iterator one raises InvalidStateError
  and the other waits for ever (C71); a timeout on __anext__ or a cancelled asend kills the
  iteration (C58, C59); dispose_async during subscribe_async is lost (C63).
* the virtual loop starves timers while callbacks are ready (C60) and can run
  timers with equal deadlines in the opposite order (C69); the task of
  aclose_at is kept for ever (C62), and that of a scheduled call whose
  observer raises (C70).
* a subscription that fails half-way leaves the sources before it subscribed; a
  disposable that raises keeps the others from being disposed, for good beneath
  merge, switch_latest, catch, delay or debounce (C67).
* auto_detach never disposes the upstream subscription (C54); AsyncTestObserver
  invokes its callbacks twice (C55).
* zip_seq with an iterator: an element that arrives after its subscription has ended
  uses up an item that no subscription sees (C99_lost_refuted).
