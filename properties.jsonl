{"id": "C01", "title": "Rx grammar at the subscriber", "statement": "Whatever sequence of asend/athrow/aclose calls is made on the observer returned by safe_observer (any order, any number, also after a terminal call), the wrapped observer is called according to OnNext* (OnError|OnCompleted)?: never a call after a terminal one, never two terminal ones, even if the wrapped observer raises.", "quantifier": "all call sequences, all schedules of the mailbox worker against callers, all observers (any pattern of raising)", "why_tests_cant": "unbounded call sequences x schedules x observer behaviours; tests sample a handful", "anchors": ["aioreactive/observers.py:safe_observer"]}
{"id": "C02", "title": "Calls to the subscriber never overlap", "statement": "Behind safe_observer at most one of asend/athrow/aclose of the wrapped observer is in progress at any time, however many callers call concurrently, and calls begin in the order in which they were requested.", "quantifier": "all interleavings of callers, worker and suspension points inside the wrapped observer", "why_tests_cant": "an overlap needs a particular suspension schedule; only exhaustive interleaving settles it", "anchors": ["aioreactive/observers.py:safe_observer"]}
{"id": "C03", "title": "Safe observer loses and duplicates nothing", "statement": "If the wrapped observer does not raise then, once the worker is idle, it has received exactly the requested notifications up to and including the first terminal one, in request order; at every earlier moment it has received a prefix of that.", "quantifier": "all request sequences and schedules", "why_tests_cant": "loss/duplication may depend on schedule and length", "anchors": ["aioreactive/observers.py:safe_observer"]}
{"id": "C04", "title": "An exception of the subscriber becomes the terminal OnError", "statement": "If the wrapped observer's asend raises ex, it next receives athrow(ex) and nothing after; notifications still queued are never delivered.", "quantifier": "all request sequences, all observers, all schedules", "why_tests_cant": "the raising position and queue content are unbounded", "anchors": ["aioreactive/observers.py:safe_observer"]}
{"id": "C05", "title": "Safe observer disposes its subscription before the terminal call", "statement": "When a requested athrow/aclose is delivered, the associated disposable has been disposed exactly once, and strictly before the observer's terminal method is entered. When the terminal OnError stems from the observer's own asend raising, the disposable is never disposed (the code has no dispose on that path).", "quantifier": "all request sequences, observers and schedules", "why_tests_cant": "requires every interleaving and every termination cause", "anchors": ["aioreactive/observers.py:safe_observer"]}
{"id": "C06", "title": "Pipelines are schedule independent", "statement": "For every pipeline built from mailboxes and synchronous operators, of any length, the final sequence of notifications at the subscriber is a function of the input notifications only: any two complete executions with the same inputs end in the same state, whatever the order in which workers are scheduled and inputs interleaved with them.", "quantifier": "all pipelines of the component algebra (any length, any operator bodies), all inputs, all schedules", "why_tests_cant": "quantifies over all schedules and all pipelines", "anchors": ["aioreactive/observers.py:safe_observer", "aioreactive/transform.py:transform", "aioreactive/filtering.py"]}
{"id": "C07", "title": "Pipelines always quiesce", "statement": "After finitely many inputs every pipeline reaches a state in which no worker has work to do; no schedule can keep it busy for ever, and all complete schedules from a state take the same number of steps.", "quantifier": "all pipelines, states and schedules", "why_tests_cant": "termination for every schedule is not testable", "anchors": ["aioreactive/observers.py:safe_observer", "aioreactive/filtering.py:distinct_until_changed"]}
{"id": "C08", "title": "Partial output is always a prefix of the final output", "statement": "At every moment of every execution, what the subscriber has seen is a prefix of what it will have seen when the pipeline is idle after the same inputs followed by any further inputs.", "quantifier": "all pipelines, inputs, schedules and moments", "why_tests_cant": "every intermediate moment of every schedule", "anchors": ["aioreactive/observers.py:safe_observer"]}
{"id": "C09", "title": "map / map_async transform every element", "statement": "For from_iterable(xs) | map(f) the subscriber receives f(x1), f(x2), ... in order, then the terminal; if f raises on some element it receives the results before it, then OnError with that exception and nothing more. Behind a hot source (one that calls the operator directly, like a subject) the exception goes to the sender instead, and the stream goes on without that element.", "quantifier": "all element lists, all mapper functions (raising or not), all schedules", "why_tests_cant": "all lists and functions", "anchors": ["aioreactive/transform.py:map,map_async,transform"]}
{"id": "C10", "title": "filter / filter_async / choose / starfilter select exactly the wanted elements", "statement": "filter(p) delivers exactly the elements satisfying p, in order and unchanged; choose(f) delivers exactly the Some results; a raising predicate ends the stream with that exception after the elements selected before (behind a hot source the element is dropped and the exception goes to the sender).", "quantifier": "all lists, predicates/choosers, schedules", "why_tests_cant": "all lists and functions", "anchors": ["aioreactive/filtering.py:filter,filter_async,choose,choose_async,starfilter"]}
{"id": "C11", "title": "mapi / filteri see the right index", "statement": "mapi(f) delivers f(x_i, i) with i counting from 0 without gaps for each subscription; filteri(p) delivers exactly the x_i with p(x_i, i).", "quantifier": "all lists and functions", "why_tests_cant": "unbounded index range", "anchors": ["aioreactive/transform.py:mapi,mapi_async", "aioreactive/filtering.py:filteri", "aioreactive/combine.py:zip_seq"]}
{"id": "C12", "title": "take(n)", "statement": "take(n) delivers exactly the first n elements and completes right after the n-th without waiting for the source; shorter sources are passed with their own terminal. take(0) delivers no element and completes only when the source terminates. take of a negative count raises ValueError.", "quantifier": "all counts (all integers), all source sequences including ill-formed ones, all schedules", "why_tests_cant": "all counts x all sequences; boundary positions", "anchors": ["aioreactive/filtering.py:take"]}
{"id": "C13", "title": "skip(n)", "statement": "skip(n) delivers exactly the elements after the first n (all elements if n <= 0) followed by the source's terminal.", "quantifier": "all integers n, all sequences, all schedules", "why_tests_cant": "all counts x all sequences", "anchors": ["aioreactive/filtering.py:skip"]}
{"id": "C14", "title": "take_last(n)", "statement": "take_last(n) delivers nothing until the source completes and then exactly the last n elements (all if fewer, none if n <= 0) and the completion; on error it delivers only the error.", "quantifier": "all integers n, all sequences, all schedules", "why_tests_cant": "all counts x all sequences", "anchors": ["aioreactive/filtering.py:take_last"]}
{"id": "C15", "title": "skip_last(n)", "statement": "skip_last(n) delivers exactly the elements followed by at least n others, each as soon as the n-th following one arrives; elements equal to None are silently dropped; n <= 0 delays nothing.", "quantifier": "all integers n, all sequences, all schedules", "why_tests_cant": "all counts x all sequences", "anchors": ["aioreactive/filtering.py:skip_last"]}
{"id": "C16", "title": "distinct_until_changed", "statement": "The output contains the first element and exactly those elements that differ (by ==) from their immediate predecessor in the source, in order; with an equivalence as ==, no two adjacent output elements are equal and every element equals the last output element before or at it.", "quantifier": "all sequences, all == relations, all schedules", "why_tests_cant": "all sequences", "anchors": ["aioreactive/filtering.py:distinct_until_changed", "aioreactive/notification.py:OnNext.__eq__"]}
{"id": "C17", "title": "scan / scan_async running fold", "statement": "scan(acc, init) delivers, for the i-th element, the left fold of acc over the first i elements. A raising accumulator delivers OnError for that element, keeps the previous accumulation and goes on with the following elements (the stream is not terminated by scan itself).", "quantifier": "all sequences, accumulators, initial values", "why_tests_cant": "all sequences and functions", "anchors": ["aioreactive/transform.py:_scan,scan,scan_async"]}
{"id": "C18", "title": "reduce / reduce_async", "statement": "On completion of a non-empty source reduce(acc, init) delivers exactly the fold of all elements and completes; for an empty source it delivers only the completion (the initial value is not emitted); a source error is passed with no element.", "quantifier": "all sequences, accumulators, initial values, schedules", "why_tests_cant": "all sequences and functions", "anchors": ["aioreactive/transform.py:reduce,reduce_async", "aioreactive/filtering.py:take_last"]}
{"id": "C19", "title": "zip_seq pairs the i-th element with the i-th item", "statement": "zip_seq(seq) delivers (x_i, s_i) for as long as the iterable has items, completes at the first element for which it has none, and ends with OnError if the iterator raises.", "quantifier": "all sequences and iterables", "why_tests_cant": "all pairs of lengths", "anchors": ["aioreactive/combine.py:zip_seq"]}
{"id": "C20", "title": "slice agrees with Python slicing", "statement": "For every (start, stop, step): where start and stop are None or non-negative with start <= stop and stop <> 0, or start >= 0 and stop < 0, or both negative (and step >= 1) the sliced stream delivers exactly xs[start:stop:step]; with stop = 0, or start < 0 < stop, the stop has no effect (xs[start::step]; Python: nothing, or usually nothing), 0 < stop < start raises ValueError (Python: empty). A source that fails or has not ended shows the same slice of the elements that have arrived (nothing before completion if start is negative); with 0 <= start < stop the slice completes as soon as stop elements have arrived, otherwise it ends as the source does. obs[start:stop:step] is the same with a missing or zero step read as 1. All this holds also behind a hot source.", "quantifier": "all lists, all integer/None start, stop, step", "why_tests_cant": "three unbounded parameters x all lists", "anchors": ["aioreactive/filtering.py:slice", "aioreactive/__init__.py:AsyncRx.__getitem__"]}
{"id": "C21", "title": "combine_latest", "statement": "At every element of either source, once both have produced one, exactly the pair of their latest elements is delivered, in arrival order; the output terminates at the first completion or error of either source.", "quantifier": "all interleavings of two arbitrary source histories, all schedules", "why_tests_cant": "all interleavings", "anchors": ["aioreactive/combine.py:combine_latest"]}
{"id": "C22", "title": "with_latest_from", "statement": "At every element of the first source, if the other has produced one, exactly the pair (element, latest other) is delivered; elements of the other source alone deliver nothing; the output terminates at the first completion or error of either source.", "quantifier": "all interleavings of two source histories, all schedules", "why_tests_cant": "all interleavings", "anchors": ["aioreactive/combine.py:with_latest_from"]}
{"id": "C23", "title": "take_until", "statement": "take_until(other) passes the source's notifications in order until other's first element, then completes; other's completion has no effect; other's error is delivered as error.", "quantifier": "all interleavings of two source histories, all schedules", "why_tests_cant": "all interleavings", "anchors": ["aioreactive/filtering.py:take_until"]}
{"id": "C24", "title": "merge_inner subscribes every inner exactly once in arrival order", "statement": "As long as the merged stream is not disposed, the inner observables are subscribed in the order in which they arrived, none twice, and every one not yet subscribed is still waiting.", "quantifier": "all event histories and schedules, all max_concurrent", "why_tests_cant": "unbounded histories", "anchors": ["aioreactive/combine.py:merge_inner"]}
{"id": "C25", "title": "merge_inner(max_concurrent) bound", "statement": "With max_concurrent = n > 0 and inners that complete at most once, the number of inners subscribed and not yet completed never exceeds n; and no inner waits while fewer than n are active once the mailbox is empty.", "quantifier": "all n, histories, schedules", "why_tests_cant": "a violation depends on schedule", "anchors": ["aioreactive/combine.py:merge_inner"]}
{"id": "C26", "title": "merge_inner completes exactly when everything completed", "statement": "The merged stream requests completion if and only if the outer source has completed and every inner that arrived has been subscribed and has completed.", "quantifier": "all histories and schedules", "why_tests_cant": "races between outer completion and inner completions", "anchors": ["aioreactive/combine.py:merge_inner"]}
{"id": "C27", "title": "merge forwards every element of every inner once, in order", "statement": "Elements of all inners are requested downstream exactly once in the order of production; in particular the relative order of each inner is kept; the first error of any inner or of the outer source is the terminal.", "quantifier": "all histories and schedules", "why_tests_cant": "all interleavings", "anchors": ["aioreactive/combine.py:merge_inner", "aioreactive/transform.py:flat_map"]}
{"id": "C28", "title": "concat / concat_seq / concat_map order", "statement": "With max_concurrent = 1 an inner is subscribed only after all earlier ones have completed, so the output is the concatenation of the inners' elements in arrival order.", "quantifier": "all histories and schedules", "why_tests_cant": "all interleavings", "anchors": ["aioreactive/combine.py:merge_inner,concat_seq", "aioreactive/transform.py:concat_map"]}
{"id": "C29", "title": "merge_inner disposal reaches every active inner", "statement": "After the subscription of a merged stream is disposed (or the outer source failed) and the worker is idle, every inner that had been subscribed and not completed has been disposed, and no inner is subscribed any more.", "quantifier": "all histories and schedules", "why_tests_cant": "dispose may arrive at any point of any history", "anchors": ["aioreactive/combine.py:merge_inner"]}
{"id": "C30", "title": "switch_latest subscribes to the latest inner only", "statement": "Each arriving inner is subscribed after the previously current one has been disposed, so at most one inner is subscribed and undisposed at any time, and it is the most recently arrived one processed.", "quantifier": "all histories and schedules", "why_tests_cant": "all interleavings", "anchors": ["aioreactive/transform.py:switch_latest"]}
{"id": "C31", "title": "switch_latest completion", "statement": "switch_latest requests completion when the outer source completes before any inner arrived; once an inner has been subscribed it never requests completion in any undisposed history, even when outer and inner have both completed (deviation from Rx).", "quantifier": "all histories and schedules", "why_tests_cant": "a never-statement over all histories", "anchors": ["aioreactive/transform.py:switch_latest"]}
{"id": "C32", "title": "catch replaces the failed source by the handler's", "statement": "The output is the elements of the source up to its error, then the elements of the observable returned by the handler (recursively), and completes when the currently active one completes; the error itself is not delivered.", "quantifier": "all sequences of failing sources", "why_tests_cant": "unbounded number of failures", "anchors": ["aioreactive/transform.py:catch"]}
{"id": "C33", "title": "retry(n) resubscription count", "statement": "A source under retry(n) is subscribed at most twice for every n <> 0 and once for n = 0 (count -= count): the promised n retries are not performed. Afterwards the error is never delivered either: fail(error) is subscribed in its place, its error is caught again, and so on without end. The budget is shared by all subscriptions of the same observable.", "quantifier": "all n, all numbers of failures", "why_tests_cant": "all n x all failure counts", "anchors": ["aioreactive/transform.py:retry"]}
{"id": "C34", "title": "Disposing a caught stream", "statement": "The disposable returned by a catch subscription disposes only the first subscription; after a failover the handler's subscription is not disposed by it. At a failover the failed subscription is disposed before the next is made, if its subscribe call had returned before the error (and otherwise not necessarily).", "quantifier": "all failover histories", "why_tests_cant": "depends on history", "anchors": ["aioreactive/transform.py:catch"]}
{"id": "C35", "title": "delay shifts every notification by the delay and keeps order", "statement": "delay(d) delivers every notification in source order; with a prompt downstream, each exactly d after its arrival; never earlier than d after arrival in any case.", "quantifier": "all arrival time sequences, all d, all downstream processing times", "why_tests_cant": "all timings", "anchors": ["aioreactive/timeshift.py:delay"]}
{"id": "C36", "title": "debounce emits exactly the values not followed by another within the window", "statement": "In every schedule a value is delivered if and only if, when its time is over, no later value has arrived and the stream has not terminated; each value at most once, in source order; on a punctual loop exactly d after its arrival. A pending value is lost when the source completes first, and disposing makes the subscriber's observer complete.", "quantifier": "all histories of arrivals, timers and worker steps", "why_tests_cant": "all timings and interleavings", "anchors": ["aioreactive/timeshift.py:debounce"]}
{"id": "C37", "title": "interval and timer", "statement": "interval(s, p) delivers 0,1,2,... without gaps, the k-th at s + k*p for a prompt observer; with p = 0 (timer) exactly one element 0, at s on a punctual loop, and completion when that call returns; unless disposed, or the observer raises, the timer always gets there.", "quantifier": "all s, p and all numbers of ticks", "why_tests_cant": "unbounded ticks", "anchors": ["aioreactive/create.py:interval,timer"]}
{"id": "C38", "title": "sample", "statement": "sample(seconds) delivers every source element that arrives after the first timer tick, unthinned (and no element before it): it does not sample.", "quantifier": "all interleavings of source and ticks", "why_tests_cant": "all interleavings", "anchors": ["aioreactive/timeshift.py:sample"]}
{"id": "C39", "title": "from_iterable / of_seq", "statement": "from_iterable(xs) delivers exactly the items of xs in order and then completion, for every subscriber anew; if the iterator raises, no terminal notification is ever delivered.", "quantifier": "all iterables, all schedules", "why_tests_cant": "all lists", "anchors": ["aioreactive/create.py:of_seq,of_async_worker"]}
{"id": "C40", "title": "single, empty, never, fail, defer, of_async", "statement": "single(x): x then completion; empty: completion; never: nothing; fail(e): exactly OnError e; of_async(w): the result then completion, or OnError with the exception; defer(f): as f()'s observable, or OnError if f raises.", "quantifier": "all values, all schedules", "why_tests_cant": "all values and schedules", "anchors": ["aioreactive/create.py:single,empty,never,fail,defer,of_async"]}
{"id": "C41", "title": "Disposing a from_iterable subscription", "statement": "dispose before the worker has started prevents every element; once the worker has run, disposing does not retract the queued elements: all of them are still delivered. Disposing a subscription of of_async while its workflow runs makes the subscriber's observer complete.", "quantifier": "all lists and dispose moments", "why_tests_cant": "all moments", "anchors": ["aioreactive/create.py:of_async_worker,of_seq", "aioreactive/observers.py:safe_observer"]}
{"id": "C42", "title": "AsyncSubject delivers to exactly the subscribed observers", "statement": "For calls awaited one after another, each observer receives exactly the notifications sent while it was subscribed, in order, up to and including the first terminal one; late subscribers receive nothing of the past (not even termination).", "quantifier": "all histories of subscribe/unsubscribe/send/throw/close", "why_tests_cant": "unbounded histories", "anchors": ["aioreactive/subject.py:AsyncMultiSubject"]}
{"id": "C43", "title": "AsyncSubject after dispose", "statement": "After dispose_async every asend/athrow/aclose/subscribe raises ObjectDisposedException and reaches no observer; if no call is under way at the disposal, no observer receives anything more (a call under way still goes on to its remaining observers).", "quantifier": "all histories", "why_tests_cant": "unbounded histories", "anchors": ["aioreactive/subject.py:AsyncMultiSubject"]}
{"id": "C44", "title": "AsyncSubject under concurrent senders", "statement": "With concurrent callers, each send reaches exactly the observers subscribed when it was issued (snapshot), each once and in subscription order, unless an observer raises; no send issued after a terminal call reaches anyone; but an observer may receive an element after the terminal call (a send in flight is overtaken by aclose).", "quantifier": "all interleavings of callers", "why_tests_cant": "only particular interleavings show it", "anchors": ["aioreactive/subject.py:AsyncMultiSubject"]}
{"id": "C45", "title": "AsyncSingleSubject is cold", "statement": "A send before any subscription is not lost: it waits, and when it is resumed after a subscription it is delivered once, to the observer listening at that moment (not necessarily the first one); nothing is delivered to anyone before. Waiting sends do not overtake one another, but a send made after the subscription may overtake them.", "quantifier": "all histories and schedules", "why_tests_cant": "all interleavings", "anchors": ["aioreactive/subject.py:AsyncSingleSubject"]}
{"id": "C46", "title": "AsyncSingleSubject athrow/aclose after dispose never return", "statement": "After a subscription existed and was disposed, asend raises ObjectDisposedException, but athrow and aclose neither return nor raise: they spin without ever yielding to the event loop.", "quantifier": "all states after dispose", "why_tests_cant": "divergence cannot be observed by a test", "anchors": ["aioreactive/subject.py:AsyncSingleSubject"]}
{"id": "C47", "title": "AsyncAwaitableObserver / run result", "statement": "Awaiting the observer (or run) yields the last element sent before the close; an empty stream yields cancellation (not StopAsyncIteration); an error yields that exception; later notifications change nothing.", "quantifier": "all notification sequences", "why_tests_cant": "all sequences", "anchors": ["aioreactive/observers.py:AsyncAwaitableObserver", "aioreactive/subscription.py:run"]}
{"id": "C48", "title": "run on a pipeline returns the last element of its specification", "statement": "run(from_iterable(xs) | ops) returns the last element of the list semantics of ops on xs, for all schedules.", "quantifier": "all lists, operators and schedules", "why_tests_cant": "all lists and schedules", "anchors": ["aioreactive/subscription.py:run"]}
{"id": "C49", "title": "Async iteration yields every element once and in order", "statement": "Iterating an observable yields the elements sent, each once, in the order in which the senders were admitted, which respects the order of the calls of each producer. If the producers call one after the other nothing is lost: a consumer that still waits when nothing remains to be done has got everything. If they call concurrently this fails: a call made between the moment the consumer takes an element and the moment its sender runs again is woken up by nobody, is overtaken by later calls, and is lost if the next one ends the stream.", "quantifier": "all interleavings of producers and consumer", "why_tests_cant": "all interleavings", "anchors": ["aioreactive/observers.py:AsyncIteratorObserver"]}
{"id": "C50", "title": "Async iteration applies back-pressure", "statement": "asend on the iterator observer returns only after its element has been picked up by the consumer; at most one element is ever buffered.", "quantifier": "all interleavings", "why_tests_cant": "all interleavings", "anchors": ["aioreactive/observers.py:AsyncIteratorObserver"]}
{"id": "C51", "title": "Async iteration termination is sticky", "statement": "After aclose (athrow e) has been admitted, every __anext__ raises StopAsyncIteration (e) for ever, and the terminating producer call never returns.", "quantifier": "all interleavings", "why_tests_cant": "all interleavings", "anchors": ["aioreactive/observers.py:AsyncIteratorObserver"]}
{"id": "C52", "title": "Virtual time is monotone and never early", "statement": "VirtualTimeEventLoop never lets time run backwards, runs every timer callback at or after its deadline, and in non-decreasing deadline order as long as no timer is scheduled in the past.", "quantifier": "all schedules of call_soon/call_at/cancel", "why_tests_cant": "all histories", "anchors": ["aioreactive/testing/virtual_events.py:VirtualTimeEventLoop._run_once"]}
{"id": "C53", "title": "Virtual loop runs every uncancelled callback exactly once", "statement": "Every scheduled and not cancelled callback is run exactly once, cancelled ones never (also across the bulk clean-up of cancelled timers).", "quantifier": "all histories", "why_tests_cant": "the clean-up threshold needs >100 timers and ratios", "anchors": ["aioreactive/testing/virtual_events.py:VirtualTimeEventLoop._run_once"]}
{"id": "C54", "title": "auto-detach on termination", "statement": "If the mailbox discards messages once its token is cancelled (as the pinned Expression library does), the upstream subscription is never disposed when the downstream terminates; if it went on delivering them, the subscriptions registered before the terminal notification is handled would each be disposed once, in order, if the keeping task has picked all of them up by then, and none of them otherwise. After the observer has raised in asend none is disposed either way.", "quantifier": "all schedules, both library behaviours", "why_tests_cant": "depends on message races", "anchors": ["aioreactive/observers.py:auto_detach_observer"]}
{"id": "C55", "title": "AsyncTestObserver records everything in order", "statement": "values contains exactly the notifications received, in order, with their virtual time; the user callbacks are invoked twice per notification up to the first terminal one and once after it; the observer awaited gives what AsyncAwaitableObserver would give, but stays pending if the callbacks raise.", "quantifier": "all notification sequences", "why_tests_cant": "all sequences", "anchors": ["aioreactive/testing/observer.py:AsyncTestObserver"]}
{"id": "C56", "title": "from_async_iterable", "statement": "Delivers the items of the async iterable in order and then completion; if the observer's asend raises, it receives OnError with that exception and nothing more; if the iterable raises, no terminal is delivered; disposing cancels further elements.", "quantifier": "all iterables, observers and dispose points", "why_tests_cant": "all sequences and points", "anchors": ["aioreactive/create.py:of_async_iterable"]}
{"id": "C57", "title": "Subscriptions of one delayed observable share their fate", "statement": "Two subscriptions to the same observable source | delay(d) deliver independently of each other until one of them is disposed; from then on the other, never disposed, receives at most one further notification (the one its worker is just sleeping for) and then nothing, although its source continues.", "quantifier": "all numbers of subscriptions, all interleavings of their sources, workers and disposals", "why_tests_cant": "depends on which subscription is disposed when", "anchors": ["aioreactive/timeshift.py:delay"]}
{"id": "C58", "title": "A timeout on __anext__ kills the iteration", "statement": "If the task waiting in __anext__ of an iterated observable is cancelled while nothing was sent, every later __anext__ is cancelled at once and no asend made later ever succeeds, whatever consumer and producers do.", "quantifier": "all histories before and after the cancellation", "why_tests_cant": "all histories", "anchors": ["aioreactive/observers.py:AsyncIteratorObserver"]}
{"id": "C59", "title": "Cancelling a pending asend kills the iteration", "statement": "If a producer's asend on an iterated observable, admitted and not yet picked up or first in the queue, is cancelled, no later __anext__ ever yields an element (InvalidStateError is raised and the elements are lost), whatever consumer and producers do.", "quantifier": "all histories before and after the cancellation", "why_tests_cant": "all histories", "anchors": ["aioreactive/observers.py:AsyncIteratorObserver"]}
{"id": "C60", "title": "Timers starve while ready callbacks keep coming", "statement": "The virtual loop hands a timer to its ready queue only when no other callback is ready: while every callback schedules another one with call_soon, a timer whose deadline has passed is not run, for any number of iterations (unlike a normal asyncio loop).", "quantifier": "all numbers of iterations, all heap orders", "why_tests_cant": "a test sees a fixed number of iterations", "anchors": ["aioreactive/testing/virtual_events.py:VirtualTimeEventLoop._run_once"]}
{"id": "C61", "title": "Cancelled timers do not accumulate in the virtual loop", "statement": "After an iteration has begun, the loop holds at most 100 timers, or (but for one) at most half of those it holds are cancelled.", "quantifier": "all histories of call_soon, call_at and cancel", "why_tests_cant": "the clean-up depends on the whole history of cancellations", "anchors": ["aioreactive/testing/virtual_events.py:VirtualTimeEventLoop._run_once"]}
{"id": "C62", "title": "The subjects for tests send exactly on time and exactly once", "statement": "On the virtual loop a notification scheduled with asend_at, athrow_at or aclose_at is handed to the subject exactly once, never before its time, exactly at its time if nothing is scheduled in the past, in the order of time, and all are once the loop has nothing left to do; the task kept for a call is given up when the subject's method has returned normally, except that the task of aclose_at is kept for ever.", "quantifier": "all histories of calls, timers of others, cancellations and returns, all heap orders", "why_tests_cant": "the order depends on the whole set of timers", "anchors": ["aioreactive/testing/subject.py:AsyncSubjectBase", "aioreactive/testing/virtual_events.py:VirtualTimeEventLoop._run_once"]}
{"id": "C63", "title": "Iterating holds one subscription at a time and disposes each once", "statement": "An iterated observable is subscribed to by __anext__ and not before; at most one subscription is being made or held at a time; each one that was made has been disposed exactly once or is held; dispose_async leaves none held and a second one does nothing. But a dispose_async while __anext__ is in subscribe_async has no effect, and __anext__ after dispose_async subscribes again.", "quantifier": "all histories of consumer, producers, disposals, failures and cancellations", "why_tests_cant": "depends on the interleaving of disposal and subscription", "anchors": ["aioreactive/observers.py:AsyncIteratorObserver"]}
{"id": "C64", "title": "Concatenating and merging cold observables gives the elements of all", "statement": "With cold inner observables, concat_seq and concat_map deliver the elements of the first observable, then those of the second, and so on up to the first that fails or never ends, and complete after the last; merge_inner and flat_map deliver an interleaving of the elements of all observables, each in its order, and then complete. The work ends: no schedule is infinite and none gets stuck.", "quantifier": "all lists of inner observables, contents, endings, bounds and interleavings of outer source, inners and worker", "why_tests_cant": "the interleavings of inners, outer source and worker are unbounded", "anchors": ["aioreactive/combine.py:merge_inner", "aioreactive/combine.py:concat_seq", "aioreactive/transform.py:flat_map", "aioreactive/transform.py:concat_map"]}
{"id": "C65", "title": "to_observable passes everything on, but loses early disposals and failures", "statement": "A subscriber of the reactivex observable made by to_observable gets every notification of the async source, at once and in order. Disposing it after the subscription to the source was made disposes that exactly once; disposing it earlier has no effect ever. If subscribing to the source fails the subscriber is told nothing. Each successful subscription leaves a KeyError in the event loop, and the task of a disposal is kept for ever.", "quantifier": "all interleavings of the source's calls, the tasks and callbacks, and the user's disposals", "why_tests_cant": "depends on when the disposal comes relative to the tasks of the loop", "anchors": ["aioreactive/leave.py:to_observable"]}
{"id": "C66", "title": "Several subscribers of one from_iterable or from_async observable", "statement": "An observable made by from_iterable from an object that can be iterated again (list, range) delivers everything to every subscriber that is not disposed. Made from an iterator or generator, it delivers everything to the subscriber whose task starts first and only the completion to all others. Made by from_async from a coroutine, the subscriber that starts first gets the outcome and every other one RuntimeError (so that retry cannot help). Made from a future or task, every subscriber gets the outcome, whenever it subscribes, provided nobody disposes; disposing any subscription that waits cancels the shared future, and then no subscriber, present or later, gets anything but the completion.", "quantifier": "all kinds of objects, contents and outcomes, all numbers of subscribers, all orders of subscribing, starting, resuming, disposing and of the workflow's end", "why_tests_cant": "Tests subscribe once, or twice to a list; they do not interleave several subscribers' tasks with disposals and the end of a shared future or coroutine.", "anchors": ["aioreactive/create.py: of_seq, of_async, of_async_worker, canceller"]}
{"id": "C67", "title": "Subscribing to and disposing of a pipeline reaches every source", "statement": "Subscribing to a pipeline of any shape subscribes to each of its sources exactly once (left to right, but take_until subscribes to its second source first); disposing the subscription disposes the subscription of each source exactly once and stops each operator with a worker exactly once. Disposing again reaches only the sources with no merge, switch_latest, catch, delay or debounce around them, and reaches those each time. If a source raises in subscribe_async, subscribe_async raises the same and the sources subscribed to before stay subscribed, without a disposable. If a source's disposable raises, dispose_async raises the same, the sources after it are not disposed, and if one of those operators is around them no later dispose_async disposes them either.", "quantifier": "all pipelines of the operators with one or two sources, all sources that may raise when subscribed to or disposed, all numbers of disposals", "why_tests_cant": "Tests dispose short pipelines with one source that does not raise.", "anchors": ["aioreactive/combine.py: combine_latest, with_latest_from, zip_seq, merge_inner", "aioreactive/filtering.py: take_until", "aioreactive/transform.py: transform, scan, catch, switch_latest", "aioreactive/timeshift.py: delay, debounce", "aioreactive/observers.py: auto_detach_observer"]}
{"id": "C68", "title": "Notifications and observers made from functions convert without loss", "statement": "Behind any number of AsyncNotificationObservers (with accept or accept_observer) and AsyncAnonymousObservers an observer gets exactly the calls it would get directly, in order, and what it raises comes back from the same call. Methods left out of an AsyncAnonymousObserver drop exactly the notifications of that kind and never raise. Subscribing with functions, also through AsyncRx or AsyncIterableObservable, calls each function for its kind of notification only; subscribing with an observer calls that observer, and functions given besides are never called. Two notifications are equal exactly if they are of the same kind with equal contents, so that comparing the values of an AsyncTestObserver with an expected list decides whether times, kinds and contents agree one by one.", "quantifier": "all observers with any state and exceptions, all sequences of notifications (well-formed or not), all nestings of adapters, all equalities of elements", "why_tests_cant": "Tests use single adapters and well-formed sequences.", "anchors": ["aioreactive/notification.py: OnNext, OnError, OnCompleted", "aioreactive/observers.py: AsyncAnonymousObserver, AsyncNotificationObserver, noop", "aioreactive/observables.py: AsyncAnonymousObservable.subscribe_async, AsyncIterableObservable.subscribe_async", "aioreactive/__init__.py: AsyncRx.subscribe_async", "aioreactive/utils.py: anoop, NoopObserver", "aioreactive/testing/observer.py: values"]}
{"id": "C69", "title": "Timers of the virtual time event loop with Python's heap", "statement": "With the heap that Python's heapq keeps (call_at pushes, the loop pops, the clean-up re-heapifies) the loop always takes a timer of least deadline, loses and duplicates none, and runs timers exactly at their deadlines if none is scheduled in the past; but timers with the same deadline need not run in the order in which they were scheduled: of timers for 1, 2, 2 and 9 the second one for 2 runs first, so that two values sent with asend_at for the same time can arrive in the opposite order.", "quantifier": "all histories of scheduling, cancelling and running, all numbers of timers, also beyond the clean-up threshold", "why_tests_cant": "Tests schedule few timers at distinct times; heap order shows only with several timers.", "anchors": ["aioreactive/testing/virtual_events.py: VirtualTimeEventLoop._run_once", "aioreactive/testing/subject.py: asend_at"]}
{"id": "C70", "title": "The test subject's 'later' methods send exactly when asked", "statement": "On the virtual time event loop, a value, error or completion given to asend_later, athrow_later, aclose_later or one of their scheduled variants is sent exactly once, exactly max(0, delay) after the virtual time of the call, in order of these times, and every one of them is sent by the time the loop has nothing left to do; this holds whatever other callbacks and timers there are, past or future, and however ties are broken. A scheduled variant's task is kept by the subject until its send returns normally (so it is kept for ever if an observer raises).", "quantifier": "all histories of the loop: any calls of the six methods with any delays from any callback or from outside, any other callbacks, timers and cancellations, any tie-breaking, aborted iterations", "why_tests_cant": "a test runs a few delays on one schedule; exactness depends on every other timer, callback and the order in which the loop takes them", "anchors": ["aioreactive/testing/subject.py:AsyncTestSubject.asend_later", "aioreactive/testing/subject.py:AsyncTestSubject.asend_later_scheduled", "aioreactive/testing/subject.py:AsyncTestSubject.athrow_later", "aioreactive/testing/subject.py:AsyncTestSubject.aclose_later", "aioreactive/testing/virtual_events.py:VirtualTimeEventLoop._run_once"]}
{"id": "C71", "title": "Overlapping __anext__ calls on one iterator", "statement": "If several __anext__ calls are outstanding on one iterator (for instance two 'async for' loops over it), every element sent is returned by exactly one of them, in order, and at most the last one sent is still to be returned. When an element arrives for several waiting calls the first one returns it and all others raise InvalidStateError; a terminal notification is raised by all of them. But if the task that got the element asks for the next one while another call was waiting for the same element, that new call never ends, whatever happens later; and overlapping first calls subscribe twice, of which one subscription can never be disposed through the iterator.", "quantifier": "all histories of the event loop: any number of __anext__ calls and of elements sent one at a time, any interleaving of tasks in the ready queue, any disposals", "why_tests_cant": "tests iterate with one consumer; the hang depends on the order of wake-ups in the loop's queue and on which future each call waits for", "anchors": ["aioreactive/observers.py:AsyncIteratorObserver.wait_for_push", "aioreactive/observers.py:AsyncIteratorObserver.__anext__", "aioreactive/observers.py:AsyncIteratorObserver.dispose_async"]}
{"id": "C72", "title": "switch_latest and flat_map_latest of cold observables: a part of each, all of the last, no completion", "statement": "Subscribe to switch_latest of a source that sends observables o1..on and then completes or stays open, where a subscription to oi sends the elements of oi in order (at any time, or only a beginning of them if it is disposed). If no observable fails, then at the end the subscriber has received a beginning of the elements of every oi, each in order, and all elements of on; it has not received completion unless n = 0. If disposed subscriptions fall silent, the part of o1 comes first, then that of o2, and so on; if a subscription sends all or nothing (as those of from_iterable), every oi is heard completely or not at all. The first error of any oi, even of a disposed one, ends the output. Every run of this kind ends after a bounded number of steps. The same holds for flat_map_latest with the observables f(x1)..f(xn).", "quantifier": "all lists of observables with all contents and endings, all interleavings of outer calls, inner calls and worker steps without disposal of the result and without failing subscribe_async/dispose_async", "why_tests_cant": "A test shows one interleaving; which part of a superseded observable is heard, and that nothing of the last one is lost, depends on the schedule.", "anchors": ["aioreactive/transform.py:switch_latest", "aioreactive/transform.py:flat_map_latest", "aioreactive/create.py:of_seq"]}
{"id": "C73", "title": "catch and retry of cold observables: one after the other up to the first that does not fail", "statement": "Subscribe to catch(handler) of a source, where every subscription sends the elements and the ending of its observable in order, at any time. At the end the subscriber has received the elements of the source; if the source fails with x, then those of the observable the handler returns for x; if that fails, those of the next one, and so on, up to the first that does not fail, whose ending it receives; if the handler raises, nothing more comes. At any earlier moment it has received a beginning of this, also when there is no end. With retry(n): a source that does not fail is passed on; one that fails at the first attempt only is heard up to the error and then from the start (n not 0); one that fails in the first two attempts never leads to an error or completion, for any n.", "quantifier": "all handlers with state, all contents and endings of all subscriptions, all interleavings of their calls with the worker, disposal of the result at any time, no failing subscribe_async/dispose_async", "why_tests_cant": "A test shows a few failures in a row with one schedule; that nothing is lost or reordered for any handler, any number of failures and any schedule needs an induction.", "anchors": ["aioreactive/transform.py:catch", "aioreactive/transform.py:retry", "aioreactive/create.py:fail"]}
{"id": "C74", "title": "Several subscribers of one from_async_iterable observable", "statement": "Several subscriptions of from_async_iterable(x), where the tasks of the subscriptions, the observers and disposals interleave in any way. If x gives a new iterator to each (an async iterable), every subscriber receives a prefix of the elements and completion, and all of it if it is not disposed and its observer does not raise. If x is an async generator object, every element goes to exactly one subscriber, in order; every subscriber sees a grammatical sequence; if nobody is disposed and no observer raises, then at the end all elements have been handed out and, if the generator ended normally, somebody was told of completion; then everybody is told who does not raise, is not disposed and never asks for an element while another one is waiting for one. A subscriber that raises is told of its own exception and nothing more. But not everybody is told how it ends: a subscriber that starts or asks for an element while another one waits for one hears nothing any more; an exception of the generator is told to nobody; and disposing a subscription that is waiting for an element ends the stream for all.", "quantifier": "all iterators and generators (any elements, ending or exception), any number of subscriptions, all interleavings of the tasks, disposals and observers' exceptions", "why_tests_cant": "A test has one or two subscribers and one order of events; which subscriber gets which element, and who is left without an ending, depends on the interleaving.", "anchors": ["aioreactive/create.py:of_async_iterable", "aioreactive/__init__.py:AsyncRx.from_async_iterable"]}
{"id": "C75", "title": "Operators called by several tasks at once", "statement": "Several tasks may send to a hot observable at the same time, so that several calls are suspended inside the same operator. If every caller waits for the calls before it, a subscriber of any operator sees what it would see if each call were a single step. The same holds for overlapping calls of pipelines without an async function of the user before the first operator with a queue (map, filter, choose, scan, reduce, take, skip, take_last, skip_last, zip_seq, distinct_until_changed, starmap, mapi, filteri, slices): the sends take effect in the order in which they began, e.g. take(n) delivers exactly the first n elements and scan the running fold; and of take_until. map_async, filter_async and choose_async pass results on in the order in which the user's function ends, each exactly once, but a completion overtakes elements sent before it, which are then lost behind a safe observer. scan_async accumulates onto what had been passed on when the call began, so updates of overlapping calls are lost, and reduce_async misses elements.", "quantifier": "all operators, continuations, user functions, subscribers, numbers of concurrent callers and schedules of their suspensions and of the workers behind", "why_tests_cant": "whether calls interleave inside an operator depends on when the user's coroutines suspend and on the scheduling of all callers; a test fixes one interleaving", "anchors": ["aioreactive/transform.py: map_async, _scan, scan, scan_async, reduce, reduce_async", "aioreactive/filtering.py: filter_async, choose_async, take, skip, take_last, skip_last, distinct_until_changed, take_until", "aioreactive/subject.py: AsyncMultiSubject.asend", "aioreactive/observers.py: safe_observer"]}
{"id": "C76", "title": "Pipelines subscribed to one AsyncSubject: every subscriber gets what its operators make of what was sent while it was subscribed", "statement": "Any number of observers subscribe to an AsyncSubject, each through a pipeline of operators of its own, and come and go at any time. If the calls of the subject are awaited one after the other and none raises, each subscriber is told exactly what its pipeline makes of the elements (and the ending) sent while it was subscribed, whatever the other pipelines are and however asyncio schedules; what was told at any earlier moment is a prefix of that. No call raises if the functions of the user before the first mailbox of each pipeline do not raise; if one raises, subscribers after it miss the element. Senders may overlap freely if every pipeline has a mailbox before anything that suspends its caller; otherwise two subscribers may be told the elements in different orders. No call of the subject gets stuck, and without further calls everything comes to rest.", "quantifier": "all numbers of subscribers, all pipelines, all times of subscribing, disposing and sending, all schedules of senders and workers", "why_tests_cant": "the interplay of many suspended senders, several pipelines with their workers, and subscriptions that come and go has unboundedly many interleavings; a unit test runs one", "anchors": ["aioreactive/subject.py: AsyncMultiSubject, AsyncSubject", "aioreactive/observers.py: safe_observer", "aioreactive/transform.py: map, map_async", "aioreactive/filtering.py: filter, take, skip, distinct_until_changed"]}
{"id": "C77", "title": "Laws of operators: which chains may replace one another", "statement": "Two chains of operators are interchangeable if, for every source, every rest of the pipeline and every subscriber, the subscriber is told the same. map(f) then map(g) is map of the composition, also for functions that raise; likewise filter and choose; the variants with async functions are interchangeable with the plain ones; take(m) then take(n) is take(min(m, n)) for positive counts (not for 0: take(0) does not complete by itself), skip(m) then skip(n) is skip(m+n), and correspondingly for take_last, skip_last (for elements other than None), skip followed by take, map with take (also for a mapper that raises) and map with skip, take_last, skip_last (only if it does not raise), map with filter, scan and reduce, and distinct_until_changed with itself (if == is an equivalence). Each law may be applied anywhere in a chain of operators.", "quantifier": "all functions, counts, sources, continuations of the pipeline, subscribers (raising or not) and schedules", "why_tests_cant": "a law speaks about all functions, inputs, continuations and schedules at once; a test compares two runs", "anchors": ["aioreactive/transform.py: map, map_async, starmap, mapi, scan, reduce", "aioreactive/filtering.py: filter, filter_async, choose, choose_async, take, skip, take_last, skip_last, distinct_until_changed", "aioreactive/__init__.py: AsyncRx"]}
{"id": "C78", "title": "Iterating a pipeline with async for yields what an observer of the pipeline would be told", "statement": "If an ordinary observer subscribed to a chain of operators is told certain elements and then an ending, then `async for` over the same chain, for the same calls of the source, yields exactly these elements in the same order, raises only after all of them (the stream's error, or StopAsyncIteration on completion, again and again), never has more than one notification on its way to it, and never stays waiting while an element or the ending is still to come. The source, however, does not await the iterator, as the documentation of `async for` says it does: it can run ahead by any number of calls.", "quantifier": "all chains of operators with one source that turn elements and ending into elements and ending, all calls of the source, all interleavings of the source, the workers of the pipeline and the consumer on the event loop's ready queue", "why_tests_cant": "a test iterates one pipeline in one schedule; the claim is about two queues and two futures whose hand-over depends on the order in which ready tasks run", "anchors": ["aioreactive/observables.py:AsyncObservable.__aiter__", "aioreactive/observers.py:AsyncIteratorObserver", "aioreactive/observers.py:safe_observer"]}
{"id": "C79", "title": "Functions with side effects are called once per element, in order, and not after a failure", "statement": "The functions passed to map, starmap, choose, filter, starfilter (also the async versions), mapi and scan may have side effects: their outcome may depend on their earlier calls. Behind a cold source, the elements a subscriber gets are those of calling the function on the source's elements from left to right. The function is called exactly once per element, in the order of the elements, not again after a call that raised, and not for calls the source makes after its terminal one; at every moment of every schedule the calls made so far are a prefix of these. scan is different: its accumulator is called for every element, also after a call that raised. Behind a subject the function is called for every element sent.", "quantifier": "all functions, whose outcome may depend on all their earlier arguments and may be an exception; all element types, elements, endings and calls after the terminal; all pipelines after the operator (for the exact calls: those whose first observer does not raise; for 'at most' any), all subscribers, all schedules, every moment", "why_tests_cant": "A test observes one function, one list and one schedule; a function called twice, early, or once too often after a failure shows only with effects and schedules a test does not have.", "anchors": ["aioreactive/transform.py:transform", "aioreactive/transform.py:map", "aioreactive/transform.py:map_async", "aioreactive/transform.py:mapi", "aioreactive/transform.py:_scan", "aioreactive/filtering.py:choose", "aioreactive/filtering.py:choose_async", "aioreactive/filtering.py:filter", "aioreactive/filtering.py:filter_async", "aioreactive/observers.py:safe_observer"]}
{"id": "C80", "title": "A program of sources, operators, concat, flat_map and catch does what reading it says, and its parts may be replaced by equals", "statement": "Take any observable written as an expression: a source (of_seq, from an iterable that raises, single, empty, never, fail, of_async, defer), operators behind it (map, map_async, mapi, filter, filteri, choose, take, take_last, skip, skip_last, distinct_until_changed, scan, reduce, zip_seq), merge_inner with any bound of the observables an expression names (flat_map, concat_map, concat, concat_seq, merge, merge_seq), catch with any handler, operators of two observables (combine_latest, with_latest_from, take_until); nested to any depth. Whatever the schedule, when its run has come to its end the subscriber has been called with something the expression means, where the meaning is given by lists: the elements of the source and their ending; for each operator a function of them; for concat one after the other up to the first that does not complete; for a merge an interleaving; for catch what the handler answers to a failure, again and again. If nothing in the expression runs at the same time as something else (merge_inner only with bound 1, and the sources that name observables do not fail), the subscriber gets exactly the one sequence that the expression means, in every schedule. Hence laws: two expressions that make their subscribers see the same can replace each other anywhere in a program; concat_map with single is a monad for sources that do not fail (left and right identity, associativity), map, filter and choose distribute over it; concat_seq is associative, with empty as neutral element, and what follows an observable that never completes is not there; a catch never passes on an error, so a second catch behind it does nothing, and it does nothing to a source that does not fail; a handler is also asked for the errors of its own answers. Refuted: right identity for sources that fail - elements before the error can be lost.", "quantifier": "every expression (induction over the expression, so any nesting), all functions, handlers, values, errors and every schedule of the parts; programs in which the functions of map, map_async, filter and choose do not raise where no safe_observer is in front of them (directly behind catch, retry, delay, interval or an observable of the user's; what happens there is C91)", "why_tests_cant": "expressions are unboundedly many and each part interleaves with the others; tests run single pipelines in one schedule", "anchors": ["aioreactive/combine.py merge_inner, concat_seq", "aioreactive/transform.py map, flat_map, concat_map, catch, scan", "aioreactive/filtering.py", "aioreactive/create.py", "aioreactive/__init__.py concat, merge, merge_seq"]}
{"id": "C81", "title": "merge and flat_map of cold observables are exactly the interleavings, and obey the laws of merging", "statement": "Take observables written as expressions in which every merge is unbounded and of observables that have some complete run (or takes one observable at a time from a source that does not fail). What a subscriber may see is exactly what the expression means, also where observables run at the same time: every interleaving is possible and nothing else is. In particular merge of two completes when both have, with all elements of both, each in its order; if one fails it ends with that error, after all elements of the one that failed and some of the first of the other; it does not end if one never ends and none fails. merge_seq is the same for any number; flat_map is the merge of the observables named by the elements of the source together with the source's own ending; flat_mapi gives the function the places 0, 1, 2, ... . Hence laws: merge is commutative and associative with empty as neutral element; the order in which merge_seq is given the observables, and merging some of them first, make no difference; with never it does not complete; with fail(x) it ends with x after some of the first elements (or with the other's error); what concat makes is one of the things merge makes; flat_map of single is application, flat_map of a list is merge_seq, flat_map is associative and distributes over merge; map, map_async, filter and choose of a merge, a merge_seq or a flat_map are those of each part, also if the function raises. Refuted: the last for take, which counts.", "quantifier": "every expression, any nesting and number of merged observables, all functions, values, errors and every schedule of the parts; programs in which the functions of map, map_async, filter and choose do not raise where no safe_observer is in front of them (directly behind catch, retry, delay, interval or an observable of the user's; what happens there is C91)", "why_tests_cant": "a test runs one interleaving of a few observables; that all and only the interleavings occur, and that two programs have the same set of them, is about all schedules", "anchors": ["aioreactive/combine.py merge_inner", "aioreactive/__init__.py merge, merge_seq", "aioreactive/transform.py flat_map, flat_mapi, map", "aioreactive/filtering.py filter, choose"]}
{"id": "C82", "title": "take_until, combine_latest and with_latest_from of programs are exactly what their two sources allow, and obey laws", "statement": "Take two observables written as expressions (C80, C81), each with some complete run. take_until: a subscriber may see exactly what the source makes if the source ends; or a beginning of it, then completion, if the other has an element; or a beginning of it, then the other's error, if the other fails without an element; and if the other has no element and does not fail it is as if the other were not there. combine_latest and with_latest_from: the elements of both arrive in some order up to the first of the two endings, and the subscriber sees the pairs of that order and that ending, nothing else. The results are such observables again, so this holds at any depth, and parts may be replaced by others that look the same. Hence laws: take_until of never or of empty is the source; of single cuts the source anywhere, with completion; of fail(x) cuts it anywhere, with x; several take_until may be written in any order, or as one take_until of the merge of the others; map, map_async, filter and choose may be moved past take_until, also if they raise; take behind take_until makes nothing that take before it does not make (the converse is refuted: the other's error may come between the last element and the completion). combine_latest is symmetric up to the order in the pairs; with an other that has no elements there are no pairs, and the end is the first of the two; with_latest_from makes at most one pair for each element of its source, in their order.", "quantifier": "all programs of sources, operators, merges, catch and two-source operators of any depth and any element types; all schedules of each part and all interleavings of the two sources; all outcomes of both; programs in which the functions of map, map_async, filter and choose do not raise where no safe_observer is in front of them (directly behind catch, retry, delay, interval or an observable of the user's; what happens there is C91)", "why_tests_cant": "The outcome is a set that depends on how two runs interleave; a test sees one interleaving of one pair of sources, while the claims are equalities of these sets for all programs.", "anchors": ["aioreactive/filtering.py:take_until", "aioreactive/combine.py:combine_latest", "aioreactive/combine.py:with_latest_from", "aioreactive/__init__.py:take_until", "aioreactive/__init__.py:combine_latest", "aioreactive/__init__.py:with_latest_from"]}
{"id": "C83", "title": "switch_latest and flat_map_latest in programs: exactly the outcomes their parts allow", "statement": "In a program built of sources, operators, merge, concat, catch, take_until, combine_latest, with_latest_from and switch_latest, flat_map_latest(f) of c makes exactly this: c makes some elements x1..xn, each f(xi) is subscribed in turn, of each a beginning is heard in its order (a disposed one may go on for a while), of the last one everything; the first error that is heard ends it; it completes only if c completes without any element, otherwise it stays open. With empty, never or fail it is empty, never or fail; with single(v) it is f(v) without the completion (so the left identity that flat_map has fails); for a list it is the merge of f(x1)..f(x(n-1)) each cut off by take_until, and of f(xn) without its completion; what it makes is a beginning of something flat_map makes; map, filter and choose behind it may be moved behind each observable; it does not fail if no part fails; flat_map_latest_async is the same.", "quantifier": "all programs whose parts have a run that comes to its end, all mappers, all interleavings; programs in which the functions of map, map_async, filter and choose do not raise where no safe_observer is in front of them (directly behind catch, retry, delay, interval or an observable of the user's; what happens there is C91)", "why_tests_cant": "A test runs one schedule of one program; which parts of superseded observables are heard, and that a law between programs holds, ranges over all of them.", "anchors": ["aioreactive/transform.py:switch_latest", "aioreactive/transform.py:flat_map_latest", "aioreactive/transform.py:flat_map_latest_async"]}
{"id": "C84", "title": "delay, debounce, sample and timer in programs: exactly the outcomes their source allows", "statement": "In a program of sources, operators, merge, concat, catch, retry, take_until, combine_latest, with_latest_from and switch_latest, whatever the times at which things happen: delay(d) of c makes its subscriber see exactly what c does; debounce(d) of c any of the elements of c in their order, with the ending of c, and if c does not end its last element is among them (the pending element is not handed out when c completes: any source that completes may look empty); sample(d) with d > 0 exactly the elements of c from some place on, with its ending, otherwise c itself; timer exactly 0 and the completion. None of them invents, repeats or reorders elements, or changes the ending; all of them may let everything through. debounce twice is debounce, sample twice is sample; map may be moved over debounce, filter only to the place behind it (the converse is refuted), map, filter, choose and skip over sample; take_until(timer) always ends; debounce of a source that stays open is covered by flat_map_latest of timers, but not the same (refuted).", "quantifier": "all programs whose merge bounds are not negative, all delays, all times of the source's calls and of the timers", "why_tests_cant": "A test runs one program with one set of times; which elements survive, and that a law between programs holds, ranges over all of them.", "anchors": ["aioreactive/timeshift.py:delay", "aioreactive/timeshift.py:debounce", "aioreactive/timeshift.py:sample", "aioreactive/create.py:timer", "aioreactive/filtering.py:take_until"]}
{"id": "C85", "title": "retry in programs: exactly the outcomes its source allows", "statement": "In any program, the runs of retry(n) of c that come to an end are exactly the runs of c that do not fail and, unless n = 0, a run of c that fails (without the error) followed by one that does not. No error gets through; if c never fails, retry does nothing; if c always fails, no run comes to an end (that it would give up and hand on the error is refuted). retry(n) and retry(m) are the same unless n or m is 0 (that it stands n failures is refuted); retry of retry is retry; retry(n), n /= 0, is catch with the handler that answers retry(0) of c; what it makes a catch that answers c at every error makes too. map, filter and choose that do not raise may be moved over it, scan may not (refuted). catch: exactly the outcomes of the source that do not fail, or a failed one followed by what the answer makes.", "quantifier": "all programs, all counts, all schedules; every subscription is to an observable of its own (see C33 for a shared one)", "why_tests_cant": "The set of possible runs of a program under all schedules cannot be enumerated by tests.", "anchors": ["aioreactive/transform.py:retry", "aioreactive/transform.py:catch"]}
{"id": "C86", "title": "A program at any moment: what its subscriber has seen is the beginning of one of its outcomes", "statement": "Take any program made of sources, operators, merge and concat, flat_map, switch_latest, catch, retry, take_until, combine_latest, with_latest_from, delay, debounce, sample and timer. At any moment of any run, finished or not, the calls its subscriber has got follow the grammar (elements, then at most one ending, then nothing). If no catch or retry in it can go round for ever, they are the beginning of one of the outcomes of the program; so such a program can always come to an end, programs with the same outcomes cannot be told apart at any moment, what shows no error in the end shows none before, and a program that does one thing at a time shows the same in every schedule, only further or less far. catch and retry show no error at any moment, whether they end or not; catch has at any moment shown what failed observables made and the beginning of what the current one makes; retry(n) the beginning of one attempt, or of a second after a failed one if n is not 0, never of a third. Without the condition on catch and retry the beginning need not belong to any outcome (refuted: retry of a source that fails).", "quantifier": "all programs, all runs, all moments, all schedules; every subscription is to an observable of its own; programs in which the functions of map, map_async, filter and choose do not raise where no safe_observer is in front of them (directly behind catch, retry, delay, interval or an observable of the user's; what happens there is C91)", "why_tests_cant": "The moments of all runs of all programs under all schedules cannot be enumerated by tests.", "anchors": ["aioreactive/observables.py:AsyncAnonymousObservable", "aioreactive/combine.py:merge_inner", "aioreactive/transform.py:switch_latest", "aioreactive/transform.py:catch", "aioreactive/transform.py:retry", "aioreactive/timeshift.py:delay", "aioreactive/timeshift.py:debounce", "aioreactive/timeshift.py:sample"]}
{"id": "C87", "title": "Disposing a program shows its subscriber nothing new", "statement": "The subscriber of a program disposes its subscription at any moment, and each part is cancelled at some time then. At any moment, before and after, the calls the subscriber has got follow the grammar, and catch and retry have shown no error. If the program has no from_async, debounce or switch_latest in it, the subscriber has got nothing it could not have got without disposing; if no catch or retry goes round for ever, it is the beginning of one of the outcomes, and a completion is only shown if the run was complete. The exceptions are real (refuted with runs): from_async, debounce and switch_latest tell their observer that they have completed when they are disposed, so reduce behind them shows a wrong result to a subscriber that has disposed.", "quantifier": "all programs, all runs, all moments, any times of cancellation of the parts; every subscription is to an observable of its own; programs in which the functions of map, map_async, filter and choose do not raise where no safe_observer is in front of them (directly behind catch, retry, delay, interval or an observable of the user's; what happens there is C91)", "why_tests_cant": "The moments at which a subscriber may dispose, and the times at which the parts learn of it, cannot be enumerated by tests.", "anchors": ["aioreactive/create.py:of_async", "aioreactive/create.py:interval", "aioreactive/combine.py:merge_inner", "aioreactive/transform.py:switch_latest", "aioreactive/transform.py:catch", "aioreactive/timeshift.py:delay", "aioreactive/timeshift.py:debounce"]}
{"id": "C88", "title": "interval in programs", "statement": "A subscriber of interval(seconds, period) with a period other than 0 has at any moment got 0, 1, ..., n-1 for some n (any n is possible) and no ending, whatever the times are. Any operator makes of it what it makes of these without an ending: take(n) makes 0 .. n-1 and completes (at any moment, also after disposal, a beginning of that has come); zip_seq(ys) makes the elements of ys with their numbers and completes at the tick after the last. take_until(timer) makes some of the first numbers and completes. What is behind an interval in concat never comes; merge with another observable makes all elements of the other one among the numbers and ends only with an error of the other one; concat_map(f) makes f(0), f(1), ... one after the other up to the first that does not complete; catch and retry do nothing to it.", "quantifier": "all start times and periods, all operators of C80, all other programs, all schedules, all moments; programs in which the functions of map, map_async, filter and choose do not raise where no safe_observer is in front of them (directly behind catch, retry, delay, interval or an observable of the user's; what happens there is C91)", "why_tests_cant": "The number of ticks, the schedules and the programs around it cannot be enumerated by tests.", "anchors": ["aioreactive/create.py:interval", "aioreactive/create.py:timer", "aioreactive/filtering.py:take", "aioreactive/combine.py:zip_seq", "aioreactive/combine.py:merge_inner"]}
{"id": "C89", "title": "run() of a program gives its last element or its error", "statement": "aioreactive.run(c, timeout) of any program c times out, or c has an outcome that ends, and run returns its last element if it completes, is cancelled if it completes without an element, and raises its error if it fails. Every outcome that ends is what some run gives. A program that never ends times out; programs that look the same give the same; if nothing in the program runs at the same time as something else there is only one thing besides the timeout that run can give; run of catch or retry never raises an error of the stream. For a source alone it is what the executions of run (C48) give.", "quantifier": "all programs (C80-C88) in which no catch or retry goes round for ever, all schedules, any timeout; programs in which the functions of map, map_async, filter and choose do not raise where no safe_observer is in front of them (C91)", "why_tests_cant": "The outcome of run depends on the schedule of every part of the program; a test sees one of them.", "anchors": ["aioreactive/subscription.py:run", "aioreactive/observers.py:AsyncAwaitableObserver"]}
{"id": "C90", "title": "Results that do not depend on the order do not depend on the schedule", "statement": "Say that a program gathers xs if in every run that comes to an end its subscriber gets the elements xs, in some order, and the completion. of_seq, single and empty gather their elements; map and filter (that do not raise) those of the mapped or filtered list; merge_inner with any bound, flat_map, concat_map, merge_seq and concat_seq those of all their parts together; delay and retry what their source gathers. For an accumulator for which the order makes no difference, reduce of such a program makes in every schedule exactly the fold over xs, and run of it, or of scan, returns exactly this (or times out, or is cancelled if there are no elements): a parallel merge gives the same as a sequential loop. Refuted for other accumulators: run of reduce of a merge of two can give either order.", "quantifier": "all programs that gather some list, any nesting, all accumulators f with f (f b x) y = f (f b y) x, all schedules", "why_tests_cant": "that all interleavings of any number of observables give the same result is about all schedules; a test sees one", "anchors": ["aioreactive/transform.py:reduce", "aioreactive/transform.py:scan", "aioreactive/combine.py:merge_inner", "aioreactive/transform.py:flat_map", "aioreactive/subscription.py:run"]}
{"id": "C91", "title": "Functions that raise: chains of operators, and directly behind catch, retry, delay and interval", "statement": "A chain of operators behaves as its operators one by one, a function that raises included: the exception reaches the subscriber as one error and nothing follows. This holds wherever a safe observer calls the chain. Directly behind catch and retry a map, map_async, filter or choose whose function raises is handled by them: the handler is asked, or the source is subscribed once more, exactly as if the operator stood in front of catch or retry (and in front of what the handler answers): the two can do the same. So the subscriber never learns of the error, and may get elements a second time. Directly behind delay, interval and timer the exception ends the worker: nothing comes after it, neither an element nor an ending.", "quantifier": "All chains of operators, all programs that call them, all functions, elements and schedules. Behind catch and retry: a single map, map_async, filter or choose, no failing subscription. Behind delay: any history whose arrivals are a beginning of a trace.", "why_tests_cant": "Which operator has a safe observer in front is invisible to the user. A test sees one function raising at one place.", "anchors": ["aioreactive/transform.py: transform, map, map_async, catch, retry", "aioreactive/filtering.py: choose, filter", "aioreactive/timeshift.py: delay", "aioreactive/create.py: interval", "aioreactive/observers.py: safe_observer"]}
{"id": "C92", "title": "A program shared by means of an AsyncSubject", "statement": "When a program is subscribed with an AsyncSubject as its observer, all subscribers of the subject see one and the same outcome of the program, each through its own chain of operators: at rest exactly what the chain makes of that outcome, and at any moment a beginning of it. A subscriber that comes later sees what its chain makes of the rest, one that comes after the ending sees nothing of it, and one that leaves sees nothing that is sent later. Two subscribers of the program itself, by contrast, may see different outcomes. Every run of a program can be shared in this way, with any subscribers.", "quantifier": "All programs, all chains of operators whose functions do not raise in front of the first safe observer, any number of subscribers coming and going at any moments, all schedules in which each call of the subject is awaited. The subject is not disposed.", "why_tests_cant": "Sharing is what subjects are used for; the subscribers are called in turn and work at their own pace in their own tasks, so which of them has seen what depends on the schedule.", "anchors": ["aioreactive/subject.py: AsyncMultiSubject", "aioreactive/observables.py: subscribe_async", "aioreactive/transform.py: transform"]}
{"id": "C93", "title": "Iterating a program with async for", "statement": "async for x in program: at any moment the body of the loop has been run with the first elements of one outcome of the program, in order; when the loop has ended it has been run with all of them, and it ended by StopAsyncIteration if the program completed and by the program's error if it failed. A loop that waits when the run of the program is over has seen everything of a program that does not end. Every outcome is that of some loop. The program is never more than one call ahead of the loop. Programs with the same outcomes are the same in a loop; a loop over a program that gathers xs in an order that depends on the schedule is run once with each of xs; a loop over catch or retry is never ended by an error of what is caught. After the end, each further __anext__ raises the same again and the program's last call does not return.", "quantifier": "all programs (sources, operators, merges, catch, retry, delays ... nested at will), all schedules of the program, of the consumer and of the ready queue of the event loop", "why_tests_cant": "a test iterates over a few programs with one interleaving of consumer and producer; the relation between what a loop sees and what the program's parts produce has to hold for all expressions and all schedules", "anchors": ["aioreactive/observers.py:AsyncIteratorObserver", "aioreactive/observables.py:AsyncObservable.__aiter__", "aioreactive/subscription.py"]}
{"id": "C94", "title": "Delays in a chain add up", "statement": "source.delay(d1).map(f).delay(d2)...: no call reaches the subscriber before the sum of the delays has passed since the source's call (a negative delay counts as 0), whatever the event loop does, and calls come in the order of the source. Without disposal and exceptions of the subscriber, the workers by themselves get everything through, for whatever has happened before. If time does not pass while a worker can go on or the subscriber is in a call, each call comes exactly the sum of the delays after the source's, so that two chains with the same sum and functions with the same effect make the same calls at the same times: delay(a).delay(b) is delay(a + b) for a, b >= 0. It is not for negative ones.", "quantifier": "all chains of any length, all delays, all functions between them, all calls of the source at any times, all schedules of the workers, all durations of the subscriber's calls", "why_tests_cant": "a test has two or three delays and a few elements in one order of wake-ups; the sum bound must hold for every chain length, every backlog in the mailboxes and every order in which workers wake up", "anchors": ["aioreactive/timeshift.py:delay"]}
{"id": "C95", "title": "Laws of operators, slices and coroutine functions in programs", "statement": "Two chains of operators that may be exchanged in a pipeline (C77) may be exchanged anywhere in a program, and chains that no source tells apart may be exchanged in every pipeline. mapi_async, filter_async, choose_async, map_async, starmap_async, flat_map_async and flat_mapi_async do in programs what the plain ones do; starmap and starfilter map and filter the pairs of an outcome. A slice of a program shows exactly Python's slices of the program's outcomes, whatever their ending (under the conditions of C20); c[k] is the k-th element of programs that complete. c[m:][n:] is c[m+n:]. c[:n] followed by c[n:] is c for n > 0 if all runs of c are the same; not for n = 0, since c[:0] is c.", "quantifier": "all programs (any sources, operators, merges, catches, ...), all chains, all functions (also raising ones, where a safe observer is in front), all slices, all schedules", "why_tests_cant": "a test compares a few chains on a few sources; that they may be exchanged is a statement about all programs around them and all schedules", "anchors": ["aioreactive/filtering.py:slice", "aioreactive/filtering.py:filter_async", "aioreactive/filtering.py:choose_async", "aioreactive/filtering.py:starfilter", "aioreactive/transform.py:mapi_async", "aioreactive/transform.py:starmap", "aioreactive/transform.py:flat_map_async", "aioreactive/transform.py:flat_mapi_async", "aioreactive/__init__.py:AsyncRx.__getitem__"]}
{"id": "C96", "title": "A subject combined with itself", "statement": "Let both sources of an operator be one and the same AsyncSubject, possibly mapped: subject.map(f) and subject.map(g). Each call of the subject calls first the observer subscribed first, then the other one. Hence, with calls of the subject that are awaited, subject.map(f) combine_latest subject.map(g) delivers for every element v with predecessor u first (f v, g u) and then (f v, g v), and for the first element (f v, g v) only. with_latest_from delivers (f v, g u) for every element v with predecessor u: never an element with itself. take_until of a subject with itself ends with the first element and delivers nothing. merge delivers f v, g v for every v, before anything of the next element. All end as the subject ends. The expectation that an element is combined with itself, and with nothing else, is false of combine_latest and with_latest_from.", "quantifier": "every history of the subject in which its calls are awaited one after another and no observer raises, with any other observers subscribing and leaving at any time; the moments at which the result is subscribed and disposed; all elements, endings and calls after the end; all total functions f and g; every schedule of the workers", "why_tests_cant": "which of the two sides hears of an element first depends on the order of the subscriptions inside the operator and on the loop of the subject; that the order is the same for every element, every schedule of the workers, and whatever other observers do meanwhile, quantifies over unbounded histories", "anchors": ["aioreactive/subject.py:AsyncMultiSubject.asend", "aioreactive/subject.py:AsyncMultiSubject.subscribe_async", "aioreactive/combine.py:combine_latest", "aioreactive/combine.py:with_latest_from", "aioreactive/combine.py:merge_inner", "aioreactive/filtering.py:take_until", "aioreactive/__init__.py:merge"]}
{"id": "C97", "title": "interval and timer in front of delays", "statement": "Let interval(seconds, period) be piped through a chain of delays, with maps, filters and other such functions in front of each. The j-th call of the subscriber is the element j and comes not before seconds, j periods and all delays have passed (functions: what they let through, in order, never early). Nothing is lost, and unless the subscription is disposed or the subscriber raises, any number of elements can arrive. Behind a delay interval does not drift: if only the event loop runs its task on time, its calls are made exactly at the multiples of the period and none is left out, however long the subscriber's calls take. If nothing is late and the subscriber takes no time every call comes exactly when it is due: interval(a, p).delay(d) tells the same at the same times as interval(a + d, p), and timer(a) behind delays gives its element and its completion both at a plus the delays.", "quantifier": "all seconds, periods and delays (also negative and zero) and any number of delays; all partial functions in front of the delays; every interleaving of time passing, the task of interval, the workers of the delays, returns and raises of the subscriber's calls, and disposal; all numbers of elements", "why_tests_cant": "the times depend on the interleaving of one task per operator with the clock, on how long the subscriber takes and on queues that grow without bound; only some schedules can be tried, and the sequence of elements never ends", "anchors": ["aioreactive/create.py:interval", "aioreactive/create.py:timer", "aioreactive/timeshift.py:delay"]}
{"id": "C98", "title": "interval and timer in front of debounce", "statement": "interval(seconds, period) in front of debounce(d): unless the subscription is disposed only elements get through, in order and each at most once. If nothing is late and the period is longer than d, every element gets through exactly d after it was made, so that it is interval(seconds + d, period). If the period is shorter than d, nothing ever gets through. The element of timer(seconds) never gets through debounce(d), whatever the times: the completion that follows it at once overtakes it, and the subscriber is told of the completion only.", "quantifier": "all seconds, periods and d; every interleaving of time passing, the task of interval, the ends of the sleeps of debounce, its worker and disposal (in order, timer), or every one in which nothing is late (slow, fast); any number of elements", "why_tests_cant": "that nothing ever gets through is a statement about all schedules and all times; which of several tasks that are due at one time runs first is the event loop's choice", "anchors": ["aioreactive/create.py:interval", "aioreactive/create.py:timer", "aioreactive/timeshift.py:debounce"]}
{"id": "C99", "title": "Operators made once and used several times", "statement": "An operator made by slice(start, stop, step) may be applied to any number of sources: although applying it changes its variable start, every application raises the same, or tells every subscriber the same, as a new operator. If the sequence given to zip_seq is an iterator (not an iterable that starts anew), all subscriptions, of one or of several sources, take their items from it: the i-th element of a subscription is paired with the item whose number is the number of all elements, of any subscription, that arrived before it; every place belongs to exactly one subscription, so that no item is handed out twice; the items of a list are used in order until none is left, and then each subscription completes at its next element; a single subscription sees the items from the first on, and one that comes after others goes on where they have stopped. An element that arrives after its subscription has ended uses up an item that nobody sees.", "quantifier": "all start, stop, step, numbers of earlier applications, sources, pipelines that follow, subscribers and schedules; all iterators, numbers of subscriptions and interleavings of the calls of their sources", "why_tests_cant": "all histories of applications and all interleavings of any number of subscriptions", "anchors": ["aioreactive/filtering.py:slice", "aioreactive/combine.py:zip_seq", "aioreactive/observers.py:safe_observer"]}
{"id": "C100", "title": "interval and timer in front of sample", "statement": "interval(seconds, period).sample(d) with d > 0, not disposed. Whatever the event loop does, of the elements 0, 1, 2, ... that the source has made the subscriber is told all from some element on, in order, each once. If the event loop is on time, exactly those made before d seconds have passed since the subscription are left out (one made exactly after d seconds may or may not be), whatever the periods: sample thins nothing. Every element whose time has come is made. If d is less than the first wait nothing is left out. timer(seconds).sample(d) completes, and tells its element before that if d < seconds, not if seconds < d.", "quantifier": "all seconds, periods (also 0: timer, and negative ones), d > 0, start times, and interleavings of the two tasks of the intervals and the clock", "why_tests_cant": "all real-time interleavings of two periodic tasks, for any length of time", "anchors": ["aioreactive/timeshift.py:sample", "aioreactive/create.py:interval,timer", "aioreactive/combine.py:with_latest_from"]}
{"id": "C101", "title": "interval and timer in front of a pipeline, and interval.take(n)", "statement": "The subscriber of interval(seconds, period) or timer(seconds) piped through operators gets what the operators make of the calls of interval, which are 0, 1, 2, ... (timer: 0 and the completion). If nothing is late the calls are made exactly at the multiples of the period, none is left out, and at every moment the subscriber has got what the operators make of the calls made up to then. interval.take(n) shows 0 to n-1 and completes with the n-th element, on time; but interval itself is not stopped by that and goes on calling for ever, unless it is disposed. Disposing it at any moment, or an exception coming back from a call, ends the calls.", "quantifier": "all seconds, periods, pipelines of operators and subscribers; every interleaving of time passing, the task of interval, the workers of the operators and disposal, or every one in which nothing is late; all n > 0 and any number of elements", "why_tests_cant": "unbounded time and elements, all pipelines and interleavings", "anchors": ["aioreactive/create.py:interval", "aioreactive/create.py:timer", "aioreactive/filtering.py:take", "aioreactive/observers.py:auto_detach_observer"]}
