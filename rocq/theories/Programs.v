(** * Programs of cold observables.

    A user writes an observable as an expression: a source of create.py, a
    chain of operators, merge_inner / concat / flat_map of observables that an
    observable names, catch.  [cold A] are these expressions, [makes] is what
    the models of the parts, put together, make their subscriber see, and
    [means] says the same with lists only. *)
From Verif Require Export Laws Source ColdCatch ColdSwitch Timed.
Set Implicit Arguments.

(** ** Operators *)

(** Operators that stand alone in a pipeline. *)
Inductive stage : Type -> Type -> Type :=
| SMap A B (f : A -> res B) : stage A B                       (* transform.py:95-105 map *)
| SMapAsync A B (f : A -> res B) : stage A B                  (* transform.py:61-75 map_async *)
| SMapi A B (f : A -> nat -> res B) : stage A B               (* transform.py:136-148 mapi *)
| SFilter A (p : A -> res bool) : stage A A                   (* filtering.py:78-84 filter *)
| SFilteri A (p : A -> nat -> res bool) : stage A A           (* filtering.py:105-113 filteri *)
| SChoose A B (f : A -> res (option B)) : stage A B           (* filtering.py:44-52 choose *)
| STake A (n : nat) : stage A A                               (* filtering.py:235-261 take *)
| STakeLast A (n : Z) : stage A A                             (* filtering.py:264-299 take_last *)
| SSkip A (n : Z) : stage A A                                 (* filtering.py:173-206 skip *)
| SSkipLast A (is_none : A -> bool) (n : Z) : stage A A       (* filtering.py:209-232 skip_last *)
| SDistinct A (eqb : A -> A -> bool) : stage A A              (* filtering.py:116-170 distinct_until_changed *)
| SScan A B (f : B -> A -> B) (b : B) : stage A B             (* transform.py:452-512 scan *)
| SReduce A B (f : B -> A -> res B) (b : B) : stage A B       (* transform.py:515-537 reduce *)
| SZip A B (it : iterator B) : stage A (A * B)                (* combine.py:336-367 zip_seq *)
| SMapiAsync A B (f : A -> nat -> res B) : stage A B          (* transform.py:121-133 mapi_async *)
| SFilterAsync A (p : A -> res bool) : stage A A              (* filtering.py:55-75 filter_async *)
| SChooseAsync A B (f : A -> res (option B)) : stage A B.     (* filtering.py:33-41 choose_async *)

(** The operator in the model of pipelines (Ops.v: transform.py, filtering.py, combine.py:336-367). *)
Definition op_of {A B} (g : stage A B) : operator A B :=
  match g in stage A B return operator A B with
  | SMap f => fun Z => map_ f
  | SMapAsync f => fun Z => map_async_ f
  | SMapi f => fun Z => mapi_ f
  | SFilter p => fun Z => filter_ p
  | SFilteri p => fun Z => filteri_ p
  | SChoose f => fun Z => choose_ f
  | STake A n => taking (Z.of_nat n)
  | STakeLast A n => fun Z => take_last_ n
  | SSkip A n => fun Z => skip_ n
  | SSkipLast i n => fun Z => skip_last_ i n
  | SDistinct e => fun Z => distinct_until_changed_ e
  | SScan f b => fun Z => scan_ (fun s a => Ok (f s a)) b
  | SReduce f b => fun Z => reduce_ f b
  | SZip A it => fun Z => zip_seq_ it
  | SMapiAsync f => fun Z => mapi_async_ f
  | SFilterAsync p => fun Z => filter_async_ p
  | SChooseAsync f => fun Z => choose_async_ f
  end.

(** Not in the code: what it makes of the elements and the ending of its source. *)
Definition result_of {A B} (g : stage A B) : list A -> ending -> list B * ending :=
  match g in stage A B return list A -> ending -> list B * ending with
  | SMap f | SMapAsync f => fun vs e => let (bs, x) := results f vs in (bs, or_failed x e)
  | SMapi f | SMapiAsync f => fun vs e => let (bs, x) := results (fun ai => f (fst ai) (snd ai)) (indexed 0 vs) in (bs, or_failed x e)
  | SFilter p | SFilterAsync p => fun vs e => let (bs, x) := results (keep p) vs in (somes bs, or_failed x e)
  | SFilteri p => fun vs e =>
      let (bs, x) := results (keep (fun ai => p (fst ai) (snd ai))) (indexed 0 vs) in (map fst (somes bs), or_failed x e)
  | SChoose f | SChooseAsync f => fun vs e => let (bs, x) := results f vs in (somes bs, or_failed x e)
  | STake A n => fun vs e =>
      match n with
      | 0 => ([], e)
      | _ => if n <=? length vs then (firstn n vs, Completed) else (vs, e)
      end
  | STakeLast A n => fun vs e => match e with Completed => (lastn (Z.to_nat n) vs, Completed) | _ => ([], e) end
  | SSkip A n => fun vs e => (skipn (Z.to_nat n) vs, e)
  | SSkipLast i n => fun vs e => (not_none i (butlastn (Z.to_nat n) vs), e)
  | SDistinct q => fun vs e => (changes q None vs, e)
  | SScan f b => fun vs e => (scanl f b vs, e)
  | SReduce f b => fun vs e =>
      match fold_res f b vs with
      | Err x => ([], Failed x)
      | Ok b' => match e with
                 | Completed => (match vs with [] => [] | _ => [b'] end, Completed)
                 | _ => ([], e)
                 end
      end
  | SZip A it => fun vs e => zip_from it 0 vs e
  end.

(** Operators of two observables. *)
Inductive pairing : Type -> Type -> Type -> Type :=
| PCombine A B : pairing A B (A * B)                          (* combine.py:174-251 combine_latest *)
| PWith A B : pairing A B (A * B)                             (* combine.py:254-333 with_latest_from *)
| PUntil A B : pairing A B A.                                 (* filtering.py:302-332 take_until *)

(** The operator in the model (Ops.v: combine.py:174-333, filtering.py:302-332), with its subscriber. *)
Definition pair_sys {A B C} (k : pairing A B C) : system C (either A B) :=
  match k in pairing A B C return system C (either A B) with
  | PCombine A B => combine_latest_sys well_behaved PEnd
  | PWith A B => with_latest_from_sys well_behaved PEnd
  | PUntil A B => take_until_sys well_behaved PEnd
  end.

(** Not in the code: the elements of the second source. *)
Definition rights {A B} (arr : arrivals A B) : list B := somes (map (fun x => match x with inl _ => None | inr b => Some b end) arr).

(** Not in the code: elements of two sources have arrived in the order [arr] when the first of
    them ends, with [e]: all elements of that one and some of the other; or all of both, if none ends. *)
Definition first_end {A B} (xs : list A) (da : ending) (ys : list B) (db : ending) (arr : arrivals A B) (e : ending) : Prop :=
  prefix (lefts arr) xs /\ prefix (rights arr) ys /\
  match e with
  | Open => da = Open /\ db = Open /\ lefts arr = xs /\ rights arr = ys
  | _ => da = e /\ lefts arr = xs \/ db = e /\ rights arr = ys
  end.

(** Not in the code: what the operators may make of two sources with the elements [xs] and [ys]
    and the endings [da] and [db].  take_until: it ends as its source does, after
    all elements; or it completes at the other's first element, or fails with the
    other if that has no elements, after some of the first elements. *)
Definition paired {A B C} (k : pairing A B C) : list A -> ending -> list B -> ending -> list C -> ending -> Prop :=
  match k in pairing A B C return list A -> ending -> list B -> ending -> list C -> ending -> Prop with
  | PCombine A B => fun xs da ys db vs e => exists arr, first_end xs da ys db arr e /\ vs = combined arr
  | PWith A B => fun xs da ys db vs e => exists arr, first_end xs da ys db arr e /\ vs = with_latest arr
  | PUntil A B => fun xs da ys db vs e =>
      vs = xs /\ e = da /\ e <> Open \/
      prefix vs xs /\ ys <> [] /\ e = Completed \/
      (exists x, prefix vs xs /\ ys = [] /\ db = Failed x /\ e = Failed x) \/
      vs = xs /\ da = Open /\ ys = [] /\ (db = Open \/ db = Completed) /\ e = Open
  end.

(** ** Expressions *)

(** A source (create.py); an operator behind an observable; merge_inner
    (combine.py:52-157) of the observables that [c] names, the element [x]
    standing for the observable [inner x]; catch (transform.py:384-429); an
    operator of two observables; switch_latest (transform.py:248-344) of the
    observables that [c] names; delay, debounce or sample (timeshift.py:33-182);
    interval (create.py:202-227); retry (transform.py:432-449); any observable of
    the user's (types.py:36-49, create.py:35-41) that follows the grammar, of which
    [P] are the elements and endings possible, such as a subject (subject.py:97-165)
    or from_async_iterable (create.py:79-109).  Every subscription is to an observable of its own: subscriptions to one delayed observable
    share its token (C57), those to one observable of retry its budget (C33). *)
Inductive cold : Type -> Type :=
| From A (s : source A) : cold A
| Stage A B (g : stage A B) (c : cold A) : cold B
| Inner X A (maxc : Z) (c : cold X) (inner : X -> cold A) : cold A
| Caught A (c : cold A) (handler : exn -> res (cold A)) : cold A
| Pair A B C (k : pairing A B C) (c : cold A) (d : cold B) : cold C
| Switched X A (c : cold X) (inner : X -> cold A) : cold A
| Shifted A (k : timeshift) (c : cold A) : cold A
| Ticking (seconds period : Z) : cold nat
| Retried A (n : Z) (c : cold A) : cold A
| Given A (P : list A -> ending -> Prop) : cold A.

(** create.py:230-236 timer: interval with the period 0. *)
Definition Timer (due : Z) : cold nat := Ticking due 0.
(** transform.py:239-245 concat_map: merge_inner(1) of map; the mapper, which
    answers with an observable, does not raise here. *)
Definition concat_map_ {X A} (f : X -> cold A) (c : cold X) : cold A := Inner 1 (Stage (SMap (fun x => Ok x)) c) f.
(** transform.py:151-169 flat_map: merge_inner(0) of map. *)
Definition flat_map_ {X A} (f : X -> cold A) (c : cold X) : cold A := Inner 0 (Stage (SMap (fun x => Ok x)) c) f.
(** transform.py:172-192 flat_mapi: merge_inner(0) of mapi. *)
Definition flat_mapi_ {X A} (f : X -> nat -> cold A) (c : cold X) : cold A :=
  Inner 0 (Stage (SMapi (fun x i => Ok (x, i))) c) (fun xi => f (fst xi) (snd xi)).
(** transform.py:195-215 flat_map_async: merge_inner(0) of map_async. *)
Definition flat_map_async_ {X A} (f : X -> cold A) (c : cold X) : cold A := Inner 0 (Stage (SMapAsync (fun x => Ok x)) c) f.
(** transform.py:218-236 flat_mapi_async: merge_inner(0) of mapi_async. *)
Definition flat_mapi_async_ {X A} (f : X -> nat -> cold A) (c : cold X) : cold A :=
  Inner 0 (Stage (SMapiAsync (fun x i => Ok (x, i))) c) (fun xi => f (fst xi) (snd xi)).
(** transform.py:366-382 flat_map_latest: switch_latest of map. *)
Definition flat_map_latest_ {X A} (f : X -> cold A) (c : cold X) : cold A := Switched (Stage (SMap (fun x => Ok x)) c) f.
(** transform.py:347-363 flat_map_latest_async: switch_latest of map_async. *)
Definition flat_map_latest_async_ {X A} (f : X -> cold A) (c : cold X) : cold A := Switched (Stage (SMapAsync (fun x => Ok x)) c) f.
(** combine.py:160-172 concat_seq: merge_inner(1) of of_seq; the observables
    stand for their places in the list.  __init__.py:203-206, 541-555 concat is
    concat_seq of two. *)
Definition concat_seq_ {A} (l : list (cold A)) : cold A :=
  Inner 1 (From (of_seq (seq 0 (length l)))) (fun i => nth i l (From Empty)).
(** __init__.py:829-837 merge_seq: merge_inner() of of_seq.  __init__.py:307-316,
    801-813 merge is merge_seq of two. *)
Definition merge_seq_ {A} (l : list (cold A)) : cold A :=
  Inner 0 (From (of_seq (seq 0 (length l)))) (fun i => nth i l (From Empty)).

(** ** What the models make of them *)

(** Not in the code: the calls of the source that names the observables, with
    the places of the elements (two subscriptions to equal observables are
    told apart by these). *)
Fixpoint placed {X} (i : nat) (ms : list (notif X)) : list (notif (X * nat)) :=
  match ms with
  | [] => []
  | OnNext x :: r => OnNext (x, i) :: placed (S i) r
  | OnError e :: r => OnError e :: placed i r
  | OnCompleted :: r => OnCompleted :: placed i r
  end.

(** transform.py:384-429: [None] is the source of catch, [Some x] what the
    handler answers to [x] (the handler has no state here; see C73 for those that have). *)
Definition answers_to {A} (handler : exn -> res (cold A)) (_ : unit) (x : exn) : res (option exn) * unit :=
  (match handler x with Ok _ => Ok (Some x) | Err y => Err y end, tt).

(** Not in the code: [makes c l]: in some schedule the run of [c] comes to its end, and its
    subscriber has then been called with [l].  The models of the parts are connected: what a
    subscription to a part does are the calls it makes, at any time.  (A run of interval with a
    period has no end: it may be looked at at any moment.)  Simplification: every operator has a
    safe_observer in front of it; where there is none in the code, and something behind raises,
    [makes] is not what happens ([sheltered] below; C91). *)
Fixpoint makes {A} (c : cold A) : list (notif A) -> Prop :=
  match c in cold A return list (notif A) -> Prop with
  | From s => fun l =>
      exists h st, src_reach well_behaved s PEnd h st /\ ~ In TCancel h /\
        src_done well_behaved s PEnd st /\ src_log well_behaved s PEnd st = l
  | Stage g c => fun l =>
      exists ms, makes c ms /\ delivers (psys well_behaved (safe (op_of g PEnd))) ms l
  | Inner maxc c inner => fun l =>
      exists ms script h s, makes c ms /\
        mreach maxc h s /\ follows script (placed 0 ms) h s /\ finished script (placed 0 ms) maxc h s /\
        (forall k x i, In (ESub k (x, i)) (m_log s) -> makes (inner x) (script (x, i))) /\
        delivers (psys well_behaved (safe PEnd)) (requests (m_log s)) l
  | Caught c handler => fun l =>
      exists content h s,
        creach (answers_to handler) None tt h s /\ cfollows content h s /\ cfinished content h s /\
        (forall k o, In (ESub k o) (c_log s) ->
           match o with
           | None => makes c (script_of (content k o))
           | Some x => match handler x with Ok c' => makes c' (script_of (content k o)) | Err _ => False end
           end) /\
        requests (c_log s) = l
  | Pair k c d => fun l =>
      exists ms, makes c (srcs ms) /\ makes d (oths ms) /\ delivers (pair_sys k) ms l
  | Switched c inner => fun l =>
      exists ms script h s, makes c ms /\
        sreach h s /\ sfollows script (placed 0 ms) h s /\ sfinished script (placed 0 ms) h s /\
        (forall k x i, In (ESub k (x, i)) (w_log s) -> makes (inner x) (script (x, i))) /\
        delivers (psys well_behaved (safe PEnd)) (requests (w_log s)) l
  | Shifted k c => fun l => exists ms, makes c ms /\ shifts k ms l
  | Ticking seconds period => fun l =>
      if (period =? 0)%Z then interval_makes seconds period l else interval_calls seconds period l
  | Retried n c => fun l =>
      exists content h s,
        creach retry_factory ROrig n h s /\ cfollows content h s /\ cfinished content h s /\
        (forall k o, In (ESub k o) (c_log s) ->
           match o with
           | ROrig => makes c (script_of (content k o))
           | RFail x => content k o = ([], Failed x)
           end) /\
        requests (c_log s) = l
  | Given P => fun l => exists vs e, P vs e /\ l = trace vs e
  end.

(** ** What they mean *)

(** Not in the code: elements and ending of the sources of create.py (C39, C40). *)
Fixpoint source_means {A} (s : source A) : list A * ending :=
  match s with
  | Worker (WSeq xs None) => (xs, Completed)
  | Worker (WSeq xs (Some _)) => (xs, Open)
  | Worker (WFail e) => ([], Failed e)
  | Worker (WAsync (Some (Ok v))) => ([v], Completed)
  | Worker (WAsync (Some (Err e))) => ([], Failed e)
  | Worker (WAsync None) => ([], Completed)
  | Single v => ([v], Completed)
  | Empty => ([], Completed)
  | Never => ([], Open)
  | Defer (Ok s) => source_means s
  | Defer (Err e) => ([], Failed e)
  end.

(** Not in the code: one after the other, up to the first that does not
    complete; [Means x] are the elements and endings possible for [x]. *)
Inductive in_turn {X A} (Means : X -> list A -> ending -> Prop) (oe : ending) : list X -> list A -> ending -> Prop :=
| turn_over : in_turn Means oe [] [] oe
| turn_next x r vs ws e : Means x vs Completed -> in_turn Means oe r ws e -> in_turn Means oe (x :: r) (vs ++ ws) e
| turn_last x r vs e : Means x vs e -> e <> Completed -> in_turn Means oe (x :: r) vs e.

(** Not in the code: together.  The observables [xs'], the first ones of [xs],
    are subscribed, and make [cs]; of each a beginning is heard, in any
    interleaving.  It completes when all do; it ends with the first error; or it does not end. *)
Definition together {X A} (Means : X -> list A -> ending -> Prop) (maxc : Z) (oe : ending) (xs : list X) (vs : list A) (e : ending) : Prop :=
  exists xs' (cs : list (list A * ending)) ps,
    prefix xs' xs /\ Forall2 (fun x c => Means x (fst c) (snd c)) xs' cs /\
    Forall2 (fun p c => prefix p (fst c)) ps cs /\ interleaves ps vs /\
    match e with
    | Completed => oe = Completed /\ xs' = xs /\ ps = map fst cs /\ Forall (fun c => snd c = Completed) cs
    | Failed x => oe = Failed x \/ exists k us, nth_error cs k = Some (us, Failed x) /\ nth_error ps k = Some us
    | Open => ps = map fst cs /\ Forall (fun c => forall x, snd c <> Failed x) cs /\
              (oe = Open \/ oe = Completed /\ Exists (fun c => snd c = Open) cs) /\
              (xs' = xs \/ (0 < maxc)%Z /\ (maxc <= Z.of_nat (length (filter (fun c => match snd c with Open => true | _ => false end) cs)))%Z)
    end.

(** Not in the code: switch_latest.  All observables [xs] are subscribed, one
    after the other, and make [cs]; of each a beginning is heard (the one before
    it may go on while the next is being subscribed), of the last one everything.
    It fails with the source or with one that has been heard; it completes if
    the source names no observable and completes; otherwise it does not end. *)
Definition switched {X A} (Means : X -> list A -> ending -> Prop) (oe : ending) (xs : list X) (vs : list A) (e : ending) : Prop :=
  exists (cs : list (list A * ending)) ps,
    Forall2 (fun x c => Means x (fst c) (snd c)) xs cs /\
    Forall2 (fun p c => prefix p (fst c)) ps cs /\ interleaves ps vs /\
    match e with
    | Completed => xs = [] /\ oe = Completed
    | Failed x => oe = Failed x \/ exists k us, nth_error cs k = Some (us, Failed x) /\ nth_error ps k = Some us
    | Open => (forall x, oe <> Failed x) /\ (xs = [] -> oe = Open) /\
              forall k c, S k = length xs -> nth_error cs k = Some c -> nth_error ps k = Some (fst c) /\ forall x, snd c <> Failed x
    end.

(** Not in the code: if it fails, what the handler answers comes next; if the
    handler raises, nothing comes any more. *)
Inductive recovered {A} (answer : exn -> option (list A -> ending -> Prop)) : (list A -> ending -> Prop) -> list A -> ending -> Prop :=
| rec_end (P : list A -> ending -> Prop) vs e : P vs e -> (forall x, e <> Failed x) -> recovered answer P vs e
| rec_next (P : list A -> ending -> Prop) vs x Q ws e :
    P vs (Failed x) -> answer x = Some Q -> recovered answer Q ws e -> recovered answer P (vs ++ ws) e
| rec_raise (P : list A -> ending -> Prop) vs x : P vs (Failed x) -> answer x = None -> recovered answer P vs Open.

(** Not in the code: retry(n): if it fails, once more, unless n = 0 (n is not
    counted down but set to 0, transform.py:444); if it fails again, it goes on
    for ever (C33), without an end. *)
Definition retried {A} (n : Z) (P : list A -> ending -> Prop) (vs : list A) (e : ending) : Prop :=
  (forall x, e <> Failed x) /\
  (P vs e \/ n <> 0%Z /\ exists us x ws, P us (Failed x) /\ P ws e /\ vs = us ++ ws).

(** Not in the code: [means c vs e]: the elements [vs], ended by [e], are a possible outcome of [c]. *)
Fixpoint means {A} (c : cold A) : list A -> ending -> Prop :=
  match c in cold A return list A -> ending -> Prop with
  | From s => fun vs e => source_means s = (vs, e)
  | Stage g c => fun vs e => exists us d, means c us d /\ result_of g us d = (vs, e)
  | Inner maxc c inner => fun vs e =>
      exists xs oe, means c xs oe /\
        if (maxc =? 1)%Z && match oe with Failed _ => false | _ => true end
        then in_turn (fun x => means (inner x)) oe xs vs e
        else together (fun x => means (inner x)) maxc oe xs vs e
  | Caught c handler => fun vs e =>
      recovered (fun x => match handler x with Ok c' => Some (means c') | Err _ => None end) (means c) vs e
  | Pair k c d => fun vs e => exists xs da ys db, means c xs da /\ means d ys db /\ paired k xs da ys db vs e
  | Switched c inner => fun vs e => exists xs oe, means c xs oe /\ switched (fun x => means (inner x)) oe xs vs e
  | Shifted k c => fun vs e => exists xs, means c xs e /\ shifted k xs e vs
  | Ticking _ period => fun vs e =>
      if (period =? 0)%Z then vs = [0] /\ e = Completed else vs = seq 0 (length vs) /\ e = Open
  | Retried n c => fun vs e => retried n (means c) vs e
  | Given P => P
  end.

(** Not in the code: subscribers of [c] are never called with an error. *)
Definition reliable {A} (c : cold A) : Prop := forall l x, makes c l -> ~ In (OnError x) l.
(** Not in the code: some run of [c] comes to its end. *)
Definition productive {A} (c : cold A) : Prop := exists l, makes c l.

(** Not in the code: nothing in it runs at the same time as something else,
    and the sources that name observables do not fail. *)
Fixpoint one_at_a_time {A} (c : cold A) : Prop :=
  match c with
  | From _ => True
  | Stage _ c => one_at_a_time c
  | Inner maxc c inner => maxc = 1%Z /\ one_at_a_time c /\ reliable c /\ forall x, one_at_a_time (inner x)
  | Caught c handler => one_at_a_time c /\ forall x, match handler x with Ok c' => one_at_a_time c' | Err _ => True end
  | Pair _ _ _ => False
  | Switched _ _ => False
  | Shifted k c => match k with Delay _ => one_at_a_time c | _ => False end
  | Ticking _ period => period = 0%Z
  | Retried _ c => one_at_a_time c
  | Given P => forall vs e vs' e', P vs e -> P vs' e' -> vs' = vs /\ e' = e
  end.

(** Not in the code: merge_inner is given a bound that is not negative, everywhere. *)
Fixpoint bounded {A} (c : cold A) : Prop :=
  match c with
  | From _ => True
  | Stage _ c => bounded c
  | Inner maxc c inner => (0 <= maxc)%Z /\ bounded c /\ forall x, bounded (inner x)
  | Caught c handler => bounded c /\ forall x, match handler x with Ok c' => bounded c' | Err _ => True end
  | Pair _ c d => bounded c /\ bounded d
  | Switched c inner => bounded c /\ forall x, bounded (inner x)
  | Shifted _ c => bounded c
  | Ticking _ _ => True
  | Retried _ c => bounded c
  | Given _ => True
  end.

(** Not in the code: operators without a safe_observer of their own: they are called by what is in
    front of them and call what is behind them directly (transform.py:34-55 transform, 452-512 _scan), so an exception
    raised there or further behind goes back to whoever called them. *)
Definition bare {A B} (g : stage A B) : bool :=
  match g with SMap _ | SMapAsync _ | SFilter _ | SFilterAsync _ | SChoose _ | SChooseAsync _ | SScan _ _ => true | _ => false end.

(** Not in the code: the operator does not raise into what is in front of it (the function of
    map, map_async, filter, filter_async, choose or choose_async never raises; the other operators handle exceptions themselves). *)
Definition calm {A B} (g : stage A B) : Prop :=
  match g with
  | SMap f | SMapAsync f => forall a x, f a <> Err x
  | SFilter p | SFilterAsync p => forall a x, p a <> Err x
  | SChoose f | SChooseAsync f => forall a x, f a <> Err x
  | _ => True
  end.

(** Not in the code: subscribers of [c] are called by a safe_observer (observers.py:151-199), perhaps through
    operators without one: so are those of the sources (create.py:51, 120), merge_inner (combine.py:59),
    combine_latest (194), with_latest_from (275), take_until (filtering.py:319), switch_latest
    (transform.py:265), debounce (timeshift.py:108) and sample(d) with d > 0 (170-177, by with_latest_from), not those of catch, retry (transform.py:393-449),
    delay (timeshift.py:54-77), interval (create.py:214-222) and of observables of the user's. *)
Fixpoint guarded {A} (c : cold A) : Prop :=
  match c with
  | From _ | Inner _ _ _ | Pair _ _ _ | Switched _ _ => True
  | Stage g c => if bare g then guarded c else True
  | Shifted k c => match k with
                   | Delay _ => False
                   | Debounce _ => True
                   | Sample d => if (0 <? d)%Z then True else guarded c
                   end
  | Caught _ _ | Ticking _ _ | Retried _ _ | Given _ => False
  end.

(** Not in the code: no function of map, map_async, filter or choose raises where no safe_observer
    is in front of it.  For programs in which one does, [makes] is not what happens: see Behind.v. *)
Fixpoint sheltered {A} (c : cold A) : Prop :=
  match c with
  | From _ => True
  | Stage g c => (calm g \/ guarded c) /\ sheltered c
  | Inner _ c inner => sheltered c /\ forall x, sheltered (inner x)
  | Caught c handler => sheltered c /\ forall x, match handler x with Ok c' => sheltered c' | Err _ => True end
  | Pair _ c d => sheltered c /\ sheltered d
  | Switched c inner => sheltered c /\ forall x, sheltered (inner x)
  | Shifted _ c => sheltered c
  | Ticking _ _ => True
  | Retried _ c => sheltered c
  | Given _ => True
  end.

(** Not in the code: subscribers of [c] and of [d] see the same. *)
Definition alike {A} (c d : cold A) : Prop := forall l, makes c l <-> makes d l.

(** Not in the code: operators that treat every element by itself. *)
Definition elementwise {A B} (g : stage A B) : Prop :=
  match g with SMap _ | SMapAsync _ | SFilter _ | SFilterAsync _ | SChoose _ | SChooseAsync _ => True | _ => False end.
