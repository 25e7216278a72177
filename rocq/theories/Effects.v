(** * Functions with side effects passed to operators.

    In Ops.v the functions a user passes to map, filter, choose and scan are
    functions of their argument.  Here they may depend on everything that
    happened in their own earlier calls: such a function is given as [f h a],
    the outcome of its call with [a] when it was called before with [h], in
    this order.  The operators below record these calls in their state: the
    state is what the function could have stored in a closure. *)
From Verif Require Export Ops.
Set Implicit Arguments.

(** Calling a function of the user: transform.py:72, 89, 103, 116 (mapper),
    filtering.py:37, 48 (chooser), 72, 80, 98 (predicate). *)
Definition call_user {A B C} (f : list A -> A -> res B) (a : A) (k : B -> prog (list A) (act C)) : prog (list A) (act C) :=
  Read (fun h => Write (h ++ [a])
    (match f h a with
     | Ok b => k b
     | Err e => Raise e
     end)).

(** transform.py:35-58 with state. *)
Definition transform_fx_op {A B S} (s0 : S) (anext : A -> prog S (act B)) : op (notif A) (act B) :=
  direct s0 (fun n => match n with
    | OnNext a => anext a
    | OnError e => awaitp (Deliver (OnError e))
    | OnCompleted => awaitp (Deliver OnCompleted)
    end).

(** transform.py:95-105 map, 108-118 starmap *)
Definition map_fx_op {A B} (f : list A -> A -> res B) : op (notif A) (act B) :=
  transform_fx_op [] (fun a => call_user f a (fun b => awaitp (Deliver (OnNext b)))).

(** transform.py:61-75 map_async, 78-92 starmap_async *)
Definition map_async_fx_op {A B} (f : list A -> A -> res B) : op (notif A) (act B) :=
  transform_fx_op [] (fun a => seqp (awaitp Await) (call_user f a (fun b => awaitp (Deliver (OnNext b))))).

(** filtering.py:44-52 choose *)
Definition choose_fx_op {A B} (f : list A -> A -> res (option B)) : op (notif A) (act B) :=
  transform_fx_op [] (fun a => call_user f a (fun o =>
    match o with Some b => awaitp (Deliver (OnNext b)) | None => Ret end)).

(** filtering.py:33-41 choose_async *)
Definition choose_async_fx_op {A B} (f : list A -> A -> res (option B)) : op (notif A) (act B) :=
  transform_fx_op [] (fun a => seqp (awaitp Await) (call_user f a (fun o =>
    match o with Some b => awaitp (Deliver (OnNext b)) | None => Ret end))).

(** filtering.py:78-84 filter, 87-102 starfilter *)
Definition filter_fx_op {A} (p : list A -> A -> res bool) : op (notif A) (act A) :=
  transform_fx_op [] (fun a => call_user p a (fun b : bool =>
    if b then awaitp (Deliver (OnNext a)) else Ret)).

(** filtering.py:55-75 filter_async *)
Definition filter_async_fx_op {A} (p : list A -> A -> res bool) : op (notif A) (act A) :=
  transform_fx_op [] (fun a => seqp (awaitp Await) (call_user p a (fun b : bool =>
    if b then awaitp (Deliver (OnNext a)) else Ret))).

(** transform.py:452-486 _scan; the state: the accumulated value, and the calls
    of the accumulator, each with the value and the element it was given. *)
Definition scan_fx_op {A B} (f : list (B * A) -> B -> A -> res B) (initial : B) : op (notif A) (act B) :=
  transform_fx_op (initial, []) (fun a => Read (fun s =>
    let current := fst s in
    let h := snd s in
    Write (current, h ++ [(current, a)])
      (seqp (awaitp Await)                                       (* 465 *)
         (match f h current a with
          | Err e => awaitp (Deliver (OnError e))                (* 466-467 *)
          | Ok b => Write (b, h ++ [(current, a)]) (awaitp (Deliver (OnNext b)))   (* 468-471 *)
          end)))).

(** ** Specification *)

(** Not in the code: calling [f] on the values from left to right, after the
    calls [h], until a call raises.  All calls of [f], what they returned, and
    the exception. *)
Fixpoint in_order {A B} (f : list A -> A -> res B) (h : list A) (vs : list A) : list A * list B * option exn :=
  match vs with
  | [] => (h, [], None)
  | v :: r =>
      match f h v with
      | Err x => (h ++ [v], [], Some x)
      | Ok b => let '(cs, bs, x) := in_order f (h ++ [v]) r in (cs, b :: bs, x)
      end
  end.

(** Not in the code: the calls, the results and the exception. *)
Definition calls_made {A B} (f : list A -> A -> res B) (vs : list A) : list A := fst (fst (in_order f [] vs)).
(** Not in the code: see above. *)
Definition returned {A B} (f : list A -> A -> res B) (vs : list A) : list B := snd (fst (in_order f [] vs)).
(** Not in the code: see above. *)
Definition raised {A B} (f : list A -> A -> res B) (vs : list A) : option exn := snd (in_order f [] vs).

(** Not in the code: the predicate of a filter as a chooser. *)
Definition keep_fx {A} (p : list A -> A -> res bool) (h : list A) (a : A) : res (option A) :=
  match p h a with Ok true => Ok (Some a) | Ok false => Ok None | Err e => Err e end.

(** Not in the code: the accumulator of scan along the values: all its calls,
    and the results up to the first exception. *)
Fixpoint scan_calls {A B} (f : list (B * A) -> B -> A -> res B) (h : list (B * A)) (b : B) (vs : list A) : list (B * A) :=
  match vs with
  | [] => h
  | v :: r => scan_calls f (h ++ [(b, v)]) (match f h b v with Ok b' => b' | Err _ => b end) r
  end.

(** Not in the code: see above. *)
Fixpoint scan_fx_results {A B} (f : list (B * A) -> B -> A -> res B) (h : list (B * A)) (b : B) (vs : list A) : list B * option exn :=
  match vs with
  | [] => ([], None)
  | v :: r =>
      match f h b v with
      | Err x => ([], Some x)
      | Ok b' => let (bs, x) := scan_fx_results f (h ++ [(b, v)]) b' r in (b' :: bs, x)
      end
  end.

(** ** What the function has been called with *)

(** Not in the code: the state of an operator [o] behind a safe_observer
    (observers.py:151-199), whose function is then called by the worker. *)
Definition state_of {Z A B} (pol : policy Z) (o : op (notif A) (act B)) (r : pipe Z B)
    (s : cst (pcomp pol (PSafe o r))) : st o := snd (as_ (fst s)).

(** Not in the code: [cs] are the calls of the function after some execution in
    which the source made the calls [ms] ... *)
Definition called {Z A B C} (pol : policy Z) (o : op (notif A) (act B)) (calls_in : st o -> C)
    (r : pipe Z B) (ms : list (notif A)) (cs : C) : Prop :=
  exists s, run (pcomp pol (PSafe o r)) (pinit pol (PSafe o r)) ms s /\ calls_in (@state_of _ _ _ pol o r s) = cs.

(** Not in the code: ... and nothing more can happen without further calls of the source. *)
Definition called_finally {Z A B C} (pol : policy Z) (o : op (notif A) (act B)) (calls_in : st o -> C)
    (r : pipe Z B) (ms : list (notif A)) (cs : C) : Prop :=
  exists s, run (pcomp pol (PSafe o r)) (pinit pol (PSafe o r)) ms s /\ quiet (pcomp pol (PSafe o r)) s
    /\ calls_in (@state_of _ _ _ pol o r s) = cs.

(** Not in the code: in every schedule the calls of the function are exactly
    [cs]: some execution is complete, every complete one has made the calls
    [cs], and at every moment of every execution a prefix of [cs] was made. *)
Definition calls_exactly {Z A B C} (pol : policy Z) (o : op (notif A) (act B)) (calls_in : st o -> list C)
    (r : pipe Z B) (ms : list (notif A)) (cs : list C) : Prop :=
  called_finally pol o calls_in r ms cs /\
  (forall cs', called_finally pol o calls_in r ms cs' -> cs' = cs) /\
  (forall cs', called pol o calls_in r ms cs' -> prefix cs' cs).
Arguments state_of {Z A B} pol o r s.
Arguments called {Z A B C} pol o calls_in r ms cs.
Arguments called_finally {Z A B C} pol o calls_in r ms cs.
Arguments calls_exactly {Z A B C} pol o calls_in r ms cs.
