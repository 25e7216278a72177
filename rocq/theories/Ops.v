(** * Operators whose observers are called directly or own one mailbox. *)
From Verif Require Export Pipe.
Set Implicit Arguments.

(** ** transform.py *)

(** transform.py:35-58: [asend] is [anext(aobv.asend, value)]; [athrow] and
    [aclose] are those of the next observer (52). *)
Definition transform_op {A B} (anext : A -> prog unit (act B)) : op (notif A) (act B) :=
  direct tt (fun n => match n with
    | OnNext a => anext a
    | OnError e => awaitp (Deliver (OnError e))
    | OnCompleted => awaitp (Deliver OnCompleted)
    end).

(** transform.py:95-105 (map), 108-118 (starmap, for tuples as values). *)
Definition map_op {A B} (f : A -> res B) : op (notif A) (act B) :=
  transform_op (fun a => match f a with
    | Ok b => awaitp (Deliver (OnNext b))
    | Err e => Raise e
    end).

(** transform.py:61-75 (map_async), 78-92 (starmap_async): the mapper is awaited. *)
Definition map_async_op {A B} (f : A -> res B) : op (notif A) (act B) :=
  transform_op (fun a => seqp (awaitp Await) (match f a with
    | Ok b => awaitp (Deliver (OnNext b))
    | Err e => Raise e
    end)).

(** transform.py:452-486 _scan (scan 489-496 and scan_async 499-512 differ only
    in whether the accumulator suspends; it is modelled as suspending). *)
Definition scan_op {A B} (f : B -> A -> res B) (initial : B) : op (notif A) (act B) :=
  direct initial (fun n => match n with
    | OnNext a =>
        Read (fun current => seqp (awaitp Await)                 (* 465 *)
          (match f current a with
           | Err e => awaitp (Deliver (OnError e))               (* 466-467 *)
           | Ok b => Write b (awaitp (Deliver (OnNext b)))       (* 468-471 *)
           end))
    | OnError e => awaitp (Deliver (OnError e))
    | OnCompleted => awaitp (Deliver OnCompleted)
    end).

(** ** filtering.py *)

(** filtering.py:44-52 choose *)
Definition choose_op {A B} (f : A -> res (option B)) : op (notif A) (act B) :=
  transform_op (fun a => match f a with
    | Ok (Some b) => awaitp (Deliver (OnNext b))
    | Ok None => Ret
    | Err e => Raise e
    end).

(** filtering.py:33-41 choose_async *)
Definition choose_async_op {A B} (f : A -> res (option B)) : op (notif A) (act B) :=
  transform_op (fun a => seqp (awaitp Await) (match f a with
    | Ok (Some b) => awaitp (Deliver (OnNext b))
    | Ok None => Ret
    | Err e => Raise e
    end)).

(** filtering.py:78-84 filter, 87-102 starfilter (for tuples as values) *)
Definition filter_op {A} (p : A -> res bool) : op (notif A) (act A) :=
  transform_op (fun a => match p a with
    | Ok true => awaitp (Deliver (OnNext a))
    | Ok false => Ret
    | Err e => Raise e
    end).

(** filtering.py:55-75 filter_async *)
Definition filter_async_op {A} (p : A -> res bool) : op (notif A) (act A) :=
  transform_op (fun a => seqp (awaitp Await) (match p a with
    | Ok true => awaitp (Deliver (OnNext a))
    | Ok false => Ret
    | Err e => Raise e
    end)).

(** filtering.py:116-170 distinct_until_changed: the worker (134-160).
    [eqb] is Python's [==] on values; notification.py:62-65, 92-95, 122-125
    give [==] on notifications.  State: [latest], initially OnCompleted (160). *)
Definition notif_neqb {A} (eqb : A -> A -> bool) (n latest : notif A) : bool :=
  match n, latest with
  | OnNext x, OnNext y => negb (eqb x y)
  | _, _ => true
  end.

(** filtering.py:134-160 the worker of distinct_until_changed, one message. *)
Definition distinct_op {A} (eqb : A -> A -> bool) : op (notif A) (act A) :=
  direct OnCompleted (fun n => Read (fun latest =>
    seqp
      (match n with
       | OnNext x =>
           if notif_neqb eqb n latest then                        (* 144 *)
             tryp (awaitp (Deliver (OnNext x)))                   (* 145-148 *)
                  (fun ex => awaitp (Deliver (OnError ex)))
           else Ret
       | OnError e => awaitp (Deliver (OnError e))
       | OnCompleted => awaitp (Deliver OnCompleted)
       end)
      (Write n Ret))).                                            (* 155-158 *)

(** filtering.py:173-206 skip; state: [remaining] *)
Definition skip_op {A} (count : Z) : op (notif A) (act A) :=
  direct count (fun n => match n with
    | OnNext a => Read (fun remaining =>
        if (remaining <=? 0)%Z then awaitp (Deliver (OnNext a))
        else Write (remaining - 1)%Z Ret)
    | t => awaitp (Deliver t)
    end).

(** filtering.py:209-232 skip_last; state: [q]; [is_none] tells which values are None *)
Definition skip_last_op {A} (is_none : A -> bool) (count : Z) : op (notif A) (act A) :=
  direct ([] : list A) (fun n => match n with
    | OnNext a => Read (fun q0 =>
        let q := q0 ++ [a] in                                     (* 220 *)
        if (count <? Z.of_nat (length q))%Z then                  (* 221 *)
          match q with
          | front :: q' =>
              Write q' (if is_none front then Ret                 (* 224 *)
                        else awaitp (Deliver (OnNext front)))
          | [] => Write q Ret
          end
        else Write q Ret)
    | t => awaitp (Deliver t)
    end).

(** filtering.py:235-261 take, the observer (245-256); state: [remaining] *)
Definition take_op {A} (count : Z) : op (notif A) (act A) :=
  direct count (fun n => match n with
    | OnNext a => Read (fun remaining =>
        if (0 <? remaining)%Z then                                (* 250 *)
          Write (remaining - 1)%Z
            (seqp (awaitp (Deliver (OnNext a)))                   (* 252 *)
                  (Read (fun remaining =>
                     if (remaining =? 0)%Z then awaitp (Deliver OnCompleted) else Ret)))
        else Ret)
    | t => awaitp (Deliver t)
    end).

(** filtering.py:264-299 take_last; state: [queue] *)
Definition take_last_op {A} (count : Z) : op (notif A) (act A) :=
  direct ([] : list A) (fun n => match n with
    | OnNext a => Read (fun q0 =>
        let q := q0 ++ [a] in
        if (count <? Z.of_nat (length q))%Z then Write (tl q) Ret else Write q Ret)
    | OnError e => awaitp (Deliver (OnError e))
    | OnCompleted => Read (fun q =>
        seqp (forp q (fun item => awaitp (Deliver (OnNext item))))  (* 290-291 *)
             (awaitp (Deliver OnCompleted)))
    end).

(** ** combine.py *)

(** combine.py:336-367 zip_seq; state: how often [next] was called *)
Definition zip_op {A B} (it : iterator B) : op (notif A) (act (A * B)) :=
  direct 0 (fun n => match n with
    | OnNext x => Read (fun i => Write (S i)
        (tryp
          (match it i with                                        (* 347-351 *)
           | Item b => awaitp (Deliver (OnNext (x, b)))
           | IStop => awaitp (Deliver OnCompleted)
           | IRaise e => Raise e
           end)
          (fun ex => awaitp (Deliver (OnError ex)))))             (* 352-353 *)
    | OnError e => awaitp (Deliver (OnError e))
    | OnCompleted => awaitp (Deliver OnCompleted)
    end).

(** expression's [seq.infinite]: 0, 1, 2, ... *)
Definition infinite : iterator nat := Item.

(** ** Operators as functions on the rest of the pipeline.
    [auto_detach_observer] puts a safe_observer in front of the subscriber
    (observers.py:237-238); the detaching itself is in Detach.v. *)
Section Operators.
  Context {Z0 : Type}.
  Notation pipe := (pipe Z0).

  (** transform.py:95-105 map *)
  Definition map_ {A B} (f : A -> res B) (r : pipe B) : pipe A := pre (map_op f) r.
  (** transform.py:61-75 map_async *)
  Definition map_async_ {A B} (f : A -> res B) (r : pipe B) : pipe A := pre (map_async_op f) r.
  (** filtering.py:44-52 choose *)
  Definition choose_ {A B} (f : A -> res (option B)) (r : pipe B) : pipe A := pre (choose_op f) r.
  (** filtering.py:33-41 choose_async *)
  Definition choose_async_ {A B} (f : A -> res (option B)) (r : pipe B) : pipe A := pre (choose_async_op f) r.
  (** filtering.py:78-84 filter *)
  Definition filter_ {A} (p : A -> res bool) (r : pipe A) : pipe A := pre (filter_op p) r.
  (** filtering.py:55-75 filter_async *)
  Definition filter_async_ {A} (p : A -> res bool) (r : pipe A) : pipe A := pre (filter_async_op p) r.

  (** starmap / starfilter on pairs *)
  Definition starmap_ {A B C} (f : A -> B -> res C) (r : pipe C) : pipe (A * B) :=
    map_ (fun ab => f (fst ab) (snd ab)) r.
  (** transform.py:78-92 starmap_async *)
  Definition starmap_async_ {A B C} (f : A -> B -> res C) (r : pipe C) : pipe (A * B) :=
    map_async_ (fun ab => f (fst ab) (snd ab)) r.
  (** filtering.py:87-102 starfilter *)
  Definition starfilter_ {A B} (p : A -> B -> res bool) (r : pipe (A * B)) : pipe (A * B) :=
    filter_ (fun ab => p (fst ab) (snd ab)) r.

  (** filtering.py:131-168 *)
  Definition distinct_until_changed_ {A} (eqb : A -> A -> bool) (r : pipe A) : pipe A :=
    PMbox (distinct_op eqb) (safe r).
  (** filtering.py:173-206 skip *)
  Definition skip_ {A} (count : Z) (r : pipe A) : pipe A := pre (skip_op count) (safe r).
  (** filtering.py:209-232 skip_last *)
  Definition skip_last_ {A} (is_none : A -> bool) (count : Z) (r : pipe A) : pipe A :=
    pre (skip_last_op is_none count) (safe r).
  (** filtering.py:238-239: negative counts are refused when the operator is built *)
  Definition take_ {A} (count : Z) : res (pipe A -> pipe A) :=
    if (count <? 0)%Z then Err ValueError else Ok (fun r => pre (take_op count) (safe r)).
  (** filtering.py:264-299 take_last *)
  Definition take_last_ {A} (count : Z) (r : pipe A) : pipe A := pre (take_last_op count) (safe r).
  (** combine.py:336-367 zip_seq *)
  Definition zip_seq_ {A B} (it : iterator B) (r : pipe (A * B)) : pipe A := pre (zip_op it) (safe r).

  (** transform.py:136-148 mapi, 121-133 mapi_async *)
  Definition mapi_ {A B} (f : A -> nat -> res B) (r : pipe B) : pipe A :=
    zip_seq_ infinite (starmap_ f r).
  (** transform.py:121-133 mapi_async *)
  Definition mapi_async_ {A B} (f : A -> nat -> res B) (r : pipe B) : pipe A :=
    zip_seq_ infinite (starmap_async_ f r).
  (** filtering.py:105-113 filteri *)
  Definition filteri_ {A} (p : A -> nat -> res bool) (r : pipe A) : pipe A :=
    zip_seq_ infinite (starfilter_ p (map_ (fun ai => Ok (fst ai)) r)).

  (** transform.py:452-512 _scan, scan, scan_async *)
  Definition scan_ {A B} (f : B -> A -> res B) (initial : B) (r : pipe B) : pipe A :=
    pre (scan_op f initial) r.
  (** transform.py:515-537 reduce, reduce_async *)
  Definition reduce_ {A B} (f : B -> A -> res B) (initial : B) (r : pipe B) : pipe A :=
    scan_ f initial (take_last_ 1 r).

  (** filtering.py:335-396 slice *)
  Definition slice_ {A} (is_none : A -> bool) (start stop : option Z) (step : Z) : res (pipe A -> pipe A) :=
    let first : pipe A -> pipe A :=                               (* 370-374 *)
      match start with
      | Some i => if (i <? 0)%Z then take_last_ (Z.abs i) else skip_ i
      | None => fun r => r
      end in
    let second : res (pipe A -> pipe A) :=                        (* 376-381 *)
      match stop with
      | Some j => if (0 <? j)%Z
                  then take_ (j - match start with Some i => i | None => 0 end)
                  else Ok (skip_last_ is_none (Z.abs j))
      | None => Ok (fun r => r)
      end in
    match second with
    | Err e => Err e
    | Ok second =>
        if (1 <? step)%Z then                                     (* 383-389 *)
          Ok (fun r => first (second (filteri_ (fun _ i => Ok (Z.of_nat i mod step =? 0)%Z) r)))
        else if (step <? 0)%Z then Err TypeError                  (* 390-392 *)
        else Ok (fun r => first (second r))
    end.
End Operators.

(** ** Operators with two sources *)

(** combine.py:203-211 and 284-294 get_value: the value, after passing on a terminal *)
Definition get_value {A B C S} (n : notif C) (k : option C -> prog S (act (A * B))) : prog S (act (A * B)) :=
  match n with
  | OnNext v => k (Some v)
  | OnError e => seqp (awaitp (Deliver (OnError e))) (k None)
  | OnCompleted => seqp (awaitp (Deliver OnCompleted)) (k None)
  end.

(** combine.py:222-230: send the pair if both values are there *)
Definition send_pair {A B S} (s : option A) (o : option B) : prog S (act (A * B)) :=
  match s, o with
  | Some x, Some y => awaitp (Deliver (OnNext (x, y)))
  | _, _ => Ret
  end.

(** combine.py:174-251 combine_latest, the worker (196-234) *)
Definition combine_latest_op {A B} : op (either A B) (act (A * B)) :=
  direct (None, None) (fun m => Read (fun '(sv, ov) =>
    match m with
    | Src n => get_value n (fun sv' => seqp (send_pair sv' ov) (Write (sv', ov) Ret))
    | Oth n => get_value n (fun ov' => seqp (send_pair sv ov') (Write (sv, ov') Ret))
    end)).

(** combine.py:254-333 with_latest_from, the worker (277-317) *)
Definition with_latest_from_op {A B} : op (either A B) (act (A * B)) :=
  direct None (fun m => Read (fun latest =>
    match m with
    | Src n => get_value n (fun sv => seqp (send_pair sv latest) (Write latest Ret))
    | Oth n => get_value n (fun lt => Write lt Ret)
    end)).

(** filtering.py:302-332 take_until: the source feeds the safe observer itself
    (326), the other one an observer closing it on an element (321-324, whose
    [aclose] does nothing). *)
Definition take_until_op {A B} : op (either A B) (act A) :=
  direct tt (fun m => match m with
    | Src n => awaitp (Deliver n)
    | Oth (OnNext _) => awaitp (Deliver OnCompleted)
    | Oth (OnError e) => awaitp (Deliver (OnError e))
    | Oth OnCompleted => Ret
    end).

(** Subscribed binary operators: workers with a mailbox (combine.py:236-242),
    or direct observers (filtering.py:321-326), before the auto-detaching safe
    observer. *)
Definition combine_latest_sys {Z0 A B} (pol : policy Z0) (r : pipe Z0 (A * B)) : system Z0 (either A B) :=
  msys pol combine_latest_op (safe r).
(** combine.py:255-333 with_latest_from *)
Definition with_latest_from_sys {Z0 A B} (pol : policy Z0) (r : pipe Z0 (A * B)) : system Z0 (either A B) :=
  msys pol with_latest_from_op (safe r).
(** filtering.py:302-332 take_until *)
Definition take_until_sys {Z0 A B} (pol : policy Z0) (r : pipe Z0 A) : system Z0 (either A B) :=
  ssys pol take_until_op (safe r).

(** __init__.py:85-122 AsyncRx.__getitem__ with an integer key. *)
Definition getitem_ {Z0 A} (is_none : A -> bool) (k : Z) : res (pipe Z0 A -> pipe Z0 A) :=
  slice_ is_none (Some k) (Some (k + 1)%Z) 1.
