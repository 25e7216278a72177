(** * Subscribing to and disposing of a pipeline.

    What subscribe_async of an operator does to its sources, and what the
    disposable it returns does.  The notifications are left out here (they are
    the subject of the other files): subscribing and disposing are taken one
    after the other, with the sources and their disposables allowed to raise. *)
From Verif Require Export Base.
Set Implicit Arguments.

(** Observables, by what subscribe_async does:
    - [Src i]: the source number [i];
    - [Pass o]: subscribes to [o] and returns its disposable: all operators made
      by transform (transform.py:48-54), scan (457-482), skip, skip_last, take,
      take_last, distinct_until_changed (filtering.py:168, 202, 228, 257, 295;
      auto_detach, observers.py:241-244, returns the disposable it was given),
      zip_seq (combine.py:361-365), defer (create.py:191-197),
      as_async_observable and AsyncRx (__init__.py:62-83);
    - [Both a b]: combine_latest and with_latest_from (combine.py:246-249,
      329-331): subscribes to [a], then to [b], and returns the composite;
    - [Until a b]: take_until (filtering.py:325-328): subscribes to [b] first;
    - [Once x o]: returns AsyncDisposable.create: catch, before the first error
      ([Nothing]; transform.py:419-425; see Catch.v), or an operator
      that does something of its own when it is disposed, number [w]: before
      it disposes its source (delay, timeshift.py:91-98) or after it
      (merge_inner, combine.py:147-153; switch_latest, transform.py:332-342;
      debounce, timeshift.py:153-159).
    The subscriptions to inner observables are those of Merge.v and Switch.v. *)
Inductive own : Type :=
| Nothing
| First (w : nat)
| Last (w : nat).

(** An observable by what it does when subscribed to and disposed of; each constructor names the operators it stands for. *)
Inductive obs : Type :=
| Src (i : nat)
| Pass (o : obs)
| Both (a b : obs)
| Until (a b : obs)
| Once (x : own) (o : obs).

(** What is seen from the outside: source [i] is subscribed to (also if that
    raises); its subscription is disposed (also if that raises); the operator
    number [w] is told to stop. *)
Inductive event : Type :=
| ESub (i : nat)
| EDisp (i : nat)
| EStop (w : nat).

(** Disposables: of a source; AsyncDisposable.composite; AsyncDisposable.create,
    with the flag whether it was disposed. *)
Inductive disp : Type :=
| DSrc (i : nat)
| DAll (a b : disp)
| DOnce (used : bool) (x : own) (d : disp).

Section Tree.
  (** Whether source [i] raises when it is subscribed to. *)
  Variable sub_raises : nat -> option exn.

  (** subscribe_async of each operator; the lines are named in [obs] above. *)
  Fixpoint subscribe (o : obs) : list event * res disp :=
    match o with
    | Src i => ([ESub i], match sub_raises i with Some e => Err e | None => Ok (DSrc i) end)
    | Pass o => subscribe o
    | Both a b =>
        let '(l1, r1) := subscribe a in
        match r1 with
        | Err e => (l1, Err e)
        | Ok d1 =>
            let '(l2, r2) := subscribe b in
            (l1 ++ l2, match r2 with Err e => Err e | Ok d2 => Ok (DAll d1 d2) end)
        end
    | Until a b =>
        let '(l2, r2) := subscribe b in
        match r2 with
        | Err e => (l2, Err e)
        | Ok d2 =>
            let '(l1, r1) := subscribe a in
            (l2 ++ l1, match r1 with Err e => Err e | Ok d1 => Ok (DAll d1 d2) end)
        end
    | Once x o =>
        let '(l, r) := subscribe o in
        (l, match r with Err e => Err e | Ok d => Ok (DOnce false x d) end)
    end.

  (** Whether the disposable of source [i] raises. *)
  Variable disp_raises : nat -> option exn.

  (** dispose_async: what it does, what it raises, the disposable afterwards. *)
  Fixpoint dispose (d : disp) : list event * option exn * disp :=
    match d with
    | DSrc i => ([EDisp i], disp_raises i, DSrc i)
    | DAll a b =>
        let '(l1, e1, a') := dispose a in
        match e1 with
        | Some e => (l1, Some e, DAll a' b)
        | None => let '(l2, e2, b') := dispose b in (l1 ++ l2, e2, DAll a' b')
        end
    | DOnce true x d => ([], None, DOnce true x d)
    | DOnce false x d =>
        let '(l, e, d') := dispose d in
        (match x with First w => [EStop w] | _ => [] end ++ l ++
         match x, e with Last w, None => [EStop w] | _, _ => [] end,
         e, DOnce true x d')
    end.

  (** [n] times in succession. *)
  Fixpoint dispose_times (n : nat) (d : disp) : list event * disp :=
    match n with
    | 0 => ([], d)
    | S n => let '(l1, _, d1) := dispose d in let '(l2, d2) := dispose_times n d1 in (l1 ++ l2, d2)
    end.
End Tree.

(** ** Specification *)
(** The sources of a pipeline, in the order in which they are subscribed to. *)
Fixpoint sources (o : obs) : list nat :=
  match o with
  | Src i => [i]
  | Pass o | Once _ o => sources o
  | Both a b => sources a ++ sources b
  | Until a b => sources b ++ sources a
  end.
(** The same from left to right. *)
Fixpoint written (o : obs) : list nat :=
  match o with
  | Src i => [i]
  | Pass o | Once _ o => written o
  | Both a b | Until a b => written a ++ written b
  end.
(** Those without an operator with a disposable of its own around them. *)
Fixpoint unguarded (o : obs) : list nat :=
  match o with
  | Src i => [i]
  | Pass o => unguarded o
  | Once _ o => []
  | Both a b | Until a b => unguarded a ++ unguarded b
  end.
(** The operators that have something to stop. *)
Fixpoint workers (o : obs) : list nat :=
  match o with
  | Src i => []
  | Pass o => workers o
  | Both a b | Until a b => workers a ++ workers b
  | Once x o => match x with Nothing => [] | First w | Last w => [w] end ++ workers o
  end.

(** Not in the code: the sources subscribed to, in order. *)
Definition subscribed (l : list event) : list nat := flat_map (fun x => match x with ESub i => [i] | _ => [] end) l.
(** Not in the code: the sources disposed of, in order. *)
Definition disposed (l : list event) : list nat := flat_map (fun x => match x with EDisp i => [i] | _ => [] end) l.
(** Not in the code: the workers stopped, in order. *)
Definition stopped (l : list event) : list nat := flat_map (fun x => match x with EStop w => [w] | _ => [] end) l.

(** Up to and including the first one that raises, and what it raises. *)
Fixpoint up_to_raise (f : nat -> option exn) (l : list nat) : list nat :=
  match l with
  | [] => []
  | i :: r => i :: match f i with Some _ => [] | None => up_to_raise f r end
  end.
(** Not in the code: the first exception that a disposal in the list raises. *)
Fixpoint raised (f : nat -> option exn) (l : list nat) : option exn :=
  match l with
  | [] => None
  | i :: r => match f i with Some e => Some e | None => raised f r end
  end.
