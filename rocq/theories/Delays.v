(** * Chains of delays: source.delay(d1).map(f).delay(d2). ... on one clock.

    Each delay has its worker and its mailbox (timeshift.py:33-100, Time.v).  What the
    worker of one calls is, through the functions between them, posted to the next one. *)
From Verif Require Export TimeSpec.
Set Implicit Arguments.

Section Delays.
  Context {A : Type}.

  (** A delay by [snd l] seconds, with the functions in front of it: [fst l a] is what map, filter, choose or several of
      them make of the element [a], [None] if they drop it.  Simplification: they do not raise and do not change the type. *)
  Definition link : Type := ((A -> option A) * Z)%type.

  (** transform.py:61-105, filtering.py:44-84: a call goes through the functions. *)
  Definition sift (f : A -> option A) (n : notif A) : option (notif A) :=
    match n with
    | OnNext a => match f a with Some b => Some (OnNext b) | None => None end
    | OnError e => Some (OnError e)
    | OnCompleted => Some OnCompleted
    end.

  (** timeshift.py:86-88 [fn]: the notification is posted with its due time; this does not suspend. *)
  Definition post (d : Z) (n : notif A) (x : xstate A) : xstate A :=
    XState (x_now x) (x_box x ++ [(n, (x_now x + d)%Z)]) (x_phase x) (x_cancelled x) (x_log x) (x_ends x).

  (** The call [n] of what is in front of the first of the delays. *)
  Definition feed (ls : list link) (xs : list (xstate A)) (n : notif A) : list (xstate A) :=
    match ls, xs with
    | (f, d) :: _, x :: r => match sift f n with Some m => post d m x :: r | None => x :: r end
    | _, _ => xs
    end.

  (** timeshift.py:79-80: the call of the next delay returns at once, and the worker goes on to its next turn. *)
  Definition goes_on (x : xstate A) : xstate A :=
    XState (x_now x) (x_box x) XIdle (x_cancelled x) (x_log x) (x_ends x ++ [x_now x]).

  (** timeshift.py:54-80: the worker of the [i]-th delay makes a step.  If it calls its observer and that is another delay's, that
      one's function posts it. *)
  Fixpoint work (i : nat) (ls : list link) (xs : list (xstate A)) : option (list (xstate A)) :=
    match i, ls, xs with
    | 0, _ :: ls', x :: xs' =>
        match xwork x with
        | None => None
        | Some x' =>
            match x_phase x', ls' with
            | XCall n, _ :: _ => Some (goes_on x' :: feed ls' xs' n)
            | _, _ => Some (x' :: xs')
            end
        end
    | S i, _ :: ls', x :: xs' => match work i ls' xs' with Some r => Some (x :: r) | None => None end
    | _, _, _ => None
    end.

  (** timeshift.py:79: what the subscriber does in its call from the last worker. *)
  Fixpoint at_last (ls : list link) (xs : list (xstate A)) (l : xlabel A) : option (list (xstate A)) :=
    match ls, xs with
    | [(_, d)], [x] => match xstep d x l with Some x' => Some [x'] | None => None end
    | _ :: ls', x :: xs' => match at_last ls' xs' l with Some r => Some (x :: r) | None => None end
    | _, _ => None
    end.

  (** What can happen: time passes; the source calls; the [i]-th worker makes a step; the subscriber's call returns or raises; the subscription is disposed. *)
  Inductive dlabel : Type :=
  | DTick (dt : Z)
  | DArr (n : notif A)
  | DWork (i : nat)
  | DReturn
  | DRaise (e : exn)
  | DCancel.

  (** Time.v: the clock of all of them goes on. *)
  Definition ticks_on (dt : Z) (x : xstate A) : xstate A :=
    XState (x_now x + dt) (x_box x) (x_phase x) (x_cancelled x) (x_log x) (x_ends x).
  (** timeshift.py:93-96 [cancel]: the token is cancelled, then the source's subscription is disposed, and so on up the chain. *)
  Definition cancels (x : xstate A) : xstate A :=
    XState (x_now x) (x_box x) (x_phase x) true (x_log x) (x_ends x).

  (** timeshift.py:33-100, several times: one step. *)
  Definition dstep (ls : list link) (xs : list (xstate A)) (l : dlabel) : option (list (xstate A)) :=
    match l with
    | DTick dt => if (0 <? dt)%Z then Some (map (ticks_on dt) xs) else None
    | DArr n => Some (feed ls xs n)
    | DWork i => work i ls xs
    | DReturn => at_last ls xs XReturn
    | DRaise e => at_last ls xs (XRaise e)
    | DCancel => Some (map cancels xs)
    end.

  (** Not in the code: the states that histories lead to in which every step is [ok]. *)
  Inductive dreach (ok : list (xstate A) -> dlabel -> Prop) (ls : list link) (t0 : Z) : list dlabel -> list (xstate A) -> Prop :=
  | dl_nil : dreach ok ls t0 [] (map (fun _ => x_init t0) ls)
  | dl_snoc h xs l xs' : dreach ok ls t0 h xs -> ok xs l -> dstep ls xs l = Some xs' -> dreach ok ls t0 (h ++ [l]) xs'.

  (** ** Specification *)

  (** The source's calls with their times, in a history that starts at time [t]. *)
  Fixpoint calls_at (t : Z) (h : list dlabel) : list (notif A * Z) :=
    match h with
    | [] => []
    | DTick dt :: r => calls_at (t + dt) r
    | DArr n :: r => (n, t) :: calls_at t r
    | _ :: r => calls_at t r
    end.

  (** The calls of the subscriber with their times. *)
  Fixpoint told_at (xs : list (xstate A)) : list (notif A * Z) :=
    match xs with
    | [] => []
    | [x] => x_log x
    | _ :: r => told_at r
    end.

  (** What all the functions together make of the calls, whenever they are made. *)
  Definition sifted (f : A -> option A) (l : list (notif A * Z)) : list (notif A * Z) :=
    flat_map (fun c => match fst c with
                       | OnNext a => match f a with Some b => [(OnNext b, snd c)] | None => [] end
                       | n => [(n, snd c)]
                       end) l.
  (** Not in the code: the same for a whole chain. *)
  Definition through (ls : list link) (l : list (notif A * Z)) : list (notif A * Z) :=
    fold_left (fun l k => sifted (fst k) l) ls l.

  (** The sum of the delays; a negative one counts as 0. *)
  Definition total (ls : list link) : Z := fold_right (fun k s => (Z.max 0 (snd k) + s)%Z) 0%Z ls.

  (** [c] later. *)
  Definition later (c : Z) (l : list (notif A * Z)) : list (notif A * Z) := map (fun a => (fst a, (snd a + c)%Z)) l.

  (** Anything may happen. *)
  Definition any_time (xs : list (xstate A)) (l : dlabel) : Prop := True.
  (** Time does not pass while a worker can go on or the subscriber is in a call, and no sleep is overslept. *)
  Definition prompt (xs : list (xstate A)) (l : dlabel) : Prop :=
    match l with
    | DTick dt => Forall (fun x => xwork x = None /\
                    match x_phase x with XSleep _ u => (x_now x + dt <= u)%Z | XCall _ => False | _ => True end) xs
    | _ => True
    end.

  (** Every worker waits for something to be posted. *)
  Definition all_waiting (xs : list (xstate A)) : Prop := Forall (fun x => x_phase x = XIdle /\ xwork x = None) xs.
End Delays.
Arguments dlabel : clear implicits.
Arguments link : clear implicits.
