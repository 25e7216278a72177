(** * debounce (timeshift.py:103-163): the worker, its mailbox, the timers.

    Time as in Time.v.  The worker's only await that suspends is
    [inbox.receive()] (116): the methods of [safe_obv] post to a mailbox. *)
From Verif Require Export Spec Ops.
Set Implicit Arguments.
Local Open Scope Z_scope.

(** What can happen: time passes, the source calls, the sleep of the task
    started for call number [i] ends (145-148), the worker takes a message,
    the user disposes (155-157; the disposal of the source is not shown). *)
Inductive dlabel (A : Type) : Type :=
| DTick (dt : Z)
| DArr (n : notif A)
| DTimer (i : nat)
| DWork
| DCancel.
Arguments DTick {A} dt.
Arguments DArr {A} n.
Arguments DTimer {A} i.
Arguments DWork {A}.
Arguments DCancel {A}.

(** [d_box]: messages (notification, index); [d_cur]: current_index;
    [d_next]: what [next(indexer)] returns next; [d_timers]: sleeping tasks
    with the time until which they sleep; [d_log]: calls of [safe_obv], with
    the index of the message and the time. *)
Record dstate (A : Type) : Type := DState {
  d_now : Z;
  d_box : list (notif A * nat);
  d_cur : Z;
  d_next : nat;
  d_timers : list (notif A * nat * Z);
  d_log : list (notif A * nat * Z)
}.
Arguments DState {A} _ _ _ _ _ _.

(** 135 message_loop(-1); 139 a fresh iterator 0, 1, 2, ... *)
Definition d_init {A} (t0 : Z) : dstate A := DState t0 [] (-1) 0 [] [].

Section Debounce.
  Context {A : Type}.
  (** timeshift.py:104 [seconds] *)
  Variable d : Z.

  (** 116-133: what is sent, and the next current_index *)
  Definition dmsg (cur : Z) (m : notif A * nat) : list (notif A) * Z :=
    match fst m with
    | OnNext x =>
        if Z.of_nat (snd m) =? cur then ([OnNext x], Z.of_nat (snd m))     (* 121-123 *)
        else if cur <? Z.of_nat (snd m) then ([], Z.of_nat (snd m))        (* 124-125 *)
        else ([], cur)
    | OnError e => ([OnError e], cur)                                      (* 127-128 *)
    | OnCompleted => ([OnCompleted], cur)                                  (* 130-131 *)
    end.

  (** timeshift.py:111-135: one step of the worker of debounce. *)
  Definition dwork (s : dstate A) : option (dstate A) :=
    match d_box s with
    | [] => None
    | m :: r =>
        let '(out, cur') := dmsg (d_cur s) m in
        Some (DState (d_now s) r cur' (d_next s) (d_timers s)
                     (d_log s ++ map (fun n => (n, snd m, d_now s)) out))
    end.

  (** timeshift.py:145-150: what timer task [i] holds. *)
  Definition dtimer (i : nat) (s : dstate A) : option (notif A * Z) :=
    match find (fun x => snd (fst x) =? i)%nat (d_timers s) with
    | Some (n, _, u) => Some (n, u)
    | None => None
    end.
  (** timeshift.py:145-150: timer task [i] is over. *)
  Definition drop_timer (i : nat) (l : list (notif A * nat * Z)) : list (notif A * nat * Z) :=
    filter (fun x => negb (snd (fst x) =? i)%nat) l.

  (** timeshift.py:103-163 debounce: one step of a subscription. *)
  Definition dstep (s : dstate A) (l : dlabel A) : option (dstate A) :=
    match l with
    | DTick dt =>
        if 0 <? dt then Some (DState (d_now s + dt) (d_box s) (d_cur s) (d_next s) (d_timers s) (d_log s)) else None
    | DArr n =>                                                            (* 141-150 *)
        Some (DState (d_now s) (d_box s ++ [(n, d_next s)]) (d_cur s) (S (d_next s))
                     (d_timers s ++ [(n, d_next s, d_now s + Z.max 0 d)]) (d_log s))
    | DTimer i =>                                                          (* 147-148 *)
        match dtimer i s with
        | Some (n, u) =>
            if u <=? d_now s then
              Some (DState (d_now s) (d_box s ++ [(n, i)]) (d_cur s) (d_next s) (drop_timer i (d_timers s)) (d_log s))
            else None
        | None => None
        end
    | DWork => dwork s
    | DCancel =>                                                           (* 157 *)
        Some (DState (d_now s) (d_box s ++ [(OnCompleted, 0%nat)]) (d_cur s) (d_next s) (d_timers s) (d_log s))
    end.

  (** Not in the code: the states that histories lead to. *)
  Inductive dreach (t0 : Z) : list (dlabel A) -> dstate A -> Prop :=
  | dr_nil : dreach t0 [] (d_init t0)
  | dr_snoc h s l s' : dreach t0 h s -> dstep s l = Some s' -> dreach t0 (h ++ [l]) s'.
End Debounce.

(** ** sample (timeshift.py:166-182)

    For seconds > 0 (172-178): with_latest_from(interval(seconds, seconds)),
    then map(fst).  [Src]: calls of the source, [Oth]: calls of the interval.
    (For seconds <= 0 sample returns the source itself, 180.) *)
Definition sample_sys {Z0 A} (pol : policy Z0) (r : pipe Z0 A) : system Z0 (either A nat) :=
  with_latest_from_sys pol (map_ (fun ab => Ok (fst ab)) r).

(** * Vocabulary for C36. *)
Definition is_terminal {A} (n : notif A) : bool := match n with OnNext _ => false | _ => true end.
Section Spec.
  Context {A : Type}.
  (** The source's calls with their times, in a history starting at [t]. *)
  Fixpoint darrivals (t : Z) (h : list (dlabel A)) : list (notif A * Z) :=
    match h with
    | [] => []
    | DTick dt :: r => darrivals (t + dt) r
    | DArr n :: r => (n, t) :: darrivals t r
    | _ :: r => darrivals t r
    end.
  (** Number of the last element among the calls. *)
  Fixpoint last_element (l : list (notif A)) : option nat :=
    match l with
    | [] => None
    | n :: r => match last_element r with
                | Some i => Some (S i)
                | None => match n with OnNext _ => Some 0%nat | _ => None end
                end
    end.
  (** What happens because of [l], after [past]: a terminal call of the source
      is passed on at once and once more when its time is over; an element is
      passed on when its time is over, if no other has come; disposing asks
      for completion.  With the number of the source's call. *)
  Definition reaction (past : list (notif A)) (l : dlabel A) : list (notif A * nat) :=
    match l with
    | DArr (OnNext _) => []
    | DArr n => [(n, length past)]
    | DTimer i =>
        match nth_error past i with
        | Some (OnNext v) => match last_element past with
                             | Some j => if (j =? i)%nat then [(OnNext v, i)] else []
                             | None => []
                             end
        | Some n => [(n, i)]
        | None => []
        end
    | DCancel => [(OnCompleted, 0%nat)]
    | _ => []
    end.
  (** Not in the code: the elements of a history with their positions. *)
  Fixpoint reactions (past : list (notif A)) (h : list (dlabel A)) : list (notif A * nat) :=
    match h with
    | [] => []
    | l :: r => reaction past l ++ reactions (match l with DArr n => past ++ [n] | _ => past end) r
    end.

  (** No time passes while the worker has a message, and no sleep is overslept. *)
  Definition d_punctual (d t0 : Z) (h : list (dlabel A)) : Prop :=
    forall h1 dt h2 s1, h = h1 ++ DTick dt :: h2 -> dreach d t0 h1 s1 ->
      d_box s1 = [] /\ forall n i u, In (n, i, u) (d_timers s1) -> d_now s1 + dt <= u /\ d_now s1 < u.
End Spec.

(** * Vocabulary for C38: the source's elements after the first tick. *)
Fixpoint after_tick {A} (arr : Spec.arrivals A nat) : list A :=
  match arr with
  | [] => []
  | inl _ :: r => after_tick r
  | inr _ :: r => lefts r
  end.
