(** * AsyncMultiSubject / AsyncSubject (aioreactive/subject.py:97-166). *)
From Verif Require Export Base.
Set Implicit Arguments.

(** A call of asend/athrow/aclose: suspended in the coroutine of observer [o]
    with the observers [rest] of its snapshot still to be called, or finished
    (returned, or raised). *)
Inductive ucall (A : Type) : Type :=
| Flying (n : notif A) (o : nat) (rest : list nat)
| Finished (r : option exn).
Arguments Flying {A} n o rest.
Arguments Finished {A} r.

(** subject.py:106-110.  Observers are identified by numbers.  [u_subs]: the
    outcome of each subscribe_async: it raised, or it gave a subscription to
    an observer, disposed already or not (AsyncDisposable.create runs its
    action once).  [u_log]: all calls of observers: by which call of the
    subject, which observer, with what. *)
Record ustate (A : Type) : Type := UState {
  u_obs : list nat;
  u_subs : list (option (nat * bool));
  u_stopped : bool;
  u_disposed : bool;
  u_calls : list (ucall A);
  u_log : list (nat * nat * notif A)
}.
Arguments UState {A} u_obs u_subs u_stopped u_disposed u_calls u_log.
Arguments u_obs {A} u.
Arguments u_subs {A} u.
Arguments u_stopped {A} u.
Arguments u_disposed {A} u.
Arguments u_calls {A} u.
Arguments u_log {A} u.

(** subject.py:106-110: a new subject. *)
Definition u_init {A} : ustate A := UState [] [] false false [] [].

(** What happens: somebody calls the subject; the observer that call number
    [c] is waiting for returns, or raises; somebody subscribes observer [o];
    subscription number [k] is disposed; the subject is disposed. *)
Inductive ulabel (A : Type) : Type :=
| UCall (n : notif A)
| URet (c : nat)
| UExn (c : nat) (e : exn)
| USub (o : nat)
| UUnsub (k : nat)
| UDispose.
Arguments UCall {A} n.
Arguments URet {A} c.
Arguments UExn {A} c e.
Arguments USub {A} o.
Arguments UUnsub {A} k.
Arguments UDispose {A}.

(** Not in the code: list update. *)
Fixpoint upd {X} (i : nat) (x : X) (l : list X) : list X :=
  match l, i with
  | [], _ => []
  | _ :: r, 0 => x :: r
  | y :: r, S i => y :: upd i x r
  end.

(** list.remove: the first occurrence. *)
Fixpoint remove_first (o : nat) (l : list nat) : list nat :=
  match l with
  | [] => []
  | x :: r => if x =? o then r else x :: remove_first o r
  end.

(** The loop "for obv in list(self._observers)" (122-123, 132-133, 142-143), from
    its next iteration, of call number [c]. *)
Definition uloop {A} (c : nat) (n : notif A) (l : list nat) : ucall A * list (nat * nat * notif A) :=
  match l with
  | [] => (Finished None, [])
  | o :: r => (Flying n o r, [(c, o, n)])
  end.

(** subject.py:97-170 AsyncMultiSubject: one step. *)
Definition ustep {A} (s : ustate A) (x : ulabel A) : option (ustate A) :=
  match x with
  | UCall n =>                                              (* asend 116-123, athrow 125-133, aclose 135-143 *)
      let c := length (u_calls s) in
      if u_disposed s then
        Some (UState (u_obs s) (u_subs s) (u_stopped s) (u_disposed s) (u_calls s ++ [Finished (Some ObjectDisposed)]) (u_log s))
      else if u_stopped s then
        Some (UState (u_obs s) (u_subs s) (u_stopped s) (u_disposed s) (u_calls s ++ [Finished None]) (u_log s))
      else
        let (p, l) := uloop c n (u_obs s) in
        Some (UState (u_obs s) (u_subs s) (match n with OnNext _ => false | _ => true end) (u_disposed s)
                     (u_calls s ++ [p]) (u_log s ++ l))
  | URet c =>
      match nth_error (u_calls s) c with
      | Some (Flying n o rest) =>
          let (p, l) := uloop c n rest in
          Some (UState (u_obs s) (u_subs s) (u_stopped s) (u_disposed s) (upd c p (u_calls s)) (u_log s ++ l))
      | _ => None
      end
  | UExn c e =>
      match nth_error (u_calls s) c with
      | Some (Flying n o rest) =>
          Some (UState (u_obs s) (u_subs s) (u_stopped s) (u_disposed s) (upd c (Finished (Some e)) (u_calls s)) (u_log s))
      | _ => None
      end
  | USub o =>                                               (* 145-163 *)
      if u_disposed s then
        Some (UState (u_obs s) (u_subs s ++ [None]) (u_stopped s) (u_disposed s) (u_calls s) (u_log s))
      else
        Some (UState (u_obs s ++ [o]) (u_subs s ++ [Some (o, true)]) (u_stopped s) (u_disposed s) (u_calls s) (u_log s))
  | UUnsub k =>                                             (* 158-161 *)
      match nth_error (u_subs s) k with
      | Some (Some (o, true)) =>
          Some (UState (remove_first o (u_obs s)) (upd k (Some (o, false)) (u_subs s)) (u_stopped s) (u_disposed s) (u_calls s) (u_log s))
      | Some (Some (o, false)) => Some s
      | _ => None
      end
  | UDispose =>                                             (* 165-166 *)
      Some (UState (u_obs s) (u_subs s) (u_stopped s) true (u_calls s) (u_log s))
  end.

(** Not in the code: the states that histories lead to. *)
Inductive ureach {A} : list (ulabel A) -> ustate A -> Prop :=
| ur_nil : ureach [] u_init
| ur_snoc h x s s' : ureach h s -> ustep s x = Some s' -> ureach (h ++ [x]) s'.

(** ** Specification, in terms of the history only *)

(** The subscriptions in force after [h], oldest first: number and observer. *)
Definition sub_step {A} (st : nat * bool * list (nat * nat)) (x : ulabel A) : nat * bool * list (nat * nat) :=
  let '(k, off, l) := st in
  match x with
  | USub o => (S k, off, if off then l else l ++ [(k, o)])
  | UUnsub j => (k, off, filter (fun p => negb (fst p =? j)) l)
  | UDispose => (k, true, l)
  | _ => st
  end.
(** Not in the code: the subscriptions in force after a history. *)
Definition in_force {A} (h : list (ulabel A)) : list (nat * nat) := snd (fold_left sub_step h (0, false, [])).
(** Not in the code: their observers. *)
Definition members {A} (h : list (ulabel A)) : list nat := map snd (in_force h).

(** All observers that ever subscribed. *)
Definition subscribers {A} (h : list (ulabel A)) : list nat :=
  flat_map (fun x => match x with USub o => [o] | _ => [] end) h.

(** Disposed; terminated by an athrow or aclose that was not refused. *)
Definition u_off {A} (h : list (ulabel A)) : bool := existsb (fun x => match x with UDispose => true | _ => false end) h.
(** Not in the code: whether a terminal was called in a history. *)
Fixpoint u_ended {A} (h : list (ulabel A)) : bool :=
  match h with
  | [] => false
  | UDispose :: _ => false
  | UCall n :: r => is_term n || u_ended r
  | _ :: r => u_ended r
  end.

(** Number of calls of the subject in [h]. *)
Definition ncalls {A} (h : list (ulabel A)) : nat :=
  length (filter (fun x => match x with UCall _ => true | _ => false end) h).

(** The observers called by call number [c], in order; what observer [o] got. *)
Definition reached {A} (c : nat) (s : ustate A) : list nat :=
  map (fun e => snd (fst e)) (filter (fun e => fst (fst e) =? c) (u_log s)).
(** Not in the code: the calls observer [o] received. *)
Definition received {A} (o : nat) (s : ustate A) : list (notif A) :=
  map snd (filter (fun e => snd (fst e) =? o) (u_log s)).

(** Everything sent while [o] was subscribed (once per subscription), up to
    the termination or disposal of the subject. *)
Definition heard {A} (o : nat) (h : list (ulabel A)) : list (notif A) :=
  flat_map (fun i =>
    match nth_error h i with
    | Some (UCall n) =>
        let past := firstn i h in
        if u_off past || u_ended past then [] else repeat n (count_occ Nat.eq_dec (members past) o)
    | _ => []
    end) (seq 0 (length h)).

(** No call is under way. *)
Definition u_idle {A} (s : ustate A) : Prop := forall c, exists r, nth_error (u_calls s) c = Some (Finished r) \/ nth_error (u_calls s) c = None.

(** Every call of the subject is awaited before the next one is made
    (subscriptions may come and go at any time), and no observer raises. *)
Definition awaited {A} (h : list (ulabel A)) : Prop :=
  (forall c e, ~ In (UExn c e) h) /\
  forall h1 x h2 s1, h = h1 ++ x :: h2 -> ureach h1 s1 ->
    match x with UCall _ => u_idle s1 | _ => True end.
