(** * catch and retry (transform.py:384-449).

    There is no worker: every call of [action] (404-421) is a coroutine of its
    own, run by the caller of [athrow] (or, the first one, by the subscriber).
    It can be suspended in [disposable.dispose_async()] and in
    [source.subscribe_async(_obv)]; several can be under way at once. *)
From Verif Require Export MergeSpec.
Set Implicit Arguments.

(** Where a call of action is: awaiting [disposable.dispose_async()] (419), to
    subscribe to [o] next; awaiting subscribe_async (420), subscription [k]. *)
Inductive aphase (O : Type) : Type :=
| ADisp (o : O)
| ASub (k : nat).
Arguments ADisp {O} o.
Arguments ASub {O} k.

(** What can happen: subscription [k] calls its observer; the call [i] of
    action continues after its await, or the awaited call raises; the user
    calls dispose_async of the disposable returned by subscribe_async. *)
Inductive clabel (A : Type) : Type :=
| CCall (k : nat) (n : notif A)
| CAct (i : nat)
| CActFail (i : nat) (e : exn)
| CUser.
Arguments CCall {A} k n.
Arguments CAct {A} i.
Arguments CActFail {A} i e.
Arguments CUser {A}.

(** [c_var]: the variable [disposable] (402), as the number of the
    subscription it stands for, [None] for AsyncDisposable.empty();
    [c_next]: number of subscriptions begun; [c_born]: number of calls of
    action so far; [c_acts]: those under way; [c_h]: the state of the handler;
    [c_ret]: the subscription bound in the returned disposable (425), once
    subscribe_async has returned; [c_used]: the user has disposed it. *)
Record cstate (H O A : Type) : Type := CState {
  c_var : option nat;
  c_next : nat;
  c_born : nat;
  c_acts : list (nat * aphase O);
  c_h : H;
  c_ret : option nat;
  c_used : bool;
  c_log : list (effect O A)
}.
Arguments CState {H O A} _ _ _ _ _ _ _ _.

Section Catch.
  Context {H O A : Type}.
  (** transform.py:385 [handler]: a Python function with a state of its own. *)
  Variable hd : H -> exn -> res O * H.
  Variable src : O.

  (** transform.py:401-423: [await action(source)] has been called; the
      variable is AsyncDisposable.empty(), whose disposal does nothing. *)
  Definition c_init (h0 : H) : cstate H O A := CState None 0 1 [(0, ADisp src)] h0 None false [].

  (** Not in the code: records an effect. *)
  Definition cemit (x : effect O A) (s : cstate H O A) : cstate H O A :=
    CState (c_var s) (c_next s) (c_born s) (c_acts s) (c_h s) (c_ret s) (c_used s) (c_log s ++ [x]).

  (** Not in the code: list lookup. *)
  Definition lookup (i : nat) (l : list (nat * aphase O)) : option (aphase O) :=
    match find (fun x => fst x =? i) l with Some x => Some (snd x) | None => None end.
  (** Not in the code: list removal. *)
  Definition drop (i : nat) (l : list (nat * aphase O)) : list (nat * aphase O) :=
    filter (fun x => negb (fst x =? i)) l.
  (** Not in the code: list update. *)
  Definition put (i : nat) (p : aphase O) (l : list (nat * aphase O)) : list (nat * aphase O) :=
    map (fun x => if fst x =? i then (i, p) else x) l.

  (** Not in the code: a source can call only once its subscribe_async was called. *)
  Definition cbegun (k : nat) (s : cstate H O A) : bool := k <? c_next s.

  (** transform.py:410-412 athrow and 419 up to the suspension in dispose_async. *)
  Definition failover (e : exn) (s : cstate H O A) : cstate H O A :=
    let '(r, h') := hd (c_h s) e in
    match r with
    | Err _ =>                                  (* the handler raised: into the caller *)
        CState (c_var s) (c_next s) (c_born s) (c_acts s) h' (c_ret s) (c_used s) (c_log s)
    | Ok o =>
        CState (c_var s) (c_next s) (S (c_born s)) (c_acts s ++ [(c_born s, ADisp o)]) h' (c_ret s) (c_used s)
               (c_log s ++ match c_var s with Some v => [EDispose v] | None => [] end)
    end.

  (** transform.py:384-429: one step of a subscription. *)
  Definition catch_step (s : cstate H O A) (l : clabel A) : option (cstate H O A) :=
    match l with
    | CCall k n =>
        if cbegun k s then
          Some match n with
               | OnNext _ | OnCompleted => cemit (EReq n) s          (* 407-408, 414-415 *)
               | OnError e => failover e s
               end
        else None
    | CAct i =>
        match lookup i (c_acts s) with
        | Some (ADisp o) =>                                          (* 420 *)
            Some (CState (c_var s) (S (c_next s)) (c_born s) (put i (ASub (c_next s)) (c_acts s)) (c_h s)
                         (c_ret s) (c_used s) (c_log s ++ [ESub (c_next s) o]))
        | Some (ASub k) =>                                           (* 421; 423-425 for the first call *)
            Some (CState (Some k) (c_next s) (c_born s) (drop i (c_acts s)) (c_h s)
                         (if i =? 0 then Some k else c_ret s) (c_used s) (c_log s))
        | None => None
        end
    | CActFail i _ =>
        match lookup i (c_acts s) with
        | Some _ => Some (CState (c_var s) (c_next s) (c_born s) (drop i (c_acts s)) (c_h s) (c_ret s) (c_used s) (c_log s))
        | None => None
        end
    | CUser =>                                                       (* 425 *)
        match c_ret s with
        | Some r =>
            Some (if c_used s then s
                  else CState (c_var s) (c_next s) (c_born s) (c_acts s) (c_h s) (c_ret s) true (c_log s ++ [EDispose r]))
        | None => None
        end
    end.

  (** Not in the code: the states that histories lead to. *)
  Inductive creach (h0 : H) : list (clabel A) -> cstate H O A -> Prop :=
  | cr_nil : creach h0 [] (c_init h0)
  | cr_snoc h s l s' : creach h0 h s -> catch_step s l = Some s' -> creach h0 (h ++ [l]) s'.

  (** Nothing under way. *)
  Definition csettled (s : cstate H O A) : Prop := c_acts s = [].
End Catch.

(** ** retry (transform.py:432-449)

    Observables as far as retry tells them apart: the source, and fail(e). *)
Inductive robs : Type :=
| ROrig
| RFail (e : exn).

(** transform.py:438-445 factory; the state is the variable [count]. *)
Definition retry_factory (count : Z) (e : exn) : res robs * Z :=
  if (count =? 0)%Z then (Ok (RFail e), count) else (Ok ROrig, (count - count)%Z).

(** * Vocabulary for C32-C34. *)
Section Spec.
  Context {H O A : Type}.
  (** Calls made by subscription [k], and by all with their numbers. *)
  Definition ccalls (h : list (clabel A)) : list (nat * notif A) :=
    flat_map (fun l => match l with CCall k n => [(k, n)] | _ => [] end) h.
  (** Not in the code: the calls source [k] makes in a history. *)
  Definition calls_of (k : nat) (h : list (clabel A)) : list (notif A) :=
    map snd (filter (fun x => fst x =? k) (ccalls h)).
  (** Not in the code: the errors thrown in a history. *)
  Definition errors (h : list (clabel A)) : list exn :=
    flat_map (fun x => match snd x with OnError e => [e] | _ => [] end) (ccalls h).
  (** Not in the code: not an error. *)
  Definition not_error (n : notif A) : bool := match n with OnError _ => false | _ => true end.

  (** What the handler answers to the successive errors (where it does not raise). *)
  Fixpoint answers (hd : H -> exn -> res O * H) (h0 : H) (es : list exn) : list O :=
    match es with
    | [] => []
    | e :: r => let '(a, h1) := hd h0 e in
                match a with Ok o => o :: answers hd h1 r | Err _ => answers hd h1 r end
    end.

  (** Every subscription: elements, then at most one terminal call. *)
  Definition sources_grammatical (h : list (clabel A)) : Prop := forall k, grammatical (calls_of k h).
  (** Not in the code: no awaited call raises in the history. *)
  Definition no_failures (h : list (clabel A)) : Prop := forall i e, ~ In (CActFail i e) h.

  (** Sources handed to [action] and not subscribed yet. *)
  Definition upcoming (s : cstate H O A) : list O :=
    flat_map (fun x => match snd x with ADisp o => [o] | ASub _ => [] end) (c_acts s).
End Spec.
Arguments upcoming : simpl never.

(** Errors occur only when no call of action is under way (in particular not
    while the failing source is still being subscribed). *)
Definition late_errors {H O A} (hd : H -> exn -> res O * H) (src : O) (h0 : H) (h : list (clabel A)) : Prop :=
  forall h1 k e h2 s1, h = h1 ++ CCall k (OnError e) :: h2 -> creach hd src h0 h1 s1 -> csettled s1.
