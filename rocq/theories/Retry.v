(** * All subscriptions of one retry(n) observable (transform.py:432-449).

    The variable [count] (436) belongs to the observable, not to the
    subscription: every subscription uses and changes the same one. *)
From Verif Require Export Catch.
Set Implicit Arguments.

(** Somebody subscribes (the subscriptions are numbered 0, 1, ...); something
    happens in subscription [i]. *)
Inductive rlabel (A : Type) : Type :=
| RSubscribe
| ROf (i : nat) (l : clabel A).
Arguments RSubscribe {A}.
Arguments ROf {A} i l.

(** transform.py:435-447: the variable count of retry, shared by its subscriptions, and the subscriptions so far. *)
Record rstate (A : Type) : Type := RState { ra_count : Z; ra_subs : list (cstate Z robs A) }.
Arguments RState {A} ra_count ra_subs.
Arguments ra_count {A} _.
Arguments ra_subs {A} _.

Section Retry.
  Context {A : Type}.

  (** The state of one subscription with the shared [count] put in. *)
  Definition with_count (c : Z) (s : cstate Z robs A) : cstate Z robs A :=
    CState (c_var s) (c_next s) (c_born s) (c_acts s) c (c_ret s) (c_used s) (c_log s).

  (** Not in the code: list update. *)
  Fixpoint rput (i : nat) (u : cstate Z robs A) (l : list (cstate Z robs A)) : list (cstate Z robs A) :=
    match l, i with
    | [], _ => []
    | _ :: r, O => u :: r
    | v :: r, S j => v :: rput j u r
    end.

  (** transform.py:432-436: retry(n) applied to a source. *)
  Definition ra_init (n : Z) : rstate A := RState n [].

  (** transform.py:401-427, 438-445: a step of one subscription, which reads and writes the shared count. *)
  Definition rastep (s : rstate A) (x : rlabel A) : option (rstate A) :=
    match x with
    | RSubscribe => Some (RState (ra_count s) (ra_subs s ++ [c_init ROrig (ra_count s)]))
    | ROf i l =>
        match nth_error (ra_subs s) i with
        | Some u =>
            match catch_step retry_factory (with_count (ra_count s) u) l with
            | Some u' => Some (RState (c_h u') (rput i u' (ra_subs s)))
            | None => None
            end
        | None => None
        end
    end.

  (** Not in the code: the states that histories lead to. *)
  Inductive rareach (n : Z) : list (rlabel A) -> rstate A -> Prop :=
  | ra_nil : rareach n [] (ra_init n)
  | ra_snoc h x s s' : rareach n h s -> rastep s x = Some s' -> rareach n (h ++ [x]) s'.

  (** Not in the code: runs a history. *)
  Fixpoint raruns (s : rstate A) (h : list (rlabel A)) : option (rstate A) :=
    match h with
    | [] => Some s
    | x :: r => match rastep s x with Some s' => raruns s' r | None => None end
    end.

  (** ** Vocabulary *)
  (** How often the source itself has been subscribed to, by all together. *)
  Definition attempts (s : rstate A) : nat :=
    list_sum (map (fun u => length (filter (fun o => match o with ROrig => true | RFail _ => false end)
                                           (subscribed (c_log u)))) (ra_subs s)).
  (** Number of subscriptions to the retried observable. *)
  Definition subscribers (h : list (rlabel A)) : nat :=
    length (filter (fun x => match x with RSubscribe => true | ROf _ _ => false end) h).
  (** The errors of the sources, of all subscriptions. *)
  Definition all_errors (h : list (rlabel A)) : list exn :=
    flat_map (fun x => match x with ROf _ (CCall _ (OnError e)) => [e] | _ => [] end) h.
End Retry.
