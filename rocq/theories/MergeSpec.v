(** * Vocabulary for the properties of merge_inner (C24-C29). *)
From Verif Require Export Merge.
Set Implicit Arguments.

Section Spec.
  Context {O A : Type}.

  (** From the history: the inner observables the outer source sent, its
      calls, the completed subscriptions, the elements sent by subscriptions. *)
  Definition arrived (h : list (mlabel O A)) : list O :=
    flat_map (fun l => match l with LOuter (OnNext o) => [o] | _ => [] end) h.
  (** Not in the code: the calls the outer source makes in a history. *)
  Definition outer_calls (h : list (mlabel O A)) : list (notif O) :=
    flat_map (fun l => match l with LOuter n => [n] | _ => [] end) h.
  (** Not in the code: the keys of the inner sources that complete in a history. *)
  Definition completions (h : list (mlabel O A)) : list nat :=
    flat_map (fun l => match l with LInner k OnCompleted => [k] | _ => [] end) h.
  (** Not in the code: the elements sent by inner sources in a history, with their keys. *)
  Definition sends (h : list (mlabel O A)) : list (nat * A) :=
    flat_map (fun l => match l with LInner k (OnNext a) => [(k, a)] | _ => [] end) h.

  (** The elements and errors produced by the inners, and errors of the outer source. *)
  Definition produced (h : list (mlabel O A)) : list (notif A) :=
    flat_map (fun l => match l with
                       | LInner _ (OnNext a) => [OnNext a]
                       | LInner _ (OnError e) | LOuter (OnError e) => [OnError e]
                       | _ => []
                       end) h.

  (** Disposed by the user, or the outer source failed. *)
  Definition stops (l : mlabel O A) : Prop := l = LCancel \/ exists e, l = LOuter (OnError e).
  (** Not in the code: no awaited call raises in the history. *)
  Definition never_fails (h : list (mlabel O A)) : Prop := forall e, ~ In (LFail e) h.

  (** A subscription makes no calls after its completion. *)
  Definition quiet_after_completion (h : list (mlabel O A)) : Prop :=
    forall h1 k n h2, h = h1 ++ LInner k n :: h2 -> ~ In k (completions h1).

  (** From the effects: observables subscribed (in order), keys of the
      subscriptions, keys disposed, calls requested of the safe observer. *)
  Definition subscribed (l : list (effect O A)) : list O :=
    flat_map (fun x => match x with ESub _ o => [o] | _ => [] end) l.
  (** Not in the code: the keys subscribed to, in order. *)
  Definition keys (l : list (effect O A)) : list nat :=
    flat_map (fun x => match x with ESub k _ => [k] | _ => [] end) l.
  (** Not in the code: the keys disposed of, in order. *)
  Definition disposed (l : list (effect O A)) : list nat :=
    flat_map (fun x => match x with EDispose k => [k] | _ => [] end) l.
  (** Not in the code: the calls made on the observer downstream. *)
  Definition requests (l : list (effect O A)) : list (notif A) :=
    flat_map (fun x => match x with EReq n => [n] | _ => [] end) l.

  (** Subscriptions begun and not completed. *)
  Definition active (h : list (mlabel O A)) (l : list (effect O A)) : list nat :=
    filter (fun k => negb (existsb (Nat.eqb k) (completions h))) (keys l).

  (** Inner observables that arrived and still wait, in the queue or in the mailbox. *)
  Definition waiting (s : mstate O A) : list O :=
    (match m_phase s with WSub _ q => q | _ => m_queue s end) ++
    flat_map (fun m => match m with MInner o => [o] | _ => [] end) (m_box s).
End Spec.
Arguments subscribed : simpl never.
Arguments keys : simpl never.
Arguments disposed : simpl never.
Arguments requests : simpl never.
Arguments remove_key : simpl never.
