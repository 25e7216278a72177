(** * Properties C42-C44: AsyncSubject (AsyncMultiSubject). *)
From Coq Require Import Permutation.
From Verif Require Import SubjectProofs.
Set Implicit Arguments.

(** ** C42 *)
(** Calls of the subject awaited one after another; subscriptions come and go
    at any time. *)
Theorem C42_exactly_what_was_sent : forall A (h : list (ulabel A)) s o,
  ureach h s -> awaited h -> u_idle s -> received o s = heard o h.
Proof. intros A h s o. apply await_idle. Qed.
Print Assumptions C42_exactly_what_was_sent.

(** While a call is under way: nothing else, and in order. *)
Theorem C42_prefix : forall A (h : list (ulabel A)) s o,
  ureach h s -> awaited h -> exists later, heard o h = received o s ++ later.
Proof. intros A h s o. apply await_prefix. Qed.
Print Assumptions C42_prefix.

(** Observer 5 subscribes, 1 is sent, observer 6 subscribes, 2 is sent,
    observer 5 leaves, 3 is sent, aclose, 4 is sent, observer 7 subscribes. *)
Definition ex42 : list (ulabel nat) :=
  [USub 5; UCall (OnNext 1); URet 0; USub 6; UCall (OnNext 2); URet 1; URet 1; UUnsub 0; UCall (OnNext 3); URet 2;
   UCall OnCompleted; URet 3; UCall (OnNext 4); USub 7].
Example C42_case : exists s, ureach ex42 s /\ u_idle s /\
  received 5 s = [OnNext 1; OnNext 2] /\ received 6 s = [OnNext 2; OnNext 3; OnCompleted] /\ received 7 s = [].
Proof.
  assert (R : exists s, urun u_init ex42 = Some s /\ received 5 s = [OnNext 1; OnNext 2] /\
    received 6 s = [OnNext 2; OnNext 3; OnCompleted] /\ received 7 s = [] /\ idleb s = true).
  { eexists. split; [vm_compute; reflexivity|]. repeat split. }
  destruct R as (s & R & R5 & R6 & R7 & Rc). exists s. repeat split; try assumption; [now apply urun_init|now apply idleb_ok].
Qed.
(** [ex42] is a history of awaited calls. *)
Example C42_case_awaited : awaited ex42.
Proof. apply awaitedb_ok. reflexivity. Qed.
Example C42_case_heard : heard 6 ex42 = [OnNext 2; OnNext 3; OnCompleted].
Proof. reflexivity. Qed.

(** ** C43 *)
(** Every asend, athrow and aclose after dispose_async raises
    ObjectDisposedException and reaches no observer. *)
Theorem C43_calls_refused : forall A (h1 h2 : list (ulabel A)) n s,
  ureach (h1 ++ UCall n :: h2) s -> u_off h1 = true ->
  nth_error (u_calls s) (ncalls h1) = Some (Finished (Some ObjectDisposed)) /\ reached (ncalls h1) s = [].
Proof. intros A h1 h2 n s H O. pose proof (call_refused _ _ _ H (or_introl O)) as G. now rewrite O in G. Qed.
Print Assumptions C43_calls_refused.

(** Every subscribe_async after dispose_async raises, and nobody is added. *)
Theorem C43_subscribe_refused : forall A (h1 h2 : list (ulabel A)) o s,
  ureach (h1 ++ USub o :: h2) s -> u_off h1 = true ->
  nth_error (u_subs s) (length (subscribers h1)) = Some None /\ incl (members (h1 ++ USub o :: h2)) (members h1).
Proof. intros A h1 h2 o s H O. split; [exact (sub_refused h1 h2 o H O)|exact (members_off _ _ O)]. Qed.
Print Assumptions C43_subscribe_refused.

(** If no call was under way at that moment, no observer is ever called again. *)
Theorem C43_silent : forall A (h1 h2 : list (ulabel A)) s1 s,
  ureach h1 s1 -> ureach (h1 ++ h2) s -> u_off h1 = true -> u_idle s1 -> u_log s = u_log s1.
Proof. intros A h1 h2 s1 s H1 H O I. exact (proj1 (off_quiet _ H1 H O I)). Qed.
Print Assumptions C43_silent.

(** A call under way goes on: an observer is called after dispose_async. *)
Theorem C43_silent_at_once_refuted :
  ~ (forall (h1 h2 : list (ulabel nat)) s1 s, ureach h1 s1 -> ureach (h1 ++ h2) s -> u_off h1 = true -> u_log s = u_log s1).
Proof.
  intros F.
  assert (R1 : exists s, ureach [USub 5; USub 6; UCall (OnNext 1); @UDispose nat] s /\ u_log s = [(0, 5, OnNext 1)]).
  { eexists. split; [apply urun_init; vm_compute; reflexivity|reflexivity]. }
  assert (R2 : exists s, ureach ([USub 5; USub 6; UCall (OnNext 1); @UDispose nat] ++ [URet 0]) s /\ u_log s = [(0, 5, OnNext 1); (0, 6, OnNext 1)]).
  { eexists. split; [apply urun_init; vm_compute; reflexivity|reflexivity]. }
  destruct R1 as (s1 & R1 & E1), R2 as (s & R2 & E2). specialize (F _ _ _ _ R1 R2 eq_refl). rewrite E1, E2 in F. discriminate.
Qed.
Print Assumptions C43_silent_at_once_refuted.

Example C43_case : exists s, ureach [USub 5; UCall (OnNext 1); URet 0; UDispose; UCall (OnNext 2); USub 6] s /\
  u_calls s = [Finished None; Finished (Some ObjectDisposed)] /\ u_log s = [(0, 5, OnNext 1)] /\ u_subs s = [Some (5, true); None].
Proof. eexists. split; [apply urun_init; vm_compute; reflexivity|]. repeat split. Qed.

(** ** C44 *)
(** Any number of calls under way at the same time, subscriptions coming and
    going.  A call made while the subject is neither disposed nor terminated:
    there is an order [snap] of the observers subscribed at that moment --
    the order of their subscriptions, if nobody subscribes twice -- such that
    the call reaches a prefix of it, all of it if it returns, and up to the
    observer that raised if it raises; and it tells them what was sent. *)
Theorem C44_snapshot : forall A (h1 h2 : list (ulabel A)) n s,
  ureach (h1 ++ UCall n :: h2) s -> u_off h1 = false -> u_ended h1 = false ->
  exists snap, Permutation snap (members h1) /\ (NoDup (subscribers h1) -> snap = members h1) /\
    (forall o m, In (ncalls h1, o, m) (u_log s) -> m = n) /\
    match nth_error (u_calls s) (ncalls h1) with
    | Some (Finished None) => reached (ncalls h1) s = snap
    | Some _ => exists past o rest, snap = past ++ o :: rest /\ reached (ncalls h1) s = past ++ [o]
    | None => False
    end.
Proof.
  intros A h1 h2 n s H O T. destruct (ureach_app _ _ H) as [s1 H1]. destruct (call_made _ _ H1 H O T) as (p & Hp & Hc & Hm).
  exists (u_obs s1). split; [exact (members_perm H1)|]. split; [exact (members_eq H1)|]. split; [exact Hm|].
  rewrite Hp. destruct p as [m o rest|[e|]]; [destruct Hc as [_ (d & E1 & E2)]; eauto|exact Hc|exact Hc].
Qed.
Print Assumptions C44_snapshot.

(** A call made after the subject was terminated returns at once and reaches nobody. *)
Theorem C44_after_terminal : forall A (h1 h2 : list (ulabel A)) n s,
  ureach (h1 ++ UCall n :: h2) s -> u_ended h1 = true -> u_off h1 = false ->
  nth_error (u_calls s) (ncalls h1) = Some (Finished None) /\ reached (ncalls h1) s = [].
Proof. intros A h1 h2 n s H T O. pose proof (call_refused _ _ _ H (or_intror T)) as G. now rewrite O in G. Qed.
Print Assumptions C44_after_terminal.

(** Yet an observer may get an element after the completion: a call under way
    is overtaken by aclose. *)
Theorem C44_grammar_refuted :
  ~ (forall (h : list (ulabel nat)) s o l1 l2, ureach h s -> received o s = l1 ++ OnCompleted :: l2 -> l2 = []).
Proof.
  intros F.
  assert (R : exists s, ureach [USub 5; USub 6; UCall (OnNext 1); UCall OnCompleted; URet 1; URet 0] s /\ received 6 s = [OnCompleted; OnNext 1]).
  { eexists. split; [apply urun_init; vm_compute; reflexivity|reflexivity]. }
  destruct R as (s & R & E). specialize (F _ _ 6 [] [OnNext 1] R E). discriminate.
Qed.
Print Assumptions C44_grammar_refuted.

(** And two observers may see two calls in different orders. *)
Theorem C44_same_order_refuted :
  ~ (forall (h : list (ulabel nat)) s, ureach h s -> u_idle s -> NoDup (subscribers h) ->
       received 5 s = [OnNext 1; OnNext 2] -> received 6 s <> [OnNext 2; OnNext 1]).
Proof.
  intros F.
  assert (R : exists s, ureach [USub 5; USub 6; UCall (OnNext 1); UCall (OnNext 2); URet 1; URet 0; URet 1; URet 0] s /\
    received 5 s = [OnNext 1; OnNext 2] /\ received 6 s = [OnNext 2; OnNext 1] /\ idleb s = true).
  { eexists. split; [apply urun_init; vm_compute; reflexivity|]. repeat split. }
  destruct R as (s & R & E5 & E6 & Ec). revert E6. apply (F _ s R); [|repeat constructor; cbn; intuition discriminate|exact E5].
  now apply idleb_ok.
Qed.
Print Assumptions C44_same_order_refuted.

(** One observer subscribed twice: disposing the later subscription takes the
    earlier place away, so that the order is no longer that of the subscriptions. *)
Theorem C44_order_with_duplicates_refuted :
  ~ (forall (h1 h2 : list (ulabel nat)) n s, ureach (h1 ++ UCall n :: h2) s -> u_off h1 = false -> u_ended h1 = false ->
       nth_error (u_calls s) (ncalls h1) = Some (Finished None) -> reached (ncalls h1) s = members h1).
Proof.
  intros F.
  assert (R : exists s, ureach ([USub 5; USub 6; USub 5; UUnsub 2] ++ UCall (OnNext 1) :: [URet 0; URet 0]) s /\
    u_calls s = [Finished None] /\ reached 0 s = [6; 5]).
  { eexists. split; [apply urun_init; vm_compute; reflexivity|]. repeat split. }
  destruct R as (s & R & Ec & Er). specialize (F _ _ _ _ R eq_refl eq_refl). cbn in F. rewrite Ec, Er in F. specialize (F eq_refl). discriminate.
Qed.
Print Assumptions C44_order_with_duplicates_refuted.

(** Two sends at the same time; the second observer leaves, the third comes
    while both are under way; observer 5 raises in the second call. *)
Example C44_case : exists s, ureach ([USub 5; USub 6; UCall (OnNext 1)] ++ UCall (OnNext 2) :: [UUnsub 1; USub 7; UExn 1 ValueError; URet 0; URet 0]) s /\
  reached 0 s = [5; 6] /\ reached 1 s = [5] /\ u_calls s = [Finished None; Finished (Some ValueError)].
Proof. eexists. split; [apply urun_init; vm_compute; reflexivity|]. repeat split. Qed.
