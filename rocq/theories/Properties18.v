(** * Property C63: the subscription of an iterated observable. *)
From Verif Require Import IterSubProofs.
Set Implicit Arguments.

(** Every subscription that was made has been disposed once or is held, and at
    most one is being made or held at a time; those that failed aside, none is
    lost.  Whatever consumer, producers and cancellations do. *)
Theorem C63_balance : forall A ok h (s : istate A), isteps ok i_init h s ->
  i_subs s = i_disp s + count_acts is_failed h + num (i_sub s) + num (subscribing s) /\
  count_acts is_subscribed h = i_disp s + num (i_sub s) /\
  ~ (i_sub s = true /\ subscribing s = true).
Proof.
  intros A ok h s H. destruct (reach_acct H) as [H1 H2 _ H4]. split; [exact H1|]. split; [exact H4|]. intros [F G]. rewrite (H2 G) in F. discriminate.
Qed.
Print Assumptions C63_balance.

(** The source is subscribed to at most once per __anext__: not before the first one. *)
Theorem C63_lazy : forall A ok h (s : istate A), isteps ok i_init h s -> i_subs s <= count_acts is_next h.
Proof. intros A ok h s H. exact (ac_next (reach_acct H)). Qed.
Print Assumptions C63_lazy.

(** dispose_async, unless __anext__ is in subscribe_async: all subscriptions
    made so far have been disposed once, and a second dispose_async does
    nothing. *)
Theorem C63_disposed : forall A ok h (s s' : istate A) b, isteps ok i_init h s -> subscribing s = false -> do_act s ADispose = Some (s', b) ->
  i_disp s' = count_acts is_subscribed h /\ i_sub s' = false /\ do_act s' ADispose = Some (s', false).
Proof.
  intros A ok h s s' b H Hs E. destruct (reach_acct H) as [_ _ _ H4]. cbn in E. destruct (i_sub s) eqn:Ei; injection E as <- <-; cbn in *; rewrite ?Ei, H4;
    (split; [lia|]); split; auto.
Qed.
Print Assumptions C63_disposed.

(** If __anext__ is in subscribe_async, dispose_async does nothing: the
    subscription is held afterwards. *)
Theorem C63_disposed_refuted : forall A ok h (s : istate A), isteps ok i_init h s -> subscribing s = true ->
  do_act s ADispose = Some (s, false) /\ exists s' b, do_act s ASubscribed = Some (s', b) /\ i_sub s' = true /\ i_disp s' = i_disp s.
Proof.
  intros A ok h s H Hs. destruct (reach_acct H) as [_ H2 _ _]. cbn. rewrite (H2 Hs). split; [reflexivity|]. unfold subscribing in Hs.
  destruct (i_cons s); try discriminate. eexists _, _. split; [apply f_equal, surjective_pairing|].
  unfold await_push, pushed, take. cbn. repeat match goal with |- context [match ?x with _ => _ end] => destruct x; cbn end; auto.
Qed.
Print Assumptions C63_disposed_refuted.

(** An iterated observable that was disposed is subscribed to again by the next
    __anext__. *)
Theorem C63_final_refuted : forall A ok h (s : istate A), isteps ok i_init h s -> i_cons s = CIdle -> i_sub s = false ->
  exists s', do_act s ANext = Some (s', false) /\ i_subs s' = S (i_subs s) /\ subscribing s' = true.
Proof. intros A ok h s _ Hc Hi. cbn. unfold next_. rewrite Hc, Hi. eexists. repeat split. Qed.
Print Assumptions C63_final_refuted.

(** Subscribed, disposed, subscribed again, disposed while the third subscription is made. *)
Definition three_subs : list (ilabel (A := nat)) :=
  [LArrive; LTurn [ANext; ASubFailed; ANext; ASubscribed]; LArrive; LTurn [ASend (OnNext 1)]; LTurn [ADispose; ADispose; ANext; ADispose; ASubscribed]].
Example C63_case : exists s, isteps anything i_init three_subs s /\ i_subs s = 3 /\ i_disp s = 1 /\ i_sub s = true /\
  count_acts is_failed three_subs = 1 /\ count_acts is_subscribed three_subs = 2.
Proof. eexists. split; [apply isteps_irun; vm_compute; reflexivity|]. repeat split. Qed.
Example C63_case_subscribing : exists s, isteps anything i_init [LArrive; LTurn [ANext]] s /\ subscribing (A := nat) s = true.
Proof. eexists. split; [apply isteps_irun; vm_compute; reflexivity|]. reflexivity. Qed.
Example C63_case_idle : exists s, isteps anything i_init [LArrive; LTurn [ANext; ASubscribed]; LArrive; LTurn [ASend (OnNext 1)]; LTurn [ADispose]] s /\
  i_cons (A := nat) s = CIdle /\ i_sub s = false /\ subscribing s = false /\ i_disp s = 1.
Proof. eexists. split; [apply isteps_irun; vm_compute; reflexivity|]. repeat split. Qed.
