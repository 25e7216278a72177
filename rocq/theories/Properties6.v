(** * Properties C32-C34: catch and retry.

    [creach hd src h0 h s]: after subscribing to [src | catch(handler)], the
    history [h] can happen and leads to [s].  [hd] is the handler, a function
    with a state that starts as [h0].  The subscriptions made are numbered 0,
    1, 2, ... in order; [c_log s] is everything done so far: subscriptions,
    disposals, calls of the subscriber's observer. *)
From Verif Require Import CatchProofs.
Set Implicit Arguments.

(** ** C32 *)
(** For sources obeying the grammar: the sources subscribed are the original
    one and then what the handler answered to the successive errors, in order ... *)
Theorem C32_sources : forall H O A (hd : H -> exn -> res O * H) src h0 h (s : cstate H O A),
  creach hd src h0 h s -> sources_grammatical h -> no_failures h ->
  subscribed (c_log s) ++ upcoming s = src :: answers hd h0 (errors h).
Proof. intros. eapply gi_order, gi_reach; eassumption. Qed.
Print Assumptions C32_sources.

(** ... and the observer gets what the first one sent before its error, then
    what the second one sent, and so on ... *)
Theorem C32_output : forall H O A (hd : H -> exn -> res O * H) src h0 h (s : cstate H O A),
  creach hd src h0 h s -> sources_grammatical h -> no_failures h ->
  keys (c_log s) = seq 0 (length (subscribed (c_log s))) /\
  requests (c_log s) = concat (map (fun k => filter not_error (calls_of k h)) (keys (c_log s))) /\
  grammatical (requests (c_log s)).
Proof.
  intros H O A hd src h0 h s Hr Hg Hf. pose proof (gi_reach Hr Hg Hf) as G. repeat split.
  - rewrite (subs_keys Hr). apply (ci_keys (ci_reach Hr)).
  - apply (gi_out G).
  - apply (gi_gram G).
Qed.
Print Assumptions C32_output.

(** ... each source only after the previous one failed ... *)
Theorem C32_after_failure : forall H O A (hd : H -> exn -> res O * H) src h0 h (s : cstate H O A) k,
  creach hd src h0 h s -> sources_grammatical h -> no_failures h ->
  S k < length (subscribed (c_log s)) -> exists e, In (OnError e) (calls_of k h).
Proof.
  intros H O A hd src h0 h s k Hr Hg Hf Hk. rewrite (subs_keys Hr) in Hk.
  destruct (gi_ended (gi_reach Hr Hg Hf) (k := k)) as [e F]; [lia|now left|]. exists e. now apply in_calls_of.
Qed.
Print Assumptions C32_after_failure.

(** ... and it completes exactly when the last source subscribed does. *)
Theorem C32_completes : forall H O A (hd : H -> exn -> res O * H) src h0 h (s : cstate H O A),
  creach hd src h0 h s -> sources_grammatical h -> no_failures h ->
  (In OnCompleted (requests (c_log s)) <->
   exists k, S k = length (subscribed (c_log s)) /\ In OnCompleted (calls_of k h)).
Proof.
  intros H O A hd src h0 h s Hr Hg Hf. pose proof (gi_reach Hr Hg Hf) as G. rewrite (subs_keys Hr). split.
  - intros F. destruct (gi_done G F) as (k & Ek & _ & F'). exists k. split; [now symmetry|]. now apply in_calls_of.
  - intros (k & _ & F). rewrite (ci_req (ci_reach Hr)). apply filter_In. split; [|reflexivity].
    apply in_calls_of in F. apply in_map_iff. now exists (k, OnCompleted).
Qed.
Print Assumptions C32_completes.

(** In every history - grammatical sources or not - the observer never gets
    an error, and gets everything else in the order in which it was sent. *)
Theorem C32_no_error : forall H O A (hd : H -> exn -> res O * H) src h0 h (s : cstate H O A) e,
  creach hd src h0 h s -> ~ In (OnError e) (requests (c_log s)).
Proof. intros. eapply c_no_error; eassumption. Qed.
Print Assumptions C32_no_error.

Theorem C32_forwards : forall H O A (hd : H -> exn -> res O * H) src h0 h (s : cstate H O A),
  creach hd src h0 h s -> requests (c_log s) = filter not_error (map snd (ccalls h)).
Proof. intros. eapply ci_req, ci_reach; eassumption. Qed.
Print Assumptions C32_forwards.

Theorem C32_settles : forall H O A (hd : H -> exn -> res O * H) src h0 h (s : cstate H O A),
  creach hd src h0 h s -> exists is s', creach hd src h0 (h ++ map CAct is) s' /\ csettled s'.
Proof. exact @c_settles. Qed.
Print Assumptions C32_settles.

(** A source that fails twice, the handler's observable failing as well. *)
Definition C32_handler (st : nat) (e : exn) : res nat * nat := (Ok (100 + st), S st).
Definition C32_history : list (clabel nat) :=
  [CAct 0; CCall 0 (OnNext 1); CAct 0; CCall 0 (OnNext 2); CCall 0 (OnError ValueError); CAct 1; CAct 1;
   CCall 1 (OnError TypeError); CAct 2; CCall 2 (OnNext 3); CAct 2; CCall 2 OnCompleted].
Example C32_case : exists s, creach C32_handler 7 0 C32_history s /\ csettled s /\ no_failures C32_history /\
  c_log s = [ESub 0 7; EReq (OnNext 1); EReq (OnNext 2); EDispose 0; ESub 1 100; EDispose 1; ESub 2 101;
             EReq (OnNext 3); EReq OnCompleted].
Proof.
  eexists. split; [apply crun_init; vm_compute; reflexivity|]. repeat split.
  intros i e F. repeat (destruct F as [F|F]; [discriminate|]). contradiction.
Qed.
Example C32_case_grammatical : sources_grammatical C32_history.
Proof.
  intros [|[|[|k]]].
  - exists [1; 2], (Failed ValueError). reflexivity.
  - exists [], (Failed TypeError). reflexivity.
  - exists [3], Completed. reflexivity.
  - exists [], Open. reflexivity.
Qed.

(** ** C33 *)
(** retry(n): the sources subscribed are the original one, a second time if
    n <> 0 and it failed, and then fail(e) for every further error e ... *)
Theorem C33_subscriptions : forall A n h (s : cstate Z robs A),
  creach retry_factory ROrig n h s -> sources_grammatical h -> no_failures h ->
  subscribed (c_log s) ++ upcoming s =
  ROrig :: if (n =? 0)%Z then map RFail (errors h)
           else match errors h with [] => [] | _ :: r => ROrig :: map RFail r end.
Proof. exact @retry_exact. Qed.
Print Assumptions C33_subscriptions.

(** ... so never more than one retry, whatever n is, in any history ... *)
Theorem C33_at_most_one_retry : forall A n h (s : cstate Z robs A),
  creach retry_factory ROrig n h s ->
  length (filter (fun o => match o with ROrig => true | RFail _ => false end) (subscribed (c_log s)))
  <= (if (n =? 0)%Z then 1 else 2).
Proof. exact @retry_at_most. Qed.
Print Assumptions C33_at_most_one_retry.

(** ... and the error is never delivered ... *)
Theorem C33_error_never_delivered : forall A n h (s : cstate Z robs A) e,
  creach retry_factory ROrig n h s -> ~ In (OnError e) (requests (c_log s)).
Proof. intros A n h s e. apply c_no_error. Qed.
Print Assumptions C33_error_never_delivered.

(** ... instead, once the source has used up its attempts, there always is a
    subscription of a fail(e) whose error is still to come (and will be
    answered by the next one): it goes on for ever. *)
Theorem C33_never_settles : forall A n h (s : cstate Z robs A),
  creach retry_factory ROrig n h s -> sources_grammatical h -> no_failures h -> csettled s ->
  (if (n =? 0)%Z then 1 else 2) <= length (errors h) ->
  exists k e, nth_error (subscribed (c_log s)) k = Some (RFail e) /\ forall x, ~ In (CCall k (OnError x)) h.
Proof. exact @retry_never_settles. Qed.
Print Assumptions C33_never_settles.

(** The budget is used up by the first error and stays so for the later
    subscriptions of the same observable. *)
Theorem C33_budget : forall A n h (s : cstate Z robs A),
  creach retry_factory ROrig n h s -> errors h <> [] -> c_h s = 0%Z.
Proof. intros A n h s Hr He. rewrite (retry_budget Hr). now destruct (errors h). Qed.
Print Assumptions C33_budget.

(** retry(3) with a source that fails twice (it would succeed the third time). *)
Theorem C33_three_retries_refuted : exists h (s : cstate Z robs nat),
  creach retry_factory ROrig 3%Z h s /\ csettled s /\
  c_log s = [ESub 0 ROrig; EDispose 0; ESub 1 ROrig; EDispose 1; ESub 2 (RFail ValueError);
             EDispose 2; ESub 3 (RFail ValueError)].
Proof.
  exists [CAct 0; CAct 0; CCall 0 (OnError ValueError); CAct 1; CAct 1; CCall 1 (OnError ValueError); CAct 2; CAct 2;
          CCall 2 (OnError ValueError); CAct 3; CAct 3].
  eexists. split; [apply crun_init; vm_compute; reflexivity|]. repeat split.
Qed.
Print Assumptions C33_three_retries_refuted.

(** ** C34 *)
(** The disposable that subscribe_async returned disposes the first
    subscription, in whatever state, and only once. *)
Theorem C34_disposes_first_only : forall H O A (hd : H -> exn -> res O * H) src h0 h (s s' : cstate H O A),
  creach hd src h0 h s -> catch_step hd s CUser = Some s' ->
  c_log s' = c_log s ++ (if c_used s then [] else [EDispose 0]) /\ c_used s' = true.
Proof. intros. eapply c_user; eassumption. Qed.
Print Assumptions C34_disposes_first_only.

(** So after a failover the handler's subscription stays. *)
Theorem C34_disposed_refuted : exists h (s : cstate nat nat nat),
  creach C32_handler 7 0 h s /\ csettled s /\ In CUser h /\
  keys (c_log s) = [0; 1] /\ disposed (c_log s) = [0; 0].
Proof.
  exists [CAct 0; CAct 0; CCall 0 (OnError ValueError); CAct 1; CAct 1; CUser].
  eexists. split; [apply crun_init; vm_compute; reflexivity|]. repeat split. now do 5 right; left.
Qed.
Print Assumptions C34_disposed_refuted.

(** At a failover the failed subscription is disposed before the next one is
    made, provided its subscribe_async had returned ... *)
Theorem C34_failover_disposes : forall H O A (hd : H -> exn -> res O * H) src h0 h (s : cstate H O A) k,
  creach hd src h0 h s -> late_errors hd src h0 h -> no_failures h ->
  S k < length (subscribed (c_log s)) -> In k (disposed (c_log s)).
Proof.
  intros H O A hd src h0 h s k Hr HL Hf Hk. rewrite (subs_keys Hr) in Hk.
  apply (di_disp (di_reach Hr HL Hf)); [lia|now left].
Qed.
Print Assumptions C34_failover_disposes.

(** ... but not if the first source fails during its subscribe_async: then
    the variable ends up with the older subscription, and the later
    failover leaves subscription 1 undisposed. *)
Theorem C34_failover_disposes_refuted : exists h (s : cstate nat nat nat),
  creach C32_handler 7 0 h s /\ csettled s /\ sources_grammatical h /\
  keys (c_log s) = [0; 1; 2] /\ disposed (c_log s) = [0].
Proof.
  exists [CAct 0; CCall 0 (OnError ValueError); CAct 1; CAct 1; CAct 0; CCall 1 (OnError ValueError); CAct 2; CAct 2].
  eexists. split; [apply crun_init; vm_compute; reflexivity|]. split; [reflexivity|]. split; [|split; reflexivity].
  intros [|[|k]]; [exists [], (Failed ValueError)|exists [], (Failed ValueError)|exists [], Open]; reflexivity.
Qed.
Print Assumptions C34_failover_disposes_refuted.

Example C34_case : exists h (s : cstate nat nat nat),
  creach C32_handler 7 0 h s /\ csettled s /\ c_log s = [ESub 0 7; EReq (OnNext 4); EDispose 0].
Proof.
  exists [CAct 0; CAct 0; CCall 0 (OnNext 4); CUser; CUser].
  eexists. split; [apply crun_init; vm_compute; reflexivity|]. repeat split.
Qed.
