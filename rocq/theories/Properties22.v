(** * Property C33, all subscriptions of one retry observable together.

    [rareach n h s]: with retry(n), the history [h] of all its subscriptions can
    happen and leads to [s].  [attempts s]: how often the source was subscribed
    to, by all together; [subscribers h]: how many subscribed to the retried
    observable; [all_errors h]: the errors of all the source's subscriptions. *)
From Verif Require Import RetryProofs.
Set Implicit Arguments.

(** All subscriptions together retry at most once. *)
Theorem C33_shared_budget : forall A n h (s : rstate A), rareach n h s ->
  attempts s <= subscribers h + (if (n =? 0)%Z then 0 else 1).
Proof. exact @attempts_bound. Qed.
Print Assumptions C33_shared_budget.

(** After the first error, of any subscriber, every further error of every
    subscriber is answered by subscribing to fail(error), without a retry. *)
Theorem C33_shared_later_errors : forall A n h (s : rstate A) i k e s', rareach n h s -> all_errors h <> [] ->
  rastep s (ROf i (CCall k (OnError e))) = Some s' ->
  exists u u', nth_error (ra_subs s) i = Some u /\ nth_error (ra_subs s') i = Some u' /\ upcoming u' = upcoming u ++ [RFail e].
Proof. exact @later_error. Qed.
Print Assumptions C33_shared_later_errors.

(** Two subscribers of retry(3): the first retries, the second does not. *)
Example C33_shared_case : exists s : rstate nat,
  rareach 3 [RSubscribe; RSubscribe; ROf 0 (CAct 0); ROf 0 (CAct 0); ROf 1 (CAct 0); ROf 1 (CAct 0);
             ROf 0 (CCall 0 (OnError (UserExn 1))); ROf 0 (CAct 1); ROf 0 (CAct 1);
             ROf 1 (CCall 0 (OnError (UserExn 2)))] s /\
  attempts s = 3 /\ map upcoming (ra_subs s) = [[]; [RFail (UserExn 2)]].
Proof. eexists. split; [apply rarun_init; vm_compute; reflexivity|]. vm_compute. auto. Qed.
