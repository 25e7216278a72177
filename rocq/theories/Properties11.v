(** * Properties C45-C46: AsyncSingleSubject. *)
From Verif Require Import SingleProofs.
Set Implicit Arguments.

(** ** C45 *)
(** Nobody is called by anybody before the first subscription, and what is
    delivered goes to the observer listening at that moment. *)
Theorem C45_to_listener : forall A (h : list (vlabel A)) s c o n,
  vreach h s -> In (c, o, n) (v_log s) ->
  exists h1 x h2, h = h1 ++ x :: h2 /\ listener h1 = Some o /\ (x = VResume \/ x = VCall n).
Proof. intros A h s c o n. apply v_to_listener. Qed.
Print Assumptions C45_to_listener.

(** What became of a call (made before the subject was disposed, or athrow or
    aclose): it waits and has called nobody; it has called exactly one
    observer, once, with what was sent; or it has returned without, because
    the subject was terminated; or it spins and has called nobody. *)
Theorem C45_not_lost : forall A (h1 h2 : list (vlabel A)) n s,
  vreach (h1 ++ VCall n :: h2) s -> v_off h1 = false \/ is_term n = true ->
  exists p, nth_error (v_calls s) (v_ncalls h1) = Some p /\
    match p with
    | VWaiting m => m = n /\ v_effect (v_ncalls h1) s = []
    | VIn m o => m = n /\ v_effect (v_ncalls h1) s = [(o, n)]
    | VOver (Some _) => exists o, v_effect (v_ncalls h1) s = [(o, n)]
    | VOver None => (exists o, v_effect (v_ncalls h1) s = [(o, n)]) \/ v_effect (v_ncalls h1) s = [] /\ v_stopped s = true
    | VSpin => v_effect (v_ncalls h1) s = [] /\ v_hung s = true
    end.
Proof. intros A h1 h2 n s. apply v_call_made. Qed.
Print Assumptions C45_not_lost.

(** So a send that has returned was delivered, unless a termination was sent;
    and nothing hangs unless a subscription was disposed. *)
Theorem C45_returned_delivered : forall A (h1 h2 : list (vlabel A)) n s,
  vreach (h1 ++ VCall n :: h2) s -> v_off h1 = false -> nth_error (v_calls s) (v_ncalls h1) = Some (VOver None) ->
  (forall m, In m (v_sent (h1 ++ VCall n :: h2)) -> is_term m = false) ->
  exists o, v_effect (v_ncalls h1) s = [(o, n)].
Proof.
  intros A h1 h2 n s H O K Hn. destruct (v_call_made _ _ _ H (or_introl O)) as (p & Hp & Hc). rewrite K in Hp. injection Hp as <-.
  destruct Hc as [Hc|[_ Hs]]; [exact Hc|]. destruct (vi_stop (vi H) Hs) as (m & F1 & F2). rewrite (Hn _ F1) in F2. discriminate.
Qed.
Print Assumptions C45_returned_delivered.

(** While there is a listener, the oldest waiting call can go on (the loop is
    not hung); as long as there has been none, every call waits. *)
Theorem C45_goes_on : forall A (h : list (vlabel A)) s c,
  vreach h s -> waits c s -> v_hung s = false -> had_listener h = true -> exists s', vstep s VResume = Some s'.
Proof.
  intros A h s c Hr Hw Hh Hl. pose proof (vi_queue (vi Hr)) as Q. unfold vstep. rewrite Hh, (vi_wait (vi Hr)), Hl.
  assert (F : In c (v_queue s)) by (apply Q; exact Hw). destruct (v_queue s) as [|d q]; [destruct F|].
  destruct (proj1 (Q d)) as [n Hn]; [now left|]. rewrite Hn. destruct (vloop d n s). eauto.
Qed.
Print Assumptions C45_goes_on.

(** Waiting calls do not overtake one another. *)
Theorem C45_fifo : forall A (h1 h2 : list (vlabel A)) c d s1 s,
  vreach h1 s1 -> vreach (h1 ++ h2) s -> c < d -> waits d s1 -> waits c s -> waits d s.
Proof. intros A h1 h2 c d s1 s. apply v_fifo. Qed.
Print Assumptions C45_fifo.

(** One producer that awaits its calls, whenever observers subscribe: exactly
    what was sent, up to and including the first termination, in order. *)
Theorem C45_one_producer : forall A (h : list (vlabel A)) s,
  vreach h s -> v_awaited h -> v_idle s -> map snd (v_log s) = upto_terminal (v_sent h).
Proof. intros A h s. apply produce_idle. Qed.
Print Assumptions C45_one_producer.

(** A send that waits may be overtaken by one made after the subscription. *)
Theorem C45_order_refuted :
  ~ (forall (h : list (vlabel nat)) s, vreach h s -> v_idle s -> ~ In VDispose h -> map snd (v_log s) = v_sent h).
Proof.
  intros F.
  assert (R : exists s, vreach [VCall (OnNext 1); VSub 5; VCall (OnNext 2); VRet 1; VResume; VRet 0] s /\
    map snd (v_log s) = [OnNext 2; OnNext 1] /\ v_idleb s = true).
  { eexists. split; [apply vrun_init; vm_compute; reflexivity|]. split; reflexivity. }
  destruct R as (s & R & El & Ei). specialize (F _ s R (v_idleb_ok _ Ei)). rewrite El in F.
  assert (K : ~ In VDispose [VCall (OnNext 1); VSub 5; VCall (OnNext 2); VRet 1; @VResume nat; VRet 0]) by (cbn; intuition discriminate).
  specialize (F K). discriminate.
Qed.
Print Assumptions C45_order_refuted.

(** A waiting send goes to the observer that listens when it is resumed, which
    need not be the first that subscribed. *)
Theorem C45_first_subscriber_refuted :
  ~ (forall (h2 : list (vlabel nat)) s n o o', vreach ([VCall n; VSub o] ++ h2) s -> In (0, o', n) (v_log s) -> o' = o).
Proof.
  intros F.
  assert (R : exists s, vreach ([VCall (OnNext 1); VSub 5] ++ [VSub 6; VResume]) s /\ v_log s = [(0, 6, OnNext 1)]).
  { eexists. split; [apply vrun_init; vm_compute; reflexivity|]. reflexivity. }
  destruct R as (s & R & El). specialize (F _ s (OnNext 1) 5 6 R). rewrite El in F. specialize (F (or_introl eq_refl)). discriminate.
Qed.
Print Assumptions C45_first_subscriber_refuted.

(** Two terminating calls at the same time are both delivered, and so is an
    element sent while the termination is being delivered. *)
Theorem C45_grammar_refuted :
  ~ (forall (h : list (vlabel nat)) s l1 l2, vreach h s -> map snd (v_log s) = l1 ++ OnCompleted :: l2 -> l2 = []).
Proof.
  intros F.
  assert (R : exists s, vreach [VSub 5; VCall OnCompleted; VCall (OnNext 1); VCall (OnError ValueError)] s /\
    map snd (v_log s) = [OnCompleted; OnNext 1; OnError ValueError]).
  { eexists. split; [apply vrun_init; vm_compute; reflexivity|]. reflexivity. }
  destruct R as (s & R & El). specialize (F _ s [] [OnNext 1; OnError ValueError] R El). discriminate.
Qed.
Print Assumptions C45_grammar_refuted.

(** 1 is sent before observer 5 subscribes. *)
Definition ex45 : list (vlabel nat) :=
  [VCall (OnNext 1); VSub 5; VResume; VRet 0; VCall (OnNext 2); VRet 1; VCall OnCompleted; VRet 2; VCall (OnNext 3)].
Example C45_case : exists s, vreach ex45 s /\ v_log s = [(0, 5, OnNext 1); (1, 5, OnNext 2); (2, 5, OnCompleted)] /\ v_idleb s = true.
Proof. eexists. split; [apply vrun_init; vm_compute; reflexivity|]. split; reflexivity. Qed.
Example C45_case_awaited : v_awaited ex45.
Proof. apply v_awaitedb_ok. reflexivity. Qed.
Example C45_case_fifo : exists s1 s, vreach [VCall (OnNext 1); VCall (OnNext 2); VSub 5] s1 /\ waits 1 s1 /\
  vreach ([VCall (OnNext 1); VCall (OnNext 2); VSub 5] ++ [VResume]) s /\ waits 1 s /\ v_log s = [(0, 5, OnNext 1)].
Proof.
  eexists. eexists. split; [apply vrun_init; vm_compute; reflexivity|]. split; [exists (OnNext 2); reflexivity|].
  split; [apply vrun_init; vm_compute; reflexivity|]. split; [exists (OnNext 2)|]; reflexivity.
Qed.

(** ** C46 *)
(** Somebody had subscribed and the subject was disposed.  Then athrow and
    aclose never return, and nothing else ever happens in the event loop. *)
Theorem C46_hangs : forall A (h : list (vlabel A)) s n,
  vreach h s -> v_hung s = false -> had_listener h = true -> v_off h = true -> is_term n = true ->
  exists s', vstep s (VCall n) = Some s' /\ v_hung s' = true /\ forall x, vstep s' x = None.
Proof.
  intros A h s n Hr Hh Hl Ho Hn. destruct (v_hangs n Hr Hh Hl Ho Hn) as (s' & E & F). exists s'. repeat split; auto.
  intros x. unfold vstep. now rewrite F.
Qed.
Print Assumptions C46_hangs.

(** asend raises ObjectDisposedException at once. *)
Theorem C46_asend_refused : forall A (h : list (vlabel A)) s v,
  vreach h s -> v_hung s = false -> v_off h = true ->
  exists s', vstep s (VCall (OnNext v)) = Some s' /\ v_calls s' = v_calls s ++ [VOver (Some ObjectDisposed)] /\ v_log s' = v_log s.
Proof.
  intros A h s v Hr Hh Ho. unfold vstep. rewrite Hh, (vi_off (vi Hr)), Ho. eexists. split; [reflexivity|]. cbn. rewrite app_nil_r. auto.
Qed.
Print Assumptions C46_asend_refused.

(** This is the only way the loop can hang. *)
Theorem C46_hangs_only_if : forall A (h : list (vlabel A)) s,
  vreach h s -> v_hung s = true -> had_listener h = true /\ v_off h = true.
Proof. intros A h s Hr Hh. destruct (vi_hung (vi Hr) Hh). auto. Qed.
Print Assumptions C46_hangs_only_if.

(** If nobody ever subscribed, athrow and aclose wait forever after dispose_async. *)
Theorem C46_waits_forever : forall A (h1 h2 : list (vlabel A)) n s,
  vreach (h1 ++ VCall n :: h2) s -> v_off h1 = true -> had_listener h1 = false -> is_term n = true ->
  nth_error (v_calls s) (v_ncalls h1) = Some (VWaiting n).
Proof. intros A h1 h2 n s. apply v_waits_forever. Qed.
Print Assumptions C46_waits_forever.

(** Nobody is called after the disposal. *)
Theorem C46_silent : forall A (h1 h2 : list (vlabel A)) s1 s,
  vreach h1 s1 -> vreach (h1 ++ h2) s -> v_off h1 = true -> v_log s = v_log s1.
Proof. intros A h1 h2 s1 s. apply v_log_off. Qed.
Print Assumptions C46_silent.

(** A send that waits when the subject is disposed hangs the loop too. *)
Theorem C46_waiting_send_refuted :
  ~ (forall (h : list (vlabel nat)) s, vreach h s -> (forall m, In m (v_sent h) -> is_term m = false) -> v_hung s = false).
Proof.
  intros F.
  assert (R : exists s, vreach [VCall (OnNext 1); VSub 5; VDispose; @VResume nat] s /\ v_hung s = true).
  { eexists. split; [apply vrun_init; vm_compute; reflexivity|]. reflexivity. }
  destruct R as (s & R & El). specialize (F _ s R). rewrite El in F. cbn in F.
  assert (K : true = false) by (apply F; intros m [<-|[]]; reflexivity). discriminate.
Qed.
Print Assumptions C46_waiting_send_refuted.

Example C46_case : exists s, vreach [VSub 5; VCall (OnNext 1); VRet 0; VDispose] s /\ v_hung s = false /\
  had_listener [VSub 5; VCall (OnNext 1); VRet 0; VDispose] = true.
Proof. eexists. split; [apply vrun_init; vm_compute; reflexivity|]. split; reflexivity. Qed.
