(** * Property C54: detaching from the sources at the end of the stream. *)
From Verif Require Import DetachProofs.
Set Implicit Arguments.

(** ** C54 *)
(** With the library as it is, no subscription handed to auto_detach is ever
    disposed by it, whatever the source, the observer and the workers do. *)
Theorem C54_never : forall A h (s : dstate A), dsteps Stops d_init h s -> d_disposed s = [].
Proof. intros A h s H. destruct (reach_inv H) as [[_ _ _ _ F]|(_ & _ & _ & F)]; exact F. Qed.
Print Assumptions C54_never.

(** With a library that went on delivering messages: only subscriptions that
    were registered are disposed, in that order and each once, and none
    before a terminal notification was handled. *)
Theorem C54_at_most : forall A h (s : dstate A), dsteps GoesOn d_init h s ->
  (exists l, d_registered s = d_disposed s ++ l) /\ (d_disposed s <> [] -> d_token s = true /\ d_running s = false).
Proof.
  intros A h s H. destruct (reach_inv H) as [[_ _ _ _ F]|[(_ & _ & F & _)|[ds [H1 H2 [l H3] H4]]]]; [rewrite F; split; [eexists; reflexivity|intros []; auto]..|].
  split; [|auto]. rewrite H3. destruct H4 as [(_ & _ & F & _)|[(l' & _ & ->)|[_ [l' ->]]]]; [rewrite F; eauto|rewrite <- app_assoc; eauto..].
Qed.
Print Assumptions C54_at_most.

(** Then all the subscriptions registered before the terminal notification is
    handled are disposed, provided that the second worker had picked them up. *)
Theorem C54_detaches : forall A h h' (s s1 s2 : dstate A) r, dsteps GoesOn d_init h s -> terminates s -> caught_up s ->
  dstep GoesOn s (DSafe r) = Some s1 -> dsteps GoesOn s1 h' s2 -> no_raise h' -> idle s2 -> d_disposed s2 = d_registered s.
Proof.
  intros A h h' s s1 s2 r H Ht Hc E H' Hn Hi. pose proof (before_term GoesOn r (reach_before H (proj1 Ht)) Ht E) as [G _]. specialize (G Hc).
  refine (detaching_idle (going_steps (h := h') _ Hn H') Hi). split; [exact G|]. intros K.
  destruct (de_keeper G) as [(F & _)|[(l & F & _)|[_ F]]]; try congruence.
  destruct Hc as [Hk _]. clear -E Hk K. cbn in E. unfold safe_step in E. destruct (d_running s); [|discriminate]. destruct (d_inbox s) as [|[a|e|] i]; [discriminate|destruct r|..];
    injection E as <-; cbn in K; congruence.
Qed.
Print Assumptions C54_detaches.

(** And it gets there. *)
Theorem C54_detached : forall A h (s s1 : dstate A) r, dsteps GoesOn d_init h s -> terminates s -> caught_up s ->
  dstep GoesOn s (DSafe r) = Some s1 -> exists k s2, dsteps GoesOn s1 (repeat (DKeeper None) k) s2 /\ idle s2.
Proof.
  intros A h s s1 r H Ht Hc E. pose proof (before_term GoesOn r (reach_before H (proj1 Ht)) Ht E) as [G _]. exact (detaching_ends (G Hc)).
Qed.
Print Assumptions C54_detached.

(** If it had not, none is ever disposed, not even those it had picked up. *)
Theorem C54_missed : forall A h h' (s s1 s2 : dstate A) r, dsteps GoesOn d_init h s -> terminates s -> ~ caught_up s ->
  dstep GoesOn s (DSafe r) = Some s1 -> dsteps GoesOn s1 h' s2 -> d_disposed s2 = [].
Proof.
  intros A h h' s s1 s2 r H Ht Hc E H'. pose proof (before_term GoesOn r (reach_before H (proj1 Ht)) Ht E) as [_ G].
  now destruct (missing_steps (G Hc) H') as (_ & _ & F & _).
Qed.
Print Assumptions C54_missed.

(** Nor after the observer has raised an exception in asend: the observer is
    told, the upstream goes on. *)
Theorem C54_raised : forall A lib h h' (s s1 s2 : dstate A) v inbox e, dsteps lib d_init h s -> d_running s = true -> d_inbox s = OnNext v :: inbox ->
  dstep lib s (DSafe (Some e)) = Some s1 -> dsteps lib s1 h' s2 ->
  d_calls s1 = d_calls s ++ [OnNext v; OnError e] /\ d_calls s2 = d_calls s1 /\ d_token s2 = false /\ d_disposed s2 = [].
Proof.
  intros A lib h h' s s1 s2 v inbox e H Hr Hi E H'. pose proof (reach_before H Hr) as B. cbn in E. unfold safe_step in E. rewrite Hr, Hi in E. injection E as <-.
  match type of H' with dsteps _ ?t _ _ => assert (G : abandoned t) by (destruct B; split; [constructor|]; auto) end.
  split; [reflexivity|]. destruct (abandoned_steps G H') as [[F1 _ _ _ F2] _]. split; [|auto].
  clear -G H'. induction H' as [|t h' x s1 s2 H' IH E]; [reflexivity|]. rewrite <- (IH G). destruct (abandoned_steps G H') as [_ F].
  destruct x as [n|r|d|r]; cbn in E; [injection E as <-; reflexivity|unfold safe_step in E; now rewrite F in E|injection E as <-; reflexivity|].
  unfold keeper_step in E. destruct (d_keeper s1) as [| |[|]|]; [|destruct (d_mail s1) as [|[]]|..]; try discriminate; injection E as <-; reflexivity.
Qed.
Print Assumptions C54_raised.

(** Two sources; the second one is registered while the first one completes. *)
Definition two_sources : list (dlabel (A := nat)) :=
  [DKeeper None; DRegister 0; DPost (OnNext 1); DSafe None; DKeeper None; DRegister 1; DKeeper None; DPost OnCompleted].
Example C54_case : exists s, dsteps GoesOn d_init two_sources s /\ terminates s /\ caught_up s /\ d_registered s = [0; 1] /\
  exists s1 s2, dstep GoesOn s (DSafe None) = Some s1 /\ dsteps GoesOn s1 [DRegister 2; DKeeper None; DKeeper None; DKeeper None; DKeeper None] s2 /\ idle s2 /\ d_disposed s2 = [0; 1].
Proof.
  eexists. split; [apply drun_steps; vm_compute; reflexivity|]. split; [split; [reflexivity|]; do 2 eexists; split; reflexivity|]. split; [split; reflexivity|]. split; [reflexivity|].
  eexists. eexists. split; [reflexivity|]. split; [apply drun_steps; vm_compute; reflexivity|]. split; [intros r; reflexivity|reflexivity].
Qed.
Example C54_case_missed : exists s s1 s2, dsteps GoesOn d_init (two_sources ++ [DRegister 2]) s /\ terminates s /\ ~ caught_up s /\
  dstep GoesOn s (DSafe None) = Some s1 /\ dsteps GoesOn s1 [DKeeper None] s2 /\ idle s2 /\ d_held s2 = [0; 1; 2] /\ d_disposed s2 = [].
Proof.
  do 3 eexists. split; [apply drun_steps; vm_compute; reflexivity|]. split; [split; [reflexivity|]; do 2 eexists; split; reflexivity|]. split; [intros [_ F]; discriminate|].
  split; [reflexivity|]. split; [apply drun_steps; vm_compute; reflexivity|]. split; [intros r; reflexivity|split; reflexivity].
Qed.
Example C54_case_never : exists s, dsteps Stops d_init (two_sources ++ [DSafe None]) s /\ d_calls s = [OnNext 1; OnCompleted] /\ d_registered s = [0; 1] /\ idle s.
Proof. eexists. split; [apply drun_steps; vm_compute; reflexivity|]. split; [reflexivity|]. split; [reflexivity|]. intros r. reflexivity. Qed.
