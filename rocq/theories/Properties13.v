(** * Properties C49-C51, C58, C59: iterating an observable. *)
From Verif Require Import IterateProofs.
Set Implicit Arguments.

(** ** C49 *)
(** The results of the __anext__ calls so far: the elements of the calls
    admitted, in the order of their admission, all but at most the last one;
    then, if that one ends the stream, its error again and again. *)
Theorem C49_order : forall A h (s : istate A), isteps calm i_init h s ->
  exists vs rest errs, admitted s = map Some (map OnNext vs ++ rest) /\ i_res s = map Returned vs ++ errs /\ length rest <= 1 /\
    (errs = [] \/ exists n, rest = [n] /\ is_term n = true /\ Forall (eq (Raised (err n))) errs).
Proof. intros A h s H. exact (inv_order (reach_inv (fun _ _ H => H) H)). Qed.
Print Assumptions C49_order.

(** Every call is admitted at most once. *)
Theorem C49_once : forall A h (s : istate A), isteps calm i_init h s ->
  NoDup (i_adm s) /\ Forall (fun id => id < length (i_calls s)) (i_adm s).
Proof. intros A h s H. exact (inv_once (reach_inv (fun _ _ H => H) H)). Qed.
Print Assumptions C49_once.

(** The calls of one producer are admitted in the order in which it makes
    them: a call made after another one has returned comes after it. *)
Theorem C49_producer_order : forall A h h' (s s' : istate A) i o j,
  isteps calm i_init h s -> isteps calm s h' s' ->
  In (i, o) (i_ret s) -> length (i_calls s) <= j -> In j (i_adm s') ->
  exists a b c, i_adm s' = a ++ i :: b ++ j :: c.
Proof.
  intros A h h' s s' i o j H H' Hi Hj Hin. pose proof (reach_inv (fun _ _ H => H) H) as Hv.
  destruct (inv_returned Hv) as (a & Ha & [l Hl] & _). destruct (inv_once Hv) as [_ Hb]. destruct (steps_grow H') as [_ [m Hm]].
  assert (Hia : In i a). { rewrite Ha in Hi. unfold rets in Hi. apply in_map_iff in Hi as (x & E & F). congruence. }
  assert (Hjm : In j m).
  { rewrite Hm in Hin. apply in_app_iff in Hin as [F|F]; [|exact F]. rewrite Forall_forall in Hb. specialize (Hb _ F). lia. }
  apply in_split in Hia as (a1 & a2 & ->). apply in_split in Hjm as (m1 & m2 & ->).
  exists a1, (a2 ++ l ++ m1), m2. rewrite Hm, Hl. repeat (rewrite <- ?app_assoc; cbn). reflexivity.
Qed.
Print Assumptions C49_producer_order.

(** If the producers call one after the other, the calls are admitted in that
    order, and when nothing remains to be done and the consumer still waits,
    it has got every element and every call has returned. *)
Theorem C49_in_turn : forall A h (s : istate A), isteps in_turn i_init h s ->
  admitted s = map Some (i_calls s) /\
  (starving s -> exists vs, i_calls s = map OnNext vs /\ i_res s = map Returned vs /\
     i_ret s = map (fun id => (id, Success)) (seq 0 (length vs))).
Proof.
  intros A h s H. pose proof (steps_tidy H) as Ht. pose proof (tidy_admitted Ht) as Hm. split; [exact Hm|]. intros Hs.
  destruct (inv_starving (reach_inv (@in_turn_calm A) H) Hs) as (vs & H1 & H2 & H3). exists vs. rewrite Hm in H2.
  assert (E : i_calls s = map OnNext vs).
  { clear -H2. revert H2. generalize (i_calls s) (map (@OnNext A) vs). intros l. induction l as [|x l IH]; intros [|y r] E; try discriminate; [reflexivity|].
    cbn in E. injection E as -> E. f_equal. auto. }
  split; [exact E|]. split; [exact H3|]. rewrite H1. unfold rets. destruct Ht as [_ ->]. now rewrite E, map_length.
Qed.
Print Assumptions C49_in_turn.

(** If they call at the same time that is not so: a call that is made after
    the consumer has taken an element, but before the task of its sender has run
    again, finds the observer busy and is woken up by nobody ... *)
Definition held_back : list (@ilabel nat) :=
  [LArrive; LTurn [ANext; ASubscribed]; LArrive; LTurn [ASend (OnNext 1)]; LArrive;
   LTurn [ANext]; LTurn [ASend (OnNext 2)]; LTurn []].
Theorem C49_all_yielded_refuted :
  ~ (forall h (s : istate nat), isteps calm i_init h s -> starving s -> length (i_ret s) = length (i_calls s)).
Proof.
  intros F. destruct (irun calm i_init held_back) as [s|] eqn:E; [|vm_compute in E; discriminate].
  pose proof (proj2 (isteps_irun _ _ _ _) E) as H. specialize (F _ _ H). vm_compute in E. injection E as <-.
  specialize (F (conj eq_refl eq_refl)). discriminate.
Qed.
Print Assumptions C49_all_yielded_refuted.

(** ... a later call overtakes it, and if that one completes the stream the
    element is lost. *)
Theorem C49_lost : exists h (s : istate nat), isteps calm i_init h s /\
  i_calls s = [OnNext 1; OnNext 2; OnCompleted] /\ i_res s = [Returned 1; Raised StopAsyncIter] /\
  forall h' s', isteps calm s h' s' -> exists k, i_res s' = [Returned 1] ++ repeat (Raised StopAsyncIter) k.
Proof.
  exists (held_back ++ [LArrive; LTurn [ASend OnCompleted]; LTurn []]).
  destruct (irun calm i_init (held_back ++ [LArrive; LTurn [ASend OnCompleted]; LTurn []])) as [s|] eqn:E; [|vm_compute in E; discriminate].
  exists s. pose proof (proj2 (isteps_irun _ _ _ _) E) as H. split; [exact H|]. pose proof (reach_inv (fun _ _ H => H) H) as Hv.
  vm_compute in E. injection E as <-. split; [reflexivity|]. split; [reflexivity|]. intros h' s' H'.
  destruct (steps_still Hv eq_refl H') as (_ & _ & _ & _ & k & Hk). exists (S k). exact Hk.
Qed.
Print Assumptions C49_lost.

(** Nor are concurrent calls admitted in the order in which they are made. *)
Theorem C49_call_order_refuted :
  ~ (forall h (s : istate nat), isteps calm i_init h s -> forall a i b j c, i_adm s = a ++ i :: b ++ j :: c -> i < j).
Proof.
  intros F. set (h := [LArrive; LTurn [ANext; ASubscribed]; LArrive; LArrive; LTurn [ASend (OnNext 1)]; LTurn [ASend (OnNext 2)];
    LTurn [ANext]; LTurn [ASend (OnNext 3)]; LTurn []; LTurn []; LTurn []; LTurn []] : list (@ilabel nat)).
  destruct (irun calm i_init h) as [s|] eqn:E; [|vm_compute in E; discriminate].
  pose proof (proj2 (isteps_irun _ _ _ _) E) as H. specialize (F _ _ H). vm_compute in E. injection E as <-.
  specialize (F [0] 2 [] 1 [] eq_refl). lia.
Qed.
Print Assumptions C49_call_order_refuted.

Example C49_case : exists s, isteps in_turn i_init [LArrive; LTurn [ANext; ASubscribed]; LArrive; LTurn [ASend (OnNext 1)]; LTurn [ANext];
    LTurn [ASend (OnNext 2)]; LTurn [ANext]; LTurn []] s /\ starving s /\ i_res s = [Returned 1; Returned 2].
Proof. eexists. split; [apply isteps_irun; vm_compute; reflexivity|]. repeat split. Qed.

(** ** C50 *)
(** A call that has returned is that of an element, and the consumer has got it. *)
Theorem C50_returned : forall A h (s : istate A) id o, isteps calm i_init h s -> In (id, o) (i_ret s) ->
  o = Success /\ exists k v, nth_error (i_adm s) k = Some id /\ nth_error (i_calls s) id = Some (OnNext v) /\ nth_error (i_res s) k = Some (Returned v).
Proof.
  intros A h s id o H Hin. destruct (inv_returned (reach_inv (fun _ _ H => H) H)) as (a & Ha & [l Hl] & Hk).
  rewrite Ha in Hin. unfold rets in Hin. apply in_map_iff in Hin as (x & E & F). injection E as -> <-. split; [reflexivity|].
  apply In_nth_error in F as [k F]. destruct (Hk _ _ F) as (v & H1 & H2). exists k, v. split; [|auto].
  rewrite Hl, nth_error_app1; [exact F|]. apply nth_error_Some. congruence.
Qed.
Print Assumptions C50_returned.

(** At most one notification is ever on its way. *)
Theorem C50_one : forall A h (s : istate A), isteps calm i_init h s -> length (i_adm s) <= S (length (i_res s)).
Proof.
  intros A h s H. destruct (C49_order H) as (vs & rest & errs & H1 & H2 & H3 & _).
  apply (f_equal (@length _)) in H1. unfold admitted in H1. rewrite !map_length, app_length, map_length in H1. rewrite H2, app_length, map_length. lia.
Qed.
Print Assumptions C50_one.

(** The sender is released: when all that was ready has run, the call whose
    element was picked up has returned; and while the consumer waits no call is
    admitted and unanswered. *)
Theorem C50_released : forall A h (s : istate A), isteps calm i_init h s -> i_ready s = [] ->
  (forall k id v, nth_error (i_adm s) k = Some id -> nth_error (i_res s) k = Some (Returned v) -> In (id, Success) (i_ret s)) /\
  (i_cons s = CWaiting -> i_ret s = map (fun id => (id, Success)) (i_adm s)).
Proof.
  intros A h s H Hr. pose proof (reach_inv (fun _ _ H => H) H) as Hv. split.
  - intros k id v. exact (inv_released _ Hv Hr).
  - intros Hc. destruct (inv_starving Hv (conj Hr Hc)) as (vs & E & _). exact E.
Qed.
Print Assumptions C50_released.

(** Whatever is ready can run. *)
Theorem C50_runs : forall A h (s : istate A), isteps calm i_init h s -> i_ready s <> [] -> exists s', istep calm s (LTurn []) = Some s'.
Proof. intros A h s H. exact (turn_possible _ (reach_inv (fun _ _ H => H) H)). Qed.
Print Assumptions C50_runs.

(** The consumer does something else: the first call waits for it, the second for the first. *)
Example C50_case : exists s, isteps calm i_init [LArrive; LArrive; LTurn [ASend (OnNext 1)]; LTurn [ASend (OnNext 2)]] s /\
  i_ready s = [] /\ i_adm s = [0] /\ i_ret s = [].
Proof. eexists. split; [apply isteps_irun; vm_compute; reflexivity|]. repeat split. Qed.

(** ** C51 *)
(** A call of aclose or athrow was admitted: nothing is admitted any more, it
    never returns, and every __anext__ raises its error. *)
Theorem C51_sticky : forall A h h' (s s' : istate A) id n,
  isteps calm i_init h s -> In id (i_adm s) -> nth_error (i_calls s) id = Some n -> is_term n = true -> isteps calm s h' s' ->
  i_adm s' = i_adm s /\ ~ In id (map fst (i_ret s')) /\ i_ret s' = i_ret s /\
  exists k, i_res s' = i_res s ++ repeat (Raised (err n)) k.
Proof.
  intros A h h' s s' id n H Hin Hc Ht H'. pose proof (reach_inv (fun _ _ H => H) H) as Hv.
  destruct (inv_terminal _ Hv Hin Hc Ht) as (Hp & Hr & _). destruct (steps_still Hv Hp H') as (_ & _ & E1 & E2 & E3).
  rewrite E2. auto.
Qed.
Print Assumptions C51_sticky.

(** None of them waits for ever, and those to come do not wait at all. *)
Theorem C51_answered : forall A h (s : istate A) id n,
  isteps calm i_init h s -> In id (i_adm s) -> nth_error (i_calls s) id = Some n -> is_term n = true ->
  ~ starving s /\ (i_cons s = CIdle -> i_sub s = true -> exists s', do_act s ANext = Some (s', false) /\ i_res s' = i_res s ++ [Raised (err n)]).
Proof.
  intros A h s id n H Hin Hc Ht. pose proof (reach_inv (fun _ _ H => H) H) as Hv.
  destruct (inv_terminal _ Hv Hin Hc Ht) as (Hp & _ & Hw). split; [intros [F G]; exact (Hw F G)|].
  intros Hi Hs. cbn. unfold next_, await_push, pushed. rewrite Hi, Hs, Hp. cbn. eexists. split; reflexivity.
Qed.
Print Assumptions C51_answered.

Example C51_case : exists s : istate nat, isteps calm i_init [LArrive; LTurn [ANext; ASubscribed]; LArrive; LTurn [ASend (OnError ValueError)]; LTurn [ANext; ANext]] s /\
  i_adm s = [0] /\ i_res s = [Raised ValueError; Raised ValueError; Raised ValueError].
Proof. eexists. split; [apply isteps_irun; vm_compute; reflexivity|]. repeat split. Qed.

(** ** C58 *)
(** The consumer waits for an element and is cancelled (a timeout, say): from
    then on every __anext__ is cancelled at once, and no call made later ever
    succeeds.  Whatever the users do. *)
Theorem C58_dead : forall A h h' (s s' : istate A), isteps calm i_init h s -> starving s ->
  isteps anything s ([LArrive; LTurn [ACancelNext]] ++ h') s' ->
  (exists k, i_res s' = i_res s ++ repeat Cancelled k) /\
  (forall id, In (id, Success) (i_ret s') -> id < length (i_calls s)).
Proof.
  intros A h h' s s' H Hs H'. pose proof (reach_inv (fun _ _ H => H) H) as Hv. apply isteps_app in H' as (s1 & H1 & H2). apply isteps_irun in H1.
  destruct (cancel_next_dead Hv Hs H1) as (Hp & Hr & Ht & Hn & Hc).
  destruct (dead_push_keep Hp H2) as (_ & [k Hk] & _ & Hi). split; [exists k; congruence|].
  intros id F. destruct (Hi id F) as [G|G]; [|elim (Hn _ G)]. rewrite Ht in G.
  destruct (C50_returned _ _ H G) as (_ & j & v & E & _). apply nth_error_In in E. destruct (C49_once H) as [_ B].
  rewrite Forall_forall in B. auto.
Qed.
Print Assumptions C58_dead.

(** The next call gets InvalidStateError, those after it wait for ever. *)
Example C58_case : exists s, isteps anything i_init [LArrive; LTurn [ANext; ASubscribed]; LArrive; LTurn [ACancelNext]; LTurn [ANext];
    LArrive; LTurn [ASend (OnNext 1); ASend (OnNext 2)]] s /\
  i_res s = [Cancelled; Cancelled] /\ i_ret s = [(0, Exception InvalidState)] /\ i_wait s = [(1, FPending)] /\ i_ready s = [].
Proof. eexists. split; [apply isteps_irun; vm_compute; reflexivity|]. repeat split. Qed.

(** If the element is there already, it is not lost: the next __anext__ gets it. *)
Example C58_case_late : exists s, isteps anything i_init [LArrive; LTurn [ANext; ASubscribed]; LArrive; LArrive; LTurn [ASend (OnNext 1)]; LTurn [ACancelNext];
    LTurn [ANext]] s /\ i_res s = [Cancelled; Returned 1].
Proof. eexists. split; [apply isteps_irun; vm_compute; reflexivity|]. repeat split. Qed.

(** ** C59 *)
(** A call that is admitted and not picked up yet, or the first of those that
    wait to be admitted, is cancelled: from then on no __anext__ yields an
    element.  Whatever the users do. *)
Theorem C59_dead : forall A h h' (s s' : istate A) id, isteps calm i_init h s -> i_ready s = [] ->
  (In id (i_adm s) \/ exists f w, i_wait s = (id, f) :: w) ->
  isteps anything s ([LArrive; LTurn [ACancelSend id]] ++ h') s' ->
  exists l, i_res s' = i_res s ++ l /\ forall v, ~ In (Returned v) l.
Proof.
  intros A h h' s s' id H Hr Hid H'. pose proof (reach_inv (fun _ _ H => H) H) as Hv. apply isteps_app in H' as (s1 & H1 & H2). apply isteps_irun in H1.
  destruct (cancel_send_dead Hv Hr Hid H1) as (E & [[H3 H4]|[w H3]]).
  - destruct (dead_pull_keep H3 H4 H2) as (_ & _ & l & H5 & H6). exists l. split; [congruence|exact H6].
  - destruct (dead_wait_keep H3 H2) as (_ & l & H5 & H6). exists l. split; [congruence|exact H6].
Qed.
Print Assumptions C59_dead.

(** The element sent before is lost with InvalidStateError. *)
Example C59_case : exists s, isteps anything i_init [LArrive; LArrive; LTurn [ASend (OnNext 1)]; LTurn [ASend (OnNext 2)]; LArrive; LTurn [ACancelSend 1]; LTurn [];
    LArrive; LTurn [ANext; ASubscribed]] s /\ i_res s = [Raised InvalidState] /\ i_ret s = [(1, CallCancelled)].
Proof. eexists. split; [apply isteps_irun; vm_compute; reflexivity|]. repeat split. Qed.
