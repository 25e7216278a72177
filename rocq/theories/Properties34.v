(** * Property C76: pipelines subscribed to an AsyncSubject, end to end.

    [breach h b]: history [h] leads to [b]; in [h] pipelines are subscribed
    ([BSub pol p], numbered from 0) and disposed ([BUnsub k]), the subject is
    called ([BCall n]: asend, athrow or aclose), and each call goes on ([BGo],
    [BRet], [BExn]) as the observers it awaits do.  [at_subject h]: the calls and
    subscriptions alone; [heard o (at_subject h)]: what was sent while pipeline
    [o] was subscribed (Subject.v).  [Line pol p x] is pipeline [p] with subscriber
    [pol] in state [x]; [tlog x]: what its subscriber has been told. *)
From Verif Require Import ColdProofs HotProofs Properties1 Properties2 SubjectProofs ThreadsProofs HubProofs.
Set Implicit Arguments.

(** Calls of the subject made one after the other, none of which raises: each
    pipeline does what it would do if its source had made just the calls that
    were sent while it was subscribed, each a single step.  (So that C12 to C38
    say what its subscriber is told.) *)
Theorem C76_each_as_if_alone : forall A (h : list (blabel A)) b o Z (pol : policy Z) (p : pipe Z A) x,
  breach h b -> in_turn h -> (forall c e, ~ In (BExn c e) h) -> nth_error (b_lines b) o = Some (Line pol p x) ->
  (u_idle (b_subj b) -> sees (psys pol p) (heard o (at_subject h)) (tlog x)) /\
  (u_idle (b_subj b) -> settled_line (Line pol p x) -> finally (psys pol p) (heard o (at_subject h)) (tlog x)) /\
  exists ms later l, heard o (at_subject h) = ms ++ later /\ sees (psys pol p) ms l /\ prefix (tlog x) l.
Proof.
  intros A h b o Z pol p x H T X Hv. destruct (hot_sees o H (in_turn_awaited H T X) Hv) as (H1 & H2 & H3).
  split; [exact H1|]. split; [|exact H3]. intros Hi [_ Q]. exact (H2 Hi Q).
Qed.
Print Assumptions C76_each_as_if_alone.

Theorem C76_delivers : forall A (h : list (blabel A)) b o Z (pol : policy Z) (p : pipe Z A) x out,
  breach h b -> in_turn h -> (forall c e, ~ In (BExn c e) h) -> nth_error (b_lines b) o = Some (Line pol p x) ->
  delivers (psys pol p) (heard o (at_subject h)) out ->
  prefix (tlog x) out /\ (u_idle (b_subj b) -> settled_line (Line pol p x) -> tlog x = out).
Proof.
  intros A h b o Z pol p x out H T X Hv D. destruct (hot_delivers o H (in_turn_awaited H T X) Hv D) as (H1 & H2).
  split; [exact H1|]. intros Hi [_ Q]. exact (H2 Hi Q).
Qed.
Print Assumptions C76_delivers.

(** What is sent to a pipeline obeys the grammar, whatever the callers of the
    subject do. *)
Theorem C76_grammar : forall A (h : list (blabel A)) b o, breach h b -> exists vs e, heard o (at_subject h) = trace vs e.
Proof. intros A h b o H. exact (hot_grammar o H). Qed.
Print Assumptions C76_grammar.

(** For instance take(n): the first n elements sent while it was subscribed. *)
Theorem C76_take : forall A (h : list (blabel A)) b o n opr x,
  breach h b -> in_turn h -> (forall c e, ~ In (BExn c e) h) ->
  take_ n = Ok opr -> nth_error (b_lines b) o = Some (Line well_behaved (opr PEnd) x) ->
  exists vs e, heard o (at_subject h) = trace vs e /\ prefix (tlog x) (take_out n vs e) /\
    (u_idle (b_subj b) -> settled_line (Line well_behaved (opr PEnd) x) -> tlog x = take_out n vs e).
Proof.
  intros A h b o n opr x H T X Hn Hv. destruct (C76_grammar o H) as (vs & e & E). exists vs, e. split; [exact E|].
  apply (@C76_delivers _ _ _ _ _ _ _ _ (take_out n vs e) H T X Hv). rewrite E.
  pose proof (@C12_take_hot A A well_behaved n opr PEnd vs e [] Hn (take_out n vs e)) as B.
  unfold source_calls in B. replace (match e with Open => [] | _ => [] end) with (@nil (notif A)) in B by (destruct e; reflexivity).
  rewrite app_nil_r in B. apply B.
  assert (G : exists ws e', take_out n vs e = trace ws e').
  { unfold take_out. destruct (_ && _)%bool; [eauto|]. destruct (n =? 0)%Z; eauto. }
  destruct G as (ws & e' & G). exact (delivers_trace ws e' G).
Qed.
Print Assumptions C76_take.

(** No pipeline disturbs another: two subjects, used in different ways and with
    different other pipelines, that have sent the same to a pipeline. *)
Theorem C76_isolated : forall A (h h' : list (blabel A)) b b' o o' Z (pol : policy Z) (p : pipe Z A) x x',
  breach h b -> in_turn h -> (forall c e, ~ In (BExn c e) h) -> nth_error (b_lines b) o = Some (Line pol p x) ->
  breach h' b' -> in_turn h' -> (forall c e, ~ In (BExn c e) h') -> nth_error (b_lines b') o' = Some (Line pol p x') ->
  heard o (at_subject h) = heard o' (at_subject h') ->
  u_idle (b_subj b) -> settled_line (Line pol p x) -> u_idle (b_subj b') -> settled_line (Line pol p x') ->
  tlog x = tlog x'.
Proof.
  intros A h h' b b' o o' Z pol p x x' H T X Hv H' T' X' Hv' E I S I' S'.
  destruct (C76_each_as_if_alone o H T X Hv) as (_ & F & _). destruct (C76_each_as_if_alone o' H' T' X' Hv') as (_ & F' & _).
  specialize (F I S). specialize (F' I' S'). rewrite E in F. destruct F as (s & R & Q & <-), F' as (s' & R' & Q' & <-).
  now rewrite (C06_schedule_independent _ _ R Q R' Q').
Qed.
Print Assumptions C76_isolated.

(** If the functions of the user before the first mailbox do not raise, no call of
    the subject raises. *)
Theorem C76_no_exceptions : forall A (h : list (blabel A)) b, breach h b ->
  each_pipeline (fun Z pol p => courteous pol p) h -> forall c e, ~ In (BExn c e) h.
Proof. exact courteous_ok. Qed.
Print Assumptions C76_no_exceptions.

(** Several tasks call the subject at the same time.  If every pipeline has a
    mailbox before anything that suspends its caller, then the calls do not
    overlap (and all the above holds). *)
Theorem C76_mailbox_first : forall A (h : list (blabel A)) b, breach h b -> no_switch h ->
  each_pipeline (fun Z _ p => posting p) h -> in_turn h.
Proof. intros A h b H S P. exact (posting_in_turn H P S). Qed.
Print Assumptions C76_mailbox_first.

(** ... otherwise each pipeline without async functions of the user before its
    first mailbox does what it would do with the calls in the order in which they
    reached its observer. *)
Theorem C76_overlapping : forall A (h : list (blabel A)) b o Z (pol : policy Z) (p : pipe Z A) x,
  breach h b -> nth_error (b_lines b) o = Some (Line pol p x) -> no_await p ->
  sees (psys pol p) (received o (b_subj b)) (tlog x) /\
  (settled_line (Line pol p x) -> finally (psys pol p) (received o (b_subj b)) (tlog x)).
Proof. intros A h b o Z pol p x H Hv N. exact (hot_no_await o H Hv N). Qed.
Print Assumptions C76_overlapping.

(** No call of the subject gets stuck. *)
Theorem C76_progress : forall A (h : list (blabel A)) b c n o rest,
  breach h b -> nth_error (u_calls (b_subj b)) c = Some (Flying n o rest) ->
  exists y b', bstep b y = Some b' /\ (y = BGo c \/ y = BRet c \/ exists e, y = BExn c e).
Proof. exact hot_progress. Qed.
Print Assumptions C76_progress.

(** ... and from any moment on, without further calls, everything comes to rest
    (so that the ends of executions, above, exist). *)
Theorem C76_comes_to_rest : forall A (h : list (blabel A)) b, breach h b ->
  exists h' b', Forall going h' /\ breach (h ++ h') b' /\ u_idle (b_subj b') /\ forall v, In v (b_lines b') -> settled_line v.
Proof. exact hot_settles. Qed.
Print Assumptions C76_comes_to_rest.

(** ** What does not hold *)

(** A mapper that raises: the exception reaches the caller of the subject, and
    the pipelines subscribed later do not get the element. *)
Theorem C76_isolation_refuted :
  ~ (forall (h : list (blabel nat)) b o x,
       breach h b -> in_turn h -> nth_error (b_lines b) o = Some (Line well_behaved (@PEnd nat) x) ->
       u_idle (b_subj b) -> tlog x = heard o (at_subject h)).
Proof.
  intros F.
  pose (h := [BSub well_behaved (map_ (fun n : nat => if n =? 0 then Err KeyError else Ok n) PEnd); BSub well_behaved (@PEnd nat);
              BCall (OnNext 0); BExn 0 KeyError]).
  destruct (brun b_init h) as [b|] eqn:R; [|vm_compute in R; discriminate].
  pose proof (brun_init h R) as Hr.
  assert (T : in_turn h) by (apply in_turnb_ok; vm_compute; reflexivity).
  assert (V : exists x, nth_error (b_lines b) 1 = Some (Line well_behaved (@PEnd nat) x) /\ tlog x = []).
  { vm_compute in R. injection R as <-. eexists. split; reflexivity. }
  destruct V as (x & V & L).
  assert (I : u_idle (b_subj b)) by (vm_compute in R; injection R as <-; apply idleb_ok; reflexivity).
  specialize (F h b 1 x Hr T V I). rewrite L in F. vm_compute in F. discriminate F.
Qed.
Print Assumptions C76_isolation_refuted.

(** Two tasks call the subject at the same time: the subscribers may be told the
    elements in different orders. *)
Theorem C76_same_order_refuted :
  ~ (forall (h : list (blabel nat)) b x y, breach h b -> no_switch h -> u_idle (b_subj b) ->
       nth_error (b_lines b) 0 = Some (Line well_behaved (@PEnd nat) x) ->
       nth_error (b_lines b) 1 = Some (Line well_behaved (@PEnd nat) y) -> tlog x = tlog y).
Proof.
  intros F.
  pose (h := [BSub well_behaved (@PEnd nat); BSub well_behaved (@PEnd nat);
              BCall (OnNext 1); BCall (OnNext 2); BGo 1; BRet 1; BGo 0; BRet 0; BGo 1; BRet 1; BGo 0; BRet 0]).
  destruct (brun b_init h) as [b|] eqn:R; [|vm_compute in R; discriminate].
  pose proof (brun_init h R) as Hr.
  assert (T : no_switch h) by (apply no_switchb_ok; vm_compute; reflexivity).
  assert (V : exists x y, nth_error (b_lines b) 0 = Some (Line well_behaved (@PEnd nat) x) /\
     nth_error (b_lines b) 1 = Some (Line well_behaved (@PEnd nat) y) /\ tlog x = [OnNext 1; OnNext 2] /\ tlog y = [OnNext 2; OnNext 1]).
  { vm_compute in R. injection R as <-. eexists. eexists. repeat split; reflexivity. }
  destruct V as (x & y & V1 & V2 & L1 & L2).
  assert (I : u_idle (b_subj b)) by (vm_compute in R; injection R as <-; apply idleb_ok; reflexivity).
  specialize (F h b x y Hr T I V1 V2). rewrite L1, L2 in F. discriminate F.
Qed.
Print Assumptions C76_same_order_refuted.

(** ** Examples *)

(** Two subscribers of different pipelines, one of which comes later and
    leaves early. *)
Definition ex76_take : pipe nat nat := match take_ 2 with Ok opr => opr PEnd | Err _ => PEnd end.
Definition ex76 : list (blabel nat) :=
  [BSub well_behaved ex76_take; BCall (OnNext 1); BRet 0;
   BSub well_behaved (map_async_ (fun n => Ok (n * 10)) PEnd);
   BCall (OnNext 2); BRet 1; BGo 1; BGo 1; BRet 1; BWork 0 0;
   BCall (OnNext 3); BRet 2; BGo 2; BGo 2; BRet 2; BUnsub 1;
   BCall (OnNext 4); BRet 3; BWork 0 0; BWork 0 0; BCall OnCompleted; BRet 4; BWork 0 0; BWork 0 0].

Example C76_case : exists b x y, breach ex76 b /\ in_turn ex76 /\ (forall c e, ~ In (BExn c e) ex76) /\
  each_pipeline (fun Z pol p => courteous pol p) ex76 /\
  nth_error (b_lines b) 0 = Some (Line well_behaved ex76_take x) /\ tlog x = [OnNext 1; OnNext 2; OnCompleted] /\
  heard 0 (at_subject ex76) = trace [1; 2; 3; 4] Completed /\
  nth_error (b_lines b) 1 = Some (Line well_behaved (map_async_ (fun n => Ok (n * 10)) PEnd) y) /\ tlog y = [OnNext 20; OnNext 30] /\
  heard 1 (at_subject ex76) = trace [2; 3] Open /\ u_idle (b_subj b) /\
  settled_line (Line well_behaved ex76_take x) /\ settled_line (Line well_behaved (map_async_ (fun n => Ok (n * 10)) PEnd) y).
Proof.
  eexists. eexists. eexists. split; [apply brun_init; vm_compute; reflexivity|].
  split; [apply in_turnb_ok; vm_compute; reflexivity|]. split; [apply no_exn_ok; reflexivity|].
  split.
  { intros z Hz. repeat (destruct Hz as [<-|Hz]; [try exact I|]); [|constructor..|destruct Hz].
    now apply co_take with (n := 2%Z) (opr := fun r => match take_ 2 with Ok opr => opr r | Err _ => r end).
    now constructor. }
  split; [reflexivity|]. split; [reflexivity|]. split; [reflexivity|]. split; [reflexivity|]. split; [reflexivity|].
  split; [reflexivity|]. split; [apply idleb_ok; reflexivity|].
  split; (split; [reflexivity|intros [|[|k]]; reflexivity]).
Qed.

(** Two tasks send at the same time to pipelines that begin with a mailbox. *)
Definition ex76m : list (blabel nat) :=
  [BSub well_behaved ex76_take; BSub well_behaved (map_ (fun n => Ok (n * 10)) (take_last_ 1 PEnd));
   BCall (OnNext 1); BRet 0; BRet 0; BCall (OnNext 2); BRet 1; BRet 1; BCall OnCompleted; BRet 2; BRet 2;
   BWork 0 0; BWork 1 0; BWork 1 0].

Example C76_mailbox_case : exists b, breach ex76m b /\ no_switch ex76m /\ each_pipeline (fun Z _ p => posting p) ex76m.
Proof.
  eexists. split; [apply brun_init; vm_compute; reflexivity|]. split; [apply no_switchb_ok; vm_compute; reflexivity|].
  intros z Hz. repeat (destruct Hz as [<-|Hz]; [try exact I|]); [| |destruct Hz].
  - now apply po_take with (n := 2%Z) (opr := fun r => match take_ 2 with Ok opr => opr r | Err _ => r end).
  - constructor. constructor.
Qed.
