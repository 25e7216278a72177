(** * Property C74: several subscribers of one from_async_iterable observable.

    [got i s]: the calls the observer of subscription [i] has got;
    [handed_out s]: all elements sent so far, to any of them, in order. *)
From Verif Require Import SharedAsyncProofs.
Set Implicit Arguments.

(** An async iterable with an iterator for each: every subscriber gets
    everything, whatever the others do. *)
Theorem C74_iterable : forall A (it : iterator A) xs e h s i,
  iterates it xs e -> areach (AIterable it) h s -> (forall x, ~ In (AOf i (GExn x)) h) ->
  prefix (got i s) (trace xs e) /\ (task_over i s -> ~ In (AOf i GCancel) h -> got i s = trace xs e).
Proof. exact @alone_all. Qed.
Print Assumptions C74_iterable.

(** A generator object that yields [xs] (and then ends, or raises [e]): every
    element goes to exactly one subscriber, in order. *)
Theorem C74_one_each : forall A (xs : list A) e h s,
  areach (ASuspended xs e) h s -> prefix (handed_out s) xs.
Proof. intros A xs e h s Hr. destruct (ai Hr) as (_ & _ & _ & _ & P). exact P. Qed.
Print Assumptions C74_one_each.

(** Every subscriber gets a grammatical part. *)
Theorem C74_grammar : forall A (o : ashared A) h s i, areach o h s -> grammatical (got i s).
Proof. exact @a_grammar. Qed.
Print Assumptions C74_grammar.

(** If nobody is disposed and no observer raises: when all tasks are over, the
    elements have all been handed out, and somebody was told of the completion
    if the generator ended normally. *)
Theorem C74_all : forall A (xs : list A) e h s,
  areach (ASuspended xs e) h s -> none_disposed h -> none_raised h ->
  a_subs s <> [] -> (forall i, i < length (a_subs s) -> task_over i s) ->
  handed_out s = xs /\ (e = None -> exists i, In OnCompleted (got i s)).
Proof. exact @all_handed_out. Qed.
Print Assumptions C74_all.

(** It goes on until all tasks are over. *)
Theorem C74_progress : forall A (xs : list A) e h s,
  areach (ASuspended xs e) h s ->
  (forall i, i < length (a_subs s) -> task_over i s) \/
  exists l s', (forall i, l <> AOf i GCancel) /\ (forall i x, l <> AOf i (GExn x)) /\ areach (ASuspended xs e) (h ++ [l]) s'.
Proof. exact @all_over_or_on. Qed.
Print Assumptions C74_progress.

(** The generator ends normally: whoever is not disposed, does not raise and
    never asks for an element while another one is waiting for one, is told of
    completion after its elements. *)
Theorem C74_told : forall A (xs : list A) h s i,
  areach (ASuspended xs None) h s -> task_over i s ->
  ~ In (AOf i GCancel) h -> (forall x, ~ In (AOf i (GExn x)) h) -> ~ overlapped (ASuspended xs None) i h ->
  exists vs, got i s = trace vs Completed.
Proof.
  intros A xs h s i Hr (u & Eu & Ov) N1 N2 N3. destruct (told Hr Eu N1 N2 N3) as [_ P].
  unfold aover in Ov. destruct (a_phase u); try discriminate; [exact P|destruct P].
Qed.
Print Assumptions C74_told.

(** A subscriber whose asend (the last call is OnNext) raises is told of its
    own exception, and nothing more. *)
Theorem C74_observer_raises : forall A (o : ashared A) h s i x h' s' l v,
  areach o h s -> got i s = l ++ [OnNext v] -> areach o (h ++ AOf i (GExn x) :: h') s' ->
  got i s' = l ++ [OnNext v; OnError x].
Proof. exact @raise_told. Qed.
Print Assumptions C74_observer_raises.

(** It is refuted that every subscriber of a generator is told how it ends:
    one that starts, or is ready for its next element, while another one is
    waiting for an element hears nothing any more, neither completion nor error. *)
Theorem C74_everybody_served_refuted : forall A (xs : list A) e h s i j x h' s',
  areach (ASuspended xs e) h s -> awaits_next j s -> i <> j -> x = GStart \/ x = GRet ->
  areach (ASuspended xs e) (h ++ AOf i x :: h') s' -> got i s' = got i s.
Proof. exact @overlap_silent. Qed.
Print Assumptions C74_everybody_served_refuted.

(** Nor are they told of an exception of the generator (or the iterable): an
    observer gets an error only if it raised it itself. *)
Theorem C74_error_told_refuted : forall A (o : ashared A) h s i x,
  areach o h s -> In (OnError x) (got i s) -> In (AOf i (GExn x)) h.
Proof.
  intros A o h s i x Hr F. apply (own_errors Hr). unfold got in F. apply in_map_iff in F as ([k n] & F1 & F2).
  apply filter_In in F2 as [F2 F3]. cbn in *. subst n. now apply Nat.eqb_eq in F3 as ->.
Qed.
Print Assumptions C74_error_told_refuted.

(** A disposed subscription hears nothing more. *)
Theorem C74_disposed : forall A (o : ashared A) h s i h' s',
  areach o h s -> areach o (h ++ AOf i GCancel :: h') s' -> got i s' = got i s.
Proof. exact @disposed_silent. Qed.
Print Assumptions C74_disposed.

(** It is refuted that disposing one subscription leaves the others alone: if
    it was waiting for an element of the generator, nobody gets an element any
    more (a subscriber that asks for its next one is told of completion, see C74_disposal_case). *)
Theorem C74_disposal_private_refuted : forall A (xs : list A) e h s i h' s',
  areach (ASuspended xs e) h s -> awaits_next i s ->
  areach (ASuspended xs e) (h ++ AOf i GCancel :: AThrown i :: h') s' ->
  handed_out s' = handed_out s.
Proof. exact @disposal_ends. Qed.
Print Assumptions C74_disposal_private_refuted.

(** Examples: two subscribers share the generator 4, 5, 6; the second one is
    left without completion. *)
Definition C74_turns : list alabel :=
  [ASubscribe; ASubscribe; AOf 0 GStart; AOf 0 GYield; AOf 1 GStart; AOf 1 GYield; AOf 0 GRet; AOf 1 GRet; AOf 0 GYield; AOf 0 GRet; AOf 0 GYield; AOf 0 GRet].
Example C74_case : exists s, areach (ASuspended [4; 5; 6] None) C74_turns s /\
  none_disposed C74_turns /\ none_raised C74_turns /\ a_subs s <> [] /\ (forall i, i < length (a_subs s) -> task_over i s) /\
  got 0 s = [OnNext 4; OnNext 6; OnCompleted] /\ got 1 s = [OnNext 5] /\ handed_out s = [4; 5; 6].
Proof.
  eexists. split; [apply arun_init; vm_compute; reflexivity|].
  split; [intros i F; cbn in F; intuition discriminate|]. split; [intros i e F; cbn in F; intuition discriminate|].
  split; [discriminate|]. split; [|now repeat split].
  intros [|[|i]] L; [eexists; split; reflexivity|eexists; split; reflexivity|cbn in L; lia].
Qed.

(** The moment at which the second one asks while the first one waits. *)
Example C74_overlap_case : exists s, areach (ASuspended [4; 5; 6] None) [ASubscribe; ASubscribe; AOf 0 GStart; AOf 0 GYield; AOf 1 GStart; AOf 1 GYield; AOf 0 GRet] s /\
  awaits_next 0 s /\ got 1 s = [OnNext 5] /\
  exists s', areach (ASuspended [4; 5; 6] None) ([ASubscribe; ASubscribe; AOf 0 GStart; AOf 0 GYield; AOf 1 GStart; AOf 1 GYield; AOf 0 GRet] ++ AOf 1 GRet :: [AOf 0 GYield]) s'.
Proof.
  eexists. split; [apply arun_init; vm_compute; reflexivity|]. split; [eexists; split; reflexivity|]. split; [reflexivity|].
  eexists. apply arun_init; vm_compute; reflexivity.
Qed.

(** The first one is disposed while it waits: the second one is told of completion. *)
Example C74_disposal_case : exists s s', areach (ASuspended [4; 5; 6] None) [ASubscribe; ASubscribe; AOf 0 GStart] s /\ awaits_next 0 s /\
  areach (ASuspended [4; 5; 6] None) ([ASubscribe; ASubscribe; AOf 0 GStart] ++ AOf 0 GCancel :: AThrown 0 :: [AOf 1 GStart; AOf 1 GRet]) s' /\
  got 0 s' = [] /\ got 1 s' = [OnCompleted].
Proof.
  eexists _, _. split; [apply arun_init; vm_compute; reflexivity|]. split; [eexists; split; reflexivity|].
  split; [apply arun_init; vm_compute; reflexivity|]. now split.
Qed.

(** An iterable with an iterator for each. *)
Example C74_iterable_case : let it := fun i => match i with 0 => Item 4 | _ => IStop end in
  iterates it [4] Completed /\
  exists s, areach (AIterable it) [ASubscribe; ASubscribe; AOf 0 GStart; AOf 1 GStart; AOf 1 GYield; AOf 0 GYield; AOf 1 GRet; AOf 1 GYield; AOf 1 GRet] s /\
    task_over 1 s /\ got 1 s = [OnNext 4; OnCompleted] /\ got 0 s = [OnNext 4].
Proof.
  intros it. split.
  - split; [|left; auto]. intros [|i] Hi; cbn in *; [eauto|lia].
  - eexists. split; [apply arun_init; vm_compute; reflexivity|]. split; [eexists; split; reflexivity|]. now split.
Qed.

(** The second one starts after the first one has got everything: both are told. *)
Definition C74_late : list alabel :=
  [ASubscribe; ASubscribe; AOf 0 GStart; AOf 0 GYield; AOf 0 GRet; AOf 0 GYield; AOf 1 GStart; AOf 1 GRet].
Example C74_told_case : exists s, areach (ASuspended [4] None) C74_late s /\ task_over 1 s /\
  ~ In (AOf 1 GCancel) C74_late /\ (forall x, ~ In (AOf 1 (GExn x)) C74_late) /\ ~ overlapped (ASuspended [4] None) 1 C74_late /\
  got 1 s = [OnCompleted].
Proof.
  eexists. split; [apply arun_init; vm_compute; reflexivity|]. split; [eexists; split; reflexivity|].
  split; [cbn; intuition discriminate|]. split; [cbn; intuition discriminate|]. split; [|reflexivity].
  intros (h1 & x & h2 & s1 & j & E & X & Hr & (u & Eu & Pu) & D).
  assert (W : h1 = [ASubscribe; ASubscribe; AOf 0 GStart; AOf 0 GYield; AOf 0 GRet; AOf 0 GYield] \/
              h1 = [ASubscribe; ASubscribe; AOf 0 GStart; AOf 0 GYield; AOf 0 GRet; AOf 0 GYield; AOf 1 GStart]).
  { unfold C74_late in E. repeat (destruct h1 as [|y h1]; [first [discriminate|now left|now right]|injection E as <- E]). destruct h1; discriminate. }
  destruct W as [->| ->]; apply areach_run in Hr; vm_compute in Hr; injection Hr as <-;
    destruct j as [|[|[|j]]]; cbn in Eu; try discriminate; injection Eu as <-; cbn in Pu; discriminate.
Qed.
