(** * C67: a subscription to a pipeline reaches every source *)
From Verif Require Import TreeProofs.
Set Implicit Arguments.

(** If no source raises, every source is subscribed to exactly once, nothing is
    disposed, and the subscriber gets a disposable. *)
Theorem C67_subscribes (sf : nat -> option exn) (o : obs) :
  (forall i, In i (written o) -> sf i = None) ->
  Permutation (subscribed (fst (subscribe sf o))) (written o) /\
  disposed (fst (subscribe sf o)) = [] /\ exists d, snd (subscribe sf o) = Ok d.
Proof.
  intros H. assert (Hr : raised sf (sources o) = None).
  { apply raised_none. intros i Hi. apply H. now rewrite <- sources_written. }
  destruct (subscribe_log sf o) as [E R]. rewrite E, up_to_raise_none, subscribed_map, disposed_map by exact Hr.
  repeat split; [apply sources_written|]. destruct (snd (subscribe sf o)) as [d|e]; [now exists d|congruence].
Qed.
Print Assumptions C67_subscribes.

(** In general: in the order [sources], up to the first one that raises, and
    subscribe_async raises the same. *)
Theorem C67_subscribes_until_raise (sf : nat -> option exn) (o : obs) :
  fst (subscribe sf o) = map ESub (up_to_raise sf (sources o)) /\
  match snd (subscribe sf o) with
  | Ok _ => raised sf (sources o) = None
  | Err e => raised sf (sources o) = Some e
  end.
Proof. apply subscribe_log. Qed.
Print Assumptions C67_subscribes_until_raise.

(** Disposing the subscription disposes the subscription of every source exactly
    once and stops every operator with a worker exactly once. *)
Theorem C67_disposes (sf df : nat -> option exn) (o : obs) (d : disp) :
  snd (subscribe sf o) = Ok d -> (forall i, In i (written o) -> df i = None) ->
  disposed (fst (fst (dispose df d))) = written o /\
  Permutation (disposed (fst (fst (dispose df d)))) (subscribed (fst (subscribe sf o))) /\
  Permutation (stopped (fst (fst (dispose df d)))) (workers o) /\
  snd (fst (dispose df d)) = None.
Proof.
  intros Hd H. apply raised_none in H. destruct (subscribe_log sf o) as [E R]. rewrite Hd in R.
  rewrite (subscribe_fresh _ _ Hd). destruct (dispose_fresh df o) as [D X]. rewrite D, X, up_to_raise_none by exact H.
  repeat split; [|now apply stop_fresh|exact H].
  rewrite E, up_to_raise_none, subscribed_map by exact R. symmetry. apply sources_written.
Qed.
Print Assumptions C67_disposes.

(** Disposing again, any number of times: the sources that have no operator with
    a disposable of its own around them are disposed again each time, the others
    and the workers are not. *)
Theorem C67_disposes_again (sf df : nat -> option exn) (o : obs) (d : disp) (n : nat) :
  snd (subscribe sf o) = Ok d -> (forall i, In i (written o) -> df i = None) ->
  disposed (fst (dispose_times df (S n) d)) = written o ++ concat (repeat (unguarded o) n) /\
  Permutation (stopped (fst (dispose_times df (S n) d))) (workers o).
Proof. intros Hd H. rewrite (subscribe_fresh _ _ Hd). apply times_fresh. now apply raised_none. Qed.
Print Assumptions C67_disposes_again.

(** If the disposable of a source raises: those after it are not reached, and
    the exception comes out of dispose_async. *)
Theorem C67_dispose_raises (sf df : nat -> option exn) (o : obs) (d : disp) :
  snd (subscribe sf o) = Ok d ->
  disposed (fst (fst (dispose df d))) = up_to_raise df (written o) /\
  snd (fst (dispose df d)) = raised df (written o).
Proof. intros Hd. rewrite (subscribe_fresh _ _ Hd). apply dispose_fresh. Qed.
Print Assumptions C67_dispose_raises.

(** Around an operator with a disposable of its own nothing can be made up for
    later: after one dispose_async, however it ended, no further one does
    anything, whatever the sources' disposables would do now. *)
Theorem C67_no_second_chance (sf df df2 : nat -> option exn) (x : own) (o : obs) (d : disp) :
  snd (subscribe sf (Once x o)) = Ok d ->
  fst (dispose df2 (snd (dispose df d))) = ([], None).
Proof. intros Hd. rewrite (subscribe_fresh _ _ Hd). apply once_dead. Qed.
Print Assumptions C67_no_second_chance.

(** A subscription that fails is undone: refuted.  combine_latest of two sources
    the second of which raises in subscribe_async leaves the first one subscribed,
    and there is no disposable to dispose it with. *)
Theorem C67_undone_refuted :
  exists (sf : nat -> option exn) (o : obs) (e : exn),
    snd (subscribe sf o) = Err e /\ subscribed (fst (subscribe sf o)) = [0; 1] /\ disposed (fst (subscribe sf o)) = [].
Proof. exists (fun i => if Nat.eqb i 1 then Some (UserExn 7) else None), (Both (Src 0) (Src 1)), (UserExn 7). vm_compute. auto. Qed.
Print Assumptions C67_undone_refuted.

(** dispose_async disposes everything although one disposable raises, or does so
    when called again: refuted (merge around combine_latest). *)
Theorem C67_all_disposed_refuted :
  exists (sf df : nat -> option exn) (o : obs) (d : disp),
    snd (subscribe sf o) = Ok d /\ written o = [0; 1] /\
    forall n, disposed (fst (dispose_times df (S n) d)) = [0] /\ stopped (fst (dispose_times df (S n) d)) = [].
Proof.
  exists (fun _ => None), (fun i => if Nat.eqb i 0 then Some (UserExn 7) else None), (Once (Last 9) (Both (Src 0) (Src 1))).
  eexists. split; [reflexivity|]. split; [reflexivity|]. intros n. cbn.
  assert (H : forall m, fst (dispose_times (fun i => if Nat.eqb i 0 then Some (UserExn 7) else None) m (DOnce true (Last 9) (DAll (DSrc 0) (DSrc 1)))) = []).
  { induction m as [|m IH]; [reflexivity|]. cbn. destruct (dispose_times _ m _) as [l2 d2]. exact IH. }
  specialize (H n). destruct (dispose_times _ n _) as [l2 d2]. cbn in *. subst l2. auto.
Qed.
Print Assumptions C67_all_disposed_refuted.

(** A pipeline: take_until of (merge of map of source 0) and (combine_latest of
    source 1 and delay of source 2), beneath map. *)
Definition sample_pipe : obs := Pass (Until (Once (Last 10) (Pass (Src 0))) (Both (Src 1) (Once (First 11) (Src 2)))).
Example C67_example : let '(l, r) := subscribe (fun _ => None) sample_pipe in
  subscribed l = [1; 2; 0] /\
  exists d, r = Ok d /\
    dispose_times (fun _ => None) 2 d =
      ([EDisp 0; EStop 10; EDisp 1; EStop 11; EDisp 2; EDisp 1],
       DAll (DOnce true (Last 10) (DSrc 0)) (DAll (DSrc 1) (DOnce true (First 11) (DSrc 2)))).
Proof. vm_compute. split; [reflexivity|]. eexists. split; reflexivity. Qed.
Example C67_example_raises :
  exists d, snd (subscribe (fun _ => None) sample_pipe) = Ok d /\
    fst (dispose (fun i => if Nat.eqb i 1 then Some (UserExn 3) else None) d) = ([EDisp 0; EStop 10; EDisp 1], Some (UserExn 3)).
Proof. eexists. split; reflexivity. Qed.
