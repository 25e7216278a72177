(** * Property C72: switch_latest and flat_map_latest of cold observables.

    [content o] are the elements and the ending of the inner observable [o];
    the outer source sends the observables [os] and then ends with [oe].
    [sfollows]: the outer source and the subscriptions make their calls, in
    their order, at any time; the result is not disposed, subscribe_async and
    dispose_async do not raise.  [sfinished]: the outer source, and every
    subscription that was not disposed, has made its calls, and the worker rests. *)
From Verif Require Import ColdSwitchProofs Ops3Proofs.
Set Implicit Arguments.

Notation script content := (fun o => script_of (content o)).
(** The subscriber. *)
Notation gets reqs l := (delivers (psys well_behaved (safe PEnd)) reqs l).
(** A part of every observable is heard: a beginning of its elements. *)
Notation beginnings content ps os := (Forall2 (fun p o => prefix p (fst (content o))) ps os).

(** At the end the subscriber has got a beginning of every observable, and all
    elements of the last one; each in its order.  It does not get completion,
    unless there was no observable at all. *)
Theorem C72_switch : forall O A (content : O -> list A * ending) os oe h (s : sstate O A),
  (forall x, oe <> Failed x) -> (forall o x, In o os -> snd (content o) <> Failed x) ->
  sreach h s -> sfollows (script content) (trace os oe) h s -> sfinished (script content) (trace os oe) h s ->
  exists ps l, beginnings content ps os /\
    (forall os' o, os = os' ++ [o] -> exists ps', ps = ps' ++ [fst (content o)]) /\
    interleaves ps l /\
    gets (requests (w_log s)) (trace l (match os with [] => oe | _ => Open end)).
Proof.
  intros O A content os oe h s Ho Hc H F D. pose proof (ssubscribed content os oe H F D) as E.
  assert (L : length (keys (w_log s)) = length os) by (rewrite <- E; symmetry; apply subs_length).
  exists (parts h (length os)), (map snd (sends h)).
  split; [|split; [|split]].
  - pose proof (sparts (fun p o => prefix p (fst (content o))) H (fun k o Hk => sheard_prefix content os oe k o F Hk)) as P. now rewrite L, E in P.
  - intros os' o Eo. exact (slast_whole content oe os' o H F D Eo).
  - rewrite <- L. exact (parts_interleave H).
  - destruct (sgets content os Ho H F Hc) as (e & G & _ & Ge). now rewrite <- (Ge D).
Qed.
Print Assumptions C72_switch.

(** If a subscription falls silent when it is disposed or has completed: first
    the part of the first observable, then that of the second, ... *)
Theorem C72_in_order : forall O A (content : O -> list A * ending) os oe h (s : sstate O A),
  (forall x, oe <> Failed x) -> (forall o x, In o os -> snd (content o) <> Failed x) ->
  sreach h s -> sfollows (script content) (trace os oe) h s -> sfinished (script content) (trace os oe) h s ->
  silent_after_disposal h ->
  exists ps, beginnings content ps os /\
    (forall os' o, os = os' ++ [o] -> exists ps', ps = ps' ++ [fst (content o)]) /\
    gets (requests (w_log s)) (trace (concat ps) (match os with [] => oe | _ => Open end)).
Proof.
  intros O A content os oe h s Ho Hc H F D Q. pose proof (ssubscribed content os oe H F D) as E.
  assert (L : length (keys (w_log s)) = length os) by (rewrite <- E; symmetry; apply subs_length).
  exists (parts h (length os)). split; [|split].
  - pose proof (sparts (fun p o => prefix p (fst (content o))) H (fun k o Hk => sheard_prefix content os oe k o F Hk)) as P. now rewrite L, E in P.
  - intros os' o Eo. exact (slast_whole content oe os' o H F D Eo).
  - destruct (sgets content os Ho H F Hc) as (e & G & _ & Ge). rewrite <- (Ge D), <- L, <- (parts_concat H Q). exact G.
Qed.
Print Assumptions C72_in_order.

(** If a subscription makes all of its calls or none (as those of from_iterable
    do): every observable is heard completely or not at all, the last one
    completely. *)
Theorem C72_whole : forall O A (content : O -> list A * ending) os oe h (s : sstate O A),
  (forall x, oe <> Failed x) -> (forall o x, In o os -> snd (content o) <> Failed x) ->
  sreach h s -> sfollows (script content) (trace os oe) h s -> sfinished (script content) (trace os oe) h s ->
  (forall k o, In (ESub k o) (w_log s) -> inner_calls k h = [] \/ inner_calls k h = script content o) ->
  exists ps l, Forall2 (fun p o => p = [] \/ p = fst (content o)) ps os /\
    (forall os' o, os = os' ++ [o] -> exists ps', ps = ps' ++ [fst (content o)]) /\
    interleaves ps l /\
    gets (requests (w_log s)) (trace l (match os with [] => oe | _ => Open end)).
Proof.
  intros O A content os oe h s Ho Hc H F D W. pose proof (ssubscribed content os oe H F D) as E.
  assert (L : length (keys (w_log s)) = length os) by (rewrite <- E; symmetry; apply subs_length).
  exists (parts h (length os)), (map snd (sends h)). split; [|split; [|split]].
  - assert (X : forall k o, In (ESub k o) (w_log s) -> heard k h = [] \/ heard k h = fst (content o)).
    { intros k o Hk. destruct (W k o Hk) as [C|C]; [left; now rewrite heard_vals, C|right; now apply sheard_all]. }
    pose proof (sparts (fun p o => p = [] \/ p = fst (content o)) H X) as P. now rewrite L, E in P.
  - intros os' o Eo. exact (slast_whole content oe os' o H F D Eo).
  - rewrite <- L. exact (parts_interleave H).
  - destruct (sgets content os Ho H F Hc) as (e & G & _ & Ge). now rewrite <- (Ge D).
Qed.
Print Assumptions C72_whole.

(** Before the end: a beginning of every observable subscribed so far. *)
Theorem C72_so_far : forall O A (content : O -> list A * ending) os oe h (s : sstate O A),
  (forall x, oe <> Failed x) -> (forall o x, In o os -> snd (content o) <> Failed x) ->
  sreach h s -> sfollows (script content) (trace os oe) h s ->
  exists n ps l e, beginnings content ps (firstn n os) /\ interleaves ps l /\
    gets (requests (w_log s)) (trace l e) /\ (e = Open \/ (os = [] /\ e = Completed /\ oe = Completed)).
Proof.
  intros O A content os oe h s Ho Hc H F. destruct (sgets content os Ho H F Hc) as (e & G & Ge & _).
  exists (length (subscribed (w_log s))), (parts h (length (keys (w_log s)))), (map snd (sends h)), e. split; [|split; [|split]]; auto.
  - destruct (proj1 (s_in_order H)) as [c1 P1]. destruct (sarrived_prefix content os oe F) as [c2 P2].
    replace (firstn _ os) with (subscribed (w_log s)).
    + exact (sparts (fun p o => prefix p (fst (content o))) H (fun k o Hk => sheard_prefix content os oe k o F Hk)).
    + rewrite P2, P1, <- app_assoc, firstn_app, Nat.sub_diag, firstn_O, app_nil_r. symmetry. apply firstn_all.
  - exact (parts_interleave H).
Qed.
Print Assumptions C72_so_far.

(** The first error of an inner - even of one that is disposed - ends it. *)
Theorem C72_failure : forall O A (content : O -> list A * ending) os oe h1 k x h2 (s : sstate O A),
  (forall y, oe <> Failed y) ->
  sreach (h1 ++ LInner k (OnError x) :: h2) s -> sfollows (script content) (trace os oe) (h1 ++ LInner k (OnError x) :: h2) s ->
  (forall j y, ~ In (LInner j (OnError y)) h1) ->
  gets (requests (w_log s)) (trace (map snd (sends h1)) (Failed x)).
Proof.
  intros O A content os oe h1 k x h2 s Ho H F Hn. apply (delivers_iff (sane_psys _ _)), subscriber.
  rewrite (srequests content os oe H F).
  - unfold produced. rewrite flat_map_app. fold (produced h1).
    rewrite produced_sends.
    + cbn. unfold trace. generalize (map snd (sends h1)) as l. induction l as [|a l IH]; [reflexivity|]. cbn. now f_equal.
    + intros e He. unfold produced in He. apply in_flat_map in He as (l & Hl & He). destruct l as [[o|y|]|j [a|y|]| | |y]; cbn in He; try contradiction; destruct He as [He|[]]; try discriminate.
      * apply (sno_outer_error content os Ho F y). apply in_or_app. now left.
      * exact (Hn j y Hl).
  - intros Ea. pose proof (sends_arrived H Ea) as Ei. assert (X : In (k, OnError x) (icalls (h1 ++ LInner k (OnError x) :: h2))) by (apply in_calls, in_or_app; right; now left).
    now rewrite Ei in X.
Qed.
Print Assumptions C72_failure.

(** It ends: a history of this kind is not longer than a bound, and can always
    be continued to the end - even if disposed subscriptions make no more calls. *)
Theorem C72_finite : forall O A (content : O -> list A * ending) os oe h (s : sstate O A),
  sreach h s -> sfollows (script content) (trace os oe) h s ->
  length h <= 4 * (length (trace os oe) + list_sum (map (fun o => length (script content o)) os)).
Proof. intros O A content os oe h s H F. exact (sfinite content os oe H F). Qed.
Print Assumptions C72_finite.

Theorem C72_continues : forall O A (content : O -> list A * ending) os oe h (s : sstate O A),
  sreach h s -> sfollows (script content) (trace os oe) h s ->
  sfinished (script content) (trace os oe) h s \/
  exists l s', sreach (h ++ [l]) s' /\ sfollows (script content) (trace os oe) (h ++ [l]) s' /\
    match l with LInner k _ => ~ In k (disposed (w_log s)) | _ => True end.
Proof.
  intros O A content os oe h s H F. destruct (sprogress H F) as [D|(l & s' & Hs & F' & Q)]; [now left|].
  right. exists l, s'. split; [exact (@sr_snoc _ _ _ _ _ _ H Hs)|now split].
Qed.
Print Assumptions C72_continues.

(** flat_map_latest: the outer calls are those map(f) makes. *)
Theorem C72_flat_map_latest : forall X O A (f : X -> O) (content : O -> list A * ending) xs junk outer h (s : sstate O A),
  (forall x y, In x xs -> snd (content (f x)) <> Failed y) ->
  delivers (psys well_behaved (safe (map_ (fun x => Ok (f x)) PEnd))) (source_calls xs Completed junk) outer ->
  sreach h s -> sfollows (script content) outer h s -> sfinished (script content) outer h s ->
  exists ps l, beginnings (fun x => content (f x)) ps xs /\
    (forall xs' x, xs = xs' ++ [x] -> exists ps', ps = ps' ++ [fst (content (f x))]) /\
    interleaves ps l /\
    gets (requests (w_log s)) (trace l (match xs with [] => Completed | _ => Open end)).
Proof.
  intros X O A f content xs junk outer h s Hall Hd. apply (delivers_iff (sane_psys _ _)), map_stage, subscriber in Hd.
  unfold map_out in Hd. rewrite results_total in Hd. cbn [or_failed] in Hd. rewrite norm_trace0 in Hd. subst outer.
  intros H F D. destruct (@C72_switch O A content (map f xs) Completed h s) as (ps & l & P1 & P2 & P3 & P4); auto; [discriminate| |].
  - intros o x Ho. apply in_map_iff in Ho as (y & <- & Hy). now apply Hall.
  - exists ps, l. split; [|split; [|split]].
    + clear -P1. revert ps P1. induction xs as [|x xs IH]; intros ps P; inversion P; subst; constructor; auto.
    + intros xs' x ->. apply (P2 (map f xs') (f x)). now rewrite map_app.
    + exact P3.
    + now destruct xs.
Qed.
Print Assumptions C72_flat_map_latest.

(** Three observables; the second arrives while the first runs, the third
    before the second has begun to send. *)
Definition C72_content (o : nat) : list nat * ending := ([o; S o], Completed).
Definition C72_history : list (mlabel nat nat) :=
  [LOuter (OnNext 10); LWork; LInner 1 (OnNext 10); LWork; LOuter (OnNext 20); LWork; LWork; LWork; LOuter (OnNext 30); LWork;
   LOuter OnCompleted; LWork; LInner 3 (OnNext 30); LWork; LInner 3 (OnNext 31); LInner 3 OnCompleted; LWork; LWork].
Example C72_case : exists s, sreach C72_history s /\
  sfollows (script C72_content) (trace [10; 20; 30] Completed) C72_history s /\
  sfinished (script C72_content) (trace [10; 20; 30] Completed) C72_history s /\
  requests (w_log s) = [OnNext 10; OnNext 30; OnNext 31] /\ disposed (w_log s) = [1; 2].
Proof.
  eexists. split; [apply srun_init; vm_compute; reflexivity|].
  assert (E : forall l, In l C72_history -> l <> LCancel /\ forall e, l <> LFail e)
    by (intros l Hl; cbn in Hl; repeat (destruct Hl as [<-|Hl]; [split; discriminate|]); contradiction).
  split; [split; [intros l Hl; now apply E|]; split; [intros e He; now apply (proj2 (E _ He) e)|]; split; [exists []; reflexivity|]|split; [split; [reflexivity|split; [|reflexivity]]|split; reflexivity]].
  - intros k o Ho. cbn in Ho. repeat (destruct Ho as [[= <- <-]|Ho] || destruct Ho as [Ho|Ho]); try discriminate; try contradiction; cbn; eexists; reflexivity.
  - intros k o Ho Hd. cbn in Ho. repeat (destruct Ho as [[= <- <-]|Ho] || destruct Ho as [Ho|Ho]); try discriminate; try contradiction; try reflexivity; elim Hd; vm_compute; auto.
Qed.
Example C72_case_silent : silent_after_disposal C72_history.
Proof. apply quiet_run_silent. vm_compute. reflexivity. Qed.

(** The first observable fails after it has been disposed; it is heard all the same. *)
Definition C72_failing (o : nat) : list nat * ending := ([o], Failed ValueError).
Definition C72_failure_history : list (mlabel nat nat) :=
  [LOuter (OnNext 10); LWork; LInner 1 (OnNext 10); LWork; LOuter (OnNext 20); LWork; LWork; LWork; LInner 2 (OnNext 20)] ++
  LInner 1 (OnError ValueError) :: [LInner 2 (OnError ValueError); LOuter OnCompleted; LWork].
Example C72_failure_case : exists s, sreach C72_failure_history s /\
  sfollows (script C72_failing) (trace [10; 20] Completed) C72_failure_history s /\
  disposed (w_log s) = [1] /\ requests (w_log s) = [OnNext 10; OnNext 20; OnError ValueError; OnError ValueError].
Proof.
  eexists. split; [apply srun_init; vm_compute; reflexivity|].
  assert (E : forall l, In l C72_failure_history -> l <> LCancel /\ forall e, l <> LFail e)
    by (intros l Hl; cbn in Hl; repeat (destruct Hl as [<-|Hl]; [split; discriminate|]); contradiction).
  split; [split; [intros l Hl; now apply E|]; split; [intros e He; now apply (proj2 (E _ He) e)|]; split; [exists []; reflexivity|]|split; reflexivity].
  intros k o Ho. cbn in Ho. repeat (destruct Ho as [[= <- <-]|Ho] || destruct Ho as [Ho|Ho]); try discriminate; try contradiction; cbn; eexists; reflexivity.
Qed.
