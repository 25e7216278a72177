(** * Property C94: chains of delays. *)
From Verif Require Import DelaysProofs.
Set Implicit Arguments.
Local Open Scope Z_scope.

(** Whatever the event loop does, nothing comes before the sum of the delays has passed since the source called, and everything
    comes in the order of the source, through all functions. *)
Theorem C94_never_early : forall A (ls : list (link A)) t0 h xs, dreach any_time ls t0 h xs ->
  exists D rest, through ls (calls_at t0 h) = D ++ rest /\
    Forall2 (fun call arr => fst call = fst arr /\ snd arr + total ls <= snd call) (told_at xs) D.
Proof.
  intros A ls t0 h xs R. eapply linked_early. exact ((dreach_linked (pr := False) (nc := False) R (fun F => False_ind _ F) (fun F => False_ind _ F))).
Qed.
Print Assumptions C94_never_early.

(** Unless the subscription is disposed, nothing is lost when all workers wait for more, *)
Theorem C94_all : forall A (ls : list (link A)) t0 h xs, ls <> [] -> dreach any_time ls t0 h xs -> ~ In DCancel h -> all_waiting xs ->
  map fst (told_at xs) = map fst (through ls (calls_at t0 h)).
Proof. intros A ls t0 h xs. apply delays_all. Qed.
Print Assumptions C94_all.

(** which, unless the subscriber raises, they get to by themselves in finitely many steps, whatever has happened before. *)
Theorem C94_arrive : forall A (ls : list (link A)) t0 h xs, dreach any_time ls t0 h xs -> ~ In DCancel h -> (forall e, ~ In (DRaise e) h) ->
  exists h' xs', (forall l, In l h' -> (exists dt, l = DTick dt) \/ (exists i, l = DWork i) \/ l = DReturn) /\
    dreach any_time ls t0 (h ++ h') xs' /\ all_waiting xs'.
Proof.
  intros A ls t0 h xs R Hc Hr. destruct (delays_arrive (ok := any_time) (fun _ _ _ => I) R Hc Hr) as (h' & xs' & F & R' & W). exists h', xs'. split; [|auto].
  intros l Hl. rewrite Forall_forall in F. specialize (F l Hl). destruct l; try contradiction; eauto.
Qed.
Print Assumptions C94_arrive.

(** If time does not pass while something can be done, each call comes exactly the sum of the delays after its source's, *)
Theorem C94_exact : forall A (ls : list (link A)) t0 h xs, dreach prompt ls t0 h xs ->
  prefix (told_at xs) (later (total ls) (through ls (calls_at t0 h))).
Proof. exact delays_exact. Qed.
Print Assumptions C94_exact.

(** and these are all of them when all workers wait for more. *)
Theorem C94_exact_all : forall A (ls : list (link A)) t0 h xs, ls <> [] -> dreach prompt ls t0 h xs -> ~ In DCancel h -> all_waiting xs ->
  told_at xs = later (total ls) (through ls (calls_at t0 h)).
Proof. exact delays_prompt_all. Qed.
Print Assumptions C94_exact_all.

(** So what counts is the sum of the delays and what the functions make of the calls: neither where in the chain the delays are, nor
    how many there are. *)
Theorem C94_same : forall A (ls ls' : list (link A)) t0 h h' xs xs', ls <> [] -> ls' <> [] ->
  dreach prompt ls t0 h xs -> ~ In DCancel h -> all_waiting xs -> dreach prompt ls' t0 h' xs' -> ~ In DCancel h' -> all_waiting xs' ->
  calls_at t0 h = calls_at t0 h' -> total ls = total ls' -> through ls (calls_at t0 h) = through ls' (calls_at t0 h) -> told_at xs = told_at xs'.
Proof.
  intros A ls ls' t0 h h' xs xs' N N' R Hc W R' Hc' W' E1 E2 E3. rewrite (delays_prompt_all N R Hc W), (delays_prompt_all N' R' Hc' W'). congruence.
Qed.
Print Assumptions C94_same.

(** delay(a).delay(b) is delay(a + b), *)
Theorem C94_add : forall A a b t0 h h' (xs xs' : list (xstate A)), 0 <= a -> 0 <= b ->
  dreach prompt [(@Some A, a); (@Some A, b)] t0 h xs -> ~ In DCancel h -> all_waiting xs ->
  dreach prompt [(@Some A, a + b)] t0 h' xs' -> ~ In DCancel h' -> all_waiting xs' ->
  calls_at t0 h = calls_at t0 h' -> told_at xs = told_at xs'.
Proof.
  intros A a b t0 h h' xs xs' Ha Hb R Hc W R' Hc' W' E. apply (@C94_same A [(@Some A, a); (@Some A, b)] [(@Some A, a + b)] t0 h h' xs xs'); auto; try discriminate; [cbn; lia|].
  unfold through. cbn [fold_left fst]. set (l := sifted (@Some A) (calls_at t0 h)). clear. unfold l. generalize (calls_at t0 h). intros c.
  assert (G : forall c, sifted (@Some A) c = c) by (clear; induction c as [|[[a|e|] t] c IH]; [reflexivity|..]; unfold sifted in *; cbn; now rewrite IH). now rewrite !G.
Qed.
Print Assumptions C94_add.

(** but not if one of them is negative: it is no delay, and not an earlier time. *)
Theorem C94_negative_refuted : exists a b t0 h h' (xs xs' : list (xstate nat)),
  dreach prompt [(@Some nat, a); (@Some nat, b)] t0 h xs /\ ~ In DCancel h /\ all_waiting xs /\
  dreach prompt [(@Some nat, a + b)] t0 h' xs' /\ ~ In DCancel h' /\ all_waiting xs' /\
  calls_at t0 h = calls_at t0 h' /\ told_at xs <> told_at xs'.
Proof.
  assert (G : forall ls : list (link nat), ls <> [] -> exists h xs, dreach prompt ls 0 h xs /\ ~ In DCancel h /\ all_waiting xs /\ calls_at 0 h = [(OnNext 7%nat, 0)]).
  { intros ls N. assert (R : dreach prompt ls 0 [DArr (OnNext 7%nat)] (feed ls (map (fun _ => x_init 0) ls) (OnNext 7%nat))) by (apply (@dl_snoc _ _ _ _ [] _ (DArr (OnNext 7%nat)) _ (dl_nil _ _ _) I); reflexivity).
    destruct (delays_arrive (fun _ _ H => H) R) as (h' & xs' & F & R' & W); [intros [E|[]]; discriminate|intros e [E|[]]; discriminate|].
    exists ([DArr (OnNext 7%nat)] ++ h'), xs'. split; [exact R'|]. split; [|split; [exact W|now rewrite calls_own]].
    intros [E|E]; [discriminate|]. rewrite Forall_forall in F. exact (F _ E). }
  destruct (G [(@Some nat, -1); (@Some nat, 1)] ltac:(discriminate)) as (h & xs & R & Hc & W & E). destruct (G [(@Some nat, -1 + 1)] ltac:(discriminate)) as (h' & xs' & R' & Hc' & W' & E').
  exists (-1), 1, 0, h, h', xs, xs'. repeat (split; [assumption || congruence|]).
  rewrite (@delays_prompt_all _ _ _ _ _ (fun F => nil_cons (eq_sym F)) R Hc W), (@delays_prompt_all _ _ _ _ _ (fun F => nil_cons (eq_sym F)) R' Hc' W'), E, E'. vm_compute. discriminate.
Qed.
Print Assumptions C94_negative_refuted.

(** ** Example: delay(3).filter(even).delay(2) of 4 and 5, at the times 0 and 1, and completion at 2. *)
Example C94_case : let ls := [(@Some nat, 3); (fun a => if Nat.even a then Some a else None, 2)] in
  exists h xs, dreach prompt ls 0 h xs /\ ~ In DCancel h /\ all_waiting xs /\
  calls_at 0 h = [(OnNext 4%nat, 0); (OnNext 5%nat, 1); (OnCompleted, 2)] /\ told_at xs = [(OnNext 4%nat, 5); (OnCompleted, 7)].
Proof.
  intros ls. set (h0 := [DArr (OnNext 4%nat); DWork 0; DTick 1; DArr (OnNext 5%nat); DTick 1; DArr OnCompleted]).
  assert (R : exists xs, dreach prompt ls 0 h0 xs).
  { assert (Step : forall h xs l xs', dreach prompt ls 0 h xs -> prompt xs l -> dstep ls xs l = Some xs' -> dreach prompt ls 0 (h ++ [l]) xs') by (intros; econstructor; eassumption).
    pose proof (dl_nil (@prompt nat) ls 0) as R0. cbn [map ls] in R0.
    pose proof (Step _ _ (DArr (OnNext 4%nat)) _ R0 I eq_refl) as R1. pose proof (Step _ _ (DWork 0) _ R1 I eq_refl) as R2.
    pose proof (fun P => Step _ _ (DTick 1) _ R2 P eq_refl) as R3. specialize (R3 ltac:(repeat constructor; vm_compute; discriminate)).
    pose proof (Step _ _ (DArr (OnNext 5%nat)) _ R3 I eq_refl) as R4.
    pose proof (fun P => Step _ _ (DTick 1) _ R4 P eq_refl) as R5. specialize (R5 ltac:(repeat constructor; vm_compute; discriminate)).
    pose proof (Step _ _ (DArr OnCompleted) _ R5 I eq_refl) as R6. eexists. exact R6. }
  destruct R as [xs0 R]. destruct (delays_arrive (fun _ _ H => H) R) as (h' & xs & F & R' & W); [intros G; repeat (destruct G as [G|G]; [discriminate|]); destruct G|intros e G; repeat (destruct G as [G|G]; [discriminate|]); destruct G|].
  assert (Hc : ~ In DCancel (h0 ++ h')).
  { intros G. apply in_app_iff in G as [G|G]; [repeat (destruct G as [G|G]; [discriminate|]); destruct G|]. rewrite Forall_forall in F. exact (F _ G). }
  exists (h0 ++ h'), xs. split; [exact R'|]. split; [exact Hc|]. split; [exact W|]. assert (E : calls_at 0 (h0 ++ h') = calls_at 0 h0) by now apply calls_own.
  rewrite E. split; [reflexivity|]. rewrite (@delays_prompt_all _ _ _ _ _ (fun F => nil_cons (eq_sym F)) R' Hc W), E. reflexivity.
Qed.
