(** * Properties C89-C90: run of a program; results that do not depend on the schedule. *)
From Verif Require Import Properties9 ColdProofs ColdCatchProofs LawsProofs Programs TimedProofs ProgramsProofs Programs2 Programs2Proofs Programs3 Programs3Proofs Programs4Proofs Programs5Proofs Programs6 Programs6Proofs Programs8Proofs RunProofs Programs9 Programs9Proofs.
Set Implicit Arguments.

(** ** C89 *)

(** Whatever run(c) gives before it times out is the last element of one of the
    outcomes of [c], or its error, or it is cancelled, if that has no elements. *)
Theorem C89_run : forall A (c : cold A) o, sheltered c -> steady c -> run_gives c o ->
  o = TimedOut \/ exists vs e, Programs2.outcome c vs e /\
    match e with
    | Open => False
    | Failed x => o = Raised x
    | Completed => match rev vs with v :: _ => o = Returned v | [] => o = Cancelled end
    end.
Proof.
  intros A c o _ Hs Hr. destruct (run_outcome_of Hs Hr) as [->|(vs & e & M & He & E)]; [now left|right]. exists vs, e. split; [exact M|].
  destruct e as [|x|]; [congruence|now injection E|]. cbn in E. destruct (rev vs); now injection E.
Qed.
Print Assumptions C89_run.
(** Every outcome that ends is what some run gives. *)
Theorem C89_every : forall A (c : cold A) vs e o, Programs2.outcome c vs e -> Some o = await_fut (last_value vs e) -> run_gives c o.
Proof. intros A c vs e o. apply outcome_run. Qed.
Print Assumptions C89_every.
(** When the run of the program has come to its end, the observer is what the outcome says: pending only if it has no end. *)
Theorem C89_at_end : forall A (c : cold A) vs e, Programs2.outcome c vs e -> awaited (trace vs e) = last_value vs e /\ (await_fut (awaited (trace vs e)) = None -> e = Open).
Proof.
  intros A c vs e _. rewrite awaited_trace. split; [reflexivity|]. destruct e as [|x|]; cbn; [reflexivity|discriminate|]. destruct (rev vs); discriminate.
Qed.
Print Assumptions C89_at_end.
(** If no outcome ends, run times out. *)
Theorem C89_endless : forall A (c : cold A) o, sheltered c -> steady c -> (forall vs e, Programs2.outcome c vs e -> e = Open) -> run_gives c o -> o = TimedOut.
Proof. intros A c o _ Hs H Hr. destruct (run_outcome_of Hs Hr) as [->|(vs & e & M & He & _)]; [reflexivity|]. destruct He. exact (H _ _ M). Qed.
Print Assumptions C89_endless.
(** Programs that are alike give the same. *)
Theorem C89_alike : forall A (c d : cold A) o, sheltered c -> steady c -> alike c d -> run_gives c o -> o = TimedOut \/ run_gives d o.
Proof.
  intros A c d o _ Hs E Hr. destruct (run_outcome_of Hs Hr) as [->|(vs & e & M & _ & Eo)]; [now left|right]. refine (outcome_run d vs e _ Eo). apply E. exact M.
Qed.
Print Assumptions C89_alike.
(** If nothing in it runs at the same time as something else, there is only one thing run can give. *)
Theorem C89_determined : forall A (c : cold A) o o', sheltered c -> one_at_a_time c -> steady c -> run_gives c o -> run_gives c o' -> o = TimedOut \/ o' = TimedOut \/ o = o'.
Proof.
  intros A c o o' _ Ho Hs Hr Hr'. destruct (run_outcome_of Hs Hr) as [->|(vs & e & M & _ & E)]; [now left|]. destruct (run_outcome_of Hs Hr') as [->|(vs' & e' & M' & _ & E')]; [now right; left|].
  apply (means_makes c Ho) in M, M'. destruct (determined c Ho _ _ _ _ M M') as [-> ->]. right. right. congruence.
Qed.
Print Assumptions C89_determined.
(** run of catch or retry does not raise, whatever is caught, whether it goes round for ever or not. *)
Theorem C89_caught : forall A (c : cold A) handler n o x, run_gives (Caught c handler) o \/ run_gives (Retried n c) o -> o <> Raised x.
Proof.
  assert (G : forall A (c : cold A) o x, (forall l y, so_far c l -> ~ In (OnError y) l) -> run_gives c o -> o <> Raised x).
  { intros A c o x H Hr ->. destruct (run_ended Hr) as (vs & e & Hl & _ & E); [discriminate|]. destruct e as [|y|]; [discriminate| |cbn in E; destruct (rev vs); discriminate].
    apply (H _ y Hl). apply in_or_app. right. now left. }
  intros A c handler n o x [Hr|Hr]; [refine (G _ _ _ x _ Hr); intros l y Hl; exact (@caught_calm _ _ _ _ Hl y)|refine (G _ _ _ x _ Hr); intros l y Hl; exact (@retried_so_calm _ _ _ _ Hl y)].
Qed.
Print Assumptions C89_caught.
(** For a source alone it is what the executions of run in Run.v (C48) give. *)
Theorem C89_source : forall A (s : source A) o, run_gives (From s) o <-> exists h st, rreach s (@PEnd A) h st /\ r_out st = Some o.
Proof. exact run_source. Qed.
Print Assumptions C89_source.

(** ** C90 *)

(** *** What gathers what *)

Theorem C90_sources : forall A (xs : list A) (v : A), gathers (From (of_seq xs)) xs /\ gathers (From (Single v)) [v] /\ gathers (From (@Empty A)) [].
Proof. intros A xs v. split; [|split]; now apply gathers_source. Qed.
Print Assumptions C90_sources.
Theorem C90_operators : forall A B (f : A -> B) (p : A -> bool) c xs, bounded c -> gathers c xs ->
  gathers (Stage (SMap (fun x => Ok (f x))) c) (map f xs) /\ gathers (Stage (SFilter (fun x => Ok (p x))) c) (filter p xs).
Proof.
  intros A B f p c xs Hb Hy. split.
  - pose proof (gathers_each (each_map f) Hb Hy) as R. now rewrite somes_some in R.
  - pose proof (gathers_each (each_filter p) Hb Hy) as R. replace (filter p xs) with (somes (map (fun x => if p x then Some x else None) xs)); [exact R|].
    clear. induction xs as [|x xs IH]; cbn; [reflexivity|]. destruct (p x); cbn; now rewrite IH.
Qed.
Print Assumptions C90_operators.
(** merge_inner with any bound on what runs at the same time: flat_map (0), concat_map (1), anything between. *)
Theorem C90_inner : forall X A maxc (c : cold X) (f : X -> cold A) (g : X -> list A) xs, (0 <= maxc)%Z -> bounded c -> (forall x, bounded (f x)) ->
  gathers c xs -> (forall x, In x xs -> gathers (f x) (g x)) -> gathers (Inner maxc c f) (flat_map g xs).
Proof. intros X A maxc c f g xs Hm Hb Hbi. apply gathers_inner. now split; [|split]. Qed.
Print Assumptions C90_inner.
Theorem C90_flat_map : forall X A (c : cold X) (f : X -> cold A) (g : X -> list A) xs, bounded c -> (forall x, bounded (f x)) ->
  gathers c xs -> (forall x, In x xs -> gathers (f x) (g x)) -> gathers (flat_map_ f c) (flat_map g xs) /\ gathers (concat_map_ f c) (flat_map g xs).
Proof.
  intros X A c f g xs Hb Hbi Hy Hf. split; (apply gathers_inner; [split; [lia|split; [exact Hb|exact Hbi]]|now apply gathers_named|exact Hf]).
Qed.
Print Assumptions C90_flat_map.
Theorem C90_merge : forall A (cs : list (cold A)) xss, Forall bounded cs -> Forall2 gathers cs xss ->
  gathers (merge_seq_ cs) (concat xss) /\ gathers (concat_seq_ cs) (concat xss).
Proof. intros A cs xss Hb H. split; apply gathers_seq; try assumption; lia. Qed.
Print Assumptions C90_merge.
Theorem C90_delay_retry : forall A d n (c : cold A) xs, bounded c -> gathers c xs -> gathers (Shifted (Delay d) c) xs /\ gathers (Retried n c) xs.
Proof. intros A d n c xs Hb Hy. split; [now apply gathers_shifted|now apply gathers_retried]. Qed.
Print Assumptions C90_delay_retry.
Theorem C90_alike : forall A (c d : cold A) xs, alike c d -> gathers c xs -> gathers d xs.
Proof. intros A c d xs. apply gathers_alike. Qed.
Print Assumptions C90_alike.

(** *** What is made of it *)

(** reduce with a function that does not care about the order gives one result, whatever the schedule. *)
Theorem C90_reduce : forall A B (f : B -> A -> B) b c xs, order_free f -> bounded c -> gathers c xs ->
  forall l, makes (Stage (SReduce (fun s a => Ok (f s a)) b) c) l -> l = trace (match xs with [] => [] | _ => [fold_left f xs b] end) Completed.
Proof.
  intros A B f b c xs Hf Hb Hy l M. destruct (@outcomes _ (Stage (SReduce (fun s a => Ok (f s a)) b) c) _ Hb M) as (vs & e & O & ->).
  destruct (@gathers_reduce _ _ f b c xs Hf Hb Hy _ _ O) as [P ->]. f_equal. destruct xs; [apply Permutation_nil; now apply Permutation_sym|apply Permutation_length_1_inv; now apply Permutation_sym].
Qed.
Print Assumptions C90_reduce.
(** So run of it returns that, or times out. *)
Theorem C90_run_reduce : forall A B (f : B -> A -> B) b c xs o, order_free f -> steady c -> gathers c xs ->
  run_gives (Stage (SReduce (fun s a => Ok (f s a)) b) c) o ->
  o = TimedOut \/ o = match xs with [] => Cancelled | _ => Returned (fold_left f xs b) end.
Proof.
  intros A B f b c xs o Hf Hs Hy Hr. destruct (run_gathers (c := Stage (SReduce (fun s a => Ok (f s a)) b) c) Hs (@gathers_reduce _ _ f b c xs Hf (steady_bounded c Hs) Hy) Hr) as [->|[[E ->]|(v & Hv & ->)]]; [now left|right..]; destruct xs; try easy.
  destruct Hv as [<-|[]]. reflexivity.
Qed.
Print Assumptions C90_run_reduce.
(** The same for the last element of scan. *)
Theorem C90_run_scan : forall A B (f : B -> A -> B) b c xs o, order_free f -> steady c -> gathers c xs ->
  run_gives (Stage (SScan f b) c) o -> o = TimedOut \/ o = match xs with [] => Cancelled | _ => Returned (fold_left f xs b) end.
Proof.
  intros A B f b c xs o Hf Hs Hy Hr. destruct (run_outcome_of (c := Stage (SScan f b) c) Hs Hr) as [->|(vs & e & M & _ & E)]; [now left|right].
  destruct M as (ms & Mc & D). destruct (@outcomes _ c _ (steady_bounded c Hs) Mc) as (us & d & O & ->). destruct (Hy _ _ O) as [P ->].
  apply stage_delivers in D. cbn [result_of fst snd] in D. apply trace_inj in D as [-> ->]. pose proof (last_scanl f us b) as L. rewrite (fold_perm Hf P) in L. cbn in E.
  destruct (rev (scanl f b us)) as [|v r], us as [|u us], xs as [|x xs]; try discriminate; try (injection E as ->); try reflexivity; try (exfalso; exact (Permutation_nil_cons P)); try (exfalso; exact (Permutation_nil_cons (Permutation_sym P))).
  now injection L as ->.
Qed.
Print Assumptions C90_run_scan.
(** Without reduce: one of the elements. *)
Theorem C90_run : forall A (c : cold A) xs o, steady c -> gathers c xs -> run_gives c o ->
  o = TimedOut \/ xs = [] /\ o = Cancelled \/ exists x, In x xs /\ o = Returned x.
Proof. intros A c xs o. apply run_gathers. Qed.
Print Assumptions C90_run.

(** The function has to be order-free: with another one the result of reduce depends on the schedule. *)
Theorem C90_order_refuted : let c := merge_ (From (of_seq [1])) (From (of_seq [2])) in
  let r := Stage (SReduce (fun s a => Ok (10 * s + a)) 0) c in
  steady c /\ gathers c [1; 2] /\ run_gives r (Returned 12) /\ run_gives r (Returned 21).
Proof.
  cbn zeta. set (c := merge_ (From (of_seq [1])) (From (of_seq [2]))).
  assert (L1 : lively (From (of_seq [1]))) by apply lively_source. assert (L2 : lively (From (of_seq [2]))) by apply lively_source.
  assert (O : forall vs, shuffle [1] [2] vs -> Programs2.outcome c vs Completed).
  { intros vs Hv. apply (merge_is L1 L2). exists vs, Completed. split; [|reflexivity]. exists [1], Completed, [2], Completed.
    split; [now apply makes_from_iff|]. split; [now apply makes_from_iff|]. auto. }
  assert (R : forall vs v, Programs2.outcome c vs Completed -> fold_left (fun s a => 10 * s + a) vs 0 = v -> vs <> [] -> run_gives (Stage (SReduce (fun s a => Ok (10 * s + a)) 0) c) (Returned v)).
  { intros vs v M E N. apply (@outcome_run _ _ [v] Completed); [|reflexivity]. exists (trace vs Completed). split; [exact M|]. apply stage_delivers. cbn [result_of]. rewrite fold_ok, E. destruct vs; [congruence|reflexivity]. }
  split; [split; [lia|split; [exact I|intros [|[|[|i]]]; exact I]]|].
  split; [apply (@C90_merge nat [From (of_seq [1]); From (of_seq [2])] [[1]; [2]]); [constructor; [exact I|constructor; [exact I|constructor]]|constructor; [|constructor; [|constructor]]; now apply gathers_source]|].
  split; [apply (R [1; 2])|apply (R [2; 1])]; try reflexivity; try discriminate; apply O; repeat constructor.
Qed.
Print Assumptions C90_order_refuted.

(** ** Examples *)

(** run(from_iterable([1, 2, 3]) | flat_map(n -> from_iterable([n, 10n])) | reduce(+, 0)): 66, for every schedule; and 66 it can be. *)
Example C90_sum : let c := flat_map_ (fun n => From (of_seq [n; 10 * n])) (From (of_seq [1; 2; 3])) in
  let r := Stage (SReduce (fun s a => Ok (s + a)) 0) c in
  steady c /\ (forall o, run_gives r o -> o = TimedOut \/ o = Returned 66) /\ run_gives r (Returned 66).
Proof.
  cbn zeta. set (c := flat_map_ (fun n => From (of_seq [n; 10 * n])) (From (of_seq [1; 2; 3]))).
  assert (Hs : steady c) by (split; [lia|split; [exact I|intros x; exact I]]).
  assert (Hf : order_free Nat.add) by (intros b x y; lia).
  assert (Hy : gathers c [1; 10; 2; 20; 3; 30]).
  { refine (proj1 (@C90_flat_map nat nat (From (of_seq [1; 2; 3])) (fun n => From (of_seq [n; 10 * n])) (fun n => [n; 10 * n]) [1; 2; 3] I (fun _ => I) _ _)); [apply C90_sources; exact 0|]. intros x _. apply C90_sources. exact 0. }
  assert (R : forall o, run_gives (Stage (SReduce (fun s a => Ok (s + a)) 0) c) o -> o = TimedOut \/ o = Returned 66) by (intros o Hr; exact (C90_run_reduce Hf Hs Hy Hr)).
  split; [exact Hs|]. split; [exact R|].
  destruct (steady_productive (Stage (SReduce (fun s a => Ok (s + a)) 0) c) Hs) as [l M].
  pose proof (C90_reduce Hf (steady_bounded c Hs) Hy M) as ->. exact (@outcome_run _ _ [66] Completed _ M eq_refl).
Qed.
(** run(interval): times out, always. *)
Example C89_interval : forall o, run_gives (Ticking 1 2) o -> o = TimedOut.
Proof.
  intros o. apply (@C89_endless _ (Ticking 1 2)); [exact I|exact I|]. intros vs e M. apply (ticks_make (per := 2) 1 _ ltac:(discriminate)) in M as [n E]. now apply trace_inj in E as [_ ->].
Qed.
Example C89_timer : run_gives (Timer 3) (Returned 0).
Proof. apply (@C89_every _ (Timer 3) [0] Completed); [|reflexivity]. apply (timer_single 3). now apply makes_from_iff. Qed.
