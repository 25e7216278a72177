(** * run of a program, and results that do not depend on the schedule: lemmas. *)
From Verif Require Import Properties9 ColdProofs ColdCatchProofs LawsProofs Programs TimedProofs ProgramsProofs Programs2 Programs2Proofs Programs3 Programs3Proofs Programs4Proofs Programs5Proofs Programs6 Programs6Proofs RunProofs Programs9.
Set Implicit Arguments.

(** ** The observer *)
Lemma awaited_trace A (vs : list A) e : awaited (trace vs e) = last_value vs e.
Proof.
  unfold awaited. destruct e as [|x|].
  - unfold trace. cbn. rewrite app_nil_r. exact (proj1 (w_open well_behaved vs)).
  - destruct (@w_stream A well_behaved vs (Failed x) []) as [E _]; [discriminate|]. now rewrite app_nil_r in E.
  - destruct (@w_stream A well_behaved vs Completed []) as [E _]; [discriminate|]. now rewrite app_nil_r in E.
Qed.
Lemma grammatical_trace A (l : list (notif A)) : grammatical l -> exists vs e, l = trace vs e.
Proof. intros [vs [e E]]. now exists vs, e. Qed.
Lemma last_ended A (vs : list A) e o : await_fut (last_value vs e) = Some o -> e <> Open /\ o <> TimedOut.
Proof. destruct e as [|x|]; cbn; [discriminate|intros [= <-]; now split|]. destruct (rev vs); intros [= <-]; now split. Qed.
Lemma ended_last A (vs : list A) e : e <> Open -> exists o, await_fut (last_value vs e) = Some o.
Proof. destruct e as [|x|]; cbn; [congruence|eexists; reflexivity|]. destruct (rev vs); eexists; reflexivity. Qed.
Lemma ended_prefix A (vs ws : list A) e d : e <> Open -> prefix (trace vs e) (trace ws d) -> vs = ws /\ e = d.
Proof.
  intros He [r E]. revert ws E. induction vs as [|v vs IH]; intros ws E.
  - destruct ws as [|w ws]; [|destruct e; [congruence|discriminate|discriminate]].
    split; [reflexivity|]. destruct e, d; try congruence; cbn in E; try discriminate; congruence.
  - destruct ws as [|w ws]; [destruct d; discriminate|]. cbn in E. injection E as <- E. destruct (IH ws E) as [-> ->]. now split.
Qed.

Lemma run_ended A (c : cold A) o : run_gives c o -> o <> TimedOut -> exists vs e, so_far c (trace vs e) /\ e <> Open /\ await_fut (last_value vs e) = Some o.
Proof.
  intros [l o' Hl Ho|l Hl Ho] Hn; [|congruence]. destruct (grammatical_trace (seen_grammatical c _ Hl)) as (vs & e & ->). rewrite awaited_trace in Ho.
  exists vs, e. split; [exact Hl|]. split; [exact (proj1 (last_ended _ _ Ho))|exact Ho].
Qed.
Lemma run_outcome_of A (c : cold A) o : steady c -> run_gives c o -> o = TimedOut \/ exists vs e, Programs2.outcome c vs e /\ e <> Open /\ Some o = await_fut (last_value vs e).
Proof.
  intros Hs Hr. assert (D : o = TimedOut \/ o <> TimedOut) by (destruct o; [right|right|right|left]; congruence).
  destruct D as [D|D]; [now left|right]. destruct (run_ended Hr D) as (vs & e & Hl & He & Ho).
  destruct (continues c Hs _ Hl) as (ws & d & M & P). destruct (@ended_prefix _ _ _ _ _ He P) as [-> ->]. exists ws, d. split; [exact M|]. now split.
Qed.
Lemma outcome_run A (c : cold A) vs e o : Programs2.outcome c vs e -> Some o = await_fut (last_value vs e) -> run_gives c o.
Proof. intros M E. apply (@run_done _ _ (trace vs e)); [exact (@last_moment A c _ M)|]. now rewrite awaited_trace. Qed.

(** ** Order-free results *)
Lemma gathers_source A (s : source A) xs : source_means s = (xs, Completed) -> gathers (From s) xs.
Proof. intros E vs e M. unfold Programs2.outcome in M. apply makes_from in M. rewrite E in M. apply trace_inj in M as [-> ->]. now split. Qed.
Lemma somes_perm A (a b : list (option A)) : Permutation a b -> Permutation (somes a) (somes b).
Proof.
  induction 1 as [|x a b P IH|x y a|a b d P IH Q IH']; [constructor| | |exact (Permutation_trans IH IH')].
  - destruct x; cbn; [now constructor|exact IH].
  - destruct x, y; cbn; try apply Permutation_refl. apply perm_swap.
Qed.
Lemma gathers_each A B (g : stage A B) h c xs : Programs5Proofs.each g h -> bounded c -> gathers c xs -> gathers (Stage g c) (somes (map h xs)).
Proof.
  intros Hg Hb Hy vs e M. apply (proj1 (stage_outcome c vs Hg Hb)) in M as (us & M & ->). destruct (Hy _ _ M) as [P ->]. split; [|reflexivity].
  apply somes_perm, Permutation_map, P.
Qed.
Lemma shuffle_perm A (a b l : list A) : shuffle a b l -> Permutation l (a ++ b).
Proof. induction 1 as [|x a b l S IH|x a b l S IH]; cbn; [constructor|now constructor|]. apply Permutation_cons_app, IH. Qed.
Lemma interleaves_perm A (ps : list (list A)) : forall vs, interleaves ps vs -> Permutation vs (concat ps).
Proof.
  induction ps as [|p ps IH]; intros vs I; [apply interleaves_nil in I; subst; constructor|].
  apply interleaves_cons in I as (ws & I & S). cbn. rewrite (shuffle_perm S). apply Permutation_app_head, IH, I.
Qed.
Lemma flat_map_perm X A (f : X -> list A) a b : Permutation a b -> Permutation (flat_map f a) (flat_map f b).
Proof.
  induction 1 as [|x a b P IH|x y a|a b d P IH Q IH']; cbn; [constructor|now apply Permutation_app_head| |exact (Permutation_trans IH IH')].
  rewrite !app_assoc. apply Permutation_app_tail, Permutation_app_comm.
Qed.
Lemma turn_gathers X A (M : X -> list A -> ending -> Prop) (g : X -> list A) xs vs e :
  in_turn M Completed xs vs e -> (forall x, In x xs -> forall us d, M x us d -> Permutation us (g x) /\ d = Completed) -> Permutation vs (flat_map g xs) /\ e = Completed.
Proof.
  induction 1 as [|x r us ws e M1 T IH|x r us e M1 He]; intros H.
  - now split; [constructor|].
  - destruct (H x (or_introl eq_refl) _ _ M1) as [P _]. destruct IH as [P' ->]; [intros y Hy; apply H; now right|]. split; [|reflexivity]. cbn. now apply Permutation_app.
  - destruct (H x (or_introl eq_refl) _ _ M1) as [_ F]. contradiction.
Qed.
Lemma together_gathers X A (M : X -> list A -> ending -> Prop) (g : X -> list A) maxc xs vs e :
  together M maxc Completed xs vs e -> (forall x, In x xs -> forall us d, M x us d -> Permutation us (g x) /\ d = Completed) -> Permutation vs (flat_map g xs) /\ e = Completed.
Proof.
  intros (xs' & cs & ps & [r Ex] & Hc & Hp & I & R) H.
  assert (F : Forall (fun c => snd c = Completed) cs /\ Permutation (concat (map fst cs)) (flat_map g xs')).
  { assert (H' : forall x, In x xs' -> forall us d, M x us d -> Permutation us (g x) /\ d = Completed) by (intros x Hx; apply H; rewrite Ex; apply in_or_app; now left).
    clear -Hc H'. induction Hc as [|x c xs' cs M1 Hc IH]; cbn; [now split|]. destruct IH as [F P]; [intros y Hy; apply H'; now right|].
    destruct (H' x (or_introl eq_refl) _ _ M1) as [P1 E1]. split; [now constructor|now apply Permutation_app]. }
  destruct F as [F P]. destruct e as [|x|].
  - exfalso. destruct R as (_ & _ & [R|[_ R]] & _); [discriminate|]. apply Exists_exists in R as (c & Hi & E). rewrite Forall_forall in F. rewrite (F c Hi) in E. discriminate.
  - exfalso. destruct R as [R|(k & us & R & _)]; [discriminate|]. apply nth_error_In in R. rewrite Forall_forall in F. discriminate (F _ R).
  - destruct R as (_ & -> & -> & _). split; [|reflexivity]. exact (Permutation_trans (interleaves_perm I) P).
Qed.

Lemma gathers_inner X A maxc (c : cold X) (f : X -> cold A) (g : X -> list A) xs :
  bounded (Inner maxc c f) -> gathers c xs -> (forall x, In x xs -> gathers (f x) (g x)) -> gathers (Inner maxc c f) (flat_map g xs).
Proof.
  intros (Hm & Hb & Hbi) Hy Hf vs e M. destruct M as (ms & script & h & s & Hc & H & F & D & Hs & Hd).
  destruct (@outcomes _ c _ Hb Hc) as (us & oe & Mc & ->). destruct (Hy _ _ Mc) as [P ->].
  destruct (@inner_sound X A maxc us Completed (fun x => Programs2.outcome (f x)) script h s (trace vs e) Hm H F D) as (ws & d & E & R).
  - intros k x i Hk. destruct (@outcomes _ (f x) _ (Hbi x) (Hs k x i Hk)) as (a & b & O & E). now exists a, b.
  - exact Hd.
  - apply trace_inj in E as [-> ->]. assert (Hu : forall x, In x us -> forall a b, Programs2.outcome (f x) a b -> Permutation a (g x) /\ b = Completed) by (intros x Hx; exact (Hf x (Permutation_in _ P Hx))).
    destruct ((maxc =? 1)%Z && true)%bool; [destruct (turn_gathers g R Hu) as [Q ->]|destruct (together_gathers g R Hu) as [Q ->]]; (split; [|reflexivity]); exact (Permutation_trans Q (flat_map_perm g P)).
Qed.

Lemma gathers_named X (c : cold X) xs : bounded c -> gathers c xs -> gathers (Stage (SMap (fun x => Ok x)) c) xs.
Proof.
  intros Hb Hy. pose proof (gathers_each (each_map (fun x : X => x)) Hb Hy) as R. rewrite somes_some, map_id in R. exact R.
Qed.
Lemma nth_gathers A (cs : list (cold A)) xss : Forall2 gathers cs xss -> forall i, In i (seq 0 (length cs)) -> gathers (nth i cs (From Empty)) (nth i xss []).
Proof.
  induction 1 as [|c xs cs xss H1 H2 IH]; intros i Hi; [contradiction|]. destruct i as [|i]; [exact H1|]. cbn. apply IH. apply in_seq in Hi. apply in_seq. cbn in *. lia.
Qed.
Lemma flat_map_nth A (xss : list (list A)) : flat_map (fun i => nth i xss []) (seq 0 (length xss)) = concat xss.
Proof. rewrite flat_map_concat_map, map_nth_seq0. reflexivity. Qed.
Lemma bounded_nth A (cs : list (cold A)) : Forall bounded cs -> forall i, bounded (nth i cs (From Empty)).
Proof. intros H. induction H as [|c cs H1 H2 IH]; intros [|i]; cbn; try exact I; [exact H1|apply IH]. Qed.
Lemma gathers_seq A maxc (cs : list (cold A)) xss : (0 <= maxc)%Z -> Forall bounded cs -> Forall2 gathers cs xss ->
  gathers (Inner maxc (From (of_seq (seq 0 (length cs)))) (fun i => nth i cs (From Empty))) (concat xss).
Proof.
  intros Hm Hb H. rewrite <- flat_map_nth. rewrite <- (forall2_len H).
  apply gathers_inner; [split; [exact Hm|split; [exact I|now apply bounded_nth]]|now apply gathers_source|exact (nth_gathers H)].
Qed.
Lemma gathers_shifted A d (c : cold A) xs : bounded c -> gathers c xs -> gathers (Shifted (Delay d) c) xs.
Proof. intros Hb Hy vs e M. apply Hy. now apply (delay_alike d c Hb). Qed.
Lemma gathers_reliable A (c : cold A) xs : bounded c -> gathers c xs -> reliable c.
Proof.
  intros Hb Hy l x M F. destruct (@outcomes _ c _ Hb M) as (vs & e & O & ->). destruct (Hy _ _ O) as [_ ->]. apply in_app_or in F as [F|[F|F]]; [|discriminate|contradiction].
  apply in_map_iff in F as (v & E & _). discriminate.
Qed.
Lemma gathers_retried A n (c : cold A) xs : bounded c -> gathers c xs -> gathers (Retried n c) xs.
Proof. intros Hb Hy vs e M. apply Hy. apply (retried_reliable n Hb (gathers_reliable Hb Hy)). exact M. Qed.
Lemma gathers_alike A (c d : cold A) xs : alike c d -> gathers c xs -> gathers d xs.
Proof. intros E Hy vs e M. apply Hy. apply E. exact M. Qed.

Lemma fold_perm A B (f : B -> A -> B) : order_free f -> forall xs ys, Permutation xs ys -> forall b, fold_left f xs b = fold_left f ys b.
Proof.
  intros Hf xs ys P. induction P as [|x a b P IH|x y a|a b d P IH Q IH']; intros s; cbn; [reflexivity|apply IH|now rewrite Hf|now rewrite IH, IH'].
Qed.
Lemma fold_ok A B (f : B -> A -> B) xs : forall b, fold_res (fun s a => Ok (f s a)) b xs = Ok (fold_left f xs b).
Proof. induction xs as [|x xs IH]; intros b; cbn; [reflexivity|apply IH]. Qed.
Lemma gathers_reduce A B (f : B -> A -> B) b c xs : order_free f -> bounded c -> gathers c xs ->
  gathers (Stage (SReduce (fun s a => Ok (f s a)) b) c) (match xs with [] => [] | _ => [fold_left f xs b] end).
Proof.
  intros Hf Hb Hy vs e M. destruct M as (ms & Mc & D). destruct (@outcomes _ c _ Hb Mc) as (us & d & O & ->). destruct (Hy _ _ O) as [P ->].
  apply stage_delivers in D. cbn [result_of] in D. rewrite fold_ok in D. cbn [fst snd] in D. apply trace_inj in D as [-> ->]. split; [|reflexivity].
  rewrite (fold_perm Hf P). destruct us as [|u us], xs as [|x xs]; [constructor|exfalso|exfalso|apply Permutation_refl].
  - exact (Permutation_nil_cons P).
  - exact (Permutation_nil_cons (Permutation_sym P)).
Qed.
Lemma last_scanl A B (f : B -> A -> B) xs : forall b, match rev (scanl f b xs) with [] => None | v :: _ => Some v end = match xs with [] => None | _ => Some (fold_left f xs b) end.
Proof.
  induction xs as [|x xs IH]; intros b; [reflexivity|]. specialize (IH (f b x)). cbn. destruct xs as [|y ys]; [reflexivity|].
  cbn in *. destruct (rev (scanl f (f (f b x) y) ys) ++ [f (f b x) y]) as [|v r] eqn:E; [destruct (rev (scanl f (f (f b x) y) ys)); discriminate|].
  cbn. exact IH.
Qed.

Lemma run_gathers A (c : cold A) xs o : steady c -> gathers c xs -> run_gives c o ->
  o = TimedOut \/ xs = [] /\ o = Cancelled \/ exists x, In x xs /\ o = Returned x.
Proof.
  intros Hs Hy Hr. destruct (run_outcome_of Hs Hr) as [->|(vs & e & M & _ & E)]; [now left|right]. destruct (Hy _ _ M) as [P ->]. cbn in E.
  destruct (rev vs) as [|v r] eqn:Er; injection E as ->.
  - left. split; [|reflexivity]. apply (f_equal (@rev A)) in Er. rewrite rev_involutive in Er. cbn in Er. subst. now apply Permutation_nil.
  - right. exists v. split; [|reflexivity]. apply (Permutation_in v P). apply in_rev. rewrite Er. now left.
Qed.

(** ** run of a source alone, as in Run.v *)
Lemma rreach_src A (s : source A) (h : list slabel) st : src_reach well_behaved s PEnd h st -> ~ In TCancel h -> rreach s (@PEnd A) (map RSrc h) (RState s PEnd st None).
Proof.
  induction 1 as [|h x st st' R IH S]; intros Hn; [constructor|]. rewrite map_app. cbn.
  apply (@rr_snoc _ _ s PEnd (map RSrc h) (RSrc x) (RState s PEnd st None)); [apply IH; intros F; apply Hn, in_or_app; now left|].
  cbn. destruct x; try (rewrite S; reflexivity). exfalso. apply Hn, in_or_app. right. now left.
Qed.
Lemma src_rreach A (s : source A) h st : rreach s (@PEnd A) h st ->
  match r_out st with
  | None => exists h', src_reach well_behaved s PEnd h' (r_src st) /\ ~ In TCancel h'
  | Some o => run_gives (From s) o
  end.
Proof.
  induction 1 as [|h x st st' R IH S]; [exists []; split; [constructor|easy]|].
  unfold rstep in S. destruct (r_out st) eqn:E; [discriminate|]. destruct IH as (h' & R' & N).
  assert (G : forall y d, y <> TCancel -> src_step well_behaved s PEnd (r_src st) y = Some d -> exists h', src_reach well_behaved s PEnd h' d /\ ~ In TCancel h').
  { intros y d Hy Sy. exists (h' ++ [y]). split; [econstructor; eassumption|]. intros F. apply in_app_or in F as [F|[F|[]]]; [contradiction|congruence]. }
  assert (L : so_far (From s) (src_log well_behaved s PEnd (r_src st))) by (exists h', (r_src st); auto).
  destruct x as [x| |].
  - destruct x; try discriminate; match type of S with match src_step _ _ _ _ ?y with _ => _ end = _ => destruct (src_step well_behaved s PEnd (r_src st) y) as [d|] eqn:Sy; [|discriminate]; injection S as <-; cbn; refine (G y d _ Sy); discriminate end.
  - destruct (await_fut (w_fut (r_observer st))) as [o|] eqn:W; [|discriminate]. destruct (src_step well_behaved s PEnd (r_src st) TCancel) as [d|]; [|discriminate]. injection S as <-. cbn.
    exact (@run_done _ (From s) _ _ L W).
  - destruct (await_fut (w_fut (r_observer st))) as [o|] eqn:W; [discriminate|]. destruct (src_step well_behaved s PEnd (r_src st) TCancel) as [d|]; [|discriminate]. injection S as <-. cbn.
    exact (@run_late _ (From s) _ L W).
Qed.
Lemma src_cancels A (s : source A) st : exists d, src_step well_behaved s (@PEnd A) st TCancel = Some d.
Proof. unfold src_step. destruct (s_task st); eexists; reflexivity. Qed.
Lemma run_source A (s : source A) o : run_gives (From s) o <-> exists h st, rreach s (@PEnd A) h st /\ r_out st = Some o.
Proof.
  split.
  - intros [l o' (h & st & R & N & E) W|l (h & st & R & N & E) W]; destruct (src_cancels s st) as [d Hd]; subst l.
    + exists (map RSrc h ++ [RDone]), (RState s PEnd d (Some o')). split; [|reflexivity]. refine (rr_snoc _ (rreach_src R N) _).
      unfold rstep, r_observer. cbn [r_out r_src]. unfold awaited in W. now rewrite W, Hd.
    + exists (map RSrc h ++ [RTimeout]), (RState s PEnd d (Some TimedOut)). split; [|reflexivity]. refine (rr_snoc _ (rreach_src R N) _).
      unfold rstep, r_observer. cbn [r_out r_src]. unfold awaited in W. now rewrite W, Hd.
  - intros (h & st & R & E). pose proof (src_rreach R) as G. now rewrite E in G.
Qed.
