(** * The loop with Python's heap is a loop as in Loop.v. *)
From Verif Require Export LoopProofs HeapProofs.
Set Implicit Arguments.

Lemma from_ext key key' s h : (forall i, In i h -> key i = key' i) -> from key s h -> from key' s h.
Proof.
  intros E F i Hi Hs. pose proof (par_spec (i := i) ltac:(lia)) as Hpi. rewrite <- !E by (apply nth_In; lia). now apply F.
Qed.

Lemma perm_filter (f : nat -> bool) l m : Permutation l m -> Permutation (filter f l) (filter f m).
Proof.
  induction 1 as [|x l m P IH|x y l|l m n P IH P' IH']; cbn; auto.
  - destruct (f x); auto.
  - destruct (f y), (f x); auto using perm_swap.
  - now rewrite IH.
Qed.
Lemma perm_existsb i l m : Permutation l m -> existsb (Nat.eqb i) l = existsb (Nat.eqb i) m.
Proof.
  intros P. apply eq_true_iff_eq. rewrite !existsb_exists. split; intros (x & Hx & E); exists x; split; auto.
  - now rewrite <- P.
  - now rewrite P.
Qed.
Lemma perm_remove x l m : NoDup m -> Permutation (x :: l) m -> Permutation l (remove Nat.eq_dec x m).
Proof.
  intros N P. assert (Nl : NoDup (x :: l)) by (apply (Permutation_NoDup (l := m)); [now symmetry|exact N]). inversion Nl as [|? ? Hx Nl']; subst.
  apply NoDup_Permutation; [exact Nl'|now apply NoDup_remove'|]. intros y. split.
  - intros Hy. apply in_in_remove; [intros ->; contradiction|]. rewrite <- P. now right.
  - intros Hy. apply in_remove in Hy as [Hy Hn]. rewrite <- P in Hy. destruct Hy as [->|Hy]; [contradiction|exact Hy].
Qed.

(** ** The heap as a function [top] *)
Fixpoint pops (key : nat -> Z) (n : nat) (h : list nat) : list nat :=
  match n with
  | O => h
  | S n => match heappop key (pops key n h) with Some (_, h') => h' | None => [] end
  end.

Definition valid (tab : list hinfo) (c : nat) (l : list nat) : bool :=
  existsb (Nat.eqb c) l && forallb (fun j => (deadline tab c <=? deadline tab j)%Z) l.
(** [arrays]: for each iteration the array from which entries are taken. *)
Definition topA (arrays : list (list nat)) (k : nat) (tab : list hinfo) (l : list nat) : nat :=
  let c := match nth_error arrays k with
           | Some H => hd 0 (pops (deadline tab) (length H - length l) H)
           | None => 0
           end in
  if valid tab c l then c else first_least k tab l.

Lemma topA_top arrays : heap_top (topA arrays).
Proof.
  intros k tab l Hl. unfold topA. set (c := match nth_error arrays k with Some H => _ | None => _ end).
  destruct (valid tab c l) eqn:E; [|now apply first_least_top].
  unfold valid in E. apply andb_true_iff in E as [E1 E2]. apply existsb_exists in E1 as (x & Hx & Ex). apply Nat.eqb_eq in Ex. subst x.
  split; [exact Hx|]. intros j Hj. rewrite forallb_forall in E2. specialize (E2 j Hj). apply Z.leb_le in E2. exact E2.
Qed.

Lemma topA_app arrays H k tab l : k < length arrays -> topA (arrays ++ [H]) k tab l = topA arrays k tab l.
Proof. intros L. unfold topA. now rewrite nth_error_app1. Qed.

Lemma topA_eq arrays k tab H n h l : nth_error arrays k = Some H -> h = pops (deadline tab) n H -> length H = n + length h ->
  from (deadline tab) 0 h -> Permutation h l -> h <> [] -> topA arrays k tab l = hd 0 h.
Proof.
  intros E Eh L F P N. unfold topA. rewrite E. replace (length H - length l) with n by (rewrite <- (Permutation_length P); lia). rewrite <- Eh.
  replace (valid tab (hd 0 h) l) with true; [reflexivity|]. symmetry. destruct h as [|x h]; [contradiction|]. cbn [hd].
  apply andb_true_iff. split.
  - apply existsb_exists. exists x. split; [|apply Nat.eqb_refl]. rewrite <- P. now left.
  - apply forallb_forall. intros j Hj. apply Z.leb_le. rewrite <- P in Hj. apply (In_nth _ _ 0) in Hj as (i & Hi & <-). apply (heap_min (key := deadline tab) (h := x :: h) F Hi).
Qed.

Lemma pop_sim arrays k tab H fuel : nth_error arrays k = Some H -> forall n h l,
  h = pops (deadline tab) n H -> length H = n + length h -> from (deadline tab) 0 h -> Permutation h l -> NoDup l ->
  let h' := hpop_cancelled fuel tab h in let l' := pop_cancelled (topA arrays) fuel k tab l in
  Permutation h' l' /\ NoDup l' /\ from (deadline tab) 0 h' /\ exists n', h' = pops (deadline tab) n' H /\ length H = n' + length h'.
Proof.
  intros E. induction fuel as [|fuel IH]; intros n h l Eh L F P N; cbn zeta.
  - cbn. destruct h, l; repeat split; eauto.
  - destruct h as [|x h]; [apply Permutation_nil in P; subst l; cbn; repeat split; eauto; constructor|].
    destruct l as [|y l]; [apply Permutation_length in P; discriminate|].
    cbn [hpop_cancelled pop_cancelled]. pose proof (@topA_eq arrays k tab H n (x :: h) (y :: l) E Eh L F P ltac:(discriminate)) as Et. cbn [hd] in Et. rewrite Et.
    destruct (cancelled tab x); [|repeat split; eauto].
    pose proof (heappop_spec F) as S. destruct (heappop (deadline tab) (x :: h)) as [[z h']|] eqn:Ep; [|discriminate].
    destruct S as (S1 & S2 & _ & S4). cbn in S2. subst z. apply (IH (S n)).
    + cbn [pops]. now rewrite <- Eh, Ep.
    + apply Permutation_length in S1. cbn in *. lia.
    + exact S4.
    + apply perm_remove; [exact N|]. now rewrite <- S1.
    + now apply NoDup_remove'.
Qed.

(** ** Simulation *)
Definition sim (hs s : vstate) : Prop :=
  s = VState (v_time hs) (v_tab hs) (v_ready hs) (v_sched s) (v_count hs) (v_todo hs) (v_iter hs) (v_log hs) /\
  Permutation (v_sched hs) (v_sched s) /\ from (deadline (v_tab hs)) 0 (v_sched hs).

Lemma sched_nodup s : wf s -> NoDup (v_sched s) /\ forall i, In i (v_sched s) -> i < length (v_tab s).
Proof.
  intros W. split.
  - pose proof (wf_nodup W) as N. unfold ids in N. apply NoDup_app_iff in N as (_ & N & _). now apply NoDup_app_iff in N as (_ & N & _).
  - intros i Hi. apply (wf_lt W), in_ids. auto.
Qed.

Lemma act_sim hs s a : wf s -> sim hs s -> sim (hact_do hs a) (vact_do s a).
Proof.
  intros W (E & P & F). destruct (sched_nodup W) as [_ Lt]. set (L := v_sched s) in *. clearbody L. subst s. cbn [v_tab] in Lt.
  assert (Lh : forall i, In i (v_sched hs) -> i < length (v_tab hs)) by (intros i Hi; apply Lt; now rewrite <- P).
  unfold sim. destruct a as [|w|i]; cbn [hact_do vact_do v_time v_tab v_ready v_sched v_count v_todo v_iter v_log].
  - split; [reflexivity|]. split; [exact P|]. apply (from_ext (key := deadline (v_tab hs))); [|exact F]. intros i Hi. now rewrite deadline_snoc by auto.
  - split; [reflexivity|].
    destruct (@heappush_spec (deadline (v_tab hs ++ [HInfo (Some w) false])) (v_sched hs) (length (v_tab hs))) as [Q G].
    { apply (from_ext (key := deadline (v_tab hs))); [|exact F]. intros i Hi. now rewrite deadline_snoc by auto. }
    split; [|exact G]. rewrite Q, P. apply Permutation_cons_append.
  - destruct (negb (i <? length (v_tab hs)) || cancelled (v_tab hs) i); [repeat split; auto|].
    cbn [v_time v_tab v_ready v_sched v_count v_todo v_iter v_log]. rewrite (perm_existsb i P).
    split; [reflexivity|]. split; [exact P|]. apply (from_ext (key := deadline (v_tab hs))); [|exact F]. intros j _. now rewrite deadline_mark.
Qed.

Lemma acts_sim acts : forall hs s, wf s -> sim hs s -> sim (fold_left hact_do acts hs) (fold_left vact_do acts s).
Proof.
  induction acts as [|a acts IH]; intros hs s W S; [exact S|]. cbn [fold_left]. apply IH; [now apply act_wf|now apply act_sim].
Qed.

Definition start (hs : vstate) : list nat :=
  if crowded hs then heapify (deadline (v_tab hs)) (filter (fun id => negb (cancelled (v_tab hs) id)) (v_sched hs)) else v_sched hs.

Lemma begin_sim arrays hs s : wf s -> sim hs s -> length arrays = v_iter hs ->
  sim (hbegin hs) (begin_iteration (topA (arrays ++ [start hs])) s).
Proof.
  intros W (E & P & F) La. destruct (sched_nodup W) as [N _]. set (L := v_sched s) in *. clearbody L. subst s. clear W.
  set (top := topA (arrays ++ [start hs])). assert (En : nth_error (arrays ++ [start hs]) (v_iter hs) = Some (start hs)).
  { rewrite <- La, nth_error_app2, Nat.sub_diag by lia. reflexivity. }
  set (s := VState (v_time hs) (v_tab hs) (v_ready hs) L (v_count hs) (v_todo hs) (v_iter hs) (v_log hs)).
  assert (C : exists h l c, hclean hs = (h, c) /\ clean top s = (l, c) /\ Permutation h l /\ NoDup l /\ from (deadline (v_tab hs)) 0 h /\
              exists n, h = pops (deadline (v_tab hs)) n (start hs) /\ length (start hs) = n + length h).
  { unfold hclean, clean. assert (Ec : crowded s = crowded hs) by (unfold crowded; cbn; now rewrite (Permutation_length P)). rewrite Ec.
    unfold start. destruct (crowded hs) eqn:Ecr.
    - cbn [v_tab v_sched s]. destruct (heapify_spec (deadline (v_tab hs)) (filter (fun id => negb (cancelled (v_tab hs) id)) (v_sched hs))) as [Q G].
      eexists _, _, _. split; [reflexivity|]. split; [reflexivity|]. split; [rewrite Q; now apply perm_filter|]. split; [now apply NoDup_filter|]. split; [exact G|].
      exists 0. auto.
    - cbn [v_tab v_sched v_iter v_count s]. rewrite (Permutation_length P).
      destruct (@pop_sim (arrays ++ [start hs]) (v_iter hs) (v_tab hs) (v_sched hs) (length L)) with (n := 0) (h := v_sched hs) (l := L) as (Q & N' & G & n' & Eh & Lh); [rewrite En; unfold start; now rewrite Ecr|auto..|].
      fold top in Q, N'. eexists _, _, _. split; [reflexivity|]. split; [now rewrite <- (Permutation_length Q)|]. split; [exact Q|]. split; [exact N'|]. split; [exact G|]. exists n'. split; [exact Eh|]. pose proof (Permutation_length P). lia. }
  destruct C as (h & l & c & E1 & E2 & Q & N' & G & n & Eh & Lh). unfold hbegin, begin_iteration. rewrite E1, E2. cbn [v_ready v_tab v_iter v_time v_log s].
  pose proof (heappop_spec G) as S. destruct (heappop (deadline (v_tab hs)) h) as [[x h']|] eqn:Ep.
  - destruct S as (S1 & S2 & _ & S4). assert (Hn : h <> []) by (intros ->; apply Permutation_nil in S1; discriminate).
    assert (Et : top (v_iter hs) (v_tab hs) l = x).
    { unfold top. rewrite (@topA_eq _ _ _ _ _ _ _ En Eh Lh G Q Hn). rewrite S2. now destruct h. }
    destruct l as [|y l]; [symmetry in Q; apply Permutation_nil in Q; contradiction|]. destruct (v_ready hs) as [|z r].
    + rewrite Et. split; [reflexivity|]. split; [|exact S4]. cbn [v_sched]. apply perm_remove; [exact N'|]. now rewrite <- S1.
    + split; [reflexivity|]. cbn. auto.
  - rewrite S in *. apply Permutation_nil in Q. subst l. destruct (v_ready hs); (split; [reflexivity|]; cbn; split; [constructor|exact G]).
Qed.

Lemma run_sim hs s acts : wf s -> sim hs s ->
  match hrun_handle hs acts, run_handle s acts with
  | Some hs', Some s' => sim hs' s'
  | None, None => True
  | _, _ => False
  end.
Proof.
  intros W S. destruct S as (E & P & F). unfold hrun_handle. set (L := v_sched s) in *.
  assert (Es : run_handle s acts = match v_todo hs, v_ready hs with
    | Some (S n), id :: r =>
        let s' := VState (v_time hs) (v_tab hs) r L (v_count hs) (Some n) (v_iter hs) in
        if cancelled (v_tab hs) id then match acts with [] => Some (s' (v_log hs)) | _ => None end
        else Some (fold_left vact_do acts (s' (v_log hs ++ [(id, v_time hs)])))
    | _, _ => None end) by (unfold run_handle; rewrite E; reflexivity).
  rewrite Es. destruct (v_todo hs) as [[|n]|] eqn:Et; [exact I| |exact I]. destruct (v_ready hs) as [|id r] eqn:Er; [exact I|]. cbn zeta.
  destruct (cancelled (v_tab hs) id) eqn:Ec.
  - destruct acts; [|exact I]. repeat split; auto.
  - apply acts_sim; [|repeat split; auto].
    assert (R0 : run_handle s [] = Some (VState (v_time hs) (v_tab hs) r L (v_count hs) (Some n) (v_iter hs) (v_log hs ++ [(id, v_time hs)]))).
    { unfold run_handle. rewrite E. cbn. rewrite Ec. reflexivity. }
    exact (run_wf _ W R0).
Qed.

Lemma act_iter a s : v_iter (vact_do s a) = v_iter s.
Proof. destruct a; cbn; auto. now destruct (negb _ || _). Qed.
Lemma acts_iter acts s : v_iter (fold_left vact_do acts s) = v_iter s.
Proof. revert s. induction acts as [|a acts IH]; intros s; [reflexivity|]. cbn. now rewrite IH, act_iter. Qed.
Lemma step_iter top s x s' : vstep top s x = Some s' -> v_iter s' = match x with VBegin => S (v_iter s) | _ => v_iter s end.
Proof.
  unfold vstep. destruct x as [a| |acts| |]; try (destruct (v_todo s) as [[|n]|]; try discriminate; intros E; injection E as <-; try reflexivity).
  - apply act_iter.
  - unfold begin_iteration. destruct (clean top s) as [l c]. destruct (v_ready s), l; reflexivity.
  - unfold run_handle. intros E. destruct (v_todo s) as [[|n]|]; try discriminate. destruct (v_ready s) as [|id r]; [discriminate|].
    destruct (cancelled (v_tab s) id).
    + destruct acts; [|discriminate]. injection E as <-. reflexivity.
    + injection E as <-. now rewrite acts_iter.
Qed.

Lemma step_ext top top' s x : (forall tab l, x = VBegin -> top (v_iter s) tab l = top' (v_iter s) tab l) -> vstep top s x = vstep top' s x.
Proof.
  intros H. unfold vstep. destruct x; try reflexivity. destruct (v_todo s); [reflexivity|]. f_equal. unfold begin_iteration.
  assert (Ep : forall fuel l, pop_cancelled top fuel (v_iter s) (v_tab s) l = pop_cancelled top' fuel (v_iter s) (v_tab s) l).
  { induction fuel as [|fuel IH]; intros [|y l]; try reflexivity. cbn [pop_cancelled]. rewrite H, IH by reflexivity. reflexivity. }
  replace (clean top s) with (clean top' s) by (unfold clean; now rewrite Ep). destruct (clean top' s) as [l c].
  destruct (v_ready s); [|reflexivity]. destruct l; [reflexivity|]. now rewrite H.
Qed.

Lemma steps_iter top ok s h s' : vsteps top ok s h s' -> v_iter s <= v_iter s'.
Proof. induction 1 as [|s h x s' s'' H IH O E]; [lia|]. apply step_iter in E. destruct x; lia. Qed.
Lemma steps_ext top top' ok s h s' : vsteps top ok s h s' -> (forall k tab l, k < v_iter s' -> top k tab l = top' k tab l) -> vsteps top' ok s h s'.
Proof.
  induction 1 as [|s h x s' s'' H IH O E]; intros G; [constructor|]. pose proof (step_iter _ _ _ E) as Ei.
  econstructor; [apply IH|exact O|].
  - intros k tab l Hk. apply G. destruct x; lia.
  - rewrite <- E. symmetry. apply step_ext. intros tab l ->. apply G. lia.
Qed.

Lemma heap_loop (ok : vstate -> vlabel -> Prop) h hs : (forall s s' x, v_time s = v_time s' -> ok s x -> ok s' x) -> hsteps ok v_init h hs ->
  exists arrays s, length arrays = v_iter hs /\ vsteps (topA arrays) ok v_init h s /\ sim hs s.
Proof.
  intros Hok H. remember v_init as s0 eqn:E0. induction H as [s|s h x s' s'' H IH O E]; subst.
  - exists [], v_init. split; [reflexivity|]. split; [constructor|]. split; [reflexivity|]. split; [constructor|]. intros i Hi. cbn in Hi. lia.
  - destruct (IH eq_refl) as (arrays & s & La & V & S). pose proof (reach_wf (topA_top arrays) V) as W.
    assert (O' : ok s x) by (apply (Hok s'); [|exact O]; destruct S as (-> & _); reflexivity).
    assert (Ets : v_todo s = v_todo s') by (destruct S as (-> & _); reflexivity).
    destruct (match x with VBegin => true | _ => false end) eqn:Ex.
    + destruct x; try discriminate. unfold hstep in E. destruct (v_todo s') eqn:Et; [discriminate|]. injection E as <-.
      exists (arrays ++ [start s']), (begin_iteration (topA (arrays ++ [start s'])) s). split; [|split].
      * rewrite app_length. unfold hbegin. destruct (hclean s'). cbn [length]. destruct (v_ready s'), (heappop (deadline (v_tab s')) l) as [[]|]; cbn; lia.
      * econstructor; [|exact O'|].
        -- apply (@steps_ext (topA arrays)); [exact V|]. intros k tab l Hk. symmetry. apply topA_app. destruct S as (Es & _). rewrite Es in Hk. cbn in Hk. lia.
        -- unfold vstep. rewrite Ets; rewrite ?Et; reflexivity.
      * now apply begin_sim.
    + assert (G : exists s2, vstep (topA arrays) s x = Some s2 /\ sim s'' s2 /\ v_iter s'' = v_iter s').
      { pose proof S as (Es & P & F). destruct x as [a| |acts| |]; try discriminate; unfold hstep in E.
        - destruct (v_todo s') eqn:Et; [discriminate|]. injection E as <-. exists (vact_do s a). split; [|split].
          + unfold vstep. rewrite Ets; rewrite ?Et; reflexivity.
          + now apply act_sim.
          + destruct a; cbn; auto. now destruct (negb _ || _).
        - pose proof (run_sim acts W S) as R. rewrite E in R. destruct (run_handle s acts) as [s2|] eqn:E2; [|contradiction]. exists s2. split; [exact E2|]. split; [exact R|].
          destruct R as (R & _). apply (f_equal v_iter) in R. cbn in R. rewrite <- R. assert (Vs : vstep (topA arrays) s (VRun acts) = Some s2) by exact E2.
          apply step_iter in Vs. rewrite Vs. rewrite Es. reflexivity.
        - destruct (v_todo s') as [[|n]|] eqn:Et; try discriminate. injection E as <-. eexists. split; [unfold vstep; rewrite Ets; rewrite ?Et; reflexivity|].
          split; [|reflexivity]. rewrite Es. cbn. repeat split; auto.
        - destruct (v_todo s') as [n|] eqn:Et; try discriminate. injection E as <-. eexists. split; [unfold vstep; rewrite Ets; rewrite ?Et; reflexivity|].
          split; [|reflexivity]. rewrite Es. cbn. repeat split; auto. }
      destruct G as (s2 & E2 & S2 & Ei). exists arrays, s2. split; [lia|]. split; [|exact S2]. econstructor; eauto.
Qed.

Lemma hrun_steps (ok : vstate -> vlabel -> Prop) h : forall s s', (forall s x, ok s x) -> hrun s h = Some s' -> hsteps ok s h s'.
Proof.
  induction h as [|x h IH] using rev_ind; intros s s' Ho E; [injection E as <-; constructor|].
  assert (R : forall h h' s, hrun s (h ++ h') = match hrun s h with Some s => hrun s h' | None => None end).
  { clear. induction h as [|x h IH]; intros h' s; cbn; [reflexivity|]. destruct (hstep s x); auto. }
  rewrite R in E. destruct (hrun s h) as [s1|] eqn:E1; [|discriminate]. cbn in E. destruct (hstep s1 x) as [s2|] eqn:E2; [|discriminate].
  injection E as <-. econstructor; eauto.
Qed.
Lemma hsteps_head (ok : vstate -> vlabel -> Prop) s x s1 h s' : ok s x -> hstep s x = Some s1 -> hsteps ok s1 h s' -> hsteps ok s (x :: h) s'.
Proof.
  intros Hx E H. remember s1 as t eqn:Et. induction H as [t|t h y s2 s3 H IH O E']; subst.
  - apply (@hs_snoc ok s [] x s s1); [constructor|exact Hx|exact E].
  - apply (@hs_snoc ok s (x :: h) y s2 s3); [exact (IH eq_refl E)|exact O|exact E'].
Qed.
