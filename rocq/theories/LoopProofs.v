(** * Proofs about the virtual time event loop. *)
From Coq Require Import Sorted.
From Verif Require Export Loop.
Set Implicit Arguments.
Local Open Scope Z_scope.

Definition tm (tab : list hinfo) (id : nat) : option Z :=
  match nth_error tab id with Some h => h_when h | None => None end.

(** ** The table *)
Section Tab.
  Implicit Types tab : list hinfo.

  Lemma tm_deadline tab id w : tm tab id = Some w -> deadline tab id = w.
  Proof. unfold tm, deadline. destruct (nth_error tab id) as [[[v|] c]|]; cbn; congruence. Qed.
  Lemma nth_snoc tab h id : nth_error (tab ++ [h]) id = if (id <? length tab)%nat then nth_error tab id else if (id =? length tab)%nat then Some h else None.
  Proof.
    destruct (Nat.ltb_spec id (length tab)) as [H|H]; [now rewrite nth_error_app1|]. rewrite nth_error_app2 by exact H.
    destruct (Nat.eqb_spec id (length tab)) as [->|G]; [now rewrite Nat.sub_diag|]. destruct (id - length tab)%nat eqn:E; [lia|]. now destruct n.
  Qed.
  Lemma tm_snoc tab h id : (id < length tab)%nat -> tm (tab ++ [h]) id = tm tab id.
  Proof. intros H. unfold tm. now rewrite nth_error_app1. Qed.
  Lemma tm_new tab h : tm (tab ++ [h]) (length tab) = h_when h.
  Proof. unfold tm. rewrite nth_error_app2, Nat.sub_diag by lia. reflexivity. Qed.
  Lemma cancelled_snoc tab w id : cancelled (tab ++ [HInfo w false]) id = cancelled tab id.
  Proof.
    unfold cancelled. rewrite nth_snoc. destruct (Nat.ltb_spec id (length tab)) as [H|H]; [reflexivity|].
    rewrite (proj2 (nth_error_None tab id) H). now destruct (id =? length tab)%nat.
  Qed.
  Lemma deadline_snoc tab h id : (id < length tab)%nat -> deadline (tab ++ [h]) id = deadline tab id.
  Proof. intros H. unfold deadline. now rewrite nth_error_app1. Qed.
  Lemma mark_length tab i : length (mark tab i) = length tab.
  Proof. revert i. induction tab as [|h tab IH]; intros [|i]; cbn; congruence. Qed.
  Lemma tm_mark tab i id : tm (mark tab i) id = tm tab id.
  Proof. unfold tm. revert i id. induction tab as [|h tab IH]; intros [|i] [|id]; cbn; auto. Qed.
  Lemma deadline_mark tab i id : deadline (mark tab i) id = deadline tab id.
  Proof. unfold deadline. revert i id. induction tab as [|h tab IH]; intros [|i] [|id]; cbn; auto. now destruct h as [[w|] c]. Qed.
  Lemma cancelled_mark tab i id : (i < length tab)%nat -> cancelled (mark tab i) id = (id =? i)%nat || cancelled tab id.
  Proof.
    unfold cancelled. revert i id. induction tab as [|h tab IH]; intros [|i] [|id] H; cbn in *; auto; try lia.
    apply IH. lia.
  Qed.

  Definition ncancel tab l : Z := Z.of_nat (length (filter (cancelled tab) l)).
  Lemma ncancel_ext tab tab' l : (forall i, In i l -> cancelled tab' i = cancelled tab i) -> ncancel tab' l = ncancel tab l.
  Proof. intros H. unfold ncancel. do 2 f_equal. apply filter_ext_in. exact H. Qed.
  Lemma ncancel_mark tab l i : (i < length tab)%nat -> NoDup l -> cancelled tab i = false ->
    ncancel (mark tab i) l = if existsb (Nat.eqb i) l then ncancel tab l + 1 else ncancel tab l.
  Proof.
    intros Hi Hn Hc. unfold ncancel. induction Hn as [|x l Hx Hn IH]; [reflexivity|]. cbn [filter existsb].
    rewrite cancelled_mark by exact Hi. rewrite (Nat.eqb_sym i x). destruct (Nat.eqb_spec x i) as [->|G]; cbn [orb].
    - rewrite Hc. assert (E : existsb (Nat.eqb i) l = false).
      { apply not_true_iff_false. intros F. apply existsb_exists in F as (y & F & E). apply Nat.eqb_eq in E. now subst. }
      rewrite E in IH. cbn [length]. lia.
    - destruct (cancelled tab x); cbn [length]; destruct (existsb (Nat.eqb i) l); lia.
  Qed.
  Lemma ncancel_remove tab l i : NoDup l -> In i l ->
    ncancel tab (remove Nat.eq_dec i l) = if cancelled tab i then ncancel tab l - 1 else ncancel tab l.
  Proof.
    intros Hn. unfold ncancel. induction Hn as [|x l Hx Hn IH]; [intros []|]. cbn [remove filter]. intros [->|Hin].
    - destruct (Nat.eq_dec i i) as [_|]; [|contradiction]. rewrite notin_remove by exact Hx. destruct (cancelled tab i); cbn [length]; lia.
    - specialize (IH Hin). destruct (Nat.eq_dec i x) as [->|G]; [contradiction|]. cbn [filter].
      destruct (cancelled tab x), (cancelled tab i); cbn [length]; lia.
  Qed.
End Tab.

Lemma remove_length X (d : forall x y : X, {x = y} + {x <> y}) l i : NoDup l -> In i l -> length l = S (length (remove d i l)).
Proof.
  intros Hn. induction Hn as [|x l Hx Hn IH]; [intros []|]. intros [->|Hin]; cbn.
  - destruct (d i i) as [_|]; [|contradiction]. now rewrite notin_remove by exact Hx.
  - destruct (d i x) as [->|G]; [contradiction|]. cbn. now rewrite IH.
Qed.
Lemma NoDup_remove' X (d : forall x y : X, {x = y} + {x <> y}) l i : NoDup l -> NoDup (remove d i l).
Proof.
  intros Hn. induction Hn as [|x l Hx Hn IH]; cbn; [constructor|]. destruct (d i x); [exact IH|]. constructor; [|exact IH].
  intros F. now apply in_remove in F.
Qed.

Lemma NoDup_app_iff X (a b : list X) : NoDup (a ++ b) <-> NoDup a /\ NoDup b /\ forall x, In x a -> ~ In x b.
Proof.
  induction a as [|y a IH]; cbn.
  - split; [intros H; repeat split; [constructor|exact H|tauto]|intros (_ & H & _); exact H].
  - split.
    + intros H. inversion H as [|? ? H1 H2]; subst. apply IH in H2 as (H2 & H3 & H4). split; [constructor; [|exact H2]|split; [exact H3|]].
      * intros F. apply H1, in_app_iff. now left.
      * intros x [->|F]; [intros G; apply H1, in_app_iff; now right|auto].
    + intros (H1 & H2 & H3). inversion H1 as [|? ? H4 H5]; subst. constructor; [|apply IH; repeat split; auto].
      intros F. apply in_app_iff in F as [F|F]; [contradiction|]. exact (H3 y (or_introl eq_refl) F).
Qed.

(** ** The beginning of an iteration *)
Section Begin.
  Variable top : nat -> list hinfo -> list nat -> nat.
  Hypothesis Top : heap_top top.

  Lemma pop_cancelled_spec k tab fuel : forall l, NoDup l -> (length l <= fuel)%nat ->
    let l' := pop_cancelled top fuel k tab l in
    NoDup l' /\ incl l' l /\ (forall id, In id l -> In id l' \/ cancelled tab id = true) /\
    (l' = [] \/ cancelled tab (top k tab l') = false) /\ ncancel tab l' = ncancel tab l - Z.of_nat (length l - length l').
  Proof.
    induction fuel as [|fuel IH]; intros l Hn Hl.
    - destruct l; [|cbn in Hl; lia]. cbn. repeat split; auto using incl_refl.
    - destruct l as [|x l0] eqn:El; [cbn; repeat split; auto using incl_refl|]. rewrite <- El in *. cbn zeta.
      assert (E : pop_cancelled top (S fuel) k tab l = if cancelled tab (top k tab l) then pop_cancelled top fuel k tab (remove Nat.eq_dec (top k tab l) l) else l)
        by (rewrite El; reflexivity).
      rewrite E. clear E. assert (Hne : l <> []) by (rewrite El; discriminate). clear El.
      destruct (Top k tab Hne) as [Hin _]. destruct (cancelled tab (top k tab l)) eqn:Ec.
      + pose proof (remove_length Nat.eq_dec _ Hn Hin) as L. destruct (IH (remove Nat.eq_dec (top k tab l) l)) as (H1 & H2 & H3 & H4 & H5); [now apply NoDup_remove'|lia|].
        repeat split; auto.
        * intros y Hy. apply H2, in_remove in Hy. tauto.
        * intros id Hid. destruct (Nat.eq_dec id (top k tab l)) as [->|G]; [auto|]. apply H3. now apply in_in_remove.
        * rewrite H5. rewrite (ncancel_remove tab _ Hn Hin), Ec.
          assert (length (pop_cancelled top fuel k tab (remove Nat.eq_dec (top k tab l) l)) <= length (remove Nat.eq_dec (top k tab l) l))%nat by (apply NoDup_incl_length; assumption).
          lia.
      + repeat split; auto using incl_refl. rewrite Nat.sub_diag. cbn. lia.
  Qed.

  Lemma clean_spec s l c : NoDup (v_sched s) -> v_count s = ncancel (v_tab s) (v_sched s) -> clean top s = (l, c) ->
    NoDup l /\ incl l (v_sched s) /\ (forall id, In id (v_sched s) -> In id l \/ cancelled (v_tab s) id = true) /\
    (l = [] \/ cancelled (v_tab s) (top (v_iter s) (v_tab s) l) = false) /\ c = ncancel (v_tab s) l.
  Proof.
    intros Hn Hc E. unfold clean in E. destruct (crowded s).
    - injection E as <- <-. assert (F : forall i, In i (filter (fun id => negb (cancelled (v_tab s) id)) (v_sched s)) -> cancelled (v_tab s) i = false).
      { intros i F. apply filter_In in F as [_ F]. now apply negb_true_iff in F. }
      repeat split.
      + now apply NoDup_filter.
      + apply incl_filter.
      + intros id Hid. destruct (cancelled (v_tab s) id) eqn:Ei; [auto|]. left. apply filter_In. rewrite Ei. auto.
      + destruct (filter (fun id => negb (cancelled (v_tab s) id)) (v_sched s)) as [|x r] eqn:Ef; [auto|]. right. apply F. apply Top. discriminate.
      + unfold ncancel. clear -F. induction (filter (fun id => negb (cancelled (v_tab s) id)) (v_sched s)) as [|x r IH]; [reflexivity|].
        cbn. rewrite F by now left. apply IH. intros i Hi. apply F. now right.
    - injection E as <- <-. destruct (pop_cancelled_spec (v_iter s) (v_tab s) Hn (le_n _)) as (H1 & H2 & H3 & H4 & H5).
      repeat split; auto. rewrite H5, Hc. reflexivity.
  Qed.
End Begin.

(** ** The invariant *)
Definition ids (s : vstate) : list nat := map fst (v_log s) ++ v_ready s ++ v_sched s.
Definition is_soon (tab : list hinfo) (id : nat) : bool := match tm tab id with None => true | Some _ => false end.
Definition soons (s : vstate) : list nat := filter (is_soon (v_tab s)) (map fst (v_log s) ++ v_ready s).

Record wf (s : vstate) : Prop := Wf {
  wf_nodup : NoDup (ids s);
  wf_lt : forall id, In id (ids s) -> (id < length (v_tab s))%nat;
  wf_all : forall id, (id < length (v_tab s))%nat -> In id (ids s) \/ cancelled (v_tab s) id = true;
  wf_sched : forall id, In id (v_sched s) -> tm (v_tab s) id <> None;
  wf_count : v_count s = ncancel (v_tab s) (v_sched s);
  wf_todo : forall n, v_todo s = Some n -> (n <= length (v_ready s))%nat;
  wf_ready : forall id w, In id (v_ready s) -> tm (v_tab s) id = Some w -> w <= v_time s;
  wf_log : forall id t, In (id, t) (v_log s) -> t <= v_time s /\ forall w, tm (v_tab s) id = Some w -> w <= t;
  wf_sorted : StronglySorted Z.le (map snd (v_log s));
  wf_fifo : StronglySorted lt (soons s)
}.

Lemma wf_init : wf v_init.
Proof. constructor; cbn; try (intros; lia); try tauto; try constructor; try discriminate. Qed.

Lemma in_ids s id : In id (ids s) <-> In id (map fst (v_log s)) \/ In id (v_ready s) \/ In id (v_sched s).
Proof. unfold ids. now rewrite !in_app_iff. Qed.

Lemma sorted_snoc X (R : X -> X -> Prop) l x : StronglySorted R l -> Forall (fun y => R y x) l -> StronglySorted R (l ++ [x]).
Proof.
  intros H. induction H as [|y l H IH Hy]; intros Hx; cbn; [repeat constructor|]. inversion Hx; subst.
  constructor; [now apply IH|]. apply Forall_app. auto.
Qed.

Lemma act_wf s a : wf s -> wf (vact_do s a).
Proof.
  intros [N L Al Sc Co To Re Lo So Fi]. destruct a as [|w|i]; unfold vact_do; cbn zeta.
  - assert (Lq : forall id, In id (ids s) -> id <> length (v_tab s)) by (intros id H; apply L in H; lia).
    assert (E : forall id, In id (map fst (v_log s) ++ (v_ready s ++ [length (v_tab s)]) ++ v_sched s) <-> id = length (v_tab s) \/ In id (ids s)).
    { intros id. rewrite in_ids, !in_app_iff. cbn. intuition. }
    constructor; cbn; unfold ids, soons; cbn.
    + unfold ids in N, Lq. apply NoDup_app_iff in N as (N1 & N2 & N3). apply NoDup_app_iff in N2 as (N4 & N5 & N6).
      apply NoDup_app_iff. split; [exact N1|]. split.
      * apply NoDup_app_iff. split; [|split; [exact N5|]].
        -- apply NoDup_app_iff. split; [exact N4|]. split; [repeat constructor; tauto|]. intros x H [F|[]]. apply (Lq x); [|auto]. rewrite !in_app_iff. auto.
        -- intros x H F. apply in_app_iff in H as [H|[H|[]]]; [now apply (N6 x)|]. subst. apply (Lq (length (v_tab s))); [|reflexivity]. rewrite !in_app_iff. auto.
      * intros x H F. rewrite !in_app_iff in F. destruct F as [[F|[F|[]]]|F]; [apply (N3 x H), in_app_iff; auto| |apply (N3 x H), in_app_iff; auto].
        subst. apply (Lq (length (v_tab s))); [|reflexivity]. rewrite !in_app_iff. auto.
    + intros id H. apply E in H as [->|H]; rewrite app_length; cbn; [lia|]. apply L in H. lia.
    + intros id H. rewrite app_length in H. cbn in H. rewrite E, cancelled_snoc. destruct (Nat.eq_dec id (length (v_tab s))); [auto|].
      destruct (Al id); [lia|auto|auto].
    + intros id H. rewrite tm_snoc; [auto|]. apply L, in_ids. auto.
    + rewrite Co. symmetry. apply ncancel_ext. intros i _. apply cancelled_snoc.
    + intros n H. rewrite app_length. apply To in H. lia.
    + intros id w H Ht. apply in_app_iff in H as [H|[<-|[]]]; [|now rewrite tm_new in Ht]. rewrite tm_snoc in Ht; [eauto|]. apply L, in_ids. auto.
    + intros id t H. destruct (Lo id t H) as [H1 H2]. split; [exact H1|]. intros w Hw. rewrite tm_snoc in Hw; [auto|].
      apply L, in_ids. left. change id with (fst (id, t)). now apply in_map.
    + exact So.
    + rewrite app_assoc, filter_app. cbn. unfold is_soon at 2. rewrite tm_new. cbn.
      assert (Ef : filter (is_soon (v_tab s ++ [HInfo None false])) (map fst (v_log s) ++ v_ready s) = soons s).
      { apply filter_ext_in. intros x H. unfold is_soon. rewrite tm_snoc; [reflexivity|]. apply L. unfold ids. rewrite app_assoc. apply in_app_iff. auto. }
      rewrite Ef. apply sorted_snoc; [exact Fi|]. apply Forall_forall. intros x H. apply filter_In in H as [H _]. apply L. unfold ids. rewrite app_assoc. apply in_app_iff. auto.
  - assert (Lq : forall id, In id (ids s) -> id <> length (v_tab s)) by (intros id H; apply L in H; lia).
    assert (E : forall id, In id (map fst (v_log s) ++ v_ready s ++ v_sched s ++ [length (v_tab s)]) <-> id = length (v_tab s) \/ In id (ids s)).
    { intros id. rewrite in_ids, !in_app_iff. cbn. intuition. }
    assert (T : forall id, In id (ids s) -> tm (v_tab s ++ [HInfo (Some w) false]) id = tm (v_tab s) id) by (intros id H; apply tm_snoc; auto).
    constructor; cbn; unfold ids, soons; cbn.
    + rewrite !app_assoc. apply NoDup_app_iff. rewrite <- !app_assoc. split; [exact N|]. split; [repeat constructor; tauto|].
      intros x H [F|[]]. now apply (Lq x).
    + intros id H. apply E in H as [->|H]; rewrite app_length; cbn; [lia|]. apply L in H. lia.
    + intros id H. rewrite app_length in H. cbn in H. rewrite E, cancelled_snoc. destruct (Nat.eq_dec id (length (v_tab s))); [auto|].
      destruct (Al id); [lia|auto|auto].
    + intros id H. apply in_app_iff in H as [H|[<-|[]]]; [rewrite T by (apply in_ids; auto); auto|]. rewrite tm_new. discriminate.
    + rewrite Co. unfold ncancel. rewrite filter_app, app_length. cbn. rewrite cancelled_snoc.
      replace (cancelled (v_tab s) (length (v_tab s))) with false.
      2:{ unfold cancelled. now rewrite (proj2 (nth_error_None _ _) (le_n _)). }
      cbn. rewrite Nat.add_0_r. do 2 f_equal. apply filter_ext_in. intros i _. symmetry. apply cancelled_snoc.
    + exact To.
    + intros id w' H Ht. rewrite T in Ht by (apply in_ids; auto). eauto.
    + intros id t H. destruct (Lo id t H) as [H1 H2]. split; [exact H1|]. intros w' Hw. rewrite T in Hw; [auto|].
      apply in_ids. left. change id with (fst (id, t)). now apply in_map.
    + exact So.
    + erewrite filter_ext_in; [exact Fi|]. intros x H. unfold is_soon. rewrite T; [reflexivity|]. unfold ids. rewrite app_assoc. apply in_app_iff. auto.
  - destruct (Nat.ltb_spec i (length (v_tab s))) as [Hi|Hi]; [|cbn; constructor; assumption]. cbn.
    destruct (cancelled (v_tab s) i) eqn:Ec; [constructor; assumption|].
    constructor; cbn; unfold ids, soons; cbn; rewrite ?mark_length; auto.
    + intros id H. rewrite cancelled_mark by exact Hi. destruct (Al id H) as [F|F]; [auto|]. rewrite F. right. apply orb_true_r.
    + intros id H. rewrite tm_mark. auto.
    + rewrite Co. rewrite ncancel_mark; auto. unfold ids in N. apply NoDup_app_iff in N as (_ & N & _). now apply NoDup_app_iff in N as (_ & N & _).
    + intros id w H Ht. rewrite tm_mark in Ht. eauto.
    + intros id t H. destruct (Lo id t H) as [H1 H2]. split; [exact H1|]. intros w Hw. rewrite tm_mark in Hw. auto.
    + erewrite filter_ext_in; [exact Fi|]. intros x H. unfold is_soon. now rewrite tm_mark.
Qed.

Lemma acts_wf acts s : wf s -> wf (fold_left vact_do acts s).
Proof. revert s. induction acts as [|a acts IH]; intros s H; cbn; [exact H|]. apply IH. now apply act_wf. Qed.

Section Steps.
  Variable top : nat -> list hinfo -> list nat -> nat.
  Hypothesis Top : heap_top top.

  Lemma begin_wf s : wf s -> v_todo s = None -> wf (begin_iteration top s).
  Proof.
    intros [N L Al Sc Co To Re Lo So Fi] Ht. unfold begin_iteration. destruct (clean top s) as [l c] eqn:Ec.
    assert (Ns : NoDup (v_sched s)) by (apply NoDup_app_iff in N as (_ & N & _); now apply NoDup_app_iff in N as (_ & N & _)).
    destruct (clean_spec Top _ Ns Co Ec) as (C1 & C2 & C3 & C4 & C5).
    assert (G : wf (VState (v_time s) (v_tab s) (v_ready s) l c (Some (length (v_ready s))) (S (v_iter s)) (v_log s))).
    { constructor; unfold ids, soons; cbn; auto.
      - unfold ids in N. apply NoDup_app_iff in N as (N1 & N2 & N3). apply NoDup_app_iff in N2 as (N4 & N5 & N6).
        apply NoDup_app_iff. split; [exact N1|]. split.
        + apply NoDup_app_iff. split; [exact N4|]. split; [exact C1|]. intros x H F. apply (N6 x H). auto.
        + intros x H F. apply (N3 x H). rewrite in_app_iff in *. destruct F; auto.
      - intros id H. apply L, in_ids. rewrite !in_app_iff in H. destruct H as [H|[H|H]]; auto.
      - intros id H. destruct (Al id H) as [F|F]; [|auto]. apply in_ids in F. rewrite !in_app_iff. destruct F as [F|[F|F]]; auto.
        destruct (C3 id F); auto.
      - intros n E. injection E as <-. auto. }
    destruct (v_ready s) as [|x r] eqn:Er; [|exact G]. destruct l as [|y l0] eqn:El; [exact G|]. rewrite <- El in *.
    assert (Hne : l <> []) by (rewrite El; discriminate). clear El y l0.
    set (id := top (v_iter s) (v_tab s) l). destruct (Top (v_iter s) (v_tab s) Hne) as [Hin Hmin]. fold id in Hin, Hmin.
    assert (Hid : exists w, tm (v_tab s) id = Some w) by (destruct (tm (v_tab s) id) eqn:E; [eauto|]; elim (Sc id (C2 _ Hin) E)).
    destruct Hid as [w Hw]. destruct G as [GN GL GA GS GC GT GR GLo GSo GF]. unfold ids, soons in *; cbn in *.
    assert (E : forall x, In x (map fst (v_log s) ++ id :: remove Nat.eq_dec id l) <-> In x (map fst (v_log s) ++ l)).
    { intros x. rewrite !in_app_iff. cbn. split; (intros [F|F]; [auto|]).
      - destruct F as [<-|F]; [auto|]. apply in_remove in F. tauto.
      - destruct (Nat.eq_dec x id) as [->|D]; [auto|]. right. right. now apply in_in_remove. }
    constructor; unfold ids, soons; cbn [v_log v_ready v_sched v_tab v_time v_count v_todo v_iter app].
    - apply NoDup_app_iff in GN as (N1 & N2 & N3). apply NoDup_app_iff. split; [exact N1|]. split.
      + constructor; [apply remove_In|]. now apply NoDup_remove'.
      + intros x H [F|F]; apply (N3 x H); [now subst|]. apply in_remove in F. tauto.
    - intros x H. apply E in H. auto.
    - intros x H. rewrite E. auto.
    - intros x H. apply GS. apply in_remove in H. tauto.
    - rewrite ncancel_remove by assumption. destruct C4 as [C4|C4]; [contradiction|]. fold id in C4. rewrite C4. exact C5.
    - intros n H. injection H as <-. cbn. lia.
    - intros x v [<-|[]] Hx. rewrite Hw in Hx. injection Hx as <-. rewrite (tm_deadline _ _ Hw). lia.
    - intros x t H. destruct (Lo x t H) as [H1 H2]. split; [lia|exact H2].
    - exact So.
    - unfold soons in Fi. rewrite Er, app_nil_r in Fi. rewrite filter_app. cbn. unfold is_soon at 2. rewrite Hw. rewrite app_nil_r. exact Fi.
  Qed.

  Lemma run_wf s acts s' : wf s -> run_handle s acts = Some s' -> wf s'.
  Proof.
    intros [N L Al Sc Co To Re Lo So Fi] E. unfold run_handle in E. destruct (v_todo s) as [[|n]|] eqn:Et; try discriminate.
    destruct (v_ready s) as [|id r] eqn:Er; [discriminate|]. destruct (cancelled (v_tab s) id) eqn:Ec.
    - destruct acts; [|discriminate]. injection E as <-. unfold ids, soons in *. rewrite Er in *.
      constructor; unfold ids, soons; cbn [v_log v_ready v_sched v_tab v_time v_count v_todo v_iter app]; auto.
      + apply NoDup_app_iff in N as (N1 & N2 & N3). apply NoDup_app_iff. split; [exact N1|]. cbn in N2. inversion N2; subst. split; [assumption|].
        intros x H F. apply (N3 x H). now right.
      + intros x H. apply L. rewrite !in_app_iff in *. cbn. tauto.
      + intros x H. destruct (Nat.eq_dec x id) as [->|D]; [auto|]. destruct (Al x H) as [F|F]; [|auto]. left. rewrite !in_app_iff in *. cbn in F. intuition congruence.
      + intros m H. injection H as <-. specialize (To (S n) eq_refl). cbn in To. lia.
      + intros x w H. apply Re. now right.
      + rewrite filter_app in *. cbn in Fi. destruct (is_soon (v_tab s) id); [|exact Fi].
        clear -Fi. induction (filter (is_soon (v_tab s)) (map fst (v_log s))) as [|y l IH]; cbn in *; [now inversion Fi|].
        inversion Fi as [|? ? H1 H2]; subst. constructor; [auto|]. rewrite Forall_app in *. destruct H2 as [H2 H3]. inversion H3; subst. auto.
    - injection E as <-. apply acts_wf. unfold ids, soons in *. rewrite Er in *.
      assert (Ea : forall q : list nat, map fst (v_log s ++ [(id, v_time s)]) ++ r ++ q = map fst (v_log s) ++ (id :: r) ++ q)
        by (intros q; rewrite map_app, <- app_assoc; reflexivity).
      constructor; unfold ids, soons; cbn [v_log v_ready v_sched v_tab v_time v_count v_todo v_iter]; rewrite ?Ea; auto.
      + intros m H. injection H as <-. specialize (To (S n) eq_refl). cbn in To. lia.
      + intros x w H. apply Re. now right.
      + intros x t H. apply in_app_iff in H as [H|[H|[]]]; [auto|]. injection H as <- <-. split; [lia|]. intros w Hw. apply (Re id w); [now left|exact Hw].
      + rewrite map_app. apply sorted_snoc; [exact So|]. apply Forall_forall. intros t H. apply in_map_iff in H as ([x t'] & <- & H). cbn. now apply (Lo x t').
      + specialize (Ea []). rewrite !app_nil_r in Ea. rewrite Ea. exact Fi.
  Qed.

  Lemma step_wf s x s' : wf s -> vstep top s x = Some s' -> wf s'.
  Proof.
    intros H E. unfold vstep in E. destruct x as [a| |acts| |].
    - destruct (v_todo s); [discriminate|]. injection E as <-. now apply act_wf.
    - destruct (v_todo s) eqn:Et; [discriminate|]. injection E as <-. now apply begin_wf.
    - now apply run_wf in E.
    - destruct (v_todo s) as [[|n]|]; try discriminate. injection E as <-. destruct H. constructor; auto. discriminate.
    - destruct (v_todo s) as [n|]; try discriminate. injection E as <-. destruct H. constructor; auto. discriminate.
  Qed.

  Lemma steps_wf ok s h s' : wf s -> vsteps top ok s h s' -> wf s'.
  Proof. intros Hw H. induction H as [|s h x s1 s2 H IH O E]; [exact Hw|]. exact (step_wf _ (IH Hw) E). Qed.
  Lemma reach_wf ok h s : vsteps top ok v_init h s -> wf s.
  Proof. apply steps_wf, wf_init. Qed.
End Steps.

(** ** Time *)
Lemma acts_time acts s : v_time (fold_left vact_do acts s) = v_time s /\ v_log (fold_left vact_do acts s) = v_log s /\
  v_todo (fold_left vact_do acts s) = v_todo s.
Proof.
  revert s. induction acts as [|a acts IH]; intros s; cbn; [auto|]. destruct (IH (vact_do s a)) as (E1 & E2 & E3). rewrite E1, E2, E3.
  destruct a as [| |i]; cbn; auto. destruct (_ || _); auto.
Qed.

Section Time.
  Variable top : nat -> list hinfo -> list nat -> nat.

  Lemma step_time s x s' : vstep top s x = Some s' -> v_time s <= v_time s'.
  Proof.
    intros E. unfold vstep in E. destruct x as [a| |acts| |].
    - destruct (v_todo s); [discriminate|]. injection E as <-. destruct (acts_time [a] s) as [E _]. cbn in E. lia.
    - destruct (v_todo s); [discriminate|]. injection E as <-. unfold begin_iteration. destruct (clean top s) as [l c].
      destruct (v_ready s); [destruct l|]; cbn; lia.
    - unfold run_handle in E. destruct (v_todo s) as [[|n]|]; try discriminate. destruct (v_ready s) as [|id r]; [discriminate|].
      destruct (cancelled (v_tab s) id); [destruct acts; [|discriminate]|]; injection E as <-; [cbn; lia|].
      match goal with |- _ <= v_time (fold_left _ _ ?t) => destruct (acts_time acts t) as [-> _] end. cbn. lia.
    - destruct (v_todo s) as [[|n]|]; try discriminate. injection E as <-. cbn. lia.
    - destruct (v_todo s); try discriminate. injection E as <-. cbn. lia.
  Qed.
  Lemma steps_time ok s h s' : vsteps top ok s h s' -> v_time s <= v_time s'.
  Proof. intros H. induction H as [|s h x s1 s2 H IH O E]; [lia|]. apply step_time in E. lia. Qed.

  (** A cancelled handle stays cancelled and is not run any more. *)
  Lemma act_cancelled s a id : cancelled (v_tab s) id = true -> cancelled (v_tab (vact_do s a)) id = true.
  Proof.
    intros H. destruct a as [|w|i]; unfold vact_do; cbn zeta; cbn [v_tab]; rewrite ?cancelled_snoc; auto.
    destruct (Nat.ltb_spec i (length (v_tab s))) as [Hi|Hi]; cbn [negb orb]; [|auto]. destruct (cancelled (v_tab s) i); cbn [v_tab]; [auto|].
    rewrite cancelled_mark by exact Hi. rewrite H. apply orb_true_r.
  Qed.
  Lemma acts_cancelled acts s id : cancelled (v_tab s) id = true -> cancelled (v_tab (fold_left vact_do acts s)) id = true.
  Proof. revert s. induction acts as [|a acts IH]; intros s H; cbn; [exact H|]. apply IH. now apply act_cancelled. Qed.

  Lemma step_cancelled s x s' id : vstep top s x = Some s' -> cancelled (v_tab s) id = true ->
    cancelled (v_tab s') id = true /\ (was_run s' id -> was_run s id).
  Proof.
    intros E H. unfold vstep in E. unfold was_run. destruct x as [a| |acts| |].
    - destruct (v_todo s); [discriminate|]. injection E as <-. split; [now apply act_cancelled|]. destruct (acts_time [a] s) as (_ & E & _). cbn in E. now rewrite E.
    - destruct (v_todo s); [discriminate|]. injection E as <-. unfold begin_iteration. destruct (clean top s) as [l c].
      destruct (v_ready s); [destruct l|]; cbn; auto.
    - unfold run_handle in E. destruct (v_todo s) as [[|n]|]; try discriminate. destruct (v_ready s) as [|i r]; [discriminate|].
      destruct (cancelled (v_tab s) i) eqn:Ei; [destruct acts; [|discriminate]|]; injection E as <-; [cbn; auto|].
      split; [now apply acts_cancelled|].
      match goal with |- In _ (map fst (v_log (fold_left _ _ ?t))) -> _ => destruct (acts_time acts t) as (_ & -> & _) end.
      cbn. rewrite map_app, in_app_iff. intros [F|[F|[]]]; [exact F|]. cbn in F. congruence.
    - destruct (v_todo s) as [[|n]|]; try discriminate. injection E as <-. cbn. auto.
    - destruct (v_todo s); try discriminate. injection E as <-. cbn. auto.
  Qed.
  Lemma steps_cancelled ok s h s' id : vsteps top ok s h s' -> cancelled (v_tab s) id = true ->
    cancelled (v_tab s') id = true /\ (was_run s' id -> was_run s id).
  Proof.
    intros H Hc. induction H as [|s h x s1 s2 H IH O E]; [auto|]. destruct (IH Hc) as [H1 H2]. destruct (step_cancelled _ _ _ E H1) as [H3 H4]. auto.
  Qed.

  (** *** No timer in the past *)
  Record exact_ (s : vstate) : Prop := Exact {
    ex_ready : forall id w, In id (v_ready s) -> tm (v_tab s) id = Some w -> w = v_time s;
    ex_sched : forall id w, In id (v_sched s) -> tm (v_tab s) id = Some w -> v_time s <= w;
    ex_log : forall id t w, In (id, t) (v_log s) -> tm (v_tab s) id = Some w -> w = t
  }.

  Lemma act_exact s a : wf s -> exact_ s -> (forall w, a = VAt w -> v_time s <= w) -> exact_ (vact_do s a).
  Proof.
    intros Hw [H1 H2 H3] Ha. pose proof (wf_lt Hw) as L.
    assert (Lr : forall id, In id (v_ready s) -> (id < length (v_tab s))%nat) by (intros id H; apply L, in_ids; auto).
    assert (Ls : forall id, In id (v_sched s) -> (id < length (v_tab s))%nat) by (intros id H; apply L, in_ids; auto).
    assert (Ll : forall id t, In (id, t) (v_log s) -> (id < length (v_tab s))%nat).
    { intros id t H. apply L, in_ids. left. change id with (fst (id, t)). now apply in_map. }
    destruct a as [|w|i]; unfold vact_do; cbn zeta.
    - constructor; cbn.
      + intros id v H E. apply in_app_iff in H as [H|[<-|[]]]; [|now rewrite tm_new in E]. rewrite tm_snoc in E by auto. eauto.
      + intros id v H E. rewrite tm_snoc in E by auto. eauto.
      + intros id t v H E. rewrite tm_snoc in E by eauto. eauto.
    - constructor; cbn.
      + intros id v H E. rewrite tm_snoc in E by auto. eauto.
      + intros id v H E. apply in_app_iff in H as [H|[<-|[]]]; [rewrite tm_snoc in E by auto; eauto|]. rewrite tm_new in E. injection E as <-. auto.
      + intros id t v H E. rewrite tm_snoc in E by eauto. eauto.
    - destruct (_ || _); constructor; cbn; auto; intros *; rewrite tm_mark; eauto.
  Qed.
  Lemma acts_exact acts : forall s, wf s -> exact_ s -> (forall w, In (VAt w) acts -> v_time s <= w) -> exact_ (fold_left vact_do acts s).
  Proof.
    induction acts as [|a acts IH]; intros s Hw He Ha; cbn; [exact He|]. apply IH; [now apply act_wf|apply act_exact; auto|].
    - intros w ->. apply Ha. now left.
    - intros w H. destruct (acts_time [a] s) as [E _]. cbn in E. rewrite E. apply Ha. now right.
  Qed.
End Time.

Section Exact.
  Variable top : nat -> list hinfo -> list nat -> nat.
  Hypothesis Top : heap_top top.

  Lemma step_exact s x s' : wf s -> exact_ s -> timely s x -> vstep top s x = Some s' -> exact_ s'.
  Proof.
    intros Hw He Hx E. unfold vstep in E. destruct x as [a| |acts| |].
    - destruct (v_todo s); [discriminate|]. injection E as <-. apply act_exact; auto. intros w ->. exact Hx.
    - destruct (v_todo s) eqn:Et; [discriminate|]. injection E as <-. unfold begin_iteration. destruct (clean top s) as [l c] eqn:Ec.
      pose proof (wf_nodup Hw) as N. unfold ids in N. apply NoDup_app_iff in N as (_ & N & _). apply NoDup_app_iff in N as (_ & N & _).
      destruct (clean_spec Top _ N (wf_count Hw) Ec) as (C1 & C2 & _ & _ & _). destruct He as [H1 H2 H3].
      assert (G : exact_ (VState (v_time s) (v_tab s) (v_ready s) l c (Some (length (v_ready s))) (S (v_iter s)) (v_log s)))
        by (constructor; cbn; [exact H1|intros i v Hi; apply H2, C2, Hi|exact H3]).
      destruct (v_ready s) as [|x r]; [|exact G]. destruct l as [|y l0] eqn:El; [exact G|]. rewrite <- El in *. clear G.
      assert (Hne : l <> []) by (rewrite El; discriminate). clear El y l0.
      destruct (Top (v_iter s) (v_tab s) Hne) as [Hin Hmin]. set (id := top (v_iter s) (v_tab s) l) in *.
      assert (Hs : tm (v_tab s) id <> None) by (apply (wf_sched Hw); auto). destruct (tm (v_tab s) id) as [w|] eqn:Ew; [|contradiction].
      pose proof (tm_deadline _ _ Ew) as Ed. pose proof (H2 id w (C2 _ Hin) Ew) as Hge.
      constructor; cbn [v_ready v_sched v_tab v_time v_log]; fold id; rewrite ?Ed.
      + intros i v [<-|[]] Ei. rewrite Ew in Ei. injection Ei as <-. lia.
      + intros i v Hi Ei. apply in_remove in Hi as [Hi _]. specialize (Hmin i Hi). rewrite Ed, (tm_deadline _ _ Ei) in Hmin. specialize (H2 i v (C2 _ Hi) Ei). lia.
      + exact H3.
    - unfold run_handle in E. destruct (v_todo s) as [[|n]|] eqn:Et; try discriminate. destruct (v_ready s) as [|i r] eqn:Er; [discriminate|].
      destruct He as [H1 H2 H3]. rewrite Er in H1. destruct (cancelled (v_tab s) i) eqn:Ei.
      + destruct acts; [|discriminate]. injection E as <-. constructor; cbn; auto. intros id w H. apply H1. now right.
      + assert (W : run_handle s [] = Some (VState (v_time s) (v_tab s) r (v_sched s) (v_count s) (Some n) (v_iter s) (v_log s ++ [(i, v_time s)])))
          by (unfold run_handle; rewrite Et, Er, Ei; reflexivity).
        apply (run_wf _ Hw) in W. injection E as <-. apply acts_exact; [exact W| |exact Hx]. constructor; cbn; auto.
        * intros id w H. apply H1. now right.
        * intros id t w H Hw'. apply in_app_iff in H as [H|[H|[]]]; [eauto|]. injection H as <- <-. apply (H1 i); [now left|exact Hw'].
    - destruct (v_todo s) as [[|n]|]; try discriminate. injection E as <-. destruct He. constructor; auto.
    - destruct (v_todo s); try discriminate. injection E as <-. destruct He. constructor; auto.
  Qed.
  Lemma reach_exact h s : vsteps top timely v_init h s -> exact_ s.
  Proof.
    intros H. remember v_init as s0. induction H as [|s0 h x s1 s2 H IH O E]; subst; [constructor; intros *; intros []|].
    exact (step_exact _ (reach_wf Top H) (IH eq_refl) O E).
  Qed.

  (** *** The timer that is run next *)
  Lemma begin_next s s' id : wf s -> vstep top s VBegin = Some s' -> v_ready s = [] -> v_ready s' = [id] ->
    cancelled (v_tab s) id = false /\ In id (v_sched s) /\ v_time s' = Z.max (deadline (v_tab s) id) (v_time s) /\
    forall j, In j (v_sched s) -> cancelled (v_tab s) j = false -> deadline (v_tab s) id <= deadline (v_tab s) j.
  Proof.
    intros Hw E Hr Hr'. unfold vstep in E. destruct (v_todo s) eqn:Et; [discriminate|]. injection E as <-. unfold begin_iteration in *.
    destruct (clean top s) as [l c] eqn:Ec. rewrite Hr in *.
    pose proof (wf_nodup Hw) as N. unfold ids in N. apply NoDup_app_iff in N as (_ & N & _). apply NoDup_app_iff in N as (_ & N & _).
    destruct (clean_spec Top _ N (wf_count Hw) Ec) as (C1 & C2 & C3 & C4 & _).
    destruct l as [|y l0] eqn:El; [discriminate|]. rewrite <- El in *. assert (Hne : l <> []) by (rewrite El; discriminate). clear El y l0.
    destruct (Top (v_iter s) (v_tab s) Hne) as [Hin Hmin]. cbn in *. injection Hr' as <-. destruct C4 as [C4|C4]; [contradiction|].
    repeat split; auto. intros j Hj Hc. apply Hmin. destruct (C3 j Hj); [assumption|congruence].
  Qed.

  (** *** Everything is run *)
  Definition plain (x : vlabel) : Prop := x = VBegin \/ x = VRun [] \/ x = VEnd.
  Definition drains (s : vstate) : Prop := exists h s', Forall plain h /\ vsteps top always s h s' /\ drained s'.

  Lemma vsteps_cons s x s1 h s' : vstep top s x = Some s1 -> vsteps top always s1 h s' -> vsteps top always s (x :: h) s'.
  Proof.
    intros E H. remember s1 as t eqn:Et. induction H as [t|t h y s2 s3 H IH O E']; subst.
    - apply (@vs_snoc top always s [] x s s1); [constructor|exact I|exact E].
    - apply (@vs_snoc top always s (x :: h) y s2 s3); [exact (IH eq_refl E)|exact I|exact E'].
  Qed.

  Lemma drains_cons s x s1 : plain x -> vstep top s x = Some s1 -> drains s1 -> drains s.
  Proof.
    intros Hx E (h & s' & H1 & H2 & H3). exists (x :: h), s'. split; [now constructor|]. split; [|exact H3]. exact (vsteps_cons _ _ E H2).
  Qed.

  Lemma begin_shape s : wf s -> v_todo s = None -> exists s', vstep top s VBegin = Some s' /\ v_todo s' = Some (length (v_ready s')) /\
    (length (v_ready s') + length (v_sched s') <= length (v_ready s) + length (v_sched s))%nat /\ 
    (v_ready s' = [] -> v_ready s = [] /\ v_sched s' = []).
  Proof.
    intros Hw Ht. unfold vstep. rewrite Ht. eexists. split; [reflexivity|]. unfold begin_iteration. destruct (clean top s) as [l c] eqn:Ec.
    pose proof (wf_nodup Hw) as N. unfold ids in N. apply NoDup_app_iff in N as (_ & N & _). apply NoDup_app_iff in N as (_ & N & _).
    destruct (clean_spec Top _ N (wf_count Hw) Ec) as (C1 & C2 & _ & _ & _). pose proof (NoDup_incl_length C1 C2) as L.
    destruct (v_ready s) as [|x r]; [|cbn; repeat split; try lia; discriminate]. destruct l as [|y l0] eqn:El; [cbn; repeat split; lia|]. rewrite <- El in *.
    assert (Hne : l <> []) by (rewrite El; discriminate). clear El y l0. destruct (Top (v_iter s) (v_tab s) Hne) as [Hin _].
    pose proof (remove_length Nat.eq_dec _ C1 Hin) as R. cbn. repeat split; try lia; discriminate.
  Qed.

  Lemma finish n : forall s, v_todo s = Some n -> (n <= length (v_ready s))%nat ->
    (forall s', v_todo s' = None -> length (v_ready s') = (length (v_ready s) - n)%nat -> v_sched s' = v_sched s ->
      (exists h, Forall plain h /\ vsteps top always s h s') -> drains s') -> drains s.
  Proof.
    induction n as [|n IH]; intros s Ht Hl Hc.
    - assert (E : exists s', vstep top s VEnd = Some s' /\ v_todo s' = None /\ v_ready s' = v_ready s /\ v_sched s' = v_sched s)
        by (unfold vstep; rewrite Ht; eexists; cbn; auto).
      destruct E as (s' & E & E1 & E2 & E3). apply drains_cons with VEnd s'; [right; right; reflexivity|exact E|].
      apply Hc; auto; [rewrite E2; lia|]. exists [VEnd]. split; [repeat constructor; right; right; reflexivity|]. apply (vsteps_cons _ _ E). constructor.
    - destruct (v_ready s) as [|id r] eqn:Er; [cbn in Hl; lia|].
      assert (E : exists s', vstep top s (VRun []) = Some s' /\ v_todo s' = Some n /\ v_ready s' = r /\ v_sched s' = v_sched s).
      { unfold vstep, run_handle. rewrite Ht, Er. destruct (cancelled (v_tab s) id); eexists; cbn; auto. }
      destruct E as (s1 & E & E1 & E2 & E3). apply drains_cons with (VRun []) s1; [right; left; reflexivity|exact E|].
      apply IH; [exact E1|rewrite E2; cbn in Hl; lia|]. intros s' F1 F2 F3 (h & F4 & F5). apply Hc; auto; [rewrite F2, E2; cbn; lia|congruence|].
      exists (VRun [] :: h). split; [constructor; [right; left; reflexivity|exact F4]|].
      exact (vsteps_cons _ _ E F5).
  Qed.

  Lemma drains_idle k : forall s, wf s -> v_todo s = None -> (length (v_ready s) + length (v_sched s) <= k)%nat -> drains s.
  Proof.
    induction k as [|k IH]; intros s Hw Ht Hk.
    - exists [], s. split; [constructor|]. split; [constructor|]. destruct (v_ready s) eqn:E1; [|cbn in Hk; lia]. destruct (v_sched s) eqn:E2; [|cbn in Hk; lia]. repeat split; auto.
    - destruct (begin_shape Hw Ht) as (s1 & E & Ht1 & L & Z0). apply drains_cons with VBegin s1; [left; reflexivity|exact E|].
      assert (Hw1 : wf s1) by exact (step_wf Top _ Hw E).
      apply finish with (length (v_ready s1)); [exact Ht1|lia|]. intros s2 T2 L2 S2 (h & Hp & H2).
      assert (Hw2 : wf s2) by exact (steps_wf Top Hw1 H2).
      destruct (v_ready s1) as [|x r] eqn:Er.
      + destruct (Z0 eq_refl) as [_ Z1]. exists [], s2. split; [constructor|]. split; [constructor|].
        repeat split; auto; [|congruence]. destruct (v_ready s2); [reflexivity|]. cbn in L2. lia.
      + apply IH; auto. rewrite S2, L2. cbn in *. lia.
  Qed.

  Lemma drains_any s : wf s -> drains s.
  Proof.
    intros Hw. destruct (v_todo s) as [n|] eqn:Et; [|exact (drains_idle Hw Et (le_n _))].
    apply finish with n; [exact Et|exact (wf_todo Hw Et)|]. intros s' H1 _ _ (h & _ & H). exact (drains_idle (steps_wf Top Hw H) H1 (le_n _)).
  Qed.
End Exact.

(** ** Order of call_soon *)
Lemma sorted_split (l : list nat) a j b i c : StronglySorted lt l -> l = a ++ j :: b ++ i :: c -> (j < i)%nat.
Proof.
  intros H ->. induction a as [|x a IH]; cbn in H.
  - inversion H as [|? ? _ F]; subst. rewrite Forall_forall in F. apply F, in_app_iff. right. now left.
  - inversion H; subst. auto.
Qed.
Lemma filter_split X (f : X -> bool) a j b i c : f j = true -> f i = true ->
  filter f (a ++ j :: b ++ i :: c) = filter f a ++ j :: filter f b ++ i :: filter f c.
Proof. intros Hj Hi. rewrite filter_app. cbn. rewrite Hj, filter_app. cbn. now rewrite Hi. Qed.

Lemma fifo s a j b i c : wf s -> timer s i = None -> timer s j = None -> map fst (v_log s) = a ++ j :: b ++ i :: c -> (j < i)%nat.
Proof.
  intros Hw Hi Hj E. pose proof (wf_fifo Hw) as H. unfold soons in H. rewrite E in H.
  assert (Ei : is_soon (v_tab s) i = true) by (unfold is_soon; change (tm (v_tab s) i) with (timer s i); now rewrite Hi).
  assert (Ej : is_soon (v_tab s) j = true) by (unfold is_soon; change (tm (v_tab s) j) with (timer s j); now rewrite Hj).
  rewrite <- app_assoc in H. cbn in H. rewrite <- app_assoc in H. cbn in H. rewrite (@filter_split _ _ _ _ _ _ _ Ej Ei) in H.
  exact (@sorted_split _ _ _ _ _ _ H eq_refl).
Qed.

Lemma fifo_all s i j : wf s -> timer s i = None -> timer s j = None -> (i < j)%nat -> was_run s j -> cancelled (v_tab s) i = false -> was_run s i.
Proof.
  intros Hw Hi Hj Hij Hr Hc. unfold was_run in *.
  assert (Lj : (j < length (v_tab s))%nat) by (apply (wf_lt Hw), in_ids; auto).
  destruct (@wf_all _ Hw i) as [F|F]; [lia| |congruence]. apply in_ids in F as [F|[F|F]]; [exact F| |elim (wf_sched Hw _ F); exact Hi].
  exfalso. apply in_split in Hr as (a & b & Ea). apply in_split in F as (c & d & Ec). pose proof (wf_fifo Hw) as H. unfold soons in H. rewrite Ea, Ec in H.
  assert (Ei : is_soon (v_tab s) i = true) by (unfold is_soon; change (tm (v_tab s) i) with (timer s i); now rewrite Hi).
  assert (Ej : is_soon (v_tab s) j = true) by (unfold is_soon; change (tm (v_tab s) j) with (timer s j); now rewrite Hj).
  rewrite <- app_assoc in H. cbn in H. rewrite (app_assoc b) in H. rewrite (@filter_split _ _ _ _ _ _ _ Ej Ei) in H.
  pose proof (@sorted_split _ _ _ _ _ _ H eq_refl). lia.
Qed.

(** ** A timer that is never run *)
Section Starve.
  Variable top : nat -> list hinfo -> list nat -> nat.
  Hypothesis Top : heap_top top.

  Fixpoint busy_for (n : nat) : list vlabel :=
    match n with O => [VOutside (VAt 0); VOutside VSoon] | S n => busy_for n ++ [VBegin; VRun [VSoon]; VEnd] end.

  Lemma starve n : exists s, vsteps top always v_init (busy_for n) s /\ v_todo s = None /\ v_ready s = [S n] /\ v_sched s = [O] /\
    v_time s = 0 /\ ~ In O (map fst (v_log s)) /\ length (v_tab s) = S (S n) /\ v_count s = 0 /\ (forall id, cancelled (v_tab s) id = false) /\
    timer s 0 = Some 0.
  Proof.
    induction n as [|n (s & H & H1 & H2 & H3 & H4 & H5 & H6 & H7 & H8 & H9)].
    - eexists. split; [eapply vsteps_cons; [reflexivity|]; eapply vsteps_cons; [reflexivity|]; constructor|].
      cbn. repeat split; auto. intros [|[|id]]; try reflexivity. unfold cancelled. cbn. now destruct id.
    - assert (T : top (v_iter s) (v_tab s) [O] = O) by (destruct (Top (v_iter s) (v_tab s) (l := [O])) as [[F|[]] _]; [discriminate|symmetry; exact F]).
      assert (C : clean top s = ([O], 0)).
      { unfold clean, crowded. rewrite H3. cbn. rewrite T, H8. cbn. now rewrite H7. }
      assert (E1 : exists s1, vstep top s VBegin = Some s1 /\ s1 = VState 0 (v_tab s) [S n] [O] 0 (Some 1%nat) (S (v_iter s)) (v_log s)).
      { unfold vstep, begin_iteration. rewrite H1, C, H2, H4. cbn. eauto. }
      destruct E1 as (s1 & E1 & ->).
      eexists. split.
      + cbn [busy_for]. change [VBegin; VRun [VSoon]; VEnd] with ([VBegin] ++ [VRun [VSoon]] ++ [VEnd]). rewrite !app_assoc.
        eapply vs_snoc; [eapply vs_snoc; [eapply vs_snoc; [exact H|exact I|exact E1]|exact I|]|exact I|].
        * unfold vstep, run_handle. cbn [v_todo v_ready v_tab]. rewrite H8. reflexivity.
        * reflexivity.
      + cbn. rewrite H6. repeat split; auto.
        * rewrite map_app, in_app_iff. cbn. intros [F|[F|[]]]; [auto|discriminate].
        * rewrite app_length, H6. cbn. lia.
        * intros id. rewrite cancelled_snoc. apply H8.
        * change (tm (v_tab s ++ [HInfo None false]) 0 = Some 0). rewrite tm_snoc by lia. exact H9.
  Qed.
End Starve.

(** A concrete heap: the entry with the least deadline that comes first. *)
Fixpoint least (tab : list hinfo) (x : nat) (l : list nat) : nat :=
  match l with
  | [] => x
  | y :: l => least tab (if deadline tab x <=? deadline tab y then x else y) l
  end.
Definition first_least (k : nat) (tab : list hinfo) (l : list nat) : nat := match l with [] => O | x :: l => least tab x l end.
Lemma first_least_top : heap_top first_least.
Proof.
  intros k tab [|x l] H; [contradiction|]. clear H. cbn [first_least].
  assert (G : forall l x, In (least tab x l) (x :: l) /\ forall j, In j (x :: l) -> deadline tab (least tab x l) <= deadline tab j).
  { clear. induction l as [|y l IH]; intros x; cbn [least].
    - split; [now left|]. intros j [->|[]]. lia.
    - destruct (Z.leb_spec (deadline tab x) (deadline tab y)) as [H|H].
      + destruct (IH x) as [H1 H2]. split; [destruct H1 as [H1|H1]; [now left|right; now right]|].
        intros j [->|[->|F]]; [apply H2; now left| |apply H2; now right]. specialize (H2 x (or_introl eq_refl)). lia.
      + destruct (IH y) as [H1 H2]. split; [now right|].
        intros j [->|[->|F]]; [|apply H2; now left|apply H2; now right]. specialize (H2 y (or_introl eq_refl)). lia. }
  apply G.
Qed.

Lemma vrun_steps top (ok : vstate -> vlabel -> Prop) h : forall s s', (forall h1 x h2 t, h = h1 ++ x :: h2 -> vrun top s h1 = Some t -> ok t x) ->
  vrun top s h = Some s' -> vsteps top ok s h s'.
Proof.
  induction h as [|x h IH] using rev_ind; intros s s' Ho E; [injection E as <-; constructor|].
  assert (R : forall h h' s, vrun top s (h ++ h') = match vrun top s h with Some s => vrun top s h' | None => None end).
  { clear. induction h as [|x h IH]; intros h' s; cbn; [reflexivity|]. destruct (vstep top s x); auto. }
  pose proof E as E0. rewrite R in E. destruct (vrun top s h) as [s1|] eqn:E1; [|discriminate]. cbn in E. destruct (vstep top s1 x) as [s2|] eqn:E2; [|discriminate].
  injection E as <-. econstructor; [apply IH; [|exact E1]|exact (Ho h x [] s1 eq_refl E1)|exact E2].
  intros h1 y h2 t -> Ht. apply (Ho h1 y (h2 ++ [x])); [now rewrite <- app_assoc|exact Ht].
Qed.

(** ** Cancelled timers do not accumulate *)
Lemma begin_bound top s s' : heap_top top -> wf s -> vstep top s VBegin = Some s' ->
  (length (v_sched s') <= 100)%nat \/ 2 * ncancel (v_tab s') (v_sched s') <= Z.of_nat (length (v_sched s')) + 1.
Proof.
  intros Top Hw E. assert (Hw' : wf s') by exact (step_wf Top _ Hw E). rewrite <- (wf_count Hw').
  unfold vstep in E. destruct (v_todo s); [discriminate|]. injection E as <-. clear Hw'.
  unfold begin_iteration. destruct (clean top s) as [l c] eqn:Ec.
  pose proof (wf_nodup Hw) as N. unfold ids in N. apply NoDup_app_iff in N as (_ & N & _). apply NoDup_app_iff in N as (_ & N & _).
  destruct (clean_spec Top _ N (wf_count Hw) Ec) as (C1 & C2 & _ & _ & _). pose proof (NoDup_incl_length C1 C2) as L.
  assert (G : (length (v_sched s) <= 100)%nat \/ 2 * c <= Z.of_nat (length l)).
  { unfold clean, crowded in Ec. destruct (Nat.ltb_spec 100 (length (v_sched s))) as [H|H]; [|auto].
    destruct (Z.ltb_spec (Z.of_nat (length (v_sched s))) (2 * v_count s)) as [H'|H']; cbn [andb] in Ec; injection Ec as <- <-; [lia|].
    right. match goal with |- context [length ?x] => set (m := x) in * end. lia. }
  assert (K : (length l <= 100)%nat \/ 2 * c <= Z.of_nat (length l)) by lia.
  destruct (v_ready s) as [|x r]; [|cbn [v_sched v_count]; lia]. destruct l as [|y l0] eqn:El; [left; cbn; lia|]. rewrite <- El in *.
  assert (Hne : l <> []) by (rewrite El; discriminate). clear El y l0. destruct (Top (v_iter s) (v_tab s) l Hne) as [Hin _].
  pose proof (remove_length Nat.eq_dec _ C1 Hin) as R. cbn [v_sched v_count]. lia.
Qed.

Lemma vsteps_head top (ok : vstate -> vlabel -> Prop) s x s1 h s' : ok s x -> vstep top s x = Some s1 -> vsteps top ok s1 h s' -> vsteps top ok s (x :: h) s'.
Proof.
  intros Hx E H. remember s1 as t eqn:Et. induction H as [t|t h y s2 s3 H IH O E']; subst.
  - apply (@vs_snoc top ok s [] x s s1); [constructor|exact Hx|exact E].
  - apply (@vs_snoc top ok s (x :: h) y s2 s3); [exact (IH eq_refl E)|exact O|exact E'].
Qed.
