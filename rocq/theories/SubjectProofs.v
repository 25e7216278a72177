(** * Proofs about AsyncMultiSubject. *)
From Coq Require Import Permutation.
From Verif Require Export Subject.
Set Implicit Arguments.
Arguments reached : simpl never.
Arguments received : simpl never.

(** ** Lists *)
Lemma upd_length X i (x : X) l : length (upd i x l) = length l.
Proof. revert i. induction l as [|y l IH]; intros [|i]; cbn; auto. Qed.

Lemma nth_upd_eq X i (x : X) l : i < length l -> nth_error (upd i x l) i = Some x.
Proof. revert i. induction l as [|y l IH]; intros [|i] H; cbn in *; try lia; [reflexivity|]. apply IH. lia. Qed.

Lemma nth_upd_ne X i j (x : X) l : i <> j -> nth_error (upd i x l) j = nth_error l j.
Proof. revert i j. induction l as [|y l IH]; intros [|i] [|j] H; cbn; auto; try lia. Qed.

Lemma upd_same X i (x : X) l : nth_error l i = Some x -> upd i x l = l.
Proof. revert i. induction l as [|y l IH]; intros [|i] H; cbn in *; try congruence. f_equal. now apply IH. Qed.

Lemma nth_some_length X (l : list X) i x : nth_error l i = Some x -> i < length l.
Proof. intros H. apply nth_error_Some. congruence. Qed.

Lemma nth_snoc X (l : list X) x : nth_error (l ++ [x]) (length l) = Some x.
Proof. rewrite nth_error_app2 by lia. now rewrite Nat.sub_diag. Qed.

Lemma remove_first_perm o l : In o l -> Permutation (o :: remove_first o l) l.
Proof.
  induction l as [|x l IH]; intros H; [destruct H|]. cbn. destruct (x =? o) eqn:E.
  - apply Nat.eqb_eq in E. now subst.
  - destruct H as [->|H]; [rewrite Nat.eqb_refl in E; discriminate|].
    eapply perm_trans; [apply perm_swap|]. apply perm_skip, IH, H.
Qed.

(** ** Histories *)
Lemma ureach_last A (h : list (ulabel A)) s : ureach h s -> h = [] /\ s = u_init \/
  exists h1 x s1, h = h1 ++ [x] /\ ureach h1 s1 /\ ustep s1 x = Some s.
Proof. intros H. inversion H; subst; [left; auto|right; eauto 8]. Qed.

Lemma ureach_snoc A (h : list (ulabel A)) x s : ureach (h ++ [x]) s -> exists s1, ureach h s1 /\ ustep s1 x = Some s.
Proof.
  intros H. destruct (ureach_last H) as [[E _]|(h1 & y & s1 & E & H1 & Q)]; [destruct h; discriminate|].
  apply app_inj_tail in E as [<- <-]. eauto.
Qed.

Lemma ureach_fun A (h : list (ulabel A)) : forall s s', ureach h s -> ureach h s' -> s = s'.
Proof.
  induction h as [|x h IH] using rev_ind; intros s s' H H'.
  - destruct (ureach_last H) as [[_ ->]|(h1 & y & s1 & E & _)]; [|destruct h1; discriminate].
    destruct (ureach_last H') as [[_ ->]|(h1 & y & s1 & E & _)]; [reflexivity|destruct h1; discriminate].
  - apply ureach_snoc in H as (s1 & H1 & Q). apply ureach_snoc in H' as (s2 & H2 & Q').
    rewrite (IH _ _ H1 H2) in Q. congruence.
Qed.

Lemma ureach_app A (h1 h2 : list (ulabel A)) : forall s, ureach (h1 ++ h2) s -> exists s1, ureach h1 s1.
Proof.
  induction h2 as [|x h2 IH] using rev_ind; intros s H; [rewrite app_nil_r in H; eauto|].
  rewrite app_assoc in H. apply ureach_snoc in H as (s1 & H1 & _). eauto.
Qed.

Lemma u_off_snoc A (h : list (ulabel A)) x : u_off (h ++ [x]) = u_off h || match x with UDispose => true | _ => false end.
Proof. unfold u_off. rewrite existsb_app. cbn. now rewrite orb_false_r. Qed.

Lemma u_ended_snoc A (h : list (ulabel A)) x :
  u_ended (h ++ [x]) = u_ended h || (negb (u_off h) && match x with UCall n => is_term n | _ => false end).
Proof.
  induction h as [|y h IH]; cbn.
  - destruct x; cbn; rewrite ?orb_false_r; reflexivity.
  - destruct y; cbn; rewrite ?IH; try reflexivity. now rewrite orb_assoc.
Qed.

Lemma ncalls_snoc A (h : list (ulabel A)) x : ncalls (h ++ [x]) = ncalls h + match x with UCall _ => 1 | _ => 0 end.
Proof. unfold ncalls. rewrite filter_app, app_length. destruct x; reflexivity. Qed.

(** The subscriptions in force, read off the subject's record of subscriptions. *)
Fixpoint actives (i : nat) (l : list (option (nat * bool))) : list (nat * nat) :=
  match l with
  | [] => []
  | Some (o, true) :: r => (i, o) :: actives (S i) r
  | _ :: r => actives (S i) r
  end.

Lemma actives_app i l x : actives i (l ++ [x]) = actives i l ++ match x with Some (o, true) => [(i + length l, o)] | _ => [] end.
Proof.
  revert i. induction l as [|y l IH]; intros i; cbn [app actives length].
  - rewrite Nat.add_0_r. destruct x as [[o []]|]; reflexivity.
  - replace (i + S (length l)) with (S i + length l) by lia. rewrite IH. destruct y as [[o []]|]; reflexivity.
Qed.

Lemma actives_ge i l k o : In (k, o) (actives i l) -> i <= k.
Proof.
  revert i. induction l as [|y l IH]; intros i H; [destruct H|]. cbn in H.
  destruct y as [[p []]|]; try (apply IH in H; lia). destruct H as [[= -> ->]|H]; [lia|apply IH in H; lia].
Qed.

Lemma actives_filter i l j o : filter (fun p => negb (fst p =? i + j)) (actives i l) = actives i (upd j (Some (o, false)) l).
Proof.
  revert i j. induction l as [|y l IH]; intros i [|j]; cbn [upd actives]; try reflexivity.
  - rewrite Nat.add_0_r. assert (E : filter (fun p : nat * nat => negb (fst p =? i)) (actives (S i) l) = actives (S i) l).
    { assert (G : forall p, In p (actives (S i) l) -> negb (fst p =? i) = true).
      { intros [k p] F. apply actives_ge in F. cbn. apply negb_true_iff, Nat.eqb_neq. lia. }
      revert G. generalize (actives (S i) l). clear. induction l as [|p l IH]; intros G; [reflexivity|]. cbn.
      rewrite (G p) by now left. f_equal. apply IH. intros q F. apply G. now right. }
    destruct y as [[p []]|]; cbn; rewrite ?Nat.eqb_refl; cbn; exact E.
  - replace (i + S j) with (S i + j) by lia. rewrite <- IH. destruct y as [[p []]|]; try reflexivity.
    cbn. replace (i =? S (i + j)) with false by (symmetry; apply Nat.eqb_neq; lia). reflexivity.
Qed.

Lemma actives_in i l k o : In (i + k, o) (actives i l) <-> nth_error l k = Some (Some (o, true)).
Proof.
  revert i k. induction l as [|y l IH]; intros i k.
  - cbn. destruct k; split; (tauto || discriminate).
  - destruct k as [|k].
    + cbn. rewrite Nat.add_0_r. destruct y as [[p []]|]; cbn; split; intros H.
      * destruct H as [[= ->]|H]; [reflexivity|]. apply actives_ge in H. lia.
      * injection H as ->. now left.
      * apply actives_ge in H. lia.
      * discriminate.
      * apply actives_ge in H. lia.
      * discriminate.
    + replace (i + S k) with (S i + k) by lia. cbn [nth_error]. rewrite <- (IH (S i) k). destruct y as [[p []]|]; cbn; try reflexivity.
      split; [intros [[= E _]|H]; [lia|exact H]|now right].
Qed.

Lemma actives_nodup i l : NoDup (map fst (actives i l)).
Proof.
  revert i. induction l as [|y l IH]; intros i; cbn; [constructor|]. destruct y as [[o []]|]; auto. cbn. constructor; [|apply IH].
  intros F. apply in_map_iff in F as ((k & p) & <- & F). apply actives_ge in F. cbn in F. lia.
Qed.

Lemma perm_drop (l : list (nat * nat)) k o : NoDup (map fst l) -> In (k, o) l ->
  Permutation (o :: map snd (filter (fun p => negb (fst p =? k)) l)) (map snd l).
Proof.
  induction l as [|[j p] l IH]; intros Hn Hi; [destruct Hi|]. cbn in *. inversion Hn as [|? ? Hx Hn']; subst.
  destruct (j =? k) eqn:E; cbn.
  - apply Nat.eqb_eq in E. subst j. destruct Hi as [[= ->]|Hi].
    + apply perm_skip. replace (filter (fun q : nat * nat => negb (fst q =? k)) l) with l; [reflexivity|].
      symmetry. assert (G : forall q, In q l -> negb (fst q =? k) = true).
      { intros [a b] F. apply negb_true_iff, Nat.eqb_neq. cbn. intros ->. apply Hx, in_map_iff. now exists (k, b). }
      revert G. clear. induction l as [|q l IH]; intros G; [reflexivity|]. cbn. rewrite (G q) by now left. f_equal. apply IH. intros r F. apply G. now right.
    + elim Hx. apply in_map_iff. now exists (k, o).
  - destruct Hi as [[= -> ->]|Hi]; [rewrite Nat.eqb_refl in E; discriminate|].
    eapply perm_trans; [apply perm_swap|]. apply perm_skip, IH; assumption.
Qed.

Lemma drop_exact (l : list (nat * nat)) k o : NoDup (map fst l) -> NoDup (map snd l) -> In (k, o) l ->
  remove_first o (map snd l) = map snd (filter (fun p => negb (fst p =? k)) l).
Proof.
  induction l as [|[j p] l IH]; intros Hn Hm Hi; [destruct Hi|]. cbn in *. inversion Hn as [|? ? Hx Hn']; subst. inversion Hm as [|? ? Hy Hm']; subst.
  destruct (j =? k) eqn:E; cbn.
  - apply Nat.eqb_eq in E. subst j. destruct Hi as [[= ->]|Hi].
    + rewrite Nat.eqb_refl. f_equal. symmetry.
      assert (G : forall q, In q l -> negb (fst q =? k) = true).
      { intros [a b] F. apply negb_true_iff, Nat.eqb_neq. cbn. intros ->. apply Hx, in_map_iff. now exists (k, b). }
      revert G. clear. induction l as [|q l IH]; intros G; [reflexivity|]. cbn. rewrite (G q) by now left. f_equal. apply IH. intros r F. apply G. now right.
    + elim Hx. apply in_map_iff. now exists (k, o).
  - destruct Hi as [[= -> ->]|Hi]; [rewrite Nat.eqb_refl in E; discriminate|].
    replace (p =? o) with false. { f_equal. now apply IH. }
    symmetry. apply Nat.eqb_neq. intros ->. apply Hy, in_map_iff. now exists (k, o).
Qed.

(** ** The subject against its history *)
Record UI {A} (h : list (ulabel A)) (s : ustate A) : Prop := {
  ui_off : u_disposed s = u_off h;
  ui_end : u_stopped s = u_ended h;
  ui_calls : length (u_calls s) = ncalls h;
  ui_subs : fold_left sub_step h (0, false, []) = (length (u_subs s), u_off h, actives 0 (u_subs s));
  ui_obs : Permutation (u_obs s) (map snd (actives 0 (u_subs s)))
}.

Ltac ucase E := cbn in E; repeat match type of E with
  | context [match ?t with _ => _ end] => let F := fresh "F" in destruct t eqn:F; try discriminate E
  end; injection E as <-.

Lemma ui A (h : list (ulabel A)) s : ureach h s -> UI h s.
Proof.
  induction 1 as [|h x s s' Hr [I1 I2 I3 I4 I5] E]; [constructor; reflexivity|].
  destruct x as [n|c|c e|o|k|].
  - cbn in E. rewrite I1, I2 in E. destruct (u_off h) eqn:O; [|destruct (u_ended h) eqn:T].
    + injection E as <-. constructor; cbn; rewrite ?u_off_snoc, ?u_ended_snoc, ?ncalls_snoc, ?app_length, ?O; cbn; rewrite ?orb_false_r; auto.
      rewrite fold_left_app, I4. reflexivity.
    + injection E as <-. constructor; cbn; rewrite ?u_off_snoc, ?u_ended_snoc, ?ncalls_snoc, ?app_length, ?O; cbn; rewrite ?orb_false_r; auto.
      all: try (now rewrite T); rewrite fold_left_app, I4; reflexivity.
    + destruct (uloop (length (u_calls s)) n (u_obs s)) as [p l]. injection E as <-.
      constructor; cbn; rewrite ?u_off_snoc, ?u_ended_snoc, ?ncalls_snoc, ?app_length, ?O; cbn; rewrite ?orb_false_r; auto.
      all: try (rewrite T; destruct n; reflexivity); rewrite fold_left_app, I4; reflexivity.
  - cbn in E. destruct (nth_error (u_calls s) c) as [[n o rest|]|]; try discriminate.
    destruct (uloop c n rest) as [p l]. injection E as <-.
    constructor; cbn; rewrite ?u_off_snoc, ?u_ended_snoc, ?ncalls_snoc, ?upd_length, ?fold_left_app, ?I4; cbn; rewrite ?andb_false_r, ?orb_false_r, ?Nat.add_0_r; auto.
  - cbn in E. destruct (nth_error (u_calls s) c) as [[n o rest|]|]; try discriminate. injection E as <-.
    constructor; cbn; rewrite ?u_off_snoc, ?u_ended_snoc, ?ncalls_snoc, ?upd_length, ?fold_left_app, ?I4; cbn; rewrite ?andb_false_r, ?orb_false_r, ?Nat.add_0_r; auto.
  - cbn in E. rewrite I1 in E. destruct (u_off h) eqn:O; injection E as <-.
    + constructor; cbn; rewrite ?u_off_snoc, ?u_ended_snoc, ?ncalls_snoc, ?fold_left_app, ?I4, ?O, ?app_length, ?actives_app; cbn; rewrite ?andb_false_r, ?orb_false_r, ?Nat.add_0_r, ?Nat.add_1_r, ?app_nil_r; auto.
    + constructor; cbn; rewrite ?u_off_snoc, ?u_ended_snoc, ?ncalls_snoc, ?fold_left_app, ?I4, ?O, ?app_length, ?actives_app; cbn; rewrite ?andb_false_r, ?orb_false_r, ?Nat.add_0_r, ?Nat.add_1_r, ?app_nil_r; auto.
      rewrite map_app. cbn. apply Permutation_app_tail, I5.
  - cbn in E. destruct (nth_error (u_subs s) k) as [[[o []]|]|] eqn:K; try discriminate; injection E as <-.
    + constructor; cbn; rewrite ?u_off_snoc, ?u_ended_snoc, ?ncalls_snoc, ?fold_left_app, ?I4, ?upd_length; cbn; rewrite ?andb_false_r, ?orb_false_r, ?Nat.add_0_r; auto.
      * rewrite <- (actives_filter 0 (u_subs s) k o). reflexivity.
      * rewrite <- (actives_filter 0 (u_subs s) k o). cbn [Nat.add].
        apply (actives_in 0) in K. cbn in K. apply Permutation_cons_inv with (a := o).
        eapply perm_trans; [apply remove_first_perm|].
        -- eapply Permutation_in; [apply Permutation_sym, I5|]. apply in_map_iff. now exists (k, o).
        -- eapply perm_trans; [exact I5|]. apply Permutation_sym, perm_drop; [apply actives_nodup|exact K].
    + constructor; cbn; rewrite ?u_off_snoc, ?u_ended_snoc, ?ncalls_snoc, ?fold_left_app, ?I4; cbn; rewrite ?andb_false_r, ?orb_false_r, ?Nat.add_0_r; auto.
      pose proof (actives_filter 0 (u_subs s) k o) as F. rewrite (upd_same _ _ K) in F. cbn in F. now rewrite F.
  - cbn in E. injection E as <-.
    constructor; cbn; rewrite ?u_off_snoc, ?u_ended_snoc, ?ncalls_snoc, ?fold_left_app, ?I4; cbn; rewrite ?andb_false_r, ?orb_false_r, ?orb_true_r, ?Nat.add_0_r; auto.
Qed.

Lemma members_perm A (h : list (ulabel A)) s : ureach h s -> Permutation (u_obs s) (members h).
Proof. intros Hr. destruct (ui Hr). unfold members, in_force. rewrite ui_subs0. exact ui_obs0. Qed.

Lemma subscribers_snoc A (h : list (ulabel A)) x : subscribers (h ++ [x]) = subscribers h ++ match x with USub o => [o] | _ => [] end.
Proof. unfold subscribers. rewrite flat_map_app. cbn. now rewrite app_nil_r. Qed.

Lemma nodup_app_l X (a b : list X) : NoDup (a ++ b) -> NoDup a.
Proof. induction a as [|x a IH]; intros H; [constructor|]. inversion H; subst. constructor; [|auto]. intros F. apply H2, in_app_iff. now left. Qed.

Lemma members_exact A (h : list (ulabel A)) s : ureach h s -> NoDup (subscribers h) ->
  u_obs s = map snd (actives 0 (u_subs s)) /\ incl (u_obs s) (subscribers h) /\ NoDup (u_obs s).
Proof.
  induction 1 as [|h x s s' Hr IH E]; intros Hn; [cbn; repeat split; [intros ? []|constructor]|].
  rewrite subscribers_snoc in *. specialize (IH (nodup_app_l _ _ Hn)) as (I1 & I2 & I3). pose proof (ui Hr) as [_ _ _ _ I5].
  destruct x as [n|c|c e|o|k|].
  - rewrite app_nil_r. cbn in E. destruct (u_disposed s); [injection E as <-; auto|]. destruct (u_stopped s); [injection E as <-; auto|].
    destruct (uloop _ n _). injection E as <-. auto.
  - rewrite app_nil_r. cbn in E. destruct (nth_error (u_calls s) c) as [[n o rest|]|]; try discriminate. destruct (uloop _ n _). injection E as <-. auto.
  - rewrite app_nil_r. cbn in E. destruct (nth_error (u_calls s) c) as [[n o rest|]|]; try discriminate. injection E as <-. auto.
  - cbn in E. destruct (u_disposed s); injection E as <-; cbn; rewrite actives_app.
    + rewrite app_nil_r. split; [exact I1|]. split; [|exact I3]. intros y F. apply in_app_iff. left. now apply I2.
    + cbn. rewrite map_app, <- I1. split; [reflexivity|]. split.
      * intros y F. apply in_app_iff in F as [F|F]; apply in_app_iff; [left; now apply I2|now right].
      * apply (Permutation_NoDup (Permutation_sym (Permutation_app_comm (u_obs s) [o]))). cbn. constructor; [|exact I3].
        intros F. apply I2 in F. apply (Permutation_NoDup (Permutation_app_comm (subscribers h) [o])) in Hn. cbn in Hn. inversion Hn. contradiction.
  - rewrite app_nil_r. cbn in E. destruct (nth_error (u_subs s) k) as [[[o []]|]|] eqn:K; try discriminate; injection E as <-; cbn; [|auto].
    rewrite <- (actives_filter 0 (u_subs s) k o). cbn [Nat.add].
    assert (Hd : remove_first o (u_obs s) = map snd (filter (fun p => negb (fst p =? k)) (actives 0 (u_subs s)))).
    { rewrite I1. apply drop_exact; [apply actives_nodup|now rewrite <- I1|]. now apply (actives_in 0). }
    split; [exact Hd|].
    assert (Hp : Permutation (o :: remove_first o (u_obs s)) (u_obs s)).
    { apply remove_first_perm. rewrite I1. apply in_map_iff. exists (k, o). split; [reflexivity|]. now apply (actives_in 0). }
    split.
    + intros y F. apply I2. eapply Permutation_in; [exact Hp|]. now right.
    + apply (Permutation_NoDup (Permutation_sym Hp)) in I3. now inversion I3.
  - rewrite app_nil_r. injection E as <-. auto.
Qed.

Lemma members_eq A (h : list (ulabel A)) s : ureach h s -> NoDup (subscribers h) -> u_obs s = members h.
Proof. intros Hr Hn. destruct (members_exact Hr Hn) as [E _]. unfold members, in_force. rewrite (ui_subs (ui Hr)). exact E. Qed.

(** ** One call *)
Lemma reached_app A c (s s' : ustate A) l : u_log s' = u_log s ++ l ->
  reached c s' = reached c s ++ map (fun e => snd (fst e)) (filter (fun e => fst (fst e) =? c) l).
Proof. intros E. unfold reached. rewrite E, filter_app, map_app. reflexivity. Qed.

(** No entry of a call that has not been made. *)
Lemma log_calls A (h : list (ulabel A)) s : ureach h s -> forall c o n, In (c, o, n) (u_log s) -> c < length (u_calls s).
Proof.
  induction 1 as [|h x s s' Hr IH E]; intros c o n F; [destruct F|].
  destruct x as [m|d|d e|p|k|]; cbn in E.
  - destruct (u_disposed s); [injection E as <-; cbn in *; rewrite app_length; apply IH in F; lia|].
    destruct (u_stopped s); [injection E as <-; cbn in *; rewrite app_length; apply IH in F; lia|].
    destruct (u_obs s) as [|p r]; cbn in E; injection E as <-; cbn in *; rewrite app_length; cbn.
    + rewrite app_nil_r in F. apply IH in F. lia.
    + apply in_app_iff in F as [F|[[= <- <- <-]|[]]]; [apply IH in F|]; lia.
  - destruct (nth_error (u_calls s) d) as [[m p rest|]|] eqn:K; try discriminate. apply nth_some_length in K.
    destruct rest as [|q r]; cbn in E; injection E as <-; cbn in *; rewrite upd_length.
    + rewrite app_nil_r in F. eapply IH, F.
    + apply in_app_iff in F as [F|[[= <- <- <-]|[]]]; [eapply IH, F|lia].
  - destruct (nth_error (u_calls s) d) as [[m p rest|]|] eqn:K; try discriminate. injection E as <-; cbn in *. rewrite upd_length. eapply IH, F.
  - destruct (u_disposed s); injection E as <-; cbn in *; eapply IH, F.
  - destruct (nth_error (u_subs s) k) as [[[p []]|]|]; try discriminate; injection E as <-; cbn in *; eapply IH, F.
  - injection E as <-; cbn in *; eapply IH, F.
Qed.

Lemma reached_none A (h : list (ulabel A)) s c : ureach h s -> length (u_calls s) <= c -> reached c s = [].
Proof.
  intros Hr Hc. unfold reached. replace (filter (fun e => fst (fst e) =? c) (u_log s)) with (@nil (nat * nat * notif A)); [reflexivity|].
  symmetry. assert (G : forall e, In e (u_log s) -> (fst (fst e) =? c) = false).
  { intros [[d o] n] F. apply (log_calls Hr) in F. cbn. apply Nat.eqb_neq. lia. }
  revert G. generalize (u_log s). clear. induction l as [|e l IH]; intros G; [reflexivity|]. cbn. rewrite (G e) by now left. apply IH. intros f F. apply G. now right.
Qed.

(** What has become of call number [c], made with notification [n] when the
    observers were [snap]. *)
Definition call_state {A} (n : notif A) (snap : list nat) (c : nat) (s : ustate A) : Prop :=
  exists p, nth_error (u_calls s) c = Some p /\
  match p with
  | Flying m o rest => m = n /\ exists done, snap = done ++ o :: rest /\ reached c s = done ++ [o]
  | Finished None => reached c s = snap
  | Finished (Some e) => exists done o rest, snap = done ++ o :: rest /\ reached c s = done ++ [o]
  end /\
  (forall o m, In (c, o, m) (u_log s) -> m = n).

Lemma call_state_ext A n snap c (s s' : ustate A) : nth_error (u_calls s') c = nth_error (u_calls s) c -> reached c s' = reached c s ->
  (forall o m, In (c, o, m) (u_log s') -> In (c, o, m) (u_log s)) -> call_state n snap c s -> call_state n snap c s'.
Proof.
  intros E1 E2 E3 (p & Hp & Hc & Hm). exists p. rewrite E1. split; [exact Hp|]. split; [|intros o m F; apply (Hm o m), E3, F].
  destruct p as [m o rest|[e|]]; rewrite E2; exact Hc.
Qed.

Lemma filter_out A c (l : list (nat * nat * notif A)) : (forall o m, ~ In (c, o, m) l) -> filter (fun e => fst (fst e) =? c) l = [].
Proof.
  induction l as [|[[a b] f] l IH]; intros Hq; [reflexivity|]. cbn. destruct (a =? c) eqn:Ea; [apply Nat.eqb_eq in Ea; subst; elim (Hq b f); now left|].
  apply IH. intros o m F. apply (Hq o m). now right.
Qed.

Lemma call_state_grow A n snap c (s s' : ustate A) l : nth_error (u_calls s') c = nth_error (u_calls s) c -> u_log s' = u_log s ++ l ->
  (forall o m, ~ In (c, o, m) l) -> call_state n snap c s -> call_state n snap c s'.
Proof.
  intros E1 E2 Hl. apply call_state_ext; [exact E1| |].
  - rewrite (reached_app c s s' _ E2), (@filter_out A c l Hl). cbn. apply app_nil_r.
  - intros o m F. rewrite E2 in F. apply in_app_iff in F as [F|F]; [exact F|elim (Hl _ _ F)].
Qed.

Lemma call_step A n snap c (h : list (ulabel A)) x s s' : ureach h s -> call_state n snap c s -> ustep s x = Some s' -> call_state n snap c s'.
Proof.
  intros Hr Hs E. pose proof Hs as (p & Hp & Hc & Hm). pose proof (nth_some_length _ _ Hp) as Hl.
  destruct x as [m|d|d e|o|k|]; cbn in E.
  - destruct (u_disposed s) eqn:D; [|destruct (u_stopped s); [|destruct (u_obs s) as [|o r] eqn:Ob; cbn in E]]; injection E as <-;
      (eapply call_state_grow with (s := s); [cbn; rewrite nth_error_app1 by exact Hl; reflexivity| | |exact Hs]).
    all: try (cbn; symmetry; apply app_nil_r).
    all: try reflexivity.
    all: intros o' m' F; try (destruct F; fail).
    destruct F as [[= F _ _]|[]]. lia.
  - destruct (nth_error (u_calls s) d) as [[m o rest|]|] eqn:K; try discriminate.
    destruct (Nat.eq_dec d c) as [->|Hne].
    + rewrite Hp in K. injection K as ->. destruct Hc as [-> (done & Hss & Hre)].
      destruct rest as [|q r]; cbn in E; injection E as <-.
      * exists (Finished None). cbn. rewrite nth_upd_eq by assumption. split; [reflexivity|]. split.
        -- rewrite (@reached_app A c s _ []) by reflexivity. cbn. now rewrite app_nil_r, Hre, Hss.
        -- intros o' m' F. rewrite app_nil_r in F. exact (Hm _ _ F).
      * exists (Flying n q r). cbn. rewrite nth_upd_eq by assumption. split; [reflexivity|]. split.
        -- split; [reflexivity|]. exists (done ++ [o]). split; [now rewrite <- app_assoc|].
           rewrite (@reached_app A c s _ [(c, q, n)]) by reflexivity. cbn. now rewrite Nat.eqb_refl, Hre.
        -- intros o' m' F. apply in_app_iff in F as [F|[[= _ <-]|[]]]; [exact (Hm _ _ F)|reflexivity].
    + destruct (uloop d m rest) as [q l] eqn:U. injection E as <-.
      eapply call_state_grow with (s := s); [cbn; apply nth_upd_ne; exact Hne|reflexivity| |exact Hs].
      destruct rest; cbn in U; injection U as <- <-; intros o' m' F; [destruct F|]. destruct F as [[= F _ _]|[]]. contradiction.
  - destruct (nth_error (u_calls s) d) as [[m o rest|]|] eqn:K; try discriminate. injection E as <-.
    destruct (Nat.eq_dec d c) as [->|Hne].
    + rewrite Hp in K. injection K as ->. destruct Hc as [-> (done & Hss & Hre)].
      exists (Finished (Some e)). cbn. rewrite nth_upd_eq by assumption. split; [reflexivity|]. split; [|exact Hm].
      exists done, o, rest. split; [exact Hss|exact Hre].
    + eapply call_state_grow with (s := s) (l := []); [cbn; apply nth_upd_ne; exact Hne|symmetry; apply app_nil_r|intros ? ? []|exact Hs].
  - destruct (u_disposed s); injection E as <-; (eapply call_state_ext with (s := s); [reflexivity|reflexivity|auto|exact Hs]).
  - destruct (nth_error (u_subs s) k) as [[[q []]|]|]; try discriminate; injection E as <-; (eapply call_state_ext with (s := s); [reflexivity|reflexivity|auto|exact Hs]).
  - injection E as <-; (eapply call_state_ext with (s := s); [reflexivity|reflexivity|auto|exact Hs]).
Qed.

Lemma call_later A n snap c (h1 h2 : list (ulabel A)) : forall s, (forall s1, ureach h1 s1 -> call_state n snap c s1) ->
  ureach (h1 ++ h2) s -> call_state n snap c s.
Proof.
  induction h2 as [|x h2 IH] using rev_ind; intros s H0 H; [rewrite app_nil_r in H; auto|].
  rewrite app_assoc in H. apply ureach_snoc in H as (s1 & H1 & Q). eapply call_step; [exact H1| |exact Q]. apply IH; assumption.
Qed.

(** A call made when the subject is neither disposed nor terminated. *)
Lemma call_made A (h1 : list (ulabel A)) n h2 s1 s : ureach h1 s1 -> ureach (h1 ++ UCall n :: h2) s ->
  u_off h1 = false -> u_ended h1 = false -> call_state n (u_obs s1) (ncalls h1) s.
Proof.
  intros H1 H O T. replace (h1 ++ UCall n :: h2) with ((h1 ++ [UCall n]) ++ h2) in H by now rewrite <- app_assoc.
  eapply call_later; [|exact H]. intros s2 H2. apply ureach_snoc in H2 as (s1' & H1' & Q). rewrite <- (ureach_fun H1 H1') in Q.
  destruct (ui H1) as [I1 I2 I3 _ _]. cbn in Q. rewrite I1, I2, O, T in Q. rewrite <- I3 in *.
  destruct (u_obs s1) as [|o r] eqn:Ob; cbn in Q; injection Q as <-.
  - exists (Finished None). cbn. rewrite nth_snoc. split; [reflexivity|]. split.
    + rewrite (@reached_app A _ s1 _ []) by reflexivity. now rewrite (reached_none H1).
    + intros o m F. rewrite app_nil_r in F. apply (log_calls H1) in F. lia.
  - exists (Flying n o r). cbn. rewrite nth_snoc. split; [reflexivity|]. split.
    + split; [reflexivity|]. exists []. split; [reflexivity|].
      rewrite (@reached_app A _ s1 _ [(length (u_calls s1), o, n)]) by reflexivity. cbn. rewrite Nat.eqb_refl. now rewrite (reached_none H1).
    + intros p m F. apply in_app_iff in F as [F|[[= _ <-]|[]]]; [|reflexivity]. apply (log_calls H1) in F. lia.
Qed.

(** A refused call: it reaches nobody; the result is known at once. *)
Definition refused {A} (c : nat) (r : option exn) (s : ustate A) : Prop :=
  nth_error (u_calls s) c = Some (Finished r) /\ reached c s = [].

Lemma refused_step A c r (h : list (ulabel A)) x s s' : ureach h s -> refused c r s -> ustep s x = Some s' -> refused c r s'.
Proof.
  intros Hr [Hp Hn] E. pose proof (nth_some_length _ _ Hp) as Hl.
  assert (K : forall l, (forall o m, ~ In (c, o, m) l) -> filter (fun e : nat * nat * notif A => fst (fst e) =? c) l = []).
  { induction l as [|[[a b] f] l IH]; intros Hq; [reflexivity|]. cbn. destruct (a =? c) eqn:Ea; [apply Nat.eqb_eq in Ea; subst; elim (Hq b f); now left|].
    apply IH. intros o m F. apply (Hq o m). now right. }
  destruct x as [m|d|d e|o|k|]; cbn in E.
  - assert (G : forall ob sb st ds q l, (forall o' m', ~ In (c, o', m') l) ->
       refused c r (UState ob sb st ds (u_calls s ++ [q]) (u_log s ++ l)) ).
    { intros ob sb st ds q l Hq. split; cbn; [now rewrite nth_error_app1|]. rewrite (@reached_app A c s _ l) by reflexivity. rewrite K by exact Hq. cbn. now rewrite app_nil_r. }
    destruct (u_disposed s) eqn:D; [injection E as <-; split; cbn; [now rewrite nth_error_app1|exact Hn]|]. destruct (u_stopped s); [injection E as <-; split; cbn; [now rewrite nth_error_app1|exact Hn]|].
    destruct (u_obs s) as [|o q] eqn:Ob; cbn in E; injection E as <-; apply G; intros o' m' F; [destruct F|].
    destruct F as [[= F _ _]|[]]. lia.
  - destruct (nth_error (u_calls s) d) as [[m o rest|]|] eqn:Kd; try discriminate.
    assert (Hne : d <> c) by congruence. destruct (uloop d m rest) as [q l] eqn:U. injection E as <-. unfold refused. cbn [u_calls]. rewrite nth_upd_ne by exact Hne.
    split; [exact Hp|]. rewrite (@reached_app A c s _ l) by reflexivity. rewrite K; [cbn; now rewrite app_nil_r|].
    destruct rest; cbn in U; injection U as <- <-; intros o' m' F; [destruct F|]. destruct F as [[= F _ _]|[]]. contradiction.
  - destruct (nth_error (u_calls s) d) as [[m o rest|]|] eqn:Kd; try discriminate. injection E as <-.
    assert (Hne : d <> c) by congruence. unfold refused. cbn [u_calls]. rewrite nth_upd_ne by exact Hne. split; [exact Hp|exact Hn].
  - destruct (u_disposed s); injection E as <-; split; assumption.
  - destruct (nth_error (u_subs s) k) as [[[q []]|]|]; try discriminate; injection E as <-; split; assumption.
  - injection E as <-; split; assumption.
Qed.

Lemma refused_later A c r (h1 h2 : list (ulabel A)) : forall s, (forall s1, ureach h1 s1 -> refused c r s1) ->
  ureach (h1 ++ h2) s -> refused c r s.
Proof.
  induction h2 as [|x h2 IH] using rev_ind; intros s H0 H; [rewrite app_nil_r in H; auto|].
  rewrite app_assoc in H. apply ureach_snoc in H as (s1 & H1 & Q). eapply refused_step; [exact H1| |exact Q]. apply IH; assumption.
Qed.

Lemma call_refused A (h1 : list (ulabel A)) n h2 s : ureach (h1 ++ UCall n :: h2) s -> u_off h1 = true \/ u_ended h1 = true ->
  refused (ncalls h1) (if u_off h1 then Some ObjectDisposed else None) s.
Proof.
  intros H O. replace (h1 ++ UCall n :: h2) with ((h1 ++ [UCall n]) ++ h2) in H by now rewrite <- app_assoc.
  eapply refused_later; [|exact H]. intros s2 H2. apply ureach_snoc in H2 as (s1 & H1 & Q).
  destruct (ui H1) as [I1 I2 I3 _ _]. cbn in Q. rewrite I1, I2 in Q. rewrite <- I3.
  destruct (u_off h1) eqn:Eo.
  - injection Q as <-. split; cbn; [apply nth_snoc|]. exact (reached_none H1 (le_n _)).
  - destruct O as [O|O]; [discriminate|]. rewrite O in Q. injection Q as <-. split; cbn; [apply nth_snoc|]. exact (reached_none H1 (le_n _)).
Qed.

(** ** Calls awaited one after another *)
Lemma heard_snoc A o (h : list (ulabel A)) x : heard o (h ++ [x]) = heard o h ++
  match x with UCall n => if u_off h || u_ended h then [] else repeat n (count_occ Nat.eq_dec (members h) o) | _ => [] end.
Proof.
  unfold heard. rewrite app_length. cbn [length]. rewrite Nat.add_1_r, seq_S, flat_map_app. f_equal.
  - rewrite !flat_map_concat_map. f_equal. apply map_ext_in. intros i Hi. apply in_seq in Hi.
    rewrite nth_error_app1 by lia. rewrite firstn_app. replace (i - length h) with 0 by lia. cbn. rewrite app_nil_r. reflexivity.
  - cbn [flat_map Nat.add]. rewrite nth_snoc, firstn_app, Nat.sub_diag, firstn_all. cbn. rewrite !app_nil_r. destruct x; reflexivity.
Qed.

Lemma received_app A o (s s' : ustate A) l : u_log s' = u_log s ++ l ->
  received o s' = received o s ++ map snd (filter (fun e => snd (fst e) =? o) l).
Proof. intros E. unfold received. rewrite E, filter_app, map_app. reflexivity. Qed.

Lemma awaited_snoc A (h : list (ulabel A)) x s : ureach h s -> awaited (h ++ [x]) ->
  awaited h /\ match x with UCall _ => u_idle s | UExn _ _ => False | _ => True end.
Proof.
  intros Hr [H1 H2]. split.
  - split; [intros c e F; apply (H1 c e), in_app_iff; now left|].
    intros h1 y h2 s1 -> Hs. specialize (H2 h1 y (h2 ++ [x]) s1). rewrite <- app_assoc in H2. now apply H2.
  - specialize (H2 h x [] s eq_refl Hr). destruct x; auto. apply (H1 c e), in_app_iff. right. now left.
Qed.

(** At most the last call is under way, and what observer [o] has received
    and is still to receive from it is what it ought to hear. *)
Definition awaiting {A} (o : nat) (h : list (ulabel A)) (s : ustate A) : Prop :=
  u_idle s /\ received o s = heard o h \/
  exists c n p rest, nth_error (u_calls s) c = Some (Flying n p rest) /\
    (forall d, d <> c -> exists r, nth_error (u_calls s) d = Some (Finished r) \/ nth_error (u_calls s) d = None) /\
    received o s ++ repeat n (count_occ Nat.eq_dec rest o) = heard o h.

Lemma await_inv A o (h : list (ulabel A)) s : ureach h s -> awaited h -> awaiting o h s.
Proof.
  induction 1 as [|h x s s' Hr IH E]; intros Hw.
  - left. split; [|reflexivity]. intros c. exists None. right. now destruct c.
  - destruct (awaited_snoc x Hr Hw) as [Hw' Hx]. specialize (IH Hw').
    assert (Same : u_calls s' = u_calls s -> u_log s' = u_log s -> (match x with UCall _ => False | _ => True end) -> awaiting o (h ++ [x]) s').
    { intros E1 E2 E3. unfold awaiting, u_idle, received. rewrite E1, E2, heard_snoc. destruct x; try contradiction; rewrite app_nil_r; exact IH. }
    destruct x as [n|c|c e|q|k|]; cbn in E.
    + destruct IH as [[Hi IH]|(c & m & p & rest & Hc & _)]; [|destruct (Hx c) as [r [F|F]]; congruence].
      destruct (ui Hr) as [I1 I2 I3 _ _]. rewrite I1, I2 in E. unfold awaiting. rewrite heard_snoc.
      assert (Hsn : forall r ob sb st ds lg c, exists r', nth_error (u_calls (UState ob sb st ds (u_calls s ++ [@Finished A r]) lg)) c = Some (Finished r') \/ nth_error (u_calls (UState ob sb st ds (u_calls s ++ [@Finished A r]) lg)) c = None).
      { intros r ob sb st ds lg c. cbn. destruct (Nat.lt_ge_cases c (length (u_calls s))) as [L|L]; [rewrite nth_error_app1 by lia; apply Hi|].
        rewrite nth_error_app2 by lia. destruct (c - length (u_calls s)) as [|[|d]]; cbn; [exists r; now left|exists None; now right|exists None; now right]. }
      destruct (u_off h); [injection E as <-; cbn [orb]; left; split; [intros c; apply Hsn|rewrite app_nil_r; exact IH]|].
      destruct (u_ended h); [injection E as <-; cbn [orb]; left; split; [intros c; apply Hsn|rewrite app_nil_r; exact IH]|].
      cbn [orb]. pose proof (proj1 (Permutation_count_occ Nat.eq_dec _ _) (members_perm Hr) o) as Hm. rewrite <- Hm.
      destruct (u_obs s) as [|p r]; cbn in E; injection E as <-.
      * left. split; [intros c; apply Hsn|]. rewrite (@received_app A o s _ []) by reflexivity. cbn. now rewrite !app_nil_r.
      * right. exists (length (u_calls s)), n, p, r. cbn. split; [apply nth_snoc|]. split.
        -- intros d Hd. destruct (Nat.lt_ge_cases d (length (u_calls s))) as [L|L]; [rewrite nth_error_app1 by lia; apply Hi|].
           exists None. right. apply nth_error_None. rewrite app_length. cbn. lia.
        -- rewrite (@received_app A o s _ [(length (u_calls s), p, n)]) by reflexivity. rewrite <- IH. cbn. destruct (Nat.eq_dec p o) as [->|Hne].
           ++ rewrite Nat.eqb_refl. cbn. now rewrite <- app_assoc.
           ++ apply Nat.eqb_neq in Hne as ->. cbn. now rewrite app_nil_r.
    + destruct (nth_error (u_calls s) c) as [[n p rest|]|] eqn:K; try discriminate. pose proof (nth_some_length _ _ K) as L.
      destruct IH as [[Hi IH]|(c' & m & p' & rest' & Hc & Hd & IH)]; [destruct (Hi c) as [r [F|F]]; congruence|].
      assert (c' = c) as ->. { destruct (Nat.eq_dec c c') as [|Hne]; [auto|]. destruct (Hd c Hne) as [r [F|F]]; congruence. }
      rewrite K in Hc. injection Hc as <- <- <-. unfold awaiting. rewrite heard_snoc, app_nil_r, <- IH.
      destruct rest as [|q r]; cbn in E; injection E as <-.
      * left. split.
        -- intros d. cbn. destruct (Nat.eq_dec c d) as [<-|Hne]; [rewrite nth_upd_eq by exact L; exists None; now left|rewrite nth_upd_ne by exact Hne; auto].
        -- rewrite (@received_app A o s _ []) by reflexivity. reflexivity.
      * right. exists c, n, q, r. cbn. rewrite nth_upd_eq by exact L. split; [reflexivity|]. split.
        -- intros d Hne. rewrite nth_upd_ne by auto. auto.
        -- rewrite (@received_app A o s _ [(c, q, n)]) by reflexivity. cbn. destruct (Nat.eq_dec q o) as [->|Hne].
           ++ rewrite Nat.eqb_refl. cbn. now rewrite <- app_assoc.
           ++ apply Nat.eqb_neq in Hne as ->. cbn. now rewrite app_nil_r.
    + contradiction.
    + apply Same; [destruct (u_disposed s); now injection E as <-|destruct (u_disposed s); now injection E as <-|exact I].
    + apply Same; [..|exact I]; (destruct (nth_error (u_subs s) k) as [[[q []]|]|]; try discriminate; now injection E as <-).
    + apply Same; [..|exact I]; now injection E as <-.
Qed.

Lemma await_idle A o (h : list (ulabel A)) s : ureach h s -> awaited h -> u_idle s -> received o s = heard o h.
Proof.
  intros Hr Hw Hi. destruct (await_inv o Hr Hw) as [[_ E]|(c & n & p & rest & Hc & _)]; [exact E|].
  destruct (Hi c) as [r [F|F]]; congruence.
Qed.

Lemma await_prefix A o (h : list (ulabel A)) s : ureach h s -> awaited h -> exists later, heard o h = received o s ++ later.
Proof.
  intros Hr Hw. destruct (await_inv o Hr Hw) as [[_ E]|(c & n & p & rest & _ & _ & E)]; [exists []; now rewrite app_nil_r|eauto].
Qed.

(** ** After dispose_async *)
Lemma off_app A (h1 h2 : list (ulabel A)) : u_off h1 = true -> u_off (h1 ++ h2) = true.
Proof. unfold u_off. rewrite existsb_app. intros ->. reflexivity. Qed.

Lemma off_quiet A (h1 h2 : list (ulabel A)) : forall s1 s, ureach h1 s1 -> ureach (h1 ++ h2) s -> u_off h1 = true -> u_idle s1 ->
  u_log s = u_log s1 /\ u_idle s.
Proof.
  induction h2 as [|x h2 IH] using rev_ind; intros s1 s H1 H O Hi.
  - rewrite app_nil_r in H. rewrite (ureach_fun H1 H) in *. auto.
  - rewrite app_assoc in H. apply ureach_snoc in H as (s2 & H2 & Q). destruct (IH _ _ H1 H2 O Hi) as [E J].
    destruct (ui H2) as [I1 _ _ _ _]. rewrite (off_app _ _ O) in I1.
    destruct x as [n|c|c e|q|k|]; cbn in Q; rewrite ?I1 in Q.
    + injection Q as <-. split; [exact E|]. intros c. cbn. destruct (Nat.lt_ge_cases c (length (u_calls s2))) as [L|L]; [rewrite nth_error_app1 by lia; apply J|].
      rewrite nth_error_app2 by lia. destruct (c - length (u_calls s2)) as [|[|d]]; cbn; [exists (Some ObjectDisposed); now left|exists None; now right|exists None; now right].
    + destruct (J c) as [r [F|F]]; rewrite F in Q; discriminate.
    + destruct (J c) as [r [F|F]]; rewrite F in Q; discriminate.
    + injection Q as <-. auto.
    + destruct (nth_error (u_subs s2) k) as [[[q []]|]|]; try discriminate; injection Q as <-; auto.
    + injection Q as <-. auto.
Qed.

Lemma subs_keep A (h1 h2 : list (ulabel A)) k : forall s1 s, ureach h1 s1 -> ureach (h1 ++ h2) s -> nth_error (u_subs s1) k = Some None ->
  nth_error (u_subs s) k = Some None.
Proof.
  induction h2 as [|x h2 IH] using rev_ind; intros s1 s H1 H K.
  - rewrite app_nil_r in H. now rewrite (ureach_fun H1 H) in *.
  - rewrite app_assoc in H. apply ureach_snoc in H as (s2 & H2 & Q). pose proof (IH _ _ H1 H2 K) as K2. pose proof (nth_some_length _ _ K2) as L.
    destruct x as [n|c|c e|q|j|]; cbn in Q.
    + destruct (u_disposed s2); [injection Q as <-; exact K2|]. destruct (u_stopped s2); [injection Q as <-; exact K2|].
      destruct (uloop _ _ _). injection Q as <-. exact K2.
    + destruct (nth_error (u_calls s2) c) as [[n o rest|]|]; try discriminate. destruct (uloop _ _ _). injection Q as <-. exact K2.
    + destruct (nth_error (u_calls s2) c) as [[n o rest|]|]; try discriminate. injection Q as <-. exact K2.
    + destruct (u_disposed s2); injection Q as <-; cbn; rewrite nth_error_app1 by lia; exact K2.
    + destruct (nth_error (u_subs s2) j) as [[[q []]|]|] eqn:J; try discriminate; injection Q as <-; [|exact K2]. cbn.
      rewrite nth_upd_ne; [exact K2|congruence].
    + injection Q as <-. exact K2.
Qed.

(** Number of subscribe_async calls. *)
Lemma subs_length A (h : list (ulabel A)) s : ureach h s -> length (u_subs s) = length (subscribers h).
Proof.
  induction 1 as [|h x s s' Hr IH E]; [reflexivity|]. rewrite subscribers_snoc, app_length.
  destruct x as [n|c|c e|q|j|]; cbn in E.
  - destruct (u_disposed s); [injection E as <-; cbn; lia|]. destruct (u_stopped s); [injection E as <-; cbn; lia|].
    destruct (uloop _ _ _). injection E as <-. cbn. lia.
  - destruct (nth_error (u_calls s) c) as [[n o rest|]|]; try discriminate. destruct (uloop _ _ _). injection E as <-. cbn. lia.
  - destruct (nth_error (u_calls s) c) as [[n o rest|]|]; try discriminate. injection E as <-. cbn. lia.
  - destruct (u_disposed s); injection E as <-; cbn; rewrite app_length; cbn; lia.
  - destruct (nth_error (u_subs s) j) as [[[q []]|]|] eqn:J; try discriminate; injection E as <-; cbn; rewrite ?upd_length; lia.
  - injection E as <-. cbn. lia.
Qed.

Lemma sub_refused A (h1 h2 : list (ulabel A)) o s : ureach (h1 ++ USub o :: h2) s -> u_off h1 = true ->
  nth_error (u_subs s) (length (subscribers h1)) = Some None.
Proof.
  intros H O. replace (h1 ++ USub o :: h2) with ((h1 ++ [USub o]) ++ h2) in H by now rewrite <- app_assoc.
  destruct (ureach_app _ _ H) as [s1 H1]. eapply subs_keep; [exact H1|exact H|].
  apply ureach_snoc in H1 as (s0 & H0 & Q). cbn in Q. rewrite (ui_off (ui H0)), O in Q. injection Q as <-. cbn.
  rewrite <- (subs_length H0). apply nth_snoc.
Qed.

Lemma members_off A (h1 h2 : list (ulabel A)) : u_off h1 = true -> incl (members (h1 ++ h2)) (members h1).
Proof.
  intros O. unfold members, in_force. rewrite fold_left_app.
  assert (G : forall h : list (ulabel A), snd (fst (fold_left sub_step h (0, false, []))) = u_off h).
  { induction h as [|x h IH] using rev_ind; [reflexivity|]. rewrite fold_left_app, u_off_snoc. cbn.
    destruct (fold_left sub_step h (0, false, [])) as [[k f] l]. cbn in IH. subst f. destruct x; cbn; rewrite ?orb_false_r, ?orb_true_r; reflexivity. }
  specialize (G h1). rewrite O in G. destruct (fold_left sub_step h1 (0, false, [])) as [[k f] l]. cbn in G. subst f. cbn [snd].
  revert k l. induction h2 as [|x h2 IH]; intros k l; cbn; [apply incl_refl|].
  destruct x; cbn; try apply IH.
  eapply incl_tran; [apply IH|]. intros y F. apply in_map_iff in F as (p & <- & F). apply filter_In in F as [F _]. now apply in_map.
Qed.

(** ** Running a history *)
Fixpoint urun {A} (s : ustate A) (h : list (ulabel A)) : option (ustate A) :=
  match h with
  | [] => Some s
  | x :: r => match ustep s x with Some s' => urun s' r | None => None end
  end.

Lemma urun_reach A (h : list (ulabel A)) : forall h0 s0 s, ureach h0 s0 -> urun s0 h = Some s -> ureach (h0 ++ h) s.
Proof.
  induction h as [|x h IH]; intros h0 s0 s H E; cbn in E; [injection E as <-; now rewrite app_nil_r|].
  destruct (ustep s0 x) as [s1|] eqn:Q; [|discriminate].
  replace (h0 ++ x :: h) with ((h0 ++ [x]) ++ h) by now rewrite <- app_assoc.
  eapply IH; [|exact E]. eapply ur_snoc; eassumption.
Qed.

Lemma urun_init A (h : list (ulabel A)) s : urun u_init h = Some s -> ureach h s.
Proof. intros E. exact (urun_reach h (@ur_nil A) E). Qed.

Lemma urun_of A (h : list (ulabel A)) s : ureach h s -> urun u_init h = Some s.
Proof.
  intros H. assert (G : forall h x (s0 : ustate A), urun s0 (h ++ [x]) = match urun s0 h with Some s1 => ustep s1 x | None => None end).
  { clear. induction h as [|y h IH]; intros x s0; cbn; [destruct (ustep s0 x); reflexivity|]. destruct (ustep s0 y); [apply IH|reflexivity]. }
  induction H as [|h x s s' H IH E]; [reflexivity|]. now rewrite G, IH.
Qed.

(** Deciding [awaited] for a history that runs. *)
Definition idleb {A} (s : ustate A) : bool := forallb (fun p => match p with Finished _ => true | Flying _ _ _ => false end) (u_calls s).

Lemma idleb_ok A (s : ustate A) : idleb s = true -> u_idle s.
Proof.
  unfold idleb, u_idle. generalize (u_calls s). intros l F c. rewrite forallb_forall in F.
  destruct (nth_error l c) as [p|] eqn:K; [|exists None; now right]. specialize (F _ (nth_error_In _ _ K)). destruct p as [|r]; [discriminate|]. exists r. now left.
Qed.

Fixpoint awaitedb {A} (s : ustate A) (h : list (ulabel A)) : bool :=
  match h with
  | [] => true
  | x :: r => match ustep s x with
              | None => false
              | Some s' => (match x with UCall _ => idleb s | UExn _ _ => false | _ => true end) && awaitedb s' r
              end
  end.

Lemma awaitedb_ok A (h : list (ulabel A)) : awaitedb u_init h = true -> awaited h.
Proof.
  intros F. split.
  - intros c e. revert F. generalize (@u_init A). induction h as [|x h IH]; intros s F G; [destruct G|]. cbn in F.
    destruct (ustep s x); [|discriminate]. apply andb_true_iff in F as [F1 F2]. destruct G as [->|G]; [discriminate|]. exact (IH _ F2 G).
  - intros h1 x h2 s1 -> Hr. apply urun_of in Hr. revert F Hr. generalize (@u_init A).
    induction h1 as [|y h1 IH]; intros s F Hr; cbn in *.
    + injection Hr as ->. destruct (ustep s1 x); [|discriminate]. apply andb_true_iff in F as [F _]. destruct x; try exact I. now apply idleb_ok.
    + destruct (ustep s y); [|discriminate]. apply andb_true_iff in F as [_ F]. exact (IH _ F Hr).
Qed.
