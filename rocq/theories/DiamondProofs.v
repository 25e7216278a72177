(** * Proofs for Diamond.v *)
From Coq Require Import Lia.
From Verif Require Export Diamond SubjectProofs Ops2Proofs PairProofs MergeProofs Merge2Proofs.
Set Implicit Arguments.

(** ** Which observers each call of the subject calls, in order *)

Fixpoint called {A} (past h : list (ulabel A)) : list (nat * notif A) :=
  match h with
  | [] => []
  | x :: r => match x with
              | UCall n => if u_off past || u_ended past then [] else map (fun o => (o, n)) (members past)
              | _ => []
              end ++ called (past ++ [x]) r
  end.

Lemma called_snoc A (h : list (ulabel A)) x : forall past, called past (h ++ [x]) = called past h ++
  match x with UCall n => if u_off (past ++ h) || u_ended (past ++ h) then [] else map (fun o => (o, n)) (members (past ++ h)) | _ => [] end.
Proof.
  induction h as [|y h IH]; intros past.
  - cbn. rewrite !app_nil_r. reflexivity.
  - cbn [app called]. rewrite IH, <- !app_assoc. reflexivity.
Qed.

Definition log_of {A} (s : ustate A) : list (nat * notif A) := map (fun e => (snd (fst e), snd e)) (u_log s).

Definition in_rounds {A} (h : list (ulabel A)) (s : ustate A) : Prop :=
  u_idle s /\ log_of s = called [] h \/
  exists c n p rest, nth_error (u_calls s) c = Some (Flying n p rest) /\
    (forall d, d <> c -> exists r, nth_error (u_calls s) d = Some (Finished r) \/ nth_error (u_calls s) d = None) /\
    log_of s ++ map (fun o => (o, n)) rest = called [] h.

Lemma log_of_app A (s s' : ustate A) l : u_log s' = u_log s ++ l -> log_of s' = log_of s ++ map (fun e => (snd (fst e), snd e)) l.
Proof. intros E. unfold log_of. now rewrite E, map_app. Qed.

Lemma rounds_inv A (h : list (ulabel A)) s : ureach h s -> awaited h -> NoDup (subscribers h) -> in_rounds h s.
Proof.
  induction 1 as [|h x s s' Hr IH E]; intros Hw Hn.
  - left. split; [|reflexivity]. intros c. exists None. right. now destruct c.
  - destruct (awaited_snoc x Hr Hw) as [Hw' Hx]. rewrite subscribers_snoc in Hn. apply nodup_app_l in Hn. specialize (IH Hw' Hn).
    assert (Same : u_calls s' = u_calls s -> u_log s' = u_log s -> (match x with UCall _ => False | _ => True end) -> in_rounds (h ++ [x]) s').
    { intros E1 E2 E3. unfold in_rounds, u_idle, log_of. rewrite E1, E2, called_snoc. destruct x; try contradiction; rewrite app_nil_r; exact IH. }
    destruct x as [n|c|c e|q|k|]; cbn in E.
    + destruct IH as [[Hi IH]|(c & m & p & rest & Hc & _)]; [|destruct (Hx c) as [r [F|F]]; congruence].
      destruct (ui Hr) as [I1 I2 I3 _ _]. rewrite I1, I2 in E. unfold in_rounds. rewrite called_snoc. cbn [app].
      assert (Hsn : forall r ob sb st ds lg c, exists r', nth_error (u_calls (UState ob sb st ds (u_calls s ++ [@Finished A r]) lg)) c = Some (Finished r') \/ nth_error (u_calls (UState ob sb st ds (u_calls s ++ [@Finished A r]) lg)) c = None).
      { intros r ob sb st ds lg c. cbn. destruct (Nat.lt_ge_cases c (length (u_calls s))) as [L|L]; [rewrite nth_error_app1 by lia; apply Hi|].
        rewrite nth_error_app2 by lia. destruct (c - length (u_calls s)) as [|[|d]]; cbn; [exists r; now left|exists None; now right|exists None; now right]. }
      destruct (u_off h); [injection E as <-; cbn [orb]; left; split; [intros c; apply Hsn|rewrite app_nil_r; exact IH]|].
      destruct (u_ended h); [injection E as <-; cbn [orb]; left; split; [intros c; apply Hsn|rewrite app_nil_r; exact IH]|].
      cbn [orb]. rewrite <- (members_eq Hr Hn).
      destruct (u_obs s) as [|p r]; cbn in E; injection E as <-.
      * left. split; [intros c; apply Hsn|]. rewrite (@log_of_app A s _ []) by reflexivity. cbn. now rewrite !app_nil_r.
      * right. exists (length (u_calls s)), n, p, r. cbn [u_calls]. split; [apply nth_snoc|]. split.
        -- intros d Hd. destruct (Nat.lt_ge_cases d (length (u_calls s))) as [L|L]; [rewrite nth_error_app1 by lia; apply Hi|].
           exists None. right. apply nth_error_None. rewrite app_length. cbn. lia.
        -- rewrite (@log_of_app A s _ [(length (u_calls s), p, n)]) by reflexivity. rewrite <- IH. cbn. now rewrite <- app_assoc.
    + destruct (nth_error (u_calls s) c) as [[n p rest|]|] eqn:K; try discriminate. pose proof (nth_some_length _ _ K) as L.
      destruct IH as [[Hi IH]|(c' & m & p' & rest' & Hc & Hd & IH)]; [destruct (Hi c) as [r [F|F]]; congruence|].
      assert (c' = c) as ->. { destruct (Nat.eq_dec c c') as [|Hne]; [auto|]. destruct (Hd c Hne) as [r [F|F]]; congruence. }
      rewrite K in Hc. injection Hc as <- <- <-. unfold in_rounds. rewrite called_snoc, app_nil_r, <- IH.
      destruct rest as [|q r]; cbn in E; injection E as <-.
      * left. split.
        -- intros d. cbn. destruct (Nat.eq_dec c d) as [<-|Hne]; [rewrite nth_upd_eq by exact L; exists None; now left|rewrite nth_upd_ne by exact Hne; auto].
        -- rewrite (@log_of_app A s _ []) by reflexivity. reflexivity.
      * right. exists c, n, q, r. cbn [u_calls]. rewrite nth_upd_eq by exact L. split; [reflexivity|]. split.
        -- intros d Hne. rewrite nth_upd_ne by auto. auto.
        -- rewrite (@log_of_app A s _ [(c, q, n)]) by reflexivity. cbn. now rewrite <- app_assoc.
    + contradiction.
    + apply Same; [destruct (u_disposed s); now injection E as <-|destruct (u_disposed s); now injection E as <-|exact I].
    + apply Same; [..|exact I]; (destruct (nth_error (u_subs s) k) as [[[q []]|]|]; try discriminate; now injection E as <-).
    + apply Same; [..|exact I]; now injection E as <-.
Qed.

Lemma rounds A (h : list (ulabel A)) s : ureach h s -> awaited h -> NoDup (subscribers h) -> u_idle s -> log_of s = called [] h.
Proof.
  intros Hr Hw Hn Hi. destruct (rounds_inv Hr Hw Hn) as [[_ E]|(c & n & p & rest & Hc & _)]; [exact E|].
  destruct (Hi c) as [r [F|F]]; congruence.
Qed.

(** ** The subscriptions in force *)

Lemma force_state A (h : list (ulabel A)) : fold_left sub_step h (0, false, []) = (length (subscribers h), u_off h, in_force h).
Proof.
  induction h as [|x h IH] using rev_ind; [reflexivity|].
  unfold in_force. rewrite fold_left_app, IH, u_off_snoc, subscribers_snoc, app_length. cbn.
  destruct x; cbn; rewrite ?orb_false_r, ?orb_true_r, ?Nat.add_0_r, ?Nat.add_1_r; reflexivity.
Qed.

Lemma force_snoc A (h : list (ulabel A)) x : in_force (h ++ [x]) =
  match x with
  | USub o => if u_off h then in_force h else in_force h ++ [(length (subscribers h), o)]
  | UUnsub j => filter (fun p => negb (fst p =? j)) (in_force h)
  | _ => in_force h
  end.
Proof. unfold in_force at 1. rewrite fold_left_app, force_state. destruct x; reflexivity. Qed.

Lemma force_nth A (h : list (ulabel A)) : forall j o, In (j, o) (in_force h) -> nth_error (subscribers h) j = Some o.
Proof.
  induction h as [|x h IH] using rev_ind; intros j o H; [destruct H|].
  rewrite force_snoc in H. rewrite subscribers_snoc.
  assert (G : In (j, o) (in_force h) -> forall l, nth_error (subscribers h ++ l) j = Some o).
  { intros F l. specialize (IH _ _ F). rewrite nth_error_app1; [exact IH|]. apply nth_error_Some. congruence. }
  destruct x; try now apply G.
  - destruct (u_off h); [now apply G|]. apply in_app_iff in H as [H|[H|[]]]; [now apply G|]. injection H as <- <-. apply nth_snoc.
  - apply filter_In in H as [H _]. now apply G.
Qed.

Definition ours (k : nat) (p : nat * nat) : bool := (fst p =? k) || (fst p =? S k).

Lemma ours_before A (h : list (ulabel A)) : filter (ours (length (subscribers h))) (in_force h) = [].
Proof.
  enough (G : forall l, (forall p, In p l -> fst p < length (subscribers h)) -> filter (ours (length (subscribers h))) l = []).
  { apply G. intros [j o] F. apply force_nth in F. apply nth_error_Some. cbn. congruence. }
  induction l as [|p l IH]; intros H; [reflexivity|]. cbn [filter].
  assert (L : fst p < length (subscribers h)) by (apply H; now left).
  replace (ours (length (subscribers h)) p) with false; [apply IH; intros q F; apply H; now right|].
  symmetry. unfold ours. apply orb_false_iff. split; apply Nat.eqb_neq; lia.
Qed.

Lemma filter_filter X (f g : X -> bool) l : filter f (filter g l) = filter g (filter f l).
Proof.
  induction l as [|x l IH]; [reflexivity|]. cbn. destruct (g x) eqn:G, (f x) eqn:F; cbn; rewrite ?F, ?G, IH; reflexivity.
Qed.

Lemma subs_app A (h1 h2 : list (ulabel A)) : subscribers (h1 ++ h2) = subscribers h1 ++ subscribers h2.
Proof. apply flat_map_app. Qed.

Lemma ours_later A k (h : list (ulabel A)) x l : filter (ours k) (in_force h) = l -> S (S k) <= length (subscribers h) ->
  match x with UUnsub j => filter (ours k) (filter (fun p => negb (fst p =? j)) (in_force h)) = l | _ => True end ->
  filter (ours k) (in_force (h ++ [x])) = l.
Proof.
  intros E L H. rewrite force_snoc. destruct x; auto. destruct (u_off h); [exact E|].
  rewrite filter_app, E. cbn.
  replace (ours k (length (subscribers h), o)) with false; [apply app_nil_r|].
  symmetry. unfold ours. cbn [fst]. apply orb_false_iff. split; apply Nat.eqb_neq; lia.
Qed.

Lemma two_more A (h1 h2 : list (ulabel A)) p q : S (S (length (subscribers h1))) <= length (subscribers ((h1 ++ [USub p; USub q]) ++ h2)).
Proof. rewrite !subs_app, !app_length. cbn. lia. Qed.

Lemma ours_during A p q (h1 h2 : list (ulabel A)) : u_off h1 = false ->
  (forall k, In (UUnsub k) h2 -> k <> length (subscribers h1) /\ k <> S (length (subscribers h1))) ->
  filter (ours (length (subscribers h1))) (in_force ((h1 ++ [USub p; USub q]) ++ h2)) =
  [(length (subscribers h1), p); (S (length (subscribers h1)), q)].
Proof.
  intros O. induction h2 as [|x h2 IH] using rev_ind; intros H.
  - rewrite app_nil_r. replace (h1 ++ [USub p; USub q]) with ((h1 ++ [USub p]) ++ [USub q]) by now rewrite <- app_assoc.
    rewrite force_snoc, u_off_snoc, O, force_snoc, O. cbn [orb]. rewrite !filter_app, ours_before, subscribers_snoc, app_length.
    cbn [length app]. rewrite Nat.add_1_r. cbn [filter].
    assert (K1 : ours (length (subscribers h1)) (length (subscribers h1), p) = true) by (unfold ours; cbn [fst]; now rewrite Nat.eqb_refl).
    assert (K2 : ours (length (subscribers h1)) (S (length (subscribers h1)), q) = true) by (unfold ours; cbn [fst]; now rewrite Nat.eqb_refl, orb_true_r).
    now rewrite K1, K2.
  - rewrite app_assoc. assert (H' : forall k, In (UUnsub k) h2 -> k <> length (subscribers h1) /\ k <> S (length (subscribers h1))).
    { intros k F. apply H, in_app_iff. now left. }
    apply ours_later; [exact (IH H')|apply two_more|]. destruct x; auto. rewrite filter_filter, (IH H'). cbn.
    destruct (H k) as [N1 N2]; [apply in_app_iff; right; now left|].
    apply not_eq_sym, Nat.eqb_neq in N1, N2. cbn in N2. rewrite N1. cbn. rewrite N2. reflexivity.
Qed.

Lemma ours_none A k (h h3 : list (ulabel A)) : S (S k) <= length (subscribers h) -> filter (ours k) (in_force h) = [] ->
  filter (ours k) (in_force (h ++ h3)) = [].
Proof.
  intros L E. induction h3 as [|x h3 IH] using rev_ind; [now rewrite app_nil_r|].
  rewrite app_assoc. apply ours_later; [exact IH|rewrite subs_app, app_length; lia|].
  destruct x; auto. rewrite filter_filter, IH. reflexivity.
Qed.

(** ** What the two observers put in *)

Section PutIn.
  Context {A M : Type} (p q : nat) (m1 m2 : notif A -> M).

  Definition entry (e : nat * notif A) : list M := if fst e =? p then [m1 (snd e)] else if fst e =? q then [m2 (snd e)] else [].

  Lemma put_in_log s : put_in p q m1 m2 s = flat_map entry (log_of s).
  Proof. unfold put_in, log_of. rewrite !flat_map_concat_map, map_map. reflexivity. Qed.

  Lemma entry_members k (h : list (ulabel A)) n : NoDup (subscribers h) -> nth_error (subscribers h) k = Some p -> nth_error (subscribers h) (S k) = Some q ->
    flat_map entry (map (fun o => (o, n)) (members h)) = flat_map entry (map (fun o => (o, n)) (map snd (filter (ours k) (in_force h)))).
  Proof.
    intros N P Q. unfold members. pose proof (@force_nth A h) as F. revert F. generalize (in_force h).
    induction l as [|[j o] l IH]; intros F; [reflexivity|]. cbn [map filter].
    assert (F' : forall i r, In (i, r) l -> nth_error (subscribers h) i = Some r) by (intros i r I; apply F; now right).
    specialize (IH F'). destruct (ours k (j, o)) eqn:Q1; cbn [map flat_map]; [now rewrite IH|].
    rewrite IH. cbn [snd]. assert (J : nth_error (subscribers h) j = Some o) by (apply F; now left).
    unfold ours in Q1. cbn [fst] in Q1. apply orb_false_iff in Q1 as [J1 J2]. apply Nat.eqb_neq in J1, J2.
    unfold entry at 1. cbn [fst].
    assert (U : forall i x, nth_error (subscribers h) i = Some x -> i <> j -> o <> x).
    { intros i x I D ->. apply D. eapply NoDup_nth_error; [exact N| |congruence]. apply nth_error_Some. congruence. }
    specialize (U _ _ P (not_eq_sym J1)) as U1. specialize (U _ _ Q (not_eq_sym J2)) as U2.
    apply Nat.eqb_neq in U1, U2. now rewrite U1, U2.
  Qed.

  Fixpoint cut (l : list (notif A)) : list (notif A) :=
    match l with [] => [] | n :: r => n :: if is_term n then [] else cut r end.

  Lemma cut_snoc l n : cut (l ++ [n]) = cut l ++ if existsb is_term l then [] else [n].
  Proof.
    induction l as [|m l IH]; cbn; [destruct (is_term n); reflexivity|].
    destruct (is_term m); cbn; [reflexivity|]. now rewrite IH.
  Qed.

  Lemma asked_snoc (h : list (ulabel A)) x : asked (h ++ [x]) = asked h ++ match x with UCall n => if u_off h then [] else [n] | _ => [] end.
  Proof.
    induction h as [|y h IH]; [now destruct x|]. unfold u_off in *. cbn. destruct y; cbn; rewrite ?IH; auto. destruct x; reflexivity.
  Qed.

  Lemma ended_asked (h : list (ulabel A)) : u_ended h = existsb is_term (asked h).
  Proof. induction h as [|y h IH]; [reflexivity|]. destruct y; cbn; rewrite ?IH; reflexivity. Qed.

  Lemma ended_app (h1 h2 : list (ulabel A)) : u_off h1 = false -> u_ended (h1 ++ h2) = u_ended h1 || u_ended h2.
  Proof.
    unfold u_off. induction h1 as [|y h1 IH]; [reflexivity|]. cbn [existsb app u_ended]. intros O. apply orb_false_iff in O as [O1 O2].
    destruct y; rewrite ?(IH O2), ?orb_assoc; try reflexivity. discriminate.
  Qed.

  Lemma off_app2 (h1 h2 : list (ulabel A)) : u_off (h1 ++ h2) = u_off h1 || u_off h2.
  Proof. apply existsb_app. Qed.

  Lemma called_app (h1 h2 : list (ulabel A)) : forall past, called past (h1 ++ h2) = called past h1 ++ called (past ++ h1) h2.
  Proof.
    induction h1 as [|x h1 IH]; intros past; cbn [app called]; [now rewrite app_nil_r|].
    rewrite IH, <- !app_assoc. reflexivity.
  Qed.

  Lemma nothing_before k (h1 h2 : list (ulabel A)) : NoDup (subscribers (h1 ++ USub p :: USub q :: h2)) ->
    k = length (subscribers h1) -> flat_map entry (called [] h1) = [].
  Proof.
    intros N ->. rewrite subs_app in N.
    assert (P : ~ In p (subscribers h1) /\ ~ In q (subscribers h1)).
    { cbn in N. split; intros F; apply in_split in F as (a & b & E); rewrite E in N; rewrite <- app_assoc in N; apply NoDup_remove_2 in N; apply N.
      - apply in_app_iff. right. apply in_app_iff. right. now left.
      - apply in_app_iff. right. apply in_app_iff. right. right. now left. }
    clear N. induction h1 as [|x h1 IH] using rev_ind; [reflexivity|].
    rewrite subscribers_snoc in P. rewrite called_snoc, flat_map_app, IH.
    2:{ destruct P as [P1 P2]. split; intros F; [apply P1|apply P2]; apply in_app_iff; now left. }
    cbn [app]. destruct x; auto. destruct (u_off h1 || u_ended h1); [reflexivity|].
    assert (G : forall o, In o (members h1) -> In o (subscribers h1)).
    { intros o F. unfold members in F. apply in_map_iff in F as ([j r] & <- & F). apply force_nth, nth_error_In in F. exact F. }
    revert G. generalize (members h1). induction l as [|o l IHl]; intros G; [reflexivity|]. cbn [map flat_map].
    rewrite IHl by (intros r F; apply G; now right). rewrite app_nil_r. unfold entry. cbn [fst].
    assert (Fo : In o (subscribers h1)) by (apply G; now left).
    destruct (Nat.eqb_spec o p) as [->|]; [exfalso; apply (proj1 P), in_app_iff; now left|].
    destruct (Nat.eqb_spec o q) as [->|]; [exfalso; apply (proj2 P), in_app_iff; now left|]. reflexivity.
  Qed.

  Lemma put_during (h1 h2 : list (ulabel A)) : p <> q -> NoDup (subscribers (h1 ++ USub p :: USub q :: h2)) ->
    u_off h1 = false -> u_ended h1 = false ->
    (forall k, In (UUnsub k) h2 -> k <> length (subscribers h1) /\ k <> S (length (subscribers h1))) ->
    flat_map entry (called [] (h1 ++ USub p :: USub q :: h2)) = flat_map (fun n => [m1 n; m2 n]) (cut (asked h2)).
  Proof.
    intros PQ N O T. replace (h1 ++ USub p :: USub q :: h2) with ((h1 ++ [USub p; USub q]) ++ h2) in * by (rewrite <- app_assoc; reflexivity).
    induction h2 as [|x h2 IH] using rev_ind; intros H.
    - rewrite app_nil_r in *. rewrite called_app, flat_map_app, (@nothing_before _ h1 []) by eauto. reflexivity.
    - rewrite app_assoc in *. rewrite subscribers_snoc in N. apply nodup_app_l in N.
      assert (H' : forall k, In (UUnsub k) h2 -> k <> length (subscribers h1) /\ k <> S (length (subscribers h1))).
      { intros k F. apply H, in_app_iff. now left. }
      rewrite called_snoc, flat_map_app, (IH N H'), asked_snoc. clear IH.
      destruct x; cbn [app]; rewrite ?app_nil_r; auto.
      assert (O2 : u_off (h1 ++ [USub p; USub q]) = false) by (rewrite off_app2, O; reflexivity).
      rewrite off_app2, O2, (ended_app _ _ O2), (ended_app _ _ O), T. cbn [u_ended orb].
      destruct (u_off h2) eqn:O3; cbn [orb]; [rewrite !app_nil_r; reflexivity|].
      rewrite cut_snoc, flat_map_app, <- ended_asked. f_equal. destruct (u_ended h2); [reflexivity|].
      rewrite (@entry_members (length (subscribers h1))).
      + rewrite (@ours_during A p q h1 h2 O H'). cbn. unfold entry. cbn.
        rewrite !Nat.eqb_refl. destruct (Nat.eqb_spec q p); [congruence|]. reflexivity.
      + exact N.
      + rewrite !subs_app, <- app_assoc. rewrite nth_error_app2 by lia. rewrite Nat.sub_diag. reflexivity.
      + rewrite !subs_app, <- app_assoc. rewrite nth_error_app2 by lia. rewrite Nat.sub_succ_l, Nat.sub_diag by lia. reflexivity.
  Qed.

  Lemma put_after k (h h3 : list (ulabel A)) : NoDup (subscribers (h ++ h3)) -> nth_error (subscribers h) k = Some p -> nth_error (subscribers h) (S k) = Some q ->
    filter (ours k) (in_force h) = [] -> flat_map entry (called h h3) = [].
  Proof.
    intros N P Q E. enough (G : flat_map entry (called [] (h ++ h3)) = flat_map entry (called [] h)).
    { rewrite called_app, flat_map_app in G. cbn [app] in G. rewrite <- (app_nil_r (flat_map entry (called [] h))) in G at 2. now apply app_inv_head in G. }
    assert (L : S (S k) <= length (subscribers h)) by (apply nth_error_Some; congruence).
    induction h3 as [|x h3 IH] using rev_ind; [now rewrite app_nil_r|].
    rewrite app_assoc in *. rewrite subscribers_snoc in N. apply nodup_app_l in N.
    rewrite called_snoc, flat_map_app, (IH N). destruct x; cbn [app]; rewrite ?app_nil_r; auto.
    destruct (u_off (h ++ h3) || u_ended (h ++ h3)); [apply app_nil_r|].
    rewrite (@entry_members k).
    - rewrite (ours_none _ _ L E). cbn. apply app_nil_r.
    - exact N.
    - rewrite subs_app, nth_error_app1 by lia. exact P.
    - rewrite subs_app, nth_error_app1 by lia. exact Q.
  Qed.

  Lemma put_in_both (h during : list (ulabel A)) s : p <> q -> NoDup (subscribers h) -> ureach h s -> awaited h -> u_idle s ->
    both_sides p q h during -> put_in p q m1 m2 s = flat_map (fun n => [m1 n; m2 n]) (cut (asked during)).
  Proof.
    intros PQ N R W I B. rewrite put_in_log, (rounds R W N I). destruct B as [h1 h2 O T H|h1 h2 h3 O T H].
    - now apply put_during.
    - assert (E : h1 ++ USub p :: USub q :: h2 ++ UUnsub (length (subscribers h1)) :: UUnsub (S (length (subscribers h1))) :: h3 =
        (((h1 ++ USub p :: USub q :: h2) ++ [UUnsub (length (subscribers h1))]) ++ [UUnsub (S (length (subscribers h1)))]) ++ h3).
      { rewrite <- !app_assoc. cbn [app]. rewrite <- ?app_assoc. reflexivity. }
      rewrite E in *. clear E. set (k := length (subscribers h1)) in *.
      rewrite called_app, flat_map_app. cbn [app].
      assert (P : nth_error (subscribers (h1 ++ USub p :: USub q :: h2)) k = Some p).
      { rewrite subs_app, nth_error_app2 by (unfold k; lia). unfold k. rewrite Nat.sub_diag. reflexivity. }
      assert (Q : nth_error (subscribers (h1 ++ USub p :: USub q :: h2)) (S k) = Some q).
      { rewrite subs_app, nth_error_app2 by (unfold k; lia). unfold k. rewrite Nat.sub_succ_l, Nat.sub_diag by lia. reflexivity. }
      rewrite (@put_after k (((h1 ++ USub p :: USub q :: h2) ++ [UUnsub k]) ++ [UUnsub (S k)]) h3).
      + rewrite app_nil_r, !called_snoc. cbv beta iota. rewrite !app_nil_r. apply put_during; auto.
        rewrite subs_app, !subscribers_snoc in N. cbv beta iota in N. rewrite !app_nil_r in N. now apply nodup_app_l in N.
      + exact N.
      + rewrite !subscribers_snoc. cbv beta iota. rewrite !app_nil_r. exact P.
      + rewrite !subscribers_snoc. cbv beta iota. rewrite !app_nil_r. exact Q.
      + rewrite !force_snoc, filter_filter, (filter_filter (ours k)).
        replace (h1 ++ USub p :: USub q :: h2) with ((h1 ++ [USub p; USub q]) ++ h2) by (rewrite <- app_assoc; reflexivity).
        unfold k. rewrite (@ours_during A p q h1 h2 O H). cbn [filter fst negb].
        repeat match goal with |- context [?a =? ?b] => destruct (Nat.eqb_spec a b); try lia; cbn [filter fst negb] end; reflexivity.
  Qed.
End PutIn.

Lemma cut_trace A (vs : list A) e junk : (e = Open -> junk = []) -> cut (trace vs e ++ junk) = trace vs e.
Proof.
  intros H. unfold trace. induction vs as [|v vs IH]; cbn; [|now rewrite IH].
  destruct e; cbn; [now rewrite H|reflexivity|reflexivity].
Qed.

Lemma put_in_emits A M p q (m1 m2 : notif A -> M) (h during : list (ulabel A)) s vs e : p <> q -> NoDup (subscribers h) -> ureach h s -> awaited h -> u_idle s ->
  both_sides p q h during -> emits during vs e -> put_in p q m1 m2 s = flat_map (fun n => [m1 n; m2 n]) (trace vs e).
Proof.
  intros PQ N R W I B (junk & E & J). rewrite (put_in_both m1 m2 PQ N R W I B), E, (cut_trace _ J). reflexivity.
Qed.

(** ** The operators *)

Definition twice {A B C} (f : A -> B) (g : A -> C) (vs : list A) : arrivals B C := flat_map (fun v => [inl (f v); inr (g v)]) vs.

Lemma per_combined A B C (f : A -> B) (g : A -> C) vs : forall p last, last_left p = option_map f last -> last_right p = option_map g last ->
  per_prefix both p (twice f g vs) = self_combined f g last vs.
Proof.
  induction vs as [|v vs IH]; intros p last L R; [reflexivity|].
  cbn [twice flat_map app per_prefix self_combined]. fold (twice f g vs).
  rewrite (IH _ (Some v)); [|now rewrite !last_left_snoc|now rewrite !last_right_snoc].
  unfold both. rewrite !last_left_snoc, !last_right_snoc, R. destruct last; reflexivity.
Qed.

Lemma per_latest A B C (f : A -> B) (g : A -> C) vs : forall p last, last_right p = option_map g last ->
  per_prefix sampled p (twice f g vs) = match last with Some u => self_latest f g (u :: vs) | None => self_latest f g vs end.
Proof.
  induction vs as [|v vs IH]; intros p last R; [now destruct last|].
  cbn [twice flat_map app per_prefix]. fold (twice f g vs).
  rewrite (IH _ (Some v)); [|now rewrite !last_right_snoc].
  rewrite !sampled_snoc, R. destruct last; reflexivity.
Qed.

Lemma twice_calls A B C (f : A -> B) (g : A -> C) vs e :
  flat_map (fun n => [Src (renamed f n); Oth (renamed g n)]) (trace vs e) =
  two_sources (twice f g vs)
    (match e with Open => None | Failed x => Some (Src (OnError x)) | Completed => Some (Src OnCompleted) end)
    (match e with Open => [] | Failed x => [Oth (OnError x)] | Completed => [Oth OnCompleted] end).
Proof.
  unfold two_sources, trace, twice. rewrite flat_map_app. f_equal; [|now destruct e].
  induction vs as [|v vs IH]; [reflexivity|]. cbn. now rewrite IH.
Qed.

Lemma twice_until A B C (f : A -> B) (g : A -> C) v vs e : exists junk,
  flat_map (fun n => [Oth (renamed g n); Src (renamed f n)]) (trace (v :: vs) e) = tu_calls [] (Some (Oth (OnNext (g v)))) junk.
Proof. eexists. reflexivity. Qed.

Lemma twice_until_nil A B C (f : A -> B) (g : A -> C) e : exists arr t junk,
  flat_map (fun n => [Oth (renamed g n); Src (renamed f n)]) (trace [] e) = tu_calls arr t junk /\
  (forall m, t = Some m -> tu_ends m <> Open) /\ lefts arr = [] /\ match t with Some m => tu_ends m | None => Open end = e.
Proof.
  destruct e as [|x|].
  - exists [], None, []. repeat split; discriminate.
  - exists [], (Some (Oth (OnError x))), [Src (OnError x)]. repeat split. now intros m [= <-].
  - exists [inr tt], (Some (Src OnCompleted)), []. repeat split. now intros m [= <-].
Qed.

Lemma ending_twice B C e : @ending_of B C (match e with Open => None | Failed x => Some (Src (OnError x)) | Completed => Some (Src OnCompleted) end) = e.
Proof. now destruct e. Qed.

Lemma twice_combine A B C (f : A -> B) (g : A -> C) vs e :
  delivers (combine_latest_sys well_behaved PEnd) (flat_map (fun n => [Src (renamed f n); Oth (renamed g n)]) (trace vs e)) (trace (self_combined f g None vs) e).
Proof.
  rewrite twice_calls, <- (@per_combined A B C f g vs [] None), per_prefix_prefixes by reflexivity. fold (combined (twice f g vs)).
  rewrite <- (ending_twice B C e) at 3. apply combine_delivers. destruct e; now intros m [= <-].
Qed.

Lemma twice_latest A B C (f : A -> B) (g : A -> C) vs e :
  delivers (with_latest_from_sys well_behaved PEnd) (flat_map (fun n => [Src (renamed f n); Oth (renamed g n)]) (trace vs e)) (trace (self_latest f g vs) e).
Proof.
  rewrite twice_calls.
  change (self_latest f g vs) with (match @None A with Some u => self_latest f g (u :: vs) | None => self_latest f g vs end).
  rewrite <- (@per_latest A B C f g vs [] None), per_prefix_prefixes by reflexivity. fold (with_latest (twice f g vs)).
  rewrite <- (ending_twice B C e) at 3. apply with_delivers. destruct e; now intros m [= <-].
Qed.

(** ** merge *)

Lemma twice_once A B (f g : A -> B) vs e : forall a k n b,
  flat_map (fun n => [(0, renamed f n); (1, renamed g n)]) (trace vs e) = a ++ (k, n) :: b -> ~ In (k, OnCompleted) a.
Proof.
  unfold trace. induction vs as [|v vs IH]; intros a k n b E.
  - destruct e as [|x|]; cbn in E; [now destruct a| |];
      (destruct a as [|y [|z [|? a]]]; injection E as E; subst; try discriminate;
       [intros []|intros [F|[]]; congruence|destruct a; discriminate..]).
  - cbn in E. destruct a as [|y [|z a]].
    + intros [].
    + injection E as <- _ _ _. intros [F|[]]; congruence.
    + injection E as <- <- E. intros [F|[F|F]]; try congruence. exact (IH _ _ _ _ E F).
Qed.

Lemma inner_calls_app O A (a b : list (mlabel O A)) : inner_calls (a ++ b) = inner_calls a ++ inner_calls b.
Proof. apply flat_map_app. Qed.

Lemma completions_calls O A (h : list (mlabel O A)) k : In k (completions h) <-> In (k, OnCompleted) (inner_calls h).
Proof.
  unfold completions, inner_calls. induction h as [|x h IH]; [reflexivity|]. cbn [flat_map]. rewrite !in_app_iff, IH.
  destruct x as [[]|j []| | |]; cbn; intuition (try congruence).
Qed.

Lemma produced_calls O A (h : list (mlabel O A)) : (forall l, In l h -> ~ stops l) ->
  produced h = map snd (filter (fun p => match snd p with OnCompleted => false | _ => true end) (inner_calls h)).
Proof.
  unfold produced, inner_calls. induction h as [|x h IH]; intros H; [reflexivity|]. cbn [flat_map].
  rewrite filter_app, map_app, <- IH by (intros l F; apply H; now right). f_equal.
  destruct x as [[o|e|]|j []| | |]; try reflexivity.
  exfalso. apply (H (LOuter (OnError e))); [now left|]. right. now exists e.
Qed.

Lemma sends_calls O A (h : list (mlabel O A)) : map snd (sends h) = flat_map (fun p => match snd p with OnNext a => [a] | _ => [] end) (inner_calls h).
Proof.
  unfold sends, inner_calls. induction h as [|x h IH]; [reflexivity|]. cbn [flat_map].
  rewrite map_app, flat_map_app, IH. f_equal. destruct x as [|j []| | |]; reflexivity.
Qed.

Definition doubled {A B} (f g : A -> B) (vs : list A) : list B := flat_map (fun v => [f v; g v]) vs.

Lemma doubled_made A B (f g : A -> B) vs e :
  map snd (filter (fun p => match snd p with OnCompleted => false | _ => true end) (flat_map (fun n => [(0, renamed f n); (1, renamed g n)]) (trace vs e))) =
  map OnNext (doubled f g vs) ++ match e with Failed x => [OnError x; OnError x] | _ => [] end.
Proof.
  unfold trace, doubled. induction vs as [|v vs IH]; [now destruct e|]. cbn. cbn in IH. now rewrite IH.
Qed.

Lemma doubled_sent A B (f g : A -> B) vs e :
  flat_map (fun p => match snd p with OnNext a => [a] | _ => [] end) (flat_map (fun n => [(0, renamed f n); (1, renamed g n)]) (trace vs e)) = doubled f g vs.
Proof.
  unfold trace, doubled. induction vs as [|v vs IH]; [now destruct e|]. cbn. cbn in IH. now rewrite IH.
Qed.

Lemma doubled_ends A B (f g : A -> B) vs e : In (0, OnCompleted) (flat_map (fun n => [(0, renamed f n); (1, renamed g n)]) (trace vs e)) -> e = Completed.
Proof.
  unfold trace. induction vs as [|v vs IH]; cbn.
  - destruct e; cbn; intuition discriminate.
  - intros [F|[F|F]]; try discriminate. now apply IH.
Qed.

Lemma upto_error A (l : list (notif A)) vs x rest :
  filter (fun n => match n with OnCompleted => false | _ => true end) l = map OnNext vs ++ OnError x :: rest -> ~ In OnCompleted l ->
  delivers (psys well_behaved (safe PEnd)) l (trace vs (Failed x)).
Proof.
  intros E Hn. apply (delivers_iff (sane_psys _ _)), subscriber. symmetry. apply (@upto_first_error _ _ vs x rest E).
  intros a b F. exfalso. apply Hn. rewrite F. apply in_or_app. right. now left.
Qed.

Lemma merge_doubled O A B (f g : A -> B) vs e (hm : list (mlabel O B)) sm : merged_twice hm sm ->
  inner_calls hm = flat_map (fun n => [(0, renamed f n); (1, renamed g n)]) (trace vs e) ->
  delivers (psys well_behaved (safe PEnd)) (requests (m_log sm)) (trace (doubled f g vs) e).
Proof.
  intros [R K [G Fin] [NF NS] Rest] Q.
  pose proof (forwards R) as P. rewrite (produced_calls _ NS), Q, doubled_made in P.
  assert (C : In OnCompleted (requests (m_log sm)) -> e = Completed).
  { intros F. destruct (completes_only_if (Z.le_refl 0) R G F) as (_ & _ & D).
    specialize (D 0). rewrite K in D. specialize (D (or_introl eq_refl)). apply completions_calls in D. rewrite Q in D. exact (doubled_ends f g vs e D). }
  destruct e as [|x|].
  - rewrite app_nil_r in P. assert (Hn : ~ In OnCompleted (requests (m_log sm))) by (intros F; apply C in F; discriminate).
    rewrite <- (norm_trace0 (doubled f g vs) Open). unfold trace. rewrite app_nil_r, <- P, filter_eq_all.
    + apply (delivers_iff (sane_psys _ _)), subscriber. reflexivity.
    + intros n Hin. destruct n; [reflexivity|reflexivity|contradiction].
  - apply (@upto_error _ _ _ x [OnError x]); [exact P|]. intros F; apply C in F; discriminate.
  - assert (F : In OnCompleted (requests (m_log sm))).
    { apply (completes_if (Z.le_refl 0) R NF NS Rest Fin). intros k F. rewrite K in F. apply completions_calls. rewrite Q.
      apply in_flat_map. exists OnCompleted. split; [unfold trace; apply in_app_iff; right; now left|].
      destruct F as [<-|[<-|[]]]; cbn; auto. }
    apply (delivers_iff (sane_psys _ _)), subscriber.
    assert (Hq : quiet_after_completion hm).
    { intros h1 k n h2 -> D. apply completions_calls in D. rewrite inner_calls_app in Q. symmetry in Q. exact (@twice_once A B f g vs Completed _ k n _ Q D). }
    assert (He : forall x, ~ In (OnError x) (produced hm)).
    { intros x H. rewrite (produced_calls _ NS), Q, doubled_made, app_nil_r in H. apply in_map_iff in H as (? & H & _). discriminate. }
    rewrite (completed_requests (Z.le_refl 0) R G Hq He F).
    rewrite sends_calls, Q, doubled_sent. symmetry. apply norm_trace0.
Qed.
