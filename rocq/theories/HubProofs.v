(** * Proofs about pipelines subscribed to a subject. *)
From Coq Require Import Permutation.
From Verif Require Export Hub.
From Verif Require Import SubjectProofs ThreadsProofs.
Set Implicit Arguments.

Lemma exn_eqb_eq a b : exn_eqb a b = true -> a = b.
Proof. destruct a, b; cbn; try discriminate; try reflexivity. intros H. apply Z.eqb_eq in H. now subst. Qed.

Lemma exn_eqb_refl a : exn_eqb a a = true.
Proof. destruct a; cbn; try reflexivity. apply Z.eqb_refl. Qed.

(** ** Histories *)
Fixpoint nsubs {A} (h : list (blabel A)) : nat :=
  match h with [] => 0 | BSub _ _ :: h' => S (nsubs h') | _ :: h' => nsubs h' end.

Definition at_one {A} (k : nat) (x : blabel A) : list (ulabel A) :=
  match x with
  | BSub _ _ => [USub k] | BUnsub j => [UUnsub j] | BCall n => [UCall n] | BRet c => [URet c] | BExn c e => [UExn c e]
  | BDispose => [UDispose] | _ => []
  end.

Lemma at_subject_from_snoc A (h : list (blabel A)) x : forall k,
  at_subject_from k (h ++ [x]) = at_subject_from k h ++ at_one (k + nsubs h) x.
Proof.
  induction h as [|y h IH]; intros k.
  - cbn. rewrite Nat.add_0_r. destruct x; reflexivity.
  - destruct y; cbn [app at_subject_from nsubs]; rewrite ?IH; try reflexivity.
    replace (S k + nsubs h) with (k + S (nsubs h)) by lia. reflexivity.
Qed.

Lemma at_subject_snoc A (h : list (blabel A)) x : at_subject (h ++ [x]) = at_subject h ++ at_one (nsubs h) x.
Proof. apply at_subject_from_snoc. Qed.

Lemma nsubs_snoc A (h : list (blabel A)) x : nsubs (h ++ [x]) = nsubs h + match x with BSub _ _ => 1 | _ => 0 end.
Proof. induction h as [|y h IH]; [destruct x; reflexivity|]. destruct y; cbn [app nsubs]; rewrite ?IH; reflexivity. Qed.

Lemma breach_snoc A (h : list (blabel A)) x b : breach (h ++ [x]) b -> exists b1, breach h b1 /\ bstep b1 x = Some b.
Proof.
  intros H. remember (h ++ [x]) as hx eqn:E. destruct H as [|h' y b1 b' H1 H2].
  - destruct h; discriminate.
  - apply app_inj_tail in E as [-> ->]. eauto.
Qed.

Lemma breach_app A (h1 h2 : list (blabel A)) : forall b, breach (h1 ++ h2) b -> exists b1, breach h1 b1.
Proof.
  induction h2 as [|x h2 IH] using rev_ind; intros b H; [rewrite app_nil_r in H; eauto|].
  rewrite app_assoc in H. apply breach_snoc in H as (b1 & H1 & _). eauto.
Qed.

(** ** One pipeline *)
Definition lreach {A} (v : line A) (h : list (tlabel (notif A))) : Prop :=
  treach (l_pol v) (front_op (l_pipe v)) (front_rest (l_pipe v)) h (l_st v).
Definition lapart {A} (v : line A) (h : list (tlabel (notif A))) : Prop :=
  one_at_a_time (l_pol v) (front_op (l_pipe v)) (front_rest (l_pipe v)) h.

Lemma lstep_reach A (v v' : line A) h x : lreach v h -> lstep v x = Some v' -> lreach v' (h ++ [x]).
Proof.
  unfold lstep. intros H E. destruct (tstep (l_st v) x) as [s|] eqn:T; [|discriminate]. injection E as <-.
  unfold lreach. cbn. eapply treach_s; [exact H|exact T].
Qed.

Lemma apart_snoc Z M B (pol : policy Z) (o : op M (act B)) r h s x : treach pol o r h s -> one_at_a_time pol o r h ->
  (match x with TCall _ => idle s = true | _ => True end) -> one_at_a_time pol o r (h ++ [x]).
Proof.
  intros H H1 Hx h1 m h2 s1 E R. destruct h2 as [|y h2 _] using rev_ind.
  - apply app_inj_tail in E as [<- ->]. now rewrite <- (treach_det H R).
  - rewrite app_comm_cons, app_assoc in E. apply app_inj_tail in E as [-> _]. exact (H1 _ _ _ _ eq_refl R).
Qed.

Lemma lstep_apart A (v v' : line A) h x : lreach v h -> lapart v h -> lstep v x = Some v' ->
  (match x with TCall _ => idle (l_st v) = true | _ => True end) -> lapart v' (h ++ [x]).
Proof.
  intros H H1 E Hx. unfold lstep in E. destruct (tstep (l_st v) x) as [s|]; [|discriminate]. injection E as <-.
  unfold lapart. cbn. exact (apart_snoc x H H1 Hx).
Qed.

Lemma lstep_call A (v : line A) n : exists v' x, lstep v (TCall n) = Some v' /\ outcomes v' = outcomes v ++ [x].
Proof.
  unfold lstep, outcomes. cbn [tstep].
  destruct (turn _ _ _ _ _) as [[w d] p] eqn:T. eexists _, (outcome p). split; [reflexivity|]. cbn. apply map_app.
Qed.

Lemma outcome_over S N (p : prog S N) : over p = match outcome p with None => false | Some _ => true end.
Proof. now destruct p. Qed.

Lemma map_replace X Y (f : X -> Y) i x l : map f (replace_nth i x l) = upd i (f x) (map f l).
Proof. revert i. induction l as [|y l IH]; intros [|i]; cbn; try reflexivity. now rewrite IH. Qed.

Lemma lstep_go A (v v' : line A) i : lstep v (TGo i) = Some v' -> exists x, outcomes v' = upd i x (outcomes v).
Proof.
  unfold lstep, outcomes. cbn [tstep]. destruct (nth_error (t_calls (l_st v)) i) as [p|]; [|discriminate].
  destruct (over p); [discriminate|]. destruct (turn _ _ _ _ _) as [[w d] q]. intros [= <-].
  exists (outcome q). cbn. apply map_replace.
Qed.

Lemma lstep_go_ok A (v : line A) i : nth_error (outcomes v) i = Some None -> exists v', lstep v (TGo i) = Some v'.
Proof.
  unfold lstep, outcomes. cbn [tstep]. rewrite nth_error_map. destruct (nth_error (t_calls (l_st v)) i) as [p|]; [|discriminate].
  cbn. intros [= H]. rewrite outcome_over, H. destruct (turn _ _ _ _ _) as [[w d] q]. eauto.
Qed.

Lemma lstep_work A (v v' : line A) k : lstep v (TWork k) = Some v' -> outcomes v' = outcomes v.
Proof.
  unfold lstep, outcomes. cbn [tstep]. destruct (cstep _ _ _); [|discriminate]. intros [= <-]. reflexivity.
Qed.

Lemma line_idle A (v : line A) : idle (l_st v) = true <-> forall i, nth_error (outcomes v) i <> Some None.
Proof.
  rewrite idle_nth. unfold outcomes. split.
  - intros H i E. rewrite nth_error_map in E. destruct (nth_error (t_calls (l_st v)) i) as [p|] eqn:P; [|discriminate].
    cbn in E. injection E as E. specialize (H _ _ P). rewrite outcome_over, E in H. discriminate.
  - intros H i p P. specialize (H i). rewrite nth_error_map, P in H. cbn in H. rewrite outcome_over. destruct (outcome p); congruence.
Qed.

(** ** The subject's part of a step *)
Definition targets {A} (p : ucall A) : list nat := match p with Flying _ o r => o :: r | Finished _ => [] end.

Definition moved {A} (c : nat) (allowed : list nat) (s s' : ustate A) : Prop :=
  c < length (u_calls s') /\
  (forall d, d <> c -> nth_error (u_calls s') d = nth_error (u_calls s) d) /\
  ((exists r, nth_error (u_calls s') c = Some (Finished r)) /\ u_log s' = u_log s \/
   exists n o rest, nth_error (u_calls s') c = Some (Flying n o rest) /\ u_log s' = u_log s ++ [(c, o, n)] /\ incl (o :: rest) allowed).

Lemma call_moved A (s s' : ustate A) n : ustep s (UCall n) = Some s' ->
  moved (length (u_calls s)) (u_obs s) s s' /\ length (u_calls s') = S (length (u_calls s)).
Proof.
  assert (L : forall (p : ucall A) d, d <> length (u_calls s) -> nth_error (u_calls s ++ [p]) d = nth_error (u_calls s) d).
  { intros p d Hd. destruct (Nat.lt_ge_cases d (length (u_calls s))) as [Q|Q]; [now apply nth_error_app1|].
    rewrite (proj2 (nth_error_None _ _) Q). apply nth_error_None. rewrite app_length. cbn. lia. }
  assert (E : forall p : ucall A, length (u_calls s ++ [p]) = S (length (u_calls s))) by (intros p; rewrite app_length; cbn; lia).
  cbn. destruct (u_disposed s); [intros [= <-]|destruct (u_stopped s); [intros [= <-]|]].
  - cbn. split; [|apply E]. unfold moved. cbn. rewrite E. split; [lia|]. split; [apply L|]. left. rewrite nth_snoc. eauto.
  - cbn. split; [|apply E]. unfold moved. cbn. rewrite E. split; [lia|]. split; [apply L|]. left. rewrite nth_snoc. eauto.
  - destruct (u_obs s) as [|o r]; cbn; intros [= <-]; cbn; (split; [|apply E]); unfold moved; cbn; rewrite E; (split; [lia|]); (split; [apply L|]); rewrite nth_snoc.
    + left. rewrite app_nil_r. eauto.
    + right. exists n, o, r. split; [reflexivity|]. split; [reflexivity|]. intros x Hx. exact Hx.
Qed.

Lemma ret_moved A (s s' : ustate A) c : ustep s (URet c) = Some s' -> exists n o rest,
  nth_error (u_calls s) c = Some (Flying n o rest) /\ moved c rest s s' /\ length (u_calls s') = length (u_calls s).
Proof.
  cbn. destruct (nth_error (u_calls s) c) as [[n o rest|]|] eqn:K; try discriminate. pose proof (nth_some_length _ _ K) as L.
  intros E. exists n, o, rest. split; [reflexivity|].
  destruct rest as [|q r]; cbn in E; injection E as <-; (split; [|cbn; apply upd_length]); unfold moved; cbn; rewrite upd_length; (split; [exact L|]);
    (split; [intros d Hd; apply nth_upd_ne; auto|]); rewrite nth_upd_eq by exact L.
  - left. rewrite app_nil_r. eauto.
  - right. exists n, q, r. split; [reflexivity|]. split; [reflexivity|]. intros x Hx. exact Hx.
Qed.

(** ** The invariant *)
Definition flying_ok {A} (s : ustate A) (ls : list (line A)) (ts : list nat) (d : nat) : Prop :=
  forall n o rest, nth_error (u_calls s) d = Some (Flying n o rest) ->
    (forall x, In x (o :: rest) -> x < length ls) /\
  exists v i y, nth_error ls o = Some v /\ nth_error ts d = Some i /\ nth_error (outcomes v) i = Some y.

(** Coroutine [i] of pipeline [o], if it is not over, belongs to a call that satisfies [P]. *)
Definition owned {A} (P : nat -> Prop) (s : ustate A) (ls : list (line A)) (ts : list nat) : Prop :=
  forall o v i, nth_error ls o = Some v -> nth_error (outcomes v) i = Some None ->
    exists d n rest, nth_error (u_calls s) d = Some (Flying n o rest) /\ nth_error ts d = Some i /\ P d.

Definition fed {A} (W : Prop) (s : ustate A) (ls : list (line A)) : Prop :=
  forall o v, nth_error ls o = Some v -> exists h, lreach v h /\ issued h = received o s /\ (W -> lapart v h).

Lemma nth_upd X (l : list X) i j x y : nth_error (upd i x l) j = Some y -> i = j /\ y = x /\ i < length l \/ i <> j /\ nth_error l j = Some y.
Proof.
  intros H. destruct (Nat.eq_dec i j) as [<-|N]; [left|right; split; [exact N|rewrite nth_upd_ne in H; auto]].
  assert (L : i < length l) by (rewrite <- (upd_length i x l); apply nth_error_Some; congruence).
  rewrite nth_upd_eq in H by exact L. injection H as <-. auto.
Qed.

Lemma tell_ok A c allowed (s s' : ustate A) ls ts (W : Prop) :
  moved c allowed s s' -> length ts = length (u_calls s') ->
  (forall x, In x allowed -> x < length ls) ->
  (forall d, d <> c -> flying_ok s ls ts d) ->
  owned (fun d => d <> c) s ls ts ->
  fed W s ls ->
  (W -> forall o v, nth_error ls o = Some v -> idle (l_st v) = true) ->
  exists b, tell c s' ls ts = Some b /\ b_subj b = s' /\ length (b_lines b) = length ls /\ length (b_task b) = length ts /\
  (forall d, flying_ok (b_subj b) (b_lines b) (b_task b) d) /\ owned (fun _ => True) (b_subj b) (b_lines b) (b_task b) /\
  fed W (b_subj b) (b_lines b).
Proof.
  intros (Lc & Same & Out) Lt Al Fl Ow Fe Id. unfold tell.
  destruct Out as [[[r Hc] Hl]|(n & o & rest & Hc & Hl & Hi)]; rewrite Hc.
  - eexists. split; [reflexivity|]. cbn [b_subj b_lines b_task]. split; [reflexivity|]. split; [reflexivity|]. split; [reflexivity|]. split; [|split].
    + intros d m p q Hd. destruct (Nat.eq_dec d c) as [->|N]; [congruence|]. apply (Fl d N m p q). now rewrite <- (Same d N).
    + intros p v i Hv Ho. destruct (Ow p v i Hv Ho) as (d & m & q & D1 & D2 & D3). exists d, m, q. rewrite (Same d D3). auto.
    + intros p v Hv. destruct (Fe p v Hv) as (h & H1 & H2 & H3). exists h. split; [exact H1|]. split; [|exact H3].
      unfold received. rewrite Hl. exact H2.
  - assert (Lo : o < length ls) by (apply Al, Hi; now left).
    destruct (nth_error ls o) as [v|] eqn:Ev; [|apply nth_error_None in Ev; lia].
    destruct (lstep_call v n) as (v' & x & Ex & Eo). rewrite Ex. eexists. split; [reflexivity|].
    cbn [b_subj b_lines b_task]. split; [reflexivity|]. split; [apply upd_length|]. split; [apply upd_length|].
    assert (Lt' : c < length ts) by lia.
    split; [|split].
    + intros d m p q Hd. destruct (Nat.eq_dec d c) as [->|N].
      * rewrite Hc in Hd. injection Hd as <- <- <-. split; [rewrite upd_length; intros y Hy; apply Al, Hi, Hy|].
        exists v', (length (outcomes v)), x. rewrite nth_upd_eq by exact Lo. rewrite nth_upd_eq by exact Lt'.
        rewrite Eo. split; [reflexivity|]. split; [reflexivity|apply nth_snoc].
      * rewrite (Same d N) in Hd. destruct (Fl d N m p q Hd) as [F1 (w & i & y & F2 & F3 & F4)].
        split; [rewrite upd_length; exact F1|]. rewrite (nth_upd_ne _ _ (not_eq_sym N)).
        destruct (Nat.eq_dec p o) as [->|N2].
        -- exists v', i, y. rewrite nth_upd_eq by exact Lo. rewrite Ev in F2. injection F2 as <-. split; [reflexivity|]. split; [exact F3|].
           rewrite Eo. rewrite nth_error_app1 by exact (nth_some_length _ _ F4). exact F4.
        -- exists w, i, y. rewrite (nth_upd_ne _ _ (not_eq_sym N2)). auto.
    + intros p w i Hw Ho. apply nth_upd in Hw. destruct Hw as [(<- & -> & _)|[N Hw]].
      * rewrite Eo in Ho. destruct (Nat.lt_ge_cases i (length (outcomes v))) as [L|L].
        -- rewrite nth_error_app1 in Ho by exact L. destruct (Ow o v i Ev Ho) as (d & m & q & D1 & D2 & D3).
           exists d, m, q. rewrite (Same d D3), (nth_upd_ne _ _ (not_eq_sym D3)). auto.
        -- assert (i = length (outcomes v)) as ->.
           { apply nth_some_length in Ho. rewrite app_length in Ho. cbn in Ho. lia. }
           exists c, n, rest. rewrite nth_upd_eq by exact Lt'. auto.
      * destruct (Ow p w i Hw Ho) as (d & m & q & D1 & D2 & D3). exists d, m, q. rewrite (Same d D3), (nth_upd_ne _ _ (not_eq_sym D3)). auto.
    + intros p w Hw. apply nth_upd in Hw. destruct Hw as [(<- & -> & _)|[N Hw]].
      * destruct (Fe o v Ev) as (h & H1 & H2 & H3). exists (h ++ [TCall n]). split; [exact (lstep_reach _ H1 Ex)|].
        split; [|intros w; refine (lstep_apart _ H1 (H3 w) Ex (Id w _ _ Ev))].
        rewrite issued_snoc, H2. rewrite (@received_app _ o s s' _ Hl). cbn. now rewrite Nat.eqb_refl.
      * destruct (Fe p w Hw) as (h & H1 & H2 & H3). exists h. split; [exact H1|]. split; [|exact H3].
        rewrite H2. rewrite (@received_app _ p s s' _ Hl). cbn. apply Nat.eqb_neq in N as ->. cbn. now rewrite app_nil_r.
Qed.

Lemma fed_weaken A (W W' : Prop) (s : ustate A) ls : (W' -> W) -> fed W s ls -> fed W' s ls.
Proof. intros H F o v Hv. destruct (F o v Hv) as (h & H1 & H2 & H3). exists h. auto. Qed.

Lemma fed_log A W (s s' : ustate A) ls : u_log s' = u_log s -> fed W s ls -> fed W s' ls.
Proof. intros E F o v Hv. destruct (F o v Hv) as (h & H1 & H2 & H3). exists h. unfold received. rewrite E. auto. Qed.

(** At most one call is under way if all are awaited. *)
Lemma one_flying A (h : list (ulabel A)) s c d n o r n' o' r' : ureach h s -> awaited h ->
  nth_error (u_calls s) c = Some (Flying n o r) -> nth_error (u_calls s) d = Some (Flying n' o' r') -> c = d.
Proof.
  intros R W C D. destruct (await_inv 0 R W) as [[I _]|(e & m & p & q & _ & H & _)].
  - destruct (I c) as [x [X|X]]; congruence.
  - destruct (Nat.eq_dec c e) as [->|N]; [|destruct (H c N) as [x [X|X]]; congruence].
    destruct (Nat.eq_dec d e) as [->|N]; [reflexivity|destruct (H d N) as [x [X|X]]; congruence].
Qed.

Lemma moved_log A c allowed (s s' : ustate A) N : moved c allowed s s' -> (forall x, In x allowed -> x < N) ->
  (forall d o n, In (d, o, n) (u_log s) -> o < N) -> forall d o n, In (d, o, n) (u_log s') -> o < N.
Proof.
  intros (_ & _ & [[_ ->]|(m & p & rest & _ & -> & Hi)]) Al L d o n H; [exact (L d o n H)|].
  apply in_app_or in H. destruct H as [H|[[= _ <- _]|[]]]; [exact (L d o n H)|]. apply Al, Hi. now left.
Qed.

Record BI {A} (h : list (blabel A)) (b : hub A) : Prop := {
  bi_u : ureach (at_subject h) (b_subj b);
  bi_task : length (b_task b) = length (u_calls (b_subj b));
  bi_subs : subscribers (at_subject h) = seq 0 (length (b_lines b));
  bi_n : nsubs h = length (b_lines b);
  bi_fly : forall d, flying_ok (b_subj b) (b_lines b) (b_task b) d;
  bi_own : owned (fun _ => True) (b_subj b) (b_lines b) (b_task b);
  bi_log : forall c o n, In (c, o, n) (u_log (b_subj b)) -> o < length (b_lines b);
  bi_fed : fed (awaited (at_subject h)) (b_subj b) (b_lines b)
}.

Lemma pending_inv A (b : hub A) c o i y : pending b c = Some (o, i, y) -> exists n rest v,
  nth_error (u_calls (b_subj b)) c = Some (Flying n o rest) /\ nth_error (b_task b) c = Some i /\
  nth_error (b_lines b) o = Some v /\ nth_error (outcomes v) i = Some y.
Proof.
  unfold pending. destruct (nth_error (u_calls (b_subj b)) c) as [[n p rest|]|]; try discriminate.
  destruct (nth_error (b_task b) c) as [j|]; [|discriminate].
  destruct (nth_error (b_lines b) p) as [v|] eqn:V; [|discriminate].
  destruct (nth_error (outcomes v) j) as [z|] eqn:Y; [|discriminate].
  intros [= -> -> ->]. exists n, rest, v. auto.
Qed.

Lemma obs_known A (h : list (blabel A)) b : BI h b -> forall x, In x (u_obs (b_subj b)) -> x < length (b_lines b).
Proof.
  intros I x Hx. destruct (members_exact (bi_u I)) as (_ & H & _); [rewrite (bi_subs I); apply seq_NoDup|].
  apply H in Hx. rewrite (bi_subs I) in Hx. apply in_seq in Hx. lia.
Qed.

(** A step of pipeline [o] that is not a call of its observer. *)
Lemma line_moves A (W W' : Prop) (s : ustate A) ls ts o v v' l :
  nth_error ls o = Some v -> lstep v l = Some v' -> (match l with TCall _ => False | _ => True end) -> (W' -> W) ->
  (forall i, nth_error (outcomes v') i = Some None -> nth_error (outcomes v) i = Some None) ->
  length (outcomes v') = length (outcomes v) ->
  (forall d, flying_ok s ls ts d) -> owned (fun _ => True) s ls ts -> fed W s ls ->
  (forall d, flying_ok s (upd o v' ls) ts d) /\ owned (fun _ => True) s (upd o v' ls) ts /\ fed W' s (upd o v' ls).
Proof.
  intros Ev El Hl HW Ho Hn Fl Ow Fe. pose proof (nth_some_length _ _ Ev) as Lo. split; [|split].
  - intros d n p rest Hd. destruct (Fl d n p rest Hd) as [F1 (w & i & y & F2 & F3 & F4)]. split; [rewrite upd_length; exact F1|].
    destruct (Nat.eq_dec o p) as [<-|N].
    + rewrite Ev in F2. injection F2 as <-. destruct (nth_error (outcomes v') i) as [z|] eqn:Z.
      * exists v', i, z. rewrite nth_upd_eq by exact Lo. auto.
      * apply nth_error_None in Z. apply nth_some_length in F4. lia.
    + exists w, i, y. rewrite nth_upd_ne by exact N. auto.
  - intros p w i Hw Hi. apply nth_upd in Hw. destruct Hw as [(<- & -> & _)|[N Hw]]; [exact (Ow o v i Ev (Ho i Hi))|exact (Ow p w i Hw Hi)].
  - intros p w Hw. apply nth_upd in Hw. destruct Hw as [(<- & -> & _)|[N Hw]].
    + destruct (Fe o v Ev) as (h & H1 & H2 & H3). exists (h ++ [l]). split; [exact (lstep_reach _ H1 El)|]. split.
      * rewrite issued_snoc, H2. destruct l; [contradiction|now rewrite app_nil_r..].
      * intros w. refine (lstep_apart _ H1 (H3 (HW w)) El _). destruct l; [contradiction|exact I..].
    + destruct (Fe p w Hw) as (h & H1 & H2 & H3). exists h. auto.
Qed.

Lemma bi A (h : list (blabel A)) b : breach h b -> BI h b.
Proof.
  induction 1 as [|h x b b' Hr I E].
  - constructor; cbn; try reflexivity.
    + constructor.
    + intros d n o rest H. destruct d; discriminate.
    + intros o v i H. destruct o; discriminate.
    + intros c o n [].
    + intros o v H. destruct o; discriminate.
  - pose proof (bi_u I) as U. pose proof (at_subject_snoc h x) as Es. pose proof (nsubs_snoc h x) as En.
    destruct x as [Z pol p|k|n|c|c|c e|o k|]; cbn [at_one] in Es; unfold bstep in E.
    + (* BSub *)
      destruct (ustep (b_subj b) (USub (length (b_lines b)))) as [s'|] eqn:Q; [|discriminate]. injection E as <-.
      assert (C : u_calls s' = u_calls (b_subj b) /\ u_log s' = u_log (b_subj b)).
      { cbn in Q. destruct (u_disposed (b_subj b)); injection Q as <-; auto. }
      destruct C as [C1 C2]. rewrite (bi_n I) in Es, En.
      assert (W : awaited (at_subject h ++ [USub (length (b_lines b))]) -> awaited (at_subject h)) by (intros w; exact (proj1 (awaited_snoc _ U w))).
      constructor; cbn [b_subj b_lines b_task]; rewrite ?Es.
      * econstructor; [exact U|exact Q].
      * rewrite C1. apply (bi_task I).
      * rewrite subscribers_snoc, (bi_subs I), app_length. cbn. rewrite Nat.add_1_r, seq_S. reflexivity.
      * rewrite En, app_length. reflexivity.
      * intros d m q rest Hd. rewrite C1 in Hd. destruct (bi_fly I d Hd) as [F1 (w & i & y & F2 & F3)].
        split; [intros z Hz; rewrite app_length; apply F1 in Hz; lia|]. exists w, i, y. split; [|exact F3].
        rewrite nth_error_app1 by exact (nth_some_length _ _ F2). exact F2.
      * intros q w i Hw Ho. destruct (Nat.lt_ge_cases q (length (b_lines b))) as [L|L].
        -- rewrite nth_error_app1 in Hw by exact L. rewrite C1. exact (bi_own I q i Hw Ho).
        -- rewrite nth_error_app2 in Hw by exact L. destruct (q - length (b_lines b)) as [|m]; [|destruct m; discriminate].
           injection Hw as <-. destruct i; discriminate.
      * rewrite C2, app_length. intros c o n F. apply (bi_log I) in F. lia.
      * intros q w Hw. destruct (Nat.lt_ge_cases q (length (b_lines b))) as [L|L].
        -- rewrite nth_error_app1 in Hw by exact L. exact (fed_log s' C2 (fed_weaken W (bi_fed I)) q Hw).
        -- rewrite nth_error_app2 in Hw by exact L. destruct (q - length (b_lines b)) as [|m] eqn:Lq; [|destruct m; discriminate].
           injection Hw as <-. exists []. split; [constructor|]. split; [|intros _ h1 m h2 s1 F; destruct h1; discriminate].
           unfold received. rewrite C2. cbn. symmetry.
           assert (G : forall e, In e (u_log (b_subj b)) -> snd (fst e) =? q = false).
           { intros [[c z] m] F. apply Nat.eqb_neq. cbn. intros ->.
             pose proof (bi_log I _ _ _ F). lia. }
           clear - G. induction (u_log (b_subj b)) as [|e l IH]; [reflexivity|]. cbn. rewrite (G e (or_introl eq_refl)). apply IH. intros f Hf. apply G. now right.
    + (* BUnsub *)
      destruct (ustep (b_subj b) (UUnsub k)) as [s'|] eqn:Q; [|discriminate]. injection E as <-.
      assert (C : u_calls s' = u_calls (b_subj b) /\ u_log s' = u_log (b_subj b)).
      { cbn in Q. destruct (nth_error (u_subs (b_subj b)) k) as [[[o []]|]|]; try discriminate; injection Q as <-; auto. }
      destruct C as [C1 C2].
      assert (W : awaited (at_subject h ++ [UUnsub k]) -> awaited (at_subject h)) by (intros w; exact (proj1 (awaited_snoc _ U w))).
      constructor; cbn [b_subj b_lines b_task]; rewrite ?Es.
      * econstructor; [exact U|exact Q].
      * rewrite C1. apply (bi_task I).
      * rewrite subscribers_snoc, app_nil_r. apply (bi_subs I).
      * rewrite En, Nat.add_0_r. apply (bi_n I).
      * unfold flying_ok. rewrite C1. apply (bi_fly I).
      * unfold owned. rewrite C1. apply (bi_own I).
      * rewrite C2. apply (bi_log I).
      * exact (fed_log s' C2 (fed_weaken W (bi_fed I))).
    + (* BCall *)
      destruct (ustep (b_subj b) (UCall n)) as [s'|] eqn:Q; [|discriminate]. destruct (call_moved _ _ Q) as [Mv Lm].
      destruct (@tell_ok _ _ _ _ _ (b_lines b) (b_task b ++ [0]) (awaited (at_subject h ++ [UCall n])) Mv) as (b1 & T1 & T2 & T3 & T4 & T5 & T6 & T7).
      * rewrite app_length, (bi_task I), Lm. cbn. lia.
      * exact (obs_known I).
      * intros d Hd m o rest F. destruct (bi_fly I d F) as [F1 (w & i & y & F2 & F3 & F4)]. split; [exact F1|].
        exists w, i, y. split; [exact F2|]. split; [|exact F4]. rewrite nth_error_app1 by exact (nth_some_length _ _ F3). exact F3.
      * intros o v i Hv Ho. destruct (bi_own I o i Hv Ho) as (d & m & rest & D1 & D2 & _). exists d, m, rest. split; [exact D1|].
        split; [rewrite nth_error_app1 by exact (nth_some_length _ _ D2); exact D2|]. pose proof (nth_some_length _ _ D1). lia.
      * refine (fed_weaken _ (bi_fed I)). intros w. exact (proj1 (awaited_snoc _ U w)).
      * intros w o v Hv. apply line_idle. intros i Hi. destruct (bi_own I o i Hv Hi) as (d & m & rest & D1 & _).
        destruct (proj2 (awaited_snoc _ U w) d) as [r [X|X]]; congruence.
      * rewrite E in T1. injection T1 as <-. constructor; rewrite ?Es, ?T2.
        -- econstructor; [exact U|exact Q].
        -- rewrite T4, app_length, (bi_task I), Lm. cbn. lia.
        -- rewrite subscribers_snoc, app_nil_r, T3. apply (bi_subs I).
        -- rewrite En, Nat.add_0_r, T3. apply (bi_n I).
        -- rewrite <- T2. exact T5.
        -- rewrite <- T2. exact T6.
        -- rewrite T3. exact (moved_log Mv (obs_known I) (bi_log I)).
        -- rewrite <- T2. exact T7.
    + (* BGo *)
      destruct (pending b c) as [[[o i] [y|]]|] eqn:P; try discriminate. destruct (pending_inv _ _ P) as (n & rest & v & P1 & P2 & P3 & P4).
      rewrite P3 in E. destruct (lstep v (TGo i)) as [v'|] eqn:S; [|discriminate]. injection E as <-.
      rewrite app_nil_r in Es. destruct (@lstep_go _ _ _ _ S) as [x Hx].
      destruct (@line_moves _ (awaited (at_subject h)) (awaited (at_subject h)) (b_subj b) (b_lines b) (b_task b) o v v' _ P3 S) as (M1 & M2 & M3).
      * exact Logic.I.
      * auto.
      * intros j Hj. rewrite Hx in Hj. apply nth_upd in Hj. destruct Hj as [(<- & _)|[_ Hj]]; assumption.
      * rewrite Hx. apply upd_length.
      * apply (bi_fly I).
      * apply (bi_own I).
      * apply (bi_fed I).
      * constructor; cbn [b_subj b_lines b_task]; rewrite ?Es, ?upd_length; try assumption; [apply (bi_task I)|apply (bi_subs I)|rewrite En, Nat.add_0_r; apply (bi_n I)|apply (bi_log I)].
    + (* BRet *)
      destruct (pending b c) as [[[o i] [[y|]|]]|] eqn:P; try discriminate. destruct (pending_inv _ _ P) as (n & rest & v & P1 & P2 & P3 & P4).
      destruct (ustep (b_subj b) (URet c)) as [s'|] eqn:Q; [|discriminate]. destruct (ret_moved _ _ Q) as (n' & o' & rest' & K & Mv & Lm).
      rewrite P1 in K. injection K as <- <- <-.
      assert (Ow : owned (fun d => d <> c) (b_subj b) (b_lines b) (b_task b)).
      { intros q w j Hw Hj. destruct (bi_own I q j Hw Hj) as (d & m & r & D1 & D2 & _). exists d, m, r. split; [exact D1|]. split; [exact D2|].
        intros ->. rewrite P1 in D1. injection D1 as <- <- <-. rewrite P2 in D2. injection D2 as <-. rewrite P3 in Hw. injection Hw as <-. congruence. }
      destruct (@tell_ok _ _ _ _ _ (b_lines b) (b_task b) (awaited (at_subject h ++ [URet c])) Mv) as (b1 & T1 & T2 & T3 & T4 & T5 & T6 & T7).
      * rewrite (bi_task I), Lm. reflexivity.
      * intros x Hx. apply (proj1 (bi_fly I c P1)). now right.
      * intros d _. apply (bi_fly I).
      * exact Ow.
      * refine (fed_weaken _ (bi_fed I)). intros w. exact (proj1 (awaited_snoc _ U w)).
      * intros w q u Hu. apply line_idle. intros j Hj. destruct (Ow q u j Hu Hj) as (d & m & r & D1 & D2 & D3).
        apply D3. exact (one_flying _ _ U (proj1 (awaited_snoc _ U w)) D1 P1).
      * rewrite E in T1. injection T1 as <-. constructor; rewrite ?Es, ?T2.
        -- econstructor; [exact U|exact Q].
        -- rewrite T4, (bi_task I), Lm. reflexivity.
        -- rewrite subscribers_snoc, app_nil_r, T3. apply (bi_subs I).
        -- rewrite En, Nat.add_0_r, T3. apply (bi_n I).
        -- rewrite <- T2. exact T5.
        -- rewrite <- T2. exact T6.
        -- rewrite T3. refine (moved_log Mv _ (bi_log I)). intros x Hx. apply (proj1 (bi_fly I c P1)). now right.
        -- rewrite <- T2. exact T7.
    + (* BExn *)
      destruct (pending b c) as [[[o i] [[y|]|]]|] eqn:P; try discriminate. destruct (exn_eqb e y) eqn:Ee; [|discriminate].
      destruct (pending_inv _ _ P) as (n & rest & v & P1 & P2 & P3 & P4).
      destruct (ustep (b_subj b) (UExn c e)) as [s'|] eqn:Q; [|discriminate]. injection E as <-.
      cbn in Q. rewrite P1 in Q. injection Q as Q. pose proof (nth_some_length _ _ P1) as Lc.
      assert (C : forall d, d <> c -> nth_error (u_calls s') d = nth_error (u_calls (b_subj b)) d) by (intros d Hd; rewrite <- Q; cbn; apply nth_upd_ne; auto).
      assert (C' : nth_error (u_calls s') c = Some (Finished (Some e))) by (rewrite <- Q; cbn; apply nth_upd_eq, Lc).
      assert (Cl : u_log s' = u_log (b_subj b)) by (now rewrite <- Q).
      constructor; cbn [b_subj b_lines b_task]; rewrite ?Es.
      * econstructor; [exact U|]. cbn. rewrite P1. now rewrite Q.
      * rewrite <- Q. cbn. rewrite upd_length. apply (bi_task I).
      * rewrite subscribers_snoc, app_nil_r. apply (bi_subs I).
      * rewrite En, Nat.add_0_r. apply (bi_n I).
      * intros d m q r Hd. destruct (Nat.eq_dec d c) as [->|N]; [congruence|]. rewrite (C d N) in Hd. exact (bi_fly I d Hd).
      * intros q w j Hw Hj. destruct (bi_own I q j Hw Hj) as (d & m & r & D1 & D2 & _). exists d, m, r. rewrite C; [auto|].
        intros ->. rewrite P1 in D1. injection D1 as <- <- <-. rewrite P2 in D2. injection D2 as <-. rewrite P3 in Hw. injection Hw as <-. congruence.
      * rewrite Cl. apply (bi_log I).
      * refine (fed_log s' Cl (fed_weaken _ (bi_fed I))). intros w. exact (proj1 (awaited_snoc _ U w)).
    + (* BWork *)
      destruct (nth_error (b_lines b) o) as [v|] eqn:P3; [|discriminate]. destruct (lstep v (TWork k)) as [v'|] eqn:S; [|discriminate]. injection E as <-.
      rewrite app_nil_r in Es. pose proof (@lstep_work _ _ _ _ S) as Hx.
      destruct (@line_moves _ (awaited (at_subject h)) (awaited (at_subject h)) (b_subj b) (b_lines b) (b_task b) o v v' _ P3 S) as (M1 & M2 & M3).
      * exact Logic.I.
      * auto.
      * rewrite Hx. auto.
      * now rewrite Hx.
      * apply (bi_fly I).
      * apply (bi_own I).
      * apply (bi_fed I).
      * constructor; cbn [b_subj b_lines b_task]; rewrite ?Es, ?upd_length; try assumption; [apply (bi_task I)|apply (bi_subs I)|rewrite En, Nat.add_0_r; apply (bi_n I)|apply (bi_log I)].
    + (* BDispose *)
      destruct (ustep (b_subj b) UDispose) as [s'|] eqn:Q; [|discriminate]. injection E as <-.
      assert (C : u_calls s' = u_calls (b_subj b) /\ u_log s' = u_log (b_subj b)) by (cbn in Q; injection Q as <-; auto).
      destruct C as [C1 C2].
      assert (W : awaited (at_subject h ++ [UDispose]) -> awaited (at_subject h)) by (intros w; exact (proj1 (awaited_snoc _ U w))).
      constructor; cbn [b_subj b_lines b_task]; rewrite ?Es.
      * econstructor; [exact U|exact Q].
      * rewrite C1. apply (bi_task I).
      * rewrite subscribers_snoc, app_nil_r. apply (bi_subs I).
      * rewrite En, Nat.add_0_r. apply (bi_n I).
      * unfold flying_ok. rewrite C1. apply (bi_fly I).
      * unfold owned. rewrite C1. apply (bi_own I).
      * rewrite C2. apply (bi_log I).
      * exact (fed_log s' C2 (fed_weaken W (bi_fed I))).
Qed.

(** ** What a subscriber sees *)
Lemma line_overlapping A (v : line A) h : lreach v h -> overlapping (l_pol v) (l_pipe v) h (lines_log v).
Proof.
  destruct v as [Z pol p x]. unfold lreach, lines_log. cbn. destruct p; intros H; exists x; split; try exact H; reflexivity.
Qed.

Lemma line_overlapping_done A (v : line A) h : lreach v h -> settled_line v -> overlapping_done (l_pol v) (l_pipe v) h (lines_log v).
Proof.
  destruct v as [Z pol p x]. unfold lreach, lines_log, settled_line. cbn.
  destruct p; intros H [H1 H2]; exists x; split; try exact H; split; try exact H1; split; try exact H2; reflexivity.
Qed.

Lemma front_sees Z A (pol : policy Z) (p : pipe Z A) ms l : sees (ssys pol (front_op p) (front_rest p)) ms l -> sees (psys pol p) ms l.
Proof.
  intros (s & R & E). destruct p.
  1: apply (run_id (c := pcomp pol PEnd)) in R; exists (snd (snd s)); split; [exact R|exact E].
  1: apply (run_id (c := pcomp pol (PSafe o p))) in R; exists (snd (snd s)); split; [exact R|exact E].
  1: apply (run_id (c := pcomp pol (PMbox o p))) in R; exists (snd (snd s)); split; [exact R|exact E].
  exists s. split; [exact R|exact E].
Qed.

Lemma front_finally Z A (pol : policy Z) (p : pipe Z A) ms l :
  (exists s, run (sync_comp (front_op p) (act_comp (pcomp pol (front_rest p)))) (ini (front_op p), (0, pinit pol (front_rest p))) ms s /\
     quiet (pcomp pol (front_rest p)) (snd (snd s)) /\ plog pol (front_rest p) (snd (snd s)) = l) -> finally (psys pol p) ms l.
Proof.
  intros (s & R & Q & E). destruct p.
  1: apply (run_id (c := pcomp pol PEnd)) in R; exists (snd (snd s)); split; [exact R|split; [exact Q|exact E]].
  1: apply (run_id (c := pcomp pol (PSafe o p))) in R; exists (snd (snd s)); split; [exact R|split; [exact Q|exact E]].
  1: apply (run_id (c := pcomp pol (PMbox o p))) in R; exists (snd (snd s)); split; [exact R|split; [exact Q|exact E]].
  destruct s as [v [n d]]. exists (v, (n, d)). split; [exact R|]. split; [apply quiet_sync; exact Q|exact E].
Qed.

Lemma line_apart A (v : line A) h : lreach v h -> lapart v h ->
  (exists l, sees (psys (l_pol v) (l_pipe v)) (issued h) l /\ prefix (lines_log v) l) /\
  (idle (l_st v) = true -> sees (psys (l_pol v) (l_pipe v)) (issued h) (lines_log v)) /\
  (settled_line v -> finally (psys (l_pol v) (l_pipe v)) (issued h) (lines_log v)).
Proof.
  intros H H1. split; [|split].
  - destruct (apart_prefix H H1) as (l & S & P). exists l. split; [exact (front_sees _ S)|exact P].
  - intros Hi. apply front_sees. exists (t_vars (l_st v), t_next (l_st v)). split; [exact (apart_run H H1 Hi)|reflexivity].
  - intros [Hi Q]. apply front_finally. exists (t_vars (l_st v), t_next (l_st v)). split; [exact (apart_run H H1 Hi)|]. split; [exact Q|reflexivity].
Qed.

Lemma all_idle A (h : list (blabel A)) b o v : breach h b -> u_idle (b_subj b) -> nth_error (b_lines b) o = Some v -> idle (l_st v) = true.
Proof.
  intros H Hi Hv. apply line_idle. intros i E. destruct (bi_own (bi H) o i Hv E) as (d & n & rest & D & _).
  destruct (Hi d) as [r [X|X]]; congruence.
Qed.

Lemma hot_sees A (h : list (blabel A)) b o v : breach h b -> awaited (at_subject h) -> nth_error (b_lines b) o = Some v ->
  (u_idle (b_subj b) -> sees (psys (l_pol v) (l_pipe v)) (heard o (at_subject h)) (lines_log v)) /\
  (u_idle (b_subj b) -> quiet (pcomp (l_pol v) (front_rest (l_pipe v))) (snd (t_next (l_st v))) ->
     finally (psys (l_pol v) (l_pipe v)) (heard o (at_subject h)) (lines_log v)) /\
  exists ms later l, heard o (at_subject h) = ms ++ later /\ sees (psys (l_pol v) (l_pipe v)) ms l /\ prefix (lines_log v) l.
Proof.
  intros H W Hv. pose proof (bi H) as I. destruct (bi_fed I o Hv) as (ho & R & E & Ap).
  destruct (line_apart R (Ap W)) as (P1 & P2 & P3). split; [|split].
  - intros Hi. rewrite <- (await_idle o (bi_u I) W Hi), <- E. apply P2, (all_idle o H Hi Hv).
  - intros Hi Q. rewrite <- (await_idle o (bi_u I) W Hi), <- E. apply P3. split; [exact (all_idle o H Hi Hv)|exact Q].
  - destruct (await_prefix o (bi_u I) W) as [later L]. destruct P1 as (l & S & P). exists (received o (b_subj b)), later, l.
    rewrite <- E. rewrite <- E in L. auto.
Qed.

Lemma hot_delivers A (h : list (blabel A)) b o v out : breach h b -> awaited (at_subject h) -> nth_error (b_lines b) o = Some v ->
  delivers (psys (l_pol v) (l_pipe v)) (heard o (at_subject h)) out ->
  prefix (lines_log v) out /\
  (u_idle (b_subj b) -> quiet (pcomp (l_pol v) (front_rest (l_pipe v))) (snd (t_next (l_st v))) -> lines_log v = out).
Proof.
  intros H W Hv (F & D & P). destruct (hot_sees o H W Hv) as (_ & H2 & ms & later & l & E & S & Pl). split.
  - rewrite E in F. destruct Pl as [x ->]. destruct (@sees_prefix _ _ _ (sane_psys (l_pol v) (l_pipe v)) _ _ _ _ S F) as [y ->].
    exists (x ++ y). now rewrite app_assoc.
  - intros Hi Q. apply D, H2; assumption.
Qed.

Lemma hot_no_await A (h : list (blabel A)) b o v : breach h b -> nth_error (b_lines b) o = Some v -> no_await (l_pipe v) ->
  sees (psys (l_pol v) (l_pipe v)) (received o (b_subj b)) (lines_log v) /\
  (settled_line v -> finally (psys (l_pol v) (l_pipe v)) (received o (b_subj b)) (lines_log v)).
Proof.
  intros H Hv N. destruct (bi_fed (bi H) o Hv) as (ho & R & E & _). rewrite <- E. split.
  - apply prompt_sees; [exact (no_await_prompt N)|exact (line_overlapping R)].
  - intros S. apply prompt_finally; [exact (no_await_prompt N)|exact (line_overlapping_done R S)].
Qed.

(** ** Nothing is stuck *)
Lemma hot_progress A (h : list (blabel A)) b c n o rest : breach h b -> nth_error (u_calls (b_subj b)) c = Some (Flying n o rest) ->
  exists x b', bstep b x = Some b' /\ (x = BGo c \/ x = BRet c \/ exists e, x = BExn c e).
Proof.
  intros H Hc. pose proof (bi H) as I. destruct (bi_fly I c Hc) as [F1 (v & i & y & F2 & F3 & F4)].
  assert (P : pending b c = Some (o, i, y)). { unfold pending. rewrite Hc, F3, F2, F4. reflexivity. }
  destruct y as [[e|]|].
  - exists (BExn c e). cbn [bstep]. rewrite P, exn_eqb_refl. cbn [ustep]. rewrite Hc. eauto 6.
  - exists (BRet c). cbn [bstep]. rewrite P. destruct (ustep (b_subj b) (URet c)) as [s'|] eqn:Q; [|cbn in Q; rewrite Hc in Q; destruct rest; discriminate].
    unfold tell. destruct (ret_moved _ _ Q) as (n' & o' & rest' & K & (_ & _ & [[[r Hr] _]|(m & p & q & Hr & _ & Hi)]) & _).
    + rewrite Hr. eauto 6.
    + rewrite Hr. rewrite Hc in K. injection K as <- <- <-.
      assert (L : p < length (b_lines b)) by (apply F1; right; apply Hi; now left).
      destruct (nth_error (b_lines b) p) as [w|] eqn:Ew; [|apply nth_error_None in Ew; lia].
      destruct (lstep_call w m) as (w' & x & -> & _). eauto 6.
  - exists (BGo c). cbn [bstep]. rewrite P, F2. destruct (lstep_go_ok _ _ F4) as [v' ->]. eauto 6.
Qed.

(** ** Pipelines that do not raise into the sender *)
Inductive smooth {S N} : prog S N -> Prop :=
| sm_ret : smooth Ret
| sm_read k : (forall s, smooth (k s)) -> smooth (Read k)
| sm_write s k : smooth k -> smooth (Write s k)
| sm_call n k : smooth (k None) -> smooth (Call n k).

Lemma smooth_bind S N (p : prog S N) K : smooth p -> smooth (K None) -> smooth (bindp p K).
Proof. intros H HK. induction H; cbn; [exact HK|constructor; auto..]. Qed.

Lemma smooth_lift S1 S2 N (p : prog S2 N) : smooth p -> smooth (lift2 (S1 := S1) p).
Proof. induction 1; cbn; [constructor|constructor; auto|constructor; intros; constructor; auto|constructor; auto]. Qed.

Lemma smooth_inline S1 S2 N P (f : N -> prog S2 P) (p : prog S1 N) : smooth p -> (forall n, smooth (f n)) -> smooth (inlinep f p).
Proof.
  intros H Hf. induction H; cbn; [constructor|constructor; auto|constructor; intros; constructor; auto|].
  apply smooth_bind; [apply smooth_lift, Hf|exact IHsmooth].
Qed.

Lemma smooth_await S N (n : N) : smooth (awaitp (S := S) n).
Proof. constructor. constructor. Qed.

Definition accepts {Z B} (pol : policy Z) (r : pipe Z B) : Prop := forall d a, snd (ccall (act_comp (pcomp pol r)) d a) = None.
Definition smooth_line {Z A} (pol : policy Z) (p : pipe Z A) : Prop :=
  (forall m, smooth (body (front_op p) m)) /\ accepts pol (front_rest p).

Lemma smooth_turn S N D w (call : D -> N -> D * option exn) (p : prog S N) : smooth p -> (forall d n, snd (call d n) = None) ->
  forall s d, smooth (snd (turn w call p s d)).
Proof.
  intros H Hc. induction H as [|k H IH|s0 k H IH|n k H IH]; intros s d; cbn [turn].
  - constructor.
  - apply IH.
  - apply IH.
  - specialize (Hc d n). destruct (call d n) as [d' r]. cbn in Hc. subst r. destruct (w n); [|apply IH].
    cbn. constructor. intros _. exact H.
Qed.

Lemma smooth_outcome S N (p : prog S N) e : smooth p -> outcome p <> Some (Some e).
Proof. destruct 1; discriminate. Qed.

Definition smooth_calls {A} (v : line A) : Prop := forall p, In p (t_calls (l_st v)) -> smooth p.

Lemma smooth_lstep A (v v' : line A) x : smooth_line (l_pol v) (l_pipe v) -> smooth_calls v -> lstep v x = Some v' ->
  smooth_line (l_pol v') (l_pipe v') /\ smooth_calls v'.
Proof.
  unfold lstep, smooth_calls. intros [H1 H2] HC E. destruct (tstep (l_st v) x) as [s|] eqn:T; [|discriminate]. injection E as <-. cbn.
  split; [split; assumption|]. destruct x as [m|i|k]; cbn [tstep] in T.
  - pose proof (@smooth_turn _ _ _ (waits (front_rest (l_pipe v))) _ _ (H1 m) H2 (t_vars (l_st v)) (t_next (l_st v))) as G.
    destruct (turn _ _ _ _ _) as [[w d] q]. injection T as <-. cbn in *. intros p Hp. apply in_app_or in Hp.
    destruct Hp as [Hp|[<-|[]]]; [exact (HC p Hp)|exact G].
  - destruct (nth_error (t_calls (l_st v)) i) as [p|] eqn:Np; [|discriminate]. destruct (over p); [discriminate|].
    pose proof (@smooth_turn _ _ _ (waits (front_rest (l_pipe v))) _ _ (HC p (nth_error_In _ _ Np)) H2 (t_vars (l_st v)) (t_next (l_st v))) as G.
    destruct (turn _ _ _ _ _) as [[w d] q]. injection T as <-. cbn in *. intros p' Hp.
    apply In_nth_error in Hp. destruct Hp as [j Hj]. destruct (Nat.eq_dec i j) as [<-|N].
    + rewrite (replace_same _ _ _ Np) in Hj. now injection Hj as <-.
    + rewrite replace_other in Hj by exact N. exact (HC _ (nth_error_In _ _ Hj)).
  - destruct (cstep _ _ _) as [d|]; [|discriminate]. injection T as <-. exact HC.
Qed.

Definition all_smooth {A} (ls : list (line A)) : Prop := forall v, In v ls -> smooth_line (l_pol v) (l_pipe v) /\ smooth_calls v.

Lemma all_smooth_upd A (ls : list (line A)) o v v' x : all_smooth ls -> nth_error ls o = Some v -> lstep v x = Some v' -> all_smooth (upd o v' ls).
Proof.
  intros H Hv E w Hw. apply In_nth_error in Hw. destruct Hw as [j Hj]. apply nth_upd in Hj.
  destruct Hj as [(_ & -> & _)|[_ Hj]]; [|exact (H w (nth_error_In _ _ Hj))].
  destruct (H v (nth_error_In _ _ Hv)) as [S1 S2]. exact (smooth_lstep _ S1 S2 E).
Qed.

Lemma all_smooth_tell A c (s : ustate A) ls ts b : all_smooth ls -> tell c s ls ts = Some b -> all_smooth (b_lines b).
Proof.
  unfold tell. intros H E. destruct (nth_error (u_calls s) c) as [[n o r|r]|]; try (injection E as <-; exact H).
  destruct (nth_error ls o) as [v|] eqn:V; [|discriminate]. destruct (lstep v (TCall n)) as [v'|] eqn:L; [|discriminate].
  injection E as <-. cbn. exact (all_smooth_upd _ _ H V L).
Qed.

Lemma courteous_inv A (h : list (blabel A)) b : breach h b -> each_pipeline (fun Z pol p => smooth_line pol p) h ->
  all_smooth (b_lines b) /\ forall c e, ~ In (BExn c e) h.
Proof.
  induction 1 as [|h x b b' Hr IH E]; intros HP.
  - split; [intros v []|intros c e []].
  - destruct IH as [I1 I2]; [intros y Hy; apply HP, in_app_iff; now left|].
    assert (K : all_smooth (b_lines b') /\ (match x with BExn _ _ => False | _ => True end)).
    { destruct x as [Z pol p|k|n|c|c|c e|o k|]; unfold bstep in E.
      - destruct (ustep _ _); [|discriminate]. injection E as <-. split; [|exact I]. cbn. intros v Hv. apply in_app_or in Hv.
        destruct Hv as [Hv|[<-|[]]]; [exact (I1 v Hv)|]. cbn. split; [apply (HP (BSub pol p)), in_app_iff; right; now left|intros q []].
      - destruct (ustep _ _); [|discriminate]. injection E as <-. auto.
      - destruct (ustep _ _); [|discriminate]. split; [exact (all_smooth_tell _ _ _ I1 E)|exact I].
      - destruct (pending b c) as [[[o i] [y|]]|]; try discriminate. destruct (nth_error (b_lines b) o) as [v|] eqn:V; [|discriminate].
        destruct (lstep v (TGo i)) as [v'|] eqn:L; [|discriminate]. injection E as <-. split; [exact (all_smooth_upd _ _ I1 V L)|exact I].
      - destruct (pending b c) as [[[o i] [[y|]|]]|]; try discriminate. destruct (ustep _ _); [|discriminate].
        split; [exact (all_smooth_tell _ _ _ I1 E)|exact I].
      - exfalso. destruct (pending b c) as [[[o i] [[y|]|]]|] eqn:P; try discriminate.
        destruct (pending_inv _ _ P) as (n & rest & v & _ & _ & P3 & P4). unfold outcomes in P4. rewrite nth_error_map in P4.
        destruct (nth_error (t_calls (l_st v)) i) as [q|] eqn:Q; [|discriminate]. cbn in P4. injection P4 as P4.
        apply (smooth_outcome (e := y) (proj2 (I1 v (nth_error_In _ _ P3)) q (nth_error_In _ _ Q))). exact P4.
      - destruct (nth_error (b_lines b) o) as [v|] eqn:V; [|discriminate].
        destruct (lstep v (TWork k)) as [v'|] eqn:L; [|discriminate]. injection E as <-. split; [exact (all_smooth_upd _ _ I1 V L)|exact I].
      - destruct (ustep _ _); [|discriminate]. injection E as <-. auto. }
    destruct K as [K1 K2]. split; [exact K1|]. intros c e F. apply in_app_or in F. destruct F as [F|[F|[]]]; [exact (I2 c e F)|]. now subst x.
Qed.

Lemma smooth_pre Z A B (pol : policy Z) (o : op (notif A) (act B)) (r : pipe Z B) :
  (forall m, smooth (body o m)) -> smooth_line pol r -> smooth_line pol (pre o r).
Proof.
  intros Ho [H1 H2]. destruct r; try (split; [exact Ho|exact H2]).
  split; [|exact H2]. intros m. cbn. apply smooth_inline; [apply Ho|]. intros [n| |]; [apply H1|apply smooth_await|apply smooth_await].
Qed.

Lemma smooth_id A m : smooth (body (@id_op A) m).
Proof. apply smooth_await. Qed.

Lemma smooth_safe Z A (pol : policy Z) (r : pipe Z A) : smooth_line pol (safe r).
Proof.
  destruct r; (split; [intros m; apply smooth_await|intros d [n| |]; reflexivity]).
Qed.

Ltac smooth_ := repeat first [apply sm_ret | apply smooth_await | apply sm_read; intros | apply sm_write | apply sm_call; cbn
  | apply smooth_bind | match goal with |- smooth (if ?x then _ else _) => destruct x | |- smooth (match ?x with _ => _ end) => destruct x end].

Lemma smooth_forp S N X (xs : list X) (f : X -> prog S N) : (forall x, smooth (f x)) -> smooth (forp xs f).
Proof. intros H. induction xs as [|x xs IH]; [constructor|]. cbn. apply smooth_bind; [apply H|exact IH]. Qed.

Lemma courteous_smooth Z A (pol : policy Z) (p : pipe Z A) : courteous pol p -> smooth_line pol p.
Proof.
  induction 1.
  - split; [intros m; apply smooth_await|]. intros [n l] [m| |]; cbn; try reflexivity. now rewrite H.
  - apply smooth_safe.
  - apply smooth_pre; [|exact IHcourteous]. intros [x|e|]; cbn; smooth_.
  - apply smooth_pre; [|exact IHcourteous]. intros [x|e|]; cbn; smooth_.
  - apply smooth_pre; [|exact IHcourteous]. intros [x|e|]; cbn; smooth_.
  - apply smooth_pre; [|exact IHcourteous]. intros [x|e|]; cbn; smooth_.
  - apply smooth_pre; [|exact IHcourteous]. intros [x|e|]; cbn; smooth_.
  - apply smooth_pre; [|exact IHcourteous]. intros [x|e|]; cbn; smooth_.
  - apply smooth_pre; [|exact IHcourteous]. intros [x|e|]; cbn; smooth_.
  - apply smooth_pre; [|exact IHcourteous]. intros [x|e|]; cbn; smooth_.
  - apply smooth_pre; [|apply smooth_safe]. intros [x|e|]; cbn; smooth_.
  - apply smooth_pre; [|apply smooth_safe]. intros [x|e|]; cbn; smooth_.
  - unfold take_ in H. destruct (n <? 0)%Z; [discriminate|]. injection H as <-.
    apply smooth_pre; [|apply smooth_safe]. intros [x|e|]; cbn; smooth_.
  - apply smooth_pre; [|apply smooth_safe]. intros [x|e|]; cbn; smooth_. apply smooth_forp. intros y. smooth_.
  - split; [intros m; apply smooth_await|intros d [n| |]; reflexivity].
  - apply smooth_pre; [|apply smooth_safe]. intros [x|e|]; cbn; [|smooth_..].
    apply sm_read. intros i. apply sm_write. unfold tryp. destruct (it i); cbn; smooth_.
Qed.

Lemma courteous_ok A (h : list (blabel A)) b : breach h b -> each_pipeline (fun Z pol p => courteous pol p) h ->
  forall c e, ~ In (BExn c e) h.
Proof. intros H P. apply (courteous_inv H). intros x Hx. specialize (P x Hx). destruct x; try exact I. exact (courteous_smooth P). Qed.

(** ** Running histories *)
Fixpoint brun {A} (b : hub A) (h : list (blabel A)) : option (hub A) :=
  match h with
  | [] => Some b
  | x :: h' => match bstep b x with Some b' => brun b' h' | None => None end
  end.

Lemma brun_reach A (h : list (blabel A)) : forall h0 b b', breach h0 b -> brun b h = Some b' -> breach (h0 ++ h) b'.
Proof.
  induction h as [|x h IH]; intros h0 b b' H E; cbn in E.
  - injection E as <-. now rewrite app_nil_r.
  - destruct (bstep b x) as [b1|] eqn:S; [|discriminate].
    replace (h0 ++ x :: h) with ((h0 ++ [x]) ++ h) by (rewrite <- app_assoc; reflexivity).
    eapply IH; [|exact E]. econstructor; eassumption.
Qed.

Lemma brun_init A (h : list (blabel A)) b : brun b_init h = Some b -> breach h b.
Proof. exact (brun_reach h br_nil). Qed.

(** ** Awaited calls *)
Lemma app_snoc_cases X (h1 h2 h : list X) y x : h1 ++ y :: h2 = h ++ [x] ->
  (h2 = [] /\ h1 = h /\ y = x) \/ exists h2', h2 = h2' ++ [x] /\ h = h1 ++ y :: h2'.
Proof.
  intros E. destruct h2 as [|z h2] using rev_ind; [left; apply app_inj_tail in E as [-> ->]; auto|right].
  change (h1 ++ y :: h2 ++ [z]) with (h1 ++ (y :: h2) ++ [z]) in E. rewrite app_assoc in E. apply app_inj_tail in E as [<- <-]. eauto.
Qed.

Lemma ureach_fun A (h : list (ulabel A)) : forall s s', ureach h s -> ureach h s' -> s = s'.
Proof.
  induction h as [|x h IH] using rev_ind; intros s s' H H'.
  - assert (G : forall g (t : ustate A), ureach g t -> g = [] -> t = u_init) by (intros g t F; destruct F as [|g y t t' F Q]; [reflexivity|destruct g; discriminate]).
    rewrite (G _ _ H eq_refl), (G _ _ H' eq_refl). reflexivity.
  - destruct (ureach_snoc _ _ H) as (s1 & H1 & E1). destruct (ureach_snoc _ _ H') as (s2 & H2 & E2). rewrite (IH _ _ H1 H2) in E1. congruence.
Qed.

Lemma breach_fun A (h : list (blabel A)) : forall s s', breach h s -> breach h s' -> s = s'.
Proof.
  induction h as [|x h IH] using rev_ind; intros s s' H H'.
  - assert (G : forall g (t : hub A), breach g t -> g = [] -> t = b_init) by (intros g t F; destruct F as [|g y t t' F Q]; [reflexivity|destruct g; discriminate]).
    rewrite (G _ _ H eq_refl), (G _ _ H' eq_refl). reflexivity.
  - destruct (breach_snoc _ _ H) as (s1 & H1 & E1). destruct (breach_snoc _ _ H') as (s2 & H2 & E2). rewrite (IH _ _ H1 H2) in E1. congruence.
Qed.

Lemma awaited_ext A (h : list (ulabel A)) s x : ureach h s -> awaited h ->
  match x with UCall _ => u_idle s | UExn _ _ => False | _ => True end -> awaited (h ++ [x]).
Proof.
  intros Hr [H1 H2] Hx. split.
  - intros c e F. apply in_app_or in F. destruct F as [F|[->|[]]]; [exact (H1 c e F)|exact Hx].
  - intros h1 y h2 s1 E Hs. symmetry in E. destruct (@app_snoc_cases _ _ _ _ _ _ E) as [(-> & -> & ->)|(h2' & -> & ->)].
    + rewrite (ureach_fun Hs Hr). destruct x; auto.
    + exact (H2 h1 y h2' s1 eq_refl Hs).
Qed.

Lemma in_turn_awaited A (h : list (blabel A)) b : breach h b -> in_turn h -> (forall c e, ~ In (BExn c e) h) -> awaited (at_subject h).
Proof.
  induction 1 as [|h x b b' Hr IH E]; intros HT HX.
  - split; [intros c e []|]. intros h1 y h2 s1 F. cbn in F. destruct h1; discriminate.
  - assert (W : awaited (at_subject h)).
    { apply IH.
      - intros h1 n h2 b1 -> H1. refine (HT h1 n (h2 ++ [x]) b1 _ H1). now rewrite <- app_assoc.
      - intros c e F. apply (HX c e), in_app_iff. now left. }
    rewrite at_subject_snoc. pose proof (bi_u (bi Hr)) as U. destruct x; cbn [at_one]; try (rewrite app_nil_r; exact W); apply (awaited_ext _ U W); try exact I.
    + exact (HT h n [] b eq_refl Hr).
    + apply (HX c e), in_app_iff. right. now left.
Qed.

(** ** What is heard obeys the grammar *)
Lemma trace_next A (vs : list A) n : (exists v, n = OnNext v) \/ is_term n = true -> exists ws e, map OnNext vs ++ [n] = trace ws e.
Proof.
  intros [[v ->]|H].
  - exists (vs ++ [v]), Open. unfold trace. rewrite map_app, app_nil_r. reflexivity.
  - destruct n as [v|x|]; [discriminate| |]; [exists vs, (Failed x)|exists vs, Completed]; reflexivity.
Qed.

Lemma heard_grammar A o (h : list (ulabel A)) s : ureach h s -> NoDup (subscribers h) ->
  (u_off h || u_ended h = false -> exists vs, heard o h = map OnNext vs) /\ exists vs e, heard o h = trace vs e.
Proof.
  induction 1 as [|h x s s' Hr IH E]; intros HN.
  - split; [exists []; reflexivity|exists [], Open; reflexivity].
  - assert (HN' : NoDup (subscribers h)) by (unfold subscribers in HN |- *; rewrite flat_map_app in HN; exact (nodup_app_l _ _ HN)).
    destruct (IH HN') as [I1 (vs & e & I2)]. rewrite heard_snoc, u_off_snoc, u_ended_snoc.
    assert (Mono : u_off h || u_ended h = true -> u_off h || match x with UDispose => true | _ => false end ||
       (u_ended h || (negb (u_off h) && match x with UCall n => is_term n | _ => false end)) = true).
    { intros F. apply orb_true_iff in F as [->| ->]; cbn; rewrite ?orb_true_r; reflexivity. }
    destruct (u_off h || u_ended h) eqn:O.
    + rewrite (Mono eq_refl). split; [discriminate|]. exists vs, e. rewrite <- I2. destruct x; apply app_nil_r.
    + destruct (I1 eq_refl) as [ws Hw]. apply orb_false_iff in O as [O1 O2]. rewrite O1, O2. cbn [orb negb andb].
      destruct x as [n|c|c e'|q|k|]; cbn [orb]; rewrite ?app_nil_r; try (split; [intros _; eauto|exists vs, e; exact I2]).
      assert (C : count_occ Nat.eq_dec (members h) o <= 1).
      { rewrite <- (members_eq Hr HN'). apply NoDup_count_occ. apply (members_exact Hr HN'). }
      destruct (count_occ Nat.eq_dec (members h) o) as [|[|k]]; [| |lia]; cbn [repeat]; rewrite Hw.
      * rewrite app_nil_r. split; [intros _; eauto|]. exists vs, e. congruence.
      * split; [|apply trace_next; destruct n; [left; eauto|right; reflexivity..]].
        intros F. destruct n as [v| |]; try discriminate. exists (ws ++ [v]). now rewrite map_app.
Qed.

Lemma hot_grammar A (h : list (blabel A)) b o : breach h b -> exists vs e, heard o (at_subject h) = trace vs e.
Proof.
  intros H. apply (heard_grammar o (bi_u (bi H))). rewrite (bi_subs (bi H)). apply seq_NoDup.
Qed.

(** ** Pipelines that begin with a mailbox *)
Inductive swift {S N} (w : N -> bool) : prog S N -> Prop :=
| sw_over p : over p = true -> swift w p
| sw_read k : (forall s, swift w (k s)) -> swift w (Read k)
| sw_write s k : swift w k -> swift w (Write s k)
| sw_call n k : w n = false -> (forall x, swift w (k x)) -> swift w (Call n k).

Lemma swift_turn S N D w (call : D -> N -> D * option exn) (p : prog S N) : swift w p -> forall s d, over (snd (turn w call p s d)) = true.
Proof.
  induction 1 as [p Hp|k H IH|s0 k H IH|n k Hw H IH]; intros s d; cbn [turn].
  - destruct p; try discriminate; reflexivity.
  - apply IH.
  - apply IH.
  - destruct (call d n) as [d' r]. rewrite Hw. apply IH.
Qed.

Lemma swift_weaken S N (w w' : N -> bool) (p : prog S N) : (forall n, w n = false -> w' n = false) -> swift w p -> swift w' p.
Proof. intros H. induction 1; [now apply sw_over|now apply sw_read|now apply sw_write|apply sw_call; auto]. Qed.

Lemma swift_bind S N w (p : prog S N) K : swift w p -> (forall x, swift w (K x)) -> swift w (bindp p K).
Proof.
  intros H HK. induction H as [p Hp|k H IH|s0 k H IH|n k Hw H IH]; cbn [bindp].
  - destruct p; try discriminate; apply HK.
  - now apply sw_read.
  - now apply sw_write.
  - now apply sw_call.
Qed.

Lemma swift_lift2 S1 S2 N w (p : prog S2 N) : swift w p -> swift w (lift2 (S1 := S1) p).
Proof.
  induction 1 as [p Hp|k H IH|s0 k H IH|n k Hw H IH]; cbn [lift2].
  - apply sw_over. destruct p; try discriminate; reflexivity.
  - apply sw_read. intros s. apply IH.
  - apply sw_read. intros s. apply sw_write, IH.
  - now apply sw_call.
Qed.

Lemma swift_inlinep S1 S2 N P w w' (f : N -> prog S2 P) (p : prog S1 N) :
  (forall n, w n = false -> swift w' (f n)) -> swift w p -> swift w' (inlinep f p).
Proof.
  intros Hf. induction 1 as [p Hp|k H IH|s0 k H IH|n k Hw H IH]; cbn [inlinep].
  - apply sw_over. now apply inline_over.
  - apply sw_read. intros s. apply IH.
  - apply sw_read. intros s. apply sw_write, IH.
  - apply swift_bind; [apply swift_lift2, Hf, Hw|exact IH].
Qed.

Definition swift_line {Z A} (p : pipe Z A) : Prop := forall m, swift (waits (front_rest p)) (body (front_op p) m).

Lemma swift_pre Z A B (o : op (notif A) (act B)) (r : pipe Z B) : (forall m, swift posts (body o m)) -> swift_line r -> swift_line (pre o r).
Proof.
  intros Ho Hr. revert o Ho. destruct r as [|B0 C o2 r2|B0 C o2 r2|B0 C o2 r2]; intros o Ho m.
  - exfalso. specialize (Hr OnCompleted). unfold front_rest, front_op in Hr. cbn in Hr. inversion Hr; discriminate.
  - eapply swift_weaken; [|apply Ho]. now intros [| |].
  - eapply swift_weaken; [|apply Ho]. now intros [| |].
  - cbn. eapply swift_inlinep; [|apply Ho]. intros [n| |]; [intros _; apply (Hr n)|discriminate..].
Qed.

Lemma swift_safe Z A (r : pipe Z A) : swift_line (safe r).
Proof. destruct r; intros m; apply sw_call; try reflexivity; intros [e|]; now apply sw_over. Qed.

Lemma swift_await S B (n : notif B) : swift (posts (B := B)) (awaitp (S := S) (Deliver n)).
Proof. apply sw_call; [reflexivity|]. intros [e|]; now apply sw_over. Qed.

Ltac swift_ := repeat first [apply swift_await | apply sw_read; intros | apply sw_write | apply swift_bind; intros
  | apply sw_over; reflexivity | apply sw_call; [reflexivity|intros [?|]; cbn]
  | match goal with |- swift _ (if ?x then _ else _) => destruct x | |- swift _ (match ?x with _ => _ end) => destruct x end].

Lemma swift_forp S N w X (xs : list X) (f : X -> prog S N) : (forall x, swift w (f x)) -> swift w (forp xs f).
Proof. intros H. induction xs as [|x xs IH]; [now apply sw_over|]. cbn. apply swift_bind; [apply H|]. intros [e|]; [now apply sw_over|exact IH]. Qed.

Lemma posting_swift Z A (p : pipe Z A) : posting p -> swift_line p.
Proof.
  induction 1.
  - apply swift_safe.
  - apply swift_pre; [|assumption]. intros [x|e|]; cbn; swift_.
  - apply swift_pre; [|assumption]. intros [x|e|]; cbn; swift_.
  - apply swift_pre; [|assumption]. intros [x|e|]; cbn; swift_.
  - apply swift_pre; [|assumption]. intros [x|e|]; cbn; swift_.
  - apply swift_pre; [|apply swift_safe]. intros [x|e|]; cbn; swift_.
  - apply swift_pre; [|apply swift_safe]. intros [x|e|]; cbn; swift_.
  - unfold take_ in H. destruct (n <? 0)%Z; [discriminate|]. injection H as <-.
    apply swift_pre; [|apply swift_safe]. intros [x|e|]; cbn; swift_.
  - apply swift_pre; [|apply swift_safe]. intros [x|e|]; cbn; swift_. apply swift_forp. intros y. swift_.
  - intros m. apply sw_call; [reflexivity|]. intros [e|]; now apply sw_over.
  - apply swift_pre; [|apply swift_safe]. intros [x|e|]; cbn; [|swift_..].
    apply sw_read. intros i. apply sw_write. unfold tryp. destruct (it i); cbn; swift_.
Qed.

Definition swift_calls {A} (v : line A) : Prop := swift_line (l_pipe v) /\ idle (l_st v) = true.

Lemma swift_lstep A (v v' : line A) x : swift_calls v -> lstep v x = Some v' -> swift_calls v'.
Proof.
  unfold lstep, swift_calls. intros [H1 H2] E. destruct (tstep (l_st v) x) as [s|] eqn:T; [|discriminate]. injection E as <-. cbn.
  split; [assumption|]. unfold idle in *. destruct x as [m|i|k]; cbn [tstep] in T.
  - pose proof (@swift_turn _ _ _ _ (ccall (act_comp (pcomp (l_pol v) (front_rest (l_pipe v))))) _ (H1 m) (t_vars (l_st v)) (t_next (l_st v))) as G.
    destruct (turn _ _ _ _ _) as [[w d] q]. injection T as <-. cbn in *. rewrite forallb_app. cbn. now rewrite H2, G.
  - destruct (nth_error (t_calls (l_st v)) i) as [p|] eqn:Np; [|discriminate].
    rewrite (proj1 (forallb_forall _ _) H2 p (nth_error_In _ _ Np)) in T. discriminate.
  - destruct (cstep _ _ _) as [d|]; [|discriminate]. injection T as <-. exact H2.
Qed.

Definition all_swift {A} (ls : list (line A)) : Prop := forall v, In v ls -> swift_calls v.

Lemma all_swift_upd A (ls : list (line A)) o v v' x : all_swift ls -> nth_error ls o = Some v -> lstep v x = Some v' -> all_swift (upd o v' ls).
Proof.
  intros H Hv E w Hw. apply In_nth_error in Hw. destruct Hw as [j Hj]. apply nth_upd in Hj.
  destruct Hj as [(_ & -> & _)|[_ Hj]]; [|exact (H w (nth_error_In _ _ Hj))].
  exact (swift_lstep _ (H v (nth_error_In _ _ Hv)) E).
Qed.

Lemma all_swift_tell A c (s : ustate A) ls ts b : all_swift ls -> tell c s ls ts = Some b -> all_swift (b_lines b).
Proof.
  unfold tell. intros H E. destruct (nth_error (u_calls s) c) as [[n o r|r]|]; try (injection E as <-; exact H).
  destruct (nth_error ls o) as [v|] eqn:V; [|discriminate]. destruct (lstep v (TCall n)) as [v'|] eqn:L; [|discriminate].
  injection E as <-. cbn. exact (all_swift_upd _ _ H V L).
Qed.

Lemma posting_inv A (h : list (blabel A)) b : breach h b -> each_pipeline (fun Z _ p => swift_line p) h -> all_swift (b_lines b).
Proof.
  induction 1 as [|h x b b' Hr IH E]; intros HP; [intros v []|].
  assert (I1 : all_swift (b_lines b)) by (apply IH; intros y Hy; apply HP, in_app_iff; now left). clear IH.
  destruct x as [Z pol p|k|n|c|c|c e|o k|]; unfold bstep in E.
  - destruct (ustep _ _); [|discriminate]. injection E as <-. cbn. intros v Hv. apply in_app_or in Hv.
    destruct Hv as [Hv|[<-|[]]]; [exact (I1 v Hv)|]. split; [apply (HP (BSub pol p)), in_app_iff; right; now left|reflexivity].
  - destruct (ustep _ _); [|discriminate]. injection E as <-. auto.
  - destruct (ustep _ _); [|discriminate]. exact (all_swift_tell _ _ _ I1 E).
  - destruct (pending b c) as [[[o i] [y|]]|]; try discriminate. destruct (nth_error (b_lines b) o) as [v|] eqn:V; [|discriminate].
    destruct (lstep v (TGo i)) as [v'|] eqn:L; [|discriminate]. injection E as <-. exact (all_swift_upd _ _ I1 V L).
  - destruct (pending b c) as [[[o i] [[y|]|]]|]; try discriminate. destruct (ustep _ _); [|discriminate]. exact (all_swift_tell _ _ _ I1 E).
  - destruct (pending b c) as [[[o i] [[y|]|]]|]; try discriminate. destruct (exn_eqb e y); [|discriminate].
    destruct (ustep _ _); [|discriminate]. injection E as <-. exact I1.
  - destruct (nth_error (b_lines b) o) as [v|] eqn:V; [|discriminate].
    destruct (lstep v (TWork k)) as [v'|] eqn:L; [|discriminate]. injection E as <-. exact (all_swift_upd _ _ I1 V L).
  - destruct (ustep _ _); [|discriminate]. injection E as <-. auto.
Qed.

Lemma posting_in_turn A (h : list (blabel A)) b : breach h b -> each_pipeline (fun Z _ p => posting p) h -> no_switch h -> in_turn h.
Proof.
  intros H HP HS h1 n h2 b1 E H1 c.
  destruct (nth_error (u_calls (b_subj b1)) c) as [[m o rest|r]|] eqn:F; [exfalso|eauto|exists None; now right].
  destruct (bi_fly (bi H1) c F) as [_ (v & i & y & F2 & F3 & F4)].
  assert (SW : all_swift (b_lines b1)).
  { apply (posting_inv H1). intros x Hx. assert (K : In x h) by (rewrite E; apply in_app_iff; now left).
    specialize (HP x K). destruct x; try exact I. exact (posting_swift HP). }
  destruct (SW v (nth_error_In _ _ F2)) as [_ Hi].
  destruct y as [y|]; [|exact (proj1 (line_idle v) Hi i F4)].
  destruct (HS h1 (BCall n) h2 b1 c o i y E H1) as [X|[e X]]; try discriminate.
  unfold pending. now rewrite F, F3, F2, F4.
Qed.

(** ** Checking given histories *)
Fixpoint bcheck {A} (P : hub A -> blabel A -> bool) (b : hub A) (h : list (blabel A)) : bool :=
  match h with
  | [] => true
  | x :: r => P b x && match bstep b x with Some b' => bcheck P b' r | None => true end
  end.

Lemma bcheck_ok A (P : hub A -> blabel A -> bool) (h : list (blabel A)) : forall h0 b, breach h0 b -> bcheck P b h = true ->
  forall h1 x h2 b1, h = h1 ++ x :: h2 -> breach (h0 ++ h1) b1 -> P b1 x = true.
Proof.
  induction h as [|y h IH]; intros h0 b H C h1 x h2 b1 E H1; [destruct h1; discriminate|].
  cbn in C. apply andb_true_iff in C as [C1 C2]. destruct h1 as [|z h1]; cbn in E; injection E as <- E.
  - rewrite app_nil_r in H1. rewrite (breach_fun H1 H). exact C1.
  - replace (h0 ++ y :: h1) with ((h0 ++ [y]) ++ h1) in H1 by (now rewrite <- app_assoc).
    destruct (breach_app _ _ H1) as [b2 H2]. destruct (breach_snoc _ _ H2) as (b3 & H3 & E3). rewrite (breach_fun H3 H) in E3.
    rewrite E3 in C2. exact (IH _ _ H2 C2 h1 x h2 b1 E H1).
Qed.

Definition turnb {A} (b : hub A) (x : blabel A) : bool := match x with BCall _ => idleb (b_subj b) | _ => true end.

Lemma in_turnb_ok A (h : list (blabel A)) : bcheck turnb b_init h = true -> in_turn h.
Proof. intros C h1 n h2 b E H. exact (idleb_ok _ (@bcheck_ok _ turnb h [] b_init br_nil C h1 _ h2 b E H)). Qed.

Definition over_at {A} (b : hub A) (c : nat) : bool := match pending b c with Some (_, _, Some _) => true | _ => false end.
Definition switchb {A} (b : hub A) (x : blabel A) : bool :=
  forallb (fun c => negb (over_at b c) || match x with BRet d => d =? c | BExn d _ => d =? c | _ => false end) (seq 0 (length (u_calls (b_subj b)))).

Lemma no_switchb_ok A (h : list (blabel A)) : bcheck switchb b_init h = true -> no_switch h.
Proof.
  intros C h1 x h2 b c o i y E H P. pose proof (@bcheck_ok _ switchb h [] b_init br_nil C h1 _ h2 b E H) as S.
  unfold switchb in S. rewrite forallb_forall in S. specialize (S c). unfold over_at in S. rewrite P in S. cbn in S.
  assert (L : In c (seq 0 (length (u_calls (b_subj b))))).
  { apply in_seq. destruct (pending_inv _ _ P) as (n & rest & v & F & _). pose proof (nth_some_length _ _ F). lia. }
  specialize (S L). destruct x; try discriminate; apply Nat.eqb_eq in S; subst; eauto.
Qed.

Definition no_exn {A} (h : list (blabel A)) : bool := forallb (fun x => match x with BExn _ _ => false | _ => true end) h.
Lemma no_exn_ok A (h : list (blabel A)) : no_exn h = true -> forall c e, ~ In (BExn c e) h.
Proof. unfold no_exn. rewrite forallb_forall. intros H c e F. apply H in F. discriminate. Qed.

(** ** Everything comes to rest *)
Inductive fin {S N D} (w : N -> bool) (call : D -> N -> D * option exn) : prog S N -> Prop :=
| fin_over p : over p = true -> fin w call p
| fin_go p : over p = false -> (forall s d, fin w call (snd (turn w call p s d))) -> fin w call p.

Lemma fin_turn S N D w (call : D -> N -> D * option exn) (p : prog S N) : forall s d, fin w call (snd (turn w call p s d)).
Proof.
  induction p as [|e|k IH|s0 k IH|n k IH]; intros s d; cbn [turn]; try (apply fin_over; reflexivity); auto.
  destruct (call d n) as [d' r]. destruct (w n); [|apply IH]. apply fin_go; [reflexivity|]. intros s1 d1. apply IH.
Qed.

Lemma fin_all S N D w (call : D -> N -> D * option exn) (p : prog S N) : fin w call p.
Proof. destruct (over p) eqn:O; [now apply fin_over|apply fin_go; [exact O|apply fin_turn]]. Qed.

Inductive done_by {A} (i : nat) : line A -> Prop :=
| dn_now v y : nth_error (outcomes v) i = Some (Some y) -> done_by i v
| dn_go v v' : nth_error (outcomes v) i = Some None -> lstep v (TGo i) = Some v' -> done_by i v' -> done_by i v.

Lemma outcome_at A Z (pol : policy Z) (pp : pipe Z A) (s : tstate pol (front_op pp) (front_rest pp)) i :
  nth_error (outcomes (Line pol pp s)) i = option_map outcome (nth_error (t_calls s) i).
Proof. apply nth_error_map. Qed.

Lemma drive_line A i (v : line A) : i < length (outcomes v) -> done_by i v.
Proof.
  destruct v as [Z pol pp s]. intros L. apply nth_error_Some in L. rewrite outcome_at in L.
  destruct (nth_error (t_calls s) i) as [p|] eqn:E; [|now elim L]. clear L.
  pose proof (fin_all (waits (front_rest pp)) (ccall (act_comp (pcomp pol (front_rest pp)))) p) as F.
  revert s E. induction F as [p O|p O F IH]; intros s E.
  - rewrite outcome_over in O. destruct (outcome p) as [y|] eqn:Y; [|discriminate]. apply dn_now with (y := y).
    rewrite outcome_at, E. cbn. now rewrite Y.
  - specialize (IH (t_vars s) (t_next s)).
    destruct (turn (waits (front_rest pp)) (ccall (act_comp (pcomp pol (front_rest pp)))) p (t_vars s) (t_next s)) as [[v1 d1] q] eqn:T.
    eapply dn_go with (v' := Line pol pp (TState v1 d1 (replace_nth i q (t_calls s)))).
    + rewrite outcome_at, E. cbn. rewrite outcome_over in O. destruct (outcome p); [discriminate|reflexivity].
    + assert (X : tstep s (TGo i) = Some (TState v1 d1 (replace_nth i q (t_calls s)))) by (cbn [tstep]; now rewrite E, O, T).
      unfold lstep. cbn [l_st l_pol l_pipe l_end]. now rewrite X.
    + apply IH. cbn. apply replace_same with (y := p). exact E.
Qed.

Lemma brun_app A (h1 h2 : list (blabel A)) : forall b b1, brun b h1 = Some b1 -> brun b (h1 ++ h2) = brun b1 h2.
Proof.
  induction h1 as [|x h1 IH]; intros b b1 E; cbn in *; [now injection E as ->|].
  destruct (bstep b x) as [b2|]; [|discriminate]. now apply IH.
Qed.

Lemma drive_call A (b : hub A) c n o rest i v : nth_error (u_calls (b_subj b)) c = Some (Flying n o rest) -> nth_error (b_task b) c = Some i ->
  nth_error (b_lines b) o = Some v -> i < length (outcomes v) ->
  exists h b' y, brun b h = Some b' /\ Forall going h /\ b_subj b' = b_subj b /\ pending b' c = Some (o, i, Some y).
Proof.
  intros F T V L. pose proof (@drive_line _ i v L) as D. clear L. revert b F T V. induction D as [v y E|v v' E G D IH]; intros b F T V.
  - exists [], b, y. repeat split; [constructor|]. unfold pending. now rewrite F, T, V, E.
  - destruct (IH (Hub (b_subj b) (upd o v' (b_lines b)) (b_task b)) F T) as (h & b' & y & R & A1 & A2 & A3).
    { cbn. apply nth_upd_eq. exact (nth_some_length _ _ V). }
    exists (BGo c :: h), b', y. split; [|auto]. cbn [brun].
    assert (P : pending b c = Some (o, i, None)) by (unfold pending; now rewrite F, T, V, E).
    cbn [bstep]. rewrite P, V, G. exact R.
    split; [constructor; [exact I|exact A1]|]. auto.
Qed.

Lemma finish_call A : forall k (h0 : list (blabel A)) b c n o rest, length rest = k -> breach h0 b ->
  nth_error (u_calls (b_subj b)) c = Some (Flying n o rest) ->
  exists h b' r, brun b h = Some b' /\ Forall going h /\ length (u_calls (b_subj b')) = length (u_calls (b_subj b)) /\
    nth_error (u_calls (b_subj b')) c = Some (Finished r) /\
    forall d, d <> c -> nth_error (u_calls (b_subj b')) d = nth_error (u_calls (b_subj b)) d.
Proof.
  induction k as [k IH] using lt_wf_ind. intros h0 b c n o rest Lk Hr F.
  destruct (bi_fly (bi Hr) c F) as [F1 (v & i & y0 & V & T & Y)].
  destruct (@drive_call _ b c n o rest i v F T V (nth_some_length _ _ Y)) as (h & b1 & y & R & G & S & P).
  pose proof (brun_reach h Hr R) as Hr1. pose proof (nth_some_length _ _ F) as Lc.
  assert (F' : nth_error (u_calls (b_subj b1)) c = Some (Flying n o rest)) by (now rewrite S).
  destruct (hot_progress c Hr1 F') as (x & b2 & E & Hx).
  assert (E2 : (exists e, x = BExn c e) \/ x = BRet c).
  { destruct Hx as [->|[->|[e ->]]]; [|auto|eauto]. cbn [bstep] in E. rewrite P in E. discriminate. }
  destruct E2 as [[e ->]| ->].
  - exists (h ++ [BExn c e]), b2. cbn [bstep] in E. rewrite P in E. destruct y as [y|]; [|discriminate]. destruct (exn_eqb e y) eqn:Ee; [|discriminate].
    cbn [ustep] in E. rewrite F' in E. exists (Some e). split; [rewrite (brun_app _ _ _ R); cbn [brun bstep]; rewrite P, Ee; cbn [ustep]; rewrite F'; now rewrite E|].
    injection E as <-. cbn. split; [apply Forall_app; split; [exact G|repeat constructor]|]. rewrite S, upd_length. split; [reflexivity|].
    split; [apply nth_upd_eq, Lc|]. intros d Hd. apply nth_upd_ne. auto.
  - assert (E' := E). cbn [bstep] in E'. rewrite P in E'. destruct y as [y|]; [discriminate|].
    destruct (ustep (b_subj b1) (URet c)) as [s'|] eqn:Q; [|discriminate].
    assert (Sb : b_subj b2 = s').
    { unfold tell in E'. destruct (nth_error (u_calls s') c) as [[]|]; try (injection E' as <-; reflexivity).
      destruct (nth_error (b_lines b1) _); [|discriminate]. destruct (lstep _ _); [|discriminate]. now injection E' as <-. }
    assert (Hr2 : breach ((h0 ++ h) ++ [BRet c]) b2) by (econstructor; eassumption).
    assert (R2 : brun b (h ++ [BRet c]) = Some b2) by (rewrite (brun_app _ _ _ R); cbn [brun]; now rewrite E).
    assert (G2 : Forall going (h ++ [BRet c])) by (apply Forall_app; split; [exact G|repeat constructor]).
    cbn [ustep] in Q. rewrite F' in Q. destruct rest as [|q rest]; cbn in Q.
    + injection Q as Q. exists (h ++ [BRet c]), b2, None. rewrite Sb, <- Q. cbn. rewrite S, upd_length.
      split; [exact R2|]. split; [exact G2|]. split; [reflexivity|]. split; [apply nth_upd_eq, Lc|]. intros d Hd. apply nth_upd_ne. auto.
    + injection Q as Q. assert (C2 : u_calls (b_subj b2) = upd c (Flying n q rest) (u_calls (b_subj b))) by (now rewrite Sb, <- Q, S).
      destruct (IH (length rest)) with (h0 := (h0 ++ h) ++ [BRet c]) (b := b2) (c := c) (n := n) (o := q) (rest := rest)
        as (h3 & b3 & r & R3 & G3 & L3 & F3 & D3); [cbn in Lk; lia|reflexivity|exact Hr2|rewrite C2; apply nth_upd_eq, Lc|].
      exists ((h ++ [BRet c]) ++ h3), b3, r. split; [rewrite (brun_app _ _ _ R2); exact R3|]. split; [apply Forall_app; auto|].
      split; [rewrite L3, C2, upd_length; reflexivity|]. split; [exact F3|]. intros d Hd. rewrite (D3 d Hd), C2. apply nth_upd_ne. auto.
Qed.

Lemma finish_calls A (h0 : list (blabel A)) b : breach h0 b -> forall k, k <= length (u_calls (b_subj b)) ->
  exists h b', brun b h = Some b' /\ Forall going h /\ length (u_calls (b_subj b')) = length (u_calls (b_subj b)) /\
    forall c, c < k -> exists r, nth_error (u_calls (b_subj b')) c = Some (Finished r).
Proof.
  intros Hr. induction k as [|k IH]; intros Lk.
  - exists [], b. repeat split; [constructor|]. intros c Hc. lia.
  - destruct IH as (h & b1 & R & G & L & D); [lia|]. pose proof (brun_reach h Hr R) as Hr1.
    destruct (nth_error (u_calls (b_subj b1)) k) as [[n o rest|r]|] eqn:F; [| |exfalso; apply nth_error_None in F; rewrite L in F; lia].
    + destruct (finish_call k eq_refl Hr1 F) as (h2 & b2 & r & R2 & G2 & L2 & F2 & D2).
      exists (h ++ h2), b2. split; [rewrite (brun_app _ _ _ R); exact R2|]. split; [apply Forall_app; auto|]. split; [lia|].
      intros c Hc. destruct (Nat.eq_dec c k) as [->|N]; [eauto|]. rewrite (D2 c N). apply D. lia.
    + exists h, b1. split; [exact R|]. split; [exact G|]. split; [exact L|]. intros c Hc.
      destruct (Nat.eq_dec c k) as [->|N]; [eauto|]. apply D. lia.
Qed.

Lemma work_line A Z (pol : policy Z) (pp : pipe Z A) n a a' : steps (pcomp pol (front_rest pp)) n a a' -> forall b o s,
  nth_error (b_lines b) o = Some (Line pol pp s) -> snd (t_next s) = a ->
  exists h s', brun b h = Some (Hub (b_subj b) (upd o (Line pol pp s') (b_lines b)) (b_task b)) /\ Forall going h /\
    snd (t_next s') = a' /\ t_calls s' = t_calls s.
Proof.
  induction 1 as [a|n a k a1 a' E ST IH]; intros b o s V Ea.
  - exists [], s. split; [|auto]. cbn. f_equal. destruct b as [sb ls ts]. cbn in *. f_equal.
    clear - V. revert o V. induction ls as [|l ls IH]; intros [|o] V; cbn in *; try discriminate; [now injection V as ->|f_equal; auto].
  - set (s1 := TState (t_vars s) (fst (t_next s), a1) (t_calls s) : tstate pol (front_op pp) (front_rest pp)).
    destruct (IH (Hub (b_subj b) (upd o (Line pol pp s1) (b_lines b)) (b_task b)) o s1) as (h & s' & R & G & E1 & E2).
    { cbn. apply nth_upd_eq. exact (nth_some_length _ _ V). }
    { reflexivity. }
    exists (BWork o k :: h), s'. assert (X : tstep s (TWork k) = Some s1) by (cbn [tstep act_comp cstep]; now rewrite Ea, E).
    cbn [brun bstep]. rewrite V. unfold lstep. cbn [l_st l_pol l_pipe l_end]. rewrite X.
    split; [|split; [constructor; [exact I|exact G]|split; [exact E1|exact E2]]].
    rewrite R. cbn [b_subj b_lines b_task]. do 2 f_equal. clear. revert o. induction (b_lines b) as [|l ls IH]; intros [|o]; cbn; try reflexivity. f_equal. apply IH.
Qed.

Definition rested {A} (v : line A) : Prop := quiet (pcomp (l_pol v) (front_rest (l_pipe v))) (snd (t_next (l_st v))).

Lemma rest_lines A (b : hub A) : forall k, k <= length (b_lines b) ->
  exists h b', brun b h = Some b' /\ Forall going h /\ b_subj b' = b_subj b /\ length (b_lines b') = length (b_lines b) /\
    forall o v, o < k -> nth_error (b_lines b') o = Some v -> rested v.
Proof.
  induction k as [|k IH]; intros Lk.
  - exists [], b. repeat split; [constructor|]. intros o v Ho. lia.
  - destruct IH as (h & b1 & R & G & S & L & D); [lia|].
    destruct (nth_error (b_lines b1) k) as [[Z pol pp s]|] eqn:V; [|apply nth_error_None in V; lia].
    destruct (bounded (good_pipe pol (front_rest pp)) (snd (t_next s))) as (n & a & St & Qu & _).
    destruct (@work_line _ _ _ _ _ _ _ St b1 k s V eq_refl) as (h2 & s' & R2 & G2 & E1 & _).
    eexists (h ++ h2), _. split; [rewrite (brun_app _ _ _ R); exact R2|]. split; [apply Forall_app; auto|]. cbn. split; [exact S|].
    rewrite upd_length. split; [exact L|]. intros o v Ho Hv. apply nth_upd in Hv. destruct Hv as [(_ & -> & _)|[N Hv]].
    + unfold rested. cbn. now rewrite E1.
    + apply (D o v); [lia|exact Hv].
Qed.

Lemma hot_settles A (h0 : list (blabel A)) b : breach h0 b ->
  exists h b', Forall going h /\ breach (h0 ++ h) b' /\ u_idle (b_subj b') /\ forall v, In v (b_lines b') -> settled_line v.
Proof.
  intros Hr. destruct (finish_calls Hr (le_n _)) as (h1 & b1 & R1 & G1 & L1 & D1).
  destruct (@rest_lines _ b1 _ (le_n _)) as (h2 & b2 & R2 & G2 & S2 & L2 & D2).
  pose proof (brun_reach h1 Hr R1) as Hr1. pose proof (brun_reach h2 Hr1 R2) as Hr2. rewrite <- app_assoc in Hr2.
  assert (I2 : u_idle (b_subj b2)).
  { rewrite S2. intros c. destruct (Nat.lt_ge_cases c (length (u_calls (b_subj b)))) as [Q|Q].
    - destruct (D1 c Q) as [r H]. eauto.
    - exists None. right. apply nth_error_None. lia. }
  exists (h1 ++ h2), b2. split; [apply Forall_app; auto|]. split; [exact Hr2|]. split; [exact I2|].
  intros v Hv. apply In_nth_error in Hv. destruct Hv as [o Hv]. split; [exact (all_idle o Hr2 I2 Hv)|].
  apply (D2 o v); [|exact Hv]. pose proof (nth_some_length _ _ Hv). lia.
Qed.
