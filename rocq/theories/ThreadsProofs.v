(** * Calls that overlap: proofs. *)
From Verif Require Export Threads PipeProofs Ops2Proofs.
From Verif Require Import HotProofs.
From Coq Require Import Permutation.
Set Implicit Arguments.

(** ** Turns *)
Lemma turn_exec S N D w (call : D -> N -> D * option exn) (p : prog S N) : forall s d s1 d1 p1,
  turn w call p s d = (s1, d1, p1) -> exec call p s d = exec call p1 s1 d1.
Proof.
  induction p as [|e|k IH|s0 k IH|n k IH]; intros s d s1 d1 p1 H; cbn [turn exec] in *.
  - now injection H as <- <- <-.
  - now injection H as <- <- <-.
  - now apply IH.
  - now apply IH.
  - destruct (call d n) as [d' r]. destruct (w n).
    + now injection H as <- <- <-.
    + now apply IH.
Qed.

Lemma exec_over S N D (call : D -> N -> D * option exn) (p : prog S N) s d :
  over p = true -> fst (exec call p s d) = (s, d).
Proof. destruct p; cbn; congruence || reflexivity. Qed.

(** Nothing is left to do but to return or raise. *)
Definition settled {S N} (p : prog S N) : Prop :=
  over p = true \/ exists q, p = Read (fun _ => q) /\ over q = true.

Lemma exec_settled S N D (call : D -> N -> D * option exn) (p : prog S N) s d :
  settled p -> fst (exec call p s d) = (s, d).
Proof. intros [H|(q & -> & H)]; [|cbn [exec]]; now apply exec_over. Qed.

Lemma turn_settled S N D w (call : D -> N -> D * option exn) (p : prog S N) s d :
  settled p -> exists q, turn w call p s d = (s, d, q) /\ over q = true.
Proof.
  intros [H|(q & -> & H)]; cbn [turn].
  - destruct p; try discriminate; eexists; split; reflexivity.
  - destruct q; try discriminate; eexists; split; reflexivity.
Qed.

Lemma run_snoc M (c : comp M) s ms m s' : run c s ms s' -> run c s (ms ++ [m]) (fst (ccall c s' m)).
Proof.
  induction 1 as [s|s m0 ms s' H IH|s k s1 ms s' H1 H2 IH]; cbn.
  - apply run_in, run_nil.
  - apply run_in, IH.
  - eapply run_step; eassumption.
Qed.

Lemma run_then M (c : comp M) s ms s' k s'' : run c s ms s' -> cstep c k s' = Some s'' -> run c s ms s''.
Proof.
  induction 1 as [s|s m0 ms s' H IH|s j s1 ms s' H1 H2 IH]; intros E.
  - eapply run_step; [exact E|apply run_nil].
  - apply run_in, IH, E.
  - eapply run_step; [exact H1|]. apply IH, E.
Qed.

Lemma issued_snoc M (h : list (tlabel M)) l : issued (h ++ [l]) = issued h ++ match l with TCall m => [m] | _ => [] end.
Proof. induction h as [|[]]; cbn; [destruct l; reflexivity|f_equal; assumption|assumption|assumption]. Qed.

Lemma replace_length X i (x : X) l : length (replace_nth i x l) = length l.
Proof. revert i. induction l; intros [|i]; cbn; auto. Qed.

Lemma replace_same X i (x y : X) l : nth_error l i = Some y -> nth_error (replace_nth i x l) i = Some x.
Proof. revert i. induction l; intros [|i]; cbn; try congruence. apply IHl. Qed.

Lemma replace_other X i j (x : X) l : i <> j -> nth_error (replace_nth i x l) j = nth_error l j.
Proof.
  revert i j. induction l; intros [|i] [|j] H; cbn; try congruence.
  apply IHl. congruence.
Qed.

Lemma replace_last X i (x d : X) l : S i = length l -> last (replace_nth i x l) d = x.
Proof.
  revert i. induction l as [|y l IH]; intros [|i] H; cbn in *; try discriminate.
  - destruct l; [reflexivity|discriminate].
  - injection H as H. specialize (IH i H).
    destruct l as [|z l]; [discriminate|]. cbn [replace_nth]. destruct i; exact IH.
Qed.

Lemma nth_last X (d : X) l i y : nth_error l i = Some y -> S i = length l -> last l d = y.
Proof.
  revert i. induction l as [|z l IH]; intros [|i] H L; cbn in *; try discriminate.
  - destruct l; [congruence|discriminate].
  - injection L as L. specialize (IH i H L). destruct l; [discriminate|exact IH].
Qed.

Lemma idle_nth Z M B (pol : policy Z) (o : op M (act B)) r (s : tstate pol o r) :
  idle s = true <-> forall i p, nth_error (t_calls s) i = Some p -> over p = true.
Proof.
  unfold idle. rewrite forallb_forall. split.
  - intros H i p E. apply H. eapply nth_error_In, E.
  - intros H p I. apply In_nth_error in I. destruct I as [i E]. eapply H, E.
Qed.

Section Reach.
  Context {Z M B : Type} (pol : policy Z) (o : op M (act B)) (r : pipe Z B).
  Notation C := (act_comp (pcomp pol r)).
  Notation R := (treach pol o r).

  Lemma treach_prefix h l s : R (h ++ [l]) s -> exists s1, R h s1 /\ tstep s1 l = Some s.
  Proof.
    intros H. remember (h ++ [l]) as hl eqn:E. destruct H as [|h' s1 l' s' H1 H2].
    - destruct h; discriminate.
    - apply app_inj_tail in E. destruct E as [-> ->]. eauto.
  Qed.

  Lemma treach_app h1 h2 s : R (h1 ++ h2) s -> exists s1, R h1 s1.
  Proof.
    revert s. induction h2 as [|l h2 IH] using rev_ind; intros s H.
    - rewrite app_nil_r in H. eauto.
    - rewrite app_assoc in H. destruct (treach_prefix _ _ H) as (s1 & H1 & _). eapply IH, H1.
  Qed.

  Lemma treach_det h s1 : R h s1 -> forall s2, R h s2 -> s1 = s2.
  Proof.
    induction 1 as [|h s l s' H IH E]; intros s2 H2.
    - remember [] as h0 eqn:E0. destruct H2; [reflexivity|destruct h; discriminate].
    - destruct (treach_prefix _ _ H2) as (s1 & H1 & E1). rewrite <- (IH _ H1) in E1. congruence.
  Qed.

  (** *** Calls that do not overlap *)
  Lemma apart_inv h s : R h s -> one_at_a_time pol o r h ->
    (forall i p, nth_error (t_calls s) i = Some p -> over p = false -> S i = length (t_calls s)) /\
    run (sync_comp o C) (ini o, (0, pinit pol r)) (issued h)
      (fst (exec (ccall C) (last (t_calls s) Ret) (t_vars s) (t_next s))).
  Proof.
    induction 1 as [|h s l s' H IH E]; intros Hone.
    - split; [intros [|i]; discriminate|]. apply run_nil.
    - assert (Hone' : one_at_a_time pol o r h).
      { intros h1 m h2 s1 -> H1. refine (Hone h1 m (h2 ++ [l]) s1 _ H1). now rewrite <- app_assoc. }
      destruct (IH Hone') as [I1 I2]. clear IH. rewrite issued_snoc. destruct l as [m|i|k]; cbn [tstep] in E.
      + assert (Hi : idle s = true) by (apply (Hone h m [] s eq_refl H)).
        rewrite idle_nth in Hi.
        destruct (turn (waits r) (ccall C) (body o m) (t_vars s) (t_next s)) as [[v d] p] eqn:T.
        injection E as <-. cbn [t_calls t_vars t_next]. split.
        * intros i q Hq Ho. rewrite app_length. cbn.
          destruct (Nat.lt_ge_cases i (length (t_calls s))) as [L|L].
          -- rewrite nth_error_app1 in Hq by assumption. rewrite (Hi _ _ Hq) in Ho. discriminate.
          -- assert (i < length (t_calls s ++ [p])) by (apply nth_error_Some; congruence).
             rewrite app_length in *. cbn in *. lia.
        * rewrite last_last.
          assert (Hl : over (last (t_calls s) Ret) = true).
          { destruct (t_calls s) as [|q qs] eqn:Q using rev_ind; [reflexivity|]. rewrite last_last.
            apply (Hi (length qs)). rewrite nth_error_app2, Nat.sub_diag by lia. reflexivity. }
          rewrite (exec_over _ _ _ _ Hl) in I2.
          apply run_snoc with (m := m) in I2. cbn [sync_comp ccall fst snd] in I2.
          rewrite (turn_exec _ _ _ _ _ T) in I2.
          destruct (exec (ccall C) p v d) as [[v1 d1] r1]. exact I2.
      + rewrite app_nil_r. destruct (nth_error (t_calls s) i) as [p|] eqn:Np; [|discriminate].
        destruct (over p) eqn:Op; [discriminate|].
        destruct (turn (waits r) (ccall C) p (t_vars s) (t_next s)) as [[v d] p'] eqn:T.
        injection E as <-. cbn [t_calls t_vars t_next]. split.
        * intros j q Hq Ho. rewrite replace_length. destruct (Nat.eq_dec i j) as [<-|Ne].
          -- apply (I1 _ _ Np Op).
          -- rewrite replace_other in Hq by assumption. apply (I1 _ _ Hq Ho).
        * rewrite (replace_last _ _ _ (I1 _ _ Np Op)).
          rewrite (@nth_last _ Ret _ _ _ Np (I1 _ _ Np Op)) in I2.
          rewrite (turn_exec _ _ _ _ _ T) in I2. exact I2.
      + rewrite app_nil_r. destruct (cstep C k (t_next s)) as [d|] eqn:K; [|discriminate].
        injection E as <-. cbn [t_calls t_vars t_next]. split; [exact I1|].
        destruct (exec_comm (good_act (good_pipe pol r)) (last (t_calls s) Ret) (t_vars s) (t_next s) k K)
          as (v1 & d1 & d2 & r1 & E1 & E2 & E3).
        rewrite E1 in I2. rewrite E2. cbn [fst] in *.
        eapply run_then; [exact I2|]. cbn [sync_comp cstep snd fst]. rewrite E3. reflexivity.
  Qed.

  Lemma idle_last (s : tstate pol o r) : idle s = true -> over (last (t_calls s) Ret) = true.
  Proof.
    rewrite idle_nth. intros Hi. destruct (t_calls s) as [|q qs _] using rev_ind; [reflexivity|]. rewrite last_last.
    apply (Hi (length qs)). rewrite nth_error_app2, Nat.sub_diag by lia. reflexivity.
  Qed.

  Lemma apart_run h s : R h s -> one_at_a_time pol o r h -> idle s = true ->
    run (sync_comp o C) (ini o, (0, pinit pol r)) (issued h) (t_vars s, t_next s).
  Proof.
    intros H H1 H2. destruct (apart_inv H H1) as [_ I]. rewrite (exec_over _ _ _ _ (idle_last s H2)) in I. exact I.
  Qed.

  (** While a call is under way: a prefix of what will have been seen when it is over. *)
  Lemma apart_prefix h s : R h s -> one_at_a_time pol o r h ->
    exists l, sees (ssys pol o r) (issued h) l /\ prefix (tlog s) l.
  Proof.
    intros H H1. destruct (apart_inv H H1) as [_ I].
    eexists. split; [eexists; split; [exact I|reflexivity]|].
    cbn [ssys slog].
    pose proof (exec_grows (ccall C) (fun d => plog pol r (snd d)) (proj1 (grows_act (grows_pipe pol r)))
                  (last (t_calls s) Ret) (t_vars s) (t_next s)) as G.
    exact G.
  Qed.

  (** *** Bodies that do everything in their first turn *)
  Inductive prompt {S N} (w : N -> bool) : prog S N -> Prop :=
  | prompt_over p : over p = true -> prompt w p
  | prompt_read k : (forall s, prompt w (k s)) -> prompt w (Read k)
  | prompt_write s k : prompt w k -> prompt w (Write s k)
  | prompt_last n k : (forall x, over (k x) = true) -> prompt w (Call n k)
  | prompt_call n k : w n = false -> (forall x, prompt w (k x)) -> prompt w (Call n k).

  Lemma turn_prompt S N D w (call : D -> N -> D * option exn) (p : prog S N) : prompt w p -> forall s d,
    settled (snd (turn w call p s d)).
  Proof.
    induction 1 as [p Hp|k H IH|s0 k H IH|n k H|n k Hw H IH]; intros s d; cbn [turn].
    - left. destruct p; try discriminate; reflexivity.
    - apply IH.
    - apply IH.
    - destruct (call d n) as [d' x]. destruct (w n).
      + right. exists (k x). split; [reflexivity|apply H].
      + left. specialize (H x). destruct (k x); try discriminate; reflexivity.
    - destruct (call d n) as [d' x]. rewrite Hw. apply IH.
  Qed.

  Lemma prompt_inv h s : (forall m, prompt (waits r) (body o m)) -> R h s ->
    (forall p, In p (t_calls s) -> settled p) /\
    run (sync_comp o C) (ini o, (0, pinit pol r)) (issued h) (t_vars s, t_next s).
  Proof.
    intros Hp. induction 1 as [|h s l s' H [I1 I2] E].
    - split; [intros p []|apply run_nil].
    - rewrite issued_snoc. destruct l as [m|i|k]; cbn [tstep] in E.
      + pose proof (turn_prompt (ccall C) (Hp m) (t_vars s) (t_next s)) as T1.
        destruct (turn (waits r) (ccall C) (body o m) (t_vars s) (t_next s)) as [[v d] p] eqn:T.
        injection E as <-. cbn [t_calls t_vars t_next snd] in *. split.
        * intros q Q. apply in_app_or in Q. destruct Q as [Q|[<-|[]]]; [now apply I1|exact T1].
        * apply run_snoc with (m := m) in I2. cbn [sync_comp ccall fst snd] in I2.
          rewrite (turn_exec _ _ _ _ _ T) in I2. pose proof (exec_settled (ccall C) v d T1) as X.
          destruct (exec (ccall C) p v d) as [[v1 d1] r1]. cbn [fst] in X, I2. injection X as -> ->. exact I2.
      + rewrite app_nil_r. destruct (nth_error (t_calls s) i) as [p|] eqn:Np; [|discriminate].
        destruct (over p); [discriminate|].
        destruct (turn_settled (waits r) (ccall C) (t_vars s) (t_next s) (I1 p (nth_error_In _ _ Np))) as (q & T & Q).
        rewrite T in E. injection E as <-. cbn [t_calls t_vars t_next]. split; [|exact I2].
        intros p' P. apply In_nth_error in P. destruct P as [j P]. destruct (Nat.eq_dec i j) as [<-|Ne].
        * rewrite (replace_same _ _ _ Np) in P. injection P as <-. now left.
        * rewrite replace_other in P by assumption. eapply I1, nth_error_In, P.
      + rewrite app_nil_r. destruct (cstep C k (t_next s)) as [d|] eqn:K; [|discriminate].
        injection E as <-. split; [exact I1|]. cbn [t_vars t_next].
        eapply run_then; [exact I2|]. cbn [sync_comp cstep snd fst]. rewrite K. reflexivity.
  Qed.
End Reach.

(** ** Operators without async functions of the user *)
Lemma prompt_weaken S N (w w' : N -> bool) (p : prog S N) :
  (forall n, w' n = true -> w n = true) -> prompt w p -> prompt w' p.
Proof.
  intros H. induction 1 as [p Hp|k K IH|s0 k K IH|n k K|n k Hw K IH].
  - now apply prompt_over.
  - now apply prompt_read.
  - now apply prompt_write.
  - now apply prompt_last.
  - destruct (w' n) eqn:E; [rewrite (H _ E) in Hw; discriminate|]. now apply prompt_call.
Qed.

Lemma bind_over S N (p : prog S N) K : over p = true -> (forall x, over (K x) = true) -> over (bindp p K) = true.
Proof. destruct p; cbn; try discriminate; intros _ H; apply H. Qed.

Lemma prompt_bind S N w (p : prog S N) K : prompt w p -> (forall x, over (K x) = true) -> prompt w (bindp p K).
Proof.
  intros H HK. induction H as [p Hp|k H IH|s0 k H IH|n k H|n k Hw H IH]; cbn [bindp].
  - apply prompt_over. now apply bind_over.
  - now apply prompt_read.
  - now apply prompt_write.
  - apply prompt_last. intros x. now apply bind_over.
  - now apply prompt_call.
Qed.

(** Behind a mailbox anything that awaits nothing else will do. *)
Lemma prompt_bind_free S N w (p : prog S N) K : prompt w p -> (forall n, w n = false) -> (forall x, prompt w (K x)) -> prompt w (bindp p K).
Proof.
  intros H Hw HK. induction H as [p Hp|k H IH|s0 k H IH|n k H|n k _ H IH]; cbn [bindp].
  - destruct p; try discriminate; apply HK.
  - now apply prompt_read.
  - now apply prompt_write.
  - apply prompt_call; [apply Hw|]. intros x. specialize (H x). destruct (k x); try discriminate; apply HK.
  - now apply prompt_call.
Qed.

Lemma prompt_lift2 S1 S2 N w (p : prog S2 N) : prompt w p -> prompt w (lift2 (S1 := S1) p).
Proof.
  induction 1 as [p Hp|k H IH|s0 k H IH|n k H|n k Hw H IH]; cbn [lift2].
  - apply prompt_over. destruct p; try discriminate; reflexivity.
  - apply prompt_read. intros s. apply IH.
  - apply prompt_read. intros s. apply prompt_write, IH.
  - apply prompt_last. intros x. specialize (H x). destruct (k x); try discriminate; reflexivity.
  - apply prompt_call; [exact Hw|]. intros x. apply IH.
Qed.

Lemma inline_over S1 S2 N P (f : N -> prog S2 P) (p : prog S1 N) : over p = true -> over (inlinep f p) = true.
Proof. destruct p; cbn; congruence || reflexivity. Qed.

Lemma prompt_inlinep S1 S2 N P w (f : N -> prog S2 P) (p : prog S1 N) :
  (forall n, prompt w (f n)) -> prompt (fun _ => true) p -> prompt w (inlinep f p).
Proof.
  intros Hf. remember (fun _ : N => true) as tt' eqn:Et.
  induction 1 as [p Hp|k H IH|s0 k H IH|n k H|n k Hw H IH]; cbn [inlinep].
  - apply prompt_over. now apply inline_over.
  - apply prompt_read. intros s. apply IH.
  - apply prompt_read. intros s. apply prompt_write, IH.
  - apply prompt_bind; [apply prompt_lift2, Hf|]. intros x. now apply inline_over.
  - subst. discriminate.
Qed.

Lemma prompt_await S N w (n : N) : prompt w (awaitp (S := S) n).
Proof. apply prompt_last. now intros [e|]. Qed.

Lemma prompt_inline M B C (o1 : op M (act B)) (o2 : op (notif B) (act C)) w :
  (forall m, prompt (fun _ => true) (body o1 m)) -> (forall n, prompt w (body o2 n)) ->
  forall m, prompt w (body (inline o1 o2) m).
Proof.
  intros H1 H2 m. cbn [inline body]. apply prompt_inlinep; [|apply H1].
  intros [n| |]; [apply H2|apply prompt_await|apply prompt_await].
Qed.

(** What is in front of a pipeline does everything in its first turn. *)
Definition head_prompt {Z A} (p : pipe Z A) : Prop :=
  match p with PSync o r => forall m, prompt (waits r) (body o m) | _ => True end.

Lemma head_pre Z A B (o : op (notif A) (act B)) (r : pipe Z B) :
  (forall m, prompt (fun _ => true) (body o m)) -> head_prompt r -> head_prompt (pre o r).
Proof.
  intros Ho Hr. revert o Ho. destruct r as [|B0 C o2 r2|B0 C o2 r2|B0 C o2 r2]; intros o Ho; cbn [pre head_prompt] in *.
  - intros m. eapply prompt_weaken; [|apply Ho]. reflexivity.
  - intros m. eapply prompt_weaken; [|apply Ho]. reflexivity.
  - intros m. eapply prompt_weaken; [|apply Ho]. reflexivity.
  - intros m. apply prompt_inline; assumption.
Qed.

(** Posts do not suspend. *)
Definition posts {B} (a : act B) : bool := match a with Deliver _ => false | _ => true end.

Lemma head_pre_safe Z A B (o : op (notif A) (act B)) (r : pipe Z B) :
  (forall m, prompt posts (body o m)) -> head_prompt (pre o (safe r)).
Proof.
  intros Ho. revert o Ho. destruct r; intros o' Ho m; cbn [safe pre head_prompt];
    (eapply prompt_weaken; [|apply Ho]; now intros [| |]).
Qed.

Ltac prompt1 := first
  [ apply prompt_over; reflexivity
  | apply prompt_await
  | apply prompt_read; intros
  | apply prompt_write
  | apply prompt_call; [reflexivity|intros [?|]; cbn] ].

Lemma prompt_map A B (f : A -> res B) m : prompt (fun _ => true) (body (map_op f) m).
Proof. destruct m as [a|e|]; cbn; [destruct (f a)|..]; prompt1. Qed.
Lemma prompt_filter A (f : A -> res bool) m : prompt (fun _ => true) (body (filter_op f) m).
Proof. destruct m as [a|e|]; cbn; [destruct (f a) as [[|]|]|..]; prompt1. Qed.
Lemma prompt_choose A B (f : A -> res (option B)) m : prompt (fun _ => true) (body (choose_op f) m).
Proof. destruct m as [a|e|]; cbn; [destruct (f a) as [[|]|]|..]; prompt1. Qed.
Lemma prompt_scan A B (f : B -> A -> res B) b m : prompt (fun _ => true) (body (scan_sync_op f b) m).
Proof. destruct m as [a|e|]; cbn; [prompt1; destruct (f s a); repeat prompt1|..]; prompt1. Qed.
Lemma prompt_id A w m : prompt w (body (@id_op A) m).
Proof. apply prompt_await. Qed.
Lemma prompt_skip A n m : prompt posts (body (@skip_op A n) m).
Proof. destruct m as [a|e|]; cbn; [prompt1; destruct (s <=? 0)%Z; repeat prompt1|..]; prompt1. Qed.
Lemma prompt_skip_last A isn n m : prompt posts (body (@skip_last_op A isn n) m).
Proof.
  destruct m as [a|e|]; [|prompt1..]. cbn [skip_last_op direct body]. prompt1.
  destruct (n <? _)%Z; [|repeat prompt1]. destruct (s ++ [a]) as [|x q]; [repeat prompt1|].
  prompt1. destruct (isn x); repeat prompt1.
Qed.
Lemma prompt_take A n m : prompt posts (body (@take_op A n) m).
Proof.
  destruct m as [a|e|]; [|prompt1..]. cbn [take_op direct body]. prompt1.
  destruct (0 <? s)%Z; [|repeat prompt1]. prompt1. cbn. prompt1; prompt1.
  destruct (s0 =? 0)%Z; repeat prompt1.
Qed.
Lemma prompt_take_last A n m : prompt posts (body (@take_last_op A n) m).
Proof.
  destruct m as [a|e|]; cbn [take_last_op direct body].
  - prompt1. destruct (n <? _)%Z; repeat prompt1.
  - prompt1.
  - prompt1.
    assert (HP : forall l : list A, prompt posts (forp (S := list A) l (fun x => awaitp (Deliver (OnNext x))))).
    { induction l as [|x l IH]; [prompt1|]. cbn. prompt1; [prompt1|exact IH]. }
    unfold seqp. induction s as [|x l IH].
    + cbn. prompt1.
    + cbn [forp]. cbn. prompt1; [prompt1|]. exact IH.
Qed.
Lemma prompt_zip A B (it : iterator B) m : prompt posts (body (@zip_op A B it) m).
Proof.
  destruct m as [a|e|]; [|prompt1..]. cbn [zip_op direct body]. prompt1. prompt1.
  destruct (it s); cbn; repeat prompt1.
Qed.

Lemma prompt_take_until A B w m : prompt w (body (@take_until_op A B) m).
Proof. destruct m as [n|[b|e|]]; cbn; prompt1. Qed.

Lemma no_await_prompt Z A (p : pipe Z A) : no_await p -> head_prompt p.
Proof.
  induction 1.
  - exact I.
  - apply head_pre; [apply prompt_map|assumption].
  - apply head_pre; [apply prompt_filter|assumption].
  - apply head_pre; [apply prompt_choose|assumption].
  - apply head_pre; [apply prompt_scan|assumption].
  - apply head_pre_safe, prompt_skip.
  - apply head_pre_safe, prompt_skip_last.
  - unfold take_ in H. destruct (n <? 0)%Z; [discriminate|]. injection H as <-. apply head_pre_safe, prompt_take.
  - apply head_pre_safe, prompt_take_last.
  - apply head_pre_safe, prompt_zip.
  - exact I.
  - destruct r; exact I.
Qed.

Lemma no_await_operators Z A B C :
  (forall (f : A -> B -> res C) (r : pipe Z C), no_await r -> no_await (starmap_ f r)) /\
  (forall (p : A -> B -> res bool) (r : pipe Z (A * B)), no_await r -> no_await (starfilter_ p r)) /\
  (forall (f : A -> nat -> res B) (r : pipe Z B), no_await (mapi_ f r)) /\
  (forall (f : A -> nat -> res B) (r : pipe Z B), no_await (mapi_async_ f r)) /\
  (forall (p : A -> nat -> res bool) (r : pipe Z A), no_await (filteri_ p r)) /\
  (forall (f : B -> A -> res B) b (r : pipe Z B), no_await (reduce_sync_ f b r)) /\
  (forall isn start stop step opr (r : pipe Z A), slice_ isn start stop step = Ok opr -> no_await r -> no_await (opr r)).
Proof.
  repeat split.
  - intros f r H. apply na_map, H.
  - intros p r H. apply na_filter, H.
  - intros f r. apply na_zip.
  - intros f r. apply na_zip.
  - intros p r. apply na_zip.
  - intros f b r. apply na_scan, na_take_last.
  - intros isn start stop step opr r E H. unfold slice_ in E.
    assert (First : forall q : pipe Z A, no_await q ->
      no_await (match start with Some i => if (i <? 0)%Z then take_last_ (Z.abs i) else skip_ i | None => fun r => r end q)).
    { intros q Q. destruct start as [i|]; [|exact Q]. destruct (i <? 0)%Z; [apply na_take_last|apply na_skip]. }
    assert (Second : forall second (q : pipe Z A), match stop with
        | Some j => if (0 <? j)%Z then take_ (j - match start with Some i => i | None => 0 end) else Ok (skip_last_ isn (Z.abs j))
        | None => Ok (fun r => r) end = Ok second -> no_await q -> no_await (second q)).
    { intros second q E2 Q. destruct stop as [j|]; [destruct (0 <? j)%Z|].
      - exact (na_take _ _ E2).
      - injection E2 as <-. apply na_skip_last.
      - injection E2 as <-. exact Q. }
    destruct (match stop with
        | Some j => if (0 <? j)%Z then take_ (j - match start with Some i => i | None => 0 end) else Ok (skip_last_ isn (Z.abs j))
        | None => Ok (fun r => r) end) as [second|x] eqn:E2; [|discriminate].
    destruct (1 <? step)%Z; [|destruct (step <? 0)%Z; [discriminate|]]; injection E as <-; apply First, (Second _ _ eq_refl); [apply na_zip|exact H].
Qed.

(** ** From a history of overlapping calls to one of atomic calls *)
Lemma run_id A (c : comp (notif A)) : forall ms x y, run (sync_comp id_op (act_comp c)) x ms y -> run c (snd (snd x)) ms (snd (snd y)).
Proof.
  induction 1 as [s|s m ms s' H IH|s k s1 ms s' H1 H2 IH].
  - apply run_nil.
  - apply run_in. destruct s as [v [n d]]. cbn in *. destruct (ccall c d m) as [d' [e|]]; exact IH.
  - destruct s as [v [n d]]. cbn in *.
    destruct (cstep c k d) as [d'|] eqn:E; [|discriminate]. injection H1 as <-. eapply run_step; [exact E|exact IH].
Qed.

Lemma prompt_sees Z A (pol : policy Z) (p : pipe Z A) h l :
  head_prompt p -> overlapping pol p h l -> sees (psys pol p) (issued h) l.
Proof.
  destruct p; cbn [overlapping head_prompt]; intros Hp (s & H & <-).
  1-3: destruct (prompt_inv (fun m => prompt_id _ m) H) as [_ R]; apply run_id in R; cbn [snd] in R;
       exists (snd (t_next s)); split; [exact R|reflexivity].
  destruct (prompt_inv Hp H) as [_ R]. exists (t_vars s, t_next s). split; [exact R|reflexivity].
Qed.

Lemma quiet_sync Z M B (pol : policy Z) (o : op M (act B)) (r : pipe Z B) v n d :
  quiet (pcomp pol r) d -> quiet (sync_comp o (act_comp (pcomp pol r))) (v, (n, d)).
Proof. intros H k. cbn. now rewrite (H k). Qed.

Lemma prompt_finally Z A (pol : policy Z) (p : pipe Z A) h l :
  head_prompt p -> overlapping_done pol p h l -> finally (psys pol p) (issued h) l.
Proof.
  destruct p; cbn [overlapping_done head_prompt]; intros Hp (s & H & _ & Q & <-).
  1-3: destruct (prompt_inv (fun m => prompt_id _ m) H) as [_ R]; apply run_id in R; cbn [snd] in R;
       exists (snd (t_next s)); split; [exact R|split; [exact Q|reflexivity]].
  destruct (prompt_inv Hp H) as [_ R]. destruct s as [v [n d] cs]. exists (v, (n, d)). split; [exact R|].
  split; [apply quiet_sync; exact Q|reflexivity].
Qed.

(** A history of the atomic model is one of this model. *)
Lemma treach_snoc_call Z M B (pol : policy Z) (o : op M (act B)) r h s m : treach pol o r h s ->
  exists s', treach pol o r (h ++ [TCall m]) s'.
Proof.
  intros H. destruct (tstep s (TCall m)) as [s'|] eqn:E.
  - exists s'. eapply treach_s; eassumption.
  - cbn [tstep] in E. destruct (turn _ _ _ _ _) as [[? ?] ?]. discriminate.
Qed.

(** ** Async functions of the user *)
Lemma gone_snoc M (h : list (tlabel M)) l : gone (h ++ [l]) = gone h ++ match l with TGo i => [i] | _ => [] end.
Proof. induction h as [|[]]; cbn; [destruct l; reflexivity|assumption|f_equal; assumption|assumption]. Qed.

Definition contribution {A B} (ans : A -> list B) (ms : list (notif A)) (seen : list nat) (x : tlabel (notif A)) : list (notif B) :=
  match x with
  | TCall m => match m with OnNext _ => [] | OnError e => [OnError e] | OnCompleted => [OnCompleted] end
  | TGo i => if in_dec Nat.eq_dec i seen then [] else
       match nth_error ms i with Some (OnNext a) => map OnNext (ans a) | _ => [] end
  | TWork _ => []
  end.

Lemma in_dec_ext (i : nat) l l' X (x y : X) : (In i l <-> In i l') ->
  (if in_dec Nat.eq_dec i l then x else y) = (if in_dec Nat.eq_dec i l' then x else y).
Proof. intros H. destruct (in_dec _ i l), (in_dec _ i l'); tauto. Qed.

Lemma told_snoc A B (ans : A -> list B) h x : forall ms seen,
  told ans ms seen (h ++ [x]) = told ans ms seen h ++ contribution ans (ms ++ issued h) (seen ++ gone h) x.
Proof.
  induction h as [|[m|i|k] h IH]; intros ms seen; cbn [app told issued gone].
  - rewrite !app_nil_r. destruct x; cbn; rewrite ?app_nil_r; reflexivity.
  - rewrite IH, <- !app_assoc. reflexivity.
  - rewrite IH, <- !app_assoc. do 2 f_equal. destruct x as [m|j|k]; cbn [contribution]; try reflexivity.
    apply in_dec_ext. cbn. rewrite !in_app_iff. cbn. tauto.
  - apply IH.
Qed.

Lemma nth_error_snoc X (l : list X) x : nth_error (l ++ [x]) (length l) = Some x.
Proof. rewrite nth_error_app2, Nat.sub_diag by lia. reflexivity. Qed.

Lemma snoc_lookup X (l : list X) x i q : nth_error (l ++ [x]) i = Some q -> length l <= i -> i = length l /\ q = x.
Proof.
  intros H L. assert (i < length (l ++ [x])) by (apply nth_error_Some; congruence).
  rewrite app_length in *. cbn in *. assert (i = length l) as -> by lia. split; [reflexivity|].
  rewrite nth_error_snoc in H. congruence.
Qed.

Section Async.
  Context {Z A B : Type} (pol : policy Z) (r : pipe Z B) (ans : A -> res (option B)).
  Context (bd : notif A -> prog unit (act B)).
  Definition fin (a : A) : prog unit (act B) :=
    match ans a with Ok (Some b) => awaitp (Deliver (OnNext b)) | Ok None => Ret | Err e => Raise e end.
  Context (Hbd : forall n, bd n = match n with
     | OnNext a => seqp (awaitp Await) (fin a)
     | OnError e => awaitp (Deliver (OnError e))
     | OnCompleted => awaitp (Deliver OnCompleted)
     end).
  Notation O := (direct tt bd).
  Notation C := (act_comp (pcomp pol r)).

  Lemma turn_deliver n v d : exists q,
    turn (waits r) (ccall C) (awaitp (Deliver n)) v d = (v, (fst d, fst (ccall (pcomp pol r) (snd d) n)), q) /\ settled (S := unit) q.
  Proof.
    destruct d as [k d]. cbn [turn awaitp act_comp ccall fst snd].
    destruct (ccall (pcomp pol r) d n) as [d' x]. cbn [fst]. destruct (waits r (Deliver n)).
    - eexists. split; [reflexivity|]. right. eexists. split; [reflexivity|]. now destruct x.
    - destruct x; eexists; (split; [reflexivity|]); now left.
  Qed.

  Definition call_ok (h : list (tlabel (notif A))) i (p : prog unit (act B)) : Prop :=
    match nth_error (issued h) i with
    | Some (OnNext a) => (~ In i (gone h) /\ p = Read (fun _ => fin a)) \/ (In i (gone h) /\ settled p)
    | Some _ => settled p
    | None => False
    end.

  Lemma async_inv h s : treach pol O r h s ->
    run (pcomp pol r) (pinit pol r) (told (chosen ans) [] [] h) (snd (t_next s)) /\
    length (t_calls s) = length (issued h) /\
    (forall i, In i (gone h) -> i < length (issued h)) /\
    (forall i p, nth_error (t_calls s) i = Some p -> call_ok h i p).
  Proof.
    induction 1 as [|h s l s' H (I1 & I2 & I3 & I4) E].
    { cbn. split; [apply run_nil|]. split; [reflexivity|]. split; [intros i []|intros [|i] p; discriminate]. }
    rewrite told_snoc. cbn [app].
    destruct l as [m|i|k]; cbn [tstep] in E.
    - assert (X : exists d p, tstep s (TCall m) = Some (@TState _ _ _ pol O r tt d (t_calls s ++ [p])) /\
                run (pcomp pol r) (pinit pol r) (told (chosen ans) [] [] h ++ contribution (chosen ans) (issued h) (gone h) (TCall m)) (snd d) /\
                match m with OnNext a => p = Read (fun _ => fin a) | _ => settled p end).
      { cbn [tstep direct body st]. rewrite Hbd. destruct (t_vars s). destruct m as [a|e|].
        - destruct (t_next s) as [n0 d0]. cbn [turn seqp awaitp bindp act_comp ccall waits contribution].
          rewrite app_nil_r. exists (n0, d0). eexists. split; [reflexivity|]. split; [exact I1|reflexivity].
        - destruct (turn_deliver (OnError e) tt (t_next s)) as (q & T & Q). rewrite T.
          eexists. exists q. split; [reflexivity|]. split; [|exact Q]. cbn [contribution snd]. now apply run_snoc.
        - destruct (turn_deliver OnCompleted tt (t_next s)) as (q & T & Q). rewrite T.
          eexists. exists q. split; [reflexivity|]. split; [|exact Q]. cbn [contribution snd]. now apply run_snoc. }
      destruct X as (d & p & X & X1 & X2). cbn [tstep] in X. rewrite E in X. injection X as ->.
      change (prog (st O) (act B)) with (prog unit (act B)) in *.
      cbn [t_calls t_next]. split; [exact X1|]. rewrite issued_snoc, gone_snoc, !app_length, app_nil_r. cbn [length].
      split; [exact (f_equal (fun n => n + 1) I2)|]. split; [intros i Hi; specialize (I3 i Hi); lia|].
      intros i q Hq. unfold call_ok. rewrite issued_snoc, gone_snoc, app_nil_r.
      destruct (Nat.lt_ge_cases i (length (t_calls s))) as [L|L].
      + rewrite nth_error_app1 in Hq by assumption. rewrite nth_error_app1 by (rewrite <- I2; exact L). exact (I4 _ _ Hq).
      + assert (Lp : i < length (t_calls s ++ [p])) by (apply nth_error_Some; intros Q; pose proof (eq_trans (eq_sym Hq) Q); discriminate).
        rewrite app_length in Lp. cbn [length] in Lp. assert (Hi : i = length (t_calls s)) by lia.
        assert (q = p) as ->.
        { assert (Y : Some q = Some p); [|now injection Y]. rewrite <- Hq, Hi. exact (nth_error_snoc (t_calls s) p). }
        assert (Ei : i = length (issued h)) by exact (eq_trans Hi I2). rewrite Ei.
        rewrite nth_error_app2, Nat.sub_diag by lia. cbn. destruct m; try exact X2.
        left. split; [|exact X2]. intros Hg. specialize (I3 _ Hg). lia.
    - destruct (nth_error (t_calls s) i) as [p|] eqn:Np; [|discriminate].
      destruct (over p) eqn:Op; [discriminate|].
      assert (Li : i < length (issued h)) by (rewrite <- I2; apply nth_error_Some; congruence).
      assert (X : exists d q, turn (waits r) (ccall C) p (t_vars s) (t_next s) = (t_vars s, d, q) /\ settled q /\
                run (pcomp pol r) (pinit pol r) (told (chosen ans) [] [] h ++ contribution (chosen ans) (issued h) (gone h) (TGo i)) (snd d)).
      { specialize (I4 _ _ Np). unfold call_ok in I4. cbn [contribution].
        destruct (nth_error (issued h) i) as [m|] eqn:Nm; [|contradiction].
        assert (Hs : settled p -> exists d q, turn (waits r) (ccall C) p (t_vars s) (t_next s) = (t_vars s, d, q) /\ settled q /\
                     run (pcomp pol r) (pinit pol r) (told (chosen ans) [] [] h) (snd d)).
        { intros Sp. destruct (turn_settled (waits r) (ccall C) (t_vars s) (t_next s) Sp) as (q & T & Q).
          exists (t_next s), q. split; [exact T|]. split; [now left|exact I1]. }
        destruct m as [a|e|].
        - destruct I4 as [[Ni ->]|[Yi Sp]].
          + destruct (in_dec Nat.eq_dec i (gone h)); [contradiction|]. unfold fin, chosen in *. cbn [turn].
            destruct (ans a) as [[b|]|e].
            * destruct (turn_deliver (OnNext b) (t_vars s) (t_next s)) as (q & T & Q).
              eexists. exists q. split; [exact T|]. split; [exact Q|]. cbn [snd map]. now apply run_snoc.
            * exists (t_next s), Ret. split; [reflexivity|]. split; [now left|]. cbn [map]. rewrite app_nil_r. exact I1.
            * exists (t_next s), (Raise e). split; [reflexivity|]. split; [now left|]. cbn [map]. rewrite app_nil_r. exact I1.
          + destruct (in_dec Nat.eq_dec i (gone h)); [|contradiction]. rewrite app_nil_r. now apply Hs.
        - destruct (in_dec Nat.eq_dec i (gone h)); rewrite app_nil_r; now apply Hs.
        - destruct (in_dec Nat.eq_dec i (gone h)); rewrite app_nil_r; now apply Hs. }
      destruct X as (d & q & X & X1 & X2). rewrite X in E. injection E as <-. cbn [t_calls t_next].
      split; [exact X2|]. rewrite issued_snoc, gone_snoc, app_nil_r, replace_length.
      split; [exact I2|]. split.
      { intros j Hj. apply in_app_or in Hj. destruct Hj as [Hj|[<-|[]]]; [now apply I3|exact Li]. }
      intros j p' Hp. unfold call_ok. rewrite issued_snoc, gone_snoc, app_nil_r.
      destruct (Nat.eq_dec i j) as [<-|Ne].
      + rewrite (replace_same _ _ _ Np) in Hp. injection Hp as <-.
        destruct (nth_error (issued h) i) as [m|] eqn:Nm; [|apply nth_error_None in Nm; lia].
        destruct m; try exact X1. right. split; [|exact X1]. apply in_or_app. right. now left.
      + rewrite replace_other in Hp by assumption. specialize (I4 _ _ Hp). unfold call_ok in I4.
        destruct (nth_error (issued h) j) as [[a|e|]|]; try exact I4.
        rewrite in_app_iff. cbn. destruct I4 as [[N1 N2]|[N1 N2]]; [left|right]; (split; [|exact N2]).
        * intros [Q|[Q|[]]]; [contradiction|congruence].
        * now left.
    - destruct (cstep C k (t_next s)) as [d|] eqn:K; [|discriminate]. injection E as <-. cbn [t_calls t_next contribution].
      rewrite app_nil_r, issued_snoc, gone_snoc, !app_nil_r. split.
      { eapply run_then; [exact I1|]. destruct (t_next s) as [n0 d0]. cbn in K |- *.
        destruct (cstep (pcomp pol r) k d0) eqn:K0; [|discriminate]. injection K as <-. exact K0. }
      split; [exact I2|]. split; [exact I3|]. intros i p Hp. specialize (I4 _ _ Hp). unfold call_ok in *.
      rewrite issued_snoc, gone_snoc, !app_nil_r. exact I4.
  Qed.

  (** When every call is over, every function has answered. *)
  Lemma async_idle h s : treach pol O r h s -> idle s = true ->
    forall i a, nth_error (issued h) i = Some (OnNext a) -> In i (gone h).
  Proof.
    intros H Hi i a N. destruct (async_inv H) as (_ & I2 & _ & I4).
    destruct (nth_error (t_calls s) i) as [p|] eqn:P.
    - specialize (I4 _ _ P). unfold call_ok in I4. rewrite N in I4. destruct I4 as [[_ ->]|[I _]]; [|exact I].
      rewrite idle_nth in Hi. specialize (Hi _ _ P). discriminate.
    - apply nth_error_None in P. rewrite I2 in P. assert (i < length (issued h)) by (apply nth_error_Some; congruence). lia.
  Qed.
End Async.

(** ** The elements told *)
Lemma firsts_snoc l i : firsts (l ++ [i]) = firsts l ++ (if in_dec Nat.eq_dec i l then [] else [i]).
Proof.
  unfold firsts. rewrite rev_app_distr. cbn [rev app nodup].
  destruct (in_dec Nat.eq_dec i (rev l)) as [H|H]; rewrite <- in_rev in H;
    destruct (in_dec Nat.eq_dec i l); try contradiction; [now rewrite app_nil_r|reflexivity].
Qed.

Lemma firsts_in l i : In i (firsts l) <-> In i l.
Proof. unfold firsts. rewrite <- in_rev, nodup_In, <- in_rev. tauto. Qed.

Lemma firsts_nodup l : NoDup (firsts l).
Proof. unfold firsts. apply NoDup_rev, NoDup_nodup. Qed.

Lemma elements_app A (l l' : list (notif A)) : elements (l ++ l') = elements l ++ elements l'.
Proof. induction l as [|[]]; cbn; [reflexivity|f_equal; assumption|assumption|assumption]. Qed.

Lemma elements_map A (l : list A) : elements (map OnNext l) = l.
Proof. induction l; cbn; congruence. Qed.

(** The answer of the [i]-th call. *)
Definition answer {A B} (ans : A -> list B) (ms : list (notif A)) (i : nat) : list B :=
  match nth_error ms i with Some (OnNext a) => ans a | _ => [] end.

Lemma flat_map_ext_in X Y (f g : X -> list Y) l : (forall x, In x l -> f x = g x) -> flat_map f l = flat_map g l.
Proof. induction l; cbn; intros H; [reflexivity|]. rewrite (H a) by now left. f_equal. apply IHl. intros x I. apply H. now right. Qed.

Lemma told_elements A B (ans : A -> list B) h : 
  (forall h1 i h2, h = h1 ++ TGo i :: h2 -> i < length (issued h1)) ->
  elements (told ans [] [] h) = flat_map (answer ans (issued h)) (firsts (gone h)).
Proof.
  induction h as [|x h IH] using rev_ind; intros Hlt; [reflexivity|].
  assert (Hlt' : forall h1 i h2, h = h1 ++ TGo i :: h2 -> i < length (issued h1)).
  { intros h1 i h2 ->. apply (Hlt h1 i (h2 ++ [x])). now rewrite <- app_assoc. }
  specialize (IH Hlt').
  assert (Hin : forall i, In i (gone h) -> i < length (issued h)).
  { clear - Hlt'. intros i. induction h as [|y h IH] using rev_ind; [intros []|].
    assert (Hlt : forall h1 j h2, h = h1 ++ TGo j :: h2 -> j < length (issued h1)).
    { intros h1 j h2 ->. apply (Hlt' h1 j (h2 ++ [y])). now rewrite <- app_assoc. }
    rewrite gone_snoc, issued_snoc, app_length. intros I. apply in_app_or in I. destruct I as [I|I].
    - specialize (IH Hlt I). lia.
    - destruct y as [|j|]; cbn in I; try contradiction. destruct I as [<-|[]].
      specialize (Hlt' h j [] eq_refl). lia. }
  rewrite told_snoc, elements_app, IH, gone_snoc, issued_snoc. cbn [app].
  assert (Hext : forall ms, flat_map (answer ans (issued h)) (firsts (gone h)) = flat_map (answer ans (issued h ++ ms)) (firsts (gone h))).
  { intros ms. apply flat_map_ext_in. intros i I. rewrite firsts_in in I. unfold answer.
    rewrite nth_error_app1 by now apply Hin. reflexivity. }
  destruct x as [m|i|k]; cbn [contribution].
  - rewrite app_nil_r, <- Hext. destruct m; cbn; apply app_nil_r.
  - rewrite app_nil_r, firsts_snoc, flat_map_app. f_equal.
    destruct (in_dec Nat.eq_dec i (gone h)); [reflexivity|]. cbn. rewrite app_nil_r. unfold answer.
    destruct (nth_error (issued h) i) as [[]|]; try reflexivity. apply elements_map.
  - rewrite !app_nil_r. reflexivity.
Qed.

Lemma treach_go_lt Z M B (pol : policy Z) (o : op M (act B)) r h s : treach pol o r h s ->
  forall h1 i h2, h = h1 ++ TGo i :: h2 -> i < length (issued h1).
Proof.
  assert (L : forall h s, treach pol o r h s -> length (t_calls s) = length (issued h)).
  { clear. induction 1 as [|h s l s' H IH E]; [reflexivity|]. rewrite issued_snoc, app_length.
    destruct l as [m|i|k]; cbn [tstep] in E.
    - destruct (turn _ _ _ _ _) as [[? ?] ?]. injection E as <-. cbn. rewrite app_length. cbn. lia.
    - destruct (nth_error _ _); [|discriminate]. destruct (over _); [discriminate|].
      destruct (turn _ _ _ _ _) as [[? ?] ?]. injection E as <-. cbn. rewrite replace_length. lia.
    - destruct (cstep _ _ _); [|discriminate]. injection E as <-. cbn. lia. }
  intros H h1 i h2 ->.
  assert (H' : exists s', treach pol o r (h1 ++ [TGo i]) s').
  { replace (h1 ++ TGo i :: h2) with ((h1 ++ [TGo i]) ++ h2) in H by now rewrite <- app_assoc.
    eapply treach_app, H. }
  destruct H' as (s' & H'). destruct (treach_prefix _ _ H') as (s1 & H1 & E). cbn [tstep] in E.
  rewrite <- (L _ _ H1). apply nth_error_Some. destruct (nth_error (t_calls s1) i); [congruence|discriminate].
Qed.

Lemma answers_seq A B (ans : A -> list B) (ms : list (notif A)) :
  flat_map (answer ans ms) (seq 0 (length ms)) = flat_map ans (elements ms).
Proof.
  induction ms as [|m ms IH] using rev_ind; [reflexivity|].
  rewrite app_length, seq_app, flat_map_app, elements_app, flat_map_app. cbn [length seq flat_map Nat.add].
  f_equal.
  - rewrite <- IH. apply flat_map_ext_in. intros i I. apply in_seq in I. unfold answer. rewrite nth_error_app1 by lia. reflexivity.
  - rewrite app_nil_r. unfold answer. rewrite nth_error_app2, Nat.sub_diag by lia. destruct m; cbn; rewrite ?app_nil_r; reflexivity.
Qed.

Lemma answers_permutation A B (ans : A -> list B) (ms : list (notif A)) L : NoDup L ->
  (forall i, In i L -> i < length ms) -> (forall i a, nth_error ms i = Some (OnNext a) -> In i L) ->
  Permutation (flat_map (answer ans ms) L) (flat_map ans (elements ms)).
Proof.
  intros HN HL HA. rewrite <- answers_seq.
  set (rest := filter (fun i => if in_dec Nat.eq_dec i L then false else true) (seq 0 (length ms))).
  assert (HP : Permutation (L ++ rest) (seq 0 (length ms))).
  { apply NoDup_Permutation.
    - assert (G : forall l1 l2 : list nat, NoDup l1 -> NoDup l2 -> (forall y, In y l1 -> ~ In y l2) -> NoDup (l1 ++ l2)).
        { clear. induction l1 as [|y l1 IH]; intros l2 H1 H2 H3; [exact H2|]. cbn. inversion H1; subst. constructor.
          - rewrite in_app_iff. intros [Q|Q]; [contradiction|]. apply (H3 y); [now left|exact Q].
          - apply IH; auto. intros z Z1. apply H3. now right. }
        apply G; [exact HN|apply NoDup_filter, seq_NoDup|].
        intros y Hy Q. apply filter_In in Q. destruct Q as [_ Q]. destruct (in_dec Nat.eq_dec y L); [discriminate|contradiction].
    - apply seq_NoDup.
    - intros i. rewrite in_app_iff. unfold rest. rewrite filter_In, in_seq. split.
      + intros [Q|[Q _]]; [specialize (HL _ Q); lia|lia].
      + intros Q. destruct (in_dec Nat.eq_dec i L); [now left|right]. split; [lia|reflexivity]. }
  rewrite <- (Permutation_flat_map (answer ans ms) HP). rewrite flat_map_app.
  assert (E : flat_map (answer ans ms) rest = []).
  { assert (forall i, In i rest -> answer ans ms i = []).
    { intros i I. apply filter_In in I. destruct I as [_ I]. destruct (in_dec Nat.eq_dec i L) as [|N]; [discriminate|].
      unfold answer. destruct (nth_error ms i) as [[a|e|]|] eqn:Q; try reflexivity. exfalso. apply N, (HA _ _ Q). }
    clear - H. induction rest as [|i rest IH]; [reflexivity|]. cbn. rewrite (H i) by now left. apply IH. intros j J. apply H. now right. }
  rewrite E, app_nil_r. reflexivity.
Qed.

(** ** scan_async *)
Section Scan.
  Context {A B : Type} (pol : policy B) (f : B -> A -> res B) (b0 : B).
  Notation O := (scan_op f b0).
  Notation R := (treach pol O PEnd).

  Definition sfin (c : B) (a : A) : prog B (act B) :=
    match f c a with
    | Err e => awaitp (Deliver (OnError e))
    | Ok b => Write b (awaitp (Deliver (OnNext b)))
    end.

  Lemma settled_read (S N : Type) (x : option exn) :
    settled (S := S) (N := N) (Read (fun _ => match x with Some e => Raise e | None => Ret end)).
  Proof. right. eexists. split; [reflexivity|]. now destruct x. Qed.

  (** Begin of a call. *)
  Lemma scan_call (s : tstate pol O PEnd) n : exists p,
    tstep s (TCall n) = Some (@TState _ _ _ pol O PEnd (t_vars s)
      (fst (t_next s), tlog s ++ match n with OnNext _ => [] | OnError e => [OnError e] | OnCompleted => [OnCompleted] end)
      (t_calls s ++ [p])) /\
    match n with OnNext a => p = Read (fun _ => sfin (t_vars s) a) | _ => settled p end.
  Proof.
    destruct s as [v [k l] cs]. cbn [tstep t_vars t_next t_calls scan_op direct body tlog snd fst plog st].
    destruct n as [a|e|].
    - cbn. rewrite app_nil_r. eexists. split; [reflexivity|reflexivity].
    - cbn. eexists. split; [reflexivity|apply settled_read].
    - cbn. eexists. split; [reflexivity|apply settled_read].
  Qed.

  (** The accumulator of a call ends. *)
  Lemma scan_go (s : tstate pol O PEnd) i c a : nth_error (t_calls s) i = Some (Read (fun _ => sfin c a)) ->
    exists q, tstep s (TGo i) = Some (@TState _ _ _ pol O PEnd
      (match f c a with Ok b => b | Err _ => t_vars s end)
      (fst (t_next s), tlog s ++ [match f c a with Ok b => OnNext b | Err e => OnError e end])
      (replace_nth i q (t_calls s))) /\ settled q.
  Proof.
    destruct s as [v [k l] cs]. cbn [tstep t_vars t_next t_calls tlog snd fst plog]. intros ->. cbn [over turn]. unfold sfin.
    destruct (f c a) as [b|e]; cbn.
    - eexists. split; [reflexivity|apply settled_read].
    - eexists. split; [reflexivity|apply settled_read].
  Qed.

  Lemma settled_go (s : tstate pol O PEnd) i p s' : nth_error (t_calls s) i = Some p -> settled p ->
    tstep s (TGo i) = Some s' -> t_vars s' = t_vars s /\ tlog s' = tlog s /\ exists q, t_calls s' = replace_nth i q (t_calls s) /\ settled q.
  Proof.
    intros N P E. cbn [tstep] in E. rewrite N in E. destruct (over p); [discriminate|].
    destruct (turn_settled (waits PEnd) (ccall (act_comp (pcomp pol PEnd))) (t_vars s) (t_next s) P) as (q & T & Q).
    rewrite T in E. injection E as <-. cbn. split; [reflexivity|]. split; [reflexivity|]. exists q. split; [reflexivity|now left].
  Qed.

  Lemma no_workers (s : tstate pol O PEnd) k : tstep s (TWork k) = None.
  Proof. reflexivity. Qed.

  Definition scan_call_ok (h : list (tlabel (notif A))) i (p : prog B (act B)) : Prop :=
    forall h1 n h2, h = h1 ++ TCall n :: h2 -> length (issued h1) = i ->
    match n with
    | OnNext a => (~ In (TGo i) h2 /\ forall s1, R h1 s1 -> p = Read (fun _ => sfin (last_element b0 (tlog s1)) a)) \/
                  (In (TGo i) h2 /\ settled p)
    | _ => settled p
    end.

  Lemma last_snoc_elem (l : list (notif B)) n :
    last_element b0 (l ++ [n]) = match n with OnNext b => b | _ => last_element b0 l end.
  Proof.
    unfold last_element. rewrite elements_app. destruct n; cbn; [apply last_last|now rewrite app_nil_r|now rewrite app_nil_r].
  Qed.

  (** The two ways to split a longer history at a call. *)
  Lemma split_snoc (h : list (tlabel (notif A))) x h1 n h2 : h ++ [x] = h1 ++ TCall n :: h2 ->
    (h2 = [] /\ h1 = h /\ x = TCall n) \/ (exists h3, h2 = h3 ++ [x] /\ h = h1 ++ TCall n :: h3).
  Proof.
    destruct h2 as [|y h3 _] using rev_ind; intros E.
    - apply app_inj_tail in E. destruct E as [-> ->]. left. auto.
    - right. exists h3. rewrite app_comm_cons, app_assoc in E. apply app_inj_tail in E. destruct E as [-> ->]. split; reflexivity.
  Qed.

  Lemma scan_inv h s : R h s ->
    t_vars s = last_element b0 (tlog s) /\ length (t_calls s) = length (issued h) /\
    (forall i p, nth_error (t_calls s) i = Some p -> scan_call_ok h i p).
  Proof.
    induction 1 as [|h s x s' H (I1 & I2 & I3) E].
    { split; [reflexivity|]. split; [reflexivity|]. intros [|i] p; discriminate. }
    destruct x as [n|i|k]; [| |rewrite no_workers in E; discriminate].
    - destruct (scan_call s n) as (p & T & P). rewrite E in T. injection T as ->.
      rewrite issued_snoc, app_length. cbn [t_vars t_calls t_next tlog snd plog length]. split; [|split].
      + destruct n; cbn; rewrite ?app_nil_r, ?last_snoc_elem; exact I1.
      + rewrite app_length. cbn [length]. exact (f_equal (fun z => z + 1) I2).
      + intros i q Hq h1 n' h2 Eh Li. destruct (Nat.lt_ge_cases i (length (t_calls s))) as [L|L].
        * rewrite nth_error_app1 in Hq by assumption. specialize (I3 _ _ Hq).
          destruct (@split_snoc _ _ _ _ _ Eh) as [(-> & -> & X)|(h3 & -> & Eh3)].
          { exfalso. pose proof I2 as I2'. change (prog (st O) (act B)) with (prog B (act B)) in *. lia. }
          specialize (I3 _ _ _ Eh3 Li). destruct n'; try exact I3. rewrite in_app_iff. cbn.
          destruct I3 as [[N1 N2]|[N1 N2]]; [left|right]; (split; [|exact N2]).
          -- intros [Q|[Q|[]]]; [contradiction|discriminate].
          -- now left.
        * destruct (@snoc_lookup _ _ _ _ _ Hq L) as [Hi ->]. clear Hq L.
          destruct (@split_snoc _ _ _ _ _ Eh) as [(-> & -> & X)|(h3 & -> & Eh3)].
          -- injection X as ->. destruct n'; try exact P. left. split; [intros []|].
             intros s1 H1. rewrite <- (treach_det H H1). rewrite P, I1. reflexivity.
          -- exfalso. rewrite Eh3 in I2. rewrite <- Hi in I2. rewrite <- Li in I2. clear - I2. rename I2 into Q.
             assert (forall (ha hb : list (tlabel (notif A))), issued (ha ++ hb) = issued ha ++ issued hb) as MA.
             { clear. induction ha as [|[]]; intros; cbn; congruence. }
             rewrite MA, app_length in Q. cbn in Q. lia.
    - destruct (nth_error (t_calls s) i) as [p|] eqn:Np; [|cbn [tstep] in E; rewrite Np in E; discriminate].
      rewrite issued_snoc, app_nil_r.
      (* what the call is *)
      assert (MA : forall (ha hb : list (tlabel (notif A))), issued (ha ++ hb) = issued ha ++ issued hb).
      { clear. induction ha as [|[]]; intros; cbn; congruence. }
      assert (Li : i < length (issued h)) by (rewrite <- I2; apply nth_error_Some; rewrite Np; discriminate).
      assert (Sp : exists h1 n h2, h = h1 ++ TCall n :: h2 /\ length (issued h1) = i).
      { clear - Li. induction h as [|y h IH] using rev_ind; [cbn in Li; lia|]. rewrite issued_snoc, app_length in Li.
        destruct (Nat.lt_ge_cases i (length (issued h))) as [L|L].
        - destruct (IH L) as (h1 & n & h2 & -> & E). exists h1, n, (h2 ++ [y]). split; [|exact E]. now rewrite <- app_assoc.
        - destruct y as [n|j|k]; cbn in Li; try lia. exists h, n, []. split; [reflexivity|lia]. }
      destruct Sp as (h1 & n & h2 & Eh & El).
      pose proof (I3 _ _ Np h1 n h2 Eh El) as OK.
      assert (Keep : forall q, settled q -> t_calls s' = replace_nth i q (t_calls s) ->
        forall j p', nth_error (t_calls s') j = Some p' -> scan_call_ok (h ++ [TGo i]) j p').
      { intros q Q Ec j p' Hp g1 m g2 Eg Lj. rewrite Ec in Hp.
        destruct (@split_snoc _ _ _ _ _ Eg) as [(_ & _ & X)|(g3 & -> & Eg3)]; [discriminate|].
        destruct (Nat.eq_dec i j) as [<-|Ne].
        - rewrite (replace_same _ _ _ Np) in Hp. injection Hp as <-. destruct m; try exact Q. right. split; [|exact Q].
          apply in_or_app. right. now left.
        - rewrite replace_other in Hp by assumption. specialize (I3 _ _ Hp _ _ _ Eg3 Lj). destruct m; try exact I3.
          rewrite in_app_iff. cbn. destruct I3 as [[N1 N2]|[N1 N2]]; [left|right]; (split; [|exact N2]).
          + intros [X|[X|[]]]; [contradiction|]. injection X as X. congruence.
          + now left. }
      assert (Done : settled p -> t_vars s' = last_element b0 (tlog s') /\ length (t_calls s') = length (issued h) /\
        (forall j p', nth_error (t_calls s') j = Some p' -> scan_call_ok (h ++ [TGo i]) j p')).
      { intros Ps. destruct (settled_go s i Np Ps E) as (V & L & q & Ec & Q). rewrite V, L. split; [exact I1|]. split.
        - rewrite Ec. rewrite replace_length. exact I2.
        - exact (Keep q Q Ec). }
      destruct n as [a|e|]; [|now apply Done|now apply Done]. destruct OK as [[N1 N2]|[N1 N2]]; [|now apply Done].
      assert (H1 : exists s1, R h1 s1) by (rewrite Eh in H; eapply treach_app, H).
      destruct H1 as (s1 & H1). specialize (N2 _ H1).
      assert (Np' : nth_error (t_calls s) i = Some (Read (fun _ => sfin (last_element b0 (tlog s1)) a))) by (rewrite Np; f_equal; exact N2).
      destruct (scan_go s i _ _ Np') as (q & T & Q). rewrite E in T. injection T as ->. split.
      + cbn [t_vars tlog t_next snd plog]. rewrite last_snoc_elem. destruct (f _ a); [reflexivity|exact I1].
      + cbn [t_calls]. split; [rewrite replace_length; exact I2|]. exact (Keep q Q eq_refl).
  Qed.

  (** A call that has not gone on yet can, and passes on the accumulation. *)
  Lemma scan_step h1 a h2 s1 s2 : R h1 s1 -> R (h1 ++ TCall (OnNext a) :: h2) s2 -> ~ In (TGo (length (issued h1))) h2 ->
    exists s3, tstep s2 (TGo (length (issued h1))) = Some s3 /\
      tlog s3 = tlog s2 ++ [match f (last_element b0 (tlog s1)) a with Ok b => OnNext b | Err e => OnError e end].
  Proof.
    intros H1 H2 N. destruct (scan_inv H2) as (_ & L & I).
    destruct (nth_error (t_calls s2) (length (issued h1))) as [p|] eqn:Np.
    - specialize (I _ _ Np h1 (OnNext a) h2 eq_refl eq_refl). cbn in I. destruct I as [[_ I]|[I _]]; [|contradiction].
      specialize (I _ H1). assert (Np' := Np). rewrite I in Np'.
      destruct (scan_go s2 _ _ _ Np') as (q & T & Q). eexists. split; [exact T|]. reflexivity.
    - apply nth_error_None in Np. exfalso.
      assert (MA : forall (ha hb : list (tlabel (notif A))), issued (ha ++ hb) = issued ha ++ issued hb).
      { clear. induction ha as [|[]]; intros; cbn; congruence. }
      rewrite MA, app_length in L. cbn in L. pose proof (eq_sym L) as L'.
      assert (length (issued h1) < length (t_calls s2)); [|apply (Nat.lt_irrefl (length (issued h1))); eapply Nat.lt_le_trans; eassumption].
      eapply Nat.lt_le_trans; [|apply Nat.eq_le_incl; exact L']. lia.
  Qed.

  (** No other step changes what the subscriber has been told, except a terminal. *)
  Lemma scan_other h x s s' : R h s -> tstep s x = Some s' ->
    match x with
    | TCall (OnNext _) => tlog s' = tlog s
    | TCall (OnError e) => tlog s' = tlog s ++ [OnError e]
    | TCall OnCompleted => tlog s' = tlog s ++ [OnCompleted]
    | TGo i => forall h1 n h2, h = h1 ++ TCall n :: h2 -> length (issued h1) = i -> is_term n = true \/ In (TGo i) h2 -> tlog s' = tlog s
    | TWork _ => False
    end.
  Proof.
    intros H E. destruct x as [n|i|k].
    - destruct (scan_call s n) as (p & T & P). rewrite E in T. injection T as ->.
      destruct n; cbn; rewrite ?app_nil_r; reflexivity.
    - intros h1 n h2 Eh El C. destruct (scan_inv H) as (_ & _ & I).
      destruct (nth_error (t_calls s) i) as [p|] eqn:Np; [|cbn [tstep] in E; rewrite Np in E; discriminate].
      specialize (I _ _ Np h1 n h2 Eh El).
      assert (Sp : settled p).
      { destruct n as [a|e|]; [|exact I..]. destruct C as [C|C]; [discriminate|]. destruct I as [[I _]|[_ I]]; [contradiction|exact I]. }
      destruct (settled_go s i Np Sp E) as (_ & L & _). exact L.
    - rewrite no_workers in E. discriminate.
  Qed.
End Scan.

(** ** The three operators *)
Lemma told_ext A B (f g : A -> list B) : (forall a, f a = g a) -> forall h ms seen, told f ms seen h = told g ms seen h.
Proof.
  intros E. induction h as [|[m|i|k] h IH]; intros ms seen; cbn [told]; rewrite ?IH; try reflexivity.
  destruct (nth_error ms i) as [[a|e|]|]; [rewrite E|..]; reflexivity.
Qed.

Lemma async_spec Z A B (pol : policy Z) (r : pipe Z B) (ans : A -> res (option B)) (out : A -> list B) bd h s :
  (forall n, bd n = match n with
     | OnNext a => seqp (awaitp Await) (fin ans a)
     | OnError e => awaitp (Deliver (OnError e))
     | OnCompleted => awaitp (Deliver OnCompleted)
     end) ->
  (forall a, chosen ans a = out a) ->
  treach pol (direct tt bd) r h s ->
  run (pcomp pol r) (pinit pol r) (told out [] [] h) (snd (t_next s)) /\
  elements (told out [] [] h) = flat_map (answer out (issued h)) (firsts (gone h)) /\
  (idle s = true -> Permutation (elements (told out [] [] h)) (flat_map out (elements (issued h)))).
Proof.
  intros Hbd Hout H. destruct (async_inv ans Hbd H) as (I1 & I2 & I3 & I4).
  rewrite (told_ext _ _ Hout) in I1. split; [exact I1|].
  assert (E : elements (told out [] [] h) = flat_map (answer out (issued h)) (firsts (gone h))).
  { apply told_elements. apply (treach_go_lt H). }
  split; [exact E|]. intros Hi. rewrite E. apply answers_permutation.
  - apply firsts_nodup.
  - intros i I. rewrite firsts_in in I. now apply I3.
  - intros i a N. rewrite firsts_in. exact (async_idle ans Hbd H Hi i N).
Qed.

Lemma map_async_spec Z A B (pol : policy Z) (r : pipe Z B) (f : A -> res B) h s :
  treach pol (map_async_op f) r h s ->
  run (pcomp pol r) (pinit pol r) (told (mapped f) [] [] h) (snd (t_next s)) /\
  elements (told (mapped f) [] [] h) = flat_map (answer (mapped f) (issued h)) (firsts (gone h)) /\
  (idle s = true -> Permutation (elements (told (mapped f) [] [] h)) (flat_map (mapped f) (elements (issued h)))).
Proof.
  apply (async_spec (fun a => match f a with Ok b => Ok (Some b) | Err e => Err e end)).
  - intros [a|e|]; [|reflexivity..]. unfold fin. destruct (f a); reflexivity.
  - intros a. unfold chosen, mapped. destruct (f a); reflexivity.
Qed.

Lemma filter_async_spec Z A (pol : policy Z) (r : pipe Z A) (p : A -> res bool) h s :
  treach pol (filter_async_op p) r h s ->
  run (pcomp pol r) (pinit pol r) (told (kept p) [] [] h) (snd (t_next s)) /\
  elements (told (kept p) [] [] h) = flat_map (answer (kept p) (issued h)) (firsts (gone h)) /\
  (idle s = true -> Permutation (elements (told (kept p) [] [] h)) (flat_map (kept p) (elements (issued h)))).
Proof.
  apply (async_spec (fun a => match p a with Ok true => Ok (Some a) | Ok false => Ok None | Err e => Err e end)).
  - intros [a|e|]; [|reflexivity..]. unfold fin. destruct (p a) as [[|]|]; reflexivity.
  - intros a. unfold chosen, kept. destruct (p a) as [[|]|]; reflexivity.
Qed.

Lemma choose_async_spec Z A B (pol : policy Z) (r : pipe Z B) (f : A -> res (option B)) h s :
  treach pol (choose_async_op f) r h s ->
  run (pcomp pol r) (pinit pol r) (told (chosen f) [] [] h) (snd (t_next s)) /\
  elements (told (chosen f) [] [] h) = flat_map (answer (chosen f) (issued h)) (firsts (gone h)) /\
  (idle s = true -> Permutation (elements (told (chosen f) [] [] h)) (flat_map (chosen f) (elements (issued h)))).
Proof.
  apply (async_spec f).
  - intros [a|e|]; reflexivity.
  - reflexivity.
Qed.

(** The subscriber itself behind: it has been told exactly this. *)
Lemma run_sink Z (pol : policy Z) l0 ms l : run (sink pol) l0 ms l -> l = l0 ++ ms.
Proof.
  induction 1 as [s|s m ms s' H IH|s k s1 ms s' H1 H2 IH].
  - now rewrite app_nil_r.
  - cbn in IH. now rewrite IH, <- app_assoc.
  - discriminate.
Qed.

(** scan, with a subscriber that does not raise. *)
Lemma seq_scan A B (f : B -> A -> B) b0 : forall vs b l n,
  calls (sync_comp (scan_sync_op (fun c a => Ok (f c a)) b0) (act_comp (pcomp well_behaved PEnd))) (b, (n, l)) (map OnNext vs) =
  (fold_left f vs b, (n, l ++ map OnNext (scanl f b vs))).
Proof.
  induction vs as [|v vs IH]; intros b l n.
  - cbn. now rewrite app_nil_r.
  - cbn [map fold_left scanl]. unfold calls in *. cbn [map fold_left].
    transitivity (fold_left f vs (f b v), (n, (l ++ [OnNext (f b v)]) ++ map OnNext (scanl f (f b v) vs))).
    + exact (IH (f b v) (l ++ [OnNext (f b v)]) n).
    + now rewrite <- app_assoc.
Qed.

Lemma run_quiet_calls M (c : comp M) : (forall k s, cstep c k s = None) -> forall s ms s', run c s ms s' -> s' = calls c s ms.
Proof.
  intros Hq. induction 1 as [s|s m ms s' H IH|s k s1 ms s' H1 H2 IH].
  - reflexivity.
  - exact IH.
  - rewrite Hq in H1. discriminate.
Qed.

(** ** Running histories *)
Fixpoint trun {Z M B} {pol : policy Z} {o : op M (act B)} {r : pipe Z B} (s : tstate pol o r) (h : list (tlabel M)) : option (tstate pol o r) :=
  match h with
  | [] => Some s
  | l :: h' => match tstep s l with Some s' => trun s' h' | None => None end
  end.

Lemma trun_reach Z M B (pol : policy Z) (o : op M (act B)) r h s : trun (tinit pol o r) h = Some s -> treach pol o r h s.
Proof.
  assert (G : forall h2 h1 s1, treach pol o r h1 s1 -> trun s1 h2 = Some s -> treach pol o r (h1 ++ h2) s).
  { induction h2 as [|l h2 IH]; intros h1 s1 H E; cbn in E.
    - injection E as <-. now rewrite app_nil_r.
    - destruct (tstep s1 l) as [s2|] eqn:T; [|discriminate].
      replace (h1 ++ l :: h2) with ((h1 ++ [l]) ++ h2) by now rewrite <- app_assoc.
      eapply IH; [|exact E]. eapply treach_s; eassumption. }
  intros E. exact (G h [] _ (treach_0 _ _ _) E).
Qed.

Definition tend {Z M B} (pol : policy Z) (o : op M (act B)) (r : pipe Z B) (h : list (tlabel M)) : tstate pol o r :=
  match trun (tinit pol o r) h with Some s => s | None => tinit pol o r end.

Lemma tend_reach Z M B (pol : policy Z) (o : op M (act B)) r h :
  (if trun (tinit pol o r) h then true else false) = true -> treach pol o r h (tend pol o r h).
Proof. intros E. apply trun_reach. unfold tend. destruct (trun _ h); [reflexivity|discriminate]. Qed.

Fixpoint apart_check {Z M B} {pol : policy Z} {o : op M (act B)} {r : pipe Z B} (s : tstate pol o r) (h : list (tlabel M)) : bool :=
  match h with
  | [] => true
  | l :: h' => (match l with TCall _ => idle s | _ => true end) &&
               match tstep s l with Some s' => apart_check s' h' | None => false end
  end.

Lemma apart_check_ok Z M B (pol : policy Z) (o : op M (act B)) r h :
  apart_check (tinit pol o r) h = true -> one_at_a_time pol o r h.
Proof.
  assert (G : forall h2 h1 m h3 s1 s, treach pol o r h1 s1 -> apart_check s1 (h2 ++ TCall m :: h3) = true ->
              treach pol o r (h1 ++ h2) s -> idle s = true).
  { induction h2 as [|l h2 IH]; intros h1 m h3 s1 s H1 E H; cbn [app apart_check] in E.
    - rewrite app_nil_r in H. rewrite <- (treach_det H1 H). now apply andb_prop in E as [E _].
    - apply andb_prop in E as [_ E]. destruct (tstep s1 l) as [s2|] eqn:T; [|discriminate].
      eapply (IH (h1 ++ [l])); [eapply treach_s; eassumption|exact E|]. now rewrite <- app_assoc. }
  intros E h1 m h2 s -> H. exact (G h1 [] m h2 _ s (treach_0 _ _ _) E H).
Qed.

(** ** reduce *)
Lemma scan_sync_is_relay A B (f : B -> A -> B) c : is_relay (scan_h f) (scan_sync_op (fun s a => Ok (f s a)) c) (fun s => s).
Proof.
  intros D call Ha. split; [|split].
  - intros s d a. cbn. destruct (call d (Deliver (OnNext (f s a)))) as [d' [e|]]; reflexivity.
  - intros s d e. apply exec_deliver.
  - intros s d. apply exec_deliver.
Qed.

Lemma scan_sync_stage Z0 (pol : policy Z0) A B (f : B -> A -> B) b (r : pipe Z0 B) vs e junk l :
  finally (psys pol (safe (scan_sync_ (fun s a => Ok (f s a)) b r))) (source_calls vs e junk) l <->
  finally (psys pol (safe r)) (trace (scanl f b vs) e) l.
Proof.
  unfold scan_sync_. rewrite (stage_relay pol b r _ l (scan_sync_is_relay f b) eq_refl).
  now rewrite relay_norm, norm_trace, relay_scan.
Qed.

Lemma reduce_sync_stage Z0 (pol : policy Z0) A B (f : B -> A -> B) b (r : pipe Z0 B) vs e junk l :
  finally (psys pol (safe (reduce_sync_ (fun s a => Ok (f s a)) b r))) (source_calls vs e junk) l <->
  finally (psys pol (safe r)) (reduce_out f b vs e) l.
Proof.
  unfold reduce_sync_. rewrite scan_sync_stage. rewrite source_calls_nil, take_last_stage.
  replace (take_last_out 1 (scanl f b vs) e) with (reduce_out f b vs e); [reflexivity|].
  unfold take_last_out, reduce_out. destruct e; try reflexivity.
  change (Z.to_nat 1) with 1. destruct vs as [|v vs]; [reflexivity|].
  now rewrite scanl_last by discriminate.
Qed.

Lemma exec_lifted_forp S1 S2 A (q : list A) K1 K2 : forall (s : S1 * S2) l,
  exec (@lcall A) (bindp (lift2 (S1 := S1) (seqp (forp q (fun item => awaitp (Deliver (OnNext item)))) K1)) K2) s l =
  exec lcall (bindp (lift2 K1) K2) s (l ++ map OnNext q).
Proof.
  unfold seqp. induction q as [|x q IH]; intros s l.
  - cbn. now rewrite app_nil_r.
  - cbn. rewrite IH. now rewrite <- app_assoc.
Qed.

Lemma tame_reduce A B (f : B -> A -> B) b n : Tame (inline (scan_sync_op (fun s a => Ok (f s a)) b) (take_last_op n)).
Proof.
  split.
  - intros [s q] a. cbn. destruct (n <? _)%Z; reflexivity.
  - intros [s q] x. exists []. cbn. auto.
  - intros [s q]. exists q. cbn [inline scan_sync_op direct take_last_op body awaitp inlinep exec lift2 bindp].
    match goal with |- context [bindp _ ?K] =>
      pose proof (@exec_lifted_forp B (list B) B q (awaitp (Deliver OnCompleted)) K (s, q) []) as E end.
    split; [exact (eq_trans (f_equal (fun z => snd (fst z)) E) eq_refl)|exact (eq_trans (f_equal snd E) eq_refl)].
Qed.

Lemma reduce_sync_hot Z0 (pol : policy Z0) A B (f : B -> A -> B) b (r : pipe Z0 B) vs e junk l :
  finally (psys pol (reduce_sync_ (fun s a => Ok (f s a)) b r)) (source_calls vs e junk) l <->
  finally (psys pol (safe r)) (reduce_out f b vs e) l.
Proof.
  rewrite <- (reduce_sync_stage pol f b r vs e junk l). 
  assert (E : reduce_sync_ (fun s a => Ok (f s a)) b r = pre (inline (scan_sync_op (fun s a => Ok (f s a)) b) (take_last_op 1)) (safe r)) by (destruct r; reflexivity).
  rewrite E. exact (hot_cold pol r vs e junk l (tame_reduce f b 1)).
Qed.
