(** * Closed forms of the operators. *)
From Verif Require Export Ops Spec PipeProofs.
Set Implicit Arguments.

(** ** Cutting after the first terminal call *)
Lemma norm_trace A (vs : list A) e junk : upto_terminal (source_calls vs e junk) = trace vs e.
Proof.
  unfold source_calls, trace. induction vs as [|v vs IH]; simpl.
  - destruct e; reflexivity.
  - now rewrite IH.
Qed.

Lemma norm_trace0 A (vs : list A) e : upto_terminal (trace vs e) = trace vs e.
Proof.
  unfold trace. induction vs as [|v vs IH]; simpl.
  - destruct e; reflexivity.
  - now rewrite IH.
Qed.

Lemma norm_app A (vs : list A) e ms : e <> Open -> upto_terminal (trace vs e ++ ms) = trace vs e.
Proof.
  intros He. unfold trace. induction vs as [|v vs IH]; simpl.
  - destruct e; [congruence|reflexivity|reflexivity].
  - now rewrite IH.
Qed.

Lemma norm_map A (vs : list A) ms : upto_terminal (map OnNext vs ++ ms) = map OnNext vs ++ upto_terminal ms.
Proof. induction vs as [|v vs IH]; simpl; [reflexivity|]. now rewrite IH. Qed.

Lemma norm_grammatical A (ms : list (notif A)) : grammatical (upto_terminal ms).
Proof.
  induction ms as [|m ms IH].
  - exists [], Open. reflexivity.
  - destruct m as [a|e|]; simpl.
    + destruct IH as (vs & e & ->). exists (a :: vs), e. reflexivity.
    + exists [], (Failed e). reflexivity.
    + exists [], Completed. reflexivity.
Qed.

Lemma bsafe_norm D A (call : D -> notif A -> D * option exn) ms : forall d,
  bsafe call ms d = bsafe call (upto_terminal ms) d.
Proof.
  induction ms as [|m ms IH]; intros d; [reflexivity|].
  destruct m as [a|e|]; cbn [bsafe upto_terminal]; try reflexivity.
  destruct (call d (OnNext a)) as [d' [e|]]; [reflexivity|apply IH].
Qed.

Lemma safe_norm Z A (pol : policy Z) (r : pipe Z A) ms l :
  finally (psys pol (safe r)) ms l <-> finally (psys pol (safe r)) (upto_terminal ms) l.
Proof. rewrite !finally_safe. now rewrite <- bsafe_norm. Qed.

Lemma safe_norm_eq Z A (pol : policy Z) (r : pipe Z A) ms ms' l :
  upto_terminal ms = upto_terminal ms' ->
  finally (psys pol (safe r)) ms l <-> finally (psys pol (safe r)) ms' l.
Proof. intros H. rewrite (safe_norm pol r ms), (safe_norm pol r ms'), H. reflexivity. Qed.

(** A well-behaved subscriber behind a safe_observer. *)
Lemma subscriber Z (ms : list (notif Z)) l :
  finally (psys well_behaved (safe PEnd)) ms l <-> l = upto_terminal ms.
Proof.
  rewrite finally_safe.
  assert (H : forall (ms d : list (notif Z)), bsafe (ccall (pcomp (Z := Z) well_behaved PEnd)) ms d = d ++ upto_terminal ms).
  { clear. induction ms as [|m ms IH]; intros d; cbn; [now rewrite app_nil_r|].
    destruct m; cbn; [rewrite IH; now rewrite <- app_assoc|reflexivity|reflexivity]. }
  rewrite H. cbn [pinit app].
  assert (G : F (psys well_behaved PEnd) (upto_terminal ms) (upto_terminal ms)).
  { exists (upto_terminal ms). split; [|reflexivity]. exists 0. split; [constructor|intros k; reflexivity]. }
  split; [|intros ->; exact G].
  intros (y & Hy & <-). destruct G as (z & Hz & Hl).
  rewrite (settles_unique (sn_good (sane_psys well_behaved PEnd)) Hy Hz). exact Hl.
Qed.

(** Normalising the input of an operator behind a safe_observer. *)
Lemma srun_norm A B (o : op (notif A) (act B)) ms : forall s, srun o s ms = srun o s (upto_terminal ms).
Proof.
  induction ms as [|m ms IH]; intros s; [reflexivity|].
  destruct m as [a|e|]; cbn [srun upto_terminal]; try reflexivity.
  destruct (exec lcall (body o (OnNext a)) s []) as [[s' l] [e|]]; [reflexivity|]. now rewrite <- IH.
Qed.

Lemma relay_norm S A B (h : S -> A -> res (S * option B)) ms : forall s, relay h s ms = relay h s (upto_terminal ms).
Proof.
  induction ms as [|m ms IH]; intros s; [reflexivity|].
  destruct m as [a|e|]; cbn [relay upto_terminal]; try reflexivity.
  destruct (h s a) as [[s' [b|]]|e]; [now rewrite <- IH|apply IH|reflexivity].
Qed.

(** ** Relays: map, choose, filter *)
Definition map_h {A B} (f : A -> res B) (s : unit) (a : A) : res (unit * option B) :=
  match f a with Ok b => Ok (s, Some b) | Err e => Err e end.
Definition choose_h {A B} (f : A -> res (option B)) (s : unit) (a : A) : res (unit * option B) :=
  match f a with Ok b => Ok (s, b) | Err e => Err e end.
Definition filter_h {A} (p : A -> res bool) (s : unit) (a : A) : res (unit * option A) :=
  match p a with Ok true => Ok (s, Some a) | Ok false => Ok (s, None) | Err e => Err e end.

Ltac relay_tac :=
  intros D call Ha; split; [|split];
  [ intros [] d a; cbn;
    try (rewrite Ha; cbn)
  | intros [] d e; cbn; destruct (call d (Deliver (OnError e))) as [d' [e'|]]; reflexivity
  | intros [] d; cbn; destruct (call d (Deliver OnCompleted)) as [d' [e'|]]; reflexivity ].

Lemma exec_deliver S N D (call : D -> N -> D * option exn) n (s : S) d :
  exec call (awaitp n) s d = (s, fst (call d n), snd (call d n)).
Proof. cbn. destruct (call d n) as [d' [e|]]; reflexivity. Qed.

Lemma map_is_relay A B (f : A -> res B) : is_relay (map_h f) (map_op f) (fun s => s).
Proof.
  relay_tac. unfold map_h. destruct (f a) as [b|e]; [apply exec_deliver|reflexivity].
Qed.

Lemma map_async_is_relay A B (f : A -> res B) : is_relay (map_h f) (map_async_op f) (fun s => s).
Proof.
  relay_tac. unfold map_h. destruct (f a) as [b|e]; [apply exec_deliver|reflexivity].
Qed.

Lemma choose_is_relay A B (f : A -> res (option B)) : is_relay (choose_h f) (choose_op f) (fun s => s).
Proof.
  relay_tac. unfold choose_h. destruct (f a) as [[b|]|e]; [apply exec_deliver|reflexivity|reflexivity].
Qed.

Lemma choose_async_is_relay A B (f : A -> res (option B)) : is_relay (choose_h f) (choose_async_op f) (fun s => s).
Proof.
  relay_tac. unfold choose_h. destruct (f a) as [[b|]|e]; [apply exec_deliver|reflexivity|reflexivity].
Qed.

Lemma filter_is_relay A (p : A -> res bool) : is_relay (filter_h p) (filter_op p) (fun s => s).
Proof.
  relay_tac. unfold filter_h. destruct (p a) as [[|]|e]; [apply exec_deliver|reflexivity|reflexivity].
Qed.

Lemma filter_async_is_relay A (p : A -> res bool) : is_relay (filter_h p) (filter_async_op p) (fun s => s).
Proof.
  relay_tac. unfold filter_h. destruct (p a) as [[|]|e]; [apply exec_deliver|reflexivity|reflexivity].
Qed.

(** Specifications of the three. *)
Lemma relay_map A B (f : A -> res B) vs e junk : relay (map_h f) tt (source_calls vs e junk) = map_out f vs e.
Proof.
  rewrite relay_norm, norm_trace. unfold map_out. induction vs as [|v vs IH].
  - destruct e; reflexivity.
  - cbn [trace map app relay results]. unfold map_h at 1. destruct (f v) as [b|x]; [|reflexivity].
    change (relay (map_h f) tt (map OnNext vs ++ _)) with (relay (map_h f) tt (trace vs e)).
    rewrite IH. destruct (results f vs) as [bs x]. reflexivity.
Qed.

Lemma relay_choose A B (f : A -> res (option B)) vs e junk :
  relay (choose_h f) tt (source_calls vs e junk) = choose_out f vs e.
Proof.
  rewrite relay_norm, norm_trace. unfold choose_out. induction vs as [|v vs IH].
  - destruct e; reflexivity.
  - cbn [trace map app relay results]. unfold choose_h at 1. destruct (f v) as [[b|]|x]; [| |reflexivity].
    + change (relay (choose_h f) tt (map OnNext vs ++ _)) with (relay (choose_h f) tt (trace vs e)).
      rewrite IH. destruct (results f vs) as [bs x]. reflexivity.
    + change (relay (choose_h f) tt (map OnNext vs ++ _)) with (relay (choose_h f) tt (trace vs e)).
      rewrite IH. destruct (results f vs) as [bs x]. reflexivity.
Qed.

(** [filter p] is [choose] of the values satisfying [p]. *)
Lemma relay_ext S A B (h h' : S -> A -> res (S * option B)) : (forall s a, h s a = h' s a) ->
  forall ms s, relay h s ms = relay h' s ms.
Proof.
  intros H. induction ms as [|m ms IH]; intros s; [reflexivity|].
  destruct m; cbn [relay]; try reflexivity. rewrite <- H.
  destruct (h s a) as [[s' [b|]]|e]; [now rewrite IH|apply IH|reflexivity].
Qed.

Lemma relay_filter A (p : A -> res bool) vs e junk :
  relay (filter_h p) tt (source_calls vs e junk) = choose_out (keep p) vs e.
Proof.
  rewrite <- (relay_choose (keep p) vs e junk). apply relay_ext.
  intros [] a. unfold filter_h, choose_h, keep. destruct (p a) as [[|]|]; reflexivity.
Qed.

Section Relays.
  Context {Z0 : Type} (pol : policy Z0).

  Lemma map_stage A B (f : A -> res B) (r : pipe Z0 B) vs e junk l :
    finally (psys pol (safe (map_ f r))) (source_calls vs e junk) l <->
    finally (psys pol (safe r)) (map_out f vs e) l.
  Proof. rewrite <- (relay_map f vs e junk). exact (stage_relay pol tt r _ l (map_is_relay f) eq_refl). Qed.

  Lemma map_async_stage A B (f : A -> res B) (r : pipe Z0 B) vs e junk l :
    finally (psys pol (safe (map_async_ f r))) (source_calls vs e junk) l <->
    finally (psys pol (safe r)) (map_out f vs e) l.
  Proof. rewrite <- (relay_map f vs e junk). exact (stage_relay pol tt r _ l (map_async_is_relay f) eq_refl). Qed.

  Lemma choose_stage A B (f : A -> res (option B)) (r : pipe Z0 B) vs e junk l :
    finally (psys pol (safe (choose_ f r))) (source_calls vs e junk) l <->
    finally (psys pol (safe r)) (choose_out f vs e) l.
  Proof. rewrite <- (relay_choose f vs e junk). exact (stage_relay pol tt r _ l (choose_is_relay f) eq_refl). Qed.

  Lemma choose_async_stage A B (f : A -> res (option B)) (r : pipe Z0 B) vs e junk l :
    finally (psys pol (safe (choose_async_ f r))) (source_calls vs e junk) l <->
    finally (psys pol (safe r)) (choose_out f vs e) l.
  Proof. rewrite <- (relay_choose f vs e junk). exact (stage_relay pol tt r _ l (choose_async_is_relay f) eq_refl). Qed.

  Lemma filter_stage A (p : A -> res bool) (r : pipe Z0 A) vs e junk l :
    finally (psys pol (safe (filter_ p r))) (source_calls vs e junk) l <->
    finally (psys pol (safe r)) (choose_out (keep p) vs e) l.
  Proof. rewrite <- (relay_filter p vs e junk). exact (stage_relay pol tt r _ l (filter_is_relay p) eq_refl). Qed.

  Lemma filter_async_stage A (p : A -> res bool) (r : pipe Z0 A) vs e junk l :
    finally (psys pol (safe (filter_async_ p r))) (source_calls vs e junk) l <->
    finally (psys pol (safe r)) (choose_out (keep p) vs e) l.
  Proof. rewrite <- (relay_filter p vs e junk). exact (stage_relay pol tt r _ l (filter_async_is_relay p) eq_refl). Qed.
End Relays.

(** ** Operators in front of a safe_observer *)
Lemma detach_stage Z A B (pol : policy Z) (o : op (notif A) (act B)) (r : pipe Z B) ms out l :
  upto_terminal (srun o (ini o) ms) = upto_terminal out ->
  finally (psys pol (safe (pre o (safe r)))) ms l <-> finally (psys pol (safe r)) out l.
Proof.
  intros H. rewrite (stage_safe pol o (safe r) ms l (noraise_safe pol r)).
  apply safe_norm_eq, H.
Qed.

(** Out of one element: what [direct] bodies do when nobody raises. *)
Lemma trace_cons A (v : A) vs e : trace (v :: vs) e = OnNext v :: trace vs e.
Proof. reflexivity. Qed.

(** *** take *)
Lemma take_after A c vs e : srun (@take_op A c) 0%Z (trace vs e) = trace [] e.
Proof. induction vs as [|v vs IH]; [destruct e; reflexivity|]. cbn [trace map app]. exact IH. Qed.

Lemma srun_take_op A c vs e : forall n, (0 <= n)%Z ->
  upto_terminal (srun (@take_op A c) n (trace vs e)) = upto_terminal (take_out n vs e).
Proof.
  induction vs as [|v vs IH]; intros n Hn.
  - unfold take_out. cbn [length Z.of_nat].
    destruct (Z.ltb_spec 0 n); destruct (Z.leb_spec n 0); cbn [andb]; try lia;
      destruct (Z.eqb_spec n 0); destruct e; try reflexivity; lia.
  - rewrite trace_cons. cbn [srun].
    cbn [take_op direct body exec].
    destruct (Z.ltb_spec 0 n) as [Hp|Hp].
    + cbn [exec seqp bindp awaitp lcall app].
      destruct (Z.eqb_spec (n - 1) 0) as [H1|H1].
      * cbn [exec awaitp lcall app]. rewrite H1. rewrite take_after.
        replace n with 1%Z by lia. unfold take_out.
        cbn [length]. replace (1 <=? Z.of_nat (S (length vs)))%Z with true by (symmetry; apply Z.leb_le; lia).
        cbn [Z.ltb Z.compare andb]. change (Z.to_nat 1) with 1. cbn [firstn].
        cbn. destruct e; reflexivity.
      * cbn [exec app]. cbn [upto_terminal]. rewrite IH by lia.
        unfold take_out. cbn [length].
        replace (n <=? Z.of_nat (S (length vs)))%Z with (n - 1 <=? Z.of_nat (length vs))%Z.
        2:{ destruct (Z.leb_spec (n - 1) (Z.of_nat (length vs))); destruct (Z.leb_spec n (Z.of_nat (S (length vs)))); auto; lia. }
        replace (0 <? n - 1)%Z with true by (symmetry; apply Z.ltb_lt; lia).
        replace (0 <? n)%Z with true by (symmetry; apply Z.ltb_lt; lia).
        replace (n - 1 =? 0)%Z with false by (symmetry; apply Z.eqb_neq; lia).
        replace (n =? 0)%Z with false by (symmetry; apply Z.eqb_neq; lia).
        cbn [andb]. destruct (n - 1 <=? Z.of_nat (length vs))%Z.
        -- replace (Z.to_nat n) with (S (Z.to_nat (n - 1))) by lia. cbn [firstn]. rewrite trace_cons. reflexivity.
        -- reflexivity.
    + assert (n = 0%Z) by lia. subst n. cbn [exec app].
      rewrite IH by lia. unfold take_out. cbn. reflexivity.
Qed.

Lemma take_stage Z0 (pol : policy Z0) A (r : pipe Z0 A) n vs e junk l :
  (0 <= n)%Z ->
  finally (psys pol (safe (pre (take_op n) (safe r)))) (source_calls vs e junk) l <->
  finally (psys pol (safe r)) (take_out n vs e) l.
Proof.
  intros Hn. apply detach_stage. rewrite srun_norm, norm_trace. apply srun_take_op, Hn.
Qed.

(** *** skip *)
Lemma srun_skip A c vs e : forall n,
  srun (@skip_op A c) n (trace vs e) = trace (skipn (Z.to_nat n) vs) e.
Proof.
  induction vs as [|v vs IH]; intros n.
  - rewrite skipn_nil. destruct e; reflexivity.
  - rewrite trace_cons. cbn [srun skip_op direct body exec].
    destruct (Z.leb_spec n 0) as [H|H].
    + cbn [exec awaitp lcall app]. rewrite IH.
      replace (Z.to_nat n) with 0 by lia. reflexivity.
    + cbn [exec app]. rewrite IH.
      replace (Z.to_nat n) with (S (Z.to_nat (n - 1))) by lia. reflexivity.
Qed.

Lemma skip_stage Z0 (pol : policy Z0) A (r : pipe Z0 A) n vs e junk l :
  finally (psys pol (safe (skip_ n r))) (source_calls vs e junk) l <->
  finally (psys pol (safe r)) (trace (skipn (Z.to_nat n) vs) e) l.
Proof.
  apply detach_stage. rewrite srun_norm, norm_trace. f_equal. apply srun_skip.
Qed.

(** *** take_last *)
Lemma lastn_all A n (l : list A) : length l <= n -> lastn n l = l.
Proof. intros H. unfold lastn. replace (length l - n) with 0 by lia. reflexivity. Qed.

Lemma lastn_app_ge A n (a l : list A) : n <= length l -> lastn n (a ++ l) = lastn n l.
Proof.
  intros H. unfold lastn. rewrite app_length.
  rewrite skipn_app. rewrite skipn_all2 by lia. cbn [app]. f_equal. lia.
Qed.

Lemma lastn_snoc A n (l : list A) v :
  lastn n (lastn n l ++ [v]) = lastn n (l ++ [v]).
Proof.
  destruct (Nat.le_gt_cases (length l) n) as [H|H]; [now rewrite (lastn_all l H)|].
  rewrite <- (firstn_skipn (length l - n) l) at 2. rewrite <- app_assoc.
  symmetry. apply lastn_app_ge. rewrite app_length; unfold lastn; rewrite skipn_length. simpl. lia.
Qed.

Lemma exec_forp_send S A (q : list A) (s : S) l :
  exec lcall (forp q (fun x => awaitp (Deliver (OnNext x)))) s l = (s, l ++ map OnNext q, None).
Proof.
  revert l. induction q as [|x q IH]; intros l; cbn [forp map exec].
  - now rewrite app_nil_r.
  - unfold seqp. rewrite exec_bind. cbn [awaitp exec lcall]. rewrite IH. now rewrite <- app_assoc.
Qed.

Lemma srun_take_last A c vs e : forall pre_, 
  srun (@take_last_op A c) (lastn (Z.to_nat c) pre_) (trace vs e) = take_last_out c (pre_ ++ vs) e.
Proof.
  induction vs as [|v vs IH]; intros p.
  - rewrite app_nil_r. destruct e as [|x|]; try reflexivity.
    cbn [trace map app srun take_last_op direct body exec].
    unfold seqp. rewrite exec_bind, exec_forp_send. cbn. reflexivity.
  - rewrite trace_cons. cbn [srun take_last_op direct body exec].
    assert (Hst : (if (c <? Z.of_nat (length (lastn (Z.to_nat c) p ++ [v])))%Z
                   then tl (lastn (Z.to_nat c) p ++ [v]) else lastn (Z.to_nat c) p ++ [v])
                  = lastn (Z.to_nat c) (p ++ [v])).
    { rewrite <- lastn_snoc. set (q := lastn (Z.to_nat c) p).
      assert (Hq : length q <= Z.to_nat c) by (unfold q, lastn; rewrite skipn_length; lia).
      assert (Hl : length (q ++ [v]) = S (length q)) by (rewrite app_length; simpl; lia).
      unfold lastn. rewrite Hl.
      destruct (Z.ltb_spec c (Z.of_nat (S (length q)))) as [H|H].
      - replace (S (length q) - Z.to_nat c) with 1 by lia. destruct (q ++ [v]); reflexivity.
      - replace (S (length q) - Z.to_nat c) with 0 by lia. reflexivity. }
    change (v :: vs) with ([v] ++ vs). rewrite app_assoc. rewrite <- IH.
    destruct (c <? Z.of_nat (length (lastn (Z.to_nat c) p ++ [v])))%Z;
      cbn [exec app]; rewrite <- Hst; reflexivity.
Qed.

Lemma take_last_stage Z0 (pol : policy Z0) A (r : pipe Z0 A) n vs e junk l :
  finally (psys pol (safe (take_last_ n r))) (source_calls vs e junk) l <->
  finally (psys pol (safe r)) (take_last_out n vs e) l.
Proof.
  apply detach_stage. rewrite srun_norm, norm_trace. f_equal.
  change (ini (take_last_op n)) with (@nil A).
  replace (@nil A) with (lastn (Z.to_nat n) (@nil A)) by reflexivity. apply (srun_take_last n vs e []).
Qed.

(** *** skip_last *)
Lemma lastn_app_length A n (a b : list A) : length b = n -> lastn n (a ++ b) = b.
Proof.
  intros H. unfold lastn. rewrite app_length. replace (length a + length b - n) with (length a) by lia.
  rewrite skipn_app, skipn_all, Nat.sub_diag. reflexivity.
Qed.

Lemma butlastn_app A n (a b : list A) : length b = n -> butlastn n (a ++ b) = a.
Proof.
  intros H. unfold butlastn. rewrite app_length. replace (length a + length b - n) with (length a + 0) by lia.
  rewrite firstn_app_2. simpl. now rewrite app_nil_r.
Qed.

Lemma srun_skip_last A (isn : A -> bool) c vs e : forall q, length q <= Z.to_nat c ->
  srun (skip_last_op isn c) q (trace vs e) = trace (not_none isn (butlastn (Z.to_nat c) (q ++ vs))) e.
Proof.
  induction vs as [|v vs IH]; intros q Hq.
  - rewrite app_nil_r. unfold butlastn. replace (length q - Z.to_nat c) with 0 by lia.
    destruct e; reflexivity.
  - rewrite trace_cons. cbn [srun skip_last_op direct body exec].
    assert (Hl : length (q ++ [v]) = S (length q)) by (rewrite app_length; simpl; lia).
    rewrite Hl. change (v :: vs) with ([v] ++ vs). rewrite app_assoc.
    destruct (Z.ltb_spec c (Z.of_nat (S (length q)))) as [H|H].
    + assert (Hk : Z.to_nat c = length q) by lia.
      destruct (q ++ [v]) as [|f q'] eqn:E; [destruct q; discriminate|].
      simpl in Hl.
      assert (Hb : butlastn (Z.to_nat c) ((f :: q') ++ vs) = f :: butlastn (Z.to_nat c) (q' ++ vs)).
      { unfold butlastn. cbn [app length]. rewrite app_length.
        replace (S (length q' + length vs) - Z.to_nat c) with (S (length vs)) by lia.
        replace (length q' + length vs - Z.to_nat c) with (length vs) by lia. reflexivity. }
      rewrite Hb. unfold not_none. cbn [filter]. cbn [exec].
      destruct (isn f); cbn [negb exec awaitp lcall app].
      * apply IH. lia.
      * rewrite IH by lia. reflexivity.
    + cbn [exec app]. rewrite IH by lia. reflexivity.
Qed.

Lemma skip_last_stage Z0 (pol : policy Z0) A isn (r : pipe Z0 A) n vs e junk l :
  finally (psys pol (safe (skip_last_ isn n r))) (source_calls vs e junk) l <->
  finally (psys pol (safe r)) (trace (not_none isn (butlastn (Z.to_nat n) vs)) e) l.
Proof.
  apply detach_stage. rewrite srun_norm, norm_trace. f_equal.
  apply (srun_skip_last isn n vs e []). simpl. lia.
Qed.

(** *** zip_seq *)
(** Pairs with the items of the iterator from position [i] on, and how it ended. *)
Lemma srun_zip A B (it : iterator B) (vs : list A) e : forall i,
  upto_terminal (srun (zip_op it) i (trace vs e)) = let (ps, x) := zip_from it i vs e in trace ps x.
Proof.
  induction vs as [|v vs IH]; intros i.
  - destruct e; reflexivity.
  - rewrite trace_cons. cbn [srun zip_op direct body exec zip_from].
    destruct (it i) as [b| |x].
    + cbn [tryp awaitp bindp exec lcall app upto_terminal]. rewrite IH.
      destruct (zip_from it (S i) vs e) as [ps x]. reflexivity.
    + reflexivity.
    + reflexivity.
Qed.

Lemma norm_idem A (ms : list (notif A)) : upto_terminal (upto_terminal ms) = upto_terminal ms.
Proof. induction ms as [|[a|e|] ms IH]; simpl; congruence. Qed.

Lemma zip_stage Z0 (pol : policy Z0) A B (it : iterator B) (r : pipe Z0 (A * B)) vs e junk l :
  finally (psys pol (safe (zip_seq_ it r))) (source_calls vs e junk) l <->
  finally (psys pol (safe r)) (zip_out it vs e) l.
Proof.
  apply detach_stage. rewrite srun_norm, norm_trace.
  unfold zip_out. change (ini (zip_op it)) with 0. rewrite srun_zip.
  destruct (zip_from it 0 vs e) as [ps x]. now rewrite norm_trace0.
Qed.

Lemma zip_infinite A (vs : list A) e : forall i, zip_from infinite i vs e = (indexed i vs, e).
Proof. induction vs as [|v vs IH]; intros i; cbn; [reflexivity|]. now rewrite IH. Qed.

Lemma source_calls_nil A (vs : list A) e : trace vs e = source_calls vs e [].
Proof. unfold source_calls. destruct e; now rewrite app_nil_r. Qed.

(** *** mapi, filteri *)
Lemma mapi_stage Z0 (pol : policy Z0) A B (f : A -> nat -> res B) (r : pipe Z0 B) vs e junk l :
  finally (psys pol (safe (mapi_ f r))) (source_calls vs e junk) l <->
  finally (psys pol (safe r)) (map_out (fun ai => f (fst ai) (snd ai)) (indexed 0 vs) e) l.
Proof.
  unfold mapi_. rewrite zip_stage. unfold zip_out. rewrite zip_infinite.
  rewrite source_calls_nil. apply map_stage.
Qed.

Lemma mapi_async_stage Z0 (pol : policy Z0) A B (f : A -> nat -> res B) (r : pipe Z0 B) vs e junk l :
  finally (psys pol (safe (mapi_async_ f r))) (source_calls vs e junk) l <->
  finally (psys pol (safe r)) (map_out (fun ai => f (fst ai) (snd ai)) (indexed 0 vs) e) l.
Proof.
  unfold mapi_async_. rewrite zip_stage. unfold zip_out. rewrite zip_infinite.
  rewrite source_calls_nil. apply map_async_stage.
Qed.

Lemma map_out_fst A B (l : list (A * B)) e : map_out (fun ai => Ok (fst ai)) l e = trace (map fst l) e.
Proof.
  unfold map_out.
  assert (H : results (fun ai : A * B => Ok (fst ai)) l = (map fst l, None)).
  { induction l as [|x l IH]; cbn; [reflexivity|]. now rewrite IH. }
  rewrite H. reflexivity.
Qed.

Lemma filteri_stage Z0 (pol : policy Z0) A (p : A -> nat -> res bool) (r : pipe Z0 A) vs e junk l :
  finally (psys pol (safe (filteri_ p r))) (source_calls vs e junk) l <->
  finally (psys pol (safe r))
    (let (ps, x) := results (keep (fun ai => p (fst ai) (snd ai))) (indexed 0 vs) in
     trace (map fst (somes ps)) (or_failed x e)) l.
Proof.
  unfold filteri_. rewrite zip_stage. unfold zip_out. rewrite zip_infinite.
  rewrite source_calls_nil. unfold starfilter_. rewrite filter_stage. unfold choose_out.
  destruct (results (keep (fun ai => p (fst ai) (snd ai))) (indexed 0 vs)) as [ps x].
  rewrite source_calls_nil, map_stage, map_out_fst. reflexivity.
Qed.

(** *** distinct_until_changed *)
Lemma deliver_distinct A (eqb : A -> A -> bool) vs e : forall latest,
  deliver (distinct_op eqb) latest (trace vs e) =
  trace (changes eqb (match latest with OnNext p => Some p | _ => None end) vs) e.
Proof.
  induction vs as [|v vs IH]; intros latest.
  - destruct e; reflexivity.
  - rewrite trace_cons. cbn [deliver distinct_op direct live body exec].
    destruct latest as [p|x|]; cbn [notif_neqb changes].
    + destruct (eqb v p); cbn; rewrite IH; reflexivity.
    + cbn. rewrite IH. reflexivity.
    + cbn. rewrite IH. reflexivity.
Qed.

Lemma distinct_mbox Z0 (pol : policy Z0) A eqb (r : pipe Z0 A) vs e l :
  finally (psys pol (distinct_until_changed_ eqb r)) (trace vs e) l <->
  finally (psys pol (safe r)) (trace (changes eqb None vs) e) l.
Proof.
  unfold distinct_until_changed_. rewrite msys_psys.
  rewrite (stage_mbox pol (distinct_op eqb) (safe r) _ l (noraise_safe pol r)).
  change (ini (distinct_op eqb)) with (@OnCompleted A). now rewrite deliver_distinct.
Qed.

(** A safe_observer in front of an observer that never raises. *)
Lemma bsafe_noraise A (c : comp (notif A)) : noraise c -> forall ms d, bsafe (ccall c) ms d = calls c d (upto_terminal ms).
Proof.
  intros Hn. induction ms as [|m ms IH]; intros d; [reflexivity|].
  destruct m as [a|e|]; cbn [bsafe upto_terminal]; try reflexivity.
  specialize (Hn d (OnNext a)).
  change (calls c d (OnNext a :: upto_terminal ms)) with (calls c (fst (ccall c d (OnNext a))) (upto_terminal ms)).
  destruct (ccall c d (OnNext a)) as [d' r]. cbn [fst snd] in *. subst r. apply IH.
Qed.

Lemma safe_noraise Z0 (pol : policy Z0) A (p : pipe Z0 A) ms l : noraise (pcomp pol p) ->
  finally (psys pol (safe p)) ms l <-> finally (psys pol p) (upto_terminal ms) l.
Proof.
  intros Hn. rewrite finally_safe, (bsafe_noraise Hn). symmetry. apply (finally_F (sane_psys pol p)).
Qed.

Lemma distinct_stage Z0 (pol : policy Z0) A eqb (r : pipe Z0 A) vs e junk l :
  finally (psys pol (safe (distinct_until_changed_ eqb r))) (source_calls vs e junk) l <->
  finally (psys pol (safe r)) (trace (changes eqb None vs) e) l.
Proof.
  rewrite (safe_noraise pol (distinct_until_changed_ eqb r)) by apply noraise_agent.
  rewrite norm_trace. apply distinct_mbox.
Qed.

(** *** scan and reduce *)
(** What scan sends: the new state, or the error of the accumulator, which does
    not stop it. *)
Lemma srun_scan A B (f : B -> A -> res B) c vs e : forall b,
  srun (scan_op f c) b (trace vs e) = scan_raw f b vs ++ trace [] e.
Proof.
  induction vs as [|v vs IH]; intros b.
  - destruct e; reflexivity.
  - rewrite trace_cons. cbn [srun scan_op direct body exec scan_raw].
    cbn; destruct (f b v) as [b'|x]; cbn; rewrite IH; reflexivity.
Qed.

Lemma scan_raw_stage Z0 (pol : policy Z0) A B (f : B -> A -> res B) b (r : pipe Z0 B) vs e junk l :
  noraise (pcomp pol r) ->
  finally (psys pol (safe (scan_ f b r))) (source_calls vs e junk) l <->
  finally (psys pol r) (scan_raw f b vs ++ trace [] e) l.
Proof.
  intros Hn. unfold scan_. rewrite (stage_safe pol _ r _ l Hn).
  rewrite srun_norm, norm_trace. change (ini (scan_op f b)) with b. now rewrite srun_scan.
Qed.

(** States of a fold with a raising accumulator, up to the first error. *)
Lemma norm_scan_raw A B (f : B -> A -> res B) vs e : forall b,
  upto_terminal (scan_raw f b vs ++ trace [] e) = let (bs, x) := scan_results f b vs in trace bs (or_failed x e).
Proof.
  induction vs as [|v vs IH]; intros b.
  - destruct e; reflexivity.
  - cbn [scan_raw scan_results]. destruct (f b v) as [b'|x]; cbn [app upto_terminal]; [|reflexivity].
    rewrite IH. destruct (scan_results f b' vs) as [bs x]. reflexivity.
Qed.

Lemma scan_safe_stage Z0 (pol : policy Z0) A B (f : B -> A -> res B) b (r : pipe Z0 B) vs e junk l :
  finally (psys pol (safe (scan_ f b (safe r)))) (source_calls vs e junk) l <->
  finally (psys pol (safe r)) (let (bs, x) := scan_results f b vs in trace bs (or_failed x e)) l.
Proof.
  rewrite scan_raw_stage by apply noraise_safe. apply safe_norm_eq. rewrite norm_scan_raw.
  destruct (scan_results f b vs). now rewrite norm_trace0.
Qed.

Lemma scan_raw_total A B (f : B -> A -> B) vs : forall b,
  scan_raw (fun s a => Ok (f s a)) b vs = map OnNext (scanl f b vs).
Proof. induction vs as [|v vs IH]; intros b; cbn; [reflexivity|]. now rewrite IH. Qed.

(** A total accumulator makes scan a relay. *)
Definition scan_h {A B} (f : B -> A -> B) (s : B) (a : A) : res (B * option B) := Ok (f s a, Some (f s a)).

Lemma scan_is_relay A B (f : B -> A -> B) c : is_relay (scan_h f) (scan_op (fun s a => Ok (f s a)) c) (fun s => s).
Proof.
  intros D call Ha. split; [|split].
  - intros s d a. cbn. rewrite Ha. cbn. destruct (call d (Deliver (OnNext (f s a)))) as [d' [e|]]; reflexivity.
  - intros s d e. apply exec_deliver.
  - intros s d. apply exec_deliver.
Qed.

Lemma relay_scan A B (f : B -> A -> B) vs e : forall b, relay (scan_h f) b (trace vs e) = trace (scanl f b vs) e.
Proof.
  induction vs as [|v vs IH]; intros b; [destruct e; reflexivity|].
  rewrite trace_cons. cbn [relay scan_h scanl]. now rewrite IH.
Qed.

Lemma scan_stage Z0 (pol : policy Z0) A B (f : B -> A -> B) b (r : pipe Z0 B) vs e junk l :
  finally (psys pol (safe (scan_ (fun s a => Ok (f s a)) b r))) (source_calls vs e junk) l <->
  finally (psys pol (safe r)) (trace (scanl f b vs) e) l.
Proof.
  unfold scan_. rewrite (stage_relay pol b r _ l (scan_is_relay f b) eq_refl).
  now rewrite relay_norm, norm_trace, relay_scan.
Qed.

Lemma scanl_last A B (f : B -> A -> B) vs : forall b, vs <> [] ->
  lastn 1 (scanl f b vs) = [fold_left f vs b].
Proof.
  induction vs as [|v vs IH]; intros b H; [congruence|].
  cbn [scanl fold_left]. destruct vs as [|w vs].
  - reflexivity.
  - specialize (IH (f b v)). rewrite <- IH by discriminate.
    unfold lastn. cbn [scanl length]. 
    replace (S (S (length (scanl f (f (f b v) w) vs))) - 1) with (S (length (scanl f (f (f b v) w) vs))) by lia.
    cbn [skipn]. replace (S (length (scanl f (f (f b v) w) vs)) - 1) with (length (scanl f (f (f b v) w) vs)) by lia.
    reflexivity.
Qed.

Lemma reduce_stage Z0 (pol : policy Z0) A B (f : B -> A -> B) b (r : pipe Z0 B) vs e junk l :
  finally (psys pol (safe (reduce_ (fun s a => Ok (f s a)) b r))) (source_calls vs e junk) l <->
  finally (psys pol (safe r)) (reduce_out f b vs e) l.
Proof.
  unfold reduce_. rewrite scan_stage. rewrite source_calls_nil, take_last_stage.
  replace (take_last_out 1 (scanl f b vs) e) with (reduce_out f b vs e); [reflexivity|].
  unfold take_last_out, reduce_out. destruct e; try reflexivity.
  change (Z.to_nat 1) with 1. destruct vs as [|v vs]; [reflexivity|].
  now rewrite scanl_last by discriminate.
Qed.
