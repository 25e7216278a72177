(** * Further facts about the operators of C09-C20. *)
From Verif Require Export HotProofs.
Set Implicit Arguments.

Lemma last_cons A (l : list A) : forall a d, last (a :: l) d = last l a.
Proof.
  induction l as [|b l IH]; intros a d; [reflexivity|].
  change (last (a :: b :: l) d) with (last (b :: l) d). now rewrite !IH.
Qed.

Lemma results_total A B (f : A -> B) vs : results (fun a => Ok (f a)) vs = (map f vs, None).
Proof. induction vs as [|v vs IH]; [reflexivity|]. cbn. now rewrite IH. Qed.

Lemma keep_total A (p : A -> bool) vs :
  results (keep (fun a => Ok (p a))) vs = (map (fun a => if p a then Some a else None) vs, None).
Proof. induction vs as [|v vs IH]; [reflexivity|]. cbn [results map]. unfold keep at 1. destruct (p v); rewrite IH; reflexivity. Qed.

(** ** distinct_until_changed *)
Section Changes.
  Context {A : Type} (eqb : A -> A -> bool).
  Context (erefl : forall x, eqb x x = true) (esym : forall x y, eqb x y = true -> eqb y x = true)
          (etrans : forall x y z, eqb x y = true -> eqb y z = true -> eqb x z = true).

  Lemma changes_none vs : changes eqb None vs = match vs with [] => [] | v :: r => v :: changes eqb (Some v) r end.
  Proof. destruct vs; reflexivity. Qed.

  Lemma changes_head vs : forall p q, eqb p q = true -> forall x r, changes eqb (Some p) vs = x :: r -> eqb x q = false.
  Proof.
    induction vs as [|v vs IH]; intros p q Hpq x r H; [discriminate|].
    cbn in H. destruct (eqb v p) eqn:E; cbn in H.
    - eapply IH; [|exact H]. eapply etrans; eassumption.
    - injection H as <- _. destruct (eqb v q) eqn:E2; [|reflexivity].
      rewrite <- E. symmetry. eapply etrans; [exact E2|]. now apply esym.
  Qed.

  Lemma changes_adjacent vs : forall p l1 x y l2,
    changes eqb p vs = l1 ++ x :: y :: l2 -> eqb y x = false.
  Proof.
    induction vs as [|v vs IH]; intros p l1 x y l2 H.
    - destruct l1; discriminate.
    - cbn in H.
      assert (Hc : forall l1, v :: changes eqb (Some v) vs = l1 ++ x :: y :: l2 -> eqb y x = false).
      { intros [|z l1'] H'; cbn in H'.
        - injection H' as -> H'. eapply changes_head; [apply erefl|exact H'].
        - injection H' as _ H'. eapply IH; exact H'. }
      destruct p as [p|]; [destruct (eqb v p)|]; cbn in H; eauto.
  Qed.

  (** The last value of the input equals the last value of the output. *)
  Lemma changes_last vs : forall p0 v0, eqb v0 p0 = true ->
    eqb (last vs v0) (last (changes eqb (Some v0) vs) p0) = true.
  Proof.
    induction vs as [|v vs IH]; intros p0 v0 H; [exact H|].
    cbn [changes]. rewrite last_cons. destruct (eqb v v0) eqn:E; cbn [app].
    - apply IH. eapply etrans; eassumption.
    - rewrite last_cons. apply IH, erefl.
  Qed.
End Changes.

Lemma distinct_last A (eqb : A -> A -> bool) v vs :
  (forall x, eqb x x = true) -> (forall x y z, eqb x y = true -> eqb y z = true -> eqb x z = true) ->
  eqb (last (v :: vs) v) (last (changes eqb None (v :: vs)) v) = true.
Proof.
  intros H1 H2. cbn [changes app].
  rewrite !last_cons. apply (changes_last eqb H1 H2). apply H1.
Qed.

(** ** scan *)
Lemma scanl_nth A B (f : B -> A -> B) vs : forall b i,
  nth_error (scanl f b vs) i = if i <? length vs then Some (fold_left f (firstn (S i) vs) b) else None.
Proof.
  induction vs as [|v vs IH]; intros b i; [destruct i; reflexivity|].
  destruct i as [|i]; [reflexivity|]. cbn [scanl nth_error length]. rewrite IH. reflexivity.
Qed.

(** ** reduce with raising accumulators *)
Lemma tame_noraise Z A B (pol : policy Z) (o : op (notif A) (act B)) (r : pipe Z B) :
  Tame o -> noraise (pcomp pol (PSync o (safe r))).
Proof.
  intros Ho s m. destruct s as [s [n d]]. cbn [pcomp ccall sync_comp fst snd].
  destruct (exec lcall (body o m) s []) as [[s' l] x] eqn:E.
  destruct (exec_noraise (noraise_safe pol r) _ _ n d E) as [n' He]. rewrite He. cbn.
  destruct m as [a|e|].
  - pose proof (tm_next Ho s a) as H. rewrite E in H. exact H.
  - destruct (tm_error Ho s e) as (vs & _ & H). rewrite E in H. exact H.
  - destruct (tm_done Ho s) as (vs & _ & H). rewrite E in H. exact H.
Qed.

Lemma pre_safe Z A B (o : op (notif A) (act B)) (r : pipe Z B) : pre o (safe r) = PSync o (safe r).
Proof. destruct r; reflexivity. Qed.

Lemma scan_raw_split A B (f : B -> A -> res B) vs : forall b,
  match snd (scan_results f b vs) with
  | None => scan_raw f b vs = map OnNext (fst (scan_results f b vs))
  | Some x => exists rest, scan_raw f b vs = map OnNext (fst (scan_results f b vs)) ++ OnError x :: rest
  end.
Proof.
  induction vs as [|v vs IH]; intros b; [reflexivity|].
  cbn [scan_results scan_raw]. destruct (f b v) as [b'|x].
  - specialize (IH b'). destruct (scan_results f b' vs) as [bs [x|]]; cbn in *.
    + destruct IH as [rest ->]. now exists rest.
    + now rewrite IH.
  - cbn. now exists (scan_raw f b vs).
Qed.

Lemma scan_results_fold A B (f : B -> A -> res B) vs : forall b,
  match scan_results f b vs with
  | (bs, Some x) => fold_res f b vs = Err x
  | (bs, None) => length bs = length vs /\ fold_res f b vs = Ok (last bs b)
  end.
Proof.
  induction vs as [|v vs IH]; intros b; [split; reflexivity|].
  cbn [scan_results fold_res]. destruct (f b v) as [b'|x]; [|reflexivity].
  specialize (IH b'). destruct (scan_results f b' vs) as [bs [x|]]; [exact IH|].
  destruct IH as [H1 H2]. split; [cbn; now rewrite H1|]. rewrite H2. now rewrite last_cons.
Qed.

Lemma feed_take_last1 B (bs : list B) rest : forall q,
  feed (@take_last_op B 1) q (map OnNext bs ++ rest) =
  feed (@take_last_op B 1) (fold_left (fun q a => if (1 <? Z.of_nat (length (q ++ [a])))%Z then tl (q ++ [a]) else q ++ [a]) bs q) rest.
Proof.
  induction bs as [|b bs IH]; intros q; [reflexivity|].
  cbn [map app feed take_last_op direct body exec fold_left].
  destruct (1 <? Z.of_nat (length (q ++ [b])))%Z; cbn; apply IH.
Qed.

Lemma last1_queue B (bs : list B) : forall q, length q <= 1 ->
  fold_left (fun q a => if (1 <? Z.of_nat (length (q ++ [a])))%Z then tl (q ++ [a]) else q ++ [a]) bs q =
  match bs with [] => q | b :: _ => [last bs b] end.
Proof.
  induction bs as [|b bs IH]; intros q Hq; [reflexivity|].
  assert (Hs : (if (1 <? Z.of_nat (length (q ++ [b])))%Z then tl (q ++ [b]) else q ++ [b]) = [b]).
  { destruct q as [|x [|y q]]; cbn in *; [reflexivity|reflexivity|lia]. }
  cbn [fold_left]. rewrite Hs, IH by (cbn; lia). destruct bs as [|c bs]; [reflexivity|].
  now rewrite !last_cons.
Qed.

Lemma reduce_res_stage Z0 (pol : policy Z0) A B (f : B -> A -> res B) b (r : pipe Z0 B) vs e junk l :
  finally (psys pol (safe (reduce_ f b r))) (source_calls vs e junk) l <->
  finally (psys pol (safe r)) (reduce_res f b vs e) l.
Proof.
  unfold reduce_, take_last_. rewrite scan_raw_stage.
  2:{ rewrite pre_safe. apply tame_noraise, tame_take_last. }
  rewrite (stage_sync pol (take_last_op 1) (safe r)) by apply noraise_safe.
  apply safe_norm_eq. change (ini (@take_last_op B 1)) with (@nil B).
  pose proof (scan_raw_split f vs b) as Hs. pose proof (scan_results_fold f vs b) as Hf. unfold reduce_res.
  destruct (scan_results f b vs) as [bs [x|]]; cbn [fst snd] in *.
  - destruct Hs as [rest ->]. rewrite Hf. rewrite <- app_assoc, feed_take_last1.
    cbn [app feed take_last_op direct body exec]. reflexivity.
  - destruct Hf as [Hl ->]. rewrite Hs, feed_take_last1, last1_queue by (cbn; lia).
    destruct e as [|x|]; [reflexivity|reflexivity|].
    destruct vs as [|v vs]; destruct bs as [|b0 bs]; try discriminate; [reflexivity|].
    cbn [trace map app feed take_last_op direct body exec].
    rewrite exec_forp. cbn [exec app map lcall awaitp seqp bindp fst snd upto_terminal].
    now rewrite !last_cons.
Qed.

(** ** integer keys *)
Lemma nth_skip_first A k (xs : list A) :
  firstn 1 (skipn k xs) = match nth_error xs k with Some x => [x] | None => [] end.
Proof.
  revert k. induction xs as [|x xs IH]; intros [|k]; try reflexivity. cbn. apply IH.
Qed.

Lemma getitem_out A (isn : A -> bool) k (xs : list A) : (forall v, In v xs -> isn v = false) ->
  slice_out isn (Some k) (Some (k + 1)%Z) 1 xs = at_index k xs.
Proof.
  intros Hn. unfold slice_out, slice_third. change (1 <? 1)%Z with false. cbn iota.
  unfold slice_first, slice_second, at_index. destruct (Z.ltb_spec k 0).
  - destruct (Z.ltb_spec 0 (k + 1)); [lia|].
    rewrite not_none_id.
    2:{ intros v Hv. apply Hn. unfold butlastn, lastn in Hv. apply In_firstn in Hv. eapply In_skipn; eassumption. }
    unfold butlastn, lastn. rewrite skipn_length.
    destruct (Z.ltb_spec (k + Z.of_nat (length xs)) 0).
    + replace (length xs - Z.to_nat (Z.abs k)) with 0 by lia.
      replace (length xs - 0 - Z.to_nat (Z.abs (k + 1))) with 0 by lia. reflexivity.
    + replace (length xs - (length xs - Z.to_nat (Z.abs k)) - Z.to_nat (Z.abs (k + 1))) with 1 by lia.
      rewrite nth_skip_first. replace (length xs - Z.to_nat (Z.abs k)) with (Z.to_nat (k + Z.of_nat (length xs))) by lia.
      reflexivity.
  - destruct (Z.ltb_spec 0 (k + 1)); [|lia]. replace (Z.to_nat (k + 1 - k)) with 1 by lia.
    destruct (Z.ltb_spec k 0); [lia|]. apply nth_skip_first.
Qed.

(** ** Every sequence of calls has the shape used in the statements *)
Lemma source_calls_any A (ms : list (notif A)) : exists vs e junk, ms = source_calls vs e junk.
Proof.
  induction ms as [|m ms (vs & e & junk & ->)].
  - exists [], Open, []. reflexivity.
  - destruct m as [a|x|].
    + exists (a :: vs), e, junk. unfold source_calls. destruct e; reflexivity.
    + exists [], (Failed x). eexists. reflexivity.
    + exists [], Completed. eexists. reflexivity.
Qed.

Lemma two_sources_any A B (ms : list (either A B)) :
  exists arr t junk, (forall m, t = Some m -> ends m <> Open) /\ ms = two_sources arr t junk.
Proof.
  induction ms as [|m ms (arr & t & junk & Ht & ->)].
  - exists [], None, []. split; [discriminate|reflexivity].
  - destruct (ends m) eqn:E.
    1:{ destruct m as [[a|x|]|[b|x|]]; try discriminate.
        - exists (inl a :: arr), t, junk. split; [exact Ht|reflexivity].
        - exists (inr b :: arr), t, junk. split; [exact Ht|reflexivity]. }
    all: exists [], (Some m); eexists; (split; [|reflexivity]); intros m' [= <-]; now rewrite E.
Qed.

Lemma tu_calls_any A B (ms : list (either A B)) :
  exists arr t junk, (forall m, t = Some m -> tu_ends m <> Open) /\ ms = tu_calls arr t junk.
Proof.
  induction ms as [|m ms (arr & t & junk & Ht & ->)].
  - exists [], None, []. split; [discriminate|reflexivity].
  - destruct (tu_ends m) eqn:E.
    1:{ destruct m as [[a|x|]|[b|x|]]; try discriminate.
        - exists (inl a :: arr), t, junk. split; [exact Ht|reflexivity].
        - exists (inr tt :: arr), t, junk. split; [exact Ht|reflexivity]. }
    all: exists [], (Some m); eexists; (split; [|reflexivity]); intros m' [= <-]; now rewrite E.
Qed.

Lemma to_subscriber_s A M (S : system A M) ms vs e : Sane S ->
  (forall l, finally S ms l <-> finally (psys well_behaved (safe PEnd)) (trace vs e) l) ->
  delivers S ms (trace vs e).
Proof.
  intros HS H. apply (delivers_iff HS). apply H. apply subscriber. now rewrite norm_trace0.
Qed.
