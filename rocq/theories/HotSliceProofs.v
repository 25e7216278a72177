(** * Proofs about slice behind a hot source. *)
From Verif Require Export SliceProofs HotMapProofs.
Set Implicit Arguments.

(** Every slice but [::1] and [::0] starts with an operator that looks after itself. *)
Lemma slice_hot_cold Z0 (pol : policy Z0) A isn start stop step (opr : pipe Z0 A -> pipe Z0 A) r vs e junk l :
  slice_ isn start stop step = Ok opr ->
  (start = None -> stop = None -> (1 < step)%Z) ->
  finally (psys pol (opr r)) (source_calls vs e junk) l <-> finally (psys pol (safe (opr r))) (source_calls vs e junk) l.
Proof.
  intros Hs Hsome. unfold slice_ in Hs. destruct start as [i|].
  - match type of Hs with match ?m with _ => _ end = _ => destruct m as [second|x]; [|discriminate] end.
    assert (H : exists r', opr r = (if (i <? 0)%Z then take_last_ (Z.abs i) else skip_ i) r').
    { destruct (1 <? step)%Z; [inversion Hs; subst; eexists; reflexivity|].
      destruct (step <? 0)%Z; [discriminate|]. inversion Hs; subst; eexists; reflexivity. }
    destruct H as [r' ->]. destruct (i <? 0)%Z.
    + exact (hot_cold pol r' vs e junk l (tame_take_last A _)).
    + exact (hot_cold pol r' vs e junk l (tame_skip A i)).
  - destruct stop as [j|].
    + assert (H : exists r', (opr r = pre (take_op (j - 0)) (safe r')) \/ opr r = skip_last_ isn (Z.abs j) r').
      { destruct (0 <? j)%Z.
        - unfold take_ in Hs. destruct (j - 0 <? 0)%Z; [discriminate|].
          destruct (1 <? step)%Z; [inversion Hs; subst; eexists; left; reflexivity|].
          destruct (step <? 0)%Z; [discriminate|]. inversion Hs; subst; eexists; left; reflexivity.
        - destruct (1 <? step)%Z; [inversion Hs; subst; eexists; right; reflexivity|].
          destruct (step <? 0)%Z; [discriminate|]. inversion Hs; subst; eexists; right; reflexivity. }
      destruct H as [r' [-> | ->]].
      * exact (hot_cold pol r' vs e junk l (tame_take A _)).
      * exact (hot_cold pol r' vs e junk l (tame_skip_last isn _)).
    + destruct (Z.ltb_spec 1 step) as [H1|H1]; [|specialize (Hsome eq_refl eq_refl); lia].
      inversion Hs; subst. unfold filteri_, zip_seq_. exact (hot_cold pol _ vs e junk l (@tame_zip _ _ _)).
Qed.

Lemma slice_hot_any Z0 (pol : policy Z0) A isn start stop step (opr : pipe Z0 A -> pipe Z0 A) r vs e junk l :
  slice_ isn start stop step = Ok opr ->
  (start = None -> stop = None -> (1 < step)%Z) ->
  finally (psys pol (opr r)) (source_calls vs e junk) l <->
  finally (psys pol (safe r)) (tr (slice_s isn start stop step (vs, e))) l.
Proof.
  intros Hs Hsome. rewrite (@slice_hot_cold _ pol _ isn start stop step opr r vs e junk l Hs Hsome).
  apply slice_any_stage, Hs.
Qed.
