(** * Proofs about slice with any ending. *)
From Verif Require Export Slice Ops3Proofs.
Set Implicit Arguments.

(** The stages on streams (elements, ending). *)
Definition take_s {A} (n : Z) (s : list A * ending) : list A * ending :=
  (firstn (Z.to_nat n) (fst s), if ((0 <? n) && (n <=? Z.of_nat (length (fst s))))%Z then Completed else snd s).
Definition first_s {A} (start : option Z) (s : list A * ending) : list A * ending :=
  match start with
  | Some i => if (i <? 0)%Z
              then match snd s with Completed => (lastn (Z.to_nat (Z.abs i)) (fst s), Completed) | e => ([], e) end
              else (skipn (Z.to_nat i) (fst s), snd s)
  | None => s
  end.
Definition second_s {A} (isn : A -> bool) (start stop : option Z) (s : list A * ending) : list A * ending :=
  match stop with
  | Some j => if (0 <? j)%Z then take_s (j - match start with Some i => i | None => 0 end) s
              else (not_none isn (butlastn (Z.to_nat (Z.abs j)) (fst s)), snd s)
  | None => s
  end.
Definition slice_s {A} (isn : A -> bool) start stop step (s : list A * ending) : list A * ending :=
  let s2 := second_s isn start stop (first_s start s) in (slice_third step (fst s2), snd s2).
Definition tr {A} (s : list A * ending) : list (notif A) := trace (fst s) (snd s).

Lemma take_s_out A n (s : list A * ending) : (0 <= n)%Z -> take_out n (fst s) (snd s) = tr (take_s n s).
Proof.
  intros Hn. unfold take_out, take_s, tr. cbn [fst snd]. destruct ((0 <? n) && (n <=? Z.of_nat (length (fst s))))%Z eqn:E; [reflexivity|].
  destruct (Z.eqb_spec n 0) as [->|H]; [reflexivity|]. rewrite firstn_all2; [reflexivity|].
  destruct (Z.ltb_spec 0 n); [|lia]. cbn in E. apply Z.leb_gt in E. lia.
Qed.

Lemma third_any Z0 (pol : policy Z0) A step (r : pipe Z0 A) vs e l :
  (1 < step)%Z ->
  finally (psys pol (safe (filteri_ (fun _ i => Ok (Z.of_nat i mod step =? 0)%Z) r))) (trace vs e) l <->
  finally (psys pol (safe r)) (trace (every step vs) e) l.
Proof.
  intros Hs. rewrite source_calls_nil, filteri_stage.
  rewrite (somes_keep (fun _ i => Z.of_nat i mod step =? 0)%Z).
  rewrite (somes_filter (fun ai : A * nat => (Z.of_nat (snd ai) mod step =? 0)%Z)). reflexivity.
Qed.

Lemma slice_any_stage Z0 (pol : policy Z0) A isn start stop step (opr : pipe Z0 A -> pipe Z0 A) r vs e junk l :
  slice_ isn start stop step = Ok opr ->
  finally (psys pol (safe (opr r))) (source_calls vs e junk) l <->
  finally (psys pol (safe r)) (tr (slice_s isn start stop step (vs, e))) l.
Proof.
  intros Hs.
  rewrite (safe_norm_eq pol (opr r) (source_calls vs e junk) (tr (vs, e)) l) by (unfold tr; now rewrite norm_trace, norm_trace0).
  set (first := match start with
      | Some i => if (i <? 0)%Z then take_last_ (Z.abs i) else skip_ i
      | None => fun r : pipe Z0 A => r
      end).
  assert (H1 : forall r s l, finally (psys pol (safe (first r))) (tr s) l <->
                finally (psys pol (safe r)) (tr (first_s start s)) l).
  { intros r0 [vs0 e0] l0. unfold first, first_s, tr. cbn [fst snd]. destruct start as [i|]; [|reflexivity].
    destruct (i <? 0)%Z.
    - rewrite source_calls_nil, take_last_stage. destruct e0; reflexivity.
    - rewrite source_calls_nil, skip_stage. reflexivity. }
  assert (H2 : forall second, (match stop with
      | Some j => if (0 <? j)%Z
                  then take_ (j - match start with Some i => i | None => 0 end)
                  else Ok (skip_last_ isn (Z.abs j))
      | None => Ok (fun r : pipe Z0 A => r)
      end = Ok second) -> forall r s l, finally (psys pol (safe (second r))) (tr s) l <->
                finally (psys pol (safe r)) (tr (second_s isn start stop s)) l).
  { intros second E r0 s0 l0. unfold second_s. destruct stop as [j|]; [|inversion E; reflexivity].
    destruct (0 <? j)%Z.
    - unfold take_ in E. set (k := (j - match start with Some i => i | None => 0 end)%Z) in *.
      destruct (Z.ltb_spec k 0); [discriminate|]. inversion E; subst second.
      unfold tr at 1. rewrite source_calls_nil, take_stage by lia. rewrite take_s_out by lia. reflexivity.
    - inversion E; subst second. unfold tr at 1. rewrite source_calls_nil, skip_last_stage. reflexivity. }
  unfold slice_ in Hs. fold first in Hs.
  destruct (match stop with
      | Some j => if (0 <? j)%Z
                  then take_ (j - match start with Some i => i | None => 0 end)
                  else Ok (skip_last_ isn (Z.abs j))
      | None => Ok (fun r : pipe Z0 A => r)
      end) as [second|x] eqn:E; [|discriminate].
  specialize (H2 second eq_refl). unfold slice_s, slice_third.
  destruct (Z.ltb_spec 1 step).
  - inversion Hs; subst opr. rewrite H1, H2. unfold tr. rewrite third_any by lia. reflexivity.
  - destruct (step <? 0)%Z; [discriminate|]. inversion Hs; subst opr. rewrite H1, H2. reflexivity.
Qed.

Lemma py_slice_nil A start stop step : py_slice start stop step (@nil A) = [].
Proof. reflexivity. Qed.

(** The elements: those of the completed stream, with nothing arrived if the
    start is negative and the source has not completed. *)
Lemma slice_s_values A (isn : A -> bool) start stop step vs e :
  fst (slice_s isn start stop step (vs, e)) =
  slice_out isn start stop step (match start, e with Some i, (Open | Failed _) => if (i <? 0)%Z then [] else vs | _, _ => vs end).
Proof.
  unfold slice_s, slice_out. cbn [fst]. f_equal.
  assert (H1 : fst (first_s start (vs, e)) =
    slice_first start (match start, e with Some i, (Open | Failed _) => if (i <? 0)%Z then [] else vs | _, _ => vs end)).
  { unfold first_s, slice_first. cbn [fst snd]. destruct start as [i|]; [|reflexivity].
    destruct e; destruct (Z.ltb_spec i 0); cbn [fst]; try reflexivity; unfold lastn; now rewrite skipn_nil. }
  unfold second_s, slice_second. rewrite <- H1. destruct stop as [j|]; [|reflexivity]. destruct (0 <? j)%Z; reflexivity.
Qed.

Lemma slice_s_ending A (isn : A -> bool) start stop step vs e :
  (match start, stop with Some i, Some j => ~ (i < 0 < j)%Z | _, _ => True end) ->
  snd (slice_s isn start stop step (vs, e)) = slice_ending start stop (length vs) e.
Proof.
  intros H. unfold slice_s, slice_ending. cbn [snd].
  assert (H1 : snd (first_s start (vs, e)) = e).
  { unfold first_s. destruct start as [i|]; [|reflexivity]. destruct (i <? 0)%Z; [destruct e|]; reflexivity. }
  unfold second_s. destruct stop as [j|]; [|exact H1]. destruct (Z.ltb_spec 0 j) as [Hj|Hj]; [|exact H1].
  unfold take_s. cbn [snd]. rewrite H1. unfold first_s. destruct start as [i|].
  - destruct (Z.ltb_spec i 0); [lia|]. cbn [fst snd andb]. rewrite skipn_length.
    replace ((0 <? j - i) && (j - i <=? Z.of_nat (length vs - Z.to_nat i)))%Z with ((i <? j) && (j <=? Z.of_nat (length vs)))%Z; [reflexivity|].
    destruct (Z.ltb_spec i j); destruct (Z.ltb_spec 0 (j - i)); try lia; cbn [andb].
    destruct (Z.leb_spec j (Z.of_nat (length vs))); destruct (Z.leb_spec (j - i) (Z.of_nat (length vs - Z.to_nat i))); try lia; reflexivity.
  - cbn [fst snd]. rewrite Z.sub_0_r. destruct (Z.ltb_spec 0 j); [reflexivity|lia].
Qed.

Lemma slice_any A (isn : A -> bool) start stop step vs e :
  slice_error start stop step = None ->
  (1 <= step)%Z ->
  stop <> Some 0%Z ->
  (match start, stop with Some i, Some j => ~ (i < 0 < j)%Z | _, _ => True end) ->
  (forall v, In v vs -> isn v = false) ->
  tr (slice_s isn start stop step (vs, e)) = trace (slice_shown start stop step vs e) (slice_ending start stop (length vs) e).
Proof.
  intros He Hst H0 Hneg Hn. unfold tr. rewrite slice_s_values, slice_s_ending by exact Hneg. f_equal.
  rewrite slice_python; auto.
  - unfold slice_shown. destruct start as [i|]; [|reflexivity]. destruct e; [| |reflexivity]; destruct (i <? 0)%Z; auto using py_slice_nil.
  - intros v Hv. destruct start as [i|]; [|auto]. destruct e; auto; destruct (i <? 0)%Z; auto; contradiction.
Qed.

(** *** Where it is not Python's slice *)
Lemma slice_error_none start stop step : slice_error start stop step = None -> (0 <= step)%Z.
Proof.
  unfold slice_error. destruct stop as [j|]; [|destruct (Z.ltb_spec step 0); [discriminate|lia]].
  destruct ((0 <? j) && _)%Z; [discriminate|]. destruct (Z.ltb_spec step 0); [discriminate|lia].
Qed.

(** [stop = 0], or [start < 0 < stop]: the stop has no effect. *)
Lemma stop_ignored A (isn : A -> bool) start j step vs :
  (j = 0 \/ exists i, start = Some i /\ i < 0 < j)%Z -> (forall v, In v vs -> isn v = false) ->
  slice_out isn start (Some j) step vs = slice_out isn start None step vs.
Proof.
  intros H Hn. unfold slice_out. f_equal. unfold slice_second, slice_first.
  assert (Hs : forall v, In v (match start with
    | Some i => if (i <? 0)%Z then lastn (Z.to_nat (Z.abs i)) vs else skipn (Z.to_nat i) vs | None => vs end) -> isn v = false).
  { intros v Hv. apply Hn. destruct start as [i|]; [|exact Hv]. destruct (i <? 0)%Z; [unfold lastn in Hv|]; apply In_skipn in Hv; exact Hv. }
  destruct H as [->|(i & -> & Hi)].
  - cbn [Z.ltb Z.compare]. unfold butlastn. cbn [Z.abs Z.to_nat]. rewrite Nat.sub_0_r, firstn_all. apply not_none_id, Hs.
  - destruct (Z.ltb_spec 0 j); [|lia]. destruct (Z.ltb_spec i 0); [|lia]. apply firstn_all2. unfold lastn. rewrite skipn_length. lia.
Qed.
