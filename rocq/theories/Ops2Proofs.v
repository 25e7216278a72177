(** * Closed forms: slice and the operators with two sources. *)
From Verif Require Export OpsProofs.
Set Implicit Arguments.

(** ** slice *)
Lemma indexed_app A (a b : list A) : forall i, indexed i (a ++ b) = indexed i a ++ indexed (i + length a) b.
Proof.
  induction a as [|x a IH]; intros i; cbn [app indexed length].
  - now rewrite Nat.add_0_r.
  - rewrite IH. cbn [app]. do 3 f_equal. lia.
Qed.

Lemma indexed_bounds A (l : list A) : forall i p, In p (indexed i l) -> i <= snd p < i + length l.
Proof.
  induction l as [|x l IH]; intros i p H; [contradiction|].
  cbn [indexed length] in *. destruct H as [<-|H]; simpl; [lia|].
  apply IH in H. lia.
Qed.

Lemma filter_none X (f : X -> bool) l : (forall x, In x l -> f x = false) -> filter f l = [].
Proof.
  induction l as [|x l IH]; intros H; [reflexivity|]. cbn. rewrite (H x) by (left; reflexivity).
  apply IH. intros y Hy. apply H. now right.
Qed.

Lemma filter_ext_in' X (f g : X -> bool) l : (forall x, In x l -> f x = g x) -> filter f l = filter g l.
Proof.
  induction l as [|x l IH]; intros H; [reflexivity|]. cbn. rewrite (H x) by (left; reflexivity).
  rewrite IH; [reflexivity|]. intros y Hy. apply H. now right.
Qed.

Lemma filter_shift A (Q : Z -> bool) (l : list A) k : forall i,
  map fst (filter (fun p => Q (Z.of_nat (snd p) - Z.of_nat k)%Z) (indexed (k + i) l)) =
  map fst (filter (fun p => Q (Z.of_nat (snd p))) (indexed i l)).
Proof.
  induction l as [|x l IH]; intros i; [reflexivity|].
  cbn [indexed filter snd]. replace (Z.of_nat (k + i) - Z.of_nat k)%Z with (Z.of_nat i) by lia.
  replace (S (k + i)) with (k + S i) by lia.
  destruct (Q (Z.of_nat i)); cbn [map]; rewrite IH; reflexivity.
Qed.

(** Index-based selection of a range is selection inside the range. *)
Lemma range_filter A (Q : Z -> bool) (xs : list A) (lo hi : nat) : hi <= length xs ->
  map fst (filter (fun p => ((Z.of_nat lo <=? Z.of_nat (snd p)) && (Z.of_nat (snd p) <? Z.of_nat hi)
                           && Q (Z.of_nat (snd p) - Z.of_nat lo))%Z) (indexed 0 xs)) =
  map fst (filter (fun p => Q (Z.of_nat (snd p))) (indexed 0 (firstn (hi - lo) (skipn lo xs)))).
Proof.
  intros Hhi.
  destruct (Nat.le_gt_cases hi lo) as [Hle|Hlt].
  - replace (hi - lo) with 0 by lia. cbn [firstn indexed filter map].
    rewrite filter_none; [reflexivity|]. intros p _.
    destruct (Z.leb_spec (Z.of_nat lo) (Z.of_nat (snd p))); destruct (Z.ltb_spec (Z.of_nat (snd p)) (Z.of_nat hi));
      cbn; try reflexivity; lia.
  - rewrite <- (firstn_skipn lo xs) at 1. rewrite indexed_app, filter_app.
    rewrite (filter_none _ (indexed 0 (firstn lo xs))).
    2:{ intros p Hp. apply indexed_bounds in Hp. rewrite firstn_length in Hp.
        destruct (Z.leb_spec (Z.of_nat lo) (Z.of_nat (snd p))); [lia|reflexivity]. }
    cbn [app]. rewrite firstn_length, Nat.min_l by lia. cbn [Nat.add].
    rewrite <- (firstn_skipn (hi - lo) (skipn lo xs)) at 1. rewrite indexed_app, filter_app.
    rewrite firstn_length, skipn_length, Nat.min_l by lia.
    rewrite (filter_none _ (indexed (lo + (hi - lo)) _)).
    2:{ intros p Hp. apply indexed_bounds in Hp.
        destruct (Z.ltb_spec (Z.of_nat (snd p)) (Z.of_nat hi)); [lia|].
        destruct (Z.leb_spec (Z.of_nat lo) (Z.of_nat (snd p))); reflexivity. }
    rewrite app_nil_r.
    rewrite <- (filter_shift Q _ lo 0). rewrite Nat.add_0_r. f_equal. apply filter_ext_in'.
    intros p Hp. apply indexed_bounds in Hp. rewrite firstn_length, skipn_length in Hp.
    destruct (Z.leb_spec (Z.of_nat lo) (Z.of_nat (snd p))); [|lia].
    destruct (Z.ltb_spec (Z.of_nat (snd p)) (Z.of_nat hi)); [|lia]. reflexivity.
Qed.

Lemma every_1 A (xs : list A) : every 1 xs = xs.
Proof.
  unfold every. generalize 0. induction xs as [|x xs IH]; intros i; [reflexivity|].
  cbn [indexed filter snd]. rewrite Z.mod_1_r. cbn. now rewrite IH.
Qed.

Lemma py_slice_ranges A start stop step (xs : list A) :
  let n := Z.of_nat (length xs) in
  let lo := match start with Some i => clamp n i | None => 0%Z end in
  let hi := match stop with Some i => clamp n i | None => n end in
  py_slice start stop step xs = every step (firstn (Z.to_nat hi - Z.to_nat lo) (skipn (Z.to_nat lo) xs)).
Proof.
  intros n lo hi. unfold py_slice. fold n. fold lo. fold hi.
  assert (Hlo : (0 <= lo)%Z) by (unfold lo, clamp; destruct start; lia).
  assert (Hhi : (0 <= hi <= n)%Z) by (unfold hi, clamp; destruct stop; lia).
  unfold every. rewrite <- (range_filter (fun i => i mod step =? 0)%Z) by lia.
  rewrite !Z2Nat.id by lia. reflexivity.
Qed.

Lemma take_out_completed A n (vs : list A) : (0 <= n)%Z ->
  take_out n vs Completed = trace (firstn (Z.to_nat n) vs) Completed.
Proof.
  intros Hn. unfold take_out.
  destruct (Z.ltb_spec 0 n); cbn [andb].
  - destruct (Z.leb_spec n (Z.of_nat (length vs))); [reflexivity|].
    destruct (Z.eqb_spec n 0); [lia|]. rewrite firstn_all2 by lia. reflexivity.
  - replace n with 0%Z by lia. reflexivity.
Qed.

Lemma somes_keep A (p : A -> nat -> bool) (l : list (A * nat)) :
  results (keep (fun ai => Ok (p (fst ai) (snd ai)))) l =
  (map (fun ai => if p (fst ai) (snd ai) then Some ai else None) l, None).
Proof.
  induction l as [|x l IH]; [reflexivity|]. cbn [results map]. unfold keep at 1.
  destruct (p (fst x) (snd x)); rewrite IH; reflexivity.
Qed.

Lemma somes_filter A (p : A -> bool) l : somes (map (fun a => if p a then Some a else None) l) = filter p l.
Proof. induction l as [|x l IH]; [reflexivity|]. cbn. destruct (p x); cbn; now rewrite IH. Qed.

Lemma slice_third_stage Z0 (pol : policy Z0) A step (r : pipe Z0 A) vs l :
  (1 < step)%Z ->
  finally (psys pol (safe (filteri_ (fun _ i => Ok (Z.of_nat i mod step =? 0)%Z) r))) (trace vs Completed) l <->
  finally (psys pol (safe r)) (trace (every step vs) Completed) l.
Proof.
  intros Hs. rewrite source_calls_nil, filteri_stage.
  rewrite (somes_keep (fun _ i => Z.of_nat i mod step =? 0)%Z).
  rewrite (somes_filter (fun ai : A * nat => (Z.of_nat (snd ai) mod step =? 0)%Z)). reflexivity.
Qed.

Lemma slice_stage Z0 (pol : policy Z0) A isn start stop step (opr : pipe Z0 A -> pipe Z0 A) r vs junk l :
  slice_ isn start stop step = Ok opr ->
  finally (psys pol (safe (opr r))) (source_calls vs Completed junk) l <->
  finally (psys pol (safe r)) (trace (slice_out isn start stop step vs) Completed) l.
Proof.
  intros Hs.
  rewrite (safe_norm_eq pol (opr r) (source_calls vs Completed junk) (trace vs Completed) l)
    by now rewrite norm_trace, norm_trace0.
  set (first := match start with
      | Some i => if (i <? 0)%Z then take_last_ (Z.abs i) else skip_ i
      | None => fun r : pipe Z0 A => r
      end).
  assert (H1 : forall r vs l, finally (psys pol (safe (first r))) (trace vs Completed) l <->
                finally (psys pol (safe r)) (trace (slice_first start vs) Completed) l).
  { intros r0 vs0 l0. unfold first, slice_first. destruct start as [i|]; [|reflexivity].
    destruct (i <? 0)%Z.
    - rewrite source_calls_nil, take_last_stage. reflexivity.
    - rewrite source_calls_nil, skip_stage. reflexivity. }
  assert (H2 : forall second, (match stop with
      | Some j => if (0 <? j)%Z
                  then take_ (j - match start with Some i => i | None => 0 end)
                  else Ok (skip_last_ isn (Z.abs j))
      | None => Ok (fun r : pipe Z0 A => r)
      end = Ok second) -> forall r vs l, finally (psys pol (safe (second r))) (trace vs Completed) l <->
                finally (psys pol (safe r)) (trace (slice_second isn start stop vs) Completed) l).
  { intros second E r0 vs0 l0. unfold slice_second. destruct stop as [j|]; [|inversion E; reflexivity].
    destruct (0 <? j)%Z.
    - unfold take_ in E. set (k := (j - match start with Some i => i | None => 0 end)%Z) in *.
      destruct (Z.ltb_spec k 0); [discriminate|]. inversion E; subst second.
      rewrite source_calls_nil, take_stage by lia. rewrite take_out_completed by lia. reflexivity.
    - inversion E; subst second. rewrite source_calls_nil, skip_last_stage. reflexivity. }
  unfold slice_ in Hs. fold first in Hs.
  destruct (match stop with
      | Some j => if (0 <? j)%Z
                  then take_ (j - match start with Some i => i | None => 0 end)
                  else Ok (skip_last_ isn (Z.abs j))
      | None => Ok (fun r : pipe Z0 A => r)
      end) as [second|x] eqn:E; [|discriminate].
  specialize (H2 second eq_refl). unfold slice_out, slice_third.
  destruct (Z.ltb_spec 1 step).
  - inversion Hs; subst opr. rewrite H1, H2, slice_third_stage by lia. reflexivity.
  - destruct (step <? 0)%Z; [discriminate|]. inversion Hs; subst opr. rewrite H1, H2. reflexivity.
Qed.

Lemma slice_refuses Z0 A (isn : A -> bool) start stop step :
  match slice_error start stop step with
  | Some x => slice_ (Z0 := Z0) isn start stop step = Err x
  | None => exists opr, slice_ (Z0 := Z0) isn start stop step = Ok opr
  end.
Proof.
  unfold slice_error, slice_, take_. destruct stop as [j|].
  - set (i := match start with Some i => i | None => 0%Z end).
    destruct (Z.ltb_spec 0 j); cbn [andb].
    + destruct (Z.ltb_spec j i); destruct (Z.ltb_spec (j - i) 0); try lia; [reflexivity|].
      destruct (Z.ltb_spec step 0); destruct (Z.ltb_spec 1 step); try lia; eauto.
    + destruct (Z.ltb_spec step 0); destruct (Z.ltb_spec 1 step); try lia; eauto.
  - destruct (Z.ltb_spec step 0); destruct (Z.ltb_spec 1 step); try lia; eauto.
Qed.

Lemma not_none_id A (isn : A -> bool) vs : (forall v, In v vs -> isn v = false) -> not_none isn vs = vs.
Proof.
  unfold not_none. induction vs as [|v vs IH]; intros H; [reflexivity|].
  cbn. rewrite (H v) by (left; reflexivity). cbn. rewrite IH; [reflexivity|].
  intros w Hw. apply H. now right.
Qed.

Lemma In_firstn A n (l : list A) x : In x (firstn n l) -> In x l.
Proof. intros H. rewrite <- (firstn_skipn n l). apply in_or_app. now left. Qed.
Lemma In_skipn A n (l : list A) x : In x (skipn n l) -> In x l.
Proof. intros H. rewrite <- (firstn_skipn n l). apply in_or_app. now right. Qed.

Lemma slice_python A (isn : A -> bool) start stop step (vs : list A) :
  slice_error start stop step = None ->
  (1 <= step)%Z ->
  stop <> Some 0%Z ->
  (match start, stop with Some i, Some j => ~ (i < 0 < j)%Z | _, _ => True end) ->
  (forall v, In v vs -> isn v = false) ->
  slice_out isn start stop step vs = py_slice start stop step vs.
Proof.
  intros He Hst H0 Hneg Hnone. rewrite py_slice_ranges. unfold slice_out.
  assert (Hthird : forall ys : list A, slice_third step ys = every step ys).
  { intros ys. unfold slice_third. destruct (Z.ltb_spec 1 step); [reflexivity|].
    replace step with 1%Z by lia. now rewrite every_1. }
  rewrite Hthird. f_equal.
  set (n := length vs). 
  assert (Hf : exists lo, slice_first start vs = skipn lo vs /\ lo <= n /\
     (match start with Some i => clamp (Z.of_nat n) i | None => 0%Z end) = Z.of_nat lo).
  { unfold slice_first, clamp. destruct start as [i|].
    - destruct (Z.ltb_spec i 0).
      + unfold lastn. fold n. exists (n - Z.to_nat (Z.abs i)). repeat split; lia.
      + destruct (Nat.le_gt_cases (Z.to_nat i) n).
        * exists (Z.to_nat i). repeat split; lia.
        * exists n. split; [|split; lia]. unfold n. rewrite skipn_all. apply skipn_all2. fold n; lia.
    - exists 0. repeat split; lia. }
  destruct Hf as (lo & Hf & Hlo & Hc).
  rewrite Hc, Nat2Z.id, Hf. unfold slice_second.
  destruct stop as [j|].
  - destruct (Z.ltb_spec 0 j) as [Hj|Hj].
    + unfold slice_error in He.
      assert (Hnn : match start with Some i => (0 <= i)%Z | None => True end) by (destruct start; lia).
      set (i := match start with Some i => i | None => 0%Z end) in *.
      assert (Hij : (i <= j)%Z).
      { destruct (Z.ltb_spec 0 j); [|lia]. cbn [andb] in He. destruct (Z.ltb_spec j i); [discriminate|lia]. }
      assert (Hi : (0 <= i)%Z) by (unfold i; destruct start; lia).
      assert (Hlo' : Z.of_nat lo = Z.min (Z.of_nat n) i).
      { rewrite <- Hc. unfold clamp, i. destruct start as [k|]; [|lia].
        destruct (Z.ltb_spec k 0); lia. }
      unfold clamp. destruct (Z.ltb_spec j 0); [lia|].
      destruct (Z.le_gt_cases j (Z.of_nat n)).
      * replace (Z.to_nat (Z.max 0 (Z.min (Z.of_nat n) j)) - lo) with (Z.to_nat (j - i)) by lia. reflexivity.
      * rewrite !firstn_all2; [reflexivity| |]; rewrite skipn_length; fold n; lia.
    + assert (Hj' : (j < 0)%Z).
      { assert (j <> 0%Z) by congruence. lia. }
      rewrite not_none_id.
      2:{ intros v Hv. apply Hnone. unfold butlastn in Hv. apply In_firstn in Hv. eapply In_skipn; eassumption. }
      unfold butlastn. rewrite skipn_length. fold n. unfold clamp.
      destruct (Z.ltb_spec j 0); [|lia].
      f_equal. lia.
  - rewrite Nat2Z.id. rewrite firstn_all2; [reflexivity|]. rewrite skipn_length. fold n. lia.
Qed.

(** ** Two sources *)
Lemma sane_ssys Z M B (pol : policy Z) (o : op M (act B)) (r : pipe Z B) : Sane (ssys pol o r).
Proof.
  split.
  - apply good_sync, good_act, good_pipe.
  - exact (grows_sync _ (grows_act (grows_pipe pol r))).
Qed.

Lemma calls_ssys M B (o : op M (act B)) (c : comp (notif B)) : noraise c ->
  forall ms s n d, snd (snd (calls (sync_comp o (act_comp c)) (s, (n, d)) ms)) = calls c d (feed o s ms).
Proof.
  intros Hn. induction ms as [|m ms IH]; intros s n d; cbn [feed].
  - reflexivity.
  - destruct (exec lcall (body o m) s []) as [[s' l] x] eqn:E.
    destruct (exec_noraise Hn _ _ n d E) as [n' He].
    change (calls (sync_comp o (act_comp c)) (s, (n, d)) (m :: ms)) with
      (calls (sync_comp o (act_comp c)) (fst (let '(s', d', r0) :=
          exec (ccall (act_comp c)) (body o m) s (n, d) in ((s', d'), r0))) ms).
    rewrite He. cbn [fst]. rewrite calls_app. apply IH.
Qed.

Lemma F_ssys Z M B (pol : policy Z) (o : op M (act B)) (r : pipe Z B) (x : st o * (nat * cst (pcomp pol r))) l :
  F (ssys pol o r) x l <-> F (psys pol r) (snd (snd x)) l.
Proof.
  destruct x as [s [n d]]. cbn [snd].
  assert (Hto : forall l, F (psys pol r) d l -> F (ssys pol o r) (s, (n, d)) l).
  { intros l0 (y & (m & H1 & H2) & <-). exists (s, (n, y)). split; [|reflexivity].
    exists m. split; [apply sync_steps, act_steps, H1|].
    intros k; simpl. pose proof (H2 k : cstep (pcomp pol r) k y = None) as H3. now rewrite H3. }
  split; [|apply Hto].
  intros (y & Hy & <-).
  destruct (g_term (good_pipe pol r) d) as (m & d' & H1 & H2).
  assert (Hd : F (psys pol r) d (plog pol r d')) by (exists d'; split; [exists m; auto|reflexivity]).
  destruct (Hto _ Hd) as (z & Hz & Hl).
  rewrite (settles_unique (sn_good (sane_ssys pol o r)) Hy Hz). rewrite Hl. exact Hd.
Qed.

Theorem stage_ssys Z (pol : policy Z) M B (o : op M (act B)) (r : pipe Z B) ms l :
  noraise (pcomp pol r) ->
  finally (ssys pol o r) ms l <-> finally (psys pol r) (feed o (ini o) ms) l.
Proof.
  intros Hn. rewrite (finally_F (sane_ssys pol o r)).
  rewrite (F_ssys pol o r). rewrite (finally_F (sane_psys pol r)).
  cbn [ssys sc s0 psys]. rewrite (calls_ssys o Hn). reflexivity.
Qed.

Lemma norm_prefix A (ps : list A) e ms ms' : e <> Open ->
  ms = trace ps e ++ ms' -> upto_terminal ms = trace ps e.
Proof. intros He ->. now apply norm_app. Qed.

Lemma last_left_snoc A B (p : arrivals A B) x :
  last_left (p ++ [x]) = match x with inl a => Some a | inr _ => last_left p end.
Proof. unfold last_left. rewrite fold_left_app. destruct x; reflexivity. Qed.
Lemma last_right_snoc A B (p : arrivals A B) x :
  last_right (p ++ [x]) = match x with inr b => Some b | inl _ => last_right p end.
Proof. unfold last_right. rewrite fold_left_app. destruct x; reflexivity. Qed.

(** Outputs per prefix, relative to arrivals already seen. *)
Fixpoint per_prefix {X Y} (f : list X -> option Y) (p l : list X) : list Y :=
  match l with
  | [] => []
  | x :: r => (match f (p ++ [x]) with Some y => [y] | None => [] end) ++ per_prefix f (p ++ [x]) r
  end.

Lemma somes_cons A (x : option A) l : somes (x :: l) = match x with Some a => [a] | None => [] end ++ somes l.
Proof. destruct x; reflexivity. Qed.

Lemma per_prefix_spec X Y (f : list X -> option Y) l : forall p,
  per_prefix f p l = somes (map (fun k => f (p ++ firstn k l)) (seq 1 (length l))).
Proof.
  induction l as [|x l IH]; intros p; [reflexivity|].
  cbn [per_prefix length seq map]. rewrite somes_cons. cbn [firstn]. f_equal.
  rewrite IH. f_equal. rewrite <- (seq_shift (length l) 1), map_map. apply map_ext. intros k.
  cbn [firstn]. now rewrite <- app_assoc.
Qed.

Lemma per_prefix_prefixes X Y (f : list X -> option Y) l : per_prefix f [] l = somes (map f (prefixes l)).
Proof.
  rewrite per_prefix_spec. unfold prefixes. rewrite map_map. reflexivity.
Qed.

Lemma deliver_cl A B (arr : arrivals A B) rest : forall p,
  deliver (@combine_latest_op A B) (last_left p, last_right p) (map msg_of arr ++ rest) =
  map OnNext (per_prefix both p arr) ++
  deliver (@combine_latest_op A B) (last_left (p ++ arr), last_right (p ++ arr)) rest.
Proof.
  induction arr as [|x arr IH]; intros p.
  - cbn. now rewrite app_nil_r.
  - cbn [map app per_prefix].
    assert (H : deliver (@combine_latest_op A B) (last_left p, last_right p) (msg_of x :: map msg_of arr ++ rest) =
       map OnNext (match both (p ++ [x]) with Some y => [y] | None => [] end) ++
       deliver (@combine_latest_op A B) (last_left (p ++ [x]), last_right (p ++ [x])) (map msg_of arr ++ rest)).
    { unfold both. rewrite last_left_snoc, last_right_snoc.
      destruct x as [a|b]; cbn [msg_of deliver combine_latest_op direct live body exec get_value].
      - destruct (last_right p) as [b|]; cbn; reflexivity.
      - destruct (last_left p) as [a|]; cbn; reflexivity. }
    rewrite H, IH. rewrite map_app, <- !app_assoc. reflexivity.
Qed.

Lemma cl_stage Z0 (pol : policy Z0) A B (r : pipe Z0 (A * B)) (arr : arrivals A B) t junk l :
  (forall m, t = Some m -> ends m <> Open) ->
  finally (combine_latest_sys pol r) (two_sources arr t junk) l <->
  finally (psys pol (safe r)) (trace (combined arr) (ending_of t)) l.
Proof.
  intros Ht. unfold combine_latest_sys.
  rewrite (stage_mbox pol combine_latest_op (safe r) _ l (noraise_safe pol r)).
  apply safe_norm_eq. rewrite norm_trace0. unfold two_sources.
  change (ini combine_latest_op) with (last_left (@nil (A + B)), last_right (@nil (A + B))).
  rewrite deliver_cl. cbn [app]. rewrite per_prefix_prefixes. fold (combined arr).
  rewrite norm_map. destruct t as [m|].
  - specialize (Ht m eq_refl). unfold trace. f_equal. unfold ending_of.
    destruct m as [[a|e|]|[b|e|]]; cbn in Ht; try congruence;
      cbn; try destruct (last_left arr); reflexivity.
  - reflexivity.
Qed.

Lemma sampled_snoc A B (p : arrivals A B) x :
  sampled (p ++ [x]) = match x with
    | inl a => match last_right p with Some b => Some (a, b) | None => None end
    | inr _ => None end.
Proof.
  unfold sampled. rewrite rev_app_distr. cbn [rev app]. destruct x as [a|b]; [|reflexivity].
  now rewrite last_right_snoc.
Qed.

Lemma deliver_wl A B (arr : arrivals A B) rest : forall p,
  deliver (@with_latest_from_op A B) (last_right p) (map msg_of arr ++ rest) =
  map OnNext (per_prefix sampled p arr) ++
  deliver (@with_latest_from_op A B) (last_right (p ++ arr)) rest.
Proof.
  induction arr as [|x arr IH]; intros p.
  - cbn. now rewrite app_nil_r.
  - cbn [map app per_prefix].
    assert (H : deliver (@with_latest_from_op A B) (last_right p) (msg_of x :: map msg_of arr ++ rest) =
       map OnNext (match sampled (p ++ [x]) with Some y => [y] | None => [] end) ++
       deliver (@with_latest_from_op A B) (last_right (p ++ [x])) (map msg_of arr ++ rest)).
    { rewrite sampled_snoc, last_right_snoc.
      destruct x as [a|b]; cbn [msg_of deliver with_latest_from_op direct live body exec get_value].
      - destruct (last_right p) as [b|]; cbn; reflexivity.
      - cbn. reflexivity. }
    rewrite H, IH. rewrite map_app, <- !app_assoc. reflexivity.
Qed.

Lemma wl_stage Z0 (pol : policy Z0) A B (r : pipe Z0 (A * B)) (arr : arrivals A B) t junk l :
  (forall m, t = Some m -> ends m <> Open) ->
  finally (with_latest_from_sys pol r) (two_sources arr t junk) l <->
  finally (psys pol (safe r)) (trace (with_latest arr) (ending_of t)) l.
Proof.
  intros Ht. unfold with_latest_from_sys.
  rewrite (stage_mbox pol with_latest_from_op (safe r) _ l (noraise_safe pol r)).
  apply safe_norm_eq. rewrite norm_trace0. unfold two_sources.
  change (ini with_latest_from_op) with (last_right (@nil (A + B))).
  rewrite deliver_wl. cbn [app]. rewrite per_prefix_prefixes. fold (with_latest arr).
  rewrite norm_map. destruct t as [m|].
  - specialize (Ht m eq_refl). unfold trace. f_equal. unfold ending_of.
    destruct m as [[a|e|]|[b|e|]]; cbn in Ht; try congruence; reflexivity.
  - reflexivity.
Qed.

Lemma feed_tu A B (arr : arrivals A unit) rest :
  feed (@take_until_op A B) tt (map tu_msg arr ++ rest) =
  map OnNext (lefts arr) ++ feed (@take_until_op A B) tt rest.
Proof.
  induction arr as [|[a|[]] arr IH]; [reflexivity| |]; cbn; rewrite IH; reflexivity.
Qed.

Lemma tu_stage Z0 (pol : policy Z0) A B (r : pipe Z0 A) (arr : arrivals A unit) (t : option (either A B)) junk l :
  (forall m, t = Some m -> tu_ends m <> Open) ->
  finally (take_until_sys (B := B) pol r) (tu_calls arr t junk) l <->
  finally (psys pol (safe r)) (trace (lefts arr) (match t with Some m => tu_ends m | None => Open end)) l.
Proof.
  intros Ht. unfold take_until_sys.
  rewrite (stage_ssys pol take_until_op (safe r) _ l (noraise_safe pol r)).
  apply safe_norm_eq. rewrite norm_trace0. unfold tu_calls.
  change (ini take_until_op) with tt. rewrite feed_tu, norm_map.
  destruct t as [m|].
  - specialize (Ht m eq_refl). unfold trace. f_equal.
    destruct m as [[a|e|]|[b|e|]]; cbn in Ht; try congruence; reflexivity.
  - reflexivity.
Qed.
