(** * Proofs about exchanging chains of operators. *)
From Verif Require Export Laws Ops3Proofs.
Set Implicit Arguments.

(** What [f] makes of elements and ending. *)
Definition acts {A B} (f : operator A B) (F : list A -> ending -> list B * ending) : Prop :=
  forall Z (pol : policy Z) (r : pipe Z B) vs e junk l,
  finally (psys pol (safe (f Z r))) (source_calls vs e junk) l <->
  finally (psys pol (safe r)) (trace (fst (F vs e)) (snd (F vs e))) l.

Lemma acts_streamwise A B (f : operator A B) F : acts f F -> streamwise f.
Proof. intros H. exists F. intros. apply behaves; [apply sane_psys|apply sane_psys|]. intros l. apply H. Qed.

Lemma acts_then A B C (f : operator A B) (g : operator B C) F G :
  acts f F -> acts g G -> acts (f >> g) (fun vs e => G (fst (F vs e)) (snd (F vs e))).
Proof. intros Hf Hg Z pol r vs e junk l. unfold followed_by. rewrite (Hf _ pol). rewrite source_calls_nil, (Hg _ pol). reflexivity. Qed.

Lemma acts_same A B (f g : operator A B) F G :
  acts f F -> acts g G -> (forall vs e, F vs e = G vs e) -> interchangeable f g.
Proof.
  intros Hf Hg E Z pol r ms. destruct (source_calls_any ms) as (vs & e & junk & ->).
  apply behaves; [apply sane_psys|apply sane_psys|]. intros l. rewrite (Hf _ pol), (Hg _ pol), E. reflexivity.
Qed.

Lemma streamwise_acts A B (f : operator A B) : streamwise f -> exists F, acts f F.
Proof.
  intros (F & H). exists F. intros Z pol r vs e junk l.
  pose proof (H Z pol r vs e junk l) as K. rewrite !(delivers_iff (sane_psys _ _)) in K. exact K.
Qed.

Lemma substitute A B C (f : operator A B) (g g' : operator B C) :
  streamwise f -> interchangeable g g' -> interchangeable (f >> g) (f >> g').
Proof.
  intros Hf H Z pol r ms. destruct (streamwise_acts Hf) as (F & Fs).
  destruct (source_calls_any ms) as (vs & e & junk & ->).
  apply behaves; [apply sane_psys|apply sane_psys|]. intros l. unfold followed_by.
  rewrite (Fs _ pol (g Z r)), (Fs _ pol (g' Z r)).
  pose proof (H Z pol r (trace (fst (F vs e)) (snd (F vs e))) l) as K. rewrite !(delivers_iff (sane_psys _ _)) in K. exact K.
Qed.

Lemma streamwise_then A B C (f : operator A B) (g : operator B C) : streamwise f -> streamwise g -> streamwise (f >> g).
Proof.
  intros Hf Hg. destruct (streamwise_acts Hf) as (F & Fs). destruct (streamwise_acts Hg) as (G & Gs).
  eapply acts_streamwise, acts_then; eassumption.
Qed.

(** ** The operators *)
Definition F_map {A B} (f : A -> res B) vs e := (fst (results f vs), or_failed (snd (results f vs)) e).
Definition F_choose {A B} (f : A -> res (option B)) vs e := (somes (fst (results f vs)), or_failed (snd (results f vs)) e).
Definition F_take {A} (n : Z) (vs : list A) e : list A * ending :=
  if ((0 <? n) && (n <=? Z.of_nat (length vs)))%Z then (firstn (Z.to_nat n) vs, Completed)
  else if (n =? 0)%Z then ([], e) else (vs, e).
Definition F_last {A} (n : Z) (vs : list A) e : list A * ending :=
  match e with Completed => (lastn (Z.to_nat n) vs, Completed) | _ => ([], e) end.

Lemma acts_nothing A : acts (@nothing A) (fun vs e => (vs, e)).
Proof. intros Z pol r vs e junk l. apply safe_norm_eq. now rewrite norm_trace, norm_trace0. Qed.
Lemma acts_map A B (f : A -> res B) : acts (fun Z => map_ f) (F_map f).
Proof. intros Z pol r vs e junk l. rewrite map_stage. unfold map_out, F_map. destruct (results f vs). reflexivity. Qed.
Lemma acts_map_async A B (f : A -> res B) : acts (fun Z => map_async_ f) (F_map f).
Proof. intros Z pol r vs e junk l. rewrite map_async_stage. unfold map_out, F_map. destruct (results f vs). reflexivity. Qed.
Lemma acts_choose A B (f : A -> res (option B)) : acts (fun Z => choose_ f) (F_choose f).
Proof. intros Z pol r vs e junk l. rewrite choose_stage. unfold choose_out, F_choose. destruct (results f vs). reflexivity. Qed.
Lemma acts_choose_async A B (f : A -> res (option B)) : acts (fun Z => choose_async_ f) (F_choose f).
Proof. intros Z pol r vs e junk l. rewrite choose_async_stage. unfold choose_out, F_choose. destruct (results f vs). reflexivity. Qed.
Lemma acts_filter A (p : A -> res bool) : acts (fun Z => filter_ p) (F_choose (keep p)).
Proof. intros Z pol r vs e junk l. rewrite filter_stage. unfold choose_out, F_choose. destruct (results (keep p) vs). reflexivity. Qed.
Lemma acts_filter_async A (p : A -> res bool) : acts (fun Z => filter_async_ p) (F_choose (keep p)).
Proof. intros Z pol r vs e junk l. rewrite filter_async_stage. unfold choose_out, F_choose. destruct (results (keep p) vs). reflexivity. Qed.
Lemma acts_take A n : (0 <= n)%Z -> acts (@taking A n) (F_take n).
Proof.
  intros Hn Z pol r vs e junk l. unfold taking, take_. destruct (n <? 0)%Z eqn:E; [lia|].
  rewrite take_stage by exact Hn. unfold take_out, F_take. destruct (_ && _)%bool; [reflexivity|]. destruct (n =? 0)%Z; reflexivity.
Qed.
Lemma acts_skip A n : acts (fun Z => @skip_ Z A n) (fun vs e => (skipn (Z.to_nat n) vs, e)).
Proof. intros Z pol r vs e junk l. apply skip_stage. Qed.
Lemma acts_skip_last A isn n : acts (fun Z => @skip_last_ Z A isn n) (fun vs e => (not_none isn (butlastn (Z.to_nat n) vs), e)).
Proof. intros Z pol r vs e junk l. apply skip_last_stage. Qed.
Lemma acts_take_last A n : acts (fun Z => @take_last_ Z A n) (F_last n).
Proof. intros Z pol r vs e junk l. rewrite take_last_stage. unfold take_last_out, F_last. destruct e; reflexivity. Qed.
Lemma acts_zip A B (it : iterator B) : acts (fun Z => @zip_seq_ Z A B it) (fun vs e => zip_from it 0 vs e).
Proof. intros Z pol r vs e junk l. rewrite zip_stage. unfold zip_out. destruct (zip_from it 0 vs e). reflexivity. Qed.
Lemma acts_mapi A B (f : A -> nat -> res B) : acts (fun Z => mapi_ f) (fun vs e => F_map (fun ai => f (fst ai) (snd ai)) (indexed 0 vs) e).
Proof. intros Z pol r vs e junk l. rewrite mapi_stage. unfold map_out, F_map. destruct (results _ (indexed 0 vs)). reflexivity. Qed.
Lemma acts_mapi_async A B (f : A -> nat -> res B) : acts (fun Z => mapi_async_ f) (fun vs e => F_map (fun ai => f (fst ai) (snd ai)) (indexed 0 vs) e).
Proof. intros Z pol r vs e junk l. rewrite mapi_async_stage. unfold map_out, F_map. destruct (results _ (indexed 0 vs)). reflexivity. Qed.
Lemma acts_filteri A (p : A -> nat -> res bool) : acts (fun Z => filteri_ p)
  (fun vs e => let F := F_choose (keep (fun ai => p (fst ai) (snd ai))) (indexed 0 vs) e in (map fst (fst F), snd F)).
Proof. intros Z pol r vs e junk l. rewrite filteri_stage. unfold F_choose. destruct (results _ (indexed 0 vs)). reflexivity. Qed.
Lemma acts_distinct A eqb : acts (fun Z => @distinct_until_changed_ Z A eqb) (fun vs e => (changes eqb None vs, e)).
Proof. intros Z pol r vs e junk l. apply distinct_stage. Qed.
Lemma acts_scan A B (f : B -> A -> B) b : acts (fun Z => scan_ (fun s a => Ok (f s a)) b) (fun vs e => (scanl f b vs, e)).
Proof. intros Z pol r vs e junk l. apply scan_stage. Qed.

(** ** Facts about lists *)
Lemma results_results A B C (f : A -> res B) (g : B -> res C) vs e :
  F_map g (fst (results f vs)) (or_failed (snd (results f vs)) e) =
  F_map (fun a => match f a with Ok b => g b | Err x => Err x end) vs e.
Proof.
  unfold F_map. induction vs as [|v vs IH]; [reflexivity|]. cbn [results].
  destruct (f v) as [b|x]; [|reflexivity]. destruct (results f vs) as [bs x] eqn:E. cbn [fst snd results] in *.
  destruct (g b) as [c|y]; [|reflexivity].
  destruct (results g bs) as [cs y] eqn:Eg. destruct (results (fun a => match f a with Ok b0 => g b0 | Err x0 => Err x0 end) vs) as [ds z] eqn:Ed.
  cbn [fst snd] in *. injection IH as <- IH. now rewrite IH.
Qed.

Lemma choose_choose A B C (f : A -> res (option B)) (g : B -> res (option C)) vs e :
  F_choose g (somes (fst (results f vs))) (or_failed (snd (results f vs)) e) =
  F_choose (fun a => match f a with Ok (Some b) => g b | Ok None => Ok None | Err x => Err x end) vs e.
Proof.
  unfold F_choose. induction vs as [|v vs IH]; [reflexivity|]. cbn [results].
  destruct (f v) as [[b|]|x]; [| |reflexivity].
  - destruct (results f vs) as [bs x] eqn:E. cbn [fst snd results somes] in *.
    destruct (g b) as [c|y]; [|reflexivity].
    destruct (results g (somes bs)) as [cs y] eqn:Eg.
    match goal with |- context[results ?h vs] => destruct (results h vs) as [ds z] eqn:Ed end.
    cbn [fst snd] in *. injection IH as H1 H2. destruct c; cbn [somes]; now rewrite H1, H2.
  - destruct (results f vs) as [bs x] eqn:E. cbn [fst snd results somes] in *.
    match goal with |- context[results ?h vs] => destruct (results h vs) as [ds z] eqn:Ed end.
    exact IH.
Qed.

Lemma map_choose A B C (f : A -> res B) (g : B -> res (option C)) vs e :
  F_choose g (fst (results f vs)) (or_failed (snd (results f vs)) e) =
  F_choose (fun a => match f a with Ok b => g b | Err x => Err x end) vs e.
Proof.
  unfold F_choose. induction vs as [|v vs IH]; [reflexivity|]. cbn [results].
  destruct (f v) as [b|x]; [|reflexivity]. destruct (results f vs) as [bs x] eqn:E. cbn [fst snd results] in *.
  destruct (g b) as [c|y]; [|reflexivity].
  destruct (results g bs) as [cs y] eqn:Eg.
  match goal with |- context[results ?h vs] => destruct (results h vs) as [ds z] eqn:Ed end.
  cbn [fst snd] in *. injection IH as H1 H2. destruct c; cbn [somes]; now rewrite H1, H2.
Qed.

Lemma results_ext A B (f g : A -> res B) vs : (forall a, f a = g a) -> results f vs = results g vs.
Proof. intros H. induction vs as [|v vs IH]; [reflexivity|]. cbn. now rewrite H, IH. Qed.

Lemma results_firstn A B (f : A -> res B) vs : forall n,
  n <= length (fst (results f vs)) -> results f (firstn n vs) = (firstn n (fst (results f vs)), None).
Proof.
  induction vs as [|v vs IH]; intros n H.
  - cbn in *. now rewrite !firstn_nil.
  - destruct n as [|n]; [reflexivity|]. cbn [firstn results] in *. destruct (f v) as [b|x]; [|cbn in H; lia].
    destruct (results f vs) as [bs x]. cbn [fst length firstn] in *. rewrite IH by lia. reflexivity.
Qed.

Lemma results_short A B (f : A -> res B) vs : forall n,
  length (fst (results f vs)) < n <= length vs ->
  results f (firstn n vs) = results f vs /\ snd (results f vs) <> None.
Proof.
  induction vs as [|v vs IH]; intros n H; [cbn in H; lia|].
  destruct n as [|n]; [lia|]. cbn [firstn results] in *. destruct (f v) as [b|x]; [|split; [reflexivity|discriminate]].
  specialize (IH n). destruct (results f vs) as [bs x]. cbn [fst snd length] in *.
  destruct IH as [-> N]; [lia|]. auto.
Qed.

Lemma results_length A B (f : A -> res B) vs : length (fst (results f vs)) <= length vs /\
  (snd (results f vs) = None -> length (fst (results f vs)) = length vs).
Proof.
  induction vs as [|v vs IH]; [cbn; auto|]. cbn. destruct (f v); [|cbn; split; [lia|discriminate]].
  destruct (results f vs) as [bs x]. cbn in *. destruct IH as [I1 I2]. split; [lia|]. intros H. now rewrite I2.
Qed.

Lemma map_take A B (f : A -> res B) n vs e : (0 < n)%Z ->
  F_take n (fst (results f vs)) (or_failed (snd (results f vs)) e) =
  F_map f (fst (F_take n vs e)) (snd (F_take n vs e)).
Proof.
  intros Hn. unfold F_take, F_map. destruct (results_length f vs) as [L1 L2].
  destruct (n =? 0)%Z eqn:E0; [lia|]. destruct (0 <? n)%Z eqn:E1; [|lia]. cbn [andb].
  destruct (n <=? Z.of_nat (length (fst (results f vs))))%Z eqn:E2; destruct (n <=? Z.of_nat (length vs))%Z eqn:E3; cbn [fst snd].
  - rewrite results_firstn by lia. reflexivity.
  - lia.
  - destruct (@results_short _ _ f vs (Z.to_nat n)) as [-> N]; [lia|]. destruct (snd (results f vs)); [reflexivity|congruence].
  - reflexivity.
Qed.

Lemma F_map_total A B (f : A -> B) vs e : F_map (fun a => Ok (f a)) vs e = (map f vs, e).
Proof. unfold F_map. now rewrite results_total. Qed.

Lemma take_take A m n (vs : list A) e : (0 < m)%Z -> (0 < n)%Z ->
  F_take n (fst (F_take m vs e)) (snd (F_take m vs e)) = F_take (Z.min m n) vs e.
Proof.
  intros Hm Hn. unfold F_take.
  destruct (m =? 0)%Z eqn:E0; [lia|]. destruct (0 <? m)%Z eqn:E1; [|lia].
  destruct (n =? 0)%Z eqn:E2; [lia|]. destruct (0 <? n)%Z eqn:E3; [|lia].
  destruct (Z.min m n =? 0)%Z eqn:E4; [lia|]. destruct (0 <? Z.min m n)%Z eqn:E5; [|lia]. cbn [andb].
  destruct (m <=? Z.of_nat (length vs))%Z eqn:E6; cbn [fst snd].
  - rewrite firstn_length, firstn_firstn. destruct (Z.min m n <=? Z.of_nat (length vs))%Z eqn:E7; [|lia].
    destruct (n <=? _)%Z eqn:E8.
    + f_equal. f_equal. lia.
    + f_equal. f_equal. rewrite Nat2Z.inj_min, Z2Nat.id in E8 by lia. apply Z.leb_gt in E8. apply Z.leb_le in E6. clear -E8 E6 Hn Hm. lia.
  - destruct (n <=? Z.of_nat (length vs))%Z eqn:E7; destruct (Z.min m n <=? Z.of_nat (length vs))%Z eqn:E8; try lia; [|reflexivity].
    f_equal. f_equal. lia.
Qed.

Lemma skipn_skipn A (l : list A) : forall m n, skipn n (skipn m l) = skipn (m + n) l.
Proof. induction l as [|x l IH]; intros [|m] n; cbn; try reflexivity; [now rewrite skipn_nil|apply IH]. Qed.

Lemma skip_skip A m n (vs : list A) : skipn (Z.to_nat n) (skipn (Z.to_nat m) vs) = skipn (Z.to_nat (Z.max 0 m + Z.max 0 n)) vs.
Proof. rewrite skipn_skipn. f_equal. lia. Qed.

Lemma skip_take A m n (vs : list A) e : (0 <= m)%Z -> (0 < n)%Z ->
  F_take n (skipn (Z.to_nat m) vs) e =
  (skipn (Z.to_nat m) (fst (F_take (m + n) vs e)), snd (F_take (m + n) vs e)).
Proof.
  intros Hm Hn. unfold F_take. rewrite skipn_length.
  destruct (n =? 0)%Z eqn:E0; [lia|]. destruct (0 <? n)%Z eqn:E1; [|lia].
  destruct (m + n =? 0)%Z eqn:E2; [lia|]. destruct (0 <? m + n)%Z eqn:E3; [|lia]. cbn [andb].
  clear E0 E1 E2 E3.
  destruct (Z.leb_spec n (Z.of_nat (length vs - Z.to_nat m))); destruct (Z.leb_spec (m + n) (Z.of_nat (length vs)));
    try lia; cbn [fst snd]; [|reflexivity].
  f_equal. rewrite firstn_skipn_comm. f_equal. f_equal. lia.
Qed.

Lemma last_last A m n (vs : list A) : lastn (Z.to_nat n) (lastn (Z.to_nat m) vs) = lastn (Z.to_nat (Z.min m n)) vs.
Proof. unfold lastn. rewrite skipn_skipn, skipn_length. f_equal. lia. Qed.

Lemma butlast_butlast A m n (vs : list A) : butlastn n (butlastn m vs) = butlastn (m + n) vs.
Proof. unfold butlastn. rewrite firstn_firstn, firstn_length. f_equal. lia. Qed.

Lemma butlast_skip A m n (vs : list A) : butlastn n (skipn m vs) = skipn m (butlastn n vs).
Proof.
  unfold butlastn. rewrite skipn_length. rewrite firstn_skipn_comm.
  destruct (le_lt_dec (m + n) (length vs)).
  - f_equal. f_equal. lia.
  - rewrite !skipn_all2; [reflexivity|rewrite firstn_length; lia|rewrite firstn_length; lia].
Qed.

Lemma map_skip A B (f : A -> B) n vs : skipn n (map f vs) = map f (skipn n vs).
Proof. apply skipn_map. Qed.
Lemma map_lastn A B (f : A -> B) n vs : lastn n (map f vs) = map f (lastn n vs).
Proof. unfold lastn. now rewrite map_length, skipn_map. Qed.
Lemma map_butlastn A B (f : A -> B) n vs : butlastn n (map f vs) = map f (butlastn n vs).
Proof. unfold butlastn. now rewrite map_length, firstn_map. Qed.
Lemma scanl_map A B C (f : C -> B -> C) (g : A -> B) vs : forall c, scanl f c (map g vs) = scanl (fun c a => f c (g a)) c vs.
Proof. induction vs as [|v vs IH]; intros c; cbn; [reflexivity|]. now rewrite IH. Qed.
Lemma scanl_take A B (f : B -> A -> B) vs : forall b n, firstn n (scanl f b vs) = scanl f b (firstn n vs).
Proof. induction vs as [|v vs IH]; intros b [|n]; cbn; try reflexivity. now rewrite IH. Qed.
Lemma scanl_length A B (f : B -> A -> B) vs : forall b, length (scanl f b vs) = length vs.
Proof. induction vs as [|v vs IH]; intros b; cbn; [reflexivity|]. now rewrite IH. Qed.
Lemma take_scan A B (f : B -> A -> B) b n (vs : list A) e :
  F_take n (scanl f b vs) e = (scanl f b (fst (F_take n vs e)), snd (F_take n vs e)).
Proof.
  unfold F_take. rewrite scanl_length. destruct (_ && _)%bool; [cbn; now rewrite scanl_take|].
  destruct (n =? 0)%Z; reflexivity.
Qed.
Lemma take_map_total A B (f : A -> B) n vs e : F_take n (map f vs) e = (map f (fst (F_take n vs e)), snd (F_take n vs e)).
Proof.
  unfold F_take. rewrite map_length. destruct (_ && _)%bool; [cbn; now rewrite firstn_map|].
  destruct (n =? 0)%Z; reflexivity.
Qed.
Lemma results_keep_total A (p : A -> bool) vs : results (keep (fun a => Ok (p a))) vs = (map (fun a => if p a then Some a else None) vs, None).
Proof. induction vs as [|v vs IH]; [reflexivity|]. cbn [results map]. rewrite IH. unfold keep. destruct (p v); reflexivity. Qed.
Lemma F_filter_total A (p : A -> bool) vs e : F_choose (keep (fun a => Ok (p a))) vs e = (filter p vs, e).
Proof.
  unfold F_choose. rewrite results_keep_total. cbn. f_equal.
  induction vs as [|v vs IH]; cbn; [reflexivity|]. destruct (p v); cbn; now rewrite IH.
Qed.
Lemma filter_map A B (f : A -> B) (p : B -> bool) vs : filter p (map f vs) = map f (filter (fun a => p (f a)) vs).
Proof. induction vs as [|v vs IH]; cbn; [reflexivity|]. destruct (p (f v)); cbn; now rewrite IH. Qed.

(** distinct_until_changed twice *)
Lemma changes_twice A (eqb : A -> A -> bool) :
  (forall x, eqb x x = true) -> (forall x y, eqb x y = true -> eqb y x = true) ->
  (forall x y z, eqb x y = true -> eqb y z = true -> eqb x z = true) ->
  forall vs p q, (match p, q with Some a, Some b => eqb a b = true | None, None => True | _, _ => False end) ->
  changes eqb q (changes eqb p vs) = changes eqb p vs.
Proof.
  intros R S T. induction vs as [|v vs IH]; intros p q H; [reflexivity|]. cbn [changes].
  destruct p as [a|]; destruct q as [b|]; try contradiction.
  - destruct (eqb v a) eqn:E; cbn [app].
    + apply IH. now apply T with a.
    + cbn [changes]. assert (N : eqb v b = false).
      { destruct (eqb v b) eqn:F; [|reflexivity]. rewrite (T v b a F (S a b H)) in E. discriminate. }
      rewrite N. cbn [app]. f_equal. apply IH, R.
  - cbn [app changes]. f_equal. apply IH, R.
Qed.

Definition F_reduce {A B} (f : B -> A -> res B) b (vs : list A) e : list B * ending :=
  match fold_res f b vs with
  | Err x => ([], Failed x)
  | Ok r => match e with Completed => (match vs with [] => [] | _ => [r] end, Completed) | _ => ([], e) end
  end.
Lemma acts_reduce A B (f : B -> A -> res B) b : acts (fun Z => reduce_ f b) (F_reduce f b).
Proof.
  intros Z pol r vs e junk l. rewrite reduce_res_stage. unfold reduce_res, F_reduce.
  destruct (fold_res f b vs); [|reflexivity]. destruct e; reflexivity.
Qed.

Lemma fold_res_map A B C (f : C -> B -> res C) (g : A -> B) vs : forall c,
  fold_res f c (map g vs) = fold_res (fun c a => f c (g a)) c vs.
Proof. induction vs as [|v vs IH]; intros c; cbn; [reflexivity|]. destruct (f c (g v)); [apply IH|reflexivity]. Qed.

(** Two operators that are told apart by one run. *)
Lemma told_apart A B (f g : operator A B) F G vs e :
  acts f F -> acts g G -> trace (fst (F vs e)) (snd (F vs e)) <> trace (fst (G vs e)) (snd (G vs e)) -> ~ interchangeable f g.
Proof.
  intros Hf Hg N I. pose proof (I B well_behaved PEnd (source_calls vs e []) (trace (fst (F vs e)) (snd (F vs e)))) as K.
  rewrite !(delivers_iff (sane_psys _ _)) in K. rewrite (Hf _ well_behaved), (Hg _ well_behaved), !subscriber, !norm_trace0 in K.
  apply N. now apply K.
Qed.

Lemma not_none_all A (l : list A) : not_none (fun _ => false) l = l.
Proof. unfold not_none. induction l as [|x l IH]; cbn; [reflexivity|]. now f_equal. Qed.
