(** * Property C77: laws of operators.

    [f >> g] is the chain of [f] and then [g].  [interchangeable f g]: for every
    source, every rest of the pipeline, every (also raising) subscriber and every
    schedule the subscriber is told the same.  The functions may raise, except
    where they are wrapped in [Ok]. *)
From Verif Require Import LawsProofs.
Set Implicit Arguments.

Ltac law F G := refine (@acts_same _ _ _ _ _ _ F G _).

(** ** What the laws are good for *)
(** [interchangeable] is an equivalence, *)
Theorem C77_equivalence : forall A B (f g h : operator A B),
  interchangeable f f /\ (interchangeable f g -> interchangeable g f) /\
  (interchangeable f g -> interchangeable g h -> interchangeable f h).
Proof.
  intros A B f g h. split; [|split].
  - intros Z pol r ms l. reflexivity.
  - intros H Z pol r ms l. symmetry. apply H.
  - intros H K Z pol r ms l. rewrite (H Z pol r ms l). apply K.
Qed.
Print Assumptions C77_equivalence.

(** and one side of a law may replace the other anywhere in a chain of the operators below. *)
Theorem C77_replace : forall A B C D (f : operator A B) (g g' : operator B C) (h : operator C D),
  streamwise f -> interchangeable g g' -> interchangeable (f >> g >> h) (f >> g' >> h).
Proof. intros. intros Z pol r ms. exact (@substitute _ _ _ f g g' H H0 Z pol (h Z r) ms). Qed.
Print Assumptions C77_replace.

Theorem C77_streamwise :
  (forall A, streamwise (@nothing A)) /\
  (forall A B (f : A -> res B), streamwise (fun Z => map_ f)) /\
  (forall A B (f : A -> res (option B)), streamwise (fun Z => choose_ f)) /\
  (forall A (p : A -> res bool), streamwise (fun Z => filter_ p)) /\
  (forall A B (f : A -> nat -> res B), streamwise (fun Z => mapi_ f)) /\
  (forall A (p : A -> nat -> res bool), streamwise (fun Z => filteri_ p)) /\
  (forall A n, (0 <= n)%Z -> streamwise (@taking A n)) /\
  (forall A n, streamwise (fun Z => @skip_ Z A n)) /\
  (forall A n, streamwise (fun Z => @take_last_ Z A n)) /\
  (forall A isn n, streamwise (fun Z => @skip_last_ Z A isn n)) /\
  (forall A eqb, streamwise (fun Z => @distinct_until_changed_ Z A eqb)) /\
  (forall A B (it : iterator B), streamwise (fun Z => @zip_seq_ Z A B it)) /\
  (forall A B (f : B -> A -> B) b, streamwise (fun Z => scan_ (fun s a => Ok (f s a)) b)) /\
  (forall A B (f : B -> A -> res B) b, streamwise (fun Z => reduce_ f b)) /\
  (forall A B C (f : operator A B) (g : operator B C), streamwise f -> streamwise g -> streamwise (f >> g)).
Proof.
  split; [intros; eapply acts_streamwise; apply acts_nothing|].
  split; [intros; eapply acts_streamwise; apply acts_map|].
  split; [intros; eapply acts_streamwise; apply acts_choose|].
  split; [intros; eapply acts_streamwise; apply acts_filter|].
  split; [intros; eapply acts_streamwise; apply acts_mapi|].
  split; [intros; eapply acts_streamwise; apply acts_filteri|].
  split; [intros; eapply acts_streamwise; now apply acts_take|].
  split; [intros; eapply acts_streamwise; apply acts_skip|].
  split; [intros; eapply acts_streamwise; apply acts_take_last|].
  split; [intros; eapply acts_streamwise; apply acts_skip_last|].
  split; [intros; eapply acts_streamwise; apply acts_distinct|].
  split; [intros; eapply acts_streamwise; apply acts_zip|].
  split; [intros; eapply acts_streamwise; apply acts_scan|].
  split; [intros; eapply acts_streamwise; apply acts_reduce|].
  intros. now apply streamwise_then.
Qed.
Print Assumptions C77_streamwise.

(** ** Operators with coroutine functions do what the plain ones do *)
Theorem C77_async :
  (forall A B (f : A -> res B), interchangeable (fun Z => map_async_ f) (fun Z => map_ f)) /\
  (forall A B C (f : A -> B -> res C), interchangeable (fun Z => starmap_async_ f) (fun Z => starmap_ f)) /\
  (forall A B (f : A -> nat -> res B), interchangeable (fun Z => mapi_async_ f) (fun Z => mapi_ f)) /\
  (forall A (p : A -> res bool), interchangeable (fun Z => filter_async_ p) (fun Z => filter_ p)) /\
  (forall A B (f : A -> res (option B)), interchangeable (fun Z => choose_async_ f) (fun Z => choose_ f)).
Proof.
  split; [|split; [|split; [|split]]]; intros.
  - now law (acts_map_async f) (acts_map f).
  - now law (acts_map_async (fun ab => f (fst ab) (snd ab))) (acts_map (fun ab => f (fst ab) (snd ab))).
  - now law (acts_mapi_async f) (acts_mapi f).
  - now law (acts_filter_async p) (acts_filter p).
  - now law (acts_choose_async f) (acts_choose f).
Qed.
Print Assumptions C77_async.

(** ** map, filter, choose *)
Theorem C77_map_map : forall A B C (f : A -> res B) (g : B -> res C),
  interchangeable ((fun Z => map_ f) >> (fun Z => map_ g))
    (fun Z => map_ (fun a => match f a with Ok b => g b | Err x => Err x end)).
Proof. intros. law (acts_then (acts_map f) (acts_map g)) (acts_map (fun a => match f a with Ok b => g b | Err x => Err x end)). intros. apply results_results. Qed.
Print Assumptions C77_map_map.

Theorem C77_map_identity : forall A, interchangeable (fun Z => map_ (fun a : A => Ok a)) nothing.
Proof. intros. law (acts_map (fun a : A => Ok a)) (@acts_nothing A). intros. rewrite (F_map_total (fun a => a)). now rewrite map_id. Qed.
Print Assumptions C77_map_identity.

Theorem C77_filter_filter : forall A (p q : A -> res bool),
  interchangeable ((fun Z => filter_ p) >> (fun Z => filter_ q))
    (fun Z => filter_ (fun a => match p a with Ok true => q a | Ok false => Ok false | Err x => Err x end)).
Proof.
  intros. law (acts_then (acts_filter p) (acts_filter q)) (acts_filter (fun a => match p a with Ok true => q a | Ok false => Ok false | Err x => Err x end)).
  intros. cbn. rewrite choose_choose. unfold F_choose. erewrite results_ext; [reflexivity|].
  intros a. unfold keep. destruct (p a) as [[]|]; reflexivity.
Qed.
Print Assumptions C77_filter_filter.

Theorem C77_choose_choose : forall A B C (f : A -> res (option B)) (g : B -> res (option C)),
  interchangeable ((fun Z => choose_ f) >> (fun Z => choose_ g))
    (fun Z => choose_ (fun a => match f a with Ok (Some b) => g b | Ok None => Ok None | Err x => Err x end)).
Proof.
  intros. law (acts_then (acts_choose f) (acts_choose g)) (acts_choose (fun a => match f a with Ok (Some b) => g b | Ok None => Ok None | Err x => Err x end)).
  intros. apply choose_choose.
Qed.
Print Assumptions C77_choose_choose.

(** filter is choose, and map before filter is choose as well. *)
Theorem C77_filter_choose : forall A (p : A -> res bool),
  interchangeable (fun Z => filter_ p)
    (fun Z => choose_ (fun a => match p a with Ok true => Ok (Some a) | Ok false => Ok None | Err x => Err x end)).
Proof. intros. now law (acts_filter p) (acts_choose (keep p)). Qed.
Print Assumptions C77_filter_choose.

Theorem C77_map_choose : forall A B C (f : A -> res B) (g : B -> res (option C)),
  interchangeable ((fun Z => map_ f) >> (fun Z => choose_ g))
    (fun Z => choose_ (fun a => match f a with Ok b => g b | Err x => Err x end)).
Proof.
  intros. law (acts_then (acts_map f) (acts_choose g)) (acts_choose (fun a => match f a with Ok b => g b | Err x => Err x end)).
  intros. apply map_choose.
Qed.
Print Assumptions C77_map_choose.

Theorem C77_map_filter : forall A B (f : A -> B) (p : B -> bool),
  interchangeable ((fun Z => map_ (fun a => Ok (f a))) >> (fun Z => filter_ (fun b => Ok (p b))))
    ((fun Z => filter_ (fun a => Ok (p (f a)))) >> (fun Z => map_ (fun a => Ok (f a)))).
Proof.
  intros. law (acts_then (acts_map (fun a => Ok (f a))) (acts_filter (fun b => Ok (p b)))) (acts_then (acts_filter (fun a => Ok (p (f a)))) (acts_map (fun a => Ok (f a)))).
  intros. cbn beta. rewrite F_map_total, !F_filter_total, F_map_total. cbn. now rewrite filter_map.
Qed.
Print Assumptions C77_map_filter.

(** ** take, skip, take_last, skip_last *)
Theorem C77_take_take : forall A m n, (0 < m)%Z -> (0 < n)%Z ->
  interchangeable (@taking A m >> taking n) (taking (Z.min m n)).
Proof.
  intros. law (acts_then (@acts_take A _ (Z.lt_le_incl _ _ H)) (@acts_take A _ (Z.lt_le_incl _ _ H0))) (@acts_take A (Z.min m n) ltac:(lia)).
  intros. now apply take_take.
Qed.
Print Assumptions C77_take_take.

(** take(0) does not complete of its own accord, but take(1) before it does. *)
Theorem C77_take_zero_refuted : ~ interchangeable (@taking nat 1 >> taking 0) (taking (Z.min 1 0)).
Proof.
  refine (@told_apart _ _ _ _ _ _ [7] Open (acts_then (@acts_take nat 1 ltac:(lia)) (@acts_take nat 0 ltac:(lia))) (@acts_take nat 0 ltac:(lia)) _).
  discriminate.
Qed.
Print Assumptions C77_take_zero_refuted.

Theorem C77_skip_skip : forall A m n,
  interchangeable ((fun Z => @skip_ Z A m) >> (fun Z => skip_ n)) (fun Z => skip_ (Z.max 0 m + Z.max 0 n)).
Proof. intros. law (acts_then (@acts_skip A m) (@acts_skip A n)) (@acts_skip A (Z.max 0 m + Z.max 0 n)). intros. cbn. now rewrite skip_skip. Qed.
Print Assumptions C77_skip_skip.

Theorem C77_skip_none : forall A n, (n <= 0)%Z -> interchangeable (fun Z => @skip_ Z A n) nothing.
Proof. intros. law (@acts_skip A n) (@acts_nothing A). intros. now replace (Z.to_nat n) with 0 by lia. Qed.
Print Assumptions C77_skip_none.

Theorem C77_skip_take : forall A m n, (0 <= m)%Z -> (0 < n)%Z ->
  interchangeable ((fun Z => @skip_ Z A m) >> taking n) (taking (m + n) >> (fun Z => skip_ m)).
Proof.
  intros. law (acts_then (@acts_skip A m) (@acts_take A _ (Z.lt_le_incl _ _ H0))) (acts_then (@acts_take A (m + n) ltac:(lia)) (@acts_skip A m)).
  intros. now apply skip_take.
Qed.
Print Assumptions C77_skip_take.

Theorem C77_take_last_take_last : forall A m n,
  interchangeable ((fun Z => @take_last_ Z A m) >> (fun Z => take_last_ n)) (fun Z => take_last_ (Z.min m n)).
Proof.
  intros. law (acts_then (@acts_take_last A m) (@acts_take_last A n)) (@acts_take_last A (Z.min m n)).
  intros. unfold F_last. destruct e; cbn [fst snd]; try reflexivity. now rewrite last_last.
Qed.
Print Assumptions C77_take_last_take_last.

(** for elements other than None, which skip_last drops *)
Theorem C77_skip_last_skip_last : forall A m n,
  interchangeable ((fun Z => @skip_last_ Z A (fun _ => false) m) >> (fun Z => skip_last_ (fun _ => false) n))
    (fun Z => skip_last_ (fun _ => false) (Z.max 0 m + Z.max 0 n)).
Proof.
  intros. law (acts_then (@acts_skip_last A (fun _ => false) m) (@acts_skip_last A (fun _ => false) n)) (@acts_skip_last A (fun _ => false) (Z.max 0 m + Z.max 0 n)).
  intros. cbn [fst snd]. rewrite !not_none_all, butlast_butlast. f_equal. f_equal. lia.
Qed.
Print Assumptions C77_skip_last_skip_last.

Theorem C77_skip_skip_last : forall A m n,
  interchangeable ((fun Z => @skip_ Z A m) >> (fun Z => skip_last_ (fun _ => false) n))
    ((fun Z => skip_last_ (fun _ => false) n) >> (fun Z => skip_ m)).
Proof.
  intros. law (acts_then (@acts_skip A m) (@acts_skip_last A (fun _ => false) n)) (acts_then (@acts_skip_last A (fun _ => false) n) (@acts_skip A m)).
  intros. cbn [fst snd]. now rewrite !not_none_all, butlast_skip.
Qed.
Print Assumptions C77_skip_skip_last.

(** ** map with the counting operators *)
(** With take the mapper may raise (if the count is positive), *)
Theorem C77_map_take : forall A B (f : A -> res B) n, (0 < n)%Z ->
  interchangeable ((fun Z => map_ f) >> taking n) (taking n >> (fun Z => map_ f)).
Proof.
  intros. law (acts_then (acts_map f) (@acts_take B _ (Z.lt_le_incl _ _ H))) (acts_then (@acts_take A _ (Z.lt_le_incl _ _ H)) (acts_map f)).
  intros. now apply map_take.
Qed.
Print Assumptions C77_map_take.

(** with the others it must not, as it is not applied to elements that were dropped. *)
Theorem C77_map_counting : forall A B (f : A -> B) n,
  interchangeable ((fun Z => map_ (fun a => Ok (f a))) >> (fun Z => skip_ n)) ((fun Z => skip_ n) >> (fun Z => map_ (fun a => Ok (f a)))) /\
  interchangeable ((fun Z => map_ (fun a => Ok (f a))) >> (fun Z => take_last_ n)) ((fun Z => take_last_ n) >> (fun Z => map_ (fun a => Ok (f a)))) /\
  interchangeable ((fun Z => map_ (fun a => Ok (f a))) >> (fun Z => skip_last_ (fun _ => false) n))
    ((fun Z => skip_last_ (fun _ => false) n) >> (fun Z => map_ (fun a => Ok (f a)))) /\
  ((0 <= n)%Z -> interchangeable ((fun Z => map_ (fun a => Ok (f a))) >> taking n) (taking n >> (fun Z => map_ (fun a => Ok (f a))))).
Proof.
  intros. split; [|split; [|split]].
  - law (acts_then (acts_map (fun a => Ok (f a))) (@acts_skip B n)) (acts_then (@acts_skip A n) (acts_map (fun a => Ok (f a)))).
    intros. cbn beta. rewrite !F_map_total. cbn. now rewrite map_skip.
  - law (acts_then (acts_map (fun a => Ok (f a))) (@acts_take_last B n)) (acts_then (@acts_take_last A n) (acts_map (fun a => Ok (f a)))).
    intros. cbn beta. rewrite !F_map_total. unfold F_last. destruct e; cbn [fst snd]; rewrite ?F_map_total; try reflexivity. now rewrite map_lastn.
  - law (acts_then (acts_map (fun a => Ok (f a))) (@acts_skip_last B (fun _ => false) n)) (acts_then (@acts_skip_last A (fun _ => false) n) (acts_map (fun a => Ok (f a)))).
    intros. cbn beta. rewrite !F_map_total. cbn [fst snd]. now rewrite !not_none_all, map_butlastn.
  - intros H. law (acts_then (acts_map (fun a => Ok (f a))) (@acts_take B _ H)) (acts_then (@acts_take A _ H) (acts_map (fun a => Ok (f a)))).
    intros. cbn beta. rewrite !F_map_total. cbn [fst snd]. apply take_map_total.
Qed.
Print Assumptions C77_map_counting.

(** skip(1) before a mapper that raises for the first element keeps the stream
    alive; after it, it does not. *)
Theorem C77_map_skip_refuted : exists f : nat -> res nat,
  ~ interchangeable ((fun Z => map_ f) >> (fun Z => skip_ 1)) ((fun Z => skip_ 1) >> (fun Z => map_ f)).
Proof.
  set (f := fun a : nat => if a =? 0 then Err ValueError else Ok a). exists f.
  refine (@told_apart _ _ _ _ _ _ [0; 5] Completed (acts_then (acts_map f) (@acts_skip nat 1)) (acts_then (@acts_skip nat 1) (acts_map f)) _).
  discriminate.
Qed.
Print Assumptions C77_map_skip_refuted.

(** ** scan, reduce, distinct_until_changed *)
Theorem C77_map_scan : forall A B C (g : A -> B) (f : C -> B -> C) c,
  interchangeable ((fun Z => map_ (fun a => Ok (g a))) >> (fun Z => scan_ (fun s b => Ok (f s b)) c))
    (fun Z => scan_ (fun s a => Ok (f s (g a))) c).
Proof.
  intros. law (acts_then (acts_map (fun a => Ok (g a))) (acts_scan f c)) (acts_scan (fun s a => f s (g a)) c).
  intros. cbn beta. rewrite F_map_total. cbn. now rewrite scanl_map.
Qed.
Print Assumptions C77_map_scan.

Theorem C77_scan_take : forall A B (f : B -> A -> B) b n, (0 <= n)%Z ->
  interchangeable ((fun Z => scan_ (fun s a => Ok (f s a)) b) >> taking n)
    (taking n >> (fun Z => scan_ (fun s a => Ok (f s a)) b)).
Proof.
  intros. law (acts_then (acts_scan f b) (@acts_take B _ H)) (acts_then (@acts_take A _ H) (acts_scan f b)).
  intros. apply take_scan.
Qed.
Print Assumptions C77_scan_take.

Theorem C77_map_reduce : forall A B C (g : A -> B) (f : C -> B -> res C) c,
  interchangeable ((fun Z => map_ (fun a => Ok (g a))) >> (fun Z => reduce_ f c))
    (fun Z => reduce_ (fun s a => f s (g a)) c).
Proof.
  intros. law (acts_then (acts_map (fun a => Ok (g a))) (acts_reduce f c)) (acts_reduce (fun s a => f s (g a)) c).
  intros. cbn beta. rewrite F_map_total. cbn [fst snd]. unfold F_reduce. rewrite fold_res_map.
  destruct (fold_res _ c vs); [|reflexivity]. destruct e; try reflexivity. now destruct vs.
Qed.
Print Assumptions C77_map_reduce.

Theorem C77_distinct_distinct : forall A (eqb : A -> A -> bool),
  (forall x, eqb x x = true) -> (forall x y, eqb x y = true -> eqb y x = true) ->
  (forall x y z, eqb x y = true -> eqb y z = true -> eqb x z = true) ->
  interchangeable ((fun Z => distinct_until_changed_ eqb) >> (fun Z => distinct_until_changed_ eqb))
    (fun Z => distinct_until_changed_ eqb).
Proof.
  intros A eqb R S T. law (acts_then (acts_distinct eqb) (acts_distinct eqb)) (acts_distinct eqb).
  intros. cbn [fst snd]. now rewrite (@changes_twice _ eqb R S T vs None None I).
Qed.
Print Assumptions C77_distinct_distinct.

(** An == that is not transitive (here: differ by at most 1) shows the difference. *)
Theorem C77_distinct_distinct_refuted : exists eqb : nat -> nat -> bool,
  (forall x, eqb x x = true) /\ (forall x y, eqb x y = true -> eqb y x = true) /\
  ~ interchangeable ((fun Z => distinct_until_changed_ eqb) >> (fun Z => distinct_until_changed_ eqb))
      (fun Z => distinct_until_changed_ eqb).
Proof.
  set (q := fun x y : nat => (x <=? S y) && (y <=? S x)). exists q. unfold q. split; [|split].
  - intros x. apply andb_true_intro. split; apply Nat.leb_le; lia.
  - intros x y H. now rewrite andb_comm.
  - refine (@told_apart _ _ _ _ _ _ [0; 1; 2; 0] Completed (acts_then (acts_distinct q) (acts_distinct q)) (acts_distinct q) _).
    vm_compute. discriminate.
Qed.
Print Assumptions C77_distinct_distinct_refuted.

(** ** A case: pipe(xs, map(f), take(5), skip(2), skip(1)) is
    pipe(xs, map(f), take(5), skip(3)). *)
Example C77_case : forall f : nat -> res nat,
  interchangeable ((fun Z => map_ f) >> taking 5 >> ((fun Z => skip_ 2) >> (fun Z => skip_ 1)) >> nothing)
    ((fun Z => map_ f) >> taking 5 >> (fun Z => skip_ 3) >> nothing) /\
  delivers (psys well_behaved (safe (((fun Z => map_ (fun a => Ok (a * a))) >> taking 5 >> (fun Z => skip_ 3)) PEnd)))
    (source_calls [1; 2; 3; 4; 5; 6] Open []) [OnNext 16; OnNext 25; OnCompleted].
Proof.
  intros f. split.
  - apply C77_replace; [|apply C77_skip_skip].
    destruct C77_streamwise as (_ & M & _ & _ & _ & _ & T & _ & _ & _ & _ & _ & _ & _ & K).
    apply K; [apply M|apply T; lia].
  - pose proof (acts_then (acts_then (acts_map (fun a => Ok (a * a))) (@acts_take nat 5 ltac:(lia))) (@acts_skip nat 3)) as H.
    apply (delivers_iff (sane_psys _ _)). apply (H _ well_behaved). apply subscriber. reflexivity.
Qed.
