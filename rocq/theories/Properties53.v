(** * Property C95: laws of operators, slices and coroutine functions in programs. *)
From Verif Require Import Properties35 VariantsProofs Programs2Proofs ProgramsProofs.
Set Implicit Arguments.

(** Chains of operators that may be exchanged in a pipeline (C77) may be exchanged anywhere in a program, *)
Theorem C95_exchange : forall A C (ch ch' : chain A C) (c : cold A), sheltered (over ch c) -> sheltered (over ch' c) -> bounded c ->
  interchangeable (fun Z => hung ch (Z := Z)) (fun Z => hung ch' (Z := Z)) -> alike (over ch c) (over ch' c).
Proof. intros A C ch ch' c _ _ Hb H. now apply exchange. Qed.
Print Assumptions C95_exchange.

(** and two chains may be exchanged in every pipeline if no source tells them apart. *)
Theorem C95_exchange_only : forall A C (ch ch' : chain A C),
  (forall vs e, alike (over ch (only vs e)) (over ch' (only vs e))) <-> interchangeable (fun Z => hung ch (Z := Z)) (fun Z => hung ch' (Z := Z)).
Proof. intros A C ch ch'. split; [apply exchange_only|]. intros H vs e. now apply exchange. Qed.
Print Assumptions C95_exchange_only.

(** ** Operators with coroutine functions *)
Theorem C95_async : forall A B (c : cold A),
  (forall f : A -> res B, guarded c -> alike (Stage (SMapAsync f) c) (Stage (SMap f) c)) /\
  (forall f : A -> nat -> res B, alike (Stage (SMapiAsync f) c) (Stage (SMapi f) c)) /\
  (forall p : A -> res bool, guarded c -> alike (Stage (SFilterAsync p) c) (Stage (SFilter p) c)) /\
  (forall f : A -> res (option B), guarded c -> alike (Stage (SChooseAsync f) c) (Stage (SChoose f) c)).
Proof. intros A B c. split; [|split; [|split]]; intros; now apply exchange_stage. Qed.
Print Assumptions C95_async.

Theorem C95_starred : forall A B C (c : cold (A * B)),
  (forall f : A -> B -> res C, guarded c -> alike (Stage (SStarmapAsync f) c) (Stage (SStarmap f) c)) /\
  (forall (f : A -> B -> C) l, bounded c -> (makes (Stage (SStarmap (fun a b => Ok (f a b))) c) l <->
     exists vs e, outcome c vs e /\ l = trace (map (fun ab => f (fst ab) (snd ab)) vs) e)) /\
  (forall (p : A -> B -> bool) l, bounded c -> (makes (Stage (SStarfilter (fun a b => Ok (p a b))) c) l <->
     exists vs e, outcome c vs e /\ l = trace (filter (fun ab => p (fst ab) (snd ab)) vs) e)).
Proof.
  intros A B C c. split; [intros; now apply exchange_stage|]. split.
  - intros f l Hb. exact (starmap_makes f c l Hb).
  - intros p l Hb. exact (starfilter_makes p c l Hb).
Qed.
Print Assumptions C95_starred.

(** flat_map_async and flat_mapi_async do what flat_map and flat_mapi do (C81). *)
Theorem C95_flat_map_async : forall X A (f : X -> cold A) c, alike (flat_map_async_ f c) (flat_map_ f c).
Proof. intros X A f c. apply alike_inner; [now apply exchange_stage|]. intros x l. reflexivity. Qed.
Print Assumptions C95_flat_map_async.

Theorem C95_flat_mapi_async : forall X A (f : X -> nat -> cold A) c, alike (flat_mapi_async_ f c) (flat_mapi_ f c).
Proof. intros X A f c. apply alike_inner; [now apply exchange_stage|]. intros x l. reflexivity. Qed.
Print Assumptions C95_flat_mapi_async.

(** ** slice *)
(** slice is a chain of operators, or raises what the chain's makers raise. *)
Theorem C95_slice_chain : forall Z0 A (isn : A -> bool) start stop step,
  match slice_chain isn start stop step with
  | Ok ch => exists opr, slice_ (Z0 := Z0) isn start stop step = Ok opr /\ forall r, opr r = hung ch r
  | Err x => slice_ (Z0 := Z0) isn start stop step = Err x
  end.
Proof. exact slice_chain_is. Qed.
Print Assumptions C95_slice_chain.

(** A slice of a program sees exactly Python's slices of the program's outcomes (under the conditions of C20). *)
Theorem C95_slice : forall A (isn : A -> bool) start stop step ch (c : cold A), slice_chain isn start stop step = Ok ch ->
  (1 <= step)%Z -> stop <> Some 0%Z -> (match start, stop with Some i, Some j => ~ (i < 0 < j)%Z | _, _ => True end) ->
  (forall v, isn v = false) -> sheltered c -> bounded c -> forall l,
  makes (over ch c) l <-> exists vs e, outcome c vs e /\ l = trace (slice_shown start stop step vs e) (slice_ending start stop (length vs) e).
Proof. intros A isn start stop step ch c Hc H1 H2 H3 H4 _. now apply (slice_outcome isn). Qed.
Print Assumptions C95_slice.

(** c[k] is the k-th element, if the program always completes. *)
Theorem C95_item : forall A (isn : A -> bool) k ch (c : cold A), item_chain isn k = Ok ch -> (forall v, isn v = false) -> sheltered c -> bounded c ->
  (forall vs e, outcome c vs e -> e = Completed) -> forall l,
  makes (over ch c) l <-> exists vs, outcome c vs Completed /\ l = trace (at_index k vs) Completed.
Proof. intros A isn k ch c H1 H2 _. exact (item_makes isn k c H1 H2). Qed.
Print Assumptions C95_item.

(** c[m:][n:] is c[m+n:]. *)
Theorem C95_slice_twice : forall A (isn : A -> bool) m n ch ch' ch'' (c : cold A), (0 <= m)%Z -> (0 <= n)%Z ->
  slice_chain isn (Some m) None 1 = Ok ch -> slice_chain isn (Some n) None 1 = Ok ch' -> slice_chain isn (Some (m + n)%Z) None 1 = Ok ch'' ->
  sheltered c -> alike (over ch' (over ch c)) (over ch'' c).
Proof.
  intros A isn m n ch ch' ch'' c Hm Hn E1 E2 E3 _. rewrite chain_from in E1, E2, E3 by lia. injection E1 as <-. injection E2 as <-. injection E3 as <-.
  now apply skip_twice.
Qed.
Print Assumptions C95_slice_twice.

(** c[:n] and then c[n:] is c, if all runs of c are the same and n > 0, *)
Theorem C95_split : forall A (isn : A -> bool) n ch ch' (c : cold A), (0 < n)%Z -> sheltered c -> one_at_a_time c ->
  slice_chain isn None (Some n) 1 = Ok ch -> slice_chain isn (Some n) None 1 = Ok ch' ->
  alike (concat_seq_ [over ch c; over ch' c]) c.
Proof.
  intros A isn n ch ch' c Hn _ Hc E1 E2. rewrite chain_upto in E1 by lia. rewrite chain_from in E2 by lia. injection E1 as <-. injection E2 as <-. cbn [over].
  apply alike_means; [apply seq_concat_seq; repeat constructor; exact Hc|exact Hc|]. intros vs e.
  apply split_means; [exact Hc|lia|reflexivity].
Qed.
Print Assumptions C95_split.

(** but not for n = 0: c[:0] is c, not empty. *)
Theorem C95_split_zero_refuted : exists ch ch' (c : cold nat), sheltered c /\ one_at_a_time c /\
  slice_chain (fun _ => false) None (Some 0%Z) 1 = Ok ch /\ slice_chain (fun _ => false) (Some 0%Z) None 1 = Ok ch' /\
  ~ alike (concat_seq_ [over ch c; over ch' c]) c.
Proof.
  do 2 eexists. exists (From (of_seq [1])). split; [exact I|]. split; [exact I|]. split; [reflexivity|]. split; [reflexivity|].
  intros H. assert (M : makes (From (of_seq [1])) (trace [1; 1] Completed)).
  { apply H, complete; [apply seq_concat_seq; repeat constructor|]. apply means_concat_seq. change [1; 1] with ([1] ++ [1] ++ []).
    eapply turn_next; [exists [1], Completed; split; reflexivity|]. eapply turn_next; [exists [1], Completed; split; reflexivity|constructor]. }
  apply makes_from_iff in M. discriminate M.
Qed.
Print Assumptions C95_split_zero_refuted.

(** ** Example: merge(of_seq [1, 2], of_seq [3])[1:] *)
Example C95_case : exists ch, slice_chain (fun _ => false) (Some 1%Z) None 1 = Ok ch /\
  let c := merge_ (From (of_seq [1; 2])) (From (of_seq [3])) in
  sheltered c /\ bounded c /\ makes (over ch c) (trace [3; 2] Completed) /\ ~ makes (over ch c) (trace [2; 1] Completed).
Proof.
  eexists. split; [reflexivity|]. cbn zeta. set (c := merge_ (From (of_seq [1; 2])) (From (of_seq [3]))).
  assert (O : forall vs e, outcome c vs e <-> shuffle [1; 2] [3] vs /\ e = Completed).
  { intros vs e. unfold outcome, c. rewrite (merge_is (lively_source (of_seq [1; 2])) (lively_source (of_seq [3]))). split.
    - intros (us & d & (xs & da & ys & db & M1 & M2 & S) & E). apply makes_from_iff in M1, M2. apply trace_inj in M1 as [-> ->], M2 as [-> ->], E as [-> ->]. cbn in S. destruct d as [|x|].
      + destruct S as [[[F _]|[[F _]|[_ F]]] _]; discriminate F.
      + destruct S as [[F _]|[F _]]; discriminate F.
      + split; [apply S|reflexivity].
    - intros [S ->]. exists vs, Completed. split; [|reflexivity]. exists [1; 2], Completed, [3], Completed. split; [now apply makes_from_iff|]. split; [now apply makes_from_iff|]. auto. }
  assert (Hs : sheltered c) by (split; [exact I|intros [|[|[|i]]]; exact I]).
  assert (Hb : bounded c) by (split; [lia|split; [exact I|intros [|[|[|i]]]; exact I]]).
  split; [exact Hs|]. split; [exact Hb|].
  pose proof (@C95_slice nat (fun _ => false) (Some 1%Z) None 1 _ c eq_refl) as K.
  split.
  - apply K; try (discriminate || lia || reflexivity || assumption || exact I). exists [1; 3; 2], Completed. split; [|reflexivity]. apply O. split; [repeat constructor|reflexivity].
  - rewrite K; try (discriminate || lia || reflexivity || assumption || exact I). intros (vs & e & M & E). apply O in M as [S ->].
    inversion S; subst; clear S; repeat match goal with H : shuffle _ _ _ |- _ => inversion H; subst; clear H end; discriminate E.
Qed.

(** ** Example: a law of C77 in a program. *)
Example C95_map_map : forall A B C (f : A -> res B) (g : B -> res C) c, guarded c -> sheltered c -> bounded c ->
  alike (Stage (SMap g) (Stage (SMap f) c)) (Stage (SMap (fun a => match f a with Ok b => g b | Err x => Err x end)) c).
Proof.
  intros A B C f g c Hg Hs Hb. apply (@C95_exchange _ _ (CCons (SMap f) (CCons (SMap g) CNil)) (CCons (SMap (fun a => match f a with Ok b => g b | Err x => Err x end)) CNil) c); cbn; auto.
  exact (C77_map_map f g).
Qed.
