(** * Proofs about several __anext__ calls at once. *)
From Verif Require Export Overlap.
Set Implicit Arguments.

(** ** Lists *)
Lemma nth_oput X (l : list X) k x i : k < length l -> nth_error (oput l k x) i = if i =? k then Some x else nth_error l i.
Proof.
  unfold oput. revert k i. induction l as [|y l IH]; intros k i H; [cbn in H; lia|]. destruct k as [|k], i as [|i]; cbn in *; auto.
  apply (IH k i). lia.
Qed.
Lemma oput_length X (l : list X) k x : k < length l -> length (oput l k x) = length l.
Proof. intros H. unfold oput. rewrite app_length. cbn [length]. rewrite firstn_length, skipn_length. lia. Qed.
Lemma nodup_snoc X (l : list X) x : NoDup l -> ~ In x l -> NoDup (l ++ [x]).
Proof.
  intros H N. induction H as [|y l Hy H IH]; cbn; [repeat constructor; auto|]. constructor.
  - rewrite in_app_iff. cbn. intros [F|[F|[]]]; [contradiction|]. subst. apply N. now left.
  - apply IH. intros F. apply N. now right.
Qed.

Ltac pj := cbn [o_pull o_calls o_busy o_futs o_push o_puller o_next o_wait o_sub o_disp o_yield o_ready o_set_ready o_soon app] in *.

Section OverlapProofs.
  Context {A : Type}.
  Implicit Types s : ostate A.

  Definition isdone (f : fut A) : Prop := exists v, f = FResult v \/ exists e, f = FExn e.
  Definition ids (r : list ohandle) : list nat := flat_map (fun h => match h with OWake k => [k] | _ => [] end) r.
  Lemma in_ids r k : In k (ids r) <-> In (OWake k) r.
  Proof.
    unfold ids. rewrite in_flat_map. split.
    - intros (h & H & F). destruct h; cbn in F; try contradiction. destruct F as [->|[]]. exact H.
    - intros H. exists (OWake k). split; [exact H|now left].
  Qed.
  Lemma ids_app r1 r2 : ids (r1 ++ r2) = ids r1 ++ ids r2.
  Proof. apply flat_map_app. Qed.
  Definition fresh (r : list ohandle) : Prop := ~ In OPull r.

  (** Phases: nothing is going on; an element is offered; it has been taken and
      the producer is about to run; a terminal notification was sent. *)
  Inductive phase s : Prop :=
  | PIdle : o_busy s = false -> o_puller s = false -> o_pull s = false -> nth_error (o_futs s) (o_push s) = Some FPending ->
      fresh (o_ready s) -> ids (o_ready s) = [] -> got_elements s = sent_elements s -> phase s
  | POffered v : o_busy s = true -> o_puller s = true -> o_pull s = false -> nth_error (o_futs s) (o_push s) = Some (FResult v) ->
      fresh (o_ready s) -> (forall k, In (OWake k) (o_ready s) -> nth_error (o_next s) k = Some (NWaiting (o_push s))) ->
      got_elements s ++ [v] = sent_elements s -> phase s
  | PTaken a b : o_busy s = true -> o_puller s = true -> o_pull s = true -> nth_error (o_futs s) (o_push s) = Some FPending ->
      o_ready s = a ++ OPull :: b -> fresh a -> fresh b -> ids b = [] ->
      (forall k, In (OWake k) a -> exists f v, nth_error (o_next s) k = Some (NWaiting f) /\ nth_error (o_futs s) f = Some (FResult v)) ->
      got_elements s = sent_elements s -> phase s
  | PEnded n : o_busy s = true -> o_puller s = true -> o_pull s = false -> nth_error (o_futs s) (o_push s) = Some (fut_of_notif n) ->
      In n (o_calls s) -> is_term n = true ->
      fresh (o_ready s) -> (forall k, In (OWake k) (o_ready s) -> nth_error (o_next s) k = Some (NWaiting (o_push s))) ->
      got_elements s = sent_elements s -> phase s.

  Definition result_ok s (o : outcome A) : Prop :=
    (exists v, o = Returned v /\ In (OnNext v) (o_calls s)) \/ o = Raised InvalidState \/
    (exists e, o = Raised e /\ In (OnError e) (o_calls s)) \/ (o = Raised StopAsyncIter /\ In OnCompleted (o_calls s)).

  Record oinv s : Prop := Oinv {
    oi_wait : forall f k, In (f, k) (o_wait s) -> nth_error (o_next s) k = Some (NWaiting f);
    oi_wnodup : NoDup (map snd (o_wait s));
    oi_fut : forall f k, nth_error (o_next s) k = Some (NWaiting f) -> f < length (o_futs s);
    oi_val : forall f v, nth_error (o_futs s) f = Some (FResult v) -> In (OnNext v) (o_calls s);
    oi_ready : NoDup (ids (o_ready s));
    oi_yield : forall k o, In (k, o) (o_yield s) -> nth_error (o_next s) k = Some (NEnded o) /\ result_ok s o;
    oi_ynodup : NoDup (map fst (o_yield s));
    oi_phase : phase s
  }.

  Lemma oinv_init : oinv o_init.
  Proof.
    constructor; cbn.
    - intros f k [].
    - constructor.
    - intros f [|k]; discriminate.
    - intros [|[|f]] v; discriminate.
    - constructor.
    - intros k o [].
    - constructor.
    - apply PIdle; auto. intros [].
  Qed.

  Lemma nth_lt X (l : list X) k x : nth_error l k = Some x -> k < length l.
  Proof. intros H. apply nth_error_Some. congruence. Qed.

  Lemma oinv_arrive s r : oinv s -> (forall h, In h r -> h = OForeign) -> oinv (o_soon s r).
  Proof.
    intros [I1 I2 I3 I4 I5 I6 I7 I8] Hr. assert (Ir : ids r = []).
    { clear -Hr. induction r as [|h r IH]; [reflexivity|]. rewrite (Hr h) by now left. apply IH. intros; apply Hr; now right. }
    assert (Fr : forall l, fresh l -> fresh (l ++ r)) by (intros l F G; apply in_app_iff in G as [G|G]; [exact (F G)|now apply Hr in G]).
    assert (Wr : forall k l, In (OWake k) (l ++ r) -> In (OWake k) l) by (intros k l G; apply in_app_iff in G as [G|G]; [exact G|now apply Hr in G]).
    constructor; cbn [o_soon o_wait o_next o_futs o_calls o_ready o_yield]; auto.
    - rewrite ids_app, Ir, app_nil_r. exact I5.
    - destruct I8.
      + apply PIdle; cbn; auto. now rewrite ids_app, Ir, app_nil_r.
      + eapply POffered; cbn; eauto.
      + apply PTaken with a (b ++ r); cbn; auto; [now rewrite H3, <- app_assoc|]. now rewrite ids_app, Ir, app_nil_r.
      + apply PEnded with n; cbn; auto.
  Qed.

  (** The head of the queue is taken off. *)
  Definition headless s h : Prop := oinv (o_set_ready s (h :: o_ready s)).

  Lemma take_inv s h k f v : oinv (o_set_ready s (h ++ o_ready s)) -> (h = [] /\ f = o_push s /\ nth_error (o_next s) k = Some NSubscribing \/ h = [OWake k] /\ nth_error (o_next s) k = Some (NWaiting f)) ->
    nth_error (o_futs s) f = Some (FResult v) -> oinv (o_take s k v).
  Proof.
    intros [I1 I2 I3 I4 I5 I6 I7 I8] Hk Hf. cbn [o_set_ready o_wait o_next o_futs o_calls o_ready o_yield] in *.
    assert (Lk : k < length (o_next s)) by (destruct Hk as [(_ & _ & Hk)|[_ Hk]]; exact (nth_lt _ _ Hk)).
    assert (Kr : ~ In (OWake k) (o_ready s)).
    { intros F. destruct Hk as [(-> & -> & Hk)|[-> Hk]].
      - destruct I8; pj.
        + apply in_ids in F. rewrite H4 in F. exact F.
        + rewrite (H4 _ F) in Hk. discriminate.
        + rewrite H2 in Hf. discriminate.
        + rewrite (H6 _ F) in Hk. discriminate.
      - cbn in I5. inversion I5 as [|? ? N _]. apply N, in_ids, F. }
    assert (Yk : ~ In k (map fst (o_yield s))).
    { intros F. apply in_map_iff in F as ([k' o] & E & F). cbn in E. subst k'. destruct (I6 _ _ F) as [F' _]. destruct Hk as [(_ & _ & Hk)|[_ Hk]]; congruence. }
    assert (I5' : NoDup (ids (o_ready s))) by (destruct Hk as [(-> & _)|[-> _]]; cbn in I5; [exact I5|now inversion I5]).
    assert (Ph : (o_pull s = false /\ o_puller s = true /\ f = o_push s /\ nth_error (o_futs s) (o_push s) = Some (FResult v) /\ o_busy s = true /\ fresh (o_ready s) /\
        (forall j, In (OWake j) (o_ready s) -> nth_error (o_next s) j = Some (NWaiting (o_push s))) /\ got_elements s ++ [v] = sent_elements s) \/
      (o_pull s = true /\ exists a b, o_ready s = a ++ OPull :: b /\ fresh a /\ fresh b /\ ids b = [] /\ o_busy s = true /\ o_puller s = true /\ nth_error (o_futs s) (o_push s) = Some FPending /\
        (forall k, In (OWake k) a -> exists f v, nth_error (o_next s) k = Some (NWaiting f) /\ nth_error (o_futs s) f = Some (FResult v)) /\ got_elements s = sent_elements s)).
    { destruct I8; pj.
      - exfalso. destruct Hk as [(-> & -> & Hk)|[-> Hk]]; [pj; congruence|cbn in *; discriminate].
      - left. assert (f = o_push s) as -> by (destruct Hk as [(_ & E & _)|[-> Hk]]; [exact E|]; specialize (H4 k (or_introl eq_refl)); congruence).
        rewrite H2 in Hf. injection Hf as ->. repeat split; auto.
        + intros F. apply H3. apply in_app_iff. now right.
        + intros j F. apply H4. apply in_app_iff. now right.
      - right. split; [exact H1|]. destruct Hk as [(-> & -> & Hk)|[-> Hk]]; [congruence|]. destruct a as [|y a]; [discriminate|]. injection H3 as <- H3.
        exists a, b. repeat split; auto.
        + intros F. apply H4. now right.
        + intros j F. apply H7. now right.
      - exfalso. assert (f = o_push s) as -> by (destruct Hk as [(_ & E & _)|[-> Hk]]; [exact E|]; specialize (H6 k (or_introl eq_refl)); congruence).
        rewrite H2 in Hf. destruct n; discriminate. }
    assert (Lf : forall g j, nth_error (o_next s) j = Some (NWaiting g) -> g < length (o_futs s ++ [FPending])) by (intros g j F; rewrite app_length; specialize (I3 _ _ F); lia).
    assert (Nw : forall o g j, In (g, j) (filter (fun x => negb (snd x =? k)) (o_wait s)) -> nth_error (oput (o_next s) k (NEnded o)) j = Some (NWaiting g)).
    { intros o g j F. apply filter_In in F as [F G]. cbn in G. apply negb_true_iff in G. rewrite nth_oput, G by exact Lk. auto. }
    assert (Nf : forall o g j, nth_error (oput (o_next s) k (NEnded o)) j = Some (NWaiting g) -> g < length (o_futs s ++ [FPending])).
    { intros o g j F. rewrite nth_oput in F by exact Lk. destruct (j =? k); [discriminate|eauto]. }
    assert (Nv : forall g w, nth_error (o_futs s ++ [FPending]) g = Some (FResult w) -> In (OnNext w) (o_calls s)).
    { intros g w F. destruct (Nat.lt_ge_cases g (length (o_futs s))) as [L|L]; [rewrite nth_error_app1 in F by exact L; eauto|].
      rewrite nth_error_app2 in F by exact L. destruct (g - length (o_futs s)) as [|[|]]; discriminate. }
    assert (Ny : forall o j p, result_ok s o -> In (j, p) (o_yield s ++ [(k, o)]) -> nth_error (oput (o_next s) k (NEnded o)) j = Some (NEnded p) /\ result_ok s p).
    { intros o j p R F. rewrite nth_oput by exact Lk. apply in_app_iff in F as [F|[F|[]]].
      - destruct (Nat.eqb_spec j k) as [->|_]; [exfalso; apply Yk; apply in_map_iff; exists (k, p); auto|]. exact (I6 _ _ F).
      - injection F as <- <-. rewrite Nat.eqb_refl. auto. }
    assert (Nn : forall o : outcome A, NoDup (map fst (o_yield s ++ [(k, o)]))) by (intros o; rewrite map_app; now apply nodup_snoc).
    assert (Nd : NoDup (map snd (filter (fun x => negb (snd x =? k)) (o_wait s)))).
    { clear -I2. induction (o_wait s) as [|x l IH]; [constructor|]. cbn in *. inversion I2 as [|? ? N1 N2]; subst. destruct (negb (snd x =? k)); cbn; [|auto].
      constructor; [|auto]. intros F. apply N1. apply in_map_iff in F as (y & <- & F). apply filter_In in F as [F _]. now apply in_map. }
    assert (Np : nth_error (o_futs s ++ [FPending]) (length (o_futs s)) = Some FPending) by (rewrite nth_error_app2, Nat.sub_diag by lia; reflexivity).
    assert (Vo : In (OnNext v) (o_calls s)) by eauto.
    assert (Nk : forall o j, In (OWake j) (o_ready s) -> nth_error (oput (o_next s) k (NEnded o)) j = nth_error (o_next s) j).
    { intros o j F. rewrite nth_oput by exact Lk. destruct (Nat.eqb_spec j k) as [->|_]; [contradiction|reflexivity]. }
    unfold o_take. cbn [o_pull o_calls o_busy o_futs o_push o_puller o_next o_wait o_sub o_disp o_yield o_ready].
    destruct Ph as [(P1 & P2 & P3 & P4 & P5 & P6 & P7 & P8)|(P1 & a & b & P2 & P3 & P4 & P5 & P6 & P7 & P8 & P9 & P10)]; rewrite P1.
    - rewrite P2. constructor; unfold o_end; cbn [o_pull o_calls o_busy o_futs o_push o_puller o_next o_wait o_sub o_disp o_yield o_ready]; eauto.
      + rewrite ids_app. cbn. now rewrite app_nil_r.
      + intros j p. apply Ny. left. eauto.
      + apply PTaken with (o_ready s) []; cbn [o_pull o_calls o_busy o_futs o_push o_puller o_next o_wait o_sub o_disp o_yield o_ready]; auto.
        * intros [].
        * intros j F. exists (o_push s), v. rewrite Nk by exact F. split; [auto|]. rewrite nth_error_app1 by exact (nth_lt _ _ P4). exact P4.
        * unfold got_elements, sent_elements in *. cbn. rewrite flat_map_app. exact P8.
    - constructor; unfold o_end; cbn [o_pull o_calls o_busy o_futs o_push o_puller o_next o_wait o_sub o_disp o_yield o_ready]; eauto.
      + intros j p. apply Ny. right. now left.
      + apply PTaken with a b; cbn [o_pull o_calls o_busy o_futs o_push o_puller o_next o_wait o_sub o_disp o_yield o_ready]; auto.
        * intros j F. destruct (P9 _ F) as (g & w & G1 & G2). exists g, w. rewrite Nk by (rewrite P2; apply in_app_iff; auto). split; [exact G1|].
          rewrite nth_error_app1 by exact (nth_lt _ _ G2). exact G2.
        * unfold got_elements, sent_elements in *. cbn. rewrite flat_map_app. cbn. rewrite app_nil_r. exact P10.
  Qed.

  Lemma raise_inv s h k f e : oinv (o_set_ready s (h ++ o_ready s)) -> (h = [] /\ f = o_push s /\ nth_error (o_next s) k = Some NSubscribing \/ h = [OWake k] /\ nth_error (o_next s) k = Some (NWaiting f)) ->
    nth_error (o_futs s) f = Some (FExn e) -> oinv (o_end s k (Raised e)).
  Proof.
    intros [I1 I2 I3 I4 I5 I6 I7 I8] Hk Hf. cbn [o_set_ready o_wait o_next o_futs o_calls o_ready o_yield] in *.
    assert (Lk : k < length (o_next s)) by (destruct Hk as [(_ & _ & Hk)|[_ Hk]]; exact (nth_lt _ _ Hk)).
    assert (Yk : ~ In k (map fst (o_yield s))).
    { intros F. apply in_map_iff in F as ([k' o] & E & F). cbn in E. subst k'. destruct (I6 _ _ F) as [F' _]. destruct Hk as [(_ & _ & Hk)|[_ Hk]]; congruence. }
    assert (I5' : NoDup (ids (o_ready s))) by (destruct Hk as [(-> & _)|[-> _]]; cbn in I5; [exact I5|now inversion I5]).
    assert (Ph : exists n, o_pull s = false /\ o_puller s = true /\ f = o_push s /\ fut_of_notif n = FExn e /\ In n (o_calls s) /\ is_term n = true /\ o_busy s = true /\ fresh (o_ready s) /\
        (forall j, In (OWake j) (h ++ o_ready s) -> nth_error (o_next s) j = Some (NWaiting (o_push s))) /\ got_elements s = sent_elements s).
    { destruct I8; pj.
      - exfalso. destruct Hk as [(-> & -> & Hk)|[-> Hk]]; [pj; congruence|cbn in *; discriminate].
      - exfalso. assert (f = o_push s) as -> by (destruct Hk as [(_ & E & _)|[-> Hk]]; [exact E|]; specialize (H4 k (or_introl eq_refl)); congruence). congruence.
      - exfalso. destruct Hk as [(-> & -> & Hk)|[-> Hk]]; [congruence|]. destruct a as [|y a]; [discriminate|]. injection H3 as <- H3.
        destruct (H7 k (or_introl eq_refl)) as (g & w & G1 & G2). congruence.
      - exists n. assert (f = o_push s) as -> by (destruct Hk as [(_ & E & _)|[-> Hk]]; [exact E|]; specialize (H6 k (or_introl eq_refl)); congruence).
        repeat split; auto; [congruence|]. intros F. apply H5. apply in_app_iff. now right. }
    destruct Ph as (n & P1 & P2 & -> & P3 & P4 & P5 & P6 & P7 & P8 & P9).
    assert (Kr : ~ In (OWake k) (o_ready s)).
    { intros F. destruct Hk as [(-> & _ & Hk)|[-> Hk]].
      - rewrite (P8 _ F) in Hk. discriminate.
      - cbn in I5. inversion I5 as [|? ? N _]. apply N, in_ids, F. }
    constructor; unfold o_end; cbn [o_pull o_calls o_busy o_futs o_push o_puller o_next o_wait o_sub o_disp o_yield o_ready]; auto.
    - intros g j F. apply filter_In in F as [F G]. cbn in G. apply negb_true_iff in G. rewrite nth_oput, G by exact Lk. auto.
    - clear -I2. induction (o_wait s) as [|x l IH]; [constructor|]. cbn in *. inversion I2 as [|? ? N1 N2]; subst. destruct (negb (snd x =? k)); cbn; [|auto].
      constructor; [|auto]. intros F. apply N1. apply in_map_iff in F as (y & <- & F). apply filter_In in F as [F _]. now apply in_map.
    - intros g j F. rewrite nth_oput in F by exact Lk. destruct (j =? k); [discriminate|eauto].
    - intros j p F. rewrite nth_oput by exact Lk. apply in_app_iff in F as [F|[F|[]]].
      + destruct (Nat.eqb_spec j k) as [->|_]; [exfalso; apply Yk; apply in_map_iff; exists (k, p); auto|]. exact (I6 _ _ F).
      + injection F as <- <-. rewrite Nat.eqb_refl. split; [reflexivity|]. right. right. destruct n; cbn in *; try discriminate; injection P3 as <-; eauto.
    - rewrite map_app. now apply nodup_snoc.
    - apply PEnded with n; cbn [o_pull o_calls o_busy o_futs o_push o_puller o_next o_wait o_sub o_disp o_yield o_ready]; auto; [congruence| |].
      + intros j F. rewrite nth_oput by exact Lk. destruct (Nat.eqb_spec j k) as [->|_]; [contradiction|]. apply P8. apply in_app_iff. now right.
      + unfold got_elements, sent_elements in *. cbn. rewrite flat_map_app. cbn. rewrite app_nil_r. exact P9.
  Qed.

  Lemma set_ready_same s : o_set_ready s (o_ready s) = s.
  Proof. now destruct s. Qed.

  Lemma pushed_inv s h k f s' : oinv (o_set_ready s (h ++ o_ready s)) -> (h = [] /\ f = o_push s /\ nth_error (o_next s) k = Some NSubscribing \/ h = [OWake k] /\ nth_error (o_next s) k = Some (NWaiting f)) ->
    o_pushed s k f = Some s' -> oinv s'.
  Proof.
    intros I Hk E. unfold o_pushed in E. destruct (nth_error (o_futs s) f) as [[|v|e|]|] eqn:Ef; try discriminate; injection E as <-.
    - exact (take_inv I Hk Ef).
    - exact (raise_inv I Hk Ef).
  Qed.

  Lemma await_inv s k s' b : oinv s -> nth_error (o_next s) k = Some NSubscribing -> o_await s k = Some (s', b) -> oinv s'.
  Proof.
    intros I Hk E. unfold o_await in E. assert (G : forall t, o_pushed s k (o_push s) = Some t -> oinv t).
    { intros t Et. apply (@pushed_inv s [] k (o_push s) t); auto. cbn. now rewrite set_ready_same. }
    destruct (nth_error (o_futs s) (o_push s)) as [[|v|e|]|] eqn:Ef; try (destruct (o_pushed s k (o_push s)) as [t|]; [|discriminate]; injection E as <- <-; now apply G).
    injection E as <- <-. destruct I as [I1 I2 I3 I4 I5 I6 I7 I8]. pose proof (nth_lt _ _ Hk) as Lk.
    assert (Nj : forall j x, nth_error (o_next s) j = Some x -> x <> NSubscribing -> nth_error (oput (o_next s) k (NWaiting (o_push s))) j = Some x).
    { intros j x F N. rewrite nth_oput by exact Lk. destruct (Nat.eqb_spec j k) as [->|_]; [|exact F]. congruence. }
    constructor; cbn [o_pull o_calls o_busy o_futs o_push o_puller o_next o_wait o_sub o_disp o_yield o_ready]; auto.
    - intros f j F. apply in_app_iff in F as [F|[F|[]]]; [apply Nj; [auto|discriminate]|]. injection F as <- <-. rewrite nth_oput, Nat.eqb_refl by exact Lk. reflexivity.
    - rewrite map_app. apply nodup_snoc; [exact I2|]. intros F. apply in_map_iff in F as ([f j] & E & F). cbn in E. subst j. rewrite (I1 _ _ F) in Hk. discriminate.
    - intros f j F. rewrite nth_oput in F by exact Lk. destruct (j =? k); [injection F as <-; exact (nth_lt _ _ Ef)|eauto].
    - intros j o F. destruct (I6 _ _ F) as [F1 F2]. split; [|exact F2]. apply Nj; [exact F1|discriminate].
    - destruct I8.
      + apply PIdle; cbn; auto.
      + congruence.
      + apply PTaken with a b; cbn; auto. intros j F. destruct (H7 _ F) as (f & v & F1 & F2). exists f, v. split; [|exact F2]. apply Nj; [exact F1|discriminate].
      + destruct n; cbn in *; congruence.
  Qed.

  Lemma act_inv s a s' b : oinv s -> o_act s a = Some (s', b) -> oinv s'.
  Proof.
    intros I E. destruct a as [n| |k|]; cbn [o_act] in E.
    - destruct I as [I1 I2 I3 I4 I5 I6 I7 I8]. destruct (o_busy s) eqn:Eb; [discriminate|]. destruct (nth_error (o_futs s) (o_push s)) as [[|v|e|]|] eqn:Ef; try discriminate.
      destruct I8; try congruence. cbn [o_pull] in E. rewrite H1 in E. injection E as <- <-. pose proof (nth_lt _ _ Ef) as Lp.
      assert (Wk : forall k, In (OWake k) (wakes s (o_push s)) -> In (o_push s, k) (o_wait s)).
      { intros k F. unfold wakes in F. apply in_map_iff in F as ([f j] & E & F). cbn in E. injection E as ->. apply filter_In in F as [F G]. cbn in G. apply Nat.eqb_eq in G. now subst. }
      assert (Wr : forall k, In (OWake k) (o_ready s ++ wakes s (o_push s)) -> nth_error (o_next s) k = Some (NWaiting (o_push s))).
      { intros k F. apply in_app_iff in F as [F|F]; [apply in_ids in F; rewrite H4 in F; destruct F|auto]. }
      assert (Fw : fresh (o_ready s ++ wakes s (o_push s))).
      { intros F. apply in_app_iff in F as [F|F]; [exact (H3 F)|]. unfold wakes in F. apply in_map_iff in F as (x & E & _). discriminate. }
      constructor; cbn [o_pull o_calls o_busy o_futs o_push o_puller o_next o_wait o_sub o_disp o_yield o_ready]; auto.
      + intros f k F. rewrite oput_length by exact Lp. eauto.
      + intros f v F. rewrite nth_oput in F by exact Lp. rewrite in_app_iff. destruct (f =? o_push s); [|eauto]. right. left. destruct n; cbn in F; congruence.
      + rewrite ids_app, H4. unfold wakes. cbn. clear -I2. induction (o_wait s) as [|[f k] l IH]; [constructor|]. cbn in *. inversion I2 as [|? ? N1 N2]; subst.
        destruct (f =? o_push s); cbn; [|auto]. constructor; [|auto]. intros F. apply in_ids in F. apply in_map_iff in F as (x & E & F). injection E as E. apply filter_In in F as [F _].
        apply N1. rewrite <- E. now apply in_map.
      + intros k o F. destruct (I6 _ _ F) as [F1 F2]. split; [exact F1|]. unfold result_ok in *. cbn. setoid_rewrite in_app_iff. 
        destruct F2 as [(v & -> & F2)|[F2|[(e & -> & F2)|[F2 F3]]]]; [left; eauto|right; left; exact F2|right; right; left; eauto|right; right; right; auto].
      + destruct n as [v|e|].
        * apply POffered with v; cbn; auto; [now rewrite nth_oput, Nat.eqb_refl by exact Lp|]. unfold got_elements, sent_elements in *. cbn. rewrite flat_map_app. cbn. now rewrite H5.
        * apply PEnded with (OnError e); cbn; auto; [now rewrite nth_oput, Nat.eqb_refl by exact Lp|apply in_app_iff; right; now left|].
          unfold got_elements, sent_elements in *. cbn. rewrite flat_map_app. cbn. now rewrite app_nil_r, H5.
        * apply PEnded with OnCompleted; cbn; auto; [now rewrite nth_oput, Nat.eqb_refl by exact Lp|apply in_app_iff; right; now left|].
          unfold got_elements, sent_elements in *. cbn. rewrite flat_map_app. cbn. now rewrite app_nil_r, H5.
    - set (t := OState (o_calls s) (o_busy s) (o_futs s) (o_push s) (o_pull s) (o_puller s) (o_next s ++ [NSubscribing]) (o_wait s) (o_sub s) (o_disp s) (o_yield s) (o_ready s)) in *.
      assert (Nj : forall j x, nth_error (o_next s) j = Some x -> nth_error (o_next s ++ [NSubscribing]) j = Some x).
      { intros j x F. rewrite nth_error_app1; [exact F|exact (nth_lt _ _ F)]. }
      assert (It : oinv t).
      { destruct I as [I1 I2 I3 I4 I5 I6 I7 I8]. unfold t. constructor; cbn [o_pull o_calls o_busy o_futs o_push o_puller o_next o_wait o_sub o_disp o_yield o_ready]; auto.
        - intros f k F. destruct (Nat.lt_ge_cases k (length (o_next s))) as [L|L]; [rewrite nth_error_app1 in F by exact L; eauto|].
          rewrite nth_error_app2 in F by exact L. destruct (k - length (o_next s)) as [|[|]]; discriminate.
        - intros k o F. destruct (I6 _ _ F). auto.
        - destruct I8.
          + apply PIdle; cbn; auto.
          + apply POffered with v; cbn; auto.
          + apply PTaken with a b0; cbn; auto. intros k F. destruct (H7 _ F) as (f & v & F1 & F2). eauto.
          + apply PEnded with n; cbn; auto. }
      assert (Ht : nth_error (o_next t) (length (o_next s)) = Some NSubscribing) by (unfold t; cbn; rewrite nth_error_app2, Nat.sub_diag by lia; reflexivity).
      destruct (o_sub t); [exact (await_inv _ It Ht E)|]. now injection E as <- <-.
    - destruct (nth_error (o_next s) k) as [[|f|o]|] eqn:Ek; try discriminate.
      refine (@await_inv _ k s' b _ _ E); [|exact Ek]. destruct I as [I1 I2 I3 I4 I5 I6 I7 I8]. constructor; auto. destruct I8; [apply PIdle|apply POffered with v|apply PTaken with a b0|apply PEnded with n]; auto.
    - injection E as <- <-. destruct I as [I1 I2 I3 I4 I5 I6 I7 I8]. constructor; auto. destruct I8; [apply PIdle|apply POffered with v|apply PTaken with a b|apply PEnded with n]; auto.
  Qed.
  Lemma acts_inv l : forall s s', oinv s -> o_acts s l = Some s' -> oinv s'.
  Proof.
    induction l as [|a l IH]; intros s s' I E; cbn in E; [now injection E as <-|]. destruct (o_act s a) as [[t b]|] eqn:Ea; [|discriminate].
    pose proof (act_inv _ I Ea) as It. destruct b; [|exact (IH _ _ It E)]. destruct l; [|discriminate]. now injection E as <-.
  Qed.
  Lemma resume_inv s h r s' : oinv s -> o_ready s = h :: r -> o_resume (o_set_ready s r) h = Some s' -> oinv s'.
  Proof.
    intros I Er E. destruct h as [| |k]; cbn [o_resume] in E.
    - injection E as <-. destruct I as [I1 I2 I3 I4 I5 I6 I7 I8]. rewrite Er in *. constructor; auto. destruct I8; rewrite Er in *.
      + apply PIdle; cbn; auto. intros F. apply H3. now right.
      + apply POffered with v; cbn; auto; [intros F; apply H3; now right|]. intros k F. apply H4. now right.
      + destruct a as [|y a]; [discriminate|]. injection H3 as <- H3. apply PTaken with a b; cbn; auto; [intros F; apply H4; now right|]. intros k F. apply H7. now right.
      + apply PEnded with n; cbn; auto; [intros F; apply H5; now right|]. intros k F. apply H6. now right.
    - injection E as <-. destruct I as [I1 I2 I3 I4 I5 I6 I7 I8]. rewrite Er in *. destruct I8; rewrite ?Er in *; try (exfalso; match goal with F : fresh (OPull :: _) |- _ => apply F; now left end).
      destruct a as [|y a]; [|injection H3 as <- _; exfalso; apply H4; now left]. injection H3 as ->. constructor; auto. apply PIdle; cbn; auto.
    - cbn [o_next o_set_ready] in E. destruct (nth_error (o_next s) k) as [[|f|o]|] eqn:Ek; try discriminate.
      apply (@pushed_inv (o_set_ready s r) [OWake k] k f s'); auto. cbn. rewrite <- Er. change (oinv (o_set_ready s (o_ready s))). now rewrite set_ready_same.
  Qed.
  Lemma step_inv s x s' : oinv s -> ostep s x = Some s' -> oinv s'.
  Proof.
    intros I E. destruct x as [|l]; cbn [ostep] in E.
    - injection E as <-. apply oinv_arrive; [exact I|]. now intros h [<-|[]].
    - destruct (o_ready s) as [|h r] eqn:Er; [discriminate|]. destruct (o_resume (o_set_ready s r) h) as [t|] eqn:Et; [|discriminate].
      exact (acts_inv _ (resume_inv I Er Et) E).
  Qed.
  Lemma reach_oinv h s : osteps o_init h s -> oinv s.
  Proof. intros H. remember o_init as s0 eqn:E0. induction H as [s0|s0 h x s1 s2 H IH E]; subst; [exact oinv_init|]. exact (step_inv _ (IH eq_refl) E). Qed.

  (** ** Calls that wait for a future that nobody will ever set *)
  Definition lost s k : Prop := exists f, nth_error (o_next s) k = Some (NWaiting f) /\ nth_error (o_futs s) f = Some FPending /\ f <> o_push s.

  Lemma end_lost s j o k : lost s k -> j < length (o_next s) -> j <> k -> lost (o_end s j o) k.
  Proof.
    intros (f & H1 & H2 & H3) L N. exists f. cbn. rewrite nth_oput by exact L. destruct (Nat.eqb_spec k j); [congruence|]. auto.
  Qed.
  Lemma take_lost s j v k : lost s k -> j < length (o_next s) -> j <> k -> lost (o_take s j v) k.
  Proof.
    intros (f & H1 & H2 & H3) L N. pose proof (nth_lt _ _ H2) as Lf. unfold o_take. cbn [o_pull]. destruct (o_pull s); apply end_lost; auto; exists f; cbn;
      (split; [exact H1|]; split; [now rewrite nth_error_app1|lia]).
  Qed.
  Lemma pushed_lost s j f s' k : lost s k -> j < length (o_next s) -> j <> k -> o_pushed s j f = Some s' -> lost s' k.
  Proof.
    intros H L N E. unfold o_pushed in E. destruct (nth_error (o_futs s) f) as [[|v|e|]|]; try discriminate; injection E as <-; [now apply take_lost|now apply end_lost].
  Qed.
  Lemma await_lost s j s' b k : lost s k -> nth_error (o_next s) j = Some NSubscribing -> o_await s j = Some (s', b) -> lost s' k.
  Proof.
    intros H Hj E. pose proof (nth_lt _ _ Hj) as L. assert (N : j <> k) by (intros ->; destruct H as (f & H & _); congruence).
    unfold o_await in E. destruct (nth_error (o_futs s) (o_push s)) as [[|v|e|]|]; try (destruct (o_pushed s j (o_push s)) as [t|] eqn:Et; [|discriminate]; injection E as <- <-; exact (pushed_lost _ H L N Et)).
    injection E as <- <-. destruct H as (f & H1 & H2 & H3). exists f. cbn. rewrite nth_oput by exact L. destruct (Nat.eqb_spec k j); [congruence|]. auto.
  Qed.
  Lemma act_lost s a s' b k : lost s k -> o_act s a = Some (s', b) -> lost s' k.
  Proof.
    intros H E. destruct a as [n| |j|]; cbn [o_act] in E.
    - destruct H as (f & H1 & H2 & H3). destruct (o_busy s); [discriminate|]. destruct (nth_error (o_futs s) (o_push s)) as [[|v|e|]|] eqn:Ef; try discriminate.
      pose proof (nth_lt _ _ Ef) as L. cbn [o_pull] in E.
      assert (G : nth_error (oput (o_futs s) (o_push s) (fut_of_notif n)) f = Some FPending) by (rewrite nth_oput by exact L; destruct (Nat.eqb_spec f (o_push s)); [contradiction|exact H2]).
      destruct (o_pull s); injection E as <- <-; exists f; cbn; auto.
    - assert (G : lost (OState (o_calls s) (o_busy s) (o_futs s) (o_push s) (o_pull s) (o_puller s) (o_next s ++ [NSubscribing]) (o_wait s) (o_sub s) (o_disp s) (o_yield s) (o_ready s)) k).
      { destruct H as (f & H1 & H2 & H3). exists f. cbn. rewrite nth_error_app1 by exact (nth_lt _ _ H1). auto. }
      cbn [o_sub] in E. destruct (o_sub s); [|now injection E as <- <-]. refine (await_lost _ G _ E). cbn. now rewrite nth_error_app2, Nat.sub_diag by lia.
    - destruct (nth_error (o_next s) j) as [[|f|o]|] eqn:Ej; try discriminate. refine (await_lost _ _ _ E); [|exact Ej]. destruct H as (f & H1 & H2 & H3). exists f. cbn. auto.
    - injection E as <- <-. destruct H as (f & H1 & H2 & H3). exists f. cbn. auto.
  Qed.
  Lemma acts_lost l : forall s s' k, lost s k -> o_acts s l = Some s' -> lost s' k.
  Proof.
    induction l as [|a l IH]; intros s s' k H E; cbn in E; [now injection E as <-|]. destruct (o_act s a) as [[t b]|] eqn:Ea; [|discriminate].
    pose proof (act_lost _ H Ea) as Ht. destruct b; [|exact (IH _ _ _ Ht E)]. destruct l; [|discriminate]. now injection E as <-.
  Qed.
  (** Those that are woken wait for a future that is done. *)
  Lemma woken s k : oinv s -> In (OWake k) (o_ready s) -> exists f, nth_error (o_next s) k = Some (NWaiting f) /\ nth_error (o_futs s) f <> Some FPending.
  Proof.
    intros I F. destruct (oi_phase I).
    - apply in_ids in F. rewrite H4 in F. destruct F.
    - exists (o_push s). rewrite H2. split; [auto|discriminate].
    - rewrite H3 in F. apply in_app_iff in F as [F|[F|F]]; [|discriminate|].
      + destruct (H7 _ F) as (f & v & F1 & F2). exists f. rewrite F2. split; [exact F1|discriminate].
      + apply in_ids in F. rewrite H6 in F. destruct F.
    - exists (o_push s). rewrite H2. split; [auto|]. destruct n; discriminate.
  Qed.
  Lemma step_lost s x s' k : oinv s -> lost s k -> ostep s x = Some s' -> lost s' k.
  Proof.
    intros I H E. destruct x as [|l]; cbn [ostep] in E.
    - injection E as <-. exact H.
    - destruct (o_ready s) as [|h r] eqn:Er; [discriminate|]. destruct (o_resume (o_set_ready s r) h) as [t|] eqn:Et; [|discriminate].
      refine (acts_lost _ _ E). assert (H' : lost (o_set_ready s r) k) by exact H. destruct h as [| |j]; cbn [o_resume] in Et.
      + now injection Et as <-.
      + injection Et as <-. exact H.
      + destruct (nth_error (o_next (o_set_ready s r)) j) as [[|f|o]|] eqn:Ej; try discriminate. refine (pushed_lost _ H' _ _ Et); [exact (nth_lt _ _ Ej)|].
        intros ->. destruct (@woken s k I) as (g & G1 & G2); [rewrite Er; now left|]. destruct H as (g' & G3 & G4 & _). congruence.
  Qed.

  Definition doomed s k : Prop := lost s k \/ (nth_error (o_next s) k = Some (NWaiting (o_push s)) /\ o_pull s = true /\ exists j r, o_ready s = OWake j :: r).
  Lemma step_doomed s x s' k : oinv s -> doomed s k -> ostep s x = Some s' -> doomed s' k.
  Proof.
    intros I [H|(H1 & H2 & j & r & H3)] E; [left; exact (step_lost _ I H E)|]. destruct x as [|l]; cbn [ostep] in E.
    - injection E as <-. right. cbn. rewrite H3. repeat split; auto. exists j, (r ++ [OForeign]). reflexivity.
    - left. rewrite H3 in E. cbn [o_resume] in E. destruct (oi_phase I) as [| |a b P1 P2 P3 P4 P5 P6 P7 P8 P9 P10|]; try congruence.
      destruct a as [|y a]; [rewrite P5 in H3; discriminate|]. rewrite P5 in H3. injection H3 as -> H3. destruct (P9 j (or_introl eq_refl)) as (f & v & F1 & F2).
      cbn [o_next o_set_ready] in E. rewrite F1 in E. unfold o_pushed in E. cbn [o_futs o_set_ready] in E. rewrite F2 in E. refine (acts_lost _ _ E).
      assert (Nj : j <> k) by (intros ->; rewrite H1 in F1; injection F1 as <-; congruence).
      unfold o_take. cbn [o_pull o_set_ready]. rewrite H2. apply end_lost; [|cbn; exact (nth_lt _ _ F1)|exact Nj].
      exists (o_push s). cbn. split; [exact H1|]. pose proof (nth_lt _ _ P4) as Lp. split; [now rewrite nth_error_app1|lia].
  Qed.
  Lemma doomed_out s k : oinv s -> doomed s k -> outstanding s k.
  Proof.
    intros I H. assert (G : exists f, nth_error (o_next s) k = Some (NWaiting f)) by (destruct H as [(f & H & _)|(H & _)]; eauto). destruct G as (f & G).
    split; [exact (nth_lt _ _ G)|]. intros F. apply in_map_iff in F as ([j o] & E & F). cbn in E. subst j. destruct (oi_yield I _ _ F). congruence.
  Qed.
  Lemma steps_doomed s h s' k : oinv s -> doomed s k -> osteps s h s' -> oinv s' /\ doomed s' k.
  Proof.
    intros I H S. induction S as [s|s h x s1 s2 S IH E]; [auto|]. destruct (IH I H) as [I1 H1]. split; [exact (step_inv _ I1 E)|exact (step_doomed _ I1 H1 E)].
  Qed.

  (** ** Subscriptions that were overwritten *)
  Definition dropped s j : Prop := j < length (o_next s) /\ nth_error (o_next s) j <> Some NSubscribing /\ o_sub s <> Some j /\ ~ In j (o_disp s).
  Lemma end_dropped s k o j : dropped s j -> k < length (o_next s) -> dropped (o_end s k o) j.
  Proof.
    intros (H1 & H2 & H3 & H4) L. unfold dropped. cbn. rewrite oput_length, nth_oput by exact L. repeat split; auto. destruct (j =? k); [discriminate|exact H2].
  Qed.
  Lemma pushed_dropped s k f s' j : dropped s j -> k < length (o_next s) -> o_pushed s k f = Some s' -> dropped s' j.
  Proof.
    intros H L E. unfold o_pushed in E. destruct (nth_error (o_futs s) f) as [[|v|e|]|]; try discriminate; injection E as <-; [|now apply end_dropped].
    unfold o_take. cbn [o_pull]. destruct (o_pull s); now apply end_dropped.
  Qed.
  Lemma await_dropped s k s' b j : dropped s j -> k < length (o_next s) -> o_await s k = Some (s', b) -> dropped s' j.
  Proof.
    intros H L E. unfold o_await in E. destruct (nth_error (o_futs s) (o_push s)) as [[|v|e|]|]; try (destruct (o_pushed s k (o_push s)) as [t|] eqn:Et; [|discriminate]; injection E as <- <-; exact (@pushed_dropped _ _ _ _ _ H L Et)).
    injection E as <- <-. destruct H as (H1 & H2 & H3 & H4). unfold dropped. cbn. rewrite oput_length, nth_oput by exact L. repeat split; auto. destruct (j =? k); [discriminate|exact H2].
  Qed.
  Lemma act_dropped s a s' b j : dropped s j -> o_act s a = Some (s', b) -> dropped s' j.
  Proof.
    intros H E. destruct a as [n| |k|]; cbn [o_act] in E.
    - destruct (o_busy s); [discriminate|]. destruct (nth_error (o_futs s) (o_push s)) as [[|v|e|]|] eqn:Ef; try discriminate.
      cbn [o_pull] in E. destruct (o_pull s); injection E as <- <-; exact H.
    - assert (G : dropped (OState (o_calls s) (o_busy s) (o_futs s) (o_push s) (o_pull s) (o_puller s) (o_next s ++ [NSubscribing]) (o_wait s) (o_sub s) (o_disp s) (o_yield s) (o_ready s)) j).
      { destruct H as (H1 & H2 & H3 & H4). unfold dropped. cbn. rewrite app_length, nth_error_app1 by exact H1. repeat split; auto. lia. }
      cbn [o_sub] in E. destruct (o_sub s); [|now injection E as <- <-]. refine (@await_dropped _ _ _ _ _ G _ E). cbn. rewrite app_length. cbn. lia.
    - destruct (nth_error (o_next s) k) as [[|f|o]|] eqn:Ej; try discriminate. refine (@await_dropped _ _ _ _ _ _ _ E); [|exact (nth_lt _ _ Ej)].
      destruct H as (H1 & H2 & H3 & H4). unfold dropped. cbn. repeat split; auto. intros F. injection F as ->. contradiction.
    - injection E as <- <-. destruct H as (H1 & H2 & H3 & H4). unfold dropped. cbn. repeat split; auto; [discriminate|]. destruct (o_sub s) as [k|]; [|exact H4].
      rewrite in_app_iff. cbn. intros [F|[F|[]]]; [contradiction|]. now subst.
  Qed.
  Lemma acts_dropped l : forall s s' k, dropped s k -> o_acts s l = Some s' -> dropped s' k.
  Proof.
    induction l as [|a l IH]; intros s s' k H E; cbn in E; [now injection E as <-|]. destruct (o_act s a) as [[t b]|] eqn:Ea; [|discriminate].
    pose proof (act_dropped _ H Ea) as Ht. destruct b; [|exact (IH _ _ _ Ht E)]. destruct l; [|discriminate]. now injection E as <-.
  Qed.
  Lemma steps_dropped s h s' j : dropped s j -> osteps s h s' -> dropped s' j.
  Proof.
    intros H S. induction S as [s|s h x s1 s2 S IH E]; [auto|]. specialize (IH H). destruct x as [|l]; cbn [ostep] in E.
    - injection E as <-. exact IH.
    - destruct (o_ready s1) as [|y r] eqn:Er; [discriminate|]. destruct (o_resume (o_set_ready s1 r) y) as [t|] eqn:Et; [|discriminate].
      refine (acts_dropped _ _ E). assert (H' : dropped (o_set_ready s1 r) j) by exact IH. destruct y as [| |k]; cbn [o_resume] in Et.
      + now injection Et as <-.
      + injection Et as <-. exact IH.
      + destruct (nth_error (o_next (o_set_ready s1 r)) k) as [[|f|o]|] eqn:Ej; try discriminate. exact (@pushed_dropped _ _ _ _ _ H' (nth_lt _ _ Ej) Et).
  Qed.

  (** ** What a notification does to those that wait *)
  Lemma orun_app s h1 h2 : orun s (h1 ++ h2) = match orun s h1 with Some t => orun t h2 | None => None end.
  Proof. revert s. induction h1 as [|x h1 IH]; intros s; cbn; [reflexivity|]. destruct (ostep s x); auto. Qed.

  (** The latecomers. *)
  Lemma late ks : forall s b, o_ready s = map OWake ks ++ OPull :: b -> o_pull s = true -> NoDup ks ->
    (forall k, In k ks -> exists f v, nth_error (o_next s) k = Some (NWaiting f) /\ nth_error (o_futs s) f = Some (FResult v)) ->
    exists s', orun s (repeat (OTurn []) (length ks)) = Some s' /\ o_yield s' = o_yield s ++ map (fun k => (k, Raised InvalidState)) ks.
  Proof.
    induction ks as [|k ks IH]; intros s b Hr Hp N H; cbn; [exists s; now rewrite app_nil_r|].
    destruct (H k (or_introl eq_refl)) as (f & v & F1 & F2). rewrite Hr. cbn [o_resume map app o_next o_set_ready]. rewrite F1. unfold o_pushed. cbn [o_futs o_set_ready]. rewrite F2. cbn [o_acts].
    inversion N as [|? ? N1 N2]; subst. unfold o_take. cbn [o_pull o_set_ready]. rewrite Hp.
    match goal with |- context[o_end ?t k _] => set (s1 := o_end t k (Raised InvalidState)) end.
    destruct (IH s1 b) as (s' & E & Y); auto.
    - intros j F. destruct (H j (or_intror F)) as (g & w & G1 & G2). exists g, w. unfold s1. cbn. rewrite nth_oput by exact (nth_lt _ _ F1).
      destruct (Nat.eqb_spec j k) as [->|_]; [contradiction|]. split; [exact G1|]. rewrite nth_error_app1 by exact (nth_lt _ _ G2). exact G2.
    - exists s'. split; [exact E|]. rewrite Y. unfold s1. cbn. now rewrite <- app_assoc.
  Qed.

  Lemma send_shape s n : oinv s -> o_ready s = [OForeign] -> o_busy s = false ->
    exists s1, ostep s (OTurn [OSend n]) = Some s1 /\ o_ready s1 = map OWake (queue s) /\ o_pull s1 = false /\ o_puller s1 = true /\ o_next s1 = o_next s /\ o_push s1 = o_push s /\ o_sub s1 = o_sub s /\
      nth_error (o_futs s1) (o_push s) = Some (fut_of_notif n) /\ o_yield s1 = o_yield s.
  Proof.
    intros I Hr Hb. destruct (oi_phase I) as [P1 P2 P3 P4 P5 P6 P7| | |]; try congruence. cbn [ostep]. rewrite Hr. cbn [o_resume o_acts o_act o_busy o_set_ready o_futs o_push]. rewrite Hb, P4. cbn [o_pull o_set_ready]. rewrite P3.
    eexists. split; [reflexivity|]. cbn. unfold wakes, queue. cbn. rewrite map_map. repeat split; auto. rewrite nth_oput by exact (nth_lt _ _ P4). now rewrite Nat.eqb_refl.
  Qed.
  Lemma queue_wait s k : oinv s -> In k (queue s) -> nth_error (o_next s) k = Some (NWaiting (o_push s)).
  Proof.
    intros I F. unfold queue in F. apply in_map_iff in F as ([f j] & <- & F). apply filter_In in F as [F G]. cbn in *. apply Nat.eqb_eq in G. subst. exact (oi_wait I _ _ F).
  Qed.
  Lemma queue_nodup s : oinv s -> NoDup (queue s).
  Proof.
    intros I. unfold queue. pose proof (oi_wnodup I) as N. clear I. induction (o_wait s) as [|x l IH]; [constructor|]. cbn in *. inversion N as [|? ? N1 N2]; subst.
    destruct (fst x =? o_push s); cbn; [|auto]. constructor; [|auto]. intros F. apply N1. apply in_map_iff in F as (y & <- & F). apply filter_In in F as [F _]. now apply in_map.
  Qed.

  (** The first one takes the element; [acts] is what its task does next. *)
  Lemma first_takes s v k ks : oinv s -> o_ready s = [OForeign] -> o_busy s = false -> queue s = k :: ks ->
    exists s1 s2, ostep s (OTurn [OSend (OnNext v)]) = Some s1 /\ (forall l, ostep s1 (OTurn l) = o_acts s2 l) /\
      o_ready s2 = map OWake ks ++ [OPull] /\ o_pull s2 = true /\ o_yield s2 = o_yield s ++ [(k, Returned v)] /\ o_sub s2 = o_sub s /\ length (o_next s2) = length (o_next s) /\
      nth_error (o_futs s2) (o_push s2) = Some FPending /\
      (forall j, In j ks -> exists f w, nth_error (o_next s2) j = Some (NWaiting f) /\ nth_error (o_futs s2) f = Some (FResult w)).
  Proof.
    intros I Hr Hb Hq. destruct (send_shape (OnNext v) I Hr Hb) as (s1 & E1 & R1 & U1 & U2 & N1 & Pu & Su & F1 & Y1). pose proof (queue_nodup I) as Nd. rewrite Hq in *.
    assert (Wk : forall j, In j (k :: ks) -> nth_error (o_next s1) j = Some (NWaiting (o_push s))) by (intros j F; rewrite N1; apply queue_wait; [exact I|now rewrite Hq]).
    exists s1. eexists. split; [exact E1|]. split.
    - intros l. cbn [ostep]. rewrite R1. cbn [map o_resume o_next o_set_ready]. rewrite (Wk k (or_introl eq_refl)). unfold o_pushed. cbn [o_futs o_set_ready]. rewrite F1. cbn [fut_of_notif].
      unfold o_take. cbn [o_pull o_puller o_set_ready]. rewrite U1, U2. reflexivity.
    - pose proof (nth_lt _ _ (Wk k (or_introl eq_refl))) as Lk. cbn. rewrite Y1, Su, oput_length, N1 by exact Lk. repeat split; auto.
      + now rewrite nth_error_app2, Nat.sub_diag by lia.
      + intros j F. exists (o_push s), v. inversion Nd as [|? ? Nk _]; subst. rewrite <- N1, nth_oput by exact Lk. destruct (Nat.eqb_spec j k) as [->|_]; [contradiction|].
        split; [apply Wk; now right|]. rewrite nth_error_app1 by exact (nth_lt _ _ F1). exact F1.
  Qed.

  (** All raise. *)
  Lemma all_raise e ks : forall s, o_ready s = map OWake ks -> NoDup ks ->
    (forall k, In k ks -> exists f, nth_error (o_next s) k = Some (NWaiting f) /\ nth_error (o_futs s) f = Some (FExn e)) ->
    exists s', orun s (repeat (OTurn []) (length ks)) = Some s' /\ o_yield s' = o_yield s ++ map (fun k => (k, Raised e)) ks.
  Proof.
    induction ks as [|k ks IH]; intros s Hr N H; cbn; [exists s; now rewrite app_nil_r|].
    destruct (H k (or_introl eq_refl)) as (f & F1 & F2). rewrite Hr. cbn [o_resume map app o_next o_set_ready]. rewrite F1. unfold o_pushed. cbn [o_futs o_set_ready]. rewrite F2. cbn [o_acts].
    inversion N as [|? ? N1 N2]; subst.
    match goal with |- context[o_end ?t k _] => set (s1 := o_end t k (Raised e)) end.
    destruct (IH s1) as (s' & E & Y); auto.
    - intros j F. destruct (H j (or_intror F)) as (g & G1 & G2). exists g. unfold s1. cbn. rewrite nth_oput by exact (nth_lt _ _ F1).
      destruct (Nat.eqb_spec j k) as [->|_]; [contradiction|]. auto.
    - exists s'. split; [exact E|]. rewrite Y. unfold s1. cbn. now rewrite <- app_assoc.
  Qed.
End OverlapProofs.

Lemma osteps_head A (s : ostate A) x s1 h s' : ostep s x = Some s1 -> osteps s1 h s' -> osteps s (x :: h) s'.
Proof.
  intros E H. remember s1 as t eqn:Et. induction H as [t|t h y s2 s3 H IH E']; subst.
  - apply (@os_snoc A s [] x s s1); [constructor|exact E].
  - apply (@os_snoc A s (x :: h) y s2 s3); [exact (IH eq_refl E)|exact E'].
Qed.
Lemma orun_steps A h : forall (s s' : ostate A), orun s h = Some s' -> osteps s h s'.
Proof.
  induction h as [|x h IH]; intros s s' E; cbn in E; [injection E as <-; constructor|]. destruct (ostep s x) as [t|] eqn:Et; [|discriminate].
  exact (osteps_head _ _ Et (IH _ _ E)).
Qed.
