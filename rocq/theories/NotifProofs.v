(** * Proofs about notifications and observers made from functions. *)
From Verif Require Export Notif.
Set Implicit Arguments.

Section NotifProofs.
  Context {A St : Type}.
  Implicit Types (o : observer A St) (l : list (notif A)).

  Definition call o (n : notif A) : act St := accept_observer n o.
  Lemma calls_cons o n l s : calls o (n :: l) s = let '(s1, r) := call o n s in let '(s2, rs) := calls o l s1 in (s2, r :: rs).
  Proof. destruct n; reflexivity. Qed.

  Lemma call_adapt x o n : call (adapt x o) n = if lets x n then call o n else anoop.
  Proof. destruct x as [| |[] [] []], n; reflexivity. Qed.
  Lemma call_adapt_all xs o n : call (fold_right adapt o xs) n = if lets_all xs n then call o n else anoop.
  Proof.
    induction xs as [|x xs IH]; [reflexivity|]. cbn [fold_right lets_all forallb]. rewrite call_adapt, IH.
    fold (lets_all xs n). destruct (lets x n), (lets_all xs n); reflexivity.
  Qed.

  Lemma calls_ext o o' : (forall n, call o n = call o' n) -> forall l s, calls o l s = calls o' l s.
  Proof.
    intros H. induction l as [|n l IH]; intros s; [reflexivity|]. rewrite !calls_cons, H. destruct (call o' n s) as [s1 r]. now rewrite IH.
  Qed.

  Lemma calls_filter (p : notif A -> bool) o o' : (forall n, call o' n = if p n then call o n else anoop) ->
    forall l s, calls o' l s = (fst (calls o (filter p l) s), spread p l (snd (calls o (filter p l) s))).
  Proof.
    intros H. induction l as [|n l IH]; intros s; [reflexivity|]. rewrite calls_cons, H. cbn [filter spread]. destruct (p n) eqn:Ep.
    - rewrite calls_cons. destruct (call o n s) as [s1 r]. rewrite IH. destruct (calls o (filter p l) s1) as [s2 rs]. reflexivity.
    - cbn. rewrite IH. reflexivity.
  Qed.

  Lemma adapted xs o l s : calls (fold_right adapt o xs) l s =
    (fst (calls o (filter (lets_all xs) l) s), spread (lets_all xs) l (snd (calls o (filter (lets_all xs) l) s))).
  Proof. apply calls_filter. intros n. apply call_adapt_all. Qed.

  Lemma noop_calls l (s : St) : calls (A := A) noop_observer l s = (s, repeat None (length l)).
  Proof. induction l as [|n l IH]; [reflexivity|]. destruct n; cbn; now rewrite IH. Qed.

  Lemma through n (send : sender (A := A) (St := St)) throw close : observer_through n send throw close = observer_of send throw close.
  Proof.
    revert send throw close. induction n as [|n IH]; intros; [reflexivity|]. cbn [observer_through]. now rewrite IH.
  Qed.

  Lemma calls_functions (send : option (A -> act St)) throw close l s :
    fst (calls (observer_of (match send with Some f => SFunction f | None => SNone end) throw close) l s) =
    fold_left (fun s n => run_functions send throw close n s) l s.
  Proof.
    revert s. induction l as [|n l IH]; intros s; [reflexivity|]. rewrite calls_cons. cbn [fold_left].
    assert (E : fst (call (observer_of (match send with Some f => SFunction f | None => SNone end) throw close) n s) = run_functions send throw close n s).
    { destruct n, send, throw, close; reflexivity. }
    rewrite <- E, <- IH. destruct (call _ n s) as [s1 r]. cbn [fst]. destruct (calls _ l s1). reflexivity.
  Qed.
End NotifProofs.

Section EqProofs.
  Context {A : Type}.
  Variables (veq : A -> A -> bool) (eeq : exn -> exn -> bool).
  Notation R := (fun a b => veq a b = true).
  Notation Q := (fun a b => eeq a b = true).

  Lemma notif_eq_same (n m : notif A) : notif_eq veq eeq n m = true <-> same R Q n m.
  Proof.
    split.
    - destruct n, m; cbn; intros H; try discriminate; constructor; exact H.
    - destruct 1; auto.
  Qed.

  Lemma values_eq_iff (l m : list (Z * notif A)) :
    values_eq veq eeq l m = true <-> Forall2 (fun x y => fst x = fst y /\ same R Q (snd x) (snd y)) l m.
  Proof.
    revert m. induction l as [|[t n] l IH]; intros [|[u k] m]; cbn.
    - split; constructor.
    - split; [discriminate|inversion 1].
    - split; [discriminate|inversion 1].
    - rewrite !andb_true_iff, Z.eqb_eq, notif_eq_same, IH. split.
      + intros [[-> H] F]. constructor; auto.
      + intros F. inversion F as [|x y l1 m1 [E H] F1]; subst. auto.
  Qed.
End EqProofs.
