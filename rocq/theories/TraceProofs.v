(** * Lists of calls: proofs. *)
From Verif Require Import Properties9 ColdProofs.
Set Implicit Arguments.

Lemma first_terminal A (l : list (notif A)) : exists vs, l = map OnNext vs \/ (exists q, l = map OnNext vs ++ OnCompleted :: q) \/ exists x q, l = map OnNext vs ++ OnError x :: q.
Proof.
  induction l as [|n l IH]; [exists []; now left|]. destruct n as [a|x|].
  - destruct IH as (vs & [->|[(q & ->)|(x & q & ->)]]); exists (a :: vs); cbn; eauto 6.
  - exists []. right. right. now exists x, l.
  - exists []. right. left. now exists l.
Qed.

Definition is_next {A} (n : notif A) : bool := match n with OnNext _ => true | _ => false end.
Lemma nexts_map A (vs : list A) : filter is_next (map OnNext vs) = map OnNext vs.
Proof. induction vs as [|v vs IH]; [reflexivity|]. cbn. now rewrite IH. Qed.
Lemma nexts_trace A (vs : list A) e : filter is_next (trace vs e) = map OnNext vs.
Proof. unfold trace. rewrite filter_app, nexts_map. destruct e; apply app_nil_r. Qed.
Lemma map_next_inj A (a b : list A) : map OnNext a = map OnNext b -> a = b.
Proof. revert b. induction a as [|x a IH]; intros [|y b] E; try discriminate; [reflexivity|]. injection E as -> E. now rewrite (IH b E). Qed.
Lemma map_next_prefix A (a b : list A) c : map OnNext b = map OnNext a ++ c -> prefix a b.
Proof.
  revert b. induction a as [|x a IH]; intros [|y b] E; try discriminate; [now exists []|now exists (y :: b)|].
  injection E as -> E. destruct (IH b E) as [d ->]. now exists d.
Qed.
(** An error in a script. *)
Lemma trace_error A (vs : list A) e p x q : trace vs e = p ++ OnError x :: q -> p = map OnNext vs /\ e = Failed x.
Proof.
  unfold trace. revert p. induction vs as [|v vs IH]; intros p E; cbn in E.
  - destruct e; destruct p as [|n p]; cbn in E; try discriminate; try (injection E as ? E; try (destruct p; discriminate)).
    subst. now split.
  - destruct p as [|n p]; [discriminate|]. injection E as <- E. destruct (IH p E) as [-> ->]. now split.
Qed.
Lemma forall2_seq X Y (P : Y -> X -> Prop) (f : nat -> Y) (l : list X) :
  (forall k x, nth_error l k = Some x -> P (f k) x) -> Forall2 P (map f (seq 0 (length l))) l.
Proof.
  revert f. induction l as [|x l IH]; intros f H; cbn; [constructor|]. constructor; [exact (H 0 x eq_refl)|].
  rewrite <- seq_shift, map_map. apply IH. intros k y E. exact (H (S k) y E).
Qed.
Lemma nth_map_seq Y (f : nat -> Y) n k : k < n -> nth_error (map f (seq 0 n)) k = Some (f k).
Proof.
  intros L. rewrite nth_error_map. rewrite (nth_error_nth' (seq 0 n) 0) by (now rewrite seq_length). rewrite seq_nth by exact L. reflexivity.
Qed.

Lemma map_seq_nth X Y (f : nat -> Y) (g : X -> Y) (l : list X) : (forall k x, nth_error l k = Some x -> f k = g x) -> map f (seq 0 (length l)) = map g l.
Proof.
  revert f. induction l as [|x l IH]; intros f H; [reflexivity|]. cbn. rewrite (H 0 x eq_refl). f_equal. rewrite <- seq_shift, map_map. apply IH. intros k y E. exact (H (S k) y E).
Qed.
Lemma upto_open A (vs : list A) : upto_terminal (map OnNext vs) = trace vs Open.
Proof. unfold trace. rewrite app_nil_r. induction vs as [|v vs IH]; [reflexivity|]. cbn. now rewrite IH. Qed.
Lemma upto_completed A (vs : list A) q : upto_terminal (map OnNext vs ++ OnCompleted :: q) = trace vs Completed.
Proof. unfold trace. induction vs as [|v vs IH]; [reflexivity|]. cbn. now rewrite IH. Qed.
Lemma upto_failed A (vs : list A) x q : upto_terminal (map OnNext vs ++ OnError x :: q) = trace vs (Failed x).
Proof. unfold trace. induction vs as [|v vs IH]; [reflexivity|]. cbn. now rewrite IH. Qed.
Lemma snoc_case X (l : list X) : l = [] \/ exists p x, l = p ++ [x].
Proof. destruct l as [|x l] using rev_ind; [now left|right; eauto]. Qed.

