(** * Proofs about switch_latest and flat_map_latest in programs. *)
From Verif Require Import Properties9 ColdProofs LawsProofs Programs PairProofs ProgramsProofs Programs2 Programs2Proofs Programs3 Programs3Proofs.
Set Implicit Arguments.

(** ** switch_latest in terms of [merged] *)

(** A beginning of it; or all of it, if it fails. *)
Definition cutoff {A} (P : list A -> ending -> Prop) (vs : list A) (e : ending) : Prop :=
  match e with Open => False | Failed x => P vs (Failed x) | Completed => exists us d, P us d /\ prefix vs us end.
(** All of it, but it does not complete. *)
Definition kept {A} (P : list A -> ending -> Prop) (vs : list A) (e : ending) : Prop :=
  match e with Open => P vs Open \/ P vs Completed | Failed x => P vs (Failed x) | Completed => False end.
Definition only_failed (oe : ending) : ending := match oe with Failed x => Failed x | _ => Completed end.

Lemma interleaves_one A (p : list A) vs : interleaves [p] vs <-> vs = p.
Proof.
  rewrite interleaves_cons. split.
  - intros (ws & I & S). apply interleaves_nil in I as ->. now apply shuffle_nil_eq in S.
  - intros ->. exists []. split; [now apply interleaves_nil|apply shuffle_nil].
Qed.

Section Switch.
  Context {X A : Type} (M : X -> list A -> ending -> Prop).

  Fixpoint parts (xs : list X) : list (list A -> ending -> Prop) :=
    match xs with
    | [] => []
    | x :: r => match r with [] => [kept (M x)] | _ => cutoff (M x) :: parts r end
    end.
  Definition sw (xs : list X) (vs : list A) (e : ending) : Prop :=
    exists cs ps, Forall2 (fun x c => M x (fst c) (snd c)) xs cs /\ Forall2 (fun p (c : list A * ending) => prefix p (fst c)) ps cs /\ interleaves ps vs /\
    match e with
    | Completed => False
    | Failed x => exists k us, nth_error cs k = Some (us, Failed x) /\ nth_error ps k = Some us
    | Open => forall k c, S k = length xs -> nth_error cs k = Some c -> nth_error ps k = Some (fst c) /\ forall x, snd c <> Failed x
    end.

  Lemma kept_some x c p : M x (fst c) (snd c) -> prefix p (fst c) -> exists l e, prefix p l /\ kept (M x) l e.
  Proof.
    destruct c as [us d]. cbn. intros H P. exists us. destruct d as [|z|]; [exists Open|exists (Failed z)|exists Open]; (split; [exact P|]); cbn; auto.
  Qed.
  Lemma begin_parts xs cs : Forall2 (fun x c => M x (fst c) (snd c)) xs cs -> forall ps vs, Forall2 (fun p (c : list A * ending) => prefix p (fst c)) ps cs -> interleaves ps vs ->
    exists l e, prefix vs l /\ all_merged (parts xs) l e.
  Proof.
    induction 1 as [|x c xs cs H1 H2 IH]; intros ps vs F I; inversion F as [|p c' ps' cs' Pp F']; subst.
    - apply interleaves_nil in I as ->. exists [], Completed. split; [apply prefix_refl|now split].
    - apply interleaves_cons in I as (ws & I & S). destruct (IH _ _ F' I) as (l & e & Pl & Ml). destruct xs as [|y r].
      + destruct (@kept_some x c p H1 Pp) as (u & d & Pu & Ku). exact (@merged_begin _ (kept (M x)) (all_merged []) _ _ _ _ _ _ _ Ku Ml Pu Pl S).
      + assert (Ku : cutoff (M x) p Completed) by (exists (fst c), (snd c); auto).
        exact (@merged_begin _ (cutoff (M x)) (all_merged (parts (y :: r))) _ _ _ _ _ _ _ Ku Ml (prefix_refl p) Pl S).
  Qed.

  Lemma sw_parts xs : xs <> [] -> same (sw xs) (all_merged (parts xs)).
  Proof.
    induction xs as [|x r IH]; intros N vs e; [now elim N|]. clear N. destruct r as [|y r].
    - cbn [parts all_merged fold_right]. rewrite (merged_unit (kept (M x)) vs e). split.
      + intros (cs & ps & F1 & F2 & I & H). inversion F1 as [|x' [us d] xs' cs' M1 F1']; subst. inversion F1'; subst. inversion F2 as [|p c' ps' cs'' Pp F2']; subst. inversion F2'; subst.
        apply interleaves_one in I as ->. cbn [fst snd] in *. destruct e as [|z|]; cbn.
        * destruct (H 0 (us, d) eq_refl eq_refl) as [E Nf]. injection E as ->. destruct d as [|z|]; [now left|now elim (Nf z)|now right].
        * destruct H as ([|k] & us0 & E1 & E2); [|destruct k; discriminate]. injection E1 as -> ->. injection E2 as ->. exact M1.
        * exact H.
      + intros K. destruct e as [|z|]; cbn in K; [| |contradiction].
        * assert (G : exists d, M x vs d /\ forall z, d <> Failed z) by (destruct K as [K|K]; eexists; (split; [exact K|discriminate])). destruct G as (d & G1 & G2).
          exists [(vs, d)], [vs]. split; [repeat constructor; exact G1|]. split; [repeat constructor; apply prefix_refl|]. split; [now apply interleaves_one|].
          intros [|k] c L E; [|destruct k; discriminate]. injection E as <-. now split.
        * exists [(vs, Failed z)], [vs]. split; [repeat constructor; exact K|]. split; [repeat constructor; apply prefix_refl|]. split; [now apply interleaves_one|]. now exists 0, vs.
    - specialize (IH ltac:(discriminate)). change (all_merged (parts (x :: y :: r))) with (merged (cutoff (M x)) (all_merged (parts (y :: r)))). split.
      + intros (cs & ps & F1 & F2 & I & H). inversion F1 as [|x' [us d] xs' cs' M1 F1']; subst. inversion F2 as [|p c' ps' cs'' Pp F2']; subst.
        apply interleaves_cons in I as (ws & I & S). cbn [fst snd] in *.
        assert (Kp : cutoff (M x) p Completed) by (exists us, d; auto).
        destruct e as [|z|]; [| |contradiction].
        * exists p, Completed, ws, Open. split; [exact Kp|]. split; [|auto]. apply IH. exists cs', ps'. split; [exact F1'|]. split; [exact F2'|]. split; [exact I|].
          intros k c L E. apply (H (Datatypes.S k) c); [cbn in *; lia|exact E].
        * destruct H as ([|k] & us0 & E1 & E2).
          -- injection E1 as -> ->. injection E2 as ->. destruct (begin_parts F1' F2' I) as (l & e & Pl & Ml).
             exists us0, (Failed z), l, e. split; [exact M1|]. split; [exact Ml|]. left. split; [reflexivity|]. now exists ws.
          -- exists p, Completed, ws, (Failed z). split; [exact Kp|]. split; [|right; split; [reflexivity|exists p; auto using prefix_refl]].
             apply IH. exists cs', ps'. split; [exact F1'|]. split; [exact F2'|]. split; [exact I|]. now exists k, us0.
      + intros (u & d & ws & d' & Ku & Mw & H). apply IH in Mw as (cs & ps & F1 & F2 & I & E). destruct e as [|z|].
        * destruct H as [D S]. assert (d' = Open) as -> by (destruct d' as [|z|]; [reflexivity|intuition discriminate|contradiction]).
          destruct d as [|z|]; cbn in Ku; [contradiction|intuition discriminate|]. destruct Ku as (us & d & Mu & Pu).
          exists ((us, d) :: cs), (u :: ps). split; [now constructor|]. split; [now constructor|]. split; [apply interleaves_cons; now exists ws|].
          intros [|k] c L N; [cbn in L; discriminate|]. apply (E k c); [cbn in *; lia|exact N].
        * destruct H as [(-> & w & Pw & S)|(-> & u' & Pu & S)].
          -- destruct (interleaves_split I Pw) as (qs & Fq & Iq). exists ((u, Failed z) :: cs), (u :: qs). split; [constructor; [exact Ku|exact F1]|]. split.
             ++ constructor; [apply prefix_refl|]. clear -Fq F2. revert cs F2. induction Fq as [|q p qs ps H1 H2 IHq]; intros cs F2; inversion F2; subst; constructor; [eapply prefix_trans; eassumption|auto].
             ++ split; [apply interleaves_cons; now exists w|]. now exists 0, u.
          -- destruct E as (k & us0 & E1 & E2).
             assert (G : exists us d', M x us d' /\ prefix u' us).
             { destruct d as [|y0|]; cbn in Ku; [contradiction|exists u, (Failed y0); auto|]. destruct Ku as (us & d' & Mu & Pu'). exists us, d'. split; [exact Mu|exact (prefix_trans Pu Pu')]. }
             destruct G as (us & d' & Mu & Pu'). exists ((us, d') :: cs), (u' :: ps). split; [now constructor|]. split; [now constructor|]. split; [apply interleaves_cons; now exists ws|]. now exists (Datatypes.S k), us0.
        * destruct H as (_ & -> & _). contradiction.
  Qed.

  Lemma switched_sw oe xs : xs <> [] -> same (switched M oe xs) (merged (ended (only_failed oe)) (all_merged (parts xs))).
  Proof.
    intros N vs e.
    assert (P : (forall z, oe <> Failed z) -> (switched M oe xs vs e <-> sw xs vs e)).
    { intros No. split; intros (cs & ps & F1 & F2 & I & H); exists cs, ps; (split; [exact F1|]); (split; [exact F2|]); (split; [exact I|]); destruct e as [|z|].
      - apply H.
      - destruct H as [H|H]; [now elim (No z)|exact H].
      - now destruct H as [H _].
      - split; [exact No|]. split; [intros ->; now elim N|exact H].
      - now right.
      - contradiction. }
    destruct oe as [|z|]; cbn [only_failed].
    - rewrite P by discriminate. rewrite (sw_parts N vs e). symmetry. exact (merged_unit_left _ vs e).
    - clear P. split.
      + intros (cs & ps & F1 & F2 & I & H). destruct e as [|y|].
        * destruct H as (H & _). now elim (H z).
        * destruct H as [H|H].
          -- injection H as ->. destruct (begin_parts F1 F2 I) as (l & e & Pl & Ml). exists [], (Failed y), l, e. split; [now split|]. split; [exact Ml|]. left. split; [reflexivity|].
             exists vs. split; [exact Pl|]. apply shuffle_comm, shuffle_nil.
          -- exists [], (Failed z), vs, (Failed y). split; [now split|]. split; [apply (sw_parts N); exists cs, ps; auto|]. right. split; [reflexivity|]. exists []. split; [apply prefix_refl|apply shuffle_comm, shuffle_nil].
        * now destruct H as [-> _].
      + intros (u & d & ws & d' & [-> ->] & Mw & H). destruct e as [|y|]; [destruct H as [H _]; intuition discriminate| |destruct H as (H & _); discriminate].
        apply (sw_parts N) in Mw as (cs & ps & F1 & F2 & I & E). destruct H as [(H & w & Pw & S)|(-> & u & Pu & S)].
        * injection H as ->. apply shuffle_comm, shuffle_nil_eq in S as ->. destruct (interleaves_split I Pw) as (qs & Fq & Iq). exists cs, qs. split; [exact F1|]. split; [|split; [exact Iq|now left]].
          clear -Fq F2. revert cs F2. induction Fq as [|q p qs ps H1 H2 IHq]; intros cs F2; inversion F2; subst; constructor; [eapply prefix_trans; eassumption|auto].
        * destruct u; [|now destruct Pu]. apply shuffle_comm, shuffle_nil_eq in S as ->. exists cs, ps. split; [exact F1|]. split; [exact F2|]. split; [exact I|now right].
    - rewrite P by discriminate. rewrite (sw_parts N vs e). symmetry. exact (merged_unit_left _ vs e).
  Qed.
  Lemma switched_nil oe : same (switched M oe []) (ended oe).
  Proof.
    intros vs e. split.
    - intros (cs & ps & F1 & F2 & I & H). inversion F1; subst. inversion F2; subst. apply interleaves_nil in I as ->. split; [reflexivity|]. destruct e as [|z|].
      + symmetry. now apply H.
      + destruct H as [H|(k & us & E & _)]; [now symmetry|destruct k; discriminate].
      + now destruct H as [_ ->].
    - intros [-> ->]. exists [], []. split; [constructor|]. split; [constructor|]. split; [now apply interleaves_nil|]. destruct oe as [|z|]; auto.
      split; [discriminate|]. split; [reflexivity|]. intros [|k] c L; discriminate.
  Qed.
  Lemma switched_some oe xs : (forall x, exists us d, M x us d) -> exists vs e, switched M oe xs vs e.
  Proof.
    intros H. destruct xs as [|x r]; [exists [], oe; now apply switched_nil|].
    destruct (choose_all (fun x c => M x (fst c) (snd c)) (x :: r)) as [cs F1]; [intros y _; destruct (H y) as (us & d & Hy); now exists (us, d)|].
    assert (Hi : exists vs, interleaves (map fst cs) vs).
    { clear. induction cs as [|c cs [vs IH]]; [exists []; now apply interleaves_nil|]. exists (fst c ++ vs). apply interleaves_cons. exists vs. split; [exact IH|apply shuffle_both]. }
    destruct Hi as [vs I]. destruct (begin_parts F1 (prefix_map_fst cs) I) as (l & e & _ & Ml).
    assert (Ho : ended (only_failed oe) (@nil A) (only_failed oe)) by now split.
    destruct (@merged_begin _ (ended (only_failed oe)) (all_merged (parts (x :: r))) _ _ _ _ _ _ _ Ho Ml (prefix_refl []) (prefix_refl l) (shuffle_comm (shuffle_nil l))) as (l' & e' & _ & Q).
    exists l', e'. apply switched_sw; [discriminate|exact Q].
  Qed.
End Switch.

Lemma kept_same A (P Q : list A -> ending -> Prop) : same P Q -> same (kept P) (kept Q).
Proof. intros E vs [|z|]; cbn; rewrite ?(E vs _); reflexivity. Qed.
Lemma cutoff_same A (P Q : list A -> ending -> Prop) : same P Q -> same (cutoff P) (cutoff Q).
Proof. intros E vs [|z|]; cbn; [reflexivity|apply E|]. split; intros (us & d & H & Hp); exists us, d; (split; [now apply E|exact Hp]). Qed.

Lemma parts_same X A (M N : X -> list A -> ending -> Prop) xs : (forall x, same (M x) (N x)) -> same (all_merged (parts M xs)) (all_merged (parts N xs)).
Proof.
  intros E. induction xs as [|x r IH]; [apply same_refl|]. destruct r as [|y r].
  - cbn. apply merged_same; [now apply kept_same|apply same_refl].
  - change (same (merged (cutoff (M x)) (all_merged (parts M (y :: r)))) (merged (cutoff (N x)) (all_merged (parts N (y :: r))))). apply merged_same; [now apply cutoff_same|exact IH].
Qed.
Lemma switched_same X A (M N : X -> list A -> ending -> Prop) oe xs : (forall x, same (M x) (N x)) -> same (switched M oe xs) (switched N oe xs).
Proof.
  intros E. destruct xs as [|x r]; [refine (same_trans (switched_nil _ _) _); apply same_sym, switched_nil|].
  refine (same_trans (switched_sw _ _ _) _); [discriminate|]. refine (same_trans _ (same_sym (switched_sw _ _ _))); [|discriminate].
  apply merged_same; [apply same_refl|now apply parts_same].
Qed.

(** ** Operators that treat each element by itself *)
Section Runs.
  Context {A B : Type} (m : A -> res (option B)).
  Notation runs := (runs m).
  Lemma runs_kept P : same (runs (kept P)) (kept (runs P)).
  Proof.
    intros vs e. split.
    - intros (us & d & K & R). destruct (run_inv _ _ _ R) as [[G ->]|(x & G & ->)].
      + destruct d as [|z|]; cbn in K; [| |contradiction].
        * destruct K as [K|K]; [left|right]; eexists us, _; (split; [exact K|now apply run_goes]).
        * exists us, (Failed z). split; [exact K|now apply run_goes].
      + destruct d as [|z|]; cbn in K; [destruct K as [K|K]| |contradiction]; eexists us, _; (split; [exact K|now apply run_raises]).
    - destruct e as [|z|]; cbn; [| |contradiction].
      + intros [(us & d & K & R)|(us & d & K & R)]; destruct (run_inv _ _ _ R) as [[G E]|(x & G & E)]; try discriminate; subst d; exists us, Open; (split; [cbn; auto|now apply run_goes]).
      + intros (us & d & K & R). destruct (run_inv _ _ _ R) as [[G <-]|(x & G & [= <-])].
        * exists us, (Failed z). now split.
        * destruct d as [|y|]; [exists us, Open|exists us, (Failed y)|exists us, Open]; (split; [cbn; auto|now apply run_raises]).
  Qed.
  Lemma runs_cutoff P : same (runs (cutoff P)) (cutoff (runs P)).
  Proof.
    intros vs e. split.
    - intros (us & d & K & R). destruct (run_inv _ _ _ R) as [[G ->]|(x & G & ->)].
      + destruct d as [|z|]; cbn in K; [contradiction| |].
        * exists us, (Failed z). split; [exact K|now apply run_goes].
        * destruct K as (ws & d & K & Pu). pose proof (goes_begin d Pu G) as Q. destruct (Programs2Proofs.run m ws d) as [bs e] eqn:Ew. exists bs, e. split; [now exists ws, d|exact Q].
      + destruct d as [|z|]; cbn in K; [contradiction| |].
        * exists us, (Failed z). split; [exact K|now apply run_raises].
        * destruct K as (ws & d & K & Pu). exists ws, d. split; [exact K|]. apply run_raises. exact (raises_more Pu G).
    - destruct e as [|z|]; cbn; [contradiction| |].
      + intros (us & d & K & R). destruct (run_inv _ _ _ R) as [[G <-]|(x & G & [= <-])].
        * exists us, (Failed z). now split.
        * exists us, Completed. split; [exists us, d; auto using prefix_refl|now apply run_raises].
      + intros (bs & d & (us & d' & K & R) & Pb). assert (Q : prefix vs (fst (Programs2Proofs.run m us d'))) by (now rewrite R).
        destruct (begin_goes m _ _ Q) as (us1 & P1 & G1). exists us1, Completed. split; [exists us, d'; auto|now apply run_goes].
  Qed.
  Lemma runs_parts X (M : X -> list A -> ending -> Prop) xs : same (runs (all_merged (parts M xs))) (all_merged (parts (fun x => runs (M x)) xs)).
  Proof.
    induction xs as [|x r IH]; [apply runs_ended|]. destruct r as [|y r].
    - cbn. refine (same_trans (runs_merged _ _ _) _). apply merged_same; [apply runs_kept|apply runs_ended].
    - change (same (runs (merged (cutoff (M x)) (all_merged (parts M (y :: r))))) (merged (cutoff (runs (M x))) (all_merged (parts (fun x => runs (M x)) (y :: r))))).
      refine (same_trans (runs_merged _ _ _) _). apply merged_same; [apply runs_cutoff|exact IH].
  Qed.
  Lemma runs_switched X (M : X -> list A -> ending -> Prop) oe xs : same (runs (switched M oe xs)) (switched (fun x => runs (M x)) oe xs).
  Proof.
    destruct xs as [|x r].
    - refine (same_trans (runs_same _ (switched_nil _ _)) _). refine (same_trans (runs_ended _ _) _). apply same_sym, switched_nil.
    - refine (same_trans (runs_same _ (switched_sw _ _ _)) _); [discriminate|]. refine (same_trans (runs_merged _ _ _) _). refine (same_trans _ (same_sym (switched_sw _ _ _))); [|discriminate].
      apply merged_same; [apply runs_ended|apply runs_parts].
  Qed.
End Runs.

(** ** Programs *)
Lemma regular_switched X A (c : cold X) (f : X -> cold A) : lively c -> (forall x, lively (f x)) -> regular (Switched c f).
Proof. intros [Rc _] Hf. split; [exact Rc|]. intros x. apply Hf. Qed.
Lemma lively_switched X A (c : cold X) (f : X -> cold A) : lively c -> (forall x, lively (f x)) -> lively (Switched c f).
Proof.
  intros Hc Hf. split; [now apply regular_switched|]. apply regular_productive; [now apply regular_switched|].
  destruct (lively_some Hc) as (xs & oe & M). destruct (switched_some (fun x => means (f x)) oe xs) as (vs & e & S); [intros x; exact (lively_some (Hf x))|].
  exists vs, e, xs, oe. now split.
Qed.
Lemma lively_latest X A (f : X -> cold A) c : lively c -> (forall x, lively (f x)) -> lively (flat_map_latest_ f c).
Proof. intros Hc Hf. apply lively_switched; [now apply lively_stage|exact Hf]. Qed.

Lemma switched_alike X A (c d : cold X) (f g : X -> cold A) : alike c d -> (forall x, alike (f x) (g x)) -> alike (Switched c f) (Switched d g).
Proof.
  intros E F l. cbn. split; intros (ms & script & h & s & H1 & H2 & H3 & H4 & H5 & H6); exists ms, script, h, s;
    (split; [now apply E|]); (split; [exact H2|]); (split; [exact H3|]); (split; [exact H4|]); (split; [|exact H6]); intros k x i Hk; apply F; exact (H5 k x i Hk).
Qed.

Lemma named_alike X (c : cold X) : lively c -> alike (Stage (SMap (fun x => Ok x)) c) c.
Proof. intros Hc. apply same_alike; [now apply lively_stage|exact Hc|]. intros xs oe. apply means_named. Qed.
Lemma named_async_alike X (c : cold X) : lively c -> alike (Stage (SMapAsync (fun x => Ok x)) c) c.
Proof. intros Hc. apply same_alike; [now apply lively_stage|exact Hc|]. intros xs oe. exact (means_named c xs oe). Qed.
Lemma latest_switched X A (f : X -> cold A) c : lively c -> alike (flat_map_latest_ f c) (Switched c f).
Proof. intros Hc. apply switched_alike; [now apply named_alike|]. intros x l. reflexivity. Qed.
Lemma latest_async_switched X A (f : X -> cold A) c : lively c -> alike (flat_map_latest_async_ f c) (Switched c f).
Proof. intros Hc. apply switched_alike; [now apply named_async_alike|]. intros x l. reflexivity. Qed.

Lemma switched_is X A (c : cold X) (f : X -> cold A) : lively c -> (forall x, lively (f x)) -> forall l,
  makes (Switched c f) l <-> exists xs oe vs e, outcome c xs oe /\ switched (fun x => outcome (f x)) oe xs vs e /\ l = trace vs e.
Proof.
  intros Hc Hf l. rewrite (regular_makes _ (regular_switched f Hc Hf) l).
  assert (E : forall oe xs, same (switched (fun x => means (f x)) oe xs) (switched (fun x => outcome (f x)) oe xs)) by (intros oe xs; apply switched_same; intros x; now apply outcome_same).
  split.
  - intros (vs & e & (xs & oe & M & S) & ->). exists xs, oe, vs, e. split; [now apply outcome_same|]. split; [now apply E|reflexivity].
  - intros (xs & oe & vs & e & M & S & ->). exists vs, e. split; [|reflexivity]. exists xs, oe. split; [now apply outcome_same in M|now apply E].
Qed.

Lemma switched_completes X A (c : cold X) (f : X -> cold A) vs : lively c -> (forall x, lively (f x)) ->
  (outcome (Switched c f) vs Completed <-> vs = [] /\ outcome c [] Completed).
Proof.
  intros Hc Hf. unfold outcome at 1. rewrite (switched_is f Hc Hf). split.
  - intros (xs & oe & us & e & O & S & T). apply trace_inj in T as [<- <-]. destruct S as (cs & ps & F1 & F2 & I & -> & ->).
    inversion F1; subst. inversion F2; subst. apply interleaves_nil in I as ->. now split.
  - intros [-> O]. exists [], Completed, [], Completed. split; [exact O|]. split; [now apply switched_nil|reflexivity].
Qed.

Lemma switched_reliable X A (c : cold X) (f : X -> cold A) : lively c -> (forall x, lively (f x)) -> reliable c -> (forall x, reliable (f x)) -> reliable (Switched c f).
Proof.
  intros Hc Hf Rc Rf l z H F. apply (switched_is f Hc Hf) in H as (xs & oe & vs & e & O & S & ->).
  assert (In_err : forall (us : list A), In (OnError z) (trace us (Failed z))) by (intros; apply in_or_app; right; now left).
  assert (Hn : e = Failed z).
  { unfold trace in F. apply in_app_or in F as [F|F]; [apply in_map_iff in F as (? & ? & _); discriminate|]. destruct e as [|y|]; cbn in F; try contradiction; destruct F as [F|[]]; congruence. }
  subst e. destruct S as (cs & ps & F1 & F2 & I & [-> |(k & us & E1 & _)]).
  - apply (Rc _ z O). apply in_or_app. right. now left.
  - assert (G : exists x, outcome (f x) us (Failed z)).
    { clear -F1 E1. revert k E1. induction F1 as [|x c xs cs H1 H2 IH]; intros [|k] E; try discriminate; [injection E as ->; now exists x|exact (IH k E)]. }
    destruct G as [x G]. exact (Rf x _ z G (In_err us)).
Qed.

(** Its elements are those of a beginning of flat_map. *)
Lemma switched_within X A (c : cold X) (f : X -> cold A) vs e : lively c -> (forall x, lively (f x)) -> outcome (Switched c f) vs e ->
  exists ws d, outcome (flat_map_ f c) ws d /\ prefix vs ws.
Proof.
  intros Hc Hf H. apply (switched_is f Hc Hf) in H as (xs & oe & us & e' & O & (cs & ps & F1 & F2 & I & _) & T). apply trace_inj in T as [<- <-].
  destruct (begin_all (fun x => outcome (f x)) F1 F2 I) as (l & d & Pl & M).
  assert (Ho : ended oe (@nil A) oe) by now split.
  destruct (@merged_begin _ (ended oe) (all_merged (map (fun x => outcome (f x)) xs)) _ _ _ _ _ _ _ Ho M (prefix_refl []) Pl (shuffle_comm (shuffle_nil vs))) as (l' & e' & Pl' & Q).
  exists l', e'. split; [|exact Pl']. apply (flat_map_is f Hc Hf). exists xs, oe, l', e'. auto.
Qed.

Lemma switched_source X A (s : source X) (f : X -> cold A) : same (means (Switched (From s) f)) (switched (fun x => means (f x)) (snd (source_means s)) (fst (source_means s))).
Proof.
  intros vs e. split.
  - intros (xs & oe & M & S). cbn in M. now rewrite M.
  - intros S. exists (fst (source_means s)), (snd (source_means s)). split; [cbn; now destruct (source_means s)|exact S].
Qed.
Lemma switched_ended X A (s : source X) (s' : source A) (f : X -> cold A) : (forall x, lively (f x)) -> fst (source_means s) = [] -> source_means s' = ([], snd (source_means s)) -> alike (Switched (From s) f) (From s').
Proof.
  intros Hf E E'. apply same_alike; [apply lively_switched; [apply lively_source|exact Hf]|apply lively_source|].
  refine (same_trans (switched_source _ _) _). rewrite E. refine (same_trans (switched_nil _ _) _). intros vs e. cbn. rewrite E'. split; [intros [-> ->]; reflexivity|intros [= <- <-]; now split].
Qed.

Lemma kept_means A (c : cold A) : same (means (concat_seq_ [c; From Never])) (kept (means c)).
Proof.
  intros vs e. rewrite means_concat_seq. split.
  - intros T. inversion T as [|x r us ws e' H1 H2|x r us e' H1 H2]; subst.
    + inversion H2 as [|x r us' ws' e' H3 H4|x r us' e' H3 H4]; subst; [cbn in H3; discriminate|]. cbn in H3. injection H3 as <- <-. rewrite app_nil_r. cbn. now right.
    + destruct e as [|z|]; [now left|exact H1|now elim H2].
  - intros K. destruct e as [|z|]; cbn in K; [destruct K as [K|K]| |contradiction].
    + apply turn_last; [exact K|discriminate].
    + rewrite <- (app_nil_r vs). apply turn_next; [exact K|]. apply turn_last; [reflexivity|discriminate].
    + apply turn_last; [exact K|discriminate].
Qed.
Lemma cutoff_means A B (c : cold A) (b : B) : same (means (take_until_of c (From (Single b)))) (cutoff (means c)).
Proof.
  intros vs e. split.
  - intros (xs & da & ys & db & Mc & [= <- <-] & [(-> & -> & N)|[(Pv & _ & ->)|[(x & _ & H & _)|(_ & _ & H & _)]]]); try discriminate.
    + destruct da as [|z|]; [now elim N|exact Mc|]. exists xs, Completed. auto using prefix_refl.
    + exists xs, da. auto.
  - intros K. destruct e as [|z|]; cbn in K; [contradiction| |].
    + exists vs, (Failed z), [b], Completed. split; [exact K|]. split; [reflexivity|]. left. repeat split. discriminate.
    + destruct K as (us & d & K & Pv). exists us, d, [b], Completed. split; [exact K|]. split; [reflexivity|]. right. left. repeat split; [exact Pv|discriminate].
Qed.
Lemma lively_kept A (c : cold A) : lively c -> lively (concat_seq_ [c; From Never]).
Proof.
  intros Hc. assert (R : regular (concat_seq_ [c; From Never])).
  { split; [right; split; [reflexivity|]|split; [exact I|]].
    - apply reliable_source. discriminate.
    - intros [|[|i]]; cbn; [apply Hc|exact I|destruct i; exact I]. }
  split; [exact R|]. apply regular_productive; [exact R|]. destruct (lively_some Hc) as (vs & e & M). exists vs, (match e with Completed => Open | d => d end). apply kept_means.
  destruct e as [|z|]; cbn; auto.
Qed.

Lemma parts_snoc X A (M : X -> list A -> ending -> Prop) a x : parts M (a ++ [x]) = map (fun y => cutoff (M y)) a ++ [kept (M x)].
Proof.
  induction a as [|y a IH]; [reflexivity|]. cbn [app map]. rewrite <- IH. cbn [parts]. destruct (a ++ [x]) eqn:E; [destruct a; discriminate|reflexivity].
Qed.
Lemma switched_cuts X A (f : X -> cold A) a x : (forall y, lively (f y)) ->
  alike (flat_map_latest_ f (From (of_seq (a ++ [x])))) (merge_seq_ (map (fun y => take_until_of (f y) (From (Single tt))) a ++ [concat_seq_ [f x; From Never]])).
Proof.
  intros Hf. assert (L : Forall lively (map (fun y => take_until_of (f y) (From (Single tt))) a ++ [concat_seq_ [f x; From Never]])).
  { apply Forall_app. split; [|constructor; [now apply lively_kept|constructor]]. apply Forall_map, Forall_forall. intros y _. apply lively_pair; [apply Hf|apply lively_source]. }
  intros l. rewrite (latest_switched f (lively_source _) l). revert l. apply same_alike; [apply lively_switched; [apply lively_source|exact Hf]|now apply lively_merge_seq|].
  refine (same_trans (switched_source _ _) _). cbn [of_seq source_means fst snd]. refine (same_trans (switched_sw _ _ _) _); [destruct a; discriminate|].
  refine (same_trans (merged_unit_left _) _). refine (same_trans _ (same_sym (means_merge_seq L))). rewrite parts_snoc, map_app, map_map. cbn [map].
  refine (same_trans (all_merged_app _ _) _). refine (same_trans _ (same_sym (all_merged_app _ _))). apply merged_same.
  - apply all_merged_same. intros y _. apply same_sym, cutoff_means.
  - apply merged_same; [apply same_sym, kept_means|apply same_refl].
Qed.

Lemma operator_of_switched X A B (g : stage A B) (f : X -> cold A) c : elementwise g -> lively c -> (forall x, lively (f x)) ->
  alike (Stage g (Switched c f)) (Switched c (fun x => Stage g (f x))).
Proof.
  intros Hg Hc Hf. destruct (stage_run g Hg) as [m Em].
  apply same_alike; [now apply lively_stage, lively_switched|apply lively_switched; [exact Hc|intros x; now apply lively_stage]|].
  assert (E : forall x, same (means (Stage g (f x))) (runs m (means (f x)))).
  { intros x vs e. split; intros (us & d & M & R); exists us, d; (split; [exact M|]); [rewrite <- Em|rewrite Em]; exact R. }
  intros vs e. split.
  - intros (us & d & (xs & oe & M & S) & R). exists xs, oe. split; [exact M|]. apply (switched_same _ _ oe xs E), runs_switched. exists us, d. split; [exact S|]. now rewrite <- Em.
  - intros (xs & oe & M & S). apply (switched_same _ _ oe xs E), runs_switched in S as (us & d & S & R). exists us, d. split; [now exists xs, oe|]. now rewrite Em.
Qed.

Lemma latest_single X A (f : X -> cold A) v : (forall x, lively (f x)) -> alike (flat_map_latest_ f (From (Single v))) (concat_seq_ [f v; From Never]).
Proof.
  intros Hf l. rewrite (latest_switched f (lively_source _) l). revert l. apply same_alike; [apply lively_switched; [apply lively_source|exact Hf]|now apply lively_kept|].
  refine (same_trans (switched_source _ _) _). cbn [source_means fst snd]. refine (same_trans (switched_sw _ _ _) _); [discriminate|].
  refine (same_trans (merged_unit_left _) _). refine (same_trans _ (same_sym (kept_means _))). cbn. apply merged_unit.
Qed.
