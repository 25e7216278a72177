(** * Operators of two observables in programs: proofs. *)
From Verif Require Import Ops3Proofs LawsProofs PairProofs TimedProofs ProgramsProofs Programs2Proofs.
From Verif Require Export Programs3.
Set Implicit Arguments.

(** ** Exactly these outcomes *)
Lemma pair_is A B C (k : pairing A B C) c d : regular c -> regular d -> forall l,
  makes (Pair k c d) l <->
  exists xs da ys db vs e, outcome c xs da /\ outcome d ys db /\ paired k xs da ys db vs e /\ l = trace vs e.
Proof.
  intros Rc Rd l. assert (R : regular (Pair k c d)) by now split. rewrite (regular_makes _ R l). split.
  - intros (vs & e & (xs & da & ys & db & Mc & Md & P) & ->). exists xs, da, ys, db, vs, e.
    split; [now apply outcome_means|]. split; [now apply outcome_means|auto].
  - intros (xs & da & ys & db & vs & e & Oc & Od & P & ->). exists vs, e. split; [|reflexivity]. exists xs, da, ys, db.
    split; [now apply outcome_means|]. split; [now apply outcome_means|exact P].
Qed.

(** Whatever the two do, something comes of it. *)
Lemma paired_some A B C (k : pairing A B C) xs da ys db : exists vs e, paired k xs da ys db vs e.
Proof.
  assert (X : forall A B (xs : list A) da (ys : list B) db, exists arr e, first_end xs da ys db arr e).
  { clear. intros A B xs da ys db. 
    assert (L : forall (xs : list A) (ys : list B), lefts (map (@inl A B) xs ++ map inr ys) = xs).
    { clear. intros xs ys. rewrite lefts_app, lefts_inl. replace (lefts (map inr ys)) with (@nil A); [apply app_nil_r|]. induction ys; [reflexivity|assumption]. }
    assert (R : forall (xs : list A) (ys : list B), rights (map (@inl A B) xs ++ map inr ys) = ys).
    { clear. intros xs ys. unfold rights. induction xs as [|x xs IH]; [|exact IH]. induction ys as [|y ys IH]; [reflexivity|]. cbn. f_equal. exact IH. }
    exists (map inl xs ++ map inr ys). unfold first_end. rewrite L, R.
    destruct da as [|x|]; [destruct db as [|y|]|..].
    - exists Open. repeat split; apply prefix_refl.
    - exists (Failed y). repeat split; try apply prefix_refl. now right.
    - exists Completed. repeat split; try apply prefix_refl. now right.
    - exists (Failed x). repeat split; try apply prefix_refl. now left.
    - exists Completed. repeat split; try apply prefix_refl. now left. }
  revert xs ys. destruct k as [A B|A B|A B]; intros xs ys.
  - destruct (X _ _ xs da ys db) as (arr & e & F). exists (combined arr), e. now exists arr.
  - destruct (X _ _ xs da ys db) as (arr & e & F). exists (with_latest arr), e. now exists arr.
  - destruct da as [|x|]; [|exists xs, (Failed x); left; repeat split; discriminate|exists xs, Completed; left; repeat split; discriminate].
    destruct ys as [|y ys]; [|exists xs, Completed; right; left; repeat split; [apply prefix_refl|discriminate]].
    destruct db as [|y|].
    + exists xs, Open. right. right. right. auto 10.
    + exists xs, (Failed y). right. right. left. exists y. repeat split. apply prefix_refl.
    + exists xs, Open. right. right. right. auto 10.
Qed.

Lemma lively_pair A B C (k : pairing A B C) c d : lively c -> lively d -> lively (Pair k c d).
Proof.
  intros Lc Ld. pose proof Lc as [Rc _]. pose proof Ld as [Rd _]. split; [now split|]. apply regular_productive; [now split|].
  destruct (lively_some Lc) as (xs & da & Mc). destruct (lively_some Ld) as (ys & db & Md).
  destruct (paired_some k xs da ys db) as (vs & e & P). exists vs, e, xs, da, ys, db. auto.
Qed.

Lemma pair_alike A B C (k : pairing A B C) c c' d d' : alike c c' -> alike d d' -> alike (Pair k c d) (Pair k c' d').
Proof.
  intros Hc Hd l. split; intros (ms & M1 & M2 & D); exists ms; (split; [now apply Hc|]); (split; [now apply Hd|exact D]).
Qed.

(** ** take_until *)
Section Until.
  Context {A : Type}.
  Implicit Types (P : list A -> ending -> Prop).
  Definition until {B} P (Q : list B -> ending -> Prop) (vs : list A) (e : ending) : Prop :=
    exists xs da ys db, P xs da /\ Q ys db /\ paired (PUntil A B) xs da ys db vs e.

  Lemma until_same B P P' (Q Q' : list B -> ending -> Prop) : same P P' -> same Q Q' -> same (until P Q) (until P' Q').
  Proof.
    intros HP HQ vs e. split; intros (xs & da & ys & db & H1 & H2 & H3); exists xs, da, ys, db;
      (split; [now apply HP|]); (split; [now apply HQ|exact H3]).
  Qed.

  (** Nothing comes from the other one. *)
  Lemma until_quiet B P (Q : list B -> ending -> Prop) : (exists db, Q [] db) -> (forall ys db, Q ys db -> ys = [] /\ (db = Open \/ db = Completed)) -> same (until P Q) P.
  Proof.
    intros [db0 Q0] H vs e. split.
    - intros (xs & da & ys & db & HP & HQ & U). apply H in HQ as [-> HQ].
      destruct U as [(-> & -> & _)|[(_ & U & _)|[(x & _ & _ & -> & _)|(-> & -> & _ & _ & ->)]]]; auto; [congruence|]. destruct HQ; discriminate.
    - intros HP. exists vs, e, [], db0. split; [exact HP|]. split; [exact Q0|].
      destruct (H _ _ Q0) as [_ D]. destruct e as [|x|]; [right; right; right; auto 10|left; repeat split; discriminate|left; repeat split; discriminate].
  Qed.

  (** The one after the other, in both orders. *)
  Lemma until_until_incl B C P (Q : list B -> ending -> Prop) (R : list C -> ending -> Prop) vs e : until (until P Q) R vs e -> until (until P R) Q vs e.
  Proof.
    intros (us & d & zs & dc & (xs & da & ys & db & HP & HQ & U1) & HR & U2).
    assert (K : forall ws f, paired (PUntil A C) xs da zs dc ws f -> paired (PUntil A B) ws f ys db vs e -> until (until P R) Q vs e).
    { intros ws f K1 K2. exists ws, f, ys, db. split; [exists xs, da, zs, dc; auto|auto]. }
    destruct U2 as [(-> & -> & Ne)|[(p2 & n2 & ->)|[(x & p2 & -> & -> & ->)|(-> & -> & -> & D2 & ->)]]].
    - (* the inner one ended *)
      destruct U1 as [(-> & -> & _)|[(p1 & n1 & ->)|[(x & p1 & -> & -> & ->)|(-> & -> & -> & _ & ->)]]].
      + apply (K xs da); left; auto.
      + destruct (@paired_some A C A (PUntil A C) xs da zs dc) as (ws & f & W).
        destruct W as [(-> & -> & W)|[(W & n & ->)|[(y & W & -> & -> & ->)|(-> & -> & -> & D & ->)]]].
        * apply (K xs da); [left; auto|]. right; left; auto.
        * apply (K xs Completed); [right; left; repeat split; auto; apply prefix_refl|right; left; auto].
        * apply (K xs (Failed y)); [right; right; left; exists y; repeat split; apply prefix_refl|right; left; auto].
        * apply (K xs Open); [right; right; right; auto 10|right; left; auto].
      + destruct (@paired_some A C A (PUntil A C) xs da zs dc) as (ws & f & W).
        destruct W as [(-> & -> & W)|[(W & n & ->)|[(y & W & -> & -> & ->)|(-> & -> & -> & D & ->)]]].
        * apply (K xs da); [left; auto|]. right; right; left. exists x. auto.
        * apply (K xs Completed); [right; left; repeat split; auto; apply prefix_refl|right; right; left; exists x; auto].
        * apply (K xs (Failed y)); [right; right; left; exists y; repeat split; apply prefix_refl|right; right; left; exists x; auto].
        * apply (K xs Open); [right; right; right; auto 10|right; right; left; exists x; auto].
      + congruence.
    - (* the second notifier *)
      apply (K vs Completed); [right; left; repeat split; auto|left; repeat split; auto; discriminate].
      destruct U1 as [(-> & -> & _)|[(p1 & n1 & ->)|[(x & p1 & -> & -> & ->)|(-> & -> & -> & _ & ->)]]]; auto; eapply prefix_trans; eauto.
    - apply (K vs (Failed x)); [right; right; left; exists x; repeat split; auto|left; repeat split; auto; discriminate].
      destruct U1 as [(-> & -> & _)|[(p1 & n1 & ->)|[(y & p1 & -> & -> & ->)|(-> & -> & -> & _ & ->)]]]; auto; eapply prefix_trans; eauto.
    - destruct U1 as [(-> & E & F)|[(p1 & n1 & E)|[(y & p1 & -> & -> & E)|(-> & -> & -> & D1 & _)]]]; try congruence.
      apply (K xs Open); right; right; right; auto 10.
  Qed.
  Lemma until_until B C P (Q : list B -> ending -> Prop) (R : list C -> ending -> Prop) : same (until (until P Q) R) (until (until P R) Q).
  Proof. intros vs e. split; apply until_until_incl. Qed.

  (** Two notifiers, or both of them merged. *)
  Lemma until_merged B P (Q R : list B -> ending -> Prop) : same (until (until P Q) R) (until P (merged Q R)).
  Proof.
    intros vs e. split.
    - intros (us & d & zs & dc & (xs & da & ys & db & HP & HQ & U1) & HR & U2).
      assert (M : exists ms dm, merged Q R ms dm /\ (ys <> [] \/ zs <> [] -> ms <> [] \/ True)).
      { destruct (@merged_begin _ Q R ys db zs dc [] [] [] HQ HR) as (l' & e' & _ & M); try apply prefix_nil; [constructor|]. exists l', e'. auto. }
      assert (K : forall ms dm, merged Q R ms dm -> paired (PUntil A B) xs da ms dm vs e -> until P (merged Q R) vs e).
      { intros ms dm K1 K2. exists xs, da, ms, dm. auto. }
      assert (Ny : ys <> [] -> exists ms dm, merged Q R ms dm /\ ms <> []).
      { intros N. destruct (@merged_begin _ Q R ys db zs dc ys [] ys HQ HR) as (l' & e' & [q ->] & M'); [apply prefix_refl|apply prefix_nil|apply shuffle_nil|].
        eexists _, e'. split; [exact M'|]. destruct ys; [congruence|discriminate]. }
      assert (Nz : zs <> [] -> exists ms dm, merged Q R ms dm /\ ms <> []).
      { intros N. destruct (@merged_begin _ Q R ys db zs dc [] zs zs HQ HR) as (l' & e' & [q ->] & M'); [apply prefix_nil|apply prefix_refl|apply shuffle_comm, shuffle_nil|].
        eexists _, e'. split; [exact M'|]. destruct zs; [congruence|discriminate]. }
      assert (Fy : forall x, ys = [] -> db = Failed x -> merged Q R [] (Failed x)).
      { intros x -> ->. exists [], (Failed x), zs, dc. repeat split; auto. left. split; [reflexivity|]. exists []. split; [apply prefix_nil|constructor]. }
      assert (Fz : forall x, zs = [] -> dc = Failed x -> merged Q R [] (Failed x)).
      { intros x -> ->. exists ys, db, [], (Failed x). repeat split; auto. right. split; [reflexivity|]. exists []. split; [apply prefix_nil|constructor]. }
      destruct M as (ms0 & dm0 & M0 & _).
      destruct U2 as [(-> & -> & Ne)|[(p2 & n2 & ->)|[(x & p2 & E1 & E2 & ->)|(-> & -> & -> & D2 & ->)]]].
      + destruct U1 as [(-> & -> & _)|[(p1 & n1 & ->)|[(x & p1 & E1 & E2 & ->)|(-> & -> & -> & _ & ->)]]].
        * apply (K _ _ M0). left; auto.
        * destruct (Ny n1) as (ms & dm & M & N). apply (K _ _ M). right; left; auto.
        * apply (K _ _ (Fy x E1 E2)). right; right; left. exists x; auto.
        * congruence.
      + destruct (Nz n2) as (ms & dm & M & N). apply (K _ _ M). right; left. repeat split; auto.
        destruct U1 as [(-> & -> & _)|[(p1 & n1 & ->)|[(x & p1 & -> & -> & ->)|(-> & -> & -> & _ & ->)]]]; auto; eapply prefix_trans; eauto.
      + apply (K _ _ (Fz x E1 E2)). right; right; left. exists x; repeat split; auto.
        destruct U1 as [(-> & -> & _)|[(p1 & n1 & ->)|[(y & p1 & -> & -> & ->)|(-> & -> & -> & _ & ->)]]]; auto; eapply prefix_trans; eauto.
      + destruct U1 as [(-> & E & F)|[(p1 & n1 & E)|[(y & p1 & -> & -> & E)|(-> & -> & -> & D1 & _)]]]; try congruence.
        assert (M : exists dm, merged Q R [] dm /\ (dm = Open \/ dm = Completed)).
        { destruct D1 as [-> | ->], D2 as [-> | ->]; [exists Open|exists Open|exists Open|exists Completed]; (split; [|auto]); eexists [], _, [], _; (split; [exact HQ|]); (split; [exact HR|]); repeat split; auto; constructor. }
        destruct M as (dm & M & D). apply (K _ _ M). right; right; right. auto.
    - intros (xs & da & ms & dm & HP & (ys & db & zs & dc & HQ & HR & M) & U).
      assert (K : forall ws f, paired (PUntil A B) xs da ys db ws f -> paired (PUntil A B) ws f zs dc vs e -> until (until P Q) R vs e).
      { intros ws f K1 K2. exists ws, f, zs, dc. split; [exists xs, da, ys, db; auto|auto]. }
      assert (Some1 : exists ws f, paired (PUntil A B) xs da ys db ws f /\ ws = xs).
      { destruct (@paired_some A B A (PUntil A B) xs da ys db) as (ws & f & W).
        destruct W as [(-> & -> & W)|[(W & n & ->)|[(y & W & -> & -> & ->)|(-> & -> & -> & D & ->)]]].
        - exists xs, da. split; [left; auto|auto].
        - exists xs, Completed. split; [right; left; repeat split; auto; apply prefix_refl|auto].
        - exists xs, (Failed y). split; [right; right; left; exists y; repeat split; apply prefix_refl|auto].
        - exists xs, Open. split; [right; right; right; auto 10|auto]. }
      destruct U as [(-> & -> & Ne)|[(p & n & ->)|[(x & p & -> & -> & ->)|(-> & -> & -> & D & ->)]]].
      + apply (K xs da); left; auto.
      + assert (N : ys <> [] \/ zs <> []).
        { destruct ys as [|y ys]; [|left; discriminate]. destruct zs as [|z zs]; [|right; discriminate]. exfalso. apply n.
          assert (S0 : forall l : list B, shuffle [] [] l -> l = []) by (intros l S; now inversion S).
          destruct dm as [|x|].
          - destruct M as [_ S]. auto.
          - destruct M as [(_ & ws' & [q E] & S)|(_ & us' & [q E] & S)]; [destruct ws'; [auto|discriminate]|destruct us'; [auto|discriminate]].
          - destruct M as (_ & _ & S). auto. }
        destruct N as [N|N].
        * apply (K vs Completed); [right; left; auto|left; repeat split; discriminate].
        * destruct Some1 as (ws & f & W & ->). apply (K xs f W). right; left; auto.
      + destruct M as [(-> & ws' & _ & S)|(-> & us' & _ & S)]; inversion S; subst.
        * apply (K vs (Failed x)); [right; right; left; exists x; auto|left; repeat split; discriminate].
        * destruct Some1 as (ws & f & W & ->). apply (K xs f W). right; right; left; exists x; auto.
      + assert (N : ys = [] /\ zs = [] /\ (db = Open \/ db = Completed) /\ (dc = Open \/ dc = Completed)).
        { destruct D as [-> | ->].
          - destruct M as [M S]. inversion S; subst. intuition.
          - destruct M as (-> & -> & S). inversion S; subst. auto 10. }
        destruct N as (-> & -> & D1 & D2). apply (K xs Open); right; right; right; auto 10.
  Qed.
End Until.

(** An operator that treats every element by itself, or take, behind take_until or before it. *)
Lemma until_runs A B C (m : A -> res (option C)) P (Q : list B -> ending -> Prop) : same (runs m (until P Q)) (until (runs m P) Q).
Proof.
  intros vs e. split.
  - intros (us & d & (xs & da & ys & db & HP & HQ & U) & R). destruct (Programs2Proofs.run m xs da) as [bs f] eqn:E. exists bs, f, ys, db. split; [now exists xs, da|]. split; [exact HQ|].
    assert (K : prefix us xs -> d <> Open -> (bs = vs /\ f = e /\ e <> Open) \/ prefix vs bs /\ e = d).
    { intros Pu Nd. destruct (run_inv _ _ _ R) as [[G ->]|(x & G & ->)].
      - right. split; [|reflexivity]. change bs with (fst (bs, f)). rewrite <- E. exact (goes_begin da Pu G).
      - left. pose proof (raises_more Pu G) as G'. rewrite (run_raises da G') in E. injection E as <- <-. repeat split. discriminate. }
    destruct U as [(-> & -> & Ne)|[(p & n & ->)|[(x & p & -> & -> & ->)|(-> & -> & -> & D & ->)]]].
    + left. rewrite E in R. injection R as <- <-. repeat split. destruct (run_inv _ _ _ E) as [[_ ->]|(x & _ & ->)]; [exact Ne|discriminate].
    + destruct (K p) as [(-> & -> & N)|(Pv & ->)]; [discriminate|left; auto|right; left; auto].
    + destruct (K p) as [(-> & -> & N)|(Pv & ->)]; [discriminate|left; auto|right; right; left; exists x; auto].
    + rewrite E in R. injection R as <- <-. destruct f as [|x|]; [right; right; right; auto 10|left; repeat split; discriminate|left; repeat split; discriminate].
  - intros (bs & f & ys & db & (xs & da & HP & E) & HQ & U).
    assert (K : forall us d, paired (PUntil A B) xs da ys db us d -> Programs2Proofs.run m us d = (vs, e) -> runs m (until P Q) vs e).
    { intros us d K1 K2. exists us, d. split; [exists xs, da, ys, db; auto|exact K2]. }
    destruct U as [(-> & -> & Ne)|[(p & n & ->)|[(x & p & -> & -> & ->)|(-> & -> & -> & D & ->)]]].
    + destruct da as [|x|]; [|apply (K xs (Failed x)); [left; repeat split; discriminate|exact E]|apply (K xs Completed); [left; repeat split; discriminate|exact E]].
      destruct (run_inv _ _ _ E) as [[_ ->]|(y & G & ->)]; [congruence|].
      destruct (paired_some (PUntil A B) xs Open ys db) as (ws & d & W).
      destruct W as [(-> & -> & W)|[(W & n & ->)|[(z & W & -> & -> & ->)|(-> & _ & -> & D & ->)]]].
      * congruence.
      * apply (K xs Completed); [right; left; repeat split; auto; apply prefix_refl|apply run_raises; exact G].
      * apply (K xs (Failed z)); [right; right; left; exists z; repeat split; apply prefix_refl|apply run_raises; exact G].
      * apply (K xs Open); [right; right; right; auto 10|apply run_raises; exact G].
    + replace bs with (fst (Programs2Proofs.run m xs da)) in p by (now rewrite E). apply begin_goes in p as (us & p & G).
      apply (K us Completed); [right; left; auto|exact (run_goes _ G)].
    + replace bs with (fst (Programs2Proofs.run m xs da)) in p by (now rewrite E). apply begin_goes in p as (us & p & G).
      apply (K us (Failed x)); [right; right; left; exists x; auto|exact (run_goes _ G)].
    + destruct (run_inv _ _ _ E) as [[_ <-]|(y & G & Ey)]; [|discriminate]. apply (K xs Open); [right; right; right; auto 10|exact E].
Qed.

Lemma firstn_prefix A n (l : list A) : prefix (firstn n l) l.
Proof. exists (skipn n l). symmetry. apply firstn_skipn. Qed.
Lemma prefix_firstn A n (a b : list A) : prefix a b -> length a <= n -> prefix a (firstn n b).
Proof. intros [q ->] L. exists (firstn (n - length a) q). rewrite firstn_app. now rewrite (firstn_all2 a) by exact L. Qed.
Lemma firstn_of_prefix A n (a b : list A) : prefix a b -> n <= length a -> firstn n a = firstn n b.
Proof. intros [q ->] L. rewrite firstn_app. replace (n - length a) with 0 by lia. cbn. now rewrite app_nil_r. Qed.
Lemma prefix_length A (a b : list A) : prefix a b -> length a <= length b.
Proof. intros [q ->]. rewrite app_length. lia. Qed.

Definition taken {A} n (P : list A -> ending -> Prop) (vs : list A) (e : ending) : Prop := exists us d, P us d /\ result_of (STake A n) us d = (vs, e).
Lemma until_taken A B n P (Q : list B -> ending -> Prop) vs e : @taken A (S n) (until P Q) vs e -> until (taken (S n) P) Q vs e.
Proof.
  unfold taken. cbn [result_of].
  intros (us & d & (xs & da & ys & db & HP & HQ & U) & R). destruct (S n <=? length xs) eqn:L.
  + apply Nat.leb_le in L. exists (firstn (S n) xs), Completed, ys, db. split; [exists xs, da; split; [exact HP|]; apply Nat.leb_le in L; now rewrite L|]. split; [exact HQ|].
    destruct (S n <=? length us) eqn:M.
    * apply Nat.leb_le in M. injection R as <- <-. left. split; [|split; [reflexivity|discriminate]]. apply (@firstn_of_prefix _ (S n) us xs); [|exact M].
      destruct U as [(-> & _)|[(p & _)|[(x & p & _)|(-> & _)]]]; auto; apply prefix_refl.
    * apply Nat.leb_gt in M. injection R as <- <-.
      destruct U as [(-> & _)|[(p & q & ->)|[(x & p & -> & -> & ->)|(-> & _)]]]; try lia.
      -- right. left. split; [apply prefix_firstn; [exact p|lia]|auto].
      -- right. right. left. exists x. split; [apply prefix_firstn; [exact p|lia]|auto].
  + exists xs, da, ys, db. split; [exists xs, da; rewrite L; auto|]. split; [exact HQ|].
    replace (S n <=? length us) with false in R; [injection R as <- <-; exact U|]. symmetry. apply Nat.leb_gt in L. apply Nat.leb_gt.
    destruct U as [(-> & _)|[(p & _)|[(x & p & _)|(-> & _)]]]; auto; apply prefix_length in p; lia.
Qed.

(** ** combine_latest and with_latest_from *)
Definition swap {A B} (x : A + B) : B + A := match x with inl a => inr a | inr b => inl b end.
Lemma prefixes_map X Y (f : X -> Y) (l : list X) : prefixes (map f l) = map (map f) (prefixes l).
Proof. unfold prefixes. rewrite map_length, map_map. apply map_ext. intros k. apply firstn_map. Qed.
Lemma last_left_swap A B (p : arrivals A B) : last_left (map swap p) = last_right p.
Proof.
  unfold last_left, last_right. generalize (@None B). induction p as [|[a|b] p IH]; intros acc; cbn; auto.
Qed.
Lemma last_right_swap A B (p : arrivals A B) : last_right (map swap p) = last_left p.
Proof.
  unfold last_left, last_right. generalize (@None A). induction p as [|[a|b] p IH]; intros acc; cbn; auto.
Qed.
Lemma lefts_swap A B (p : arrivals A B) : lefts (map swap p) = rights p.
Proof. unfold lefts, rights. induction p as [|[a|b] p IH]; cbn; auto. now rewrite IH. Qed.
Lemma rights_swap A B (p : arrivals A B) : rights (map swap p) = lefts p.
Proof. unfold lefts, rights. induction p as [|[a|b] p IH]; cbn; auto. now rewrite IH. Qed.
Definition turned {A B} (p : A * B) : B * A := (snd p, fst p).
Lemma combined_swap A B (arr : arrivals A B) : combined (map swap arr) = map turned (combined arr).
Proof.
  assert (E : forall p : arrivals A B, both (map swap p) = option_map turned (both p)).
  { intros p. unfold both. rewrite last_left_swap, last_right_swap. now destruct (last_left p), (last_right p). }
  unfold combined. rewrite prefixes_map. induction (prefixes arr) as [|p l IH]; [reflexivity|]. cbn. rewrite E. destruct (both p); cbn; now rewrite IH.
Qed.
Lemma first_end_swap A B xs da ys db (arr : arrivals A B) e : first_end xs da ys db arr e -> first_end ys db xs da (map swap arr) e.
Proof. intros (H1 & H2 & H3). unfold first_end. rewrite lefts_swap, rights_swap. split; [exact H2|]. split; [exact H1|]. destruct e; intuition. Qed.
Lemma map_ok A B (f : A -> B) vs e : result_of (SMap (fun a => Ok (f a))) vs e = (map f vs, e).
Proof. cbn. replace (results (fun a => Ok (f a)) vs) with (map f vs, @None exn); [reflexivity|]. induction vs as [|v vs IH]; [reflexivity|]. cbn. now rewrite <- IH. Qed.
Lemma turned_turned A B (l : list (A * B)) : map turned (map turned l) = l.
Proof. rewrite map_map. rewrite <- map_id. apply map_ext. now intros [a b]. Qed.
Lemma swap_swap A B (l : arrivals A B) : map swap (map swap l) = l.
Proof. rewrite map_map. rewrite <- map_id. apply map_ext. now intros [a|b]. Qed.

Lemma combine_commutes A B (c : cold A) (d : cold B) : lively c -> lively d ->
  alike (Stage (SMap (fun p => Ok (snd p, fst p))) (Pair (PCombine A B) c d)) (Pair (PCombine B A) d c).
Proof.
  intros Lc Ld. apply same_alike; [apply lively_stage; now apply lively_pair|now apply lively_pair|]. intros vs e. split.
  - intros (us & f & (xs & da & ys & db & Mc & Md & arr & F & ->) & R). rewrite (@map_ok _ _ (@turned A B)) in R. injection R as <- <-.
    exists ys, db, xs, da. split; [exact Md|]. split; [exact Mc|]. exists (map swap arr). split; [exact (first_end_swap F)|]. symmetry. apply combined_swap.
  - intros (ys & db & xs & da & Md & Mc & arr & F & ->). exists (map turned (combined arr)), e. split.
    + exists xs, da, ys, db. split; [exact Mc|]. split; [exact Md|]. exists (map swap arr). split; [exact (first_end_swap F)|]. symmetry. apply combined_swap.
    + rewrite (@map_ok _ _ (@turned A B)). now rewrite turned_turned.
Qed.

Lemma no_rights A B (arr : arrivals A B) : rights arr = [] -> arr = map inl (lefts arr).
Proof. induction arr as [|[a|b] arr IH]; intros E; [reflexivity| |discriminate]. cbn. f_equal. exact (IH E). Qed.
Lemma right_of_none A B (p : arrivals A B) : (forall b, ~ In (inr b) p) -> last_right p = None.
Proof. unfold last_right. induction p as [|[a|b] p IH]; intros H; [reflexivity| |elim (H b); now left]. cbn. apply IH. intros b Hb. apply (H b). now right. Qed.
Lemma in_prefixes X (l p : list X) x : In p (prefixes l) -> In x p -> In x l.
Proof. intros H Hx. apply in_map_iff in H as (k & <- & _). rewrite <- (firstn_skipn k l). apply in_or_app. now left. Qed.
Lemma none_somes X Y (f : X -> option Y) l : (forall x, In x l -> f x = None) -> somes (map f l) = [].
Proof. induction l as [|x l IH]; intros H; [reflexivity|]. cbn. rewrite (H x (or_introl eq_refl)). apply IH. intros y Hy. apply H. now right. Qed.
Lemma alone_combined A B (arr : arrivals A B) : rights arr = [] -> combined arr = [] /\ with_latest arr = [].
Proof.
  intros E. assert (N : forall p, In p (prefixes arr) -> last_right p = None).
  { intros p Hp. apply right_of_none. intros b Hb. pose proof (@in_prefixes _ _ _ _ Hp Hb) as Hb'. rewrite (@no_rights _ _ _ E) in Hb'. apply in_map_iff in Hb' as (? & ? & _). discriminate. }
  split; apply none_somes; intros p Hp; [unfold both|unfold sampled]; rewrite (N p Hp).
  - now destruct (last_left p).
  - destruct (rev p) as [|[a|b] r]; reflexivity.
Qed.

(** The second source has no elements: no pairs; it ends when the first of the two does. *)
Lemma silent_end A B (xs : list A) da db (arr : arrivals A B) e : first_end xs da [] db arr e -> rights arr = [] /\ ends_first da db e.
Proof. intros (H1 & [q H2] & H3). split; [destruct (rights arr); [reflexivity|discriminate]|]. destruct e; unfold ends_first; intuition. Qed.
Lemma end_silent A B (xs : list A) da db e : ends_first da db e -> exists arr : arrivals A B, first_end xs da [] db arr e /\ rights arr = [].
Proof.
  intros H. exists (map inl xs). assert (R : rights (map (@inl A B) xs) = []) by (unfold rights; induction xs as [|x xs IH]; [reflexivity|exact IH]).
  split; [|exact R]. unfold first_end. rewrite lefts_inl, R. split; [apply prefix_refl|]. split; [apply prefix_refl|]. destruct e; unfold ends_first in H; intuition.
Qed.
Lemma combine_silent A B xs da db vs e : paired (PCombine A B) xs da [] db vs e <-> vs = [] /\ ends_first da db e.
Proof.
  split.
  - intros (arr & F & ->). destruct (silent_end F) as [R E]. split; [exact (proj1 (@alone_combined _ _ _ R))|exact E].
  - intros [-> E]. destruct (@end_silent A B xs _ _ _ E) as (arr & F & R). exists arr. split; [exact F|]. symmetry. exact (proj1 (@alone_combined _ _ _ R)).
Qed.
Lemma with_silent A B xs da db vs e : paired (PWith A B) xs da [] db vs e <-> vs = [] /\ ends_first da db e.
Proof.
  split.
  - intros (arr & F & ->). destruct (silent_end F) as [R E]. split; [exact (proj2 (@alone_combined _ _ _ R))|exact E].
  - intros [-> E]. destruct (@end_silent A B xs _ _ _ E) as (arr & F & R). exists arr. split; [exact F|]. symmetry. exact (proj2 (@alone_combined _ _ _ R)).
Qed.

(** ** As laws of programs *)
Lemma means_until A B (c : cold A) (d : cold B) : same (means (Pair (PUntil A B) c d)) (until (means c) (means d)).
Proof. intros vs e. reflexivity. Qed.

Lemma until_never A B (c : cold A) : lively c -> alike (Pair (PUntil A B) c (From Never)) c.
Proof.
  intros L. apply same_alike; [apply lively_pair; [exact L|apply lively_source]|exact L|]. eapply same_trans; [apply means_until|]. apply until_quiet; [now exists Open|].
  intros ys db M. cbn in M. injection M as <- <-. auto.
Qed.
Lemma until_empty A B (c : cold A) : lively c -> alike (Pair (PUntil A B) c (From Empty)) c.
Proof.
  intros L. apply same_alike; [apply lively_pair; [exact L|apply lively_source]|exact L|]. eapply same_trans; [apply means_until|]. apply until_quiet; [now exists Completed|].
  intros ys db M. cbn in M. injection M as <- <-. auto.
Qed.
Lemma until_single A B (c : cold A) (y : B) : lively c -> forall l,
  makes (Pair (PUntil A B) c (From (Single y))) l <->
  exists vs e, outcome c vs e /\ (e <> Open /\ l = trace vs e \/ exists us, prefix us vs /\ l = trace us Completed).
Proof.
  intros L l. rewrite (pair_is _ _ _ (proj1 L) (proj1 (lively_source (Single y))) l). split.
  - intros (xs & da & ys & db & vs & e & Oc & Od & U & ->). apply (outcome_same (lively_source _)) in Od. cbn in Od. injection Od as <- <-. exists xs, da. split; [exact Oc|].
    destruct U as [(-> & -> & N)|[(p & _ & ->)|[(x & _ & E & _)|(_ & _ & E & _)]]]; try discriminate; eauto.
  - intros (vs & e & Oc & [(N & ->)|(us & p & ->)]).
    + exists vs, e, [y], Completed, vs, e. split; [exact Oc|]. split; [now apply (outcome_same (lively_source _))|]. split; [left; auto|reflexivity].
    + exists vs, e, [y], Completed, us, Completed. split; [exact Oc|]. split; [now apply (outcome_same (lively_source _))|]. split; [right; left; repeat split; auto; discriminate|reflexivity].
Qed.
Lemma until_fail A B (c : cold A) x : lively c -> forall l,
  makes (Pair (PUntil A B) c (From (Worker (WFail x)))) l <->
  exists vs e, outcome c vs e /\ (e <> Open /\ l = trace vs e \/ exists us, prefix us vs /\ l = trace us (Failed x)).
Proof.
  intros L l. rewrite (pair_is _ _ _ (proj1 L) (proj1 (@lively_source B (Worker (WFail x)))) l). split.
  - intros (xs & da & ys & db & vs & e & Oc & Od & U & ->). apply (outcome_same (lively_source _)) in Od. cbn in Od. injection Od as <- <-. exists xs, da. split; [exact Oc|].
    destruct U as [(-> & -> & N)|[(p & E & _)|[(z & p & E & [= <-] & ->)|(_ & _ & E & [H|H] & _)]]]; try discriminate; try congruence; eauto.
  - intros (vs & e & Oc & [(N & ->)|(us & p & ->)]).
    + exists vs, e, [], (Failed x), vs, e. split; [exact Oc|]. split; [now apply (outcome_same (lively_source _))|]. split; [left; auto|reflexivity].
    + exists vs, e, [], (Failed x), us, (Failed x). split; [exact Oc|]. split; [now apply (outcome_same (lively_source _))|]. split; [right; right; left; exists x; auto|reflexivity].
Qed.
Lemma until_order A B C (c : cold A) (d : cold B) (d' : cold C) : lively c -> lively d -> lively d' ->
  alike (Pair (PUntil A C) (Pair (PUntil A B) c d) d') (Pair (PUntil A B) (Pair (PUntil A C) c d') d).
Proof.
  intros Lc Ld Ld'. apply same_alike; [apply lively_pair; [now apply lively_pair|assumption]|apply lively_pair; [now apply lively_pair|assumption]|].
  intros vs e. exact (until_until (means c) (means d) (means d') vs e).
Qed.
Lemma until_merge A B (c : cold A) (d d' : cold B) : lively c -> lively d -> lively d' ->
  alike (Pair (PUntil A B) (Pair (PUntil A B) c d) d') (Pair (PUntil A B) c (merge_ d d')).
Proof.
  intros Lc Ld Ld'. apply same_alike; [apply lively_pair; [now apply lively_pair|assumption]|apply lively_pair; [assumption|now apply lively_merge]|].
  eapply same_trans; [exact (until_merged (means c) (means d) (means d'))|]. apply same_sym. apply until_same; [apply same_refl|now apply means_merge].
Qed.
Lemma operator_of_until A B C (g : stage A C) (c : cold A) (d : cold B) : elementwise g -> lively c -> lively d ->
  alike (Stage g (Pair (PUntil A B) c d)) (Pair (PUntil C B) (Stage g c) d).
Proof.
  intros Hg Lc Ld. destruct (stage_run g Hg) as [m Em]. apply same_alike; [apply lively_stage; now apply lively_pair|apply lively_pair; [now apply lively_stage|assumption]|].
  eapply same_trans; [apply (means_stage g m); exact Em|]. eapply same_trans; [exact (until_runs m (means c) (means d))|].
  apply same_sym. apply until_same; [now apply means_stage|apply same_refl].
Qed.
Lemma take_of_until A B n (c : cold A) (d : cold B) l : lively c -> lively d ->
  makes (Stage (STake A (S n)) (Pair (PUntil A B) c d)) l -> makes (Pair (PUntil A B) (Stage (STake A (S n)) c) d) l.
Proof.
  intros Lc Ld M. apply regular_makes in M; [|exact (proj1 (lively_stage _ (lively_pair _ Lc Ld)))]. destruct M as (vs & e & M & ->).
  apply regular_makes; [exact (proj1 (lively_pair _ (lively_stage _ Lc) Ld))|]. exists vs, e. split; [|reflexivity]. exact (until_taken (n := n) (P := means c) (Q := means d) M).
Qed.
Lemma latest_silent A B (c : cold A) (d : cold B) : lively c -> lively d -> (forall ys db, outcome d ys db -> ys = []) -> forall l,
  (makes (Pair (PCombine A B) c d) l <-> exists vs da db e, outcome c vs da /\ outcome d [] db /\ ends_first da db e /\ l = trace [] e) /\
  (makes (Pair (PWith A B) c d) l <-> exists vs da db e, outcome c vs da /\ outcome d [] db /\ ends_first da db e /\ l = trace [] e).
Proof.
  intros Lc Ld Hd l. split; rewrite (pair_is _ _ _ (proj1 Lc) (proj1 Ld) l); split.
  - intros (xs & da & ys & db & vs & e & Oc & Od & P & ->). pose proof (Hd _ _ Od) as ->. apply combine_silent in P as [-> E]. exists xs, da, db, e. auto.
  - intros (xs & da & db & e & Oc & Od & E & ->). exists xs, da, [], db, [], e. split; [exact Oc|]. split; [exact Od|]. split; [now apply combine_silent|reflexivity].
  - intros (xs & da & ys & db & vs & e & Oc & Od & P & ->). pose proof (Hd _ _ Od) as ->. apply with_silent in P as [-> E]. exists xs, da, db, e. auto.
  - intros (xs & da & db & e & Oc & Od & E & ->). exists xs, da, [], db, [], e. split; [exact Oc|]. split; [exact Od|]. split; [now apply with_silent|reflexivity].
Qed.

(** with_latest_from: one pair for each element of the first source, at most. *)
Lemma prefixes_snoc X (l : list X) x : prefixes (l ++ [x]) = prefixes l ++ [l ++ [x]].
Proof.
  unfold prefixes. rewrite app_length. cbn. rewrite Nat.add_1_r, seq_S, map_app. cbn. f_equal.
  - apply map_ext_in. intros k Hk. apply in_seq in Hk. rewrite firstn_app. replace (k - length l) with 0 by lia. cbn. apply app_nil_r.
  - f_equal. apply (@firstn_all2 _ (S (length l)) (l ++ [x])). rewrite app_length. cbn. lia.
Qed.
Lemma somes_app X (a b : list (option X)) : somes (a ++ b) = somes a ++ somes b.
Proof. induction a as [|[x|] a IH]; cbn; [reflexivity|now rewrite IH|exact IH]. Qed.
Lemma with_latest_part A B (arr : arrivals A B) : part_of (map fst (with_latest arr)) (lefts arr).
Proof.
  induction arr as [|x arr IH] using rev_ind; [apply part_nil|]. unfold with_latest in *. rewrite prefixes_snoc, map_app, somes_app, map_app, lefts_app.
  apply part_app; [exact IH|]. cbn. unfold sampled. rewrite rev_app_distr. cbn. destruct x as [a|b]; cbn; [|apply part_nil].
  destruct (last_right _); cbn; [apply part_keep, part_nil|apply part_drop, part_nil].
Qed.
Lemma with_latest_elements A B (c : cold A) (d : cold B) vs e : lively c -> lively d -> makes (Pair (PWith A B) c d) (trace vs e) ->
  exists xs da, outcome c xs da /\ part_of (map fst vs) xs.
Proof.
  intros Lc Ld M. apply pair_is in M; [|apply Lc|apply Ld]. destruct M as (xs & da & ys & db & us & f & Oc & _ & (arr & (P & _) & ->) & T).
  apply trace_inj in T as [-> _]. exists xs, da. split; [exact Oc|]. exact (part_trans (part_prefix P) (with_latest_part arr)).
Qed.
