(** * Property C92: a program shared by means of an AsyncSubject. *)
From Verif Require Import MulticastProofs Programs2Proofs Programs6Proofs ProgramsProofs BehindProofs.
Set Implicit Arguments.

(** A subscriber of the subject, through a chain of operators: it sees what the chain makes of the part of the outcome that comes after it
    was subscribed; if the program had ended before, what the chain makes of a source that never says anything. *)
Theorem C92_subscriber : forall A C (ch : chain A C) (c : cold A) h1 h2 b, sheltered c -> bounded c -> calm_front ch ->
  shares (h1 ++ BSub well_behaved (hung ch PEnd) :: h2) b -> ~ In (BUnsub (joined h1)) h2 -> at_rest b ->
  makes c (relayed (h1 ++ h2)) ->
  (exists us vs e l, relayed h1 = map OnNext us /\ outcome c (us ++ vs) e /\
     was_told ch (joined h1) b l /\ makes (over ch (only vs e)) l) \/
  (exists us e, e <> Open /\ relayed h1 = trace us e /\ outcome c us e /\
     exists l, was_told ch (joined h1) b l /\ makes (over ch (only [] Open)) l).
Proof. intros A C ch c h1 h2 b _. apply shared_rest. Qed.
Print Assumptions C92_subscriber.

(** One whose subscription is disposed sees what its chain makes of the calls from its subscription to its disposal, and nothing later. *)
Theorem C92_leaves : forall A C (ch : chain A C) h1 h2 h3 b vs e, calm_front ch ->
  shares (h1 ++ BSub well_behaved (hung ch PEnd) :: h2 ++ BUnsub (joined h1) :: h3) b -> ~ In (BUnsub (joined h1)) h2 -> at_rest b ->
  (forall n, In n (relayed h1) -> exists v, n = OnNext v) -> relayed h2 = trace vs e ->
  exists l, was_told ch (joined h1) b l /\ makes (over ch (only vs e)) l.
Proof.
  intros A C ch h1 h2 h3 b vs e Hf S U Q T. intros E. refine (@shared_left _ _ ch h1 h2 h3 b vs e Hf S U Q _ E). apply only_next, T.
Qed.
Print Assumptions C92_leaves.

(** All that are subscribed before the program starts see one and the same outcome of the program, each through its chain. *)
Theorem C92_one_outcome : forall A (c : cold A) h b, sheltered c -> bounded c -> shares h b -> at_rest b -> makes c (relayed h) ->
  exists vs e, outcome c vs e /\
    forall C (ch : chain A C) h1 h2, h = h1 ++ BSub well_behaved (hung ch PEnd) :: h2 -> calm_front ch ->
      relayed h1 = [] -> ~ In (BUnsub (joined h1)) h2 ->
      exists l, was_told ch (joined h1) b l /\ makes (over ch (only vs e)) l /\ makes (over ch c) l.
Proof.
  intros A c h b _ Hc S Q M. destruct (sound c Hc _ M) as (vs & e & _ & E). assert (O : outcome c vs e) by (unfold outcome; now rewrite <- E).
  exists vs, e. split; [exact O|]. intros C ch h1 h2 -> Hf E1 U. destruct (shared_told ch h1 h2 Hf S U) as (l & Ht & _ & H). exists l. split; [exact Ht|].
  assert (G : makes (over ch (only vs e)) l).
  { apply (H Q). rewrite E1. cbn. rewrite <- (to_end_trace vs e), <- E, relayed_app, E1. reflexivity. }
  split; [exact G|exact (@only_outcome _ _ ch c vs e l Hc O G)].
Qed.
Print Assumptions C92_one_outcome.

(** ... and at any moment each has seen a beginning of what its chain makes of one and the same outcome. *)
Theorem C92_moment : forall A (c : cold A) h b, sheltered c -> steady c -> shares h b -> so_far c (relayed h) ->
  exists vs e, outcome c vs e /\
    forall C (ch : chain A C) h1 h2, h = h1 ++ BSub well_behaved (hung ch PEnd) :: h2 -> calm_front ch ->
      relayed h1 = [] -> ~ In (BUnsub (joined h1)) h2 ->
      exists l l', was_told ch (joined h1) b l /\ makes (over ch (only vs e)) l' /\ prefix l l'.
Proof.
  intros A c h b _ Hs S M. destruct (continues c Hs _ M) as (vs & e & O & P). exists vs, e. split; [exact O|].
  intros C ch h1 h2 -> Hf E1 U. apply (@shared_begin _ _ ch h1 h2 b vs e Hf S U E1). rewrite relayed_app, E1 in P. exact P.
Qed.
Print Assumptions C92_moment.

(** So two subscribers with the same chain see the same, *)
Theorem C92_together : forall A C (ch : chain A C) (c : cold A) h b h1 h2 h1' h2', sheltered c -> bounded c -> calm_front ch ->
  shares h b -> at_rest b -> makes c (relayed h) ->
  h = h1 ++ BSub well_behaved (hung ch PEnd) :: h2 -> relayed h1 = [] -> ~ In (BUnsub (joined h1)) h2 ->
  h = h1' ++ BSub well_behaved (hung ch PEnd) :: h2' -> relayed h1' = [] -> ~ In (BUnsub (joined h1')) h2' ->
  exists l, was_told ch (joined h1) b l /\ was_told ch (joined h1') b l.
Proof.
  intros A C ch c h b h1 h2 h1' h2' Hw Hc Hf S Q M E1 E2 E3 F1 F2 F3. destruct (@C92_one_outcome A c h b Hw Hc S Q M) as (vs & e & _ & H).
  destruct (H C ch h1 h2 E1 Hf E2 E3) as (l & T & G & _). destruct (H C ch h1' h2' F1 Hf F2 F3) as (l' & T' & G' & _).
  apply only_makes in G. apply only_makes in G'. exists l. split; [exact T|]. congruence.
Qed.
Print Assumptions C92_together.

(** which two subscribers of the program itself need not. *)
Theorem C92_cold_refuted : exists (c : cold nat) l l', sheltered c /\ steady c /\ makes c l /\ makes c l' /\ l <> l'.
Proof.
  set (c := merge_ (From (of_seq [1])) (From (of_seq [2]))).
  assert (O : forall vs, shuffle [1] [2] vs -> Programs2.outcome c vs Completed).
  { intros vs Hv. apply (merge_is (lively_source (of_seq [1])) (lively_source (of_seq [2]))). exists vs, Completed. split; [|reflexivity]. exists [1], Completed, [2], Completed.
    split; [now apply makes_from_iff|]. split; [now apply makes_from_iff|]. auto. }
  exists c, (trace [1; 2] Completed), (trace [2; 1] Completed). split; [split; [exact I|intros [|[|[|i]]]; exact I]|].
  split; [split; [lia|split; [exact I|intros [|[|[|i]]]; exact I]]|]. split; [apply O; repeat constructor|]. split; [apply O; repeat constructor|discriminate].
Qed.
Print Assumptions C92_cold_refuted.

(** Every run of the program can be shared in this way, whatever has happened to the subject before, with every
    subscriber it has: so the theorems above are about something. *)
Theorem C92_every_run : forall A (h : list (blabel A)) b l, shares h b ->
  exists h' b', Forall (fun x => going x \/ exists n, x = BCall n) h' /\ shares (h ++ h') b' /\ at_rest b' /\ relayed h' = l.
Proof. intros A h b l S. exact (shares_calls S l). Qed.
Print Assumptions C92_every_run.

(** ... and new subscribers can come at any moment. *)
Theorem C92_joins : forall A C (ch : chain A C) (h : list (blabel A)) b, shares h b -> calm_front ch ->
  exists b', shares (h ++ [BSub well_behaved (hung ch PEnd)]) b' /\ was_told ch (joined h) b' [].
Proof. intros A C ch h b. apply shares_join. Qed.
Print Assumptions C92_joins.

(** ** Example: of_seq [1, 2] shared by map(+10) and take(1), and by a third that comes after the 1. *)
Definition plus_ten : chain nat nat := CCons (SMap (fun v => Ok (v + 10))) CNil.
Definition first : chain nat nat := CCons (STake nat 1) CNil.
Example C92_case : exists h1 h2 b, let h := h1 ++ BSub well_behaved (hung (@CNil nat) PEnd) :: h2 in
  shares h b /\ at_rest b /\ makes (From (of_seq [1; 2])) (relayed h) /\
  was_told plus_ten 0 b [OnNext 11; OnNext 12; OnCompleted] /\
  was_told first 1 b [OnNext 1; OnCompleted] /\
  was_told (@CNil nat) 2 b [OnNext 2; OnCompleted].
Proof.
  destruct (@C92_joins nat nat plus_ten [] _ (shares_nil _)) as (b1 & S1 & _); [cbn; repeat split; discriminate|].
  destruct (@C92_joins nat nat first _ _ S1) as (b2 & S2 & _); [cbn; auto|].
  destruct (@C92_every_run nat _ _ [OnNext 1] S2) as (g1 & b3 & G1 & S3 & _ & E1).
  destruct (@C92_joins nat nat CNil _ _ S3) as (b4 & S4 & _); [exact I|].
  destruct (@C92_every_run nat _ _ [OnNext 2; OnCompleted] S4) as (g2 & b5 & G2 & S5 & Q & E2).
  set (s1 := BSub well_behaved (hung plus_ten PEnd)) in *. set (s2 := BSub well_behaved (hung first PEnd)) in *. set (s3 := BSub well_behaved (hung (@CNil nat) PEnd)) in *.
  assert (E : relayed ((([s1] ++ [s2]) ++ g1) ++ s3 :: g2) = trace [1; 2] Completed) by (rewrite relayed_app; cbn [relayed flat_map app]; fold (relayed g1) (relayed g2); now rewrite E1, E2).
  exists (([s1] ++ [s2]) ++ g1), g2, b5. cbn zeta. fold s3. rewrite <- app_assoc in S5. cbn [app] in S5. split; [exact S5|]. split; [exact Q|].
  assert (M : makes (From (of_seq [1; 2])) (relayed ((([s1] ++ [s2]) ++ g1) ++ s3 :: g2))) by (rewrite E; now apply makes_from_iff).
  split; [exact M|].
  destruct (@C92_one_outcome nat (From (of_seq [1; 2])) _ _ I I S5 Q M) as (vs & e & O & H). apply makes_from_iff in O. apply trace_inj in O as [-> ->].
  assert (N : forall k, ~ In (BUnsub k) (g1 ++ s3 :: g2)) by (intros k F; apply in_app_iff in F as [F|[F|F]]; [exact (@running_unsub _ _ _ G1 F)|discriminate|exact (@running_unsub _ _ _ G2 F)]).
  split; [|split].
  - destruct (H _ plus_ten [] (s2 :: g1 ++ s3 :: g2) eq_refl) as (l & T & L & _); [cbn; repeat split; discriminate|reflexivity|intros [F|F]; [discriminate|exact (N _ F)]|].
    apply only_makes in L. subst l. exact T.
  - destruct (H _ first [s1] (g1 ++ s3 :: g2) eq_refl) as (l & T & L & _); [cbn; auto|reflexivity|apply N|]. apply only_makes in L. subst l. exact T.
  - assert (J : joined (s1 :: s2 :: g1) = 2).
    { unfold joined. cbn [flat_map app length s1 s2]. do 2 f_equal. clear -G1. induction G1 as [|x g [Hx|[n ->]] G1 IH]; [reflexivity| |exact IH]. destruct x; try contradiction; exact IH. }
    destruct (@C92_subscriber nat nat CNil (From (of_seq [1; 2])) (s1 :: s2 :: g1) g2 b5 I I I S5) as [(us & ws & e & l & F1 & F2 & F3 & F4)|(us & e & He & F1 & F2 & _)].
    + apply running_unsub, G2.
    + exact Q.
    + rewrite relayed_app in *. exact M.
    + cbn [relayed flat_map app s1 s2] in F1. fold (relayed g1) in F1. rewrite E1 in F1. destruct us as [|u [|? ?]]; try discriminate. injection F1 as <-.
      apply makes_from_iff in F2. apply trace_inj in F2 as [F2 ->]. injection F2 as ->. rewrite J in F3. apply only_makes in F4. subst l. exact F3.
    + cbn [relayed flat_map app s1 s2] in F1. fold (relayed g1) in F1. rewrite E1 in F1. destruct us as [|u [|? ?]], e; try discriminate; try congruence.
Qed.
