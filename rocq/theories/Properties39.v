(** * Property C80: programs. *)
From Verif Require Import Properties9 ColdProofs ColdCatchProofs LawsProofs Programs ProgramsProofs.
Set Implicit Arguments.

(** What a subscriber of a program sees, in whatever schedule, is something the program means. *)
Theorem C80_sound : forall A (c : cold A), sheltered c -> bounded c -> forall l, makes c l -> exists vs e, means c vs e /\ l = trace vs e.
Proof. intros A c _. exact (sound c). Qed.
Print Assumptions C80_sound.

(** If nothing in it runs at the same time as something else, it is exactly what the program means. *)
Theorem C80_exact : forall A (c : cold A), sheltered c -> one_at_a_time c -> forall l, makes c l <-> exists vs e, means c vs e /\ l = trace vs e.
Proof. intros A c _. exact (makes_means c). Qed.
Print Assumptions C80_exact.

(** Then the schedule makes no difference. *)
Theorem C80_determined : forall A (c : cold A), sheltered c -> one_at_a_time c -> forall l l', makes c l -> makes c l' -> l' = l.
Proof.
  intros A c _ Hc l l' H H'. apply (makes_means c Hc) in H as (vs & e & M & ->), H' as (vs' & e' & M' & ->).
  now destruct (determined c Hc _ _ _ _ M M') as [-> ->].
Qed.
Print Assumptions C80_determined.

(** ** Equals for equals, anywhere in a program, sequential or not. *)
Theorem C80_replace_in_operator : forall A B (g : stage A B) c d, sheltered (Stage g c) -> sheltered (Stage g d) ->
  alike c d -> alike (Stage g c) (Stage g d).
Proof. intros A B g c d _ _. exact (@alike_stage _ _ g c d). Qed.
Print Assumptions C80_replace_in_operator.

Theorem C80_replace_in_merge : forall X A maxc (c d : cold X) (f g : X -> cold A),
  alike c d -> (forall x, alike (f x) (g x)) -> alike (Inner maxc c f) (Inner maxc d g).
Proof. exact alike_inner. Qed.
Print Assumptions C80_replace_in_merge.

Theorem C80_replace_in_catch : forall A (c d : cold A) (f g : exn -> res (cold A)), alike c d ->
  (forall x, match f x, g x with Ok c', Ok d' => alike c' d' | Err y, Err z => y = z | _, _ => False end) ->
  alike (Caught c f) (Caught d g).
Proof. exact alike_caught. Qed.
Print Assumptions C80_replace_in_catch.

(** ** concat_map is a monad, for sources that do not fail. *)
Theorem C80_left_identity : forall X A (f : X -> cold A) v, (forall x, one_at_a_time (f x)) ->
  alike (concat_map_ f (From (Single v))) (f v).
Proof. exact left_identity. Qed.
Print Assumptions C80_left_identity.

Theorem C80_right_identity : forall X (c : cold X), one_at_a_time c -> reliable c ->
  alike (concat_map_ (fun x => From (Single x)) c) c.
Proof. exact right_identity. Qed.
Print Assumptions C80_right_identity.

Theorem C80_associativity : forall X Y A (f : X -> cold Y) (g : Y -> cold A) c, one_at_a_time c -> reliable c ->
  (forall x, one_at_a_time (f x) /\ reliable (f x) /\ productive (f x)) -> (forall y, one_at_a_time (g y)) ->
  alike (concat_map_ g (concat_map_ f c)) (concat_map_ (fun x => concat_map_ g (f x)) c).
Proof. exact associativity. Qed.
Print Assumptions C80_associativity.

(** map, filter, choose of what concat_map makes: of each observable by itself. *)
Theorem C80_operator_of_concat_map : forall X A B (g : stage A B) (f : X -> cold A) c, elementwise g -> (forall x, sheltered (Stage g (f x))) ->
  one_at_a_time c -> reliable c -> (forall x, one_at_a_time (f x) /\ productive (f x)) ->
  alike (Stage g (concat_map_ f c)) (concat_map_ (fun x => Stage g (f x)) c).
Proof. intros X A B g f c E _. now apply stage_concat_map. Qed.
Print Assumptions C80_operator_of_concat_map.

(** If the source fails, elements that came before the error may be lost:
    map raises at the second of the elements 1, 2. *)
Definition failing : cold nat := Stage (SMap (fun v => if v =? 2 then Err ValueError else Ok v)) (From (of_seq [1; 2])).

Theorem C80_right_identity_failing_refuted : exists c : cold nat, one_at_a_time c /\ ~ alike (concat_map_ (fun x => From (Single x)) c) c.
Proof.
  exists failing. split; [exact I|]. intros E.
  assert (M : makes failing [OnError ValueError]).
  { apply E. set (h := [LOuter (OnNext (1, 0)); LOuter (OnError ValueError); LWork; LWork; LInner 0 (OnNext 1); LInner 0 OnCompleted; LWork; LWork] : list (mlabel (nat * nat) nat)).
    exists [OnNext 1; OnError ValueError], (fun _ => [OnNext 1; OnCompleted]), h.
    destruct (fold_left (fun r l => match r with Some s => mstep 1 s l | None => None end) h (Some m_init)) as [s|] eqn:Er; [|vm_compute in Er; discriminate].
    exists s. pose proof (@mreach_run _ _ 1 h [] m_init s (mr_nil _) Er) as R. vm_compute in Er. injection Er as <-.
    split; [apply (proj2 (makes_means (Stage _ failing) I _)); exists [1], (Failed ValueError); split; [exists [1], (Failed ValueError); split; [exists [1; 2], Completed; now split|reflexivity]|reflexivity]|].
    split; [exact R|]. split; [|split; [|split]].
    - split; [intros l Hl ->; repeat (destruct Hl as [Hl|Hl]; [discriminate|]); contradiction|].
      split; [intros e Hl; repeat (destruct Hl as [Hl|Hl]; [discriminate|]); contradiction|]. split; [now exists []|].
      intros k o [Hk|Hk]; [discriminate|]. destruct Hk as [Hk|Hk]; [|repeat (destruct Hk as [Hk|Hk]; [discriminate|]); contradiction]. injection Hk as <- <-. now exists [].
    - split; [reflexivity|]. split; [|reflexivity].
      intros k o [Hk|Hk]; [discriminate|]. destruct Hk as [Hk|Hk]; [|repeat (destruct Hk as [Hk|Hk]; [discriminate|]); contradiction]. injection Hk as <- <-. reflexivity.
    - intros k x i [Hk|Hk]; [discriminate|]. destruct Hk as [Hk|Hk]; [|repeat (destruct Hk as [Hk|Hk]; [discriminate|]); contradiction]. injection Hk as <- <- <-. apply makes_from_iff. reflexivity.
    - apply (delivers_iff (sane_psys _ _)), subscriber. reflexivity. }
  apply (makes_means failing I) in M as (vs & e & (us & d & M & E2) & E1). cbn in M. injection M as <- <-. vm_compute in E2. injection E2 as <- <-. discriminate.
Qed.
Print Assumptions C80_right_identity_failing_refuted.

(** ** concat_seq is associative, with empty() as its neutral element. *)
Theorem C80_concat_none : forall A, alike (concat_seq_ (@nil (cold A))) (From Empty).
Proof. exact concat_none. Qed.
Print Assumptions C80_concat_none.

Theorem C80_concat_one : forall A (c : cold A), one_at_a_time c -> alike (concat_seq_ [c]) c.
Proof. exact concat_one. Qed.
Print Assumptions C80_concat_one.

Theorem C80_concat_grouped : forall A (l m : list (cold A)), Forall one_at_a_time l -> Forall one_at_a_time m ->
  alike (concat_seq_ [concat_seq_ l; concat_seq_ m]) (concat_seq_ (l ++ m)).
Proof. exact concat_grouped. Qed.
Print Assumptions C80_concat_grouped.

(** What follows an observable that never completes is not there. *)
Theorem C80_concat_rest : forall A (l : list (cold A)) c m, Forall one_at_a_time l -> one_at_a_time c -> Forall one_at_a_time m ->
  (forall s, makes c s -> ~ In OnCompleted s) -> alike (concat_seq_ (l ++ c :: m)) (concat_seq_ (l ++ [c])).
Proof.
  intros A l c m Hl Hc Hm N. apply concat_flat; try assumption. intros vs M.
  apply (N (trace vs Completed)); [now apply complete|apply in_or_app; right; now left].
Qed.
Print Assumptions C80_concat_rest.

(** ** catch *)
Theorem C80_catch_no_errors : forall A (c : cold A) handler, bounded (Caught c handler) -> reliable (Caught c handler).
Proof. exact caught_reliable. Qed.
Print Assumptions C80_catch_no_errors.

Theorem C80_catch_unneeded : forall A (c : cold A) handler, one_at_a_time (Caught c handler) -> reliable c ->
  alike (Caught c handler) c.
Proof. exact catch_unneeded. Qed.
Print Assumptions C80_catch_unneeded.

Theorem C80_catch_twice : forall A (c : cold A) handler handler', one_at_a_time (Caught (Caught c handler) handler') ->
  alike (Caught (Caught c handler) handler') (Caught c handler).
Proof. exact catch_twice. Qed.
Print Assumptions C80_catch_twice.

(** The handler is also asked for errors of what it answered. *)
Theorem C80_catch_fail : forall A x (handler : exn -> res (cold A)) c,
  one_at_a_time (Caught (From (Worker (WFail x))) handler) -> handler x = Ok c ->
  alike (Caught (From (Worker (WFail x))) handler) (Caught c handler).
Proof. exact catch_fail. Qed.
Print Assumptions C80_catch_fail.

(** ** Examples *)

(** A program: concat_seq of a map, a catch and a concat_map. *)
Definition program : cold nat := concat_seq_
  [ Stage (SMap (fun v => Ok (v + 1))) (From (of_seq [1; 2]));
    Caught (Stage (SFilter (fun v => if v =? 2 then Err ValueError else Ok true)) (From (of_seq [6; 2]))) (fun _ => Ok (From (Single 9)));
    concat_map_ (fun v => From (of_seq [v; v])) (From (of_seq [4; 5])) ].
Lemma program_seq : one_at_a_time program.
Proof.
  apply seq_concat_seq. constructor; [exact I|]. constructor; [split; [exact I|intros x; exact I]|]. constructor; [|constructor].
  apply seq_concat_map; [exact I|apply reliable_source; discriminate|intros x; exact I].
Qed.
Example C80_program_sheltered : sheltered program.
Proof. cbn. split; [exact I|]. intros [|[|[|x]]]; cbn; repeat split; auto; try (now left; discriminate); try (now right); destruct x; exact I. Qed.
Example C80_program : forall l, makes program l <-> l = trace [2; 3; 6; 9; 4; 4; 5; 5] Completed.
Proof.
  assert (M : means program [2; 3; 6; 9; 4; 4; 5; 5] Completed).
  { apply means_concat_seq. apply (@turn_next _ _ means Completed _ _ [2; 3]); [exists [1; 2], Completed; now split|].
    apply (@turn_next _ _ means Completed _ _ [6; 9]); [|apply turn_single; [reflexivity|]].
    - apply (@rec_next _ _ _ [6] ValueError (means (From (Single 9))) [9]); [exists [6; 2], Completed; now split|reflexivity|now apply rec_end].
    - exists [4; 5], Completed. split; [exists [4; 5], Completed; now split|]. cbn. apply (@turn_next _ _ _ Completed _ _ [4; 4]); [reflexivity|]. apply turn_single; reflexivity. }
  intros l. split.
  - intros H. refine (C80_determined _ C80_program_sheltered program_seq _ _ (complete _ program_seq _ _ M) H).
  - intros ->. exact (complete _ program_seq _ _ M).
Qed.

(** merge of of_seq [1; 2] and single 3: one of its schedules. *)
Example C80_merge_run : let c := merge_seq_ [From (of_seq [1; 2]); From (Single 3)] in
  bounded c /\ makes c (trace [1; 3; 2] Completed).
Proof.
  cbn zeta. split; [split; [lia|]; split; [exact I|]; intros [|[|[|i]]]; exact I|].
  set (h := [LOuter (OnNext (0, 0)); LWork; LWork; LOuter (OnNext (1, 1)); LWork; LWork; LInner 0 (OnNext 1); LInner 1 (OnNext 3); LInner 0 (OnNext 2);
             LInner 1 OnCompleted; LWork; LInner 0 OnCompleted; LWork; LOuter OnCompleted; LWork] : list (mlabel (nat * nat) nat)).
  exists [OnNext 0; OnNext 1; OnCompleted], (fun o => match fst o with 0 => [OnNext 1; OnNext 2; OnCompleted] | _ => [OnNext 3; OnCompleted] end), h.
  destruct (fold_left (fun r l => match r with Some s => mstep 0 s l | None => None end) h (Some m_init)) as [s|] eqn:Er; [|vm_compute in Er; discriminate].
  exists s. pose proof (@mreach_run _ _ 0 h [] m_init s (mr_nil _) Er) as R. vm_compute in Er. injection Er as <-.
  assert (P : forall k o, In (ESub k o) [@ESub (nat * nat) nat 0 (0, 0); ESub 1 (1, 1); EReq (OnNext 1); EReq (OnNext 3); EReq (OnNext 2); EReq OnCompleted] -> k = 0 /\ o = (0, 0) \/ k = 1 /\ o = (1, 1)).
  { intros k o [Hk|[Hk|Hk]]; [injection Hk as <- <-; now left|injection Hk as <- <-; now right|repeat (destruct Hk as [Hk|Hk]; [discriminate|]); contradiction]. }
  split; [now apply makes_from_iff|]. split; [exact R|]. split; [|split; [|split]].
  - split; [intros l Hl ->; repeat (destruct Hl as [Hl|Hl]; [discriminate|]); contradiction|].
    split; [intros e Hl; repeat (destruct Hl as [Hl|Hl]; [discriminate|]); contradiction|]. split; [now exists []|].
    intros k o Hk. destruct (P k o Hk) as [[-> ->]|[-> ->]]; now exists [].
  - split; [reflexivity|]. split; [|reflexivity]. intros k o Hk. destruct (P k o Hk) as [[-> ->]|[-> ->]]; reflexivity.
  - intros k x i Hk. destruct (P k (x, i) Hk) as [[-> [= -> ->]]|[-> [= -> ->]]]; now apply makes_from_iff.
  - apply (delivers_iff (sane_psys _ _)), subscriber. reflexivity.
Qed.

(** concat_map over a concat_map: the hypotheses of the laws hold. *)
Example C80_laws_apply : let f := fun v : nat => From (of_seq [v; v + 1]) in let c := From (of_seq [1; 5]) in
  one_at_a_time c /\ reliable c /\ (forall x, one_at_a_time (f x) /\ reliable (f x) /\ productive (f x)) /\
  alike (concat_map_ f (concat_map_ f c)) (concat_map_ (fun x => concat_map_ f (f x)) c).
Proof.
  cbn zeta. assert (R : reliable (From (of_seq [1; 5]))) by (apply reliable_source; discriminate).
  assert (P : forall x, one_at_a_time (From (of_seq [x; x + 1])) /\ reliable (From (of_seq [x; x + 1])) /\ productive (From (of_seq [x; x + 1]))).
  { intros x. split; [exact I|]. split; [apply reliable_source; discriminate|]. exists (trace [x; x + 1] Completed). now apply makes_from_iff. }
  split; [exact I|]. split; [exact R|]. split; [exact P|]. apply C80_associativity; [exact I|exact R|exact P|intros y; exact I].
Qed.
