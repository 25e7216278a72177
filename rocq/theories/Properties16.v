(** * Property C55: AsyncTestObserver. *)
From Verif Require Import TestObsProofs.
Set Implicit Arguments.

(** ** C55 *)
(** [values] holds exactly the calls made, in that order, with their times:
    however they overlap, whether or not functions of the user raise, and also
    after the end of the stream. *)
Theorem C55_values : forall A (pol : policy A) h s, tsteps pol t_init h s -> t_values s = begun h.
Proof. intros A pol h s H. exact (values_begun H). Qed.
Print Assumptions C55_values.

(** One call after the other: the functions of the user are called twice for
    every notification up to the first terminal one, and once for those after it. *)
Theorem C55_twice : forall A (pol : policy A) l, exists s, tsteps pol t_init (one_by_one 0 l) s /\
  t_values s = l /\ w_log (t_base s) = doubled (map snd l).
Proof. intros A pol l. eexists. split; [exact (one_by_one_run pol l (t_init (A := A)) eq_refl)|]. split; [reflexivity|]. exact (seq_log pol (map snd l) (w_init (A := A)) eq_refl eq_refl). Qed.
Print Assumptions C55_twice.

(** Awaiting it gives what awaiting an AsyncAwaitableObserver would give. *)
Theorem C55_result : forall A (pol : policy A) l s, tsteps pol t_init (one_by_one 0 l) s ->
  w_fut (t_base s) = w_fut (wrun pol w_init (map (@WCall A) (map snd l))).
Proof.
  intros A pol l s H. pose proof (one_by_one_run pol l (t_init (A := A)) eq_refl) as R. rewrite (tsteps_fun H R). rewrite wrun_calls. cbn.
  destruct (same_run pol (map snd l) (s := w_init) (s' := w_init)) as (_ & _ & E); [repeat split|exact E].
Qed.
Print Assumptions C55_result.

(** While the functions of the user raise whenever they are called, the future
    stays pending: whoever awaits it waits for ever, also after a terminal. *)
Theorem C55_raising : forall A (pol : policy A) h s, all_raise h -> tsteps pol t_init h s ->
  w_fut (t_base s) = FPending /\ t_values s = begun h.
Proof. intros A pol h s Hr H. split; [|exact (values_begun H)]. now destruct (all_raise_same Hr H) as (_ & _ & E). Qed.
Print Assumptions C55_raising.

Example C55_case : exists s, tsteps (A := nat) well_behaved t_init (one_by_one 0 [(1%Z, OnNext 7); (2%Z, OnCompleted); (3%Z, OnNext 8)]) s /\
  w_log (t_base s) = [OnNext 7; OnNext 7; OnCompleted; OnCompleted; OnNext 8] /\ w_fut (t_base s) = FResult 7.
Proof. eexists. split; [exact (one_by_one_run well_behaved _ t_init eq_refl)|]. split; reflexivity. Qed.
(** Two calls that overlap: the terminal one is over first, the element is not seen by the base class. *)
Example C55_overlap : exists s, tsteps (A := nat) well_behaved t_init [TBegin 1%Z (OnNext 7); TBegin 2%Z OnCompleted; TResume 1 None; TResume 0 None] s /\
  t_values s = [(1%Z, OnNext 7); (2%Z, OnCompleted)] /\ w_fut (t_base s) = FCancelled.
Proof. eexists. split; [repeat (eapply tsteps_head; [reflexivity|]); constructor|]. split; reflexivity. Qed.
Example C55_raising_case : exists s, tsteps (A := nat) well_behaved t_init [TBegin 1%Z OnCompleted; TResume 0 (Some ValueError)] s /\ w_fut (t_base s) = FPending.
Proof. eexists. split; [repeat (eapply tsteps_head; [reflexivity|]); constructor|]. reflexivity. Qed.
