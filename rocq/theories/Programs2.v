(** * Programs in which observables run at the same time: vocabulary. *)
From Verif Require Export Programs.
Set Implicit Arguments.

(** Not in the code: each merge_inner in it is unbounded, and every observable
    it may be given has some run that comes to its end; or it takes one
    observable at a time, from a source that does not fail. *)
Fixpoint regular {A} (c : cold A) : Prop :=
  match c with
  | From _ => True
  | Stage _ c => regular c
  | Inner maxc c inner =>
      (maxc = 0%Z /\ (forall x, productive (inner x)) \/ maxc = 1%Z /\ reliable c) /\ regular c /\ forall x, regular (inner x)
  | Caught c handler => regular c /\ forall x, match handler x with Ok c' => regular c' | Err _ => True end
  | Pair _ c d => regular c /\ regular d
  | Switched c inner => regular c /\ forall x, regular (inner x)
  | Shifted _ c => regular c
  | Ticking _ _ => True
  | Retried _ c => regular c
  | Given _ => True
  end.

(** Not in the code: [shuffle a b l]: [l] consists of [a] and [b], each in its order. *)
Inductive shuffle {A} : list A -> list A -> list A -> Prop :=
| sh_nil : shuffle [] [] []
| sh_left x a b l : shuffle a b l -> shuffle (x :: a) b (x :: l)
| sh_right x a b l : shuffle a b l -> shuffle a (x :: b) (x :: l).

(** Not in the code: two observables, of which [P] and [Q] are the possible
    elements and endings, at the same time.  All elements of both come, in any
    interleaving; it ends when both have completed.  If one fails, it ends with
    that error, and of the other one some of the first elements have come. *)
Definition merged {A} (P Q : list A -> ending -> Prop) (vs : list A) (e : ending) : Prop :=
  exists us d ws d', P us d /\ Q ws d' /\
    match e with
    | Completed => d = Completed /\ d' = Completed /\ shuffle us ws vs
    | Open => (d = Open /\ d' = Open \/ d = Open /\ d' = Completed \/ d = Completed /\ d' = Open) /\ shuffle us ws vs
    | Failed x => d = Failed x /\ (exists ws', prefix ws' ws /\ shuffle us ws' vs) \/
                  d' = Failed x /\ (exists us', prefix us' us /\ shuffle us' ws vs)
    end.

(** __init__.py:307-316, 801-813 merge: merge_inner() of of_seq([source, other]). *)
Definition merge_ {A} (c d : cold A) : cold A := merge_seq_ [c; d].

(** Not in the code: no elements, only the ending [e]. *)
Definition ended {A} (e : ending) (vs : list A) (d : ending) : Prop := vs = [] /\ d = e.
(** Not in the code: several observables at the same time. *)
Definition all_merged {A} (Ps : list (list A -> ending -> Prop)) : list A -> ending -> Prop := fold_right merged (ended Completed) Ps.

(** Not in the code: subscribers of [c] may see the elements [vs], ended by [e]. *)
Definition outcome {A} (c : cold A) (vs : list A) (e : ending) : Prop := makes c (trace vs e).
(** Not in the code: some run comes to its end, and every merge_inner in it is of the kinds above. *)
Definition lively {A} (c : cold A) : Prop := regular c /\ productive c.
