(** * A program whose observer is an AsyncSubject, with chains of operators subscribed to the subject.

    await c.subscribe_async(subject): the program [c] (Programs.v) calls the
    subject (Hub.v), and the subject calls its subscribers, each of which is
    the observer of a chain of operators (Behind.v). *)
From Verif Require Export Hub Programs6 Behind.
Set Implicit Arguments.

(** Not in the code: the calls of the subject in [h], in their order. *)
Definition relayed {A} (h : list (blabel A)) : list (notif A) := flat_map (fun x => match x with BCall n => [n] | _ => [] end) h.

(** Not in the code: how many chains [h] subscribes; the next one gets this number. *)
Definition joined {A} (h : list (blabel A)) : nat := length (flat_map (fun x => match x with BSub _ _ => [tt] | _ => [] end) h).

(** Not in the code: the observers of a chain of operators with a subscriber that does not raise, none of whose
    operators raises into the subject (subject.py:123 calls without a safe_observer). *)
Inductive chained {A} : forall Z, policy Z -> pipe Z A -> Prop :=
| chained_intro C (ch : chain A C) : calm_front ch -> chained well_behaved (hung ch PEnd).

(** Not in the code: a history of a subject to which only such chains are subscribed, at any moments;
    subscriptions may be disposed, the subject itself is not.  Whoever calls the subject
    awaits each call (a program does: one safe_observer or worker makes all of its calls). *)
Record shares {A} (h : list (blabel A)) (b : hub A) : Prop := Shares {
  sh_reach : breach h b;
  sh_chains : each_pipeline (fun Z pol p => chained pol p) h;
  sh_turn : Hub.in_turn h;
  sh_open : ~ In BDispose h
}.

(** Not in the code: nothing is left to do. *)
Definition at_rest {A} (b : hub A) : Prop := u_idle (b_subj b) /\ forall v, In v (b_lines b) -> settled_line v.

(** Not in the code: in [b], the subscriber of the chain with number [k] has been called with [l]. *)
Definition was_told {A C} (ch : chain A C) (k : nat) (b : hub A) (l : list (notif C)) : Prop :=
  exists x, nth_error (b_lines b) k = Some (Line well_behaved (hung ch PEnd) x) /\ tlog x = l.

(** Not in the code: the observable with the elements [vs] and the ending [e]. *)
Definition only {A} (vs : list A) (e : ending) : cold A := Given (fun us d => us = vs /\ d = e).
