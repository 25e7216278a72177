(** * Vocabulary for C35 and C37. *)
From Verif Require Export Time.
Set Implicit Arguments.

Section Spec.
  Context {A : Type}.
  (** The source's calls with the time at which they were made, read off the
      history, which starts at time [t]. *)
  Fixpoint arrivals (t : Z) (h : list (xlabel A)) : list (notif A * Z) :=
    match h with
    | [] => []
    | XTick dt :: r => arrivals (t + dt) r
    | XArr n :: r => (n, t) :: arrivals t r
    | _ :: r => arrivals t r
    end.

  (** When the calls of the observer must begin: a call arriving at [a] at
      [a + d], but not before the previous call has returned (at [free]).
      [ends] are the times at which the calls return. *)
  Fixpoint expected (d free : Z) (arrs : list (notif A * Z)) (ends : list Z) : list (notif A * Z) :=
    match arrs with
    | [] => []
    | (n, a) :: r =>
        (n, Z.max (a + Z.max 0 d) free) :: match ends with e :: es => expected d e r es | [] => [] end
    end.

  (** No time passes while the worker has something to do, and a sleep is not
      overslept (the observer may take any time). *)
  Definition punctual (d t0 : Z) (h : list (xlabel A)) : Prop :=
    forall h1 dt h2 s1, h = h1 ++ XTick dt :: h2 -> xreach d t0 h1 s1 ->
      xwork s1 = None /\ match x_phase s1 with XSleep _ u => (x_now s1 + dt <= u)%Z | _ => True end.

  (** ... and no time passes during the observer's calls either. *)
  Definition instantaneous (d t0 : Z) (h : list (xlabel A)) : Prop :=
    punctual d t0 h /\
    forall h1 dt h2 s1 n, h = h1 ++ XTick dt :: h2 -> xreach d t0 h1 s1 -> x_phase s1 <> XCall n.

  (** Not in the code: no call of the observer raises. *)
  Definition no_raise (h : list (xlabel A)) : Prop := forall e, ~ In (XRaise e) h.
End Spec.

(** interval: the k-th element is [k]; when the calls must begin, the first
    at [start], each further one [p] after the previous one has returned. *)
Fixpoint ticks (p start : Z) (k : nat) (ends : list Z) : list (notif nat * Z) :=
  (OnNext k, start) :: match ends with e :: es => ticks p (e + p) (S k) es | [] => [] end.

(** Not in the code: the loop runs the task before time goes on, and wakes it on time. *)
Definition iv_punctual (seconds period t0 : Z) (h : list (xlabel nat)) : Prop :=
  forall h1 dt h2 s1, h = h1 ++ XTick dt :: h2 -> ivreach seconds period t0 h1 s1 ->
    ivwork seconds s1 = None /\ match v_phase s1 with ISleep u _ => (v_now s1 + dt <= u)%Z | _ => True end.
(** Not in the code: ... and calls of the observer take no time. *)
Definition iv_instantaneous (seconds period t0 : Z) (h : list (xlabel nat)) : Prop :=
  iv_punctual seconds period t0 h /\
  forall h1 dt h2 s1 n, h = h1 ++ XTick dt :: h2 -> ivreach seconds period t0 h1 s1 -> v_phase s1 <> ICall n.
