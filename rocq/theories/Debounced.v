(** * interval or timer in front of debounce.

    The task of interval (Time.v) calls the observer of debounce, which only posts and starts a
    sleep (timeshift.py:141-150), so that the call returns at once and the task goes on. *)
From Verif Require Export Clocked Debounce.
Set Implicit Arguments.

Section Debounced.
  Context (seconds period d : Z).

  (** The task of interval, and the worker and the sleeps of debounce; they share one clock. *)
  Definition jstate : Type := (ivstate * dstate nat)%type.

  (** create.py:224-225, timeshift.py:137-153: everything is subscribed at time [t0]. *)
  Definition j_init (t0 : Z) : jstate := (iv_init t0, d_init t0).

  (** timeshift.py:141-150: the call [n] of the observer of debounce. *)
  Definition called_with (s : dstate nat) (n : notif nat) : dstate nat :=
    match Debounce.dstep d s (Debounce.DArr n) with Some s' => s' | None => s end.

  (** create.py:214-222: the task of interval goes on.  When it calls, the observer of debounce
      returns at once (216); with period 0, so does the aclose that follows (218-220). *)
  Definition j_turn (j : jstate) : option jstate :=
    match ivwork seconds (fst j) with
    | None => None
    | Some v1 =>
        match v_phase v1 with
        | ICall n =>
            match ivstep seconds period v1 XReturn with
            | Some v2 =>
                match v_phase v2 with
                | IClose => match ivstep seconds period v2 XReturn with
                            | Some v3 => Some (v3, called_with (called_with (snd j) (OnNext n)) OnCompleted)
                            | None => None
                            end
                | _ => Some (v2, called_with (snd j) (OnNext n))
                end
            | None => None
            end
        | _ => Some (v1, snd j)
        end
    end.

  (** What can happen: time passes; the task of interval goes on; the [i]-th sleep of debounce ends; its worker takes a message; the
      subscription is disposed. *)
  Inductive jlabel : Type :=
  | JTick (dt : Z)
  | JTurn
  | JSleep (i : nat)
  | JWork
  | JCancel.

  (** create.py:201-227 in front of timeshift.py:103-163: one step. *)
  Definition jstep (j : jstate) (l : jlabel) : option jstate :=
    let alone x := match Debounce.dstep d (snd j) x with Some s => Some (fst j, s) | None => None end in
    let both x y := match ivstep seconds period (fst j) x, Debounce.dstep d (snd j) y with Some v, Some s => Some (v, s) | _, _ => None end in
    match l with
    | JTick dt => both (XTick dt) (Debounce.DTick dt)
    | JTurn => j_turn j
    | JSleep i => alone (DTimer i)
    | JWork => alone Debounce.DWork
    | JCancel => both XCancel Debounce.DCancel
    end.

  (** Not in the code: the states that histories lead to in which every step is [ok]. *)
  Inductive jreach (ok : jstate -> jlabel -> Prop) (t0 : Z) : list jlabel -> jstate -> Prop :=
  | jr_nil : jreach ok t0 [] (j_init t0)
  | jr_snoc h j l j' : jreach ok t0 h j -> ok j l -> jstep j l = Some j' -> jreach ok t0 (h ++ [l]) j'.

  (** ** Specification *)

  (** Time passes only if nothing can go on, and no sleep is overslept. *)
  Definition j_prompt (j : jstate) (l : jlabel) : Prop :=
    match l with
    | JTick dt =>
        ivwork seconds (fst j) = None /\ match v_phase (fst j) with ISleep u _ => (v_now (fst j) + dt <= u)%Z | _ => True end /\
        d_box (snd j) = [] /\ forall n i u, In (n, i, u) (d_timers (snd j)) -> (d_now (snd j) + dt <= u /\ d_now (snd j) < u)%Z
    | _ => True
    end.

  (** What debounce has asked of the safe observer in front of the subscriber, with the times. *)
  Definition j_asked (j : jstate) : list (notif nat * Z) := map (fun x => (fst (fst x), snd x)) (d_log (snd j)).
  (** The calls that the task of interval has made, with their times. *)
  Definition j_made (j : jstate) : list (notif nat * Z) := v_log (fst j).
  (** The time. *)
  Definition j_now (j : jstate) : Z := v_now (fst j).
  (** The worker of debounce has taken all its messages. *)
  Definition j_idle (j : jstate) : Prop := d_box (snd j) = [].
End Debounced.
Arguments jlabel : clear implicits.
Arguments jreach : clear implicits.
