(** * interval or timer in front of a chain of delays.

    interval(seconds, period).map(f).delay(d1).filter(g).delay(d2)...: the task of
    interval (Time.v) calls the observer of the first delay, which only posts
    (timeshift.py:86-88), so that the call returns at once and the task goes on. *)
From Verif Require Export Delays.
Set Implicit Arguments.

Section Clocked.
  Context (seconds period : Z) (ls : list (link nat)).

  (** The task of interval and the workers of the delays; they share one clock. *)
  Definition kstate : Type := (ivstate * list (xstate nat))%type.

  (** create.py:224-225, timeshift.py:90-91: everything is subscribed at time [t0]. *)
  Definition k_init (t0 : Z) : kstate := (iv_init t0, map (fun _ => x_init t0) ls).

  (** create.py:214-222: the task of interval goes on.  When it calls, the observer of the first delay
      posts and returns (216); with period 0, so does the aclose that follows (218-220). *)
  Definition iv_turn (k : kstate) : option kstate :=
    match ivwork seconds (fst k) with
    | None => None
    | Some v1 =>
        match v_phase v1 with
        | ICall n =>
            match ivstep seconds period v1 XReturn with
            | Some v2 =>
                match v_phase v2 with
                | IClose => match ivstep seconds period v2 XReturn with
                            | Some v3 => Some (v3, feed ls (feed ls (snd k) (OnNext n)) OnCompleted)
                            | None => None
                            end
                | _ => Some (v2, feed ls (snd k) (OnNext n))
                end
            | None => None
            end
        | _ => Some (v1, snd k)
        end
    end.

  (** What can happen: time passes; the task of interval, or the worker of the [i]-th delay, goes on; the subscriber's call
      returns or raises; the subscription is disposed. *)
  Inductive klabel : Type :=
  | KTick (dt : Z)
  | KTurn
  | KWork (i : nat)
  | KReturn
  | KRaise (e : exn)
  | KCancel.

  (** create.py:201-227 in front of timeshift.py:33-100, several times: one step. *)
  Definition kstep (k : kstate) (l : klabel) : option kstate :=
    let delays d := match dstep ls (snd k) d with Some xs => Some (fst k, xs) | None => None end in
    let both x d := match ivstep seconds period (fst k) x, dstep ls (snd k) d with Some v, Some xs => Some (v, xs) | _, _ => None end in
    match l with
    | KTick dt => both (XTick dt) (DTick dt)
    | KTurn => iv_turn k
    | KWork i => delays (DWork i)
    | KReturn => delays DReturn
    | KRaise e => delays (DRaise e)
    | KCancel => both XCancel DCancel
    end.

  (** Not in the code: the states that histories lead to in which every step is [ok]. *)
  Inductive kreach (ok : kstate -> klabel -> Prop) (t0 : Z) : list klabel -> kstate -> Prop :=
  | kr_nil : kreach ok t0 [] (k_init t0)
  | kr_snoc h k l k' : kreach ok t0 h k -> ok k l -> kstep k l = Some k' -> kreach ok t0 (h ++ [l]) k'.

  (** ** Specification *)

  (** Anything may happen. *)
  Definition k_any (k : kstate) (l : klabel) : Prop := True.
  (** The event loop runs the task of interval before time goes on, and wakes it on time; the workers of the delays and
      the subscriber may take as long as they like. *)
  Definition ticks_on_time (k : kstate) (l : klabel) : Prop :=
    match l with
    | KTick dt => ivwork seconds (fst k) = None /\ match v_phase (fst k) with ISleep u _ => (v_now (fst k) + dt <= u)%Z | _ => True end
    | _ => True
    end.
  (** ... and time does not pass either while a worker can go on or the subscriber is in a call, and no sleep is overslept. *)
  Definition k_prompt (k : kstate) (l : klabel) : Prop :=
    ticks_on_time k l /\ match l with KTick dt => prompt (snd k) (DTick dt) | _ => True end.

  (** The calls of the subscriber with their times. *)
  Definition k_told (k : kstate) : list (notif nat * Z) := told_at (snd k).
  (** The calls that the task of interval has made, with their times. *)
  Definition k_made (k : kstate) : list (notif nat * Z) := v_log (fst k).
  (** The time. *)
  Definition k_now (k : kstate) : Z := v_now (fst k).
  (** Every delay waits for something to be posted. *)
  Definition k_waiting (k : kstate) : Prop := all_waiting (snd k).
End Clocked.
Arguments klabel : clear implicits.
Arguments kreach : clear implicits.

(** Not in the code: the first [n] elements of interval(seconds, period) with their times, if it is subscribed at [t0] and nothing is late. *)
Definition beats (seconds period t0 : Z) (n : nat) : list (notif nat * Z) :=
  map (fun j => (OnNext j, (t0 + Z.max 0 seconds + Z.of_nat j * Z.max 0 period)%Z)) (seq 0 n).

(** Not in the code: delays only, no functions in front of them. *)
Definition plain (ds : list Z) : list (link nat) := map (fun d => (@Some nat, d)) ds.
