(** * interval or timer in front of sample.

    interval(seconds, period).sample(d) for d > 0: sample subscribes interval(d, d) beside the source
    (timeshift.py:170-177).  Both tasks of interval (Time.v) call observers of with_latest_from, which only
    post to its mailbox (combine.py:321-325), so that their calls return at once. *)
From Verif Require Export Clocked Debounce.
Set Implicit Arguments.

(** The task of the source, the task of the interval inside sample, and what has been posted to with_latest_from, with the times. *)
Record qstate : Type := QState {
  q_source : ivstate;
  q_timer : ivstate;
  q_posted : list (either nat nat * Z)
}.

(** create.py:224-225, combine.py:329-330: everything is subscribed at time [t0]. *)
Definition q_init (t0 : Z) : qstate := QState (iv_init t0) (iv_init t0) [].

(** create.py:214-222: the task of an interval goes on; its calls return at once, as in Clocked.v.  The result: its state, and
    the calls it has made. *)
Definition task_turn (seconds period : Z) (v : ivstate) : option (ivstate * list (notif nat * Z)) :=
  match iv_turn seconds period [] (v, []) with
  | Some (v', _) => Some (v', skipn (length (v_log v)) (v_log v'))
  | None => None
  end.

(** What can happen: time passes; the task of the source goes on; that of the interval inside sample goes on; the subscription is disposed. *)
Inductive qlabel : Type :=
| QTick (dt : Z)
| QSource
| QTimer
| QCancel.

Section Sampled.
  Context (seconds period d : Z).

  (** create.py:201-227 in front of timeshift.py:166-182: one step. *)
  Definition qstep (q : qstate) (l : qlabel) : option qstate :=
    let both x := match ivstep seconds period (q_source q) x, ivstep d d (q_timer q) x with
                  | Some v, Some w => Some (QState v w (q_posted q))
                  | _, _ => None
                  end in
    match l with
    | QTick dt => both (XTick dt)
    | QSource => match task_turn seconds period (q_source q) with
                 | Some (v, cs) => Some (QState v (q_timer q) (q_posted q ++ map (fun c => (Src (fst c), snd c)) cs))
                 | None => None
                 end
    | QTimer => match task_turn d d (q_timer q) with
                | Some (w, cs) => Some (QState (q_source q) w (q_posted q ++ map (fun c => (Oth (fst c), snd c)) cs))
                | None => None
                end
    | QCancel => both XCancel
    end.

  (** Not in the code: the states that histories lead to in which every step is [ok]. *)
  Inductive qreach (ok : qstate -> qlabel -> Prop) (t0 : Z) : list qlabel -> qstate -> Prop :=
  | qr_nil : qreach ok t0 [] (q_init t0)
  | qr_snoc h q l q' : qreach ok t0 h q -> ok q l -> qstep q l = Some q' -> qreach ok t0 (h ++ [l]) q'.

  (** ** Specification *)

  (** The event loop runs both tasks before time goes on, and wakes them on time. *)
  Definition q_on_time (q : qstate) (l : qlabel) : Prop :=
    match l with
    | QTick dt =>
        (ivwork seconds (q_source q) = None /\ match v_phase (q_source q) with ISleep u _ => (v_now (q_source q) + dt <= u)%Z | _ => True end) /\
        (ivwork d (q_timer q) = None /\ match v_phase (q_timer q) with ISleep u _ => (v_now (q_timer q) + dt <= u)%Z | _ => True end)
    | _ => True
    end.

  (** The calls that the source has made, with their times. *)
  Definition q_made (q : qstate) : list (notif nat * Z) := v_log (q_source q).
  (** What the subscriber is told of what has been posted, once the workers are idle (Debounce.v, sample). *)
  Definition q_shows (q : qstate) (l : list (notif nat)) : Prop := delivers (sample_sys well_behaved PEnd) (map fst (q_posted q)) l.
End Sampled.
Arguments qreach : clear implicits.
