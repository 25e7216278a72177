(** * interval or timer in front of a pipeline of operators.

    interval(seconds, period).take(3).map(f)...: the task of interval (Time.v)
    calls the first observer of the pipeline (Pipe.v) itself, and goes on when
    the call has returned.  Simplification: a call takes no time (mailboxes
    return at once; a subscriber behind no mailbox answers at once). *)
From Verif Require Export Clocked Pipe.
Set Implicit Arguments.

Section Ticking.
  Context (seconds period : Z) {U : Type} (pol : policy U) (p : pipe U nat).

  (** The task of interval, the observers and workers of the pipeline, and the calls that the subscriber has got, with their times. *)
  Record zstate : Type := ZState {
    z_iv : ivstate;
    z_pipe : cst (pcomp pol p);
    z_told : list (notif U * Z)
  }.

  (** create.py:210-225: everything is subscribed at time [t0]. *)
  Definition z_init (t0 : Z) : zstate := ZState (iv_init t0) (pinit pol p) [].

  (** Not in the code: the pipeline has gone from the state in [z] to [s]; what the subscriber got meanwhile, it got now. *)
  Definition noted (z : zstate) (s : cst (pcomp pol p)) : list (notif U * Z) :=
    z_told z ++ map (fun n => (n, v_now (z_iv z))) (skipn (length (plog pol p (z_pipe z))) (plog pol p s)).

  (** create.py:216, 219: what the task of interval does after its call has returned or raised. *)
  Definition answered (v : ivstate) (x : option exn) : option ivstate :=
    ivstep seconds period v (match x with None => XReturn | Some e => XRaise e end).

  (** create.py:214-222: the task of interval goes on; it calls the first observer (216), and with period 0 closes it (218-220). *)
  Definition z_turn (z : zstate) : option zstate :=
    match ivwork seconds (z_iv z) with
    | None => None
    | Some v1 =>
        match v_phase v1 with
        | ICall n =>
            let (s1, x1) := ccall (pcomp pol p) (z_pipe z) (OnNext n) in
            match answered v1 x1 with
            | None => None
            | Some v2 =>
                match v_phase v2 with
                | IClose =>
                    let (s2, x2) := ccall (pcomp pol p) s1 OnCompleted in
                    match answered v2 x2 with
                    | None => None
                    | Some v3 => Some (ZState v3 s2 (noted z s2))
                    end
                | _ => Some (ZState v2 s1 (noted z s1))
                end
            end
        | _ => Some (ZState v1 (z_pipe z) (z_told z))
        end
    end.

  (** What can happen: time passes; the task of interval, or the [k]-th worker of the pipeline, goes on; the subscription of interval is disposed. *)
  Inductive zlabel : Type :=
  | ZTick (dt : Z)
  | ZTurn
  | ZWork (k : nat)
  | ZCancel.

  (** create.py:201-227 in front of a pipeline: one step. *)
  Definition zstep (z : zstate) (l : zlabel) : option zstate :=
    match l with
    | ZTick dt => match ivstep seconds period (z_iv z) (XTick dt) with Some v => Some (ZState v (z_pipe z) (z_told z)) | None => None end
    | ZTurn => z_turn z
    | ZWork k => match cstep (pcomp pol p) k (z_pipe z) with Some s => Some (ZState (z_iv z) s (noted z s)) | None => None end
    | ZCancel => match ivstep seconds period (z_iv z) XCancel with Some v => Some (ZState v (z_pipe z) (z_told z)) | None => None end
    end.

  (** Not in the code: the states that histories lead to in which every step is [ok]. *)
  Inductive zreach (ok : zstate -> zlabel -> Prop) (t0 : Z) : list zlabel -> zstate -> Prop :=
  | zr_nil : zreach ok t0 [] (z_init t0)
  | zr_snoc h z l z' : zreach ok t0 h z -> ok z l -> zstep z l = Some z' -> zreach ok t0 (h ++ [l]) z'.

  (** ** Specification *)

  (** Anything may happen. *)
  Definition z_any (z : zstate) (l : zlabel) : Prop := True.
  (** Time passes only when neither the task of interval nor a worker can go on, and interval is woken on time. *)
  Definition z_prompt (z : zstate) (l : zlabel) : Prop :=
    match l with
    | ZTick dt => ivwork seconds (z_iv z) = None /\ quiet (pcomp pol p) (z_pipe z) /\
                  match v_phase (z_iv z) with ISleep u _ => (v_now (z_iv z) + dt <= u)%Z | _ => True end
    | _ => True
    end.

  (** The calls that the task of interval has made, with their times. *)
  Definition z_made (z : zstate) : list (notif nat * Z) := v_log (z_iv z).
  (** The time. *)
  Definition z_now (z : zstate) : Z := v_now (z_iv z).
  (** Nothing is left to be done by the workers of the pipeline. *)
  Definition z_quiet (z : zstate) : Prop := quiet (pcomp pol p) (z_pipe z).
End Ticking.
Arguments zreach : clear implicits.

(** Not in the code: of some calls with their times, those made up to time [t]. *)
Definition by_time {X} (t : Z) (l : list (X * Z)) : list X := map fst (filter (fun c => (snd c <=? t)%Z) l).
