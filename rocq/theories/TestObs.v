(** * AsyncTestObserver (testing/observer.py:16-74), on top of AsyncAwaitableObserver.

    The functions of the user given to the constructor are called twice: by
    the methods here (52, 60, 69), and by those of the base class, which has
    them too (36).  A call of a method is two steps: up to the first call of
    the user's function, and the rest, when that has returned or raised; other
    calls may come in between. *)
From Verif Require Export Run.
Set Implicit Arguments.

(** [t_values]: [_values], with the times (44-45); [t_wait]: the calls that wait
    for the user's function; [t_base]: the base class.  [w_log (t_base s)] has
    all calls of the user's functions. *)
Record tstate (A : Type) : Type := TState {
  t_values : list (Z * notif A);
  t_wait : list (nat * notif A);
  t_next : nat;
  t_base : wstate A
}.
Arguments TState {A} t_values t_wait t_next t_base.

(** testing/observer.py:30-42: a new AsyncTestObserver. *)
Definition t_init {A} : tstate A := TState [] [] 0 w_init.

Section TestObs.
  Context {A : Type}.
  Variable pol : policy A.

  (** Not in the code: labels of histories. *)
  Inductive tlabel : Type :=
  | TBegin (time : Z) (n : notif A)              (* a method is called at that time; the user's function is called *)
  | TResume (id : nat) (r : option exn)          (* it returns, or raises, in that call *)
  | TBase (x : wlabel (A := A)).                        (* dispose(), or somebody cancels the future *)

  (** Not in the code: take the waiting call [id] out of the list. *)
  Fixpoint pick (id : nat) (l : list (nat * notif A)) : option (notif A * list (nat * notif A)) :=
    match l with
    | [] => None
    | (i, n) :: l => if i =? id then Some (n, l) else match pick id l with Some (m, l') => Some (m, (i, n) :: l') | None => None end
    end.

  (** testing/observer.py:16-74: one step. *)
  Definition tstep (s : tstate A) (x : tlabel) : option (tstate A) :=
    match x with
    | TBegin time n =>                                                                     (* 49-52, 57-60, 66-69 *)
        Some (TState (t_values s ++ [(time, n)]) (t_wait s ++ [(t_next s, n)]) (S (t_next s))
          (WState (w_last (t_base s)) (w_stopped (t_base s)) (w_fut (t_base s)) (w_log (t_base s) ++ [n])))
    | TResume id r =>
        match pick id (t_wait s) with
        | Some (n, l) =>
            Some (TState (t_values s) l (t_next s)
              (match r with None => fst (wcall pol (t_base s) n) | Some _ => t_base s end))    (* 53, 61, 70 *)
        | None => None
        end
    | TBase (WCall _) => None
    | TBase x => Some (TState (t_values s) (t_wait s) (t_next s) (fst (wstep pol (t_base s) x)))
    end.

  (** Not in the code: the states that histories lead to. *)
  Inductive tsteps : tstate A -> list tlabel -> tstate A -> Prop :=
  | ts_nil s : tsteps s [] s
  | ts_snoc s h x s' s'' : tsteps s h s' -> tstep s' x = Some s'' -> tsteps s (h ++ [x]) s''.
End TestObs.
Arguments TBase {A} x.
Arguments TResume {A} id r.

(** ** Specification *)
(** The calls made in a history, with their times. *)
Definition begun {A} (h : list (tlabel (A := A))) : list (Z * notif A) :=
  flat_map (fun x => match x with TBegin t n => [(t, n)] | _ => [] end) h.
(** One call after the other, the functions of the user not raising. *)
Fixpoint one_by_one {A} (k : nat) (l : list (Z * notif A)) : list (tlabel (A := A)) :=
  match l with
  | [] => []
  | (t, n) :: l => TBegin t n :: TResume k None :: one_by_one (S k) l
  end.
(** Every call twice up to the first terminal one, which is the last to come twice. *)
Fixpoint doubled {A} (l : list (notif A)) : list (notif A) :=
  match l with
  | [] => []
  | n :: l => n :: n :: (if is_term n then l else doubled l)
  end.
