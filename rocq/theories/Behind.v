(** * Operators without a safe_observer of their own: in a chain, and behind catch, retry, delay and interval.

    map, map_async, filter, choose (transform.py:35-58 transform) and scan call
    what is behind them directly, and are called directly by what is in front of
    them.  In programs (Programs.v) every operator has a safe_observer in front
    of it; here is the chain of operators as it is in the code, and what happens when a
    function raises where there is none. *)
From Verif Require Export Programs.
Set Implicit Arguments.

(** ** Chains *)

(** Operators one behind the other, as in xs.map(f).filter(p).take(n) (__init__.py; C77). *)
Inductive chain : Type -> Type -> Type :=
| CNil A : chain A A
| CCons A B C (g : stage A B) (r : chain B C) : chain A C.
Arguments CNil {A}.
Arguments CCons {A B C} g r.

(** transform.py:35-58 and others: the observer that the chain subscribes to its source, for the
    subscriber [p]: nothing is in front of an operator but the operator itself. *)
Fixpoint hung {A C} (ch : chain A C) : forall Z, pipe Z C -> pipe Z A :=
  match ch in chain A C return forall Z, pipe Z C -> pipe Z A with
  | CNil => fun Z p => p
  | CCons g r => fun Z p => op_of g (hung r p)
  end.

(** Not in the code: the program with these operators behind [c]. *)
Fixpoint over {A C} (ch : chain A C) : cold A -> cold C :=
  match ch in chain A C return cold A -> cold C with
  | CNil => fun c => c
  | CCons g r => fun c => over r (Stage g c)
  end.

(** Not in the code: the operators up to the first that has a safe_observer do not raise. *)
Fixpoint calm_front {A C} (ch : chain A C) : Prop :=
  match ch with
  | CNil => True
  | CCons g r => calm g /\ if bare g then calm_front r else True
  end.

(** ** An operator that treats every element by itself, directly behind catch or retry *)

(** transform.py:61-75 map_async, 95-105 map, filtering.py:33-52 choose_async, choose, 55-84 filter_async, filter: what happens at an
    element: it raises, nothing is sent, or something is sent ([elementwise] operators only;
    simplification: the call of an awaited function is one step). *)
Definition does {A B} (g : stage A B) : A -> res (option B) :=
  match g in stage A B return A -> res (option B) with
  | SMap f | SMapAsync f => fun a => match f a with Ok b => Ok (Some b) | Err x => Err x end
  | SFilter p | SFilterAsync p => keep p
  | SChoose f | SChooseAsync f => f
  | _ => fun _ => Ok None
  end.

Section BehindCatch.
  Context {H O A B : Type}.
  Variable hd : H -> exn -> res O * H.
  Variable src : O.
  Variable f : A -> res (option B).

  (** transform.py:384-429 with an operator directly behind it, whose observer is [aobv].  [asend] (407-408)
      awaits [aobv.asend], so what the function raises leaves [asend]; the safe_observer of the
      source that has called it then calls [athrow] (observers.py:173-176), and that is 410-412: the handler is asked. *)
  Definition behind_step (s : cstate H O B) (l : clabel A) : option (cstate H O B) :=
    match l with
    | CCall k n =>
        if cbegun k s then
          Some match n with
               | OnNext a =>
                   match f a with
                   | Ok (Some b) => cemit (EReq (OnNext b)) s
                   | Ok None => s
                   | Err x => failover hd x s
                   end
               | OnCompleted => cemit (EReq OnCompleted) s
               | OnError x => failover hd x s
               end
        else None
    | CAct i => catch_step hd s (CAct i)
    | CActFail i e => catch_step hd s (CActFail i e)
    | CUser => catch_step hd s CUser
    end.

  (** Not in the code: the states that histories lead to. *)
  Inductive tail_reach (h0 : H) : list (clabel A) -> cstate H O B -> Prop :=
  | br_nil : tail_reach h0 [] (c_init src h0)
  | br_snoc h s l s' : tail_reach h0 h s -> behind_step s l = Some s' -> tail_reach h0 (h ++ [l]) s'.

  (** observers.py:169-186: the calls a source with a safe_observer makes: none after a call that raised. *)
  Fixpoint until_raise (ms : list (notif A)) : list (notif A) :=
    match ms with
    | [] => []
    | OnNext a :: r => OnNext a :: match f a with Ok _ => until_raise r | Err _ => [] end
    | n :: r => n :: until_raise r
    end.
End BehindCatch.

(** Not in the code: [behind_catch g c handler l]: in some schedule the run of pipe(c, catch(handler), g) comes
    to its end, and its subscriber has then been called with [l]; the sources make the calls that [makes] says,
    as long as nothing raises. *)
Definition behind_catch {A B} (g : stage A B) (c : cold A) (handler : exn -> res (cold A)) (l : list (notif B)) : Prop :=
  exists content h s,
    tail_reach (answers_to handler) None (does g) tt h s /\ no_failures h /\ csettled s /\
    (forall k o, In (ESub k o) (c_log s) -> calls_of k h = until_raise (does g) (script_of (content k o)) /\
       match o with
       | None => makes c (script_of (content k o))
       | Some x => match handler x with Ok c' => makes c' (script_of (content k o)) | Err _ => False end
       end) /\
    requests (c_log s) = l.

(** Not in the code: the same for pipe(c, retry(n), g) (transform.py:432-449). *)
Definition behind_retry {A B} (g : stage A B) (n : Z) (c : cold A) (l : list (notif B)) : Prop :=
  exists content h s,
    tail_reach retry_factory ROrig (does g) n h s /\ no_failures h /\ csettled s /\
    (forall k o, In (ESub k o) (c_log s) -> calls_of k h = until_raise (does g) (script_of (content k o)) /\
       match o with
       | ROrig => makes c (script_of (content k o))
       | RFail x => content k o = ([], Failed x)
       end) /\
    requests (c_log s) = l.

(** ** ... directly behind delay or interval *)

(** timeshift.py:79 [await msg.accept_observer(aobv)], create.py:216 [await aobv.asend(next)]: the call in
    progress raises what the function raises, and returns otherwise. *)
Definition goes {A B} (f : A -> res (option B)) (n : option (notif A)) (l : xlabel A) : Prop :=
  match l, n with
  | XReturn, Some (OnNext a) => exists o, f a = Ok o
  | XRaise x, Some (OnNext a) => f a = Err x
  | XRaise _, _ => False
  | _, _ => True
  end.

(** Not in the code: the call of delay's observer that is in progress. *)
Definition x_calling {A} (s : xstate A) : option (notif A) := match x_phase s with XCall n => Some n | _ => None end.
(** Not in the code: the call of interval's observer that is in progress. *)
Definition v_calling (s : ivstate) : option (notif nat) :=
  match v_phase s with ICall n => Some (OnNext n) | IClose => Some OnCompleted | _ => None end.

(** timeshift.py:33-100 with an operator directly behind it: the histories. *)
Inductive delay_reach {A B} (f : A -> res (option B)) (d t0 : Z) : list (xlabel A) -> xstate A -> Prop :=
| dr_nil : delay_reach f d t0 [] (x_init t0)
| dr_snoc h s l s' : delay_reach f d t0 h s -> goes f (x_calling s) l -> xstep d s l = Some s' -> delay_reach f d t0 (h ++ [l]) s'.

(** create.py:202-227 with an operator directly behind it: the histories. *)
Inductive interval_reach {B} (f : nat -> res (option B)) (seconds period t0 : Z) : list (xlabel nat) -> ivstate -> Prop :=
| ird_nil : interval_reach f seconds period t0 [] (iv_init t0)
| ird_snoc h s l s' : interval_reach f seconds period t0 h s -> goes f (v_calling s) l -> ivstep seconds period s l = Some s' ->
    interval_reach f seconds period t0 (h ++ [l]) s'.

(** transform.py:61-105, filtering.py:44-84: what the operator's subscriber is told of the calls [ms] of the operator's observer. *)
Definition told {A B} (f : A -> res (option B)) (ms : list (notif A)) : list (notif B) :=
  flat_map (fun n => match n with
                     | OnNext a => match f a with Ok (Some b) => [OnNext b] | _ => [] end
                     | OnError x => [OnError x]
                     | OnCompleted => [OnCompleted]
                     end) ms.
