(** * Pipelines subscribed to an AsyncSubject.

    Subject.v has the subject (subject.py:97-166) with observers that return or
    raise whenever they like; Threads.v has an observer and what is behind it,
    called by anybody.  Here the observers of the subject are pipelines, and the
    callers are the calls of the subject: [await obv.asend(value)]
    (subject.py:122-123) runs the observer's body in the task of the sender. *)
From Verif Require Export Subject Threads.
Set Implicit Arguments.

(** Not in the code: the same exception. *)
Definition exn_eqb (a b : exn) : bool :=
  match a, b with
  | UserExn x, UserExn y => Z.eqb x y
  | ObjectDisposed, ObjectDisposed | ValueError, ValueError | TypeError, TypeError
  | InvalidState, InvalidState | StopAsyncIter, StopAsyncIter | KeyError, KeyError
  | RuntimeErr, RuntimeErr => true
  | _, _ => false
  end.

(** The observer that a pipeline gives to its source, and what is behind it
    (subject.py:156).  A mailbox or the subscriber itself has no observer in
    front: [id_op]. *)
Definition front {Z A} (p : pipe Z A) : { B : Type & (op (notif A) (act B) * pipe Z B)%type } :=
  match p in pipe _ A return { B : Type & (op (notif A) (act B) * pipe Z B)%type } with
  | PSync o r => existT _ _ (o, r)
  | r => existT _ _ (id_op, r)
  end.
(** Not in the code: its first component. *)
Definition front_op {Z A} (p : pipe Z A) : op (notif A) (act (projT1 (front p))) := fst (projT2 (front p)).
(** Not in the code: its second component. *)
Definition front_rest {Z A} (p : pipe Z A) : pipe Z (projT1 (front p)) := snd (projT2 (front p)).

(** A subscribed pipeline with all calls of its observer (Threads.v). *)
Record line (A : Type) : Type := Line {
  l_end : Type;
  l_pol : policy l_end;
  l_pipe : pipe l_end A;
  l_st : tstate l_pol (front_op l_pipe) (front_rest l_pipe)
}.
Arguments Line {A l_end} l_pol l_pipe l_st.
Arguments l_end {A} l.
Arguments l_pol {A} l.
Arguments l_pipe {A} l.
Arguments l_st {A} l.

(** Threads.v: a step of one subscribed pipeline. *)
Definition lstep {A} (v : line A) (x : tlabel (notif A)) : option (line A) :=
  match tstep (l_st v) x with
  | Some s => Some (Line (l_pol v) (l_pipe v) s)
  | None => None
  end.

(** Not in the code: how a coroutine has ended: not yet, by returning, or by raising. *)
Definition outcome {S N} (p : prog S N) : option (option exn) :=
  match p with Ret => Some None | Raise e => Some (Some e) | _ => None end.

(** Not in the code: the outcomes of all calls of the observer of a pipeline, in the order in which they began. *)
Definition outcomes {A} (v : line A) : list (option (option exn)) := map outcome (t_calls (l_st v)).

(** The subject, the pipelines in the order of their subscriptions (the
    observer number [o] of Subject.v is the one of pipeline [o]), and for each
    call of the subject which call it has made of the observer it waits for. *)
Record hub (A : Type) : Type := Hub {
  b_subj : ustate A;
  b_lines : list (line A);
  b_task : list nat
}.
Arguments Hub {A} b_subj b_lines b_task.
Arguments b_subj {A} h.
Arguments b_lines {A} h.
Arguments b_task {A} h.

(** subject.py:106-110: a new subject. *)
Definition b_init {A} : hub A := Hub u_init [] [].

(** What can happen: a pipeline is subscribed; subscription [k] is disposed;
    somebody calls the subject; the coroutine that call [c] of the subject is
    suspended in goes on; the observer it waits for has returned, or raised, and
    the loop of 122-123 goes on, or the call raises; worker [k] of pipeline
    [o] goes on; the subject is disposed. *)
Inductive blabel (A : Type) : Type :=
| BSub {Z} (pol : policy Z) (p : pipe Z A)
| BUnsub (k : nat)
| BCall (n : notif A)
| BGo (c : nat)
| BRet (c : nat)
| BExn (c : nat) (e : exn)
| BWork (o k : nat)
| BDispose.
Arguments BSub {A Z} pol p.
Arguments BUnsub {A} k.
Arguments BCall {A} n.
Arguments BGo {A} c.
Arguments BRet {A} c.
Arguments BExn {A} c e.
Arguments BWork {A} o k.
Arguments BDispose {A}.

(** subject.py:123, 133, 143: call [c] of the subject, if it is not over, calls its next observer. *)
Definition tell {A} (c : nat) (s : ustate A) (ls : list (line A)) (ts : list nat) : option (hub A) :=
  match nth_error (u_calls s) c with
  | Some (Flying n o _) =>
      match nth_error ls o with
      | Some v => match lstep v (TCall n) with
                  | Some v' => Some (Hub s (upd o v' ls) (upd c (length (outcomes v)) ts))
                  | None => None
                  end
      | None => None
      end
  | _ => Some (Hub s ls ts)
  end.

(** What the observer that call [c] of the subject waits for has done: which
    observer, which call of it, and its outcome. *)
Definition pending {A} (b : hub A) (c : nat) : option (nat * nat * option (option exn)) :=
  match nth_error (u_calls (b_subj b)) c, nth_error (b_task b) c with
  | Some (Flying _ o _), Some i =>
      match nth_error (b_lines b) o with
      | Some v => match nth_error (outcomes v) i with Some x => Some (o, i, x) | None => None end
      | None => None
      end
  | _, _ => None
  end.

(** subject.py:97-166 with pipelines as observers: one step. *)
Definition bstep {A} (b : hub A) (x : blabel A) : option (hub A) :=
  let s := b_subj b in
  match x with
  | BSub pol p =>
      match ustep s (USub (length (b_lines b))) with
      | Some s' => Some (Hub s' (b_lines b ++ [Line pol p (tinit pol (front_op p) (front_rest p))]) (b_task b))
      | None => None
      end
  | BUnsub k =>
      match ustep s (UUnsub k) with
      | Some s' => Some (Hub s' (b_lines b) (b_task b))
      | None => None
      end
  | BDispose =>
      match ustep s UDispose with
      | Some s' => Some (Hub s' (b_lines b) (b_task b))
      | None => None
      end
  | BCall n =>
      match ustep s (UCall n) with
      | Some s' => tell (length (u_calls s)) s' (b_lines b) (b_task b ++ [0])
      | None => None
      end
  | BGo c =>
      match pending b c with
      | Some (o, i, None) =>
          match nth_error (b_lines b) o with
          | Some v => match lstep v (TGo i) with
                      | Some v' => Some (Hub s (upd o v' (b_lines b)) (b_task b))
                      | None => None
                      end
          | None => None
          end
      | _ => None
      end
  | BRet c =>
      match pending b c with
      | Some (_, _, Some None) =>
          match ustep s (URet c) with
          | Some s' => tell c s' (b_lines b) (b_task b)
          | None => None
          end
      | _ => None
      end
  | BExn c e =>
      match pending b c with
      | Some (_, _, Some (Some e')) =>
          if exn_eqb e e' then
            match ustep s (UExn c e) with
            | Some s' => Some (Hub s' (b_lines b) (b_task b))
            | None => None
            end
          else None
      | _ => None
      end
  | BWork o k =>
      match nth_error (b_lines b) o with
      | Some v => match lstep v (TWork k) with
                  | Some v' => Some (Hub s (upd o v' (b_lines b)) (b_task b))
                  | None => None
                  end
      | None => None
      end
  end.

(** Not in the code: the states that histories lead to. *)
Inductive breach {A} : list (blabel A) -> hub A -> Prop :=
| br_nil : breach [] b_init
| br_snoc h x b b' : breach h b -> bstep b x = Some b' -> breach (h ++ [x]) b'.

(** ** Vocabulary *)

(** What happens at the subject in [h] (Subject.v); [k]: pipelines subscribed before. *)
Fixpoint at_subject_from {A} (k : nat) (h : list (blabel A)) : list (ulabel A) :=
  match h with
  | [] => []
  | BSub _ _ :: h' => USub k :: at_subject_from (S k) h'
  | BUnsub j :: h' => UUnsub j :: at_subject_from k h'
  | BCall n :: h' => UCall n :: at_subject_from k h'
  | BRet c :: h' => URet c :: at_subject_from k h'
  | BExn c e :: h' => UExn c e :: at_subject_from k h'
  | BDispose :: h' => UDispose :: at_subject_from k h'
  | _ :: h' => at_subject_from k h'
  end.
(** What happens at the subject in [h]: pipelines are numbered in the order of their subscriptions. *)
Definition at_subject {A} (h : list (blabel A)) : list (ulabel A) := at_subject_from 0 h.

(** Everything the subscriber of a pipeline has been told. *)
Definition lines_log {A} (v : line A) : list (notif (l_end v)) := tlog (l_st v).

(** Nothing is left to do in a pipeline: neither for its observer nor for a worker. *)
Definition settled_line {A} (v : line A) : Prop :=
  idle (l_st v) = true /\ quiet (pcomp (l_pol v) (front_rest (l_pipe v))) (snd (t_next (l_st v))).

(** All pipelines that [h] subscribes are [P]. *)
Definition each_pipeline {A} (P : forall Z, policy Z -> pipe Z A -> Prop) (h : list (blabel A)) : Prop :=
  forall x, In x h -> match x with BSub pol p => P _ pol p | _ => True end.

(** Nothing in a pipeline can raise into the task of the sender: before its
    first mailbox there are only functions of the user that do not raise, and
    the subscriber's own observer, if there is no mailbox, does not raise. *)
Inductive courteous {Z0 : Type} (pol : policy Z0) : forall A, pipe Z0 A -> Prop :=
| co_end : (forall l, pol l = None) -> courteous pol PEnd
| co_safe A (r : pipe Z0 A) : courteous pol (safe r)
| co_map A B (f : A -> B) r : courteous pol r -> courteous pol (map_ (fun a => Ok (f a)) r)
| co_map_async A B (f : A -> B) r : courteous pol r -> courteous pol (map_async_ (fun a => Ok (f a)) r)
| co_filter A (p : A -> bool) r : courteous pol r -> courteous pol (filter_ (fun a => Ok (p a)) r)
| co_filter_async A (p : A -> bool) r : courteous pol r -> courteous pol (filter_async_ (fun a => Ok (p a)) r)
| co_choose A B (f : A -> option B) r : courteous pol r -> courteous pol (choose_ (fun a => Ok (f a)) r)
| co_choose_async A B (f : A -> option B) r : courteous pol r -> courteous pol (choose_async_ (fun a => Ok (f a)) r)
| co_scan A B (f : B -> A -> res B) b r : courteous pol r -> courteous pol (scan_ f b r)
| co_scan_sync A B (f : B -> A -> res B) b r : courteous pol r -> courteous pol (scan_sync_ f b r)
| co_skip A n (r : pipe Z0 A) : courteous pol (skip_ n r)
| co_skip_last A isn n (r : pipe Z0 A) : courteous pol (skip_last_ isn n r)
| co_take A n opr (r : pipe Z0 A) : take_ n = Ok opr -> courteous pol (opr r)
| co_take_last A n (r : pipe Z0 A) : courteous pol (take_last_ n r)
| co_distinct A eqb (r : pipe Z0 A) : courteous pol (distinct_until_changed_ eqb r)
| co_zip A B (it : iterator B) (r : pipe Z0 (A * B)) : courteous pol (zip_seq_ it r).
Arguments courteous {Z0} pol {A} p.

(** Every call of the subject is over before the next is made. *)
Definition in_turn {A} (h : list (blabel A)) : Prop :=
  forall h1 n h2 b, h = h1 ++ BCall n :: h2 -> breach h1 b -> u_idle (b_subj b).

(** asyncio runs a task until it suspends: when the observer that a call of the
    subject waits for is over, then that call goes on before anything else
    happens. *)
Definition no_switch {A} (h : list (blabel A)) : Prop :=
  forall h1 x h2 b c o i y, h = h1 ++ x :: h2 -> breach h1 b -> pending b c = Some (o, i, Some y) ->
    x = BRet c \/ exists e, x = BExn c e.

(** The calls of a pipeline end in a mailbox, before anything that suspends the caller. *)
Inductive posting {Z0 : Type} : forall A, pipe Z0 A -> Prop :=
| po_safe A (r : pipe Z0 A) : posting (safe r)
| po_map A B (f : A -> res B) r : posting r -> posting (map_ f r)
| po_filter A (p : A -> res bool) r : posting r -> posting (filter_ p r)
| po_choose A B (f : A -> res (option B)) r : posting r -> posting (choose_ f r)
| po_scan A B (f : B -> A -> res B) b r : posting r -> posting (scan_sync_ f b r)
| po_skip A n (r : pipe Z0 A) : posting (skip_ n r)
| po_skip_last A isn n (r : pipe Z0 A) : posting (skip_last_ isn n r)
| po_take A n opr (r : pipe Z0 A) : take_ n = Ok opr -> posting (opr r)
| po_take_last A n (r : pipe Z0 A) : posting (take_last_ n r)
| po_distinct A eqb (r : pipe Z0 A) : posting (distinct_until_changed_ eqb r)
| po_zip A B (it : iterator B) (r : pipe Z0 (A * B)) : posting (zip_seq_ it r).
Arguments posting {Z0 A} p.

(** Work that was already begun: no new call, subscription or disposal. *)
Definition going {A} (x : blabel A) : Prop := match x with BGo _ | BRet _ | BExn _ _ | BWork _ _ => True | _ => False end.
