(** * The virtual time event loop (testing/virtual_events.py:32-125).

    Handles (call_soon) and timer handles (call_at, call_later) are numbered in
    the order in which they are created.  Times are integers here (floats
    there): the loop compares them and takes maxima only.  From asyncio (not in
    /repo): call_soon appends to [_ready]; call_at pushes onto the heap
    [_scheduled]; cancel marks a handle, and counts it in
    [_timer_cancelled_count] if it is a timer in the heap that was not cancelled
    before. *)
From Verif Require Export Base.
Set Implicit Arguments.
Local Open Scope Z_scope.

(** A handle: its deadline if it is a timer; [_cancelled]. *)
Record hinfo : Type := HInfo { h_when : option Z; h_cancelled : bool }.

(** 43-50.  [v_tab]: all handles ever created; [v_sched]: [_scheduled], as a
    set; [v_todo]: how many handles the running iteration has still to run (106),
    [None] between iterations; [v_iter]: number of iterations begun; [v_log]: the
    callbacks run, with the time of the loop. *)
Record vstate : Type := VState {
  v_time : Z;
  v_tab : list hinfo;
  v_ready : list nat;
  v_sched : list nat;
  v_count : Z;
  v_todo : option nat;
  v_iter : nat;
  v_log : list (nat * Z)
}.

(** testing/virtual_events.py:43-50: a new loop. *)
Definition v_init : vstate := VState 0 [] [] [] 0 None 0 [].

(** asyncio's Handle._cancelled (testing/virtual_events.py:73, 83, 109). *)
Definition cancelled (tab : list hinfo) (id : nat) : bool :=
  match nth_error tab id with Some h => h_cancelled h | None => false end.
(** asyncio's TimerHandle._when (testing/virtual_events.py:97). *)
Definition deadline (tab : list hinfo) (id : nat) : Z :=
  match nth_error tab id with Some (HInfo (Some w) _) => w | _ => 0 end.

(** The heap: [top k tab l] is the entry [l[0]] of a heap with the entries [l],
    in iteration [k].  All that is known of it is that no entry has a smaller deadline. *)
Definition heap_top (top : nat -> list hinfo -> list nat -> nat) : Prop :=
  forall k tab l, l <> [] -> In (top k tab l) l /\ forall j, In j l -> deadline tab (top k tab l) <= deadline tab j.

(** What a callback (or the program before it starts the loop) does. *)
Inductive vact : Type :=
| VSoon                  (* call_soon *)
| VAt (w : Z)            (* call_at *)
| VCancel (id : nat).    (* cancel of a handle *)

(** Not in the code: asyncio's Handle.cancel of handle [id] (its table entry is marked). *)
Fixpoint mark (tab : list hinfo) (id : nat) : list hinfo :=
  match tab, id with
  | [], _ => []
  | h :: tab, O => HInfo (h_when h) true :: tab
  | h :: tab, S id => h :: mark tab id
  end.

(** asyncio's call_soon, call_at (base_events.py) and Handle.cancel, as inherited by testing/virtual_events.py:32. *)
Definition vact_do (s : vstate) (a : vact) : vstate :=
  let id := length (v_tab s) in
  match a with
  | VSoon => VState (v_time s) (v_tab s ++ [HInfo None false]) (v_ready s ++ [id]) (v_sched s) (v_count s) (v_todo s) (v_iter s) (v_log s)
  | VAt w => VState (v_time s) (v_tab s ++ [HInfo (Some w) false]) (v_ready s) (v_sched s ++ [id]) (v_count s) (v_todo s) (v_iter s) (v_log s)
  | VCancel i =>
      if negb (i <? id)%nat || cancelled (v_tab s) i then s
      else VState (v_time s) (mark (v_tab s) i) (v_ready s) (v_sched s)
             (if existsb (Nat.eqb i) (v_sched s) then v_count s + 1 else v_count s) (v_todo s) (v_iter s) (v_log s)
  end.

Section Loop.
  Variable top : nat -> list hinfo -> list nat -> nat.

  (** 83-86: remove cancelled timers from the head of the queue. *)
  Fixpoint pop_cancelled (fuel : nat) (k : nat) (tab : list hinfo) (l : list nat) : list nat :=
    match fuel, l with
    | S fuel, _ :: _ =>
        let id := top k tab l in
        if cancelled tab id then pop_cancelled fuel k tab (remove Nat.eq_dec id l) else l
    | _, _ => l
    end.

  (** 64-68: more than 100 timers of which more than half are cancelled. *)
  Definition crowded (s : vstate) : bool :=
    (100 <? length (v_sched s))%nat && (Z.of_nat (length (v_sched s)) <? 2 * v_count s).

  (** 71-80, or 83-86. *)
  Definition clean (s : vstate) : list nat * Z :=
    if crowded s then (filter (fun id => negb (cancelled (v_tab s) id)) (v_sched s), 0)
    else let l := pop_cancelled (length (v_sched s)) (v_iter s) (v_tab s) (v_sched s) in
         (l, v_count s - Z.of_nat (length (v_sched s) - length l)).

  (** 64-106: up to the loop that runs the handles.  The [while] of 92 stops
      after one timer, as [_ready] is not empty any more. *)
  Definition begin_iteration (s : vstate) : vstate :=
    let (l, c) := clean s in
    match v_ready s, l with
    | [], _ :: _ =>
        let id := top (v_iter s) (v_tab s) l in
        VState (Z.max (deadline (v_tab s) id) (v_time s)) (v_tab s) [id] (remove Nat.eq_dec id l) c (Some 1%nat) (S (v_iter s)) (v_log s)
    | r, _ => VState (v_time s) (v_tab s) r l c (Some (length r)) (S (v_iter s)) (v_log s)
    end.

  (** 107-122: the next handle; its callback does [acts] (exceptions are caught by Handle._run). *)
  Definition run_handle (s : vstate) (acts : list vact) : option vstate :=
    match v_todo s, v_ready s with
    | Some (S n), id :: r =>
        let s' := VState (v_time s) (v_tab s) r (v_sched s) (v_count s) (Some n) (v_iter s) in
        if cancelled (v_tab s) id then match acts with [] => Some (s' (v_log s)) | _ => None end
        else Some (fold_left vact_do acts (s' (v_log s ++ [(id, v_time s)])))
    | _, _ => None
    end.

  (** Not in the code: labels of histories. *)
  Inductive vlabel : Type :=
  | VOutside (a : vact)          (* something is done while no iteration runs *)
  | VBegin                       (* an iteration begins *)
  | VRun (acts : list vact)
  | VEnd                         (* it is over: its handles have run *)
  | VAbort.                      (* it is left by a KeyboardInterrupt or SystemExit *)

  (** testing/virtual_events.py:55-123 _run_once: one step. *)
  Definition vstep (s : vstate) (x : vlabel) : option vstate :=
    let idle := VState (v_time s) (v_tab s) (v_ready s) (v_sched s) (v_count s) None (v_iter s) (v_log s) in
    match x, v_todo s with
    | VOutside a, None => Some (vact_do s a)
    | VBegin, None => Some (begin_iteration s)
    | VRun acts, _ => run_handle s acts
    | VEnd, Some O => Some idle
    | VAbort, Some _ => Some idle
    | _, _ => None
    end.

  (** Not in the code: runs a history. *)
  Fixpoint vrun (s : vstate) (h : list vlabel) : option vstate :=
    match h with
    | [] => Some s
    | x :: h => match vstep s x with Some s => vrun s h | None => None end
    end.

  (** Histories in which every step is one that the users may make: [ok]. *)
  Variable ok : vstate -> vlabel -> Prop.
  (** Not in the code: the states that histories lead to. *)
  Inductive vsteps : vstate -> list vlabel -> vstate -> Prop :=
  | vs_nil s : vsteps s [] s
  | vs_snoc s h x s' s'' : vsteps s h s' -> ok s' x -> vstep s' x = Some s'' -> vsteps s (h ++ [x]) s''.
End Loop.

(** ** Specification *)
(** The deadline of a timer; [None] for a handle of call_soon. *)
Definition timer (s : vstate) (id : nat) : option Z :=
  match nth_error (v_tab s) id with Some h => h_when h | None => None end.
(** Not in the code: the callback was cancelled. *)
Definition was_cancelled (s : vstate) (id : nat) : Prop := cancelled (v_tab s) id = true.
(** Not in the code: the callback was run. *)
Definition was_run (s : vstate) (id : nat) : Prop := In id (map fst (v_log s)).
(** All histories; those in which no timer is scheduled in the past. *)
Definition always (s : vstate) (x : vlabel) : Prop := True.
(** Not in the code: no timer is scheduled in the past by this label. *)
Definition timely (s : vstate) (x : vlabel) : Prop :=
  match x with
  | VOutside (VAt w) => v_time s <= w
  | VRun acts => forall w, In (VAt w) acts -> v_time s <= w
  | _ => True
  end.
(** Nothing is left to do. *)
Definition drained (s : vstate) : Prop := v_todo s = None /\ v_ready s = [] /\ v_sched s = [].
