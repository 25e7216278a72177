(** * Python's heapq, and the virtual time event loop with it.

    Loop.v leaves open which of the timers with the least deadline is first in
    the heap.  Here the heap is the array that CPython's heapq makes of it
    (Lib/heapq.py, not in /repo; the C version does the same).  Entries are
    compared by [__lt__] of TimerHandle, that is, by their deadlines. *)
From Verif Require Export Loop.
Set Implicit Arguments.

(** [heap[i] = x]. *)
Fixpoint upd (h : list nat) (i x : nat) : list nat :=
  match h, i with
  | [], _ => []
  | _ :: h, O => x :: h
  | y :: h, S i => y :: upd h i x
  end.

(** The parent of a position: [(pos - 1) >> 1]. *)
Definition par (i : nat) : nat := (i - 1) / 2.

Section Heap.
  Variable key : nat -> Z.

  (** The loop of _siftdown, with [heap[pos] = newitem] after it. *)
  Fixpoint siftdown_loop (fuel : nat) (h : list nat) (startpos pos newitem : nat) : list nat :=
    match fuel with
    | O => upd h pos newitem
    | S fuel =>
        if startpos <? pos then
          let parent := nth (par pos) h 0 in
          if (key newitem <? key parent)%Z then siftdown_loop fuel (upd h pos parent) startpos (par pos) newitem
          else upd h pos newitem
        else upd h pos newitem
    end.
  (** heapq._siftdown of the Python library *)
  Definition siftdown (h : list nat) (startpos pos : nat) : list nat := siftdown_loop pos h startpos pos (nth pos h 0).

  (** The loop of _siftup: the array and the position of the hole. *)
  Fixpoint siftup_loop (fuel : nat) (h : list nat) (pos : nat) : list nat * nat :=
    match fuel with
    | O => (h, pos)
    | S fuel =>
        let c := 2 * pos + 1 in
        if c <? length h then
          let c := if (S c <? length h) && negb (key (nth c h 0%nat) <? key (nth (S c) h 0%nat))%Z then S c else c in
          siftup_loop fuel (upd h pos (nth c h 0)) c
        else (h, pos)
    end.
  (** heapq._siftup of the Python library *)
  Definition siftup (h : list nat) (pos : nat) : list nat :=
    let (h', p) := siftup_loop (length h) h pos in siftdown (upd h' p (nth pos h 0)) pos p.

  (** heapq.heappush of the Python library *)
  Definition heappush (h : list nat) (x : nat) : list nat := siftdown (h ++ [x]) 0 (length h).
  (** The entry taken, and the rest; [None] for an empty heap (IndexError). *)
  Definition heappop (h : list nat) : option (nat * list nat) :=
    match h with
    | [] => None
    | x :: _ =>
        match removelast h with
        | [] => Some (x, [])
        | h' => Some (x, siftup (upd h' 0 (last h 0)) 0)
        end
    end.
  (** heapq.heapify of the Python library: its loop, from index [i - 1] down to 0 *)
  Fixpoint heapify_from (i : nat) (h : list nat) : list nat :=
    match i with
    | O => h
    | S i => heapify_from i (siftup h i)
    end.
  (** heapq.heapify of the Python library (testing/virtual_events.py:78) *)
  Definition heapify (h : list nat) : list nat := heapify_from (length h / 2) h.
End Heap.

(** ** The loop with this heap: [v_sched] is the array [_scheduled]. *)

(** As [vact_do]; call_at pushes onto the heap (asyncio's call_at). *)
Definition hact_do (s : vstate) (a : vact) : vstate :=
  match a with
  | VAt w =>
      let id := length (v_tab s) in
      let tab := v_tab s ++ [HInfo (Some w) false] in
      VState (v_time s) tab (v_ready s) (heappush (deadline tab) (v_sched s) id) (v_count s) (v_todo s) (v_iter s) (v_log s)
  | _ => vact_do s a
  end.

(** virtual_events.py:83-86. *)
Fixpoint hpop_cancelled (fuel : nat) (tab : list hinfo) (h : list nat) : list nat :=
  match fuel, h with
  | S fuel, id :: _ =>
      if cancelled tab id then match heappop (deadline tab) h with Some (_, h') => hpop_cancelled fuel tab h' | None => h end else h
  | _, _ => h
  end.

(** virtual_events.py:64-86. *)
Definition hclean (s : vstate) : list nat * Z :=
  if crowded s then (heapify (deadline (v_tab s)) (filter (fun id => negb (cancelled (v_tab s) id)) (v_sched s)), 0%Z)
  else let l := hpop_cancelled (length (v_sched s)) (v_tab s) (v_sched s) in
       (l, (v_count s - Z.of_nat (length (v_sched s) - length l))%Z).

(** virtual_events.py:64-106. *)
Definition hbegin (s : vstate) : vstate :=
  let (l, c) := hclean s in
  match v_ready s, heappop (deadline (v_tab s)) l with
  | [], Some (id, l') =>
      VState (Z.max (deadline (v_tab s) id) (v_time s)) (v_tab s) [id] l' c (Some 1%nat) (S (v_iter s)) (v_log s)
  | r, _ => VState (v_time s) (v_tab s) r l c (Some (length r)) (S (v_iter s)) (v_log s)
  end.

(** virtual_events.py:107-122, as [run_handle]. *)
Definition hrun_handle (s : vstate) (acts : list vact) : option vstate :=
  match v_todo s, v_ready s with
  | Some (S n), id :: r =>
      let s' := VState (v_time s) (v_tab s) r (v_sched s) (v_count s) (Some n) (v_iter s) in
      if cancelled (v_tab s) id then match acts with [] => Some (s' (v_log s)) | _ => None end
      else Some (fold_left hact_do acts (s' (v_log s ++ [(id, v_time s)])))
  | _, _ => None
  end.

(** testing/virtual_events.py:55-123: one step of the loop whose schedule is a heap. *)
Definition hstep (s : vstate) (x : vlabel) : option vstate :=
  let idle := VState (v_time s) (v_tab s) (v_ready s) (v_sched s) (v_count s) None (v_iter s) (v_log s) in
  match x, v_todo s with
  | VOutside a, None => Some (hact_do s a)
  | VBegin, None => Some (hbegin s)
  | VRun acts, _ => hrun_handle s acts
  | VEnd, Some O => Some idle
  | VAbort, Some _ => Some idle
  | _, _ => None
  end.

(** Not in the code: runs a history. *)
Fixpoint hrun (s : vstate) (h : list vlabel) : option vstate :=
  match h with
  | [] => Some s
  | x :: h => match hstep s x with Some s => hrun s h | None => None end
  end.

(** Not in the code: the states that histories lead to. *)
Inductive hsteps (ok : vstate -> vlabel -> Prop) : vstate -> list vlabel -> vstate -> Prop :=
| hs_nil s : hsteps ok s [] s
| hs_snoc s h x s' s'' : hsteps ok s h s' -> ok s' x -> hstep s' x = Some s'' -> hsteps ok s (h ++ [x]) s''.

(** ** Specification *)
(** An array that is a heap: no entry is smaller than that at its parent. *)
Definition is_heap (key : nat -> Z) (h : list nat) : Prop :=
  forall i, 0 < i < length h -> (key (nth ((i - 1) / 2) h 0%nat) <= key (nth i h 0%nat))%Z.
