(** * More operators in programs: starmap, starfilter, slice and brackets; chains that may be exchanged. *)
From Verif Require Export Behind Slice Programs6.
Set Implicit Arguments.

(** transform.py:108-118 starmap, for pairs: map of the function of the pair (Ops.v). *)
Definition SStarmap {A B C} (f : A -> B -> res C) : stage (A * B) C := SMap (fun ab => f (fst ab) (snd ab)).
(** transform.py:78-92 starmap_async, for pairs. *)
Definition SStarmapAsync {A B C} (f : A -> B -> res C) : stage (A * B) C := SMapAsync (fun ab => f (fst ab) (snd ab)).
(** filtering.py:87-102 starfilter, for pairs. *)
Definition SStarfilter {A B} (p : A -> B -> res bool) : stage (A * B) (A * B) := SFilter (fun ab => p (fst ab) (snd ab)).

(** filtering.py:335-396 slice: the operators it consists of, or what it raises. *)
Definition slice_chain {A} (is_none : A -> bool) (start stop : option Z) (step : Z) : res (chain A A) :=
  let from := match start with Some i => i | None => 0%Z end in
  let first (r : chain A A) : chain A A :=                      (* 370-374 *)
    match start with
    | Some i => if (i <? 0)%Z then CCons (STakeLast A (Z.abs i)) r else CCons (SSkip A i) r
    | None => r
    end in
  let second (r : chain A A) : res (chain A A) :=               (* 376-381 *)
    match stop with
    | Some j => if (0 <? j)%Z
                then if (j - from <? 0)%Z then Err ValueError else Ok (CCons (STake A (Z.to_nat (j - from))) r)
                else Ok (CCons (SSkipLast is_none (Z.abs j)) r)
    | None => Ok r
    end in
  match second (if (1 <? step)%Z then CCons (SFilteri (fun _ i => Ok (Z.of_nat i mod step =? 0)%Z)) CNil else CNil) with   (* 383-389 *)
  | Err x => Err x
  | Ok r => if (step <? 0)%Z then Err TypeError else Ok (first r)   (* 390-392 *)
  end.

(** __init__.py:85-122 AsyncRx.__getitem__ with an integer key. *)
Definition item_chain {A} (is_none : A -> bool) (k : Z) : res (chain A A) := slice_chain is_none (Some k) (Some (k + 1)%Z) 1.
