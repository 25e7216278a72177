(** * Specifications, independent of the model.

    A stream is a list of values with an ending. *)
From Verif Require Export Base.
Set Implicit Arguments.

(** How a stream ends: not (yet), with an error, or by completing. *)
Inductive ending : Type :=
| Open
| Failed (x : exn)
| Completed.

(** The calls a subscriber sees for the values [vs] with ending [e]. *)
Definition trace {A} (vs : list A) (e : ending) : list (notif A) :=
  map OnNext vs ++
  match e with
  | Open => []
  | Failed x => [OnError x]
  | Completed => [OnCompleted]
  end.

(** The Rx grammar  OnNext* (OnError | OnCompleted)? *)
Definition grammatical {A} (l : list (notif A)) : Prop := exists vs e, l = trace vs e.

(** The calls up to and including the first terminal one. *)
Fixpoint upto_terminal {A} (ms : list (notif A)) : list (notif A) :=
  match ms with
  | [] => []
  | OnNext a :: r => OnNext a :: upto_terminal r
  | t :: _ => [t]
  end.

(** What a source may do: the calls of a stream, and after its terminal call
    any further calls (which the library has to ignore). *)
Definition source_calls {A} (vs : list A) (e : ending) (junk : list (notif A)) : list (notif A) :=
  trace vs e ++ match e with Open => [] | _ => junk end.

(** Ending [e], unless processing failed with [x] before. *)
Definition or_failed (x : option exn) (e : ending) : ending :=
  match x with Some y => Failed y | None => e end.

(** Results of [f] on the values, up to the first value for which it raises. *)
Fixpoint results {A B} (f : A -> res B) (vs : list A) : list B * option exn :=
  match vs with
  | [] => ([], None)
  | v :: r =>
      match f v with
      | Err e => ([], Some e)
      | Ok b => let (bs, x) := results f r in (b :: bs, x)
      end
  end.

(** The values that are [Some]. *)
Fixpoint somes {A} (l : list (option A)) : list A :=
  match l with
  | [] => []
  | Some a :: r => a :: somes r
  | None :: r => somes r
  end.

(** Values paired with their index, starting from [i]. *)
Fixpoint indexed {A} (i : nat) (vs : list A) : list (A * nat) :=
  match vs with
  | [] => []
  | v :: r => (v, i) :: indexed (S i) r
  end.

(** The last [n] values; all but the last [n] values. *)
Definition lastn {A} (n : nat) (l : list A) : list A := skipn (length l - n) l.
(** Not in the code: specification vocabulary, all but the last [n] elements. *)
Definition butlastn {A} (n : nat) (l : list A) : list A := firstn (length l - n) l.

(** Running results of a left fold, without the initial value. *)
Fixpoint scanl {A B} (f : B -> A -> B) (b : B) (vs : list A) : list B :=
  match vs with
  | [] => []
  | v :: r => f b v :: scanl f (f b v) r
  end.

(** Values that differ (according to [eqb]) from the value just before. *)
Fixpoint changes {A} (eqb : A -> A -> bool) (prev : option A) (vs : list A) : list A :=
  match vs with
  | [] => []
  | v :: r =>
      (match prev with
       | Some p => if eqb v p then [] else [v]
       | None => [v]
       end) ++ changes eqb (Some v) r
  end.

(** map: the results of [f], ending with its exception if it raises. *)
Definition map_out {A B} (f : A -> res B) (vs : list A) (e : ending) : list (notif B) :=
  let (bs, x) := results f vs in trace bs (or_failed x e).

(** choose: the results that are [Some]. *)
Definition choose_out {A B} (f : A -> res (option B)) (vs : list A) (e : ending) : list (notif B) :=
  let (bs, x) := results f vs in trace (somes bs) (or_failed x e).

(** filter [p] is choose of the values satisfying [p]. *)
Definition keep {A} (p : A -> res bool) (a : A) : res (option A) :=
  match p a with Ok true => Ok (Some a) | Ok false => Ok None | Err e => Err e end.

(** take: the first [n] values and completion; [n = 0]: only the ending of the source. *)
Definition take_out {A} (n : Z) (vs : list A) (e : ending) : list (notif A) :=
  if ((0 <? n) && (n <=? Z.of_nat (length vs)))%Z
  then trace (firstn (Z.to_nat n) vs) Completed
  else if (n =? 0)%Z then trace [] e else trace vs e.

(** take_last: on completion the last [n] values. *)
Definition take_last_out {A} (n : Z) (vs : list A) (e : ending) : list (notif A) :=
  match e with
  | Completed => trace (lastn (Z.to_nat n) vs) Completed
  | _ => trace [] e
  end.

(** Values other than None. *)
Definition not_none {A} (is_none : A -> bool) (vs : list A) : list A := filter (fun a => negb (is_none a)) vs.

(** zip_seq: pairs with the items [i], [i+1], ... of an iterable, and the ending. *)
Fixpoint zip_from {A B} (it : iterator B) (i : nat) (vs : list A) (e : ending) : list (A * B) * ending :=
  match vs with
  | [] => ([], e)
  | v :: r =>
      match it i with
      | Item b => let (ps, x) := zip_from it (S i) r e in ((v, b) :: ps, x)
      | IStop => ([], Completed)
      | IRaise x => ([], Failed x)
      end
  end.

(** zip_seq from the first item. *)
Definition zip_out {A B} (it : iterator B) (vs : list A) (e : ending) : list (notif (A * B)) :=
  let (ps, x) := zip_from it 0 vs e in trace ps x.

(** scan calls: running results; a raising accumulator gives OnError and keeps the accumulation. *)
Fixpoint scan_raw {A B} (f : B -> A -> res B) (b : B) (vs : list A) : list (notif B) :=
  match vs with
  | [] => []
  | v :: r =>
      match f b v with
      | Ok b' => OnNext b' :: scan_raw f b' r
      | Err x => OnError x :: scan_raw f b r
      end
  end.

(** Running results up to the first exception. *)
Fixpoint scan_results {A B} (f : B -> A -> res B) (b : B) (vs : list A) : list B * option exn :=
  match vs with
  | [] => ([], None)
  | v :: r =>
      match f b v with
      | Ok b' => let (bs, x) := scan_results f b' r in (b' :: bs, x)
      | Err x => ([], Some x)
      end
  end.

(** reduce: on completion of a non-empty source, the fold. *)
Definition reduce_out {A B} (f : B -> A -> B) (b : B) (vs : list A) (e : ending) : list (notif B) :=
  match e with
  | Completed => trace (match vs with [] => [] | _ => [fold_left f vs b] end) Completed
  | _ => trace [] e
  end.

(** Python's [xs[start:stop:step]] for positive [step]: the values whose index
    [i] lies between the clamped bounds and is congruent to the lower bound. *)
Definition clamp (n : Z) (i : Z) : Z :=
  let j := (if i <? 0 then i + n else i)%Z in Z.max 0 (Z.min n j).

(** Not in the code: Python's [xs[start:stop:step]] for a positive step, which filtering.py:335-366 (documentation of slice) refers to. *)
Definition py_slice {A} (start stop : option Z) (step : Z) (xs : list A) : list A :=
  let n := Z.of_nat (length xs) in
  let lo := match start with Some i => clamp n i | None => 0%Z end in
  let hi := match stop with Some i => clamp n i | None => n end in
  map fst (filter (fun p => let i := Z.of_nat (snd p) in
                    ((lo <=? i) && (i <? hi) && ((i - lo) mod step =? 0))%Z) (indexed 0 xs)).

(** When slice refuses its arguments. *)
Definition slice_error (start stop : option Z) (step : Z) : option exn :=
  match stop with
  | Some j => if ((0 <? j) && (j <? match start with Some i => i | None => 0 end))%Z then Some ValueError
              else if (step <? 0)%Z then Some TypeError else None
  | None => if (step <? 0)%Z then Some TypeError else None
  end.

(** Every [step]-th element. *)
Definition every {A} (step : Z) (xs : list A) : list A :=
  map fst (filter (fun p => (Z.of_nat (snd p) mod step =? 0)%Z) (indexed 0 xs)).

(** What slice does, stage by stage. *)
Definition slice_first {A} (start : option Z) (vs : list A) : list A :=
  match start with
  | Some i => if (i <? 0)%Z then lastn (Z.to_nat (Z.abs i)) vs else skipn (Z.to_nat i) vs
  | None => vs
  end.
(** filtering.py:376-381: what the second stage of slice passes on, on lists. *)
Definition slice_second {A} (is_none : A -> bool) (start stop : option Z) (vs : list A) : list A :=
  match stop with
  | Some j => if (0 <? j)%Z
              then firstn (Z.to_nat (j - match start with Some i => i | None => 0 end)) vs
              else not_none is_none (butlastn (Z.to_nat (Z.abs j)) vs)
  | None => vs
  end.
(** filtering.py:383-389: what the third stage of slice passes on, on lists. *)
Definition slice_third {A} (step : Z) (vs : list A) : list A :=
  if (1 <? step)%Z then every step vs else vs.
(** filtering.py:367-396: the stages of slice one after the other, on lists. *)
Definition slice_out {A} (is_none : A -> bool) (start stop : option Z) (step : Z) (vs : list A) : list A :=
  slice_third step (slice_second is_none start stop (slice_first start vs)).

(** ** Two sources *)

(** Arrival order of the elements of two sources. *)
Definition arrivals (A B : Type) := list (A + B).

(** The last element of the first / second source among the arrivals. *)
Definition last_left {A B} (p : arrivals A B) : option A :=
  fold_left (fun acc x => match x with inl a => Some a | inr _ => acc end) p None.
(** Not in the code: specification vocabulary, the last element that came from the second source. *)
Definition last_right {A B} (p : arrivals A B) : option B :=
  fold_left (fun acc x => match x with inr b => Some b | inl _ => acc end) p None.

(** The non-empty prefixes of a list, shortest first. *)
Definition prefixes {X} (l : list X) : list (list X) :=
  map (fun k => firstn k l) (seq 1 (length l)).

(** combine_latest: one pair per arrival, of the latest values so far, once
    both sources have produced a value. *)
Definition both {A B} (p : arrivals A B) : option (A * B) :=
  match last_left p, last_right p with Some a, Some b => Some (a, b) | _, _ => None end.
(** Not in the code: specification of combine_latest (combine.py:175-192, documentation). *)
Definition combined {A B} (arr : arrivals A B) : list (A * B) := somes (map both (prefixes arr)).

(** with_latest_from: one pair per arrival of the first source. *)
Definition sampled {A B} (p : arrivals A B) : option (A * B) :=
  match rev p with inl a :: _ => match last_right p with Some b => Some (a, b) | None => None end | _ => None end.
(** Not in the code: specification of with_latest_from (combine.py:255-273, documentation). *)
Definition with_latest {A B} (arr : arrivals A B) : list (A * B) := somes (map sampled (prefixes arr)).

(** The elements of the first source. *)
Definition lefts {A B} (arr : arrivals A B) : list A :=
  somes (map (fun x => match x with inl a => Some a | inr _ => None end) arr).

(** Arrivals as messages. *)
Definition msg_of {A B} (x : A + B) : either A B :=
  match x with inl a => Src (OnNext a) | inr b => Oth (OnNext b) end.

(** A terminal call of one of the sources, and what it means. *)
Definition ends {A B} (m : either A B) : ending :=
  match m with
  | Src (OnError e) | Oth (OnError e) => Failed e
  | Src OnCompleted | Oth OnCompleted => Completed
  | _ => Open
  end.

(** The arrivals [arr], then possibly a terminal call and anything after it. *)
Definition two_sources {A B} (arr : arrivals A B) (t : option (either A B)) (junk : list (either A B)) : list (either A B) :=
  map msg_of arr ++ match t with Some m => m :: junk | None => [] end.
(** Not in the code: specification vocabulary, how the output ends given the first terminal call, if any. *)
Definition ending_of {A B} (t : option (either A B)) : ending :=
  match t with Some m => ends m | None => Open end.

(** take_until: source elements and completions of the other source, up to the
    first call that ends the result. *)
Definition tu_msg {A B} (x : A + unit) : either A B :=
  match x with inl a => Src (OnNext a) | inr _ => Oth OnCompleted end.
(** Not in the code: specification of take_until (filtering.py:302-316, documentation): which calls end the output, and how. *)
Definition tu_ends {A B} (m : either A B) : ending :=
  match m with
  | Src (OnError e) | Oth (OnError e) => Failed e
  | Src OnCompleted | Oth (OnNext _) => Completed
  | _ => Open
  end.
(** Not in the code: specification vocabulary, the calls of a history of take_until. *)
Definition tu_calls {A B} (arr : arrivals A unit) (t : option (either A B)) (junk : list (either A B)) : list (either A B) :=
  map tu_msg arr ++ match t with Some m => m :: junk | None => [] end.

(** ** reduce with an accumulator that may raise *)
Fixpoint fold_res {A B} (f : B -> A -> res B) (b : B) (vs : list A) : res B :=
  match vs with
  | [] => Ok b
  | v :: r => match f b v with Ok b' => fold_res f b' r | Err x => Err x end
  end.
(** Not in the code: specification of reduce (transform.py:515-537), with a function that may raise. *)
Definition reduce_res {A B} (f : B -> A -> res B) (b : B) (vs : list A) (e : ending) : list (notif B) :=
  match fold_res f b vs with
  | Err x => trace [] (Failed x)
  | Ok r => match e with
            | Completed => trace (match vs with [] => [] | _ => [r] end) Completed
            | _ => trace [] e
            end
  end.

(** The element at index [k] of a list, counted from the end if [k] is negative. *)
Definition at_index {A} (k : Z) (xs : list A) : list A :=
  let i := (if k <? 0 then k + Z.of_nat (length xs) else k)%Z in
  if (i <? 0)%Z then [] else match nth_error xs (Z.to_nat i) with Some x => [x] | None => [] end.
