(** * Operators that work with time, as parts of programs.

    The models of delay, debounce, sample and timer (Time.v, Debounce.v) with a
    source that makes given calls, at any times. *)
From Verif Require Export Spec Time Debounce.
From Verif Require TimeSpec.
Set Implicit Arguments.

(** timeshift.py:33-182 delay(d), debounce(d), sample(d).  Every subscription
    is to an observable of its own here: two subscriptions to one delayed
    observable share a token (C57). *)
Inductive timeshift : Type :=
| Delay (d : Z)
| Debounce (d : Z)
| Sample (d : Z).

(** Not in the code: the calls of the first and of the second of two sources. *)
Definition srcs {A B} (ms : list (either A B)) : list (notif A) := flat_map (fun m => match m with Src n => [n] | Oth _ => [] end) ms.
(** Not in the code: see [srcs]. *)
Definition oths {A B} (ms : list (either A B)) : list (notif B) := flat_map (fun m => match m with Src _ => [] | Oth n => [n] end) ms.

(** Not in the code: a subscription to interval(seconds, period) that is not
    disposed may have made the calls [l]. *)
Definition interval_calls (seconds period : Z) (l : list (notif nat)) : Prop :=
  exists t0 h s, ivreach seconds period t0 h s /\ ~ In XCancel h /\ (forall x, ~ In (XRaise x) h) /\ map fst (v_log s) = l.
(** Not in the code: ... and nothing comes any more. *)
Definition interval_makes (seconds period : Z) (l : list (notif nat)) : Prop :=
  exists t0 h s, ivreach seconds period t0 h s /\ ~ In XCancel h /\ (forall x, ~ In (XRaise x) h) /\ v_phase s = IDone /\ map fst (v_log s) = l.

(** Not in the code: [shifts k ms l]: the source has made the calls [ms], no
    disposal, every timer has run out, every message has been dealt with, and
    the subscriber has been called with [l].  (sample(d) is the source itself
    unless d > 0, timeshift.py:172-180; its interval goes on as long as it is
    subscribed, so it may have made any number of calls.) *)
Definition shifts {A} (k : timeshift) (ms l : list (notif A)) : Prop :=
  match k with
  | Delay d =>
      exists t0 h s, xreach d t0 h s /\ ~ In XCancel h /\ (forall x, ~ In (XRaise x) h) /\
        map fst (TimeSpec.arrivals t0 h) = ms /\ x_phase s = XIdle /\ xwork s = None /\ map fst (x_log s) = l
  | Debounce d =>
      exists t0 h s, dreach d t0 h s /\ ~ In DCancel h /\
        map fst (darrivals t0 h) = ms /\ d_box s = [] /\ d_timers s = [] /\
        delivers (psys well_behaved (safe PEnd)) (map (fun x => fst (fst x)) (d_log s)) l
  | Sample d =>
      if (0 <? d)%Z
      then exists ns, srcs ns = ms /\ interval_calls d d (oths ns) /\ delivers (sample_sys well_behaved PEnd) ns l
      else l = ms
  end.

(** Not in the code: [part_of a b]: [a] is [b] without some of its elements. *)
Inductive part_of {A} : list A -> list A -> Prop :=
| part_nil : part_of [] []
| part_keep x a b : part_of a b -> part_of (x :: a) (x :: b)
| part_drop x a b : part_of a b -> part_of a (x :: b).

(** Not in the code: what they may make of the elements [xs] with the ending
    [e].  delay: the same.  debounce: any of the elements, in their order; if
    the source does not end, the last one is among them.  sample: the elements
    from some place on. *)
Definition shifted {A} (k : timeshift) (xs : list A) (e : ending) (vs : list A) : Prop :=
  match k with
  | Delay _ => vs = xs
  | Debounce _ => match e with
                  | Open => xs = [] /\ vs = [] \/ exists xs' vs' x, xs = xs' ++ [x] /\ vs = vs' ++ [x] /\ part_of vs' xs'
                  | _ => part_of vs xs
                  end
  | Sample d => if (0 <? d)%Z then exists us, xs = us ++ vs else vs = xs
  end.
