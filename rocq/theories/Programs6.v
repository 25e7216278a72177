(** * Programs at any moment: vocabulary.

    [makes] (Programs.v) says what the subscriber of a program has seen when its
    run has come to its end.  [so_far] says what it may have seen at any moment
    of any run, also of one that never ends: the same models of the parts,
    connected in the same way, each somewhere in the middle. *)
From Verif Require Export Programs2.
Set Implicit Arguments.

(** timeshift.py:33-182 delay, debounce, sample at any moment: the source has made
    the calls [ms], some timers run, some messages wait, the subscriber has
    been called with [l].  (Compare [shifts] in Timed.v.) *)
Definition shifts_so_far {A} (k : timeshift) (ms l : list (notif A)) : Prop :=
  match k with
  | Delay d =>
      exists t0 h s, xreach d t0 h s /\ ~ In XCancel h /\ (forall x, ~ In (XRaise x) h) /\
        map fst (TimeSpec.arrivals t0 h) = ms /\ map fst (x_log s) = l
  | Debounce d =>
      exists t0 h s, dreach d t0 h s /\ ~ In DCancel h /\ map fst (darrivals t0 h) = ms /\
        sees (psys well_behaved (safe PEnd)) (map (fun x => fst (fst x)) (d_log s)) l
  | Sample d =>
      if (0 <? d)%Z
      then exists ns, srcs ns = ms /\ interval_calls d d (oths ns) /\ sees (sample_sys well_behaved PEnd) ns l
      else l = ms
  end.

(** Not in the code: a subscription has made the calls [l]; [P] are the calls it
    may have made.  (One that has been disposed may have stopped before; and
    sources like single make several calls at once.) *)
Definition up_to {A} (P : list (notif A) -> Prop) (l : list (notif A)) : Prop := exists m, P m /\ prefix l m.

(** Not in the code: [so_far c l]: at some moment of some run, the subscriber of
    [c] has been called with [l] (and nobody has disposed its subscription). *)
Fixpoint so_far {A} (c : cold A) : list (notif A) -> Prop :=
  match c in cold A return list (notif A) -> Prop with
  | From s => fun l =>
      exists h st, src_reach well_behaved s PEnd h st /\ ~ In TCancel h /\ src_log well_behaved s PEnd st = l
  | Stage g c => fun l =>
      exists ms, so_far c ms /\ sees (psys well_behaved (safe (op_of g PEnd))) ms l
  | Inner maxc c inner => fun l =>
      exists ms h s, so_far c ms /\
        mreach maxc h s /\ ~ In LCancel h /\ never_fails h /\ prefix (outer_calls h) (placed 0 ms) /\
        (forall k x i, In (ESub k (x, i)) (m_log s) -> up_to (so_far (inner x)) (inner_calls k h)) /\
        sees (psys well_behaved (safe PEnd)) (requests (m_log s)) l
  | Caught c handler => fun l =>
      exists h s,
        creach (answers_to handler) None tt h s /\ no_failures h /\
        (forall k o, In (ESub k o) (c_log s) ->
           match o with
           | None => up_to (so_far c) (calls_of k h)
           | Some x => match handler x with Ok c' => up_to (so_far c') (calls_of k h) | Err _ => False end
           end) /\
        requests (c_log s) = l
  | Pair k c d => fun l =>
      exists ms, so_far c (srcs ms) /\ so_far d (oths ms) /\ sees (pair_sys k) ms l
  | Switched c inner => fun l =>
      exists ms h s, so_far c ms /\
        sreach h s /\ ~ In LCancel h /\ never_fails h /\ prefix (outer_calls h) (placed 0 ms) /\
        (forall k x i, In (ESub k (x, i)) (w_log s) -> up_to (so_far (inner x)) (inner_calls k h)) /\
        sees (psys well_behaved (safe PEnd)) (requests (w_log s)) l
  | Shifted k c => fun l => exists ms, so_far c ms /\ shifts_so_far k ms l
  | Ticking seconds period => fun l => interval_calls seconds period l
  | Retried n c => fun l =>
      exists h s,
        creach retry_factory ROrig n h s /\ no_failures h /\
        (forall k o, In (ESub k o) (c_log s) ->
           match o with
           | ROrig => up_to (so_far c) (calls_of k h)
           | RFail x => prefix (calls_of k h) [OnError x]
           end) /\
        requests (c_log s) = l
  | Given P => fun l => l = [] \/ exists vs e, P vs e /\ prefix l (trace vs e)
  end.

(** Not in the code: no catch or retry in it can go round for ever: what a
    handler answers does not fail, and retry is given something that does not fail
    (a second failure makes it go round for ever, C33).  The bounds of merge_inner
    are not negative. *)
Fixpoint steady {A} (c : cold A) : Prop :=
  match c with
  | From _ => True
  | Stage _ c => steady c
  | Inner maxc c inner => (0 <= maxc)%Z /\ steady c /\ forall x, steady (inner x)
  | Caught c handler => steady c /\ forall x, match handler x with Ok c' => steady c' /\ reliable c' | Err _ => True end
  | Pair _ c d => steady c /\ steady d
  | Switched c inner => steady c /\ forall x, steady (inner x)
  | Shifted _ c => steady c
  | Ticking _ _ => True
  | Retried _ c => steady c /\ reliable c
  | Given P => exists vs e, P vs e
  end.

(** transform.py:384-429 catch, at any moment: the observables it subscribed
    to before have failed; of the one it is subscribed to now, it has handed
    on a beginning, but no error.  (Compare [recovered] in Programs.v.) *)
Inductive recovering {A} (answer : exn -> option (list A -> ending -> Prop)) : (list A -> ending -> Prop) -> list (notif A) -> Prop :=
| ring_here (P : list A -> ending -> Prop) us d l : P us d -> prefix l (trace us d) -> (forall x, ~ In (OnError x) l) -> recovering answer P l
| ring_next (P : list A -> ending -> Prop) us x Q l : P us (Failed x) -> answer x = Some Q -> recovering answer Q l -> recovering answer P (map OnNext us ++ l).
