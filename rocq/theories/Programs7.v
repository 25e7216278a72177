(** * Disposing a program: vocabulary.

    [so_far] (Programs6.v) says what the subscriber of a program may have seen
    at any moment, while nobody disposes its subscription.  [cut] says what it
    may have seen at any moment, also after it has disposed its subscription:
    the parts are cancelled, each at some time of its own, and go on or stop as
    the models of the parts say. *)
From Verif Require Export Programs6.
Set Implicit Arguments.

(** create.py:202-236 interval and timer, which may have been disposed.  (Compare [interval_calls] in Timed.v.) *)
Definition interval_cut (seconds period : Z) (l : list (notif nat)) : Prop :=
  exists t0 h s, ivreach seconds period t0 h s /\ (forall x, ~ In (XRaise x) h) /\ map fst (v_log s) = l.

(** timeshift.py:33-182 delay, debounce, sample, which may have been disposed.  (Compare [shifts_so_far] in Programs6.v.) *)
Definition shifts_cut {A} (k : timeshift) (ms l : list (notif A)) : Prop :=
  match k with
  | Delay d =>
      exists t0 h s, xreach d t0 h s /\ (forall x, ~ In (XRaise x) h) /\
        map fst (TimeSpec.arrivals t0 h) = ms /\ map fst (x_log s) = l
  | Debounce d =>
      exists t0 h s, dreach d t0 h s /\ map fst (darrivals t0 h) = ms /\
        sees (psys well_behaved (safe PEnd)) (map (fun x => fst (fst x)) (d_log s)) l
  | Sample d =>
      if (0 <? d)%Z
      then exists ns, srcs ns = ms /\ interval_cut d d (oths ns) /\ sees (sample_sys well_behaved PEnd) ns l
      else l = ms
  end.

(** Not in the code: [cut c l]: at some moment of some run, the subscriber of
    [c] has been called with [l]; it may have disposed its subscription before. *)
Fixpoint cut {A} (c : cold A) : list (notif A) -> Prop :=
  match c in cold A return list (notif A) -> Prop with
  | From s => fun l => exists h st, src_reach well_behaved s PEnd h st /\ src_log well_behaved s PEnd st = l
  | Stage g c => fun l => exists ms, cut c ms /\ sees (psys well_behaved (safe (op_of g PEnd))) ms l
  | Inner maxc c inner => fun l =>
      exists ms h s, cut c ms /\
        mreach maxc h s /\ never_fails h /\ prefix (outer_calls h) (placed 0 ms) /\
        (forall k x i, In (ESub k (x, i)) (m_log s) -> up_to (cut (inner x)) (inner_calls k h)) /\
        sees (psys well_behaved (safe PEnd)) (requests (m_log s)) l
  | Caught c handler => fun l =>
      exists h s,
        creach (answers_to handler) None tt h s /\ no_failures h /\
        (forall k o, In (ESub k o) (c_log s) ->
           match o with
           | None => up_to (cut c) (calls_of k h)
           | Some x => match handler x with Ok c' => up_to (cut c') (calls_of k h) | Err _ => False end
           end) /\
        requests (c_log s) = l
  | Pair k c d => fun l => exists ms, cut c (srcs ms) /\ cut d (oths ms) /\ sees (pair_sys k) ms l
  | Switched c inner => fun l =>
      exists ms h s, cut c ms /\
        sreach h s /\ never_fails h /\ prefix (outer_calls h) (placed 0 ms) /\
        (forall k x i, In (ESub k (x, i)) (w_log s) -> up_to (cut (inner x)) (inner_calls k h)) /\
        sees (psys well_behaved (safe PEnd)) (requests (w_log s)) l
  | Shifted k c => fun l => exists ms, cut c ms /\ shifts_cut k ms l
  | Ticking seconds period => fun l => interval_cut seconds period l
  | Retried n c => fun l =>
      exists h s,
        creach retry_factory ROrig n h s /\ no_failures h /\
        (forall k o, In (ESub k o) (c_log s) ->
           match o with
           | ROrig => up_to (cut c) (calls_of k h)
           | RFail x => prefix (calls_of k h) [OnError x]
           end) /\
        requests (c_log s) = l
  | Given P => fun l => l = [] \/ exists vs e, P vs e /\ prefix l (trace vs e)
  end.

(** Not in the code: no from_async (create.py:59-76), whose task tells its
    observer that it has completed when it is cancelled (72-73); no debounce
    (timeshift.py:103-163), which does so when it is disposed (157); no
    switch_latest (transform.py:236-346), which may do so (297-309). *)
Fixpoint undisturbed {A} (c : cold A) : Prop :=
  match c with
  | From s => match src_task s with TNew (WAsync _) => False | _ => True end
  | Stage _ c => undisturbed c
  | Inner _ c inner => undisturbed c /\ forall x, undisturbed (inner x)
  | Caught c handler => undisturbed c /\ forall x, match handler x with Ok c' => undisturbed c' | Err _ => True end
  | Pair _ c d => undisturbed c /\ undisturbed d
  | Switched _ _ => False
  | Shifted k c => match k with Debounce _ => False | _ => undisturbed c end
  | Ticking _ _ => True
  | Retried _ c => undisturbed c
  | Given _ => True
  end.
