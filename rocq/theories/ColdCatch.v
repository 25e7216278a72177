(** * catch and retry of cold observables: vocabulary.

    The model of catch (Catch.v) with an environment: the subscription number
    [k], to the observable [o], makes the calls of [content k o], at any time
    (the content may depend on [k], so that a source can fail at first and
    succeed later). *)
From Verif Require Export Catch Cold.
Set Implicit Arguments.

Section ColdCatch.
  Context {H O A : Type}.
  Variable hd : H -> exn -> res O * H.
  Variable content : nat -> O -> list A * ending.

  (** Not in the code: the elements and the ending of the observable that catch
      stands for, where subscription [k] is to [o] and the handler's state is [st]:
      if [o] fails, the elements of what the handler answers come next; if the
      handler raises, nothing comes any more. *)
  Inductive caught : nat -> H -> O -> list A -> ending -> Prop :=
  | caught_end k st o vs e : content k o = (vs, e) -> (forall x, e <> Failed x) -> caught k st o vs e
  | caught_next k st o vs x o' st' ws e :
      content k o = (vs, Failed x) -> hd st x = (Ok o', st') -> caught (S k) st' o' ws e ->
      caught k st o (vs ++ ws) e
  | caught_raise k st o vs x y st' : content k o = (vs, Failed x) -> hd st x = (Err y, st') -> caught k st o vs Open.

  (** Not in the code: a beginning of these elements (there may be no end, if
      the handler answers with one failing observable after the other). *)
  Inductive begins : nat -> H -> O -> list A -> Prop :=
  | begins_here k st o us : prefix us (fst (content k o)) -> begins k st o us
  | begins_next k st o vs x o' st' ws :
      content k o = (vs, Failed x) -> hd st x = (Ok o', st') -> begins (S k) st' o' ws -> begins k st o (vs ++ ws).

  (** Not in the code: the subscriptions keep to that; no subscribe_async or
      dispose_async fails. *)
  Definition cfollows (h : list (clabel A)) (s : cstate H O A) : Prop :=
    no_failures h /\ forall k o, In (ESub k o) (c_log s) -> prefix (calls_of k h) (script_of (content k o)).

  (** Not in the code: all subscriptions have made their calls, and nothing is under way. *)
  Definition cfinished (h : list (clabel A)) (s : cstate H O A) : Prop :=
    csettled s /\ forall k o, In (ESub k o) (c_log s) -> calls_of k h = script_of (content k o).
End ColdCatch.

(** transform.py:441-445 for retry: the attempts to subscribe to the source, and fail(e). *)
Definition retry_content {A} (attempt : nat -> list A * ending) (k : nat) (o : robs) : list A * ending :=
  match o with ROrig => attempt k | RFail e => ([], Failed e) end.
