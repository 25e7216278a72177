(** * Property C73: catch and retry of cold observables.

    [content k o]: the elements and the ending of what the subscription number
    [k], to the observable [o], receives; [hd]: the handler, a function with a
    state.  [cfollows]: the subscriptions make their calls, in their order, at
    any time; subscribe_async and dispose_async do not raise.  [cfinished]: all
    calls have been made and nothing is under way.  [caught]: the elements and
    the ending that catch should give (ColdCatch.v).  The result may be
    disposed at any time (which disposes the first subscription only, C34). *)
From Verif Require Import ColdCatchProofs.
Set Implicit Arguments.

(** At the end the observer has got the elements of the source; if it fails,
    then those of the observable the handler answers with; if that fails, of
    the next one; and so on to the first that does not fail; and its ending. *)
Theorem C73_catch : forall H O A (hd : H -> exn -> res O * H) src h0 (content : nat -> O -> list A * ending) h (s : cstate H O A),
  creach hd src h0 h s -> cfollows content h s -> cfinished content h s ->
  exists vs e, caught hd content 0 h0 src vs e /\ requests (c_log s) = trace vs e.
Proof. exact @catch_all. Qed.
Print Assumptions C73_catch.

(** This determines what the observer gets. *)
Theorem C73_determined : forall H O A (hd : H -> exn -> res O * H) (content : nat -> O -> list A * ending) k st o vs e vs' e',
  caught hd content k st o vs e -> caught hd content k st o vs' e' -> vs' = vs /\ e' = e.
Proof. intros H O A hd content k st o vs e vs' e' C C'. exact (caught_det C C'). Qed.
Print Assumptions C73_determined.

(** Before the end it has got a beginning of it. *)
Theorem C73_so_far : forall H O A (hd : H -> exn -> res O * H) src h0 (content : nat -> O -> list A * ending) h (s : cstate H O A) vs e,
  creach hd src h0 h s -> cfollows content h s -> caught hd content 0 h0 src vs e ->
  prefix (requests (c_log s)) (trace vs e).
Proof. exact @catch_prefix. Qed.
Print Assumptions C73_so_far.

(** Also if there is no end. *)
Theorem C73_so_far_endless : forall H O A (hd : H -> exn -> res O * H) src h0 (content : nat -> O -> list A * ending) h (s : cstate H O A),
  creach hd src h0 h s -> cfollows content h s ->
  exists vs, (requests (c_log s) = map OnNext vs /\ begins hd content 0 h0 src vs) \/
             (requests (c_log s) = trace vs Completed /\ caught hd content 0 h0 src vs Completed).
Proof. exact @catch_begins. Qed.
Print Assumptions C73_so_far_endless.

(** It goes on until it is finished. *)
Theorem C73_continues : forall H O A (hd : H -> exn -> res O * H) src h0 (content : nat -> O -> list A * ending) h (s : cstate H O A),
  creach hd src h0 h s -> cfollows content h s ->
  cfinished content h s \/
  exists l s', creach hd src h0 (h ++ [l]) s' /\ cfollows content (h ++ [l]) s' /\ l <> CUser.
Proof.
  intros H O A hd content src h0 h s Hr F. destruct (cprogress Hr F) as [D|(l & s' & Hs & F' & E)]; [now left|].
  right. exists l, s'. split; [eapply cr_snoc; eassumption|now split].
Qed.
Print Assumptions C73_continues.

(** ** retry: [attempt k] is what the attempt number [k] to subscribe to the
    source gives. *)
(** A source that does not fail is passed on. *)
Theorem C73_retry_unneeded : forall A (attempt : nat -> list A * ending) n h (s : cstate Z robs A) vs e,
  creach retry_factory ROrig n h s -> cfollows (retry_content attempt) h s -> cfinished (retry_content attempt) h s ->
  attempt 0 = (vs, e) -> (forall x, e <> Failed x) ->
  requests (c_log s) = trace vs e.
Proof.
  intros A attempt n h s vs e Hr F D E He. destruct (catch_all Hr F D) as (ws & d & C & ->).
  destruct (caught_det C (vs' := vs) (e' := e)) as [-> ->]; [|reflexivity]. now apply caught_end.
Qed.
Print Assumptions C73_retry_unneeded.

(** A source that fails once, and not the second time: what came before the
    error, then everything from the start. *)
Theorem C73_retry_once : forall A (attempt : nat -> list A * ending) n h (s : cstate Z robs A) vs x ws e,
  creach retry_factory ROrig n h s -> cfollows (retry_content attempt) h s -> cfinished (retry_content attempt) h s ->
  (n <> 0)%Z -> attempt 0 = (vs, Failed x) -> attempt 1 = (ws, e) -> (forall y, e <> Failed y) ->
  requests (c_log s) = trace (vs ++ ws) e.
Proof.
  intros A attempt n h s vs x ws e Hr F D Hn E0 E1 He. destruct (catch_all Hr F D) as (us & d & C & ->).
  destruct (caught_det C (vs' := vs ++ ws) (e' := e)) as [-> ->]; [|reflexivity].
  apply caught_next with (x := x) (o' := ROrig) (st' := 0%Z); [exact E0| |now apply caught_end].
  unfold retry_factory. apply Z.eqb_neq in Hn. now rewrite Hn, Z.sub_diag.
Qed.
Print Assumptions C73_retry_once.

(** A source that fails once more: it never comes to an end, the observer gets
    the elements of the one or two attempts and nothing more, whatever happens
    (so it is refuted that retry(n) delivers the error after n attempts, and
    that it makes n attempts). *)
Theorem C73_retry_delivers_error_refuted : forall A (attempt : nat -> list A * ending) n h (s : cstate Z robs A) vs x ws y,
  creach retry_factory ROrig n h s -> cfollows (retry_content attempt) h s ->
  attempt 0 = (vs, Failed x) -> attempt 1 = (ws, Failed y) ->
  ~ cfinished (retry_content attempt) h s /\
  exists us, requests (c_log s) = map OnNext us /\ prefix us (if (n =? 0)%Z then vs else vs ++ ws).
Proof.
  intros A attempt n h s vs x ws y Hr F E0 E1.
  assert (X : forall us d, ~ caught retry_factory (retry_content attempt) 0 n ROrig us d).
  { intros us d C. inversion C as [k1 st1 o1 ? ? D1 D2|k1 st1 o1 ? z o2 st2 us' ? D1 D2 D3|k1 st1 o1 ? z w st2 D1 D2]; subst; cbn in D1; rewrite E0 in D1; injection D1 as <- <-.
    - now apply (D2 x).
    - unfold retry_factory in D2. destruct (n =? 0)%Z eqn:En; injection D2 as <- <-.
      + apply Z.eqb_eq in En. subst n. exact (fails_forever D3 (x := x) eq_refl eq_refl).
      + rewrite Z.sub_diag in D3. inversion D3 as [k2 st3 o3 ? ? G1 G2|k2 st3 o3 ? z o2 st2 us2 ? G1 G2 G3|k2 st3 o3 ? z w st2 G1 G2]; subst; cbn in G1; rewrite E1 in G1; injection G1 as <- <-; [now apply (G2 y)| |discriminate].
        cbn in G2. injection G2 as <- <-. exact (fails_forever G3 (x := y) eq_refl eq_refl).
    - unfold retry_factory in D2. destruct (n =? 0)%Z; discriminate. }
  split; [intros D; destruct (catch_all Hr F D) as (us & d & C & _); exact (X _ _ C)|].
  destruct (catch_begins Hr F) as [us [[E B]|[_ C]]]; [|now elim (X _ _ C)]. exists us. split; [exact E|].
  inversion B as [k1 st1 o1 ? P|k1 st1 o1 ? z o2 st2 us' D1 D2 D3]; subst.
  - cbn in P. rewrite E0 in P. cbn in P. destruct (n =? 0)%Z; [exact P|]. destruct P as [c ->]. exists (c ++ ws). now rewrite app_assoc.
  - cbn in D1. rewrite E0 in D1. injection D1 as <- <-. unfold retry_factory in D2. destruct (n =? 0)%Z eqn:En; injection D2 as <- <-.
    + apply Z.eqb_eq in En. subst n. rewrite (fails_silently D3 (x := x) eq_refl eq_refl), app_nil_r. apply prefix_refl.
    + rewrite Z.sub_diag in D3. inversion D3 as [k2 st3 o3 ? P|k2 st3 o3 ? z o2 st2 us2 G1 G2 G3]; subst; cbn in *.
      * rewrite E1 in P. cbn in P. destruct P as [c ->]. exists c. now rewrite app_assoc.
      * rewrite E1 in G1. injection G1 as <- <-. injection G2 as <- <-. rewrite (fails_silently G3 (x := y) eq_refl eq_refl), app_nil_r. apply prefix_refl.
Qed.
Print Assumptions C73_retry_delivers_error_refuted.

(** retry(3): the first attempt sends 1 and fails, the second one sends 1, 2 and completes. *)
Definition C73_attempt (k : nat) : list nat * ending := if k =? 0 then ([1], Failed ValueError) else ([1; 2], Completed).
Definition C73_history : list (clabel nat) :=
  [CAct 0; CCall 0 (OnNext 1); CAct 0; CCall 0 (OnError ValueError); CAct 1; CCall 1 (OnNext 1); CAct 1; CCall 1 (OnNext 2); CCall 1 OnCompleted].
Example C73_case : exists s, creach retry_factory ROrig 3%Z C73_history s /\
  cfollows (retry_content C73_attempt) C73_history s /\ cfinished (retry_content C73_attempt) C73_history s /\
  requests (c_log s) = [OnNext 1; OnNext 1; OnNext 2; OnCompleted].
Proof.
  eexists. split; [apply crun_init; vm_compute; reflexivity|]. split; [split|split; [split|]]; try reflexivity.
  - intros i e F. cbn in F. repeat (destruct F as [F|F]; [discriminate|]). contradiction.
  - intros k o F. cbn in F. repeat (destruct F as [[= <- <-]|F] || destruct F as [F|F]); try discriminate; try contradiction; exists []; reflexivity.
  - intros k o F. cbn in F. repeat (destruct F as [[= <- <-]|F] || destruct F as [F|F]); try discriminate; try contradiction; reflexivity.
Qed.

(** Both attempts fail. *)
Definition C73_failing (k : nat) : list nat * ending := ([k], Failed ValueError).
Definition C73_failing_history : list (clabel nat) :=
  [CAct 0; CCall 0 (OnNext 0); CAct 0; CCall 0 (OnError ValueError); CAct 1; CAct 1; CCall 1 (OnNext 1); CCall 1 (OnError ValueError); CAct 2; CAct 2; CCall 2 (OnError ValueError)].
Example C73_failing_case : exists s, creach retry_factory ROrig 3%Z C73_failing_history s /\
  cfollows (retry_content C73_failing) C73_failing_history s /\ requests (c_log s) = [OnNext 0; OnNext 1].
Proof.
  eexists. split; [apply crun_init; vm_compute; reflexivity|]. split; [split|reflexivity].
  - intros i e F. cbn in F. repeat (destruct F as [F|F]; [discriminate|]). contradiction.
  - intros k o F. cbn in F. repeat (destruct F as [[= <- <-]|F] || destruct F as [F|F]); try discriminate; try contradiction; exists []; reflexivity.
Qed.
