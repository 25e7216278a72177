(** * Proofs about catch and retry of cold observables. *)
From Verif Require Export ColdCatch CatchProofs ColdProofs ColdSwitchProofs.
Set Implicit Arguments.

Definition errs {A} (l : list (notif A)) : list exn := flat_map (fun n => match n with OnError e => [e] | _ => [] end) l.
Lemma errs_trace A (vs : list A) e : errs (trace vs e) = match e with Failed x => [x] | _ => [] end.
Proof.
  unfold errs, trace. rewrite flat_map_app. replace (flat_map _ (map OnNext vs)) with (@nil exn); [now destruct e|].
  induction vs as [|v vs IH]; [reflexivity|exact IH].
Qed.
Lemma not_error_trace A (vs : list A) e : filter (@not_error A) (trace vs e) = trace vs (match e with Failed _ => Open | _ => e end).
Proof. unfold trace. rewrite filter_app. f_equal; [|now destruct e]. induction vs as [|v vs IH]; [reflexivity|]. cbn. now rewrite IH. Qed.
Lemma errs_one A (l : list (notif A)) : grammatical l -> length (errs l) <= 1.
Proof. intros (vs & e & ->). rewrite errs_trace. destruct e; cbn; lia. Qed.

Section P.
  Context {H O A : Type} (hd : H -> exn -> res O * H) (src : O) (h0 : H).
  Implicit Types (h : list (clabel A)) (s : cstate H O A).
  Notation reach := (creach hd src h0).

  Lemma ccalls_sorted h s : reach h s -> sources_grammatical h -> no_failures h ->
    forall l1 x l2 y l3, ccalls h = l1 ++ x :: l2 ++ y :: l3 -> fst x <= fst y.
  Proof.
    induction 1 as [|h s l s' Hr IH Hs]; intros Hg Hf l1 x l2 y l3 E; [destruct l1; discriminate|].
    pose proof (sg_snoc _ _ Hg) as Hg'. pose proof (no_failures_snoc _ _ Hf) as Hf'. rewrite CatchProofs.calls_snoc in E.
    destruct (ccalls [l]) as [|w ws] eqn:El; [rewrite app_nil_r in E; exact (IH Hg' Hf' _ _ _ _ _ E)|].
    destruct l as [k n|i|i e|]; cbn in El; try discriminate. injection El as <- <-.
    destruct (rev_case l3) as [->|(l3' & z & ->)].
    - replace (l1 ++ x :: l2 ++ [y]) with ((l1 ++ x :: l2) ++ [y]) in E by (now rewrite <- app_assoc).
      apply app_inj_tail in E as [E <-]. cbn [fst]. cbn [catch_step] in Hs. destruct (cbegun k s) eqn:B; [|discriminate]. unfold cbegun in B. apply Nat.ltb_lt in B.
      destruct (caller_latest _ Hr (gi_reach Hr Hg' Hf') Hg B) as (En & _).
      assert (X : fst x < c_next s). { destruct x as [j m]. apply (ci_calls (ci_reach Hr)) with m. rewrite E. apply in_or_app. right. now left. }
      lia.
    - replace (l1 ++ x :: l2 ++ y :: l3' ++ [z]) with ((l1 ++ x :: l2 ++ y :: l3') ++ [z]) in E
        by (repeat (rewrite <- app_assoc; cbn); reflexivity).
      apply app_inj_tail in E as [E _]. exact (IH Hg' Hf' _ _ _ _ _ E).
  Qed.

  Lemma errors_by_key h s : reach h s -> sources_grammatical h -> no_failures h ->
    errors h = flat_map (fun k => errs (calls_of k h)) (seq 0 (c_next s)).
  Proof.
    intros Hr Hg Hf. unfold errors.
    assert (E : ccalls h = flat_map (fun k => filter (fun p => fst p =? k) (ccalls h)) (seq 0 (c_next s))).
    { apply by_keys; [exact (ccalls_sorted Hr Hg Hf)|]. intros [k a] Hin. apply (ci_calls (ci_reach Hr)) in Hin. cbn. lia. }
    rewrite E at 1. clear. induction (seq 0 (c_next s)) as [|k l IH]; [reflexivity|]. cbn [flat_map]. rewrite flat_map_app, IH. f_equal.
    unfold calls_of, errs. generalize (filter (fun p => fst p =? k) (ccalls h)) as q. induction q as [|[j n] q IHq]; [reflexivity|]. cbn. now rewrite IHq.
  Qed.

  (** ** The handler raises at most for the last error. *)
  Notation hst := (fold_left (fun x e => snd (hd x e))).
  Lemma answers_le es : forall st, length (answers hd st es) <= length es.
  Proof. induction es as [|e es IH]; intros st; cbn; [lia|]. destruct (hd st e) as [[o|y] st']; cbn; specialize (IH st'); lia. Qed.
  Lemma answers_all es : forall st, length es <= length (answers hd st es) ->
    forall es1 x es2, es = es1 ++ x :: es2 -> exists o, fst (hd (hst es1 st) x) = Ok o.
  Proof.
    induction es as [|e es IH]; intros st L es1 x es2 E; [destruct es1; discriminate|]. cbn in L.
    destruct (hd st e) as [[o|y] st'] eqn:Eh; [|pose proof (answers_le es st'); cbn in L; lia]. cbn in L.
    destruct es1 as [|e1 es1]; injection E as <- E; cbn; rewrite Eh; [cbn; eauto|]. cbn. apply (IH st') with es2; [lia|exact E].
  Qed.

  Definition late_raise (st : H) (es : list exn) : Prop :=
    forall es1 x es2, es = es1 ++ x :: es2 -> es2 <> [] -> exists o, fst (hd (hst es1 st) x) = Ok o.

  Lemma flat_len X Y (f : X -> list Y) l : (forall x, In x l -> length (f x) <= 1) -> length (flat_map f l) <= length l.
  Proof. induction l as [|x l IH]; intros Hl; cbn; [lia|]. rewrite app_length. pose proof (Hl x (or_introl eq_refl)). assert (length (flat_map f l) <= length l) by (apply IH; intros y Hy; apply Hl; now right). lia. Qed.

  Lemma raises_late h s : reach h s -> sources_grammatical h -> no_failures h -> late_raise h0 (errors h).
  Proof.
    induction 1 as [|h s l s' Hr IH Hs]; intros Hg Hf es1 x es2 E Hne; [destruct es1; discriminate|].
    pose proof (sg_snoc _ _ Hg) as Hg'. pose proof (no_failures_snoc _ _ Hf) as Hf'. rewrite errors_snoc in E.
    destruct l as [k [a|e|]|i|i e|]; cbn in E; rewrite ?app_nil_r in E; try exact (IH Hg' Hf' _ _ _ E Hne).
    destruct (rev_case es2) as [->|(es2' & y & ->)]; [now elim Hne|].
    replace (es1 ++ x :: es2' ++ [y]) with ((es1 ++ x :: es2') ++ [y]) in E by (now rewrite <- app_assoc).
    apply app_inj_tail in E as [E <-].
    cbn [catch_step] in Hs. destruct (cbegun k s) eqn:B; [|discriminate]. unfold cbegun in B. apply Nat.ltb_lt in B.
    pose proof (gi_reach Hr Hg' Hf') as G. destruct (caller_latest _ Hr G Hg B) as (En & Eu & (ws & Ew)).
    refine (@answers_all (errors h) h0 _ es1 x es2' E).
    assert (La : length (answers hd h0 (errors h)) = k).
    { pose proof (gi_order G) as Go. rewrite Eu, app_nil_r in Go. apply (f_equal (@length _)) in Go. rewrite (subs_keys Hr), En in Go. cbn in Go. lia. }
    rewrite La, (errors_by_key Hr Hg' Hf'), En, seq_S, flat_map_app, app_length. cbn. rewrite Ew.
    replace (errs (map OnNext ws)) with (@nil exn) by (clear; induction ws; auto). cbn. rewrite Nat.add_0_r.
    etransitivity; [apply flat_len|now rewrite seq_length]. intros j _. exact (errs_one (Hg' j)).
  Qed.

  (** ** The chain of subscriptions, [act j] being what the [j]th has sent. *)
  Variable content : nat -> O -> list A * ending.
  Notation caught := (caught hd content).
  Variable act : nat -> list A * ending.
  Definition ends (l : list nat) : list exn := flat_map (fun j => errs (script_of (act j))) l.
  Definition outs (l : list nat) : list (notif A) := concat (map (fun j => filter (@not_error A) (script_of (act j))) l).
  Definition all_but_last_failed (k : nat) (l : list O) : Prop := forall j, j < length l -> exists x, snd (act (k + j)) = Failed x.

  Lemma chain_first k st l : l <> [] -> l = answers hd st (ends (seq k (S (length l)))) -> all_but_last_failed k l ->
    late_raise st (ends (seq k (S (length l)))) ->
    exists vs x o' st' l', act k = (vs, Failed x) /\ hd st x = (Ok o', st') /\ l = o' :: l' /\
      l' = answers hd st' (ends (seq (S k) (S (length l')))) /\ all_but_last_failed (S k) l' /\ late_raise st' (ends (seq (S k) (S (length l')))).
  Proof.
    intros Hne El Hf Hl. destruct l as [|o' l']; [now elim Hne|]. destruct (Hf 0) as [x Hx]; [cbn; lia|]. rewrite Nat.add_0_r in Hx.
    destruct (act k) as [vs e] eqn:Ea. cbn in Hx. subst e.
    assert (Ee : ends (seq k (S (length (o' :: l')))) = x :: ends (seq (S k) (S (length l')))).
    { cbn [length]. change (seq k (S (S (length l')))) with (k :: seq (S k) (S (length l'))). unfold ends. cbn [flat_map]. rewrite Ea. unfold script_of. rewrite errs_trace. reflexivity. }
    rewrite Ee in El, Hl. cbn [answers] in El. exists vs, x. destruct (hd st x) as [[o1|y] st'] eqn:Eh.
    - injection El as <- El. exists o', st', l'. repeat split; auto.
      + intros j Hj. destruct (Hf (S j)) as [z Hz]; [cbn; lia|]. exists z. now rewrite Nat.add_succ_r in Hz.
      + intros es1 z es2 E Hz. destruct (Hl (x :: es1) z es2) as [o1 Ho]; [now rewrite E|exact Hz|]. cbn in Ho. rewrite Eh in Ho. eauto.
    - exfalso. destruct (ends (seq (S k) (S (length l')))) as [|z es] eqn:Ez; [cbn in El; discriminate|].
      destruct (Hl [] x (z :: es) eq_refl) as [o1 Ho]; [discriminate|]. cbn in Ho. rewrite Eh in Ho. discriminate.
  Qed.

  Lemma outs_cons k n : outs (seq k (S n)) = filter (@not_error A) (script_of (act k)) ++ outs (seq (S k) n).
  Proof. reflexivity. Qed.
  Lemma trace_app (vs ws : list A) e : trace (vs ++ ws) e = map OnNext vs ++ trace ws e.
  Proof. unfold trace. now rewrite map_app, app_assoc. Qed.

  Lemma chain l : forall k st o, l = answers hd st (ends (seq k (S (length l)))) -> all_but_last_failed k l ->
    late_raise st (ends (seq k (S (length l)))) ->
    (forall j o', nth_error (o :: l) j = Some o' -> act (k + j) = content (k + j) o') ->
    exists vs e, caught k st o vs e /\ outs (seq k (S (length l))) = trace vs e.
  Proof.
    induction l as [|o1 l IH]; intros k st o El Hf Hl Ha.
    - pose proof (Ha 0 o eq_refl) as E. rewrite Nat.add_0_r in E. cbn [length] in *. unfold ends in El. cbn in El. rewrite app_nil_r, E in El.
      unfold outs. cbn. rewrite app_nil_r, E. destruct (content k o) as [vs e] eqn:Ec. unfold script_of in *. cbn [fst snd] in *. rewrite errs_trace in El. rewrite not_error_trace. exists vs. 
      destruct e as [|x|]; eexists; (split; [|reflexivity]).
      + apply caught_end; [exact Ec|discriminate].
      + cbn in El. destruct (hd st x) as [[o'|y] st'] eqn:Eh; [discriminate|]. eapply caught_raise; [exact Ec|exact Eh].
      + apply caught_end; [exact Ec|discriminate].
    - destruct (@chain_first k st (o1 :: l)) as (vs & x & o' & st' & l' & E1 & E2 & E3 & E4 & E5 & E6); auto; [discriminate|].
      injection E3 as <- <-. destruct (IH (S k) st' o1 E4 E5 E6) as (ws & e & C & Eo).
      + intros j o' E. specialize (Ha (S j) o' E). now rewrite Nat.add_succ_r in Ha.
      + exists (vs ++ ws), e. pose proof (Ha 0 o eq_refl) as E. rewrite Nat.add_0_r, E1 in E. split.
        * eapply caught_next; [symmetry; exact E|exact E2|exact C].
        * cbn [length]. rewrite outs_cons, Eo, E1. unfold script_of. cbn [fst snd]. rewrite not_error_trace, trace_app. unfold trace at 1. now rewrite app_nil_r.
  Qed.

  Lemma prefix_trace (vs ws : list A) e e' : prefix (trace vs e) (trace ws e') -> prefix vs ws /\ (e = Open \/ (e = e' /\ vs = ws)).
  Proof.
    revert ws. induction vs as [|v vs IH]; intros ws [c E].
    - split; [apply prefix_nil|]. destruct e as [|x|]; [now left| |]; right; cbn in E; destruct ws as [|w ws]; try discriminate; destruct e'; cbn in E; try discriminate; injection E; intros; subst; auto.
    - cbn in E. destruct ws as [|w ws]; [destruct e'; discriminate|]. cbn in E. injection E as <- E. destruct (IH ws) as [[d ->] K]; [now exists c|].
      split; [now exists d|]. destruct K as [K|[K1 K2]]; [now left|right]. split; congruence.
  Qed.

  Lemma chain_prefix l : forall k st o vs e, l = answers hd st (ends (seq k (S (length l)))) -> all_but_last_failed k l ->
    late_raise st (ends (seq k (S (length l)))) ->
    (forall j o', nth_error (o :: l) j = Some o' -> prefix (script_of (act (k + j))) (script_of (content (k + j) o'))) ->
    caught k st o vs e -> prefix (outs (seq k (S (length l)))) (trace vs e).
  Proof.
    induction l as [|o1 l IH]; intros k st o vs e El Hf Hl Ha C.
    - pose proof (Ha 0 o eq_refl) as P. rewrite Nat.add_0_r in P. destruct (act k) as [us d] eqn:Ea. unfold script_of in P. cbn [fst snd] in P. apply prefix_trace in P as [P Q].
      unfold outs. cbn. rewrite app_nil_r, Ea. unfold script_of. cbn [fst snd]. rewrite not_error_trace.
      assert (X : prefix us vs) by (inversion C as [? ? ? ? ? C1|? ? ? us' ? ? ? ws ? C1 C2 C3|? ? ? ? ? ? ? C1]; subst; rewrite C1 in P; cbn in P; destruct P as [c ->]; [exists c|exists (c ++ ws); now rewrite app_assoc|exists c]; reflexivity).
      assert (Y : prefix (map OnNext us) (trace vs e)).
      { destruct X as [c ->]. unfold trace. rewrite map_app, <- app_assoc. eexists. reflexivity. }
      destruct d as [|x|]; [unfold trace at 1; now rewrite app_nil_r|unfold trace at 1; now rewrite app_nil_r|].
      destruct Q as [Q|[Q1 Q2]]; [discriminate|]. inversion C as [? ? ? ? ? C1|? ? ? ? ? ? ? ? ? C1|? ? ? ? ? ? ? C1]; subst; rewrite C1 in *; cbn in *; try discriminate. subst. apply prefix_refl.
    - destruct (@chain_first k st (o1 :: l)) as (us & x & o' & st' & l' & E1 & E2 & E3 & E4 & E5 & E6); auto; [discriminate|].
      injection E3 as <- <-. pose proof (Ha 0 o eq_refl) as P. rewrite Nat.add_0_r, E1 in P. apply prefix_trace in P as [_ [P|[P1 P2]]]; [discriminate|]. cbn in P1, P2.
      inversion C as [? ? ? ? ? C1 C2|? ? ? us' x' o' st1 ws ? C1 C2 C3|? ? ? ? ? ? ? C1 C2]; subst; rewrite C1 in *; cbn [fst snd] in *; try congruence.
      + injection P1 as <-. rewrite E2 in C2. injection C2 as <- <-. cbn [length]. rewrite outs_cons, E1. unfold script_of. cbn [fst snd]. rewrite not_error_trace, trace_app. unfold trace at 1. rewrite app_nil_r.
        destruct (IH (S k) st' o1 ws e E4 E5 E6) as [c Ec]; [|exact C3|].
        * intros j o' E. specialize (Ha (S j) o' E). now rewrite Nat.add_succ_r in Ha.
        * exists c. now rewrite Ec, app_assoc.
  Qed.

  Lemma chain_begins l : forall k st o, l = answers hd st (ends (seq k (S (length l)))) -> all_but_last_failed k l ->
    late_raise st (ends (seq k (S (length l)))) ->
    (forall j o', nth_error (o :: l) j = Some o' -> prefix (script_of (act (k + j))) (script_of (content (k + j) o'))) ->
    exists vs, (outs (seq k (S (length l))) = map OnNext vs /\ begins hd content k st o vs) \/
               (outs (seq k (S (length l))) = trace vs Completed /\ caught k st o vs Completed).
  Proof.
    induction l as [|o1 l IH]; intros k st o El Hf Hl Ha.
    - pose proof (Ha 0 o eq_refl) as P. rewrite Nat.add_0_r in P. destruct (act k) as [us d] eqn:Ea. unfold script_of in P. cbn [fst snd] in P. apply prefix_trace in P as [P Q].
      unfold outs. cbn. rewrite app_nil_r, Ea. unfold script_of. cbn [fst snd]. rewrite not_error_trace. exists us.
      destruct d as [|x|]; [left; unfold trace; rewrite app_nil_r; split; [reflexivity|now constructor]|left; unfold trace; rewrite app_nil_r; split; [reflexivity|now constructor]|right].
      split; [reflexivity|]. destruct Q as [Q|[Q1 Q2]]; [discriminate|]. apply caught_end; [|discriminate]. destruct (content k o). cbn in *. congruence.
    - destruct (@chain_first k st (o1 :: l)) as (us & x & o' & st' & l' & E1 & E2 & E3 & E4 & E5 & E6); auto; [discriminate|].
      injection E3 as <- <-. pose proof (Ha 0 o eq_refl) as P. rewrite Nat.add_0_r, E1 in P. apply prefix_trace in P as [_ [P|[P1 P2]]]; [discriminate|]. cbn in P1, P2.
      assert (Ec : content k o = (us, Failed x)) by (destruct (content k o); cbn in *; congruence).
      destruct (IH (S k) st' o1 E4 E5 E6) as [ws W].
      { intros j o' E. specialize (Ha (S j) o' E). now rewrite Nat.add_succ_r in Ha. }
      assert (X : outs (seq k (S (length (o1 :: l)))) = map OnNext us ++ outs (seq (S k) (S (length l)))).
      { cbn [length]. rewrite outs_cons, E1. unfold script_of. cbn [fst snd]. rewrite not_error_trace. unfold trace. now rewrite app_nil_r. }
      exists (us ++ ws). rewrite X. destruct W as [[W1 W2]|[W1 W2]]; [left|right]; (split; [rewrite W1, ?trace_app, ?map_app; reflexivity|]).
      + eapply begins_next; eauto.
      + eapply caught_next; eauto.
  Qed.
End P.

(** ** What a subscription has sent *)
Definition content_of {A} (l : list (notif A)) : list A * ending :=
  (vals l, if existsb (fun n => match n with OnCompleted => true | _ => false end) l then Completed
           else match errs l with x :: _ => Failed x | [] => Open end).
Lemma content_trace A (vs : list A) e : content_of (trace vs e) = (vs, e).
Proof.
  unfold content_of. rewrite vals_trace, errs_trace. f_equal.
  replace (existsb _ (trace vs e)) with (match e with Completed => true | _ => false end); [now destruct e|].
  unfold trace. rewrite existsb_app. replace (existsb _ (map OnNext vs)) with false; [now destruct e|]. induction vs as [|v vs IH]; [reflexivity|exact IH].
Qed.
Lemma script_content A (l : list (notif A)) : grammatical l -> script_of (content_of l) = l.
Proof. intros (vs & e & ->). now rewrite content_trace. Qed.

Section Q.
  Context {H O A : Type} (hd : H -> exn -> res O * H) (src : O) (h0 : H).
  Implicit Types (h : list (clabel A)) (s : cstate H O A).
  Notation reach := (creach hd src h0).

  Lemma none_yet h s k : reach h s -> c_next s <= k -> calls_of k h = [].
  Proof.
    intros Hr L. destruct (calls_of k h) as [|n c] eqn:E; [reflexivity|]. exfalso.
    assert (X : In n (calls_of k h)) by (rewrite E; now left). apply in_calls_of, (ci_calls (ci_reach Hr)) in X. lia.
  Qed.

  Section One.
    Variables (h : list (clabel A)) (s : cstate H O A).
    Hypotheses (Hr : reach h s) (Hg : sources_grammatical h) (Hf : no_failures h).
    Definition acted (j : nat) := content_of (calls_of j h).
    Let l := answers hd h0 (errors h).

    Lemma acted_script j : script_of (acted j) = calls_of j h.
    Proof. apply script_content, Hg. Qed.
    Lemma chain_length : S (length l) = c_next s + length (upcoming s).
    Proof. pose proof (gi_order (gi_reach Hr Hg Hf)) as G. apply (f_equal (@length _)) in G. rewrite app_length, (subs_keys Hr) in G. now rewrite G. Qed.
    Lemma more_keys X (f : list (notif A) -> list X) : f [] = [] ->
      concat (map (fun j => f (calls_of j h)) (seq 0 (S (length l)))) = concat (map (fun j => f (calls_of j h)) (seq 0 (c_next s))).
    Proof.
      intros E. rewrite chain_length, seq_app, map_app, concat_app. replace (concat (map _ (seq (0 + c_next s) _))) with (@nil X); [apply app_nil_r|].
      symmetry. generalize (length (upcoming s)) as n. assert (P : c_next s <= 0 + c_next s) by lia. revert P. generalize (0 + c_next s) as b. intros b P n. revert b P.
      induction n as [|n IH]; intros b P; [reflexivity|]. cbn. rewrite (none_yet Hr P), E. cbn. apply IH. lia.
    Qed.
    Lemma chain_ends : ends acted (seq 0 (S (length l))) = errors h.
    Proof.
      rewrite (errors_by_key Hr Hg Hf), flat_map_concat_map, <- (@more_keys exn errs eq_refl). unfold ends. rewrite flat_map_concat_map. f_equal.
      apply map_ext. intros j. now rewrite acted_script.
    Qed.
    Lemma chain_outs : outs acted (seq 0 (S (length l))) = requests (c_log s).
    Proof.
      rewrite (gi_out (gi_reach Hr Hg Hf)), (ci_keys (ci_reach Hr)), <- (@more_keys _ (filter (@not_error A)) eq_refl). unfold outs. f_equal.
      apply map_ext. intros j. now rewrite acted_script.
    Qed.
    Lemma chain_failed : all_but_last_failed acted 0 l.
    Proof.
      intros j Hj. change (0 + j) with j. pose proof chain_length as L. pose proof (gi_one (gi_reach Hr Hg Hf)) as L1.
      destruct (gi_ended (gi_reach Hr Hg Hf) (k := j)) as [e F]; [lia|destruct (upcoming s); [left; cbn in L; lia|right; discriminate]|].
      apply in_calls_of in F. exists e. unfold acted. destruct (Hg j) as (vs & d & E). rewrite E in F. rewrite E, content_trace. cbn [snd].
      unfold trace in F. apply in_app_or in F as [F|F]; [apply in_map_iff in F as (? & ? & _); discriminate|].
      destruct d as [|x|]; cbn in F; try contradiction; destruct F as [F|[]]; [congruence|discriminate].
    Qed.
    Lemma chain_late : late_raise hd h0 (ends acted (seq 0 (S (length l)))).
    Proof. rewrite chain_ends. exact (raises_late Hr Hg Hf). Qed.
    Lemma chain_list : l = answers hd h0 (ends acted (seq 0 (S (length l)))).
    Proof. now rewrite chain_ends. Qed.

    Lemma chain_nth j o : nth_error (src :: l) j = Some o -> (In (ESub j o) (c_log s)) \/ (c_next s <= j).
    Proof.
      unfold l. rewrite <- (gi_order (gi_reach Hr Hg Hf)). intros E. destruct (le_lt_dec (c_next s) j) as [L|L]; [now right|left].
      rewrite nth_error_app1 in E by (now rewrite (subs_keys Hr)).
      rewrite <- pairs_snd, nth_error_map in E. destruct (nth_error (pairs (c_log s)) j) as [[i o']|] eqn:F; [|discriminate]. injection E as <-.
      apply in_pairs. replace j with i; [exact (nth_error_In _ _ F)|].
      pose proof (map_nth_error fst _ _ F) as G. rewrite pairs_fst, (ci_keys (ci_reach Hr)) in G. cbn in G.
      apply nth_error_nth with (d := 0) in G. now rewrite seq_nth in G by exact L.
    Qed.
  End One.

  Variable content : nat -> O -> list A * ending.
  Notation cfollows := (cfollows content).
  Notation cfinished := (cfinished content).

  Lemma cgram h s : reach h s -> cfollows h s -> sources_grammatical h.
  Proof.
    intros Hr [_ F] k. destruct (le_lt_dec (c_next s) k) as [L|L]; [rewrite (none_yet Hr L); now exists [], Open|].
    assert (Hk : In k (keys (c_log s))) by (rewrite (ci_keys (ci_reach Hr)); apply in_seq; lia).
    apply in_keys in Hk as [o Ho]. eapply grammatical_prefix; [exact (F k o Ho)|]. unfold script_of. now exists (fst (content k o)), (snd (content k o)).
  Qed.

  Lemma catch_all h s : reach h s -> cfollows h s -> cfinished h s ->
    exists vs e, caught hd content 0 h0 src vs e /\ requests (c_log s) = trace vs e.
  Proof.
    intros Hr F [D1 D2]. pose proof (cgram Hr F) as Hg. pose proof F as [Hf _].
    destruct (@chain H O A hd content (acted h) (answers hd h0 (errors h)) 0 h0 src) as (vs & e & C & E).
    - exact (chain_list Hr Hg Hf).
    - exact (chain_failed Hr Hg Hf).
    - exact (chain_late Hr Hg Hf).
    - intros j o Ej. cbn. destruct (chain_nth Hr Hg Hf _ Ej) as [Ho|L].
      + unfold acted. rewrite (D2 j o Ho). unfold script_of. rewrite content_trace. now destruct (content j o).
      + exfalso. assert (X : j < length (src :: answers hd h0 (errors h))) by (apply nth_error_Some; congruence). cbn [length] in X.
        rewrite (chain_length Hr Hg Hf) in X. rewrite upcoming_ups, D1 in X. rewrite ups_nil in X. cbn [length] in X. lia.
    - exists vs, e. split; [exact C|]. rewrite <- E. symmetry. exact (chain_outs Hr Hg Hf).
  Qed.

  Lemma catch_prefix h s vs e : reach h s -> cfollows h s -> caught hd content 0 h0 src vs e -> prefix (requests (c_log s)) (trace vs e).
  Proof.
    intros Hr F C. pose proof (cgram Hr F) as Hg. pose proof F as [Hf F4]. rewrite <- (chain_outs Hr Hg Hf).
    apply (@chain_prefix H O A hd content (acted h) (answers hd h0 (errors h)) 0 h0 src vs e); [exact (chain_list Hr Hg Hf)|exact (chain_failed Hr Hg Hf)|exact (chain_late Hr Hg Hf)| |exact C].
    intros j o Ej. change (0 + j) with j. rewrite acted_script by exact Hg. destruct (chain_nth Hr Hg Hf _ Ej) as [Ho|L]; [exact (F4 j o Ho)|].
    rewrite (none_yet Hr L). apply prefix_nil.
  Qed.

  Lemma catch_begins h s : reach h s -> cfollows h s ->
    exists vs, (requests (c_log s) = map OnNext vs /\ begins hd content 0 h0 src vs) \/
               (requests (c_log s) = trace vs Completed /\ caught hd content 0 h0 src vs Completed).
  Proof.
    intros Hr F. pose proof (cgram Hr F) as Hg. pose proof F as [Hf F4]. rewrite <- (chain_outs Hr Hg Hf).
    apply (@chain_begins H O A hd content (acted h) (answers hd h0 (errors h)) 0 h0 src); [exact (chain_list Hr Hg Hf)|exact (chain_failed Hr Hg Hf)|exact (chain_late Hr Hg Hf)|].
    intros j o Ej. change (0 + j) with j. rewrite acted_script by exact Hg. destruct (chain_nth Hr Hg Hf _ Ej) as [Ho|L]; [exact (F4 j o Ho)|].
    rewrite (none_yet Hr L). apply prefix_nil.
  Qed.

  Lemma caught_det k st o vs e : caught hd content k st o vs e -> forall vs' e', caught hd content k st o vs' e' -> vs' = vs /\ e' = e.
  Proof.
    induction 1 as [k st o vs e C1 C2|k st o vs x o' st' ws e C1 C2 C3 IH|k st o vs x y st' C1 C2]; intros vs' e' D;
      inversion D as [k1 st1 o1 us d D1 D2|k1 st1 o1 us z o2 st2 us' d D1 D2 D3|k1 st1 o1 us z w st2 D1 D2]; subst k1 st1 o1; rewrite C1 in D1; injection D1; intros; subst.
    - now split.
    - now elim (C2 z).
    - now elim (C2 z).
    - now elim (D2 x).
    - rewrite C2 in D2. injection D2 as <- <-. destruct (IH _ _ D3). split; congruence.
    - congruence.
    - now elim (D2 x).
    - congruence.
    - now split.
  Qed.

  (** ** Going on *)
  Lemma csub_unique h s k o o' : reach h s -> In (ESub k o) (c_log s) -> In (ESub k o') (c_log s) -> o = o'.
  Proof.
    intros Hr Hin Ho'. apply in_pairs in Hin, Ho'. assert (N : NoDup (keys (c_log s))) by (rewrite (ci_keys (ci_reach Hr)); apply seq_NoDup). rewrite <- pairs_fst in N.
    clear -Hin Ho' N. induction (pairs (c_log s)) as [|[i x] p IH]; [contradiction|]. cbn in N. inversion N; subst.
    destruct Hin as [E|Ho], Ho' as [E2|Ho2]; auto; [congruence| |].
    - injection E as -> ->. elim H2. exact (in_map fst _ _ Ho2).
    - injection E2 as -> ->. elim H2. exact (in_map fst _ _ Ho).
  Qed.

  Lemma cprogress h s : reach h s -> cfollows h s -> cfinished h s \/
    exists l s', catch_step hd s l = Some s' /\ cfollows (h ++ [l]) s' /\ l <> CUser.
  Proof.
    intros Hr F. pose proof F as [F1 F2].
    destruct (c_acts s) as [|[i p] r] eqn:Ea.
    - assert (D : forall p, (forall q, In q p -> In q (pairs (c_log s))) ->
              (forall k o, In (k, o) p -> calls_of k h = script_of (content k o)) \/ exists k o n c, In (k, o) p /\ script_of (content k o) = calls_of k h ++ n :: c).
      { induction p as [|[k o] p IH]; intros Hp; [left; intros k o []|].
        destruct IH as [IH|(k' & o' & n & c & Hin & E)]; [intros q Hq; apply Hp; now right| |right; exists k', o', n, c; split; [now right|exact E]].
        destruct (F2 k o) as [[|n c] E]; [apply in_pairs, Hp; now left| |right; exists k, o, n, c; split; [now left|exact E]].
        rewrite app_nil_r in E. left. intros k' o' [[= <- <-]|Hin]; [now symmetry|now apply IH]. }
      destruct (D _ (fun q Hq => Hq)) as [All|(k & o & n & c & Hin & E)].
      + left. split; [exact Ea|]. intros k o Ho. now apply All, in_pairs.
      + right. apply in_pairs in Hin.
        assert (B : cbegun k s = true). { unfold cbegun. apply Nat.ltb_lt. assert (Hk : In k (keys (c_log s))) by (apply in_keys; eauto). rewrite (ci_keys (ci_reach Hr)) in Hk. apply in_seq in Hk. lia. }
        assert (X : exists s', catch_step hd s (CCall k n) = Some s' /\ forall j o', In (ESub j o') (c_log s') -> In (ESub j o') (c_log s)).
        { cbn [catch_step]. rewrite B. eexists. split; [reflexivity|]. intros j o'. destruct n as [a|e|]; cbn.
          - intros Hj. apply in_app_or in Hj as [Hj|[Hj|[]]]; [exact Hj|discriminate].
          - unfold failover. destruct (hd (c_h s) e) as [[o1|y] h']; cbn; [|auto]. intros Hj. apply in_app_or in Hj as [Hj|Hj]; [exact Hj|]. destruct (c_var s); cbn in Hj; [destruct Hj as [Hj|[]]; discriminate|contradiction].
          - intros Hj. apply in_app_or in Hj as [Hj|[Hj|[]]]; [exact Hj|discriminate]. }
        destruct X as (s' & Hs & Hold). exists (CCall k n), s'. split; [exact Hs|]. split; [|discriminate]. split.
        * intros i e Hi. apply in_app_or in Hi as [Hi|[Hi|[]]]; [exact (F1 i e Hi)|discriminate].
        * intros j o' Hj. apply Hold in Hj. rewrite calls_of_snoc. replace (calls_of j [CCall k n]) with (if k =? j then [n] else []) by (unfold calls_of; cbn; now destruct (k =? j)).
          destruct (k =? j) eqn:Ej; [|rewrite app_nil_r; exact (F2 j o' Hj)]. apply Nat.eqb_eq in Ej. subst j. rewrite <- (@csub_unique h s k o o' Hr Hin Hj), E.
          exists c. now rewrite <- app_assoc.
    - right. assert (El : lookup i (c_acts s) = Some p) by (rewrite Ea; unfold lookup; cbn; now rewrite Nat.eqb_refl).
      assert (X : exists s', catch_step hd s (CAct i) = Some s' /\ forall j o', In (ESub j o') (c_log s') -> In (ESub j o') (c_log s) \/ j = c_next s).
      { cbn. rewrite El. destruct p; eexists; (split; [reflexivity|]); cbn; auto. intros j o' Hj. apply in_app_or in Hj as [Hj|[Hj|[]]]; [now left|right; congruence]. }
      destruct X as (s' & Hs & Hnew). exists (CAct i), s'. split; [exact Hs|]. split; [|discriminate]. split.
      + intros j e Hi. apply in_app_or in Hi as [Hi|[Hi|[]]]; [exact (F1 j e Hi)|discriminate].
      + intros j o' Hj. rewrite calls_of_snoc. change (calls_of j [CAct i]) with (@nil (notif A)). rewrite app_nil_r. destruct (Hnew _ _ Hj) as [Ho| ->]; [exact (F2 j o' Ho)|].
        rewrite (none_yet Hr (le_n _)). apply prefix_nil.
  Qed.
End Q.

(** ** retry *)
Section R.
  Context {A : Type} (attempt : nat -> list A * ending).
  Notation content := (retry_content attempt).
  Lemma fails_forever k st o vs e : caught retry_factory content k st o vs e -> forall x, st = 0%Z -> o <> RFail x.
  Proof.
    induction 1 as [k st o vs e C1 C2|k st o vs x o' st' ws e C1 C2 C3 IH|k st o vs x y st' C1 C2]; intros z -> ->; cbn in *.
    - injection C1 as _ C1. now elim (C2 z).
    - injection C2 as <- <-. now apply (IH x).
    - discriminate.
  Qed.
  Lemma fails_silently k st o vs : begins retry_factory content k st o vs -> forall x, st = 0%Z -> o = RFail x -> vs = [].
  Proof.
    induction 1 as [k st o us [c P]|k st o vs x o' st' ws C1 C2 C3 IH]; intros z -> ->; cbn in *.
    - destruct us; [reflexivity|discriminate].
    - injection C1 as <- <-. injection C2 as <- <-. rewrite (IH z eq_refl eq_refl). reflexivity.
  Qed.
End R.
