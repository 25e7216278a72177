(** * Proofs about all subscriptions of one retry(n) observable. *)
From Verif Require Export Retry CatchProofs.
Set Implicit Arguments.

Section RetryProofs.
  Context {A : Type}.
  Implicit Types (u v : cstate Z robs A).

  Definition origs (l : list robs) : nat := length (filter is_orig l).
  Lemma origs_app a b : origs (a ++ b) = origs a + origs b.
  Proof. unfold origs. now rewrite filter_app, app_length. Qed.

  (** The source's subscriptions made and decided on. *)
  Definition load u : nat := origs (subscribed (c_log u)) + origs (ups (c_acts u)).

  Lemma ups_cons j p (l : list (nat * aphase robs)) : ups ((j, p) :: l) = match p with ADisp o => [o] | ASub _ => [] end ++ ups l.
  Proof. reflexivity. Qed.

  Lemma ups_drop i (l : list (nat * aphase robs)) : origs (ups (drop i l)) <= origs (ups l).
  Proof.
    induction l as [|[j p] l IH]; [auto|]. unfold drop in *. cbn [filter fst].
    destruct (negb (j =? i)); rewrite !ups_cons, !origs_app; lia.
  Qed.

  Lemma ups_put i k (l : list (nat * aphase robs)) : origs (ups (put i (ASub k) l)) <= origs (ups l).
  Proof.
    induction l as [|[j p] l IH]; [auto|]. unfold put in *. cbn [map fst]. destruct (j =? i); rewrite !ups_cons, !origs_app; cbn; lia.
  Qed.

  Lemma ups_put_disp i o k (l : list (nat * aphase robs)) : lookup i l = Some (ADisp o) ->
    origs [o] + origs (ups (put i (ASub k) l)) <= origs (ups l).
  Proof.
    induction l as [|[j p] l IH]; [discriminate|]. unfold lookup, put in *. cbn [find map fst snd].
    destruct (Nat.eqb_spec j i) as [->|H]; intros E; rewrite !ups_cons, !origs_app.
    - injection E as ->. pose proof (ups_put i k l) as Hp. unfold put in Hp. cbn [ups flat_map] in *. change (origs []) with 0. lia.
    - specialize (IH E). lia.
  Qed.

  Definition credit (c : Z) : nat := if (c =? 0)%Z then 0 else 1.

  Lemma load_step c u l u' : catch_step retry_factory (with_count c u) l = Some u' ->
    load u' + credit (c_h u') <= load u + credit c.
  Proof.
    intros E. destruct l as [k n|i|i e|]; cbn [catch_step with_count] in E.
    - destruct (cbegun k (with_count c u)); [|discriminate]. destruct n as [a|e|].
      + injection E as <-. unfold load. cbn. rewrite csub_app. cbn. rewrite app_nil_r. lia.
      + injection E as <-. unfold failover. cbn [c_h with_count]. unfold retry_factory, credit.
        destruct (c =? 0)%Z eqn:Ec.
        * unfold load. cbn [c_log c_acts c_h c_var c_born with_count]. rewrite ups_app, origs_app, csub_app, Ec.
          assert (Hv : subscribed (match c_var u with Some v => [@EDispose robs A v] | None => [] end) = []) by (destruct (c_var u); reflexivity).
          rewrite Hv, app_nil_r. change (origs (ups [(c_born u, ADisp (RFail e))])) with 0. lia.
        * unfold load. cbn [c_log c_acts c_h c_var c_born with_count]. rewrite ups_app, origs_app, csub_app, Z.sub_diag. cbn [Z.eqb].
          assert (Hv : subscribed (match c_var u with Some v => [@EDispose robs A v] | None => [] end) = []) by (destruct (c_var u); reflexivity).
          rewrite Hv, app_nil_r. change (origs (ups [(c_born u, ADisp ROrig)])) with 1. lia.
      + injection E as <-. unfold load. cbn. rewrite csub_app. cbn. rewrite app_nil_r. lia.
    - cbn [c_acts with_count] in E. destruct (lookup i (c_acts u)) as [[o|k]|] eqn:El; [| |discriminate]; injection E as <-;
        unfold load; cbn [c_log c_acts c_h c_next with_count].
      + rewrite csub_app, origs_app. pose proof (ups_put_disp _ (c_next u) _ El) as Hp. cbn [subscribed] in *.
        change (subscribed [ESub (c_next u) o]) with [o]. lia.
      + pose proof (ups_drop i (c_acts u)). lia.
    - cbn [c_acts with_count] in E. destruct (lookup i (c_acts u)) as [p|] eqn:El; [|discriminate]; injection E as <-.
      unfold load; cbn [c_log c_acts c_h c_next with_count]. pose proof (ups_drop i (c_acts u)). lia.
    - cbn [c_ret with_count c_used] in E. destruct (c_ret u) as [r|]; [|discriminate]. injection E as <-.
      unfold load. destruct (c_used u); cbn [c_log c_acts c_h with_count]; rewrite ?csub_app; cbn; rewrite ?app_nil_r; lia.
  Qed.

  Definition loads (l : list (cstate Z robs A)) : nat := list_sum (map load l).

  Lemma loads_app a b : loads (a ++ b) = loads a + loads b.
  Proof. unfold loads. now rewrite map_app, list_sum_app. Qed.

  Lemma loads_put i u u' l : nth_error l i = Some u -> loads (rput i u' l) + load u = loads l + load u'.
  Proof.
    revert i. induction l as [|v l IH]; intros [|i] E; try discriminate.
    - injection E as ->. unfold loads. cbn. lia.
    - specialize (IH i E). unfold loads in *. cbn [rput map list_sum fold_right] in *.
      change (fold_right Nat.add 0) with list_sum in *. lia.
  Qed.

  Lemma subscribers_snoc h (x : rlabel A) : subscribers (h ++ [x]) = subscribers h + match x with RSubscribe => 1 | ROf _ _ => 0 end.
  Proof. unfold subscribers. rewrite filter_app, app_length. destruct x; reflexivity. Qed.

  Lemma loads_bound n h (s : rstate A) : rareach n h s -> loads (ra_subs s) + credit (ra_count s) <= subscribers h + credit n.
  Proof.
    induction 1 as [|h x s s' Hr IH E].
    - cbn. lia.
    - rewrite subscribers_snoc. destruct x as [|i l]; cbn [rastep] in E.
      + injection E as <-. cbn [ra_subs ra_count]. rewrite loads_app. change (loads [c_init ROrig (ra_count s)]) with 1. lia.
      + destruct (nth_error (ra_subs s) i) as [u|] eqn:Eu; [|discriminate].
        destruct (catch_step retry_factory (with_count (ra_count s) u) l) as [u'|] eqn:Ec; [|discriminate]. injection E as <-.
        cbn [ra_subs ra_count]. pose proof (loads_put i u' _ Eu) as Hl. pose proof (load_step _ _ _ Ec). lia.
  Qed.

  Lemma attempts_loads (s : rstate A) : attempts s <= loads (ra_subs s).
  Proof.
    unfold attempts, loads. destruct s as [c l]. cbn [ra_subs]. induction l as [|u l IH]; [auto|].
    cbn [map list_sum fold_right]. change (fold_right Nat.add 0) with list_sum. unfold load at 1, origs at 1.
    change (fun o : robs => match o with ROrig => true | RFail _ => false end) with is_orig in *. lia.
  Qed.

  Lemma attempts_bound n h (s : rstate A) : rareach n h s -> attempts s <= subscribers h + (if (n =? 0)%Z then 0 else 1).
  Proof. intros H. pose proof (loads_bound H) as Hb. pose proof (attempts_loads s). unfold credit in Hb at 2. lia. Qed.

  Lemma count_step c u l u' : catch_step retry_factory (with_count c u) l = Some u' ->
    c_h u' = match l with CCall _ (OnError _) => 0%Z | _ => c end.
  Proof.
    intros E. destruct l as [k n|i|i e|]; cbn [catch_step] in E.
    - destruct (cbegun k (with_count c u)); [|discriminate]. destruct n as [a|e|]; injection E as <-; try reflexivity.
      unfold failover, retry_factory. cbn [c_h with_count]. destruct (Z.eqb_spec c 0) as [->|H]; [reflexivity|cbn; lia].
    - destruct (lookup i _) as [[o|k]|]; [| |discriminate]; injection E as <-; reflexivity.
    - destruct (lookup i _) as [p|]; [|discriminate]; injection E as <-; reflexivity.
    - destruct (c_ret _); [|discriminate]. injection E as <-. destruct (c_used _); reflexivity.
  Qed.

  Lemma count_zero n h (s : rstate A) : rareach n h s -> all_errors h <> [] -> ra_count s = 0%Z.
  Proof.
    induction 1 as [|h x s s' Hr IH E]; intros Hn; [now elim Hn|].
    assert (Hx : all_errors (h ++ [x]) = all_errors h ++ match x with ROf _ (CCall _ (OnError e)) => [e] | _ => [] end).
    { unfold all_errors. rewrite flat_map_app. cbn. now rewrite app_nil_r. }
    destruct x as [|i l]; cbn [rastep] in E.
    - injection E as <-. cbn. apply IH. now rewrite Hx, app_nil_r in Hn.
    - destruct (nth_error (ra_subs s) i) as [u|] eqn:Eu; [|discriminate].
      destruct (catch_step retry_factory (with_count (ra_count s) u) l) as [u'|] eqn:Ec; [|discriminate]. injection E as <-.
      cbn [ra_count]. rewrite (count_step _ _ _ Ec). destruct l as [k [a|e|]|j|j e|]; try reflexivity; apply IH;
        now rewrite Hx, app_nil_r in Hn.
  Qed.

  Lemma rput_same i u v l : nth_error l i = Some v -> nth_error (rput i u l) i = Some u.
  Proof. revert i. induction l as [|w l IH]; intros [|i]; cbn; try discriminate; auto. Qed.

  Lemma later_error n h (s : rstate A) i k e s' : rareach n h s -> all_errors h <> [] -> rastep s (ROf i (CCall k (OnError e))) = Some s' ->
    exists u u', nth_error (ra_subs s) i = Some u /\ nth_error (ra_subs s') i = Some u' /\ upcoming u' = upcoming u ++ [RFail e].
  Proof.
    intros H Hn E. pose proof (count_zero H Hn) as Hc. cbn [rastep] in E.
    destruct (nth_error (ra_subs s) i) as [u|] eqn:Eu; [|discriminate].
    destruct (catch_step retry_factory (with_count (ra_count s) u) (CCall k (OnError e))) as [u'|] eqn:Ec; [|discriminate]. injection E as <-.
    exists u, u'. repeat split; [exact (rput_same _ _ _ Eu)|]. cbn [catch_step] in Ec. destruct (cbegun k _); [|discriminate].
    injection Ec as <-. unfold failover. rewrite Hc. cbn [retry_factory c_h with_count Z.eqb]. unfold upcoming.
    cbn [c_acts with_count c_born c_var]. now rewrite flat_map_app.
  Qed.

  Lemma rarun_init n (h : list (rlabel A)) s : raruns (ra_init n) h = Some s -> rareach n h s.
  Proof.
    assert (G : forall h2 h1 (s1 s : rstate A), rareach n h1 s1 -> raruns s1 h2 = Some s -> rareach n (h1 ++ h2) s).
    { induction h2 as [|x h2 IH]; intros h1 s1 s2 Hr E; cbn in E.
      - injection E as <-. now rewrite app_nil_r.
      - destruct (rastep s1 x) as [s3|] eqn:Ex; [|discriminate].
        replace (h1 ++ x :: h2) with ((h1 ++ [x]) ++ h2) by now rewrite <- app_assoc.
        apply (IH _ s3); [|exact E]. exact (ra_snoc _ Hr Ex). }
    exact (G h [] _ s (ra_nil n)).
  Qed.
End RetryProofs.
