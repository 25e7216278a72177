(** * Proofs about several subscriptions of one from_async_iterable observable. *)
From Verif Require Export SharedAsync AsyncIterProofs.
Set Implicit Arguments.

Lemma aput_length i u l : length (aput i u l) = length l.
Proof. revert i. induction l as [|w l IH]; intros [|i]; cbn; auto. Qed.

Lemma aput_same i u v l : nth_error l i = Some v -> nth_error (aput i u l) i = Some u.
Proof. revert i. induction l as [|w l IH]; intros [|i]; cbn; try discriminate; auto. Qed.

Lemma aput_other i j u l : i <> j -> nth_error (aput i u l) j = nth_error l j.
Proof. revert i j. induction l as [|w l IH]; intros [|i] [|j] H; cbn; auto; try congruence. Qed.

Section SharedAsyncProofs.
  Context {A : Type}.
  Implicit Types (s : astate A) (h : list alabel) (u : asub).

  Lemma arun_init o h : forall s, aruns (as_init o) h = Some s -> areach o h s.
  Proof.
    assert (G : forall h2 h1 s1 s, areach o h1 s1 -> aruns s1 h2 = Some s -> areach o (h1 ++ h2) s).
    { induction h2 as [|x h2 IH]; intros h1 s1 s Hr E; cbn in E.
      - injection E as <-. now rewrite app_nil_r.
      - destruct (astep s1 x) as [s2|] eqn:Ex; [|discriminate].
        replace (h1 ++ x :: h2) with ((h1 ++ [x]) ++ h2) by now rewrite <- app_assoc.
        apply (IH _ s2); [|exact E]. exact (as_snoc _ Hr Ex). }
    intros s E. exact (G h [] _ s (as_nil o) E).
  Qed.

  Lemma areach_app o h1 : forall h2 s, areach o (h1 ++ h2) s ->
    exists s1, areach o h1 s1 /\ aruns s1 h2 = Some s.
  Proof.
    induction h2 as [|x h2 IH] using rev_ind; intros s H.
    - rewrite app_nil_r in H. now exists s.
    - rewrite app_assoc in H. inversion H as [E|h0 y s0 s' Hr Hs E].
      + destruct (app_cons_not_nil _ _ _ E).
      + apply app_inj_tail in E. destruct E as [-> ->]. destruct (IH _ Hr) as (s1 & Ha & H2).
        exists s1. split; [exact Ha|]. clear - H2 Hs. revert s1 H2.
        induction h2 as [|z h2 IH]; intros s1 H2; cbn in *.
        * injection H2 as <-. now rewrite Hs.
        * destruct (astep s1 z); [now apply IH|discriminate].
  Qed.

  Lemma areach_run o h s : areach o h s -> aruns (as_init o) h = Some s.
  Proof.
    intros H. destruct (areach_app [] h H) as (s1 & H1 & R). inversion H1 as [E|h0 ? ? ? ? ? E]; [|destruct h0; discriminate]. now subst.
  Qed.

  Lemma areach_fun o h : forall s s', areach o h s -> areach o h s' -> s = s'.
  Proof.
    intros s s' H H'. destruct (areach_app [] h H) as (s1 & H1 & R). destruct (areach_app [] h H') as (s2 & H2 & R').
    inversion H1 as [E|h0 ? ? ? ? ? E]; [|destruct h0; discriminate]. inversion H2 as [E'|h0 ? ? ? ? ? E']; [|destruct h0; discriminate].
    subst. congruence.
  Qed.

  Lemma got_move i p n o l s j : got j (amove i p n o l s) = got j s ++ (if i =? j then l else []).
  Proof.
    unfold got, amove. cbn [a_log]. rewrite filter_app, map_app. f_equal. induction l as [|x l IH]; cbn; [now destruct (i =? j)|].
    destruct (i =? j) eqn:E; cbn; rewrite ?IH; reflexivity.
  Qed.

  Definition elems (l : list (notif A)) : list A := flat_map (fun n => match n with OnNext v => [v] | _ => [] end) l.

  Lemma out_move i p n o l s : handed_out (amove i p n o l s) = handed_out s ++ elems l.
  Proof. unfold handed_out, amove, elems. cbn [a_log]. rewrite flat_map_app. f_equal. induction l as [|x l IH]; cbn; congruence. Qed.

  (** ** The moves of one task; [ph], [c]: where it is, and whether it is cancelled. *)
  Inductive amv (i : nat) (pos : nat) : ashared A -> gphase -> bool -> alabel -> gphase -> nat -> ashared A -> list (notif A) -> Prop :=
  | mv_next o xs e ph x : o = ASuspended xs e -> ph = GNew /\ x = GStart \/ ph = GSend /\ x = GRet ->
      amv i pos o ph false (AOf i x) GNext pos (ARunning i xs e) []
  | mv_busy o j xs e ph x : o = ARunning j xs e -> ph = GNew /\ x = GStart \/ ph = GSend /\ x = GRet ->
      amv i pos o ph false (AOf i x) (GDied RuntimeErr) pos o []
  | mv_late o ph x : o = AFinished -> ph = GNew /\ x = GStart \/ ph = GSend /\ x = GRet ->
      amv i pos o ph false (AOf i x) GClose pos o [OnCompleted]
  | mv_item (v : A) (xs : list A) e : amv i pos (ARunning i (v :: xs) e) GNext false (AOf i GYield) GSend pos (ASuspended xs e) [OnNext v]
  | mv_stop : amv i pos (ARunning i [] None) GNext false (AOf i GYield) GClose pos AFinished [OnCompleted]
  | mv_raise e : amv i pos (ARunning i [] (Some e)) GNext false (AOf i GYield) (GDied e) pos AFinished []
  | mv_own_next it ph x : ph = GNew /\ x = GStart \/ ph = GSend /\ x = GRet ->
      amv i pos (AIterable it) ph false (AOf i x) GNext pos (AIterable it) []
  | mv_own it : amv i pos (AIterable it) GNext false (AOf i GYield)
      (match it pos with Item _ => GSend | IStop => GClose | IRaise e => GDied e end) (S pos) (AIterable it)
      (match it pos with Item v => [OnNext v] | IStop => [OnCompleted] | IRaise _ => [] end)
  | mv_end o ph : ph = GThrow \/ ph = GClose -> amv i pos o ph false (AOf i GRet) GEnd pos o []
  | mv_throw o e : amv i pos o GSend false (AOf i (GExn e)) GThrow pos o [OnError e]
  | mv_die o ph e : ph = GThrow \/ ph = GClose -> amv i pos o ph false (AOf i (GExn e)) (GDied e) pos o []
  | mv_thrown_in j xs e : amv i pos (ARunning j xs e) GNext true (AThrown i) GEnd pos AFinished []
  | mv_thrown o ph : (forall j xs e, ph = GNext -> o <> ARunning j xs e) -> amv i pos o ph true (AThrown i) GEnd pos o [].

  Lemma astep_cases s l s' : astep s l = Some s' ->
    (l = ASubscribe /\ s' = AState (a_obj s) (a_subs s ++ [ASub_ GNew 0 false]) (a_log s)) \/
    (exists i u, l = AOf i GCancel /\ nth_error (a_subs s) i = Some u /\
       s' = if aover u then s else AState (a_obj s) (aput i (ASub_ (a_phase u) (a_pos u) true) (a_subs s)) (a_log s)) \/
    (exists i u p n o ls, nth_error (a_subs s) i = Some u /\ s' = amove i p n o ls s /\
       amv i (a_pos u) (a_obj s) (a_phase u) (a_cancel u) l p n o ls).
  Proof.
    destruct l as [|i x|i]; cbn [astep]; intros E.
    - injection E as <-. now left.
    - destruct (nth_error (a_subs s) i) as [u|] eqn:Eu; [|discriminate]. right.
      assert (D : x = GCancel \/ x <> GCancel) by (destruct x; [right|right|right|right|now left]; discriminate).
      destruct D as [->|D]; [left; exists i, u; injection E as <-; auto|right].
      assert (E' : (if a_cancel u then None else match x, a_phase u with
                     | GStart, GNew => Some (anext i u s)
                     | GYield, GNext => ayield i u s
                     | GRet, GSend => Some (anext i u s)
                     | GRet, GThrow | GRet, GClose => Some (amove i GEnd (a_pos u) (a_obj s) [] s)
                     | GExn e, GSend => Some (amove i GThrow (a_pos u) (a_obj s) [OnError e] s)
                     | GExn e, GThrow | GExn e, GClose => Some (amove i (GDied e) (a_pos u) (a_obj s) [] s)
                     | _, _ => None
                     end) = Some s') by (destruct x; congruence).
      clear E. destruct (a_cancel u) eqn:Ec; [discriminate|]. exists i, u. rewrite Eu, Ec.
      assert (N : (a_phase u = GNew /\ x = GStart \/ a_phase u = GSend /\ x = GRet) -> s' = anext i u s ->
                  exists p n o ls, Some u = Some u /\ s' = amove i p n o ls s /\ amv i (a_pos u) (a_obj s) (a_phase u) false (AOf i x) p n o ls).
      { intros W ->. unfold anext. destruct (a_obj s) as [it|xs e|j xs e|].
        - eexists _, _, _, _. split; [reflexivity|]. split; [reflexivity|]. now constructor.
        - eexists _, _, _, _. split; [reflexivity|]. split; [reflexivity|]. now econstructor.
        - eexists _, _, _, _. split; [reflexivity|]. split; [reflexivity|]. now apply mv_busy with j xs e.
        - eexists _, _, _, _. split; [reflexivity|]. split; [reflexivity|]. now apply mv_late. }
      destruct x; try now elim D.
      + destruct (a_phase u) eqn:Ep; try discriminate. injection E' as <-. rewrite <- Ep in N |- *. apply N; auto.
      + destruct (a_phase u) eqn:Ep; try discriminate. unfold ayield in E'.
        destruct (a_obj s) as [it|xs e|j [|v xs] [e|]|] eqn:Eo; try discriminate.
        * injection E' as E'. destruct (it (a_pos u)) eqn:Ei; subst s'; eexists _, _, _, _; (split; [reflexivity|]); (split; [reflexivity|]);
            pose proof (mv_own i (a_pos u) it) as W; rewrite Ei in W; exact W.
        * destruct (j =? i) eqn:Ej; [|discriminate]. apply Nat.eqb_eq in Ej as ->. injection E' as <-. eexists _, _, _, _. split; [reflexivity|]. split; [reflexivity|]. constructor.
        * destruct (j =? i) eqn:Ej; [|discriminate]. apply Nat.eqb_eq in Ej as ->. injection E' as <-. eexists _, _, _, _. split; [reflexivity|]. split; [reflexivity|]. constructor.
        * destruct (j =? i) eqn:Ej; [|discriminate]. apply Nat.eqb_eq in Ej as ->. injection E' as <-. eexists _, _, _, _. split; [reflexivity|]. split; [reflexivity|]. constructor.
        * destruct (j =? i) eqn:Ej; [|discriminate]. apply Nat.eqb_eq in Ej as ->. injection E' as <-. eexists _, _, _, _. split; [reflexivity|]. split; [reflexivity|]. constructor.
      + destruct (a_phase u) eqn:Ep; try discriminate; injection E' as <-.
        * rewrite <- Ep in N |- *. apply N; auto.
        * eexists _, _, _, _. split; [reflexivity|]. split; [reflexivity|]. constructor. auto.
        * eexists _, _, _, _. split; [reflexivity|]. split; [reflexivity|]. constructor. auto.
      + destruct (a_phase u) eqn:Ep; try discriminate; injection E' as <-; eexists _, _, _, _; (split; [reflexivity|]); (split; [reflexivity|]); constructor; auto.
    - destruct (nth_error (a_subs s) i) as [u|] eqn:Eu; [|discriminate]. destruct (a_cancel u) eqn:Ec; [|discriminate]. injection E as <-.
      right. right. eexists i, u, _, _, _, _. split; [exact Eu|]. split; [reflexivity|]. rewrite Ec.
      destruct (a_phase u); try (apply mv_thrown; intros; discriminate).
      destruct (a_obj s); try (apply mv_thrown; intros; discriminate). constructor.
  Qed.

  (** What a move does to the tasks. *)
  Lemma move_nth s i u p n o ls j : nth_error (a_subs s) i = Some u ->
    nth_error (a_subs (amove i p n o ls s)) j = if i =? j then Some (ASub_ p n false) else nth_error (a_subs s) j.
  Proof.
    intros Eu. unfold amove. cbn [a_subs]. destruct (i =? j) eqn:E.
    - apply Nat.eqb_eq in E as <-. eapply aput_same, Eu.
    - apply Nat.eqb_neq in E. now apply aput_other.
  Qed.

  Lemma flag_nth s i u c j : nth_error (a_subs s) i = Some u ->
    nth_error (aput i (ASub_ (a_phase u) (a_pos u) c) (a_subs s)) j = if i =? j then Some (ASub_ (a_phase u) (a_pos u) c) else nth_error (a_subs s) j.
  Proof.
    intros Eu. destruct (i =? j) eqn:E.
    - apply Nat.eqb_eq in E as <-. eapply aput_same, Eu.
    - apply Nat.eqb_neq in E. now apply aput_other.
  Qed.

  Lemma new_nth s (w : asub) j : nth_error (a_subs s ++ [w]) j = if j =? length (a_subs s) then Some w else nth_error (a_subs s) j.
  Proof.
    destruct (j =? length (a_subs s)) eqn:E.
    - apply Nat.eqb_eq in E as ->. rewrite nth_error_app2, Nat.sub_diag by lia. reflexivity.
    - apply Nat.eqb_neq in E. destruct (Nat.lt_ge_cases j (length (a_subs s))) as [L|L].
      + now apply nth_error_app1.
      + rewrite nth_error_app2 by lia. assert (N : nth_error (a_subs s) j = None) by now apply nth_error_None. rewrite N.
        destruct (j - length (a_subs s)) as [|k] eqn:D; [lia|]. now destruct k.
  Qed.

  (** ** Generators: one is in __anext__ while it is running, none otherwise *)
  Section Generator.
    Variables (xs0 : list A) (e0 : option exn).
    Notation reach := (areach (ASuspended xs0 e0)).

    Definition running (o : ashared A) : option nat := match o with ARunning i _ _ => Some i | _ => None end.
    Definition left (o : ashared A) : list A := match o with ASuspended xs _ | ARunning _ xs _ => xs | _ => [] end.
    Definition remembers (o : ashared A) : Prop :=
      match o with ASuspended _ e | ARunning _ _ e => e = e0 | AFinished => True | AIterable _ => False end.

    Definition AI s : Prop :=
      remembers (a_obj s) /\
      (forall j u, nth_error (a_subs s) j = Some u -> (a_phase u = GNext <-> running (a_obj s) = Some j)) /\
      (forall j, running (a_obj s) = Some j -> j < length (a_subs s)) /\
      (a_obj s <> AFinished -> xs0 = handed_out s ++ left (a_obj s)) /\ prefix (handed_out s) xs0.

    Lemma ai h s : reach h s -> AI s.
    Proof.
      induction 1 as [|h l s s' Hr (I1 & I2 & I3 & I4 & I5) E].
      - unfold AI. cbn. split; [reflexivity|]. split; [intros [|j]; discriminate|]. split; [discriminate|]. split; [reflexivity|apply prefix_nil].
      - destruct (astep_cases _ _ E) as [[-> ->]|[(i & u & -> & Eu & ->)|(i & u & p & n & o & ls & Eu & -> & M)]].
        + unfold AI. cbn [a_obj a_subs]. split; [exact I1|]. split; [|split; [|now split]].
          * intros j w. rewrite new_nth. destruct (j =? length (a_subs s)) eqn:Ej; [|apply I2].
            intros [= <-]. cbn. apply Nat.eqb_eq in Ej as ->. split; [discriminate|]. intros R. apply I3 in R. lia.
          * intros j R. rewrite app_length. apply I3 in R. lia.
        + destruct (aover u); [now split|]. unfold AI. cbn [a_obj a_subs]. split; [exact I1|]. split; [|split; [|now split]].
          * intros j w. rewrite (flag_nth s i true j Eu). destruct (i =? j) eqn:Ej; [|apply I2].
            intros [= <-]. cbn. apply Nat.eqb_eq in Ej as <-. now apply I2.
          * intros j R. rewrite aput_length. now apply I3.
        + unfold AI. rewrite out_move. cbn [a_obj amove].
          assert (P : forall ws, (a_obj s <> AFinished -> xs0 = handed_out s ++ left (a_obj s)) -> a_obj s <> AFinished -> prefix ws (left (a_obj s)) -> prefix (handed_out s ++ ws) xs0).
          { intros ws W1 W2 [c W3]. rewrite (W1 W2), W3. exists c. now rewrite app_assoc. }
          assert (K : forall q, running o = running (a_obj s) -> p <> GNext -> a_phase u <> GNext ->
             forall j w, nth_error (a_subs (amove i p n o q s)) j = Some w -> (a_phase w = GNext <-> running o = Some j)).
          { intros q W1 W2 W3 j w. rewrite (move_nth s i p n o q j Eu). destruct (i =? j) eqn:Ej; [|rewrite W1; apply I2].
            intros [= <-]. cbn. apply Nat.eqb_eq in Ej as <-. split; [now intros|]. rewrite W1. intros R. elim W3. now apply (I2 _ _ Eu). }
          assert (K2 : running o = running (a_obj s) -> forall j, running o = Some j -> j < length (a_subs (amove i p n o ls s))).
          { intros W1 j R. cbn [a_subs amove]. rewrite aput_length. apply I3. congruence. }
          pose proof (I2 _ _ Eu) as Iu.
          assert (Li : i < length (a_subs s)) by (apply nth_error_Some; congruence).
          assert (X : forall ph x, (ph = GNew /\ x = GStart \/ ph = GSend /\ x = GRet) -> ph <> GNext) by (intros ph x [[-> _]|[-> _]]; discriminate).
          assert (Y : forall ph, (ph = GThrow \/ ph = GClose) -> ph <> GNext) by (intros ph [->| ->]; discriminate).
          clear E. remember (a_obj s) as ob eqn:Eo. remember (a_phase u) as ph eqn:Eph. remember (a_cancel u) as c eqn:Ec. remember (a_pos u) as ps eqn:Eps.
          destruct M as [o xs e ph x Hx W|o j xs e ph x Hx W|o ph x Hx W|v xs e| |e|it ph x W|it|o ph W|o e|o ph e W|j xs e|o ph W];
            cbn [elems flat_map] in *; rewrite ?app_nil_r in *.
          * (* next *) rewrite Hx in *. clear Eo. split; [exact I1|]. split; [|split; [|split; [|exact I5]]].
            -- intros j w. rewrite (move_nth s i GNext ps _ [] j Eu). destruct (i =? j) eqn:Ej.
               ++ apply Nat.eqb_eq in Ej as <-. now intros [= <-].
               ++ intros Ew. rewrite (I2 _ _ Ew). cbn. split; [discriminate|]. intros [= ->]. apply Nat.eqb_neq in Ej. congruence.
            -- intros j [= <-]. cbn [a_subs amove]. now rewrite aput_length.
            -- intros _. apply I4. discriminate.
          * (* busy *) split; [exact I1|]. split; [apply K; [reflexivity|discriminate|eapply X; eassumption]|]. split; [now apply K2|]. now split.
          * (* late *) split; [exact I1|]. split; [apply K; [reflexivity|discriminate|eapply X; eassumption]|]. split; [now apply K2|]. now split.
          * (* item *) split; [exact I1|]. split; [|split; [|split]].
            -- intros j w. rewrite (move_nth s i GSend ps _ [OnNext v] j Eu). destruct (i =? j) eqn:Ej.
               ++ intros [= <-]. cbn. split; discriminate.
               ++ intros Ew. rewrite (I2 _ _ Ew). cbn. split; [|discriminate]. intros [= <-]. apply Nat.eqb_neq in Ej. congruence.
            -- discriminate.
            -- intros _. rewrite <- app_assoc. cbn. apply I4. discriminate.
            -- apply P; [exact I4|discriminate|]. cbn. exists xs. reflexivity.
          * (* stop *) split; [exact I|]. split; [|split; [|split; [congruence|exact I5]]].
            -- intros j w. rewrite (move_nth s i GClose ps _ [OnCompleted] j Eu). destruct (i =? j) eqn:Ej.
               ++ intros [= <-]. cbn. split; discriminate.
               ++ intros Ew. rewrite (I2 _ _ Ew). cbn. split; [|discriminate]. intros [= <-]. apply Nat.eqb_neq in Ej. congruence.
            -- discriminate.
          * (* raise *) split; [exact I|]. split; [|split; [|split; [congruence|exact I5]]].
            -- intros j w. rewrite (move_nth s i (GDied e) ps _ [] j Eu). destruct (i =? j) eqn:Ej.
               ++ intros [= <-]. cbn. split; discriminate.
               ++ intros Ew. rewrite (I2 _ _ Ew). cbn. split; [|discriminate]. intros [= <-]. apply Nat.eqb_neq in Ej. congruence.
            -- discriminate.
          * destruct I1.
          * destruct I1.
          * (* end *) split; [exact I1|]. split; [apply K; [reflexivity|discriminate|now apply Y]|]. split; [now apply K2|]. now split.
          * (* throw *) split; [exact I1|]. split; [apply K; [reflexivity|discriminate|congruence]|]. split; [now apply K2|]. now split.
          * (* die *) split; [exact I1|]. split; [apply K; [reflexivity|discriminate|now apply Y]|]. split; [now apply K2|]. now split.
          * (* thrown in *) split; [exact I|]. split; [|split; [|split; [congruence|exact I5]]].
            -- intros k w. rewrite (move_nth s i GEnd ps _ [] k Eu). destruct (i =? k) eqn:Ej.
               ++ intros [= <-]. cbn. split; discriminate.
               ++ intros Ew. rewrite (I2 _ _ Ew). cbn. split; [|discriminate]. intros [= <-]. apply Nat.eqb_neq in Ej. destruct Iu as [Iu _]. specialize (Iu eq_refl). cbn in Iu. congruence.
            -- discriminate.
          * (* thrown *) assert (D : ph <> GNext).
            { intros F. pose proof (proj1 Iu F) as R. destruct o eqn:Eo'; try discriminate. now apply (W i0 xs e F). }
            split; [exact I1|]. split; [apply K; [reflexivity|discriminate|exact D]|]. split; [now apply K2|]. now split.
    Qed.

    (** Without disposals no task is cancelled; a finished generator has given everything. *)
    Lemma uncancelled h s : reach h s -> none_disposed h -> forall j u, nth_error (a_subs s) j = Some u -> a_cancel u = false.
    Proof.
      induction 1 as [|h l s s' Hr IH E]; intros N j w; [destruct j; discriminate|].
      assert (N' : none_disposed h) by (intros i F; apply (N i), in_app_iff; now left). specialize (IH N').
      destruct (astep_cases _ _ E) as [[-> ->]|[(i & u & -> & Eu & ->)|(i & u & p & n & o & ls & Eu & -> & M)]].
      - cbn [a_subs]. rewrite new_nth. destruct (j =? length (a_subs s)); [now intros [= <-]|apply IH].
      - elim (N i). apply in_app_iff. right. now left.
      - rewrite (move_nth s i p n o ls j Eu). destruct (i =? j); [now intros [= <-]|apply IH].
    Qed.

    Definition AF s : Prop :=
      (a_obj s = AFinished -> handed_out s = xs0 /\ (e0 = None -> exists i, In (i, OnCompleted) (a_log s))).

    Lemma af h s : reach h s -> none_disposed h -> AF s.
    Proof.
      induction 1 as [|h l s s' Hr IH E]; intros N; [discriminate|].
      assert (N' : none_disposed h) by (intros i F; apply (N i), in_app_iff; now left). specialize (IH N').
      destruct (ai Hr) as (I1 & I2 & I3 & I4 & I5).
      destruct (astep_cases _ _ E) as [[-> ->]|[(i & u & -> & Eu & ->)|(i & u & p & n & o & ls & Eu & -> & M)]].
      - exact IH.
      - elim (N i). apply in_app_iff. right. now left.
      - unfold AF in *. rewrite out_move. cbn [a_obj a_log amove]. clear E. pose proof (uncancelled Hr N' _ Eu) as U.
        remember (a_obj s) as ob eqn:Eo. remember (a_phase u) as ph eqn:Eph. remember (a_cancel u) as c eqn:Ec. remember (a_pos u) as ps eqn:Eps.
        assert (Z : forall ws : list (notif A), elems ws = [] -> (ob = AFinished -> handed_out s = xs0 /\ (e0 = None -> exists i, In (i, OnCompleted) (a_log s))) ->
           ob = AFinished -> handed_out s ++ elems ws = xs0 /\ (e0 = None -> exists k, In (k, OnCompleted) (a_log s ++ map (pair i) ws))).
        { intros ws Ew W F. destruct (W F) as [W1 W2]. rewrite Ew, app_nil_r. split; [exact W1|]. intros F2. destruct (W2 F2) as [k W3]. exists k. apply in_app_iff. now left. }
        destruct M as [o xs e ph x Hx W|o j xs e ph x Hx W|o ph x Hx W|v xs e| |e|it ph x W|it|o ph W|o e|o ph e W|j xs e|o ph W];
          try discriminate; try (apply Z; [reflexivity|exact IH]).
        + intros _. cbn [elems flat_map map]. rewrite app_nil_r. split; [|intros _; exists i; apply in_app_iff; right; now left].
          rewrite I4 by discriminate. cbn. now rewrite app_nil_r.
        + intros _. cbn [elems flat_map map]. rewrite app_nil_r. cbn in I1. split; [|congruence].
          rewrite I4 by discriminate. cbn. now rewrite app_nil_r.
    Qed.

    Lemma none_in h l : none_disposed (h ++ [l]) -> none_disposed h /\ forall i, l <> AOf i GCancel.
    Proof. intros N. split; [intros i F; apply (N i), in_app_iff; now left|]. intros i ->. apply (N i), in_app_iff. right. now left. Qed.
    Lemma no_raise_in h l : none_raised (h ++ [l]) -> none_raised h /\ forall i e, l <> AOf i (GExn e).
    Proof. intros N. split; [intros i e F; apply (N i e), in_app_iff; now left|]. intros i e ->. apply (N i e), in_app_iff. right. now left. Qed.

    Lemma no_throw h s : reach h s -> none_raised h -> forall j u, nth_error (a_subs s) j = Some u -> a_phase u <> GThrow.
    Proof.
      induction 1 as [|h l s s' Hr IH E]; intros R j w Ew; [destruct j; discriminate|].
      destruct (no_raise_in _ _ R) as [R' L]. specialize (IH R').
      destruct (astep_cases _ _ E) as [[-> ->]|[(i & u & -> & Eu & ->)|(i & u & p & n & o & ls & Eu & -> & M)]].
      - cbn [a_subs] in Ew. rewrite new_nth in Ew. destruct (j =? length (a_subs s)); [injection Ew as <-; discriminate|exact (IH _ _ Ew)].
      - destruct (aover u); [exact (IH _ _ Ew)|]. cbn [a_subs] in Ew. rewrite (flag_nth s i true j Eu) in Ew. destruct (i =? j); [injection Ew as <-; exact (IH _ _ Eu)|exact (IH _ _ Ew)].
      - rewrite (move_nth s i p n o ls j Eu) in Ew. destruct (i =? j); [|exact (IH _ _ Ew)]. injection Ew as <-. cbn. intros ->.
        inversion M; subst; try (destruct (it (a_pos u)); discriminate). now elim (L i e).
    Qed.

    Lemma closing_finished h s : reach h s -> forall j u, nth_error (a_subs s) j = Some u -> a_phase u = GClose -> a_obj s = AFinished.
    Proof.
      induction 1 as [|h l s s' Hr IH E]; intros j w Ew F; [destruct j; discriminate|].
      destruct (ai Hr) as (I1 & _).
      destruct (astep_cases _ _ E) as [[-> ->]|[(i & u & -> & Eu & ->)|(i & u & p & n & o & ls & Eu & -> & M)]].
      - cbn [a_subs] in Ew. rewrite new_nth in Ew. destruct (j =? length (a_subs s)); [injection Ew as <-; discriminate|exact (IH _ _ Ew F)].
      - destruct (aover u); [exact (IH _ _ Ew F)|]. cbn [a_subs] in Ew. rewrite (flag_nth s i true j Eu) in Ew. destruct (i =? j); [injection Ew as <-; exact (IH _ _ Eu F)|exact (IH _ _ Ew F)].
      - rewrite (move_nth s i p n o ls j Eu) in Ew. cbn [a_obj amove]. destruct (i =? j).
        + injection Ew as <-. cbn in F. subst p. inversion M; subst; try congruence. match goal with H : AIterable _ = a_obj s |- _ => rewrite <- H in I1; destruct I1 end.
        + pose proof (IH _ _ Ew F) as G. rewrite G in M. inversion M; subst; congruence.
    Qed.

    (** Someone goes on until the generator has finished. *)
    Lemma someone h s : reach h s -> none_disposed h -> none_raised h ->
      a_subs s = [] \/ a_obj s = AFinished \/ exists j u, nth_error (a_subs s) j = Some u /\ aover u = false.
    Proof.
      induction 1 as [|h l s s' Hr IH E]; intros N R; [now left|]. right.
      destruct (none_in _ _ N) as [N' LN]. destruct (no_raise_in _ _ R) as [R' LR]. specialize (IH N' R').
      destruct (ai Hr) as (I1 & I2 & I3 & I4 & I5).
      destruct (astep_cases _ _ E) as [[-> ->]|[(i & u & -> & Eu & ->)|(i & u & p & n & o & ls & Eu & -> & M)]].
      - right. exists (length (a_subs s)), (ASub_ GNew 0 false). cbn [a_subs]. rewrite new_nth, Nat.eqb_refl. now split.
      - now elim (LN i).
      - destruct IH as [F|[F|(j & w & Ew & Ov)]].
        + rewrite F in Eu. destruct i; discriminate.
        + left. cbn [a_obj amove]. clear - M F. rewrite F in M. inversion M; subst; congruence.
        + cbn [a_obj amove]. clear E.
          assert (K : aover (ASub_ p n false) = false -> o = AFinished \/
                    exists j u, nth_error (a_subs (amove i p n o ls s)) j = Some u /\ aover u = false).
          { intros W. right. exists i, (ASub_ p n false). split; [|exact W]. rewrite (move_nth s i p n o ls i Eu), Nat.eqb_refl. reflexivity. }
          assert (Iu := I2 _ _ Eu). pose proof (uncancelled Hr N' _ Eu) as U. pose proof (no_throw Hr R' _ Eu) as T. pose proof (closing_finished Hr _ Eu) as C.
          remember (a_obj s) as ob eqn:Eo. remember (a_phase u) as ph eqn:Eph. remember (a_cancel u) as c eqn:Ec. remember (a_pos u) as ps eqn:Eps.
          destruct M as [o xs e ph x Hx W|o k xs e ph x Hx W|o ph x Hx W|v xs e| |e|it ph x W|it|o ph W|o e|o ph e W|k xs e|o ph W];
            try discriminate; try (now destruct I1); try (now left); try (apply K; reflexivity).
          * (* busy *) right. rewrite Hx in *. assert (Lk : k < length (a_subs s)) by (apply I3; reflexivity).
            destruct (nth_error (a_subs s) k) as [y|] eqn:Ek; [|apply nth_error_None in Ek; lia].
            exists k, y. assert (D : i <> k). { intros ->. assert (F : ph = GNext) by now apply Iu. destruct W as [[-> _]|[-> _]]; discriminate. }
            rewrite (move_nth s i (GDied RuntimeErr) ps _ [] k Eu). apply Nat.eqb_neq in D. rewrite D. split; [exact Ek|].
            unfold aover. replace (a_phase y) with GNext; [reflexivity|]. symmetry. now apply (I2 _ _ Ek).
          * (* end *) left. apply C. destruct W as [->| ->]; [now elim T|reflexivity].
          * now elim (LR i e).
    Qed.

    (** Whoever is not over can go on. *)
    Lemma a_progress h s j u : reach h s -> nth_error (a_subs s) j = Some u -> aover u = false ->
      exists l s', (forall i, l <> AOf i GCancel) /\ (forall i e, l <> AOf i (GExn e)) /\ astep s l = Some s'.
    Proof.
      intros Hr Eu Ov. destruct (ai Hr) as (I1 & I2 & _). specialize (I2 _ _ Eu).
      destruct (a_cancel u) eqn:Ec.
      { exists (AThrown j). eexists. split; [discriminate|]. split; [discriminate|]. cbn. now rewrite Eu, Ec. }
      destruct (a_phase u) eqn:Ep; unfold aover in Ov; rewrite Ep in Ov; try discriminate.
      - exists (AOf j GStart). eexists. split; [discriminate|]. split; [discriminate|]. cbn. now rewrite Eu, Ec, Ep.
      - exists (AOf j GYield). assert (R : running (a_obj s) = Some j) by now apply I2.
        assert (X : exists s', ayield j u s = Some s').
        { unfold ayield. destruct (a_obj s) as [it|xs e|k [|v xs] [e|]|]; try discriminate; injection R as ->; rewrite Nat.eqb_refl; eauto. }
        destruct X as [s' X]. exists s'. split; [discriminate|]. split; [discriminate|]. cbn. now rewrite Eu, Ec, Ep.
      - exists (AOf j GRet). eexists. split; [discriminate|]. split; [discriminate|]. cbn. now rewrite Eu, Ec, Ep.
      - exists (AOf j GRet). eexists. split; [discriminate|]. split; [discriminate|]. cbn. now rewrite Eu, Ec, Ep.
      - exists (AOf j GRet). eexists. split; [discriminate|]. split; [discriminate|]. cbn. now rewrite Eu, Ec, Ep.
    Qed.
  End Generator.

  (** ** For every shared object *)
  Lemma got_none o h s : areach o h s -> forall j, length (a_subs s) <= j -> got j s = [].
  Proof.
    induction 1 as [|h l s s' Hr IH E]; intros j L; [reflexivity|].
    destruct (astep_cases _ _ E) as [[-> ->]|[(i & u & -> & Eu & ->)|(i & u & p & n & q & ls & Eu & -> & M)]].
    - cbn [a_subs] in L. rewrite app_length in L. cbn in L. apply IH. lia.
    - destruct (aover u); [now apply IH|]. cbn [a_subs] in L. rewrite aput_length in L. now apply IH.
    - cbn [a_subs amove] in L. rewrite aput_length in L. rewrite got_move, IH by exact L.
      destruct (i =? j) eqn:Ej; [|reflexivity]. apply Nat.eqb_eq in Ej as ->.
      assert (j < length (a_subs s)) by (apply nth_error_Some; congruence). lia.
  Qed.

  Definition fits (p : gphase) (l : list (notif A)) : Prop :=
    match p with
    | GNew => l = []
    | GNext | GSend => exists vs, l = map OnNext vs
    | GThrow => exists vs e, l = trace vs (Failed e)
    | GClose => exists vs, l = trace vs Completed
    | GEnd | GDied _ => grammatical l
    end.

  Lemma fits_grammatical p l : fits p l -> grammatical l.
  Proof.
    destruct p; cbn; try (now intros); [intros ->; exists [], Open; reflexivity| | | |].
    - intros [vs ->]. exists vs, Open. unfold trace. now rewrite app_nil_r.
    - intros [vs ->]. exists vs, Open. unfold trace. now rewrite app_nil_r.
    - intros (vs & e & ->). now exists vs, (Failed e).
    - intros [vs ->]. now exists vs, Completed.
  Qed.

  Lemma a_fits o h s : areach o h s -> forall j u, nth_error (a_subs s) j = Some u -> fits (a_phase u) (got j s).
  Proof.
    induction 1 as [|h l s s' Hr IH E]; intros j w Ew; [destruct j; discriminate|].
    destruct (astep_cases _ _ E) as [[-> ->]|[(i & u & -> & Eu & ->)|(i & u & p & n & q & ls & Eu & -> & M)]].
    - cbn [a_subs] in Ew. rewrite new_nth in Ew. destruct (j =? length (a_subs s)) eqn:Ej; [|exact (IH _ _ Ew)].
      injection Ew as <-. cbn. apply Nat.eqb_eq in Ej as ->. exact (got_none Hr (le_n _)).
    - destruct (aover u); [exact (IH _ _ Ew)|]. cbn [a_subs] in Ew. rewrite (flag_nth s i true j Eu) in Ew.
      destruct (i =? j) eqn:Ej; [|exact (IH _ _ Ew)]. injection Ew as <-. apply Nat.eqb_eq in Ej as ->. exact (IH _ _ Eu).
    - rewrite (move_nth s i p n q ls j Eu) in Ew. rewrite got_move. destruct (i =? j) eqn:Ej; [|rewrite app_nil_r; exact (IH _ _ Ew)].
      apply Nat.eqb_eq in Ej as <-. injection Ew as <-. cbn [a_phase]. specialize (IH _ _ Eu).
      clear E. remember (a_obj s) as ob eqn:Eo. remember (a_phase u) as ph eqn:Eph. remember (a_cancel u) as c eqn:Ec. remember (a_pos u) as ps eqn:Eps.
      assert (X : forall ph x, (ph = GNew /\ x = GStart \/ ph = GSend /\ x = GRet) -> fits ph (got i s) -> exists vs, got i s = map OnNext vs).
      { intros ph' x' [[-> _]|[-> _]] W; [exists []; exact W|exact W]. }
      assert (Y : forall ph, (ph = GThrow \/ ph = GClose) -> fits ph (got i s) -> grammatical (got i s)) by (intros ph' [->| ->]; [intros (vs & e & ->); now exists vs, (Failed e)|intros [vs ->]; now exists vs, Completed]).
      assert (Z : forall vs, got i s = map OnNext vs -> grammatical (got i s)) by (intros vs ->; exists vs, Open; unfold trace; now rewrite app_nil_r).
      destruct M as [o' xs e ph x Hx W|o' k xs e ph x Hx W|o' ph x Hx W|v xs e| |e|it ph x W|it|o' ph W|o' e|o' ph e W|k xs e|o' ph W];
        cbn [fits] in *; rewrite ?app_nil_r.
      + exact (X _ _ W IH).
      + destruct (X _ _ W IH) as [vs V]. exact (Z _ V).
      + destruct (X _ _ W IH) as [vs ->]. now exists vs.
      + destruct IH as [vs ->]. exists (vs ++ [v]). now rewrite map_app.
      + destruct IH as [vs ->]. now exists vs.
      + destruct IH as [vs V]. exact (Z _ V).
      + exact (X _ _ W IH).
      + destruct IH as [vs V]. destruct (it ps) as [v| |e]; cbn [fits]; rewrite V.
        * exists (vs ++ [v]). now rewrite map_app.
        * now exists vs.
        * rewrite app_nil_r, <- V. exact (Z _ V).
      + exact (Y _ W IH).
      + destruct IH as [vs ->]. now exists vs, e.
      + exact (Y _ W IH).
      + destruct IH as [vs V]. exact (Z _ V).
      + now apply (fits_grammatical ph).
  Qed.

  Lemma a_grammar o h s j : areach o h s -> grammatical (got j s).
  Proof.
    intros Hr. destruct (nth_error (a_subs s) j) as [u|] eqn:Eu.
    - exact (@fits_grammatical _ _ (a_fits Hr _ Eu)).
    - apply nth_error_None in Eu. rewrite (got_none Hr Eu). now exists [], Open.
  Qed.

  (** A task that is over or cancelled makes no more calls. *)
  Definition last_words (p : gphase) : bool := match p with GThrow | GClose | GEnd | GDied _ => true | _ => false end.
  Definition quiet (u : asub) : Prop := last_words (a_phase u) = true /\ a_cancel u = false \/ a_cancel u = true.
  Lemma over_quiet u : aover u = true -> last_words (a_phase u) = true.
  Proof. unfold aover, last_words. now destruct (a_phase u). Qed.

  Lemma over_clean o h s : areach o h s -> forall j u, nth_error (a_subs s) j = Some u -> aover u = true -> a_cancel u = false.
  Proof.
    induction 1 as [|h l s s' Hr IH E]; intros j w Ew F; [destruct j; discriminate|].
    destruct (astep_cases _ _ E) as [[-> ->]|[(i & u & -> & Eu & ->)|(i & u & p & n & q & ls & Eu & -> & M)]].
    - cbn [a_subs] in Ew. rewrite new_nth in Ew. destruct (j =? length (a_subs s)); [now injection Ew as <-|exact (IH _ _ Ew F)].
    - destruct (aover u) eqn:Ov; [exact (IH _ _ Ew F)|]. cbn [a_subs] in Ew. rewrite (flag_nth s i true j Eu) in Ew.
      destruct (i =? j); [|exact (IH _ _ Ew F)]. injection Ew as <-. unfold aover in F, Ov. cbn in F. congruence.
    - rewrite (move_nth s i p n q ls j Eu) in Ew. destruct (i =? j); [now injection Ew as <-|exact (IH _ _ Ew F)].
  Qed.

  Lemma quiet_step s l s' j u : astep s l = Some s' -> nth_error (a_subs s) j = Some u -> quiet u ->
    (exists u', nth_error (a_subs s') j = Some u' /\ quiet u') /\ got j s' = got j s.
  Proof.
    intros E Ej Q. destruct (astep_cases _ _ E) as [[-> ->]|[(i & v & -> & Eu & ->)|(i & v & p & n & q & ls & Eu & -> & M)]].
    - split; [|reflexivity]. exists u. cbn [a_subs]. rewrite nth_error_app1 by (apply nth_error_Some; congruence). auto.
    - destruct (aover v) eqn:Ov; [split; [exists u; auto|reflexivity]|]. split; [|reflexivity]. cbn [a_subs]. rewrite (flag_nth s i true j Eu).
      destruct (i =? j) eqn:D; [|eauto]. eexists. split; [reflexivity|]. now right.
    - rewrite got_move, (move_nth s i p n q ls j Eu). destruct (i =? j) eqn:D; [|rewrite app_nil_r; eauto].
      apply Nat.eqb_eq in D as ->. rewrite Eu in Ej. injection Ej as ->. clear E.
      destruct Q as [[Q C]|C]; rewrite C in M.
      + remember (a_phase u) as ph eqn:Eph. destruct ph; try discriminate; inversion M; subst; try (exfalso; intuition discriminate);
          rewrite app_nil_r; (split; [|reflexivity]); eexists; (split; [reflexivity|]); left; now split.
      + inversion M; subst; rewrite app_nil_r; (split; [|reflexivity]); eexists; (split; [reflexivity|]); left; now split.
  Qed.

  Lemma quiet_runs h2 : forall s s' j u, aruns s h2 = Some s' -> nth_error (a_subs s) j = Some u -> quiet u -> got j s' = got j s.
  Proof.
    induction h2 as [|x h2 IH]; intros s s' j u E Ej Q; cbn in E; [now injection E as <-|].
    destruct (astep s x) as [s1|] eqn:Ex; [|discriminate]. destruct (@quiet_step _ _ _ _ _ Ex Ej Q) as [(u' & Ej' & Q') <-].
    eapply IH; eassumption.
  Qed.

  (** Nobody is told of an error but of the own observer's. *)
  Lemma own_errors o h s : areach o h s -> forall i e, In (i, OnError e) (a_log s) -> In (AOf i (GExn e)) h.
  Proof.
    induction 1 as [|h l s s' Hr IH E]; intros j e F; [destruct F|].
    destruct (astep_cases _ _ E) as [[-> ->]|[(i & u & -> & Eu & ->)|(i & u & p & n & q & ls & Eu & -> & M)]].
    - apply in_app_iff. left. now apply IH.
    - apply in_app_iff. left. apply IH. now destruct (aover u).
    - cbn [a_log amove] in F. apply in_app_iff in F as [F|F]; apply in_app_iff; [left; now apply IH|].
      apply in_map_iff in F as (n0 & F1 & F2). injection F1 as -> ->.
      clear E. remember (a_obj s) as ob eqn:Eo. remember (a_phase u) as ph eqn:Eph. remember (a_cancel u) as c eqn:Ec. remember (a_pos u) as ps eqn:Eps.
      destruct M as [o' xs x ph y Hx W|o' k xs x ph y Hx W|o' ph y Hx W|v xs x| |x|it ph y W|it|o' ph W|o' x|o' ph x W|k xs x|o' ph W];
        try (cbn in F2; intuition discriminate).
      + destruct (it ps); cbn in F2; intuition discriminate.
      + destruct F2 as [[= ->]|[]]. right. now left.
  Qed.

  (** Once a generator has finished, no more elements come. *)
  Lemma finished_step s l s' : astep s l = Some s' -> a_obj s = AFinished -> a_obj s' = AFinished /\ handed_out s' = handed_out s.
  Proof.
    intros E F. destruct (astep_cases _ _ E) as [[-> ->]|[(i & u & -> & Eu & ->)|(i & u & p & n & q & ls & Eu & -> & M)]].
    - now split.
    - destruct (aover u); now split.
    - rewrite out_move. cbn [a_obj amove]. clear E. rewrite F in M. inversion M; subst; cbn; rewrite ?app_nil_r; split; congruence.
  Qed.

  Lemma finished_runs h2 : forall s s', aruns s h2 = Some s' -> a_obj s = AFinished -> handed_out s' = handed_out s.
  Proof.
    induction h2 as [|x h2 IH]; intros s s' E F; cbn in E; [now injection E as <-|].
    destruct (astep s x) as [s1|] eqn:Ex; [|discriminate]. destruct (@finished_step _ _ _ Ex F) as [F' <-]. exact (IH _ _ E F').
  Qed.

  (** ** Iterables: every subscription is alone *)
  Lemma own_object it h s : areach (AIterable it) h s -> a_obj s = AIterable it.
  Proof.
    induction 1 as [|h l s s' Hr IH E]; [reflexivity|].
    destruct (astep_cases _ _ E) as [[-> ->]|[(i & u & -> & Eu & ->)|(i & u & p & n & q & ls & Eu & -> & M)]].
    - exact IH.
    - now destruct (aover u).
    - cbn [a_obj amove]. rewrite IH in M. inversion M; subst; congruence.
  Qed.

  Definition seen_as (u : asub) (l : list (notif A)) (g : gstate A) : Prop :=
    g_log g = l /\ (a_cancel u = true /\ g_phase g = GEnd \/ a_cancel u = false /\ g_phase g = a_phase u) /\ g_pos g = a_pos u.

  Lemma alone it h s : areach (AIterable it) h s -> forall i u, nth_error (a_subs s) i = Some u ->
    exists g, greach it (steps_of i h) g /\ seen_as u (got i s) g.
  Proof.
    induction 1 as [|h l s s' Hr IH E]; intros j w Ew; [destruct j; discriminate|].
    pose proof (own_object Hr) as Ob.
    assert (S0 : forall k x, steps_of j (h ++ [AOf k x]) = steps_of j h ++ if k =? j then [x] else []).
    { intros k x. unfold steps_of. rewrite flat_map_app. cbn. destruct (k =? j); now rewrite ?app_nil_r. }
    assert (S1 : (forall k x, l <> AOf k x) -> steps_of j (h ++ [l]) = steps_of j h).
    { intros L. unfold steps_of. rewrite flat_map_app. cbn. destruct l; cbn; rewrite ?app_nil_r; try reflexivity. now elim (L i x). }
    destruct (astep_cases _ _ E) as [[-> ->]|[(i & u & -> & Eu & ->)|(i & u & p & n & q & ls & Eu & -> & M)]].
    - rewrite S1 by discriminate. cbn [a_subs] in Ew. rewrite new_nth in Ew. destruct (j =? length (a_subs s)) eqn:Ej; [|exact (IH _ _ Ew)].
      injection Ew as <-. apply Nat.eqb_eq in Ej as ->. exists g_init. split.
      + assert (N : steps_of (length (a_subs s)) h = []).
        { clear - Hr. remember (length (a_subs s)) as k eqn:Ek. assert (L : length (a_subs s) <= k) by lia. clear Ek. revert k L.
          induction Hr as [|h l s s' Hr IH E]; intros k L; [reflexivity|].
          unfold steps_of. rewrite flat_map_app. fold (steps_of k h).
          destruct (astep_cases _ _ E) as [[-> ->]|[(i & u & -> & Eu & ->)|(i & u & p & n & q & ls & Eu & -> & M)]].
          - cbn [a_subs] in L. rewrite app_length in L. cbn in *. rewrite IH by lia. reflexivity.
          - assert (Lk : length (a_subs s) <= k) by (destruct (aover u); [exact L|]; cbn [a_subs] in L; now rewrite aput_length in L).
            rewrite IH by exact Lk. cbn. assert (i < length (a_subs s)) by (apply nth_error_Some; congruence). replace (i =? k) with false; [reflexivity|]. symmetry. apply Nat.eqb_neq. lia.
          - cbn [a_subs amove] in L. rewrite aput_length in L. rewrite IH by exact L.
            assert (i < length (a_subs s)) by (apply nth_error_Some; congruence).
            assert (D : (i =? k) = false) by (apply Nat.eqb_neq; lia). inversion M; subst; cbn; rewrite ?D; reflexivity. }
        rewrite N. constructor.
      + unfold seen_as. cbn. split; [symmetry; exact (got_none Hr (le_n _))|]. auto.
    - rewrite S0. destruct (i =? j) eqn:Ej.
      + apply Nat.eqb_eq in Ej as ->. destruct (IH _ _ Eu) as (g & Hg & G1 & G2 & G3).
        exists (GState (match g_phase g with GDied e => GDied e | _ => GEnd end) (g_pos g) (g_log g)).
        split; [eapply gr_snoc; [exact Hg|reflexivity]|]. destruct (aover u) eqn:Ov.
        * rewrite Ew in Eu. injection Eu as ->. unfold seen_as. cbn. split; [exact G1|]. split; [|exact G3].
          destruct G2 as [[C ->]|[C P]]; [now left|]. right. split; [exact C|]. rewrite P. unfold aover in Ov. destruct (a_phase u); try discriminate; reflexivity.
        * cbn [a_subs] in Ew. rewrite (flag_nth s j true j Eu), Nat.eqb_refl in Ew. injection Ew as <-. unfold seen_as. cbn. split; [exact G1|]. split; [|exact G3].
          left. split; [reflexivity|]. destruct G2 as [[C ->]|[C P]]; [reflexivity|]. rewrite P. unfold aover in Ov. destruct (a_phase u); try discriminate; reflexivity.
      + rewrite app_nil_r. assert (Ew' : nth_error (a_subs s) j = Some w).
        { destruct (aover u); [exact Ew|]. cbn [a_subs] in Ew. now rewrite (flag_nth s i true j Eu), Ej in Ew. }
        destruct (IH _ _ Ew') as (g & Hg & G). exists g. split; [exact Hg|]. now destruct (aover u).
    - rewrite (move_nth s i p n q ls j Eu) in Ew. rewrite got_move. destruct (i =? j) eqn:Ej.
      + apply Nat.eqb_eq in Ej as ->. injection Ew as <-. destruct (IH _ _ Eu) as ([gp gn gl] & Hg & G1 & G2 & G3). cbn in G1, G2, G3. subst gn gl.
        rewrite Ob in M. unfold seen_as. cbn [a_cancel a_phase a_pos].
        remember (a_phase u) as ph eqn:Eph. remember (a_cancel u) as c eqn:Ec. remember (a_pos u) as ps eqn:Eps. clear E IH.
        remember (AIterable it) as ob.
        destruct M as [o' xs e ph x Hx W|o' k xs e ph x Hx W|o' ph x Hx W|v xs e| |e|it' ph x W|it'|o' ph W|o' e|o' ph e W|k xs e|o' ph W];
          try discriminate; try congruence; try (injection Heqob as ->);
          try (destruct G2 as [[C _]|[_ G2]]; [discriminate|]; subst gp; rewrite S0, Nat.eqb_refl).
        * exists (GState GNext ps (got j s)). split; [|rewrite app_nil_r; cbn; auto]. eapply gr_snoc; [exact Hg|]. cbn. now destruct W as [[-> ->]|[-> ->]].
        * destruct (it ps) as [v| |e] eqn:Ei.
          -- exists (GState GSend (S ps) (got j s ++ [OnNext v])). split; [|cbn; auto]. eapply gr_snoc; [exact Hg|]. cbn. now rewrite Ei.
          -- exists (GState GClose (S ps) (got j s ++ [OnCompleted])). split; [|cbn; auto]. eapply gr_snoc; [exact Hg|]. cbn. now rewrite Ei.
          -- exists (GState (GDied e) (S ps) (got j s)). split; [|rewrite app_nil_r; cbn; auto]. eapply gr_snoc; [exact Hg|]. cbn. now rewrite Ei.
        * exists (GState GEnd ps (got j s)). split; [|rewrite app_nil_r; cbn; auto]. eapply gr_snoc; [exact Hg|]. cbn. now destruct W as [->| ->].
        * exists (GState GThrow ps (got j s ++ [OnError e])). split; [|cbn; auto]. eapply gr_snoc; [exact Hg|]. reflexivity.
        * exists (GState (GDied e) ps (got j s)). split; [|rewrite app_nil_r; cbn; auto]. eapply gr_snoc; [exact Hg|]. cbn. now destruct W as [->| ->].
        * destruct G2 as [[_ G2]|[C _]]; [|discriminate]. subst gp. rewrite S1 by discriminate. exists (GState GEnd ps (got j s)). split; [exact Hg|]. rewrite app_nil_r. cbn. auto.
      + rewrite app_nil_r. assert (S2 : steps_of j (h ++ [l]) = steps_of j h).
        { inversion M; subst; rewrite ?S0, ?Ej, ?app_nil_r; try reflexivity; apply S1; discriminate. }
        rewrite S2. exact (IH _ _ Ew).
  Qed.

  (** ** Splitting histories *)
  Lemma areach_mid o h s l h2 s' : areach o h s -> areach o (h ++ l :: h2) s' -> exists s1, astep s l = Some s1 /\ aruns s1 h2 = Some s'.
  Proof.
    intros Hr Hr'. destruct (areach_app _ _ Hr') as (s0 & H0 & R). rewrite (areach_fun H0 Hr) in R. cbn in R.
    destruct (astep s l) as [s1|]; [eauto|discriminate].
  Qed.

  Lemma overlap_silent (xs : list A) e h s i j x h' s' :
    areach (ASuspended xs e) h s -> awaits_next j s -> i <> j -> x = GStart \/ x = GRet ->
    areach (ASuspended xs e) (h ++ AOf i x :: h') s' -> got i s' = got i s.
  Proof.
    intros Hr (w & Ew & Pw) D X Hr'. destruct (areach_mid _ _ Hr Hr') as (s1 & E & R).
    destruct (ai Hr) as (_ & I2 & _). apply (I2 _ _ Ew) in Pw.
    destruct (astep_cases _ _ E) as [[F _]|[(k & u & F & _)|(k & u & p & n & q & ls & Eu & -> & M)]]; [discriminate|injection F as -> ->; destruct X; discriminate|].
    assert (Hq : k = i /\ (p = GDied RuntimeErr \/ p = GEnd) /\ ls = []).
    { destruct (a_obj s) as [|ys y|k' ys y|] eqn:Eo; try discriminate. cbn in Pw. injection Pw as ->.
      inversion M; subst; try (destruct X as [X|X]; discriminate); try congruence; auto. }
    destruct Hq as (-> & Hp & ->).
    assert (Q : got i s' = got i (amove i p n q [] s)).
    { eapply quiet_runs; [exact R|rewrite (move_nth s i p n q [] i Eu), Nat.eqb_refl; reflexivity|]. left. split; [|reflexivity]. cbn. now destruct Hp as [->| ->]. }
    rewrite Q, got_move, Nat.eqb_refl. apply app_nil_r.
  Qed.

  Lemma disposed_silent o h s i h' s' : areach o h s -> areach o (h ++ AOf i GCancel :: h') s' -> got i s' = got i s.
  Proof.
    intros Hr Hr'. destruct (areach_mid _ _ Hr Hr') as (s1 & E & R). cbn in E.
    destruct (nth_error (a_subs s) i) as [u|] eqn:Eu; [|discriminate]. injection E as <-.
    destruct (aover u) eqn:Ov.
    - eapply quiet_runs; [exact R|exact Eu|]. left. split; [exact (@over_quiet _ Ov)|]. exact (over_clean Hr _ Eu Ov).
    - change (got i s) with (got i (AState (a_obj s) (aput i (ASub_ (a_phase u) (a_pos u) true) (a_subs s)) (a_log s))).
      eapply quiet_runs; [exact R|cbn [a_subs]; rewrite (flag_nth s i true i Eu), Nat.eqb_refl; reflexivity|now right].
  Qed.

  Lemma disposal_ends (xs : list A) e h s i h' s' : areach (ASuspended xs e) h s -> awaits_next i s ->
    areach (ASuspended xs e) (h ++ AOf i GCancel :: AThrown i :: h') s' -> handed_out s' = handed_out s.
  Proof.
    intros Hr (u & Eu & Pu) Hr'. destruct (areach_mid _ _ Hr Hr') as (s1 & E & R). destruct (ai Hr) as (_ & I2 & _). apply (I2 _ _ Eu) in Pu as Run.
    assert (Ov : aover u = false) by (unfold aover; now rewrite Pu). cbn in E. rewrite Eu, Ov in E. injection E as <-. cbn [aruns astep a_subs] in R.
    rewrite (flag_nth s i true i Eu), Nat.eqb_refl in R. cbn [a_cancel a_phase a_obj] in R. rewrite Pu in R.
    destruct (a_obj s) as [|ys y|k' ys y|] eqn:Eo; try discriminate.
    erewrite finished_runs; [|exact R|reflexivity]. rewrite out_move. cbn [elems flat_map]. rewrite app_nil_r. reflexivity.
  Qed.

  Lemma raise_told o h s i x h' s' l v : areach o h s -> got i s = l ++ [OnNext v] -> areach o (h ++ AOf i (GExn x) :: h') s' ->
    got i s' = l ++ [OnNext v; OnError x].
  Proof.
    intros Hr G Hr'. destruct (areach_mid _ _ Hr Hr') as (s1 & E & R).
    destruct (astep_cases _ _ E) as [[F _]|[(k & u & F & _)|(k & u & p & n & q & ls & Eu & -> & M)]]; [discriminate|discriminate|].
    assert (Hq : k = i /\ p = GThrow /\ ls = [OnError x]).
    { assert (Z : k = i -> (a_phase u = GThrow \/ a_phase u = GClose) -> False).
      { intros -> W. pose proof (a_fits Hr _ Eu) as Ft. destruct W as [W|W]; rewrite W in Ft; cbn in Ft; rewrite G in Ft.
        - destruct Ft as (vs & y & Ft). apply app_inj_tail in Ft as [_ Ft]. discriminate.
        - destruct Ft as (vs & Ft). apply app_inj_tail in Ft as [_ Ft]. discriminate. }
      inversion M; subst; try (exfalso; intuition discriminate); auto. }
    destruct Hq as (-> & -> & ->).
    assert (Q : got i s' = got i (amove i GThrow n q [OnError x] s)).
    { eapply quiet_runs; [exact R|rewrite (move_nth s i _ n q _ i Eu), Nat.eqb_refl; reflexivity|]. now left. }
    rewrite Q, got_move, Nat.eqb_refl, G, <- app_assoc. reflexivity.
  Qed.

  (** Who does not get in the way of another one is told of completion. *)
  Lemma told xs h s : areach (ASuspended xs None) h s -> forall i u, nth_error (a_subs s) i = Some u ->
    ~ In (AOf i GCancel) h -> (forall x, ~ In (AOf i (GExn x)) h) -> ~ overlapped (ASuspended xs None) i h ->
    a_cancel u = false /\ match a_phase u with GNew | GNext | GSend => True | GThrow | GDied _ => False | GClose | GEnd => exists vs, got i s = trace vs Completed end.
  Proof.
    induction 1 as [|h l s s' Hr IH E]; intros j w Ew N1 N2 N3; [destruct j; discriminate|].
    assert (M1 : ~ In (AOf j GCancel) h) by (intros F; apply N1, in_app_iff; now left).
    assert (M2 : forall x, ~ In (AOf j (GExn x)) h) by (intros x F; apply (N2 x), in_app_iff; now left).
    assert (M3 : ~ overlapped (ASuspended xs None) j h).
    { intros (h1 & x & h2 & s1 & k & F1 & F2 & F3 & F4 & F5). apply N3. exists h1, x, (h2 ++ [l]), s1, k. rewrite F1, <- app_assoc. auto. }
    specialize (fun i u E => IH i u E). destruct (ai Hr) as (I1 & I2 & I3 & _).
    destruct (astep_cases _ _ E) as [[-> ->]|[(i & u & -> & Eu & ->)|(i & u & p & n & q & ls & Eu & -> & M)]].
    - cbn [a_subs] in Ew. rewrite new_nth in Ew. destruct (j =? length (a_subs s)) eqn:Ej; [injection Ew as <-; now split|]. exact (IH _ _ Ew M1 M2 M3).
    - destruct (aover u); [exact (IH _ _ Ew M1 M2 M3)|]. cbn [a_subs] in Ew. rewrite (flag_nth s i true j Eu) in Ew.
      destruct (i =? j) eqn:Ej; [|exact (IH _ _ Ew M1 M2 M3)]. apply Nat.eqb_eq in Ej as ->. exfalso. apply N1, in_app_iff. right. now left.
    - rewrite (move_nth s i p n q ls j Eu) in Ew. rewrite got_move. destruct (i =? j) eqn:Ej; [|rewrite app_nil_r; exact (IH _ _ Ew M1 M2 M3)].
      apply Nat.eqb_eq in Ej as ->. injection Ew as <-. cbn [a_cancel a_phase]. split; [reflexivity|].
      destruct (IH _ _ Eu M1 M2 M3) as [C P]. pose proof (a_fits Hr _ Eu) as Ft. clear IH E M1 M2 M3. pose proof (I2 _ _ Eu) as Iu.
      remember (a_obj s) as ob eqn:Eo. remember (a_phase u) as ph eqn:Eph. remember (a_cancel u) as c eqn:Ec. remember (a_pos u) as ps eqn:Eps.
      destruct M as [o' ys e ph x Hx W|o' k ys e ph x Hx W|o' ph x Hx W|v ys e| |e|it ph x W|it|o' ph W|o' e|o' ph e W|k ys e|o' ph W];
        try exact I; try discriminate.
      + (* busy *) apply N3. exists h, x, [], s, k. split; [reflexivity|]. split; [destruct W as [[_ ->]|[_ ->]]; auto|]. split; [exact Hr|].
        split; [|intros ->; rewrite Hx in Iu; assert (F : ph = GNext) by (now apply Iu); destruct W as [[W _]|[W _]]; congruence].
        assert (Lk : k < length (a_subs s)) by (apply I3; now rewrite Hx).
        destruct (nth_error (a_subs s) k) as [y|] eqn:Ek; [|apply nth_error_None in Ek; lia].
        exists y. split; [exact Ek|]. apply (I2 _ _ Ek). now rewrite Hx.
      + (* late *) assert (V : exists vs, got j s = map OnNext vs) by (destruct W as [[-> _]|[-> _]]; [exists []; exact Ft|exact Ft]).
        destruct V as [vs ->]. now exists vs.
      + destruct Ft as [vs ->]. now exists vs.
      + destruct I1.
      + rewrite app_nil_r. destruct W as [->| ->]; [destruct P|exact P].
      + elim (N2 e). apply in_app_iff. right. now left.
      + elim (N2 e). apply in_app_iff. right. now left.
  Qed.
End SharedAsyncProofs.

(** ** The properties *)
Lemma alone_all : forall A (it : iterator A) xs e h s i,
  iterates it xs e -> areach (AIterable it) h s -> (forall x, ~ In (AOf i (GExn x)) h) ->
  prefix (got i s) (trace xs e) /\ (task_over i s -> ~ In (AOf i GCancel) h -> got i s = trace xs e).
Proof.
  intros A it xs e h s i Hi Hr Hn. destruct (nth_error (a_subs s) i) as [u|] eqn:Eu.
  - destruct (alone Hr _ Eu) as (g & Hg & G1 & G2 & G3). rewrite <- G1.
    assert (N : ~ observer_raised (steps_of i h)).
    { intros [x F]. apply (Hn x). apply in_flat_map in F as ([|j y|j] & F1 & F2); try destruct F2.
      destruct (j =? i) eqn:Ej; [|destruct F2]. destruct F2 as [->|[]]. now apply Nat.eqb_eq in Ej as ->. }
    pose proof (gl Hi Hg N) as G. unfold GL in G.
    assert (P : prefix (g_log g) (trace xs e) /\ (g_over g -> ~ In GCancel (steps_of i h) -> g_log g = trace xs e)).
    { destruct (g_phase g) eqn:Ep; unfold g_over; rewrite Ep.
      - destruct G as [_ ->]. split; [apply prefix_nil|intros []].
      - destruct G as [_ ->]. split; [apply prefix_firstn|intros []].
      - destruct G as [_ ->]. split; [apply prefix_firstn|intros []].
      - destruct G.
      - rewrite G. split; [apply prefix_refl|intros []].
      - destruct G as [H1 [H2|H2]]; (split; [exact H1|]); intros _ Hc; [contradiction|exact H2].
      - rewrite G. split; [apply prefix_refl|reflexivity]. }
    destruct P as [P1 P2]. split; [exact P1|]. intros (w & Ew & Ov) Hc. rewrite Eu in Ew. injection Ew as <-. apply P2.
    + destruct G2 as [[C P]|[C P]]; unfold g_over; rewrite P; [exact I|]. unfold aover in Ov. now destruct (a_phase u).
    + intros F. apply Hc. apply in_flat_map in F as ([|j y|j] & F1 & F2); try destruct F2.
      destruct (j =? i) eqn:Ej; [|destruct F2]. destruct F2 as [->|[]]. now apply Nat.eqb_eq in Ej as ->.
  - apply nth_error_None in Eu. rewrite (got_none Hr Eu). split; [apply prefix_nil|].
    intros (w & Ew & _). apply nth_error_None in Eu. congruence.
Qed.

Lemma all_handed_out : forall A (xs : list A) e h s,
  areach (ASuspended xs e) h s -> none_disposed h -> none_raised h ->
  a_subs s <> [] -> (forall i, i < length (a_subs s) -> task_over i s) ->
  handed_out s = xs /\ (e = None -> exists i, In OnCompleted (got i s)).
Proof.
  intros A xs e h s Hr N R Ne Ov. destruct (someone Hr N R) as [F|[F|(j & u & Eu & F)]]; [contradiction| |].
  - destruct (af Hr N F) as [F1 F2]. split; [exact F1|]. intros E. destruct (F2 E) as [i Hi]. exists i.
    unfold got. apply in_map_iff. exists (i, OnCompleted). split; [reflexivity|]. apply filter_In. split; [exact Hi|]. apply Nat.eqb_refl.
  - exfalso. destruct (Ov j) as (w & Ew & D); [apply nth_error_Some; congruence|]. congruence.
Qed.

Lemma all_over_or_on : forall A (xs : list A) e h s,
  areach (ASuspended xs e) h s ->
  (forall i, i < length (a_subs s) -> task_over i s) \/
  exists l s', (forall i, l <> AOf i GCancel) /\ (forall i x, l <> AOf i (GExn x)) /\ areach (ASuspended xs e) (h ++ [l]) s'.
Proof.
  intros A xs e h s Hr.
  assert (D : (exists j u, nth_error (a_subs s) j = Some u /\ aover u = false) \/ forall i, i < length (a_subs s) -> task_over i s).
  { unfold task_over. generalize (a_subs s). intros l. induction l as [|w l IH]; [right; cbn; lia|].
    destruct (aover w) eqn:Ow; [|left; now exists 0, w].
    destruct IH as [(j & u & Eu & Ou)|IH]; [left; now exists (S j), u|right].
    intros [|i] L; [now exists w|]. cbn in L. apply IH. lia. }
  destruct D as [(j & u & Eu & Ou)|D]; [right|now left].
  destruct (a_progress _ Hr Eu Ou) as (l & s' & L1 & L2 & E). exists l, s'. split; [exact L1|]. split; [exact L2|].
  eapply as_snoc; eassumption.
Qed.
