(** * Proofs about AsyncIteratorObserver. *)
From Coq Require Import Permutation.
From Verif Require Export Iterate.
Set Implicit Arguments.

Lemma NoDup_app_l X (a b : list X) : NoDup (a ++ b) -> NoDup a.
Proof. induction a as [|x a IH]; intros H; [constructor|]. inversion H as [|? ? H1 H2]; subst. constructor; [|auto]. intros F. apply H1, in_app_iff. now left. Qed.

Definition foreign (r : list handle) : Prop := Forall (fun h => h = HForeign) r.
Definition wk (w : option nat) : list handle := match w with Some id => [HAwait id false] | None => [] end.
Definition wids (w : option nat) (ps : list nat) : list nat := match w with Some id => id :: ps | None => ps end.
Definition waiting (w : option nat) (ps : list nat) : list (nat * fut unit) :=
  match w with Some id => [(id, FResult tt)] | None => [] end ++ map (fun id => (id, FPending)) ps.
Definition rets (a : list nat) : list (nat * ended) := map (fun id => (id, Success)) a.
Definition wp (c : consumer) : list handle := match c with CWaiting => [HPush false] | _ => [] end.

Lemma foreign_app r r' : foreign (r ++ r') <-> foreign r /\ foreign r'.
Proof. apply Forall_app. Qed.
Lemma foreign_1 : foreign [HForeign].
Proof. repeat constructor. Qed.

Section Proofs.
  Context {A : Type}.
  Notation istate := (istate A).

  Definition elems (s : istate) (a : list nat) (vs : list A) : Prop :=
    map (nth_error (i_calls s)) a = map (fun v => Some (OnNext v)) vs.

  Record common (s : istate) (w : option nat) (ps a : list nat) (vs : list A) : Prop := Common {
    c_wait : i_wait s = waiting w ps;
    c_perm : Permutation (i_adm s ++ wids w ps) (seq 0 (length (i_calls s)));
    c_ret : i_ret s = rets a;
    c_elems : elems s a vs
  }.

  (** Nobody is sending; the element sent waits for the consumer (or the
      stream has ended); the consumer has got it, the sender does not know yet. *)
  Inductive inv (mid : bool) (s : istate) : Prop :=
  | inv_free w ps vs r : common s w ps (i_adm s) vs ->
      i_busy s = false -> i_push s = FPending -> i_pull s = FPending -> i_puller s = None ->
      i_ready s = wk w ++ r -> foreign r -> i_res s = map Returned vs -> inv mid s
  | inv_sent w ps vs r1 r2 a id n k : common s w ps a vs ->
      i_busy s = true -> i_push s = fut_of n -> i_pull s = FPending -> i_puller s = Some id ->
      i_ready s = wk w ++ r1 ++ wp (i_cons s) ++ r2 -> foreign r1 -> foreign r2 -> (mid = true -> w = None) ->
      i_adm s = a ++ [id] -> nth_error (i_calls s) id = Some n ->
      i_res s = map Returned vs ++ repeat (Raised (err n)) k -> (is_term n = false -> k = 0) -> inv mid s
  | inv_taken w ps vs r1 r2 a id v : common s w ps a vs ->
      i_busy s = true -> i_push s = FPending -> i_pull s = FResult tt -> i_puller s = Some id ->
      i_ready s = r1 ++ HPull id false :: wk w ++ r2 -> foreign r1 -> foreign r2 ->
      i_adm s = a ++ [id] -> nth_error (i_calls s) id = Some (OnNext v) ->
      i_res s = map Returned (vs ++ [v]) -> inv mid s.

  Lemma inv_weaken b s : inv true s -> inv b s.
  Proof.
    intros [w ps vs r H ? ? ? ? ? ? ?|w ps vs r1 r2 a id n k H ? ? ? ? ? ? ? Hm ? ? ? ?|w ps vs r1 r2 a id v H ? ? ? ? ? ? ? ? ? ?].
    - eapply inv_free; eauto.
    - eapply inv_sent; eauto.
    - eapply inv_taken; eauto.
  Qed.

  (** An update that the invariant does not see. *)
  Definition same (s s' : istate) : Prop :=
    i_calls s' = i_calls s /\ i_adm s' = i_adm s /\ i_ret s' = i_ret s /\ i_wait s' = i_wait s.
  Lemma common_same s s' w ps a vs : same s s' -> common s w ps a vs -> common s' w ps a vs.
  Proof. intros (E1 & E2 & E3 & E4) [H1 H2 H3 H4]. constructor; unfold elems in *; rewrite ?E1, ?E2, ?E3, ?E4; assumption. Qed.
  Ltac same := repeat split; reflexivity.

  Lemma elems_grow s n a vs : elems s a vs -> elems (called s n) a vs.
  Proof.
    unfold elems. cbn. revert vs. induction a as [|i a IH]; intros [|v vs] H; try discriminate; [reflexivity|].
    cbn in *. injection H as H1 H2. rewrite (IH vs H2). f_equal. rewrite nth_error_app1; [exact H1|].
    apply nth_error_Some. congruence.
  Qed.
  Lemma nth_grow (l : list (notif A)) n i x : nth_error l i = Some x -> nth_error (l ++ [n]) i = Some x.
  Proof. intros H. rewrite nth_error_app1; [exact H|]. apply nth_error_Some. congruence. Qed.
  Lemma nth_new (l : list (notif A)) n : nth_error (l ++ [n]) (length l) = Some n.
  Proof. rewrite nth_error_app2 by lia. now rewrite Nat.sub_diag. Qed.
  Lemma seq_grow n : seq 0 (S n) = seq 0 n ++ [n].
  Proof. now rewrite seq_S. Qed.

  Lemma init_inv : inv false (i_init (A := A)).
  Proof. apply inv_free with (w := None) (ps := []) (vs := []) (r := []); try reflexivity; constructor; reflexivity || constructor. Qed.

  Lemma soon_inv b s : inv b s -> inv b (soon s HForeign).
  Proof.
    intros [w ps vs r H ? ? ? ? Hr ? ?|w ps vs r1 r2 a id n k H ? ? ? ? Hr ? ? Hm ? ? ? ?|w ps vs r1 r2 a id v H ? ? ? ? Hr ? ? ? ? ?].
    - eapply inv_free with (r := r ++ [HForeign]); cbn; eauto.
      + eapply common_same; [|exact H]. same.
      + rewrite Hr. now rewrite app_assoc.
      + apply foreign_app. split; [assumption|apply foreign_1].
    - eapply inv_sent with (r1 := r1) (r2 := r2 ++ [HForeign]); cbn; eauto.
      + eapply common_same; [|exact H]. same.
      + rewrite Hr. now rewrite !app_assoc.
      + apply foreign_app. split; [assumption|apply foreign_1].
    - eapply inv_taken with (r1 := r1) (r2 := r2 ++ [HForeign]); cbn; eauto.
      + eapply common_same; [|exact H]. same.
      + rewrite Hr, <- app_assoc. cbn. now rewrite app_assoc.
      + apply foreign_app. split; [assumption|apply foreign_1].
  Qed.

  (** The consumer gets what was pushed.  [s]: its handle is gone. *)
  Lemma pushed_inv s ps vs r a id n k : common s None ps a vs ->
    i_busy s = true -> i_push s = fut_of n -> i_pull s = FPending -> i_puller s = Some id ->
    i_ready s = r -> foreign r -> i_adm s = a ++ [id] -> nth_error (i_calls s) id = Some n ->
    i_res s = map Returned vs ++ repeat (Raised (err n)) k -> (is_term n = false -> k = 0) -> inv true (pushed s).
  Proof.
    intros [H1 H2 H3 H4] Hb Hp Hq Hl Hr Hf Ha Hn Hs Hk. unfold pushed. rewrite Hp.
    assert (T : forall e, fut_of n = FExn e -> is_term n = true /\ e = err n)
      by (destruct n; cbn; intros e0 F; [discriminate|injection F as <-; auto|injection F as <-; auto]).
    destruct (fut_of n) as [|v|e|] eqn:En; [destruct n; discriminate| | |destruct n; discriminate].
    - destruct n as [v'|e|]; try discriminate. injection En as ->. rewrite (Hk eq_refl) in Hs. cbn in Hs. rewrite app_nil_r in Hs.
      unfold take. cbn. rewrite Hq. cbn. rewrite Hl. cbn. rewrite H1. unfold waiting. cbn.
      destruct ps as [|p ps]; cbn.
      + apply inv_taken with (w := None) (ps := []) (vs := vs) (r1 := r) (r2 := []) (a := a) (id := id) (v := v); cbn; try assumption; try reflexivity.
        * constructor; cbn; assumption.
        * now rewrite Hr.
        * constructor.
        * rewrite Hs. now rewrite map_app.
      + apply inv_taken with (w := Some p) (ps := ps) (vs := vs) (r1 := r) (r2 := []) (a := a) (id := id) (v := v); cbn; try assumption; try reflexivity.
        * constructor; cbn; assumption || reflexivity.
        * rewrite Hr. now rewrite <- app_assoc.
        * constructor.
        * rewrite Hs. now rewrite map_app.
    - destruct (T e eq_refl) as [Ht ->].
      apply inv_sent with (w := None) (ps := ps) (vs := vs) (r1 := r) (r2 := []) (a := a) (id := id) (n := n) (k := S k); cbn; try assumption.
      + constructor; cbn; assumption.
      + now rewrite Hp, En.
      + now rewrite app_nil_r.
      + constructor.
      + reflexivity.
      + rewrite Hs, <- app_assoc. f_equal. now rewrite <- repeat_cons.
      + rewrite Ht. discriminate.
  Qed.

  Lemma await_push_inv s s' b : inv true s -> i_cons s = CIdle -> await_push s = (s', b) -> inv (negb b) s'.
  Proof.
    intros Hi Hc E. unfold await_push in E.
    destruct Hi as [w ps vs r H Hb Hp Hq Hl Hr Hf Hs|w ps vs r1 r2 a id n k H Hb Hp Hq Hl Hr Hf1 Hf2 Hm Ha Hn Hs Hk|w ps vs r1 r2 a id v H Hb Hp Hq Hl Hr Hf1 Hf2 Ha Hn Hs].
    - rewrite Hp in E. injection E as <- <-. eapply inv_free with (r := r); cbn; eauto. eapply common_same; [|exact H]. same.
    - rewrite (Hm eq_refl) in *. cbn in Hr. rewrite Hc in Hr. cbn in Hr.
      replace (done (i_push s)) with true in E by (rewrite Hp; destruct n; reflexivity). injection E as <- <-. cbn.
      eapply pushed_inv; eauto. apply foreign_app. auto.
    - rewrite Hp in E. injection E as <- <-. eapply inv_taken with (r1 := r1) (r2 := r2); cbn; eauto. eapply common_same; [|exact H]. same.
  Qed.

  (** Changes that concern the consumer only, when it does not wait for a push. *)
  Definition similar (s s' : istate) : Prop :=
    same s s' /\ i_res s' = i_res s /\ i_busy s' = i_busy s /\ i_push s' = i_push s /\ i_pull s' = i_pull s /\ i_puller s' = i_puller s /\
    i_ready s' = i_ready s /\ wp (i_cons s') = wp (i_cons s).
  Lemma similar_inv b s s' : similar s s' -> inv b s -> inv b s'.
  Proof.
    intros (H0 & E1 & E2 & E3 & E4 & E5 & E6 & E7) [w ps vs r H Hb Hp Hq Hl Hr Hf Hs|w ps vs r1 r2 a id n k H Hb Hp Hq Hl Hr Hf1 Hf2 Hm Ha Hn Hs Hk|w ps vs r1 r2 a id v H Hb Hp Hq Hl Hr Hf1 Hf2 Ha Hn Hs];
      pose proof (common_same H0 H) as H'; destruct H0 as (F1 & F2 & F3 & F4).
    - eapply inv_free with (r := r); rewrite ?F2, ?E1, ?E2, ?E3, ?E4, ?E5, ?E6; eauto.
    - eapply inv_sent with (r1 := r1) (r2 := r2); rewrite ?F1, ?F2, ?E1, ?E2, ?E3, ?E4, ?E5, ?E6, ?E7; eauto.
    - eapply inv_taken with (r1 := r1) (r2 := r2); rewrite ?F1, ?F2, ?E1, ?E2, ?E3, ?E4, ?E5, ?E6; eauto.
  Qed.

  (** A call that has just been made, or a waiting call whose turn it is. *)
  Lemma serialize_inv s s' b w ps id n :
    i_wait s = waiting w ps -> Permutation (i_adm s ++ wids w ps ++ [id]) (seq 0 (length (i_calls s))) ->
    nth_error (i_calls s) id = Some n ->
    (i_busy s = false -> exists vs r, i_push s = FPending /\ i_pull s = FPending /\ i_puller s = None /\ i_ready s = wk w ++ r /\ foreign r /\
       i_ret s = rets (i_adm s) /\ elems s (i_adm s) vs /\ i_res s = map Returned vs) ->
    (i_busy s = true -> (exists vs r1 r2 a i m k, i_ret s = rets a /\ elems s a vs /\
      i_push s = fut_of m /\ i_pull s = FPending /\ i_puller s = Some i /\
      i_ready s = wk w ++ r1 ++ wp (i_cons s) ++ r2 /\ foreign r1 /\ foreign r2 /\
      i_adm s = a ++ [i] /\ nth_error (i_calls s) i = Some m /\
      i_res s = map Returned vs ++ repeat (Raised (err m)) k /\ (is_term m = false -> k = 0)) \/
      (exists vs r1 r2 a i v, i_ret s = rets a /\ elems s a vs /\
       i_push s = FPending /\ i_pull s = FResult tt /\ i_puller s = Some i /\
      i_ready s = r1 ++ HPull i false :: wk w ++ r2 /\ foreign r1 /\ foreign r2 /\
      i_adm s = a ++ [i] /\ nth_error (i_calls s) i = Some (OnNext v) /\
      i_res s = map Returned (vs ++ [v]))) ->
    serialize s id n = (s', b) -> b = true /\ inv false s'.
  Proof.
    intros Hw Hperm Hn Hfree Hbusy E. unfold serialize in E. destruct (i_busy s) eqn:Hb.
    - injection E as <- <-. split; [reflexivity|]. clear Hfree.
      destruct (Hbusy eq_refl) as [(vs & r1 & r2 & a & i & m & k & H1 & H2 & H3 & H4 & H5 & H6 & H7 & H8 & H9 & H10 & H11 & H12)|(vs & r1 & r2 & a & i & v & H1 & H2 & H3 & H4 & H5 & H6 & H7 & H8 & H9 & H10 & H11)].
      + eapply inv_sent with (w := w) (ps := ps ++ [id]) (r1 := r1) (r2 := r2); cbn; eauto; try discriminate. constructor; cbn; eauto.
        * rewrite Hw. unfold waiting. now rewrite map_app, app_assoc.
        * destruct w; exact Hperm.
      + eapply inv_taken with (w := w) (ps := ps ++ [id]) (r1 := r1) (r2 := r2); cbn; eauto. constructor; cbn; eauto.
        * rewrite Hw. unfold waiting. now rewrite map_app, app_assoc.
        * destruct w; exact Hperm.
    - clear Hbusy. destruct (Hfree eq_refl) as (vs & r & H1 & H2 & H3 & H4 & H5 & H6 & H7 & H8).
      unfold admit in E. cbn in E. rewrite H1 in E. cbn in E.
      assert (P : Permutation ((i_adm s ++ [id]) ++ wids w ps) (seq 0 (length (i_calls s)))).
      { rewrite <- Hperm, <- app_assoc. apply Permutation_app_head. apply Permutation_app_comm. }
      destruct (i_cons s) eqn:Hc; cbn in E; rewrite H2 in E; injection E as <- <-; (split; [reflexivity|]).
      + eapply inv_sent with (w := w) (ps := ps) (vs := vs) (r1 := r) (r2 := []) (a := i_adm s) (id := id) (n := n) (k := 0); cbn; eauto; try discriminate.
        * constructor; cbn; eauto.
        * rewrite H4, Hc. cbn. now rewrite app_nil_r.
        * constructor.
        * now rewrite H8, app_nil_r.
      + eapply inv_sent with (w := w) (ps := ps) (vs := vs) (r1 := r) (r2 := []) (a := i_adm s) (id := id) (n := n) (k := 0); cbn; eauto; try discriminate.
        * constructor; cbn; eauto.
        * rewrite H4, Hc. cbn. now rewrite app_nil_r.
        * constructor.
        * now rewrite H8, app_nil_r.
      + eapply inv_sent with (w := w) (ps := ps) (vs := vs) (r1 := r) (r2 := []) (a := i_adm s) (id := id) (n := n) (k := 0); cbn; eauto; try discriminate.
        * constructor; cbn; eauto.
        * rewrite H4, Hc. cbn. now rewrite <- app_assoc.
        * constructor.
        * now rewrite H8, app_nil_r.
  Qed.

  Lemma send_inv s n s' b : inv true s -> send_ s n = (s', b) -> b = true /\ inv false s'.
  Proof.
    intros Hi E. unfold send_ in E.
    assert (G : forall w ps a, Permutation (a ++ wids w ps) (seq 0 (length (i_calls s))) ->
      Permutation (a ++ wids w ps ++ [length (i_calls s)]) (seq 0 (length (i_calls s ++ [n])))).
    { intros w ps a P. rewrite app_length, Nat.add_comm. cbn [length Nat.add]. rewrite seq_grow, app_assoc. now apply Permutation_app_tail. }
    destruct Hi as [w ps vs r [C1 C2 C3 C4] Hb Hp Hq Hl Hr Hf Hs|w ps vs r1 r2 a id m k [C1 C2 C3 C4] Hb Hp Hq Hl Hr Hf1 Hf2 Hm Ha Hn Hs Hk|w ps vs r1 r2 a id v [C1 C2 C3 C4] Hb Hp Hq Hl Hr Hf1 Hf2 Ha Hn Hs].
    - eapply serialize_inv with (w := w) (ps := ps) in E; cbn; eauto; [apply nth_new| |cbn; congruence].
      intros _. exists vs, r. repeat (split; [assumption|]). split; [now apply elems_grow|assumption].
    - eapply serialize_inv with (w := w) (ps := ps) in E; cbn; eauto; [apply nth_new|cbn; congruence|].
      intros _. left. exists vs, r1, r2, a, id, m, k. split; [assumption|]. split; [now apply elems_grow|]. repeat (split; [assumption|]).
      split; [now apply nth_grow|]. auto.
    - eapply serialize_inv with (w := w) (ps := ps) in E; cbn; eauto; [apply nth_new|cbn; congruence|].
      intros _. right. exists vs, r1, r2, a, id, v. split; [assumption|]. split; [now apply elems_grow|]. repeat (split; [assumption|]).
      split; [now apply nth_grow|]. auto.
  Qed.

  Lemma act_inv s a s' b : inv true s -> calm s a = true -> do_act s a = Some (s', b) -> inv (negb b) s'.
  Proof.
    intros Hi Hc E. destruct a; try discriminate; cbn in E.
    - injection E as E. destruct (send_inv _ Hi E) as [-> H]. exact H.
    - unfold next_ in E. destruct (i_cons s) eqn:Ec; try discriminate. destruct (i_sub s).
      + injection E as E. now apply await_push_inv with s.
      + injection E as <- <-. eapply similar_inv; [|exact Hi]. unfold similar. cbn. rewrite Ec. repeat split.
    - destruct (i_cons s) eqn:Ec; try discriminate. injection E as E.
      eapply await_push_inv; [|..|exact E]; [|reflexivity]. eapply similar_inv; [|exact Hi]. unfold similar. cbn. rewrite Ec. repeat split.
    - destruct (i_cons s) eqn:Ec; try discriminate. injection E as <- <-.
      eapply similar_inv; [|exact Hi]. unfold similar. cbn. rewrite Ec. repeat split.
    - injection E as <- <-. eapply similar_inv; [|exact Hi]. unfold similar. destruct (i_sub s); repeat split.
  Qed.

  (** Whatever the users are assumed to do, as long as they are calm. *)
  Variable ok : istate -> act A -> bool.
  Hypothesis ok_calm : forall s a, ok s a = true -> calm s a = true.

  Lemma acts_inv l : forall s s', inv true s -> do_acts ok s l = Some s' -> inv false s'.
  Proof.
    induction l as [|a l IH]; intros s s' Hi E; cbn in E.
    - injection E as <-. now apply inv_weaken.
    - destruct (ok s a) eqn:Ho; [|discriminate]. apply ok_calm in Ho. destruct (do_act s a) as [[s1 [|]]|] eqn:Ea; [| |discriminate].
      + destruct l; [|discriminate]. injection E as <-. exact (act_inv _ Hi Ho Ea).
      + apply IH with s1; [exact (act_inv _ Hi Ho Ea)|exact E].
  Qed.

  Lemma find_hd id f l : find (fun x => fst x =? id) ((id, f) :: l : list (nat * fut unit)) = Some (id, f).
  Proof. cbn. now rewrite Nat.eqb_refl. Qed.

  (** A turn begins: the handle at the head is gone. *)
  Lemma resume_inv s h r : inv false s -> i_ready s = h :: r ->
    exists s' b, resume (set_ready s r) h = Some (s', b) /\ inv (negb b) s'.
  Proof.
    intros Hi E. assert (Nd : forall w ps, Permutation (i_adm s ++ wids (Some w) ps) (seq 0 (length (i_calls s))) ->
      filter (fun x => negb (fst x =? w)) (waiting (Some w) ps) = waiting None ps /\ (exists n, nth_error (i_calls s) w = Some n) /\
      Permutation (i_adm s ++ ps ++ [w]) (seq 0 (length (i_calls s)))).
    { intros w ps P. split; [|split].
      - assert (N : ~ In w ps).
        { intros F. pose proof (Permutation_NoDup (Permutation_sym P) (seq_NoDup _ _)) as N. cbn in N.
          apply NoDup_remove_2 in N. apply N. apply in_app_iff. now right. }
        unfold waiting. cbn. rewrite Nat.eqb_refl. cbn. clear P. induction ps as [|p ps IH]; [reflexivity|].
        cbn. destruct (p =? w) eqn:Ep; [apply Nat.eqb_eq in Ep; elim N; now left|]. cbn. f_equal. apply IH. intros F. apply N. now right.
      - assert (F : In w (seq 0 (length (i_calls s)))) by (eapply Permutation_in; [exact P|]; apply in_app_iff; right; now left).
        apply in_seq in F. destruct (nth_error (i_calls s) w) eqn:En; [eauto|]. apply nth_error_None in En. lia.
      - rewrite <- P. apply Permutation_app_head. cbn. symmetry. apply Permutation_cons_append. }
    destruct Hi as [w ps vs r0 [C1 C2 C3 C4] Hb Hp Hq Hl Hr Hf Hs|w ps vs r1 r2 a id m k [C1 C2 C3 C4] Hb Hp Hq Hl Hr Hf1 Hf2 Hm Ha Hn Hs Hk|w ps vs r1 r2 a id v [C1 C2 C3 C4] Hb Hp Hq Hl Hr Hf1 Hf2 Ha Hn Hs];
      rewrite Hr in E.
    - destruct w as [w|]; cbn in E.
      + injection E as <- <-. destruct (Nd _ _ C2) as (N1 & [n N2] & N3). cbn [resume set_ready i_wait i_calls].
        rewrite C1. unfold waiting at 1. cbn [app map]. rewrite find_hd, N2, N1.
        destruct (serialize _ w n) as [s' b] eqn:Es. exists s', b. split; [reflexivity|].
        eapply serialize_inv with (w := None) (ps := ps) in Es; cbn; eauto; [destruct Es as [-> Es]; exact Es| |cbn; congruence].
        intros _. exists vs, r0. auto 10.
      + destruct r0 as [|h0 r0]; [discriminate|]. injection E as -> ->. inversion Hf as [|? ? Hh Hf']; subst.
        eexists _, _. split; [reflexivity|]. cbn. eapply inv_free with (w := None) (r := r); cbn; eauto. constructor; cbn; eauto.
    - destruct w as [w|]; cbn in E.
      + injection E as <- <-. destruct (Nd _ _ C2) as (N1 & [n N2] & N3). cbn [resume set_ready i_wait i_calls].
        rewrite C1. unfold waiting at 1. cbn [app map]. rewrite find_hd, N2, N1.
        destruct (serialize _ w n) as [s' b] eqn:Es. exists s', b. split; [reflexivity|].
        eapply serialize_inv with (w := None) (ps := ps) in Es; cbn; eauto; [destruct Es as [-> Es]; exact Es|cbn; congruence|].
        intros _. left. exists vs, r1, r2, a, id, m, k. auto 15.
      + destruct r1 as [|h1 r1]; cbn in E.
        * destruct (i_cons s) eqn:Ec; cbn in E.
          -- subst r2. inversion Hf2 as [|? ? Hh Hf']; subst. eexists _, _. split; [reflexivity|]. cbn.
             eapply inv_sent with (w := None) (r1 := []) (r2 := r); cbn; eauto. constructor; cbn; eauto. now rewrite Ec.
          -- subst r2. inversion Hf2 as [|? ? Hh Hf']; subst. eexists _, _. split; [reflexivity|]. cbn.
             eapply inv_sent with (w := None) (r1 := []) (r2 := r); cbn; eauto. constructor; cbn; eauto. now rewrite Ec.
          -- injection E as <- <-. cbn. rewrite Ec. eexists _, _. split; [reflexivity|]. cbn.
             eapply pushed_inv with (r := r2); cbn; eauto. constructor; cbn; eauto.
        * injection E as -> <-. inversion Hf1 as [|? ? Hh Hf']; subst. eexists _, _. split; [reflexivity|]. cbn.
          eapply inv_sent with (w := None) (r1 := r1) (r2 := r2); cbn; eauto. constructor; cbn; eauto.
    - destruct r1 as [|h1 r1]; cbn in E.
      + injection E as <- <-. cbn. rewrite Hq. eexists _, _. split; [reflexivity|]. cbn.
        eapply inv_free with (w := w) (ps := ps) (vs := vs ++ [v]) (r := r2); cbn; eauto. constructor; cbn; eauto.
        * rewrite C3, Ha. unfold rets. now rewrite map_app.
        * unfold elems in *. cbn. rewrite Ha, !map_app, C4. cbn. now rewrite Hn.
      + injection E as -> <-. inversion Hf1 as [|? ? Hh Hf']; subst. eexists _, _. split; [reflexivity|]. cbn.
        eapply inv_taken with (w := w) (r1 := r1) (r2 := r2); cbn; eauto. constructor; cbn; eauto.
  Qed.

  Lemma step_inv s x s' : inv false s -> istep ok s x = Some s' -> inv false s'.
  Proof.
    intros Hi E. destruct x as [|l]; cbn in E.
    - injection E as <-. now apply soon_inv.
    - destruct (i_ready s) as [|h r] eqn:Er; [discriminate|].
      destruct (resume_inv Hi Er) as (s1 & b & E1 & H1). rewrite E1 in E. destruct b.
      + destruct l; [|discriminate]. injection E as <-. exact H1.
      + eapply acts_inv; [exact H1|exact E].
  Qed.

  Lemma steps_inv s h s' : inv false s -> isteps ok s h s' -> inv false s'.
  Proof. intros Hi H. induction H as [|s h x s1 s2 H IH E]; [exact Hi|]. exact (step_inv _ (IH Hi) E). Qed.
  Lemma reach_inv h s : isteps ok i_init h s -> inv false s.
  Proof. apply steps_inv, init_inv. Qed.

  Lemma turn_possible s : inv false s -> i_ready s <> [] -> exists s', istep ok s (LTurn []) = Some s'.
  Proof.
    intros Hi Hr. destruct (i_ready s) as [|h r] eqn:Er; [contradiction|]. cbn. rewrite Er.
    destruct (resume_inv Hi Er) as (s1 & b & E1 & _). rewrite E1. destruct b; eauto.
  Qed.
End Proofs.

(** ** What the invariant says *)
Section Inv.
  Context {A : Type}.
  Implicit Types s : istate A.

  Lemma map_Some_inj B (f : A -> B) (l : list A) : map (fun v => Some (f v)) l = map Some (map f l).
  Proof. now rewrite map_map. Qed.

  Lemma inv_order b s : inv b s -> exists vs rest errs, admitted s = map Some (map OnNext vs ++ rest) /\ i_res s = map Returned vs ++ errs /\
    length rest <= 1 /\ (errs = [] \/ exists n, rest = [n] /\ is_term n = true /\ Forall (eq (Raised (err n))) errs).
  Proof.
    unfold admitted. intros [w ps vs r [C1 C2 C3 C4] Hb Hp Hq Hl Hr Hf Hs|w ps vs r1 r2 a id n k [C1 C2 C3 C4] Hb Hp Hq Hl Hr Hf1 Hf2 Hm Ha Hn Hs Hk|w ps vs r1 r2 a id v [C1 C2 C3 C4] Hb Hp Hq Hl Hr Hf1 Hf2 Ha Hn Hs];
      unfold elems in C4; rewrite map_Some_inj in C4.
    - exists vs, [], []. rewrite C4, !app_nil_r. auto.
    - exists vs, [n], (repeat (Raised (err n)) k). rewrite Ha, map_app, C4. cbn. rewrite Hn, map_app. split; [reflexivity|].
      split; [exact Hs|]. split; [auto|]. destruct (is_term n) eqn:En; [|rewrite (Hk eq_refl); auto].
      right. exists n. repeat split; auto. apply Forall_forall. intros x Hx. symmetry. now apply repeat_spec in Hx.
    - exists (vs ++ [v]), [], []. rewrite Ha, map_app, C4. cbn. rewrite Hn, !app_nil_r, Hs. rewrite !map_app. auto.
  Qed.

  Lemma inv_once b s : inv b s -> NoDup (i_adm s) /\ Forall (fun id => id < length (i_calls s)) (i_adm s).
  Proof.
    assert (G : forall w ps, Permutation (i_adm s ++ wids w ps) (seq 0 (length (i_calls s))) -> NoDup (i_adm s) /\ Forall (fun id => id < length (i_calls s)) (i_adm s)).
    { intros w ps P. split.
      - pose proof (Permutation_NoDup (Permutation_sym P) (seq_NoDup _ _)) as N. now apply NoDup_app_l in N.
      - apply Forall_forall. intros x Hx. assert (F : In x (seq 0 (length (i_calls s)))) by (eapply Permutation_in; [exact P|]; apply in_app_iff; now left).
        apply in_seq in F. lia. }
    intros [w ps vs r [C1 C2 C3 C4] ? ? ? ? ? ? ?|w ps vs r1 r2 a id n k [C1 C2 C3 C4] ? ? ? ? ? ? ? ? ? ? ? ?|w ps vs r1 r2 a id v [C1 C2 C3 C4] ? ? ? ? ? ? ? ? ? ?]; eauto.
  Qed.

  Lemma elems_nth (s : istate A) a vs k id : elems s a vs -> nth_error a k = Some id ->
    exists v, nth_error vs k = Some v /\ nth_error (i_calls s) id = Some (OnNext v).
  Proof.
    unfold elems. revert a vs. induction k as [|k IH]; intros [|i a] [|v vs] H E; try discriminate; cbn in *.
    - injection E as ->. injection H as H _. eauto.
    - injection H as _ H. eauto.
  Qed.

  (** The calls that have returned. *)
  Lemma inv_returned b s : inv b s -> exists a, i_ret s = rets a /\ prefix a (i_adm s) /\
    forall k id, nth_error a k = Some id -> exists v, nth_error (i_calls s) id = Some (OnNext v) /\ nth_error (i_res s) k = Some (Returned v).
  Proof.
    intros [w ps vs r [C1 C2 C3 C4] Hb Hp Hq Hl Hr Hf Hs|w ps vs r1 r2 a id n k [C1 C2 C3 C4] Hb Hp Hq Hl Hr Hf1 Hf2 Hm Ha Hn Hs Hk|w ps vs r1 r2 a id v [C1 C2 C3 C4] Hb Hp Hq Hl Hr Hf1 Hf2 Ha Hn Hs].
    - exists (i_adm s). split; [exact C3|]. split; [exists []; now rewrite app_nil_r|]. intros k id E.
      destruct (elems_nth _ C4 E) as (v & E1 & E2). exists v. split; [exact E2|]. rewrite Hs. now rewrite nth_error_map, E1.
    - exists a. split; [exact C3|]. split; [exists [id]; exact Ha|]. intros j i E.
      destruct (elems_nth _ C4 E) as (v & E1 & E2). exists v. split; [exact E2|]. rewrite Hs.
      rewrite nth_error_app1; [now rewrite nth_error_map, E1|]. rewrite map_length. apply nth_error_Some. congruence.
    - exists a. split; [exact C3|]. split; [exists [id]; exact Ha|]. intros j i E.
      destruct (elems_nth _ C4 E) as (v' & E1 & E2). exists v'. split; [exact E2|]. rewrite Hs, map_app.
      rewrite nth_error_app1; [now rewrite nth_error_map, E1|]. rewrite map_length. apply nth_error_Some. congruence.
  Qed.

  (** When everything has run: the calls that have not returned are those
      whose notification has not been picked up. *)
  Lemma inv_quiet b s : inv b s -> i_ready s = [] -> exists vs rest errs, i_ret s = rets (firstn (length vs) (i_adm s)) /\
    admitted s = map Some (map OnNext vs ++ rest) /\ i_res s = map Returned vs ++ errs /\
    match rest with
    | [] => errs = [] 
    | n :: l => l = [] /\ i_cons s <> CWaiting /\ (is_term n = false -> errs = [])
    end.
  Proof.
    unfold admitted. intros [w ps vs r [C1 C2 C3 C4] Hb Hp Hq Hl Hr Hf Hs|w ps vs r1 r2 a id n k [C1 C2 C3 C4] Hb Hp Hq Hl Hr Hf1 Hf2 Hm Ha Hn Hs Hk|w ps vs r1 r2 a id v [C1 C2 C3 C4] Hb Hp Hq Hl Hr Hf1 Hf2 Ha Hn Hs] Hn0;
      unfold elems in C4; rewrite map_Some_inj in C4; pose proof (f_equal (@length _) C4) as L; rewrite !map_length in L.
    - exists vs, [], []. rewrite <- L, firstn_all, C4, !app_nil_r. auto.
    - exists vs, [n], (repeat (Raised (err n)) k). rewrite Ha, map_app, C4, <- L, firstn_app, Nat.sub_diag, firstn_all. cbn.
      rewrite Hn, map_app, app_nil_r. split; [exact C3|]. split; [reflexivity|]. split; [exact Hs|]. split; [reflexivity|].
      split; [|intros Ht; now rewrite (Hk Ht)]. intros Hc. rewrite Hr in Hn0. rewrite Hc in Hn0.
      apply app_eq_nil in Hn0 as [_ Hn0]. apply app_eq_nil in Hn0 as [_ Hn0]. discriminate.
    - rewrite Hr in Hn0. apply app_eq_nil in Hn0 as [_ Hn0]. discriminate.
  Qed.
End Inv.

(** ** Properties kept by every step *)
Lemma steps_keep A (ok : istate A -> act A -> bool) (P : istate A -> Prop) :
  (forall s, P s -> P (soon s HForeign)) ->
  (forall s h r s' b, P s -> i_ready s = h :: r -> resume (set_ready s r) h = Some (s', b) -> P s') ->
  (forall s a s' b, P s -> ok s a = true -> do_act s a = Some (s', b) -> P s') ->
  forall s h s', P s -> isteps ok s h s' -> P s'.
Proof.
  intros H1 H2 H3 s h s' Hp H. induction H as [|s h x s1 s2 H IH E]; [exact Hp|]. specialize (IH Hp). clear H Hp.
  assert (G : forall l s s', P s -> do_acts ok s l = Some s' -> P s').
  { induction l as [|a l IHl]; intros t t' Ht Et; cbn in Et; [now injection Et as <-|].
    destruct (ok t a) eqn:Eo; [|discriminate]. destruct (do_act t a) as [[t1 [|]]|] eqn:Ea; [| |discriminate].
    - destruct l; [|discriminate]. injection Et as <-. eauto.
    - eauto. }
  destruct x as [|l]; cbn in E.
  - injection E as <-. auto.
  - destruct (i_ready s1) as [|h0 r] eqn:Er; [discriminate|].
    destruct (resume (set_ready s1 r) h0) as [[t [|]]|] eqn:Et; [| |discriminate].
    + destruct l; [|discriminate]. injection E as <-. eauto.
    + eauto.
Qed.

(** All cases of a step. *)
Ltac cases :=
  repeat match goal with
  | H : Some _ = Some _ |- _ => injection H as H
  | H : (_, _) = (_, _) |- _ => injection H as H
  | H : None = Some _ |- _ => discriminate H
  | H : context [match ?x with _ => _ end] |- _ => first [is_var x; destruct x|destruct x eqn:?]
  end; subst.
Ltac act_cases E := unfold do_act, send_, serialize, admit, next_, await_push, pushed, take, cancel_next, cancel_send in E; cbn in E; cases.
Ltac resume_cases E := unfold resume, pulled, serialize, admit, pushed, take in E; cbn in E; cases.

Section Keep.
  Context {A : Type}.
  Implicit Types s : istate A.

  Definition grows s0 s : Prop := prefix (i_calls s0) (i_calls s) /\ prefix (i_adm s0) (i_adm s).
  Lemma prefix_snoc X (a b : list X) x : prefix a b -> prefix a (b ++ [x]).
  Proof. intros [c ->]. exists (c ++ [x]). now rewrite app_assoc. Qed.
  Lemma grows_refl s : grows s s.
  Proof. split; apply prefix_refl. Qed.

  Lemma steps_grow ok s h s' : isteps ok s h s' -> grows s s'.
  Proof.
    apply (@steps_keep A ok (grows s)); [..|apply grows_refl].
    - intros t H. exact H.
    - intros t h0 r t' b [H1 H2] Hr E. resume_cases E; split; cbn; auto using prefix_snoc.
    - intros t a t' b [H1 H2] Ho E. act_cases E; split; cbn; auto using prefix_snoc.
  Qed.

  (** *** Producers that take turns *)
  Definition tidy s : Prop := i_wait s = [] /\ i_adm s = seq 0 (length (i_calls s)).

  Lemma in_turn_calm s a : in_turn s a = true -> calm s a = true.
  Proof. intros H. now apply andb_true_iff in H. Qed.

  Lemma inv_free_of_turn b s : inv b s -> tidy s -> length (i_calls s) = length (i_ret s) -> i_busy s = false.
  Proof.
    intros Hi [_ Ha] L. rewrite <- (seq_length (length (i_calls s)) 0), <- Ha in L.
    destruct Hi as [? ? ? ? ? ? ? ? ? ? ? ?|w ps vs r1 r2 a id n k [C1 C2 C3 C4] Hb Hp Hq Hl Hr Hf1 Hf2 Hm Ha' Hn Hs Hk|w ps vs r1 r2 a id v [C1 C2 C3 C4] Hb Hp Hq Hl Hr Hf1 Hf2 Ha' Hn Hs].
    - assumption.
    - rewrite Ha', C3 in L. unfold rets in L. rewrite app_length, map_length in L. cbn in L. lia.
    - rewrite Ha', C3 in L. unfold rets in L. rewrite app_length, map_length in L. cbn in L. lia.
  Qed.

  Lemma act_tidy s a s' b : inv true s -> tidy s -> in_turn s a = true -> do_act s a = Some (s', b) -> tidy s'.
  Proof.
    intros Hi Ht Ho E. pose proof Ht as [H1 H2]. apply andb_true_iff in Ho as [Hc Hl]. destruct a as [n| | | | | |]; try discriminate Hc.
    - apply Nat.eqb_eq in Hl. pose proof (inv_free_of_turn Hi Ht Hl) as Hb. cbn in E. unfold send_, serialize in E. cbn in E. rewrite Hb in E.
      injection E as E. assert (G : i_wait s' = i_wait s /\ i_adm s' = i_adm s ++ [length (i_calls s)] /\ i_calls s' = i_calls s ++ [n]).
      { unfold admit, pulled in E. cbn in E. cases; cbn; auto. }
      destruct G as (G1 & G2 & G3). split; [congruence|]. rewrite G2, G3, H2, app_length, Nat.add_comm. cbn [length Nat.add]. now rewrite seq_S.
    - act_cases E; split; cbn in *; congruence.
    - act_cases E; split; cbn in *; congruence.
    - act_cases E; split; cbn in *; congruence.
    - act_cases E; split; cbn in *; congruence.
  Qed.

  Lemma steps_tidy h s : isteps in_turn i_init h s -> tidy s.
  Proof.
    intros H. remember (@i_init A) as s0. induction H as [|s0 h x s1 s2 H IH E]; subst; [split; reflexivity|].
    specialize (IH eq_refl). pose proof (reach_inv in_turn_calm H) as Hi. clear H.
    assert (G : forall l s s', inv true s -> tidy s -> do_acts in_turn s l = Some s' -> tidy s').
    { induction l as [|a l IHl]; intros t t' Hv Ht Et; cbn in Et; [now injection Et as <-|].
      destruct (in_turn t a) eqn:Eo; [|discriminate]. destruct (do_act t a) as [[t1 [|]]|] eqn:Ea; [| |discriminate].
      - destruct l; [|discriminate]. injection Et as <-. exact (act_tidy _ Hv Ht Eo Ea).
      - apply (IHl t1); [exact (act_inv _ Hv (in_turn_calm _ _ Eo) Ea)|exact (act_tidy _ Hv Ht Eo Ea)|exact Et]. }
    destruct x as [|l]; cbn in E.
    - injection E as <-. exact IH.
    - destruct (i_ready s1) as [|h0 r] eqn:Er; [discriminate|].
      destruct (resume_inv Hi Er) as (t & b & Et & Hv). rewrite Et in E.
      assert (Ht : tidy t).
      { destruct IH as [H1 H2]. destruct h0; unfold resume, pulled, pushed, take in Et; cbn in Et; rewrite ?H1 in Et; cbn in Et; cases; split; cbn in *; assumption || congruence. }
      destruct b; [destruct l; [|discriminate]; now injection E as <-|]. exact (G _ _ _ Hv Ht E).
  Qed.

  (** *** After the end *)
  Definition still e s s' : Prop :=
    i_busy s' = true /\ i_push s' = FExn e /\ i_adm s' = i_adm s /\ i_ret s' = i_ret s /\ exists k, i_res s' = i_res s ++ repeat (Raised e) k.

  Lemma still_refl e s : i_busy s = true -> i_push s = FExn e -> still e s s.
  Proof. intros H1 H2. repeat split; auto. exists 0. cbn. now rewrite app_nil_r. Qed.
  Lemma still_trans e s s' s'' : still e s s' -> still e s' s'' -> still e s s''.
  Proof.
    intros (_ & _ & H3 & H4 & k & H5) (G1 & G2 & G3 & G4 & k' & G5). repeat split; try congruence.
    exists (k + k'). rewrite G5, H5, <- app_assoc. f_equal. symmetry. apply repeat_app.
  Qed.

  Lemma act_still e s a s' b : i_busy s = true -> i_push s = FExn e -> calm s a = true -> do_act s a = Some (s', b) -> still e s s'.
  Proof.
    intros H1 H2 Hc E. unfold do_act, send_, serialize, next_, await_push, pushed in E. destruct a; try discriminate Hc; cbn in E;
      rewrite ?H1, ?H2 in E; cbn in E; cases; unfold still; cbn in *; repeat split; auto; try (exists 1; reflexivity); exists 0; cbn; now rewrite app_nil_r.
  Qed.

  Lemma resume_still e s h r s' b : inv false s -> i_push s = FExn e -> i_ready s = h :: r ->
    resume (set_ready s r) h = Some (s', b) -> still e s s'.
  Proof.
    intros Hi Hp0 Hr0 E.
    destruct Hi as [w ps vs r0 [C1 C2 C3 C4] Hb Hp Hq Hl Hr Hf Hs|w ps vs r1 r2 a id m k [C1 C2 C3 C4] Hb Hp Hq Hl Hr Hf1 Hf2 Hm Ha Hn Hs Hk|w ps vs r1 r2 a id v [C1 C2 C3 C4] Hb Hp Hq Hl Hr Hf1 Hf2 Ha Hn Hs]; try congruence.
    assert (Z : i_res s = i_res s ++ repeat (Raised e) 0) by (cbn; now rewrite app_nil_r).
    assert (F : h = HForeign -> still e s s').
    { intros ->. cbn in E. injection E as <- <-. repeat split; cbn; eauto. }
    rewrite Hr in Hr0. destruct w as [w|]; cbn in Hr0.
    - injection Hr0 as <- <-. cbn in E. rewrite C1 in E. unfold waiting in E. cbn [app map] in E. rewrite find_hd in E.
      destruct (nth_error (i_calls s) w); [|discriminate]. unfold serialize in E. cbn in E. rewrite Hb in E. injection E as <- <-. repeat split; cbn; eauto.
    - destruct r1 as [|h1 r1]; cbn in Hr0.
      + destruct (i_cons s) eqn:Ec; cbn in Hr0.
        * subst r2. inversion Hf2; subst. auto.
        * subst r2. inversion Hf2; subst. auto.
        * injection Hr0 as <- <-. unfold resume, pushed in E. cbn in E. rewrite Ec, Hp0 in E. injection E as <- <-.
          repeat split; cbn; auto. exists 1. reflexivity.
      + injection Hr0 as -> <-. inversion Hf1; subst. auto.
  Qed.

  Lemma inv_over b e s : inv b s -> i_push s = FExn e -> i_busy s = true.
  Proof. intros [] Hp; congruence. Qed.

  Lemma steps_still e s h s' : inv false s -> i_push s = FExn e -> isteps calm s h s' -> still e s s'.
  Proof.
    intros Hi Hp H. induction H as [|s h x s1 s2 H IH E]; [apply still_refl; [eapply inv_over; eauto|assumption]|].
    specialize (IH Hi Hp). pose proof (steps_inv (fun _ _ H => H) Hi H) as Hi1. clear H Hi Hp.
    apply still_trans with s1; [exact IH|]. destruct IH as (Hb & Hp & _). clear s.
    assert (G : forall l s s', i_busy s = true -> i_push s = FExn e -> do_acts calm s l = Some s' -> still e s s').
    { induction l as [|a l IHl]; intros t t' Ht Hq Et; cbn in Et; [injection Et as <-; now apply still_refl|].
      destruct (calm t a) eqn:Eo; [|discriminate]. destruct (do_act t a) as [[t1 [|]]|] eqn:Ea; [| |discriminate].
      - destruct l; [|discriminate]. injection Et as <-. exact (act_still _ _ Ht Hq Eo Ea).
      - pose proof (act_still _ _ Ht Hq Eo Ea) as S1. apply still_trans with t1; [exact S1|]. destruct S1 as (S1 & S2 & _). auto. }
    destruct x as [|l]; cbn in E.
    - injection E as <-. repeat split; cbn; auto. exists 0. cbn. now rewrite app_nil_r.
    - destruct (i_ready s1) as [|h0 r] eqn:Er; [discriminate|].
      destruct (resume (set_ready s1 r) h0) as [[t b]|] eqn:Et; [|discriminate]. pose proof (resume_still Hi1 Hp Er Et) as S1.
      apply still_trans with t; [exact S1|]. destruct S1 as (S1 & S2 & _).
      destruct b; [destruct l; [|discriminate]; injection E as <-; now apply still_refl|]. exact (G _ _ _ S1 S2 E).
  Qed.

  (** A terminal call that was admitted. *)
  Lemma inv_terminal b s id n : inv b s -> In id (i_adm s) -> nth_error (i_calls s) id = Some n -> is_term n = true ->
    i_push s = FExn (err n) /\ ~ In id (map fst (i_ret s)) /\ (i_ready s = [] -> i_cons s <> CWaiting).
  Proof.
    intros Hi Hin Hc Ht. pose proof (inv_once Hi) as [Nd _].
    assert (T : forall a vs, elems s a vs -> ~ In id a).
    { intros a vs He F. apply In_nth_error in F as [k F]. destruct (elems_nth _ He F) as (v & _ & E). rewrite Hc in E. injection E as ->. discriminate. }
    destruct Hi as [w ps vs r0 [C1 C2 C3 C4] Hb Hp Hq Hl Hr Hf Hs|w ps vs r1 r2 a i m k [C1 C2 C3 C4] Hb Hp Hq Hl Hr Hf1 Hf2 Hm Ha Hn Hs Hk|w ps vs r1 r2 a i v [C1 C2 C3 C4] Hb Hp Hq Hl Hr Hf1 Hf2 Ha Hn Hs].
    - elim (T _ _ C4 Hin).
    - rewrite Ha in Hin. apply in_app_iff in Hin as [F|[<-|[]]]; [elim (T _ _ C4 F)|].
      rewrite Hc in Hn. injection Hn as <-. split; [rewrite Hp; destruct n; [discriminate|reflexivity..]|]. split.
      + rewrite C3. unfold rets. rewrite map_map, map_id. exact (T _ _ C4).
      + intros F Fc. rewrite Hr, Fc in F. apply app_eq_nil in F as [_ F]. apply app_eq_nil in F as [_ F]. discriminate.
    - rewrite Ha in Hin. apply in_app_iff in Hin as [F|[<-|[]]]; [elim (T _ _ C4 F)|]. rewrite Hc in Hn. injection Hn as ->. discriminate.
  Qed.

  (** *** After a cancellation *)
  (** The future of the elements was cancelled. *)
  Definition dead_push s0 s : Prop :=
    i_push s = FCancelled /\ (exists k, i_res s = i_res s0 ++ repeat Cancelled k) /\
    (forall id, In (HPull id false) (i_ready s) -> In (HPull id false) (i_ready s0) \/ i_pull s = FCancelled) /\
    (forall id, In (id, Success) (i_ret s) -> In (id, Success) (i_ret s0) \/ In (HPull id false) (i_ready s0)).

  Lemma more_cancelled s0 s k : i_res s = i_res s0 ++ repeat Cancelled k -> exists k', i_res s ++ [Cancelled] = i_res s0 ++ repeat Cancelled k'.
  Proof. intros ->. exists (S k). rewrite <- app_assoc. f_equal. now rewrite <- repeat_cons. Qed.

  Lemma flag_pull id i r : In (HPull i false) (map (flag_send id) r) -> In (HPull i false) r.
  Proof.
    intros F. apply in_map_iff in F as (x & E & F). destruct x as [|j c|j c|c]; cbn in E; try discriminate.
    - destruct (j =? id); [discriminate|]. now rewrite <- E.
    - destruct (j =? id); discriminate.
  Qed.

  Lemma dead_push_keep s h s' : i_push s = FCancelled -> isteps anything s h s' -> dead_push s s'.
  Proof.
    intros Hp. apply steps_keep; [..|repeat split; auto; exists 0; cbn; now rewrite app_nil_r].
    - intros t (H1 & H2 & H3 & H4). repeat split; auto. cbn. intros id F. apply in_app_iff in F as [F|[F|[]]]; [auto|discriminate].
    - intros t h0 r t' b (H1 & [k H2] & H3 & H4) Hr E.
      assert (Hin : forall id, In (HPull id false) r -> In (HPull id false) (i_ready t)) by (intros id F; rewrite Hr; now right).
      destruct h0 as [|id c|id c|c].
      + cbn in E. injection E as <- <-. repeat split; cbn; eauto.
      + assert (Hd : c = false -> In (HPull id false) (i_ready s) \/ i_pull t = FCancelled) by (intros ->; apply H3; rewrite Hr; now left).
        cbn in E. destruct c; [injection E as <- <-|destruct (i_pull t) eqn:Eq; try discriminate; injection E as <- <-]; repeat split; cbn; eauto.
        * intros i F. rewrite in_app_iff in F. destruct F as [F|[F|[]]]; [auto|discriminate].
        * intros i F. left. destruct (H3 i (Hin i F)) as [G|G]; [exact G|congruence].
        * intros i F. rewrite in_app_iff in F. destruct F as [F|[F|[]]]; [auto|]. injection F as <-. destruct (Hd eq_refl); [auto|congruence].
        * intros i F. rewrite in_app_iff in F. destruct F as [F|[F|[]]]; [auto|discriminate].
      + unfold resume, serialize, admit in E. cbn in E. rewrite H1 in E. cbn in E.
        destruct (find _ _) as [[i f]|]; [|discriminate]. destruct (nth_error _ _) as [n|]; [|discriminate].
        destruct c; [injection E as <- <-|destruct f; try discriminate; [destruct (i_busy t)|]; injection E as <- <-]; repeat split; cbn; eauto;
          intros j F; rewrite in_app_iff in F; destruct F as [F|[F|[]]]; [auto|discriminate|auto|discriminate|auto|discriminate].
      + unfold resume, pushed in E. cbn in E. rewrite H1 in E. destruct (i_cons t); try discriminate.
        destruct c; injection E as <- <-; repeat split; cbn; eauto using more_cancelled.
    - intros t a t' b (H1 & [k H2] & H3 & H4) _ E. destruct a; cbn in E.
      + unfold send_, serialize, admit in E. cbn in E. rewrite H1 in E. cbn in E. destruct (i_busy t); injection E as <- <-; repeat split; cbn; eauto.
        intros j F; rewrite in_app_iff in F; destruct F as [F|[F|[]]]; [auto|discriminate].
      + unfold next_, await_push, pushed in E. cbn in E. rewrite H1 in E. cbn in E. destruct (i_cons t); try discriminate.
        destruct (i_sub t); injection E as <- <-; repeat split; cbn; eauto using more_cancelled.
      + unfold await_push, pushed in E. cbn in E. rewrite H1 in E. cbn in E. destruct (i_cons t); try discriminate.
        injection E as <- <-; repeat split; cbn; eauto using more_cancelled.
      + destruct (i_cons t); try discriminate. injection E as <- <-; repeat split; cbn; eauto.
      + destruct (i_sub t); injection E as <- <-; repeat split; cbn; eauto.
      + unfold cancel_next in E. rewrite H1 in E. cbn in E. destruct (i_cons t); try discriminate. injection E as <- <-.
        repeat split; cbn; eauto. intros id F. apply H3. apply in_map_iff in F as (x & Ex & F). destruct x; try discriminate. now rewrite <- Ex.
      + unfold cancel_send in E. destruct (returned t id); [discriminate|].
        destruct (match i_puller t with Some i => i =? id | None => false end).
        * injection E as <- <-. destruct (done (i_pull t)); repeat split; cbn; eauto using flag_pull.
        * destruct (find _ _) as [[i f]|]; [|discriminate]. injection E as <- <-. destruct (done f); repeat split; cbn; eauto using flag_pull.
          intros j F. rewrite in_app_iff in F. destruct F as [F|[F|[]]]; [auto|discriminate].
  Qed.

  (** From now on no __anext__ yields an element. *)
  Definition no_more s0 s : Prop := exists l, i_res s = i_res s0 ++ l /\ forall v, ~ In (Returned v) l.
  Lemma no_more_refl s : no_more s s.
  Proof. exists []. rewrite app_nil_r. auto. Qed.
  Lemma no_more_same s0 s s' : i_res s' = i_res s -> no_more s0 s -> no_more s0 s'.
  Proof. intros E (l & H). exists l. now rewrite E. Qed.
  Lemma no_more_one s0 s s' o : i_res s' = i_res s ++ [o] -> (forall v, o <> Returned v) -> no_more s0 s -> no_more s0 s'.
  Proof.
    intros E Ho (l & H1 & H2). exists (l ++ [o]). rewrite E, H1, app_assoc. split; [reflexivity|]. intros v F.
    apply in_app_iff in F as [F|[F|[]]]; [elim (H2 _ F)|elim (Ho v F)].
  Qed.

  (** The future at the head of the queue was cancelled. *)
  Definition dead_wait id s0 s : Prop := (exists w, i_wait s = (id, FCancelled) :: w) /\ no_more s0 s.

  Lemma filter_other id i (f : fut unit) w :
    find (fun x => fst x =? i) ((id, FCancelled) :: w) = Some (i, f) -> f <> FCancelled -> negb (id =? i) = true.
  Proof. cbn. destruct (id =? i) eqn:E; [|reflexivity]. intros F G. injection F as _ <-. contradiction. Qed.

  Lemma take_dead id w s v : i_wait s = (id, FCancelled) :: w -> i_wait (take s v) = (id, FCancelled) :: w /\ exists o, i_res (take s v) = i_res s ++ [o] /\ forall v, o <> Returned v.
  Proof.
    intros H. unfold take. cbn. destruct (done (i_pull s)); cbn.
    - split; [exact H|]. eexists. split; [reflexivity|discriminate].
    - destruct (i_puller s); cbn; rewrite H; cbn; (split; [reflexivity || exact H|]); eexists; (split; [reflexivity|discriminate]).
  Qed.
  Lemma pushed_dead id w s s0 : i_wait s = (id, FCancelled) :: w -> no_more s0 s -> dead_wait id s0 (pushed s).
  Proof.
    intros H Hn. unfold pushed. destruct (i_push s) as [|v|e|].
    - split; eauto.
    - destruct (take_dead s v H) as (H1 & o & H2 & H3). split; [eauto|]. eapply no_more_one; [exact H2|exact H3|exact Hn].
    - split; [cbn; eauto|]. eapply no_more_one; [reflexivity|discriminate|exact Hn].
    - split; [cbn; eauto|]. eapply no_more_one; [reflexivity|discriminate|exact Hn].
  Qed.
  Lemma serialize_dead id w s s0 i n : i_wait s = (id, FCancelled) :: w -> no_more s0 s -> dead_wait id s0 (fst (serialize s i n)).
  Proof.
    intros H Hn. unfold serialize, admit. destruct (i_busy s); cbn.
    - split; [rewrite H; cbn; eauto|]. exact Hn.
    - destruct (done (i_push s)); cbn; [split; cbn; eauto|]. destruct (i_cons s); cbn; destruct (i_pull s); cbn; split; cbn; eauto.
  Qed.
  Lemma await_dead id w s s0 : i_wait s = (id, FCancelled) :: w -> no_more s0 s -> dead_wait id s0 (fst (await_push s)).
  Proof. intros H Hn. unfold await_push. destruct (done (i_push s)); [cbn; eapply pushed_dead; eauto|]. split; cbn; eauto. Qed.

  Lemma dead_wait_keep id w s h s' : i_wait s = (id, FCancelled) :: w -> isteps anything s h s' -> dead_wait id s s'.
  Proof.
    intros Hw. apply steps_keep; [..|split; eauto using no_more_refl].
    - intros t [H1 H2]. split; auto.
    - intros t h0 r t' b ([w' H1] & H2) Hr E. destruct h0 as [|i c|i c|c].
      + cbn in E. injection E as <- <-. split; cbn; eauto.
      + cbn in E. destruct c; [injection E as <- <-|destruct (i_pull t); try discriminate; injection E as <- <-]; split; cbn; eauto.
      + unfold resume in E. cbn in E. rewrite H1 in E. destruct (find _ _) as [[j f]|] eqn:Ef; [|discriminate].
        destruct (nth_error _ _) as [n|]; [|discriminate]. pose proof (find_some _ _ Ef) as [_ Ej]. apply Nat.eqb_eq in Ej. cbn in Ej. subst j.
        destruct c; [injection E as <- <-; split; cbn; eauto|]. destruct f; try discriminate; [|injection E as <- <-; split; cbn; eauto].
        injection E as E. rewrite <- (f_equal fst E : _ = t'). eapply serialize_dead; cbn; [|exact H2].
        rewrite (filter_other _ _ Ef) by discriminate. reflexivity.
      + cbn in E. destruct (i_cons t); try discriminate. destruct c; injection E as <- <-.
        * split; [cbn; eauto|]. eapply no_more_one; [reflexivity|discriminate|exact H2].
        * eapply pushed_dead; cbn; eauto.
    - intros t a t' b ([w' H1] & H2) _ E. destruct a; cbn in E.
      + injection E as E. rewrite <- (f_equal fst E : _ = t'). eapply serialize_dead; cbn; eauto.
      + unfold next_ in E. destruct (i_cons t); try discriminate. destruct (i_sub t).
        * injection E as E. rewrite <- (f_equal fst E : _ = t'). eapply await_dead; cbn; eauto.
        * injection E as <- <-. split; cbn; eauto.
      + destruct (i_cons t); try discriminate. injection E as E. rewrite <- (f_equal fst E : _ = t'). eapply await_dead; cbn; eauto.
      + destruct (i_cons t); try discriminate. injection E as <- <-. split; cbn; eauto.
      + destruct (i_sub t); injection E as <- <-; split; cbn; eauto.
      + unfold cancel_next in E. destruct (i_cons t); try discriminate. injection E as <- <-. destruct (done (i_push t)); split; cbn; eauto.
      + unfold cancel_send in E. destruct (returned t id0); [discriminate|].
        destruct (match i_puller t with Some i => i =? id0 | None => false end).
        * injection E as <- <-. destruct (done (i_pull t)); split; cbn; eauto.
        * destruct (find _ _) as [[i f]|]; [|discriminate]. injection E as <- <-. destruct (done f); split; cbn; eauto.
          rewrite H1. cbn. destruct (id =? id0) eqn:Ei; [apply Nat.eqb_eq in Ei; subst|]; eauto.
  Qed.

  (** The future of the sender whose element is to be picked up was cancelled. *)
  Definition dead_pull s0 s : Prop := i_busy s = true /\ i_pull s = FCancelled /\ no_more s0 s.

  Lemma pushed_dead_pull s s0 : i_busy s = true -> i_pull s = FCancelled -> no_more s0 s -> dead_pull s0 (pushed s).
  Proof.
    intros H1 H2 Hn. unfold pushed. destruct (i_push s) as [|v|e|]; [repeat split; auto|..].
    - unfold take. cbn. rewrite H2. repeat split; cbn; auto. eapply no_more_one; [reflexivity|discriminate|exact Hn].
    - repeat split; cbn; auto. eapply no_more_one; [reflexivity|discriminate|exact Hn].
    - repeat split; cbn; auto. eapply no_more_one; [reflexivity|discriminate|exact Hn].
  Qed.
  Lemma await_dead_pull s s0 : i_busy s = true -> i_pull s = FCancelled -> no_more s0 s -> dead_pull s0 (fst (await_push s)).
  Proof. intros H1 H2 Hn. unfold await_push. destruct (done (i_push s)); [now apply pushed_dead_pull|]. repeat split; cbn; auto. Qed.

  Lemma dead_pull_keep s h s' : i_busy s = true -> i_pull s = FCancelled -> isteps anything s h s' -> dead_pull s s'.
  Proof.
    intros Hb Hp. apply steps_keep; [..|repeat split; auto using no_more_refl].
    - intros t [H1 H2]. split; auto.
    - intros t h0 r t' b (H0 & H1 & H2) Hr E. destruct h0 as [|i c|i c|c].
      + cbn in E. injection E as <- <-. repeat split; cbn; eauto.
      + cbn in E. rewrite H1 in E. destruct c; injection E as <- <-; repeat split; cbn; eauto.
      + unfold resume, serialize in E. cbn in E. rewrite H0 in E. destruct (find _ _) as [[j f]|]; [|discriminate].
        destruct (nth_error _ _) as [n|]; [|discriminate]. destruct c; [|destruct f; try discriminate]; injection E as <- <-; repeat split; cbn; eauto.
      + cbn in E. destruct (i_cons t); try discriminate. destruct c; injection E as <- <-.
        * repeat split; cbn; auto. eapply no_more_one; [reflexivity|discriminate|exact H2].
        * apply pushed_dead_pull; cbn; eauto.
    - intros t a t' b (H0 & H1 & H2) _ E. destruct a; cbn in E.
      + unfold send_, serialize in E. cbn in E. rewrite H0 in E. injection E as <- <-. repeat split; cbn; auto.
      + unfold next_ in E. destruct (i_cons t); try discriminate. destruct (i_sub t).
        * injection E as E. rewrite <- (f_equal fst E : _ = t'). apply await_dead_pull; cbn; auto.
        * injection E as <- <-. repeat split; cbn; auto.
      + destruct (i_cons t); try discriminate. injection E as E. rewrite <- (f_equal fst E : _ = t'). apply await_dead_pull; cbn; auto.
      + destruct (i_cons t); try discriminate. injection E as <- <-. repeat split; cbn; auto.
      + destruct (i_sub t); injection E as <- <-; repeat split; cbn; auto.
      + unfold cancel_next in E. destruct (i_cons t); try discriminate. injection E as <- <-. destruct (done (i_push t)); repeat split; cbn; auto.
      + unfold cancel_send in E. rewrite H1 in E. cbn in E. destruct (returned t id); [discriminate|].
        destruct (match i_puller t with Some i => i =? id | None => false end).
        * injection E as <- <-. repeat split; cbn; auto.
        * destruct (find _ _) as [[i f]|]; [|discriminate]. injection E as <- <-. destruct (done f); repeat split; cbn; auto.
  Qed.
End Keep.

(** ** Histories *)
Section History.
  Context {A : Type} (ok : istate A -> act A -> bool).
  Implicit Types s : istate A.

  Lemma irun_app h h' s : irun ok s (h ++ h') = match irun ok s h with Some s => irun ok s h' | None => None end.
  Proof. revert s. induction h as [|x h IH]; intros s; cbn; [reflexivity|]. destruct (istep ok s x); auto. Qed.
  Lemma isteps_irun h s s' : isteps ok s h s' <-> irun ok s h = Some s'.
  Proof.
    split.
    - intros H. induction H as [|s h x s1 s2 H IH E]; [reflexivity|]. rewrite irun_app, IH. cbn. now rewrite E.
    - revert s'. induction h as [|x h IH] using rev_ind; intros s' E; [injection E as <-; constructor|].
      rewrite irun_app in E. destruct (irun ok s h) as [s1|]; [|discriminate]. cbn in E.
      destruct (istep ok s1 x) as [s2|] eqn:E2; [|discriminate]. injection E as <-. econstructor; eauto.
  Qed.
  Lemma isteps_app h h' s s' : isteps ok s (h ++ h') s' <-> exists s1, isteps ok s h s1 /\ isteps ok s1 h' s'.
  Proof.
    split.
    - intros H. apply isteps_irun in H. rewrite irun_app in H. destruct (irun ok s h) as [s1|] eqn:E; [|discriminate].
      exists s1. split; now apply isteps_irun.
    - intros (s1 & H1 & H2). apply isteps_irun in H1. apply isteps_irun in H2. apply isteps_irun. now rewrite irun_app, H1.
  Qed.
End History.

Section More.
  Context {A : Type}.
  Implicit Types s : istate A.

  (** When everything has run: a call whose element was picked up has returned. *)
  Lemma inv_released b s k id v : inv b s -> i_ready s = [] -> nth_error (i_adm s) k = Some id -> nth_error (i_res s) k = Some (Returned v) ->
    In (id, Success) (i_ret s).
  Proof.
    intros [w ps vs r [C1 C2 C3 C4] Hb Hp Hq Hl Hr Hf Hs|w ps vs r1 r2 a i n j [C1 C2 C3 C4] Hb Hp Hq Hl Hr Hf1 Hf2 Hm Ha Hn Hs Hk|w ps vs r1 r2 a i v' [C1 C2 C3 C4] Hb Hp Hq Hl Hr Hf1 Hf2 Ha Hn Hs] Hn0 E1 E2.
    - rewrite C3. unfold rets. apply in_map_iff. exists id. split; [reflexivity|]. eapply nth_error_In; eauto.
    - rewrite C3. unfold rets. apply in_map_iff. exists id. split; [reflexivity|].
      unfold elems in C4. pose proof (f_equal (@length _) C4) as L. rewrite !map_length in L.
      destruct (Nat.lt_ge_cases k (length vs)) as [G|G].
      + rewrite Ha, nth_error_app1 in E1 by lia. eapply nth_error_In; eauto.
      + rewrite Hs, nth_error_app2 in E2 by (rewrite map_length; exact G). apply nth_error_In, repeat_spec in E2. discriminate.
    - rewrite Hr in Hn0. apply app_eq_nil in Hn0 as [_ Hn0]. discriminate.
  Qed.

  Lemma inv_starving b s : inv b s -> starving s -> exists vs, i_ret s = rets (i_adm s) /\ admitted s = map Some (map OnNext vs) /\ i_res s = map Returned vs.
  Proof.
    intros Hi [Hr Hc]. unfold admitted. destruct Hi as [w ps vs r [C1 C2 C3 C4] Hb Hp Hq Hl Hr' Hf Hs|w ps vs r1 r2 a i n j [C1 C2 C3 C4] Hb Hp Hq Hl Hr' Hf1 Hf2 Hm Ha Hn Hs Hk|w ps vs r1 r2 a i v' [C1 C2 C3 C4] Hb Hp Hq Hl Hr' Hf1 Hf2 Ha Hn Hs].
    - exists vs. unfold elems in C4. rewrite C4, map_map. auto.
    - rewrite Hr', Hc in Hr. apply app_eq_nil in Hr as [_ Hr]. apply app_eq_nil in Hr as [_ Hr]. discriminate.
    - rewrite Hr' in Hr. apply app_eq_nil in Hr as [_ Hr]. discriminate.
  Qed.

  Lemma tidy_admitted s : tidy s -> admitted s = map Some (i_calls s).
  Proof.
    intros [_ H]. unfold admitted. rewrite H. clear H. induction (i_calls s) as [|n l IH]; [reflexivity|].
    cbn. f_equal. rewrite <- seq_shift, map_map. exact IH.
  Qed.

  (** A task in a call is cancelled while nothing is going on. *)
  Lemma cancel_send_dead b s id s1 : inv b s -> i_ready s = [] -> (In id (i_adm s) \/ exists f w, i_wait s = (id, f) :: w) ->
    irun anything s [LArrive; LTurn [ACancelSend id]] = Some s1 ->
    i_res s1 = i_res s /\ (i_busy s1 = true /\ i_pull s1 = FCancelled \/ exists w, i_wait s1 = (id, FCancelled) :: w).
  Proof.
    intros Hi Hr0 Hid E. cbn in E. rewrite Hr0 in E. cbn in E. unfold cancel_send in E. cbn in E.
    unfold returned in E. cbn in E.
    assert (Nr : existsb (fun x => fst x =? id) (i_ret s) = true -> False) by (intros F; rewrite F in E; discriminate).
    assert (R : forall a, i_ret s = rets a -> ~ In id a).
    { intros a Ea F. apply Nr. rewrite Ea. apply existsb_exists. exists (id, Success). split; [|apply Nat.eqb_refl].
      apply in_map_iff. eauto. }
    destruct (existsb (fun x => fst x =? id) (i_ret s)); [elim (Nr eq_refl)|].
    destruct Hi as [w ps vs r [C1 C2 C3 C4] Hb Hp Hq Hl Hr Hf Hs|w ps vs r1 r2 a i n k [C1 C2 C3 C4] Hb Hp Hq Hl Hr Hf1 Hf2 Hm Ha Hn Hs Hk|w ps vs r1 r2 a i v [C1 C2 C3 C4] Hb Hp Hq Hl Hr Hf1 Hf2 Ha Hn Hs].
    - rewrite Hl in E. destruct Hid as [F|(f & l & F)]; [elim (R _ C3 F)|].
      destruct w; [rewrite Hr in Hr0; discriminate|]. rewrite C1 in *. unfold waiting in *. cbn in *.
      destruct ps as [|p ps]; [discriminate|]. cbn in F. injection F as -> <- <-. cbn in E. rewrite Nat.eqb_refl in E. cbn in E.
      injection E as <-. cbn. eauto.
    - rewrite Hl in E. destruct (i =? id) eqn:Ei.
      + rewrite Hq in E. cbn in E. injection E as <-. cbn. auto.
      + destruct Hid as [F|(f & l & F)].
        { rewrite Ha in F. apply in_app_iff in F as [F|[F|[]]]; [elim (R _ C3 F)|]. subst. rewrite Nat.eqb_refl in Ei. discriminate. }
        destruct w; [rewrite Hr in Hr0; discriminate|]. rewrite C1 in *. unfold waiting in *. cbn in *.
        destruct ps as [|p ps]; [discriminate|]. cbn in F. injection F as -> <- <-. cbn in E. rewrite Nat.eqb_refl in E. cbn in E.
        injection E as <-. cbn. eauto.
    - rewrite Hr in Hr0. apply app_eq_nil in Hr0 as [_ Hr0]. discriminate.
  Qed.

  Lemma cancel_next_dead b s s1 : inv b s -> starving s -> irun anything s [LArrive; LTurn [ACancelNext]] = Some s1 ->
    i_push s1 = FCancelled /\ i_res s1 = i_res s /\ i_ret s1 = i_ret s /\ (forall id, ~ In (HPull id false) (i_ready s1)) /\ i_calls s1 = i_calls s.
  Proof.
    intros Hi [Hr Hc] E. cbn in E. rewrite Hr in E. cbn in E. unfold cancel_next in E. cbn in E. rewrite Hc in E.
    assert (Hp : i_push s = FPending).
    { destruct Hi as [w ps vs r [C1 C2 C3 C4] Hb Hp Hq Hl Hr' Hf Hs|w ps vs r1 r2 a i n j [C1 C2 C3 C4] Hb Hp Hq Hl Hr' Hf1 Hf2 Hm Ha Hn Hs Hk|w ps vs r1 r2 a i v' [C1 C2 C3 C4] Hb Hp Hq Hl Hr' Hf1 Hf2 Ha Hn Hs]; auto.
      rewrite Hr', Hc in Hr. apply app_eq_nil in Hr as [_ Hr]. apply app_eq_nil in Hr as [_ Hr]. discriminate. }
    rewrite Hp in E. cbn in E. injection E as <-. cbn. repeat split; auto. intros id [F|[]]. discriminate.
  Qed.
End More.
