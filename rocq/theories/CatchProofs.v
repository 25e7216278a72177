(** * Invariants of catch and retry. *)
From Verif Require Export Catch Merge2Proofs.
From Coq Require Import Permutation.
Set Implicit Arguments.
Local Arguments Nat.sub : simpl never.

Lemma grammatical_snoc A (l : list (notif A)) x : grammatical (l ++ [x]) <-> exists ws, l = map OnNext ws.
Proof.
  split.
  - intros (vs & e & H). unfold trace in H. destruct e.
    + rewrite app_nil_r in H. exists (removelast vs). rewrite <- (removelast_last l x), H. clear.
      induction vs as [|v [|w vs] IH]; [reflexivity|reflexivity|]. cbn [map removelast] in *. now rewrite IH.
    + apply app_inj_tail in H as [-> _]. eauto.
    + apply app_inj_tail in H as [-> _]. eauto.
  - intros [ws ->]. unfold grammatical, trace. destruct x as [a|e|].
    + exists (ws ++ [a]), Open. now rewrite map_app, app_nil_r.
    + now exists ws, (Failed e).
    + now exists ws, Completed.
Qed.

Section Acts.
  Context {O : Type}.
  Implicit Types (l : list (nat * aphase O)).
  Lemma lookup_split i l p : NoDup (map fst l) -> lookup i l = Some p ->
    exists a b, l = a ++ (i, p) :: b /\ (forall q, put i q l = a ++ (i, q) :: b) /\ drop i l = a ++ b.
  Proof.
    induction l as [|[j q] l IH]; cbn; intros Hn E; [discriminate|].
    unfold lookup in *. cbn in E. inversion Hn as [|? ? H1 H2]; subst. destruct (j =? i) eqn:Ej.
    - cbn in E. injection E as ->. apply Nat.eqb_eq in Ej. subst j. exists [], l. repeat split.
      + intros q. cbn. f_equal. clear -H1. induction l as [|[k r] l IH]; cbn; [reflexivity|].
        destruct (k =? i) eqn:Ek; [apply Nat.eqb_eq in Ek; subst; exfalso; apply H1; now left|].
        f_equal. apply IH. intros F. apply H1. now right.
      + cbn. clear -H1. induction l as [|[k r] l IH]; cbn; [reflexivity|].
        destruct (k =? i) eqn:Ek; [apply Nat.eqb_eq in Ek; subst; exfalso; apply H1; now left|].
        cbn. f_equal. apply IH. intros F. apply H1. now right.
    - destruct (IH H2 E) as (a & b & -> & Hp & Hd). exists ((j, q) :: a), b. repeat split.
      + intros r. cbn. f_equal. apply Hp.
      + cbn. f_equal. exact Hd.
  Qed.
  Definition ups l : list O := flat_map (fun x => match snd x with ADisp o => [o] | ASub _ => [] end) l.
  Arguments ups : simpl never.
  Lemma ups_app l1 l2 : ups (l1 ++ l2) = ups l1 ++ ups l2.
  Proof. apply flat_map_app. Qed.
  Lemma ups_disp i (o : O) l : ups ((i, ADisp o) :: l) = o :: ups l.
  Proof. reflexivity. Qed.
  Lemma ups_sub i k l : ups ((i, ASub k) :: l) = ups l.
  Proof. reflexivity. Qed.
  Lemma ups_nil : ups (@nil (nat * aphase O)) = [].
  Proof. reflexivity. Qed.
End Acts.
Arguments ups : simpl never.

Section P.
  Context {H O A : Type}.
  Variable hd : H -> exn -> res O * H.
  Variable src : O.
  Variable h0 : H.
  Implicit Types (h : list (clabel A)) (s : cstate H O A).

  Lemma calls_snoc h l : ccalls (h ++ [l]) = ccalls h ++ ccalls [l].
  Proof. unfold ccalls. now rewrite flat_map_app. Qed.
  Lemma errors_snoc h l : errors (h ++ [l]) = errors h ++ errors [l].
  Proof. unfold errors. now rewrite calls_snoc, flat_map_app. Qed.
  Lemma calls_of_snoc k h l : calls_of k (h ++ [l]) = calls_of k h ++ calls_of k [l].
  Proof. unfold calls_of. now rewrite calls_snoc, filter_app, map_app. Qed.

  Definition hstate (es : list exn) : H := fold_left (fun x e => snd (hd x e)) es h0.
  Lemma answers_snoc es e : answers hd h0 (es ++ [e]) = answers hd h0 es ++ match fst (hd (hstate es) e) with Ok o => [o] | Err _ => [] end.
  Proof.
    unfold hstate. generalize h0. induction es as [|x es IH]; intros g; cbn.
    - destruct (hd g e) as [[o|x] g']; reflexivity.
    - specialize (IH (snd (hd g x))). destruct (hd g x) as [[o|y] g']; cbn in *; [now rewrite IH|exact IH].
  Qed.
  Lemma hstate_snoc es e : hstate (es ++ [e]) = snd (hd (hstate es) e).
  Proof. unfold hstate. now rewrite fold_left_app. Qed.

  Record CI h s : Prop := {
    ci_ids : NoDup (map fst (c_acts s)) /\ (forall i, In i (map fst (c_acts s)) -> i < c_born s) /\ 1 <= c_born s;
    ci_keys : keys (c_log s) = seq 0 (c_next s);
    ci_req : requests (c_log s) = filter not_error (map snd (ccalls h));
    ci_first : (forall o, In (0, ADisp o) (c_acts s) -> c_next s = 0) /\
               (c_next s = 0 -> forall x, In x (c_acts s) -> fst x = 0) /\
               (forall k, In (0, ASub k) (c_acts s) -> k = 0) /\ (c_ret s = None \/ c_ret s = Some 0);
    ci_h : c_h s = hstate (errors h);
    ci_subs : exists lost, Permutation (subscribed (c_log s) ++ upcoming s ++ lost) (src :: answers hd h0 (errors h)) /\
               (no_failures h -> lost = []);
    ci_calls : forall k n, In (k, n) (ccalls h) -> k < c_next s
  }.

  Lemma ckeys_app (a b : list (effect O A)) : keys (a ++ b) = keys a ++ keys b.
  Proof. apply flat_map_app. Qed.
  Lemma csub_app (a b : list (effect O A)) : subscribed (a ++ b) = subscribed a ++ subscribed b.
  Proof. apply flat_map_app. Qed.
  Lemma creq_app (a b : list (effect O A)) : requests (a ++ b) = requests a ++ requests b.
  Proof. apply flat_map_app. Qed.
  Lemma cdis_app (a b : list (effect O A)) : disposed (a ++ b) = disposed a ++ disposed b.
  Proof. apply flat_map_app. Qed.
  Lemma upcoming_ups s : upcoming s = ups (c_acts s).
  Proof. reflexivity. Qed.
  Lemma no_failures_snoc h l : no_failures (h ++ [l]) -> no_failures h.
  Proof. intros Hn i e Hin. apply (Hn i e), in_or_app. now left. Qed.

  Lemma var_log v : let es := match v with Some v => [EDispose v] | None => [] end in
    @keys O A es = [] /\ @subscribed O A es = [] /\ @requests O A es = [].
  Proof. destruct v; repeat split. Qed.

  Lemma ci_reach h s : creach hd src h0 h s -> CI h s.
  Proof.
    induction 1 as [|h s l s' Hr I Hs].
    { constructor; cbn; auto.
      - repeat split; [repeat constructor; auto|intros i [<-|[]]; lia|lia].
      - repeat split; auto; [intros _ x [<-|[]]; reflexivity|intros k [F|[]]; discriminate].
      - exists []. split; auto.
      - contradiction. }
    destruct I as [(I1 & I2 & I2') I3 I4 (F1 & F2 & F3 & F4) I5 (lost & I6 & I6') I7].
    assert (Hpass : forall (s1 : cstate H O A), ccalls [l] = [] -> errors [l] = [] ->
       c_acts s1 = c_acts s -> c_next s1 = c_next s -> c_born s1 = c_born s -> c_ret s1 = c_ret s -> c_h s1 = c_h s ->
       keys (c_log s1) = keys (c_log s) -> subscribed (c_log s1) = subscribed (c_log s) -> requests (c_log s1) = requests (c_log s) ->
       CI (h ++ [l]) s1).
    { intros s1 Hc He E1 E2 E3 E4 E5 E6 E7 E8.
      constructor; rewrite ?E1, ?E2, ?E3, ?E4, ?E5, ?E6, ?E7, ?E8, ?calls_snoc, ?errors_snoc, ?Hc, ?He, ?app_nil_r; auto.
      exists lost. rewrite upcoming_ups, E1. split; [exact I6|]. intros Hn. apply I6'. eapply no_failures_snoc, Hn. }
    destruct l as [k n|i|i e|]; cbn [catch_step] in Hs.
    - unfold cbegun in Hs. destruct (k <? c_next s) eqn:Ek; [|discriminate]. apply Nat.ltb_lt in Ek. injection Hs as <-.
      assert (Hc : forall k0 n0, In (k0, n0) (ccalls (h ++ [CCall k n])) -> k0 < c_next s).
      { intros k0 n0. rewrite calls_snoc. intros F. apply in_app_or in F as [F|[F|[]]]; [eauto|]. injection F as <- <-. exact Ek. }
      assert (Hplain : not_error n = true -> CI (h ++ [CCall k n]) (cemit (EReq n) s)).
      { intros Hn. assert (He : errors [CCall k n] = []) by (destruct n; [reflexivity|discriminate|reflexivity]).
        constructor; cbn; rewrite ?calls_snoc, ?errors_snoc, ?He, ?app_nil_r; auto.
        - rewrite ckeys_app. cbn. now rewrite app_nil_r.
        - rewrite creq_app, map_app, filter_app, I4. cbn. now rewrite Hn.
        - exists lost. rewrite csub_app. cbn. rewrite app_nil_r. split; [exact I6|]. intros G. apply I6'. eapply no_failures_snoc, G.
        - now rewrite <- calls_snoc. }
      destruct n as [a|e|]; [apply Hplain; reflexivity| |apply Hplain; reflexivity].
      unfold failover. rewrite I5.
      pose proof (answers_snoc (errors h) e) as Ha. pose proof (hstate_snoc (errors h) e) as Hh.
      assert (He : errors (h ++ [CCall k (OnError e)]) = errors h ++ [e]) by now rewrite errors_snoc.
      assert (Hq : filter not_error (map snd (ccalls (h ++ [CCall k (OnError e)]))) = filter not_error (map snd (ccalls h)))
        by (rewrite calls_snoc, map_app, filter_app; cbn; now rewrite app_nil_r).
      destruct (hd (hstate (errors h)) e) as [[o|x] h'] eqn:Ehd; cbn in Ha, Hh.
      + destruct (var_log (c_var s)) as (V1 & V2 & V3).
        constructor; cbn; rewrite ?He, ?Hq, ?Ha, ?ckeys_app, ?csub_app, ?creq_app, ?V1, ?V2, ?V3, ?app_nil_r; auto.
        * rewrite map_app. cbn. repeat split; [apply NoDup_snoc; [exact I1|intros F; apply I2 in F; lia]| |lia].
          intros i Hi. apply in_app_or in Hi as [Hi|[<-|[]]]; [apply I2 in Hi; lia|lia].
        * repeat split; auto.
          -- intros o' Hi. apply in_app_or in Hi as [Hi|[Hi|[]]]; [eauto|]. injection Hi as Hi _. lia.
          -- intros Hz. lia.
          -- intros j Hi. apply in_app_or in Hi as [Hi|[Hi|[]]]; [eauto|discriminate].
        * exists lost. split; [|intros G; apply I6'; eapply no_failures_snoc, G].
          rewrite upcoming_ups. cbn. rewrite ups_app, ups_disp, ups_nil.
          change (src :: answers hd h0 (errors h) ++ [o]) with ((src :: answers hd h0 (errors h)) ++ [o]).
          rewrite <- I6, upcoming_ups, !app_assoc. rewrite <- !app_assoc. apply Permutation_app_head, Permutation_app_head.
          rewrite Permutation_app_comm. reflexivity.
      + rewrite app_nil_r in Ha. constructor; cbn; rewrite ?He, ?Hq, ?Ha; auto.
        exists lost. split; [exact I6|]. intros G; apply I6'; eapply no_failures_snoc, G.
    - destruct (lookup i (c_acts s)) as [[o|k]|] eqn:El; [| |discriminate]; injection Hs as <-;
        destruct (lookup_split _ _ I1 El) as (a & b & Ea & Hp & Hd);
        constructor; cbn; rewrite ?calls_snoc, ?errors_snoc, ?app_nil_r, ?Hp, ?Hd; auto.
      + rewrite Ea, !map_app in *. cbn in *. auto.
      + rewrite ckeys_app, I3. symmetry. apply (seq_S (c_next s) 0).
      + rewrite creq_app. cbn. now rewrite app_nil_r.
      + rewrite Ea in *. repeat split; auto.
        * intros o' Hi. exfalso. assert (In (0, ADisp o') (a ++ (i, ADisp o) :: b)) as Hi'.
          { apply in_or_app. apply in_app_or in Hi as [Hi|[Hi|Hi]]; auto; [discriminate|right; now right]. }
          pose proof (F1 _ Hi') as Hz. pose proof (F2 Hz (i, ADisp o)) as Hi0. cbn in Hi0.
          assert (i = 0) as -> by (apply Hi0, in_or_app; right; now left).
          rewrite map_app in I1. cbn in I1. apply NoDup_remove_2 in I1. apply I1.
          apply in_or_app. apply in_app_or in Hi as [Hi|[Hi|Hi]]; [left|discriminate|right]; apply (in_map fst) in Hi; exact Hi.
        * discriminate.
        * intros k Hi. apply in_app_or in Hi as [Hi|[Hi|Hi]].
          -- apply F3, in_or_app. now left.
          -- injection Hi as -> <-. apply (F1 o). apply in_or_app. right. now left.
          -- apply F3, in_or_app. right. now right.
      + exists lost. split; [|intros G; apply I6'; eapply no_failures_snoc, G]. rewrite <- I6, csub_app, !upcoming_ups. cbn.
        rewrite ?Hp, Ea, !ups_app, ups_disp, ups_sub. cbn. rewrite <- !app_assoc. apply Permutation_app_head. change (subscribed [@ESub O A (c_next s) o]) with [o]. cbn. apply Permutation_middle.
      + intros k n Hi. apply I7 in Hi. lia.
      + rewrite Ea, !map_app in *. cbn in *. repeat split; auto; [eapply NoDup_remove_1, I1|].
        intros j Hj. apply I2. apply in_or_app. apply in_app_or in Hj as [Hj|Hj]; auto. right. now right.
      + rewrite Ea in *. repeat split.
        * intros o' Hi. apply (F1 o'). apply in_or_app. apply in_app_or in Hi as [Hi|Hi]; auto. right. now right.
        * intros Hz x Hi. apply (F2 Hz). apply in_or_app. apply in_app_or in Hi as [Hi|Hi]; auto. right. now right.
        * intros j Hi. apply F3. apply in_or_app. apply in_app_or in Hi as [Hi|Hi]; auto. right. now right.
        * destruct (i =? 0) eqn:E0; [|exact F4]. apply Nat.eqb_eq in E0. subst i. right. f_equal.
          apply F3. apply in_or_app. right. now left.
      + exists lost. split; [|intros G; apply I6'; eapply no_failures_snoc, G]. rewrite <- I6, !upcoming_ups. cbn.
        now rewrite ?Hd, Ea, !ups_app, ups_sub.
    - destruct (lookup i (c_acts s)) as [p|] eqn:El; [|discriminate]; injection Hs as <-.
      destruct (lookup_split _ _ I1 El) as (a & b & Ea & Hp & Hd).
      constructor; cbn; rewrite ?calls_snoc, ?errors_snoc, ?app_nil_r, ?Hd; auto.
      + rewrite Ea, !map_app in *. cbn in *. repeat split; auto; [eapply NoDup_remove_1, I1|].
        intros j Hj. apply I2. apply in_or_app. apply in_app_or in Hj as [Hj|Hj]; auto. right. now right.
      + rewrite Ea in *. repeat split; auto.
        * intros o' Hi. apply (F1 o'). apply in_or_app. apply in_app_or in Hi as [Hi|Hi]; auto. right. now right.
        * intros Hz x Hi. apply (F2 Hz). apply in_or_app. apply in_app_or in Hi as [Hi|Hi]; auto. right. now right.
        * intros j Hi. apply F3. apply in_or_app. apply in_app_or in Hi as [Hi|Hi]; auto. right. now right.
      + exists (ups [(i, p)] ++ lost). split.
        * rewrite <- I6, !upcoming_ups. cbn [c_acts c_log]. rewrite ?Hd, Ea, !ups_app.
          change ((i, p) :: b) with ([(i, p)] ++ b). rewrite ups_app, <- !app_assoc.
          apply Permutation_app_head, Permutation_app_head. rewrite !app_assoc. apply Permutation_app_tail, Permutation_app_comm.
        * intros G. exfalso. apply (G i e), in_or_app. right. now left.
    - destruct (c_ret s) as [r|] eqn:Er; [|discriminate]. injection Hs as <-.
      destruct (c_used s); apply Hpass; auto; cbn; rewrite ?ckeys_app, ?csub_app, ?creq_app; cbn; now rewrite ?app_nil_r.
  Qed.

  (** ** General facts *)
  Lemma c_no_error h s e : creach hd src h0 h s -> ~ In (OnError e) (requests (c_log s)).
  Proof.
    intros Hr. rewrite (ci_req (ci_reach Hr)). intros F. apply filter_In in F as [_ F]. discriminate.
  Qed.

  Lemma c_user h s s' : creach hd src h0 h s -> catch_step hd s CUser = Some s' ->
    c_log s' = c_log s ++ (if c_used s then [] else [EDispose 0]) /\ c_used s' = true.
  Proof.
    intros Hr Hs. destruct (ci_first (ci_reach Hr)) as (_ & _ & _ & F). cbn in Hs.
    destruct (c_ret s) as [r|] eqn:Er; [|discriminate]. destruct F as [F|F]; [discriminate|]. injection F as ->.
    injection Hs as <-. destruct (c_used s) eqn:Eu; cbn; [now rewrite app_nil_r|auto].
  Qed.

  (** ** Grammatical sources *)
  Lemma sg_snoc h l : sources_grammatical (h ++ [l]) -> sources_grammatical h.
  Proof. intros Hg k. specialize (Hg k). rewrite calls_of_snoc in Hg. eapply grammatical_prefix; [|exact Hg]. apply prefix_app. Qed.

  Lemma in_calls_of h k n : In (k, n) (ccalls h) <-> In n (calls_of k h).
  Proof.
    unfold calls_of. rewrite in_map_iff. split.
    - intros F. exists (k, n). split; [reflexivity|]. apply filter_In. split; [exact F|]. apply Nat.eqb_refl.
    - intros ([j m] & E & F). cbn in E. subst m. apply filter_In in F as [F E]. cbn in E. apply Nat.eqb_eq in E. now subst j.
  Qed.

  Record GI h s : Prop := {
    gi_one : length (upcoming s) <= 1;
    gi_order : subscribed (c_log s) ++ upcoming s = src :: answers hd h0 (errors h);
    gi_ended : forall k, k < c_next s -> S k < c_next s \/ upcoming s <> [] -> exists e, In (k, OnError e) (ccalls h);
    gi_out : requests (c_log s) = concat (map (fun k => filter not_error (calls_of k h)) (keys (c_log s)));
    gi_gram : grammatical (requests (c_log s));
    gi_done : In OnCompleted (requests (c_log s)) -> exists k, c_next s = S k /\ upcoming s = [] /\ In (k, OnCompleted) (ccalls h)
  }.

  (** A caller is the latest subscription, nothing is upcoming, and it has only sent elements so far. *)
  Lemma caller_latest h s k n : creach hd src h0 h s -> GI h s -> sources_grammatical (h ++ [CCall k n]) -> k < c_next s ->
    c_next s = S k /\ upcoming s = [] /\ (exists ws, calls_of k h = map OnNext ws).
  Proof.
    intros Hr G Hg Hk. specialize (Hg k). rewrite calls_of_snoc in Hg. unfold calls_of at 2 in Hg. cbn in Hg.
    rewrite Nat.eqb_refl in Hg. cbn in Hg. apply grammatical_snoc in Hg as [ws Hw].
    assert (Hne : ~ exists e, In (k, OnError e) (ccalls h)).
    { intros [e F]. apply in_calls_of in F. rewrite Hw in F. apply in_map_iff in F as (x & F & _). discriminate. }
    split; [|split; [|eauto]].
    - destruct (Nat.eq_dec (c_next s) (S k)) as [E|E]; [exact E|]. exfalso. apply Hne, (gi_ended G); [exact Hk|left; lia].
    - destruct (upcoming s) eqn:E; [reflexivity|]. exfalso. apply Hne, (gi_ended G); [exact Hk|right; rewrite E; discriminate].
  Qed.

  Lemma only_elements h s k : creach hd src h0 h s -> GI h s -> c_next s = S k -> (exists ws, calls_of k h = map OnNext ws) ->
    ~ In OnCompleted (requests (c_log s)).
  Proof.
    intros Hr G En [ws Hw] F. destruct (gi_done G F) as (j & Ej & _ & Fj). rewrite En in Ej. injection Ej as <-.
    apply in_calls_of in Fj. rewrite Hw in Fj. apply in_map_iff in Fj as (x & Fx & _). discriminate.
  Qed.

  Lemma elements_only (l : list (notif A)) : grammatical l -> ~ In OnCompleted l -> (forall e, ~ In (OnError e) l) -> exists ws, l = map OnNext ws.
  Proof.
    intros (vs & e & ->) Hc He. unfold trace in *. destruct e as [|e|]; cbn in *.
    - exists vs. apply app_nil_r.
    - exfalso. apply (He e), in_or_app. right. now left.
    - exfalso. apply Hc, in_or_app. right. now left.
  Qed.

  Lemma gi_reach h s : creach hd src h0 h s -> sources_grammatical h -> no_failures h -> GI h s.
  Proof.
    induction 1 as [|h s l s' Hr IH Hs]; intros Hg Hf.
    { constructor; cbn; auto; [lia|exists [], Open; reflexivity|contradiction]. }
    specialize (IH (sg_snoc _ _ Hg) (no_failures_snoc _ _ Hf)). pose proof (ci_reach Hr) as I.
    pose proof IH as G. destruct IH as [G1 G2 G3 G4 G5 G6].
    destruct l as [k n|i|i e|]; cbn [catch_step] in Hs.
    - unfold cbegun in Hs. destruct (k <? c_next s) eqn:Ek; [|discriminate]. apply Nat.ltb_lt in Ek. injection Hs as <-.
      destruct (caller_latest _ Hr G Hg Ek) as (En & Eu & Hw).
      pose proof (only_elements Hr G En Hw) as Hnc.
      destruct (elements_only G5 Hnc (fun e => c_no_error e Hr)) as [vs Hvs].
      assert (Hblocks : forall m, concat (map (fun j => filter not_error (calls_of j (h ++ [CCall k m]))) (seq 0 (S k))) =
                requests (c_log s) ++ filter not_error [m]).
      { intros m. rewrite G4, (ci_keys I), En, seq_S, !map_app, !concat_app. cbn [map concat].
        rewrite !app_nil_r. cbn. rewrite calls_of_snoc, filter_app, app_assoc. f_equal.
        - f_equal. f_equal. apply map_ext_in. intros j Hj. apply in_seq in Hj. rewrite calls_of_snoc.
          unfold calls_of at 2. cbn. replace (k =? j) with false; [now rewrite app_nil_r|]. symmetry. apply Nat.eqb_neq. lia.
        - unfold calls_of. cbn. now rewrite Nat.eqb_refl. }
      destruct n as [a|e|].
      + constructor; cbn; rewrite ?creq_app, ?csub_app, ?ckeys_app, ?errors_snoc, ?calls_snoc, ?upcoming_ups; cbn; rewrite ?app_nil_r; auto.
        * intros j Hj Hj'. destruct (G3 j Hj Hj') as [e F]. exists e. apply in_or_app. now left.
        * rewrite (ci_keys I), En, Hblocks. reflexivity.
        * apply grammatical_snoc. eauto.
        * intros F. exfalso. apply in_app_or in F as [F|[F|[]]]; [contradiction|discriminate].
      + unfold failover. rewrite (ci_h I).
        pose proof (answers_snoc (errors h) e) as Ha.
        assert (He : errors (h ++ [CCall k (OnError e)]) = errors h ++ [e]) by now rewrite errors_snoc.
        destruct (hd (hstate (errors h)) e) as [[o|x] h'] eqn:Ehd; cbn in Ha.
        * destruct (var_log (c_var s)) as (V1 & V2 & V3). rewrite upcoming_ups in *.
          constructor; cbn; rewrite ?upcoming_ups, ?creq_app, ?csub_app, ?ckeys_app, ?He, ?Ha, ?calls_snoc, ?V1, ?V2, ?V3, ?app_nil_r; cbn; rewrite ?ups_app, ?ups_disp, ?ups_nil, ?Eu; cbn; auto.
          -- rewrite Eu, app_nil_r in G2. now rewrite G2.
          -- intros j Hj _. destruct (Nat.eq_dec j k) as [->|].
             ++ exists e. apply in_or_app. right. now left.
             ++ destruct (G3 j Hj) as [e' F]; [left; lia|]. exists e'. apply in_or_app. now left.
          -- rewrite (ci_keys I), En, Hblocks. cbn. now rewrite app_nil_r.
          -- contradiction.
        * rewrite app_nil_r in Ha. rewrite upcoming_ups in *.
          constructor; cbn; rewrite ?upcoming_ups, ?He, ?Ha, ?calls_snoc; auto.
          -- intros j Hj Hj'. destruct (G3 j Hj Hj') as [e' F]. exists e'. apply in_or_app. now left.
          -- rewrite (ci_keys I), En, Hblocks. cbn. now rewrite app_nil_r.
          -- contradiction.
      + constructor; cbn; rewrite ?creq_app, ?csub_app, ?ckeys_app, ?errors_snoc, ?calls_snoc, ?upcoming_ups; cbn; rewrite ?app_nil_r; auto.
        * intros j Hj Hj'. destruct (G3 j Hj Hj') as [e F]. exists e. apply in_or_app. now left.
        * rewrite (ci_keys I), En, Hblocks. reflexivity.
        * apply grammatical_snoc. eauto.
        * intros _. exists k. rewrite upcoming_ups in Eu. repeat split; auto. apply in_or_app. right. now left.
    - destruct (ci_ids I) as (I1 & _).
      assert (Hco : forall j, calls_of j (h ++ [CAct i]) = calls_of j h) by (intros j; rewrite calls_of_snoc; apply app_nil_r).
      assert (Hmap : forall ks, map (fun j => filter not_error (calls_of j (h ++ [CAct i]))) ks = map (fun j => filter not_error (calls_of j h)) ks)
        by (intros ks; apply map_ext; intros j; now rewrite Hco).
      destruct (lookup i (c_acts s)) as [[o|k]|] eqn:El; [| |discriminate]; injection Hs as <-;
        destruct (lookup_split _ _ I1 El) as (a & b & Ea & Hp & Hd).
      + assert (ups a = [] /\ ups b = []) as [Ua Ub].
        { rewrite upcoming_ups, Ea, ups_app, ups_disp in G1. rewrite app_length in G1. cbn in G1.
          destruct (ups a), (ups b); auto; cbn in G1; lia. }
        assert (Eu : upcoming s = [o]) by (rewrite upcoming_ups, Ea, ups_app, ups_disp, Ua, Ub; reflexivity).
        rewrite Eu in *.
        assert (Eu' : ups (put i (ASub (c_next s)) (c_acts s)) = []) by (rewrite Hp, ups_app, ups_sub, Ua, Ub; reflexivity).
        constructor; cbn; rewrite ?upcoming_ups; cbn; rewrite ?Eu', ?creq_app, ?csub_app, ?ckeys_app, ?errors_snoc, ?calls_snoc; cbn; rewrite ?app_nil_r, ?Hmap; auto.
        * intros j Hj [Hj'|Hj']; [|congruence]. apply G3; [lia|right; discriminate].
        * change (requests [@ESub O A (c_next s) o]) with (@nil (notif A)). change (keys [@ESub O A (c_next s) o]) with [c_next s].
          rewrite map_app, concat_app, G4. cbn [map concat]. rewrite app_nil_r.
          assert (calls_of (c_next s) h = []) as ->; [|cbn; now rewrite app_nil_r].
          destruct (calls_of (c_next s) h) as [|n r] eqn:Ec; [reflexivity|exfalso].
          assert (In (c_next s, n) (ccalls h)) as F by (apply in_calls_of; rewrite Ec; now left).
          apply (ci_calls I) in F. lia.
        * intros F. exfalso. destruct (G6 F) as (j & _ & Fj & _). discriminate.
      + rewrite upcoming_ups, Ea in *. rewrite ups_app, ups_sub in *. rewrite <- ups_app, <- Hd in *.
        constructor; cbn; rewrite ?upcoming_ups; cbn; rewrite ?errors_snoc, ?calls_snoc, ?Hmap; cbn; rewrite ?app_nil_r; auto.
    - exfalso. apply (Hf i e), in_or_app. right. now left.
    - assert (Hmap : forall ks, map (fun j => filter not_error (calls_of j (h ++ [CUser]))) ks = map (fun j => filter not_error (calls_of j h)) ks)
        by (intros ks; apply map_ext; intros j; rewrite calls_of_snoc; cbn; now rewrite app_nil_r).
      destruct (c_ret s) as [r|] eqn:Er; [|discriminate]. injection Hs as <-.
      destruct (c_used s); rewrite upcoming_ups in *; constructor; cbn; rewrite ?upcoming_ups, ?creq_app, ?csub_app, ?ckeys_app, ?errors_snoc, ?calls_snoc, ?Hmap; cbn; rewrite ?app_nil_r; auto.
  Qed.

  (** ** Settling *)
  Definition act_weight (x : nat * aphase O) : nat := match snd x with ADisp _ => 2 | ASub _ => 1 end.
  Definition weight (l : list (nat * aphase O)) : nat := list_sum (map act_weight l).

  Lemma c_settles h s : creach hd src h0 h s -> exists is s', creach hd src h0 (h ++ map CAct is) s' /\ csettled s'.
  Proof.
    remember (weight (c_acts s)) as m eqn:Em. revert h s Em. induction m as [m IH] using lt_wf_ind. intros h s -> Hr.
    destruct (c_acts s) as [|[i p] r] eqn:Ea.
    { exists [], s. rewrite app_nil_r. auto. }
    destruct (ci_ids (ci_reach Hr)) as (I1 & _).
    assert (El : lookup i (c_acts s) = Some p) by (rewrite Ea; unfold lookup; cbn; now rewrite Nat.eqb_refl).
    destruct (lookup_split _ _ I1 El) as (a & b & Eab & Hp & Hd).
    assert (exists s1, catch_step hd s (CAct i) = Some s1 /\ weight (c_acts s1) < weight (c_acts s)) as (s1 & Hs & Hw).
    { cbn. rewrite El. destruct p; eexists; (split; [reflexivity|]); cbn; rewrite ?Hp, ?Hd, Eab; unfold weight;
        rewrite !map_app, !list_sum_app; cbn; change (fold_right Init.Nat.add 0) with list_sum; lia. }
    rewrite Ea in Hw. destruct (IH _ Hw (h ++ [CAct i]) s1 eq_refl) as (is & s' & H1 & H2).
    - eapply cr_snoc; eauto.
    - exists (i :: is), s'. split; [|exact H2]. cbn. now rewrite <- app_assoc in H1.
  Qed.

  (** ** Disposal at a failover *)
  Record DI s : Prop := {
    di_one : c_acts s = [] \/ (exists i o, c_acts s = [(i, ADisp o)]) \/ (exists i k, c_acts s = [(i, ASub k)] /\ c_next s = S k);
    di_var : c_acts s = [] -> exists k, c_next s = S k /\ c_var s = Some k;
    di_disp : forall k, k < c_next s -> S k < c_next s \/ upcoming s <> [] -> In k (disposed (c_log s))
  }.

  Lemma late_snoc h l : late_errors hd src h0 (h ++ [l]) -> late_errors hd src h0 h.
  Proof. intros L h1 k e h2 s1 -> H1. eapply (L h1 k e (h2 ++ [l])); [now rewrite <- app_assoc|exact H1]. Qed.

  Lemma di_reach h s : creach hd src h0 h s -> late_errors hd src h0 h -> no_failures h -> DI s.
  Proof.
    induction 1 as [|h s l s' Hr IH Hs]; intros HL Hf.
    { constructor; cbn; [right; left; eauto|discriminate|lia]. }
    destruct (IH (@late_snoc h l HL) (no_failures_snoc _ _ Hf)) as [D1 D2 D3]. clear IH.
    destruct l as [k n|i|i e|]; cbn [catch_step] in Hs.
    - unfold cbegun in Hs. destruct (k <? c_next s) eqn:Ek; [|discriminate]. apply Nat.ltb_lt in Ek. injection Hs as <-.
      assert (Hplain : DI (cemit (EReq n) s)).
      { constructor; cbn; auto. intros j Hj Hj'. rewrite cdis_app. apply in_or_app. left. now apply D3. }
      destruct n as [a|e|]; auto.
      pose proof (HL h k e [] s eq_refl Hr) as Hz. unfold csettled in Hz. unfold failover.
      destruct (hd (c_h s) e) as [[o|x] h'].
      + destruct (D2 Hz) as (j & Ej & Ev). rewrite Hz, Ev. cbn. constructor; cbn; rewrite ?Ej.
        * right. left. eauto.
        * discriminate.
        * intros i Hi _. rewrite cdis_app. apply in_or_app. destruct (Nat.eq_dec i j) as [->|]; [right; now left|left].
          apply D3; [lia|left; lia].
      + constructor; cbn; auto.
    - destruct (ci_ids (ci_reach Hr)) as (I1 & _).
      destruct (lookup i (c_acts s)) as [[o|k]|] eqn:El; [| |discriminate]; injection Hs as <-;
        destruct (lookup_split _ _ I1 El) as (a & b & Ea & Hp & Hd).
      + assert (a = [] /\ b = []) as [-> ->].
        { rewrite Ea in D1. destruct D1 as [D1|[(i' & o' & D1)|(i' & k' & D1 & _)]].
          - destruct a; discriminate.
          - destruct a as [|? [|]]; [|discriminate|discriminate]. injection D1 as _ _ ->. auto.
          - destruct a as [|? [|]]; discriminate. }
        cbn in Ea, Hp, Hd. constructor; cbn; rewrite ?Hp.
        * right. right. eauto.
        * discriminate.
        * intros j Hj Hj'. rewrite cdis_app. apply in_or_app. left. apply D3.
          -- destruct Hj' as [Hj'|Hj']; [lia|]. exfalso. apply Hj'. reflexivity.
          -- right. rewrite upcoming_ups, Ea. discriminate.
      + assert (a = [] /\ b = [] /\ c_next s = S k) as (-> & -> & En).
        { rewrite Ea in D1. destruct D1 as [D1|[(i' & o' & D1)|(i' & k' & D1 & E)]].
          - destruct a; discriminate.
          - destruct a as [|? [|]]; discriminate.
          - destruct a as [|? [|]]; [|discriminate|discriminate]. injection D1 as _ -> ->. auto. }
        cbn in Ea, Hp, Hd. constructor; cbn; rewrite ?Hd; eauto.
        intros j Hj Hj'. apply D3; [exact Hj|]. destruct Hj' as [Hj'|Hj']; [now left|]. exfalso. apply Hj'. reflexivity.
    - exfalso. apply (Hf i e), in_or_app. right. now left.
    - destruct (c_ret s) as [r|] eqn:Er; [|discriminate]. injection Hs as <-.
      destruct (c_used s); constructor; cbn; auto.
      intros j Hj Hj'. rewrite cdis_app. apply in_or_app. left. now apply D3.
  Qed.

  Lemma subs_keys h s : creach hd src h0 h s -> length (subscribed (c_log s)) = c_next s.
  Proof.
    intros Hr. assert (length (subscribed (c_log s)) = length (keys (c_log s))) as ->.
    { generalize (c_log s). clear. intros l. unfold subscribed, keys. induction l as [|x l IH]; [reflexivity|]. destruct x; cbn; auto. }
    rewrite (ci_keys (ci_reach Hr)). apply seq_length.
  Qed.
End P.

(** ** retry *)
Lemma retry_answers n es : answers retry_factory n es =
  if (n =? 0)%Z then map RFail es else match es with [] => [] | _ :: r => ROrig :: map RFail r end.
Proof.
  assert (H0 : forall es, answers retry_factory 0%Z es = map RFail es).
  { clear. induction es as [|e es IH]; cbn; [reflexivity|]. now rewrite IH. }
  destruct (n =? 0)%Z eqn:E.
  - apply Z.eqb_eq in E. subst n. apply H0.
  - destruct es as [|e es]; cbn; [reflexivity|]. unfold retry_factory at 1. rewrite E. rewrite Z.sub_diag. now rewrite H0.
Qed.

Definition is_orig (o : robs) : bool := match o with ROrig => true | RFail _ => false end.

Lemma filter_perm X (f : X -> bool) a b : Permutation a b -> Permutation (filter f a) (filter f b).
Proof.
  induction 1; cbn.
  - constructor.
  - destruct (f x); [now constructor|assumption].
  - destruct (f x), (f y); try reflexivity. apply perm_swap.
  - etransitivity; eassumption.
Qed.

Lemma orig_fails es : filter is_orig (map RFail es) = [].
Proof. induction es; cbn; auto. Qed.

Lemma retry_at_most A n h (s : cstate Z robs A) : creach retry_factory ROrig n h s ->
  length (filter is_orig (subscribed (c_log s))) <= (if (n =? 0)%Z then 1 else 2).
Proof.
  intros Hr. destruct (ci_subs (ci_reach Hr)) as (lost & Hp & _).
  apply (filter_perm is_orig) in Hp. apply Permutation_length in Hp. rewrite filter_app, app_length, retry_answers in Hp.
  destruct (n =? 0)%Z.
  - cbn [filter is_orig] in Hp. rewrite orig_fails in Hp. cbn [length] in Hp. lia.
  - destruct (errors h) as [|e r]; cbn [filter is_orig] in Hp; rewrite ?orig_fails in Hp; cbn [length] in Hp; lia.
Qed.

Lemma retry_exact A n h (s : cstate Z robs A) : creach retry_factory ROrig n h s -> sources_grammatical h -> no_failures h ->
  subscribed (c_log s) ++ upcoming s =
  ROrig :: if (n =? 0)%Z then map RFail (errors h) else match errors h with [] => [] | _ :: r => ROrig :: map RFail r end.
Proof. intros Hr Hg Hf. rewrite (gi_order (gi_reach Hr Hg Hf)). now rewrite retry_answers. Qed.

Lemma retry_length n es : length (answers retry_factory n es) = length es.
Proof. rewrite retry_answers. destruct (n =? 0)%Z, es; cbn; now rewrite ?map_length. Qed.

Lemma retry_budget A n h (s : cstate Z robs A) : creach retry_factory ROrig n h s ->
  c_h s = if (match errors h with [] => true | _ => false end) then n else 0%Z.
Proof.
  intros Hr. rewrite (ci_h (ci_reach Hr)). destruct (errors h) as [|e es]; [reflexivity|]. unfold hstate. cbn.
  assert (H0 : forall es, fold_left (fun x e => snd (retry_factory x e)) es 0%Z = 0%Z) by (clear; induction es; auto).
  unfold retry_factory at 2. destruct (n =? 0)%Z eqn:E; cbn.
  - apply Z.eqb_eq in E. subst n. apply H0.
  - rewrite Z.sub_diag. apply H0.
Qed.

(** At rest there is always a subscription of fail(e) that has not reported its error yet. *)
Lemma retry_never_settles A n h (s : cstate Z robs A) :
  creach retry_factory ROrig n h s -> sources_grammatical h -> no_failures h -> csettled s ->
  (if (n =? 0)%Z then 1 else 2) <= length (errors h) ->
  exists k e, nth_error (subscribed (c_log s)) k = Some (RFail e) /\ forall x, ~ In (CCall k (OnError x)) h.
Proof.
  intros Hr Hg Hf Hz Hn. pose proof (gi_reach Hr Hg Hf) as G.
  pose proof (retry_exact Hr Hg Hf) as E. unfold csettled in Hz. rewrite upcoming_ups, Hz, ups_nil, app_nil_r in E.
  pose proof (subs_keys Hr) as Hl.
  assert (Hnx : c_next s = S (length (errors h))).
  { rewrite <- Hl, E. destruct (n =? 0)%Z, (errors h); cbn; rewrite ?map_length; try reflexivity. }
  exists (length (errors h)).
  destruct (errors h) as [|e0 es] eqn:Ee using rev_ind; [destruct (n =? 0)%Z; cbn in Hn; lia|]. clear IHes.
  assert (Hlast : forall x, ~ In (CCall (length (es ++ [e0])) (OnError x)) h).
  { intros x F. assert (Hc : incl (seq 0 (c_next s)) (map fst (filter (fun y => negb (not_error (snd y))) (ccalls h)))).
    { intros j Hj. apply in_seq in Hj. destruct (Nat.eq_dec j (length (es ++ [e0]))) as [->|].
      - apply in_map_iff. exists (length (es ++ [e0]), OnError x). split; [reflexivity|]. apply filter_In. split; [|reflexivity].
        unfold ccalls. apply in_flat_map. eexists. split; [exact F|]. now left.
      - destruct (gi_ended G (k := j)) as [e Fe]; [lia|left; lia|]. apply in_map_iff. exists (j, OnError e). split; [reflexivity|].
        apply filter_In. auto. }
    apply NoDup_incl_length in Hc; [|apply seq_NoDup]. rewrite seq_length, map_length, Hnx, <- Ee in Hc.
    assert (length (filter (fun y => negb (not_error (snd y))) (ccalls h)) = length (errors h)) as Hle; [|lia].
    clear. unfold errors. generalize (ccalls h) as l. induction l as [|[j m] l IH]; [reflexivity|]. cbn. destruct m; cbn; auto. }
  exists e0. split; [|exact Hlast]. rewrite E, app_length, Nat.add_1_r. cbn [nth_error].
  destruct (n =? 0)%Z.
  - rewrite map_app. cbn. rewrite nth_error_app2; rewrite map_length; [|lia]. now rewrite Nat.sub_diag.
  - destruct es as [|e1 es]; [cbn in Hn; lia|]. cbn. rewrite map_app. rewrite nth_error_app2; rewrite map_length; [|lia]. now rewrite Nat.sub_diag.
Qed.

(** Running a history. *)
Fixpoint crun {H O A} (hd : H -> exn -> res O * H) (s : cstate H O A) (h : list (clabel A)) : option (cstate H O A) :=
  match h with
  | [] => Some s
  | l :: r => match catch_step hd s l with Some s' => crun hd s' r | None => None end
  end.
Lemma crun_reach H O A (hd : H -> exn -> res O * H) src h0 (l2 : list (clabel A)) : forall l1 s s',
  creach hd src h0 l1 s -> crun hd s l2 = Some s' -> creach hd src h0 (l1 ++ l2) s'.
Proof.
  induction l2 as [|l l2 IH]; cbn; intros l1 s s' Hr E.
  - injection E as <-. now rewrite app_nil_r.
  - destruct (catch_step hd s l) as [s1|] eqn:E1; [|discriminate].
    change (l :: l2) with ([l] ++ l2). rewrite app_assoc. eapply IH; [|exact E]. eapply cr_snoc; eauto.
Qed.
Lemma crun_init H O A (hd : H -> exn -> res O * H) src h0 (h : list (clabel A)) s :
  crun hd (c_init src h0) h = Some s -> creach hd src h0 h s.
Proof. intros E. exact (crun_reach _ (cr_nil hd src h0) E). Qed.
