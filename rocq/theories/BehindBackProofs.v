(** * Everything that happens in front of catch or retry can happen directly behind them: proofs for C91. *)
From Coq Require Import Lia.
From Verif Require Import ProgramsProofs ColdProofs CatchProofs ColdCatchProofs.
From Verif Require Export BehindProofs.
Set Implicit Arguments.

Section Back.
  Context {H O A B : Type} (hd : H -> exn -> res O * H) (src : O) (f : A -> res (option B)) (h0 : H).

  Lemma calls_app k (h1 h2 : list (clabel A)) : calls_of k (h1 ++ h2) = calls_of k h1 ++ calls_of k h2.
  Proof. unfold calls_of, ccalls. now rewrite flat_map_app, filter_app, map_app. Qed.
  Lemma calls_app_b k (h1 h2 : list (clabel B)) : calls_of k (h1 ++ h2) = calls_of k h1 ++ calls_of k h2.
  Proof. unfold calls_of, ccalls. now rewrite flat_map_app, filter_app, map_app. Qed.
  Lemma calls_own_k k (ns : list (notif A)) : calls_of k (map (CCall k) ns) = ns.
  Proof. unfold calls_of, ccalls. induction ns as [|n ns IH]; [reflexivity|]. cbn. rewrite Nat.eqb_refl. cbn. now rewrite IH. Qed.
  Lemma calls_not_k k j (ns : list (notif A)) : j <> k -> calls_of k (map (CCall j) ns) = [].
  Proof. intros N. unfold calls_of, ccalls. induction ns as [|n ns IH]; [reflexivity|]. cbn. apply Nat.eqb_neq in N. rewrite N. exact IH. Qed.

  Lemma heard_first (ns : list (notif A)) m more : flat_map (hears f) ns = m :: more ->
    exists sil n rest, ns = sil ++ n :: rest /\ flat_map (hears f) sil = [] /\ hears f n = [m] /\ flat_map (hears f) rest = more.
  Proof.
    induction ns as [|n ns IH]; [discriminate|]. cbn [flat_map]. intros E. destruct (hears f n) as [|m' r] eqn:Hn.
    - destruct (IH E) as (sil & n' & rest & -> & S & X & Y). exists (n :: sil), n', rest. cbn. now rewrite Hn.
    - assert (R : r = []) by (destruct n as [a|x|]; cbn in Hn; [destruct (f a) as [[b|]|x]|..]; congruence).
      subst r. cbn [app] in E. injection E as -> E. exists [], n, ns. auto.
  Qed.

  Lemma silent_steps k (sil : list (notif A)) : flat_map (hears f) sil = [] -> forall h s, tail_reach hd src f h0 h s -> cbegun k s = true ->
    tail_reach hd src f h0 (h ++ map (CCall k) sil) s.
  Proof.
    induction sil as [|n sil IH]; intros E h s R Bg; [now rewrite app_nil_r|]. cbn [flat_map] in E. apply app_eq_nil in E as [En E].
    cbn [map]. replace (h ++ CCall k n :: map (CCall k) sil) with ((h ++ [CCall k n]) ++ map (CCall k) sil) by now rewrite <- app_assoc.
    apply IH; [exact E| |exact Bg]. eapply br_snoc; [exact R|]. cbn [behind_step]. rewrite Bg.
    destruct n as [a|x|]; cbn in En; [destruct (f a) as [[b|]|x]|..]; try discriminate. reflexivity.
  Qed.

  Lemma behind_same k n m (s : cstate H O B) : hears f n = [m] -> behind_step hd f s (CCall k n) = catch_step hd s (CCall k m).
  Proof.
    intros E. cbn [behind_step catch_step]. destruct (cbegun k s); [|reflexivity].
    destruct n as [a|x|]; cbn in E; [destruct (f a) as [[b|]|x]|..]; try discriminate; injection E as <-; reflexivity.
  Qed.

  Lemma no_failures_app (h1 h2 : list (clabel A)) : no_failures h1 -> (forall i e, ~ In (CActFail i e) h2) -> no_failures (h1 ++ h2).
  Proof. intros N1 N2 i e G. apply in_app_or in G as [G|G]; [exact (N1 i e G)|exact (N2 i e G)]. Qed.
  Lemma no_failures_calls k (ns : list (notif A)) i e : ~ In (CActFail i e) (map (CCall k) ns).
  Proof. intros G. apply in_map_iff in G as (n & G & _). discriminate. Qed.

  Lemma pull_back (script : nat -> list (notif A)) h s : creach hd src h0 h s -> no_failures h ->
    (forall k, exists more, flat_map (hears f) (script k) = calls_of k h ++ more) ->
    exists h', tail_reach hd src f h0 h' s /\ no_failures h' /\
      forall k, (exists rest, script k = calls_of k h' ++ rest) /\ flat_map (hears f) (calls_of k h') = calls_of k h.
  Proof.
    intros R. induction R as [|h s l s' R IH E]; intros N Hp.
    - exists []. split; [constructor|]. split; [intros i e []|]. intros k. split; [|reflexivity]. exists (script k). reflexivity.
    - destruct IH as (h' & T & N' & Hk).
      { intros i e G. apply (N i e). apply in_or_app. now left. }
      { intros k. destruct (Hp k) as [more M]. rewrite calls_of_snoc in M. rewrite <- app_assoc in M. eauto. }
      destruct l as [k m|i|i e|].
      + destruct (Hk k) as [[rest Er] Ek]. destruct (Hp k) as [more M]. rewrite calls_of_same, Er, flat_map_app, Ek, <- app_assoc in M. apply app_inv_head in M.
        destruct (heard_first _ M) as (sil & n & rest' & -> & S & Hn & _).
        assert (Bg : cbegun k s = true) by (cbn [catch_step] in E; now destruct (cbegun k s)).
        exists ((h' ++ map (CCall k) sil) ++ [CCall k n]). split; [|split].
        * eapply br_snoc; [apply silent_steps; eassumption|]. rewrite (@behind_same k n m s Hn). exact E.
        * apply no_failures_app; [apply no_failures_app; [exact N'|intros; apply no_failures_calls]|intros i e [G|[]]; discriminate].
        * intros j. destruct (Nat.eq_dec k j) as [<-|D].
          -- rewrite !calls_of_same, calls_app, calls_own_k. split; [exists rest'; now rewrite Er, <- !app_assoc|].
             rewrite !flat_map_app, Ek, S. cbn [flat_map]. now rewrite Hn, !app_nil_r.
          -- rewrite !(calls_of_other _ _ D), calls_app, (calls_not_k _ D), app_nil_r. apply Hk.
      + exists (h' ++ [CAct i]). split; [eapply br_snoc; [exact T|exact E]|]. split; [apply no_failures_app; [exact N'|intros j e [G|[]]; discriminate]|].
        intros k. rewrite calls_app, (calls_app_b k h [CAct i]). change (calls_of k [@CAct A i]) with (@nil (notif A)). change (calls_of k [@CAct B i]) with (@nil (notif B)). rewrite !app_nil_r. apply Hk.
      + exfalso. apply (N i e). apply in_or_app. right. now left.
      + exists (h' ++ [CUser]). split; [eapply br_snoc; [exact T|exact E]|]. split; [apply no_failures_app; [exact N'|intros j e [G|[]]; discriminate]|].
        intros k. rewrite calls_app, (calls_app_b k h [CUser]). change (calls_of k [@CUser A]) with (@nil (notif A)). change (calls_of k [@CUser B]) with (@nil (notif B)). rewrite !app_nil_r. apply Hk.
  Qed.

  (** ... and what they make that nobody hears of comes at the end. *)
  Lemma pull_all (script : nat -> list (notif A)) h s : creach hd src h0 h s -> no_failures h ->
    (forall k, flat_map (hears f) (script k) = calls_of k h) ->
    exists h', tail_reach hd src f h0 h' s /\ no_failures h' /\ forall k, k < c_next s -> calls_of k h' = script k.
  Proof.
    intros R N Hp. destruct (@pull_back script h s R N) as (h1 & T1 & N1 & K1); [intros k; exists []; now rewrite app_nil_r|].
    assert (G : forall c, c <= c_next s -> exists h', tail_reach hd src f h0 h' s /\ no_failures h' /\
      (forall k, (exists rest, script k = calls_of k h' ++ rest) /\ flat_map (hears f) (calls_of k h') = calls_of k h) /\ forall k, k < c -> calls_of k h' = script k).
    { induction c as [|c IH]; intros L; [exists h1; repeat split; auto; try (apply K1); lia|].
      destruct (IH ltac:(lia)) as (h2 & T2 & N2 & K2 & A2). destruct (K2 c) as [[rest Er] Ek].
      assert (S : flat_map (hears f) rest = []).
      { pose proof (Hp c) as P. rewrite Er, flat_map_app, Ek in P. rewrite <- (app_nil_r (calls_of c h)) in P at 2. now apply app_inv_head in P. }
      exists (h2 ++ map (CCall c) rest). split; [apply silent_steps; [exact S|exact T2|apply Nat.ltb_lt; lia]|].
      split; [apply no_failures_app; [exact N2|intros; apply no_failures_calls]|].
      assert (Y : calls_of c (h2 ++ map (CCall c) rest) = script c) by now rewrite calls_app, calls_own_k, Er.
      assert (Z : forall k, k <> c -> calls_of k (h2 ++ map (CCall c) rest) = calls_of k h2) by (intros k D; rewrite calls_app, calls_not_k by congruence; apply app_nil_r).
      split.
      - intros k. destruct (Nat.eq_dec k c) as [->|D]; [rewrite Y|rewrite (Z k D); apply K2]. split; [exists []; now rewrite app_nil_r|apply Hp].
      - intros k Lk. destruct (Nat.eq_dec k c) as [->|D]; [exact Y|]. rewrite (Z k D). apply A2. lia. }
    destruct (G (c_next s) (le_n _)) as (h' & T & N' & _ & K). exists h'. auto.
  Qed.
End Back.

(** One subscription for each number: what each of them makes can be chosen. *)
Lemma choose_each X O A (P : nat -> O -> X -> Prop) (d : X) (l : list (effect O A)) : NoDup (keys l) ->
  (forall k o, In (ESub k o) l -> exists x, P k o x) -> exists F : nat -> X, forall k o, In (ESub k o) l -> P k o (F k).
Proof.
  induction l as [|e l IH]; intros N Hx; [exists (fun _ => d); intros k o []|].
  destruct e as [k0 o0|k0|n].
  - cbn in N. inversion N as [|? ? Ni N']; subst. destruct (IH N') as [F HF]; [intros k o G; apply Hx; now right|].
    destruct (Hx k0 o0 (or_introl eq_refl)) as [x Px]. exists (fun k => if k =? k0 then x else F k). intros k o [G|G].
    + injection G as <- <-. now rewrite Nat.eqb_refl.
    + destruct (k =? k0) eqn:E; [|now apply HF]. apply Nat.eqb_eq in E. subst k. exfalso. apply Ni. unfold keys. apply in_flat_map. exists (ESub k0 o). split; [exact G|now left].
  - destruct (IH N) as [F HF]; [intros k o G; apply Hx; now right|]. exists F. intros k o [G|G]; [discriminate|now apply HF].
  - destruct (IH N) as [F HF]; [intros k o G; apply Hx; now right|]. exists F. intros k o [G|G]; [discriminate|now apply HF].
Qed.

Lemma stage_made A B (g : stage A B) c p : bounded c -> makes (Stage g c) (script_of p) -> exists q, makes c (script_of q) /\ result_of g (fst q) (snd q) = p.
Proof.
  intros Hb (ms & M & D). destruct (sound c Hb ms M) as (vs & e & _ & ->). apply stage_delivers in D. unfold script_of in D. apply trace_inj in D as [E1 E2].
  exists (vs, e). split; [exact M|]. cbn [fst snd]. destruct p as [us d], (result_of g vs e) as [us' d']. cbn in *. congruence.
Qed.

Lemma pulled H O A B (hd : H -> exn -> res O * H) src (g : stage A B) h0 content h (s : cstate H O B) (Q : O -> list A * ending -> Prop) : elementwise g ->
  creach hd src h0 h s -> no_failures h -> cfinished content h s ->
  (forall k o, In (ESub k o) (c_log s) -> exists q, Q o q /\ result_of g (fst q) (snd q) = content k o) ->
  exists F h', tail_reach hd src (does g) h0 h' s /\ no_failures h' /\
    forall k o, In (ESub k o) (c_log s) -> calls_of k h' = until_raise (does g) (script_of (F k)) /\ Q o (F k).
Proof.
  intros Hg R N [_ D] M. pose proof (ci_keys (ci_reach R)) as K.
  destruct (@choose_each (list A * ending) O B (fun k o q => Q o q /\ result_of g (fst q) (snd q) = content k o) ([], Open) (c_log s)) as [F HF].
  { rewrite K. apply seq_NoDup. }
  { exact M. }
  destruct (@pull_all H O A B hd src (does g) h0 (fun k => if k <? c_next s then until_raise (does g) (script_of (F k)) else []) h s R N) as (h' & T & N' & C).
  { intros k. destruct (k <? c_next s) eqn:L.
    - apply Nat.ltb_lt in L. assert (I : In k (keys (c_log s))) by (rewrite K; apply in_seq; lia). apply in_keys in I as [o I].
      rewrite (D k o I). destruct (HF k o I) as [_ E]. rewrite <- E. unfold script_of at 1. now apply hears_stage.
    - apply Nat.ltb_ge in L. cbn [flat_map]. symmetry. exact (none_yet R L). }
  exists F, h'. split; [exact T|]. split; [exact N'|]. intros k o I. split; [|exact (proj1 (HF k o I))].
  assert (L : k < c_next s). { assert (I' : In k (keys (c_log s))) by (apply in_keys; eauto). rewrite K in I'. apply in_seq in I'. lia. }
  rewrite (C k L). apply Nat.ltb_lt in L. now rewrite L.
Qed.

Lemma makes_behind_catch A B (g : stage A B) c handler l : elementwise g -> bounded c -> (forall x c', handler x = Ok c' -> bounded c') ->
  makes (Caught (Stage g c) (staged g handler)) l -> behind_catch g c handler l.
Proof.
  intros Hg Hb Hbh (content & h & s & R & F & D & M & E). pose proof D as [Q _].
  destruct (@pulled _ _ A B _ _ g _ content h s (fun o q => match o with None => makes c (script_of q) | Some x => match handler x with Ok c' => makes c' (script_of q) | Err _ => False end end) Hg R (proj1 F) D) as (G & h' & T & N & C).
  { intros k o I. specialize (M k o I). destruct o as [x|].
    - unfold staged in M. destruct (handler x) as [c'|y] eqn:Ex; [|contradiction]. apply stage_made; [exact (Hbh x c' Ex)|exact M].
    - apply stage_made; [exact Hb|exact M]. }
  exists (fun k _ => G k), h', s. split; [|auto]. eapply tail_answers; [|exact T]. intros st x. unfold answers_to, staged. now destruct (handler x).
Qed.

Lemma makes_behind_retry A B (g : stage A B) n c l : elementwise g -> bounded c ->
  makes (Retried n (Stage g c)) l -> behind_retry g n c l.
Proof.
  intros Hg Hb (content & h & s & R & F & D & M & E). pose proof D as [Q _].
  destruct (@pulled _ _ A B _ _ g _ content h s (fun o q => match o with ROrig => makes c (script_of q) | RFail x => q = ([], Failed x) end) Hg R (proj1 F) D) as (G & h' & T & N & C).
  { intros k o I. specialize (M k o I). destruct o as [|x].
    - apply stage_made; [exact Hb|exact M].
    - exists ([], Failed x). split; [reflexivity|]. cbn [fst snd]. rewrite (result_does _ _ _ Hg), M. reflexivity. }
  exists (fun k _ => G k), h', s. auto.
Qed.
