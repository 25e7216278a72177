(** * switch_latest of cold observables with any endings: proofs. *)
From Verif Require Import Properties9 ColdProofs ColdSwitchProofs.
From Verif Require Export TraceProofs.
Set Implicit Arguments.

(** ** What switch_latest asks of its observer, step by step *)
Section Requests.
  Context {O A : Type}.
  Implicit Types (h : list (mlabel O A)) (s : sstate O A).

  Lemma sstep_requests s l s' : sstep s l = Some s' ->
    exists d, requests (w_log s') = requests (w_log s) ++ d /\ (d = [] \/ d = [OnCompleted] \/ d = produced [l]).
  Proof.
    intros Hs. assert (R : forall l' : list (effect O A), requests (w_log s ++ l') = requests (w_log s) ++ requests l') by (intros; unfold requests; apply flat_map_app).
    destruct l as [[o|e|]|k n| | |e]; cbn [sstep] in Hs.
    - injection Hs as <-. exists []. rewrite app_nil_r. auto.
    - injection Hs as <-. exists [OnError e]. cbn. rewrite R. auto.
    - injection Hs as <-. exists []. rewrite app_nil_r. auto.
    - destruct (sbegun k s); [|discriminate]. injection Hs as <-. destruct n as [a|e|]; cbn.
      + exists [OnNext a]. rewrite R. auto.
      + exists [OnError e]. rewrite R. auto.
      + exists []. rewrite app_nil_r. auto.
    - injection Hs as <-. exists []. rewrite app_nil_r. auto.
    - unfold swork in Hs. destruct (w_phase s).
      + destruct (w_box s) as [|m r]; [discriminate|]. injection Hs as <-. destruct m; cbn.
        * exists []. rewrite app_nil_r. destruct (w_cur s); cbn; rewrite R; cbn; rewrite app_nil_r; auto.
        * destruct (w_stopped s && (k =? w_id s)); cbn; [exists [OnCompleted]; rewrite R; auto|exists []; rewrite app_nil_r; auto].
        * destruct (w_cur s); cbn; [exists []; rewrite app_nil_r; auto|exists [OnCompleted]; rewrite R; auto].
        * exists []. rewrite app_nil_r. destruct (w_cur s); cbn; rewrite ?R; cbn; rewrite ?app_nil_r; auto.
      + injection Hs as <-. exists []. cbn. rewrite R. auto.
      + injection Hs as <-. exists []. cbn. rewrite app_nil_r. auto.
      + injection Hs as <-. exists []. cbn. rewrite app_nil_r. auto.
      + discriminate.
    - destruct (w_phase s); try discriminate; injection Hs as <-; exists []; rewrite app_nil_r; auto.
  Qed.

  Lemma serror_split h s : sreach h s -> forall p x q, requests (w_log s) = p ++ OnError x :: q ->
    exists h1 l h2 s1, h = h1 ++ l :: h2 /\ sreach h1 s1 /\ requests (w_log s1) = p /\ prefix (w_log s1) (w_log s) /\
      (l = LOuter (OnError x) \/ exists k, l = LInner k (OnError x) /\ In k (keys (w_log s1))).
  Proof.
    induction 1 as [|h s l s' H IH Hs]; intros p x q E; [destruct p; discriminate|].
    destruct (sstep_requests _ _ Hs) as (d & Ed & Hd). rewrite Ed in E.
    assert (Hold : forall q', requests (w_log s) = p ++ OnError x :: q' ->
      exists h1 l0 h2 s1, h ++ [l] = h1 ++ l0 :: h2 /\ sreach h1 s1 /\ requests (w_log s1) = p /\ prefix (w_log s1) (w_log s') /\
      (l0 = LOuter (OnError x) \/ exists k, l0 = LInner k (OnError x) /\ In k (keys (w_log s1)))).
    { intros q' E'. destruct (IH p x q' E') as (h1 & l0 & h2 & s1 & -> & R & Q & P & L). exists h1, l0, (h2 ++ [l]), s1.
      rewrite <- app_assoc. cbn. repeat split; auto. destruct P as [c1 P1], (slog_grows _ _ Hs) as [c2 P2]. exists (c1 ++ c2). now rewrite P2, P1, app_assoc. }
    destruct d as [|n d]; [rewrite app_nil_r in E; exact (Hold q E)|].
    assert (d = []) as ->.
    { destruct Hd as [Hd|[[= -> ->]|Hd]]; [discriminate|reflexivity|]. destruct l as [[o|e|]|k [a|e|]| | |e]; cbn in Hd; try discriminate; now injection Hd as -> ->. }
    destruct (snoc_case q) as [->|(q' & z & ->)].
    - apply app_inj_tail in E as [E ->]. exists h, l, [], s. repeat split; auto; [exact (slog_grows _ _ Hs)|].
      destruct Hd as [Hd|[Hd|Hd]]; try discriminate. destruct l as [[o|e|]|k [a|e|]| | |e]; cbn in Hd; try discriminate; injection Hd as <-; [now left|].
      right. exists k. split; [reflexivity|]. cbn in Hs. destruct (sbegun k s) eqn:B; [|discriminate]. now apply sbegun_keys.
    - replace (p ++ OnError x :: q' ++ [z]) with ((p ++ OnError x :: q') ++ [z]) in E by (now rewrite <- app_assoc).
      apply app_inj_tail in E as [E _]. exact (Hold q' E).
  Qed.

  Lemma sopen_sends h s vs : sreach h s -> requests (w_log s) = map OnNext vs -> vs = map snd (sends h).
  Proof.
    intros H E. pose proof (s_forwards H) as F. rewrite E in F.
    assert (F' : map OnNext vs = produced h) by (rewrite <- F; symmetry; apply filter_eq_all; intros n Hn; apply in_map_iff in Hn as (a & <- & _); reflexivity).
    apply map_next_inj. rewrite F'. apply ColdSwitchProofs.produced_sends. intros x Hx. rewrite <- F' in Hx. apply in_map_iff in Hx as (a & Ha & _). discriminate.
  Qed.

  Lemma ssub_nth h s k o : sreach h s -> In (ESub k o) (w_log s) -> exists j, k = S j /\ nth_error (subscribed (w_log s)) j = Some o.
  Proof.
    intros H Ho. apply in_pairs, In_nth_error in Ho as [i Ei]. pose proof (map_nth_error fst _ _ Ei) as G. rewrite pairs_fst, (skeys_seq H) in G. cbn in G.
    assert (L : i < length (seq 1 (length (keys (w_log s))))) by (apply nth_error_Some; congruence).
    rewrite seq_length in L. apply nth_error_nth with (d := 0) in G. rewrite seq_nth in G by exact L. cbn in G. exists i. split; [now rewrite <- G|].
    rewrite <- pairs_snd. exact (map_nth_error snd _ _ Ei).
  Qed.
End Requests.

(** ** What may come of it *)
Section SAny.
  Context {O A : Type} (content : O -> list A * ending) (os : list O) (oe : ending).
  Notation script := (fun o => script_of (content o)).
  Notation outer := (trace os oe).
  Implicit Types (h : list (mlabel O A)) (s : sstate O A).

  Definition sparts h (n : nat) : list (list A) := map (fun k => heard (S k) h) (seq 0 n).

  Lemma sparts_interleave h s n : sreach h s -> length (subscribed (w_log s)) <= n -> interleaves (sparts h n) (map snd (sends h)).
  Proof.
    intros H L. exists (map (fun p => (pred (fst p), snd p)) (sends h)).
    assert (Hpos : forall p, In p (sends h) -> 1 <= fst p <= n).
    { intros [k a] Hin. pose proof (sends_begun H _ _ Hin) as Hk. rewrite (skeys_seq H) in Hk. apply in_seq in Hk. rewrite <- subs_length in Hk. cbn. lia. }
    split; [rewrite map_map; reflexivity|]. split.
    - intros p Hp. apply in_map_iff in Hp as (q & <- & Hq). apply Hpos in Hq. unfold sparts. rewrite map_length, seq_length. cbn. lia.
    - intros k vs E. unfold sparts in E. assert (Lk : k < n).
      { rewrite <- (seq_length n 0), <- (map_length (fun k => heard (S k) h)). apply nth_error_Some. congruence. }
      rewrite nth_map_seq in E by exact Lk. injection E as <-. unfold heard.
      assert (Hp : forall p, In p (sends h) -> 1 <= fst p) by (intros p Hp; apply Hpos in Hp; lia). clear -Hp.
      induction (sends h) as [|[j m] l IH]; [reflexivity|].
      assert (IH' := IH (fun p Hq => Hp p (or_intror Hq))). pose proof (Hp _ (or_introl eq_refl)) as L. cbn in L.
      destruct j as [|j]; [lia|]. cbn in IH' |- *. destruct (j =? k); cbn; now rewrite IH'.
  Qed.

  Definition switch_ends (ps : list (list A)) (e : ending) : Prop :=
    match e with
    | Completed => os = [] /\ oe = Completed
    | Failed x => oe = Failed x \/ exists k o, nth_error os k = Some o /\ snd (content o) = Failed x /\ nth_error ps k = Some (fst (content o))
    | Open => (forall x, oe <> Failed x) /\ (os = [] -> oe = Open) /\
              forall k o, S k = length os -> nth_error os k = Some o -> nth_error ps k = Some (fst (content o)) /\ forall x, snd (content o) <> Failed x
    end.

  Lemma heard_prefix_part h h1 h2 s k o : h = h1 ++ h2 -> sfollows script outer h s -> In (ESub k o) (w_log s) -> prefix (heard k h1) (fst (content o)).
  Proof.
    intros E F Ho. destruct (sheard_prefix content os oe _ _ F Ho) as [c P]. exists (heard k h2 ++ c). rewrite P, E. unfold heard, sends. rewrite flat_map_app, filter_app, map_app. now rewrite <- app_assoc.
  Qed.

  Lemma switch_any h s : sreach h s -> sfollows script outer h s -> sfinished script outer h s ->
    exists ps vs e, upto_terminal (requests (w_log s)) = trace vs e /\ subscribed (w_log s) = os /\
      Forall2 (fun p o => prefix p (fst (content o))) ps os /\ interleaves ps vs /\ switch_ends ps e.
  Proof.
    intros H F D. pose proof (ssubscribed content os oe H F D) as Sub. pose proof D as (D1 & D2 & D3).
    assert (Hp : forall h1 h2 s1, h = h1 ++ h2 -> sreach h1 s1 -> prefix (w_log s1) (w_log s) ->
      Forall2 (fun p o => prefix p (fst (content o))) (sparts h1 (length os)) os /\ interleaves (sparts h1 (length os)) (map snd (sends h1))).
    { intros h1 h2 s1 Eh H1 [c P1]. split.
      - unfold sparts. apply forall2_seq. intros k o Ek. rewrite <- Sub in Ek. exact (@heard_prefix_part h h1 h2 s _ _ Eh F (snth_sub _ H Ek)).
      - apply (sparts_interleave H1). rewrite <- Sub, P1. unfold subscribed. rewrite flat_map_app, app_length. lia. }
    destruct (first_terminal (requests (w_log s))) as (vs & [E|[(q & E)|(x & q & E)]]).
    - (* no end *)
      destruct (Hp h [] s (eq_sym (app_nil_r h)) H (prefix_refl _)) as [P1 P2].
      exists (sparts h (length os)), vs, Open. rewrite E. split; [apply upto_open|]. split; [exact Sub|]. split; [exact P1|].
      split; [rewrite (sopen_sends _ H E); exact P2|].
      assert (NoErr : forall x, ~ In (OnError x) (produced h)).
      { intros x Hx. rewrite <- (s_forwards H) in Hx. apply filter_In in Hx as [Hx _]. rewrite E in Hx. apply in_map_iff in Hx as (a & Ha & _). discriminate. }
      assert (Pin : forall l n, In l h -> In n (produced [l]) -> In n (produced h)).
      { intros l n Hl Hn. unfold produced in *. apply in_flat_map. exists l. split; [exact Hl|]. cbn in Hn. now rewrite app_nil_r in Hn. }
      split; [|split].
      + intros x Ex. apply (NoErr x), (Pin (LOuter (OnError x))); [|now left]. apply in_outer. rewrite D1, Ex. apply in_or_app. right. now left.
      + intros Eos. destruct oe as [|x|] eqn:Eo; [reflexivity| |].
        * exfalso. apply (NoErr x), (Pin (LOuter (OnError x))); [|now left]. apply in_outer. rewrite D1. apply in_or_app. right. now left.
        * exfalso. assert (X : In OnCompleted (requests (w_log s))).
          { apply (s_completes_if H); [rewrite (sarrived_all content os _ D); exact Eos|exact D3|]. apply in_outer. rewrite D1. apply in_or_app. right. now left. }
          rewrite E in X. apply in_map_iff in X as (a & Ha & _). discriminate.
      + intros k o Lk Ek. assert (Hne : os <> []) by (intros ->; destruct k; discriminate).
        assert (Ho : In (ESub (S k) o) (w_log s)) by (apply (snth_sub _ H); now rewrite Sub).
        assert (Nd : ~ In (S k) (disposed (w_log s))) by (rewrite Lk; exact (slast content oe H F D Hne)).
        pose proof (D2 _ _ Ho Nd) as Ei. split.
        * unfold sparts. rewrite nth_map_seq by lia. f_equal. exact (sheard_all content _ _ _ Ei).
        * intros x Ex. apply (NoErr x), (Pin (LInner (S k) (OnError x))); [|now left]. apply in_calls, in_inner. rewrite Ei. unfold script_of. rewrite Ex. apply in_or_app. right. now left.
    - (* completion *)
      assert (X : In OnCompleted (requests (w_log s))) by (rewrite E; apply in_or_app; right; now left).
      assert (Ea : arrived h = []) by (destruct (arrived h) eqn:Ea; [reflexivity|]; exfalso; apply (s_never_completes H (sno_cancel content os oe F) (sgram content os oe F)); [rewrite Ea; discriminate|exact X]).
      pose proof (s_completes_only_if H (sno_cancel content os oe F) X) as Lo.
      assert (Eos : os = []) by (rewrite <- (sarrived_all content os _ D); exact Ea).
      assert (Eo : oe = Completed).
      { apply in_outer in Lo. rewrite D1 in Lo. unfold trace in Lo. apply in_app_or in Lo as [Lo|Lo]; [apply in_map_iff in Lo as (? & ? & _); discriminate|].
        destruct oe; cbn in Lo; try contradiction; [destruct Lo as [Lo|[]]; discriminate|reflexivity]. }
      assert (Ev : vs = []).
      { pose proof (s_forwards H) as Fo. rewrite E, filter_app in Fo. 
        assert (Ep : forall a, ~ In (OnNext a) (produced h)).
        { intros a Ha. unfold produced in Ha. apply in_flat_map in Ha as (l & Hl & Ha). pose proof (sends_arrived H Ea) as Ei.
          destruct l as [[o|e|]|k [b|e|]| | |e]; cbn in Ha; try contradiction; try (destruct Ha as [Ha|[]]; discriminate). apply in_calls in Hl. rewrite Ei in Hl. exact Hl. }
        destruct vs as [|v vs]; [reflexivity|]. exfalso. apply (Ep v). rewrite <- Fo. now left. }
      exists [], [], Completed. rewrite E, Ev. split; [reflexivity|]. split; [exact Sub|]. split; [rewrite Eos; constructor|]. split; [exists []; repeat split; [intros p []|intros [|k] ? ?; discriminate]|].
      split; [exact Eos|exact Eo].
    - (* an error *)
      destruct (serror_split H _ _ _ E) as (h1 & l & h2 & s1 & Eh & H1 & E1 & Pl & Hl).
      destruct (Hp h1 (l :: h2) s1 Eh H1 Pl) as [P1 P2]. exists (sparts h1 (length os)), vs, (Failed x). rewrite E. split; [apply upto_failed|].
      split; [exact Sub|]. split; [exact P1|]. split; [rewrite (sopen_sends _ H1 E1); exact P2|].
      destruct Hl as [->|(k & -> & Hk)].
      + left. assert (L : In (OnError x) (outer_calls h)) by (apply in_outer; rewrite Eh; apply in_or_app; right; now left). rewrite D1 in L.
        unfold trace in L. apply in_app_or in L as [L|L]; [apply in_map_iff in L as (? & ? & _); discriminate|].
        destruct oe; cbn in L; try contradiction; destruct L as [L|[]]; try discriminate. congruence.
      + right. assert (Hk' : In k (keys (w_log s))) by (destruct Pl as [c ->]; unfold keys; rewrite flat_map_app; apply in_or_app; now left).
        apply in_keys in Hk' as [o Ho]. destruct (ssub_nth _ _ H Ho) as (j & -> & Ej). rewrite Sub in Ej. exists j, o. split; [exact Ej|].
        pose proof F as (_ & _ & _ & F4). destruct (F4 _ _ Ho) as [c Ec]. rewrite Eh, inner_app in Ec.
        replace (inner_calls (S j) (LInner (S j) (OnError x) :: h2)) with (OnError x :: inner_calls (S j) h2) in Ec by (unfold inner_calls; cbn; now rewrite Nat.eqb_refl).
        unfold script_of in Ec. rewrite <- app_assoc in Ec. destruct (@trace_error _ _ _ _ _ _ Ec) as [Hs Hx]. split; [exact Hx|].
        unfold sparts. rewrite nth_map_seq by (apply nth_error_Some; congruence). f_equal. rewrite heard_vals, Hs. unfold vals. clear.
        induction (fst (content o)) as [|v l IH]; [reflexivity|]. cbn. now rewrite IH.
  Qed.
End SAny.

(** ** A schedule for every one of these *)
Section Schedule.
  Context {O A : Type}.
  Implicit Types (h : list (mlabel O A)) (s : sstate O A).

  Record sbegins (a : list O) h s : Prop := {
    sb_reach : sreach h s;
    sb_outer : outer_calls h = map OnNext a;
    sb_cancel : forall l, In l h -> l <> LCancel;
    sb_fails : never_fails h;
    sb_subs : subscribed (w_log s) = a;
    sb_calls : icalls h = [];
    sb_reqs : requests (w_log s) = [];
    sb_disp : forall k, 1 <= k < length a -> In k (disposed (w_log s)) }.

  Lemma ssubscribe_all (a : list O) : exists h s, sbegins a h s /\ w_box s = [] /\ w_phase s = SIdle /\
    w_id s = length a /\ w_cur s = match a with [] => None | _ => Some (length a) end.
  Proof.
    induction a as [|o a IH] using rev_ind.
    - exists [], s_init. split; [|auto]. constructor; try reflexivity; [constructor|intros l []|intros e []|cbn; lia].
    - destruct IH as (h & s & B & Bx & Ph & Id & Cu).
      set (s1 := spost (MInner o) s).
      assert (S1 : sstep s (LOuter (OnNext o)) = Some s1) by reflexivity.
      assert (La : length (a ++ [o]) = S (length a)) by (rewrite app_length; cbn; lia).
      assert (Lb : match a ++ [o] with [] => None | _ => Some (length (a ++ [o])) end = Some (S (length a))) by (rewrite La; destruct a; reflexivity).
      rewrite Lb, La. clear Lb.
      destruct (w_cur s) as [k|] eqn:Ec.
      + assert (k = length a) as -> by (destruct a; [discriminate|congruence]).
        set (s2 := SState [] (w_cur s) (w_stopped s) (w_id s) (SSwitch o) (w_log s ++ [EDispose (length a)])).
        assert (S2 : sstep s1 LWork = Some s2) by (cbn; unfold swork; cbn; rewrite Ph, Bx; cbn; rewrite Ec; unfold s2; cbn; rewrite Ec; reflexivity).
        set (s3 := sat SSub (semit (ESub (S (w_id s2)) o) s2)).
        assert (S3 : sstep s2 LWork = Some s3) by reflexivity.
        set (s4 := sset (Some (S (w_id s3))) (w_stopped s3) (S (w_id s3)) s3).
        assert (S4 : sstep s3 LWork = Some s4) by reflexivity.
        exists ((((h ++ [LOuter (OnNext o)]) ++ [LWork]) ++ [LWork]) ++ [LWork]), s4. split; [constructor|].
        * exact (sr_snoc _ (sr_snoc _ (sr_snoc _ (sr_snoc _ (sb_reach B) S1) S2) S3) S4).
        * rewrite !outer_snoc', (sb_outer B), map_app. cbn. now rewrite !app_nil_r.
        * intros l Hl. repeat (apply in_app_or in Hl as [Hl|[<-|[]]]; [|discriminate]). exact (sb_cancel B Hl).
        * intros e Hl. repeat (apply in_app_or in Hl as [Hl|[Hl|[]]]; [|discriminate]). exact (sb_fails B e Hl).
        * cbn. unfold subscribed. rewrite !flat_map_app. fold (subscribed (w_log s)). cbn. now rewrite (sb_subs B), app_nil_r.
        * rewrite !calls_snoc, (sb_calls B). reflexivity.
        * cbn. unfold requests. rewrite !flat_map_app. fold (requests (w_log s)). now rewrite (sb_reqs B).
        * intros k Hk. rewrite La in Hk. cbn. unfold disposed. rewrite !flat_map_app. fold (disposed (w_log s)). apply in_or_app. left. apply in_or_app.
          destruct (Nat.eq_dec k (length a)) as [->|N]; [right; now left|left; apply (sb_disp B); lia].
        * cbn. rewrite Id. auto.
      + assert (a = []) as -> by (destruct a; [reflexivity|discriminate]).
        set (s2 := SState [] None (w_stopped s) (w_id s) SSub (w_log s ++ [ESub (S (w_id s)) o])).
        assert (S2 : sstep s1 LWork = Some s2) by (cbn; unfold swork; cbn; rewrite Ph, Bx; cbn; rewrite Ec; reflexivity).
        set (s3 := sset (Some (S (w_id s2))) (w_stopped s2) (S (w_id s2)) s2).
        assert (S3 : sstep s2 LWork = Some s3) by reflexivity.
        exists (((h ++ [LOuter (OnNext o)]) ++ [LWork]) ++ [LWork]), s3. split; [constructor|].
        * exact (sr_snoc _ (sr_snoc _ (sr_snoc _ (sb_reach B) S1) S2) S3).
        * rewrite !outer_snoc', (sb_outer B), map_app. cbn. now rewrite ?app_nil_r.
        * intros l Hl. repeat (apply in_app_or in Hl as [Hl|[<-|[]]]; [|discriminate]). exact (sb_cancel B Hl).
        * intros e Hl. repeat (apply in_app_or in Hl as [Hl|[Hl|[]]]; [|discriminate]). exact (sb_fails B e Hl).
        * cbn. unfold subscribed. rewrite !flat_map_app. fold (subscribed (w_log s)). cbn. now rewrite (sb_subs B).
        * rewrite !calls_snoc, (sb_calls B). reflexivity.
        * cbn. unfold requests. rewrite !flat_map_app. fold (requests (w_log s)). now rewrite (sb_reqs B).
        * intros k Hk. rewrite La in Hk. cbn in Hk. lia.
        * cbn. cbn in Id. rewrite Id. auto.
  Qed.

  (** The calls [t] of subscriptions that have begun. *)
  Definition says (t : list (nat * notif A)) : list (mlabel O A) := map (fun p => LInner (fst p) (snd p)) t.
  Definition asked (t : list (nat * notif A)) : list (notif A) := filter (fun n => match n with OnCompleted => false | _ => true end) (map snd t).
  Lemma say_all t : forall h s, sreach h s -> (forall p, In p t -> In (fst p) (keys (w_log s))) ->
    exists s', sreach (h ++ says t) s' /\ requests (w_log s') = requests (w_log s) ++ asked t /\ subscribed (w_log s') = subscribed (w_log s) /\ prefix (w_log s) (w_log s').
  Proof.
    induction t as [|[k n] t IH]; intros h s H Hk.
    - exists s. cbn. rewrite !app_nil_r. repeat split; auto. apply prefix_refl.
    - assert (Bk : sbegun k s = true).
      { pose proof (Hk (k, n) (or_introl eq_refl)) as K. cbn in K. apply in_keys in K as [o Ho]. exact (keys_sbegun _ _ _ Ho). }
      set (s1 := match n with OnCompleted => spost (MInnerDone k) s | _ => semit (EReq n) s end).
      assert (S1 : sstep s (LInner k n) = Some s1) by (cbn; rewrite Bk; reflexivity).
      assert (L1 : w_log s1 = w_log s ++ map EReq (asked [(k, n)])) by (unfold s1; destruct n; cbn; now rewrite ?app_nil_r).
      assert (R1 : requests (w_log s1) = requests (w_log s) ++ asked [(k, n)]) by (rewrite L1; unfold requests; rewrite flat_map_app; f_equal; destruct n; reflexivity).
      assert (U1 : subscribed (w_log s1) = subscribed (w_log s)) by (rewrite L1; unfold subscribed; rewrite flat_map_app; destruct n; apply app_nil_r).
      destruct (IH (h ++ [LInner k n]) s1) as (s' & R & Q & U & [c P]).
      + exact (sr_snoc _ H S1).
      + intros p Hp. rewrite L1. unfold keys. rewrite flat_map_app. apply in_or_app. left. apply Hk. now right.
      + exists s'. rewrite <- app_assoc in R. split; [exact R|]. rewrite Q, U, R1, U1, P, L1, <- !app_assoc. split; [|split; [reflexivity|now eexists]].
        f_equal. unfold asked. cbn. destruct n; reflexivity.
  Qed.
  Lemma says_inner k t : inner_calls k (says t) = map snd (filter (fun p => fst p =? k) t).
  Proof. unfold inner_calls, says. induction t as [|[j v] t IH]; [reflexivity|]. cbn. destruct (j =? k); cbn; [f_equal|]; exact IH. Qed.
  Lemma says_outer t : outer_calls (says t) = [].
  Proof. unfold says, outer_calls. induction t as [|p t IH]; [reflexivity|exact IH]. Qed.
  Lemma says_in t l : In l (says t) -> exists k n, l = LInner k n.
  Proof. intros H. apply in_map_iff in H as ([k n] & <- & _). now exists k, n. Qed.
  Lemma souter_app h h' : outer_calls (h ++ h') = outer_calls h ++ outer_calls h'.
  Proof. unfold outer_calls. apply flat_map_app. Qed.
  Lemma souter_map oq : outer_calls (map (@LOuter O A) oq) = oq.
  Proof. unfold outer_calls. induction oq as [|x oq IH]; [reflexivity|]. cbn in *. now rewrite IH. Qed.
  Lemma sarrived_app h h' : arrived (h ++ h') = arrived h ++ arrived h'.
  Proof. unfold arrived. apply flat_map_app. Qed.
  Lemma says_arrived t : arrived (says t) = [].
  Proof. unfold says, arrived. induction t as [|p t IH]; [reflexivity|exact IH]. Qed.
End Schedule.

Section SAll.
  Context {O A : Type} (content : O -> list A * ending) (os : list O) (oe : ending).
  Notation script := (fun o => script_of (content o)).
  Notation outer := (trace os oe).
  Implicit Types (h : list (mlabel O A)) (s : sstate O A).

  (** Everything is subscribed: it can be brought to its end. *)
  Lemma sfinish h s : sreach h s -> sfollows script outer h s -> subscribed (w_log s) = os -> (outer_calls h = map OnNext os \/ outer_calls h = outer) ->
    (forall k, 1 <= k < length os -> In k (disposed (w_log s))) ->
    exists h' s', sreach (h ++ h') s' /\ sfollows script outer (h ++ h') s' /\ sfinished script outer (h ++ h') s' /\ prefix (w_log s) (w_log s') /\
      exists q, match os with [] => q = [] | _ => exists o, nth_error os (pred (length os)) = Some o /\ script o = inner_calls (length os) h ++ q end /\
        forall k x, In (LInner k x) h' -> In x q.
  Proof.
    intros H F Sub Ho Hd. pose proof F as (F1 & F2 & F3 & F4).
    (* what the last one still says *)
    assert (Q : exists q, match os with [] => q = [] | _ => exists o, nth_error os (pred (length os)) = Some o /\ script o = inner_calls (length os) h ++ q end).
    { destruct os as [|o0 os'] eqn:Eo; [now exists []|]. rewrite <- Eo in *. assert (L : pred (length os) < length os) by (rewrite Eo; cbn; lia).
      destruct (nth_error os (pred (length os))) as [o|] eqn:En; [|apply nth_error_None in En; lia].
      assert (Hs : In (ESub (S (pred (length os))) o) (w_log s)) by (apply (snth_sub _ H); now rewrite Sub).
      replace (S (pred (length os))) with (length os) in Hs by lia. destruct (F4 _ _ Hs) as [q Eq]. exists q. exists o. auto. }
    destruct Q as [q Q]. set (n := length os) in *. set (t := map (fun x => (n, x)) q).
    assert (Kt : forall p, In p t -> In (fst p) (keys (w_log s))).
    { intros p Hp. apply in_map_iff in Hp as (x & <- & Hx). cbn. rewrite (skeys_seq H), <- subs_length, Sub. apply in_seq. destruct os as [|o0 os']; [subst q; contradiction|]. unfold n. cbn. lia. }
    destruct (say_all t H Kt) as (s1 & R1 & Q1 & U1 & P1).
    (* the ending of the source *)
    assert (E : exists oq, outer_calls h ++ oq = outer /\ (oq = [] \/ oq = (trace [] oe : list (notif O)))).
    { destruct Ho as [Ho|Ho].
      - exists (trace [] oe). rewrite Ho. split; [reflexivity|now right].
      - exists []. rewrite app_nil_r. auto. }
    destruct E as (oq & Eo & Eq).
    assert (X : exists s2, sreach ((h ++ says t) ++ map LOuter oq) s2 /\ subscribed (w_log s2) = subscribed (w_log s1) /\ prefix (w_log s1) (w_log s2)).
    { destruct Eq as [->| ->]; [exists s1; cbn; rewrite app_nil_r; repeat split; auto; apply prefix_refl|].
      destruct oe as [|x|]; cbn.
      - exists s1. rewrite app_nil_r. repeat split; auto. apply prefix_refl.
      - exists (semit (EReq (OnError x)) s1). split; [exact (sr_snoc _ R1 (eq_refl : sstep s1 (LOuter (OnError x)) = _))|]. split; [|cbn; now eexists].
        cbn. unfold subscribed. rewrite flat_map_app. apply app_nil_r.
      - exists (spost MOuterDone s1). split; [exact (sr_snoc _ R1 (eq_refl : sstep s1 (LOuter OnCompleted) = _))|]. split; [reflexivity|apply prefix_refl]. }
    destruct X as (s2 & R2 & U2 & P2).
    destruct (s_worker_rests R2) as (m & s3 & R3 & Rest).
    set (h' := says t ++ map LOuter oq ++ repeat LWork m).
    assert (Eh : ((h ++ says t) ++ map LOuter oq) ++ repeat LWork m = h ++ h') by (unfold h'; now rewrite !app_assoc).
    rewrite Eh in R3.
    assert (Hin' : forall l, In l h' -> (exists x, l = LInner n x /\ In x q) \/ (exists x, l = LOuter x /\ In x oq) \/ l = LWork).
    { intros l Hl. unfold h' in Hl. apply in_app_or in Hl as [Hl|Hl].
      - left. unfold says, t in Hl. rewrite map_map in Hl. apply in_map_iff in Hl as (x & <- & Hx). cbn. eauto.
      - apply in_app_or in Hl as [Hl|Hl]; [right; left; apply in_map_iff in Hl as (x & <- & Hx); eauto|]. right. right. exact (repeat_spec _ _ _ Hl). }
    assert (Oc' : outer_calls h' = oq).
    { unfold h'. rewrite !souter_app, says_outer. cbn [app].
      replace (outer_calls (repeat LWork m)) with (@nil (notif O)) by (clear; induction m; auto). rewrite app_nil_r. apply souter_map. }
    assert (Oc : outer_calls (h ++ h') = outer) by (rewrite souter_app; now rewrite Oc').
    assert (Ic' : forall k, inner_calls k h' = if n =? k then q else []).
    { intros k. unfold h'. rewrite !inner_app, says_inner. replace (inner_calls k (map LOuter oq)) with (@nil (notif A)) by (symmetry; unfold inner_calls, icalls; clear; induction oq; auto).
      replace (inner_calls k (repeat LWork m)) with (@nil (notif A)) by (symmetry; unfold inner_calls, icalls; clear; induction m; auto). rewrite !app_nil_r. unfold t.
      clear. induction q as [|x q IH]; [now destruct (n =? k)|]. cbn. destruct (n =? k); cbn; now rewrite IH. }
    assert (NoC : forall l, In l (h ++ h') -> l <> LCancel).
    { intros l Hl. apply in_app_or in Hl as [Hl|Hl]; [exact (F1 _ Hl)|]. apply Hin' in Hl as [(x & -> & _)|[(x & -> & _)| ->]]; discriminate. }
    assert (NoF : never_fails (h ++ h')).
    { intros e Hl. apply in_app_or in Hl as [Hl|Hl]; [exact (F2 e Hl)|]. apply Hin' in Hl as [(x & ? & _)|[(x & ? & _)|?]]; discriminate. }
    assert (Lg : prefix (w_log s) (w_log s3)).
    { destruct P1 as [c1 P1], P2 as [c2 P2].
      assert (P3 : prefix (w_log s2) (w_log s3)).
      { assert (G : forall m h0 s0 sx, sreach h0 s0 -> sreach (h0 ++ repeat LWork m) sx -> prefix (w_log s0) (w_log sx)).
        { clear. induction m as [|m IH]; intros h0 s0 sx H0 Hx.
          - cbn in Hx. rewrite app_nil_r in Hx. apply sreach_run in H0, Hx. rewrite H0 in Hx. injection Hx as ->. apply prefix_refl.
          - cbn in Hx. replace (h0 ++ LWork :: repeat LWork m) with ((h0 ++ [LWork]) ++ repeat LWork m) in Hx by (now rewrite <- app_assoc).
            pose proof (sreach_run Hx) as Rx. rewrite srun_app in Rx. rewrite srun_app, (sreach_run H0) in Rx. cbn in Rx.
            destruct (swork s0) as [s1|] eqn:W; [|discriminate].
            assert (S1 : sstep s0 LWork = Some s1) by exact W. pose proof (sr_snoc _ H0 S1) as H1.
            destruct (IH _ _ _ H1 Hx) as [c P], (slog_grows _ _ S1) as [c' P']. exists (c' ++ c). now rewrite P, P', app_assoc. }
        apply (G m _ _ _ R2). now rewrite Eh. }
      destruct P3 as [c3 P3]. exists (c1 ++ c2 ++ c3). rewrite P3, P2, P1. now rewrite !app_assoc. }
    assert (Sub3 : subscribed (w_log s3) = os).
    { destruct (proj1 (s_in_order R3)) as [c Pc]. rewrite arrived_outer in Pc. rewrite Oc in Pc. fold (@vals O) in Pc.
      assert (V : flat_map (fun n => match n with OnNext v => [v] | _ => [] end) outer = os) by exact (vals_trace os oe). unfold vals in Pc. rewrite V in Pc.
      destruct Lg as [c' Lg]. rewrite Lg in Pc |- *. unfold subscribed in Pc |- *. rewrite flat_map_app in Pc |- *. fold (subscribed (w_log s)) in *. rewrite Sub in *.
      destruct (flat_map _ c') as [|x l]; [apply app_nil_r|]. exfalso. apply (f_equal (@length O)) in Pc. rewrite !app_length in Pc. cbn in Pc. lia. }
    assert (Back : forall k o, In (ESub k o) (w_log s3) -> In (ESub k o) (w_log s) /\ exists j, k = S j /\ nth_error os j = Some o).
    { intros k o Hk. destruct (ssub_nth _ _ R3 Hk) as (j & -> & Ej). rewrite Sub3 in Ej. split; [|now exists j]. apply (snth_sub _ H). now rewrite Sub. }
    assert (Last : forall o, In (ESub n o) (w_log s3) -> script o = inner_calls n h ++ q).
    { intros o Hk. destruct (Back _ _ Hk) as (_ & j & Ej & En). fold n in Q. destruct os as [|o0 os'] eqn:Eos; [destruct j; discriminate|]. rewrite <- Eos in *.
      destruct Q as (o' & En' & Es). rewrite Ej in En'. cbn in En'. rewrite En in En'. injection En' as <-. exact Es. }
    assert (F' : sfollows script outer (h ++ h') s3).
    { split; [exact NoC|]. split; [exact NoF|]. split; [rewrite Oc; apply prefix_refl|]. intros k o Hk. rewrite inner_app, Ic'.
      destruct (Nat.eqb_spec n k) as [<-|N]; [rewrite (Last _ Hk); apply prefix_refl|]. rewrite app_nil_r. apply F4. exact (proj1 (Back _ _ Hk)). }
    assert (D' : sfinished script outer (h ++ h') s3).
    { split; [exact Oc|]. split; [|exact Rest]. intros k o Hk Nd. rewrite inner_app, Ic'. destruct (Nat.eqb_spec n k) as [<-|N]; [symmetry; exact (Last _ Hk)|].
      exfalso. apply Nd. destruct (Back _ _ Hk) as (_ & j & -> & Ej). destruct Lg as [c Lg]. rewrite Lg. unfold disposed. rewrite flat_map_app. apply in_or_app. left.
      apply Hd. assert (j < length os) by (apply nth_error_Some; congruence). fold n. fold n in H0. lia. }
    exists h', s3. split; [exact R3|]. split; [exact F'|]. split; [exact D'|]. split; [exact Lg|]. exists q. split; [exact Q|].
    intros k x Hl. apply Hin' in Hl as [(y & [= -> <-] & Hx)|[(y & ? & _)| ?]]; try discriminate. exact Hx.
  Qed.

  Lemma switch_all ps vs e : Forall2 (fun p o => prefix p (fst (content o))) ps os -> interleaves ps vs -> switch_ends content os oe ps e ->
    exists h s, sreach h s /\ sfollows script outer h s /\ sfinished script outer h s /\ upto_terminal (requests (w_log s)) = trace vs e.
  Proof.
    intros Hps (t & Et & Lt & Ht) He.
    assert (Lps : length ps = length os) by (clear -Hps; induction Hps; cbn; congruence).
    destruct (@ssubscribe_all O A os) as (h0 & s0 & B & _).
    set (t' := map (fun p : nat * A => (S (fst p), OnNext (snd p))) t).
    assert (Kt : forall p, In p t' -> In (fst p) (keys (w_log s0))).
    { intros p Hp. apply in_map_iff in Hp as (x & <- & Hx). cbn [fst]. rewrite (skeys_seq (sb_reach B)), <- subs_length, (sb_subs B). apply in_seq. specialize (Lt x Hx). lia. }
    destruct (say_all t' (sb_reach B) Kt) as (s1 & R1 & Q1 & U1 & P1). set (h1 := h0 ++ says t') in *.
    assert (Rq : requests (w_log s1) = map OnNext vs).
    { rewrite Q1, (sb_reqs B). cbn [app]. unfold asked, t'. rewrite map_map. cbn. rewrite <- Et. clear. induction t as [|p t IH]; [reflexivity|]. cbn. now rewrite IH. }
    assert (Sub1 : subscribed (w_log s1) = os) by (rewrite U1; exact (sb_subs B)).
    assert (O1 : outer_calls h1 = map OnNext os) by (unfold h1; rewrite souter_app, says_outer, app_nil_r; exact (sb_outer B)).
    assert (I1 : forall k p, nth_error ps k = Some p -> inner_calls (S k) h1 = map OnNext p).
    { intros k p Ek. unfold h1. rewrite inner_app. replace (inner_calls (S k) h0) with (@nil (notif A)) by (unfold inner_calls; now rewrite (sb_calls B)). cbn [app].
      rewrite says_inner, <- (Ht k p Ek). unfold t'. clear. induction t as [|[j v] t IH]; [reflexivity|]. cbn. destruct (j =? k); cbn; [f_equal|]; exact IH. }
    assert (Np : forall k o, nth_error os k = Some o -> exists p, nth_error ps k = Some p /\ prefix p (fst (content o))).
    { clear -Hps. induction Hps as [|p o ps os H1 H2 IH]; intros [|k] x E; try discriminate; [injection E as <-; now exists p|]. exact (IH k x E). }
    assert (Dd : forall k, 1 <= k < length os -> In k (disposed (w_log s1))).
    { intros k Hk. destruct P1 as [c P1]. rewrite P1. unfold disposed. rewrite flat_map_app. apply in_or_app. left. exact (sb_disp B Hk). }
    assert (F1 : sfollows script outer h1 s1).
    { split; [|split; [|split]].
      - intros l Hl. apply in_app_or in Hl as [Hl|Hl]; [exact (sb_cancel B Hl)|]. apply says_in in Hl as (k & n & ->). discriminate.
      - intros x Hl. apply in_app_or in Hl as [Hl|Hl]; [exact (sb_fails B x Hl)|]. apply says_in in Hl as (k & n & ?). discriminate.
      - rewrite O1. unfold trace. now eexists.
      - intros k o Hk. destruct (ssub_nth _ _ R1 Hk) as (j & -> & Ej). rewrite Sub1 in Ej. destruct (Np _ _ Ej) as (p & Ep & [c Pp]). rewrite (I1 _ _ Ep).
        unfold script_of, trace. rewrite Pp, map_app, <- app_assoc. now eexists. }
    destruct e as [|x|].
    - (* no end *)
      destruct He as (Hoe & Hnil & Hlast). destruct (sfinish R1 F1 Sub1 (or_introl O1) Dd) as (h' & s' & R' & F' & D' & [c P'] & q & Q & Hq).
      exists (h1 ++ h'), s'. split; [exact R'|]. split; [exact F'|]. split; [exact D'|].
      assert (Qc : forall n, In n q -> n = OnCompleted).
      { destruct os as [|o0 os'] eqn:Eos; [subst q; intros n []|]. rewrite <- Eos in *. destruct Q as (o & En & Es).
        assert (Lo : S (pred (length os)) = length os) by (rewrite Eos; reflexivity). destruct (Hlast _ o Lo En) as [Ep Nf].
        replace (inner_calls (length os) h1) with (inner_calls (S (pred (length os))) h1) in Es by (now rewrite Lo). rewrite (I1 _ _ Ep) in Es.
        unfold script_of, trace in Es. apply app_inv_head in Es. subst q. intros n Hn. destruct (snd (content o)) as [|x|] eqn:Ex; cbn in Hn; [contradiction|now elim (Nf x)|]. now destruct Hn as [<-|[]]. }
      assert (Pn : produced h' = []).
      { destruct (produced h') as [|n l] eqn:E; [reflexivity|]. exfalso. assert (Hn : In n (produced h')) by (rewrite E; now left).
        unfold produced in Hn. apply in_flat_map in Hn as (y & Hy & Hn). destruct y as [[o|z|]|k [a|z|]| | |z]; cbn in Hn; try contradiction.
        - assert (Z : In (OnError z) (outer_calls (h1 ++ h'))) by (apply in_outer, in_or_app; now right). rewrite (proj1 D') in Z. unfold trace in Z.
          apply in_app_or in Z as [Z|Z]; [apply in_map_iff in Z as (? & ? & _); discriminate|]. destruct oe as [|y|]; cbn in Z; try contradiction; destruct Z as [Z|[]]; try discriminate. now elim (Hoe y).
        - pose proof (Qc _ (Hq _ _ Hy)). discriminate.
        - pose proof (Qc _ (Hq _ _ Hy)). discriminate. }
      assert (Nc : ~ In OnCompleted (requests (w_log s'))).
      { intros X. destruct os as [|o0 os'] eqn:Eos.
        - pose proof (s_completes_only_if R' (sno_cancel content _ _ F') X) as Lo. apply in_outer in Lo. rewrite (proj1 D'), (Hnil eq_refl) in Lo. exact Lo.
        - rewrite <- Eos in *. apply (s_never_completes R' (sno_cancel content _ _ F') (sgram content _ _ F')); [|exact X]. rewrite (sarrived_all content os oe D'), Eos. discriminate. }
      replace (requests (w_log s')) with (map OnNext vs); [apply upto_open|].
      assert (Fl : forall l : list (notif A), ~ In OnCompleted l -> filter (fun n => match n with OnCompleted => false | _ => true end) l = l).
      { intros l Hl. apply filter_eq_all. intros [a|z|] Hn; auto; contradiction. }
      rewrite <- (Fl _ Nc), (s_forwards R'). unfold produced. rewrite flat_map_app. fold (produced h1). fold (produced h'). rewrite Pn, app_nil_r, <- (s_forwards R1), Rq. symmetry. apply Fl.
      intros X. apply in_map_iff in X as (? & ? & _). discriminate.
    - (* an error *)
      assert (Fin : forall h2 s2, sreach h2 s2 -> sfollows script outer h2 s2 -> subscribed (w_log s2) = os -> (outer_calls h2 = map OnNext os \/ outer_calls h2 = outer) ->
        (forall k, 1 <= k < length os -> In k (disposed (w_log s2))) -> requests (w_log s2) = map OnNext vs ++ [OnError x] ->
        exists h s, sreach h s /\ sfollows script outer h s /\ sfinished script outer h s /\ upto_terminal (requests (w_log s)) = trace vs (Failed x)).
      { intros h2 s2 R2 F2 U2 O2 D2 Q2. destruct (sfinish R2 F2 U2 O2 D2) as (h' & s' & R' & F' & D' & [c P'] & _). exists (h2 ++ h'), s'. split; [exact R'|]. split; [exact F'|]. split; [exact D'|].
        rewrite P'. unfold requests. rewrite flat_map_app. fold (requests (w_log s2)). rewrite Q2, <- app_assoc. apply upto_failed. }
      pose proof F1 as (G1 & G2 & G3 & G4).
      destruct He as [Eoe|(k & o & Ek & Ex & Ep)].
      + apply (Fin (h1 ++ [LOuter (OnError x)]) (semit (EReq (OnError x)) s1)).
        * exact (sr_snoc _ R1 (eq_refl : sstep s1 (LOuter (OnError x)) = _)).
        * assert (O2 : outer_calls (h1 ++ [LOuter (OnError x)]) = outer) by (rewrite souter_app, O1, Eoe; reflexivity).
          split; [|split; [|split]].
          -- intros l Hl. apply in_app_or in Hl as [Hl|[<-|[]]]; [exact (G1 _ Hl)|discriminate].
          -- intros z Hl. apply in_app_or in Hl as [Hl|[Hl|[]]]; [exact (G2 z Hl)|discriminate].
          -- rewrite O2. apply prefix_refl.
          -- intros k o Hk. cbn in Hk. apply in_app_or in Hk as [Hk|[Hk|[]]]; [|discriminate]. rewrite inner_app. replace (inner_calls k [LOuter (OnError x)]) with (@nil (notif A)) by reflexivity. rewrite app_nil_r. exact (G4 k o Hk).
        * cbn. unfold subscribed. rewrite flat_map_app. fold (subscribed (w_log s1)). rewrite Sub1. apply app_nil_r.
        * right. rewrite souter_app, O1, Eoe. reflexivity.
        * intros k Hk. cbn. unfold disposed. rewrite flat_map_app. apply in_or_app. left. exact (Dd k Hk).
        * cbn. unfold requests. rewrite flat_map_app. fold (requests (w_log s1)). now rewrite Rq.
      + assert (Hk : In (ESub (S k) o) (w_log s1)) by (apply (snth_sub _ R1); now rewrite Sub1).
        apply (Fin (h1 ++ [LInner (S k) (OnError x)]) (semit (EReq (OnError x)) s1)).
        * apply (sr_snoc _ R1). cbn. now rewrite (keys_sbegun _ _ _ Hk).
        * split; [|split; [|split]].
          -- intros l Hl. apply in_app_or in Hl as [Hl|[<-|[]]]; [exact (G1 _ Hl)|discriminate].
          -- intros z Hl. apply in_app_or in Hl as [Hl|[Hl|[]]]; [exact (G2 z Hl)|discriminate].
          -- rewrite souter_app. cbn. rewrite app_nil_r. exact G3.
          -- intros j p Hj. cbn in Hj. apply in_app_or in Hj as [Hj|[Hj|[]]]; [|discriminate]. rewrite inner_app. unfold inner_calls at 2. cbn.
             destruct j as [|j]; [destruct (ssub_nth _ _ R1 Hj) as (i & ? & _); discriminate|]. destruct (Nat.eqb_spec k j) as [<-|N].
             ++ assert (p = o) as -> by (exact (ssub_unique _ _ _ R1 Hj Hk)). cbn. rewrite (I1 _ _ Ep). unfold script_of, trace. rewrite Ex. apply prefix_refl.
             ++ cbn. rewrite app_nil_r. exact (G4 _ _ Hj).
        * cbn. unfold subscribed. rewrite flat_map_app. fold (subscribed (w_log s1)). rewrite Sub1. apply app_nil_r.
        * left. rewrite souter_app. cbn. rewrite app_nil_r. exact O1.
        * intros j Hj. cbn. unfold disposed. rewrite flat_map_app. apply in_or_app. left. exact (Dd j Hj).
        * cbn. unfold requests. rewrite flat_map_app. fold (requests (w_log s1)). now rewrite Rq.
    - (* completion *)
      destruct He as [Eos Eoe]. destruct (sfinish R1 F1 Sub1 (or_introl O1) Dd) as (h' & s' & R' & F' & D' & _). exists (h1 ++ h'), s'. split; [exact R'|]. split; [exact F'|]. split; [exact D'|].
      destruct (switch_any content os oe R' F' D') as (ps' & ws & e & Eu & _ & Fp & I' & E'). rewrite Eu.
      assert (Nil : forall (ps : list (list A)) ws, ps = [] -> interleaves ps ws -> ws = []).
      { clear. intros ps ws -> (t & <- & L & _). destruct t as [|p t]; [reflexivity|]. specialize (L p (or_introl eq_refl)). cbn in L. lia. }
      assert (Eps : ps = []) by (rewrite Eos in Lps; destruct ps; [reflexivity|discriminate]).
      assert (Eps' : ps' = []) by (rewrite Eos in Fp; inversion Fp; reflexivity).
      rewrite (Nil _ _ Eps' I'). assert (vs = []) as -> by (apply (Nil ps); [exact Eps|exists t; auto]). f_equal.
      destruct e as [|x|]; [|exfalso|reflexivity].
      + destruct E' as (_ & E' & _). rewrite (E' Eos) in Eoe. discriminate.
      + destruct E' as [E'|(k & o & E' & _)]; [congruence|]. rewrite Eos in E'. destruct k; discriminate.
  Qed.
End SAll.
