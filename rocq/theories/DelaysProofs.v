(** * Proofs about chains of delays. *)
From Verif Require Export Delays TimeProofs.
Set Implicit Arguments.
Local Open Scope Z_scope.

Section Hist.
  Context {A : Type}.
  Variables (pr nc : Prop).

  Definition tick_ok (x : xstate A) (l : xlabel A) : Prop :=
    match l with
    | XTick dt => xwork x = None /\ match x_phase x with XSleep _ u => x_now x + dt <= u | XCall _ => False | _ => True end
    | _ => True
    end.

  Record hist (d t0 : Z) (h : list (xlabel A)) (x : xstate A) (arrs : list (notif A * Z)) : Prop := Hist {
    hi_reach : xreach d t0 h x;
    hi_arr : arrivals t0 h = arrs;
    hi_prompt : pr -> instantaneous d t0 h;
    hi_cancel : nc -> ~ In XCancel h
  }.

  Lemma instantaneous_grow d t0 (h : list (xlabel A)) x l : xreach d t0 h x -> instantaneous d t0 h -> tick_ok x l -> instantaneous d t0 (h ++ [l]).
  Proof.
    intros R [P I] T.
    assert (S : forall h1 dt h2 s1, h ++ [l] = h1 ++ XTick dt :: h2 -> xreach d t0 h1 s1 ->
      (l = XTick dt /\ s1 = x) \/ exists h2', h = h1 ++ XTick dt :: h2').
    { intros h1 dt h2 s1 E R1. destruct h2 as [|y h2 _] using rev_ind.
      - apply app_inj_tail in E as [<- ->]. left. split; [reflexivity|]. exact (xreach_det R1 R).
      - right. rewrite app_comm_cons, app_assoc in E. apply app_inj_tail in E as [-> _]. now exists h2. }
    split.
    - intros h1 dt h2 s1 E R1. destruct (S _ _ _ _ E R1) as [[-> ->]|[h2' E']].
      + destruct T as [T1 T2]. split; [exact T1|]. destruct (x_phase x); auto.
      + exact (P _ _ _ _ E' R1).
    - intros h1 dt h2 s1 n E R1 F. destruct (S _ _ _ _ E R1) as [[-> ->]|[h2' E']].
      + destruct T as [T1 T2]. now rewrite F in T2.
      + exact (I _ _ _ _ n E' R1 F).
  Qed.

  Lemma xnow_elapsed d t0 h (x : xstate A) : xreach d t0 h x -> x_now x = t0 + elapsed h.
  Proof. intros R. destruct (xi_reach R) as (D & B & X). exact (xi_now X). Qed.

  Lemma hist_step d t0 h x arrs l x' : hist d t0 h x arrs -> xstep d x l = Some x' -> (pr -> tick_ok x l) -> (nc -> l <> XCancel) ->
    hist d t0 (h ++ [l]) x' (arrs ++ match l with XArr n => [(n, x_now x)] | _ => [] end).
  Proof.
    intros [R Ea Hp Hc] E T N. constructor.
    - econstructor; eassumption.
    - rewrite arrivals_snoc, Ea, (xnow_elapsed R). reflexivity.
    - intros p. exact (@instantaneous_grow d t0 h x l R (Hp p) (T p)).
    - intros c F. apply in_app_iff in F as [F|[F|[]]]; [exact (Hc c F)|exact (N c F)].
  Qed.

  (** What the stages have done, one behind the other. *)
  Fixpoint linked (t0 now : Z) (ls : list (link A)) (xs : list (xstate A)) (arrs : list (notif A * Z)) : Prop :=
    match ls, xs with
    | [], [] => True
    | (f, d) :: ls', x :: xs' => x_now x = now /\ (exists h, hist d t0 h x (sifted f arrs)) /\ linked t0 now ls' xs' (x_log x)
    | _, _ => False
    end.

  Lemma sifted_app (f : A -> option A) a b : sifted f (a ++ b) = sifted f a ++ sifted f b.
  Proof. apply flat_map_app. Qed.
  Lemma sifted_one (f : A -> option A) n t : sifted f [(n, t)] = match sift f n with Some m => [(m, t)] | None => [] end.
  Proof. destruct n as [a|e|]; cbn; [|reflexivity..]. now destruct (f a). Qed.

  Lemma linked_init t0 ls : linked t0 t0 ls (map (fun _ => x_init t0) ls) [].
  Proof.
    induction ls as [|[f d] ls IH]; cbn; [exact I|]. split; [reflexivity|]. split; [|exact IH]. exists []. constructor; auto; [constructor|].
    intros _. split; intros [|] ? ? ?; discriminate.
  Qed.

  Lemma linked_tick t0 now ls dt : 0 < dt -> forall xs arrs, linked t0 now ls xs arrs -> (pr -> Forall (fun x => tick_ok x (XTick dt)) xs) ->
    linked t0 (now + dt) ls (map (ticks_on dt) xs) arrs.
  Proof.
    intros Hd. induction ls as [|[f d] ls IH]; intros [|x xs] arrs L T; try easy. destruct L as (En & [h H] & L). split; [cbn; lia|]. split.
    - exists (h ++ [XTick dt]). assert (S : xstep d x (XTick dt) = Some (ticks_on dt x)) by (cbn; apply Z.ltb_lt in Hd; now rewrite Hd).
      pose proof (hist_step H S) as G. cbn in G. rewrite app_nil_r in G. apply G; [|discriminate]. intros p. exact (Forall_inv (T p)).
    - apply IH; [exact L|]. intros p. exact (Forall_inv_tail (T p)).
  Qed.

  Lemma linked_cancel t0 now ls : ~ nc -> forall xs arrs, linked t0 now ls xs arrs -> linked t0 now ls (map cancels xs) arrs.
  Proof.
    intros N. induction ls as [|[f d] ls IH]; intros [|x xs] arrs L; try easy. destruct L as (En & [h H] & L). split; [exact En|]. split.
    - exists (h ++ [XCancel]). assert (S : xstep d x XCancel = Some (cancels x)) by reflexivity.
      pose proof (hist_step H S) as G. cbn in G. rewrite app_nil_r in G. apply G; auto.
    - apply IH. exact L.
  Qed.

  Lemma linked_feed t0 now ls xs arrs n : linked t0 now ls xs arrs -> linked t0 now ls (feed ls xs n) (arrs ++ [(n, now)]).
  Proof.
    destruct ls as [|[f d] ls], xs as [|x xs]; try easy. intros (En & [h H] & L). cbn [feed]. unfold linked. fold linked. rewrite sifted_app, sifted_one.
    destruct (sift f n) as [m|].
    - split; [exact En|]. split; [|exact L]. exists (h ++ [XArr m]). assert (S : xstep d x (XArr m) = Some (post d m x)) by reflexivity.
      pose proof (hist_step H S) as G. cbn in G. rewrite <- En. apply G; [intros _; exact I|discriminate].
    - split; [exact En|]. split; [|exact L]. rewrite app_nil_r. eauto.
  Qed.

  Lemma xwork_log (x x' : xstate A) : xwork x = Some x' -> x_now x' = x_now x /\
    x_log x' = x_log x ++ match x_phase x' with XCall n => [(n, x_now x)] | _ => [] end.
  Proof.
    unfold xwork, x_begin. destruct (x_phase x) as [|n u|n| |]; try discriminate.
    - destruct (x_cancelled x); [intros E; injection E as <-; cbn; now rewrite app_nil_r|]. destruct (x_box x) as [|[n due] r]; [discriminate|].
      destruct (0 <? due - x_now x); intros E; injection E as <-; cbn; rewrite ?app_nil_r; auto.
    - destruct (u <=? x_now x); [|discriminate]. intros E; injection E as <-; cbn; auto.
  Qed.

  Lemma linked_work t0 now : forall ls i xs arrs xs', linked t0 now ls xs arrs -> work i ls xs = Some xs' -> linked t0 now ls xs' arrs.
  Proof.
    induction ls as [|[f d] ls IH]; intros i [|x xs] arrs xs' L E; try easy.
    - destruct i; discriminate.
    - destruct L as (En & [h H] & L). destruct i as [|i]; cbn [work] in E.
      + destruct (xwork x) as [x'|] eqn:Ew; [|discriminate]. destruct (@xwork_log x x' Ew) as [E1 E2].
        pose proof (@hist_step d t0 h x _ XWork x' H Ew (fun _ => I) ltac:(discriminate)) as G. cbn in G. rewrite app_nil_r in G.
        assert (K : linked t0 now ls xs (x_log x') -> linked t0 now ((f, d) :: ls) (x' :: xs) arrs) by (intros L'; split; [congruence|]; split; [eauto|exact L']).
        destruct (x_phase x') as [|n u|n| |] eqn:Ep; try (rewrite app_nil_r in E2; injection E as <-; apply K; now rewrite E2).
        destruct ls as [|k ls].
        * injection E as <-. apply K. now destruct xs.
        * injection E as <-. unfold linked; fold linked. split; [cbn; congruence|]. split.
          -- exists ((h ++ [XWork]) ++ [XReturn]). assert (S : xstep d x' XReturn = Some (goes_on x')) by (cbn; now rewrite Ep).
             pose proof (@hist_step d t0 _ x' _ XReturn _ G S (fun _ => I) ltac:(discriminate)) as G'. cbn in G'. now rewrite app_nil_r in G'.
          -- cbn [goes_on x_log]. rewrite E2, En. exact (@linked_feed t0 now (k :: ls) _ _ n L).
      + destruct (work i ls xs) as [r|] eqn:Ew; [|discriminate]. injection E as <-. split; [exact En|]. split; [eauto|]. exact (IH i xs _ r L Ew).
  Qed.

  Lemma linked_last t0 now l : (l = XReturn \/ exists e, l = XRaise e) -> forall ls xs arrs xs', linked t0 now ls xs arrs -> at_last ls xs l = Some xs' -> linked t0 now ls xs' arrs.
  Proof.
    intros Hl. induction ls as [|[f d] ls IH]; intros [|x xs] arrs xs' L E; try easy.
    - destruct L as (En & [h H] & L). destruct ls as [|k ls].
      + destruct xs; [|destruct L]. cbn in E. destruct (xstep d x l) as [x'|] eqn:Es; [|discriminate]. injection E as <-.
        split; [|split; [|exact I]].
        * rewrite <- En. destruct Hl as [->|[e ->]]; cbn in Es; destruct (x_phase x); try discriminate; now injection Es as <-.
        * exists (h ++ [l]). pose proof (hist_step H Es) as G. destruct Hl as [->|[e ->]]; rewrite app_nil_r in G; (apply G; [intros _; exact I|discriminate]).
      + change (match at_last (k :: ls) xs l with Some r => Some (x :: r) | None => None end = Some xs') in E.
        destruct (at_last (k :: ls) xs l) as [r|] eqn:Ea; [|discriminate]. injection E as <-.
        split; [exact En|]. split; [eauto|]. exact (IH xs _ r L Ea).
  Qed.
End Hist.

Definition dnow {A} (t : Z) (h : list (dlabel A)) : Z := fold_left (fun t l => match l with DTick dt => t + dt | _ => t end) h t.
Lemma calls_at_snoc A (h : list (dlabel A)) l : forall t, calls_at t (h ++ [l]) = calls_at t h ++ match l with DArr n => [(n, dnow t h)] | _ => [] end.
Proof.
  induction h as [|y h IH]; intros t; [destruct l; reflexivity|]. destruct y; cbn; rewrite ?IH; reflexivity.
Qed.
Lemma dnow_snoc A (h : list (dlabel A)) l t : dnow t (h ++ [l]) = match l with DTick dt => dnow t h + dt | _ => dnow t h end.
Proof. unfold dnow. now rewrite fold_left_app. Qed.

Lemma dreach_linked A (ok : list (xstate A) -> dlabel A -> Prop) (pr nc : Prop) ls t0 h xs : dreach ok ls t0 h xs ->
  (pr -> forall ys l, ok ys l -> prompt ys l) -> (nc -> ~ In DCancel h) -> linked pr nc t0 (dnow t0 h) ls xs (calls_at t0 h).
Proof.
  intros R Hp. induction R as [|h xs l xs' R IH O E]; intros Hc; [apply linked_init|].
  assert (L : linked pr nc t0 (dnow t0 h) ls xs (calls_at t0 h)) by (apply IH; intros c F; apply (Hc c), in_or_app; now left).
  rewrite calls_at_snoc, dnow_snoc. destruct l as [dt|n|i| |e|]; cbn [dstep] in E; rewrite ?app_nil_r.
  - destruct (0 <? dt) eqn:Ed; [|discriminate]. apply Z.ltb_lt in Ed. injection E as <-. apply linked_tick; [exact Ed|exact L|]. intros p. exact (Hp p _ _ O).
  - injection E as <-. now apply linked_feed.
  - exact (@linked_work _ _ _ _ _ _ _ _ _ _ L E).
  - eapply linked_last; [|exact L|exact E]. now left.
  - eapply linked_last; [|exact L|exact E]. right. now exists e.
  - injection E as <-. apply linked_cancel; [|exact L]. intros c. apply (Hc c), in_or_app. right. now left.
Qed.

(** ** Consequences *)
Section Spec.
  Context {A : Type}.
  Notation calls := (list (notif A * Z)).

  Lemma through_app (ls : list (link A)) : forall a b, through ls (a ++ b) = through ls a ++ through ls b.
  Proof. induction ls as [|k ls IH]; intros a b; cbn; [reflexivity|]. rewrite sifted_app. apply IH. Qed.

  Definition after (c : Z) (x y : notif A * Z) : Prop := fst x = fst y /\ snd y + c <= snd x.
  Lemma sifted_after (f : A -> option A) c a b : Forall2 (after c) a b -> Forall2 (after c) (sifted f a) (sifted f b).
  Proof.
    induction 1 as [|[n t] [n' t'] a b [E1 E2] _ IH]; [constructor|]. cbn in *. subst n'. destruct n as [v|e|]; [destruct (f v); [|exact IH]|..]; (constructor; [|exact IH]; split; [reflexivity|exact E2]).
  Qed.
  Lemma through_after (ls : list (link A)) c : forall a b, Forall2 (after c) a b -> Forall2 (after c) (through ls a) (through ls b).
  Proof. induction ls as [|k ls IH]; intros a b F; cbn; [exact F|]. apply IH, sifted_after, F. Qed.
  Lemma sifted_later (f : A -> option A) c a : sifted f (later c a) = later c (sifted f a).
  Proof.
    induction a as [|[n t] a IH]; [reflexivity|]. unfold sifted, later in *. cbn [map flat_map fst snd]. rewrite IH. destruct n as [v|e|]; [destruct (f v)|..]; reflexivity.
  Qed.
  Lemma through_later (ls : list (link A)) c : forall a, through ls (later c a) = later c (through ls a).
  Proof. induction ls as [|k ls IH]; intros a; [reflexivity|]. unfold through in *. cbn [fold_left]. now rewrite sifted_later, IH. Qed.
  Lemma sifted_fst (f : A -> option A) (a b : calls) : map fst a = map fst b -> map fst (sifted f a) = map fst (sifted f b).
  Proof.
    revert b. induction a as [|[n t] a IH]; intros [|[n' t'] b] E; try discriminate; [reflexivity|]. injection E as <- E. specialize (IH b E). unfold sifted in *. cbn [flat_map fst snd]. rewrite !map_app, IH.
    destruct n as [v|e|]; [destruct (f v)|..]; reflexivity.
  Qed.
  Lemma through_fst (ls : list (link A)) : forall a b, map fst a = map fst b -> map fst (through ls a) = map fst (through ls b).
  Proof. induction ls as [|k ls IH]; intros a b E; cbn; [exact E|]. now apply IH, sifted_fst. Qed.

  Lemma forall2_split (P : notif A * Z -> notif A * Z -> Prop) a b r : Forall2 P (a ++ b) r -> exists r1 r2, r = r1 ++ r2 /\ Forall2 P a r1.
  Proof.
    revert r. induction a as [|x a IH]; intros r F; [exists [], r; auto|]. inversion F as [|? y ? r' Hx F']. subst. destruct (IH r' F') as (r1 & r2 & -> & G).
    exists (y :: r1), r2. auto.
  Qed.
  Lemma after_trans c d a b r : Forall2 (after c) a b -> Forall2 (after d) b r -> Forall2 (after (d + c)) a r.
  Proof.
    intros F. revert r. induction F as [|x y a b [E1 E2] _ IH]; intros r G; inversion G as [|? z ? r' [E3 E4] G']; subst; [constructor|].
    constructor; [|auto]. split; [congruence|lia].
  Qed.

  Lemma linked_early pr nc t0 now : forall ls xs (arrs : calls), linked pr nc t0 now ls xs arrs ->
    exists D rest, through ls arrs = D ++ rest /\ Forall2 (after (total ls)) (told_at xs) D.
  Proof.
    induction ls as [|[f d] ls IH]; intros [|x xs] arrs L; try easy; [exists [], (through [] arrs); split; [reflexivity|constructor]|].
    destruct L as (_ & [h H] & L). destruct (x_never_early (hi_reach H)) as (D & rest & E & F). rewrite (hi_arr H) in E.
    assert (F' : Forall2 (after (Z.max 0 d)) (x_log x) D) by exact F. cbn [through fold_left fst total fold_right snd]. fold (total ls). fold (through ls (sifted f arrs)). rewrite E, through_app.
    destruct ls as [|k ls].
    - destruct xs; [|destruct L]. exists D, rest. split; [reflexivity|]. cbn. now rewrite Z.add_0_r.
    - destruct (IH xs (x_log x) L) as (D2 & rest2 & E2 & F2). pose proof (@through_after (k :: ls) _ _ _ F') as G. rewrite E2 in G.
      destruct (forall2_split _ _ G) as (r1 & r2 & Er & G1). exists r1, (r2 ++ through (k :: ls) rest). split; [rewrite Er, <- app_assoc; reflexivity|].
      destruct xs as [|y xs]; [destruct k; destruct L|]. cbn [told_at]. exact (after_trans F2 G1).
  Qed.

  Lemma linked_exact (nc : Prop) t0 now : forall ls xs (arrs : calls), linked True nc t0 now ls xs arrs ->
    prefix (told_at xs) (later (total ls) (through ls arrs)).
  Proof.
    induction ls as [|[f d] ls IH]; intros [|x xs] arrs L; try easy; [apply prefix_nil|].
    destruct L as (_ & [h H] & L). pose proof (x_instantaneous (hi_reach H) (hi_prompt H I)) as E. rewrite (hi_arr H) in E. fold (later (Z.max 0 d) (firstn (length (x_log x)) (sifted f arrs))) in E.
    cbn [through fold_left fst total fold_right snd]. fold (total ls). fold (through ls (sifted f arrs)).
    assert (P : prefix (through ls (x_log x)) (later (Z.max 0 d) (through ls (sifted f arrs)))).
    { rewrite <- through_later. exists (through ls (later (Z.max 0 d) (skipn (length (x_log x)) (sifted f arrs)))). rewrite E at 1. rewrite <- through_app. unfold later. now rewrite <- map_app, firstn_skipn. }
    destruct ls as [|k ls].
    - destruct xs; [|destruct L]. cbn. rewrite Z.add_0_r. exact P.
    - specialize (IH xs _ L). destruct xs as [|y xs]; [destruct k; destruct L|]. cbn [told_at]. eapply prefix_trans; [exact IH|]. destruct P as [q Q].
      exists (later (total (k :: ls)) q). replace (Z.max 0 d + total (k :: ls)) with (Z.max 0 d + total (k :: ls)) by lia.
      assert (T : forall a b (l : calls), later b (later a l) = later (a + b) l) by (intros a b l; unfold later; rewrite map_map; apply map_ext; intros [n t]; cbn; f_equal; lia).
      rewrite <- T, Q. unfold later. now rewrite map_app.
  Qed.

  Lemma linked_all (pr : Prop) t0 now : forall ls xs (arrs : calls), ls <> [] -> linked pr True t0 now ls xs arrs -> all_waiting xs ->
    map fst (told_at xs) = map fst (through ls arrs).
  Proof.
    induction ls as [|[f d] ls IH]; intros [|x xs] arrs N L W; try easy.
    destruct L as (_ & [h H] & L). destruct (Forall_inv W) as [W1 W2]. pose proof (x_all (hi_reach H) (hi_cancel H I) W1 W2) as E. rewrite (hi_arr H) in E.
    cbn [through fold_left fst]. fold (through ls (sifted f arrs)). destruct ls as [|k ls].
    - destruct xs; [exact E|destruct L].
    - destruct xs as [|y xs]; [destruct k; destruct L|]. change (told_at (x :: y :: xs)) with (told_at (y :: xs)). rewrite (IH (y :: xs) (x_log x) ltac:(discriminate) L (Forall_inv_tail W)). apply through_fst, E.
  Qed.
End Spec.

(** ** Everything arrives *)
Section Live.
  Context {A : Type}.
  Local Open Scope nat_scope.

  Definition alive (last : Prop) (x : xstate A) : Prop :=
    x_cancelled x = false /\ match x_phase x with XIdle | XSleep _ _ => True | XCall _ => last | _ => False end.
  Fixpoint live (ls : list (link A)) (xs : list (xstate A)) : Prop :=
    match ls, xs with
    | [], [] => True
    | _ :: ls', x :: xs' => alive (ls' = []) x /\ live ls' xs'
    | _, _ => False
    end.
  Fixpoint left (ls : list (link A)) (xs : list (xstate A)) : nat :=
    match ls, xs with
    | _ :: ls', x :: xs' =>
        3 * S (length ls') * length (x_box x) +
        match x_phase x with XSleep _ _ => 3 * S (length ls') - 1 | XCall _ => 1 | _ => 0 end + left ls' xs'
    | _, _ => 0
    end.

  Ltac weigh := cbn [feed length] in *; rewrite ?Nat.mul_succ_r, ?Nat.mul_0_r in *; lia.

  Lemma left_cons k ls x xs : left (k :: ls) (x :: xs) = 3 * S (length ls) * length (x_box x) +
        match x_phase x with XSleep _ _ => 3 * S (length ls) - 1 | XCall _ => 1 | _ => 0 end + left ls xs.
  Proof. reflexivity. Qed.

  Lemma live_init t0 (ls : list (link A)) : live ls (map (fun _ => x_init t0) ls).
  Proof. induction ls; cbn; auto. repeat split. assumption. Qed.

  Lemma live_feed (ls : list (link A)) xs n : live ls xs -> live ls (feed ls xs n) /\ left ls (feed ls xs n) <= left ls xs + 3 * length ls.
  Proof.
    destruct ls as [|[f d] ls], xs as [|x xs]; try easy. intros [[H1 H2] L]. cbn [feed]. destruct (sift f n) as [m|].
    - split; [split; [split; [exact H1|exact H2]|exact L]|]. cbn [left post x_box x_phase length]. rewrite app_length. weigh.
    - split; [split; [split; [exact H1|exact H2]|exact L]|]. lia.
  Qed.

  Lemma live_work : forall (ls : list (link A)) i xs xs', live ls xs -> work i ls xs = Some xs' -> live ls xs' /\ left ls xs' < left ls xs.
  Proof.
    induction ls as [|[f d] ls IH]; intros i [|x xs] xs' L E; try easy; [destruct i; discriminate|]. destruct L as [[H1 H2] L]. destruct i as [|i]; cbn [work] in E.
    - unfold xwork, x_begin in E. rewrite H1 in E. destruct (x_phase x) as [|n u|n| |] eqn:Ep; try discriminate; try contradiction.
      + destruct (x_box x) as [|[n due] r] eqn:Eb; [discriminate|]. destruct (0 <? due - x_now x)%Z.
        * cbn [x_phase] in E. injection E as <-. split; [split; [now split|exact L]|]. cbn [left x_box x_phase length]. rewrite Ep, Eb. weigh.
        * cbn [x_phase] in E. destruct ls as [|k ls].
          -- injection E as <-. split; [split; [now split|exact L]|]. cbn [left x_box x_phase length]. rewrite Ep, Eb. weigh.
          -- injection E as <-. destruct (@live_feed (k :: ls) xs n L) as [L' M]. split; [split; [now split|exact L']|]. rewrite (left_cons _ (k :: ls) (goes_on _)), (left_cons _ (k :: ls) x).
             cbn [goes_on x_box x_phase]. rewrite Ep, Eb. weigh.
      + destruct (u <=? x_now x)%Z; [|discriminate]. cbn [x_phase] in E. destruct ls as [|k ls].
        * injection E as <-. split; [split; [now split|exact L]|]. cbn [left x_box x_phase length]. rewrite Ep. weigh.
        * injection E as <-. destruct (@live_feed (k :: ls) xs n L) as [L' M]. split; [split; [now split|exact L']|]. rewrite (left_cons _ (k :: ls) (goes_on _)), (left_cons _ (k :: ls) x).
          cbn [goes_on x_box x_phase]. rewrite Ep. weigh.
    - destruct (work i ls xs) as [r|] eqn:Ew; [|discriminate]. injection E as <-. destruct (IH i xs r L Ew) as [L' M]. split; [split; [now split|exact L']|]. cbn [left]. lia.
  Qed.

  Lemma live_return : forall (ls : list (link A)) xs xs', live ls xs -> at_last ls xs XReturn = Some xs' -> live ls xs' /\ left ls xs' < left ls xs.
  Proof.
    induction ls as [|[f d] ls IH]; intros [|x xs] xs' L E; try easy. destruct L as [[H1 H2] L]. destruct ls as [|k ls].
    - destruct xs; [|destruct L]. cbn in E. destruct (x_phase x) eqn:Ep; try discriminate. injection E as <-. split; [split; [now split|exact I]|]. cbn. rewrite Ep. lia.
    - change (match at_last (k :: ls) xs XReturn with Some r => Some (x :: r) | None => None end = Some xs') in E.
      destruct (at_last (k :: ls) xs XReturn) as [r|] eqn:Ea; [|discriminate]. injection E as <-. destruct (IH xs r L Ea) as [L' M]. split; [split; [now split|exact L']|].
      change (left ((f, d) :: k :: ls) (x :: r)) with (3 * S (length (k :: ls)) * length (x_box x) + match x_phase x with XSleep _ _ => 3 * S (length (k :: ls)) - 1 | XCall _ => 1 | _ => 0 end + left (k :: ls) r).
      change (left ((f, d) :: k :: ls) (x :: xs)) with (3 * S (length (k :: ls)) * length (x_box x) + match x_phase x with XSleep _ _ => 3 * S (length (k :: ls)) - 1 | XCall _ => 1 | _ => 0 end + left (k :: ls) xs). lia.
  Qed.

  Lemma live_tick dt : forall (ls : list (link A)) xs, live ls xs -> live ls (map (ticks_on dt) xs) /\ left ls (map (ticks_on dt) xs) = left ls xs.
  Proof.
    induction ls as [|k ls IH]; intros [|x xs] L; try easy. destruct L as [H L]. destruct (IH xs L) as [L' M]. split; [split; [exact H|exact L']|]. cbn [left map]. rewrite M. reflexivity.
  Qed.

  Lemma can_work : forall (ls : list (link A)) xs x, live ls xs -> In x xs -> xwork x <> None -> exists i xs', work i ls xs = Some xs'.
  Proof.
    induction ls as [|[f d] ls IH]; intros [|y xs] x L F W; try easy. destruct L as [_ L]. destruct F as [->|F].
    - exists 0. cbn [work]. destruct (xwork x) as [x'|]; [|easy]. destruct (x_phase x'), ls; eauto.
    - destruct (IH xs x L F W) as (i & r & E). exists (S i), (y :: r). cbn [work]. now rewrite E.
  Qed.

  Lemma can_return : forall (ls : list (link A)) xs x n, live ls xs -> In x xs -> x_phase x = XCall n -> exists xs', at_last ls xs XReturn = Some xs'.
  Proof.
    induction ls as [|[f d] ls IH]; intros [|y xs] x n L F W; try easy. destruct L as [[_ H] L]. destruct F as [->|F].
    - rewrite W in H. subst ls. destruct xs; [|destruct L]. cbn. rewrite W. eauto.
    - destruct (IH xs x n L F W) as (r & E). exists (y :: r). destruct ls as [|k ls]; [destruct xs; [destruct F|destruct L]|].
      change (match at_last (k :: ls) xs XReturn with Some r => Some (y :: r) | None => None end = Some (y :: r)). now rewrite E.
  Qed.

  Lemma earliest (xs : list (xstate A)) : (exists x n u, In x xs /\ x_phase x = XSleep n u) ->
    exists x n u, In x xs /\ x_phase x = XSleep n u /\ Forall (fun y => match x_phase y with XSleep _ v => (u - x_now x <= v - x_now y)%Z | _ => True end) xs.
  Proof.
    induction xs as [|y xs IH]; intros (x & n & u & F & E); [destruct F|].
    assert (G : (exists x n u, In x xs /\ x_phase x = XSleep n u) \/ forall x n u, In x xs -> x_phase x <> XSleep n u).
    { clear. induction xs as [|z xs IH]; [right; intros ? ? ? []|]. destruct IH as [(x & n & u & F & E)|H]; [left; exists x, n, u; split; [now right|exact E]|].
      destruct (x_phase z) as [|m v|m| |] eqn:Ez; try (right; intros x n u [->|F]; [congruence|now apply H]). left. exists z, m, v. split; [now left|exact Ez]. }
    destruct (x_phase y) as [|m v|m| |] eqn:Ey.
    2: { destruct G as [G|G].
         - destruct (IH G) as (x' & n' & u' & F' & E' & M). destruct (Z.le_gt_cases (u' - x_now x') (v - x_now y)) as [Hl|Hl].
           + exists x', n', u'. split; [now right|]. split; [exact E'|]. constructor; [now rewrite Ey|exact M].
           + exists y, m, v. split; [now left|]. split; [exact Ey|]. constructor; [rewrite Ey; lia|]. eapply Forall_impl; [|exact M]. intros z Hz. cbn in Hz. destruct (x_phase z); auto. lia.
         - exists y, m, v. split; [now left|]. split; [exact Ey|]. constructor; [rewrite Ey; lia|]. apply Forall_forall. intros z Hz. destruct (x_phase z) eqn:Ez; auto. now elim (G _ _ _ Hz Ez). }
    all: destruct F as [->|F]; [congruence|]; destruct (IH (ex_intro _ x (ex_intro _ n (ex_intro _ u (conj F E))))) as (x' & n' & u' & F' & E' & M);
      exists x', n', u'; (split; [now right|]); (split; [exact E'|]); constructor; [now rewrite Ey|exact M].
  Qed.

  Definition own (l : dlabel A) : Prop := match l with DTick _ | DWork _ | DReturn => True | _ => False end.

  Lemma live_drains (ok : list (xstate A) -> dlabel A -> Prop) ls t0 : (forall ys l, prompt ys l -> ok ys l) -> forall k xs h, left ls xs <= k -> live ls xs -> dreach ok ls t0 h xs ->
    exists h' xs', Forall own h' /\ dreach ok ls t0 (h ++ h') xs' /\ all_waiting xs'.
  Proof.
    intros Hok. induction k as [k IH] using lt_wf_ind. intros xs h Hk L R.
    assert (Go : forall l xs', own l -> prompt xs l -> dstep ls xs l = Some xs' -> live ls xs' -> left ls xs' < left ls xs -> exists h' xs', Forall own h' /\ dreach ok ls t0 (h ++ h') xs' /\ all_waiting xs').
    { intros l xs' Ho Hp E L' M. destruct (IH (left ls xs') ltac:(lia) xs' (h ++ [l]) ltac:(lia) L' (@dl_snoc _ _ _ _ _ _ _ _ R (Hok _ _ Hp) E)) as (h' & ys & F & R' & W).
      exists (l :: h'), ys. split; [now constructor|]. split; [|exact W]. now rewrite <- app_assoc in R'. }
    assert (D1 : (exists x, In x xs /\ xwork x <> None) \/ forall x, In x xs -> xwork x = None).
    { clear. induction xs as [|z xs IH]; [right; intros ? []|]. destruct IH as [(x & F & E)|H]; [left; exists x; split; [now right|exact E]|].
      destruct (xwork z) as [y|] eqn:Ez; [left; exists z; split; [now left|congruence]|]. right. intros x [->|F]; auto. }
    destruct D1 as [(x & F & W)|D1].
    { destruct (@can_work ls xs x L F W) as (i & xs' & E). destruct (@live_work ls i xs xs' L E) as [L' M]. exact (Go (DWork i) xs' I I E L' M). }
    assert (D2 : (exists x n, In x xs /\ x_phase x = XCall n) \/ forall x n, In x xs -> x_phase x <> XCall n).
    { clear. induction xs as [|z xs IH]; [right; intros ? ? []|]. destruct IH as [(x & n & F & E)|H]; [left; exists x, n; split; [now right|exact E]|].
      destruct (x_phase z) as [|m v|m| |] eqn:Ez; try (right; intros x n [->|F]; [congruence|now apply H]). left. exists z, m. split; [now left|exact Ez]. }
    destruct D2 as [(x & n & F & W)|D2].
    { destruct (@can_return ls xs x n L F W) as (xs' & E). destruct (@live_return ls xs xs' L E) as [L' M]. exact (Go DReturn xs' I I E L' M). }
    assert (D3 : (exists x n u, In x xs /\ x_phase x = XSleep n u) \/ forall x n u, In x xs -> x_phase x <> XSleep n u).
    { clear. induction xs as [|z xs IH]; [right; intros ? ? ? []|]. destruct IH as [(x & n & u & F & E)|H]; [left; exists x, n, u; split; [now right|exact E]|].
      destruct (x_phase z) as [|m v|m| |] eqn:Ez; try (right; intros x n u [->|F]; [congruence|now apply H]). left. exists z, m, v. split; [now left|exact Ez]. }
    destruct D3 as [D3|D3].
    - destruct (@earliest xs D3) as (x & n & u & F & E & M). set (dt := (u - x_now x)%Z).
      assert (Hd : (0 < dt)%Z). { pose proof (D1 x F) as W. unfold xwork in W. rewrite E in W. destruct (u <=? x_now x)%Z eqn:C; [discriminate|]. apply Z.leb_gt in C. unfold dt. lia. }
      assert (S : dstep ls xs (DTick dt) = Some (map (ticks_on dt) xs)) by (cbn; apply Z.ltb_lt in Hd; now rewrite Hd).
      assert (P : prompt xs (DTick dt)).
      { cbn. apply Forall_forall. intros y Fy. rewrite Forall_forall in M. split; [exact (D1 y Fy)|]. specialize (M y Fy). destruct (x_phase y) eqn:Ey; auto; [fold dt in M; lia|now elim (D2 y n0 Fy)]. }
      pose proof (@dl_snoc _ _ _ _ _ _ _ _ R (Hok _ _ P) S) as R1. destruct (@live_tick dt ls xs L) as [L1 M1].
      assert (W : xwork (ticks_on dt x) <> None). { unfold xwork. cbn [ticks_on x_phase x_now]. rewrite E. replace (u <=? x_now x + dt)%Z with true by (symmetry; apply Z.leb_le; unfold dt; lia). discriminate. }
      destruct (@can_work ls _ _ L1 (in_map (ticks_on dt) _ _ F) W) as (i & xs' & Ew). destruct (@live_work ls i _ xs' L1 Ew) as [L' M'].
      destruct (IH (left ls xs') ltac:(lia) xs' ((h ++ [DTick dt]) ++ [DWork i]) ltac:(lia) L' (@dl_snoc _ _ _ _ _ _ (DWork i) _ R1 (Hok _ (DWork i) I) Ew)) as (h' & ys & Fo & R' & Wa).
      exists (DTick dt :: DWork i :: h'), ys. split; [now repeat constructor|]. split; [|exact Wa]. now rewrite <- !app_assoc in R'.
    - exists [], xs. split; [constructor|]. split; [now rewrite app_nil_r|]. clear -L D1 D2 D3. revert xs L D1 D2 D3. induction ls as [|[f d] ls IH]; intros [|x xs] L D1 D2 D3; try easy; [constructor|].
      destruct L as [[_ H] L]. constructor; [|apply (IH xs L); intros; [apply D1|apply D2|apply D3]; now right].
      split; [|apply D1; now left]. destruct (x_phase x) as [|n u|n| |] eqn:E; try easy; exfalso; [exact (D3 x n u (or_introl eq_refl) E)|exact (D2 x n (or_introl eq_refl) E)].
  Qed.

  Lemma reach_live (ok : list (xstate A) -> dlabel A -> Prop) ls t0 h xs : dreach ok ls t0 h xs -> ~ In DCancel h -> (forall e, ~ In (DRaise e) h) -> live ls xs.
  Proof.
    induction 1 as [|h xs l xs' R IH O E]; intros Hc Hr; [apply live_init|].
    assert (L : live ls xs) by (apply IH; [intros F; apply Hc, in_or_app; now left|intros e F; apply (Hr e), in_or_app; now left]).
    destruct l as [dt|n|i| |e|]; cbn [dstep] in E.
    - destruct (0 <? dt)%Z; [|discriminate]. injection E as <-. now apply live_tick.
    - injection E as <-. now apply live_feed.
    - exact (proj1 (@live_work ls i xs xs' L E)).
    - exact (proj1 (@live_return ls xs xs' L E)).
    - elim (Hr e). apply in_or_app. right. now left.
    - elim Hc. apply in_or_app. right. now left.
  Qed.
End Live.

Lemma calls_own A (h' : list (dlabel A)) : Forall own h' -> forall h t, calls_at t (h ++ h') = calls_at t h.
Proof.
  induction 1 as [|l h' Ho _ IH] using Forall_ind; intros h t; [now rewrite app_nil_r|].
  change (l :: h') with ([l] ++ h'). rewrite app_assoc, IH, calls_at_snoc. destruct l; try contradiction; apply app_nil_r.
Qed.
Lemma dreach_weaken A (ok ok' : list (xstate A) -> dlabel A -> Prop) ls t0 h xs : (forall ys l, ok ys l -> ok' ys l) -> dreach ok ls t0 h xs -> dreach ok' ls t0 h xs.
Proof. intros H. induction 1; econstructor; eauto. Qed.

Lemma delays_exact A (ls : list (link A)) t0 h xs : dreach prompt ls t0 h xs -> prefix (told_at xs) (later (total ls) (through ls (calls_at t0 h))).
Proof. intros R. eapply linked_exact. exact ((dreach_linked (pr := True) (nc := False) R (fun _ _ _ H => H) (fun F => False_ind _ F))). Qed.

Lemma delays_all A (ok : list (xstate A) -> dlabel A -> Prop) (ls : list (link A)) t0 h xs : ls <> [] -> dreach ok ls t0 h xs -> ~ In DCancel h -> all_waiting xs -> map fst (told_at xs) = map fst (through ls (calls_at t0 h)).
Proof. intros N R Hc W. eapply linked_all; [exact N|exact (dreach_linked (pr := False) (nc := True) R (fun F => False_ind _ F) (fun _ => Hc))|exact W]. Qed.

Lemma prefix_full X Y (f : X -> Y) (a b : list X) : prefix a b -> map f a = map f b -> a = b.
Proof. intros [c ->] E. apply (f_equal (@length _)) in E. rewrite !map_length, app_length in E. destruct c; [now rewrite app_nil_r|cbn in E; lia]. Qed.

Lemma delays_prompt_all A (ls : list (link A)) t0 h xs : ls <> [] -> dreach prompt ls t0 h xs -> ~ In DCancel h -> all_waiting xs ->
  told_at xs = later (total ls) (through ls (calls_at t0 h)).
Proof.
  intros N R Hc W. apply (prefix_full fst); [now apply delays_exact|]. rewrite (delays_all N R Hc W). unfold later. rewrite map_map. reflexivity.
Qed.

Lemma delays_arrive A (ok : list (xstate A) -> dlabel A -> Prop) (ls : list (link A)) t0 h xs : (forall ys l, prompt ys l -> ok ys l) -> dreach ok ls t0 h xs -> ~ In DCancel h -> (forall e, ~ In (DRaise e) h) ->
  exists h' xs', Forall own h' /\ dreach ok ls t0 (h ++ h') xs' /\ all_waiting xs'.
Proof. intros Hok R Hc Hr. eapply live_drains; [exact Hok|apply Nat.le_refl|exact (reach_live R Hc Hr)|exact R]. Qed.
