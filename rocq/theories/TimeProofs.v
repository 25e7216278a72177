(** * Invariants of delay and interval. *)
From Verif Require Export TimeSpec.
From Coq Require Import Sorting.Sorted.
Set Implicit Arguments.
Local Open Scope Z_scope.

Section Delay.
  Context {A : Type}.
  Variables d t0 : Z.
  Implicit Types (h : list (xlabel A)) (s : xstate A).

  Definition elapsed h : Z := fold_right (fun l z => match l with XTick dt => dt + z | _ => z end) 0 h.
  Lemma elapsed_snoc h l : elapsed (h ++ [l]) = elapsed h + match l with XTick dt => dt | _ => 0 end.
  Proof. unfold elapsed. induction h as [|x h IH]; cbn; [destruct l; lia|]. rewrite IH. destruct x; lia. Qed.
  Lemma elapsed_cons l h : elapsed (l :: h) = match l with XTick dt => dt + elapsed h | _ => elapsed h end.
  Proof. reflexivity. Qed.
  Arguments elapsed : simpl never.
  Lemma arrivals_snoc t h l : arrivals t (h ++ [l]) = arrivals t h ++ match l with XArr n => [(n, t + elapsed h)] | _ => [] end.
  Proof.
    revert t. induction h as [|x h IH]; intros t; cbn.
    - destruct l; try reflexivity. now rewrite Z.add_0_r.
    - rewrite elapsed_cons. destruct x; cbn; rewrite ?IH; try reflexivity. destruct l; try reflexivity. now rewrite Z.add_assoc.
  Qed.

  Definition m := Z.max 0 d.
  Definition pend s : list (notif A * Z) := match x_phase s with XSleep n u => [(n, u - d)] | _ => [] end.
  Definition shiftd (x : notif A * Z) : notif A * Z := (fst x, snd x + d).
  Definition late (x y : notif A * Z) : Prop := fst x = fst y /\ snd y + m <= snd x.

  Record XI h s (D B : list (notif A * Z)) : Prop := {
    xi_now : x_now s = t0 + elapsed h;
    xi_arr : arrivals t0 h = D ++ pend s ++ B;
    xi_box : x_box s = map shiftd B;
    xi_log : Forall2 late (x_log s) D;
    xi_sleep : match x_phase s with XSleep _ u => u - d <= x_now s | _ => True end;
    xi_past : Forall (fun x => snd x <= x_now s) B
  }.

  Lemma xi_reach h s : xreach d t0 h s -> exists D B, XI h s D B.
  Proof.
    induction 1 as [|h s l s' Hr (D & B & [X1 X2 X3 X4 X5 X6]) Hs].
    { exists [], []. constructor; cbn; auto. unfold elapsed; cbn; lia. }
    assert (Hb : forall n box, x_phase s <> XCall n -> forall a B', arrivals t0 h = D ++ (n, a) :: B' -> box = map shiftd B' ->
        a + m <= x_now s -> Forall (fun x => snd x <= x_now s) B' -> exists D' B'', XI (h ++ [XWork]) (x_begin n box s) D' B'').
    { intros n box _ a B' Ea Eb Ha Hp. exists (D ++ [(n, a)]), B'. constructor; cbn; auto.
      - rewrite elapsed_snoc. lia.
      - rewrite arrivals_snoc, app_nil_r, Ea, <- app_assoc. reflexivity.
      - apply Forall2_app; [exact X4|]. constructor; [|constructor]. split; auto. }
    destruct l as [dt|n| | |e|]; cbn in Hs.
    - destruct (0 <? dt) eqn:E; [|discriminate]. apply Z.ltb_lt in E. injection Hs as <-. exists D, B.
      constructor; cbn; auto.
      + rewrite elapsed_snoc. lia.
      + now rewrite arrivals_snoc, app_nil_r.
      + destruct (x_phase s); auto. lia.
      + eapply Forall_impl; [|exact X6]. cbn. intros; lia.
    - injection Hs as <-. exists D, (B ++ [(n, x_now s)]). constructor; cbn; auto.
      + rewrite elapsed_snoc. lia.
      + rewrite arrivals_snoc, X2, <- X1, <- !app_assoc. reflexivity.
      + now rewrite map_app, X3.
      + apply Forall_app. split; [exact X6|]. repeat constructor. cbn. lia.
    - unfold xwork, pend in *. destruct (x_phase s) as [|n u|n| |] eqn:Ep; try discriminate.
      + destruct (x_cancelled s).
        { injection Hs as <-. exists D, B. constructor; cbn; auto; [rewrite elapsed_snoc; lia|now rewrite arrivals_snoc, app_nil_r]. }
        destruct (x_box s) as [|[n due] r] eqn:Eb; [discriminate|].
        destruct B as [|[n' a] B]; [discriminate|]. cbn in X3. injection X3 as -> -> X3.
        inversion X6 as [|? ? X6a X6b]; subst. cbn in X6a.
        destruct (0 <? a + d - x_now s) eqn:E.
        * apply Z.ltb_lt in E. injection Hs as <-. exists D, B. constructor; cbn; auto.
          -- rewrite elapsed_snoc. lia.
          -- rewrite arrivals_snoc, app_nil_r, X2. cbn. now replace (a + d - d) with a by lia.
          -- lia.
        * apply Z.ltb_ge in E. injection Hs as <-. eapply Hb; eauto; [discriminate|unfold m; lia].
      + destruct (u <=? x_now s) eqn:E; [|discriminate]. apply Z.leb_le in E. injection Hs as <-.
        eapply Hb; eauto; [discriminate|unfold m; lia].
    - unfold pend in *. destruct (x_phase s) as [|n u|n| |] eqn:Ep; try discriminate. injection Hs as <-.
      exists D, B. constructor; cbn; auto; [rewrite elapsed_snoc; lia|now rewrite arrivals_snoc, app_nil_r].
    - unfold pend in *. destruct (x_phase s) as [|n u|n| |] eqn:Ep; try discriminate. injection Hs as <-.
      exists D, B. constructor; cbn; auto; [rewrite elapsed_snoc; lia|now rewrite arrivals_snoc, app_nil_r].
    - injection Hs as <-. exists D, B. constructor; cbn; auto; [rewrite elapsed_snoc; lia|now rewrite arrivals_snoc, app_nil_r].
  Qed.

  Lemma x_never_early h s : xreach d t0 h s -> exists D rest, arrivals t0 h = D ++ rest /\
    Forall2 (fun x y => fst x = fst y /\ snd y + Z.max 0 d <= snd x) (x_log s) D.
  Proof. intros Hr. destruct (xi_reach Hr) as (D & B & X). exists D, (pend s ++ B). split; [apply (xi_arr X)|apply (xi_log X)]. Qed.

  Lemma x_alive h s : xreach d t0 h s -> no_raise h -> x_phase s <> XDead.
  Proof.
    induction 1 as [|h s l s' Hr IH Hs]; intros Hn; [discriminate|].
    specialize (IH (fun e F => Hn e (in_or_app _ _ _ (or_introl F)))).
    destruct l as [dt|n| | |e|]; cbn in Hs.
    - destruct (0 <? dt); [|discriminate]. now injection Hs as <-.
    - now injection Hs as <-.
    - unfold xwork in Hs. destruct (x_phase s); try discriminate.
      + destruct (x_cancelled s); [now injection Hs as <-|]. destruct (x_box s) as [|[n due] r]; [discriminate|].
        destruct (0 <? due - x_now s); now injection Hs as <-.
      + destruct (u <=? x_now s); [|discriminate]. now injection Hs as <-.
    - destruct (x_phase s); try discriminate. now injection Hs as <-.
    - exfalso. apply (Hn e), in_or_app. right. now left.
    - now injection Hs as <-.
  Qed.

  Lemma x_not_cancelled h s : xreach d t0 h s -> ~ In XCancel h -> x_cancelled s = false /\ x_phase s <> XOver.
  Proof.
    induction 1 as [|h s l s' Hr IH Hs]; intros Hn; [split; [reflexivity|discriminate]|].
    destruct (IH (fun F => Hn (in_or_app _ _ _ (or_introl F)))) as [I1 I2].
    destruct l as [dt|n| | |e|]; cbn in Hs.
    - destruct (0 <? dt); [|discriminate]. now injection Hs as <-.
    - now injection Hs as <-.
    - unfold xwork in Hs. rewrite I1 in Hs. destruct (x_phase s); try discriminate.
      + destruct (x_box s) as [|[n due] r]; [discriminate|].
        destruct (0 <? due - x_now s); injection Hs as <-; cbn; split; auto; discriminate.
      + destruct (u <=? x_now s); [|discriminate]. injection Hs as <-; cbn; split; auto; discriminate.
    - destruct (x_phase s); try discriminate. injection Hs as <-; cbn; split; auto; discriminate.
    - destruct (x_phase s); try discriminate. injection Hs as <-; cbn; split; auto; discriminate.
    - exfalso. apply Hn, in_or_app. right. now left.
  Qed.

  Lemma forall2_fst (P : notif A * Z -> notif A * Z -> Prop) a b : (forall x y, P x y -> fst x = fst y) -> Forall2 P a b -> map fst a = map fst b.
  Proof. intros Hp. induction 1; cbn; [reflexivity|]. f_equal; auto. Qed.

  (** Nothing lost: when the loop waits for a message, everything has been delivered. *)
  Lemma x_all h s : xreach d t0 h s -> ~ In XCancel h -> x_phase s = XIdle -> xwork s = None ->
    map fst (x_log s) = map fst (arrivals t0 h).
  Proof.
    intros Hr Hc Ep Ew. destruct (xi_reach Hr) as (D & B & [X1 X2 X3 X4 X5 X6]). destruct (x_not_cancelled Hr Hc) as [Hn _].
    unfold xwork, pend in *. rewrite Ep, Hn in *. destruct (x_box s) as [|[n due] r] eqn:Eb.
    - destruct B; [|discriminate]. rewrite X2, !app_nil_r. eapply forall2_fst; [|exact X4]. now intros x y [].
    - destruct (0 <? due - x_now s); discriminate.
  Qed.

  (** After the token has been cancelled at most one call begins. *)
  Lemma x_cancel h1 s1 h2 s2 : xreach d t0 h1 s1 -> xreach d t0 (h1 ++ XCancel :: h2) s2 ->
    exists more, x_log s2 = x_log s1 ++ more /\ (length more <= match x_phase s1 with XSleep _ _ => 1 | _ => 0 end)%nat.
  Proof.
    intros H1. remember (h1 ++ XCancel :: h2) as h eqn:Eh. intros H2. revert h2 Eh.
    assert (Hdet : forall h s s', xreach d t0 h s -> xreach d t0 h s' -> s = s').
    { clear. intros h s s' H. revert s'. induction H as [|h s l s1 H IH Hs]; intros s' H'.
      - inversion H' as [|h' ? l' ? ? ? E]; [reflexivity|]. destruct h'; discriminate.
      - inversion H' as [E|h' s0 l' s2 H0 Hs0 E]; [destruct h; discriminate|].
        apply app_inj_tail in E as [-> ->]. apply IH in H0. subst s0. congruence. }
    assert (Hinv : forall h2, h = h1 ++ XCancel :: h2 -> x_cancelled s2 = true /\
      exists more, x_log s2 = x_log s1 ++ more /\
        match x_phase s2 with
        | XSleep _ _ => more = [] /\ exists n u, x_phase s1 = XSleep n u
        | XIdle | XCall _ | XOver | XDead => (length more <= match x_phase s1 with XSleep _ _ => 1 | _ => 0 end)%nat
        end).
    { induction H2 as [|h s l s' Hr IH Hs]; intros h2 Eh.
      - destruct h1; discriminate.
      - destruct h2 as [|x h2 _] using rev_ind.
        + apply app_inj_tail in Eh as [-> ->]. rewrite (Hdet _ _ _ Hr H1) in *. cbn in Hs. injection Hs as <-. cbn. split; [reflexivity|].
          exists []. rewrite app_nil_r. split; [reflexivity|]. destruct (x_phase s1); cbn; eauto; lia.
        + change (XCancel :: h2 ++ [x]) with ((XCancel :: h2) ++ [x]) in Eh. rewrite app_assoc in Eh.
          apply app_inj_tail in Eh as [-> ->]. destruct (IH h2 eq_refl) as [I1 (more & I2 & I3)].
          destruct x as [dt|n| | |e|]; cbn in Hs.
          * destruct (0 <? dt); [|discriminate]. injection Hs as <-. cbn. eauto.
          * injection Hs as <-. cbn. eauto.
          * unfold xwork in Hs. rewrite I1 in Hs. destruct (x_phase s) as [|n u|n| |]; try discriminate.
            -- injection Hs as <-. cbn. eauto.
            -- destruct (u <=? x_now s); [|discriminate]. injection Hs as <-. cbn. split; [exact I1|].
               destruct I3 as [-> (n' & u' & E)]. rewrite E. rewrite app_nil_r in I2. rewrite I2. exists [(n, x_now s)]. auto.
          * destruct (x_phase s) as [|n u|n| |]; try discriminate. injection Hs as <-. cbn. eauto.
          * destruct (x_phase s) as [|n u|n| |]; try discriminate. injection Hs as <-. cbn. eauto.
          * injection Hs as <-. cbn. eauto. }
    intros h2 Eh. destruct (Hinv h2 Eh) as [_ (more & E & Hm)]. exists more. split; [exact E|].
    destruct (x_phase s2); auto. destruct Hm as [-> (n' & u' & ->)]. cbn. lia.
  Qed.

  (** ** Punctual runs *)
  Notation expected := (@expected A d).
  Lemma expected_snoc D : forall f ends n a, length D = length ends ->
    expected f (D ++ [(n, a)]) ends = expected f D ends ++ [(n, Z.max (a + m) (last ends f))].
  Proof.
    induction D as [|[n' a'] D IH]; intros f ends n a E; destruct ends as [|e ends]; try discriminate; [reflexivity|].
    cbn [app TimeSpec.expected]. f_equal. rewrite IH by (now injection E). f_equal.
    f_equal. f_equal. destruct ends as [|e' ends]; [reflexivity|]. cbn [last]. f_equal.
    clear. revert e'. induction ends as [|x ends IH]; intros e'; [reflexivity|]. cbn [last] in *. apply IH.
  Qed.
  Lemma expected_ends D : forall f ends e, length D = S (length ends) -> expected f D (ends ++ [e]) = expected f D ends.
  Proof.
    induction D as [|[n a] D IH]; intros f ends e E; [discriminate|]. destruct ends as [|x ends]; cbn in *.
    - f_equal. destruct D; [reflexivity|discriminate].
    - f_equal. apply IH. now injection E.
  Qed.
  Lemma expected_prefix D : forall f ends R, prefix (expected f D ends) (expected f (D ++ R) ends).
  Proof.
    induction D as [|[n a] D IH]; intros f ends R; cbn; [apply prefix_nil|]. apply prefix_cons. destruct ends; [apply prefix_nil|apply IH].
  Qed.
  Lemma last_snoc_f (l : list Z) x f : last (l ++ [x]) f = x.
  Proof. induction l as [|y [|z l] IH]; auto. Qed.

  Record PI h s (D B : list (notif A * Z)) : Prop := {
    pi_arr : arrivals t0 h = D ++ pend s ++ B;
    pi_box : x_box s = map shiftd B;
    pi_past : Forall (fun x => snd x <= x_now s) B;
    pi_now : x_now s = t0 + elapsed h;
    pi_log : x_log s = expected t0 D (x_ends s);
    pi_free : last (x_ends s) t0 <= x_now s;
    pi_phase : match x_phase s with
      | XIdle => length D = length (x_ends s) /\
          (x_cancelled s = false -> match B with [] => True | (_, a) :: _ => x_now s = Z.max a (last (x_ends s) t0) end)
      | XSleep _ u => length D = length (x_ends s) /\ 0 < d /\ x_now s <= u
      | XCall _ => length D = S (length (x_ends s))
      | XOver => length D = length (x_ends s)
      | XDead => True
      end
  }.

  Lemma punctual_snoc h l : punctual d t0 (h ++ [l]) -> punctual d t0 h.
  Proof. intros P h1 dt h2 s1 -> H1. eapply (P h1 dt (h2 ++ [l])); [now rewrite <- app_assoc|exact H1]. Qed.

  Lemma pi_reach h s : xreach d t0 h s -> punctual d t0 h -> exists D B, PI h s D B.
  Proof.
    induction 1 as [|h s l s' Hr IH Hs]; intros HP.
    { exists [], []. constructor; cbn; auto; unfold elapsed; cbn; lia. }
    destruct (IH (@punctual_snoc h l HP)) as (D & B & [P1 P2 P3 P4 P5 P6 P7]). clear IH.
    assert (Hb : forall n box a B', arrivals t0 h = D ++ (n, a) :: B' -> box = map shiftd B' -> length D = length (x_ends s) ->
        x_now s = Z.max (a + m) (last (x_ends s) t0) -> Forall (fun x => snd x <= x_now s) B' -> exists D' B'', PI (h ++ [XWork]) (x_begin n box s) D' B'').
    { intros n box a B' Ea Eb Hl Ha Hp. exists (D ++ [(n, a)]), B'. constructor; cbn; auto.
      - rewrite arrivals_snoc, app_nil_r, Ea, <- app_assoc. reflexivity.
      - rewrite elapsed_snoc. lia.
      - rewrite expected_snoc by exact Hl. now rewrite P5, <- Ha.
      - rewrite app_length. cbn. lia. }
    destruct l as [dt|n| | |e|]; cbn in Hs.
    - destruct (0 <? dt) eqn:E; [|discriminate]. apply Z.ltb_lt in E. injection Hs as <-. exists D, B.
      destruct (HP h dt [] s eq_refl Hr) as [Hw Hu].
      constructor; cbn; auto.
      + now rewrite arrivals_snoc, app_nil_r.
      + eapply Forall_impl; [|exact P3]. cbn. intros; lia.
      + rewrite elapsed_snoc. lia.
      + lia.
      + unfold xwork in Hw. destruct (x_phase s); auto; [|lia].
        destruct P7 as [P7a P7b]. split; [exact P7a|]. intros Hc. rewrite Hc in Hw.
        destruct (x_box s) as [|[n due] r] eqn:Eb; [destruct B; [exact I|discriminate]|].
        destruct (0 <? due - x_now s); discriminate.
    - injection Hs as <-. exists D, (B ++ [(n, x_now s)]). constructor; cbn; auto.
      + rewrite arrivals_snoc, P1, <- P4, <- !app_assoc. reflexivity.
      + now rewrite map_app, P2.
      + apply Forall_app. split; [exact P3|]. repeat constructor. cbn. lia.
      + rewrite elapsed_snoc. lia.
      + destruct (x_phase s); auto. destruct P7 as [P7a P7b]. split; [exact P7a|]. intros Hc. specialize (P7b Hc).
        destruct B as [|[n' a] B]; cbn; [lia|exact P7b].
    - unfold xwork, pend in *. destruct (x_phase s) as [|n u|n| |] eqn:Ep; try discriminate.
      + destruct P7 as [P7a P7b]. destruct (x_cancelled s) eqn:Ec.
        { injection Hs as <-. exists D, B. constructor; cbn; auto; [now rewrite arrivals_snoc, app_nil_r|rewrite elapsed_snoc; lia]. }
        destruct (x_box s) as [|[n due] r] eqn:Eb; [discriminate|].
        destruct B as [|[n' a] B]; [discriminate|]. cbn in P2. injection P2 as -> -> P2.
        inversion P3 as [|? ? P3a P3b]; subst. cbn in P3a. specialize (P7b eq_refl).
        destruct (0 <? a + d - x_now s) eqn:E.
        * apply Z.ltb_lt in E. injection Hs as <-. exists D, B. constructor; cbn; auto.
          -- rewrite arrivals_snoc, app_nil_r, P1. cbn. now replace (a + d - d) with a by lia.
          -- rewrite elapsed_snoc. lia.
          -- lia.
        * apply Z.ltb_ge in E. injection Hs as <-. eapply Hb; eauto. unfold m. lia.
      + destruct (u <=? x_now s) eqn:E; [|discriminate]. apply Z.leb_le in E. injection Hs as <-.
        destruct P7 as (P7a & P7b & P7c). eapply Hb; eauto. unfold m. lia.
    - unfold pend in *. destruct (x_phase s) as [|n u|n| |] eqn:Ep; try discriminate. injection Hs as <-.
      exists D, B. constructor; cbn; auto.
      + now rewrite arrivals_snoc, app_nil_r.
      + rewrite elapsed_snoc. lia.
      + now rewrite expected_ends.
      + rewrite last_snoc_f. lia.
      + rewrite app_length. cbn. split; [lia|]. intros _. rewrite last_snoc_f. destruct B as [|[n' a] B]; [exact I|].
        inversion P3; subst. cbn in *. lia.
    - unfold pend in *. destruct (x_phase s) as [|n u|n| |] eqn:Ep; try discriminate. injection Hs as <-.
      exists D, B. constructor; cbn; auto; [now rewrite arrivals_snoc, app_nil_r|rewrite elapsed_snoc; lia].
    - injection Hs as <-. exists D, B. constructor; cbn; auto; [now rewrite arrivals_snoc, app_nil_r|rewrite elapsed_snoc; lia|].
      destruct (x_phase s); auto. destruct P7 as [P7a P7b]. split; [exact P7a|discriminate].
  Qed.

  Lemma x_punctual h s : xreach d t0 h s -> punctual d t0 h -> prefix (x_log s) (expected t0 (arrivals t0 h) (x_ends s)).
  Proof.
    intros Hr HP. destruct (pi_reach Hr HP) as (D & B & P). rewrite (pi_log P), (pi_arr P). apply expected_prefix.
  Qed.

  (** ** Instantaneous observers *)
  Lemma arrivals_sorted h s : xreach d t0 h s -> StronglySorted (fun x y : notif A * Z => snd x <= snd y) (arrivals t0 h) /\
    Forall (fun x => t0 <= snd x <= x_now s) (arrivals t0 h) /\ x_now s = t0 + elapsed h.
  Proof.
    induction 1 as [|h s l s' Hr (I1 & I2 & I3) Hs]; [cbn; repeat split; [constructor|constructor|unfold elapsed; cbn; lia]|].
    assert (Hn : x_now s' = x_now s + match l with XTick dt => dt | _ => 0 end /\ match l with XTick dt => 0 < dt | _ => True end).
    { clear -Hs. destruct l as [dt|n| | |e|]; cbn in Hs.
      - destruct (0 <? dt) eqn:E; [|discriminate]. apply Z.ltb_lt in E. injection Hs as <-. auto.
      - injection Hs as <-. cbn. split; [lia|exact I].
      - unfold xwork in Hs. destruct (x_phase s); try discriminate.
        + destruct (x_cancelled s); [injection Hs as <-; cbn; split; [lia|exact I]|]. destruct (x_box s) as [|[n due] r]; [discriminate|].
          destruct (0 <? due - x_now s); injection Hs as <-; cbn; split; try lia; exact I.
        + destruct (u <=? x_now s); [|discriminate]. injection Hs as <-; cbn; split; [lia|exact I].
      - destruct (x_phase s); try discriminate. injection Hs as <-; cbn; split; [lia|exact I].
      - destruct (x_phase s); try discriminate. injection Hs as <-; cbn; split; [lia|exact I].
      - injection Hs as <-; cbn; split; [lia|exact I]. }
    assert (Hnn : t0 <= x_now s).
    { clear -Hr I3. rewrite I3. assert (0 <= elapsed h); [|lia]. clear I3. induction Hr as [|h s l s' Hr IH Hs]; [unfold elapsed; cbn; lia|].
      rewrite elapsed_snoc. destruct l; try lia. cbn in Hs. destruct (0 <? dt) eqn:E; [|discriminate]. apply Z.ltb_lt in E. lia. }
    destruct Hn as [Hn Hpos].
    rewrite arrivals_snoc, elapsed_snoc. repeat split.
    - destruct l; rewrite ?app_nil_r; auto. rewrite <- I3. clear -I1 I2. induction I1 as [|x l H IH F]; cbn; [repeat constructor|].
      inversion I2; subst. constructor; [apply IH; assumption|]. apply Forall_app. split; [exact F|]. repeat constructor. cbn. lia.
    - apply Forall_app. split; [eapply Forall_impl; [|exact I2]; cbn; intros; destruct l; lia|].
      destruct l; constructor; auto. cbn. lia.
    - rewrite Hn. lia.
  Qed.

  Definition inst_inv s : Prop := exists more, map snd (x_log s) = x_ends s ++ more /\
    match x_phase s with XCall _ => more = [x_now s] | XDead => True | _ => more = [] end.

  Lemma inst_reach h s : xreach d t0 h s -> instantaneous d t0 h -> inst_inv s.
  Proof.
    induction 1 as [|h s l s' Hr IH Hs]; intros [HP HI]; [exists []; split; reflexivity|].
    assert (HI' : instantaneous d t0 h).
    { split; [exact (@punctual_snoc h l HP)|]. intros h1 dt h2 s1 n -> H1. eapply (HI h1 dt (h2 ++ [l]) s1); [now rewrite <- app_assoc|exact H1]. }
    destruct (IH HI') as (more & M1 & M2).
    destruct l as [dt|n| | |e|]; cbn in Hs.
    - destruct (0 <? dt) eqn:E; [|discriminate]. injection Hs as <-. exists more. cbn. split; [exact M1|].
      destruct (x_phase s) eqn:Ep; auto. exfalso. eapply (HI h dt [] s); eauto.
    - injection Hs as <-. exists more; cbn; auto.
    - unfold xwork in Hs. destruct (x_phase s) as [|n u|n| |] eqn:Ep; try discriminate.
      + destruct (x_cancelled s); [injection Hs as <-; exists more; cbn; auto|]. destruct (x_box s) as [|[n due] r]; [discriminate|].
        destruct (0 <? due - x_now s); injection Hs as <-; [exists more; cbn; auto|].
        exists [x_now s]. cbn. subst more. rewrite map_app, M1, app_nil_r. auto.
      + destruct (u <=? x_now s); [|discriminate]. injection Hs as <-. exists [x_now s]. cbn. subst more. rewrite map_app, M1, app_nil_r. auto.
    - destruct (x_phase s) as [|n u|n| |] eqn:Ep; try discriminate. injection Hs as <-. exists []. cbn. rewrite M1, M2, app_nil_r; auto.
    - destruct (x_phase s) as [|n u|n| |] eqn:Ep; try discriminate. injection Hs as <-. exists more; cbn; auto.
    - injection Hs as <-. exists more. cbn. split; [exact M1|exact M2].
  Qed.

  Lemma expected_shift D : forall f ends more, StronglySorted (fun x y : notif A * Z => snd x <= snd y) D ->
    (match D with [] => True | (_, a) :: _ => f <= a + m end) ->
    map snd (expected f D ends) = ends ++ more -> expected f D ends = map (fun x => (fst x, snd x + m)) (firstn (length (expected f D ends)) D).
  Proof.
    induction D as [|[n a] D IH]; intros f ends more Hs Hf E; [reflexivity|].
    inversion Hs as [|? ? Hs1 Hs2]; subst. cbn [TimeSpec.expected] in *. fold m in *.
    rewrite Z.max_l in * by exact Hf. cbn [length firstn map fst snd]. f_equal.
    destruct ends as [|e ends]; [reflexivity|]. cbn in E. injection E as <- E. eapply IH; [exact Hs1| |exact E].
    destruct D as [|[n' a'] D]; [exact I|]. inversion Hs2; subst. cbn in *. lia.
  Qed.

  Lemma x_instantaneous h s : xreach d t0 h s -> instantaneous d t0 h ->
    x_log s = map (fun x => (fst x, snd x + Z.max 0 d)) (firstn (length (x_log s)) (arrivals t0 h)).
  Proof.
    intros Hr HI. destruct (pi_reach Hr (proj1 HI)) as (D & B & P). destruct (inst_reach Hr HI) as (more & M1 & _).
    destruct (arrivals_sorted Hr) as (S1 & S2 & _). rewrite (pi_arr P) in S1, S2.
    rewrite (pi_log P) in M1 |- *.
    assert (HD : StronglySorted (fun x y : notif A * Z => snd x <= snd y) D).
    { clear -S1. induction D as [|x D IH]; constructor; inversion S1; subst; auto. apply Forall_app in H2. tauto. }
    assert (E : expected t0 D (x_ends s) = map (fun x => (fst x, snd x + m)) (firstn (length (expected t0 D (x_ends s))) D)).
    { apply expected_shift with (more := more); [exact HD| |exact M1].
      destruct D as [|[n a] D']; [exact I|]. inversion S2; subst. cbn in *. unfold m. lia. }
    rewrite E at 1.
    rewrite (pi_arr P). rewrite firstn_app.
    assert (length (expected t0 D (x_ends s)) <= length D)%nat as Hle.
    { clear. generalize t0 as f, (x_ends s). induction D as [|[n a] D IH]; intros f ends; cbn; [lia|]. destruct ends; cbn; [lia|]. specialize (IH z ends). lia. }
    replace (length (expected t0 D (x_ends s)) - length D)%nat with 0%nat by lia. cbn. now rewrite app_nil_r.
  Qed.

  (** ** Several subscriptions *)
  Definition project (j : nat) (h : list (nat * xlabel A)) : list (xlabel A) :=
    flat_map (fun x => match snd x with XTick _ | XCancel => [snd x] | _ => if (fst x =? j)%nat then [snd x] else [] end) h.
  Lemma project_reach (h : list (nat * xlabel A)) (s : nat -> xstate A) : xreach_all d t0 h s -> forall j, xreach d t0 (project j h) (s j).
  Proof.
    induction 1 as [s Hs|h s x s' Hr IH Hs]; intros j.
    - rewrite Hs. constructor.
    - unfold project. rewrite flat_map_app. cbn. rewrite app_nil_r. fold (project j h). specialize (Hs j).
      destruct (snd x) eqn:E; try (eapply xr_snoc; [apply IH|exact Hs]);
        (destruct (fst x =? j)%nat; [eapply xr_snoc; [apply IH|exact Hs]|rewrite app_nil_r, Hs; apply IH]).
  Qed.

  Lemma x_cancel_all (h1 h2 : list (nat * xlabel A)) (s1 s2 : nat -> xstate A) i j : xreach_all d t0 h1 s1 -> xreach_all d t0 (h1 ++ (i, XCancel) :: h2) s2 ->
    exists more, x_log (s2 j) = x_log (s1 j) ++ more /\ (length more <= match x_phase (s1 j) with XSleep _ _ => 1 | _ => 0 end)%nat.
  Proof.
    intros H1 H2. pose proof (project_reach H1 j) as P1. pose proof (project_reach H2 j) as P2.
    unfold project in P2. rewrite flat_map_app in P2. cbn in P2. eapply x_cancel; eassumption.
  Qed.
End Delay.

(** Running a history. *)
Fixpoint xrun {A} (d : Z) (s : xstate A) (h : list (xlabel A)) : option (xstate A) :=
  match h with
  | [] => Some s
  | l :: r => match xstep d s l with Some s' => xrun d s' r | None => None end
  end.
Lemma xrun_reach A d t0 (h2 : list (xlabel A)) : forall h1 s s', xreach d t0 h1 s -> xrun d s h2 = Some s' -> xreach d t0 (h1 ++ h2) s'.
Proof.
  induction h2 as [|l h2 IH]; cbn; intros h1 s s' Hr E.
  - injection E as <-. now rewrite app_nil_r.
  - destruct (xstep d s l) as [s1|] eqn:E1; [|discriminate].
    change (l :: h2) with ([l] ++ h2). rewrite app_assoc. eapply IH; [|exact E]. eapply xr_snoc; eauto.
Qed.
Lemma xrun_init A d t0 (h : list (xlabel A)) s : xrun d (x_init t0) h = Some s -> xreach d t0 h s.
Proof. intros E. exact (xrun_reach _ (xr_nil d t0) E). Qed.

(** ** interval *)
Section Interval.
  Variables sec per t0 : Z.
  Let sl := Z.max 0 sec.
  Let pl := Z.max 0 per.

  (** Elements [i], [i+1], ... with times from [t] on, at least [pl] apart. *)
  Fixpoint spaced (i : nat) (t : Z) (l : list (notif nat * Z)) : Prop :=
    match l with
    | [] => True
    | (n, u) :: r => n = OnNext i /\ t <= u /\ spaced (S i) (u + pl) r
    end.
  Lemma spaced_snoc l : forall i t u, spaced i t l -> (match rev l with [] => t | (_, v) :: _ => v + pl end) <= u ->
    spaced i t (l ++ [(OnNext (i + length l)%nat, u)]).
  Proof.
    induction l as [|[n v] l IH]; intros i t u Hs Hu; cbn in *.
    - rewrite Nat.add_0_r. auto.
    - destruct Hs as (-> & H2 & H3). repeat split; auto. rewrite Nat.add_succ_r. apply (IH (S i)); [exact H3|].
      destruct (rev l) as [|[n' v'] r] eqn:E; cbn in *; exact Hu.
  Qed.

  Definition ready (l : list (notif nat * Z)) : Z := match rev l with [] => t0 + sl | (_, v) :: _ => v + pl end.
  Definition iv_inv (s : ivstate) : Prop :=
    t0 <= v_now s /\
    match v_phase s with
    | IStart => v_log s = []
    | ISleep u n => spaced 0 (t0 + sl) (v_log s) /\ length (v_log s) = n /\ ready (v_log s) <= u /\ (n <> 0%nat -> per <> 0)
    | ICall n => spaced 0 (t0 + sl) (v_log s) /\ length (v_log s) = S n /\ (n <> 0%nat -> per <> 0) /\
                 (match rev (v_log s) with [] => False | (_, v) :: _ => v <= v_now s end)
    | IClose => per = 0
    | _ => True
    end /\
    (spaced 0 (t0 + sl) (v_log s) /\ (per = 0 -> (length (v_log s) <= 1)%nat) \/
     per = 0 /\ exists t t', v_log s = [(OnNext 0%nat, t); (OnCompleted, t')] /\ t0 + sl <= t <= t').

  Lemma iv_reach h s : ivreach sec per t0 h s -> iv_inv s.
  Proof.
    induction 1 as [|h s l s' Hr IH Hs].
    { split; [cbn; lia|]. split; [reflexivity|]. left. split; cbn; auto. }
    destruct IH as (I0 & I1 & I2). destruct l as [dt|n| | |e|]; cbn in Hs; try discriminate.
    - destruct (0 <? dt) eqn:E; [|discriminate]. apply Z.ltb_lt in E. injection Hs as <-. split; [cbn; lia|]. cbn. split; [|exact I2].
      destruct (v_phase s); auto. destruct I1 as (A1 & A2 & A3 & A4). repeat split; auto. destruct (rev (v_log s)) as [|[? ?] ?]; [exact A4|lia].
    - unfold ivwork in Hs. destruct (v_phase s) as [|u n|n| | |] eqn:Ep; try discriminate.
      + injection Hs as <-. repeat split; cbn; auto; rewrite I1 in *; cbn; auto; try congruence. unfold ready. cbn. unfold sl in *. lia.
      + destruct (u <=? v_now s) eqn:E; [|discriminate]. apply Z.leb_le in E. injection Hs as <-. cbn.
        destruct I1 as (A1 & A2 & A3 & A4).
        assert (As : spaced 0 (t0 + sl) (v_log s ++ [(OnNext n, v_now s)])).
        { rewrite <- A2. apply spaced_snoc; [exact A1|]. unfold ready in A3. lia. }
        repeat split; auto; cbn.
        * rewrite app_length. cbn. lia.
        * rewrite rev_app_distr. cbn. lia.
        * left. split; [exact As|]. rewrite app_length. cbn. intros Hp. destruct n; [|specialize (A4 ltac:(discriminate)); contradiction]. lia.
    - destruct (v_phase s) as [|u n|n| | |] eqn:Ep; try discriminate.
      + destruct I1 as (A1 & A2 & A3 & A4). destruct (per =? 0) eqn:E0.
        * apply Z.eqb_eq in E0. injection Hs as <-. repeat split; cbn; auto. right. split; [exact E0|].
          destruct n; [|specialize (A3 ltac:(discriminate)); contradiction].
          destruct (v_log s) as [|[x t] [|]]; try discriminate. cbn in A1, A4. destruct A1 as (-> & A1 & _).
          exists t, (v_now s). split; [reflexivity|lia].
        * apply Z.eqb_neq in E0. injection Hs as <-. repeat split; cbn; auto.
          unfold ready. destruct (rev (v_log s)) as [|[x t] r]; [contradiction|]. unfold pl. lia.
      + injection Hs as <-. repeat split; cbn; auto.
    - destruct (v_phase s) as [|u n|n| | |] eqn:Ep; try discriminate; injection Hs as <-; repeat split; cbn; auto.
    - injection Hs as <-. repeat split; cbn; auto. destruct (v_phase s); exact I.
  Qed.

  Lemma spaced_nth l : forall i t k n u, spaced i t l -> nth_error l k = Some (n, u) -> n = OnNext (i + k)%nat /\ t + Z.of_nat k * pl <= u.
  Proof.
    induction l as [|[n' v] l IH]; intros i t k n u Hs Hk; [destruct k; discriminate|].
    destruct Hs as (-> & H2 & H3). destruct k as [|k]; cbn in Hk.
    - injection Hk as <- <-. split; [f_equal; lia|lia].
    - destruct (IH _ _ _ _ _ H3 Hk) as [-> Hu]. split; [f_equal; lia|lia].
  Qed.

  Lemma iv_elements h s : ivreach sec per t0 h s -> per <> 0 -> forall k n u, nth_error (v_log s) k = Some (n, u) ->
    n = OnNext k /\ t0 + Z.max 0 sec + Z.of_nat k * Z.max 0 per <= u.
  Proof.
    intros Hr Hp k n u Hk. destruct (iv_reach Hr) as (_ & _ & [[Hs _]|[F _]]); [|contradiction]. apply (spaced_nth _ _ _ _ Hs Hk).
  Qed.

  Lemma iv_timer h s : ivreach sec per t0 h s -> per = 0 ->
    v_log s = [] \/ exists t, t0 + Z.max 0 sec <= t /\ (v_log s = [(OnNext 0%nat, t)] \/ exists t', t <= t' /\ v_log s = [(OnNext 0%nat, t); (OnCompleted, t')]).
  Proof.
    intros Hr Hp. destruct (iv_reach Hr) as (_ & _ & [[Hs Hl]|[_ (t & t' & E & Ht)]]).
    - specialize (Hl Hp). destruct (v_log s) as [|[n t] [|]]; cbn in Hl; [auto| |lia]. destruct Hs as (-> & Hs & _). right. exists t. auto.
    - right. exists t. split; [unfold sl in *; lia|]. right. exists t'. split; [lia|exact E].
  Qed.

  Lemma iv_det h s s' : ivreach sec per t0 h s -> ivreach sec per t0 h s' -> s = s'.
  Proof.
    intros H. revert s'. induction H as [|h s l s1 H IH Hs]; intros s' H'.
    - inversion H' as [|h' ? l' ? ? ? E]; [reflexivity|]. destruct h'; discriminate.
    - inversion H' as [E|h' s0 l' s2 H0 Hs0 E]; [destruct h; discriminate|].
      apply app_inj_tail in E as [-> ->]. apply IH in H0. subst s0. congruence.
  Qed.

  Lemma iv_cancel h1 s1 h2 s2 : ivreach sec per t0 h1 s1 -> ivreach sec per t0 (h1 ++ XCancel :: h2) s2 -> v_log s2 = v_log s1.
  Proof.
    intros H1 H2. assert (Hi : v_log s2 = v_log s1 /\ (v_phase s2 = IDone \/ v_phase s2 = IDead)); [|tauto].
    remember (h1 ++ XCancel :: h2) as h eqn:Eh. revert h2 Eh. induction H2 as [|h s l s' Hr IH Hs]; intros h2 Eh; [destruct h1; discriminate|].
    destruct h2 as [|x h2 _] using rev_ind.
    - apply app_inj_tail in Eh as [-> ->]. rewrite (iv_det Hr H1) in *. cbn in Hs. injection Hs as <-. cbn. split; [reflexivity|]. destruct (v_phase s1); auto.
    - change (XCancel :: h2 ++ [x]) with ((XCancel :: h2) ++ [x]) in Eh. rewrite app_assoc in Eh.
      apply app_inj_tail in Eh as [-> ->]. destruct (IH h2 eq_refl) as [E P].
      destruct x; cbn in Hs; try discriminate.
      + destruct (0 <? dt); [|discriminate]. injection Hs as <-. auto.
      + unfold ivwork in Hs. destruct P as [P|P]; rewrite P in Hs; discriminate.
      + destruct P as [P|P]; rewrite P in Hs; discriminate.
      + destruct P as [P|P]; rewrite P in Hs; discriminate.
      + injection Hs as <-. cbn. split; [exact E|]. destruct P as [-> | ->]; auto.
  Qed.

  (** Punctual runs. *)
  Lemma ticks_snoc p ends : forall st k e, ticks p st k (ends ++ [e]) = ticks p st k ends ++ [(OnNext (S (k + length ends)%nat), e + p)].
  Proof.
    induction ends as [|x ends IH]; intros st k e; cbn.
    - now rewrite Nat.add_0_r.
    - rewrite IH. rewrite <- Nat.add_succ_comm. reflexivity.
  Qed.
  Lemma ivp_snoc h l : iv_punctual sec per t0 (h ++ [l]) -> iv_punctual sec per t0 h.
  Proof. intros P h1 dt h2 s1 -> H1. eapply (P h1 dt (h2 ++ [l])); [now rewrite <- app_assoc|exact H1]. Qed.

  Definition pv_inv (s : ivstate) : Prop :=
    match v_phase s with
    | IStart => v_now s = t0 /\ v_log s = [] /\ v_ends s = []
    | ISleep u n => ticks pl (t0 + sl) 0 (v_ends s) = v_log s ++ [(OnNext n, u)] /\ v_now s <= u /\ length (v_ends s) = n
    | ICall n => ticks pl (t0 + sl) 0 (v_ends s) = v_log s /\ length (v_ends s) = n
    | IClose => per = 0
    | _ => True
    end /\ (per = 0 \/ prefix (v_log s) (ticks pl (t0 + sl) 0 (v_ends s))).
  Lemma pv_reach h s : ivreach sec per t0 h s -> iv_punctual sec per t0 h -> pv_inv s.
  Proof.
    induction 1 as [|h s l s' Hr IH Hs]; intros HP.
    { split; cbn; auto. right. apply prefix_nil. }
    destruct (IH (@ivp_snoc h l HP)) as [P1 P2]. clear IH. unfold pv_inv. destruct l as [dt|n| | |e|]; cbn in Hs; try discriminate.
    - destruct (0 <? dt) eqn:E; [|discriminate]. injection Hs as <-. cbn. split; [|exact P2].
      destruct (HP h dt [] s eq_refl Hr) as [Hw Hu]. unfold ivwork in Hw.
      destruct (v_phase s) as [|u n|n| | |]; auto; [discriminate|]. destruct P1 as (Q1 & Q2 & Q3). auto.
    - unfold ivwork in Hs. destruct (v_phase s) as [|u n|n| | |] eqn:Ep; try discriminate.
      + destruct P1 as (Q1 & Q2 & Q3). injection Hs as <-. cbn. rewrite Q1, Q2, Q3. cbn. repeat split; [lia|]. right. apply prefix_nil.
      + destruct P1 as (Q1 & Q2 & Q3). destruct (u <=? v_now s) eqn:E; [|discriminate]. apply Z.leb_le in E. injection Hs as <-. cbn.
        assert (u = v_now s) as -> by lia. rewrite Q1. repeat split; auto. right. apply prefix_refl.
    - destruct (v_phase s) as [|u n|n| | |] eqn:Ep; try discriminate.
      + destruct P1 as (Q1 & Q2). destruct (per =? 0) eqn:E0; injection Hs as <-; cbn.
        * apply Z.eqb_eq in E0. auto.
        * rewrite ticks_snoc, Q1, Q2. cbn. split; [|right; apply prefix_app]. split; [reflexivity|].
          rewrite app_length, Q2. cbn. unfold pl. lia.
      + injection Hs as <-. cbn. auto.
    - destruct (v_phase s) as [|u n|n| | |] eqn:Ep; try discriminate; injection Hs as <-; cbn; auto.
    - injection Hs as <-. cbn. split; [destruct (v_phase s); exact I|exact P2].
  Qed.
  Lemma iv_punct h s : ivreach sec per t0 h s -> iv_punctual sec per t0 h -> per <> 0 ->
    prefix (v_log s) (ticks (Z.max 0 per) (t0 + Z.max 0 sec) 0 (v_ends s)).
  Proof. intros Hr HP Hp. destruct (pv_reach Hr HP) as [_ [F|F]]; [contradiction|exact F]. Qed.

  Definition iv_now_inv (s : ivstate) : Prop := exists more, map snd (v_log s) = v_ends s ++ more /\
    match v_phase s with ICall _ => more = [v_now s] | IStart | ISleep _ _ => more = [] | _ => True end.
  Lemma ivi_reach h s : ivreach sec per t0 h s -> iv_instantaneous sec per t0 h -> iv_now_inv s.
  Proof.
    induction 1 as [|h s l s' Hr IH Hs]; intros [HP HI]; [exists []; split; reflexivity|].
    assert (HI' : iv_instantaneous sec per t0 h).
    { split; [exact (@ivp_snoc h l HP)|]. intros h1 dt h2 s1 n -> H1. eapply (HI h1 dt (h2 ++ [l]) s1); [now rewrite <- app_assoc|exact H1]. }
    destruct (IH HI') as (more & M1 & M2). unfold iv_now_inv. destruct l as [dt|n| | |e|]; cbn in Hs; try discriminate.
    - destruct (0 <? dt) eqn:E; [|discriminate]. injection Hs as <-. exists more. cbn. split; [exact M1|].
      destruct (v_phase s) eqn:Ep; auto. exfalso. eapply (HI h dt [] s); eauto.
    - unfold ivwork in Hs. destruct (v_phase s) as [|u n|n| | |] eqn:Ep; try discriminate.
      + injection Hs as <-. exists more. cbn. auto.
      + destruct (u <=? v_now s); [|discriminate]. injection Hs as <-. exists [v_now s]. cbn. subst more. rewrite map_app, M1, app_nil_r. auto.
    - destruct (v_phase s) as [|u n|n| | |] eqn:Ep; try discriminate.
      + subst more. destruct (per =? 0); injection Hs as <-; cbn.
        * exists [v_now s]. rewrite map_app, M1. auto.
        * exists []. rewrite M1, app_nil_r. auto.
      + injection Hs as <-. exists more. cbn. auto.
    - destruct (v_phase s) as [|u n|n| | |] eqn:Ep; try discriminate; injection Hs as <-; exists more; cbn; auto.
    - injection Hs as <-. exists more. cbn. split; [exact M1|]. destruct (v_phase s); exact I.
  Qed.

  Lemma ticks_nth p ends : forall st k more j n u, (exists l, prefix l (ticks p st k ends) /\ map snd l = ends ++ more /\ nth_error l j = Some (n, u)) ->
    n = OnNext (k + j)%nat /\ u = st + Z.of_nat j * p.
  Proof.
    induction ends as [|e ends IH]; intros st k more j n u (l & [r El] & Em & Hj); cbn in El.
    - destruct l as [|x [|y l]]; [destruct j; discriminate| |destruct l; discriminate]. cbn in El. injection El as <- _.
      destruct j as [|j]; cbn in Hj; [|destruct j; discriminate]. injection Hj as <- <-. split; [f_equal; lia|lia].
    - destruct l as [|x l]; [discriminate|]. cbn in El, Em. injection El as <- El. cbn in Em. injection Em as <- Em.
      destruct j as [|j]; cbn in Hj.
      + injection Hj as <- <-. split; [f_equal; lia|lia].
      + destruct (IH (st + p) (S k) more j n u) as [-> ->]; [exists l; repeat split; auto; now exists r|]. split; [f_equal; lia|lia].
  Qed.

  Lemma iv_instant h s : ivreach sec per t0 h s -> iv_instantaneous sec per t0 h -> per <> 0 ->
    forall k n u, nth_error (v_log s) k = Some (n, u) -> n = OnNext k /\ u = t0 + Z.max 0 sec + Z.of_nat k * Z.max 0 per.
  Proof.
    intros Hr HI Hp k n u Hk. destruct (ivi_reach Hr HI) as (more & M1 & _). pose proof (iv_punct Hr (proj1 HI) Hp) as P.
    apply (@ticks_nth (Z.max 0 per) (v_ends s) (t0 + Z.max 0 sec) 0 more k n u). eauto.
  Qed.

  Lemma iv_progress h s u n : ivreach sec per t0 h s -> v_phase s = ISleep u n ->
    exists h2 s', ivreach sec per t0 (h ++ h2) s' /\ v_log s' = v_log s ++ [(OnNext n, Z.max u (v_now s))] /\ v_phase s' = ICall n.
  Proof.
    intros Hr Ep. destruct (Z.leb_spec u (v_now s)) as [Hu|Hu].
    - exists [XWork]. eexists. split; [eapply ir_snoc; [exact Hr|]|].
      + cbn. unfold ivwork. rewrite Ep. replace (u <=? v_now s) with true by (symmetry; apply Z.leb_le; lia). reflexivity.
      + cbn. rewrite Z.max_r by lia. auto.
    - exists [XTick (u - v_now s); XWork]. eexists. split.
      + change [XTick (u - v_now s); XWork] with ([XTick (u - v_now s)] ++ [@XWork nat]). rewrite app_assoc.
        eapply ir_snoc; [eapply ir_snoc; [exact Hr|]|].
        * cbn. replace (0 <? u - v_now s) with true by (symmetry; apply Z.ltb_lt; lia). reflexivity.
        * cbn. unfold ivwork. cbn. rewrite Ep. replace (u <=? v_now s + (u - v_now s)) with true by (symmetry; apply Z.leb_le; lia). reflexivity.
      + cbn. replace (v_now s + (u - v_now s)) with u by lia. rewrite Z.max_l by lia. auto.
  Qed.
End Interval.

Fixpoint ivrun (sec per : Z) (s : ivstate) (h : list (xlabel nat)) : option ivstate :=
  match h with
  | [] => Some s
  | l :: r => match ivstep sec per s l with Some s' => ivrun sec per s' r | None => None end
  end.
Lemma ivrun_reach sec per t0 (h2 : list (xlabel nat)) : forall h1 s s', ivreach sec per t0 h1 s -> ivrun sec per s h2 = Some s' -> ivreach sec per t0 (h1 ++ h2) s'.
Proof.
  induction h2 as [|l h2 IH]; cbn; intros h1 s s' Hr E.
  - injection E as <-. now rewrite app_nil_r.
  - destruct (ivstep sec per s l) as [s1|] eqn:E1; [|discriminate].
    change (l :: h2) with ([l] ++ h2). rewrite app_assoc. eapply IH; [|exact E]. eapply ir_snoc; eauto.
Qed.
Lemma ivrun_init sec per t0 (h : list (xlabel nat)) s : ivrun sec per (iv_init t0) h = Some s -> ivreach sec per t0 h s.
Proof. intros E. exact (ivrun_reach _ (ir_nil sec per t0) E). Qed.

(** Deciding whether a history is punctual (for the examples). *)
Definition on_tick_x {A} (strict : bool) (s : xstate A) (dt : Z) : bool :=
  match xwork s with None => true | Some _ => false end &&
  match x_phase s with XSleep _ u => x_now s + dt <=? u | XCall _ => negb strict | _ => true end.
Fixpoint punct_b {A} (strict : bool) (d : Z) (s : xstate A) (h : list (xlabel A)) : bool :=
  match h with
  | [] => true
  | l :: r => match l with XTick dt => on_tick_x strict s dt | _ => true end &&
              match xstep d s l with Some s' => punct_b strict d s' r | None => true end
  end.
Lemma xreach_det A (d t0 : Z) (h : list (xlabel A)) s s' : xreach d t0 h s -> xreach d t0 h s' -> s = s'.
Proof.
  intros H. revert s'. induction H as [|h s l s1 H IH Hs]; intros s' H'.
  - inversion H' as [|h' ? l' ? ? ? E]; [reflexivity|]. destruct h'; discriminate.
  - inversion H' as [E|h' s0 l' s2 H0 Hs0 E]; [destruct h; discriminate|].
    apply app_inj_tail in E as [-> ->]. apply IH in H0. subst s0. congruence.
Qed.
Lemma xreach_split A (d t0 : Z) (h1 : list (xlabel A)) l s : xreach d t0 (h1 ++ [l]) s -> exists s0, xreach d t0 h1 s0 /\ xstep d s0 l = Some s.
Proof. intros H. inversion H as [E|h s0 l' s2 H0 Hs0 E]; [destruct h1; discriminate|]. apply app_inj_tail in E as [-> ->]. eauto. Qed.
Lemma xreach_prefix A (d t0 : Z) (a : list (xlabel A)) : forall h1 s, xreach d t0 (h1 ++ a) s -> exists s0, xreach d t0 h1 s0.
Proof.
  induction a as [|l a IH] using rev_ind; intros h1 s H; [rewrite app_nil_r in H; eauto|].
  rewrite app_assoc in H. apply xreach_split in H as (s0 & H & _). eauto.
Qed.
Lemma punct_b_ok A strict (d t0 : Z) (a : list (xlabel A)) : forall h1 s h2 dt b s1, xreach d t0 h1 s -> punct_b strict d s h2 = true ->
  h2 = a ++ XTick dt :: b -> xreach d t0 (h1 ++ a) s1 -> on_tick_x strict s1 dt = true.
Proof.
  induction a as [|l a IH]; intros h1 s h2 dt b s1 Hr Hb -> Hr'.
  - rewrite app_nil_r in Hr'. rewrite <- (xreach_det Hr Hr'). cbn [punct_b app] in Hb. apply andb_true_iff in Hb. tauto.
  - change (l :: a) with ([l] ++ a) in Hr'. rewrite app_assoc in Hr'. destruct (@xreach_prefix A d t0 a (h1 ++ [l]) s1 Hr') as (s0 & H0).
    pose proof (xreach_split _ _ H0) as (s' & H1 & Hs). rewrite <- (xreach_det Hr H1) in Hs. cbn [punct_b app] in Hb. apply andb_true_iff in Hb as [_ Hb].
    rewrite Hs in Hb. eapply IH; [exact H0|exact Hb|reflexivity|exact Hr'].
Qed.
Lemma punctual_check A (d t0 : Z) (h : list (xlabel A)) : punct_b false d (x_init t0) h = true -> punctual d t0 h.
Proof.
  intros Hb h1 dt h2 s1 E Hr. pose proof (@punct_b_ok A false d t0 h1 [] _ h dt h2 s1 (xr_nil d t0) Hb E Hr) as Ho.
  unfold on_tick_x in Ho. destruct (xwork s1); [discriminate|]. split; [reflexivity|]. cbn in Ho.
  destruct (x_phase s1); auto. now apply Z.leb_le.
Qed.
Lemma instantaneous_check A (d t0 : Z) (h : list (xlabel A)) : punct_b true d (x_init t0) h = true -> instantaneous d t0 h.
Proof.
  intros Hb. assert (Ho : forall h1 dt h2 s1, h = h1 ++ XTick dt :: h2 -> xreach d t0 h1 s1 -> on_tick_x true s1 dt = true).
  { intros h1 dt h2 s1 E Hr. exact (@punct_b_ok A true d t0 h1 [] _ h dt h2 s1 (xr_nil d t0) Hb E Hr). }
  unfold on_tick_x in Ho. split.
  - intros h1 dt h2 s1 E Hr. specialize (Ho h1 dt h2 s1 E Hr). destruct (xwork s1); [discriminate|]. split; [reflexivity|]. cbn in Ho.
    destruct (x_phase s1); auto. now apply Z.leb_le.
  - intros h1 dt h2 s1 n E Hr Ep. specialize (Ho h1 dt h2 s1 E Hr). rewrite Ep in Ho. destruct (xwork s1); discriminate.
Qed.

Definition on_tick_v (strict : bool) (sec : Z) (s : ivstate) (dt : Z) : bool :=
  match ivwork sec s with None => true | Some _ => false end &&
  match v_phase s with ISleep u _ => v_now s + dt <=? u | ICall _ => negb strict | _ => true end.
Fixpoint ivpunct_b (strict : bool) (sec per : Z) (s : ivstate) (h : list (xlabel nat)) : bool :=
  match h with
  | [] => true
  | l :: r => match l with XTick dt => on_tick_v strict sec s dt | _ => true end &&
              match ivstep sec per s l with Some s' => ivpunct_b strict sec per s' r | None => true end
  end.
Lemma ivreach_split sec per t0 (h1 : list (xlabel nat)) l s : ivreach sec per t0 (h1 ++ [l]) s -> exists s0, ivreach sec per t0 h1 s0 /\ ivstep sec per s0 l = Some s.
Proof. intros H. inversion H as [E|h s0 l' s2 H0 Hs0 E]; [destruct h1; discriminate|]. apply app_inj_tail in E as [-> ->]. eauto. Qed.
Lemma ivreach_prefix sec per t0 (a : list (xlabel nat)) : forall h1 s, ivreach sec per t0 (h1 ++ a) s -> exists s0, ivreach sec per t0 h1 s0.
Proof.
  induction a as [|l a IH] using rev_ind; intros h1 s H; [rewrite app_nil_r in H; eauto|].
  rewrite app_assoc in H. apply ivreach_split in H as (s0 & H & _). eauto.
Qed.
Lemma ivpunct_b_ok strict sec per t0 (a : list (xlabel nat)) : forall h1 s h2 dt b s1, ivreach sec per t0 h1 s -> ivpunct_b strict sec per s h2 = true ->
  h2 = a ++ XTick dt :: b -> ivreach sec per t0 (h1 ++ a) s1 -> on_tick_v strict sec s1 dt = true.
Proof.
  induction a as [|l a IH]; intros h1 s h2 dt b s1 Hr Hb -> Hr'.
  - rewrite app_nil_r in Hr'. rewrite <- (iv_det Hr Hr'). cbn [ivpunct_b app] in Hb. apply andb_true_iff in Hb. tauto.
  - change (l :: a) with ([l] ++ a) in Hr'. rewrite app_assoc in Hr'. destruct (@ivreach_prefix sec per t0 a (h1 ++ [l]) s1 Hr') as (s0 & H0).
    pose proof (ivreach_split _ _ H0) as (s' & H1 & Hs). rewrite <- (iv_det Hr H1) in Hs. cbn [ivpunct_b app] in Hb. apply andb_true_iff in Hb as [_ Hb].
    rewrite Hs in Hb. eapply IH; [exact H0|exact Hb|reflexivity|exact Hr'].
Qed.
Lemma iv_instantaneous_check sec per t0 (h : list (xlabel nat)) : ivpunct_b true sec per (iv_init t0) h = true -> iv_instantaneous sec per t0 h.
Proof.
  intros Hb. assert (Ho : forall h1 dt h2 s1, h = h1 ++ XTick dt :: h2 -> ivreach sec per t0 h1 s1 -> on_tick_v true sec s1 dt = true).
  { intros h1 dt h2 s1 E Hr. exact (@ivpunct_b_ok true sec per t0 h1 [] _ h dt h2 s1 (ir_nil sec per t0) Hb E Hr). }
  unfold on_tick_v in Ho. split.
  - intros h1 dt h2 s1 E Hr. specialize (Ho h1 dt h2 s1 E Hr). destruct (ivwork sec s1); [discriminate|]. split; [reflexivity|]. cbn in Ho.
    destruct (v_phase s1); auto. now apply Z.leb_le.
  - intros h1 dt h2 s1 n E Hr Ep. specialize (Ho h1 dt h2 s1 E Hr). rewrite Ep in Ho. destruct (ivwork sec s1); discriminate.
Qed.
Lemma iv_punctual_check sec per t0 (h : list (xlabel nat)) : ivpunct_b false sec per (iv_init t0) h = true -> iv_punctual sec per t0 h.
Proof.
  intros Hb h1 dt h2 s1 E Hr. pose proof (@ivpunct_b_ok false sec per t0 h1 [] _ h dt h2 s1 (ir_nil sec per t0) Hb E Hr) as Ho.
  unfold on_tick_v in Ho. destruct (ivwork sec s1); [discriminate|]. split; [reflexivity|]. cbn in Ho.
  destruct (v_phase s1); auto. now apply Z.leb_le.
Qed.

(** Running a history of several subscriptions. *)
Lemma xall_det A (d t0 : Z) (h : list (nat * xlabel A)) s s' : xreach_all d t0 h s -> xreach_all d t0 h s' -> forall j, s j = s' j.
Proof. intros H H' j. eapply xreach_det; apply project_reach; eassumption. Qed.

(** From an idle, uncancelled worker with a message in the box, the next
    message is delivered as soon as time allows. *)
Lemma x_progress A (d t0 : Z) (h : list (xlabel A)) s n due r : xreach d t0 h s -> x_phase s = XIdle -> x_cancelled s = false ->
  x_box s = (n, due) :: r ->
  exists h2 s', xreach d t0 (h ++ h2) s' /\ arrivals 0 h2 = [] /\ x_log s' = x_log s ++ [(n, Z.max due (x_now s))] /\ x_phase s' = XCall n /\ x_box s' = r.
Proof.
  intros Hr Ep Ec Eb. destruct (0 <? due - x_now s) eqn:E.
  - apply Z.ltb_lt in E. exists [XWork; XTick (due - x_now s); XWork]. eexists. split.
    + eapply xrun_reach; [exact Hr|]. cbn. unfold xwork. rewrite Ep, Ec, Eb.
      replace (0 <? due - x_now s) with true by (symmetry; apply Z.ltb_lt; lia). cbn.
      replace (0 <? due - x_now s) with true by (symmetry; apply Z.ltb_lt; lia). cbn. unfold xwork. cbn.
      replace (due <=? x_now s + (due - x_now s)) with true by (symmetry; apply Z.leb_le; lia). reflexivity.
    + cbn. replace (x_now s + (due - x_now s)) with due by lia. rewrite Z.max_l by lia. auto.
  - apply Z.ltb_ge in E. exists [XWork]. eexists. split.
    + eapply xrun_reach; [exact Hr|]. cbn. unfold xwork. rewrite Ep, Ec, Eb.
      replace (0 <? due - x_now s) with false by (symmetry; apply Z.ltb_ge; lia). reflexivity.
    + cbn. rewrite Z.max_r by lia. auto.
Qed.
