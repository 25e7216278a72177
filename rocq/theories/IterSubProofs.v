(** * Proofs about the subscription of an iterated observable. *)
From Verif Require Export IterateProofs.
Set Implicit Arguments.

(** ** Specification *)
(** The acts of a history that satisfy [p]. *)
Definition acts_of {A} (h : list (ilabel (A := A))) : list (act A) := flat_map (fun x => match x with LTurn l => l | LArrive => [] end) h.
Definition count_acts {A} (p : act A -> bool) (h : list ilabel) : nat := length (filter p (acts_of h)).
Definition is_failed {A} (a : act A) : bool := match a with ASubFailed => true | _ => false end.
Definition is_next {A} (a : act A) : bool := match a with ANext => true | _ => false end.
Definition is_subscribed {A} (a : act A) : bool := match a with ASubscribed => true | _ => false end.
Definition num (b : bool) : nat := if b then 1 else 0.
(** __anext__ is in subscribe_async. *)
Definition subscribing {A} (s : istate A) : bool := match i_cons s with CSubscribing => true | _ => false end.

Section Sub.
  Context {A : Type}.
  Implicit Types s : istate A.

  Definition alike s s' : Prop := i_sub s' = i_sub s /\ i_subs s' = i_subs s /\ i_disp s' = i_disp s /\ subscribing s' = subscribing s.

  Lemma resume_alike s h s' b : resume s h = Some (s', b) -> alike s s'.
  Proof. intros E. unfold alike, subscribing. resume_cases E; cbn; repeat split; try congruence; now repeat match goal with H : i_cons _ = _ |- _ => rewrite H end. Qed.

  (** What is held, and what was. *)
  Record acct (f n d : nat) s : Prop := Acct {
    ac_sum : i_subs s = i_disp s + f + num (i_sub s) + num (subscribing s);
    ac_one : subscribing s = true -> i_sub s = false;
    ac_next : i_subs s <= n;
    ac_ok : d = i_disp s + num (i_sub s)
  }.
  Lemma acct_alike f n d s s' : alike s s' -> acct f n d s -> acct f n d s'.
  Proof. intros (E1 & E2 & E3 & E4) [H1 H2 H3 H4]. constructor; rewrite ?E1, ?E2, ?E3, ?E4; auto. Qed.

  Lemma act_acct f n d s a s' b : do_act s a = Some (s', b) -> acct f n d s ->
    acct (f + num (is_failed a)) (n + num (is_next a)) (d + num (is_subscribed a)) s'.
  Proof.
    intros E [H1 H2 H3 H4]. unfold subscribing in *. act_cases E; (constructor; unfold subscribing in *; cbn in *;
      repeat match goal with H : i_cons ?s = _ |- _ => rewrite H in * end; repeat match goal with H : i_sub ?s = _ |- _ => rewrite H in * end; cbn in *; try discriminate; try congruence; try lia; auto).
    all: try (rewrite H2 in * by reflexivity; cbn in *; lia).
  Qed.

  Lemma acts_acct ok l : forall f n d s s', do_acts ok s l = Some s' -> acct f n d s ->
    acct (f + length (filter is_failed l)) (n + length (filter is_next l)) (d + length (filter is_subscribed l)) s'.
  Proof.
    induction l as [|a l IH]; intros f n d s s' E H; cbn in E; [injection E as <-; cbn; now rewrite !Nat.add_0_r|].
    destruct (ok s a); [|discriminate]. destruct (do_act s a) as [[s1 [|]]|] eqn:Ea; [| |discriminate].
    - destruct l; [|discriminate]. injection E as <-. pose proof (act_acct _ Ea H) as G. destruct a; exact G.
    - pose proof (IH _ _ _ _ _ E (act_acct _ Ea H)) as G. destruct a; cbn in *; rewrite ?Nat.add_0_r in G; rewrite <- ?Nat.add_assoc in G; exact G.
  Qed.
  Lemma count_snoc p h (x : ilabel (A := A)) : count_acts p (h ++ [x]) = count_acts p h + match x with LTurn l => length (filter p l) | LArrive => 0 end.
  Proof. unfold count_acts, acts_of. rewrite flat_map_app, filter_app, app_length. cbn. rewrite app_nil_r. destruct x; reflexivity. Qed.

  Lemma reach_acct ok h s : isteps ok i_init h s -> acct (count_acts is_failed h) (count_acts is_next h) (count_acts is_subscribed h) s.
  Proof.
    intros H. remember i_init as s0. induction H as [s0|s0 h x s1 s2 H IH E]; subst; [constructor; cbn; auto; lia|]. specialize (IH eq_refl). rewrite !count_snoc.
    destruct x as [|l]; cbn in E.
    - injection E as <-. rewrite !Nat.add_0_r. apply acct_alike with s1; [repeat split|exact IH].
    - destruct (i_ready s1) as [|h0 r]; [discriminate|]. destruct (resume (set_ready s1 r) h0) as [[t [|]]|] eqn:Et; [| |discriminate]; apply resume_alike in Et.
      + destruct l; [|discriminate]. injection E as <-. cbn. rewrite !Nat.add_0_r. apply acct_alike with s1; [exact Et|exact IH].
      + apply (acts_acct _ _ E). apply acct_alike with s1; [exact Et|exact IH].
  Qed.
End Sub.
