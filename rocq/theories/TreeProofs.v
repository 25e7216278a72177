(** * Proofs about subscribing to and disposing of pipelines. *)
From Verif Require Export Tree.
From Coq Require Export Permutation.
Set Implicit Arguments.

Section TreeProofs.
  Implicit Types (l : list event).

  Lemma subscribed_app l1 l2 : subscribed (l1 ++ l2) = subscribed l1 ++ subscribed l2.
  Proof. apply flat_map_app. Qed.
  Lemma disposed_app l1 l2 : disposed (l1 ++ l2) = disposed l1 ++ disposed l2.
  Proof. apply flat_map_app. Qed.
  Lemma stopped_app l1 l2 : stopped (l1 ++ l2) = stopped l1 ++ stopped l2.
  Proof. apply flat_map_app. Qed.

  Lemma up_to_raise_app f a b : up_to_raise f (a ++ b) = match raised f a with Some _ => up_to_raise f a | None => a ++ up_to_raise f b end.
  Proof.
    induction a as [|i a IH]; [reflexivity|]. cbn. destruct (f i); [reflexivity|]. rewrite IH. destruct (raised f a); reflexivity.
  Qed.
  Lemma raised_app f a b : raised f (a ++ b) = match raised f a with Some e => Some e | None => raised f b end.
  Proof. induction a as [|i a IH]; [reflexivity|]. cbn. destruct (f i); [reflexivity|exact IH]. Qed.
  Lemma up_to_raise_none f a : raised f a = None -> up_to_raise f a = a.
  Proof. induction a as [|i a IH]; [reflexivity|]. cbn. destruct (f i); [discriminate|]. intros H. now rewrite (IH H). Qed.

  Lemma unguarded_written o i : In i (unguarded o) -> In i (written o).
  Proof.
    induction o as [j|o IH|a IHa b IHb|a IHa b IHb|x o IH]; cbn; auto; [| |contradiction]; rewrite !in_app_iff; intuition.
  Qed.
  Lemma raised_none f a : raised f a = None <-> forall i, In i a -> f i = None.
  Proof.
    induction a as [|j a IH]; cbn; [intuition|]. destruct (f j) eqn:E.
    - split; [discriminate|]. intros H. specialize (H j (or_introl eq_refl)). congruence.
    - rewrite IH. split; [intros H i [<-|Hi]; auto|auto].
  Qed.

  Lemma sources_written o : Permutation (sources o) (written o).
  Proof.
    induction o as [i|o IH|a IHa b IHb|a IHa b IHb|x o IH]; cbn; auto.
    - now apply Permutation_app.
    - rewrite Permutation_app_comm. now apply Permutation_app.
  Qed.

  Variable sf : nat -> option exn.

  Lemma subscribe_log o : fst (subscribe sf o) = map ESub (up_to_raise sf (sources o)) /\
    match snd (subscribe sf o) with Ok _ => raised sf (sources o) = None | Err e => raised sf (sources o) = Some e end.
  Proof.
    induction o as [i|o IH|a IHa b IHb|a IHa b IHb|x o IH]; cbn [subscribe sources].
    - cbn. destruct (sf i); auto.
    - exact IH.
    - destruct (subscribe sf a) as [l1 [d1|e]]; cbn [fst snd] in IHa; destruct IHa as [-> Ha]; rewrite up_to_raise_app, raised_app, Ha.
      + destruct (subscribe sf b) as [l2 r2]; cbn [fst snd] in IHb; destruct IHb as [-> Hb]. cbn [fst snd].
        rewrite (up_to_raise_none _ _ Ha), map_app. split; [reflexivity|]. destruct r2; exact Hb.
      + cbn. auto.
    - destruct (subscribe sf b) as [l1 [d1|e]]; cbn [fst snd] in IHb; destruct IHb as [-> Hb]; rewrite up_to_raise_app, raised_app, Hb.
      + destruct (subscribe sf a) as [l2 r2]; cbn [fst snd] in IHa; destruct IHa as [-> Ha]. cbn [fst snd].
        rewrite (up_to_raise_none _ _ Hb), map_app. split; [reflexivity|]. destruct r2; exact Ha.
      + cbn. auto.
    - destruct (subscribe sf o) as [l [d|e]]; cbn [fst snd] in *; exact IH.
  Qed.

  (** The disposable a pipeline gives. *)
  Fixpoint fresh (o : obs) : disp :=
    match o with
    | Src i => DSrc i
    | Pass o => fresh o
    | Both a b | Until a b => DAll (fresh a) (fresh b)
    | Once x o => DOnce false x (fresh o)
    end.
  Lemma subscribe_fresh o d : snd (subscribe sf o) = Ok d -> d = fresh o.
  Proof.
    revert d. induction o as [i|o IH|a IHa b IHb|a IHa b IHb|x o IH]; intros d; cbn [subscribe fresh].
    - cbn. destruct (sf i); congruence.
    - exact (IH d).
    - destruct (subscribe sf a) as [l1 [d1|e]]; [|discriminate]. destruct (subscribe sf b) as [l2 [d2|e]]; [|discriminate].
      cbn. intros E. injection E as <-. now rewrite (IHa d1 eq_refl), (IHb d2 eq_refl).
    - destruct (subscribe sf b) as [l1 [d1|e]]; [|discriminate]. destruct (subscribe sf a) as [l2 [d2|e]]; [|discriminate].
      cbn. intros E. injection E as <-. now rewrite (IHa d2 eq_refl), (IHb d1 eq_refl).
    - destruct (subscribe sf o) as [l [d1|e]]; [|discriminate]. cbn. intros E. injection E as <-. now rewrite (IH d1 eq_refl).
  Qed.

  Variable df : nat -> option exn.

  Lemma dispose_fresh o : 
    disposed (fst (fst (dispose df (fresh o)))) = up_to_raise df (written o) /\
    snd (fst (dispose df (fresh o))) = raised df (written o).
  Proof.
    induction o as [i|o IH|a IHa b IHb|a IHa b IHb|x o IH]; cbn [fresh dispose written].
    - cbn. destruct (df i); auto.
    - exact IH.
    - destruct (dispose df (fresh a)) as [[l1 e1] a']; cbn [fst snd] in IHa; destruct IHa as [Ha Ea].
      rewrite up_to_raise_app, raised_app, <- Ea, <- Ha. destruct e1; [cbn; auto|].
      destruct (dispose df (fresh b)) as [[l2 e2] b']; cbn [fst snd] in *; destruct IHb as [Hb Eb].
      rewrite disposed_app, Ha, Hb, up_to_raise_none by congruence. auto.
    - destruct (dispose df (fresh a)) as [[l1 e1] a']; cbn [fst snd] in IHa; destruct IHa as [Ha Ea].
      rewrite up_to_raise_app, raised_app, <- Ea, <- Ha. destruct e1; [cbn; auto|].
      destruct (dispose df (fresh b)) as [[l2 e2] b']; cbn [fst snd] in *; destruct IHb as [Hb Eb].
      rewrite disposed_app, Ha, Hb, up_to_raise_none by congruence. auto.
    - destruct (dispose df (fresh o)) as [[l e] d']; cbn [fst snd] in *. destruct IH as [H E]. rewrite !disposed_app, H.
      split; [|exact E]. destruct x; destruct e; cbn; now rewrite ?app_nil_r.
  Qed.

  Lemma stop_fresh o : raised df (written o) = None -> Permutation (stopped (fst (fst (dispose df (fresh o))))) (workers o).
  Proof.
    induction o as [i|o IH|a IHa b IHb|a IHa b IHb|x o IH]; cbn [fresh dispose written workers]; intros Hr.
    - constructor.
    - exact (IH Hr).
    - rewrite raised_app in Hr. destruct (raised df (written a)) eqn:Ra; [discriminate|]. specialize (IHa eq_refl). specialize (IHb Hr).
      destruct (dispose_fresh a) as [_ Ea]. destruct (dispose df (fresh a)) as [[l1 e1] a']. cbn [fst snd] in *. rewrite Ea, Ra.
      destruct (dispose df (fresh b)) as [[l2 e2] b']. cbn [fst snd] in *. rewrite stopped_app. now apply Permutation_app.
    - rewrite raised_app in Hr. destruct (raised df (written a)) eqn:Ra; [discriminate|]. specialize (IHa eq_refl). specialize (IHb Hr).
      destruct (dispose_fresh a) as [_ Ea]. destruct (dispose df (fresh a)) as [[l1 e1] a']. cbn [fst snd] in *. rewrite Ea, Ra.
      destruct (dispose df (fresh b)) as [[l2 e2] b']. cbn [fst snd] in *. rewrite stopped_app. now apply Permutation_app.
    - specialize (IH Hr). destruct (dispose_fresh o) as [_ Eo]. destruct (dispose df (fresh o)) as [[l e] d']. cbn [fst snd] in *.
      rewrite Eo, Hr, !stopped_app. destruct x as [|w|w]; cbn; rewrite ?app_nil_r; auto. rewrite <- Permutation_cons_append. now constructor.
  Qed.

  (** Every disposable of a pipeline in use. *)
  Fixpoint shape (o : obs) (d : disp) : Prop :=
    match o, d with
    | Src i, DSrc j => i = j
    | Pass o, d => shape o d
    | Both a b, DAll c d | Until a b, DAll c d => shape a c /\ shape b d
    | Once x o, DOnce true y d => True
    | _, _ => False
    end.
  Lemma shape_dispose o d : shape o d -> raised df (unguarded o) = None ->
    exists l d', dispose df d = (l, None, d') /\ disposed l = unguarded o /\ stopped l = [] /\ shape o d'.
  Proof.
    revert d. induction o as [i|o IH|a IHa b IHb|a IHa b IHb|x o IH]; intros d H Hr; cbn [shape unguarded] in *.
    - destruct d as [j| |]; try contradiction. subst j. cbn in *. destruct (df i); [discriminate|]. eexists _, _. repeat split.
    - exact (IH d H Hr).
    - destruct d as [|c d|]; try contradiction. destruct H as [H1 H2]. rewrite raised_app in Hr. destruct (raised df (unguarded a)) eqn:Ra; [discriminate|].
      destruct (IHa c H1 eq_refl) as (l1 & c' & E1 & D1 & S1 & P1). destruct (IHb d H2 Hr) as (l2 & d' & E2 & D2 & S2 & P2).
      cbn. rewrite E1, E2. eexists _, _. split; [reflexivity|]. rewrite disposed_app, stopped_app, D1, D2, S1, S2. repeat split; auto.
    - destruct d as [|c d|]; try contradiction. destruct H as [H1 H2]. rewrite raised_app in Hr. destruct (raised df (unguarded a)) eqn:Ra; [discriminate|].
      destruct (IHa c H1 eq_refl) as (l1 & c' & E1 & D1 & S1 & P1). destruct (IHb d H2 Hr) as (l2 & d' & E2 & D2 & S2 & P2).
      cbn. rewrite E1, E2. eexists _, _. split; [reflexivity|]. rewrite disposed_app, stopped_app, D1, D2, S1, S2. repeat split; auto.
    - destruct d as [| |[] y d]; try contradiction. cbn. eexists _, _. repeat split.
  Qed.

  Lemma fresh_shape o : raised df (written o) = None -> shape o (snd (dispose df (fresh o))).
  Proof.
    induction o as [i|o IH|a IHa b IHb|a IHa b IHb|x o IH]; cbn [fresh dispose written shape]; intros Hr.
    - reflexivity.
    - exact (IH Hr).
    - rewrite raised_app in Hr. destruct (raised df (written a)) eqn:Ra; [discriminate|]. specialize (IHa eq_refl). specialize (IHb Hr).
      destruct (dispose_fresh a) as [_ Ea]. destruct (dispose df (fresh a)) as [[l1 e1] a']. cbn [fst snd] in *. rewrite Ea, Ra.
      destruct (dispose df (fresh b)) as [[l2 e2] b']. cbn [fst snd] in *. auto.
    - rewrite raised_app in Hr. destruct (raised df (written a)) eqn:Ra; [discriminate|]. specialize (IHa eq_refl). specialize (IHb Hr).
      destruct (dispose_fresh a) as [_ Ea]. destruct (dispose df (fresh a)) as [[l1 e1] a']. cbn [fst snd] in *. rewrite Ea, Ra.
      destruct (dispose df (fresh b)) as [[l2 e2] b']. cbn [fst snd] in *. auto.
    - destruct (dispose df (fresh o)) as [[l e] d']. cbn. exact I.
  Qed.

  Lemma times_shape n o d : shape o d -> raised df (unguarded o) = None ->
    disposed (fst (dispose_times df n d)) = concat (repeat (unguarded o) n) /\ stopped (fst (dispose_times df n d)) = [].
  Proof.
    revert d. induction n as [|n IH]; intros d H Hr; [auto|]. cbn [dispose_times repeat concat].
    destruct (shape_dispose o d H Hr) as (l & d' & -> & D & S & P). destruct (IH d' P Hr) as [D2 S2].
    destruct (dispose_times df n d') as [l2 d2]. cbn [fst] in *. now rewrite disposed_app, stopped_app, D, S, D2, S2.
  Qed.

  Lemma times_fresh n o : raised df (written o) = None ->
    disposed (fst (dispose_times df (S n) (fresh o))) = written o ++ concat (repeat (unguarded o) n) /\
    Permutation (stopped (fst (dispose_times df (S n) (fresh o)))) (workers o).
  Proof.
    intros Hr. cbn [dispose_times]. destruct (dispose_fresh o) as [D E]. pose proof (stop_fresh o Hr) as S. pose proof (fresh_shape o Hr) as P.
    destruct (dispose df (fresh o)) as [[l e] d']. cbn [fst snd] in *.
    assert (Hu : raised df (unguarded o) = None).
    { rewrite raised_none in *. intros i Hi. apply Hr, unguarded_written, Hi. }
    destruct (times_shape n o d' P Hu) as [D2 S2]. destruct (dispose_times df n d') as [l2 d2]. cbn [fst] in *.
    rewrite disposed_app, stopped_app, D, D2, S2, app_nil_r, up_to_raise_none by exact Hr. auto.
  Qed.

  (** A disposable of its own: the second time nothing happens. *)
  Lemma once_dead x d df2 : fst (dispose df2 (snd (dispose df (DOnce false x d)))) = ([], None).
  Proof. cbn. destruct (dispose df d) as [[l e] d']. reflexivity. Qed.
End TreeProofs.

Lemma subscribed_map l : subscribed (map ESub l) = l.
Proof. induction l as [|i l IH]; [reflexivity|]. cbn. now f_equal. Qed.
Lemma disposed_map l : disposed (map ESub l) = [].
Proof. induction l as [|i l IH]; [reflexivity|]. exact IH. Qed.
