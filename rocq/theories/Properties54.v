(** * Property C96: combine_latest, with_latest_from and take_until with one AsyncSubject as both sources. *)
From Verif Require Import DiamondProofs.
Set Implicit Arguments.

(** ** C96 *)

(** The two sides are called in turn: for every call of the subject first the
    observer subscribed first, then the other one. *)
Theorem C96_order : forall A p q (h during : list (ulabel A)) s vs e, p <> q -> NoDup (subscribers h) ->
  ureach h s -> awaited h -> u_idle s -> both_sides p q h during -> emits during vs e ->
  put_in p q (fun n => (p, n)) (fun n => (q, n)) s = flat_map (fun n => [(p, n); (q, n)]) (trace vs e).
Proof. intros A p q h during s vs e. apply put_in_emits. Qed.
Print Assumptions C96_order.

(** combine_latest: every element but the first is combined with its predecessor first, then with itself. *)
Theorem C96_combine_latest : forall A B C (f : A -> B) (g : A -> C) p q (h during : list (ulabel A)) s vs e, p <> q -> NoDup (subscribers h) ->
  ureach h s -> awaited h -> u_idle s -> both_sides p q h during -> emits during vs e ->
  delivers (combine_latest_sys well_behaved PEnd) (pair_in p q f g s) (trace (self_combined f g None vs) e).
Proof.
  intros A B C f g p q h during s vs e PQ N R W I K E. unfold pair_in.
  rewrite (put_in_emits (fun n => Src (renamed f n)) (fun n => Oth (renamed g n)) PQ N R W I K E). apply twice_combine.
Qed.
Print Assumptions C96_combine_latest.

(** with_latest_from: every element but the first is combined with its predecessor, never with itself. *)
Theorem C96_with_latest_from : forall A B C (f : A -> B) (g : A -> C) p q (h during : list (ulabel A)) s vs e, p <> q -> NoDup (subscribers h) ->
  ureach h s -> awaited h -> u_idle s -> both_sides p q h during -> emits during vs e ->
  delivers (with_latest_from_sys well_behaved PEnd) (pair_in p q f g s) (trace (self_latest f g vs) e).
Proof.
  intros A B C f g p q h during s vs e PQ N R W I K E. unfold pair_in.
  rewrite (put_in_emits (fun n => Src (renamed f n)) (fun n => Oth (renamed g n)) PQ N R W I K E). apply twice_latest.
Qed.
Print Assumptions C96_with_latest_from.

(** take_until: the first element ends the result before it can get through. *)
Theorem C96_take_until : forall A B C (f : A -> B) (g : A -> C) p q (h during : list (ulabel A)) s vs e, p <> q -> NoDup (subscribers h) ->
  ureach h s -> awaited h -> u_idle s -> both_sides p q h during -> emits during vs e ->
  delivers (take_until_sys well_behaved PEnd) (until_in p q f g s) (trace [] (match vs with [] => e | _ => Completed end)).
Proof.
  intros A B C f g p q h during s vs e PQ N R W I K E. unfold until_in.
  rewrite (put_in_emits (fun n => Oth (renamed g n)) (fun n => Src (renamed f n)) PQ N R W I K E).
  destruct vs as [|v vs].
  - destruct (twice_until_nil f g e) as (arr & t & junk & -> & T & L & <-). rewrite <- L. now apply until_delivers.
  - destruct (twice_until f g v vs e) as [junk ->].
    refine (@until_delivers B C [] (Some (Oth (OnNext (g v)))) junk _). now intros m [= <-].
Qed.
Print Assumptions C96_take_until.

(** A subject with an observer 9 of its own; 1 is sent, the result is subscribed (observers 4 and 5), 2 and 3 are sent,
    the result is disposed, 6 is sent. *)
Definition ex96 : list (ulabel nat) :=
  [USub 9; UCall (OnNext 1); URet 0; USub 4; USub 5; UCall (OnNext 2); URet 1; URet 1; URet 1; UCall (OnNext 3); URet 2; URet 2; URet 2;
   UUnsub 1; UUnsub 2; UCall (OnNext 6); URet 3].
Definition during96 : list (ulabel nat) := [UCall (OnNext 2); URet 1; URet 1; URet 1; UCall (OnNext 3); URet 2; URet 2; URet 2].

Example C96_case : exists s, ureach ex96 s /\ awaited ex96 /\ u_idle s /\ NoDup (subscribers ex96) /\
  both_sides 4 5 ex96 during96 /\ emits during96 [2; 3] Open /\
  delivers (combine_latest_sys well_behaved PEnd) (pair_in 4 5 (fun x => x) (fun x => 10 * x) s) [OnNext (2, 20); OnNext (3, 20); OnNext (3, 30)] /\
  delivers (with_latest_from_sys well_behaved PEnd) (pair_in 4 5 (fun x => x) (fun x => 10 * x) s) [OnNext (3, 20)] /\
  delivers (take_until_sys well_behaved PEnd) (until_in 4 5 (fun x => x) (fun x => 10 * x) s) [OnCompleted].
Proof.
  assert (R : exists s, urun u_init ex96 = Some s /\ idleb s = true) by (eexists; split; [vm_compute; reflexivity|reflexivity]).
  destruct R as (s & R & Rc). apply urun_init in R. apply idleb_ok in Rc.
  assert (W : awaited ex96) by (apply awaitedb_ok; reflexivity).
  assert (N : NoDup (subscribers ex96)) by (repeat constructor; cbn; intuition discriminate).
  assert (B : both_sides 4 5 ex96 during96).
  { apply (@both_left nat 4 5 [USub 9; UCall (OnNext 1); URet 0] during96 [UCall (OnNext 6); URet 3]); [reflexivity|reflexivity|].
    intros k H. cbn in H. intuition discriminate. }
  assert (E : emits during96 [2; 3] Open) by (exists []; split; reflexivity).
  exists s. split; [exact R|]. split; [exact W|]. split; [exact Rc|]. split; [exact N|]. split; [exact B|]. split; [exact E|].
  split; [|split].
  - refine (@C96_combine_latest _ _ _ _ _ 4 5 _ _ _ [2; 3] Open _ N R W Rc B E). discriminate.
  - refine (@C96_with_latest_from _ _ _ _ _ 4 5 _ _ _ [2; 3] Open _ N R W Rc B E). discriminate.
  - refine (@C96_take_until _ _ _ _ _ 4 5 _ _ _ [2; 3] Open _ N R W Rc B E). discriminate.
Qed.

(** merge: each element twice, once from each side, before the next one. *)
Theorem C96_merge : forall O A B (f g : A -> B) p q (h during : list (ulabel A)) s vs e (hm : list (mlabel O B)) sm, p <> q -> NoDup (subscribers h) ->
  ureach h s -> awaited h -> u_idle s -> both_sides p q h during -> emits during vs e ->
  merged_twice hm sm -> inner_calls hm = put_in p q (fun n => (0, renamed f n)) (fun n => (1, renamed g n)) s ->
  delivers (psys well_behaved (safe PEnd)) (requests (m_log sm)) (trace (flat_map (fun v => [f v; g v]) vs) e).
Proof.
  intros O A B f g p q h during s vs e hm sm PQ N R W I K E M Q.
  rewrite (put_in_emits (fun n => (0, renamed f n)) (fun n => (1, renamed g n)) PQ N R W I K E) in Q. exact (merge_doubled f g vs e M Q).
Qed.
Print Assumptions C96_merge.

(** That each element is combined with itself, and with nothing else, is false of both operators. *)
Theorem C96_with_itself_refuted :
  ~ (forall A (h during : list (ulabel A)) s vs e, NoDup (subscribers h) ->
     ureach h s -> awaited h -> u_idle s -> both_sides 4 5 h during -> emits during vs e ->
     delivers (combine_latest_sys well_behaved PEnd) (pair_in 4 5 (fun x => x) (fun x => x) s) (trace (map (fun v => (v, v)) vs) e)) /\
  ~ (forall A (h during : list (ulabel A)) s vs e, NoDup (subscribers h) ->
     ureach h s -> awaited h -> u_idle s -> both_sides 4 5 h during -> emits during vs e ->
     delivers (with_latest_from_sys well_behaved PEnd) (pair_in 4 5 (fun x => x) (fun x => x) s) (trace (map (fun v => (v, v)) vs) e)).
Proof.
  destruct C96_case as (s & R & W & I & N & B & E & _).
  split; intros H; specialize (H _ _ _ _ _ _ N R W I B E).
  - assert (D := @C96_combine_latest _ _ _ (fun x => x) (fun x => x) 4 5 _ _ _ _ _ (fun F => O_S _ (eq_add_S _ _ (eq_add_S _ _ (eq_add_S _ _ (eq_add_S _ _ F))))) N R W I B E).
    destruct D as [D _], H as (_ & H & _). specialize (H _ D). discriminate.
  - assert (D := @C96_with_latest_from _ _ _ (fun x => x) (fun x => x) 4 5 _ _ _ _ _ (fun F => O_S _ (eq_add_S _ _ (eq_add_S _ _ (eq_add_S _ _ (eq_add_S _ _ F))))) N R W I B E).
    destruct D as [D _], H as (_ & H & _). specialize (H _ D). discriminate.
Qed.
Print Assumptions C96_with_itself_refuted.

(** merge of the subject with itself in the history above: 2, 20, 3, 30. *)
Example C96_merge_case : exists s (sm : mstate nat nat), ureach ex96 s /\
  let hm := [LOuter (OnNext 7); LOuter (OnNext 7); LOuter OnCompleted; LWork; LWork; LWork; LWork; LWork;
             LInner 0 (OnNext 2); LInner 1 (OnNext 20); LInner 0 (OnNext 3); LInner 1 (OnNext 30)] in
  merged_twice hm sm /\ inner_calls hm = put_in 4 5 (fun n => (0, renamed (fun x => x) n)) (fun n => (1, renamed (fun x => 10 * x) n)) s /\
  delivers (psys well_behaved (safe PEnd)) (requests (m_log sm)) [OnNext 2; OnNext 20; OnNext 3; OnNext 30].
Proof.
  destruct C96_case as (s & R & W & I & N & B & E & _).
  assert (M : exists sm : mstate nat nat, merged_twice [LOuter (OnNext 7); LOuter (OnNext 7); LOuter OnCompleted; LWork; LWork; LWork; LWork; LWork;
             LInner 0 (OnNext 2); LInner 1 (OnNext 20); LInner 0 (OnNext 3); LInner 1 (OnNext 30)] sm).
  { eexists. constructor; [apply mrun_init; vm_compute; reflexivity|reflexivity| | |reflexivity].
    - split; [exists [7; 7], Completed; reflexivity|cbn; tauto].
    - split; [intros e F; cbn in F; intuition discriminate|]. intros l F [->|[e ->]]; cbn in F; intuition discriminate. }
  destruct M as [sm M]. exists s, sm. split; [exact R|]. cbv zeta.
  assert (P : put_in 4 5 (fun n => (0, renamed (fun x => x) n)) (fun n => (1, renamed (fun x => 10 * x) n)) s =
    [(0, OnNext 2); (1, OnNext 20); (0, OnNext 3); (1, OnNext 30)]).
  { refine (put_in_emits _ _ _ N R W I B E). discriminate. }
  split; [exact M|]. split; [now rewrite P|].
  refine (@C96_merge _ _ _ (fun x => x) (fun x => 10 * x) 4 5 _ _ _ _ _ _ _ _ N R W I B E M _); [discriminate|now rewrite P].
Qed.
