(** * Operators of two observables, in programs. *)
From Verif Require Import Ops3Proofs LawsProofs Programs.
Set Implicit Arguments.

Lemma delivers_det Z M (S : system Z M) ms l l' : delivers S ms l -> delivers S ms l' -> l' = l.
Proof. intros (_ & U & _) (F & _ & _). exact (U _ F). Qed.

Section Calls.
  Context {A B : Type}.
  Implicit Types ms : list (either A B).
  Lemma srcs_app ms ms' : srcs (ms ++ ms') = srcs ms ++ srcs ms'.
  Proof. apply flat_map_app. Qed.
  Lemma oths_app ms ms' : oths (ms ++ ms') = oths ms ++ oths ms'.
  Proof. apply flat_map_app. Qed.
  Lemma srcs_arr (arr : arrivals A B) : srcs (map msg_of arr) = map OnNext (lefts arr).
  Proof. induction arr as [|[a|b] arr IH]; cbn; [reflexivity| |exact IH]. unfold lefts in *. cbn. now f_equal. Qed.
  Lemma oths_arr (arr : arrivals A B) : oths (map msg_of arr) = map OnNext (rights arr).
  Proof. induction arr as [|[a|b] arr IH]; cbn; [reflexivity|exact IH|]. unfold rights in *. cbn. now f_equal. Qed.
  Lemma srcs_src (l : list (notif A)) : @srcs A B (map Src l) = l.
  Proof. induction l; cbn; [reflexivity|now f_equal]. Qed.
  Lemma oths_oth (l : list (notif B)) : @oths A B (map Oth l) = l.
  Proof. induction l; cbn; [reflexivity|now f_equal]. Qed.
  Lemma srcs_oth (l : list (notif B)) : @srcs A B (map Oth l) = [].
  Proof. induction l; cbn; [reflexivity|assumption]. Qed.
  Lemma oths_src (l : list (notif A)) : @oths A B (map Src l) = [].
  Proof. induction l; cbn; [reflexivity|assumption]. Qed.
  Lemma srcs_tu (arr : arrivals A unit) : @srcs A B (map tu_msg arr) = map OnNext (lefts arr).
  Proof. induction arr as [|[a|b] arr IH]; cbn; [reflexivity| |exact IH]. unfold lefts in *. cbn. now f_equal. Qed.
  Lemma oths_tu (arr : arrivals A unit) : @oths A B (map tu_msg arr) = repeat OnCompleted (length (rights arr)).
  Proof. induction arr as [|[a|b] arr IH]; cbn; [reflexivity|exact IH|]. unfold rights in *. cbn. now f_equal. Qed.
End Calls.

Lemma trace_app A (us ws : list A) e : trace (us ++ ws) e = map OnNext us ++ trace ws e.
Proof. unfold trace. now rewrite map_app, <- app_assoc. Qed.
Lemma trace_begin A (us : list A) : forall vs e q, trace vs e = map OnNext us ++ q -> exists ws, vs = us ++ ws /\ q = trace ws e.
Proof.
  induction us as [|u us IH]; intros vs e q E; [now exists vs|]. destruct vs as [|v vs]; [destruct e; discriminate|]. cbn in E. injection E as -> E.
  destruct (IH _ _ _ E) as (ws & -> & ->). now exists ws.
Qed.
(** A trace that begins with a terminal call. *)
Definition term {A} (e : ending) : list (notif A) := match e with Open => [] | Failed x => [OnError x] | Completed => [OnCompleted] end.
Lemma trace_term A (vs : list A) d e q : e <> Open -> trace vs d = term e ++ q -> vs = [] /\ d = e /\ q = [].
Proof. intros He E. destruct e; [contradiction| |]; (destruct vs; [|discriminate]); destruct d; try discriminate; cbn in E; injection E; intros; subst; auto. Qed.

Section First.
  Context {A B : Type} (xs : list A) (da : ending) (ys : list B) (db : ending).
  Lemma first_end_of (arr : arrivals A B) t junk : (forall m, t = Some m -> ends m <> Open) ->
    srcs (two_sources arr t junk) = trace xs da -> oths (two_sources arr t junk) = trace ys db -> first_end xs da ys db arr (ending_of t).
  Proof.
    intros Ht Hx Hy. unfold two_sources in *. rewrite srcs_app, srcs_arr in Hx. rewrite oths_app, oths_arr in Hy. symmetry in Hx, Hy.
    destruct (trace_begin _ _ _ _ Hx) as (xs' & -> & Ex). destruct (trace_begin _ _ _ _ Hy) as (ys' & -> & Ey).
    split; [now exists xs'|]. split; [now exists ys'|]. destruct t as [m|]; cbn.
    - specialize (Ht m eq_refl). destruct m as [n|n]; cbn in Ex, Ey.
      + destruct n as [a|x|]; [now elim Ht| |]; symmetry in Ex.
        * apply (@trace_term A xs' da (Failed x) _) in Ex as (-> & -> & _); [|discriminate]. left. now rewrite app_nil_r.
        * apply (@trace_term A xs' da Completed _) in Ex as (-> & -> & _); [|discriminate]. left. now rewrite app_nil_r.
      + destruct n as [a|x|]; [now elim Ht| |]; symmetry in Ey.
        * apply (@trace_term B ys' db (Failed x) _) in Ey as (-> & -> & _); [|discriminate]. right. now rewrite app_nil_r.
        * apply (@trace_term B ys' db Completed _) in Ey as (-> & -> & _); [|discriminate]. right. now rewrite app_nil_r.
    - cbn in Ex, Ey. destruct xs'; [|discriminate]. destruct ys'; [|discriminate]. rewrite !app_nil_r. destruct da; try discriminate. destruct db; try discriminate. auto.
  Qed.
  Lemma first_end_by (arr : arrivals A B) e : first_end xs da ys db arr e ->
    exists t junk, (forall m, t = Some m -> ends m <> Open) /\ ending_of t = e /\
      srcs (two_sources arr t junk) = trace xs da /\ oths (two_sources arr t junk) = trace ys db.
  Proof.
    intros ([xs' Ex] & [ys' Ey] & H).
    assert (K1 : da = e -> lefts arr = xs -> e <> Open -> exists t junk, (forall m, t = Some m -> ends m <> Open) /\ ending_of t = e /\
      srcs (two_sources arr t junk) = trace xs da /\ oths (two_sources arr t junk) = trace ys db).
    { intros -> El He. exists (match e with Open => None | Failed x => Some (Src (OnError x)) | Completed => Some (Src OnCompleted) end), (map Oth (trace ys' db)).
      split; [intros m Hm; destruct e; [discriminate| |]; injection Hm as <-; discriminate|]. split; [now destruct e|]. unfold two_sources.
      rewrite srcs_app, oths_app, srcs_arr, oths_arr, El. destruct e; [contradiction| |]; cbn; fold (@srcs A B) (@oths A B);
        (split; [change (flat_map _ (map Oth (trace ys' db))) with (@srcs A B (map Oth (trace ys' db))); now rewrite srcs_oth|
                 change (flat_map _ (map Oth (trace ys' db))) with (@oths A B (map Oth (trace ys' db))); now rewrite oths_oth, Ey, trace_app]). }
    assert (K2 : db = e -> rights arr = ys -> e <> Open -> exists t junk, (forall m, t = Some m -> ends m <> Open) /\ ending_of t = e /\
      srcs (two_sources arr t junk) = trace xs da /\ oths (two_sources arr t junk) = trace ys db).
    { intros -> El He. exists (match e with Open => None | Failed x => Some (Oth (OnError x)) | Completed => Some (Oth OnCompleted) end), (map Src (trace xs' da)).
      split; [intros m Hm; destruct e; [discriminate| |]; injection Hm as <-; discriminate|]. split; [now destruct e|]. unfold two_sources.
      rewrite srcs_app, oths_app, srcs_arr, oths_arr, El. destruct e; [contradiction| |]; cbn;
        (split; [change (flat_map _ (map Src (trace xs' da))) with (@srcs A B (map Src (trace xs' da))); now rewrite srcs_src, Ex, trace_app|
                 change (flat_map _ (map Src (trace xs' da))) with (@oths A B (map Src (trace xs' da))); now rewrite oths_src]). }
    destruct e as [|x|].
    - destruct H as (-> & -> & El & Er). exists None, []. split; [discriminate|]. split; [reflexivity|]. unfold two_sources, trace. cbn. now rewrite !app_nil_r, srcs_arr, oths_arr, El, Er.
    - destruct H as [[D E]|[D E]]; [now apply K1|now apply K2].
    - destruct H as [[D E]|[D E]]; [now apply K1|now apply K2].
  Qed.
End First.

Lemma combine_delivers A B (arr : arrivals A B) t junk : (forall m, t = Some m -> ends m <> Open) ->
  delivers (combine_latest_sys well_behaved PEnd) (two_sources arr t junk) (trace (combined arr) (ending_of t)).
Proof. intros H. apply to_subscriber_s; [apply sane_msys|]. intros l. now apply cl_stage. Qed.
Lemma with_delivers A B (arr : arrivals A B) t junk : (forall m, t = Some m -> ends m <> Open) ->
  delivers (with_latest_from_sys well_behaved PEnd) (two_sources arr t junk) (trace (with_latest arr) (ending_of t)).
Proof. intros H. apply to_subscriber_s; [apply sane_msys|]. intros l. now apply wl_stage. Qed.
Lemma until_delivers A B (arr : arrivals A unit) (t : option (either A B)) junk : (forall m, t = Some m -> tu_ends m <> Open) ->
  delivers (take_until_sys well_behaved PEnd) (tu_calls arr t junk) (trace (lefts arr) (match t with Some m => tu_ends m | None => Open end)).
Proof. intros H. apply to_subscriber_s; [apply sane_ssys|]. intros l. now apply tu_stage. Qed.

Lemma lefts_inl A B (xs : list A) : lefts (map (@inl A B) xs) = xs.
Proof. unfold lefts. rewrite map_map. induction xs; cbn; [reflexivity|now f_equal]. Qed.
Lemma tu_inl A B (xs : list A) : map (@tu_msg A B) (map inl xs) = map Src (map OnNext xs).
Proof. now rewrite !map_map. Qed.
Lemma lefts_app A B (a b : arrivals A B) : lefts (a ++ b) = lefts a ++ lefts b.
Proof. unfold lefts. rewrite map_app. induction (map _ a) as [|[x|] l IH]; cbn; [reflexivity|now f_equal|exact IH]. Qed.

Lemma no_next A (y : A) n ys db q : repeat OnCompleted n ++ OnNext y :: q = trace ys db -> ys <> [].
Proof.
  intros E ->. assert (K : In (OnNext y) (trace ([] : list A) db)) by (rewrite <- E; apply in_or_app; right; now left).
  destruct db; cbn in K; intuition discriminate.
Qed.
Lemma only_error A x n (ys : list A) db q : repeat OnCompleted n ++ OnError x :: q = trace ys db -> ys = [] /\ db = Failed x.
Proof.
  destruct n as [|n]; cbn; intros E; symmetry in E.
  - apply (@trace_term A ys db (Failed x) _) in E as (-> & -> & _); [auto|discriminate].
  - apply (@trace_term A ys db Completed _) in E as (_ & _ & E); [|discriminate]. destruct n; discriminate.
Qed.
Lemma only_completed A n (ys : list A) db : repeat OnCompleted n = trace ys db -> ys = [] /\ (db = Open \/ db = Completed).
Proof.
  destruct n as [|n]; cbn; intros E; symmetry in E.
  - destruct ys; [|discriminate]. destruct db; try discriminate. auto.
  - apply (@trace_term A ys db Completed _) in E as (-> & -> & _); [auto|discriminate].
Qed.

Lemma until_sound A B (xs : list A) da (ys : list B) db ms l : srcs ms = trace xs da -> oths ms = trace ys db ->
  delivers (take_until_sys well_behaved PEnd) ms l -> exists vs e, paired (PUntil A B) xs da ys db vs e /\ l = trace vs e.
Proof.
  intros Hx Hy D. destruct (tu_calls_any ms) as (arr & t & junk & Ht & ->). pose proof (delivers_det (@until_delivers A B arr t junk Ht) D) as ->.
  eexists _, _. split; [|reflexivity]. unfold tu_calls in *. rewrite srcs_app, srcs_tu in Hx. rewrite oths_app, oths_tu in Hy. symmetry in Hx.
  destruct (trace_begin _ _ _ _ Hx) as (xs' & -> & Ex). assert (P : prefix (lefts arr) (lefts arr ++ xs')) by now exists xs'.
  destruct t as [m|]; cbn.
  - specialize (Ht m eq_refl). destruct m as [n|n]; cbn in Ex, Hy.
    + destruct n as [a|x|]; [now elim Ht| |]; symmetry in Ex; left.
      * apply (@trace_term A xs' da (Failed x) _) in Ex as (-> & -> & _); [|discriminate]. rewrite app_nil_r. repeat split. discriminate.
      * apply (@trace_term A xs' da Completed _) in Ex as (-> & -> & _); [|discriminate]. rewrite app_nil_r. repeat split. discriminate.
    + destruct n as [b|x|]; [|right; right; left|now elim Ht].
      * right. left. split; [exact P|]. split; [exact (@no_next _ _ _ _ _ _ Hy)|reflexivity].
      * destruct (@only_error _ _ _ _ _ _ Hy) as [-> ->]. exists x. auto.
  - right. right. right. cbn in Ex, Hy. rewrite app_nil_r in Hy. destruct (@only_completed _ _ _ _ Hy) as [-> Hd]. destruct xs'; [|discriminate].
    rewrite app_nil_r. destruct da; try discriminate. auto.
Qed.

Definition pad {A} (n : bool) : arrivals A unit := if n then [inr tt] else [].
Lemma until_complete A B (xs : list A) da (ys : list B) db vs e : paired (PUntil A B) xs da ys db vs e ->
  exists ms, srcs ms = trace xs da /\ oths ms = trace ys db /\ delivers (take_until_sys well_behaved PEnd) ms (trace vs e).
Proof.
  assert (K : forall us (n : bool) (t : option (either A B)) junk, (forall m, t = Some m -> tu_ends m <> Open) ->
     delivers (take_until_sys well_behaved PEnd) (tu_calls (map inl us ++ pad n) t junk)
       (trace us (match t with Some m => tu_ends m | None => Open end))).
  { intros us n t junk Ht. pose proof (@until_delivers A B (map inl us ++ pad n) t junk Ht) as D.
    rewrite lefts_app, lefts_inl in D. destruct n; cbn [lefts map somes pad] in D; rewrite (app_nil_r us) in D; exact D. }
  assert (S1 : forall us (n : bool) (t : option (either A B)) junk, srcs (tu_calls (map inl us ++ pad n) t junk) = map OnNext us ++ srcs (match t with Some m => m :: junk | None => [] end)).
  { intros. unfold tu_calls. rewrite srcs_app, srcs_tu, lefts_app, lefts_inl. f_equal. f_equal. destruct n; cbn; now rewrite app_nil_r. }
  assert (S2 : forall us (n : bool) (t : option (either A B)) junk, oths (tu_calls (map inl us ++ pad n) t junk) = (if n then [OnCompleted] else []) ++ oths (match t with Some m => m :: junk | None => [] end)).
  { intros. unfold tu_calls. rewrite oths_app, map_app, tu_inl, oths_app, oths_src. now destruct n. }
  intros [(-> & -> & He)|[([xs' ->] & Hy & ->)|[(x & [xs' ->] & -> & -> & ->)|(-> & -> & -> & Hd & ->)]]].
  - exists (tu_calls (map inl xs ++ pad false) (match da with Open => None | Failed x => Some (Src (OnError x)) | Completed => Some (Src OnCompleted) end) (map Oth (trace ys db))).
    rewrite S1, S2. destruct da as [|x|]; [contradiction| |].
    + cbn [srcs oths flat_map app]. fold (@srcs A B). split; [change (flat_map _ (map Oth (trace ys db))) with (@srcs A B (map Oth (trace ys db))); now rewrite srcs_oth|].
      split; [exact (oths_oth (trace ys db))|]. apply (K xs false (Some (Src (OnError x)))). intros m [= <-]. discriminate.
    + cbn [srcs oths flat_map app]. split; [change (flat_map _ (map Oth (trace ys db))) with (@srcs A B (map Oth (trace ys db))); now rewrite srcs_oth|].
      split; [exact (oths_oth (trace ys db))|]. apply (K xs false (Some (Src OnCompleted))). intros m [= <-]. discriminate.
  - destruct ys as [|y ys]; [contradiction|]. exists (tu_calls (map inl vs ++ pad false) (Some (Oth (OnNext y))) (map Oth (trace ys db) ++ map Src (trace xs' da))).
    rewrite S1, S2. change (Oth (OnNext y) :: map Oth (trace ys db) ++ map Src (trace xs' da)) with (@map _ (either A B) Oth (trace (y :: ys) db) ++ map Src (trace xs' da)).
    rewrite srcs_app, oths_app, srcs_oth, srcs_src, oths_oth, oths_src, trace_app. split; [reflexivity|]. split; [apply app_nil_r|].
    apply (K vs false (Some (Oth (OnNext y)))). intros m [= <-]. discriminate.
  - exists (tu_calls (map inl vs ++ pad false) (Some (Oth (OnError x))) (map Src (trace xs' da))).
    rewrite S1, S2, trace_app. split; [cbn; f_equal; exact (srcs_src _)|]. split; [cbn; f_equal; exact (oths_src _)|].
    apply (K vs false (Some (Oth (OnError x)))). intros m [= <-]. discriminate.
  - exists (tu_calls (map inl xs ++ pad (match db with Completed => true | _ => false end)) None []).
    rewrite S1, S2. split; [reflexivity|]. split; [destruct Hd as [-> | ->]; reflexivity|]. apply (K xs _ None). discriminate.
Qed.

Lemma pair_sound A B C (k : pairing A B C) xs da ys db ms l : srcs ms = trace xs da -> oths ms = trace ys db ->
  delivers (pair_sys k) ms l -> exists vs e, paired k xs da ys db vs e /\ l = trace vs e.
Proof.
  destruct k as [A B|A B|A B]; intros Hx Hy D; [| |exact (until_sound _ _ _ _ Hx Hy D)]; destruct (two_sources_any ms) as (arr & t & junk & Ht & ->).
  - pose proof (delivers_det (@combine_delivers A B arr t junk Ht) D) as ->. eexists _, _. split; [|reflexivity]. exists arr. split; [now apply first_end_of with junk|reflexivity].
  - pose proof (delivers_det (@with_delivers A B arr t junk Ht) D) as ->. eexists _, _. split; [|reflexivity]. exists arr. split; [now apply first_end_of with junk|reflexivity].
Qed.
Lemma pair_complete A B C (k : pairing A B C) xs da ys db vs e : paired k xs da ys db vs e ->
  exists ms, srcs ms = trace xs da /\ oths ms = trace ys db /\ delivers (pair_sys k) ms (trace vs e).
Proof.
  destruct k as [A B|A B|A B]; [| |apply until_complete]; intros (arr & F & ->); destruct (first_end_by F) as (t & junk & Ht & <- & Hx & Hy);
    exists (two_sources arr t junk); (split; [exact Hx|]); (split; [exact Hy|]); [now apply combine_delivers|now apply with_delivers].
Qed.
