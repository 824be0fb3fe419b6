(** Proofs for C87. *)
From Coq Require Import List Arith Bool Lia.
From Verif Require Import Base Column RowRange Table Visit SortedTab BagTab TableSpec Hist BaseFacts TableFacts VisitFacts SortedFacts HistFacts RowProps FullSpec FullFacts.
Import ListNotations.

Lemma rug_loop_more pr {A} (f : A -> wlock -> nat -> A * action) n : forall s w rug front back st,
  rug_loop pr f n s w rug front back st <> Err EFuel -> forall k, rug_loop pr f (n + k) s w rug front back st = rug_loop pr f n s w rug front back st.
Proof.
  induction n as [|n IH]; intros s w rug front back st; cbn [rug_loop Nat.add].
  - destruct (Nat.ltb_spec back (t_len (w_tab w))) as [L|L]; [congruence|]. intros _ k. destruct k; cbn [rug_loop]; destruct (Nat.ltb_spec back (t_len (w_tab w))); try lia; reflexivity.
  - destruct (back <? t_len (w_tab w)); [|reflexivity]. set (sa := if st then _ else _). destruct (snd sa) as [rm add|].
    + destruct (t_get_row _ _); [|reflexivity]. cbn [bind]. destruct (rid_next _ _ _); [|reflexivity]. cbn [bind].
      destruct (fill_rug _ _ _ _ _ _); [|reflexivity]. cbn [bind]. apply IH.
    + destruct ((front =? back) && _); [reflexivity|]. destruct (t_get_row _ _); [|reflexivity]. cbn [bind]. destruct (rid_next _ _ _); [|reflexivity]. cbn [bind].
      destruct (fill_rug _ _ _ _ _ _); [|reflexivity]. cbn [bind]. apply IH.
Qed.
Lemma visit_turns_more pr {A} (f : A -> wlock -> nat -> A * action) s w n : visit_turns pr f s w n <> Err EFuel ->
  forall m, n <= m -> visit_turns pr f s w m = visit_turns pr f s w n.
Proof. intros H m L. unfold visit_turns in *. replace m with (n + (m - n)) by lia. apply rug_loop_more; auto. Qed.

Lemma good_ends {A} (P : A -> Prop) (x : res A) : good Debug P x -> ends x.
Proof. destruct x as [a|[c| | |]]; cbn; intro H; try contradiction; try discriminate H. - left; eauto. - right; exists c; reflexivity. Qed.

Section R.
Variables (pr : profile) (umax : nat) (sch : schema) (w : wlock) (its : list bag_pos).
Hypothesis R : reachable pr umax sch (Locked w its).
Hypothesis N : s_kind sch <> Consistent.
Lemma have_rows : exists rows, t_sch (w_tab w) = sch /\ t_kind (w_tab w) <> Consistent /\ t_ok (w_tab w) (fun _ => true) rows.
Proof.
  destruct (reachable_tg _ _ _ _ R) as (E & live & rows & K & _). exists rows. cbn [st_tab] in *.
  assert (Nk : t_kind (w_tab w) <> Consistent) by (unfold t_kind; congruence).
  split; auto. split; auto. eapply t_ok_ext; [|exact K]. intros i Hi. symmetry. apply (ok_live_kind _ _ _ K); auto.
Qed.
Lemma visit_ends A (f : A -> wlock -> nat -> A * action) s :
  (forall s w i s' rm add, f s w i = (s', Continue rm add) -> Forall (row_ty (s_cols sch)) add) ->
  pr = Debug \/ t_len (w_tab w) <= s_imax sch -> ends (visit pr f s w).
Proof.
  intros T H. destruct have_rows as (rows & E & Nk & K). destruct H as [->|L].
  - eapply good_ends. apply (good_merge0 Debug f sch w s); [|exact T]. split; eauto.
  - rewrite (t_len_ok _ _ _ K) in L. unfold visit. destruct (merge0_ok pr f w rows s) as (s' & tr & _ & _ & _ & X); auto.
    { unfold t_imax. rewrite E. exact L. } { rewrite E. exact T. }
    cbn zeta in X. destruct (_ <=? _) in X; [|right; eauto]. destruct X as (w' & X & _). left. eauto.
Qed.
Lemma retain_ends A (f : A -> wlock -> nat -> A * bool) s : pr = Debug \/ t_len (w_tab w) <= s_imax sch -> ends (retain pr f s w).
Proof. intro H. apply (visit_ends A (fun s w i => let p := f s w i in (fst p, Continue (negb (snd p)) []))); auto. intros s0 w0 i s' rm add [= <- <- <-]. constructor. Qed.
Lemma merge_ends A cmp (log : A -> wlock -> nat -> A) s rows : Forall (row_ty (s_cols sch)) rows ->
  pr = Debug \/ t_len (w_tab w) <= s_imax sch -> ends (merge_logged pr cmp log s w rows).
Proof.
  intros T H. destruct have_rows as (old & E & Nk & K). destruct H as [->|L].
  - eapply good_ends. apply (good_merge_logged Debug cmp log sch s w rows); [|exact T]. split; eauto.
  - rewrite (t_len_ok _ _ _ K) in L. destruct rows as [|first rest]; [left; eexists; reflexivity|].
    assert (X := merge_logged_ok pr cmp log s w old first rest Nk K). rewrite E in X. specialize (X).
    assert (Li : length old <= t_imax (w_tab w)) by (unfold t_imax; rewrite E; exact L). specialize (X Li T).
    destruct (_ <=? _) in X; [|right; eauto]. destruct X as (w' & tr & X & _). left. eauto.
Qed.
End R.

Section Rel.
Variables (umax : nat) (sch : schema) (w : wlock) (its : list bag_pos).
Hypothesis R : reachable Release umax sch (Locked w its).
Hypothesis N : s_kind sch <> Consistent.
Hypothesis Fu : s_imax sch < t_len (w_tab w).
Lemma full_rows : exists rows, t_sch (w_tab w) = sch /\ t_kind (w_tab w) <> Consistent /\ t_ok (w_tab w) (fun _ => true) rows /\ length rows = S (t_imax (w_tab w)).
Proof.
  destruct (have_rows Release umax sch w its R N) as (rows & E & Nk & K). exists rows. split; auto. split; auto. split; auto.
  pose proof (ok_len _ _ _ K). pose proof (t_len_ok _ _ _ K). unfold t_imax in *. rewrite E in *. lia.
Qed.
Lemma visit_endless A (f : A -> wlock -> nat -> A * action) s :
  (forall s w i, exists rm add, snd (f s w i) = Continue rm add /\ Forall (row_ty (s_cols sch)) add) -> endless (visit_turns Release f s w).
Proof.
  intros T n. destruct full_rows as (rows & E & Nk & K & L). unfold visit_turns. apply (goes_on w Nk f); try lia.
  - rewrite E. exact T.
  - exists rows. split; [apply frame_refl|]. split; auto.
  - constructor.
Qed.
Lemma retain_endless A (f : A -> wlock -> nat -> A * bool) s : endless (visit_turns Release (keeping f) s w).
Proof. apply visit_endless. intros s0 w0 i. do 2 eexists. split; [reflexivity|constructor]. Qed.
Lemma merge_endless cmp first : (forall i r, i < t_len (w_tab w) -> t_get_row (w_tab w) i = Ok r -> cmp r first = Lt) -> endless (merge_turns Release cmp (w_tab w) first).
Proof.
  intros H n. destruct full_rows as (rows & E & Nk & K & L). eapply skip_goes_on; eauto; try lia.
  intros r Hr. apply In_nth_error in Hr. destruct Hr as [i Hi]. apply (H i). { rewrite (t_len_ok _ _ _ K). eapply nth_error_Some_lt; eauto. } eapply t_get_row_ok; eauto. eapply t_not_deleted; eauto.
Qed.
Lemma merge_else_panics A cmp (log : A -> wlock -> nat -> A) s first rest :
  (exists i r, i < t_len (w_tab w) /\ t_get_row (w_tab w) i = Ok r /\ cmp r first <> Lt) -> exists c, merge_logged Release cmp log s w (first :: rest) = panic c.
Proof.
  intros (i & r & Hi & Hr & Hc). destruct full_rows as (rows & E & Nk & K & L). eapply merge_full; eauto. right. exists r. split; auto.
  assert (Hd : holds (w_tab w) rows) by (eapply holds_of; eauto). destruct Hd as [Hl Hd]. destruct (nth_error_lt_Some rows i) as [r' Hr']; [lia|].
  assert (r' = r) as <- by (apply Hd in Hr'; congruence). eapply nth_error_In; eauto.
Qed.
End Rel.
