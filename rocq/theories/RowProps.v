(** Lemmas behind PropsRows.v: visit, retain, merge, sorted removal, bags. *)
From Coq Require Import List Arith Bool Lia Sorting.Sorted Sorting.Permutation.
From Verif Require Import Base BaseFacts Column ColumnFacts Order RowRange RowRangeFacts Table TableFacts
  Visit VisitFacts SortedTab SortedFacts BagTab BagFacts TableSpec Hist HistFacts TableProps.
Import ListNotations.

(** A table of another kind than consistent, as a sequence of rows. *)
Lemma holds_of t live rows : t_ok t live rows -> t_kind t <> Consistent -> holds t rows.
Proof.
  intros K N. split; [apply (t_len_ok _ _ _ K)|]. intros i r H. apply (t_get_row_ok _ _ _ K); auto.
  eapply t_not_deleted; eauto.
Qed.
Lemma holds_unique t rows rows' : holds t rows -> holds t rows' -> rows = rows'.
Proof.
  intros [L H] [L' H']. apply list_ext. intro i. destruct (nth_error rows i) as [r|] eqn:E.
  - pose proof (nth_error_Some_lt _ _ _ E) as Li. destruct (nth_error_lt_Some rows' i) as [r' E']; [lia|].
    rewrite E'. apply H in E. apply H' in E'. congruence.
  - symmetry. apply nth_error_None. apply nth_error_None in E. lia.
Qed.
Lemma reachable_rows pr umax sch st rows : reachable pr umax sch st ->
  s_kind sch <> Consistent -> holds (st_tab st) rows ->
  t_sch (st_tab st) = sch /\ t_kind (st_tab st) <> Consistent /\ t_ok (st_tab st) (fun _ => true) rows.
Proof.
  intros R N H. destruct (reachable_tg _ _ _ _ R) as (E & live & rows' & K & _).
  assert (Nk : t_kind (st_tab st) <> Consistent) by (unfold t_kind; congruence).
  assert (rows' = rows) as -> by (eapply holds_unique; [eapply holds_of; eauto|auto]).
  split; auto. split; auto. eapply t_ok_ext; [|exact K]. intros i Hi. symmetry. apply (ok_live_kind _ _ _ K); auto.
Qed.

(** ** Recording callbacks *)
Section Sim.
Variable pr : profile.
Context {S P : Type}.
Variable f : S -> wlock -> nat -> S * action.
Variable F : P -> wlock -> nat -> P * action.
Variable pi : P -> S.
Hypothesis HF : forall p w i, f (pi p) w i = (pi (fst (F p w i)), snd (F p w i)).

Lemma rug_loop_sim fuel : forall p w rug front back stopped,
  rug_loop pr f fuel (pi p) w rug front back stopped =
  let* q := rug_loop pr F fuel p w rug front back stopped in
  Ok (pi (fst (fst q)), snd (fst q), snd q).
Proof.
  induction fuel as [|n IH]; intros p w rug front back stopped; cbn [rug_loop].
  - destruct (_ <? _); reflexivity.
  - destruct (back <? t_len (w_tab w)); [|reflexivity]. rewrite HF.
    assert (X : forall p' act, match act with
      | Continue remove add =>
          let* r := t_get_row (w_tab w) back in
          let rug := if remove then rug else rug ++ [RRow r] in
          let* back := rid_next pr (t_imax (w_tab w)) back in
          let rug := rug ++ [RIter add] in
          let* q := fill_rug pr (back - front) w rug front back in
          rug_loop pr f n (pi p') (fst (fst q)) (snd (fst q)) (snd q) back stopped
      | Break =>
          if (front =? back) && match rug with [] => true | _ => false end then Ok (pi p', w, None)
          else
            let* r := t_get_row (w_tab w) back in
            let rug := rug ++ [RRow r] in
            let* back := rid_next pr (t_imax (w_tab w)) back in
            let* q := fill_rug pr (back - front) w rug front back in
            rug_loop pr f n (pi p') (fst (fst q)) (snd (fst q)) (snd q) back true
      end =
      let* q := match act with
      | Continue remove add =>
          let* r := t_get_row (w_tab w) back in
          let rug := if remove then rug else rug ++ [RRow r] in
          let* back := rid_next pr (t_imax (w_tab w)) back in
          let rug := rug ++ [RIter add] in
          let* q := fill_rug pr (back - front) w rug front back in
          rug_loop pr F n p' (fst (fst q)) (snd (fst q)) (snd q) back stopped
      | Break =>
          if (front =? back) && match rug with [] => true | _ => false end then Ok (p', w, None)
          else
            let* r := t_get_row (w_tab w) back in
            let rug := rug ++ [RRow r] in
            let* back := rid_next pr (t_imax (w_tab w)) back in
            let* q := fill_rug pr (back - front) w rug front back in
            rug_loop pr F n p' (fst (fst q)) (snd (fst q)) (snd q) back true
      end in Ok (pi (fst (fst q)), snd (fst q), snd q)).
    { intros p' [remove add|].
      - destruct (t_get_row (w_tab w) back); [|reflexivity]. cbn [bind]. cbv zeta.
        destruct (rid_next _ _ _) as [b|]; [|reflexivity]. cbn [bind]. destruct (fill_rug _ _ _ _ _ _) as [q|]; [|reflexivity].
        cbn [bind]. apply IH.
      - destruct (_ && _); [reflexivity|]. destruct (t_get_row (w_tab w) back); [|reflexivity]. cbn [bind]. cbv zeta.
        destruct (rid_next _ _ _) as [b|]; [|reflexivity]. cbn [bind]. destruct (fill_rug _ _ _ _ _ _) as [q|]; [|reflexivity].
        cbn [bind]. apply IH. }
    destruct stopped; apply X.
Qed.
Lemma merge0_sim p w : merge0 pr f (pi p) w = let* q := merge0 pr F p w in Ok (pi (fst q), snd q).
Proof.
  unfold merge0. rewrite rug_loop_sim. destruct (rug_loop _ F _ _ _ _ _ _ _) as [[[p1 w1] [[rug front]|]]|]; try reflexivity.
  cbn [bind fst snd]. destruct (truncate w1 front) as [w2|]; [|reflexivity]. cbn [bind].
  destruct (fold_res _ _ w2); reflexivity.
Qed.
End Sim.

Section Rec.
Variable pr : profile.
Context {S : Type}.
Variable f : S -> wlock -> nat -> S * action.
Lemma merge0_rec s l w : merge0 pr f s w = let* q := merge0 pr (recording f) (s, l) w in Ok (fst (fst q), snd q).
Proof.
  apply (merge0_sim pr f (recording f) fst) with (p := (s, l)). intros p w0 i. unfold recording. simpl. destruct (f (fst p) w0 i); reflexivity.
Qed.
Lemma calls_rec tr : forall s l p, calls (recording f) (s, l) tr p -> exists s', p = (s', l ++ tr) /\ calls f s tr s'.
Proof.
  induction tr as [|[[i w] a] tr IH]; intros s l p H; simpl in H.
  - subst. exists s. rewrite app_nil_r. split; reflexivity.
  - destruct H as ((s1 & l1) & E & H). unfold recording in E. cbn [fst snd] in E. inv E.
    apply IH in H. destruct H as (s' & -> & H). exists s'. rewrite <- app_assoc. split; [reflexivity|].
    simpl. exists (fst (f s w i)). split; [destruct (f s w i); reflexivity|exact H].
Qed.
End Rec.

(** ** C20, C21 *)
Lemma visit_exact pr umax sch w its S (f : S -> wlock -> nat -> S * action) s rows :
  reachable pr umax sch (Locked w its) -> s_kind sch <> Consistent ->
  holds (w_tab w) rows -> length rows <= s_imax sch ->
  (forall s w i s' rm add, f s w i = (s', Continue rm add) -> Forall (row_ty (s_cols sch)) add) ->
  exists s' tr,
    acts_complete (length rows) (map snd tr) /\
    (forall k i w1 a, nth_error tr k = Some (i, w1, a) ->
       i = k /\ t_len (w_tab w1) = length rows /\
       forall j, k <= j < length rows -> t_get_row (w_tab w1) j = t_get_row (w_tab w) j) /\
    let out := visit_spec rows (map snd tr) in
    if length out <=? Datatypes.S (s_imax sch) then
      exists w', visit pr (recording f) (s, []) w = Ok ((s', tr), w') /\ visit pr f s w = Ok (s', w') /\
        holds (w_tab w') out
    else visit pr f s w = panic PRowIdRange.
Proof.
  intros R N H L T. destruct (reachable_rows _ _ _ _ _ R N H) as (E & Nk & K). simpl in *.
  assert (Ei : t_imax (w_tab w) = s_imax sch) by (unfold t_imax; congruence).
  destruct (merge0_ok pr (recording f) w rows (s, [])) as (p & tr & C & Se & A & X); auto.
  { rewrite Ei. auto. }
  { rewrite E. intros [s1 l1] w1 i [s2 l2] rm add Q. unfold recording in Q. cbn [fst snd] in Q. inv Q.
    apply (T s1 w1 i (fst (f s1 w1 i)) rm). rewrite <- H3. destruct (f s1 w1 i); reflexivity. }
  apply calls_rec in C. destruct C as (s' & -> & C). exists s', tr.
  assert (Ea : map (@tr_act) tr = map snd tr) by reflexivity. rewrite Ea in *. rewrite Ei in *.
  split; [exact A|]. split.
  - intros k i w1 a Hk. destruct (Se k _ Hk) as (I & cur & (Fr & Kc & Lc) & Sk). simpl in I, Kc, Fr, Sk.
    split; auto. assert (N1 : t_kind (w_tab w1) <> Consistent) by (rewrite (frame_kind _ _ Fr); auto).
    split; [rewrite (t_len_ok _ _ _ Kc); auto|]. intros j Hj.
    destruct (nth_error_lt_Some rows j) as [r Hr]; [lia|].
    rewrite (t_get_row_ok _ _ _ K j r), (t_get_row_ok _ _ _ Kc j r); auto; try (eapply t_not_deleted; eauto).
    assert (Q : nth_error (skipn k cur) (j - k) = nth_error (skipn k rows) (j - k)) by congruence.
    rewrite !nth_error_skipn in Q. replace (k + (j - k)) with j in Q by lia. congruence.
  - cbv zeta in X. unfold visit. rewrite (merge0_rec pr f s [] w). destruct (_ <=? _).
    + destruct X as (w' & X1 & Fr & K'). exists w'. simpl app in X1. rewrite X1. split; [reflexivity|]. split; [reflexivity|].
      eapply holds_of; [exact K'|]. rewrite (frame_kind _ _ Fr). auto.
    + rewrite X. reflexivity.
Qed.

(** ** C22 *)
Lemma visit_spec_retain rows : forall bs, length bs = length rows ->
  visit_spec rows (map (fun b => Continue (negb b) []) bs) = map fst (filter snd (combine rows bs)).
Proof.
  induction rows as [|r rows IH]; intros [|b bs] L; simpl in *; try lia; auto.
  rewrite IH by lia. destruct b; reflexivity.
Qed.
Lemma acts_retain n : forall bs, acts_complete n (map (fun b => Continue (negb b) []) bs) -> length bs = n.
Proof.
  induction n as [|n IH]; intros [|b bs] H; simpl in H; try tauto. simpl. f_equal. auto.
Qed.
Lemma subseq_In {A} (rows : list A) : forall bs x, In x (map fst (filter snd (combine rows bs))) -> In x rows.
Proof.
  induction rows as [|r rows IH]; intros [|b bs] x H; simpl in H; try tauto.
  destruct b; simpl in H; [destruct H as [->|H]; [left; auto|]|]; right; eauto.
Qed.
Lemma subseq_sorted {A} (R : A -> A -> Prop) rows : forall bs, StronglySorted R rows ->
  StronglySorted R (map fst (filter snd (combine rows bs))).
Proof.
  induction rows as [|r rows IH]; intros [|b bs] H; simpl; try constructor. inv H.
  destruct b; simpl; auto. constructor; auto. rewrite Forall_forall in *. intros x Hx. apply H3. eapply subseq_In; eauto.
Qed.
Lemma subseq_length {A} (rows : list A) bs : length (map fst (filter snd (combine rows bs))) <= length rows.
Proof.
  revert bs. induction rows as [|r rows IH]; intros [|b bs]; simpl; auto; try lia.
  specialize (IH bs). destruct b; simpl; lia.
Qed.

Lemma retain_exact pr umax sch w its S (f : S -> wlock -> nat -> S * bool) s rows :
  reachable pr umax sch (Locked w its) -> s_kind sch <> Consistent ->
  holds (w_tab w) rows -> length rows <= s_imax sch ->
  exists s' tr w',
    retain pr (recording f) (s, []) w = Ok ((s', tr), w') /\ retain pr f s w = Ok (s', w') /\
    length tr = length rows /\
    (forall k i w1 b, nth_error tr k = Some (i, w1, b) ->
       i = k /\ forall j, k <= j < length rows -> t_get_row (w_tab w1) j = t_get_row (w_tab w) j) /\
    holds (w_tab w') (map fst (filter snd (combine rows (map snd tr)))) /\
    forall cmp, ascending cmp rows -> ascending cmp (map fst (filter snd (combine rows (map snd tr)))).
Proof.
  intros R N H L. destruct (reachable_rows _ _ _ _ _ R N H) as (E & Nk & K). simpl in *.
  assert (Ei : t_imax (w_tab w) = s_imax sch) by (unfold t_imax; congruence).
  set (F := fun (p : S * list (nat * wlock * bool)) w i => let q := recording f p w i in (fst q, Continue (negb (snd q)) [])).
  destruct (merge0_ok pr F w rows (s, [])) as (p & tr & C & Se & A & X); auto.
  { rewrite Ei. auto. }
  { intros s1 w1 i s2 rm add Q. unfold F in Q. inv Q. constructor. }
  assert (G : forall tr s l p, calls F (s, l) tr p -> exists s' btr, p = (s', l ++ btr) /\
     map tr_act tr = map (fun c => Continue (negb (snd c)) []) btr /\ map fst tr = map fst btr).
  { clear. induction tr as [|[[i w] a] tr IH]; intros s l p H; simpl in H.
    - subst. exists s, []. rewrite app_nil_r. auto.
    - destruct H as ((s1 & l1) & E & H). unfold F, recording in E. cbn [fst snd] in E. inv E.
      apply IH in H. destruct H as (s' & btr & -> & E1 & E2). exists s', ((i, w, snd (f s w i)) :: btr).
      rewrite <- app_assoc. split; [reflexivity|]. simpl. rewrite E1, E2. auto. }
  apply G in C. destruct C as (s' & btr & -> & E1 & E2). clear G.
  rewrite E1 in *. rewrite <- (map_map snd (fun b => Continue (negb b) [])) in *.
  pose proof (acts_retain _ _ A) as Lb. cbv zeta in X. rewrite visit_spec_retain in X by auto.
  rewrite map_length in Lb.
  pose proof (subseq_length rows (map snd btr)) as Ls.
  destruct (Nat.leb_spec (length (map fst (filter snd (combine rows (map snd btr))))) (Datatypes.S (t_imax (w_tab w)))) as [_|Z]; [|lia].
  destruct X as (w' & X1 & Fr & K'). simpl app in X1. exists s', btr, w'. split; [exact X1|]. split.
  { unfold retain. rewrite (merge0_sim pr _ F fst) with (p := (s, [])).
    - rewrite X1. reflexivity.
    - intros q w0 i. unfold F, recording. cbn [fst snd]. reflexivity. }
  split; auto. split; [|split].
  - intros k i w1 b Hk. assert (Hk' : exists a, nth_error tr k = Some (i, w1, a)).
    { assert (Q : nth_error (map fst tr) k = Some (i, w1)) by (rewrite E2, nth_error_map, Hk; reflexivity).
      rewrite nth_error_map in Q. destruct (nth_error tr k) as [[[i' w1'] a]|]; [|discriminate]. simpl in Q. inv Q. eauto. }
    destruct Hk' as [a Ha]. destruct (Se k _ Ha) as (I & cur & (Frc & Kc & Lc) & Sk). simpl in I, Kc, Frc, Sk.
    split; auto. intros j Hj. destruct (nth_error_lt_Some rows j) as [r Hr]; [lia|].
    assert (N1 : t_kind (w_tab w1) <> Consistent) by (rewrite (frame_kind _ _ Frc); auto).
    rewrite (t_get_row_ok _ _ _ K j r), (t_get_row_ok _ _ _ Kc j r); auto; try (eapply t_not_deleted; eauto).
    assert (Q : nth_error (skipn k cur) (j - k) = nth_error (skipn k rows) (j - k)) by congruence.
    rewrite !nth_error_skipn in Q. replace (k + (j - k)) with j in Q by lia. congruence.
  - eapply holds_of; [exact K'|]. rewrite (frame_kind _ _ Fr). auto.
  - intros cmp Ha. apply subseq_sorted. exact Ha.
Qed.

(** ** Merging: C23, C24, C25 *)
Lemma tpos_length m : forall i, length (tpos i m) = length (map snd (filter fst m)).
Proof. induction m as [|[[] r] m IH]; intro i; simpl; auto. Qed.
Section Mg.
Variables (pr : profile) (umax : nat) (sch : schema) (w : wlock) (its : list bag_pos) (rows : list row).
Hypothesis R : reachable pr umax sch (Locked w its).
Hypothesis Ks : s_kind sch = Sorted.
Hypothesis H : holds (w_tab w) rows.
Hypothesis L : length rows <= s_imax sch.
Variable cmp : row -> row -> comparison.

Lemma merge_order_length new : length (merge_order cmp rows new) = length rows + length new.
Proof. destruct new; simpl; auto. apply (merged_length cmp). Qed.

Lemma merge_base : t_sch (w_tab w) = sch /\ t_kind (w_tab w) <> Consistent /\ t_ok (w_tab w) (fun _ => true) rows.
Proof. apply (reachable_rows _ _ _ _ _ R); auto; congruence. Qed.

Lemma merge_logged_exact S (log : S -> wlock -> nat -> S) s new : Forall (row_ty (s_cols sch)) new ->
  if length rows + length new <=? Datatypes.S (s_imax sch) then
    exists w' tr, merge_logged pr cmp log s w new = Ok (fold_left (fun s c => log s (fst c) (snd c)) tr s, w') /\
      holds (w_tab w') (merge_order cmp rows new) /\
      length tr = length new /\ StronglySorted lt (map snd tr) /\
      forall k w1 i, nth_error tr k = Some (w1, i) ->
        exists r, nth_error new k = Some r /\ t_get_row (w_tab w1) i = Ok r /\ t_get_row (w_tab w') i = Ok r
  else merge_logged pr cmp log s w new = panic PRowIdRange.
Proof.
  intro T. destruct merge_base as (E & Nk & K).
  assert (Ei : t_imax (w_tab w) = s_imax sch) by (unfold t_imax; congruence).
  destruct new as [|first rest].
  - simpl length. rewrite Nat.add_0_r. destruct (Nat.leb_spec (length rows) (Datatypes.S (s_imax sch))) as [_|Z]; [|lia].
    exists w, []. split; [reflexivity|]. split; [exact H|]. split; [reflexivity|]. split; [constructor|]. intros [|k]; discriminate.
  - pose proof (merge_logged_ok pr cmp log s w rows first rest) as M. rewrite Ei in M. rewrite E in M.
    specialize (M Nk K L T). rewrite merged_length in M. simpl length.
    destruct (_ <=? _); [|exact M]. destruct M as (w' & tr & M1 & Fr & K' & Mi & Lo). exists w', tr.
    split; [exact M1|]. assert (Hn : holds (w_tab w') (merged cmp rows first rest)).
    { eapply holds_of; [exact K'|]. rewrite (frame_kind _ _ Fr). auto. }
    split; [exact Hn|].
    assert (P : forall k i, nth_error (map snd tr) k = Some i -> exists r, nth_error (first :: rest) k = Some r /\
              nth_error (merged cmp rows first rest) i = Some r).
    { intros k i Hk. rewrite Mi in Hk. unfold merged_ids in Hk.
      pose proof (tpos_nth cmp ((true, first) :: m2 cmp (drop_while (is_lt cmp first) rows) rest) (length (take_while (is_lt cmp first) rows)) k) as TN.
      rewrite Hk in TN. destruct TN as (Le & r & N1 & N2). cbn [filter map snd fst] in N2. rewrite m2_new in N2. exists r. split; auto.
      unfold merged. rewrite nth_error_app2 by auto.
      assert (Q : nth_error (map snd ((true, first) :: m2 cmp (drop_while (is_lt cmp first) rows) rest)) (i - length (take_while (is_lt cmp first) rows)) = Some r)
        by (rewrite nth_error_map, N1; reflexivity).
      cbn [map snd] in Q. rewrite m2_snd in Q. exact Q. }
    split. { rewrite <- (map_length snd tr), Mi. unfold merged_ids. rewrite tpos_length. cbn [filter map snd fst]. rewrite m2_new. reflexivity. }
    split; [rewrite Mi; apply (tpos_sorted cmp)|].
    intros k w1 i Hk. destruct (P k i) as (r & Hr & Hm); [rewrite nth_error_map, Hk; reflexivity|].
    exists r. split; auto. split.
    + rewrite Forall_forall in Lo. destruct (Lo _ (nth_error_In _ _ Hk)) as (cur & Fr1 & K1 & Li & Q). simpl in *.
      apply (t_get_row_ok _ _ _ K1); [congruence|]. eapply t_not_deleted; eauto. rewrite (frame_kind _ _ Fr1). auto.
    + apply Hn. exact Hm.
Qed.

Lemma merge_exact new : Forall (row_ty (s_cols sch)) new ->
  if length rows + length new <=? S (s_imax sch) then
    exists w', merge pr cmp w new = Ok w' /\ holds (w_tab w') (merge_order cmp rows new)
  else merge pr cmp w new = panic PRowIdRange.
Proof.
  intro T. pose proof (merge_logged_exact unit (fun _ _ _ => tt) tt new T) as M. unfold merge. destruct (_ <=? _).
  - destruct M as (w' & tr & M & Hn & _). exists w'. rewrite M. split; auto.
  - rewrite M. reflexivity.
Qed.
Lemma merge_order_perm new : Permutation (rows ++ new) (merge_order cmp rows new).
Proof. destruct new; simpl; [rewrite app_nil_r; auto|]. apply (merged_perm cmp). Qed.
Lemma merge_order_asc new : total_preorder cmp -> ascending cmp rows -> ascending cmp new -> ascending cmp (merge_order cmp rows new).
Proof. intros P A B. destruct new; simpl; auto. apply (merged_asc cmp P); auto. Qed.

Lemma merge_sorted new : total_preorder cmp -> ascending cmp rows -> ascending cmp new ->
  Forall (row_ty (s_cols sch)) new ->
  if length rows + length new <=? S (s_imax sch) then
    exists w' out, merge pr cmp w new = Ok w' /\ holds (w_tab w') out /\ ascending cmp out /\ Permutation (rows ++ new) out
  else merge pr cmp w new = panic PRowIdRange.
Proof.
  intros P A B T. pose proof (merge_exact new T) as M. destruct (_ <=? _); auto. destruct M as (w' & M & Hn).
  exists w', (merge_order cmp rows new). split; auto. split; auto. split; [apply merge_order_asc; auto|apply merge_order_perm].
Qed.
Lemma merge_vec_sorted new : total_preorder cmp -> ascending cmp rows -> Forall (row_ty (s_cols sch)) new ->
  if length rows + length new <=? S (s_imax sch) then
    exists w' out, merge_vec pr cmp w new = Ok w' /\ holds (w_tab w') out /\ ascending cmp out /\ Permutation (rows ++ new) out
  else merge_vec pr cmp w new = panic PRowIdRange.
Proof.
  intros P A T. pose proof (sort_rows_perm cmp new) as Sp. pose proof (sort_rows_asc cmp P new) as Sa.
  pose proof (merge_sorted (sort_rows cmp new) P A Sa) as M. rewrite <- (Permutation_length Sp) in M.
  assert (T' : Forall (row_ty (s_cols sch)) (sort_rows cmp new)) by (rewrite <- Sp; auto). specialize (M T').
  unfold merge_vec. destruct (_ <=? _); auto. destruct M as (w' & out & M1 & M2 & M3 & M4). exists w', out.
  split; auto. split; auto. split; auto. rewrite Sp. exact M4.
Qed.
Lemma merge_single_exact r : row_ty (s_cols sch) r ->
  exists w' i, merge_in_a_single_row pr cmp w r = Ok (w', i) /\ t_get_row (w_tab w') i = Ok r /\
    holds (w_tab w') (merge_order cmp rows [r]).
Proof.
  intro T. pose proof (merge_logged_exact (list nat) (fun got _ i => got ++ [i]) [] [r]) as M.
  simpl length in M. destruct (Nat.leb_spec (length rows + 1) (S (s_imax sch))); [|lia].
  destruct M as (w' & tr & M & Hn & Lt & _ & G); [auto|]. destruct tr as [|[w1 i] [|]]; try discriminate.
  exists w', i. unfold merge_in_a_single_row. rewrite M. simpl. split; auto.
  destruct (G 0 w1 i eq_refl) as (r' & E & _ & G'). inv E. auto.
Qed.
Lemma sorted_remove_exact ids :
  (StronglySorted lt ids -> Forall (fun i => i < length rows) ids ->
    exists w', sorted_remove_rows w ids = Ok w' /\ holds (w_tab w') (without 0 rows ids) /\
      forall c, ascending c rows -> ascending c (without 0 rows ids)) /\
  (ids <> [] -> ~ (StronglySorted lt ids /\ Forall (fun i => i < length rows) ids) ->
    exists c, sorted_remove_rows w ids = panic c).
Proof.
  destruct merge_base as (E & Nk & K). destruct (sorted_remove_rows_ok w _ rows ids K Nk) as [A B]. split; auto.
  intros S F. destruct (A S F) as (w' & Q & Fr & K'). exists w'. split; auto. split.
  - eapply holds_of; [exact K'|]. rewrite (frame_kind _ _ Fr). auto.
  - intros c Hc. apply without_asc. exact Hc.
Qed.
End Mg.

(** ** C27 *)
Lemma flush_apply_sorted pr umax w ev ch w' : t_kind (w_tab w) = Sorted -> flush_apply pr umax w ev ch = Ok w' ->
  w_tab w' = w_tab w \/ w_tab w' = w_tab (clear_raw w).
Proof.
  intros K H. unfold flush_apply in H. destruct (ev_removal ev && _); [|inv H; auto].
  destruct ch as [|[|i ids]]; [inv H; auto|inv H; auto|]. cbn [fold_res] in H. bindn H w1 H1. bindn H1 u H2.
  unfold delete_raw in H1. rewrite K in H1. discriminate.
Qed.
Lemma flush_sorted pr umax srt w ev t : t_kind (w_tab w) = Sorted -> w_flush pr umax srt w ev = Ok t ->
  t = w_tab w \/ t = w_tab (clear_raw w).
Proof.
  intros K H. unfold w_flush in H. destruct (sel_empty (w_changes w)).
  - apply drop_inv in H. tauto.
  - bindn H u H1. cbv zeta in H. bindn H w1 H2. bindn H u2 H3. apply drop_inv in H. destruct H as [-> _].
    apply flush_apply_sorted in H2; auto.
Qed.
Lemma live_flush_sorted pr umax srt w ev w' : t_kind (w_tab w) = Sorted -> w_live_flush pr umax srt w ev = Ok w' ->
  w_tab w' = w_tab w \/ w_tab w' = w_tab (clear_raw w).
Proof.
  intros K H. unfold w_live_flush in H. destruct (sel_empty (w_changes w)); [inv H; auto|].
  bindn H u H1. cbv zeta in H. bindn H w1 H2. bindn H u2 H3. inv H. apply flush_apply_sorted in H2; auto.
Qed.

Lemma visit_spec_sub (Rl : row -> row -> Prop) rows : forall acts,
  Forall (fun a => match a with Continue _ add => add = [] | Break => True end) acts ->
  (forall x, In x (visit_spec rows acts) -> In x rows) /\ (StronglySorted Rl rows -> StronglySorted Rl (visit_spec rows acts)) /\
  length (visit_spec rows acts) <= length rows.
Proof.
  induction rows as [|r rows IH]; intros [|[rm add|] acts] F; simpl; auto. inv F. destruct (IH acts H2) as (I1 & I2 & I3).
  split; [|split].
  - intros x Hx. apply in_app_iff in Hx. destruct Hx as [Hx|Hx]; [destruct rm; simpl in Hx; tauto|]. right. auto.
  - intro S. inv S. destruct rm; simpl; auto. constructor; auto. rewrite Forall_forall in *. auto.
  - rewrite app_length. destruct rm; simpl; lia.
Qed.
Lemma calls_acts {S} (f : S -> wlock -> nat -> S * action) (P : action -> Prop) : (forall s w i, P (snd (f s w i))) ->
  forall tr s s', calls f s tr s' -> Forall P (map tr_act tr).
Proof.
  intro HP. induction tr as [|[[i w] a] tr IH]; intros s s' C; simpl; constructor.
  - simpl in C. destruct C as (s1 & E & _). specialize (HP s w i). rewrite E in HP. exact HP.
  - simpl in C. destruct C as (s1 & _ & C). eauto.
Qed.
(** A full table: [retain] runs into the last row id. *)
Lemma rug_loop_full pr {S} (f : S -> wlock -> nat -> S * action) sc :
  (forall s w i, exists rm, snd (f s w i) = Continue rm []) ->
  forall n s w rug front back q, w_good_n sc (Datatypes.S (s_imax sc)) w -> Forall (row_ty (s_cols sc)) (rug_rows rug) ->
  back + n = Datatypes.S (s_imax sc) -> 0 < n -> rug_loop pr f n s w rug front back false <> Ok q.
Proof.
  intros HF. induction n as [|n IH]; intros s w rug front back q G T Hb Hn; [lia|]. cbn [rug_loop].
  pose proof G as (E & live & rows & K & Lr).
  assert (Ei : t_imax (w_tab w) = s_imax sc) by (unfold t_imax; congruence).
  rewrite (t_len_ok _ _ _ K). destruct (Nat.ltb_spec back (length rows)); [|lia].
  destruct (HF s w back) as [rm Q]. rewrite Q. intro X. bindn X r Hr. cbv zeta in X. bindn X b Hb2. bindn X q2 Hq.
  assert (Hr' : row_ty (s_cols sc) r).
  { apply (t_get_row_inv _ _ _ K) in Hr. destruct Hr as [Hr _]. pose proof (cols_ok_ty _ _ _ _ _ (ok_cols _ _ _ K)) as Ty.
    rewrite E in Ty. rewrite Forall_forall in Ty. eapply Ty, nth_error_In; eauto. }
  pose proof (good_fill pr sc (b - front) (Datatypes.S (s_imax sc)) w ((if rm then rug else rug ++ [RRow r]) ++ [RIter []]) front b G) as GF.
  rewrite Hq in GF. destruct GF as [G' T'].
  { rewrite rug_rows_app. simpl. rewrite app_nil_r. destruct rm; auto. rewrite rug_rows_app. apply Forall_app. split; auto. simpl. auto. }
  unfold rid_next in Hb2. rewrite Ei in Hb2. destruct (Nat.ltb_spec back (s_imax sc)).
  - inv Hb2. apply (IH _ _ _ _ _ _ G' T') in X; auto; lia.
  - destruct pr; [discriminate|]. inv Hb2. assert (n = 0) as -> by lia. cbn [rug_loop] in X.
    destruct G' as (E' & l' & r' & K' & L'). rewrite (t_len_ok _ _ _ K'), L' in X. simpl in X. discriminate.
Qed.

Lemma ids_dec ids n : {StronglySorted lt ids /\ Forall (fun i => i < n) ids} + {~ (StronglySorted lt ids /\ Forall (fun i => i < n) ids)}.
Proof.
  induction ids as [|i ids [IH|IH]].
  - left. split; constructor.
  - destruct (lt_dec i n) as [L|L]; [|right; intros [_ F]; inv F; auto].
    destruct (Forall_dec (lt i) (lt_dec i) ids) as [F|F]; [|right; intros [S _]; inv S; auto].
    left. destruct IH. split; constructor; auto.
  - right. intros [S F]. inv S. inv F. auto.
Qed.
Section Ord.
Variables (pr : profile) (umax : nat) (sc : schema) (cmp : row -> row -> comparison).
Hypothesis P : total_preorder cmp.
Hypothesis Ks : s_kind sc = Sorted.
Notation asc := (ascending cmp).
Definition ordered (t : table) : Prop :=
  t_sch t = sc /\ exists rows, t_ok t (fun _ => true) rows /\ asc rows.
Lemma ordered_kind t : ordered t -> t_kind t = Sorted.
Proof. intros (E & _). unfold t_kind. congruence. Qed.
Lemma ordered_clear w : ordered (w_tab w) -> ordered (w_tab (clear_raw w)).
Proof.
  intros (E & rows & K & _). split; [exact E|]. exists []. split; [|constructor]. apply (clear_raw_ok w _ rows _ K).
Qed.
Lemma ordered_frame w w' rows : ordered (w_tab w) -> frame w w' -> t_ok (w_tab w') (fun _ => true) rows -> asc rows -> ordered (w_tab w').
Proof. intros (E & _) (F & _) K A. split; [congruence|]. eauto. Qed.

Lemma merge_logged_ordered S (log : S -> wlock -> nat -> S) s w new q : ordered (w_tab w) -> asc new ->
  Forall (row_ty (s_cols sc)) new -> merge_logged pr cmp log s w new = Ok q -> ordered (w_tab (snd q)).
Proof.
  intros G A T H. destruct new as [|first rest]; [inv H; exact G|]. pose proof G as (E & rows & K & Ar).
  assert (Nk : t_kind (w_tab w) <> Consistent) by (rewrite (ordered_kind _ G); discriminate).
  destruct (Nat.le_gt_cases (length rows) (t_imax (w_tab w))) as [L|L].
  - pose proof (merge_logged_ok pr cmp log s w rows first rest Nk K L) as M. rewrite E in M. specialize (M T).
    destruct (_ <=? _); [|rewrite H in M; discriminate]. destruct M as (w' & tr & M & Fr & K' & _). rewrite H in M. inv M. simpl.
    eapply ordered_frame; eauto. apply (merged_asc cmp P); auto.
  - unfold merge_logged in H. bindn H c Hc. bindn H e He. unfold rid_from_usize in He. rewrite (t_len_ok _ _ _ K) in He.
    destruct (Nat.leb_spec (length rows) (t_imax (w_tab w))); [lia|discriminate].
Qed.
Lemma retain_ordered S (f : S -> wlock -> nat -> S * bool) s w q : ordered (w_tab w) -> retain pr f s w = Ok q -> ordered (w_tab (snd q)).
Proof.
  intros G H. pose proof G as (E & rows & K & Ar). unfold retain in H.
  assert (Nk : t_kind (w_tab w) <> Consistent) by (rewrite (ordered_kind _ G); discriminate).
  set (F := fun s w i => let p := f s w i in (fst p, Continue (negb (snd p)) [])) in H.
  destruct (Nat.le_gt_cases (length rows) (t_imax (w_tab w))) as [L|L].
  - destruct (merge0_ok pr F w rows s) as (s' & tr & C & _ & A & X); auto.
    { intros s1 w1 i s2 rm add Q. unfold F in Q. inv Q. constructor. }
    assert (FA : Forall (fun a => match a with Continue _ add => add = [] | Break => True end) (map tr_act tr)).
    { eapply calls_acts; [|exact C]. intros. reflexivity. }
    destruct (visit_spec_sub (le_by cmp) rows _ FA) as (_ & V & VL). cbv zeta in X.
    destruct (Nat.leb_spec (length (visit_spec rows (map tr_act tr))) (Datatypes.S (t_imax (w_tab w)))); [|lia].
    destruct X as (w' & X & Fr & K'). rewrite H in X. inv X. simpl. eapply ordered_frame; eauto. apply V. exact Ar.
  - pose proof (ok_len _ _ _ K) as L2. unfold merge0 in H. bindn H q0 Hq.
    assert (Ei : t_imax (w_tab w) = s_imax sc) by (unfold t_imax; congruence).
    apply (rug_loop_full pr F sc) in Hq; [destruct Hq| | | | |].
    + intros. eexists. reflexivity.
    + split; auto. exists (fun _ => true), rows. split; auto. lia.
    + constructor.
    + rewrite (t_len_ok _ _ _ K). lia.
    + rewrite (t_len_ok _ _ _ K). lia.
Qed.
Lemma assign_ordered t k i v t' : ordered t -> op_ty (s_cols sc) (OAssign k i v) -> keeps_order cmp (OAssign k i v) ->
  t_assign t k i v = Ok t' -> ordered t'.
Proof.
  intros (E & rows & K & Ar) T O H. simpl in T, O.
  assert (E' : t_sch t' = t_sch t).
  { unfold t_assign in H. destruct (nth_error (t_cols t) k) as [[b|]|]; try discriminate. bindn H c Hc. inv H. reflexivity. }
  destruct (assign_exact t k i v t' _ rows K) as (r & Hr & K'); [rewrite E; exact T|exact H|].
  split; [congruence|]. exists (upd rows i (upd r k v)). split; auto.
  clear -Ar O Hr. revert rows Hr Ar. induction i as [|i IH]; intros [|x rows] Hr Ar; try discriminate; simpl in *.
  - inv Hr. inv Ar. constructor; auto. eapply Forall_impl; [|exact H2]. intros y Hy. unfold le_by in *. rewrite (proj1 (O r y)). auto.
  - inv Ar. constructor; [apply IH; auto|]. rewrite Forall_forall in *. intros y Hy. apply In_nth_error in Hy. destruct Hy as [j Hj].
    rewrite nth_error_upd in Hj. destruct ((j =? i) && (i <? length rows)).
    + inv Hj. unfold le_by. rewrite (proj2 (O r x)). apply H2. eapply nth_error_In; eauto.
    + apply H2. eapply nth_error_In; eauto.
Qed.

Lemma remove_ordered w ids w' : ordered (w_tab w) -> sorted_remove_rows w ids = Ok w' -> ordered (w_tab w').
Proof.
  intros G H. pose proof G as (E & rows & K & Ar).
  assert (Nk : t_kind (w_tab w) <> Consistent) by (rewrite (ordered_kind _ G); discriminate).
  destruct (sorted_remove_rows_ok w _ rows ids K Nk) as [X Y].
  destruct ids as [|i ids]; [inv H; exact G|]. destruct (ids_dec (i :: ids) (length rows)) as [[D1 D2]|D].
  - destruct (X D1 D2) as (w2 & Q & Fr & K'). rewrite H in Q. inv Q. eapply ordered_frame; eauto. apply without_asc. auto.
  - destruct Y as [c Q]; [discriminate|auto|]. rewrite H in Q. discriminate.
Qed.
Lemma flush_ordered srt w ev t : ordered (w_tab w) -> w_flush pr umax srt w ev = Ok t -> ordered t.
Proof.
  intros G H. destruct (flush_sorted _ _ _ _ _ _ (ordered_kind _ G) H) as [->| ->]; auto. apply ordered_clear. auto.
Qed.
Lemma write_ordered w its o q : ordered (w_tab w) -> op_ty (s_cols sc) o -> keeps_order cmp o -> avail Sorted o = true ->
  write_op pr umax w its o = Ok q -> ordered (w_tab (fst q)).
Proof.
  intros G T O A H. pose proof (ordered_kind _ G) as Kd.
  assert (RD : (let* _ := read_op pr umax (w_tab w) o in Ok (w, its)) = Ok q -> ordered (w_tab (fst q))).
  { intro H'. bindn H' u Hu. inv H'. exact G. }
  destruct o; simpl in A; try discriminate; cbn [write_op] in H; try (apply RD; exact H); cbv zeta in H;
    bindn H w1 H1; try (inversion H; subst q; clear H; cbn [fst]).
  - destruct (live_flush_sorted _ _ _ _ _ _ Kd H1) as [->| ->]; auto. apply ordered_clear. auto.
  - bindn H w2 H3. bindn H u Hu. inv H. exact G.
  - bindn H1 t Ht. inv H1. simpl. eapply assign_ordered; eauto.
  - inv H1. exact G.
  - inv H1. exact G.
  - inv H1. unfold clear, event_cleared. rewrite Kd. exact G.
  - inv H1. apply ordered_clear. auto.
  - eapply remove_ordered; eauto.
  - bindn H1 p Hp. inv H1. eapply retain_ordered; eauto.
  - bindn H1 p Hp. inv H1. destruct O as [-> Oa]. eapply merge_logged_ordered; eauto.
  - simpl in O. subst cmp0. unfold merge_vec, merge in H1. bindn H1 p Hp. inv H1. eapply merge_logged_ordered; [| | |exact Hp]; auto.
    + apply sort_rows_asc; auto.
    + simpl in T. rewrite <- (sort_rows_perm cmp rows). auto.
  - simpl in O. subst cmp0. bindn H1 p Hp. inv H1. unfold merge_in_a_single_row in Hp. bindn Hp p1 Hp1.
    assert (ordered (w_tab (snd p1))).
    { eapply merge_logged_ordered; [| | |exact Hp1]; auto. repeat constructor. }
    destruct (fst p1) as [|? [|]]; try discriminate. inv Hp. exact H.
Qed.
Lemma step_ordered st o st' : ordered (st_tab st) -> op_ty (s_cols sc) o -> keeps_order cmp o ->
  step pr umax st o = Ok st' -> ordered (st_tab st').
Proof.
  intros G T O H. pose proof (ordered_kind _ G) as Kd. unfold step in H. rewrite Kd in H.
  destruct (avail Sorted o) eqn:A; [|discriminate]. destruct st as [t|w its]; cbn [st_tab] in *.
  - assert (RD : (let* _ := read_op pr umax t o in Ok (Free t)) = Ok st' -> ordered (st_tab st')).
    { intro H'. bindn H' u Hu. inv H'. exact G. }
    destruct o; try (apply RD; exact H).
    + inv H. exact G.
    + rewrite Kd in H. bindn H t1 H1. inv H. unfold sorted_table_remove_rows in H1. cbv zeta in H1. bindn H1 w1 H2.
      assert (ordered (w_tab w1)).
      { destruct rows; [inv H2|eapply remove_ordered; [|exact H2]; exact G].
        change (ordered (w_tab (clear (clear_raw (w_new t))))). unfold clear.
        assert (X : ordered (w_tab (clear_raw (w_new t)))) by (apply ordered_clear; exact G).
        unfold event_cleared. rewrite (ordered_kind _ X). exact X. }
      eapply flush_ordered; eauto.
  - assert (WR : (let* p := write_op pr umax w its o in Ok (Locked (fst p) (snd p))) = Ok st' -> ordered (st_tab st')).
    { intro H'. bindn H' p Hp. inv H'. cbn [st_tab]. eapply write_ordered; eauto. }
    destruct its; destruct o; try (apply WR; exact H); try discriminate.
    + bindn H t Ht. inv H. apply drop_inv in Ht. destruct Ht as [-> _]. exact G.
    + bindn H t Ht. inv H. eapply flush_ordered; eauto.
    + rewrite Kd in H. discriminate.
Qed.
Lemma run_ordered ops : forall st st', ordered (st_tab st) -> Forall (op_ty (s_cols sc)) ops -> Forall (keeps_order cmp) ops ->
  run pr umax st ops = Ok st' -> ordered (st_tab st').
Proof.
  induction ops as [|o ops IH]; intros st st' G T O H; cbn [run fold_res] in H.
  - inv H. exact G.
  - unfold run in *. cbn [fold_res] in H. bindn H st1 H1. inv T. inv O. eapply IH; [| | |exact H]; auto. eapply step_ordered; eauto.
Qed.
Lemma always_sorted ops st rows : s_cols sc <> [] -> Forall (op_ty (s_cols sc)) ops -> Forall (keeps_order cmp) ops ->
  run pr umax (Free (t_new sc)) ops = Ok st -> holds (st_tab st) rows -> asc rows.
Proof.
  intros C T O H Hr. destruct (run_ordered ops (Free (t_new sc)) st) as (E & rows' & K & Ar); auto.
  - split; [reflexivity|]. exists []. split; [|constructor]. apply t_new_ok; auto.
  - rewrite (holds_unique (st_tab st) rows rows'); auto. eapply holds_of; [exact K|]. unfold t_kind. rewrite E, Ks. discriminate.
Qed.
End Ord.

(** ** C26, on the table *)
Lemma table_remove_exact pr umax sch t rows srt ev :
  reachable pr umax sch (Free t) -> s_kind sch = Sorted -> holds t rows ->
  (forall ids, StronglySorted lt ids -> Forall (fun i => i < length rows) ids ->
    exists t', sorted_table_remove_rows pr umax srt t ev (SThese ids) = Ok t' /\ holds t' (without 0 rows ids)) /\
  (exists t', sorted_table_remove_rows pr umax srt t ev SAll = Ok t' /\ holds t' []).
Proof.
  intros R Kd H. destruct (reachable_rows pr umax sch (Free t) rows R) as (E & Nk & K); auto.
  { congruence. } cbn [st_tab] in *.
  assert (Ks : t_kind t = Sorted) by (unfold t_kind; congruence).
  unfold sorted_table_remove_rows. cbv zeta. split.
  - intros ids D1 D2. destruct (sorted_remove_rows_ok (w_new t) _ rows ids K Nk) as [X _].
    destruct (X D1 D2) as (w' & Q & Fr & K'). exists (w_tab w'). cbv zeta. rewrite Q. cbn [bind].
    pose proof (frame_kind _ _ Fr) as Fk. destruct Fr as (_ & Fc & _).
    unfold w_flush. rewrite Fc. cbn [sel_empty w_new w_changes]. unfold w_drop. rewrite Fc.
    split.
    + rewrite andb_false_r. reflexivity.
    + eapply holds_of; [exact K'|]. rewrite Fk. exact Nk.
  - pose proof (clear_raw_ok (w_new t) _ _ (fun _ => true) K) as K'.
    assert (Kc : t_kind (w_tab (clear_raw (w_new t))) = Sorted) by exact Ks.
    exists (w_tab (clear_raw (w_new t))). unfold clear, event_cleared. rewrite Kc. cbn [bind].
    split; [|eapply holds_of; [exact K'|]; rewrite Kc; discriminate].
    unfold w_flush. simpl. unfold w_drop. rewrite andb_false_r. reflexivity.
Qed.

(** ** C28 *)
Lemma bag_delete_exact pr umax sch w its rows i :
  reachable pr umax sch (Locked w its) -> s_kind sch = Bag -> holds (w_tab w) rows ->
  match nth_error rows i with
  | Some r => exists w' rows', delete pr umax w i = Ok w' /\ holds (w_tab w') rows' /\
      Permutation rows (r :: rows') /\ length rows = Datatypes.S (length rows') /\
      forall j, j < length rows' -> nth_error rows' j = nth_error rows (if j =? i then length rows' else j)
  | None => delete pr umax w i = panic PIndexOOB
  end.
Proof.
  intros R Kd H. destruct (reachable_rows pr umax sch (Locked w its) rows R) as (E & Nk & K); auto; [congruence|].
  cbn [st_tab] in *. assert (Ks : t_kind (w_tab w) = Bag) by (unfold t_kind; congruence).
  destruct (nth_error rows i) as [r|] eqn:Hi.
  - pose proof (nth_error_Some_lt _ _ _ Hi) as Li. destruct (delete_bag_ok pr umax w rows i K Ks Li) as (cs & Q & K').
    destruct (swap_remove_spec rows i r Hi) as (P & L & J).
    exists (with_tab w (with_cols (w_tab w) cs)), (swap_remove rows i). split; auto. split.
    { eapply holds_of; [exact K'|]. exact Nk. }
    split; auto. split; [lia|]. intros j Hj. rewrite J by lia. rewrite L. reflexivity.
  - apply nth_error_None in Hi. eapply delete_bag_bad; eauto.
Qed.

(** ** C29 *)
Section BSim.
Variables (pr : profile) (umax : nat).
Context {S : Type}.
Variable f : S -> wlock -> nat -> S * choice.
Lemma bag_for_rec fuel : forall s l b,
  bag_for pr umax f fuel s b = let* q := bag_for pr umax (recording f) fuel (s, l) b in Ok (fst (fst q), snd q).
Proof.
  induction fuel as [|n IH]; intros s l b; cbn [bag_for]; [reflexivity|].
  destruct (bag_next pr umax b) as [[b1 [i|]]|]; cbn [bind fst snd]; try reflexivity.
  assert (Q : recording f (s, l) (bg_w b1) i = (fst (f s (bg_w b1) i), l ++ [(i, bg_w b1, snd (f s (bg_w b1) i))], snd (f s (bg_w b1) i)))
    by reflexivity.
  rewrite Q. clear Q. destruct (f s (bg_w b1) i) as [s1 []]; cbn [fst snd bind]; try reflexivity; apply IH.
Qed.
Lemma bag_for_loop_rec s l w :
  bag_for_loop pr umax f s w = let* q := bag_for_loop pr umax (recording f) (s, l) w in Ok (fst (fst q), snd q).
Proof.
  unfold bag_for_loop. rewrite (bag_for_rec _ s l). destruct (bag_for pr umax (recording f) _ _ _) as [[p b]|]; [|reflexivity].
  cbn [bind fst snd]. destruct (bag_drop pr umax b); reflexivity.
Qed.
Lemma bcalls_rec tr : forall s l p, bcalls (recording f) (s, l) tr p -> exists s', p = (s', l ++ tr).
Proof.
  induction tr as [|[[i w] a] tr IH]; intros s l p H; inv H.
  - exists s. rewrite app_nil_r. reflexivity.
  - unfold recording in H6. cbn [fst snd] in H6. inv H6. apply IH in H7. destruct H7 as (s' & ->). exists s'. rewrite <- app_assoc. reflexivity.
Qed.
End BSim.

Lemma bag_iter_exact pr umax sch w its rows S (f : S -> wlock -> nat -> S * choice) s :
  reachable pr umax sch (Locked w its) -> s_kind sch = Bag -> holds (w_tab w) rows ->
  exists s' w' tr ids rest fin,
    bag_for_loop pr umax (recording f) (s, []) w = Ok ((s', tr), w') /\ bag_for_loop pr umax f s w = Ok (s', w') /\
    length ids = length tr /\ Permutation (seq 0 (length rows)) (ids ++ rest) /\
    (existsb (fun c => stops (snd c)) tr = false -> rest = []) /\
    (forall k i w1 c id, nth_error tr k = Some (i, w1, c) -> nth_error ids k = Some id ->
       exists r, nth_error rows id = Some r /\ t_get_row (w_tab w1) i = Ok r) /\
    holds (w_tab w') (map (fun i => nth i rows []) fin) /\ Permutation fin (kept ids tr ++ rest).
Proof.
  intros R Kd H. destruct (reachable_rows pr umax sch (Locked w its) rows R) as (E & Nk & K); auto; [congruence|].
  cbn [st_tab] in *. assert (Ks : t_kind (w_tab w) = Bag) by (unfold t_kind; congruence).
  destruct (bag_for_loop_ok pr umax (recording f) (s, []) w rows K Ks)
    as (p & w' & tr & ids & rest & fin & Q & Fr & C & L & P & St & Rd & K' & Pf).
  apply bcalls_rec in C. destruct C as (s' & ->). simpl app in Q.
  exists s', w', tr, ids, rest, fin. split; [exact Q|]. split; [rewrite (bag_for_loop_rec _ _ f s []), Q; reflexivity|].
  split; auto. split; auto. split.
  { intro X. apply St. clear -X. induction tr as [|c tr IH]; simpl in *; auto. apply orb_false_iff in X. destruct X as [-> X]. simpl. auto. }
  split.
  { intros k i w1 c id H1 H2. exists (nth id rows []). split; [|eapply Rd; eauto]. apply nth_error_nth'.
    assert (I : In id (seq 0 (length rows))).
    { eapply Permutation_in; [apply Permutation_sym; exact P|]. apply in_or_app. left. eapply nth_error_In; eauto. }
    apply in_seq in I. lia. }
  split; auto. eapply holds_of; [exact K'|]. rewrite (frame_kind _ _ Fr). auto.
Qed.

(** ** C30 *)
Lemma nexts_plain pr umax w rows : t_ok (w_tab w) (fun _ => true) rows -> forall n i l, i + n <= length rows ->
  nexts pr umax n (BG w false i l) = Ok (BG w false (i + n) (if n =? 0 then l else Some (i + n - 1)), seq i n).
Proof.
  intros K. induction n as [|n IH]; intros i l Hn; cbn [nexts seq].
  - rewrite Nat.add_0_r. reflexivity.
  - unfold bag_next. cbn [bg_w bg_i bg_mark bg_last]. rewrite (t_len_ok _ _ _ K).
    destruct (Nat.leb_spec (length rows) i); [lia|]. cbn [bind bg_last]. unfold rid_from_usize. pose proof (ok_len _ _ _ K) as L.
    destruct (Nat.leb_spec i (t_imax (w_tab w))); [|lia]. cbn [bind fst snd bg_last]. rewrite IH by lia. cbn [bind fst snd].
    f_equal. f_equal. f_equal; [lia|]. destruct n; simpl; f_equal; lia.
Qed.
Lemma handle_deletes_current pr umax sch w its rows n :
  reachable pr umax sch (Locked w its) -> s_kind sch = Bag -> holds (w_tab w) rows -> 0 < n <= length rows ->
  exists b, nexts pr umax n (bag_iter_new w) = Ok (b, seq 0 n) /\
    bag_drop pr umax (bag_handle_delete b) = delete pr umax w (n - 1).
Proof.
  intros R Kd H Hn. destruct (reachable_rows pr umax sch (Locked w its) rows R) as (E & Nk & K); auto; [congruence|].
  cbn [st_tab] in *. destruct n as [|n]; [lia|]. unfold bag_iter_new.
  exists (BG w false (Datatypes.S n) (Some n)). rewrite (nexts_plain _ _ _ _ K) by lia.
  split. { rewrite Nat.add_0_l. replace (Datatypes.S n - 1) with n by lia. reflexivity. }
  unfold bag_handle_delete, bag_drop. cbn [bg_w bg_i bg_mark bg_last].
  pose proof (ok_len _ _ _ K) as L. unfold rid_from_usize. destruct (Nat.leb_spec n (t_imax (w_tab w))); [|lia].
  cbn [bind]. f_equal. lia.
Qed.
