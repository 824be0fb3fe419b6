From Coq Require Import List Arith Bool Lia Sorting.Sorted Sorting.Permutation.
From Verif Require Import Base BaseFacts Column ColumnFacts RowRange RowRangeFacts Table TableFacts
  Visit TableSpec VisitFacts BagTab.
Import ListNotations.

Lemma swap_remove_mid {A} (P : list A) x U y : swap_remove (P ++ x :: U ++ [y]) (length P) = P ++ y :: U.
Proof.
  unfold swap_remove. rewrite !app_length. simpl length. rewrite app_length. simpl length.
  replace (length P + S (length U + 1) - 1) with (length P + S (length U)) by lia.
  destruct (Nat.ltb_spec (length P) (length P + S (length U))); [|lia].
  apply list_ext. intro j. rewrite nth_error_firstn.
  assert (X : nth_error (P ++ x :: U ++ [y]) (length P) = Some x).
  { rewrite nth_error_app2, Nat.sub_diag by lia. reflexivity. }
  assert (Y : nth_error (P ++ x :: U ++ [y]) (length P + S (length U)) = Some y).
  { rewrite nth_error_app2 by lia. replace (length P + S (length U) - length P) with (S (length U)) by lia.
    simpl. rewrite nth_error_app2, Nat.sub_diag by lia. reflexivity. }
  unfold list_swap. rewrite X, Y.
  destruct (Nat.ltb_spec j (length P + S (length U))).
  - rewrite nth_error_upd_ne by lia. destruct (Nat.eq_dec j (length P)) as [->|N].
    + rewrite nth_error_upd_eq by (rewrite !app_length; simpl; rewrite app_length; simpl; lia).
      rewrite nth_error_app2, Nat.sub_diag by lia. reflexivity.
    + rewrite nth_error_upd_ne by lia. destruct (Nat.lt_ge_cases j (length P)).
      * rewrite !nth_error_app1 by lia. reflexivity.
      * rewrite !nth_error_app2 by lia. destruct (j - length P) as [|k] eqn:E; [lia|]. simpl.
        rewrite nth_error_app1 by lia. reflexivity.
  - symmetry. apply nth_error_None. rewrite app_length. simpl. lia.
Qed.
Lemma swap_remove_last {A} (P : list A) x : swap_remove (P ++ [x]) (length P) = P.
Proof.
  unfold swap_remove. rewrite app_length. simpl length. replace (length P + 1 - 1) with (length P) by lia.
  destruct (Nat.ltb_spec (length P) (length P)); [lia|]. rewrite firstn_app, firstn_all, Nat.sub_diag. simpl.
  apply app_nil_r.
Qed.
Lemma swap_remove_map {A B} (h : A -> B) l i : map h (swap_remove l i) = swap_remove (map h l) i.
Proof.
  unfold swap_remove. rewrite map_length, <- firstn_map. destruct (i <? length l - 1); auto. rewrite list_swap_map. auto.
Qed.
Lemma list_last_case {A} (l : list A) : l = [] \/ exists a b, l = a ++ [b].
Proof. induction l as [|x l _] using rev_ind; eauto. Qed.

(** In terms of rows: one row goes, the last one takes its id, the others stay. *)
Lemma swap_remove_spec {A} (l : list A) i x : nth_error l i = Some x ->
  Permutation l (x :: swap_remove l i) /\ length (swap_remove l i) = length l - 1 /\
  forall j, j < length l - 1 ->
    nth_error (swap_remove l i) j = nth_error l (if j =? i then length l - 1 else j).
Proof.
  intro E. apply nth_error_split in E. destruct E as (P & R & -> & <-).
  destruct (list_last_case R) as [->|(U & y & ->)].
  - rewrite swap_remove_last. rewrite app_length. simpl length. split; [|split].
    + rewrite <- Permutation_middle, app_nil_r. auto.
    + lia.
    + intros j Hj. destruct (Nat.eqb_spec j (length P)); [lia|]. rewrite nth_error_app1 by lia. auto.
  - rewrite swap_remove_mid. rewrite !app_length. simpl length. rewrite app_length. simpl length. split; [|split].
    + rewrite <- Permutation_middle. constructor. apply Permutation_app_head. rewrite <- Permutation_cons_append. auto.
    + lia.
    + intros j Hj. destruct (Nat.eqb_spec j (length P)) as [->|N].
      * rewrite !nth_error_app2 by lia. rewrite Nat.sub_diag.
        replace (length P + S (length U + 1) - 1 - length P) with (S (length U)) by lia.
        simpl. rewrite nth_error_app2, Nat.sub_diag by lia. reflexivity.
      * destruct (Nat.lt_ge_cases j (length P)); [rewrite !nth_error_app1 by lia; auto|].
        rewrite !nth_error_app2 by lia. destruct (j - length P) as [|k] eqn:Ek; [lia|]. simpl.
        rewrite nth_error_app1 by lia. auto.
Qed.

Lemma delete_bag_ok pr umax w rows i : t_ok (w_tab w) (fun _ => true) rows -> t_kind (w_tab w) = Bag -> i < length rows ->
  exists cs, delete pr umax w i = Ok (with_tab w (with_cols (w_tab w) cs)) /\
    t_ok (with_cols (w_tab w) cs) (fun _ => true) (swap_remove rows i).
Proof.
  intros K Kd L. unfold delete. rewrite Kd. rewrite (t_check_ok _ _ _ K i L).
  2:{ eapply t_not_deleted; eauto. congruence. }
  cbn [bind]. eapply delete_raw_bag_ok; eauto. destruct rows; simpl in L; [lia|discriminate].
Qed.
Lemma delete_bag_bad pr umax w rows i : t_ok (w_tab w) (fun _ => true) rows -> t_kind (w_tab w) = Bag -> length rows <= i ->
  delete pr umax w i = panic PIndexOOB.
Proof.
  intros K Kd L. unfold delete. rewrite Kd. unfold t_check. rewrite (t_len_ok _ _ _ K).
  destruct (Nat.leb_spec (length rows) i); [reflexivity|lia].
Qed.

(** ** The iterator *)
Inductive bcalls {S} (f : S -> wlock -> nat -> S * choice) : S -> list (nat * wlock * choice) -> S -> Prop :=
| bc_nil s : bcalls f s [] s
| bc_cons s i w c s1 tr s' : f s w i = (s1, c) -> bcalls f s1 tr s' -> bcalls f s ((i, w, c) :: tr) s'.

Section B.
Variables (pr : profile) (umax : nat).
Context {S : Type}.
Variable f : S -> wlock -> nat -> S * choice.
Variable w0 : wlock.
Hypothesis Kd : t_kind (w_tab w0) = Bag.
(** Original rows, by original id. *)
Variable g : nat -> row.
Notation all_live := (fun _ : nat => true).

(** [P] seen and kept, [pend] seen and marked, [U] not seen yet. *)
Definition bst (P pend U : list nat) (b : bag_iter) : Prop :=
  frame w0 (bg_w b) /\ t_ok (w_tab (bg_w b)) all_live (map g (P ++ pend ++ U)) /\ bg_i b = length (P ++ pend) /\
  (pend = [] /\ bg_mark b = false \/ exists x, pend = [x] /\ bg_mark b = true /\ bg_last b = Some (length P)).

Lemma bst_len P pend U b : bst P pend U b -> t_len (w_tab (bg_w b)) = length (P ++ pend ++ U).
Proof. intros (_ & K & _). rewrite (t_len_ok _ _ _ K), map_length. auto. Qed.

Lemma bag_next_end P pend b : bst P pend [] b -> bag_next pr umax b = Ok (b, None).
Proof.
  intro B. unfold bag_next. rewrite (bst_len _ _ _ _ B). destruct B as (_ & _ & -> & _).
  rewrite app_nil_r. destruct (Nat.leb_spec (length (P ++ pend)) (length (P ++ pend))); [reflexivity|lia].
Qed.
Lemma bag_next_ok P pend U b : bst P pend U b -> U <> [] ->
  exists y U' b', bag_next pr umax b = Ok (b', Some (length P)) /\ Permutation U (y :: U') /\
    bst (P ++ [y]) [] U' b' /\ bst P [y] U' (bag_handle_delete b') /\
    t_get_row (w_tab (bg_w b')) (length P) = Ok (g y).
Proof.
  intros B NU. unfold bag_next. rewrite (bst_len _ _ _ _ B). destruct B as (F & K & Ei & M). rewrite Ei.
  assert (LU : 0 < length U) by (destruct U; [congruence|simpl; lia]).
  assert (LM : length (P ++ pend ++ U) <= Datatypes.S (t_imax (w_tab (bg_w b)))).
  { pose proof (ok_len _ _ _ K). rewrite map_length in H. auto. }
  assert (Nc : t_kind (w_tab (bg_w b)) = Bag) by (rewrite (frame_kind _ _ F); auto).
  destruct (Nat.leb_spec (length (P ++ pend ++ U)) (length (P ++ pend))) as [Z|Z].
  { exfalso. rewrite !app_length in Z. lia. }
  assert (FU : forall n, n < length (P ++ pend ++ U) -> rid_from_usize (t_imax (w_tab (bg_w b))) n = Ok n).
  { intros n Hn. unfold rid_from_usize. destruct (Nat.leb_spec n (t_imax (w_tab (bg_w b)))); [reflexivity|lia]. }
  destruct M as [[-> Em]|(x & -> & Em & El)]; rewrite Em.
  - cbn [bind bg_last]. rewrite app_nil_r. simpl app in *. rewrite FU by (rewrite app_length in *; lia).
    cbn [bind]. destruct U as [|y U]; [congruence|]. eexists y, U, _. split; [reflexivity|]. split; auto.
    assert (K' : t_ok (w_tab (bg_w b)) all_live (map g ((P ++ [y]) ++ U))) by (rewrite <- app_assoc; exact K).
    split; [|split].
    + split; [exact F|]. split; [exact K'|]. split; [simpl; rewrite !app_length; simpl; lia|]. left; auto.
    + split; [exact F|]. split; [exact K|]. split; [simpl; rewrite !app_length; simpl; lia|]. right. exists y. auto.
    + cbn [bg_w]. apply (t_get_row_ok _ _ _ K); [|eapply t_not_deleted; eauto; congruence].
      rewrite map_app, nth_error_app2, map_length, Nat.sub_diag by (rewrite map_length; lia). reflexivity.
  - rewrite El. rewrite FU by (rewrite app_length; simpl; lia). cbn [bind].
    destruct (delete_bag_ok pr umax (bg_w b) _ (length P) K Nc) as (cs & E & K'); [rewrite map_length, app_length; simpl; lia|].
    rewrite E. cbn [bind bg_last]. rewrite FU by (rewrite app_length; simpl; lia). cbn [bind].
    destruct (list_last_case U) as [->|(U' & y & ->)]; [congruence|].
    assert (Es : swap_remove (map g (P ++ [x] ++ U' ++ [y])) (length P) = map g (P ++ y :: U')).
    { rewrite <- swap_remove_map. simpl app. rewrite swap_remove_mid. reflexivity. }
    rewrite Es in K'. eexists y, U', _. split; [reflexivity|].
    split; [rewrite <- Permutation_cons_append; auto|].
    assert (F' : frame w0 (with_tab (bg_w b) (with_cols (w_tab (bg_w b)) cs))) by (eapply frame_trans; [exact F|apply frame_cols]).
    assert (K2 : t_ok (with_cols (w_tab (bg_w b)) cs) all_live (map g ((P ++ [y]) ++ U'))) by (rewrite <- app_assoc; exact K').
    split; [|split].
    + split; [exact F'|]. split; [exact K2|]. split; [simpl; rewrite !app_length; simpl; lia|]. left; auto.
    + split; [exact F'|]. split; [exact K'|]. split; [simpl; rewrite !app_length; simpl; lia|]. right. exists y. auto.
    + cbn [bg_w]. apply (t_get_row_ok _ _ _ K'); [|eapply t_not_deleted; eauto].
      * rewrite map_app, nth_error_app2, map_length, Nat.sub_diag by (rewrite map_length; lia). reflexivity.
      * change (t_kind (w_tab (bg_w b)) <> Consistent). congruence.
Qed.

Lemma bag_drop_ok P pend U b : bst P pend U b ->
  exists w' fin, bag_drop pr umax b = Ok w' /\ frame w0 w' /\ t_ok (w_tab w') all_live (map g fin) /\ Permutation fin (P ++ U).
Proof.
  intros (F & K & Ei & M). unfold bag_drop.
  assert (Nc : t_kind (w_tab (bg_w b)) = Bag) by (rewrite (frame_kind _ _ F); auto).
  destruct M as [[-> Em]|(x & -> & Em & El)].
  - exists (bg_w b), (P ++ U). rewrite Em. split; [destruct (bg_last b); reflexivity|]. auto.
  - rewrite El, Em. pose proof (ok_len _ _ _ K) as L. rewrite map_length, app_length in L. simpl in L.
    unfold rid_from_usize. destruct (Nat.leb_spec (length P) (t_imax (w_tab (bg_w b)))); [|lia]. cbn [bind].
    destruct (delete_bag_ok pr umax (bg_w b) _ (length P) K Nc) as (cs & E & K'); [rewrite map_length, app_length; simpl; lia|].
    rewrite E. eexists _, (swap_remove (P ++ [x] ++ U) (length P)). split; [reflexivity|].
    split; [eapply frame_trans; [exact F|apply frame_cols]|]. rewrite swap_remove_map. split; [exact K'|].
    destruct (swap_remove_spec (P ++ [x] ++ U) (length P) x) as (Pm & _).
    { rewrite nth_error_app2, Nat.sub_diag by lia. reflexivity. }
    simpl app in *. apply (perm_trans (Permutation_middle P U x)), Permutation_cons_inv in Pm. symmetry. exact Pm.
Qed.

Lemma bag_for_ok : forall fuel P pend U s b, bst P pend U b -> length U < fuel ->
  exists s' b' tr ids P' pend' U', bag_for pr umax f fuel s b = Ok (s', b') /\ bcalls f s tr s' /\
    bst P' pend' U' b' /\ length ids = length tr /\ Permutation U (ids ++ U') /\
    Permutation P' (P ++ kept ids tr) /\
    (forallb (fun c => negb (stops (snd c))) tr = true -> U' = []) /\
    (forall k i w c id, nth_error tr k = Some (i, w, c) -> nth_error ids k = Some id ->
       t_get_row (w_tab w) i = Ok (g id)).
Proof.
  induction fuel as [|fuel IH]; intros P pend U s b B Lf; [lia|]. cbn [bag_for].
  destruct U as [|u U0] eqn:EU.
  - rewrite (bag_next_end P pend) by auto. cbn [bind fst snd].
    exists s, b, [], [], P, pend, []. split; auto. split; [constructor|]. split; auto. split; auto. split; auto.
    split; [unfold kept; simpl; rewrite app_nil_r; auto|]. split; auto. intros [|k]; discriminate.
  - rewrite <- EU in *. assert (NU : U <> []) by congruence. clear EU u U0.
    destruct (bag_next_ok P pend U b B NU) as (y & U' & b' & E & Pm & B1 & B2 & G).
    rewrite E. cbn [bind fst snd]. destruct (f s (bg_w b') (length P)) as [s1 c] eqn:Ef. cbn [fst snd].
    pose proof (Permutation_length Pm) as Lp. simpl in Lp.
    assert (FIN : forall P2 pend2 b2, bst P2 pend2 U' b2 -> P2 = P ++ (if removes c then [] else [y]) -> stops c = true ->
      exists s' b'' tr ids P' pend' U'', Ok (s1, b2) = Ok (s', b'') /\ bcalls f s tr s' /\
        bst P' pend' U'' b'' /\ length ids = length tr /\ Permutation U (ids ++ U'') /\
        Permutation P' (P ++ kept ids tr) /\
        (forallb (fun c => negb (stops (snd c))) tr = true -> U'' = []) /\
        (forall k i w c id, nth_error tr k = Some (i, w, c) -> nth_error ids k = Some id ->
           t_get_row (w_tab w) i = Ok (g id))).
    { intros P2 pend2 b2 B3 EP St. exists s1, b2, [(length P, bg_w b', c)], [y], P2, pend2, U'.
      split; auto. split; [econstructor; [eauto|constructor]|]. split; auto. split; auto. split; auto. split.
      { subst P2. unfold kept. simpl. destruct (removes c); simpl; auto. }
      split. { simpl. rewrite St. discriminate. }
      intros k i w c' id H1 H2. destruct k as [|[|]]; try discriminate. simpl in *. congruence. }
    assert (REC : forall P2 pend2 b2, bst P2 pend2 U' b2 -> P2 = P ++ (if removes c then [] else [y]) ->
      exists s' b'' tr ids P' pend' U'', bag_for pr umax f fuel s1 b2 = Ok (s', b'') /\ bcalls f s tr s' /\
        bst P' pend' U'' b'' /\ length ids = length tr /\ Permutation U (ids ++ U'') /\
        Permutation P' (P ++ kept ids tr) /\
        (forallb (fun c => negb (stops (snd c))) tr = true -> U'' = []) /\
        (forall k i w c id, nth_error tr k = Some (i, w, c) -> nth_error ids k = Some id ->
           t_get_row (w_tab w) i = Ok (g id))).
    { intros P2 pend2 b2 B3 EP.
      destruct (IH P2 pend2 U' s1 b2 B3) as (s' & b'' & tr & ids & P' & pend' & U'' & H1 & H2 & H3 & H4 & H5 & H6 & H7 & H8); [lia|].
      exists s', b'', ((length P, bg_w b', c) :: tr), (y :: ids), P', pend', U''.
      split; auto. split; [econstructor; eauto|]. split; auto. split; [simpl; auto|].
      split. { rewrite Pm. simpl. constructor. exact H5. }
      split. { rewrite H6. subst P2. unfold kept. simpl. destruct (removes c); simpl; rewrite ?app_nil_r; auto.
        rewrite <- app_assoc. auto. }
      split. { simpl. rewrite andb_true_iff. intros [_ H]. auto. }
      intros k i w c' id K1 K2. destruct k; simpl in *; [congruence|eauto]. }
    destruct c; cbn [removes stops] in *.
    + eapply REC; eauto.
    + eapply REC; eauto. rewrite app_nil_r; auto.
    + eapply FIN; eauto.
    + eapply FIN; eauto. rewrite app_nil_r; auto.
Qed.
End B.

Lemma map_nth_seq {A} (l : list A) d : map (fun i => nth i l d) (seq 0 (length l)) = l.
Proof.
  apply list_ext. intro j. destruct (Nat.lt_ge_cases j (length l)).
  - rewrite (nth_error_nth' l d) by auto. erewrite map_nth_error; [reflexivity|].
    rewrite nth_error_nth' with (d := 0) by (rewrite seq_length; auto). rewrite seq_nth by auto. reflexivity.
  - rewrite (proj2 (nth_error_None l j)) by auto. apply nth_error_None. rewrite map_length, seq_length. auto.
Qed.

Lemma bag_for_loop_ok pr umax {S} (f : S -> wlock -> nat -> S * choice) s w rows :
  t_ok (w_tab w) (fun _ => true) rows -> t_kind (w_tab w) = Bag ->
  exists s' w' tr ids rest fin, bag_for_loop pr umax f s w = Ok (s', w') /\ frame w w' /\ bcalls f s tr s' /\
    length ids = length tr /\ Permutation (seq 0 (length rows)) (ids ++ rest) /\
    (forallb (fun c => negb (stops (snd c))) tr = true -> rest = []) /\
    (forall k i w c id, nth_error tr k = Some (i, w, c) -> nth_error ids k = Some id ->
       t_get_row (w_tab w) i = Ok (nth id rows [])) /\
    t_ok (w_tab w') (fun _ => true) (map (fun i => nth i rows []) fin) /\
    Permutation fin (kept ids tr ++ rest).
Proof.
  intros K Kd. unfold bag_for_loop. rewrite (t_len_ok _ _ _ K).
  destruct (bag_for_ok pr umax f w Kd (fun i => nth i rows []) (Datatypes.S (length rows)) [] [] (seq 0 (length rows)) s (bag_iter_new w))
    as (s' & b' & tr & ids & P' & pend' & U' & H1 & H2 & H3 & H4 & H5 & H6 & H7 & H8).
  { split; [apply frame_refl|]. split; [simpl app; rewrite map_nth_seq; exact K|]. split; [reflexivity|]. left; auto. }
  { rewrite seq_length. lia. }
  rewrite H1. cbn [bind snd fst].
  destruct (bag_drop_ok pr umax f w Kd _ P' pend' U' b' H3) as (w' & fin & E & F & K' & Pf).
  rewrite E. cbn [bind]. exists s', w', tr, ids, U', fin. repeat (split; [solve [auto]|]).
  simpl app in H6. rewrite Pf, H6. auto.
Qed.
