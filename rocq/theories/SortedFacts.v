From Coq Require Import List Arith Bool Lia Sorting.Sorted Sorting.Permutation.
From Verif Require Import Base BaseFacts Column ColumnFacts Order RowRange RowRangeFacts Table TableFacts
  Visit TableSpec VisitFacts SortedTab.
Import ListNotations.

(** ** Removal *)
Lemma rm_ascending_iff l : forall p, rm_ascending p l = true <-> Forall (fun x => p < x) l /\ StronglySorted lt l.
Proof.
  induction l as [|x l IH]; intro p; simpl.
  - split; auto. intros _. split; constructor.
  - rewrite andb_true_iff, IH, Nat.ltb_lt. split.
    + intros (L & F & S). split; [constructor; auto|constructor; auto].
      eapply Forall_impl; [|exact F]. cbn beta. intros; lia.
    + intros (F & S). inv F. inv S. auto.
Qed.
Lemma rm_check_iff rows : rm_check rows = Ok tt <-> StronglySorted lt rows.
Proof.
  unfold rm_check, assert_. set (rest := match rows with 0 :: xs => xs | xs => xs end).
  assert (H : rm_ascending 0 rest = true <-> StronglySorted lt rows).
  { unfold rest. destruct rows as [|[|x] rows]; rewrite rm_ascending_iff.
    - split; [tauto|]. intros _; split; constructor.
    - split; [intros [F S]; constructor; auto|]. intro S. inv S. auto.
    - split; [tauto|]. intro S. split; auto. inv S. constructor; [lia|].
      eapply Forall_impl; [|eassumption]. simpl. intros; lia. }
  destruct (rm_ascending 0 rest); split; intro E; try (apply H; auto); auto.
  - discriminate. - apply H in E. discriminate.
Qed.
Lemma rm_check_err rows : rm_check rows <> Ok tt -> rm_check rows = panic PNotSorted.
Proof. unfold rm_check, assert_. destruct (rm_ascending 0 _); congruence. Qed.

(** The loop of one column, on lists. *)
Fixpoint rm_list {A} (uglies : list nat) (bad : nat) (l : list A) (rows : list nat) : list A * nat :=
  match uglies with
  | [] => (l, bad)
  | ugly :: us =>
      if match rows with x :: _ => ugly =? x | [] => false end then rm_list us bad l (tl rows)
      else rm_list us (S bad) (if bad =? ugly then l else list_swap l bad ugly) rows
  end.
Lemma rm_list_map {A B} (h : A -> B) us : forall bad l rows,
  map h (fst (rm_list us bad l rows)) = fst (rm_list us bad (map h l) rows) /\
  snd (rm_list us bad (map h l) rows) = snd (rm_list us bad l rows).
Proof.
  induction us as [|u us IH]; intros bad l rows; simpl; auto.
  destruct (match rows with x :: _ => u =? x | [] => false end); auto.
  destruct (bad =? u); auto. rewrite <- list_swap_map. apply IH.
Qed.
Lemma rm_list_perm {A} us : forall bad (l : list A) rows, Permutation l (fst (rm_list us bad l rows)).
Proof.
  induction us as [|u us IH]; intros bad l rows; simpl; auto.
  destruct (match rows with x :: _ => u =? x | [] => false end); auto.
  destruct (bad =? u); auto. eapply perm_trans; [apply list_swap_perm|apply IH].
Qed.
Lemma rm_list_snd {A B} us : forall bad (l : list A) (m : list B) rows,
  snd (rm_list us bad l rows) = snd (rm_list us bad m rows).
Proof.
  induction us as [|u us IH]; intros bad l m rows; simpl; auto.
  destruct (match rows with x :: _ => u =? x | [] => false end); auto.
Qed.

Lemma rm_col_ok imax t us : forall bad c rows,
  c_wf imax t (fun _ => true) c -> bad <= match us with [] => length (c_data c) | u :: _ => u end ->
  StronglySorted lt us -> Forall (fun u => u < length (c_data c)) us ->
  exists c', rm_col imax us bad c rows = Ok (c', snd (rm_list us bad (c_data c) rows)) /\
    c_data c' = fst (rm_list us bad (c_data c) rows) /\ c_wf imax t (fun _ => true) c'.
Proof.
  induction us as [|u us IH]; intros bad c rows W L S F; simpl; [eauto|].
  inv S. inv F.
  assert (Ln : match us with [] => length (c_data c) | v :: _ => v end >= Datatypes.S u).
  { destruct us; [lia|]. inv H2. auto. }
  destruct (match rows with x :: _ => u =? x | [] => false end).
  - apply IH; auto. lia.
  - destruct (Nat.eqb_spec bad u).
    + cbn [bind]. apply IH; auto. lia.
    + destruct (nth_error_lt_Some (c_data c) bad) as [x X]; [lia|].
      destruct (nth_error_lt_Some (c_data c) u) as [y Y]; [lia|].
      destruct (c_swap_ok imax t _ (fun _ => true) c bad u x y W X Y) as (c1 & E1 & D1 & W1); auto.
      rewrite E1. cbn [bind]. replace (list_swap (c_data c) bad u) with (c_data c1).
      2:{ rewrite D1. unfold list_swap. rewrite X, Y. reflexivity. }
      assert (Ld : length (c_data c1) = length (c_data c)) by (rewrite D1, !upd_length; auto).
      apply IH; auto; rewrite ?Ld; auto. lia.
Qed.

Lemma without_ext {A} (l : list A) : forall i a b, (forall x, i <= x -> mem x a = mem x b) ->
  without i l a = without i l b.
Proof.
  induction l as [|x l IH]; intros i a b H; simpl; auto. rewrite H by auto.
  rewrite (IH (S i) a b); auto. intros; apply H; lia.
Qed.

Lemma rm_list_spec {A} (l : list A) k : forall u bad cur rows,
  u + k = length l -> length cur = length l -> skipn u cur = skipn u l -> bad <= u ->
  StronglySorted lt rows -> Forall (fun x => u <= x) rows ->
  let p := rm_list (seq u k) bad cur rows in
  firstn (snd p) (fst p) = firstn bad cur ++ without u (skipn u l) rows.
Proof.
  induction k as [|k IH]; intros u bad cur rows E Ec Sk L S F; cbn [seq rm_list].
  - rewrite (skipn_all2 l) by lia. simpl. rewrite app_nil_r. reflexivity.
  - destruct (nth_error_lt_Some l u) as [x X]; [lia|].
    rewrite (skipn_nth_error l u x X). cbn [without].
    assert (Xc : nth_error cur u = Some x).
    { rewrite <- (Nat.add_0_r u), <- nth_error_skipn, Sk, nth_error_skipn, Nat.add_0_r. auto. }
    assert (Sk' : skipn (Datatypes.S u) cur = skipn (Datatypes.S u) l).
    { pose proof (skipn_nth_error _ _ _ Xc) as P. rewrite Sk, (skipn_nth_error _ _ _ X) in P. congruence. }
    destruct (match rows with r :: _ => u =? r | [] => false end) eqn:Em.
    + destruct rows as [|r rows]; [discriminate|]. apply Nat.eqb_eq in Em. subst r.
      replace (mem u (u :: rows)) with true by (symmetry; apply mem_In; simpl; auto).
      inv S. inv F. cbn [tl]. cbn zeta. rewrite IH; auto; try lia.
      f_equal. apply without_ext. intros y Hy. unfold mem. simpl.
      destruct (Nat.eqb_spec y u); [lia|reflexivity].
    + assert (Nm : mem u rows = false).
      { apply mem_nIn. intro Hin. destruct rows as [|r rows]; [auto|]. apply Nat.eqb_neq in Em.
        inv S. inv F. rewrite Forall_forall in *. destruct Hin as [->|Hin]; [congruence|].
        apply H2 in Hin. lia. }
      rewrite Nm. cbn zeta.
      assert (F' : Forall (fun y => Datatypes.S u <= y) rows).
      { rewrite Forall_forall in *. intros y Hy. specialize (F y Hy).
        assert (y <> u) by (intros ->; apply mem_nIn in Nm; auto). lia. }
      destruct (Nat.eqb_spec bad u).
      * subst bad. rewrite IH; auto; try lia. rewrite (firstn_S_nth _ _ _ Xc), <- app_assoc. reflexivity.
      * destruct (nth_error_lt_Some cur bad) as [y Y]; [lia|].
        rewrite IH; auto; try lia.
        -- unfold list_swap. rewrite Y, Xc.
           assert (firstn (Datatypes.S bad) (upd (upd cur bad x) u y) = firstn bad cur ++ [x]) as ->.
           { rewrite (firstn_S_nth _ _ x).
             - f_equal. apply list_ext. intro j. rewrite !nth_error_firstn. destruct (Nat.ltb_spec j bad); auto.
               rewrite !nth_error_upd_ne by lia. auto.
             - rewrite nth_error_upd_ne, nth_error_upd_eq by lia. auto. }
           rewrite <- app_assoc. reflexivity.
        -- rewrite list_swap_length; auto.
        -- rewrite <- Sk'. unfold list_swap. rewrite Y, Xc. rewrite !skipn_upd_lt by lia. reflexivity.
Qed.

Lemma sorted_last_max l d : StronglySorted lt l -> forall x, In x l -> x <= last l d.
Proof.
  induction 1 as [|y l S IH F]; simpl; [tauto|]. intros x [->|Hin].
  - destruct l as [|z l]; [auto|]. rewrite Forall_forall in F. specialize (F z (or_introl eq_refl)).
    assert (z <= last (z :: l) d) by (apply IH; left; auto). lia.
  - destruct l as [|z l]; [destruct Hin|]. apply IH; auto.
Qed.
Lemma last_In {A} (l : list A) d : l <> [] -> In (last l d) l.
Proof.
  intro H. rewrite (app_removelast_last d H) at 2. apply in_or_app. right. left. auto.
Qed.

(** [remove_rows] removes exactly the rows at strictly ascending ids in range, and panics on
    anything else. *)
Lemma sorted_remove_rows_ok w live rows ids :
  t_ok (w_tab w) live rows -> t_kind (w_tab w) <> Consistent ->
  (StronglySorted lt ids -> Forall (fun i => i < length rows) ids ->
    exists w', sorted_remove_rows w ids = Ok w' /\ frame w w' /\ t_ok (w_tab w') (fun _ => true) (without 0 rows ids)) /\
  (ids <> [] -> ~ (StronglySorted lt ids /\ Forall (fun i => i < length rows) ids) ->
    exists c, sorted_remove_rows w ids = panic c).
Proof.
  intros K Nc. pose proof (t_ok_all_live _ _ _ Nc K) as K1. clear K. rename K1 into K. split.
  - intros S F. destruct ids as [|i ids].
    { exists w. split; auto. split; [apply frame_refl|]. replace (without 0 rows []) with rows; auto.
      clear. generalize 0. induction rows; intro i; simpl; congruence. }
    unfold sorted_remove_rows. rewrite (proj2 (rm_check_iff _) S). cbn [bind].
    rewrite (t_len_ok _ _ _ K). unfold assert_.
    destruct (Nat.ltb_spec (last (i :: ids) 0) (length rows)) as [L|L].
    2:{ exfalso. rewrite Forall_forall in F. specialize (F (last (i :: ids) 0)).
        assert (In (last (i :: ids) 0) (i :: ids)) by (apply last_In; discriminate). apply F in H. lia. }
    cbn [bind].
    set (ids' := i :: ids) in *. set (n := length rows) in *. set (imax := t_imax (w_tab w)) in *.
    destruct (cols_lift imax (fun _ => true) (fun _ => true)
      (fun c => let* p := rm_col imax (seq 0 n) 0 c ids' in c_truncate imax (fst p) (snd p))
      (fun A l => firstn (snd (rm_list (seq 0 n) 0 l ids')) (fst (rm_list (seq 0 n) 0 l ids'))) n)
      with (ts := s_cols (t_sch (w_tab w))) (cs := t_cols (w_tab w)) (rows := rows) as (cs & E & H); auto.
    + intros A B h l. rewrite <- firstn_map. destruct (rm_list_map h (seq 0 n) 0 l ids') as [-> ->]. reflexivity.
    + intros A P l _ Fa. pose proof (rm_list_perm (seq 0 n) 0 l ids') as Pm.
      apply (Permutation_Forall Pm) in Fa. rewrite <- (firstn_skipn (snd (rm_list (seq 0 n) 0 l ids'))) in Fa.
      apply Forall_app in Fa. tauto.
    + intros t c W Lc. destruct (rm_col_ok imax t (seq 0 n) 0 c ids' W) as (c1 & E1 & D1 & W1).
      * destruct n; simpl; lia.
      * apply seq_ss.
      * rewrite Lc. apply Forall_forall. intros x Hx. apply in_seq in Hx. lia.
      * rewrite E1. cbn [bind fst snd].
        destruct (c_truncate_ok imax t _ c1 (snd (rm_list (seq 0 n) 0 (c_data c) ids')) W1) as (c2 & E2 & D2 & W2).
        exists c2. split; auto. split; auto. rewrite D2, D1. reflexivity.
    + apply K.
    + rewrite E. cbn [bind]. eexists. split; [reflexivity|]. split; [apply frame_cols|]. cbn [w_tab with_tab].
      pose proof (rm_list_spec rows n 0 0 rows ids') as R. cbn zeta in R. simpl firstn in R at 2. simpl skipn in R. simpl app in R.
      rewrite <- R; auto; [|apply Forall_forall; intros; lia].
      eapply with_cols_ok; eauto. rewrite firstn_length.
      pose proof (Permutation_length (rm_list_perm (seq 0 n) 0 rows ids')). pose proof (ok_len _ _ _ K). unfold n in *. lia.
  - intros Ne Hb. unfold sorted_remove_rows. destruct ids as [|i ids]; [congruence|]. set (ids' := i :: ids) in *.
    destruct (rm_check ids') as [u|e] eqn:Ec.
    + destruct u. cbn [bind]. rewrite (t_len_ok _ _ _ K). unfold assert_.
      destruct (Nat.ltb_spec (last ids' 0) (length rows)) as [L|L]; [|exists PRemoveRange; reflexivity].
      exfalso. apply Hb. apply rm_check_iff in Ec. split; auto. apply Forall_forall. intros x Hx.
      pose proof (sorted_last_max _ 0 Ec _ Hx). lia.
    + rewrite rm_check_err in Ec by congruence. inv Ec. cbn [bind]. unfold panic. eauto.
Qed.

(** ** Merging *)
Section M.
Variable pr : profile.
Variable cmp : row -> row -> comparison.

(** Stable merge, each element tagged with whether it is new. *)
Fixpoint m2 (l : list row) : list row -> list (bool * row) :=
  fix go (r : list row) : list (bool * row) :=
  match l, r with
  | [], _ => map (pair true) r
  | _, [] => map (pair false) l
  | x :: l', y :: r' => match cmp x y with Gt => (true, y) :: go r' | _ => (false, x) :: m2 l' r end
  end.
Lemma m2_nil_l r : m2 [] r = map (pair true) r.
Proof. destruct r; reflexivity. Qed.
Lemma m2_nil_r l : m2 l [] = map (pair false) l.
Proof. destruct l; reflexivity. Qed.
Lemma m2_cons x l y r : m2 (x :: l) (y :: r) =
  match cmp x y with Gt => (true, y) :: m2 (x :: l) r | _ => (false, x) :: m2 l (y :: r) end.
Proof. reflexivity. Qed.
Lemma stable_merge_cons x l y r : stable_merge cmp (x :: l) (y :: r) =
  match cmp x y with Gt => y :: stable_merge cmp (x :: l) r | _ => x :: stable_merge cmp l (y :: r) end.
Proof. reflexivity. Qed.
Lemma stable_merge_nil_l (r : list row) : stable_merge cmp [] r = r.
Proof. destruct r; reflexivity. Qed.
Lemma stable_merge_nil_r (l : list row) : stable_merge cmp l [] = l.
Proof. destruct l; reflexivity. Qed.
Lemma map_pair_snd {A} (b : bool) (l : list A) : map snd (map (pair b) l) = l.
Proof. rewrite map_map. simpl. apply map_id. Qed.
Lemma m2_snd l : forall r, map snd (m2 l r) = stable_merge cmp l r.
Proof.
  induction l as [|x l IH]; intro r.
  - rewrite m2_nil_l, stable_merge_nil_l. apply map_pair_snd.
  - induction r as [|y r IHr].
    + rewrite m2_nil_r, stable_merge_nil_r. apply map_pair_snd.
    + rewrite m2_cons, stable_merge_cons. destruct (cmp x y); cbn [map snd]; rewrite ?IH, ?IHr; reflexivity.
Qed.
Lemma m2_new l : forall r, map snd (filter fst (m2 l r)) = r.
Proof.
  assert (G : forall r : list row, map snd (filter fst (map (pair true) r)) = r) by (induction r; simpl; congruence).
  assert (G' : forall r : list row, filter fst (map (pair false) r) = []) by (induction r; simpl; auto).
  induction l as [|x l IH]; intro r.
  - rewrite m2_nil_l. auto.
  - induction r as [|y r IHr].
    + rewrite m2_nil_r, G'. reflexivity.
    + rewrite m2_cons. destruct (cmp x y); cbn [filter fst map snd]; rewrite ?IH, ?IHr; reflexivity.
Qed.
Lemma stable_merge_perm (l r : list row) : Permutation (l ++ r) (stable_merge cmp l r).
Proof.
  revert r. induction l as [|x l IH]; intro r; [rewrite stable_merge_nil_l; auto|].
  induction r as [|y r IHr]; [rewrite stable_merge_nil_r, app_nil_r; auto|].
  rewrite stable_merge_cons. destruct (cmp x y).
  - simpl. constructor. apply IH.
  - simpl. constructor. apply IH.
  - rewrite <- Permutation_middle. constructor. exact IHr.
Qed.
Lemma m2_length l r : length (m2 l r) = length l + length r.
Proof.
  rewrite <- (map_length snd), m2_snd, <- (Permutation_length (stable_merge_perm l r)), app_length. auto.
Qed.

(** Positions of the new rows. *)
Fixpoint tpos (i : nat) (m : list (bool * row)) : list nat :=
  match m with [] => [] | (true, _) :: m => i :: tpos (S i) m | (false, _) :: m => tpos (S i) m end.
Lemma tpos_app a : forall i b, tpos i (a ++ b) = tpos i a ++ tpos (i + length a) b.
Proof.
  induction a as [|[[] r] a IH]; intros i b; simpl; rewrite ?Nat.add_0_r; auto.
  - rewrite IH. replace (i + S (length a)) with (S i + length a) by lia. reflexivity.
  - rewrite IH. replace (i + S (length a)) with (S i + length a) by lia. reflexivity.
Qed.
Lemma tpos_ge m : forall i, Forall (fun x => i <= x) (tpos i m).
Proof.
  induction m as [|[[] r] m IH]; intro i; simpl; auto.
  - constructor; auto. eapply Forall_impl; [|apply IH]. simpl; lia.
  - eapply Forall_impl; [|apply IH]. simpl; lia.
Qed.
Lemma tpos_sorted m : forall i, StronglySorted lt (tpos i m).
Proof.
  induction m as [|[[] r] m IH]; intro i; simpl; auto; [constructor|].
  constructor; auto. eapply Forall_impl; [|apply tpos_ge]. simpl; lia.
Qed.
Lemma tpos_nth m : forall i k, match nth_error (tpos i m) k with
  | Some p => i <= p /\ exists r, nth_error m (p - i) = Some (true, r) /\ nth_error (map snd (filter fst m)) k = Some r
  | None => nth_error (map snd (filter fst m)) k = None end.
Proof.
  induction m as [|[[] r] m IH]; intros i k; simpl.
  - destruct k; reflexivity.
  - destruct k as [|k]; simpl.
    + split; auto. exists r. rewrite Nat.sub_diag. auto.
    + specialize (IH (S i) k). destruct (nth_error (tpos (S i) m) k) as [p|]; auto.
      destruct IH as (L & r' & E1 & E2). split; [lia|]. exists r'. split; auto.
      replace (p - i) with (S (p - S i)) by lia. auto.
  - specialize (IH (S i) k). destruct (nth_error (tpos (S i) m) k) as [p|]; auto.
    destruct IH as (L & r' & E1 & E2). split; [lia|]. exists r'. split; auto.
    replace (p - i) with (S (p - S i)) by lia. auto.
Qed.

Definition is_iter (sd : side) : bool := match sd with Iter => true | Rug => false end.
Lemma take_spec rug iter : match take cmp rug iter with
  | None => rug = [] /\ iter = []
  | Some (sd, v, rug', iter') =>
      (forall rest, rug <> [] \/ rest = [] -> m2 (rug ++ rest) iter = (is_iter sd, v) :: m2 (rug' ++ rest) iter') /\
      (if is_iter sd then rug' = rug /\ iter = v :: iter' else rug = v :: rug' /\ iter' = iter)
  end.
Proof.
  unfold take, choose. destruct rug as [|r rug], iter as [|i iter]; auto.
  - split; [|simpl; auto]. intros rest [?| ->]; [congruence|]. simpl app. rewrite !m2_nil_l. reflexivity.
  - split; [|simpl; auto]. intros rest _. simpl. rewrite m2_nil_r. reflexivity.
  - destruct (cmp r i) eqn:E; simpl; (split; [|auto]); intros rest _; rewrite E; reflexivity.
Qed.

Context {S : Type}.
Variable log : S -> wlock -> nat -> S.
Notation all_live := (fun _ : nat => true).
Definition logged (tr : list (wlock * nat)) (s : S) : S := fold_left (fun s c => log s (fst c) (snd c)) tr s.

(** Each call of [log] sees the row at its place. *)
Definition log_ok (w0 : wlock) (final : list row) (c : wlock * nat) : Prop :=
  exists cur, frame w0 (fst c) /\ t_ok (w_tab (fst c)) all_live cur /\ snd c < length cur /\
    nth_error cur (snd c) = nth_error final (snd c).

Lemma upd_firstn_same {A} (l : list A) c x n : n <= c -> firstn n (upd l c x) = firstn n l.
Proof.
  intro H. apply list_ext. intro j. rewrite !nth_error_firstn. destruct (Nat.ltb_spec j n); auto.
  apply nth_error_upd_ne. lia.
Qed.

Lemma nth_of_firstn {A} (a b : list A) n i : firstn n a = firstn n b -> i < n -> nth_error a i = nth_error b i.
Proof.
  intros H L. pose proof (f_equal (fun l => nth_error l i) H) as E. simpl in E. rewrite !nth_error_firstn in E.
  destruct (Nat.ltb_spec i n); [auto|lia].
Qed.

Lemma merge_shift_ok w0 n k : t_kind (w_tab w0) <> Consistent ->
  forall c s w rug iter cur, vok w0 w n cur -> c + k = n ->
  rug <> [] \/ k = 0 \/ iter <> [] /\ k <> 0 ->
  Forall (row_ty (s_cols (t_sch (w_tab w0)))) (rug ++ iter) ->
  let M := if (length rug =? 0) && negb (k =? 0)
           then match iter with y :: iter' => (true, y) :: m2 (skipn c cur) iter' | [] => [] end
           else m2 (rug ++ skipn c cur) iter in
  exists s' w' rug' iter' cur' tr, merge_shift cmp log (seq c k) s w rug iter = Ok (s', w', rug', iter') /\
    vok w0 w' n cur' /\ firstn c cur' = firstn c cur /\ skipn c cur' = map snd (firstn k M) /\
    m2 rug' iter' = skipn k M /\ Forall (row_ty (s_cols (t_sch (w_tab w0)))) (rug' ++ iter') /\
    s' = logged tr s /\ map snd tr = tpos c (firstn k M) /\ Forall (log_ok w0 cur') tr.
Proof.
  intro Nc. induction k as [|k IH]; intros c s w rug iter cur V Ec Hr T M.
  - cbn [seq merge_shift]. exists s, w, rug, iter, cur, [].
    assert (EM : M = m2 rug iter).
    { unfold M. rewrite andb_false_r. rewrite skipn_all2, app_nil_r; auto. destruct V as (_ & _ & ->). lia. }
    rewrite EM. split; auto. split; auto. split; auto. split.
    { simpl. apply skipn_all2. destruct V as (_ & _ & ->). lia. }
    simpl. repeat split; auto.
  - cbn [seq merge_shift].
    destruct V as (F & K & Lc).
    assert (Nw : t_kind (w_tab w) <> Consistent) by (rewrite (frame_kind _ _ F); auto).
    destruct (nth_error_lt_Some cur c) as [x X]; [lia|].
    pose proof (take_spec rug iter) as TS.
    destruct (take cmp rug iter) as [[[[sd v] rug1] iter1]|].
    2:{ destruct TS as [-> ->]. exfalso. destruct Hr as [|[|[]]]; congruence. }
    destruct TS as [TS1 TS2].
    assert (Tv : row_ty (s_cols (t_sch (w_tab w0))) v /\ Forall (row_ty (s_cols (t_sch (w_tab w0)))) (rug1 ++ iter1)).
    { destruct sd; simpl in TS2; destruct TS2; subst.
      - inv T. auto.
      - apply Forall_app in T. destruct T as [T1 T2]. inv T2. split; auto. apply Forall_app; auto. }
    destruct Tv as [Tv T1].
    destruct (swap_out_row_ok w _ _ K c v x) with (live' := fun _ : nat => true) as (cs & Q & H1); auto.
    { destruct F as (-> & _). auto. } { eapply t_not_deleted; eauto. }
    rewrite Q. cbn [bind fst snd].
    set (w1 := with_tab w (with_cols (w_tab w) cs)) in *.
    assert (F1 : frame w0 w1) by (eapply frame_trans; [exact F|apply frame_cols]).
    assert (Tx : row_ty (s_cols (t_sch (w_tab w0))) x).
    { destruct F as (<- & _). pose proof (t_rows_ty _ _ _ K) as TT. rewrite Forall_forall in TT.
      apply TT. eapply nth_error_In; eauto. }
    set (s1 := match sd with Iter => log s w1 c | Rug => s end).
    destruct (IH (Datatypes.S c) s1 w1 (rug1 ++ [x]) iter1 (upd cur c v)) as
      (s' & w' & rug' & iter' & cur' & tr & E & V' & A1 & A2 & A3 & A4 & A5 & A6 & A7).
    { split; [exact F1|]. split; [exact H1|]. rewrite upd_length; auto. } { lia. }
    { left. intro Z. apply app_eq_nil in Z. destruct Z; discriminate. }
    { rewrite <- app_assoc. apply Forall_app in T1. destruct T1. apply Forall_app. split; auto. simpl. auto. }
    rewrite app_length in A2, A3, A6. simpl length in A2, A3, A6.
    replace (length rug1 + 1 =? 0) with false in * by (symmetry; apply Nat.eqb_neq; lia).
    cbn [andb] in A2, A3, A6.
    set (M1 := m2 ((rug1 ++ [x]) ++ skipn (Datatypes.S c) (upd cur c v)) iter1) in *.
    assert (EM : M = (is_iter sd, v) :: M1).
    { unfold M1. rewrite skipn_upd_lt by lia. rewrite <- app_assoc, <- app_comm_cons, app_nil_l.
      assert (Es : skipn c cur = x :: skipn (Datatypes.S c) cur) by (apply skipn_nth_error; auto).
      rewrite <- Es. unfold M. change (Datatypes.S k =? 0) with false. rewrite andb_true_r.
      destruct rug as [|r rug].
      - simpl length. change (0 =? 0) with true. cbv iota.
        destruct iter as [|y iter]; [exfalso; destruct Hr as [|[|[]]]; congruence|].
        unfold take, choose in *. destruct sd; simpl in TS2; destruct TS2 as [Z1 Z2]; [discriminate|].
        inv Z2. reflexivity.
      - simpl length. change (Datatypes.S (length rug) =? 0) with false. cbv iota. apply TS1. left; discriminate. }
    rewrite EM. cbn [firstn skipn].
    exists s', w', rug', iter', cur', ((if is_iter sd then [(w1, c)] else []) ++ tr).
    split; [exact E|]. split; auto.
    assert (Bc : firstn c cur' = firstn c cur /\ nth_error cur' c = Some v).
    { split.
      - assert (firstn c (firstn (Datatypes.S c) cur') = firstn c (firstn (Datatypes.S c) (upd cur c v))) as Z by congruence.
        rewrite !firstn_firstn, Nat.min_l in Z by lia. rewrite Z. apply upd_firstn_same. lia.
      - rewrite (nth_of_firstn _ _ _ c A1) by lia. apply nth_error_upd_eq. lia. }
    destruct Bc as [B1 B2]. split; auto. split.
    { rewrite (skipn_nth_error _ _ _ B2), A2. reflexivity. }
    split; auto. split; auto. split.
    { unfold logged. rewrite fold_left_app. rewrite A5. unfold logged, s1. destruct sd; reflexivity. }
    split.
    { rewrite map_app, A6. unfold is_iter. destruct sd; simpl; reflexivity. }
    apply Forall_app. split; auto. destruct sd; simpl; auto. constructor; auto.
    exists (upd cur c v). simpl. split; auto. split; auto. split; [rewrite upd_length; lia|].
    rewrite B2, nth_error_upd_eq by lia. auto.
Qed.

Lemma log_ok_frame w0 w1 final tr : frame w0 w1 -> Forall (log_ok w1 final) tr -> Forall (log_ok w0 final) tr.
Proof.
  intros F H. eapply Forall_impl; [|exact H]. intros c (cur & A & B & C & D). exists cur.
  exact (conj (frame_trans _ _ _ F A) (conj B (conj C D))).
Qed.

Lemma merge_tail_ok n : forall s w rug iter cur,
  t_kind (w_tab w) <> Consistent -> t_ok (w_tab w) all_live cur ->
  Forall (row_ty (s_cols (t_sch (w_tab w)))) (rug ++ iter) -> n = length rug + length iter ->
  if length cur + n <=? Datatypes.S (t_imax (w_tab w)) then
    exists w' tr, merge_tail cmp log n s w rug iter = Ok (logged tr s, w') /\ frame w w' /\
      t_ok (w_tab w') all_live (cur ++ map snd (m2 rug iter)) /\
      map snd tr = tpos (length cur) (m2 rug iter) /\ Forall (log_ok w (cur ++ map snd (m2 rug iter))) tr
  else merge_tail cmp log n s w rug iter = panic PRowIdRange.
Proof.
  induction n as [|n IH]; intros s w rug iter cur Nc K T E.
  - destruct rug, iter; try discriminate. simpl. pose proof (ok_len _ _ _ K). rewrite Nat.add_0_r.
    destruct (Nat.leb_spec (length cur) (Datatypes.S (t_imax (w_tab w)))); [|lia].
    exists w, []. rewrite app_nil_r. split; auto. split; [apply frame_refl|]. auto.
  - cbn [merge_tail]. pose proof (take_spec rug iter) as TS.
    destruct (take cmp rug iter) as [[[[sd v] rug1] iter1]|].
    2:{ destruct TS as [-> ->]. discriminate. }
    destruct TS as [TS1 TS2]. specialize (TS1 [] (or_intror eq_refl)). rewrite !app_nil_r in TS1.
    assert (Tv : row_ty (s_cols (t_sch (w_tab w))) v /\ Forall (row_ty (s_cols (t_sch (w_tab w)))) (rug1 ++ iter1) /\
      n = length rug1 + length iter1).
    { destruct sd; simpl in TS2; destruct TS2; subst.
      - inv T. simpl in E. repeat split; auto; lia.
      - apply Forall_app in T. destruct T as [T1 T2]. inv T2. simpl in E. repeat split; auto; [apply Forall_app; auto|lia]. }
    destruct Tv as (Tv & T1 & En). rewrite TS1. cbn [map snd].
    destruct (Nat.lt_ge_cases (t_imax (w_tab w)) (length cur)) as [L|L].
    + rewrite (push_end_full w _ cur v K) by auto. cbn [bind].
      destruct (Nat.leb_spec (length cur + Datatypes.S n) (Datatypes.S (t_imax (w_tab w)))); [lia|]. reflexivity.
    + destruct (push_end_ok w _ cur v K Tv L all_live) as (cs & Ep & H); auto. rewrite Ep. cbn [bind fst snd].
      rewrite event_add_other by (simpl; auto). set (w1 := with_tab w (with_cols (w_tab w) cs)) in *.
      assert (F1 : frame w w1) by apply frame_cols.
      set (s1 := match sd with Iter => log s w1 (length cur) | Rug => s end).
      specialize (IH s1 w1 rug1 iter1 (cur ++ [v]) Nc H T1 En).
      change (t_imax (w_tab w1)) with (t_imax (w_tab w)) in IH. rewrite app_length in IH. simpl length in IH.
      replace (length cur + 1 + n) with (length cur + Datatypes.S n) in IH by lia.
      destruct (length cur + Datatypes.S n <=? Datatypes.S (t_imax (w_tab w))); [|exact IH].
      destruct IH as (w' & tr & E' & F' & K' & P' & L').
      rewrite <- app_assoc in K', L'. simpl app in K', L'.
      exists w', ((if is_iter sd then [(w1, length cur)] else []) ++ tr).
      split. { rewrite E'. unfold logged, s1. rewrite fold_left_app. destruct sd; reflexivity. }
      split. { eapply frame_trans; eauto. }
      split; [exact K'|]. split.
      { rewrite map_app, P'. replace (length cur + 1) with (Datatypes.S (length cur)) by lia. destruct sd; reflexivity. }
      apply Forall_app. split; [|eapply log_ok_frame; eauto].
      destruct sd; simpl; auto. constructor; auto. exists (cur ++ [v]). cbn [fst snd]. split; auto. split; auto.
      rewrite app_length. simpl. split; [lia|].
      rewrite !nth_error_app2, !Nat.sub_diag by lia. reflexivity.
Qed.

Lemma merge_skip_ok t live rows first : t_ok t live rows -> t_kind t <> Consistent -> length rows <= t_imax t ->
  forall n c, c + n = length rows ->
  merge_skip pr cmp n t first c = Ok (c + length (take_while (is_lt cmp first) (skipn c rows))).
Proof.
  intros K Nc Lm. induction n as [|n IH]; intros c E; cbn [merge_skip]; rewrite (t_len_ok _ _ _ K).
  - destruct (Nat.ltb_spec c (length rows)); [lia|]. rewrite skipn_all2 by lia. simpl. f_equal. lia.
  - destruct (Nat.ltb_spec c (length rows)) as [L|L]; [|lia].
    destruct (nth_error_lt_Some _ _ L) as [x X]. rewrite (t_get_row_ok _ _ _ K c x X) by (eapply t_not_deleted; eauto).
    cbn [bind]. rewrite (skipn_nth_error _ _ _ X). cbn [take_while]. unfold is_lt at 1.
    destruct (cmp x first).
    + simpl. f_equal. lia.
    + unfold rid_next. destruct (Nat.ltb_spec c (t_imax t)); [|lia]. cbn [bind]. rewrite IH by lia. simpl. f_equal. lia.
    + simpl. f_equal. lia.
Qed.
Lemma take_drop {A} (p : A -> bool) l : take_while p l ++ drop_while p l = l.
Proof. induction l as [|x l IH]; simpl; auto. destruct (p x); simpl; congruence. Qed.
Lemma take_while_le {A} (p : A -> bool) l : length (take_while p l) <= length l.
Proof. induction l as [|x l IH]; simpl; auto. destruct (p x); simpl; lia. Qed.
Lemma firstn_take {A} (p : A -> bool) l : firstn (length (take_while p l)) l = take_while p l.
Proof. rewrite <- (take_drop p l) at 2. rewrite firstn_app, firstn_all, Nat.sub_diag. simpl. apply app_nil_r. Qed.
Lemma skipn_take {A} (p : A -> bool) l : skipn (length (take_while p l)) l = drop_while p l.
Proof. rewrite <- (take_drop p l) at 2. rewrite skipn_app, skipn_all, Nat.sub_diag. reflexivity. Qed.

Definition merged (rows : list row) (first : row) (rest : list row) : list row :=
  take_while (is_lt cmp first) rows ++ first :: stable_merge cmp (drop_while (is_lt cmp first) rows) rest.
Definition merged_ids (rows : list row) (first : row) (rest : list row) : list nat :=
  tpos (length (take_while (is_lt cmp first) rows)) ((true, first) :: m2 (drop_while (is_lt cmp first) rows) rest).

Lemma merged_length rows first rest : length (merged rows first rest) = length rows + Datatypes.S (length rest).
Proof.
  unfold merged. rewrite app_length. simpl.
  rewrite <- (Permutation_length (stable_merge_perm (drop_while (is_lt cmp first) rows) rest)), app_length.
  rewrite <- (take_drop (is_lt cmp first) rows) at 3. rewrite app_length. lia.
Qed.

Lemma merge_logged_ok s w rows first rest :
  t_kind (w_tab w) <> Consistent -> t_ok (w_tab w) all_live rows -> length rows <= t_imax (w_tab w) ->
  Forall (row_ty (s_cols (t_sch (w_tab w)))) (first :: rest) ->
  if length (merged rows first rest) <=? Datatypes.S (t_imax (w_tab w)) then
    exists w' tr, merge_logged pr cmp log s w (first :: rest) = Ok (logged tr s, w') /\ frame w w' /\
      t_ok (w_tab w') all_live (merged rows first rest) /\
      map snd tr = merged_ids rows first rest /\ Forall (log_ok w (merged rows first rest)) tr
  else merge_logged pr cmp log s w (first :: rest) = panic PRowIdRange.
Proof.
  intros Nc K Lm T. unfold merge_logged. rewrite (t_len_ok _ _ _ K).
  rewrite (merge_skip_ok _ _ _ first K Nc Lm) by lia. cbn [bind]. rewrite Nat.add_0_l. simpl skipn.
  set (p := is_lt cmp first) in *. set (c := length (take_while p rows)).
  assert (Lc : c <= length rows) by apply take_while_le.
  unfold rid_from_usize. destruct (Nat.leb_spec (length rows) (t_imax (w_tab w))); [|lia]. cbn [bind].
  rewrite it_collect_ok by (simpl; lia). cbn [bind]. unfold rr_iter_slow. cbn [it_i it_end r_start r_end].
  set (k := length rows - c). set (M := (true, first) :: m2 (drop_while p rows) rest).
  destruct (merge_shift_ok w (length rows) k Nc c s w [] (first :: rest) rows)
    as (s' & w' & rug' & iter' & cur' & tr & E & (F' & K' & L') & B1 & B2 & B3 & B4 & B5 & B6 & B7); auto.
  { split; [apply frame_refl|split; auto]. } { lia. }
  { destruct k; auto. right. right. split; discriminate. }
  match type of B3 with _ = skipn k ?m => set (M' := m) in * end.
  assert (EM : M' = M).
  { unfold M', M. simpl length. change (0 =? 0) with true. rewrite andb_true_l. subst c. rewrite skipn_take.
    destruct (Nat.eqb_spec k 0) as [Z|Z]; simpl negb; cbv iota; auto.
    assert (drop_while p rows = []) as ->.
    { rewrite <- skipn_take. apply skipn_all2. unfold k in Z. lia. }
    simpl app. rewrite !m2_nil_l. reflexivity. }
  rewrite EM in *. clear M' EM.
  rewrite E. cbn [bind fst snd].
  pose proof (m2_length rug' iter') as Ml. rewrite B3, skipn_length in Ml.
  assert (LM : length M = length rows - c + Datatypes.S (length rest)).
  { unfold M. simpl. rewrite m2_length. rewrite <- skipn_take, skipn_length. fold c. lia. }
  assert (T' : Forall (row_ty (s_cols (t_sch (w_tab w')))) (rug' ++ iter')) by (destruct F' as (-> & _); auto).
  assert (Nc' : t_kind (w_tab w') <> Consistent) by (rewrite (frame_kind _ _ F'); auto).
  pose proof (merge_tail_ok (length rug' + length iter') s' w' rug' iter' cur' Nc' K' T' eq_refl) as R.
  rewrite (frame_imax _ _ F') in R. rewrite merged_length.
  replace (length cur' + (length rug' + length iter')) with (length rows + Datatypes.S (length rest)) in R.
  2:{ rewrite L'. rewrite <- Ml. unfold k in *. lia. }
  destruct (length rows + Datatypes.S (length rest) <=? Datatypes.S (t_imax (w_tab w))); [|exact R].
  destruct R as (w2 & tr2 & E2 & F2 & K2 & P2 & Q2).
  assert (Out : cur' ++ map snd (m2 rug' iter') = merged rows first rest).
  { unfold merged. rewrite <- (firstn_skipn c cur'). rewrite B1, B2, B3. unfold c. rewrite firstn_take, <- app_assoc.
    f_equal. rewrite <- map_app, firstn_skipn. unfold M. simpl. rewrite m2_snd. reflexivity. }
  rewrite Out in *. exists w2, (tr ++ tr2). split.
  { rewrite E2. unfold logged. rewrite fold_left_app. subst s'. reflexivity. }
  split; [eapply frame_trans; eauto|]. split; auto. split.
  { rewrite map_app, B6, P2, B3, L'. unfold merged_ids. fold p. fold c. fold M.
    rewrite <- (firstn_skipn k M) at 3. rewrite tpos_app. f_equal. f_equal.
    rewrite firstn_length, LM. unfold k. lia. }
  apply Forall_app. split; [|eapply log_ok_frame; eauto].
  eapply Forall_impl; [|exact B7]. intros q (cur & A1 & A2 & A3 & A4). exists cur. split; [exact A1|].
  split; [exact A2|]. split; [exact A3|]. rewrite A4, <- Out. symmetry. apply nth_error_app1.
  apply nth_error_Some. rewrite <- A4. apply nth_error_Some. auto.
Qed.

(** Whatever the table: no undefined behaviour. *)
Lemma good_merge_skip sc w first : w_good sc w -> forall n c, (pr = Debug -> t_len (w_tab w) - c <= n) ->
  good pr (fun _ => True) (merge_skip pr cmp n (w_tab w) first c).
Proof.
  intro G. induction n as [|n IH]; intros c L; cbn [merge_skip].
  - destruct (Nat.ltb_spec c (t_len (w_tab w))); simpl; auto. destruct pr; auto. specialize (L eq_refl). lia.
  - destruct (Nat.ltb_spec c (t_len (w_tab w))); simpl; auto.
    eapply good_bind; [apply (good_get_row pr sc); auto|]. intros r _.
    destruct (cmp r first); simpl; auto.
    eapply good_bind; [apply good_rid_next|]. intros j [_ Hj]. apply IH. intro D. rewrite Hj by auto. specialize (L D). lia.
Qed.
Lemma take_ty (P : row -> Prop) rug iter : Forall P (rug ++ iter) -> match take cmp rug iter with
  | Some (_, v, rug', iter') => P v /\ Forall P (rug' ++ iter') | None => True end.
Proof.
  intro T. pose proof (take_spec rug iter) as TS. destruct (take cmp rug iter) as [[[[sd v] rug1] iter1]|]; auto.
  destruct TS as [_ TS]. destruct sd; simpl in TS; destruct TS; subst.
  - inv T; auto.
  - apply Forall_app in T. destruct T as [T1 T2]. inv T2. split; auto. apply Forall_app; auto.
Qed.
Lemma good_merge_shift sc n ids : forall s w rug iter, w_good_n sc n w -> Forall (row_ty (s_cols sc)) (rug ++ iter) ->
  good pr (fun q => w_good sc (snd (fst (fst q))) /\ Forall (row_ty (s_cols sc)) (snd (fst q) ++ snd q))
    (merge_shift cmp log ids s w rug iter).
Proof.
  induction ids as [|c ids IH]; intros s w rug iter G T; cbn [merge_shift].
  - simpl. split; auto. eapply w_good_n_good; eauto.
  - pose proof (take_ty _ _ _ T) as Tt. destruct (take cmp rug iter) as [[[[sd v] rug1] iter1]|]; [|simpl; auto].
    destruct Tt as [Tv T1]. eapply good_bind; [apply (good_swap_out pr sc n); auto|]. intros p [Gp Tp].
    apply IH; auto. rewrite <- app_assoc. apply Forall_app in T1. destruct T1. apply Forall_app; split; auto.
    simpl. auto.
Qed.
Lemma good_merge_tail sc n : forall s w rug iter, w_good sc w -> Forall (row_ty (s_cols sc)) (rug ++ iter) ->
  good pr (fun q => w_good sc (snd q)) (merge_tail cmp log n s w rug iter).
Proof.
  induction n as [|n IH]; intros s w rug iter G T; cbn [merge_tail]; [simpl; auto|].
  pose proof (take_ty _ _ _ T) as Tt. destruct (take cmp rug iter) as [[[[sd v] rug1] iter1]|]; [|simpl; auto].
  destruct Tt as [Tv T1]. eapply good_bind; [apply (good_push_end pr sc); auto|]. intros p [Gp _]. apply IH; auto.
Qed.
Lemma good_merge_logged sc s w rows : w_good sc w -> Forall (row_ty (s_cols sc)) rows ->
  good pr (fun q => w_good sc (snd q)) (merge_logged pr cmp log s w rows).
Proof.
  intros G T. unfold merge_logged. destruct rows as [|first rest]; [simpl; auto|].
  eapply good_bind; [apply (good_merge_skip sc); auto; lia|]. intros c _.
  eapply good_bind; [apply good_from_usize|]. intros e [-> He].
  rewrite it_collect_ok by (simpl; lia). cbn [bind].
  eapply good_bind; [eapply (good_merge_shift sc (t_len (w_tab w))); auto|].
  - destruct G as (E & live & rs & K). split; auto. exists live, rs. split; auto. symmetry. eapply t_len_ok; eauto.
  - intros q [Gq Tq]. apply good_merge_tail; auto.
Qed.

(** Order. *)
Hypothesis T : total_preorder cmp.
Lemma stable_merge_in l : forall r (x : row), In x (stable_merge cmp l r) <-> In x l \/ In x r.
Proof.
  intros r x. rewrite <- in_app_iff. split; intro H.
  - eapply Permutation_in; [apply Permutation_sym, stable_merge_perm|exact H].
  - eapply Permutation_in; [apply stable_merge_perm|exact H].
Qed.
Lemma stable_merge_asc l : forall r, ascending cmp l -> ascending cmp r -> ascending cmp (stable_merge cmp l r).
Proof.
  induction l as [|x l IH]; intros r A B; [rewrite stable_merge_nil_l; auto|].
  induction r as [|y r IHr]; [rewrite stable_merge_nil_r; auto|].
  assert (LE : cmp x y <> Gt -> ascending cmp (x :: stable_merge cmp l (y :: r))).
  { intro N. inv A. constructor; [apply IH; auto|]. apply Forall_forall. intros z Hz. apply stable_merge_in in Hz.
    rewrite Forall_forall in *. destruct Hz as [Hz|[<-|Hz]]; auto.
    inv B. rewrite Forall_forall in *. eapply (tp_trans _ T); [exact N|]. apply H4. exact Hz. }
  rewrite stable_merge_cons. destruct (cmp x y) eqn:E; try (apply LE; congruence).
  assert (YX : cmp y x <> Gt) by (rewrite (tp_anti _ T), E; simpl; congruence).
  assert (AA := A). inv B. inv A. constructor; [apply IHr; auto|].
  apply Forall_forall. intros z Hz. apply stable_merge_in in Hz. rewrite Forall_forall in *.
  destruct Hz as [[<-|Hz]|Hz]; auto. eapply (tp_trans _ T); [exact YX|]. apply H4. exact Hz.
Qed.
Lemma asc_app l r : ascending cmp l -> ascending cmp r -> (forall x y, In x l -> In y r -> cmp x y <> Gt) ->
  ascending cmp (l ++ r).
Proof.
  induction l as [|x l IH]; intros A B H; simpl; auto. inv A. constructor.
  - apply IH; auto. intros; apply H; simpl; auto.
  - rewrite Forall_forall in *. intros z Hz. apply in_app_or in Hz. destruct Hz; auto. apply H; simpl; auto.
Qed.
Lemma asc_app_inv l r : ascending cmp (l ++ r) ->
  ascending cmp l /\ ascending cmp r /\ (forall x y, In x l -> In y r -> cmp x y <> Gt).
Proof.
  induction l as [|x l IH]; intros A; simpl in *.
  - split; [constructor|]. split; auto.
  - inv A. destruct (IH H1) as (A1 & A2 & A3). rewrite Forall_forall in H2. split; [|split; auto].
    + constructor; auto. apply Forall_forall. intros; apply H2. apply in_or_app; auto.
    + intros a b [<-|Ha] Hb; [|auto]. apply H2. apply in_or_app; auto.
Qed.
Lemma take_while_all {A} (p : A -> bool) l x : In x (take_while p l) -> p x = true.
Proof.
  induction l as [|y l IH]; simpl; [tauto|]. destruct (p y) eqn:E; simpl; [|tauto]. intros [<-|H]; auto.
Qed.
Lemma merged_asc rows first rest : ascending cmp rows -> ascending cmp (first :: rest) -> ascending cmp (merged rows first rest).
Proof.
  intros A B. unfold merged. set (p := is_lt cmp first). rewrite <- (take_drop p rows) in A.
  apply asc_app_inv in A. destruct A as (A1 & A2 & A3). inv B.
  assert (FD : forall y, In y (drop_while p rows) -> cmp first y <> Gt).
  { intros y Hy. destruct (drop_while p rows) as [|d ds] eqn:D; [destruct Hy|].
    assert (cmp first d <> Gt).
    { assert (p d = false).
      { clear -D. induction rows as [|x rows IH]; simpl in D; [discriminate|]. destruct (p x) eqn:E; auto. inv D. auto. }
      unfold p, is_lt in H. rewrite (tp_anti _ T). destruct (cmp d first); simpl; congruence. }
    destruct Hy as [<-|Hy]; auto. inv A2. rewrite Forall_forall in *. eapply (tp_trans _ T); [exact H|]. apply H5. auto. }
  assert (FM : forall y, In y (stable_merge cmp (drop_while p rows) rest) -> cmp first y <> Gt).
  { intros y Hy. apply stable_merge_in in Hy. destruct Hy; auto. rewrite Forall_forall in H2. apply H2; auto. }
  apply asc_app; auto.
  - constructor; [apply stable_merge_asc; auto|]. apply Forall_forall. exact FM.
  - intros x y Hx Hy. apply take_while_all in Hx. unfold p, is_lt in Hx.
    assert (X : cmp x first <> Gt) by (destruct (cmp x first); congruence).
    destruct Hy as [<-|Hy]; auto. eapply (tp_trans _ T); [exact X|]. auto.
Qed.

(** [Vec::sort]. *)
Lemma ins_row_perm x l : Permutation (x :: l) (ins_row cmp x l).
Proof.
  induction l as [|y l IH]; simpl; auto. destruct (cmp x y); auto.
  eapply perm_trans; [apply perm_swap|]. constructor. exact IH.
Qed.
Lemma sort_rows_perm l : Permutation l (sort_rows cmp l).
Proof. induction l as [|x l IH]; simpl; auto. eapply perm_trans; [|apply ins_row_perm]. constructor. auto. Qed.
Lemma ins_row_asc x l : ascending cmp l -> ascending cmp (ins_row cmp x l).
Proof.
  induction l as [|y l IH]; intro A; simpl; [repeat constructor|]. 
  assert (LE : cmp x y <> Gt -> ascending cmp (x :: y :: l)).
  { intro N. constructor; auto. inv A. constructor; auto. eapply Forall_impl; [|eassumption].
    intros z Hz. eapply (tp_trans _ T); [exact N|exact Hz]. }
  destruct (cmp x y) eqn:E; try (apply LE; congruence). inv A. constructor; [apply IH; auto|].
  apply Forall_forall. intros z Hz. apply (Permutation_in z (Permutation_sym (ins_row_perm x l))) in Hz.
  rewrite Forall_forall in *. destruct Hz as [<-|Hz]; auto. unfold le_by. rewrite (tp_anti _ T), E. simpl. congruence.
Qed.
Lemma sort_rows_asc l : ascending cmp (sort_rows cmp l).
Proof. induction l as [|x l IH]; simpl; [constructor|]. apply ins_row_asc; auto. Qed.
End M.

Lemma merged_perm cmp rows first rest : Permutation (rows ++ first :: rest) (merged cmp rows first rest).
Proof.
  unfold merged. set (p := is_lt cmp first). rewrite <- (take_drop p rows) at 1. rewrite <- app_assoc.
  apply Permutation_app_head. rewrite <- Permutation_middle. constructor. apply stable_merge_perm.
Qed.
Lemma without_asc {A} (R : A -> A -> Prop) l : forall i ids, StronglySorted R l -> StronglySorted R (without i l ids).
Proof.
  assert (Sub : forall l i ids, incl (without i l ids) (l : list A)).
  { clear. induction l as [|x l IH]; intros i ids y; simpl; [tauto|]. destruct (mem i ids); simpl; intuition eauto.
    right. eapply IH; eauto. right. eapply IH; eauto. }
  induction l as [|x l IH]; intros i ids S; simpl; auto. inv S.
  destruct (mem i ids); auto. constructor; auto. rewrite Forall_forall in *. intros y Hy. apply H2. eapply Sub; eauto.
Qed.

Lemma good_sorted_remove pr sc w rows : w_good sc w -> s_kind sc <> Consistent ->
  good pr (w_good sc) (sorted_remove_rows w rows).
Proof.
  intros (E & live & rs & K) Nc.
  assert (Nk : t_kind (w_tab w) <> Consistent) by (unfold t_kind; congruence).
  destruct (sorted_remove_rows_ok w live rs rows K Nk) as [H1 H2].
  destruct rows as [|i rows]; [simpl; split; eauto|].
  destruct (rm_check (i :: rows)) as [[]|e] eqn:C.
  - apply rm_check_iff in C. destruct (Nat.ltb (last (i :: rows) 0) (length rs)) eqn:L.
    + apply Nat.ltb_lt in L. destruct H1 as (w' & E' & F & K'); auto.
      { apply Forall_forall. intros x Hx. pose proof (sorted_last_max _ 0 C _ Hx). lia. }
      rewrite E'. simpl. split; [destruct F as (-> & _); auto|eauto].
    + apply Nat.ltb_ge in L. destruct H2 as [c Ec]; [discriminate| |rewrite Ec; simpl; auto].
      intros [_ F]. rewrite Forall_forall in F. assert (In (last (i :: rows) 0) (i :: rows)) by (apply last_In; discriminate).
      apply F in H. lia.
  - destruct H2 as [c Ec]; [discriminate| |rewrite Ec; simpl; auto].
    intros [S _]. apply rm_check_iff in S. congruence.
Qed.
