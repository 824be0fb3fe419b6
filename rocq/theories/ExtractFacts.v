From Coq Require Import List Arith Bool Lia Sorting.Sorted Sorting.Permutation.
From Verif Require Import Base BaseFacts Names Column ColumnFacts RowRange RowRangeFacts Table Visit SortedTab BagTab
  TableSpec TableFacts Hist HistFacts TableProps Events Cascade CascadeSpec CascadeFacts CascadeProps Extract ExtractSpec.
Import ListNotations.

Lemma filter_le {A} (f : A -> bool) l : length (filter f l) <= length l.
Proof. induction l as [|a l IH]; simpl; auto. destruct (f a); simpl; lia. Qed.

(** ** Names and headers *)
Lemma name_eqb_eq a : forall b, name_eqb a b = true <-> a = b.
Proof.
  induction a as [|x a IH]; intros [|y b]; simpl; split; intro H; try congruence; auto.
  - apply andb_true_iff in H. destruct H as [H1 H2]. apply Nat.eqb_eq in H1. apply IH in H2. congruence.
  - inv H. rewrite Nat.eqb_refl. simpl. apply IH. auto.
Qed.
Lemma name_eqb_refl a : name_eqb a a = true.
Proof. apply name_eqb_eq. auto. Qed.
Lemma colmeta_eqb_eq a b : colmeta_eqb a b = true <-> a = b.
Proof.
  destruct a, b. unfold colmeta_eqb. simpl. rewrite !andb_true_iff, !name_eqb_eq, Nat.eqb_eq. split.
  - intros [[-> ->] ->]. auto.
  - intro H; inv H. auto.
Qed.
Lemma cols_mismatch_ok mine : forall theirs, length mine <= length theirs ->
  exists b, cols_mismatch mine theirs = Ok b /\ (b = false <-> firstn (length mine) theirs = mine).
Proof.
  induction mine as [|m mine IH]; intros [|c theirs] L; simpl in *; try lia; eauto.
  - exists false. tauto.
  - exists false. tauto.
  - destruct (IH theirs) as (b & E & H); [lia|]. rewrite E. simpl. eexists. split; [reflexivity|].
    rewrite orb_false_iff, negb_false_iff, colmeta_eqb_eq, H. split; [intros [-> X]; rewrite X; auto|]. intro X. injection X as X1 X2. auto.
Qed.
Lemma cols_mismatch_short mine : forall theirs, length theirs < length mine -> cols_mismatch mine theirs = panic PColumnIndex.
Proof.
  induction mine as [|m mine IH]; intros [|c theirs] L; simpl in *; try lia; auto.
  rewrite IH by lia. reflexivity.
Qed.
(** All that [validate] can say. *)
Lemma validate_spec mine theirs :
  validate mine theirs = Ok None /\ theirs = mine \/
  (exists er, validate mine theirs = Ok (Some er)) /\ theirs <> mine /\
    ((hd_fmt theirs, hd_domain theirs, hd_name theirs, hd_schema theirs) <>
     (hd_fmt mine, hd_domain mine, hd_name mine, hd_schema mine) \/ length (hd_cols mine) <= length (hd_cols theirs)) \/
  validate mine theirs = panic PColumnIndex /\ length (hd_cols theirs) < length (hd_cols mine) /\
    (hd_fmt theirs, hd_domain theirs, hd_name theirs, hd_schema theirs) =
    (hd_fmt mine, hd_domain mine, hd_name mine, hd_schema mine).
Proof.
  destruct mine as [f d n s cs], theirs as [f' d' n' s' cs']. unfold validate; simpl.
  destruct (Nat.eqb_spec f' f) as [->|N]; simpl; [|right; left; split; [eauto|split; [congruence|left; congruence]]].
  destruct (name_eqb d' d) eqn:Ed; simpl.
  2:{ right; left; split; [eauto|]. assert (d' <> d) by (intro X; apply name_eqb_eq in X; congruence). split; [congruence|left; congruence]. }
  apply name_eqb_eq in Ed. subst d'. destruct (name_eqb n' n) eqn:En; simpl.
  2:{ right; left; split; [eauto|]. assert (n' <> n) by (intro X; apply name_eqb_eq in X; congruence). split; [congruence|left; congruence]. }
  apply name_eqb_eq in En. subst n'. destruct (Nat.eqb_spec s' s) as [->|N]; simpl; [|right; left; split; [eauto|split; [congruence|left; congruence]]].
  destruct (le_lt_dec (length cs) (length cs')) as [L|L].
  - destruct (cols_mismatch_ok cs cs' L) as (b & E & H). rewrite E. simpl.
    destruct b; simpl.
    + right; left. split; [eauto|]. split; [|auto]. intro X; inv X. rewrite firstn_all in H. destruct H as [_ H]. specialize (H eq_refl). discriminate.
    + destruct H as [H _]. specialize (H eq_refl). destruct (Nat.eqb_spec (length cs) (length cs')) as [El|Nl]; simpl.
      * left. split; auto. rewrite El, firstn_all in H. congruence.
      * right; left. split; [eauto|]. split; [|auto]. intro X; inv X. auto.
  - right; right. rewrite cols_mismatch_short by auto. auto.
Qed.

(** ** The remapping *)
Lemma hm_get_insert k v m x : hm_get (hm_insert k v m) x = if k =? x then Some v else hm_get m x.
Proof.
  simpl. destruct (Nat.eqb_spec k x) as [->|N]; auto. induction m as [|[a b] m IH]; simpl; auto.
  destruct (Nat.eqb_spec a k) as [->|Na]; simpl.
  - destruct (Nat.eqb_spec k x); [contradiction|]. auto.
  - destruct (a =? x); auto.
Qed.
Lemma hm_extend l : forall m x v,
  hm_get (fold_left (fun m p => hm_insert (fst p) (snd p) m) l m) x = Some v -> In (x, v) l \/ hm_get m x = Some v.
Proof.
  induction l as [|[a b] l IH]; intros m x v H; simpl in H; auto.
  apply IH in H. destruct H as [H|H]; [left; right; auto|]. rewrite hm_get_insert in H. simpl in H.
  destruct (Nat.eqb_spec a x) as [->|N]; auto. inv H. left; left; auto.
Qed.
Lemma hm_extend_some l : forall m x, (exists v, In (x, v) l) \/ hm_get m x <> None ->
  hm_get (fold_left (fun m p => hm_insert (fst p) (snd p) m) l m) x <> None.
Proof.
  induction l as [|[a b] l IH]; intros m x H; simpl.
  - destruct H as [[v []]|H]; auto.
  - apply IH. rewrite hm_get_insert. simpl. destruct H as [[v [H|H]]|H].
    + inv H. rewrite Nat.eqb_refl. right; congruence.
    + left; eauto.
    + right. destruct (a =? x); congruence.
Qed.

(** ** Columns, row by row *)
Definition columns_of (n : nat) (rows : list row) : list (list val) :=
  map (fun k => map (fun r => nth k r dv) rows) (seq 0 n).
Lemma row_cells (r : row) : map (fun k => nth k r dv) (seq 0 (length r)) = r.
Proof.
  apply (nth_ext _ _ (nth 0 r dv) dv).
  - rewrite map_length, seq_length. auto.
  - intros i Hi. rewrite map_length, seq_length in Hi. rewrite (map_nth (fun k => nth k r dv) (seq 0 (length r)) 0 i).
    rewrite seq_nth; auto.
Qed.
Lemma take_row_ok n r rows : length r = n -> take_row (columns_of n (r :: rows)) = Ok (r, columns_of n rows).
Proof.
  intro L. unfold take_row, columns_of. 
  rewrite (map_res_Ok _ (fun l => hd dv l)).
  - simpl. rewrite !map_map. simpl. f_equal. f_equal. rewrite <- L. apply row_cells.
  - intros l Hl. apply in_map_iff in Hl. destruct Hl as (k & <- & _). reflexivity.
Qed.
Lemma for_rows_ok {S} (f : S -> nat -> row -> res S) n rows : Forall (fun r => length r = n) rows ->
  forall ids s, length ids = length rows ->
  for_rows f ids (columns_of n rows) s = fold_res (fun s p => f s (fst p) (snd p)) (combine ids rows) s.
Proof.
  induction 1 as [|r rows Hr H IH]; intros [|i ids] s L; simpl in L; try lia; auto.
  cbn [for_rows]. rewrite take_row_ok by auto. cbn [bind fst snd combine fold_res].
  destruct (f s i r); cbn [bind]; auto.
Qed.

(** ** Extraction *)
Lemma extract_col_ok imax ty ids : forall c out live data, c_wf imax ty live c -> c_wf imax ty (fun _ => true) out -> c_data out = data ->
  forall out', fold_res (fun out i => let* v := c_get c i in c_push imax out v) ids out = Ok out' ->
  c_wf imax ty (fun _ => true) out' /\ c_data out' = data ++ map (fun i => nth i (c_data c) dv) ids /\ Forall (fun i => i < length (c_data c)) ids.
Proof.
  induction ids as [|i ids IH]; intros c out live data W Wo D out' H; simpl in H.
  - inv H. rewrite app_nil_r. auto.
  - bindn H o1 H1. bindn H1 v Hv.
    destruct (le_lt_dec (length (c_data c)) i) as [L|L].
    { unfold c_get in Hv. rewrite c_len_data in Hv. destruct (Nat.leb_spec (length (c_data c)) i); [discriminate|lia]. }
    destruct (nth_error_lt_Some _ _ L) as [v' Ev]. rewrite (c_get_ok _ _ _ _ _ _ W Ev) in Hv. inv Hv.
    assert (V : v_ty (ct_base ty) v).
    { pose proof (c_data_ty _ _ _ _ W) as T. rewrite Forall_forall in T. apply T. eapply nth_error_In; eauto. }
    assert (P : exists c', c_push imax out v = Ok c' /\ c_data c' = c_data out ++ [v] /\ c_wf imax ty (fun _ => true) c').
    { destruct ty as [bt|bt].
      - apply (c_push_ok imax (Plain bt) (fun _ => true)); auto. discriminate.
      - destruct (le_lt_dec (length (c_data out)) imax) as [Lo|Lo].
        + apply (c_push_ok imax (Indexed bt) (fun _ => true)); auto.
        + rewrite (c_push_err imax bt (fun _ => true) out v Wo V Lo) in H1. discriminate. }
    destruct P as (c' & E & D' & W'). rewrite E in H1. inv H1.
    destruct (IH c o1 live (c_data o1) W W' eq_refl _ H) as (A & B & C). split; auto. split; [|constructor; auto].
    rewrite B, D', <- app_assoc. simpl. rewrite (nth_error_nth _ _ _ Ev). reflexivity.
Qed.
Lemma extract_col_total imax ty ids : forall c out live, c_wf imax ty live c -> c_wf imax ty (fun _ => true) out ->
  Forall (fun i => i < length (c_data c)) ids -> length (c_data out) + length ids <= S imax ->
  exists out', fold_res (fun out i => let* v := c_get c i in c_push imax out v) ids out = Ok out'.
Proof.
  induction ids as [|i ids IH]; intros c out live W Wo F L; simpl; [eauto|]. inv F. simpl in L.
  destruct (nth_error_lt_Some _ _ H1) as [v Ev]. rewrite (c_get_ok _ _ _ _ _ _ W Ev). cbn [bind].
  destruct (c_push_ok imax ty (fun _ => true) (fun _ => true) out v Wo) as (c' & E & D & W'); auto.
  { pose proof (c_data_ty _ _ _ _ W) as T. rewrite Forall_forall in T. apply T. eapply nth_error_In; eauto. }
  { intros _. lia. }
  rewrite E. apply (IH c c' live); auto. rewrite D, app_length. simpl. lia.
Qed.

Section Extr.
Variables (pr : profile) (head : header) (t : table) (live : nat -> bool) (rows : list row).
Hypothesis K : t_ok t live rows.
Definition at_ids (ids : list nat) : list row := map (fun i => nth i rows []) ids.

Lemma extract_ids_all : length rows <= t_imax t ->
  extract_ids pr t SAll = Ok (filter (t_contains t) (seq 0 (t_len t))).
Proof.
  intro L. unfold extract_ids. rewrite (t_iter_ok _ _ _ K L). cbn [bind]. rewrite (cons_collect_ok pr (t_imax t) (t_free t)).
  2:{ apply cons_new_inv; auto. apply K. }
  2:{ cbn [cons_new ci_rows it_end it_i]. rewrite (t_len_ok _ _ _ K). lia. }
  cbn [cons_new ci_rows it_end it_i]. unfold live_rows. rewrite Nat.sub_0_r. rewrite (t_len_ok _ _ _ K). f_equal.
  apply filter_ext_in. intros i Hi. apply in_seq in Hi. unfold t_contains. rewrite (t_len_ok _ _ _ K).
  destruct (Nat.ltb_spec i (length rows)); [|lia]. simpl.
  pose proof (t_deleted_iff _ _ _ K i) as D. unfold t_is_deleted in D. rewrite <- D.
  destruct (t_consistent t); auto.
Qed.
Lemma extract_ids_all_inv ids : extract_ids pr t SAll = Ok ids -> length rows <= t_imax t.
Proof.
  unfold extract_ids, t_iter, t_row_range. rewrite (t_len_ok _ _ _ K). unfold rid_from_usize.
  destruct (Nat.leb_spec (length rows) (t_imax t)); auto. discriminate.
Qed.

Lemma extract_data_ok ids : forall ts cs rs data, cols_ok (t_imax t) live ts cs rs ->
  map_res (fun p => extract_col (t_imax t) ids (fst p) (snd p)) (combine ts cs) = Ok data ->
  (ts <> [] -> Forall (fun i => i < length rs) ids) /\
  map c_into_iter data = columns_of (length ts) (map (fun i => nth i rs []) ids).
Proof.
  induction ts as [|ty ts IH]; intros [|c cs] rs data C H; simpl in C; try tauto.
  - simpl in H. inv H. split; [congruence|reflexivity].
  - destruct C as (N & W & D & C). simpl in H. bindn H o Ho. bindn H data' Hd. inv H.
    unfold extract_col in Ho. destruct (extract_col_ok _ _ _ c (c_new ty) live [] W (c_new_wf _ _ _) (c_new_data _) _ Ho) as (Wo & Do & F).
    assert (F' : Forall (fun i => i < length rs) ids).
    { rewrite D, map_length in F. exact F. }
    split; auto. destruct (IH cs _ _ C Hd) as [_ E]. unfold columns_of. cbn [length seq map]. f_equal.
    + rewrite (c_into_iter_ok _ _ _ _ Wo), Do. simpl. rewrite map_map. apply map_ext_in. intros i Hi. rewrite Forall_forall in F'.
      rewrite D. rewrite (nth_indep _ dv (hd dv [])) by (rewrite map_length; auto). rewrite (map_nth (hd dv)).
      destruct (nth i rs []); reflexivity.
    + rewrite E. unfold columns_of. rewrite <- seq_shift, map_map. apply map_ext. intro k. rewrite !map_map. apply map_ext. intro i.
      change (nth i (map (@tl val) rs) []) with (nth i (map (@tl val) rs) (@tl val [])). rewrite (map_nth (@tl val) rs [] i). destruct (nth i rs []) as [|v r]; simpl; auto. destruct k; auto.
Qed.
Lemma extract_ok sel e : extract_selection pr head t sel = Ok e ->
  ex_head e = head /\ map c_into_iter (ex_data e) = columns_of (length (s_cols (t_sch t))) (at_ids (ex_sel e)) /\
  Forall (fun i => i < length rows) (ex_sel e) /\
  ex_sel e = match sel with SAll => filter (t_contains t) (seq 0 (t_len t)) | SThese l => l end.
Proof.
  unfold extract_selection. intro H. bindn H ids Hi. bindn H data Hd. inv H. simpl.
  destruct (extract_data_ok ids _ _ _ _ (ok_cols _ _ _ K) Hd) as [F E]. split; auto. split; auto.
  split; [apply F; apply K|]. destruct sel as [|l].
  - rewrite extract_ids_all in Hi by (eapply extract_ids_all_inv; eauto). congruence.
  - simpl in Hi. congruence.
Qed.
Lemma extract_total sel : (match sel with SAll => length rows <= t_imax t | SThese l => Forall (fun i => i < length rows) l /\ length l <= S (t_imax t) end) ->
  exists e, extract_selection pr head t sel = Ok e.
Proof.
  intro H. unfold extract_selection.
  assert (I : exists ids, extract_ids pr t sel = Ok ids /\ Forall (fun i => i < length rows) ids /\ length ids <= S (t_imax t)).
  { destruct sel as [|l]; [|exists l; tauto]. rewrite extract_ids_all by auto. eexists. split; [reflexivity|]. split.
    - apply Forall_forall. intros i Hi. apply filter_In in Hi. destruct Hi as [Hi _]. apply in_seq in Hi. rewrite (t_len_ok _ _ _ K) in Hi. lia.
    - rewrite (t_len_ok _ _ _ K). pose proof (filter_le (t_contains t) (seq 0 (length rows))) as X. rewrite seq_length in X. lia. }
  destruct I as (ids & -> & F & L). cbn [bind].
  assert (D : exists data, map_res (fun p => extract_col (t_imax t) ids (fst p) (snd p)) (combine (s_cols (t_sch t)) (t_cols t)) = Ok data).
  { pose proof (ok_cols _ _ _ K) as C. revert C F. generalize (s_cols (t_sch t)) (t_cols t) rows. intro ts.
    induction ts as [|ty ts IH]; intros [|c cs] rs C F; simpl in C; try tauto; simpl; [eauto|].
    destruct C as (N & W & D & C). destruct (extract_col_total (t_imax t) ty ids c (c_new ty) live W (c_new_wf _ _ _)) as [o Eo].
    { rewrite D, map_length. auto. }
    { rewrite c_new_data. simpl. auto. }
    unfold extract_col at 1. cbn [fst snd]. rewrite Eo. cbn [bind]. destruct (IH cs _ C) as [data' ->]; [rewrite map_length; auto|]. cbn [bind]. eauto. }
  destruct D as [data ->]. cbn [bind]. eauto.
Qed.
Lemma row_of_nth i : i < length rows -> row_of t i (nth i rows []).
Proof.
  intro L. destruct (nth_error_lt_Some _ _ L) as [r E]. rewrite (nth_error_nth _ _ _ E).
  pose proof (t_rows_ty _ _ _ K) as T. rewrite Forall_forall in T. assert (R : row_ty (s_cols (t_sch t)) r) by (apply T; eapply nth_error_In; eauto).
  split.
  - rewrite (row_ty_length _ _ R), (cols_len_eq _ _ _ K). auto.
  - intros k v Ev. destruct (nth_error_lt_Some (s_cols (t_sch t)) k) as [b Eb].
    { rewrite <- (row_ty_length _ _ R). eapply nth_error_Some_lt; eauto. }
    destruct (nth_error_lt_Some (t_cols t) k) as [c Ec].
    { rewrite (cols_len_eq _ _ _ K). eapply nth_error_Some_lt; eauto. }
    destruct (cols_nth _ _ _ _ _ _ _ _ (ok_cols _ _ _ K) Ec Eb) as [W D].
    unfold t_read. rewrite Ec. eapply c_get_ok; eauto. rewrite D. erewrite map_nth_error; eauto. f_equal. eapply nth_error_nth; eauto.
Qed.
Lemma at_ids_ty ids : Forall (fun i => i < length rows) ids -> Forall (row_ty (s_cols (t_sch t))) (at_ids ids).
Proof.
  intro F. pose proof (t_rows_ty _ _ _ K) as T. rewrite Forall_forall in *. intros r Hr. apply in_map_iff in Hr.
  destruct Hr as (i & <- & Hi). apply T. apply nth_In. auto.
Qed.
End Extr.
