(** Lemmas about column histories. *)
From Coq Require Import List Arith Bool ZArith Lia Sorted ZifyBool.
From Verif Require Import Base BaseFacts Column ColumnFacts ColumnHist.
Import ListNotations.

(** ** Booleans *)
Lemma bool_step_sim b o : bc_inv b ->
  match vec_step (bc_view b) o with
  | Ok (l, r) => exists b', bool_step b o = Ok (b', r) /\ bc_view b' = l /\ bc_inv b'
  | Err e => bool_step b o = Err e
  end.
Proof.
  intro H. destruct o; simpl.
  - destruct (bc_push_spec b v H). eauto.
  - rewrite bc_index_spec by auto. destruct (nth_error (bc_view b) i); simpl; eauto.
  - destruct (bc_flush_spec b H) as [Hd Hn]. unfold bc_index_mut. rewrite Hd.
    destruct (Nat.ltb_spec i (length (bc_view b))) as [L|L].
    + destruct (nth_error_lt_Some _ _ L) as [x E]. rewrite E. simpl. eexists. split; [reflexivity|].
      split; [unfold bc_view at 1; simpl; apply upd_same; auto|]. intros k; simpl. intros [= <-]; auto.
    + apply nth_error_None in L. rewrite L. reflexivity.
  - pose proof (bc_write_spec b i v H) as S. destruct (bc_write b i v) as [b'|e]; simpl.
    + destruct S as (L & E & I). destruct (Nat.ltb_spec i (length (bc_view b))); [|lia]. eauto.
    + destruct S as (L & ->). destruct (Nat.ltb_spec i (length (bc_view b))); [lia|]. reflexivity.
  - pose proof (bc_swap_out_spec b i v H) as S. destruct (bc_swap_out b i v) as [[b' o]|e]; simpl.
    + destruct S as (N & E & I). rewrite N. eauto.
    + destruct S as (L & ->). apply nth_error_None in L. rewrite L. reflexivity.
  - pose proof (bc_swap_spec b i j H) as S. destruct (bc_swap b i j) as [b'|e]; simpl.
    + destruct S as (x & y & E1 & E2 & E3 & I). rewrite E1, E2. eauto.
    + destruct S as ([L|L] & ->); apply nth_error_None in L; rewrite L.
      * reflexivity. * destruct (nth_error (bc_view b) i); reflexivity.
  - destruct (bc_truncate_spec b n H). eauto.
  - destruct (bc_clear_spec b H). eauto.
  - rewrite bc_len_view. eauto.
  - rewrite bc_into_iter_spec by auto. eauto.
Qed.
Lemma bool_run_sim ops : forall b, bc_inv b ->
  seen (run_ops bool_step b ops) = seen (run_ops vec_step (bc_view b) ops).
Proof.
  induction ops as [|o os IH]; intros b H; simpl; auto.
  pose proof (bool_step_sim b o H) as S. destruct (vec_step (bc_view b) o) as [[l r]|e]; simpl.
  - destruct S as (b' & E & <- & I). rewrite E. simpl. specialize (IH b' I).
    destruct (run_ops bool_step b' os) as [p|], (run_ops vec_step (bc_view b') os) as [q|];
      simpl in *; congruence.
  - rewrite S. reflexivity.
Qed.

(** ** Indexed columns *)
Definition live_of (s : cells) (i : nat) : bool :=
  match nth_error s i with Some (_, b) => b | None => true end.

Definition cells_rel (imax : nat) (t : btype) (s : cells) (c : col) : Prop :=
  c_data c = map fst s /\ c_wf imax (Indexed t) (live_of s) c.

Lemma b_index_err t b i : b_wf t b -> length (b_data b) <= i -> exists e, b_index b i = Err e.
Proof.
  destruct t, b; simpl; try tauto.
  - intros _ L. apply nth_error_None in L. rewrite L. eauto.
  - intros H L. rewrite map_length in L. apply nth_error_None in L.
    rewrite bc_index_spec, L by auto. simpl. unfold panic; eauto.
Qed.

Lemma cells_step_sim imax t s c o : cells_rel imax t s c -> iop_ty t o ->
  match cells_step imax s o with
  | Some s' => exists c', c_step imax c o = Ok c' /\ cells_rel imax t s' c'
  | None => exists e, c_step imax c o = Err e
  end.
Proof.
  intros [D W] V. assert (Ls : length (c_data c) = length s) by (rewrite D; apply map_length).
  destruct o; simpl in *.
  - destruct (Nat.leb_spec (length s) imax).
    + destruct (c_push_ok imax (Indexed t) (live_of s) (live_of (s ++ [(v, true)])) c v)
        as (c' & E & D' & W'); auto.
      * intros. lia.
      * intros i Hi. unfold live_of. rewrite nth_error_app1 by lia. auto.
      * unfold live_of. rewrite Ls, nth_error_app2, Nat.sub_diag by lia. reflexivity.
      * exists c'. split; auto. split; auto. rewrite D', D, map_app. reflexivity.
    + exists (EPanic PRowIdRange). eapply c_push_err; eauto. lia.
  - destruct (Nat.ltb_spec i (length s)).
    + destruct (nth_error_lt_Some (c_data c) i) as [old N]; [lia|].
      destruct (c_swap_out_ok imax (Indexed t) (live_of s) (live_of (upd s i (v, true))) c i v old)
        as (c' & E & D' & W'); auto.
      * intros j Hj. unfold live_of. rewrite nth_error_upd_ne by auto. auto.
      * unfold live_of. rewrite nth_error_upd_eq by auto. auto.
      * rewrite E. simpl. exists c'. split; auto. split; auto. rewrite D', D, upd_map. reflexivity.
    + destruct c as [|b ix]; simpl in W; [tauto|]. destruct W as (B & _).
      destruct (b_index_err t b i B) as [e E]; [unfold c_data in Ls; simpl in Ls; lia|].
      simpl. rewrite E. simpl. eauto.
  - destruct (nth_error s i) as [[x bx]|] eqn:Ei; [destruct (nth_error s j) as [[y by_]|] eqn:Ej|].
    + assert (Ni : nth_error (c_data c) i = Some x) by (rewrite D, nth_error_map, Ei; auto).
      assert (Nj : nth_error (c_data c) j = Some y) by (rewrite D, nth_error_map, Ej; auto).
      pose proof (nth_error_Some_lt _ _ _ Ei). pose proof (nth_error_Some_lt _ _ _ Ej).
      destruct (c_swap_ok imax (Indexed t) (live_of s)
        (live_of (upd (upd s i (y, true)) j (x, true))) c i j x y) as (c' & E & D' & W'); auto.
      * intros k Hk Hk'. unfold live_of. rewrite !nth_error_upd_ne by auto. auto.
      * unfold live_of. destruct (Nat.eq_dec i j) as [->|].
        -- rewrite nth_error_upd_eq by (rewrite upd_length; auto). auto.
        -- rewrite nth_error_upd_ne, nth_error_upd_eq by auto. auto.
      * unfold live_of. rewrite nth_error_upd_eq by (rewrite upd_length; auto). auto.
      * exists c'. split; auto. split; auto. rewrite D', D, !upd_map. reflexivity.
    + destruct c as [|b ix]; simpl in W; [tauto|]. destruct W as (B & _).
      apply nth_error_None in Ej. pose proof (nth_error_Some_lt _ _ _ Ei).
      unfold c_data in Ls; simpl in Ls.
      destruct (b_index_lt t b i B) as (v & N & E); [lia|].
      destruct (b_index_err t b j B) as [e E']; [lia|]. simpl. rewrite E. simpl. rewrite E'. simpl. eauto.
    + destruct c as [|b ix]; simpl in W; [tauto|]. destruct W as (B & _).
      apply nth_error_None in Ei. unfold c_data in Ls; simpl in Ls.
      destruct (b_index_err t b i B) as [e E']; [lia|]. simpl. rewrite E'. simpl. eauto.
  - destruct (nth_error s i) as [[x bx]|] eqn:Ei.
    + pose proof (nth_error_Some_lt _ _ _ Ei).
      destruct (c_deleted_ok imax (Indexed t) (live_of s) (live_of (upd s i (x, false))) c i)
        as (c' & E & D' & W'); auto; [lia| | |].
      * intros j Hj. unfold live_of. rewrite nth_error_upd_ne by auto. auto.
      * unfold live_of. rewrite nth_error_upd_eq by auto. auto.
      * exists c'. split; auto. split; auto. rewrite D', D, upd_map. simpl.
        symmetry. apply upd_same. rewrite nth_error_map, Ei. reflexivity.
    + destruct c as [|b ix]; simpl in W; [tauto|]. destruct W as (B & _).
      apply nth_error_None in Ei. unfold c_data in Ls; simpl in Ls.
      destruct (b_index_err t b i B) as [e E']; [lia|]. simpl. rewrite E'. simpl. eauto.
  - destruct (c_truncate_ok imax (Indexed t) (live_of s) c n W) as (c' & E & D' & W').
    exists c'. split; auto. split; [rewrite D', D, firstn_map; auto|].
    eapply c_wf_ext; [|exact W']. intros i Hi. rewrite D', firstn_length in Hi.
    unfold live_of. rewrite nth_error_firstn. destruct (Nat.ltb_spec i n); [auto|lia].
  - destruct (c_clear_ok imax (Indexed t) (live_of s) (live_of []) c W) as [D' W'].
    eexists. split; [reflexivity|]. split; auto.
Qed.

Lemma cells_run_sim imax t ops : forall s c, cells_rel imax t s c -> Forall (iop_ty t) ops ->
  match cells_run imax s ops with
  | Some s' => exists c', fold_res (c_step imax) ops c = Ok c' /\ cells_rel imax t s' c'
  | None => exists e, fold_res (c_step imax) ops c = Err e
  end.
Proof.
  induction ops as [|o os IH]; intros s c R V; simpl; eauto.
  inv V. pose proof (cells_step_sim imax t s c o R H1) as S.
  destruct (cells_step imax s o) as [s'|].
  - destruct S as (c' & E & R'). rewrite E. simpl. apply IH; auto.
  - destruct S as (e & E). rewrite E. simpl. eauto.
Qed.
Lemma cells_rel_new imax t : cells_rel imax t [] (c_new (Indexed t)).
Proof. split; [apply c_new_data|apply c_new_wf]. Qed.

Lemma cells_reach imax t ops c : Forall (iop_ty t) ops ->
  fold_res (c_step imax) ops (c_new (Indexed t)) = Ok c ->
  exists s, cells_run imax [] ops = Some s /\ cells_rel imax t s c.
Proof.
  intros V E. pose proof (cells_run_sim imax t ops [] _ (cells_rel_new imax t) V) as S.
  destruct (cells_run imax [] ops) as [s|].
  - destruct S as (c' & E' & R). exists s. split; auto. congruence.
  - destruct S as (e & E'). congruence.
Qed.
Lemma cells_total imax t ops : Forall (iop_ty t) ops ->
  ((exists c, fold_res (c_step imax) ops (c_new (Indexed t)) = Ok c) <-> cells_run imax [] ops <> None).
Proof.
  intros V. pose proof (cells_run_sim imax t ops [] _ (cells_rel_new imax t) V) as S.
  destruct (cells_run imax [] ops) as [s|].
  - destruct S as (c' & E' & R). split; [discriminate|eauto].
  - destruct S as (e & E'). split; [intros [c E]; congruence|congruence].
Qed.

Lemma holds_val imax t s c i k : cells_rel imax t s c ->
  (holds s i k <-> nth_error (c_data c) i = Some k /\ live_of s i = true).
Proof.
  intros [D W]. unfold holds, live_of. rewrite D, nth_error_map.
  destruct (nth_error s i) as [[x b]|]; simpl; split; try discriminate.
  - intros [= -> ->]; auto. - intros [[= ->] ->]; auto. - intros [? _]; discriminate.
Qed.

Lemma find_hist imax t ops c k : Forall (iop_ty t) ops ->
  fold_res (c_step imax) ops (c_new (Indexed t)) = Ok c ->
  exists s rows, cells_run imax [] ops = Some s /\ c_find imax c k = Ok rows /\
    StronglySorted lt rows /\ forall i, In i rows <-> i < imax /\ holds s i k.
Proof.
  intros V E. destruct (cells_reach imax t ops c V E) as (s & Es & R). exists s.
  pose proof (proj2 R) as W. rewrite (c_find_ok imax t _ c k W). eexists. split; auto. split; auto.
  split; [apply StronglySorted_filter, seq_ss|].
  intro i. rewrite (holds_val imax t s c i k R), filter_In, !andb_true_iff, val_at_iff, in_seq, Nat.ltb_lt.
  split; [tauto|]. intros (Hi & N & Lv). pose proof (nth_error_Some_lt _ _ _ N). repeat split; auto; lia.
Qed.

Lemma range_hist imax t ops c lo hi : Forall (iop_ty t) ops ->
  fold_res (c_step imax) ops (c_new (Indexed t)) = Ok c ->
  exists s, cells_run imax [] ops = Some s /\
  match val_cmp lo hi with
  | Gt => c_range imax c lo hi = panic PRangeOrder
  | _ => exists rows, c_range imax c lo hi = Ok rows /\ NoDup rows /\
      (forall i, In i rows <-> exists v, holds s i v /\ val_cmp lo v <> Gt /\ val_cmp v hi <> Gt /\
                                         ~ (v = hi /\ i = imax)) /\
      (forall a b i j x y, nth_error rows a = Some i -> nth_error rows b = Some j -> a < b ->
         holds s i x -> holds s j y -> val_cmp x y = Lt \/ (x = y /\ i < j))
  end.
Proof.
  intros V E. destruct (cells_reach imax t ops c V E) as (s & Es & R). exists s. split; auto.
  pose proof (proj2 R) as W.
  destruct (val_cmp lo hi) eqn:C; [| |eapply c_range_panics; eauto];
  (destruct (c_range_ok imax t _ c lo hi W) as (ps & Ep & Sp & Hp); [congruence|];
   assert (Hh : forall v i, In (v, i) ps -> holds s i v) by
     (intros v i Hi; apply (holds_val imax t s c i v R); apply Hp in Hi; tauto);
   exists (map snd ps); split; [auto|]; split;
   [apply (ps_rows_NoDup (c_data c)); auto; intros v i Hi; apply Hp in Hi; tauto|]; split;
   [intro i; rewrite in_map_iff; split;
    [intros ([v j] & Ej & Hj); simpl in Ej; subst j; exists v; pose proof (Hh _ _ Hj); split; auto;
     apply Hp in Hj; destruct Hj as (_ & _ & A & B & N); repeat split; auto; intros [-> ->]; apply N; auto
    |intros (v & Hv & A & B & N); exists (v, i); split; auto; apply Hp;
     apply (holds_val imax t s c i v R) in Hv; destruct Hv as [Nv Lv]; repeat split; auto;
     intros [Ev Hi]; apply N; split; auto;
     pose proof (nth_error_Some_lt _ _ _ Nv); destruct c; simpl in W; [tauto|];
     unfold c_data in *; simpl in *; lia]
   |intros a b i j x y Na Nb Hab Hx Hy;
    rewrite nth_error_map in Na, Nb;
    destruct (nth_error ps a) as [[x' i']|] eqn:Ea; simpl in Na; inv Na;
    destruct (nth_error ps b) as [[y' j']|] eqn:Eb; simpl in Nb; inv Nb;
    assert (x' = x) by (pose proof (Hh _ _ (nth_error_In _ _ Ea)) as Q; unfold holds in *; congruence);
    assert (y' = y) by (pose proof (Hh _ _ (nth_error_In _ _ Eb)) as Q; unfold holds in *; congruence);
    subst x' y';
    assert (K : klt (x, i) (y, j)) by
      (clear - Sp Ea Eb Hab; revert a b Ea Eb Hab; induction Sp as [|p l Sl IH Fl]; intros a b Ea Eb Hab;
       [destruct a; discriminate|]; destruct b; [lia|]; simpl in Eb; destruct a; simpl in Ea;
       [inv Ea; rewrite Forall_forall in Fl; apply Fl; eapply nth_error_In; eauto
       |eapply IH; eauto; lia]);
    unfold klt, key_cmp in K; cbn [fst snd] in K; destruct (val_cmp x y) eqn:Exy;
    [right; apply val_cmp_eq in Exy; split; auto; apply Nat.compare_lt_iff; auto|auto|discriminate]]).
Qed.

Lemma data_hist imax t ops c : Forall (iop_ty t) ops ->
  fold_res (c_step imax) ops (c_new (Indexed t)) = Ok c ->
  exists s, cells_run imax [] ops = Some s /\ c_len c = length s /\ c_into_iter c = map fst s /\
   (forall i, c_get c i = match nth_error s i with Some (v, _) => Ok v | None => panic PIndexOOB end).
Proof.
  intros V E. destruct (cells_reach imax t ops c V E) as (s & Es & R). exists s. split; auto.
  destruct R as [D W]. split; [rewrite c_len_data, D; apply map_length|]. split.
  - erewrite c_into_iter_ok by eauto. auto.
  - intro i. destruct (nth_error s i) as [[v b]|] eqn:N.
    + eapply c_get_ok; eauto. rewrite D, nth_error_map, N. reflexivity.
    + unfold c_get. rewrite c_len_data, D, map_length. apply nth_error_None in N.
      destruct (Nat.leb_spec (length s) i); [auto|lia].
Qed.

(** A serialised and deserialised column: same cells, every row in the index. *)
Lemma serde_hist imax t ops c : Forall (iop_ty t) ops ->
  fold_res (c_step imax) ops (c_new (Indexed t)) = Ok c ->
  exists vs c', c_serialize c = Ok vs /\ vs = c_into_iter c /\
    c_deserialize imax (Indexed t) vs = Ok c' /\
    c_into_iter c' = vs /\
    (forall i, c_get c' i = c_get c i) /\
    (forall k, exists rows, c_find imax c' k = Ok rows /\ StronglySorted lt rows /\
        forall i, In i rows <-> i < imax /\ nth_error vs i = Some k).
Proof.
  intros V E. destruct (cells_reach imax t ops c V E) as (s & Es & D & W).
  pose proof (c_data_ty _ _ _ _ W) as Ty.
  assert (L : length (c_data c) <= S imax).
  { destruct c; simpl in W; [tauto|]. unfold c_data; simpl; tauto. }
  destruct (c_deserialize_ok imax (Indexed t) (c_data c) Ty) as (c' & E' & D' & W'); auto.
  exists (c_data c), c'. split; [eapply c_serialize_ok; eauto|].
  split; [symmetry; eapply c_into_iter_ok; eauto|]. split; auto.
  split; [erewrite c_into_iter_ok by eauto; auto|]. split.
  - intro i. unfold c_get. rewrite !c_len_data, D'.
    destruct (Nat.leb_spec (length (c_data c)) i); auto.
    destruct (nth_error_lt_Some (c_data c) i) as [v N]; auto.
    erewrite c_index_ok by (eauto; rewrite D'; eauto). symmetry. eapply c_index_ok; eauto.
  - intro k. rewrite (c_find_ok imax t _ c' k W'). eexists. split; auto.
    split; [apply StronglySorted_filter, seq_ss|]. intro i.
    rewrite D', filter_In, !andb_true_iff, val_at_iff, in_seq, Nat.ltb_lt. split; [tauto|].
    intros [Hi N]. pose proof (nth_error_Some_lt _ _ _ N). repeat split; auto; lia.
Qed.

Lemma find_missing imax t ops c k : Forall (iop_ty t) ops ->
  fold_res (c_step imax) ops (c_new (Indexed t)) = Ok c ->
  exists s rows, cells_run imax [] ops = Some s /\ c_find imax c k = Ok rows /\
    forall i, (holds s i k /\ ~ In i rows) <-> (holds s i k /\ i = imax).
Proof.
  intros V E. destruct (cells_reach imax t ops c V E) as (s & Es & R).
  destruct (find_hist imax t ops c k V E) as (s' & rows & Es' & Er & _ & H).
  assert (s' = s) by congruence; subst s'.
  exists s, rows. split; auto. split; auto. intro i. rewrite H.
  assert (L : holds s i k -> i <= imax).
  { intro Hh. apply (holds_val imax t s c i k R) in Hh. destruct Hh as [N _].
    apply nth_error_Some_lt in N. destruct R as [_ W]. destruct c; simpl in W; [tauto|].
    unfold c_data in *; simpl in *. lia. }
  split.
  - intros [Hh Hn]. split; auto. specialize (L Hh).
    destruct (Nat.eq_dec i imax); auto. exfalso. apply Hn. split; auto. lia.
  - intros [Hh ->]. split; auto. intros [? _]. lia.
Qed.

Lemma v_le_cmp a b : v_le a b <-> val_cmp a b <> Gt.
Proof.
  destruct a as [x|x|x], b as [y|y|y]; cbn; try solve [split; [discriminate|intros _; exact I]]; try solve [split; [intros []|intros H; exfalso; apply H; reflexivity]].
  - reflexivity.
  - destruct x, y; split; intros H; try (left; reflexivity); try (right; reflexivity); try discriminate; [destruct H; discriminate|exfalso; apply H; reflexivity].
  - symmetry. apply Nat.compare_le_iff.
Qed.
Lemma range_spec imax t ops c lo hi : Forall (iop_ty t) ops ->
  fold_res (c_step imax) ops (c_new (Indexed t)) = Ok c ->
  exists s, cells_run imax [] ops = Some s /\
  (~ v_le lo hi -> c_range imax c lo hi = panic PRangeOrder) /\
  (v_le lo hi -> exists rows, c_range imax c lo hi = Ok rows /\ NoDup rows /\
      (forall i, In i rows <-> exists v, holds s i v /\ v_le lo v /\ v_le v hi /\ ~ (v = hi /\ i = imax)) /\
      (forall a b i j x y, nth_error rows a = Some i -> nth_error rows b = Some j -> a < b ->
         holds s i x -> holds s j y -> v_le x y /\ (x = y -> i < j))).
Proof.
  intros V E. destruct (range_hist imax t ops c lo hi V E) as (s & Es & R). exists s. split; [exact Es|]. split.
  - intros N. destruct (val_cmp lo hi) eqn:C; [exfalso; apply N, v_le_cmp; congruence..|exact R].
  - intros L. apply v_le_cmp in L. assert (Q : exists rows, c_range imax c lo hi = Ok rows /\ NoDup rows /\
      (forall i, In i rows <-> exists v, holds s i v /\ val_cmp lo v <> Gt /\ val_cmp v hi <> Gt /\ ~ (v = hi /\ i = imax)) /\
      (forall a b i j x y, nth_error rows a = Some i -> nth_error rows b = Some j -> a < b ->
         holds s i x -> holds s j y -> val_cmp x y = Lt \/ (x = y /\ i < j))) by (destruct (val_cmp lo hi); [exact R|exact R|congruence]).
    destruct Q as (rows & E1 & E2 & E3 & E4). exists rows. split; [exact E1|]. split; [exact E2|]. split.
    + intros i. rewrite E3. split; intros (v & H & A & B & N); exists v; (split; [exact H|split; [apply v_le_cmp; exact A|split; [apply v_le_cmp; exact B|exact N]]]).
    + intros a b i j x y Ha Hb L' Hx Hy. destruct (E4 a b i j x y Ha Hb L' Hx Hy) as [K|[-> K]].
      * split; [apply v_le_cmp; congruence|]. intros ->. rewrite val_cmp_refl in K. discriminate.
      * split; [|intros _; exact K]. apply v_le_cmp. rewrite val_cmp_refl. discriminate.
Qed.
Lemma no_write imax t ops c i v : Forall (iop_ty t) ops -> fold_res (c_step imax) ops (c_new (Indexed t)) = Ok c ->
  c_set c i v = panic (if i <? c_len c then PIndexedMut else PIndexOOB).
Proof.
  intros V E. assert (X : exists b ix, c = CIdx b ix).
  { destruct (cells_reach imax t ops c V E) as (s & Es & R). destruct c as [b|b ix]; [|eauto]. exfalso. destruct R as [_ W]. exact W. }
  destruct X as (b & ix & ->). unfold c_set. destruct (Nat.leb_spec (c_len (CIdx b ix)) i), (Nat.ltb_spec i (c_len (CIdx b ix))); try reflexivity; lia.
Qed.
