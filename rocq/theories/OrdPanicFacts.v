(** Proofs about indexed columns whose elements have a panicking [Ord]. *)
From Coq Require Import List Arith Bool Lia Sorted.
From Verif Require Import Base BaseFacts Column ColumnFacts ColumnHist ColumnHistFacts Unwind OrdPanicSpec.
Import ListNotations.

Definition oinv (imax : nat) (t : btype) (c : col) (a : view) : Prop :=
  exists b ix, c = CIdx b ix /\ b_wf t b /\ b_data b = v_elems a /\ length (v_elems a) <= S imax /\ bt_sorted ix /\
    forall v i, In (v, i) ix <-> v_known a v i.

Lemma inv_new imax t : oinv imax t (c_new (Indexed t)) (View [] (fun _ _ => False)).
Proof.
  destruct (cells_rel_new imax t) as [D W]. unfold c_new in *. eexists _, _. split; [reflexivity|]. cbn in W, D. destruct W as (B & X & L). split; auto. split; [exact D|]. cbn. split; [lia|].
  split; [constructor|]. intros v i. cbn. tauto.
Qed.
Lemma booms_true boom k m : booms boom k m = true -> m <> [] /\ boom k m = true.
Proof. destruct m; cbn; [discriminate|]. intro H. split; auto. discriminate. Qed.
Lemma ins_ok k ix known : bt_sorted ix -> (forall v i, In (v, i) ix <-> known v i) ->
  bt_sorted (bt_insert k ix) /\ forall v i, In (v, i) (bt_insert k ix) <-> edit known (true, k) v i.
Proof. intros S H. split; [now apply bt_insert_sorted|]. intros v i. rewrite bt_insert_In, H. reflexivity. Qed.
Lemma rem_ok k ix known : bt_sorted ix -> (forall v i, In (v, i) ix <-> known v i) ->
  bt_sorted (bt_remove k ix) /\ forall v i, In (v, i) (bt_remove k ix) <-> edit known (false, k) v i.
Proof. intros S H. split; [now apply bt_remove_sorted|]. intros v i. rewrite bt_remove_In, H by auto. reflexivity. Qed.

(** The end of a call: the new view is the one it shows. *)
Local Ltac finish b ix := eexists (View _ _); split; [exists b, ix; split; [reflexivity|]; split; [assumption|]; split; [cbn [v_elems]; eassumption|]; split; [|split; [eassumption|cbn [v_known]; eassumption]]|].
Local Ltac done_ := left; split; [reflexivity|]; split; reflexivity.
Local Ltac panic_ n P := right; exists n; do 2 eexists; split; [reflexivity|]; apply booms_true in P; destruct P as [Pn Pb]; split; [exact Pn|]; split; [exact Pb|]; split; [reflexivity|]; split; reflexivity.

Lemma deleted_ok imax t boom b ix a i old : b_wf t b -> b_data b = v_elems a -> length (v_elems a) <= S imax -> bt_sorted ix ->
  (forall v i, In (v, i) ix <-> v_known a v i) -> nth_error (v_elems a) i = Some old ->
  uc_deleted imax boom (CIdx b ix) i = if booms boom (old, i) ix then (CIdx b ix, panic PUser) else (CIdx b (bt_remove (old, i) ix), Ok tt).
Proof.
  intros W D L S H N. pose proof (nth_error_Some_lt _ _ _ N) as Li. cbn [uc_deleted]. rewrite (b_index_ok t b i old W) by congruence. rewrite native_ok by lia. reflexivity.
Qed.
Lemma deletions_ok imax t boom b vs : b_wf t b -> b_data b = vs -> length vs <= S imax -> forall m n ix known,
  bt_sorted ix -> (forall v i, In (v, i) ix <-> known v i) -> n + m = length vs ->
  let es := map (pair false) (combine (skipn n vs) (seq n m)) in
  (exists ix', ufold (uc_deleted imax boom) (seq n m) (CIdx b ix) = (CIdx b ix', Ok tt) /\ bt_sorted ix' /\ forall v i, In (v, i) ix' <-> fold_left edit es known v i) \/
  (exists ix' k e mm, ufold (uc_deleted imax boom) (seq n m) (CIdx b ix) = (CIdx b ix', panic PUser) /\ bt_sorted ix' /\ nth_error es k = Some e /\ mm <> [] /\ boom (snd e) mm = true /\
     forall v i, In (v, i) ix' <-> fold_left edit (firstn k es) known v i).
Proof.
  intros W D L. induction m as [|m IH]; intros n ix known S H Hl es.
  - left. exists ix. cbn. unfold es. cbn [seq]. rewrite combine_nil. cbn. auto.
  - destruct (nth_error_lt_Some vs n) as [old N]; [lia|]. assert (Es : es = (false, (old, n)) :: map (pair false) (combine (skipn (Datatypes.S n) vs) (seq (Datatypes.S n) m))).
    { unfold es. cbn [seq]. replace (skipn n vs) with (old :: skipn (Datatypes.S n) vs); [reflexivity|]. clear - N. revert n N. induction vs as [|v vs IHv]; intros [|n] N; cbn in *; try discriminate; [congruence|].
      rewrite <- (IHv n N). reflexivity. }
    cbn [seq ufold]. rewrite (deleted_ok imax t boom b ix (View vs known) n old) by auto. destruct (booms boom (old, n) ix) eqn:P.
    + right. exists ix, 0, (false, (old, n)), ix. cbn [thn fst snd]. split; [reflexivity|]. split; auto. rewrite Es. split; [reflexivity|]. apply booms_true in P. cbn. tauto.
    + unfold thn at 1 2. cbn [fst snd]. destruct (rem_ok (old, n) ix known S H) as [S1 H1]. destruct (IH (Datatypes.S n) _ _ S1 H1) as [(ix' & Q & S2 & H2)|(ix' & k & e & mm & Q & S2 & N2 & M1 & M2 & H2)]; [lia| |].
      * left. exists ix'. rewrite Q. split; auto. split; auto. rewrite Es. exact H2.
      * right. exists ix', (Datatypes.S k), e, mm. rewrite Q. split; auto. split; auto. rewrite Es. cbn [nth_error firstn fold_left]. auto.
Qed.

Lemma step_ok imax t boom c a o c' r : oinv imax t c a -> iop_ty t o -> allowed imax (v_elems a) o -> rough_step imax boom c o = (c', r) ->
  exists b, oinv imax t c' b /\ outcome boom o a b r.
Proof.
  intros (b & ix & -> & W & D & L & S & H) T A. destruct a as [vs known]. cbn [v_elems v_known] in *. destruct o as [v|i v|i j|i|n|]; cbn [rough_step iop_ty allowed] in *.
  - assert (V : v_ty t v) by (destruct t; auto). destruct (b_push_ok t b v W V) as (b' & Eb & Db & Wb). rewrite D in Db. cbn [uc_push]. rewrite Eb, b_len_data, D, native_ok by auto.
    destruct (booms boom (v, length vs) ix) eqn:P; intro E; injection E as <- <-.
    + finish b' ix; [cbn; rewrite app_length; cbn; lia|]. panic_ 0 P.
    + destruct (ins_ok (v, length vs) ix known S H) as [S1 H1]. finish b' (bt_insert (v, length vs) ix); [cbn; rewrite app_length; cbn; lia|]. done_.
  - assert (V : v_ty t v) by (destruct t; auto). destruct (nth_error_lt_Some vs i A) as [old N]. cbn [uc_swap_out]. rewrite (b_index_ok t b i old W) by congruence. rewrite native_ok by lia.
    destruct (booms boom (old, i) ix) eqn:P; [intro E; injection E as <- <-|].
    { finish b ix; [cbn; lia|]. unfold outcome. cbn [v_elems v_known edits]. rewrite N. panic_ 0 P. }
    cbv zeta. destruct (rem_ok (old, i) ix known S H) as [S1 H1]. destruct (booms boom (v, i) (bt_remove (old, i) ix)) eqn:P1; [intro E; injection E as <- <-|].
    { finish b (bt_remove (old, i) ix); [cbn; lia|]. unfold outcome. cbn [v_elems v_known edits]. rewrite N. panic_ 1 P1. }
    destruct (b_swap_out_ok t b i v old W V) as (b' & Eb & Db & Wb); [congruence|]. rewrite D in Db. rewrite Eb. cbn [fst snd drop_res thn]. intro E. injection E as <- <-.
    destruct (ins_ok (v, i) _ _ S1 H1) as [S2 H2]. finish b' (bt_insert (v, i) (bt_remove (old, i) ix)); [cbn; rewrite upd_length; lia|]. unfold outcome. cbn [v_elems v_known edits]. rewrite N. done_.
  - destruct A as [Ai Aj]. destruct (nth_error_lt_Some vs i Ai) as [x Nx]. destruct (nth_error_lt_Some vs j Aj) as [y Ny]. cbn [uc_swap]. rewrite (b_index_ok t b i x W) by congruence. rewrite (b_index_ok t b j y W) by congruence.
    rewrite !native_ok by lia. cbv zeta. unfold outcome. cbn [v_elems v_known edits elems_done elems_panic]. rewrite Nx, Ny.
    destruct (booms boom (x, i) ix) eqn:P; [intro E; injection E as <- <-|]. { finish b ix; [cbn; lia|]. panic_ 0 P. }
    destruct (rem_ok (x, i) ix known S H) as [S1 H1].
    destruct (booms boom (y, j) (bt_remove (x, i) ix)) eqn:P1; [intro E; injection E as <- <-|]. { finish b (bt_remove (x, i) ix); [cbn; lia|]. panic_ 1 P1. }
    destruct (rem_ok (y, j) _ _ S1 H1) as [S2 H2].
    destruct (booms boom (x, j) (bt_remove (y, j) (bt_remove (x, i) ix))) eqn:P2; [intro E; injection E as <- <-|]. { finish b (bt_remove (y, j) (bt_remove (x, i) ix)); [cbn; lia|]. panic_ 2 P2. }
    destruct (ins_ok (x, j) _ _ S2 H2) as [S3 H3].
    destruct (booms boom (y, i) (bt_insert (x, j) (bt_remove (y, j) (bt_remove (x, i) ix)))) eqn:P3; [intro E; injection E as <- <-|].
    { finish b (bt_insert (x, j) (bt_remove (y, j) (bt_remove (x, i) ix))); [cbn; lia|]. panic_ 3 P3. }
    destruct (ins_ok (y, i) _ _ S3 H3) as [S4 H4]. destruct (b_swap_ok t b i j x y W) as (b' & Eb & Db & Wb); try congruence. rewrite D in Db. rewrite Eb. intro E. injection E as <- <-.
    finish b' (bt_insert (y, i) (bt_insert (x, j) (bt_remove (y, j) (bt_remove (x, i) ix)))); [cbn; rewrite !upd_length; lia|]. done_.
  - destruct (nth_error_lt_Some vs i A) as [old N]. rewrite (deleted_ok imax t boom b ix (View vs known) i old) by auto. unfold outcome. cbn [v_elems v_known edits elems_done elems_panic]. rewrite N.
    destruct (booms boom (old, i) ix) eqn:P; intro E; injection E as <- <-.
    + finish b ix; [cbn; lia|]. panic_ 0 P.
    + destruct (rem_ok (old, i) ix known S H) as [S1 H1]. finish b (bt_remove (old, i) ix); [cbn; lia|]. done_.
  - cbn [uc_truncate]. rewrite b_len_data, D. unfold outcome. cbn [v_elems v_known edits elems_done elems_panic]. destruct (b_truncate_ok t b n W) as [Dt Wt]. rewrite D in Dt.
    destruct (Nat.le_gt_cases n (length vs)) as [Ln|Ln].
    + destruct (deletions_ok imax t boom b vs W D L (length vs - n) n ix known S H) as [(ix' & Q & S2 & H2)|(ix' & k & e & mm & Q & S2 & N2 & M1 & M2 & H2)]; [lia| |]; rewrite Q; cbn [thn fst snd]; intro E; injection E as <- <-.
      * finish (b_truncate b n) ix'; [cbn; rewrite firstn_length; lia|]. done_.
      * finish b ix'; [cbn; lia|]. right. exists k, e, mm. cbn [v_elems v_known]. auto 10.
    + replace (length vs - n) with 0 by lia. cbn [seq ufold thn fst snd]. intro E. injection E as <- <-. rewrite combine_nil. cbn [map].
      finish (b_truncate b n) ix; [cbn; rewrite firstn_length; lia|]. done_.
  - intro E. injection E as <- <-. cbn [c_clear]. destruct (b_clear_ok t b W) as [Dc Wc]. eexists (View [] (fun _ _ => False)). split.
    + exists (b_clear b), []. split; [reflexivity|]. split; auto. split; auto. cbn. split; [lia|]. split; [constructor|]. tauto.
    + left. auto.
Qed.
Lemma inv_seen imax t c a : oinv imax t c a -> seen imax c a.
Proof.
  intros (b & ix & -> & W & D & L & Xs & H). split; [unfold c_into_iter; cbn [c_base]; rewrite (b_into_iter_ok t b W); exact D|]. intro k. cbn [c_find]. unfold bt_range.
  replace (key_cmp (k, 0) (k, imax)) with (Nat.compare 0 imax) by (unfold key_cmp; simpl; rewrite val_cmp_refl; auto).
  assert (Hc : Nat.compare 0 imax <> Gt) by (rewrite Nat.compare_gt_iff; lia).
  set (f := fun k0 : key => _).
  assert (Hf : forall v i, f (v, i) = true <-> v = k /\ i < imax).
  { intros v i. unfold f, key_cmp; simpl. rewrite (val_cmp_anti k v).
    destruct (val_cmp k v) eqn:E; simpl.
    - apply val_cmp_eq in E; subst v. destruct (Nat.compare_spec i imax), i; simpl; split; intros;
        try lia; try (intuition lia); try discriminate; auto.
    - split; [discriminate|]. intros [-> _]. rewrite val_cmp_refl in E; discriminate.
    - split; [discriminate|]. intros [-> _]. rewrite val_cmp_refl in E; discriminate. }
  exists (map snd (filter f ix)). split; [destruct (Nat.compare 0 imax); try reflexivity; congruence|]. split.
  - assert (Hs : StronglySorted klt (filter f ix)) by (apply StronglySorted_filter; auto).
    assert (Hk : Forall (fun p => fst p = k) (filter f ix)).
    { apply Forall_forall. intros [v i] Hp. apply filter_In in Hp. simpl. apply (Hf v i). tauto. }
    revert Hs Hk. generalize (filter f ix) as m. induction 1 as [|p m Hs IH Hp]; simpl; intro Hk; constructor.
    + apply IH. inversion Hk; auto.
    + inversion Hk; subst. rewrite Forall_forall in *. intros i Hi. apply in_map_iff in Hi.
      destruct Hi as ([v j] & <- & Hj). pose proof (Hp _ Hj) as Hlt. pose proof (H3 _ Hj) as Hv.
      destruct p as [pv pj]. simpl in *; subst. unfold klt, key_cmp in Hlt; simpl in Hlt.
      rewrite val_cmp_refl in Hlt. apply Nat.compare_lt_iff; auto.
  - intro i. rewrite in_map_iff. split.
    + intros ([v j] & Ej & Hp). simpl in Ej; subst j. apply filter_In in Hp. destruct Hp as [Hp Hfp].
      apply Hf in Hfp. destruct Hfp as [-> Hi]. apply H in Hp. auto.
    + intros [Hi Hk]. exists (k, i). split; auto. apply filter_In. split; [apply H; auto|apply Hf; auto].
Qed.
Lemma ran_account imax t h c : ran imax t h c -> exists a, account h a /\ oinv imax t c a.
Proof.
  induction 1 as [|h c boom o c' r R (a & A & I) T Al E].
  - exists (View [] (fun _ _ => False)). split; [constructor|apply inv_new].
  - assert (Al' : allowed imax (v_elems a) o) by (destruct (inv_seen _ _ _ _ I) as [D _]; rewrite <- D; auto).
    destruct (step_ok imax t boom c a o c' r I T Al' E) as (b & I' & O). exists b. split; auto. econstructor; eauto.
Qed.
Lemma ran_seen imax t h c : ran imax t h c -> exists a, account h a /\ seen imax c a.
Proof. intro R. destruct (ran_account _ _ _ _ R) as (a & A & I). exists a. split; auto. eapply inv_seen; eauto. Qed.
