(** Lemmas about Column.v. *)
From Coq Require Import List Arith Bool ZArith Lia Sorted Permutation ZifyBool ZifyNat.
From Verif Require Import Base BaseFacts Column.
Import ListNotations.

(** ** Element and key order *)
Lemma val_cmp_eq a b : val_cmp a b = Eq <-> a = b.
Proof.
  split.
  - destruct a, b; simpl; try discriminate.
    + intro H; apply Z.compare_eq in H; congruence.
    + destruct b0, b; intro; congruence.
    + intro H; apply Nat.compare_eq in H; congruence.
  - intros ->. destruct b; simpl.
    + apply Z.compare_refl. + destruct b; reflexivity. + apply Nat.compare_refl.
Qed.
Lemma val_cmp_refl a : val_cmp a a = Eq.
Proof. apply val_cmp_eq; reflexivity. Qed.
Lemma val_cmp_anti a b : val_cmp b a = CompOpp (val_cmp a b).
Proof.
  destruct a, b; simpl; try reflexivity.
  - apply Z.compare_antisym. - destruct b0, b; reflexivity. - apply Nat.compare_antisym.
Qed.
Lemma val_lt_trans a b c : val_cmp a b = Lt -> val_cmp b c = Lt -> val_cmp a c = Lt.
Proof.
  destruct a, b, c; simpl; try discriminate; try reflexivity; auto.
  - rewrite !Z.compare_lt_iff; lia.
  - destruct b0, b, b1; congruence.
  - rewrite !Nat.compare_lt_iff; lia.
Qed.
Lemma val_eqb_eq a b : val_eqb a b = true <-> a = b.
Proof.
  unfold val_eqb. rewrite <- val_cmp_eq. destruct (val_cmp a b); split; congruence.
Qed.
Lemma val_eq_dec (a b : val) : {a = b} + {a <> b}.
Proof.
  destruct (val_eqb a b) eqn:E.
  - left; apply val_eqb_eq; auto.
  - right; intro; apply val_eqb_eq in H; congruence.
Qed.

Definition klt (a b : key) : Prop := key_cmp a b = Lt.
Lemma key_cmp_eq a b : key_cmp a b = Eq <-> a = b.
Proof.
  destruct a as [a i], b as [b j]; unfold key_cmp; simpl.
  destruct (val_cmp a b) eqn:E.
  - apply val_cmp_eq in E; subst. rewrite Nat.compare_eq_iff. split; congruence.
  - split; try discriminate. intro H; inv H. rewrite val_cmp_refl in E; discriminate.
  - split; try discriminate. intro H; inv H. rewrite val_cmp_refl in E; discriminate.
Qed.
Lemma key_cmp_refl a : key_cmp a a = Eq.
Proof. apply key_cmp_eq; reflexivity. Qed.
Lemma key_cmp_anti a b : key_cmp b a = CompOpp (key_cmp a b).
Proof.
  destruct a as [a i], b as [b j]; unfold key_cmp; simpl.
  rewrite (val_cmp_anti a b). destruct (val_cmp a b); simpl; auto. apply Nat.compare_antisym.
Qed.
Lemma klt_trans a b c : klt a b -> klt b c -> klt a c.
Proof.
  destruct a as [a i], b as [b j], c as [c k]; unfold klt, key_cmp; simpl.
  destruct (val_cmp a b) eqn:E1; try discriminate; destruct (val_cmp b c) eqn:E2; try discriminate.
  - apply val_cmp_eq in E1, E2; subst. rewrite val_cmp_refl, !Nat.compare_lt_iff. lia.
  - apply val_cmp_eq in E1; subst. rewrite E2. auto.
  - apply val_cmp_eq in E2; subst. rewrite E1. auto.
  - rewrite (val_lt_trans _ _ _ E1 E2). auto.
Qed.
Lemma klt_irrefl a : ~ klt a a.
Proof. unfold klt. rewrite key_cmp_refl. discriminate. Qed.
Lemma key_gt a b : key_cmp a b = Gt <-> klt b a.
Proof. unfold klt. rewrite (key_cmp_anti a b). destruct (key_cmp a b); simpl; split; congruence. Qed.

Definition bt_sorted (m : list key) : Prop := StronglySorted klt m.

Lemma bt_insert_In k m x : In x (bt_insert k m) <-> x = k \/ In x m.
Proof.
  induction m as [|y m IH]; simpl; [intuition|].
  destruct (key_cmp k y) eqn:E; simpl.
  - apply key_cmp_eq in E; subst. intuition.
  - intuition.
  - rewrite IH. intuition.
Qed.
Lemma bt_insert_sorted k m : bt_sorted m -> bt_sorted (bt_insert k m).
Proof.
  unfold bt_sorted. induction 1 as [|y m Hs IH Hf]; simpl.
  - repeat constructor.
  - destruct (key_cmp k y) eqn:E.
    + apply key_cmp_eq in E; subst. constructor; auto.
    + constructor; [constructor; auto|]. constructor; auto.
      eapply Forall_impl; [|exact Hf]. intros; eapply klt_trans; eauto.
    + constructor; auto. apply Forall_forall. intros x Hx. apply bt_insert_In in Hx.
      destruct Hx as [->|Hx]. * apply key_gt; auto. * rewrite Forall_forall in Hf; auto.
Qed.
Lemma bt_remove_In k m x : bt_sorted m -> (In x (bt_remove k m) <-> In x m /\ x <> k).
Proof.
  unfold bt_sorted. induction 1 as [|y m Hs IH Hf]; simpl; [tauto|].
  rewrite Forall_forall in Hf.
  destruct (key_cmp k y) eqn:E; simpl.
  - apply key_cmp_eq in E; subst. split.
    + intro Hx. split; auto. intros ->. exact (klt_irrefl _ (Hf _ Hx)).
    + intuition congruence.
  - split; [|tauto]. intro H. split; auto. intros ->. destruct H as [->|H].
    + exact (klt_irrefl _ E).
    + apply (klt_irrefl k). eapply klt_trans; eauto.
  - rewrite IH. split; intros; intuition; subst; auto.
    rewrite key_cmp_refl in E; discriminate.
Qed.
Lemma bt_remove_sorted k m : bt_sorted m -> bt_sorted (bt_remove k m).
Proof.
  unfold bt_sorted. intro H0. pose proof H0 as Hall. induction H0 as [|y m Hs IH Hf]; simpl.
  - constructor.
  - destruct (key_cmp k y) eqn:E; auto.
    constructor; auto. apply Forall_forall. intros x Hx.
    apply bt_remove_In in Hx; auto. rewrite Forall_forall in Hf. apply Hf; tauto.
Qed.

Lemma StronglySorted_filter {A} (R : A -> A -> Prop) f l :
  StronglySorted R l -> StronglySorted R (filter f l).
Proof.
  induction 1 as [|x l Hs IH Hf]; simpl; [constructor|].
  destruct (f x); auto. constructor; auto. apply Forall_forall. intros y Hy.
  apply filter_In in Hy. rewrite Forall_forall in Hf. apply Hf; tauto.
Qed.
(** Two strictly sorted lists with the same members are equal. *)
Lemma ss_ext {A} (R : A -> A -> Prop) :
  (forall x, ~ R x x) -> (forall x y z, R x y -> R y z -> R x z) ->
  forall l m, StronglySorted R l -> StronglySorted R m ->
  (forall x, In x l <-> In x m) -> l = m.
Proof.
  intros Hirr Htr l. induction l as [|x l IH]; intros [|y m] Hl Hm H.
  - reflexivity.
  - exfalso. apply (H y). simpl; auto.
  - exfalso. apply (H x). simpl; auto.
  - inv Hl. inv Hm. rewrite Forall_forall in *.
    assert (x = y).
    { destruct (proj1 (H x)) as [|Hx]; [simpl; auto|congruence|].
      destruct (proj2 (H y)) as [|Hy]; [simpl; auto|congruence|].
      exfalso. apply (Hirr x). eauto. }
    subst y. f_equal. apply IH; auto. intro z. split; intro Hz.
    + destruct (proj1 (H z)) as [E|]; simpl; auto. subst z. exfalso. apply (Hirr x); auto.
    + destruct (proj2 (H z)) as [E|]; simpl; auto. subst z. exfalso. apply (Hirr x); auto.
Qed.
Lemma ss_NoDup {A} (R : A -> A -> Prop) :
  (forall x, ~ R x x) -> forall l, StronglySorted R l -> NoDup l.
Proof.
  intros Hirr. induction 1 as [|x l Hs IH Hf]; constructor; auto.
  intro Hx. rewrite Forall_forall in Hf. exact (Hirr _ (Hf _ Hx)).
Qed.
Lemma bt_sorted_NoDup m : bt_sorted m -> NoDup m.
Proof. apply ss_NoDup. apply klt_irrefl. Qed.

(** ** BoolCol *)
Definition bc_inv (b : boolcol) : Prop :=
  forall i, bc_idx b = Some i -> i < length (bc_data b).
Definition bc_view (b : boolcol) : list bool :=
  match bc_idx b with Some i => upd (bc_data b) i (bc_val b) | None => bc_data b end.

Lemma bc_new_inv : bc_inv bc_new. Proof. intros i; discriminate. Qed.
Lemma bc_view_length b : length (bc_view b) = length (bc_data b).
Proof. unfold bc_view. destruct (bc_idx b); auto. apply upd_length. Qed.
Lemma bc_len_view b : bc_len b = length (bc_view b).
Proof. rewrite bc_view_length. reflexivity. Qed.
Lemma bc_flush_spec b : bc_inv b ->
  bc_data (bc_flush b) = bc_view b /\ bc_idx (bc_flush b) = None.
Proof.
  intro H. unfold bc_flush, bc_view. destruct (bc_idx b) as [i|] eqn:E; auto.
  specialize (H i E). destruct (Nat.leb_spec (length (bc_data b)) i); [lia|]. auto.
Qed.
Lemma bc_index_spec b i : bc_inv b ->
  bc_index b i = match nth_error (bc_view b) i with Some x => Ok x | None => panic PIndexOOB end.
Proof.
  intro H. unfold bc_index, bc_view. destruct (bc_idx b) as [j|] eqn:E; auto.
  specialize (H j E). destruct (Nat.eqb_spec i j) as [->|Hne].
  - rewrite nth_error_upd_eq; auto.
  - rewrite nth_error_upd_ne; auto.
Qed.
Lemma bc_write_spec b i v : bc_inv b ->
  match bc_write b i v with
  | Ok b' => i < length (bc_view b) /\ bc_view b' = upd (bc_view b) i v /\ bc_inv b'
  | Err e => length (bc_view b) <= i /\ e = EPanic PIndexOOB
  end.
Proof.
  intro H. destruct (bc_flush_spec b H) as [Hd Hn].
  unfold bc_write, bc_index_mut. rewrite Hd.
  destruct (nth_error (bc_view b) i) eqn:E; simpl.
  - pose proof (nth_error_Some_lt _ _ _ E). split; auto. split.
    + unfold bc_view at 1; simpl. auto.
    + intros k; simpl; intros [= <-]; auto.
  - split; auto. apply nth_error_None; auto.
Qed.
Lemma bc_push_spec b v : bc_inv b -> bc_view (bc_push b v) = bc_view b ++ [v] /\ bc_inv (bc_push b v).
Proof.
  intro H. unfold bc_view, bc_push, bc_inv; simpl. destruct (bc_idx b) as [i|] eqn:E.
  - specialize (H i E). split. + apply upd_app_l; auto. + intros k [= <-]. rewrite app_length; simpl; lia.
  - split; auto. discriminate.
Qed.
Lemma bc_truncate_spec b n : bc_inv b ->
  bc_view (bc_truncate b n) = firstn n (bc_view b) /\ bc_inv (bc_truncate b n).
Proof.
  intro H. destruct (bc_flush_spec b H) as [Hd Hn].
  unfold bc_truncate, bc_view at 1, bc_inv; simpl. rewrite Hd, Hn. split; auto. discriminate.
Qed.
Lemma bc_clear_spec b : bc_inv b -> bc_view (bc_clear b) = [] /\ bc_inv (bc_clear b).
Proof. intro H. unfold bc_clear. destruct (bc_truncate_spec b 0 H) as [-> ?]. auto. Qed.
Lemma bc_swap_out_spec b i v : bc_inv b ->
  match bc_swap_out b i v with
  | Ok (b', old) => nth_error (bc_view b) i = Some old /\ bc_view b' = upd (bc_view b) i v /\ bc_inv b'
  | Err e => length (bc_view b) <= i /\ e = EPanic PIndexOOB
  end.
Proof.
  intro H. destruct (bc_flush_spec b H) as [Hd Hn]. unfold bc_swap_out. rewrite Hd.
  destruct (nth_error (bc_view b) i) eqn:E.
  - split; auto. unfold bc_view at 1, bc_inv; simpl. rewrite Hn. split; auto. discriminate.
  - split; auto. apply nth_error_None; auto.
Qed.
Lemma bc_swap_spec b i j : bc_inv b ->
  match bc_swap b i j with
  | Ok b' => exists x y, nth_error (bc_view b) i = Some x /\ nth_error (bc_view b) j = Some y /\
       bc_view b' = upd (upd (bc_view b) i y) j x /\ bc_inv b'
  | Err e => (length (bc_view b) <= i \/ length (bc_view b) <= j) /\ e = EPanic PIndexOOB
  end.
Proof.
  intro H. destruct (bc_flush_spec b H) as [Hd Hn]. unfold bc_swap. rewrite Hd.
  destruct (nth_error (bc_view b) i) eqn:E; [destruct (nth_error (bc_view b) j) eqn:E'|].
  - exists b0, b1. repeat split; auto. + unfold bc_view at 1; simpl. rewrite Hn. auto.
    + unfold bc_inv; simpl. rewrite Hn. discriminate.
  - split; auto. right. apply nth_error_None; auto.
  - split; auto. left. apply nth_error_None; auto.
Qed.
Lemma bc_into_iter_spec b : bc_inv b -> bc_into_iter b = bc_view b.
Proof. intro H. apply bc_flush_spec; auto. Qed.

(** ** Storage columns *)
Definition b_data (b : base) : list val :=
  match b with BVec l => l | BBool b => map VBool (bc_view b) end.
Definition b_wf (t : btype) (b : base) : Prop :=
  match t, b with
  | TVec, BVec _ => True
  | TBool, BBool b => bc_inv b
  | _, _ => False
  end.

Lemma b_new_wf t : b_wf t (b_new t).
Proof. destruct t; simpl; auto. apply bc_new_inv. Qed.
Lemma b_new_data t : b_data (b_new t) = [].
Proof. destruct t; reflexivity. Qed.
Lemma b_len_data b : b_len b = length (b_data b).
Proof. destruct b; simpl; auto. rewrite map_length. apply bc_len_view. Qed.
Lemma b_data_ty t b : b_wf t b -> Forall (v_ty t) (b_data b).
Proof.
  destruct t, b; simpl; try tauto; intros _.
  - apply Forall_forall; simpl; auto.
  - apply Forall_forall. intros x Hx. apply in_map_iff in Hx. destruct Hx as (y & <- & _). exists y; auto.
Qed.
Lemma b_index_ok t b i v : b_wf t b -> nth_error (b_data b) i = Some v -> b_index b i = Ok v.
Proof.
  destruct t, b; simpl; try tauto.
  - intros _ ->. auto.
  - intros H E. rewrite bc_index_spec by auto. rewrite nth_error_map in E.
    destruct (nth_error (bc_view b) i); inv E. reflexivity.
Qed.
Lemma b_index_lt t b i : b_wf t b -> i < length (b_data b) ->
  exists v, nth_error (b_data b) i = Some v /\ b_index b i = Ok v.
Proof.
  intros H L. destruct (nth_error_lt_Some _ _ L) as [v E]. exists v. split; auto.
  eapply b_index_ok; eauto.
Qed.
Lemma b_write_ok t b i v : b_wf t b -> v_ty t v -> i < length (b_data b) ->
  exists b', b_write b i v = Ok b' /\ b_data b' = upd (b_data b) i v /\ b_wf t b'.
Proof.
  destruct t, b; simpl; try tauto.
  - intros _ _ L. destruct (Nat.ltb_spec i (length l)); [|lia]. eexists; repeat split; auto.
  - intros H [x ->] L. rewrite map_length in L. simpl.
    pose proof (bc_write_spec b i x H) as S. destruct (bc_write b i x) as [b'|e].
    + destruct S as (_ & E & I). exists (BBool b'). repeat split; auto. simpl. rewrite E. apply upd_map.
    + lia.
Qed.
Lemma b_push_ok t b v : b_wf t b -> v_ty t v ->
  exists b', b_push b v = Ok b' /\ b_data b' = b_data b ++ [v] /\ b_wf t b'.
Proof.
  destruct t, b; simpl; try tauto.
  - intros _ _. eexists; repeat split; auto.
  - intros H [x ->]. simpl. destruct (bc_push_spec b x H) as [E I].
    eexists; repeat split; simpl; auto. rewrite E, map_app. reflexivity.
Qed.
Lemma b_truncate_ok t b n : b_wf t b ->
  b_data (b_truncate b n) = firstn n (b_data b) /\ b_wf t (b_truncate b n).
Proof.
  destruct t, b; simpl; try tauto. intro H. destruct (bc_truncate_spec b n H) as [E I].
  rewrite E. split; auto. symmetry. apply firstn_map.
Qed.
Lemma b_clear_ok t b : b_wf t b -> b_data (b_clear b) = [] /\ b_wf t (b_clear b).
Proof.
  destruct t, b; simpl; try tauto. intro H. destruct (bc_clear_spec b H) as [E I].
  rewrite E. split; auto.
Qed.
Lemma b_swap_out_ok t b i v old : b_wf t b -> v_ty t v -> nth_error (b_data b) i = Some old ->
  exists b', b_swap_out b i v = Ok (b', old) /\ b_data b' = upd (b_data b) i v /\ b_wf t b'.
Proof.
  destruct t, b; simpl; try tauto.
  - intros _ _ ->. eexists; repeat split; auto.
  - intros H [x ->] E. simpl. rewrite nth_error_map in E.
    pose proof (bc_swap_out_spec b i x H) as S. destruct (bc_swap_out b i x) as [[b' o]|e].
    + destruct S as (E1 & E2 & I). rewrite E1 in E; inv E. exists (BBool b'). simpl.
      rewrite E2. repeat split; auto. apply upd_map.
    + destruct S as [L _]. apply nth_error_None in L. rewrite L in E. discriminate.
Qed.
Lemma b_swap_ok t b i j x y : b_wf t b ->
  nth_error (b_data b) i = Some x -> nth_error (b_data b) j = Some y ->
  exists b', b_swap b i j = Ok b' /\ b_data b' = upd (upd (b_data b) i y) j x /\ b_wf t b'.
Proof.
  destruct t, b; simpl; try tauto.
  - intros _ -> ->. eexists; repeat split; auto.
  - intros H Ei Ej. rewrite nth_error_map in Ei, Ej.
    pose proof (bc_swap_spec b i j H) as S. destruct (bc_swap b i j) as [b'|e].
    + destruct S as (p & q & E1 & E2 & E3 & I). rewrite E1 in Ei; rewrite E2 in Ej.
      inv Ei; inv Ej. exists (BBool b'). simpl. rewrite E3, !upd_map. repeat split; auto.
    + destruct S as [L _]. destruct L as [L|L]; apply nth_error_None in L; rewrite L in *; discriminate.
Qed.
Lemma b_into_iter_ok t b : b_wf t b -> b_into_iter b = b_data b.
Proof. destruct t, b; simpl; try tauto. intro H. rewrite bc_into_iter_spec; auto. Qed.

(** ** Table columns *)
Definition c_data (c : col) : list val := b_data (c_base c).
Definition is_idx (t : ctype) : bool := match t with Plain _ => false | Indexed _ => true end.

(** The index holds exactly the (value, row) pairs of the rows that are [live]. *)
Definition ix_exact (live : nat -> bool) (data : list val) (ix : list key) : Prop :=
  bt_sorted ix /\
  forall v i, In (v, i) ix <-> nth_error data i = Some v /\ live i = true.

Definition c_wf (imax : nat) (t : ctype) (live : nat -> bool) (c : col) : Prop :=
  match t, c with
  | Plain t, CPlain b => b_wf t b
  | Indexed t, CIdx b ix => b_wf t b /\ ix_exact live (b_data b) ix /\ length (b_data b) <= S imax
  | _, _ => False
  end.

Lemma c_wf_base imax t live c : c_wf imax t live c -> b_wf (ct_base t) (c_base c).
Proof. destruct t, c; simpl; tauto. Qed.
Lemma c_len_data c : c_len c = length (c_data c).
Proof. apply b_len_data. Qed.
Lemma c_new_wf imax t live : c_wf imax t live (c_new t).
Proof.
  destruct t as [t|t]; simpl; auto using b_new_wf. rewrite b_new_data. simpl.
  split; [apply b_new_wf|]. split; [|lia]. split; [constructor|].
  intros v i. split; [intros []|]. intros [E _]. destruct i; discriminate.
Qed.
Lemma c_new_data t : c_data (c_new t) = [].
Proof. destruct t; apply b_new_data. Qed.
Lemma ix_exact_ext live live' data ix :
  (forall i, i < length data -> live' i = live i) -> ix_exact live data ix -> ix_exact live' data ix.
Proof.
  intros H [S E]. split; auto. intros v i. rewrite E. split; intros [N L]; split; auto.
  - rewrite H; auto. eapply nth_error_Some_lt; eauto.
  - rewrite <- H; auto. eapply nth_error_Some_lt; eauto.
Qed.
Lemma c_wf_ext imax t live live' c :
  (forall i, i < length (c_data c) -> live' i = live i) -> c_wf imax t live c -> c_wf imax t live' c.
Proof.
  destruct t, c; simpl; auto. intros H (B & E & L). repeat split; auto; eapply ix_exact_ext; eauto.
Qed.
Lemma c_data_ty imax t live c : c_wf imax t live c -> Forall (v_ty (ct_base t)) (c_data c).
Proof. intro H. apply b_data_ty. eapply c_wf_base; eauto. Qed.
Lemma c_index_ok imax t live c i v : c_wf imax t live c -> nth_error (c_data c) i = Some v ->
  c_index c i = Ok v.
Proof. intros H E. eapply b_index_ok; eauto. eapply c_wf_base; eauto. Qed.
Lemma c_get_ok imax t live c i v : c_wf imax t live c -> nth_error (c_data c) i = Some v ->
  c_get c i = Ok v.
Proof.
  intros H E. unfold c_get. rewrite c_len_data. pose proof (nth_error_Some_lt _ _ _ E).
  destruct (Nat.leb_spec (length (c_data c)) i); [lia|]. eapply c_index_ok; eauto.
Qed.
Lemma c_into_iter_ok imax t live c : c_wf imax t live c -> c_into_iter c = c_data c.
Proof. intro H. eapply b_into_iter_ok. eapply c_wf_base; eauto. Qed.

Lemma native_ok imax i : i <= imax -> native imax i = Ok i.
Proof. intro H. unfold native. destruct (Nat.leb_spec i imax); [auto|lia]. Qed.
Lemma native_err imax i : imax < i -> native imax i = panic PRowIdRange.
Proof. intro H. unfold native. destruct (Nat.leb_spec i imax); [lia|auto]. Qed.

Lemma c_write_ok imax t live c i v :
  c_wf imax (Plain t) live c -> v_ty t v -> i < length (c_data c) ->
  exists c', c_write c i v = Ok c' /\ c_data c' = upd (c_data c) i v /\ c_wf imax (Plain t) live c'.
Proof.
  destruct c; simpl; try tauto. intros H V L.
  destruct (b_write_ok t b i v H V L) as (b' & E & D & W). rewrite E. simpl. eexists; eauto.
Qed.

Lemma c_push_ok imax t live live' c v :
  c_wf imax t live c -> v_ty (ct_base t) v ->
  (is_idx t = true -> length (c_data c) <= imax) ->
  (forall i, i < length (c_data c) -> live' i = live i) -> live' (length (c_data c)) = true ->
  exists c', c_push imax c v = Ok c' /\ c_data c' = c_data c ++ [v] /\ c_wf imax t live' c'.
Proof.
  destruct t as [t|t], c; simpl; try tauto.
  - intros H V _ _ _. destruct (b_push_ok t b v H V) as (b' & E & D & W). rewrite E; simpl.
    eexists; repeat split; eauto.
  - unfold c_data; simpl. intros (B & X & L0) V L HL HN. specialize (L eq_refl).
    destruct (b_push_ok t b v B V) as (b' & E & D & W). rewrite E; simpl.
    rewrite b_len_data, native_ok by auto. simpl. eexists. split; [reflexivity|]. split; [exact D|].
    split; auto. rewrite D, app_length; simpl. split; [|lia].
    destruct X as [Xs Xe]. split; [apply bt_insert_sorted; auto|].
    intros w i. rewrite bt_insert_In, Xe. split.
    + intros [Hi|[N Li]].
      * inv Hi. rewrite nth_error_app2, Nat.sub_diag by auto. auto.
      * pose proof (nth_error_Some_lt _ _ _ N). rewrite nth_error_app1, HL by auto. auto.
    + intros [N Li]. destruct (Nat.lt_ge_cases i (length (b_data b))) as [Hi|Hi].
      * right. rewrite nth_error_app1 in N by auto. rewrite <- HL by auto. auto.
      * left. rewrite nth_error_app2 in N by auto. destruct (i - length (b_data b)) eqn:Ed.
        -- simpl in N. assert (i = length (b_data b)) by lia. congruence.
        -- simpl in N. destruct n; discriminate.
Qed.

Lemma c_push_err imax t live c v :
  c_wf imax (Indexed t) live c -> v_ty t v -> imax < length (c_data c) ->
  c_push imax c v = panic PRowIdRange.
Proof.
  destruct c; simpl; try tauto. unfold c_data; simpl. intros (B & X & L0) V L.
  destruct (b_push_ok t b v B V) as (b' & E & D & W). rewrite E; simpl.
  rewrite b_len_data, native_err; auto.
Qed.

Lemma c_swap_out_ok imax t live live' c i v old :
  c_wf imax t live c -> v_ty (ct_base t) v -> nth_error (c_data c) i = Some old ->
  (forall j, j <> i -> live' j = live j) -> live' i = true ->
  exists c', c_swap_out imax c i v = Ok (c', old) /\ c_data c' = upd (c_data c) i v /\ c_wf imax t live' c'.
Proof.
  destruct t as [t|t], c; simpl; try tauto.
  - intros H V N _ _. destruct (b_swap_out_ok t b i v old H V N) as (b' & E & D & W).
    unfold c_data in *; simpl in *. rewrite E; simpl. eexists; repeat split; eauto.
  - unfold c_data; simpl. intros (B & X & L0) V N HL HN.
    pose proof (nth_error_Some_lt _ _ _ N) as Li.
    rewrite (b_index_ok t b i old B N). simpl. rewrite native_ok by lia. simpl.
    destruct (b_swap_out_ok t b i v old B V N) as (b' & E & D & W). rewrite E; simpl.
    eexists. split; [reflexivity|]. split; [exact D|]. split; auto.
    rewrite D, upd_length. split; auto. destruct X as [Xs Xe].
    split; [apply bt_insert_sorted, bt_remove_sorted; auto|].
    intros w j. rewrite bt_insert_In, bt_remove_In, Xe by auto.
    destruct (Nat.eq_dec j i) as [->|Hji].
    + rewrite nth_error_upd_eq by auto. split.
      * intros [Hi|[[N' _] Hne]]. -- inv Hi; auto. -- exfalso; apply Hne; congruence.
      * intros [Hi _]. inv Hi; auto.
    + rewrite nth_error_upd_ne, HL by auto. split.
      * intros [Hi|[? _]]; [congruence|auto].
      * intros ?. right. split; auto. congruence.
Qed.

Lemma c_swap_ok imax t live live' c i j x y :
  c_wf imax t live c -> nth_error (c_data c) i = Some x -> nth_error (c_data c) j = Some y ->
  (forall k, k <> i -> k <> j -> live' k = live k) -> live' i = true -> live' j = true ->
  exists c', c_swap imax c i j = Ok c' /\ c_data c' = upd (upd (c_data c) i y) j x /\ c_wf imax t live' c'.
Proof.
  destruct t as [t|t], c; simpl; try tauto.
  - intros H Ni Nj _ _ _. destruct (b_swap_ok t b i j x y H Ni Nj) as (b' & E & D & W).
    unfold c_data in *; simpl in *. rewrite E; simpl. eexists; repeat split; eauto.
  - unfold c_data; simpl. intros (B & X & L0) Ni Nj HL HNi HNj.
    pose proof (nth_error_Some_lt _ _ _ Ni) as Li. pose proof (nth_error_Some_lt _ _ _ Nj) as Lj.
    rewrite (b_index_ok t b i x B Ni). simpl. rewrite (b_index_ok t b j y B Nj). simpl.
    rewrite native_ok by lia. simpl. rewrite native_ok by lia. simpl.
    destruct (b_swap_ok t b i j x y B Ni Nj) as (b' & E & D & W). rewrite E; simpl.
    eexists. split; [reflexivity|]. split; [exact D|]. split; auto.
    rewrite D, !upd_length. split; auto. destruct X as [Xs Xe].
    split; [apply bt_insert_sorted, bt_insert_sorted, bt_remove_sorted, bt_remove_sorted; auto|].
    intros w k. rewrite !bt_insert_In, !bt_remove_In, Xe by auto using bt_remove_sorted.
    destruct (Nat.eq_dec k j) as [->|Hkj].
    + rewrite nth_error_upd_eq by (rewrite upd_length; auto). split.
      * intros [Hi|[Hi|[[[N' _] _] Hne]]].
        -- inv Hi. rewrite Ni in Nj. inv Nj. auto.
        -- inv Hi. auto.
        -- exfalso. apply Hne. congruence.
      * intros [Hi _]. inv Hi. auto.
    + rewrite nth_error_upd_ne by auto. destruct (Nat.eq_dec k i) as [->|Hki].
      * rewrite nth_error_upd_eq by auto. split.
        -- intros [Hi|[Hi|[[[N' _] Hne] _]]].
           ++ inv Hi. auto. ++ inv Hi. congruence. ++ exfalso. apply Hne. congruence.
        -- intros [Hi _]. inv Hi. auto.
      * rewrite nth_error_upd_ne, HL by auto. split.
        -- intros [Hi|[Hi|[[? _] _]]]; [congruence|congruence|auto].
        -- intros ?. right. right. repeat split; try tauto; congruence.
Qed.

Lemma c_deleted_ok imax t live live' c i :
  c_wf imax t live c -> i < length (c_data c) ->
  (forall j, j <> i -> live' j = live j) -> live' i = false ->
  exists c', c_deleted imax c i = Ok c' /\ c_data c' = c_data c /\ c_wf imax t live' c'.
Proof.
  destruct t as [t|t], c; simpl; try tauto.
  - intros H L _ _. eexists; repeat split; eauto.
  - unfold c_data; simpl. intros (B & X & L0) L HL HN.
    destruct (b_index_lt t b i B L) as (old & N & E). rewrite E; simpl.
    rewrite native_ok by lia. simpl. eexists. split; [reflexivity|]. split; auto. split; auto.
    split; auto. destruct X as [Xs Xe]. split; [apply bt_remove_sorted; auto|].
    intros w j. rewrite bt_remove_In, Xe by auto. destruct (Nat.eq_dec j i) as [->|Hji].
    + split. * intros [[N' _] Hne]. exfalso. apply Hne. congruence. * intros [_ ?]; congruence.
    + rewrite HL by auto. split; [tauto|]. intros ?; split; auto. congruence.
Qed.

Lemma c_deleted_range_ok imax t n : forall m live c,
  c_wf imax t live c -> n + m <= length (c_data c) ->
  exists c', fold_res (c_deleted imax) (seq n m) c = Ok c' /\ c_data c' = c_data c /\
    c_wf imax t (fun i => live i && negb ((n <=? i) && (i <? n + m))) c'.
Proof.
  induction m as [|m IH]; intros live c W L.
  - exists c. split; auto. split; auto. eapply c_wf_ext; [|exact W]. intros i _. simpl. lia.
  - rewrite seq_S.
    destruct (IH live c W) as (c1 & E1 & D1 & W1); [lia|].
    destruct (c_deleted_ok imax t _ (fun i => live i && negb ((n <=? i) && (i <? n + S m))) c1 (n + m) W1)
      as (c2 & E2 & D2 & W2).
    + rewrite D1. lia.
    + intros j Hj. cbv beta. lia.
    + cbv beta. lia.
    + exists c2. rewrite fold_res_app, E1. simpl. rewrite E2. simpl. split; auto. split; [congruence|auto].
Qed.

Lemma c_truncate_ok imax t live c n :
  c_wf imax t live c ->
  exists c', c_truncate imax c n = Ok c' /\ c_data c' = firstn n (c_data c) /\ c_wf imax t live c'.
Proof.
  intro W. destruct t as [t|t], c; simpl in *; try tauto.
  - destruct (b_truncate_ok t b n W) as [D I]. eexists; repeat split; eauto.
  - rewrite b_len_data.
    destruct (Nat.le_gt_cases (length (b_data b)) n) as [Hn|Hn].
    + replace (length (b_data b) - n) with 0 by lia. simpl.
      destruct W as (B & X & L). destruct (b_truncate_ok t b n B) as [D I].
      eexists. split; [reflexivity|]. unfold c_data; simpl. rewrite D. split; auto. split; auto.
      rewrite firstn_all2 by auto. auto.
    + destruct (c_deleted_range_ok imax (Indexed t) n (length (b_data b) - n) live (CIdx b ix))
        as (c1 & E1 & D1 & W1); [exact W|unfold c_data; simpl; lia|].
      rewrite E1. simpl. destruct c1 as [b1|b1 ix1]; simpl in W1; [tauto|].
      unfold c_data in *; simpl in *. destruct W1 as (B & X & L). rewrite D1 in *.
      destruct (b_truncate_ok t b1 n B) as [D I]. eexists. split; [reflexivity|].
      cbn [c_base]. rewrite D, D1. split; auto. split; auto. split; [|rewrite firstn_length; lia].
      destruct X as [Xs Xe]. split; auto. intros v i. rewrite Xe. rewrite nth_error_firstn.
      destruct (Nat.ltb_spec i n).
      * destruct (Nat.leb_spec n i); [lia|]. simpl. rewrite andb_true_r. tauto.
      * split; [|intros [? _]; discriminate]. intros [N Lv]. exfalso.
        pose proof (nth_error_Some_lt _ _ _ N). lia.
Qed.

Lemma c_clear_ok imax t live live' c : c_wf imax t live c ->
  c_data (c_clear c) = [] /\ c_wf imax t live' (c_clear c).
Proof.
  intro W. destruct t as [t|t], c; simpl in *; try tauto.
  - destruct (b_clear_ok t b W) as [D I]. auto.
  - destruct W as (B & X & L). destruct (b_clear_ok t b B) as [D I].
    unfold c_data; simpl. rewrite D. split; auto. split; auto. split; [|simpl; lia].
    split; [constructor|]. intros v i. split; [intros []|]. intros [E _]. destruct i; discriminate.
Qed.

(** ** Searching *)
Definition val_at (data : list val) (i : nat) (k : val) : bool :=
  match nth_error data i with Some v => val_eqb v k | None => false end.

Lemma val_at_iff data i k : val_at data i k = true <-> nth_error data i = Some k.
Proof.
  unfold val_at. destruct (nth_error data i).
  - rewrite val_eqb_eq. split; congruence.
  - split; discriminate.
Qed.

Lemma seq_ss n m : StronglySorted lt (seq n m).
Proof.
  revert n. induction m; intro n; simpl; constructor; auto.
  apply Forall_forall. intros x Hx. apply in_seq in Hx. lia.
Qed.

Lemma c_find_ok imax t live c k :
  c_wf imax (Indexed t) live c ->
  c_find imax c k =
    Ok (filter (fun i => (i <? imax) && live i && val_at (c_data c) i k) (seq 0 (length (c_data c)))).
Proof.
  destruct c; simpl; try tauto. unfold c_data; simpl. intros (B & [Xs Xe] & L).
  unfold bt_range. replace (key_cmp (k, 0) (k, imax)) with (Nat.compare 0 imax)
    by (unfold key_cmp; simpl; rewrite val_cmp_refl; auto).
  assert (Hc : Nat.compare 0 imax <> Gt) by (rewrite Nat.compare_gt_iff; lia).
  set (f := fun k0 : key => _).
  assert (Hf : forall v i, f (v, i) = true <-> v = k /\ i < imax).
  { intros v i. unfold f, key_cmp; simpl. rewrite (val_cmp_anti k v).
    destruct (val_cmp k v) eqn:E; simpl.
    - apply val_cmp_eq in E; subst v. destruct (Nat.compare_spec i imax), i; simpl; split; intros;
        try lia; try (intuition lia); try discriminate; auto.
    - split; [discriminate|]. intros [-> _]. rewrite val_cmp_refl in E; discriminate.
    - split; [discriminate|]. intros [-> _]. rewrite val_cmp_refl in E; discriminate. }
  assert (Hr : match Nat.compare 0 imax with Gt => panic PRangeOrder | _ => Ok (filter f ix) end
               = Ok (filter f ix)) by (destruct (Nat.compare 0 imax); congruence).
  rewrite Hr. simpl. f_equal.
  apply (ss_ext lt); [intro; lia|intros; lia| | |].
  - assert (Hs : StronglySorted klt (filter f ix)) by (apply StronglySorted_filter; auto).
    assert (Hk : Forall (fun p => fst p = k) (filter f ix)).
    { apply Forall_forall. intros [v i] Hp. apply filter_In in Hp. simpl. apply (Hf v i). tauto. }
    revert Hs Hk. generalize (filter f ix) as m. induction 1 as [|p m Hs IH Hp]; simpl; intro Hk; constructor.
    + apply IH. inv Hk; auto.
    + inv Hk. rewrite Forall_forall in *. intros i Hi. apply in_map_iff in Hi.
      destruct Hi as ([v j] & <- & Hj). pose proof (Hp _ Hj) as Hlt. pose proof (H2 _ Hj) as Hv.
      destruct p as [pv pj]. simpl in *; subst. unfold klt, key_cmp in Hlt; simpl in Hlt.
      rewrite val_cmp_refl in Hlt. apply Nat.compare_lt_iff; auto.
  - apply StronglySorted_filter, seq_ss.
  - intro i. rewrite in_map_iff, filter_In, in_seq, !andb_true_iff, val_at_iff, Nat.ltb_lt. split.
    + intros ([v j] & Ej & Hp). simpl in Ej; subst j. apply filter_In in Hp. destruct Hp as [Hp Hfp].
      apply Hf in Hfp. destruct Hfp as [-> Hi]. apply Xe in Hp. destruct Hp as [N Lv].
      pose proof (nth_error_Some_lt _ _ _ N). repeat split; auto; lia.
    + intros (_ & (Hi & Lv) & N). exists (k, i). split; auto. apply filter_In. split.
      * apply Xe; auto. * apply Hf; auto.
Qed.

(** Rows with value in [lo, hi], as returned by [range]. *)
Definition vle (a b : val) : Prop := val_cmp a b <> Gt.
Lemma c_range_panics imax t live c lo hi :
  c_wf imax (Indexed t) live c -> val_cmp lo hi = Gt -> c_range imax c lo hi = panic PRangeOrder.
Proof.
  destruct c; simpl; try tauto. intros _ H. unfold bt_range, key_cmp. simpl. rewrite H. reflexivity.
Qed.
Lemma c_range_ok imax t live c lo hi :
  c_wf imax (Indexed t) live c -> val_cmp lo hi <> Gt ->
  exists ps, c_range imax c lo hi = Ok (map snd ps) /\
    StronglySorted klt ps /\
    (forall v i, In (v, i) ps <->
       nth_error (c_data c) i = Some v /\ live i = true /\ vle lo v /\ vle v hi /\
       ~ (v = hi /\ imax <= i)).
Proof.
  destruct c; simpl; try tauto. unfold c_data; simpl. intros (B & [Xs Xe] & L) H.
  unfold bt_range.
  assert (Hc : key_cmp (lo, 0) (hi, imax) <> Gt).
  { unfold key_cmp; cbn [fst snd]. destruct (val_cmp lo hi); try congruence. rewrite Nat.compare_gt_iff. lia. }
  set (f := fun k0 : key => _).
  exists (filter f ix).
  assert (Hr : match key_cmp (lo, 0) (hi, imax) with Gt => panic PRangeOrder | _ => Ok (filter f ix) end
               = Ok (filter f ix)) by (destruct (key_cmp (lo, 0) (hi, imax)); congruence).
  rewrite Hr. simpl. split; auto. split; [apply StronglySorted_filter; auto|].
  assert (Hf : forall v i, f (v, i) = true <-> vle lo v /\ vle v hi /\ ~ (v = hi /\ imax <= i)).
  { intros v i. unfold f. rewrite andb_true_iff.
    assert (H1 : match key_cmp (lo, 0) (v, i) with Gt => false | _ => true end = true <-> vle lo v).
    { unfold key_cmp, vle; cbn [fst snd]. destruct (val_cmp lo v); try (split; congruence).
      destruct (Nat.compare_spec 0 i); try (split; congruence). lia. }
    assert (H2 : match key_cmp (v, i) (hi, imax) with Lt => true | _ => false end = true <->
                 vle v hi /\ ~ (v = hi /\ imax <= i)).
    { unfold key_cmp, vle; cbn [fst snd]. destruct (val_cmp v hi) eqn:E2.
      - apply val_cmp_eq in E2. destruct (Nat.compare_spec i imax); split; intros Hx;
          try discriminate; try reflexivity.
        + destruct Hx as [_ Hx]. exfalso; apply Hx; split; auto; lia.
        + split; [discriminate|]. lia.
        + destruct Hx as [_ Hx]. exfalso; apply Hx; split; auto; lia.
      - split; auto. intros _. split; [discriminate|]. intros [-> _]. rewrite val_cmp_refl in E2; discriminate.
      - split; [discriminate|]. intros [Hx _]. congruence. }
    rewrite H1, H2. tauto. }
  intros v i. rewrite filter_In, Xe, Hf. tauto.
Qed.
Lemma ps_rows_NoDup (data : list val) ps :
  StronglySorted klt ps -> (forall v i, In (v, i) ps -> nth_error data i = Some v) -> NoDup (map snd ps).
Proof.
  induction 1 as [|[v i] ps Hs IH Hf]; simpl; intro H; constructor.
  - intro Hi. apply in_map_iff in Hi. destruct Hi as ([w j] & E & Hw). simpl in E; subst j.
    assert (nth_error data i = Some v) by (apply H; auto).
    assert (nth_error data i = Some w) by (apply H; auto).
    rewrite Forall_forall in Hf. apply Hf in Hw. assert (w = v) by congruence. subst w.
    exact (klt_irrefl _ Hw).
  - apply IH. intros; apply H; auto.
Qed.

(** ** Serialisation *)
Lemma map_res_nth {A} (f : nat -> res A) (l : list A) :
  (forall i v, nth_error l i = Some v -> f i = Ok v) -> map_res f (seq 0 (length l)) = Ok l.
Proof.
  intro H. cut (forall k m, m = skipn k l -> k <= length l -> map_res f (seq k (length m)) = Ok m).
  { intro C. apply (C 0 l); auto. lia. }
  intros k m. revert k. induction m as [|x m IH]; intros k E Hk; simpl; auto.
  assert (N : nth_error l k = Some x).
  { rewrite <- (Nat.add_0_r k), <- nth_error_skipn, <- E. reflexivity. }
  rewrite (H _ _ N). simpl. rewrite (IH (S k)); simpl; auto.
  - apply (f_equal (@tl A)) in E. simpl in E. rewrite E. clear.
    revert l. induction k; intros [|y l]; simpl; auto.
  - pose proof (nth_error_Some_lt _ _ _ N). lia.
Qed.
Lemma c_serialize_ok imax t live c : c_wf imax t live c -> c_serialize c = Ok (c_data c).
Proof.
  intro W. unfold c_serialize. rewrite c_len_data. apply map_res_nth.
  intros i v N. eapply c_index_ok; eauto.
Qed.
Lemma c_push_list_ok imax t : forall vs live c,
  c_wf imax t live c -> Forall (v_ty (ct_base t)) vs ->
  (is_idx t = true -> length (c_data c) + length vs <= S imax) ->
  (forall i, length (c_data c) <= i -> live i = true) ->
  exists c', fold_res (c_push imax) vs c = Ok c' /\ c_data c' = c_data c ++ vs /\ c_wf imax t live c'.
Proof.
  induction vs as [|v vs IH]; intros live c W V L HL; simpl.
  - exists c. rewrite app_nil_r. auto.
  - inv V. destruct (c_push_ok imax t live live c v W) as (c1 & E1 & D1 & W1); auto.
    + intro I. specialize (L I). simpl in L. lia.
    + rewrite E1. simpl. destruct (IH live c1 W1) as (c2 & E2 & D2 & W2); auto.
      * rewrite D1, app_length. intro I. specialize (L I). simpl in *. lia.
      * rewrite D1, app_length. intros i Hi. apply HL. simpl in Hi. lia.
      * exists c2. rewrite E2, D2, D1, <- app_assoc. auto.
Qed.
Lemma c_deserialize_ok imax t vs :
  Forall (v_ty (ct_base t)) vs -> (is_idx t = true -> length vs <= S imax) ->
  exists c', c_deserialize imax t vs = Ok c' /\ c_data c' = vs /\ c_wf imax t (fun _ => true) c'.
Proof.
  intros V L. unfold c_deserialize.
  destruct (c_push_list_ok imax t vs (fun _ => true) (c_new t)) as (c & E & D & W);
    auto using c_new_wf; rewrite ?c_new_data; auto.
  exists c. rewrite E, D, c_new_data. auto.
Qed.
