From Coq Require Import List Arith Bool Lia Sorting.Sorted Sorting.Permutation.
From Verif Require Import Base.
Import ListNotations.

Lemma bind_Ok {A B} (x : res A) (f : A -> res B) b :
  bind x f = Ok b -> exists a, x = Ok a /\ f a = Ok b.
Proof. destruct x as [a|e]; cbn; [eauto|discriminate]. Qed.

Ltac inv H := inversion H; subst; clear H.

(** Break a successful monadic computation into its steps. *)
Ltac bindok H :=
  let a := fresh "v" in let H1 := fresh "Hb" in
  apply bind_Ok in H; destruct H as [a [H1 H]].
Ltac bindn H a H1 := apply bind_Ok in H; destruct H as [a [H1 H]].

(** ** upd, list_swap *)
Lemma upd_length {A} (l : list A) i x : length (upd l i x) = length l.
Proof. revert i; induction l as [|h t IH]; intros [|i]; cbn; auto. Qed.

Lemma nth_error_upd {A} (l : list A) i x j :
  nth_error (upd l i x) j =
  if (j =? i) && (i <? length l) then Some x else nth_error l j.
Proof.
  revert i j; induction l as [|h t IH]; intros i j.
  - cbn. rewrite andb_false_r. destruct i; reflexivity.
  - destruct i as [|i], j as [|j]; try reflexivity. cbn [upd nth_error length].
    rewrite IH. reflexivity.
Qed.

Lemma nth_error_upd_eq {A} (l : list A) i x :
  i < length l -> nth_error (upd l i x) i = Some x.
Proof.
  intros H. rewrite nth_error_upd, Nat.eqb_refl.
  destruct (Nat.ltb_spec i (length l)); [reflexivity|lia].
Qed.

Lemma nth_error_upd_ne {A} (l : list A) i x j :
  j <> i -> nth_error (upd l i x) j = nth_error l j.
Proof.
  intros H. rewrite nth_error_upd. destruct (Nat.eqb_spec j i); [contradiction|reflexivity].
Qed.

Lemma upd_oob {A} (l : list A) i x : length l <= i -> upd l i x = l.
Proof.
  revert i; induction l as [|h t IH]; intros [|i] H; cbn in *; auto; try lia.
  f_equal. apply IH. lia.
Qed.

Lemma upd_same {A} (l : list A) i x : nth_error l i = Some x -> upd l i x = l.
Proof.
  revert i; induction l as [|h t IH]; intros [|i] H; cbn in *; try congruence.
  f_equal; auto.
Qed.

Lemma upd_map {A B} (f : A -> B) l i x : map f (upd l i x) = upd (map f l) i (f x).
Proof. revert i; induction l as [|h t IH]; intros [|i]; cbn; congruence. Qed.

Lemma upd_app_l {A} (l r : list A) i x : i < length l -> upd (l ++ r) i x = upd l i x ++ r.
Proof.
  revert i; induction l as [|h t IH]; intros [|i] H; cbn in *; try lia; auto.
  f_equal. apply IH. lia.
Qed.

Lemma upd_app_r {A} (l r : list A) x i : upd (l ++ r) (length l + i) x = l ++ upd r i x.
Proof. induction l as [|h t IH]; cbn; congruence. Qed.

Lemma upd_middle {A} (l r : list A) y x : upd (l ++ y :: r) (length l) x = l ++ x :: r.
Proof. rewrite <- (Nat.add_0_r (length l)). rewrite upd_app_r. reflexivity. Qed.

Lemma list_ext {A} (l1 l2 : list A) :
  (forall i, nth_error l1 i = nth_error l2 i) -> l1 = l2.
Proof.
  revert l2; induction l1 as [|a l1 IH]; intros [|b l2] H; auto.
  - specialize (H 0); discriminate.
  - specialize (H 0); discriminate.
  - pose proof (H 0) as H0; cbn in H0; inv H0. f_equal. apply IH.
    intros i. apply (H (S i)).
Qed.

Lemma list_swap_length {A} (l : list A) a b : length (list_swap l a b) = length l.
Proof.
  unfold list_swap. destruct (nth_error l a), (nth_error l b); rewrite ?upd_length; auto.
Qed.

Lemma nth_error_list_swap {A} (l : list A) a b j :
  a < length l -> b < length l ->
  nth_error (list_swap l a b) j =
  if j =? b then nth_error l a else if j =? a then nth_error l b else nth_error l j.
Proof.
  intros Ha Hb. unfold list_swap.
  destruct (nth_error l a) as [x|] eqn:Ea; [|apply nth_error_None in Ea; lia].
  destruct (nth_error l b) as [y|] eqn:Eb; [|apply nth_error_None in Eb; lia].
  rewrite nth_error_upd, nth_error_upd, !upd_length.
  destruct (Nat.ltb_spec b (length l)); [|lia].
  destruct (Nat.ltb_spec a (length l)); [|lia].
  rewrite !andb_true_r. reflexivity.
Qed.

Lemma nth_error_Some_lt {A} (l : list A) i x : nth_error l i = Some x -> i < length l.
Proof. intros H. apply nth_error_Some. congruence. Qed.

Lemma nth_error_lt_Some {A} (l : list A) i : i < length l -> exists x, nth_error l i = Some x.
Proof.
  intros H. destruct (nth_error l i) eqn:E; eauto. apply nth_error_None in E. lia.
Qed.

Lemma list_swap_map {A B} (f : A -> B) l a b :
  map f (list_swap l a b) = list_swap (map f l) a b.
Proof.
  unfold list_swap. rewrite !nth_error_map.
  destruct (nth_error l a), (nth_error l b); cbn; auto. rewrite !upd_map. reflexivity.
Qed.

Lemma list_swap_perm {A} (l : list A) a b : Permutation l (list_swap l a b).
Proof.
  unfold list_swap.
  destruct (nth_error l a) as [x|] eqn:Ea; auto.
  destruct (nth_error l b) as [y|] eqn:Eb; auto.
  destruct (Nat.eq_dec a b) as [->|Hne].
  - rewrite Ea in Eb. inv Eb. rewrite (upd_same l b y Ea). rewrite upd_same; auto.
  - assert (G : forall (l : list A) a b x y, a < b -> nth_error l a = Some x ->
                nth_error l b = Some y -> Permutation l (upd (upd l a y) b x)).
    { clear. intros l a b x y Hlt Ha Hb.
      apply nth_error_split in Ha. destruct Ha as (l1 & l2 & -> & <-).
      rewrite nth_error_app2 in Hb by lia.
      replace (b - length l1) with (S (b - length l1 - 1)) in Hb by lia. cbn in Hb.
      apply nth_error_split in Hb. destruct Hb as (m1 & m2 & -> & Hm).
      rewrite upd_middle.
      replace b with (length l1 + S (length m1)) by lia.
      rewrite upd_app_r. cbn. rewrite upd_middle.
      apply Permutation_app_head.
      change (x :: m1 ++ y :: m2) with ((x :: m1) ++ y :: m2).
      change (y :: m1 ++ x :: m2) with ((y :: m1) ++ x :: m2).
      rewrite <- !Permutation_middle. cbn. apply perm_swap. }
    assert (Hcomm : upd (upd l a y) b x = upd (upd l b x) a y).
    { apply list_ext. intros i. rewrite !nth_error_upd, !upd_length.
      destruct (Nat.eqb_spec i b), (Nat.eqb_spec i a); cbn; auto. lia. }
    destruct (Nat.lt_ge_cases a b) as [H|H].
    + apply G; auto.
    + rewrite Hcomm. apply G; auto. lia.
Qed.

(** ** mem and the sorted-list set *)
Lemma mem_In x l : mem x l = true <-> In x l.
Proof.
  unfold mem. rewrite existsb_exists. split.
  - intros (y & Hy & He). apply Nat.eqb_eq in He. subst; auto.
  - intros H. exists x. split; auto. apply Nat.eqb_refl.
Qed.

Lemma mem_nIn x l : mem x l = false <-> ~ In x l.
Proof.
  rewrite <- mem_In. destruct (mem x l); split; intros; try congruence; try tauto.
Qed.

Lemma set_insert_In x y l : In y (set_insert x l) <-> y = x \/ In y l.
Proof.
  assert (Hsym : forall a b : nat, a = b <-> b = a) by (intros; split; auto).
  induction l as [|z l IH]; cbn.
  - rewrite (Hsym x y). tauto.
  - destruct (Nat.ltb_spec x z); cbn; [rewrite (Hsym x y); tauto|].
    destruct (Nat.eqb_spec x z); cbn.
    + subst z. rewrite (Hsym x y). tauto.
    + rewrite IH. tauto.
Qed.

Lemma set_remove_In x y l : In y (set_remove x l) <-> y <> x /\ In y l.
Proof.
  unfold set_remove. rewrite filter_In. destruct (Nat.eqb_spec x y); cbn; intuition congruence.
Qed.

Lemma set_insert_Forall (P : nat -> Prop) x l :
  P x -> Forall P l -> Forall P (set_insert x l).
Proof.
  intros Hx. induction 1 as [|y l Hy Hl IH]; cbn; auto.
  destruct (x <? y); auto. destruct (x =? y); auto.
Qed.

Lemma set_insert_sorted x l :
  StronglySorted lt l -> StronglySorted lt (set_insert x l).
Proof.
  induction 1 as [|y l Hl IH Hy]; cbn.
  - repeat constructor.
  - destruct (Nat.ltb_spec x y).
    + constructor.
      * constructor; auto.
      * constructor; auto. eapply Forall_impl; [|exact Hy]. intros; lia.
    + destruct (Nat.eqb_spec x y).
      * subst. constructor; auto.
      * constructor; auto. apply set_insert_Forall; auto. lia.
Qed.

Lemma filter_sorted {A} (R : A -> A -> Prop) f l :
  StronglySorted R l -> StronglySorted R (filter f l).
Proof.
  induction 1 as [|x l Hl IH Hx]; cbn; [constructor|].
  destruct (f x); auto. constructor; auto.
  apply Forall_forall. intros y Hy. apply filter_In in Hy.
  rewrite Forall_forall in Hx. apply Hx, Hy.
Qed.

Lemma set_remove_sorted x l :
  StronglySorted lt l -> StronglySorted lt (set_remove x l).
Proof. apply filter_sorted. Qed.

Lemma sorted_lt_NoDup l : StronglySorted lt l -> NoDup l.
Proof.
  induction 1 as [|x l Hl IH Hx]; constructor; auto.
  intros Hin. rewrite Forall_forall in Hx. specialize (Hx _ Hin). lia.
Qed.

(** A strictly sorted list is determined by its elements. *)
Lemma sorted_lt_ext l1 l2 :
  StronglySorted lt l1 -> StronglySorted lt l2 ->
  (forall x, In x l1 <-> In x l2) -> l1 = l2.
Proof.
  intros H1; revert l2. induction H1 as [|x l1 Hl1 IH Hx]; intros l2 H2 Hext.
  - destruct l2 as [|y l2]; auto. exfalso. apply (Hext y). left; auto.
  - destruct H2 as [|y l2 Hl2 Hy].
    + exfalso. apply (Hext x). left; auto.
    + rewrite Forall_forall in Hx, Hy.
      assert (x = y).
      { destruct (proj1 (Hext x) (or_introl eq_refl)) as [|Hin]; auto.
        destruct (proj2 (Hext y) (or_introl eq_refl)) as [|Hin']; auto.
        specialize (Hx _ Hin'). specialize (Hy _ Hin). lia. }
      subst y. f_equal. apply IH; auto. intros z.
      specialize (Hext z). cbn in Hext.
      split; intros Hz.
      * destruct (proj1 Hext (or_intror Hz)) as [->|]; auto.
        specialize (Hx _ Hz). lia.
      * destruct (proj2 Hext (or_intror Hz)) as [->|]; auto.
        specialize (Hy _ Hz). lia.
Qed.

Lemma sorted_head_min x l y : StronglySorted lt (x :: l) -> In y (x :: l) -> x <= y.
Proof.
  intros H [->|Hin]; [lia|]. inv H. rewrite Forall_forall in H3. specialize (H3 _ Hin). lia.
Qed.

(** ** sort_ids *)
Lemma ins_sorted_perm x l : Permutation (x :: l) (ins_sorted x l).
Proof.
  induction l as [|y l IH]; cbn; auto. destruct (x <=? y); auto.
  rewrite perm_swap. constructor. auto.
Qed.

Lemma sort_ids_perm l : Permutation l (sort_ids l).
Proof.
  induction l as [|x l IH]; cbn; auto. rewrite <- ins_sorted_perm. constructor. auto.
Qed.

Lemma ins_sorted_sorted x l : StronglySorted le l -> StronglySorted le (ins_sorted x l).
Proof.
  induction 1 as [|y l Hl IH Hy]; cbn; [repeat constructor|].
  destruct (Nat.leb_spec x y).
  - constructor; [constructor; auto|]. constructor; auto.
    eapply Forall_impl; [|exact Hy]. intros; lia.
  - constructor; auto. rewrite Forall_forall in *. intros z Hz.
    eapply Permutation_in in Hz; [|symmetry; apply ins_sorted_perm].
    destruct Hz as [->|Hz]; [lia|auto].
Qed.

Lemma sort_ids_sorted l : StronglySorted le (sort_ids l).
Proof. induction l; cbn; [constructor|apply ins_sorted_sorted; auto]. Qed.

Lemma sort_ids_In x l : In x (sort_ids l) <-> In x l.
Proof.
  split; apply Permutation_in; [symmetry|]; apply sort_ids_perm.
Qed.

Lemma sort_ids_NoDup_lt l : NoDup l -> StronglySorted lt (sort_ids l).
Proof.
  intros Hnd. pose proof (sort_ids_sorted l) as Hs.
  assert (Hn : NoDup (sort_ids l)) by (eapply Permutation_NoDup; [apply sort_ids_perm|auto]).
  induction Hs as [|x m Hm IH Hx]; constructor; inv Hn; auto.
  rewrite Forall_forall in *. intros y Hy. specialize (Hx _ Hy).
  assert (x <> y) by (intros ->; auto). lia.
Qed.

(** ** map_res, fold_res *)
Lemma map_res_length {A B} (f : A -> res B) l m : map_res f l = Ok m -> length m = length l.
Proof.
  revert m; induction l as [|x l IH]; intros m H; cbn in H.
  - inv H; auto.
  - bindok H. bindok H. inv H. cbn. f_equal. eauto.
Qed.

Lemma map_res_Forall2 {A B} (f : A -> res B) l m :
  map_res f l = Ok m -> Forall2 (fun x y => f x = Ok y) l m.
Proof.
  revert m; induction l as [|x l IH]; intros m H; cbn in H.
  - inv H; auto.
  - bindok H. bindok H. inv H. constructor; auto.
Qed.

Lemma map_res_Ok {A B} (f : A -> res B) (g : A -> B) l :
  (forall x, In x l -> f x = Ok (g x)) -> map_res f l = Ok (map g l).
Proof.
  induction l as [|x l IH]; intros H; cbn; auto.
  rewrite H by (left; auto). cbn. rewrite IH by (intros; apply H; right; auto). reflexivity.
Qed.

Lemma fold_res_app {A S} (f : S -> A -> res S) l1 l2 s :
  fold_res f (l1 ++ l2) s = bind (fold_res f l1 s) (fold_res f l2).
Proof.
  revert s; induction l1 as [|x l1 IH]; intros s; cbn; auto.
  destruct (f s x); cbn; auto.
Qed.

(** Invariant rule for [fold_res]. *)
Lemma fold_res_inv {A S} (P : S -> Prop) (f : S -> A -> res S) l s s' :
  (forall s x s', In x l -> P s -> f s x = Ok s' -> P s') ->
  P s -> fold_res f l s = Ok s' -> P s'.
Proof.
  revert s; induction l as [|x l IH]; intros s Hf Hs H; cbn in H.
  - inv H; auto.
  - bindok H. eapply IH; [| |exact H].
    + intros; eapply Hf; eauto. right; auto.
    + eapply Hf; eauto. left; auto.
Qed.

Lemma firstn_skipn_middle {A} (l : list A) i x :
  nth_error l i = Some x -> l = firstn i l ++ x :: skipn (S i) l.
Proof.
  revert i; induction l as [|h t IH]; intros [|i] H; cbn in *; try discriminate.
  - inv H; auto.
  - f_equal. apply IH; auto.
Qed.

Lemma skipn_nth_error {A} (l : list A) i x :
  nth_error l i = Some x -> skipn i l = x :: skipn (S i) l.
Proof.
  revert i; induction l as [|h t IH]; intros [|i] H; cbn in *; try discriminate.
  - inv H; auto.
  - apply IH; auto.
Qed.

Lemma firstn_S_nth {A} (l : list A) i x :
  nth_error l i = Some x -> firstn (S i) l = firstn i l ++ [x].
Proof.
  revert i; induction l as [|h t IH]; intros [|i] H; cbn in *; try discriminate.
  - inv H; auto.
  - f_equal. apply IH; auto.
Qed.

Lemma nth_error_skipn {A} (l : list A) i j : nth_error (skipn i l) j = nth_error l (i + j).
Proof.
  revert i; induction l as [|h t IH]; intros [|i]; cbn; auto.
  destruct j; auto.
Qed.

Lemma nth_error_firstn {A} (l : list A) i j :
  nth_error (firstn i l) j = if j <? i then nth_error l j else None.
Proof.
  revert i j; induction l as [|h t IH]; intros [|i] [|j]; cbn; auto.
  - destruct (S j <? S i); auto.
  - rewrite IH. reflexivity.
Qed.
