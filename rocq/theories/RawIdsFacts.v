(** Facts about ids of any integer type. *)
From Coq Require Import List ZArith Bool Lia Arith.
From Verif Require Import Base RowRange RawIds RawIdsSpec.
Import ListNotations.
Local Open Scope Z_scope.

Lemma width_pos t : 1 <= width t.
Proof. unfold width. lia. Qed.
Lemma pow_pos t : 0 < 2 ^ width t.
Proof. apply Z.pow_pos_nonneg; [lia|]. pose proof (width_pos t). lia. Qed.
Lemma half t : 2 ^ width t = 2 * 2 ^ (width t - 1).
Proof. pose proof (width_pos t). rewrite <- Z.pow_succ_r by lia. f_equal. lia. Qed.
Lemma size t : t_max t - t_min t + 1 = 2 ^ width t.
Proof. unfold t_max, t_min. destruct (t_signed t); [rewrite half|]; lia. Qed.
Lemma min_max t : t_min t <= 0 <= t_max t.
Proof.
  assert (0 < 2 ^ (width t - 1)) by (pose proof (pow_pos t) as P; rewrite half in P; lia).
  pose proof (pow_pos t). unfold t_max, t_min. destruct (t_signed t); lia.
Qed.
Lemma in_ty_spec t z : in_ty t z = true <-> of_ty t z.
Proof. unfold in_ty, of_ty. rewrite andb_true_iff, !Z.leb_le. reflexivity. Qed.
Lemma in_ty_false t z : in_ty t z = false <-> ~ of_ty t z.
Proof. rewrite <- in_ty_spec. destruct (in_ty t z); intuition congruence. Qed.
Lemma wrap_in t z : of_ty t (wrap t z).
Proof. unfold wrap, of_ty. pose proof (Z.mod_pos_bound (z - t_min t) _ (pow_pos t)). pose proof (size t). lia. Qed.
Lemma wrap_id t z : of_ty t z -> wrap t z = z.
Proof. intros H. unfold of_ty in H. unfold wrap. pose proof (size t). rewrite Z.mod_small; lia. Qed.
Lemma wrap_off t z k : wrap t (z + k * 2 ^ width t) = wrap t z.
Proof. unfold wrap. rewrite <- (Z.mod_add (z - t_min t) k (2 ^ width t)) by (pose proof (pow_pos t); lia). f_equal. f_equal. lia. Qed.
Lemma wrap_up t : wrap t (t_max t + 1) = t_min t.
Proof.
  pose proof (size t). replace (t_max t + 1) with (t_min t + 1 * 2 ^ width t) by lia. rewrite wrap_off. apply wrap_id.
  unfold of_ty. pose proof (min_max t). lia.
Qed.
Lemma wrap_down t : wrap t (t_min t - 1) = t_max t.
Proof.
  pose proof (size t). replace (t_min t - 1) with (t_max t + (-1) * 2 ^ width t) by lia. rewrite wrap_off. apply wrap_id.
  unfold of_ty. pose proof (min_max t). lia.
Qed.

Ltac ity z := let E := fresh in destruct (in_ty _ z) eqn:E; [apply in_ty_spec in E|apply in_ty_false in E]; unfold of_ty in *.

Lemma eq_raw a b : id_eq a b = true <-> raw a = raw b.
Proof. destruct a, b; cbn; apply Z.eqb_eq. Qed.
Lemma cmp_raw a b : id_cmp a b = Some (raw a ?= raw b).
Proof. destruct a, b; reflexivity. Qed.
Lemma order :
  (forall a b, id_eq a b = true <-> id_cmp a b = Some Eq) /\
  (forall a b, id_cmp b a = option_map CompOpp (id_cmp a b)) /\
  (forall a b c o, id_cmp a b = Some o -> (id_cmp b c = Some o \/ id_eq b c = true) -> id_cmp a c = Some o) /\
  (forall a b c, id_eq a b = true -> id_cmp a c = id_cmp b c) /\
  (forall i j, id_eq (Gen i) (Gen j) = true <-> id_hash i = id_hash j).
Proof.
  split; [|split; [|split; [|split]]].
  - intros a b. rewrite eq_raw, cmp_raw. rewrite <- Z.compare_eq_iff. split; congruence.
  - intros a b. rewrite !cmp_raw. cbn. f_equal. apply Z.compare_antisym.
  - intros a b c o. rewrite eq_raw, !cmp_raw. intros [= <-] [[= H]|H]; f_equal.
    + destruct (Z.compare_spec (raw a) (raw b)) as [E|E|E], (Z.compare_spec (raw b) (raw c)) as [F|F|F]; try discriminate;
        [apply Z.compare_eq_iff|apply Z.compare_lt_iff|apply Z.compare_gt_iff]; lia.
    + rewrite H. reflexivity.
  - intros a b c. rewrite eq_raw, !cmp_raw. intros ->. reflexivity.
  - intros i j. rewrite eq_raw. unfold id_hash. cbn. split; congruence.
Qed.

Section Ty.
Variable pr : profile.
Variables t us : ity.
Hypothesis unsigned : t_signed us = false.

Lemma us_min : t_min us = 0.
Proof. unfold t_min. rewrite unsigned. reflexivity. Qed.

Lemma next_exact i : of_ty t i ->
  z_next pr t i = if i =? t_max t then match pr with Debug => panic POverflow | Release => Ok (t_min t) end else Ok (i + 1).
Proof.
  intros [L U]. unfold z_next, arith. destruct (Z.eqb_spec i (t_max t)) as [->|N].
  - ity (t_max t + 1); [lia|]. rewrite wrap_up. reflexivity.
  - ity (i + 1); [reflexivity|lia].
Qed.
Lemma prev_exact i : of_ty t i ->
  z_prev pr t i = if i =? t_min t then match pr with Debug => panic POverflow | Release => Ok (t_max t) end else Ok (i - 1).
Proof.
  intros [L U]. unfold z_prev, arith. destruct (Z.eqb_spec i (t_min t)) as [->|N].
  - ity (t_min t - 1); [lia|]. rewrite wrap_down. reflexivity.
  - ity (i - 1); [reflexivity|lia].
Qed.
Lemma to_usize_exact i : z_to_usize us i = if (0 <=? i) && (i <=? t_max us) then Ok i else panic PUnwrap.
Proof. unfold z_to_usize, in_ty. rewrite us_min. reflexivity. Qed.
Lemma to_usize_ok i : 0 <= i <= t_max us -> z_to_usize us i = Ok i.
Proof. intros [A B]. rewrite to_usize_exact. apply Z.leb_le in A. apply Z.leb_le in B. rewrite A, B. reflexivity. Qed.
Lemma to_usize_bad i : i < 0 \/ t_max us < i -> z_to_usize us i = panic PUnwrap.
Proof. intros H. rewrite to_usize_exact. destruct (Z.leb_spec 0 i), (Z.leb_spec i (t_max us)); try reflexivity. lia. Qed.
Lemma usize_back :
  (forall n i, of_ty us n -> z_from_usize t n = Ok i -> z_to_usize us i = Ok n) /\
  (forall i n, of_ty t i -> z_to_usize us i = Ok n -> z_from_usize t n = Ok i).
Proof.
  split.
  - intros n i H E. unfold z_from_usize in E. destruct (in_ty t n); inversion E; subst. apply to_usize_ok. unfold of_ty in H. rewrite us_min in H. exact H.
  - intros i n H E. unfold z_to_usize in E. destruct (in_ty us i); inversion E; subst. unfold z_from_usize. apply in_ty_spec in H. rewrite H. reflexivity.
Qed.

Notation imax := (Z.to_nat (t_max t)).
Notation umax := (Z.to_nat (t_max us)).
Lemma max_nat x : Z.of_nat (Z.to_nat (t_max x)) = t_max x.
Proof. pose proof (min_max x). lia. Qed.
Lemma both_us n : both t us n -> z_to_usize us (Z.of_nat n) = Ok (Z.of_nat n).
Proof. intros [_ H]. apply to_usize_ok. lia. Qed.
Lemma nat_usub a b : both t us a -> both t us b -> uarith pr us (Z.of_nat a - Z.of_nat b) = lift Z.of_nat (usub pr umax a b).
Proof.
  intros [_ A] [_ B]. unfold uarith, usub. pose proof (max_nat us) as M. pose proof (min_max us). pose proof us_min as U. pose proof (size us) as S0.
  destruct (Nat.leb_spec b a).
  - ity (Z.of_nat a - Z.of_nat b); [cbn; f_equal; lia|lia].
  - ity (Z.of_nat a - Z.of_nat b); [lia|]. destruct pr; cbn [lift]; [reflexivity|]. f_equal.
    unfold wrap. rewrite U. rewrite <- (Z.mod_add _ 1) by (pose proof (pow_pos us); lia).
    rewrite Z.mod_small by lia. lia.
Qed.
Lemma nat_uadd a b : both t us a -> Z.of_nat b <= t_max us -> uarith pr us (Z.of_nat a + Z.of_nat b) = lift Z.of_nat (uadd pr umax a b).
Proof.
  intros [_ A] B. unfold uarith, uadd. pose proof (max_nat us) as M. pose proof (min_max us). pose proof us_min as U. pose proof (size us) as S0.
  destruct (Nat.leb_spec (a + b) umax).
  - ity (Z.of_nat a + Z.of_nat b); [cbn; f_equal; lia|lia].
  - ity (Z.of_nat a + Z.of_nat b); [lia|]. destruct pr; cbn [lift]; [reflexivity|]. f_equal.
    unfold wrap. rewrite U. rewrite <- (Z.mod_add _ (-1)) by (pose proof (pow_pos us); lia).
    rewrite Z.mod_small by lia. lia.
Qed.
Lemma nat_from n : z_from_usize t (Z.of_nat n) = lift Z.of_nat (rid_from_usize imax n).
Proof.
  unfold z_from_usize, rid_from_usize. pose proof (max_nat t). pose proof (min_max t).
  destruct (Nat.leb_spec n imax); ity (Z.of_nat n); try reflexivity; lia.
Qed.
Lemma nat_next n : Z.of_nat n < t_max t -> z_next pr t (Z.of_nat n) = lift Z.of_nat (rid_next pr imax n).
Proof.
  intros H. pose proof (max_nat t). pose proof (min_max t). rewrite next_exact by (unfold of_ty; lia). unfold rid_next.
  destruct (Z.eqb_spec (Z.of_nat n) (t_max t)); [lia|]. destruct (Nat.ltb_spec n imax); [|lia]. cbn. f_equal. lia.
Qed.
Lemma nat_next_max : t_signed t = false -> z_next pr t (Z.of_nat imax) = lift Z.of_nat (rid_next pr imax imax).
Proof.
  intros H. pose proof (max_nat t) as M. pose proof (min_max t). rewrite M. rewrite next_exact by (unfold of_ty; lia). unfold rid_next.
  rewrite Z.eqb_refl. rewrite Nat.ltb_irrefl. destruct pr; cbn; [reflexivity|]. unfold t_min. rewrite H. reflexivity.
Qed.
Lemma nat_prev n : z_prev pr t (Z.of_nat (S n)) = lift Z.of_nat (rid_prev pr imax (S n)) \/ t_max t < Z.of_nat (S n).
Proof.
  destruct (Z.leb_spec (Z.of_nat (S n)) (t_max t)); [left|right; assumption]. pose proof (min_max t).
  rewrite prev_exact by (unfold of_ty; lia). destruct (Z.eqb_spec (Z.of_nat (S n)) (t_min t)); [lia|]. cbn [rid_prev lift]. f_equal. lia.
Qed.
Lemma ltb_nat a b : (Z.of_nat a <? Z.of_nat b) = (a <? b)%nat.
Proof. destruct (Z.ltb_spec (Z.of_nat a) (Z.of_nat b)), (Nat.ltb_spec a b); try reflexivity; lia. Qed.
Lemma leb_nat a b : (Z.of_nat a <=? Z.of_nat b) = (a <=? b)%nat.
Proof. destruct (Z.leb_spec (Z.of_nat a) (Z.of_nat b)), (Nat.leb_spec a b); try reflexivity; lia. Qed.
Lemma eqb_nat a b : (Z.of_nat a =? Z.of_nat b) = (a =? b)%nat.
Proof. destruct (Z.eqb_spec (Z.of_nat a) (Z.of_nat b)), (Nat.eqb_spec a b); try reflexivity; lia. Qed.

Lemma nat_ranges r : both t us (r_start r) -> both t us (r_end r) ->
  zr_len pr us (z_of_range r) = lift Z.of_nat (rr_len pr umax r) /\
  (forall o, zr_contains (z_of_range r) (Z.of_nat o) = rr_contains r o) /\
  (forall o, both t us o -> zr_inner_index pr t (z_of_range r) (Z.of_nat o) = Ok (option_map Z.of_nat (rr_inner_index r o))) /\
  (forall n, zr_offset t (z_of_range r) (Z.of_nat n) = option_map Z.of_nat (rr_offset imax r n)) /\
  (forall q, zr_intersects pr (z_of_range r) (z_of_range q) = rr_intersects pr r q) /\
  (forall len, zc_from us (Z.of_nat len) (z_of_range r) = lift z_of_iter (ci_from len r)).
Proof.
  intros A B. pose proof (max_nat t) as M. pose proof (min_max t) as N. split; [|split; [|split; [|split; [|split]]]].
  - unfold zr_len, rr_len, z_of_range. cbn [z_start z_end]. rewrite !both_us by assumption. cbn [bind]. apply nat_usub; assumption.
  - intros o. unfold zr_contains, rr_contains, z_of_range. cbn [z_start z_end]. rewrite ltb_nat, leb_nat. reflexivity.
  - intros o [O _]. unfold zr_inner_index, rr_inner_index.
    replace (zr_contains (z_of_range r) (Z.of_nat o)) with (rr_contains r o)
      by (unfold zr_contains, rr_contains, z_of_range; cbn [z_start z_end]; rewrite ltb_nat, leb_nat; reflexivity).
    destruct (rr_contains r o) eqn:C; [|reflexivity]. unfold rr_contains in C. apply andb_true_iff in C. destruct C as [C _]. apply Nat.leb_le in C.
    unfold arith. cbn [z_of_range z_start]. ity (Z.of_nat o - Z.of_nat (r_start r)); [cbn; do 2 f_equal; lia|lia].
  - intros n. unfold zr_offset, rr_offset, z_of_range. cbn [z_start z_end].
    destruct (Nat.leb_spec (r_start r + n) imax); ity (Z.of_nat (r_start r) + Z.of_nat n); try reflexivity; try lia.
    rewrite <- Nat2Z.inj_add, ltb_nat. destruct (_ <? _)%nat; reflexivity.
  - intros q. unfold zr_intersects, rr_intersects, z_of_range. cbn [z_start z_end]. rewrite !leb_nat. reflexivity.
  - intros len. unfold zc_from, ci_from, z_of_range. cbn [z_start z_end]. rewrite !both_us by assumption. cbn [bind].
    rewrite ltb_nat, leb_nat, eqb_nat. destruct (_ || _); cbn; [|reflexivity]. destruct (_ <=? _)%nat; reflexivity.
Qed.
Lemma nat_iters i : both t us (it_i i) -> both t us (it_end i) ->
  zi_next pr t (z_of_iter i) = lift z_of_item (it_next pr imax i) /\
  zi_size_hint pr us (z_of_iter i) = lift Z.of_nat (it_size_hint pr umax i) /\
  (forall n, Z.of_nat n <= t_max us -> zi_skip_fast pr t us (z_of_iter i) (Z.of_nat n) = lift z_of_iter (it_skip_fast pr imax umax i n)).
Proof.
  intros A B. split; [|split].
  - unfold zi_next, it_next, z_of_iter. cbn [zi_i zi_end]. rewrite leb_nat. destruct (Nat.leb_spec (it_end i) (it_i i)) as [L|L]; [reflexivity|].
    rewrite nat_next by (destruct B; lia). destruct (rid_next pr imax (it_i i)); reflexivity.
  - unfold zi_size_hint, it_size_hint, z_of_iter. cbn [zi_i zi_end]. rewrite !both_us by assumption. cbn [bind]. apply nat_usub; assumption.
  - intros n N. unfold zi_skip_fast, it_skip_fast, z_of_iter. cbn [zi_i zi_end]. rewrite both_us by assumption. cbn [bind]. rewrite nat_uadd by assumption.
    destruct (uadd pr umax (it_i i) n) as [s|e]; [|reflexivity]. cbn [lift bind]. rewrite nat_from. destruct (rid_from_usize imax s); reflexivity.
Qed.

Lemma from_to_nil a b : b <= a -> from_to a b = [].
Proof. intros H. unfold from_to. replace (Z.to_nat (b - a)) with 0%nat by lia. reflexivity. Qed.
Lemma from_to_cons a b : a < b -> from_to a b = a :: from_to (a + 1) b.
Proof.
  intros H. unfold from_to. replace (Z.to_nat (b - a)) with (S (Z.to_nat (b - (a + 1)))) by lia. cbn [seq map]. f_equal; [lia|].
  rewrite <- seq_shift, map_map. apply map_ext. intros n. lia.
Qed.
Lemma collect_all : forall fuel a b, of_ty t a -> of_ty t b -> (0 < fuel)%nat -> b - a < Z.of_nat fuel ->
  zi_collect pr t fuel (ZI a b) = Ok (from_to a b).
Proof.
  induction fuel as [|f IH]; intros a b A B F L; [lia|]. cbn [zi_collect]. unfold zi_next. cbn [zi_i zi_end].
  destruct (Z.leb_spec b a) as [C|C].
  - cbn. rewrite from_to_nil by exact C. reflexivity.
  - assert (N : z_next pr t a = Ok (a + 1)).
    { rewrite next_exact by exact A. destruct (Z.eqb_spec a (t_max t)) as [->|_]; [unfold of_ty in B; lia|reflexivity]. }
    rewrite N. cbn [bind fst snd]. rewrite IH by (unfold of_ty in *; lia). cbn [bind]. rewrite (from_to_cons a b C). reflexivity.
Qed.

Section Tab.
Variable len : Z.
Variable dead : list Z.
Hypothesis len_us : 0 <= len <= t_max us.

Lemma strange i : i < 0 \/ t_max us < i ->
  z_check us len dead i = panic PUnwrap /\ z_index us len i = panic PUnwrap /\ z_contains us len dead i = panic PUnwrap /\
  (forall b, zr_len pr us (ZR i b) = panic PUnwrap /\ zr_len pr us (ZR b i) = panic PUnwrap) /\
  (forall b, zc_from us len (ZR i b) = panic PUnwrap) /\ (forall a r, zc_from us len (ZR a i) <> Ok r).
Proof.
  intros H. pose proof (to_usize_bad i H) as E. unfold z_check, z_index, z_contains, zr_len, zc_from. cbn [z_start z_end]. rewrite E.
  do 3 (split; [reflexivity|]). split; [|split].
  - intros b. cbn [bind]. split; [|reflexivity]. rewrite to_usize_exact. destruct (_ && _); reflexivity.
  - reflexivity.
  - intros a r. destruct (z_to_usize us a); [|discriminate]. cbn [bind]. destruct (_ || _); discriminate.
Qed.
Lemma strange_from i b : z_check us len dead i <> Err EUB /\ z_index us len i <> Err EUB /\ z_contains us len dead i <> Err EUB /\
  (forall j, z_check us len dead i = Ok j -> j = i /\ 0 <= i < len /\ ~ In i dead /\ z_index_checked us len j = Ok i) /\
  (forall j, z_index us len i = Ok j -> j = i /\ 0 <= i < len) /\
  (forall it, zc_from us len (ZR i b) = Ok it -> forall fuel l x, of_ty t i -> of_ty t b -> zi_collect pr t fuel it = Ok l -> In x l -> z_index_checked us len x = Ok x).
Proof.
  unfold z_check, z_index, z_contains. rewrite to_usize_exact.
  assert (C : forall x, 0 <= x < len -> z_index_checked us len x = Ok x).
  { intros x H. unfold z_index_checked. rewrite to_usize_ok by lia. cbn. destruct (Z.ltb_spec x len); [reflexivity|lia]. }
  assert (D : (forall it, zc_from us len (ZR i b) = Ok it -> forall fuel l x, of_ty t i -> of_ty t b -> zi_collect pr t fuel it = Ok l -> In x l -> z_index_checked us len x = Ok x)).
  { intros it E fuel l x I B L X. apply C. unfold zc_from in E. cbn [z_start z_end] in E. rewrite !to_usize_exact in E.
    destruct (Z.leb_spec 0 i); [|discriminate]. destruct (Z.leb_spec i (t_max us)); [|discriminate]. cbn [andb bind] in E.
    destruct (_ || _); [|discriminate]. cbn [assert_ bind] in E.
    destruct (Z.leb_spec 0 b); [|discriminate]. destruct (Z.leb_spec b (t_max us)); [|discriminate]. cbn [andb bind] in E.
    destruct (Z.leb_spec b len); [|discriminate]. cbn in E. inversion E; subst it.
    assert (Q : l = from_to i b).
    { assert (M : forall f g it l, (f <= g)%nat -> zi_collect pr t f it = Ok l -> zi_collect pr t g it = Ok l).
      { clear. induction f as [|f IH]; intros g it l G E; [discriminate|]. destruct g as [|g]; [lia|]. cbn [zi_collect] in *.
        destruct (zi_next pr t it) as [[j [y|]]|]; [|exact E|discriminate]. cbn [bind fst snd] in *.
        destruct (zi_collect pr t f j) eqn:F; [|discriminate]. rewrite (IH g j _ ltac:(lia) F). exact E. }
      pose proof (M fuel (fuel + S (Z.to_nat (b - i)))%nat _ _ ltac:(lia) L) as L'. rewrite collect_all in L' by (assumption || lia). congruence. }
    subst l. unfold from_to in X. apply in_map_iff in X. destruct X as [n [<- X]]. apply in_seq in X. lia. }
  destruct (Z.leb_spec 0 i) as [P|P], (Z.leb_spec i (t_max us)) as [U|U]; cbn [andb bind];
    [|repeat split; try discriminate; exact D..].
  destruct (Z.leb_spec len i).
  - repeat split; try discriminate; exact D.
  - destruct (existsb (Z.eqb i) dead) eqn:X.
    + split; [discriminate|]. split; [discriminate|]. split; [discriminate|]. split; [discriminate|]. split; [|exact D].
      intros j [= <-]. split; [reflexivity|lia].
    + split; [discriminate|]. split; [discriminate|]. split; [discriminate|]. split; [|split; [|exact D]].
      * intros j [= <-]. split; [reflexivity|]. split; [lia|]. split; [|apply C; lia].
        intros I. assert (T : existsb (Z.eqb i) dead = true) by (apply existsb_exists; exists i; split; [exact I|apply Z.eqb_refl]). congruence.
      * intros j [= <-]. split; [reflexivity|lia].
Qed.
Lemma contains_exact i : 0 <= i <= t_max us -> exists b, z_contains us len dead i = Ok b /\ (b = true <-> i < len /\ ~ In i dead).
Proof.
  intros H. unfold z_contains. rewrite to_usize_ok by exact H. cbn [bind]. eexists. split; [reflexivity|].
  rewrite andb_true_iff, Z.ltb_lt, negb_true_iff. split; intros [A B]; split; try exact A.
  - intros I. assert (T : existsb (Z.eqb i) dead = true) by (apply existsb_exists; exists i; split; [exact I|apply Z.eqb_refl]). congruence.
  - destruct (existsb (Z.eqb i) dead) eqn:X; [|reflexivity]. apply existsb_exists in X. destruct X as [x [I E]]. apply Z.eqb_eq in E. subst x. contradiction.
Qed.
End Tab.

Lemma invalid_exact :
  z_invalid t us = if t_max us <=? t_max t then t_max us else if t_signed t then -1 else t_max t.
Proof.
  unfold z_invalid. pose proof (min_max t) as M. pose proof (min_max us) as N. pose proof us_min as U.
  destruct (Z.leb_spec (t_max us) (t_max t)) as [L|L]; [apply wrap_id; unfold of_ty; lia|].
  assert (W : exists k, 2 ^ width us = k * 2 ^ width t).
  { destruct (Z.leb_spec (width t) (width us)) as [W|W].
    - exists (2 ^ (width us - width t)). rewrite <- Z.pow_add_r by (pose proof (width_pos t); lia). f_equal. lia.
    - exfalso. assert (2 ^ width us <= 2 ^ (width t - 1)) by (apply Z.pow_le_mono_r; lia). pose proof (half t). pose proof (pow_pos us).
      unfold t_max in L. rewrite unsigned in L. destruct (t_signed t); lia. }
  destruct W as [k W]. pose proof (size us) as S0.
  replace (t_max us) with (-1 + k * 2 ^ width t) by lia. rewrite wrap_off.
  destruct (t_signed t) eqn:G.
  - apply wrap_id. unfold of_ty, t_min in *. rewrite G in *. pose proof (pow_pos t) as P. rewrite half in P. lia.
  - pose proof (wrap_down t) as D. unfold t_min in D. rewrite G in D. exact D.
Qed.
Lemma invalid_default : z_invalid t us = z_default t <-> t_max t <= t_max us /\ t_signed t = false \/ t_max t = t_max us.
Proof.
  rewrite invalid_exact. unfold z_default. pose proof (min_max t). destruct (Z.leb_spec (t_max us) (t_max t)).
  - split; [intros E; right; congruence|]. intros [[A _]|A]; lia.
  - destruct (t_signed t); [|split; [left; split; [lia|reflexivity]|reflexivity]]. split; [lia|]. intros [[_ A]|A]; [discriminate|lia].
Qed.
End Ty.

Lemma on_exact pr t i : of_ty t i ->
  (forall o, zr_contains (zr_empty t) o = false) /\
  (i <> t_max t -> exists r, zr_on pr t i = Ok r /\ forall o, zr_contains r o = true <-> o = i) /\
  (i = t_max t -> match pr with Debug => zr_on pr t i = panic POverflow | Release => exists r, zr_on pr t i = Ok r /\ forall o, zr_contains r o = false end).
Proof.
  intro I. split; [|split].
  - intro o. unfold zr_contains, zr_empty. cbn. destruct (Z.leb_spec (z_default t) o), (Z.ltb_spec o (z_default t)); cbn; auto; lia.
  - intro N. pose proof (next_exact pr t i I) as E. unfold zr_on. rewrite E. destruct (Z.eqb_spec i (t_max t)); [contradiction|]. cbn [bind]. eexists. split; [reflexivity|].
    intro o. unfold zr_contains. cbn. rewrite andb_true_iff, Z.leb_le, Z.ltb_lt. lia.
  - intro N. pose proof (next_exact pr t i I) as E. unfold zr_on. rewrite E. destruct (Z.eqb_spec i (t_max t)); [|contradiction]. destruct pr; [reflexivity|]. cbn [bind]. eexists. split; [reflexivity|].
    intro o. unfold zr_contains, of_ty in *. cbn. destruct (Z.leb_spec i o), (Z.ltb_spec o (t_min t)); cbn; auto; lia.
Qed.
