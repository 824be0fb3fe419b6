(** Proofs about tables that differ in their indexes only. *)
From Coq Require Import List Arith Bool Lia.
From Verif Require Import Base BaseFacts Column RowRange Table Visit SortedTab BagTab ColumnFacts TableFacts TableSpec Hist HistFacts Answers IndexedSpec.
Import ListNotations.

Lemma way_bind {A B C D} (R : A -> B -> Prop) (Q : C -> D -> Prop) x y f g :
  same_way R x y -> (forall a b, R a b -> same_way Q (f a) (g b)) -> same_way Q (bind x f) (bind y g).
Proof. destruct x as [a|[]], y as [b|[]]; cbn; tauto || auto. Qed.
Lemma way_weak {A B} (R Q : A -> B -> Prop) x y : (forall a b, R a b -> Q a b) -> same_way R x y -> same_way Q x y.
Proof. intro H. destruct x as [a|[]], y as [b|[]]; cbn; auto. Qed.
Lemma way_map {A B C D} (P : A -> B -> Prop) (R : C -> D -> Prop) f g : (forall a b, P a b -> same_way R (f a) (g b)) ->
  forall l l', Forall2 P l l' -> same_way (Forall2 R) (map_res f l) (map_res g l').
Proof.
  intros H l l' F. induction F; cbn; [constructor|]. eapply way_bind; [eauto|]. intros. eapply way_bind; [eauto|]. intros. cbn. constructor; auto.
Qed.
Lemma way_fold {A B C} (R : A -> B -> Prop) (f : A -> C -> res A) (g : B -> C -> res B) : (forall a b c, R a b -> same_way R (f a c) (g b c)) ->
  forall l a b, R a b -> same_way R (fold_res f l a) (fold_res g l b).
Proof. intro H. induction l as [|c l IH]; cbn; intros a b E; auto. eapply way_bind; [eauto|]. auto. Qed.
Lemma way_refl {A} (R : A -> A -> Prop) x : (forall a, R a a) -> same_way R x x.
Proof. intro H. destruct x as [a|[]]; cbn; auto. Qed.
Lemma way_eq {A} (x : res A) : same_way eq x x.
Proof. apply way_refl. auto. Qed.
Lemma way_sym {A} (R : A -> A -> Prop) x y : (forall a b, R a b -> R b a) -> same_way R x y -> same_way R y x.
Proof. intro H. destruct x as [a|[]], y as [b|[]]; cbn; auto. Qed.

(** ** Columns *)
Lemma alike_refl c : col_alike c c.
Proof. left. auto. Qed.
Lemma alike_sym c c' : col_alike c c' -> col_alike c' c.
Proof. intros [->|[E N]]; [left; auto|right; auto]. Qed.
Lemma alike_base c c' : col_alike c c' -> c_base c = c_base c'.
Proof. intros [->|[E N]]; auto. Qed.
Lemma alike_len c c' : col_alike c c' -> c_len c = c_len c'.
Proof. intro H. unfold c_len. rewrite (alike_base _ _ H). auto. Qed.
Lemma alike_pi b ix : col_alike (CPlain b) (CIdx b ix).
Proof. right. cbn. split; [auto|discriminate]. Qed.
#[local] Hint Resolve alike_refl alike_pi : core.

Section Cols.
Variable imax : nat.
Lemma native_ok i : i <= imax -> native imax i = Ok i.
Proof. intro H. unfold native. apply Nat.leb_le in H. rewrite H. auto. Qed.
(** Alike columns of length [n]. *)
Definition both (n : nat) (c c' : col) : Prop := col_alike c c' /\ c_len c = n.
Lemma both_sym n c c' : both n c c' -> both n c' c.
Proof. intros [H L]. split; [apply alike_sym; auto|]. rewrite <- (alike_len _ _ H). auto. Qed.

Lemma len_push b v b' : b_push b v = Ok b' -> b_len b' = S (b_len b).
Proof.
  destruct b as [l|b]; cbn; intro H; [inv H; cbn; rewrite app_length; cbn; lia|]. bindn H x E. inv H. unfold bc_len, bc_push. cbn.
  rewrite app_length. cbn. lia.
Qed.
Lemma len_bcflush b : length (bc_data (bc_flush b)) = length (bc_data b).
Proof. unfold bc_flush. destruct (bc_idx b) as [i|]; auto. destruct (_ <=? i); auto. cbn. apply upd_length. Qed.
Lemma len_swap_out b i v p : b_swap_out b i v = Ok p -> b_len (fst p) = b_len b.
Proof.
  destruct b as [l|b]; cbn; intro H.
  - destruct (nth_error l i); inv H. cbn. apply upd_length.
  - bindn H x E. bindn H q E2. inv H. unfold bc_swap_out in E2. destruct (nth_error _ i); inv E2. cbn. unfold bc_len. cbn. rewrite upd_length. apply len_bcflush.
Qed.
Lemma len_swap b i j b' : b_swap b i j = Ok b' -> b_len b' = b_len b.
Proof.
  destruct b as [l|b]; cbn; intro H.
  - destruct (nth_error l i), (nth_error l j); inv H. cbn. rewrite !upd_length. auto.
  - bindn H x E. inv H. unfold bc_swap in E. destruct (nth_error _ i); [|inv E]. destruct (nth_error _ j); inv E. cbn. unfold bc_len. cbn. rewrite !upd_length. apply len_bcflush.
Qed.
Lemma index_in b i : i < b_len b -> exists v, b_index b i = Ok v.
Proof.
  destruct b as [l|b]; cbn; intro H.
  - destruct (nth_error l i) eqn:E; eauto. apply nth_error_None in E. lia.
  - unfold bc_index, bc_len in *. destruct (match bc_idx b with Some j => i =? j | None => false end); cbn; eauto.
    destruct (nth_error (bc_data b) i) eqn:E; cbn; eauto. apply nth_error_None in E. lia.
Qed.


(** What holds of a plain and an indexed column holds of alike ones. *)
Lemma both_ind n (P : col -> col -> Prop) : (forall c, c_len c = n -> P c c) -> (forall c c', P c c' -> P c' c) ->
  (forall b ix, b_len b = n -> P (CPlain b) (CIdx b ix)) -> forall c c', both n c c' -> P c c'.
Proof.
  intros HR HS HP c c' [[->|[E N]] L]; auto. destruct c as [b|b ix], c' as [b'|b' ix']; cbn in *; unfold c_len in L; cbn in *; try congruence; subst; auto.
Qed.
Lemma way_both (f : col -> res col) n m : (forall c c1, c_len c = n -> f c = Ok c1 -> c_len c1 = m) ->
  (forall b ix, b_len b = n -> same_way (both m) (f (CPlain b)) (f (CIdx b ix))) -> forall c c', both n c c' -> same_way (both m) (f c) (f c').
Proof.
  intros F G. apply both_ind; auto.
  - intros c L. destruct (f c) as [c1|[]] eqn:E; cbn; auto. split; eauto.
  - intros c c'. apply way_sym. apply both_sym.
Qed.
Definition both2 {V} (n : nat) (p p' : col * V) : Prop := both n (fst p) (fst p') /\ snd p = snd p'.
Lemma both2_sym {V} n (p p' : col * V) : both2 n p p' -> both2 n p' p.
Proof. intros [H E]. split; auto. apply both_sym; auto. Qed.

Lemma push_len c v c' : c_push imax c v = Ok c' -> c_len c' = S (c_len c).
Proof.
  destruct c as [b|b ix]; cbn; intro H; bindn H b' E; [|bindn H m E2]; inv H; unfold c_len; cbn; apply (len_push _ _ _ E).
Qed.
Lemma push_way n c c' v : n <= imax -> both n c c' -> same_way (both (S n)) (c_push imax c v) (c_push imax c' v).
Proof.
  intros N. apply (way_both (fun c => c_push imax c v) n (S n)); auto.
  - intros c0 c1 L E. rewrite (push_len _ _ _ E). auto.
  - intros b ix L. cbn. destruct (b_push b v) as [b'|[]] eqn:E; cbn; auto. rewrite native_ok by lia. cbn. split; auto.
    unfold c_len. cbn. rewrite (len_push _ _ _ E). auto.
Qed.
Lemma swap_out_len c i v p : c_swap_out imax c i v = Ok p -> c_len (fst p) = c_len c.
Proof.
  destruct c as [b|b ix]; cbn; intro H.
  - bindn H q E. inv H. apply (len_swap_out _ _ _ _ E).
  - bindn H o E. bindn H m E2. bindn H q E3. inv H. apply (len_swap_out _ _ _ _ E3).
Qed.
Lemma swap_out_in b i v p : b_swap_out b i v = Ok p -> i < b_len b.
Proof.
  destruct b as [l|b]; cbn; intro H.
  - destruct (nth_error l i) eqn:E; inv H. apply nth_error_Some. congruence.
  - bindn H x E. bindn H q E2. unfold bc_swap_out in E2. destruct (nth_error _ i) eqn:E3; inv E2. unfold bc_len. rewrite <- len_bcflush. apply nth_error_Some. congruence.
Qed.
Lemma swap_out_way n c c' i v : n <= S imax -> both n c c' -> same_way (both2 n) (c_swap_out imax c i v) (c_swap_out imax c' i v).
Proof.
  intro N. revert c c'. apply both_ind.
  - intros c L. destruct (c_swap_out imax c i v) as [p|[]] eqn:E; cbn; auto. split; auto. split; auto. rewrite (swap_out_len _ _ _ _ E). auto.
  - intros c c'. apply way_sym. apply both2_sym.
  - intros b ix L. cbn. destruct (b_swap_out b i v) as [q|e] eqn:E.
    + pose proof (swap_out_in _ _ _ _ E) as I. destruct (index_in b i I) as [x ->]. cbn. rewrite native_ok by lia. cbn. split; cbn; auto.
      split; auto. rewrite <- L. apply (len_swap_out _ _ _ _ E).
    + destruct b as [l|b]; cbn in *.
      * destruct (nth_error l i) eqn:E2; inv E. cbn. auto.
      * assert (X : exists k, e = EPanic k).
        { destruct v; cbn in E; try (inv E; eauto; fail). unfold bc_swap_out in E. destruct (nth_error _ i); inv E; eauto. }
        destruct X as [k ->]. cbn. unfold bc_index. destruct (match bc_idx b with Some j => i =? j | None => false end); cbn.
        -- unfold native. destruct (i <=? imax); cbn; auto.
        -- destruct (nth_error (bc_data b) i); cbn; auto. unfold native. destruct (i <=? imax); cbn; auto.
Qed.
Lemma swap_len c i j c' : c_swap imax c i j = Ok c' -> c_len c' = c_len c.
Proof.
  destruct c as [b|b ix]; cbn; intro H.
  - bindn H q E. inv H. apply (len_swap _ _ _ _ E).
  - bindn H o E. bindn H o2 E1. bindn H m E2. bindn H m2 E3. bindn H q E4. inv H. apply (len_swap _ _ _ _ E4).
Qed.
Lemma swap_in b i j p : b_swap b i j = Ok p -> i < b_len b /\ j < b_len b.
Proof.
  destruct b as [l|b]; cbn; intro H.
  - destruct (nth_error l i) eqn:E, (nth_error l j) eqn:E2; inv H. split; apply nth_error_Some; congruence.
  - bindn H x E. unfold bc_swap in E. destruct (nth_error _ i) eqn:E2; [|inv E]. destruct (nth_error _ j) eqn:E3; inv E. unfold bc_len. rewrite <- len_bcflush.
    split; apply nth_error_Some; congruence.
Qed.
Lemma bc_panics b i e : bc_index b i = Err e -> exists k, e = EPanic k.
Proof. unfold bc_index. destruct (match bc_idx b with Some j => i =? j | None => false end); [discriminate|]. destruct (nth_error _ i); [discriminate|]. intro H. inv H. eauto. Qed.
Lemma swap_way n c c' i j : n <= S imax -> both n c c' -> same_way (both n) (c_swap imax c i j) (c_swap imax c' i j).
Proof.
  intro N. apply (way_both (fun c => c_swap imax c i j) n n); auto.
  - intros c0 c1 L E. rewrite (swap_len _ _ _ _ E). auto.
  - intros b ix L. cbn. destruct (b_swap b i j) as [q|e] eqn:E.
    + destruct (swap_in _ _ _ _ E) as [I J]. destruct (index_in b i I) as [x ->]. destruct (index_in b j J) as [y ->]. cbn. rewrite !native_ok by lia. cbn.
      split; auto. rewrite <- L. apply (len_swap _ _ _ _ E).
    + destruct b as [l|b]; cbn in *.
      * destruct (nth_error l i) eqn:E2, (nth_error l j) eqn:E3; inv E; cbn; auto.
      * assert (X : exists k, e = EPanic k). { unfold bc_swap in E. destruct (nth_error _ i); [|inv E; eauto]. destruct (nth_error _ j); inv E; eauto. }
        destruct X as [k ->]. cbn. destruct (bc_index b i) as [x|e] eqn:E1; [|destruct (bc_panics _ _ _ E1) as [? ->]; cbn; auto].
        destruct (bc_index b j) as [y|e] eqn:E2; [|destruct (bc_panics _ _ _ E2) as [? ->]; cbn; auto]. cbn.
        unfold native. destruct (i <=? imax); cbn; auto. destruct (j <=? imax); cbn; auto.
Qed.
Lemma deleted_len c i c' : c_deleted imax c i = Ok c' -> c_len c' = c_len c.
Proof. destruct c as [b|b ix]; cbn; intro H; [inv H; auto|]. bindn H o E. bindn H m E2. inv H. auto. Qed.
Lemma deleted_way n c c' i : n <= S imax -> i < n -> both n c c' -> same_way (both n) (c_deleted imax c i) (c_deleted imax c' i).
Proof.
  intros N I. apply (way_both (fun c => c_deleted imax c i) n n); auto.
  - intros c0 c1 L E. rewrite (deleted_len _ _ _ E). auto.
  - intros b ix L. cbn. destruct (index_in b i ltac:(lia)) as [x ->]. cbn. rewrite native_ok by lia. cbn. split; auto.
Qed.
Lemma trunc_len b n : b_len (b_truncate b n) = Nat.min n (b_len b).
Proof.
  destruct b as [l|b]; cbn; [apply firstn_length|]. unfold bc_truncate, bc_len. cbn. rewrite firstn_length, len_bcflush. auto.
Qed.
Lemma deleteds_idx l : forall b ix, b_len b <= S imax -> Forall (fun i => i < b_len b) l ->
  exists ix', fold_res (c_deleted imax) l (CIdx b ix) = Ok (CIdx b ix').
Proof.
  induction l as [|i l IH]; intros b ix N F; cbn; eauto. inv F. destruct (index_in b i H1) as [x ->]. cbn. rewrite native_ok by lia. cbn. apply IH; auto.
Qed.
Lemma truncate_ok_idx b ix k : b_len b <= S imax -> exists ix', c_truncate imax (CIdx b ix) k = Ok (CIdx (b_truncate b k) ix').
Proof.
  intro N. cbn [c_truncate]. destruct (deleteds_idx (seq k (b_len b - k)) b ix N) as [ix' ->].
  - apply Forall_forall. intros x H. apply in_seq in H. lia.
  - cbn. eauto.
Qed.
Lemma truncate_way n c c' k : n <= S imax -> both n c c' -> same_way (both (Nat.min k n)) (c_truncate imax c k) (c_truncate imax c' k).
Proof.
  intros N. apply (way_both (fun c => c_truncate imax c k) n (Nat.min k n)); auto.
  - intros c0 c1 L E. destruct c0 as [b|b ix]; unfold c_len in *; cbn in L.
    + cbn in E. inv E. cbn. rewrite trunc_len. auto.
    + destruct (truncate_ok_idx b ix k ltac:(lia)) as [ix' E2]. rewrite E in E2. inv E2. cbn. rewrite trunc_len. auto.
  - intros b ix L. destruct (truncate_ok_idx b ix k ltac:(lia)) as [ix' E2]. rewrite E2. cbn. split; auto. unfold c_len. cbn. rewrite trunc_len. lia.
Qed.
Lemma clear_both n c c' : both n c c' -> both 0 (c_clear c) (c_clear c').
Proof.
  apply (both_ind n (fun c c' => both 0 (c_clear c) (c_clear c'))).
  - intros c0 L. split; auto. unfold c_len. destruct c0 as [[l|b]|[l|b] ix]; cbn; auto.
  - intros x y. apply both_sym.
  - intros b ix L. split; cbn; auto. unfold c_len. destruct b as [l|b]; cbn; auto.
Qed.
End Cols.
#[global] Hint Resolve alike_refl alike_pi : core.

(** ** Tables *)
Definition ta (n : nat) (t t' : table) : Prop :=
  same_but_indexes (t_sch t) (t_sch t') /\ Forall2 (both n) (t_cols t) (t_cols t') /\ t_free t = t_free t' /\
  n <= S (t_imax t) /\ t_cols t <> [].
Definition wa (n : nat) (w w' : wlock) : Prop :=
  ta n (w_tab w) (w_tab w') /\ w_changes w = w_changes w' /\ w_pushed w = w_pushed w' /\ w_delete w = w_delete w'.
Definition wsome (w w' : wlock) : Prop := exists n, wa n w w'.

Lemma wa_alike n w w' : wa n w w' -> lock_alike w w'.
Proof.
  intros ((S & C & F & _) & R). split; auto. split; auto. split; auto. clear - C. induction C; constructor; auto. destruct H; auto.
Qed.
Section Tab.
Variables (n : nat) (t t' : table).
Hypothesis T : ta n t t'.
Lemma ta_kind : t_kind t' = t_kind t.
Proof. destruct T as ((K & _) & _). unfold t_kind. auto. Qed.
Lemma ta_imax : t_imax t' = t_imax t.
Proof. destruct T as ((_ & K & _) & _). unfold t_imax. auto. Qed.
Lemma ta_cons : t_consistent t' = t_consistent t.
Proof. unfold t_consistent. rewrite ta_kind. auto. Qed.
Lemma ta_free : t_free t' = t_free t.
Proof. destruct T as (_ & _ & F & _). auto. Qed.
Lemma ta_len1 : t_len t = n.
Proof.
  destruct T as (_ & C & _ & _ & Z). unfold t_len. destruct C; [congruence|]. destruct H. auto.
Qed.
Lemma ta_len2 : t_len t' = n.
Proof.
  destruct T as (_ & C & _ & _ & Z). unfold t_len. destruct C; [congruence|]. destruct H. rewrite <- (alike_len _ _ H). auto.
Qed.
Lemma ta_len : t_len t' = t_len t.
Proof. rewrite ta_len1. apply ta_len2. Qed.
Lemma ta_ncols : length (t_cols t') = length (t_cols t).
Proof. destruct T as (_ & C & _). symmetry. clear - C. induction C; cbn; auto. Qed.
Lemma ta_check i : t_check t' i = t_check t i.
Proof. unfold t_check, t_is_deleted. rewrite ta_len, ta_cons, ta_free. auto. Qed.
Lemma ta_row_range : t_row_range t' = t_row_range t.
Proof. unfold t_row_range. rewrite ta_len, ta_imax. auto. Qed.
Lemma ta_range r : t_range t' r = t_range t r.
Proof. unfold t_range. rewrite ta_len, ta_cons, ta_free. auto. Qed.
Lemma ta_iter : t_iter t' = t_iter t.
Proof. unfold t_iter. rewrite ta_row_range. destruct (t_row_range t); cbn; auto. apply ta_range. Qed.
Lemma ta_editing : t_editing t' = t_editing t.
Proof. unfold t_editing. rewrite ta_row_range, ta_free. auto. Qed.
Lemma ta_raw i : t_get_row_raw t' i = t_get_row_raw t i.
Proof.
  unfold t_get_row_raw. destruct T as (_ & C & _). clear - C. induction C; cbn; auto. rewrite IHC. unfold c_index. destruct H as [H _].
  rewrite (alike_base _ _ H). auto.
Qed.
Lemma ta_get i : t_get_row t' i = t_get_row t i.
Proof. unfold t_get_row. rewrite ta_check. destruct (t_check t i); cbn; auto. apply ta_raw. Qed.
Lemma ta_getc i : t_get_row_checked t' i = t_get_row_checked t i.
Proof. unfold t_get_row_checked. cbn. apply ta_raw. Qed.
Lemma ta_last : t_last t' = t_last t.
Proof. unfold t_last. rewrite ta_len, ta_imax. auto. Qed.
Lemma ta_next : next_pushed t' = next_pushed t.
Proof. unfold next_pushed. rewrite ta_len, ta_imax, ta_free. auto. Qed.
Lemma map_res_ext {A B} (f g : A -> res B) l : (forall x, f x = g x) -> map_res f l = map_res g l.
Proof. intro H. induction l as [|a l IH]; cbn; auto. rewrite H, IH. auto. Qed.
Lemma ta_dump pr : t_dump pr t' = t_dump pr t.
Proof.
  unfold t_dump. rewrite ta_iter, ta_imax, ta_len. destruct (t_iter t); cbn [bind]; auto.
  match goal with |- bind ?x _ = _ => destruct x; cbn [bind]; auto end.
  apply map_res_ext. apply ta_getc.
Qed.
Lemma ta_read k i : same_way eq (t_read t k i) (t_read t' k i).
Proof.
  unfold t_read. destruct T as (_ & C & _). revert k. clear - C. induction C; intros [|k]; cbn; auto. unfold c_get, c_index. destruct H as [H _].
  rewrite (alike_len _ _ H), (alike_base _ _ H). apply way_eq.
Qed.
End Tab.


Lemma ta_cols n m t t' cs cs' : ta n t t' -> Forall2 (both m) cs cs' -> m <= S (t_imax t) -> cs <> [] -> ta m (with_cols t cs) (with_cols t' cs').
Proof. intros (S & C & F & L & Z) C2 L2 Z2. split; auto. Qed.
Lemma wa_tab n m w w' t t' : wa n w w' -> ta m t t' -> wa m (with_tab w t) (with_tab w' t').
Proof. intros (_ & R) T. split; auto. Qed.
Lemma wa_ta n w w' : wa n w w' -> ta n (w_tab w) (w_tab w').
Proof. intros (T & _). auto. Qed.

(** Changes of all columns. *)
Lemma cols_way n m t t' (f f' : col -> res col) : ta n t t' ->
  (forall c c', both n c c' -> same_way (both m) (f c) (f' c')) ->
  same_way (fun cs cs' => Forall2 (both m) cs cs' /\ cs <> []) (map_res f (t_cols t)) (map_res f' (t_cols t')).
Proof.
  intros (_ & C & _ & _ & Z) H. destruct C as [|c c' cs cs' B C]; [congruence|]. cbn.
  eapply way_bind; [eauto|]. intros a b R. eapply way_bind; [eapply way_map; eauto|]. intros l l' F. cbn. split; [constructor; auto|discriminate].
Qed.

Lemma swap_rows_way n w w' a b : wa n w w' -> same_way (wa n) (swap_rows w a b) (swap_rows w' a b).
Proof.
  intro H. pose proof (wa_ta _ _ _ H) as T. unfold swap_rows. rewrite !(ta_check _ _ _ T). eapply way_bind; [apply way_eq|]. intros i _ <-.
  eapply way_bind; [apply way_eq|]. intros j _ <-. rewrite (ta_imax _ _ _ T).
  eapply way_bind; [apply (cols_way n n); [exact T|]|].
  - intros. apply swap_way; auto. apply T.
  - intros cs cs' [F Z]. cbn. eapply wa_tab; [eauto|]. eapply ta_cols; eauto. apply T.
Qed.
Lemma truncate_row_way n w w' k : wa n w w' -> same_way (wa (Nat.min k n)) (truncate w k) (truncate w' k).
Proof.
  intro H. pose proof (wa_ta _ _ _ H) as T. unfold truncate. rewrite (ta_imax _ _ _ T).
  eapply way_bind; [apply (cols_way n (Nat.min k n)); [exact T|]|].
  - intros. apply truncate_way; auto. apply T.
  - intros cs cs' [F Z]. cbn. eapply wa_tab; [eauto|]. eapply ta_cols; eauto. destruct T as (_ & _ & _ & L & _). lia.
Qed.
Lemma swap_out_row_way n w w' i r : wa n w w' ->
  same_way (fun p p' => wa n (fst p) (fst p') /\ snd p = snd p') (swap_out_row w i r) (swap_out_row w' i r).
Proof.
  intro H. pose proof (wa_ta _ _ _ H) as T. unfold swap_out_row. rewrite (ta_check _ _ _ T). eapply way_bind; [apply way_eq|]. intros j _ <-.
  rewrite (ta_imax _ _ _ T), (ta_ncols _ _ _ T). destruct (length (t_cols (w_tab w)) =? length r) eqn:L; [|exact I]. apply Nat.eqb_eq in L.
  assert (Q : same_way (Forall2 (both2 n)) (map_res (fun p => c_swap_out (t_imax (w_tab w)) (fst p) j (snd p)) (combine (t_cols (w_tab w)) r))
    (map_res (fun p => c_swap_out (t_imax (w_tab w)) (fst p) j (snd p)) (combine (t_cols (w_tab w')) r))).
  { apply way_map with (P := fun p p' => both n (fst p) (fst p') /\ snd p = snd p').
    - intros [c v] [c' v'] [B E]. cbn in *. subst. apply swap_out_way; auto. apply T.
    - destruct T as (_ & C & _). clear - C. revert r. induction C; intros [|v r]; cbn; constructor; auto. }
  destruct (map_res _ (combine (t_cols (w_tab w)) r)) as [ps|e] eqn:E1; destruct (map_res _ (combine (t_cols (w_tab w')) r)) as [ps'|e']; try exact Q; cbn in *.
  assert (Fc : Forall2 (both n) (map fst ps) (map fst ps')) by (clear - Q; induction Q as [|? ? ? ? [? ?]]; cbn; constructor; auto).
  assert (Fv : map snd ps = map snd ps') by (clear - Q; induction Q as [|? ? ? ? [? ?]]; cbn; congruence).
  split; auto. eapply wa_tab; [eauto|]. eapply ta_cols; eauto; [apply T|].
  destruct T as (_ & C & _ & _ & Z). destruct C; [congruence|]. destruct r; [discriminate|]. cbn in E1. bindn E1 q E2. bindn E1 qs E3. inv E1. discriminate.
Qed.
Lemma event_add_wa n w w' i : wa n w w' -> wa n (event_add w i) (event_add w' i).
Proof. intros (T & A & B & C). unfold event_add. rewrite (ta_kind _ _ _ T). destruct (t_kind (w_tab w)); repeat split; cbn; auto; try apply T; congruence. Qed.
Lemma event_del_wa n w w' i : wa n w w' -> wa n (event_del w i) (event_del w' i).
Proof. intros (T & A & B & C). unfold event_del. rewrite (ta_kind _ _ _ T). destruct (t_kind (w_tab w)); repeat split; cbn; auto; try apply T; congruence. Qed.
Lemma clear_raw_wa n w w' : wa n w w' -> wa 0 (clear_raw w) (clear_raw w').
Proof.
  intro H. pose proof (wa_ta _ _ _ H) as T. unfold clear_raw. eapply wa_tab; [eauto|]. destruct T as (? & C & ? & L & Z). repeat split; cbn; try apply H0; auto; [|lia|].
  - clear - C. induction C; cbn; constructor; auto. eapply clear_both; eauto.
  - destruct (t_cols (w_tab w)); [congruence|discriminate].
Qed.
Lemma clear_some n w w' : wa n w w' -> wsome (clear w) (clear w').
Proof.
  intro H. pose proof (wa_ta _ _ _ H) as T. unfold clear, event_cleared. rewrite (ta_kind _ _ _ T).
  destruct (t_kind (w_tab w)); try (exists n; exact H); try (exists 0; apply (clear_raw_wa n); exact H).
  exists n. destruct H as (_ & _ & B & C). repeat split; cbn; auto; apply T.
Qed.
Lemma cols_push_len imax cs r cs' : cols_push imax cs r = Ok cs' -> forall n, Forall (fun c => c_len c = n) cs -> Forall (fun c => c_len c = S n) cs'.
Proof.
  unfold cols_push. destruct (_ =? _) eqn:L; [|discriminate]. apply Nat.eqb_eq in L. revert r cs' L. induction cs as [|c cs IH]; intros [|v r] cs' L H n F; try discriminate; cbn in H; [inv H; constructor|].
  bindn H c1 E. bindn H cs1 E2. inv H. inv F. constructor; [apply (push_len _ _ _ _ E)|]. eapply IH; eauto.
Qed.
Lemma push_only_way n w w' r : wa n w w' ->
  same_way (fun p p' => wa (S n) (fst p) (fst p') /\ snd p = snd p') (push_only_unchecked w r) (push_only_unchecked w' r).
Proof.
  intro H. pose proof (wa_ta _ _ _ H) as T. assert (T2 := T). destruct T2 as (S0 & C & F & L & Z). unfold push_only_unchecked.
  destruct (Nat.eq_dec n (S (t_imax (w_tab w)))) as [Full|Room].
  - assert (X : forall w0, t_imax (w_tab w0) = t_imax (w_tab w) -> Forall (fun c => c_len c = n) (t_cols (w_tab w0)) -> t_cols (w_tab w0) <> [] ->
      exists k, push_only_unchecked w0 r = panic k).
    { intros w0 I0 F0 Z0. unfold push_only_unchecked. destruct (cols_push _ _ r) as [cs|e] eqn:E.
      - cbn [bind]. pose proof (cols_push_len _ _ _ _ E n F0) as F1. unfold t_last, t_len, with_cols. cbn [t_cols t_imax t_sch].
        destruct cs as [|c cs].
        + exfalso. unfold cols_push in E. destruct (_ =? _) eqn:L1; [|discriminate]. apply Nat.eqb_eq in L1. destruct (t_cols (w_tab w0)); [congruence|]. destruct r; [discriminate|].
          cbn in E. bindn E q E2. bindn E qs E3. discriminate.
        + pose proof (Forall_inv F1) as H2. cbv beta in H2. rewrite H2. destruct (Nat.eqb_spec (S n) 0); [lia|]. unfold rid_from_usize, t_imax in *. cbn. rewrite I0. replace (S n - 1) with n by lia.
          destruct (Nat.leb_spec n (s_imax (t_sch (w_tab w)))); [lia|]. cbn. eexists. reflexivity.
      - cbn. assert (Q : exists k, e = EPanic k); [|destruct Q as [k ->]; eexists; reflexivity].
        unfold cols_push in E. destruct (_ =? _); [|inv E; eauto]. revert E. generalize (combine (t_cols (w_tab w0)) r). intro l.
        induction l as [|[c v] l IH]; cbn; [discriminate|]. intro E. destruct (c_push _ c v) as [c1|e1] eqn:E1; cbn in E.
        + match type of E with bind ?x _ = _ => destruct x eqn:E2 end; cbn in E; [discriminate|]. inv E. auto.
        + inv E. destruct c as [[lv|b]|[lv|b] ix]; cbn in E1; unfold native in E1; try destruct v; cbn in E1; try destruct (_ <=? _); inv E1; eauto. }
    destruct (X w) as [k E]; auto.
    { clear - C. induction C; constructor; auto. apply H. }
    destruct (X w') as [k' E']; auto.
    { apply (ta_imax _ _ _ T). }
    { clear - C. induction C; constructor; auto. destruct H as [A B]. rewrite <- (alike_len _ _ A). auto. }
    { destruct C; [congruence|discriminate]. }
    unfold push_only_unchecked in E, E'. rewrite E, E'. exact I.
  - rewrite (ta_imax _ _ _ T). unfold cols_push. rewrite (ta_ncols _ _ _ T). destruct (length (t_cols (w_tab w)) =? length r) eqn:Lr; [|exact I]. apply Nat.eqb_eq in Lr.
    eapply way_bind with (R := fun cs cs' => Forall2 (both (S n)) cs cs' /\ cs <> []).
    + assert (Q : forall cs cs' r, length cs = length r -> Forall2 (both n) cs cs' -> same_way (Forall2 (both (S n)))
        (map_res (fun p => c_push (t_imax (w_tab w)) (fst p) (snd p)) (combine cs r)) (map_res (fun p => c_push (t_imax (w_tab w)) (fst p) (snd p)) (combine cs' r))).
      { clear - L Room. intros cs cs' r Lr C. apply way_map with (P := fun p p' => both n (fst p) (fst p') /\ snd p = snd p').
        - intros [c v] [c' v'] [B E]. cbn in *. subst. apply push_way; auto. lia.
        - clear Lr. revert r. induction C; intros [|v r]; cbn; constructor; auto. }
      destruct C as [|c c' cs cs' B C]; [congruence|]. destruct r as [|v r]; [discriminate|]. cbn. eapply way_bind; [apply push_way; [|exact B]; lia|].
      intros a b R. eapply way_bind; [apply Q; auto|]. intros l l' F'. cbn. split; [constructor; auto|discriminate].
    + intros cs cs' [F' Z']. assert (T1 : ta (S n) (with_cols (w_tab w) cs) (with_cols (w_tab w') cs')).
      { eapply ta_cols; eauto. lia. }
      rewrite (ta_last _ _ _ T1). eapply way_bind; [apply way_eq|]. intros [i|] _ <-; [|exact I]. cbn. split; auto. eapply wa_tab; eauto.
Qed.
Lemma push_end_way n w w' r : wa n w w' ->
  same_way (fun p p' => wa (S n) (fst p) (fst p') /\ snd p = snd p') (push_end_unchecked w r) (push_end_unchecked w' r).
Proof.
  intro H. unfold push_end_unchecked. eapply way_bind; [apply push_only_way; eauto|]. intros p p' [A B]. cbn. rewrite B. split; auto. apply event_add_wa; auto.
Qed.

Definition wv {V} (p p' : wlock * V) : Prop := wsome (fst p) (fst p') /\ snd p = snd p'.
Lemma push_wv w w' r : wsome w w' -> same_way wv (push w r) (push w' r).
Proof.
  intros [n H]. pose proof (wa_ta _ _ _ H) as T. unfold push. rewrite (ta_free _ _ _ T). destruct (t_free (w_tab w)) as [|old l] eqn:E.
  - eapply way_weak; [|apply push_end_way; eauto]. intros p p' [A B]. split; auto. eexists; eauto.
  - eapply way_bind; [apply (swap_out_row_way n)|].
    + apply event_add_wa. eapply wa_tab; [eauto|]. destruct T as (A & B & C & D & Z). repeat split; cbn; auto; try apply A; congruence.
    + intros p p' [A B]. cbn. split; auto. eexists; eauto.
Qed.
Lemma push_all_way w w' rs : wsome w w' -> same_way wsome (push_all w rs) (push_all w' rs).
Proof.
  intro H. unfold push_all. apply way_fold; auto. intros a b r A. eapply way_bind; [apply push_wv; eauto|]. intros p p' [B _]. exact B.
Qed.
Lemma push_array_way pr w w' rs : wsome w w' -> same_way wv (push_array pr w rs) (push_array pr w' rs).
Proof.
  intros [n H]. pose proof (wa_ta _ _ _ H) as T. unfold push_array. rewrite (ta_imax _ _ _ T). destruct rs as [|r rs]; [cbn; split; auto; eexists; eauto|].
  eapply way_bind; [apply push_end_way; eauto|]. intros p p' [A B]. eapply way_bind with (R := wv).
  - apply way_fold; [|split; auto; eexists; eauto]. intros a b c [[m A1] B1]. eapply way_weak; [|apply push_end_way; eauto]. intros q q' [A2 B2]. split; auto. eexists; eauto.
  - intros q q' [A1 B1]. rewrite B1. eapply way_bind; [apply way_eq|]. intros e _ <-. cbn. rewrite B. split; auto.
Qed.
Section Del.
Variables (pr : profile) (umax : nat).
Lemma delete_raw_cons_way n w w' i : t_kind (w_tab w) = Consistent -> i < n -> wa n w w' -> same_way (fun a b => wa n a b /\ t_kind (w_tab a) = Consistent) (delete_raw pr umax w i) (delete_raw pr umax w' i).
Proof.
  intros K L H. pose proof (wa_ta _ _ _ H) as T. unfold delete_raw. rewrite (ta_kind _ _ _ T), K, (ta_imax _ _ _ T).
  eapply way_bind; [apply (cols_way n n); [exact T|]; intros; apply deleted_way; auto; apply T|]. intros cs cs' [F Z].
  eapply way_bind; [apply way_eq|]. intros j _ <-. cbn. split; [|exact K]. eapply wa_tab; [eauto|]. destruct T as (A & B & C & D & E). repeat split; cbn; auto; try apply A; congruence.
Qed.
Lemma delete_raw_bag_way w w' i : t_kind (w_tab w) <> Consistent -> wsome w w' ->
  same_way (fun a b => wsome a b /\ t_kind (w_tab a) <> Consistent) (delete_raw pr umax w i) (delete_raw pr umax w' i).
Proof.
  intros K [n H]. pose proof (wa_ta _ _ _ H) as T. unfold delete_raw. rewrite (ta_kind _ _ _ T), (ta_imax _ _ _ T), (ta_len _ _ _ T).
  destruct (t_kind (w_tab w)) eqn:Ek; try exact I; [congruence|]. eapply way_bind; [apply way_eq|]. intros m _ <-.
  eapply way_bind with (R := fun cs cs' => Forall2 (both n) cs cs' /\ cs <> []).
  - destruct (i <? m); [apply (cols_way n n); [exact T|]; intros; apply swap_way; auto; apply T|]. cbn. destruct T as (A & B & C & D & E). auto.
  - intros cs cs' [F Z]. eapply way_bind with (R := fun cs cs' => Forall2 (both (Nat.min m n)) cs cs' /\ cs <> []).
    + assert (T1 : ta n (with_cols (w_tab w) cs) (with_cols (w_tab w') cs')) by (eapply ta_cols; eauto; apply T).
      apply (cols_way n _ _ _ _ _ T1). intros. apply truncate_way; auto. apply T.
    + intros cs1 cs2 [F1 Z1]. cbn. split; [|unfold t_kind in *; cbn; congruence]. exists (Nat.min m n). eapply wa_tab; [eauto|]. eapply ta_cols; eauto. destruct T as (_ & _ & _ & D & _). lia.
Qed.
Lemma delete_rows_way w w' rows : wsome w w' ->
  same_way wsome (let len := t_len (w_tab w) in fold_res (fun w i => let* _ := assert_ (i <? len) PRemoveRange in delete_raw pr umax w i) rows w)
    (let len := t_len (w_tab w') in fold_res (fun w i => let* _ := assert_ (i <? len) PRemoveRange in delete_raw pr umax w i) rows w').
Proof.
  intros [n H]. pose proof (wa_ta _ _ _ H) as T. cbv zeta. rewrite (ta_len1 _ _ _ T), (ta_len2 _ _ _ T).
  assert (Kd : t_kind (w_tab w) = Consistent \/ t_kind (w_tab w) <> Consistent) by (destruct (t_kind (w_tab w)); auto; right; discriminate).
  destruct Kd as [K|K].
  - eapply way_weak; [|apply (way_fold (fun a b => wa n a b /\ t_kind (w_tab a) = Consistent)); [|split; eauto]].
    + intros a b [A _]. exists n. auto.
    + intros a b i [A Ka]. unfold assert_. destruct (Nat.ltb_spec i n); cbn; [|exact I]. apply delete_raw_cons_way; auto.
  - eapply way_weak; [|apply (way_fold (fun a b => wsome a b /\ t_kind (w_tab a) <> Consistent)); [|split; [exists n; auto|auto]]].
    + intros a b [A _]. auto.
    + intros a b i [A Ka]. unfold assert_. destruct (Nat.ltb_spec i n); cbn; [|exact I]. apply delete_raw_bag_way; auto.
Qed.
Lemma delete_way w w' i : wsome w w' -> same_way wsome (delete pr umax w i) (delete pr umax w' i).
Proof.
  intros [n H]. pose proof (wa_ta _ _ _ H) as T. unfold delete. rewrite (ta_kind _ _ _ T), (ta_check _ _ _ T). destruct (t_kind (w_tab w)) eqn:K; try exact I.
  - eapply way_bind; [apply way_eq|]. intros j _ <-. exists n. apply event_del_wa; auto.
  - eapply way_bind; [apply way_eq|]. intros j _ <-. eapply way_weak; [|apply delete_raw_bag_way; [congruence|exists n; auto]]. intros a b [A _]. auto.
Qed.
Definition tsome (t t' : table) : Prop := exists n, ta n t t'.
Lemma some_tab w w' : wsome w w' -> tsome (w_tab w) (w_tab w').
Proof. intros [n H]. exists n. apply (wa_ta _ _ _ H). Qed.
Lemma some_rest w w' : wsome w w' -> w_changes w' = w_changes w /\ w_pushed w' = w_pushed w /\ w_delete w' = w_delete w.
Proof. intros [n (_ & A & B & C)]. auto. Qed.
Lemma some_w w w' c p d : wsome w w' -> wsome (W (w_tab w) c p d) (W (w_tab w') c p d).
Proof. intros [n (T & _)]. exists n. split; auto. Qed.
Lemma new_some t t' : tsome t t' -> wsome (w_new t) (w_new t').
Proof. intros [n T]. exists n. split; auto. Qed.
Lemma select_some w w' i : wsome w w' -> wsome (w_select w i) (w_select w' i).
Proof. intro H. destruct (some_rest _ _ H) as (A & B & C). unfold w_select. rewrite A, B, C. apply some_w; auto. Qed.
Lemma select_all_some w w' : wsome w w' -> wsome (w_select_all w) (w_select_all w').
Proof. intro H. destruct (some_rest _ _ H) as (A & B & C). unfold w_select_all. rewrite B, C. apply some_w; auto. Qed.
Lemma drop_way w w' : wsome w w' -> same_way tsome (w_drop w) (w_drop w').
Proof.
  intro H. destruct (some_rest _ _ H) as (A & B & C). destruct H as [n H]. pose proof (wa_ta _ _ _ H) as T. unfold w_drop. rewrite (ta_cons _ _ _ T), A.
  destruct (_ && _); [exact I|]. exists n. auto.
Qed.
Lemma clear_raw_some w w' : wsome w w' -> wsome (clear_raw w) (clear_raw w').
Proof. intros [n H]. exists 0. eapply clear_raw_wa; eauto. Qed.
Lemma clear_some' w w' : wsome w w' -> wsome (clear w) (clear w').
Proof. intros [n H]. eapply clear_some; eauto. Qed.
Lemma apply_way w w' ev ch : wsome w w' -> same_way wsome (flush_apply pr umax w ev ch) (flush_apply pr umax w' ev ch).
Proof.
  intro H. unfold flush_apply. destruct (_ && _); [|exact H]. destruct ch as [|rows]; [apply clear_raw_some; auto|]. apply delete_rows_way; auto.
Qed.
Lemma flush_way srt w w' ev : wsome w w' -> same_way tsome (w_flush pr umax srt w ev) (w_flush pr umax srt w' ev).
Proof.
  intro H. destruct (some_rest _ _ H) as (A & B & C). unfold w_flush. rewrite A, B, C. destruct (sel_empty _); [apply drop_way; auto|].
  eapply way_bind; [apply way_eq|]. intros _ _ _. eapply way_bind; [apply apply_way; apply new_some; apply some_tab; auto|]. intros a b R.
  destruct (some_rest _ _ R) as (A1 & _). rewrite A1. eapply way_bind; [apply way_eq|]. intros _ _ _. apply drop_way; auto.
Qed.
Lemma live_flush_way srt w w' ev : wsome w w' -> same_way wsome (w_live_flush pr umax srt w ev) (w_live_flush pr umax srt w' ev).
Proof.
  intro H. destruct (some_rest _ _ H) as (A & B & C). unfold w_live_flush. rewrite A, B, C. destruct (sel_empty _); [exact H|].
  eapply way_bind; [apply way_eq|]. intros _ _ _. eapply way_bind; [apply apply_way; apply some_w; auto|]. intros a b R.
  destruct (some_rest _ _ R) as (A1 & _). rewrite A1. eapply way_bind; [apply way_eq|]. intros _ _ _. apply some_w; auto.
Qed.
Lemma remove_rows_way srt w w' ev rows : wsome w w' -> same_way tsome (w_remove_rows pr umax srt w ev rows) (w_remove_rows pr umax srt w' ev rows).
Proof.
  intro H. unfold w_remove_rows. eapply way_bind with (R := wsome); [|intros; apply flush_way; auto].
  destruct rows; [apply clear_some'; apply clear_raw_some; auto|]. apply delete_rows_way; auto.
Qed.
Lemma rm_col_way imax n : n <= S imax -> forall uglies bad c c' rows, both n c c' ->
  same_way (fun p p' => both n (fst p) (fst p') /\ snd p = snd p') (rm_col imax uglies bad c rows) (rm_col imax uglies bad c' rows).
Proof.
  intros N uglies. induction uglies as [|u us IH]; intros bad c c' rows B; cbn; [split; auto|].
  destruct (match rows with x :: _ => u =? x | [] => false end); [apply IH; auto|].
  eapply way_bind with (R := both n); [destruct (bad =? u); [exact B|apply swap_way; auto]|]. intros. apply IH; auto.
Qed.
(** How many rows are kept does not depend on the column. *)
Fixpoint rm_count (us : list nat) (bad : nat) (rows : list nat) : nat :=
  match us with
  | [] => bad
  | u :: us => if match rows with x :: _ => u =? x | [] => false end then rm_count us bad (tl rows) else rm_count us (S bad) rows
  end.
Lemma rm_col_count imax us : forall bad c rows p, rm_col imax us bad c rows = Ok p -> snd p = rm_count us bad rows.
Proof.
  induction us as [|u us IH]; intros bad c rows p H; cbn in *; [inv H; auto|].
  destruct (match rows with x :: _ => u =? x | [] => false end); [eapply IH; eauto|]. bindn H c1 E. eapply IH; eauto.
Qed.
Lemma sorted_remove_way w w' rows : wsome w w' -> same_way wsome (sorted_remove_rows w rows) (sorted_remove_rows w' rows).
Proof.
  intros [n H]. pose proof (wa_ta _ _ _ H) as T. unfold sorted_remove_rows. destruct rows as [|r0 rows0]; [exists n; auto|]. remember (r0 :: rows0) as rows. clear Heqrows.
  eapply way_bind; [apply way_eq|]. intros _ _ _. rewrite (ta_len _ _ _ T). eapply way_bind; [apply way_eq|]. intros _ _ _. rewrite (ta_imax _ _ _ T).
  set (us := seq 0 (t_len (w_tab w))). eapply way_bind; [apply (cols_way n (Nat.min (rm_count us 0 rows) n)); [exact T|]|].
  - intros c c' B. assert (N : n <= S (t_imax (w_tab w))) by apply T.
    pose proof (rm_col_way (t_imax (w_tab w)) n N us 0 c c' rows B) as Q.
    destruct (rm_col _ us 0 c rows) as [p|e] eqn:E; destruct (rm_col _ us 0 c' rows) as [p'|e'] eqn:E'; try exact Q; cbn [same_way bind] in *.
    + destruct Q as [Q1 Q2]. rewrite <- Q2, (rm_col_count _ _ _ _ _ _ E). apply truncate_way; auto.
    + contradiction.
    + destruct e; contradiction.
  - intros cs cs' [F Z]. cbn. eexists. eapply wa_tab; [eauto|]. eapply ta_cols; eauto. destruct T as (_ & _ & _ & D & _). lia.
Qed.
Lemma sorted_table_remove_way srt t t' ev rows : tsome t t' ->
  same_way tsome (sorted_table_remove_rows pr umax srt t ev rows) (sorted_table_remove_rows pr umax srt t' ev rows).
Proof.
  intro H. unfold sorted_table_remove_rows. apply new_some in H. eapply way_bind with (R := wsome); [|intros; apply flush_way; auto].
  destruct rows; [apply clear_some'; apply clear_raw_some; auto|]. apply sorted_remove_way; auto.
Qed.

(** ** Bags *)
Lemma bag_next_way w w' p : wsome w w' ->
  same_way (fun q q' => wsome (bg_w (fst q)) (bg_w (fst q')) /\ pos_of (fst q) = pos_of (fst q') /\ snd q = snd q')
    (bag_next pr umax (bag_of w p)) (bag_next pr umax (bag_of w' p)).
Proof.
  intro H. destruct (some_tab _ _ H) as [n T]. unfold bag_next, bag_of. destruct p as [[mark i] last]. cbn. rewrite (ta_len _ _ _ T), (ta_imax _ _ _ T).
  destruct (_ <=? i); [cbn; auto|].
  eapply way_bind with (R := fun b b' => wsome (bg_w b) (bg_w b') /\ pos_of b = pos_of b').
  - destruct mark; [|cbn; auto]. destruct last as [l|]; [|exact I]. eapply way_bind; [apply way_eq|]. intros j _ <-.
    eapply way_bind; [apply delete_way; eauto|]. intros a b R. cbn. auto.
  - intros b b' [R P]. injection P as P1 P2 P3. rewrite P3. destruct (bg_last b') as [l|] eqn:Q; [|exact I]. eapply way_bind; [apply way_eq|]. intros j _ <-. cbn.
    unfold pos_of. rewrite P1, P2, P3, Q. auto.
Qed.
Lemma bag_drop_way w w' p : wsome w w' -> same_way wsome (bag_drop pr umax (bag_of w p)) (bag_drop pr umax (bag_of w' p)).
Proof.
  intro H. destruct (some_tab _ _ H) as [n T]. unfold bag_drop, bag_of. destruct p as [[mark i] last]. cbn. rewrite (ta_imax _ _ _ T). destruct last as [l|]; [|exact H].
  destruct mark; [|exact H]. eapply way_bind; [apply way_eq|]. intros j _ <-. apply delete_way; auto.
Qed.
End Del.

(** ** visit, merge *)
Section Visit.
Variable pr : profile.
Context {A : Type}.
Variable f : A -> wlock -> nat -> A * action.
Hypothesis Fb : forall a w w' i, lock_alike w w' -> f a w i = f a w' i.
Lemma some_alike w w' : wsome w w' -> lock_alike w w'.
Proof. intros [n H]. eapply wa_alike; eauto. Qed.
Lemma swap_out_wv w w' i r : wsome w w' -> same_way wv (swap_out_row w i r) (swap_out_row w' i r).
Proof. intros [n H]. eapply way_weak; [|apply swap_out_row_way; eauto]. intros p p' [B C]. split; auto. exists n; auto. Qed.
Lemma push_end_wv w w' r : wsome w w' -> same_way wv (push_end_unchecked w r) (push_end_unchecked w' r).
Proof. intros [n H]. eapply way_weak; [|apply push_end_way; eauto]. intros p p' [B C]. split; auto. eexists; eauto. Qed.
Lemma fill_rug_way k : forall w w' rug front back, wsome w w' ->
  same_way (fun q q' => wsome (fst (fst q)) (fst (fst q')) /\ snd (fst q) = snd (fst q') /\ snd q = snd q') (fill_rug pr k w rug front back) (fill_rug pr k w' rug front back).
Proof.
  induction k as [|k IH]; intros w w' rug front back H; cbn; [auto|]. destruct (front <? back); [|cbn; auto]. destruct (pull_rug rug) as [[r rug']|]; [|cbn; auto].
  eapply way_bind; [apply swap_out_wv; eauto|]. intros p p' [B _]. destruct (some_tab _ _ H) as [n T]. rewrite (ta_imax _ _ _ T).
  eapply way_bind; [apply way_eq|]. intros j _ <-. apply IH; auto.
Qed.
Lemma rug_loop_way k : forall s w w' rug front back st, wsome w w' ->
  same_way (fun q q' => fst (fst q) = fst (fst q') /\ wsome (snd (fst q)) (snd (fst q')) /\ snd q = snd q')
    (rug_loop pr f k s w rug front back st) (rug_loop pr f k s w' rug front back st).
Proof.
  induction k as [|k IH]; intros s w w' rug front back st H; cbn; destruct (some_tab _ _ H) as [n T]; rewrite (ta_len _ _ _ T), ?(ta_imax _ _ _ T);
    destruct (back <? t_len (w_tab w)); cbn; auto. rewrite <- (Fb s w w' back (some_alike _ _ H)).
  set (sa := if st then (s, Break) else f s w back). destruct (snd sa) as [rm add|].
  - rewrite (ta_get _ _ _ T). eapply way_bind; [apply way_eq|]. intros r _ <-. eapply way_bind; [apply way_eq|]. intros b _ <-.
    eapply way_bind; [apply fill_rug_way; eauto|]. intros q q' (B & C & D). rewrite C, D. apply IH; auto.
  - destruct (_ && _); [cbn; auto|]. rewrite (ta_get _ _ _ T). eapply way_bind; [apply way_eq|]. intros r _ <-. eapply way_bind; [apply way_eq|]. intros b _ <-.
    eapply way_bind; [apply fill_rug_way; eauto|]. intros q q' (B & C & D). rewrite C, D. apply IH; auto.
Qed.
Lemma truncate_some w w' k : wsome w w' -> same_way wsome (truncate w k) (truncate w' k).
Proof. intros [n H]. eapply way_weak; [|apply truncate_row_way; eauto]. intros a b R. eexists; eauto. Qed.
Lemma merge0_way s w w' : wsome w w' -> same_way (fun q q' => fst q = fst q' /\ wsome (snd q) (snd q')) (merge0 pr f s w) (merge0 pr f s w').
Proof.
  intro H. unfold merge0. destruct (some_tab _ _ H) as [n T]. rewrite (ta_len _ _ _ T). eapply way_bind; [apply rug_loop_way; eauto|].
  intros q q' (B & C & D). rewrite <- D. destruct (snd q) as [[rug front]|]; [|cbn; auto]. eapply way_bind; [apply truncate_some; eauto|]. intros a b R.
  eapply way_bind with (R := wsome).
  - apply way_fold; auto. intros x y r X. eapply way_bind; [apply push_end_wv; eauto|]. intros p p' [P _]. exact P.
  - intros x y X. cbn. auto.
Qed.
End Visit.
Section Merge.
Variable pr : profile.
Variable cmp : row -> row -> comparison.
Context {A : Type}.
Variable log : A -> wlock -> nat -> A.
Hypothesis Lb : forall a w w' i, lock_alike w w' -> log a w i = log a w' i.
Lemma merge_skip_eq n t t' : ta n t t' -> forall k first c, merge_skip pr cmp k t' first c = merge_skip pr cmp k t first c.
Proof.
  intros T. induction k as [|k IH]; intros first c; cbn; rewrite (ta_len _ _ _ T); auto. destruct (c <? t_len t); auto. rewrite (ta_get _ _ _ T), (ta_imax _ _ _ T).
  destruct (t_get_row t c) as [r|]; cbn; auto. destruct (cmp r first); auto. destruct (rid_next pr (t_imax t) c); cbn; auto.
Qed.
Lemma merge_shift_way cs : forall s w w' rug iter, wsome w w' ->
  same_way (fun q q' => fst (fst (fst q)) = fst (fst (fst q')) /\ wsome (snd (fst (fst q))) (snd (fst (fst q'))) /\ snd (fst q) = snd (fst q') /\ snd q = snd q')
    (merge_shift cmp log cs s w rug iter) (merge_shift cmp log cs s w' rug iter).
Proof.
  induction cs as [|c cs IH]; intros s w w' rug iter H; cbn; [auto|]. destruct (take cmp rug iter) as [[[[sd v] rug1] iter1]|]; [|exact I].
  eapply way_bind; [apply swap_out_wv; eauto|]. intros p p' [B C]. rewrite <- C, <- (Lb s (fst p) (fst p') c (some_alike _ _ B)). apply IH; auto.
Qed.
Lemma merge_tail_way k : forall s w w' rug iter, wsome w w' ->
  same_way (fun q q' => fst q = fst q' /\ wsome (snd q) (snd q')) (merge_tail cmp log k s w rug iter) (merge_tail cmp log k s w' rug iter).
Proof.
  induction k as [|k IH]; intros s w w' rug iter H; cbn; [auto|]. destruct (take cmp rug iter) as [[[[sd v] rug1] iter1]|]; [|cbn; auto].
  eapply way_bind; [apply push_end_wv; eauto|]. intros p p' [B C]. rewrite <- C, <- (Lb s (fst p) (fst p') (snd p) (some_alike _ _ B)). apply IH; auto.
Qed.
Lemma merge_logged_way s w w' rows : wsome w w' ->
  same_way (fun q q' => fst q = fst q' /\ wsome (snd q) (snd q')) (merge_logged pr cmp log s w rows) (merge_logged pr cmp log s w' rows).
Proof.
  intro H. unfold merge_logged. destruct rows as [|first rest]; [cbn; auto|]. destruct (some_tab _ _ H) as [n T].
  rewrite (merge_skip_eq _ _ _ T), (ta_len _ _ _ T), (ta_imax _ _ _ T).
  eapply way_bind; [apply way_eq|]. intros c _ <-. eapply way_bind; [apply way_eq|]. intros e _ <-. eapply way_bind; [apply way_eq|]. intros ids _ <-.
  eapply way_bind; [apply merge_shift_way; eauto|]. intros q q' (B & C & D & E). rewrite B, D, E. apply merge_tail_way; auto.
Qed.
End Merge.
Lemma retain_way pr {A} (f : A -> wlock -> nat -> A * bool) s w w' : (forall a w w' i, lock_alike w w' -> f a w i = f a w' i) -> wsome w w' ->
  same_way (fun q q' => fst q = fst q' /\ wsome (snd q) (snd q')) (retain pr f s w) (retain pr f s w').
Proof. intros F H. unfold retain. apply merge0_way; auto. intros a x y i L. rewrite (F a x y i L). auto. Qed.
Lemma single_way pr cmp w w' r : wsome w w' -> same_way wv (merge_in_a_single_row pr cmp w r) (merge_in_a_single_row pr cmp w' r).
Proof.
  intro H. unfold merge_in_a_single_row. eapply way_bind; [apply merge_logged_way; eauto|]. intros q q' [B C]. rewrite <- B. destruct (fst q) as [|i [|]]; try exact I. split; auto.
Qed.
Lemma merge_vec_way pr cmp w w' rows : wsome w w' -> same_way wsome (merge_vec pr cmp w rows) (merge_vec pr cmp w' rows).
Proof. intro H. unfold merge_vec, merge. eapply way_bind; [apply merge_logged_way; eauto|]. intros q q' [B C]. exact C. Qed.

(** ** Programs *)
Definition sa (st st' : state) : Prop :=
  match st, st' with
  | Free t, Free t' => tsome t t'
  | Locked w its, Locked w' its' => wsome w w' /\ its = its'
  | _, _ => False
  end.
Lemma sa_tab st st' : sa st st' -> tsome (st_tab st) (st_tab st').
Proof. destruct st, st'; cbn; try tauto. intros [H _]. apply some_tab; auto. Qed.

Lemma cols_flags imax live ts : forall cs rows, cols_ok imax live ts cs rows -> map has_index cs = map is_indexed ts.
Proof.
  induction ts as [|t ts IH]; intros [|c cs] rows H; cbn in *; try tauto. destruct H as (_ & Wf & _ & H). f_equal; [|eauto]. destruct t, c; cbn in *; tauto.
Qed.
Lemma tg_flags s t : tg false s t -> map has_index (t_cols t) = map is_indexed (s_cols s).
Proof. intros (<- & live & rows & K & _). eapply cols_flags. apply K. Qed.

Section Prog2.
Variables (pr : profile) (umax : nat) (s s' : schema).
Hypothesis SI : same_but_indexes s s'.

(** A column that is indexed in both tables or in none is the same. *)
Lemma same_col t t' k : tg false s t -> tg false s' t' -> tsome t t' -> both_or_none s s' k -> nth_error (t_cols t) k = nth_error (t_cols t') k.
Proof.
  intros G G' [n (_ & C & _)] B. apply tg_flags in G. apply tg_flags in G'. unfold both_or_none in B.
  assert (E : forall k, nth_error (map has_index (t_cols t)) k = nth_error (map is_indexed (s_cols s)) k) by (intros; rewrite G; auto).
  assert (E' : forall k, nth_error (map has_index (t_cols t')) k = nth_error (map is_indexed (s_cols s')) k) by (intros; rewrite G'; auto).
  specialize (E k). specialize (E' k). rewrite !nth_error_map in E, E'.
  assert (Q : match nth_error (t_cols t) k, nth_error (t_cols t') k with Some c, Some c' => col_alike c c' | None, None => True | _, _ => False end).
  { clear - C. revert k. induction C as [|c c' cs cs' [H _] C IH]; intros [|k]; cbn; auto. apply IH. }
  destruct (nth_error (t_cols t) k) as [c|], (nth_error (t_cols t') k) as [c'|]; try contradiction; auto. f_equal.
  destruct Q as [Q|[Q N]]; auto. exfalso. apply N. cbn in E, E'.
  destruct (nth_error (s_cols s) k), (nth_error (s_cols s') k); cbn in *; congruence.
Qed.
Lemma find_way t t' k v : tg false s t -> tg false s' t' -> tsome t t' -> both_or_none s s' k -> t_find t' k v = t_find t k v.
Proof. intros G G' H B. unfold t_find. rewrite <- (same_col t t' k G G' H B). destruct H as [n T]. rewrite (ta_imax _ _ _ T). auto. Qed.
Lemma assign_way t t' k i v : tg false s t -> tg false s' t' -> tsome t t' -> both_or_none s s' k -> same_way tsome (t_assign t k i v) (t_assign t' k i v).
Proof.
  intros G G' H B. unfold t_assign. rewrite <- (same_col t t' k G G' H B). destruct (nth_error (t_cols t) k) as [[b|b ix]|] eqn:E; try exact I.
  pose proof (same_col t t' k G G' H B) as E2. rewrite E in E2. symmetry in E2. destruct H as [n T].
  assert (Ln : b_len b = n). { destruct T as (_ & C & _). clear - C E. revert k E. induction C as [|c c' cs cs' [H1 H2] C IH]; intros [|k] E; cbn in *; try discriminate; [inv E; auto|eauto]. }
  destruct (c_set (CPlain b) i v) as [c|[]] eqn:Hs; cbn [bind same_way]; auto. exists n.
  assert (Lc : c_len c = n).
  { unfold c_set in Hs. destruct (_ <=? i); [discriminate|]. cbn in Hs. bindn Hs b' Eb. inv Hs. unfold c_len. cbn. destruct b as [l|b]; cbn in Eb.
    - destruct (i <? length l); inv Eb. cbn. apply upd_length.
    - bindn Eb z Ez. bindn Eb b2 Eb2. inv Eb. unfold bc_write in Eb2. bindn Eb2 b3 Eb3. inv Eb2. unfold bc_index_mut in Eb3. destruct (nth_error _ i); inv Eb3. cbn. apply len_bcflush. }
  destruct T as (S0 & C & F & L & Z). repeat split; cbn; auto; try apply S0.
  - clear - C Lc. revert k. induction C as [|x x' cs cs' H C IH]; intros [|k]; cbn; constructor; auto. split; auto.
  - destruct (t_cols t); [congruence|]. destruct k; discriminate.
Qed.
Lemma read_checked_eq n t t' l : ta n t t' -> read_checked t' l = read_checked t l.
Proof. intro T. unfold read_checked. f_equal. apply map_res_ext. intros [i|]; auto. apply (ta_getc _ _ _ T). Qed.
Lemma read_plain_eq n t t' l : ta n t t' -> read_plain t' l = read_plain t l.
Proof. intro T. unfold read_plain. f_equal. apply map_res_ext. intros [i|]; auto. apply (ta_get _ _ _ T). Qed.
Lemma read_op_way t t' o : tg false s t -> tg false s' t' -> tsome t t' -> (forall k v, o = OFind k v -> both_or_none s s' k) ->
  same_way eq (read_op pr umax t o) (read_op pr umax t' o).
Proof.
  intros G G' H B. assert (H0 := H). destruct H as [n T]. destruct o; cbn [read_op]; try exact I.
  - rewrite (ta_get _ _ _ T). apply way_eq.
  - eapply way_bind; [apply (ta_read _ _ _ T)|]. intros; exact eq_refl.
  - rewrite (find_way t t' k v G G' H0); [apply way_eq|]. eauto.
  - rewrite (ta_last _ _ _ T). apply way_eq.
  - rewrite (ta_dump _ _ _ T). apply way_eq.
  - rewrite (ta_range _ _ _ T), (ta_imax _ _ _ T). eapply way_bind; [apply way_eq|]. intros it _ <-. eapply way_bind; [apply way_eq|]. intros l _ <-.
    rewrite (read_checked_eq _ _ _ l T). apply way_eq.
  - rewrite (ta_iter _ _ _ T), (ta_imax _ _ _ T). eapply way_bind; [apply way_eq|]. intros it _ <-. eapply way_bind; [apply way_eq|]. intros l _ <-.
    rewrite (read_checked_eq _ _ _ l T). apply way_eq.
Qed.
Lemma keep_way x y (its : list bag_pos) : same_way wsome x y ->
  same_way (fun p p' => wsome (fst p) (fst p') /\ snd p = snd p') (let* w := x in Ok (w, its)) (let* w := y in Ok (w, its)).
Proof. intro H. eapply way_bind; [exact H|]. intros a b R. cbn. auto. Qed.
Lemma tab_way w w' x y : wsome w w' -> same_way tsome x y -> same_way wsome (let* t := x in Ok (with_tab w t)) (let* t := y in Ok (with_tab w' t)).
Proof.
  intros [n H] R. eapply way_bind; [exact R|]. intros a b [m T]. exists m. eapply wa_tab; eauto.
Qed.
Lemma write_op_way w w' its o : tg false s (w_tab w) -> tg false s' (w_tab w') -> wsome w w' -> suits s s' (Do o) ->
  same_way (fun p p' => wsome (fst p) (fst p') /\ snd p = snd p') (write_op pr umax w its o) (write_op pr umax w' its o).
Proof.
  intros G G' H B. pose proof (some_tab _ _ H) as H0. assert (H1 := H0). destruct H1 as [n T].
  assert (Rd : (forall k v, o = OFind k v -> both_or_none s s' k) -> same_way (fun p p' : wlock * list bag_pos => wsome (fst p) (fst p') /\ snd p = snd p')
    (let* _ := read_op pr umax (w_tab w) o in Ok (w, its)) (let* _ := read_op pr umax (w_tab w') o in Ok (w', its))).
  { intro F. eapply way_bind; [apply read_op_way; eauto|]. intros. cbn. auto. }
  destruct o; cbn [write_op]; try (apply Rd; intros; discriminate); try (apply Rd; intros k0 v0 E; injection E as <- <-; exact B).
  - apply keep_way, live_flush_way; auto.
  - rewrite (ta_next _ _ _ T). eapply way_bind; [apply way_eq|]. intros. cbn. auto.
  - rewrite (ta_editing _ _ _ T), (ta_imax _ _ _ T). eapply way_bind; [apply way_eq|]. intros it _ <-. eapply way_bind; [apply way_eq|]. intros l _ <-.
    rewrite (read_plain_eq _ _ _ l T).
    eapply way_bind; [apply way_eq|]. intros. cbn. auto.
  - apply keep_way, tab_way; auto. apply assign_way; auto.
  - apply keep_way. eapply way_bind; [apply push_wv; eauto|]. intros p p' [P _]. exact P.
  - apply keep_way, push_all_way; auto.
  - apply keep_way. eapply way_bind; [apply push_array_way; eauto|]. intros p p' [P _]. exact P.
  - apply keep_way, delete_way; auto.
  - apply keep_way. apply select_some; auto.
  - apply keep_way. apply select_all_some; auto.
  - apply keep_way. apply clear_some'; auto.
  - apply keep_way. apply clear_raw_some; auto.
  - apply keep_way, sorted_remove_way; auto.
  - apply keep_way. eapply way_bind; [apply retain_way; eauto|]. intros p p' [_ P]. exact P.
  - apply keep_way. eapply way_bind; [apply merge0_way; eauto|]. intros p p' [_ P]. exact P.
  - apply keep_way. eapply way_bind; [apply merge_logged_way; eauto|]. intros p p' [_ P]. exact P.
  - apply keep_way, merge_vec_way; auto.
  - apply keep_way. eapply way_bind; [apply single_way; eauto|]. intros p p' [P _]. exact P.
  - cbn. auto.
  - destruct (nth_error its k) as [p|]; [|exact I]. eapply way_bind; [apply bag_next_way; eauto|]. intros q q' (P & Q & _). cbn. rewrite Q. auto.
  - destruct (nth_error its k) as [p|]; [|exact I]. cbn. auto.
  - destruct (nth_error its k) as [p|]; [|exact I]. eapply way_bind; [apply bag_drop_way; eauto|]. intros a b R. cbn. auto.
Qed.
Lemma step_way st st' o : tg false s (st_tab st) -> tg false s' (st_tab st') -> sa st st' -> suits s s' (Do o) -> same_way sa (step pr umax st o) (step pr umax st' o).
Proof.
  intros G G' H B. unfold step. destruct (sa_tab _ _ H) as [n T]. rewrite (ta_kind _ _ _ T). destruct (avail _ o) eqn:Av; [|exact I].
  assert (Fd : forall k v, o = OFind k v -> both_or_none s s' k) by (intros k v ->; exact B).
  destruct st as [t|w its], st' as [t'|w' its']; cbn in H; try tauto; cbn [st_tab] in *.
  - assert (Rd : same_way sa (let* _ := read_op pr umax t o in Ok (Free t)) (let* _ := read_op pr umax t' o in Ok (Free t'))).
    { eapply way_bind; [apply read_op_way; eauto|]. intros. exact H. }
    destruct o; try exact Rd; try exact I.
    + cbn. split; auto. apply new_some; auto.
    + rewrite (ta_kind _ _ _ T). eapply way_bind with (R := tsome); [|intros a b R; exact R].
      destruct (t_kind t); try (apply remove_rows_way; apply new_some; auto). apply sorted_table_remove_way; auto.
  - destruct H as [H <-]. assert (Wr : same_way sa (let* p := write_op pr umax w its o in Ok (Locked (fst p) (snd p))) (let* p := write_op pr umax w' its o in Ok (Locked (fst p) (snd p)))).
    { eapply way_bind; [apply write_op_way; eauto|]. intros p p' R. exact R. }
    destruct its as [|p0 its]; destruct o; try exact Wr; try exact I.
    + eapply way_bind; [apply drop_way; eauto|]. intros a b R. exact R.
    + eapply way_bind; [apply flush_way; eauto|]. intros a b R. exact R.
    + rewrite (ta_kind _ _ _ T). destruct (t_kind (w_tab w)); try exact I. eapply way_bind; [apply remove_rows_way; eauto|]. intros a b R. exact R.
Qed.
Lemma shown_eq w w' i : lock_alike w w' -> shown w i = shown w' i.
Proof.
  intros ((S0 & C & F) & _). unfold shown. assert (E : t_get_row (w_tab w) i = t_get_row (w_tab w') i); [|rewrite E; auto].
  unfold t_get_row, t_check, t_is_deleted, t_consistent, t_kind, t_len, t_get_row_raw. destruct S0 as (-> & _). rewrite F.
  assert (E : map_res (fun c => c_index c i) (t_cols (w_tab w)) = map_res (fun c => c_index c i) (t_cols (w_tab w'))).
  { clear - C. induction C; cbn; auto. rewrite IHC. unfold c_index. rewrite (alike_base _ _ H). auto. }
  assert (L : match t_cols (w_tab w) with [] => 0 | c :: _ => c_len c end = match t_cols (w_tab w') with [] => 0 | c :: _ => c_len c end).
  { clear - C. destruct C; auto. apply alike_len; auto. }
  rewrite L. destruct (_ <=? i); auto. destruct (_ && _); auto.
Qed.
Lemma suits_op c : suits s s' c -> suits s s' (Do (op_of c)).
Proof.
  destruct c; cbn; auto; intros _ a w w' i L.
  - rewrite (shown_eq _ _ _ L). auto.
  - rewrite (shown_eq _ _ _ L). auto.
Qed.
Lemma items_way t t' l : tsome t t' -> items (t_get_row_checked t') l = items (t_get_row_checked t) l /\ items (t_get_row t') l = items (t_get_row t) l.
Proof.
  intros [n T]. unfold items. split; f_equal; apply map_res_ext; intros [i|]; auto; [apply (ta_getc _ _ _ T)|apply (ta_get _ _ _ T)].
Qed.
Lemma answer_way st st' c : tg false s (st_tab st) -> tg false s' (st_tab st') -> sa st st' -> suits s s' c -> same_way eq (answer_of pr umax st c) (answer_of pr umax st' c).
Proof.
  intros G G' H B. pose proof (sa_tab _ _ H) as T0. assert (T1 := T0). destruct T1 as [n T].
  destruct c as [o| | |cmp rows]; [destruct o|..]; cbn [answer_of]; try exact eq_refl;
    try (destruct st as [t|w its], st' as [t'|w' its']; cbn in H; try tauto; try exact eq_refl; cbn [st_tab] in *; destruct H as [H <-]).
  - rewrite (ta_get _ _ _ T). apply way_eq.
  - eapply way_bind; [apply (ta_read _ _ _ T)|]. intros a _ <-. exact eq_refl.
  - rewrite (find_way _ _ k v G G' T0 B). apply way_eq.
  - rewrite (ta_last _ _ _ T). apply way_eq.
  - rewrite (ta_next _ _ _ T). apply way_eq.
  - rewrite (ta_dump _ _ _ T). apply way_eq.
  - rewrite (ta_range _ _ _ T), (ta_imax _ _ _ T). eapply way_bind; [apply way_eq|]. intros it _ <-. eapply way_bind; [apply way_eq|]. intros l _ <-.
    rewrite (proj1 (items_way _ _ l T0)). apply way_eq.
  - rewrite (ta_iter _ _ _ T), (ta_imax _ _ _ T). eapply way_bind; [apply way_eq|]. intros it _ <-. eapply way_bind; [apply way_eq|]. intros l _ <-.
    rewrite (proj1 (items_way _ _ l T0)). apply way_eq.
  - rewrite (ta_editing _ _ _ T), (ta_imax _ _ _ T). eapply way_bind; [apply way_eq|]. intros it _ <-. eapply way_bind; [apply way_eq|]. intros l _ <-.
    rewrite (proj2 (items_way _ _ l T0)). apply way_eq.
  - eapply way_bind; [apply push_wv; eauto|]. intros p p' [_ ->]. exact eq_refl.
  - eapply way_bind; [apply push_array_way; eauto|]. intros p p' [_ ->]. exact eq_refl.
  - eapply way_bind; [apply single_way; eauto|]. intros p p' [_ ->]. exact eq_refl.
  - eapply way_bind; [apply merge_logged_way; eauto|]. intros p p' [-> _]. exact eq_refl.
Qed.
Lemma talks_way cs : forall st st', tg false s (st_tab st) -> tg false s' (st_tab st') -> sa st st' ->
  Forall (suits s s') cs -> Forall (fun c => op_ty (s_cols s) (op_of c)) cs -> Forall (fun c => op_ty (s_cols s') (op_of c)) cs ->
  same_way eq (talks pr umax st cs) (talks pr umax st' cs).
Proof.
  induction cs as [|c cs IH]; intros st st' G G' H F Ty Ty'; cbn; [auto|]. inv F. inv Ty. inv Ty'.
  pose proof (step_way st st' (op_of c) G G' H (suits_op _ H2)) as Q.
  destruct (step pr umax st (op_of c)) as [st1|e] eqn:E; destruct (step pr umax st' (op_of c)) as [st2|e'] eqn:E'; try exact Q; cbn [bind same_way] in *; try (destruct e; contradiction); try contradiction.
  eapply way_bind; [apply answer_way; eauto|]. intros a _ <-. eapply way_bind; [apply (IH st1 st2); auto|].
  - eapply step_tg; [exact G|eauto|discriminate|exact E].
  - eapply step_tg; [exact G'|eauto|discriminate|exact E'].
  - intros l _ <-. exact eq_refl.
Qed.
End Prog2.

Lemma row_ty_base ts ts' r : map ct_base ts = map ct_base ts' -> row_ty ts r -> row_ty ts' r.
Proof.
  unfold row_ty. intros E H. revert ts' E. induction H; intros [|t' ts'] E; cbn in *; try discriminate; constructor; injection E as E1 E2; [congruence|auto].
Qed.
Lemma op_ty_base ts ts' o : map ct_base ts = map ct_base ts' -> op_ty ts o -> op_ty ts' o.
Proof.
  intros E. assert (R : forall rs, Forall (row_ty ts) rs -> Forall (row_ty ts') rs) by (intros rs; apply Forall_impl; intros; eapply row_ty_base; eauto).
  destruct o; cbn; auto; intro H; try (eapply row_ty_base; eauto; fail).
  - intros t Ht. assert (X : nth_error (map ct_base ts') k = Some (ct_base t)) by (rewrite nth_error_map, Ht; auto).
    rewrite <- E, nth_error_map in X. destruct (nth_error ts k) as [t0|] eqn:E0; [|discriminate]. cbn in X. injection X as <-. auto.
  - intros s0 w i s1 rm add X. apply R. eauto.
Qed.
Lemma new_ta s s' : same_but_indexes s s' -> s_cols s <> [] -> ta 0 (t_new s) (t_new s').
Proof.
  intros (K & M & C) Z. split; [split; auto|]. cbn. split; [|split; auto; split; [lia|]].
  - clear - C. revert C. generalize (s_cols s'). induction (s_cols s) as [|t ts IH]; intros [|t' ts'] C; try discriminate; cbn; constructor; injection C as C1 C2; auto.
    split.
    + destruct t as [b|b], t' as [b'|b']; cbn in C1; subst; try (left; auto; fail); right; cbn; split; auto; discriminate.
    + destruct t as [[]|[]]; reflexivity.
  - destruct (s_cols s); [congruence|discriminate].
Qed.
Theorem talks_alike pr umax s s' cs : same_but_indexes s s' -> s_cols s <> [] -> Forall (fun c => op_ty (s_cols s) (op_of c)) cs -> Forall (suits s s') cs ->
  same_way eq (talks pr umax (Free (t_new s)) cs) (talks pr umax (Free (t_new s')) cs).
Proof.
  intros SI Z Ty F. assert (Z' : s_cols s' <> []). { destruct SI as (_ & _ & C). intro E. rewrite E in C. destruct (s_cols s); [congruence|discriminate]. }
  assert (N : forall s, s_cols s <> [] -> tg false s (t_new s)).
  { intros s0 H0. split; auto. exists (fun _ => true), []. split; [apply t_new_ok; auto|discriminate]. }
  apply (talks_way pr umax s s'); auto; try (cbn; apply N; auto).
  - exists 0. apply new_ta; auto.
  - eapply Forall_impl; [|exact Ty]. intros c Hc. eapply op_ty_base; [|exact Hc]. apply SI.
Qed.
