(** Proofs about columns and locks (for C102). *)
From Coq Require Import List Arith Bool Lia.
From Verif Require Import Base BaseFacts Context ContextUnwind ColLoan ColLoanSpec.
Import ListNotations.

Lemma l_nth_ne {A} (l : list A) p q x y : q <> p -> nth q (upd l p x) y = nth q l y.
Proof.
  intros D. revert p q D. induction l as [|z l IH]; intros [|p] [|q] D; cbn; try reflexivity; [congruence|]. apply IH. congruence.
Qed.
Lemma l_nth_eq {A} (l : list A) p x y : p < length l -> nth p (upd l p x) y = x.
Proof. revert p. induction l as [|z l IH]; intros [|p] L; cbn in *; try lia; [reflexivity|]. apply IH. lia. Qed.
Lemma l_nth_upd {A} (l : list A) p q x y : nth q (upd l p x) y = if (q =? p) && (p <? length l) then x else nth q l y.
Proof.
  destruct (Nat.eqb_spec q p) as [->|D]; cbn [andb]; [|apply l_nth_ne; exact D].
  destruct (Nat.ltb_spec p (length l)) as [L|L]; [apply l_nth_eq; exact L|]. rewrite upd_oob by exact L. reflexivity.
Qed.

Section Types.
Variable types : list nat.
Notation n := (length types).

Lemma var_in s v x : the_var s v = Some x -> In (Some x) (lw_vars s).
Proof. unfold the_var. destruct (nth_error (lw_vars s) v) as [y|] eqn:E; [|discriminate]. intros ->. eapply nth_error_In, E. Qed.
Lemma var_nth s v x : the_var s v = Some x <-> nth_error (lw_vars s) v = Some (Some x).
Proof. unfold the_var. destruct (nth_error (lw_vars s) v) as [[y|]|]; split; congruence. Qed.
Lemma locks_in s u x : In x (locks_on s u) <-> In (Some x) (lw_vars s) /\ lv_uni x = u.
Proof.
  unfold locks_on. rewrite in_flat_map. split.
  - intros ([y|] & H & K); [|destruct K]. destruct (Nat.eqb_spec (lv_uni y) u); [|destruct K]. destruct K as [<-|[]]. auto.
  - intros [H E]. exists (Some x). split; [exact H|]. rewrite (proj2 (Nat.eqb_eq _ _) E). left. reflexivity.
Qed.

(** The state of a program that swaps at home: *)
Definition flat (t : list (list nat)) : Prop := length t = n /\ exists m, Forall (fun c => length c = m) t.
Record fine (s : lworld) : Prop := {
  f_tabs : Forall flat (lw_tabs s);
  f_period : length (lw_period s) = length (lw_tabs s);
  f_home : forall v x, the_var s v = Some x -> lv_uni x < length (lw_tabs s) /\ length (lv_cols x) = n /\
    Forall (fun h => hd_uni h = lv_uni x /\ hd_period h = period s (lv_uni x) /\ hd_col h < n) (lv_cols x);
  f_whole : forall v x, the_var s v = Some x -> lv_write x = true -> NoDup (map hd_col (lv_cols x));
  f_alone : forall v x v' x', the_var s v = Some x -> the_var s v' = Some x' -> lv_uni x = lv_uni x' -> lv_write x = true -> v = v' }.

Lemma fine_idle s : idle types s -> fine s.
Proof.
  intros (T & P & V). split; auto; unfold the_var; rewrite V; intros [|v] x; discriminate.
Qed.
Lemma home_valid s v x h : fine s -> the_var s v = Some x -> In h (lv_cols x) -> valid s h = true.
Proof.
  intros F V H. destruct (f_home _ F _ _ V) as (_ & _ & A). rewrite Forall_forall in A. destruct (A _ H) as (U & P & _).
  unfold valid. rewrite P, U, Nat.eqb_refl, andb_true_r. apply negb_true_iff, Nat.eqb_neq. intros Z.
  assert (In x (locks_on s (lv_uni x))) as I by (apply locks_in; split; [eapply var_in, V|reflexivity]).
  destruct (locks_on s (lv_uni x)); [destruct I|discriminate].
Qed.
(** The length of a table. *)
Lemma flat_len s u : Forall flat (lw_tabs s) -> u < length (lw_tabs s) -> exists m, forall k, k < n -> length (nth k (nth u (lw_tabs s) []) []) = m.
Proof.
  intros T L. rewrite Forall_forall in T. destruct (T (nth u (lw_tabs s) [])) as (Len & m & M); [apply nth_In; exact L|].
  exists m. intros k K. rewrite Forall_forall in M. apply M, nth_In. lia.
Qed.
Lemma index_fine s v x k i c : fine s -> the_var s v = Some x -> k < n ->
  (exists h, l_index s x k i c = Done h /\ nth_error (lv_cols x) k = Some h /\ i < length (column s h)) \/ l_index s x k i c = Unwound PIndexOOB /\
  forall h, nth_error (lv_cols x) k = Some h -> length (column s h) <= i.
Proof.
  intros F V K. destruct (f_home _ F _ _ V) as (U & Len & A). rewrite Forall_forall in A. unfold l_index.
  destruct (nth_error_lt_Some (lv_cols x) k) as (h & E); [lia|]. rewrite E. destruct (nth_error_lt_Some (lv_cols x) 0) as (h0 & E0); [lia|]. rewrite E0.
  pose proof (nth_error_In _ _ E) as I. pose proof (nth_error_In _ _ E0) as I0.
  rewrite (home_valid _ _ _ _ F V I), (home_valid _ _ _ _ F V I0). cbn [negb]. rewrite andb_false_r.
  destruct (flat_len s (lv_uni x) (f_tabs _ F) U) as (m & M).
  assert (length (column s h) = m) as Lh. { destruct (A _ I) as (a & _ & b). unfold column. rewrite a. apply M, b. }
  assert (length (column s h0) = m) as Lh0. { destruct (A _ I0) as (a & _ & b). unfold column. rewrite a. apply M, b. }
  rewrite Lh, Lh0. destruct (Nat.ltb_spec i m) as [Q|Q]; cbn [negb]; rewrite ?andb_false_r, ?andb_true_r.
  - left. exists h. split; [reflexivity|]. split; [reflexivity|]. rewrite Lh. exact Q.
  - right. split; [destruct c; reflexivity|]. intros h' E'. injection E' as <-. rewrite Lh. exact Q.
Qed.

(** Changing what a column contains. *)
Lemma column_set s h l h' : hd_uni h < length (lw_tabs s) -> hd_col h < length (nth (hd_uni h) (lw_tabs s) []) ->
  column (set_column s h l) h' = if (hd_uni h' =? hd_uni h) && (hd_col h' =? hd_col h) then l else column s h'.
Proof.
  intros U C. unfold column, set_column; cbn [lw_tabs]. rewrite l_nth_upd. rewrite (proj2 (Nat.ltb_lt _ _) U), andb_true_r.
  destruct (Nat.eqb_spec (hd_uni h') (hd_uni h)) as [->|D]; cbn [andb]; [|reflexivity].
  rewrite l_nth_upd, (proj2 (Nat.ltb_lt _ _) C), andb_true_r. reflexivity.
Qed.
Lemma fine_tabs s T : fine s -> Forall flat T -> length T = length (lw_tabs s) -> fine (LW T (lw_period s) (lw_vars s)).
Proof.
  intros F FT L. split; cbn [lw_tabs lw_period lw_vars]; auto.
  - rewrite L. apply F.
  - intros v x V. rewrite L. exact (f_home _ F _ _ V).
  - exact (f_whole _ F).
  - exact (f_alone _ F).
Qed.
Lemma Forall_upd {A} (P : A -> Prop) l i x : Forall P l -> P x -> Forall P (upd l i x).
Proof. intros H X. revert i. induction H; intros [|i]; cbn; constructor; auto. Qed.
Lemma set_fine s v x h i y : fine s -> the_var s v = Some x -> In h (lv_cols x) -> fine (set_column s h (upd (column s h) i y)).
Proof.
  intros F V I. destruct (f_home _ F _ _ V) as (U & _ & A). rewrite Forall_forall in A. destruct (A _ I) as (a & _ & b).
  apply (fine_tabs s _ F); [|cbn; apply upd_length]. rewrite a. pose proof (f_tabs _ F) as T.
  apply Forall_upd; [exact T|]. rewrite Forall_forall in T. destruct (T (nth (lv_uni x) (lw_tabs s) [])) as (Len & m & M); [apply nth_In; exact U|].
  split; [rewrite upd_length; exact Len|]. exists m. apply Forall_upd; [exact M|]. rewrite upd_length. unfold column. rewrite a.
  rewrite Forall_forall in M. apply M, nth_In. lia.
Qed.

(** Pushing, with references to different columns of one universe. *)
Lemma valid_set s h l h' : valid (set_column s h l) h' = valid s h'.
Proof. reflexivity. Qed.
Lemma push_done hs : forall row s u, length hs = length row -> u < length (lw_tabs s) -> length (nth u (lw_tabs s) []) = n ->
  Forall (fun h => hd_uni h = u /\ hd_col h < n /\ valid s h = true) hs -> NoDup (map hd_col hs) ->
  exists s', l_push s hs row = (s', Done tt) /\ lw_period s' = lw_period s /\ lw_vars s' = lw_vars s /\ length (lw_tabs s') = length (lw_tabs s) /\
    (forall q, q <> u -> nth q (lw_tabs s') [] = nth q (lw_tabs s) []) /\ length (nth u (lw_tabs s') []) = n /\
    (forall k, nth k (nth u (lw_tabs s') []) [] = nth k (nth u (lw_tabs s) []) [] ++ flat_map (fun p => if hd_col (fst p) =? k then [snd p] else []) (combine hs row)).
Proof.
  induction hs as [|h hs IH]; intros [|x row] s u L U N A D; try discriminate.
  - exists s. cbn. repeat split; auto. intros k. rewrite app_nil_r. reflexivity.
  - inversion A as [|? ? (a & b & c) A']; subst. cbn [map] in D. apply NoDup_cons_iff in D. destruct D as [D0 D]. cbn [l_push]. rewrite c.
    set (s1 := set_column s h (column s h ++ [x])).
    assert (length (lw_tabs s1) = length (lw_tabs s)) as L1 by (unfold s1, set_column; cbn [lw_tabs]; apply upd_length).
    assert (nth (hd_uni h) (lw_tabs s1) [] = upd (nth (hd_uni h) (lw_tabs s) []) (hd_col h) (column s h ++ [x])) as E1.
    { unfold s1, set_column; cbn [lw_tabs]. apply l_nth_eq, U. }
    destruct (IH row s1 (hd_uni h)) as (s' & E & P & V & LT & O & N' & C).
    + cbn in L. lia.
    + rewrite L1. exact U.
    + rewrite E1, upd_length. exact N.
    + exact A'.
    + exact D.
    + exists s'. split; [exact E|]. split; [exact P|]. split; [exact V|]. split; [lia|]. split.
      { intros q Q. rewrite (O q Q). unfold s1, set_column; cbn [lw_tabs]. apply l_nth_ne, Q. }
      split; [exact N'|]. intros k. rewrite (C k), E1, l_nth_upd, N, (proj2 (Nat.ltb_lt _ _) b), andb_true_r. cbn [combine flat_map fst snd].
      rewrite (Nat.eqb_sym (hd_col h) k). destruct (Nat.eqb_spec k (hd_col h)) as [->|K]; [|reflexivity].
      unfold column. rewrite <- app_assoc. reflexivity.
Qed.
Lemma one_each hs (row : list nat) k : NoDup (map hd_col hs) -> length hs = length row -> In k (map hd_col hs) ->
  length (flat_map (fun p => if hd_col (fst p) =? k then [snd p] else []) (combine hs row)) = 1.
Proof.
  revert row. induction hs as [|h hs IH]; intros [|x row] D L I; try discriminate; [destruct I|].
  cbn [map] in D, I. apply NoDup_cons_iff in D. destruct D as [D0 D]. cbn [combine flat_map fst snd]. rewrite app_length.
  destruct (Nat.eqb_spec (hd_col h) k) as [E|E].
  - cbn. f_equal. clear IH I L. revert row. induction hs as [|g hs IH]; intros [|y row]; cbn; auto.
    cbn in D0, D. apply NoDup_cons_iff in D. destruct (Nat.eqb_spec (hd_col g) k) as [G|G]; [exfalso; apply D0; left; congruence|]. cbn.
    apply IH; tauto.
  - destruct I as [I|I]; [congruence|]. cbn. apply IH; auto; cbn in L; lia.
Qed.
Lemma all_cols (l : list nat) : NoDup l -> length l = n -> (forall k, In k l -> k < n) -> forall k, k < n -> In k l.
Proof.
  intros D L B k K. assert (incl (seq 0 n) l) as I; [|apply I, in_seq; lia].
  apply NoDup_length_incl; [exact D|rewrite seq_length; lia|]. intros j J. apply in_seq. specialize (B j J). lia.
Qed.
Lemma push_fine s v x row : fine s -> the_var s v = Some x -> lv_write x = true -> length row = n ->
  exists s', l_push s (lv_cols x) row = (s', Done tt) /\ fine s'.
Proof.
  intros F V W R. destruct (f_home _ F _ _ V) as (U & Len & A). pose proof (f_whole _ F _ _ V W) as D.
  pose proof (f_tabs _ F) as T. rewrite Forall_forall in T. destruct (T (nth (lv_uni x) (lw_tabs s) [])) as (N & m & M); [apply nth_In; exact U|].
  destruct (push_done (lv_cols x) row s (lv_uni x)) as (s' & E & P & Vs & LT & O & N' & C); auto; [lia| |].
  { rewrite Forall_forall in *. intros h I. destruct (A h I) as (a & _ & b). repeat split; auto. eapply home_valid; eauto. }
  exists s'. split; [exact E|]. destruct s' as [T' P' V']. cbn in *. subst P' V'. apply fine_tabs; [exact F| |exact LT].
  apply Forall_forall. intros t I. destruct (In_nth _ _ [] I) as (q & Q & <-). destruct (Nat.eq_dec q (lv_uni x)) as [->|Z].
  - split; [exact N'|]. exists (S m). apply Forall_forall. intros c Ic. destruct (In_nth _ _ [] Ic) as (k & K & <-). rewrite N' in K.
    rewrite C, app_length, one_each; [|exact D|lia|].
    + rewrite Forall_forall in M. rewrite (M (nth k (nth (lv_uni x) (lw_tabs s) []) [])); [lia|]. apply nth_In. lia.
    + apply all_cols; [exact D|rewrite map_length; exact Len| |exact K]. intros j J. apply in_map_iff in J. destruct J as (h & <- & J).
      rewrite Forall_forall in A. apply (A h J).
  - rewrite (O q Z). apply T, nth_In. lia.
Qed.

(** Locking and dropping. *)
Lemma var_snoc s T P x v y : the_var (LW T P (lw_vars s ++ [Some x])) v = Some y -> the_var s v = Some y \/ v = length (lw_vars s) /\ y = x.
Proof.
  rewrite !var_nth. cbn [lw_vars]. intros E. destruct (lt_dec v (length (lw_vars s))) as [L|L].
  - rewrite nth_error_app1 in E by exact L. left. exact E.
  - rewrite nth_error_app2 in E by lia. destruct (v - length (lw_vars s)) as [|d] eqn:Q; [|destruct d; discriminate]. cbn in E. injection E as <-.
    right. split; [lia|reflexivity].
Qed.
Lemma lock_fine s u w : fine s -> u < length (lw_tabs s) -> existsb (fun x => w || lv_write x) (locks_on s u) = false ->
  fine (LW (lw_tabs s) (lw_period s) (lw_vars s ++ [Some (convert_guard types s u w)])).
Proof.
  intros F U B. assert (forall v x, the_var s v = Some x -> lv_uni x = u -> w = false /\ lv_write x = false) as Q.
  { intros v x V E. apply orb_false_iff. destruct (w || lv_write x) eqn:Z; [|reflexivity]. rewrite <- B. symmetry. apply existsb_exists.
    exists x. split; [|exact Z]. apply locks_in. split; [eapply var_in, V|exact E]. }
  split; cbn [lw_tabs lw_period lw_vars]; try apply F.
  - intros v x V. destruct (var_snoc _ _ _ _ _ _ V) as [O|[-> ->]]; [exact (f_home _ F _ _ O)|].
    cbn [convert_guard lv_uni lv_cols]. split; [exact U|]. split; [rewrite map_length, seq_length; reflexivity|].
    apply Forall_forall. intros h I. apply in_map_iff in I. destruct I as (k & <- & I). apply in_seq in I. cbn. repeat split; lia.
  - intros v x V W. destruct (var_snoc _ _ _ _ _ _ V) as [O|[-> ->]]; [exact (f_whole _ F _ _ O W)|].
    cbn [convert_guard lv_cols]. rewrite map_map. cbn. rewrite map_id. apply seq_NoDup.
  - intros v x v' x' V V' E W. destruct (var_snoc _ _ _ _ _ _ V) as [O|[-> ->]], (var_snoc _ _ _ _ _ _ V') as [O'|[-> ->]].
    + exact (f_alone _ F _ _ _ _ O O' E W).
    + exfalso. cbn in E. destruct (Q _ _ O E). congruence.
    + exfalso. cbn in E. destruct (Q _ _ O' (eq_sym E)). cbn in W. congruence.
    + reflexivity.
Qed.
Lemma var_set s v x y v' : the_var s v <> None -> the_var (set_var s v x) v' = Some y <-> if v' =? v then x = Some y else the_var s v' = Some y.
Proof.
  intros N. rewrite !var_nth. cbn [set_var lw_vars]. destruct (Nat.eqb_spec v' v) as [->|D].
  - rewrite nth_error_upd_eq; [split; congruence|]. unfold the_var in N. destruct (nth_error (lw_vars s) v) eqn:E; [eapply nth_error_Some_lt, E|congruence].
  - rewrite nth_error_upd_ne by congruence. symmetry; apply var_nth.
Qed.
Lemma drop_fine s v x : fine s -> the_var s v = Some x -> fine (fst (l_step types s (LDrop v))).
Proof.
  intros F V. cbn [l_step]. rewrite V. cbn [fst]. assert (the_var s v <> None) as N by congruence.
  assert (forall w y, the_var (set_var s v None) w = Some y -> w <> v /\ the_var s w = Some y) as S.
  { intros w y. rewrite (var_set s v None y w N). destruct (Nat.eqb_spec w v); [discriminate|auto]. }
  destruct (Nat.eqb_spec (length (locks_on (set_var s v None) (lv_uni x))) 0) as [Z|Z].
  - assert (forall w y, the_var (set_var s v None) w = Some y -> lv_uni y <> lv_uni x) as NU.
    { intros w y W E. assert (In y (locks_on (set_var s v None) (lv_uni x))) as I by (apply locks_in; split; [eapply var_in, W|exact E]).
      destruct (locks_on (set_var s v None) (lv_uni x)); [destruct I|discriminate]. }
    split; cbn [lw_tabs lw_period lw_vars set_var].
    + apply F.
    + rewrite upd_length. apply F.
    + intros w y W. change (the_var (set_var s v None) w = Some y) in W. pose proof (NU _ _ W) as U. apply S in W. destruct W as [_ W].
      destruct (f_home _ F _ _ W) as (a & b & c). split; [exact a|]. split; [exact b|]. unfold period; cbn [lw_period]. rewrite l_nth_ne by exact U. exact c.
    + intros w y W. change (the_var (set_var s v None) w = Some y) in W. apply S in W. apply (f_whole _ F w y), W.
    + intros w y w' y' W W'. change (the_var (set_var s v None) w = Some y) in W. change (the_var (set_var s v None) w' = Some y') in W'.
      apply S in W. apply S in W'. apply (f_alone _ F w y w' y'); tauto.
  - split; cbn [lw_tabs lw_period lw_vars set_var]; try apply F.
    + intros w y W. apply S in W. apply (f_home _ F w y), W.
    + intros w y W. apply S in W. apply (f_whole _ F w y), W.
    + intros w y w' y' W W'. apply S in W. apply S in W'. apply (f_alone _ F w y w' y'); tauto.
Qed.

(** Swapping. *)
Lemma nodup_swap {A} (l : list A) k k' a b : NoDup l -> nth_error l k = Some a -> nth_error l k' = Some b -> NoDup (upd (upd l k b) k' a).
Proof.
  intros D K K'. pose proof (nth_error_Some_lt _ _ _ K) as L. pose proof (nth_error_Some_lt _ _ _ K') as L'.
  set (f := fun q => if q =? k' then k else if q =? k then k' else q).
  assert (forall q, nth_error (upd (upd l k b) k' a) q = nth_error l (f q)) as R.
  { intros q. unfold f. destruct (Nat.eqb_spec q k') as [->|Q]; [rewrite K; apply nth_error_upd_eq; rewrite upd_length; exact L'|].
    rewrite nth_error_upd_ne by congruence. destruct (Nat.eqb_spec q k) as [->|Z]; [rewrite K'; apply nth_error_upd_eq; exact L|apply nth_error_upd_ne; congruence]. }
  apply NoDup_nth_error. intros i j. rewrite !upd_length, !R. intros Li E. rewrite NoDup_nth_error in D.
  assert (f i = f j) as Q.
  { apply D; [|exact E]. unfold f. destruct (i =? k'); [exact L|]. destruct (i =? k); [exact L'|exact Li]. }
  unfold f in Q. destruct (Nat.eqb_spec i k'), (Nat.eqb_spec j k'), (Nat.eqb_spec i k), (Nat.eqb_spec j k); congruence.
Qed.
Lemma swap_fine s v k v' k' x x' : fine s -> the_var s v = Some x -> the_var s v' = Some x' -> lv_write x = lv_write x' -> k < n -> k' < n ->
  lv_uni x = lv_uni x' -> exists s', l_step types s (LSwap v k v' k') = (s', Done None) /\ fine s'.
Proof.
  intros F V V' W K K' U. cbn [l_step]. rewrite V, V'. destruct (f_home _ F _ _ V) as (B & Len & A). destruct (f_home _ F _ _ V') as (B' & Len' & A').
  destruct (nth_error_lt_Some (lv_cols x) k) as (h & E); [lia|]. destruct (nth_error_lt_Some (lv_cols x') k') as (h' & E'); [lia|]. rewrite E, E'.
  set (y := LV (lv_uni x) (lv_write x) (upd (lv_cols x) k h')). set (s1 := set_var s v (Some y)).
  assert (the_var s v <> None) as N by congruence.
  pose proof (fun z w => var_set s v (Some y) z w N) as R. fold s1 in R.
  assert (forall z, In z (lv_cols x) \/ In z (lv_cols x') -> hd_uni z = lv_uni x /\ hd_period z = period s (lv_uni x) /\ hd_col z < n) as AA.
  { rewrite Forall_forall in A, A'. intros z [I|I]; [apply A, I|]. rewrite U. apply A', I. }
  assert (In h (lv_cols x)) as Ih by (eapply nth_error_In, E). assert (In h' (lv_cols x')) as Ih' by (eapply nth_error_In, E').
  assert (forall q z (l : list handle) w, In w (upd l q z) -> w = z \/ In w l) as UI.
  { intros q z l w Hw. destruct (In_nth_error _ _ Hw) as (j & J). destruct (Nat.eq_dec j q) as [->|Z].
    - destruct (lt_dec q (length l)) as [L|L]; [rewrite nth_error_upd_eq in J by exact L; left; congruence|].
      rewrite upd_oob in J by lia. right. eapply nth_error_In, J.
    - rewrite nth_error_upd_ne in J by congruence. right. eapply nth_error_In, J. }
  destruct (Nat.eq_dec v v') as [<-|D].
  - assert (x' = x) as -> by congruence. assert (the_var s1 v = Some y) as Y by (apply R; rewrite Nat.eqb_refl; reflexivity). rewrite Y.
    eexists. split; [reflexivity|]. set (y2 := LV (lv_uni y) (lv_write y) (upd (lv_cols y) k' h)).
    assert (forall w z, the_var (set_var s1 v (Some y2)) w = Some z -> if w =? v then z = y2 else the_var s w = Some z) as S.
    { intros w z Q. apply var_set in Q; [|congruence]. destruct (Nat.eqb_spec w v) as [->|]; [congruence|]. apply R in Q.
      destruct (Nat.eqb_spec w v); [congruence|exact Q]. }
    split; cbn [lw_tabs lw_period set_var s1]; try apply F.
    + intros w z Q. apply S in Q. destruct (w =? v); [subst z|exact (f_home _ F _ _ Q)]. cbn [y2 y lv_uni lv_cols].
      split; [exact B|]. split; [rewrite !upd_length; exact Len|]. apply Forall_forall. intros g Hg. apply AA.
      apply UI in Hg. destruct Hg as [->|Hg]; [auto|]. apply UI in Hg. destruct Hg as [->|Hg]; auto.
    + intros w z Q W1. apply S in Q. destruct (w =? v); [subst z|exact (f_whole _ F _ _ Q W1)]. cbn [y2 y lv_cols].
      rewrite !upd_map. apply nodup_swap; [exact (f_whole _ F _ _ V W1)| |]; rewrite nth_error_map; [rewrite E|rewrite E']; reflexivity.
    + intros w z w' z' Q Q' U1 W1. apply S in Q. apply S in Q'.
      destruct (Nat.eqb_spec w v) as [->|], (Nat.eqb_spec w' v) as [->|]; subst; auto.
      * apply (f_alone _ F _ _ _ _ V Q'); auto.
      * apply (f_alone _ F _ _ _ _ Q V); auto.
      * apply (f_alone _ F _ _ _ _ Q Q'); auto.
  - assert (lv_write x = false) as Wx.
    { destruct (lv_write x) eqn:Q; [|reflexivity]. exfalso. apply D. exact (f_alone _ F _ _ _ _ V V' U Q). }
    assert (the_var s1 v' = Some x') as Y by (apply R; destruct (Nat.eqb_spec v' v); [congruence|exact V']). rewrite Y.
    eexists. split; [reflexivity|]. set (y2 := LV (lv_uni x') (lv_write x') (upd (lv_cols x') k' h)).
    assert (forall w z, the_var (set_var s1 v' (Some y2)) w = Some z -> if w =? v' then z = y2 else if w =? v then z = y else the_var s w = Some z) as S.
    { intros w z Q. apply var_set in Q; [|congruence]. destruct (Nat.eqb_spec w v') as [->|]; [congruence|]. apply R in Q.
      destruct (Nat.eqb_spec w v); [congruence|exact Q]. }
    split; cbn [lw_tabs lw_period set_var s1]; try apply F.
    + intros w z Q. apply S in Q. destruct (w =? v'); [subst z|destruct (w =? v); [subst z|exact (f_home _ F _ _ Q)]].
      * cbn [y2 lv_uni lv_cols]. split; [exact B'|]. split; [rewrite !upd_length; exact Len'|]. apply Forall_forall. intros g Hg. rewrite <- U. apply AA.
        apply UI in Hg. destruct Hg as [->|Hg]; auto.
      * cbn [y lv_uni lv_cols]. split; [exact B|]. split; [rewrite !upd_length; exact Len|]. apply Forall_forall. intros g Hg. apply AA.
        apply UI in Hg. destruct Hg as [->|Hg]; auto.
    + intros w z Q W1. apply S in Q. destruct (w =? v'); [subst z; cbn in W1; congruence|destruct (w =? v); [subst z; cbn in W1; congruence|exact (f_whole _ F _ _ Q W1)]].
    + intros w z w' z' Q Q' U1 W1. apply S in Q. destruct (Nat.eqb_spec w v') as [->|]; [subst z; cbn in W1; congruence|].
      destruct (Nat.eqb_spec w v) as [->|]; [subst z; cbn in W1; congruence|]. apply S in Q'.
      destruct (Nat.eqb_spec w' v') as [->|]; [subst z'; exact (f_alone _ F _ _ _ _ Q V' U1 W1)|].
      destruct (Nat.eqb_spec w' v) as [->|]; [subst z'; exact (f_alone _ F _ _ _ _ Q V U1 W1)|exact (f_alone _ F _ _ _ _ Q Q' U1 W1)].
Qed.

Lemma step_fine s o : fine s -> l_compiles types s o = true -> swaps_at_home s o ->
  fine (fst (l_step types s o)) /\ ((exists a, snd (l_step types s o) = Done a) \/ snd (l_step types s o) = Unwound PIndexOOB \/ snd (l_step types s o) = Waits).
Proof.
  intros F C H. destruct o as [u w|v|v k i c|v k i y c|v row|v k v' k'].
  - cbn [l_step l_compiles] in *. apply Nat.ltb_lt in C. destruct (existsb _ _) eqn:B; cbn [fst snd]; [auto|]. split; [apply lock_fine; auto|eauto].
  - cbn [l_compiles] in C. destruct (the_var s v) as [x|] eqn:V; [|discriminate]. split; [eapply drop_fine; eauto|]. left. exists None. cbn. rewrite V. reflexivity.
  - cbn [l_compiles l_step] in *. destruct (the_var s v) as [x|] eqn:V; [|discriminate]. apply Nat.ltb_lt in C.
    destruct (index_fine s v x k i c F V C) as [(h & E & _)|[E _]]; rewrite E; cbn; eauto.
  - cbn [l_compiles l_step] in *. destruct (the_var s v) as [x|] eqn:V; [|discriminate]. apply andb_true_iff in C. destruct C as [C _]. apply Nat.ltb_lt in C.
    destruct (index_fine s v x k i c F V C) as [(h & E & I & _)|[E _]]; rewrite E; cbn [fst snd not_done]; [|auto].
    split; [eapply set_fine; eauto; eapply nth_error_In, I|eauto].
  - cbn [l_compiles l_step] in *. destruct (the_var s v) as [x|] eqn:V; [|discriminate]. apply andb_true_iff in C. destruct C as [W C]. apply Nat.eqb_eq in C.
    destruct (push_fine s v x row F V W C) as (s' & E & F'). rewrite E. cbn. eauto.
  - cbn [l_compiles] in C. destruct (the_var s v) as [x|] eqn:V; [|discriminate]. destruct (the_var s v') as [x'|] eqn:V'; [|discriminate].
    rewrite !andb_true_iff in C. destruct C as ((((W & K) & K') & _) & _). apply Nat.ltb_lt in K. apply Nat.ltb_lt in K'. apply eqb_prop in W.
    destruct (swap_fine s v k v' k' x x' F V V' W K K' (H x x' V V')) as (s' & E & F'). rewrite E. cbn. eauto.
Qed.
Lemma home_safe os : forall s s' r e, fine s -> all_at_home types s os -> l_run types s os = Some (s', r, e) -> e <> Undefined.
Proof.
  induction os as [|o os IH]; intros s s' r e F H; cbn [l_run].
  - intros E. injection E as _ _ <-. discriminate.
  - destruct H as [H0 H]. destruct (l_compiles types s o) eqn:C; [|discriminate]. destruct (step_fine s o F C H0) as [F' S].
    destruct (l_step types s o) as [s1 e1]. cbn [fst snd] in *. destruct S as [(a & ->)|[->| ->]].
    + destruct (l_run types s1 os) as [[[s2 r2] e2]|] eqn:Q; [|discriminate]. intros E. injection E as _ _ <-. eapply IH; eauto.
    + destruct (l_run types s1 os) as [[[s2 r2] e2]|] eqn:Q; [|discriminate]. intros E. injection E as _ _ <-. eapply IH; eauto.
    + intros E. injection E as _ _ <-. discriminate.
Qed.
Lemma run_at_home os s s' r e : idle types s -> all_at_home types s os -> l_run types s os = Some (s', r, e) -> e <> Undefined.
Proof. intros I. apply home_safe, fine_idle, I. Qed.

(** Without swaps every lock has its own columns. *)
Definition own_cols (s : lworld) : Prop :=
  forall v x, the_var s v = Some x -> lv_cols x = map (fun k => HD (lv_uni x) k (period s (lv_uni x))) (seq 0 n).
Definition bare (s : lworld) : pworld := PW (lw_tabs s) (map (option_map (fun x => (lv_uni x, lv_write x))) (lw_vars s)).
Lemma bare_var s v : p_var (bare s) v = option_map (fun x => (lv_uni x, lv_write x)) (the_var s v).
Proof. unfold p_var, the_var, bare; cbn [pw_vars]. rewrite nth_error_map. destruct (nth_error (lw_vars s) v) as [[x|]|]; reflexivity. Qed.
Lemma bare_blocked s u w : p_blocked (bare s) u w = existsb (fun x => w || lv_write x) (locks_on s u).
Proof.
  unfold p_blocked, locks_on, bare; cbn [pw_vars]. induction (lw_vars s) as [|[x|] l IH]; cbn; auto.
  rewrite existsb_app, IH. destruct (lv_uni x =? u); cbn; rewrite ?orb_false_r; reflexivity.
Qed.
Lemma l_upd_upd {A} (l : list A) i a b : upd (upd l i a) i b = upd l i b.
Proof. revert i. induction l as [|x l IH]; intros [|i]; cbn; auto. f_equal. apply IH. Qed.
Lemma l_upd_self {A} (l : list A) i d : upd l i (nth i l d) = l.
Proof. revert i. induction l as [|x l IH]; intros [|i]; cbn; auto. f_equal. apply IH. Qed.
Lemma push_own cols : forall pre row s u p, u < length (lw_tabs s) -> nth u (lw_tabs s) [] = pre ++ cols -> length row = length cols ->
  (forall k, valid s (HD u k p) = true) ->
  l_push s (map (fun k => HD u k p) (seq (length pre) (length cols))) row =
    (LW (upd (lw_tabs s) u (pre ++ map (fun q => fst q ++ [snd q]) (combine cols row))) (lw_period s) (lw_vars s), Done tt).
Proof.
  induction cols as [|c cols IH]; intros pre [|x row] s u p U E L V; try discriminate.
  - cbn. rewrite <- E, l_upd_self. destruct s; reflexivity.
  - cbn [length seq map l_push]. rewrite V. set (s1 := set_column _ _ _).
    assert (s1 = LW (upd (lw_tabs s) u ((pre ++ [c ++ [x]]) ++ cols)) (lw_period s) (lw_vars s)) as E1.
    { unfold s1, set_column, column; cbn [hd_uni hd_col]. rewrite E. rewrite upd_middle, app_nth2, Nat.sub_diag by lia. rewrite <- app_assoc. reflexivity. }
    specialize (IH (pre ++ [c ++ [x]]) row s1 u p). rewrite app_length in IH. cbn [length] in IH. rewrite Nat.add_1_r in IH. rewrite IH.
    + rewrite E1. cbn [lw_tabs lw_period lw_vars combine map fst snd]. rewrite l_upd_upd, <- !app_assoc. reflexivity.
    + rewrite E1; cbn [lw_tabs]. rewrite upd_length. exact U.
    + rewrite E1; cbn [lw_tabs]. apply l_nth_eq, U.
    + cbn in L. lia.
    + intros k. rewrite E1. apply (V k).
Qed.
Lemma step_own s o : fine s -> own_cols s -> l_compiles types s o = true -> no_swap o ->
  own_cols (fst (l_step types s o)) /\
  match snd (l_step types s o) with
  | Done a => p_step (bare s) o = Some (bare (fst (l_step types s o)), a)
  | Unwound _ => p_step (bare s) o = Some (bare (fst (l_step types s o)), None)
  | Waits => p_step (bare s) o = None /\ fst (l_step types s o) = s
  | _ => False
  end.
Proof.
  intros F O C N. destruct o as [u w|v|v k i c|v k i y c|v row|v k v' k']; [| | | | |destruct N].
  - cbn [l_step p_step]. rewrite bare_blocked. destruct (existsb _ _) eqn:B; cbn [fst snd]; [auto|]. split.
    + intros v x V. destruct (var_snoc _ _ _ _ _ _ V) as [Q|[-> ->]]; [exact (O _ _ Q)|reflexivity].
    + unfold bare; cbn [lw_tabs lw_vars pw_tabs pw_vars]. rewrite map_app. reflexivity.
  - cbn [l_compiles l_step p_step] in *. destruct (the_var s v) as [x|] eqn:V; [|discriminate]. cbn [fst snd].
    assert (the_var s v <> None) as NN by congruence.
    destruct (Nat.eqb_spec (length (locks_on (set_var s v None) (lv_uni x))) 0) as [Z|Z].
    + split; [|unfold bare; cbn [set_var lw_tabs lw_vars pw_tabs pw_vars]; rewrite upd_map; reflexivity].
      intros w y W. change (the_var (set_var s v None) w = Some y) in W.
      assert (lv_uni y <> lv_uni x) as U.
      { intros E. assert (In y (locks_on (set_var s v None) (lv_uni x))) as I by (apply locks_in; split; [eapply var_in, W|exact E]).
        destruct (locks_on (set_var s v None) (lv_uni x)); [destruct I|discriminate]. }
      apply var_set in W; [|exact NN]. destruct (w =? v); [discriminate|]. unfold period; cbn [lw_period set_var]. rewrite l_nth_ne by exact U. exact (O _ _ W).
    + split; [|unfold bare; cbn [set_var lw_tabs lw_vars pw_tabs pw_vars]; rewrite upd_map; reflexivity].
      intros w y W. apply var_set in W; [|exact NN]. destruct (w =? v); [discriminate|]. exact (O _ _ W).
  - cbn [l_compiles l_step p_step] in *. destruct (the_var s v) as [x|] eqn:V; [|discriminate]. apply Nat.ltb_lt in C. rewrite bare_var, V. cbn [option_map].
    assert (nth_error (lv_cols x) k = Some (HD (lv_uni x) k (period s (lv_uni x)))) as Q.
    { rewrite (O _ _ V), nth_error_map, (nth_error_nth' _ 0) by (rewrite seq_length; exact C). rewrite seq_nth by exact C. reflexivity. }
    destruct (index_fine s v x k i c F V C) as [(h & E & I & _)|[E R]]; rewrite E; cbn [fst snd not_done].
    + split; [exact O|]. rewrite Q in I. injection I as <-. reflexivity.
    + split; [exact O|]. specialize (R _ Q). do 2 f_equal. apply nth_error_None. exact R.
  - cbn [l_compiles l_step p_step] in *. destruct (the_var s v) as [x|] eqn:V; [|discriminate]. apply andb_true_iff in C. destruct C as [C W]. apply Nat.ltb_lt in C.
    rewrite bare_var, V. cbn [option_map].
    assert (nth_error (lv_cols x) k = Some (HD (lv_uni x) k (period s (lv_uni x)))) as Q.
    { rewrite (O _ _ V), nth_error_map, (nth_error_nth' _ 0) by (rewrite seq_length; exact C). rewrite seq_nth by exact C. reflexivity. }
    destruct (index_fine s v x k i c F V C) as [(h & E & I & _)|[E R]]; rewrite E; cbn [fst snd not_done].
    + split; [exact O|]. rewrite Q in I. injection I as <-. reflexivity.
    + split; [exact O|]. specialize (R _ Q). unfold p_column. cbn [bare pw_tabs pw_vars]. unfold column in R; cbn in R.
      rewrite (upd_oob _ i y R), !l_upd_self. reflexivity.
  - cbn [l_compiles l_step p_step] in *. destruct (the_var s v) as [x|] eqn:V; [|discriminate]. apply andb_true_iff in C. destruct C as [W C]. apply Nat.eqb_eq in C.
    rewrite bare_var, V. cbn [option_map]. destruct (f_home _ F _ _ V) as (U & _ & A).
    pose proof (f_tabs _ F) as T. rewrite Forall_forall in T. destruct (T (nth (lv_uni x) (lw_tabs s) [])) as (Len & _); [apply nth_In; exact U|].
    rewrite (O _ _ V). pose proof (push_own (nth (lv_uni x) (lw_tabs s) []) [] row s (lv_uni x) (period s (lv_uni x)) U eq_refl) as P.
    rewrite Len in P. cbn [length app] in P. rewrite P; [|exact C|].
    + cbn [fst snd]. split; [exact O|reflexivity].
    + intros k. unfold valid; cbn [hd_uni hd_period]. rewrite Nat.eqb_refl, andb_true_r. apply negb_true_iff, Nat.eqb_neq. intros Z.
      assert (In x (locks_on s (lv_uni x))) as I by (apply locks_in; split; [eapply var_in, V|reflexivity]).
      destruct (locks_on s (lv_uni x)); [destruct I|discriminate].
Qed.
Lemma own_plain os : forall s s' r e, fine s -> own_cols s -> Forall no_swap os -> l_run types s os = Some (s', r, e) ->
  exists ps b, p_run (bare s) os = (ps, r, b) /\ pw_tabs ps = lw_tabs s' /\ e = (if b then Done tt else Waits).
Proof.
  induction os as [|o os IH]; intros s s' r e F O N; cbn [l_run p_run].
  - intros E. injection E as <- <- <-. exists (bare s), true. auto.
  - inversion N as [|? ? N0 N']; subst. destruct (l_compiles types s o) eqn:C; [|discriminate].
    assert (swaps_at_home s o) as H by (destruct o; cbn; auto; destruct N0).
    destruct (step_fine s o F C H) as [F' _]. destruct (step_own s o F O C N0) as [O' S].
    destruct (l_step types s o) as [s1 [a|c| | |]]; cbn [fst snd] in *; try contradiction; [rewrite S|rewrite S|destruct S as [S ->]; rewrite S].
    + destruct (l_run types s1 os) as [[[s2 r2] e2]|] eqn:Q; [|discriminate]. intros E. injection E as <- <- <-.
      destruct (IH _ _ _ _ F' O' N' Q) as (ps & b & P & T & D). rewrite P. exists ps, b. auto.
    + destruct (l_run types s1 os) as [[[s2 r2] e2]|] eqn:Q; [|discriminate]. intros E. injection E as <- <- <-.
      destruct (IH _ _ _ _ F' O' N' Q) as (ps & b & P & T & D). rewrite P. exists ps, b. auto.
    + intros E. injection E as <- <- <-. exists (bare s), false. auto.
Qed.
Lemma run_plain os s s' r e : idle types s -> Forall no_swap os -> l_run types s os = Some (s', r, e) ->
  exists ps b, p_run (PW (lw_tabs s) []) os = (ps, r, b) /\ pw_tabs ps = lw_tabs s' /\ e = (if b then Done tt else Waits).
Proof.
  intros I N R. pose proof (fine_idle _ I) as F. destruct I as (_ & _ & V).
  assert (own_cols s) as O by (unfold own_cols, the_var; rewrite V; intros [|v] x; discriminate).
  pose proof (own_plain os s s' r e F O N R) as P. unfold bare in P. rewrite V in P. exact P.
Qed.
End Types.
