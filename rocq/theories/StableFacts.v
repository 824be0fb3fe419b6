(** Row ids of consistent tables keep their meaning (for C90). *)
From Coq Require Import List Arith Bool Lia.
From Verif Require Import Base BaseFacts Column RowRange Table SortedTab Events Cascade Hist Answers DbHist StableSpec.
Import ListNotations.

Lemma F2_impl {A B} (P Q : A -> B -> Prop) l m : (forall x y, P x y -> Q x y) -> Forall2 P l m -> Forall2 Q l m.
Proof. intros K F. induction F; constructor; auto. Qed.

(** ** Columns *)
Definition keeps_at (c c' : col) (j : nat) : Prop := forall v, c_index c j = Ok v -> c_index c' j = Ok v.

Lemma bc_flush_index b j x : bc_index b j = Ok x -> bc_index (bc_flush b) j = Ok x.
Proof.
  unfold bc_index, bc_flush. destruct (bc_idx b) as [i|] eqn:I; [|rewrite I; auto].
  destruct (length (bc_data b) <=? i) eqn:L; [rewrite I; auto|]. apply Nat.leb_gt in L. cbn.
  destruct (j =? i) eqn:Q.
  - apply Nat.eqb_eq in Q as ->. rewrite nth_error_upd_eq by exact L. auto.
  - apply Nat.eqb_neq in Q. rewrite nth_error_upd_ne by auto. auto.
Qed.
Lemma b_push_keeps b v b' j w : b_push b v = Ok b' -> b_index b j = Ok w -> b_index b' j = Ok w.
Proof.
  destruct b as [l|b]; cbn.
  - intros [= <-]. cbn. destruct (nth_error l j) eqn:N; [|discriminate]. intros [= <-].
    rewrite nth_error_app1; [now rewrite N|]. apply nth_error_Some. congruence.
  - destruct (as_bool v); [|discriminate]. cbn. intros [= <-]. cbn. unfold bc_index, bc_push. cbn.
    destruct (match bc_idx b with Some k => j =? k | None => false end); [auto|].
    destruct (nth_error (bc_data b) j) eqn:N; [|discriminate]. 
    rewrite nth_error_app1; [now rewrite N|]. apply nth_error_Some. congruence.
Qed.
Lemma b_swap_out_keeps b i v b' o j w : i <> j -> b_swap_out b i v = Ok (b', o) -> b_index b j = Ok w -> b_index b' j = Ok w.
Proof.
  intros D. destruct b as [l|b]; cbn.
  - destruct (nth_error l i); [|discriminate]. intros [= <- _]. cbn. now rewrite nth_error_upd_ne by auto.
  - destruct (as_bool v); [|discriminate]. cbn. unfold bc_swap_out.
    destruct (nth_error (bc_data (bc_flush b)) i); [|discriminate]. cbn. intros [= <- _]. cbn.
    destruct (bc_index b j) eqn:B; [|discriminate]. apply bc_flush_index in B. intros H. cbn in H. rewrite <- H.
    unfold bc_index in *. cbn. destruct (match bc_idx (bc_flush b) with Some k => j =? k | None => false end).
    + injection B as <-. reflexivity.
    + rewrite nth_error_upd_ne by auto. now rewrite B.
Qed.
Lemma c_push_keeps imax c v c' j : c_push imax c v = Ok c' -> keeps_at c c' j.
Proof.
  destruct c as [b|b ix]; cbn; destruct (b_push b v) as [b'|] eqn:B; cbn; try discriminate.
  - intros [= <-] w. cbn. now apply b_push_keeps with (1 := B).
  - destruct (native imax (b_len b)); cbn; [|discriminate]. intros [= <-] w. cbn. now apply b_push_keeps with (1 := B).
Qed.
Lemma c_swap_out_keeps imax c i v c' o j : i <> j -> c_swap_out imax c i v = Ok (c', o) -> keeps_at c c' j.
Proof.
  intros D. destruct c as [b|b ix]; cbn.
  - destruct (b_swap_out b i v) as [[b' o']|] eqn:B; cbn; [|discriminate]. intros [= <- _] w. cbn.
    now apply b_swap_out_keeps with (1 := D) (2 := B).
  - destruct (b_index b i); cbn; [|discriminate]. destruct (native imax i); cbn; [|discriminate].
    destruct (b_swap_out b i v) as [[b' o']|] eqn:B; cbn; [|discriminate]. intros [= <- _] w. cbn.
    now apply b_swap_out_keeps with (1 := D) (2 := B).
Qed.
Lemma b_write_agrees b i v b' j w w' : i <> j -> b_write b i v = Ok b' -> b_index b j = Ok w -> b_index b' j = Ok w' -> w' = w.
Proof.
  intros D. destruct b as [l|b]; cbn.
  - destruct (i <? length l); [|discriminate]. intros [= <-]. cbn. rewrite nth_error_upd_ne by auto. congruence.
  - destruct (as_bool v); [|discriminate]. cbn. unfold bc_write, bc_index_mut.
    destruct (nth_error (bc_data (bc_flush b)) i) eqn:N; [|discriminate]. cbn. intros [= <-]. cbn.
    destruct (bc_index b j) eqn:B; [|discriminate]. intros [= <-].
    assert (j =? i = false) as Q by (apply Nat.eqb_neq; auto).
    unfold bc_index, bc_store. cbn. rewrite Q. revert B. unfold bc_index, bc_flush.
    destruct (bc_idx b) as [k|] eqn:K.
    + destruct (length (bc_data b) <=? k) eqn:L; cbn.
      * destruct (j =? k) eqn:E.
        -- apply Nat.eqb_eq in E as ->. apply Nat.leb_le in L. destruct (nth_error (bc_data b) k) eqn:M; [|discriminate].
           assert (k < length (bc_data b)) by (apply nth_error_Some; congruence). lia.
        -- destruct (nth_error (bc_data b) j); cbn; intros; [congruence|discriminate].
      * apply Nat.leb_gt in L. destruct (j =? k) eqn:E.
        -- apply Nat.eqb_eq in E as ->. rewrite nth_error_upd_eq by exact L. cbn. congruence.
        -- apply Nat.eqb_neq in E. rewrite nth_error_upd_ne by auto. destruct (nth_error (bc_data b) j); cbn; intros; [congruence|discriminate].
    + destruct (nth_error (bc_data b) j); cbn; intros; [congruence|discriminate].
Qed.

(** ** Tables *)
Lemma map_res_index cs : forall cs' i r, Forall2 (fun c c' => keeps_at c c' i) cs cs' ->
  map_res (fun c => c_index c i) cs = Ok r -> map_res (fun c => c_index c i) cs' = Ok r.
Proof.
  induction cs as [|c cs IH]; intros cs' i r F; inversion F as [|? c' ? cs2 K F2]; subst; cbn; [auto|].
  destruct (c_index c i) as [v|] eqn:V; cbn; [|discriminate]. rewrite (K _ V). cbn.
  destruct (map_res _ cs) as [l|] eqn:M; cbn; [|discriminate]. intros [= <-]. now rewrite (IH _ _ _ F2 M).
Qed.
(** Every row stays, with its values. *)
Definition grows (t t' : table) : Prop :=
  t_sch t' = t_sch t /\ forall i r, t_get_row t i = Ok r -> t_get_row t' i = Ok r.
(** Nothing moves, but rows may be deleted (or all rows go at once). *)
Definition shrinks (t t' : table) : Prop :=
  t_sch t' = t_sch t /\
  (map c_base (t_cols t') = map c_base (t_cols t) /\ incl (t_free t) (t_free t') \/ t_len t' = 0).

Lemma grows_refl t : grows t t. Proof. split; auto. Qed.
Lemma grows_trans a b c : grows a b -> grows b c -> grows a c.
Proof. intros (S1 & G1) (S2 & G2). split; [congruence|]. auto. Qed.
Lemma shrinks_refl t : shrinks t t. Proof. split; [auto|]. left. split; [auto|apply incl_refl]. Qed.
Lemma len_base t t' : map c_base (t_cols t') = map c_base (t_cols t) -> t_len t' = t_len t.
Proof.
  unfold t_len, c_len. destruct (t_cols t), (t_cols t'); try discriminate; [auto|]. cbn. intros [= -> _]. reflexivity.
Qed.
Lemma shrinks_trans a b c : shrinks a b -> shrinks b c -> shrinks a c.
Proof.
  intros (S1 & G1) (S2 & G2). split; [congruence|]. destruct G2 as [(B & I)|Z]; [|now right].
  destruct G1 as [(B1 & I1)|Z]; [left; split; [congruence|]; eapply incl_tran; eauto|].
  right. rewrite (len_base _ _ B). exact Z.
Qed.
Lemma raw_base i cs : forall cs', map c_base cs' = map c_base cs -> map_res (fun c => c_index c i) cs' = map_res (fun c => c_index c i) cs.
Proof.
  induction cs as [|c cs IH]; intros [|c' cs']; try discriminate; [auto|]. cbn. intros [= E F].
  replace (c_index c' i) with (c_index c i) by (unfold c_index; now rewrite E). now rewrite (IH _ F).
Qed.
Lemma shrinks_row t t' i r r' : shrinks t t' -> t_get_row t i = Ok r -> t_get_row t' i = Ok r' -> r' = r.
Proof.
  intros (_ & [(B & _)|Z]) G G'.
  - unfold t_get_row in *. destruct (t_check t i) as [j|] eqn:C; [|discriminate G].
    destruct (t_check t' i) as [j'|] eqn:C'; [|discriminate G']. cbn in *.
    assert (j = i) by (revert C; unfold t_check; destruct (_ <=? _); [discriminate|]; destruct (t_is_deleted _ _); [discriminate|congruence]).
    assert (j' = i) by (revert C'; unfold t_check; destruct (_ <=? _); [discriminate|]; destruct (t_is_deleted _ _); [discriminate|congruence]).
    subst. unfold t_get_row_raw in *. rewrite (raw_base i _ _ B) in G'. congruence.
  - unfold t_get_row, t_check in G'. rewrite Z in G'. discriminate G'.
Qed.

Lemma get_row_iff t i r : t_get_row t i = Ok r <-> i < t_len t /\ t_is_deleted t i = false /\ t_get_row_raw t i = Ok r.
Proof.
  unfold t_get_row, t_check. destruct (Nat.leb_spec (t_len t) i).
  - split; [discriminate|]. lia.
  - destruct (t_is_deleted t i); cbn; intuition congruence.
Qed.
Lemma b_push_len b v b' : b_push b v = Ok b' -> b_len b' = S (b_len b).
Proof.
  destruct b as [l|b]; cbn; [intros [= <-]; cbn; rewrite app_length; cbn; lia|].
  destruct (as_bool v); cbn; [|discriminate]. intros [= <-]. cbn. unfold bc_len, bc_push. cbn. rewrite app_length. cbn. lia.
Qed.
Lemma flush_len b : length (bc_data (bc_flush b)) = length (bc_data b).
Proof. unfold bc_flush. destruct (bc_idx b); [|auto]. destruct (_ <=? _); [auto|]. cbn. apply upd_length. Qed.
Lemma b_swap_out_len b i v b' o : b_swap_out b i v = Ok (b', o) -> b_len b' = b_len b.
Proof.
  destruct b as [l|b]; cbn.
  - destruct (nth_error l i); [|discriminate]. intros [= <- _]. apply upd_length.
  - destruct (as_bool v); cbn; [|discriminate]. unfold bc_swap_out. destruct (nth_error (bc_data (bc_flush b)) i); cbn; [|discriminate].
    intros [= <- _]. cbn. unfold bc_len. cbn. rewrite upd_length. apply flush_len.
Qed.
Lemma c_push_len imax c v c' : c_push imax c v = Ok c' -> c_len c' = S (c_len c).
Proof.
  destruct c as [b|b ix]; cbn; destruct (b_push b v) as [b'|] eqn:B; cbn; try discriminate.
  - intros [= <-]. unfold c_len. cbn. now apply b_push_len with v.
  - destruct (native imax (b_len b)); cbn; [|discriminate]. intros [= <-]. unfold c_len. cbn. now apply b_push_len with v.
Qed.
Lemma c_swap_out_len imax c i v c' o : c_swap_out imax c i v = Ok (c', o) -> c_len c' = c_len c.
Proof.
  destruct c as [b|b ix]; cbn.
  - destruct (b_swap_out b i v) as [[b' o']|] eqn:B; cbn; [|discriminate]. intros [= <- _]. unfold c_len. cbn. now apply b_swap_out_len with (1 := B).
  - destruct (b_index b i); cbn; [|discriminate]. destruct (native imax i); cbn; [|discriminate].
    destruct (b_swap_out b i v) as [[b' o']|] eqn:B; cbn; [|discriminate]. intros [= <- _]. unfold c_len. cbn. now apply b_swap_out_len with (1 := B).
Qed.
Lemma combine_Forall2 {A B C} (P : A * B -> C -> Prop) (Q : A -> C -> Prop) l : forall (r : list B) m,
  (forall x y z, P (x, y) z -> Q x z) -> length l = length r -> Forall2 P (combine l r) m -> Forall2 Q l m.
Proof.
  induction l as [|x l IH]; intros [|y r] m K L F; try discriminate; cbn in F; inversion F; subst; constructor; eauto.
Qed.
Lemma first_len (P : col -> col -> Prop) (f : nat -> nat) t cs' : (forall c c', P c c' -> c_len c' = f (c_len c)) ->
  t_cols t <> [] -> Forall2 P (t_cols t) cs' -> t_len (with_cols t cs') = f (t_len t).
Proof.
  intros K N F. unfold t_len, with_cols. cbn. destruct (t_cols t); [congruence|]. inversion F; subst. auto.
Qed.
Lemma raw_cols t i r : t_get_row t i = Ok r -> t_cols t <> [].
Proof. intros G N. apply get_row_iff in G as (L & _). unfold t_len in L. rewrite N in L. lia. Qed.

Lemma swap_out_row_keeps w i r w' o j r0 : swap_out_row w i r = Ok (w', o) -> i <> j ->
  t_get_row (w_tab w) j = Ok r0 -> t_get_row (w_tab w') j = Ok r0 /\ t_sch (w_tab w') = t_sch (w_tab w).
Proof.
  unfold swap_out_row. intros H D G. bindn H i' C.
  assert (i' = i) as -> by (revert C; unfold t_check; destruct (_ <=? _); [discriminate|]; destruct (t_is_deleted _ _); [discriminate|congruence]).
  destruct (length (t_cols (w_tab w)) =? length r) eqn:L; [|discriminate]. apply Nat.eqb_eq in L. bindn H ps M.
  injection H as <- _. cbn. split; [|reflexivity]. pose proof (raw_cols _ _ _ G) as N.
  assert (F : Forall2 (fun c c' => exists v o, c_swap_out (t_imax (w_tab w)) c i v = Ok (c', o)) (t_cols (w_tab w)) (map fst ps)).
  { apply map_res_Forall2 in M. clear C G.
    apply combine_Forall2 with (P := fun (p : col * val) c' => exists o, c_swap_out (t_imax (w_tab w)) (fst p) i (snd p) = Ok (c', o)) (r := r);
      [intros x y z (o' & E); eauto|exact L|].
    clear L N. induction M as [|x y l m E M IH]; cbn; constructor; [|exact IH]. destruct y. cbn. eauto. }
  apply get_row_iff in G as (Lt & Del & Raw). apply get_row_iff. split; [|split; [exact Del|]].
  - rewrite first_len with (f := fun n => n) (3 := F); [exact Lt| |exact N]. intros c c' (v & o' & E). now apply c_swap_out_len with (1 := E).
  - unfold t_get_row_raw in *. cbn. revert Raw. apply map_res_index.
    eapply F2_impl; [|exact F]. intros c c' (v & o' & E). now apply c_swap_out_keeps with (2 := E).
Qed.
Lemma push_end_grows w r w' i : push_end_unchecked w r = Ok (w', i) -> grows (w_tab w) (w_tab w').
Proof.
  unfold push_end_unchecked, push_only_unchecked. intros H. bindn H p P. bindn P cs C. bindn P l La.
  destruct l as [n|]; [|discriminate P]. injection P as <-. injection H as <- _.
  assert (T : forall w n, w_tab (event_add w n) = w_tab w) by (intros; unfold event_add; destruct (t_kind _); reflexivity).
  cbn [fst snd]. rewrite T. cbn. clear T. split; [reflexivity|]. intros j r0 G. pose proof (raw_cols _ _ _ G) as N.
  unfold cols_push in C. destruct (length (t_cols (w_tab w)) =? length r) eqn:L; [|discriminate]. apply Nat.eqb_eq in L.
  assert (F : Forall2 (fun c c' => exists v, c_push (t_imax (w_tab w)) c v = Ok c') (t_cols (w_tab w)) cs).
  { apply map_res_Forall2 in C. eapply combine_Forall2; [|exact L|exact C]. cbn. eauto. }
  apply get_row_iff in G as (Lt & Del & Raw). apply get_row_iff. split; [|split; [exact Del|]].
  - rewrite first_len with (f := S) (3 := F); [lia| |exact N]. intros c c' (v & E). now apply c_push_len with (1 := E).
  - unfold t_get_row_raw in *. cbn. revert Raw. apply map_res_index.
    eapply F2_impl; [|exact F]. intros c c' (v & E). now apply c_push_keeps with (1 := E).
Qed.
Lemma push_grows w r w' i : t_kind (w_tab w) = Consistent -> push w r = Ok (w', i) -> grows (w_tab w) (w_tab w').
Proof.
  intros K. unfold push. destruct (t_free (w_tab w)) as [|old free] eqn:Fr; [apply push_end_grows|].
  intros H. bindn H p P. injection H as <- _. destruct p as [w2 o]. cbn [fst].
  set (w1 := event_add _ old) in P.
  assert (T1 : w_tab w1 = Tab (t_sch (w_tab w)) (t_cols (w_tab w)) (set_remove old (old :: free))).
  { unfold w1, event_add. destruct (t_kind _); reflexivity. }
  assert (G1 : forall j r0, t_get_row (w_tab w) j = Ok r0 -> old <> j /\ t_get_row (w_tab w1) j = Ok r0).
  { intros j r0 G. apply get_row_iff in G as (Lt & Del & Raw). unfold t_is_deleted, t_consistent in Del. rewrite K in Del. cbn in Del.
    assert (D : old <> j). { intros ->. rewrite Fr in Del. cbn in Del. now rewrite Nat.eqb_refl in Del. }
    split; [exact D|]. apply get_row_iff. rewrite T1. split; [exact Lt|]. split; [|exact Raw].
    unfold t_is_deleted. cbn [t_free]. apply andb_false_iff. right.
    destruct (mem j (set_remove old (old :: free))) eqn:Q; [|reflexivity]. apply mem_In in Q. apply set_remove_In in Q as (_ & Q).
    rewrite <- Fr in Q. apply mem_In in Q. congruence. }
  split.
  - unfold swap_out_row in P. bindn P i' C. destruct (_ =? _); [|discriminate]. bindn P ps M. injection P as <- _. cbn. now rewrite T1.
  - intros j r0 G. destruct (G1 _ _ G) as (D & G'). exact (proj1 (swap_out_row_keeps _ _ _ _ _ _ _ P D G')).
Qed.

(** ** Deleting *)
Lemma clear_raw_shrinks w : shrinks (w_tab w) (w_tab (clear_raw w)).
Proof.
  split; [reflexivity|]. right. unfold clear_raw, t_len. cbn. destruct (t_cols (w_tab w)) as [|c cs]; [reflexivity|]. cbn.
  unfold c_len. destruct c as [[l|b]|[l|b] ix]; reflexivity.
Qed.
Lemma delete_raw_sch pr umax w i w' : delete_raw pr umax w i = Ok w' -> t_sch (w_tab w') = t_sch (w_tab w).
Proof.
  unfold delete_raw. destruct (t_kind (w_tab w)); try discriminate; intros H.
  - bindn H cs C. bindn H n N. injection H as <-. reflexivity.
  - bindn H l L. bindn H cs C. bindn H cs2 C2. injection H as <-. reflexivity.
Qed.
Lemma delete_raw_shrinks pr umax w i w' : t_kind (w_tab w) = Consistent -> delete_raw pr umax w i = Ok w' -> shrinks (w_tab w) (w_tab w').
Proof.
  intros K H. split; [now apply delete_raw_sch with (1 := H)|]. left. unfold delete_raw in H. rewrite K in H. bindn H cs C. bindn H n N.
  injection H as <-. cbn. split.
  - apply map_res_Forall2 in C. induction C as [|x y l m E C IH]; [reflexivity|]. cbn. rewrite IH. f_equal.
    destruct x as [b|b ix]; cbn in E; [now injection E as <-|]. bindn E o Ho. bindn E n' N'. now injection E as <-.
  - intros x I. apply set_insert_In. auto.
Qed.
(** [keep t t']: of the same table, and if it is consistent nothing moved. *)
Definition keep (t t' : table) : Prop := t_sch t' = t_sch t /\ (t_kind t = Consistent -> shrinks t t').
Lemma keep_refl t : keep t t. Proof. split; [auto|]. intros _. apply shrinks_refl. Qed.
Lemma keep_kind t t' : keep t t' -> t_kind t' = t_kind t. Proof. intros (S1 & _). unfold t_kind. now rewrite S1. Qed.
Lemma keep_trans a b c : keep a b -> keep b c -> keep a c.
Proof.
  intros K1 K2. split; [destruct K1, K2; congruence|]. intros C.
  apply shrinks_trans with b; [now apply K1|]. apply K2. now rewrite (keep_kind _ _ K1).
Qed.
Lemma delete_raw_keep pr umax w i w' : delete_raw pr umax w i = Ok w' -> keep (w_tab w) (w_tab w').
Proof. intros H. split; [now apply delete_raw_sch with (1 := H)|]. intros C. now apply delete_raw_shrinks with (2 := H). Qed.
Lemma clear_raw_keep w : keep (w_tab w) (w_tab (clear_raw w)).
Proof. split; [reflexivity|]. intros _. apply clear_raw_shrinks. Qed.
Lemma clear_keep w : keep (w_tab w) (w_tab (clear w)).
Proof. unfold clear, event_cleared. destruct (t_kind (w_tab w)); try apply clear_raw_keep; apply keep_refl. Qed.
Lemma fold_keep (f : wlock -> nat -> res wlock) rows : (forall w i w', f w i = Ok w' -> keep (w_tab w) (w_tab w')) ->
  forall w w', fold_res f rows w = Ok w' -> keep (w_tab w) (w_tab w').
Proof.
  intros K. induction rows as [|i rows IH]; intros w w' H; cbn in H; [injection H as <-; apply keep_refl|].
  bindn H w1 H1. eapply keep_trans; [now apply K with (1 := H1)|now apply IH].
Qed.
Lemma raws_keep pr umax rows len w w' :
  fold_res (fun w i => let* _ := assert_ (i <? len) PRemoveRange in delete_raw pr umax w i) rows w = Ok w' -> keep (w_tab w) (w_tab w').
Proof. apply fold_keep. intros v i v' H. bindn H x X. now apply delete_raw_keep with (1 := H). Qed.
Lemma flush_apply_keep pr umax w ev ch w' : flush_apply pr umax w ev ch = Ok w' -> keep (w_tab w) (w_tab w').
Proof.
  unfold flush_apply. destruct (ev_removal ev && _); [|intros [= <-]; apply keep_refl].
  destruct ch as [|rows]; [intros [= <-]; apply clear_raw_keep|]. apply raws_keep.
Qed.
Lemma sorted_remove_sch w rows w' : sorted_remove_rows w rows = Ok w' -> t_sch (w_tab w') = t_sch (w_tab w).
Proof.
  unfold sorted_remove_rows. destruct rows; [now intros [= <-]|]. intros H. bindn H x X. bindn H y Y. bindn H cs C. now injection H as <-.
Qed.
Lemma drop_same w t : w_drop w = Ok t -> t = w_tab w.
Proof. unfold w_drop. destruct (_ && _); [discriminate|]. congruence. Qed.

(** ** Universes *)
Definition ukeep (u u' : universe) : Prop :=
  forall p t, nth_error (u_tabs u) p = Some t -> exists t', nth_error (u_tabs u') p = Some t' /\ keep t t'.
Lemma ukeep_refl u : ukeep u u. Proof. intros p t H. exists t. split; [exact H|apply keep_refl]. Qed.
Lemma ukeep_trans a b c : ukeep a b -> ukeep b c -> ukeep a c.
Proof. intros K1 K2 p t H. destruct (K1 _ _ H) as (t1 & H1 & E1). destruct (K2 _ _ H1) as (t2 & H2 & E2). exists t2. split; [exact H2|]. eapply keep_trans; eauto. Qed.
Lemma ukeep_say u n : ukeep u (u_say u n). Proof. exact (ukeep_refl u). Qed.
Lemma ukeep_put u p t t' : nth_error (u_tabs u) p = Some t -> keep t t' -> ukeep u (u_put u p t').
Proof.
  intros H K q s Hq. cbn. destruct (Nat.eq_dec q p) as [E|E].
  - rewrite E in *. rewrite H in Hq. injection Hq as <-. exists t'. split; [|exact K]. apply nth_error_upd_eq. apply nth_error_Some. congruence.
  - exists s. rewrite nth_error_upd_ne by auto. split; [exact Hq|apply keep_refl].
Qed.
Lemma get_nth u p t : u_get u p = Ok t -> nth_error (u_tabs u) p = Some t.
Proof. unfold u_get. destruct (nth_error (u_tabs u) p); [congruence|discriminate]. Qed.

Section Flush.
Variable pr : profile.
Variable umax : nat.
Section Call.
Variable fc : universe -> locks -> nat -> event -> bool -> bool -> select -> res (universe * select).
Hypothesis Fc : forall u h p ev a b s q, fc u h p ev a b s = Ok q -> ukeep u (fst q).

Lemma flush_with_keep u h p w ev u' : flush_with pr umax fc u h p w ev = Ok u' -> ukeep (u_put u p (w_tab w)) u'.
Proof.
  unfold flush_with. destruct (sel_empty (w_changes w)).
  - intros H. bindn H t T. apply drop_same in T as ->. injection H as <-. apply ukeep_refl.
  - intros H. bindn H q Q. apply Fc in Q. destruct (ev_removal ev && _); [|injection H as <-; exact Q].
    bindn H x X. bindn H t T. bindn H w' A. bindn H y Y. bindn H t' D. injection H as <-. apply drop_same in D as ->.
    eapply ukeep_trans; [exact Q|]. apply get_nth in T. apply ukeep_put with t; [exact T|]. exact (flush_apply_keep _ _ _ _ _ _ A).
Qed.
Lemma live_flush_with_keep u h p w ev u' w' : nth_error (u_tabs u) p <> None -> live_flush_with pr umax fc u h p w ev = Ok (u', w') ->
  ukeep (u_put u p (w_tab w)) u' /\ nth_error (u_tabs u') p = Some (w_tab w').
Proof.
  intros N. unfold live_flush_with. destruct (sel_empty (w_changes w)).
  - intros [= <- <-]. split; [apply ukeep_refl|]. cbn. apply nth_error_upd_eq. now apply nth_error_Some.
  - intros H. bindn H q Q. apply Fc in Q. bindn H t T. bindn H w1 A. bindn H y Y. injection H as <- <-. apply get_nth in T. split.
    + eapply ukeep_trans; [exact Q|]. apply ukeep_put with t; [exact T|]. exact (flush_apply_keep _ _ _ _ _ _ A).
    + cbn. apply nth_error_upd_eq. apply nth_error_Some. congruence.
Qed.
Lemma remove_with_keep u h c ev rows u' : remove_rows_with pr umax fc u h c ev rows = Ok u' -> ukeep u u'.
Proof.
  unfold remove_rows_with. intros H. bindn H t T. apply get_nth in T. destruct (t_kind t) eqn:K; try discriminate.
  - bindn H x X. bindn H w Hw. apply flush_with_keep in H. eapply ukeep_trans; [|exact H]. apply ukeep_put with t; [exact T|].
    destruct rows as [|rows].
    + injection Hw as <-. eapply keep_trans; [apply (clear_raw_keep (w_new t))|]. apply (clear_keep (clear_raw (w_new t))).
    + exact (raws_keep _ _ _ _ _ _ Hw).
  - bindn H x X. bindn H w Hw. apply flush_with_keep in H. eapply ukeep_trans; [|exact H]. apply ukeep_put with t; [exact T|].
    split; [|intros E; congruence].
    destruct rows as [|rows]; [injection Hw as <-; exact (proj1 (clear_keep (clear_raw (w_new t))))|]. exact (sorted_remove_sch _ _ _ Hw).
Qed.
Lemma turn_keep hd h p ev s x s' : tracker_turn pr umax fc hd h p ev s x = Ok s' -> ukeep (fst (fst s)) (fst (fst s')).
Proof.
  unfold tracker_turn. destruct (tracker_considers (snd x) ev); [|intros [= <-]; apply ukeep_refl].
  intros H. bindn H u U. injection H as <-. cbn [fst]. destruct (snd x) as [c k key|srt cs].
  - unfold auto_handle in U. bindn U a A. bindn U t T. bindn U rows R. unfold run_with in U. bindn U t2 T2. bindn U u2 U2. bindn U y Y. bindn U q Q.
    injection U as <-. apply Fc in Q. eapply ukeep_trans; [|exact Q]. unfold handle_with in U2.
    destruct hd; [|injection U2 as <-; apply ukeep_say|discriminate].
    exact (remove_with_keep _ _ _ _ _ _ U2).
  - injection U as <-. apply ukeep_say.
Qed.
Lemma turns_keep hd h p ev l : forall s s', fold_res (tracker_turn pr umax fc hd h p ev) l s = Ok s' -> ukeep (fst (fst s)) (fst (fst s')).
Proof.
  induction l as [|x l IH]; intros s s' H; cbn in H; [injection H as <-; apply ukeep_refl|].
  bindn H s1 H1. eapply ukeep_trans; [exact (turn_keep _ _ _ _ _ _ _ H1)|now apply IH].
Qed.
End Call.
Lemma do_flush_keep n : forall u h p ev a b s q, do_flush pr umax n u h p ev a b s = Ok q -> ukeep u (fst q).
Proof.
  induction n as [|n IH]; intros u h p ev a b s q H; [discriminate|]. cbn in H. bindn H x X. bindn H hnd Hd. bindn H s1 F. injection H as <-.
  exact (turns_keep _ IH _ _ _ _ _ _ _ F).
Qed.
End Flush.

(** ** Calls on one table *)
Definition still (t t' : table) : Prop :=
  t_sch t' = t_sch t /\ forall i r r', t_get_row t i = Ok r -> t_get_row t' i = Ok r' -> r' = r.
Lemma still_refl t : still t t. Proof. split; [auto|]. congruence. Qed.
Lemma grows_still t t' : grows t t' -> still t t'.
Proof. intros (Sc & G). split; [exact Sc|]. intros i r r' H H'. apply G in H. congruence. Qed.
Lemma keep_still t t' : t_kind t = Consistent -> keep t t' -> still t t'.
Proof. intros C (Sc & K). split; [exact Sc|]. intros i r r'. apply shrinks_row. auto. Qed.
Lemma assign_still t k j v t' : t_assign t k j v = Ok t' ->
  t_sch t' = t_sch t /\ forall i r r', i <> j -> t_get_row t i = Ok r -> t_get_row t' i = Ok r' -> r' = r.
Proof.
  unfold t_assign. destruct (nth_error (t_cols t) k) as [[b|b ix]|] eqn:K; try discriminate. intros H. bindn H c C. injection H as <-.
  split; [reflexivity|]. intros i r r' D G G'. apply get_row_iff in G as (_ & _ & G). apply get_row_iff in G' as (_ & _ & G').
  unfold t_get_row_raw in *. cbn [t_cols] in G'.
  assert (A : forall w w', c_index (CPlain b) i = Ok w -> c_index c i = Ok w' -> w' = w).
  { unfold c_set in C. destruct (_ <=? _); [discriminate|]. cbn in C. bindn C b' B. injection C as <-. intros w w'. cbn.
    apply b_write_agrees with (2 := B). auto. }
  clear C. revert k K r r' G G'. induction (t_cols t) as [|x l IH]; intros [|k] K r r' G G'; try discriminate.
  - cbn in K. injection K as ->. cbn in G, G'. bindn G v1 V1. bindn G r1 R1. bindn G' v2 V2. bindn G' r2 R2.
    injection G as <-. injection G' as <-. rewrite (A _ _ V1 V2). congruence.
  - cbn in K, G, G'. bindn G v1 V1. bindn G r1 R1. bindn G' v2 V2. bindn G' r2 R2.
    injection G as <-. injection G' as <-. rewrite (IH _ K _ _ R1 R2). congruence.
Qed.
Lemma kind_sch t t' : t_sch t' = t_sch t -> t_kind t' = t_kind t. Proof. unfold t_kind. now intros ->. Qed.
Lemma push_all_grows rs : forall w w', t_kind (w_tab w) = Consistent -> push_all w rs = Ok w' -> grows (w_tab w) (w_tab w').
Proof.
  unfold push_all. induction rs as [|r rs IH]; intros w w' K H; cbn in H; [injection H as <-; apply grows_refl|].
  bindn H w1 H1. bindn H1 p P. injection H1 as <-. destruct p as [w1 i]. cbn [fst] in H. pose proof (push_grows _ _ _ _ K P) as G.
  eapply grows_trans; [exact G|]. apply IH; [|exact H]. now rewrite (kind_sch _ _ (proj1 G)).
Qed.
Lemma push_array_grows pr rs w w' r : push_array pr w rs = Ok (w', r) -> grows (w_tab w) (w_tab w').
Proof.
  unfold push_array. destruct rs as [|x rs]; [intros [= <- _]; apply grows_refl|].
  intros H. bindn H p P. bindn H q Q. bindn H e E. injection H as <- _. destruct p as [w1 i]. apply push_end_grows in P.
  eapply grows_trans; [exact P|]. clear P E. change (w_tab w1) with (w_tab (fst (w1, i))). revert Q. generalize (w1, i). clear w1 i.
  induction rs as [|y rs IH]; intros p Q; cbn in Q; [injection Q as <-; apply grows_refl|]. bindn Q p1 P1. destruct p1 as [w2 j].
  apply push_end_grows in P1. eapply grows_trans; [exact P1|]. exact (IH _ Q).
Qed.

Section Steps.
Variable pr : profile.
Variable umax : nat.
Lemma delete_still w i w' : t_kind (w_tab w) = Consistent -> delete pr umax w i = Ok w' -> w_tab w' = w_tab w.
Proof.
  intros K. unfold delete. rewrite K. intros H. bindn H j J. injection H as <-. unfold event_del. now rewrite K.
Qed.
Definition quiet (o : op) : bool := match o with OFlush _ _ | OLiveFlush _ _ | ORemoveRows _ _ _ => false | _ => true end.
Lemma step_still st o st' : t_kind (st_tab st) = Consistent -> quiet o = true -> step pr umax st o = Ok st' ->
  t_sch (st_tab st') = t_sch (st_tab st) /\
  forall i r r', ~ (exists k v, o = OAssign k i v) -> t_get_row (st_tab st) i = Ok r -> t_get_row (st_tab st') i = Ok r' -> r' = r.
Proof.
  intros K Qu H.
  assert (A : forall t', still (st_tab st) t' -> st_tab st' = t' -> t_sch (st_tab st') = t_sch (st_tab st) /\
     forall i r r', ~ (exists k v, o = OAssign k i v) -> t_get_row (st_tab st) i = Ok r -> t_get_row (st_tab st') i = Ok r' -> r' = r).
  { intros t' (Sc & G) ->. split; [exact Sc|]. intros i r r' _. apply G. }
  unfold step in H. destruct (avail (t_kind (st_tab st)) o) eqn:Av; [|discriminate]. rewrite K in Av.
  destruct st as [t|w its]; cbn [st_tab] in *.
  - destruct o; try discriminate Qu; try discriminate Av; try (injection H as <-; apply (A t); [apply still_refl|reflexivity]);
      cbn [Hist.read_op] in H; try discriminate H; bindn H x X; injection H as <-; apply (A t); try apply still_refl; reflexivity.
  - assert (R : forall w' its', write_op pr umax w its o = Ok (w', its') -> st' = Locked w' its' ->
       t_sch (st_tab st') = t_sch (w_tab w) /\
       forall i r r', ~ (exists k v, o = OAssign k i v) -> t_get_row (w_tab w) i = Ok r -> t_get_row (st_tab st') i = Ok r' -> r' = r).
    { intros w' its' X ->. cbn [st_tab] in *.
      destruct o; try discriminate Qu; try discriminate Av; cbn [write_op] in X;
        try (bindn X y Y; injection X as <- _; apply (A (w_tab w)); [apply still_refl|reflexivity]).
      all: try discriminate X.
      - bindn X y Y. bindn X l L. bindn X z Z. injection X as <- _. apply (A (w_tab w)); [apply still_refl|reflexivity].
      - (* assign *) bindn X y Y. injection X as <- _. bindn Y t' T. injection Y as <-. destruct (assign_still _ _ _ _ _ T) as (Sc & G).
        cbn. split; [exact Sc|]. intros j r r' N. apply G. intros ->. apply N. eauto.
      - bindn X y Y. injection X as <- _. bindn Y p P. injection Y as <-. destruct p as [w1 j]. apply (A (w_tab w1)); [|reflexivity].
        apply grows_still. exact (push_grows _ _ _ _ K P).
      - bindn X y Y. injection X as <- _. apply (A (w_tab y)); [|reflexivity]. apply grows_still. exact (push_all_grows _ _ _ K Y).
      - bindn X y Y. injection X as <- _. bindn Y p P. injection Y as <-. destruct p as [w1 j]. apply (A (w_tab w1)); [|reflexivity].
        apply grows_still. exact (push_array_grows _ _ _ _ _ P).
      - bindn X y Y. injection X as <- _. apply (A (w_tab w)); [apply still_refl|]. exact (delete_still _ _ _ K Y).
      - cbn in X. injection X as <- _. apply (A (w_tab w)); [apply still_refl|]. unfold w_select. repeat (match goal with |- context [match ?b with _ => _ end] => destruct b end); reflexivity.
      - cbn in X. injection X as <- _. apply (A (w_tab w)); [apply still_refl|]. unfold w_select_all. repeat (match goal with |- context [match ?b with _ => _ end] => destruct b end); reflexivity.
      - cbn in X. injection X as <- _. apply (A (w_tab (clear w))); [|reflexivity]. apply keep_still; [exact K|]. apply clear_keep.
      - cbn in X. injection X as <- _. apply (A (w_tab (clear_raw w))); [|reflexivity]. apply keep_still; [exact K|]. apply clear_raw_keep. }
    assert (L : (exists t, st' = Free t /\ t = w_tab w) \/ (exists w' its', write_op pr umax w its o = Ok (w', its') /\ st' = Locked w' its')).
    { destruct its; destruct o; try discriminate Qu; try discriminate Av; try discriminate H;
        try (right; bindn H zz P; injection H as <-; destruct zz; eauto; fail).
      left. bindn H t T. injection H as <-. apply drop_same in T. eauto. }
    destruct L as [(t & -> & ->)|(w' & its' & X & E)]; [apply (A (w_tab w)); [apply still_refl|reflexivity]|]. exact (R _ _ X E).
Qed.
Lemma step_grows st o st' : t_kind (st_tab st) = Consistent -> quiet o = true -> o <> OClearRaw -> ~ (exists k i v, o = OAssign k i v) ->
  step pr umax st o = Ok st' -> grows (st_tab st) (st_tab st').
Proof.
  intros K Qu Nc Na H.
  assert (A : forall t', grows (st_tab st) t' -> st_tab st' = t' -> grows (st_tab st) (st_tab st')) by (intros t' G ->; exact G).
  unfold step in H. destruct (avail (t_kind (st_tab st)) o) eqn:Av; [|discriminate]. rewrite K in Av.
  destruct st as [t|w its]; cbn [st_tab] in *.
  - destruct o; try discriminate Qu; try discriminate Av; try (injection H as <-; apply grows_refl);
      cbn [Hist.read_op] in H; try discriminate H; bindn H x X; injection H as <-; apply grows_refl.
  - assert (R : forall w' its', write_op pr umax w its o = Ok (w', its') -> grows (w_tab w) (w_tab w')).
    { intros w' its' X. 
      destruct o; try discriminate Qu; try discriminate Av; cbn [write_op] in X;
        try (bindn X y Y; injection X as <- _; apply grows_refl).
      all: try discriminate X.
      - bindn X y Y. bindn X l L. bindn X z Z. injection X as <- _. apply grows_refl.
      - exfalso. apply Na. eauto.
      - bindn X y Y. injection X as <- _. bindn Y p P. injection Y as <-. destruct p as [w1 j]. exact (push_grows _ _ _ _ K P).
      - bindn X y Y. injection X as <- _. exact (push_all_grows _ _ _ K Y).
      - bindn X y Y. injection X as <- _. bindn Y p P. injection Y as <-. destruct p as [w1 j]. exact (push_array_grows _ _ _ _ _ P).
      - bindn X y Y. injection X as <- _. rewrite (delete_still _ _ _ K Y). apply grows_refl.
      - cbn in X. injection X as <- _. apply grows_refl.
      - cbn in X. injection X as <- _. apply grows_refl.
      - cbn in X. injection X as <- _. unfold clear, event_cleared. rewrite K. apply grows_refl.
      - now contradict Nc. }
    destruct its; destruct o; try discriminate Qu; try discriminate Av; try discriminate H;
        try (bindn H zz P; injection H as <-; destruct zz; exact (R _ _ P)).
    bindn H t T. injection H as <-. apply drop_same in T as ->. apply grows_refl.
Qed.
End Steps.

(** ** Calls on a universe *)
Section Db.
Variable pr : profile.
Variable umax fuel : nat.
Lemma flush_keep u h p w ev u' : nth_error (u_tabs u) p <> None -> flush pr umax fuel u h p w ev = Ok u' -> ukeep (u_put u p (w_tab w)) u'.
Proof. intros _. unfold flush. apply flush_with_keep. intros *. apply do_flush_keep. Qed.
Lemma state_nth d p st : d_state d p = Ok st -> nth_error (u_tabs (d_u d)) p = Some (st_tab st).
Proof. unfold d_state. intros H. bindn H t T. injection H as <-. apply get_nth in T. now destruct (d_lock d p) as [[[? ?] ?]|]. Qed.
Lemma locked_nth d p w : locked_table d p = Ok w -> nth_error (u_tabs (d_u d)) p = Some (w_tab w).
Proof. unfold locked_table. intros H. bindn H st St. apply state_nth in St. destruct st; [discriminate|]. now injection H as <-. Qed.
Lemma put_same u p t : nth_error (u_tabs u) p = Some t -> ukeep u (u_put u p t).
Proof. intros H. apply ukeep_put with t; [exact H|apply keep_refl]. Qed.
Lemma db_step_still d c d' a p t : nth_error (u_tabs (d_u d)) p = Some t -> t_kind t = Consistent -> db_step pr umax fuel d c = Ok (d', a) ->
  exists t', nth_error (u_tabs (d_u d')) p = Some t' /\ t_sch t' = t_sch t /\
    forall i r r', ~ stores c p i -> t_get_row t i = Ok r -> t_get_row t' i = Ok r' -> r' = r.
Proof.
  intros T K H.
  assert (Z : ukeep (d_u d) (d_u d') -> exists t', nth_error (u_tabs (d_u d')) p = Some t' /\ t_sch t' = t_sch t /\
    forall i r r', ~ stores c p i -> t_get_row t i = Ok r -> t_get_row t' i = Ok r' -> r' = r).
  { intros U. destruct (U _ _ T) as (t' & T' & E). exists t'. destruct (keep_still _ _ K E) as (Sc & G). split; [exact T'|]. split; [exact Sc|]. intros i r r' _. apply G. }
  destruct c as [q c|q ev|q ev|q ev s|q ev s|q ev s|q tr|ev hn].
  - assert (N : db_step pr umax fuel d (On q c) = Ok (d', a) -> quiet (op_of c) = true /\ exists st st', d_state d q = Ok st /\ step pr umax st (op_of c) = Ok st' /\ d' = d_store d q st').
    { intros X. unfold db_step in X. destruct c as [o| | | ]; [destruct o|..]; try discriminate X;
        (split; [reflexivity|]; bindn X st St; bindn X st' St'; bindn X an An; injection X as <- _; eauto). }
    destruct (N H) as (Qu & st & st' & St & X & ->). clear N H. apply state_nth in St.
    assert (D : forall j, nth_error (u_tabs (d_u (d_store d q st'))) j = nth_error (upd (u_tabs (d_u d)) q (st_tab st')) j) by (intros j; now destruct st').
    destruct (Nat.eq_dec q p) as [E|E].
    + rewrite E in *. rewrite T in St. injection St as St. rewrite St in K, T |- *. destruct (step_still _ _ _ _ _ K Qu X) as (Sc & G).
      exists (st_tab st'). rewrite D. split; [apply nth_error_upd_eq; apply nth_error_Some; congruence|]. split; [exact Sc|].
      intros i r r' Ns. apply G. intros (k & v & Eo). apply Ns. destruct c; try discriminate Eo. cbn in Eo. subst. unfold stores. eauto.
    + exists t. rewrite D, nth_error_upd_ne by auto. split; [exact T|]. split; [reflexivity|]. congruence.
  - cbn in H. bindn H w Hw. bindn H u U. injection H as <- _. apply Z. apply locked_nth in Hw. apply flush_keep in U; [|cbn; congruence].
    eapply ukeep_trans; [apply (put_same _ _ _ Hw)|exact U].
  - cbn in H. bindn H w Hw. bindn H x U. destruct x as [u w']. injection H as <- _. apply Z. apply locked_nth in Hw.
    apply live_flush_with_keep in U as (U & E); [|intros *; apply do_flush_keep|congruence]. cbn.
    eapply ukeep_trans; [apply (put_same _ _ _ Hw)|]. eapply ukeep_trans; [exact U|]. apply put_same, E.
  - cbn in H. bindn H u U. injection H as <- _. apply Z. cbn. apply remove_with_keep in U; [exact U|]. intros *. apply do_flush_keep.
  - cbn in H. bindn H w Hw. bindn H x X. bindn H w' Hw'. bindn H u U. injection H as <- _. apply Z. apply locked_nth in Hw.
    apply flush_keep in U; [|cbn; congruence]. cbn in U |- *. eapply ukeep_trans; [|exact U]. apply ukeep_put with (w_tab w); [exact Hw|].
    destruct s as [|rows].
    + injection Hw' as <-. eapply keep_trans; [apply (clear_raw_keep w)|]. apply (clear_keep (clear_raw w)).
    + exact (raws_keep _ _ _ _ _ _ Hw').
  - cbn in H. bindn H x X. bindn H u U. injection H as <- _. apply Z. cbn. unfold read_select in U.
    bindn U y Y. injection U as <-. exact (do_flush_keep _ _ _ _ _ _ _ _ _ _ _ Y).
  - cbn in H. bindn H t1 T1. bindn H x X. bindn H y Y. injection H as <- _. apply Z. exact (ukeep_refl _).
  - cbn in H. bindn H x X. injection H as <- _. apply Z. exact (ukeep_refl _).
Qed.
Lemma on_inv d q c d' a : db_step pr umax fuel d (On q c) = Ok (d', a) ->
  quiet (op_of c) = true /\ exists st st', d_state d q = Ok st /\ step pr umax st (op_of c) = Ok st' /\ d' = d_store d q st'.
Proof.
  intros X. unfold db_step in X. destruct c as [o| | | ]; [destruct o|..]; try discriminate X;
    (split; [reflexivity|]; bindn X st St; bindn X st' St'; bindn X an An; injection X as <- _; eauto).
Qed.
Lemma store_nth d q st j : nth_error (u_tabs (d_u (d_store d q st))) j = nth_error (upd (u_tabs (d_u d)) q (st_tab st)) j.
Proof. now destruct st. Qed.
Lemma comes_sch schs d p sch : comes_to pr umax fuel schs d -> nth_error schs p = Some sch -> s_kind sch = Consistent ->
  exists t, nth_error (u_tabs (d_u d)) p = Some t /\ t_kind t = Consistent.
Proof.
  intros C N K. induction C as [|d c d' a C IH H].
  - cbn. rewrite nth_error_map, N. exists (t_new sch). split; [reflexivity|exact K].
  - destruct IH as (t & T & Kt). destruct (db_step_still _ _ _ _ _ _ T Kt H) as (t' & T' & Sc & _). exists t'. split; [exact T'|].
    now rewrite (kind_sch _ _ Sc).
Qed.
Lemma row_in_some d p i t r : nth_error (u_tabs (d_u d)) p = Some t -> row_in d p i = Some r <-> t_get_row t i = Ok r.
Proof. unfold row_in. intros ->. destruct (t_get_row t i); split; congruence. Qed.
Lemma alone_same p i d d' t : nth_error (u_tabs (d_u d)) p = Some t -> t_kind t = Consistent -> left_alone pr umax fuel p i d d' ->
  row_in d' p i = row_in d p i.
Proof.
  intros T K L. revert t T K. induction L as [d A|d c d1 a d' A N H L IH]; intros t T K; [reflexivity|].
  destruct (db_step_still _ _ _ _ _ _ T K H) as (t1 & T1 & Sc & G). rewrite (IH _ T1) by now rewrite (kind_sch _ _ Sc).
  destruct (row_in d p i) as [r|] eqn:R; [|congruence].
  assert (A1 : row_in d1 p i <> None) by (inversion L; assumption).
  destruct (row_in d1 p i) as [r1|] eqn:R1; [|congruence]. f_equal.
  apply (row_in_some _ _ _ _ _ T) in R. apply (row_in_some _ _ _ _ _ T1) in R1. exact (G _ _ _ N R R1).
Qed.
Lemma stable schs d p sch i d' : comes_to pr umax fuel schs d -> nth_error schs p = Some sch -> s_kind sch = Consistent ->
  left_alone pr umax fuel p i d d' -> row_in d' p i = row_in d p i.
Proof. intros C N K. destruct (comes_sch _ _ _ _ C N K) as (t & T & Kt). exact (alone_same _ _ _ _ _ T Kt). Qed.
Lemma kept schs d p sch i r c d' a : comes_to pr umax fuel schs d -> nth_error schs p = Some sch -> s_kind sch = Consistent ->
  row_in d p i = Some r -> db_step pr umax fuel d c = Ok (d', a) -> (forall j, ~ stores c p j) -> ~ may_take c p -> row_in d' p i = Some r.
Proof.
  intros C N K R H Ns Nt. destruct (comes_sch _ _ _ _ C N K) as (t & T & Kt).
  destruct c as [q c|q ev|q ev|q ev s|q ev s|q ev s|q tr|ev hn]; try (exfalso; exact (Nt I)).
  - apply on_inv in H as (Qu & st & st' & St & X & ->). apply state_nth in St.
    destruct (Nat.eq_dec q p) as [E|E].
    + rewrite E in *. apply (row_in_some _ _ _ _ _ T) in R. rewrite T in St. injection St as St. rewrite St in *.
      assert (G : grows (st_tab st) (st_tab st')).
      { apply (step_grows pr umax) with (o := op_of c); auto.
        - intros Eo. apply Nt. destruct c; try discriminate Eo. cbn in Eo. subst. reflexivity.
        - intros (k & j & v & Eo). apply (Ns j). destruct c; try discriminate Eo. cbn in Eo. subst. exists k, v. reflexivity. }
      apply (row_in_some _ _ _ (st_tab st')); [|apply G, R]. rewrite store_nth. apply nth_error_upd_eq. apply nth_error_Some. congruence.
    + unfold row_in in *. now rewrite store_nth, nth_error_upd_ne by auto.
  - cbn in H. bindn H t1 T1. bindn H x X. bindn H y Y. injection H as <- _. exact R.
  - cbn in H. bindn H x X. injection H as <- _. exact R.
Qed.
End Db.
