(** Proofs about programs in different builds. *)
From Coq Require Import List Arith Bool Lia.
From Verif Require Import Base BaseFacts Column Order RowRange Table Visit SortedTab BagTab Events Cascade Hist Answers DbHist Extract.
Import ListNotations.

(** The first fails with an overflow, or both do the same. *)
Definition ov {A} (x y : res A) : Prop := x = panic POverflow \/ x = y.
Lemma ov_refl {A} (x : res A) : ov x x. Proof. right. reflexivity. Qed.
Lemma ov_bind {A B} (x y : res A) (f g : A -> res B) : ov x y -> (forall a, ov (f a) (g a)) -> ov (bind x f) (bind y g).
Proof. intros [->| ->] H; [left; reflexivity|]. destruct y; cbn [bind]; [apply H|right; reflexivity]. Qed.
Lemma ov_fold {A B} (f g : A -> B -> res A) l : (forall a b, ov (f a b) (g a b)) -> forall a, ov (fold_res f l a) (fold_res g l a).
Proof. intro H. induction l as [|b l IH]; intro a; [apply ov_refl|]. cbn [fold_res]. apply ov_bind; [apply H|exact IH]. Qed.

Create HintDb ov discriminated.
#[local] Hint Constants Opaque : ov.
Ltac ov1 :=
  match goal with
  | |- ov ?x ?x => apply ov_refl
  | |- ov (bind _ _) (bind _ _) => apply ov_bind; [|intro]
  | |- ov (match ?x with _ => _ end) (match ?x with _ => _ end) => destruct x
  | |- ov (fold_res _ _ _) (fold_res _ _ _) => apply ov_fold; intros
  | |- _ => solve [auto with ov nocore]
  end.
Ltac ovs := repeat (cbv beta zeta; ov1).

Section B.
Variables (umax umax' : nat) (pr : profile).
Hypothesis Le : umax <= umax'.
Lemma next_ov imax i : ov (rid_next Debug imax i) (rid_next pr imax i).
Proof. unfold rid_next. destruct (i <? imax); [apply ov_refl|left; reflexivity]. Qed.
Lemma usub_ov a b : ov (usub Debug umax a b) (usub pr umax' a b).
Proof. unfold usub. destruct (b <=? a); [apply ov_refl|left; reflexivity]. Qed.
Lemma uadd_ov a b : ov (uadd Debug umax a b) (uadd pr umax' a b).
Proof. unfold uadd. destruct (Nat.leb_spec (a + b) umax); [|left; reflexivity]. destruct (Nat.leb_spec (a + b) umax'); [apply ov_refl|lia]. Qed.
Hint Resolve next_ov usub_ov uadd_ov : ov.
Lemma it_next_ov imax it : ov (it_next Debug imax it) (it_next pr imax it).
Proof. unfold it_next. ovs. Qed.
Hint Resolve it_next_ov : ov.
Lemma it_collect_ov imax n : forall it, ov (it_collect Debug imax n it) (it_collect pr imax n it).
Proof. induction n; intro it; cbn [it_collect]; ovs. Qed.
Lemma cons_loop_ov imax n : forall c, ov (cons_loop Debug imax n c) (cons_loop pr imax n c).
Proof. induction n; intro it; cbn [cons_loop]; ovs. Qed.
Lemma cons_next_ov imax c : ov (cons_next Debug imax c) (cons_next pr imax c).
Proof. apply cons_loop_ov. Qed.
Hint Resolve it_collect_ov cons_next_ov : ov.
Lemma skip_ov imax c n : ov (cons_skip_fast Debug imax umax c n) (cons_skip_fast pr imax umax' c n).
Proof. unfold cons_skip_fast, it_skip_fast. ovs. Qed.
Hint Resolve skip_ov : ov.
Lemma cons_run_ov imax ops : forall c, ov (cons_run Debug imax umax ops c) (cons_run pr imax umax' ops c).
Proof. induction ops as [|[|n] ops IH]; intro c; cbn [cons_run]; ovs. Qed.
Lemma cons_collect_ov imax n : forall c, ov (cons_collect Debug imax n c) (cons_collect pr imax n c).
Proof. induction n; intro c; cbn [cons_collect]; ovs. Qed.
Hint Resolve cons_run_ov cons_collect_ov : ov.
Lemma delete_raw_ov w i : ov (delete_raw Debug umax w i) (delete_raw pr umax' w i).
Proof. unfold delete_raw. ovs. Qed.
Hint Resolve delete_raw_ov : ov.
Lemma push_array_ov w rs : ov (push_array Debug w rs) (push_array pr w rs).
Proof. unfold push_array. ovs. Qed.
Lemma delete_ov w i : ov (delete Debug umax w i) (delete pr umax' w i).
Proof. unfold delete. ovs. Qed.
Lemma flush_apply_ov w ev s : ov (flush_apply Debug umax w ev s) (flush_apply pr umax' w ev s).
Proof. unfold flush_apply. ovs. Qed.
Hint Resolve push_array_ov delete_ov flush_apply_ov : ov.
Lemma w_flush_ov srt w ev : ov (w_flush Debug umax srt w ev) (w_flush pr umax' srt w ev).
Proof. unfold w_flush. ovs. Qed.
Lemma w_live_flush_ov srt w ev : ov (w_live_flush Debug umax srt w ev) (w_live_flush pr umax' srt w ev).
Proof. unfold w_live_flush. ovs. Qed.
Hint Resolve w_flush_ov w_live_flush_ov : ov.
Lemma w_remove_ov srt w ev rows : ov (w_remove_rows Debug umax srt w ev rows) (w_remove_rows pr umax' srt w ev rows).
Proof. unfold w_remove_rows. ovs. Qed.
Lemma t_dump_ov t : ov (t_dump Debug t) (t_dump pr t).
Proof. unfold t_dump. ovs. Qed.
Hint Resolve w_remove_ov t_dump_ov : ov.
Section V.
Context {S : Type}.
Variable f : S -> wlock -> nat -> S * action.
Lemma fill_ov n : forall w rug front back, ov (fill_rug Debug n w rug front back) (fill_rug pr n w rug front back).
Proof. induction n; intros; cbn [fill_rug]; ovs. Qed.
Hint Resolve fill_ov : ov.
Lemma rug_loop_ov n : forall s w rug front back b, ov (rug_loop Debug f n s w rug front back b) (rug_loop pr f n s w rug front back b).
Proof. induction n; intros; cbn [rug_loop]; ovs. Qed.
Lemma merge0_ov s w : ov (merge0 Debug f s w) (merge0 pr f s w).
Proof. unfold merge0. apply ov_bind; [apply rug_loop_ov|]. intro. apply ov_refl. Qed.
End V.
Section M.
Variable cmp : row -> row -> comparison.
Context {S : Type}.
Variable log : S -> wlock -> nat -> S.
Lemma merge_skip_ov n : forall t r c, ov (merge_skip Debug cmp n t r c) (merge_skip pr cmp n t r c).
Proof. induction n; intros; cbn [merge_skip]; ovs. Qed.
Hint Resolve merge_skip_ov : ov.
Lemma merge_logged_ov s w rows : ov (merge_logged Debug cmp log s w rows) (merge_logged pr cmp log s w rows).
Proof. unfold merge_logged. ovs. Qed.
End M.
Hint Resolve merge0_ov merge_logged_ov : ov.
Lemma retain_ov {S} (f : S -> wlock -> nat -> S * bool) s w : ov (retain Debug f s w) (retain pr f s w).
Proof. apply merge0_ov. Qed.
Lemma visit_ov {S} (f : S -> wlock -> nat -> S * action) s w : ov (visit Debug f s w) (visit pr f s w).
Proof. apply merge0_ov. Qed.
Lemma merge_vec_ov cmp w rows : ov (merge_vec Debug cmp w rows) (merge_vec pr cmp w rows).
Proof. unfold merge_vec, merge. ovs. Qed.
Lemma single_ov cmp w r : ov (merge_in_a_single_row Debug cmp w r) (merge_in_a_single_row pr cmp w r).
Proof. unfold merge_in_a_single_row. ovs. Qed.
Lemma bag_next_ov b : ov (bag_next Debug umax b) (bag_next pr umax' b).
Proof. unfold bag_next. ovs. Qed.
Lemma bag_drop_ov b : ov (bag_drop Debug umax b) (bag_drop pr umax' b).
Proof. unfold bag_drop. ovs. Qed.
Lemma sorted_remove_ov srt t ev rows : ov (sorted_table_remove_rows Debug umax srt t ev rows) (sorted_table_remove_rows pr umax' srt t ev rows).
Proof. unfold sorted_table_remove_rows. ovs. Qed.
Hint Resolve retain_ov visit_ov merge_vec_ov single_ov bag_next_ov bag_drop_ov sorted_remove_ov : ov.
Lemma read_op_ov t o : ov (read_op Debug umax t o) (read_op pr umax' t o).
Proof. destruct o; cbn [read_op]; ovs. Qed.
Hint Resolve read_op_ov : ov.
Lemma write_op_ov w its o : ov (write_op Debug umax w its o) (write_op pr umax' w its o).
Proof. destruct o; cbn [write_op]; ovs. Qed.
Hint Resolve write_op_ov : ov.
Lemma step_ov st o : ov (step Debug umax st o) (step pr umax' st o).
Proof. unfold step. destruct (avail _ _); [|apply ov_refl]. destruct st as [t|w [|b its]]; destruct o; ovs. Qed.
Lemma answer_ov st c : ov (answer_of Debug umax st c) (answer_of pr umax' st c).
Proof. unfold answer_of. destruct c as [o| | |]; [destruct o|..]; destruct st; ovs. Qed.
Hint Resolve step_ov answer_ov : ov.

(** ** Universes *)
Lemma select_sorted_ov t k rows : ov (select_sorted Debug t k rows) (select_sorted pr t k rows).
Proof. unfold select_sorted. ovs. Qed.
Hint Resolve select_sorted_ov : ov.
Section Calls.
Variables call call' : universe -> locks -> nat -> event -> bool -> bool -> select -> res (universe * select).
Hypothesis Call : forall u h p ev a d s, ov (call u h p ev a d s) (call' u h p ev a d s).
Hint Resolve Call : ov.
Lemma flush_with_ov u h p w ev : ov (flush_with Debug umax call u h p w ev) (flush_with pr umax' call' u h p w ev).
Proof. unfold flush_with. ovs. Qed.
Lemma live_with_ov u h p w ev : ov (live_flush_with Debug umax call u h p w ev) (live_flush_with pr umax' call' u h p w ev).
Proof. unfold live_flush_with. ovs. Qed.
Hint Resolve flush_with_ov : ov.
Lemma remove_with_ov u h p ev rows : ov (remove_rows_with Debug umax call u h p ev rows) (remove_rows_with pr umax' call' u h p ev rows).
Proof. unfold remove_rows_with. ovs. Qed.
Hint Resolve remove_with_ov : ov.
Lemma turn_ov hd h p ev s x : ov (tracker_turn Debug umax call hd h p ev s x) (tracker_turn pr umax' call' hd h p ev s x).
Proof. unfold tracker_turn, auto_handle, run_with, handle_with. ovs. Qed.
End Calls.
Lemma do_flush_ov fuel : forall u h p ev a d s, ov (do_flush Debug umax fuel u h p ev a d s) (do_flush pr umax' fuel u h p ev a d s).
Proof. induction fuel as [|n IH]; intros; cbn [do_flush]; [apply ov_refl|]. repeat (apply ov_bind; [|intro]); ovs. apply turn_ov. exact IH. Qed.
Lemma flush_ov fuel u h p w ev : ov (flush Debug umax fuel u h p w ev) (flush pr umax' fuel u h p w ev).
Proof. apply flush_with_ov, do_flush_ov. Qed.
Lemma live_ov fuel u h p w ev : ov (live_flush Debug umax fuel u h p w ev) (live_flush pr umax' fuel u h p w ev).
Proof. apply live_with_ov, do_flush_ov. Qed.
Lemma remove_ov fuel u h p ev rows : ov (remove_rows Debug umax fuel u h p ev rows) (remove_rows pr umax' fuel u h p ev rows).
Proof. apply remove_with_ov, do_flush_ov. Qed.
Lemma select_ov fuel u h p ev s : ov (read_select Debug umax fuel u h p ev s) (read_select pr umax' fuel u h p ev s).
Proof. unfold read_select. apply ov_bind; [apply do_flush_ov|intro; apply ov_refl]. Qed.
Hint Resolve flush_ov live_ov remove_ov select_ov : ov.
Lemma db_step_ov fuel d c : ov (db_step Debug umax fuel d c) (db_step pr umax' fuel d c).
Proof. destruct c as [p c| | | | | | |]; [destruct c as [o| | |]; [destruct o|..]|..]; cbn [db_step]; ovs. Qed.
Theorem talks_ov fuel cs : forall d, ov (db_talks Debug umax fuel d cs) (db_talks pr umax' fuel d cs).
Proof. induction cs as [|c cs IH]; intro d; cbn [db_talks]; [apply ov_refl|]. apply ov_bind; [apply db_step_ov|]. intro q. apply ov_bind; [apply IH|intro; apply ov_refl]. Qed.

(** ** Saving and restoring *)
Section X.
Variables (heads : nat -> header) (foreign : nat -> list (nat * nat)) (order : nat -> row -> row -> comparison).
Lemma for_rows_ov {A} (f g : A -> nat -> row -> res A) : (forall s i r, ov (f s i r) (g s i r)) -> forall ids data s, ov (for_rows f ids data s) (for_rows g ids data s).
Proof. intros H ids. induction ids as [|i ids IH]; intros data s; cbn [for_rows]; ovs. Qed.
Lemma extract_ov x h p sel : ov (extract Debug heads x h p sel) (extract pr heads x h p sel).
Proof. unfold extract, extract_selection, extract_ids. ovs. Qed.
Lemma merge_extract_ov fl p b w e : ov (merge_extract Debug foreign order fl p b w e) (merge_extract pr foreign order fl p b w e).
Proof. unfold merge_extract. ovs. apply for_rows_ov. intros. ovs. Qed.
Hint Resolve merge_extract_ov : ov.
Lemma restore_ov fuel x h p e ev : ov (restore Debug umax heads foreign order fuel x h p e ev) (restore pr umax' heads foreign order fuel x h p e ev).
Proof. unfold restore, restore_extract. ovs. Qed.
Lemma do_edits_ov w es : ov (do_edits Debug umax w es) (do_edits pr umax' w es).
Proof. unfold do_edits. ovs. unfold do_edit. ovs. Qed.
Hint Resolve restore_ov do_edits_ov : ov.
Lemma x_step_ov fuel x o : ov (x_step Debug umax heads foreign order fuel x o) (x_step pr umax' heads foreign order fuel x o).
Proof. destruct o; cbn [x_step]; unfold x_flush, x_live_flush; ovs. Qed.
Theorem x_run_ov fuel ops x : ov (x_run Debug umax heads foreign order fuel x ops) (x_run pr umax' heads foreign order fuel x ops).
Proof. unfold x_run. apply ov_fold. intros. apply x_step_ov. Qed.
End X.
End B.
