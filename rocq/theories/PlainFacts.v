(** Lemmas behind PropsPlain.v. *)
From Coq Require Import List Arith Bool Lia Sorting.Sorted Sorting.Permutation.
From Verif Require Import Base BaseFacts Column ColumnFacts Order RowRange RowRangeFacts Table TableFacts Visit VisitFacts SortedTab SortedFacts
  BagTab BagFacts TableSpec Hist HistFacts TableProps RowProps Answers SkipSpec PlainSpec FullFacts.
From Verif Require LimitsFacts.
Import ListNotations.

Lemma skipn_skipn_add {A} n (l : list A) m : skipn n (skipn m l) = skipn (m + n) l.
Proof.
  revert m. induction l as [|x l IH]; intro m; [rewrite !skipn_nil; reflexivity|]. destruct m as [|m]; [reflexivity|]. apply IH.
Qed.
Ltac fine := split; (eexists; split; [reflexivity|auto]).

Section P.
Variables (pr : profile) (umax : nat) (sch : schema).
Notation kd := (s_kind sch).
Notation imax := (s_imax sch).

(** ** The tables that [a] describes *)
Definition rt (a : plain) (t : table) : Prop :=
  t_sch t = sch /\ t_ok t (p_found a) (p_rows a) /\ (forall i, mem i (t_free t) = p_free a i) /\
  (kd <> Consistent -> forall i, p_found a i = true).
Definition rel (a : plain) (st : state) : Prop :=
  match st, p_lock a with
  | Free t, None => rt a t
  | Locked w [], Some l => rt a (w_tab w) /\ l = (w_changes w, w_pushed w, w_delete w)
  | _, _ => False
  end.
(** What the plain table says about a call whose result, with the answer, is [x]. *)
Definition fits {A B} (R : B -> A -> Prop) (o : outcome B) (x : res A) : Prop :=
  match o with Fine b => exists a, x = Ok a /\ R b a | Fails => exists c, x = panic c | Unsaid => True end.
Lemma fits_after {A B C D} (R : B -> A -> Prop) (Q : D -> C -> Prop) o x (f : B -> outcome D) (g : A -> res C) :
  fits R o x -> (forall b a, o = Fine b -> x = Ok a -> R b a -> fits Q (f b) (g a)) -> fits Q (after o f) (bind x g).
Proof.
  destruct o as [b| |]; simpl; auto.
  - intros (a & -> & H) F. cbn [bind]. apply F; auto.
  - intros [c ->] _. exists c. reflexivity.
Qed.

Section T.
Variables (a : plain) (t : table).
Hypothesis R : rt a t.
Lemma rt_ok : t_ok t (p_found a) (p_rows a).
Proof. apply R. Qed.
Lemma rt_sch : t_sch t = sch.
Proof. apply R. Qed.
Lemma rt_kind : t_kind t = kd.
Proof. unfold t_kind. rewrite rt_sch. reflexivity. Qed.
Lemma rt_imax : t_imax t = imax.
Proof. unfold t_imax. rewrite rt_sch. reflexivity. Qed.
Lemma rt_len : t_len t = len a.
Proof. apply (t_len_ok _ _ _ rt_ok). Qed.
Lemma rt_max : len a <= S imax.
Proof. unfold len. rewrite <- rt_imax. apply (ok_len _ _ _ rt_ok). Qed.
Lemma rt_deleted i : t_is_deleted t i = p_free a i.
Proof. rewrite (t_deleted_iff _ _ _ rt_ok). apply R. Qed.
Lemma rt_contains i : t_contains t i = there a i.
Proof.
  apply eq_true_iff_eq. rewrite (contains_iff _ _ _ rt_ok). unfold there. rewrite andb_true_iff, Nat.ltb_lt, negb_true_iff.
  destruct R as (_ & _ & F & _). rewrite F. reflexivity.
Qed.
Lemma rt_row i : i < len a -> nth_error (p_rows a) i = Some (row_at a i).
Proof. intro L. apply nth_error_nth'. exact L. Qed.
Lemma rt_raw i : i < len a -> t_get_row_raw t i = Ok (row_at a i).
Proof. intro L. apply (t_get_row_raw_ok _ _ _ rt_ok). apply rt_row. exact L. Qed.
Lemma rt_get i : t_get_row t i = if there a i then Ok (row_at a i) else t_get_row t i.
Proof.
  destruct (there a i) eqn:E; auto. unfold there in E. apply andb_true_iff in E. destruct E as [L F].
  apply Nat.ltb_lt in L. apply negb_true_iff in F. apply (t_get_row_ok _ _ _ rt_ok); [apply rt_row; auto|].
  rewrite rt_deleted. exact F.
Qed.
Lemma rt_check i : fits eq (if there a i then Fine i else Fails) (t_check t i).
Proof.
  unfold fits. destruct (there a i) eqn:E.
  - exists i. split; auto. apply (t_check_ok _ _ _ rt_ok).
    + unfold there in E. apply andb_true_iff in E. destruct E as [L _]. apply Nat.ltb_lt in L. exact L.
    + rewrite rt_deleted. unfold there in E. apply andb_true_iff in E. destruct E as [_ F]. apply negb_true_iff in F. exact F.
  - destruct (t_check t i) as [x|e] eqn:C.
    + apply (t_check_inv _ _ _ rt_ok) in C. destruct C as (_ & L & D). rewrite rt_deleted in D. unfold there in E.
      rewrite D in E. apply Nat.ltb_lt in L. fold (len a) in L. rewrite L in E. discriminate.
    + apply t_check_err in C. destruct C as [c ->]. exists c. reflexivity.
Qed.
Lemma rt_col k ct : nth_error (s_cols sch) k = Some ct -> exists c, nth_error (t_cols t) k = Some c /\
  c_wf imax ct (p_found a) c /\ c_data c = map (fun r => nth k r dv) (p_rows a).
Proof.
  intro Hk. pose proof (cols_len_eq _ _ _ rt_ok) as CL. rewrite rt_sch in CL. pose proof (nth_error_Some_lt _ _ _ Hk) as Lk.
  destruct (nth_error_lt_Some (t_cols t) k) as [c Ec]; [lia|]. exists c. split; auto.
  pose proof (ok_cols _ _ _ rt_ok) as CO. rewrite rt_sch, rt_imax in CO. apply (cols_nth _ _ _ _ _ _ _ _ CO Ec Hk).
Qed.

(** ** reads *)
Lemma walk_there its : forall b e l, walk imax umax (there a) its b e = Some l -> Forall (fun o => match o with Some i => there a i = true | None => True end) l.
Proof.
  induction its as [|[|n] its IH]; intros b e l H; cbn [walk] in H.
  - injection H as <-. constructor.
  - destruct (filter (there a) (seq b (e - b))) as [|x xs] eqn:F.
    + destruct (walk _ _ _ its _ e) as [l'|] eqn:W; [|discriminate]. injection H as <-. constructor; eauto.
    + destruct (walk _ _ _ its _ e) as [l'|] eqn:W; [|discriminate]. injection H as <-. constructor; eauto.
      assert (X : In x (filter (there a) (seq b (e - b)))) by (rewrite F; left; reflexivity). apply filter_In in X. tauto.
  - destruct (_ && _); [eauto|discriminate].
Qed.
Lemma items_ok (get : nat -> res row) l : (forall i, there a i = true -> get i = Ok (row_at a i)) ->
  Forall (fun o => match o with Some i => there a i = true | None => True end) l ->
  map_res (fun o => match o with Some i => get i | None => Ok [] end) l = Ok (map (fun o => match o with Some i => row_at a i | None => [] end) l).
Proof.
  intro G. induction 1 as [|o l H Hl IH]; cbn [map_res map]; auto. destruct o as [i|]; [rewrite (G i H)|]; cbn [bind]; rewrite IH; reflexivity.
Qed.
Lemma get_checked i : there a i = true -> t_get_row_checked t i = Ok (row_at a i).
Proof.
  intro E. unfold there in E. apply andb_true_iff in E. destruct E as [L _]. apply Nat.ltb_lt in L.
  unfold t_get_row_checked, t_check_checked. cbn [bind]. apply rt_raw. exact L.
Qed.
Lemma get_plain i : there a i = true -> t_get_row t i = Ok (row_at a i).
Proof. intro E. rewrite rt_get, E. reflexivity. Qed.
Lemma nexts_walk its : forall c, cons_inv imax (t_free t) c ->
  forallb only_next its = true \/ Nat.max (it_i (ci_rows c)) (it_end (ci_rows c)) + skipped its <= umax ->
  match cons_spec imax umax (t_free t) its (it_i (ci_rows c)) (it_end (ci_rows c)) with
  | Some l => cons_run pr imax umax its c = Ok l
  | None => exists p, cons_run pr imax umax its c = panic p
  end.
Proof.
  induction its as [|[|n] its IH]; intros c I Hn; [reflexivity| |].
  - cbn [forallb only_next andb] in Hn. change (skipped (ItNext :: its)) with (skipped its) in Hn.
    cbn [cons_spec cons_run]. destruct (cons_next_ok pr imax (t_free t) c I) as (c' & E & I' & En & Rn). rewrite E. cbn [bind fst snd].
    pose proof (first_live_filter (t_free t) (it_end (ci_rows c) - it_i (ci_rows c)) (it_i (ci_rows c))) as F.
    unfold live_rows. specialize (IH c' I'). rewrite En in IH.
    destruct (first_live (t_free t) _ _) as [x|]; rewrite F.
    + destruct Rn as [R1 R2]. rewrite R1 in IH. assert (Hn' : forallb only_next its = true \/ Nat.max (S x) (it_end (ci_rows c)) + skipped its <= umax)
        by (destruct Hn; [left; auto|right; lia]). specialize (IH Hn').
      destruct (cons_spec imax umax (t_free t) its (S x) (it_end (ci_rows c))); simpl.
      * rewrite IH. reflexivity. * destruct IH as [p IH]. rewrite IH. exists p. reflexivity.
    + rewrite Rn in IH.
      assert (Hn' : forallb only_next its = true \/ Nat.max (Nat.max (it_i (ci_rows c)) (it_end (ci_rows c))) (it_end (ci_rows c)) + skipped its <= umax)
        by (destruct Hn; [left; auto|right; lia]). specialize (IH Hn').
      destruct (cons_spec imax umax (t_free t) its (Nat.max _ _) (it_end (ci_rows c))); simpl.
      * rewrite IH. reflexivity. * destruct IH as [p IH]. rewrite IH. exists p. reflexivity.
  - destruct Hn as [Hn|Hn]; [discriminate|]. change (skipped (ItSkip n :: its)) with (n + skipped its) in Hn.
    cbn [cons_spec cons_run]. destruct I as (B & S & M). unfold cons_skip_fast, it_skip_fast, uadd, rid_from_usize.
    destruct (Nat.leb_spec (it_i (ci_rows c) + n) umax); [|lia]. cbn [bind]. rewrite andb_true_r.
    destruct (Nat.leb_spec (it_i (ci_rows c) + n) imax); cbn [bind]; [|eexists; reflexivity].
    apply (IH (CI (RI (it_i (ci_rows c) + n) (it_end (ci_rows c))) (ci_del c))).
    + split; [auto|]. split; [auto|]. cbn [ci_rows ci_del it_i]. intros x Hx. apply M. lia.
    + right. cbn [ci_rows it_i it_end]. lia.
Qed.
Lemma walk_ext p q its : (forall i, p i = q i) -> forall b e, walk imax umax p its b e = walk imax umax q its b e.
Proof.
  intro H. induction its as [|[|n] its IH]; intros b e; cbn [walk]; auto.
  - rewrite (filter_ext p q H). destruct (filter q _); rewrite IH; reflexivity.
  - rewrite IH. reflexivity.
Qed.
(** The iterator gives what [told] says. *)
Lemma told_ok its b e get : e <= len a -> e <= imax -> (forall i, there a i = true -> get i = Ok (row_at a i)) ->
  fits (fun x y => y = x) (told pr umax sch a its b e)
    (let* l := cons_run pr imax umax its (cons_new (RI b e) (t_free t)) in items get l) /\
  fits (fun _ _ => True) (told pr umax sch a its b e)
    (let* l := cons_run pr imax umax its (cons_new (RI b e) (t_free t)) in
     let* _ := map_res (fun o => match o with Some i => get i | None => Ok [] end) l in Ok tt).
Proof.
  intros L1 L2 G. unfold told. destruct (match pr with Debug => true | Release => forallb only_next its || (Nat.max b e + skipped its <=? umax) end) eqn:Hp; [|split; exact I].
  assert (I : cons_inv imax (t_free t) (cons_new (RI b e) (t_free t))).
  { apply cons_new_inv; auto. apply (ok_free_sorted _ _ _ rt_ok). }
  assert (W : match walk imax umax (there a) its b e with
    | Some l => cons_run pr imax umax its (cons_new (RI b e) (t_free t)) = Ok l
    | None => exists p, cons_run pr imax umax its (cons_new (RI b e) (t_free t)) = panic p
    end).
  { rewrite <- (walk_ext _ _ its rt_contains), <- rt_imax, (walk_cons _ _ _ rt_ok) by exact L1. rewrite rt_imax.
    pose proof (nexts_walk its) as NW. destruct pr; [exact (cons_run_ok imax umax (t_free t) its _ I)|].
    apply (NW _ I). apply orb_true_iff in Hp. rewrite Nat.leb_le in Hp. exact Hp. }
  destruct (walk imax umax (there a) its b e) as [l|] eqn:Wl.
  - pose proof (items_ok get l G (walk_there _ _ _ _ Wl)) as M. rewrite W. cbn [bind]. unfold items. rewrite M. cbn [bind]. simpl. fine.
  - destruct W as [p W]. rewrite W. cbn [bind]. simpl. split; exists p; reflexivity.
Qed.
Lemma t_iter_full : imax < len a -> (exists c, t_iter t = panic c) /\ (exists c, t_editing t = panic c).
Proof.
  intro L. unfold t_iter, t_editing, t_row_range, rid_from_usize. rewrite rt_len, rt_imax.
  destruct (Nat.leb_spec (len a) imax); [lia|]. split; eexists; reflexivity.
Qed.
Lemma collect_all n : n <= length (p_rows a) -> map_res (t_get_row_checked t) (seq 0 n) = Ok (firstn n (p_rows a)).
Proof.
  induction n as [|n IH]; intro L; [reflexivity|]. rewrite seq_S. cbn [plus].
  assert (Q : t_get_row_checked t n = Ok (row_at a n)).
  { unfold t_get_row_checked, t_check_checked. cbn [bind]. apply rt_raw. exact L. }
  assert (X : forall l1 x (f : nat -> res row) r1 r, map_res f l1 = Ok r1 -> f x = Ok r -> map_res f (l1 ++ [x]) = Ok (r1 ++ [r])).
  { induction l1 as [|y l1 IHl]; intros x f r1 r H1 H2; cbn [map_res app] in *.
    - injection H1 as <-. rewrite H2. reflexivity.
    - bindn H1 y' Hy. bindn H1 l' Hl. injection H1 as <-. rewrite Hy. cbn [bind]. rewrite (IHl x f l' r Hl H2). reflexivity. }
  rewrite (X _ _ _ _ _ (IH ltac:(lia)) Q). f_equal. symmetry. apply list_ext. intro j.
  rewrite nth_error_firstn. destruct (Nat.ltb_spec j (S n)).
  - destruct (Nat.eq_dec j n) as [->|Nj].
    + rewrite (rt_row n L). rewrite nth_error_app2; rewrite firstn_length_le by lia; [|lia]. rewrite Nat.sub_diag. reflexivity.
    + rewrite nth_error_app1 by (rewrite firstn_length_le; lia). rewrite nth_error_firstn. destruct (Nat.ltb_spec j n); [reflexivity|lia].
  - symmetry. apply nth_error_None. rewrite app_length, firstn_length_le by lia. simpl. lia.
Qed.
Lemma looks_ok st o : st_tab st = t ->
  fits (fun _ _ => True) (looks pr umax sch a o) (read_op pr umax t o) /\
  fits (fun x y => y = x) (looks pr umax sch a o) (answer_of pr umax st (Do o)).
Proof.
  intro Et. destruct o; cbn [looks]; try (split; exact I); cbn [read_op answer_of]; rewrite ?Et.
  - rewrite rt_get. destruct (there a i) eqn:C; [simpl; fine|]. pose proof (contains_false_get _ _ _ rt_ok i) as [X _].
    rewrite rt_contains in X. destruct (X C) as [c Q]. rewrite Q. simpl. split; exists c; reflexivity.
  - destruct (nth_error (s_cols sch) k) as [ct|] eqn:Hk; [|split; exact I].
    destruct (rt_col k ct Hk) as (c & Ec & Wc & D). unfold t_read. rewrite Ec.
    destruct (Nat.ltb_spec i (len a)) as [L|L].
    + rewrite (c_get_ok imax ct (p_found a) c i (nth k (row_at a i) dv) Wc); [simpl; fine|].
      rewrite D, nth_error_map, (rt_row i L). reflexivity.
    + unfold c_get. rewrite c_len_data, D, map_length. fold (len a). destruct (Nat.leb_spec (len a) i); [|lia].
      split; eexists; reflexivity.
  - destruct (nth_error (s_cols sch) k) as [ct|] eqn:Hk; [|split; exact I]. destruct ct as [b|b]; [split; exact I|].
    destruct (rt_col k _ Hk) as (c & Ec & Wc & D). unfold t_find. rewrite Ec, rt_imax, (c_find_ok _ _ _ _ _ Wc). cbn [bind].
    split; [eexists; split; [reflexivity|exact I]|]. eexists. split; [reflexivity|]. f_equal. rewrite D, map_length. fold (len a).
    apply filter_ext_in. intros i Hi. apply in_seq in Hi. f_equal. unfold val_at. rewrite nth_error_map, rt_row by lia. reflexivity.
  - rewrite (t_last_eq _ _ _ rt_ok). rewrite rt_imax. pose proof rt_max as M. unfold len in *.
    destruct (p_rows a) as [|r rs]; simpl length in *; [simpl; fine|].
    destruct (Nat.leb_spec (S (length rs) - 1) imax); [|lia]. replace (S (length rs) - 1) with (length rs) by lia. simpl. fine.
  - destruct (kind_eqb kd Consistent) eqn:Kc; [split; exact I|].
    unfold t_dump. destruct (Nat.leb_spec (len a) imax) as [L|L].
    + rewrite (t_iter_ok _ _ _ rt_ok) by (rewrite rt_imax; exact L). cbn [bind]. fold (len a).
      assert (L' : len a <= t_imax t) by (rewrite rt_imax; exact L).
      destruct (iterates_new _ _ _ rt_ok pr umax 0 (len a) (le_n _) L') as [Hc _].
      rewrite Hc by (rewrite rt_len; lia). cbn [bind].
      assert (Fl : filter (t_contains t) (seq 0 (len a - 0)) = seq 0 (len a)).
      { rewrite Nat.sub_0_r. rewrite (filter_ext_in _ (fun _ => true)); [clear; induction (seq 0 (len a)); simpl; congruence|].
        intros i Hi. apply in_seq in Hi. apply (contains_iff _ _ _ rt_ok). split; [unfold len in *; lia|].
        rewrite (ok_free_kind _ _ _ rt_ok); [reflexivity|]. rewrite rt_kind. destruct kd; discriminate. }
      rewrite Fl, (collect_all (len a) (le_n _)). cbn [bind]. unfold len. rewrite firstn_all. simpl. fine.
    + destruct (t_iter_full L) as [[c Q] _]. rewrite Q. cbn [bind]. split; exists c; reflexivity.
  - destruct (Nat.leb_spec (r_end r) imax) as [Li|Li]; [|split; exact I].
    unfold t_range, ci_from. rewrite (free_sel _ _ _ rt_ok), rt_len. destruct ((r_start r <? len a) || (r_start r =? r_end r)); cbn [andb assert_ bind];
      [|split; eexists; reflexivity].
    destruct (Nat.leb_spec (r_end r) (len a)) as [Le|Le]; cbn [assert_ bind]; [|split; eexists; reflexivity].
    rewrite rt_imax. destruct (told_ok ops (r_start r) (r_end r) (t_get_row_checked t) Le Li get_checked) as [A B]. split; assumption.
  - destruct (Nat.leb_spec (len a) imax) as [L|L].
    + rewrite (t_iter_ok _ _ _ rt_ok) by (rewrite rt_imax; exact L). cbn [bind]. rewrite rt_imax.
      destruct (told_ok ops 0 (len a) (t_get_row_checked t) (le_n _) L get_checked) as [A B]. split; assumption.
    + destruct (t_iter_full L) as [[c Q] _]. rewrite Q. cbn [bind]. split; exists c; reflexivity.
Qed.
End T.

(** ** writes *)
Notation logs w := (w_changes w, w_pushed w, w_delete w).
Definition wrel (a : plain) (w : wlock) : Prop := rt a (w_tab w) /\ p_lock a = Some (logs w).
Lemma wrel_sel a w s p d : wrel a w -> w_changes w = s -> w_pushed w = p -> w_delete w = d -> p_lock a = Some (s, p, d).
Proof. intros [_ L] <- <- <-. exact L. Qed.
Lemma more_push s i : more s [i] = sel_push s i.
Proof. destruct s; reflexivity. Qed.
Lemma more_more s l1 l2 : more (more s l1) l2 = more s (l1 ++ l2).
Proof. destruct s; cbn [more]; rewrite ?app_assoc; reflexivity. Qed.
Lemma rt_rows a t t' rows : rt a t -> kd <> Consistent -> t_sch t' = t_sch t -> t_ok t' (fun _ => true) rows -> rt (with_rows a rows) t'.
Proof.
  intros (E & K & F & P) N E' K'. split; [congruence|]. split; [|split].
  - eapply t_ok_ext; [|exact K']. intros i _. apply P. exact N.
  - intro i. cbn [p_free with_rows]. rewrite <- F. assert (N1 : t_kind t <> Consistent) by (unfold t_kind; rewrite E; exact N).
    assert (N2 : t_kind t' <> Consistent) by (unfold t_kind; rewrite E', E; exact N).
    rewrite (ok_free_kind _ _ _ K N1), (ok_free_kind _ _ _ K' N2). reflexivity.
  - exact P.
Qed.
Lemma wrel_rows a w w' rows : wrel a w -> kd <> Consistent -> frame w w' -> t_ok (w_tab w') (fun _ => true) rows -> wrel (with_rows a rows) w'.
Proof.
  intros [R L] N (F1 & F2 & F3 & F4) K. split; [eapply rt_rows; eauto|]. cbn [p_lock with_rows]. rewrite L, F2, F3, F4. reflexivity.
Qed.
Lemma rt_live a t : rt a t -> kd <> Consistent -> t_ok t (fun _ => true) (p_rows a).
Proof. intros (E & K & _ & P) N. eapply t_ok_ext; [|exact K]. intros i _. symmetry. apply P. exact N. Qed.
Lemma note_rt a t ids p d : rt a t -> rt (note sch a ids p d) t.
Proof. intro R. unfold note. destruct (p_lock a) as [[[s q] e]|]; [|exact R]. destruct (kind_eqb kd Consistent); exact R. Qed.
Lemma kd_cons : kind_eqb kd Consistent = true <-> kd = Consistent.
Proof. destruct kd; simpl; split; congruence. Qed.
Lemma note_lock a s p d ids p' d' : p_lock a = Some (s, p, d) ->
  p_lock (note sch a ids p' d') = Some (if kind_eqb kd Consistent then (more s ids, p || p', d || d') else (s, p, d)).
Proof. intro L. unfold note. rewrite L. destruct (kind_eqb kd Consistent); [reflexivity|exact L]. Qed.
Lemma event_add_logs w i : t_kind (w_tab w) = kd ->
  logs (event_add w i) = if kind_eqb kd Consistent then (more (w_changes w) [i], w_pushed w || true, w_delete w || false) else logs w.
Proof.
  intro E. unfold event_add. rewrite E, more_push, orb_true_r, orb_false_r. destruct kd; reflexivity.
Qed.

Section W.
Variable a : plain.
Lemma grow1 w r : wrel a w -> row_ty (s_cols sch) r ->
  if len a <=? imax then exists w', push_end_unchecked w r = Ok (w', len a) /\ wrel (grow sch a [r]) w' /\ frame w (with_tab w (w_tab w'))
  else exists c, push_end_unchecked w r = panic c.
Proof.
  intros [R L] T. pose proof R as (E & K & F & P). assert (T' : row_ty (s_cols (t_sch (w_tab w))) r) by (rewrite E; exact T).
  destruct (Nat.leb_spec (len a) imax) as [Li|Li].
  - destruct (push_end_ok w (p_found a) (p_rows a) r K T') with (live' := fun j => (len a <=? j) || p_found a j) as (cs & Q & K').
    + rewrite (rt_imax a _ R). exact Li.
    + intros i Hi. destruct (Nat.leb_spec (len a) i); [unfold len in *; lia|reflexivity].
    + unfold len. rewrite Nat.leb_refl. reflexivity.
    + eexists. split; [exact Q|]. split; [|rewrite event_add_tab; apply frame_cols]. split.
      * rewrite event_add_tab. apply note_rt. split; [exact E|]. split; [exact K'|]. split; [exact F|].
        intros N i. cbn [p_found]. rewrite (P N). apply orb_true_r.
      * rewrite event_add_logs by (cbn [w_tab with_tab]; unfold t_kind; cbn [t_sch with_cols]; rewrite E; reflexivity).
        unfold grow. erewrite note_lock by (cbn [p_lock]; exact L). reflexivity.
  - rewrite (push_end_full w _ _ r K T') by (rewrite (rt_imax a _ R); exact Li). eexists. reflexivity.
Qed.
End W.
Lemma wrel_same a b w : p_rows a = p_rows b -> (forall i, p_found a i = p_found b i) -> (forall i, p_free a i = p_free b i) ->
  p_lock a = p_lock b -> wrel a w -> wrel b w.
Proof.
  intros E1 E2 E3 E4 [(A & B & C & D) L]. split; [|congruence]. split; [exact A|]. split; [|split].
  - rewrite <- E1. eapply t_ok_ext; [|exact B]. intros i _. symmetry. apply E2.
  - intro i. rewrite C. apply E3.
  - intros N i. rewrite <- E2. apply D. exact N.
Qed.
Lemma note_rows a ids p d : p_rows (note sch a ids p d) = p_rows a /\ p_found (note sch a ids p d) = p_found a /\ p_free (note sch a ids p d) = p_free a.
Proof. unfold note. destruct (p_lock a) as [[[s q] e]|]; auto. destruct (kind_eqb kd Consistent); auto. Qed.
Lemma grow_rows a rs : p_rows (grow sch a rs) = p_rows a ++ rs.
Proof. unfold grow. rewrite (proj1 (note_rows _ _ _ _)). reflexivity. Qed.
Lemma grow_len a rs : len (grow sch a rs) = len a + length rs.
Proof. unfold len. rewrite grow_rows, app_length. reflexivity. Qed.
Lemma grow_found a rs j : p_found (grow sch a rs) j = (len a <=? j) || p_found a j.
Proof. unfold grow. rewrite (proj1 (proj2 (note_rows _ _ _ _))). reflexivity. Qed.
Lemma grow_free a rs : p_free (grow sch a rs) = p_free a.
Proof. unfold grow. rewrite (proj2 (proj2 (note_rows _ _ _ _))). reflexivity. Qed.
Lemma grow_lock a rs s p d : p_lock a = Some (s, p, d) ->
  p_lock (grow sch a rs) = Some (if kind_eqb kd Consistent then (more s (seq (len a) (length rs)), p || true, d || false) else (s, p, d)).
Proof. intro L. unfold grow. erewrite note_lock by (cbn [p_lock]; exact L). reflexivity. Qed.
Lemma grow2 a w r0 r : p_lock a <> None -> wrel (grow sch (grow sch a r0) [r]) w -> wrel (grow sch a (r0 ++ [r])) w.
Proof.
  intro L0. apply wrel_same.
  - rewrite !grow_rows, app_assoc. reflexivity.
  - intro i. rewrite !grow_found, grow_len.
    destruct (Nat.leb_spec (len a) i); [apply orb_true_r|]. destruct (Nat.leb_spec (len a + length r0) i); [lia|]. reflexivity.
  - intro i. rewrite !grow_free. reflexivity.
  - destruct (p_lock a) as [[[s p] d]|] eqn:L; [|congruence]. rewrite (grow_lock a (r0 ++ [r]) _ _ _ L).
    pose proof (grow_lock a r0 _ _ _ L) as L1. destruct (kind_eqb kd Consistent) eqn:Kc; rewrite (grow_lock _ [r] _ _ _ L1), Kc; [|reflexivity].
    rewrite more_more, app_length, grow_len, !orb_true_r, !orb_false_r. cbn [length]. rewrite seq_app. reflexivity.
Qed.
Lemma grows a rs : forall w i r0, p_lock a <> None -> wrel (grow sch a r0) w -> Forall (row_ty (s_cols sch)) rs -> S i = len a + length r0 ->
  len a + length r0 + length rs <= S imax ->
  exists w', fold_res (fun s r => push_end_unchecked (fst s) r) rs (w, i) = Ok (w', i + length rs) /\ wrel (grow sch a (r0 ++ rs)) w'.
Proof.
  induction rs as [|r rs IH]; intros w i r0 L R T Ei Le; cbn [fold_res].
  - rewrite app_nil_r, Nat.add_0_r. eauto.
  - inversion T as [|? ? T1 T2]; subst. cbn [length] in Le. pose proof (grow1 _ w r R T1) as G. rewrite grow_len in G.
    destruct (Nat.leb_spec (len a + length r0) imax); [|lia]. destruct G as (w1 & Q & R1 & _). cbn [fst]. rewrite Q. cbn [bind].
    destruct (IH w1 (len a + length r0) (r0 ++ [r])) as (w' & Q' & R'); auto.
    + apply grow2; auto.
    + rewrite app_length. cbn [length]. lia.
    + rewrite app_length. cbn [length]. lia.
    + exists w'. rewrite <- app_assoc in R'. cbn [app] in R'. split; [|exact R'].
      replace (i + length (r :: rs)) with (len a + length r0 + length rs) by (cbn [length]; lia). exact Q'.
Qed.
Lemma grows_full a rs : forall w i r0, p_lock a <> None -> wrel (grow sch a r0) w -> Forall (row_ty (s_cols sch)) rs ->
  S imax < len a + length r0 + length rs -> exists c, fold_res (fun s r => push_end_unchecked (fst s) r) rs (w, i) = panic c.
Proof.
  induction rs as [|r rs IH]; intros w i r0 L R T Le; cbn [fold_res].
  - pose proof (rt_max _ _ (proj1 R)) as M. rewrite grow_len in M. cbn [length] in Le. lia.
  - inversion T as [|? ? T1 T2]; subst. cbn [length] in Le. pose proof (grow1 _ w r R T1) as G. cbn [fst]. rewrite grow_len in G.
    destruct (len a + length r0 <=? imax).
    + destruct G as (w1 & Q & R1 & _). rewrite Q. cbn [bind]. apply (IH w1 _ (r0 ++ [r])); auto; [apply grow2; auto|].
      rewrite app_length. cbn [length]. lia.
    + destruct G as [c Q]. rewrite Q. exists c. reflexivity.
Qed.
(** push_array *)
Lemma push_array_plain a w r rs : wrel a w -> Forall (row_ty (s_cols sch)) (r :: rs) ->
  let e := len a + length (r :: rs) in
  let go b := exists w', push_array pr w (r :: rs) = Ok (w', RR (len a) b) /\ wrel (grow sch a (r :: rs)) w' in
  if e <=? imax then go e
  else if match pr with Debug => false | Release => e =? S imax end then go 0 else exists c, push_array pr w (r :: rs) = panic c.
Proof.
  intros R T e go. pose proof R as [(E & K & _) Lk]. assert (T' : Forall (row_ty (s_cols (t_sch (w_tab w)))) (r :: rs)) by (rewrite E; exact T).
  assert (Go : e <= S imax -> exists w', fold_res (fun s r => push_end_unchecked (fst s) r) (r :: rs) (w, 0) = Ok (w', len a + length rs) /\
    wrel (grow sch a (r :: rs)) w' /\
    push_array pr w (r :: rs) = let* e := rid_next pr imax (len a + length rs) in Ok (w', RR (len a) e)).
  { intro L. inversion T as [|? ? T1 T2]; subst. unfold e in L. cbn [length] in L. pose proof (grow1 a w r R T1) as G.
    destruct (Nat.leb_spec (len a) imax); [|lia]. destruct G as (w1 & Q & R1 & _).
    destruct (grows a rs w1 (len a) [r]) as (w' & Q' & R'); auto.
    - rewrite Lk. discriminate.
    - cbn [length]. lia.
    - cbn [length]. lia.
    - exists w'. cbn [fold_res fst]. rewrite Q. cbn [bind]. split; [exact Q'|]. split; [exact R'|]. unfold push_array. rewrite Q. cbn [bind fst snd].
      rewrite Q'. cbn [bind fst snd]. rewrite (rt_imax a _ (proj1 R)). reflexivity. }
  assert (Ee : S (len a + length rs) = e) by (unfold e; cbn [length]; lia).
  destruct (Nat.leb_spec e imax) as [L|L].
  - destruct Go as (w' & _ & R' & Q); [lia|]. exists w'. split; [|exact R']. rewrite Q. unfold rid_next.
    destruct (Nat.ltb_spec (len a + length rs) imax); [|lia]. cbn [bind]. rewrite Ee. reflexivity.
  - destruct (Nat.eq_dec e (S imax)) as [X|X].
    + destruct Go as (w' & _ & R' & Q); [lia|]. unfold rid_next in Q. destruct (Nat.ltb_spec (len a + length rs) imax); [lia|].
      unfold go. revert Q. destruct pr; cbn [bind]; intro Q.
      * rewrite Q. eexists. reflexivity.
      * rewrite X, Nat.eqb_refl. exists w'. split; [exact Q|exact R'].
    + assert (Q : exists c, push_array pr w (r :: rs) = panic c).
      { inversion T as [|? ? T1 T2]; subst. unfold push_array. pose proof (grow1 a w r R T1) as G.
        destruct (len a <=? imax); [|destruct G as [c G]; rewrite G; exists c; reflexivity].
        destruct G as (w1 & Q & R1 & _). rewrite Q. cbn [bind fst snd].
        destruct (grows_full a rs w1 (len a) [r]) as [c Q']; auto; [rewrite Lk; discriminate|unfold e in *; cbn [length] in *; lia|].
        rewrite Q'. exists c. reflexivity. }
      apply Nat.eqb_neq in X. revert Q. destruct pr; [auto|]. rewrite X. auto.
Qed.
(** push *)
Lemma free_first a t : rt a t -> free_id sch a = match t_free t with [] => None | old :: _ => Some old end.
Proof.
  intros (E & K & F & P). unfold free_id. destruct (t_free t) as [|old f] eqn:Ef.
  - assert (X : forall l, find (p_free a) l = None); [|apply X]. induction l as [|x l IH]; auto. cbn [find]. rewrite <- F. exact IH.
  - pose proof (ok_free_sorted _ _ _ K) as Ss. rewrite Ef in Ss. pose proof (ok_free_max _ _ _ K) as M. rewrite Ef in M.
    inversion Ss as [|? ? _ S2]; subst. inversion M as [|? ? M1 _]; subst. unfold t_imax in M1. rewrite Forall_forall in S2.
    assert (B : forall i, i < old -> p_free a i = false).
    { intros i Hi. rewrite <- F. destruct (mem i (old :: f)) eqn:Mi; auto. apply mem_In in Mi. destruct Mi as [->|Mi]; [lia|]. apply S2 in Mi. lia. }
    assert (H : p_free a old = true) by (rewrite <- F; apply mem_In; left; reflexivity).
    assert (X : forall n b, b <= old < b + n -> find (p_free a) (seq b n) = Some old).
    { induction n as [|n IH]; intros b Hb; [lia|]. cbn [seq find]. destruct (Nat.eq_dec b old) as [->|Nb]; [rewrite H; reflexivity|].
      rewrite B by lia. apply IH. lia. }
    apply X. lia.
Qed.
Lemma push_plain a w r : wrel a w -> row_ty (s_cols sch) r ->
  match put sch a r with
  | Fine (a', i) => exists w', push w r = Ok (w', i) /\ wrel a' w'
  | Fails => exists c, push w r = panic c
  | Unsaid => False
  end.
Proof.
  intros R T. pose proof R as [Rt Lk]. pose proof Rt as (E & K & F & P). unfold put. rewrite (free_first a _ Rt).
  assert (T' : row_ty (s_cols (t_sch (w_tab w))) r) by (rewrite E; exact T).
  pose proof (push_exact w _ _ r K T') as PE. destruct (t_free (w_tab w)) as [|old f] eqn:Ef.
  - pose proof (grow1 a w r R T) as G. unfold push. rewrite Ef. destruct (len a <=? imax); [|exact G].
    destruct G as (w' & Q & R' & _). exists w'. split; assumption.
  - fold (len a) in PE. destruct (old <? len a); [|rewrite PE; eexists; reflexivity].
    destruct PE as (w' & Q & K' & F' & E'). exists w'. split; [exact Q|].
    assert (Kc : kd = Consistent).
    { destruct (kind_eqb kd Consistent) eqn:Kc; [apply kd_cons; exact Kc|]. rewrite (ok_free_kind _ _ _ K) in Ef; [discriminate|].
      unfold t_kind. rewrite E. intro X. rewrite X in Kc. discriminate. }
    split.
    + apply note_rt. split; [congruence|]. split; [exact K'|]. split; [|intro N; congruence].
      intro i. cbn [p_free]. rewrite F', mem_set_remove by (rewrite <- Ef; apply (ok_free_sorted _ _ _ K)). unfold set. rewrite <- F.
      destruct (i =? old); reflexivity.
    + erewrite note_lock by (cbn [p_lock]; exact Lk). rewrite (proj2 kd_cons Kc), orb_true_r, orb_false_r, more_push.
      unfold push in Q. rewrite Ef in Q. bindn Q q Hs. injection Q as <-. destruct q as [w1 o1]. cbn [fst].
      apply swap_out_log in Hs. destruct Hs as (t1 & -> & _). cbn [w_changes w_pushed w_delete with_tab]. unfold event_add, t_kind.
      cbn [w_tab with_tab t_sch]. rewrite E, Kc. reflexivity.
Qed.
Lemma push_all_plain rs : forall a w, wrel a w -> Forall (row_ty (s_cols sch)) rs -> fits wrel (puts sch a rs) (push_all w rs).
Proof.
  induction rs as [|r rs IH]; intros a w R T; cbn [puts].
  - exists w. split; [reflexivity|exact R].
  - inversion T as [|? ? T1 T2]; subst. pose proof (push_plain a w r R T1) as H. unfold push_all. cbn [fold_res].
    destruct (put sch a r) as [[a' i]| |]; cbn [after fst].
    + destruct H as (w' & Q & R'). rewrite Q. cbn [bind fst]. apply (IH a' w' R' T2).
    + destruct H as [c Q]. rewrite Q. exists c. reflexivity.
    + destruct H.
Qed.

(** ** removal *)
Lemma swapped_out_eq (rows : list row) i : rows <> [] -> swapped_out rows i = swap_remove rows i.
Proof.
  intro L. unfold swapped_out, swap_remove. destruct (list_last_case rows) as [->|(l & x & ->)]; [congruence|].
  rewrite last_last, app_length in *. cbn [length] in *. replace (length l + 1 - 1) with (length l) by lia.
  apply list_ext. intro j. rewrite !nth_error_firstn. destruct (Nat.ltb_spec j (length l)) as [Lj|]; [|reflexivity].
  destruct (Nat.ltb_spec i (length l)) as [Li|Li].
  - rewrite nth_error_list_swap by (rewrite app_length; cbn [length]; lia). destruct (Nat.eqb_spec j i) as [->|Nj].
    + rewrite nth_error_upd_eq by (rewrite app_length; cbn [length]; lia). destruct (Nat.eqb_spec i (length l)); [lia|].
      rewrite nth_error_app2, Nat.sub_diag by lia. reflexivity.
    + rewrite nth_error_upd_ne by auto. destruct (Nat.eqb_spec j (length l)); [lia|reflexivity].
  - rewrite nth_error_upd_ne by lia. reflexivity.
Qed.
Definition same_log (w w' : wlock) : Prop := logs w' = logs w.
Definition rmv (a : plain) (w : wlock) (a' : plain) (w' : wlock) : Prop := rt a' (w_tab w') /\ p_lock a' = p_lock a /\ same_log w w'.
Lemma swapped_plain n ids : kd = Bag -> forall a w, rt a (w_tab w) -> len a <= n ->
  fits (rmv a w) (after (swapped_outs pr n (p_rows a) ids) (fun rows => Fine (with_rows a rows)))
    (fold_res (fun w i => let* _ := assert_ (i <? n) PRemoveRange in delete_raw pr umax w i) ids w).
Proof.
  intro Kd. induction ids as [|i ids IH]; intros a w R Ln; cbn [swapped_outs fold_res].
  - exists w. split; [reflexivity|]. destruct a; split; [exact R|split; reflexivity].
  - destruct (i <? n) eqn:Hi; cbn [assert_ bind after]; [|eexists; reflexivity].
    assert (Kt : t_kind (w_tab w) = Bag) by (rewrite (rt_kind a _ R); exact Kd). assert (Nc : kd <> Consistent) by congruence.
    pose proof (rt_live a _ R Nc) as K. destruct (p_rows a) as [|r0 rs] eqn:Er.
    + clear IH. pose proof (delete_raw_bag_empty umax w _ i K Kt) as Q. destruct pr; [|exact I].
      rewrite Q. eexists. reflexivity.
    + destruct (delete_raw_bag_ok pr umax w _ _ i K Kt) as (cs & Q & K'); [discriminate|]. rewrite Q. cbn [bind].
      rewrite <- swapped_out_eq in K' by discriminate. set (w1 := with_tab w (with_cols (w_tab w) cs)).
      assert (R1 : rt (with_rows a (swapped_out (r0 :: rs) i)) (w_tab w1)) by (eapply rt_rows; eauto).
      specialize (IH _ w1 R1). cbn [p_rows with_rows] in IH.
      assert (L1 : len (with_rows a (swapped_out (r0 :: rs) i)) <= n).
      { unfold len in *. cbn [p_rows with_rows]. unfold swapped_out. rewrite Er in Ln. rewrite firstn_length, upd_length. lia. }
      specialize (IH L1). destruct (swapped_outs pr n (swapped_out (r0 :: rs) i) ids) as [rows| |]; cbn [after fits] in *; auto.
Qed.
Lemma removed_plain a w ids : rt a (w_tab w) ->
  fits (rmv a w) (removed pr sch a (SThese ids))
    (let n := t_len (w_tab w) in fold_res (fun w i => let* _ := assert_ (i <? n) PRemoveRange in delete_raw pr umax w i) ids w).
Proof.
  intro R. cbn zeta. rewrite (rt_len a _ R). pose proof R as (E & K & F & P). unfold removed.
  assert (Other : kd <> Consistent -> kd <> Bag -> fits (rmv a w) (match ids with [] => Fine a | _ => Fails end)
    (fold_res (fun w i => let* _ := assert_ (i <? len a) PRemoveRange in delete_raw pr umax w i) ids w)).
  { intros N1 N2. destruct ids as [|i ids]; cbn [fold_res fits].
    - exists w. split; [reflexivity|]. split; [exact R|split; reflexivity].
    - destruct (i <? len a); cbn [assert_ bind]; [|eexists; reflexivity].
      rewrite delete_raw_other by (unfold t_kind; rewrite E; assumption). eexists. reflexivity. }
  destruct kd eqn:Kd; try (apply Other; discriminate).
  - assert (Kt : t_kind (w_tab w) = Consistent) by (unfold t_kind; rewrite E; exact Kd).
    assert (B : all_below (len a) ids = true <-> Forall (fun i => i < length (p_rows a)) ids).
    { unfold all_below, len. rewrite forallb_forall, Forall_forall. split; intros H i Hi; specialize (H i Hi); apply Nat.ltb_lt; exact H. }
    destruct (all_below (len a) ids) eqn:Ab.
    + destruct (delete_raws_exact pr umax (p_rows a) ids w _ K Kt (proj1 B eq_refl)) as (w' & Q & K' & E' & F' & C1 & C2 & C3).
      exists w'. split; [exact Q|]. split; [|split; [reflexivity|unfold same_log; congruence]].
      split; [congruence|]. split; [exact K'|]. split; [|intro N; congruence]. intro i. rewrite F', F. reflexivity.
    + destruct (LimitsFacts.sharp_removals pr umax (p_rows a) w _ ids K Kt) as [[_ S]|[S _]]; [apply B in S; discriminate|exact S].
  - apply swapped_plain; auto.
Qed.
Lemma emptied_rt a w : rt a (w_tab w) -> rt (emptied a) (w_tab (clear_raw w)).
Proof.
  intros (E & K & F & P). split; [exact E|]. split; [apply (clear_raw_ok w _ _ _ K)|]. split; [exact F|exact P].
Qed.
Lemma tell_empty s : nothing_to_tell s = sel_empty s.
Proof. destruct s as [|[|]]; reflexivity. Qed.
Lemma check_plain p d ev : fits (fun _ _ => True)
  (if (p && d) || (ev_removal ev && ev_creation ev) || (max_event_types <=? ev_id ev) then Fails else Fine tt) (flush_check p d ev).
Proof.
  unfold flush_check. destruct ((p && d) || (ev_removal ev && ev_creation ev)) eqn:A; cbn [negb orb assert_ bind]; [eexists; reflexivity|].
  destruct (Nat.leb_spec max_event_types (ev_id ev)) as [L|L].
  - destruct (Nat.ltb_spec (ev_id ev) max_event_types); [lia|]. eexists. reflexivity.
  - destruct (Nat.ltb_spec (ev_id ev) max_event_types); [|lia]. eexists. split; [reflexivity|exact I].
Qed.
Lemma apply_plain a w (srt : bool) ev s : rt a (w_tab w) -> sel_empty s = false ->
  fits (rmv a w) (if ev_removal ev then removed pr sch a (match s with SThese ids => SThese (if srt then sort_ids ids else ids) | SAll => SAll end) else Fine a)
    (flush_apply pr umax w ev (if srt then sel_sort s else s)).
Proof.
  intros R Se. unfold flush_apply. rewrite sel_sort_empty, Se. cbn [negb]. rewrite andb_true_r.
  destruct (ev_removal ev); [|exists w; split; [reflexivity|split; [exact R|split; reflexivity]]].
  destruct s as [|ids].
  - replace (if srt then sel_sort SAll else SAll) with SAll by (destruct srt; reflexivity). exists (clear_raw w). split; [reflexivity|].
    split; [apply emptied_rt; exact R|split; reflexivity].
  - replace (if srt then sel_sort (SThese ids) else SThese ids) with (SThese (if srt then sort_ids ids else ids)) by (destruct srt; reflexivity).
    apply removed_plain. exact R.
Qed.
Lemma flush_plain a w srt ev : rt a (w_tab w) ->
  fits (fun a' t' => rt a' t' /\ p_lock a' = p_lock a) (flushed pr sch a (logs w) srt ev) (w_flush pr umax srt w ev).
Proof.
  intro R. unfold flushed, w_flush. rewrite tell_empty. destruct (sel_empty (w_changes w)) eqn:Se.
  - unfold w_drop. rewrite Se, andb_false_r. exists (w_tab w). split; [reflexivity|split; [exact R|reflexivity]].
  - pose proof (check_plain (w_pushed w) (w_delete w) ev) as C. destruct ((w_pushed w && w_delete w) || _ || _).
    { destruct C as [c C]. rewrite C. exists c. reflexivity. }
    destruct C as (u & C & _). rewrite C. cbn [bind].
    pose proof (apply_plain a (w_new (w_tab w)) srt ev (w_changes w) R Se) as Ap.
    destruct (if ev_removal ev then _ else _) as [a'| |].
    + destruct Ap as (w' & Q & R' & L' & Sl). rewrite Q. cbn [bind]. unfold same_log in Sl. injection Sl as S1 S2 S3. rewrite S1. cbn [sel_empty assert_ bind].
      unfold w_drop. rewrite S1. cbn [sel_empty negb]. rewrite andb_false_r. exists (w_tab w'). split; [reflexivity|split; assumption].
    + destruct Ap as [c Q]. rewrite Q. exists c. reflexivity.
    + exact I.
Qed.
Lemma live_flush_plain a w srt ev : rt a (w_tab w) -> sel_empty (w_changes w) = false ->
  fits (fun a' w' => rt a' (w_tab w') /\ logs w' = (SThese [], false, false)) (flushed pr sch a (logs w) srt ev) (w_live_flush pr umax srt w ev).
Proof.
  intros R Se. unfold flushed, w_live_flush. rewrite tell_empty, Se.
  pose proof (check_plain (w_pushed w) (w_delete w) ev) as C. destruct ((w_pushed w && w_delete w) || _ || _).
  { destruct C as [c C]. rewrite C. exists c. reflexivity. }
  destruct C as (u & C & _). rewrite C. cbn [bind].
  pose proof (apply_plain a (W (w_tab w) (SThese []) (w_pushed w) (w_delete w)) srt ev (w_changes w) R Se) as Ap.
  destruct (if ev_removal ev then _ else _) as [a'| |].
  - destruct Ap as (w' & Q & R' & L' & Sl). rewrite Q. cbn [bind]. unfold same_log in Sl. injection Sl as S1 S2 S3. rewrite S1. cbn [sel_empty assert_ bind].
    eexists. split; [reflexivity|split; [exact R'|reflexivity]].
  - destruct Ap as [c Q]. rewrite Q. exists c. reflexivity.
  - exact I.
Qed.
Lemma rising_iff ids : rising ids = true <-> StronglySorted lt ids.
Proof.
  induction ids as [|x [|y l] IH].
  - split; constructor.
  - split; [intros _; repeat constructor|reflexivity].
  - change (rising (x :: y :: l)) with ((x <? y) && rising (y :: l)). rewrite andb_true_iff, Nat.ltb_lt, IH. split.
    + intros [Lx S]. constructor; [exact S|]. inversion S as [|? ? S1 S2]; subst. constructor; [exact Lx|].
      eapply Forall_impl; [|exact S2]. intros z Hz. cbn in Hz. lia.
    + intro S. inversion S as [|? ? S1 S2]; subst. inversion S2; subst. split; assumption.
Qed.
Lemma remove_sorted_plain a w ids : rt a (w_tab w) -> kd <> Consistent ->
  fits (rmv a w) (if rising ids && all_below (len a) ids then Fine (with_rows a (without 0 (p_rows a) ids)) else Fails) (sorted_remove_rows w ids).
Proof.
  intros R N. assert (Nt : t_kind (w_tab w) <> Consistent) by (rewrite (rt_kind a _ R); exact N).
  destruct (sorted_remove_rows_ok w _ _ ids (rt_ok _ _ R) Nt) as [H1 H2].
  assert (B : rising ids && all_below (len a) ids = true <-> StronglySorted lt ids /\ Forall (fun i => i < length (p_rows a)) ids).
  { rewrite andb_true_iff, rising_iff. unfold all_below, len. rewrite forallb_forall, Forall_forall.
    split; intros [S H]; (split; [exact S|]); intros i Hi; specialize (H i Hi); apply Nat.ltb_lt; exact H. }
  destruct (rising ids && all_below (len a) ids).
  - destruct (proj1 B eq_refl) as [S F]. destruct (H1 S F) as (w' & Q & Fr & K'). exists w'. split; [exact Q|].
    split; [eapply rt_rows; eauto; apply Fr|]. split; [reflexivity|]. destruct Fr as (_ & C1 & C2 & C3). unfold same_log. congruence.
  - apply H2; [|intro X; apply B in X; discriminate]. intros ->. assert (X : false = true) by (apply B; split; constructor). discriminate.
Qed.

(** ** retain, visit *)
Lemma seen_shown w0 rows k i w x n cur : t_kind (w_tab w0) <> Consistent -> vok w0 w n cur -> skipn k cur = skipn k rows -> i = k ->
  nth_error rows k = Some x -> shown w i = x.
Proof.
  intros N (Fr & K & Ln) Sk -> Hx. unfold shown.
  assert (Hc : nth_error cur k = Some x).
  { rewrite <- (Nat.add_0_r k), <- nth_error_skipn, Sk, nth_error_skipn, Nat.add_0_r. exact Hx. }
  rewrite (t_get_row_ok _ _ _ K k x Hc); [reflexivity|]. eapply t_not_deleted; [exact K|]. rewrite (frame_kind _ _ Fr). exact N.
Qed.
Lemma trace_rows {A} (g : A -> row -> A * action) w0 all : t_kind (w_tab w0) <> Consistent ->
  forall tr rows s s' b, skipn b all = rows -> calls (fun s w i => g s (shown w i)) s tr s' ->
  (forall k c, nth_error tr k = Some c -> fst (fst c) = b + k /\ exists cur, vok w0 (snd (fst c)) (length all) cur /\ skipn (b + k) cur = skipn (b + k) all) ->
  acts_complete (length rows) (map tr_act tr) -> visit_spec rows (map tr_act tr) = visited_rows g s rows.
Proof.
  intro N. induction tr as [|[[i w] x] tr IH]; intros rows s s' b Hb C Se Ac.
  - destruct rows; [reflexivity|destruct Ac].
  - destruct rows as [|r rows]; [destruct Ac|]. cbn [map tr_act snd] in *. destruct C as (s1 & Hg & C).
    destruct (Se 0 _ eq_refl) as (Ei & cur & V & Sk). cbn [fst snd] in Ei, V. rewrite Nat.add_0_r in *.
    assert (Hr : nth_error all b = Some r) by (rewrite <- (Nat.add_0_r b), <- nth_error_skipn, Hb; reflexivity).
    rewrite (seen_shown w0 all b i w r _ _ N V Sk Ei Hr) in Hg. cbn [visited_rows]. rewrite Hg. cbn [fst snd].
    destruct x as [rm add|]; cbn [visit_spec]; [|reflexivity]. cbn [acts_complete length] in Ac. do 2 f_equal.
    apply (IH rows s1 s' (S b)); auto.
    + replace (S b) with (b + 1) by lia. rewrite <- skipn_skipn_add, Hb. reflexivity.
    + intros k c Hk. destruct (Se (S k) c Hk) as (E1 & cur1 & V1 & Sk1). replace (S b + k) with (b + S k) by lia. eauto.
Qed.
Lemma merge0_plain {A} (g : A -> row -> A * action) a w s : wrel a w -> kd <> Consistent -> len a <= imax ->
  (forall s r s' rm add, g s r = (s', Continue rm add) -> Forall (row_ty (s_cols sch)) add) ->
  let out := visited_rows g s (p_rows a) in
  if length out <=? S imax then exists s' w', merge0 pr (fun s w i => g s (shown w i)) s w = Ok (s', w') /\ wrel (with_rows a out) w'
  else exists c, merge0 pr (fun s w i => g s (shown w i)) s w = panic c.
Proof.
  intros R N L T out. assert (Nt : t_kind (w_tab w) <> Consistent) by (rewrite (rt_kind a _ (proj1 R)); exact N).
  destruct (merge0_ok pr (fun s w i => g s (shown w i)) w (p_rows a) s Nt (rt_live a _ (proj1 R) N)) as (s' & tr & C & Se & Ac & H).
  { rewrite (rt_imax a _ (proj1 R)). exact L. }
  { intros s1 w1 i s2 rm add Hg. rewrite (rt_sch a _ (proj1 R)). eapply T. exact Hg. }
  rewrite (rt_imax a _ (proj1 R)) in H. rewrite (trace_rows g w (p_rows a) Nt tr (p_rows a) s s' 0 eq_refl C Se Ac) in H. fold out in H.
  cbn zeta in H. destruct (length out <=? S imax).
  - destruct H as (w' & Q & Fr & K). exists s', w'. split; [exact Q|]. eapply wrel_rows; eauto.
  - rewrite H. eexists. reflexivity.
Qed.
Lemma merge0_plain_full {A} (g : A -> row -> A * action) a w s : wrel a w -> kd <> Consistent -> imax < len a ->
  (forall s r s' rm add, g s r = (s', Continue rm add) -> Forall (row_ty (s_cols sch)) add) ->
  if stops_early sch g s (p_rows a) then
    exists s' w', merge0 pr (fun s w i => g s (shown w i)) s w = Ok (s', w') /\ wrel (with_rows a (visited_rows g s (p_rows a))) w'
  else pr = Debug -> exists c, merge0 pr (fun s w i => g s (shown w i)) s w = panic c.
Proof.
  intros R N L T. assert (Nt : t_kind (w_tab w) <> Consistent) by (rewrite (rt_kind a _ (proj1 R)); exact N).
  pose proof (rt_max a _ (proj1 R)) as Lm.
  assert (Lr : length (p_rows a) = S (t_imax (w_tab w))) by (rewrite (rt_imax a _ (proj1 R)); unfold len in *; lia).
  pose proof (merge0_full pr g w (p_rows a) Nt Lr) as M. rewrite (rt_sch a _ (proj1 R)) in M.
  specialize (M T s (rt_live a _ (proj1 R) N)). destruct (stops_early sch g s (p_rows a)); [|exact M].
  destruct M as (s' & w' & Q & Fr & K). exists s', w'. split; [exact Q|]. eapply wrel_rows; eauto.
Qed.
Lemma kept_visited {A} (g : A -> row -> A * bool) rows : forall s,
  visited_rows (fun s r => let p := g s r in (fst p, Continue (negb (snd p)) [])) s rows = kept_rows g s rows.
Proof.
  induction rows as [|r rows IH]; intro s; [reflexivity|]. cbn [visited_rows kept_rows fst snd]. rewrite IH. destruct (snd (g s r)); reflexivity.
Qed.
Lemma kept_length {A} (g : A -> row -> A * bool) rows : forall s, length (kept_rows g s rows) <= length rows.
Proof.
  induction rows as [|r rows IH]; intro s; [reflexivity|]. cbn [kept_rows length]. specialize (IH (fst (g s r))).
  destruct (snd (g s r)); cbn [length]; lia.
Qed.

(** ** merge *)
Lemma tpos_filter m : forall i, tpos i m = filter (fun j => nth (j - i) (map fst m) false) (seq i (length m)).
Proof.
  induction m as [|[[] r] m IH]; intro i; [reflexivity| |].
  - cbn [tpos length seq filter map fst]. rewrite Nat.sub_diag. cbn [nth]. f_equal. rewrite IH. apply filter_ext_in.
    intros j Hj. apply in_seq in Hj. replace (j - i) with (S (j - S i)) by lia. reflexivity.
  - cbn [tpos length seq filter map fst]. rewrite Nat.sub_diag. cbn [nth]. rewrite IH. apply filter_ext_in.
    intros j Hj. apply in_seq in Hj. replace (j - i) with (S (j - S i)) by lia. reflexivity.
Qed.
Lemma tpos_old l : forall i, tpos i (map (pair false) l) = [].
Proof. induction l as [|x l IH]; intro i; [reflexivity|apply IH]. Qed.
Lemma take_tag (f : row -> bool) l : take_while (fun x : bool * row => f (snd x)) (map (pair false) l) = map (pair false) (take_while f l).
Proof. induction l as [|x l IH]; [reflexivity|]. cbn [map take_while snd]. destruct (f x); [cbn [map]; rewrite IH|]; reflexivity. Qed.
Lemma drop_tag (f : row -> bool) l : drop_while (fun x : bool * row => f (snd x)) (map (pair false) l) = map (pair false) (drop_while f l).
Proof. induction l as [|x l IH]; [reflexivity|]. cbn [map drop_while snd]. destruct (f x); [exact IH|reflexivity]. Qed.
Lemma merge_tag cmp l : forall r, stable_merge (fun x y : bool * row => cmp (snd x) (snd y)) (map (pair false) l) (map (pair true) r) = m2 cmp l r.
Proof.
  induction l as [|x l IHl]; intro r.
  - rewrite m2_nil_l. destruct r; reflexivity.
  - induction r as [|y r IHr]; [rewrite m2_nil_r; reflexivity|].
    rewrite m2_cons. cbn [map]. specialize (IHl (y :: r)). cbn [map] in IHl, IHr.
    change (stable_merge (fun x y : bool * row => cmp (snd x) (snd y)) ((false, x) :: map (pair false) l) ((true, y) :: map (pair true) r))
      with (match cmp x y with
            | Gt => (true, y) :: stable_merge (fun x y : bool * row => cmp (snd x) (snd y)) ((false, x) :: map (pair false) l) (map (pair true) r)
            | _ => (false, x) :: stable_merge (fun x y : bool * row => cmp (snd x) (snd y)) (map (pair false) l) ((true, y) :: map (pair true) r) end).
    destruct (cmp x y); rewrite ?IHl, ?IHr; reflexivity.
Qed.
Lemma merge_ids_eq cmp rows first rest : merge_ids cmp rows (first :: rest) = merged_ids cmp rows first rest.
Proof.
  unfold merge_ids. cbn zeta. cbn [map merge_order].
  change (is_lt (fun x y : bool * row => cmp (snd x) (snd y)) (true, first)) with (fun x : bool * row => is_lt cmp first (snd x)).
  rewrite take_tag, drop_tag, merge_tag. set (M := (true, first) :: m2 cmp (drop_while (is_lt cmp first) rows) rest).
  transitivity (tpos 0 (map (pair false) (take_while (is_lt cmp first) rows) ++ M)).
  - rewrite tpos_filter. apply filter_ext. intro i. rewrite Nat.sub_0_r. reflexivity.
  - rewrite (tpos_app cmp), tpos_old, map_length. reflexivity.
Qed.
Lemma logged_ids tr : forall l0, @logged (list nat) (fun got _ i => got ++ [i]) tr l0 = l0 ++ map snd tr.
Proof.
  unfold logged. induction tr as [|c tr IH]; intro l0; cbn [fold_left map]; [rewrite app_nil_r; reflexivity|].
  rewrite IH, <- app_assoc. reflexivity.
Qed.
Lemma merge_plain {A} (log : A -> wlock -> nat -> A) a w s cmp new : wrel a w -> kd <> Consistent -> Forall (row_ty (s_cols sch)) new ->
  match merged_with pr sch a cmp new with
  | Fine a' => exists w' tr, merge_logged pr cmp log s w new = Ok (logged log tr s, w') /\ wrel a' w' /\ map snd tr = merge_ids cmp (p_rows a) new
  | Fails => exists c, merge_logged pr cmp log s w new = panic c
  | Unsaid => True
  end.
Proof.
  intros R N T. assert (Nt : t_kind (w_tab w) <> Consistent) by (rewrite (rt_kind a _ (proj1 R)); exact N).
  unfold merged_with. destruct new as [|first rest].
  - exists w, []. split; [reflexivity|]. split; [exact R|]. unfold merge_ids. cbn [map merge_order].
    transitivity (tpos 0 (map (pair false) (p_rows a))); [rewrite tpos_old; reflexivity|]. rewrite tpos_filter. apply filter_ext.
    intro i. rewrite Nat.sub_0_r. reflexivity.
  - destruct (Nat.leb_spec (len a) imax) as [L|L].
    2:{ pose proof (rt_max a _ (proj1 R)) as Lm. pose proof (rt_live a _ (proj1 R) N) as K.
        assert (Lr : length (p_rows a) = S (t_imax (w_tab w))) by (rewrite (rt_imax a _ (proj1 R)); unfold len in *; lia).
        pose proof (merge_full pr cmp log s w (p_rows a) first rest Nt K Lr) as M. revert M. destruct pr; intro M; [apply M; left; reflexivity|].
        destruct (forallb (is_lt cmp first) (p_rows a)) eqn:Fb; [exact I|]. apply M. right.
        assert (X : existsb (fun r => negb (is_lt cmp first r)) (p_rows a) = true).
        { clear - Fb. induction (p_rows a) as [|x l IH]; [discriminate|]. cbn [forallb existsb] in *. destruct (is_lt cmp first x); [apply IH; exact Fb|reflexivity]. }
        apply existsb_exists in X. destruct X as (r & Hr & Hn). exists r. split; [exact Hr|]. intro Q. unfold is_lt in Hn. rewrite Q in Hn. discriminate. }
    pose proof (merge_logged_ok pr cmp log s w (p_rows a) first rest Nt (rt_live a _ (proj1 R) N)) as M.
    rewrite (rt_imax a _ (proj1 R)), (rt_sch a _ (proj1 R)), merged_length in M. specialize (M L T). cbn [length]. unfold len.
    destruct (_ <=? S imax).
    + destruct M as (w' & tr & Q & Fr & K & Ids & _). exists w', tr. split; [exact Q|]. split; [eapply wrel_rows; eauto|].
      rewrite merge_ids_eq. exact Ids.
    + rewrite M. eexists. reflexivity.
Qed.
Lemma single_id cmp rows r : merge_ids cmp rows [r] = [length (take_while (is_lt cmp r) rows)].
Proof. rewrite merge_ids_eq. unfold merged_ids. rewrite m2_nil_r. cbn [tpos]. rewrite tpos_old. reflexivity. Qed.

(** ** assignment *)
Lemma assign_plain a t k i v b : rt a t -> nth_error (s_cols sch) k = Some (Plain b) ->
  (forall ct, nth_error (s_cols sch) k = Some ct -> v_ty (ct_base ct) v) ->
  if i <? len a then exists t', t_assign t k i v = Ok t' /\ rt (with_rows a (upd (p_rows a) i (upd (row_at a i) k v))) t'
  else exists c, t_assign t k i v = panic c.
Proof.
  intros R Hk T. pose proof R as (E & K & F & P). assert (T' : forall ct, nth_error (s_cols (t_sch t)) k = Some ct -> v_ty (ct_base ct) v).
  { rewrite E. exact T. }
  pose proof (LimitsFacts.sharp_assign t _ _ K k i v T') as S. rewrite (rt_len a t R) in S.
  destruct (Nat.ltb_spec i (len a)) as [L|L].
  - destruct S as [[[t' Q] _]|[_ S]]; [|elim S; split; [rewrite E; eauto|exact L]].
    exists t'. split; [exact Q|]. destruct (assign_exact t k i v t' _ _ K T' Q) as (r & Hr & K').
    rewrite (rt_row a i L) in Hr. injection Hr as <-.
    assert (Et : t_sch t' = t_sch t /\ t_free t' = t_free t).
    { unfold t_assign in Q. destruct (nth_error (t_cols t) k) as [[?|? ?]|]; try discriminate. bindn Q c Hc. injection Q as <-. auto. }
    destruct Et as [E1 E2]. split; [congruence|]. split; [exact K'|]. split; [rewrite E2; exact F|exact P].
  - destruct S as [[_ [_ S]]|[S _]]; [lia|exact S].
Qed.

(** ** every call *)
Definition both (st : state) (c : call) : res (state * answer) :=
  let* st' := step pr umax st (op_of c) in let* x := answer_of pr umax st c in Ok (st', x).
Definition sim (p : plain * answer) (q : state * answer) : Prop := rel (fst p) (fst q) /\ snd q = snd p.
Definition lock_call (o : op) : bool := match o with OLock | OClose | OFlush _ _ | ORemoveRows _ _ _ => true | _ => false end.
Lemma step_write w o : t_sch (w_tab w) = sch -> avail kd o = true -> lock_call o = false ->
  step pr umax (Locked w []) o = let* p := write_op pr umax w [] o in Ok (Locked (fst p) (snd p)).
Proof. intros E A L. unfold step. cbn [st_tab]. unfold t_kind. rewrite E, A. destruct o; reflexivity || discriminate. Qed.
Lemma wrel_rel a w : wrel a w -> rel a (Locked w []).
Proof. intros [R L]. unfold rel. rewrite L. split; [exact R|reflexivity]. Qed.
Lemma relw a w l : rel a (Locked w []) -> p_lock a = Some l -> wrel a w /\ l = logs w.
Proof. unfold rel, wrel. intros H L. rewrite L in H. destruct H as [R ->]. auto. Qed.
Lemma both_ok st c st' x p : step pr umax st (op_of c) = Ok st' -> answer_of pr umax st c = Ok x -> rel (fst p) st' -> x = snd p ->
  fits sim (Fine p) (both st c).
Proof. intros Q A R Ex. unfold both. rewrite Q. cbn [bind]. rewrite A. eexists. split; [reflexivity|]. split; [exact R|exact Ex]. Qed.
Lemma both_fails st c e : step pr umax st (op_of c) = panic e -> fits sim Fails (both st c).
Proof. intro Q. unfold both. rewrite Q. exists e. reflexivity. Qed.
Lemma debug_fails x : (pr = Debug -> fits sim Fails x) -> fits sim (match pr with Debug => Fails | Release => Unsaid end) x.
Proof. destruct pr; [intro H; apply H; reflexivity|intros _; exact I]. Qed.
Lemma sorted_not_consistent : kind_eqb kd Sorted = true -> kd = Sorted /\ kd <> Consistent.
Proof. destruct kd; simpl; try discriminate. split; congruence. Qed.

Lemma does_ok a w c : wrel a w -> call_ty (s_cols sch) c -> fits sim (does pr umax sch a (logs w) c) (both (Locked w []) c).
Proof.
  intros R T. pose proof (proj1 R) as Rt. pose proof (proj2 R) as Lk. pose proof (rt_sch _ _ Rt) as E. pose proof (rt_kind _ _ Rt) as Ek.
  assert (Same : rel a (Locked w [])) by (apply wrel_rel; exact R).
  destruct c as [o|A g s|A g s|cmp rows].
  - destruct o; try exact I; cbn [does call_ty op_ty] in *.
    + (* live flush *)
      assert (Sw : step pr umax (Locked w []) (OLiveFlush srt ev) = let* x := w_live_flush pr umax srt w ev in Ok (Locked x [])).
      { rewrite step_write; [|exact E|destruct kd; reflexivity|reflexivity]. cbn [write_op]. destruct (w_live_flush _ _ _ _ _); reflexivity. }
      rewrite tell_empty. destruct (sel_empty (w_changes w)) eqn:Se.
      * eapply both_ok; cbn [op_of]; [|reflexivity|exact Same|reflexivity]. rewrite Sw. unfold w_live_flush. rewrite Se. reflexivity.
      * pose proof (live_flush_plain a w srt ev Rt Se) as L.
        destruct (flushed pr sch a (logs w) srt ev) as [a'| |]; cbn [after]; [|destruct L as [e L]; eapply both_fails; cbn [op_of]; rewrite Sw, L; reflexivity|exact I].
        destruct L as (w' & Q & R' & Lg). eapply both_ok; cbn [op_of]; [rewrite Sw, Q; reflexivity|reflexivity| |reflexivity].
        cbn [fst]. unfold rel. cbn [p_lock with_lock]. split; [exact R'|congruence].
    + (* next pushed *)
      destruct (kind_eqb kd Sorted) eqn:Ks; [exact I|].
      assert (Sw : step pr umax (Locked w []) ONextPushed = let* x := next_pushed (w_tab w) in Ok (Locked w [])).
      { rewrite step_write; [|exact E|destruct kd; reflexivity || discriminate|reflexivity]. cbn [write_op]. destruct (next_pushed _); reflexivity. }
      unfold next_pushed, rid_from_usize in Sw. rewrite (rt_len _ _ Rt), (rt_imax _ _ Rt) in Sw.
      destruct (len a <=? imax) eqn:L.
      * eapply both_ok; cbn [op_of answer_of st_tab]; [exact Sw| |exact Same|reflexivity].
        unfold next_pushed, rid_from_usize. rewrite (rt_len _ _ Rt), (rt_imax _ _ Rt), L. cbn [bind]. rewrite (free_first _ _ Rt).
        destruct (t_free (w_tab w)); reflexivity.
      * eapply both_fails. exact Sw.
    + (* editing *)
      assert (Sw : step pr umax (Locked w []) (OEdit ops) = let* x := let* it := t_editing (w_tab w) in
        let* l := cons_run pr (t_imax (w_tab w)) umax ops it in read_plain (w_tab w) l in Ok (Locked w [])).
      { rewrite step_write; [|exact E|destruct kd; reflexivity|reflexivity]. cbn [write_op]. destruct (t_editing _); [cbn [bind]|reflexivity].
        destruct (cons_run _ _ _ _ _); [cbn [bind]|reflexivity]. destruct (read_plain _ _); reflexivity. }
      destruct (Nat.leb_spec (len a) imax) as [L|L].
      * assert (L' : length (p_rows a) <= t_imax (w_tab w)) by (rewrite (rt_imax _ _ Rt); exact L).
        rewrite (t_editing_ok _ _ _ (rt_ok _ _ Rt) L') in Sw. cbn [bind] in Sw. rewrite (rt_imax _ _ Rt) in Sw.
        destruct (told_ok a (w_tab w) Rt ops 0 (len a) (t_get_row (w_tab w)) (le_n _) L (get_plain a (w_tab w) Rt)) as [T1 T2].
        unfold read_plain in Sw. fold (len a) in Sw.
        assert (An : answer_of pr umax (Locked w []) (Do (OEdit ops)) =
          let* l := cons_run pr imax umax ops (cons_new (RI 0 (len a)) (t_free (w_tab w))) in items (t_get_row (w_tab w)) l).
        { cbn [answer_of st_tab]. rewrite (t_editing_ok _ _ _ (rt_ok _ _ Rt) L'). cbn [bind]. rewrite (rt_imax _ _ Rt). reflexivity. }
        destruct (told pr umax sch a ops 0 (len a)) as [x| |]; cbn [after].
        -- destruct T1 as (y & T1 & ->). destruct T2 as (u & T2 & _). rewrite T2 in Sw. cbn [bind] in Sw. rewrite T1 in An.
           eapply both_ok; cbn [op_of]; [exact Sw|exact An|exact Same|reflexivity].
        -- destruct T2 as [e T2]. rewrite T2 in Sw. eapply both_fails. cbn [op_of]. exact Sw.
        -- exact I.
      * destruct (t_iter_full a (w_tab w) Rt L) as [_ [e Q]]. rewrite Q in Sw. eapply both_fails. cbn [op_of]. exact Sw.
    + (* assign *)
      destruct (nth_error (s_cols sch) k) as [[b|b]|] eqn:Hk; try exact I.
      assert (Ty : forall ct, nth_error (s_cols sch) k = Some ct -> v_ty (ct_base ct) v) by (rewrite Hk; exact T).
      assert (Sw : step pr umax (Locked w []) (OAssign k i v) = let* x := t_assign (w_tab w) k i v in Ok (Locked (with_tab w x) [])).
      { rewrite step_write; [|exact E|destruct kd; reflexivity|reflexivity]. cbn [write_op]. destruct (t_assign _ _ _ _); reflexivity. }
      pose proof (assign_plain a (w_tab w) k i v b Rt Hk Ty) as A. destruct (i <? len a).
      * destruct A as (t' & Q & R'). eapply both_ok; cbn [op_of]; [rewrite Sw, Q; reflexivity|reflexivity| |reflexivity].
        apply wrel_rel. split; [exact R'|exact Lk].
      * destruct A as [e Q]. eapply both_fails. cbn [op_of]. rewrite Sw, Q. reflexivity.
    + (* push *)
      destruct (kind_eqb kd Sorted) eqn:Ks; [exact I|].
      assert (Sw : step pr umax (Locked w []) (OPush r) = let* x := push w r in Ok (Locked (fst x) [])).
      { rewrite step_write; [|exact E|destruct kd; reflexivity || discriminate|reflexivity]. cbn [write_op]. destruct (push w r); reflexivity. }
      pose proof (push_plain a w r R T) as P. destruct (put sch a r) as [[a' i]| |]; cbn [after fst snd].
      * destruct P as (w' & Q & R'). eapply both_ok; cbn [op_of answer_of]; [rewrite Sw, Q; reflexivity|rewrite Q; reflexivity| |reflexivity].
        apply wrel_rel. exact R'.
      * destruct P as [e Q]. eapply both_fails. cbn [op_of]. rewrite Sw, Q. reflexivity.
      * exact I.
    + (* push_all *)
      destruct (kind_eqb kd Sorted) eqn:Ks; [exact I|].
      assert (Sw : step pr umax (Locked w []) (OPushAll rs) = let* x := push_all w rs in Ok (Locked x [])).
      { rewrite step_write; [|exact E|destruct kd; reflexivity || discriminate|reflexivity]. cbn [write_op]. destruct (push_all w rs); reflexivity. }
      pose proof (push_all_plain rs a w R T) as P. destruct (puts sch a rs) as [a'| |]; cbn [after].
      * destruct P as (w' & Q & R'). eapply both_ok; cbn [op_of answer_of]; [rewrite Sw, Q; reflexivity|reflexivity| |reflexivity].
        apply wrel_rel. exact R'.
      * destruct P as [e Q]. eapply both_fails. cbn [op_of]. rewrite Sw, Q. reflexivity.
      * exact I.
    + (* push_array *)
      destruct (kind_eqb kd Sorted) eqn:Ks; [exact I|].
      assert (Sw : step pr umax (Locked w []) (OPushArray rs) = let* x := push_array pr w rs in Ok (Locked (fst x) [])).
      { rewrite step_write; [|exact E|destruct kd; reflexivity || discriminate|reflexivity]. cbn [write_op]. destruct (push_array pr w rs); reflexivity. }
      destruct rs as [|r rs].
      * eapply both_ok; cbn [op_of answer_of]; [rewrite Sw; reflexivity|cbn [push_array bind snd]; reflexivity|exact Same|].
        cbn [snd]. unfold rr_empty. rewrite (rt_imax _ _ Rt). reflexivity.
      * pose proof (push_array_plain a w r rs R T) as P. cbn zeta in P. cbn zeta.
        assert (Go : forall b, (exists w', push_array pr w (r :: rs) = Ok (w', RR (len a) b) /\ wrel (grow sch a (r :: rs)) w') ->
          fits sim (Fine (grow sch a (r :: rs), ASpan (len a) b)) (both (Locked w []) (Do (OPushArray (r :: rs))))).
        { intros b (w' & Q & R'). eapply both_ok; cbn [op_of answer_of]; [rewrite Sw, Q; reflexivity|rewrite Q; reflexivity| |reflexivity].
          apply wrel_rel. exact R'. }
        assert (No : (exists c, push_array pr w (r :: rs) = panic c) -> fits sim Fails (both (Locked w []) (Do (OPushArray (r :: rs))))).
        { intros [e Q]. eapply both_fails. cbn [op_of]. rewrite Sw, Q. reflexivity. }
        destruct (len a + length (r :: rs) <=? imax); [apply Go; exact P|]. revert Go No P. destruct pr; intros Go No P; [auto|].
        destruct (len a + length (r :: rs) =? S imax); auto.
    + (* delete *)
      destruct kd eqn:Kd; try exact I.
      * assert (Sw : step pr umax (Locked w []) (ODelete i) = let* x := delete pr umax w i in Ok (Locked x [])).
        { rewrite step_write; [|exact E|rewrite Kd; reflexivity|reflexivity]. cbn [write_op]. destruct (delete _ _ _ _); reflexivity. }
        unfold delete in Sw. rewrite Ek in Sw. pose proof (rt_check a (w_tab w) Rt i) as C. destruct (there a i).
        -- destruct C as (x & C & <-). rewrite C in Sw. cbn [bind] in Sw. eapply both_ok; cbn [op_of]; [exact Sw|reflexivity| |reflexivity].
           apply wrel_rel. split; [rewrite event_del_tab; apply note_rt; exact Rt|].
           cbn [fst]. erewrite note_lock by exact Lk. rewrite Kd. cbn [kind_eqb]. rewrite orb_true_r, orb_false_r, more_push.
           unfold event_del. rewrite Ek. reflexivity.
        -- destruct C as [e C]. rewrite C in Sw. eapply both_fails. exact Sw.
      * assert (Sw : step pr umax (Locked w []) (ODelete i) = let* x := delete pr umax w i in Ok (Locked x [])).
        { rewrite step_write; [|exact E|rewrite Kd; reflexivity|reflexivity]. cbn [write_op]. destruct (delete _ _ _ _); reflexivity. }
        assert (Nc : kd <> Consistent) by congruence. pose proof (rt_live a _ Rt Nc) as K.
        destruct (Nat.ltb_spec i (len a)) as [L|L].
        -- destruct (delete_bag_ok pr umax w _ i K Ek L) as (cs & Q & K').
           eapply both_ok; cbn [op_of]; [rewrite Sw, Q; reflexivity|reflexivity| |reflexivity].
           apply wrel_rel. eapply wrel_rows; [exact R|exact Nc|apply frame_cols|].
           rewrite swapped_out_eq; [exact K'|]. intro X. unfold len in L. rewrite X in L. simpl in L. lia.
        -- eapply both_fails. cbn [op_of]. rewrite Sw, (delete_bag_bad pr umax w _ i K Ek L). reflexivity.
    + (* select *)
      eapply both_ok; cbn [op_of]; [rewrite step_write; [reflexivity|exact E|destruct kd; reflexivity|reflexivity]|reflexivity| |reflexivity].
      cbn [fst snd]. apply wrel_rel. split; [exact Rt|]. cbn [p_lock with_lock]. rewrite more_push. reflexivity.
    + eapply both_ok; cbn [op_of]; [rewrite step_write; [reflexivity|exact E|destruct kd; reflexivity|reflexivity]|reflexivity| |reflexivity].
      cbn [fst snd]. apply wrel_rel. split; [exact Rt|reflexivity].
    + (* clear *)
      assert (Sw : step pr umax (Locked w []) OClear = Ok (Locked (clear w) [])).
      { rewrite step_write; [reflexivity|exact E|destruct kd; reflexivity|reflexivity]. }
      unfold clear, event_cleared in Sw. rewrite Ek in Sw.
      destruct kd eqn:Kd; (eapply both_ok; cbn [op_of]; [exact Sw|reflexivity| |reflexivity]); cbn [fst snd]; try exact Same.
      * apply wrel_rel. split; [apply emptied_rt; exact Rt|exact Lk].
      * apply wrel_rel. split; [exact Rt|reflexivity].
      * apply wrel_rel. split; [apply emptied_rt; exact Rt|exact Lk].
    + assert (Sw : step pr umax (Locked w []) OClearRaw = Ok (Locked (clear_raw w) [])).
      { rewrite step_write; [reflexivity|exact E|destruct kd; reflexivity|reflexivity]. }
      eapply both_ok; cbn [op_of]; [exact Sw|reflexivity| |reflexivity]. apply wrel_rel. split; [apply emptied_rt; exact Rt|exact Lk].
    + (* remove_rows of a sorted lock *)
      destruct (kind_eqb kd Sorted) eqn:Ks; [|exact I]. destruct (sorted_not_consistent Ks) as [Kd Nc].
      assert (Sw : step pr umax (Locked w []) (ORemoveSorted rows) = let* x := sorted_remove_rows w rows in Ok (Locked x [])).
      { rewrite step_write; [|exact E|rewrite Kd; reflexivity|reflexivity]. cbn [write_op]. destruct (sorted_remove_rows _ _); reflexivity. }
      pose proof (remove_sorted_plain a w rows Rt Nc) as P. destruct (rising rows && all_below (len a) rows).
      * destruct P as (w' & Q & R' & L' & Sl). eapply both_ok; cbn [op_of]; [rewrite Sw, Q; reflexivity|reflexivity| |reflexivity].
        apply wrel_rel. split; [exact R'|]. cbn [fst]. rewrite L', Lk. f_equal. symmetry. exact Sl.
      * destruct P as [e Q]. eapply both_fails. cbn [op_of]. rewrite Sw, Q. reflexivity.
    + (* merge *)
      destruct (kind_eqb kd Sorted) eqn:Ks; [|exact I]. destruct (sorted_not_consistent Ks) as [Kd Nc].
      assert (Sw : step pr umax (Locked w []) (OMerge cmp rows) = let* x := merge_vec pr cmp w rows in Ok (Locked x [])).
      { rewrite step_write; [|exact E|rewrite Kd; reflexivity|reflexivity]. cbn [write_op]. destruct (merge_vec _ _ _ _); reflexivity. }
      unfold merge_vec, merge in Sw.
      pose proof (merge_plain (fun _ _ _ => tt) a w tt cmp (sort_rows cmp rows) R Nc (sort_rows_ty sch cmp rows T)) as P.
      destruct (merged_with pr sch a cmp (sort_rows cmp rows)) as [a'| |]; cbn [after].
      * destruct P as (w' & tr & Q & R' & _). rewrite Q in Sw. eapply both_ok; cbn [op_of]; [exact Sw|reflexivity|apply wrel_rel; exact R'|reflexivity].
      * destruct P as [e Q]. rewrite Q in Sw. eapply both_fails. exact Sw.
      * exact I.
    + destruct (kind_eqb kd Sorted) eqn:Ks; [|exact I]. destruct (sorted_not_consistent Ks) as [Kd Nc].
      assert (Sw : step pr umax (Locked w []) (OMergeSingle cmp r) = let* x := merge_in_a_single_row pr cmp w r in Ok (Locked (fst x) [])).
      { rewrite step_write; [|exact E|rewrite Kd; reflexivity|reflexivity]. cbn [write_op]. destruct (merge_in_a_single_row _ _ _ _); reflexivity. }
      pose proof (merge_plain (fun got _ i => got ++ [i]) a w [] cmp [r] R Nc (Forall_cons _ T (Forall_nil _))) as P.
      unfold merge_in_a_single_row in Sw.
      destruct (merged_with pr sch a cmp [r]) as [a'| |]; cbn [after].
      * destruct P as (w' & tr & Q & R' & Ids). rewrite single_id in Ids. rewrite logged_ids, Ids in Q. cbn [app] in Q.
        rewrite Q in Sw. cbn [bind fst snd] in Sw. eapply both_ok; cbn [op_of]; [exact Sw| |apply wrel_rel; exact R'|reflexivity].
        cbn [answer_of]. unfold merge_in_a_single_row. rewrite Q. reflexivity.
      * destruct P as [e Q]. rewrite Q in Sw. eapply both_fails. exact Sw.
      * exact I.
  - (* retain *)
    cbn [does]. destruct (kind_eqb kd Consistent) eqn:Kc; [exact I|].
    assert (Nc : kd <> Consistent) by (intro X; apply kd_cons in X; congruence).
    set (h := fun (s : A) (r : row) => let p := g s r in (fst p, Continue (negb (snd p)) [])).
    assert (Sw : step pr umax (Locked w []) (op_of (CRetain A g s)) = let* x := merge0 pr (fun s w i => h s (shown w i)) s w in Ok (Locked (snd x) [])).
    { cbn [op_of]. rewrite step_write; [|exact E|destruct kd; reflexivity || congruence|reflexivity]. cbn [write_op]. unfold retain, h.
      destruct (merge0 _ _ _ _); reflexivity. }
    assert (Th : forall s1 r s2 rm add, h s1 r = (s2, Continue rm add) -> Forall (row_ty (s_cols sch)) add).
    { intros s1 r s2 rm add X. unfold h in X. injection X as _ _ <-. constructor. }
    destruct (Nat.leb_spec (len a) imax) as [L|L].
    2:{ pose proof (merge0_plain_full h a w s R Nc L Th) as P.
        assert (Ns : stops_early sch h s (p_rows a) = false).
        { unfold stops_early. assert (B : forall rows s i n, broke h s rows i n = None); [|rewrite B; reflexivity].
          clear. induction rows as [|r rows IH]; intros s i n; [reflexivity|]. cbn [broke h snd fst]. apply IH. }
        rewrite Ns in P. apply debug_fails. intro D. destruct (P D) as [e Q]. rewrite Q in Sw. eapply both_fails. exact Sw. }
    pose proof (merge0_plain h a w s R Nc L) as P. cbn zeta in P.
    assert (Kv : visited_rows h s (p_rows a) = kept_rows g s (p_rows a)) by apply kept_visited. rewrite Kv in P.
    destruct (Nat.leb_spec (length (kept_rows g s (p_rows a))) (S imax)) as [L2|L2].
    + destruct P as (s' & w' & Q & R'); [exact Th|].
      rewrite Q in Sw. eapply both_ok; [exact Sw|reflexivity|apply wrel_rel; exact R'|reflexivity].
    + pose proof (kept_length g (p_rows a) s). unfold len in L. lia.
  - (* visit *)
    cbn [does call_ty] in *. destruct (kind_eqb kd Consistent || kind_eqb kd Sorted) eqn:Kc; [exact I|]. apply orb_false_iff in Kc. destruct Kc as [Kc Ks].
    assert (Nc : kd <> Consistent) by (intro X; apply kd_cons in X; congruence).
    assert (Sw : step pr umax (Locked w []) (op_of (CVisit A g s)) = let* x := merge0 pr (fun s w i => g s (shown w i)) s w in Ok (Locked (snd x) [])).
    { cbn [op_of]. rewrite step_write; [|exact E|destruct kd; reflexivity || discriminate|reflexivity]. cbn [write_op]. unfold visit.
      destruct (merge0 _ _ _ _); reflexivity. }
    destruct (Nat.leb_spec (len a) imax) as [L|L].
    2:{ pose proof (merge0_plain_full g a w s R Nc L T) as P. cbn zeta. destruct (stops_early sch g s (p_rows a)).
        - destruct P as (s' & w' & Q & R'). rewrite Q in Sw. eapply both_ok; [exact Sw|reflexivity|apply wrel_rel; exact R'|reflexivity].
        - apply debug_fails. intro D. destruct (P D) as [e Q]. rewrite Q in Sw. eapply both_fails. exact Sw. }
    pose proof (merge0_plain g a w s R Nc L T) as P. cbn zeta in P. cbn zeta. destruct (length (visited_rows g s (p_rows a)) <=? S imax).
    + destruct P as (s' & w' & Q & R'). rewrite Q in Sw. eapply both_ok; [exact Sw|reflexivity|apply wrel_rel; exact R'|reflexivity].
    + destruct P as [e Q]. rewrite Q in Sw. eapply both_fails. exact Sw.
  - (* merge_logged *)
    cbn [does call_ty] in *. destruct (kind_eqb kd Sorted) eqn:Ks; [|exact I]. destruct (sorted_not_consistent Ks) as [Kd Nc].
    assert (Sw : step pr umax (Locked w []) (op_of (CMergeLogged cmp rows)) =
      let* x := merge_logged pr cmp (fun got _ i => got ++ [i]) [] w rows in Ok (Locked (snd x) [])).
    { cbn [op_of]. rewrite step_write; [|exact E|rewrite Kd; reflexivity|reflexivity]. cbn [write_op]. destruct (merge_logged _ _ _ _ _ _); reflexivity. }
    pose proof (merge_plain (fun got _ i => got ++ [i]) a w [] cmp rows R Nc T) as P.
    destruct (merged_with pr sch a cmp rows) as [a'| |]; cbn [after].
    + destruct P as (w' & tr & Q & R' & Ids). rewrite logged_ids, Ids in Q. cbn [app] in Q. rewrite Q in Sw. cbn [bind fst snd] in Sw.
      eapply both_ok; [exact Sw|cbn [answer_of]; rewrite Q; reflexivity|apply wrel_rel; exact R'|reflexivity].
    + destruct P as [e Q]. rewrite Q in Sw. eapply both_fails. exact Sw.
    + exact I.
Qed.
Lemma with_lock_rel a t : rt a t -> rel (with_lock a None) (Free t).
Proof. intro R. exact R. Qed.
Lemma remove_cons_plain a w srt ev s : kd = Consistent -> rt a (w_tab w) ->
  fits (fun a' t' => rt a' t')
    (match s with
     | SThese ids => after (removed pr sch a s) (fun a => flushed pr sch a (logs w) srt ev)
     | SAll => flushed pr sch (emptied a) (SAll, w_pushed w, true) srt ev
     end) (w_remove_rows pr umax srt w ev s).
Proof.
  intros Kd R. unfold w_remove_rows. destruct s as [|ids].
  - cbn [bind]. rewrite LimitsFacts.cleared by (rewrite (rt_kind _ _ R); exact Kd).
    pose proof (flush_plain (emptied a) (W (w_tab (clear_raw w)) SAll (w_pushed w) true) srt ev (emptied_rt a w R)) as F.
    cbn [w_changes w_pushed w_delete] in F. destruct (flushed pr sch (emptied a) (SAll, w_pushed w, true) srt ev) as [a'| |]; auto.
    destruct F as (t' & Q & R' & _). exists t'. split; assumption.
  - pose proof (removed_plain a w ids R) as P. cbn zeta in P. cbn zeta. eapply fits_after; [exact P|]. intros a1 w1 _ _ (R1 & _ & Sl).
    pose proof (flush_plain a1 w1 srt ev R1) as F. unfold same_log in Sl. rewrite Sl in F.
    destruct (flushed pr sch a1 (logs w) srt ev) as [a'| |]; auto. destruct F as (t' & Q & R' & _). exists t'. split; assumption.
Qed.
Lemma remove_ok a st srt ev s : rel a st ->
  fits sim (after (removes_rows pr sch a srt ev s) (fun a => Fine (a, ANothing))) (both st (Do (ORemoveRows srt ev s))).
Proof.
  intro R. unfold removes_rows.
  assert (Cons : kd = Consistent -> forall w, (st = Free (w_tab w) /\ w = w_new (w_tab w) \/ st = Locked w []) -> rt a (w_tab w) ->
    fits sim (after (after (match s with
             | SThese ids => after (removed pr sch a s) (fun a => flushed pr sch a (logs w) srt ev)
             | SAll => flushed pr sch (emptied a) (SAll, w_pushed w, true) srt ev
             end) (fun a => Fine (with_lock a None))) (fun a => Fine (a, ANothing))) (both st (Do (ORemoveRows srt ev s)))).
  { intros Kd w Es Rt.
    assert (Sw : step pr umax st (ORemoveRows srt ev s) = let* t := w_remove_rows pr umax srt w ev s in Ok (Free t)).
    { pose proof (rt_kind _ _ Rt) as Ek. rewrite Kd in Ek. unfold step. destruct Es as [[-> Ew]|[= ->]]; cbn [st_tab]; rewrite Ek; cbn [avail].
      - rewrite <- Ew. reflexivity.
      - reflexivity. }
    pose proof (remove_cons_plain a w srt ev s Kd Rt) as P.
    set (o := match s with SThese _ => _ | SAll => _ end) in *. destruct o as [a'| |]; cbn [after].
    - destruct P as (t' & Q & R'). rewrite Q in Sw. eapply both_ok; cbn [op_of]; [exact Sw| |exact R'|reflexivity].
      cbn [answer_of]. destruct st; reflexivity.
    - destruct P as [e Q]. rewrite Q in Sw. eapply both_fails. exact Sw.
    - exact I. }
  destruct kd eqn:Kd; try exact I.
  - destruct st as [t|w [|bx bxs]]; unfold rel in R; destruct (p_lock a) as [[[lg p] d]|] eqn:Lk; try tauto.
    + apply (Cons eq_refl (w_new t)); [left; split; reflexivity|exact R].
    + destruct R as [R L]. injection L as -> -> ->. apply (Cons eq_refl w); [right; reflexivity|exact R].
  - destruct (p_lock a) as [l|] eqn:Lk; [exact I|]. destruct st as [t|w [|bx bxs]]; unfold rel in R; try rewrite Lk in R; try tauto.
    assert (Sw : step pr umax (Free t) (ORemoveRows srt ev s) = let* t := sorted_table_remove_rows pr umax srt t ev s in Ok (Free t)).
    { pose proof (rt_kind _ _ R) as Ek. rewrite Kd in Ek. unfold step. cbn [st_tab]. rewrite Ek. reflexivity. }
    unfold sorted_table_remove_rows in Sw.
    assert (Nc : kd <> Consistent) by congruence.
    assert (Fl : forall w, same_log (w_new t) w -> w_flush pr umax srt w ev = Ok (w_tab w)).
    { intros w Sl. unfold same_log in Sl. injection Sl as S1 S2 S3. unfold w_flush, w_drop. rewrite S1. cbn [sel_empty negb]. rewrite andb_false_r. reflexivity. }
    destruct s as [|ids].
    + cbn [after]. eapply both_ok; cbn [op_of]; [|reflexivity| |reflexivity].
      * rewrite Sw. cbn [bind]. assert (Ec : clear (clear_raw (w_new t)) = clear_raw (w_new t)).
        { unfold clear, event_cleared. change (t_kind (w_tab (clear_raw (w_new t)))) with (t_kind t). rewrite (rt_kind _ _ R), Kd. reflexivity. }
        rewrite Ec, Fl by reflexivity. reflexivity.
      * cbn [fst]. unfold rel. cbn [p_lock emptied with_rows]. rewrite Lk. apply (emptied_rt a (w_new t)). exact R.
    + pose proof (remove_sorted_plain a (w_new t) ids R Nc) as P. destruct (rising ids && all_below (len a) ids); cbn [after].
      * destruct P as (w' & Q & R' & L' & Sl). eapply both_ok; cbn [op_of]; [|reflexivity| |reflexivity].
        -- rewrite Sw, Q. cbn [bind]. rewrite Fl by exact Sl. reflexivity.
        -- cbn [fst]. unfold rel. rewrite L', Lk. exact R'.
      * destruct P as [e Q]. eapply both_fails. cbn [op_of]. rewrite Sw, Q. reflexivity.
Qed.
Lemma rel_tab a st : rel a st -> rt a (st_tab st).
Proof. unfold rel. destruct st as [t|w [|bx bxs]], (p_lock a); try tauto. Qed.
Lemma looks_all a st o : rel a st -> avail kd o = true \/ looks pr umax sch a o = Unsaid ->
  match o with OGet _ | OCell _ _ | OFind _ _ | OLast | ODump | ORange _ _ | OIter _ => True | _ => False end ->
  fits sim (after (looks pr umax sch a o) (fun x => Fine (a, x))) (both st (Do o)).
Proof.
  intros R Av Ho. pose proof (rel_tab _ _ R) as Rt. destruct Av as [Av|Av]; [|rewrite Av; exact I].
  assert (Sw : step pr umax st o = let* _ := read_op pr umax (st_tab st) o in Ok st).
  { unfold step. rewrite (rt_kind _ _ Rt), Av. destruct st as [t|w [|bx bxs]]; cbn [st_tab].
    - destruct o; try tauto; reflexivity.
    - destruct o; try tauto; cbn [write_op]; destruct (read_op _ _ _ _); reflexivity.
    - unfold rel in R. destruct (p_lock a); tauto. }
  destruct (looks_ok a (st_tab st) Rt st o eq_refl) as [L1 L2]. destruct (looks pr umax sch a o) as [x| |]; cbn [after].
  - destruct L1 as (u & L1 & _). destruct L2 as (y & L2 & ->). rewrite L1 in Sw. eapply both_ok; cbn [op_of]; [exact Sw|exact L2|exact R|reflexivity].
  - destruct L1 as [e L1]. rewrite L1 in Sw. eapply both_fails. exact Sw.
  - exact I.
Qed.
Lemma acts_ok a st c : rel a st -> call_ty (s_cols sch) c -> fits sim (acts pr umax sch a c) (both st c).
Proof.
  intros R T.
  assert (W : forall l, p_lock a = Some l -> exists w, st = Locked w [] /\ wrel a w /\ l = logs w).
  { intros l Lk. destruct st as [t|w [|bx bxs]]; unfold rel in R; try rewrite Lk in R; try tauto. exists w. split; [reflexivity|]. destruct R as [R ->].
    split; [split; assumption|reflexivity]. }
  assert (F : p_lock a = None -> exists t, st = Free t /\ rt a t).
  { intro Lk. destruct st as [t|w [|bx bxs]]; unfold rel in R; try rewrite Lk in R; try tauto. eauto. }
  assert (D : forall l, p_lock a = Some l -> fits sim (does pr umax sch a l c) (both st c)).
  { intros l Lk. destruct (W l Lk) as (w & -> & Rw & ->). apply does_ok; assumption. }
  unfold acts. destruct c as [o|? ? ?|? ? ?|? ?]; try (destruct (p_lock a) as [l|] eqn:Lk; [apply D; reflexivity|exact I]).
  destruct o; try (destruct (p_lock a) as [l|] eqn:Lk; [apply D; reflexivity|exact I]).
  - destruct (p_lock a) as [l|] eqn:Lk; [apply D; reflexivity|]. destruct (F eq_refl) as (t & -> & Rt).
    eapply both_ok; cbn [op_of]; [|reflexivity| |reflexivity].
    + unfold step. cbn [st_tab]. rewrite (rt_kind _ _ Rt). destruct kd; reflexivity.
    + cbn [fst]. unfold rel. cbn [p_lock with_lock]. split; [exact Rt|reflexivity].
  - destruct (p_lock a) as [[[s p] d]|] eqn:Lk; [|exact I]. destruct (W _ eq_refl) as (w & -> & Rw & Lg). injection Lg as -> -> ->.
    assert (Sw : step pr umax (Locked w []) OClose = let* t := w_drop w in Ok (Free t)).
    { unfold step. cbn [st_tab]. rewrite (rt_kind _ _ (proj1 Rw)). destruct kd; reflexivity. }
    unfold w_drop in Sw. assert (Ct : t_consistent (w_tab w) = kind_eqb kd Consistent) by (unfold t_consistent; rewrite (rt_kind _ _ (proj1 Rw)); reflexivity).
    rewrite Ct in Sw. rewrite tell_empty. destruct (kind_eqb kd Consistent && negb (sel_empty (w_changes w))).
    + eapply both_fails. exact Sw.
    + eapply both_ok; cbn [op_of]; [exact Sw|reflexivity|apply with_lock_rel; apply Rw|reflexivity].
  - destruct (p_lock a) as [l|] eqn:Lk; [|exact I]. destruct (W _ eq_refl) as (w & -> & Rw & ->).
    assert (Sw : step pr umax (Locked w []) (OFlush srt ev) = let* t := w_flush pr umax srt w ev in Ok (Free t)).
    { unfold step. cbn [st_tab]. rewrite (rt_kind _ _ (proj1 Rw)). destruct kd; reflexivity. }
    pose proof (flush_plain a w srt ev (proj1 Rw)) as P. destruct (flushed pr sch a (logs w) srt ev) as [a'| |]; cbn [after].
    + destruct P as (t' & Q & R' & _). rewrite Q in Sw. eapply both_ok; cbn [op_of]; [exact Sw|reflexivity|apply with_lock_rel; exact R'|reflexivity].
    + destruct P as [e Q]. rewrite Q in Sw. eapply both_fails. exact Sw.
    + exact I.
  - apply looks_all; [exact R|left; destruct kd; reflexivity|exact I].
  - apply looks_all; [exact R|left; destruct kd; reflexivity|exact I].
  - apply looks_all; [exact R|left; destruct kd; reflexivity|exact I].
  - apply looks_all; [exact R|left; destruct kd; reflexivity|exact I].
  - apply looks_all; [exact R| |exact I]. cbn [looks]. destruct kd; auto.
  - apply looks_all; [exact R|left; destruct kd; reflexivity|exact I].
  - apply looks_all; [exact R|left; destruct kd; reflexivity|exact I].
  - apply remove_ok. exact R.
Qed.
Lemma plays_ok cs : forall a st, rel a st -> Forall (call_ty (s_cols sch)) cs ->
  match plays pr umax sch a cs with
  | Fine l => talks pr umax st cs = Ok l
  | Fails => exists c, talks pr umax st cs = panic c
  | Unsaid => True
  end.
Proof.
  induction cs as [|c cs IH]; intros a st R T; cbn [plays]; [reflexivity|].
  inversion T as [|? ? T1 T2]; subst. pose proof (acts_ok a st c R T1) as A.
  assert (Ht : talks pr umax st (c :: cs) = let* q := both st c in let* l := talks pr umax (fst q) cs in Ok (snd q :: l)).
  { cbn [talks]. unfold both. destruct (step pr umax st (op_of c)) as [st'|]; [|reflexivity]. cbn [bind].
    destruct (answer_of pr umax st c); reflexivity. }
  rewrite Ht. destruct (acts pr umax sch a c) as [[a' x]| |]; cbn [after fst snd].
  - destruct A as ([st' y] & Q & R' & Ex). cbn [fst snd] in R', Ex. subst y. rewrite Q. cbn [bind fst snd].
    specialize (IH a' st' R' T2). destruct (plays pr umax sch a' cs) as [l| |]; cbn [after].
    + rewrite IH. reflexivity.
    + destruct IH as [e ->]. exists e. reflexivity.
    + exact I.
  - destruct A as [e ->]. exists e. reflexivity.
  - exact I.
Qed.
Lemma new_rel : s_cols sch <> [] -> rel p_new (Free (t_new sch)).
Proof. intro N. split; [reflexivity|]. split; [apply t_new_ok; exact N|]. split; reflexivity. Qed.
End P.

(** ** Something is said *)
Section Said.
Variables (umax : nat) (sch : schema).
Notation kd := (s_kind sch).
Notation imax := (s_imax sch).
Definition is_some {A} (x : option A) : bool := match x with Some _ => true | None => false end.
(** Something is said, and the lock stays as it was. *)
Definition says (b : bool) (o : outcome plain) : Prop :=
  match o with Fine a => is_some (p_lock a) = b | Fails => True | Unsaid => False end.
Lemma says_lock a l : says true (Fine (with_lock a (Some l))).
Proof. reflexivity. Qed.
Lemma outs_said n ids : forall rows, swapped_outs Debug n rows ids <> Unsaid.
Proof.
  induction ids as [|i ids IH]; intro rows; cbn [swapped_outs]; [discriminate|].
  destruct (i <? n); [|discriminate]. destruct rows; [discriminate|apply IH].
Qed.
Lemma removed_said a s : says (is_some (p_lock a)) (removed Debug sch a s).
Proof.
  destruct s as [|ids]; [reflexivity|]. unfold removed. pose proof (outs_said (len a) ids (p_rows a)) as O.
  destruct kd; try (destruct ids; [reflexivity|exact I]).
  - destruct (all_below (len a) ids); [reflexivity|exact I].
  - destruct (swapped_outs Debug (len a) (p_rows a) ids); cbn [after]; [reflexivity|exact I|congruence].
Qed.
Lemma flushed_said a l srt ev : says (is_some (p_lock a)) (flushed Debug sch a l srt ev).
Proof.
  destruct l as [[s p] d]. unfold flushed. destruct (nothing_to_tell s); [reflexivity|]. destruct (_ || _ || _); [exact I|].
  destruct (ev_removal ev); [apply removed_said|reflexivity].
Qed.
Lemma note_said a ids p d : is_some (p_lock (note sch a ids p d)) = is_some (p_lock a).
Proof. unfold note. destruct (p_lock a) as [[[s q] e]|] eqn:L; [|rewrite L; reflexivity]. destruct (kind_eqb kd Consistent); [reflexivity|rewrite L; reflexivity]. Qed.
Lemma put_said a r : match put sch a r with Fine p => is_some (p_lock (fst p)) = is_some (p_lock a) | Fails => True | Unsaid => False end.
Proof.
  unfold put. destruct (free_id sch a) as [i|].
  - destruct (i <? len a); [|exact I]. cbn [fst]. rewrite note_said. reflexivity.
  - destruct (len a <=? imax); [|exact I]. cbn [fst]. unfold grow. rewrite note_said. reflexivity.
Qed.
Lemma puts_said rs : forall a, says (is_some (p_lock a)) (puts sch a rs).
Proof.
  induction rs as [|r rs IH]; intro a; cbn [puts]; [reflexivity|]. pose proof (put_said a r) as P.
  destruct (put sch a r) as [[a' i]| |]; cbn [after fst] in *; [rewrite <- P; apply IH|exact I|exact P].
Qed.
Lemma told_said a its b e : told Debug umax sch a its b e <> Unsaid.
Proof. unfold told. destruct (walk _ _ _ _ _ _); discriminate. Qed.
Lemma merged_said a cmp new : says (is_some (p_lock a)) (merged_with Debug sch a cmp new).
Proof.
  unfold merged_with. destruct new; [reflexivity|]. destruct (len a <=? imax); [|exact I].
  destruct (_ <=? S imax); [reflexivity|exact I].
Qed.
Lemma acts_said a c : legal sch (is_some (p_lock a)) c = true ->
  match acts Debug umax sch a c with
  | Fine p => is_some (p_lock (fst p)) = locked_after (is_some (p_lock a)) c
  | Fails => True
  | Unsaid => False
  end.
Proof.
  intros H. unfold acts.
  assert (Lk : forall x, p_lock a = Some x -> is_some (p_lock a) = true) by (intros x ->; reflexivity).
  destruct c as [o| | |].
  1: destruct o; cbn [legal locked_after avail op_of] in *; try discriminate.
  - destruct (p_lock a); [discriminate|reflexivity].
  - destruct (p_lock a) as [[[s p] d]|] eqn:E; [|discriminate]. destruct (_ && _); [exact I|reflexivity].
  - destruct (p_lock a) as [l|] eqn:E; [|discriminate]. pose proof (flushed_said a l srt ev) as F.
    destruct (flushed Debug sch a l srt ev); cbn [after]; [reflexivity|exact I|exact F].
  - destruct (p_lock a) as [[[s p] d]|] eqn:E; [|discriminate]. cbn [does is_some]. destruct (nothing_to_tell s); [cbn [fst]; rewrite E; reflexivity|].
    pose proof (flushed_said a (s, p, d) srt ev) as F. destruct (flushed Debug sch a (s, p, d) srt ev); cbn [after]; [reflexivity|exact I|exact F].
  - cbn [looks]. destruct (there a i); [reflexivity|exact I].
  - cbn [looks]. apply Nat.ltb_lt in H. destruct (nth_error_lt_Some _ _ H) as [ct ->]. destruct (i <? len a); [reflexivity|exact I].
  - cbn [looks]. destruct (nth_error (s_cols sch) k) as [[|]|]; try discriminate. reflexivity.
  - reflexivity.
  - destruct (p_lock a) as [[[s p] d]|] eqn:E; [|discriminate]. cbn [does is_some andb] in *. destruct kd; try discriminate;
      cbn [kind_eqb]; (destruct (len a <=? imax); [|exact I]); cbn [fst]; rewrite E; reflexivity.
  - cbn [looks]. apply negb_true_iff in H. rewrite H. destruct (len a <=? imax); [reflexivity|exact I].
  - cbn [looks]. rewrite H. destruct (_ && _); [|exact I]. pose proof (told_said a ops (r_start r) (r_end r)) as X.
    destruct (told _ _ _ _ _ _ _); [reflexivity|exact I|congruence].
  - cbn [looks]. destruct (len a <=? imax); [|exact I]. pose proof (told_said a ops 0 (len a)) as X. destruct (told _ _ _ _ _ _ _); [reflexivity|exact I|congruence].
  - destruct (p_lock a) as [[[s p] d]|] eqn:E; [|discriminate]. cbn [does is_some]. destruct (len a <=? imax); [|exact I]. pose proof (told_said a ops 0 (len a)) as X.
    destruct (told _ _ _ _ _ _ _); cbn [after fst]; [rewrite E; reflexivity|exact I|congruence].
  - destruct (p_lock a) as [[[s p] d]|] eqn:E; [|discriminate]. cbn [does is_some andb] in *.
    destruct (nth_error (s_cols sch) k) as [[|]|]; try discriminate. destruct (i <? len a); [|exact I]. cbn [fst with_rows p_lock]. rewrite E. reflexivity.
  - destruct (p_lock a) as [[[s p] d]|] eqn:E; [|discriminate]. cbn [does is_some andb] in *. pose proof (put_said a r) as P. rewrite E in P.
    destruct kd; try discriminate; cbn [kind_eqb]; (destruct (put sch a r) as [[a' i]| |]; cbn [after fst snd] in *; [exact P|exact I|exact P]).
  - destruct (p_lock a) as [[[s p] d]|] eqn:E; [|discriminate]. cbn [does is_some andb] in *. pose proof (puts_said rs a) as P. rewrite E in P.
    destruct kd; try discriminate; cbn [kind_eqb]; (destruct (puts sch a rs); cbn [after fst snd] in *; [exact P|exact I|exact P]).
  - destruct (p_lock a) as [[[s p] d]|] eqn:E; [|discriminate]. cbn [does is_some andb] in *.
    assert (G : is_some (p_lock (grow sch a rs)) = true) by (unfold grow; rewrite note_said; cbn [p_lock]; rewrite E; reflexivity).
    destruct kd; try discriminate; cbn [kind_eqb]; (destruct rs; [cbn [fst]; rewrite E; reflexivity|]; cbn zeta; match goal with |- context [if ?b then _ else Fails] => destruct b end; [exact G|exact I]).
  - destruct (p_lock a) as [[[s p] d]|] eqn:E; [|discriminate]. cbn [does is_some andb] in *.
    destruct kd eqn:Kd; try discriminate.
    + destruct (there a i); [|exact I]. cbn [fst]. rewrite note_said, E. reflexivity.
    + destruct (i <? len a); [|exact I]. cbn [fst with_rows p_lock]. rewrite E. reflexivity.
  - destruct (p_lock a) as [[[s p] d]|] eqn:E; [|discriminate]. reflexivity.
  - destruct (p_lock a) as [[[s p] d]|] eqn:E; [|discriminate]. reflexivity.
  - destruct (p_lock a) as [[[s p] d]|] eqn:E; [|discriminate]. cbn [does is_some]. destruct kd; cbn [fst emptied with_rows with_lock p_lock]; rewrite ?E; reflexivity.
  - destruct (p_lock a) as [[[s p] d]|] eqn:E; [|discriminate]. cbn [does fst emptied with_rows p_lock is_some]. rewrite E. reflexivity.
  - unfold removes_rows.
    assert (Fin : forall o : outcome plain, says (is_some (p_lock a)) o ->
      match after (after o (fun a => Fine (with_lock a None))) (fun a => Fine (a, ANothing)) with
      | Fine p => is_some (p_lock (fst p)) = false | Fails => True | Unsaid => False end).
    { intros [x| |]; cbn [after says]; auto. }
    destruct kd eqn:Kd; cbn [kind_eqb orb andb] in H; try discriminate.
    + set (q := match p_lock a with Some l => l | None => _ end). destruct q as [[lg p] d]. apply Fin. destruct rows as [|ids].
      * apply (flushed_said (emptied a)).
      * pose proof (removed_said a (SThese ids)) as P. destruct (removed Debug sch a (SThese ids)) as [a'| |]; cbn [after says] in *; auto.
        rewrite <- P. apply flushed_said.
    + destruct (p_lock a) eqn:E; [discriminate|]. destruct rows as [|ids]; cbn [after].
      * cbn [fst emptied with_rows p_lock]. rewrite E. reflexivity.
      * destruct (rising ids && _); cbn [after fst with_rows p_lock]; [rewrite E; reflexivity|exact I].
  - destruct (p_lock a) as [[[s p] d]|] eqn:E; [|discriminate]. cbn [does is_some andb] in *. destruct kd; try discriminate. cbn [kind_eqb].
    destruct (rising rows && _); [|exact I]. cbn [fst with_rows p_lock]. rewrite E. reflexivity.
  - destruct (p_lock a) as [[[s p] d]|] eqn:E; [|discriminate]. cbn [does is_some andb] in *. destruct kd; try discriminate. cbn [kind_eqb].
    pose proof (merged_said a cmp (sort_rows cmp rows)) as M. rewrite E in M. destruct (merged_with _ _ _ _ _); cbn [after fst] in *; auto.
  - destruct (p_lock a) as [[[s p] d]|] eqn:E; [|discriminate]. cbn [does is_some andb] in *. destruct kd; try discriminate. cbn [kind_eqb].
    pose proof (merged_said a cmp [r]) as M. rewrite E in M. destruct (merged_with _ _ _ _ _); cbn [after fst] in *; auto.
  - cbn [legal op_of avail locked_after] in *. destruct (p_lock a) as [[[s0 p] d]|] eqn:E; [|discriminate]. cbn [does is_some andb] in *.
    destruct kd; try discriminate; cbn [kind_eqb]; (destruct (len a <=? imax); [|exact I]); cbn [fst with_rows p_lock]; rewrite E; reflexivity.
  - cbn [legal op_of avail locked_after] in *. destruct (p_lock a) as [[[s0 p] d]|] eqn:E; [|discriminate]. cbn [does is_some andb] in *.
    destruct kd; try discriminate; cbn [kind_eqb orb]; (destruct (len a <=? imax); [cbn zeta; destruct (_ <=? S imax); [|exact I]|destruct (stops_early _ _ _ _); [|exact I]]);
      cbn [fst with_rows p_lock]; rewrite E; reflexivity.
  - cbn [legal op_of avail locked_after] in *. destruct (p_lock a) as [[[s0 p] d]|] eqn:E; [|discriminate]. cbn [does is_some andb] in *.
    destruct kd; try discriminate; cbn [kind_eqb].
    pose proof (merged_said a cmp rows) as M. rewrite E in M. destruct (merged_with _ _ _ _ _); cbn [after fst] in *; auto.
Qed.
Lemma plays_said cs : forall a, all_legal sch (is_some (p_lock a)) cs = true -> plays Debug umax sch a cs <> Unsaid.
Proof.
  induction cs as [|c cs IH]; intros a H; cbn [plays]; [discriminate|]. cbn [all_legal] in H. apply andb_true_iff in H.
  destruct H as [H1 H2]. pose proof (acts_said a c H1) as A. destruct (acts Debug umax sch a c) as [[a' x]| |]; cbn [after fst snd] in *;
    [|discriminate|destruct A].
  rewrite <- A in H2. specialize (IH a' H2). destruct (plays Debug umax sch a' cs); cbn [after]; congruence.
Qed.
End Said.
