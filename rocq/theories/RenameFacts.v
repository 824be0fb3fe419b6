(** Proofs about tables that hold other values. *)
From Coq Require Import List Arith Bool Lia.
From Verif Require Import Base BaseFacts Column ColumnFacts RowRange Table TableFacts Visit SortedTab TableSpec Hist SkipSpec Answers PlainSpec PlainFacts ChooseFacts RenameSpec.
Import ListNotations.

Lemma col_at l l' : same_indexes l l' ->
  forall k, match nth_error l k, nth_error l' k with Some (Plain _), Some (Plain _) | Some (Indexed _), Some (Indexed _) | None, None => True | _, _ => False end.
Proof. intro F. induction F as [|x y l l' H F IH]; intros [|k]; [exact I|exact I|cbn; destruct x, y; exact H|apply IH]. Qed.
Section More.
Variables (pr : profile) (umax : nat) (rho : nat -> val -> val) (sch : schema) (ts : list ctype).
Local Notation m := (length (s_cols sch)).
Hypothesis Ht : same_indexes (s_cols sch) ts.
Local Notation good := (fun r : row => length r = m).
Local Notation cr := (rename_row rho).
Local Notation sch' := (with_types sch ts).
Definition rename_pl (a : plain) : plain := Pl (map cr (p_rows a)) (p_found a) (p_free a) (p_lock a).
Local Notation cl := rename_pl.
Lemma nil_cut : @nil val = cr []. Proof. reflexivity. Qed.
Lemma cl_len a : len (cl a) = len a. Proof. apply map_length. Qed.
Lemma cl_there a i : there (cl a) i = there a i. Proof. unfold there. rewrite cl_len. reflexivity. Qed.
Lemma cl_row a i : row_at (cl a) i = cr (row_at a i).
Proof. unfold row_at. cbn [rename_pl p_rows]. rewrite nil_cut at 1. apply map_nth. Qed.
Lemma cl_note a ids p d : note sch' (cl a) ids p d = cl (note sch a ids p d).
Proof. unfold note. cbn [rename_pl p_lock]. destruct (p_lock a) as [[[s q] e]|]; [|reflexivity]. change (s_kind sch') with (s_kind sch). destruct (kind_eqb _ _); reflexivity. Qed.
Lemma cl_grow a rs : grow sch' (cl a) (map cr rs) = cl (grow sch a rs).
Proof. unfold grow. rewrite cl_len, map_length, <- cl_note. f_equal. unfold rename_pl. cbn. rewrite map_app. reflexivity. Qed.
Lemma cl_free a : free_id sch' (cl a) = free_id sch a. Proof. reflexivity. Qed.
Lemma cl_put a r : put sch' (cl a) (cr r) = om (fun p => (cl (fst p), snd p)) (put sch a r).
Proof.
  unfold put. rewrite cl_free, cl_len. destruct (free_id sch a) as [i|].
  - destruct (i <? len a); [|reflexivity]. cbn [om fst snd]. rewrite <- cl_note. unfold rename_pl. cbn. rewrite upd_map. reflexivity.
  - change (s_imax sch') with (s_imax sch). destruct (_ <=? _); [|reflexivity]. cbn [om fst snd]. rewrite <- cl_grow. reflexivity.
Qed.
Lemma cl_puts rs : forall a, puts sch' (cl a) (map cr rs) = om cl (puts sch a rs).
Proof. induction rs as [|r rs IH]; intro a; [reflexivity|]. cbn [puts map]. eapply om_after; [apply cl_put|]. intro p. apply IH. Qed.
Lemma cl_swapped rows i : swapped_out (map cr rows) i = map cr (swapped_out rows i).
Proof.
  unfold swapped_out. rewrite map_length, <- firstn_map, upd_map. f_equal. f_equal. induction rows as [|x [|y rows] IH]; [apply nil_cut|reflexivity|]. exact IH.
Qed.
Lemma cl_swaps q ids : forall rows, swapped_outs pr q (map cr rows) ids = om (map cr) (swapped_outs pr q rows ids).
Proof.
  induction ids as [|i ids IH]; intro rows; [reflexivity|]. cbn [swapped_outs]. destruct (i <? q); [|reflexivity]. destruct rows as [|x rows]; [destruct pr; reflexivity|].
  rewrite <- IH, <- cl_swapped. reflexivity.
Qed.
Lemma cl_removed a s : removed pr sch' (cl a) s = om cl (removed pr sch a s).
Proof.
  unfold removed. destruct s as [|ids]; [reflexivity|]. change (s_kind sch') with (s_kind sch). rewrite cl_len.
  destruct (s_kind sch); try (destruct ids; reflexivity); [destruct (all_below _ _); reflexivity|]. eapply om_after; [apply cl_swaps|]. reflexivity.
Qed.
Lemma cl_flushed a l srt ev : flushed pr sch' (cl a) l srt ev = om cl (flushed pr sch a l srt ev).
Proof. unfold flushed. destruct l as [[s p] d]. destruct (nothing_to_tell s); [reflexivity|]. destruct (_ || _); [reflexivity|]. destruct (ev_removal ev); [apply cl_removed|reflexivity]. Qed.
Lemma cl_kept {A} (g g' : A -> row -> A * bool) : (forall a r, length r = m -> g' a (cr r) = g a r) -> forall rows s, Forall good rows -> kept_rows g' s (map cr rows) = map cr (kept_rows g s rows).
Proof. intros H rows. induction rows as [|r rows IH]; intros s F; [reflexivity|]. inversion F; subst. cbn [kept_rows map]. cbv zeta. rewrite H by assumption. destruct (snd (g s r)); cbn [map]; rewrite IH by assumption; reflexivity. Qed.
Section V.
Context {A : Type} (g g' : A -> row -> A * action).
Hypothesis H : forall a r, length r = m -> g' a (cr r) = (fst (g a r), rename_act rho (snd (g a r))).
Lemma cl_visited rows : forall s, Forall good rows -> visited_rows g' s (map cr rows) = map cr (visited_rows g s rows).
Proof.
  induction rows as [|r rows IH]; intros s F; [reflexivity|]. inversion F; subst. cbn [visited_rows map]. cbv zeta. rewrite H by assumption. cbn [fst snd].
  destruct (snd (g s r)) as [rm add|]; cbn [rename_act]; [|reflexivity]. rewrite IH, !map_app by assumption. destruct rm; reflexivity.
Qed.
Lemma cl_broke rows : forall s i k, Forall good rows -> broke g' s (map cr rows) i k = broke g s rows i k.
Proof.
  induction rows as [|r rows IH]; intros s i k F; [reflexivity|]. inversion F; subst. cbn [broke map]. cbv zeta. rewrite H by assumption. cbn [fst snd].
  destruct (snd (g s r)) as [rm add|]; cbn [rename_act]; [|reflexivity]. rewrite map_length. apply IH. assumption.
Qed.
Lemma cl_stops s rows : Forall good rows -> stops_early sch' g' s (map cr rows) = stops_early sch g s rows.
Proof. intro F. unfold stops_early. rewrite cl_broke by exact F. reflexivity. Qed.
End V.
Section M.
Variables (cmp cmp' : row -> row -> comparison).
Hypothesis H : order_kept rho m cmp cmp'.
Lemma cl_merged a new : Forall good (p_rows a) -> Forall good new -> merged_with pr sch' (cl a) cmp' (map cr new) = om cl (merged_with pr sch a cmp new).
Proof.
  intros Fa Fn. unfold merged_with. destruct Fn as [|first new Gf Fn]; [reflexivity|]. cbn [map]. rewrite cl_len. change (s_imax sch') with (s_imax sch). cbn [length]. rewrite map_length.
  destruct (_ <=? _).
  - destruct (_ <=? _); [|reflexivity]. cbn [om]. f_equal. unfold with_rows, rename_pl. cbn [p_rows p_found p_free p_lock]. f_equal.
    apply (order_on good cr cmp cmp' (p_rows a) (first :: new) H); [exact Fa|constructor; assumption].
  - destruct pr; [reflexivity|]. replace (forallb (is_lt cmp' (cr first)) (p_rows (cl a))) with (forallb (is_lt cmp first) (p_rows a)); [destruct (forallb _ _); reflexivity|].
    cbn [rename_pl p_rows]. induction Fa as [|x l Gx Fa IH]; [reflexivity|]. cbn. rewrite IH. unfold is_lt at 3. rewrite H by assumption. reflexivity.
Qed.
Lemma cl_ids rows new : Forall good rows -> Forall good new -> merge_ids cmp' (map cr rows) (map cr new) = merge_ids cmp rows new.
Proof.
  intros Fa Fn. unfold merge_ids. cbv zeta. set (F := fun p : bool * row => (fst p, cr (snd p))).
  assert (X : forall b l, map (pair b) (map cr l) = map F (map (pair b) l)) by (intros b l; rewrite !map_map; reflexivity). rewrite !X.
  assert (Y : forall b l, Forall good l -> Forall (fun p : bool * row => good (snd p)) (map (pair b) l)) by (intros b l K; induction K; cbn; constructor; auto).
  rewrite (order_on (fun p : bool * row => good (snd p)) F (fun x y => cmp (snd x) (snd y)) (fun x y => cmp' (snd x) (snd y))) by (auto; intros [b x] [d y]; apply H). rewrite map_length, map_map. reflexivity.
Qed.
End M.
Lemma rn_error k r : forall j, nth_error (rename_from rho k r) j = option_map (rho (k + j)) (nth_error r j).
Proof. revert k. induction r as [|v r IH]; intros k [|j]; try reflexivity; cbn; [rewrite Nat.add_0_r; reflexivity|]. rewrite IH. f_equal. f_equal. lia. Qed.
Lemma rn_length k r : length (rename_from rho k r) = length r.
Proof. revert k. induction r as [|v r IH]; intro k; [reflexivity|]. cbn. rewrite IH. reflexivity. Qed.
Lemma rn_nth (r : row) k : length r = m -> k < m -> nth k (cr r) (VBool false) = rho k (nth k r (VBool false)).
Proof.
  intros L B. rewrite !nth_def. unfold rename_row. rewrite rn_error. destruct (nth_error r k) as [x|] eqn:E; [reflexivity|]. apply nth_error_None in E. lia.
Qed.
Lemma rn_col k : match nth_error (s_cols sch) k, nth_error ts k with Some (Plain _), Some (Plain _) | Some (Indexed _), Some (Indexed _) | None, None => True | _, _ => False end.
Proof. apply col_at. exact Ht. Qed.
Lemma rn_upd (r : row) k v : cr (upd r k v) = upd (cr r) k (rho k v).
Proof.
  apply list_ext. intro i. unfold rename_row. rewrite rn_error. destruct (Nat.eq_dec i k) as [->|N].
  - destruct (Nat.lt_ge_cases k (length r)) as [B|B].
    + rewrite !nth_error_upd_eq by (rewrite ?rn_length; exact B). reflexivity.
    + rewrite !(proj2 (nth_error_None _ _)) by (rewrite upd_length, ?rn_length; exact B). reflexivity.
  - rewrite !nth_error_upd_ne by congruence. rewrite rn_error. reflexivity.
Qed.
Lemma cl_told c0 a its b e : told pr umax sch' (cl a) its b e = om (rename_answer rho c0) (told pr umax sch a its b e).
Proof.
  unfold told. destruct (match pr with Debug => _ | Release => _ end); [|reflexivity]. change (s_imax sch') with (s_imax sch).
  rewrite (walk_ext umax sch (there (cl a)) (there a)) by (intro; apply cl_there).
  destruct (walk _ _ _ _ _ _) as [l|]; [|reflexivity]. cbn [om rename_answer]. f_equal. f_equal. rewrite map_map. apply map_ext. intros [i|]; [apply cl_row|apply nil_cut].
Qed.
Lemma cl_looks c0 a o : plain_op o -> looks pr umax sch' (cl a) o = om (rename_answer rho c0) (looks pr umax sch a o).
Proof.
  intro H. destruct o; try reflexivity; try contradiction; cbn [looks]; change (s_imax sch') with (s_imax sch); change (s_kind sch') with (s_kind sch); rewrite ?cl_len, ?cl_there.
  all: try solve [destruct (there a i); cbn [om rename_answer]; rewrite ?cl_row; reflexivity].
  all: try solve [destruct (len a); reflexivity].
  all: try solve [destruct (kind_eqb _ _); [reflexivity|]; destruct (_ <=? _); reflexivity].
  all: try solve [destruct (_ <=? _); [|reflexivity]; apply cl_told].
  all: try solve [destruct (_ <=? _); [|reflexivity]; destruct (_ && _); [apply cl_told|reflexivity]].
Qed.
Lemma cl_look_cell a k i : Forall good (p_rows a) -> looks pr umax sch' (cl a) (OCell k i) = om (rename_answer rho (Do (OCell k i))) (looks pr umax sch a (OCell k i)).
Proof.
  intro Ga. cbn [looks]. pose proof (rn_col k) as C. cbn [with_types s_cols]. rewrite cl_len. destruct (nth_error (s_cols sch) k) as [x|] eqn:E; [|destruct (nth_error ts k); [contradiction|reflexivity]].
  destruct (nth_error ts k); [|destruct x; contradiction]. destruct (Nat.ltb_spec i (len a)) as [L|]; [|reflexivity]. cbn [om rename_answer]. rewrite cl_row, rn_nth; [reflexivity| |].
  - rewrite Forall_forall in Ga. apply Ga. apply nth_In. exact L.
  - apply nth_error_Some. congruence.
Qed.
Lemma same_eqb k v x : (forall y, rho k y = rho k v -> y = v) -> val_eqb (rho k x) (rho k v) = val_eqb x v.
Proof.
  intro H. unfold val_eqb. destruct (val_cmp x v) eqn:E.
  - apply val_cmp_eq in E. subst x. rewrite (proj2 (val_cmp_eq _ _) eq_refl). reflexivity.
  - destruct (val_cmp (rho k x) (rho k v)) eqn:E'; try reflexivity. apply val_cmp_eq in E'. rewrite (H _ E') in E. rewrite (proj2 (val_cmp_eq _ _) eq_refl) in E. discriminate E.
  - destruct (val_cmp (rho k x) (rho k v)) eqn:E'; try reflexivity. apply val_cmp_eq in E'. rewrite (H _ E') in E. rewrite (proj2 (val_cmp_eq _ _) eq_refl) in E. discriminate E.
Qed.
Lemma cl_look_find c0 a k v : Forall good (p_rows a) -> (forall x, rho k x = rho k v -> x = v) -> looks pr umax sch' (cl a) (OFind k (rho k v)) = om (rename_answer rho c0) (looks pr umax sch a (OFind k v)).
Proof.
  intros Ga H. cbn [looks]. pose proof (rn_col k) as C. cbn [with_types s_cols]. rewrite cl_len. destruct (nth_error (s_cols sch) k) as [[|]|] eqn:E, (nth_error ts k) as [[|]|]; try contradiction; try reflexivity.
  cbn [om rename_answer]. f_equal. f_equal. apply filter_ext_in. intros i I. apply in_seq in I. rewrite cl_row, rn_nth.
  - rewrite same_eqb by exact H. reflexivity.
  - rewrite Forall_forall in Ga. apply Ga. apply nth_In. apply I.
  - apply nth_error_Some. congruence.
Qed.
Local Notation cpa c0 := (fun p : plain * answer => (cl (fst p), rename_answer rho c0 (snd p))).
Lemma om_quiet c0 x y : y = om cl x -> after y (fun a => Fine (a, ANothing)) = om (cpa c0) (after x (fun a => Fine (a, ANothing))).
Proof. intro H. eapply om_after; [exact H|]. reflexivity. Qed.
Lemma typed_good rs : Forall (row_ty (s_cols sch)) rs -> Forall good rs.
Proof. apply Forall_impl. intros r. apply row_ty_length. Qed.
Lemma cl_does a l c c' : Forall good (p_rows a) -> call_ty (s_cols sch) c -> renamed rho m c c' -> does pr umax sch' (cl a) l c' = om (cpa c) (does pr umax sch a l c).
Proof.
  intros Ga Ty H. destruct l as [[s p] d]. unfold does. cbv zeta. change (s_imax sch') with (s_imax sch). change (s_kind sch') with (s_kind sch). rewrite ?cl_len.
  destruct H as [o H|k v H|k i v|r|rs|rs|A g g' s0 H|A g g' s0 H|cmp cmp' rows H|cmp cmp' r H|cmp cmp' rows H]; try reflexivity.
  - destruct o; try reflexivity; try contradiction.
    all: try solve [destruct (s_kind sch); reflexivity].
    all: try solve [destruct (nothing_to_tell s); [reflexivity|]; apply om_quiet; eapply om_after; [apply cl_flushed|]; reflexivity].
    all: try solve [destruct (_ <=? _); [|reflexivity]; eapply om_after; [apply cl_told|]; reflexivity].
    all: try solve [destruct (kind_eqb _ _); [reflexivity|]; destruct (_ <=? _); reflexivity].
    * destruct (s_kind sch) eqn:K; try reflexivity.
      -- rewrite cl_there. destruct (there a i); [|reflexivity]. cbn [om fst snd rename_answer]. rewrite cl_note. reflexivity.
      -- destruct (i <? len a); [|reflexivity]. cbn [om fst snd rename_answer]. unfold with_rows, rename_pl. cbn [p_rows p_found p_free p_lock]. rewrite cl_swapped. reflexivity.
    * destruct (kind_eqb _ _); [|reflexivity]. destruct (_ && _); [|reflexivity]. cbn [om fst snd rename_answer]. unfold with_rows, rename_pl. cbn [p_rows p_found p_free p_lock]. rewrite without_on. reflexivity.
  - pose proof (rn_col k) as C. cbn [with_types s_cols]. destruct (nth_error (s_cols sch) k) as [[|]|], (nth_error ts k) as [[|]|]; try contradiction; try reflexivity. destruct (i <? len a); [|reflexivity].
    cbn [om fst snd rename_answer]. unfold with_rows, rename_pl. cbn [p_rows p_found p_free p_lock]. rewrite upd_map, rn_upd, <- cl_row. reflexivity.
  - destruct (kind_eqb _ _); [reflexivity|]. eapply om_after; [apply cl_put|]. reflexivity.
  - destruct (kind_eqb _ _); [reflexivity|]. apply om_quiet, cl_puts.
  - destruct (kind_eqb _ _); [reflexivity|]. destruct rs as [|r rs]; [reflexivity|]. cbn [map length]. rewrite map_length. pose proof (cl_grow a (r :: rs)) as G. cbn [map] in G.
    destruct (_ <=? _); [cbn [om fst snd rename_answer]; rewrite <- G; reflexivity|]. destruct pr; [reflexivity|]. destruct (_ =? _); [cbn [om fst snd rename_answer]; rewrite <- G; reflexivity|reflexivity].
  - destruct (kind_eqb _ _); [reflexivity|]. destruct (_ <=? _); [|destruct pr; reflexivity]. cbn [om fst snd rename_answer]. unfold with_rows, rename_pl. cbn [p_rows p_found p_free p_lock]. rewrite (cl_kept g g' H) by exact Ga. reflexivity.
  - destruct (_ || _); [reflexivity|]. cbn [rename_pl p_rows]. rewrite (cl_visited g g' H), (cl_stops g g' H), map_length by exact Ga.
    destruct (_ <=? _); [destruct (_ <=? _); reflexivity|]. destruct (stops_early _ _ _ _); [reflexivity|destruct pr; reflexivity].
  - destruct (kind_eqb _ _); [|reflexivity]. apply om_quiet. destruct (sort_on good cr cmp cmp' rows H (typed_good _ Ty)) as [-> Fs]. apply cl_merged; assumption.
  - destruct (kind_eqb _ _); [|reflexivity]. assert (Gr : good r) by (apply row_ty_length; exact Ty).
    eapply om_after; [apply (cl_merged cmp cmp' H a [r]); [exact Ga|repeat constructor; exact Gr]|]. intro a1. cbn [om fst snd rename_answer rename_pl p_rows].
    destruct (while_on good cr (is_lt cmp r) (is_lt cmp' (cr r)) (p_rows a)) as [-> _]; [intros x Gx; unfold is_lt; rewrite H by assumption; reflexivity|exact Ga|]. rewrite map_length. reflexivity.
  - destruct (kind_eqb _ _); [|reflexivity]. pose proof (typed_good _ Ty) as Gr. eapply om_after; [apply (cl_merged cmp cmp' H); assumption|]. intro a1. cbn [om fst snd rename_answer rename_pl p_rows].
    rewrite (cl_ids cmp cmp' H) by assumption. reflexivity.
Qed.
Lemma cl_removes a srt ev s : removes_rows pr sch' (cl a) srt ev s = om cl (removes_rows pr sch a srt ev s).
Proof.
  unfold removes_rows. change (s_kind sch') with (s_kind sch). cbn [rename_pl p_lock]. destruct (s_kind sch) eqn:K; try reflexivity.
  - destruct (match p_lock a with Some l => l | None => _ end) as [[log p] d]. eapply om_after with (F := cl); [|reflexivity]. destruct s as [|ids].
    + apply (cl_flushed (emptied a)).
    + eapply om_after; [apply (cl_removed a (SThese ids))|]. intro a1. apply cl_flushed.
  - destruct (p_lock a); [reflexivity|]. destruct s as [|ids]; [reflexivity|]. fold (cl a). rewrite cl_len. destruct (_ && _); [|reflexivity]. cbn [om]. unfold with_rows, rename_pl. cbn [p_rows p_found p_free p_lock]. rewrite without_on. reflexivity.
Qed.
Lemma cl_acts a c c' : Forall good (p_rows a) -> call_ty (s_cols sch) c -> renamed rho m c c' -> acts pr umax sch' (cl a) c' = om (cpa c) (acts pr umax sch a c).
Proof.
  intros Ga Ty H. assert (D : match p_lock a with Some l => does pr umax sch' (cl a) l c' | None => Unsaid end = om (cpa c) (match p_lock a with Some l => does pr umax sch a l c | None => Unsaid end)).
  { destruct (p_lock a); [apply cl_does; assumption|reflexivity]. }
  unfold acts. change (p_lock (cl a)) with (p_lock a). change (s_kind sch') with (s_kind sch).
  destruct H as [o H|k v H|k i v|r|rs|rs|A g g' s0 H|A g g' s0 H|cmp cmp' rows H|cmp cmp' r H|cmp cmp' rows H]; try exact D.
  - assert (L : after (looks pr umax sch' (cl a) o) (fun x => Fine (cl a, x)) = om (cpa (Do o)) (after (looks pr umax sch a o) (fun x => Fine (a, x)))).
    { assert (P : plain_op o \/ exists k i, o = OCell k i) by (destruct o; try contradiction; try (left; exact I); right; eauto).
      eapply om_after; [destruct P as [P|(k & i & ->)]; [apply (cl_looks (Do o)); exact P|apply cl_look_cell; exact Ga]|]. reflexivity. }
    destruct o; try contradiction; try exact D; try exact L.
    + destruct (p_lock a); [exact D|reflexivity].
    + destruct (p_lock a) as [[[s p] d]|]; [|reflexivity]. destruct (_ && _); reflexivity.
    + destruct (p_lock a); [|reflexivity]. eapply om_after; [apply cl_flushed|]. reflexivity.
    + eapply om_after; [apply cl_removes|]. reflexivity.
  - eapply om_after; [apply (cl_look_find (Do (OFind k v))); assumption|]. reflexivity.
Qed.
Lemma rel_good a st : rel sch a st -> Forall good (p_rows a).
Proof.
  intro R. assert (T : exists t, rt sch a t). { unfold rel in R. destruct st as [t|w [|x its]]; destruct (p_lock a); try contradiction; [exists t; exact R|exists (w_tab w); apply R]. }
  destruct T as (t & E & K & _). destruct K as [_ K _ _ _ _ _]. rewrite E in K. apply cols_ok_ty in K. apply typed_good. exact K.
Qed.
Lemma cl_plays cs cs' : Forall2 (renamed rho m) cs cs' -> forall a st, rel sch a st -> Forall (call_ty (s_cols sch)) cs -> plays pr umax sch' (cl a) cs' = om (rename_answers rho cs) (plays pr umax sch a cs).
Proof.
  intro F. induction F as [|c c' cs cs' H F IH]; intros a st R T; [reflexivity|]. inversion T as [|? ? T1 T2]; subst. cbn [plays].
  rewrite (cl_acts a c c' (rel_good _ _ R) T1 H). pose proof (acts_ok pr umax sch a st c R T1) as Q. destruct (acts pr umax sch a c) as [[a1 x]| |]; [|reflexivity|reflexivity].
  cbn [om after fst snd]. destruct Q as ([st1 y] & _ & R1 & _). cbn [fst snd] in R1. eapply om_after; [apply (IH a1 st1 R1 T2)|]. reflexivity.
Qed.
End More.
Theorem renaming umax rho sch ts cs cs' : s_cols sch <> [] -> same_indexes (s_cols sch) ts ->
  Forall (call_ty (s_cols sch)) cs -> Forall (call_ty ts) cs' -> Forall2 (renamed rho (length (s_cols sch))) cs cs' -> all_legal sch false cs = true ->
  match talks Debug umax (Free (t_new sch)) cs with
  | Ok l => talks Debug umax (Free (t_new (with_types sch ts))) cs' = Ok (rename_answers rho cs l)
  | Err e => (exists c, e = EPanic c) /\ exists c, talks Debug umax (Free (t_new (with_types sch ts))) cs' = panic c
  end.
Proof.
  intros Z B T T' F L.
  assert (Z' : s_cols (with_types sch ts) <> []). { cbn. intro E. rewrite E in B. unfold same_indexes in B. destruct (s_cols sch); [congruence|inversion B]. }
  pose proof (plays_ok Debug umax sch cs p_new (Free (t_new sch)) (new_rel sch Z) T) as P. pose proof (plays_ok Debug umax (with_types sch ts) cs' p_new (Free (t_new (with_types sch ts))) (new_rel _ Z') T') as P'.
  pose proof (plays_said umax sch cs p_new L) as S0. pose proof (cl_plays Debug umax rho sch ts B cs cs' F p_new (Free (t_new sch)) (new_rel sch Z) T) as C. change (rename_pl rho p_new) with p_new in C. rewrite C in P'.
  destruct (plays Debug umax sch p_new cs) as [l| |]; cbn [om] in P'.
  - rewrite P. exact P'.
  - destruct P as [c P]. rewrite P. cbn. eauto.
  - congruence.
Qed.
