(** Proofs about tables with the columns in another order. *)
From Coq Require Import List Arith Bool Lia.
From Verif Require Import Base BaseFacts Column RowRange Table TableFacts Visit SortedTab TableSpec Hist SkipSpec Answers PlainSpec PlainFacts ChooseSpec.
Import ListNotations.

Lemma while_on {A B} (P : A -> Prop) (f : A -> B) p p' l : (forall x, P x -> p' (f x) = p x) -> Forall P l ->
  take_while p' (map f l) = map f (take_while p l) /\ drop_while p' (map f l) = map f (drop_while p l).
Proof. intros H F. induction F as [|x l Px F [I1 I2]]; [split; reflexivity|]. cbn. rewrite H by exact Px. destruct (p x); cbn; rewrite ?I1, ?I2; split; reflexivity. Qed.
Lemma drop_on {A} (P : A -> Prop) p l : Forall P l -> Forall P (drop_while p l).
Proof. intro F. induction F as [|x l Px F IH]; [constructor|]. cbn. destruct (p x); [exact IH|constructor; assumption]. Qed.
Lemma stable_on {A B} (P : A -> Prop) (f : A -> B) cmp cmp' : (forall x y, P x -> P y -> cmp' (f x) (f y) = cmp x y) ->
  forall a b, Forall P a -> Forall P b -> stable_merge cmp' (map f a) (map f b) = map f (stable_merge cmp a b).
Proof.
  intro H. induction a as [|x a IHa]; intros b Fa Fb; [destruct b; reflexivity|]. inversion Fa; subst. induction Fb as [|y b Py Fb IHb]; [reflexivity|].
  assert (Fy : Forall P (y :: b)) by (constructor; assumption).
  cbn. rewrite H by assumption. destruct (cmp x y); cbn; f_equal; try (apply (IHa (y :: b)); assumption); exact IHb.
Qed.
Lemma order_on {A B} (P : A -> Prop) (f : A -> B) cmp cmp' a b : (forall x y, P x -> P y -> cmp' (f x) (f y) = cmp x y) -> Forall P a -> Forall P b ->
  merge_order cmp' (map f a) (map f b) = map f (merge_order cmp a b).
Proof.
  intros H Fa Fb. destruct Fb as [|y b Py Fb]; [reflexivity|]. unfold merge_order. cbn [map].
  destruct (while_on P f (is_lt cmp y) (is_lt cmp' (f y)) a) as [-> ->]; [intros x Px; unfold is_lt; rewrite H by assumption; reflexivity|exact Fa|].
  rewrite (stable_on P f cmp cmp' H), map_app; [reflexivity|apply drop_on; exact Fa|exact Fb].
Qed.
Lemma sort_on (P : row -> Prop) f cmp cmp' l : (forall x y, P x -> P y -> cmp' (f x) (f y) = cmp x y) -> Forall P l -> sort_rows cmp' (map f l) = map f (sort_rows cmp l) /\ Forall P (sort_rows cmp l).
Proof.
  intros H F. induction F as [|x l Px F [IH FS]]; [split; [reflexivity|constructor]|]. unfold sort_rows in *. cbn [fold_right map]. rewrite IH. revert FS. generalize (fold_right (ins_row cmp) [] l). clear - Px H.
  intros l F. induction F as [|y l Py F [I1 I2]]; [split; [reflexivity|repeat constructor; exact Px]|].
  cbn [map ins_row]. rewrite H by assumption. destruct (cmp x y); cbn [map]; (split; [|repeat constructor; assumption]) || idtac; try reflexivity. rewrite I1. reflexivity.
Qed.
Lemma without_on {A B} (f : A -> B) ids l : forall i, without i (map f l) ids = map f (without i l ids).
Proof. induction l as [|x l IH]; intro i; [reflexivity|]. cbn. destruct (mem i ids); cbn; rewrite IH; reflexivity. Qed.

Definition om {A B} (F : A -> B) (x : outcome A) : outcome B := match x with Fine a => Fine (F a) | Fails => Fails | Unsaid => Unsaid end.
Lemma om_after {A B C D} (F : A -> B) (G : C -> D) x y f g : y = om F x -> (forall a, g (F a) = om G (f a)) -> after y g = om G (after x f).
Proof. intros -> H. destruct x; cbn; auto. Qed.

Section More.
Variables (pr : profile) (umax : nat) (pi : list nat) (sch : schema).
Local Notation m := (length (s_cols sch)).
Hypothesis Hn : NoDup pi.
Hypothesis Hb : Forall (fun k => k < m) pi.
Local Notation good := (fun r : row => length r = m).
Local Notation cr := (choose_row pi).
Local Notation sch' := (choose_sch pi sch).
Definition choose_pl (a : plain) : plain := Pl (map cr (p_rows a)) (p_found a) (p_free a) (p_lock a).
Local Notation cl := choose_pl.
Lemma nil_cut : @nil val = cr []. Proof. reflexivity. Qed.
Lemma cl_len a : len (cl a) = len a. Proof. apply map_length. Qed.
Lemma cl_there a i : there (cl a) i = there a i. Proof. unfold there. rewrite cl_len. reflexivity. Qed.
Lemma cl_row a i : row_at (cl a) i = cr (row_at a i).
Proof. unfold row_at. cbn [choose_pl p_rows]. rewrite nil_cut at 1. apply map_nth. Qed.
Lemma cl_note a ids p d : note sch' (cl a) ids p d = cl (note sch a ids p d).
Proof. unfold note. cbn [choose_pl p_lock]. destruct (p_lock a) as [[[s q] e]|]; [|reflexivity]. change (s_kind sch') with (s_kind sch). destruct (kind_eqb _ _); reflexivity. Qed.
Lemma cl_grow a rs : grow sch' (cl a) (map cr rs) = cl (grow sch a rs).
Proof. unfold grow. rewrite cl_len, map_length, <- cl_note. f_equal. unfold choose_pl. cbn. rewrite map_app. reflexivity. Qed.
Lemma cl_free a : free_id sch' (cl a) = free_id sch a. Proof. reflexivity. Qed.
Lemma cl_put a r : put sch' (cl a) (cr r) = om (fun p => (cl (fst p), snd p)) (put sch a r).
Proof.
  unfold put. rewrite cl_free, cl_len. destruct (free_id sch a) as [i|].
  - destruct (i <? len a); [|reflexivity]. cbn [om fst snd]. rewrite <- cl_note. unfold choose_pl. cbn. rewrite upd_map. reflexivity.
  - change (s_imax sch') with (s_imax sch). destruct (_ <=? _); [|reflexivity]. cbn [om fst snd]. rewrite <- cl_grow. reflexivity.
Qed.
Lemma cl_puts rs : forall a, puts sch' (cl a) (map cr rs) = om cl (puts sch a rs).
Proof. induction rs as [|r rs IH]; intro a; [reflexivity|]. cbn [puts map]. eapply om_after; [apply cl_put|]. intro p. apply IH. Qed.
Lemma cl_swapped rows i : swapped_out (map cr rows) i = map cr (swapped_out rows i).
Proof.
  unfold swapped_out. rewrite map_length, <- firstn_map, upd_map. f_equal. f_equal. induction rows as [|x [|y rows] IH]; [apply nil_cut|reflexivity|]. exact IH.
Qed.
Lemma cl_swaps q ids : forall rows, swapped_outs pr q (map cr rows) ids = om (map cr) (swapped_outs pr q rows ids).
Proof.
  induction ids as [|i ids IH]; intro rows; [reflexivity|]. cbn [swapped_outs]. destruct (i <? q); [|reflexivity]. destruct rows as [|x rows]; [destruct pr; reflexivity|].
  rewrite <- IH, <- cl_swapped. reflexivity.
Qed.
Lemma cl_removed a s : removed pr sch' (cl a) s = om cl (removed pr sch a s).
Proof.
  unfold removed. destruct s as [|ids]; [reflexivity|]. change (s_kind sch') with (s_kind sch). rewrite cl_len.
  destruct (s_kind sch); try (destruct ids; reflexivity); [destruct (all_below _ _); reflexivity|]. eapply om_after; [apply cl_swaps|]. reflexivity.
Qed.
Lemma cl_flushed a l srt ev : flushed pr sch' (cl a) l srt ev = om cl (flushed pr sch a l srt ev).
Proof. unfold flushed. destruct l as [[s p] d]. destruct (nothing_to_tell s); [reflexivity|]. destruct (_ || _); [reflexivity|]. destruct (ev_removal ev); [apply cl_removed|reflexivity]. Qed.
Lemma cl_kept {A} (g g' : A -> row -> A * bool) : (forall a r, length r = m -> g' a (cr r) = g a r) -> forall rows s, Forall good rows -> kept_rows g' s (map cr rows) = map cr (kept_rows g s rows).
Proof. intros H rows. induction rows as [|r rows IH]; intros s F; [reflexivity|]. inversion F; subst. cbn [kept_rows map]. cbv zeta. rewrite H by assumption. destruct (snd (g s r)); cbn [map]; rewrite IH by assumption; reflexivity. Qed.
Section V.
Context {A : Type} (g g' : A -> row -> A * action).
Hypothesis H : forall a r, length r = m -> g' a (cr r) = (fst (g a r), choose_act pi (snd (g a r))).
Lemma cl_visited rows : forall s, Forall good rows -> visited_rows g' s (map cr rows) = map cr (visited_rows g s rows).
Proof.
  induction rows as [|r rows IH]; intros s F; [reflexivity|]. inversion F; subst. cbn [visited_rows map]. cbv zeta. rewrite H by assumption. cbn [fst snd].
  destruct (snd (g s r)) as [rm add|]; cbn [choose_act]; [|reflexivity]. rewrite IH, !map_app by assumption. destruct rm; reflexivity.
Qed.
Lemma cl_broke rows : forall s i k, Forall good rows -> broke g' s (map cr rows) i k = broke g s rows i k.
Proof.
  induction rows as [|r rows IH]; intros s i k F; [reflexivity|]. inversion F; subst. cbn [broke map]. cbv zeta. rewrite H by assumption. cbn [fst snd].
  destruct (snd (g s r)) as [rm add|]; cbn [choose_act]; [|reflexivity]. rewrite map_length. apply IH. assumption.
Qed.
Lemma cl_stops s rows : Forall good rows -> stops_early sch' g' s (map cr rows) = stops_early sch g s rows.
Proof. intro F. unfold stops_early. rewrite cl_broke by exact F. reflexivity. Qed.
End V.
Section M.
Variables (cmp cmp' : row -> row -> comparison).
Hypothesis H : same_order pi m cmp cmp'.
Lemma cl_merged a new : Forall good (p_rows a) -> Forall good new -> merged_with pr sch' (cl a) cmp' (map cr new) = om cl (merged_with pr sch a cmp new).
Proof.
  intros Fa Fn. unfold merged_with. destruct Fn as [|first new Gf Fn]; [reflexivity|]. cbn [map]. rewrite cl_len. change (s_imax sch') with (s_imax sch). cbn [length]. rewrite map_length.
  destruct (_ <=? _).
  - destruct (_ <=? _); [|reflexivity]. cbn [om]. f_equal. unfold with_rows, choose_pl. cbn [p_rows p_found p_free p_lock]. f_equal.
    apply (order_on good cr cmp cmp' (p_rows a) (first :: new) H); [exact Fa|constructor; assumption].
  - destruct pr; [reflexivity|]. replace (forallb (is_lt cmp' (cr first)) (p_rows (cl a))) with (forallb (is_lt cmp first) (p_rows a)); [destruct (forallb _ _); reflexivity|].
    cbn [choose_pl p_rows]. induction Fa as [|x l Gx Fa IH]; [reflexivity|]. cbn. rewrite IH. unfold is_lt at 3. rewrite H by assumption. reflexivity.
Qed.
Lemma cl_ids rows new : Forall good rows -> Forall good new -> merge_ids cmp' (map cr rows) (map cr new) = merge_ids cmp rows new.
Proof.
  intros Fa Fn. unfold merge_ids. cbv zeta. set (F := fun p : bool * row => (fst p, cr (snd p))).
  assert (X : forall b l, map (pair b) (map cr l) = map F (map (pair b) l)) by (intros b l; rewrite !map_map; reflexivity). rewrite !X.
  assert (Y : forall b l, Forall good l -> Forall (fun p : bool * row => good (snd p)) (map (pair b) l)) by (intros b l K; induction K; cbn; constructor; auto).
  rewrite (order_on (fun p : bool * row => good (snd p)) F (fun x y => cmp (snd x) (snd y)) (fun x y => cmp' (snd x) (snd y))) by (auto; intros [b x] [d y]; apply H). rewrite map_length, map_map. reflexivity.
Qed.
End M.
Lemma nth_def {A} (l : list A) k d : nth k l d = match nth_error l k with Some x => x | None => d end.
Proof. revert k. induction l as [|x l IH]; intros [|k]; try reflexivity. apply IH. Qed.
Lemma ch_nth (r : row) k k' : nth_error pi k' = Some k -> nth k' (cr r) (VBool false) = nth k r (VBool false).
Proof. intro E. destruct r as [|v r]; [destruct k, k'; reflexivity|]. cbn [choose_row]. rewrite nth_def, nth_error_map, E. reflexivity. Qed.
Lemma ch_lt k k' : nth_error pi k' = Some k -> k < m.
Proof. intro E. rewrite Forall_forall in Hb. apply Hb. eapply nth_error_In; eauto. Qed.
Lemma ch_col k k' : nth_error pi k' = Some k -> nth_error (s_cols sch') k' = nth_error (s_cols sch) k.
Proof. intro E. cbn [choose_sch s_cols]. rewrite nth_error_map, E. cbn. symmetry. apply nth_error_nth'. eapply ch_lt; eauto. Qed.
Lemma ch_upd (r : row) k k' v : nth_error pi k' = Some k -> length r = m -> cr (upd r k v) = upd (cr r) k' v.
Proof.
  intros E L. pose proof (ch_lt _ _ E) as B. assert (X : forall r, length r = m -> cr r = map (fun j => nth j r (VBool false)) pi) by (intros [|x r0] Lr; [cbn in Lr; lia|reflexivity]).
  rewrite !X by (rewrite ?upd_length; exact L). apply list_ext. intro i. destruct (Nat.eq_dec i k') as [->|N].
  - assert (k' < length pi) by (apply nth_error_Some; congruence). rewrite nth_error_upd_eq by (rewrite map_length; assumption). rewrite nth_error_map, E. cbn. rewrite nth_def, nth_error_upd_eq by lia. reflexivity.
  - rewrite nth_error_upd_ne by congruence. rewrite !nth_error_map. destruct (nth_error pi i) as [j|] eqn:Ej; [|reflexivity]. cbn. f_equal. rewrite !nth_def.
    rewrite nth_error_upd_ne; [reflexivity|]. intros ->. apply N. rewrite NoDup_nth_error in Hn. apply Hn; [apply nth_error_Some; congruence|congruence].
Qed.
Lemma cl_told a its b e : told pr umax sch' (cl a) its b e = om (choose_answer pi) (told pr umax sch a its b e).
Proof.
  unfold told. destruct (match pr with Debug => _ | Release => _ end); [|reflexivity]. change (s_imax sch') with (s_imax sch).
  rewrite (walk_ext umax sch (there (cl a)) (there a)) by (intro; apply cl_there).
  destruct (walk _ _ _ _ _ _) as [l|]; [|reflexivity]. cbn [om choose_answer]. f_equal. f_equal. rewrite map_map. apply map_ext. intros [i|]; [apply cl_row|apply nil_cut].
Qed.
Definition plain_op (o : op) : Prop :=
  match o with
  | OCell _ _ | OFind _ _ | OAssign _ _ _ | OPush _ | OPushAll _ | OPushArray _ | ORetain _ _ _ | OVisit _ _ _ | OMergeLogged _ _ _ _ _ | OMerge _ _ | OMergeSingle _ _ => False
  | _ => True
  end.
Lemma cl_looks a o : plain_op o -> looks pr umax sch' (cl a) o = om (choose_answer pi) (looks pr umax sch a o).
Proof.
  intro H. destruct o; try reflexivity; try contradiction; cbn [looks]; change (s_imax sch') with (s_imax sch); change (s_kind sch') with (s_kind sch); rewrite ?cl_len, ?cl_there.
  all: try solve [destruct (there a i); cbn [om choose_answer]; rewrite ?cl_row; reflexivity].
  all: try solve [destruct (len a); reflexivity].
  all: try solve [destruct (kind_eqb _ _); [reflexivity|]; destruct (_ <=? _); reflexivity].
  all: try solve [destruct (_ <=? _); [|reflexivity]; apply cl_told].
  all: try solve [destruct (_ <=? _); [|reflexivity]; destruct (_ && _); [apply cl_told|reflexivity]].
Qed.
Lemma cl_look_cell a k k' i : nth_error pi k' = Some k -> looks pr umax sch' (cl a) (OCell k' i) = om (choose_answer pi) (looks pr umax sch a (OCell k i)).
Proof.
  intro H. cbn [looks]. rewrite (ch_col _ _ H), cl_len. destruct (nth_error (s_cols sch) k); [|reflexivity]. destruct (i <? len a); [|reflexivity]. cbn [om choose_answer]. rewrite cl_row, (ch_nth _ _ _ H). reflexivity.
Qed.
Lemma cl_look_find a k k' v : nth_error pi k' = Some k -> looks pr umax sch' (cl a) (OFind k' v) = om (choose_answer pi) (looks pr umax sch a (OFind k v)).
Proof.
  intro H. cbn [looks]. rewrite (ch_col _ _ H), cl_len. destruct (nth_error (s_cols sch) k) as [[|]|]; try reflexivity. cbn [om choose_answer]. f_equal. f_equal. apply filter_ext. intro i.
  rewrite cl_row, (ch_nth _ _ _ H). reflexivity.
Qed.
Local Notation cpa := (fun p : plain * answer => (cl (fst p), choose_answer pi (snd p))).
Lemma om_quiet x y : y = om cl x -> after y (fun a => Fine (a, ANothing)) = om cpa (after x (fun a => Fine (a, ANothing))).
Proof. intro H. eapply om_after; [exact H|]. reflexivity. Qed.
Lemma typed_good rs : Forall (row_ty (s_cols sch)) rs -> Forall good rs.
Proof. apply Forall_impl. intros r. apply row_ty_length. Qed.
Lemma cl_does a l c c' : Forall good (p_rows a) -> call_ty (s_cols sch) c -> moved pi m c c' -> does pr umax sch' (cl a) l c' = om cpa (does pr umax sch a l c).
Proof.
  intros Ga Ty H. destruct l as [[s p] d]. unfold does. cbv zeta. change (s_imax sch') with (s_imax sch). change (s_kind sch') with (s_kind sch). rewrite ?cl_len.
  destruct H as [o H|k k' i H|k k' v H|k k' i v H|r|rs|rs|A g g' s0 H|A g g' s0 H|cmp cmp' rows H|cmp cmp' r H|cmp cmp' rows H]; try reflexivity.
  - destruct o; try reflexivity; try contradiction.
    all: try solve [destruct (s_kind sch); reflexivity].
    all: try solve [destruct (nothing_to_tell s); [reflexivity|]; apply om_quiet; eapply om_after; [apply cl_flushed|]; reflexivity].
    all: try solve [destruct (_ <=? _); [|reflexivity]; eapply om_after; [apply cl_told|]; reflexivity].
    all: try solve [destruct (kind_eqb _ _); [reflexivity|]; destruct (_ <=? _); reflexivity].
    * destruct (s_kind sch) eqn:K; try reflexivity.
      -- rewrite cl_there. destruct (there a i); [|reflexivity]. cbn [om fst snd choose_answer]. rewrite cl_note. reflexivity.
      -- destruct (i <? len a); [|reflexivity]. cbn [om fst snd choose_answer]. unfold with_rows, choose_pl. cbn [p_rows p_found p_free p_lock]. rewrite cl_swapped. reflexivity.
    * destruct (kind_eqb _ _); [|reflexivity]. destruct (_ && _); [|reflexivity]. cbn [om fst snd choose_answer]. unfold with_rows, choose_pl. cbn [p_rows p_found p_free p_lock]. rewrite without_on. reflexivity.
  - rewrite (ch_col _ _ H). destruct (nth_error (s_cols sch) k) as [[|]|]; try reflexivity. destruct (Nat.ltb_spec i (len a)) as [L|]; [|reflexivity].
    cbn [om fst snd choose_answer]. unfold with_rows, choose_pl. cbn [p_rows p_found p_free p_lock]. rewrite upd_map, (ch_upd _ _ _ _ H), <- cl_row; [reflexivity|].
    rewrite Forall_forall in Ga. apply Ga. apply nth_In. exact L.
  - destruct (kind_eqb _ _); [reflexivity|]. eapply om_after; [apply cl_put|]. reflexivity.
  - destruct (kind_eqb _ _); [reflexivity|]. apply om_quiet, cl_puts.
  - destruct (kind_eqb _ _); [reflexivity|]. destruct rs as [|r rs]; [reflexivity|]. cbn [map length]. rewrite map_length. pose proof (cl_grow a (r :: rs)) as G. cbn [map] in G.
    destruct (_ <=? _); [cbn [om fst snd choose_answer]; rewrite <- G; reflexivity|]. destruct pr; [reflexivity|]. destruct (_ =? _); [cbn [om fst snd choose_answer]; rewrite <- G; reflexivity|reflexivity].
  - destruct (kind_eqb _ _); [reflexivity|]. destruct (_ <=? _); [|destruct pr; reflexivity]. cbn [om fst snd choose_answer]. unfold with_rows, choose_pl. cbn [p_rows p_found p_free p_lock]. rewrite (cl_kept g g' H) by exact Ga. reflexivity.
  - destruct (_ || _); [reflexivity|]. cbn [choose_pl p_rows]. rewrite (cl_visited g g' H), (cl_stops g g' H), map_length by exact Ga.
    destruct (_ <=? _); [destruct (_ <=? _); reflexivity|]. destruct (stops_early _ _ _ _); [reflexivity|destruct pr; reflexivity].
  - destruct (kind_eqb _ _); [|reflexivity]. apply om_quiet. destruct (sort_on good cr cmp cmp' rows H (typed_good _ Ty)) as [-> Fs]. apply cl_merged; assumption.
  - destruct (kind_eqb _ _); [|reflexivity]. assert (Gr : good r) by (apply row_ty_length; exact Ty).
    eapply om_after; [apply (cl_merged cmp cmp' H a [r]); [exact Ga|repeat constructor; exact Gr]|]. intro a1. cbn [om fst snd choose_answer choose_pl p_rows].
    destruct (while_on good cr (is_lt cmp r) (is_lt cmp' (cr r)) (p_rows a)) as [-> _]; [intros x Gx; unfold is_lt; rewrite H by assumption; reflexivity|exact Ga|]. rewrite map_length. reflexivity.
  - destruct (kind_eqb _ _); [|reflexivity]. pose proof (typed_good _ Ty) as Gr. eapply om_after; [apply (cl_merged cmp cmp' H); assumption|]. intro a1. cbn [om fst snd choose_answer choose_pl p_rows].
    rewrite (cl_ids cmp cmp' H) by assumption. reflexivity.
Qed.
Lemma cl_removes a srt ev s : removes_rows pr sch' (cl a) srt ev s = om cl (removes_rows pr sch a srt ev s).
Proof.
  unfold removes_rows. change (s_kind sch') with (s_kind sch). cbn [choose_pl p_lock]. destruct (s_kind sch) eqn:K; try reflexivity.
  - destruct (match p_lock a with Some l => l | None => _ end) as [[log p] d]. eapply om_after with (F := cl); [|reflexivity]. destruct s as [|ids].
    + apply (cl_flushed (emptied a)).
    + eapply om_after; [apply (cl_removed a (SThese ids))|]. intro a1. apply cl_flushed.
  - destruct (p_lock a); [reflexivity|]. destruct s as [|ids]; [reflexivity|]. fold (cl a). rewrite cl_len. destruct (_ && _); [|reflexivity]. cbn [om]. unfold with_rows, choose_pl. cbn [p_rows p_found p_free p_lock]. rewrite without_on. reflexivity.
Qed.
Lemma cl_acts a c c' : Forall good (p_rows a) -> call_ty (s_cols sch) c -> moved pi m c c' -> acts pr umax sch' (cl a) c' = om cpa (acts pr umax sch a c).
Proof.
  intros Ga Ty H. assert (D : match p_lock a with Some l => does pr umax sch' (cl a) l c' | None => Unsaid end = om cpa (match p_lock a with Some l => does pr umax sch a l c | None => Unsaid end)).
  { destruct (p_lock a); [apply cl_does; assumption|reflexivity]. }
  unfold acts. change (p_lock (cl a)) with (p_lock a). change (s_kind sch') with (s_kind sch).
  destruct H as [o H|k k' i H|k k' v H|k k' i v H|r|rs|rs|A g g' s0 H|A g g' s0 H|cmp cmp' rows H|cmp cmp' r H|cmp cmp' rows H]; try exact D.
  - assert (L : after (looks pr umax sch' (cl a) o) (fun x => Fine (cl a, x)) = om cpa (after (looks pr umax sch a o) (fun x => Fine (a, x)))).
    { eapply om_after; [apply cl_looks; exact H|]. reflexivity. }
    destruct o; try contradiction; try exact D; try exact L.
    + destruct (p_lock a); [exact D|reflexivity].
    + destruct (p_lock a) as [[[s p] d]|]; [|reflexivity]. destruct (_ && _); reflexivity.
    + destruct (p_lock a); [|reflexivity]. eapply om_after; [apply cl_flushed|]. reflexivity.
    + eapply om_after; [apply cl_removes|]. reflexivity.
  - eapply om_after; [apply cl_look_cell; exact H|]. reflexivity.
  - eapply om_after; [apply cl_look_find; exact H|]. reflexivity.
Qed.
Lemma rel_good a st : rel sch a st -> Forall good (p_rows a).
Proof.
  intro R. assert (T : exists t, rt sch a t). { unfold rel in R. destruct st as [t|w [|x its]]; destruct (p_lock a); try contradiction; [exists t; exact R|exists (w_tab w); apply R]. }
  destruct T as (t & E & K & _). destruct K as [_ K _ _ _ _ _]. rewrite E in K. apply cols_ok_ty in K. apply typed_good. exact K.
Qed.
Lemma cl_plays cs cs' : Forall2 (moved pi m) cs cs' -> forall a st, rel sch a st -> Forall (call_ty (s_cols sch)) cs -> plays pr umax sch' (cl a) cs' = om (map (choose_answer pi)) (plays pr umax sch a cs).
Proof.
  intro F. induction F as [|c c' cs cs' H F IH]; intros a st R T; [reflexivity|]. inversion T as [|? ? T1 T2]; subst. cbn [plays].
  rewrite (cl_acts a c c' (rel_good _ _ R) T1 H). pose proof (acts_ok pr umax sch a st c R T1) as Q. destruct (acts pr umax sch a c) as [[a1 x]| |]; [|reflexivity|reflexivity].
  cbn [om after fst snd]. destruct Q as ([st1 y] & _ & R1 & _). cbn [fst snd] in R1. eapply om_after; [apply (IH a1 st1 R1 T2)|]. reflexivity.
Qed.
End More.
Theorem chosen umax pi sch cs cs' : pi <> [] -> NoDup pi -> Forall (fun k => k < length (s_cols sch)) pi ->
  Forall (call_ty (s_cols sch)) cs -> Forall (call_ty (s_cols (choose_sch pi sch))) cs' -> Forall2 (moved pi (length (s_cols sch))) cs cs' -> all_legal sch false cs = true ->
  match talks Debug umax (Free (t_new sch)) cs with
  | Ok l => talks Debug umax (Free (t_new (choose_sch pi sch))) cs' = Ok (map (choose_answer pi) l)
  | Err e => (exists c, e = EPanic c) /\ exists c, talks Debug umax (Free (t_new (choose_sch pi sch))) cs' = panic c
  end.
Proof.
  intros Np Nd B T T' F L.
  assert (Z : s_cols sch <> []). { destruct pi as [|k pi]; [congruence|]. inversion B as [|? ? B1 B2]; subst. intro E. rewrite E in B1. cbn in B1. lia. }
  assert (Z' : s_cols (choose_sch pi sch) <> []) by (destruct pi; [congruence|discriminate]).
  pose proof (plays_ok Debug umax sch cs p_new (Free (t_new sch)) (new_rel sch Z) T) as P. pose proof (plays_ok Debug umax (choose_sch pi sch) cs' p_new (Free (t_new (choose_sch pi sch))) (new_rel _ Z') T') as P'.
  pose proof (plays_said umax sch cs p_new L) as S0. pose proof (cl_plays Debug umax pi sch Nd B cs cs' F p_new (Free (t_new sch)) (new_rel sch Z) T) as C. change (choose_pl pi p_new) with p_new in C. rewrite C in P'.
  destruct (plays Debug umax sch p_new cs) as [l| |]; cbn [om] in P'.
  - rewrite P. exact P'.
  - destruct P as [c P]. rewrite P. cbn. eauto.
  - congruence.
Qed.
