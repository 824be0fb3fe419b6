(** Proofs about tables with and without their last columns: with the plain lists of C85, success is carried to the larger table. *)
From Coq Require Import List Arith Bool Lia.
From Verif Require Import Base BaseFacts Column RowRange Table Visit SortedTab TableSpec Hist SkipSpec Answers PlainSpec PlainFacts IndexedFacts CutSpec CutFacts.
Import ListNotations.

Lemma while_map {A B} (f : A -> B) p p' l : (forall x, p' (f x) = p x) -> take_while p' (map f l) = map f (take_while p l) /\ drop_while p' (map f l) = map f (drop_while p l).
Proof. intro H. induction l as [|x l [I1 I2]]; [split; reflexivity|]. cbn. rewrite H. destruct (p x); cbn; rewrite ?I1, ?I2; split; reflexivity. Qed.
Lemma stable_map {A B} (f : A -> B) cmp cmp' : (forall x y, cmp' (f x) (f y) = cmp x y) -> forall a b, stable_merge cmp' (map f a) (map f b) = map f (stable_merge cmp a b).
Proof.
  intro H. induction a as [|x a IHa]; intro b; [destruct b; reflexivity|]. induction b as [|y b IHb]; [reflexivity|].
  cbn. rewrite H. destruct (cmp x y); cbn; f_equal; try (apply (IHa (y :: b))); exact IHb.
Qed.
Lemma order_map {A B} (f : A -> B) cmp cmp' a b : (forall x y, cmp' (f x) (f y) = cmp x y) -> merge_order cmp' (map f a) (map f b) = map f (merge_order cmp a b).
Proof.
  intro H. destruct b as [|y b]; [reflexivity|]. unfold merge_order. cbn [map].
  destruct (while_map f (is_lt cmp y) (is_lt cmp' (f y)) a) as [-> ->]; [intro; unfold is_lt; rewrite H; reflexivity|]. rewrite (stable_map f cmp cmp' H), map_app. reflexivity.
Qed.
Lemma without_map {A B} (f : A -> B) ids l : forall i, without i (map f l) ids = map f (without i l ids).
Proof. induction l as [|x l IH]; intro i; [reflexivity|]. cbn. destruct (mem i ids); cbn; rewrite IH; reflexivity. Qed.

Lemma nthd_firstn n (r : row) k d : k < n -> nth k (firstn n r) d = nth k r d.
Proof. revert r k. induction n as [|n IH]; intros [|x r] [|k] H; try lia; try reflexivity. cbn. apply IH. lia. Qed.

Definition om {A B} (F : A -> B) (x : outcome A) : outcome B := match x with Fine a => Fine (F a) | Fails => Fails | Unsaid => Unsaid end.
Lemma om_after {A B C D} (F : A -> B) (G : C -> D) x y f g : y = om F x -> (forall a, g (F a) = om G (f a)) -> after y g = om G (after x f).
Proof. intros -> H. destruct x; cbn; auto. Qed.

Section More.
Variables (pr : profile) (umax n : nat) (sch : schema).
Local Notation cr := (firstn n).
Local Notation sch' := (cut_sch n sch).
Definition cut_pl (a : plain) : plain := Pl (map cr (p_rows a)) (p_found a) (p_free a) (p_lock a).
Local Notation cl := cut_pl.
Lemma nil_cut : @nil val = cr []. Proof. destruct n; reflexivity. Qed.
Lemma cl_len a : len (cl a) = len a. Proof. apply map_length. Qed.
Lemma cl_there a i : there (cl a) i = there a i. Proof. unfold there. rewrite cl_len. reflexivity. Qed.
Lemma cl_row a i : row_at (cl a) i = cr (row_at a i).
Proof. unfold row_at. cbn [cut_pl p_rows]. rewrite nil_cut at 1. apply map_nth. Qed.
Lemma cl_note a ids p d : note sch' (cl a) ids p d = cl (note sch a ids p d).
Proof. unfold note. cbn [cut_pl p_lock]. destruct (p_lock a) as [[[s q] e]|]; [|reflexivity]. change (s_kind sch') with (s_kind sch). destruct (kind_eqb _ _); reflexivity. Qed.
Lemma cl_grow a rs : grow sch' (cl a) (map cr rs) = cl (grow sch a rs).
Proof. unfold grow. rewrite cl_len, map_length, <- cl_note. f_equal. unfold cut_pl. cbn. rewrite map_app. reflexivity. Qed.
Lemma cl_free a : free_id sch' (cl a) = free_id sch a. Proof. reflexivity. Qed.
Lemma cl_put a r : put sch' (cl a) (cr r) = om (fun p => (cl (fst p), snd p)) (put sch a r).
Proof.
  unfold put. rewrite cl_free, cl_len. destruct (free_id sch a) as [i|].
  - destruct (i <? len a); [|reflexivity]. cbn [om fst snd]. rewrite <- cl_note. unfold cut_pl. cbn. rewrite upd_map. reflexivity.
  - change (s_imax sch') with (s_imax sch). destruct (_ <=? _); [|reflexivity]. cbn [om fst snd]. rewrite <- cl_grow. reflexivity.
Qed.
Lemma cl_puts rs : forall a, puts sch' (cl a) (map cr rs) = om cl (puts sch a rs).
Proof. induction rs as [|r rs IH]; intro a; [reflexivity|]. cbn [puts map]. eapply om_after; [apply cl_put|]. intro p. apply IH. Qed.
Lemma cl_swapped rows i : swapped_out (map cr rows) i = map cr (swapped_out rows i).
Proof.
  unfold swapped_out. rewrite map_length, <- firstn_map, upd_map. f_equal. f_equal. induction rows as [|x [|y rows] IH]; [apply nil_cut|reflexivity|]. exact IH.
Qed.
Lemma cl_swaps m ids : forall rows, swapped_outs pr m (map cr rows) ids = om (map cr) (swapped_outs pr m rows ids).
Proof.
  induction ids as [|i ids IH]; intro rows; [reflexivity|]. cbn [swapped_outs]. destruct (i <? m); [|reflexivity]. destruct rows as [|x rows]; [destruct pr; reflexivity|].
  rewrite <- IH, <- cl_swapped. reflexivity.
Qed.
Lemma cl_removed a s : removed pr sch' (cl a) s = om cl (removed pr sch a s).
Proof.
  unfold removed. destruct s as [|ids]; [reflexivity|]. change (s_kind sch') with (s_kind sch). rewrite cl_len.
  destruct (s_kind sch); try (destruct ids; reflexivity); [destruct (all_below _ _); reflexivity|]. eapply om_after; [apply cl_swaps|]. reflexivity.
Qed.
Lemma cl_flushed a l srt ev : flushed pr sch' (cl a) l srt ev = om cl (flushed pr sch a l srt ev).
Proof. unfold flushed. destruct l as [[s p] d]. destruct (nothing_to_tell s); [reflexivity|]. destruct (_ || _); [reflexivity|]. destruct (ev_removal ev); [apply cl_removed|reflexivity]. Qed.
Lemma cl_kept {A} (g g' : A -> row -> A * bool) : (forall a r, g' a (cr r) = g a r) -> forall rows s, kept_rows g' s (map cr rows) = map cr (kept_rows g s rows).
Proof. intros H rows. induction rows as [|r rows IH]; intro s; [reflexivity|]. cbn [kept_rows map]. cbv zeta. rewrite H. destruct (snd (g s r)); cbn [map]; rewrite IH; reflexivity. Qed.
Section V.
Context {A : Type} (g g' : A -> row -> A * action).
Hypothesis H : forall a r, g' a (cr r) = (fst (g a r), cut_act n (snd (g a r))).
Lemma cl_visited rows : forall s, visited_rows g' s (map cr rows) = map cr (visited_rows g s rows).
Proof.
  induction rows as [|r rows IH]; intro s; [reflexivity|]. cbn [visited_rows map]. cbv zeta. rewrite H. cbn [fst snd]. destruct (snd (g s r)) as [rm add|]; cbn [cut_act]; [|reflexivity].
  rewrite IH, !map_app. destruct rm; reflexivity.
Qed.
Lemma cl_broke rows : forall s i k, broke g' s (map cr rows) i k = broke g s rows i k.
Proof.
  induction rows as [|r rows IH]; intros s i k; [reflexivity|]. cbn [broke map]. cbv zeta. rewrite H. cbn [fst snd]. destruct (snd (g s r)) as [rm add|]; cbn [cut_act]; [|reflexivity].
  rewrite map_length. apply IH.
Qed.
Lemma cl_stops s rows : stops_early sch' g' s (map cr rows) = stops_early sch g s rows.
Proof. unfold stops_early. rewrite cl_broke. reflexivity. Qed.
End V.
Section M.
Variables (cmp cmp' : row -> row -> comparison).
Hypothesis H : forall x y, cmp' (cr x) (cr y) = cmp x y.
Lemma cl_merged a new : merged_with pr sch' (cl a) cmp' (map cr new) = om cl (merged_with pr sch a cmp new).
Proof.
  unfold merged_with. destruct new as [|first new]; [reflexivity|]. cbn [map]. rewrite cl_len. change (s_imax sch') with (s_imax sch). cbn [length]. rewrite map_length.
  destruct (_ <=? _).
  - destruct (_ <=? _); [|reflexivity]. cbn [om]. f_equal. unfold with_rows, cut_pl. cbn [p_rows p_found p_free p_lock]. f_equal. apply (order_map cr cmp cmp' (p_rows a) (first :: new) H).
  - destruct pr; [reflexivity|]. replace (forallb (is_lt cmp' (cr first)) (p_rows (cl a))) with (forallb (is_lt cmp first) (p_rows a)); [destruct (forallb _ _); reflexivity|].
    cbn [cut_pl p_rows]. induction (p_rows a) as [|x l IH]; [reflexivity|]. cbn. rewrite IH. unfold is_lt at 3. rewrite H. reflexivity.
Qed.
Lemma cl_ids rows new : merge_ids cmp' (map cr rows) (map cr new) = merge_ids cmp rows new.
Proof.
  unfold merge_ids. cbv zeta. set (F := fun p : bool * row => (fst p, cr (snd p))).
  assert (X : forall b l, map (pair b) (map cr l) = map F (map (pair b) l)) by (intros b l; rewrite !map_map; reflexivity). rewrite !X.
  rewrite (order_map F (fun x y => cmp (snd x) (snd y)) (fun x y => cmp' (snd x) (snd y))) by (intros [b x] [d y]; apply H). rewrite map_length, map_map. reflexivity.
Qed.
End M.
Lemma cl_told a its b e : told pr umax sch' (cl a) its b e = om (cut_answer n) (told pr umax sch a its b e).
Proof.
  unfold told. destruct (match pr with Debug => _ | Release => _ end); [|reflexivity]. change (s_imax sch') with (s_imax sch).
  rewrite (walk_ext umax sch (there (cl a)) (there a)) by (intro; apply cl_there).
  destruct (walk _ _ _ _ _ _) as [l|]; [|reflexivity]. cbn [om cut_answer]. f_equal. f_equal. rewrite map_map. apply map_ext. intros [i|]; [apply cl_row|apply nil_cut].
Qed.
Lemma cl_looks a o o' : fewer_op n o o' -> looks pr umax sch' (cl a) o' = om (cut_answer n) (looks pr umax sch a o).
Proof.
  intro H. destruct H as [o H| | | | | | | | ]; try reflexivity. destruct o; try reflexivity; try contradiction; cbn [looks]; change (s_imax sch') with (s_imax sch); change (s_kind sch') with (s_kind sch); rewrite ?cl_len, ?cl_there.
  all: try solve [destruct (there a i); cbn [om cut_answer]; rewrite ?cl_row; reflexivity].
  all: try solve [destruct (len a); reflexivity].
  all: try solve [destruct (kind_eqb _ _); [reflexivity|]; destruct (_ <=? _); reflexivity].
  all: try solve [destruct (_ <=? _); [|reflexivity]; apply cl_told].
  all: try solve [destruct (_ <=? _); [|reflexivity]; destruct (_ && _); [apply cl_told|reflexivity]].
  - cbn [cut_sch s_cols]. rewrite nth_firstn by exact H. destruct (nth_error (s_cols sch) k); [|reflexivity]. destruct (i <? len a); [|reflexivity]. cbn [om cut_answer]. rewrite cl_row, nthd_firstn by exact H. reflexivity.
  - cbn [cut_sch s_cols]. rewrite nth_firstn by exact H. destruct (nth_error (s_cols sch) k) as [[|]|]; try reflexivity. cbn [om cut_answer]. f_equal. f_equal. apply filter_ext. intro i.
    rewrite cl_row, nthd_firstn by exact H. reflexivity.
Qed.
Local Notation cpa := (fun p : plain * answer => (cl (fst p), cut_answer n (snd p))).
Lemma om_quiet x y : y = om cl x -> after y (fun a => Fine (a, ANothing)) = om cpa (after x (fun a => Fine (a, ANothing))).
Proof. intro H. eapply om_after; [exact H|]. reflexivity. Qed.
Lemma cl_does a l c c' : fewer n c c' -> does pr umax sch' (cl a) l c' = om cpa (does pr umax sch a l c).
Proof.
  intro H. destruct l as [[s p] d]. unfold does. cbv zeta. change (s_imax sch') with (s_imax sch). change (s_kind sch') with (s_kind sch). rewrite ?cl_len.
  destruct H as [o o' H|A g g' s0 H|A g g' s0 H|cmp cmp' rows H].
  - destruct H as [o H|r|rs|rs|A f f' s0 H|A f f' s0 H|cmp cmp' A log log' s0 rows Hc Hl|cmp cmp' rows Hc|cmp cmp' r Hc]; try reflexivity.
    + destruct o; try reflexivity; try contradiction.
      all: try solve [destruct (s_kind sch); reflexivity].
      all: try solve [destruct (nothing_to_tell s); [reflexivity|]; apply om_quiet; eapply om_after; [apply cl_flushed|]; reflexivity].
      all: try solve [destruct (_ <=? _); [|reflexivity]; eapply om_after; [apply cl_told|]; reflexivity].
      all: try solve [destruct (kind_eqb _ _); [reflexivity|]; destruct (_ <=? _); reflexivity].
      * cbn [cut_sch s_cols]. rewrite nth_firstn by exact H. destruct (nth_error (s_cols sch) k) as [[|]|]; try reflexivity. destruct (i <? len a); [|reflexivity].
        cbn [om fst snd cut_answer]. unfold with_rows, cut_pl. cbn [p_rows p_found p_free p_lock]. rewrite upd_map, upd_firstn, <- cl_row. reflexivity.
      * destruct (s_kind sch) eqn:K; try reflexivity.
        -- rewrite cl_there. destruct (there a i); [|reflexivity]. cbn [om fst snd cut_answer]. rewrite cl_note. reflexivity.
        -- destruct (i <? len a); [|reflexivity]. cbn [om fst snd cut_answer]. unfold with_rows, cut_pl. cbn [p_rows p_found p_free p_lock]. rewrite cl_swapped. reflexivity.
      * destruct (kind_eqb _ _); [|reflexivity]. destruct (_ && _); [|reflexivity]. cbn [om fst snd cut_answer]. unfold with_rows, cut_pl. cbn [p_rows p_found p_free p_lock]. rewrite without_map. reflexivity.
    + destruct (kind_eqb _ _); [reflexivity|]. eapply om_after; [apply cl_put|]. reflexivity.
    + destruct (kind_eqb _ _); [reflexivity|]. apply om_quiet, cl_puts.
    + destruct (kind_eqb _ _); [reflexivity|]. destruct rs as [|r rs]; [reflexivity|]. cbn [map length]. rewrite map_length. pose proof (cl_grow a (r :: rs)) as G. cbn [map] in G.
      destruct (_ <=? _); [cbn [om fst snd cut_answer]; rewrite <- G; reflexivity|]. destruct pr; [reflexivity|]. destruct (_ =? _); [cbn [om fst snd cut_answer]; rewrite <- G; reflexivity|reflexivity].
    + destruct (kind_eqb _ _); [|reflexivity]. apply om_quiet. rewrite (cut_sort _ _ _ Hc). apply cl_merged. exact Hc.
    + destruct (kind_eqb _ _); [|reflexivity]. eapply om_after; [apply (cl_merged cmp cmp' Hc a [r])|]. intro a1. cbn [om fst snd cut_answer cut_pl p_rows].
      destruct (while_map cr (is_lt cmp r) (is_lt cmp' (cr r)) (p_rows a)) as [-> _]; [intro; unfold is_lt; rewrite Hc; reflexivity|]. rewrite map_length. reflexivity.
  - destruct (kind_eqb _ _); [reflexivity|]. destruct (_ <=? _); [|destruct pr; reflexivity]. cbn [om fst snd cut_answer]. unfold with_rows, cut_pl. cbn [p_rows p_found p_free p_lock]. rewrite (cl_kept g g' H). reflexivity.
  - destruct (_ || _); [reflexivity|]. cbn [cut_pl p_rows]. rewrite (cl_visited g g' H), (cl_stops g g' H), map_length. destruct (_ <=? _); [destruct (_ <=? _); reflexivity|]. destruct (stops_early _ _ _ _); [reflexivity|destruct pr; reflexivity].
  - destruct (kind_eqb _ _); [|reflexivity]. eapply om_after; [apply (cl_merged cmp cmp' H)|]. intro a1. cbn [om fst snd cut_answer cut_pl p_rows]. rewrite (cl_ids cmp cmp' H). reflexivity.
Qed.
Lemma cl_removes a srt ev s : removes_rows pr sch' (cl a) srt ev s = om cl (removes_rows pr sch a srt ev s).
Proof.
  unfold removes_rows. change (s_kind sch') with (s_kind sch). cbn [cut_pl p_lock]. destruct (s_kind sch) eqn:K; try reflexivity.
  - destruct (match p_lock a with Some l => l | None => _ end) as [[log p] d]. eapply om_after with (F := cl); [|reflexivity]. destruct s as [|ids].
    + apply (cl_flushed (emptied a)).
    + eapply om_after; [apply (cl_removed a (SThese ids))|]. intro a1. apply cl_flushed.
  - destruct (p_lock a); [reflexivity|]. destruct s as [|ids]; [reflexivity|]. fold (cl a). rewrite cl_len. destruct (_ && _); [|reflexivity]. cbn [om]. unfold with_rows, cut_pl. cbn [p_rows p_found p_free p_lock]. rewrite without_map. reflexivity.
Qed.
Lemma cl_acts a c c' : fewer n c c' -> acts pr umax sch' (cl a) c' = om cpa (acts pr umax sch a c).
Proof.
  intro H. assert (D : match p_lock a with Some l => does pr umax sch' (cl a) l c' | None => Unsaid end = om cpa (match p_lock a with Some l => does pr umax sch a l c | None => Unsaid end)).
  { destruct (p_lock a); [apply cl_does; exact H|reflexivity]. }
  unfold acts. change (p_lock (cl a)) with (p_lock a). change (s_kind sch') with (s_kind sch).
  destruct H as [o o' H| | | ]; try exact D.
  assert (L : after (looks pr umax sch' (cl a) o') (fun x => Fine (cl a, x)) = om cpa (after (looks pr umax sch a o) (fun x => Fine (a, x)))).
  { eapply om_after; [apply cl_looks; exact H|]. reflexivity. }
  destruct H as [o H| | | | | | | | ]; try exact D. destruct o; try contradiction; try exact D; try exact L.
  - destruct (p_lock a); [exact D|reflexivity].
  - destruct (p_lock a) as [[[s p] d]|]; [|reflexivity]. destruct (_ && _); reflexivity.
  - destruct (p_lock a); [|reflexivity]. eapply om_after; [apply cl_flushed|]. reflexivity.
  - eapply om_after; [apply cl_removes|]. reflexivity.
Qed.
Lemma cl_plays cs cs' : Forall2 (fewer n) cs cs' -> forall a, plays pr umax sch' (cl a) cs' = om (map (cut_answer n)) (plays pr umax sch a cs).
Proof.
  intro F. induction F as [|c c' cs cs' H F IH]; intro a; [reflexivity|]. cbn [plays]. eapply om_after; [apply cl_acts; exact H|]. intro p. eapply om_after; [apply IH|]. reflexivity.
Qed.
End More.
Theorem cut_back umax n sch cs cs' l' : 1 <= n -> s_cols sch <> [] -> Forall (call_ty (s_cols sch)) cs -> Forall (call_ty (s_cols (cut_sch n sch))) cs' -> Forall2 (fewer n) cs cs' ->
  all_legal sch false cs = true -> talks Debug umax (Free (t_new (cut_sch n sch))) cs' = Ok l' ->
  exists l, talks Debug umax (Free (t_new sch)) cs = Ok l /\ l' = map (cut_answer n) l.
Proof.
  intros N Z T T' F L E. assert (Z' : s_cols (cut_sch n sch) <> []) by (cbn; destruct n; [lia|]; destruct (s_cols sch); [congruence|discriminate]).
  pose proof (plays_ok Debug umax sch cs p_new (Free (t_new sch)) (new_rel sch Z) T) as P. pose proof (plays_ok Debug umax (cut_sch n sch) cs' p_new (Free (t_new (cut_sch n sch))) (new_rel _ Z') T') as P'.
  pose proof (plays_said umax sch cs p_new L) as S0. pose proof (cl_plays Debug umax n sch cs cs' F p_new) as C. change (cut_pl n p_new) with p_new in C. rewrite C in P'.
  destruct (plays Debug umax sch p_new cs) as [l| |]; cbn [om] in P'; [|destruct P' as [c P']; rewrite P' in E; discriminate E|congruence].
  exists l. split; [exact P|]. rewrite P' in E. injection E as <-. reflexivity.
Qed.
