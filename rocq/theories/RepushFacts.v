(** Proofs about restoring as a session of pushes. *)
From Coq Require Import List Arith Bool Lia.
From Verif Require Import Base BaseFacts Names Column ColumnFacts Order RowRange RowRangeFacts Table TableFacts SortedTab BagTab TableSpec Hist HistFacts TableProps RowProps
  Events Cascade CascadeSpec CascadeFacts CascadeProps Extract ExtractSpec ExtractFacts RestoreFacts ExtractProps InvalidFacts IntegritySpec IntegrityFacts MirrorSpec MirrorFacts
  BackupSpec BackupFacts ImportSpec ImportFacts LifeSpec LifeFacts RepushSpec.
Import ListNotations.

(** The [n]th of [rows] has the [n]th of every column. *)
Definition across (data : list (list val)) (rows : list row) : Prop :=
  forall n r, nth_error rows n = Some r -> length r = length data /\ forall k l, nth_error data k = Some l -> nth_error r k = nth_error l n.

Lemma take_row_ok data r data' : take_row data = Ok (r, data') ->
  length r = length data /\ data' = map (@tl val) data /\ forall k l, nth_error data k = Some l -> nth_error r k = nth_error l 0.
Proof.
  unfold take_row. intro H. bindn H r0 Hr. injection H as <- <-. split; [|split; [reflexivity|]].
  - revert r0 Hr. induction data as [|l data IH]; intros r0 Hr; cbn [map_res] in Hr; [injection Hr as <-; reflexivity|].
    bindn Hr v Hv. bindn Hr r1 Hr1. injection Hr as <-. cbn. f_equal. auto.
  - revert r0 Hr. induction data as [|l data IH]; intros r0 Hr k x E; [destruct k; discriminate|]. cbn [map_res] in Hr.
    bindn Hr v Hv. bindn Hr r1 Hr1. injection Hr as <-. destruct k as [|k]; cbn in E |- *; [|eauto]. injection E as <-. destruct l as [|v0 l]; [discriminate|]. injection Hv as <-. reflexivity.
Qed.
Lemma take_row_can data r : length r = length data -> (forall k l, nth_error data k = Some l -> nth_error r k = nth_error l 0) ->
  take_row data = Ok (r, map (@tl val) data).
Proof.
  intros L E. unfold take_row. assert (X : map_res (fun l : list val => match l with [] => panic PEarlyEnd | v :: _ => Ok v end) data = Ok r).
  { revert r L E. induction data as [|l data IH]; intros [|v r] L E; try discriminate L; cbn [map_res]; [reflexivity|].
    pose proof (E 0 l eq_refl) as E0. cbn in E0. destruct l as [|v0 l]; [discriminate|]. injection E0 as ->. cbn [bind].
    rewrite (IH r) by (cbn in L; try lia; intros k x Ek; exact (E (S k) x Ek)). reflexivity. }
  rewrite X. reflexivity.
Qed.
Lemma across_tl data r rows : across data (r :: rows) -> across (map (@tl val) data) rows.
Proof.
  intros A n x E. destruct (A (S n) x E) as [A1 A2]. rewrite map_length. split; [exact A1|]. intros k l Ek. rewrite nth_error_map in Ek.
  destruct (nth_error data k) as [l0|] eqn:E0; [|discriminate]. injection Ek as <-. rewrite (A2 _ _ E0). destruct l0; [destruct n|]; reflexivity.
Qed.
Lemma for_rows_saved {S} (f : S -> nat -> row -> res S) rows : forall ids data s, length rows = length ids -> across data rows ->
  for_rows f ids data s = fold_res (fun s p => f s (fst p) (snd p)) (combine ids rows) s.
Proof.
  induction rows as [|r rows IH]; intros [|i ids] data s L A; try discriminate L; [reflexivity|]. cbn [for_rows combine fold_res].
  destruct (A 0 r eq_refl) as [A1 A2]. rewrite (take_row_can data r A1 A2). cbn [bind fst snd]. destruct (f s i r) as [s'|e]; [|reflexivity]. cbn [bind].
  apply IH; [cbn in L; lia|]. eapply across_tl; eauto.
Qed.
Lemma for_rows_across {S} (f : S -> nat -> row -> res S) ids : forall data s s', for_rows f ids data s = Ok s' ->
  exists rows, length rows = length ids /\ across data rows.
Proof.
  induction ids as [|i ids IH]; intros data s s' H; [exists []; split; [reflexivity|intros [|n] r E; discriminate]|]. cbn [for_rows] in H.
  bindn H q Hq. destruct q as [r data']. cbn [fst snd] in H. bindn H s1 Hs. destruct (take_row_ok _ _ _ Hq) as (A1 & -> & A2).
  destruct (IH _ _ _ H) as (rows & L & A). exists (r :: rows). split; [cbn; lia|]. intros [|n] x E; cbn in E.
  - injection E as <-. auto.
  - destruct (A n x E) as [B1 B2]. rewrite map_length in B1. split; [exact B1|]. intros k l Ek. rewrite (B2 k (tl l)); [destruct l; [destruct n|]; reflexivity|].
    rewrite nth_error_map, Ek. reflexivity.
Qed.
Lemma across_saved e rows : length rows = length (ex_sel e) -> across (map c_into_iter (ex_data e)) rows <-> rows_saved e rows.
Proof.
  intro L. split.
  - intro A. split; [exact L|]. intros n r E. destruct (A n r E) as [A1 A2]. rewrite map_length in A1. split; [exact A1|].
    intros k c Ek. apply A2. rewrite nth_error_map, Ek. reflexivity.
  - intros [_ A] n r E. destruct (A n r E) as [A1 A2]. rewrite map_length. split; [exact A1|]. intros k l Ek. rewrite nth_error_map in Ek.
    destruct (nth_error (ex_data e) k) as [c|] eqn:Ec; [|discriminate]. injection Ek as <-. auto.
Qed.
Lemma across_unique data a b : length a = length b -> across data a -> across data b -> a = b.
Proof.
  intros L A B. apply list_ext. intro n. destruct (nth_error a n) as [r|] eqn:Ea.
  - destruct (nth_error_lt_Some b n) as [s Eb]; [rewrite <- L; eapply nth_error_Some_lt; eauto|]. rewrite Eb. f_equal.
    destruct (A n r Ea) as [A1 A2], (B n s Eb) as [B1 B2]. apply list_ext. intro k. destruct (nth_error data k) as [l|] eqn:Ek.
    + rewrite (A2 _ _ Ek), (B2 _ _ Ek). reflexivity.
    + apply nth_error_None in Ek. rewrite !(proj2 (nth_error_None _ _)) by lia. reflexivity.
  - apply nth_error_None in Ea. symmetry. apply nth_error_None. lia.
Qed.

Lemma columns_across n rows : Forall (fun r => length r = n) rows -> across (columns_of n rows) rows.
Proof.
  intros F j r E. unfold columns_of. rewrite map_length, seq_length. pose proof (proj1 (Forall_forall _ _) F r (nth_error_In _ _ E)) as L. split; [exact L|].
  intros k l Ek. rewrite nth_error_map in Ek. destruct (nth_error (seq 0 n) k) as [k0|] eqn:Es; [|discriminate]. injection Ek as <-.
  assert (Lk : k < n) by (rewrite <- (seq_length n 0); eapply nth_error_Some_lt; eauto).
  rewrite (nth_error_nth' (seq 0 n) 0) in Es by (rewrite seq_length; exact Lk). rewrite seq_nth in Es by exact Lk. injection Es as <-. cbn [Nat.add].
  rewrite nth_error_map, E. cbn [option_map]. apply nth_error_nth'. rewrite L. exact Lk.
Qed.

Section P.
Variables (pr : profile) (umax : nat) (heads : nat -> header) (foreign : nat -> list (nat * nat)) (order : nat -> row -> row -> comparison).

Lemma repush_sch w r w' i : push w r = Ok (w', i) -> t_sch (w_tab w') = t_sch (w_tab w).
Proof. apply InvalidFacts.push_sch. Qed.
Lemma edit_push q r : t_kind (w_tab (fst q)) <> Sorted -> do_edit pr umax q (OPush r) = let* s := push (fst q) r in Ok (fst s, snd q).
Proof.
  intro K. unfold do_edit. cbn [through_lock andb write_op]. assert (A : avail (t_kind (w_tab (fst q))) (OPush r) = true) by (destruct (t_kind (w_tab (fst q))); try reflexivity; congruence).
  rewrite A. destruct (push (fst q) r) as [[w i]|e]; reflexivity.
Qed.
(** The turns of the loop are pushes of the remapped rows. *)
Lemma turns_push fl p nt rows : forall ids w rm s, t_kind (w_tab w) <> Sorted -> length rows = length ids ->
  fold_res (push_turn foreign fl p nt) (combine ids rows) (w, rm) = Ok s ->
  exists rows', Forall2 (fun r r' => update_row foreign fl p r = Ok r') rows rows' /\ fold_res (do_edit pr umax) (map OPush rows') (w, []) = Ok (fst s, []).
Proof.
  induction rows as [|r rows IH]; intros [|i ids] w rm s K L H; try discriminate L; cbn [combine fold_res] in H.
  - injection H as <-. exists []. split; [constructor|reflexivity].
  - bindn H s1 H1. unfold push_turn in H1. cbn [fst snd] in H1. bindn H1 r' Hr. bindn H1 q Hq. injection H1 as <-.
    destruct q as [w1 j]. cbn [fst snd] in H.
    assert (K1 : t_kind (w_tab w1) <> Sorted) by (unfold t_kind in *; rewrite (repush_sch _ _ _ _ Hq); exact K).
    destruct (IH _ _ _ _ K1 (eq_add_S _ _ L) H) as (rows' & U & E). exists (r' :: rows'). split; [constructor; assumption|].
    cbn [map fold_res]. rewrite edit_push by exact K. cbn [fst snd]. rewrite Hq. cbn [bind fst]. exact E.
Qed.
Lemma push_turns fl p nt rows rows' : Forall2 (fun r r' => update_row foreign fl p r = Ok r') rows rows' -> forall ids w rm s, t_kind (w_tab w) <> Sorted -> length rows = length ids ->
  fold_res (do_edit pr umax) (map OPush rows') (w, []) = Ok s ->
  exists rm', fold_res (push_turn foreign fl p nt) (combine ids rows) (w, rm) = Ok (fst s, rm').
Proof.
  induction 1 as [|r r' rows rows' Hr U IH]; intros [|i ids] w rm s K L H; try discriminate L; cbn [map fold_res combine] in H |- *.
  - injection H as <-. exists rm. reflexivity.
  - rewrite edit_push in H by exact K. cbn [fst snd] in H. bindn H q Hq. bindn Hq q0 Hq0. injection Hq as <-. destruct q0 as [w1 j]. cbn [fst] in H.
    unfold push_turn at 1. cbn [fst snd]. rewrite Hr. cbn [bind]. rewrite Hq0. cbn [bind fst snd].
    apply IH; [unfold t_kind in *; rewrite (repush_sch _ _ _ _ Hq0); exact K|cbn in L; lia|exact H].
Qed.
Lemma merge_saved fl p nt w e rows : t_kind (w_tab w) <> Sorted -> rows_saved e rows ->
  merge_extract pr foreign order fl p nt w e = fold_res (push_turn foreign fl p nt) (combine (ex_sel e) rows) (w, []).
Proof.
  intros K Sv. unfold merge_extract. pose proof (proj1 Sv) as L. apply (across_saved e rows L) in Sv.
  destruct (t_kind (w_tab w)); try congruence; rewrite (for_rows_saved _ rows) by assumption; reflexivity.
Qed.
Lemma merge_has fl p nt w e s : t_kind (w_tab w) <> Sorted -> merge_extract pr foreign order fl p nt w e = Ok s -> exists rows, rows_saved e rows.
Proof.
  intros K H. unfold merge_extract in H. destruct (t_kind (w_tab w)); try congruence; apply for_rows_across in H; destruct H as (rows & L & A); exists rows; apply across_saved; auto.
Qed.
Lemma edits_pushed t rows' w : fold_res (do_edit pr umax) (map OPush rows') (w_new t, []) = Ok (w, []) <-> do_edits pr umax (w_new t) (map OPush rows') = Ok w.
Proof.
  unfold do_edits. destruct (fold_res _ _ _) as [[w1 its]|e]; cbn [bind fst snd]; [|split; discriminate].
  split; intro H; [injection H as -> ->; reflexivity|]. destruct its; [injection H as ->; reflexivity|discriminate].
Qed.

(** Restoring is pushing. *)
Lemma restore_pushes fuel x h p t e ev x' : nth_error (u_tabs (xu_u x)) p = Some t -> t_kind t <> Sorted ->
  restore pr umax heads foreign order fuel x h p e ev = Ok (x', None) ->
  exists rows rows' w, rows_saved e rows /\ Forall2 (fun r r' => update_row foreign (xu_fl x) p r = Ok r') rows rows' /\
    do_edits pr umax (w_new t) (map OPush rows') = Ok w /\ flush pr umax fuel (xu_u x) h p w ev = Ok (xu_u x').
Proof.
  intros Ht K H. unfold restore, u_get in H. rewrite Ht in H. bindn H l Hl. cbn [bind] in H. unfold restore_extract in H. bindn H v Hv. destruct v as [er|].
  { bindn H t0 Ht0. discriminate. }
  bindn H l2 Hl2. bindn H s Hs. destruct (merge_has _ _ _ (w_new t) _ _ K Hs) as [rows Sv].
  rewrite (merge_saved _ _ _ (w_new t) _ rows K Sv) in Hs. destruct (turns_push _ _ _ _ _ (w_new t) _ _ K (proj1 Sv) Hs) as (rows' & U & E).
  exists rows, rows', (fst s). split; [exact Sv|]. split; [exact U|]. split; [apply edits_pushed; exact E|].
  unfold flush, flush_with. destruct (sel_empty (w_changes (fst s))) eqn:Em.
  - bindn H t0 Ht0. injection H as <-. rewrite Ht0. reflexivity.
  - bindn H f Hf. bindn H l3 Hl3. bindn H u Hu. injection H as <-. cbn [xu_u]. unfold flush, flush_with in Hu. rewrite Em in Hu. exact Hu.
Qed.
Lemma pushes_restore fuel x h p t e ev f rows rows' w u' : nth_error (u_tabs (xu_u x)) p = Some t -> t_kind t <> Sorted ->
  ex_head e = heads p -> can_write h p = true -> (forall k q, In (k, q) (foreign p) -> can_read ((p, true) :: h) q = true) ->
  nth_error (xu_fl x) p = Some f -> fs_leaked f = 0 ->
  rows_saved e rows -> Forall2 (fun r r' => update_row foreign (xu_fl x) p r = Ok r') rows rows' ->
  do_edits pr umax (w_new t) (map OPush rows') = Ok w -> flush pr umax fuel (xu_u x) h p w ev = Ok u' ->
  exists fl', restore pr umax heads foreign order fuel x h p e ev = Ok (XU u' fl', None) /\ forall q, q <> p -> nth_error fl' q = nth_error (xu_fl x) q.
Proof.
  intros Ht K Eh Cw Cr Ef Lk Sv U E Hf. unfold restore, u_get. rewrite Cw, Ht. cbn [lock_ok bind]. unfold restore_extract. rewrite Eh.
  assert (Ev : validate (heads p) (heads p) = Ok None).
  { destruct (validate_spec (heads p) (heads p)) as [[X _]|[[_ [X _]]|[_ [X _]]]]; [congruence|congruence|lia]. }
  rewrite Ev. cbn [bind].
  assert (Lo : forallb (fun kq => can_read ((p, true) :: h) (snd kq)) (foreign p) = true) by (apply forallb_forall; intros [k q] I; exact (Cr k q I)).
  rewrite Lo. cbn [lock_ok bind]. rewrite (merge_saved _ _ _ (w_new t) _ rows K Sv). apply edits_pushed in E.
  set (nt := match u_trackers (xu_u x) p with [] => true | _ => false end).
  destruct (push_turns (xu_fl x) p nt rows rows' U (ex_sel e) (w_new t) [] _ K (proj1 Sv) E) as (rm' & E'). rewrite E'. cbn [bind fst snd].
  pose proof Hf as Hf'. unfold flush, flush_with in Hf'. destruct (sel_empty (w_changes w)).
  - bindn Hf' t0 Ht0. injection Hf' as <-. rewrite Ht0. cbn [bind]. eexists. split; [reflexivity|]. reflexivity.
  - unfold xu_flush. rewrite Ef. cbn [bind]. rewrite Lk. cbn [Nat.eqb lock_ok bind]. rewrite Hf. cbn [bind]. eexists. split; [reflexivity|].
    intros q N. apply nth_error_upd_ne. auto.
Qed.
(** Restoring to a sorted table is merging, of the rows as they were. *)
Lemma restore_merges fuel x h p t e ev x' : nth_error (u_tabs (xu_u x)) p = Some t -> t_kind t = Sorted -> u_trackers (xu_u x) p = [] ->
  restore pr umax heads foreign order fuel x h p e ev = Ok (x', None) ->
  exists rows w, rows_saved e rows /\ do_edits pr umax (w_new t) [OMerge (order p) rows] = Ok w /\ flush pr umax fuel (xu_u x) h p w ev = Ok (xu_u x').
Proof.
  intros Ht K Nt H. unfold restore, u_get in H. rewrite Ht in H. bindn H l Hl. cbn [bind] in H. unfold restore_extract in H. bindn H v Hv. destruct v as [er|].
  { bindn H t0 Ht0. discriminate. }
  bindn H l2 Hl2. bindn H s Hs. rewrite Nt in Hs. unfold merge_extract in Hs. cbn [w_new w_tab] in Hs. rewrite K in Hs. bindn Hs rows0 Hr.
  pose proof (for_rows_across _ _ _ _ _ Hr) as (rows & L & A). rewrite (for_rows_saved _ rows) in Hr by assumption.
  assert (R0 : rows0 = rows).
  { clear - Hr L. assert (G : forall ids acc, length rows = length ids -> fold_res (fun s (p : nat * row) => Ok (s ++ [snd p])) (combine ids rows) acc = Ok (acc ++ rows)).
    { clear Hr L. induction rows as [|r rows IH]; intros [|i ids] acc E; try discriminate E; cbn [combine fold_res]; [rewrite app_nil_r; reflexivity|]. cbn [bind snd].
      rewrite IH by (cbn in E; lia). rewrite <- app_assoc. reflexivity. }
    rewrite G in Hr by exact L. injection Hr as <-. reflexivity. }
  subst rows0. bindn Hs w0 Hw. injection Hs as <-. cbn [fst snd] in H.
  exists rows, w0. split; [apply across_saved; assumption|]. split.
  - unfold do_edits. cbn [fold_res]. unfold do_edit. cbn [through_lock fst snd w_new w_tab]. rewrite K. cbn [avail andb write_op]. fold (w_new t). rewrite Hw. reflexivity.
  - unfold flush, flush_with. destruct (sel_empty (w_changes w0)) eqn:Em.
    + bindn H t0 Ht0. injection H as <-. rewrite Ht0. reflexivity.
    + bindn H f Hf. bindn H l3 Hl3. bindn H u Hu. injection H as <-. cbn [xu_u]. unfold flush, flush_with in Hu. rewrite Em in Hu. exact Hu.
Qed.
End P.

Lemma remapped_update foreign fl p r r' : NoDup (map fst (foreign p)) -> remapped (foreign p) fl r r' <-> update_row foreign fl p r = Ok r'.
Proof.
  intro ND. split; [|intro H; apply update_row_spec; assumption]. intros [[L S1] S2].
  destruct (update_row_ok foreign fl p r) as [r2 H]; [|exact ND|].
  { intros k q I. destruct (S2 k q I) as (a & b & f & A1 & A2 & A3 & _). exists a, f, b. auto. }
  rewrite H. f_equal. destruct (update_row_spec foreign fl p r r2 ND H) as [[L2 T1] T2]. apply list_ext. intro k.
  destruct (in_dec Nat.eq_dec k (map fst (foreign p))) as [I|N].
  - apply in_map_iff in I. destruct I as ([k0 q] & <- & I). cbn [fst]. destruct (S2 k0 q I) as (a & b & f & A1 & A2 & A3 & A4), (T2 k0 q I) as (a' & b' & f' & B1 & B2 & B3 & B4). congruence.
  - assert (F : ~ is_foreign (foreign p) k) by (intro X; apply N; destruct X as [q X]; apply (in_map fst) in X; exact X). rewrite (S1 k F), (T1 k F). reflexivity.
Qed.
Lemma remapped_all foreign fl p rows rows' : NoDup (map fst (foreign p)) ->
  Forall2 (remapped (foreign p) fl) rows rows' <-> Forall2 (fun r r' => update_row foreign fl p r = Ok r') rows rows'.
Proof. intro ND. split; induction 1; constructor; auto; apply (remapped_update foreign fl p); assumption. Qed.
Theorem pushes pr umax heads foreign order fuel x h p t e ev x' : NoDup (map fst (foreign p)) -> nth_error (u_tabs (xu_u x)) p = Some t -> t_kind t <> Sorted ->
  restore pr umax heads foreign order fuel x h p e ev = Ok (x', None) ->
  exists rows rows' w, rows_saved e rows /\ Forall2 (remapped (foreign p) (xu_fl x)) rows rows' /\
    do_edits pr umax (w_new t) (map OPush rows') = Ok w /\ flush pr umax fuel (xu_u x) h p w ev = Ok (xu_u x').
Proof.
  intros ND Ht K H. destruct (restore_pushes pr umax heads foreign order fuel x h p t e ev x' Ht K H) as (rows & rows' & w & A & B & C).
  exists rows, rows', w. split; [exact A|]. split; [apply remapped_all; assumption|exact C].
Qed.
Theorem restores pr umax heads foreign order fuel x h p t e ev f rows rows' w u' : NoDup (map fst (foreign p)) -> nth_error (u_tabs (xu_u x)) p = Some t -> t_kind t <> Sorted ->
  ex_head e = heads p -> can_write h p = true -> (forall k q, In (k, q) (foreign p) -> can_read ((p, true) :: h) q = true) ->
  nth_error (xu_fl x) p = Some f -> fs_leaked f = 0 ->
  rows_saved e rows -> Forall2 (remapped (foreign p) (xu_fl x)) rows rows' ->
  do_edits pr umax (w_new t) (map OPush rows') = Ok w -> flush pr umax fuel (xu_u x) h p w ev = Ok u' ->
  exists fl', restore pr umax heads foreign order fuel x h p e ev = Ok (XU u' fl', None) /\ forall q, q <> p -> nth_error fl' q = nth_error (xu_fl x) q.
Proof.
  intros ND Ht K Eh Cw Cr Ef Lk Sv U. eapply pushes_restore; eauto. apply remapped_all; assumption.
Qed.

Section M.
Variables (pr : profile) (umax fuel : nat) (heads : nat -> header) (foreign : nat -> list (nat * nat)) (null : nat -> nat -> Prop)
  (rank : nat -> nat) (order : nat -> row -> row -> comparison).
Hypothesis Or : forall c, total_preorder (order c).
Hypothesis Rk : forall p, rank p < fuel.
Local Notation INV := (inv pr umax rank null order).

Lemma rows_same e n rows rows0 : rows_saved e rows -> length (ex_sel e) = length rows0 -> map c_into_iter (ex_data e) = columns_of n rows0 ->
  Forall (fun r => length r = n) rows0 -> rows = rows0.
Proof.
  intros Sv L E F. pose proof (proj1 Sv) as L1. apply (across_saved e rows L1) in Sv. rewrite E in Sv. eapply across_unique; [lia|exact Sv|apply columns_across; exact F].
Qed.
Lemma pushed_deletes rows : deleted (map OPush rows) = [].
Proof. induction rows; [reflexivity|assumption]. Qed.

Section Step.
Variables (src : nat -> table) (sel : nat -> select) (es : nat -> extraction) (x0 : xuni) (ev : event) (all : list nat).
Hypothesis Src : forall p, In p all ->
  reachable pr umax (t_sch (src p)) (Free (src p)) /\ t_kind (src p) <> Sorted /\ NoDup (map fst (foreign p)) /\
  extract_selection pr (heads p) (src p) (sel p) = Ok (es p) /\ NoDup (ex_sel (es p)) /\ rank p < fuel /\
  can_take pr umax x0 p (length (ex_sel (es p))) (t_sch (src p)).
Hypothesis Kc : forall p, In p all -> t_kind (src p) = Consistent.
Variable stays : nat -> Prop.
Hypothesis Stays : forall q, stays q -> stays_put x0 all q.
Hypothesis Cm : complete_but stays foreign all src es.
Hypothesis Trk : forall c k q, In c all -> In (k, q) (foreign c) -> stays q \/ u_trackers (xu_u x0) q <> [].
Hypothesis There : forall c k q i r a, In c all -> In (k, q) (foreign c) -> stays q -> In i (ex_sel (es c)) -> row_of (src c) i r ->
  nth_error r k = Some (VRow a) -> (exists t r', nth_error (u_tabs (xu_u x0)) q = Some t /\ t_get_row t a = Ok r') \/ null q a.
Hypothesis HN : handled_by_nothing (xu_u x0) ev.
Hypothesis Dec : forall q c k key, In (TAuto c k key) (u_trackers (xu_u x0) q) -> In (k, q) (foreign c).
Local Notation MID := (midway pr umax foreign rank src es x0 stays).

Lemma mirror_step f done x p x' : MID f done x -> INV (xu_u x) -> ~ In p done -> In p all ->
  (forall k q, In (k, q) (foreign p) -> In q done \/ stays q) ->
  restore pr umax heads foreign order fuel x [] p (es p) ev = Ok (x', None) -> INV (xu_u x') /\ follows (xu_u x) (xu_u x').
Proof.
  intros H V Np Ia Dn E. destruct (Src p Ia) as (R & Ks & ND & Ex & NDs & _ & d & fs & Ed0 & Esch & Sa & Le & Lr & _).
  destruct (mw_todo _ _ _ _ _ _ _ _ _ _ _ H p Np) as (Dt & _). rewrite Ed0 in Dt.
  assert (Kd : t_kind d = Consistent) by (unfold t_kind; rewrite Esch; apply Kc; exact Ia).
  assert (Kn : t_kind d <> Sorted) by congruence.
  destruct (restore_pushes pr umax heads foreign order fuel x [] p d (es p) ev x' Dt Kn E) as (rows & rows' & w & Sv & U & He & Hf).
  destruct (extract_spec pr umax _ _ _ _ _ R Ex) as (live & rs & rows0 & _ & _ & _ & Ed & F & T & L & _).
  assert (Lc : Forall (fun r => length r = length (s_cols (t_sch (src p)))) rows0).
  { eapply Forall_impl; [|exact T]. intros r Hr. apply row_ty_length. auto. }
  assert (rows = rows0) as -> by (eapply rows_same; eauto).
  assert (T' : Forall (row_ty (s_cols (t_sch d))) rows').
  { rewrite Esch. clear - U T. induction U as [|r r' l l' Hr U IH]; [constructor|]. inversion T; subst. constructor; [|auto]. eapply update_row_ty; eauto. }
  assert (Ut : forall q, u_trackers (xu_u x) q = u_trackers (xu_u x0) q) by (intro q; unfold u_trackers; rewrite (mw_trk _ _ _ _ _ _ _ _ _ _ _ H); reflexivity).
  assert (Rf : Forall (refs_ok null (xu_u x) p) rows').
  { apply Forall_forall. intros r' Ir. apply In_nth_error in Ir. destruct Ir as [n Hn'].
    destruct (nth_error_lt_Some rows0 n) as [r Hn]; [rewrite (Forall2_len _ _ _ U); eapply nth_error_Some_lt; eauto|].
    destruct (nth_error_lt_Some (ex_sel (es p)) n) as [i Hi]; [rewrite L; eapply nth_error_Some_lt; eauto|].
    intros q k key tq b Htr Hq Hb. rewrite Ut in Htr. pose proof (Dec _ _ _ _ Htr) as Ik.
    destruct (update_row_spec foreign (xu_fl x) p r r' ND (Forall2_nth _ _ _ U _ _ _ Hn Hn')) as [_ S2].
    destruct (S2 _ _ Ik) as (a & b' & fq & A1 & A2 & A3 & A4). rewrite Hb in A4. injection A4 as <-.
    destruct (Cm p k q i r Ia Ik (nth_error_In _ _ Hi) (Forall2_nth _ _ _ F _ _ _ Hi Hn)) as (a' & Er & Is). rewrite A1 in Er. injection Er as <-.
    destruct (Dn _ _ Ik) as [Dq|St].
    2:{ destruct (Stays q St) as (_ & fq' & Efq & Id). destruct (mw_stays _ _ _ _ _ _ _ _ _ _ _ H q St) as [Nd _].
        destruct (mw_todo _ _ _ _ _ _ _ _ _ _ _ H q Nd) as [Eqt Eqf]. rewrite Eqf, Efq in A2. injection A2 as <-. unfold fs_lookup in A3. rewrite Id in A3. injection A3 as ->.
        destruct (There p k q i r b Ia Ik St (nth_error_In _ _ Hi) (Forall2_nth _ _ _ F _ _ _ Hi Hn) A1) as [(tq0 & rq & G1 & G2)|Nu]; [|right; exact Nu].
        left. rewrite Eqt, G1 in Hq. injection Hq as <-. eauto. }
    assert (Ns : ~ stays q) by (intro X; destruct (mw_stays _ _ _ _ _ _ _ _ _ _ _ H q X); tauto).
    destruct Is as [Is|X]; [|contradiction]. destruct (Trk _ _ _ Ia Ik) as [X|Trq]; [contradiction|].
    destruct (mw_done _ _ _ _ _ _ _ _ _ _ _ H q Dq) as [(dq & dq' & _ & B2 & (_ & B4 & _) & _) (fq' & Efq & _ & _ & Lo)].
    rewrite A2 in Efq. injection Efq as <-. rewrite (Lo Trq a Is) in A3. injection A3 as <-.
    rewrite Hq in B2. injection B2 as <-. destruct (B4 a Is) as (_ & _ & rq & _ & Gq & _). left. eauto. }
  assert (Lw : t_len (w_tab w) <= t_imax (w_tab w)).
  { assert (Sw : sane pr umax (t_sch d) (Locked (w_new d) [])).
    { eapply sane_step with (o := OLock); [rewrite Esch; exact Sa|exact I|intro X; discriminate X|]. unfold step. cbn. unfold t_kind. destruct (s_kind (t_sch d)); reflexivity. }
    rewrite <- Esch in T. rewrite L in Lr.
    destruct (push_loop_into foreign (xu_fl x) p true pr umax (t_sch d) rows0 rows' (ex_sel (es p)) (w_new d) [] Sw Kn eq_refl eq_refl T L U Le Lr) as (w' & rm' & E' & Le' & _).
    apply edits_pushed in He. destruct (push_turns pr umax heads foreign order (xu_fl x) p true rows0 rows' U (ex_sel (es p)) (w_new d) [] _ Kn (eq_sym L) He) as (rm2 & E2).
    rewrite E' in E2. cbn [fst] in E2. injection E2 as <- _. exact Le'. }
  assert (Ca : careful null order (xu_u x) p (map OPush rows') ev).
  { intros t0 Ht0. rewrite Dt in Ht0. injection Ht0 as <-. rewrite Kd. split.
    - apply Forall_forall. intros o Io. apply in_map_iff in Io. destruct Io as (r' & <- & Ir). rewrite Forall_forall in T', Rf.
      split; [exact (T' _ Ir)|]. split; [|reflexivity]. constructor; [exact (Rf _ Ir)|constructor].
    - left. destruct HN as [N1 N2]. split; [exact N1|]. left. rewrite (mw_hdl _ _ _ _ _ _ _ _ _ _ _ H). exact N2. }
  assert (Ti : tidy d w (map OPush rows')).
  { intros _. rewrite pushed_deletes. split; [constructor|]. intros i I. apply in_map_iff in I. destruct I as (r & X & _). discriminate X. }
  split.
  - eapply session_cons; eauto.
  - eapply session_follows; eauto.
Qed.

Lemma mirror_all ps : forall f done x x', MID f done x -> INV (xu_u x) -> NoDup ps -> (forall p, In p ps -> ~ In p done /\ In p all) ->
  (forall before c after, ps = before ++ c :: after -> forall k q, In (k, q) (foreign c) -> In q before \/ In q done \/ stays q) ->
  restore_all pr umax heads foreign order fuel es ev ps x x' -> follows (xu_u x) (xu_u x').
Proof.
  induction ps as [|p ps IH]; intros f done x x' H V ND I O E; [cbn in E; subst x'; apply follows_refl|].
  inversion ND as [|? ? N1 N2]; subst. destruct (I p (or_introl eq_refl)) as [Np Lp].
  assert (Dn : forall k q, In (k, q) (foreign p) -> In q done \/ stays q) by (intros k q Iq; destruct (O [] p ps eq_refl k q Iq) as [[]|Q]; exact Q).
  destruct (midway_step pr umax heads foreign order rank fuel src sel es x0 ev all Src stays Stays Cm Trk HN f done x p H Np Lp Dn) as (x1 & f1 & E1 & H1).
  apply restore_all_cons in E. destruct E as (x2 & E2 & E). rewrite E1 in E2. injection E2 as <-.
  destruct (mirror_step f done x p x1 H V Np Lp Dn E1) as [V1 M1].
  eapply follows_trans; [exact M1|]. apply (IH f1 (p :: done) x1 x' H1 V1 N2); [| |exact E].
  - intros q Iq. destruct (I q (or_intror Iq)) as [A1 A2]. split; [|exact A2]. intros [<-|Q]; tauto.
  - intros before c after -> k q Iq. destruct (O (p :: before) c after eq_refl k q Iq) as [[<-|Q]|[Q|Q]]; [right; left; left; auto|left; auto|right; left; right; auto|right; right; auto].
Qed.
End Step.

Lemma tidily_grows x0 x : grows_tidily pr umax fuel heads foreign null order x0 x -> grows pr umax fuel heads foreign null order x0 x.
Proof. induction 1; [apply grows_start|eapply grows_session; eauto|eapply grows_import; eauto]. Qed.

Lemma import_follows lk x0 x ps src sel es ev x' : alive pr umax foreign null rank order lk x0 x -> addable pr umax heads foreign null x ps src sel es ev -> (forall p, In p ps -> ~ lk p) ->
  restore_all pr umax heads foreign order fuel es ev ps x x' -> follows (xu_u x) (xu_u x').
Proof.
  intros A Im Nl E. pose proof Im as (I & Cm & ND & O & HN & Th). pose proof (al_inv _ _ _ _ _ _ _ _ _ A) as V. pose proof (al_dec _ _ _ _ _ _ _ _ _ A) as (D1 & D2 & D3).
  eapply (mirror_all src sel es x ev ps) with (stays := stays_put x ps) (f := fun _ a => a) (done := []) (x := x); try exact E; auto.
  - intros p Ip. assert (Ct : can_take pr umax x p (length (ex_sel (es p))) (t_sch (src p))) by (eapply addable_take; eauto). destruct (I p Ip) as ((d & E1 & E2 & E3 & E4 & E5 & E6 & E7) & _).
    split; [exact E4|]. split; [unfold t_kind in *; rewrite <- E2, E3; discriminate|]. auto 10.
  - intros p Ip. destruct (I p Ip) as ((d & E1 & E2 & E3 & _) & _). unfold t_kind in *. congruence.
  - intros c k q _ Ik. right. exact (D3 c k q Ik).
  - split; auto; try (intros ? ? ? []); try (intros ? []). eapply inv_linked. exact V.
  - intros before c after Eq k q Ik. destruct (O before c after Eq k q Ik); tauto.
Qed.

Theorem grows_mirror x0 x : wired rank order (xu_u x0) -> all_new (xu_u x0) -> unmapped x0 -> declared foreign (xu_u x0) -> u_log (xu_u x0) = [] ->
  grows_tidily pr umax fuel heads foreign null order x0 x ->
  forall q m srt f t, nth_error (u_trackers (xu_u x) q) m = Some (TUser srt f) -> (forall ev, f ev = true) -> nth_error (u_tabs (xu_u x)) q = Some t ->
  forall i, In i (book q m (u_log (xu_u x))) <-> exists r, t_get_row t i = Ok r.
Proof.
  intros W N Un D L0 G. change (mirrored (xu_u x)). induction G as [|x p t es w ev x' G IH Ca Hp He Le Ty H|x ps src sel es ev x' G IH Im E].
  - apply (tended_mirror pr umax fuel rank null order Or (xu_u x0) (xu_u x0) Rk W N L0). apply tended_start.
  - pose proof (grows_alive pr umax fuel heads foreign null rank order Or Rk x0 x W N Un D (tidily_grows _ _ G)) as A.
    unfold x_flush in H. bindn H u Hu. injection H as <-. cbn [xu_u]. eapply session_mirror; eauto. apply A.
  - destruct (grows_kept pr umax fuel heads foreign null rank order Or Rk x0 x W N Un D (tidily_grows _ _ G)) as [A Us].
    eapply follows_mirror; [|exact IH]. eapply import_follows; [exact A|exact (importable_addable _ _ _ _ _ _ _ _ _ _ _ Us Im)| |exact E].
    intros p _ F. exact F.
Qed.
Lemma tended_tidily u0 fl u : tended pr umax fuel null order u0 u -> grows_tidily pr umax fuel heads foreign null order (XU u0 fl) (XU u fl).
Proof.
  induction 1 as [|u p t es w ev u' L IH Ca Hp He Le Ty H]; [apply tidily_start|].
  eapply tidily_session; [exact IH|exact Ca|exact Hp|exact He|exact Le|exact Ty|]. unfold x_flush. cbn [xu_u xu_fl]. rewrite H. reflexivity.
Qed.
End M.
