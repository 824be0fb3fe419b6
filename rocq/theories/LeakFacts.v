From Coq Require Import List Arith Bool Lia Sorting.Sorted Sorting.Permutation.
From Verif Require Import Base BaseFacts Names Column ColumnFacts Order RowRange RowRangeFacts Table Visit SortedTab BagTab
  TableSpec TableFacts VisitFacts SortedFacts Hist HistFacts TableProps RowProps Events Cascade CascadeSpec CascadeFacts CascadeProps
  Extract ExtractSpec ExtractFacts RestoreFacts ExtractProps.
Import ListNotations.

(** ** C38 *)
Section Leak.
Variables (pr : profile) (umax : nat) (heads : nat -> header) (foreign : nat -> list (nat * nat)) (order : nat -> row -> row -> comparison) (fuel : nat).
Notation step := (x_step pr umax heads foreign order fuel).
Notation run := (x_run pr umax heads foreign order fuel).

Lemma leaked_upd x u p f p' : nth_error (xu_fl x) p <> None ->
  leaked (XU u (upd (xu_fl x) p f)) p' = if p' =? p then fs_leaked f else leaked x p'.
Proof.
  intro N. unfold leaked. cbn [xu_fl]. destruct (Nat.eqb_spec p' p) as [->|Np].
  - rewrite nth_error_upd_eq; auto. apply nth_error_Some. auto.
  - rewrite nth_error_upd_ne by auto. auto.
Qed.
Lemma set_remapping_leaked f l : fs_leaked (set_remapping f l) = fs_leaked f.
Proof. unfold set_remapping. destruct (fs_ident f); auto. Qed.

Lemma has_remapping_iff f : has_remapping f = true <-> fs_remap f <> [].
Proof. unfold has_remapping. destruct (fs_remap f); split; congruence. Qed.

Lemma step_leak x o x' p : step x o = Ok x' ->
  (leaks pr umax x o p -> leaked x' p = S (leaked x p)) /\ (~ leaks pr umax x o p -> leaked x' p = leaked x p).
Proof.
  destruct o as [q es ev|q es ev|q e ev|q tr|q]; cbn [x_step]; intro H.
  - bindn H t Ht. bindn H w Hw. unfold x_flush in H. bindn H u Hu. inv H. split; [|auto]. intros (es' & ev' & ? & ? & ? & X & _). discriminate.
  - bindn H t Ht. bindn H w Hw. bindn H y Hy. bindn H t' Ht'. inv H. unfold x_live_flush in Hy. bindn Hy z Hz.
    destruct (sel_empty (w_changes w)) eqn:E.
    + inv Hy. cbn [fst snd xu_fl]. split; [|auto]. intros (es' & ev' & t2 & w2 & f & X & A1 & A2 & A3 & _). inv X.
      rewrite Ht in A1. inv A1. rewrite Hw in A2. inv A2. congruence.
    + bindn Hy f Hf. inv Hy. cbn [fst snd xu_fl]. unfold xu_flush in Hf. destruct (nth_error (xu_fl x) q) as [f0|] eqn:Ef; inv Hf.
      rewrite leaked_upd by congruence. cbn [fs_leaked]. unfold leaks. destruct (Nat.eqb_spec p q) as [->|Np].
      * unfold leaked. rewrite Ef. destruct (has_remapping f) eqn:Er; cbn [Nat.eqb].
        -- split; [reflexivity|]. intro N. elim N. exists es, ev, t, w, f. apply has_remapping_iff in Er. auto 8.
        -- split; [|auto]. intros (es' & ev' & t2 & w2 & f2 & X & A1 & A2 & A3 & A4 & A5). inv A4. apply has_remapping_iff in A5. congruence.
      * split; [|auto]. intros (es' & ev' & t2 & w2 & f2 & X & _). inv X. congruence.
  - bindn H y Hy. destruct y as [x1 er]. inv H. cbn [fst]. split; [intros (es' & ev' & ? & ? & ? & X & _); discriminate|]. intros _.
    unfold restore in Hy. bindn Hy l1 Hl. bindn Hy t Ht. unfold restore_extract in Hy. bindn Hy v Hv. destruct v as [er'|].
    + bindn Hy t' Ht'. inv Hy. reflexivity.
    + bindn Hy l2 Hl2. bindn Hy s Hs. destruct (sel_empty (w_changes (fst s))).
      * bindn Hy t' Ht'. inv Hy. reflexivity.
      * bindn Hy f Hf. bindn Hy l3 Hl3. bindn Hy u Hu. inv Hy. unfold xu_flush in Hf. destruct (nth_error (xu_fl x) q) as [f0|] eqn:Ef; inv Hf.
        rewrite leaked_upd by congruence. rewrite set_remapping_leaked. destruct (Nat.eqb_spec p q) as [->|]; auto. unfold leaked. rewrite Ef. auto.
  - unfold x_register_tracker in H. bindn H l1 Hl. bindn H t Ht. bindn H f Hf. bindn H l2 Hl2. destruct (t_consistent t); inv H.
    split; [intros (es' & ev' & ? & ? & ? & X & _); discriminate|]. auto.
  - unfold x_identity in H. bindn H f Hf. bindn H l2 Hl2. inv H. split; [intros (es' & ev' & ? & ? & ? & X & _); discriminate|]. intros _.
    unfold xu_flush in Hf. destruct (nth_error (xu_fl x) q) as [f0|] eqn:Ef; inv Hf. rewrite leaked_upd by congruence.
    destruct (Nat.eqb_spec p q) as [->|]; auto. unfold leaked. rewrite Ef. auto.
Qed.

Lemma leaks_dec x o p : leaks pr umax x o p \/ ~ leaks pr umax x o p.
Proof.
  unfold leaks. destruct o as [q es ev|q es ev|q e ev|q tr|q]; try (right; intros (es' & ev' & ? & ? & ? & X & _); discriminate).
  destruct (Nat.eq_dec q p) as [->|N]; [|right; intros (es' & ev' & ? & ? & ? & X & _); inv X; congruence].
  destruct (u_get (xu_u x) p) as [t|] eqn:Et; [|right; intros (es' & ev' & ? & ? & ? & _ & X & _); discriminate].
  destruct (do_edits pr umax (w_new t) es) as [w|] eqn:Ew; [|right; intros (es' & ev' & ? & ? & ? & X1 & X & X2 & _); inv X1; inv X; congruence].
  destruct (sel_empty (w_changes w)) eqn:Ee; [right; intros (es' & ev' & ? & ? & ? & X1 & X & X2 & X3 & _); inv X1; inv X; rewrite Ew in X2; inv X2; congruence|].
  destruct (nth_error (xu_fl x) p) as [f|] eqn:Ef; [|right; intros (es' & ev' & ? & ? & ? & X1 & X & X2 & X3 & X4 & _); congruence].
  destruct (has_remapping f) eqn:Er; [|right; intros (es' & ev' & ? & ? & ? & X1 & X & X2 & X3 & X4 & X5); apply has_remapping_iff in X5; congruence].
  left. exists es, ev, t, w, f. apply has_remapping_iff in Er. auto 8.
Qed.
Lemma run_leaked ops : forall x x' p, run x ops = Ok x' -> leaked x p <= leaked x' p.
Proof.
  unfold x_run. induction ops as [|o ops IH]; intros x x' p H; cbn [fold_res] in H; [inv H; auto|].
  bindn H x1 H1. apply IH with (p := p) in H. destruct (step_leak _ _ _ p H1) as [A B]. destruct (leaks_dec x o p) as [D|D]; [rewrite A in H by auto|rewrite B in H by auto]; lia.
Qed.
Lemma run_no_live ops : forall x x' p, Forall (fun o => match o with XLive q _ _ => q <> p | _ => True end) ops ->
  run x ops = Ok x' -> leaked x' p = leaked x p.
Proof.
  unfold x_run. induction ops as [|o ops IH]; intros x x' p F H; cbn [fold_res] in H; [inv H; auto|].
  bindn H x1 H1. inv F. apply IH with (p := p) in H; auto. rewrite H. apply (step_leak _ _ _ p H1).
  intros (es & ev & t & w & f & X & _). subst o. congruence.
Qed.

Lemma for_rows_pushes {f : wlock * list (nat * nat) -> nat -> row -> res (wlock * list (nat * nat))} : forall ids data s s',
  (forall s i r s', f s i r = Ok s' -> t_kind (w_tab (fst s)) = Consistent -> t_kind (w_tab (fst s')) = Consistent /\ sel_empty (w_changes (fst s')) = false) ->
  t_kind (w_tab (fst s)) = Consistent -> ids <> [] \/ sel_empty (w_changes (fst s)) = false ->
  for_rows f ids data s = Ok s' -> sel_empty (w_changes (fst s')) = false.
Proof.
  induction ids as [|i ids IH]; intros data s s' Hf K N H; cbn [for_rows] in H.
  - inv H. destruct N; [congruence|auto].
  - bindn H q Hq. bindn H s1 H1. destruct (Hf _ _ _ _ H1 K) as [K1 E1]. eapply IH; eauto.
Qed.
Lemma push_sch w r w' i : push w r = Ok (w', i) -> t_sch (w_tab w') = t_sch (w_tab w).
Proof.
  unfold push. intro Hq. destruct (t_free (w_tab w)).
  - unfold push_end_unchecked, push_only_unchecked in Hq. bindn Hq q Hq1. bindn Hq1 cs Hc. bindn Hq1 l Hl. destruct l; [|discriminate]. inv Hq1. inv Hq.
    cbn [fst snd]. rewrite event_add_tab. reflexivity.
  - bindn Hq q Hq1. inv Hq. unfold swap_out_row in Hq1. bindn Hq1 j Hj. destruct (_ =? _); [|discriminate]. bindn Hq1 ps Hp. inv Hq1.
    cbn [fst with_tab w_tab with_cols t_sch]. rewrite event_add_tab. reflexivity.
Qed.

Lemma stuck x ops x' p : 0 < leaked x p -> run x ops = Ok x' ->
  (forall tr h y, x_register_tracker x' h p tr <> Ok y) /\ (forall y, x_identity x' p <> Ok y) /\
  (forall t e ev h y, nth_error (u_tabs (xu_u x')) p = Some t -> t_kind t = Consistent -> ex_sel e <> [] ->
     restore pr umax heads foreign order fuel x' h p e ev <> Ok (y, None)).
Proof.
  intros L H. apply run_leaked with (p := p) in H. assert (L' : 0 < leaked x' p) by lia. clear H L. unfold leaked in L'.
  destruct (nth_error (xu_fl x') p) as [f|] eqn:Ef; [|lia].
  assert (Nz : forall u, lock_ok (fs_leaked f =? 0) <> Ok u).
  { destruct (Nat.eqb_spec (fs_leaked f) 0); [lia|]. intros u X. discriminate X. }
  assert (Fx : xu_flush x' p = Ok f) by (unfold xu_flush; rewrite Ef; auto).
  split; [|split].
  - intros tr h y H. unfold x_register_tracker in H. bindn H l1 Hl. bindn H t Ht. rewrite Fx in H. cbn [bind] in H. bindn H l2 Hl2. eapply Nz; eauto.
  - intros y H. unfold x_identity in H. rewrite Fx in H. cbn [bind] in H. bindn H l2 Hl2. eapply Nz; eauto.
  - intros t e ev h y Ht K Ne H. unfold restore in H. bindn H l1 Hl. bindn H t0 Ht0. unfold u_get in Ht0. rewrite Ht in Ht0. inv Ht0.
    unfold restore_extract in H. bindn H v Hv. destruct v; [bindn H t' Ht'; inv H|]. bindn H l2 Hl2. bindn H s Hs.
    assert (E : sel_empty (w_changes (fst s)) = false).
    { unfold merge_extract in Hs. cbn [w_new w_tab] in Hs. rewrite K in Hs.
      eapply for_rows_pushes with (4 := Hs); auto. clear - pr.
      intros s i r s' H K. bindn H r1 Hr. bindn H q Hq. inv H. destruct q as [w i']. cbn [fst snd] in *.
      destruct (push_log _ _ _ _ Hq) as (_ & A & _). split; [unfold t_kind in *; rewrite (push_sch _ _ _ _ Hq); auto|].
      rewrite A by auto. apply sel_push_full. }
    rewrite E in H. rewrite Fx in H. cbn [bind] in H. bindn H l3 Hl3. eapply Nz; eauto.
Qed.
End Leak.

(** ** C43 *)
Lemma merge_changes pr umax sch w its rows cmp new w' : reachable pr umax sch (Locked w its) -> s_kind sch = Sorted ->
  holds (w_tab w) rows -> length rows <= s_imax sch -> Forall (row_ty (s_cols sch)) new ->
  merge_vec pr cmp w new = Ok w' -> w_changes w' = w_changes w.
Proof.
  intros R Ks H L T M. destruct (merge_base pr umax sch w its rows R Ks H) as (E & Nk & K).
  unfold merge_vec, merge in M. bindn M q Hq. injection M as <-.
  assert (T' : Forall (row_ty (s_cols sch)) (sort_rows cmp new)).
  { pose proof (sort_rows_perm cmp new) as P. rewrite <- P. auto. }
  destruct (sort_rows cmp new) as [|first rest].
  - cbn in Hq. inv Hq. reflexivity.
  - assert (Ei : t_imax (w_tab w) = s_imax sch) by (unfold t_imax; congruence).
    pose proof (merge_logged_ok pr cmp (fun _ _ _ => tt) tt w rows first rest Nk K) as M. rewrite Ei, E in M. specialize (M L T').
    rewrite Hq in M. destruct (_ <=? _); [|discriminate]. destruct M as (w2 & tr & M1 & F & _). injection M1 as ->. cbn [snd]. apply F.
Qed.
Lemma for_rows_collect n rows ids : Forall (fun r => length r = n) rows -> length ids = length rows ->
  forall acc, for_rows (fun rows _ r => Ok (rows ++ [r])) ids (columns_of n rows) acc = Ok (acc ++ rows).
Proof.
  intros F L acc. rewrite (for_rows_ok _ n rows F) by auto. clear F. revert rows L acc. induction ids as [|i ids IH]; intros [|r rows] L acc; cbn in *; try lia.
  - rewrite app_nil_r. auto.
  - rewrite IH by lia. rewrite <- app_assoc. reflexivity.
Qed.

Section Sorted_.
Variables (pr : profile) (umax : nat) (heads : nat -> header) (foreign : nat -> list (nat * nat)) (order : nat -> row -> row -> comparison).
Lemma restore_sorted fuel x c ts ds sel e ev old :
  reachable pr umax (t_sch ts) (Free ts) -> reachable pr umax (t_sch ts) (Free ds) -> t_kind ts = Sorted ->
  extract_selection pr (heads c) ts sel = Ok e ->
  nth_error (u_tabs (xu_u x)) c = Some ds -> u_trackers (xu_u x) c = [] -> (forall k, ~ In (k, c) (foreign c)) ->
  holds ds old -> length old + length (ex_sel e) <= t_imax ts -> total_preorder (order c) -> ascending (order c) old ->
  exists x' t' rows out, restore pr umax heads foreign order fuel x [] c e ev = Ok (x', None) /\
    nth_error (u_tabs (xu_u x')) c = Some t' /\ only_changes x x' c /\ Forall2 (row_of ts) (ex_sel e) rows /\
    holds t' out /\ ascending (order c) out /\ Permutation (old ++ rows) out.
Proof.
  intros R Rd Ks Xe Dc Tr Nf Ho Le Po Ao.
  destruct (extract_spec pr umax _ _ _ _ _ R Xe) as (live & rs & rows & K & _ & Eh & Ed & F & T & L & _).
  assert (Rl : reachable pr umax (t_sch ts) (Locked (w_new ds) [])).
  { destruct Rd as [N [ops [T1 Q]]]. split; auto. exists (ops ++ [OLock]). split; [rewrite Forall_app; split; auto; constructor; [exact I|constructor]|].
    unfold run in *. rewrite fold_res_app, Q. cbn [bind fold_res]. unfold Hist.step. cbn [st_tab]. destruct (t_kind ds); reflexivity. }
  destruct (reachable_tg _ _ _ _ Rd) as (Es & _). cbn [st_tab] in Es.
  assert (Kd : t_kind ds = Sorted) by (unfold t_kind in *; congruence).
  unfold t_imax, t_kind in *.
  pose proof (merge_vec_sorted pr umax (t_sch ts) (w_new ds) [] old Rl Ks Ho ltac:(lia) (order c) rows Po Ao T) as M.
  destruct (Nat.leb_spec (length old + length rows) (S (s_imax (t_sch ts)))) as [_|]; [|lia].
  destruct M as (w' & out & M1 & M2 & M3 & M4).
  pose proof (merge_changes pr umax (t_sch ts) (w_new ds) [] old (order c) rows w' Rl Ks Ho ltac:(lia) T M1) as Mc.
  exists (XU (u_put (xu_u x) c (w_tab w')) (xu_fl x)), (w_tab w'), rows, out.
  split; [|split; [|split; [|auto]]].
  - unfold restore. cbn [can_write forallb lock_ok bind]. unfold u_get. rewrite Dc. cbn [bind]. unfold restore_extract. rewrite Eh.
    assert (Ev : validate (heads c) (heads c) = Ok None).
    { destruct (validate_spec (heads c) (heads c)) as [[X _]|[[_ [X _]]|[_ [X _]]]]; [congruence|congruence|lia]. }
    rewrite Ev. cbn [bind].
    assert (Cr : forallb (fun kq => can_read [(c, true)] (snd kq)) (foreign c) = true).
    { apply forallb_forall. intros [k q] Hq. cbn. rewrite andb_true_r. destruct (Nat.eqb_spec c q) as [->|]; auto. elim (Nf k). auto. }
    rewrite Cr. cbn [lock_ok bind]. rewrite Tr. unfold merge_extract. unfold t_kind. cbn [w_new w_tab]. rewrite Kd, Ed.
    rewrite for_rows_collect; [|eapply Forall_impl; [|exact T]; intros r Hr; apply row_ty_length; auto|auto].
    cbn [bind app]. fold (w_new ds). rewrite M1. cbn [bind fst]. rewrite Mc. cbn [w_new w_changes sel_empty].
    unfold w_drop. rewrite Mc. cbn [w_new w_changes sel_empty negb]. rewrite andb_false_r. reflexivity.
  - cbn. apply nth_error_upd_eq. eapply nth_error_Some_lt; eauto.
  - intros q Nq. cbn. apply nth_error_upd_ne. auto.
Qed.

(** ** C44 *)
Lemma restore_rejects fuel x p e ev t : nth_error (u_tabs (xu_u x)) p = Some t ->
  ex_head e <> heads p ->
  (hd_fmt (ex_head e), hd_domain (ex_head e), hd_name (ex_head e), hd_schema (ex_head e)) <>
  (hd_fmt (heads p), hd_domain (heads p), hd_name (heads p), hd_schema (heads p)) \/
  length (hd_cols (heads p)) <= length (hd_cols (ex_head e)) ->
  exists er, restore pr umax heads foreign order fuel x [] p e ev = Ok (x, Some er).
Proof.
  intros Ht N H. unfold restore. cbn [can_write forallb lock_ok bind]. unfold u_get. rewrite Ht. cbn [bind]. unfold restore_extract.
  destruct (validate_spec (heads p) (ex_head e)) as [[_ X]|[[[er ->] _]|[_ [X1 X2]]]]; [congruence| |destruct H; [congruence|lia]].
  cbn [bind]. unfold w_drop. cbn [w_new w_changes sel_empty negb w_tab]. rewrite andb_false_r. cbn [bind]. exists er. f_equal. f_equal.
  destruct x as [[tabs trk hdl log] fl]. cbn in *. unfold u_put. cbn. rewrite upd_same; auto.
Qed.
Lemma restore_short fuel x p e ev t : nth_error (u_tabs (xu_u x)) p = Some t ->
  (hd_fmt (ex_head e), hd_domain (ex_head e), hd_name (ex_head e), hd_schema (ex_head e)) =
  (hd_fmt (heads p), hd_domain (heads p), hd_name (heads p), hd_schema (heads p)) ->
  length (hd_cols (ex_head e)) < length (hd_cols (heads p)) ->
  restore pr umax heads foreign order fuel x [] p e ev = panic PColumnIndex.
Proof.
  intros Ht N H. unfold restore. cbn [can_write forallb lock_ok bind]. unfold u_get. rewrite Ht. cbn [bind]. unfold restore_extract.
  destruct (validate_spec (heads p) (ex_head e)) as [[_ X]|[[_ [_ [X|X]]]|[-> _]]]; [rewrite X in H; lia|congruence|lia|reflexivity].
Qed.
Lemma restore_accepts fuel x h p e ev x' er : ex_head e = heads p ->
  restore pr umax heads foreign order fuel x h p e ev = Ok (x', er) -> er = None.
Proof.
  intros E H. unfold restore in H. bindn H l1 Hl. bindn H t Ht. unfold restore_extract in H. rewrite E in H.
  destruct (validate_spec (heads p) (heads p)) as [[X _]|[[_ [X _]]|[_ [X _]]]]; [|congruence|lia].
  rewrite X in H. cbn [bind] in H. bindn H l2 Hl2. bindn H s Hs. destruct (sel_empty _).
  - bindn H t' Ht'. inv H. auto.
  - bindn H f Hf. bindn H l3 Hl3. bindn H u Hu. inv H. auto.
Qed.
End Sorted_.
