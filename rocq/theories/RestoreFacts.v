From Coq Require Import List Arith Bool Lia Sorting.Sorted Sorting.Permutation.
From Verif Require Import Base BaseFacts Names Column ColumnFacts RowRange RowRangeFacts Table Visit SortedTab BagTab
  TableSpec TableFacts Hist HistFacts TableProps Events Cascade CascadeSpec CascadeFacts CascadeProps Extract ExtractSpec ExtractFacts.
Import ListNotations.

(** ** What pushing logs *)
Lemma push_log w r w' i : push w r = Ok (w', i) ->
  w_delete w' = w_delete w /\
  (t_kind (w_tab w) = Consistent -> w_changes w' = sel_push (w_changes w) i) /\
  (t_kind (w_tab w) <> Consistent -> w_changes w' = w_changes w).
Proof.
  unfold push. destruct (t_free (w_tab w)) as [|old f] eqn:F.
  - unfold push_end_unchecked, push_only_unchecked. intro H. bindn H q Hq. bindn Hq cs Hc. bindn Hq l Hl. destruct l; [|discriminate]. inv Hq. inv H.
    cbn [fst snd]. unfold event_add. cbn [w_tab with_tab]. unfold t_kind, with_cols; cbn [t_sch]. fold (t_kind (w_tab w)).
    destruct (t_kind (w_tab w)) eqn:K; cbn; split; auto; split; congruence.
  - intro H. bindn H q Hq. inv H. unfold swap_out_row in Hq. bindn Hq i0 Hi.
    destruct (_ =? _); [|discriminate]. bindn Hq ps Hp. inv Hq. cbn [fst with_tab w_changes w_delete].
    unfold event_add. cbn [w_tab with_tab]. unfold t_kind at 1 3 5; cbn [t_sch]. fold (t_kind (w_tab w)).
    destruct (t_kind (w_tab w)) eqn:K; cbn; split; auto; split; congruence.
Qed.

Lemma sel_push_full s i : sel_empty (sel_push s i) = false.
Proof. destruct s as [|[|a l]]; reflexivity. Qed.

Lemma update_row_ty foreign fl p ts : forall r r', row_ty ts r -> update_row foreign fl p r = Ok r' ->
  row_ty ts r' /\ length r' = length r.
Proof.
  unfold update_row. generalize (foreign p). intro l. induction l as [|[k q] l IH]; intros r r' T H; cbn [fold_res] in H.
  - inv H; auto.
  - bindn H r1 H1. unfold update_col in H1. cbn [fst snd] in H1. destruct (nth_error r k) as [[| |old]|] eqn:E; try discriminate.
    destruct (nth_error fl q); [|discriminate]. destruct (fs_lookup f old); [|discriminate]. inv H1.
    assert (T' : row_ty ts (upd r k (VRow n))).
    { clear - E T. revert ts k E T. unfold row_ty. induction r as [|v r IH]; intros ts k E T; [destruct k; discriminate|].
      inv T. destruct k as [|k]; cbn in *.
      - inv E. constructor; auto. destruct (ct_base x); cbn in *; auto. destruct H2 as [b E]; discriminate.
      - constructor; auto. }
    destruct (IH _ _ T' H) as [A B]. split; auto. rewrite B. apply upd_length.
Qed.

(** ** The loop *)
Section Loop.
Variables (foreign : nat -> list (nat * nat)) (fl : list fstate) (p : nat) (nt : bool).
Definition push_turn (s : wlock * list (nat * nat)) (x : nat * row) : res (wlock * list (nat * nat)) :=
  let* r := update_row foreign fl p (snd x) in
  let* q := push (fst s) r in
  Ok (fst q, if nt then snd s else snd s ++ [(fst x, snd q)]).

Lemma push_loop rows : forall ids w rm w' rm' live rs, t_ok (w_tab w) live rs ->
  Forall (row_ty (s_cols (t_sch (w_tab w)))) rows -> length ids = length rows ->
  fold_res push_turn (combine ids rows) (w, rm) = Ok (w', rm') ->
  exists live' rs' news rows', t_ok (w_tab w') live' rs' /\ t_sch (w_tab w') = t_sch (w_tab w) /\
    Forall2 (fun r r' => update_row foreign fl p r = Ok r') rows rows' /\ NoDup news /\
    Forall (fun i => t_contains (w_tab w) i = false) news /\
    Forall2 (fun i r => t_get_row (w_tab w') i = Ok r) news rows' /\
    (forall j, ~ In j news -> same_row (w_tab w) (w_tab w') j) /\
    rm' = (if nt then rm else rm ++ combine ids news) /\
    (t_kind (w_tab w) = Consistent -> rows <> [] \/ sel_empty (w_changes w) = false -> sel_empty (w_changes w') = false) /\
    (t_kind (w_tab w) <> Consistent \/ rows = [] -> w_changes w' = w_changes w) /\
    (t_free (w_tab w) = [] -> t_free (w_tab w') = [] /\ rs' = rs ++ rows').
Proof.
  induction rows as [|r rows IH]; intros [|i ids] w rm w' rm' live rs K T L H; cbn [length] in L; try lia.
  - cbn in H. inv H. exists live, rs, [], []. split; auto. split; auto. split; auto. split; [constructor|]. split; auto.
    split; auto. split; [|split; [destruct nt; auto; rewrite app_nil_r; auto|]].
    { intros j _. split; [tauto|auto]. }
    split; [intros _ [X|X]; [congruence|auto]|]. split; auto. intros F. rewrite app_nil_r. auto.
  - cbn [combine fold_res] in H. bindn H s1 H1. unfold push_turn in H1. cbn [fst snd] in H1.
    bindn H1 r1 Hr. bindn H1 q Hq. inv H1. destruct q as [w1 i1]. cbn [fst snd] in *. inversion T as [|? ? T1 T2]; subst.
    destruct (update_row_ty _ _ _ _ _ _ T1 Hr) as [T1' _].
    pose proof (push_full_spec w live rs r1 K T1') as P. rewrite Hq in P. cbv zeta in P. destruct P as (P1 & P2 & P3 & P4 & _).
    assert (K1 : exists live1 rs1, t_ok (w_tab w1) live1 rs1 /\ t_sch (w_tab w1) = t_sch (w_tab w) /\
               (t_free (w_tab w) = [] -> t_free (w_tab w1) = [] /\ rs1 = rs ++ [r1])).
    { pose proof (push_exact w live rs r1 K T1') as X. rewrite Hq in X. destruct (t_free (w_tab w)) as [|old f] eqn:Ef.
      - destruct (_ <=? _); [|discriminate]. destruct X as (w2 & E & X1 & X2 & X3). inv E. exists (up live (length rs)), (rs ++ [r1]). auto.
      - destruct (_ <? _); [|discriminate]. destruct X as (w2 & E & X1 & X2 & X3). inv E. exists (up live old), (upd rs old r1). split; auto. split; auto. discriminate. }
    destruct K1 as (live1 & rs1 & K1 & S1 & F1). destruct (push_log _ _ _ _ Hq) as (_ & G1 & G2).
    assert (Kd : t_kind (w_tab w1) = t_kind (w_tab w)) by (unfold t_kind; congruence).
    assert (T2' : Forall (row_ty (s_cols (t_sch (w_tab w1)))) rows) by (rewrite S1; auto).
    destruct (IH ids w1 _ w' rm' live1 rs1 K1 T2' ltac:(lia) H) as (live' & rs' & news & rows' & A1 & A2 & A3 & A4 & A5 & A6 & A7 & A8 & A9 & A10 & A11).
    assert (Ni : ~ In i1 news).
    { intro X. rewrite Forall_forall in A5. apply A5 in X. assert (Y : t_contains (w_tab w1) i1 = true) by (apply (contains_get _ _ _ K1); eauto). congruence. }
    assert (N2 : Forall (fun j => t_contains (w_tab w) j = false) news).
    { rewrite Forall_forall in *. intros j Hj. destruct (P3 j) as (_ & X & _); [congruence|]. rewrite <- X. auto. }
    exists live', rs', (i1 :: news), (r1 :: rows'). split; auto. split; [congruence|]. split; auto.
    split; [constructor; auto|]. split; auto. split.
    { constructor; auto. apply (A7 i1 Ni). auto. }
    split.
    { intros j Hj. cbn in Hj. destruct (A7 j) as (X1 & X2 & X3); [tauto|]. destruct (P3 j) as (Y1 & Y2 & Y3); [intro; subst; tauto|].
      split; [intro x; rewrite X1; apply Y1|]. split; congruence. }
    split; [destruct nt; auto; rewrite A8, <- app_assoc; reflexivity|].
    split.
    { intros Kc _. apply A9; [congruence|]. right. rewrite (G1 Kc). apply sel_push_full. }
    split.
    { intros [X|X]; [|congruence]. rewrite A10 by (left; congruence). auto. }
    intros Ef. destruct (F1 Ef) as [Ef1 E1]. destruct (A11 Ef1) as [E2 E3]. split; auto. rewrite E3, E1, <- app_assoc. reflexivity.
Qed.

(** Into a table without deleted rows it always succeeds, until the ids are used up. *)
Lemma push_loop_total rows : forall ids w rm live rs, t_ok (w_tab w) live rs ->
  Forall (row_ty (s_cols (t_sch (w_tab w)))) rows -> length ids = length rows ->
  foreign p = [] -> t_free (w_tab w) = [] -> length rs + length rows <= S (t_imax (w_tab w)) ->
  exists s', fold_res push_turn (combine ids rows) (w, rm) = Ok s'.
Proof.
  induction rows as [|r rows IH]; intros [|i ids] w rm live rs K T L Fo F Le; cbn [length] in *; try lia; [cbn; eauto|].
  inversion T as [|? ? T1 T2]; subst. cbn [combine fold_res]. unfold push_turn at 1. cbn [fst snd].
  replace (update_row foreign fl p r) with (Ok r) by (unfold update_row; rewrite Fo; reflexivity). cbn [bind].
  pose proof (push_exact w live rs r K T1) as P. rewrite F in P. destruct (Nat.leb_spec (length rs) (t_imax (w_tab w))); [|lia].
  destruct P as (w1 & -> & K1 & F1 & S1). cbn [bind fst snd]. eapply IH; eauto.
  - rewrite S1; auto.
  - rewrite app_length. cbn. unfold t_imax in *. rewrite S1. lia.
Qed.

(** The result could have been reached by pushing one by one. *)
Lemma push_loop_sane pr umax sch rows : forall ids w rm w' rm', sane pr umax sch (Locked w []) -> s_kind sch <> Sorted ->
  t_sch (w_tab w) = sch -> w_delete w = false ->
  Forall (row_ty (s_cols sch)) rows -> fold_res push_turn (combine ids rows) (w, rm) = Ok (w', rm') ->
  sane pr umax sch (Locked w' []) /\ t_sch (w_tab w') = sch /\ w_delete w' = false.
Proof.
  induction rows as [|r rows IH]; intros [|i ids] w rm w' rm' S Ks E D T H; cbn [combine fold_res] in H; try (inv H; auto; fail).
  bindn H s1 H1. unfold push_turn in H1. cbn [fst snd] in H1. bindn H1 r1 Hr. bindn H1 q Hq. inv H1. destruct q as [w1 i1]. cbn [fst snd] in *.
  inversion T as [|? ? T1 T2]; subst. destruct (update_row_ty _ _ _ _ _ _ T1 Hr) as [T1' _].
  assert (S1 : sane pr umax (t_sch (w_tab w)) (Locked w1 [])).
  { eapply sane_step with (o := OPush r1); [exact S|exact T1'|intro X; discriminate X|].
    unfold step. cbn [st_tab]. unfold t_kind. destruct (s_kind (t_sch (w_tab w))) eqn:Kd; try congruence;
    cbn [avail write_op]; rewrite Hq; reflexivity. }
  destruct (push_log _ _ _ _ Hq) as [D1 _].
  eapply IH; [exact S1| | |congruence| |exact H]; auto.
  clear - Hq. unfold push in Hq. destruct (t_free (w_tab w)).
  - unfold push_end_unchecked, push_only_unchecked in Hq. bindn Hq q Hq1. bindn Hq1 cs Hc. bindn Hq1 l Hl. destruct l; [|discriminate]. inv Hq1. inv Hq.
    cbn [fst snd]. rewrite event_add_tab. reflexivity.
  - bindn Hq q Hq1. inv Hq. unfold swap_out_row in Hq1. bindn Hq1 j Hj. destruct (_ =? _); [|discriminate]. bindn Hq1 ps Hp. inv Hq1.
    cbn [fst with_tab w_tab with_cols t_sch]. rewrite event_add_tab. reflexivity.
Qed.
End Loop.

Lemma sane_quiet_close pr umax sch w : sane pr umax sch (Locked w []) -> w_delete w = false -> sane pr umax sch (Free (w_tab w)).
Proof.
  intros S D. set (ev := ev_create). eapply sane_step with (o := OFlush false ev); [exact S|exact I| |].
  - intro X. cbn in X. discriminate.
  - unfold step. cbn [st_tab avail]. destruct (t_kind (w_tab w)) eqn:Kd; cbn [avail];
    unfold w_flush; destruct (sel_empty (w_changes w)) eqn:E;
      try (unfold w_drop; rewrite E, andb_false_r; reflexivity);
      unfold flush_check; rewrite D, !andb_false_r; cbn; unfold w_drop, t_consistent; cbn; rewrite ?andb_false_r; reflexivity.
Qed.

(** ** Flushing when the handler does nothing *)
Section Null.
Variables (pr : profile) (umax : nat).
Definition same_tabs (u u' : universe) : Prop := u_tabs u' = u_tabs u /\ u_trk u' = u_trk u /\ u_hdl u' = u_hdl u.
Lemma do_flush_null n : forall u h p ev a b sel q, nth_error (u_hdl u) (ev_id ev) = Some HNull ->
  do_flush pr umax n u h p ev a b sel = Ok q -> same_tabs u (fst q).
Proof.
  induction n as [|n IH]; intros u h p ev a b sel q HN H; cbn [do_flush] in H; [discriminate|].
  bindn H x Hx. bindn H hd0 Hh. unfold handlers_get in Hh. rewrite HN in Hh. inv Hh.
  bindn H s Hs. inv H.
  assert (G : same_tabs u (fst (fst s))); [|exact G].
  eapply (fold_res_inv (fun s => same_tabs u (fst (fst s)))) with (3 := Hs); [|split; auto].
  clear s Hs Hx x. intros s x s' _ (G1 & G2 & G3) H. unfold tracker_turn in H.
  destruct (tracker_considers (snd x) ev); [|inv H; split; auto]. bindn H u1 H1. inv H. cbn [fst].
  destruct (snd x) as [c k key|]; [|inv H1; split; auto].
  unfold auto_handle in H1. bindn H1 l1 Hl. bindn H1 t Ht. bindn H1 rows Hr. unfold run_with, handle_with in H1.
  bindn H1 t2 Ht2. cbn [bind] in H1. bindn H1 l2 Hl2. bindn H1 q Hq. inv H1.
  apply IH in Hq; [|cbn; congruence]. destruct Hq as (Q1 & Q2 & Q3). cbn in Q1, Q2, Q3. split; [|split]; congruence.
Qed.
Lemma flush_null fuel u h p w ev u' : handled_by_nothing u ev -> flush pr umax fuel u h p w ev = Ok u' ->
  u_tabs u' = upd (u_tabs u) p (w_tab w) /\ u_trk u' = u_trk u /\ u_hdl u' = u_hdl u.
Proof.
  intros [R HN] H. unfold flush, flush_with in H. destruct (sel_empty (w_changes w)) eqn:E.
  - bindn H t Ht. inv H. unfold w_drop in Ht. rewrite E, andb_false_r in Ht. inv Ht. auto.
  - bindn H q Hq. rewrite R in H. cbn [andb] in H. inv H. apply do_flush_null in Hq; [|exact HN].
    destruct Hq as (Q1 & Q2 & Q3). auto.
Qed.
End Null.

(** ** Restoring *)
Section Restore.
Variables (pr : profile) (umax : nat) (heads : nat -> header) (foreign : nat -> list (nat * nat)) (order : nat -> row -> row -> comparison).

Lemma merge_extract_loop fl p nt w e n rows : t_kind (w_tab w) <> Sorted -> map c_into_iter (ex_data e) = columns_of n rows ->
  Forall (fun r => length r = n) rows -> length (ex_sel e) = length rows ->
  merge_extract pr foreign order fl p nt w e = fold_res (push_turn foreign fl p nt) (combine (ex_sel e) rows) (w, []).
Proof.
  intros Ks Ed F L. unfold merge_extract. rewrite Ed. cbv zeta.
  destruct (t_kind (w_tab w)); try congruence; rewrite (for_rows_ok _ n rows F) by auto; reflexivity.
Qed.

Lemma restore_ok fuel x h p e ev x' er t live rs n rows :
  nth_error (u_tabs (xu_u x)) p = Some t -> t_ok t live rs -> t_kind t <> Sorted -> handled_by_nothing (xu_u x) ev ->
  map c_into_iter (ex_data e) = columns_of n rows -> Forall (row_ty (s_cols (t_sch t))) rows -> n = length (s_cols (t_sch t)) ->
  length (ex_sel e) = length rows -> ex_head e = heads p ->
  restore pr umax heads foreign order fuel x h p e ev = Ok (x', er) ->
  exists t' news rows', er = None /\ u_tabs (xu_u x') = upd (u_tabs (xu_u x)) p t' /\ u_trk (xu_u x') = u_trk (xu_u x) /\
    u_hdl (xu_u x') = u_hdl (xu_u x) /\
    Forall2 (fun r r' => update_row foreign (xu_fl x) p r = Ok r') rows rows' /\ NoDup news /\
    Forall (fun i => t_contains t i = false) news /\
    Forall2 (fun i r => t_get_row t' i = Ok r) news rows' /\
    (forall j, ~ In j news -> same_row t t' j) /\
    (t_free t = [] -> exists live', t_ok t' live' (rs ++ rows') /\ t_free t' = []) /\
    (t_kind t <> Consistent \/ rows = [] -> xu_fl x' = xu_fl x) /\
    (t_kind t = Consistent -> rows <> [] -> exists f, nth_error (xu_fl x) p = Some f /\ fs_leaked f = 0 /\
       xu_fl x' = upd (xu_fl x) p (set_remapping f (match u_trackers (xu_u x) p with [] => [] | _ => combine (ex_sel e) news end))).
Proof.
  intros Ht K Ks HN Ed T -> L Eh H. unfold restore in H. bindn H l1 Hl. bindn H t0 Ht0. unfold u_get in Ht0. rewrite Ht in Ht0. inv Ht0.
  unfold restore_extract in H. rewrite Eh in H. bindn H v Hv.
  assert (Ev : v = None).
  { destruct (validate_spec (heads p) (heads p)) as [[X _]|[[_ [X _]]|[_ [X _]]]]; [congruence|congruence|lia]. }
  subst v. bindn H l2 Hl2. bindn H s Hs. destruct s as [w' rm']. cbn [fst snd] in H.
  assert (Lr : Forall (fun r => length r = length (s_cols (t_sch t0))) rows).
  { eapply Forall_impl; [|exact T]. intros r Hr. apply row_ty_length. auto. }
  rewrite (merge_extract_loop _ _ _ (w_new t0) _ _ rows Ks Ed Lr L) in Hs.
  destruct (push_loop _ _ _ _ rows (ex_sel e) (w_new t0) [] w' rm' live rs K T L Hs) as (live' & rs' & news & rows' & A1 & A2 & A3 & A4 & A5 & A6 & A7 & A8 & A9 & A10 & A11).
  cbn [w_new w_tab w_changes] in *.
  exists (w_tab w'), news, rows'.
  assert (G : er = None /\ u_tabs (xu_u x') = upd (u_tabs (xu_u x)) p (w_tab w') /\ u_trk (xu_u x') = u_trk (xu_u x) /\ u_hdl (xu_u x') = u_hdl (xu_u x) /\
    (t_kind t0 <> Consistent \/ rows = [] -> xu_fl x' = xu_fl x) /\
    (t_kind t0 = Consistent -> rows <> [] -> exists f, nth_error (xu_fl x) p = Some f /\ fs_leaked f = 0 /\
       xu_fl x' = upd (xu_fl x) p (set_remapping f (match u_trackers (xu_u x) p with [] => [] | _ => combine (ex_sel e) news end)))).
  { destruct (sel_empty (w_changes w')) eqn:E.
    - bindn H t1 Ht1. inv H. unfold w_drop in Ht1. rewrite E, andb_false_r in Ht1. inv Ht1. cbn. split; auto. split; auto. split; auto. split; auto. split; auto.
      intros Kc Nr. assert (true = false) by auto. discriminate.
    - bindn H f Hf. bindn H l3 Hl3. bindn H u Hu. inv H. unfold xu_flush in Hf.
      destruct (nth_error (xu_fl x) p) as [f0|] eqn:Ef; inv Hf. destruct (flush_null _ _ _ _ _ _ _ _ _ HN Hu) as (U1 & U2 & U3).
      split; auto. split; auto. split; auto. split; auto. split.
      + intro X. rewrite A10 in E; auto. discriminate.
      + intros Kc Nr. exists f. split; auto. split; [destruct (Nat.eqb_spec (fs_leaked f) 0); [auto|discriminate]|].
        cbn. destruct (u_trackers (xu_u x) p); auto. }
  destruct G as (G1 & G2 & G3 & G4 & G5 & G6). split; auto. split; auto. split; auto. split; auto. split; auto. split; auto. split; auto. split; auto.
  split; auto. split; auto. intro F. destruct (A11 F) as [F' ->]. eauto.
Qed.
End Restore.
