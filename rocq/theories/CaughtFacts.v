(** What a caught panic leaves is a proper table, unless [Ord] of an indexed element panicked or the table was full. *)
From Coq Require Import List Arith Bool Lia Sorted Permutation.
From Verif Require Import Base BaseFacts Column ColumnFacts RowRange RowRangeFacts Table Visit SortedTab BagTab TableSpec TableFacts
  VisitFacts SortedFacts BagFacts Hist HistFacts TableProps Unwind UnwindSpec UnwindFacts UnwindSafe UnwindAgree CaughtSpec.
Import ListNotations.

Section Caught.
Variables (pr : profile) (umax : nat) (ex : bool) (s : schema).
Variable boom : key -> list key -> bool.
Hypothesis B : forall k m, boom k m = false.
Local Notation ts := (s_cols s).
Local Notation wt := (fun w => tg ex s (w_tab w)).

(** More rows than there are ids. *)
Definition over (t : table) : Prop := S (s_imax s) < t_len t.
Definition kept {A} (P : wlock -> A -> Prop) (p : wlock * res A) : Prop :=
  match snd p with
  | Ok a => wt (fst p) /\ P (fst p) a
  | Err (EPanic _) => wt (fst p) \/ over (w_tab (fst p))
  | Err _ => True
  end.
Definition any {A} (_ : wlock) (_ : A) : Prop := True.
Lemma kept_thn {A C} (P : wlock -> A -> Prop) (P' : wlock -> C -> Prop) p f :
  kept P p -> (forall w a, wt w -> P w a -> kept P' (f w a)) -> kept P' (thn p f).
Proof.
  unfold kept, thn. intros H F. destruct p as [w [a|e]]; cbn in *; [apply F; tauto|exact H].
Qed.
Lemma kept_impl {A} (P P' : wlock -> A -> Prop) p : kept P p -> (forall w a, wt w -> P w a -> P' w a) -> kept P' p.
Proof. unfold kept. intros H F. destruct (snd p) as [a|[]]; auto. destruct H; auto. Qed.
Lemma kept_drop {A} (P : wlock -> A -> Prop) p : kept P p -> kept any (drop_res p).
Proof. intro H. eapply kept_thn; [exact H|]. intros w a W _. split; [exact W|exact I]. Qed.
Lemma kept_same {A} w (x : res A) (P : wlock -> A -> Prop) : wt w -> (forall a, x = Ok a -> P w a) -> kept P (w, x).
Proof. intros W H. unfold kept. cbn. destruct x as [a|[]]; auto. Qed.
Lemma kept_fold {A} (f : wlock -> A -> wlock * res unit) (Q : wlock -> Prop) l : forall w, wt w -> Q w ->
  (forall w a, In a l -> wt w -> Q w -> kept (fun w _ => Q w) (f w a)) -> kept (fun w _ => Q w) (ufold f l w).
Proof.
  induction l as [|a l IH]; intros w W Qw H; cbn [ufold]; [split; auto|].
  eapply kept_thn; [apply H; cbn; auto|]. intros w' u W' Q'. apply IH; auto. intros; apply H; cbn; auto.
Qed.
Lemma wt_cols w : wt w -> wt (with_tab w (with_cols (w_tab w) (t_cols (w_tab w)))).
Proof. destruct w as [[? ? ?] ? ? ?]. auto. Qed.

Lemma row_len w r : wt w -> row_ty ts r -> length (t_cols (w_tab w)) = length r.
Proof.
  intros (E & live & rows & K & _) T. rewrite (cols_len_eq _ _ _ K), E. apply row_ty_length in T. auto.
Qed.
Lemma b_wf_shape t b : b_wf t b -> bshape b = t.
Proof. destruct t, b; cbn; tauto. Qed.
(** A row appended. *)
Lemma uc_push_len imax c v c' r b : b_push (c_base c) v = Ok b -> uc_push imax boom c v = (c', r) -> c_len c' = S (c_len c).
Proof.
  intros Hb H. destruct (b_push_len _ _ _ Hb) as [_ L]. destruct c as [b0|b0 ix]; cbn in *; rewrite Hb in H.
  - inv H. cbn. exact L.
  - destruct (native imax (b_len b0)); [destruct (booms boom _ _)|]; inv H; cbn; exact L.
Qed.
Lemma kept_push_end w r : wt w -> row_ty ts r -> kept (fun _ i => i <= s_imax s) (u_push_end boom w r).
Proof.
  intros W T. pose proof W as (E & live & rows & K & X).
  destruct (le_lt_dec (length rows) (t_imax (w_tab w))) as [L|L].
  - pose proof (good_push_end_tg pr umax ex s w r W T) as G. pose proof (good_push_end pr s w r (tg_good _ _ _ W) T) as G2.
    destruct (push_end_ok w live rows r K) with (live' := fun j => if j =? length rows then true else live j)
      as (cs & Q & H); auto; [rewrite E; auto| |rewrite Nat.eqb_refl; auto|].
    { intros i Hi. destruct (Nat.eqb_spec i (length rows)); [lia|auto]. }
    rewrite Q in G, G2. rewrite (push_end_agr boom B _ _ _ Q). split; [exact G|apply G2].
  - unfold u_push_end, u_push_only. rewrite (row_len _ _ W T), Nat.eqb_refl.
    assert (Im : t_imax (w_tab w) = s_imax s) by (unfold t_imax; congruence).
    assert (O : t_len (with_cols (w_tab w) (fst (ucols (uc_push (t_imax (w_tab w)) boom) (t_cols (w_tab w)) r))) = S (length rows)).
    { pose proof (ok_ncols _ _ _ K) as N. pose proof (ok_cols _ _ _ K) as C. rewrite E in N, C. unfold t_len. cbn [with_cols t_cols].
      destruct ts as [|ct cts], (t_cols (w_tab w)) as [|c cs] eqn:Ec; simpl in C; try tauto.
      inversion T as [|a v l1 l2 Tv Tr]; subst. destruct C as (_ & Wf & D & _).
      destruct (b_push_ty (c_base c) v) as [b' Hb]; [rewrite (b_wf_shape _ _ (c_wf_base _ _ _ _ Wf)); exact Tv|].
      cbn [ucols]. destruct (uc_push (t_imax (w_tab w)) boom c v) as [c' rr] eqn:U.
      assert (Lc : c_len c' = S (length rows)).
      { rewrite (uc_push_len _ _ _ _ _ _ Hb U). rewrite c_len_data, D, map_length. reflexivity. }
      destruct rr; exact Lc. }
    destruct (ucols _ _ _) as [cs [u|e]]; cbn [fst] in O; unfold cols_left, thn; cbn [fst snd].
    + unfold t_last. cbn [w_tab with_tab]. rewrite O. unfold rid_from_usize, t_imax. cbn [with_cols t_sch]. fold (t_imax (w_tab w)).
      destruct (Nat.eqb_spec (S (length rows)) 0); [lia|]. destruct (Nat.leb_spec (S (length rows) - 1) (t_imax (w_tab w))); [lia|].
      cbn. right. unfold over. cbn. rewrite O. lia.
    + unfold kept. cbn. destruct e; auto. right. unfold over. cbn. rewrite O. lia.
Qed.
Lemma swap_out_err w i r : wt w -> row_ty ts r -> match swap_out_row w i r with
  | Ok p => kept (fun w' old => row_ty ts old /\ t_len (w_tab w') = t_len (w_tab w) /\ u_swap_out_row boom w i r = (w', Ok old)) (fst p, Ok (snd p))
  | Err e => t_check (w_tab w) i = Err e end.
Proof.
  intros W T. pose proof W as (E & live & rows & K & X). destruct (t_check (w_tab w) i) as [x|e] eqn:C.
  - pose proof C as C'. apply (t_check_inv _ _ _ K) in C'. destruct C' as (-> & Li & D).
    destruct (nth_error_lt_Some _ _ Li) as [old Xo].
    destruct (swap_out_row_ok w live rows K i r old) with (live' := fun j => if j =? i then true else live j) as (cs & Q & H); auto.
    { rewrite E. auto. }
    { intros j Hj. destruct (Nat.eqb_spec j i); [contradiction|auto]. } { rewrite Nat.eqb_refl. auto. }
    rewrite Q. split; cbn [fst snd].
    + cbn. split; auto. eexists _, _. split; [exact H|]. intro Y. destruct (X Y) as [A1 A2]. rewrite upd_length. split; auto.
      intros j Hj. destruct (Nat.eqb_spec j i) as [->|]; [|apply A1; auto].
      rewrite (t_deleted_iff _ _ _ K) in D. unfold live_of. cbn [with_cols t_free w_tab with_tab]. rewrite D. reflexivity.
    + split; [|split; [|apply (swap_out_row_agr boom B _ _ _ _ Q)]].
      * pose proof (t_rows_ty _ _ _ K) as TT. rewrite Forall_forall in TT. rewrite <- E. apply TT. eapply nth_error_In; eauto.
      * cbn. rewrite (t_len_ok _ _ _ H), (t_len_ok _ _ _ K), upd_length. reflexivity.
  - unfold swap_out_row. rewrite C. reflexivity.
Qed.
Lemma kept_swap_out w i r : wt w -> row_ty ts r ->
  kept (fun w' old => row_ty ts old /\ t_len (w_tab w') = t_len (w_tab w)) (u_swap_out_row boom w i r).
Proof.
  intros W T. pose proof (swap_out_err w i r W T) as H. destruct (swap_out_row w i r) as [p|e].
  - destruct H as (W' & A1 & A2 & A3). cbn in *. rewrite A3. split; auto.
  - unfold u_swap_out_row. rewrite H. apply kept_same; auto. discriminate.
Qed.
Lemma kept_truncate w n : wt w -> s_kind s <> Consistent -> kept any (u_truncate boom w n).
Proof.
  intros W Nc. pose proof (good_truncate pr s w n (tg_good _ _ _ W)) as G. pose proof W as (E & live & rows & K & X).
  destruct (truncate_ok w live rows K n) as (cs & Q & H). rewrite Q in G. rewrite (truncate_row_agr boom B _ _ _ Q).
  split; [|exact I]. apply tg_nc; auto.
Qed.
Lemma uc_swap_empty imax ct live c i j : c_wf imax ct live c -> c_len c = 0 -> exists e, uc_swap imax boom c i j = (c, Err e).
Proof.
  intros Wf L. assert (Z : forall t b, b_wf t b -> b_len b = 0 -> exists e, b_index b i = Err e).
  { intros t b Wb Lb. destruct t, b as [l|b]; cbn in *; try tauto.
    - destruct l; [|discriminate]. destruct i; cbn; eauto.
    - unfold bc_len in Lb. unfold bc_inv in Wb. unfold bc_index. destruct (bc_data b) as [|x l]; [|discriminate].
      destruct (bc_idx b) as [n|]; [specialize (Wb n eq_refl); cbn in Wb; lia|]. destruct i; cbn; eauto. }
  destruct c as [b|b ix]; cbn in *.
  - destruct (b_swap b i j) eqn:Q; [|eauto]. exfalso. eapply b_swap_empty; eauto.
  - destruct ct as [t|t]; [contradiction|]. destruct (Z t b) as [e ->]; [exact (c_wf_base _ _ _ _ Wf)|exact L|]. eauto.
Qed.
Lemma kept_delete_raw w i : wt w -> (s_kind s = Consistent -> i < t_len (w_tab w)) ->
  kept (fun w' _ => (s_kind s = Consistent -> t_len (w_tab w') = t_len (w_tab w)) /\ w_changes w' = w_changes w) (u_delete_raw pr umax boom w i).
Proof.
  intros W Hi. destruct (delete_raw pr umax w i) as [w'|e] eqn:Q.
  - rewrite (delete_raw_agr pr umax boom B _ _ _ Q). pose proof (delete_raw_tg pr umax ex s w i w' W Hi Q) as [W' L]. split; auto. split; auto.
    unfold delete_raw in Q. cbn. destruct (t_kind (w_tab w)); try discriminate; [bindn Q cs Q1; bindn Q n Q2; inv Q; reflexivity|].
    bindn Q l Q1. bindn Q cs Q2. bindn Q cs2 Q3. inv Q. reflexivity.
  - pose proof W as (E & live & rows & K & X). pose proof (tg_kind _ _ _ W) as Kd.
    unfold u_delete_raw. rewrite Kd. destruct (s_kind s) eqn:Ks; try (apply kept_same; [exact W|discriminate]).
    + exfalso. rewrite (t_len_ok _ _ _ K) in Hi. specialize (Hi eq_refl).
      destruct (delete_raw_cons_ok w live rows K pr umax i Kd Hi) with (live' := fun j => if j =? i then false else live j) as (cs & Q' & _).
      { intros j Hj. destruct (Nat.eqb_spec j i); [contradiction|auto]. } { rewrite Nat.eqb_refl. auto. }
      congruence.
    + destruct rows as [|r0 rows].
      2:{ exfalso. destruct (delete_raw_bag_ok pr umax w live (r0 :: rows) i K Kd) as (cs & Q' & _); [discriminate|congruence]. }
      unfold delete_raw in Q. rewrite Kd in Q. destruct (usub pr umax (t_len (w_tab w)) 1) as [len1|e1]; [|apply kept_same; [exact W|discriminate]].
      cbn [bind] in Q. destruct (i <? len1) eqn:Li.
      * pose proof (ok_ncols _ _ _ K) as N. pose proof (ok_cols _ _ _ K) as C. unfold ueach.
        assert (Z : exists e, ucols (fun c (_ : col) => uc_swap (t_imax (w_tab w)) boom c i len1) (t_cols (w_tab w)) (t_cols (w_tab w)) = (t_cols (w_tab w), Err e)).
        { destruct (s_cols (t_sch (w_tab w))) as [|ct cts], (t_cols (w_tab w)) as [|c cs]; simpl in C; try tauto. destruct C as (_ & Wf & D & _).
          destruct (uc_swap_empty _ _ _ c i len1 Wf) as [e' H]; [rewrite c_len_data, D; reflexivity|]. cbn [ucols]. rewrite H. eauto. }
        destruct Z as [e' ->]. unfold cols_left, drop_res, thn. cbn [fst snd]. apply kept_same; [apply wt_cols; exact W|discriminate].
      * exfalso. cbn [bind] in Q. destruct (truncate_cols_ok w live [] K len1) as (cs & Q' & _). rewrite Q' in Q. discriminate.
Qed.
Lemma kept_push w r : wt w -> row_ty ts r -> kept any (u_push boom w r).
Proof.
  intros W T. unfold u_push. destruct (t_free (w_tab w)) as [|old f] eqn:F.
  { eapply kept_impl; [apply kept_push_end; auto|]. intros; exact I. }
  pose proof (good_push_tg pr umax ex s w r W T) as G. destruct (push w r) as [p|e] eqn:Q.
  - pose proof (push_agr' boom B _ _ _ Q) as A. unfold u_push in A. rewrite F in A. rewrite A. split; [exact G|exact I].
  - unfold push in Q. rewrite F in Q. pose proof W as (E & live & rows & K & X).
    assert (Kd : t_kind (w_tab w) = Consistent).
    { destruct (t_kind (w_tab w)) eqn:Kd; auto; rewrite (ok_free_kind _ _ _ K) in F; congruence. }
    rewrite <- F in *. pose proof (ok_free_sorted _ _ _ K) as Ss.
    set (t1 := Tab _ _ (set_remove old (t_free (w_tab w)))) in *.
    set (w1 := event_add (with_tab w t1) old) in *. assert (W1 : w_tab w1 = t1) by (unfold w1; rewrite event_add_tab; reflexivity).
    assert (K1 : t_ok t1 live rows).
    { apply t_ok_free; auto; [apply set_remove_sorted; auto|].
      eapply Forall_forall. intros i Hi. apply set_remove_In in Hi; auto. destruct Hi as [_ Hi].
      pose proof (ok_free_max _ _ _ K) as M. rewrite Forall_forall in M. auto. }
    destruct (swap_out_row w1 old r) as [p|e'] eqn:Q1; [discriminate|].
    assert (Wf : tg false s (w_tab w1)) by (rewrite W1; split; auto; exists live, rows; split; auto; discriminate).
    assert (C : exists e, t_check (w_tab w1) old = Err e).
    { destruct (t_check (w_tab w1) old) as [x|e2] eqn:C; [exfalso|eauto]. rewrite <- W1 in K1. apply (t_check_inv _ _ _ K1) in C. destruct C as (-> & Li & D).
      destruct (nth_error_lt_Some _ _ Li) as [o Xo].
      destruct (swap_out_row_ok w1 live rows K1 old r o) with (live' := fun j => if j =? old then true else live j) as (cs & Q' & _); auto.
      - rewrite W1. cbn. rewrite E. exact T.
      - intros j Hj. destruct (Nat.eqb_spec j old); [contradiction|auto].
      - rewrite Nat.eqb_refl. auto.
      - congruence. }
    destruct C as [e2 C]. assert (U : u_swap_out_row boom w1 old r = (w1, Err e2)) by (unfold u_swap_out_row; rewrite C; reflexivity).
    rewrite U. unfold thn. cbn [snd fst]. unfold kept. cbn [snd fst]. destruct e2; auto. left. rewrite W1.
    destruct ex eqn:Ex; [|rewrite W1 in Wf; exact Wf]. exfalso. destruct (X eq_refl) as [X1 X2]. rewrite F in X2. inv X2.
    unfold t_check in C. rewrite W1, (t_len_ok _ _ _ K1) in C. destruct (Nat.leb_spec (length rows) old); [lia|].
    rewrite (t_deleted_iff _ _ _ K1) in C. unfold t1 in C. cbn [t_free] in C. rewrite mem_set_remove, Nat.eqb_refl in C by auto. discriminate.
Qed.
Lemma kept_stop w stop : wt w -> kept any (w, stop_res stop).
Proof. intro W. apply kept_same; auto. intros; exact I. Qed.
Lemma kept_push_all w rs stop : wt w -> Forall (row_ty ts) rs -> kept any (u_push_all boom w rs stop).
Proof.
  intros W T. unfold u_push_all. eapply kept_thn; [apply (kept_fold _ (fun _ => True)); auto|].
  - intros w' r Hr W' _. eapply kept_impl; [eapply kept_drop; apply kept_push; auto; rewrite Forall_forall in T; auto|]. auto.
  - intros w' u W' _. apply kept_stop; auto.
Qed.
Lemma kept_push_ends rs : forall w l, wt w -> Forall (row_ty ts) rs -> kept any (u_push_ends boom rs w l).
Proof.
  induction rs as [|r rs IH]; intros w l W T; cbn [u_push_ends]; [split; [exact W|exact I]|]. inv T.
  eapply kept_thn; [apply kept_push_end; auto|]. intros; apply IH; auto.
Qed.
Lemma kept_push_array w rs stop : wt w -> Forall (row_ty ts) rs -> kept any (u_push_array pr boom w rs stop).
Proof.
  intros W T. destruct rs as [|r rs]; cbn [u_push_array]; [apply kept_same; auto; intros; exact I|]. inv T.
  eapply kept_thn; [apply kept_push_end; auto|]. intros w' i W' _.
  eapply kept_thn; [apply kept_push_ends; auto|]. intros w2 l W2 _. apply kept_same; auto. intros; exact I.
Qed.
Lemma kept_delete w i : wt w -> kept any (u_delete pr umax boom w i).
Proof.
  intro W. unfold u_delete. pose proof W as (E & live & rows & K & X).
  destruct (t_kind (w_tab w)) eqn:Kd; try (apply kept_same; auto; discriminate).
  - destruct (t_check (w_tab w) i) as [j|e]; [|apply kept_same; auto; discriminate]. split; [|exact I].
    cbn. rewrite event_del_tab. exact W.
  - destruct (t_check (w_tab w) i) as [j|e] eqn:C; [|apply kept_same; auto; discriminate].
    eapply kept_impl; [apply kept_delete_raw; auto|intros; exact I]. rewrite (tg_kind _ _ _ W) in Kd. congruence.
Qed.
Lemma kept_delete_rows w rows : wt w -> kept (fun w' _ => w_changes w' = w_changes w /\ (rows = [] -> w' = w)) (u_delete_rows pr umax boom w rows).
Proof.
  intro W. destruct rows as [|i0 rows]; [split; auto|]. unfold u_delete_rows. set (n := t_len (w_tab w)).
  eapply kept_impl; [apply (kept_fold _ (fun w' => (s_kind s = Consistent -> t_len (w_tab w') = n) /\ w_changes w' = w_changes w)); auto|].
  - intros w1 i _ W1 [L1 C1]. destruct (Nat.ltb_spec i n) as [L|L]; [|apply kept_same; auto; discriminate].
    eapply kept_impl; [apply kept_delete_raw; auto|].
    + intro Kc. rewrite L1; auto.
    + cbn. intros w2 u W2 [L2 C2]. split; [intro Kc; rewrite L2; auto|congruence].
  - cbn. intros w1 u W1 [_ C]. split; auto. discriminate.
Qed.
Lemma kept_flush_apply w ev ch : wt w -> (ex = true -> ev_removal ev = true -> ch = SAll -> t_free (w_tab w) = []) ->
  kept (fun _ _ => True) (u_flush_apply pr umax boom w ev ch).
Proof.
  intros W F. unfold u_flush_apply. destruct (ev_removal ev) eqn:Er; cbn [andb]; [|split; auto].
  destruct (sel_empty ch) eqn:Se; cbn [negb]; [split; auto|]. destruct ch as [|l].
  - split; auto. cbn. apply tg_clear_raw; auto.
  - eapply kept_impl; [apply kept_delete_rows; auto|]. auto.
Qed.
Lemma kept_live_flush srt tp w ev : wt w -> (ex = true -> ev_removal ev = true -> w_changes w = SAll -> t_free (w_tab w) = []) ->
  kept any (u_live_flush pr umax boom srt tp w ev).
Proof.
  intros W F. unfold u_live_flush. destruct (sel_empty (w_changes w)); [split; [exact W|exact I]|].
  destruct (bind _ _) as [u|e]; [|apply kept_same; [exact W|discriminate]].
  eapply kept_thn; [apply kept_flush_apply|].
  - exact W.
  - intros Y1 Y2 Y3. apply F; auto. eapply sel_sort_all; eauto.
  - intros w' _ W' _. destruct (sel_empty _); [split; [exact W'|exact I]|apply kept_same; [exact W'|discriminate]].
Qed.

(** ** Sorted tables *)
Lemma kept_sorted_remove w rows : wt w -> s_kind s <> Consistent -> kept any (u_sorted_remove boom w rows).
Proof.
  intros W Nc. pose proof (good_sorted_remove pr s w rows (tg_good _ _ _ W) Nc) as G. pose proof W as (E & live & rs & K & X).
  assert (Nk : t_kind (w_tab w) <> Consistent) by (unfold t_kind; congruence).
  destruct (sorted_remove_rows w rows) as [w'|e] eqn:Q.
  - rewrite (sorted_remove_agr boom B _ _ _ Q). split; [|exact I]. apply tg_nc; auto.
  - unfold u_sorted_remove. destruct rows as [|i rows]; [discriminate|].
    destruct (let* _ := rm_check (i :: rows) in assert_ (last (i :: rows) 0 <? t_len (w_tab w)) PRemoveRange) as [u|e'] eqn:C; [|apply kept_same; auto; discriminate].
    exfalso. apply bind_Ok in C. destruct C as (u1 & C1 & C2). destruct u1. apply rm_check_iff in C1.
    unfold assert_ in C2. destruct (Nat.ltb_spec (last (i :: rows) 0) (t_len (w_tab w))) as [L|]; [|discriminate]. rewrite (t_len_ok _ _ _ K) in L.
    destruct (sorted_remove_rows_ok w live rs (i :: rows) K Nk) as [H1 _]. destruct H1 as (w' & Q' & _); auto; [|congruence].
    apply Forall_forall. intros x Hx. pose proof (sorted_last_max _ 0 C1 _ Hx). lia.
Qed.

(** ** visit and retain *)
Lemma kept_err {A} w e (P : wlock -> A -> Prop) : wt w -> kept P (w, Err e).
Proof. intro W. apply kept_same; auto. discriminate. Qed.
Lemma get_ty w i r : wt w -> t_get_row (w_tab w) i = Ok r -> row_ty ts r.
Proof.
  intros (E & live & rows & K & _) H. apply (t_get_row_inv _ _ _ K) in H. destruct H as [H _].
  pose proof (t_rows_ty _ _ _ K) as T. rewrite Forall_forall in T. rewrite <- E. apply T. eapply nth_error_In; eauto.
Qed.
Lemma kept_fill k : forall w rug front back, wt w -> rug_ty s rug ->
  kept (fun _ q => rug_ty s (fst q)) (u_fill pr boom k w rug front back).
Proof.
  induction k as [|k IH]; intros w rug front back W T; cbn [u_fill]; [split; [exact W|exact T]|].
  destruct (front <? back); [|split; [exact W|exact T]]. destruct (u_pull rug) as [r rug'| |] eqn:P.
  - destruct (u_pull_ty s _ _ _ T P) as [T1 T2]. eapply kept_thn; [apply kept_swap_out; auto|]. intros w' o W' _.
    destruct (rid_next _ _ _); [apply IH; auto|apply kept_err; auto].
  - split; [exact W|constructor].
  - apply kept_err; auto.
Qed.
Lemma kept_pour k : forall w rug, wt w -> rug_ty s rug -> kept any (u_pour boom k w rug).
Proof.
  induction k as [|k IH]; intros w rug W T; cbn [u_pour]; [split; [exact W|exact I]|]. destruct (u_pull rug) as [r rug'| |] eqn:P.
  - destruct (u_pull_ty s _ _ _ T P) as [T1 T2]. eapply kept_thn; [apply kept_push_end; auto|]. intros w' i W' _. apply IH; auto.
  - split; [exact W|exact I].
  - apply kept_err; auto.
Qed.
Section V.
Context {A : Type}.
Variable f : A -> wlock -> nat -> A * uaction.
Hypothesis Tf : forall a w i a' rm add stop, f a w i = (a', UContinue rm add stop) -> Forall (row_ty ts) add.
Lemma kept_loop fuel : forall a w rug front back stopped, wt w -> rug_ty s rug ->
  kept (fun _ q => match q with Some p => rug_ty s (fst p) | None => True end) (u_loop pr boom f fuel a w rug front back stopped).
Proof.
  induction fuel as [|fuel IH]; intros a w rug front back stopped W T; cbn [u_loop].
  - destruct (back <? t_len (w_tab w)); [apply kept_err; auto|split; [exact W|exact T]].
  - destruct (back <? t_len (w_tab w)); [|split; [exact W|exact T]].
    assert (Go : forall sa rug stopped, rug_ty s rug -> kept (fun _ q => match q with Some p => rug_ty s (fst p) | None => True end)
        match rid_next pr (t_imax (w_tab w)) back with
        | Err e => (w, Err e)
        | Ok back => thn (u_fill pr boom (back - front) w rug front back)
                         (fun w q => u_loop pr boom f fuel (@fst A uaction sa) w (fst q) (snd q) back stopped)
        end).
    { intros sa rg st Tr. destruct (rid_next pr _ back) as [b|e]; [|apply kept_err; auto].
      eapply kept_thn; [apply kept_fill; auto|]. intros w' q W' Hq. apply IH; auto. }
    pose proof (get_ty w back) as Gr.
    destruct (if stopped then (a, UBreak) else f a w back) as [a' x] eqn:Ea. destruct x as [rm add stop| |]; cbn [snd fst].
    + assert (Ta : Forall (row_ty ts) add) by (destruct stopped; [discriminate|]; eapply Tf; eauto).
      destruct rm; [apply (Go (a', UBreak)); apply Forall_app; split; auto; constructor; auto|].
      destruct (t_get_row (w_tab w) back) as [r|e]; [|apply kept_err; auto]. specialize (Gr r W eq_refl).
      apply (Go (a', UBreak)). apply Forall_app; split; [|constructor; auto]. apply Forall_app; split; auto.
    + destruct ((front =? back) && _); [split; [exact W|exact I]|]. destruct (t_get_row (w_tab w) back) as [r|e]; [|apply kept_err; auto].
      specialize (Gr r W eq_refl). apply (Go (a', UBreak)). apply Forall_app; split; auto.
    + apply kept_err; auto.
Qed.
Lemma kept_visit a w : wt w -> s_kind s <> Consistent -> kept any (u_visit pr boom f a w).
Proof.
  intros W Nc. unfold u_visit. eapply kept_thn; [apply kept_loop; [exact W|constructor]|].
  intros w' [[rug front]|] W' T; [|split; [exact W'|exact I]].
  eapply kept_thn; [apply kept_truncate; auto|]. intros w2 u W2 _. apply kept_pour; auto.
Qed.
End V.
Lemma kept_retain {A} (f : A -> wlock -> nat -> A * option bool) a w : wt w -> s_kind s <> Consistent -> kept any (u_retain pr boom f a w).
Proof.
  intros W Nc. apply kept_visit; auto. intros s0 w0 i s' rm add stop H. cbn in H. destruct (f s0 w0 i) as [s1 [b|]]; cbn in H; inv H. constructor.
Qed.

(** ** merge *)
Section M.
Variable cmp : row -> row -> option comparison.
Context {A : Type}.
Variable log : A -> wlock -> nat -> option A.
Lemma kept_merge_shift cursors : forall a w rug iter stop, wt w -> Forall (row_ty ts) rug -> Forall (row_ty ts) iter ->
  kept (fun _ q => Forall (row_ty ts) (snd (fst q)) /\ Forall (row_ty ts) (snd q)) (u_merge_shift boom cmp log cursors a w rug iter stop).
Proof.
  induction cursors as [|c cs IH]; intros a w rug iter stop W T1 T2; cbn [u_merge_shift]; [split; [exact W|split; auto]|].
  pose proof (u_take_ty pr s cmp rug iter stop T1 T2) as G. destruct (u_take cmp rug iter stop) as [[[[[sd v] rug'] iter']|]|e]; cbn in G; [|apply kept_err; auto|apply kept_err; auto].
  destruct G as (G1 & G2 & G3). eapply kept_thn; [apply kept_swap_out; eauto|]. intros w' old W' [To _].
  destruct (u_log log a sd w' c); [|apply kept_err; auto]. apply IH; auto. apply Forall_app; auto.
Qed.
Lemma kept_merge_tail n : forall a w rug iter stop, wt w -> Forall (row_ty ts) rug -> Forall (row_ty ts) iter ->
  kept any (u_merge_tail boom cmp log n a w rug iter stop).
Proof.
  induction n as [|n IH]; intros a w rug iter stop W T1 T2; cbn [u_merge_tail]; [split; [exact W|exact I]|].
  pose proof (u_take_ty pr s cmp rug iter stop T1 T2) as G. destruct (u_take cmp rug iter stop) as [[[[[sd v] rug'] iter']|]|e]; cbn in G; [|split; [exact W|exact I]|apply kept_err; auto].
  destruct G as (G1 & G2 & G3). eapply kept_thn; [apply kept_push_end; eauto|]. intros w' i W' _.
  destruct (u_log log a sd w' i); [|apply kept_err; auto]. apply IH; auto.
Qed.
Lemma kept_merge a w rows stop : wt w -> Forall (row_ty ts) rows -> kept any (u_merge pr boom cmp log a w rows stop).
Proof.
  intros W T. destruct rows as [|first rest]; [apply kept_stop; exact W|]. unfold u_merge.
  destruct (let* cursor := u_merge_skip pr cmp (t_len (w_tab w)) (w_tab w) first 0 in _) as [ids|e]; [|apply kept_err; auto].
  eapply kept_thn; [apply kept_merge_shift; [exact W|constructor|exact T]|].
  intros w' q W' [T1 T2]. apply kept_merge_tail; auto.
Qed.
End M.

(** ** Bags *)
Lemma kept_bag_next w p : wt w -> match snd (u_bag_next pr umax boom w p) with
  | Ok _ => wt (fst (fst (u_bag_next pr umax boom w p)))
  | Err (EPanic _) => wt (fst (fst (u_bag_next pr umax boom w p))) \/ over (w_tab (fst (fst (u_bag_next pr umax boom w p))))
  | Err _ => True end.
Proof.
  intro W. destruct p as [[mark i] lst]. unfold u_bag_next.
  destruct (t_len (w_tab w) <=? i); [exact W|]. destruct mark.
  - destruct lst as [l|]; [|left; exact W]. destruct (rid_from_usize _ _) as [j|e]; [|cbn; destruct e; auto].
    pose proof (kept_delete w j W) as H. unfold kept in H. cbn [fst snd]. destruct (snd (u_delete _ _ _ _ _)) as [u|e]; [apply H|exact H].
  - cbn. destruct (rid_from_usize _ _) as [j|e]; cbn; [exact W|]. destruct e; auto.
Qed.
Lemma kept_bag_drop w p : wt w -> kept any (u_bag_drop pr umax boom w p).
Proof.
  intro W. unfold u_bag_drop. destruct (snd p) as [l|]; [|split; [exact W|exact I]].
  destruct (fst (fst p)); [|split; [exact W|exact I]]. destruct (rid_from_usize _ _); [apply kept_delete; auto|apply kept_err; auto].
Qed.

(** ** One call *)
Definition fine (u : ustate) : Prop := match u with Live st => tg ex s (st_tab st) \/ over (st_tab st) | _ => True end.
Lemma fine_carry {A} its (P : wlock -> A -> Prop) p (f : A -> unit) : kept P p -> fine (carry_on (Locked (fst p) its) (let* a := snd p in Ok (f a))).
Proof. unfold kept, fine, carry_on. destruct p as [w [a|e]]; cbn; [left; tauto|]. destruct e; cbn; auto. Qed.
Lemma fine_carry1 its (P : wlock -> unit -> Prop) p : kept P p -> fine (carry_on (Locked (fst p) its) (snd p)).
Proof. unfold kept, fine, carry_on. destruct p as [w [a|e]]; cbn; [left; tauto|]. destruct e; cbn; auto. Qed.
Lemma fine_flush srt tp w ev : wt w -> (ex = true -> ev_removal ev = true -> w_changes w = SAll -> t_free (w_tab w) = []) ->
  fine (u_flush pr umax boom srt tp w ev).
Proof.
  intros W F. unfold u_flush. destruct (sel_empty (w_changes w)); [left; exact W|].
  destruct (bind _ _) as [u|e]; [|left; exact W].
  assert (H : kept (fun _ _ => True) (u_flush_apply pr umax boom (w_new (w_tab w)) ev (if srt then sel_sort (w_changes w) else w_changes w))).
  { apply kept_flush_apply; [exact W|]. intros Y1 Y2 Y3. cbn. apply F; auto. eapply sel_sort_all; eauto. }
  unfold kept in H. unfold let_go. destruct (snd _) as [u'|[]]; cbn; auto. left. apply H.
Qed.
Lemma fine_remove srt tp w ev rows : wt w -> (s_kind s = Consistent \/ s_kind s = Sorted) ->
  (ex = true -> s_kind s = Consistent -> (rows = SAll \/ (ev_removal ev = true /\ w_changes w = SAll)) ->
     t_free (w_tab w) = [] /\ (rows = SAll \/ rows = SThese [])) ->
  fine (u_remove_rows pr umax boom srt tp w ev rows).
Proof.
  intros W Ks F. unfold u_remove_rows. rewrite (tg_kind _ _ _ W). destruct rows as [|rows].
  - cbn [snd fst]. apply fine_flush.
    + assert (Wc : wt (clear_raw w)); [|unfold clear, event_cleared; change (t_kind (w_tab (clear_raw w))) with (t_kind (w_tab w)); rewrite (tg_kind _ _ _ W);
        destruct Ks as [Kc|Kc]; rewrite Kc; exact Wc].
      apply tg_clear_raw; auto. intro Y. destruct Ks as [Kc|Kc]; [apply F; auto|].
      pose proof W as (E & live & rs & K & X). apply (ok_free_kind _ _ _ K). unfold t_kind. congruence.
    + intros Y1 Y2 Y3. assert (Q : t_free (w_tab (clear (clear_raw w))) = t_free (w_tab w)).
      { unfold clear, event_cleared; change (t_kind (w_tab (clear_raw w))) with (t_kind (w_tab w)); rewrite (tg_kind _ _ _ W);
        destruct Ks as [Kc|Kc]; rewrite Kc; reflexivity. }
      rewrite Q. destruct Ks as [Kc|Kc]; [apply F; auto|].
      pose proof W as (E & live & rs & K & X). apply (ok_free_kind _ _ _ K). unfold t_kind. congruence.
  - assert (H : kept (fun w' _ => s_kind s = Consistent -> w_changes w' = w_changes w /\ (rows = [] -> w' = w))
        match s_kind s with Sorted => u_sorted_remove boom w rows | _ => u_delete_rows pr umax boom w rows end).
    { destruct Ks as [Kc|Kc]; rewrite Kc.
      - eapply kept_impl; [apply kept_delete_rows; exact W|]. auto.
      - eapply kept_impl; [apply kept_sorted_remove; [exact W|congruence]|]. discriminate. }
    unfold kept in H. destruct (match s_kind s with Sorted => _ | _ => _ end) as [w' [u|e]]; cbn [fst snd] in *.
    + destruct H as [W' H]. apply fine_flush; [exact W'|]. intros Y1 Y2 Y3. destruct Ks as [Kc|Kc].
      * destruct (H Kc) as [C N]. rewrite C in Y3. destruct (F Y1 Kc) as [F1 [F2|F2]]; auto; [discriminate|]. inv F2. rewrite N; auto.
      * pose proof W' as (E & live & rs & K & X). apply (ok_free_kind _ _ _ K). unfold t_kind. congruence.
    + unfold let_go. destruct e; exact I.
Qed.
Lemma fine_same st r : tg ex s (st_tab st) -> fine (carry_on st r).
Proof. intro W. unfold carry_on. destruct r as [u|[]]; cbn; auto. Qed.
Lemma set_cell_tg w k i v t : wt w -> (forall t, nth_error ts k = Some t -> v_ty (ct_base t) v) -> u_set_cell (w_tab w) k i v = Ok t -> tg ex s t.
Proof.
  intros W T H. pose proof (good_assign pr ex s w k i v W T) as G. pose proof W as (E & live & rows & K & X).
  assert (Q : t_assign (w_tab w) k i v = Ok t); [|rewrite Q in G; exact G].
  unfold u_set_cell, t_assign in *. destruct (nth_error (t_cols (w_tab w)) k) as [[b|b ix]|] eqn:Ek; try discriminate.
  bindn H j C. apply (t_check_inv _ _ _ K) in C. destruct C as (-> & L & _).
  assert (Hk : exists ct, nth_error (s_cols (t_sch (w_tab w))) k = Some ct).
  { apply nth_error_lt_Some. rewrite <- (cols_len_eq _ _ _ K). eapply nth_error_Some_lt; eauto. }
  destruct Hk as [ct Hk]. destruct (cols_nth _ _ _ _ _ _ _ _ (ok_cols _ _ _ K) Ek Hk) as [Wf Dt].
  unfold c_set. rewrite c_len_data, Dt, map_length. destruct (Nat.leb_spec (length rows) i) as [L'|L']; [lia|]. exact H.
Qed.
Lemma fine_step st o : tg ex s (st_tab st) -> uop_ok s o -> (ex = true -> sane_op st (calm o)) -> fine (ustep pr umax st (boom, o)).
Proof.
  intros G [To Io] Hs. unfold ustep. rewrite (tg_kind _ _ _ G). destruct (avail (s_kind s) (calm o)) eqn:Av; [|left; exact G].
  assert (F : ex = true -> empties st (calm o) = true -> t_free (st_tab st) = []).
  { intros Y H. destruct (Hs Y H) as [P _]. apply (all_present_free s); auto. rewrite <- Y. exact G. }
  destruct o as [o| | | | | | | | | | | | | | | |]; cbn [calm op_ty ids_in] in *.
  - assert (X : fine (if plain_call o then match step pr umax st o with Ok st' => Live st' | Err e => carry_on st (Err e) end else Live st)).
    { destruct (plain_call o); [|left; exact G]. destruct (step pr umax st o) as [st'|e] eqn:Q; [|apply fine_same; exact G].
      left. eapply (step_tg pr umax ex s); eauto. }
    destruct st as [t|w []]; exact X.
  - destruct st as [t|w its]; [left; exact G|]. pose proof (fine_carry its _ _ (fun _ => tt) (kept_push w r G To)) as X.
    assert (X' : fine (let p := u_push boom w r in carry_on (Locked (fst p) its) (snd (drop_res p)))).
    { cbn zeta. unfold drop_res, thn. destruct (u_push boom w r) as [w' [a|e]]; exact X. }
    destruct its; exact X'.
  - destruct st as [t|w its]; [left; exact G|]. pose proof (fine_carry1 its _ _ (kept_push_all w rs stop G To)) as X. destruct its; exact X.
  - destruct st as [t|w its]; [left; exact G|]. pose proof (fine_carry its _ _ (fun _ => tt) (kept_push_array w rs stop G To)) as X.
    assert (X' : fine (let p := u_push_array pr boom w rs stop in carry_on (Locked (fst p) its) (snd (drop_res p)))).
    { cbn zeta. unfold drop_res, thn. destruct (u_push_array pr boom w rs stop) as [w' [a|e]]; exact X. }
    destruct its; exact X'.
  - destruct st as [t|w its]; [left; exact G|]. pose proof (fine_carry1 its _ _ (kept_delete w i G)) as X. destruct its; exact X.
  - destruct st as [t|w its]; [left; exact G|].
    assert (K : kept any (u_live_flush pr umax boom srt tp w ev)).
    { apply kept_live_flush; [exact G|]. intros Y1 Y2 Y3. apply F; auto. cbn. rewrite Y2, Y3. reflexivity. }
    pose proof (fine_carry1 its _ _ K) as X. destruct its; exact X.
  - destruct st as [t|w its]; [left; exact G|].
    assert (Nc : s_kind s <> Consistent) by (destruct (s_kind s); simpl in Av; congruence).
    pose proof (fine_carry1 its _ _ (kept_sorted_remove w rows G Nc)) as X. destruct its; exact X.
  - destruct st as [t|w its]; [left; exact G|].
    assert (Nc : s_kind s <> Consistent) by (destruct (s_kind s); simpl in Av; congruence).
    pose proof (fine_carry1 its _ _ (kept_retain f s0 w G Nc)) as X. destruct its; exact X.
  - destruct st as [t|w its]; [left; exact G|].
    assert (Nc : s_kind s <> Consistent) by (destruct (s_kind s); simpl in Av; congruence).
    assert (Tf : forall a w i s' rm add stop, f a w i = (s', UContinue rm add stop) -> Forall (row_ty ts) add).
    { intros a0 w0 i s' rm add stop Ef. eapply (To a0 w0 i s' rm add). rewrite Ef. reflexivity. }
    pose proof (fine_carry1 its _ _ (kept_visit f Tf s0 w G Nc)) as X. destruct its; exact X.
  - destruct st as [t|w its]; [left; exact G|]. pose proof (fine_carry1 its _ _ (kept_merge cmp log s0 w rows stop G To)) as X. destruct its; exact X.
  - destruct st as [t|w its]; [left; exact G|].
    assert (X : fine match nth_error its k with
        | Some q => let p := u_bag_next pr umax boom w q in carry_on (Locked (fst (fst p)) (upd its k (snd (fst p)))) (snd p)
        | None => Live (Locked w its) end).
    { destruct (nth_error its k) as [q|]; [|left; exact G]. pose proof (kept_bag_next w q G) as H. cbn zeta. unfold carry_on.
      destruct (snd (u_bag_next pr umax boom w q)) as [u|[]]; cbn; auto. }
    destruct its; exact X.
  - destruct st as [t|w its]; [left; exact G|].
    assert (X : fine match nth_error its k with
        | Some q => let p := u_bag_drop pr umax boom w q in carry_on (Locked (fst p) (firstn k its ++ skipn (S k) its)) (snd p)
        | None => Live (Locked w its) end).
    { destruct (nth_error its k) as [q|]; [|left; exact G]. apply (fine_carry1 _ any). apply kept_bag_drop. exact G. }
    destruct its; exact X.
  - assert (X : fine (carry_on st (let* _ := u_cell (st_tab st) k i in Ok tt))) by (apply fine_same; exact G).
    destruct st as [t|w []]; exact X.
  - destruct st as [t|w its]; [left; exact G|].
    assert (X : fine match u_set_cell (w_tab w) k i v with Ok t => Live (Locked (with_tab w t) its) | Err e => carry_on (Locked w its) (Err e) end).
    { destruct (u_set_cell (w_tab w) k i v) as [t|e] eqn:Q; [|apply fine_same; exact G]. left. eapply set_cell_tg; eauto. }
    destruct its; exact X.
  - destruct st as [t|w []]; try (left; exact G). unfold w_drop. destruct (_ && _); cbn; auto.
  - destruct st as [t|w []]; try (left; exact G). apply fine_flush; [exact G|]. intros Y1 Y2 Y3. apply F; auto. cbn. rewrite Y2, Y3. reflexivity.
  - destruct st as [t|w []]; try (left; exact G).
    + apply fine_remove; [exact G|destruct (s_kind s); simpl in Av; try discriminate; auto|].
      intros Y _ [->|[Y1 Y2]]; [|discriminate]. split; [apply F; auto|auto].
    + pose proof (tg_kind _ _ _ G) as Kk. cbn in Kk. rewrite Kk. destruct (s_kind s) eqn:Ks; try (left; exact G).
      apply fine_remove; [exact G|auto|]. intros Y _ H.
      assert (Em : empties (Locked w []) (ORemoveRows srt ev rows) = true).
      { destruct H as [->|[H1 H2]]; auto. destruct rows; auto. simpl. rewrite H1, H2. reflexivity. }
      split; [apply F; auto|]. destruct (Hs Y Em) as [_ M]. destruct rows as [|[|i l]]; auto. contradiction.
Qed.
End Caught.

(** ** Programs *)
Theorem caught_tg careful pr umax sch st : caught careful pr umax sch st -> tg careful sch (st_tab st).
Proof.
  intro H. induction H as [N|st [boom o] st' H IH U NB Hs E L].
  - split; auto. exists (fun _ => true), []. split; [apply t_new_ok; auto|]. intros _. split; [simpl; lia|constructor].
  - pose proof (fine_step pr umax careful sch boom NB st o IH U Hs) as F. rewrite E in F. cbn in F. destruct F as [F|F]; auto.
    unfold over in F. lia.
Qed.
Lemma tg_in_step ex sch t : tg ex sch t -> in_step t.
Proof.
  intros (E & live & rows & K & X). split.
  - rewrite (t_len_ok _ _ _ K). apply Forall_forall. intros c Hc. apply In_nth_error in Hc. destruct Hc as [k Ek].
    assert (Hk : exists ct, nth_error (s_cols (t_sch t)) k = Some ct).
    { apply nth_error_lt_Some. rewrite <- (cols_len_eq _ _ _ K). eapply nth_error_Some_lt; eauto. }
    destruct Hk as [ct Hk]. destruct (cols_nth _ _ _ _ _ _ _ _ (ok_cols _ _ _ K) Ek Hk) as [_ D].
    rewrite c_len_data, D, map_length. reflexivity.
  - intros i Li D. rewrite (t_len_ok _ _ _ K) in Li. destruct (nth_error_lt_Some _ _ Li) as [r Hr]. exists r. split.
    + apply (t_get_row_ok _ _ _ K); auto.
    + pose proof (t_rows_ty _ _ _ K) as T. rewrite Forall_forall in T. apply T. eapply nth_error_In; eauto.
Qed.
Theorem caught_in_step careful pr umax sch st : caught careful pr umax sch st -> in_step (st_tab st).
Proof. intro H. eapply tg_in_step, caught_tg, H. Qed.
Lemma tg_finds sch t : tg true sch t -> finds_right t.
Proof.
  intros (E & live & rows & K & X) k b v Hk. destruct (X eq_refl) as [XL XF].
  pose proof (cols_len_eq _ _ _ K) as L. pose proof (nth_error_Some_lt _ _ _ Hk) as Lk.
  destruct (nth_error_lt_Some (t_cols t) k) as [c Ek]; [congruence|].
  pose proof (ok_cols _ _ _ K) as CO. destruct (cols_nth _ _ _ _ _ _ _ _ CO Ek Hk) as [W D].
  unfold t_find. rewrite Ek, (c_find_ok _ _ _ _ _ W). eexists. split; [reflexivity|].
  split; [apply ss_filter, seq_ss|]. intro i.
  pose proof (cols_ok_row_length _ _ _ _ _ CO) as RL. rewrite Forall_forall in RL.
  rewrite filter_In, in_seq, D, map_length, !andb_true_iff, Nat.ltb_lt, val_at_iff, nth_error_map.
  split.
  - intros (Li & (Lm & Lv) & V). split; auto. destruct (nth_error rows i) as [r|] eqn:Hr; [|discriminate].
    exists r. split.
    + apply (t_get_row_ok _ _ _ K); auto. rewrite (t_deleted_iff _ _ _ K).
      rewrite XL in Lv by lia. unfold live_of in Lv. apply negb_true_iff in Lv. auto.
    + simpl in V. inv V. apply nth_error_nth'. rewrite (RL r) by (eapply nth_error_In; eauto). auto.
  - intros (Lm & r & G & V). apply (t_get_row_inv _ _ _ K) in G. destruct G as [Hr Dl].
    pose proof (nth_error_Some_lt _ _ _ Hr) as Li. split; [lia|]. split; [split; auto|].
    + rewrite XL by auto. unfold live_of. rewrite <- (t_deleted_iff _ _ _ K), Dl. reflexivity.
    + rewrite Hr. simpl. f_equal. apply nth_error_nth. auto.
Qed.
Theorem caught_finds pr umax sch st : caught true pr umax sch st -> finds_right (st_tab st) /\ Forall (fun i => i < t_len (st_tab st)) (t_free (st_tab st)).
Proof.
  intro H. apply caught_tg in H. split; [eapply tg_finds; eauto|]. destruct H as (E & live & rows & K & X).
  rewrite (t_len_ok _ _ _ K). apply X. reflexivity.
Qed.

(** ** Lost tables *)
Section Lost.
Variables (pr : profile) (umax : nat) (s : schema).
Variable boom : key -> list key -> bool.
Hypothesis B : forall k m, boom k m = false.
Hypothesis Kc : s_kind s = Consistent.
Lemma delete_raw_cons w i : tg false s (w_tab w) -> i < t_len (w_tab w) -> exists w',
  u_delete_raw pr umax boom w i = (w', Ok tt) /\ tg false s (w_tab w') /\ t_len (w_tab w') = t_len (w_tab w).
Proof.
  intros W Hi. pose proof W as (E & live & rows & K & X). pose proof (tg_kind _ _ _ W) as Kd. rewrite Kc in Kd.
  rewrite (t_len_ok _ _ _ K) in Hi.
  destruct (delete_raw_cons_ok w live rows K pr umax i Kd Hi) with (live' := fun j => if j =? i then false else live j) as (cs & Q & _).
  { intros j Hj. destruct (Nat.eqb_spec j i); [contradiction|auto]. } { rewrite Nat.eqb_refl. auto. }
  rewrite (delete_raw_agr pr umax boom B _ _ _ Q). eexists. split; [reflexivity|].
  apply (delete_raw_tg pr umax false s w i _ W) in Q; [|intros _; rewrite (t_len_ok _ _ _ K); exact Hi]. destruct Q as [Q1 Q2]. split; auto.
Qed.
Lemma delete_rows_cons n l : forall w, tg false s (w_tab w) -> t_len (w_tab w) = n ->
  let p := ufold (fun w i => if i <? n then u_delete_raw pr umax boom w i else (w, panic PRemoveRange)) l w in
  (Forall (fun i => i < n) l /\ snd p = Ok tt) \/ (Exists (fun i => n <= i) l /\ exists c, snd p = panic c).
Proof.
  induction l as [|i l IH]; intros w W L; cbn [ufold]; [left; auto|]. destruct (Nat.ltb_spec i n) as [Li|Li].
  - destruct (delete_raw_cons w i W) as (w' & Q & W' & L'); [lia|]. rewrite Q. unfold thn. cbn [snd fst].
    destruct (IH w' W') as [[A1 A2]|[A1 A2]]; [lia|left; auto|right; auto].
  - right. split; [left; auto|]. exists PRemoveRange. reflexivity.
Qed.
Lemma told_check w ev : told w ev <-> flush_check (w_pushed w) (w_delete w) ev = Ok tt.
Proof.
  unfold told, flush_check, assert_. destruct (w_pushed w), (w_delete w), (ev_removal ev), (ev_creation ev); cbn [andb orb negb bind];
    destruct (Nat.ltb_spec (ev_id ev) max_event_types); split; intros H0; try discriminate H0; try (repeat split; auto; intros []; discriminate);
    try reflexivity; exfalso; destruct H0 as (H1 & H2 & H3); try lia; try (apply H1; auto; fail); apply H2; auto.
Qed.
Lemma sel_sort_empty c : sel_empty (sel_sort c) = sel_empty c.
Proof.
  destruct c as [|[|i l]]; auto. unfold sel_sort, sel_empty. destruct (sort_ids (i :: l)) eqn:Q; auto.
  assert (H : In i (sort_ids (i :: l))) by (apply sort_ids_In; left; auto). rewrite Q in H. destruct H.
Qed.
Lemma flush_lost w srt ev : tg false s (w_tab w) ->
  u_flush pr umax boom srt false w ev = Lost <->
  told w ev /\ ev_removal ev = true /\ exists l, w_changes w = SThese l /\ exists i, In i l /\ t_len (w_tab w) <= i.
Proof.
  intro W. unfold u_flush. destruct (sel_empty (w_changes w)) eqn:Em.
  { split; [discriminate|]. intros (_ & _ & l & Q & i & Hi & _). rewrite Q in Em. destruct l; [destruct Hi|discriminate]. }
  rewrite told_check. destruct (flush_check (w_pushed w) (w_delete w) ev) as [[]|e]; cbn [bind stop_res]; [|split; [discriminate|intros [H _]; discriminate]].
  set (ch := if srt then sel_sort (w_changes w) else w_changes w).
  assert (Ec : sel_empty ch = false) by (unfold ch; destruct srt; [rewrite sel_sort_empty|]; exact Em).
  unfold u_flush_apply. rewrite Ec. destruct (ev_removal ev); cbn [andb negb]; [|split; [discriminate|intros (_ & H & _); discriminate]].
  destruct ch as [|l] eqn:Q.
  { split; [discriminate|]. intros (_ & _ & l & Q' & _). unfold ch in Q. rewrite Q' in Q. destruct srt; discriminate. }
  assert (Hl : exists l0, w_changes w = SThese l0 /\ forall i, In i l0 <-> In i l).
  { unfold ch in Q. destruct (w_changes w) as [|l0]; [destruct srt; discriminate|]. exists l0. split; auto. intro i.
    destruct srt; inv Q; [symmetry; apply sort_ids_In|reflexivity]. }
  destruct Hl as (l0 & Q0 & Hl).
  destruct (delete_rows_cons (t_len (w_tab w)) l (w_new (w_tab w)) W eq_refl) as [[A1 A2]|[A1 [c A2]]];
    unfold u_delete_rows; cbn [w_new w_tab] in *; rewrite A2; unfold let_go.
  - split; [discriminate|]. intros (_ & _ & l1 & Q1 & i & Hi & Li). rewrite Q0 in Q1. inv Q1. apply Hl in Hi.
    rewrite Forall_forall in A1. specialize (A1 _ Hi). lia.
  - split; [|reflexivity]. intros _. split; auto. split; auto. exists l0. split; auto. apply Exists_exists in A1.
    destruct A1 as (i & Hi & Li). exists i. split; auto. apply Hl. exact Hi.
Qed.
Lemma remove_lost t srt ev rows : tg false s t ->
  u_remove_rows pr umax boom srt false (w_new t) ev rows = Lost <->
  exists l, rows = SThese l /\ exists i, In i l /\ t_len t <= i.
Proof.
  intro W. unfold u_remove_rows. pose proof (tg_kind _ _ _ W) as Kd. rewrite Kc in Kd. cbn [w_new w_tab]. rewrite Kd. destruct rows as [|l].
  - cbn [fst snd]. split; [|intros (l & Q & _); discriminate]. unfold u_flush, clear, event_cleared.
    replace (t_kind (w_tab (clear_raw _))) with Consistent by (symmetry; exact Kd). cbn [w_changes sel_empty w_pushed w_delete].
    destruct (bind _ _); [|discriminate]. unfold u_flush_apply. destruct (ev_removal ev); cbn [andb]; [|discriminate].
    replace (if srt then sel_sort SAll else SAll) with SAll by (destruct srt; reflexivity). cbn. discriminate.
  - pose proof (delete_rows_cons (t_len t) l (w_new t) W eq_refl) as D. pose proof (kept_delete_rows pr umax false s boom B (w_new t) l W) as K.
    unfold u_delete_rows in *. cbn [w_new w_tab] in *. destruct (ufold _ _ _) as [w' r]. cbn [fst snd] in *. unfold kept in K. cbn [fst snd] in K.
    destruct D as [[A1 ->]|[A1 [c ->]]].
    + destruct K as (_ & C & _). unfold u_flush. rewrite C. cbn. split; [discriminate|].
      intros (l0 & Q & i & Hi & Li). inv Q. rewrite Forall_forall in A1. specialize (A1 _ Hi). lia.
    + cbn. split; [|reflexivity]. intros _. exists l. split; auto. apply Exists_exists in A1. destruct A1 as (i & Hi & Li). eauto.
Qed.
End Lost.
Theorem caught_flush_lost careful pr umax sch w boom srt ev : s_kind sch = Consistent -> caught careful pr umax sch (Locked w []) ->
  no_ord_panic (boom, UFlush srt false ev) ->
  ustep pr umax (Locked w []) (boom, UFlush srt false ev) = Lost <->
  told w ev /\ ev_removal ev = true /\ exists l, w_changes w = SThese l /\ exists i, In i l /\ t_len (w_tab w) <= i.
Proof.
  intros Kc H NB. apply caught_tg, tg_weak in H. unfold ustep. cbn [st_tab calm].
  replace (avail _ _) with true by (destruct (t_kind (w_tab w)); reflexivity). apply (flush_lost pr umax sch); auto.
Qed.
Theorem caught_remove_lost careful pr umax sch t boom srt ev rows : s_kind sch = Consistent -> caught careful pr umax sch (Free t) ->
  no_ord_panic (boom, URemoveRows srt false ev rows) ->
  ustep pr umax (Free t) (boom, URemoveRows srt false ev rows) = Lost <->
  exists l, rows = SThese l /\ exists i, In i l /\ t_len t <= i.
Proof.
  intros Kc H NB. apply caught_tg, tg_weak in H. unfold ustep. pose proof (tg_kind _ _ _ H) as Kd. cbn [st_tab calm] in *. rewrite Kd, Kc.
  cbn [avail]. apply (remove_lost pr umax sch); auto.
Qed.
Theorem caught_close_lost careful pr umax sch w boom : caught careful pr umax sch (Locked w []) ->
  ustep pr umax (Locked w []) (boom, UClose) = Lost <-> s_kind sch = Consistent /\ w_changes w <> SThese [].
Proof.
  intro H. apply caught_tg in H. pose proof (tg_kind _ _ _ H) as Kd. unfold ustep. cbn [st_tab calm] in *. rewrite Kd.
  replace (avail _ _) with true by (destruct (s_kind sch); reflexivity). unfold w_drop, t_consistent. rewrite Kd.
  destruct (s_kind sch), (w_changes w) as [|[|i l]]; cbn; split; try discriminate; try (intros [? ?]; congruence); intros _; split; auto; discriminate.
Qed.
