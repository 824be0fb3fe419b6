From Coq Require Import List Arith Bool ZArith Lia.
From Verif Require Import Base BaseFacts Column ColumnFacts RowRange RowRangeFacts Table Visit SortedTab BagTab TableSpec TableFacts
  Hist HistFacts Unwind UnwindSpec UnwindFacts UnwindSafe.
Import ListNotations.
Local Open Scope nat_scope.

(** Two rows pushed; [Ord] panics at the second one. *)
Definition dv (t : ctype) : val := match ct_base t with TVec => VInt 0 | TBool => VBool false end.
Definition still : key -> list key -> bool := fun _ _ => false.
Definition second : key -> list key -> bool := fun k _ => match k with (VInt _, 1) => true | _ => false end.
Definition add_row (sch : schema) : uop :=
  match s_kind sch with
  | Sorted => UMerge (fun _ _ => Some Lt) unit (fun _ _ _ => Some tt) tt [map dv (s_cols sch)] false
  | _ => UPush (map dv (s_cols sch))
  end.
Definition ub_calls (sch : schema) (j : nat) : list ((key -> list key -> bool) * uop) :=
  [(still, UCall OLock); (still, add_row sch); (second, add_row sch); (still, UCell j 1)].

Definition one (t : btype) : base := match t with TVec => BVec [VInt 0] | TBool => BBool (BC false None [false]) end.
Definition filled (t : ctype) : col := match t with Plain b => CPlain (one b) | Indexed b => CIdx (one b) [(dv t, 0)] end.

Lemma first_push imax ts : ucols (uc_push imax still) (map c_new ts) (map dv ts) = (map filled ts, Ok (map (fun _ => tt) ts)).
Proof.
  induction ts as [|t ts IH]; [reflexivity|]. cbn [map ucols].
  assert (E : uc_push imax still (c_new t) (dv t) = (filled t, Ok tt)) by (destruct t as [[]|[]]; reflexivity).
  rewrite E, IH. reflexivity.
Qed.
(** The columns before and at the first indexed [VecCol] have two rows, the others one. *)
Lemma second_push imax ts : 1 <= imax -> forall i, nth_error ts i = Some (Indexed TVec) ->
  exists cs, ucols (uc_push imax second) (map filled ts) (map dv ts) = (cs, panic PUser) /\ hd_len cs = 2 /\
    forall j tj, i < j -> nth_error ts j = Some tj -> nth_error cs j = Some (filled tj).
Proof.
  intro L. induction ts as [|t ts IH]; intros i Hi; [destruct i; discriminate|].
  assert (N : native imax 1 = Ok 1) by (unfold native; destruct (Nat.leb_spec 1 imax); auto; lia).
  destruct t as [b|[]].
  - destruct i as [|i]; [discriminate|]. destruct (IH i Hi) as (cs & E & _ & F). cbn [map ucols].
    assert (P : exists c', uc_push imax second (filled (Plain b)) (dv (Plain b)) = (c', Ok tt) /\ c_len c' = 2) by (destruct b; eexists; split; reflexivity).
    destruct P as (c' & P1 & P2). rewrite P1, E. cbn [fst snd]. eexists. split; [reflexivity|]. split; [exact P2|].
    intros [|j] tj Lj Hj; [lia|]. cbn in *. apply (F j tj); auto. lia.
  - cbn [map ucols]. assert (P : exists c', uc_push imax second (filled (Indexed TVec)) (dv (Indexed TVec)) = (c', panic PUser) /\ c_len c' = 2).
    { eexists. split; [cbn; rewrite N; reflexivity|reflexivity]. }
    destruct P as (c' & P1 & P2). rewrite P1. eexists. split; [reflexivity|]. split; [exact P2|].
    intros [|j] tj Lj Hj; [lia|]. cbn in *. rewrite nth_error_map, Hj. reflexivity.
  - destruct i as [|i]; [discriminate|]. destruct (IH i Hi) as (cs & E & _ & F). cbn [map ucols].
    assert (P : exists c', uc_push imax second (filled (Indexed TBool)) (dv (Indexed TBool)) = (c', Ok tt) /\ c_len c' = 2).
    { eexists. split; [cbn; rewrite N; reflexivity|reflexivity]. }
    destruct P as (c' & P1 & P2). rewrite P1, E. cbn [fst snd]. eexists. split; [reflexivity|]. split; [exact P2|].
    intros [|j] tj Lj Hj; [lia|]. cbn in *. apply (F j tj); auto. lia.
Qed.
Lemma dv_ty ts : row_ty ts (map dv ts).
Proof. induction ts as [|t ts IH]; constructor; auto. destruct t as [[]|[]]; cbn; eauto. Qed.

Section Ub.
Variables (pr : profile) (umax : nat) (sch : schema).
Hypothesis L : 1 <= s_imax sch.
Variables (i j : nat) (tj : ctype).
Hypothesis Hi : nth_error (s_cols sch) i = Some (Indexed TVec).
Hypothesis Hj : nth_error (s_cols sch) j = Some tj.
Hypothesis Lij : i < j.
Hypothesis Tj : ct_base tj = TVec.
Let ts := s_cols sch.
Let row1 := map dv ts.

Lemma lens (f : ctype -> col) : length (map f ts) =? length row1 = true.
Proof. unfold row1. rewrite !map_length. apply Nat.eqb_refl. Qed.
Lemma filled_hd : hd_len (map filled ts) = 1.
Proof. clear - Hi. unfold ts. destruct (s_cols sch) as [|t ?]; [destruct i; discriminate|]. destruct t as [[]|[]]; reflexivity. Qed.
Lemma push1 ch pu de : exists ch' pu', u_push_end still (W (t_new sch) ch pu de) row1 = (W (Tab sch (map filled ts) []) ch' pu' de, Ok 0).
Proof.
  unfold u_push_end, u_push_only. cbn [w_tab t_new t_cols]. fold ts. rewrite lens. unfold row1. rewrite first_push.
  unfold cols_left, thn. cbn [fst snd with_tab with_cols w_tab t_sch t_free t_new]. unfold t_last.
  change (with_cols (t_new sch) (map filled ts)) with (Tab sch (map filled ts) []).
  change (t_len (Tab sch (map filled ts) [])) with (hd_len (map filled ts)). rewrite filled_hd. cbv beta iota delta [Nat.eqb Nat.sub Nat.leb rid_from_usize bind].
  unfold event_add, with_tab, t_kind. cbn. destruct (s_kind sch); eauto.
Qed.
Lemma push2 ch pu de : exists cs, u_push_end second (W (Tab sch (map filled ts) []) ch pu de) row1 = (W (Tab sch cs []) ch pu de, panic PUser) /\
  hd_len cs = 2 /\ nth_error cs j = Some (filled tj).
Proof.
  destruct (second_push (s_imax sch) ts L i Hi) as (cs & E & H & F). exists cs.
  unfold u_push_end, u_push_only. cbn [w_tab t_cols]. rewrite lens. unfold row1, t_imax. cbn [t_sch]. rewrite E.
  unfold cols_left, thn. cbn. auto.
Qed.
Lemma cell_ub cs : hd_len cs = 2 -> nth_error cs j = Some (filled tj) -> u_cell (Tab sch cs []) j 1 = Err EUB.
Proof.
  intros H E. unfold u_cell. cbn [t_cols]. rewrite E. unfold t_check, t_is_deleted. change (t_len (Tab sch cs [])) with (hd_len cs). rewrite H. cbn.
  rewrite andb_false_r. cbn. destruct tj as [b|b]; cbn in Tj; subst b; reflexivity.
Qed.

Lemma merge_at_end boom w r : 
  (let* cursor := u_merge_skip pr (fun _ _ => Some Lt) (t_len (w_tab w)) (w_tab w) r 0 in
   let* e := rid_from_usize (t_imax (w_tab w)) (t_len (w_tab w)) in
   it_collect pr (t_imax (w_tab w)) (S (e - cursor)) (rr_iter_slow (RR cursor e))) = Ok [] ->
  u_merge pr boom (fun _ _ => Some Lt) (fun (_ : unit) _ _ => Some tt) tt w [r] false = drop_res (u_push_end boom w r).
Proof.
  intro H. unfold u_merge. rewrite H. cbn. unfold drop_res, thn. destruct (snd (u_push_end boom w r)); reflexivity.
Qed.
Lemma skip_none n : n <= 1 -> (n = 1 -> exists r, t_get_row (Tab sch (map filled ts) []) 0 = Ok r) ->
  forall t r0, t_sch t = sch -> t_len t = n -> (n = 1 -> t = Tab sch (map filled ts) []) ->
  (let* cursor := u_merge_skip pr (fun _ _ => Some Lt) n t r0 0 in
   let* e := rid_from_usize (t_imax t) n in
   it_collect pr (t_imax t) (S (e - cursor)) (rr_iter_slow (RR cursor e))) = Ok [].
Proof.
  intros Ln G t r0 Es El Et. unfold t_imax. rewrite Es. destruct n as [|[|n]]; [| |lia].
  - cbn [u_merge_skip]. rewrite El. unfold rid_from_usize. change (0 <? 0) with false. cbn [bind]. change (0 <=? s_imax sch) with true. reflexivity.
  - cbn [u_merge_skip]. rewrite El. change (0 <? 1) with true. cbv iota. rewrite (Et eq_refl). destruct (G eq_refl) as [r Gr]. rewrite Gr. cbn [bind].
    unfold rid_next, rid_from_usize, t_imax. cbn [t_sch]. destruct (Nat.ltb_spec 0 (s_imax sch)); [|lia]. cbn [bind].
    change (1 <? 1) with false. cbv iota. cbn [bind]. destruct (Nat.leb_spec 1 (s_imax sch)); [|lia]. reflexivity.
Qed.

Lemma ub_reached : urun pr umax (Free (t_new sch)) (ub_calls sch j) = Undefined.
Proof.
  unfold urun, ub_calls. cbn [fold_left].
  assert (E1 : ustep_all pr umax (Live (Free (t_new sch))) (still, UCall OLock) = Live (Locked (w_new (t_new sch)) [])).
  { cbn. unfold step. cbn. destruct (s_kind sch); reflexivity. }
  rewrite E1. clear E1. unfold w_new.
  assert (E2 : exists ch pu, ustep_all pr umax (Live (Locked (W (t_new sch) (SThese []) false false) [])) (still, add_row sch) =
    Live (Locked (W (Tab sch (map filled ts) []) ch pu false) [])).
  { destruct (push1 (SThese []) false false) as (ch & pu & E). exists ch, pu. unfold add_row, ustep_all, ustep, st_tab. cbn [w_tab].
    destruct (s_kind sch) eqn:K; unfold t_kind; cbn [t_sch t_new]; rewrite K; cbn [calm avail];
      try (unfold u_push; cbn [w_tab t_free t_new]; fold ts; fold row1; rewrite E; reflexivity).
    assert (Z : t_len (t_new sch) = 0) by (unfold t_len, t_new; cbn; destruct (s_cols sch) as [|[[]|[]] ?]; reflexivity).
    rewrite merge_at_end; [fold ts; fold row1; rewrite E; reflexivity|]. cbn [w_tab]. rewrite Z. apply skip_none; auto; lia. }
  destruct E2 as (ch & pu & E2). rewrite E2. clear E2.
  destruct (push2 ch pu false) as (cs & E & Hh & Hn).
  assert (E3 : ustep_all pr umax (Live (Locked (W (Tab sch (map filled ts) []) ch pu false) [])) (second, add_row sch) =
    Live (Locked (W (Tab sch cs []) ch pu false) [])).
  { unfold add_row, ustep_all, ustep, st_tab. cbn [w_tab].
    destruct (s_kind sch) eqn:K; unfold t_kind; cbn [t_sch]; rewrite K; cbn [calm avail];
      try (unfold u_push; cbn [w_tab t_free]; fold ts; fold row1; rewrite E; reflexivity).
    assert (Z : t_len (Tab sch (map filled ts) []) = 1) by apply filled_hd.
    assert (G : exists r, t_get_row (Tab sch (map filled ts) []) 0 = Ok r).
    { unfold t_get_row, t_check, t_is_deleted. rewrite Z. cbn. rewrite andb_false_r. cbn. exists (map dv ts). unfold t_get_row_raw. cbn [t_cols].
      clear. change (1 <=? 0) with false. cbv iota. cbn [bind]. induction ts as [|[[]|[]] l IH]; cbn; auto; rewrite IH; reflexivity. }
    rewrite merge_at_end; [fold ts; fold row1; rewrite E; reflexivity|]. cbn [w_tab]. rewrite Z. apply skip_none; eauto. }
  rewrite E3. clear E3. cbn [ustep_all]. unfold ustep. cbn [calm avail st_tab w_tab].
  rewrite (cell_ub cs Hh Hn). unfold t_kind. cbn. destruct (s_kind sch); reflexivity.
Qed.
Lemma ub_ok : Forall (fun c => uop_ok sch (snd c)) (ub_calls sch j) /\ Forall ord_ok (ub_calls sch j) /\ harmless_calls pr sch (ub_calls sch j).
Proof.
  assert (T : row_ty (s_cols sch) (map dv (s_cols sch))) by apply dv_ty.
  assert (A : uop_ok sch (add_row sch)).
  { unfold add_row. destruct (s_kind sch); split; cbn; auto. }
  assert (O : forall o, ord_ok (still, o)) by (intros o []; cbn; auto).
  assert (O2 : forall o, ord_ok (second, o)) by (intros o []; cbn; auto).
  split; [|split].
  - unfold ub_calls. constructor; [split; exact I|]. constructor; [exact A|]. constructor; [exact A|]. constructor; [split; cbn; auto|constructor].
  - unfold ub_calls. repeat (constructor; auto).
  - right. right. unfold ub_calls, add_row. destruct (s_kind sch); repeat (constructor; auto).
Qed.
End Ub.

Lemma index_last_dec sch : index_last sch \/
  exists i j tj, nth_error (s_cols sch) i = Some (Indexed TVec) /\ nth_error (s_cols sch) j = Some tj /\ i < j /\ ct_base tj = TVec.
Proof.
  unfold index_last. induction (s_cols sch) as [|t ts IH].
  - left. intros [] ? ?; discriminate.
  - destruct IH as [IH|(i & j & tj & A & B & C & D)]; [|right; exists (S i), (S j), tj; cbn; auto with arith].
    assert (X : t = Indexed TVec \/ t <> Indexed TVec) by (destruct t as [|[]]; auto; right; discriminate).
    destruct X as [->|X].
    + assert (Y : (forall j tj, nth_error ts j = Some tj -> ct_base tj = TBool) \/ exists j tj, nth_error ts j = Some tj /\ ct_base tj = TVec).
      { clear. induction ts as [|t ts IH]; [left; intros []; discriminate|]. destruct (ct_base t) eqn:Bt; [right; exists 0, t; auto|].
        destruct IH as [IH|(j & tj & A & B)]; [left|right; exists (S j), tj; auto]. intros [|j] tj H; [inv H; auto|]. eapply IH; eauto. }
      destruct Y as [Y|(j & tj & A & B)]; [left|right; exists 0, (S j), tj; cbn; auto with arith].
      intros i [|j] tj Hi Hj Lij; [lia|]. apply (Y j tj Hj).
    + left. intros [|i] [|j] tj Hi Hj Lij; try lia; cbn in *; [inv Hi; congruence|]. apply (IH i j tj); auto. lia.
Qed.
Theorem ord_panic_ub pr umax sch : s_cols sch <> [] -> 1 <= s_imax sch ->
  (exists l, Forall (fun c => uop_ok sch (snd c)) l /\ Forall ord_ok l /\ harmless_calls pr sch l /\ urun pr umax (Free (t_new sch)) l = Undefined)
  <-> ~ index_last sch.
Proof.
  intros NE L. split.
  - intros (l & A & B & C & D) H. destruct (unwind_safe pr umax sch l NE A C (or_intror (conj B H))) as [X _]. auto.
  - intro H. destruct (index_last_dec sch) as [H2|(i & j & tj & A & B & C & D)]; [contradiction|].
    exists (ub_calls sch j). destruct (ub_ok pr sch L j) as (O1 & O2 & O3).
    split; [exact O1|]. split; [exact O2|]. split; [exact O3|]. eapply ub_reached; eauto.
Qed.
