From Coq Require Import List Arith Bool Lia.
From Verif Require Import Base BaseFacts Column ColumnFacts RowRange RowRangeFacts Table Visit SortedTab BagTab TableSpec TableFacts
  VisitFacts SortedFacts BagFacts Hist HistFacts Unwind UnwindSpec UnwindFacts.
Import ListNotations.

Section Safe.
Variables (pr : profile) (umax : nat) (sch : schema).
Variable boom : key -> list key -> bool.
Hypothesis NE : s_cols sch <> [].
Hypothesis Q : (forall k m, boom k m = false) \/ (forall b n m, boom (VBool b, n) m = false) /\ index_last sch.
Local Notation imax := (s_imax sch).
Local Notation ts := (s_cols sch).

Definition tinv (t : table) : Prop := t_sch t = sch /\ map shape (t_cols t) = ts /\ cinv imax (t_cols t).
Definition winv (w : wlock) : Prop := tinv (w_tab w).
Definition winv_n (n : nat) (w : wlock) : Prop := winv w /\ t_len (w_tab w) = n.
Definition ug {X A} (V : X -> Prop) (P : A -> Prop) (p : X * res A) : Prop := V (fst p) /\ good pr P (snd p).

Lemma ug_thn {X A B} (V V' : X -> Prop) (P : A -> Prop) (P' : B -> Prop) (p : X * res A) (f : X -> A -> X * res B) :
  ug V P p -> (forall x, V x -> V' x) -> (forall x a, V x -> P a -> ug V' P' (f x a)) -> ug V' P' (thn p f).
Proof. intros [A1 A2] Hv Hf. unfold thn. destruct (snd p) as [a|e] eqn:E; [apply Hf; auto|]. split; cbn; auto. Qed.
Lemma ug_drop {X A} (V : X -> Prop) (P : A -> Prop) (p : X * res A) : ug V P p -> ug V (fun _ => True) (drop_res p).
Proof. intros H. unfold drop_res. eapply ug_thn; [exact H|auto|]. intros. split; [auto|exact I]. Qed.
Lemma ug_fold {X A} (V : X -> Prop) (f : X -> A -> X * res unit) l : forall x, V x ->
  (forall x a, In a l -> V x -> ug V (fun _ => True) (f x a)) -> ug V (fun _ => True) (ufold f l x).
Proof.
  induction l as [|a l IH]; intros x Hx H; cbn [ufold]; [split; [auto|exact I]|].
  eapply ug_thn; [apply H; cbn; auto|auto|]. intros y _ Hy _. apply IH; auto. intros; apply H; cbn; auto.
Qed.
Lemma ug_impl {X A} (V V' : X -> Prop) (P P' : A -> Prop) p : ug V P p -> (forall x, V x -> V' x) -> (forall a, P a -> P' a) -> ug V' P' p.
Proof. intros [A1 A2] H1 H2. split; auto. eapply good_impl; eauto. Qed.

Lemma t_len_hd t : t_len t = hd_len (t_cols t).
Proof. reflexivity. Qed.
Lemma tinv_quiet t : tinv t -> quiet boom (t_cols t).
Proof.
  intros (E & S & V). destruct Q as [H|[Hb H]]; [left; auto|right; split; [exact Hb|]]. unfold index_last in H. rewrite <- S in H. clear - H.
  induction (t_cols t) as [|c cs IH]; [constructor|]. constructor.
  - apply Forall_forall. intros d Hd Ic Nb. apply In_nth_error in Hd. destruct Hd as [j Hj]. destruct c as [|b ix]; [destruct Ic|].
    unfold is_bool in Nb. cbn in Nb. destruct (bshape b) eqn:Bb; [|congruence]. specialize (H 0 (S j) (shape d)). cbn in H. rewrite Bb in H. specialize (H eq_refl). rewrite nth_error_map, Hj in H. specialize (H eq_refl ltac:(lia)).
    unfold is_bool. rewrite <- shape_base. auto.
  - apply IH. intros i j tj Hi Hj L. apply (H (S i) (S j) tj); cbn; auto. lia.
Qed.
Lemma tinv_ne t : tinv t -> t_cols t <> [].
Proof. intros (_ & S & _) E. rewrite E in S. cbn in S. congruence. Qed.
Lemma shapes_same cs cs' : Forall2 same_len cs cs' -> map shape cs' = map shape cs.
Proof. induction 1 as [|c c' ? ? [S L] H IH]; cbn; congruence. Qed.
Lemma tinv_same t cs : tinv t -> Forall2 same_len (t_cols t) cs -> tinv (with_cols t cs) /\ t_len (with_cols t cs) = t_len t.
Proof.
  intros (E & S & V) H. split; [split; [exact E|]; split|].
  - cbn. rewrite (shapes_same _ _ H). exact S.
  - cbn. eapply cinv_same; eauto.
  - rewrite !t_len_hd. apply hd_same. exact H.
Qed.
Lemma tinv_cut t m cs : tinv t -> cut m (t_cols t) cs -> tinv (with_cols t cs).
Proof.
  intros (E & S & V) H. split; [exact E|]; split; cbn.
  - rewrite (cut_shapes _ _ _ H). exact S.
  - eapply cut_inv; eauto.
Qed.
Lemma tinv_imax t : tinv t -> t_imax t = imax.
Proof. intros (E & _). unfold t_imax. congruence. Qed.
Lemma tinv_free t free : tinv t -> tinv (Tab (t_sch t) (t_cols t) free).
Proof. intros (E & S & V). split; auto. Qed.
Lemma winv_add w i : winv w -> winv (event_add w i).
Proof. unfold winv, event_add. destruct (t_kind (w_tab w)); auto. Qed.
Lemma winv_del w i : winv w -> winv (event_del w i).
Proof. unfold winv, event_del. destruct (t_kind (w_tab w)); auto. Qed.

Lemma new_inv : tinv (t_new sch).
Proof.
  assert (L : Forall (fun c => c_len c = 0) (map c_new ts)).
  { apply Forall_forall. intros c Hc. apply in_map_iff in Hc. destruct Hc as (t & <- & _). destruct t as [[]|[]]; reflexivity. }
  split; [reflexivity|]. split; cbn [t_new t_cols].
  - rewrite map_map. rewrite <- (map_id ts) at 2. apply map_ext. intros [[]|[]]; reflexivity.
  - split.
    + assert (H : hd_len (map c_new ts) = 0) by (destruct L; auto). rewrite H. clear. induction (map c_new ts) as [|[] cs IH]; cbn; auto; split; auto; lia.
    + unfold pairs. induction L as [|c cs Hc L IH]; constructor; auto. apply Forall_forall. intros d _. right. lia.
Qed.
Lemma clear_inv t : tinv t -> tinv (with_cols t (map c_clear (t_cols t))).
Proof.
  intros (E & S & V). split; [exact E|]. cbn.
  assert (L : Forall (fun c => c_len c = 0) (map c_clear (t_cols t))).
  { apply Forall_forall. intros c Hc. apply in_map_iff in Hc. destruct Hc as ([b|b ix] & <- & _); cbn; apply b_clear_len. }
  split.
  - rewrite map_map, <- S. apply map_ext. intros [b|b ix]; cbn; f_equal; apply b_clear_len.
  - split.
    + assert (H : hd_len (map c_clear (t_cols t)) = 0) by (destruct L; auto). rewrite H. clear.
      induction (map c_clear (t_cols t)) as [|[] cs IH]; cbn; auto; split; auto; lia.
    + unfold pairs. induction L as [|c cs Hc L IH]; constructor; auto. apply Forall_forall. intros d _. right. lia.
Qed.
Lemma winv_clear_raw w : winv w -> winv (clear_raw w).
Proof. apply clear_inv. Qed.
Lemma winv_clear w : winv w -> winv (clear w).
Proof. intro H. unfold clear, event_cleared. destruct (t_kind (w_tab w)); auto using winv_clear_raw. Qed.

(** ** Reading *)
Lemma b_index_ty b i v : b_index b i = Ok v -> v_ty (bshape b) v.
Proof. destruct b; cbn; [auto|]. intro H. bindn H x E. inv H. eauto. Qed.
Lemma good_get_raw t i : tinv t -> i < t_len t -> i <= imax -> good pr (row_ty ts) (t_get_row_raw t i).
Proof.
  intros (E & S & V) L Li. unfold t_get_row_raw. rewrite <- S. pose proof (cinv_all imax (t_cols t) (Datatypes.S i) V L ltac:(lia)) as F.
  clear - F. induction F as [|c cs H F IH]; cbn; [constructor|]. unfold c_index at 1.
  pose proof (b_index_ub pr (c_base c) i) as G. destruct (b_index (c_base c) i) as [v|e] eqn:Ei; cbn; [|apply G; destruct H; auto].
  eapply good_bind; [exact IH|]. intros l Hl. cbn. constructor; auto. rewrite shape_base. eapply b_index_ty; eauto.
Qed.
Lemma good_tcheck t i : good pr (fun x => x = i /\ i < t_len t) (t_check t i).
Proof. unfold t_check. destruct (Nat.leb_spec (t_len t) i); [exact I|]. destruct (t_is_deleted t i); cbn; auto. Qed.
Lemma good_get t i : tinv t -> i <= imax -> good pr (row_ty ts) (t_get_row t i).
Proof. intros V L. unfold t_get_row. eapply good_bind; [apply good_tcheck|]. intros j [-> Lj]. apply good_get_raw; auto. Qed.

Lemma good_read t k i : good pr (fun _ => True) (t_read t k i).
Proof.
  unfold t_read. destruct (nth_error (t_cols t) k) as [c|]; [|exact I]. unfold c_get. destruct (Nat.leb_spec (c_len c) i); [exact I|].
  apply b_index_ub. auto.
Qed.
Lemma good_find t k v : good pr (fun _ => True) (t_find t k v).
Proof.
  unfold t_find. destruct (nth_error (t_cols t) k) as [[b|b ix]|]; try exact I. cbn. unfold bt_range.
  destruct (key_cmp _ _); cbn; exact I.
Qed.
Lemma good_last t : good pr (fun _ => True) (t_last t).
Proof. unfold t_last. destruct (_ =? 0); [exact I|]. unfold rid_from_usize. destruct (_ <=? _); exact I. Qed.
Lemma good_checked t l e : tinv t -> e <= t_len t -> e <= imax -> Forall (fun o : option nat => forall x, o = Some x -> x < e) l ->
  good pr (fun _ => True) (read_checked t l).
Proof.
  intros V L Li F. unfold read_checked. eapply good_bind; [|intros; exact I].
  eapply good_map_res with (Q := fun _ => True); [exact F|]. intros [x|] Hx; cbn; auto.
  specialize (Hx x eq_refl). eapply good_impl; [apply good_get_raw; auto; lia|auto].
Qed.
Lemma good_plain t l e : tinv t -> e <= imax -> Forall (fun o : option nat => forall x, o = Some x -> x < e) l ->
  good pr (fun _ => True) (read_plain t l).
Proof.
  intros V Li F. unfold read_plain. eapply good_bind; [|intros; exact I].
  eapply good_map_res with (Q := fun _ => True); [exact F|]. intros [x|] Hx; cbn; auto.
  specialize (Hx x eq_refl). eapply good_impl; [apply good_get; auto; lia|auto].
Qed.
Lemma t_iter_spec t : tinv t -> good pr (fun it => it_i (ci_rows it) = 0 /\ it_end (ci_rows it) = t_len t /\ t_len t <= imax) (t_iter t).
Proof.
  intro V. unfold t_iter, t_row_range, rid_from_usize. rewrite (tinv_imax _ V). destruct (Nat.leb_spec (t_len t) imax); simpl; auto.
  unfold t_range, ci_from; cbn [r_start r_end]. rewrite Nat.leb_refl.
  replace ((0 <? t_len t) || (0 =? t_len t)) with true; [simpl; auto|]. destruct (t_len t); auto.
Qed.
Lemma safe_read_op t o : tinv t -> ids_in imax o -> good pr (fun _ => True) (read_op pr umax t o).
Proof.
  intros V Io. pose proof (tinv_imax t V) as Im. destruct o; cbn [read_op]; try exact I.
  - eapply good_bind; [apply good_get; auto|]. intros; exact I.
  - eapply good_bind; [apply good_read|]. intros; exact I.
  - eapply good_bind; [apply good_find|]. intros; exact I.
  - eapply good_bind; [apply good_last|]. intros; exact I.
  - unfold t_dump. eapply good_bind; [|intros; exact I].
    eapply good_bind; [apply t_iter_spec; auto|]. intros it (E1 & E2 & E3). rewrite Im.
    eapply good_bind; [apply good_cons_collect; lia|]. intros ids Hids.
    eapply good_map_res with (Q := fun _ => True); [exact Hids|]. intros i Hi. cbn in Hi.
    unfold t_get_row_checked, t_check_checked. cbn. eapply good_impl; [apply good_get_raw; auto; lia|auto].
  - cbn in Io. assert (G : good pr (fun it => it_end (ci_rows it) <= t_len t /\ it_end (ci_rows it) <= imax) (t_range t r)).
    { unfold t_range, ci_from. destruct (_ || _); [|exact I]. cbn. destruct (Nat.leb_spec (r_end r) (t_len t)); cbn; auto. }
    eapply good_bind; [exact G|]. intros it [H1 H2]. rewrite Im. eapply good_bind; [apply good_cons_run|].
    intros l Hl. eapply good_checked; eauto.
  - eapply good_bind; [apply t_iter_spec; auto|]. intros it (E1 & E2 & E3). rewrite Im. eapply good_bind; [apply good_cons_run|].
    intros l Hl. apply (good_checked t l (it_end (ci_rows it))); auto; lia.
Qed.

(** ** Columns of a lock *)
Lemma left_same {A} w n (p : list col * res A) (P : A -> Prop) : winv_n n w -> Forall2 same_len (t_cols (w_tab w)) (fst p) -> good pr P (snd p) ->
  ug (winv_n n) P (cols_left w p).
Proof. intros [V L] H G. destruct (tinv_same _ _ V H) as [A1 A2]. split; [split|]; cbn; auto. congruence. Qed.
Lemma left_cut {A} w m (p : list col * res A) (P : A -> Prop) : winv w -> cut m (t_cols (w_tab w)) (fst p) -> good pr P (snd p) ->
  ug winv P (cols_left w p).
Proof. intros V H G. split; cbn; auto. eapply tinv_cut; eauto. Qed.

Lemma safe_push_only w r : winv w -> row_ty ts r -> ug winv (fun i => i <= imax) (u_push_only boom w r).
Proof.
  intros V T. pose proof V as (E & S & C). unfold u_push_only.
  assert (T2 : Forall2 (fun c v => v_ty (ct_base (shape c)) v) (t_cols (w_tab w)) r).
  { rewrite <- S in T. clear - T. remember (map shape (t_cols (w_tab w))) as l eqn:El. revert El. generalize (t_cols (w_tab w)).
    induction T; intros [|c cs] El; try discriminate; constructor; inv El; auto. }
  destruct (length (t_cols (w_tab w)) =? length r); [|split; [auto|exact I]].
  rewrite (tinv_imax _ V). destruct (ucols_push pr imax boom _ _ T2 (tinv_quiet _ V) (proj2 C)) as (A1 & A2 & A3 & A4).
  specialize (A3 (tinv_ne _ V)).
  eapply ug_thn with (V := winv) (P := fun _ => True); [|auto|].
  - split; [|exact A4]. split; [exact E|]. split; cbn.
    + rewrite <- S. clear - A1. induction A1 as [|c c' ? ? [A B] H IH]; cbn; congruence.
    + eapply grown_inv; eauto using tinv_ne.
  - intros w' _ V' _. split; [exact V'|]. cbn. unfold t_last. destruct (_ =? 0); [exact I|]. rewrite (tinv_imax _ V').
    unfold rid_from_usize. destruct (Nat.leb_spec (t_len (w_tab w') - 1) imax); cbn; auto.
Qed.
Lemma safe_push_end w r : winv w -> row_ty ts r -> ug winv (fun i => i <= imax) (u_push_end boom w r).
Proof.
  intros V T. eapply ug_thn; [apply safe_push_only; auto|auto|]. intros w' i V' L. split; cbn; auto using winv_add.
Qed.
Lemma ucols_swap_out_ty imx cs i : forall r l, snd (ucols (fun c v => uc_swap_out imx boom c i v) cs r) = Ok l -> length cs = length r ->
  Forall2 (fun c v => v_ty (ct_base (shape c)) v) cs l.
Proof.
  induction cs as [|c cs IH]; intros [|v r] l H L; cbn in *; try discriminate; [inv H; constructor|].
  destruct (uc_swap_out imx boom c i v) as [c' [x|e]] eqn:U; [|discriminate]. cbn in H. bindn H ls E. inv H. constructor; [|eapply IH; eauto].
  rewrite shape_base. clear - U. assert (K : forall b p, b_swap_out b i v = Ok p -> v_ty (bshape b) (snd p)).
  { intros [m|b] p H; cbn in *; auto. bindn H y Ey. bindn H q0 Eqq. inv H. cbn. eauto. }
  destruct c as [b|b ix]; cbn in U.
  - destruct (b_swap_out b i v) as [p|e] eqn:B; inv U. apply (K _ _ B).
  - destruct (b_index b i); [|discriminate]. destruct (native imx i); [|discriminate]. destruct (booms _ _ _); [discriminate|].
    destruct (booms _ _ _); [discriminate|]. destruct (b_swap_out b i v) as [p|e] eqn:B; inv U. apply (K _ _ B).
Qed.
Lemma safe_swap_out n w i r : winv_n n w -> ug (winv_n n) (row_ty ts) (u_swap_out_row boom w i r).
Proof.
  intros [V L]. unfold u_swap_out_row. pose proof (good_tcheck (w_tab w) i) as G. destruct (t_check (w_tab w) i) as [j|e]; cbn in G;
    [|split; [split|]; auto]. destruct G as [-> Li].
  destruct (length (t_cols (w_tab w)) =? length r) eqn:Le; [|split; [split; auto|exact I]]. apply Nat.eqb_eq in Le.
  rewrite (tinv_imax _ V). destruct V as (E & S & C).
  destruct (ucols_access pr imax (fun c v => uc_swap_out imax boom c i v) (Datatypes.S i)) with (cs := t_cols (w_tab w)) (l := r) as [A1 A2].
  - intros c a. apply (uc_swap_out_spec pr imax boom c i a).
  - intros c a H. apply (uc_swap_out_spec pr imax boom c i a). destruct H; auto.
  - intros c a x Hx Ic. apply le_n_S. apply (proj2 (proj2 (uc_swap_out_spec pr imax boom c i a)) x Hx Ic).
  - apply upto_b. eapply upto_le; [|apply C]. rewrite t_len_hd in Li. lia.
  - intro H. apply cinv_all with (imax := imax); auto.
  - apply left_same; auto; [split; auto; split; auto|]. pose proof (ucols_swap_out_ty imax (t_cols (w_tab w)) i r) as T.
    destruct (snd (ucols _ _ _)) as [l|e]; [|exact A2]. cbn. specialize (T l eq_refl Le). rewrite <- S.
    clear - T. induction T; cbn; constructor; auto.
Qed.
Lemma safe_truncate w n : winv w -> ug winv (fun _ => True) (u_truncate boom w n).
Proof.
  intro V. eapply ug_drop with (P := fun _ => True). rewrite (tinv_imax _ V). eapply left_cut with (m := n); auto.
  - apply ueach_cut. intros c _. destruct (uc_truncate_spec pr imax boom c n) as (A & B & [[C D]|[C D]]); split; auto. left. split; eauto.
  - assert (G : forall cs l, good pr (fun _ => True) (snd (ucols (fun c (_ : col) => uc_truncate imax boom c n) cs l))).
    { clear. induction cs as [|c cs IH]; intros [|a l]; cbn; try exact I. destruct (uc_truncate_spec pr imax boom c n) as (A & B & C).
      destruct (uc_truncate imax boom c n) as [c' [x|e]]; cbn in *; auto. eapply good_bind; [apply IH|]. intros; exact I. }
    apply G.
Qed.
Lemma safe_delete_raw w i : winv w -> (pr = Debug \/ s_kind sch <> Bag \/ 0 < t_len (w_tab w)) -> (s_kind sch = Consistent -> i < t_len (w_tab w)) ->
  ug (if kind_eqb (s_kind sch) Consistent then winv_n (t_len (w_tab w)) else winv) (fun _ => True) (u_delete_raw pr umax boom w i).
Proof.
  intros V H Hc. unfold u_delete_raw. rewrite (tinv_imax _ V). pose proof V as (E & S & C). unfold t_kind. rewrite E.
  destruct (s_kind sch) eqn:K; cbn [kind_eqb]; try (split; [exact V|exact I]).
  - eapply ug_thn with (V := winv_n (t_len (w_tab w))) (P := fun _ => True); [|auto|].
    + destruct (ueach_access pr imax (fun c => uc_deleted imax boom c i) (Datatypes.S i) (t_cols (w_tab w))) as [A1 A2]; auto.
      * intros c. apply (uc_deleted_spec pr imax boom c i).
      * intros c X. apply (uc_deleted_spec pr imax boom c i). destruct X; auto.
      * intros c x Hx Ic. apply le_n_S. apply (proj1 (proj2 (proj2 (uc_deleted_spec pr imax boom c i))) x Hx Ic).
      * specialize (Hc eq_refl). rewrite t_len_hd in Hc. lia.
      * apply left_same; auto. split; auto.
    + intros w' _ [V' L'] _. destruct (rid_from_usize imax i) as [n|e] eqn:R; cbn.
      * split; [split|exact I]; cbn; auto.
      * split; [split; auto|]. pose proof (good_from_usize pr imax i) as G. rewrite R in G. exact G.
  - unfold usub. destruct (Nat.leb_spec 1 (t_len (w_tab w))) as [L1|L1].
    + eapply ug_thn with (V := winv) (P := fun _ => True); [|auto|].
      * destruct (Nat.ltb_spec i (t_len (w_tab w) - 1)); [|split; [auto|exact I]].
        destruct (ueach_access pr imax (fun c => uc_swap imax boom c i (t_len (w_tab w) - 1)) (t_len (w_tab w)) (t_cols (w_tab w))) as [A1 A2]; auto.
        -- intros c. apply (uc_swap_spec pr imax boom c).
        -- intros c X. apply (uc_swap_spec pr imax boom c). destruct X as [X|X]; auto. right. lia.
        -- intros c x Hx Ic. pose proof (proj2 (proj2 (uc_swap_spec pr imax boom c i (t_len (w_tab w) - 1))) x Hx Ic). lia.
        -- eapply ug_drop with (P := fun _ => True). eapply ug_impl with (P := fun _ => True); [eapply left_same with (n := t_len (w_tab w)); [split; auto|exact A1|exact A2]|intros ? []; auto|auto].
      * intros w' _ V' _. apply safe_truncate. exact V'.
    + destruct pr eqn:Ep; [split; [exact V|exact I]|]. exfalso. destruct H as [H|[H|H]]; [discriminate|congruence|lia].
Qed.
Lemma safe_push w r : winv w -> row_ty ts r -> ug winv (fun _ => True) (u_push boom w r).
Proof.
  intros V T. unfold u_push. destruct (t_free (w_tab w)) as [|old free] eqn:F.
  - eapply ug_impl; [apply safe_push_end; auto|auto|auto].
  - match goal with |- context [u_swap_out_row boom ?x old r] => assert (V' : winv x) end.
    { apply winv_add. apply tinv_free. exact V. }
    eapply ug_thn; [eapply safe_swap_out; split; [exact V'|reflexivity]|intros ? []; auto|].
    intros w' _ [V2 _] _. split; [auto|exact I].
Qed.
Lemma good_stop stop : good pr (fun _ => True) (stop_res stop).
Proof. destruct stop; exact I. Qed.
Lemma safe_push_all w rs stop : winv w -> Forall (row_ty ts) rs -> ug winv (fun _ => True) (u_push_all boom w rs stop).
Proof.
  intros V T. unfold u_push_all. eapply ug_thn; [apply ug_fold with (V := winv); auto|auto|].
  - intros w' r Hr V'. eapply ug_drop. apply safe_push; auto. rewrite Forall_forall in T. auto.
  - intros w' _ V' _. split; [exact V'|apply good_stop].
Qed.
Lemma safe_push_ends rs : forall w l, winv w -> Forall (row_ty ts) rs -> ug winv (fun _ => True) (u_push_ends boom rs w l).
Proof.
  induction rs as [|r rs IH]; intros w l V T; cbn [u_push_ends]; [split; [auto|exact I]|]. inv T.
  eapply ug_thn; [apply safe_push_end; auto|auto|]. intros w' i V' _. apply IH; auto.
Qed.
Lemma safe_push_array w rs stop : winv w -> Forall (row_ty ts) rs -> ug winv (fun _ => True) (u_push_array pr boom w rs stop).
Proof.
  intros V T. destruct rs as [|r rs]; cbn [u_push_array].
  - split; [auto|]. eapply good_bind; [apply good_stop|]. intros; exact I.
  - inv T. eapply ug_thn; [apply safe_push_end; auto|auto|]. intros w' i V' _.
    eapply ug_thn; [apply safe_push_ends; auto|auto|]. intros w2 l V2 _. split; [auto|].
    eapply good_bind; [apply good_stop|]. intros _ _. eapply good_bind; [apply good_rid_next|]. intros; exact I.
Qed.
Lemma safe_delete w i : winv w -> ug winv (fun _ => True) (u_delete pr umax boom w i).
Proof.
  intros V. unfold u_delete. pose proof (good_tcheck (w_tab w) i) as G. pose proof V as (E & _).
  unfold t_kind. rewrite E. destruct (s_kind sch) eqn:K; try (split; [exact V|exact I]).
  - destruct (t_check (w_tab w) i) as [j|e]; cbn in G; split; cbn; auto using winv_del.
  - destruct (t_check (w_tab w) i) as [j|e]; cbn in G; [|split; auto]. destruct G as [-> L].
    pose proof (safe_delete_raw w i V) as D. rewrite K in D. apply D; [right; right; lia|discriminate].
Qed.
(** [ev]: what C11 is about is left out. *)
Lemma safe_delete_rows w rows : winv w -> (pr = Debug \/ s_kind sch <> Bag) -> ug winv (fun _ => True) (u_delete_rows pr umax boom w rows).
Proof.
  intros V H. unfold u_delete_rows. set (n := t_len (w_tab w)).
  eapply ug_impl with (V := if kind_eqb (s_kind sch) Consistent then winv_n n else winv) (P := fun _ => True); [|intros x; destruct (kind_eqb _ _); [intros [A _]|]; auto|auto].
  apply ug_fold; [destruct (kind_eqb _ _); [split|]; auto|]. intros w' i _ V'.
  destruct (Nat.ltb_spec i n) as [L|L]; [|split; [auto|exact I]].
  destruct (kind_eqb (s_kind sch) Consistent) eqn:K.
  - destruct V' as [V' L']. pose proof (safe_delete_raw w' i V' ltac:(tauto)) as D. rewrite K, L' in D. apply D. auto.
  - pose proof (safe_delete_raw w' i V' ltac:(tauto)) as D. rewrite K in D. apply D. intro X. rewrite X in K. discriminate.
Qed.
Lemma safe_flush_apply w ev ch : winv w -> (pr = Debug \/ s_kind sch <> Bag \/ ev_removal ev = false) ->
  ug winv (fun _ => True) (u_flush_apply pr umax boom w ev ch).
Proof.
  intros V H. unfold u_flush_apply. destruct (ev_removal ev) eqn:R; cbn; [|split; [auto|exact I]].
  destruct (sel_empty ch); cbn; [split; [auto|exact I]|]. destruct ch as [|rows].
  - split; [apply winv_clear_raw; auto|exact I].
  - apply safe_delete_rows; auto. destruct H as [H|[H|H]]; auto; discriminate.
Qed.
Lemma good_flush_check a b ev tp : good pr (fun _ => True) (let* _ := flush_check a b ev in stop_res tp).
Proof.
  eapply good_bind with (P := fun _ => True); [|intros; apply good_stop]. unfold flush_check.
  eapply good_bind; [apply good_assert|]. intros _ _. eapply good_impl; [apply good_assert|auto].
Qed.
Lemma safe_live_flush w srt tp ev : winv w -> (pr = Debug \/ s_kind sch <> Bag \/ ev_removal ev = false) ->
  ug winv (fun _ => True) (u_live_flush pr umax boom srt tp w ev).
Proof.
  intros V H. unfold u_live_flush. destruct (sel_empty (w_changes w)); [split; [auto|exact I]|].
  pose proof (good_flush_check (w_pushed w) (w_delete w) ev tp) as G. destruct (bind _ _) as [u|e]; [|split; [exact V|exact G]].
  eapply ug_thn; [apply safe_flush_apply; auto|auto|]. intros w' _ V' _. destruct (sel_empty _); split; try exact I; exact V'.
Qed.

(** ** Sorted tables: removal *)
Fixpoint rm_bad (us : list nat) (bad : nat) (rows : list nat) : nat :=
  match us with
  | [] => bad
  | u :: us => if match rows with x :: _ => u =? x | [] => false end then rm_bad us bad (tl rows) else rm_bad us (S bad) rows
  end.
Lemma rm_bad_le us : forall bad rows, rm_bad us bad rows <= bad + length us.
Proof.
  induction us as [|u us IH]; intros bad rows; cbn [rm_bad length]; [lia|].
  destruct (match rows with x :: _ => u =? x | [] => false end); [specialize (IH bad (tl rows))|specialize (IH (S bad) rows)]; lia.
Qed.
Lemma rm_bad_lt m : forall k bad x rows, k <= x < k + m -> rm_bad (seq k m) bad (x :: rows) < bad + m.
Proof.
  induction m as [|m IH]; intros k bad x rows L; [lia|]. cbn [seq rm_bad].
  destruct (Nat.eqb_spec k x) as [->|N].
  - cbn [tl]. pose proof (rm_bad_le (seq (S x) m) bad rows) as H. rewrite seq_length in H. lia.
  - specialize (IH (S k) (S bad) x rows). lia.
Qed.
Lemma u_rm_col_spec m : forall k bad c rows, bad <= k ->
  let p := u_rm_col boom imax (seq k m) bad c rows in
  same_len c (fst p) /\ (is_bool c \/ k + m <= c_len c -> good pr (fun b => b = rm_bad (seq k m) bad rows) (snd p)) /\
  (forall b, snd p = Ok b -> b = rm_bad (seq k m) bad rows).
Proof.
  induction m as [|m IH]; intros k bad c rows L; cbn [seq u_rm_col rm_bad]; [split; [apply same_len_refl|split; [intros _; reflexivity|intros b H; inv H; auto]]|].
  destruct (match rows with x :: _ => k =? x | [] => false end).
  - destruct (IH (S k) bad c (tl rows) ltac:(lia)) as (A & B & C). split; [auto|]. split; auto. intro H. apply B. destruct H; auto. right. lia.
  - assert (Z : let q := if bad =? k then (c, Ok tt) else uc_swap imax boom c bad k in
              same_len c (fst q) /\ (is_bool c \/ k + S m <= c_len c -> good pr (fun _ => True) (snd q))).
    { destruct (bad =? k); [split; [apply same_len_refl|intros _; exact I]|]. destruct (uc_swap_spec pr imax boom c bad k) as (A & B & _).
      split; auto. intro H. apply B. destruct H; auto. right. lia. }
    cbn in Z. destruct Z as [Z1 Z2]. destruct (if bad =? k then (c, Ok tt) else uc_swap imax boom c bad k) as [c' [u|e]]; cbn in *.
    + destruct (IH (S k) (S bad) c' rows ltac:(lia)) as (A & B & C). split; [eapply same_len_trans; eauto|]. split; auto. intro H. apply B.
      destruct Z1 as [Zs Zl]. destruct H as [H|H]; [left; eapply shape_bool; [|exact H]; auto|right; lia].
    + split; [auto|]. split; [auto|]. intros; discriminate.
Qed.
Lemma ucols_good {B} (f : col -> col * res B) b :
  (forall c, is_bool c \/ b <= c_len c -> good pr (fun _ => True) (snd (f c))) ->
  (forall c x, b <= c_len c -> snd (f c) = Ok x -> is_idx c -> b <= S imax) ->
  forall cs (l : list col), upto b cs \/ b <= S imax -> (b <= S imax -> Forall (fun c => is_bool c \/ b <= c_len c) cs) ->
  good pr (fun _ => True) (snd (ucols (fun c _ => f c) cs l)).
Proof.
  clear NE Q. intros Fg Fi. induction cs as [|c cs IH]; intros l U H; cbn [ucols]; [exact I|].
  destruct l as [|a l]; [exact I|].
  assert (Uc : is_bool c \/ b <= c_len c) by (destruct U as [[U _]|U]; [auto|specialize (H U); inv H; auto]).
  pose proof (Fg c Uc) as F2. pose proof (Fi c) as F3. destruct (f c) as [c' [x|e]]; cbn in *; [|exact F2].
  eapply good_bind; [apply IH|intros; exact I].
  - destruct U as [[U1 U2]|U]; auto. destruct c; auto. right. apply (F3 x U1 eq_refl I).
  - intro L. specialize (H L). inv H. auto.
Qed.
Lemma ascending_last l : forall p, rm_ascending p l = true -> forall x, In x l -> x <= last l 0.
Proof.
  induction l as [|a l IH]; intros p H x Hx; [destruct Hx|]. cbn [rm_ascending] in H. apply andb_prop in H. destruct H as [_ H].
  destruct l as [|b l]; [destruct Hx as [->|[]]; cbn; lia|]. change (last (a :: b :: l) 0) with (last (b :: l) 0).
  destruct Hx as [<-|Hx]; [|eapply IH; eauto]. cbn [rm_ascending] in H. pose proof H as H'. apply andb_prop in H'. destruct H' as [H1 _]. apply Nat.ltb_lt in H1.
  specialize (IH a H b (or_introl eq_refl)). lia.
Qed.
Lemma rm_head x rows n : rm_check (x :: rows) = Ok tt -> last (x :: rows) 0 < n -> x < n.
Proof.
  unfold rm_check, assert_. intros H L. destruct (rm_ascending _ _) eqn:E; [|discriminate]. destruct x as [|x]; [lia|].
  pose proof (ascending_last _ _ E (S x) (or_introl eq_refl)). lia.
Qed.
Lemma uc_truncate_ok c n x m : n < m -> m <= c_len c -> snd (uc_truncate imax boom c n) = Ok x -> is_idx c -> m <= S imax.
Proof.
  clear NE Q. intros L1 L2 H Ic. destruct c as [|b ix]; [destruct Ic|]. cbn in H. unfold c_len in L2. cbn in L2.
  assert (K : forall l c u, snd (ufold (uc_deleted imax boom) l c) = Ok u -> is_idx c -> forall i, In i l -> i <= imax).
  { clear. induction l as [|a l IH]; intros c u H Ic i Hi; [destruct Hi|]. cbn in H. destruct (uc_deleted_spec Debug imax boom c a) as (A & _ & B & _).
    destruct (uc_deleted imax boom c a) as [c' [y|e]]; cbn in *; [|discriminate]. destruct Hi as [->|Hi]; [eapply B; eauto|].
    eapply IH; eauto. eapply shape_idx; [|exact Ic]. symmetry. apply A. }
  unfold thn in H. destruct (snd (ufold _ _ _)) as [u|e] eqn:F; [|discriminate].
  specialize (K _ _ _ F I (m - 1)). rewrite in_seq in K. lia.
Qed.
Lemma safe_sorted_remove w rows : winv w -> ug winv (fun _ => True) (u_sorted_remove boom w rows).
Proof.
  intro V. destruct rows as [|x rows]; [split; [auto|exact I]|]. unfold u_sorted_remove.
  destruct (rm_check (x :: rows)) as [u|e] eqn:Ec; cbn [bind].
  2:{ split; [auto|]. unfold rm_check, assert_ in Ec. destruct (rm_ascending _ _) in Ec; inv Ec. exact I. }
  unfold assert_. destruct (Nat.ltb_spec (last (x :: rows) 0) (t_len (w_tab w))) as [L|L]; [|split; [auto|exact I]].
  destruct u. pose proof (rm_head _ _ _ Ec L) as Lx. set (n := t_len (w_tab w)) in *.
  pose proof (rm_bad_lt n 0 0 x rows ltac:(lia)) as Lb. set (m := rm_bad (seq 0 n) 0 (x :: rows)) in *.
  rewrite (tinv_imax _ V). set (f := fun c => thn (u_rm_col boom imax (seq 0 n) 0 c (x :: rows)) (fun c bad => uc_truncate imax boom c bad)).
  assert (Ff : forall c, shape (fst (f c)) = shape c /\
     ((exists y, snd (f c) = Ok y) /\ c_len (fst (f c)) = Nat.min m (c_len c) \/ (exists e, snd (f c) = Err e) /\ c_len (fst (f c)) = c_len c) /\
     (is_bool c \/ n <= c_len c -> good pr (fun _ => True) (snd (f c))) /\
     (forall y, n <= c_len c -> snd (f c) = Ok y -> is_idx c -> n <= S imax)).
  { intro c. unfold f, thn. destruct (u_rm_col_spec n 0 0 c (x :: rows) ltac:(lia)) as ([A1 A2] & B & C). cbn [plus] in B.
    destruct (u_rm_col boom imax (seq 0 n) 0 c (x :: rows)) as [c' [bad|e]]; cbn [fst snd] in *.
    - specialize (C _ eq_refl). subst bad. fold m. destruct (uc_truncate_spec pr imax boom c' m) as (D & E & F).
      split; [congruence|]. split; [|split; [auto|]].
      + destruct F as [[F1 F2]|[F1 F2]]; [left; split; eauto; congruence|right; split; auto; congruence].
      + intros y Ln Hy Ic. eapply uc_truncate_ok; [exact Lb| |exact Hy|].
        * cbn. lia.
        * eapply shape_idx; [|exact Ic]. auto.
    - split; [auto|]. split; [right; eauto|]. split; [auto|]. intros; discriminate. }
  eapply ug_drop with (P := fun _ => True). eapply left_cut with (m := m); auto.
  - apply ueach_cut. intros c _. destruct (Ff c) as (A & B & _). auto.
  - destruct V as (E & S & C). eapply ucols_good with (b := n).
    + intros c. apply Ff.
    + intros c y. apply Ff.
    + left. apply C.
    + intro H. apply cinv_all with (imax := imax); auto.
Qed.

(** ** visit and retain *)
Definition rug_ty (rug : list urug) : Prop :=
  Forall (fun r => match r with URow r => row_ty ts r | UIter l _ => Forall (row_ty ts) l end) rug.
Lemma u_pull_ty rug r rug' : rug_ty rug -> u_pull rug = UPulled r rug' -> row_ty ts r /\ rug_ty rug'.
Proof.
  clear NE Q. intro T. revert r rug'. induction T as [|x rug Hx T IH]; intros r rug' H; cbn in H; [discriminate|].
  destruct x as [r0|[|y l] stop].
  - inv H. auto.
  - destruct stop; [discriminate|]. auto.
  - inv H. inv Hx. split; auto. constructor; auto.
Qed.
Lemma safe_fill k : forall n w rug front back, winv_n n w -> rug_ty rug ->
  ug (winv_n n) (fun q => rug_ty (fst q)) (u_fill pr boom k w rug front back).
Proof.
  induction k as [|k IH]; intros n w rug front back V T; cbn [u_fill]; [split; [auto|exact T]|].
  destruct (front <? back); [|split; [auto|exact T]]. destruct (u_pull rug) as [r rug'| |] eqn:P.
  - destruct (u_pull_ty _ _ _ T P) as [T1 T2]. eapply ug_thn; [apply safe_swap_out; eauto|auto|]. intros w' _ V' _.
    pose proof (good_rid_next pr (t_imax (w_tab w')) front) as G. destruct (rid_next _ _ _); cbn in G; [apply IH; auto|]. split; auto.
  - split; [auto|constructor].
  - split; [auto|exact I].
Qed.
Lemma safe_pour k : forall w rug, winv w -> rug_ty rug -> ug winv (fun _ => True) (u_pour boom k w rug).
Proof.
  induction k as [|k IH]; intros w rug V T; cbn [u_pour]; [split; [auto|exact I]|]. destruct (u_pull rug) as [r rug'| |] eqn:P.
  - destruct (u_pull_ty _ _ _ T P) as [T1 T2]. eapply ug_thn; [apply safe_push_end; auto|auto|]. intros w' _ V' _. apply IH; auto.
  - split; [auto|exact I].
  - split; [auto|exact I].
Qed.
Section V.
Context {A : Type}.
Variable f : A -> wlock -> nat -> A * uaction.
Hypothesis Tf : forall s w i s' rm add stop, f s w i = (s', UContinue rm add stop) -> Forall (row_ty ts) add.
Lemma safe_loop fuel : forall n s w rug front back stopped, winv_n n w -> rug_ty rug -> back <= imax ->
  (pr = Debug -> n <= back + fuel) ->
  ug (winv_n n) (fun q => match q with Some p => rug_ty (fst p) | None => True end) (u_loop pr boom f fuel s w rug front back stopped).
Proof.
  induction fuel as [|fuel IH]; intros n s w rug front back stopped V T Lb Lf; cbn [u_loop].
  - destruct V as [V Ln]. rewrite Ln. destruct (Nat.ltb_spec back n); [|split; [split; auto|exact T]]. split; [split; auto|]. cbn.
    destruct pr; auto. specialize (Lf eq_refl). lia.
  - destruct (back <? t_len (w_tab w)); [|split; [auto|exact T]].
    assert (Go : forall sa rug stopped, rug_ty rug -> ug (winv_n n) (fun q => match q with Some p => rug_ty (fst p) | None => True end)
        match rid_next pr (t_imax (w_tab w)) back with
        | Err e => (w, Err e)
        | Ok back => thn (u_fill pr boom (back - front) w rug front back)
                         (fun w q => u_loop pr boom f fuel (@fst A uaction sa) w (fst q) (snd q) back stopped)
        end).
    { intros sa rg st Tr. rewrite (tinv_imax _ (proj1 V)). pose proof (good_rid_next pr imax back) as G. destruct (rid_next pr imax back) as [b|e]; cbn in G; [|split; auto].
      eapply ug_thn; [apply safe_fill; eauto|auto|]. intros w' q V' Hq. apply IH; auto; [apply G|].
      intro P. destruct G as [_ G]. specialize (G P). specialize (Lf P). lia. }
    pose proof (good_get (w_tab w) back (proj1 V) Lb) as Gr.
    destruct (if stopped then (s, UBreak) else f s w back) as [s' a] eqn:Ea. destruct a as [rm add stop| |]; cbn [snd fst].
    + assert (Ta : Forall (row_ty ts) add) by (destruct stopped; [discriminate|]; eapply Tf; eauto).
      destruct rm; [apply (Go (s', UBreak)); apply Forall_app; split; auto; constructor; auto|].
      destruct (t_get_row (w_tab w) back) as [r|e]; cbn in Gr; [|split; auto].
      apply (Go (s', UBreak)). apply Forall_app; split; [|constructor; auto]. apply Forall_app; split; auto.
    + destruct ((front =? back) && _); [split; [auto|exact I]|]. destruct (t_get_row (w_tab w) back) as [r|e]; cbn in Gr; [|split; auto].
      apply (Go (s', UBreak)). apply Forall_app; split; auto.
    + split; [auto|exact I].
Qed.
Lemma safe_visit s w : winv w -> ug winv (fun _ => True) (u_visit pr boom f s w).
Proof.
  intro V. unfold u_visit. eapply ug_thn; [eapply safe_loop with (n := t_len (w_tab w)); [split; auto|constructor|lia|lia]|intros ? []; auto|].
  intros w' [[rug front]|] [V' _] T; [|split; [auto|exact I]].
  eapply ug_thn; [apply safe_truncate; auto|auto|]. intros w2 _ V2 _. apply safe_pour; auto.
Qed.
End V.
Lemma safe_retain {A} (f : A -> wlock -> nat -> A * option bool) s w : winv w -> ug winv (fun _ => True) (u_retain pr boom f s w).
Proof.
  intro V. apply safe_visit; auto. intros s0 w0 i s' rm add stop H. cbn in H. destruct (f s0 w0 i) as [s1 [b|]]; cbn in H; inv H. constructor.
Qed.

(** ** merge *)
Section M.
Variable cmp : row -> row -> option comparison.
Context {A : Type}.
Variable log : A -> wlock -> nat -> option A.
Lemma u_take_ty rug iter stop : Forall (row_ty ts) rug -> Forall (row_ty ts) iter ->
  good pr (fun o => match o with Some (sd, v, rug, iter) => row_ty ts v /\ Forall (row_ty ts) rug /\ Forall (row_ty ts) iter | None => True end)
    (u_take cmp rug iter stop).
Proof.
  clear NE Q. intros T1 T2. unfold u_take. destruct T1 as [|r rug Hr T1], T2 as [|i iter Hi T2]; try (destruct stop; cbn; auto; fail).
  destruct (cmp r i) as [[]|]; cbn; auto 10.
Qed.
Lemma safe_merge_skip n : forall t first cursor, tinv t -> cursor <= imax -> (pr = Debug -> t_len t <= cursor + n) ->
  good pr (fun c => c <= imax) (u_merge_skip pr cmp n t first cursor).
Proof.
  induction n as [|n IH]; intros t first cursor V L Lf; cbn [u_merge_skip].
  - destruct (Nat.ltb_spec cursor (t_len t)); [|exact L]. cbn. destruct pr; auto. specialize (Lf eq_refl). lia.
  - destruct (cursor <? t_len t); [|exact L]. eapply good_bind; [apply good_get; auto|]. intros r _.
    destruct (cmp r first) as [[]|]; try exact L; [|exact I]. rewrite (tinv_imax _ V). eapply good_bind; [apply good_rid_next|].
    intros c [Lc G]. apply IH; auto. intro P. specialize (G P). specialize (Lf P). lia.
Qed.
Lemma good_log s sd w i : good pr (fun _ => True) (u_log log s sd w i).
Proof. unfold u_log. destruct sd; [exact I|]. destruct (log s w i); exact I. Qed.
Lemma safe_merge_shift cursors : forall n s w rug iter stop, winv_n n w -> Forall (row_ty ts) rug -> Forall (row_ty ts) iter ->
  ug (winv_n n) (fun q => Forall (row_ty ts) (snd (fst q)) /\ Forall (row_ty ts) (snd q)) (u_merge_shift boom cmp log cursors s w rug iter stop).
Proof.
  induction cursors as [|c cs IH]; intros n s w rug iter stop V T1 T2; cbn [u_merge_shift]; [split; [auto|split; auto]|].
  pose proof (u_take_ty rug iter stop T1 T2) as G. destruct (u_take cmp rug iter stop) as [[[[[sd v] rug'] iter']|]|e]; cbn in G; [|split; [auto|exact I]|split; auto].
  destruct G as (G1 & G2 & G3). eapply ug_thn; [apply safe_swap_out; eauto|auto|]. intros w' old V' To.
  pose proof (good_log s sd w' c) as Gl. destruct (u_log log s sd w' c); [|split; auto]. apply IH; auto. apply Forall_app; auto.
Qed.
Lemma safe_merge_tail n : forall s w rug iter stop, winv w -> Forall (row_ty ts) rug -> Forall (row_ty ts) iter ->
  ug winv (fun _ => True) (u_merge_tail boom cmp log n s w rug iter stop).
Proof.
  induction n as [|n IH]; intros s w rug iter stop V T1 T2; cbn [u_merge_tail]; [split; [auto|exact I]|].
  pose proof (u_take_ty rug iter stop T1 T2) as G. destruct (u_take cmp rug iter stop) as [[[[[sd v] rug'] iter']|]|e]; cbn in G; [|split; [auto|exact I]|split; auto].
  destruct G as (G1 & G2 & G3). eapply ug_thn; [apply safe_push_end; eauto|auto|]. intros w' i V' _.
  pose proof (good_log s sd w' i) as Gl. destruct (u_log log s sd w' i); [|split; auto]. apply IH; auto.
Qed.
Lemma good_collect fuel : forall it, (pr = Debug -> it_end it - it_i it < fuel) -> good pr (fun _ => True) (it_collect pr imax fuel it).
Proof.
  clear NE Q. induction fuel as [|n IH]; intros it L; cbn [it_collect]; [cbn; destruct pr; auto; specialize (L eq_refl); lia|].
  unfold it_next. destruct (Nat.leb_spec (it_end it) (it_i it)); [exact I|]. pose proof (good_rid_next pr imax (it_i it)) as G.
  destruct (rid_next pr imax (it_i it)) as [j|e]; cbn in *; [|exact G]. eapply good_bind; [apply IH|intros; exact I].
  intro P. specialize (L P). destruct G as [_ G]. specialize (G P). cbn. lia.
Qed.
Lemma safe_merge s w rows stop : winv w -> Forall (row_ty ts) rows -> ug winv (fun _ => True) (u_merge pr boom cmp log s w rows stop).
Proof.
  intros V T. destruct rows as [|first rest]; [split; [auto|apply good_stop]|]. unfold u_merge. rewrite (tinv_imax _ V).
  assert (G : good pr (fun _ => True) (let* cursor := u_merge_skip pr cmp (t_len (w_tab w)) (w_tab w) first 0 in
             let* e := rid_from_usize imax (t_len (w_tab w)) in
             it_collect pr imax (S (e - cursor)) (rr_iter_slow (RR cursor e)))).
  { eapply good_bind; [apply safe_merge_skip; auto; lia|]. intros c Lc. eapply good_bind; [apply good_from_usize|]. intros e _.
    apply good_collect. cbn. lia. }
  destruct (let* cursor := u_merge_skip pr cmp (t_len (w_tab w)) (w_tab w) first 0 in _) as [ids|e]; [|split; auto].
  eapply ug_thn; [eapply safe_merge_shift with (n := t_len (w_tab w)); [split; auto|constructor|exact T]|intros ? []; auto|].
  intros w' q [V' _] [T1 T2]. apply safe_merge_tail; auto.
Qed.
End M.

(** ** Bags *)
Lemma safe_bag_next w p : winv w -> ug (fun x => winv (fst x)) (fun _ => True) (u_bag_next pr umax boom w p).
Proof.
  intro V. destruct p as [[mark i] lst]. unfold u_bag_next. destruct (t_len (w_tab w) <=? i); [split; [auto|exact I]|].
  destruct mark.
  - destruct lst as [l|]; [|split; [auto|exact I]]. pose proof (good_from_usize pr (t_imax (w_tab w)) l) as G.
    destruct (rid_from_usize _ l); [|split; auto]. destruct (safe_delete w a V) as [D1 D2]. split; auto.
  - split; [auto|]. cbn. eapply good_bind; [apply good_from_usize|]. intros; exact I.
Qed.
Lemma safe_bag_drop w p : winv w -> ug winv (fun _ => True) (u_bag_drop pr umax boom w p).
Proof.
  intro V. unfold u_bag_drop. destruct (snd p) as [l|]; [|split; [auto|exact I]]. destruct (fst (fst p)); [|split; [auto|exact I]].
  pose proof (good_from_usize pr (t_imax (w_tab w)) l) as G. destruct (rid_from_usize _ l); [|split; auto]. apply safe_delete; auto.
Qed.
End Safe.

(** ** Programs *)
Lemma b_write_len b i v b' : b_write b i v = Ok b' -> bshape b' = bshape b /\ b_len b' = b_len b.
Proof.
  destruct b as [l|b]; cbn; intro H.
  - destruct (i <? length l); inv H. cbn. rewrite upd_length. auto.
  - bindn H x E. bindn H y E2. inv H. cbn. split; auto. unfold bc_write in E2. bindn E2 z E3. inv E2. unfold bc_store, bc_len. cbn.
    unfold bc_index_mut in E3. destruct (nth_error (bc_data (bc_flush b)) i); inv E3. cbn. apply bc_flush_len.
Qed.
Lemma b_write_ub pr b i v : bshape b = TBool \/ i < b_len b -> good pr (fun _ => True) (b_write b i v).
Proof.
  destruct b as [l|b]; cbn.
  - intros [H|H]; [discriminate|]. apply Nat.ltb_lt in H. rewrite H. exact I.
  - intros _. destruct v; cbn; try exact I. unfold bc_write, bc_index_mut. destruct (nth_error _ i); exact I.
Qed.
Section Run.
Variables (pr : profile) (umax : nat) (sch : schema).
Hypothesis NE : s_cols sch <> [].
Local Notation imax := (s_imax sch).
Local Notation ts := (s_cols sch).
Definition okay (u : ustate) : Prop :=
  match u with Live st => tinv sch (st_tab st) | Lost => True | Stuck => pr = Release | Undefined => False end.

Lemma okay_carry {A} st (P : A -> Prop) r : tinv sch (st_tab st) -> good pr P r -> okay (carry_on st (let* _ := r in Ok tt)).
Proof. intros V G. destruct r as [a|[]]; cbn in *; auto; contradiction. Qed.
Lemma okay_carry1 st r : tinv sch (st_tab st) -> good pr (fun _ => True) r -> okay (carry_on st r).
Proof. intros V G. destruct r as [a|[]]; cbn in *; auto; contradiction. Qed.
Lemma okay_go t r : tinv sch t -> good pr (fun _ => True) r -> okay (let_go t r).
Proof. intros V G. destruct r as [a|[]]; cbn in *; auto; contradiction. Qed.

Lemma same_upd cs k b b' : nth_error cs k = Some (CPlain b) -> bshape b' = bshape b -> b_len b' = b_len b ->
  Forall2 same_len cs (upd cs k (CPlain b')).
Proof.
  intros Ek B1 B2. revert k Ek. induction cs as [|c cs IH]; intros [|k] Ek; try discriminate; cbn in *.
  - inv Ek. constructor; [|apply same_all_refl]. split; unfold c_len; cbn; congruence.
  - constructor; auto using same_len_refl.
Qed.
Lemma safe_assign t k i v : tinv sch t -> good pr (tinv sch) (t_assign t k i v).
Proof.
  intro V. pose proof V as (E & S & C). unfold t_assign. destruct (nth_error (t_cols t) k) as [[b|b ix]|] eqn:Ek; try exact I.
  unfold c_set. destruct (Nat.leb_spec (c_len (CPlain b)) i); [exact I|]. cbn. unfold c_len in H. cbn in H.
  pose proof (b_write_ub pr b i v (or_intror H)) as G. destruct (b_write b i v) as [b'|e] eqn:Eb; cbn in *; [|exact G].
  destruct (b_write_len _ _ _ _ Eb) as [B1 B2].
  apply (tinv_same sch t _ V). eapply same_upd; eauto.
Qed.

Lemma safe_cell t k i : tinv sch t -> i <= imax -> good pr (fun _ => True) (u_cell t k i).
Proof.
  intros (E & S & C) L. unfold u_cell. destruct (nth_error (t_cols t) k) as [c|] eqn:Ek; [|exact I].
  eapply good_bind; [apply good_tcheck|]. intros j [-> Lj]. apply b_index_ub.
  pose proof (cinv_all imax (t_cols t) (Datatypes.S i) C Lj ltac:(lia)) as F. rewrite Forall_forall in F.
  apply (F c). eapply nth_error_In; eauto.
Qed.
Lemma safe_set_cell t k i v : tinv sch t -> i <= imax -> good pr (tinv sch) (u_set_cell t k i v).
Proof.
  intros V L. pose proof V as (E & S & C). unfold u_set_cell. destruct (nth_error (t_cols t) k) as [[b|b ix]|] eqn:Ek; try exact I.
  eapply good_bind; [apply good_tcheck|]. intros j [-> Lj]. cbn.
  assert (G : good pr (fun _ => True) (b_write b i v)).
  { apply b_write_ub. pose proof (cinv_all imax (t_cols t) (Datatypes.S i) C Lj ltac:(lia)) as F. rewrite Forall_forall in F.
    apply (F (CPlain b)). eapply nth_error_In; eauto. }
  destruct (b_write b i v) as [b'|e] eqn:Eb; cbn in *; [|exact G].
  destruct (b_write_len _ _ _ _ Eb) as [B1 B2]. apply (tinv_same sch t _ V). eapply same_upd; eauto.
Qed.

Lemma safe_plain st o : tinv sch (st_tab st) -> plain_call o = true -> ids_in imax o -> good pr (fun st' => tinv sch (st_tab st')) (step pr umax st o).
Proof.
  intros V Pc Io. unfold step. destruct (avail _ o); [|exact I].
  assert (R : good pr (fun _ => True) (read_op pr umax (st_tab st) o)) by (eapply (safe_read_op pr umax sch); eauto).
  destruct st as [t|w its]; cbn [st_tab] in *.
  - destruct o; try discriminate; try (eapply good_bind; [exact R|]; intros; exact V). exact V.
  - assert (G : good pr (fun p => winv sch (fst p)) (write_op pr umax w its o)).
    { destruct o; try discriminate; cbn [write_op]; try (eapply good_bind; [exact R|]; intros; exact V).
      - unfold next_pushed. eapply good_bind with (P := fun _ => True); [eapply good_bind; [apply good_from_usize|intros; exact I]|]. intros; exact V.
      - unfold t_editing, t_row_range. rewrite (tinv_imax _ _ V). pose proof (good_from_usize pr imax (t_len (w_tab w))) as G.
        destruct (rid_from_usize imax (t_len (w_tab w))) as [e|e]; cbn in *; [|exact G]. destruct G as [-> G].
        eapply good_bind; [apply good_cons_run|]. intros l Hl. cbn in Hl. eapply good_bind; [eapply (good_plain pr sch); eauto|]. intros; exact V.
      - eapply good_bind; [eapply good_bind; [apply safe_assign; exact V|]|].
        + intros t Ht. instantiate (1 := winv sch). exact Ht.
        + intros w' Hw. exact Hw.
      - exact V.
      - exact V.
      - cbn. apply winv_clear; auto.
      - cbn. apply winv_clear_raw; auto.
      - exact V.
      - destruct (nth_error its k); [exact V|exact I]. }
    destruct o; try discriminate; try (destruct its); try exact I; (eapply good_bind; [exact G|]; intros; auto).
Qed.

Lemma okay_flush boom srt tp w ev : ((forall k m, boom k m = false) \/ (forall b n m, boom (VBool b, n) m = false) /\ index_last sch) -> winv sch w ->
  (pr = Debug \/ s_kind sch <> Bag \/ ev_removal ev = false) -> okay (u_flush pr umax boom srt tp w ev).
Proof.
  intros Q V H. unfold u_flush. destruct (sel_empty (w_changes w)); [exact V|].
  destruct (let* _ := flush_check _ _ _ in _); [|exact V].
  destruct (safe_flush_apply pr umax sch boom Q (w_new (w_tab w)) ev (if srt then sel_sort (w_changes w) else w_changes w) V H) as [A B].
  apply okay_go; auto.
Qed.
Lemma okay_remove boom srt tp w ev rows : ((forall k m, boom k m = false) \/ (forall b n m, boom (VBool b, n) m = false) /\ index_last sch) -> winv sch w -> s_kind sch <> Bag ->
  okay (u_remove_rows pr umax boom srt tp w ev rows).
Proof.
  intros Q V K. unfold u_remove_rows.
  match goal with |- context [match snd ?x with _ => _ end] => assert (G : ug pr (winv sch) (fun _ => True) x); [|destruct x as [w' [u|e]]; destruct G as [G1 G2]] end.
  - destruct rows as [|rows]; [split; [apply winv_clear, winv_clear_raw, V|exact I]|].
    assert (E1 : ug pr (winv sch) (fun _ => True) (u_sorted_remove boom w rows)) by (apply safe_sorted_remove; auto).
    assert (E2 : ug pr (winv sch) (fun _ => True) (u_delete_rows pr umax boom w rows)) by (apply safe_delete_rows; auto).
    destruct (t_kind (w_tab w)); auto.
  - apply okay_flush; auto.
  - apply okay_go; auto.
Qed.

Lemma okay_step boom st o : ((forall k m, boom k m = false) \/ (forall b n m, boom (VBool b, n) m = false) /\ index_last sch) -> tinv sch (st_tab st) -> uop_ok sch o ->
  (pr = Debug \/ s_kind sch <> Bag \/ removal_flush (calm o) = false) -> okay (ustep pr umax st (boom, o)).
Proof.
  intros Q V [To Io] H. unfold ustep. destruct (avail (t_kind (st_tab st)) (calm o)) eqn:Av; [|exact V].
  destruct o as [o| | | | | | | | | | | | | | | |]; cbn [calm op_ty ids_in removal_flush] in *.
  - destruct (plain_call o) eqn:P; [|destruct st as [t|w []]; exact V]. pose proof (safe_plain st o V P Io) as G.
    assert (X : okay match step pr umax st o with Ok st' => Live st' | Err e => carry_on st (Err e) end).
    { destruct (step pr umax st o) as [st'|e]; [exact G|]. apply okay_carry1; auto. }
    destruct st as [t|w []]; exact X.
  - destruct st as [t|w its]; [exact V|]. destruct (safe_push pr sch boom NE Q w r V To) as [A B].
    assert (X : okay (carry_on (Locked (fst (u_push boom w r)) its) (snd (drop_res (u_push boom w r))))).
    { apply okay_carry1; [exact A|]. apply (ug_drop pr (winv sch) _ _ (conj A B)). }
    destruct its; exact X.
  - destruct st as [t|w its]; [exact V|]. destruct (safe_push_all pr sch boom NE Q w rs stop V To) as [A B].
    assert (X : okay (carry_on (Locked (fst (u_push_all boom w rs stop)) its) (snd (u_push_all boom w rs stop)))) by (apply okay_carry1; auto).
    destruct its; exact X.
  - destruct st as [t|w its]; [exact V|]. destruct (safe_push_array pr sch boom NE Q w rs stop V To) as [A B].
    assert (X : okay (carry_on (Locked (fst (u_push_array pr boom w rs stop)) its) (snd (drop_res (u_push_array pr boom w rs stop))))).
    { apply okay_carry1; [exact A|]. apply (ug_drop pr (winv sch) _ _ (conj A B)). }
    destruct its; exact X.
  - destruct st as [t|w its]; [exact V|]. destruct (safe_delete pr umax sch boom w i V) as [A B].
    assert (X : okay (carry_on (Locked (fst (u_delete pr umax boom w i)) its) (snd (u_delete pr umax boom w i)))) by (apply okay_carry1; auto).
    destruct its; exact X.
  - destruct st as [t|w its]; [exact V|]. destruct (safe_live_flush pr umax sch boom Q w srt tp ev V H) as [A B].
    assert (X : okay (carry_on (Locked (fst (u_live_flush pr umax boom srt tp w ev)) its) (snd (u_live_flush pr umax boom srt tp w ev)))) by (apply okay_carry1; auto).
    destruct its; exact X.
  - destruct st as [t|w its]; [exact V|]. destruct (safe_sorted_remove pr sch boom w rows V) as [A B].
    assert (X : okay (carry_on (Locked (fst (u_sorted_remove boom w rows)) its) (snd (u_sorted_remove boom w rows)))) by (apply okay_carry1; auto).
    destruct its; exact X.
  - destruct st as [t|w its]; [exact V|]. destruct (safe_retain pr umax sch boom NE Q f s w V) as [A1 B].
    assert (X : okay (carry_on (Locked (fst (u_retain pr boom f s w)) its) (snd (u_retain pr boom f s w)))) by (apply okay_carry1; auto).
    destruct its; exact X.
  - destruct st as [t|w its]; [exact V|].
    assert (Tf : forall s w i s' rm add stop, f s w i = (s', UContinue rm add stop) -> Forall (row_ty ts) add).
    { intros s0 w0 i s' rm add stop Ef. eapply (To s0 w0 i s' rm add). rewrite Ef. reflexivity. }
    destruct (safe_visit pr umax sch boom NE Q f Tf s w V) as [A1 B].
    assert (X : okay (carry_on (Locked (fst (u_visit pr boom f s w)) its) (snd (u_visit pr boom f s w)))) by (apply okay_carry1; auto).
    destruct its; exact X.
  - destruct st as [t|w its]; [exact V|]. destruct (safe_merge pr umax sch boom NE Q cmp log s w rows stop V To) as [A1 B].
    assert (X : okay (carry_on (Locked (fst (u_merge pr boom cmp log s w rows stop)) its) (snd (u_merge pr boom cmp log s w rows stop)))) by (apply okay_carry1; auto).
    destruct its; exact X.
  - destruct st as [t|w its]; [exact V|].
    assert (X : okay match nth_error its k with
        | Some q => let p := u_bag_next pr umax boom w q in carry_on (Locked (fst (fst p)) (upd its k (snd (fst p)))) (snd p)
        | None => Live (Locked w its) end).
    { destruct (nth_error its k) as [q|]; [|exact V]. destruct (safe_bag_next pr umax sch boom w q V) as [A B]. apply okay_carry1; auto. }
    destruct its; exact X.
  - destruct st as [t|w its]; [exact V|].
    assert (X : okay match nth_error its k with
        | Some q => let p := u_bag_drop pr umax boom w q in carry_on (Locked (fst p) (firstn k its ++ skipn (S k) its)) (snd p)
        | None => Live (Locked w its) end).
    { destruct (nth_error its k) as [q|]; [|exact V]. destruct (safe_bag_drop pr umax sch boom w q V) as [A B]. apply okay_carry1; auto. }
    destruct its; exact X.
  - assert (X : okay (carry_on st (let* _ := u_cell (st_tab st) k i in Ok tt))) by (eapply okay_carry; [exact V|apply safe_cell; auto]).
    destruct st as [t|w []]; exact X.
  - destruct st as [t|w its]; [exact V|]. pose proof (safe_set_cell (w_tab w) k i v V Io) as G.
    assert (X : okay match u_set_cell (w_tab w) k i v with Ok t => Live (Locked (with_tab w t) its) | Err e => carry_on (Locked w its) (Err e) end).
    { destruct (u_set_cell (w_tab w) k i v) as [t|e]; [exact G|]. apply okay_carry1; auto. }
    destruct its; exact X.
  - destruct st as [t|w []]; try exact V. unfold w_drop. destruct (_ && _); cbn; auto.
  - destruct st as [t|w []]; try exact V. apply okay_flush; auto.
  - assert (K : s_kind sch <> Bag).
    { destruct V as (E & _). unfold t_kind in Av. rewrite E in Av. intro K. rewrite K in Av. discriminate. }
    destruct st as [t|w []]; try exact V; [|destruct (t_kind (w_tab w)) eqn:Kw; try exact V]; apply okay_remove; auto.
Qed.

Lemma okay_run l : forall u, okay u -> Forall (fun c => uop_ok sch (snd c)) l -> harmless_calls pr sch l ->
  (Forall no_ord_panic l \/ Forall ord_ok l /\ index_last sch) -> okay (fold_left (ustep_all pr umax) l u).
Proof.
  induction l as [|[boom o] l IH]; intros u V T H N; cbn [fold_left]; auto. inv T. apply IH; auto.
  - destruct u as [st| | |]; cbn in *; auto. apply okay_step; auto.
    + destruct N as [N|[N1 N2]]; inv N || inv N1; [left; auto|right; split; auto]. intros b n m. apply (H4 (VBool b)).
    + destruct H as [H|[H|H]]; auto. inv H. auto.
  - destruct H as [H|[H|H]]; [left; auto|right; left; auto|right; right; inv H; auto].
  - destruct N as [N|[N1 N2]]; [left; inv N; auto|right; inv N1; auto].
Qed.
End Run.

Theorem unwind_safe pr umax sch l : s_cols sch <> [] -> Forall (fun c => uop_ok sch (snd c)) l -> harmless_calls pr sch l ->
  (Forall no_ord_panic l \/ Forall ord_ok l /\ index_last sch) ->
  urun pr umax (Free (t_new sch)) l <> Undefined /\ (urun pr umax (Free (t_new sch)) l = Stuck -> pr = Release).
Proof.
  intros NE T H N. pose proof (okay_run pr umax sch NE l (Live (Free (t_new sch))) (new_inv sch) T H N) as O.
  fold (urun pr umax (Free (t_new sch)) l) in O. destruct (urun pr umax (Free (t_new sch)) l); cbn in O; split; auto; try discriminate.
Qed.
