(** Proofs: a table is only replaced by what was made of its current rows. *)
From Coq Require Import List Arith Bool Lia Sorting.Sorted Sorting.Permutation.
From Verif Require Import Base BaseFacts Names Column ColumnFacts Order RowRange Table Visit SortedTab BagTab TableSpec TableFacts
  SortedFacts BagFacts Hist HistFacts TableProps RowProps Events Cascade CascadeSpec Extract RestoreFacts Threads ThreadSpec ThreadSeq ThreadFacts ThreadSafe ThreadReads.
Import ListNotations.

(** ** What removals and restoring do *)
Section Change.
Variables (pr : profile) (umax : nat) (s : schema).
Hypothesis nobag : pr = Debug \/ s_kind s <> Bag.
Lemma fewer_none t t' live' : tg false s t -> t_sch t' = s -> t_ok t' live' [] -> fewer t t'.
Proof.
  intros (E & live & rows & K & _) E' K'. unfold fewer. assert (Ek : t_kind t' = t_kind t) by (unfold t_kind; congruence).
  destruct (t_kind t) eqn:Kt.
  2:{ intros j r H. apply (t_get_row_inv _ _ _ K') in H. destruct H as [H _]. destruct j; discriminate. }
  4:{ intros r0 H. exists (seq 0 (length r0)). replace (without 0 r0 (seq 0 (length r0))) with (@nil row); [eapply holds_of; [exact K'|congruence]|].
    assert (G : forall l ids i, (forall j, i <= j < i + length l -> In j ids) -> [] = without (A := row) i l ids).
    { clear. induction l as [|a l IH]; intros ids i H; cbn [without]; [reflexivity|].
      assert (M : mem i ids = true) by (apply mem_In; apply H; cbn; lia). rewrite M. apply IH. intros j Hj. apply H. cbn. lia. }
    apply G. intros j Hj. apply in_seq. lia. }
  all: intros r0 H; exists [], r0; split; [eapply holds_of; [exact K'|congruence]|reflexivity].
Qed.
Lemma swap_remove_perm {A} (l : list A) i : l <> [] -> exists x, Permutation l (swap_remove l i ++ [x]).
Proof.
  intro N. destruct (lt_dec i (length l)) as [L|L].
  - destruct (nth_error_lt_Some _ _ L) as [x Hx]. exists x. destruct (swap_remove_spec l i x Hx) as [P _]. rewrite <- Permutation_cons_append. exact P.
  - assert (L1 : length l - 1 < length l) by (destruct l; [congruence|cbn; lia]). destruct (nth_error_lt_Some _ _ L1) as [x Hx]. exists x.
    destruct (swap_remove_spec l (length l - 1) x Hx) as [P _].
    assert (E : swap_remove l i = swap_remove l (length l - 1)).
    { unfold swap_remove. destruct (Nat.ltb_spec i (length l - 1)); [lia|]. rewrite Nat.ltb_irrefl. reflexivity. }
    rewrite E, <- Permutation_cons_append. exact P.
Qed.
Lemma bag_raws n ids : s_kind s = Bag -> forall w w' live rows, t_sch (w_tab w) = s -> t_ok (w_tab w) live rows ->
  fold_res (fun w i => let* _ := assert_ (i <? n) PRemoveRange in delete_raw pr umax w i) ids w = Ok w' ->
  t_sch (w_tab w') = s /\ exists left gone live', t_ok (w_tab w') live' left /\ Permutation rows (left ++ gone).
Proof.
  intro Kb. induction ids as [|i ids IH]; intros w w' live rows Es K H.
  - cbn in H. inv H. split; auto. exists rows, [], live. rewrite app_nil_r. auto.
  - cbn [fold_res] in H. bindn H w1 H1. bindn H1 u1 H2. assert (Kw : t_kind (w_tab w) = Bag) by (unfold t_kind; congruence).
    destruct rows as [|r0 rows0].
    { destruct nobag as [->|Z]; [|congruence]. rewrite (delete_raw_bag_empty umax w live i K Kw) in H1. discriminate. }
    destruct (delete_raw_bag_ok pr umax w live _ i K Kw ltac:(discriminate)) as (cs & E1 & K1). rewrite E1 in H1. injection H1 as <-.
    destruct (IH (with_tab w (with_cols (w_tab w) cs)) _ _ _ Es K1 H) as (E' & left & gone & live' & K' & P). split; [exact E'|].
    destruct (swap_remove_perm (r0 :: rows0) i ltac:(discriminate)) as [x Px]. exists left, (gone ++ [x]), live'. split; [exact K'|].
    rewrite app_assoc, <- P. exact Px.
Qed.
Lemma raws_fewer n ids w w' : tg false s (w_tab w) -> n = t_len (w_tab w) ->
  fold_res (fun w i => let* _ := assert_ (i <? n) PRemoveRange in delete_raw pr umax w i) ids w = Ok w' ->
  w_tab w' = w_tab w \/ fewer (w_tab w) (w_tab w').
Proof.
  intros (E & live & rows & K & _) -> H. destruct ids as [|i ids]; [cbn in H; inv H; auto|]. right.
  unfold fewer. destruct (t_kind (w_tab w)) eqn:Kt.
  1,4,5: exfalso; cbn [fold_res] in H; bindn H w1 H1; bindn H1 u1 H2; unfold delete_raw in H1; rewrite Kt in H1; discriminate.
  - pose proof (delete_raws_inv _ _ _ _ _ _ H) as F. rewrite (t_len_ok _ _ _ K) in *.
    destruct (delete_raws_exact pr umax rows (i :: ids) w live K Kt F) as (w1 & E1 & K1 & S1 & M1 & _). rewrite E1 in H. inv H.
    intros j r G. apply (t_get_row_inv _ _ _ K1) in G. destruct G as [G1 G2]. apply (t_get_row_inv _ _ _ K). split; [exact G1|].
    rewrite (t_deleted_iff _ _ _ K1), M1 in G2. apply orb_false_iff in G2. rewrite (t_deleted_iff _ _ _ K). tauto.
  - assert (Kb : s_kind s = Bag) by (unfold t_kind in Kt; congruence). destruct (bag_raws _ _ Kb _ _ _ _ E K H) as (E' & left & gone & live' & K' & P).
    intros r0 H0. assert (r0 = rows) as -> by (eapply holds_unique; [exact H0|eapply holds_of; [exact K|congruence]]). exists left, gone. split; [|exact P].
    eapply holds_of; [exact K'|]. unfold t_kind. rewrite E', Kb. discriminate.
Qed.
Lemma apply_fewer w ev sel w' : tg false s (w_tab w) -> flush_apply pr umax w ev sel = Ok w' ->
  w_tab w' = w_tab w \/ fewer (w_tab w) (w_tab w').
Proof.
  intros G H. unfold flush_apply in H. destruct (ev_removal ev && _); [|inv H; auto]. destruct sel as [|ids].
  - right. inv H. destruct G as (E & live & rows & K & X). eapply fewer_none; [split; eauto|exact E|]. exact (clear_raw_ok w live rows live K).
  - eapply raws_fewer; eauto.
Qed.
Lemma cleared_fewer w : tg false s (w_tab w) -> fewer (w_tab w) (w_tab (clear (clear_raw w))).
Proof.
  intro G. assert (G0 := G). destruct G as (E & live & rows & K & X). assert (K1 := clear_raw_ok w live rows live K). assert (K2 := clear_raw_ok _ _ _ live K1).
  unfold clear, event_cleared. destruct (t_kind (w_tab (clear_raw w))); (eapply fewer_none; [exact G0|exact E|first [exact K2|exact K1]]).
Qed.
Lemma sorted_fewer w ids w' : tg false s (w_tab w) -> s_kind s = Sorted -> sorted_remove_rows w ids = Ok w' -> fewer (w_tab w) (w_tab w').
Proof.
  intros (E & live & rows & K & _) Ks H. assert (Kt : t_kind (w_tab w) = Sorted) by (unfold t_kind; congruence). unfold fewer. rewrite Kt. intros r0 H0.
  assert (r0 = rows) as -> by (eapply holds_unique; [exact H0|eapply holds_of; [exact K|congruence]]).
  assert (Nc : t_kind (w_tab w) <> Consistent) by congruence.
  destruct ids as [|i ids].
  { cbn in H. inv H. exists []. replace (without 0 rows []) with rows; [exact H0|]. clear. generalize 0. induction rows; intro i; simpl; congruence. }
  destruct (sorted_remove_rows_ok w live rows (i :: ids) K Nc) as [A B].
  assert (D : {StronglySorted lt (i :: ids) /\ Forall (fun j => j < length rows) (i :: ids)} + {~ (StronglySorted lt (i :: ids) /\ Forall (fun j => j < length rows) (i :: ids))}).
  { destruct (rm_check (i :: ids)) as [u|e] eqn:C.
    - destruct (Forall_dec (fun j => j < length rows) (fun j => lt_dec j (length rows)) (i :: ids)) as [F|F]; [left|right; tauto].
      split; [|exact F]. apply rm_check_iff. destruct u. exact C.
    - right. intros [S _]. apply rm_check_iff in S. congruence. }
  destruct D as [[S F]|N].
  - destruct (A S F) as (w1 & E1 & Fr & K1). rewrite E1 in H. inv H. exists (i :: ids). eapply holds_of; [exact K1|]. rewrite (VisitFacts.frame_kind _ _ Fr). congruence.
  - destruct (B ltac:(discriminate) N) as [c Ec]. rewrite Ec in H. discriminate.
Qed.
End Change.
Section More.
Variables (pr : profile) (s : schema).
Lemma more_refl cmp t : more cmp t t.
Proof. unfold more. destruct (t_kind t); auto. intros rows H. exists rows, []. rewrite app_nil_r. auto. Qed.
Lemma more_trans cmp a b c : t_kind b = t_kind a -> more cmp a b -> more cmp b c -> more cmp a c.
Proof.
  unfold more. intros E. rewrite E. destruct (t_kind a); auto. intros A B rows H. destruct (A _ H) as (r1 & n1 & H1 & P1 & A1). destruct (B _ H1) as (r2 & n2 & H2 & P2 & A2).
  exists r2, (n1 ++ n2). split; [exact H2|]. split; [rewrite app_assoc; rewrite P1; exact P2|auto].
Qed.
Lemma good_and {A} (P Q : A -> Prop) (x : res A) : good pr P x -> (forall a, x = Ok a -> Q a) -> good pr (fun a => P a /\ Q a) x.
Proof. destruct x; cbn; auto. Qed.
Lemma push_more cmp w r w' i : tg false s (w_tab w) -> s_kind s <> Sorted -> row_ty (s_cols s) r -> push w r = Ok (w', i) -> more cmp (w_tab w) (w_tab w').
Proof.
  intros (E & live & rows & K & _) Nk T H. pose proof (push_full_spec w live rows r K) as Sp. rewrite E in Sp. specialize (Sp T). cbv zeta in Sp. rewrite H in Sp.
  destruct Sp as (_ & Hi & Hj & _). unfold more, t_kind. rewrite E.
  assert (G : forall j r0, t_get_row (w_tab w) j = Ok r0 -> t_get_row (w_tab w') j = Ok r0).
  { intros j r0 G. destruct (Nat.eq_dec j i) as [->|Ne].
    - exfalso. assert (C : t_contains (w_tab w) i = false) by (pose proof (push_full_spec w live rows r K) as Sp; rewrite E in Sp; specialize (Sp T); cbv zeta in Sp; rewrite H in Sp; tauto).
      apply (t_get_row_inv _ _ _ K) in G. destruct G as [G1 G2]. rewrite (t_deleted_iff _ _ _ K) in G2.
      assert (C' : t_contains (w_tab w) i = true) by (apply (contains_iff _ _ _ K); split; [apply nth_error_Some; congruence|exact G2]). congruence.
    - destruct (Hj j Ne) as [Hr _]. rewrite Hr. exact G. }
  destruct (s_kind s); try exact G. congruence.
Qed.
Lemma merge_more {L} cmp (log : L -> wlock -> nat -> L) s0 w rows q : tg false s (w_tab w) -> s_kind s = Sorted -> Forall (row_ty (s_cols s)) rows ->
  (total_preorder cmp -> ascending cmp rows) -> merge_logged pr cmp log s0 w rows = Ok q -> more cmp (w_tab w) (w_tab (snd q)).
Proof.
  intros G Ks T Ar H. destruct rows as [|first rest]; [cbn in H; injection H as <-; apply more_refl|].
  destruct G as (E & live & rs & K & _). assert (Kt : t_kind (w_tab w) = Sorted) by (unfold t_kind; congruence).
  assert (Nc : t_kind (w_tab w) <> Consistent) by congruence. pose proof (t_ok_all_live _ _ _ Nc K) as K1.
  assert (Le : length rs <= t_imax (w_tab w)).
  { unfold merge_logged in H. bindn H cu H1. bindn H e0 H2. unfold rid_from_usize in H2. rewrite (t_len_ok _ _ _ K) in H2.
    destruct (Nat.leb_spec (length rs) (t_imax (w_tab w))); [assumption|discriminate]. }
  assert (T' : Forall (row_ty (s_cols (t_sch (w_tab w)))) (first :: rest)) by (rewrite E; exact T).
  pose proof (merge_logged_ok pr cmp log s0 w rs first rest Nc K1 Le T') as M. destruct (_ <=? _); [|rewrite M in H; discriminate].
  destruct M as (w' & tr & M & Fr & K' & _). rewrite M in H. injection H as <-. cbn [snd]. unfold more. rewrite Kt. intros r0 H0.
  assert (r0 = rs) as -> by (eapply holds_unique; [exact H0|eapply holds_of; [exact K1|exact Nc]]).
  exists (merged cmp rs first rest), (first :: rest). split; [|split; [apply merged_perm|intros Tp Aw; apply merged_asc; auto]]. eapply holds_of; [exact K'|]. rewrite (VisitFacts.frame_kind _ _ Fr). exact Nc.
Qed.
End More.
Lemma extract_more pr (umax : nat) foreign order (sch : nat -> schema) fl p nt w e s : tg false (sch p) (w_tab w) ->
  Forall2 (fun ty c => Forall (v_ty (ct_base ty)) (c_into_iter c)) (s_cols (sch p)) (ex_data e) ->
  merge_extract pr foreign order fl p nt w e = Ok s -> more (order p) (w_tab w) (w_tab (fst s)).
Proof.
  intros G T H.
  assert (T' : Forall2 (fun ty l => Forall (v_ty (ct_base ty)) l) (s_cols (sch p)) (map c_into_iter (ex_data e))) by (clear - T; induction T; cbn [map]; constructor; auto).
  set (P := fun w' : wlock => tg false (sch p) (w_tab w') /\ more (order p) (w_tab w) (w_tab w')).
  assert (P0 : P w) by (split; [exact G|apply more_refl]).
  assert (Go : good pr (fun s => P (fst s)) (merge_extract pr foreign order fl p nt w e)).
  2:{ rewrite H in Go. apply Go. }
  clear H s.
  assert (Tr : forall w1 w2, P w1 -> tg false (sch p) (w_tab w2) -> more (order p) (w_tab w1) (w_tab w2) -> P w2).
  { intros w1 w2 [G1 M1] G2 M2. split; [exact G2|]. eapply more_trans; [|exact M1|exact M2]. rewrite (tg_kind _ _ _ G1), (tg_kind _ _ _ G). reflexivity. }
  unfold merge_extract. rewrite (tg_kind _ _ _ G). cbv zeta.
  assert (Pushes : s_kind (sch p) <> Sorted -> good pr (fun s : wlock * list (nat * nat) => P (fst s))
     (for_rows (fun s i r => let* r0 := update_row foreign fl p r in let* q := push (fst s) r0 in
        Ok (fst q, if nt then snd s else snd s ++ [(i, snd q)])) (ex_sel e) (map c_into_iter (ex_data e)) (w, []))).
  { intro Ns. eapply for_rows_good; [|exact T'|exact P0]. intros s i r Gs R. eapply good_bind; [eapply update_row_good; exact R|].
    intros r' R'. eapply good_bind; [eapply good_and; [apply (good_push_tg pr umax false (sch p)); [apply Gs|exact R']|intros q Hq; exact Hq]|].
    cbv beta. intros [w' i'] [G1 Hq]. cbn [good fst]. eapply Tr; [exact Gs|exact G1|]. eapply (push_more (sch p)); [exact (proj1 Gs)|exact Ns|exact R'|exact Hq]. }
  destruct (s_kind (sch p)) eqn:Ks; try (apply Pushes; congruence).
  assert (Nc : s_kind (sch p) <> Consistent) by congruence. destruct nt.
  - eapply good_bind with (P := Forall (row_ty (s_cols (sch p)))).
    { eapply for_rows_good; [|exact T'|constructor]. intros s i r Gs R. cbn [good]. apply Forall_app; auto. }
    intros rows R. eapply good_bind with (P := P); [|intros w' Gw; exact Gw].
    unfold merge_vec, merge. eapply good_bind with (P := fun q : unit * wlock => P (snd q)); [|intros q Gq; exact Gq].
    eapply good_impl; [eapply good_and; [apply (good_tg pr false (sch p) (@snd unit wlock)); [exact Nc|]; apply (good_merge_logged pr _ _ (sch p)); [exact (tg_good _ _ _ G)|];
      apply sort_rows_ty; exact R|intros q Hq; exact Hq]|].
    cbv beta. intros q [G1 Hq]. eapply Tr; [exact P0|exact G1|]. eapply (merge_more pr (sch p)); [exact G|exact Ks|apply sort_rows_ty; exact R|intro Tp; apply sort_rows_asc; exact Tp|exact Hq].
  - eapply for_rows_good; [|exact T'|exact P0]. intros s i r Gs R. eapply good_bind; [eapply update_row_good; exact R|].
    intros r' R'. unfold merge_in_a_single_row.
    eapply good_bind with (P := fun q : wlock * nat => P (fst q)); [|intros q Gq; exact Gq].
    eapply good_bind with (P := fun q : list nat * wlock => P (snd q)).
    + eapply good_impl; [eapply good_and; [apply (good_tg pr false (sch p) (@snd (list nat) wlock)); [exact Nc|];
        apply (good_merge_logged pr _ _ (sch p)); [exact (tg_good _ _ _ (proj1 Gs))|auto]|intros q Hq; exact Hq]|].
      cbv beta. intros q [G1 Hq]. eapply Tr; [exact Gs|exact G1|]. eapply (merge_more pr (sch p)); [exact (proj1 Gs)|exact Ks|constructor; [exact R'|constructor]|intros _; repeat constructor|exact Hq].
    + intros q Gq. destruct (fst q) as [|i0 [|? ?]]; try exact I. exact Gq.
Qed.

(** ** The tables that a thread has locked for writing *)
Definition hold := list (nat * option table).
Definition agrees (h : hold) (x : xuni) : Prop := Forall (fun e => nth_error (u_tabs (xu_u x)) (fst e) = snd e) h.
Definition h_drop (p : nat) (h : hold) : hold := filter (fun e => negb (fst e =? p)) h.
Lemma h_drop_out p h : ~ In p (map fst h) -> h_drop p h = h.
Proof.
  induction h as [|[q v] h IH]; cbn; [reflexivity|]. intro N. destruct (Nat.eqb_spec q p) as [->|Ne]; [tauto|]. cbn [negb]. f_equal. apply IH. tauto.
Qed.
Section Val.
Variables (pr : profile) (umax : nat) (has : nat -> Prop) (sch : nat -> schema).
Hypothesis nobag : forall p, pr = Debug \/ s_kind (sch p) <> Bag.
Variable R : nat -> table -> table -> Prop.
Hypothesis R_fewer : forall p t t', fewer t t' -> R p t t'.
Notation inv := (inv has sch).
Definition turns (x y : xuni) : Prop := forall p t t', nth_error (u_tabs (xu_u x)) p = Some t -> nth_error (u_tabs (xu_u y)) p = Some t' -> t' = t \/ R p t t'.
Fixpoint vp {A} (m : prog A) (h : hold) (Q : hold -> A -> Prop) : Prop :=
  match m with
  | Ret (Ok a) => Q h a
  | Ret (Err _) | Endless => True
  | Acq l wr k => match l, wr with LT p, true => ~ In p (map fst h) -> forall v, vp k ((p, v) :: h) Q | _, _ => vp k h Q end
  | Rel l wr k => match l, wr with LT p, true => vp k (h_drop p h) Q | _, _ => vp k h Q end
  | Act f k => forall x, inv x -> agrees h x -> turns x (fst (f x)) /\
      exists h', map fst h' = map fst h /\ agrees h' (fst (f x)) /\ vp (k (snd (f x))) h' Q
  end.
Lemma vp_bind {A B} (m : prog A) (f : A -> prog B) : forall h Q, vp m h (fun h a => vp (f a) h Q) -> vp (pbind m f) h Q.
Proof.
  induction m as [r| |l wr k IH|l wr k IH|C a k IH]; intros h Q H; cbn [pbind vp] in *; auto.
  - destruct r; exact H.
  - destruct l, wr; auto.
  - destruct l, wr; auto.
  - intros x Ix Ax. destruct (H x Ix Ax) as (T & h' & E & A' & V). split; [exact T|]. exists h'. auto.
Qed.
Lemma vp_mono {A} (m : prog A) : forall h (Q S : hold -> A -> Prop), (forall h a, Q h a -> S h a) -> vp m h Q -> vp m h S.
Proof.
  induction m as [r| |l wr k IH|l wr k IH|C a k IH]; intros h Q S QS H; cbn [vp] in *; eauto.
  - destruct r; auto.
  - destruct l, wr; eauto.
  - destruct l, wr; eauto.
  - intros x Ix Ax. destruct (H x Ix Ax) as (T & h' & E & A' & V). split; [exact T|]. exists h'. eauto.
Qed.
Lemma vp_write p h (Q : hold -> unit -> Prop) : (~ In p (map fst h) -> forall v, Q ((p, v) :: h) tt) -> vp (take_lock (LT p) true) h Q.
Proof. intro H. exact H. Qed.
Lemma vp_written p v h (Q : hold -> unit -> Prop) : ~ In p (map fst h) -> Q h tt -> vp (give_lock (LT p) true) ((p, v) :: h) Q.
Proof. intros N H. unfold give_lock. cbn [vp h_drop filter fst]. rewrite Nat.eqb_refl. cbn [negb]. fold (h_drop p h). rewrite h_drop_out by exact N. exact H. Qed.
Lemma vp_take p h (Q : hold -> unit -> Prop) : Q h tt -> vp (take_lock (LT p) false) h Q.
Proof. auto. Qed.
Lemma vp_give p h (Q : hold -> unit -> Prop) : Q h tt -> vp (give_lock (LT p) false) h Q.
Proof. auto. Qed.
Lemma vp_takef p wr h (Q : hold -> unit -> Prop) : Q h tt -> vp (take_lock (LF p) wr) h Q.
Proof. auto. Qed.
Lemma vp_givef p wr h (Q : hold -> unit -> Prop) : Q h tt -> vp (give_lock (LF p) wr) h Q.
Proof. auto. Qed.
Lemma vp_lift {A} (r : res A) h (Q : hold -> A -> Prop) : (forall a, r = Ok a -> Q h a) -> vp (lift r) h Q.
Proof. intro H. unfold lift. cbn. destruct r; auto. Qed.
Lemma turns_refl x : turns x x.
Proof. intros p t t' E E'. left. congruence. Qed.
Lemma vp_still {A B} (f : xuni -> xuni * B) (k : B -> prog A) h Q : (forall x, u_tabs (xu_u (fst (f x))) = u_tabs (xu_u x)) ->
  (forall x, inv x -> vp (k (snd (f x))) h Q) -> vp (Act f k) h Q.
Proof.
  intros E H x Ix Ax. split; [intros p t t'; rewrite E; apply turns_refl|]. exists h. split; [reflexivity|]. split; [|auto].
  unfold agrees. rewrite E. exact Ax.
Qed.
Lemma vp_look {B} (f : universe -> B) h (Q : hold -> B -> Prop) : (forall b, Q h b) -> vp (look f) h Q.
Proof. intro H. apply vp_still; [reflexivity|]. intros x _. apply H. Qed.
Lemma vp_say n h (Q : hold -> unit -> Prop) : Q h tt -> vp (change (fun u => u_say u n)) h Q.
Proof. intro H. apply vp_still; [reflexivity|]. intros x _. exact H. Qed.
Lemma vp_get p v h (Q : hold -> table -> Prop) : (forall t, v = Some t -> has p -> tg false (sch p) t -> Q ((p, v) :: h) t) -> vp (get_tab p) ((p, v) :: h) Q.
Proof.
  intro H. apply vp_bind. intros x Ix Ax. split; [apply turns_refl|]. exists ((p, v) :: h). split; [reflexivity|]. split; [exact Ax|].
  cbn [snd fst]. unfold u_get. destruct (nth_error (u_tabs (xu_u x)) p) as [t'|] eqn:Et; [|exact I].
  inversion Ax as [|? ? E1 E2]. cbn [fst snd] in E1. apply H; [congruence|apply (Ix _ _ Et)|apply (Ix _ _ Et)].
Qed.
Lemma vp_see p h (Q : hold -> table -> Prop) : (forall t, has p -> tg false (sch p) t -> Q h t) -> vp (get_tab p) h Q.
Proof.
  intro H. apply vp_bind. apply vp_still; [reflexivity|]. intros x Ix. cbn [snd fst]. unfold u_get.
  destruct (nth_error (u_tabs (xu_u x)) p) as [t'|] eqn:Et; [|exact I]. apply H; apply (Ix _ _ Et).
Qed.
Lemma vp_put p t t' h (Q : hold -> unit -> Prop) : ~ In p (map fst h) -> t' = t \/ R p t t' -> Q ((p, Some t') :: h) tt -> vp (put_tab p t') ((p, Some t) :: h) Q.
Proof.
  intros N C H x Ix Ax. inversion Ax as [|e l E1 E2]. subst. cbn [fst snd] in E1. split.
  - intros q t1 t2 F1 F2. cbn in F2. destruct (Nat.eq_dec q p) as [->|Ne].
    + rewrite nth_error_upd_eq in F2 by (apply nth_error_Some; congruence). assert (t1 = t) by congruence. assert (t2 = t') by congruence. subst. exact C.
    + rewrite nth_error_upd_ne in F2 by congruence. left. congruence.
  - exists ((p, Some t') :: h). split; [reflexivity|]. split; [|exact H]. constructor.
    + cbn. rewrite nth_error_upd_eq by (apply nth_error_Some; congruence). reflexivity.
    + unfold agrees in E2. rewrite Forall_forall in *. intros e He. specialize (E2 e He). cbn.
      rewrite nth_error_upd_ne; [exact E2|]. intro Z. apply N. rewrite <- Z. apply in_map. exact He.
Qed.
Lemma ok_of {A} (P : A -> Prop) r a : r = Ok a -> good pr P r -> P a.
Proof. intros ->. auto. Qed.
Ltac v1 :=
  match goal with
  | |- vp (pbind _ _) _ _ => apply vp_bind; cbv beta
  | |- vp (take_lock (LT _) true) _ _ => apply vp_write; intros ? ?
  | |- vp (give_lock (LT _) true) _ _ => apply vp_written; [assumption|]
  | |- vp (take_lock (LT _) false) _ _ => apply vp_take
  | |- vp (give_lock (LT _) false) _ _ => apply vp_give
  | |- vp (take_lock (LF _) _) _ _ => apply vp_takef
  | |- vp (give_lock (LF _) _) _ _ => apply vp_givef
  | |- vp (get_tab ?p) ((?p, Some _) :: _) _ => apply vp_get; let E := fresh in intros ? E ? ?; injection E as <-
  | |- vp (get_tab ?p) ((?p, _) :: _) _ => apply vp_get; intros ? -> ? ?
  | |- vp (get_tab _) _ _ => apply vp_see; intros ? ? ?
  | |- vp (look _) _ _ => apply vp_look; intro
  | |- vp (Ret (Ok ?a)) ?h ?Q => change (Q h a); cbv beta
  | |- vp (lift (Ok _)) _ _ => apply vp_lift; let E := fresh in intros ? E; injection E as <-
  | |- vp (lift (w_drop _)) _ _ => apply vp_lift; let E := fresh in intros ? E; apply drop_inv in E; destruct E as [-> _]
  | |- vp (lift _) _ _ => apply vp_lift; intros ? ?
  | |- vp (change (fun u => u_say u _)) _ _ => apply vp_say
  | u : unit |- _ => destruct u
  end.
Ltac vs := repeat v1.
Definition calls_val (call : nat -> event -> bool -> bool -> select -> prog select) : Prop :=
  forall p ev pushed del sel h (Q : hold -> select -> Prop), (forall sel', Q h sel') -> vp (call p ev pushed del sel) h Q.
Section With.
Variable call : nat -> event -> bool -> bool -> select -> prog select.
Hypothesis CO : calls_val call.
Lemma flush_vp p t w ev h (Q : hold -> unit -> Prop) : ~ In p (map fst h) -> w_tab w = t \/ R p t (w_tab w) -> Q h tt ->
  vp (p_flush_with pr umax call p w ev) ((p, Some t) :: h) Q.
Proof.
  intros N C H. unfold p_flush_with. destruct (sel_empty (w_changes w)).
  - vs. apply vp_put; [exact N|exact C|]. vs. exact H.
  - vs. apply vp_put; [exact N|exact C|]. vs. apply CO. intro sel. vs. destruct (_ && _); [|vs; exact H]. vs.
    apply vp_put; [exact N| |vs; exact H].
    match goal with E : flush_apply _ _ _ _ _ = Ok _ |- _ => apply (apply_fewer pr umax (sch p) (nobag p)) in E; [|assumption]; destruct E as [E|E] end;
      [left; assumption|right; apply R_fewer; assumption].
Qed.
Lemma live_flush_vp p t w ev h (Q : hold -> wlock -> Prop) : ~ In p (map fst h) -> w_tab w = t \/ R p t (w_tab w) ->
  (forall w, Q ((p, Some (w_tab w)) :: h) w) -> vp (p_live_flush_with pr umax call p w ev) ((p, Some t) :: h) Q.
Proof.
  intros N C H. unfold p_live_flush_with. destruct (sel_empty (w_changes w)).
  - vs. apply vp_put; [exact N|exact C|]. vs. apply H.
  - vs. apply vp_put; [exact N|exact C|]. vs. apply CO. intro sel. vs. apply vp_put; [exact N| |].
    + match goal with E : flush_apply _ _ _ _ _ = Ok _ |- _ => apply (apply_fewer pr umax (sch p) (nobag p)) in E; [|assumption]; destruct E as [E|E] end;
        [left; assumption|right; apply R_fewer; assumption].
    + vs. apply vp_still; [intro x; unfold xu_flush; destruct (nth_error (xu_fl x) p); reflexivity|]. intros x _. vs. apply (H (W _ _ false false)).
Qed.
Lemma remove_vp c ev rows h (Q : hold -> unit -> Prop) : Q h tt -> vp (p_remove_rows_with pr umax call c ev rows) h Q.
Proof.
  intro H. unfold p_remove_rows_with. vs. destruct (t_kind t) eqn:Kt; try exact I.
  all: match goal with G : tg false _ ?t, K : t_kind ?t = _ |- _ => pose proof (tg_kind _ _ _ G) as Ks; rewrite K in Ks; symmetry in Ks end; vs; apply flush_vp; auto.
  - destruct rows as [|rows].
    + match goal with E : Ok _ = Ok _ |- _ => injection E as <- end. right. apply R_fewer. match goal with |- fewer ?t _ => apply (cleared_fewer (sch c) (w_new t)) end. assumption.
    + match goal with E : _ = Ok _ |- _ => apply (raws_fewer pr umax (sch c) (nobag c)) in E; [|assumption|reflexivity]; destruct E as [E|E] end;
        [left; assumption|right; apply R_fewer; assumption].
  - right. apply R_fewer. destruct rows as [|rows].
    + match goal with E : Ok _ = Ok _ |- _ => injection E as <- end. match goal with |- fewer ?t _ => apply (cleared_fewer (sch c) (w_new t)) end. assumption.
    + match goal with E : sorted_remove_rows _ _ = Ok _, G : tg _ _ ?t0 |- fewer ?t0 _ => exact (sorted_fewer pr (sch c) (nobag c) (w_new t0) _ _ G Ks E) end.
Qed.
Lemma run_vp hd c ev rows h (Q : hold -> unit -> Prop) : Q h tt -> vp (p_run_with pr umax call hd c ev rows) h Q.
Proof.
  intro H.
  assert (Fin : forall rows, vp (let! _ := take_lock (LT c) false in let! _ := take_lock (LF c) false in
           let! _ := call c ev (ev_creation ev) (ev_removal ev) rows in let! _ := give_lock (LF c) false in give_lock (LT c) false) h Q).
  { intro r. vs. apply CO. intros _. vs. exact H. }
  unfold p_run_with. destruct hd; cbn [p_handle_with].
  - vs. apply remove_vp. apply Fin.
  - do 4 v1. apply Fin.
  - exact I.
Qed.
Lemma auto_vp hd c k key ev rows h (Q : hold -> unit -> Prop) : Q h tt -> vp (p_auto_handle pr umax call hd c k key ev rows) h Q.
Proof. intro H. unfold p_auto_handle. vs. apply run_vp. exact H. Qed.
Lemma turns_vp p hd ev l : forall s h (Q : hold -> select * bool -> Prop), (forall s, Q h s) -> vp (p_fold (p_turn pr umax call hd p ev) l s) h Q.
Proof.
  induction l as [|[i tr] l IH]; intros s h Q H; cbn [p_fold]; [vs; apply H|].
  vs. assert (T : forall s, vp (p_fold (p_turn pr umax call hd p ev) l s) h Q) by (intro s'; apply IH; exact H).
  unfold p_turn. cbn [fst snd]. destruct (tracker_considers tr ev); [|vs; apply T].
  vs. destruct tr as [c k key|].
  - apply auto_vp. vs. apply T.
  - vs. apply T.
Qed.
End With.
Lemma do_flush_vp fuel : calls_val (p_do_flush pr umax fuel).
Proof.
  induction fuel as [|n IH]; intros p ev pushed del sel h Q H; cbn [p_do_flush]; [exact I|]. vs. apply (turns_vp _ IH). intro s. vs. apply H.
Qed.

Variable heads : nat -> header.
Variable foreign : nat -> list (nat * nat).
Variable order : nat -> row -> row -> comparison.
Variable fuel : nat.
Variable ops : list top.
Hypothesis R_all : forall p t t', becomes pr umax order ops p t t' -> R p t t'.
Lemma take_all_vp qs h (Q : hold -> unit -> Prop) : Q h tt -> vp (p_take_all qs) h Q.
Proof. intro H. induction qs as [|q qs IH]; cbn [p_take_all]; vs; assumption. Qed.
Lemma give_all_vp qs h (Q : hold -> unit -> Prop) : Q h tt -> vp (p_give_all qs) h Q.
Proof. intro H. induction qs as [|q qs IH]; cbn [p_give_all]; vs; assumption. Qed.
Lemma step_vp o : In (TDo o) ops -> ty_ok has sch (TDo o) -> vp (p_step pr umax heads foreign order fuel o) [] (fun h _ => h = []).
Proof.
  intros Io T. destruct o as [p es ev|p es ev|p e ev|p tr|p]; cbn [p_step ty_ok] in *.
  - vs. apply (flush_vp _ (do_flush_vp fuel)); [tauto| |reflexivity]. right. apply R_all. eapply becomes_edited; [left; exact Io|eassumption|reflexivity].
  - vs. apply (live_flush_vp _ (do_flush_vp fuel)); [tauto| |].
    + right. apply R_all. eapply becomes_edited; [right; exact Io|eassumption|reflexivity].
    + intro w. vs. apply vp_put; [tauto|left; reflexivity|]. vs. reflexivity.
  - vs. unfold p_restore_extract. vs. match goal with |- context [match ?v with Some _ => _ | None => _ end] => destruct v end.
    + vs. apply vp_put; [tauto|left; reflexivity|]. vs. reflexivity.
    + vs. apply take_all_vp. vs. apply vp_still; [reflexivity|]. intros x _. vs. apply give_all_vp.
      cbn [snd] in H3. pose proof (extract_more pr umax foreign order sch _ p _ (w_new t) e a H1 (T H0) H3) as M.
      assert (C : forall t', t' = w_tab (fst a) -> t' = t \/ R p t t') by (intros t' ->; right; apply R_all; eapply becomes_more; [exact Io|exact M]).
      destruct (sel_empty _).
      * vs. apply vp_put; [tauto|apply C; reflexivity|]. vs. reflexivity.
      * vs. apply vp_still; [intro y; unfold xu_flush; destruct (nth_error (xu_fl y) p); reflexivity|]. intros y _. vs.
        apply (flush_vp _ (do_flush_vp fuel)); [tauto|apply C; reflexivity|reflexivity].
  - vs. apply vp_still; [reflexivity|]. intros x _. vs. apply vp_still; [reflexivity|]. intros y _. vs. reflexivity.
  - vs. apply vp_still; [intro y; unfold xu_flush; destruct (nth_error (xu_fl y) p); reflexivity|]. intros y _. vs. reflexivity.
Qed.
Lemma locks_vp ls : forall h (Q : hold -> unit -> Prop), Q h tt -> vp (p_locks ls) h Q.
Proof. induction ls as [|[q [|]] ls IH]; intros h Q H; cbn [p_locks]; vs; try exact H; apply IH; vs; exact H. Qed.
Lemma run_all_vp l : (forall o, In o l -> In o ops) -> Forall (ty_ok has sch) l -> vp (Threads.p_run pr umax heads foreign order fuel l) [] (fun h _ => h = []).
Proof.
  unfold Threads.p_run. generalize tt. induction l as [|o l IH]; intros u In' F; cbn [p_fold]; [vs; reflexivity|].
  apply Forall_cons_iff in F. destruct F as [O F]. apply vp_bind. eapply (vp_mono _ _ (fun h _ => h = [])); [intros h a ->; apply IH; [intros; apply In'; right; assumption|exact F]|].
  destruct o as [o|p ev sel|ls]; cbn [p_top].
  - apply step_vp; [apply In'; left; reflexivity|exact O].
  - unfold p_select. vs. apply (do_flush_vp fuel). intro s. vs. reflexivity.
  - apply locks_vp. reflexivity.
Qed.
End Val.

(** ** All threads *)
Section All.
Variables (pr : profile) (umax : nat) (order : nat -> row -> row -> comparison) (has : nat -> Prop) (sch : nat -> schema).
Definition vok (x : xuni) (ops : list top) (t : guards * prog unit) : Prop :=
  exists h, vp has sch (becomes pr umax order ops) (snd t) h (fun _ _ => True) /\ NoDup (map fst h) /\
    Forall (fun e => In (LT (fst e), true) (owned t)) h /\ agrees h x.
Lemma vok_of x ops g m h : vp has sch (becomes pr umax order ops) m h (fun _ _ => True) -> NoDup (map fst h) ->
  Forall (fun e => In (LT (fst e), true) g) h -> agrees h x -> vok x ops (g, m).
Proof.
  intros V N F A. destruct m as [[a|e]| | | |]; [|exists []; split; [exact I|]; repeat constructor|..]; (exists h; split; [exact V|]; split; [exact N|]; split; [exact F|exact A]).
Qed.
Lemma in_drop p q g : p <> q -> In (LT p, true) g -> In (LT p, true) (drop_guard (LT q) true g).
Proof.
  intros Ne. induction g as [|y g IH]; [auto|]. intros [->|H]; cbn.
  - destruct (Nat.eqb_spec p q); [congruence|]. left. reflexivity.
  - destruct (_ && _); [exact H|]. right. apply IH. exact H.
Qed.
Lemma in_drop_f p l wr g : (forall q, l <> LT q \/ wr <> true) -> In (LT p, true) g -> In (LT p, true) (drop_guard l wr g).
Proof.
  intros Ne. induction g as [|y g IH]; [auto|]. intros [->|H]; cbn.
  - destruct l as [q|q]; cbn; [|left; reflexivity]. destruct wr; [destruct (Ne q); congruence|]. cbn. rewrite andb_false_r. left. reflexivity.
  - destruct (_ && _); [exact H|]. right. apply IH. exact H.
Qed.
Definition all_val (tss : list (list top)) (c : threads) : Prop := Forall2 (vok (th_x c)) tss (th_ts c).
(** Other threads' steps leave the tables that this one has locked. *)
Lemma vok_other x y g ops t : keeps g x y -> (forall p, In (LT p, true) (owned t) -> ~ In (LT p, true) g) -> vok x ops t -> vok y ops t.
Proof.
  intros K N (h & V & D & F & A). exists h. split; [exact V|]. split; [exact D|]. split; [exact F|]. unfold agrees in *. rewrite Forall_forall in *. intros e He.
  destruct (K (fst e)) as [[E|E] _]; [rewrite E; apply A; exact He|]. elim (N _ (F e He) E).
Qed.
Lemma all_val_step tss c c' : thread_step c c' -> all_own c -> all_safe pr has sch c -> all_val tss c -> all_val tss c'.
Proof.
  intros S [O Ap] [Ix _] V. unfold all_val in *.
  destruct S as [x a g l wr k b M|x a g l wr k b M|x a g l wr k b|x a g B f k b]; cbn [th_x th_ts] in *;
    apply Forall2_app_inv_r in V; destruct V as (ta & tb' & Va & Vb & ->); inversion Vb as [|ops t0 tb ts0 Vt Vb']; subst.
  - apply Forall2_app; [exact Va|]. constructor; [|exact Vb']. destruct Vt as (h & V & D & F & A). cbn [snd vp] in V.
    assert (Fo : forall e, In e h -> In (LT (fst e), true) g) by (rewrite Forall_forall in F; exact F).
    assert (Keep : vp has sch (becomes pr umax order ops) k h (fun _ _ => True) -> vok x ops ((l, wr) :: g, k)).
    { intro V'. apply (vok_of _ _ _ _ h); auto. apply Forall_forall. intros e He. right. auto. }
    destruct l as [p|p]; [|apply Keep; exact V]. destruct wr; [|apply Keep; exact V].
    assert (N : ~ In p (map fst h)).
    { intro Hin. apply in_map_iff in Hin. destruct Hin as (e & <- & He). destruct M as [M _]. specialize (M (g, Acq (LT (fst e)) true k)).
      cbn [th_ts] in M. assert (L := M ltac:(apply in_elt)). destruct (lets_in _ _ _ _ L (Fo e He)). discriminate. }
    apply (vok_of _ _ _ _ ((p, nth_error (u_tabs (xu_u x)) p) :: h)).
    + apply V. exact N.
    + constructor; assumption.
    + constructor; [left; reflexivity|]. apply Forall_forall. intros e He. right. auto.
    + constructor; [reflexivity|exact A].
  - apply Forall2_app; [exact Va|]. constructor; [|exact Vb']. exists []. split; [exact I|]. repeat constructor.
  - apply Forall2_app; [exact Va|]. constructor; [|exact Vb']. destruct Vt as (h & V & D & F & A). cbn [snd vp] in V.
    assert (Fo : forall e, In e h -> In (LT (fst e), true) g) by (rewrite Forall_forall in F; exact F).
    assert (Keep : (forall q, l <> LT q \/ wr <> true) -> vp has sch (becomes pr umax order ops) k h (fun _ _ => True) -> vok x ops (drop_guard l wr g, k)).
    { intros Ne V'. apply (vok_of _ _ _ _ h); auto. apply Forall_forall. intros e He. apply in_drop_f; auto. }
    destruct l as [p|p]; [|apply Keep; [left; discriminate|exact V]]. destruct wr; [|apply Keep; [right; discriminate|exact V]].
    apply (vok_of _ _ _ _ (h_drop p h)).
    + exact V.
    + clear - D. induction h as [|e h IH]; cbn; [constructor|]. cbn [map] in D. apply NoDup_cons_iff in D. destruct D as [D1 D2].
      destruct (negb (fst e =? p)); [|auto]. cbn [map]. constructor; [|apply IH; exact D2]. intro H. apply D1.
      apply in_map_iff in H. destruct H as (e' & <- & He'). apply filter_In in He'. apply in_map. apply He'.
    + apply Forall_forall. intros e He. apply filter_In in He. destruct He as [He Hp]. apply in_drop; [|auto].
      destruct (Nat.eqb_spec (fst e) p); [discriminate|assumption].
    + unfold agrees in *. rewrite Forall_forall in *. intros e He. apply filter_In in He. apply A. apply He.
  - apply Forall_app in O. destruct O as [_ Ob]. apply Forall_cons_iff in Ob. destruct Ob as [Ot _].
    destruct (Ot x) as [K _].
    assert (Oth : forall s, In s (a ++ b) -> forall p, In (LT p, true) (owned s) -> ~ In (LT p, true) g).
    { intros s Hs p H1 H2.
      assert (Et : nth_error (a ++ (g, Act f k) :: b) (length a) = Some (g, Act f k)) by (rewrite nth_error_app2, Nat.sub_diag by lia; reflexivity).
      assert (Dj : exists j, j <> length a /\ nth_error (a ++ (g, Act f k) :: b) j = Some s).
      { apply in_app_iff in Hs. destruct Hs as [Hs|Hs]; apply In_nth_error in Hs; destruct Hs as [j Ej].
        - assert (j < length a) by (apply nth_error_Some; congruence). exists j. split; [lia|]. rewrite nth_error_app1 by lia. exact Ej.
        - exists (length a + Datatypes.S j). split; [lia|]. rewrite nth_error_app2 by lia. replace (length a + Datatypes.S j - length a) with (Datatypes.S j) by lia. exact Ej. }
      destruct Dj as (j & Nj & Ej). destruct (Ap _ _ _ _ Nj Ej Et (LT p) true true H1 H2). discriminate. }
    assert (Imp : forall l1 l2, (forall s, In s l2 -> In s (a ++ b)) -> Forall2 (vok x) l1 l2 -> Forall2 (vok (fst (f x))) l1 l2).
    { intros l1 l2 Hin F2. induction F2 as [|o s l1 l2 V0 F2 IH]; constructor; [|apply IH; intros; apply Hin; right; assumption].
      eapply vok_other; [exact K| |exact V0]. apply Oth. apply Hin. left. reflexivity. }
    apply Forall2_app; [apply Imp; [intros; apply in_or_app; auto|exact Va]|]. constructor; [|apply Imp; [intros; apply in_or_app; auto|exact Vb']].
    destruct Vt as (h & V & D & F & A). cbn [snd vp] in V. destruct (V x Ix A) as (_ & h' & E & A' & V').
    apply (vok_of _ _ _ _ h'); [exact V'|rewrite E; exact D| |exact A'].
    cbn in F. clear - E F. revert h' E. induction F as [|e h He F IH]; intros [|e' h'] E; cbn in E; try discriminate; [constructor|].
    injection E as E1 E2. constructor; [rewrite E1; exact He|apply IH; exact E2].
Qed.
Lemma all_val_turns tss c c' p t t' : thread_step c c' -> all_safe pr has sch c -> all_val tss c ->
  nth_error (u_tabs (xu_u (th_x c))) p = Some t -> nth_error (u_tabs (xu_u (th_x c'))) p = Some t' -> t' <> t ->
  exists i ops, nth_error tss i = Some ops /\ (forall j, j <> i -> nth_error (th_ts c') j = nth_error (th_ts c) j) /\ becomes pr umax order ops p t t'.
Proof.
  intros S [Ix _] V Et Et' Ne. unfold all_val in *. destruct S as [x a g l wr k b M|x a g l wr k b M|x a g l wr k b|x a g B f k b]; cbn [th_x th_ts] in *;
    try (elim Ne; congruence).
  apply Forall2_app_inv_r in V. destruct V as (ta & tb' & Va & Vb & ->). inversion Vb as [|ops t0 tb ts0 Vt Vb']; subst.
  exists (length ta), ops. split; [rewrite nth_error_app2, Nat.sub_diag by lia; reflexivity|]. split.
  - assert (La : length ta = length a) by (clear - Va; induction Va; cbn; congruence). intros j Nj. rewrite La in Nj. destruct (lt_dec j (length a)) as [L|L].
    + rewrite !nth_error_app1 by exact L. reflexivity.
    + rewrite !nth_error_app2 by lia. destruct (j - length a) eqn:Ej; [lia|]. reflexivity.
  - destruct Vt as (h & V & D & F & A). cbn [snd vp] in V. destruct (V x Ix A) as (Tn & _). destruct (Tn _ _ _ Et Et') as [E|E]; [congruence|exact E].
Qed.
End All.
Lemma changes_of_tables pr umax heads foreign order fuel x tss c c' p t t' :
  made pr umax (xu_u x) -> (forall p t, nth_error (u_tabs (xu_u x)) p = Some t -> pr = Debug \/ t_kind t <> Bag) ->
  Forall (Forall (top_ty (xu_u x))) tss ->
  thread_steps (started x (map (Threads.p_run pr umax heads foreign order fuel) tss)) c -> thread_step c c' ->
  nth_error (u_tabs (xu_u (th_x c))) p = Some t -> nth_error (u_tabs (xu_u (th_x c'))) p = Some t' -> t' <> t ->
  exists i ops, nth_error tss i = Some ops /\ (forall j, j <> i -> nth_error (th_ts c') j = nth_error (th_ts c) j) /\ becomes pr umax order ops p t t'.
Proof.
  intros M B T S St. destruct (started_safe pr umax heads foreign order fuel x tss M B T) as (has & sch & _ & NB & Ty & Safe).
  assert (V0 : all_val pr umax order has sch tss (started x (map (Threads.p_run pr umax heads foreign order fuel) tss))).
  { unfold all_val, started. cbn [th_x th_ts]. clear - NB Ty. induction Ty as [|ops tss H Ty IH]; cbn [map]; constructor; [|exact IH].
    exists []. split; [|repeat constructor]. cbn [snd]. eapply vp_mono; [intros; exact I|]. apply (run_all_vp pr umax has sch NB) with (ops := ops); auto. intros. apply becomes_fewer. assumption. }
  assert (V : all_val pr umax order has sch tss c /\ all_own c /\ all_safe pr has sch c).
  { clear St t t' p. remember (started x _) as c0 eqn:E0. induction S as [|c0 c1 c2 S IH S']; subst.
    - split; [exact V0|]. split; [apply started_own|exact Safe].
    - destruct (IH eq_refl Safe V0) as (V & O & Sf). split; [|split].
      + eapply all_val_step; eauto.
      + eapply all_own_step; eauto.
      + eapply all_safe_step; eauto. }
  destruct V as (V & O & Sf). apply (all_val_turns _ _ _ _ _ _ _ _ _ _ _ St Sf V).
Qed.
