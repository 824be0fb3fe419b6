(** Proofs: whatever threads do, tables stay well formed, and are only changed by who has locked them. *)
From Coq Require Import List Arith Bool Lia.
From Verif Require Import Base BaseFacts Names Column ColumnFacts RowRange Table Visit SortedTab BagTab TableSpec TableFacts
  SortedFacts Hist HistFacts Events Cascade CascadeSpec Extract RestoreFacts Threads ThreadSpec ThreadSeq ThreadFacts.
Import ListNotations.

(** ** Well-formed tables *)
Section Safe.
Variables (pr : profile) (umax : nat) (has : nat -> Prop) (sch : nat -> schema).
Hypothesis nobag : forall p, pr = Debug \/ s_kind (sch p) <> Bag.
Definition inv (x : xuni) : Prop := forall p t, nth_error (u_tabs (xu_u x)) p = Some t -> has p /\ tg false (sch p) t.
Fixpoint sp {A} (m : prog A) (Q : A -> Prop) : Prop :=
  match m with
  | Ret r => good pr Q r
  | Endless => True
  | Acq _ _ k | Rel _ _ k => sp k Q
  | Act f k => forall x, inv x -> inv (fst (f x)) /\ sp (k (snd (f x))) Q
  end.
Lemma sp_bind {A B} (m : prog A) (f : A -> prog B) : forall Q, sp m (fun a => sp (f a) Q) -> sp (pbind m f) Q.
Proof.
  induction m as [r| |l wr k IH|l wr k IH|C h k IH]; intros Q H; cbn [pbind sp] in *; auto.
  - destruct r; exact H.
  - intros x Ix. destruct (H x Ix). auto.
Qed.
Lemma sp_mono {A} (m : prog A) : forall (Q R : A -> Prop), (forall a, Q a -> R a) -> sp m Q -> sp m R.
Proof.
  induction m as [r| |l wr k IH|l wr k IH|C h k IH]; intros Q R QR H; cbn [sp] in *; eauto.
  - eapply good_impl; eauto.
  - intros x Ix. destruct (H x Ix). eauto.
Qed.
Lemma sp_take l wr (Q : unit -> Prop) : Q tt -> sp (take_lock l wr) Q.
Proof. intro H. exact H. Qed.
Lemma sp_give l wr (Q : unit -> Prop) : Q tt -> sp (give_lock l wr) Q.
Proof. intro H. exact H. Qed.
Lemma sp_lift {A} (P Q : A -> Prop) r : good pr P r -> (forall a, P a -> Q a) -> sp (lift r) Q.
Proof. intros H K. eapply good_impl; eauto. Qed.
Lemma sp_ok {A} (a : A) (Q : A -> Prop) : Q a -> sp (lift (Ok a)) Q.
Proof. auto. Qed.
Lemma sp_look {B} (f : universe -> B) (Q : B -> Prop) : (forall x, inv x -> Q (f (xu_u x))) -> sp (look f) Q.
Proof. intros H x Ix. split; [exact Ix|]. apply H. exact Ix. Qed.
Lemma sp_say n (Q : unit -> Prop) : Q tt -> sp (change (fun u => u_say u n)) Q.
Proof. intros H x Ix. split; [exact Ix|exact H]. Qed.
Lemma sp_get p (Q : table -> Prop) : (forall t, has p -> tg false (sch p) t -> Q t) -> sp (get_tab p) Q.
Proof.
  intro H. apply sp_bind. apply sp_look. intros x Ix. unfold u_get. destruct (nth_error _ _) eqn:E; [|exact I]. apply H; apply (Ix _ _ E).
Qed.
Lemma sp_put p t (Q : unit -> Prop) : tg false (sch p) t -> Q tt -> sp (put_tab p t) Q.
Proof.
  intros T H x Ix. split; [|exact H]. intros q t' E. cbn in E. destruct (Nat.eq_dec q p) as [->|Ne].
  - destruct (le_lt_dec (length (u_tabs (xu_u x))) p) as [L|L].
    + rewrite upd_oob in E by exact L. exact (Ix _ _ E).
    + rewrite nth_error_upd_eq in E by exact L. inv E. destruct (nth_error_lt_Some _ _ L) as [t0 E0]. split; [apply (Ix _ _ E0)|exact T].
  - rewrite nth_error_upd_ne in E by congruence. exact (Ix _ _ E).
Qed.
Lemma flush_removal p ev : pr = Release -> s_kind (sch p) = Bag -> ev_removal ev = false.
Proof. intros E K. destruct (nobag p); congruence. Qed.
Ltac s1 :=
  match goal with
  | |- sp (pbind _ _) _ => apply sp_bind; cbv beta
  | |- sp (take_lock _ _) _ => apply sp_take
  | |- sp (give_lock _ _) _ => apply sp_give
  | |- sp (put_tab _ _) _ => apply sp_put; [assumption|]
  | |- sp (get_tab _) _ => apply sp_get; intros ? ? ?
  | |- sp (lift (Ok _)) _ => apply sp_ok
  | |- sp (lift (assert_ _ _)) _ => eapply sp_lift; [apply good_assert|intros ? _]
  | |- sp (lift (w_drop _)) _ => eapply sp_lift; [apply good_drop; eassumption|cbv beta; intros ? ?]
  | |- sp (lift (flush_apply _ _ _ _ _)) _ =>
      eapply sp_lift; [eapply good_flush_apply_tg with (ex := false); [eassumption|apply flush_removal|discriminate]|cbv beta; intros ? ?]
  | |- sp (change (fun u => u_say u _)) _ => apply sp_say
  | u : unit |- _ => destruct u
  end.
Ltac ss := repeat s1.

Definition calls_safe (call : nat -> event -> bool -> bool -> select -> prog select) : Prop :=
  forall p ev pushed del sel (Q : select -> Prop), (forall sel', Q sel') -> sp (call p ev pushed del sel) Q.
Section With.
Variable call : nat -> event -> bool -> bool -> select -> prog select.
Hypothesis CO : calls_safe call.
Lemma flush_sp p w ev (Q : unit -> Prop) : tg false (sch p) (w_tab w) -> Q tt -> sp (p_flush_with pr umax call p w ev) Q.
Proof.
  intros G H. unfold p_flush_with. destruct (sel_empty (w_changes w)).
  - ss. exact H.
  - ss. apply CO. intro sel. ss. destruct (_ && _); [|ss; exact H]. ss. exact H.
Qed.
Lemma live_flush_sp p w ev (Q : wlock -> Prop) : tg false (sch p) (w_tab w) -> (forall w, tg false (sch p) (w_tab w) -> Q w) ->
  sp (p_live_flush_with pr umax call p w ev) Q.
Proof.
  intros G H. unfold p_live_flush_with. destruct (sel_empty (w_changes w)).
  - ss. apply H. exact G.
  - ss. apply CO. intro sel. ss. cbn [sp]. intros x Ix. unfold xu_flush. destruct (nth_error (xu_fl x) p); cbn [fst snd].
    + split; [exact Ix|]. cbn [good]. ss. apply H. assumption.
    + split; [exact Ix|]. exact I.
Qed.
Lemma remove_sp c ev rows (Q : unit -> Prop) : Q tt -> sp (p_remove_rows_with pr umax call c ev rows) Q.
Proof.
  intro H. unfold p_remove_rows_with. ss. destruct (t_kind t) eqn:Kt; try exact I.
  all: pose proof (tg_kind _ _ _ H1) as Ks; rewrite Kt in Ks; symmetry in Ks; ss.
  - eapply sp_lift with (P := fun w => tg false (sch c) (w_tab w)); [|intros w Gw; apply flush_sp; assumption].
    destruct rows as [|rows].
    + cbn [good]. assert (G1 : tg false (sch c) (w_tab (clear_raw (w_new t0)))) by (apply tg_clear_raw; [discriminate|assumption]).
      unfold clear, event_cleared. rewrite (tg_kind _ _ _ G1), Ks. exact G1.
    + cbv zeta. eapply good_impl; [apply (good_fold pr (fun w' => tg false (sch c) (w_tab w') /\ t_len (w_tab w') = t_len (w_tab (w_new t0))))|intros w' [A _]; exact A].
      * split; [assumption|reflexivity].
      * intros w1 i _ [G1 L1]. eapply good_bind; [apply good_assert|]. cbv beta. intros _ Hi. apply Nat.ltb_lt in Hi.
        eapply good_impl; [apply (good_delete_raw_tg pr umax false (sch c)); [exact G1|lia|congruence]|].
        cbv beta. intros w2 [G2 L2]. split; [exact G2|]. rewrite L2 by exact Ks. exact L1.
  - assert (Nc : s_kind (sch c) <> Consistent) by congruence.
    eapply sp_lift with (P := fun w => tg false (sch c) (w_tab w)); [|intros w Gw; apply flush_sp; assumption].
    destruct rows as [|rows].
    + cbn [good]. unfold clear, event_cleared.
      assert (Ke : t_kind (w_tab (clear_raw (w_new t0))) = Sorted) by (rewrite <- Ks; exact (tg_kind _ _ _ H3)).
      rewrite Ke. apply tg_nc; [exact Nc|]. apply good_clear_raw. exact (tg_good _ _ (w_new t0) H3).
    + apply (good_tg pr false (sch c) (fun w => w)); [exact Nc|]. apply good_sorted_remove; [exact (tg_good _ _ (w_new t0) H3)|exact Nc].
Qed.
Lemma run_sp hd c ev rows (Q : unit -> Prop) : Q tt -> sp (p_run_with pr umax call hd c ev rows) Q.
Proof.
  intro H.
  assert (Fin : forall rows, sp (let! _ := take_lock (LT c) false in let! _ := take_lock (LF c) false in
           let! _ := call c ev (ev_creation ev) (ev_removal ev) rows in let! _ := give_lock (LF c) false in give_lock (LT c) false) Q).
  { intro r. ss. apply CO. intros _. ss. exact H. }
  unfold p_run_with. destruct hd; cbn [p_handle_with].
  - ss. apply remove_sp. apply Fin.
  - do 4 s1. apply Fin.
  - exact I.
Qed.
Lemma find_good t k v : forall s, tg false s t -> good pr (fun _ => True) (t_find t k v).
Proof.
  intros s G. pose proof (good_read_op pr umax false s t (OFind k v) G) as R. cbn [read_op] in R. destruct (t_find t k v); [exact I|exact R].
Qed.
Lemma index_good s t k i : tg false s t -> i < t_len t ->
  good pr (fun _ => True) (match nth_error (t_cols t) k with Some c => c_index c i | None => panic PRustType end).
Proof.
  intros (E & live & rows & K & _) L. rewrite (t_len_ok _ _ _ K) in L. destruct (nth_error (t_cols t) k) as [c|] eqn:Ek; [|exact I].
  assert (Hk : exists ct, nth_error (s_cols (t_sch t)) k = Some ct).
  { apply nth_error_lt_Some. rewrite <- (cols_len_eq _ _ _ K). eapply nth_error_Some_lt; eauto. }
  destruct Hk as [ct Hk]. destruct (cols_nth _ _ _ _ _ _ _ _ (ok_cols _ _ _ K) Ek Hk) as [Wf Dt].
  assert (Lc : i < length (c_data c)) by (rewrite Dt, map_length; exact L).
  destruct (nth_error_lt_Some _ _ Lc) as [v Hv]. erewrite c_index_ok by eauto. exact I.
Qed.
Lemma join_good s t k ids : tg false s t -> Forall (fun i => i < t_len t) ids -> forall rm, good pr (fun _ => True) (join_rows t k ids rm).
Proof.
  intros G. induction ids as [|i ids IH]; intros F rm; cbn [join_rows]; [exact I|]. apply Forall_cons_iff in F. destruct F as [F1 F2].
  eapply good_bind; [eapply index_good; eauto|]. intros v _.
  destruct (fst (join _ v rm)); try exact I; try apply IH; auto; eapply good_bind; try (apply IH; exact F2); intros; exact I.
Qed.
Lemma auto_sp hd c k key ev rows (Q : unit -> Prop) : Q tt -> sp (p_auto_handle pr umax call hd c k key ev rows) Q.
Proof.
  intro H. unfold p_auto_handle. ss. eapply sp_lift with (P := fun _ => True); [|intros r _; ss; apply run_sp; exact H].
  destruct key.
  - unfold select_sorted. destruct rows as [|rows]; [exact I|]. eapply good_bind; [apply (good_iter pr)|]. intros it [E1 E2].
    rewrite (tg_imax false _ _ H1). eapply good_bind; [apply good_cons_collect; lia|]. intros ids F.
    eapply good_bind; [eapply join_good; [exact H1|]|intros; exact I]. rewrite E2 in F. exact F.
  - unfold select_indexed. destruct rows as [|rows]; [exact I|]. eapply good_bind; [|intros; exact I].
    eapply good_map_res with (P := fun _ => True) (Q := fun _ => True); [apply Forall_forall; auto|]. intros i _. eapply find_good; exact H1.
Qed.
Lemma turns_sp p hd ev l : forall s (Q : select * bool -> Prop), (forall s, Q s) -> sp (p_fold (p_turn pr umax call hd p ev) l s) Q.
Proof.
  induction l as [|[i tr] l IH]; intros s Q H; cbn [p_fold]; [ss; apply H|].
  ss. assert (T : forall s, sp (p_fold (p_turn pr umax call hd p ev) l s) Q) by (intro s'; apply IH; exact H).
  unfold p_turn. cbn [fst snd]. destruct (tracker_considers tr ev); [|ss; apply T].
  ss. apply sp_look. intros x _. ss. destruct tr as [c k key|].
  - apply auto_sp. ss. apply T.
  - ss. apply T.
Qed.
End With.
Lemma do_flush_sp fuel : calls_safe (p_do_flush pr umax fuel).
Proof.
  induction fuel as [|n IH]; intros p ev pushed del sel Q H; cbn [p_do_flush]; [exact I|].
  ss. apply sp_look. intros x0 _. ss. eapply sp_lift with (P := fun _ => True).
  { unfold handlers_get. destruct (nth_error _ _); exact I. }
  intros hd _. ss. apply sp_look. intros x _. ss. apply (turns_sp _ IH). intro s. ss. apply H.
Qed.

Variable heads : nat -> header.
Variable foreign : nat -> list (nat * nat).
Variable order : nat -> row -> row -> comparison.
Variable fuel : nat.
Notation typed ts data := (Forall2 (fun ty l => Forall (v_ty (ct_base ty)) l) ts data).
Lemma take_row_good ts : forall data, typed ts data -> good pr (fun q => row_ty ts (fst q) /\ typed ts (snd q)) (take_row data).
Proof.
  intros data T. unfold take_row.
  assert (M : good pr (row_ty ts) (map_res (fun l : list val => match l with v :: _ => Ok v | [] => panic PEarlyEnd end) data)).
  { induction T as [|ty l ts data H T IH]; cbn [map_res]; [constructor|]. destruct l as [|v l]; [exact I|]. cbn [bind].
    eapply good_bind; [exact IH|]. intros r R. constructor; [|exact R]. inversion H; assumption. }
  eapply good_bind; [exact M|]. intros r R. cbn [good fst snd]. split; [exact R|]. clear - T.
  induction T as [|ty l ts data H T IH]; cbn [map]; constructor; auto. destruct l; [exact H|]. inversion H; assumption.
Qed.
Lemma for_rows_good {S} (P : S -> Prop) ts (f : S -> nat -> row -> res S) :
  (forall s i r, P s -> row_ty ts r -> good pr P (f s i r)) ->
  forall ids data s, typed ts data -> P s -> good pr P (for_rows f ids data s).
Proof.
  intro Hf. induction ids as [|i ids IH]; intros data s T Ps; cbn [for_rows]; [exact Ps|].
  eapply good_bind; [apply take_row_good; exact T|]. intros q [R Tq]. eapply good_bind; [apply Hf; eauto|]. intros s' Ps'. apply IH; assumption.
Qed.
Lemma update_row_good ts fl p r : row_ty ts r -> good pr (row_ty ts) (update_row foreign fl p r).
Proof.
  intro R. destruct (update_row foreign fl p r) as [r'|e] eqn:E.
  - apply (update_row_ty _ _ _ _ _ _ R E).
  - revert E. unfold update_row. generalize (foreign p). intro l. clear R. revert r. induction l as [|[k q] l IH]; intros r E; cbn [fold_res] in E; [discriminate|].
    destruct (update_col fl r (k, q)) as [r1|e1] eqn:E1.
    + cbn [bind] in E. exact (IH _ E).
    + cbn [bind] in E. inv E. unfold update_col in E1. cbn [fst snd] in E1. destruct (nth_error r k) as [[| |old]|]; try (inv E1; exact I).
      destruct (nth_error fl q); [|inv E1; exact I]. destruct (fs_lookup f old); inv E1; exact I.
Qed.
Lemma merge_extract_good fl p nt w e : tg false (sch p) (w_tab w) ->
  Forall2 (fun ty c => Forall (v_ty (ct_base ty)) (c_into_iter c)) (s_cols (sch p)) (ex_data e) ->
  good pr (fun s => tg false (sch p) (w_tab (fst s))) (merge_extract pr foreign order fl p nt w e).
Proof.
  intros G T. assert (T' : typed (s_cols (sch p)) (map c_into_iter (ex_data e))) by (clear - T; induction T; cbn [map]; constructor; auto).
  unfold merge_extract. rewrite (tg_kind _ _ _ G). cbv zeta.
  assert (Pushes : forall nt : bool, good pr (fun s : wlock * list (nat * nat) => tg false (sch p) (w_tab (fst s)))
     (for_rows (fun s i r => let* r0 := update_row foreign fl p r in let* q := push (fst s) r0 in
        Ok (fst q, if nt then snd s else snd s ++ [(i, snd q)])) (ex_sel e) (map c_into_iter (ex_data e)) (w, []))).
  { intro b. eapply for_rows_good; [|exact T'|exact G]. intros s i r Gs R. eapply good_bind; [apply update_row_good; exact R|].
    intros r' R'. eapply good_bind; [apply (good_push_tg pr umax false (sch p)); assumption|]. intros q Gq. exact Gq. }
  destruct (s_kind (sch p)) eqn:Ks; try apply Pushes.
  assert (Nc : s_kind (sch p) <> Consistent) by congruence. destruct nt.
  - eapply good_bind with (P := Forall (row_ty (s_cols (sch p)))).
    { eapply for_rows_good; [|exact T'|constructor]. intros s i r Gs R. cbn [good]. apply Forall_app; auto. }
    intros rows R. eapply good_bind with (P := fun w => tg false (sch p) (w_tab w)); [|intros w' Gw; exact Gw].
    unfold merge_vec, merge. eapply good_bind with (P := fun q : unit * wlock => tg false (sch p) (w_tab (snd q))); [|intros q Gq; exact Gq].
    apply (good_tg pr false (sch p) (@snd unit wlock)); [exact Nc|]. apply (good_merge_logged pr _ _ (sch p)); [exact (tg_good _ _ _ G)|].
    apply sort_rows_ty. exact R.
  - eapply for_rows_good; [|exact T'|exact G]. intros s i r Gs R. eapply good_bind; [apply update_row_good; exact R|].
    intros r' R'. unfold merge_in_a_single_row.
    eapply good_bind with (P := fun q : wlock * nat => tg false (sch p) (w_tab (fst q))); [|intros q Gq; exact Gq].
    eapply good_bind with (P := fun q : list nat * wlock => tg false (sch p) (w_tab (snd q))).
    + apply (good_tg pr false (sch p) (@snd (list nat) wlock)); [exact Nc|]. apply (good_merge_logged pr _ _ (sch p)); [exact (tg_good _ _ _ Gs)|auto].
    + intros q Gq. destruct (fst q) as [|i0 [|? ?]]; try exact I. exact Gq.
Qed.
Lemma edits_good p es w : tg false (sch p) (w_tab w) -> Forall (op_ty (s_cols (sch p))) es ->
  good pr (fun w => tg false (sch p) (w_tab w)) (do_edits pr umax w es).
Proof.
  pose proof (nobag p) as B. intros G F. unfold do_edits. eapply good_bind with (P := fun q => tg false (sch p) (w_tab (fst q))).
  - apply (good_fold pr (fun q => tg false (sch p) (w_tab (fst q)))); [exact G|]. intros q o Ho G1. rewrite Forall_forall in F. specialize (F o Ho).
    unfold do_edit. destruct (through_lock o) eqn:Tl; [|exact I]. destruct (avail _ o) eqn:Av; [|exact I]. cbn [andb].
    rewrite (tg_kind _ _ _ G1) in Av. apply good_write_op; auto; [|discriminate]. intros _ _. destruct o; try reflexivity; discriminate.
  - intros q Gq. destruct (snd q); [exact Gq|exact I].
Qed.
Lemma take_all_sp qs (Q : unit -> Prop) : Q tt -> sp (p_take_all qs) Q.
Proof. intro H. induction qs as [|q qs IH]; cbn [p_take_all]; ss; assumption. Qed.
Lemma give_all_sp qs (Q : unit -> Prop) : Q tt -> sp (p_give_all qs) Q.
Proof. intro H. induction qs as [|q qs IH]; cbn [p_give_all]; ss; assumption. Qed.
Definition ty_ok (o : top) : Prop :=
  match o with
  | TDo (XFlush p es _) | TDo (XLive p es _) => has p -> Forall (op_ty (s_cols (sch p))) es
  | TDo (XRestore p e _) => has p -> Forall2 (fun ty c => Forall (v_ty (ct_base ty)) (c_into_iter c)) (s_cols (sch p)) (ex_data e)
  | _ => True
  end.
Lemma validate_good a b : good pr (fun _ => True) (validate a b).
Proof.
  unfold validate. do 4 (destruct (negb _); [exact I|]). eapply good_bind with (P := fun _ => True).
  - generalize (hd_cols b). induction (hd_cols a) as [|m l IH]; intros [|c l']; cbn [cols_mismatch]; try exact I.
    eapply good_bind; [apply IH|]. intros; exact I.
  - intros x _. destruct (_ || _); exact I.
Qed.
Lemma step_sp o : ty_ok (TDo o) -> sp (p_step pr umax heads foreign order fuel o) (fun _ => True).
Proof.
  intro T. destruct o as [p es ev|p es ev|p e ev|p tr|p]; cbn [p_step ty_ok] in *.
  - ss. eapply sp_lift; [apply (edits_good p); [|apply T; assumption]; cbn; assumption|]. cbv beta. intros w Gw.
    apply (flush_sp _ (do_flush_sp fuel)); [exact Gw|exact I].
  - ss. eapply sp_lift; [apply (edits_good p); [|apply T; assumption]; cbn; assumption|]. cbv beta. intros w Gw. ss.
    apply (live_flush_sp _ (do_flush_sp fuel)); [exact Gw|]. intros w' Gw'. ss. exact I.
  - ss. unfold p_restore_extract. ss. eapply sp_lift; [apply validate_good|]. intros v _. destruct v as [er|].
    + eapply sp_bind, sp_lift; [apply (good_drop pr false (sch p)); cbn; assumption|]. intros t' Gt'. ss. exact I.
    + ss. apply take_all_sp. ss. apply sp_look. intros x0 _. ss. cbn [sp]. intros x Ix. split; [exact Ix|]. cbn [snd good]. ss.
      eapply sp_lift; [apply merge_extract_good; [|apply T; assumption]; cbn; assumption|]. cbv beta. intros s Gs. ss. apply give_all_sp.
      destruct (sel_empty _).
      * ss. exact I.
      * ss. cbn [sp]. intros y Iy. unfold xu_flush. destruct (nth_error (xu_fl y) p); cbn [fst snd good].
        -- split; [exact Iy|]. ss. apply (flush_sp _ (do_flush_sp fuel)); [exact Gs|exact I].
        -- split; [exact Iy|]. exact I.
  - ss. cbn [sp]. intros x Ix. split; [exact Ix|]. cbn [snd good]. ss. eapply sp_lift with (P := fun _ => True).
    { unfold xu_flush. destruct (nth_error _ _); exact I. }
    intros f _. ss. unfold change. cbn [sp]. intros y Iy. split; [exact Iy|]. ss. exact I.
  - ss. cbn [sp]. intros x Ix. unfold xu_flush. destruct (nth_error (xu_fl x) p); cbn [fst snd good].
    + split; [exact Ix|]. ss. exact I.
    + split; [exact Ix|]. exact I.
Qed.
Lemma locks_sp ls : forall (Q : unit -> Prop), Q tt -> sp (p_locks ls) Q.
Proof. induction ls as [|[q wr] ls IH]; intros Q H; cbn [p_locks]; ss; [exact H|]. apply IH. ss. exact H. Qed.
Lemma run_all_sp ops : Forall ty_ok ops -> sp (Threads.p_run pr umax heads foreign order fuel ops) (fun _ => True).
Proof.
  unfold Threads.p_run. generalize tt. induction ops as [|o ops IH]; intros u F; cbn [p_fold]; [exact I|].
  apply Forall_cons_iff in F. destruct F as [O F]. apply sp_bind. eapply sp_mono; [intros a _; apply IH; exact F|].
  destruct o as [o|p ev sel|ls]; cbn [p_top].
  - apply step_sp. exact O.
  - unfold p_select. ss. apply (do_flush_sp fuel). intro s. ss. exact I.
  - apply locks_sp. exact I.
Qed.

Definition all_safe (c : threads) : Prop := inv (th_x c) /\ Forall (fun t => sp (snd t) (fun _ => True)) (th_ts c).
Lemma all_safe_step c c' : thread_step c c' -> all_safe c -> all_safe c'.
Proof.
  intros H [Cx F]. destruct H; cbn [th_x th_ts] in *; apply Forall_app in F; destruct F as [Fa Fb];
    apply Forall_cons_iff in Fb; destruct Fb as [Ft Fb]; unfold all_safe; cbn [th_x th_ts].
  - split; [exact Cx|]. apply Forall_app; split; [exact Fa|]. constructor; [exact Ft|exact Fb].
  - split; [exact Cx|]. apply Forall_app; split; [exact Fa|]. constructor; [exact I|exact Fb].
  - split; [exact Cx|]. apply Forall_app; split; [exact Fa|]. constructor; [exact Ft|exact Fb].
  - destruct (Ft x Cx) as [C' Fk]. split; [exact C'|]. apply Forall_app; split; [exact Fa|]. constructor; [exact Fk|exact Fb].
Qed.
Lemma all_safe_steps c c' : thread_steps c c' -> all_safe c -> all_safe c'.
Proof. intros H K. induction H; auto. eapply all_safe_step; eauto. Qed.
End Safe.

(** ** Who changes what *)
Definition keeps (g : guards) (x y : xuni) : Prop := forall p,
  (nth_error (u_tabs (xu_u y)) p = nth_error (u_tabs (xu_u x)) p \/ In (LT p, true) g) /\
  (behind y p = behind x p \/ In (LF p, true) g).
Lemma keeps_refl g x : keeps g x x.
Proof. intro p. auto. Qed.
Section Owner.
Fixpoint op {A} (m : prog A) (g : guards) (Q : guards -> A -> Prop) : Prop :=
  match m with
  | Ret (Ok a) => Q g a
  | Ret (Err _) | Endless => True
  | Acq l wr k => op k ((l, wr) :: g) Q
  | Rel l wr k => op k (drop_guard l wr g) Q
  | Act f k => forall x, keeps g x (fst (f x)) /\ op (k (snd (f x))) g Q
  end.
Lemma op_bind {A B} (m : prog A) (f : A -> prog B) : forall g Q, op m g (fun g a => op (f a) g Q) -> op (pbind m f) g Q.
Proof.
  induction m as [r| |l wr k IH|l wr k IH|C h k IH]; intros g Q H; cbn [pbind op] in *; auto.
  - destruct r; exact H.
  - intro x. destruct (H x). auto.
Qed.
Lemma op_mono {A} (m : prog A) : forall g (Q R : guards -> A -> Prop), (forall g a, Q g a -> R g a) -> op m g Q -> op m g R.
Proof.
  induction m as [r| |l wr k IH|l wr k IH|C h k IH]; intros g Q R QR H; cbn [op] in *; eauto.
  - destruct r; auto.
  - intro x. destruct (H x). eauto.
Qed.
Lemma op_take l wr g (Q : guards -> unit -> Prop) : Q ((l, wr) :: g) tt -> op (take_lock l wr) g Q.
Proof. auto. Qed.
Lemma op_give l wr g (Q : guards -> unit -> Prop) : Q g tt -> op (give_lock l wr) ((l, wr) :: g) Q.
Proof. intro H. unfold give_lock. cbn [op]. rewrite drop_hd. exact H. Qed.
Lemma op_lift {A} (r : res A) g (Q : guards -> A -> Prop) : (forall a, r = Ok a -> Q g a) -> op (lift r) g Q.
Proof. intro H. unfold lift. cbn. destruct r; auto. Qed.
Lemma op_look {B} (f : universe -> B) g (Q : guards -> B -> Prop) : (forall b, Q g b) -> op (look f) g Q.
Proof. intros H x. split; [apply keeps_refl|]. apply H. Qed.
Lemma op_say n g (Q : guards -> unit -> Prop) : Q g tt -> op (change (fun u => u_say u n)) g Q.
Proof. intros H x. split; [|exact H]. intro p. split; left; reflexivity. Qed.
Lemma op_get p g (Q : guards -> table -> Prop) : (forall t, Q g t) -> op (get_tab p) g Q.
Proof. intro H. apply op_bind. apply op_look. intro r. apply op_lift. auto. Qed.
Lemma op_put p t g (Q : guards -> unit -> Prop) : In (LT p, true) g -> Q g tt -> op (put_tab p t) g Q.
Proof.
  intros L H x. split; [|exact H]. intro q. split; [|left; reflexivity]. cbn. destruct (Nat.eq_dec q p) as [->|Ne]; [right; exact L|].
  left. apply nth_error_upd_ne. congruence.
Qed.
Lemma keeps_fl p f x g : In (LF p, true) g -> keeps g x (XU (xu_u x) (upd (xu_fl x) p f)).
Proof.
  intros L q. split; [left; reflexivity|]. destruct (Nat.eq_dec q p) as [->|Ne]; [right; exact L|]. left. unfold behind. cbn [xu_u xu_fl].
  rewrite nth_error_upd_ne by congruence. reflexivity.
Qed.
Ltac o1 :=
  match goal with
  | |- op (pbind _ _) _ _ => apply op_bind; cbv beta
  | |- op (take_lock _ _) _ _ => apply op_take
  | |- op (give_lock _ _) _ _ => apply op_give
  | |- op (put_tab _ _) _ _ => apply op_put; [cbn [In]; auto 6|]
  | |- op (get_tab _) _ _ => apply op_get; intro
  | |- op (look _) _ _ => apply op_look; intro
  | |- op (lift _) _ _ => apply op_lift; intros ? ?
  | |- op (change (fun u => u_say u _)) _ _ => apply op_say
  | u : unit |- _ => destruct u
  end.
Ltac os := repeat o1.
Variables (pr : profile) (umax : nat).
Definition calls_keep (call : nat -> event -> bool -> bool -> select -> prog select) : Prop :=
  forall p ev pushed del sel g (Q : guards -> select -> Prop), (forall sel', Q g sel') -> op (call p ev pushed del sel) g Q.
Section With.
Variable call : nat -> event -> bool -> bool -> select -> prog select.
Hypothesis CO : calls_keep call.
Lemma flush_op p w ev g (Q : guards -> unit -> Prop) : Q g tt -> op (p_flush_with pr umax call p w ev) ((LT p, true) :: g) Q.
Proof.
  intros H. unfold p_flush_with. destruct (sel_empty (w_changes w)).
  - os. exact H.
  - os. apply CO. intro sel. os. destruct (_ && _); [|os; exact H]. os. exact H.
Qed.
Lemma live_flush_op p w ev g (Q : guards -> wlock -> Prop) : (forall w, Q ((LT p, true) :: g) w) ->
  op (p_live_flush_with pr umax call p w ev) ((LT p, true) :: g) Q.
Proof.
  intros H. unfold p_live_flush_with. destruct (sel_empty (w_changes w)).
  - os. apply H.
  - os. apply CO. intro sel. os. cbn [op]. intros x. unfold xu_flush. destruct (nth_error (xu_fl x) p) as [f|] eqn:E; cbn [fst snd].
    + split; [|os; apply H]. intro q. split; left; [reflexivity|]. unfold behind. cbn [xu_u xu_fl]. destruct (Nat.eq_dec q p) as [->|Ne].
      * rewrite nth_error_upd_eq by (apply nth_error_Some; congruence). rewrite E. cbn [option_map]. destruct (has_remapping f); reflexivity.
      * rewrite nth_error_upd_ne by congruence. reflexivity.
    + split; [apply keeps_refl|]. os. discriminate.
Qed.
Lemma remove_op c ev rows g (Q : guards -> unit -> Prop) : Q g tt -> op (p_remove_rows_with pr umax call c ev rows) g Q.
Proof. intro H. unfold p_remove_rows_with. os. destruct (t_kind _); try exact I. all: os; apply flush_op; assumption. Qed.
Lemma run_op hd c ev rows g (Q : guards -> unit -> Prop) : Q g tt -> op (p_run_with pr umax call hd c ev rows) g Q.
Proof.
  intro H.
  assert (Fin : forall rows, op (let! _ := take_lock (LT c) false in let! _ := take_lock (LF c) false in
           let! _ := call c ev (ev_creation ev) (ev_removal ev) rows in let! _ := give_lock (LF c) false in give_lock (LT c) false) g Q).
  { intro r. os. apply CO. intros _. os. exact H. }
  unfold p_run_with. destruct hd; cbn [p_handle_with].
  - os. apply remove_op. apply Fin.
  - do 4 o1. apply Fin.
  - os. discriminate.
Qed.
Lemma auto_op hd c k key ev rows g (Q : guards -> unit -> Prop) : Q g tt -> op (p_auto_handle pr umax call hd c k key ev rows) g Q.
Proof. intro H. unfold p_auto_handle. os. apply run_op; assumption. Qed.
Lemma turns_op p hd ev l : forall s g (Q : guards -> select * bool -> Prop), (forall s, Q g s) -> op (p_fold (p_turn pr umax call hd p ev) l s) g Q.
Proof.
  induction l as [|[i tr] l IH]; intros s g Q H; cbn [p_fold]; [os; apply H|].
  os. assert (T : forall s, op (p_fold (p_turn pr umax call hd p ev) l s) g Q) by (intro s'; apply IH; exact H).
  unfold p_turn. cbn [fst snd]. destruct (tracker_considers tr ev); [|os; apply T].
  os. destruct tr as [c k key|].
  - apply auto_op. os. apply T.
  - os. apply T.
Qed.
End With.
Lemma do_flush_op fuel : calls_keep (p_do_flush pr umax fuel).
Proof.
  induction fuel as [|n IH]; intros p ev pushed del sel g Q H; cbn [p_do_flush]; [exact I|].
  os. apply (turns_op _ IH). intro s. os. apply H.
Qed.
Variable heads : nat -> header.
Variable foreign : nat -> list (nat * nat).
Variable order : nat -> row -> row -> comparison.
Variable fuel : nat.
Fixpoint taken (qs : list nat) (g : guards) : guards :=
  match qs with [] => g | q :: qs => taken qs ((LF q, false) :: (LT q, false) :: g) end.
Lemma take_all_op qs : forall g (Q : guards -> unit -> Prop), Q (taken qs g) tt -> op (p_take_all qs) g Q.
Proof. induction qs as [|q qs IH]; intros g Q H; cbn [p_take_all]; os; [exact H|]. apply IH. exact H. Qed.
Lemma give_app a b : forall g (Q : guards -> unit -> Prop), op (p_give_all a) g (fun g _ => op (p_give_all b) g Q) -> op (p_give_all (a ++ b)) g Q.
Proof.
  induction a as [|q a IH]; intros g Q H; cbn [p_give_all app] in *; [exact H|]. cbn [pbind give_lock op] in *. apply IH. exact H.
Qed.
Lemma give_all_op qs : forall g (Q : guards -> unit -> Prop), Q g tt -> op (p_give_all (rev qs)) (taken qs g) Q.
Proof.
  induction qs as [|q qs IH]; intros g Q H; cbn [rev taken]; [exact H|]. apply give_app. apply IH. cbn [p_give_all]. os. exact H.
Qed.
Lemma step_op o : op (p_step pr umax heads foreign order fuel o) [] (fun g _ => g = []).
Proof.
  destruct o as [p es ev|p es ev|p e ev|p tr|p]; cbn [p_step].
  - os. apply (flush_op _ (do_flush_op fuel)). reflexivity.
  - os. apply (live_flush_op _ (do_flush_op fuel)). intro w. os. reflexivity.
  - os. unfold p_restore_extract. os. match goal with |- context [match ?v with Some _ => _ | None => _ end] => destruct v end.
    + os. reflexivity.
    + os. apply take_all_op. os. cbn [op]. intros x. split; [apply keeps_refl|]. os. apply give_all_op.
      match goal with |- context [if ?b then _ else _] => destruct b end; os; [reflexivity|].
      cbn [op]. intros y. unfold xu_flush. destruct (nth_error (xu_fl y) p); cbn [fst snd].
      * split; [apply keeps_fl; cbn; auto|]. os. apply (flush_op _ (do_flush_op fuel)). reflexivity.
      * split; [apply keeps_refl|]. os. discriminate.
  - os. cbn [op]. intros x. split; [apply keeps_refl|]. os. unfold change. cbn [op]. intros y. split; [|os; reflexivity].
    intro q. split; [left; reflexivity|]. destruct (Nat.eq_dec q p) as [->|Ne]; [right; cbn; auto|]. left. unfold behind. cbn [xu_u xu_fl fst]. f_equal.
    unfold u_trackers. cbn [u_trk].
    assert (E : nth_error (upd (u_trk (xu_u y)) p (nth p (u_trk (xu_u y)) [] ++ [tr])) q = nth_error (u_trk (xu_u y)) q) by (apply nth_error_upd_ne; congruence).
    destruct (nth_error (u_trk (xu_u y)) q) as [l|] eqn:El.
    + rewrite (nth_error_nth _ _ _ E), (nth_error_nth _ _ _ El). reflexivity.
    + rewrite !nth_overflow by (apply nth_error_None; assumption). reflexivity.
  - os. cbn [op]. intros y. unfold xu_flush. destruct (nth_error (xu_fl y) p); cbn [fst snd].
    + split; [apply keeps_fl; cbn; auto|]. os. reflexivity.
    + split; [apply keeps_refl|]. os. discriminate.
Qed.
Lemma locks_op ls : forall g (Q : guards -> unit -> Prop), Q g tt -> op (p_locks ls) g Q.
Proof. induction ls as [|[q wr] ls IH]; intros g Q H; cbn [p_locks]; os; [exact H|]. apply IH. os. exact H. Qed.
Lemma run_all_op ops : op (Threads.p_run pr umax heads foreign order fuel ops) [] (fun g _ => g = []).
Proof.
  unfold Threads.p_run. generalize tt. induction ops as [|o ops IH]; intros u; cbn [p_fold]; [os; reflexivity|].
  apply op_bind. apply (op_mono _ _ (fun g _ => g = [])); [intros g a ->; apply IH|].
  destruct o as [o|p ev sel|ls]; cbn [p_top].
  - apply step_op.
  - unfold p_select. os. apply (do_flush_op fuel). intro s. os. reflexivity.
  - apply locks_op. reflexivity.
Qed.

End Owner.

(** ** Nobody has what another has for writing *)
Definition own_ok (t : guards * prog unit) : Prop := op (snd t) (fst t) (fun g _ => g = []).
Definition apart (s t : guards * prog unit) : Prop := forall l wr wr', In (l, wr) (owned s) -> In (l, wr') (owned t) -> wr = false /\ wr' = false.
Definition all_apart (c : threads) : Prop :=
  forall i j s t, i <> j -> nth_error (th_ts c) i = Some s -> nth_error (th_ts c) j = Some t -> apart s t.
Definition all_own (c : threads) : Prop := Forall own_ok (th_ts c) /\ all_apart c.
Lemma lets_in g l wr wr' : lets g l wr = true -> In (l, wr') g -> wr = false /\ wr' = false.
Proof.
  unfold lets. rewrite forallb_forall. intros H Hin. specialize (H _ Hin). cbn [fst snd] in H. rewrite lock_eqb_refl in H. cbn in H.
  apply andb_prop in H. destruct H. destruct wr, wr'; auto.
Qed.
Lemma drop_in y l wr g : In y (drop_guard l wr g) -> In y g.
Proof.
  induction g as [|z g IH]; [auto|]. cbn. destruct (_ && _); [auto|]. intros [H|H]; auto.
Qed.
(** One thread's locks become fewer, or others let it have one more. *)
Lemma apart_change x x' a b t t' : all_apart (TH x (a ++ t :: b)) ->
  (forall y, In y (owned t') -> In y (owned t) \/ forall s, In s (a ++ t :: b) -> lets (owned s) (fst y) (snd y) = true) ->
  all_apart (TH x' (a ++ t' :: b)).
Proof.
  intros H K. unfold all_apart in *. cbn [th_ts] in *.
  assert (One : forall k s, k <> length a -> nth_error (a ++ t' :: b) k = Some s -> apart s t' /\ apart t' s).
  { intros k s Nk E. assert (E' : nth_error (a ++ t :: b) k = Some s).
    { destruct (lt_dec k (length a)) as [L|L]; [rewrite nth_error_app1 in * by lia; exact E|]. rewrite nth_error_app2 in * by lia.
      destruct (k - length a) as [|n] eqn:En; [lia|exact E]. }
    assert (Et : nth_error (a ++ t :: b) (length a) = Some t) by (rewrite nth_error_app2, Nat.sub_diag by lia; reflexivity).
    pose proof (H _ _ _ _ Nk E' Et) as H1.
    assert (In' : In s (a ++ t :: b)) by (eapply nth_error_In; exact E').
    assert (AP : apart s t').
    { intros l wr wr' S T. destruct (K _ T) as [T'|T']; [eapply H1; eassumption|]. specialize (T' s In'). cbn [fst snd] in T'.
      destruct (lets_in _ _ _ _ T' S). auto. }
    split; [exact AP|]. intros l wr wr' T S. destruct (AP _ _ _ S T). auto. }
  assert (Old : forall k s, k <> length a -> nth_error (a ++ t' :: b) k = Some s -> nth_error (a ++ t :: b) k = Some s).
  { intros k s Nk E. destruct (lt_dec k (length a)) as [L|L]; [rewrite nth_error_app1 in * by lia; exact E|]. rewrite nth_error_app2 in * by lia.
    destruct (k - length a) as [|n] eqn:En; [lia|exact E]. }
  assert (New : forall s, nth_error (a ++ t' :: b) (length a) = Some s -> s = t').
  { intros s E. rewrite nth_error_app2, Nat.sub_diag in E by lia. cbn in E. congruence. }
  intros i j s s' Ne Ei Ej. destruct (Nat.eq_dec i (length a)) as [->|Ni].
  - rewrite (New _ Ei). apply (One j s'); [congruence|exact Ej].
  - destruct (Nat.eq_dec j (length a)) as [->|Nj].
    + rewrite (New _ Ej). apply (One i s); [exact Ni|exact Ei].
    + apply (H i j); auto.
Qed.
Lemma all_own_step c c' : thread_step c c' -> all_own c -> all_own c'.
Proof.
  intros H [F A]. destruct H as [x a g l wr k b M|x a g l wr k b M|x a g l wr k b|x a g B f k b]; cbn [th_ts] in *;
    apply Forall_app in F; destruct F as [Fa Fb]; apply Forall_cons_iff in Fb; destruct Fb as [Ft Fb]; unfold all_own; cbn [th_ts].
  - split; [apply Forall_app; split; [exact Fa|]; constructor; [exact Ft|exact Fb]|]. eapply apart_change; [exact A|]. intros y Hy.
    assert (D : In y ((l, wr) :: g)) by (unfold owned in Hy; cbn [fst snd] in Hy; destruct k as [[|]| | | |]; try exact Hy; destruct Hy).
    destruct D as [<-|D]; [right; intros s Hs; apply M; exact Hs|left; exact D].
  - split; [apply Forall_app; split; [exact Fa|]; constructor; [exact I|exact Fb]|]. eapply apart_change; [exact A|]. intros y [].
  - split; [apply Forall_app; split; [exact Fa|]; constructor; [exact Ft|exact Fb]|]. eapply apart_change; [exact A|]. intros y Hy. left.
    assert (D : In y (drop_guard l wr g)) by (unfold owned in Hy; cbn [fst snd] in Hy; destruct k as [[|]| | | |]; try exact Hy; destruct Hy).
    exact (drop_in _ _ _ _ D).
  - split.
    + apply Forall_app; split; [exact Fa|]. constructor; [|exact Fb]. exact (proj2 (Ft x)).
    + eapply apart_change; [exact A|]. intros y Hy. left. unfold owned in *. cbn [fst snd] in *. destruct (k (snd (f x))) as [[|]| | | |]; try exact Hy; destruct Hy.
Qed.
Lemma all_own_steps c c' : thread_steps c c' -> all_own c -> all_own c'.
Proof. intros H K. induction H; auto. eapply all_own_step; eauto. Qed.
Lemma started_own pr umax heads foreign order fuel x tss : all_own (started x (map (Threads.p_run pr umax heads foreign order fuel) tss)).
Proof.
  split.
  - unfold started. cbn [th_ts]. rewrite map_map. apply Forall_forall. intros t Ht. apply in_map_iff in Ht. destruct Ht as (ops & <- & _). apply run_all_op.
  - intros i j s t _ Ei _ l wr wr' H _. cbn [started th_ts] in Ei. rewrite map_map in Ei. apply nth_error_In in Ei. apply in_map_iff in Ei. destruct Ei as (ops & <- & _).
    exfalso. unfold owned in H. cbn [fst snd] in H. destruct (Threads.p_run pr umax heads foreign order fuel ops) as [[|]| | | |]; destruct H.
Qed.
Lemma own_changes c c' : all_own c -> thread_step c c' -> forall l,
  match l with
  | LT p => nth_error (u_tabs (xu_u (th_x c'))) p <> nth_error (u_tabs (xu_u (th_x c))) p
  | LF p => behind (th_x c') p <> behind (th_x c) p
  end -> exclusive c c' l.
Proof.
  intros [F A] H l N. destruct H as [x a g l' wr k b M|x a g l' wr k b M|x a g l' wr k b|x a g B f k b]; cbn [th_x th_ts] in *;
    try (destruct l; contradiction).
  exists a, g, (Act f k), (k (snd (f x))), b. split; [reflexivity|]. split; [reflexivity|].
  apply Forall_app in F. destruct F as [_ Fb]. apply Forall_cons_iff in Fb. destruct Fb as [Ft _].
  assert (L : In (l, true) g).
  { destruct (Ft x) as [Kp _]. destruct l as [p|p]; destruct (Kp p) as [K1 K2]; [destruct K1 as [E|E]|destruct K2 as [E|E]]; try contradiction; exact E. }
  split; [exact L|]. intros t wr Ht Hw.
  assert (Et : nth_error (a ++ (g, Act f k) :: b) (length a) = Some (g, Act f k)) by (rewrite nth_error_app2, Nat.sub_diag by lia; reflexivity).
  assert (D : exists j, j <> length a /\ nth_error (a ++ (g, Act f k) :: b) j = Some t).
  { apply in_app_iff in Ht. destruct Ht as [Ht|Ht]; apply In_nth_error in Ht; destruct Ht as [j Ej].
    - assert (j < length a) by (apply nth_error_Some; congruence). exists j. split; [lia|]. rewrite nth_error_app1 by lia. exact Ej.
    - exists (length a + S j). split; [lia|]. rewrite nth_error_app2 by lia. replace (length a + S j - length a) with (S j) by lia. exact Ej. }
  destruct D as (j & Nj & Ej). destruct (A _ _ _ _ Nj Ej Et l wr true Hw L). discriminate.
Qed.

(** ** From the start *)
Lemma started_safe pr umax heads foreign order fuel x tss :
  made pr umax (xu_u x) -> (forall p t, nth_error (u_tabs (xu_u x)) p = Some t -> pr = Debug \/ t_kind t <> Bag) ->
  Forall (Forall (top_ty (xu_u x))) tss ->
  exists (has : nat -> Prop) sch, (forall p, has p -> exists t, nth_error (u_tabs (xu_u x)) p = Some t /\ sch p = t_sch t) /\ (forall p, pr = Debug \/ s_kind (sch p) <> Bag) /\
    Forall (Forall (ty_ok has sch)) tss /\ all_safe pr has sch (started x (map (Threads.p_run pr umax heads foreign order fuel) tss)).
Proof.
  intros M B T.
  set (has := fun p => nth_error (u_tabs (xu_u x)) p <> None).
  set (sch := fun p => match nth_error (u_tabs (xu_u x)) p with Some t => t_sch t | None => Sch Append 0 [] end).
  exists has, sch. split.
  { intros p Hp. unfold has, sch in *. destruct (nth_error (u_tabs (xu_u x)) p) as [t|]; [|congruence]. eauto. }
  assert (NB : forall p, pr = Debug \/ s_kind (sch p) <> Bag).
  { intro p. unfold sch. destruct (nth_error _ p) as [t|] eqn:E; [exact (B _ _ E)|right; discriminate]. }
  split; [exact NB|].
  assert (T' : Forall (Forall (ty_ok has sch)) tss).
  { apply Forall_forall. intros ops Hin. rewrite Forall_forall in T. specialize (T ops Hin).
    eapply Forall_impl; [|exact T]. intros [[p es ev|p es ev|p e ev|p tr|p]|p ev sel|ls]; cbn [top_ty ty_ok]; auto; intros H Hp; unfold sch, has in *;
      (destruct (nth_error (u_tabs (xu_u x)) p) as [t|] eqn:E; [apply H; reflexivity|congruence]). }
  split; [exact T'|]. split.
  - intros p t E. cbn [started th_x] in E. split; [unfold has; congruence|]. unfold sch. rewrite E. apply (reachable_tg pr umax (t_sch t) (Free t)). exact (M _ _ E).
  - unfold started. cbn [th_ts]. rewrite map_map. apply Forall_forall. intros t Ht. apply in_map_iff in Ht.
    destruct Ht as (ops & <- & Hin). cbn [snd]. apply run_all_sp; [exact NB|]. rewrite Forall_forall in T'. exact (T' ops Hin).
Qed.
Lemma safe_threads pr umax heads foreign order fuel x tss c :
  made pr umax (xu_u x) -> (forall p t, nth_error (u_tabs (xu_u x)) p = Some t -> pr = Debug \/ t_kind t <> Bag) ->
  Forall (Forall (top_ty (xu_u x))) tss ->
  thread_steps (started x (map (Threads.p_run pr umax heads foreign order fuel) tss)) c ->
  (forall g, ~ In (g, Ret (Err EUB)) (th_ts c)) /\
  forall p t, nth_error (u_tabs (xu_u (th_x c))) p = Some t ->
    (exists t0, nth_error (u_tabs (xu_u x)) p = Some t0 /\ t_sch t = t_sch t0) /\
    forall ops, Forall (op_ty (s_cols (t_sch t))) ops -> run pr umax (Free t) ops <> Err EUB.
Proof.
  intros M B T S. destruct (started_safe pr umax heads foreign order fuel x tss M B T) as (has & sch & Hs & NB & _ & T0).
  destruct (all_safe_steps _ _ _ _ _ S T0) as [Ic Fc]. split.
  - intros g Hin. rewrite Forall_forall in Fc. exact (Fc _ Hin).
  - intros p t E. destruct (Ic _ _ E) as [Hp G]. assert (Es : t_sch t = sch p) by apply G. split.
    + destruct (Hs p Hp) as (t0 & E0 & E1). exists t0. split; [exact E0|congruence].
    + rewrite Es. intros ops To R.
      assert (Gr : good pr (fun st => tg false (sch p) (st_tab st)) (run pr umax (Free t) ops)).
      { apply good_fold; [exact G|]. intros st o Ho Gst. rewrite Forall_forall in To. apply good_step; auto; [|discriminate].
        intros -> Kb. destruct (NB p); congruence. }
      rewrite R in Gr. exact Gr.
Qed.
Lemma locked_threads pr umax heads foreign order fuel x tss c c' l :
  thread_steps (started x (map (Threads.p_run pr umax heads foreign order fuel) tss)) c -> thread_step c c' ->
  match l with
  | LT p => nth_error (u_tabs (xu_u (th_x c'))) p <> nth_error (u_tabs (xu_u (th_x c))) p
  | LF p => behind (th_x c') p <> behind (th_x c) p
  end -> exclusive c c' l.
Proof.
  intros S T N. apply own_changes; auto.
  exact (all_own_steps _ _ S (started_own pr umax heads foreign order fuel x tss)).
Qed.
