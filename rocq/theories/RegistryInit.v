(** Proofs about the registry: universes being made, trackers, locked domains, poisoning. *)
From Coq Require Import List Arith Bool Lia.
From Verif Require Import Base BaseFacts Names NamesFacts Table Extract ExtractFacts Registry RegistrySpec RegistryFacts RegistryProps.
Import ListNotations.

(** ** Trackers being registered *)
Definition told (n : name) (tn : name) (ts : list tracker) (t : tinst) : tinst :=
  TI (ti_decl t) (ti_trk t ++ map tk_id (filter (tracks n tn) ts)) (ti_rows t) (ti_poison t).
Definition keeps (ts : list tracker) (u u' : uni) : Prop :=
  forall j, match nth_error u j with
            | Some (Dom d) => exists d', nth_error u' j = Some (Dom d') /\ dn_id d' = dn_id d /\ dn_name d' = dn_name d /\ dn_cells d' = dn_cells d /\ dn_order d' = dn_order d /\
                forall tn, nget (dn_tabs d') tn = option_map (told (dn_name d) tn ts) (nget (dn_tabs d) tn)
            | m => nth_error u' j = m
            end.
Lemma told_nil n tn t : told n tn [] t = t.
Proof. destruct t. unfold told. cbn. rewrite app_nil_r. reflexivity. Qed.
Lemma keeps_refl u : keeps [] u u.
Proof.
  intro j. destruct (nth_error u j) as [[n|d]|]; auto. exists d. split; auto. split; auto. split; auto. split; auto. split; auto. intro tn. destruct (nget (dn_tabs d) tn); cbn; auto.
  rewrite told_nil. reflexivity.
Qed.
Lemma keeps_app a b u u1 u2 : keeps a u u1 -> keeps b u1 u2 -> keeps (a ++ b) u u2.
Proof.
  intros A B j. specialize (A j). specialize (B j). destruct (nth_error u j) as [[n|d]|].
  - rewrite A in B. exact B.
  - destruct A as (d1 & E & A1 & A2 & A3 & A4 & A5). rewrite E in B. destruct B as (d2 & E2 & B1 & B2 & B3 & B4 & B5). exists d2. split; auto. split; [congruence|]. split; [congruence|].
    split; [congruence|]. split; [congruence|]. intro tn. rewrite B5, A5, A2. destruct (nget (dn_tabs d) tn) as [t|]; cbn; auto. unfold told. cbn.
    rewrite filter_app, map_app, app_assoc. reflexivity.
  - rewrite A in B. exact B.
Qed.
Lemma register_tracker_keeps w u tr u' : ginv (w_glob w) -> uinv (w_glob w) u -> register_tracker w u tr = (u', Ok tt) -> keeps [tr] u u'.
Proof.
  intros G U H. unfold register_tracker in H. destruct (find_table w u (tk_domain tr) (tk_table tr)) as [[[id d] t]|e] eqn:F; [|discriminate].
  destruct (ti_poison t) eqn:P; [discriminate|]. destruct (negb (td_type (ti_decl t) =? tk_type tr)); [discriminate|]. destruct (negb (tk_cons tr)); [discriminate|]. inv H.
  destruct (find_table_ok _ _ _ _ _ _ _ F) as (E & T & GI). destruct (get_id_ok _ _ _ GI) as (_ & di & D & I).
  destruct (ginv_nget_nth _ _ _ G D) as [N _]. rewrite I in N.
  assert (Nm : dn_name d = tk_domain tr). { assert (X := U _ _ E). cbn in X. destruct X as (i & X & _). congruence. }
  intro j. unfold put_table. rewrite nth_error_upd. destruct (Nat.eqb_spec j id) as [->|Nj]; cbn [andb].
  - pose proof (nth_error_Some_lt _ _ _ E) as L. apply Nat.ltb_lt in L. rewrite L, E. eexists. split; [reflexivity|]. cbn. split; auto. split; auto. split; auto. split; auto.
    intro tn. rewrite nget_nset by congruence. destruct (neqb_spec (tk_table tr) tn) as [<-|Nt].
    + rewrite T. cbn. unfold told. cbn. unfold tracks. rewrite Nm, !neqb_refl. cbn. rewrite P. reflexivity.
    + destruct (nget (dn_tabs d) tn) as [t'|]; cbn; auto. unfold told, tracks. cbn. destruct (neqb_spec (tk_table tr) tn); [contradiction|]. rewrite andb_false_r. cbn. rewrite app_nil_r. destruct t'; auto.
  - destruct (nth_error u j) as [[n|d0]|] eqn:Ej; auto. exists d0. split; auto. split; auto. split; auto. split; auto. split; auto.
    assert (Nd : dn_name d0 <> tk_domain tr).
    { intro X. assert (Y := U _ _ Ej). cbn in Y. destruct Y as (i & Y & _). rewrite X in Y. apply Nj. pose proof (gv_nd _ G) as ND.
      assert (M : nth_error (map fst (g_doms (w_glob w))) j = nth_error (map fst (g_doms (w_glob w))) id) by (rewrite !nth_error_map, Y, N; reflexivity).
      rewrite NoDup_nth_error in ND. apply ND; auto. apply nth_error_Some_lt in Y. rewrite map_length. exact Y. }
    intro tn. destruct (nget (dn_tabs d0) tn) as [t'|]; cbn; auto. unfold told, tracks. cbn. destruct (neqb_spec (tk_domain tr) (dn_name d0)); [congruence|]. cbn. rewrite app_nil_r. destruct t'; auto.
Qed.
Lemma register_trackers_keeps w ts : forall u u', ginv (w_glob w) -> uinv (w_glob w) u -> register_trackers w u ts = (u', Ok tt) -> keeps ts u u'.
Proof.
  induction ts as [|t ts IH]; intros u u' G U H; cbn [register_trackers] in H.
  - inv H. apply keeps_refl.
  - destruct (register_tracker w u t) as [u1 [[]|e]] eqn:E; [|discriminate]. change (t :: ts) with ([t] ++ ts). eapply keeps_app; [eapply register_tracker_keeps; eauto|].
    apply IH; auto. eapply uinv_shapes; [exact U|]. pose proof (register_tracker_shapes w u t) as S. rewrite E in S. exact S.
Qed.
Lemma keeps_decls ts u u' j d : keeps ts u u' -> nth_error u j = Some (Dom d) -> exists d', nth_error u' j = Some (Dom d') /\ dn_name d' = dn_name d /\ dn_order d' = dn_order d /\
  forall tn, option_map ti_decl (nget (dn_tabs d') tn) = option_map ti_decl (nget (dn_tabs d) tn).
Proof.
  intros K E. specialize (K j). rewrite E in K. destruct K as (d' & E' & _ & N & _ & O & T). exists d'. split; auto. split; auto. split; auto. intro tn. rewrite T. destruct (nget (dn_tabs d) tn); auto.
Qed.
Definition trk_of (d : dinst) (tn : name) : list tracker := match nget (dn_tabs d) tn with Some t => td_trk (ti_decl t) | None => [] end.
Lemma init_tables_keeps w id order : forall u u' d, ginv (w_glob w) -> uinv (w_glob w) u -> nth_error u id = Some (Dom d) -> init_tables w u id order = (u', Ok tt) ->
  keeps (flat_map (trk_of d) order) u u'.
Proof.
  induction order as [|tn order IH]; intros u u' d G U E H; cbn [init_tables flat_map] in *.
  - inv H. apply keeps_refl.
  - rewrite E in H. unfold trk_of at 1. destruct (nget (dn_tabs d) tn) as [t|] eqn:T; [|discriminate]. destruct (ti_poison t); [discriminate|].
    destruct (register_trackers w u (td_trk (ti_decl t))) as [u1 [[]|e]] eqn:R; [|discriminate]. assert (K := register_trackers_keeps _ _ _ _ G U R). eapply keeps_app; [exact K|].
    destruct (keeps_decls _ _ _ _ _ K E) as (d1 & E1 & _ & _ & D). replace (flat_map (trk_of d) order) with (flat_map (trk_of d1) order).
    + apply IH; auto. eapply uinv_shapes; [exact U|]. pose proof (register_trackers_shapes w (td_trk (ti_decl t)) u) as S. rewrite R in S. exact S.
    + apply flat_map_ext. intro a. unfold trk_of. specialize (D a). destruct (nget (dn_tabs d1) a), (nget (dn_tabs d) a); cbn in D; inv D; auto; congruence.
Qed.
Lemma flat_map_names (l : list (name * tdecl)) : NoDup (map fst l) -> flat_map (fun n => match nget l n with Some t => td_trk t | None => [] end) (map fst l) = flat_map (fun p => td_trk (snd p)) l.
Proof.
  induction l as [|[n t] l IH]; intro ND; cbn [map fst flat_map nget snd]; auto. inv ND. rewrite neqb_refl. f_equal. rewrite <- IH by auto. rewrite !flat_map_concat_map. f_equal.
  apply map_ext_in. intros a Ha. destruct (neqb_spec n a) as [->|]; [contradiction|reflexivity].
Qed.
Lemma init_domain_keeps w u n u' : ginv (w_glob w) -> uinv (w_glob w) u -> init_domain w u n = (u', Ok tt) -> keeps (wanted w n) u u'.
Proof.
  intros G U H. unfold init_domain in H. destruct (get_id w n) as [id|e] eqn:I; [|discriminate]. destruct (nth_error u id) as [[m|d]|] eqn:E; try discriminate.
  destruct (get_id_ok _ _ _ I) as (_ & i & D & Ei). assert (K := init_tables_keeps _ _ _ _ _ _ G U E H). assert (X := U _ _ E). cbn in X. destruct X as (i' & X & _ & _ & _ & T & O).
  destruct (ginv_nget_nth _ _ _ G D) as [N _]. rewrite Ei, X in N. inv N. unfold wanted. rewrite D. pose proof (gv_dom _ G _ _ D) as V.
  rewrite <- flat_map_names by apply V. rewrite O, (dv_order _ _ _ V) in K. replace (flat_map (fun n => match nget (di_tabs i) n with Some t => td_trk t | None => [] end) (map fst (di_tabs i))) with (flat_map (trk_of d) (map fst (di_tabs i))); auto.
  apply flat_map_ext. intro a. unfold trk_of. rewrite <- T, nget_map. destruct (nget (dn_tabs d) a); auto.
Qed.
Lemma init_domains_keeps w ns : forall u u', ginv (w_glob w) -> uinv (w_glob w) u -> init_domains w u ns = (u', Ok tt) -> keeps (flat_map (wanted w) ns) u u'.
Proof.
  induction ns as [|n ns IH]; intros u u' G U H; cbn [init_domains flat_map] in *.
  - inv H. apply keeps_refl.
  - destruct (init_domain w u n) as [u1 [[]|e]] eqn:E; [|discriminate]. eapply keeps_app; [eapply init_domain_keeps; eauto|]. apply IH; auto.
    eapply uinv_shapes; [exact U|]. pose proof (init_domain_shapes w u n) as S. rewrite E in S. exact S.
Qed.

(** ** Domains being instantiated *)
Definition fresh_dn (g : globals) (d : dinst) : Prop :=
  exists i, nget (g_doms g) (dn_name d) = Some i /\ Forall2 (fun gid c => nth_error (g_prod g) gid = Some c) (di_props i) (dn_cells d) /\
    dn_tabs d = map (fun p => (fst p, TI (snd p) [] 0 false)) (di_tabs i).
Lemma instantiate_fresh g n g' d : ginv g -> instantiate g n = (g', Ok d) -> exists i, nget (g_doms g) n = Some i /\ g' = set_dom g n (lock_of i) /\ dn_id d = di_id i /\ dn_name d = n /\ fresh_dn g' d.
Proof.
  intros G H. assert (S := instantiate_spec g n G). destruct (nget (g_doms g) n) as [i|] eqn:E.
  - destruct S as (d' & S & A & B & C & T & O). rewrite S in H. inv H. exists i. split; auto. split; auto. split; auto. split; auto.
    exists (lock_of i). cbn. split; [rewrite nget_nset by congruence; rewrite neqb_refl; reflexivity|]. auto.
  - unfold instantiate in H. rewrite E in H. discriminate.
Qed.
Lemma fresh_lock g n i d : nget (g_doms g) n = Some i -> fresh_dn g d -> fresh_dn (set_dom g n (lock_of i)) d.
Proof.
  intros E (i' & A & B & C). cbn. destruct (neqb_spec n (dn_name d)) as [->|N].
  - rewrite A in E. inv E. exists (lock_of i). cbn. rewrite nget_nset, neqb_refl by congruence. auto.
  - exists i'. cbn. rewrite nget_nset by congruence. destruct (neqb_spec n (dn_name d)); [contradiction|]. auto.
Qed.
Lemma get_domains_loop_fresh ns : forall g u g' u', ginv g -> (forall j d, nth_error u j = Some (Dom d) -> fresh_dn g d) -> get_domains_loop g u ns = (g', Ok u') ->
  (forall j d, nth_error u' j = Some (Dom d) -> fresh_dn g' d) /\
  (forall j d, nth_error u j = Some (Dom d) -> exists d', nth_error u' j = Some (Dom d')) /\
  (forall n, In n ns -> exists i d, nget (g_doms g) n = Some i /\ nth_error u' (di_id i) = Some (Dom d)).
Proof.
  induction ns as [|n ns IH]; intros g u g' u' G F H; cbn [get_domains_loop] in H.
  - inv H. split; auto. split; eauto. contradiction.
  - destruct (instantiate g n) as [g1 [d|e]] eqn:E; [|discriminate]. destruct (Nat.ltb_spec (dn_id d) (length u)) as [L|]; [|discriminate].
    destruct (instantiate_fresh _ _ _ _ G E) as (i & D & -> & I & Nm & Fd). destruct (set_lock_ok _ _ _ G D) as [G1 X1].
    apply IH in H; auto.
    + destruct H as (A & B & C). split; auto. split.
      * intros j d0 Hj. destruct (Nat.eq_dec j (dn_id d)) as [->|N]; [eapply B; apply nth_error_upd_eq; auto|]. eapply B. rewrite nth_error_upd_ne by auto. eauto.
      * intros m [->|Hm].
        -- destruct (B (dn_id d) d) as [d' Hd]; [apply nth_error_upd_eq; auto|]. exists i, d'. rewrite <- I. auto.
        -- destruct (C m Hm) as (i' & d' & Hi & Hd). cbn in Hi. rewrite nget_nset in Hi by congruence. destruct (neqb_spec n m) as [->|]; [inv Hi; cbn in Hd; eauto|eauto].
    + intros j d0. rewrite nth_error_upd. destruct (Nat.eqb_spec j (dn_id d)) as [->|]; cbn [andb]; [|intro Hj; apply fresh_lock; eauto].
      destruct (dn_id d <? length u); intro Hj; [inv Hj; auto|apply fresh_lock; eauto].
Qed.

(** ** New universes *)
Lemma wanted_gsame w w' n : gsame (w_glob w) (w_glob w') -> wanted w' n = wanted w n.
Proof.
  intros [_ H]. specialize (H n). unfold wanted. destruct (nget (g_doms (w_glob w')) n), (nget (g_doms (w_glob w)) n); cbn in H; inv H; auto; congruence.
Qed.
Lemma new_ok w ns : winv w -> r_ans w (RNew ns) = Ok None -> exists w1 u u', after w (RNew ns) = set_unis w1 (w_unis w ++ [u']) /\ w_poison w = false /\ w_poison w1 = false /\ w_stat w1 = w_stat w /\
  good w w1 /\ gsame (w_glob w) (w_glob w1) /\ uinv (w_glob w1) u /\ keeps (flat_map (wanted w) ns) u u' /\ (forall j d, nth_error u j = Some (Dom d) -> fresh_dn (w_glob w1) d) /\
  (forall n, In n ns -> exists i d, nget (g_doms (w_glob w)) n = Some i /\ nth_error u (di_id i) = Some (Dom d) /\ dn_name d = n).
Proof.
  intros W H. unfold r_ans in H. unfold after. cbn [r_step unit_res fst snd] in *. unfold new_universe in *. destruct (get_domains_good w ns W) as [Gd Gu].
  destruct (get_domains_rest w ns) as (R1 & R2 & R3). destruct (get_domains w ns) as [w1 [u|e]] eqn:E; cbn [fst snd] in *; [|discriminate].
  specialize (Gu u eq_refl). destruct (init_domains w1 u ns) as [u' [[]|e]] eqn:I; cbn [fst snd] in *; [|discriminate]. exists w1, u, u'. rewrite R2. split; auto.
  unfold get_domains, writing in E. destruct (w_poison w) eqn:P; [discriminate|]. split; auto. cbv zeta in E.
  destruct (get_domains_loop (w_glob w) (map Unset (g_d2n (w_glob w))) ns) as [g' [u0|e]] eqn:L; cbn [fst snd] in E; inv E. split; [exact P|]. split; auto. split; auto. split; auto. split; auto.
  split.
  { apply init_domains_keeps in I; [|apply Gd|exact Gu]. erewrite flat_map_ext; [exact I|]. intro n. symmetry. apply wanted_gsame. exact R3. }
  assert (F0 : forall j d, nth_error (map Unset (g_d2n (w_glob w))) j = Some (Dom d) -> fresh_dn (w_glob w) d).
  { intros j d X. rewrite nth_error_map in X. destruct (nth_error (g_d2n (w_glob w)) j); discriminate. }
  destruct (get_domains_loop_fresh _ _ _ _ _ (proj1 W) F0 L) as (A & B & C). split; auto. intros n Hn. destruct (C n Hn) as (i & d & D1 & D2). exists i, d. split; auto. split; auto.
  assert (X := Gu _ _ D2). cbn in X. destruct X as (i' & X & _). cbn in X. destruct (gext_get _ _ _ _ (proj1 (proj1 Gd)) (proj2 Gd) D1) as (i2 & Y & Z).
  destruct (ginv_nget_nth _ _ _ (proj1 (proj1 Gd)) Y) as [V _]. rewrite (dx_id _ _ Z) in V. cbn in V. congruence.
Qed.
Lemma trackers_new w ns t : reached w -> r_ans w (RNew ns) = Ok None -> In (td_domain t) ns -> has_table w t ->
  trackers_of (after w (RNew ns)) (length (w_unis w)) (td_domain t) (td_name t) =
    Some (map tk_id (filter (tracks (td_domain t) (td_name t)) (flat_map (wanted w) ns))).
Proof.
  intros R H I (i & D & T). apply reached_inv in R. destruct (new_ok w ns R H) as (w1 & u & u' & A & P & P1 & St & Gd & Gs & U & K & F & N). rewrite A. unfold trackers_of. cbn [w_unis set_unis].
  rewrite nth_app_last. unfold find_table. destruct (N _ I) as (i' & d & D' & E & Nm). rewrite D in D'. inv D'. destruct Gs as [Gs1 Gs2]. specialize (Gs2 (td_domain t)). rewrite D in Gs2.
  destruct (nget (g_doms (w_glob w1)) (td_domain t)) as [i1|] eqn:D1; cbn in Gs2; inv Gs2. rewrite (get_id_of (set_unis w1 (w_unis w ++ [u'])) (td_domain t) i1) by auto.
  cbn [bind]. specialize (K (di_id i1)). rewrite H1 in K. rewrite E in K. destruct K as (d' & E' & K1 & K2 & K3 & K4 & K5). rewrite H1, E', K5, Nm.
  destruct (F _ _ E) as (i2 & F1 & F2 & F3). rewrite Nm, D1 in F1. inv F1. rewrite F3. rewrite (nget_map (fun t => TI t [] 0 false)). rewrite H4, T. reflexivity.
Qed.

(** ** Initial values (C46) *)
Definition regd (w : world) : Prop := forall n i pn dix, nget (g_doms (w_glob w)) n = Some i -> nget (di_n2d i) pn = Some dix ->
  exists k d x, nth_error (w_stat w) k = Some (d, Some x) /\ pd_name d = pn /\ pd_domain d = n.
Lemma regd_mono w w' : (forall n i', nget (g_doms (w_glob w')) n = Some i' -> di_n2d i' = [] \/ exists i, nget (g_doms (w_glob w)) n = Some i /\ di_n2d i' = di_n2d i) ->
  stat_mono w w' -> regd w -> regd w'.
Proof.
  intros H S R n i pn dix A B. destruct (H _ _ A) as [E|(i0 & A0 & E)]; [rewrite E in B; discriminate|]. rewrite E in B. destruct (R _ _ _ _ A0 B) as (k & d & x & K & K1 & K2).
  destruct (S _ _ _ K) as (o' & K' & [X|X]); [discriminate|]. subst o'. eauto 10.
Qed.
Lemma gsame_n2d w w' : gsame (w_glob w) (w_glob w') -> forall n i', nget (g_doms (w_glob w')) n = Some i' -> di_n2d i' = [] \/ exists i, nget (g_doms (w_glob w)) n = Some i /\ di_n2d i' = di_n2d i.
Proof. intros [_ H] n i' E. specialize (H n). rewrite E in H. destruct (nget (g_doms (w_glob w)) n) as [i|]; cbn in H; inv H. right. eauto. Qed.
Lemma step_regd w o : winv w -> regd w -> regd (after w o).
Proof.
  intros W R. destruct (match o with RDomain _ | RProp _ | RTable _ | RNew _ => true | _ => false end) eqn:K.
  2:{ assert (O : exists v, on v o) by (destruct o; try discriminate; cbn; eauto). destruct O as [v O]. eapply regd_mono; [|apply step_stat; auto|exact R]. apply gsame_n2d. eapply step_gsame; eauto. }
  destruct o; try discriminate.
  - eapply regd_mono; [|apply step_stat; auto|exact R]. intros m i'. unfold after. cbn [r_step unit_res fst]. unfold register_domain. destruct (check_name n); [|eauto].
    unfold writing. destruct (w_poison w); [eauto|]. destruct (nget (g_doms (w_glob w)) n) eqn:D; [eauto|]. cbn. rewrite nget_nadd by auto. destruct (name_eqb n m); [|eauto]. intro X. inv X. auto.
  - unfold after. cbn [r_step unit_res fst]. unfold prop_init, writing. destruct (w_poison w); [exact R|]. cbv zeta. destruct (nth_error (w_stat w) k) as [[d [x|]]|] eqn:E; try exact R.
    destruct (prop_check_name d); [|exact R]. destruct (nget (g_doms (w_glob w)) (pd_domain d)) as [i|] eqn:D; [|exact R]. destruct (di_locked i); [exact R|].
    assert (Z : forall n2g prod gid dix (new : bool), (if new then nget (di_n2d i) (pd_name d) = None else True) ->
      regd (set_stat (set_glob w (GL n2g prod (nset (g_doms (w_glob w)) (pd_domain d) (DI (di_id i) (di_name i) (di_props i ++ [gid]) (di_tabs i) (di_order i) (if new then nadd (di_n2d i) (pd_name d) dix else di_n2d i) false))
         (g_d2n (w_glob w)))) k d (PI (di_id i) dix gid))).
    { intros n2g prod gid dix new Hn m j pn y A B. cbn in A. rewrite nget_nset in A by congruence.
      assert (Old : forall i0 y0, nget (g_doms (w_glob w)) m = Some i0 -> nget (di_n2d i0) pn = Some y0 ->
        exists k0 d0 x, nth_error (upd (w_stat w) k (d, Some (PI (di_id i) dix gid))) k0 = Some (d0, Some x) /\ pd_name d0 = pn /\ pd_domain d0 = m).
      { intros i0 y0 A0 B0. destruct (R _ _ _ _ A0 B0) as (k0 & d0 & x & K0 & K1 & K2). exists k0, d0, x. split; auto. rewrite nth_error_upd_ne; auto. congruence. }
      destruct (neqb_spec (pd_domain d) m) as [<-|]; [|eauto]. inv A. cbn in B. destruct new; [|eauto]. rewrite nget_nadd in B by auto. destruct (neqb_spec (pd_name d) pn) as [<-|]; [|eauto].
      exists k, d, (PI (di_id i) dix gid). split; auto. cbn. eapply upd_some; eauto. }
    destruct (nget (g_n2g (w_glob w)) (pd_name d)), (nget (di_n2d i) (pd_name d)) as [x1|] eqn:N2.
    + exact (Z _ _ _ _ false I). + exact (Z _ _ _ _ true eq_refl). + exact (Z _ _ _ _ false I). + exact (Z _ _ _ _ true eq_refl).
  - eapply regd_mono; [|apply step_stat; auto|exact R]. intros m i'. unfold after. cbn [r_step unit_res fst]. unfold register_table. destruct (new_generic_table t); [|eauto].
    unfold writing. destruct (w_poison w); [eauto|]. cbv zeta. destruct (nget (g_doms (w_glob w)) (td_domain t)) as [i|] eqn:D; [|eauto]. destruct (di_locked i); [eauto|].
    destruct (nget (di_tabs i) (td_name t)) as [t'|]; [destruct (equivalent t t'); eauto|]. cbn. rewrite nget_nset by congruence. destruct (neqb_spec (td_domain t) m) as [<-|]; [|eauto].
    intro X. inv X. right. exists i. auto.
  - eapply regd_mono; [|apply step_stat; auto|exact R]. apply gsame_n2d. unfold after. cbn. apply new_universe_rest.
Qed.
Lemma reached_regd w : reached w -> regd w.
Proof.
  intros (ps & os & ->). assert (H : forall w, winv w -> regd w -> regd (r_run w os)).
  { induction os as [|o os IH]; intros w W R; auto. apply (IH (after w o)); [apply step_good; auto|apply step_regd; auto]. }
  apply H; [apply w0_inv|]. intros n i pn dix A. discriminate.
Qed.
(** What [RProp] does the first time a name is seen *)
Lemma prop_first w k d : reached w -> declared w k d -> (forall j d', declared w j d' -> known w j -> pd_name d' <> pd_name d) -> r_ans w (RProp k) = Ok None ->
  exists gid, nget (g_n2g (w_glob (after w (RProp k)))) (pd_name d) = Some gid /\ nth_error (g_prod (w_glob (after w (RProp k)))) gid = Some (pd_ty d, pd_init d) /\ known (after w (RProp k)) k.
Proof.
  intros R [o E] N H. assert (Rg := reached_regd _ R). assert (W := reached_inv _ R). unfold r_ans in H. unfold after, known. cbn [r_step unit_res fst snd] in *. unfold prop_init, writing in *.
  destruct (w_poison w); [discriminate|]. cbv zeta in *. rewrite E in *. destruct o as [x|]. { exfalso. eapply (N k d); [exists (Some x); auto|exists d, x; auto|reflexivity]. }
  destruct (prop_check_name d); [|discriminate]. destruct (nget (g_doms (w_glob w)) (pd_domain d)) as [i|] eqn:D; [|discriminate]. destruct (di_locked i); [discriminate|].
  destruct (nget (g_n2g (w_glob w)) (pd_name d)) as [g1|] eqn:G1.
  { exfalso. destruct (gv_reg _ (proj1 W) _ _ G1) as (i0 & dix & A & B). destruct (Rg _ _ _ _ A B) as (k0 & d0 & x & K0 & K1 & K2). apply (N k0 d0); auto; [exists (Some x); auto|exists d0, x; auto]. }
  exists (length (g_prod (w_glob w))). destruct (nget (di_n2d i) (pd_name d)) as [x1|]; cbn; (split; [rewrite nget_nadd, neqb_refl by auto; reflexivity|split; [apply nth_app_last|]]);
  do 2 eexists; eapply upd_some; eauto.
Qed.
Lemma known_run os : forall w k, winv w -> known w k -> known (r_run w os) k.
Proof.
  induction os as [|o os IH]; intros w k W K; auto. apply (IH (after w o)); [apply step_good; auto|]. destruct K as (d & i & K). destruct (step_stat w o W _ _ _ K) as (o' & K' & [X|X]); [discriminate|]. subst. exists d, i. auto.
Qed.
Lemma declared_run os : forall w k d, winv w -> declared w k d -> declared (r_run w os) k d.
Proof.
  induction os as [|o os IH]; intros w k d W K; auto. apply (IH (after w o)); [apply step_good; auto|]. destruct K as (i & K). destruct (step_stat w o W _ _ _ K) as (o' & K' & _). exists o'. auto.
Qed.
(** A cell of a fresh domain *)
Lemma fresh_peek w u d p i gid c : winv w -> uinv (w_glob w) u -> nth_error u (pi_did i) = Some (Dom d) -> sinv (w_glob w) (p, Some i) -> dn_name d = pd_domain p ->
  (exists di, nget (g_doms (w_glob w)) (dn_name d) = Some di /\ Forall2 (fun gid c => nth_error (g_prod (w_glob w)) gid = Some c) (di_props di) (dn_cells d)) ->
  nget (g_n2g (w_glob w)) (pd_name p) = Some gid -> nth_error (g_prod (w_glob w)) gid = Some c ->
  peek u p i = if fst c =? pd_ty p then Ok (snd c) else panic PDowncast.
Proof.
  intros W U E (di & A1 & A2 & A3 & A4) Nm (di' & F1 & F2) G P. cbn in *. rewrite Nm, A1 in F1. inv F1. unfold peek. rewrite E.
  destruct (dv_n2d _ _ _ (gv_dom _ (proj1 W) _ _ A1) _ _ A3) as (g2 & B1 & B2). assert (g2 = gid) by congruence. subst g2.
  assert (X : forall l m, Forall2 (fun gid c => nth_error (g_prod (w_glob w)) gid = Some c) l m -> forall n, nth_error l n = Some gid -> nth_error m n = Some c).
  { induction 1; intros [|n] Hn; cbn in *; try discriminate; auto. inv Hn. congruence. }
  rewrite (X _ _ F2 _ B2). reflexivity.
Qed.
Lemma initial_value w k d os ns j d' : reached w -> declared w k d -> (forall j d', declared w j d' -> known w j -> pd_name d' <> pd_name d) -> r_ans w (RProp k) = Ok None ->
  let w' := r_run (after w (RProp k)) os in
  r_ans w' (RNew ns) = Ok None -> In (pd_domain d) ns -> declared w j d' -> twins d d' ->
  r_ans (after w' (RNew ns)) (RGet (length (w_unis w')) j) = if pd_ty d =? pd_ty d' then Ok (Some (pd_init d)) else panic PDowncast.
Proof.
  intros R Dk N H w' Hn I Dj T. destruct (prop_first w k d R Dk N H) as (gid & G & P & K). assert (R1 := reached_after w (RProp k) R). assert (R' : reached w') by (apply reached_run; auto).
  assert (W := reached_inv _ R). assert (W1 := reached_inv _ R1). assert (W' := reached_inv _ R').
  destruct (new_ok w' ns W' Hn) as (w2 & u & u' & A & P0 & P2 & St & Gd & Gs & U & Kp & F & Nn).
  assert (Wn := reached_inv _ (reached_after w' (RNew ns) R')). rewrite A in Wn.
  assert (X : gext (w_glob (after w (RProp k))) (w_glob w2)). { eapply gext_trans; [apply run_good; auto|]. apply Gd. }
  apply (gx_n2g _ _ X) in G. assert (P' : nth_error (g_prod (w_glob w2)) gid = Some (pd_ty d, pd_init d)) by (destruct (gx_prod _ _ X) as [l ->]; apply nth_ext_app; auto).
  assert (Kk : known w2 k). { destruct (known_run os _ k W1 K) as (dk & ik & Kk). exists dk, ik. rewrite St. exact Kk. }
  destruct Kk as (dk & ik & Kk). assert (dk = d).
  { destruct (declared_run (RProp k :: os) w k d W Dk) as [o Eo]. change (nth_error (w_stat w') k = Some (d, o)) in Eo. rewrite St, Eo in Kk. congruence. }
  subst dk. assert (Dj' : declared w2 j d'). { destruct (declared_run (RProp k :: os) w j d' W Dj) as [o Eo]. exists o. rewrite St. exact Eo. }
  assert (Gk : prop_get w2 k = (w2, Ok (d, ik))) by (unfold prop_get; rewrite Kk; reflexivity).
  destruct (twin_place w2 k j d d' w2 ik (proj1 Gd)) as (w3 & jj & Gj & E1 & E2); auto. { exists (Some ik). auto. }
  rewrite get_ans, A. cbn [w_unis set_unis]. rewrite nth_app_last. rewrite (prop_get_dep w2 (set_unis w2 (w_unis w' ++ [u'])) j) by (auto using gsame_refl). rewrite Gj. cbn [snd bind fst].
  assert (Sj := prop_get_place _ _ _ _ _ (proj1 Gd) Gj). destruct (Nn _ I) as (i & dd & D & E & Nm). assert (Y : pi_did jj = di_id i).
  { destruct Sj as (di & S1 & S2 & _). cbn in S1, S2. destruct T as [T1 T2]. rewrite <- T2 in S1. destruct (gext_get _ _ _ _ (proj1 (proj1 Gd)) (proj2 Gd) D) as (i2 & D2 & Dx). rewrite <- (dx_id _ _ Dx). congruence. }
  rewrite <- Y in E. specialize (Kp (pi_did jj)). rewrite E in Kp. destruct Kp as (d2 & Q1 & Q2 & Q3 & Q4 & _).
  assert (Tn : pd_name d' = pd_name d /\ dn_name dd = pd_domain d') by (destruct T; split; congruence). destruct Tn as [Tn Td].
  rewrite (fresh_peek w2 u' d2 d' jj gid (pd_ty d, pd_init d)); auto.
  - cbn [fst snd]. destruct (pd_ty d =? pd_ty d'); reflexivity.
  - apply Gd.
  - destruct Wn as (_ & _ & Fu). rewrite Forall_forall in Fu. apply (Fu u'). cbn. apply in_or_app. cbn. auto.
  - congruence.
  - destruct (F _ _ E) as (di & F1 & F2 & _). exists di. rewrite Q3, Q4. auto.
  - rewrite Tn. exact G.
Qed.
