(** Proofs about the registry with domains that are unlocked again (C113).  What Registry*.v prove of worlds with locked domains is
    proved here from the weaker invariant of ReopenFacts.v. *)
From Coq Require Import List Arith Bool Lia.
From Verif Require Import Base BaseFacts Names NamesFacts Table Extract ExtractFacts Registry RegistrySpec RegistryFacts RegistryProps RegistryInit Reopen ReopenSpec ReopenFacts.
Import ListNotations.

Lemma reached_inv w : h_reached w -> winv w.
Proof. intros (ps & os & ->). apply run_good, w0_inv. Qed.
Lemma run_app w os os' : h_run w (os ++ os') = h_run (h_run w os) os'.
Proof. unfold h_run. apply fold_left_app. Qed.
Lemma reached_run w os : h_reached w -> h_reached (h_run w os).
Proof. intros (ps & os0 & ->). exists ps, (os0 ++ os). rewrite run_app. reflexivity. Qed.
Lemma reached_after w o : h_reached w -> h_reached (h_after w o).
Proof. intro R. apply (reached_run w [o] R). Qed.

(** ** Places and values of properties *)

Lemma prop_get_place w k w1 p i : winv w -> prop_get w k = (w1, Ok (p, i)) -> sinv (w_glob w) (p, Some i).
Proof.
  intros W H. pose proof (prop_get_good w k W) as G. rewrite H in G. destruct G as [(_ & S & _) _]. destruct (prop_get_ok _ _ _ _ _ H) as (A & _ & _ & D & _).
  cbn [fst] in *. rewrite A in S. rewrite Forall_forall in S. apply S. eapply nth_error_In; eauto.
Qed.
Lemma same_place w a b w1 w2 p q i j : winv w -> prop_get w a = (w1, Ok (p, i)) -> prop_get w b = (w2, Ok (q, j)) ->
  (twins p q -> pi_did j = pi_did i /\ pi_dix j = pi_dix i) /\ (pi_did j = pi_did i -> pi_dix j = pi_dix i -> pd_name p = pd_name q).
Proof.
  intros W A B. apply prop_get_place in A; auto. apply prop_get_place in B; auto. destruct A as (d & A1 & A2 & A3 & A4), B as (e & B1 & B2 & B3 & B4). cbn in *.
  split.
  - intros [N D]. rewrite N in *. rewrite D in *. rewrite A1 in B1. inv B1. split; congruence.
  - intros Hd Hx. destruct W as (G & _). assert (d = e).
    { destruct (ginv_nget_nth _ _ _ G A1) as [X _], (ginv_nget_nth _ _ _ G B1) as [Y _]. rewrite A2 in X. rewrite B2, Hd in Y. congruence. }
    subst e. destruct (dv_n2d _ _ _ (gv_dom _ G _ _ A1) _ _ A3) as (g1 & X1 & X2). destruct (dv_n2d _ _ _ (gv_dom _ G _ _ B1) _ _ B3) as (g2 & Y1 & Y2).
    eapply n2g_inj; eauto. congruence.
Qed.
Lemma twin_place w a b da db w1 i : winv w -> declared w a da -> declared w b db -> twins da db -> prop_get w a = (w1, Ok (da, i)) -> (w_poison w = false \/ known w b) ->
  exists w2 j, prop_get w b = (w2, Ok (db, j)) /\ pi_did j = pi_did i /\ pi_dix j = pi_dix i.
Proof.
  intros W A [ob B] T G K. assert (X : exists w2 j, prop_get w b = (w2, Ok (db, j))).
  { unfold prop_get. rewrite B. destruct ob as [j|]; [eauto|]. destruct K as [P|(d & j & K)]; [|congruence].
    apply prop_get_place in G; auto. destruct G as (d & A1 & A2 & A3 & A4). cbn in *. destruct T as [T1 T2]. unfold sync_alias, writing. rewrite P, <- T1, <- T2, A1, A4, A3. eauto. }
  destruct X as (w2 & j & X). exists w2, j. split; auto. destruct (same_place _ _ _ _ _ _ _ _ _ W G X) as [Y _]. auto.
Qed.
Lemma twins_share w v a b da db x : h_reached w -> declared w a da -> declared w b db -> twins da db -> pd_ty da = pd_ty db -> (w_poison w = false \/ known w b) ->
  r_ans w (RSet v a x) = Ok None -> r_ans (after w (RSet v a x)) (RGet v b) = Ok (Some x).
Proof.
  intros R A B T Ty K H. apply reached_inv in R. destruct (set_ok _ _ _ _ H) as (u & p & i & y & w1 & E & G & Y & F & P & GL & S).
  assert (p = da) by (eapply declared_get; eauto). subst p. destruct (twin_place _ _ _ _ _ _ _ R A B T G K) as (w2 & j & G2 & D1 & D2).
  rewrite get_ans. rewrite (S b), G2, F. cbn [w_unis set_unis]. rewrite (upd_some _ _ _ _ E). cbn [snd bind fst]. rewrite (peek_poke_same u da i x db j y); auto.
Qed.
Lemma others_unchanged w v a b da db x v' : h_reached w -> declared w a da -> declared w b db -> pd_name da <> pd_name db \/ v' <> v ->
  r_ans w (RSet v a x) = Ok None -> r_ans (after w (RSet v a x)) (RGet v' b) = r_ans w (RGet v' b).
Proof.
  intros R A B T H. apply reached_inv in R. destruct (set_ok _ _ _ _ H) as (u & p & i & y & w1 & E & G & Y & F & P & GL & S).
  assert (p = da) by (eapply declared_get; eauto). subst p. rewrite !get_ans. rewrite (S b), F. cbn [w_unis set_unis].
  destruct (Nat.eq_dec v' v) as [->|N]; [|rewrite nth_error_upd_ne by auto; reflexivity]. destruct T as [T|T]; [|contradiction]. rewrite (upd_some _ _ _ _ E), E.
  destruct (prop_get w b) as [w2 [[q j]|e]] eqn:G2; cbn [snd bind fst]; auto. assert (q = db) by (eapply declared_get; eauto). subst q.
  destruct (same_place _ _ _ _ _ _ _ _ _ R G G2) as [_ X]. rewrite peek_poke_other; [reflexivity|].
  destruct (Nat.eq_dec (pi_did j) (pi_did i)) as [E1|]; [right|left; assumption]. intro E2. apply T. auto.
Qed.

(** ** Frames *)
Lemma more_stat w v : w_stat (fst (add_properties w v)) = w_stat w.
Proof. unfold add_properties. destruct (nth_error (w_unis w) v); auto. destruct (w_poison w); auto. Qed.
Lemma more_glob w v : w_glob (fst (add_properties w v)) = w_glob w.
Proof. unfold add_properties. destruct (nth_error (w_unis w) v); auto. destruct (w_poison w); auto. Qed.
Lemma more_poison w v : w_poison (fst (add_properties w v)) = w_poison w.
Proof. unfold add_properties. destruct (nth_error (w_unis w) v); auto. destruct (w_poison w) eqn:P; auto. Qed.
Lemma more_others w v v' : v' <> v -> nth_error (w_unis (fst (add_properties w v))) v' = nth_error (w_unis w) v'.
Proof. intro N. unfold add_properties. destruct (nth_error (w_unis w) v); auto. destruct (w_poison w); auto. cbn. apply nth_error_upd_ne; auto. Qed.
Lemma more_length w v : length (w_unis (fst (add_properties w v))) = length (w_unis w).
Proof. unfold add_properties. destruct (nth_error (w_unis w) v); auto. destruct (w_poison w); auto. cbn. apply upd_length. Qed.
Lemma gsame_set g n i b : nget (g_doms g) n = Some i -> gsame g (set_dom g n (lock_to b i)).
Proof.
  intro H. split; [reflexivity|]. intro m. cbn [set_dom g_doms]. rewrite nget_nset by congruence. destruct (neqb_spec n m) as [<-|]; [|reflexivity].
  rewrite H. reflexivity.
Qed.
Lemma lock_rest w n b : w_stat (fst (set_locked w n b)) = w_stat w /\ w_unis (fst (set_locked w n b)) = w_unis w /\ gsame (w_glob w) (w_glob (fst (set_locked w n b))).
Proof.
  unfold set_locked. match goal with |- context [writing w ?f] => destruct (writing_fst w f) as [->|[->| ->]] end; [auto using gsame_refl| |]; cbv beta;
  (destruct (nget (g_doms (w_glob w)) n) as [i|] eqn:E; [|auto using gsame_refl]); (split; [reflexivity|split; [reflexivity|]]); apply (gsame_set _ _ _ b E).
Qed.
Lemma step_stat w o : winv w -> stat_mono w (after w o).
Proof.
  intro W. destruct o; unfold after; cbn [r_step unit_res some_res fst].
  - apply stat_mono_eq, register_domain_rest.
  - apply prop_init_stat.
  - apply stat_mono_eq, register_table_rest.
  - apply stat_mono_eq, new_universe_rest.
  - apply stat_mono_eq, add_domain_rest.
  - apply stat_mono_eq, more_stat.
  - fold (after w (RGet v k)). destruct (get_after w v k) as [E|E]; unfold after in E; cbn in E; rewrite E; [apply stat_mono_eq; auto|apply prop_get_stat].
  - apply (set_after_stat w v k x).
  - apply stat_mono_eq; reflexivity.
  - apply stat_mono_eq, write_table_rest.
  - apply stat_mono_eq, add_tracker_rest.
Qed.
Lemma step_unis w o v' u : winv w -> ~ on v' o -> nth_error (w_unis w) v' = Some u -> nth_error (w_unis (after w o)) v' = Some u.
Proof.
  intros W N E. destruct o; unfold after; cbn [r_step unit_res some_res fst]; cbn [on] in N.
  - destruct (register_domain_rest w n) as (_ & -> & _). auto.
  - rewrite prop_init_unis; auto.
  - destruct (register_table_rest w t) as (_ & -> & _). auto.
  - destruct (new_universe_rest w ns) as (_ & (l & ->) & _). apply nth_ext_app, E.
  - destruct (add_domain_rest w v n) as (_ & -> & _); auto.
  - rewrite more_others; auto.
  - destruct (get_after w v k) as [H|H]; unfold after in H; cbn in H; rewrite H; auto. rewrite prop_get_unis. auto.
  - destruct (set_after w v k x) as [H|[H|[u' H]]]; unfold after in H; cbn in H; rewrite H; auto; [rewrite prop_get_unis; auto|]. cbn. rewrite nth_error_upd_ne; auto.
  - auto.
  - destruct (write_table_rest w v t x) as (_ & -> & _); auto.
  - destruct (add_tracker_rest w v tr) as (_ & -> & _); auto.
Qed.
Lemma step_gsame w o v : winv w -> on v o -> gsame (w_glob w) (w_glob (after w o)).
Proof.
  intros W O. destruct o; unfold after; cbn [r_step unit_res some_res fst]; cbn [on] in O; try contradiction.
  - apply add_domain_rest.
  - rewrite more_glob. apply gsame_refl.
  - rewrite get_prop_glob. apply gsame_refl.
  - rewrite set_prop_glob. apply gsame_refl.
  - apply gsame_refl.
  - destruct (write_table_rest w v0 t x) as (_ & _ & -> & _). apply gsame_refl.
  - destruct (add_tracker_rest w v0 tr) as (_ & _ & -> & _). apply gsame_refl.
Qed.
Lemma step_place w o v k : winv w -> on v o -> w_poison (after w o) = w_poison w -> snd (prop_get (after w o) k) = snd (prop_get w k).
Proof.
  intros W O P. assert (G := step_gsame w o v W O).
  assert (S : w_stat (after w o) = w_stat w -> snd (prop_get (after w o) k) = snd (prop_get w k)) by (intro S; apply prop_get_dep; auto; rewrite S; auto).
  destruct o; cbn [on] in O; try contradiction.
  - apply S. unfold after. cbn. apply add_domain_rest.
  - apply S. unfold after. cbn. apply more_stat.
  - destruct (get_after w v0 k0) as [H|H]; rewrite H in *; [reflexivity|apply prop_get_others; auto].
  - destruct (set_after w v0 k0 x) as [H|[H|[u' H]]]; rewrite H in *; [reflexivity|apply prop_get_others; auto|].
    transitivity (snd (prop_get (fst (prop_get w k0)) k)); [apply prop_get_dep; auto; apply gsame_refl|]. apply prop_get_others. exact P.
  - apply S. reflexivity.
  - apply S. unfold after. cbn. apply write_table_rest.
  - apply S. unfold after. cbn. apply add_tracker_rest.
Qed.
Lemma unis_length w o v : winv w -> on v o -> length (w_unis (after w o)) = length (w_unis w).
Proof.
  intros W O. destruct o; cbn [on] in O; try contradiction; unfold after; cbn [r_step unit_res some_res fst].
  - unfold add_domain. destruct (nth_error (w_unis w) v0) as [u|]; auto. destruct (w_poison w) eqn:P; auto. destruct (_ <? _); auto. cbv zeta.
    destruct (get_id _ _); [|cbn; rewrite upd_length; auto]. destruct (nth_error (sync_domains w u) a) as [[m|d]|]; try (cbn; rewrite upd_length; auto; fail).
    unfold writing. cbn [w_poison set_unis]. rewrite P. cbv zeta. destruct (snd (instantiate _ n)); cbn; rewrite ?upd_length; auto.
  - apply more_length.
  - destruct (get_after w v0 k) as [H|H]; unfold after in H; cbn in H; rewrite H; auto. rewrite prop_get_unis. auto.
  - destruct (set_after w v0 k x) as [H|[H|[u' H]]]; unfold after in H; cbn in H; rewrite H; auto; [rewrite prop_get_unis; auto|]. cbn. rewrite upd_length; auto.
  - auto.
  - unfold write_table. destruct (nth_error (w_unis w) v0); auto. destruct (find_table w l (td_domain t) (td_name t)) as [[[id d] ti]|]; auto.
    destruct (convert (ti_decl ti) t); [destruct (ti_poison ti)|]; auto; cbn; rewrite upd_length; auto.
  - unfold add_tracker. destruct (nth_error (w_unis w) v0); auto. cbn. rewrite upd_length; auto.
Qed.
Lemma universes_apart w o v v' q : h_reached w -> on v o -> v' <> v -> looks v' q -> w_poison (after w o) = w_poison w -> r_ans (after w o) q = r_ans w q.
Proof.
  intros R O N L P. apply reached_inv in R. apply (look_dep w (after w o) v'); auto.
  - assert (Nv : ~ on v' o) by (destruct o; cbn in *; congruence). destruct (nth_error (w_unis w) v') as [u|] eqn:E; [apply step_unis; auto|].
    apply nth_error_None in E. apply nth_error_None. rewrite (unis_length w o v); auto.
  - eapply step_gsame; eauto.
  - intro k. eapply step_place; eauto.
Qed.
Lemma prop_get_mono w w' k p i : winv w -> good w w' -> stat_mono w w' -> w_poison w' = false -> snd (prop_get w k) = Ok (p, i) -> snd (prop_get w' k) = Ok (p, i).
Proof.
  intros W [W' X] S P H. destruct (prop_get w k) as [w1 r] eqn:E. cbn in H. subst r. assert (I := prop_get_place _ _ _ _ _ W E).
  destruct (prop_get_ok _ _ _ _ _ E) as (_ & _ & _ & _ & _ & o & G). destruct (S _ _ _ G) as (o' & G' & _).
  assert (I' : sinv (w_glob w') (p, Some i)) by (eapply sinv_ext; eauto; apply W'). unfold prop_get. rewrite G'. destruct o' as [j|].
  - cbn. do 2 f_equal. destruct W' as (_ & F & _). rewrite Forall_forall in F. eapply sinv_unique; [apply F; eapply nth_error_In; eauto|exact I'].
  - destruct I' as (di & A1 & A2 & A3 & A4). cbn in *. unfold sync_alias, writing. rewrite P, A1, A4, A3. cbn. destruct i. cbn in *. congruence.
Qed.
Lemma find_table_mono w w' u dn tn x : winv w -> good w w' -> w_poison w' = false -> find_table w u dn tn = Ok x -> find_table w' u dn tn = Ok x.
Proof.
  intros W [W' X] P H. unfold find_table in *. bindok H. destruct (get_id_ok _ _ _ Hb) as (P0 & d & D & I). destruct (gext_get _ _ _ _ (proj1 W') X D) as (d' & D' & E).
  rewrite (get_id_of w' dn d' P D'). rewrite (dx_id _ _ E), I. exact H.
Qed.
Lemma peek_kept w w' v q x : winv w -> good w w' -> stat_mono w w' -> w_poison w' = false -> looks v q -> nth_error (w_unis w') v = nth_error (w_unis w) v ->
  r_ans w q = Ok x -> r_ans w' q = Ok x.
Proof.
  intros W G S P L U H. destruct q; cbn [looks] in L; try contradiction; subst v0.
  - rewrite get_ans in *. rewrite U. destruct (nth_error (w_unis w) v) as [u|]; [|discriminate]. destruct (snd (prop_get w k)) as [[p i]|e] eqn:E; [|discriminate].
    rewrite (prop_get_mono w w' k p i) by auto. exact H.
  - unfold r_ans in *. cbn [r_step some_res snd] in *. unfold read_table in *. rewrite U. destruct (nth_error (w_unis w) v) as [u|]; [|discriminate].
    destruct (find_table w u (td_domain t) (td_name t)) as [f|e] eqn:E; [|discriminate]. rewrite (find_table_mono w w' u _ _ f) by auto. exact H.
Qed.
Lemma h_step_stat w o : winv w -> stat_mono w (h_after w o).
Proof. intro W. destruct o as [o|n b]; [apply step_stat, W|]. apply stat_mono_eq. apply (lock_rest w n b). Qed.
Lemma step_regd w o : winv w -> regd w -> regd (after w o).
Proof.
  intros W R. destruct (match o with RDomain _ | RProp _ | RTable _ | RNew _ => true | _ => false end) eqn:K.
  2:{ assert (O : exists v, on v o) by (destruct o; try discriminate; cbn; eauto). destruct O as [v O]. eapply regd_mono; [|apply step_stat; auto|exact R]. apply gsame_n2d. eapply step_gsame; eauto. }
  destruct o; try discriminate.
  - eapply regd_mono; [|apply step_stat; auto|exact R]. intros m i'. unfold after. cbn [r_step unit_res fst]. unfold register_domain. destruct (check_name n); [|eauto].
    unfold writing. destruct (w_poison w); [eauto|]. destruct (nget (g_doms (w_glob w)) n) eqn:D; [eauto|]. cbn. rewrite nget_nadd by auto. destruct (name_eqb n m); [|eauto]. intro X. inv X. auto.
  - unfold after. cbn [r_step unit_res fst]. unfold prop_init, writing. destruct (w_poison w); [exact R|]. cbv zeta. destruct (nth_error (w_stat w) k) as [[d [x|]]|] eqn:E; try exact R.
    destruct (prop_check_name d); [|exact R]. destruct (nget (g_doms (w_glob w)) (pd_domain d)) as [i|] eqn:D; [|exact R]. destruct (di_locked i); [exact R|].
    assert (Z : forall n2g prod gid dix (new : bool), (if new then nget (di_n2d i) (pd_name d) = None else True) ->
      regd (set_stat (set_glob w (GL n2g prod (nset (g_doms (w_glob w)) (pd_domain d) (DI (di_id i) (di_name i) (di_props i ++ [gid]) (di_tabs i) (di_order i) (if new then nadd (di_n2d i) (pd_name d) dix else di_n2d i) false))
         (g_d2n (w_glob w)))) k d (PI (di_id i) dix gid))).
    { intros n2g prod gid dix new Hn m j pn y A B. cbn in A. rewrite nget_nset in A by congruence.
      assert (Old : forall i0 y0, nget (g_doms (w_glob w)) m = Some i0 -> nget (di_n2d i0) pn = Some y0 ->
        exists k0 d0 x, nth_error (upd (w_stat w) k (d, Some (PI (di_id i) dix gid))) k0 = Some (d0, Some x) /\ pd_name d0 = pn /\ pd_domain d0 = m).
      { intros i0 y0 A0 B0. destruct (R _ _ _ _ A0 B0) as (k0 & d0 & x & K0 & K1 & K2). exists k0, d0, x. split; auto. rewrite nth_error_upd_ne; auto. congruence. }
      destruct (neqb_spec (pd_domain d) m) as [<-|]; [|eauto]. inv A. cbn in B. destruct new; [|eauto]. rewrite nget_nadd in B by auto. destruct (neqb_spec (pd_name d) pn) as [<-|]; [|eauto].
      exists k, d, (PI (di_id i) dix gid). split; auto. cbn. eapply upd_some; eauto. }
    destruct (nget (g_n2g (w_glob w)) (pd_name d)), (nget (di_n2d i) (pd_name d)) as [x1|] eqn:N2.
    + exact (Z _ _ _ _ false I). + exact (Z _ _ _ _ true eq_refl). + exact (Z _ _ _ _ false I). + exact (Z _ _ _ _ true eq_refl).
  - eapply regd_mono; [|apply step_stat; auto|exact R]. intros m i'. unfold after. cbn [r_step unit_res fst]. unfold register_table. destruct (new_generic_table t); [|eauto].
    unfold writing. destruct (w_poison w); [eauto|]. cbv zeta. destruct (nget (g_doms (w_glob w)) (td_domain t)) as [i|] eqn:D; [|eauto]. destruct (di_locked i); [eauto|].
    destruct (nget (di_tabs i) (td_name t)) as [t'|]; [destruct (equivalent t t'); eauto|]. cbn. rewrite nget_nset by congruence. destruct (neqb_spec (td_domain t) m) as [<-|]; [|eauto].
    intro X. inv X. right. exists i. auto.
  - eapply regd_mono; [|apply step_stat; auto|exact R]. apply gsame_n2d. unfold after. cbn. apply new_universe_rest.
Qed.
Lemma h_step_unis w o v' u : winv w -> ~ h_on v' o -> nth_error (w_unis w) v' = Some u -> nth_error (w_unis (h_after w o)) v' = Some u.
Proof.
  intros W N E. destruct o as [o|n b]; [apply step_unis; auto|]. unfold h_after. cbn [h_step unit_res fst]. destruct (lock_rest w n b) as (_ & -> & _). exact E.
Qed.
Lemma answers_kept w o v q x : h_reached w -> ~ h_on v o -> looks v q -> w_poison (h_after w o) = false -> r_ans w q = Ok x -> r_ans (h_after w o) q = Ok x.
Proof.
  intros R N L P H. apply reached_inv in R. assert (E : exists u, nth_error (w_unis w) v = Some u).
  { destruct q; cbn [looks] in L; try contradiction; subst v0; unfold r_ans in H; cbn in H; unfold get_prop, prop_index, read_table in H;
    (destruct (nth_error (w_unis w) v); [eauto|discriminate]). }
  destruct E as [u E]. apply (peek_kept w (h_after w o) v); auto; [apply h_step_good; auto|apply h_step_stat; auto|]. rewrite E. apply h_step_unis; auto.
Qed.
Lemma reached_regd w : h_reached w -> regd w.
Proof.
  intros (ps & os & ->). assert (H : forall w, winv w -> regd w -> regd (h_run w os)).
  { induction os as [|o os IH]; intros w W R; auto. apply (IH (h_after w o)); [apply h_step_good; auto|]. destruct o as [o|n b]; [apply step_regd; auto|].
    eapply regd_mono; [|apply (h_step_stat w (HLock n b)); auto|exact R]. apply gsame_n2d. apply (lock_rest w n b). }
  apply H; [apply w0_inv|]. intros n i pn dix A. discriminate.
Qed.
Lemma prop_first w k d : h_reached w -> declared w k d -> (forall j d', declared w j d' -> known w j -> pd_name d' <> pd_name d) -> r_ans w (RProp k) = Ok None ->
  exists gid, nget (g_n2g (w_glob (after w (RProp k)))) (pd_name d) = Some gid /\ nth_error (g_prod (w_glob (after w (RProp k)))) gid = Some (pd_ty d, pd_init d) /\ known (after w (RProp k)) k.
Proof.
  intros R [o E] N H. assert (Rg := reached_regd _ R). assert (W := reached_inv _ R). unfold r_ans in H. unfold after, known. cbn [r_step unit_res fst snd] in *. unfold prop_init, writing in *.
  destruct (w_poison w); [discriminate|]. cbv zeta in *. rewrite E in *. destruct o as [x|]. { exfalso. eapply (N k d); [exists (Some x); auto|exists d, x; auto|reflexivity]. }
  destruct (prop_check_name d); [|discriminate]. destruct (nget (g_doms (w_glob w)) (pd_domain d)) as [i|] eqn:D; [|discriminate]. destruct (di_locked i); [discriminate|].
  destruct (nget (g_n2g (w_glob w)) (pd_name d)) as [g1|] eqn:G1.
  { exfalso. destruct (gv_reg _ (proj1 W) _ _ G1) as (i0 & dix & A & B). destruct (Rg _ _ _ _ A B) as (k0 & d0 & x & K0 & K1 & K2). apply (N k0 d0); auto; [exists (Some x); auto|exists d0, x; auto]. }
  exists (length (g_prod (w_glob w))). destruct (nget (di_n2d i) (pd_name d)) as [x1|]; cbn; (split; [rewrite nget_nadd, neqb_refl by auto; reflexivity|split; [apply nth_app_last|]]);
  do 2 eexists; eapply upd_some; eauto.
Qed.
Lemma run_stat os : forall w, winv w -> stat_mono w (h_run w os).
Proof.
  induction os as [|o os IH]; intros w W; [apply stat_mono_eq; reflexivity|]. intros k d i H. destruct (h_step_stat w o W _ _ _ H) as (i' & H' & C).
  destruct (IH (h_after w o) (proj1 (h_step_good w o W)) _ _ _ H') as (i2 & H2 & C2). exists i2. split; [exact H2|]. destruct C as [C|C]; [auto|]. subst i'. exact C2.
Qed.
Lemma known_run os w k : winv w -> known w k -> known (h_run w os) k.
Proof. intros W (d & i & K). destruct (run_stat os w W _ _ _ K) as (o' & K' & [X|X]); [discriminate|]. subst. exists d, i. auto. Qed.
Lemma declared_run os w k d : winv w -> declared w k d -> declared (h_run w os) k d.
Proof. intros W (i & K). destruct (run_stat os w W _ _ _ K) as (o' & K' & _). exists o'. auto. Qed.
Lemma undeclared_run os w k d : winv w -> declared (h_run w os) k d -> forall d' , declared w k d' -> d' = d.
Proof. intros W [o H] d' D. destruct (declared_run os _ _ _ W D) as [o' H']. congruence. Qed.

(** ** What becomes of the domains of a universe *)
Definition ukeep (more : bool) (u u' : uni) : Prop := forall j d, nth_error u j = Some (Dom d) ->
  exists d', nth_error u' j = Some (Dom d') /\ dn_name d' = dn_name d /\ dn_id d' = dn_id d /\ tables d' = tables d /\ exists l, types d' = types d ++ l /\ (more = false -> l = []).
Lemma ukeep_refl b u : ukeep b u u.
Proof. intros j d H. exists d. repeat (split; auto). exists []. rewrite app_nil_r. auto. Qed.
Lemma ukeep_trans b c u1 u2 u3 : ukeep b u1 u2 -> ukeep c u2 u3 -> ukeep (b || c) u1 u3.
Proof.
  intros A B j d H. destruct (A j d H) as (d1 & H1 & A1 & A2 & A3 & l & A4 & A5). destruct (B j d1 H1) as (d2 & H2 & B1 & B2 & B3 & m & B4 & B5).
  exists d2. split; auto. split; [congruence|]. split; [congruence|]. split; [congruence|]. exists (l ++ m). split; [rewrite B4, A4, app_assoc; reflexivity|].
  intro E. apply orb_false_iff in E. destruct E as [E1 E2]. rewrite A5, B5; auto.
Qed.
Lemma ukeep_shapes b u u' : shapes u u' -> ukeep b u u'.
Proof.
  intros [L H] j d E. destruct (nth_error_lt_Some u' j) as [m' E']. { rewrite L. eapply nth_error_Some_lt; eauto. }
  specialize (H _ _ _ E E'). destruct m' as [n|d']; cbn in H; [contradiction|]. destruct H as (A1 & A2 & A3 & A4 & A5). exists d'. repeat (split; auto).
  exists []. rewrite app_nil_r. split; auto. unfold types. congruence.
Qed.
Lemma ukeep_sync w b u : ukeep b u (sync_domains w u).
Proof. intros j d H. exists d. split; [apply nth_ext_app, H|]. repeat (split; auto). exists []. rewrite app_nil_r. auto. Qed.
Lemma ukeep_grown g u u' : Forall2 (grown g) u u' -> ukeep true u u'.
Proof.
  intros F. intros j d H. assert (E : exists m', nth_error u' j = Some m' /\ grown g (Dom d) m').
  { revert j H. induction F; intros [|j] H'; cbn in *; try discriminate; [inv H'; eauto|auto]. }
  destruct E as (m' & E & G). destruct m' as [n|d']; cbn in G; [contradiction|]. destruct G as (l & -> & _). eexists. split; [exact E|]. repeat (split; auto).
  exists (map fst l). unfold types. cbn. rewrite map_app. split; [reflexivity|discriminate].
Qed.
Lemma ukeep_unset u j n d b : nth_error u j = Some (Unset n) -> ukeep b u (upd u j (Dom d)).
Proof.
  intros H k d' E. exists d'. split; [rewrite nth_error_upd_ne; [exact E|intros ->; congruence]|]. repeat (split; auto). exists []. rewrite app_nil_r. auto.
Qed.
Definition is_more (v : nat) (o : hop) : bool := match o with HCall (RMore x) => x =? v | _ => false end.
Lemma upd_types cells k p (x : nat) (c : nat * nat) : nth_error cells k = Some c -> fst c = p -> map fst (upd cells k (p, x)) = map fst cells.
Proof. revert k. induction cells as [|a l IH]; intros [|k] H E; cbn in *; try discriminate; [inv H; reflexivity|]. f_equal. apply IH; auto. Qed.
Lemma step_ukeep w o v u : winv w -> nth_error (w_unis w) v = Some u -> exists u', nth_error (w_unis (h_after w o)) v = Some u' /\ ukeep (is_more v o) u u'.
Proof.
  intros W E. assert (Off : ~ h_on v o -> exists u', nth_error (w_unis (h_after w o)) v = Some u' /\ ukeep (is_more v o) u u').
  { intro N. exists u. split; [apply h_step_unis; auto|apply ukeep_refl]. }
  destruct o as [o|n b]; [|apply Off; auto].
  destruct o as [n|k|t|ns|v0 n|v0|v0 k|v0 k x|v0 t|v0 t x|v0 tr]; try (apply Off; cbn; auto; fail);
  (destruct (Nat.eq_dec v0 v) as [->|N]; [|apply Off; exact N]); cbn [is_more]; unfold h_after; cbn [h_step r_step unit_res some_res fst].
  - assert (At : forall u', nth_error (upd (w_unis w) v u') v = Some u') by (intro u'; eapply upd_some; eauto).
    assert (Same : exists u', nth_error (w_unis w) v = Some u' /\ ukeep false u u') by (exists u; split; [exact E|apply ukeep_refl]).
    unfold add_domain. rewrite E. destruct (w_poison w) eqn:P; [exact Same|]. destruct (_ <? _); [exact Same|]. cbv zeta.
    set (u1 := sync_domains w u). set (w1 := set_unis w (upd (w_unis w) v u1)).
    assert (Sync : exists u', nth_error (w_unis w1) v = Some u' /\ ukeep false u u') by (exists u1; split; [apply At|apply ukeep_sync]).
    destruct (get_id w1 n) as [id|]; [|exact Sync]. destruct (nth_error u1 id) as [[m|d]|] eqn:Eu; try exact Sync.
    unfold writing. change (w_poison w1) with (w_poison w). rewrite P. destruct (instantiate (w_glob w1) n) as [g' [d|e]]; cbn [fst snd]; [|exact Sync].
    eexists. split; [cbn [w_unis set_unis set_glob w1]; rewrite upd_twice; apply At|].
    change false with (false || (false || false)). eapply ukeep_trans; [apply ukeep_sync|]. eapply ukeep_trans; [eapply ukeep_unset; exact Eu|]. apply ukeep_shapes, init_domain_shapes.
  - rewrite Nat.eqb_refl. destruct (w_poison w) eqn:P.
    + exists u. split; [|apply ukeep_refl]. unfold add_properties. rewrite E, P. exact E.
    + destruct (add_properties_do w v u W E P) as (u' & -> & F & _). exists u'. split; [cbn; eapply upd_some; eauto|]. eapply ukeep_grown; eauto.
  - exists u. split; [|apply ukeep_refl]. destruct (get_after w v k) as [H|H]; unfold after in H; cbn in H; rewrite H; auto. rewrite prop_get_unis. auto.
  - unfold set_prop. pose proof (prop_index_ok w v k) as K. pose proof (prop_get_unis w k) as U. assert (I : w_unis (fst (prop_index w v k)) = w_unis w).
    { unfold prop_index. rewrite E. destruct (prop_get w k) as [w1 [[p i]|e]]; exact U. }
    destruct (prop_index w v k) as [w1 [[[[u0 d] p] i]|e]]; cbn [fst] in *; [|exists u; rewrite I; split; [exact E|apply ukeep_refl]].
    destruct (K _ _ _ _ _ eq_refl) as (A & B & C & D & c & F & T). rewrite E in A. inv A. eexists. split; [cbn; eapply upd_some; rewrite B; eauto|].
    intros j d0 H. rewrite nth_error_upd. destruct (Nat.eqb_spec j (pi_did i)) as [->|Nj]; cbn [andb].
    + rewrite D in H. inv H. pose proof (nth_error_Some_lt _ _ _ D) as L. apply Nat.ltb_lt in L. rewrite L. eexists. split; [reflexivity|]. repeat (split; auto).
      exists []. rewrite app_nil_r. split; auto. unfold types. cbn. eapply upd_types; eauto.
    + exists d0. repeat (split; auto). exists []. rewrite app_nil_r. auto.
  - exists u. split; [exact E|apply ukeep_refl].
  - unfold write_table. rewrite E. destruct (find_table w u (td_domain t) (td_name t)) as [[[id d] ti]|e] eqn:F; [|exists u; split; [exact E|apply ukeep_refl]].
    destruct (find_table_ok _ _ _ _ _ _ _ F) as (A & B & _). destruct (convert (ti_decl ti) t); [destruct (ti_poison ti)|]; cbn [fst];
    try (exists u; split; [exact E|apply ukeep_refl]); (eexists; split; [cbn; eapply upd_some; eauto|]); apply ukeep_shapes; eapply put_table_shapes; eauto.
  - unfold add_tracker. rewrite E. cbn [fst]. eexists. split; [cbn; eapply upd_some; eauto|]. apply ukeep_shapes, register_tracker_shapes.
Qed.
Lemma run_ukeep os : forall w v u, winv w -> nth_error (w_unis w) v = Some u -> exists u', nth_error (w_unis (h_run w os)) v = Some u' /\ ukeep (existsb (is_more v) os) u u'.
Proof.
  induction os as [|o os IH]; intros w v u W E; [exists u; split; [exact E|apply ukeep_refl]|].
  destruct (step_ukeep w o v u W E) as (u1 & E1 & K1). destruct (IH (h_after w o) v u1 (proj1 (h_step_good w o W)) E1) as (u2 & E2 & K2).
  exists u2. split; [exact E2|]. cbn [existsb]. eapply ukeep_trans; eauto.
Qed.


Lemma F2len {A B} (R : A -> B -> Prop) l m : Forall2 R l m -> length l = length m.
Proof. intro F. induction F; cbn; auto. Qed.
(** ** Where a domain is *)
Lemma uinv_nth w v u : winv w -> nth_error (w_unis w) v = Some u -> uinv (w_glob w) u.
Proof. intros (_ & _ & U) E. rewrite Forall_forall in U. apply U. eapply nth_error_In; eauto. Qed.
Lemma domain_at w v n d : winv w -> has_domain w v n d -> exists u i, nth_error (w_unis w) v = Some u /\ nget (g_doms (w_glob w)) n = Some i /\
  nth_error u (di_id i) = Some (Dom d) /\ dn_name d = n /\ dn_ok (w_glob w) (di_id i) d.
Proof.
  intros W (u & E & H & N). apply In_nth_error in H. destruct H as [j H]. assert (K := uinv_nth _ _ _ W E _ _ H). cbn in K.
  destruct K as (i & A & B & C). exists u, i. rewrite N in A. assert (di_id i = j) by (apply (gv_id _ (proj1 W) _ _ _ A)). split; auto.
  split; [eapply nth_nget; eauto; apply gv_nd, W|]. rewrite H0. split; auto. split; auto. exists i. rewrite N. auto.
Qed.
Lemma domain_unique w v n d d' : winv w -> has_domain w v n d -> has_domain w v n d' -> d' = d.
Proof.
  intros W H K. destruct (domain_at _ _ _ _ W H) as (u & i & E & D & A & _), (domain_at _ _ _ _ W K) as (u' & i' & E' & D' & A' & _). congruence.
Qed.
Lemma domain_later w os v n d : winv w -> has_domain w v n d -> exists d', has_domain (h_run w os) v n d' /\ tables d' = tables d /\
  exists l, types d' = types d ++ l /\ (existsb (is_more v) os = false -> l = []).
Proof.
  intros W H. destruct (domain_at _ _ _ _ W H) as (u & i & E & D & A & N & _). destruct (run_ukeep os w v u W E) as (u' & E' & K).
  destruct (K _ _ A) as (d' & A' & N' & _ & T & l & Y). exists d'. split; [exists u'; split; auto; split; [eapply nth_error_In; eauto|congruence]|]. split; auto. exists l. exact Y.
Qed.
Lemma old_tables w os v n d : h_reached w -> has_domain w v n d -> (exists d', has_domain (h_run w os) v n d') /\
  forall d', has_domain (h_run w os) v n d' -> tables d' = tables d /\ exists l, types d' = types d ++ l.
Proof.
  intros R H. assert (W := reached_inv _ R). destruct (domain_later w os v n d W H) as (d' & K & T & l & Y & _). split; [eauto|]. intros d2 K2.
  assert (W' := proj1 (run_good os w W)). assert (d2 = d') by exact (domain_unique _ _ _ _ _ W' K K2). subst d2. eauto.
Qed.
Lemma app_prefix {A} (a b c e : list A) : a ++ b = c ++ e -> exists l, c = a ++ l \/ a = c ++ l.
Proof.
  revert c. induction a as [|x a IH]; intros c H; [exists c; auto|]. destruct c as [|y c]; [exists (x :: a); auto|]. cbn in H. inv H. destruct (IH _ H2) as [l [->| ->]]; exists l; auto.
Qed.
Lemma tables_prefix w v v' n d d' : h_reached w -> has_domain w v n d -> has_domain w v' n d' -> exists l, tables d' = tables d ++ l \/ tables d = tables d' ++ l.
Proof.
  intros R H K. assert (W := reached_inv _ R). destruct (domain_at _ _ _ _ W H) as (u & i & _ & D & _ & _ & (i1 & A & _ & _ & (l & T) & _)).
  destruct (domain_at _ _ _ _ W K) as (u' & i' & _ & D' & _ & _ & (i2 & A' & _ & _ & (l' & T') & _)). rewrite D in D'. inv D'. rewrite A in A'. inv A'.
  unfold tables. eapply app_prefix. rewrite T in T'. exact T'.
Qed.
(** A table registered later *)
Lemma nget_not {A} (l : list (name * A)) k : ~ In k (map fst l) -> nget l k = None.
Proof.
  induction l as [|[x v] l IH]; cbn; intro H; auto. destruct (neqb_spec x k) as [->|]; [exfalso; auto|auto].
Qed.
Lemma missing_table w os v n d t : h_reached w -> has_domain w v n d -> td_domain t = n -> ~ In (td_name t) (map fst (tables d)) ->
  r_ans (h_run w os) (RRead v t) = panic (if w_poison (h_run w os) then PPoisoned else PUnsetDomain).
Proof.
  intros R H E N. assert (W := reached_inv _ R). destruct (domain_later w os v n d W H) as (d' & K & T & _). assert (W' := proj1 (run_good os w W)).
  set (w' := h_run w os) in *. destruct (domain_at _ _ _ _ W' K) as (u & i & Eu & D & A & Nm & _). rewrite <- T in N.
  unfold r_ans. cbn [r_step some_res snd]. unfold read_table. rewrite Eu. unfold find_table, get_id, reading. rewrite E, D. destruct (w_poison w'); [reflexivity|]. cbn [bind]. rewrite A.
  rewrite nget_not; [reflexivity|]. unfold tables in N. rewrite map_map in N. exact N.
Qed.

(** ** New universes *)
Lemma new_ok w ns : winv w -> r_ans w (RNew ns) = Ok None -> exists w1 u u', after w (RNew ns) = set_unis w1 (w_unis w ++ [u']) /\ w_poison w = false /\ w_poison w1 = false /\ w_stat w1 = w_stat w /\
  good w w1 /\ gsame (w_glob w) (w_glob w1) /\ uinv (w_glob w1) u /\ shapes u u' /\ (forall j d, nth_error u j = Some (Dom d) -> fresh_dn (w_glob w1) d) /\
  (forall n, In n ns -> exists i d, nget (g_doms (w_glob w)) n = Some i /\ nth_error u (di_id i) = Some (Dom d) /\ dn_name d = n).
Proof.
  intros W H. unfold r_ans in H. unfold after. cbn [r_step unit_res fst snd] in *. unfold new_universe in *. destruct (get_domains_good w ns W) as [Gd Gu].
  destruct (get_domains_rest w ns) as (R1 & R2 & R3). destruct (get_domains w ns) as [w1 [u|e]] eqn:E; cbn [fst snd] in *; [|discriminate].
  specialize (Gu u eq_refl). pose proof (init_domains_shapes w1 ns u) as Sh. destruct (init_domains w1 u ns) as [u' [[]|e]] eqn:I; cbn [fst snd] in *; [|discriminate]. exists w1, u, u'. rewrite R2. split; auto.
  unfold get_domains, writing in E. destruct (w_poison w) eqn:P; [discriminate|]. split; auto. cbv zeta in E.
  destruct (get_domains_loop (w_glob w) (map Unset (g_d2n (w_glob w))) ns) as [g' [u0|e]] eqn:L; cbn [fst snd] in E; inv E. split; [exact P|]. split; auto. split; auto. split; auto. split; auto.
  split; auto.
  assert (F0 : forall j d, nth_error (map Unset (g_d2n (w_glob w))) j = Some (Dom d) -> fresh_dn (w_glob w) d).
  { intros j d X. rewrite nth_error_map in X. destruct (nth_error (g_d2n (w_glob w)) j); discriminate. }
  destruct (get_domains_loop_fresh _ _ _ _ _ (proj1 W) F0 L) as (A & B & C). split; auto. intros n Hn. destruct (C n Hn) as (i & d & D1 & D2). exists i, d. split; auto. split; auto.
  assert (X := Gu _ _ D2). cbn in X. destruct X as (i' & X & _). cbn in X. destruct (gext_get _ _ _ _ (proj1 (proj1 Gd)) (proj2 Gd) D1) as (i2 & Y & Z).
  destruct (ginv_nget_nth _ _ _ (proj1 (proj1 Gd)) Y) as [V _]. rewrite (dx_id _ _ Z) in V. cbn in V. congruence.
Qed.
Lemma shapes_dom u u' j d : shapes u u' -> nth_error u j = Some (Dom d) -> exists d', nth_error u' j = Some (Dom d') /\ dn_name d' = dn_name d /\ dn_cells d' = dn_cells d /\ tables d' = tables d.
Proof.
  intros [L H] E. destruct (nth_error_lt_Some u' j) as [m' E']. { rewrite L. eapply nth_error_Some_lt; eauto. }
  specialize (H _ _ _ E E'). destruct m' as [n|d']; cbn in H; [contradiction|]. exists d'. unfold tables. tauto.
Qed.
Lemma nget_In {A} (l : list (name * A)) k v : nget l k = Some v -> In (k, v) l.
Proof. intro H. apply nget_nth in H. destruct H as [j H]. eapply nth_error_In; eauto. Qed.
Lemma In_nget {A} (l : list (name * A)) k v : NoDup (map fst l) -> In (k, v) l -> nget l k = Some v.
Proof. intros N H. apply In_nth_error in H. destruct H as [j H]. eapply nth_nget; eauto. Qed.
Lemma new_tables w ns n : h_reached w -> r_ans w (RNew ns) = Ok None -> In n ns ->
  exists d, has_domain (after w (RNew ns)) (length (w_unis w)) n d /\ forall tn t, In (tn, t) (tables d) <-> has_table w t /\ td_domain t = n /\ td_name t = tn.
Proof.
  intros R H I. assert (W := reached_inv _ R). destruct (new_ok w ns W H) as (w1 & u & u' & A & P & _ & _ & Gd & Gs & U & Sh & F & Nn).
  destruct (Nn n I) as (i & d & D & E & Nm). destruct (shapes_dom _ _ _ _ Sh E) as (d' & E' & N' & _ & T). exists d'. split.
  - exists u'. rewrite A. cbn. rewrite nth_app_last. split; auto. split; [eapply nth_error_In; eauto|congruence].
  - destruct (F _ _ E) as (i1 & F1 & _ & F3). assert (Ti : di_tabs i1 = di_tabs i).
    { destruct Gs as [_ Gs]. specialize (Gs n). rewrite D in Gs. rewrite Nm in F1. rewrite F1 in Gs. cbn in Gs. congruence. }
    assert (Td : tables d' = di_tabs i). { rewrite T. unfold tables. rewrite F3, map_TI. exact Ti. }
    rewrite Td. assert (V := gv_dom _ (proj1 W) _ _ D). intros tn t. split.
    + intro Hi. assert (G := In_nget _ _ _ (dv_nd _ _ _ V) Hi). destruct (dv_tabs _ _ _ V _ _ G) as [X1 X2]. split; auto. exists i. rewrite X1, X2. auto.
    + intros ((i2 & D2 & T2) & X1 & X2). rewrite X1 in D2. rewrite D in D2. inv D2. apply nget_In, T2.
Qed.
Lemma fresh_peek w u d p i gid c : winv w -> uinv (w_glob w) u -> nth_error u (pi_did i) = Some (Dom d) -> sinv (w_glob w) (p, Some i) -> dn_name d = pd_domain p ->
  (exists di, nget (g_doms (w_glob w)) (dn_name d) = Some di /\ Forall2 (fun gid c => nth_error (g_prod (w_glob w)) gid = Some c) (di_props di) (dn_cells d)) ->
  nget (g_n2g (w_glob w)) (pd_name p) = Some gid -> nth_error (g_prod (w_glob w)) gid = Some c ->
  peek u p i = if fst c =? pd_ty p then Ok (snd c) else panic PDowncast.
Proof.
  intros W U E (di & A1 & A2 & A3 & A4) Nm (di' & F1 & F2) G P. cbn in *. rewrite Nm, A1 in F1. inv F1. unfold peek. rewrite E.
  destruct (dv_n2d _ _ _ (gv_dom _ (proj1 W) _ _ A1) _ _ A3) as (g2 & B1 & B2). assert (g2 = gid) by congruence. subst g2.
  assert (X : forall l m, Forall2 (fun gid c => nth_error (g_prod (w_glob w)) gid = Some c) l m -> forall n, nth_error l n = Some gid -> nth_error m n = Some c).
  { induction 1; intros [|n] Hn; cbn in *; try discriminate; auto. inv Hn. congruence. }
  rewrite (X _ _ F2 _ B2). reflexivity.
Qed.
(** Where the value of a known property is in a universe that has the domain *)
Lemma known_place w v k p n d : winv w -> declared w k p -> known w k -> has_domain w v n d -> pd_domain p = n ->
  exists u i di gid, nth_error (w_unis w) v = Some u /\ nth_error (w_stat w) k = Some (p, Some i) /\ nget (g_doms (w_glob w)) n = Some di /\ pi_did i = di_id di /\ nth_error u (di_id di) = Some (Dom d) /\
    nget (g_n2g (w_glob w)) (pd_name p) = Some gid /\ nth_error (di_props di) (pi_dix i) = Some gid /\ nget (di_n2d di) (pd_name p) = Some (pi_dix i) /\ sinv (w_glob w) (p, Some i).
Proof.
  intros W [o D] (p' & i & K) H E. rewrite K in D. inv D. assert (S : sinv (w_glob w) (p, Some i)).
  { destruct W as (_ & S & _). rewrite Forall_forall in S. apply S. eapply nth_error_In; eauto. }
  destruct (domain_at _ _ _ _ W H) as (u & di & Eu & Dd & A & _). assert (S' := S). destruct S' as (di' & S1 & S2 & S3 & S4). cbn in *. rewrite Dd in S1. inv S1.
  destruct (dv_n2d _ _ _ (gv_dom _ (proj1 W) _ _ Dd) _ _ S3) as (gid & X1 & X2). exists u, i, di', gid. auto 12.
Qed.
Lemma Forall2_nth_l {A B} (R : A -> B -> Prop) l m : Forall2 R l m -> forall j x, nth_error l j = Some x -> exists y, nth_error m j = Some y /\ R x y.
Proof. intro F. induction F; intros [|j] z H'; cbn in *; try discriminate; [inv H'; eauto|auto]. Qed.
Lemma nth_skipn {A} (l : list A) k j : nth_error (skipn k l) j = nth_error l (k + j).
Proof. revert l. induction k; intros [|a l]; cbn; auto. destruct j; auto. Qed.
(** What a known property is after [add_properties] *)
Lemma more_get w v k p n d : winv w -> w_poison w = false -> declared w k p -> known w k -> has_domain w v n d -> pd_domain p = n ->
  exists gid c, nget (g_n2g (w_glob w)) (pd_name p) = Some gid /\ nth_error (g_prod (w_glob w)) gid = Some c /\
  r_ans (after w (RMore v)) (RGet v k) =
    match r_ans w (RGet v k) with Err (EPanic PUnknownProp) => if fst c =? pd_ty p then Ok (Some (snd c)) else panic PDowncast | r => r end /\
  r_ans (after w (RMore v)) (RGet v k) <> panic PUnknownProp /\ (exists r, r_ans w (RGet v k) = r /\ ((exists x, r = Ok (Some x)) \/ r = panic PDowncast \/ r = panic PUnknownProp)).
Proof.
  intros W P Dk K H E. destruct (known_place _ _ _ _ _ _ W Dk K H E) as (u & i & di & gid & Eu & St & Dd & Y & A & G & X & N2 & _). exists gid.
  destruct (nth_error_lt_Some (g_prod (w_glob w)) gid) as [c Ec]. { eapply n2g_lt; eauto. apply W. } exists c. split; auto. split; auto.
  unfold after. cbn [r_step unit_res fst]. destruct (add_properties_do w v u W Eu P) as (u' & -> & F & _). cbn [fst].
  rewrite !get_ans. cbn [w_unis set_unis]. rewrite (upd_some _ _ _ _ Eu), Eu. unfold prop_get. cbn [w_stat set_unis]. rewrite St. cbn [snd bind fst]. unfold peek. rewrite Y, A.
  destruct (Forall2_nth_l _ _ _ F _ _ A) as (m' & A' & Gm). rewrite A'. destruct m' as [x|d']; cbn in Gm; [contradiction|]. destruct Gm as (l & -> & i0 & D0 & Fl).
  assert (Nm : dn_name d = n) by (destruct (domain_at _ _ _ _ W H) as (? & ? & _ & _ & _ & Nm & _); exact Nm). rewrite Nm, Dd in D0. inv D0. cbn [dn_cells].
  destruct (nth_error (dn_cells d) (pi_dix i)) as [c0|] eqn:Ec0.
  - rewrite (nth_ext_app _ _ _ _ Ec0). destruct (fst c0 =? pd_ty p); cbn; (split; [reflexivity|split; [discriminate|eauto 6]]).
  - assert (L := proj1 (nth_error_None _ _) Ec0). rewrite nth_error_app2 by auto.
    destruct (Forall2_nth_l _ _ _ Fl (pi_dix i - length (dn_cells d)) gid) as (y & Hy & My). { rewrite nth_skipn. replace (length (dn_cells d) + (pi_dix i - length (dn_cells d))) with (pi_dix i) by lia. exact X. }
    rewrite Hy. unfold made_of in My. assert (y = c) by congruence. subst y. destruct (fst c =? pd_ty p); cbn; (split; [reflexivity|split; [discriminate|eauto 6]]).
Qed.
Lemma fresh_get w ns k p gid c : winv w -> r_ans w (RNew ns) = Ok None -> declared w k p -> known w k -> In (pd_domain p) ns ->
  nget (g_n2g (w_glob w)) (pd_name p) = Some gid -> nth_error (g_prod (w_glob w)) gid = Some c ->
  r_ans (after w (RNew ns)) (RGet (length (w_unis w)) k) = if fst c =? pd_ty p then Ok (Some (snd c)) else panic PDowncast.
Proof.
  intros W H [o D] (p' & i & K) I G P. rewrite K in D. inv D. destruct (new_ok w ns W H) as (w2 & u & u' & A & P0 & P2 & St & Gd & Gs & U & Sh & F & Nn).
  assert (S2 : sinv (w_glob w2) (p, Some i)).
  { eapply sinv_ext; [apply Gd|apply Gd|]. destruct W as (_ & S & _). rewrite Forall_forall in S. apply S. eapply nth_error_In; eauto. }
  destruct (Nn _ I) as (di & d & D & E & Nm). assert (Y : pi_did i = di_id di).
  { assert (S : sinv (w_glob w) (p, Some i)). { destruct W as (_ & S & _). rewrite Forall_forall in S. apply S. eapply nth_error_In; eauto. }
    destruct S as (di' & X1 & X2 & _). cbn in *. congruence. }
  destruct (shapes_dom _ _ _ _ Sh E) as (d' & E' & N' & C' & _). rewrite get_ans, A. cbn [w_unis set_unis]. rewrite nth_app_last. unfold prop_get. cbn [w_stat set_unis]. rewrite St, K. cbn [snd bind fst].
  rewrite (fresh_peek w2 u' d' p i gid c); auto.
  - destruct (fst c =? pd_ty p); reflexivity.
  - apply Gd.
  - eapply uinv_shapes; eauto.
  - rewrite Y. exact E'.
  - congruence.
  - destruct (F _ _ E) as (di' & F1 & F2 & _). exists di'. rewrite N', C'. auto.
  - apply (gx_n2g _ _ (proj2 Gd)), G.
  - destruct (gx_prod _ _ (proj2 Gd)) as [l ->]. apply nth_ext_app, P.
Qed.
Lemma more_value w v k p ns d : h_reached w -> declared w k p -> known w k -> has_domain w v (pd_domain p) d -> r_ans w (RNew ns) = Ok None -> In (pd_domain p) ns ->
  r_ans (after w (RMore v)) (RGet v k) =
    match r_ans w (RGet v k) with Err (EPanic PUnknownProp) => r_ans (after w (RNew ns)) (RGet (length (w_unis w)) k) | r => r end.
Proof.
  intros R D K H N I. assert (W := reached_inv _ R). destruct (new_ok w ns W N) as (_ & _ & _ & _ & P & _).
  destruct (more_get w v k p _ d W P D K H eq_refl) as (gid & c & G & Pc & M & _). rewrite M. rewrite (fresh_get w ns k p gid c); auto.
Qed.
Lemma more_readable w v k p d : h_reached w -> w_poison w = false -> declared w k p -> known w k -> has_domain w v (pd_domain p) d ->
  (exists x, r_ans (after w (RMore v)) (RGet v k) = Ok (Some x)) \/ r_ans (after w (RMore v)) (RGet v k) = panic PDowncast.
Proof.
  intros R P D K H. assert (W := reached_inv _ R). destruct (more_get w v k p _ d W P D K H eq_refl) as (gid & c & _ & _ & M & N & r & E & C). rewrite E in M. rewrite M in *.
  destruct C as [[x ->]|[->| ->]]; unfold panic; cbn; eauto. destruct (fst c =? pd_ty p); eauto.
Qed.
(** [add_properties] does nothing else *)
Lemma more_answer w v : winv w -> v < length (w_unis w) -> w_poison w = false -> r_ans w (RMore v) = Ok None.
Proof.
  intros W L P. destruct (nth_error_lt_Some _ _ L) as [u E]. unfold r_ans. cbn [r_step unit_res snd]. destruct (add_properties_do w v u W E P) as (u' & -> & _). reflexivity.
Qed.
Lemma more_tables w v v' t : h_reached w -> w_poison w = false -> r_ans (after w (RMore v)) (RRead v' t) = r_ans w (RRead v' t).
Proof.
  intros R P. assert (W := reached_inv _ R). destruct (Nat.eq_dec v' v) as [->|N].
  - destruct (nth_error (w_unis w) v) as [u|] eqn:E.
    + unfold after. cbn [r_step unit_res fst]. destruct (add_properties_do w v u W E P) as (u' & -> & F & _). cbn [fst]. unfold r_ans. cbn [r_step some_res snd]. unfold read_table. cbn [w_unis set_unis].
      rewrite (upd_some _ _ _ _ E), E. unfold find_table. rewrite (get_id_dep w (set_unis w (upd (w_unis w) v u'))) by auto using gsame_refl. destruct (get_id w (td_domain t)) as [id|]; cbn [bind]; auto.
      destruct (nth_error u id) as [m|] eqn:Em.
      * destruct (Forall2_nth_l _ _ _ F _ _ Em) as (m' & Em' & G). rewrite Em'. destruct m as [x|d], m' as [y|d']; cbn in G; try contradiction; auto. destruct G as (l & -> & _). cbn [dn_tabs].
        destruct (nget (dn_tabs d) (td_name t)); auto.
      * apply nth_error_None in Em. rewrite (F2len _ _ _ F) in Em. rewrite (proj2 (nth_error_None _ _) Em). reflexivity.
    + unfold after. cbn [r_step unit_res fst]. unfold add_properties. rewrite E. reflexivity.
  - apply (universes_apart w (RMore v) v v'); auto; try reflexivity. apply more_poison.
Qed.
(** A property registered later is not in the universe *)
Lemma unknown_value w os v k p d : h_reached w -> has_domain w v (pd_domain p) d -> declared w k p -> (forall j p', declared w j p' -> known w j -> pd_name p' <> pd_name p) ->
  ~ In (HCall (RMore v)) os -> known (h_run w os) k -> r_ans (h_run w os) (RGet v k) = panic PUnknownProp.
Proof.
  intros R H D N M K. assert (W := reached_inv _ R). assert (Rg := reached_regd _ R). destruct (domain_later w os v _ d W H) as (d' & H' & T & l & Ty & L).
  assert (Mf : existsb (is_more v) os = false).
  { destruct (existsb (is_more v) os) eqn:X; auto. exfalso. apply existsb_exists in X. destruct X as (o & O1 & O2). destruct o as [o|]; [|discriminate]. destruct o; try discriminate.
    cbn in O2. apply Nat.eqb_eq in O2. subst. auto. }
  rewrite (L Mf), app_nil_r in Ty. assert (W' := proj1 (run_good os w W)). assert (X := proj2 (run_good os w W)). set (w' := h_run w os) in *.
  destruct (known_place w' v k p _ d' W' (declared_run os _ _ _ W D) K H' eq_refl) as (u & i & di & gid & Eu & St & Dd & Y & A & G & X1 & X2 & _).
  destruct (domain_at _ _ _ _ W H) as (u0 & di0 & E0 & D0 & A0 & Nm & Ok0). destruct (gext_get _ _ _ _ (proj1 W') X D0) as (di2 & D2 & Dx). rewrite Dd in D2. inv D2.
  assert (Lp : length (di_props di0) <= pi_dix i).
  { destruct (dx_new _ _ Dx _ _ X2) as [B|B]; auto. exfalso. destruct (Rg _ _ _ _ D0 B) as (j & pj & x & J1 & J2 & J3). apply (N j pj); auto; [exists (Some x); auto|exists pj, x; auto]. }
  assert (Lc : length (dn_cells d) <= length (di_props di0)).
  { destruct Ok0 as (i0 & B1 & B2 & (ps & qs & B3 & B4) & _). assert (i0 = di0). { pose proof (nth_nget _ _ _ _ (gv_nd _ (proj1 W)) B1). congruence. } subst i0.
    rewrite B3, app_length, <- (F2len _ _ _ B4). lia. }
  assert (Lt : length (dn_cells d') = length (dn_cells d)). { rewrite <- (map_length fst (dn_cells d')), <- (map_length fst (dn_cells d)). unfold types in Ty. congruence. }
  rewrite get_ans, Eu. unfold prop_get. rewrite St. cbn [snd bind fst]. unfold peek. rewrite Y, A. rewrite (proj2 (nth_error_None _ _)) by lia. reflexivity.
Qed.
Lemma initial_value w k p os ns : h_reached w -> declared w k p -> (forall j p', declared w j p' -> known w j -> pd_name p' <> pd_name p) -> r_ans w (RProp k) = Ok None ->
  let w' := h_run (after w (RProp k)) os in r_ans w' (RNew ns) = Ok None -> In (pd_domain p) ns -> forall j q, declared w j q -> known w' j -> twins p q ->
  r_ans (after w' (RNew ns)) (RGet (length (w_unis w')) j) = if pd_ty p =? pd_ty q then Ok (Some (pd_init p)) else panic PDowncast.
Proof.
  intros R Dk N H w' Hn I j q Dj Kj [T1 T2]. destruct (prop_first w k p R Dk N H) as (gid & G & P & K). assert (W := reached_inv _ R).
  assert (W1 := proj1 (h_step_good w (HCall (RProp k)) W)). change (h_after w (HCall (RProp k))) with (after w (RProp k)) in W1. destruct (run_good os _ W1) as [W' X]. fold w' in W', X.
  rewrite (fresh_get w' ns j q gid (pd_ty p, pd_init p)); auto.
  - apply (declared_run (HCall (RProp k) :: os) w j q W Dj).
  - congruence.
  - rewrite <- T1. apply (gx_n2g _ _ X), G.
  - destruct (gx_prod _ _ X) as [l ->]. apply nth_ext_app, P.
Qed.
(** ** Locking *)
Lemma lock_exact w n b i : get_id w n = Ok i -> h_ans w (HLock n b) = Ok None /\ let w' := h_after w (HLock n b) in
  dom_locked w' n = Ok b /\ (forall m, m <> n -> dom_locked w' m = dom_locked w m) /\ (forall m, get_id w' m = get_id w m) /\ forall v q, looks v q -> r_ans w' q = r_ans w q.
Proof.
  intro H. apply get_id_ok in H. destruct H as (P & di & D & _). unfold h_ans, h_after. cbn [h_step unit_res fst snd]. assert (Rs := lock_rest w n b).
  assert (E : set_locked w n b = (set_glob w (set_dom (w_glob w) n (lock_to b di)), Ok tt)) by (unfold set_locked, writing; rewrite P, D; reflexivity).
  rewrite E in *. cbn [fst snd] in *. destruct Rs as (R1 & R2 & R3). split; [reflexivity|]. cbv zeta. split; [|split; [|split]].
  - unfold dom_locked, reading. cbn. rewrite P, nget_nset, neqb_refl by congruence. reflexivity.
  - intros m N. unfold dom_locked, reading. cbn. rewrite nget_nset by congruence. destruct (neqb_spec n m); [congruence|reflexivity].
  - intro m. apply get_id_dep; auto.
  - intros v q L. apply (look_dep w _ v q L); auto. intro k. apply prop_get_dep; auto.
Qed.
Lemma lock_unknown w n b : w_poison w = false -> (forall i, get_id w n <> Ok i) -> h_ans w (HLock n b) = panic PUndefDomain /\ h_after w (HLock n b) = poison w.
Proof.
  intros P H. unfold h_ans, h_after. cbn [h_step unit_res fst snd]. unfold get_id, reading in H. rewrite P in H. unfold set_locked, writing. rewrite P.
  destruct (nget (g_doms (w_glob w)) n) as [i|]; [exfalso; eapply H; reflexivity|]. split; reflexivity.
Qed.

