(** Proofs about the registry: adding domains, locked domains, registering twice, poisoning. *)
From Coq Require Import List Arith Bool Lia.
From Verif Require Import Base BaseFacts Names NamesFacts Table Extract ExtractFacts Registry RegistrySpec RegistryFacts RegistryProps RegistryInit.
Import ListNotations.

(** ** [add_domain] *)
Lemma sync_nth w u j m : nth_error u j = Some m -> nth_error (sync_domains w u) j = Some m.
Proof. apply nth_ext_app. Qed.
Lemma uinv_nth w v u : winv w -> nth_error (w_unis w) v = Some u -> uinv (w_glob w) u.
Proof. intros (_ & _ & U) E. rewrite Forall_forall in U. apply U. eapply nth_error_In; eauto. Qed.
Lemma fits w v u : winv w -> nth_error (w_unis w) v = Some u -> length u <= length (g_d2n (w_glob w)).
Proof.
  intros W E. destruct (Nat.le_gt_cases (length u) (length (g_d2n (w_glob w)))) as [|Gt]; auto. exfalso. destruct (nth_error_lt_Some u (length (g_d2n (w_glob w))) Gt) as [m M].
  assert (Y := uinv_nth _ _ _ W E _ _ M). destruct m as [m|m]; cbn in Y; [apply nth_error_Some_lt in Y; lia|]. destruct Y as (i & Y & _). apply nth_error_Some_lt in Y.
  rewrite (gv_d2n _ (proj1 W)), map_length in Y. lia.
Qed.
Lemma fits_b w v u : winv w -> nth_error (w_unis w) v = Some u -> (length (g_d2n (w_glob w)) <? length u) = false.
Proof. intros W E. apply Nat.ltb_ge. eapply fits; eauto. Qed.
Lemma add_poison w v n : winv w -> w_poison (fst (add_domain w v n)) = w_poison w.
Proof.
  intro W. unfold add_domain. destruct (nth_error (w_unis w) v) as [u|] eqn:E; auto. destruct (w_poison w) eqn:P; auto. rewrite (fits_b _ _ _ W E). cbv zeta. set (w1 := set_unis w (upd (w_unis w) v (sync_domains w u))).
  destruct (get_id w1 n) as [id|e] eqn:I; [|exact P]. destruct (nth_error (sync_domains w u) id) as [[m|d]|]; try exact P.
  unfold writing. change (w_poison w1) with (w_poison w). rewrite P. destruct (get_id_ok _ _ _ I) as (_ & i & D & _). change (w_glob w1) with (w_glob w) in *.
  assert (S := instantiate_spec (w_glob w) n (proj1 W)). rewrite D in S. destruct S as (d & S & _). rewrite S. cbn. exact P.
Qed.
(** What it does *)
Lemma add_cases w v n u : winv w -> nth_error (w_unis w) v = Some u -> w_poison w = false ->
  (exists e, r_ans w (RAdd v n) = Err e /\ nget (g_doms (w_glob w)) n = None /\ after w (RAdd v n) = set_unis w (upd (w_unis w) v (sync_domains w u))) \/
  (exists i d, nget (g_doms (w_glob w)) n = Some i /\ nth_error (sync_domains w u) (di_id i) = Some (Dom d) /\ r_ans w (RAdd v n) = Ok None /\
     after w (RAdd v n) = set_unis w (upd (w_unis w) v (sync_domains w u))) \/
  (exists i d, nget (g_doms (w_glob w)) n = Some i /\ nth_error (sync_domains w u) (di_id i) = Some (Unset n) /\ instantiate (w_glob w) n = (set_dom (w_glob w) n (lock_of i), Ok d) /\
     let w2 := set_glob (set_unis w (upd (w_unis w) v (sync_domains w u))) (set_dom (w_glob w) n (lock_of i)) in
     let p := init_domain w2 (upd (sync_domains w u) (di_id i) (Dom d)) n in
     r_ans w (RAdd v n) = match snd p with Ok _ => Ok None | Err e => Err e end /\ after w (RAdd v n) = set_unis w2 (upd (w_unis w) v (fst p))).
Proof.
  intros W E P. unfold r_ans, after. cbn [r_step unit_res fst snd]. unfold add_domain. rewrite E, P, (fits_b _ _ _ W E). cbv zeta. set (u1 := sync_domains w u). set (w1 := set_unis w (upd (w_unis w) v u1)).
  unfold get_id, reading. change (w_poison w1) with (w_poison w). change (w_glob w1) with (w_glob w). rewrite P. destruct (nget (g_doms (w_glob w)) n) as [i|] eqn:D.
  - assert (L : nth_error u1 (di_id i) <> None).
    { unfold u1, sync_domains. destruct (ginv_nget_nth _ _ _ (proj1 W) D) as [N _]. assert (Lt := nth_error_Some_lt _ _ _ N). rewrite <- (map_length fst), <- (gv_d2n _ (proj1 W)) in Lt.
      apply nth_error_Some. rewrite app_length, map_length, skipn_length. lia. }
    destruct (nth_error u1 (di_id i)) as [[m|d]|] eqn:En; [|right; left; exists i, d; auto|congruence]. right. right.
    assert (S := instantiate_spec (w_glob w) n (proj1 W)). rewrite D in S. destruct S as (d & S & _). exists i, d.
    assert (m = n).
    { assert (U : uinv (w_glob w) u1). { apply uinv_sync; auto. destruct W as (_ & _ & U). rewrite Forall_forall in U. apply U. eapply nth_error_In; eauto. }
      apply U in En. cbn in En. rewrite (gv_d2n _ (proj1 W)), nth_error_map in En. destruct (ginv_nget_nth _ _ _ (proj1 W) D) as [N _]. rewrite N in En. cbn in En. congruence. }
    subst m. split; auto. split; auto. split; auto. unfold writing. change (w_poison w1) with (w_poison w). change (w_glob w1) with (w_glob w). rewrite P, S. cbn [fst snd]. split; auto.
    unfold w1. cbn [set_glob set_unis w_unis w_glob w_poison w_stat]. rewrite upd_twice. reflexivity.
  - left. cbn. eauto.
Qed.
(** The state in which [init_domain] runs *)
Lemma add_mid w v n u i d : winv w -> nth_error (w_unis w) v = Some u -> nget (g_doms (w_glob w)) n = Some i -> instantiate (w_glob w) n = (set_dom (w_glob w) n (lock_of i), Ok d) ->
  ginv (set_dom (w_glob w) n (lock_of i)) /\ uinv (set_dom (w_glob w) n (lock_of i)) (upd (sync_domains w u) (di_id i) (Dom d)) /\ gsame (w_glob w) (set_dom (w_glob w) n (lock_of i)).
Proof.
  intros W E D S. destruct (set_lock_ok _ _ _ (proj1 W) D) as [G X]. split; auto. split; [|apply gsame_lock; auto].
  assert (Sp := instantiate_spec (w_glob w) n (proj1 W)). rewrite D in Sp. destruct Sp as (d' & Sp & S1 & S2 & S3 & S4 & S5). rewrite S in Sp. inv Sp.
  apply uinv_upd; [|eapply instantiate_dn_ok; eauto; apply W]. apply uinv_ext with (g := w_glob w); auto. apply uinv_sync; auto. eapply uinv_nth; eauto.
Qed.

Lemma get_kept w v n k x : reached w -> r_ans w (RGet v k) = Ok x -> r_ans (after w (RAdd v n)) (RGet v k) = Ok x.
Proof.
  intros R H. assert (W := reached_inv _ R). destruct (w_poison w) eqn:P.
  { replace (after w (RAdd v n)) with w; auto. unfold after. cbn. unfold add_domain. rewrite P. destruct (nth_error (w_unis w) v); auto. }
  rewrite get_ans in *. destruct (nth_error (w_unis w) v) as [u|] eqn:E; [|discriminate].
  assert (Pl : snd (prop_get (after w (RAdd v n)) k) = snd (prop_get w k)). { apply (step_place w (RAdd v n) v k W eq_refl). unfold after. cbn. apply add_poison; auto. }
  rewrite Pl. destruct (snd (prop_get w k)) as [[p i]|e]; [|discriminate]. cbn [bind fst snd] in *. bindok H.
  assert (G : forall u', (forall d, nth_error u (pi_did i) = Some (Dom d) -> exists d', nth_error u' (pi_did i) = Some (Dom d') /\ dn_cells d' = dn_cells d) -> peek u' p i = Ok v0).
  { intros u' X. unfold peek in *. destruct (nth_error u (pi_did i)) as [[m|d]|]; try discriminate. destruct (X d eq_refl) as (d' & -> & ->). exact Hb. }
  destruct (add_cases w v n u W E P) as [(e & _ & _ & A)|[(i0 & d0 & D & N & _ & A)|(i0 & d0 & D & N & S & _ & A)]]; rewrite A; cbn [w_unis set_unis]; rewrite (upd_some _ _ _ _ E).
  - rewrite G; auto. intros d Hd. exists d. split; auto. apply sync_nth, Hd.
  - rewrite G; auto. intros d Hd. exists d. split; auto. apply sync_nth, Hd.
  - rewrite G; auto. intros d Hd. apply (sync_nth w) in Hd. assert (Ne : pi_did i <> di_id i0) by congruence.
    match goal with |- context [init_domain ?a ?b ?c] => pose proof (init_domain_shapes a b c) as [L Sh] end.
    destruct (nth_error_lt_Some (fst (init_domain (set_glob (set_unis w (upd (w_unis w) v (sync_domains w u))) (set_dom (w_glob w) n (lock_of i0))) (upd (sync_domains w u) (di_id i0) (Dom d0)) n)) (pi_did i)) as [m Em].
    { rewrite L, upd_length. eapply nth_error_Some_lt; eauto. }
    specialize (Sh (pi_did i) (Dom d) m). rewrite nth_error_upd_ne in Sh by auto. specialize (Sh Hd Em). destruct m as [|d']; [contradiction|]. exists d'. split; auto. cbn in Sh. apply Sh.
Qed.
(** What [add_domain] does to the tables *)
Lemma add_tables w v n j d u : reached w -> r_ans w (RAdd v n) = Ok None -> nth_error (w_unis w) v = Some u -> nth_error u j = Some (Dom d) ->
  exists u' d', nth_error (w_unis (after w (RAdd v n))) v = Some u' /\ nth_error u' j = Some (Dom d') /\ dn_name d' = dn_name d /\ forall tn : name, nget (dn_tabs d') tn = option_map (told (dn_name d) tn (if existsb (fun m => match m with Dom x => name_eqb (dn_name x) n | Unset _ => false end) u then [] else wanted w n)) (nget (dn_tabs d) tn).
Proof.
  intros R H E Hd. assert (W := reached_inv _ R). destruct (w_poison w) eqn:P. { exfalso. unfold r_ans in H. cbn in H. unfold add_domain in H. rewrite E, P in H. discriminate. }
  assert (Us := uinv_sync w u W (uinv_nth _ _ _ W E)).
  destruct (add_cases w v n u W E P) as [(e & A & _)|[(i0 & d0 & D & N & _ & A)|(i0 & d0 & D & N & S & B & A)]]; [congruence| |]; rewrite A; cbn [w_unis set_unis]; rewrite (upd_some _ _ _ _ E).
  - destruct (existsb _ u) eqn:X.
    + exists (sync_domains w u), d. split; auto. split; [apply sync_nth, Hd|]. split; auto. intro tn. destruct (nget (dn_tabs d) tn); cbn; auto. rewrite told_nil. reflexivity.
    + exfalso. unfold sync_domains in N. destruct (Nat.lt_ge_cases (di_id i0) (length u)) as [Lt|Ge].
      * rewrite nth_error_app1 in N by auto. assert (T : existsb (fun m => match m with Dom x => name_eqb (dn_name x) n | Unset _ => false end) u = true); [|congruence].
        apply existsb_exists. exists (Dom d0). split; [eapply nth_error_In; eauto|]. apply (uinv_nth _ _ _ W E) in N. cbn in N. destruct N as (i' & N & _).
        destruct (ginv_nget_nth _ _ _ (proj1 W) D) as [M _]. rewrite M in N. inv N. apply neqb_refl.
      * rewrite nth_error_app2 in N by auto. rewrite nth_error_map in N. destruct (nth_error (skipn (length u) (g_d2n (w_glob w))) (di_id i0 - length u)); discriminate.
  - assert (X : existsb (fun m => match m with Dom x => name_eqb (dn_name x) n | Unset _ => false end) u = false).
    { apply not_true_is_false. intro T. apply existsb_exists in T. destruct T as ([|x] & I & T); [discriminate|]. destruct (neqb_spec (dn_name x) n) as [<-|]; [|discriminate].
      apply In_nth_error in I. destruct I as [jj I]. assert (Y := uinv_nth _ _ _ W E _ _ I). cbn in Y. destruct Y as (i' & Y & _). destruct (gv_id _ (proj1 W) _ _ _ Y) as [Z _].
      assert (i' = i0) by (pose proof (nth_nget _ _ _ _ (gv_nd _ (proj1 W)) Y); congruence). subst i'. rewrite Z in N. apply (sync_nth w) in I. congruence. }
    rewrite X. clear X. cbv zeta in B. destruct (add_mid _ _ _ _ _ _ W E D S) as (G2 & U2 & Gs).
    destruct (init_domain _ _ n) as [u' [[]|e]] eqn:I; cbn [fst snd] in *; [|congruence]. exists u'. apply init_domain_keeps in I; auto.
    specialize (I j). rewrite nth_error_upd_ne in I; [|apply (sync_nth w) in Hd; congruence]. rewrite (sync_nth w u j _ Hd) in I. destruct I as (d' & I1 & I2 & I3 & I4 & I5 & I6). exists d'.
    split; auto. split; auto. split; auto. intro tn. rewrite I6. rewrite (wanted_gsame w) by exact Gs. reflexivity.
Qed.
Lemma read_kept w v n t x : reached w -> r_ans w (RAdd v n) = Ok None -> r_ans w (RRead v t) = Ok x -> r_ans (after w (RAdd v n)) (RRead v t) = Ok x.
Proof.
  intros R H Hr. assert (W := reached_inv _ R). unfold r_ans in Hr. unfold r_ans at 1. cbn [r_step some_res snd] in *. unfold read_table in *.
  destruct (nth_error (w_unis w) v) as [u|] eqn:E; [|discriminate]. destruct (find_table w u (td_domain t) (td_name t)) as [[[id d] ti]|] eqn:F; [|discriminate].
  destruct (find_table_ok _ _ _ _ _ _ _ F) as (F1 & F2 & F3). destruct (add_tables w v n id d u R H E F1) as (u' & d' & A1 & A2 & A3 & A4). rewrite A1. unfold find_table.
  rewrite (get_id_dep w (after w (RAdd v n))); [|unfold after; cbn; apply add_poison; auto|apply (step_gsame w (RAdd v n) v W eq_refl)]. rewrite F3. cbn [bind]. rewrite A2, A4, F2. cbn [option_map bind snd told ti_decl ti_rows ti_poison].
  exact Hr.
Qed.
(** Adding a domain twice *)
Lemma add_retry w v n : reached w -> v < length (w_unis w) -> w_poison w = false -> In n (g_d2n (w_glob w)) -> r_step (after w (RAdd v n)) (RAdd v n) = (after w (RAdd v n), Ok None).
Proof.
  intros R Lv P Hn. assert (W := reached_inv _ R). destruct (nth_error_lt_Some _ _ Lv) as [u E]. rewrite (gv_d2n _ (proj1 W)) in Hn.
  assert (W' := reached_inv _ (reached_after w (RAdd v n) R)). assert (P' : w_poison (after w (RAdd v n)) = false) by (unfold after; cbn; rewrite add_poison; auto).
  assert (C := add_cases (after w (RAdd v n)) v n). set (w' := after w (RAdd v n)) in *.
  assert (X : exists u', nth_error (w_unis w') v = Some u' /\ sync_domains w' u' = u' /\ exists i d, nget (g_doms (w_glob w')) n = Some i /\ nth_error u' (di_id i) = Some (Dom d)).
  { assert (Sy : forall g u0, length u0 = length (g_d2n g) -> u0 ++ map Unset (skipn (length u0) (g_d2n g)) = u0) by (intros g u0 L; rewrite L, skipn_all; cbn; apply app_nil_r).
    assert (Ls : length (sync_domains w u) = length (g_d2n (w_glob w))).
    { unfold sync_domains. rewrite app_length, map_length, skipn_length. assert (X := fits _ _ _ W E). lia. }
    destruct (add_cases w v n u W E P) as [(e & _ & A & _)|[(i0 & d0 & D & N & _ & A)|(i0 & d0 & D & N & S & B & A)]]; [apply nget_None in A; contradiction| |]; fold w' in A; rewrite A.
    - exists (sync_domains w u). cbn [w_unis set_unis w_glob]. split; [eapply upd_some; eauto|]. split; [|eauto]. unfold sync_domains at 1. cbn. apply Sy. exact Ls.
    - cbv zeta in A. clear B.
      match type of A with context [init_domain ?a ?b ?c] => pose proof (init_domain_shapes a b c) as [L Sh]; destruct (init_domain a b c) as [u' r] end. cbn [fst] in *.
      rewrite upd_length in L. exists u'. cbn [w_unis set_unis set_glob w_glob]. split; [eapply upd_some; eauto|].
      split; [unfold sync_domains; cbn; apply Sy; rewrite L; exact Ls|]. exists (lock_of i0). destruct (nth_error_lt_Some u' (di_id i0)) as [m M]. { rewrite L. eapply nth_error_Some_lt; eauto. }
      specialize (Sh (di_id i0) (Dom d0) m (upd_some _ _ _ _ N) M). destruct m as [|d']; [contradiction|]. exists d'. cbn. rewrite nget_nset by congruence. rewrite neqb_refl. auto. }
  destruct X as (u' & E' & Sn & i & d & D & N). rewrite <- Sn in N. unfold r_step.
  destruct (C u' W' E' P') as [(e & _ & A & _)|[(i1 & d1 & D1 & N1 & A1 & A2)|(i1 & d1 & D1 & N1 & _)]]; [congruence| |rewrite D in D1; inv D1; congruence].
  unfold r_ans, after in A1, A2. cbn [r_step] in A1, A2. destruct (unit_res (add_domain w' v n)) as [wa ra]. cbn [fst snd] in A1, A2. subst. f_equal. rewrite Sn.
  rewrite upd_same by auto. destruct w'; reflexivity.
Qed.

Lemma add_again w v n : reached w -> r_ans w (RAdd v n) = Ok None -> r_step (after w (RAdd v n)) (RAdd v n) = (after w (RAdd v n), Ok None).
Proof.
  intros R H. assert (W := reached_inv _ R). assert (X : v < length (w_unis w) /\ w_poison w = false /\ In n (g_d2n (w_glob w))); [|apply add_retry; tauto].
  destruct (nth_error (w_unis w) v) as [u|] eqn:E; [|exfalso; unfold r_ans in H; cbn in H; unfold add_domain in H; rewrite E in H; discriminate].
  destruct (w_poison w) eqn:P. { exfalso. unfold r_ans in H. cbn in H. unfold add_domain in H. rewrite E, P in H. discriminate. }
  split; [eapply nth_error_Some_lt; eauto|]. split; auto. rewrite (gv_d2n _ (proj1 W)).
  destruct (add_cases w v n u W E P) as [(e & A & _)|[(i0 & d0 & D & _)|(i0 & d0 & D & _)]]; [congruence| |]; eapply nget_In; eauto.
Qed.
(** The trackers that [add_domain] registers *)
Lemma tracked_where w v dn tn l : trackers_of w v dn tn = Some l -> exists u id d t, nth_error (w_unis w) v = Some u /\ find_table w u dn tn = Ok (id, d, t) /\ ti_trk t = l.
Proof.
  unfold trackers_of. destruct (nth_error (w_unis w) v) as [u|]; [|discriminate]. destruct (find_table w u dn tn) as [[[id d] t]|] eqn:F; [|discriminate]. intro H. inv H. eauto 10.
Qed.
Lemma add_trackers w v n dn tn l : reached w -> r_ans w (RAdd v n) = Ok None -> trackers_of w v dn tn = Some l -> (forall d, ~ has_domain w v n d) ->
  trackers_of (after w (RAdd v n)) v dn tn = Some (l ++ map tk_id (filter (tracks dn tn) (wanted w n))).
Proof.
  intros R H T N. assert (W := reached_inv _ R). destruct (tracked_where _ _ _ _ _ T) as (u & id & d & t & E & F & <-). destruct (find_table_ok _ _ _ _ _ _ _ F) as (F1 & F2 & F3).
  destruct (add_tables w v n id d u R H E F1) as (u' & d' & A1 & A2 & A3 & A4).
  replace (existsb (fun m => match m with Dom x => name_eqb (dn_name x) n | Unset _ => false end) u) with false in A4.
  2:{ symmetry. apply not_true_is_false. intro X. apply existsb_exists in X. destruct X as ([|x] & I & X); [discriminate|]. apply name_eqb_eq in X. apply (N x). exists u. auto. }
  unfold trackers_of. rewrite A1. unfold find_table. rewrite (get_id_dep w (after w (RAdd v n))); [|unfold after; cbn; apply add_poison; auto|apply (step_gsame w (RAdd v n) v W eq_refl)]. rewrite F3. cbn [bind]. rewrite A2, A4, F2. cbn [option_map ti_trk told].
  replace (dn_name d) with dn; auto. destruct (get_id_ok _ _ _ F3) as (_ & i & D & I). assert (X := uinv_nth _ _ _ W E _ _ F1). cbn in X. destruct X as (i' & X & _).
  destruct (ginv_nget_nth _ _ _ (proj1 W) D) as [Y _]. congruence.
Qed.

(** ** Locked domains (C48) *)
Lemma has_domain_info w v n d : winv w -> has_domain w v n d -> exists i, nget (g_doms (w_glob w)) n = Some i /\ di_locked i = true /\ tables d = di_tabs i /\
  Forall2 (fun gid c => exists x, nth_error (g_prod (w_glob w)) gid = Some (fst c, x)) (di_props i) (dn_cells d).
Proof.
  intros W (u & E & I & Nm). apply In_nth_error in I. destruct I as [j I]. assert (X := uinv_nth _ _ _ W E _ _ I). cbn in X. destruct X as (i & A & B & C & D & T & O). exists i.
  rewrite <- Nm. split; [eapply nth_nget; eauto; apply W|]. auto.
Qed.
Lemma later_info w os v n d : winv w -> has_domain w v n d -> exists i, nget (g_doms (w_glob (r_run w os))) n = Some i /\ di_locked i = true /\ tables d = di_tabs i /\
  Forall2 (fun gid c => exists x, nth_error (g_prod (w_glob (r_run w os))) gid = Some (fst c, x)) (di_props i) (dn_cells d).
Proof.
  intros W H. destruct (has_domain_info _ _ _ _ W H) as (i & A1 & A2 & A3 & A4). destruct (run_good os w W) as [W' X]. destruct (gext_get _ _ _ _ (proj1 W') X A1) as (i' & D & Dx).
  apply (dx_lock _ _ Dx) in A2 as L. subst i'. exists i. split; auto. split; auto. split; auto. eapply Forall2_impl; [|exact A4]. intros gid c (x & Hx). exists x. destruct (gx_prod _ _ X) as [l ->]. apply nth_ext_app, Hx.
Qed.
Lemma same_tables w os v v' n d d' : reached w -> has_domain w v n d -> has_domain (r_run w os) v' n d' -> tables d' = tables d /\ types d' = types d.
Proof.
  intros R A B. assert (R' := reached_run _ os R). apply reached_inv in R, R'. destruct (later_info _ os _ _ _ R A) as (i & A1 & A2 & A3 & A4). destruct (has_domain_info _ _ _ _ R' B) as (i' & B1 & B2 & B3 & B4).
  rewrite A1 in B1. inv B1. split; [congruence|]. unfold types. revert A4 B4. generalize (dn_cells d) (dn_cells d'). generalize (w_glob (r_run w os)). clear. intros g l m F. revert m.
  induction F as [|x y xs ys [z H] F IH]; intros m G; inv G; auto. cbn. destruct H2 as [z' H2]. f_equal; auto. congruence.
Qed.
Lemma table_rejected w os v n d t : reached w -> has_domain w v n d -> td_domain t = n -> let w' := r_run w os in
  (exists e, r_ans w' (RTable t) = Err e) /\ w_glob (after w' (RTable t)) = w_glob w' /\ w_unis (after w' (RTable t)) = w_unis w' /\
  (w_poison w' = false -> new_generic_table t = Ok tt -> r_ans w' (RTable t) = panic PLocked).
Proof.
  intros R H E w'. apply reached_inv in R. destruct (later_info _ os _ _ _ R H) as (i & A1 & A2 & _). unfold r_ans, after. cbn [r_step unit_res fst snd]. unfold register_table, writing.
  destruct (new_generic_table t); [|split; [cbn; eauto|split; [auto|split; [auto|discriminate]]]]. destruct (w_poison w'); [split; [cbn; eauto|split; [auto|split; [auto|discriminate]]]|].
  unfold w'. rewrite E, A1, A2. cbn. eauto.
Qed.
Lemma prop_rejected w os v n d k p : reached w -> has_domain w v n d -> let w' := r_run w os in declared w' k p -> pd_domain p = n -> ~ known w' k ->
  (exists e, r_ans w' (RProp k) = Err e) /\ w_glob (after w' (RProp k)) = w_glob w' /\ w_unis (after w' (RProp k)) = w_unis w' /\ w_stat (after w' (RProp k)) = w_stat w' /\
  (w_poison w' = false -> prop_check_name p = Ok tt -> r_ans w' (RProp k) = panic PLocked).
Proof.
  intros R H w' [o D] E K. apply reached_inv in R. destruct (later_info _ os _ _ _ R H) as (i & A1 & A2 & _). fold w' in A1. unfold r_ans, after. cbn [r_step unit_res fst snd]. unfold prop_init, writing.
  destruct (w_poison w'); [split; [cbn; eauto|split; [auto|split; [auto|split; [auto|discriminate]]]]|]. rewrite D. destruct o as [x|]; [exfalso; apply K; exists p, x; auto|].
  destruct (prop_check_name p); [|split; [cbn; eauto|split; [auto|split; [auto|split; [auto|discriminate]]]]]. rewrite E, A1, A2. cbn. eauto 10.
Qed.

(** ** Registering twice (C49) *)
Lemma metas_eqb_refl l : metas_eqb l l = true.
Proof. induction l as [|c l IH]; cbn; auto. rewrite IH. unfold colmeta_eqb. rewrite ?neqb_refl. destruct c; cbn; rewrite ?neqb_refl, ?Nat.eqb_refl; auto. Qed.
Lemma nget_app {A} (l m : list (name * A)) k v : nget l k = Some v -> nget (l ++ m) k = Some v.
Proof. induction l as [|[x y] l IH]; cbn; [discriminate|]. destruct (name_eqb x k); auto. Qed.
(** A table that is there, or one with the same columns *)
Lemma registered w t : winv w -> r_ans w (RTable t) = Ok None -> new_generic_table t = Ok tt /\ exists i t', nget (g_doms (w_glob (after w (RTable t)))) (td_domain t) = Some i /\ nget (di_tabs i) (td_name t) = Some t' /\ equivalent t t' = true.
Proof.
  intros W H. unfold r_ans in H. unfold after. cbn [r_step unit_res fst snd] in *. unfold register_table, writing in *. destruct (new_generic_table t) as [[]|]; [|discriminate]. split; auto.
  destruct (w_poison w); [discriminate|]. cbv zeta in *. destruct (nget (g_doms (w_glob w)) (td_domain t)) as [i|] eqn:D; [|discriminate]. destruct (di_locked i); [discriminate|].
  destruct (nget (di_tabs i) (td_name t)) as [t'|] eqn:T.
  - destruct (equivalent t t') eqn:Q; [|discriminate]. cbn. eauto.
  - cbn. rewrite nget_nset by congruence. rewrite neqb_refl. eexists _, t. split; [reflexivity|]. cbn. rewrite nget_nadd, neqb_refl by auto. split; auto. unfold equivalent. rewrite !neqb_refl, metas_eqb_refl. reflexivity.
Qed.
Lemma still_registered w t os : winv w -> r_ans w (RTable t) = Ok None -> exists i t', nget (g_doms (w_glob (r_run (after w (RTable t)) os))) (td_domain t) = Some i /\ nget (di_tabs i) (td_name t) = Some t' /\ equivalent t t' = true.
Proof.
  intros W H. destruct (registered w t W H) as (_ & i & t' & A & B & C). assert (W1 : winv (after w (RTable t))) by (apply step_good; auto). destruct (run_good os _ W1) as [W' X].
  destruct (gext_get _ _ _ _ (proj1 W') X A) as (i' & D & Dx). exists i', t'. split; auto. split; auto. destruct (dx_tabs _ _ Dx) as [l ->]. apply nget_app, B.
Qed.
Lemma colmeta_eqb_eq a b : colmeta_eqb a b = true -> a = b.
Proof.
  unfold colmeta_eqb. destruct a, b. cbn. intro H. repeat match goal with H : _ && _ = true |- _ => apply andb_true_iff in H; destruct H end.
  repeat match goal with H : name_eqb _ _ = true |- _ => apply name_eqb_eq in H | H : (_ =? _) = true |- _ => apply Nat.eqb_eq in H end. congruence.
Qed.
Lemma metas_eqb_eq a : forall b, metas_eqb a b = true -> a = b.
Proof.
  induction a as [|x a IH]; intros [|y b] H; cbn in H; try discriminate; auto. apply andb_true_iff in H. destruct H as [H1 H2]. f_equal; auto. apply colmeta_eqb_eq; auto.
Qed.
(** [s] has the name and the columns of [t]. *)
Lemma register_again w t s os b : reached w -> r_ans w (RTable t) = Ok None -> td_domain s = td_domain t -> td_name s = td_name t -> td_cols s = td_cols t ->
  let w' := r_run (after w (RTable t)) os in dom_locked w' (td_domain t) = Ok b ->
  r_step w' (RTable s) = if b then (poison w', panic PLocked) else (w', Ok None).
Proof.
  intros R H E1 E2 E3 w' L. apply reached_inv in R. destruct (registered w t R H) as (N & _). destruct (still_registered w t os R H) as (i & t' & A & B & C). fold w' in A. unfold dom_locked, reading in L.
  destruct (w_poison w') eqn:P; [discriminate|]. rewrite A in L. inv L. cbn [r_step]. unfold register_table, writing. replace (new_generic_table s) with (new_generic_table t) by (unfold new_generic_table; rewrite E2, E3; reflexivity). rewrite N, P, E1, A, E2, B. cbv zeta.
  destruct (di_locked i); [reflexivity|]. replace (equivalent s t') with (equivalent t t') by (unfold equivalent; rewrite E1, E2, E3; reflexivity). rewrite C. reflexivity.
Qed.
Lemma register_other w t s os : reached w -> r_ans w (RTable t) = Ok None -> td_domain s = td_domain t -> td_name s = td_name t -> td_cols s <> td_cols t ->
  exists e, r_ans (r_run (after w (RTable t)) os) (RTable s) = Err e.
Proof.
  intros R H E1 E2 E3. apply reached_inv in R. destruct (still_registered w t os R H) as (i & t' & A & B & C). unfold r_ans. cbn [r_step unit_res snd]. unfold register_table, writing.
  destruct (new_generic_table s); [|cbn; eauto]. destruct (w_poison _); [cbn; eauto|]. rewrite E1, A. destruct (di_locked i); [cbn; eauto|]. rewrite E2, B. destruct (equivalent s t') eqn:Q; [|cbn; eauto].
  exfalso. apply E3. unfold equivalent in *. apply andb_true_iff in C, Q. destruct C as [_ C], Q as [_ Q]. apply metas_eqb_eq in C, Q. congruence.
Qed.
Lemma prop_again w k : known w k -> w_poison w = false -> r_step w (RProp k) = (w, Ok None).
Proof. intros (d & i & K) P. cbn [r_step]. unfold prop_init, writing. rewrite P, K. reflexivity. Qed.
(** The table of another Rust type *)
Lemma find_table_decl w v u dn tn id d ti : winv w -> nth_error (w_unis w) v = Some u -> find_table w u dn tn = Ok (id, d, ti) -> exists i, nget (g_doms (w_glob w)) dn = Some i /\ nget (di_tabs i) tn = Some (ti_decl ti).
Proof.
  intros W E F. destruct (find_table_ok _ _ _ _ _ _ _ F) as (A & B & C). destruct (get_id_ok _ _ _ C) as (_ & i & D & I). exists i. split; auto.
  assert (X := uinv_nth _ _ _ W E _ _ A). cbn in X. destruct X as (i' & X & _ & _ & _ & T & _). destruct (ginv_nget_nth _ _ _ (proj1 W) D) as [Y _]. rewrite I in Y. rewrite X in Y. inv Y.
  rewrite <- T, nget_map, B. reflexivity.
Qed.
Lemma convert_type a b : td_type a <> td_type b -> exists e, convert a b = Err e.
Proof.
  intro N. unfold convert. destruct (get_columns (td_cols a) (td_cols b)) as [[]|e]; cbn [bind]; [|eauto]. destruct (Nat.eqb_spec (td_type a) (td_type b)); [contradiction|eexists; reflexivity].
Qed.
Lemma imposter_useless w os t s v x : reached w -> has_table w t -> td_domain s = td_domain t -> td_name s = td_name t -> td_type s <> td_type t ->
  let w' := r_run w os in (exists e, r_ans w' (RRead v s) = Err e) /\ (exists e, r_ans w' (RWrite v s x) = Err e).
Proof.
  intros R (i & D & T) E1 E2 E3 w'. assert (W' := reached_inv _ (reached_run _ os R)). fold w' in W'. apply reached_inv in R. destruct (run_good os w R) as [_ X]. fold w' in X.
  destruct (gext_get _ _ _ _ (proj1 W') X D) as (i' & D' & Dx). assert (T' : nget (di_tabs i') (td_name t) = Some t) by (destruct (dx_tabs _ _ Dx) as [l ->]; apply nget_app, T).
  unfold r_ans. cbn [r_step some_res unit_res fst snd]. unfold read_table, write_table. destruct (nth_error (w_unis w') v) as [u|] eqn:E; [|cbn; eauto]. rewrite E1, E2.
  destruct (find_table w' u (td_domain t) (td_name t)) as [[[id d] ti]|e] eqn:F; [|cbn; eauto]. cbn [bind snd].
  destruct (find_table_decl _ _ _ _ _ _ _ _ W' E F) as (i2 & D2 & T2). rewrite D' in D2. inv D2. rewrite T' in T2. inv T2.
  destruct (convert_type (ti_decl ti) s) as [e ->]; [congruence|]. cbn. eauto.
Qed.
Lemma imposter_harmful w t s v x y : reached w -> has_table w t -> td_domain s = td_domain t -> td_name s = td_name t -> td_type s <> td_type t ->
  r_ans w (RRead v t) = Ok (Some y) -> r_ans (after w (RWrite v s x)) (RRead v t) = panic PPoisoned.
Proof.
  intros R (i & D & T) E1 E2 E3 H. apply reached_inv in R. unfold r_ans, after in *. cbn [r_step some_res unit_res fst snd] in *. unfold read_table, write_table in *.
  destruct (nth_error (w_unis w) v) as [u|] eqn:E; [|discriminate]. rewrite E1, E2. destruct (find_table w u (td_domain t) (td_name t)) as [[[id d] ti]|e] eqn:F; [|discriminate]. cbn [bind snd] in *.
  destruct (find_table_decl _ _ _ _ _ _ _ _ R E F) as (i2 & D2 & T2). rewrite D in D2. inv D2. rewrite T in T2. inv T2. destruct (convert_type (ti_decl ti) s) as [e ->]; [congruence|]. cbn [fst w_unis set_unis].
  rewrite (upd_some _ _ _ _ E). destruct (find_table_ok _ _ _ _ _ _ _ F) as (F1 & F2 & F3). unfold find_table.
  match goal with |- context [get_id ?a ?b] => change (get_id a b) with (get_id w b) end. rewrite F3. cbn [bind]. unfold put_table. rewrite (upd_some _ _ _ _ F1). cbn [dn_tabs]. rewrite nget_nset by congruence. rewrite neqb_refl. cbn [bind snd ti_decl ti_poison].
  destruct (convert (ti_decl ti) (ti_decl ti)); [reflexivity|discriminate].
Qed.

(** ** Poisoning (C57) *)
Lemma poison_stuck w o : w_poison w = true -> (match o with RGet _ _ | RSet _ _ _ => False | _ => True end) -> after w o = w /\ exists e, r_ans w o = Err e.
Proof.
  intros P K. assert (G : forall n, get_id w n = panic PPoisoned) by (intro n; unfold get_id, reading; rewrite P; reflexivity).
  destruct o; try contradiction; unfold after, r_ans; cbn [r_step unit_res some_res fst snd].
  - unfold register_domain, writing. rewrite P. destruct (check_name n); cbn; eauto.
  - unfold prop_init, writing. rewrite P. cbn. eauto.
  - unfold register_table, writing. rewrite P. destruct (new_generic_table t); cbn; eauto.
  - unfold new_universe, get_domains, writing. rewrite P. cbn. eauto.
  - unfold add_domain. rewrite P. destruct (nth_error (w_unis w) v); cbn; eauto.
  - unfold add_properties. rewrite P. destruct (nth_error (w_unis w) v); cbn; eauto.
  - split; auto. unfold read_table, find_table. rewrite G. destruct (nth_error (w_unis w) v); cbn; eauto.
  - unfold write_table, find_table. rewrite G. destruct (nth_error (w_unis w) v); cbn; eauto.
  - unfold add_tracker, register_tracker, find_table. rewrite G. destruct (nth_error (w_unis w) v) eqn:E; cbn; eauto. split; eauto. rewrite upd_same by auto. destruct w; reflexivity.
Qed.
Lemma prop_get_poison w k : w_poison w = true -> w_poison (fst (prop_get w k)) = true.
Proof. intro P. destruct (prop_get w k) as [w1 [[p i]|e]] eqn:E; cbn; [apply prop_get_ok in E; destruct E as (_ & E & _); congruence|]. destruct (prop_get_err _ _ _ _ E) as [->|[-> _]]; auto. Qed.
Lemma poison_forever os : forall w, w_poison w = true -> w_poison (r_run w os) = true.
Proof.
  induction os as [|o os IH]; intros w P; auto. apply (IH (after w o)). destruct o; try (match goal with |- context [after w ?o] => rewrite (proj1 (poison_stuck w o P I)) end; exact P).
  - destruct (get_after w v k) as [->| ->]; auto. apply prop_get_poison; auto.
  - destruct (set_after w v k x) as [->|[->|[u ->]]]; auto; [|cbn]; apply prop_get_poison; auto.
Qed.
(** Which calls poison *)
Lemma findable_get w k : reached w -> w_poison w = false -> (exists d, declared w k d) -> ((exists q, snd (prop_get w k) = Ok q) <-> findable w k).
Proof.
  intros R P [d [o D]]. assert (W := reached_inv _ R). split.
  - intros [[p i] H]. destruct (prop_get w k) as [w1 r] eqn:E. cbn in H. subst r. assert (Pl := prop_get_place _ _ _ _ _ W E). destruct (prop_get_ok _ _ _ _ _ E) as (_ & _ & _ & _ & _ & o' & G).
    rewrite D in G. inv G. destruct Pl as (di & A1 & A2 & A3 & A4). cbn in *. destruct (reached_regd _ R _ _ _ _ A1 A3) as (j & d' & x & J & J1 & J2).
    exists p, j, d'. split; [exists o'; auto|]. split; [exists (Some x); auto|]. split; [exists d', x; auto|]. split; auto.
  - intros (d1 & j & d' & [o1 D1] & [o2 D2] & (d3 & i & K) & T). rewrite D in D1. inv D1. rewrite K in D2. inv D2.
    destruct (twin_place w j k d' d1 w i W) as (w2 & jj & Q & _); auto; [exists (Some i); auto|exists o1; auto|destruct T; split; auto|unfold prop_get; rewrite K; auto|]. rewrite Q. cbn. eauto.
Qed.
Lemma prop_get_poisons w k : reached w -> w_poison w = false -> w_poison (fst (prop_get w k)) = true <-> (exists d, declared w k d) /\ ~ findable w k.
Proof.
  intros R P. split.
  - intro H. assert (X : exists d o, nth_error (w_stat w) k = Some (d, o)).
    { unfold prop_get in H. destruct (nth_error (w_stat w) k) as [[d o]|]; [eauto|]. cbn in H. congruence. }
    destruct X as (d & o & D). assert (Dd : exists d, declared w k d) by (exists d, o; auto). split; auto. intro F. apply findable_get in F; auto. destruct F as [[p i] F].
    destruct (prop_get w k) as [w1 r] eqn:E. cbn in *. subst r. apply prop_get_ok in E. destruct E as (_ & E & _). congruence.
  - intros [Dd F]. destruct (prop_get w k) as [w1 [[p i]|e]] eqn:E; cbn [fst]. { exfalso. apply F, findable_get; auto. rewrite E. cbn. eauto. }
    destruct Dd as (d & o & D). unfold prop_get in E. rewrite D in E. destruct o as [x|]; [discriminate|]. unfold sync_alias, writing in E. rewrite P in E.
    destruct (nget (g_doms (w_glob w)) (pd_domain d)) as [di|]; [|inv E; auto]. destruct (nget (g_n2g (w_glob w)) (pd_name d)) as [gid|]; [|inv E; auto]. destruct (nget (di_n2d di) (pd_name d)); [discriminate|inv E; auto].
Qed.
Lemma writing_poison {A} w (f : world -> world * res A) : w_poison w = false -> w_poison (fst (f w)) = false -> (w_poison (fst (writing w f)) = true <-> exists e, snd (writing w f) = Err e).
Proof.
  intros P F. unfold writing. rewrite P. destruct (f w) as [w1 [a|e]]; cbn in *; split; intro H; try congruence; [destruct H; discriminate|eauto].
Qed.
Lemma unit_res_err (p : world * res unit) : (exists e, snd (unit_res p) = Err e) <-> (exists e, snd p = Err e).
Proof. destruct p as [w [a|e]]; cbn; split; intros [x H]; try discriminate; eauto. Qed.
Lemma guilty_iff w o : reached w -> w_poison w = false -> (w_poison (after w o) = true <-> guilty w o).
Proof.
  intros R P. assert (W := reached_inv _ R). destruct o; unfold after; cbn [r_step unit_res some_res fst guilty].
  - split; [|contradiction]. unfold register_domain, writing. rewrite P. destruct (check_name n); [|cbn; congruence]. destruct (nget (g_doms (w_glob w)) n); cbn; congruence.
  - unfold r_ans. cbn [r_step]. rewrite unit_res_err. apply writing_poison; auto. cbv zeta. destruct (nth_error (w_stat w) k) as [[d [i|]]|] eqn:E; auto. destruct (prop_check_name d); auto.
    destruct (nget (g_doms (w_glob w)) (pd_domain d)) as [i|]; auto. destruct (di_locked i); auto.
    destruct (nget (g_n2g (w_glob w)) (pd_name d)) as [g1|], (nget (di_n2d i) (pd_name d)) as [x1|]; auto.
  - unfold r_ans. cbn [r_step]. rewrite unit_res_err. unfold register_table. destruct (new_generic_table t) as [[]|e]; [|cbn; split; [congruence|intros [X _]; discriminate]].
    rewrite writing_poison; auto; [tauto|]. cbv zeta. destruct (nget (g_doms (w_glob w)) (td_domain t)) as [i|]; auto. destruct (di_locked i); auto. destruct (nget (di_tabs i) (td_name t)) as [t'|]; auto. destruct (equivalent t t'); auto.
  - assert (X : w_poison (fst (new_universe w ns)) = w_poison (fst (get_domains w ns))).
    { unfold new_universe. destruct (get_domains w ns) as [w1 [u|e]]; auto. destruct (init_domains w1 u ns) as [u1 [x|e]]; auto. }
    rewrite X. unfold get_domains. rewrite writing_poison by auto. unfold writing. rewrite P. cbv zeta.
    assert (Y : forall ns g u, ginv g -> uinv g u -> length u = length (g_d2n g) -> (exists e, snd (get_domains_loop g u ns) = Err e) <-> exists n, In n ns /\ ~ In n (g_d2n g)).
    { clear. induction ns as [|n ns IH]; intros g u G U L; cbn [get_domains_loop].
      - split; [intros [e H]; discriminate|intros (n & [] & _)].
      - assert (Sp := instantiate_spec g n G). destruct (nget (g_doms g) n) as [i|] eqn:D.
        + destruct Sp as (d & Sp & S1 & S2 & S3 & S4 & S5). rewrite Sp. destruct (set_lock_ok _ _ _ G D) as [G1 X1]. destruct (ginv_nget_nth _ _ _ G D) as [N _]. pose proof (nth_error_Some_lt _ _ _ N) as Lt.
          rewrite <- (map_length fst), <- (gv_d2n _ G), <- L in Lt. rewrite S2. apply Nat.ltb_lt in Lt. rewrite Lt. rewrite IH; auto.
          * cbn [set_dom g_d2n]. split; [intros (m & A & B); exists m; cbn; auto|]. intros (m & [<-|A] & B); [|eauto]. exfalso. apply B. rewrite (gv_d2n _ G). eapply nget_In; eauto.
          * apply uinv_upd; [eapply uinv_ext; eauto|]. eapply instantiate_dn_ok; eauto.
          * rewrite upd_length. exact L.
        + rewrite Sp. cbn. split; [intros _|eauto]. exists n. split; [cbn; auto|]. rewrite (gv_d2n _ G). apply nget_None, D. }
    rewrite <- (Y ns (w_glob w) (map Unset (g_d2n (w_glob w)))); [|apply W|apply uinv_unset|apply map_length].
    destruct (get_domains_loop (w_glob w) (map Unset (g_d2n (w_glob w))) ns) as [g [u|e]]; cbn; tauto.
  - split; [|contradiction]. rewrite add_poison by auto. congruence.
  - split; [|contradiction]. rewrite add_properties_rest by auto. congruence.
  - destruct (nth_error (w_unis w) v) as [u|] eqn:E.
    + assert (A := get_fst w v k (ex_intro _ _ E)). unfold after in A. cbn in A. rewrite A, prop_get_poisons by auto. apply nth_error_Some_lt in E. tauto.
    + unfold get_prop, prop_index. rewrite E. cbn. apply nth_error_None in E. split; [congruence|lia].
  - destruct (nth_error (w_unis w) v) as [u|] eqn:E.
    + assert (A : w_poison (fst (set_prop w v k x)) = w_poison (fst (prop_get w k))).
      { unfold set_prop, prop_index. rewrite E. destruct (prop_get w k) as [w1 [[p i]|e]]; auto. destruct (nth_error u (pi_did i)) as [[m|d]|]; auto. destruct (nth_error (dn_cells d) (pi_dix i)) as [c|]; auto. destruct (fst c =? pd_ty p); auto. }
      rewrite A, prop_get_poisons by auto. apply nth_error_Some_lt in E. tauto.
    + unfold set_prop, prop_index. rewrite E. cbn. apply nth_error_None in E. split; [congruence|lia].
  - split; [congruence|contradiction].
  - split; [|contradiction]. destruct (write_table_rest w v t x) as (_ & _ & _ & ->). congruence.
  - split; [|contradiction]. destruct (add_tracker_rest w v tr) as (_ & _ & _ & ->). congruence.
Qed.
