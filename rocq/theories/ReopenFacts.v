(** The registry with domains that are unlocked again keeps a weaker invariant: what a universe has is the beginning of what the
    registry has. *)
From Coq Require Import List Arith Bool Lia.
From Verif Require Import Base BaseFacts Names NamesFacts Table Extract ExtractFacts Registry RegistrySpec RegistryFacts RegistryProps Reopen ReopenSpec.
Import ListNotations.

Definition dn_ok (g : globals) (j : nat) (d : dinst) : Prop :=
  exists i, nth_error (g_doms g) j = Some (dn_name d, i) /\ dn_id d = j /\
    (exists ps qs, di_props i = ps ++ qs /\ Forall2 (fun gid c => exists x, nth_error (g_prod g) gid = Some (fst c, x)) ps (dn_cells d)) /\
    (exists l, di_tabs i = map (fun p => (fst p, ti_decl (snd p))) (dn_tabs d) ++ l) /\ dn_order d = map fst (dn_tabs d).
Definition uinv (g : globals) (u : uni) : Prop :=
  forall j m, nth_error u j = Some m -> match m with Unset n => nth_error (g_d2n g) j = Some n | Dom d => dn_ok g j d end.
Definition winv (w : world) : Prop := ginv (w_glob w) /\ Forall (sinv (w_glob w)) (w_stat w) /\ Forall (uinv (w_glob w)) (w_unis w).

(** ** Growth *)
Record dext (i i' : dinfo) : Prop := {
  dx_id : di_id i' = di_id i;
  dx_name : di_name i' = di_name i;
  dx_n2d : forall pn x, nget (di_n2d i) pn = Some x -> nget (di_n2d i') pn = Some x;
  dx_new : forall pn x, nget (di_n2d i') pn = Some x -> nget (di_n2d i) pn = Some x \/ length (di_props i) <= x;
  dx_props : exists l, di_props i' = di_props i ++ l;
  dx_tabs : exists l, di_tabs i' = di_tabs i ++ l }.
Record gext (g g' : globals) : Prop := {
  gx_d2n : exists l, g_d2n g' = g_d2n g ++ l;
  gx_prod : exists l, g_prod g' = g_prod g ++ l;
  gx_n2g : forall n x, nget (g_n2g g) n = Some x -> nget (g_n2g g') n = Some x;
  gx_doms : forall j n i, nth_error (g_doms g) j = Some (n, i) -> exists i', nth_error (g_doms g') j = Some (n, i') /\ dext i i' }.
Lemma dext_refl i : dext i i.
Proof. constructor; auto; exists []; rewrite app_nil_r; reflexivity. Qed.
Lemma dext_trans a b c : dext a b -> dext b c -> dext a c.
Proof.
  intros [A1 A2 A4 A7 [l A5] [m A6]] [B1 B2 B4 B7 [l' B5] [m' B6]]. constructor; try congruence; auto.
  - intros pn x H. destruct (B7 pn x H) as [H1|H1]; [auto|]. right. rewrite A5, app_length in H1. lia.
  - exists (l ++ l'). rewrite B5, A5, app_assoc. reflexivity.
  - exists (m ++ m'). rewrite B6, A6, app_assoc. reflexivity.
Qed.
Lemma gext_refl g : gext g g.
Proof. constructor; auto; try (exists []; rewrite app_nil_r; reflexivity). intros j n i H. exists i. split; auto. apply dext_refl. Qed.
Lemma gext_trans a b c : gext a b -> gext b c -> gext a c.
Proof.
  intros [[l A1] [m A2] A3 A4] [[l' B1] [m' B2] B3 B4]. constructor; auto.
  - exists (l ++ l'). rewrite B1, A1, app_assoc. reflexivity.
  - exists (m ++ m'). rewrite B2, A2, app_assoc. reflexivity.
  - intros j n i H. destruct (A4 j n i H) as (i' & E & X). destruct (B4 j n i' E) as (i2 & E2 & X2). exists i2. split; auto. eapply dext_trans; eauto.
Qed.
Lemma gext_get g g' n i : ginv g' -> gext g g' -> nget (g_doms g) n = Some i -> exists i', nget (g_doms g') n = Some i' /\ dext i i'.
Proof.
  intros G X H. apply nget_nth in H. destruct H as [j H]. destruct (gx_doms _ _ X _ _ _ H) as (i' & E & D). exists i'. split; auto.
  eapply nth_nget; eauto. apply gv_nd, G.
Qed.
Lemma sinv_ext g g' s : ginv g' -> gext g g' -> sinv g s -> sinv g' s.
Proof.
  intros G X. unfold sinv. destruct (snd s) as [x|]; auto. intros (i & H & A & B & C). destruct (gext_get _ _ _ _ G X H) as (i' & H' & D).
  exists i'. split; auto. split; [rewrite (dx_id _ _ D); auto|]. split; [apply (dx_n2d _ _ D), B|]. apply (gx_n2g _ _ X), C.
Qed.
Lemma dn_ok_ext g g' j d : gext g g' -> dn_ok g j d -> dn_ok g' j d.
Proof.
  intros X (i & H & A & (ps & qs & Ep & C) & (l & T) & O). destruct (gx_doms _ _ X _ _ _ H) as (i' & H' & D).
  destruct (dx_props _ _ D) as [p' Ep'], (dx_tabs _ _ D) as [t' Et']. exists i'. split; auto. split; auto. split; [|split; [|exact O]].
  - exists ps, (qs ++ p'). split; [rewrite Ep', Ep, app_assoc; reflexivity|]. destruct (gx_prod _ _ X) as [m E]. eapply Forall2_impl; [|exact C].
    intros gid c (x & Y). exists x. rewrite E. apply nth_ext_app, Y.
  - exists (l ++ t'). rewrite Et', T, app_assoc. reflexivity.
Qed.
Lemma uinv_ext g g' u : gext g g' -> uinv g u -> uinv g' u.
Proof.
  intros X H j m E. specialize (H j m E). destruct m as [n|d]; [|eapply dn_ok_ext; eauto].
  destruct (gx_d2n _ _ X) as [l ->]. apply nth_ext_app, H.
Qed.
Lemma winv_glob w g : winv w -> ginv g -> gext (w_glob w) g -> winv (set_glob w g).
Proof.
  intros (G & S & U) G' X. split; [exact G'|]. split; cbn [w_glob w_stat w_unis set_glob].
  - eapply Forall_impl; [|exact S]. intros s Hs. eapply sinv_ext; eauto.
  - eapply Forall_impl; [|exact U]. intros s Hs. eapply uinv_ext; eauto.
Qed.

(** ** Properties have distinct numbers *)
(** ** Registration keeps the invariant *)
(** A step, as far as the registry is concerned *)
Definition good (w : world) (w' : world) : Prop := winv w' /\ gext (w_glob w) (w_glob w').
Lemma good_refl w : winv w -> good w w. Proof. split; auto. apply gext_refl. Qed.
Lemma good_trans a b c : good a b -> good b c -> good a c.
Proof. intros [A X] [B Y]. split; auto. eapply gext_trans; eauto. Qed.
Lemma winv_poison w : winv w -> winv (poison w). Proof. auto. Qed.
Lemma writing_good {A} w (f : world -> world * res A) : winv w -> (w_poison w = false -> good w (fst (f w))) -> good w (fst (writing w f)).
Proof.
  intros W H. unfold writing. destruct (w_poison w); [apply good_refl, W|]. specialize (H eq_refl). destruct (f w) as [w' [a|e]]; exact H.
Qed.
Lemma register_domain_good w n : winv w -> good w (fst (register_domain w n)).
Proof.
  intro W. unfold register_domain. destruct (check_name n); [|apply good_refl, W]. apply writing_good; auto. intros _.
  destruct (nget (g_doms (w_glob w)) n) as [i|] eqn:E; [apply good_refl, W|].
  cbn [fst]. destruct W as (G & S & U). set (g := w_glob w) in *.
  set (i := DI (length (g_doms g)) n [] [] [] [] false).
  assert (X : gext g (GL (g_n2g g) (g_prod g) (nadd (g_doms g) n i) (g_d2n g ++ [n]))).
  { constructor; cbn [g_n2g g_prod g_doms g_d2n]; eauto.
    - exists []. rewrite app_nil_r. reflexivity.
    - intros j m k H. exists k. split; [apply nth_ext_app, H|apply dext_refl]. }
  assert (G' : ginv (GL (g_n2g g) (g_prod g) (nadd (g_doms g) n i) (g_d2n g ++ [n]))).
  { destruct G as [A1 A2 A3 A4 A5 A6 A7]. constructor; cbn [g_n2g g_prod g_doms g_d2n]; auto.
    - unfold nadd. rewrite map_app, A1. reflexivity.
    - apply nadd_ND; auto.
    - intros j m k H. unfold nadd in H. destruct (Nat.ltb_spec j (length (g_doms g))) as [L|L].
      + rewrite nth_error_app1 in H; auto.
      + rewrite nth_error_app2 in H; auto. destruct (j - length (g_doms g)) as [|q] eqn:Ej; [|destruct q; discriminate].
        inv H. cbn. split; [lia|reflexivity].
    - intros m k H. rewrite nget_nadd in H; auto. destruct (neqb_spec n m) as [<-|N].
      + inv H. constructor; cbn; auto; try constructor; discriminate.
      + apply (dinv_ext g); auto.
    - intros pn gid H. destruct (A7 pn gid H) as (k & dix & B1 & B2). exists k, dix. split; auto.
      rewrite nget_nadd; auto. destruct (neqb_spec n (fst (split_slash pn))) as [->|]; [congruence|exact B1]. }
  split; [|exact X]. apply winv_glob; auto. split; auto.
Qed.

(** Replacing a domain by a grown one *)
Lemma set_dom_ext g n i i' n2g prod : ginv g -> nget (g_doms g) n = Some i -> dext i i' ->
  (forall pn x, nget (g_n2g g) pn = Some x -> nget n2g pn = Some x) -> (exists l, prod = g_prod g ++ l) ->
  gext g (GL n2g prod (nset (g_doms g) n i') (g_d2n g)).
Proof.
  intros G H D N P. constructor; cbn [g_n2g g_prod g_doms g_d2n]; auto.
  - exists []. rewrite app_nil_r. reflexivity.
  - intros j m k Hj. destruct (neqb_spec n m) as [<-|Nm].
    + exists i'. rewrite (nth_nset_get _ n i' _ _ _ (gv_nd _ G) Hj), neqb_refl. split; auto.
      assert (k = i). { pose proof (nth_nget _ _ _ _ (gv_nd _ G) Hj). congruence. } subst. exact D.
    + exists k. rewrite (nth_nset_get _ n i' _ _ _ (gv_nd _ G) Hj). destruct (neqb_spec n m); [contradiction|]. split; auto. apply dext_refl.
Qed.
Lemma set_dom_inv g n i i' n2g prod : ginv g -> nget (g_doms g) n = Some i -> dext i i' ->
  (forall pn x, nget (g_n2g g) pn = Some x -> nget n2g pn = Some x) -> (exists l, prod = g_prod g ++ l) ->
  map snd n2g = seq 0 (length prod) -> NoDup (map fst n2g) ->
  let g' := GL n2g prod (nset (g_doms g) n i') (g_d2n g) in
  dinv g' n i' -> (forall pn gid, nget n2g pn = Some gid -> nget (g_n2g g) pn = None -> fst (split_slash pn) = n /\ nget (di_n2d i') pn <> None) ->
  ginv g'.
Proof.
  intros G H D N [l P] A B g' DI R. destruct G as [A1 A2 A3 A4 A5 A6 A7]. subst g'. constructor; cbn [g_n2g g_prod g_doms g_d2n] in *; auto.
  - rewrite nset_fst. auto.
  - rewrite nset_fst. auto.
  - intros j m k Hj. apply nth_nset in Hj; auto. destruct Hj as [(-> & -> & y & Hj)|[Nm Hj]]; [|auto].
    destruct (A3 _ _ _ Hj) as [E1 E2]. assert (y = i) by (pose proof (nth_nget _ _ _ _ A2 Hj); congruence). subst y.
    rewrite (dx_id _ _ D), (dx_name _ _ D). auto.
  - intros m k Hm. rewrite nget_nset in Hm by congruence. destruct (neqb_spec n m) as [<-|Nm].
    + inv Hm. exact DI.
    + eapply dinv_ext; [| |apply A6, Hm]; auto. cbn [g_prod]. rewrite P, app_length. lia.
  - intros pn gid Hp. destruct (nget (g_n2g g) pn) as [x|] eqn:E.
    + destruct (A7 pn x E) as (k & dix & B1 & B2). rewrite nget_nset by congruence. destruct (neqb_spec n (fst (split_slash pn))) as [E1|]; [|eauto].
      exists i', dix. split; auto. apply (dx_n2d _ _ D). congruence.
    + destruct (R pn gid Hp E) as [E1 E2]. rewrite nget_nset by congruence. rewrite E1, neqb_refl. destruct (nget (di_n2d i') pn) as [x|] eqn:Ex; [|contradiction].
      exists i', x. auto.
Qed.

Lemma prop_init_good w k : winv w -> good w (fst (prop_init w k)).
Proof.
  intro W. unfold prop_init. apply writing_good; auto. intros _. set (g := w_glob w).
  destruct (nth_error (w_stat w) k) as [[d [x|]]|] eqn:Ek; try apply good_refl, W.
  destruct (prop_check_name d) as [[]|] eqn:Ec; [|apply good_refl, W]. apply prop_check_name_dom in Ec.
  destruct (nget (g_doms g) (pd_domain d)) as [i|] eqn:Ed; [|apply good_refl, W].
  destruct (di_locked i) eqn:El; [apply good_refl, W|].
  assert (W2 := W). destruct W2 as (G & S & U). fold g in G, S, U.
  set (pn := pd_name d) in *.
  assert (Dv := gv_dom _ G _ _ Ed).
  destruct (match nget (g_n2g g) pn with Some x => (x, false) | None => (length (g_prod g), true) end) as [gid first] eqn:E1.
  destruct (match nget (di_n2d i) pn with Some x => (x, false) | None => (length (di_props i), true) end) as [dix new] eqn:E2.
  set (n2d' := if new then nadd (di_n2d i) pn dix else di_n2d i).
  set (n2g' := if first then nadd (g_n2g g) pn gid else g_n2g g).
  set (prod' := if first then g_prod g ++ [(pd_ty d, pd_init d)] else g_prod g).
  set (i' := DI (di_id i) (di_name i) (di_props i ++ [gid]) (di_tabs i) (di_order i) n2d' false).
  assert (N1 : nget n2g' pn = Some gid).
  { unfold n2g'. destruct (nget (g_n2g g) pn) as [x|] eqn:E; inv E1; auto. rewrite nget_nadd, neqb_refl; auto. }
  assert (N2 : forall qn x, nget (g_n2g g) qn = Some x -> nget n2g' qn = Some x).
  { intros qn x H. unfold n2g'. destruct (nget (g_n2g g) pn) as [y|] eqn:E; inv E1; auto. rewrite nget_nadd; auto.
    destruct (neqb_spec pn qn) as [->|]; [congruence|auto]. }
  assert (N3 : nget n2d' pn = Some dix).
  { unfold n2d'. destruct (nget (di_n2d i) pn) as [x|] eqn:E; inv E2; auto. rewrite nget_nadd, neqb_refl; auto. }
  assert (N4 : forall qn x, nget (di_n2d i) qn = Some x -> nget n2d' qn = Some x).
  { intros qn x H. unfold n2d'. destruct (nget (di_n2d i) pn) as [y|] eqn:E; inv E2; auto. rewrite nget_nadd; auto.
    destruct (neqb_spec pn qn) as [->|]; [congruence|auto]. }
  assert (P : exists l, prod' = g_prod g ++ l) by (unfold prod'; destruct first; [eauto|exists []; rewrite app_nil_r; reflexivity]).
  assert (D : dext i i').
  { constructor; cbn; auto; try congruence; [|eauto|exists []; rewrite app_nil_r; reflexivity].
    intros qn x H. unfold n2d' in H. destruct (nget (di_n2d i) pn) as [y|] eqn:E; inv E2; auto. rewrite nget_nadd in H by auto.
    destruct (neqb_spec pn qn) as [<-|]; [inv H; auto|auto]. }
  assert (X : gext g (GL n2g' prod' (nset (g_doms g) (pd_domain d) i') (g_d2n g))) by (apply set_dom_ext with (i := i); auto).
  assert (Lg : gid < length prod').
  { unfold prod'. destruct (nget (g_n2g g) pn) as [x|] eqn:E; inv E1; [eapply n2g_lt; eauto|]. rewrite app_length; cbn; lia. }
  assert (Lp : length (g_prod g) <= length prod') by (destruct P as [l ->]; rewrite app_length; lia).
  assert (G' : ginv (GL n2g' prod' (nset (g_doms g) (pd_domain d) i') (g_d2n g))).
  { apply set_dom_inv with (i := i); auto.
    - unfold n2g', prod'. destruct first; [|apply G]. unfold nadd. rewrite map_app, app_length, (gv_n2g _ G), seq_app. cbn.
      destruct (nget (g_n2g g) pn); inv E1. reflexivity.
    - unfold n2g'. destruct first; [|apply G]. apply nadd_ND; [|apply G]. destruct (nget (g_n2g g) pn); inv E1. reflexivity.
    - destruct Dv as [V1 V2 V3 V4 V5]. constructor; cbn; auto.
      + rewrite Forall_app. split; [|repeat constructor; auto]. eapply Forall_impl; [|exact V1]. cbn; intros; lia.
      + intros qn q Hq. destruct (neqb_spec pn qn) as [<-|Nq].
        * assert (q = dix) by congruence. subst q. exists gid. split; auto. unfold n2d' in *.
          destruct (nget (di_n2d i) pn) as [y|] eqn:E; inv E2; [|apply nth_app_last].
          destruct (V2 _ _ E) as (gx & Y1 & Y2). rewrite Y1 in E1. inv E1. apply nth_ext_app, Y2.
        * assert (H : nget (di_n2d i) qn = Some q).
          { unfold n2d' in Hq. destruct (nget (di_n2d i) pn) as [y|] eqn:E; inv E2; auto. rewrite nget_nadd in Hq; auto.
            destruct (neqb_spec pn qn); [contradiction|auto]. }
          destruct (V2 _ _ H) as (gx & Y1 & Y2). exists gx. split; auto. apply nth_ext_app, Y2.
    - intros qn q Hq Hn. assert (qn = pn).
      { unfold n2g' in Hq. destruct first; [|congruence]. destruct (neqb_spec pn qn) as [|Nq]; auto.
        rewrite nget_nadd in Hq by (destruct (nget (g_n2g g) pn); inv E1; reflexivity).
        destruct (neqb_spec pn qn); [contradiction|congruence]. }
      subst qn. split; [exact Ec|]. cbn. congruence. }
  split; [|exact X]. cbn [fst].
  assert (W1 := winv_glob w _ W G' X). destruct W1 as (_ & S' & U'). split; [exact G'|]. split; [|exact U'].
  cbn [set_stat w_stat w_glob set_glob] in *. apply upd_Forall; auto. cbn. exists i'. rewrite nget_nset by congruence. rewrite neqb_refl. auto.
Qed.

Lemma sync_alias_good w k d : winv w -> good w (fst (sync_alias w k d)).
Proof.
  intro W. unfold sync_alias. apply writing_good; auto. intros _. set (g := w_glob w).
  destruct (nget (g_doms g) (pd_domain d)) as [i|] eqn:Ed; [|apply good_refl, W].
  destruct (nget (g_n2g g) (pd_name d)) as [gid|] eqn:Eg; [|apply good_refl, W].
  destruct (nget (di_n2d i) (pd_name d)) as [dix|] eqn:Ex; [|apply good_refl, W].
  split; [|apply gext_refl]. destruct W as (G & S & U). split; [exact G|]. split; [|exact U]. cbn. apply upd_Forall; auto.
  exists i. cbn. auto.
Qed.
Lemma prop_get_good w k : winv w -> good w (fst (prop_get w k)).
Proof.
  intro W. unfold prop_get. destruct (nth_error (w_stat w) k) as [[d [x|]]|]; try apply good_refl, W.
  pose proof (sync_alias_good w k d W) as H. destruct (sync_alias w k d) as [w' [i|e]]; exact H.
Qed.

Lemma register_table_good w t : winv w -> good w (fst (register_table w t)).
Proof.
  intro W. unfold register_table. destruct (new_generic_table t); [|apply good_refl, W]. apply writing_good; auto. intros _. set (g := w_glob w).
  destruct (nget (g_doms g) (td_domain t)) as [i|] eqn:Ed; [|apply good_refl, W].
  destruct (di_locked i) eqn:El; [apply good_refl, W|].
  destruct (nget (di_tabs i) (td_name t)) as [t'|] eqn:Et; [destruct (equivalent t t'); apply good_refl, W|]. cbn [fst].
  assert (W2 := W). destruct W2 as (G & S & U). fold g in G, S, U.
  set (i' := DI _ _ _ _ _ _ _).
  assert (D : dext i i').
  { constructor; cbn; auto; try congruence; [exists []; rewrite app_nil_r; reflexivity|unfold nadd; eauto]. }
  assert (P : exists l, g_prod g = g_prod g ++ l) by (exists []; rewrite app_nil_r; reflexivity).
  assert (X : gext g (set_dom g (td_domain t) i')) by (apply set_dom_ext with (i := i); auto).
  split; [|exact X]. apply winv_glob; auto. unfold set_dom. apply set_dom_inv with (i := i); auto; try apply G.
  - destruct (gv_dom _ G _ _ Ed) as [V1 V2 V3 V4 V5]. constructor; cbn; auto.
    + unfold nadd. rewrite map_app, V3. reflexivity.
    + apply nadd_ND; auto.
    + intros tn t2 H. rewrite nget_nadd in H; auto. destruct (neqb_spec (td_name t) tn) as [<-|]; [inv H; auto|auto].
  - intros; congruence.
Qed.

(** ** Universes *)
Definition lock_to (b : bool) (i : dinfo) : dinfo := DI (di_id i) (di_name i) (di_props i) (di_tabs i) (di_order i) (di_n2d i) b.
Lemma lock_dext b i : dext i (lock_to b i).
Proof. constructor; cbn; auto; exists []; rewrite app_nil_r; reflexivity. Qed.
Lemma set_lock_to g n i b : ginv g -> nget (g_doms g) n = Some i -> ginv (set_dom g n (lock_to b i)) /\ gext g (set_dom g n (lock_to b i)).
Proof.
  intros G H. assert (P : exists l, g_prod g = g_prod g ++ l) by (exists []; rewrite app_nil_r; reflexivity).
  split; [|apply set_dom_ext with (i := i); auto; apply lock_dext]. apply set_dom_inv with (i := i); auto; try apply G; try apply lock_dext.
  - destruct (gv_dom _ G _ _ H) as [V1 V2 V3 V4 V5]. constructor; cbn; auto.
  - intros; congruence.
Qed.
Lemma set_lock_ok g n i : ginv g -> nget (g_doms g) n = Some i -> ginv (set_dom g n (lock_of i)) /\ gext g (set_dom g n (lock_of i)).
Proof. apply (set_lock_to g n i true). Qed.
Lemma set_locked_good w n b : winv w -> good w (fst (set_locked w n b)).
Proof.
  intro W. unfold set_locked. apply writing_good; auto. intros _. destruct (nget (g_doms (w_glob w)) n) as [i|] eqn:E; [|apply good_refl, W].
  destruct (set_lock_to _ _ _ b (proj1 W) E) as [G X]. split; [|exact X]. apply winv_glob; auto.
Qed.
(** A domain just made *)
Lemma instantiate_dn_ok g n i d : ginv g -> nget (g_doms g) n = Some i -> instantiate g n = (set_dom g n (lock_of i), Ok d) ->
  dn_name d = n -> dn_id d = di_id i -> Forall2 (fun gid c => nth_error (g_prod g) gid = Some c) (di_props i) (dn_cells d) ->
  dn_tabs d = map (fun p => (fst p, TI (snd p) [] 0 false)) (di_tabs i) -> dn_order d = di_order i ->
  dn_ok (set_dom g n (lock_of i)) (di_id i) d.
Proof.
  intros G H _ A B C T O. destruct (ginv_nget_nth _ _ _ G H) as [N1 N2]. exists (lock_of i). split.
  - cbn. rewrite (nth_nset_get _ n _ _ _ _ (gv_nd _ G) N1), neqb_refl, A. reflexivity.
  - split; auto. split; [|split].
    + exists (di_props i), []. split; [cbn; rewrite app_nil_r; reflexivity|]. eapply Forall2_impl; [|exact C]. intros gid c X. exists (snd c).
      destruct c; exact X.
    + exists []. rewrite T, map_TI, app_nil_r. reflexivity.
    + rewrite O, T, map_map, (dv_order _ _ _ (gv_dom _ G _ _ H)). reflexivity.
Qed.
Lemma uinv_upd g u j d : uinv g u -> dn_ok g j d -> uinv g (upd u j (Dom d)).
Proof.
  intros U D k m H. rewrite nth_error_upd in H. destruct ((k =? j) && (j <? length u)) eqn:E; [|apply U, H].
  inv H. apply andb_true_iff in E. destruct E as [E _]. apply Nat.eqb_eq in E. subst. exact D.
Qed.
Lemma get_domains_loop_ok ns : forall g u, ginv g -> uinv g u ->
  let p := get_domains_loop g u ns in ginv (fst p) /\ gext g (fst p) /\ forall u', snd p = Ok u' -> uinv (fst p) u' /\ length u' = length u.
Proof.
  induction ns as [|n ns IH]; intros g u G U; cbn [get_domains_loop].
  - cbn. split; auto. split; [apply gext_refl|]. intros u' H. inv H. auto.
  - pose proof (instantiate_spec g n G) as H. destruct (nget (g_doms g) n) as [i|] eqn:E.
    + destruct H as (d & Ei & A & B & C & T & O). rewrite Ei. pose proof (instantiate_dn_ok _ _ _ _ G E Ei A B C T O) as D.
      destruct (set_lock_ok _ _ _ G E) as [G' X]. destruct (dn_id d <? length u) eqn:L.
      * assert (U' : uinv (set_dom g n (lock_of i)) (upd u (dn_id d) (Dom d))) by (apply uinv_upd; [eapply uinv_ext; eauto|rewrite B; exact D]).
        destruct (IH _ _ G' U') as (I1 & I2 & I3). split; auto. split; [eapply gext_trans; eauto|].
        intros u' Hu. destruct (I3 u' Hu) as [I4 I5]. split; auto. rewrite I5. apply upd_length.
      * cbn. split; auto. split; auto. discriminate.
    + rewrite H. cbn. split; auto. split; [apply gext_refl|]. discriminate.
Qed.
Lemma uinv_unset g : uinv g (map Unset (g_d2n g)).
Proof. intros j m H. rewrite nth_error_map in H. destruct (nth_error (g_d2n g) j) as [n|] eqn:E; inv H. reflexivity. Qed.
Lemma get_domains_good w ns : winv w -> good w (fst (get_domains w ns)) /\ forall u, snd (get_domains w ns) = Ok u -> uinv (w_glob (fst (get_domains w ns))) u.
Proof.
  intro W. destruct W as (G & S & U).
  pose proof (get_domains_loop_ok ns (w_glob w) (map Unset (g_d2n (w_glob w))) G (uinv_unset _)) as (A & B & C).
  split.
  - apply writing_good; [split; auto|]. intros _. cbn [fst]. split; [|exact B]. apply winv_glob; auto. split; auto.
  - intros u H. unfold get_domains, writing in *. destruct (w_poison w); [discriminate|].
    destruct (get_domains_loop _ _ _) as [g' [u'|]]; cbn [fst snd] in *; [|discriminate]. inv H. destruct (C u eq_refl); auto.
Qed.

(** Only rows, trackers and poisoning of tables differ *)
Lemma names_eq (l l' : list (name * tinst)) : map (fun p => (fst p, ti_decl (snd p))) l' = map (fun p => (fst p, ti_decl (snd p))) l -> map fst l' = map fst l.
Proof. intro H. apply (f_equal (map fst)) in H. rewrite !map_map in H. exact H. Qed.
Lemma uinv_shapes g u u' : uinv g u -> shapes u u' -> uinv g u'.
Proof.
  intros U [L H] j m' Hj. destruct (nth_error_lt_Some u j) as [m Em]. { rewrite <- L. eapply nth_error_Some_lt; eauto. }
  specialize (U _ _ Em). specialize (H _ _ _ Em Hj). destruct m as [n|d], m' as [n'|d']; cbn in H; try contradiction; [subst; auto|].
  destruct H as (A1 & A2 & A3 & A4 & A5). destruct U as (i & B1 & B2 & B3 & B4 & B5). exists i.
  rewrite A1, A2, A3, A4, A5, (names_eq _ _ A5). auto 10.
Qed.
Lemma winv_unis w us : winv w -> Forall (uinv (w_glob w)) us -> winv (set_unis w us).
Proof. intros (G & S & U) H. split; [exact G|]. split; auto. Qed.
Lemma good_unis w w1 us : good w w1 -> Forall (uinv (w_glob w1)) us -> good w (set_unis w1 us).
Proof. intros [A B] H. split; [apply winv_unis; auto|exact B]. Qed.
Lemma new_universe_good w ns : winv w -> good w (fst (new_universe w ns)).
Proof.
  intro W. unfold new_universe. destruct (get_domains_good w ns W) as [A B]. destruct (get_domains w ns) as [w1 [u|e]]; cbn [fst snd] in *; auto.
  specialize (B u eq_refl). pose proof (init_domains_shapes w1 ns u) as H. destruct (init_domains w1 u ns) as [u1 [[]|e]]; cbn [fst] in *; auto.
  apply good_unis; auto. rewrite Forall_app. split; [apply A|]. constructor; auto. eapply uinv_shapes; eauto.
Qed.
Lemma uinv_sync w u : winv w -> uinv (w_glob w) u -> uinv (w_glob w) (sync_domains w u).
Proof.
  intros W U j m H. unfold sync_domains in H. destruct (Nat.ltb_spec j (length u)) as [L|L].
  - rewrite nth_error_app1 in H; auto. apply U, H.
  - rewrite nth_error_app2 in H; auto. rewrite nth_error_map, nth_error_skipn in H. replace (length u + (j - length u)) with j in H by lia.
    destruct (nth_error (g_d2n (w_glob w)) j) as [n|] eqn:E; inv H. reflexivity.
Qed.
Lemma add_domain_good w v n : winv w -> good w (fst (add_domain w v n)).
Proof.
  intro W. unfold add_domain. destruct (nth_error (w_unis w) v) as [u0|] eqn:Ev; [|apply good_refl, W].
  destruct (w_poison w) eqn:Ep; [apply good_refl, W|]. destruct (_ <? _); [apply good_refl, W|].
  assert (U0 : uinv (w_glob w) (sync_domains w u0)).
  { apply uinv_sync; auto. destruct W as (_ & _ & U). rewrite Forall_forall in U. apply U. eapply nth_error_In; eauto. }
  set (u := sync_domains w u0) in *. set (w1 := set_unis w (upd (w_unis w) v u)).
  assert (G1 : good w w1). { apply good_unis; [apply good_refl, W|]. apply upd_Forall; auto. apply W. }
  destruct (get_id w1 n) as [id|] eqn:Eid; [|exact G1].
  destruct (nth_error u id) as [[m|d]|] eqn:Eu; try exact G1.
  unfold writing. cbn [w_poison set_unis w1]. rewrite Ep. fold w1.
  assert (G := proj1 (proj1 G1)). pose proof (instantiate_spec (w_glob w1) n G) as H.
  destruct (nget (g_doms (w_glob w1)) n) as [i|] eqn:E.
  - destruct H as (d & Ei & A & B & C & T & O). rewrite Ei. cbn [fst snd].
    pose proof (instantiate_dn_ok _ _ _ _ G E Ei A B C T O) as D. destruct (set_lock_ok _ _ _ G E) as [G' X].
    set (w2 := set_glob w1 (set_dom (w_glob w1) n (lock_of i))).
    assert (G2 : good w w2). { split; [apply winv_glob; auto; apply G1|]. eapply gext_trans; [apply G1|exact X]. }
    assert (id = di_id i). { unfold get_id, reading in Eid. cbn [w_poison set_unis w1] in Eid. rewrite Ep in Eid. fold w1 in Eid. rewrite E in Eid. congruence. }
    subst id. apply good_unis; auto. apply upd_Forall; [apply G2|].
    eapply uinv_shapes; [|apply init_domain_shapes]. apply uinv_upd; [|exact D]. eapply uinv_ext; [exact X|exact U0].
  - rewrite H. cbn [fst snd]. exact G1.
Qed.
(** Nothing to add: registration ends when a domain is used *)
(** [add_properties] makes the values that are missing *)
Definition made_of (g : globals) (gid : nat) (c : nat * nat) : Prop := nth_error (g_prod g) gid = Some c.
Lemma more_cells_ok g gids : Forall (fun gid => gid < length (g_prod g)) gids -> forall cs,
  exists l, more_cells g cs gids = (cs ++ l, Ok tt) /\ Forall2 (made_of g) gids l.
Proof.
  intro F. induction F as [|gid gids H F IH]; intro cs; cbn [more_cells]; [exists []; rewrite app_nil_r; split; [reflexivity|constructor]|].
  destruct (nth_error_lt_Some _ _ H) as [c E]. rewrite E. destruct (IH (cs ++ [c])) as (l & -> & F2). exists (c :: l). rewrite <- app_assoc. split; [reflexivity|].
  constructor; auto.
Qed.
(** Between the two: values are added at the end *)
Definition grown (g : globals) (m m' : mdomain) : Prop :=
  match m, m' with
  | Unset n, Unset n' => n' = n
  | Dom d, Dom d' => exists l, d' = DN (dn_id d) (dn_name d) (dn_cells d ++ l) (dn_tabs d) (dn_order d) /\
      exists i, nget (g_doms g) (dn_name d) = Some i /\ Forall2 (made_of g) (skipn (length (dn_cells d)) (di_props i)) l
  | _, _ => False
  end.
Lemma add_cells_grown g j d : ginv g -> dn_ok g j d -> exists d', add_cells g d = (d', Ok tt) /\ grown g (Dom d) (Dom d') /\ dn_ok g j d'.
Proof.
  intros G (i & A & B & (ps & qs & Ep & C) & D & E). unfold add_cells. pose proof (nth_nget _ _ _ _ (gv_nd _ G) A) as N. rewrite N.
  assert (V := dv_props _ _ _ (gv_dom _ G _ _ N)).
  assert (Es : skipn (length (dn_cells d)) (di_props i) = qs).
  { rewrite Ep, <- (Forall2_len _ _ _ C), skipn_app, skipn_all, Nat.sub_diag. reflexivity. }
  rewrite Es. rewrite Ep, Forall_app in V. destruct (more_cells_ok g qs (proj2 V) (dn_cells d)) as (l & El & Fl). rewrite El. cbn [fst snd].
  eexists. split; [reflexivity|]. split.
  - exists l. split; auto. exists i. rewrite Es. auto.
  - exists i. cbn. split; auto. split; auto. split; auto. exists (di_props i), []. rewrite app_nil_r. split; auto. rewrite Ep. apply Forall2_app; auto.
    eapply Forall2_impl; [|exact Fl]. intros gid [a b] H. exists b. exact H.
Qed.
Lemma add_all_grown g u : ginv g -> forall j0, (forall j m, nth_error u j = Some m -> match m with Unset n => True | Dom d => dn_ok g (j0 + j) d end) ->
  exists u', add_all_cells g u = (u', Ok tt) /\ Forall2 (grown g) u u' /\
    forall j m, nth_error u' j = Some m -> match m with Unset n => True | Dom d => dn_ok g (j0 + j) d end.
Proof.
  intro G. induction u as [|m u IH]; intros j0 H; cbn [add_all_cells].
  - exists []. split; [reflexivity|]. split; [constructor|]. intros [|j] m; discriminate.
  - destruct (IH (S j0)) as (u' & E & F & K). { intros j x Hx. specialize (H (S j) x Hx). rewrite Nat.add_succ_r in H. exact H. }
    assert (K' : forall j x, nth_error u' j = Some x -> match x with Unset n => True | Dom d => dn_ok g (j0 + S j) d end).
    { intros j x Hx. specialize (K j x Hx). rewrite Nat.add_succ_r. exact K. }
    destruct m as [n|d].
    + rewrite E. eexists. split; [reflexivity|]. split; [constructor; [reflexivity|exact F]|]. intros [|j] x Hx; cbn in Hx; [inv Hx; exact I|apply K', Hx].
    + specialize (H 0 _ eq_refl). cbn in H. destruct (add_cells_grown g _ d G H) as (d' & Ed & Gd & Kd). rewrite Ed, E. eexists.
      split; [reflexivity|]. split; [constructor; [exact Gd|exact F]|]. intros [|j] x Hx; cbn in Hx; [inv Hx; rewrite Nat.add_0_r in *; exact Kd|apply K', Hx].
Qed.
Lemma Forall2_nth {A B} (R : A -> B -> Prop) l m : Forall2 R l m -> forall j y, nth_error m j = Some y -> exists x, nth_error l j = Some x /\ R x y.
Proof. intro F. induction F; intros [|j] z H'; cbn in *; try discriminate; [inv H'; eauto|auto]. Qed.
Lemma add_properties_do w v u : winv w -> nth_error (w_unis w) v = Some u -> w_poison w = false ->
  exists u', add_properties w v = (set_unis w (upd (w_unis w) v u'), Ok tt) /\ Forall2 (grown (w_glob w)) u u' /\ uinv (w_glob w) u'.
Proof.
  intros (G & S & U) E P. unfold add_properties. rewrite E, P. rewrite Forall_forall in U. specialize (U u (nth_error_In _ _ E)).
  destruct (add_all_grown (w_glob w) u G 0) as (u' & Ea & F & K). { intros j m H. specialize (U j m H). destruct m; auto. }
  rewrite Ea. exists u'. split; [reflexivity|]. split; auto. intros j m H. specialize (K j m H). destruct m as [n|d]; [|exact K].
  destruct (Forall2_nth _ _ _ F _ _ H) as (x & Hx & Rx). destruct x as [n'|d']; [|contradiction]. cbn in Rx. subst n'. apply (U j _ Hx).
Qed.
Lemma add_properties_good w v : winv w -> good w (fst (add_properties w v)).
Proof.
  intro W. destruct (nth_error (w_unis w) v) as [u|] eqn:E; [|unfold add_properties; rewrite E; apply good_refl, W].
  destruct (w_poison w) eqn:P; [unfold add_properties; rewrite E, P; apply good_refl, W|].
  destruct (add_properties_do w v u W E P) as (u' & -> & _ & K). cbn [fst]. apply good_unis; [apply good_refl, W|]. apply upd_Forall; auto. apply W.
Qed.
Lemma prop_index_good w v k : winv w -> good w (fst (prop_index w v k)).
Proof.
  intro W. unfold prop_index. destruct (nth_error (w_unis w) v); [|apply good_refl, W]. pose proof (prop_get_good w k W) as H.
  destruct (prop_get w k) as [w1 [[p i]|e]]; exact H.
Qed.
Lemma get_prop_good w v k : winv w -> good w (fst (get_prop w v k)).
Proof.
  intro W. unfold get_prop. pose proof (prop_index_good w v k W) as H. destruct (prop_index w v k) as [w1 [[[[u d] p] i]|e]]; exact H.
Qed.
Lemma set_prop_good w v k x : winv w -> good w (fst (set_prop w v k x)).
Proof.
  intro W. unfold set_prop. pose proof (prop_index_good w v k W) as H. destruct (prop_index w v k) as [w1 [[[[u d] p] i]|e]] eqn:E; [|exact H].
  destruct (prop_index_ok _ _ _ _ _ _ _ _ E) as (A & B & C & D & c & F & T). cbn [fst] in *. apply good_unis; auto. apply upd_Forall; [apply H|].
  apply uinv_upd.
  - destruct H as [(_ & _ & U) _]. rewrite Forall_forall in U. apply U. rewrite B. eapply nth_error_In; eauto.
  - destruct H as [(_ & _ & U) _]. rewrite Forall_forall in U. rewrite B in U. specialize (U u (nth_error_In _ _ A) _ _ D).
    destruct U as (i0 & I1 & I2 & (ps & qs & I3 & I4) & I5 & I6). exists i0. cbn. split; auto. split; auto. split; auto. exists ps, qs. split; auto.
    eapply Forall2_upd; eauto. cbn. intros gid (y & Y). exists y. rewrite <- T. exact Y.
Qed.
Lemma write_table_good w v t x : winv w -> good w (fst (write_table w v t x)).
Proof.
  intro W. unfold write_table. destruct (nth_error (w_unis w) v) as [u|] eqn:E; [|apply good_refl, W].
  destruct (find_table w u (td_domain t) (td_name t)) as [[[id d] ti]|e] eqn:F; [|apply good_refl, W].
  destruct (find_table_ok _ _ _ _ _ _ _ F) as (A & B & _).
  assert (K : forall ti', ti_decl ti' = ti_decl ti -> good w (set_unis w (upd (w_unis w) v (put_table u id d (td_name t) ti')))).
  { intros ti' Et. apply good_unis; [apply good_refl, W|]. apply upd_Forall; [apply W|]. destruct W as (_ & _ & U). rewrite Forall_forall in U.
    eapply uinv_shapes; [apply U; eapply nth_error_In; eauto|]. eapply put_table_shapes; eauto. }
  destruct (convert (ti_decl ti) t); [|apply K; reflexivity]. destruct (ti_poison ti); [apply good_refl, W|apply K; reflexivity].
Qed.
Lemma add_tracker_good w v tr : winv w -> good w (fst (add_tracker w v tr)).
Proof.
  intro W. unfold add_tracker. destruct (nth_error (w_unis w) v) as [u|] eqn:E; [|apply good_refl, W]. cbn [fst].
  apply good_unis; [apply good_refl, W|]. apply upd_Forall; [apply W|]. destruct W as (_ & _ & U). rewrite Forall_forall in U.
  eapply uinv_shapes; [apply U; eapply nth_error_In; eauto|]. apply register_tracker_shapes.
Qed.
Lemma step_good w o : winv w -> good w (fst (r_step w o)).
Proof.
  intro W. destruct o; cbn [r_step unit_res some_res fst].
  - apply register_domain_good, W.
  - apply prop_init_good, W.
  - apply register_table_good, W.
  - apply new_universe_good, W.
  - apply add_domain_good, W.
  - apply add_properties_good, W.
  - apply get_prop_good, W.
  - apply set_prop_good, W.
  - apply good_refl, W.
  - apply write_table_good, W.
  - apply add_tracker_good, W.
Qed.
Lemma h_step_good w o : winv w -> good w (h_after w o).
Proof. intro W. destruct o as [o|n b]; [apply step_good, W|apply set_locked_good, W]. Qed.
Lemma run_good os : forall w, winv w -> good w (h_run w os).
Proof.
  induction os as [|o os IH]; intros w W; cbn [h_run fold_left]; [apply good_refl, W|]. pose proof (h_step_good w o W) as H.
  eapply good_trans; [exact H|]. apply IH, H.
Qed.
Lemma w0_inv ps : winv (w0 ps).
Proof.
  split; [|split; [|constructor]].
  - constructor; cbn; [reflexivity|constructor|intros [|j]; discriminate|reflexivity|constructor|discriminate|discriminate].
  - cbn. apply Forall_forall. intros s H. apply in_map_iff in H. destruct H as (d & <- & _). exact I.
Qed.
