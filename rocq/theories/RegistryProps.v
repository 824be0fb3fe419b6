From Coq Require Import List Arith Bool Lia.
From Verif Require Import Base BaseFacts Names NamesFacts Table Extract ExtractFacts Registry RegistrySpec RegistryFacts.
Import ListNotations.

Lemma reached_inv w : reached w -> winv w.
Proof. intros (ps & os & ->). apply run_good, w0_inv. Qed.
Lemma run_app w os os' : r_run w (os ++ os') = r_run (r_run w os) os'.
Proof. unfold r_run. apply fold_left_app. Qed.
Lemma reached_run w os : reached w -> reached (r_run w os).
Proof. intros (ps & os0 & ->). exists ps, (os0 ++ os). rewrite run_app. reflexivity. Qed.
Lemma reached_after w o : reached w -> reached (after w o).
Proof. intro R. apply (reached_run w [o] R). Qed.

(** ** C45 *)
Lemma get_id_ok w n i : get_id w n = Ok i -> w_poison w = false /\ exists d, nget (g_doms (w_glob w)) n = Some d /\ di_id d = i.
Proof.
  unfold get_id, reading. destruct (w_poison w); [discriminate|]. destruct (nget (g_doms (w_glob w)) n) as [d|]; [|discriminate]. intro H. inv H. eauto.
Qed.
Lemma get_id_of w n d : w_poison w = false -> nget (g_doms (w_glob w)) n = Some d -> get_id w n = Ok (di_id d).
Proof. intros P H. unfold get_id, reading. rewrite P, H. reflexivity. Qed.
Lemma ids_unique w n m i : reached w -> get_id w n = Ok i -> get_id w m = Ok i -> n = m.
Proof.
  intros R H K. apply get_id_ok in H, K. destruct H as (_ & d & H & <-), K as (_ & e & K & E). destruct (reached_inv _ R) as (G & _).
  destruct (ginv_nget_nth _ _ _ G H) as [A _], (ginv_nget_nth _ _ _ G K) as [B _]. rewrite E, A in B. congruence.
Qed.
Lemma ids_names w n i : reached w -> w_poison w = false -> (get_id w n = Ok i <-> nth_error (g_d2n (w_glob w)) i = Some n).
Proof.
  intros R P. destruct (reached_inv _ R) as (G & _). rewrite (gv_d2n _ G). split; intro H.
  - apply get_id_ok in H. destruct H as (_ & d & H & <-). rewrite nth_error_map. rewrite (proj1 (ginv_nget_nth _ _ _ G H)). reflexivity.
  - rewrite nth_error_map in H. destruct (nth_error (g_doms (w_glob w)) i) as [[m d]|] eqn:E; [|discriminate]. cbn in H. inv H.
    rewrite (get_id_of w n d P) by (eapply nth_nget; [apply G|exact E]). destruct (gv_id _ G _ _ _ E) as [-> _]. reflexivity.
Qed.
Lemma ids_dense w n i : reached w -> get_id w n = Ok i -> forall j, j < i -> exists m, get_id w m = Ok j.
Proof.
  intros R H j L. assert (P := proj1 (get_id_ok _ _ _ H)). apply (ids_names w n i R P) in H.
  destruct (nth_error_lt_Some (g_d2n (w_glob w)) j) as [m E]. { apply nth_error_Some_lt in H. lia. }
  exists m. apply ids_names; auto.
Qed.
Lemma id_stable w n i os : reached w -> get_id w n = Ok i -> get_id (r_run w os) n = Ok i \/ get_id (r_run w os) n = panic PPoisoned.
Proof.
  intros R H. destruct (get_id_ok _ _ _ H) as (_ & d & K & <-). destruct (run_good os w (reached_inv _ R)) as [(G & _) X].
  destruct (gext_get _ _ _ _ G X K) as (d' & K' & D). unfold get_id at 1 2, reading. destruct (w_poison (r_run w os)); [auto|].
  rewrite K'. left. rewrite (dx_id _ _ D). reflexivity.
Qed.
Lemma id_given w n : r_ans w (RDomain n) = Ok None -> exists i, get_id (after w (RDomain n)) n = Ok i.
Proof.
  unfold r_ans, after. cbn [r_step unit_res fst snd]. unfold register_domain. destruct (check_name n); [|discriminate]. unfold writing.
  destruct (w_poison w) eqn:P; [discriminate|]. destruct (nget (g_doms (w_glob w)) n) as [d|] eqn:E; intros _; cbn [fst].
  - exists (di_id d). apply get_id_of; auto.
  - exists (length (g_doms (w_glob w))). unfold get_id, reading. cbn [set_glob w_poison w_glob g_doms]. rewrite P, nget_nadd, neqb_refl; auto.
Qed.

Lemma dom_names g g' n i' : ginv g -> gext g g' -> ginv g' -> length (g_d2n g') = length (g_d2n g) -> nget (g_doms g') n = Some i' -> exists i, nget (g_doms g) n = Some i.
Proof.
  intros G X G' L H. destruct (nget (g_doms g) n) eqn:E; [eauto|]. exfalso. apply nget_None in E. apply E. apply nget_In in H.
  rewrite <- (gv_d2n _ G') in H. destruct (gx_d2n _ _ X) as [l El]. rewrite El in *. rewrite app_length in L. destruct l; [|cbn in L; lia].
  rewrite app_nil_r in H. rewrite <- (gv_d2n _ G). exact H.
Qed.
Lemma writing_d2n {A} w (f : world -> world * res A) : g_d2n (w_glob (fst (f w))) = g_d2n (w_glob w) -> g_d2n (w_glob (fst (writing w f))) = g_d2n (w_glob w).
Proof. intro H. unfold writing. destruct (w_poison w); auto. destruct (f w) as [w' [a|e]]; exact H. Qed.
Lemma get_domains_loop_d2n ns : forall g u, g_d2n (fst (get_domains_loop g u ns)) = g_d2n g.
Proof.
  induction ns as [|n ns IH]; intros g u; cbn [get_domains_loop]; auto. unfold instantiate. destruct (nget (g_doms g) n) as [i|]; auto.
  destruct (map_res _ _) as [cs|]; cbn [bind fst]; auto. destruct (_ <? _); auto. rewrite IH. reflexivity.
Qed.
Lemma sync_alias_glob w k d : w_glob (fst (sync_alias w k d)) = w_glob w.
Proof.
  unfold sync_alias, writing. destruct (w_poison w); auto. destruct (nget (g_doms (w_glob w)) (pd_domain d)) as [i|]; auto.
  destruct (nget (g_n2g (w_glob w)) (pd_name d)); auto. destruct (nget (di_n2d i) (pd_name d)); auto.
Qed.
Lemma prop_get_glob w k : w_glob (fst (prop_get w k)) = w_glob w.
Proof.
  unfold prop_get. destruct (nth_error (w_stat w) k) as [[d [x|]]|]; auto. pose proof (sync_alias_glob w k d) as H.
  destruct (sync_alias w k d) as [w1 [i|e]]; exact H.
Qed.
Lemma prop_index_glob w v k : w_glob (fst (prop_index w v k)) = w_glob w.
Proof.
  unfold prop_index. destruct (nth_error (w_unis w) v); auto. pose proof (prop_get_glob w k) as H. destruct (prop_get w k) as [w1 [[p i]|e]]; exact H.
Qed.
Lemma get_prop_glob w v k : w_glob (fst (get_prop w v k)) = w_glob w.
Proof.
  unfold get_prop. pose proof (prop_index_glob w v k) as H. destruct (prop_index w v k) as [w1 [[[[u d] p] i]|e]]; exact H.
Qed.
Lemma set_prop_glob w v k x : w_glob (fst (set_prop w v k x)) = w_glob w.
Proof.
  unfold set_prop. pose proof (prop_index_glob w v k) as H. destruct (prop_index w v k) as [w1 [[[[u d] p] i]|e]]; exact H.
Qed.
Lemma step_d2n w o n : In n (g_d2n (w_glob (after w o))) -> In n (g_d2n (w_glob w)) \/ o = RDomain n.
Proof.
  unfold after. destruct o as [m|k|t|ns|v m|v|v k|v k x|v t|v t x|v tr]; cbn [r_step unit_res some_res fst]; intro H.
  - unfold register_domain in H. destruct (check_name m); [|auto]. unfold writing in H. destruct (w_poison w); [auto|].
    destruct (nget (g_doms (w_glob w)) m); [auto|]. cbn in H. rewrite in_app_iff in H. cbn in H. intuition congruence.
  - unfold prop_init in H. rewrite writing_d2n in H; auto. destruct (nth_error (w_stat w) k) as [[d [x|]]|]; auto. destruct (prop_check_name d); auto.
    destruct (nget (g_doms (w_glob w)) (pd_domain d)) as [i|]; auto. destruct (di_locked i); auto.
    destruct (match nget (g_n2g (w_glob w)) (pd_name d) with Some x => (x, false) | None => (length (g_prod (w_glob w)), true) end) as [gid first].
    destruct (match nget (di_n2d i) (pd_name d) with Some x => (x, false) | None => (length (di_props i), true) end) as [dix new]. reflexivity.
  - unfold register_table in H. destruct (new_generic_table t); [|auto]. rewrite writing_d2n in H; auto.
    destruct (nget (g_doms (w_glob w)) (td_domain t)) as [i|]; auto. destruct (di_locked i); auto. destruct (nget (di_tabs i) (td_name t)); auto.
    destruct (equivalent t t0); auto.
  - left. unfold new_universe in H. assert (E : g_d2n (w_glob (fst (get_domains w ns))) = g_d2n (w_glob w)).
    { apply writing_d2n. cbn. apply get_domains_loop_d2n. }
    destruct (get_domains w ns) as [w1 [u|e]]; cbn [fst] in *; [|congruence]. destruct (init_domains w1 u ns) as [u1 [[]|e]]; cbn [fst] in *; cbn in H; congruence.
  - left. unfold add_domain in H. destruct (nth_error (w_unis w) v) as [u0|]; auto. destruct (w_poison w) eqn:P; auto. destruct (_ <? _); auto.
    destruct (get_id _ _); auto. destruct (nth_error (sync_domains w u0) a) as [[?|?]|]; auto. unfold writing in H. cbn [w_poison set_unis] in H. rewrite P in H.
    unfold instantiate in H. cbn [w_glob set_unis] in H. destruct (nget (g_doms (w_glob w)) m); [|exact H].
    cbn [fst snd] in H. destruct (map_res _ _); cbn [bind] in H; exact H.
  - left. unfold add_properties in H. destruct (nth_error (w_unis w) v); auto. destruct (w_poison w); auto.
  - rewrite get_prop_glob in H. auto.
  - rewrite set_prop_glob in H. auto.
  - auto.
  - left. unfold write_table in H. destruct (nth_error (w_unis w) v); auto. destruct (find_table w l (td_domain t) (td_name t)) as [[[id d] ti]|]; auto.
    destruct (convert (ti_decl ti) t); auto. destruct (ti_poison ti); auto.
  - left. unfold add_tracker in H. destruct (nth_error (w_unis w) v); auto.
Qed.
Lemma run_d2n os : forall w n, In n (g_d2n (w_glob (r_run w os))) -> In n (g_d2n (w_glob w)) \/ In (RDomain n) os.
Proof.
  induction os as [|o os IH]; intros w n H; cbn [r_run fold_left] in H; [auto|]. apply IH in H. destruct H as [H|H]; [|cbn; auto].
  apply step_d2n in H. cbn. destruct H as [H| ->]; auto.
Qed.
Lemma id_only ps os n i : get_id (r_run (w0 ps) os) n = Ok i -> In (RDomain n) os.
Proof.
  intro H. assert (R : reached (r_run (w0 ps) os)) by (exists ps, os; reflexivity). assert (P := proj1 (get_id_ok _ _ _ H)).
  apply (ids_names _ _ _ R P) in H. apply nth_error_In in H. apply run_d2n in H. destruct H as [H|H]; [contradiction|exact H].
Qed.

(** ** Where properties are *)
Definition gsame (g g' : globals) : Prop :=
  g_n2g g' = g_n2g g /\ forall n, option_map (fun i => (di_id i, di_n2d i, di_props i, di_tabs i)) (nget (g_doms g') n) = option_map (fun i => (di_id i, di_n2d i, di_props i, di_tabs i)) (nget (g_doms g) n).
Lemma gsame_refl g : gsame g g. Proof. split; auto. Qed.
Lemma gsame_trans a b c : gsame a b -> gsame b c -> gsame a c.
Proof. intros [A1 A2] [B1 B2]. split; [congruence|]. intro n. rewrite B2. apply A2. Qed.
Lemma gsame_lock g n i : nget (g_doms g) n = Some i -> gsame g (set_dom g n (lock_of i)).
Proof.
  intro H. split; [reflexivity|]. intro m. cbn [set_dom g_doms]. rewrite nget_nset by congruence. destruct (neqb_spec n m) as [<-|]; [|reflexivity].
  rewrite H. reflexivity.
Qed.
Lemma prop_get_dep w w' k : w_poison w' = w_poison w -> gsame (w_glob w) (w_glob w') -> nth_error (w_stat w') k = nth_error (w_stat w) k ->
  snd (prop_get w' k) = snd (prop_get w k).
Proof.
  intros P [N D] S. unfold prop_get. rewrite S. destruct (nth_error (w_stat w) k) as [[d [x|]]|]; auto. unfold sync_alias, writing. rewrite P.
  destruct (w_poison w); auto. specialize (D (pd_domain d)). rewrite N. destruct (nget (g_doms (w_glob w')) (pd_domain d)) as [i'|], (nget (g_doms (w_glob w)) (pd_domain d)) as [i|]; cbn in D; try discriminate; auto.
  injection D as D1 D2 D3 D4. rewrite D1, D2. destruct (nget (g_n2g (w_glob w)) (pd_name d)); auto. destruct (nget (di_n2d i) (pd_name d)); auto.
Qed.
Lemma get_id_dep w w' n : w_poison w' = w_poison w -> gsame (w_glob w) (w_glob w') -> get_id w' n = get_id w n.
Proof.
  intros P [N D]. unfold get_id, reading. rewrite P. destruct (w_poison w); auto. specialize (D n).
  destruct (nget (g_doms (w_glob w')) n) as [i'|], (nget (g_doms (w_glob w)) n) as [i|]; cbn in D; try discriminate; auto. injection D as D1 D2 D3 D4. congruence.
Qed.
Lemma find_table_dep w w' u dn tn : w_poison w' = w_poison w -> gsame (w_glob w) (w_glob w') -> find_table w' u dn tn = find_table w u dn tn.
Proof. intros P D. unfold find_table. rewrite (get_id_dep w w') by auto. reflexivity. Qed.

(** [prop_get] changes at most what is known of the property *)
Lemma prop_get_ok w k w1 p i : prop_get w k = (w1, Ok (p, i)) ->
  w_glob w1 = w_glob w /\ w_poison w1 = w_poison w /\ w_unis w1 = w_unis w /\ nth_error (w_stat w1) k = Some (p, Some i) /\
  (forall j, j <> k -> nth_error (w_stat w1) j = nth_error (w_stat w) j) /\ exists o, nth_error (w_stat w) k = Some (p, o).
Proof.
  unfold prop_get. destruct (nth_error (w_stat w) k) as [[d [x|]]|] eqn:E.
  - intro H. inv H. eauto 10.
  - unfold sync_alias, writing. destruct (w_poison w) eqn:P; [discriminate|]. destruct (nget (g_doms (w_glob w)) (pd_domain d)) as [di|]; [|discriminate].
    destruct (nget (g_n2g (w_glob w)) (pd_name d)) as [gid|]; [|discriminate]. destruct (nget (di_n2d di) (pd_name d)) as [dix|]; [|discriminate].
    intro H. inv H. cbn. split; auto. split; auto. split; auto. split; [apply nth_error_upd_eq; eapply nth_error_Some_lt; eauto|].
    split; [intros j N; apply nth_error_upd_ne; auto|eauto].
  - discriminate.
Qed.
Lemma prop_get_err w k w1 e : prop_get w k = (w1, Err e) -> w1 = w \/ w1 = poison w /\ w_poison w = false.
Proof.
  unfold prop_get. destruct (nth_error (w_stat w) k) as [[d [x|]]|] eqn:E; [discriminate| |intro H; inv H; auto].
  unfold sync_alias, writing. destruct (w_poison w) eqn:P; [intro H; inv H; auto|]. destruct (nget (g_doms (w_glob w)) (pd_domain d)) as [di|]; [|intro H; inv H; auto].
  destruct (nget (g_n2g (w_glob w)) (pd_name d)) as [gid|]; [|intro H; inv H; auto]. destruct (nget (di_n2d di) (pd_name d)) as [dix|]; [discriminate|intro H; inv H; auto].
Qed.
(** Looking a property up does not move any. *)
Lemma prop_get_others w a k : w_poison (fst (prop_get w a)) = w_poison w -> snd (prop_get (fst (prop_get w a)) k) = snd (prop_get w k).
Proof.
  intro P. destruct (prop_get w a) as [w1 [[p i]|e]] eqn:E; cbn [fst] in *.
  - destruct (prop_get_ok _ _ _ _ _ E) as (A & B & C & D & F & o & G). destruct (Nat.eq_dec k a) as [->|N].
    + rewrite E. unfold prop_get. rewrite D. reflexivity.
    + apply prop_get_dep; auto. rewrite A. apply gsame_refl.
  - destruct (prop_get_err _ _ _ _ E) as [->|[-> X]]; auto. cbn in P. congruence.
Qed.
(** Where a property is follows from its name *)
Lemma prop_get_place w k w1 p i : winv w -> prop_get w k = (w1, Ok (p, i)) -> sinv (w_glob w) (p, Some i).
Proof.
  intros W H. pose proof (prop_get_good w k W) as G. rewrite H in G. destruct G as [(_ & S & _) _]. destruct (prop_get_ok _ _ _ _ _ H) as (A & _ & _ & D & _).
  cbn [fst] in *. rewrite A in S. rewrite Forall_forall in S. apply S. eapply nth_error_In; eauto.
Qed.

(** Reading a property *)
Definition peek (u : uni) (p : pdecl) (i : pindex) : res nat :=
  match nth_error u (pi_did i) with
  | Some (Dom d) => match nth_error (dn_cells d) (pi_dix i) with
                    | None => panic PUnknownProp
                    | Some c => if fst c =? pd_ty p then Ok (snd c) else panic PDowncast
                    end
  | _ => panic PUnsetDomain
  end.
Lemma get_ans w v k : r_ans w (RGet v k) =
  match nth_error (w_unis w) v with
  | None => panic PRustType
  | Some u => let* q := snd (prop_get w k) in let* x := peek u (fst q) (snd q) in Ok (Some x)
  end.
Proof.
  unfold r_ans. cbn [r_step some_res snd]. unfold get_prop, prop_index. destruct (nth_error (w_unis w) v) as [u|]; auto.
  destruct (prop_get w k) as [w1 [[p i]|e]]; cbn [fst snd bind]; auto. unfold peek.
  destruct (nth_error u (pi_did i)) as [[n|d]|]; auto. destruct (nth_error (dn_cells d) (pi_dix i)) as [c|] eqn:E; auto. destruct (fst c =? pd_ty p); auto.
  cbn [snd]. rewrite E. reflexivity.
Qed.
Lemma get_fst w v k : (exists u, nth_error (w_unis w) v = Some u) -> after w (RGet v k) = fst (prop_get w k).
Proof.
  intros [u E]. unfold after. cbn [r_step some_res fst]. unfold get_prop, prop_index. rewrite E. destruct (prop_get w k) as [w1 [[p i]|e]]; cbn [fst]; auto.
  destruct (nth_error u (pi_did i)) as [[n|d]|]; auto. destruct (nth_error (dn_cells d) (pi_dix i)) as [c|] eqn:Ec; auto. destruct (fst c =? pd_ty p); auto.
Qed.
Definition poke (u : uni) (p : pdecl) (i : pindex) (x : nat) : uni :=
  match nth_error u (pi_did i) with
  | Some (Dom d) => upd u (pi_did i) (Dom (DN (dn_id d) (dn_name d) (upd (dn_cells d) (pi_dix i) (pd_ty p, x)) (dn_tabs d) (dn_order d)))
  | _ => u
  end.
Lemma set_ans w v k x : r_ans w (RSet v k x) =
  match nth_error (w_unis w) v with
  | None => panic PRustType
  | Some u => let* q := snd (prop_get w k) in let* _ := peek u (fst q) (snd q) in Ok None
  end.
Proof.
  unfold r_ans. cbn [r_step unit_res snd]. unfold set_prop, prop_index. destruct (nth_error (w_unis w) v) as [u|]; auto.
  destruct (prop_get w k) as [w1 [[p i]|e]]; cbn [fst snd bind]; auto. unfold peek.
  destruct (nth_error u (pi_did i)) as [[n|d]|]; auto. destruct (nth_error (dn_cells d) (pi_dix i)) as [c|] eqn:E; auto. destruct (fst c =? pd_ty p); auto.
Qed.
Lemma set_fst w v k x u p i : nth_error (w_unis w) v = Some u -> snd (prop_get w k) = Ok (p, i) -> (exists y, peek u p i = Ok y) ->
  after w (RSet v k x) = set_unis (fst (prop_get w k)) (upd (w_unis w) v (poke u p i x)).
Proof.
  intros E H [y Y]. unfold after. cbn [r_step unit_res fst]. unfold set_prop, prop_index. rewrite E. destruct (prop_get w k) as [w1 [[p' i']|e]] eqn:G; cbn [snd] in H; [|discriminate].
  inv H. destruct (prop_get_ok _ _ _ _ _ G) as (A & B & C & D & _). unfold peek in Y. unfold poke.
  destruct (nth_error u (pi_did i)) as [[n|d]|]; try discriminate. destruct (nth_error (dn_cells d) (pi_dix i)) as [c|] eqn:Ec; try discriminate.
  destruct (fst c =? pd_ty p); try discriminate. cbn [fst]. rewrite C. reflexivity.
Qed.
Lemma set_fail w v k x : r_ans w (RSet v k x) <> Ok None -> w_unis (after w (RSet v k x)) = w_unis w /\ (after w (RSet v k x) = fst (prop_get w k) \/ after w (RSet v k x) = w).
Proof.
  rewrite set_ans. unfold after. cbn [r_step unit_res fst]. unfold set_prop, prop_index. destruct (nth_error (w_unis w) v) as [u|]; auto.
  pose proof (prop_get_unis w k) as U. destruct (prop_get w k) as [w1 [[p i]|e]]; cbn [fst snd bind] in *; auto. unfold peek.
  destruct (nth_error u (pi_did i)) as [[n|d]|]; auto. destruct (nth_error (dn_cells d) (pi_dix i)) as [c|] eqn:Ec; auto. destruct (fst c =? pd_ty p); auto.
  cbn [bind]. contradiction.
Qed.
Lemma upd_some {A} (l : list A) v x y : nth_error l v = Some y -> nth_error (upd l v x) v = Some x.
Proof. intro H. apply nth_error_upd_eq. eapply nth_error_Some_lt; eauto. Qed.
Lemma upd_twice {A} (l : list A) k x y : upd (upd l k x) k y = upd l k y.
Proof. revert k. induction l as [|a l IH]; intros [|k]; cbn; congruence. Qed.

(** ** C46 *)
Lemma set_ok w v a x : r_ans w (RSet v a x) = Ok None -> exists u p i y w1, nth_error (w_unis w) v = Some u /\ prop_get w a = (w1, Ok (p, i)) /\ peek u p i = Ok y /\
  after w (RSet v a x) = set_unis w1 (upd (w_unis w) v (poke u p i x)) /\ w_poison w1 = w_poison w /\ w_glob w1 = w_glob w /\
  forall k, snd (prop_get (after w (RSet v a x)) k) = snd (prop_get w k).
Proof.
  rewrite set_ans. destruct (nth_error (w_unis w) v) as [u|] eqn:E; [|discriminate]. intro H. bindok H. destruct v0 as [p i]. bindok H. cbn [fst snd] in *.
  destruct (prop_get w a) as [w1 r] eqn:G. cbn [snd] in Hb. subst r. exists u, p, i, v0, w1. split; auto. split; auto. split; auto.
  assert (F := set_fst w v a x u p i E). rewrite G in F. specialize (F eq_refl (ex_intro _ _ Hb0)). cbn [fst] in F.
  destruct (prop_get_ok _ _ _ _ _ G) as (A & B & C & D & _). split; auto. split; auto. split; auto. intro k.
  rewrite F. transitivity (snd (prop_get w1 k)).
  - apply prop_get_dep; auto. apply gsame_refl.
  - pose proof (prop_get_others w a k) as O. rewrite G in O. cbn [fst] in O. apply O, B.
Qed.
Lemma same_place w a b w1 w2 p q i j : winv w -> prop_get w a = (w1, Ok (p, i)) -> prop_get w b = (w2, Ok (q, j)) ->
  (twins p q -> pi_did j = pi_did i /\ pi_dix j = pi_dix i) /\ (pi_did j = pi_did i -> pi_dix j = pi_dix i -> pd_name p = pd_name q).
Proof.
  intros W A B. apply prop_get_place in A; auto. apply prop_get_place in B; auto. destruct A as (d & A1 & A2 & A3 & A4), B as (e & B1 & B2 & B3 & B4). cbn in *.
  split.
  - intros [N D]. rewrite N in *. rewrite D in *. rewrite A1 in B1. inv B1. split; congruence.
  - intros Hd Hx. destruct W as (G & _). assert (d = e).
    { destruct (ginv_nget_nth _ _ _ G A1) as [X _], (ginv_nget_nth _ _ _ G B1) as [Y _]. rewrite A2 in X. rewrite B2, Hd in Y. congruence. }
    subst e. destruct (dv_n2d _ _ _ (gv_dom _ G _ _ A1) _ _ A3) as (g1 & X1 & X2). destruct (dv_n2d _ _ _ (gv_dom _ G _ _ B1) _ _ B3) as (g2 & Y1 & Y2).
    eapply n2g_inj; eauto. congruence.
Qed.
Lemma peek_poke_same u p i x q j y : peek u p i = Ok y -> pi_did j = pi_did i -> pi_dix j = pi_dix i -> pd_ty q = pd_ty p -> peek (poke u p i x) q j = Ok x.
Proof.
  intros H A B T. unfold peek, poke in *. destruct (nth_error u (pi_did i)) as [[n|d]|] eqn:E; try discriminate.
  destruct (nth_error (dn_cells d) (pi_dix i)) as [c|] eqn:Ec; try discriminate. rewrite A, B, (upd_some _ _ _ _ E). cbn. rewrite (upd_some _ _ _ _ Ec). cbn.
  rewrite T, Nat.eqb_refl. reflexivity.
Qed.
Lemma peek_poke_other u p i x q j : (pi_did j <> pi_did i \/ pi_dix j <> pi_dix i) -> peek (poke u p i x) q j = peek u q j.
Proof.
  intro H. unfold peek, poke. destruct (nth_error u (pi_did i)) as [[n|d]|] eqn:E; auto. rewrite nth_error_upd.
  destruct (Nat.eqb_spec (pi_did j) (pi_did i)) as [Ej|]; cbn [andb]; auto. rewrite Ej, E.
  destruct (Nat.ltb_spec (pi_did i) (length u)) as [L|L]; [|apply nth_error_Some_lt in E; lia]. cbn. rewrite nth_error_upd_ne; auto. intro X. destruct H; congruence.
Qed.
Lemma declared_get w k d w1 p i : declared w k d -> prop_get w k = (w1, Ok (p, i)) -> p = d.
Proof. intros [o H] G. destruct (prop_get_ok _ _ _ _ _ G) as (_ & _ & _ & _ & _ & o' & E). congruence. Qed.
Lemma twin_place w a b da db w1 i : winv w -> declared w a da -> declared w b db -> twins da db -> prop_get w a = (w1, Ok (da, i)) -> (w_poison w = false \/ known w b) ->
  exists w2 j, prop_get w b = (w2, Ok (db, j)) /\ pi_did j = pi_did i /\ pi_dix j = pi_dix i.
Proof.
  intros W A [ob B] T G K. assert (X : exists w2 j, prop_get w b = (w2, Ok (db, j))).
  { unfold prop_get. rewrite B. destruct ob as [j|]; [eauto|]. destruct K as [P|(d & j & K)]; [|congruence].
    apply prop_get_place in G; auto. destruct G as (d & A1 & A2 & A3 & A4). cbn in *. destruct T as [T1 T2]. unfold sync_alias, writing. rewrite P, <- T1, <- T2, A1, A4, A3. eauto. }
  destruct X as (w2 & j & X). exists w2, j. split; auto. destruct (same_place _ _ _ _ _ _ _ _ _ W G X) as [Y _]. auto.
Qed.
Lemma twins_share w v a b da db x : reached w -> declared w a da -> declared w b db -> twins da db -> pd_ty da = pd_ty db -> (w_poison w = false \/ known w b) ->
  r_ans w (RSet v a x) = Ok None -> r_ans (after w (RSet v a x)) (RGet v b) = Ok (Some x).
Proof.
  intros R A B T Ty K H. apply reached_inv in R. destruct (set_ok _ _ _ _ H) as (u & p & i & y & w1 & E & G & Y & F & P & GL & S).
  assert (p = da) by (eapply declared_get; eauto). subst p. destruct (twin_place _ _ _ _ _ _ _ R A B T G K) as (w2 & j & G2 & D1 & D2).
  rewrite get_ans. rewrite (S b), G2, F. cbn [w_unis set_unis]. rewrite (upd_some _ _ _ _ E). cbn [snd bind fst]. rewrite (peek_poke_same u da i x db j y); auto.
Qed.
Lemma others_unchanged w v a b da db x v' : reached w -> declared w a da -> declared w b db -> pd_name da <> pd_name db \/ v' <> v ->
  r_ans w (RSet v a x) = Ok None -> r_ans (after w (RSet v a x)) (RGet v' b) = r_ans w (RGet v' b).
Proof.
  intros R A B T H. apply reached_inv in R. destruct (set_ok _ _ _ _ H) as (u & p & i & y & w1 & E & G & Y & F & P & GL & S).
  assert (p = da) by (eapply declared_get; eauto). subst p. rewrite !get_ans. rewrite (S b), F. cbn [w_unis set_unis].
  destruct (Nat.eq_dec v' v) as [->|N]; [|rewrite nth_error_upd_ne by auto; reflexivity]. destruct T as [T|T]; [|contradiction]. rewrite (upd_some _ _ _ _ E), E.
  destruct (prop_get w b) as [w2 [[q j]|e]] eqn:G2; cbn [snd bind fst]; auto. assert (q = db) by (eapply declared_get; eauto). subst q.
  destruct (same_place _ _ _ _ _ _ _ _ _ R G G2) as [_ X]. rewrite peek_poke_other; [reflexivity|].
  destruct (Nat.eq_dec (pi_did j) (pi_did i)) as [E1|]; [right|left; assumption]. intro E2. apply T. auto.
Qed.
(** Where a universe has the domain, its known properties can be read. *)
Lemma readable w v k d n dn : reached w -> declared w k d -> known w k -> has_domain w v n dn -> pd_domain d = n ->
  (exists x, r_ans w (RGet v k) = Ok (Some x)) \/ r_ans w (RGet v k) = panic PDowncast.
Proof.
  intros R [o D] (d' & i & K) (u & Eu & I & En) Ed. rewrite K in D. inv D. apply reached_inv in R. assert (G : prop_get w k = (w, Ok (d, i))) by (unfold prop_get; rewrite K; reflexivity).
  rewrite get_ans, Eu, G. cbn [snd bind fst]. apply prop_get_place in G; auto. destruct G as (di & A1 & A2 & A3 & A4). cbn in *.
  destruct R as (G & S & U). rewrite Forall_forall in U. specialize (U u (nth_error_In _ _ Eu)). apply In_nth_error in I. destruct I as [j I].
  assert (Dk := U _ _ I). cbn in Dk. destruct Dk as (di' & B1 & B2 & B3 & B4 & B5 & B6). rewrite Ed in *.
  destruct (ginv_nget_nth _ _ _ G A1) as [X _]. assert (di' = di) by (pose proof (nth_nget _ _ _ _ (gv_nd _ G) B1); congruence). subst di'.
  assert (HJ : dn_id dn = pi_did i) by (destruct (gv_id _ G _ _ _ B1); congruence). assert (HJ2 : j = pi_did i) by congruence. rewrite HJ2 in I. unfold peek. rewrite I.
  destruct (dv_n2d _ _ _ (gv_dom _ G _ _ A1) _ _ A3) as (gid & Y1 & Y2).
  destruct (nth_error_lt_Some (dn_cells dn) (pi_dix i)) as [c Ec]. { rewrite <- (Forall2_len _ _ _ B4). eapply nth_error_Some_lt; eauto. }
  rewrite Ec. destruct (fst c =? pd_ty d); cbn [bind]; [left; eauto|auto].
Qed.

(** ** Frames *)
Lemma writing_fst {A} w (f : world -> world * res A) : fst (writing w f) = w \/ fst (writing w f) = fst (f w) \/ fst (writing w f) = poison (fst (f w)).
Proof. unfold writing. destruct (w_poison w); auto. destruct (f w) as [w1 [a|e]]; auto. Qed.
Lemma register_domain_rest w n : w_stat (fst (register_domain w n)) = w_stat w /\ w_unis (fst (register_domain w n)) = w_unis w /\ g_n2g (w_glob (fst (register_domain w n))) = g_n2g (w_glob w).
Proof.
  unfold register_domain. destruct (check_name n); auto. match goal with |- context [writing w ?f] => destruct (writing_fst w f) as [->|[->| ->]] end; auto; cbv beta;
  destruct (nget (g_doms (w_glob w)) n); auto.
Qed.
Lemma register_table_rest w t : w_stat (fst (register_table w t)) = w_stat w /\ w_unis (fst (register_table w t)) = w_unis w /\ g_n2g (w_glob (fst (register_table w t))) = g_n2g (w_glob w).
Proof.
  unfold register_table. destruct (new_generic_table t); auto. match goal with |- context [writing w ?f] => destruct (writing_fst w f) as [->|[->| ->]] end; auto; cbv beta;
  (destruct (nget (g_doms (w_glob w)) (td_domain t)) as [i|]; auto; destruct (di_locked i); auto; destruct (nget (di_tabs i) (td_name t)) as [t'|]; auto; destruct (equivalent t t'); auto).
Qed.
Lemma instantiate_gsame g n : gsame g (fst (instantiate g n)).
Proof.
  unfold instantiate. destruct (nget (g_doms g) n) as [i|] eqn:E; [|apply gsame_refl]. cbn [fst]. apply (gsame_lock g n i E).
Qed.
Lemma get_domains_loop_gsame ns : forall g u, gsame g (fst (get_domains_loop g u ns)).
Proof.
  induction ns as [|n ns IH]; intros g u; [apply gsame_refl|]. cbn [get_domains_loop]. pose proof (instantiate_gsame g n) as I. destruct (instantiate g n) as [g1 [d|e]]; [|exact I].
  cbn [fst] in I. destruct (dn_id d <? length u); [|exact I]. eapply gsame_trans; [exact I|apply IH].
Qed.
Lemma get_domains_rest w ns : w_stat (fst (get_domains w ns)) = w_stat w /\ w_unis (fst (get_domains w ns)) = w_unis w /\ gsame (w_glob w) (w_glob (fst (get_domains w ns))).
Proof.
  unfold get_domains. match goal with |- context [writing w ?f] => destruct (writing_fst w f) as [->|[->| ->]] end; cbv beta; cbn; split; auto; split; auto;
  [apply gsame_refl| |]; apply get_domains_loop_gsame.
Qed.
Lemma new_universe_rest w ns : w_stat (fst (new_universe w ns)) = w_stat w /\ (exists l, w_unis (fst (new_universe w ns)) = w_unis w ++ l) /\ gsame (w_glob w) (w_glob (fst (new_universe w ns))).
Proof.
  unfold new_universe. pose proof (get_domains_rest w ns) as (A & B & C). destruct (get_domains w ns) as [w1 [u|e]]; cbn [fst] in *.
  - destruct (init_domains w1 u ns) as [u1 [x|e]]; cbn [fst set_unis w_stat w_unis w_glob]; (split; [auto|split; [|auto]]); rewrite B; [eauto|exists []; rewrite app_nil_r; reflexivity].
  - split; auto. split; auto. exists []. rewrite app_nil_r; auto.
Qed.
Lemma add_domain_rest w v n : w_stat (fst (add_domain w v n)) = w_stat w /\ (forall v', v' <> v -> nth_error (w_unis (fst (add_domain w v n))) v' = nth_error (w_unis w) v') /\
  gsame (w_glob w) (w_glob (fst (add_domain w v n))).
Proof.
  unfold add_domain. destruct (nth_error (w_unis w) v) as [u|]; [|split; [auto|split; [auto|apply gsame_refl]]]. destruct (w_poison w); [split; [auto|split; [auto|apply gsame_refl]]|].
  destruct (_ <? _); [split; [auto|split; [auto|apply gsame_refl]]|].
  cbv zeta. set (w1 := set_unis w (upd (w_unis w) v (sync_domains w u))).
  assert (U1 : forall v', v' <> v -> nth_error (w_unis w1) v' = nth_error (w_unis w) v') by (intros; apply nth_error_upd_ne; auto).
  destruct (get_id w1 n) as [id|e]; [|split; [auto|split; [auto|apply gsame_refl]]]. destruct (nth_error (sync_domains w u) id) as [[m|d]|]; try (split; [reflexivity|split; [exact U1|apply gsame_refl]]).
  match goal with |- context [writing w1 ?f] => assert (F := writing_fst w1 f); destruct (writing w1 f) as [w2 [d|e]] end; cbn [fst] in F.
  - cbn [fst set_unis w_stat w_unis w_glob]. assert (X : w_stat w2 = w_stat w /\ w_unis w2 = w_unis w1 /\ gsame (w_glob w) (w_glob w2)).
    { destruct F as [->|[->| ->]]; cbv beta; cbn [fst set_glob poison w_stat w_unis w_glob]; (split; [reflexivity|split; [reflexivity|]]); [apply gsame_refl| |]; apply instantiate_gsame. }
    destruct X as (X1 & X2 & X3). split; auto. split; auto. intros v' N. rewrite nth_error_upd_ne by auto. rewrite X2. auto.
  - cbn [fst]. destruct F as [->|[->| ->]]; cbv beta; cbn [fst set_glob poison w_stat w_unis w_glob]; (split; [reflexivity|split; [exact U1|]]); [apply gsame_refl| |]; apply instantiate_gsame.
Qed.
Lemma write_table_rest w v t x : w_stat (fst (write_table w v t x)) = w_stat w /\ (forall v', v' <> v -> nth_error (w_unis (fst (write_table w v t x))) v' = nth_error (w_unis w) v') /\
  w_glob (fst (write_table w v t x)) = w_glob w /\ w_poison (fst (write_table w v t x)) = w_poison w.
Proof.
  unfold write_table. destruct (nth_error (w_unis w) v) as [u|]; [|auto 10]. destruct (find_table w u (td_domain t) (td_name t)) as [[[id d] ti]|e]; [|auto 10].
  destruct (convert (ti_decl ti) t); [destruct (ti_poison ti); [auto 10|]|]; cbn; (split; [auto|split; [|auto]]); intros; apply nth_error_upd_ne; auto.
Qed.
Lemma add_tracker_rest w v t : w_stat (fst (add_tracker w v t)) = w_stat w /\ (forall v', v' <> v -> nth_error (w_unis (fst (add_tracker w v t))) v' = nth_error (w_unis w) v') /\
  w_glob (fst (add_tracker w v t)) = w_glob w /\ w_poison (fst (add_tracker w v t)) = w_poison w.
Proof.
  unfold add_tracker. destruct (nth_error (w_unis w) v) as [u|]; [|auto 10]. cbn. split; [auto|split; [|auto]]; intros; apply nth_error_upd_ne; auto.
Qed.
Lemma add_properties_rest w v : winv w -> fst (add_properties w v) = w.
Proof.
  intro W. destruct (nth_error (w_unis w) v) as [u|] eqn:E; [|unfold add_properties; rewrite E; reflexivity].
  destruct (w_poison w) eqn:P; [unfold add_properties; rewrite E, P; reflexivity|]. rewrite add_properties_eq; eauto.
Qed.

(** What one call may do to the declarations, and to other universes *)
Definition stat_mono (w w' : world) : Prop := forall k d o, nth_error (w_stat w) k = Some (d, o) -> exists o', nth_error (w_stat w') k = Some (d, o') /\ (o = None \/ o' = o).
Lemma stat_mono_eq w w' : w_stat w' = w_stat w -> stat_mono w w'. Proof. intros E k d o H. exists o. rewrite E. auto. Qed.
Lemma prop_get_stat w k : stat_mono w (fst (prop_get w k)).
Proof.
  destruct (prop_get w k) as [w1 [[p i]|e]] eqn:E; cbn [fst].
  - destruct (prop_get_ok _ _ _ _ _ E) as (A & B & C & D & F & o & G). intros j d oj H. destruct (Nat.eq_dec j k) as [->|N]; [|rewrite F by auto; eauto].
    rewrite G in H. inv H. exists (Some i). split; auto. destruct oj as [x|]; auto. unfold prop_get in E. rewrite G in E. inv E. auto.
  - destruct (prop_get_err _ _ _ _ E) as [->|[-> X]]; apply stat_mono_eq; reflexivity.
Qed.
Lemma get_after w v k : after w (RGet v k) = w \/ after w (RGet v k) = fst (prop_get w k).
Proof.
  destruct (nth_error (w_unis w) v) as [u|] eqn:E; [right; apply get_fst; eauto|]. left. unfold after. cbn. unfold get_prop, prop_index. rewrite E. reflexivity.
Qed.
Lemma set_after w v k x : after w (RSet v k x) = w \/ after w (RSet v k x) = fst (prop_get w k) \/ exists u, after w (RSet v k x) = set_unis (fst (prop_get w k)) (upd (w_unis w) v u).
Proof.
  destruct (r_ans w (RSet v k x)) as [[y|]|e] eqn:E.
  - destruct (set_fail w v k x) as [_ [X|X]]; auto. congruence.
  - destruct (set_ok _ _ _ _ E) as (u & p & i & y & w1 & A & B & C & D & _). rewrite B. cbn [fst]. eauto.
  - destruct (set_fail w v k x) as [_ [X|X]]; auto. congruence.
Qed.
Lemma set_after_stat w v k x : stat_mono w (after w (RSet v k x)).
Proof. destruct (set_after w v k x) as [->|[->|[u ->]]]; [apply stat_mono_eq; auto|apply prop_get_stat|]. intros j d o H. apply (prop_get_stat w k j d o H). Qed.
Lemma prop_init_stat w k : stat_mono w (fst (prop_init w k)).
Proof.
  unfold prop_init. match goal with |- context [writing w ?f] => assert (F : stat_mono w (fst (f w))) end.
  { cbv beta zeta. destruct (nth_error (w_stat w) k) as [[d [i|]]|] eqn:E; try (apply stat_mono_eq; reflexivity). destruct (prop_check_name d); [|apply stat_mono_eq; reflexivity].
    destruct (nget (g_doms (w_glob w)) (pd_domain d)) as [i|]; [|apply stat_mono_eq; reflexivity]. destruct (di_locked i); [apply stat_mono_eq; reflexivity|].
    destruct (nget (g_n2g (w_glob w)) (pd_name d)) as [g1|], (nget (di_n2d i) (pd_name d)) as [x1|]; cbn [fst]; intros j dj oj H; cbn; rewrite nth_error_upd;
    (destruct (Nat.eqb_spec j k) as [->|N]; cbn [andb]; [|eauto]); pose proof (nth_error_Some_lt _ _ _ E) as L; apply Nat.ltb_lt in L; rewrite L; rewrite E in H; inv H; eauto. }
  match goal with |- context [writing w ?f] => destruct (writing_fst w f) as [->|[->| ->]] end; auto. apply stat_mono_eq; reflexivity.
Qed.
Lemma step_stat w o : winv w -> stat_mono w (after w o).
Proof.
  intro W. destruct o; unfold after; cbn [r_step unit_res some_res fst].
  - apply stat_mono_eq, register_domain_rest.
  - apply prop_init_stat.
  - apply stat_mono_eq, register_table_rest.
  - apply stat_mono_eq, new_universe_rest.
  - apply stat_mono_eq, add_domain_rest.
  - rewrite add_properties_rest by auto. apply stat_mono_eq. reflexivity.
  - fold (after w (RGet v k)). destruct (get_after w v k) as [E|E]; unfold after in E; cbn in E; rewrite E; [apply stat_mono_eq; auto|apply prop_get_stat].
  - apply (set_after_stat w v k x).
  - apply stat_mono_eq; reflexivity.
  - apply stat_mono_eq, write_table_rest.
  - apply stat_mono_eq, add_tracker_rest.
Qed.
Lemma prop_init_unis w k : w_unis (fst (prop_init w k)) = w_unis w.
Proof.
  unfold prop_init. match goal with |- context [writing w ?f] => assert (F : w_unis (fst (f w)) = w_unis w) end.
  { cbv beta zeta. destruct (nth_error (w_stat w) k) as [[d [i|]]|] eqn:E; auto. destruct (prop_check_name d); auto.
    destruct (nget (g_doms (w_glob w)) (pd_domain d)) as [i|]; auto. destruct (di_locked i); auto.
    destruct (nget (g_n2g (w_glob w)) (pd_name d)) as [g1|], (nget (di_n2d i) (pd_name d)) as [x1|]; auto. }
  match goal with |- context [writing w ?f] => destruct (writing_fst w f) as [->|[->| ->]] end; auto.
Qed.
Lemma step_unis w o v' u : winv w -> ~ on v' o -> nth_error (w_unis w) v' = Some u -> nth_error (w_unis (after w o)) v' = Some u.
Proof.
  intros W N E. destruct o; unfold after; cbn [r_step unit_res some_res fst]; cbn [on] in N.
  - destruct (register_domain_rest w n) as (_ & -> & _). auto.
  - rewrite prop_init_unis; auto.
  - destruct (register_table_rest w t) as (_ & -> & _). auto.
  - destruct (new_universe_rest w ns) as (_ & (l & ->) & _). apply nth_ext_app, E.
  - destruct (add_domain_rest w v n) as (_ & -> & _); auto.
  - rewrite add_properties_rest by auto. auto.
  - destruct (get_after w v k) as [H|H]; unfold after in H; cbn in H; rewrite H; auto. rewrite prop_get_unis. auto.
  - destruct (set_after w v k x) as [H|[H|[u' H]]]; unfold after in H; cbn in H; rewrite H; auto; [rewrite prop_get_unis; auto|]. cbn. rewrite nth_error_upd_ne; auto.
  - auto.
  - destruct (write_table_rest w v t x) as (_ & -> & _); auto.
  - destruct (add_tracker_rest w v tr) as (_ & -> & _); auto.
Qed.

(** ** C47 *)
Lemma step_gsame w o v : winv w -> on v o -> gsame (w_glob w) (w_glob (after w o)).
Proof.
  intros W O. destruct o; unfold after; cbn [r_step unit_res some_res fst]; cbn [on] in O; try contradiction.
  - apply add_domain_rest.
  - rewrite add_properties_rest by auto. apply gsame_refl.
  - rewrite get_prop_glob. apply gsame_refl.
  - rewrite set_prop_glob. apply gsame_refl.
  - apply gsame_refl.
  - destruct (write_table_rest w v0 t x) as (_ & _ & -> & _). apply gsame_refl.
  - destruct (add_tracker_rest w v0 tr) as (_ & _ & -> & _). apply gsame_refl.
Qed.
Lemma step_place w o v k : winv w -> on v o -> w_poison (after w o) = w_poison w -> snd (prop_get (after w o) k) = snd (prop_get w k).
Proof.
  intros W O P. assert (G := step_gsame w o v W O).
  assert (S : w_stat (after w o) = w_stat w -> snd (prop_get (after w o) k) = snd (prop_get w k)) by (intro S; apply prop_get_dep; auto; rewrite S; auto).
  destruct o; cbn [on] in O; try contradiction.
  - apply S. unfold after. cbn. apply add_domain_rest.
  - apply S. unfold after. cbn. rewrite add_properties_rest; auto.
  - destruct (get_after w v0 k0) as [H|H]; rewrite H in *; [reflexivity|apply prop_get_others; auto].
  - destruct (set_after w v0 k0 x) as [H|[H|[u' H]]]; rewrite H in *; [reflexivity|apply prop_get_others; auto|].
    transitivity (snd (prop_get (fst (prop_get w k0)) k)); [apply prop_get_dep; auto; apply gsame_refl|]. apply prop_get_others. exact P.
  - apply S. reflexivity.
  - apply S. unfold after. cbn. apply write_table_rest.
  - apply S. unfold after. cbn. apply add_tracker_rest.
Qed.
Lemma look_dep w w' v q : looks v q -> nth_error (w_unis w') v = nth_error (w_unis w) v -> w_poison w' = w_poison w -> gsame (w_glob w) (w_glob w') ->
  (forall k, snd (prop_get w' k) = snd (prop_get w k)) -> r_ans w' q = r_ans w q.
Proof.
  intros L U P G K. destruct q; cbn [looks] in L; try contradiction; subst v0.
  - rewrite !get_ans, U, K. reflexivity.
  - unfold r_ans. cbn [r_step some_res snd]. unfold read_table. rewrite U. destruct (nth_error (w_unis w) v) as [u|]; auto. rewrite (find_table_dep w w') by auto. reflexivity.
Qed.
Lemma unis_length w o v : winv w -> on v o -> length (w_unis (after w o)) = length (w_unis w).
Proof.
  intros W O. destruct o; cbn [on] in O; try contradiction; unfold after; cbn [r_step unit_res some_res fst].
  - unfold add_domain. destruct (nth_error (w_unis w) v0) as [u|]; auto. destruct (w_poison w) eqn:P; auto. destruct (_ <? _); auto. cbv zeta.
    destruct (get_id _ _); [|cbn; rewrite upd_length; auto]. destruct (nth_error (sync_domains w u) a) as [[m|d]|]; try (cbn; rewrite upd_length; auto; fail).
    unfold writing. cbn [w_poison set_unis]. rewrite P. cbv zeta. destruct (snd (instantiate _ n)); cbn; rewrite ?upd_length; auto.
  - rewrite add_properties_rest; auto.
  - destruct (get_after w v0 k) as [H|H]; unfold after in H; cbn in H; rewrite H; auto. rewrite prop_get_unis. auto.
  - destruct (set_after w v0 k x) as [H|[H|[u' H]]]; unfold after in H; cbn in H; rewrite H; auto; [rewrite prop_get_unis; auto|]. cbn. rewrite upd_length; auto.
  - auto.
  - unfold write_table. destruct (nth_error (w_unis w) v0); auto. destruct (find_table w l (td_domain t) (td_name t)) as [[[id d] ti]|]; auto.
    destruct (convert (ti_decl ti) t); [destruct (ti_poison ti)|]; auto; cbn; rewrite upd_length; auto.
  - unfold add_tracker. destruct (nth_error (w_unis w) v0); auto. cbn. rewrite upd_length; auto.
Qed.
(** A call on one universe does not change what another answers *)
Lemma universes_apart w o v v' q : reached w -> on v o -> v' <> v -> looks v' q -> w_poison (after w o) = w_poison w -> r_ans (after w o) q = r_ans w q.
Proof.
  intros R O N L P. apply reached_inv in R. apply (look_dep w (after w o) v'); auto.
  - assert (Nv : ~ on v' o) by (destruct o; cbn in *; congruence). destruct (nth_error (w_unis w) v') as [u|] eqn:E; [apply step_unis; auto|].
    apply nth_error_None in E. apply nth_error_None. rewrite (unis_length w o v); auto.
  - eapply step_gsame; eauto.
  - intro k. eapply step_place; eauto.
Qed.
Lemma set_apart w v k x v' q : reached w -> r_ans w (RSet v k x) = Ok None -> v' <> v -> looks v' q -> r_ans (after w (RSet v k x)) q = r_ans w q.
Proof.
  intros R H N L. apply (universes_apart w (RSet v k x) v v'); auto; [reflexivity|]. destruct (set_ok _ _ _ _ H) as (u & p & i & y & w1 & _ & _ & _ & F & P & _). rewrite F. exact P.
Qed.
(** Answers do not change because of any call that is not on the universe *)
Lemma sinv_unique g p i j : sinv g (p, Some i) -> sinv g (p, Some j) -> i = j.
Proof. intros (a & A1 & A2 & A3 & A4) (b & B1 & B2 & B3 & B4). cbn in *. rewrite A1 in B1. inv B1. destruct i, j. cbn in *. congruence. Qed.
Lemma prop_get_mono w w' k p i : winv w -> good w w' -> stat_mono w w' -> w_poison w' = false -> snd (prop_get w k) = Ok (p, i) -> snd (prop_get w' k) = Ok (p, i).
Proof.
  intros W [W' X] S P H. destruct (prop_get w k) as [w1 r] eqn:E. cbn in H. subst r. assert (I := prop_get_place _ _ _ _ _ W E).
  destruct (prop_get_ok _ _ _ _ _ E) as (_ & _ & _ & _ & _ & o & G). destruct (S _ _ _ G) as (o' & G' & _).
  assert (I' : sinv (w_glob w') (p, Some i)) by (eapply sinv_ext; eauto; apply W'). unfold prop_get. rewrite G'. destruct o' as [j|].
  - cbn. do 2 f_equal. destruct W' as (_ & F & _). rewrite Forall_forall in F. eapply sinv_unique; [apply F; eapply nth_error_In; eauto|exact I'].
  - destruct I' as (di & A1 & A2 & A3 & A4). cbn in *. unfold sync_alias, writing. rewrite P, A1, A4, A3. cbn. destruct i. cbn in *. congruence.
Qed.
Lemma find_table_mono w w' u dn tn x : winv w -> good w w' -> w_poison w' = false -> find_table w u dn tn = Ok x -> find_table w' u dn tn = Ok x.
Proof.
  intros W [W' X] P H. unfold find_table in *. bindok H. destruct (get_id_ok _ _ _ Hb) as (P0 & d & D & I). destruct (gext_get _ _ _ _ (proj1 W') X D) as (d' & D' & E).
  rewrite (get_id_of w' dn d' P D'). rewrite (dx_id _ _ E), I. exact H.
Qed.
Lemma peek_kept w w' v q x : winv w -> good w w' -> stat_mono w w' -> w_poison w' = false -> looks v q -> nth_error (w_unis w') v = nth_error (w_unis w) v ->
  r_ans w q = Ok x -> r_ans w' q = Ok x.
Proof.
  intros W G S P L U H. destruct q; cbn [looks] in L; try contradiction; subst v0.
  - rewrite get_ans in *. rewrite U. destruct (nth_error (w_unis w) v) as [u|]; [|discriminate]. destruct (snd (prop_get w k)) as [[p i]|e] eqn:E; [|discriminate].
    rewrite (prop_get_mono w w' k p i) by auto. exact H.
  - unfold r_ans in *. cbn [r_step some_res snd] in *. unfold read_table in *. rewrite U. destruct (nth_error (w_unis w) v) as [u|]; [|discriminate].
    destruct (find_table w u (td_domain t) (td_name t)) as [f|e] eqn:E; [|discriminate]. rewrite (find_table_mono w w' u _ _ f) by auto. exact H.
Qed.
Lemma answers_kept w o v q x : reached w -> ~ on v o -> looks v q -> w_poison (after w o) = false -> r_ans w q = Ok x -> r_ans (after w o) q = Ok x.
Proof.
  intros R N L P H. apply reached_inv in R. assert (E : exists u, nth_error (w_unis w) v = Some u).
  { destruct q; cbn [looks] in L; try contradiction; subst v0; unfold r_ans in H; cbn in H; unfold get_prop, prop_index, read_table in H;
    (destruct (nth_error (w_unis w) v); [eauto|discriminate]). }
  destruct E as [u E]. apply (peek_kept w (after w o) v); auto; [apply step_good; auto|apply step_stat; auto|]. rewrite E. apply step_unis; auto.
Qed.
