(** Which registrations are accepted, and what they leave (for PropsRegister.v). *)
From Coq Require Import List Arith Bool String Ascii Lia.
From Verif Require Import Base BaseFacts Names NamesFacts Table Extract ExtractFacts Registry RegistrySpec RegistryFacts RegistryProps RegistryInit RegistryMore RegisterSpec.
Import ListNotations.

Lemma check_iff n : check_name n = Ok tt <-> identifier n.
Proof. destruct (check_name_spec n) as [[E I]|[E I]]; rewrite E; split; auto; [discriminate|tauto]. Qed.
Lemma check_cols_iff cs : forall done, NoDup (map cm_name done) -> (check_cols done cs = Ok tt <->
  Forall (fun c => identifier (cm_name c)) cs /\ NoDup (map cm_name (done ++ cs))).
Proof.
  induction cs as [|c cs IH]; intros done N; cbn [check_cols].
  { rewrite app_nil_r. split; auto. }
  destruct (check_name_spec (cm_name c)) as [[E I]|[E I]]; rewrite E; cbn [bind].
  2:{ split; [discriminate|]. intros [F _]. inv F. contradiction. }
  destruct (existsb _ done) eqn:X.
  - split; [discriminate|]. intros [_ D]. exfalso. apply existsb_exists in X. destruct X as (x & Ix & Ex). apply name_eqb_eq in Ex.
    rewrite map_app in D. cbn [map] in D. apply NoDup_remove_2 in D. apply D, in_or_app. left. rewrite <- Ex. now apply in_map.
  - assert (N' : NoDup (map cm_name (done ++ [c]))).
    { rewrite map_app. cbn. apply app_ND; auto. intro In1. apply in_map_iff in In1. destruct In1 as (x & Ex & Ix).
      assert (existsb (fun x => name_eqb (cm_name x) (cm_name c)) done = true); [|congruence]. apply existsb_exists. exists x. split; auto. rewrite Ex. apply neqb_refl. }
    rewrite (IH _ N'), <- app_assoc. cbn [app]. split; intros [F D]; split; auto. now inv F.
Qed.
Lemma new_generic_iff t : new_generic_table t = Ok tt <-> proper t.
Proof.
  unfold new_generic_table, proper. destruct (check_name_spec (td_name t)) as [[E I]|[E I]]; rewrite E; cbn [bind].
  - rewrite check_cols_iff by constructor. cbn [app]. tauto.
  - split; [discriminate|tauto].
Qed.

Lemma domain_iff w n : r_ans w (RDomain n) = Ok None <-> w_poison w = false /\ identifier n.
Proof.
  unfold r_ans. cbn [r_step unit_res snd]. unfold register_domain, writing. rewrite <- check_iff.
  destruct (check_name n) as [[]|e]; [|cbn; split; [discriminate|intros [_ D]; discriminate]].
  destruct (w_poison w); [cbn; split; [discriminate|intros [D _]; discriminate]|]. destruct (nget _ n); cbn; tauto.
Qed.

Lemma table_iff w t : reached w -> (r_ans w (RTable t) = Ok None <->
  w_poison w = false /\ dom_locked w (td_domain t) = Ok false /\ proper t /\
  forall t', has_table w t' -> td_domain t' = td_domain t -> td_name t' = td_name t -> td_cols t' = td_cols t).
Proof.
  intro R. apply reached_inv in R. unfold r_ans, dom_locked, reading. cbn [r_step unit_res snd]. unfold register_table, writing. rewrite <- new_generic_iff.
  destruct (new_generic_table t) as [[]|e]; [|cbn; split; [discriminate|intros (_ & _ & D & _); discriminate]].
  destruct (w_poison w) eqn:P; [cbn; split; [discriminate|intros (D & _); discriminate]|]. cbv zeta.
  destruct (nget (g_doms (w_glob w)) (td_domain t)) as [i|] eqn:D; [|cbn; split; [discriminate|intros (_ & X & _); discriminate]].
  destruct (di_locked i); [cbn; split; [discriminate|intros (_ & X & _); discriminate]|].
  destruct (nget (di_tabs i) (td_name t)) as [s|] eqn:T.
  - assert (Q : td_domain s = td_domain t /\ td_name s = td_name t) by (apply (dv_tabs _ _ _ (gv_dom _ (proj1 R) _ _ D) _ _ T)). destruct Q as [Q1 Q2].
    destruct (equivalent t s) eqn:E; cbn.
    + split; auto. intros _. split; auto. split; auto. split; auto. intros t' (i' & D' & T') E1 E2. rewrite E1, D in D'. inv D'. rewrite E2, T in T'. inv T'.
      unfold equivalent in E. apply andb_true_iff in E. destruct E as [_ E]. symmetry. apply metas_eqb_eq, E.
    + split; [discriminate|]. intros (_ & _ & _ & H). exfalso. assert (H1 : td_cols s = td_cols t). { apply H; auto. exists i. rewrite Q1, Q2. auto. }
      unfold equivalent in E. rewrite Q1, Q2, H1, !neqb_refl, metas_eqb_refl in E. discriminate.
  - cbn. split; auto. intros _. split; auto. split; auto. split; auto. intros t' (i' & D' & T') E1 E2. rewrite E1, D in D'. inv D'. rewrite E2, T in T'. discriminate.
Qed.

(** ** What is registered *)
Definition tab (g : globals) (dn tn : name) : option tdecl := match nget (g_doms g) dn with Some i => nget (di_tabs i) tn | None => None end.
Lemma has_tab w t : has_table w t <-> tab (w_glob w) (td_domain t) (td_name t) = Some t.
Proof.
  unfold has_table, tab. split; [intros (i & D & T); rewrite D; auto|]. destruct (nget _ _) as [i|]; [|discriminate]. eauto.
Qed.
Lemma tab_set g n i i' dn tn : nget (g_doms g) n = Some i -> di_tabs i' = di_tabs i -> tab (set_dom g n i') dn tn = tab g dn tn.
Proof.
  intros D E. unfold tab, set_dom. cbn. rewrite nget_nset by congruence. destruct (neqb_spec n dn) as [<-|]; auto. rewrite D, E. reflexivity.
Qed.
Lemma tab_instantiate g n dn tn : tab (fst (instantiate g n)) dn tn = tab g dn tn.
Proof. unfold instantiate. destruct (nget (g_doms g) n) as [i|] eqn:D; auto. cbn [fst]. eapply tab_set; eauto. Qed.
Lemma tab_loop ns : forall g u dn tn, tab (fst (get_domains_loop g u ns)) dn tn = tab g dn tn.
Proof.
  induction ns as [|n ns IH]; intros g u dn tn; cbn [get_domains_loop]; auto. pose proof (tab_instantiate g n dn tn) as I. destruct (instantiate g n) as [g1 [d|e]]; cbn [fst] in *; auto.
  destruct (_ <? _); [|exact I]. rewrite IH. exact I.
Qed.
Lemma prop_get_glob w k : w_glob (fst (prop_get w k)) = w_glob w.
Proof.
  unfold prop_get, sync_alias, writing. destruct (nth_error (w_stat w) k) as [[d [i|]]|]; auto. destruct (w_poison w); auto.
  destruct (nget _ (pd_domain d)) as [i|]; auto. destruct (nget _ (pd_name d)); auto. destruct (nget _ (pd_name d)); auto.
Qed.
Lemma prop_index_glob w v k : w_glob (fst (prop_index w v k)) = w_glob w.
Proof.
  unfold prop_index. destruct (nth_error (w_unis w) v); auto. pose proof (prop_get_glob w k) as E. destruct (prop_get w k) as [w1 [[p i]|e]]; auto.
Qed.
Lemma tab_step w o dn tn : (forall t, o <> RTable t) -> tab (w_glob (after w o)) dn tn = tab (w_glob w) dn tn.
Proof.
  intro N. unfold after. destruct o as [n|k|t|ns|v n|v|v k|v k x|v t|v t x|v tr]; cbn [r_step unit_res some_res fst]; auto.
  - unfold register_domain, writing. destruct (check_name n); auto. destruct (w_poison w); auto. cbv zeta. destruct (nget (g_doms (w_glob w)) n) as [i|] eqn:D; auto.
    cbn. unfold tab. cbn. rewrite nget_nadd by auto. destruct (neqb_spec n dn) as [<-|]; auto. rewrite D. reflexivity.
  - unfold prop_init, writing. destruct (w_poison w); auto. cbv zeta. destruct (nth_error (w_stat w) k) as [[d [i|]]|]; auto. destruct (prop_check_name d); auto.
    destruct (nget (g_doms (w_glob w)) (pd_domain d)) as [i|] eqn:D; auto. destruct (di_locked i); auto.
    destruct (nget (g_n2g (w_glob w)) (pd_name d)); destruct (nget (di_n2d i) (pd_name d)); cbn; unfold tab; cbn; rewrite nget_nset by congruence;
      (destruct (neqb_spec (pd_domain d) dn) as [<-|]; auto; rewrite D; reflexivity).
  - destruct (N t eq_refl).
  - unfold new_universe, get_domains, writing. destruct (w_poison w); auto. cbv zeta. pose proof (tab_loop ns (w_glob w) (map Unset (g_d2n (w_glob w))) dn tn) as L.
    destruct (get_domains_loop _ _ ns) as [g [u|e]]; cbn [fst snd] in *; auto. destruct (init_domains _ u ns) as [u' [[]|e]]; auto.
  - unfold add_domain. destruct (nth_error (w_unis w) v) as [u|]; auto. destruct (w_poison w) eqn:P; auto. destruct (_ <? _); auto. cbv zeta. destruct (get_id _ n); auto.
    destruct (nth_error _ a) as [[m|m]|]; auto. unfold writing. cbn [w_poison set_unis]. rewrite P. cbv zeta. cbn [w_glob set_unis].
    pose proof (tab_instantiate (w_glob w) n dn tn) as I. destruct (instantiate (w_glob w) n) as [g [d|e]]; cbn [fst snd] in *; auto.
  - unfold add_properties. destruct (nth_error (w_unis w) v); auto. destruct (w_poison w); auto.
  - unfold get_prop. pose proof (prop_index_glob w v k) as E. destruct (prop_index w v k) as [w1 [[[[u d] p] i]|e]]; cbn in *; rewrite E; reflexivity.
  - unfold set_prop. pose proof (prop_index_glob w v k) as E. destruct (prop_index w v k) as [w1 [[[[u d] p] i]|e]]; cbn in *; rewrite E; reflexivity.
  - unfold write_table. destruct (nth_error (w_unis w) v); auto. destruct (find_table _ _ _ _) as [[[id d] ti]|]; auto. cbv zeta. destruct (convert _ _); auto. destruct (ti_poison ti); auto.
  - unfold add_tracker. destruct (nth_error (w_unis w) v); auto.
Qed.
Lemma table_after w t t' : reached w -> (has_table (after w (RTable t)) t' <->
  has_table w t' \/ (t' = t /\ r_ans w (RTable t) = Ok None /\ forall s, has_table w s -> td_domain s = td_domain t -> td_name s <> td_name t)).
Proof.
  intro R. apply reached_inv in R. rewrite !has_tab. unfold after, r_ans. cbn [r_step unit_res fst snd]. unfold register_table, writing.
  assert (No : forall A (x : tdecl) (e : err) (P : Prop), (A \/ x = t /\ @Err (option nat) e = Ok None /\ P <-> A)). { intros. split; [intros [|(_ & D & _)]; auto; discriminate|auto]. }
  destruct (new_generic_table t) as [[]|e]; [|cbn; rewrite No; tauto].
  destruct (w_poison w) eqn:P; [cbn; unfold panic; rewrite No; tauto|]. cbv zeta.
  destruct (nget (g_doms (w_glob w)) (td_domain t)) as [i|] eqn:D; [|cbn; unfold panic; rewrite No; tauto].
  destruct (di_locked i); [cbn; unfold panic; rewrite No; tauto|].
  destruct (nget (di_tabs i) (td_name t)) as [s|] eqn:T.
  - destruct (equivalent t s); cbn; [|unfold panic; rewrite No; tauto]. split; auto. intros [|(-> & _ & H)]; auto.
    destruct (dv_tabs _ _ _ (gv_dom _ (proj1 R) _ _ D) _ _ T) as [Q1 Q2]. destruct (H s); auto. exists i. rewrite Q1, Q2. auto.
  - cbn [fst snd w_glob set_glob]. unfold tab, set_dom. cbn [g_doms]. rewrite nget_nset by congruence. destruct (neqb_spec (td_domain t) (td_domain t')) as [E|E].
    + rewrite <- E, D. cbn [di_tabs]. rewrite nget_nadd by auto. destruct (neqb_spec (td_name t) (td_name t')) as [F|F].
      * split; [|intros [X|(-> & _)]; auto; rewrite <- F, T in X; discriminate]. intro X. inv X. right. split; auto. split; auto.
        intros s (i' & D' & T') E1 E2. rewrite E1, D in D'. inv D'. rewrite E2, T in T'. discriminate.
      * split; auto. intros [X|(-> & _)]; auto. congruence.
    + split; auto. intros [X|(-> & _)]; auto. congruence.
Qed.
Lemma other_after w o t : (forall s, o <> RTable s) -> (has_table (after w o) t <-> has_table w t).
Proof. intro N. rewrite !has_tab, tab_step by auto. reflexivity. Qed.

Lemma proper_run os : forall w, reached w -> (forall t, has_table w t -> proper t) -> forall t, has_table (r_run w os) t -> proper t.
Proof.
  induction os as [|o os IH]; intros w R H t Ht; auto. unfold r_run in Ht. cbn [fold_left] in Ht. fold (after w o) in Ht. apply (IH (after w o)); auto; [now apply reached_after|].
  intros s Hs. destruct o; try (apply other_after in Hs; [|discriminate]; auto; fail). apply table_after in Hs; auto. destruct Hs as [Hs|(-> & A & _)]; auto.
  apply table_iff in A; auto. tauto.
Qed.
Lemma proper_all w t : reached w -> has_table w t -> proper t.
Proof.
  intros (ps & os & ->). apply proper_run; [exists ps, []; reflexivity|]. intros s (i & D & _). discriminate.
Qed.
Lemma only_one w s t : has_table w s -> has_table w t -> td_domain s = td_domain t -> td_name s = td_name t -> s = t.
Proof. rewrite !has_tab. intros A B D E. rewrite D, E in A. congruence. Qed.
Lemma only_given ps os t : has_table (r_run (w0 ps) os) t -> In (RTable t) os.
Proof.
  assert (G : forall os w, reached w -> has_table (r_run w os) t -> has_table w t \/ In (RTable t) os).
  { clear os. induction os as [|o os IH]; intros w R H; auto. unfold r_run in H. cbn [fold_left] in H. fold (after w o) in H. destruct (IH (after w o)) as [X|X]; auto; [now apply reached_after| |right; right; auto].
    destruct o; try (apply other_after in X; [|discriminate]; auto; fail). apply table_after in X; auto. destruct X as [X|(-> & _)]; auto. right; left; auto. }
  intro H. apply G in H; [|exists ps, []; reflexivity]. destruct H as [(i & D & _)|H]; auto. discriminate.
Qed.

(** ** Properties *)
Lemma split_iff n a b : ~ In (nat_of_ascii "/") a -> (split_slash n = (a, Some b) <-> n = a ++ nat_of_ascii "/" :: b).
Proof.
  revert a. induction n as [|c n IH]; intros a N; cbn [split_slash].
  - split; [discriminate|]. destruct a; discriminate.
  - destruct (Nat.eqb_spec c (nat_of_ascii "/")) as [->|Nc].
    + split; [intro E; inv E; reflexivity|]. destruct a as [|x a]; cbn [app]; intro E; inv E; auto. destruct N. left; auto.
    + destruct a as [|x a]; cbn [app]. { split; intro E; inv E. congruence. }
      assert (Na : ~ In (nat_of_ascii "/") a) by (intro; apply N; right; auto). specialize (IH a Na). destruct (split_slash n) as [p q]. cbn [fst snd]. split; intro E; inv E.
      * f_equal. apply IH. reflexivity.
      * destruct IH as [_ IH]. specialize (IH eq_refl). inv IH. reflexivity.
Qed.
Lemma no_slash n : identifier n -> ~ In (nat_of_ascii "/") n.
Proof.
  intros (c & n' & -> & L & F) [E|I].
  - change (nat_of_ascii "/") with 47 in E. subst. destruct L; lia.
  - rewrite Forall_forall in F. apply F in I. change (nat_of_ascii "/") with 47 in I. destruct I as [[I|I]|[I|I]]; unfold digit in *; lia.
Qed.
Lemma prop_check_iff d : prop_check_name d = Ok tt <-> identifier (pd_domain d) /\ exists n, identifier n /\ pd_name d = pd_domain d ++ nat_of_ascii "/" :: n.
Proof.
  unfold prop_check_name. destruct (check_name_spec (pd_domain d)) as [[E I]|[E I]]; rewrite E; cbn [bind]; [|split; [discriminate|tauto]].
  split.
  - destruct (split_slash (pd_name d)) as [a [b|]] eqn:S; [|discriminate]. destruct (neqb_spec a (pd_domain d)) as [->|]; [|discriminate]. intro C. split; auto. exists b.
    split; [now apply check_iff|]. apply split_iff; auto. now apply no_slash.
  - intros (_ & n & In1 & En). apply split_iff in En; [|now apply no_slash]. rewrite En, neqb_refl. now apply check_iff.
Qed.
Lemma property_iff w k d : reached w -> declared w k d -> (r_ans w (RProp k) = Ok None <-> w_poison w = false /\
  (known w k \/ dom_locked w (pd_domain d) = Ok false /\ identifier (pd_domain d) /\ exists n, identifier n /\ pd_name d = pd_domain d ++ nat_of_ascii "/" :: n)).
Proof.
  intros R (o & E). unfold r_ans, dom_locked, reading, known. cbn [r_step unit_res snd]. unfold prop_init, writing. rewrite <- prop_check_iff.
  destruct (w_poison w); [cbn; split; [discriminate|intros [D _]; discriminate]|]. cbv zeta. rewrite E. destruct o as [i|]; [cbn; split; eauto 6|].
  assert (K : (exists d' i, Some (d, @None pindex) = Some (d', Some i)) <-> False) by (split; [intros (d' & i & X); discriminate|tauto]). rewrite K.
  destruct (prop_check_name d) as [[]|e]; [|cbn; split; [discriminate|intros (_ & [[]|[_ D]]); discriminate]].
  destruct (nget (g_doms (w_glob w)) (pd_domain d)) as [i|]; [|cbn; split; [discriminate|intros (_ & [[]|[D _]]); discriminate]].
  destruct (di_locked i); [cbn; split; [discriminate|intros (_ & [[]|[D _]]); discriminate]|].
  destruct (nget (g_n2g (w_glob w)) (pd_name d)); destruct (nget (di_n2d i) (pd_name d)); cbn; tauto.
Qed.

(** ** Reading *)
Lemma get_columns_iff have : NoDup (map cm_name have) -> forall want, get_columns have want = Ok tt <-> fits_in want have.
Proof.
  intros N want. unfold fits_in. induction want as [|c want IH]; cbn [get_columns]; [split; auto|].
  destruct (find _ have) as [x|] eqn:F.
  - apply find_some in F. destruct F as [Ix Ex]. apply name_eqb_eq in Ex. destruct (neqb_spec (cm_type x) (cm_type c)) as [T|T].
    + rewrite IH. split; [intro G; constructor; eauto|intro G; now inv G].
    + split; [discriminate|]. intro G. exfalso. inv G. destruct H1 as (y & Iy & Ey & Ty). apply T. rewrite <- Ty. f_equal.
      clear - N Ix Iy Ex Ey. assert (Q : cm_name x = cm_name y) by congruence. clear Ex Ey. induction have as [|h l IH]; [destruct Ix|]. cbn in N. inv N.
      destruct Ix as [->|Ix], Iy as [->|Iy]; auto; exfalso; apply H1; [rewrite Q|rewrite <- Q]; now apply in_map.
  - split; [discriminate|]. intro G. exfalso. inv G. destruct H1 as (y & Iy & Ey & Ty). apply (find_none _ _ F) in Iy. cbn in Iy. rewrite Ey, neqb_refl in Iy. discriminate.
Qed.
Lemma convert_iff a b : NoDup (map cm_name (td_cols a)) -> (convert a b = Ok tt <-> fits_in (td_cols b) (td_cols a) /\ td_type a = td_type b).
Proof.
  intro N. unfold convert. rewrite <- get_columns_iff by auto. destruct (get_columns _ _) as [[]|e]; cbn [bind]; [|split; [discriminate|intros [D _]; discriminate]].
  destruct (Nat.eqb_spec (td_type a) (td_type b)); [tauto|split; [discriminate|tauto]].
Qed.
Lemma find_table_holds w v u dn tn id d ti : reached w -> w_poison w = false -> nth_error (w_unis w) v = Some u ->
  (find_table w u dn tn = Ok (id, d, ti) <-> get_id w dn = Ok id /\ In (Dom d) u /\ dn_name d = dn /\ nget (dn_tabs d) tn = Some ti).
Proof.
  intros R P E. assert (W := reached_inv _ R). assert (Un := uinv_nth _ _ _ W E). unfold find_table, get_id, reading. rewrite P.
  destruct (nget (g_doms (w_glob w)) dn) as [i|] eqn:D; cbn [bind]; [|split; [discriminate|intros (X & _); discriminate]].
  destruct (ginv_nget_nth _ _ _ (proj1 W) D) as [Hn _]. split.
  - destruct (nth_error u (di_id i)) as [[m|e]|] eqn:X; try discriminate. destruct (nget (dn_tabs e) tn) eqn:T; [|discriminate]. intro Z. inv Z. split; auto. split; [now apply nth_error_In in X|]. split; auto.
    specialize (Un _ _ X). cbn in Un. destruct Un as (i' & A & _). congruence.
  - intros (X & I & Nm & T). inv X. apply In_nth_error in I. destruct I as [j J]. specialize (Un _ _ J) as Q. cbn in Q. destruct Q as (i' & A & Jd & _).
    assert (j = di_id i). { destruct (gv_id _ (proj1 W) _ _ _ A) as [B _]. apply (nth_nget _ _ _ _ (gv_nd _ (proj1 W))) in A. rewrite D in A. inv A. auto. } subst j. rewrite H in J. rewrite J, T. reflexivity.
Qed.
Lemma read_iff w v t x : reached w -> w_poison w = false ->
  (r_ans w (RRead v t) = Ok (Some x) <-> exists t', has_table w t' /\ td_domain t' = td_domain t /\ td_name t' = td_name t /\
     td_type t' = td_type t /\ fits_in (td_cols t) (td_cols t') /\ exists d k, has_domain w v (td_domain t) d /\ In (td_name t, TI t' k x false) (dn_tabs d)).
Proof.
  intros R P. assert (W := reached_inv _ R). unfold r_ans. cbn [r_step some_res snd]. unfold read_table. split.
  - destruct (nth_error (w_unis w) v) as [u|] eqn:U; [|discriminate]. destruct (find_table w u (td_domain t) (td_name t)) as [[[id d] ti]|] eqn:F; [|discriminate]. cbn [bind snd].
    assert (Hx : exists i, nget (g_doms (w_glob w)) (td_domain t) = Some i /\ nget (di_tabs i) (td_name t) = Some (ti_decl ti)) by (eapply find_table_decl; eauto). destruct Hx as (i & D & T).
    destruct (dv_tabs _ _ _ (gv_dom _ (proj1 W) _ _ D) _ _ T) as [Q1 Q2]. assert (Ht : has_table w (ti_decl ti)) by (exists i; rewrite Q1, Q2; auto).
    destruct (convert (ti_decl ti) t) as [[]|] eqn:C; [|discriminate]. cbn [bind]. destruct (ti_poison ti) eqn:Pt; [discriminate|]. intro X. inv X. apply convert_iff in C; [|apply (proper_all w); auto].
    exists (ti_decl ti). split; auto. split; auto. split; auto. split; [apply C|]. split; [apply C|]. apply (find_table_holds w v) in F; auto. destruct F as (_ & I & Nm & G). exists d, (ti_trk ti).
    split; [exists u; auto|]. destruct ti as [a b c e]. cbn in *. subst. destruct (nget_nth _ _ _ G) as [j J]. now apply nth_error_In in J.
  - intros (t' & Ht & E1 & E2 & Ty & Fi & d & k & (u & U & I & Nm) & It). rewrite U.
    assert (Gi : exists id, get_id w (td_domain t) = Ok id). { destruct Ht as (i & D & _). unfold get_id, reading. rewrite P, <- E1, D. eauto. } destruct Gi as [id Gi].
    assert (G : nget (dn_tabs d) (td_name t) = Some (TI t' k x false)).
    { apply In_nth_error in It. destruct It as [j J]. eapply nth_nget; [|exact J]. apply In_nth_error in I. destruct I as [m M]. destruct (uinv_nth _ _ _ W U _ _ M) as (i & A & _ & _ & _ & Tb & _).
      assert (Md : map fst (dn_tabs d) = map fst (di_tabs i)) by (rewrite <- Tb, map_map; apply map_ext; auto). rewrite Md.
      apply (nth_nget _ _ _ _ (gv_nd _ (proj1 W))) in A. apply (dv_nd _ _ _ (gv_dom _ (proj1 W) _ _ A)). }
    assert (F : find_table w u (td_domain t) (td_name t) = Ok (id, d, TI t' k x false)) by (apply (find_table_holds w v); auto).
    rewrite F. cbn [bind snd ti_decl ti_poison ti_rows]. assert (C : convert t' t = Ok tt). { apply convert_iff; [apply (proper_all w); auto|]. auto. } rewrite C. reflexivity.
Qed.
