(** Proofs for PropsAbout.v. *)
From Coq Require Import String List Arith Bool Lia Permutation Sorting.Sorted.
From Verif Require Import Base BaseFacts Names NamesFacts Table Extract ExtractFacts Registry RegistrySpec RegistryFacts RegistryProps RegistryInit Reopen ReopenSpec ReopenFacts ReopenProps About AboutSpec.
Import ListNotations.

(** ** Which domains *)
Definition flags (u : uni) : list (option name) := map (fun m => match m with Unset _ => None | Dom d => Some (dn_name d) end) u.
Fixpoint somes (l : list (option name)) : list name := match l with [] => [] | None :: l => somes l | Some n :: l => n :: somes l end.
Lemma names_flags u : domain_names u = somes (flags u).
Proof. unfold flags. induction u as [|[n|d] u IH]; cbn; auto. rewrite IH. reflexivity. Qed.
Lemma nth_ext' {A} (l m : list A) : (forall j, nth_error l j = nth_error m j) -> l = m.
Proof.
  revert m. induction l as [|a l IH]; intros [|b m] H; auto; try (specialize (H 0); discriminate).
  f_equal; [specialize (H 0); cbn in H; congruence|]. apply IH. intro j. apply (H (S j)).
Qed.
Lemma flags_shapes u u' : shapes u u' -> flags u' = flags u.
Proof.
  intros [L H]. apply nth_ext'. intro j. unfold flags. rewrite !nth_error_map. destruct (nth_error u j) as [m|] eqn:E.
  - destruct (nth_error_lt_Some u' j) as [m' E']. { rewrite L. eapply nth_error_Some_lt; eauto. } rewrite E'. specialize (H _ _ _ E E').
    destruct m, m'; cbn in *; try contradiction; auto. destruct H as (A & B & C). congruence.
  - apply nth_error_None in E. rewrite (proj2 (nth_error_None u' j)) by lia. reflexivity.
Qed.
Lemma flags_grown g u u' : Forall2 (grown g) u u' -> flags u' = flags u.
Proof. intro F. induction F as [|[n|d] [n'|d'] u u' R F IH]; cbn in *; try contradiction; auto; f_equal; auto. destruct R as (l & -> & _). reflexivity. Qed.
Lemma flags_upd u j d d' : nth_error u j = Some (Dom d) -> dn_name d' = dn_name d -> flags (upd u j (Dom d')) = flags u.
Proof.
  revert j. induction u as [|m u IH]; intros [|j] H N; cbn in *; try discriminate; [inv H; congruence|]. f_equal. apply IH; auto.
Qed.
Lemma somes_app a b : somes (a ++ b) = somes a ++ somes b.
Proof. induction a as [|[n|] a IH]; cbn; congruence. Qed.
Lemma somes_none {A} (l : list A) : somes (map (fun _ => None) l) = [].
Proof. induction l; cbn; auto. Qed.
Lemma flags_sync w u : somes (flags (sync_domains w u)) = somes (flags u).
Proof.
  unfold sync_domains, flags. rewrite map_app, somes_app, map_map. cbn. rewrite somes_none, app_nil_r. reflexivity.
Qed.
Lemma somes_in l n : In n (somes l) <-> exists j, nth_error l j = Some (Some n).
Proof.
  induction l as [|[m|] l IH]; cbn.
  - split; [tauto|]. intros [[|j] H]; discriminate.
  - rewrite IH. split.
    + intros [->|[j H]]; [exists 0; auto|exists (S j); auto].
    + intros [[|j] H]; cbn in H; [inv H; auto|eauto].
  - rewrite IH. split; intros [j H]; [exists (S j); auto|]. destruct j; cbn in H; [discriminate|eauto].
Qed.
Lemma names_in u n : In n (domain_names u) <-> exists d, In (Dom d) u /\ dn_name d = n.
Proof.
  induction u as [|[m|d] u IH]; cbn.
  - split; [tauto|]. intros (d & [] & _).
  - rewrite IH. split; intros (d & H & N); exists d; [auto|]. destruct H as [H|H]; [discriminate|auto].
  - rewrite IH. split.
    + intros [E|(d' & H & N)]; [exists d; auto|exists d'; auto].
    + intros (d' & [H|H] & N); [inv H; auto|right; eauto].
Qed.
Lemma domains_eq w v u : nth_error (w_unis w) v = Some u -> domains_of w v = domain_names u.
Proof. intro E. unfold domains_of, get_domain_names. rewrite E. reflexivity. Qed.
Lemma domains_in w v n : In n (domains_of w v) <-> exists d, has_domain w v n d.
Proof.
  unfold domains_of, get_domain_names, has_domain. destruct (nth_error (w_unis w) v) as [u|] eqn:E.
  - rewrite names_in. split; intros (d & H); exists d; [exists u; auto|]. destruct H as (u' & E' & H). inv E'. auto.
  - split; [intros []|]. intros (d & u & H & _). discriminate.
Qed.

(** ** A new universe *)
Lemma loop_only ns : forall g u g' u', ginv g -> get_domains_loop g u ns = (g', Ok u') -> forall d, In (Dom d) u' -> In (Dom d) u \/ In (dn_name d) ns.
Proof.
  induction ns as [|n ns IH]; intros g u g' u' G H d I; cbn in *; [inv H; auto|].
  assert (Sp := instantiate_spec g n G). destruct (nget (g_doms g) n) as [i|] eqn:E; [|rewrite Sp in H; discriminate]. destruct Sp as (d0 & X & N & _). rewrite X in H.
  destruct (dn_id d0 <? length u); [|discriminate].
  destruct (IH _ _ _ _ (proj1 (set_lock_ok g n i G E)) H d I) as [K|K]; auto.
  apply In_nth_error in K. destruct K as [j K]. rewrite nth_error_upd in K. destruct (_ && _); [inv K; auto|]. left. eapply nth_error_In; eauto.
Qed.
Lemma new_names w ns n : h_reached w -> r_ans w (RNew ns) = Ok None -> (In n (domains_of (after w (RNew ns)) (length (w_unis w))) <-> In n ns).
Proof.
  intros R H. assert (W := reached_inv _ R). split.
  - unfold r_ans in H. unfold after. cbn [r_step unit_res fst snd] in *. unfold new_universe in *. destruct (get_domains_rest w ns) as (_ & R2 & _). destruct (get_domains w ns) as [w1 [u|e]] eqn:E; cbn [fst snd] in *; [|discriminate].
    pose proof (init_domains_shapes w1 ns u) as Sh. destruct (init_domains w1 u ns) as [u' [[]|e]] eqn:I; cbn [fst snd] in *; [|discriminate]. intro K.
    rewrite (domains_eq _ _ u') in K by (cbn; rewrite R2; apply nth_app_last). rewrite names_flags, (flags_shapes _ _ Sh), <- names_flags, names_in in K. destruct K as (d & K & <-).
    unfold get_domains, writing in E. destruct (w_poison w) eqn:P; [discriminate|]. cbv zeta in E. destruct (get_domains_loop (w_glob w) (map Unset (g_d2n (w_glob w))) ns) as [g' [u0|e]] eqn:L; cbn [fst snd] in E; inv E.
    destruct (loop_only _ _ _ _ _ (proj1 W) L d K) as [Q|Q]; auto. apply in_map_iff in Q. destruct Q as (x & Q & _). discriminate.
  - intro I. apply domains_in. destruct (new_tables w ns n R H I) as (d & K & _). eauto.
Qed.
(** ** Adding a domain *)
Lemma uni_length w v u : winv w -> nth_error (w_unis w) v = Some u -> length u <= length (g_d2n (w_glob w)).
Proof.
  intros W E. assert (U := uinv_nth _ _ _ W E). destruct (Nat.le_gt_cases (length u) (length (g_d2n (w_glob w)))) as [L|L]; auto. exfalso.
  destruct (nth_error_lt_Some u (length (g_d2n (w_glob w))) L) as [m Em]. specialize (U _ _ Em). destruct m as [n|d].
  - apply nth_error_Some_lt in U. lia.
  - destruct U as (i & U & _). apply nth_error_Some_lt in U. rewrite (gv_d2n _ (proj1 W)), map_length in U. lia.
Qed.
Lemma add_names w v n m : h_reached w -> v < length (w_unis w) ->
  (In m (domains_of (after w (RAdd v n)) v) <-> In m (domains_of w v) \/ (m = n /\ exists i, get_id w n = Ok i)).
Proof.
  intros R L. assert (W := reached_inv _ R). destruct (nth_error_lt_Some _ _ L) as [u E]. assert (U := uinv_nth _ _ _ W E). rewrite (domains_eq _ _ _ E).
  assert (At : forall u', nth_error (upd (w_unis w) v u') v = Some u') by (intro u'; eapply upd_some; eauto).
  unfold after. cbn [r_step unit_res fst]. unfold add_domain. rewrite E. destruct (w_poison w) eqn:P.
  { cbn [fst]. rewrite (domains_eq _ _ _ E). unfold get_id, reading. rewrite P. split; auto. intros [H|[_ [i H]]]; [auto|discriminate]. }
  assert (Lu := uni_length _ _ _ W E). destruct (Nat.ltb_spec (length (g_d2n (w_glob w))) (length u)) as [|_]; [lia|]. cbv zeta. set (u1 := sync_domains w u). set (w1 := set_unis w (upd (w_unis w) v u1)).
  assert (N1 : domain_names u1 = domain_names u) by (rewrite !names_flags; apply flags_sync).
  assert (D1 : domains_of w1 v = domain_names u) by (rewrite (domains_eq w1 v u1); auto; apply At).
  assert (U1 : uinv (w_glob w) u1) by (apply uinv_sync; auto). change (get_id w1 n) with (get_id w n). destruct (get_id w n) as [id|e] eqn:G; cbn [fst]; rewrite ?D1.
  2:{ split; auto. intros [H|[_ [i H]]]; [auto|discriminate]. }
  apply get_id_ok in G. destruct G as (_ & di & Gd & Gi). subst id. destruct (ginv_nget_nth _ _ _ (proj1 W) Gd) as [Gn _]. destruct (nth_error u1 (di_id di)) as [[x|d]|] eqn:Eu; cbn [fst].
  - unfold writing. change (w_poison w1) with (w_poison w). rewrite P. assert (Sp := instantiate_spec (w_glob w) n (proj1 W)). rewrite Gd in Sp. destruct Sp as (d & X & Nd & _).
    change (w_glob w1) with (w_glob w). rewrite X. cbn [fst snd]. set (w2 := set_glob w1 _). match goal with |- context [init_domain w2 ?z n] => set (u2 := z) end.
    rewrite (domains_eq _ _ (fst (init_domain w2 u2 n))) by (cbn; rewrite upd_twice; apply At). rewrite names_flags, (flags_shapes _ _ (init_domain_shapes w2 u2 n)), <- names_flags, names_in, <- N1, names_in. unfold u2. split.
    + intros (d' & I & <-). apply In_nth_error in I. destruct I as [j I]. rewrite nth_error_upd in I. destruct (_ && _); [inv I; right; split; [reflexivity|eauto]|]. left. exists d'. split; auto. eapply nth_error_In; eauto.
    + intros [(d' & I & <-)|[-> _]].
      * apply In_nth_error in I. destruct I as [j I]. exists d'. split; auto. apply nth_error_In with (n := j). rewrite nth_error_upd. destruct (Nat.eqb_spec j (di_id di)) as [->|]; auto. congruence.
      * exists d. split; auto. apply nth_error_In with (n := di_id di). apply upd_some with (1 := Eu).
  - rewrite D1. split; auto. intros [H|[-> _]]; auto. rewrite <- N1, names_in. exists d. split; [eapply nth_error_In; eauto|].
    specialize (U1 _ _ Eu). cbn in U1. destruct U1 as (i & V & _). congruence.
  - exfalso. apply nth_error_None in Eu. unfold u1, sync_domains in Eu. rewrite app_length, map_length, skipn_length in Eu. apply nth_error_Some_lt in Gn.
    rewrite (gv_d2n _ (proj1 W)), map_length in Eu. rewrite (gv_d2n _ (proj1 W)), map_length in Lu. lia.
Qed.
(** ** Other calls *)
Lemma prop_index_unis w v k : w_unis (fst (prop_index w v k)) = w_unis w.
Proof.
  unfold prop_index. destruct (nth_error (w_unis w) v); auto. pose proof (prop_get_unis w k) as H. destruct (prop_get w k) as [w1 [[p i]|e]]; exact H.
Qed.
Lemma step_names w o v : h_reached w -> v < length (w_unis w) -> (forall n, o <> HCall (RAdd v n)) -> domains_of (h_after w o) v = domains_of w v.
Proof.
  intros R L Na. assert (W := reached_inv _ R). destruct (nth_error_lt_Some _ _ L) as [u E]. rewrite (domains_eq _ _ _ E).
  assert (Off : ~ h_on v o -> domains_of (h_after w o) v = domain_names u) by (intro N; apply domains_eq, h_step_unis; auto).
  assert (At : forall u', nth_error (upd (w_unis w) v u') v = Some u') by (intro u'; eapply upd_some; eauto).
  destruct o as [o|n b]; [|apply Off; auto].
  destruct o as [n|k|t|ns|v0 n|v0|v0 k|v0 k x|v0 t|v0 t x|v0 tr]; try (apply Off; cbn; auto; fail);
  (destruct (Nat.eq_dec v0 v) as [->|N]; [|apply Off; exact N]); unfold h_after; cbn [h_step r_step unit_res some_res fst].
  - exfalso. apply (Na n). reflexivity.
  - destruct (w_poison w) eqn:P.
    + unfold add_properties. rewrite E, P. apply domains_eq, E.
    + destruct (add_properties_do w v u W E P) as (u' & -> & F & _). cbn [fst]. rewrite (domains_eq _ _ u') by apply At. rewrite !names_flags, (flags_grown _ _ _ F). reflexivity.
  - apply domains_eq. unfold get_prop. pose proof (prop_index_unis w v k) as H. destruct (prop_index w v k) as [w1 [[[[u1 d] p] i]|e]]; cbn [fst] in *; congruence.
  - unfold set_prop. pose proof (prop_index_unis w v k) as H. destruct (prop_index w v k) as [w1 [[[[u1 d] p] i]|e]] eqn:Q; cbn [fst] in *; [|apply domains_eq; congruence].
    destruct (prop_index_ok _ _ _ _ _ _ _ _ Q) as (A & B & C & D & _). rewrite E in A. inv A. rewrite H. erewrite domains_eq by apply At. rewrite !names_flags. f_equal. eapply flags_upd; eauto.
  - apply domains_eq, E.
  - unfold write_table. rewrite E. destruct (find_table w u (td_domain t) (td_name t)) as [[[id d] ti]|e] eqn:Ft; [|apply domains_eq, E].
    destruct (find_table_ok _ _ _ _ _ _ _ Ft) as (A & B & _). destruct (convert (ti_decl ti) t); [destruct (ti_poison ti); [apply domains_eq, E|]|]; cbn [fst];
    (rewrite (domains_eq _ _ (put_table u id d (td_name t) _)) by apply At); rewrite !names_flags; f_equal; apply flags_shapes; eapply put_table_shapes; eauto.
  - unfold add_tracker. rewrite E. cbn [fst]. rewrite (domains_eq _ _ (fst (register_tracker w u tr))) by apply At. rewrite !names_flags. f_equal. apply flags_shapes, register_tracker_shapes.
Qed.

(** ** The order *)
Lemma somes_sorted (f : name -> nat -> Prop) l : forall k, (forall j n, nth_error l j = Some (Some n) -> f n (k + j)) ->
  StronglySorted (fun m n => exists i j, f m i /\ f n j /\ i < j) (somes l).
Proof.
  induction l as [|[m|] l IH]; intros k H; cbn; [constructor| |].
  - constructor.
    + apply (IH (S k)). intros j n E. replace (S k + j) with (k + S j) by lia. apply (H (S j)), E.
    + rewrite Forall_forall. intros n I. apply somes_in in I. destruct I as [j I]. exists (k + 0), (k + S j). split; [apply (H 0); reflexivity|]. split; [apply (H (S j)), I|lia].
  - apply (IH (S k)). intros j n E. replace (S k + j) with (k + S j) by lia. apply (H (S j)), E.
Qed.
Lemma sorted_nodup {A} (R : A -> A -> Prop) l : (forall x, ~ R x x) -> StronglySorted R l -> NoDup l.
Proof.
  intros I H. induction H as [|a l H IH F]; constructor; auto. rewrite Forall_forall in F. intro K. apply (I a), F, K.
Qed.
Lemma flags_place w v u : winv w -> nth_error (w_unis w) v = Some u -> forall j n, nth_error (flags u) j = Some (Some n) -> exists i, nget (g_doms (w_glob w)) n = Some i /\ di_id i = j.
Proof.
  intros W E j n H. unfold flags in H. rewrite nth_error_map in H. destruct (nth_error u j) as [[x|d]|] eqn:Eu; try discriminate. cbn in H. inv H.
  assert (U := uinv_nth _ _ _ W E _ _ Eu). cbn in U. destruct U as (i & A & _). exists i. split; [eapply nth_nget; eauto; apply gv_nd, W|]. apply (gv_id _ (proj1 W) _ _ _ A).
Qed.
Lemma names_sorted w v : h_reached w -> StronglySorted (fun m n => exists i j, (exists a, nget (g_doms (w_glob w)) m = Some a /\ di_id a = i) /\ (exists a, nget (g_doms (w_glob w)) n = Some a /\ di_id a = j) /\ i < j) (domains_of w v).
Proof.
  intro R. assert (W := reached_inv _ R). unfold domains_of, get_domain_names. destruct (nth_error (w_unis w) v) as [u|] eqn:E; [|constructor]. rewrite names_flags.
  apply somes_sorted with (k := 0). intros j n H. apply (flags_place w v u W E j n H).
Qed.
Lemma names_nodup w v : h_reached w -> NoDup (domains_of w v).
Proof.
  intro R. eapply sorted_nodup; [|apply names_sorted, R]. intros x (i & j & (a & A & Ai) & (b & B & Bi) & L). rewrite A in B. inv B. lia.
Qed.
Lemma names_order w v : h_reached w -> w_poison w = false -> StronglySorted (before w) (domains_of w v).
Proof.
  intros R P. assert (H := names_sorted w v R). induction H as [|m l H IH F]; constructor; auto. rewrite Forall_forall in *. intros n I.
  destruct (F n I) as (i & j & (a & A & Ai) & (b & B & Bi) & L). exists i, j. unfold get_id, reading. rewrite P, A, B, Ai, Bi. auto.
Qed.
(** ** What can be used *)
Lemma usable w v k p : h_reached w -> v < length (w_unis w) -> declared w k p -> known w k ->
  (r_ans w (RGet v k) = panic PUnsetDomain <-> ~ In (pd_domain p) (domains_of w v)).
Proof.
  intros R L D K. assert (W := reached_inv _ R). destruct (nth_error_lt_Some _ _ L) as [u E]. split.
  - intros H I. apply domains_in in I. destruct I as [d I]. destruct (known_place _ _ _ _ _ _ W D K I eq_refl) as (u' & i & di & gid & Eu & St & Dd & Y & A & _).
    rewrite get_ans, Eu in H. unfold prop_get in H. rewrite St in H. cbn [snd bind fst] in H. unfold peek in H. rewrite Y, A in H. destruct (nth_error (dn_cells d) (pi_dix i)) as [c|]; [|discriminate].
    destruct (fst c =? pd_ty p); discriminate.
  - intro N. destruct D as [o D]. destruct K as (p' & i & K). rewrite K in D. inv D. rewrite get_ans, E. unfold prop_get. rewrite K. cbn [snd bind fst]. unfold peek.
    destruct (nth_error u (pi_did i)) as [[x|d]|] eqn:Eu; auto. exfalso. apply N, domains_in. exists d, u. split; auto. split; [eapply nth_error_In; eauto|].
    assert (Sv : sinv (w_glob w) (p, Some i)). { destruct W as (_ & Sv & _). rewrite Forall_forall in Sv. apply Sv. eapply nth_error_In; eauto. }
    destruct Sv as (di & S1 & S2 & _). cbn in *. assert (U := uinv_nth _ _ _ W E _ _ Eu). cbn in U. destruct U as (i2 & A & _).
    destruct (ginv_nget_nth _ _ _ (proj1 W) S1) as [B _]. rewrite S2 in B. congruence.
Qed.
Lemma unusable w v t : h_reached w -> v < length (w_unis w) -> w_poison w = false -> has_table w t -> ~ In (td_domain t) (domains_of w v) -> r_ans w (RRead v t) = panic PUnsetDomain.
Proof.
  intros R L P (di & D & T) N. assert (W := reached_inv _ R). destruct (nth_error_lt_Some _ _ L) as [u E]. unfold r_ans. cbn [r_step some_res snd]. unfold read_table. rewrite E. unfold find_table, get_id, reading.
  rewrite P, D. cbn [bind]. destruct (nth_error u (di_id di)) as [[x|d]|] eqn:Eu; auto. exfalso. apply N, domains_in. exists d, u. split; auto. split; [eapply nth_error_In; eauto|].
  assert (U := uinv_nth _ _ _ W E _ _ Eu). cbn in U. destruct U as (i2 & A & _). destruct (ginv_nget_nth _ _ _ (proj1 W) D) as [B _]. congruence.
Qed.
(** ** The text *)
Lemma F2impl {A B} (P Q : A -> B -> Prop) l m : (forall a b, P a b -> Q a b) -> Forall2 P l m -> Forall2 Q l m.
Proof. intros I F. induction F; constructor; auto. Qed.
Lemma columns_concat cs : concat (map (fun c => nm " " ++ cm_name c ++ nm ":[" ++ cm_type c ++ nm "]") cs) = columns_text cs.
Proof. induction cs as [|c cs IH]; auto. cbn [map concat columns_text]. rewrite IH, <- !app_assoc. reflexivity. Qed.
Lemma table_text_eq t : table_info t = table_text t.
Proof. unfold table_info, table_text. rewrite columns_concat. reflexivity. Qed.
Lemma join_line n ts : n ++ nm ": " ++ join (nm " ") (map table_info ts) ++ [10] = line n ts.
Proof.
  unfold line. f_equal. change (nm ": ") with (nm ":" ++ nm " "). rewrite <- app_assoc. f_equal. rewrite app_assoc. f_equal. destruct ts as [|t ts]; auto.
  revert t. induction ts as [|t' ts IH]; intro t.
  - cbn [map join concat]. rewrite app_nil_r, table_text_eq. reflexivity.
  - change (join (nm " ") (map table_info (t :: t' :: ts))) with (table_info t ++ nm " " ++ join (nm " ") (map table_info (t' :: ts))).
    change (concat (map (fun t => nm " " ++ table_text t) (t :: t' :: ts))) with ((nm " " ++ table_text t) ++ concat (map (fun t => nm " " ++ table_text t) (t' :: ts))).
    rewrite <- IH, table_text_eq, <- !app_assoc. reflexivity.
Qed.
Lemma infos (l : list (name * tinst)) : match map_res (fun p => if ti_poison (snd p) then panic PPoisoned else Ok (table_info (ti_decl (snd p)))) l with
  | Ok r => r = map table_info (map (fun p => ti_decl (snd p)) l) /\ Forall (fun p => ti_poison (snd p) = false) l
  | Err e => e = EPanic PPoisoned /\ exists p, In p l /\ ti_poison (snd p) = true end.
Proof.
  induction l as [|p l IH]; cbn [map_res]; auto. destruct (ti_poison (snd p)) eqn:E; cbn [bind panic]; [split; auto; exists p; cbn; auto|].
  destruct (map_res _ l) as [r|e]; cbn [bind]; [destruct IH as [-> F]; split; auto|]. destruct IH as [-> (q & I & Q)]. split; auto. exists q. cbn. auto.
Qed.
Lemma info_shape order u : (forall d, Permutation (order d) (dn_tabs d)) -> match info_of order u with
  | Ok s => (forall d p, In (Dom d) u -> In p (dn_tabs d) -> ti_poison (snd p) = false) /\
      exists ls, Forall2 (fun n l => exists d ts, In (Dom d) u /\ dn_name d = n /\ Permutation ts (map snd (tables d)) /\ l = line n ts) (domain_names u) ls /\ s = concat ls
  | Err e => e = EPanic PPoisoned /\ exists d p, In (Dom d) u /\ In p (dn_tabs d) /\ ti_poison (snd p) = true end.
Proof.
  intro O. induction u as [|[n|d] u IH]; cbn [info_of domain_names].
  - split; [intros d p []|]. exists []. split; [constructor|reflexivity].
  - destruct (info_of order u) as [s|e].
    + destruct IH as [A (ls & F & ->)]. split; [intros d p [H|H]; [discriminate|eauto]|]. exists ls. split; auto. eapply F2impl; [|exact F]. cbn. intros a b (d & ts & B & C). exists d, ts. auto.
    + destruct IH as [A (d & p & B & C)]. split; auto. exists d, p. cbn. auto.
  - assert (I := infos (order d)). destruct (map_res _ (order d)) as [r|e]; cbn [bind].
    + destruct I as [-> I]. destruct (info_of order u) as [s|e]; cbn [bind].
      * destruct IH as [A (ls & F & ->)]. split.
        { intros d' p [H|H] K; [|eauto]. inv H. rewrite Forall_forall in I. apply I. eapply Permutation_in; [apply Permutation_sym, O|exact K]. }
        exists (line (dn_name d) (map (fun p => ti_decl (snd p)) (order d)) :: ls). split.
        { constructor.
          - exists d, (map (fun p => ti_decl (snd p)) (order d)). split; [cbn; auto|]. split; auto. split; auto. unfold tables. rewrite map_map. cbn. apply Permutation_map, O.
          - eapply F2impl; [|exact F]. cbn. intros a b (d' & ts & B & C). exists d', ts. auto. }
        cbn [concat]. rewrite <- join_line, <- !app_assoc. reflexivity.
      * destruct IH as [A (d' & p & B & C)]. split; auto. exists d', p. cbn. auto.
    + destruct I as [-> (p & A & B)]. split; auto. exists d, p. split; [cbn; auto|]. split; auto. eapply Permutation_in; [apply O|exact A].
Qed.
Lemma info_text order w v : (forall d, Permutation (order d) (dn_tabs d)) -> v < length (w_unis w) -> match info order w v with
  | Ok s => (forall n t, ~ broken w v n t) /\
      exists ls, Forall2 (fun n l => exists d ts, has_domain w v n d /\ Permutation ts (map snd (tables d)) /\ l = line n ts) (domains_of w v) ls /\ s = concat ls
  | Err e => e = EPanic PPoisoned /\ exists n t, broken w v n t end.
Proof.
  intros O L. destruct (nth_error_lt_Some _ _ L) as [u E]. unfold info. rewrite E, (domains_eq _ _ _ E). assert (H := info_shape order u O). destruct (info_of order u) as [s|e].
  - destruct H as [A (ls & F & ->)]. split.
    + intros n t (d & i & (u' & E' & I & _) & K & B). rewrite E in E'. inv E'. specialize (A d (t, i) I K). cbn in A. congruence.
    + exists ls. split; auto. eapply F2impl; [|exact F]. cbn. intros a b (d & ts & B & C & D & G). exists d, ts. split; [exists u; auto|]. auto.
  - destruct H as [A (d & [t i] & B & C & D)]. split; auto. exists (dn_name d), t, d, i. split; [exists u; auto|]. auto.
Qed.
(** ** Swapping the value of a property *)
Lemma swap_is w v k x : fst (swap_prop w v k x) = after w (RSet v k x) /\ r_ans w (RGet v k) = match snd (swap_prop w v k x) with Ok y => Ok (Some y) | Err e => Err e end.
Proof.
  unfold after, r_ans. cbn [r_step unit_res some_res fst snd]. unfold swap_prop, set_prop, get_prop. destruct (prop_index w v k) as [w1 [[[[u d] p] i]|e]] eqn:Q; [|auto].
  destruct (prop_index_ok _ _ _ _ _ _ _ _ Q) as (_ & _ & _ & _ & c & C & T). rewrite C, T. auto.
Qed.
