(** Facts behind C79. *)
From Coq Require Import List Arith Bool Lia.
From Verif Require Import Base BaseFacts Names Table Extract Registry RegistrySpec RegistryFacts RegistryProps RegistryMore Libs LibsSpec.
Import ListNotations.

(** A poisoned registry: what it contains does not matter, and does not change *)
Definition stuck (g : globals) (x : world * res (option nat)) : world * res (option nat) :=
  (W g true (w_stat (fst x)) (w_unis (fst x)), snd x).
Lemma poisoned_any g g' s u o : r_step (W g' true s u) o = stuck g' (r_step (W g true s u) o).
Proof.
  assert (G : forall g n, get_id (W g true s u) n = panic PPoisoned) by reflexivity.
  assert (F : forall g x a b, find_table (W g true s u) x a b = panic PPoisoned) by reflexivity.
  unfold stuck. destruct o; cbn [r_step unit_res some_res fst snd].
  - unfold register_domain, writing. destruct (check_name n); reflexivity.
  - reflexivity.
  - unfold register_table, writing. destruct (new_generic_table t); reflexivity.
  - reflexivity.
  - unfold add_domain. cbn. destruct (nth_error u v); reflexivity.
  - unfold add_properties. cbn. destruct (nth_error u v); reflexivity.
  - unfold get_prop, prop_index, prop_get, sync_alias, writing. cbn [w_unis w_stat w_poison]. destruct (nth_error u v); [|reflexivity]. destruct (nth_error s k) as [[d [i|]]|]; try reflexivity.
    cbn. destruct (nth_error l (pi_did i)) as [[|dd]|]; try reflexivity. destruct (nth_error (dn_cells dd) (pi_dix i)); try reflexivity. destruct (_ =? _); reflexivity.
  - unfold set_prop, prop_index, prop_get, sync_alias, writing. cbn [w_unis w_stat w_poison]. destruct (nth_error u v); [|reflexivity]. destruct (nth_error s k) as [[d [i|]]|]; try reflexivity.
    cbn. destruct (nth_error l (pi_did i)) as [[|dd]|]; try reflexivity. destruct (nth_error (dn_cells dd) (pi_dix i)); try reflexivity. destruct (_ =? _); reflexivity.
  - unfold read_table. cbn. destruct (nth_error u v); reflexivity.
  - unfold write_table. cbn. destruct (nth_error u v); reflexivity.
  - unfold add_tracker, register_tracker. cbn. destruct (nth_error u v) eqn:E; [|reflexivity]. cbn. reflexivity.
Qed.
Lemma poisoned_step (g : globals) s u o : exists s' u' a, forall g', r_step (W g' true s u) o = (W g' true s' u', a).
Proof. exists (w_stat (fst (r_step (W g true s u) o))), (w_unis (fst (r_step (W g true s u) o))), (snd (r_step (W g true s u) o)). intro g'. rewrite (poisoned_any g). reflexivity. Qed.

(** The first calls of a program with libraries, [pre], have led to [l], and to [w] in one without *)
Record together (n : nat) (pre : list lop) (l : lworld) (w : world) : Prop := {
  tg_main : nth_error (l_regs l) 0 = Some (w_glob w, w_poison w) \/ n = 0;
  tg_stat : l_stat l = w_stat w;
  tg_unis : l_unis l = w_unis w;
  tg_mods : forall m, m < n -> exists r b, nth_error (l_mods l) m = Some (r, b) /\ r < n /\
    ((r = 0 \/ b = true) /\ (b = true -> w_poison w = true) \/ b = false /\ r = m /\ ~ In (LSync m 0) pre /\ nth_error (l_regs l) m = Some (GL [] [] [] [], false)) /\
    (m = 0 -> r = 0);
  tg_len : length (l_regs l) = n }.

Lemma upd_same_pair {A} (l : list A) k x : nth_error l k = Some x -> upd l k x = l.
Proof. apply upd_same. Qed.

Lemma together0 n ps : together n [] (l0 n ps) (w0 ps).
Proof.
  split; cbn.
  - destruct n; [auto|left; reflexivity].
  - reflexivity.
  - reflexivity.
  - intros m L. exists m, false. split; [rewrite nth_error_map, (nth_error_nth' _ 0) by (rewrite seq_length; auto); rewrite seq_nth by auto; reflexivity|]. split; auto. split; auto.
    right. split; auto. split; auto. split; auto. apply nth_error_repeat; auto.
  - apply repeat_length.
Qed.

Lemma together_do n pre l w m o : together n pre l w -> m < n -> (m = 0 \/ In (LSync m 0) pre) ->
  l_ans l (LDo m o) = r_ans w o /\ together n (pre ++ [LDo m o]) (fst (l_step l (LDo m o))) (fst (r_step w o)).
Proof.
  intros T L J. assert (Ln := tg_len _ _ _ _ T). destruct (tg_mods _ _ _ _ T m L) as (r & b & M & Lr & D & Z). destruct (tg_main _ _ _ _ T) as [Mn|Mn]; [|lia].
  unfold l_ans, r_ans. cbn [l_step]. unfold l_do. rewrite M. destruct (nth_error_lt_Some (l_regs l) r) as [[g p] R]; [lia|]. rewrite R. rewrite (tg_stat _ _ _ _ T), (tg_unis _ _ _ _ T).
  assert (J' : (r = 0 \/ b = true) /\ (b = true -> w_poison w = true)).
  { destruct D as [D|(D1 & D2 & D3 & D4)]; auto. destruct J as [J|J]; [|contradiction]. subst. split; auto. discriminate. }
  assert (K : forall x, ~ In (LSync x 0) pre -> ~ In (LSync x 0) (pre ++ [LDo m o])).
  { intros x N I. apply in_app_iff in I. destruct I as [I|[I|[]]]; [auto|discriminate]. }
  destruct b.
  - (* poisoned: the module's own lock *)
    destruct J' as [_ P]. specialize (P eq_refl). rewrite orb_true_r.
    destruct (poisoned_step g (w_stat w) (w_unis w) o) as (s' & u' & a & St).
    rewrite St. assert (St2 := St (w_glob w)). destruct w as [gw pw sw uw]. cbn in *. subst pw. rewrite St2. cbn. split; auto.
    rewrite upd_same_pair by auto. split; cbn; auto.
    intros x Lx. destruct (tg_mods _ _ _ _ T x Lx) as (r' & b' & A & B & C & E). exists r', b'. split; auto. split; auto. split; auto.
    destruct C as [C|(C1 & C2 & C3 & C4)]; auto. right. auto.
  - destruct J' as [[->|J'] _]; [|discriminate]. rewrite Mn in R. injection R as <- <-. rewrite orb_false_r.
    destruct w as [gw pw sw uw]. cbn in *. destruct (r_step (W gw pw sw uw) o) as [w' a] eqn:St. cbn. split; auto. split; cbn; auto.
    + left. destruct (l_regs l); [discriminate|]. reflexivity.
    + intros x Lx. destruct (tg_mods _ _ _ _ T x Lx) as (r' & b' & A & B & C & E). exists r', b'. split; auto. split; auto. split; auto.
      destruct C as [[C1 C2]|(C1 & C2 & C3 & C4)].
      * left. split; auto. intro Hb. specialize (C2 Hb). cbn in C2. subst pw. assert (X := poison_forever [o] (W gw true sw uw) eq_refl). cbn in X. rewrite St in X. exact X.
      * destruct (Nat.eq_dec x 0) as [->|Nx].
        { left. split; auto. intro. congruence. }
        right. split; auto. split; auto. split; auto. rewrite nth_error_upd_ne by auto. exact C4.
    + rewrite upd_length. exact Ln.
Qed.
Lemma together_clone n pre l w m : together n pre l w -> together n (pre ++ [LClone m]) (fst (l_step l (LClone m))) w.
Proof.
  intros [A B C D E]. cbn. split; auto. intros x Lx. destruct (D x Lx) as (r' & b' & A' & B' & C' & E'). exists r', b'. split; auto. split; auto. split; auto.
  destruct C' as [C'|(C1 & C2 & C3 & C4)]; auto. right. split; auto. split; auto. split; auto. intro I. apply in_app_iff in I. destruct I as [I|[I|[]]]; [auto|discriminate].
Qed.
Lemma together_sync n pre l w m : together n pre l w -> m < n ->
  together n (pre ++ [LSync m 0]) (fst (l_step l (LSync m 0))) w /\ (l_ans l (LSync m 0) = Ok None \/ w_poison w = true).
Proof.
  intros T L. assert (Ln := tg_len _ _ _ _ T). destruct (tg_mods _ _ _ _ T m L) as (r & b & M & Lr & D & Z). destruct (tg_main _ _ _ _ T) as [Mn|Mn]; [|lia].
  assert (K : forall x y, x <> m -> ~ In (LSync x y) pre -> ~ In (LSync x y) (pre ++ [LSync m 0])).
  { intros x y Nx N I. apply in_app_iff in I. destruct I as [I|[I|[]]]; [auto|congruence]. }
  assert (G : forall r' b', r' < n -> (r' = 0 \/ b' = true) -> (b' = true -> w_poison w = true) -> (m = 0 -> r' = 0) ->
    together n (pre ++ [LSync m 0]) (LW (l_regs l) (upd (l_mods l) m (r', b')) (l_stat l) (l_unis l)) w).
  { intros r' b' H1 H2 H3 H4. destruct T as [T1 T2 T3 T4 T5]. split; cbn; auto. intros x Lx. destruct (Nat.eq_dec x m) as [->|Nx].
    - exists r', b'. split; [eapply upd_some; eauto|]. auto.
    - rewrite nth_error_upd_ne by auto. destruct (T4 x Lx) as (r2 & b2 & A & B & C & E). exists r2, b2. split; auto. split; auto. split; auto. destruct C as [C|(C1 & C2 & C3 & C4)]; auto. right. auto. }
  assert (S : upd (l_mods l) m (r, b) = l_mods l) by (apply upd_same; auto).
  assert (El : l = LW (l_regs l) (l_mods l) (l_stat l) (l_unis l)) by (destruct l; reflexivity).
  unfold l_ans. cbn [l_step fst snd]. unfold sync_globals. rewrite M. destruct b.
  - assert (P : w_poison w = true) by (destruct D as [[_ D]|[D _]]; [auto|discriminate]). cbn. split; auto. rewrite El, <- S. apply G; auto.
  - destruct (nth_error_lt_Some (l_regs l) r) as [[g p] R]; [lia|]. rewrite R, Mn.
    destruct p.
    + assert (P : w_poison w = true).
      { destruct D as [[[->|D] _]|(_ & -> & _ & D)]; [|discriminate|]; rewrite R in *; [congruence|discriminate]. }
      cbn. split; auto.
    + destruct (w_poison w) eqn:P; [cbn; split; auto|]. destruct (Nat.eqb_spec r 0) as [->|Nr].
      * cbn. split; auto. rewrite El, <- S. apply G; auto; discriminate.
      * destruct D as [[[D|D] _]|(_ & -> & _ & D)]; [contradiction|discriminate|]. rewrite R in D. injection D as ->. cbn. split; auto. apply G; auto; try lia.
Qed.

Lemma proper_cons n pre o os : proper n (pre ++ o :: os) -> caller o < n /\ match o with LSync _ h => h = 0 | LDo m _ => m = 0 \/ In (LSync m 0) pre | LClone _ => True end.
Proof.
  intro P. specialize (P (length pre) o). rewrite nth_error_app2, Nat.sub_diag in P by auto. destruct (P eq_refl) as [A B]. split; auto. destruct o as [m o|m|m h]; auto.
  destruct B as [B|(j & Lj & B)]; auto. right. rewrite nth_error_app1 in B by auto. eapply nth_error_In; eauto.
Qed.
Lemma together_run n os : forall pre l w, together n pre l w -> proper n (pre ++ os) ->
  l_answers l os = r_answers w (erase os) /\ together n (pre ++ os) (l_run l os) (r_run w (erase os)).
Proof.
  induction os as [|o os IH]; intros pre l w T P.
  - rewrite app_nil_r. auto.
  - assert (E : pre ++ o :: os = (pre ++ [o]) ++ os) by (rewrite <- app_assoc; reflexivity).
    destruct (proper_cons _ _ _ _ P) as [Lc C]. rewrite E in P |- *. destruct o as [m o|m|m h]; cbn [caller] in Lc; cbn [l_answers erase r_answers].
    + destruct (together_do _ _ _ _ _ o T Lc C) as [A T']. destruct (IH _ _ _ T' P) as [B T'']. split; [rewrite A, B; reflexivity|exact T''].
    + apply IH; auto. apply together_clone; auto.
    + subst h. apply IH; auto. apply together_sync; auto.
Qed.
Lemma as_one n ps os : proper n os -> l_answers (l0 n ps) os = r_answers (w0 ps) (erase os) /\ l_unis (l_run (l0 n ps) os) = w_unis (r_run (w0 ps) (erase os)).
Proof. intro P. destruct (together_run n os [] _ _ (together0 n ps) P) as [A B]. split; auto. apply (tg_unis _ _ _ _ B). Qed.
Lemma syncs n ps os m : proper n (os ++ [LSync m 0]) -> l_ans (l_run (l0 n ps) os) (LSync m 0) = Ok None \/ w_poison (r_run (w0 ps) (erase os)) = true.
Proof.
  intro P. destruct (proper_cons _ _ _ _ P) as [L _]. cbn in L.
  assert (P' : proper n os).
  { intros i o H. assert (X := P i o). rewrite nth_error_app1 in X by (apply nth_error_Some; congruence). destruct (X H) as [A B]. split; auto. destruct o; auto. destruct B as [B|(j & Lj & B)]; auto.
    right. exists j. split; auto. rewrite nth_error_app1 in B; auto. apply nth_error_Some_lt in H. lia. }
  destruct (together_run n os [] _ _ (together0 n ps) P') as [_ T]. apply (together_sync _ _ _ _ m T L).
Qed.

(** ** Any calls *)
Lemma l_run_app os os' : forall l, l_run l (os ++ os') = l_run (l_run l os) os'.
Proof. intro l. unfold l_run. apply fold_left_app. Qed.
(** What never changes: a module that does not sync, and a poisoned [V11_GLOBALS] *)
Lemma mods_step l o m r b : nth_error (l_mods l) m = Some (r, b) -> (forall h, o <> LSync m h) \/ b = true -> nth_error (l_mods (fst (l_step l o))) m = Some (r, b).
Proof.
  intros M H. destruct o as [x o|x|x h]; cbn [l_step fst]; auto.
  - unfold l_do. destruct (nth_error (l_mods l) x) as [[r' b']|]; auto. destruct (nth_error (l_regs l) r') as [[g p]|]; auto. destruct (r_step _ _); auto.
  - destruct (Nat.eq_dec x m) as [->|N].
    + destruct H as [H| ->]; [specialize (H h); congruence|]. unfold sync_globals. rewrite M. auto.
    + unfold sync_globals. destruct (nth_error (l_mods l) x) as [[r' b']|]; auto. destruct b'; auto. destruct (nth_error (l_regs l) r') as [[g p]|]; auto. destruct (nth_error (l_regs l) h) as [[g' p']|]; auto.
      destruct p; [|destruct p'; [|destruct (_ =? _); [|destruct (negb _)]]]; cbn; auto; rewrite nth_error_upd_ne; auto.
Qed.
Lemma mods_run os : forall l m r b, nth_error (l_mods l) m = Some (r, b) -> (forall h, ~ In (LSync m h) os) \/ b = true -> nth_error (l_mods (l_run l os)) m = Some (r, b).
Proof.
  induction os as [|o os IH]; intros l m r b M H; auto. cbn. apply IH.
  - apply mods_step; auto. destruct H as [H|H]; auto. left. intros h ->. apply (H h). left. reflexivity.
  - destruct H as [H|H]; auto. left. intros h I. apply (H h). right. exact I.
Qed.
Lemma regs_step l o : length (l_regs (fst (l_step l o))) = length (l_regs l).
Proof.
  destruct o as [x o|x|x h]; cbn [l_step fst]; auto.
  - unfold l_do. destruct (nth_error (l_mods l) x) as [[r' b']|]; auto. destruct (nth_error (l_regs l) r') as [[g p]|]; auto. destruct (r_step _ _); auto. cbn. apply upd_length.
  - unfold sync_globals. destruct (nth_error (l_mods l) x) as [[r' b']|]; auto. destruct b'; auto. destruct (nth_error (l_regs l) r') as [[g p]|]; auto. destruct (nth_error (l_regs l) h) as [[g' p']|]; auto.
    destruct p; [|destruct p'; [|destruct (_ =? _); [|destruct (negb _)]]]; reflexivity.
Qed.
Lemma regs_run os : forall l, length (l_regs (l_run l os)) = length (l_regs l).
Proof. induction os as [|o os IH]; intro l; auto. change (l_run l (o :: os)) with (l_run (fst (l_step l o)) os). rewrite IH. apply regs_step. Qed.
(** A registry with a domain keeps it *)
Lemma nset_length {A} (m : list (name * A)) k v : length (nset m k v) = length m.
Proof. induction m as [|[x y] m IH]; cbn; auto. destruct (name_eqb x k); cbn; auto. Qed.
Lemma writing_some {A} w (f : world -> world * res A) (Q : globals -> Prop) : Q (w_glob w) -> Q (w_glob (fst (f w))) -> Q (w_glob (fst (writing w f))).
Proof. intros H1 H2. destruct (writing_fst w f) as [->|[->| ->]]; auto. Qed.
Lemma doms_step w o : length (g_doms (w_glob w)) <= length (g_doms (w_glob (fst (r_step w o)))).
Proof.
  set (Q := fun g => length (g_doms (w_glob w)) <= length (g_doms g)). change (Q (w_glob (fst (r_step w o)))). assert (Q0 : Q (w_glob w)) by (unfold Q; auto).
  assert (In1 : forall g n, length (g_doms (fst (instantiate g n))) = length (g_doms g)).
  { intros g n. unfold instantiate. destruct (nget (g_doms g) n); auto. cbn. apply nset_length. }
  destruct o as [m|k|t|ns|v m|v|v k|v k x|v t|v t x|v tr]; cbn [r_step unit_res some_res fst].
  - unfold register_domain. destruct (check_name m); auto. apply writing_some; auto. destruct (nget _ _); auto. unfold Q. cbn. unfold nadd. rewrite app_length. lia.
  - unfold prop_init. apply writing_some; auto. destruct (nth_error (w_stat w) k) as [[d [x|]]|]; auto. destruct (prop_check_name d); auto.
    destruct (nget (g_doms (w_glob w)) (pd_domain d)) as [i|]; auto. destruct (di_locked i); auto.
    destruct (match nget (g_n2g (w_glob w)) (pd_name d) with Some x => (x, false) | None => (length (g_prod (w_glob w)), true) end) as [gid first].
    destruct (match nget (di_n2d i) (pd_name d) with Some x => (x, false) | None => (length (di_props i), true) end) as [dix new]. unfold Q. cbn. rewrite nset_length. auto.
  - unfold register_table. destruct (new_generic_table t); auto. apply writing_some; auto.
    destruct (nget (g_doms (w_glob w)) (td_domain t)) as [i|]; auto. destruct (di_locked i); auto. destruct (nget (di_tabs i) (td_name t)) as [t'|]; auto.
    + destruct (equivalent t t'); auto.
    + unfold Q. cbn. rewrite nset_length. auto.
  - unfold new_universe. assert (X : Q (w_glob (fst (get_domains w ns)))).
    { unfold get_domains. apply writing_some; auto. cbn. assert (L : forall ns g u, length (g_doms (fst (get_domains_loop g u ns))) = length (g_doms g)).
      { clear - In1. induction ns as [|n ns IH]; intros g u; auto. cbn [get_domains_loop]. assert (X := In1 g n). destruct (instantiate g n) as [g1 [d|e]]; auto. destruct (_ <? _); auto. rewrite IH. exact X. }
      unfold Q. rewrite L. auto. }
    destruct (get_domains w ns) as [w1 [u|e]]; auto. destruct (init_domains w1 u ns) as [u1 [|]]; auto.
  - unfold add_domain. destruct (nth_error (w_unis w) v) as [u0|]; auto. destruct (w_poison w); auto. destruct (_ <? _); auto. cbv zeta. destruct (get_id _ _); auto.
    destruct (nth_error (sync_domains w u0) a) as [[?|?]|]; auto.
    match goal with |- context [writing ?w1 ?f] => assert (X : Q (w_glob (fst (writing w1 f)))) by (apply writing_some; [exact Q0|unfold Q; cbn; rewrite In1; auto]); destruct (writing w1 f) as [w2 [d|e]] end; auto.
  - unfold add_properties. destruct (nth_error (w_unis w) v); auto. destruct (w_poison w); auto.
  - rewrite get_prop_glob. auto.
  - rewrite set_prop_glob. auto.
  - auto.
  - destruct (write_table_rest w v t x) as (_ & _ & -> & _). auto.
  - destruct (add_tracker_rest w v tr) as (_ & _ & -> & _). auto.
Qed.
Definition filled (l : lworld) (r : nat) : Prop := exists g p, nth_error (l_regs l) r = Some (g, p) /\ g_doms g <> [].
Lemma filled_step l o r : filled l r -> filled (fst (l_step l o)) r.
Proof.
  intros (g & p & E & N). destruct o as [x o|x|x h]; cbn [l_step fst].
  - unfold l_do. destruct (nth_error (l_mods l) x) as [[r' b']|]; [|exists g, p; auto]. destruct (nth_error (l_regs l) r') as [[g' p']|] eqn:E'; [|exists g, p; auto].
    assert (D := doms_step (W g' (p' || b') (l_stat l) (l_unis l)) o). destruct (r_step _ _) as [w a]. cbn in D |- *. destruct (Nat.eq_dec r' r) as [->|Nr].
    + exists (w_glob w), (if b' then p' else w_poison w). cbn. split; [eapply upd_some; eauto|]. rewrite E in E'. injection E' as <- <-. destruct (g_doms g); [congruence|]. destruct (g_doms (w_glob w)); cbn in D; [lia|discriminate].
    + exists g, p. cbn. rewrite nth_error_upd_ne by auto. auto.
  - exists g, p. auto.
  - unfold sync_globals. destruct (nth_error (l_mods l) x) as [[r' b']|]; [|exists g, p; auto]. destruct b'; [exists g, p; auto|]. destruct (nth_error (l_regs l) r') as [[g' p']|]; [|exists g, p; auto]. destruct (nth_error (l_regs l) h) as [[g2 p2]|]; [|exists g, p; auto].
    destruct p'; [|destruct p2; [|destruct (_ =? _); [|destruct (negb _)]]]; exists g, p; auto.
Qed.
Lemma filled_run os : forall l r, filled l r -> filled (l_run l os) r.
Proof. induction os as [|o os IH]; intros l r F; auto. cbn. apply IH, filled_step, F. Qed.

(** ** Too late *)
Lemma mods0 n ps m : m < n -> nth_error (l_mods (l0 n ps)) m = Some (m, false).
Proof. intro L. cbn. rewrite nth_error_map, (nth_error_nth' _ 0) by (rewrite seq_length; auto). rewrite seq_nth by auto. reflexivity. Qed.
Lemma too_late n ps a d b m h : m < n -> h < n -> h <> m -> (forall h', ~ In (LSync m h') (a ++ LDo m (RDomain d) :: b)) ->
  l_ans (l_run (l0 n ps) a) (LDo m (RDomain d)) = Ok None ->
  let l := l_run (l0 n ps) (a ++ LDo m (RDomain d) :: b) in
  (exists e, l_ans l (LSync m h) = Err e) /\ nth_error (l_mods (fst (l_step l (LSync m h)))) m = Some (m, true).
Proof.
  intros Lm Lh Nh S A l.
  assert (M : nth_error (l_mods l) m = Some (m, false)) by (apply mods_run; [apply mods0; auto|auto]).
  assert (F : filled l m).
  { unfold l. rewrite l_run_app. cbn [l_run fold_left]. apply filled_run. set (l1 := l_run (l0 n ps) a) in *.
    assert (M1 : nth_error (l_mods l1) m = Some (m, false)). { apply mods_run; [apply mods0; auto|]. left. intros h' I. apply (S h'). apply in_app_iff. auto. }
    unfold l_ans in A. cbn [l_step] in *. unfold l_do in *. rewrite M1 in *. destruct (nth_error (l_regs l1) m) as [[g p]|] eqn:R; [|discriminate]. rewrite orb_false_r in *.
    cbn [r_step] in *. unfold unit_res, register_domain, writing in *. destruct (check_name d); [|discriminate]. cbn [w_poison] in *. destruct p; [discriminate|]. cbn [w_glob] in *.
    destruct (nget (g_doms g) d) eqn:D; cbn in *; eexists _, _; (split; [eapply upd_some; eauto|]).
    - intro Z. rewrite Z in D. discriminate.
    - cbn. unfold nadd. destruct (g_doms g); discriminate. }
  destruct F as (g & p & R & N).
  assert (L : length (l_regs l) = n) by (unfold l; rewrite regs_run; cbn; apply repeat_length).
  destruct (nth_error_lt_Some (l_regs l) h) as [[g' p'] H]; [lia|].
  unfold l_ans. cbn [l_step fst snd]. unfold sync_globals. rewrite M, R, H.
  assert (G : globals_empty g = false) by (unfold globals_empty; destruct (g_doms g); [congruence|reflexivity]). rewrite G.
  destruct (Nat.eqb_spec m h); [congruence|]. destruct p; [|destruct p']; cbn; (split; [eauto|eapply upd_some; eauto]).
Qed.
(** A module of which [V11_GLOBALS] is poisoned *)
Lemma dead l m r o : nth_error (l_mods l) m = Some (r, true) -> r < length (l_regs l) -> (match o with RGet _ _ | RSet _ _ _ => False | _ => True end) ->
  (exists e, l_ans l (LDo m o) = Err e) /\ fst (l_step l (LDo m o)) = l.
Proof.
  intros M L K. unfold l_ans. cbn [l_step]. unfold l_do. rewrite M. destruct (nth_error_lt_Some _ _ L) as [[g p] R]. rewrite R, orb_true_r.
  destruct (poison_stuck (W g true (l_stat l) (l_unis l)) o eq_refl K) as [A [e B]]. unfold after, r_ans in *. destruct (r_step _ o) as [w a]. cbn in *. subst w a. cbn. split; [eauto|].
  rewrite upd_same by auto. destruct l; reflexivity.
Qed.
Lemma late n ps a d b m h : m < n -> h < n -> h <> m -> (forall h', ~ In (LSync m h') (a ++ LDo m (RDomain d) :: b)) ->
  l_ans (l_run (l0 n ps) a) (LDo m (RDomain d)) = Ok None ->
  let l := l_run (l0 n ps) (a ++ LDo m (RDomain d) :: b) in
  (exists e, l_ans l (LSync m h) = Err e) /\
  forall os o, (match o with RGet _ _ | RSet _ _ _ => False | _ => True end) ->
  let l' := l_run (fst (l_step l (LSync m h))) os in
  (exists e, l_ans l' (LDo m o) = Err e) /\ fst (l_step l' (LDo m o)) = l'.
Proof.
  intros Lm Lh Nh S A l. destruct (too_late n ps a d b m h Lm Lh Nh S A) as [E M]. fold l in E, M. split; auto. intros os o K l'. apply (dead l' m m); auto.
  - apply mods_run; auto.
  - unfold l'. rewrite regs_run, regs_step. unfold l. rewrite regs_run. cbn. rewrite repeat_length. auto.
Qed.

(** ** Other modules do not notice *)
Definition but (m : nat) (l l' : lworld) : Prop :=
  l_regs l' = l_regs l /\ l_stat l' = l_stat l /\ l_unis l' = l_unis l /\ forall x, x <> m -> nth_error (l_mods l') x = nth_error (l_mods l) x.
Lemma but_step m l l' o : but m l l' -> caller o <> m -> l_ans l' o = l_ans l o /\ but m (fst (l_step l o)) (fst (l_step l' o)).
Proof.
  intros B N. destruct B as (R & S & U & M). destruct o as [x o|x|x h]; cbn [caller] in N; unfold l_ans; cbn [l_step fst snd].
  - unfold l_do. rewrite M by auto. destruct (nth_error (l_mods l) x) as [[r b]|]; [|repeat (split; auto)]. rewrite R. destruct (nth_error (l_regs l) r) as [[g p]|]; [|repeat (split; auto)].
    rewrite S, U. destruct (r_step _ o) as [w a]. cbn. repeat (split; auto).
  - unfold clone_globals. rewrite M by auto. repeat (split; auto).
  - unfold sync_globals. rewrite M by auto. destruct (nth_error (l_mods l) x) as [[r b]|] eqn:E; [|repeat (split; auto)]. destruct b; [repeat (split; auto)|]. rewrite R.
    assert (X : forall r' b', but m (LW (l_regs l) (upd (l_mods l) x (r', b')) (l_stat l) (l_unis l)) (LW (l_regs l) (upd (l_mods l') x (r', b')) (l_stat l') (l_unis l'))).
    { intros r' b'. split; auto. split; auto. split; auto. cbn. intros y Ny. destruct (Nat.eq_dec y x) as [->|]; [|rewrite !nth_error_upd_ne by auto; auto].
      rewrite (upd_some _ _ _ _ E). rewrite <- M in E by auto. apply (upd_some _ _ _ _ E). }
    destruct (nth_error (l_regs l) r) as [[g p]|]; [|repeat (split; auto)]. destruct (nth_error (l_regs l) h) as [[g' p']|]; [|repeat (split; auto)].
    destruct p; [|destruct p'; [|destruct (_ =? _); [|destruct (negb _)]]]; cbn [fst snd]; (split; [auto|]); auto. repeat (split; auto).
Qed.
Lemma but_all m os : forall l l', but m l l' -> (forall o, In o os -> caller o <> m) -> l_all l' os = l_all l os.
Proof.
  induction os as [|o os IH]; intros l l' B N; auto. cbn. destruct (but_step m l l' o B) as [A B']; [apply N; left; auto|]. rewrite A. f_equal. apply IH; auto. intros o' I. apply N. right. auto.
Qed.
Lemma sync_but l m h : but m l (fst (l_step l (LSync m h))).
Proof.
  cbn. unfold sync_globals. destruct (nth_error (l_mods l) m) as [[r b]|]; [|repeat (split; auto)]. destruct b; [repeat (split; auto)|].
  destruct (nth_error (l_regs l) r) as [[g p]|]; [|repeat (split; auto)]. destruct (nth_error (l_regs l) h) as [[g' p']|]; [|repeat (split; auto)].
  destruct p; [|destruct p'; [|destruct (_ =? _); [|destruct (negb _)]]]; cbn [fst]; (split; [auto|split; [auto|split; [auto|]]]); intros x Nx; cbn; rewrite ?nth_error_upd_ne by auto; auto.
Qed.
Lemma unnoticed l m h os : (forall o, In o os -> caller o <> m) -> l_all (fst (l_step l (LSync m h))) os = l_all l os.
Proof. intro N. apply (but_all m); auto. apply sync_but. Qed.
