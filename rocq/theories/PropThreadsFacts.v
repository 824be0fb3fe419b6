(** Proofs about threads that register and look up properties (for C104). *)
From Coq Require Import List Arith Bool Lia.
From Verif Require Import Base BaseFacts Names Table Extract Registry RegistryFacts PropThreads PropThreadsSpec.
Import ListNotations.

(** ** What the calls do to the statics *)
Definition unset (w : world) (k : nat) : Prop := exists d, nth_error (w_stat w) k = Some (d, None).
Lemma init_cases w k w' r : prop_init w k = (w', r) ->
  match r with
  | Ok _ => w_poison w = false /\ w_poison w' = false /\
            ((has_index w k /\ w' = w) \/ (exists d i, nth_error (w_stat w) k = Some (d, None) /\ w_stat w' = upd (w_stat w) k (d, Some i)))
  | Err _ => w_stat w' = w_stat w /\ (w_poison w = false -> ~ has_index w k)
  end.
Proof.
  unfold prop_init, writing. destruct (w_poison w) eqn:P; [intros E; injection E as <- <-; split; [reflexivity|discriminate]|].
  destruct (nth_error (w_stat w) k) as [[d [i|]]|] eqn:S.
  - intros E. injection E as <- <-. split; [reflexivity|]. split; [exact P|]. left. split; [exists d, i; exact S|reflexivity].
  - assert (~ has_index w k) as N by (intros (d' & i & H); congruence).
    destruct (prop_check_name d); [|intros E; injection E as <- <-; auto].
    destruct (nget (g_doms (w_glob w)) (pd_domain d)) as [i|]; [|intros E; injection E as <- <-; auto].
    destruct (di_locked i); [intros E; injection E as <- <-; auto|].
    destruct (match nget (g_n2g (w_glob w)) (pd_name d) with Some x => (x, false) | None => _ end) as [gid first].
    destruct (match nget (di_n2d i) (pd_name d) with Some x => (x, false) | None => _ end) as [dix new].
    intros E. injection E as <- <-. split; [reflexivity|]. split; [exact P|]. right. exists d, (PI (di_id i) dix gid). auto.
  - intros E. injection E as <- <-. split; [reflexivity|]. intros _ (d & i & H). congruence.
Qed.
Lemma alias_cases w k d w' r : sync_alias w k d = (w', r) ->
  match r with
  | Ok i => w_poison w = false /\ w_poison w' = false /\ w_stat w' = upd (w_stat w) k (d, Some i) /\ w_glob w' = w_glob w
  | Err _ => w_stat w' = w_stat w
  end.
Proof.
  unfold sync_alias, writing. destruct (w_poison w) eqn:P; [intros E; injection E as <- <-; reflexivity|].
  destruct (nget (g_doms (w_glob w)) (pd_domain d)) as [i|]; [|intros E; injection E as <- <-; reflexivity].
  destruct (nget (g_n2g (w_glob w)) (pd_name d)) as [gid|]; [|intros E; injection E as <- <-; reflexivity].
  destruct (nget (di_n2d i) (pd_name d)) as [dix|]; intros E; injection E as <- <-; cbn; auto.
Qed.

(** ** The invariant *)
Definition holds (pc : ppc) : bool := match pc with RegRead _ | RegWrite _ | UseWrite _ => true | _ => false end.
Definition pc_on (k : nat) (pc : ppc) : bool :=
  match pc with
  | RegWait j | RegRead j | RegWrite j | UseRead j | UseWait j | UseWrite j | UseAgain j => j =? k
  | AtRest | Dead => false
  end.
Definition touches (k : nat) (th : pthread) : bool := pc_on k (pt_pc th) || existsb (call_on k) (pt_rest th).
Definition uses_first (k : nat) (th : pthread) : bool :=
  match pt_pc th with
  | RegWait j | RegRead j | RegWrite j => if j =? k then false else looks_first k (pt_rest th)
  | UseRead j | UseWait j | UseWrite j | UseAgain j => if j =? k then true else looks_first k (pt_rest th)
  | AtRest => looks_first k (pt_rest th)
  | Dead => false
  end.
Definition pc_fine (w : world) (pc : ppc) : Prop :=
  match pc with
  | RegRead k => w_poison w = false
  | RegWrite k => unset w k /\ exists u, snd (prop_init w k) = Ok u
  | UseWait k => unset w k
  | UseWrite k => exists d, nth_error (w_stat w) k = Some (d, None) /\ exists i, snd (sync_alias w k d) = Ok i
  | UseAgain k => has_index w k
  | AtRest | RegWait _ | UseRead _ | Dead => True
  end.
Record inv (s : pworld) : Prop := INV {
  i_who : forall t, pw_lock s = Some t -> nth_error (pw_thr s) t <> None;
  i_lock : forall t th, nth_error (pw_thr s) t = Some th -> (holds (pt_pc th) = true <-> pw_lock s = Some t);
  i_pc : forall t th, nth_error (pw_thr s) t = Some th -> pc_fine (pw_reg s) (pt_pc th);
  i_share : forall k, has_index (pw_reg s) k \/
    (forall t t' th th', nth_error (pw_thr s) t = Some th -> nth_error (pw_thr s) t' = Some th' -> touches k th = true -> touches k th' = true -> t = t') \/
    (forall t th, nth_error (pw_thr s) t = Some th -> uses_first k th = true -> has_index (pw_reg s) k) }.
(** How a step changes the registry. *)
Definition changed (s : pworld) (t : nat) (th : pthread) (w' : world) : Prop :=
  w' = pw_reg s \/
  (w_stat w' = w_stat (pw_reg s) /\ forall t', t' <> t -> pw_lock s <> Some t') \/
  (exists k d i, w_stat w' = upd (w_stat (pw_reg s)) k (d, Some i) /\ nth_error (w_stat (pw_reg s)) k = Some (d, None) /\ pw_lock s = Some t /\ pc_on k (pt_pc th) = true).
Lemma changed_index s t th w' k : changed s t th w' -> has_index (pw_reg s) k -> has_index w' k.
Proof.
  intros [->|[[E _]|(j & d & i & E & U & _)]] H; [exact H|unfold has_index in *; rewrite E; exact H|].
  destruct H as (d' & i' & H). unfold has_index. rewrite E. exists d', i'. rewrite nth_error_upd_ne; [exact H|]. intros ->. congruence.
Qed.
Lemma looks_touches k p : looks_first k p = true -> existsb (call_on k) p = true.
Proof. induction p as [|[j|j] p IH]; cbn; [discriminate| |]; destruct (j =? k); auto. Qed.
Lemma first_touches k th : uses_first k th = true -> touches k th = true.
Proof.
  unfold uses_first, touches. destruct (pt_pc th) as [|j|j|j|j|j|j|j|]; cbn; try discriminate; try (destruct (j =? k); cbn; [auto|apply looks_touches]).
  apply looks_touches.
Qed.
Lemma no_index w k : unset w k -> ~ has_index w k.
Proof. intros (d & U) (d' & i & H). congruence. Qed.
Lemma inv_upd s t th th' w' lock' : inv s -> nth_error (pw_thr s) t = Some th ->
  (holds (pt_pc th') = true <-> lock' = Some t) -> (forall t', t' <> t -> (lock' = Some t' <-> pw_lock s = Some t')) ->
  pc_fine w' (pt_pc th') -> changed s t th w' ->
  (forall k, touches k th' = true -> touches k th = true) ->
  (forall k, uses_first k th' = true -> uses_first k th = true \/ has_index w' k) ->
  inv (PW w' lock' (upd (pw_thr s) t th')).
Proof.
  intros [IH IL IP IS] T L L' F C TO UF.
  assert (forall t' x, nth_error (upd (pw_thr s) t th') t' = Some x -> (t' = t /\ x = th') \/ (t' <> t /\ nth_error (pw_thr s) t' = Some x)) as N.
  { intros t' x H. destruct (Nat.eq_dec t' t) as [->|D]; [rewrite nth_error_upd_eq in H by (eapply nth_error_Some_lt, T); left; split; congruence|].
    rewrite nth_error_upd_ne in H by congruence. auto. }
  split; cbn [pw_reg pw_lock pw_thr].
  - intros t' H. destruct (Nat.eq_dec t' t) as [->|D]; [rewrite nth_error_upd_eq by (eapply nth_error_Some_lt, T); discriminate|].
    rewrite nth_error_upd_ne by congruence. apply IH, (L' _ D), H.
  - intros t' x H. destruct (N _ _ H) as [[-> ->]|[D H']]; [exact L|]. rewrite L' by exact D. apply IL, H'.
  - intros t' x H. destruct (N _ _ H) as [[-> ->]|[D H']]; [exact F|]. pose proof (IP _ _ H') as P. pose proof (IL _ _ H') as HL.
    destruct C as [->|[[E O]|(k & d & i & E & U & O & K)]]; [exact P| |].
    + destruct (pt_pc x); cbn [pc_fine holds] in *; unfold unset, has_index in *; rewrite ?E; auto;
        exfalso; apply (O _ D), HL; reflexivity.
    + assert (forall j, unset (pw_reg s) j -> j <> k -> unset w' j) as UU.
      { intros j (d' & V) Z. exists d'. rewrite E, nth_error_upd_ne by congruence. exact V. }
      destruct (pt_pc x) as [|j|j|j|j|j|j|j|] eqn:Q; cbn [pc_fine holds] in *; auto; try (exfalso; apply D; enough (pw_lock s = Some t') by congruence; apply HL; reflexivity).
      * apply UU; [exact P|]. intros ->. destruct (IS k) as [X|[X|X]].
        -- exact (no_index _ _ P X).
        -- apply D. apply (X t' t x th H' T); [unfold touches; rewrite Q; cbn; rewrite Nat.eqb_refl; reflexivity|unfold touches; rewrite K; reflexivity].
        -- apply (no_index _ _ P), (X _ _ H'). unfold uses_first. rewrite Q, Nat.eqb_refl. reflexivity.
      * eapply changed_index; [|exact P]. right. right. exists k, d, i. split; [exact E|]. split; [exact U|]. split; [exact O|exact K].
  - intros k. destruct (IS k) as [X|[X|X]].
    + left. eapply changed_index; eassumption.
    + right. left. intros t1 t2 x1 x2 H1 H2 T1 T2.
      assert (forall t' x, nth_error (upd (pw_thr s) t th') t' = Some x -> touches k x = true -> exists y, nth_error (pw_thr s) t' = Some y /\ touches k y = true) as A.
      { intros t' x H TT. destruct (N _ _ H) as [[-> ->]|[D H']]; eauto. }
      destruct (A _ _ H1 T1) as (y1 & Y1 & Z1). destruct (A _ _ H2 T2) as (y2 & Y2 & Z2). eapply X; eassumption.
    + right. right. intros t' x H TT. destruct (N _ _ H) as [[-> ->]|[D H']].
      * destruct (UF k TT) as [V|V]; [|exact V]. eapply changed_index; [exact C|]. eapply X; eassumption.
      * eapply changed_index; [exact C|]. eapply X; eassumption.
Qed.

(** ** Calls in some order *)
Definition current (pc : ppc) : list pcall :=
  match pc with
  | RegWait k | RegRead k | RegWrite k => [PReg k]
  | UseRead k | UseWait k | UseWrite k => [PUse k]
  | UseAgain _ | AtRest | Dead => []
  end.
Definition pending (w : world) (pc : ppc) : list (res (option pindex)) :=
  match pc with
  | UseAgain k => match nth_error (w_stat w) k with Some (_, Some i) => [Ok (Some i)] | _ => [] end
  | _ => []
  end.
Definition in_order (w0 : world) (progs : list (list pcall)) (s : pworld) (os : list (nat * pcall)) : Prop :=
  pw_reg s = fst (seq_run w0 os) /\
  forall t th, nth_error (pw_thr s) t = Some th -> exists p, nth_error progs t = Some p /\
    p = of_thread t os ++ current (pt_pc th) ++ pt_rest th /\ of_thread t (snd (seq_run w0 os)) = pt_ans th ++ pending (pw_reg s) (pt_pc th).
Lemma seq_app os : forall w t c, seq_run w (os ++ [(t, c)]) =
  (fst (seq_call (fst (seq_run w os)) c), snd (seq_run w os) ++ [(t, snd (seq_call (fst (seq_run w os)) c))]).
Proof.
  induction os as [|[t0 c0] os IH]; intros w t c; cbn [app seq_run].
  - cbn. destruct (seq_call w c). reflexivity.
  - destruct (seq_call w c0) as [w1 a]. rewrite IH. destruct (seq_run w1 os) as [w2 r]. cbn. destruct (seq_call w2 c). reflexivity.
Qed.
Lemma of_thread_app {A} t (l m : list (nat * A)) : of_thread t (l ++ m) = of_thread t l ++ of_thread t m.
Proof. unfold of_thread. rewrite filter_app, map_app. reflexivity. Qed.
Lemma of_thread_one {A} t t' (x : A) : of_thread t [(t', x)] = if t' =? t then [x] else [].
Proof. unfold of_thread. cbn. destruct (t' =? t); reflexivity. Qed.
Lemma pending_changed s t th w' t' th' : inv s -> changed s t th w' -> nth_error (pw_thr s) t' = Some th' -> pending w' (pt_pc th') = pending (pw_reg s) (pt_pc th').
Proof.
  intros I C H. pose proof (i_pc s I _ _ H) as P. destruct (pt_pc th') as [|j|j|j|j|j|j|j|]; cbn [pending pc_fine] in *; try reflexivity.
  destruct C as [->|[[E _]|(k & d & i & E & U & _)]]; [reflexivity|rewrite E; reflexivity|]. rewrite E, nth_error_upd_ne; [reflexivity|].
  intros ->. destruct P as (d' & i' & P). congruence.
Qed.
(** A step in which nothing happens, and one in which a call does. *)
Lemma order_silent w0 progs s t th th' lock' os : in_order w0 progs s os -> nth_error (pw_thr s) t = Some th ->
  current (pt_pc th') ++ pt_rest th' = current (pt_pc th) ++ pt_rest th ->
  pt_ans th' ++ pending (pw_reg s) (pt_pc th') = pt_ans th ++ pending (pw_reg s) (pt_pc th) ->
  in_order w0 progs (PW (pw_reg s) lock' (upd (pw_thr s) t th')) os.
Proof.
  intros [W O] T C A. split; [exact W|]. cbn [pw_reg pw_thr]. intros t' x H. destruct (Nat.eq_dec t' t) as [->|D].
  - rewrite nth_error_upd_eq in H by (eapply nth_error_Some_lt, T). injection H as <-. destruct (O _ _ T) as (p & P & Q & R). exists p. rewrite C, A. auto.
  - rewrite nth_error_upd_ne in H by congruence. exact (O _ _ H).
Qed.
Lemma order_effect w0 progs s t th th' lock' os c : inv s -> in_order w0 progs s os -> nth_error (pw_thr s) t = Some th ->
  let w' := fst (seq_call (pw_reg s) c) in changed s t th w' ->
  current (pt_pc th) = [c] -> pending (pw_reg s) (pt_pc th) = [] -> current (pt_pc th') = [] -> pt_rest th' = pt_rest th ->
  pt_ans th' ++ pending w' (pt_pc th') = pt_ans th ++ [snd (seq_call (pw_reg s) c)] ->
  in_order w0 progs (PW w' lock' (upd (pw_thr s) t th')) (os ++ [(t, c)]).
Proof.
  intros I [W O] T w' C CU PE CU' RE A. unfold in_order. rewrite seq_app, <- W. cbn [fst snd pw_reg pw_thr]. split; [reflexivity|].
  intros t' x H. rewrite !of_thread_app, !of_thread_one. destruct (Nat.eq_dec t' t) as [->|D].
  - rewrite nth_error_upd_eq in H by (eapply nth_error_Some_lt, T). injection H as <-. rewrite Nat.eqb_refl.
    destruct (O _ _ T) as (p & P & Q & R). exists p. rewrite PE, app_nil_r in R. rewrite CU', RE, A, R. rewrite CU in Q. split; [exact P|].
    split; [|reflexivity]. rewrite Q, <- app_assoc. reflexivity.
  - rewrite nth_error_upd_ne in H by congruence. rewrite (proj2 (Nat.eqb_neq _ _)) by congruence. rewrite !app_nil_r.
    destruct (O _ _ H) as (p & P & Q & R). exists p. split; [exact P|]. split; [exact Q|]. rewrite R. f_equal. symmetry. eapply pending_changed; eassumption.
Qed.
Lemma touch_rest k pc rest pc' rest' ans ans' : existsb (call_on k) rest' = existsb (call_on k) rest -> (pc_on k pc' = true -> pc_on k pc = true) ->
  touches k (PT pc' rest' ans') = true -> touches k (PT pc rest ans) = true.
Proof. unfold touches. cbn. intros -> H. rewrite !orb_true_iff. tauto. Qed.

Ltac quick :=
  let j := fresh in intros j;
  first [ apply touch_rest; [reflexivity|first [discriminate|solve [auto]]]
        | unfold touches; cbn; solve [auto]
        | unfold uses_first; cbn; first [discriminate|solve [auto]] ].
Lemma step_inv w0 progs s t s' os : inv s -> in_order w0 progs s os -> p_step s t = Some s' -> inv s' /\ exists os', in_order w0 progs s' os'.
Proof.
  intros I O. unfold p_step. destruct (nth_error (pw_thr s) t) as [[pc rest ans]|] eqn:T; [|discriminate].
  pose proof (i_lock s I _ _ T) as IL. pose proof (i_pc s I _ _ T) as IP. cbn [pt_pc] in IL, IP.
  assert (changed s t (PT pc rest ans) (pw_reg s)) as C0 by (left; reflexivity).
  destruct pc as [|k|k|k|k|k|k|k|]; cbn [holds pc_fine] in IL, IP.
  - destruct rest as [|[k|k] rest]; [discriminate| |]; intros E; injection E as <-; (split; [|exists os]).
    + apply (inv_upd s t _ (PT (RegWait k) rest ans) _ _ I T); cbn [pt_pc holds pc_fine]; try tauto; try solve [quick].
    + apply (order_silent _ _ s t _ _ _ _ O T); reflexivity.
    + apply (inv_upd s t _ (PT (UseRead k) rest ans) _ _ I T); cbn [pt_pc holds pc_fine]; try tauto; try solve [quick].
    + apply (order_silent _ _ s t _ _ _ _ O T); reflexivity.
  - destruct (pw_lock s) as [h|] eqn:LK; [discriminate|]. destruct (w_poison (pw_reg s)) eqn:PO; intros E; injection E as <-.
    + assert (seq_call (pw_reg s) (PReg k) = (pw_reg s, panic PPoisoned)) as SC by (cbn; unfold prop_init, writing; rewrite PO; reflexivity).
      split.
      * apply (inv_upd s t _ (PT Dead rest _) _ _ I T); cbn [pt_pc holds pc_fine]; rewrite ?LK; try tauto; try solve [quick].
      * exists (os ++ [(t, PReg k)]). replace (pw_reg s) with (fst (seq_call (pw_reg s) (PReg k))) at 1 by (rewrite SC; reflexivity).
        apply (order_effect _ _ s t (PT (RegWait k) rest ans) _ _ _ _ I O T); rewrite ?SC; cbn; try reflexivity. exact C0. rewrite app_nil_r. reflexivity.
    + split; [|exists os].
      * apply (inv_upd s t _ (PT (RegRead k) rest ans) _ _ I T); cbn [pt_pc holds pc_fine]; rewrite ?LK; try tauto; try solve [quick].
        -- intros t' D. split; [intros X; injection X as ->; congruence|discriminate].
      * apply (order_silent _ _ s t _ _ _ _ O T); reflexivity.
  - assert (pw_lock s = Some t) as LK by (apply IL; reflexivity).
    assert (forall t', t' <> t -> pw_lock s <> Some t') as LO by (intros t' D X; congruence).
    assert (forall t', t' <> t -> (None = Some t' <-> pw_lock s = Some t')) as LN by (intros t' D; rewrite LK; split; [discriminate|intros X; injection X as ->; congruence]).
    assert (forall w' r, prop_init (pw_reg s) k = (w', Err r) -> inv (PW w' None (upd (pw_thr s) t (PT Dead rest (ans ++ [Err r])))) /\
      exists os', in_order w0 progs (PW w' None (upd (pw_thr s) t (PT Dead rest (ans ++ [Err r])))) os') as DEAD.
    { intros w' r E. pose proof (init_cases _ _ _ _ E) as [ST _]. assert (changed s t (PT (RegRead k) rest ans) w') as C by (right; left; auto). split.
      - apply (inv_upd s t _ (PT Dead rest _) _ _ I T); cbn [pt_pc holds pc_fine]; try tauto; try solve [quick].
        + split; discriminate.
      - exists (os ++ [(t, PReg k)]). assert (seq_call (pw_reg s) (PReg k) = (w', Err r)) as SC by (cbn; rewrite E; reflexivity).
        replace w' with (fst (seq_call (pw_reg s) (PReg k))) by (rewrite SC; reflexivity).
        apply (order_effect _ _ s t (PT (RegRead k) rest ans) _ _ _ _ I O T); rewrite ?SC; cbn; try reflexivity. exact C. rewrite app_nil_r. reflexivity. }
    assert (forall w' r, ~ has_index (pw_reg s) k -> prop_init (pw_reg s) k = (w', Ok r) ->
      inv (PW (pw_reg s) (Some t) (upd (pw_thr s) t (PT (RegWrite k) rest ans))) /\
      exists os', in_order w0 progs (PW (pw_reg s) (Some t) (upd (pw_thr s) t (PT (RegWrite k) rest ans))) os') as WRITE.
    { intros w' r NI E. pose proof (init_cases _ _ _ _ E) as (_ & _ & [[X _]|(d & i & X & _)]); [contradiction|]. split; [|exists os].
      - apply (inv_upd s t _ (PT (RegWrite k) rest ans) _ _ I T); cbn [pt_pc holds pc_fine]; try tauto; try solve [quick].
        + intros t' D. rewrite LK. tauto.
        + split; [exists d; exact X|]. rewrite E. cbn. eauto.
      - apply (order_silent _ _ s t _ _ _ _ O T); reflexivity. }
    destruct (nth_error (w_stat (pw_reg s)) k) as [[d [i|]]|] eqn:ST.
    + intros E. injection E as <-. assert (has_index (pw_reg s) k) as HI by (exists d, i; exact ST).
      assert (seq_call (pw_reg s) (PReg k) = (pw_reg s, Ok None)) as SC by (cbn; unfold prop_init, writing; rewrite IP, ST; reflexivity). split.
      * apply (inv_upd s t _ (PT AtRest rest _) _ _ I T); cbn [pt_pc holds pc_fine]; try tauto; try solve [quick].
        -- split; discriminate.
        -- intros j. unfold uses_first. cbn. destruct (Nat.eqb_spec k j) as [<-|]; auto.
      * exists (os ++ [(t, PReg k)]). replace (pw_reg s) with (fst (seq_call (pw_reg s) (PReg k))) at 1 by (rewrite SC; reflexivity).
        apply (order_effect _ _ s t (PT (RegRead k) rest ans) _ _ _ _ I O T); rewrite ?SC; cbn; try reflexivity. exact C0. rewrite app_nil_r. reflexivity.
    + destruct (prop_init (pw_reg s) k) as [w' [r|r]] eqn:E; intros X; injection X as <-; [|apply DEAD; reflexivity].
      eapply WRITE; [|reflexivity]. intros (d' & i & X). congruence.
    + destruct (prop_init (pw_reg s) k) as [w' [r|r]] eqn:E; intros X; injection X as <-; [|apply DEAD; reflexivity].
      eapply WRITE; [|reflexivity]. intros (d' & i & X). congruence.
  - assert (pw_lock s = Some t) as LK by (apply IL; reflexivity).
    assert (forall t', t' <> t -> (None = Some t' <-> pw_lock s = Some t')) as LN by (intros t' D; rewrite LK; split; [discriminate|intros X; injection X as ->; congruence]).
    destruct IP as [U (u & OKI)]. destruct (prop_init (pw_reg s) k) as [w' r] eqn:E. cbn [fst snd] in *. subst r. intros X. injection X as <-.
    pose proof (init_cases _ _ _ _ E) as (_ & _ & [[X _]|(d & i & X & ST)]); [exfalso; exact (no_index _ _ U X)|].
    assert (changed s t (PT (RegWrite k) rest ans) w') as C.
    { right. right. exists k, d, i. split; [exact ST|]. split; [exact X|]. split; [exact LK|]. cbn. apply Nat.eqb_refl. }
    split.
    + apply (inv_upd s t _ (PT AtRest rest _) _ _ I T); cbn [pt_pc holds pc_fine]; try tauto; try solve [quick].
      * split; discriminate.
      * intros j. unfold uses_first. cbn. destruct (Nat.eqb_spec k j) as [<-|]; [|auto]. right. exists d, i. rewrite ST. apply nth_error_upd_eq. eapply nth_error_Some_lt, X.
    + exists (os ++ [(t, PReg k)]). assert (seq_call (pw_reg s) (PReg k) = (w', Ok None)) as SC by (cbn; rewrite E; reflexivity).
      replace w' with (fst (seq_call (pw_reg s) (PReg k))) by (rewrite SC; reflexivity).
      apply (order_effect _ _ s t (PT (RegWrite k) rest ans) _ _ _ _ I O T); rewrite ?SC; cbn; try reflexivity. exact C. rewrite app_nil_r. reflexivity.
  - destruct (nth_error (w_stat (pw_reg s)) k) as [[d [i|]]|] eqn:ST; intros E; injection E as <-.
    + assert (seq_call (pw_reg s) (PUse k) = (pw_reg s, Ok (Some i))) as SC by (cbn; unfold prop_get; rewrite ST; reflexivity). split.
      * apply (inv_upd s t _ (PT (UseAgain k) rest ans) _ _ I T); cbn [pt_pc holds pc_fine]; try tauto; try solve [quick].
        -- exists d, i. exact ST.
      * exists (os ++ [(t, PUse k)]). replace (pw_reg s) with (fst (seq_call (pw_reg s) (PUse k))) at 1 by (rewrite SC; reflexivity).
        apply (order_effect _ _ s t (PT (UseRead k) rest ans) _ _ _ _ I O T); rewrite ?SC; cbn; try reflexivity. exact C0. rewrite ST. reflexivity.
    + split; [|exists os].
      * apply (inv_upd s t _ (PT (UseWait k) rest ans) _ _ I T); cbn [pt_pc holds pc_fine]; try tauto; try solve [quick].
        -- exists d. exact ST.
      * apply (order_silent _ _ s t _ _ _ _ O T); reflexivity.
    + assert (seq_call (pw_reg s) (PUse k) = (pw_reg s, panic PRustType)) as SC by (cbn; unfold prop_get; rewrite ST; reflexivity). split.
      * apply (inv_upd s t _ (PT Dead rest _) _ _ I T); cbn [pt_pc holds pc_fine]; try tauto; try solve [quick].
      * exists (os ++ [(t, PUse k)]). replace (pw_reg s) with (fst (seq_call (pw_reg s) (PUse k))) at 1 by (rewrite SC; reflexivity).
        apply (order_effect _ _ s t (PT (UseRead k) rest ans) _ _ _ _ I O T); rewrite ?SC; cbn; try reflexivity. exact C0. rewrite app_nil_r. reflexivity.
  - destruct (pw_lock s) as [h|] eqn:LK; [discriminate|]. destruct IP as (d & ST). rewrite ST. destruct (sync_alias (pw_reg s) k d) as [w' [i|r]] eqn:E; intros X; injection X as <-.
    + split; [|exists os].
      * apply (inv_upd s t _ (PT (UseWrite k) rest ans) _ _ I T); cbn [pt_pc holds pc_fine]; rewrite ?LK; try tauto; try solve [quick].
        -- intros t' D. split; [intros X; injection X as ->; congruence|discriminate].
        -- exists d. split; [exact ST|]. rewrite E. cbn. eauto.
      * apply (order_silent _ _ s t _ _ _ _ O T); reflexivity.
    + pose proof (alias_cases _ _ _ _ _ E) as SA. cbn in SA. assert (changed s t (PT (UseWait k) rest ans) w') as C by (right; left; split; [exact SA|rewrite LK; discriminate]). split.
      * apply (inv_upd s t _ (PT Dead rest _) _ _ I T); cbn [pt_pc holds pc_fine]; rewrite ?LK; try tauto; try solve [quick].
      * exists (os ++ [(t, PUse k)]). assert (seq_call (pw_reg s) (PUse k) = (w', Err r)) as SC by (cbn; unfold prop_get; rewrite ST, E; reflexivity).
        replace w' with (fst (seq_call (pw_reg s) (PUse k))) by (rewrite SC; reflexivity).
        apply (order_effect _ _ s t (PT (UseWait k) rest ans) _ _ _ _ I O T); rewrite ?SC; cbn; try reflexivity. exact C. rewrite app_nil_r. reflexivity.
  - assert (pw_lock s = Some t) as LK by (apply IL; reflexivity).
    assert (forall t', t' <> t -> (None = Some t' <-> pw_lock s = Some t')) as LN by (intros t' D; rewrite LK; split; [discriminate|intros X; injection X as ->; congruence]).
    destruct IP as (d & ST & i & OKA). rewrite ST. destruct (sync_alias (pw_reg s) k d) as [w' r] eqn:E. cbn [fst snd] in *. subst r. intros X. injection X as <-.
    pose proof (alias_cases _ _ _ _ _ E) as (_ & _ & SA & _).
    assert (nth_error (w_stat w') k = Some (d, Some i)) as SK by (rewrite SA; apply nth_error_upd_eq; eapply nth_error_Some_lt, ST).
    assert (changed s t (PT (UseWrite k) rest ans) w') as C.
    { right. right. exists k, d, i. split; [exact SA|]. split; [exact ST|]. split; [exact LK|]. cbn. apply Nat.eqb_refl. }
    split.
    + apply (inv_upd s t _ (PT (UseAgain k) rest _) _ _ I T); cbn [pt_pc holds pc_fine]; try tauto; try solve [quick].
      * split; discriminate.
      * exists d, i. exact SK.
    + exists (os ++ [(t, PUse k)]). assert (seq_call (pw_reg s) (PUse k) = (w', Ok (Some i))) as SC by (cbn; unfold prop_get; rewrite ST, E; reflexivity).
      replace w' with (fst (seq_call (pw_reg s) (PUse k))) by (rewrite SC; reflexivity).
      apply (order_effect _ _ s t (PT (UseWrite k) rest ans) _ _ _ _ I O T); rewrite ?SC; cbn; try reflexivity. exact C. rewrite SK. reflexivity.
  - destruct (nth_error (w_stat (pw_reg s)) k) as [[d [i|]]|] eqn:ST; intros E; try discriminate. injection E as <-. split; [|exists os].
    + apply (inv_upd s t _ (PT AtRest rest _) _ _ I T); cbn [pt_pc holds pc_fine]; try tauto; try solve [quick].
      * intros j. unfold uses_first. cbn. destruct (Nat.eqb_spec k j) as [<-|]; auto.
    + apply (order_silent _ _ s t _ _ _ _ O T); cbn; [reflexivity|]. rewrite ST, app_nil_r. reflexivity.
  - discriminate.
Qed.
Lemma start_thr w progs t th : nth_error (pw_thr (p_start w progs)) t = Some th -> exists p, nth_error progs t = Some p /\ th = PT AtRest p [].
Proof. cbn. intros H. rewrite nth_error_map in H. destruct (nth_error progs t) as [p|]; [|discriminate]. injection H as <-. eauto. Qed.
Lemma start_inv w progs : (forall k, shares_well w progs k) -> inv (p_start w progs) /\ in_order w progs (p_start w progs) [].
Proof.
  intros SW. split; [split|split].
  - discriminate.
  - intros t th H. apply start_thr in H as (p & _ & ->). cbn. split; discriminate.
  - intros t th H. apply start_thr in H as (p & _ & ->). exact I.
  - intros k. destruct (SW k) as [X|[X|X]]; [left; exact X| |]; right.
    + left. intros t t' th th' H H'. apply start_thr in H as (p & P & ->). apply start_thr in H' as (p' & P' & ->). unfold touches. cbn. apply (X t t' p p' P P').
    + right. intros t th H. apply start_thr in H as (p & P & ->). unfold uses_first. cbn. rewrite (X p (nth_error_In _ _ P)). discriminate.
  - reflexivity.
  - intros t th H. apply start_thr in H as (p & P & ->). exists p. auto.
Qed.
Lemma run_inv w0 progs sched : forall s os, inv s -> in_order w0 progs s os -> inv (p_run s sched) /\ exists os', in_order w0 progs (p_run s sched) os'.
Proof.
  induction sched as [|t sched IH]; intros s os I O; cbn [p_run]; [eauto|].
  destruct (p_step s t) as [s'|] eqn:E; [|eapply IH; eassumption]. destruct (step_inv _ _ _ _ _ _ I O E) as [I' (os' & O')]. eapply IH; eassumption.
Qed.
Lemma inv_no_race s : inv s -> ~ data_race s.
Proof.
  intros [_ IL IP IS] (t & t' & th & th' & k & b & D & T & T' & A & A').
  assert (pw_lock s = Some t /\ unset (pw_reg s) k /\ pc_on k (pt_pc th) = true) as (L & U & K).
  { pose proof (IL _ _ T) as HL. pose proof (IP _ _ T) as P. destruct (pt_pc th); cbn in *; try discriminate; injection A as ->; (split; [apply HL; reflexivity|]); (split; [|apply Nat.eqb_refl]).
    - exact (proj1 P).
    - destruct P as (d & P & _). exists d. exact P. }
  pose proof (IL _ _ T') as HL'.
  assert (touches k th' = true /\ uses_first k th' = true) as [T2 U2].
  { destruct (pt_pc th') eqn:Q; cbn [access holds] in *; try discriminate; try (exfalso; apply D; enough (pw_lock s = Some t') by congruence; apply HL'; reflexivity);
      injection A' as -> _; unfold touches, uses_first; rewrite Q; cbn; rewrite Nat.eqb_refl; auto. }
  destruct (IS k) as [X|[X|X]].
  - exact (no_index _ _ U X).
  - apply D. apply (X _ _ _ _ T T'); [unfold touches; rewrite K; reflexivity|exact T2].
  - exact (no_index _ _ U (X _ _ T' U2)).
Qed.
Lemma no_race w progs : (forall k, shares_well w progs k) -> forall sched, ~ data_race (p_run (p_start w progs) sched).
Proof. intros SW sched. destruct (start_inv w progs SW) as [I O]. destruct (run_inv _ _ sched _ _ I O) as [I' _]. apply inv_no_race, I'. Qed.
Lemma one_by_one w progs : (forall k, shares_well w progs k) -> forall sched, let s := p_run (p_start w progs) sched in
  exists os, pw_reg s = fst (seq_run w os) /\
  forall t th p, nth_error (pw_thr s) t = Some th -> nth_error progs t = Some p ->
    (exists later, p = of_thread t os ++ later /\ (pt_pc th = AtRest -> later = pt_rest th)) /\
    (pt_pc th = AtRest \/ pt_pc th = Dead -> pt_ans th = of_thread t (snd (seq_run w os))).
Proof.
  intros SW sched s. destruct (start_inv w progs SW) as [I O]. destruct (run_inv _ _ sched _ _ I O) as [I' (os & W & O')]. exists os. split; [exact W|].
  intros t th p T P. destruct (O' _ _ T) as (p' & P' & Q & R). assert (p' = p) as -> by congruence. split.
  - exists (current (pt_pc th) ++ pt_rest th). split; [exact Q|]. intros ->. reflexivity.
  - intros [X|X]; rewrite X, app_nil_r in R; auto.
Qed.
Lemma goes_on w progs : (forall k, shares_well w progs k) -> forall sched, let s := p_run (p_start w progs) sched in
  (exists t, p_step s t <> None) \/ (forall t th, nth_error (pw_thr s) t = Some th -> pt_pc th = Dead \/ pt_pc th = AtRest /\ pt_rest th = []).
Proof.
  intros SW sched s. destruct (start_inv w progs SW) as [I O]. destruct (run_inv _ _ sched _ _ I O) as [I' _]. fold s in I'. clearbody s. clear - I'.
  assert (forall t th, nth_error (pw_thr s) t = Some th -> holds (pt_pc th) = true -> p_step s t <> None) as HS.
  { intros t [pc rest ans] T H. pose proof (i_pc s I' _ _ T) as P. unfold p_step. rewrite T. destruct pc as [|k|k|k|k|k|k|k|]; cbn [holds pt_pc pc_fine] in *; try discriminate.
    - destruct (nth_error (w_stat (pw_reg s)) k) as [[d [i|]]|]; [discriminate| |]; destruct (prop_init (pw_reg s) k) as [x [u|e]]; discriminate.
    - destruct P as (d & P & _). rewrite P. discriminate. }
  destruct (pw_lock s) as [h|] eqn:L.
  - left. exists h. destruct (nth_error (pw_thr s) h) as [th|] eqn:T; [|exfalso; exact (i_who s I' _ L T)]. eapply HS; [exact T|]. apply (i_lock s I' _ _ T), L.
  - assert (forall t th, nth_error (pw_thr s) t = Some th -> p_step s t <> None \/ pt_pc th = Dead \/ pt_pc th = AtRest /\ pt_rest th = []) as A.
    { intros t [pc rest ans] T. pose proof (i_pc s I' _ _ T) as P. unfold p_step. rewrite T, L. destruct pc as [|k|k|k|k|k|k|k|]; cbn [pt_pc pt_rest pc_fine] in *; auto.
      - destruct rest as [|[k|k] rest]; [auto|left; discriminate|left; discriminate].
      - left. destruct (w_poison (pw_reg s)); discriminate.
      - left. destruct (nth_error (w_stat (pw_reg s)) k) as [[d [i|]]|]; [discriminate| |]; destruct (prop_init (pw_reg s) k) as [x [u|e]]; discriminate.
      - left. discriminate.
      - left. destruct (nth_error (w_stat (pw_reg s)) k) as [[d [i|]]|]; discriminate.
      - left. destruct P as (d & P). rewrite P. destruct (sync_alias (pw_reg s) k d) as [x [i|e]]; discriminate.
      - left. destruct P as (d & P & _). rewrite P. discriminate.
      - left. destruct P as (d & i & P). rewrite P. discriminate. }
    assert ((exists t, p_step s t <> None) \/ forall t, p_step s t = None) as [X|X]; [|left; exact X|].
    + assert (forall n, (exists t, p_step s t <> None) \/ forall t, t < n -> p_step s t = None) as B.
      { induction n as [|n IH]; [right; lia|]. destruct IH as [IH|IH]; [auto|]. destruct (p_step s n) eqn:E; [left; exists n; congruence|]. right. intros t H.
        destruct (Nat.eq_dec t n) as [->|]; [exact E|]. apply IH. lia. }
      destruct (B (length (pw_thr s))) as [Y|Y]; [auto|]. right. intros t. destruct (Nat.lt_ge_cases t (length (pw_thr s))) as [Z|Z]; [auto|].
      unfold p_step. rewrite (proj2 (nth_error_None _ _)) by exact Z. reflexivity.
    + right. intros t th T. destruct (A _ _ T) as [Y|Y]; [exfalso; apply Y, X|exact Y].
Qed.

(** ** Sharing badly: a race *)
Record more (w w' : world) : Prop := MORE {
  m_poison : w_poison w' = false;
  m_stat : forall k d o, nth_error (w_stat w) k = Some (d, o) -> exists o', nth_error (w_stat w') k = Some (d, o') /\ (o <> None -> o' <> None);
  m_dom : forall n i, nget (g_doms (w_glob w)) n = Some i -> exists i', nget (g_doms (w_glob w')) n = Some i' /\ di_locked i' = di_locked i /\
            (forall q, nget (di_n2d i) q <> None -> nget (di_n2d i') q <> None);
  m_name : forall q, nget (g_n2g (w_glob w)) q <> None -> nget (g_n2g (w_glob w')) q <> None }.
Lemma more_refl w : w_poison w = false -> more w w.
Proof. intros P. split; eauto. Qed.
Lemma stat_more w (s' : list (pdecl * option pindex)) k d i : nth_error (w_stat w) k = Some (d, None) -> s' = upd (w_stat w) k (d, Some i) ->
  forall j e o, nth_error (w_stat w) j = Some (e, o) -> exists o', nth_error s' j = Some (e, o') /\ (o <> None -> o' <> None).
Proof.
  intros U -> j e o H. destruct (Nat.eq_dec k j) as [<-|N].
  - assert (e = d) as -> by congruence. exists (Some i). rewrite nth_error_upd_eq by (eapply nth_error_Some_lt, U). split; [reflexivity|discriminate].
  - exists o. rewrite nth_error_upd_ne by congruence. auto.
Qed.
Lemma nadd_more {A} (m : list (name * A)) k v q : nget m k = None -> nget m q <> None -> nget (nadd m k v) q <> None.
Proof. intros N H. rewrite nget_nadd by exact N. destruct (name_eqb k q); [discriminate|exact H]. Qed.
Lemma init_more w k w' u : prop_init w k = (w', Ok u) -> more w w'.
Proof.
  unfold prop_init, writing. destruct (w_poison w) eqn:P; [discriminate|].
  destruct (nth_error (w_stat w) k) as [[d [i|]]|] eqn:S; [|destruct (prop_check_name d); [|discriminate]|discriminate].
  - intros E. injection E as <- _. apply more_refl, P.
  - destruct (nget (g_doms (w_glob w)) (pd_domain d)) as [i|] eqn:D; [|discriminate]. destruct (di_locked i) eqn:L; [discriminate|].
    destruct (nget (g_n2g (w_glob w)) (pd_name d)) as [gid|] eqn:N; destruct (nget (di_n2d i) (pd_name d)) as [dix|] eqn:M; intros E; injection E as <- _;
      (split; [exact P|eapply stat_more; [exact S|reflexivity]| |]); cbn [set_stat set_glob w_glob g_doms g_n2g]; auto;
      try (intros q; apply nadd_more; exact N);
      intros n j H; rewrite nget_nset by congruence; destruct (neqb_spec (pd_domain d) n) as [<-|NE]; [|exists j; auto| |exists j; auto| |exists j; auto| |exists j; auto];
      (assert (j = i) as -> by congruence); (eexists; split; [reflexivity|]); cbn [di_locked di_n2d]; (split; [congruence|]); auto;
      intros q; apply nadd_more; exact M.
Qed.
Lemma alias_more w k d w' i : nth_error (w_stat w) k = Some (d, None) -> sync_alias w k d = (w', Ok i) -> more w w'.
Proof.
  intros U E. destruct (alias_cases _ _ _ _ _ E) as (_ & P & S & G). split; [exact P|eapply stat_more; eassumption| |]; rewrite G; eauto.
Qed.
Lemma call_more w c w' a : w_poison w = false -> seq_call w c = (w', Ok a) -> more w w'.
Proof.
  intros P. destruct c as [k|k]; cbn.
  - destruct (prop_init w k) as [x [u|e]] eqn:E; [|discriminate]. intros X. injection X as <- _. eapply init_more, E.
  - unfold prop_get. destruct (nth_error (w_stat w) k) as [[d [i|]]|] eqn:S; [| |discriminate].
    + intros X. injection X as <- _. apply more_refl, P.
    + destruct (sync_alias w k d) as [x [i|e]] eqn:E; [|discriminate]. intros X. injection X as <- _. eapply alias_more; eassumption.
Qed.
Lemma index_ok w k : has_index w k -> call_ok w (PUse k).
Proof. intros (d & i & H). unfold call_ok. cbn. unfold prop_get. rewrite H. cbn. eauto. Qed.
Lemma more_ok w w' c : w_poison w = false -> more w w' -> call_ok w c -> call_ok w' c.
Proof.
  intros P [MP MS MD MN] [a H]. destruct c as [k|k]; cbn in H.
  - unfold call_ok. cbn. unfold prop_init, writing in *. rewrite P in H. rewrite MP.
    destruct (nth_error (w_stat w) k) as [[d o]|] eqn:S; [|discriminate]. destruct (MS _ _ _ S) as (o' & S' & OO). rewrite S'.
    destruct o' as [i'|]; [cbn; eauto|]. destruct o as [i|]; [exfalso; apply OO; [discriminate|reflexivity]|].
    destruct (prop_check_name d) as [u|e]; [|discriminate]. destruct (nget (g_doms (w_glob w)) (pd_domain d)) as [i|] eqn:D; [|discriminate].
    destruct (MD _ _ D) as (i' & D' & L & _). rewrite D', L. destruct (di_locked i); [discriminate|].
    destruct (nget (g_n2g (w_glob w')) (pd_name d)); destruct (nget (di_n2d i') (pd_name d)); cbn; eauto.
  - unfold call_ok. cbn. unfold prop_get in *. destruct (nth_error (w_stat w) k) as [[d o]|] eqn:S; [|discriminate]. destruct (MS _ _ _ S) as (o' & S' & OO). rewrite S'.
    destruct o' as [i'|]; [cbn; eauto|]. destruct o as [i|]; [exfalso; apply OO; [discriminate|reflexivity]|].
    unfold sync_alias, writing in *. rewrite P in H. rewrite MP.
    destruct (nget (g_doms (w_glob w)) (pd_domain d)) as [i|] eqn:D; [|discriminate]. destruct (MD _ _ D) as (i' & D' & _ & N2). rewrite D'.
    destruct (nget (g_n2g (w_glob w)) (pd_name d)) as [gid|] eqn:N; [|discriminate]. specialize (MN (pd_name d)). rewrite N in MN.
    destruct (nget (g_n2g (w_glob w')) (pd_name d)) as [gid'|]; [|exfalso; apply MN; [discriminate|reflexivity]].
    destruct (nget (di_n2d i) (pd_name d)) as [dix|] eqn:M; [|discriminate]. specialize (N2 (pd_name d)). rewrite M in N2.
    destruct (nget (di_n2d i') (pd_name d)) as [dix'|]; [cbn; eauto|exfalso; apply N2; [discriminate|reflexivity]].
Qed.
(** A call on another property leaves this one's static. *)
Lemma call_other w c w' a k : call_on k c = false -> seq_call w c = (w', Ok a) -> has_index w' k -> has_index w k.
Proof.
  intros N. destruct c as [j|j]; cbn in N; apply Nat.eqb_neq in N; cbn.
  - destruct (prop_init w j) as [x [u|e]] eqn:E; [|discriminate]. intros X. injection X as <- _.
    destruct (init_cases _ _ _ _ E) as (_ & _ & [[_ ->]|(d & i & _ & ST)]); [auto|]. unfold has_index. rewrite ST, nth_error_upd_ne by congruence. auto.
  - unfold prop_get. destruct (nth_error (w_stat w) j) as [[d [i|]]|] eqn:S; [| |discriminate].
    + intros X. injection X as <- _. auto.
    + destruct (sync_alias w j d) as [x [i|e]] eqn:E; [|discriminate]. intros X. injection X as <- _.
      destruct (alias_cases _ _ _ _ _ E) as (_ & _ & ST & _). unfold has_index. rewrite ST, nth_error_upd_ne by congruence. auto.
Qed.
Lemma reg_index w k w' a : seq_call w (PReg k) = (w', Ok a) -> has_index w' k.
Proof.
  cbn. destruct (prop_init w k) as [x [u|e]] eqn:E; [|discriminate]. intros X. injection X as <- _.
  destruct (init_cases _ _ _ _ E) as (_ & _ & [[H ->]|(d & i & H & ST)]); [exact H|]. exists d, i. rewrite ST. apply nth_error_upd_eq. eapply nth_error_Some_lt, H.
Qed.

Lemma run_app sched : forall s sched', p_run s (sched ++ sched') = p_run (p_run s sched) sched'.
Proof. induction sched; intros; cbn; auto. Qed.
Lemma upd_twice {A} (l : list A) t x y : upd (upd l t x) t y = upd l t y.
Proof. revert t. induction l as [|z l IH]; intros [|t]; cbn; auto. rewrite IH. reflexivity. Qed.
Lemma run_cons s t s' l : p_step s t = Some s' -> p_run s (t :: l) = p_run s' l.
Proof. intros H. cbn [p_run]. rewrite H. reflexivity. Qed.
Section steps.
  Variables (w : world) (thr : list pthread) (t : nat) (rest : list pcall) (ans : list (res (option pindex))) (k : nat).
  Let at_pc pc := nth_error thr t = Some (PT pc rest ans).
  Lemma st_reg : nth_error thr t = Some (PT AtRest (PReg k :: rest) ans) -> p_step (PW w None thr) t = Some (PW w None (upd thr t (PT (RegWait k) rest ans))).
  Proof. intros H. unfold p_step. cbn [pw_thr pw_reg pw_lock]. rewrite H. reflexivity. Qed.
  Lemma st_use : nth_error thr t = Some (PT AtRest (PUse k :: rest) ans) -> p_step (PW w None thr) t = Some (PW w None (upd thr t (PT (UseRead k) rest ans))).
  Proof. intros H. unfold p_step. cbn [pw_thr pw_reg pw_lock]. rewrite H. reflexivity. Qed.
  Lemma st_lock : at_pc (RegWait k) -> w_poison w = false -> p_step (PW w None thr) t = Some (PW w (Some t) (upd thr t (PT (RegRead k) rest ans))).
  Proof. intros H P. unfold p_step. cbn [pw_thr pw_reg pw_lock]. rewrite H, P. reflexivity. Qed.
  Lemma st_known : at_pc (RegRead k) -> has_index w k -> p_step (PW w (Some t) thr) t = Some (PW w None (upd thr t (PT AtRest rest (ans ++ [Ok None])))).
  Proof. intros H (d & i & P). unfold p_step. cbn [pw_thr pw_reg pw_lock]. rewrite H, P. reflexivity. Qed.
  Lemma st_new d w' u : at_pc (RegRead k) -> nth_error (w_stat w) k = Some (d, None) -> prop_init w k = (w', Ok u) ->
    p_step (PW w (Some t) thr) t = Some (PW w (Some t) (upd thr t (PT (RegWrite k) rest ans))).
  Proof. intros H P I. unfold p_step. cbn [pw_thr pw_reg pw_lock]. rewrite H, P, I. reflexivity. Qed.
  Lemma st_write w' r : at_pc (RegWrite k) -> prop_init w k = (w', r) -> p_step (PW w (Some t) thr) t = Some (PW w' None (upd thr t (PT AtRest rest (ans ++ [Ok None])))).
  Proof. intros H I. unfold p_step. cbn [pw_thr pw_reg pw_lock]. rewrite H, I. reflexivity. Qed.
  Lemma st_set : at_pc (UseRead k) -> has_index w k -> p_step (PW w None thr) t = Some (PW w None (upd thr t (PT (UseAgain k) rest ans))).
  Proof. intros H (d & i & P). unfold p_step. cbn [pw_thr pw_reg pw_lock]. rewrite H, P. reflexivity. Qed.
  Lemma st_unset d : at_pc (UseRead k) -> nth_error (w_stat w) k = Some (d, None) -> p_step (PW w None thr) t = Some (PW w None (upd thr t (PT (UseWait k) rest ans))).
  Proof. intros H P. unfold p_step. cbn [pw_thr pw_reg pw_lock]. rewrite H, P. reflexivity. Qed.
  Lemma st_sync d w' i : at_pc (UseWait k) -> nth_error (w_stat w) k = Some (d, None) -> sync_alias w k d = (w', Ok i) ->
    p_step (PW w None thr) t = Some (PW w (Some t) (upd thr t (PT (UseWrite k) rest ans))).
  Proof. intros H P I. unfold p_step. cbn [pw_thr pw_reg pw_lock]. rewrite H, P, I. reflexivity. Qed.
  Lemma st_synced d w' r : at_pc (UseWrite k) -> nth_error (w_stat w) k = Some (d, None) -> sync_alias w k d = (w', r) ->
    p_step (PW w (Some t) thr) t = Some (PW w' None (upd thr t (PT (UseAgain k) rest ans))).
  Proof. intros H P I. unfold p_step. cbn [pw_thr pw_reg pw_lock]. rewrite H, P, I. reflexivity. Qed.
  Lemma st_again d i : at_pc (UseAgain k) -> nth_error (w_stat w) k = Some (d, Some i) ->
    p_step (PW w None thr) t = Some (PW w None (upd thr t (PT AtRest rest (ans ++ [Ok (Some i)])))).
  Proof. intros H P. unfold p_step. cbn [pw_thr pw_reg pw_lock]. rewrite H, P. reflexivity. Qed.
End steps.
(** A successful call of a thread that runs alone. *)
Lemma call_alone w thr t c rest ans w' a : nth_error thr t = Some (PT AtRest (c :: rest) ans) -> w_poison w = false -> seq_call w c = (w', Ok a) ->
  exists sched, p_run (PW w None thr) sched = PW w' None (upd thr t (PT AtRest rest (ans ++ [Ok a]))).
Proof.
  intros T P E. assert (forall th, nth_error (upd thr t th) t = Some th) as N by (intros; apply nth_error_upd_eq; eapply nth_error_Some_lt, T).
  destruct c as [k|k]; cbn [seq_call] in E.
  - destruct (prop_init w k) as [x [u|e]] eqn:I; [|discriminate]. injection E as <- <-.
    destruct (init_cases _ _ _ _ I) as (_ & _ & [[HI ->]|(d & i & H & _)]).
    + exists [t; t; t]. rewrite (run_cons _ _ _ _ (st_reg w thr t rest ans k T)).
      rewrite (run_cons _ _ _ _ (st_lock w _ t rest ans k (N _) P)), upd_twice. rewrite (run_cons _ _ _ _ (st_known w _ t rest ans k (N _) HI)), upd_twice. reflexivity.
    + exists [t; t; t; t]. rewrite (run_cons _ _ _ _ (st_reg w thr t rest ans k T)).
      rewrite (run_cons _ _ _ _ (st_lock w _ t rest ans k (N _) P)), upd_twice. rewrite (run_cons _ _ _ _ (st_new w _ t rest ans k d _ _ (N _) H I)), upd_twice.
      rewrite (run_cons _ _ _ _ (st_write w _ t rest ans k _ _ (N _) I)), upd_twice. reflexivity.
  - unfold prop_get in E. destruct (nth_error (w_stat w) k) as [[d [i|]]|] eqn:H; [| |discriminate].
    + injection E as <- <-. exists [t; t; t]. rewrite (run_cons _ _ _ _ (st_use w thr t rest ans k T)).
      rewrite (run_cons _ _ _ _ (st_set w _ t rest ans k (N _) (ex_intro _ d (ex_intro _ i H)))), upd_twice.
      rewrite (run_cons _ _ _ _ (st_again w _ t rest ans k d i (N _) H)), upd_twice. reflexivity.
    + destruct (sync_alias w k d) as [x [i|e]] eqn:A; [|discriminate]. injection E as <- <-. destruct (alias_cases _ _ _ _ _ A) as (_ & _ & S & _).
      assert (nth_error (w_stat x) k = Some (d, Some i)) as SK by (rewrite S; apply nth_error_upd_eq; eapply nth_error_Some_lt, H).
      exists [t; t; t; t; t]. rewrite (run_cons _ _ _ _ (st_use w thr t rest ans k T)).
      rewrite (run_cons _ _ _ _ (st_unset w _ t rest ans k d (N _) H)), upd_twice. rewrite (run_cons _ _ _ _ (st_sync w _ t rest ans k d _ _ (N _) H A)), upd_twice.
      rewrite (run_cons _ _ _ _ (st_synced w _ t rest ans k d _ _ (N _) H A)), upd_twice. rewrite (run_cons _ _ _ _ (st_again x _ t rest ans k d i (N _) SK)), upd_twice. reflexivity.
Qed.
(** The calls before the first one on [k], and that one. *)
Lemma first_on k p : existsb (call_on k) p = true -> exists p1 c p2, p = p1 ++ c :: p2 /\ existsb (call_on k) p1 = false /\ call_on k c = true /\ (looks_first k p = true -> c = PUse k).
Proof.
  induction p as [|c p IH]; [discriminate|]. cbn [existsb]. destruct (call_on k c) eqn:C.
  - intros _. exists [], c, p. repeat (split; [auto|]). destruct c as [j|j]; cbn in C |- *; rewrite C; [discriminate|]. apply Nat.eqb_eq in C as ->. reflexivity.
  - intros H. destruct (IH H) as (p1 & c' & p2 & -> & N & C' & L). exists (c :: p1), c', p2. split; [reflexivity|]. cbn [existsb]. rewrite C. split; [exact N|].
    split; [exact C'|]. intros LF. apply L. destruct c as [j|j]; cbn in C, LF; rewrite C in LF; exact LF.
Qed.
(** What is left of an orderly program is one in the registry as it is by then. *)
Definition orderly_now (w : world) (p : list pcall) : Prop := forall p1 c p2, p = p1 ++ c :: p2 -> call_ok w c \/ exists k, c = PUse k /\ In (PReg k) p1.
Lemma orderly_more w w' p : w_poison w = false -> more w w' -> orderly_now w p -> orderly_now w' p.
Proof. intros P M O p1 c p2 E. destruct (O p1 c p2 E) as [H|H]; [left; eapply more_ok; eassumption|right; exact H]. Qed.
Lemma orderly_tail w c p w' a : w_poison w = false -> orderly_now w (c :: p) -> seq_call w c = (w', Ok a) -> orderly_now w' p.
Proof.
  intros P O E p1 x p2 ->. assert (more w w') as M by (eapply call_more; eassumption). destruct (O (c :: p1) x p2 eq_refl) as [H|(k & -> & [->|H])].
  - left. eapply more_ok; eassumption.
  - left. eapply index_ok, reg_index, E.
  - right. eauto.
Qed.
Lemma calls_alone p1 : forall w thr t rest ans k, nth_error thr t = Some (PT AtRest (p1 ++ rest) ans) -> w_poison w = false -> orderly_now w (p1 ++ rest) ->
  existsb (call_on k) p1 = false -> ~ has_index w k ->
  exists sched w' ans', p_run (PW w None thr) sched = PW w' None (upd thr t (PT AtRest rest ans')) /\ more w w' /\ ~ has_index w' k /\ orderly_now w' rest.
Proof.
  induction p1 as [|c p1 IH]; intros w thr t rest ans k T P O N H.
  - cbn [app] in *. exists [], w, ans. split; [cbn [p_run]; rewrite (upd_same thr t _ T); reflexivity|]. split; [apply more_refl, P|auto].
  - cbn [existsb] in N. apply orb_false_iff in N as [NC N]. cbn [app] in *.
    assert (call_ok w c) as OKC by (destruct (O [] c _ eq_refl) as [X|(j & _ & [])]; exact X).
    destruct OKC as [a OKC]. destruct (seq_call w c) as [w1 r] eqn:E. cbn [snd] in OKC. subst r.
    assert (more w w1) as M by (eapply call_more; eassumption).
    destruct (call_alone _ _ _ _ _ _ _ _ T P E) as [s1 R1].
    destruct (IH w1 (upd thr t (PT AtRest (p1 ++ rest) (ans ++ [Ok a]))) t rest (ans ++ [Ok a]) k) as (s2 & w2 & ans2 & R2 & M2 & H2 & O2).
    + apply nth_error_upd_eq. eapply nth_error_Some_lt, T.
    + exact (m_poison _ _ M).
    + eapply orderly_tail; eassumption.
    + exact N.
    + intros X. apply H. eapply call_other; eassumption.
    + exists (s1 ++ s2), w2, ans2. rewrite run_app, R1, R2, upd_twice. split; [reflexivity|]. split; [|auto].
      destruct M as [A1 A2 A3 A4]. destruct M2 as [B1 B2 B3 B4]. split; [exact B1| | |auto].
      * intros j d o X. destruct (A2 _ _ _ X) as (o1 & X1 & Y1). destruct (B2 _ _ _ X1) as (o2 & X2 & Y2). eauto.
      * intros n i X. destruct (A3 _ _ X) as (i1 & X1 & L1 & Q1). destruct (B3 _ _ X1) as (i2 & X2 & L2 & Q2). exists i2. split; [exact X2|]. split; [congruence|auto].
Qed.
Lemma bad_sharing w progs k a b pa pb : w_poison w = false -> (forall p, In p progs -> orderly w p) -> ~ has_index w k ->
  a <> b -> nth_error progs a = Some pa -> nth_error progs b = Some pb -> existsb (call_on k) pa = true -> looks_first k pb = true ->
  exists sched, data_race (p_run (p_start w progs) sched).
Proof.
  intros P O H D A B TA LB.
  destruct (first_on k pb (looks_touches _ _ LB)) as (b1 & cb & b2 & EB & NB & _ & CB). specialize (CB LB). subst cb.
  destruct (first_on k pa TA) as (a1 & ca & a2 & EA & NA & CA & _).
  set (thr := pw_thr (p_start w progs)).
  assert (nth_error thr b = Some (PT AtRest (b1 ++ PUse k :: b2) [])) as TB by (unfold thr; cbn; rewrite nth_error_map, B; subst pb; reflexivity).
  destruct (calls_alone b1 w thr b (PUse k :: b2) [] k TB P) as (s1 & w1 & ans1 & R1 & M1 & H1 & O1); [subst pb; exact (O _ (nth_error_In _ _ B))|exact NB|exact H|].
  set (thr1 := upd thr b (PT (UseRead k) b2 ans1)).
  assert (p_run (PW w1 None (upd thr b (PT AtRest (PUse k :: b2) ans1))) [b] = PW w1 None thr1) as R2.
  { rewrite (run_cons _ _ _ _ (st_use w1 _ b b2 ans1 k (nth_error_upd_eq _ _ _ (nth_error_Some_lt _ _ _ TB)))), upd_twice. reflexivity. }
  assert (nth_error thr1 a = Some (PT AtRest (a1 ++ ca :: a2) [])) as TA1.
  { unfold thr1. rewrite nth_error_upd_ne by congruence. unfold thr. cbn. rewrite nth_error_map, A. subst pa. reflexivity. }
  destruct (calls_alone a1 w1 thr1 a (ca :: a2) [] k TA1 (m_poison _ _ M1)) as (s3 & w3 & ans3 & R3 & M3 & H3 & O3); [|exact NA|exact H1|].
  { eapply orderly_more; [exact P|exact M1|]. subst pa. exact (O _ (nth_error_In _ _ A)). }
  assert (forall th, nth_error (upd thr1 a th) a = Some th) as N by (intros; apply nth_error_upd_eq; eapply nth_error_Some_lt, TA1).
  assert (call_ok w3 ca) as [x OKA] by (destruct (O3 [] ca a2 eq_refl) as [X|(j & _ & [])]; exact X).
  pose proof (m_poison _ _ M3) as P3.
  assert (exists pc, access pc = Some (k, true) /\ exists s4, p_run (PW w3 None (upd thr1 a (PT AtRest (ca :: a2) ans3))) s4 = PW w3 (Some a) (upd thr1 a (PT pc a2 ans3))) as (pc & AC & s4 & R4).
  { destruct ca as [j|j]; cbn in CA; apply Nat.eqb_eq in CA as ->; cbn [seq_call] in OKA.
    - destruct (prop_init w3 k) as [w4 [u|e]] eqn:I; [|discriminate].
      destruct (init_cases _ _ _ _ I) as (_ & _ & [[X _]|(d & i & X & _)]); [contradiction|].
      exists (RegWrite k). split; [reflexivity|]. exists [a; a; a]. rewrite (run_cons _ _ _ _ (st_reg w3 _ a a2 ans3 k (N _))), upd_twice.
      rewrite (run_cons _ _ _ _ (st_lock w3 _ a a2 ans3 k (N _) P3)), upd_twice. rewrite (run_cons _ _ _ _ (st_new w3 _ a a2 ans3 k d _ _ (N _) X I)), upd_twice. reflexivity.
    - unfold prop_get in OKA. destruct (nth_error (w_stat w3) k) as [[d [i|]]|] eqn:S; [exfalso; apply H3; exists d, i; exact S| |discriminate].
      destruct (sync_alias w3 k d) as [w4 [i|e]] eqn:I; [|discriminate].
      exists (UseWrite k). split; [reflexivity|]. exists [a; a; a]. rewrite (run_cons _ _ _ _ (st_use w3 _ a a2 ans3 k (N _))), upd_twice.
      rewrite (run_cons _ _ _ _ (st_unset w3 _ a a2 ans3 k d (N _) S)), upd_twice. rewrite (run_cons _ _ _ _ (st_sync w3 _ a a2 ans3 k d _ _ (N _) S I)), upd_twice. reflexivity. }
  exists (s1 ++ [b] ++ s3 ++ s4). rewrite !run_app. change (p_start w progs) with (PW w None thr). rewrite R1, R2, R3, R4.
  exists a, b, (PT pc a2 ans3), (PT (UseRead k) b2 ans1), k, false. cbn [pw_thr pt_pc]. split; [exact D|]. split; [apply N|].
  split; [|split; [exact AC|reflexivity]]. rewrite nth_error_upd_ne by congruence. unfold thr1. apply nth_error_upd_eq. eapply nth_error_Some_lt, TB.
Qed.
Lemma exactly w progs : w_poison w = false -> (forall p, In p progs -> orderly w p) ->
  (forall k, shares_well w progs k) <-> (forall sched, ~ data_race (p_run (p_start w progs) sched)).
Proof.
  intros P O. split; [apply no_race|]. intros NR k.
  assert (has_index w k \/ ~ has_index w k) as [H|H].
  { destruct (nth_error (w_stat w) k) as [[d [i|]]|] eqn:S; [left; exists d, i; exact S| |]; right; intros (d' & i & X); congruence. }
  - left. exact H.
  - right. destruct (existsb (looks_first k) progs) eqn:L.
    + left. apply existsb_exists in L as (pb & IB & LB). destruct (In_nth_error _ _ IB) as [b B]. intros t t' p p' T T' C C'. destruct (Nat.eq_dec t t') as [|D]; [assumption|].
      exfalso. destruct (Nat.eq_dec t b) as [->|D'].
      * destruct (bad_sharing w progs k t' b p' pb P O H) as [sched R]; auto. exact (NR sched R).
      * destruct (bad_sharing w progs k t b p pb P O H) as [sched R]; auto. exact (NR sched R).
    + right. intros p IP. destruct (looks_first k p) eqn:X; [|reflexivity]. enough (existsb (looks_first k) progs = true) by congruence. apply existsb_exists. eauto.
Qed.
