(** Lemmas behind PropsDb.v: when the plain tables have an answer. *)
From Coq Require Import List Arith Bool Lia.
From Verif Require Import Base BaseFacts Column RowRange Table SortedTab Events Cascade TableSpec Hist Answers PlainSpec PlainFacts DbHist DbSpec DbFacts.
Import ListNotations.

Section S.
Variables (schs : list schema) (rank : nat -> nat).

Definition said {A} (P : A -> Prop) (o : outcome A) : Prop := match o with Fine x => P x | Fails => True | Unsaid => False end.
Lemma said_after {A B} (P : A -> Prop) (Q : B -> Prop) o f : said P o -> (forall x, P x -> said Q (f x)) -> said Q (after o f).
Proof. destruct o; simpl; auto. Qed.
Lemma said_weaken {A} (P Q : A -> Prop) o : said P o -> (forall x, P x -> Q x) -> said Q o.
Proof. destruct o; simpl; auto. Qed.

(** What calls of trackers leave alone. *)
Definition alike (x y : plains) : Prop := shape y = shape x /\ b_trk y = b_trk x.
Lemma alike_refl x : alike x x.
Proof. split; reflexivity. Qed.
Lemma alike_trans x y z : alike x y -> alike y z -> alike x z.
Proof. intros [A B] [C D]. split; congruence. Qed.
Definition fit (x : plains) : Prop := map fst (b_tabs x) = schs /\ (forall p tr, In tr (nth p (b_trk x) []) -> tracker_legal schs rank p tr = true).
Lemma fit_alike x y : alike x y -> fit x -> fit y.
Proof. intros [A B] [C D]. split; [rewrite (proj1 (shape_fst _ _ A)); exact C|rewrite B; exact D]. Qed.
Lemma fit_tab x p sch : fit x -> nth_error schs p = Some sch -> exists a, nth_error (b_tabs x) p = Some (sch, a).
Proof.
  intros [A _] H. rewrite <- A, nth_error_map in H. destruct (nth_error (b_tabs x) p) as [[s a]|]; [|discriminate]. injection H as ->. eauto.
Qed.
(** Tables that are locked have at least rank [n]. *)
Definition above (x : plains) (rd : list nat) (n : nat) : Prop := forall q, locked x q || mem q rd = true -> n <= rank q.
Lemma above_alike x y rd n : alike x y -> above x rd n -> above y rd n.
Proof. intros [A _] H q. rewrite (locked_shape x y q A). apply H. Qed.
Lemma above_free x rd n p : above x rd n -> rank p < n -> locked x p || mem p rd = false.
Proof. intros H L. destruct (locked x p || mem p rd) eqn:E; [|reflexivity]. specialize (H p E). lia. Qed.
Lemma above_le x rd n m : above x rd n -> m <= n -> above x rd m.
Proof. intros H L q Hq. specialize (H q Hq). lia. Qed.

Lemma removed_lock sch a s : said (fun a' => p_lock a' = p_lock a) (removed Debug sch a s).
Proof.
  destruct s as [|ids]; cbn [removed]; [reflexivity|].
  destruct (s_kind sch); try (destruct ids; exact I || reflexivity).
  - destruct (all_below (len a) ids); [reflexivity|exact I].
  - pose proof (outs_said (len a) ids (p_rows a)) as O. destruct (swapped_outs Debug (len a) (p_rows a) ids); [reflexivity|exact I|congruence].
Qed.
Lemma put_alike x p sch a a0 : nth_error (b_tabs x) p = Some (sch, a0) -> p_lock a = p_lock a0 -> alike x (put_tab x p sch a).
Proof. intros T L. split; [apply (shape_put x p sch a a0 T L)|reflexivity]. Qed.

Section Calls.
Variable tl : plains -> list nat -> nat -> event -> bool -> bool -> select -> outcome (plains * select).
Variable n : nat.
Hypothesis Tell : forall x rd p ev b1 b2 s, fit x -> rank p < n -> above x rd (rank p) -> said (fun q => alike x (fst q)) (tl x rd p ev b1 b2 s).

Lemma flushes_said x rd p l ev sch : fit x -> rank p < n -> above x rd (S (rank p)) -> nth_error schs p = Some sch ->
  said (alike x) (flushes Debug tl x rd p l ev).
Proof.
  intros F L A Hp. unfold flushes. destruct l as [[s b1] b2]. destruct (nothing_to_tell s); [apply alike_refl|].
  eapply said_after; [apply Tell; [exact F|exact L|apply (above_le _ _ _ _ A); lia]|]. intros [y s1] Hy. cbn [fst snd] in *.
  destruct (ev_removal ev && negb (nothing_to_tell s1)); [|exact Hy].
  rewrite (above_free y rd _ p (above_alike _ _ _ _ Hy A)) by lia.
  destruct (fit_tab y p sch (fit_alike _ _ Hy F) Hp) as [a Ta]. unfold tab. rewrite Ta. cbn [after fst snd].
  eapply said_after; [apply removed_lock|]. intros a' La. eapply alike_trans; [exact Hy|]. apply (put_alike y p sch a' a Ta La).
Qed.
Lemma takes_out_said x rd c ev s sch : fit x -> rank c < n -> above x rd (S (rank c)) -> nth_error schs c = Some sch ->
  said (alike x) (takes_out Debug tl x rd c ev s).
Proof.
  intros F L A Hc. unfold takes_out. destruct (fit_tab x c sch F Hc) as [a Ta]. unfold tab. rewrite Ta. cbn [after].
  rewrite (above_free x rd _ c A) by lia.
  assert (Put : forall a', p_lock a' = p_lock a -> alike x (put_tab x c sch a')) by (intros a' La; apply (put_alike x c sch a' a Ta La)).
  destruct (kind_eqb (s_kind sch) Consistent || is_sorted sch); [|exact I]. destruct s as [|ids].
  - specialize (Put (emptied a) eq_refl). destruct (is_sorted sch); [exact Put|].
    eapply said_weaken; [apply (flushes_said _ rd c _ ev sch (fit_alike _ _ Put F) L (above_alike _ _ _ _ Put A) Hc)|].
    intros y Hy. apply (alike_trans _ _ _ Put Hy).
  - destruct (is_sorted sch).
    + destruct (rising ids && all_below (len a) ids); [apply Put; reflexivity|exact I].
    + destruct (all_below (len a) ids); [apply Put; reflexivity|exact I].
Qed.
Lemma passes_on_said hd x rd c k ev s sch b : fit x -> rank c < n -> above x rd (S (rank c)) -> nth_error schs c = Some sch ->
  nth_error (s_cols sch) k = Some (Indexed b) -> said (alike x) (passes_on Debug tl hd x rd c k false ev s).
Proof.
  intros F L A Hc Hk. unfold passes_on. pose proof (above_free x rd _ c A (Nat.lt_succ_diag_r _)) as N. apply orb_false_iff in N. destruct N as [N1 N2]. rewrite N1.
  destruct (fit_tab x c sch F Hc) as [a Ta]. unfold tab. rewrite Ta. cbn [after fst snd].
  assert (Rf : said (fun _ => True) (referring sch a k false s)).
  { unfold referring. destruct s; [exact I|]. rewrite Hk. exact I. }
  eapply said_after; [exact Rf|]. intros s1 _. cbn zeta.
  set (s2 := match hd with HDelete => if is_sorted sch then sorted s1 else s1 | _ => s1 end).
  eapply (said_after (alike x)).
  { destruct hd; [apply (takes_out_said x rd c ev s2 sch F L A Hc)|apply alike_refl|exact I]. }
  intros y Hy. eapply said_after; [apply Tell; [apply (fit_alike _ _ Hy F)|exact L|]|].
  - intros q Hq. rewrite (locked_shape x y q (proj1 Hy)) in Hq. destruct (Nat.eq_dec q c) as [Eq|Nq]; [rewrite Eq; apply le_n|].
    assert (Mq : mem q (c :: rd) = mem q rd) by (unfold mem; cbn [existsb]; apply Nat.eqb_neq in Nq; rewrite Nq; reflexivity).
    rewrite Mq in Hq. specialize (A q Hq). lia.
  - intros [z s3] Hz. cbn [fst] in *. apply (alike_trans _ _ _ Hy Hz).
Qed.
Lemma tells_all_said hd rd p ev trs : forall m x s d, fit x -> rank p <= n -> above x rd (rank p) -> (forall tr, In tr trs -> tracker_legal schs rank p tr = true) ->
  said (fun q => alike x (fst q)) (tells_all Debug tl hd rd p ev m trs x s d).
Proof.
  induction trs as [|tr trs IH]; intros m x s d F L A Hl; cbn [tells_all]; [apply alike_refl|].
  assert (T : said (fun q => alike x (fst (fst q))) (tells Debug tl hd rd p ev m tr x s d)).
  { specialize (Hl tr (or_introl eq_refl)). unfold tells. destruct tr as [c k key|srt f]; [|destruct (f ev); split; reflexivity].
    cbn [tracker_legal] in Hl. rewrite !andb_true_iff in Hl. destruct Hl as [[Hk Hr] Hc]. apply negb_true_iff in Hk. subst key. apply Nat.ltb_lt in Hr.
    destruct (nth_error schs c) as [sch|] eqn:Ec; [|discriminate]. destruct (nth_error (s_cols sch) k) as [[b|b]|] eqn:Ek; try discriminate.
    destruct (fit_tab x c sch F Ec) as [a Ta]. unfold tab. rewrite Ta. cbn [after fst snd].
    set (s1 := if is_sorted sch && negb d then sorted s else s). set (y := say x (Note p m ev s1)).
    assert (Hy : alike x y) by (split; reflexivity).
    eapply said_after; [apply (passes_on_said hd y rd c k ev s1 sch b); [apply (fit_alike _ _ Hy F)|lia| |exact Ec|exact Ek]|].
    - apply (above_le _ _ (rank p)); [apply (above_alike _ _ _ _ Hy A)|lia].
    - intros z Hz. cbn [fst]. apply (alike_trans _ _ _ Hy Hz). }
  eapply said_after; [exact T|]. intros [[y s1] d1] Hy. cbn [fst snd] in *.
  eapply said_weaken; [apply IH; [apply (fit_alike _ _ Hy F)|exact L|apply (above_alike _ _ _ _ Hy A)|intros; apply Hl; right; assumption]|].
  intros q Hq. apply (alike_trans _ _ _ Hy Hq).
Qed.
End Calls.

Lemma tell_said fuel : forall x rd p ev b1 b2 s, fit x -> rank p < fuel -> above x rd (rank p) ->
  said (fun q => alike x (fst q)) (tell Debug fuel x rd p ev b1 b2 s).
Proof.
  induction fuel as [|n IH]; intros x rd p ev b1 b2 s F L A; [lia|]. cbn [tell]. destruct (_ || _); [exact I|].
  destruct (nth_error (b_hdl x) (ev_id ev)) as [hd|]; [|exact I].
  apply (tells_all_said (tell Debug n) n IH); [exact F|lia|exact A|]. apply F.
Qed.

(** ** Programs *)
Variables (umax fuel : nat).
Definition inv (x : plains) (lk : option nat) : Prop := fit x /\ (forall q, locked x q = holding lk q).
Lemma holding_eq lk p : holding lk p = true -> lk = Some p.
Proof. unfold holding. destruct lk as [q|]; [|discriminate]. intro H. apply Nat.eqb_eq in H. subst. reflexivity. Qed.
Lemma inv_alike x y lk : alike x y -> inv x lk -> inv y lk.
Proof. intros H [A B]. split; [apply (fit_alike _ _ H A)|]. intro q. rewrite (locked_shape x y q (proj1 H)). apply B. Qed.
Lemma inv_put x lk p sch a a0 : inv x lk -> nth_error (b_tabs x) p = Some (sch, a0) ->
  fit (put_tab x p sch a) /\ (forall q, locked (put_tab x p sch a) q = if q =? p then is_some (p_lock a) else holding lk q).
Proof.
  intros [[A B] C] T. split; [split; [rewrite (fst_put x p sch a a0 T); exact A|exact B]|]. intro q. unfold locked.
  rewrite lock_put by (eapply nth_error_Some_lt; exact T). destruct (q =? p); [destruct (p_lock a); reflexivity|]. rewrite <- C. reflexivity.
Qed.
Lemma above_none x rd n : (forall q, locked x q = false) -> rd = [] -> above x rd n.
Proof. intros H -> q Hq. rewrite H in Hq. discriminate. Qed.

Lemma db_acts_said x lk c : inv x lk -> db_legal schs rank fuel lk c = true ->
  said (fun q => inv (fst q) (lock_after lk c)) (db_acts Debug umax fuel x c).
Proof.
  intros I0 Hl. pose proof I0 as [F Lk].
  assert (Fl : forall p sch a0 a' l ev, nth_error (b_tabs x) p = Some (sch, a0) -> lk = Some p -> p_lock a' = None -> rank p < fuel ->
    said (fun q => inv (fst q) None) (quietly (flushes Debug (tell Debug fuel) (put_tab x p sch a') [] p l ev))).
  { intros p sch a0 a' l ev T El La L. destruct (inv_put x lk p sch a' a0 I0 T) as [F' L'].
    assert (N : forall q, locked (put_tab x p sch a') q = false).
    { intro q. rewrite L', La, El. cbn [is_some holding]. destruct (q =? p); reflexivity. }
    assert (Hp : nth_error schs p = Some sch) by (rewrite <- (proj1 F), nth_error_map, T; reflexivity).
    unfold quietly. eapply said_after; [apply (flushes_said (tell Debug fuel) fuel (tell_said fuel) _ [] p l ev sch F' L (above_none _ _ _ N eq_refl) Hp)|].
    intros y Hy. cbn [fst]. apply (inv_alike _ _ None Hy). split; [exact F'|]. exact N. }
  destruct c as [p c|p ev|p ev|p ev s|p ev s|p ev s|p tr|ev hd].
  - destruct (flushing c) eqn:Fc; [destruct c as [o|? ? ?|? ? ?|? ?]; try discriminate; destruct o; discriminate|].
    assert (El : db_legal schs rank fuel lk (On p c) = match nth_error schs p with
      | Some sch => legal sch (holding lk p) c && match c with Do OLock => no_lock lk | _ => true end | None => false end).
    { destruct c as [o|? ? ?|? ? ?|? ?]; try reflexivity. destruct o; reflexivity || discriminate. }
    assert (E2 : db_acts Debug umax fuel x (On p c) =
      after (tab x p) (fun e => after (acts Debug umax (fst e) (snd e) c) (fun q => Fine (put_tab x p (fst e) (fst q), snd q)))).
    { destruct c as [o|? ? ?|? ? ?|? ?]; try reflexivity. destruct o; reflexivity || discriminate. }
    rewrite El in Hl. rewrite E2. destruct (nth_error schs p) as [sch|] eqn:Hp; [|discriminate]. apply andb_true_iff in Hl. destruct Hl as [Hl Ho].
    destruct (fit_tab x p sch F Hp) as [a Ta]. unfold tab. rewrite Ta. cbn [after fst snd].
    assert (Hlk : holding lk p = is_some (p_lock a)) by (rewrite <- Lk; unfold locked, lock_of; rewrite Ta; cbn [snd]; destruct (p_lock a); reflexivity).
    rewrite Hlk in Hl. pose proof (acts_said umax sch a c Hl) as As. destruct (acts Debug umax sch a c) as [[a' y]| |]; cbn [after said fst snd] in *; auto.
    destruct (inv_put x lk p sch a' a I0 Ta) as [F' L']. split; [exact F'|]. intro q. rewrite L', As, <- Hlk.
    assert (Z : forall lk', (locked_after (holding lk p) c = holding lk' p /\ forall q, q <> p -> holding lk q = holding lk' q) ->
      (if q =? p then locked_after (holding lk p) c else holding lk q) = holding lk' q).
    { intros lk' [Z1 Z2]. destruct (Nat.eqb_spec q p) as [->|Nq]; [exact Z1|apply Z2; exact Nq]. }
    apply Z. assert (Same : locked_after (holding lk p) c = holding lk p -> lock_after lk (On p c) = lk ->
      locked_after (holding lk p) c = holding (lock_after lk (On p c)) p /\ (forall q, q <> p -> holding lk q = holding (lock_after lk (On p c)) q)).
    { intros S1 S2. rewrite S2. split; [exact S1|reflexivity]. }
    destruct c as [o|? ? ?|? ? ?|? ?]; try (apply Same; reflexivity). destruct o; try (apply Same; reflexivity); try discriminate.
    + unfold no_lock in Ho. destruct lk; [discriminate|]. cbn [lock_after locked_after holding]. rewrite Nat.eqb_refl. split; [reflexivity|].
      intros r Nr. apply Nat.eqb_neq in Nr. rewrite Nr. reflexivity.
    + cbn [legal] in Hl. rewrite <- Hlk in Hl. apply holding_eq in Hl. subst lk. cbn [lock_after locked_after holding]. split; [reflexivity|].
      intros r Nr. apply Nat.eqb_neq. exact Nr.
  - cbn [db_legal] in Hl. apply andb_true_iff in Hl. destruct Hl as [Hh Hr]. apply Nat.ltb_lt in Hr. cbn [db_acts lock_after].
    assert (Q : locked x p = true) by (rewrite Lk; exact Hh). unfold locked, lock_of in Q. unfold tab. destruct (nth_error (b_tabs x) p) as [[sch a]|] eqn:Ta; [|discriminate].
    cbn [after fst snd] in *. destruct (p_lock a) as [l|] eqn:La; [|discriminate].
    apply (Fl p sch a (with_lock a None) l ev Ta (holding_eq _ _ Hh) eq_refl Hr).
  - cbn [db_legal] in Hl. apply andb_true_iff in Hl. destruct Hl as [Hh Hr]. apply Nat.ltb_lt in Hr. cbn [db_acts lock_after].
    assert (Q : locked x p = true) by (rewrite Lk; exact Hh). unfold locked, lock_of in Q. unfold tab at 1. destruct (nth_error (b_tabs x) p) as [[sch a]|] eqn:Ta; [|discriminate].
    cbn [after fst snd] in *. destruct (p_lock a) as [[[s b1] b2]|] eqn:La; [|discriminate].
    destruct (nothing_to_tell s); [exact I0|].
    unfold quietly. eapply (said_after (fun y => inv y lk)); [|intros y Hy; exact Hy].
    eapply said_after; [apply tell_said; [exact F|exact Hr|]|].
    + intros q Hq. rewrite Lk in Hq. cbn [mem existsb] in Hq. unfold mem in Hq. cbn [existsb] in Hq. rewrite orb_false_r in Hq. apply holding_eq in Hq.
      apply holding_eq in Hh. rewrite Hq in Hh. injection Hh as ->. lia.
    + intros [y s1] Hy. cbn [fst snd] in *. assert (Hp : nth_error schs p = Some sch) by (rewrite <- (proj1 F), nth_error_map, Ta; reflexivity).
      pose proof (inv_alike _ _ _ Hy I0) as Iy. destruct (fit_tab y p sch (proj1 Iy) Hp) as [a1 T1]. unfold tab. rewrite T1. cbn [after fst snd].
      assert (Rl : said (fun a' => p_lock a' = p_lock a1) (if ev_removal ev && negb (nothing_to_tell s1) then removed Debug sch a1 s1 else Fine a1)).
      { destruct (_ && _); [apply removed_lock|reflexivity]. }
      eapply said_after; [exact Rl|]. intros a2 _. cbn [said].
      destruct (inv_put y lk p sch (with_lock a2 (Some (SThese [], false, false))) a1 Iy T1) as [F' L']. split; [exact F'|]. intro q. rewrite L'. cbn [p_lock with_lock is_some].
      destruct (Nat.eqb_spec q p) as [->|Nq]; [symmetry; exact Hh|reflexivity].
  - cbn [db_legal] in Hl. rewrite !andb_true_iff in Hl. destruct Hl as [[Hn Hp] Hr]. apply Nat.ltb_lt in Hp, Hr. cbn [db_acts lock_after]. destruct lk; [discriminate|].
    destruct (nth_error_lt_Some _ _ Hp) as [sch Es]. unfold quietly.
    eapply said_after; [apply (takes_out_said (tell Debug fuel) fuel (tell_said fuel) x [] p ev s sch F Hr); [|exact Es]|].
    + apply above_none; [exact Lk|reflexivity].
    + intros y Hy. apply (inv_alike _ _ _ Hy I0).
  - cbn [db_legal] in Hl. rewrite !andb_true_iff in Hl. destruct Hl as [[Hh Hr] Hc]. apply Nat.ltb_lt in Hr. cbn [db_acts lock_after].
    destruct (nth_error schs p) as [sch|] eqn:Hp; [|discriminate]. destruct (fit_tab x p sch F Hp) as [a Ta]. unfold tab. rewrite Ta. cbn [after fst snd].
    assert (Q : locked x p = true) by (rewrite Lk; exact Hh). unfold locked, lock_of in Q. rewrite Ta in Q. cbn [snd] in Q.
    destruct (p_lock a) as [[[l b1] b2]|] eqn:La; [|discriminate]. rewrite Hc. cbn zeta. destruct s as [|ids].
    + apply (Fl p sch a (with_lock (emptied a) None) _ ev Ta (holding_eq _ _ Hh) eq_refl Hr).
    + destruct (all_below (len a) ids); [|exact I]. apply (Fl p sch a (with_lock (freed a ids) None) _ ev Ta (holding_eq _ _ Hh) eq_refl Hr).
  - cbn [db_legal] in Hl. rewrite !andb_true_iff in Hl. destruct Hl as [[Hn Hp] Hr]. apply Nat.ltb_lt in Hp, Hr. cbn [db_acts lock_after]. destruct lk; [discriminate|].
    rewrite Lk. cbn [holding]. unfold quietly. eapply (said_after (fun y => inv y None)); [|intros y Hy; exact Hy].
    eapply said_after; [apply tell_said; [exact F|exact Hr|apply above_none; [exact Lk|reflexivity]]|]. intros [y s1] Hy. apply (inv_alike _ _ _ Hy I0).
  - cbn [db_legal] in Hl. rewrite !andb_true_iff in Hl. destruct Hl as [[Hp Hh] Hl]. apply Nat.ltb_lt in Hp.
    destruct (nth_error_lt_Some _ _ Hp) as [sch Es]. destruct (fit_tab x p sch F Es) as [a Ta]. cbn [db_acts lock_after]. unfold tab. rewrite Ta. cbn [after fst].
    rewrite Lk. destruct (holding lk p); [discriminate|]. destruct (kind_eqb (s_kind sch) Consistent); [|exact I].
    cbn [said fst]. split; [|exact Lk]. split; [apply F|]. intros q tr' Hi. cbn [b_trk] in Hi.
    destruct F as [_ F]. destruct (Nat.eq_dec q p) as [->|Nq].
    + destruct (Nat.lt_ge_cases p (length (b_trk x))) as [L|L].
      * rewrite (nth_error_nth _ _ [] (nth_error_upd_eq _ _ _ L)) in Hi. apply in_app_iff in Hi. destruct Hi as [Hi|[<-|[]]]; [apply F; exact Hi|exact Hl].
      * rewrite upd_oob in Hi by exact L. apply F. exact Hi.
    + apply F. destruct (nth_error (b_trk x) q) as [ts|] eqn:E.
      * rewrite (nth_error_nth _ _ [] E). rewrite (nth_error_nth (upd (b_trk x) p _) q [] (x := ts)) in Hi; [exact Hi|]. rewrite nth_error_upd_ne by exact Nq. exact E.
      * apply nth_error_None in E. rewrite nth_overflow in Hi; [destruct Hi|]. rewrite upd_length. exact E.
  - cbn [db_acts lock_after]. destruct (_ && _); [exact I|]. destruct (_ <? _); [|exact I]. exact I0.
Qed.
Lemma db_plays_said cs : forall x lk, inv x lk -> all_db_legal schs rank fuel lk cs = true -> db_plays Debug umax fuel x cs <> Unsaid.
Proof.
  induction cs as [|c cs IH]; intros x lk V H; cbn [db_plays]; [discriminate|]. cbn [all_db_legal] in H. apply andb_true_iff in H. destruct H as [H1 H2].
  pose proof (db_acts_said x lk c V H1) as A. destruct (db_acts Debug umax fuel x c) as [[y ans]| |]; cbn [after fst snd said] in *; [|discriminate|contradiction].
  specialize (IH y _ A H2). destruct (db_plays Debug umax fuel y cs); cbn [after]; congruence.
Qed.
Lemma new_inv : inv (pls_new schs) None.
Proof.
  split; [split|].
  - cbn [pls_new b_tabs]. rewrite map_map. cbn [fst]. apply map_id.
  - intros p tr Hi. cbn [pls_new b_trk] in Hi. exfalso. revert p Hi. induction schs as [|s l IH]; intros [|p] Hi; cbn in Hi; try contradiction. eapply IH; exact Hi.
  - intro q. unfold locked, lock_of. cbn [pls_new b_tabs holding]. rewrite nth_error_map. destruct (nth_error schs q); reflexivity.
Qed.
End S.
