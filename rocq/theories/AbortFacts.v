(** Lemmas behind PropsAbort.v. *)
From Coq Require Import List Arith Bool Lia.
From Verif Require Import Base BaseFacts Column RowRange Table SortedTab TableSpec TableFacts SortedFacts TableProps Hist HistFacts Events Cascade Answers DbHist
  Unwind UnwindSpec UnwindAgree BlameFacts Acting ActingSpec ActingFacts Abort AbortSpec.
From Verif Require MirrorFacts.
From Verif Require Import Extract.
Import ListNotations.

(** ** The same outcome, which if it is no failure has the property *)
Definition agree {A} (P : A -> Prop) (x y : res A) : Prop := x = y /\ forall a, y = Ok a -> P a.
Lemma agree_bind {A B} (P : A -> Prop) (Q : B -> Prop) x y (f g : A -> res B) :
  agree P x y -> (forall a, P a -> agree Q (f a) (g a)) -> agree Q (bind x f) (bind y g).
Proof.
  intros [-> H] F. destruct y as [a|e]; cbn [bind]; [exact (F a (H a eq_refl))|]. split; [reflexivity|discriminate].
Qed.
Lemma agree_same {A} (P : A -> Prop) x : (forall a, x = Ok a -> P a) -> agree P x x.
Proof. intros H. split; auto. Qed.
Lemma agree_impl {A} (P Q : A -> Prop) x y : agree P x y -> (forall a, P a -> Q a) -> agree Q x y.
Proof. intros [E H] I. split; auto. Qed.
Lemma agree_any {A} (x : res A) : agree (fun _ => True) x x.
Proof. split; auto. Qed.
Lemma agree_fold {A S} (P : S -> Prop) (f g : S -> A -> res S) l : forall s, P s -> (forall s a, In a l -> P s -> agree P (f s a) (g s a)) ->
  agree P (fold_res f l s) (fold_res g l s).
Proof.
  induction l as [|a l IH]; intros s Hs F; cbn [fold_res]; [apply agree_same; intros b E; injection E as <-; exact Hs|].
  eapply agree_bind; [apply F; [left; reflexivity|exact Hs]|]. intros s' Hs'. apply IH; [exact Hs'|]. intros s1 b Hb. apply F. right. exact Hb.
Qed.
Lemma good_Ok {A} pr (P : A -> Prop) x a : good pr P x -> x = Ok a -> P a.
Proof. intros G ->. exact G. Qed.

(** ** Pushing one row *)
Lemma push_col_back imax c v c' : uc_push imax no_panics c v = (c', Ok tt) -> c_push imax c v = Ok c'.
Proof.
  unfold uc_push, c_push. destruct c as [b|b ix].
  - destruct (b_push b v); cbn; congruence.
  - destruct (b_push b v) as [b'|]; cbn [bind]; [|congruence]. destruct (native imax (b_len b)) as [n|]; cbn [bind]; [|congruence].
    replace (booms no_panics (v, n) ix) with false by (unfold booms; destruct ix; reflexivity). congruence.
Qed.
Lemma push_cols_back imax cs : forall r cs' bs, length cs = length r -> ucols (uc_push imax no_panics) cs r = (cs', Ok bs) ->
  map_res (fun p => c_push imax (fst p) (snd p)) (combine cs r) = Ok cs'.
Proof.
  induction cs as [|c cs IH]; intros [|v r] cs' bs L E; try discriminate L; cbn in E |- *; [congruence|].
  destruct (uc_push imax no_panics c v) as [c1 [[]|e]] eqn:C; [|congruence]. rewrite (push_col_back _ _ _ _ C). cbn [bind].
  destruct (ucols (uc_push imax no_panics) cs r) as [cs1 x] eqn:U. cbn [fst snd] in E. destruct x as [bs1|]; cbn [bind] in E; [|congruence].
  injection E as <- _. rewrite (IH r cs1 bs1); [reflexivity|cbn in L; lia|exact U].
Qed.
Lemma push_only_back w r w' i : u_push_only no_panics w r = (w', Ok i) -> push_only_unchecked w r = Ok (w', i).
Proof.
  unfold u_push_only, push_only_unchecked, cols_push. destruct (length (t_cols (w_tab w)) =? length r) eqn:L; [|discriminate].
  unfold thn, cols_left. cbn [fst snd]. destruct (ucols _ _ r) as [cs x] eqn:U. cbn [fst snd]. destruct x as [bs|]; [|discriminate].
  apply Nat.eqb_eq in L. rewrite (push_cols_back _ _ _ _ _ L U). cbn [bind]. cbn [with_tab w_tab]. intros E. injection E as <- E.
  bindn E l T. rewrite T. cbn [bind]. destruct l; [|discriminate]. injection E as ->. reflexivity.
Qed.
Lemma push_only_left w r : w_changes (fst (u_push_only no_panics w r)) = w_changes w /\ t_sch (w_tab (fst (u_push_only no_panics w r))) = t_sch (w_tab w).
Proof.
  unfold u_push_only, thn, cols_left. destruct (_ =? _); [|auto]. cbn [fst snd]. destruct (snd (ucols _ _ _)); cbn; auto.
Qed.
Lemma push_end_fail w r e : push_end_unchecked w r = Err e ->
  w_changes (fst (u_push_end no_panics w r)) = w_changes w /\ t_sch (w_tab (fst (u_push_end no_panics w r))) = t_sch (w_tab w).
Proof.
  unfold push_end_unchecked, u_push_end, thn. pose proof (push_only_left w r) as L. pose proof (push_only_back w r) as B.
  destruct (u_push_only no_panics w r) as [w1 [i|e1]]; cbn [fst snd] in *; intros E; [|exact L]. rewrite (B w1 i eq_refl) in E. discriminate.
Qed.
Lemma push_fail s w r e : tg true s (w_tab w) -> row_ty (s_cols s) r -> push w r = Err e ->
  w_changes (fst (u_push no_panics w r)) = w_changes w /\ t_sch (w_tab (fst (u_push no_panics w r))) = t_sch (w_tab w).
Proof.
  intros G T E. pose proof G as (Es & live & rows & K & X). destruct (X eq_refl) as [_ F].
  pose proof (push_exact w live rows r K) as P. rewrite Es in P. specialize (P T). unfold push, u_push in *.
  destruct (t_free (w_tab w)) as [|old f] eqn:Fr; [now apply push_end_fail with e|].
  assert (Lo : old < length rows) by (inversion F; auto). apply Nat.ltb_lt in Lo. rewrite Lo in P. destruct P as (w' & Q & _). congruence.
Qed.

Lemma tg_weak s t : tg true s t -> tg false s t.
Proof. intros (E & live & rows & K & _). split; [exact E|]. exists live, rows. split; [exact K|discriminate]. Qed.
Lemma read_quiet pr umax w o (its : list bag_pos) w' its' : (let* _ := read_op pr umax (w_tab w) o in Ok (w, its)) = Ok (w', its') -> w_changes w' = w_changes w.
Proof. intros H. bindn H u Hu. injection H as <- <-. reflexivity. Qed.
Lemma write_quiet pr umax w o w' its : avail Consistent o = true -> logs o = false -> (forall srt ev, o <> OLiveFlush srt ev) ->
  write_op pr umax w [] o = Ok (w', its) -> w_changes w' = w_changes w.
Proof.
  intros A L Nl H. pose proof (read_quiet pr umax w o [] w' its) as RD.
  destruct o; try discriminate A; try discriminate L; cbn [write_op] in H; try (apply RD; exact H); clear RD.
  - now elim (Nl srt ev).
  - bindn H n H1. injection H as <- <-. reflexivity.
  - bindn H n H1. bindn H n1 H2. bindn H n2 H3. injection H as <- <-. reflexivity.
  - bindn H w1 H1. injection H as <- <-. bindn H1 t Ht. injection H1 as <-. reflexivity.
  - injection H as <- <-. reflexivity.
Qed.
Lemma event_add_sch w i : t_sch (w_tab (event_add w i)) = t_sch (w_tab w).
Proof. unfold event_add. repeat (match goal with |- context [match ?x with _ => _ end] => destruct x end); reflexivity. Qed.
Lemma u_end_sch w r : t_sch (w_tab (fst (u_push_end no_panics w r))) = t_sch (w_tab w).
Proof.
  unfold u_push_end, thn. pose proof (proj2 (push_only_left w r)) as L. destruct (u_push_only no_panics w r) as [w1 [i|e1]]; cbn [fst snd] in *; [|exact L].
  rewrite event_add_sch. exact L.
Qed.
Lemma u_push_sch w r : t_sch (w_tab (fst (u_push no_panics w r))) = t_sch (w_tab w).
Proof.
  unfold u_push. destruct (t_free (w_tab w)) as [|o f]; [apply u_end_sch|]. unfold thn.
  match goal with |- context [event_add ?w1 o] => pose proof (event_add_sch w1 o) as E; set (w2 := event_add w1 o) in * end. cbn in E. rewrite <- E.
  assert (X : t_sch (w_tab (fst (u_swap_out_row no_panics w2 o r))) = t_sch (w_tab w2)).
  { unfold u_swap_out_row. destruct (t_check _ _); [|reflexivity]. destruct (_ =? _); reflexivity. }
  destruct (u_swap_out_row no_panics w2 o r) as [w3 [x|e]]; exact X.
Qed.
Lemma ufold_sch rs : forall w, t_sch (w_tab (fst (ufold (fun w r => drop_res (u_push no_panics w r)) rs w))) = t_sch (w_tab w).
Proof.
  induction rs as [|r rs IH]; intros w; [reflexivity|]. cbn [ufold]. unfold thn at 1. unfold drop_res. unfold thn at 1 2. pose proof (u_push_sch w r) as E.
  destruct (u_push no_panics w r) as [w1 [i|e]]; cbn [fst snd] in *; [|exact E]. rewrite <- E. apply IH.
Qed.
Lemma u_all_sch w rs : t_sch (w_tab (fst (u_push_all no_panics w rs false))) = t_sch (w_tab w).
Proof.
  unfold u_push_all, thn. pose proof (ufold_sch rs w) as E. destruct (ufold _ rs w) as [w1 [i|e]]; exact E.
Qed.
Lemma u_ends_sch rs : forall w i, t_sch (w_tab (fst (u_push_ends no_panics rs w i))) = t_sch (w_tab w).
Proof.
  induction rs as [|r rs IH]; intros w i; [reflexivity|]. cbn [u_push_ends]. unfold thn. pose proof (u_end_sch w r) as E.
  destruct (u_push_end no_panics w r) as [w1 [j|e]]; cbn [fst snd] in *; [|exact E]. rewrite <- E. apply IH.
Qed.
Lemma u_array_sch pr w rs : t_sch (w_tab (fst (u_push_array pr no_panics w rs false))) = t_sch (w_tab w).
Proof.
  destruct rs as [|r rs]; [reflexivity|]. cbn [u_push_array]. unfold thn. pose proof (u_end_sch w r) as E.
  destruct (u_push_end no_panics w r) as [w1 [j|e]]; cbn [fst snd] in *; [|exact E]. rewrite <- E. pose proof (u_ends_sch rs w1 j) as E1.
  destruct (u_push_ends no_panics rs w1 j) as [w2 [l|e]]; exact E1.
Qed.
Section Prompt.
Variable pr : profile.
Variable umax : nat.
Variable schs : list schema.
Variable react : list note -> plan.
Variable ab : cause.
Hypothesis nobag : pr = Debug \/ Forall (fun s => s_kind s <> Bag) schs.

Definition kept (u : universe) : Prop := Forall2 (tg true) schs (u_tabs u) /\ forall p, tracked schs p = false -> u_trackers u p = [].
Definition few (p : nat) (s : select) : Prop := tracked schs p = true -> s <> SAll.
Lemma kept_get u p t : kept u -> u_get u p = Ok t -> exists s, nth_error schs p = Some s /\ tg true s t.
Proof. intros [F _] E. unfold u_get in E. destruct (nth_error (u_tabs u) p) eqn:Et; [|discriminate]. injection E as <-. exact (F2_nth _ _ _ F p _ Et). Qed.
Lemma kept_put u p s t : kept u -> nth_error schs p = Some s -> tg true s t -> kept (u_put u p t).
Proof. intros [F T] E G. split; [exact (F2_upd _ _ _ F p s t E G)|exact T]. Qed.
Lemma kept_say u n : kept u -> kept (u_say u n). Proof. intros [F T]. split; [exact F|exact T]. Qed.
Lemma bagless p s ev : nth_error schs p = Some s -> pr = Release -> s_kind s = Bag -> ev_removal ev = false.
Proof.
  intros E P K. destruct nobag as [B|B]; [congruence|]. rewrite Forall_forall in B. exfalso. apply (B s); [|exact K]. eapply nth_error_In; eauto.
Qed.
Lemma tracked_kind p s : nth_error schs p = Some s -> tracked schs p = true <-> s_kind s = Consistent.
Proof. intros E. unfold tracked. rewrite E. destruct (s_kind s); split; congruence. Qed.
Lemma no_free s t : tg true s t -> s_kind s <> Consistent -> t_free t = [].
Proof. intros (E & live & rows & K & _) N. apply (ok_free_kind _ _ _ K). unfold t_kind. congruence. Qed.
Lemma few_free p s t sel : nth_error schs p = Some s -> tg true s t -> few p sel -> sel = SAll -> t_free t = [].
Proof.
  intros E G F S. apply (no_free s); [exact G|]. intros K. apply (tracked_kind p) in K; [|exact E]. now apply (F K).
Qed.
Lemma apply_kept p s w ev ch w' : nth_error schs p = Some s -> tg true s (w_tab w) -> few p ch -> flush_apply pr umax w ev ch = Ok w' -> tg true s (w_tab w').
Proof.
  intros E G F H. refine (good_Ok pr (fun w => tg true s (w_tab w)) _ _ _ H). apply good_flush_apply_tg; [exact G|apply (bagless p s ev E)|].
  intros _ _ S. now apply few_free with p s ch.
Qed.
Lemma drop_tab w t : w_drop w = Ok t -> t = w_tab w.
Proof. unfold w_drop. destruct (_ && _); [discriminate|congruence]. Qed.

(** ** What the locks remember *)
Definition ready (dirty : option nat) (d : db) : Prop :=
  kept (d_u d) /\ forall p s a b, tracked schs p = true -> d_lock d p = Some (s, a, b) -> s <> SAll /\ (dirty <> Some p -> s = SThese []).
Lemma ready_upd dirty dirty' d p u x : ready dirty d -> kept u -> (forall q, q <> p -> dirty' <> Some q -> dirty <> Some q) ->
  match x with Some (s, _, _) => tracked schs p = true -> s <> SAll /\ (dirty' <> Some p -> s = SThese []) | None => True end ->
  ready dirty' (Db u (upd (d_l d) p x)).
Proof.
  intros [_ R] Ku D X. split; [exact Ku|]. intros q s a b T L. destruct (Nat.eq_dec q p) as [Q|Q].
  - rewrite Q in *. unfold d_lock in L. cbn in L. destruct (le_lt_dec (length (d_l d)) p) as [Le|Lt].
    + rewrite upd_oob, nth_overflow in L by exact Le. discriminate.
    + rewrite nth_upd_eq in L by exact Lt. rewrite L in X. auto.
  - rewrite lock_upd_ne in L by exact Q. destruct (R q s a b T L) as [R1 R2]. split; [exact R1|]. intros N. apply R2. auto.
Qed.
Lemma ready_u dirty d u : ready dirty d -> kept u -> ready dirty (Db u (d_l d)).
Proof. intros [_ R] K. split; [exact K|exact R]. Qed.
Lemma ready_state dirty d p st : ready dirty d -> d_state d p = Ok st ->
  exists s, nth_error schs p = Some s /\ tg true s (st_tab st) /\
    match st with
    | Free _ => d_lock d p = None
    | Locked w its => its = [] /\ d_lock d p <> None /\ few p (w_changes w) /\ (tracked schs p = true -> dirty <> Some p -> w_changes w = SThese [])
    end.
Proof.
  intros [K R] H. unfold d_state in H. bindn H t Ht. destruct (kept_get _ _ _ K Ht) as (s & E & G). exists s. split; [exact E|].
  destruct (d_lock d p) as [[[c a] b]|] eqn:L; injection H as <-; (split; [exact G|]); [|reflexivity]. cbn. split; [reflexivity|]. split; [discriminate|].
  split; intros T; destruct (R p c a b T L) as [R1 R2]; auto.
Qed.
Lemma ready_locked dirty d p w : ready dirty d -> locked_table d p = Ok w ->
  exists s, nth_error schs p = Some s /\ tg true s (w_tab w) /\ few p (w_changes w) /\ (tracked schs p = true -> dirty <> Some p -> w_changes w = SThese []).
Proof.
  intros R H. unfold locked_table in H. bindn H st Hs. destruct st as [t|w1 its]; [discriminate|]. injection H as <-.
  destruct (ready_state _ _ _ _ R Hs) as (s & E & G & _ & _ & F & C). eauto.
Qed.

Definition quiet (d : db) : Prop := forall p, pending d p = false.
Lemma quiet_pendings d : quiet d -> pendings d = [].
Proof. intros Q. unfold pendings. induction (seq _ _) as [|p l IH]; [reflexivity|]. cbn. now rewrite Q. Qed.
Lemma ready_pending dirty d p : ready dirty d -> pending d p = true -> dirty = Some p.
Proof.
  intros R P. unfold pending in P. destruct (d_state d p) as [st|] eqn:S; [|discriminate]. destruct st as [t|w its]; [discriminate|].
  destruct (ready_state _ _ _ _ R S) as (s & E & G & _ & _ & F & C). cbn in G. unfold w_drop, t_consistent in P.
  destruct dirty as [q|]; [destruct (Nat.eq_dec q p) as [Q|Q]; [now rewrite Q|]|].
  - exfalso. destruct (t_kind (w_tab w)) eqn:K; cbn in P; try discriminate P. rewrite C in P; [discriminate P| |congruence].
    apply (tracked_kind p s E). now rewrite <- (tg_kind _ _ _ G).
  - exfalso. destruct (t_kind (w_tab w)) eqn:K; cbn in P; try discriminate P. rewrite C in P; [discriminate P| |congruence].
    apply (tracked_kind p s E). now rewrite <- (tg_kind _ _ _ G).
Qed.
Lemma ready_quiet d : ready None d -> quiet d.
Proof. intros R p. destruct (pending d p) eqn:P; [|reflexivity]. apply (ready_pending None) in P; [discriminate|exact R]. Qed.
Lemma state_put u l p q t x : q <> p -> d_state (Db (u_put u p t) (upd l p x)) q = d_state (Db u l) q.
Proof.
  intros Q. unfold d_state, u_get, d_lock. cbn. rewrite nth_error_upd_ne by congruence. now rewrite nth_upd_ne.
Qed.
Lemma quiet_store d p w w' its its' : quiet d -> d_state d p = Ok (Locked w its) -> t_sch (w_tab w') = t_sch (w_tab w) ->
  (t_kind (w_tab w) = Consistent -> w_changes w' = SThese []) -> quiet (d_store d p (Locked w' its')).
Proof.
  intros Q S T C q. cbn [d_store]. destruct (Nat.eq_dec q p) as [N|N].
  - rewrite N. unfold pending, d_state, d_lock. cbn. destruct (u_get _ _) as [t|] eqn:U; [|reflexivity]. cbn [bind].
    assert (t = w_tab w').
    { unfold u_get in U. cbn in U. destruct (lt_dec p (length (u_tabs (d_u d)))) as [Lt|Le]; [rewrite nth_error_upd_eq in U by exact Lt; congruence|].
      rewrite upd_oob in U by lia. unfold d_state, u_get in S. destruct (nth_error _ _) eqn:E in S; [|discriminate]. exfalso. apply Le. apply nth_error_Some. congruence. }
    subst t. destruct (nth p (upd (d_l d) p _) None) as [[[c a] b]|] eqn:L; [|reflexivity].
    destruct (le_lt_dec (length (d_l d)) p) as [Le|Lt]; [rewrite upd_oob, nth_overflow in L by exact Le; discriminate|].
    rewrite nth_upd_eq in L by exact Lt. injection L as <- <- <-. unfold w_drop, t_consistent. cbn [w_tab w_changes].
    replace (t_kind (w_tab w')) with (t_kind (w_tab w)) by (unfold t_kind; now rewrite T). destruct (t_kind (w_tab w)); cbn; try reflexivity. now rewrite C.
  - unfold pending. rewrite state_put by exact N. specialize (Q q). unfold pending in Q. destruct d. exact Q.
Qed.

Lemma always_this m (P : deed -> Prop) a k : m = PThen a k -> always P m -> P a. Proof. intros ->. cbn. tauto. Qed.
Lemma step_ready d p c st st' : ready None d -> deed_ty schs (Call (On p c)) -> spares schs (Call (On p c)) ->
  (tracked schs p && logs (op_of c) = true -> logs_one (op_of c) = true) -> through_lock (op_of c) = true \/ op_of c = OLock \/ op_of c = OClose ->
  d_state d p = Ok st -> step pr umax st (op_of c) = Ok st' ->
  ready (if tracked schs p && logs (op_of c) then Some p else None) (d_store d p st').
Proof.
  intros R Ty Sp Lo TL S H. destruct (ready_state _ _ _ _ R S) as (s & E & G & X).
  assert (T : op_ty (s_cols s) (op_of c)) by (apply Ty; exact E).
  assert (A : avail (s_kind s) (op_of c) = true).
  { unfold step in H. rewrite (tg_kind _ _ _ G) in H. destruct (avail _ _); [reflexivity|discriminate]. }
  assert (Sp' : tracked schs p = true -> op_of c <> OClear /\ op_of c <> OClearRaw /\ op_of c <> OSelectAll).
  { intros Tr. destruct c as [o|A0 g a|A0 g a|cmp rows]; [destruct o|..]; cbn in Sp |- *; try (repeat split; discriminate); congruence. }
  assert (Rf : removal_flush (op_of c) = false) by (destruct TL as [TL|[TL|TL]]; [destruct (op_of c); try reflexivity; discriminate|rewrite TL; reflexivity|rewrite TL; reflexivity]).
  assert (G' : tg true s (st_tab st')).
  { destruct (tracked schs p) eqn:Tr.
    - refine (good_Ok pr (fun st' => tg true s (st_tab st')) _ _ _ H). apply good_step; auto. intros _ Em. exfalso. destruct (Sp' eq_refl) as (N1 & N2 & N3).
      apply (tracked_kind p s E) in Tr. unfold empties in Em. destruct (op_of c); try discriminate Em; try (now elim N1); try (now elim N2);
        destruct TL as [TL|[TL|TL]]; discriminate TL.
    - assert (Nc : s_kind s <> Consistent) by (intros Kc; apply (tracked_kind p s E) in Kc; congruence).
      assert (Gf : tg false s (st_tab st')).
      { refine (good_Ok pr (fun st' => tg false s (st_tab st')) _ _ _ H). apply good_step; auto; [now apply tg_weak|discriminate]. }
      apply (tg_nc true s (w_new (st_tab st'))); [exact Nc|]. exact (tg_good false s (w_new (st_tab st')) Gf). }
  assert (K' : kept (u_put (d_u d) p (st_tab st'))) by (apply kept_put with s; auto; apply R).
  destruct st' as [t'|w' its']; cbn [d_store]; (apply ready_upd with None; [exact R|exact K'|discriminate|]); [exact I|].
  intros Tr. rewrite Tr. cbn [andb]. pose proof (proj1 (tracked_kind p s E) Tr) as Ks. destruct (Sp' Tr) as (N1 & N2 & N3).
  unfold step in H. rewrite (tg_kind _ _ _ G), A in H. rewrite Ks in A. destruct st as [t|w its].
  - assert (w' = w_new t) as ->.
    { destruct (op_of c); try (bindn H x Hx; discriminate H); try (injection H as <- <-; reflexivity). }
    cbn. destruct (logs (op_of c)); (split; [discriminate|auto]).
  - destruct X as (-> & D & F & C).
    assert (Wr : write_op pr umax w [] (op_of c) = Ok (w', its') /\ through_lock (op_of c) = true).
    { destruct TL as [TL|[TL|TL]].
      - split; [|exact TL]. destruct (op_of c); try discriminate TL; bindn H q Hq; injection H as <- <-; rewrite Hq; now destruct q.
      - rewrite TL in H. discriminate.
      - rewrite TL in H. bindn H t Ht. discriminate. }
    destruct Wr as [Wr TL1]. cbn in G. split.
    + rewrite (write_these pr umax w (op_of c) w' its'); [|rewrite <- Ks; exact (tg_kind _ _ _ G)|exact A|exact TL1|exact Wr].
      specialize (F Tr). tauto.
    + destruct (logs (op_of c)) eqn:Lg; [congruence|]. intros _. rewrite (write_quiet pr umax w (op_of c) w' its'); auto.
      * apply C; [exact Tr|discriminate].
      * intros srt ev Q. rewrite Q in TL1. discriminate.
Qed.
Lemma on_parts fc0 hd h d p c : act_step pr umax fc0 hd h d (On p c) = panic PRustType /\ through_lock (op_of c) = false /\ op_of c <> OLock /\ op_of c <> OClose \/
  (through_lock (op_of c) = true \/ op_of c = OLock \/ op_of c = OClose) /\ act_step pr umax fc0 hd h d (On p c) =
    let* st := d_state d p in
    let* _ := match st, op_of c with
                | Free _, OLock => lock_ok (can_write h p)
                | Free _, _ => lock_ok (can_read h p)
                | Locked _ _, _ => Ok tt
                end in
    let* st' := step pr umax st (op_of c) in
    let* a := answer_of pr umax st c in
    Ok (d_store d p st', a).
Proof.
  destruct c as [o|A g a|A g a|cmp rows]; [destruct o|..]; try (right; split; [auto|reflexivity]); left; repeat split; discriminate.
Qed.

Lemma quiet_release d p : quiet d -> quiet (d_release d p).
Proof.
  intros Q q. unfold d_release, pending, d_state, d_lock. cbn. destruct (u_get (d_u d) q) as [t|] eqn:U; [|reflexivity]. cbn [bind].
  destruct (Nat.eq_dec q p) as [N|N]; [rewrite N, nth_upd_none; reflexivity|]. rewrite nth_upd_ne by exact N.
  specialize (Q q). unfold pending, d_state, d_lock in Q. rewrite U in Q. exact Q.
Qed.
Lemma on_fails fc0 hd h d p c e : ready None d -> deed_ty schs (Call (On p c)) ->
  (tracked schs p && logs (op_of c) = true -> logs_one (op_of c) = true) ->
  act_step pr umax fc0 hd h d (On p c) = Err e -> quiet (left_over pr umax d (Call (On p c))).
Proof.
  intros R Ty Lo H. pose proof (ready_quiet d R) as Q. cbn [left_over]. destruct (d_state d p) as [st|] eqn:S; [|exact Q].
  destruct st as [t|w its]; [exact Q|]. destruct (ready_state _ _ _ _ R S) as (s & E & G & -> & D & F & C). cbn in G.
  assert (T : op_ty (s_cols s) (op_of c)) by (apply Ty; exact E).
  assert (Un : logs (op_of c) = true -> logs_one (op_of c) = false -> t_kind (w_tab w) <> Consistent).
  { intros L1 L2 K. rewrite Lo in L2; [discriminate|]. rewrite L1, andb_true_r. apply (tracked_kind p s E). now rewrite <- (tg_kind _ _ _ G). }
  assert (Same : forall w', w_changes w' = w_changes w -> t_kind (w_tab w) = Consistent -> w_changes w' = SThese []).
  { intros w' Ew K. rewrite Ew. apply C; [|discriminate]. apply (tracked_kind p s E). now rewrite <- (tg_kind _ _ _ G). }
  destruct (on_parts fc0 hd h d p c) as [(_ & L & N1 & N2)|(L & Eq)].
  - destruct (op_of c); try exact Q; try discriminate L. now elim N2.
  - rewrite Eq, S in H. cbn [bind] in H. destruct (op_of c) eqn:O1; try exact Q.
    + now apply quiet_release.
    + assert (c = Do (OPush r)) as -> by (destruct c; cbn in O1; congruence).
      assert (Pf : exists e1, push w r = Err e1 \/ t_kind (w_tab w) <> Consistent).
      { destruct (push w r) as [q|e1] eqn:P; [|eauto]. exists EFuel. right. intros K. unfold step in H. cbn [st_tab] in H. rewrite K in H. cbn [avail] in H.
        cbn [write_op answer_of] in H. rewrite P in H. cbn [bind] in H. discriminate H. }
      destruct Pf as (e1 & [Pf|Pf]).
      * destruct (push_fail s w r e1 G T Pf) as [P1 P2]. eapply quiet_store; eauto.
      * eapply quiet_store; eauto; [apply u_push_sch|]. intros K. now elim Pf.
    + eapply quiet_store; eauto; [apply u_all_sch|]. intros K. now elim Un.
    + eapply quiet_store; eauto; [apply u_array_sch|]. intros K. now elim Un.
Qed.

Section With.
Variables fc fc' : universe -> locks -> nat -> event -> bool -> bool -> select -> res (universe * select).
Hypothesis Fc : forall u h p ev a b s, kept u -> few p s -> agree (fun q => kept (fst q) /\ few p (snd q)) (fc' u h p ev a b s) (fc u h p ev a b s).

Lemma flush_agree u h p s w ev : kept u -> nth_error schs p = Some s -> tg true s (w_tab w) -> few p (w_changes w) ->
  agree kept (flush_with pr umax fc' u h p w ev) (flush_with pr umax fc u h p w ev).
Proof.
  intros Ku E G F. unfold flush_with. destruct (sel_empty (w_changes w)).
  - apply agree_same. intros u' H. bindn H t T. injection H as <-. apply drop_tab in T as ->. now apply kept_put with s.
  - eapply agree_bind; [apply Fc; [now apply kept_put with s|exact F]|]. intros q (Kq & Fq). cbv zeta.
    destruct (_ && _); [|apply agree_same; intros a H; injection H as <-; exact Kq]. apply agree_same. intros u' H.
    bindn H x1 X1. bindn H t T. bindn H w1 W1. bindn H x2 X2. bindn H t1 T1. injection H as <-. apply drop_tab in T1 as ->.
    destruct (kept_get _ _ _ Kq T) as (s' & E' & G'). assert (s' = s) as -> by congruence. apply kept_put with s; auto.
    exact (apply_kept p s (w_new t) ev (snd q) w1 E G' Fq W1).
Qed.
Lemma live_agree u h p s w ev : kept u -> nth_error schs p = Some s -> tg true s (w_tab w) -> few p (w_changes w) ->
  agree (fun q => kept (fst q) /\ tg true s (w_tab (snd q)) /\ sel_empty (w_changes (snd q)) = true) (live_flush_with pr umax fc' u h p w ev) (live_flush_with pr umax fc u h p w ev).
Proof.
  intros Ku E G F. unfold live_flush_with. destruct (sel_empty (w_changes w)) eqn:Se.
  - apply agree_same. intros u' H. injection H as <-. split; [now apply kept_put with s|auto].
  - eapply agree_bind; [apply Fc; [now apply kept_put with s|exact F]|]. intros q (Kq & Fq). cbv zeta. apply agree_same. intros u' H.
    bindn H t T. bindn H w1 W1. bindn H x2 X2. injection H as <-. cbn [fst snd w_tab w_changes].
    destruct (kept_get _ _ _ Kq T) as (s' & E' & G'). assert (s' = s) as -> by congruence.
    assert (G1 : tg true s (w_tab w1)) by (eapply apply_kept; [exact E| |exact Fq|exact W1]; exact G').
    split; [now apply kept_put with s|]. split; [exact G1|]. unfold assert_ in X2. destruct (sel_empty (w_changes w1)); [reflexivity|discriminate].
Qed.
Lemma raws_agree p s w rows w' : nth_error schs p = Some s -> s_kind s = Consistent -> tg true s (w_tab w) ->
  fold_res (fun w0 i => let* _ := assert_ (i <? t_len (w_tab w)) PRemoveRange in delete_raw pr umax w0 i) rows w = Ok w' ->
  tg true s (w_tab w') /\ w_changes w' = w_changes w.
Proof.
  intros E K G H. split.
  - refine (good_Ok pr (fun w => tg true s (w_tab w)) _ _ _ H).
    eapply good_impl; [apply (good_fold pr (fun w' => tg true s (w_tab w') /\ t_len (w_tab w') = t_len (w_tab w)))|intros w1 [A _]; exact A]; [auto|].
    intros w1 i _ [G1 L1]. eapply good_bind; [apply good_assert|]. cbv beta. intros _ Hi. apply Nat.ltb_lt in Hi.
    eapply good_impl; [apply (good_delete_raw_tg pr umax true s); [exact G1|lia|congruence]|].
    cbv beta. intros w2 [G2 L2]. split; [exact G2|]. rewrite L2 by exact K. exact L1.
  - revert H. generalize (t_len (w_tab w)) as n. intros n. assert (Gen : forall rows w w', fold_res (fun w0 i => let* _ := assert_ (i <? n) PRemoveRange in delete_raw pr umax w0 i) rows w = Ok w' -> w_changes w' = w_changes w).
    { clear. induction rows as [|i rows IH]; intros w w' H; cbn [fold_res] in H; [congruence|]. bindn H w1 H1. bindn H1 x X.
      rewrite (IH _ _ H). exact (MirrorFacts.delete_raw_changes _ _ _ _ _ H1). }
    apply Gen.
Qed.
Lemma remove_agree u h c ev rows : kept u -> few c rows -> agree kept (remove_rows_with pr umax fc' u h c ev rows) (remove_rows_with pr umax fc u h c ev rows).
Proof.
  intros Ku R. unfold remove_rows_with. eapply agree_bind; [apply agree_same; exact (fun t => kept_get u c t Ku)|]. intros t (s & E & G).
  pose proof (tg_kind _ _ _ G) as Ks. destruct (t_kind t) eqn:Kt; try (apply agree_same; discriminate).
  - eapply agree_bind; [apply agree_any|]. intros _ _. cbv zeta. destruct rows as [|rows]; [exfalso; apply R; [apply (tracked_kind c s E); congruence|reflexivity]|].
    eapply agree_bind; [apply agree_same; intros w H; exact (raws_agree c s (w_new t) rows w E (eq_sym Ks) G H)|].
    intros w (Gw & Cw). cbn in Cw. apply flush_agree with s; auto. intros _. rewrite Cw. discriminate.
  - eapply agree_bind; [apply agree_any|]. intros _ _. cbv zeta.
    assert (Nc : s_kind s <> Consistent) by congruence.
    eapply agree_bind with (P := fun w => tg true s (w_tab w)); [apply agree_same; intros w H|].
    + refine (good_Ok pr (fun w => tg true s (w_tab w)) _ _ _ H). apply (good_tg pr true s (fun w => w)); [exact Nc|]. destruct rows as [|rows].
      * cbn [good]. apply (tg_good false). apply (cleared_tg s (w_new t)). now apply tg_weak.
      * apply good_sorted_remove; [exact (tg_good _ _ (w_new t) G)|exact Nc].
    + intros w Gw. apply flush_agree with s; auto. intros T. apply (tracked_kind c s E) in T. contradiction.
Qed.
Lemma handle_agree f u h c ev rows : kept u -> few c rows -> agree kept (handle_with pr umax fc' f u h c ev rows) (handle_with pr umax fc f u h c ev rows).
Proof. intros Ku R. destruct f; cbn; [now apply remove_agree| |]; apply agree_same; intros a E; [injection E as <-; exact Ku|discriminate]. Qed.
Lemma few_sort c rows : few c rows -> few c (sel_sort rows).
Proof. intros R T. specialize (R T). destruct rows; [congruence|discriminate]. Qed.
Lemma run_agree f u h c ev rows : kept u -> few c rows -> agree kept (run_with pr umax fc' f u h c ev rows) (run_with pr umax fc f u h c ev rows).
Proof.
  intros Ku R. unfold run_with. eapply agree_bind; [apply agree_any|]. intros t _. cbv zeta.
  match goal with |- context [handle_with _ _ _ _ _ _ _ _ ?r] => set (rows' := r) end.
  assert (R' : few c rows') by (subst rows'; destruct f; try destruct (kind_eqb _ _); auto using few_sort).
  eapply agree_bind; [now apply handle_agree|]. intros u1 K1. eapply agree_bind; [apply agree_any|]. intros _ _.
  eapply agree_bind; [apply Fc; [exact K1|exact R']|]. intros q (Kq & _). apply agree_same. intros a E. injection E as <-. exact Kq.
Qed.
Lemma auto_agree f u h c k key ev rows : kept u -> rows <> SAll -> agree kept (auto_handle pr umax fc' f u h c k key ev rows) (auto_handle pr umax fc f u h c k key ev rows).
Proof.
  intros Ku R. unfold auto_handle. eapply agree_bind; [apply agree_any|]. intros _ _. eapply agree_bind; [apply agree_any|]. intros t _.
  eapply agree_bind with (P := fun r => r <> SAll); [|intros r Hr; apply run_agree; [exact Ku|intros _; exact Hr]]. apply agree_same. intros r H. destruct rows as [|rows]; [congruence|].
  destruct key; cbn in H.
  - bindn H x1 X1. bindn H x2 X2. bindn H x3 X3. injection H as <-. discriminate.
  - bindn H x1 X1. injection H as <-. discriminate.
Qed.

(** ** Code *)
Section Code.
Variable hd : option handler.
Variable h : locks.
Lemma deed_agree d dirty a k : ready dirty d -> deed_ty schs a -> spares schs a -> prompt schs dirty (PThen a k) ->
  agree (fun q => exists dirty', ready dirty' (fst q) /\ forall x, prompt schs dirty' (k x)) (deed_step pr umax fc' hd h d a) (deed_step pr umax fc hd h d a) /\
  forall e, deed_step pr umax fc hd h d a = Err e -> quiet (left_over pr umax d a).
Proof.
  intros R Ty Sp P. pose proof R as [Ku Rl].
  assert (Fin : forall u, kept u -> dirty = None -> (forall x, prompt schs None (k x)) -> exists dirty', ready dirty' (fst (Db u (d_l d), ANothing)) /\ forall x, prompt schs dirty' (k x)).
  { intros u K -> Pk. exists None. split; [now apply ready_u|exact Pk]. }
  assert (Rel : forall p, (dirty = None \/ dirty = Some p) -> forall u, kept u -> ready None (Db u (d_l (d_release d p)))).
  { intros p Hd u K. cbn. apply ready_upd with dirty; [exact R|exact K| |exact I]. intros q N _. destruct Hd; congruence. }
  assert (RelQ : forall p, (dirty = None \/ dirty = Some p) -> quiet (d_release d p)).
  { intros p Hd. apply ready_quiet. exact (Rel p Hd (d_u d) Ku). }
  destruct a as [[p c|p ev|p ev|p ev s|p ev s|p ev s|p tr|ev f]|c ev s|c ev s]; cbn [deed_step].
  - destruct dirty as [q|]; [contradiction P|]. cbn [prompt] in P.
    assert (Lo : tracked schs p && logs (op_of c) = true -> logs_one (op_of c) = true) by (destruct (_ && _); [tauto|discriminate]).
    split; [|intros e H; exact (on_fails _ _ _ _ _ _ _ R Ty Lo H)]. 
    destruct (on_parts fc' hd h d p c) as [(Z & T0 & N1 & N2)|(TL & Z)]; rewrite Z; destruct (on_parts fc hd h d p c) as [(Z' & T0' & N1' & N2')|(TL' & Z')]; rewrite Z'.
    + apply agree_same. discriminate.
    + exfalso. destruct TL' as [Q|[Q|Q]]; congruence.
    + exfalso. destruct TL as [Q|[Q|Q]]; congruence.
    + apply agree_same. intros q H. bindn H st St. bindn H x Hx. bindn H st1 St1. bindn H y Hy. injection H as <-. cbn [fst].
      pose proof (step_ready d p c st st1 R Ty Sp Lo TL St St1) as Rs. eexists. split; [exact Rs|]. destruct (_ && _); tauto.
  - assert (Hp : dirty = None \/ dirty = Some p) by (destruct dirty; cbn in P; [right; destruct P; congruence|auto]).
    assert (Pk : forall x, prompt schs None (k x)) by (destruct dirty; cbn in P; tauto).
    split; [|intros e _; exact (RelQ p Hp)].
    cbn [act_step]. eapply agree_bind; [apply agree_same; exact (fun w => ready_locked _ _ _ w R)|]. intros w (s & E & G & F & _). cbv zeta.
    eapply agree_bind; [apply flush_agree with s; auto|]. intros u K. apply agree_same. intros q H. injection H as <-. exists None. split; [now apply Rel|exact Pk].
  - assert (Hp : dirty = None \/ dirty = Some p) by (destruct dirty; cbn in P; [right; destruct P; congruence|auto]).
    assert (Pk : forall x, prompt schs None (k x)) by (destruct dirty; cbn in P; tauto).
    split; [|intros e _; exact (RelQ p Hp)].
    cbn [act_step]. eapply agree_bind; [apply agree_same; exact (fun w => ready_locked _ _ _ w R)|]. intros w (s & E & G & F & _). cbv zeta.
    eapply agree_bind; [exact (live_agree (d_u d) _ p s w ev Ku E G F)|]. intros [u w'] (K & G' & Em). cbn [fst snd] in *. apply agree_same. intros q H. injection H as <-. exists None. split; [|exact Pk].
    cbn [fst d_store]. apply (ready_upd dirty None d p); [exact R|now apply kept_put with s| |].
    + intros q N _. destruct Hp; congruence.
    + intros _. destruct (w_changes w') as [|[|]]; try discriminate Em. split; [discriminate|reflexivity].
  - destruct dirty as [q|]; [contradiction P|]. split; [|intros e _; exact (ready_quiet d R)]. cbn [act_step].
    eapply agree_bind; [apply remove_agree; [exact Ku|]|].
    + intros T N. rewrite N in Sp. cbn in Sp. congruence.
    + intros u K. apply agree_same. intros q H. injection H as <-. now apply Fin.
  - destruct dirty as [q|]; [contradiction P|]. pose proof (RelQ p (or_introl eq_refl)) as Rq. pose proof (ready_quiet d R) as Qd. split.
    + cbn [act_step]. eapply agree_bind; [apply agree_same; exact (fun w => ready_locked _ _ _ w R)|]. intros w (s' & E & G & F & C).
      eapply agree_bind with (P := fun _ => tracked schs p = true).
      { apply agree_same. intros x H. apply (tracked_kind p s' E). rewrite <- (tg_kind _ _ _ G). unfold assert_, t_consistent in H. destruct (t_kind (w_tab w)); try discriminate H; reflexivity. }
      intros _ Tr. destruct s as [|rows]; [cbn in Sp; congruence|]. cbv zeta.
      eapply agree_bind; [apply agree_same; intros w' H; exact (raws_agree p s' w rows w' E (proj1 (tracked_kind p s' E) Tr) G H)|].
      intros w' (G' & C'). eapply agree_bind; [apply flush_agree with s'; auto|].
      * rewrite C'. exact F.
      * intros u K. apply agree_same. intros q H. injection H as <-. exists None. split; [|exact P]. apply Rel; auto.
    + intros e _. cbn [left_over]. destruct s; [exact Rq|]. destruct (locked_table d p); [|exact Qd]. destruct (fold_res _ _ _); assumption.
  - destruct dirty as [q|]; [contradiction P|]. split; [|intros e _; exact (ready_quiet d R)]. cbn [act_step].
    eapply agree_bind; [apply agree_any|]. intros _ _. eapply agree_bind; [apply Fc; [exact Ku|]|].
    + intros T N. rewrite N in Sp. cbn in Sp. congruence.
    + intros u [K _]. apply agree_same. intros q H. injection H as <-. now apply Fin.
  - destruct dirty as [q|]; [contradiction P|]. split; [|intros e _; exact (ready_quiet d R)]. cbn [act_step]. apply agree_same. cbv zeta. intros q H.
    bindn H t U. bindn H x1 X1. bindn H x2 X2. bindn H x3 X3. injection H as <-. apply Fin; auto. destruct (kept_get _ _ _ Ku U) as (s & E & G).
    destruct Ku as [F T]. split; [exact F|]. intros r Tr. destruct (Nat.eq_dec r p) as [N|N].
    + exfalso. unfold assert_, t_consistent in X3. rewrite (tg_kind _ _ _ G) in X3. rewrite N in Tr. unfold tracked in Tr. rewrite E in Tr. destruct (s_kind s); discriminate.
    + unfold u_trackers. cbn [u_trk]. rewrite nth_upd_ne by exact N. exact (T r Tr).
  - destruct dirty as [q|]; [contradiction P|]. split; [|intros e _; exact (ready_quiet d R)]. cbn [act_step]. destruct hd; [apply agree_same; discriminate|].
    cbv zeta. eapply agree_bind; [apply agree_any|]. intros x _. apply agree_same. intros q H. injection H as <-. apply Fin; auto.
  - destruct dirty as [q|]; [contradiction P|]. split; [|intros e _; exact (ready_quiet d R)]. destruct hd as [f|]; [|apply agree_same; discriminate].
    eapply agree_bind; [apply handle_agree; [exact Ku|]|].
    + intros T N. rewrite N in Sp. cbn in Sp. congruence.
    + intros u K. apply agree_same. intros q H. injection H as <-. now apply Fin.
  - destruct dirty as [q|]; [contradiction P|]. split; [|intros e _; exact (ready_quiet d R)]. destruct hd as [f|]; [|apply agree_same; discriminate].
    eapply agree_bind; [apply run_agree; [exact Ku|]|].
    + intros T N. rewrite N in Sp. cbn in Sp. congruence.
    + intros u K. apply agree_same. intros q H. injection H as <-. now apply Fin.
Qed.
Lemma one_pending dirty d : ready dirty d -> match pendings d with _ :: _ :: _ => False | _ => True end.
Proof.
  intros R. assert (N : NoDup (pendings d)) by (apply NoDup_filter, seq_NoDup).
  assert (A : forall p, In p (pendings d) -> dirty = Some p) by (intros p Hp; apply filter_In in Hp as [_ Hp]; exact (ready_pending _ _ _ R Hp)).
  destruct (pendings d) as [|p [|q l]]; auto. assert (Some p = Some q) by (rewrite <- (A p), <- (A q); [reflexivity|cbn; auto|cbn; auto]).
  inversion N as [|? ? N1 _]. apply N1. left. congruence.
Qed.
Lemma endure_agree m : forall d dirty, ready dirty d -> always (deed_ty schs) m -> always (spares schs) m -> prompt schs dirty m ->
  agree kept (endure pr umax ab fc' hd h m d) (perform pr umax fc hd h m d).
Proof.
  induction m as [| |a k IH]; intros d dirty R Ty Sp P; cbn [endure perform].
  - unfold drop_all. pose proof (one_pending _ _ R) as O1. replace (match pendings d with _ :: _ :: _ => _ | _ => close_all d end) with (close_all d) by (destruct (pendings d) as [|? [|]]; tauto).
    apply agree_same. intros u H. unfold close_all in H. bindn H l Hl. injection H as <-. apply R.
  - cbn in P. rewrite P in R. unfold unwind. rewrite quiet_pendings by (now apply ready_quiet). apply agree_same. discriminate.
  - destruct Ty as [Ty Tk], Sp as [Sp Sk]. destruct (deed_agree d dirty a k R Ty Sp P) as [[E A] Q]. rewrite E.
    destruct (deed_step pr umax fc hd h d a) as [q|e] eqn:D; cbn [bind].
    + destruct (A q eq_refl) as (dirty' & R' & P'). now apply IH with dirty'.
    + specialize (Q e eq_refl). unfold unwind. rewrite quiet_pendings by exact Q. destruct e; apply agree_same; discriminate.
Qed.
End Code.

Hypothesis Rty : forall log, always (deed_ty schs) (react log).
Hypothesis Rsp : forall log, always (spares schs) (react log).
Hypothesis Rpr : forall log, prompt schs None (react log).
Lemma unlocked_ready u : kept u -> ready None (unlocked u).
Proof.
  intros K. split; [exact K|]. intros p s a b _ L. exfalso. revert L. unfold unlocked, d_lock. cbn. clear. revert p.
  induction (u_tabs u) as [|t l IH]; intros [|q] L; cbn in L; try discriminate. exact (IH q L).
Qed.
Lemma turn_agree f h p ev s x : kept (fst (fst s)) -> snd (fst s) <> SAll ->
  agree (fun s => kept (fst (fst s)) /\ snd (fst s) <> SAll) (end_turn pr umax react ab fc' f h p ev s x) (act_turn pr umax react fc f h p ev s x).
Proof.
  intros K N. unfold end_turn, act_turn. destruct (tracker_considers (snd x) ev); [|apply agree_same; intros a E; injection E as <-; auto]. cbv zeta.
  set (sel := if _ && _ then _ else _). assert (Ns : sel <> SAll) by (subst sel; destruct (_ && _); [destruct (snd (fst s)); [congruence|discriminate]|exact N]).
  match goal with |- context [u_say ?u ?m] => set (u1 := u_say u m); assert (K1 : kept u1) by (apply kept_say; exact K) end.
  eapply agree_bind with (P := kept).
  - destruct (snd x) as [c k key|srt cons]; [now apply auto_agree|]. apply endure_agree with None; auto. now apply unlocked_ready.
  - intros u Ku. apply agree_same. intros a E. injection E as <-. auto.
Qed.
End With.
Hypothesis Rty : forall log, always (deed_ty schs) (react log).
Hypothesis Rsp : forall log, always (spares schs) (react log).
Hypothesis Rpr : forall log, prompt schs None (react log).
Lemma flush_call_agree n : forall u h p ev a b s, kept u -> few p s ->
  agree (fun q => kept (fst q) /\ few p (snd q)) (end_flush pr umax react ab n u h p ev a b s) (act_flush pr umax react n u h p ev a b s).
Proof.
  induction n as [|n IH]; intros u h p ev a b s K F; cbn [end_flush act_flush]; [apply agree_same; discriminate|].
  eapply agree_bind; [apply agree_any|]. intros _ _. eapply agree_bind; [apply agree_any|]. intros f _. cbv zeta.
  destruct (tracked schs p) eqn:T.
  - eapply agree_bind with (P := fun s => kept (fst (fst s)) /\ snd (fst s) <> SAll).
    + apply agree_fold; [split; [exact K|exact (F T)]|]. intros s1 x _ [K1 N1]. now apply turn_agree.
    + intros s1 [K1 N1]. apply agree_same. intros q H. injection H as <-. split; [exact K1|]. intros _. exact N1.
  - rewrite (proj2 K p T). cbn. apply agree_same. intros q H. injection H as <-. split; [exact K|exact F].
Qed.
End Prompt.

Theorem prompt_agree pr umax react fuel schs m ab : Forall (fun s => s_cols s <> []) schs -> pr = Debug \/ Forall (fun s => s_kind s <> Bag) schs ->
  (forall log, always (deed_ty schs) (react log) /\ always (spares schs) (react log) /\ prompt schs None (react log)) ->
  always (deed_ty schs) m -> always (spares schs) m -> prompt schs None m ->
  end_run pr umax react ab fuel schs m = act_run pr umax react fuel schs m.
Proof.
  intros C B Rt Mt Ms Mp. unfold end_run, act_run. eapply (fun H => proj1 H). apply (endure_agree pr umax schs) with (dirty := None); auto.
  - intros u h p ev a b s. apply flush_call_agree; auto; intros log; apply Rt.
  - apply unlocked_ready. split.
    + cbn. clear - C. induction C as [|s l K F IH]; cbn; constructor; [|exact IH]. split; [reflexivity|]. exists (fun _ => true), [].
      split; [apply t_new_ok; exact K|]. intros _. cbn. split; [lia|constructor].
    + intros p _. unfold u_trackers. cbn. clear. revert p. induction schs as [|s l IH]; intros [|p]; cbn; auto.
Qed.

(** ** Nothing else differs *)
Definition same {A} (ab : cause) (x y : res A) : Prop := x = y \/ x = Err (EPanic ab) /\ exists c, y = Err (EPanic c).
Lemma same_refl {A} ab (x : res A) : same ab x x. Proof. left. reflexivity. Qed.
Lemma same_bind {A B} ab (x y : res A) (f g : A -> res B) : same ab x y -> (forall a, same ab (f a) (g a)) -> same ab (bind x f) (bind y g).
Proof.
  intros [-> |(-> & c & ->)] F; [|right; cbn; eauto]. destruct y as [a|e]; cbn; [apply F|apply same_refl].
Qed.
Lemma same_fold {A S} ab (f g : S -> A -> res S) l : (forall s a, same ab (f s a) (g s a)) -> forall s, same ab (fold_res f l s) (fold_res g l s).
Proof. intros F. induction l as [|a l IH]; intros s; cbn [fold_res]; [apply same_refl|]. apply same_bind; auto. Qed.
Ltac sames := repeat first [apply same_refl | assumption | apply same_bind; [|intro]].
Section Same.
Variable pr : profile.
Variable umax : nat.
Variable react : list note -> plan.
Variable ab : cause.
Section With.
Variables fc fc' : universe -> locks -> nat -> event -> bool -> bool -> select -> res (universe * select).
Hypothesis Fc : forall u h p ev a b s, same ab (fc' u h p ev a b s) (fc u h p ev a b s).
Lemma flush_same u h p w ev : same ab (flush_with pr umax fc' u h p w ev) (flush_with pr umax fc u h p w ev).
Proof. unfold flush_with. destruct (sel_empty _); [apply same_refl|]. apply same_bind; [apply Fc|]. intros q. apply same_refl. Qed.
Lemma live_same u h p w ev : same ab (live_flush_with pr umax fc' u h p w ev) (live_flush_with pr umax fc u h p w ev).
Proof. unfold live_flush_with. destruct (sel_empty _); [apply same_refl|]. apply same_bind; [apply Fc|]. intros q. apply same_refl. Qed.
Lemma remove_same u h c ev rows : same ab (remove_rows_with pr umax fc' u h c ev rows) (remove_rows_with pr umax fc u h c ev rows).
Proof.
  unfold remove_rows_with. apply same_bind; [apply same_refl|]. intros t. destruct (t_kind t); sames; apply flush_same.
Qed.
Lemma handle_same f u h c ev rows : same ab (handle_with pr umax fc' f u h c ev rows) (handle_with pr umax fc f u h c ev rows).
Proof. destruct f; cbn; [apply remove_same|apply same_refl|apply same_refl]. Qed.
Lemma run_same f u h c ev rows : same ab (run_with pr umax fc' f u h c ev rows) (run_with pr umax fc f u h c ev rows).
Proof.
  unfold run_with. apply same_bind; [apply same_refl|]. intros t. cbv zeta. apply same_bind; [apply handle_same|]. intros u1. apply same_bind; [apply same_refl|]. intros _.
  apply same_bind; [apply Fc|]. intros q. apply same_refl.
Qed.
Lemma auto_same f u h c k key ev rows : same ab (auto_handle pr umax fc' f u h c k key ev rows) (auto_handle pr umax fc f u h c k key ev rows).
Proof. unfold auto_handle. apply same_bind; [apply same_refl|]. intros _. apply same_bind; [apply same_refl|]. intros t. apply same_bind; [apply same_refl|]. intros r. apply run_same. Qed.
Lemma deed_same hd h d a : same ab (deed_step pr umax fc' hd h d a) (deed_step pr umax fc hd h d a).
Proof.
  destruct a as [[p c|p ev|p ev|p ev s|p ev s|p ev s|p tr|ev f]|c ev s|c ev s]; cbn [deed_step].
  - unfold act_step. destruct c as [o|A g a|A g a|cmp rows]; [destruct o|..]; apply same_refl.
  - cbn [act_step]. apply same_bind; [apply same_refl|]. intros w. cbv zeta. apply same_bind; [apply flush_same|]. intros u. apply same_refl.
  - cbn [act_step]. apply same_bind; [apply same_refl|]. intros w. apply same_bind; [apply live_same|]. intros u. apply same_refl.
  - cbn [act_step]. apply same_bind; [apply remove_same|]. intros u. apply same_refl.
  - cbn [act_step]. apply same_bind; [apply same_refl|]. intros w. apply same_bind; [apply same_refl|]. intros _. apply same_bind; [apply same_refl|]. intros w'.
    cbv zeta. apply same_bind; [apply flush_same|]. intros u. apply same_refl.
  - cbn [act_step]. apply same_bind; [apply same_refl|]. intros _. apply same_bind; [apply Fc|]. intros u. apply same_refl.
  - apply same_refl.
  - apply same_refl.
  - destruct hd; [|apply same_refl]. apply same_bind; [apply handle_same|]. intros u. apply same_refl.
  - destruct hd; [|apply same_refl]. apply same_bind; [apply run_same|]. intros u. apply same_refl.
Qed.
Lemma unwind_same d e : same ab (Err (A := universe) (unwind ab d e)) (Err e).
Proof. unfold unwind. destruct e as [c| | |]; try apply same_refl. destruct (pendings d); [apply same_refl|]. right. eauto. Qed.
Lemma map_res_panic {A B} (f : A -> res B) l p : In p l -> (forall x e, In x l -> f x = Err e -> exists c, e = EPanic c) -> (exists e, f p = Err e) -> exists c, map_res f l = Err (EPanic c).
Proof.
  intros Hin Hp (e & He). induction l as [|x l IH]; [contradiction|]. cbn. destruct (f x) as [b|e1] eqn:E; cbn [bind].
  - destruct Hin as [-> |Hin]; [congruence|]. destruct (IH Hin) as (c & ->); [intros y e1 Hy; apply Hp; right; exact Hy|]. cbn. eauto.
  - destruct (Hp x e1 (or_introl eq_refl) E) as (c & ->). eauto.
Qed.
Lemma state_panic d p e : d_state d p = Err e -> exists c, e = EPanic c.
Proof. unfold d_state, u_get. destruct (nth_error _ _); cbn; [discriminate|]. intros H. injection H as <-. eauto. Qed.
Lemma close_panic d p : In p (pendings d) -> exists c, close_all d = Err (EPanic c).
Proof.
  intros H. apply filter_In in H as [Hin P]. unfold close_all.
  destruct (map_res_panic (fun p => let* st := d_state d p in match st with Locked w _ => w_drop w | Free t => Ok t end) (seq 0 (length (u_tabs (d_u d)))) p Hin) as (c & ->).
  - intros x e _ E. destruct (d_state d x) as [st|e1] eqn:S; cbn in E; [|injection E as <-; eapply state_panic; eauto].
    destruct st as [t|w its]; [discriminate|]. unfold w_drop in E. destruct (_ && _); [injection E as <-; eauto|discriminate].
  - unfold pending in P. destruct (d_state d p) as [[t|w its]|]; try discriminate P. cbn. destruct (w_drop w); [discriminate|eauto].
  - cbn. eauto.
Qed.
Lemma endure_same hd h m : forall d, same ab (endure pr umax ab fc' hd h m d) (perform pr umax fc hd h m d).
Proof.
  induction m as [| |a k IH]; intros d; cbn [endure perform].
  - unfold drop_all. pose proof (close_panic d) as C. destruct (pendings d) as [|p [|q l]]; try apply same_refl. right. split; [reflexivity|]. apply (C p). left. reflexivity.
  - apply unwind_same.
  - destruct (deed_same hd h d a) as [-> |(-> & c & ->)].
    + destruct (deed_step pr umax fc hd h d a) as [q|e]; cbn [bind]; [apply IH|apply unwind_same].
    + cbn [bind]. right. split; [|eauto]. unfold unwind. destruct (pendings _); reflexivity.
Qed.
Lemma turn_same f h p ev s x : same ab (end_turn pr umax react ab fc' f h p ev s x) (act_turn pr umax react fc f h p ev s x).
Proof.
  unfold end_turn, act_turn. destruct (tracker_considers (snd x) ev); [|apply same_refl]. cbv zeta. apply same_bind; [|intros u; apply same_refl].
  destruct (snd x); [apply auto_same|apply endure_same].
Qed.
End With.
Lemma flush_call_same n : forall u h p ev a b s, same ab (end_flush pr umax react ab n u h p ev a b s) (act_flush pr umax react n u h p ev a b s).
Proof.
  induction n as [|n IH]; intros u h p ev a b s; cbn [end_flush act_flush]; [apply same_refl|].
  apply same_bind; [apply same_refl|]. intros _. apply same_bind; [apply same_refl|]. intros f. cbv zeta. apply same_bind; [|intros s1; apply same_refl].
  apply same_fold. intros s1 x. now apply turn_same.
Qed.
Lemma run_all_same fuel schs m : same ab (end_run pr umax react ab fuel schs m) (act_run pr umax react fuel schs m).
Proof. unfold end_run, act_run. apply endure_same. apply flush_call_same. Qed.
End Same.

(** ** Changes stay on the list of the lock *)
Definition more (w w' : wlock) : Prop := sel_empty (w_changes w) = false -> sel_empty (w_changes w') = false.
Lemma more_refl w : more w w. Proof. exact (fun H => H). Qed.
Lemma more_same w w' : w_changes w' = w_changes w -> more w w'. Proof. intros E. unfold more. now rewrite E. Qed.
Lemma more_trans a b c : more a b -> more b c -> more a c. Proof. unfold more. auto. Qed.
Lemma sel_push_more s i : sel_empty (sel_push s i) = false.
Proof. destruct s as [|[|]]; reflexivity. Qed.
Lemma event_more w i : more w (event_add w i).
Proof. unfold more, event_add. destruct (t_kind (w_tab w)); auto. intros _. apply sel_push_more. Qed.
Lemma u_end_more w r : more w (fst (u_push_end no_panics w r)).
Proof.
  unfold u_push_end, thn. pose proof (proj1 (push_only_left w r)) as L. destruct (u_push_only no_panics w r) as [w1 [i|e1]]; cbn [fst snd] in *; [|now apply more_same].
  eapply more_trans; [apply more_same; exact L|apply event_more].
Qed.
Lemma u_push_more w r : more w (fst (u_push no_panics w r)).
Proof.
  unfold u_push. destruct (t_free (w_tab w)) as [|o f]; [apply u_end_more|]. unfold thn.
  match goal with |- context [event_add ?w1 o] => pose proof (event_more w1 o) as E; set (w2 := event_add w1 o) in * end.
  assert (X : more w2 (fst (u_swap_out_row no_panics w2 o r))).
  { unfold u_swap_out_row. destruct (t_check _ _); [|apply more_refl]. destruct (_ =? _); apply more_same; reflexivity. }
  assert (Y : more w (fst (u_swap_out_row no_panics w2 o r))) by (eapply more_trans; [exact E|exact X]).
  destruct (u_swap_out_row no_panics w2 o r) as [w3 [x|e]]; exact Y.
Qed.
Lemma ufold_more rs : forall w, more w (fst (ufold (fun w r => drop_res (u_push no_panics w r)) rs w)).
Proof.
  induction rs as [|r rs IH]; intros w; [apply more_refl|]. cbn [ufold]. unfold thn at 1. unfold drop_res. unfold thn at 1 2. pose proof (u_push_more w r) as E.
  destruct (u_push no_panics w r) as [w1 [i|e]]; cbn [fst snd] in *; [|exact E]. eapply more_trans; [exact E|apply IH].
Qed.
Lemma u_all_more w rs : more w (fst (u_push_all no_panics w rs false)).
Proof.
  unfold u_push_all, thn. pose proof (ufold_more rs w) as E. destruct (ufold _ rs w) as [w1 [i|e]]; exact E.
Qed.
Lemma u_ends_more rs : forall w i, more w (fst (u_push_ends no_panics rs w i)).
Proof.
  induction rs as [|r rs IH]; intros w i; [apply more_refl|]. cbn [u_push_ends]. unfold thn. pose proof (u_end_more w r) as E.
  destruct (u_push_end no_panics w r) as [w1 [j|e]]; cbn [fst snd] in *; [|exact E]. eapply more_trans; [exact E|apply IH].
Qed.
Lemma u_array_more pr w rs : more w (fst (u_push_array pr no_panics w rs false)).
Proof.
  destruct rs as [|r rs]; [apply more_refl|]. cbn [u_push_array]. unfold thn. pose proof (u_end_more w r) as E.
  destruct (u_push_end no_panics w r) as [w1 [j|e]]; cbn [fst snd] in *; [|exact E]. pose proof (u_ends_more rs w1 j) as E1.
  destruct (u_push_ends no_panics rs w1 j) as [w2 [l|e]]; cbn [fst] in *; (eapply more_trans; [exact E|exact E1]).
Qed.
Lemma push_end_more w r w' i : push_end_unchecked w r = Ok (w', i) -> more w w'.
Proof.
  intros H. unfold push_end_unchecked in H. bindn H q Hq. destruct q as [w1 i1]. injection H as <- <-. cbn [fst snd].
  eapply more_trans; [|apply event_more]. apply more_same. unfold push_only_unchecked in Hq. bindn Hq cs Hc. bindn Hq l Hl. destruct l; [|discriminate]. injection Hq as <- _. reflexivity.
Qed.
Lemma push_more w r w' i : push w r = Ok (w', i) -> more w w'.
Proof.
  intros H. unfold push in H. destruct (t_free (w_tab w)) as [|o f]; [eapply push_end_more; eauto|].
  bindn H q Hq. destruct q as [w1 o']. injection H as <- <-. apply swap_out_log in Hq. destruct Hq as (t & Q & _). cbn [fst] in *. rewrite Q.
  match goal with |- context [event_add ?w1 o] => pose proof (event_more w1 o) as E end. exact E.
Qed.
Lemma push_all_more rs : forall w w', push_all w rs = Ok w' -> more w w'.
Proof.
  induction rs as [|r rs IH]; intros w w' H; unfold push_all in H; cbn [fold_res] in H; [injection H as ->; apply more_refl|].
  bindn H w1 H1. bindn H1 q Hq. destruct q as [w2 i]. injection H1 as <-. eapply more_trans; [exact (push_more _ _ _ _ Hq)|exact (IH _ _ H)].
Qed.
Lemma push_ends_more rs : forall w i w' j, fold_res (fun s r => push_end_unchecked (fst s) r) rs (w, i) = Ok (w', j) -> more w w'.
Proof.
  induction rs as [|r rs IH]; intros w i w' j H; cbn [fold_res] in H; [injection H as -> _; apply more_refl|].
  bindn H q Hq. destruct q as [w2 i2]. eapply more_trans; [exact (push_end_more _ _ _ _ Hq)|exact (IH _ _ _ _ H)].
Qed.
Lemma push_array_more pr rs w w' x : push_array pr w rs = Ok (w', x) -> more w w'.
Proof.
  intros H. destruct rs as [|r rs]; unfold push_array in H; [injection H as -> _; apply more_refl|].
  bindn H q Hq. bindn H q2 Hq2. bindn H e He. destruct q as [w1 i1], q2 as [w2 i2]. injection H as <- _. cbn [fst snd] in *.
  eapply more_trans; [exact (push_end_more _ _ _ _ Hq)|exact (push_ends_more _ _ _ _ _ Hq2)].
Qed.
Lemma write_more pr umax w o w' its : t_kind (w_tab w) = Consistent -> avail Consistent o = true -> through_lock o = true ->
  write_op pr umax w [] o = Ok (w', its) -> more w w'.
Proof.
  intros Kw A TL H. destruct (logs o) eqn:L.
  - destruct o; try discriminate L; cbn [write_op] in H.
    + bindn H w1 H1. injection H as <- <-. bindn H1 q Hq. injection H1 as <-. destruct q. eapply push_more; eauto.
    + bindn H w1 H1. injection H as <- <-. eapply push_all_more; eauto.
    + bindn H w1 H1. injection H as <- <-. bindn H1 q Hq. injection H1 as <-. destruct q. eapply push_array_more; eauto.
    + bindn H w1 H1. injection H as <- <-. unfold delete in H1. rewrite Kw in H1. bindn H1 x Hx. injection H1 as <-.
      unfold more, event_del. rewrite Kw. intros _. apply sel_push_more.
    + injection H as <- <-. intros _. apply sel_push_more.
    + injection H as <- <-. intros _. reflexivity.
    + injection H as <- <-. intros _. unfold clear, event_cleared. rewrite Kw. reflexivity.
  - apply more_same. apply (write_quiet pr umax w o w' its A L); [|exact H]. intros srt ev E. rewrite E in TL. discriminate.
Qed.

Section Doom.
Variable pr : profile.
Variable umax : nat.
Variable schs : list schema.
Variable react : list note -> plan.
Variable ab : cause.
Variable fuel : nat.
Hypothesis nobag : pr = Debug \/ Forall (fun s => s_kind s <> Bag) schs.
Hypothesis Rty : forall log, always (deed_ty schs) (react log).
Notation fc' := (end_flush pr umax react ab fuel).
Notation sound u := (Forall2 (tg false) schs (u_tabs u)).

Lemma deed_sound d a q : sound (d_u d) -> deed_ty schs a -> deed_step pr umax fc' None [] d a = Ok q -> sound (d_u (fst q)).
Proof.
  intros F Ty H. destruct (deed_same pr umax ab (act_flush pr umax react fuel) fc' (flush_call_same pr umax react ab fuel) None [] d a) as [E|(E & _)]; rewrite H in E; [|discriminate].
  assert (X : fair true pr (good_end true schs (fun _ => 0) 0 (fun _ => PEnd)) (deed_step pr umax (act_flush pr umax react fuel) None [] d a)).
  { apply (deed_fair true pr umax schs (fun _ => 0) nobag fuel) with (held := None); auto.
    - apply act_flush_fair; auto.
    - split; [exact F|discriminate].
    - left. reflexivity. }
  rewrite <- E in X. destruct X as ((X & _) & _). exact X.
Qed.
Definition kinds (u : universe) : Prop := Forall2 (fun s t => t_sch t = s) schs (u_tabs u).
Lemma sound_kinds u : sound u -> kinds u.
Proof. intros F. unfold kinds. clear nobag Rty. induction F as [|s t l m (E & _) F IH]; constructor; auto. Qed.
Lemma unflushed_pending d p : kinds (d_u d) -> unflushed schs d p -> In p (pendings d).
Proof.
  intros F (T & s & a & b & L & S). unfold tracked in T. destruct (nth_error schs p) as [sc|] eqn:E; [|discriminate].
  assert (Lt : p < length schs) by (apply nth_error_Some; congruence). rewrite <- (F2_len _ _ _ F) in Lt.
  destruct (nth_error (u_tabs (d_u d)) p) as [t|] eqn:Et; [|apply nth_error_None in Et; lia].
  destruct (F2_nth _ _ _ F p t Et) as (sc' & E' & G). assert (sc' = sc) as -> by congruence.
  apply filter_In. split; [apply in_seq; lia|]. unfold pending, d_state, u_get. rewrite Et. cbn [bind]. rewrite L.
  unfold w_drop, t_consistent, t_kind. cbn [w_tab w_changes]. rewrite G, S. destruct (s_kind sc); try discriminate T. reflexivity.
Qed.
Lemma kinds_store d p w w' its : kinds (d_u d) -> d_state d p = Ok (Locked w its) -> t_sch (w_tab w') = t_sch (w_tab w) -> kinds (d_u (d_store d p (Locked w' its))).
Proof.
  intros F S E. unfold d_state in S. bindn S t Ut. assert (Et : nth_error (u_tabs (d_u d)) p = Some t) by (unfold u_get in Ut; destruct (nth_error _ _); [congruence|discriminate]).
  destruct (F2_nth _ _ _ F p t Et) as (sc & Es & G). cbn. apply (F2_upd _ _ _ F p sc); [exact Es|]. rewrite E.
  destruct (d_lock d p) as [[[x y] z]|]; [|discriminate S]. injection S as <- _. exact G.
Qed.
Lemma left_kinds d a : kinds (d_u d) -> kinds (d_u (left_over pr umax d a)).
Proof.
  intros F. destruct a as [[q c|q ev|q ev|q ev s|q ev s|q ev s|q tr|ev f]|c ev s|c ev s]; cbn [left_over]; try exact F.
  - destruct (d_state d q) as [st|] eqn:S; [|exact F]. destruct st as [t|w its]; [exact F|].
    destruct (op_of c); try exact F; (eapply kinds_store; [exact F|exact S|]); [apply u_push_sch|apply u_all_sch|apply u_array_sch].
  - destruct s; [exact F|]. destruct (locked_table d q); [|exact F]. destruct (fold_res _ _ _); exact F.
Qed.
Lemma unflushed_upd d p q u x : q <> p -> unflushed schs d p -> unflushed schs (Db u (upd (d_l d) q x)) p.
Proof. intros N (T & s & a & b & L & S). split; [exact T|]. exists s, a, b. split; [|exact S]. now rewrite lock_upd_ne by congruence. Qed.
Lemma unflushed_u d p u : unflushed schs d p -> unflushed schs (Db u (d_l d)) p. Proof. exact (fun H => H). Qed.
Lemma lock_store u l p x : nth p l None <> None -> d_lock (Db u (upd l p (Some x))) p = Some x.
Proof.
  intros H. unfold d_lock. cbn. apply nth_upd_eq. destruct (le_lt_dec (length l) p); [|assumption]. elim H. now apply nth_overflow.
Qed.
Lemma on_unflushed d p q c st st' : sound (d_u d) -> unflushed schs d p -> holds_on p (Call (On q c)) ->
  through_lock (op_of c) = true \/ op_of c = OLock \/ op_of c = OClose ->
  d_state d q = Ok st -> step pr umax st (op_of c) = Ok st' -> unflushed schs (d_store d q st') p.
Proof.
  intros F U Ho TL S H. destruct (Nat.eq_dec q p) as [N|N]; [|destruct st'; now apply unflushed_upd].
  rewrite N in *. pose proof U as (T & s & a & b & L & Se).
  assert (Cl : op_of c <> OClose).
  { intros O1. assert (c = Do OClose) as -> by (destruct c; cbn in O1; congruence). now elim Ho. }
  unfold d_state in S. bindn S t Ut. rewrite L in S. injection S as <-.
  assert (K : t_kind t = Consistent).
  { unfold u_get in Ut. destruct (nth_error (u_tabs (d_u d)) p) as [t'|] eqn:Et; [|discriminate]. injection Ut as <-.
    destruct (F2_nth _ _ _ F p t' Et) as (sc & E & G). rewrite (tg_kind _ _ _ G). unfold tracked in T. rewrite E in T. destruct (s_kind sc); try discriminate; reflexivity. }
  unfold step in H. cbn [st_tab w_tab] in H. rewrite K in H. destruct (avail Consistent (op_of c)) eqn:A; [|discriminate].
  assert (Wr : exists w' its', st' = Locked w' its' /\ write_op pr umax (W t s a b) [] (op_of c) = Ok (w', its') /\ through_lock (op_of c) = true).
  { destruct TL as [TL|[TL|TL]].
    - destruct (op_of c); try discriminate TL; bindn H q0 Hq; injection H as <-; exists (fst q0), (snd q0); rewrite Hq; destruct q0; auto.
    - rewrite TL in H. discriminate.
    - now elim Cl. }
  destruct Wr as (w' & its' & -> & Wr & TL1). cbn [d_store]. split; [exact T|]. eexists _, _, _. split; [apply lock_store; unfold d_lock in L; congruence|].
  exact (write_more pr umax (W t s a b) (op_of c) w' its' K A TL1 Wr Se).
Qed.
Lemma deed_unflushed d p a q : sound (d_u d) -> unflushed schs d p -> holds_on p a ->
  deed_step pr umax fc' None [] d a = Ok q -> unflushed schs (fst q) p.
Proof.
  intros F U Ho H. destruct a as [[r c|r ev|r ev|r ev s|r ev s|r ev s|r tr|ev f]|c ev s|c ev s]; cbn [deed_step] in H; try discriminate H.
  - destruct (on_parts pr umax fc' None [] d r c) as [(E & _)|(TL & E)]; rewrite E in H; [discriminate|].
    bindn H st St. bindn H x Hx. bindn H st1 St1. bindn H y Hy. injection H as <-. cbn [fst]. now apply on_unflushed with c st.
  - cbn [act_step] in H. bindn H w Hw. bindn H u Hu. injection H as <-. now apply unflushed_upd.
  - cbn [act_step] in H. bindn H w Hw. bindn H u Hu. injection H as <-. cbn [fst d_store d_u d_l]. now apply unflushed_upd.
  - cbn [act_step] in H. bindn H u Hu. injection H as <-. exact U.
  - cbn [act_step] in H. bindn H w Hw. bindn H x Hx. bindn H w1 Hw1. bindn H u Hu. injection H as <-. now apply unflushed_upd.
  - cbn [act_step] in H. bindn H w Hw. bindn H u Hu. injection H as <-. exact U.
  - cbn [act_step] in H. cbv zeta in H. bindn H w Hw. bindn H x1 X1. bindn H x2 X2. bindn H x3 X3. injection H as <-. exact U.
  - cbn [act_step] in H. cbv zeta in H. bindn H w Hw. injection H as <-. exact U.
Qed.
Lemma left_unflushed d p a : unflushed schs d p -> holds_on p a -> unflushed schs (left_over pr umax d a) p.
Proof.
  intros U Ho. destruct a as [[q c|q ev|q ev|q ev s|q ev s|q ev s|q tr|ev f]|c ev s|c ev s]; cbn [left_over]; try exact U; try (now apply unflushed_upd).
  - destruct (d_state d q) as [st|] eqn:S; [|exact U]. destruct st as [t|w its]; [exact U|].
    assert (X : forall w', more w w' -> unflushed schs (d_store d q (Locked w' its)) p).
    { intros w' M. destruct (Nat.eq_dec q p) as [N|N]; [|now apply unflushed_upd]. rewrite N in *. pose proof U as (T & s & a & b & L & Se).
      unfold d_state in S. bindn S t Ut. rewrite L in S. injection S as <- <-. split; [exact T|]. eexists _, _, _. split; [apply lock_store; unfold d_lock in L; congruence|].
      exact (M Se). }
    destruct (op_of c) eqn:O1; try exact U.
    + assert (c = Do OClose) as -> by (destruct c; cbn in O1; congruence). now apply unflushed_upd.
    + apply X, u_push_more.
    + apply X, u_all_more.
    + apply X, u_array_more.
  - destruct s; [now apply unflushed_upd|]. destruct (locked_table d q); [|exact U]. destruct (fold_res _ _ _); [now apply unflushed_upd|exact U].
Qed.

(** What can come of it *)
Definition doomed (x : res universe) : Prop := match x with Ok _ => False | Err (EPanic c) => c = ab \/ c = PNotFlushed | Err _ => True end.
Lemma map_res_first {A B} (f : A -> res B) l c : (forall x e, In x l -> f x = Err e -> e = c) -> (exists p e, In p l /\ f p = Err e) -> map_res f l = Err c.
Proof.
  intros Hp. induction l as [|x l IH]; intros (p & e & Hin & He); [contradiction|]. cbn. destruct (f x) as [b|e1] eqn:E; cbn [bind].
  - destruct Hin as [-> |Hin]; [congruence|]. rewrite IH; [reflexivity|intros y e1 Hy; apply Hp; right; exact Hy|eauto].
  - now rewrite (Hp x e1 (or_introl eq_refl) E).
Qed.
Lemma close_unflushed d p : In p (pendings d) -> close_all d = Err (EPanic PNotFlushed).
Proof.
  intros H. apply filter_In in H as [Hin P]. unfold close_all. erewrite map_res_first; [reflexivity| |].
  - intros x e Hx E. cbv beta in E. apply in_seq in Hx. unfold d_state, u_get in E. destruct (nth_error (u_tabs (d_u d)) x) eqn:N; [|apply nth_error_None in N; lia].
    cbn [bind] in E. destruct (d_lock d x) as [[[s a] b]|]; [|discriminate]. unfold w_drop in E. destruct (_ && _); [injection E as <-; reflexivity|discriminate].
  - exists p. unfold pending in P. destruct (d_state d p) as [[t|w its]|]; try discriminate P. cbn. destruct (w_drop w) as [|e]; [discriminate|]. exists e. auto.
Qed.
Lemma unwind_pending d p c : In p (pendings d) -> unwind ab d (EPanic c) = EPanic ab.
Proof. intros H. unfold unwind. destruct (pendings d); [contradiction|reflexivity]. Qed.
Lemma endure_doomed p m : forall d, sound (d_u d) -> unflushed schs d p -> always (deed_ty schs) m -> always (holds_on p) m ->
  doomed (endure pr umax ab fc' None [] m d).
Proof.
  induction m as [| |a k IH]; intros d F U Ty Ho; cbn [endure].
  - pose proof (unflushed_pending d p (sound_kinds _ F) U) as P. unfold drop_all. rewrite (close_unflushed d p P). destruct (pendings d) as [|? [|]]; cbn; auto.
  - rewrite (unwind_pending d p); [cbn; auto|]. apply unflushed_pending; [now apply sound_kinds|exact U].
  - destruct Ty as [Ty Tk], Ho as [Ho Hk]. destruct (deed_step pr umax fc' None [] d a) as [q|e] eqn:D.
    + apply IH; auto; [exact (deed_sound d a q F Ty D)|exact (deed_unflushed d p a q F U Ho D)].
    + assert (P : In p (pendings (left_over pr umax d a))).
      { apply unflushed_pending; [apply left_kinds; now apply sound_kinds|now apply left_unflushed]. }
      destruct e as [c| | |]; [rewrite (unwind_pending _ p); [cbn; auto|exact P]|..]; unfold unwind; exact I.
Qed.
Lemma endure_first l m : forall d d', fold_res (fun d a => let* q := deed_step pr umax fc' None [] d a in Ok (fst q)) l d = Ok d' ->
  endure pr umax ab fc' None [] (first l m) d = endure pr umax ab fc' None [] m d'.
Proof.
  induction l as [|a l IH]; intros d d' H; cbn [fold_res first] in *; [congruence|]. bindn H d1 H1. bindn H1 q Hq. injection H1 as <-. cbn [endure]. rewrite Hq. now apply IH.
Qed.
Lemma fold_sound l : forall d d', sound (d_u d) -> Forall (deed_ty schs) l -> fold_res (fun d a => let* q := deed_step pr umax fc' None [] d a in Ok (fst q)) l d = Ok d' -> sound (d_u d').
Proof.
  induction l as [|a l IH]; intros d d' F T H; cbn [fold_res] in H; [congruence|]. bindn H d1 H1. bindn H1 q Hq. injection H1 as <-. inversion T as [|? ? Ta Tl].
  apply (IH (fst q)); auto. exact (deed_sound d a q F Ta Hq).
Qed.
End Doom.
Theorem aborts pr umax react fuel schs ab l d p m : Forall (fun s => s_cols s <> []) schs -> pr = Debug \/ Forall (fun s => s_kind s <> Bag) schs ->
  (forall log, always (deed_ty schs) (react log)) -> Forall (deed_ty schs) l -> always (deed_ty schs) m ->
  so_far pr umax react ab fuel schs l = Ok d -> unflushed schs d p -> always (holds_on p) m ->
  match end_run pr umax react ab fuel schs (first l m) with Ok _ => False | Err (EPanic c) => c = ab \/ c = PNotFlushed | Err _ => True end.
Proof.
  intros C B Rt Lt Mt Sf U Ho. unfold end_run. unfold so_far in Sf. rewrite (endure_first pr umax react ab fuel l m _ d Sf).
  apply (endure_doomed pr umax schs react ab fuel B Rt p); auto. apply (fold_sound pr umax schs react ab fuel B Rt l _ d) in Sf; auto.
  cbn. now apply new_tabs.
Qed.
Theorem aborts_now pr umax react fuel schs ab l d p a e : Forall (fun s => s_cols s <> []) schs -> pr = Debug \/ Forall (fun s => s_kind s <> Bag) schs ->
  (forall log, always (deed_ty schs) (react log)) -> Forall (deed_ty schs) l ->
  so_far pr umax react ab fuel schs l = Ok d -> unflushed schs d p -> holds_on p a ->
  deed_step pr umax (end_flush pr umax react ab fuel) None [] d a = Err (EPanic e) -> forall k,
  end_run pr umax react ab fuel schs (first l (PThen a k)) = Err (EPanic ab).
Proof.
  intros C B Rt Lt Sf U Ho D k. unfold end_run. pose proof Sf as Sf1. unfold so_far in Sf. rewrite (endure_first pr umax react ab fuel l _ _ d Sf). cbn [endure]. rewrite D.
  rewrite (unwind_pending ab _ p); [reflexivity|]. apply (unflushed_pending schs); [|now apply (left_unflushed pr umax schs)].
  apply left_kinds, sound_kinds. apply (fold_sound pr umax schs react ab fuel B Rt l _ d) in Sf; auto. cbn. now apply new_tabs.
Qed.
