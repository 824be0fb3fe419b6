(** Proofs about the place of tables for threads. *)
From Coq Require Import List Arith Bool Lia.
From Verif Require Import Base BaseFacts Names Column Order RowRange Table SortedTab Events Cascade Extract Threads ThreadSpec ChooseFacts PlaceSpec PlaceFacts PlaceXSpec PlaceXFacts
  ThreadBuildSpec PlaceThreadSpec.
From Verif Require ThreadBuildFacts.
Import ListNotations.

Section W.
Variables (pr : profile) (umax : nat) (sg : nat -> nat) (n N : nat) (T0 : list table).
Hypothesis Inj : forall p q, p < n -> q < n -> sg p = sg q -> p = q.
Hypothesis Below : forall p, p < n -> sg p < N.
Notation R := (R sg n N T0).
Notation RX := (RX sg n N T0).
Notation pl := (place_lock sg).
Definition l_in (l : lock) : Prop := match l with LT p | LF p => p < n end.
Fixpoint pp {A B} (P : A -> B -> Prop) (m : prog A) (m' : prog B) : Prop :=
  match m with
  | Ret r => exists r', m' = Ret r' /\ rr P r r'
  | Endless => m' = Endless
  | Acq l wr k => l_in l /\ exists k', m' = Acq (pl l) wr k' /\ pp P k k'
  | Rel l wr k => l_in l /\ exists k', m' = Rel (pl l) wr k' /\ pp P k k'
  | Act f k => exists C (f' : xuni -> xuni * C) k', m' = Act f' k' /\ forall x y, RX x y -> RX (fst (f x)) (fst (f' y)) /\ pp P (k (snd (f x))) (k' (snd (f' y)))
  end.
Lemma pp_bind {A B C D} (P : A -> B -> Prop) (Q : C -> D -> Prop) m : forall m' f g, pp P m m' -> (forall a b, P a b -> pp Q (f a) (g b)) -> pp Q (pbind m f) (pbind m' g).
Proof.
  induction m as [r| |l wr k IH|l wr k IH|E h k IH]; intros m' f g H K; cbn [pp] in H.
  - destruct H as (r' & -> & H). destruct r as [a|e], r' as [b|e']; cbn in H; try contradiction; cbn [pbind]; [apply K; exact H|]. subst e'. cbn [pp]. exists (Err e). split; reflexivity.
  - subst m'. reflexivity.
  - destruct H as (L & k' & -> & H). cbn [pbind pp]. split; [exact L|]. exists (pbind k' g). split; [reflexivity|]. apply IH; assumption.
  - destruct H as (L & k' & -> & H). cbn [pbind pp]. split; [exact L|]. exists (pbind k' g). split; [reflexivity|]. apply IH; assumption.
  - destruct H as (E' & h' & k' & -> & H). cbn [pbind pp]. exists E', h', (fun b => pbind (k' b) g). split; [reflexivity|]. intros x y X. destruct (H x y X) as [H1 H3]. split; [exact H1|]. apply IH; assumption.
Qed.
Lemma pp_lift {A B} (P : A -> B -> Prop) r r' : rr P r r' -> pp P (lift r) (lift r').
Proof. intro H. exists r'. split; [reflexivity|exact H]. Qed.
Lemma pp_ret {A B} (P : A -> B -> Prop) a b : P a b -> pp P (lift (Ok a)) (lift (Ok b)).
Proof. intro H. apply pp_lift. exact H. Qed.
Lemma pp_eq {A} (r : res A) : pp eq (lift r) (lift r).
Proof. apply pp_lift. destruct r; reflexivity. Qed.
Lemma pp_take l wr : l_in l -> pp eq (take_lock l wr) (take_lock (pl l) wr).
Proof. intro L. split; [exact L|]. eexists. split; [reflexivity|]. exact (pp_eq (Ok tt)). Qed.
Lemma pp_give l wr : l_in l -> pp eq (give_lock l wr) (give_lock (pl l) wr).
Proof. intro L. split; [exact L|]. eexists. split; [reflexivity|]. exact (pp_eq (Ok tt)). Qed.
Lemma pp_look {A B} (P : A -> B -> Prop) f g : (forall x y, RX x y -> P (f (xu_u x)) (g (xu_u y))) -> pp P (look f) (look g).
Proof. intro H. unfold look. cbn [pp]. eexists _, _, _. split; [reflexivity|]. intros x y X. cbn [fst snd]. split; [exact X|]. apply pp_ret. apply H. exact X. Qed.
Lemma pp_change f g : (forall u v, R u v -> R (f u) (g v)) -> pp eq (change f) (change g).
Proof. intro H. unfold change. cbn [pp]. eexists _, _, _. split; [reflexivity|]. intros x y [X Y]. cbn [fst snd]. split; [split; [apply H; exact X|exact Y]|]. apply pp_ret. reflexivity. Qed.
Lemma pp_get p : p < n -> pp eq (get_tab p) (get_tab (sg p)).
Proof.
  intro O. unfold get_tab. apply (pp_bind eq).
  - apply pp_look. intros x y [X _]. symmetry. apply (R_get sg n N T0); assumption.
  - intros a b <-. apply pp_eq.
Qed.
Lemma pp_put p t : p < n -> pp eq (put_tab p t) (put_tab (sg p) t).
Proof. intro O. unfold put_tab. apply pp_change. intros u v H. apply R_put; assumption. Qed.
(** Reads and changes of what is behind the flush locks. *)
Lemma pp_act {A} (h h' : xuni -> xuni * A) : (forall x y, RX x y -> RX (fst (h x)) (fst (h' y)) /\ snd (h x) = snd (h' y)) -> pp eq (Act h (fun r => Ret (Ok r))) (Act h' (fun r => Ret (Ok r))).
Proof. intro H. cbn [pp]. eexists _, _, _. split; [reflexivity|]. intros x y X. destruct (H x y X) as [H1 H3]. split; [exact H1|]. apply pp_ret. exact H3. Qed.
Lemma pp_fold {S X Y} (E : X -> Y -> Prop) (f : S -> X -> prog S) (g : S -> Y -> prog S) l l' : Forall2 E l l' -> (forall s x y, E x y -> pp eq (f s x) (g s y)) ->
  forall s, pp eq (p_fold f l s) (p_fold g l' s).
Proof. intros F H. induction F as [|x y l l' P F IH]; intro s; cbn [p_fold]; [apply pp_eq|]. apply (pp_bind eq); [apply H; exact P|]. intros a b <-. apply IH. Qed.
Ltac st := apply (pp_bind eq); [first [apply pp_eq|apply (pp_take (LT _)); assumption|apply (pp_take (LF _)); assumption|apply (pp_give (LT _)); assumption|apply (pp_give (LF _)); assumption|apply pp_get; assumption|apply pp_put; assumption]|]; intros ? ? <-.
Ltac en := first [apply (pp_give (LT _)); assumption|apply (pp_give (LF _)); assumption|apply pp_eq].

Section With.
Variables call call' : nat -> event -> bool -> bool -> select -> prog select.
Hypothesis Call : forall p ev a d s, p < n -> pp eq (call p ev a d s) (call' (sg p) ev a d s).
Lemma p_flush_pp p w ev : p < n -> pp eq (p_flush_with pr umax call p w ev) (p_flush_with pr umax call' (sg p) w ev).
Proof.
  intro O. unfold p_flush_with. destruct (sel_empty (w_changes w)); [st; st; en|]. st. st. st. apply (pp_bind eq); [apply Call; exact O|]. intros sel ? <-. st.
  destruct (ev_removal ev && negb (sel_empty sel)); [|en]. st. st. st. st. st. st. en.
Qed.
Lemma p_live_pp p w ev : p < n -> pp eq (p_live_flush_with pr umax call p w ev) (p_live_flush_with pr umax call' (sg p) w ev).
Proof.
  intro O. unfold p_live_flush_with. destruct (sel_empty (w_changes w)); [st; en|]. st. st. apply (pp_bind eq); [apply Call; exact O|]. intros sel ? <-. st. st. st. st.
  apply (pp_bind eq).
  - apply pp_act. intros x y X. rewrite (F2_get sg n N T0 x y p X O). destruct (xu_flush x p) as [f|e] eqn:Ef; [|split; [exact X|reflexivity]]. cbv zeta. cbn [fst snd].
    split; [|reflexivity]. destruct X as [X Y]. split; [exact X|]. cbn [xu_fl]. eapply F2_upd; [exact Inj|exact Y|exact O|exact (get_nth _ _ _ Ef)].
  - intros r ? <-. st. st. en.
Qed.
Lemma p_remove_pp c ev rows : c < n -> pp eq (p_remove_rows_with pr umax call c ev rows) (p_remove_rows_with pr umax call' (sg c) ev rows).
Proof.
  intro O. unfold p_remove_rows_with. st. match goal with |- context [t_kind ?t] => destruct (t_kind t) end; try en; st; st; cbv zeta; st; apply p_flush_pp; exact O.
Qed.
Lemma p_handle_pp hd c ev rows : c < n -> pp eq (p_handle_with pr umax call hd c ev rows) (p_handle_with pr umax call' hd (sg c) ev rows).
Proof. intro O. unfold p_handle_with. destruct hd; [st; st; apply p_remove_pp; exact O|en|en]. Qed.
Lemma p_run_with_pp hd c ev rows : c < n -> pp eq (p_run_with pr umax call hd c ev rows) (p_run_with pr umax call' hd (sg c) ev rows).
Proof.
  intro O. unfold p_run_with. apply (pp_bind eq); [destruct hd; [st; st; st; en|en|en]|]. intros r ? <-. apply (pp_bind eq); [apply p_handle_pp; exact O|]. intros ? ? <-.
  st. st. apply (pp_bind eq); [apply Call; exact O|]. intros ? ? <-. st. en.
Qed.
Lemma p_auto_pp hd c k key ev rows : c < n -> pp eq (p_auto_handle pr umax call hd c k key ev rows) (p_auto_handle pr umax call' hd (sg c) k key ev rows).
Proof. intro O. unfold p_auto_handle. st. st. st. st. apply p_run_with_pp. exact O. Qed.
Definition same_tr (x y : nat * tracker) : Prop := fst y = fst x /\ snd y = place_tracker sg (snd x) /\ tr_in n (snd x).
Lemma p_turn_pp hd p ev s x y : same_tr x y -> pp eq (p_turn pr umax call hd p ev s x) (p_turn pr umax call' hd (sg p) ev s y).
Proof.
  destruct x as [i tr], y as [j tr']. intros (E1 & E2 & Ti). cbn [fst snd] in *. subst j tr'. unfold p_turn. cbv zeta. cbn [fst snd].
  assert (Ec : tracker_considers (place_tracker sg tr) ev = tracker_considers tr ev) by (destruct tr; reflexivity). rewrite Ec.
  destruct (tracker_considers tr ev); [|en]. apply (pp_bind eq).
  - apply pp_look. intros x y [X _]. unfold tracker_sorts. destruct tr as [q k key|]; cbn [place_tracker]; [rewrite (r_tabs _ _ _ _ _ _ X q Ti)|]; reflexivity.
  - intros b ? <-. apply (pp_bind eq).
    + apply pp_change. intros u v H. apply R_say. exact H.
    + intros ? ? <-. apply (pp_bind eq); [destruct tr as [q k key|]; [apply p_auto_pp; exact Ti|en]|]. intros ? ? <-. en.
Qed.
End With.
Lemma combine_same trs : Forall (tr_in n) trs -> forall m, Forall2 same_tr (combine (seq m (length trs)) trs) (combine (seq m (length trs)) (map (place_tracker sg) trs)).
Proof. intro F. induction F as [|tr trs Ti F IH]; intro m; cbn [length seq combine map]; constructor; [split; [reflexivity|split; [reflexivity|exact Ti]]|apply IH]. Qed.
Lemma p_do_pp fuel : forall p ev a d s, p < n -> pp eq (p_do_flush pr umax fuel p ev a d s) (p_do_flush pr umax fuel (sg p) ev a d s).
Proof.
  induction fuel as [|m IH]; intros p ev a d s O; cbn [p_do_flush]; [reflexivity|]. st. apply (pp_bind eq).
  - apply pp_look. intros x y [X _]. rewrite (r_hdl _ _ _ _ _ _ X). reflexivity.
  - intros r ? <-. st. apply (pp_bind (fun t t' => t' = map (place_tracker sg) t /\ Forall (tr_in n) t)).
    + apply pp_look. intros x y [X _]. split; [exact (r_trk _ _ _ _ _ _ X p O)|exact (r_in _ _ _ _ _ _ X p O)].
    + intros trs ? [-> F]. rewrite map_length. apply (pp_bind eq); [|intros ? ? <-; en]. eapply pp_fold; [apply combine_same; exact F|]. intros s0 x y E. apply p_turn_pp; [exact IH|exact E].
Qed.
Variables (heads heads' : nat -> header) (foreign foreign' : nat -> list (nat * nat)) (order order' : nat -> row -> row -> comparison).
Hypothesis Code : same_code sg n heads heads' foreign foreign' order order'.
Lemma take_all_pp qs : Forall (fun q => q < n) qs -> pp eq (p_take_all qs) (p_take_all (map sg qs)).
Proof. intro F. induction F as [|q qs O F IH]; cbn [map p_take_all]; [en|]. st. st. exact IH. Qed.
Lemma give_all_pp qs : Forall (fun q => q < n) qs -> pp eq (p_give_all qs) (p_give_all (map sg qs)).
Proof. intro F. induction F as [|q qs O F IH]; cbn [map p_give_all]; [en|]. st. st. exact IH. Qed.
Lemma p_restore_pp fuel p w e ev : p < n -> pp eq (p_restore_extract pr umax heads foreign order fuel p w e ev) (p_restore_extract pr umax heads' foreign' order' fuel (sg p) w e ev).
Proof.
  intro O. unfold p_restore_extract. rewrite (sc_heads _ _ _ _ _ _ _ _ Code p O). apply (pp_bind eq); [apply pp_eq|]. intros [er|] ? <-; [st; st; en|]. cbv zeta.
  assert (E : map snd (foreign' (sg p)) = map sg (map snd (foreign p))) by (rewrite (sc_foreign _ _ _ _ _ _ _ _ Code p O), !map_map; reflexivity). rewrite E.
  assert (K : Forall (fun q => q < n) (map snd (foreign p))).
  { apply Forall_forall. intros q I. apply in_map_iff in I. destruct I as (kq & <- & I). exact (sc_known _ _ _ _ _ _ _ _ Code p kq O I). }
  apply (pp_bind eq); [apply take_all_pp; exact K|]. intros ? ? <-. st. apply (pp_bind eq).
  - apply pp_look. intros x y [X _]. unfold u_trackers. rewrite (r_trk _ _ _ _ _ _ X p O). symmetry. apply empty_map.
  - intros b ? <-. st. apply (pp_bind eq).
    + apply pp_act. intros x y X. cbn [fst snd]. split; [exact X|]. symmetry. apply (merge_place pr sg n heads heads' foreign foreign' order order' Code); [apply X|exact O].
    + intros r ? <-. apply (pp_bind eq); [apply pp_eq|]. intros s ? <-. rewrite <- (map_rev sg). apply (pp_bind eq); [apply give_all_pp; apply Forall_rev; exact K|]. intros ? ? <-.
      destruct (sel_empty (w_changes (fst s))); [st; st; en|]. st. apply (pp_bind eq).
      * apply pp_act. intros x y X. rewrite (F2_get sg n N T0 x y p X O). destruct (xu_flush x p) as [f|e'] eqn:Ef; [|split; [exact X|reflexivity]]. cbn [fst snd].
        split; [|reflexivity]. destruct X as [X Y]. split; [exact X|]. cbn [xu_fl]. eapply F2_upd; [exact Inj|exact Y|exact O|exact (get_nth _ _ _ Ef)].
      * intros r0 ? <-. st. st. apply p_flush_pp; [apply p_do_pp|exact O].
Qed.
Lemma p_step_pp fuel o : x_about n o -> pp eq (p_step pr umax heads foreign order fuel o) (p_step pr umax heads' foreign' order' fuel (place_xop sg o)).
Proof.
  destruct o as [p es ev|p es ev|p e ev|p tr|p]; cbn [p_step place_xop]; intro A.
  - cbn in A. st. st. st. apply p_flush_pp; [apply p_do_pp|exact A].
  - cbn in A. st. st. st. apply (pp_bind eq); [apply p_live_pp; [apply p_do_pp|exact A]|]. intros ? ? <-. st. st. en.
  - cbn in A. st. st. apply p_restore_pp. exact A.
  - assert (Ap : p < n /\ tr_in n tr) by (destruct tr; cbn in A; [exact A|split; [exact A|exact I]]). clear A. destruct Ap as [A Ti]. st. st. st. apply (pp_bind eq).
    + apply pp_act. intros x y X. cbn [fst snd]. split; [exact X|]. symmetry. apply (F2_get sg n N T0 x y p X A).
    + intros r ? <-. st. st. apply (pp_bind eq); [apply pp_change; intros u v H; apply R_track; assumption|]. intros ? ? <-. st. en.
  - cbn in A. st. st. apply (pp_bind eq).
    + apply pp_act. intros x y X. rewrite (F2_get sg n N T0 x y p X A). destruct (xu_flush x p) as [f|e'] eqn:Ef; [|split; [exact X|reflexivity]]. cbn [fst snd].
      split; [|reflexivity]. destruct X as [X Y]. split; [exact X|]. cbn [xu_fl]. eapply F2_upd; [exact Inj|exact Y|exact A|exact (get_nth _ _ _ Ef)].
    + intros r ? <-. st. st. en.
Qed.
Lemma p_locks_pp ls : Forall (fun x => fst x < n) ls -> pp eq (p_locks ls) (p_locks (map (fun x => (sg (fst x), snd x)) ls)).
Proof. intro F. induction F as [|[q wr] ls O F IH]; cbn [map p_locks fst snd]; [en|]. cbn [fst] in O. st. apply (pp_bind eq); [exact IH|]. intros ? ? <-. en. Qed.
Lemma p_run_pp fuel ops : Forall (top_about n) ops -> pp eq (p_run pr umax heads foreign order fuel ops) (p_run pr umax heads' foreign' order' fuel (map (place_top sg) ops)).
Proof.
  intro F. unfold p_run. apply (pp_fold (fun o o' => o' = place_top sg o /\ top_about n o)).
  - induction F as [|o ops A F IH]; cbn [map]; constructor; [split; [reflexivity|exact A]|exact IH].
  - intros _ o ? [-> A]. destruct o as [o|p ev s|ls]; cbn [p_top place_top] in *; [apply p_step_pp; exact A| |apply p_locks_pp; exact A].
    cbn in A. unfold p_select. st. st. st. apply (pp_bind eq); [apply p_do_pp; exact A|]. intros ? ? <-. en.
Qed.

(** ** Steps *)
Definition g_in (g : guards) : Prop := Forall (fun x => l_in (fst x)) g.
Definition nt (t t' : guards * prog unit) : Prop := fst t' = place_guards sg (fst t) /\ g_in (fst t) /\ pp eq (snd t) (snd t').
Definition nc (c c' : threads) : Prop := RX (th_x c) (th_x c') /\ Forall2 nt (th_ts c) (th_ts c').
Lemma lock_place l m : l_in l -> l_in m -> lock_eqb (pl l) (pl m) = lock_eqb l m.
Proof. destruct l as [p|p], m as [q|q]; cbn; intros Op Oq; try reflexivity; destruct (Nat.eqb_spec p q) as [->|X]; [apply Nat.eqb_refl|apply Nat.eqb_neq; auto|apply Nat.eqb_refl|apply Nat.eqb_neq; auto]. Qed.
Lemma lets_place g l wr : g_in g -> l_in l -> lets (place_guards sg g) (pl l) wr = lets g l wr.
Proof. intros G L. induction G as [|x g Lx G IH]; [reflexivity|]. unfold lets, place_guards in *. cbn [map forallb fst snd]. rewrite IH, (lock_place _ _ Lx L). reflexivity. Qed.
Lemma drop_place g l wr : g_in g -> l_in l -> drop_guard (pl l) wr (place_guards sg g) = place_guards sg (drop_guard l wr g).
Proof.
  intros G L. induction G as [|x g Lx G IH]; [reflexivity|]. unfold place_guards in *. cbn [map]. cbn [drop_guard fst snd]. rewrite (lock_place _ _ Lx L).
  destruct (lock_eqb (fst x) l && eqb (snd x) wr); [reflexivity|]. cbn [map]. f_equal. exact IH.
Qed.
Lemma drop_in g l wr : g_in g -> g_in (drop_guard l wr g).
Proof. intro G. induction G as [|x g Lx G IH]; [constructor|]. cbn [drop_guard]. destruct (_ && _); [exact G|]. constructor; [exact Lx|exact IH]. Qed.
Lemma pp_ended (m m' : prog unit) : pp eq m m' -> stage_of m' = place_stage sg (stage_of m).
Proof.
  destruct m; cbn [pp]; intro H.
  - destruct H as (r' & -> & H). cbn. destruct r as [[]|e], r' as [[]|e']; cbn in H; try contradiction; [reflexivity|]. rewrite H. reflexivity.
  - rewrite H. reflexivity.
  - destruct H as (_ & k' & -> & _). reflexivity.
  - destruct H as (_ & k' & -> & _). reflexivity.
  - destruct H as (B' & f' & k' & -> & _). reflexivity.
Qed.
Lemma nt_owned t t' : nt t t' -> owned t' = place_guards sg (owned t) /\ g_in (owned t).
Proof.
  destruct t as [g m], t' as [g' m']. intros (E & G & H). cbn [fst snd] in *. subst g'. apply pp_ended in H. unfold owned. cbn [fst snd].
  destruct m as [r| |l wr k|l wr k|B f k], m' as [r'| |l' wr' k'|l' wr' k'|B' f' k']; try discriminate H; try (split; [reflexivity|exact G]).
  cbn in H. injection H as ->. destruct r; (split; [reflexivity|]); [exact G|constructor].
Qed.
Lemma take_place c c' l wr : nc c c' -> l_in l -> may_take c l wr <-> may_take c' (pl l) wr.
Proof.
  destruct c as [x ts], c' as [x' ts']. intros [[_ Fl] F] L. unfold may_take. cbn [th_x th_ts] in *.
  assert (E : not_leaked x' (pl l) wr = not_leaked x l wr) by (destruct l as [p|p]; cbn [place_lock not_leaked]; [reflexivity|rewrite (Fl p L); reflexivity]).
  assert (H : (forall t, In t ts -> lets (owned t) l wr = true) <-> (forall t, In t ts' -> lets (owned t) (pl l) wr = true)).
  { clear Fl E. induction F as [|t t' a a' P F IH]; [split; intros _ s []|]. destruct (nt_owned _ _ P) as [O G]. split; intros H s [<-|I].
    - rewrite O, (lets_place _ _ _ G L). apply H. left. reflexivity.
    - apply (proj1 IH); [|exact I]. intros r J. apply H. right. exact J.
    - rewrite <- (lets_place _ _ _ G L), <- O. apply H. left. reflexivity.
    - apply (proj2 IH); [|exact I]. intros r J. apply H. right. exact J. }
  rewrite E, H. reflexivity.
Qed.
Ltac fin Fa Fb := apply Forall2_app; [exact Fa|]; constructor; [|exact Fb].
Lemma step_nc c d c' : nc c c' -> thread_step c d -> exists d', thread_step c' d' /\ nc d d'.
Proof.
  intros X S. pose proof X as [HX F]. destruct c' as [x' ts']. destruct S as [x a g l wr k b M|x a g l wr k b M|x a g l wr k b|x a g B f k b];
    cbn [th_x th_ts] in HX, F; apply Forall2_app_inv_l in F; destruct F as (a' & r' & Fa & F & ->);
    inversion F as [|u [g' m'] b0 b' (G & Gi & P) Fb]; subst; cbn [fst snd] in G, Gi, P; subst g'; cbn [pp] in P.
  - destruct P as (L & k' & -> & P). apply (take_place _ _ l wr X L) in M. eexists. split; [apply ts_acq; exact M|]. split; [exact HX|]. cbn [th_ts]. fin Fa Fb.
    split; [reflexivity|]. split; [constructor; [exact L|exact Gi]|exact P].
  - destruct P as (L & k' & -> & P). apply (take_place _ _ l wr X L) in M. eexists. split; [apply ts_poisoned; exact M|]. split; [exact HX|]. cbn [th_ts]. fin Fa Fb.
    split; [reflexivity|]. split; [exact Gi|]. eexists. split; reflexivity.
  - destruct P as (L & k' & -> & P). eexists. split; [apply ts_rel|]. split; [exact HX|]. cbn [th_ts]. fin Fa Fb.
    split; [apply drop_place; assumption|]. split; [apply drop_in; exact Gi|exact P].
  - destruct P as (B' & f' & k' & -> & P). destruct (P x x' HX) as [Ex Px]. eexists. split; [apply ts_act|]. split; [exact Ex|]. cbn [th_ts]. fin Fa Fb.
    split; [reflexivity|]. split; [exact Gi|exact Px].
Qed.
Lemma step_cn c c' d' : nc c c' -> thread_step c' d' -> exists d, thread_step c d /\ nc d d'.
Proof.
  intros X S. pose proof X as [HX F]. destruct c as [x' ts]. destruct S as [x a g l wr k b M|x a g l wr k b M|x a g l wr k b|x a g B f k b];
    cbn [th_x th_ts] in HX, F; apply Forall2_app_inv_r in F; destruct F as (a' & r' & Fa & F & ->);
    inversion F as [|[g' m'] u b' b0 (G & Gi & P) Fb]; subst; cbn [fst snd] in G, Gi, P; subst g;
    destruct m' as [r| |l' wr' k'|l' wr' k'|B' f' k']; cbn [pp] in P;
    try discriminate P; try (destruct P as (? & P & ?); discriminate P); try (destruct P as (? & ? & P & ?); discriminate P); try (destruct P as (? & ? & ? & P & ?); discriminate P).
  - destruct P as (L & k1 & Y & P). injection Y as -> -> ->. apply (take_place _ _ l' wr' X L) in M. eexists. split; [apply ts_acq; exact M|]. split; [exact HX|]. cbn [th_ts]. fin Fa Fb.
    split; [reflexivity|]. split; [constructor; [exact L|exact Gi]|exact P].
  - destruct P as (L & k1 & Y & P). injection Y as -> -> ->. apply (take_place _ _ l' wr' X L) in M. eexists. split; [apply ts_poisoned; exact M|]. split; [exact HX|]. cbn [th_ts]. fin Fa Fb.
    split; [reflexivity|]. split; [exact Gi|]. eexists. split; reflexivity.
  - destruct P as (L & k1 & Y & P). injection Y as -> -> ->. eexists. split; [apply ts_rel|]. split; [exact HX|]. cbn [th_ts]. fin Fa Fb.
    split; [apply drop_place; assumption|]. split; [apply drop_in; exact Gi|exact P].
  - destruct P as (B1 & f1 & k1 & Y & P). apply (f_equal ThreadBuildFacts.touched) in Y. cbn [ThreadBuildFacts.touched] in Y. injection Y as Y. apply (f_equal (fun h => h x)) in Y. injection Y as Y1 Y2.
    destruct (P x' x HX) as [Ex Px]. eexists. split; [apply ts_act|]. split; [cbn [th_x]; rewrite Y1; exact Ex|]. cbn [th_ts]. fin Fa Fb.
    split; [reflexivity|]. split; [exact Gi|]. cbn [snd]. rewrite Y2. exact Px.
Qed.
Lemma steps_nc c d : thread_steps c d -> forall c', nc c c' -> exists d', thread_steps c' d' /\ nc d d'.
Proof.
  intros S. induction S as [c|c d e S IH T]; intros c' H; [exists c'; split; [constructor|exact H]|].
  destruct (IH c' H) as (d' & S' & H'). destruct (step_nc _ _ _ H' T) as (e' & T' & H''). exists e'. split; [econstructor; eassumption|exact H''].
Qed.
Lemma steps_cn c' d' : thread_steps c' d' -> forall c, nc c c' -> exists d, thread_steps c d /\ nc d d'.
Proof.
  intros S. induction S as [c'|c' d' e' S IH T]; intros c H; [exists c; split; [constructor|exact H]|].
  destruct (IH c H) as (d & S1 & H'). destruct (step_cn _ _ _ H' T) as (e & T1 & H''). exists e. split; [econstructor; eassumption|exact H''].
Qed.
Lemma started_nc fuel x x' tss : RX x x' -> Forall (Forall (top_about n)) tss ->
  nc (started x (map (p_run pr umax heads foreign order fuel) tss)) (started x' (map (p_run pr umax heads' foreign' order' fuel) (map (map (place_top sg)) tss))).
Proof.
  intros X F. unfold nc, started. cbn [th_x th_ts]. split; [exact X|]. rewrite !map_map. induction F as [|o tss A F IH]; cbn [map]; constructor; [|exact IH].
  unfold nt. cbn [fst snd]. split; [reflexivity|]. split; [constructor|]. apply p_run_pp. exact A.
Qed.
End W.

Lemma placed_below sg x x' : x_placed sg x x' -> forall p, p < tables_of x -> sg p < length (u_tabs (xu_u x')).
Proof.
  intros P p O. apply nth_error_Some in O. destruct (nth_error (u_tabs (xu_u x)) p) as [t|] eqn:E; [|contradiction]. apply nth_error_Some. rewrite (xp_tables _ _ _ P _ _ E). discriminate.
Qed.
Lemma placed_RX sg x x' : x_placed sg x x' -> RX sg (tables_of x) (length (u_tabs (xu_u x'))) (u_tabs (xu_u x')) x x'.
Proof.
  intros [P1 P2 P3 P4 P5 [P6 P7] P8 P9]. split; [|exact P3]. constructor; auto.
  - intros p O. pose proof O as O1. apply nth_error_Some in O1. destruct (nth_error (u_tabs (xu_u x)) p) as [t|] eqn:E; [|contradiction]. apply P2. exact E.
  - intros p O. apply Forall_forall. intros [c k key|b f] I; [|exact Logic.I]. exact (P5 p c k key I).
Qed.
Lemma RX_placed sg n N T0 y y' : (forall p q, p < n -> q < n -> sg p = sg q -> p = q) -> RX sg n N T0 y y' ->
  x_placed sg y y' /\ forall q, (forall p, p < n -> sg p <> q) -> nth_error (u_tabs (xu_u y')) q = nth_error T0 q.
Proof.
  intros P1 [K KF]. assert (T : tables_of y = n) by exact (r_len _ _ _ _ _ _ K). split; [|exact (r_out _ _ _ _ _ _ K)]. constructor; rewrite ?T.
  - exact P1.
  - intros p t E. rewrite (r_tabs _ _ _ _ _ _ K p); [exact E|]. rewrite <- T. apply nth_error_Some. congruence.
  - exact KF.
  - exact (r_trk _ _ _ _ _ _ K).
  - intros p c k key I. assert (O : p < n \/ n <= p) by lia. destruct O as [O|O].
    + pose proof (r_in _ _ _ _ _ _ K p O) as G. rewrite Forall_forall in G. exact (G _ I).
    + exfalso. unfold u_trackers in I. rewrite nth_overflow in I; [exact I|]. rewrite (r_tlen _ _ _ _ _ _ K). exact O.
  - split; [exact (r_tlen _ _ _ _ _ _ K)|exact (r_tlen' _ _ _ _ _ _ K)].
  - exact (r_hdl _ _ _ _ _ _ K).
  - exact (r_log _ _ _ _ _ _ K).
Qed.
Lemma nc_alike sg n N T0 c c' : (forall p q, p < n -> q < n -> sg p = sg q -> p = q) -> nc sg n N T0 c c' ->
  alike_placed sg c c' /\ forall q, (forall p, p < n -> sg p <> q) -> nth_error (u_tabs (xu_u (th_x c'))) q = nth_error T0 q.
Proof.
  intros P1 [K F]. destruct (RX_placed _ _ _ _ _ _ P1 K) as [A B]. split; [|exact B]. split; [exact A|]. clear - F.
  induction F as [|t t' a a' (P & _ & Q) F IH]; constructor; [|exact IH]. split; [exact P|]. eapply pp_ended. exact Q.
Qed.
Theorem placing_threads : forall pr umax fuel sg heads heads' foreign foreign' order order' x x' tss c,
  x_placed sg x x' -> same_code sg (tables_of x) heads heads' foreign foreign' order order' -> Forall (Forall (top_about (tables_of x))) tss ->
  thread_steps (started x (map (p_run pr umax heads foreign order fuel) tss)) c ->
  exists c', thread_steps (started x' (map (p_run pr umax heads' foreign' order' fuel) (map (map (place_top sg)) tss))) c' /\ alike_placed sg c c' /\
    forall q, elsewhere sg x q -> nth_error (u_tabs (xu_u (th_x c'))) q = nth_error (u_tabs (xu_u x')) q.
Proof.
  intros pr umax fuel sg heads heads' foreign foreign' order order' x x' tss c P C F S. pose proof (xp_apart _ _ _ P) as Inj.
  pose proof (started_nc pr umax sg (tables_of x) _ _ Inj (placed_below _ _ _ P) heads heads' foreign foreign' order order' C fuel x x' tss (placed_RX _ _ _ P) F) as H.
  destruct (steps_nc sg (tables_of x) _ _ Inj _ _ S _ H) as (c' & S' & H'). exists c'. split; [exact S'|]. exact (nc_alike _ _ _ _ _ _ Inj H').
Qed.
Theorem placing_threads_back : forall pr umax fuel sg heads heads' foreign foreign' order order' x x' tss c',
  x_placed sg x x' -> same_code sg (tables_of x) heads heads' foreign foreign' order order' -> Forall (Forall (top_about (tables_of x))) tss ->
  thread_steps (started x' (map (p_run pr umax heads' foreign' order' fuel) (map (map (place_top sg)) tss))) c' ->
  exists c, thread_steps (started x (map (p_run pr umax heads foreign order fuel) tss)) c /\ alike_placed sg c c' /\
    forall q, elsewhere sg x q -> nth_error (u_tabs (xu_u (th_x c'))) q = nth_error (u_tabs (xu_u x')) q.
Proof.
  intros pr umax fuel sg heads heads' foreign foreign' order order' x x' tss c' P C F S. pose proof (xp_apart _ _ _ P) as Inj.
  pose proof (started_nc pr umax sg (tables_of x) _ _ Inj (placed_below _ _ _ P) heads heads' foreign foreign' order order' C fuel x x' tss (placed_RX _ _ _ P) F) as H.
  destruct (steps_cn sg (tables_of x) _ _ Inj _ _ S _ H) as (c & S' & H'). exists c. split; [exact S'|]. exact (nc_alike _ _ _ _ _ _ Inj H').
Qed.
