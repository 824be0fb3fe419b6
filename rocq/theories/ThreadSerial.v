(** Proofs: sessions that remove nothing happen one after the other. *)
From Coq Require Import List Arith Bool Lia Sorting.Permutation.
From Verif Require Import Base BaseFacts Names Column Order RowRange Table Visit SortedTab BagTab TableSpec TableFacts Hist RaceFacts
  Events Cascade CascadeSpec Extract Threads ThreadSpec ThreadSeq ThreadFacts ThreadSafe ThreadReads ThreadVal Poison PoisonSpec PoisonFacts.
Import ListNotations.

Section Serial.
Variables (pr : profile) (umax : nat) (hs : list handler).
Notation one := (one_session pr umax).
(** The thread has the tables [h] locked for writing, and the sessions [td] are still to be done. *)
Fixpoint lp {A} (m : prog A) (h : hold) (td : list top) (Q : hold -> list top -> A -> Prop) : Prop :=
  match m with
  | Ret (Ok a) => Q h td a
  | Ret (Err _) | Endless => True
  | Acq l wr k => match l, wr with LT p, true => ~ In p (map fst h) -> forall v, lp k ((p, v) :: h) td Q | _, _ => lp k h td Q end
  | Rel l wr k => match l, wr with LT p, true => lp k (h_drop p h) td Q | _, _ => lp k h td Q end
  | Act f k => forall x, u_hdl (xu_u x) = hs -> agrees h x -> u_hdl (xu_u (fst (f x))) = hs /\
      ((u_tabs (xu_u (fst (f x))) = u_tabs (xu_u x) /\ lp (k (snd (f x))) h td Q) \/
       exists o rest h', td = o :: rest /\ one (u_tabs (xu_u x)) o = Ok (u_tabs (xu_u (fst (f x)))) /\
         map fst h' = map fst h /\ agrees h' (fst (f x)) /\ lp (k (snd (f x))) h' rest Q)
  end.
Lemma lp_bind {A B} (m : prog A) (f : A -> prog B) : forall h td Q, lp m h td (fun h td a => lp (f a) h td Q) -> lp (pbind m f) h td Q.
Proof.
  induction m as [r| |l wr k IH|l wr k IH|C a k IH]; intros h td Q H; cbn [pbind lp] in *; auto.
  - destruct r; exact H.
  - destruct l, wr; auto.
  - destruct l, wr; auto.
  - intros x Hx Ax. destruct (H x Hx Ax) as (E & [[T V]|(o & rest & h' & E1 & E2 & E3 & E4 & V)]); (split; [exact E|]); [left; auto|right]. exists o, rest, h'. auto 8.
Qed.
Lemma lp_mono {A} (m : prog A) : forall h td (Q S : hold -> list top -> A -> Prop), (forall h td a, Q h td a -> S h td a) -> lp m h td Q -> lp m h td S.
Proof.
  induction m as [r| |l wr k IH|l wr k IH|C a k IH]; intros h td Q S QS H; cbn [lp] in *; eauto.
  - destruct r; auto.
  - destruct l, wr; eauto.
  - destruct l, wr; eauto.
  - intros x Hx Ax. destruct (H x Hx Ax) as (E & [[T V]|(o & rest & h' & E1 & E2 & E3 & E4 & V)]); (split; [exact E|]); [left; eauto|right]. exists o, rest, h'. eauto 9.
Qed.
Lemma lp_write p h td (Q : hold -> list top -> unit -> Prop) : (~ In p (map fst h) -> forall v, Q ((p, v) :: h) td tt) -> lp (take_lock (LT p) true) h td Q.
Proof. intro H. exact H. Qed.
Lemma lp_written p v h td (Q : hold -> list top -> unit -> Prop) : ~ In p (map fst h) -> Q h td tt -> lp (give_lock (LT p) true) ((p, v) :: h) td Q.
Proof. intros N H. unfold give_lock. cbn [lp h_drop filter fst]. rewrite Nat.eqb_refl. cbn [negb]. fold (h_drop p h). rewrite h_drop_out by exact N. exact H. Qed.
Lemma lp_take p h td (Q : hold -> list top -> unit -> Prop) : Q h td tt -> lp (take_lock (LT p) false) h td Q.
Proof. auto. Qed.
Lemma lp_give p h td (Q : hold -> list top -> unit -> Prop) : Q h td tt -> lp (give_lock (LT p) false) h td Q.
Proof. auto. Qed.
Lemma lp_takef p wr h td (Q : hold -> list top -> unit -> Prop) : Q h td tt -> lp (take_lock (LF p) wr) h td Q.
Proof. auto. Qed.
Lemma lp_givef p wr h td (Q : hold -> list top -> unit -> Prop) : Q h td tt -> lp (give_lock (LF p) wr) h td Q.
Proof. auto. Qed.
Lemma lp_lift {A} (r : res A) h td (Q : hold -> list top -> A -> Prop) : (forall a, r = Ok a -> Q h td a) -> lp (lift r) h td Q.
Proof. intro H. unfold lift. cbn. destruct r; auto. Qed.
Lemma lp_still {A B} (f : xuni -> xuni * B) (k : B -> prog A) h td Q : (forall x, u_tabs (xu_u (fst (f x))) = u_tabs (xu_u x)) ->
  (forall x, u_hdl (xu_u (fst (f x))) = u_hdl (xu_u x)) ->
  (forall x, u_hdl (xu_u x) = hs -> lp (k (snd (f x))) h td Q) -> lp (Act f k) h td Q.
Proof. intros E1 E2 H x Hx Ax. split; [rewrite E2; exact Hx|]. left. auto. Qed.
Lemma lp_look {B} (f : universe -> B) h td (Q : hold -> list top -> B -> Prop) : (forall u, u_hdl u = hs -> Q h td (f u)) -> lp (look f) h td Q.
Proof. intro H. apply lp_still; try reflexivity. intros x Hx. apply H. exact Hx. Qed.
Lemma lp_say n h td (Q : hold -> list top -> unit -> Prop) : Q h td tt -> lp (change (fun u => u_say u n)) h td Q.
Proof. intro H. apply lp_still; try reflexivity. intros x _. exact H. Qed.
Lemma lp_get p v h td (Q : hold -> list top -> table -> Prop) : (forall t, v = Some t -> Q ((p, v) :: h) td t) -> lp (get_tab p) ((p, v) :: h) td Q.
Proof.
  intro H. apply lp_bind. intros x Hx Ax. split; [exact Hx|]. left. split; [reflexivity|].
  cbn [snd fst]. unfold u_get. destruct (nth_error (u_tabs (xu_u x)) p) as [t'|] eqn:Et; [|exact I].
  inversion Ax as [|? ? E1 E2]. cbn [fst snd] in E1. apply H. congruence.
Qed.
Lemma lp_see p h td (Q : hold -> list top -> table -> Prop) : (forall t, Q h td t) -> lp (get_tab p) h td Q.
Proof. intro H. apply lp_bind. apply lp_look. intros u _. unfold u_get. destruct (nth_error (u_tabs u) p); [apply H|exact I]. Qed.
Lemma lp_same p t h td (Q : hold -> list top -> unit -> Prop) : Q ((p, Some t) :: h) td tt -> lp (put_tab p t) ((p, Some t) :: h) td Q.
Proof.
  intros H x Hx Ax. inversion Ax as [|e l E1 E2]. subst e l. cbn [fst snd] in E1. split; [exact Hx|]. left. split; [|exact H].
  cbn. apply upd_same. exact E1.
Qed.
Lemma lp_put p t w h o es ev td (Q : hold -> list top -> unit -> Prop) : ~ In p (map fst h) -> o = TDo (XFlush p es ev) \/ o = TDo (XLive p es ev) ->
  do_edits pr umax (w_new t) es = Ok w -> Q ((p, Some (w_tab w)) :: h) td tt -> lp (put_tab p (w_tab w)) ((p, Some t) :: h) (o :: td) Q.
Proof.
  intros N Ho D H x Hx Ax. inversion Ax as [|e l E1 E2]. subst e l. cbn [fst snd] in E1. split; [exact Hx|]. right.
  exists o, td, ((p, Some (w_tab w)) :: h). split; [reflexivity|]. split.
  { cbn [fst xu_u u_put u_tabs]. destruct Ho as [-> | ->]; cbn [one_session]; rewrite E1, D; reflexivity. }
  split; [reflexivity|]. split; [|exact H]. constructor.
  - cbn. rewrite nth_error_upd_eq by (apply nth_error_Some; congruence). reflexivity.
  - unfold agrees in E2. rewrite Forall_forall in *. intros e He. specialize (E2 e He). cbn.
    rewrite nth_error_upd_ne; [exact E2|]. intro Z. apply N. rewrite <- Z. apply in_map. exact He.
Qed.
Ltac v1 :=
  match goal with
  | |- lp (pbind _ _) _ _ _ => apply lp_bind; cbv beta
  | |- lp (take_lock (LT _) true) _ _ _ => apply lp_write; intros ? ?
  | |- lp (give_lock (LT _) true) _ _ _ => apply lp_written; [assumption|]
  | |- lp (take_lock (LT _) false) _ _ _ => apply lp_take
  | |- lp (give_lock (LT _) false) _ _ _ => apply lp_give
  | |- lp (take_lock (LF _) _) _ _ _ => apply lp_takef
  | |- lp (give_lock (LF _) _) _ _ _ => apply lp_givef
  | |- lp (get_tab ?p) ((?p, Some _) :: _) _ _ => apply lp_get; let E := fresh in intros ? E; injection E as <-
  | |- lp (get_tab ?p) ((?p, _) :: _) _ _ => apply lp_get; intros ? ->
  | |- lp (get_tab _) _ _ _ => apply lp_see; intros ?
  | |- lp (look _) _ _ _ => apply lp_look; intros ? ?
  | |- lp (Ret (Ok ?a)) ?h ?td ?Q => change (Q h td a); cbv beta
  | |- lp (lift (Ok _)) _ _ _ => apply lp_lift; let E := fresh in intros ? E; injection E as <-
  | |- lp (lift (w_drop _)) _ _ _ => apply lp_lift; let E := fresh in intros ? E; apply drop_inv in E; destruct E as [-> _]
  | |- lp (lift _) _ _ _ => apply lp_lift; intros ? ?
  | |- lp (change (fun u => u_say u _)) _ _ _ => apply lp_say
  | u : unit |- _ => destruct u
  end.
Ltac vs := repeat v1.
Definition calls_quiet (call : nat -> event -> bool -> bool -> select -> prog select) : Prop :=
  forall p ev pushed del sel h td (Q : hold -> list top -> select -> Prop), handlers_get hs ev <> Ok HDelete ->
    (forall sel', Q h td sel') -> lp (call p ev pushed del sel) h td Q.
Section With.
Variable call : nat -> event -> bool -> bool -> select -> prog select.
Hypothesis CO : calls_quiet call.
Lemma flush_lp p t w ev o es td (Q : hold -> list top -> unit -> Prop) : o = TDo (XFlush p es ev) -> ev_removal ev = false -> handlers_get hs ev <> Ok HDelete ->
  do_edits pr umax (w_new t) es = Ok w -> Q [] td tt -> lp (p_flush_with pr umax call p w ev) [(p, Some t)] (o :: td) Q.
Proof.
  intros Ho Er Eh D H. unfold p_flush_with. assert (N : ~ In p (map fst (@nil (nat * option table)))) by (cbn; tauto). destruct (sel_empty (w_changes w)).
  - vs. eapply lp_put; [exact N|left; exact Ho|exact D|]. vs. exact H.
  - vs. eapply lp_put; [exact N|left; exact Ho|exact D|]. vs. apply CO; [exact Eh|]. intro sel. vs. rewrite Er. cbn [andb]. vs. exact H.
Qed.
Lemma live_flush_lp p t w ev o es td (Q : hold -> list top -> wlock -> Prop) : o = TDo (XLive p es ev) -> ev_removal ev = false -> handlers_get hs ev <> Ok HDelete ->
  do_edits pr umax (w_new t) es = Ok w -> (forall w, Q [(p, Some (w_tab w))] td w) -> lp (p_live_flush_with pr umax call p w ev) [(p, Some t)] (o :: td) Q.
Proof.
  intros Ho Er Eh D H. unfold p_live_flush_with. assert (N : ~ In p (map fst (@nil (nat * option table)))) by (cbn; tauto). destruct (sel_empty (w_changes w)).
  - vs. eapply lp_put; [exact N|right; exact Ho|exact D|]. vs. apply H.
  - vs. eapply lp_put; [exact N|right; exact Ho|exact D|]. vs. apply CO; [exact Eh|]. intro sel. vs.
    match goal with E : flush_apply _ _ _ _ _ = Ok _ |- _ => unfold flush_apply in E; rewrite Er in E; cbn [andb] in E; injection E as <- end.
    cbn [w_tab]. apply lp_same. vs. apply lp_still; [intro x; unfold xu_flush; destruct (nth_error (xu_fl x) p); reflexivity..|]. intros x _. vs. apply (H (W _ _ false false)).
Qed.
Lemma run_lp hd c ev rows h td (Q : hold -> list top -> unit -> Prop) : hd <> HDelete -> handlers_get hs ev <> Ok HDelete -> Q h td tt -> lp (p_run_with pr umax call hd c ev rows) h td Q.
Proof.
  intros Hd Eh H.
  assert (Fin : forall rows, lp (let! _ := take_lock (LT c) false in let! _ := take_lock (LF c) false in
           let! _ := call c ev (ev_creation ev) (ev_removal ev) rows in let! _ := give_lock (LF c) false in give_lock (LT c) false) h td Q).
  { intro r. vs. apply CO; [exact Eh|]. intros _. vs. exact H. }
  unfold p_run_with. destruct hd; cbn [p_handle_with].
  - congruence.
  - do 4 v1. apply Fin.
  - exact I.
Qed.
Lemma auto_lp hd c k key ev rows h td (Q : hold -> list top -> unit -> Prop) : hd <> HDelete -> handlers_get hs ev <> Ok HDelete -> Q h td tt ->
  lp (p_auto_handle pr umax call hd c k key ev rows) h td Q.
Proof. intros Hd Eh H. unfold p_auto_handle. vs. apply run_lp; assumption. Qed.
Lemma turns_lp p hd ev l : hd <> HDelete -> handlers_get hs ev <> Ok HDelete -> forall s h td (Q : hold -> list top -> select * bool -> Prop), (forall s, Q h td s) ->
  lp (p_fold (p_turn pr umax call hd p ev) l s) h td Q.
Proof.
  intros Hd Eh. induction l as [|[i tr] l IH]; intros s h td Q H; cbn [p_fold]; [vs; apply H|].
  vs. assert (T : forall s, lp (p_fold (p_turn pr umax call hd p ev) l s) h td Q) by (intro s'; apply IH; exact H).
  unfold p_turn. cbn [fst snd]. destruct (tracker_considers tr ev); [|vs; apply T].
  vs. destruct tr as [c k key|].
  - apply auto_lp; [assumption|assumption|]. vs. apply T.
  - vs. apply T.
Qed.
End With.
Lemma do_flush_lp fuel : calls_quiet (p_do_flush pr umax fuel).
Proof.
  induction fuel as [|n IH]; intros p ev pushed del sel h td Q Eh H; cbn [p_do_flush]; [exact I|].
  apply lp_bind, lp_lift. intros u Hu. apply lp_bind, lp_look. intros u1 Hh. apply lp_bind, lp_lift. intros hd Hd. rewrite Hh in Hd.
  vs. apply (turns_lp _ IH); [congruence|exact Eh|]. intro s. vs. apply H.
Qed.

Variable heads : nat -> header.
Variable foreign : nat -> list (nat * nat).
Variable order : nat -> row -> row -> comparison.
Variable fuel : nat.
Lemma locks_lp ls : forall h td (Q : hold -> list top -> unit -> Prop), Q h td tt -> lp (p_locks ls) h td Q.
Proof. induction ls as [|[q [|]] ls IH]; intros h td Q H; cbn [p_locks]; vs; try exact H; apply IH; vs; exact H. Qed.
Lemma top_lp o td : no_removal hs o -> lp (p_top pr umax heads foreign order fuel o) [] (filter is_session [o] ++ td) (fun h td' _ => h = [] /\ td' = td).
Proof.
  intro T. destruct o as [[p es ev|p es ev|p e ev|p tr|p]|p ev sel|ls]; cbn [p_top p_step no_removal filter is_session app] in *.
  - destruct T as [Er Eh]. vs. eapply (flush_lp _ (do_flush_lp fuel)); [reflexivity|exact Er|exact Eh|eassumption|auto].
  - destruct T as [Er Eh]. vs. eapply (live_flush_lp _ (do_flush_lp fuel)); [reflexivity|exact Er|exact Eh|eassumption|].
    intro w. vs. apply lp_same. vs. auto.
  - contradiction.
  - vs. apply lp_still; [reflexivity..|]. intros x _. vs. apply lp_still; [reflexivity..|]. intros y _. vs. auto.
  - vs. apply lp_still; [intro y; unfold xu_flush; destruct (nth_error (xu_fl y) p); reflexivity..|]. intros y _. vs. auto.
  - unfold p_select. vs. apply (do_flush_lp fuel); [exact T|]. intro s. vs. auto.
  - apply locks_lp. auto.
Qed.
Lemma run_all_lp l : Forall (no_removal hs) l -> lp (Threads.p_run pr umax heads foreign order fuel l) [] (filter is_session l) (fun h td _ => h = [] /\ td = []).
Proof.
  unfold Threads.p_run. generalize tt. induction l as [|o l IH]; intros u F; cbn [p_fold]; [vs; auto|].
  apply Forall_cons_iff in F. destruct F as [O F]. apply lp_bind.
  replace (filter is_session (o :: l)) with (filter is_session [o] ++ filter is_session l) by (cbn; destruct (is_session o); reflexivity).
  eapply lp_mono; [|apply (top_lp o (filter is_session l) O)]. cbv beta. intros h td a [-> ->]. apply IH. exact F.
Qed.

(** ** All threads *)
Definition lok (x : xuni) (od : list top * list top) (t : guards * prog unit) : Prop :=
  exists h td, filter is_session (fst od) = snd od ++ td /\ lp (snd t) h td (fun _ td _ => td = []) /\ NoDup (map fst h) /\
    Forall (fun e => In (LT (fst e), true) (owned t)) h /\ agrees h x.
Definition all_lin (x0 : xuni) (tss : list (list top)) (c : threads) : Prop :=
  u_hdl (xu_u (th_x c)) = hs /\
  exists ods l, map fst ods = tss /\ interleaved (map snd ods) l /\ fold_res one l (u_tabs (xu_u x0)) = Ok (u_tabs (xu_u (th_x c))) /\
    Forall2 (lok (th_x c)) ods (th_ts c).
Lemma lok_of x od g m h td : filter is_session (fst od) = snd od ++ td -> lp m h td (fun _ td _ => td = []) -> NoDup (map fst h) ->
  Forall (fun e => In (LT (fst e), true) g) h -> agrees h x -> lok x od (g, m).
Proof.
  intros E V N F A. destruct m as [[a|e]| | | |]; [|exists [], td; split; [exact E|]; split; [exact I|]; repeat constructor|..];
    (exists h, td; split; [exact E|]; split; [exact V|]; split; [exact N|]; split; [exact F|exact A]).
Qed.
Lemma lok_other x y g od t : keeps g x y -> (forall p, In (LT p, true) (owned t) -> ~ In (LT p, true) g) -> lok x od t -> lok y od t.
Proof.
  intros K N (h & td & E & V & D & F & A). exists h, td. split; [exact E|]. split; [exact V|]. split; [exact D|]. split; [exact F|].
  unfold agrees in *. rewrite Forall_forall in *. intros e He.
  destruct (K (fst e)) as [[E'|E'] _]; [rewrite E'; apply A; exact He|]. elim (N _ (F e He) E').
Qed.
Lemma fold_snoc {S X} (f : S -> X -> res S) l a : forall s s' s'', fold_res f l s = Ok s' -> f s' a = Ok s'' -> fold_res f (l ++ [a]) s = Ok s''.
Proof.
  induction l as [|b l IH]; intros s s' s'' H E; cbn [app fold_res] in *; [injection H as ->; rewrite E; reflexivity|].
  destruct (f s b) as [s1|e]; [|discriminate]. cbn [bind] in *. eapply IH; eauto.
Qed.
Lemma all_lin_step x0 tss c c' : thread_step c c' -> all_own c -> all_lin x0 tss c -> all_lin x0 tss c'.
Proof.
  intros S [O Ap] (Hh & ods & lin & Em & Il & Fo & V).
  destruct S as [x a g l wr k b M|x a g l wr k b M|x a g l wr k b|x a g B f k b]; cbn [th_x th_ts] in *;
    apply Forall2_app_inv_r in V; destruct V as (ta & tb' & Va & Vb & ->); inversion Vb as [|od t0 tb ts0 Vt Vb']; subst.
  - split; [exact Hh|]. exists (ta ++ od :: tb), lin. split; [reflexivity|]. split; [exact Il|]. split; [exact Fo|]. cbn [th_x th_ts].
    apply Forall2_app; [exact Va|]. constructor; [|exact Vb']. destruct Vt as (h & td & E & V & D & F & A). cbn [snd lp] in V.
    assert (Fg : forall e, In e h -> In (LT (fst e), true) g) by (rewrite Forall_forall in F; exact F).
    assert (Keep : lp k h td (fun _ td _ => td = []) -> lok x od ((l, wr) :: g, k)).
    { intro V'. apply (lok_of _ _ _ _ h td); auto. apply Forall_forall. intros e He. right. auto. }
    destruct l as [p|p]; [|apply Keep; exact V]. destruct wr; [|apply Keep; exact V].
    assert (N : ~ In p (map fst h)).
    { intro Hin. apply in_map_iff in Hin. destruct Hin as (e & <- & He). destruct M as [M _]. specialize (M (g, Acq (LT (fst e)) true k)).
      cbn [th_ts] in M. assert (L := M ltac:(apply in_elt)). destruct (lets_in _ _ _ _ L (Fg e He)). discriminate. }
    apply (lok_of _ _ _ _ ((p, nth_error (u_tabs (xu_u x)) p) :: h) td).
    + exact E.
    + apply V. exact N.
    + constructor; assumption.
    + constructor; [left; reflexivity|]. apply Forall_forall. intros e He. right. auto.
    + constructor; [reflexivity|exact A].
  - split; [exact Hh|]. exists (ta ++ od :: tb), lin. split; [reflexivity|]. split; [exact Il|]. split; [exact Fo|]. cbn [th_x th_ts].
    apply Forall2_app; [exact Va|]. constructor; [|exact Vb']. destruct Vt as (h & td & E & _). exists [], td. split; [exact E|]. split; [exact I|]. repeat constructor.
  - split; [exact Hh|]. exists (ta ++ od :: tb), lin. split; [reflexivity|]. split; [exact Il|]. split; [exact Fo|]. cbn [th_x th_ts].
    apply Forall2_app; [exact Va|]. constructor; [|exact Vb']. destruct Vt as (h & td & E & V & D & F & A). cbn [snd lp] in V.
    assert (Fg : forall e, In e h -> In (LT (fst e), true) g) by (rewrite Forall_forall in F; exact F).
    assert (Keep : (forall q, l <> LT q \/ wr <> true) -> lp k h td (fun _ td _ => td = []) -> lok x od (drop_guard l wr g, k)).
    { intros Ne V'. apply (lok_of _ _ _ _ h td); auto. apply Forall_forall. intros e He. apply in_drop_f; auto. }
    destruct l as [p|p]; [|apply Keep; [left; discriminate|exact V]]. destruct wr; [|apply Keep; [right; discriminate|exact V]].
    apply (lok_of _ _ _ _ (h_drop p h) td).
    + exact E.
    + exact V.
    + clear - D. induction h as [|e h IH]; cbn; [constructor|]. cbn [map] in D. apply NoDup_cons_iff in D. destruct D as [D1 D2].
      destruct (negb (fst e =? p)); [|auto]. cbn [map]. constructor; [|apply IH; exact D2]. intro H. apply D1.
      apply in_map_iff in H. destruct H as (e' & <- & He'). apply filter_In in He'. apply in_map. apply He'.
    + apply Forall_forall. intros e He. apply filter_In in He. destruct He as [He Hp]. apply in_drop; [|auto].
      destruct (Nat.eqb_spec (fst e) p); [discriminate|assumption].
    + unfold agrees in *. rewrite Forall_forall in *. intros e He. apply filter_In in He. apply A. apply He.
  - apply Forall_app in O. destruct O as [_ Ob]. apply Forall_cons_iff in Ob. destruct Ob as [Ot _].
    destruct (Ot x) as [K _].
    assert (Oth : forall s, In s (a ++ b) -> forall p, In (LT p, true) (owned s) -> ~ In (LT p, true) g).
    { intros s Hs p H1 H2.
      assert (Et : nth_error (a ++ (g, Act f k) :: b) (length a) = Some (g, Act f k)) by (rewrite nth_error_app2, Nat.sub_diag by lia; reflexivity).
      assert (Dj : exists j, j <> length a /\ nth_error (a ++ (g, Act f k) :: b) j = Some s).
      { apply in_app_iff in Hs. destruct Hs as [Hs|Hs]; apply In_nth_error in Hs; destruct Hs as [j Ej].
        - assert (j < length a) by (apply nth_error_Some; congruence). exists j. split; [lia|]. rewrite nth_error_app1 by lia. exact Ej.
        - exists (length a + Datatypes.S j). split; [lia|]. rewrite nth_error_app2 by lia. replace (length a + Datatypes.S j - length a) with (Datatypes.S j) by lia. exact Ej. }
      destruct Dj as (j & Nj & Ej). destruct (Ap _ _ _ _ Nj Ej Et (LT p) true true H1 H2). discriminate. }
    assert (Imp : forall l1 l2, (forall s, In s l2 -> In s (a ++ b)) -> Forall2 (lok x) l1 l2 -> Forall2 (lok (fst (f x))) l1 l2).
    { intros l1 l2 Hin F2. induction F2 as [|o s l1 l2 V0 F2 IH]; constructor; [|apply IH; intros; apply Hin; right; assumption].
      eapply lok_other; [exact K| |exact V0]. apply Oth. apply Hin. left. reflexivity. }
    assert (Ia := Imp _ _ (fun s H => in_or_app a b s (or_introl H)) Va). assert (Ib := Imp _ _ (fun s H => in_or_app a b s (or_intror H)) Vb').
    destruct Vt as (h & td & E & V & D & F & A). cbn [snd lp] in V. destruct (V x Hh A) as (Hd & [[T V']|(o & rest & h' & Et & Eo & Eh & A' & V')]).
    + split; [exact Hd|]. exists (ta ++ od :: tb), lin. split; [reflexivity|]. split; [exact Il|]. cbn [th_x th_ts]. split; [rewrite T; exact Fo|].
      apply Forall2_app; [exact Ia|]. constructor; [|exact Ib]. apply (lok_of _ _ _ _ h td); auto. unfold agrees. rewrite T. exact A.
    + split; [exact Hd|]. exists (ta ++ (fst od, snd od ++ [o]) :: tb), (lin ++ [o]). split; [rewrite !map_app; reflexivity|]. cbn [th_x th_ts].
      split; [rewrite map_app in *; cbn [map snd] in *; apply il_next; exact Il|]. split; [eapply fold_snoc; eauto|].
      apply Forall2_app; [exact Ia|]. constructor; [|exact Ib]. apply (lok_of _ _ _ _ h' rest); auto.
      * cbn [fst snd]. rewrite E, Et, <- app_assoc. reflexivity.
      * rewrite Eh. exact D.
      * cbn in F. clear - Eh F. revert h' Eh. induction F as [|e h He F IH]; intros [|e' h'] E; cbn in E; try discriminate; [constructor|].
        injection E as E1 E2. constructor; [rewrite E1; exact He|apply IH; exact E2].
Qed.
End Serial.
Lemma sessions_serial pr umax heads foreign order fuel x tss c :
  Forall (Forall (no_removal (u_hdl (xu_u x)))) tss ->
  thread_steps (started x (map (Threads.p_run pr umax heads foreign order fuel) tss)) c ->
  exists ds l, Forall2 (fun d ops => exists rest, filter is_session ops = d ++ rest) ds tss /\ interleaved ds l /\
    fold_res (one_session pr umax) l (u_tabs (xu_u x)) = Ok (u_tabs (xu_u (th_x c))) /\
    forall i g ops, nth_error (th_ts c) i = Some (g, Ret (Ok tt)) -> nth_error tss i = Some ops -> nth_error ds i = Some (filter is_session ops).
Proof.
  intros T S. set (hs := u_hdl (xu_u x)) in *.
  assert (L0 : all_lin pr umax hs x tss (started x (map (Threads.p_run pr umax heads foreign order fuel) tss))).
  { split; [reflexivity|]. exists (map (fun ops => (ops, [])) tss), []. split; [rewrite map_map; apply map_id|].
    split; [constructor; apply Forall_forall; intros d Hd; rewrite map_map in Hd; apply in_map_iff in Hd; destruct Hd as (? & <- & _); reflexivity|].
    split; [reflexivity|]. unfold started. cbn [th_x th_ts]. clear S. induction T as [|ops tss H T IH]; cbn [map]; [constructor|]. constructor; [|exact IH].
    exists [], (filter is_session ops). split; [reflexivity|]. split; [|repeat constructor]. cbn [snd]. eapply lp_mono; [|apply run_all_lp; exact H].
    cbv beta. intros h td a [_ ->]. reflexivity. }
  assert (L : all_lin pr umax hs x tss c /\ all_own c).
  { remember (started x _) as c0 eqn:E0. induction S as [|c0 c1 c2 S IH S']; subst; [split; [exact L0|apply started_own]|].
    destruct (IH eq_refl L0) as [L O]. split; [eapply all_lin_step; eauto|eapply all_own_step; eauto]. }
  destruct L as [(_ & ods & l & Em & Il & Fo & V) _]. exists (map snd ods), l. subst tss. split; [|split; [exact Il|split; [exact Fo|]]].
  - clear - V. induction V as [|od t ods ts (h & td & E & _) V IH]; cbn [map]; constructor; eauto.
  - intros i g ops Ei Eo. rewrite nth_error_map in *. clear - V Ei Eo. revert i Ei Eo. induction V as [|od t ods ts (h & td & E & Vt & _) V IH]; intros [|i] Ei Eo; cbn [nth_error] in *; try discriminate; [|eauto].
    cbn [option_map] in *. injection Ei as ->. injection Eo as <-. cbn in Vt. subst td. rewrite app_nil_r in E. rewrite E. reflexivity.
Qed.
Lemma interleaved_one {A} (ds : list (list A)) l : interleaved ds l -> forall d, ds = [d] -> l = d.
Proof.
  induction 1 as [ds F|a d b l o H IH]; intros e Ee.
  - subst. inversion F; subst. congruence.
  - destruct a as [|a0 a]; [|destruct a; discriminate]. cbn in *. injection Ee as <- ->. rewrite (IH d eq_refl). reflexivity.
Qed.
Lemma interleaved_perm {A} (ds : list (list A)) l : interleaved ds l -> Permutation (concat ds) l.
Proof.
  induction 1 as [ds F|a d b l o H IH].
  - induction F as [|d ds E F IH]; [constructor|]. subst. exact IH.
  - rewrite concat_app in *. cbn [concat] in *. rewrite <- app_assoc, <- Permutation_cons_append, <- IH. cbn [app].
    rewrite <- (Permutation_middle d), <- Permutation_middle. reflexivity.
Qed.
Lemma sessions_alone pr umax heads foreign order fuel x ops y :
  Forall (no_removal (u_hdl (xu_u x))) ops -> fold_res (seq_top pr umax heads foreign order fuel) ops x = Ok y ->
  fold_res (one_session pr umax) (filter is_session ops) (u_tabs (xu_u x)) = Ok (u_tabs (xu_u y)).
Proof.
  intros T H. apply alone_run in H.
  destruct (sessions_serial pr umax heads foreign order fuel x [ops] _ (Forall_cons _ T (Forall_nil _)) H) as (ds & l & F & Il & Fo & D).
  specialize (D 0 [] ops eq_refl eq_refl). inversion F as [|d ? ds' ? _ F']; subst. inversion F'; subst. cbn in D. injection D as ->.
  rewrite <- (interleaved_one _ _ Il _ eq_refl). exact Fo.
Qed.
Lemma sessions_crowd pr umax heads foreign order fuel x tss d :
  Forall (Forall (no_removal (u_hdl (xu_u x)))) tss ->
  crowd_steps (begun x (map (Threads.p_run pr umax heads foreign order fuel) tss)) d ->
  exists ds l ts, Forall2 (fun d ops => exists rest, filter is_session ops = d ++ rest) ds tss /\ interleaved ds l /\
    fold_res (one_session pr umax) l (u_tabs (xu_u x)) = Ok ts /\
    forall p, ~ In (LT p) (cr_bad d) -> nth_error (u_tabs (xu_u (th_x (cr_c d)))) p = nth_error ts p.
Proof.
  intros T S. destruct (crowd_as_if _ _ _ _ _ _ _ _ _ S) as (c & Sc & _ & (Sm & _)).
  destruct (sessions_serial _ _ _ _ _ _ _ _ _ T Sc) as (ds & l & F & Il & Fo & _). exists ds, l, (u_tabs (xu_u (th_x c))). auto.
Qed.
