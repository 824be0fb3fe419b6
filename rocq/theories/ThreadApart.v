(** Proofs: threads that use different tables do not notice each other. *)
From Coq Require Import List Arith Bool Lia.
From Verif Require Import Base BaseFacts Names Column RowRange Table SortedTab TableSpec Hist HistFacts Events Cascade CascadeSpec Extract
  Threads ThreadSpec ThreadSeq ThreadFacts ThreadSafe ThreadReads Poison PoisonSpec PoisonFacts.
Import ListNotations.

Definition tab_of (l : lock) : nat := match l with LT p | LF p => p end.
Section Within.
Variable s : nat -> Prop.
Fixpoint fp {A} (m : prog A) (Q : A -> Prop) : Prop :=
  match m with
  | Ret (Ok a) => Q a
  | Ret (Err _) | Endless => True
  | Acq l wr k => s (tab_of l) /\ fp k Q
  | Rel l wr k => fp k Q
  | Act f k => forall x, self_contained s (xu_u x) -> self_contained s (xu_u (fst (f x))) /\ fp (k (snd (f x))) Q
  end.
Lemma fp_bind {A B} (m : prog A) (f : A -> prog B) : forall Q, fp m (fun a => fp (f a) Q) -> fp (pbind m f) Q.
Proof.
  induction m as [r| |l wr k IH|l wr k IH|C h k IH]; intros Q H; cbn [pbind fp] in *; auto.
  - destruct r; exact H.
  - destruct H; auto.
  - intros x E. destruct (H x E) as (H1 & H2). auto.
Qed.
Lemma fp_mono {A} (m : prog A) : forall (Q R : A -> Prop), (forall a, Q a -> R a) -> fp m Q -> fp m R.
Proof.
  induction m as [r| |l wr k IH|l wr k IH|C h k IH]; intros Q R QR H; cbn [fp] in *; eauto.
  - destruct r; auto.
  - destruct H; eauto.
  - intros x E. destruct (H x E). eauto.
Qed.
Lemma fp_take l wr (Q : unit -> Prop) : s (tab_of l) -> Q tt -> fp (take_lock l wr) Q.
Proof. intros; split; auto. Qed.
Lemma fp_give l wr (Q : unit -> Prop) : Q tt -> fp (give_lock l wr) Q.
Proof. auto. Qed.
Lemma fp_lift {A} (r : res A) (Q : A -> Prop) : (forall a, r = Ok a -> Q a) -> fp (lift r) Q.
Proof. intro H. destruct r; cbn; auto. Qed.
Lemma fp_look {B} (f : universe -> B) (Q : B -> Prop) : (forall u, self_contained s u -> Q (f u)) -> fp (look f) Q.
Proof. intros H x E. split; [exact E|apply H; exact E]. Qed.
Lemma fp_still {A B} (f : xuni -> xuni * B) (k : B -> prog A) (Q : A -> Prop) : (forall x, u_trk (xu_u (fst (f x))) = u_trk (xu_u x)) ->
  (forall b, fp (k b) Q) -> fp (Act f k) Q.
Proof. intros T H x E. split; [|apply H]. unfold self_contained, u_trackers in *. rewrite T. exact E. Qed.
Lemma fp_say n (Q : unit -> Prop) : Q tt -> fp (change (fun u => u_say u n)) Q.
Proof. intro H. apply fp_still; auto. Qed.
Lemma fp_put p t (Q : unit -> Prop) : Q tt -> fp (put_tab p t) Q.
Proof. intro H. apply fp_still; auto. Qed.
Lemma fp_get p (Q : table -> Prop) : (forall t, Q t) -> fp (get_tab p) Q.
Proof. intro H. apply fp_bind, fp_look. intros u _. apply fp_lift. auto. Qed.
Ltac f1 :=
  match goal with
  | |- fp (pbind _ _) _ => apply fp_bind; cbv beta
  | |- fp (take_lock _ _) _ => apply fp_take; [assumption|]
  | |- fp (give_lock _ _) _ => apply fp_give
  | |- fp (put_tab _ _) _ => apply fp_put
  | |- fp (get_tab _) _ => apply fp_get; intro
  | |- fp (lift _) _ => apply fp_lift; intros ? ?
  | |- fp (change (fun u => u_say u _)) _ => apply fp_say
  | |- fp (Ret (Ok _)) _ => cbn [fp]
  | u : unit |- _ => destruct u
  end.
Ltac fs := repeat f1.

Section Calls.
Variables (pr : profile) (umax : nat).
Definition calls_within (call : nat -> event -> bool -> bool -> select -> prog select) : Prop :=
  forall p ev pushed del sel (Q : select -> Prop), s p -> (forall sel', Q sel') -> fp (call p ev pushed del sel) Q.
Section With.
Variable call : nat -> event -> bool -> bool -> select -> prog select.
Hypothesis CO : calls_within call.
Lemma flush_fp p w ev (Q : unit -> Prop) : s p -> Q tt -> fp (p_flush_with pr umax call p w ev) Q.
Proof.
  intros Sp H. unfold p_flush_with. destruct (sel_empty (w_changes w)).
  - fs. exact H.
  - fs. apply CO; [exact Sp|]. intro sel. fs. destruct (_ && _); [|fs; exact H]. fs. exact H.
Qed.
Lemma live_flush_fp p w ev (Q : wlock -> Prop) : s p -> (forall w, Q w) -> fp (p_live_flush_with pr umax call p w ev) Q.
Proof.
  intros Sp H. unfold p_live_flush_with. destruct (sel_empty (w_changes w)).
  - fs. apply H.
  - fs. apply CO; [exact Sp|]. intro sel. fs. apply fp_still; [intro x; destruct (xu_flush x p); reflexivity|]. intro r. fs. apply H.
Qed.
Lemma remove_fp c ev rows (Q : unit -> Prop) : s c -> Q tt -> fp (p_remove_rows_with pr umax call c ev rows) Q.
Proof.
  intros Sp H. unfold p_remove_rows_with. fs. match goal with |- context [t_kind ?t] => destruct (t_kind t) end; try exact I. all: fs; apply flush_fp; assumption.
Qed.
Lemma run_fp hd c ev rows (Q : unit -> Prop) : s c -> Q tt -> fp (p_run_with pr umax call hd c ev rows) Q.
Proof.
  intros Sp H.
  assert (Fin : forall rows, fp (let! _ := take_lock (LT c) false in let! _ := take_lock (LF c) false in
           let! _ := call c ev (ev_creation ev) (ev_removal ev) rows in let! _ := give_lock (LF c) false in give_lock (LT c) false) Q).
  { intro r. fs. apply CO; [exact Sp|]. intros _. fs. exact H. }
  unfold p_run_with. destruct hd; cbn [p_handle_with].
  - fs. apply remove_fp; [exact Sp|]. apply Fin.
  - do 4 f1. apply Fin.
  - fs. discriminate.
Qed.
Lemma auto_fp hd c k key ev rows (Q : unit -> Prop) : s c -> Q tt -> fp (p_auto_handle pr umax call hd c k key ev rows) Q.
Proof. intros Sp H. unfold p_auto_handle. fs. apply run_fp; assumption. Qed.
Lemma turns_fp p hd ev l : (forall i c k key, In (i, TAuto c k key) l -> s c) -> forall st (Q : select * bool -> Prop), (forall st, Q st) ->
  fp (p_fold (p_turn pr umax call hd p ev) l st) Q.
Proof.
  induction l as [|[i tr] l IH]; intros Hl st Q H; cbn [p_fold]; [fs; apply H|].
  fs. assert (T : forall st, fp (p_fold (p_turn pr umax call hd p ev) l st) Q) by (intro st'; apply IH; [intros; eapply Hl; right; eassumption|exact H]).
  unfold p_turn. cbn [fst snd]. destruct (tracker_considers tr ev); [|fs; apply T].
  fs. apply fp_look. intros u _. fs. destruct tr as [c k key|].
  - apply auto_fp; [eapply Hl; left; reflexivity|]. fs. apply T.
  - fs. apply T.
Qed.
End With.
Lemma do_flush_fp fuel : calls_within (p_do_flush pr umax fuel).
Proof.
  induction fuel as [|n IH]; intros p ev pushed del sel Q Sp H; cbn [p_do_flush]; [exact I|].
  fs. apply fp_look. intros u _. fs. apply fp_look. intros u' C. fs.
  apply (turns_fp _ IH); [|intro st; fs; apply H]. intros i c k key Hi. apply in_combine_r in Hi. exact (C p c k key Sp Hi).
Qed.
Variable heads : nat -> header.
Variable foreign : nat -> list (nat * nat).
Variable order : nat -> row -> row -> comparison.
Variable fuel : nat.
Lemma take_all_fp qs : forall (Q : unit -> Prop), Forall s qs -> Q tt -> fp (p_take_all qs) Q.
Proof. induction qs as [|q qs IH]; intros Q F H; cbn [p_take_all]; fs; [exact H|]. apply Forall_cons_iff in F. destruct F as [F1 F2]. fs. apply IH; auto. Qed.
Lemma give_all_fp qs : forall (Q : unit -> Prop), Q tt -> fp (p_give_all qs) Q.
Proof. induction qs as [|q qs IH]; intros Q H; cbn [p_give_all]; fs; [exact H|]. apply IH; auto. Qed.
Lemma locks_fp ls : forall (Q : unit -> Prop), Forall (fun q => s (fst q)) ls -> Q tt -> fp (p_locks ls) Q.
Proof. induction ls as [|[q wr] ls IH]; intros Q F H; cbn [p_locks]; fs; [exact H|]. apply Forall_cons_iff in F. destruct F as [F1 F2]. cbn in F1. fs. apply IH; auto. Qed.
Lemma top_fp o (Q : unit -> Prop) : uses_only foreign s o -> Q tt -> fp (p_top pr umax heads foreign order fuel o) Q.
Proof.
  intros U H. destruct o as [[p es ev|p es ev|p e ev|p tr|p]|p ev sel|ls]; cbn [p_top p_step uses_only] in *.
  - fs. apply (flush_fp _ (do_flush_fp fuel)); assumption.
  - fs. apply (live_flush_fp _ (do_flush_fp fuel)); [exact U|]. intro w. fs. exact H.
  - destruct U as [U Uf]. fs. unfold p_restore_extract. fs. match goal with |- context [match ?v with Some _ => _ | None => _ end] => destruct v end.
    + fs. exact H.
    + fs. apply take_all_fp. { apply Forall_forall. intros q Hq. apply in_map_iff in Hq. destruct Hq as ([k q'] & <- & Hq). exact (Uf _ _ Hq). }
      fs. apply fp_look. intros u _. fs. apply fp_still; [reflexivity|]. intro r. fs. apply give_all_fp.
      match goal with |- context [if ?b then _ else _] => destruct b end; fs; [exact H|].
      apply fp_still; [intro x; destruct (xu_flush x p); reflexivity|]. intro r'. fs. apply (flush_fp _ (do_flush_fp fuel)); assumption.
  - assert (Sp : s p) by (destruct tr; tauto). fs. apply fp_still; [reflexivity|]. intro r. fs. intros x C. split; [|fs; exact H].
    cbn [fst xu_u]. intros q c k key Sq Hin. unfold u_trackers in Hin. cbn [u_trk] in Hin. destruct (Nat.eq_dec q p) as [->|Ne].
    + destruct (le_lt_dec (length (u_trk (xu_u x))) p).
      * rewrite upd_oob in Hin by lia. exact (C p c k key Sp Hin).
      * rewrite (nth_error_nth _ _ [] (nth_error_upd_eq (u_trk (xu_u x)) p _ ltac:(lia))) in Hin. apply in_app_or in Hin.
        destruct Hin as [Hin|[Hin|[]]]; [exact (C p c k key Sp Hin)|]. subst tr. apply U.
    + revert Hin. rewrite <- nth_default_eq. unfold nth_default. rewrite nth_error_upd_ne by congruence. intro Hin. apply (C q c k key Sq).
      unfold u_trackers. rewrite <- nth_default_eq. exact Hin.
  - fs. apply fp_still; [intro x; destruct (xu_flush x p); reflexivity|]. intro r. fs. exact H.
  - unfold p_select. fs. apply (do_flush_fp fuel); [exact U|]. intro st. fs. exact H.
  - apply locks_fp; [|exact H]. apply Forall_forall. intros [q wr] Hq. exact (U _ _ Hq).
Qed.
Lemma run_all_fp ops : Forall (uses_only foreign s) ops -> fp (Threads.p_run pr umax heads foreign order fuel ops) (fun _ => True).
Proof.
  unfold Threads.p_run. generalize tt. intros u F. revert u. induction F as [|o ops U F IH]; intro u; cbn [p_fold]; [exact I|].
  apply fp_bind. apply top_fp; [exact U|]. apply IH.
Qed.
End Calls.
End Within.

(** ** One thread among others *)
(** The same for everything about the tables of [s]. *)
Definition alike_on (s : nat -> Prop) (x y : xuni) : Prop :=
  (forall p, s p -> nth_error (u_tabs (xu_u y)) p = nth_error (u_tabs (xu_u x)) p /\ behind y p = behind x p /\ nth_error (leaks y) p = nth_error (leaks x) p) /\
  map t_sch (u_tabs (xu_u y)) = map t_sch (u_tabs (xu_u x)) /\ length (u_trk (xu_u y)) = length (u_trk (xu_u x)) /\ u_hdl (xu_u y) = u_hdl (xu_u x).
Lemma alike_refl s x : alike_on s x x.
Proof. repeat split. Qed.
Lemma alike_trans s x y z : alike_on s x y -> alike_on s y z -> alike_on s x z.
Proof.
  intros (A1 & A2 & A3 & A4) (B1 & B2 & B3 & B4). split; [|repeat split; congruence]. intros p Sp. destruct (A1 p Sp) as (? & ? & ?). destruct (B1 p Sp) as (? & ? & ?).
  repeat split; congruence.
Qed.
Lemma alike_contained s x y : alike_on s x y -> self_contained s (xu_u x) -> self_contained s (xu_u y).
Proof. intros (A & _) C p c k key Sp Hin. destruct (A p Sp) as (_ & B & _). unfold behind in B. injection B as B _. rewrite B in Hin. exact (C p c k key Sp Hin). Qed.
Definition guards_in (s : nat -> Prop) (g : guards) : Prop := forall l wr, In (l, wr) g -> s (tab_of l).
Lemma alike_same_for s g x y : guards_in s g -> alike_on s x y -> same_for g x y.
Proof.
  intros G (A & B & C & D). split; [|split; [|auto]]; intros p wr Hin; apply G in Hin; cbn in Hin; apply (A p Hin).
Qed.
Lemma own_act s g B (f : xuni -> xuni * B) (k : B -> prog unit) Q x y :
  guards_in s g -> alike_on s x y -> rp (Act f k) g Q -> op (Act f k) g Q -> k (snd (f x)) = k (snd (f y)) /\ alike_on s (fst (f x)) (fst (f y)).
Proof.
  intros G A R O. destruct (R x y (alike_same_for _ _ _ _ G A)) as ((S1 & S2 & S3 & S4 & S5) & Ek & (_ & Lk) & _). split; [exact Ek|].
  destruct (O x) as [Kx _]. destruct (O y) as [Ky _]. split; [|repeat split; assumption]. intros p Sp. destruct A as (A & _). destruct (A p Sp) as (A1 & A2 & A3).
  split; [|split].
  - destruct (Kx p) as [[E|E] _]; [|exact (S1 _ _ E)]. destruct (Ky p) as [[E'|E'] _]; [|exact (S1 _ _ E')]. congruence.
  - destruct (Kx p) as [_ [E|E]]; [|exact (S2 _ _ E)]. destruct (Ky p) as [_ [E'|E']]; [|exact (S2 _ _ E')]. congruence.
  - apply Lk. exact A3.
Qed.
Lemma other_act s g B (f : xuni -> xuni * B) (k : B -> prog unit) Q x : map t_sch (u_tabs (xu_u (fst (f x)))) = map t_sch (u_tabs (xu_u x)) ->
  (forall l wr, In (l, wr) g -> ~ s (tab_of l)) -> rp (Act f k) g Q -> op (Act f k) g Q -> alike_on s x (fst (f x)).
Proof.
  intros Es G R O. destruct (R x x (same_for_refl _ _)) as (_ & _ & ((F1 & F2 & F3) & Lk) & _). destruct (O x) as [K _].
  split; [|auto]. intros p Sp. destruct (K p) as [Kt Kb]. split; [|split].
  - destruct Kt as [Kt|Kt]; [exact Kt|]. elim (G _ _ Kt Sp).
  - destruct Kb as [Kb|Kb]; [exact Kb|]. elim (G _ _ Kb Sp).
  - destruct (Lk p) as [_ [L|[wr L]]]; [exact L|]. elim (G _ _ L Sp).
Qed.
Lemma half_alike s l x x' : ~ s (tab_of l) -> half_done l x x' -> alike_on s x x'.
Proof.
  intros N H. destruct H as [l x|p t t' x E Es|p f f' trs x E El]; [apply alike_refl| |]; cbn [tab_of] in N.
  - split; [|split; [|split; reflexivity]].
    + intros q Sq. split; [cbn; apply nth_error_upd_ne; congruence|split; reflexivity].
    + cbn [xu_u u_tabs u_put]. rewrite upd_map, Es. apply list_ext. intro n. rewrite nth_error_upd. destruct (Nat.eqb_spec n p) as [->|Ne]; [|reflexivity].
      destruct (p <? _); [|reflexivity]. cbn. rewrite nth_error_map, E. reflexivity.
  - split; [|split; [reflexivity|split; [cbn; apply upd_length|reflexivity]]].
    intros q Sq. assert (Ne : p <> q) by congruence. split; [reflexivity|]. unfold behind, leaks, u_trackers. cbn [xu_u xu_fl u_trk].
    rewrite !nth_error_map, (nth_error_upd_ne (xu_fl x)) by congruence. split; [|reflexivity]. f_equal.
    rewrite <- !nth_default_eq. unfold nth_default. rewrite nth_error_upd_ne by congruence. reflexivity.
Qed.
Lemma nth_mid {A} (a : list A) t b i u : nth_error (a ++ t :: b) i = Some u -> (i = length a /\ u = t) \/ (i <> length a /\ forall t', nth_error (a ++ t' :: b) i = Some u).
Proof.
  intro H. destruct (Nat.eq_dec i (length a)) as [->|N].
  - left. rewrite nth_error_app2, Nat.sub_diag in H by lia. injection H as <-. auto.
  - right. split; [exact N|]. intro t'. destruct (le_lt_dec (length a) i).
    + rewrite nth_error_app2 in * by lia. destruct (i - length a) eqn:E; [lia|]. exact H.
    + rewrite nth_error_app1 in * by lia. exact H.
Qed.
Lemma nth_at {A} (a : list A) t b : nth_error (a ++ t :: b) (length a) = Some t.
Proof. rewrite nth_error_app2, Nat.sub_diag by lia. reflexivity. Qed.
Lemma not_leaked_on s x y l wr : alike_on s x y -> s (tab_of l) -> not_leaked y l wr = not_leaked x l wr.
Proof.
  intros (A & _) Sl. unfold not_leaked. destruct l as [p|p]; [reflexivity|]. f_equal. destruct (A p Sl) as (_ & _ & E). unfold leaks in E. rewrite !nth_error_map in E.
  destruct (nth_error (xu_fl x) p), (nth_error (xu_fl y) p); cbn in E; congruence.
Qed.

(** [r]: what the thread comes to if it is alone. *)
Definition as_alone (s : nat -> Prop) (r : res (xuni * guards * unit)) (x : xuni) (bad : list lock) (t : guards * prog unit) : Prop :=
  guards_in s (fst t) /\ fp s (snd t) (fun _ => True) /\
  ((exists e, snd t = Ret (Err e) /\ r = Err e) \/
   (self_contained s (xu_u x) /\ (forall l, In l bad -> ~ s (tab_of l)) /\ exists y, r = alone (snd t) y (fst t) /\ alike_on s y x)).
Lemma as_alone_other s r x x' bad bad' t : alike_on s x x' -> (forall l, In l bad' -> In l bad \/ ~ s (tab_of l)) -> as_alone s r x bad t -> as_alone s r x' bad' t.
Proof.
  intros A B (G & F & H). split; [exact G|]. split; [exact F|]. destruct H as [H|(C & N & y & Er & Ay)]; [left; exact H|]. right.
  split; [exact (alike_contained _ _ _ A C)|]. split; [intros l Hl; destruct (B l Hl); auto|]. exists y. split; [exact Er|]. eapply alike_trans; eauto.
Qed.
Section All.
Variables (ss : nat -> nat -> Prop) (rs : nat -> res (xuni * guards * unit)).
Hypothesis D : forall i j p, ss i p -> ss j p -> i = j.
Definition all_as_alone (d : crowd) : Prop := forall i t, nth_error (th_ts (cr_c d)) i = Some t -> as_alone (ss i) (rs i) (th_x (cr_c d)) (cr_bad d) t.
Lemma all_alone_step d d' c : crowd_step d d' -> sim d c -> map t_sch (u_tabs (xu_u (th_x (cr_c d')))) = map t_sch (u_tabs (xu_u (th_x (cr_c d)))) ->
  all_as_alone d -> all_as_alone d'.
Proof.
  intros St (F2 & _ & _ & _ & [Ow _] & Rd) Es Al i t Et. unfold all_as_alone in Al.
  destruct St as [x a g l wr k b bad M N|x a g l wr k b bad M N|x a g l wr k b bad|x a g B f k b bad|x a l g e b bad|x x' a l g e b bad Hd]; cbn [cr_c cr_bad th_x th_ts] in *;
    (destruct (nth_mid _ _ _ _ _ Et) as [[-> ->]|[Ni Et']]; [pose proof (Al _ _ (nth_at a _ b)) as (G & F & H)|]); cbn [fst snd] in *.
  - cbn [fp] in F. destruct F as [Sl F]. split; [intros l' wr' [E|E]; [injection E as <- <-; exact Sl|exact (G _ _ E)]|]. split; [exact F|].
    right. destruct H as [(e & H & _)|(C & Nb & y & Er & A)]; [discriminate|]. split; [exact C|]. split; [exact Nb|]. exists y. split; [|exact A]. rewrite Er. cbn [alone fst snd].
    destruct M as [M1 M2]. cbn [th_ts th_x] in *. pose proof (M1 _ (in_elt _ a b)) as L. cbn [fst] in L. rewrite L, <- (not_leaked_on _ _ _ l wr A Sl), M2. reflexivity.
  - apply Al. apply Et'.
  - cbn [fp] in F. destruct F as [Sl F]. destruct H as [(e & H & _)|(C & Nb & _)]; [discriminate|]. elim (Nb _ N Sl).
  - apply Al. apply Et'.
  - split; [intros l' wr' E; exact (G _ _ (drop_in _ _ _ _ E))|]. split; [exact F|].
    right. destruct H as [(e & H & _)|(C & Nb & y & Er & A)]; [discriminate|]. split; [exact C|]. split; [exact Nb|]. exists y. auto.
  - apply Al. apply Et'.
  - destruct (alike_split _ _ _ _ F2) as (a' & [g' m'] & b' & Ec & _ & [Em Eo] & _). cbn [snd] in Em. subst m'. unfold owned in Eo. cbn [fst snd] in Eo. subst g'.
    assert (Rt : rp (Act f k) g (fun g _ => g = [])) by (unfold all_read in Rd; rewrite Forall_forall in Rd; apply (Rd (g, Act f k)); rewrite Ec; apply in_elt).
    assert (Ot : op (Act f k) g (fun g _ => g = [])) by (rewrite Forall_forall in Ow; apply (Ow (g, Act f k)); rewrite Ec; apply in_elt).
    destruct H as [(e & H & _)|(C & Nb & y & Er & A)]; [discriminate|].
    cbn [fp] in F. destruct (F x C) as [C' F']. split; [exact G|]. split; [exact F'|]. right. split; [exact C'|]. split; [exact Nb|].
    destruct (own_act _ _ _ _ _ _ _ _ G A Rt Ot) as [Ek A']. exists (fst (f y)).
    split; [|exact A']. rewrite Er. cbn [alone snd fst]. rewrite Ek. reflexivity.
  - destruct (alike_split _ _ _ _ F2) as (a' & [g' m'] & b' & Ec & _ & [Em Eo] & _). cbn [snd] in Em. subst m'. unfold owned in Eo. cbn [fst snd] in Eo. subst g'.
    assert (Rt : rp (Act f k) g (fun g _ => g = [])) by (unfold all_read in Rd; rewrite Forall_forall in Rd; apply (Rd (g, Act f k)); rewrite Ec; apply in_elt).
    assert (Ot : op (Act f k) g (fun g _ => g = [])) by (rewrite Forall_forall in Ow; apply (Ow (g, Act f k)); rewrite Ec; apply in_elt).
    destruct (Al _ _ (nth_at a _ b)) as (Gj & _). cbn [fst] in Gj. eapply as_alone_other; [|intros l Hl; left; exact Hl|exact (Al _ _ (Et' (g, Act f k)))].
    eapply other_act; [exact Es| |exact Rt|exact Ot]. intros l wr Hl Sl. apply Ni. exact (D _ _ _ Sl (Gj _ _ Hl)).
  - split; [intros l' wr' E; apply (G l' wr'); right; exact E|]. split; [exact F|]. left. exists e. split; [reflexivity|].
    destruct H as [(e' & H & Er)|(C & Nb & y & Er & A)]; [injection H as ->; exact Er|exact Er].
  - apply Al. apply Et'.
  - split; [intros l' wr' E; apply (G l' wr'); right; exact E|]. split; [exact F|]. left. exists e. split; [reflexivity|].
    destruct H as [(e' & H & Er)|(C & Nb & y & Er & A)]; [injection H as ->; exact Er|exact Er].
  - destruct (Al _ _ (nth_at a _ b)) as (Gj & _). cbn [fst] in Gj.
    assert (Nl : ~ ss i (tab_of l)) by (intro Sl; apply Ni; exact (D _ _ _ Sl (Gj l true (or_introl eq_refl)))).
    eapply as_alone_other; [exact (half_alike _ _ _ _ Nl Hd)| |exact (Al _ _ (Et' _))]. intros l' [<-|Hl]; auto.
Qed.
Lemma all_alone_goes d i t : all_as_alone d -> nth_error (th_ts (cr_c d)) i = Some t -> finished t \/ crowd_on d i \/ rs i = Err EDeadlock \/ rs i = Err EFuel.
Proof.
  intros Al Et. destruct (Al _ _ Et) as (G & F & H). destruct t as [g m]. cbn [fst snd] in *.
  destruct m as [r| |l wr k|l wr k|B f k].
  - left. exists r. reflexivity.
  - destruct H as [(e & H & _)|(_ & _ & y & Er & _)]; [discriminate|]. auto.
  - destruct H as [(e & H & _)|(_ & _ & y & Er & A)]; [discriminate|]. right. cbn [alone] in Er. cbn [fp] in F. destruct F as [Sl F].
    destruct (lets g l wr && not_leaked y l wr) eqn:E; [|auto]. left. apply andb_true_iff in E. destruct E as [E1 E2].
    exists (g, Acq l wr k). split; [exact Et|]. cbn [snd]. split; [split|].
    + intros t' Hin. apply In_nth_error in Hin. destruct Hin as [j Ej]. destruct (Nat.eq_dec i j) as [<-|N]; [rewrite Et in Ej; injection Ej as <-; exact E1|].
      unfold lets. apply forallb_forall. intros [l' wr'] Hl. cbn [fst snd].
      destruct (lock_eqb l' l) eqn:El; [|reflexivity]. exfalso. assert (El' : l' = l) by (destruct l', l; cbn in El; try discriminate; apply Nat.eqb_eq in El; congruence).
      subst l'. destruct (Al _ _ Ej) as (Gj & _). apply N. exact (D _ _ _ Sl (Gj _ _ Hl)).
    + rewrite (not_leaked_on _ _ _ _ _ A Sl). exact E2.
    + intros -> t' k' Hin E. apply In_nth_error in Hin. destruct Hin as [j Ej]. destruct (Nat.eq_dec i j) as [<-|N].
      * rewrite Et in Ej. injection Ej as <-. discriminate.
      * destruct (Al _ _ Ej) as (_ & Fj & _). rewrite E in Fj. cbn [fp] in Fj. apply N. exact (D _ _ _ Sl (proj1 Fj)).
  - right. left. exists (g, Rel l wr k). split; [exact Et|exact I].
  - right. left. exists (g, Act f k). split; [exact Et|exact I].
Qed.
End All.

Section Final.
Variables (pr : profile) (umax : nat) (heads : nat -> header) (foreign : nat -> list (nat * nat)) (order : nat -> row -> row -> comparison) (fuel : nat).
Variables (x : xuni) (tss : list (list top)) (ss : nat -> nat -> Prop) (d : crowd).
Hypothesis M : made pr umax (xu_u x).
Hypothesis NB : forall p t, nth_error (u_tabs (xu_u x)) p = Some t -> pr = Debug \/ t_kind t <> Bag.
Hypothesis TY : Forall (Forall (top_ty (xu_u x))) tss.
Hypothesis D : forall i j p, ss i p -> ss j p -> i = j.
Hypothesis SC : forall i, self_contained (ss i) (xu_u x).
Hypothesis U : forall i ops, nth_error tss i = Some ops -> Forall (uses_only foreign (ss i)) ops.
Notation ms := (map (Threads.p_run pr umax heads foreign order fuel) tss).
Definition res_of (i : nat) : res (xuni * guards * unit) :=
  match nth_error tss i with Some ops => alone (Threads.p_run pr umax heads foreign order fuel ops) x [] | None => Err EUB end.
Lemma crowd_sch d' : crowd_steps (begun x ms) d' -> map t_sch (u_tabs (xu_u (th_x (cr_c d')))) = map t_sch (u_tabs (xu_u x)).
Proof.
  intro S. destruct (crowd_sim _ _ _ _ _ _ _ _ _ S) as (c & Sc & _ & (_ & Es & _) & _). rewrite Es.
  destruct (started_safe pr umax heads foreign order fuel x tss M NB TY) as (has & sch & _ & _ & _ & T0).
  assert (I0 : inv has sch x) by apply T0. destruct (all_safe_steps _ _ _ _ _ Sc T0) as [Ic _].
  assert (Fr : length (u_tabs (xu_u (th_x c))) = length (u_tabs (xu_u x))).
  { assert (R0 := started_read pr umax heads foreign order fuel x tss). revert R0. clear - Sc.
    remember (started x ms) as c0 eqn:E0. induction Sc as [c1|c1 c2 c3 S1 IH S2]; intro R0; [subst; reflexivity|]. rewrite <- (IH E0 R0).
    pose proof (all_read_steps _ _ S1 R0) as R. destruct S2; try reflexivity. cbn [th_x]. unfold all_read in R. cbn [th_ts] in R. rewrite Forall_forall in R.
    specialize (R (g, Act f k) ltac:(apply in_elt)). cbn [snd fst rp] in R. apply (R x0 x0 (same_for_refl _ _)). }
  apply list_ext. intro p. rewrite !nth_error_map. destruct (nth_error (u_tabs (xu_u x)) p) as [t|] eqn:Ex, (nth_error (u_tabs (xu_u (th_x c))) p) as [t'|] eqn:Ey; cbn; try reflexivity.
  + destruct (I0 _ _ Ex) as [_ (S1 & _)]. destruct (Ic _ _ Ey) as [_ (S2 & _)]. congruence.
  + exfalso. apply nth_error_None in Ey. assert (p < length (u_tabs (xu_u x))) by (apply nth_error_Some; congruence). lia.
  + exfalso. apply nth_error_None in Ex. assert (p < length (u_tabs (xu_u (th_x c)))) by (apply nth_error_Some; congruence). lia.
Qed.
Lemma apart_all d' : crowd_steps (begun x ms) d' -> all_as_alone ss res_of d'.
Proof.
  intro S. assert (E0 : all_as_alone ss res_of (begun x ms)).
  { intros i t Et. unfold begun, started in Et. cbn [cr_c th_ts th_x begun started cr_bad] in *. rewrite map_map, nth_error_map in Et. unfold res_of.
    destruct (nth_error tss i) as [ops|] eqn:Eo; [|discriminate]. injection Et as <-. cbn [fst snd].
    split; [intros l wr []|]. split; [apply run_all_fp; eapply U; exact Eo|]. right. split; [apply SC|]. split; [intros l []|]. exists x. split; [reflexivity|apply alike_refl]. }
  remember (begun x ms) as d0 eqn:Ed. induction S as [d0|d0 d1 d2 S1 IH S2]; [exact E0|]. subst d0. specialize (IH eq_refl E0).
  destruct (crowd_sim _ _ _ _ _ _ _ _ _ S1) as (c & _ & Sm). eapply all_alone_step; eauto.
  rewrite !crowd_sch; auto. econstructor; eauto.
Qed.
Hypothesis S : crowd_steps (begun x ms) d.
Lemma res_seq i ops : nth_error tss i = Some ops -> res_of i = let* y := fold_res (seq_top pr umax heads foreign order fuel) ops x in Ok (y, [], tt).
Proof. intro E. unfold res_of. rewrite E. apply run_all_sim. Qed.
Lemma apart_result i ops g r : nth_error tss i = Some ops -> nth_error (th_ts (cr_c d)) i = Some (g, Ret r) ->
  match r with
  | Ok _ => exists y, fold_res (seq_top pr umax heads foreign order fuel) ops x = Ok y /\
      forall p, ss i p -> nth_error (u_tabs (xu_u (th_x (cr_c d)))) p = nth_error (u_tabs (xu_u y)) p /\ behind (th_x (cr_c d)) p = behind y p
  | Err e => fold_res (seq_top pr umax heads foreign order fuel) ops x = Err e
  end.
Proof.
  intros Eo Et. destruct (apart_all d S i _ Et) as (_ & _ & H). cbn [fst snd] in *. rewrite (res_seq _ _ Eo) in H.
  destruct H as [(e & Ee & Er)|(_ & _ & y & Er & (A & _))].
  - injection Ee as ->. destruct (fold_res _ _ _) as [y'|e'] eqn:E; cbn [bind] in Er; [discriminate|]. congruence.
  - cbn [alone] in Er. destruct r as [[]|e]; cbn [bind] in Er; destruct (fold_res _ _ _) as [y'|e'] eqn:E; cbn [bind] in Er; try discriminate.
    + injection Er as -> _. exists y. split; [reflexivity|]. intros p Sp. destruct (A p Sp) as (A1 & A2 & _). auto.
    + congruence.
Qed.
Lemma apart_goes i ops t : nth_error tss i = Some ops -> nth_error (th_ts (cr_c d)) i = Some t -> finished t \/ crowd_on d i \/
  fold_res (seq_top pr umax heads foreign order fuel) ops x = Err EDeadlock \/ fold_res (seq_top pr umax heads foreign order fuel) ops x = Err EFuel.
Proof.
  intros Eo Et. pose proof (all_alone_goes _ _ D _ _ _ (apart_all d S) Et) as H. rewrite (res_seq _ _ Eo) in H.
  destruct H as [H|[H|[H|H]]]; [auto|auto|..]; right; right; (destruct (fold_res _ _ _) as [y'|e'] eqn:E; cbn [bind] in H; [discriminate|injection H as ->; auto]).
Qed.
End Final.
