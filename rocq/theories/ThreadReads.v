(** Proofs: what a thread does depends only on what it has locked. *)
From Coq Require Import List Arith Bool Lia.
From Verif Require Import Base BaseFacts Names Column RowRange Table SortedTab TableSpec Hist HistFacts Events Cascade CascadeSpec Extract
  Threads ThreadSpec ThreadSeq ThreadFacts ThreadSafe.
Import ListNotations.

(** What no step changes. *)
Definition frame (x y : xuni) : Prop :=
  length (u_tabs (xu_u y)) = length (u_tabs (xu_u x)) /\ length (u_trk (xu_u y)) = length (u_trk (xu_u x)) /\ u_hdl (xu_u y) = u_hdl (xu_u x).
Lemma frame_refl x : frame x x.
Proof. repeat split. Qed.
(** Forgotten guards. *)
Definition leaks (x : xuni) : list nat := map fs_leaked (xu_fl x).
Definition leak_ok (g : guards) (x y x' y' : xuni) : Prop := forall p,
  (nth_error (leaks y) p = nth_error (leaks x) p -> nth_error (leaks y') p = nth_error (leaks x') p) /\
  (nth_error (leaks x') p = nth_error (leaks x) p \/ exists wr, In (LF p, wr) g).
Local Hint Extern 1 (leak_ok _ _ _ _ _) => (intros ?; split; [let E := fresh in intro E; exact E|left; reflexivity]) : core.
Fixpoint rp {A} (m : prog A) (g : guards) (Q : guards -> A -> Prop) : Prop :=
  match m with
  | Ret (Ok a) => Q g a
  | Ret (Err _) | Endless => True
  | Acq l wr k => rp k ((l, wr) :: g) Q
  | Rel l wr k => rp k (drop_guard l wr g) Q
  | Act f k => forall x y, same_for g x y ->
      same_for g (fst (f x)) (fst (f y)) /\ k (snd (f x)) = k (snd (f y)) /\
      (frame x (fst (f x)) /\ leak_ok g x y (fst (f x)) (fst (f y))) /\ rp (k (snd (f x))) g Q
  end.
Lemma rp_bind {A B} (m : prog A) (f : A -> prog B) : forall g Q, rp m g (fun g a => rp (f a) g Q) -> rp (pbind m f) g Q.
Proof.
  induction m as [r| |l wr k IH|l wr k IH|C h k IH]; intros g Q H; cbn [pbind rp] in *; auto.
  - destruct r; exact H.
  - intros x y E. destruct (H x y E) as (H1 & H2 & H3 & H4). split; [exact H1|]. split; [rewrite H2; reflexivity|]. split; [exact H3|]. auto.
Qed.
Lemma rp_mono {A} (m : prog A) : forall g (Q R : guards -> A -> Prop), (forall g a, Q g a -> R g a) -> rp m g Q -> rp m g R.
Proof.
  induction m as [r| |l wr k IH|l wr k IH|C h k IH]; intros g Q R QR H; cbn [rp] in *; eauto.
  - destruct r; auto.
  - intros x y E. destruct (H x y E) as (H1 & H2 & H3 & H4). eauto 6.
Qed.
Lemma rp_take l wr g (Q : guards -> unit -> Prop) : Q ((l, wr) :: g) tt -> rp (take_lock l wr) g Q.
Proof. auto. Qed.
Lemma rp_give l wr g (Q : guards -> unit -> Prop) : Q g tt -> rp (give_lock l wr) ((l, wr) :: g) Q.
Proof. intro H. unfold give_lock. cbn [rp]. rewrite drop_hd. exact H. Qed.
Lemma rp_lift {A} (r : res A) g (Q : guards -> A -> Prop) : (forall a, r = Ok a -> Q g a) -> rp (lift r) g Q.
Proof. intro H. unfold lift. cbn. destruct r; auto. Qed.
Lemma rp_look {B} (f : universe -> B) g (Q : guards -> B -> Prop) :
  (forall x y, same_for g x y -> f (xu_u x) = f (xu_u y)) -> (forall b, Q g b) -> rp (look f) g Q.
Proof. intros E H x y S. split; [exact S|]. cbn [snd fst]. split; [rewrite (E x y S); reflexivity|]. split; [split; [apply frame_refl|auto]|]. apply H. Qed.
Lemma rp_say n g (Q : guards -> unit -> Prop) : Q g tt -> rp (change (fun u => u_say u n)) g Q.
Proof. intros H x y S. split; [exact S|]. split; [reflexivity|]. split; [split; [repeat split|auto]|exact H]. Qed.
Lemma rp_get p wr g (Q : guards -> table -> Prop) : In (LT p, wr) g -> (forall t, Q g t) -> rp (get_tab p) g Q.
Proof.
  intros L H. apply rp_bind. apply rp_look.
  - intros x y (S & _). unfold u_get. rewrite (S p wr L). reflexivity.
  - intro r. apply rp_lift. auto.
Qed.
Lemma map_upd_same {A B} (f : A -> B) l l' p a : map f l' = map f l -> map f (upd l' p a) = map f (upd l p a).
Proof. intro E. rewrite !upd_map, E. reflexivity. Qed.
Lemma rp_put p t g (Q : guards -> unit -> Prop) : Q g tt -> rp (put_tab p t) g Q.
Proof.
  intros H x y (S1 & S2 & S3 & S4 & S5). split; [|split; [reflexivity|split; [|exact H]]].
  - cbn [fst]. split; [|split; [exact S2|split; [|split; assumption]]].
    + intros q wr L. cbn. rewrite !nth_error_upd. apply (f_equal (@length _)) in S3. rewrite !map_length in S3. rewrite S3.
      destruct (_ && _); [reflexivity|]. exact (S1 q wr L).
    + cbn. apply map_upd_same. exact S3.
  - split; [|auto]. split; [cbn; apply upd_length|]. split; reflexivity.
Qed.
Lemma behind_upd x y p h q (F : forall f f', fs_ident f' = fs_ident f -> fs_remap f' = fs_remap f ->
    fs_ident (h f') = fs_ident (h f) /\ fs_remap (h f') = fs_remap (h f)) f f' :
  behind y p = behind x p -> behind y q = behind x q -> nth_error (xu_fl x) p = Some f -> nth_error (xu_fl y) p = Some f' ->
  behind (XU (xu_u y) (upd (xu_fl y) p (h f'))) q = behind (XU (xu_u x) (upd (xu_fl x) p (h f))) q.
Proof.
  intros Ep Eq Ex Ey. unfold behind in *. cbn [xu_u xu_fl]. destruct (Nat.eq_dec q p) as [->|Ne].
  - rewrite !nth_error_upd_eq by (apply nth_error_Some; congruence). cbn [option_map]. rewrite Ex, Ey in *. cbn [option_map] in Ep. inv Ep.
    destruct (F f f') as [F1 F2]; auto. rewrite F1, F2. f_equal.
  - rewrite !nth_error_upd_ne by congruence. exact Eq.
Qed.
(** Changing the remapping under a lock. *)
Lemma rp_fl {A} p h wr g (k : res unit -> prog A) (Q : guards -> A -> Prop) : In (LF p, wr) g ->
  (forall f f', fs_ident f' = fs_ident f -> fs_remap f' = fs_remap f -> fs_ident (h f') = fs_ident (h f) /\ fs_remap (h f') = fs_remap (h f)) ->
  (forall f f', fs_ident f' = fs_ident f -> fs_remap f' = fs_remap f -> fs_leaked f' = fs_leaked f -> fs_leaked (h f') = fs_leaked (h f)) ->
  (forall r, rp (k r) g Q) ->
  rp (Act (fun x => match xu_flush x p with Ok f => (XU (xu_u x) (upd (xu_fl x) p (h f)), Ok tt) | Err e => (x, Err e) end) k) g Q.
Proof.
  intros L F F' H x y S. pose proof S as (S1 & S2 & S3 & S4 & S5). unfold xu_flush. pose proof (S2 p wr L) as E.
  destruct (nth_error (xu_fl x) p) as [f|] eqn:Ex, (nth_error (xu_fl y) p) as [f'|] eqn:Ey; cbn [fst snd];
    try (unfold behind in E; rewrite Ex, Ey in E; discriminate).
  - split; [|split; [reflexivity|split; [split; [repeat split|]|apply H]]].
    2:{ intro q. unfold leaks. cbn [xu_fl]. rewrite !nth_error_map. destruct (Nat.eq_dec q p) as [->|Ne].
        - split; [|eauto]. rewrite !nth_error_upd_eq by (apply nth_error_Some; congruence). rewrite Ex, Ey. cbn [option_map]. intro Lk.
          unfold behind in E. rewrite Ex, Ey in E. cbn in E. inv E. f_equal. apply F'; congruence.
        - rewrite !nth_error_upd_ne by congruence. auto. }
    split; [exact S1|]. split; [|split; [exact S3|split; assumption]].
    intros q wr' Lq. apply behind_upd; auto. apply (S2 q wr' Lq).
  - split; [exact S|]. split; [reflexivity|]. split; [split; [apply frame_refl|auto]|]. apply H.
Qed.
Ltac r1 :=
  match goal with
  | |- rp (pbind _ _) _ _ => apply rp_bind; cbv beta
  | |- rp (take_lock _ _) _ _ => apply rp_take
  | |- rp (give_lock _ _) _ _ => apply rp_give
  | |- rp (put_tab _ _) _ _ => apply rp_put
  | |- rp (get_tab _) _ _ => eapply rp_get; [cbn [In]; eauto 6|]; intro
  | |- rp (lift _) _ _ => apply rp_lift; intros ? ?
  | |- rp (change (fun u => u_say u _)) _ _ => apply rp_say
  | |- rp (Ret (Ok _)) _ _ => cbn [rp]
  | u : unit |- _ => destruct u
  end.
Ltac rs := repeat r1.
Lemma same_sch g x y c : same_for g x y -> option_map t_sch (nth_error (u_tabs (xu_u y)) c) = option_map t_sch (nth_error (u_tabs (xu_u x)) c).
Proof. intros (_ & _ & S & _). rewrite <- !nth_error_map, S. reflexivity. Qed.
Section Reads.
Variables (pr : profile) (umax : nat).
Definition calls_read (call : nat -> event -> bool -> bool -> select -> prog select) : Prop :=
  forall p ev pushed del sel g (Q : guards -> select -> Prop), In (LF p, false) g -> (forall sel', Q g sel') -> rp (call p ev pushed del sel) g Q.
Section With.
Variable call : nat -> event -> bool -> bool -> select -> prog select.
Hypothesis CO : calls_read call.
Lemma flush_rp p w ev g (Q : guards -> unit -> Prop) : Q g tt -> rp (p_flush_with pr umax call p w ev) ((LT p, true) :: g) Q.
Proof.
  intros H. unfold p_flush_with. destruct (sel_empty (w_changes w)).
  - rs. exact H.
  - rs. apply CO; [left; reflexivity|]. intro sel. rs. destruct (_ && _); [|rs; exact H]. rs. exact H.
Qed.
Lemma live_flush_rp p w ev g (Q : guards -> wlock -> Prop) : (forall w, Q ((LT p, true) :: g) w) ->
  rp (p_live_flush_with pr umax call p w ev) ((LT p, true) :: g) Q.
Proof.
  intros H. unfold p_live_flush_with. destruct (sel_empty (w_changes w)).
  - rs. apply H.
  - rs. apply CO; [left; reflexivity|]. intro sel. rs.
    apply (rp_fl p (fun f => if has_remapping f then if S (fs_leaked f) =? 0 then set_remapping (FS (fs_ident f) (fs_remap f) (S (fs_leaked f))) []
                             else FS (fs_ident f) (fs_remap f) (S (fs_leaked f)) else f) false); [left; reflexivity| | |].
    + intros f f' E1 E2. unfold has_remapping. rewrite E2. cbn [Nat.eqb]. destruct (fs_remap f) eqn:E3; cbn; rewrite ?E1, ?E2, ?E3; auto.
    + intros f f' E1 E2 E4. unfold has_remapping. rewrite E2. cbn [Nat.eqb]. destruct (fs_remap f) eqn:E3; cbn; rewrite ?E4; auto.
    + intro r. rs. apply H.
Qed.
(** The kind of a table never changes. *)
Lemma rp_get_kind {A} c (F : table -> prog A) g Q : (forall t t', t_sch t = t_sch t' -> F t = F t') -> (forall t, rp (F t) g Q) -> rp (pbind (get_tab c) F) g Q.
Proof.
  intros E H. cbn [get_tab pbind look]. cbn [rp]. intros x y S. split; [exact S|]. cbn [snd fst]. pose proof (same_sch _ _ _ c S) as Es.
  unfold u_get. destruct (nth_error (u_tabs (xu_u x)) c) as [t|], (nth_error (u_tabs (xu_u y)) c) as [t'|]; try discriminate; cbn [lift pbind].
  - split; [apply E; cbn in Es; congruence|]. split; [split; [apply frame_refl|auto]|]. apply H.
  - split; [reflexivity|]. split; [split; [apply frame_refl|auto]|]. exact I.
Qed.
Lemma remove_rp c ev rows g (Q : guards -> unit -> Prop) : Q g tt -> rp (p_remove_rows_with pr umax call c ev rows) g Q.
Proof.
  intro H. unfold p_remove_rows_with. apply rp_get_kind.
  - intros t t' E. unfold t_kind. rewrite E. reflexivity.
  - intro t. destruct (t_kind t); try exact I. all: rs; apply flush_rp; assumption.
Qed.
Lemma run_rp hd c ev rows g (Q : guards -> unit -> Prop) : Q g tt -> rp (p_run_with pr umax call hd c ev rows) g Q.
Proof.
  intro H.
  assert (Fin : forall rows, rp (let! _ := take_lock (LT c) false in let! _ := take_lock (LF c) false in
           let! _ := call c ev (ev_creation ev) (ev_removal ev) rows in let! _ := give_lock (LF c) false in give_lock (LT c) false) g Q).
  { intro r. rs. apply CO; [left; reflexivity|]. intros _. rs. exact H. }
  unfold p_run_with. destruct hd; cbn [p_handle_with].
  - rs. apply remove_rp. apply Fin.
  - do 4 r1. apply Fin.
  - rs. discriminate.
Qed.
Lemma auto_rp hd c k key ev rows g (Q : guards -> unit -> Prop) : Q g tt -> rp (p_auto_handle pr umax call hd c k key ev rows) g Q.
Proof. intro H. unfold p_auto_handle. rs. apply run_rp; assumption. Qed.
Lemma turns_rp p hd ev l : forall s g (Q : guards -> select * bool -> Prop), (forall s, Q g s) -> rp (p_fold (p_turn pr umax call hd p ev) l s) g Q.
Proof.
  induction l as [|[i tr] l IH]; intros s g Q H; cbn [p_fold]; [rs; apply H|].
  rs. assert (T : forall s, rp (p_fold (p_turn pr umax call hd p ev) l s) g Q) by (intro s'; apply IH; exact H).
  unfold p_turn. cbn [fst snd]. destruct (tracker_considers tr ev); [|rs; apply T].
  rs. apply rp_look.
  { intros x y S. destruct tr as [c k key|]; [|reflexivity]. cbn [tracker_sorts]. pose proof (same_sch _ _ _ c S) as E.
    destruct (nth_error (u_tabs (xu_u x)) c), (nth_error (u_tabs (xu_u y)) c); try discriminate; [|reflexivity]. cbn in E. unfold t_kind. congruence. }
  intro srt. rs. destruct tr as [c k key|].
  - apply auto_rp. rs. apply T.
  - rs. apply T.
Qed.
End With.
Lemma do_flush_rp fuel : calls_read (p_do_flush pr umax fuel).
Proof.
  induction fuel as [|n IH]; intros p ev pushed del sel g Q L H; cbn [p_do_flush]; [exact I|].
  rs. apply rp_look; [intros x y (_ & _ & _ & _ & S); rewrite S; reflexivity|]. intro r. rs.
  apply rp_look; [intros x y (_ & S & _); specialize (S p false L); unfold behind in S; congruence|]. intro trs. rs.
  apply (turns_rp _ IH). intro s. rs. apply H.
Qed.
Variable heads : nat -> header.
Variable foreign : nat -> list (nat * nat).
Variable order : nat -> row -> row -> comparison.
Variable fuel : nat.
Lemma take_all_rp qs : forall g (Q : guards -> unit -> Prop), Q (taken qs g) tt -> rp (p_take_all qs) g Q.
Proof. induction qs as [|q qs IH]; intros g Q H; cbn [p_take_all]; rs; [exact H|]. apply IH. exact H. Qed.
Lemma give_app_rp a b : forall g (Q : guards -> unit -> Prop), rp (p_give_all a) g (fun g _ => rp (p_give_all b) g Q) -> rp (p_give_all (a ++ b)) g Q.
Proof.
  induction a as [|q a IH]; intros g Q H; cbn [p_give_all app] in *; [exact H|]. cbn [pbind give_lock rp] in *. apply IH. exact H.
Qed.
Lemma give_all_rp qs : forall g (Q : guards -> unit -> Prop), Q g tt -> rp (p_give_all (rev qs)) (taken qs g) Q.
Proof.
  induction qs as [|q qs IH]; intros g Q H; cbn [rev taken]; [exact H|]. apply give_app_rp. apply IH. cbn [p_give_all]. rs. exact H.
Qed.
Lemma taken_in qs y : forall g, In y g -> In y (taken qs g).
Proof. induction qs as [|q qs IH]; intros g H; cbn [taken]; [exact H|]. apply IH. cbn. auto. Qed.
Lemma taken_has qs q : forall g, In q qs -> In (LF q, false) (taken qs g).
Proof. induction qs as [|q' qs IH]; intros g H; cbn [taken]; [destruct H|]. destruct H as [->|H]; [apply taken_in; left; reflexivity|]. apply IH. exact H. Qed.
(** The remapping of the tables referred to is all that [merge_extract] reads. *)
Lemma for_rows_ext {S} (f f' : S -> nat -> row -> res S) : (forall s i r, f s i r = f' s i r) -> forall ids data s, for_rows f ids data s = for_rows f' ids data s.
Proof.
  intro E. induction ids as [|i ids IH]; intros data s; cbn [for_rows]; [reflexivity|]. destruct (take_row data) as [q|]; [|reflexivity]. cbn [bind].
  rewrite E. destruct (f' s i (fst q)); [|reflexivity]. cbn [bind]. apply IH.
Qed.
Lemma merge_extract_reads fl fl' p nt w e :
  (forall q, In q (map snd (foreign p)) -> option_map (fun f => (fs_ident f, fs_remap f)) (nth_error fl' q) = option_map (fun f => (fs_ident f, fs_remap f)) (nth_error fl q)) ->
  merge_extract pr foreign order fl p nt w e = merge_extract pr foreign order fl' p nt w e.
Proof.
  intro E. assert (U : forall r, update_row foreign fl p r = update_row foreign fl' p r).
  { unfold update_row. induction (foreign p) as [|[k q] l IH]; intro r; [reflexivity|]. cbn [fold_res].
    assert (Ec : update_col fl r (k, q) = update_col fl' r (k, q)).
    { unfold update_col. cbn [fst snd]. specialize (E q (or_introl eq_refl)). destruct (nth_error r k) as [[| |old]|]; try reflexivity.
      destruct (nth_error fl q) as [f|], (nth_error fl' q) as [f'|]; try discriminate; [|reflexivity]. cbn in E. inv E. unfold fs_lookup. rewrite H0, H1. reflexivity. }
    rewrite Ec. destruct (update_col fl' r (k, q)); [|reflexivity]. cbn [bind]. apply IH. intros q' Hq. apply E. right. exact Hq. }
  unfold merge_extract. cbv zeta. destruct (t_kind (w_tab w)); try destruct nt; try reflexivity; apply for_rows_ext; intros s i r; rewrite U; reflexivity.
Qed.
Lemma rp_there {A} p (G : prog A) wr g Q : In (LF p, wr) g -> rp G g Q ->
  rp (let! r := Act (fun x => (x, xu_flush x p)) (fun r => Ret (Ok r)) in let! _ := lift r in G) g Q.
Proof.
  intros L H. cbn [pbind]. cbn [rp]. intros x y S. split; [exact S|]. cbn [fst snd]. destruct S as (_ & S & _). specialize (S p wr L). unfold behind, xu_flush in *.
  destruct (nth_error (xu_fl x) p), (nth_error (xu_fl y) p); try discriminate; cbn [lift pbind].
  - split; [reflexivity|]. split; [split; [apply frame_refl|auto]|exact H].
  - split; [reflexivity|]. split; [split; [apply frame_refl|auto]|exact I].
Qed.
Lemma register_same g x y p tr : same_for g x y -> (exists wr, In (LF p, wr) g) ->
  let f := fun u => Uni (u_tabs u) (upd (u_trk u) p (u_trackers u p ++ [tr])) (u_hdl u) (u_log u) in
  same_for g (XU (f (xu_u x)) (xu_fl x)) (XU (f (xu_u y)) (xu_fl y)).
Proof.
  intros (S1 & S2 & S3 & S4 & S5) [wr L]. cbv zeta. split; [exact S1|]. split; [|split; [exact S3|split; [|exact S5]]].
  - intros q wr' Lq. pose proof (S2 q wr' Lq) as Eq. pose proof (S2 p wr L) as Ep. unfold behind, u_trackers in *. cbn [xu_u xu_fl u_trk].
    injection Eq as Eq1 Eq2. injection Ep as Ep1 Ep2. rewrite Eq2, Ep1. f_equal.
    destruct (Nat.eq_dec q p) as [->|Ne].
    + destruct (le_lt_dec (length (u_trk (xu_u x))) p).
      * rewrite !upd_oob by lia. exact Ep1.
      * rewrite (nth_error_nth _ _ [] (nth_error_upd_eq (u_trk (xu_u y)) p _ ltac:(lia))), (nth_error_nth _ _ [] (nth_error_upd_eq (u_trk (xu_u x)) p _ ltac:(lia))).
        reflexivity.
    + revert Eq1. rewrite <- !nth_default_eq. unfold nth_default. rewrite !nth_error_upd_ne by congruence. auto.
  - cbn. rewrite !upd_length. exact S4.
Qed.
Lemma step_rp o : rp (p_step pr umax heads foreign order fuel o) [] (fun g _ => g = []).
Proof.
  destruct o as [p es ev|p es ev|p e ev|p tr|p]; cbn [p_step].
  - rs. apply (flush_rp _ (do_flush_rp fuel)). reflexivity.
  - rs. apply (live_flush_rp _ (do_flush_rp fuel)). intro w. rs. reflexivity.
  - rs. unfold p_restore_extract. rs. match goal with |- context [match ?v with Some _ => _ | None => _ end] => destruct v end.
    + rs. reflexivity.
    + rs. apply take_all_rp. rs. apply rp_look.
      { intros x y (_ & S & _). specialize (S p false (or_introl eq_refl)). unfold behind in S. injection S as S _. rewrite S. reflexivity. }
      intro nt. rs. cbn [rp]. intros x y S. split; [exact S|]. cbn [fst snd]. split; [|split; [split; [apply frame_refl|auto]|]].
      * do 2 f_equal. apply merge_extract_reads. intros q Hq. destruct S as (_ & S & _). specialize (S q false (taken_has _ _ _ Hq)).
        unfold behind in S. congruence.
      * rs. apply give_all_rp.
        match goal with |- context [if ?b then _ else _] => destruct b end; rs; [reflexivity|].
        match goal with |- context [set_remapping _ ?l] => apply (rp_fl p (fun f => set_remapping f l) true) end; [left; reflexivity| | |].
        2:{ intros f f' E1 E2 E4. unfold set_remapping. rewrite E1. destruct (fs_ident f); cbn; auto. }
        { intros f f' E1 E2. unfold set_remapping. rewrite E1. destruct (fs_ident f) eqn:E3; cbn; rewrite ?E1, ?E2, ?E3; auto. }
        intro r. rs. apply (flush_rp _ (do_flush_rp fuel)). reflexivity.
  - do 5 r1. apply (rp_there p _ true); [left; reflexivity|].
    rs. unfold change. cbn [rp]. intros x' y' S'. split; [|split; [reflexivity|split; [split; [|auto]|rs; reflexivity]]].
    + apply (register_same _ x' y' p tr S'). exists true. left. reflexivity.
    + split; [reflexivity|]. split; [cbn; apply upd_length|reflexivity].
  - rs. apply (rp_fl p set_identity_remap true); [left; reflexivity| | |].
    + intros f f' E1 E2. cbn. auto.
    + intros f f' E1 E2. cbn. auto.
    + intro r. rs. reflexivity.
Qed.
Lemma locks_rp ls : forall g (Q : guards -> unit -> Prop), Q g tt -> rp (p_locks ls) g Q.
Proof. induction ls as [|[q wr] ls IH]; intros g Q H; cbn [p_locks]; rs; [exact H|]. apply IH. rs. exact H. Qed.
Lemma run_all_rp ops : rp (Threads.p_run pr umax heads foreign order fuel ops) [] (fun g _ => g = []).
Proof.
  unfold Threads.p_run. generalize tt. induction ops as [|o ops IH]; intros u; cbn [p_fold]; [rs; reflexivity|].
  apply rp_bind. apply (rp_mono _ _ (fun g _ => g = [])); [intros g a ->; apply IH|].
  destruct o as [o|p ev sel|ls]; cbn [p_top].
  - apply step_rp.
  - unfold p_select. rs. apply (do_flush_rp fuel); [left; reflexivity|]. intro s. rs. reflexivity.
  - apply locks_rp. reflexivity.
Qed.
End Reads.

Definition all_read (c : threads) : Prop := Forall (fun t => rp (snd t) (fst t) (fun g _ => g = [])) (th_ts c).
Lemma same_for_refl g x : same_for g x x.
Proof. unfold same_for. auto 6. Qed.
Lemma all_read_step c c' : thread_step c c' -> all_read c -> all_read c'.
Proof.
  unfold all_read. intros H F. destruct H; cbn [th_x th_ts] in *; apply Forall_app in F; destruct F as [Fa Fb];
    apply Forall_cons_iff in Fb; destruct Fb as [Ft Fb]; apply Forall_app; (split; [exact Fa|]); (constructor; [|exact Fb]); try exact Ft.
  - exact I.
  - exact (proj2 (proj2 (proj2 (Ft x x (same_for_refl g x))))).
Qed.
Lemma all_read_steps c c' : thread_steps c c' -> all_read c -> all_read c'.
Proof. intros H K. induction H; auto. eapply all_read_step; eauto. Qed.
Lemma started_read pr umax heads foreign order fuel x tss : all_read (started x (map (Threads.p_run pr umax heads foreign order fuel) tss)).
Proof.
  unfold all_read, started. cbn [th_ts]. rewrite map_map. apply Forall_forall. intros t Ht. apply in_map_iff in Ht. destruct Ht as (ops & <- & _). apply run_all_rp.
Qed.
Lemma reads_locked pr umax heads foreign order fuel x tss c g B (f : xuni -> xuni * B) k y :
  thread_steps (started x (map (Threads.p_run pr umax heads foreign order fuel) tss)) c ->
  In (g, Act f k) (th_ts c) -> same_for g (th_x c) y ->
  k (snd (f y)) = k (snd (f (th_x c))) /\ same_for g (fst (f (th_x c))) (fst (f y)).
Proof.
  intros S Hin E. pose proof (all_read_steps _ _ S (started_read pr umax heads foreign order fuel x tss)) as F.
  unfold all_read in F. rewrite Forall_forall in F. destruct (F _ Hin (th_x c) y E) as (H1 & H2 & _). auto.
Qed.

(** ** The order of two accesses does not matter *)
Lemma upd_comm {A} (l : list A) i j a b : i <> j -> upd (upd l i a) j b = upd (upd l j b) i a.
Proof.
  intro Ne. apply list_ext. intro n. rewrite !nth_error_upd, !upd_length. destruct (Nat.eq_dec n i) as [->|Ni].
  - destruct (Nat.eqb_spec j i); [congruence|]. destruct (Nat.eqb_spec i j); [congruence|]. cbn. destruct (_ && _); reflexivity.
  - destruct (Nat.eqb_spec n i); [congruence|]. destruct (Nat.eqb_spec i n); [congruence|]. cbn. destruct (_ && _); reflexivity.
Qed.
Section Order.
Variables (pr : profile) (has : nat -> Prop) (sch : nat -> schema).
Lemma same_for_after g g' x y : inv has sch x -> inv has sch y -> frame x y -> keeps g x y ->
  (forall l wr wr', In (l, wr) g -> In (l, wr') g' -> wr = false /\ wr' = false) -> same_for g' x y.
Proof.
  intros Ix Iy (F1 & F2 & F3) K A. split; [|split; [|split; [|split; [exact F2|exact F3]]]].
  - intros p wr L. destruct (K p) as [[E|E] _]; [exact E|]. destruct (A _ _ _ E L). discriminate.
  - intros p wr L. destruct (K p) as [_ [E|E]]; [exact E|]. destruct (A _ _ _ E L). discriminate.
  - apply list_ext. intro p. rewrite !nth_error_map. destruct (nth_error (u_tabs (xu_u x)) p) as [t|] eqn:Ex, (nth_error (u_tabs (xu_u y)) p) as [t'|] eqn:Ey; cbn; try reflexivity.
    + destruct (Ix _ _ Ex) as [_ (S1 & _)]. destruct (Iy _ _ Ey) as [_ (S2 & _)]. congruence.
    + exfalso. apply nth_error_None in Ey. assert (p < length (u_tabs (xu_u x))) by (apply nth_error_Some; congruence). lia.
    + exfalso. apply nth_error_None in Ex. assert (p < length (u_tabs (xu_u y))) by (apply nth_error_Some; congruence). lia.
Qed.
Lemma acts_comm c i j c1 c2 : all_safe pr has sch c -> all_own c -> all_read c -> i <> j -> acts c i c1 -> acts c1 j c2 ->
  exists d1 d2, acts c j d1 /\ acts d1 i d2 /\ th_ts d2 = th_ts c2 /\ same_state (th_x c2) (th_x d2).
Proof.
  intros [I0 Sf] [Ow Ap] Rd Ne (gi & Bi & fi & ki & Ei & ->) (gj & Bj & fj & kj & Ej & ->). cbn [th_x th_ts] in *.
  rewrite nth_error_upd_ne in Ej by congruence.
  destruct c as [x0 l]. cbn [th_x th_ts] in *. unfold all_read in Rd. cbn [th_ts] in Rd.
  pose proof (nth_error_In _ _ Ei) as Hi. pose proof (nth_error_In _ _ Ej) as Hj.
  rewrite Forall_forall in Sf, Ow, Rd. pose proof (Sf _ Hi) as Si. pose proof (Sf _ Hj) as Sj. pose proof (Ow _ Hi) as Oi. pose proof (Ow _ Hj) as Oj.
  pose proof (Rd _ Hi) as Ri. pose proof (Rd _ Hj) as Rj. unfold own_ok in Oi, Oj. cbn [fst snd sp op rp] in Si, Sj, Oi, Oj, Ri, Rj.
  pose proof (Ap _ _ _ _ Ne Ei Ej) as Aij. assert (Aji : apart (gj, Act fj kj) (gi, Act fi ki)) by (intros L a b H1 H2; destruct (Aij _ _ _ H2 H1); auto).
  unfold apart, owned in Aij, Aji. cbn [fst snd] in Aij, Aji.
  assert (Sj0 : same_for gj x0 (fst (fi x0))).
  { apply (same_for_after gi); auto; [apply Si; exact I0|apply (proj1 (proj1 (proj2 (proj2 (Ri x0 x0 (same_for_refl _ _))))))|apply Oi]. }
  assert (Si0 : same_for gi x0 (fst (fj x0))).
  { apply (same_for_after gj); auto; [apply Sj; exact I0|apply (proj1 (proj1 (proj2 (proj2 (Rj x0 x0 (same_for_refl _ _))))))|apply Oj]. }
  destruct (Rj _ _ Sj0) as (Tj & Kj & _). destruct (Ri _ _ Si0) as (Ti & Ki & _).
  set (x1 := fst (fi x0)) in *. set (y1 := fst (fj x0)) in *. set (x2 := fst (fj x1)) in *. set (y2 := fst (fi y1)) in *.
  exists (TH y1 (upd l j (gj, kj (snd (fj x0))))), (TH y2 (upd (upd l j (gj, kj (snd (fj x0)))) i (gi, ki (snd (fi y1))))).
  split; [exists gj, Bj, fj, kj; split; [exact Ej|reflexivity]|].
  split; [exists gi, Bi, fi, ki; split; [cbn [th_ts]; rewrite nth_error_upd_ne by congruence; exact Ei|reflexivity]|].
  cbn [th_ts th_x]. split.
  { rewrite <- Kj, <- Ki. apply upd_comm. congruence. }
  destruct Ti as (Ti1 & Ti2 & _). destruct Tj as (Tj1 & Tj2 & _).
  split; [apply list_ext|]; intro p.
  - assert (C1 : In (LT p, true) gi -> nth_error (u_tabs (xu_u y2)) p = nth_error (u_tabs (xu_u x2)) p).
    { intro L. rewrite (Ti1 p true L). destruct (Oj x1) as [K _]. destruct (K p) as [[E|E] _]; [symmetry; exact E|]. destruct (Aij _ _ _ L E). discriminate. }
    assert (C2 : In (LT p, true) gj -> nth_error (u_tabs (xu_u y2)) p = nth_error (u_tabs (xu_u x2)) p).
    { intro L. rewrite (Tj1 p true L). destruct (Oi y1) as [K _]. destruct (K p) as [[E|E] _]; [exact E|]. destruct (Aij _ _ _ E L). discriminate. }
    destruct (proj1 (Oj x1) p) as [[E1|E1] _]; [|auto]. destruct (proj1 (Oi y1) p) as [[E2|E2] _]; [|auto].
    destruct (proj1 (Oi x0) p) as [[E3|E3] _]; [|auto]. destruct (proj1 (Oj x0) p) as [[E4|E4] _]; [|auto]. unfold x2, y2, x1, y1 in *. congruence.
  - assert (C1 : In (LF p, true) gi -> behind y2 p = behind x2 p).
    { intro L. rewrite (Ti2 p true L). destruct (Oj x1) as [K _]. destruct (K p) as [_ [E|E]]; [symmetry; exact E|]. destruct (Aij _ _ _ L E). discriminate. }
    assert (C2 : In (LF p, true) gj -> behind y2 p = behind x2 p).
    { intro L. rewrite (Tj2 p true L). destruct (Oi y1) as [K _]. destruct (K p) as [_ [E|E]]; [exact E|]. destruct (Aij _ _ _ E L). discriminate. }
    destruct (proj1 (Oj x1) p) as [_ [E1|E1]]; [|auto]. destruct (proj1 (Oi y1) p) as [_ [E2|E2]]; [|auto].
    destruct (proj1 (Oi x0) p) as [_ [E3|E3]]; [|auto]. destruct (proj1 (Oj x0) p) as [_ [E4|E4]]; [|auto]. unfold x2, y2, x1, y1 in *. congruence.
Qed.
End Order.
Lemma order_of_accesses pr umax heads foreign order fuel x tss c i j c1 c2 :
  made pr umax (xu_u x) -> (forall p t, nth_error (u_tabs (xu_u x)) p = Some t -> pr = Debug \/ t_kind t <> Bag) ->
  Forall (Forall (top_ty (xu_u x))) tss ->
  thread_steps (started x (map (Threads.p_run pr umax heads foreign order fuel) tss)) c -> i <> j -> acts c i c1 -> acts c1 j c2 ->
  exists d1 d2, acts c j d1 /\ acts d1 i d2 /\ th_ts d2 = th_ts c2 /\ same_state (th_x c2) (th_x d2).
Proof.
  intros M B T S. destruct (started_safe pr umax heads foreign order fuel x tss M B T) as (has & sch & _ & _ & _ & T0).
  apply (acts_comm pr has sch); [exact (all_safe_steps _ _ _ _ _ S T0)|exact (all_own_steps _ _ S (started_own pr umax heads foreign order fuel x tss))|].
  exact (all_read_steps _ _ S (started_read pr umax heads foreign order fuel x tss)).
Qed.
