(** Proofs about threads. *)
From Coq Require Import List Arith Bool Lia.
From Verif Require Import Base BaseFacts Names Column RowRange Table SortedTab Events Cascade CascadeSpec Extract Threads ThreadSpec ThreadSeq.
Import ListNotations.

(** ** No thread runs for ever *)
(** What a program may be one step later *)
Inductive sub {A} : prog A -> prog A -> Prop :=
| sub_acq l wr k : sub k (Acq l wr k)
| sub_rel l wr k : sub k (Rel l wr k)
| sub_act B (f : xuni -> xuni * B) k b : sub (k b) (Act f k)
| sub_panic l wr k : sub (Ret (panic PPoisoned)) (Acq l wr k).
Lemma sub_wf A : well_founded (@sub A).
Proof.
  assert (P : forall r, Acc (@sub A) (Ret r)) by (intro r; constructor; intros y H; inversion H).
  intro m. induction m as [r| |l wr k IH|l wr k IH|C h k IH]; auto.
  - constructor. intros y H; inversion H.
  - constructor. intros y H. inversion H; subst; auto.
  - constructor. intros y H. inversion H; subst; auto.
  - constructor. intros y H. remember (Act h k) as m eqn:E. destruct H; try discriminate.
    assert (Q : match Act (B := C) h k with Act f k => forall b, Acc (@sub A) (k b) | _ => True end) by exact IH.
    rewrite <- E in Q. apply Q.
Qed.
Inductive sub_list {A} : list (prog A) -> list (prog A) -> Prop :=
| sub_in a m m' b : sub m' m -> sub_list (a ++ m' :: b) (a ++ m :: b).
Lemma sub_list_wf A : well_founded (@sub_list A).
Proof.
  assert (E : Acc (@sub_list A) []).
  { constructor. intros y H. inversion H as [a m m' b S E1 E2]. destruct a; discriminate. }
  intro l. induction l as [|m l IH]; [exact E|].
  revert m. intro m. generalize (sub_wf A m). intro AM. revert l IH. induction AM as [m _ IM]. intros l AL.
  induction AL as [l HL IL]. constructor. intros y H. inversion H as [a n n' b S E1 E2]. destruct a as [|z a]; cbn in *.
  - inversion E2; subst. apply IM; [exact S|]. constructor. exact HL.
  - inversion E2; subst. apply IL. constructor. exact S.
Qed.
Lemma step_sub c c' : thread_step c c' -> sub_list (map snd (th_ts c')) (map snd (th_ts c)).
Proof. intro H. destruct H; cbn [th_ts]; rewrite !map_app; cbn [map snd]; constructor; constructor. Qed.
Lemma steps_end : well_founded (fun c' c => thread_step c c').
Proof.
  intro c. remember (map snd (th_ts c)) as l eqn:E. revert c E. induction (sub_list_wf unit l) as [l _ IH]. intros c ->.
  constructor. intros c' H. apply (IH _ (step_sub _ _ H)). reflexivity.
Qed.

(** A thread alone, step by step. *)
Lemma steps_trans a b c : thread_steps a b -> thread_steps b c -> thread_steps a c.
Proof. intros H K. induction K as [|b c1 c2 _ IH S]; [exact H|]. exact (tss_more _ _ _ (IH H) S). Qed.
Lemma alone_steps (m : prog unit) : forall x g x' g', alone m x g = Ok (x', g', tt) ->
  thread_steps (TH x [(g, m)]) (TH x' [(g', Ret (Ok tt))]).
Proof.
  induction m as [r| |l wr k IH|l wr k IH|C h k IH]; intros x g x' g' E; cbn [alone] in E.
  - destruct r as [[]|]; cbn in E; inv E. constructor.
  - discriminate.
  - destruct (lets g l wr && not_leaked x l wr) eqn:L; [|discriminate]. apply andb_prop in L. destruct L as [L1 L2].
    apply (steps_trans _ (TH x [((l, wr) :: g, k)])); [|apply IH; exact E].
    econstructor; [constructor|]. apply (ts_acq x [] g l wr k []). split; [|exact L2].
    intros t [<-|[]]. exact L1.
  - apply (steps_trans _ (TH x [(drop_guard l wr g, k)])); [|apply IH; exact E].
    econstructor; [constructor|]. apply (ts_rel x [] g l wr k []).
  - apply (steps_trans _ (TH (fst (h x)) [(g, k (snd (h x)))])); [|apply IH; exact E].
    econstructor; [constructor|]. apply (ts_act x [] g C h k []).
Qed.

(** ** Locks in order *)
Section Order.
Variable rank : nat -> nat.
Variable live : nat -> Prop.
Definition lr (l : lock) : nat := match l with LT p => 2 * rank p + 1 | LF p => 2 * rank p end.
Definition above (l : lock) (g : guards) : Prop := Forall (fun y => lr l < lr (fst y)) g.
Fixpoint wp {A} (m : prog A) (g : guards) (Q : guards -> A -> Prop) : Prop :=
  match m with
  | Ret (Ok a) => Q g a
  | Ret (Err _) => True
  | Endless => False
  | Acq l wr k => above l g /\ wp k ((l, wr) :: g) Q
  | Rel l wr k => wp k (drop_guard l wr g) Q
  | Act f k => forall x, calm rank live x -> calm rank live (fst (f x)) /\ wp (k (snd (f x))) g Q
  end.
Lemma wp_bind {A B} (m : prog A) (f : A -> prog B) : forall g Q,
  wp m g (fun g a => wp (f a) g Q) -> wp (pbind m f) g Q.
Proof.
  induction m as [r| |l wr k IH|l wr k IH|C h k IH]; intros g Q H; cbn [pbind wp] in *.
  - destruct r; exact H.
  - exact H.
  - destruct H as [H1 H2]. split; [exact H1|]. apply IH. exact H2.
  - apply IH. exact H.
  - intros x Cx. destruct (H x Cx) as [H1 H2]. split; [exact H1|]. apply IH. exact H2.
Qed.
Lemma wp_mono {A} (m : prog A) : forall g (Q R : guards -> A -> Prop), (forall g a, Q g a -> R g a) -> wp m g Q -> wp m g R.
Proof.
  induction m as [r| |l wr k IH|l wr k IH|C h k IH]; intros g Q R QR H; cbn [wp] in *.
  - destruct r; auto.
  - exact H.
  - destruct H. split; eauto.
  - eauto.
  - intros x Cx. destruct (H x Cx). split; eauto.
Qed.

(** ** No deadlock *)
Definition thread_ok (t : guards * prog unit) : Prop := wp (snd t) (fst t) (fun g _ => g = []).
Definition all_ok (c : threads) : Prop := calm rank live (th_x c) /\ Forall thread_ok (th_ts c).
Lemma all_ok_step c c' : thread_step c c' -> all_ok c -> all_ok c'.
Proof.
  intros H [Cx F]. destruct H; cbn [th_x th_ts] in *; apply Forall_app in F; destruct F as [Fa Fb];
    apply Forall_cons_iff in Fb; destruct Fb as [Ft Fb]; unfold all_ok; cbn [th_x th_ts].
  - split; [exact Cx|]. apply Forall_app; split; [exact Fa|]. constructor; [|exact Fb]. apply Ft.
  - split; [exact Cx|]. apply Forall_app; split; [exact Fa|]. constructor; [|exact Fb]. exact I.
  - split; [exact Cx|]. apply Forall_app; split; [exact Fa|]. constructor; [|exact Fb]. exact Ft.
  - destruct (Ft x Cx) as [C' Fk]. split; [exact C'|]. apply Forall_app; split; [exact Fa|]. constructor; [|exact Fb]. exact Fk.
Qed.
Lemma all_ok_steps c c' : thread_steps c c' -> all_ok c -> all_ok c'.
Proof. intros H K. induction H; auto. eapply all_ok_step; eauto. Qed.

(** The next lock wanted. *)
Definition wanted (t : guards * prog unit) : option (lock * bool) := match snd t with Acq l wr _ => Some (l, wr) | _ => None end.
Definition is_free (t : guards * prog unit) : bool := match snd t with Rel _ _ _ | Act _ _ => true | _ => false end.

Lemma least (ts : list (guards * prog unit)) : (exists t l wr, In t ts /\ wanted t = Some (l, wr)) ->
  exists t l wr, In t ts /\ wanted t = Some (l, wr) /\ (forall t' l' wr', In t' ts -> wanted t' = Some (l', wr') -> lr l <= lr l').
Proof.
  induction ts as [|s ts IH]; intros (t & l & wr & Hin & W); [destruct Hin|].
  assert (D : (exists t l wr, In t ts /\ wanted t = Some (l, wr)) \/ ~ (exists t l wr, In t ts /\ wanted t = Some (l, wr))).
  { clear. induction ts as [|s ts IH].
    - right. intros (t & l & wr & [] & _).
    - destruct (wanted s) as [[l wr]|] eqn:E; [left; exists s, l, wr; split; [left; reflexivity|exact E]|].
      destruct IH as [(t & l & wr & Hin & W)|N]; [left; exists t, l, wr; split; [right; exact Hin|exact W]|].
      right. intros (t & l & wr & [<-|Hin] & W); [congruence|]. apply N. exists t, l, wr. split; assumption. }
  destruct D as [D|D].
  - destruct (IH D) as (t1 & l1 & w1 & H1 & W1 & M1). destruct (wanted s) as [[ls ws]|] eqn:Es.
    + destruct (le_lt_dec (lr ls) (lr l1)) as [Le|Lt].
      * exists s, ls, ws. split; [left; reflexivity|]. split; [exact Es|]. intros t' l' wr' [<-|Hin'] W'.
        -- rewrite Es in W'. inv W'. lia.
        -- specialize (M1 _ _ _ Hin' W'). lia.
      * exists t1, l1, w1. split; [right; exact H1|]. split; [exact W1|]. intros t' l' wr' [<-|Hin'] W'.
        -- rewrite Es in W'. inv W'. lia.
        -- exact (M1 _ _ _ Hin' W').
    + exists t1, l1, w1. split; [right; exact H1|]. split; [exact W1|]. intros t' l' wr' [<-|Hin'] W'; [congruence|]. exact (M1 _ _ _ Hin' W').
  - destruct Hin as [<-|Hin]; [|exfalso; apply D; exists t, l, wr; split; assumption].
    exists s, l, wr. split; [left; reflexivity|]. split; [exact W|]. intros t' l' wr' [<-|Hin'] W'.
    + rewrite W in W'. inv W'. lia.
    + exfalso. apply D. exists t', l', wr'. split; assumption.
Qed.
Lemma lets_false g l wr : lets g l wr = false -> exists y, In y g /\ fst y = l.
Proof.
  intro H. induction g as [|y g IH]; [discriminate|]. rewrite lets_cons in H. apply andb_false_iff in H. destruct H as [H|H].
  - apply orb_false_iff in H. destruct H as [H _]. apply negb_false_iff in H. exists y. split; [left; reflexivity|].
    destruct (fst y), l; cbn in H; try discriminate; apply Nat.eqb_eq in H; subst; reflexivity.
  - destruct (IH H) as (z & Hin & E). exists z. split; [right; exact Hin|exact E].
Qed.
Lemma progress c : all_ok c -> (forall t, In t (th_ts c) -> finished t) \/ exists i, goes_on c i.
Proof.
  intros [Cx F]. rewrite Forall_forall in F.
  destruct (existsb is_free (th_ts c)) eqn:Ef.
  { right. apply existsb_exists in Ef. destruct Ef as (t & Hin & E). apply In_nth_error in Hin. destruct Hin as [i Hi].
    exists i, t. split; [exact Hi|]. unfold is_free in E. destruct (snd t); try discriminate; exact I. }
  assert (NF : forall t, In t (th_ts c) -> is_free t = false).
  { intros t Hin. destruct (is_free t) eqn:E; [|reflexivity]. rewrite <- Ef. symmetry. apply existsb_exists. exists t. split; assumption. }
  destruct (existsb (fun t => match wanted t with Some _ => true | None => false end) (th_ts c)) eqn:Ew.
  2:{ left. intros t Hin. assert (W : wanted t = None).
      { destruct (wanted t) eqn:E; [|reflexivity]. exfalso. rewrite (proj2 (existsb_exists _ _)) in Ew; [discriminate|].
        exists t. rewrite E. split; [exact Hin|reflexivity]. }
      specialize (NF t Hin). specialize (F t Hin). unfold thread_ok in F. unfold finished, wanted, is_free in *.
      destruct (snd t); try discriminate; [eexists; reflexivity|destruct F]. }
  right. apply existsb_exists in Ew. destruct Ew as (t0 & Hin0 & E0). destruct (wanted t0) as [[l0 w0]|] eqn:W0; [|discriminate]. clear E0.
  destruct (least (th_ts c)) as (t & l & wr & Hin & W & M); [exists t0, l0, w0; split; assumption|].
  (* everyone leaves the least lock alone *)
  assert (Free : forall s wr', In s (th_ts c) -> lets (owned s) l wr' = true).
  { intros s wr' Hs. destruct (lets (owned s) l wr') eqn:L; [reflexivity|]. exfalso. apply lets_false in L. destruct L as (y & Hy & <-).
    specialize (F s Hs). specialize (NF s Hs). unfold owned in Hy. unfold thread_ok in F. unfold is_free in NF.
    destruct (snd s) as [[[]|]| |l' w' k| |] eqn:Es; try discriminate.
    - cbn in F. rewrite F in Hy. destruct Hy.
    - destruct Hy.
    - destruct F.
    - cbn in F. destruct F as [A _]. unfold above in A. rewrite Forall_forall in A. specialize (A _ Hy).
      assert (Ws : wanted s = Some (l', w')) by (unfold wanted; rewrite Es; reflexivity). specialize (M _ _ _ Hs Ws). lia. }
  assert (NL : forall wr', not_leaked (th_x c) l wr' = true).
  { intro wr'. destruct l as [p|p]; [reflexivity|]. cbn. destruct (nth_error (xu_fl (th_x c)) p) as [f|] eqn:E; [|apply orb_true_r].
    destruct Cx as [_ Cx]. rewrite (proj1 (Cx _ _ E)). cbn. apply orb_true_r. }
  assert (MT : forall wr', may_take c l wr') by (intro wr'; split; [intros s Hs; apply Free; exact Hs|apply NL]).
  (* a waiting writer goes first *)
  assert (D : (exists s, In s (th_ts c) /\ wanted s = Some (l, true)) \/ forall s, In s (th_ts c) -> wanted s <> Some (l, true)).
  { assert (LD : forall a b : lock, {a = b} + {a <> b}) by (decide equality; apply Nat.eq_dec).
    clear - LD. induction (th_ts c) as [|s ts IH]; [right; intros s []|].
    destruct IH as [(r & Hr & Wr)|N]; [left; exists r; split; [right; exact Hr|exact Wr]|].
    destruct (wanted s) as [[l' [|]]|] eqn:E.
    - destruct (LD l' l) as [->|Ne]; [left; exists s; split; [left; reflexivity|exact E]|].
      right. intros r [<-|Hr]; [rewrite E; congruence|apply N; exact Hr].
    - right. intros r [<-|Hr]; [rewrite E; congruence|apply N; exact Hr].
    - right. intros r [<-|Hr]; [rewrite E; congruence|apply N; exact Hr]. }
  destruct D as [(s & Hs & Ws)|N].
  - apply In_nth_error in Hs. destruct Hs as [i Hi]. exists i, s. split; [exact Hi|]. unfold wanted in Ws.
    destruct (snd s); try discriminate. inv Ws. split; [apply MT|discriminate].
  - apply In_nth_error in Hin. destruct Hin as [i Hi]. exists i, t. split; [exact Hi|]. unfold wanted in W.
    destruct (snd t); try discriminate. inv W. split; [apply MT|]. intros _ t' k' Ht' Et'. apply (N t' Ht'). unfold wanted. rewrite Et'. reflexivity.
Qed.
Lemma goes_step c i : goes_on c i -> exists c', thread_step c c'.
Proof.
  intros (t & Hi & H). destruct t as [g m]. apply nth_error_split in Hi. destruct Hi as (a & b & E & _). destruct c as [x ts]. cbn [th_ts] in E. subst ts.
  cbn [snd] in H. destruct m as [r| |l wr k|l wr k|C h k]; try contradiction.
  - eexists. apply ts_acq. apply H.
  - eexists. apply ts_rel.
  - eexists. apply ts_act.
Qed.
Lemma finish c : all_ok c -> exists c', thread_steps c c' /\ all_ok c' /\ forall t, In t (th_ts c') -> finished t.
Proof.
  induction (steps_end c) as [c _ IH]. intro K. destruct (progress c K) as [D|[i G]].
  - exists c. split; [constructor|]. split; assumption.
  - destruct (goes_step _ _ G) as [c1 S1]. destruct (IH c1 S1 (all_ok_step _ _ S1 K)) as (c' & S' & K' & D).
    exists c'. split; [|split; assumption]. apply (steps_trans _ c1); [|exact S']. econstructor; [constructor|exact S1].
Qed.

(** ** The calls lock in order *)
Lemma wp_take l wr g (Q : guards -> unit -> Prop) : above l g -> Q ((l, wr) :: g) tt -> wp (take_lock l wr) g Q.
Proof. intros; split; assumption. Qed.
Lemma wp_give l wr g (Q : guards -> unit -> Prop) : Q g tt -> wp (give_lock l wr) ((l, wr) :: g) Q.
Proof. intro H. unfold give_lock. cbn [wp]. rewrite drop_hd. exact H. Qed.
Lemma wp_lift {A} (r : res A) g (Q : guards -> A -> Prop) : (forall a, r = Ok a -> Q g a) -> wp (lift r) g Q.
Proof. intro H. unfold lift. cbn. destruct r; auto. Qed.
Lemma wp_look {B} (f : universe -> B) g (Q : guards -> B -> Prop) : (forall x, calm rank live x -> Q g (f (xu_u x))) -> wp (look f) g Q.
Proof. intros H x C. split; [exact C|]. apply H. exact C. Qed.
Lemma wp_change f g (Q : guards -> unit -> Prop) : (forall u, u_trk (f u) = u_trk u) -> Q g tt -> wp (change f) g Q.
Proof.
  intros T H x [C1 C2]. split; [|exact H]. split; [|exact C2]. intros p c k key. cbn [fst xu_u]. unfold u_trackers. rewrite T. apply C1.
Qed.
Lemma wp_put p t g (Q : guards -> unit -> Prop) : Q g tt -> wp (put_tab p t) g Q.
Proof. apply wp_change. reflexivity. Qed.
Lemma wp_get p g (Q : guards -> table -> Prop) : (forall t, Q g t) -> wp (get_tab p) g Q.
Proof. intro H. apply wp_bind. apply wp_look. intros x _. apply wp_lift. auto. Qed.
Ltac abv := unfold above; repeat (constructor; [cbn [fst lr]; lia|]); first [assumption | (eapply Forall_impl; [|eassumption]); cbn [lr]; intros; lia | constructor].
Ltac w1 :=
  match goal with
  | |- wp (pbind _ _) _ _ => apply wp_bind; cbv beta
  | |- wp (take_lock _ _) _ _ => apply wp_take; [abv|]
  | |- wp (give_lock _ _) _ _ => apply wp_give
  | |- wp (put_tab _ _) _ _ => apply wp_put
  | |- wp (get_tab _) _ _ => apply wp_get; intro
  | |- wp (lift _) _ _ => apply wp_lift; intros ? ?
  | |- wp (change (fun u => u_say u _)) _ _ => apply wp_change; [reflexivity|]
  | u : unit |- _ => destruct u
  end.
Ltac ws := repeat w1.

Section Calls.
Variables (pr : profile) (umax : nat).
Definition calls_ok (n : nat) (call : nat -> event -> bool -> bool -> select -> prog select) : Prop :=
  forall p ev pushed del sel g (Q : guards -> select -> Prop), rank p < n -> Forall (fun y => 2 * rank p <= lr (fst y)) g ->
    (forall sel', Q g sel') -> wp (call p ev pushed del sel) g Q.
Section With.
Variables (n : nat) (call : nat -> event -> bool -> bool -> select -> prog select).
Hypothesis CO : calls_ok n call.
Lemma flush_wp p w ev g (Q : guards -> unit -> Prop) : rank p < n -> above (LT p) g -> Q g tt ->
  wp (p_flush_with pr umax call p w ev) ((LT p, true) :: g) Q.
Proof.
  intros L A H. unfold above in A. cbn [lr] in A. unfold p_flush_with. destruct (sel_empty (w_changes w)).
  - ws. exact H.
  - ws. apply CO; [exact L|abv|]. intro sel. ws. destruct (_ && _); [|apply wp_lift; intros [] _; exact H]. ws. exact H.
Qed.
Lemma live_flush_wp p w ev g (Q : guards -> wlock -> Prop) : live p -> rank p < n -> above (LT p) g -> (forall w, Q ((LT p, true) :: g) w) ->
  wp (p_live_flush_with pr umax call p w ev) ((LT p, true) :: g) Q.
Proof.
  intros Lv L A H. unfold above in A. cbn [lr] in A. unfold p_live_flush_with. destruct (sel_empty (w_changes w)).
  - ws. apply H.
  - ws. apply CO; [exact L|abv|]. intro sel. ws. cbn [wp]. intros x [C1 C2].
    assert (K : calm rank live x) by (split; assumption).
    unfold xu_flush. destruct (nth_error (xu_fl x) p) as [f|] eqn:E; cbn [fst snd].
    2:{ split; [exact K|]. ws. apply H. }
    destruct (C2 _ _ E) as [F0 F1]. specialize (F1 Lv). unfold has_remapping. rewrite F1. split.
    + split; [exact C1|]. cbn [xu_fl]. rewrite upd_same by exact E. exact C2.
    + ws. apply H.
Qed.
Lemma remove_wp c ev rows g (Q : guards -> unit -> Prop) : rank c < n -> above (LT c) g -> Q g tt ->
  wp (p_remove_rows_with pr umax call c ev rows) g Q.
Proof.
  intros L A H. unfold p_remove_rows_with. ws. destruct (t_kind _); try exact I.
  all: ws; apply flush_wp; assumption.
Qed.
Lemma run_wp hd c ev rows g (Q : guards -> unit -> Prop) : rank c < n -> above (LT c) g -> Q g tt ->
  wp (p_run_with pr umax call hd c ev rows) g Q.
Proof.
  intros L A H.
  assert (Fin : forall rows, wp (let! _ := take_lock (LT c) false in let! _ := take_lock (LF c) false in
           let! _ := call c ev (ev_creation ev) (ev_removal ev) rows in let! _ := give_lock (LF c) false in give_lock (LT c) false) g Q).
  { intro r. ws. unfold above in A. cbn [lr] in A. apply CO; [exact L|abv|]. intros _. ws. exact H. }
  unfold p_run_with. destruct hd; cbn [p_handle_with].
  - ws. apply remove_wp; [exact L|exact A|]. apply Fin.
  - do 4 w1. apply Fin.
  - ws. discriminate.
Qed.
Lemma auto_wp hd c k key ev rows g (Q : guards -> unit -> Prop) : rank c < n -> above (LT c) g -> Q g tt ->
  wp (p_auto_handle pr umax call hd c k key ev rows) g Q.
Proof. intros L A H. unfold p_auto_handle. ws. apply run_wp; assumption. Qed.
Lemma turns_wp p hd ev g l : rank p <= n -> Forall (fun y => 2 * rank p <= lr (fst y)) g ->
  (forall i c k key, In (i, TAuto c k key) l -> rank c < rank p) ->
  forall s (Q : guards -> select * bool -> Prop), (forall s, Q g s) -> wp (p_fold (p_turn pr umax call hd p ev) l s) g Q.
Proof.
  intros L A. induction l as [|[i tr] l IH]; intros Hl s Q H; cbn [p_fold].
  - apply wp_lift. intros; apply H.
  - ws. assert (T : forall s, wp (p_fold (p_turn pr umax call hd p ev) l s) g Q).
    { intro s'. apply IH; [|exact H]. intros; eapply Hl; right; eassumption. }
    unfold p_turn. cbn [fst snd]. destruct (tracker_considers tr ev); [|ws; apply T].
    ws. apply wp_look. intros x _. ws. destruct tr as [c k key|].
    + assert (R : rank c < rank p) by (eapply Hl; left; reflexivity). apply auto_wp; [lia| |].
      * unfold above. eapply Forall_impl; [|exact A]. cbn [lr]. intros; lia.
      * ws. apply T.
    + ws. apply T.
Qed.
End With.
Lemma do_flush_wp fuel : calls_ok fuel (p_do_flush pr umax fuel).
Proof.
  induction fuel as [|n IH]; intros p ev pushed del sel g Q L A H; [lia|]. cbn [p_do_flush].
  ws. apply wp_look. intros x0 _. ws. apply wp_look. intros x [C _]. ws.
  apply (turns_wp n _ IH); [lia|exact A| |].
  - intros i c k key Hin. apply in_combine_r in Hin. exact (C _ _ _ _ Hin).
  - intro s. ws. apply H.
Qed.

Variable heads : nat -> header.
Variable foreign : nat -> list (nat * nat).
Variable order : nat -> row -> row -> comparison.
Variable fuel : nat.
Hypothesis deep : forall p, rank p < fuel.
Notation empty := (fun (g : guards) (_ : unit) => g = []).

Lemma step_wp o : orderly foreign rank live (TDo o) -> wp (p_step pr umax heads foreign order fuel o) [] empty.
Proof.
  intro O. destruct o as [p es ev|p es ev|p e ev|p tr|p]; cbn [p_step].
  - ws. apply (flush_wp fuel _ (do_flush_wp fuel)); [apply deep|constructor|reflexivity].
  - ws. apply (live_flush_wp fuel _ (do_flush_wp fuel)); [exact O|apply deep|constructor|]. intro w. ws. reflexivity.
  - destruct O as [O1 O2]. ws. unfold p_restore_extract. ws. match goal with |- context [match ?v with Some _ => _ | None => _ end] => destruct v end.
    + ws. reflexivity.
    + rewrite O1. cbn [map p_take_all p_give_all rev]. ws. apply wp_look. intros x0 _. ws. cbn [wp]. intros x C. split; [exact C|].
      ws. match goal with |- context [if ?b then _ else _] => destruct b end.
      * ws. reflexivity.
      * ws. cbn [wp]. rename x into xx; intros x [C1 C2]. split.
        -- unfold xu_flush. destruct (nth_error (xu_fl x) p) as [f|] eqn:E; cbn [fst]; [|split; assumption].
           split; [exact C1|]. cbn [xu_fl]. intros q f' E'. destruct (Nat.eq_dec q p) as [->|Ne].
           ++ rewrite nth_error_upd_eq in E' by (apply nth_error_Some; congruence). inv E'. destruct (C2 _ _ E) as [L0 R0]. split; [|contradiction].
              unfold set_remapping. destruct (fs_ident f); exact L0.
           ++ rewrite nth_error_upd_ne in E' by congruence. exact (C2 _ _ E').
        -- ws. apply (flush_wp fuel _ (do_flush_wp fuel)); [apply deep|constructor|reflexivity].
  - ws. cbn [wp]. intros x C. split; [exact C|]. ws. unfold change. cbn [wp]. rename x into xx; intros x [C1 C2]. split; [|ws; reflexivity].
    split; [|exact C2]. cbn [fst xu_u]. intros q c k key. unfold u_trackers at 1. cbn [u_trk].
    destruct (Nat.eq_dec q p) as [->|Ne].
    + destruct (le_lt_dec (length (u_trk (xu_u x))) p) as [Lp|Lp].
      { rewrite upd_oob by exact Lp. intro Hin. exact (C1 _ _ _ _ Hin). }
      rewrite (nth_error_nth _ _ _ (nth_error_upd_eq _ _ _ Lp)). intro Hin. apply in_app_iff in Hin.
      destruct Hin as [Hin|[->|[]]]; [exact (C1 _ _ _ _ Hin)|exact O].
    + intro Hin. apply (C1 _ _ k key). unfold u_trackers. clear - Hin Ne.
      assert (E : nth_error (upd (u_trk (xu_u x)) p (u_trackers (xu_u x) p ++ [tr])) q = nth_error (u_trk (xu_u x)) q) by (apply nth_error_upd_ne; exact Ne).
      destruct (nth_error (u_trk (xu_u x)) q) as [l|] eqn:El.
      * rewrite (nth_error_nth _ _ _ E) in Hin. rewrite (nth_error_nth _ _ _ El). exact Hin.
      * rewrite nth_overflow in Hin by (apply nth_error_None; exact E). destruct Hin.
  - ws. cbn [wp]. intros x [C1 C2]. split; [|ws; reflexivity]. unfold xu_flush. destruct (nth_error (xu_fl x) p) as [f|] eqn:E; cbn [fst]; [|split; assumption].
    split; [exact C1|]. cbn [xu_fl]. intros q f' E'. destruct (Nat.eq_dec q p) as [->|Ne].
    + rewrite nth_error_upd_eq in E' by (apply nth_error_Some; congruence). inv E'. exact (C2 _ _ E).
    + rewrite nth_error_upd_ne in E' by congruence. exact (C2 _ _ E').
Qed.
Lemma locks_wp ls : forall g (Q : guards -> unit -> Prop), descending rank ls ->
  Forall (fun y => Forall (fun z => lr (LT (fst y)) < lr (fst z)) g) ls -> Q g tt -> wp (p_locks ls) g Q.
Proof.
  induction ls as [|[q wr] ls IH]; intros g Q D A H; cbn [p_locks]; [ws; exact H|]. destruct D as [D1 D2]. apply Forall_cons_iff in A. destruct A as [A1 A2].
  ws. apply IH; [exact D2| |ws; exact H]. rewrite Forall_forall in *. intros y Hy. constructor; [|apply A2; exact Hy].
  specialize (D1 y Hy). cbn [fst lr]. lia.
Qed.
Lemma run_all_wp ops : Forall (orderly foreign rank live) ops -> wp (Threads.p_run pr umax heads foreign order fuel ops) [] empty.
Proof.
  unfold Threads.p_run. generalize tt. induction ops as [|o ops IH]; intros u F; cbn [p_fold]; [ws; reflexivity|].
  apply Forall_cons_iff in F. destruct F as [O F]. apply wp_bind.
  apply (wp_mono _ _ (fun g _ => g = [])); [intros g a ->; apply IH; exact F|].
  destruct o as [o|p ev sel|ls]; cbn [p_top].
  - apply step_wp. exact O.
  - unfold p_select. ws. apply (do_flush_wp fuel); [apply deep|repeat constructor; cbn; lia|]. intro s. ws. reflexivity.
  - apply locks_wp; [exact O| |reflexivity]. apply Forall_forall. constructor.
Qed.

Lemma started_ok x tss : calm rank live x -> Forall (Forall (orderly foreign rank live)) tss ->
  all_ok (started x (map (Threads.p_run pr umax heads foreign order fuel) tss)).
Proof.
  intros C F. split; [exact C|]. unfold started. cbn [th_ts]. rewrite map_map. apply Forall_forall. intros t Ht. apply in_map_iff in Ht.
  destruct Ht as (ops & <- & Hin). rewrite Forall_forall in F. apply run_all_wp. apply F. exact Hin.
Qed.
End Calls.
End Order.

Lemma no_endless_run (s : nat -> threads) : ~ forall n, thread_step (s n) (s (S n)).
Proof.
  intro H. remember (s 0) as c eqn:E. revert s H E. induction (steps_end c) as [c _ IH]. intros s H ->.
  apply (IH (s 1) (H 0) (fun n => s (S n))); [intro n; apply H|reflexivity].
Qed.
Lemma finished_free rank live c t : all_ok rank live c -> In t (th_ts c) -> finished t -> owned t = [].
Proof.
  intros [_ F] Hin [r E]. rewrite Forall_forall in F. specialize (F t Hin). unfold thread_ok in F. unfold owned. rewrite E in *. destruct r as [u|]; [exact F|reflexivity].
Qed.
Lemma all_finish rank live c : all_ok rank live c -> exists c', thread_steps c c' /\ forall t, In t (th_ts c') -> finished t /\ owned t = [].
Proof.
  intro K. destruct (finish _ _ _ K) as (c' & S & K' & D). exists c'. split; [exact S|]. intros t Hin. split; [apply D; exact Hin|].
  apply (finished_free rank live c'); auto.
Qed.
Lemma alone_run pr umax heads foreign order fuel ops x y : fold_res (seq_top pr umax heads foreign order fuel) ops x = Ok y ->
  thread_steps (started x [Threads.p_run pr umax heads foreign order fuel ops]) (TH y [([], Ret (Ok tt))]).
Proof. intro E. apply alone_steps. rewrite run_all_sim, E. reflexivity. Qed.
