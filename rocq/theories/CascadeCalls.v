From Coq Require Import List Arith Bool Lia.
From Verif Require Import Base BaseFacts Column ColumnFacts Order RowRange RowRangeFacts Table Visit SortedTab BagTab TableSpec
  TableFacts Hist TableProps Events Cascade CascadeSpec CascadeLog CascadeFacts.
Import ListNotations.

(** ** Which trackers are called (C56) *)
Lemma calls_frame n tw u u' ev : uframe u u' -> forall p, calls n tw u' ev p = calls n tw u ev p.
Proof.
  intro F. induction n as [|n IH]; intro p; cbn [calls]; auto. unfold listeners. rewrite (uframe_trackers _ _ _ F).
  apply flat_map_ext. intros [m tr]. cbn [fst snd]. destruct tr as [c k key|]; auto. rewrite IH. f_equal. f_equal.
  replace (match nth_error (u_tabs u') c with Some t => kind_eqb (t_kind t) Consistent | None => false end)
    with (match nth_error (u_tabs u) c with Some t => kind_eqb (t_kind t) Consistent | None => false end); auto.
  destruct (nth_error (u_tabs u) c) as [t|] eqn:E.
  - destruct (uframe_tab _ _ _ _ F E) as (t' & -> & Es). unfold t_kind. rewrite Es. auto.
  - destruct (nth_error (u_tabs u') c) as [t'|] eqn:E'; auto.
    destruct (uframe_tab _ _ _ _ (uframe_sym _ _ F) E') as (t & E2 & _). congruence.
Qed.

Lemma fold_changes pr umax len rows : forall w w',
  fold_res (fun w i => let* _ := assert_ (i <? len) PRemoveRange in delete_raw pr umax w i) rows w = Ok w' ->
  w_changes w' = w_changes w.
Proof.
  induction rows as [|i rows IH]; intros w w' H; cbn [fold_res] in H; [inv H; auto|].
  bindn H w1 H1. rewrite (IH _ _ H). bindn H1 x H2. unfold delete_raw in H1. destruct (t_kind (w_tab w)); try discriminate.
  - bindn H1 cs Q1. bindn H1 n Q2. inv H1. auto.
  - bindn H1 len1 Q1. bindn H1 cs Q2. bindn H1 cs' Q3. inv H1. auto.
Qed.

Section Calls.
Variables (pr : profile) (umax : nat) (ev : event) (hd : handler).
Notation fcall := (universe -> locks -> nat -> event -> bool -> bool -> select -> res (universe * select)).
Definition place (n : note) : nat * nat := (n_table n, n_pos n).
Definition whole (sel : select) : bool := match sel with SAll => true | SThese _ => false end.
Definition tw (sel : select) : bool := match hd with HDelete => whole sel | _ => false end.
Definition rows_like (sel : select) (notes : list note) : Prop := Forall (fun n => n_event n = ev /\ whole (n_rows n) = whole sel) notes.
Definition called (fc : fcall) (n : nat) : Prop := forall p u h a b sel u' sel', fc u h p ev a b sel = Ok (u', sel') ->
  nth_error (u_hdl u) (ev_id ev) = Some hd -> whole sel' = whole sel /\
  exists notes, since_log u u' notes /\ map place notes = calls n (tw sel) u ev p /\ rows_like sel notes.

Lemma hdl_frame u u' : uframe u u' -> nth_error (u_hdl u) (ev_id ev) = Some hd -> nth_error (u_hdl u') (ev_id ev) = Some hd.
Proof. intros (_ & E & _). congruence. Qed.
Lemma since_trans' u v x n m : since_log u v n -> since_log v x m -> since_log u x (n ++ m).
Proof. unfold since_log. intros A B. rewrite B, A, app_assoc. auto. Qed.
Lemma since_refl' u : since_log u u [].
Proof. unfold since_log. rewrite app_nil_r. auto. Qed.

Lemma flush_with_calls fc n u h p w u' : called fc n -> frames fc -> (exists t, nth_error (u_tabs u) p = Some t /\ t_sch (w_tab w) = t_sch t) ->
  nth_error (u_hdl u) (ev_id ev) = Some hd -> flush_with pr umax fc u h p w ev = Ok u' ->
  exists notes, since_log u u' notes /\ rows_like (w_changes w) notes /\
    map place notes = if sel_empty (w_changes w) then [] else calls n (tw (w_changes w)) u ev p.
Proof.
  intros CA FR (t & Ht & Es) Hh H. unfold flush_with in H. pose proof (uframe_put u p t (w_tab w) Ht Es) as F0.
  destruct (sel_empty (w_changes w)).
  - bindn H t' H1. inv H. exists []. split; [unfold since_log; rewrite app_nil_r; reflexivity|]. split; [constructor|auto].
  - bindn H q H1. destruct q as [u1 s1]. cbn [fst snd] in H.
    destruct (CA _ _ _ _ _ _ _ _ H1 (hdl_frame _ _ F0 Hh)) as (_ & notes & S & P & R). rewrite (calls_frame _ _ _ _ _ F0) in P.
    exists notes. split; auto. unfold since_log in *. cbn [u_put u_log] in S. rewrite <- S.
    destruct (_ && _); [|inv H; auto]. bindn H x A1. bindn H t1 A2. bindn H w1 A3. bindn H y A4. bindn H t2 A5. inv H. auto.
Qed.

Lemma remove_calls fc n u h c rows u' t : called fc n -> frames fc -> nth_error (u_tabs u) c = Some t ->
  nth_error (u_hdl u) (ev_id ev) = Some hd -> remove_rows_with pr umax fc u h c ev rows = Ok u' ->
  exists notes, since_log u u' notes /\ rows_like rows notes /\
    map place notes = if whole rows && kind_eqb (t_kind t) Consistent then calls n (match hd with HDelete => true | _ => false end) u ev c else [].
Proof.
  intros CA FR Et Hh H. unfold remove_rows_with in H. unfold u_get in H. rewrite Et in H. cbn [bind] in H.
  destruct (t_kind t) eqn:Kt; try discriminate.
  - bindn H x H1. bindn H w H2. destruct rows as [|rows].
    + assert (Ew : w = clear (clear_raw (w_new t))) by (inversion H2; auto). subst w.
      assert (Ech : w_changes (clear (clear_raw (w_new t))) = SAll).
      { unfold clear, event_cleared. change (t_kind (w_tab (clear_raw (w_new t)))) with (t_kind t). rewrite Kt. reflexivity. }
      destruct (flush_with_calls fc n u h c _ u' CA FR (ex_intro (fun t0 => nth_error (u_tabs u) c = Some t0 /\ t_sch (w_tab (clear (clear_raw (w_new t)))) = t_sch t0) t (conj Et (clear_sch (w_new t)))) Hh H) as (notes & S & R & P).
      rewrite Ech in *. cbn [sel_empty] in P. exists notes. split; [exact S|]. split; [exact R|]. rewrite P. unfold tw. destruct hd; reflexivity.
    + pose proof (fold_changes _ _ _ _ _ _ H2) as Ch. pose proof (fold_sch _ _ _ _ _ _ H2) as Es.
      destruct (flush_with_calls fc n u h c _ u' CA FR (ex_intro (fun t0 => nth_error (u_tabs u) c = Some t0 /\ t_sch (w_tab w) = t_sch t0) t (conj Et Es)) Hh H) as (notes & S & R & P).
      rewrite Ch in *. exists notes. auto.
  - bindn H x H1. bindn H w H2. rewrite andb_false_r. destruct rows as [|rows].
    + assert (Ew : w = clear (clear_raw (w_new t))) by (inversion H2; auto). subst w.
      assert (Ech : w_changes (clear (clear_raw (w_new t))) = SThese []).
      { unfold clear, event_cleared. change (t_kind (w_tab (clear_raw (w_new t)))) with (t_kind t). rewrite Kt. reflexivity. }
      destruct (flush_with_calls fc n u h c _ u' CA FR (ex_intro (fun t0 => nth_error (u_tabs u) c = Some t0 /\ t_sch (w_tab (clear (clear_raw (w_new t)))) = t_sch t0) t (conj Et (clear_sch (w_new t)))) Hh H) as (notes & S & R & P).
      rewrite Ech in *. cbn [sel_empty] in P. exists notes. split; auto. destruct notes; [split; [constructor|auto]|discriminate].
    + destruct (sorted_remove_sch _ _ _ H2) as [Es Ch].
      destruct (flush_with_calls fc n u h c _ u' CA FR (ex_intro (fun t0 => nth_error (u_tabs u) c = Some t0 /\ t_sch (w_tab w) = t_sch t0) t (conj Et Es)) Hh H) as (notes & S & R & P).
      rewrite Ch in *. exists notes. auto.
Qed.

Lemma rows_like_eq s s' notes : whole s = whole s' -> rows_like s notes -> rows_like s' notes.
Proof. unfold rows_like. intros ->. auto. Qed.
Lemma tw_eq s s' : whole s = whole s' -> tw s = tw s'.
Proof. unfold tw. intros ->. auto. Qed.

Lemma run_calls fc n u h c rows u' t : called fc n -> frames fc -> nth_error (u_tabs u) c = Some t ->
  nth_error (u_hdl u) (ev_id ev) = Some hd -> run_with pr umax fc hd u h c ev rows = Ok u' ->
  exists notes, since_log u u' notes /\ rows_like rows notes /\
    map place notes = (if tw rows && kind_eqb (t_kind t) Consistent then calls n (tw rows) u ev c else []) ++ calls n (tw rows) u ev c.
Proof.
  intros CA FR Et Hh H. unfold run_with in H. unfold u_get in H. rewrite Et in H. cbn [bind] in H.
  set (rows' := match hd with HDelete => _ | _ => _ end) in H.
  assert (Ew : whole rows' = whole rows) by (unfold rows'; destruct hd; auto; destruct (kind_eqb _ _); auto; destruct rows; auto).
  bindn H u1 H1. bindn H x H2. bindn H q H3. inv H. destruct q as [u2 s2]. cbn [fst].
  assert (X : uframe u u1 /\ exists n1, since_log u u1 n1 /\ rows_like rows n1 /\
     map place n1 = if tw rows && kind_eqb (t_kind t) Consistent then calls n (tw rows) u ev c else []).
  { unfold handle_with in H1. unfold tw, called, tw in *. destruct hd eqn:Ehd.
    - split; [eapply remove_rows_frame; eauto|]. assert (CA' : called fc n) by (unfold called, tw; rewrite Ehd; exact CA).
      destruct (remove_calls fc n u h c rows' u1 t CA' FR Et) as (n1 & S1 & R1 & P1); auto; [congruence|].
      exists n1. split; auto. split; [eapply rows_like_eq; eauto|]. rewrite P1, Ew, Ehd. destruct (whole rows); auto.
    - inv H1. split; [apply uframe_refl|]. exists []. split; [apply since_refl'|]. split; [constructor|auto].
    - discriminate. }
  destruct X as (F1 & n1 & S1 & R1 & P1).
  destruct (CA _ _ _ _ _ _ _ _ H3 (hdl_frame _ _ F1 Hh)) as (_ & n2 & S2 & P2 & R2).
  exists (n1 ++ n2). split; [eapply since_trans'; eauto|]. split; [apply Forall_app; split; auto; eapply rows_like_eq; eauto|].
  rewrite map_app, P1, P2, (calls_frame _ _ _ _ _ F1), (tw_eq _ _ Ew). auto.
Qed.

Lemma select_whole key t k sel r : (if key : bool then select_sorted pr t k sel else select_indexed t k sel) = Ok r -> whole r = whole sel.
Proof.
  destruct key, sel as [|ids]; cbn; intro H; try (inv H; reflexivity).
  - unfold select_sorted in H. bindn H it H1. bindn H l H2. bindn H l2 H3. inv H. auto.
  - bindn H l H1. inv H. auto.
Qed.

Lemma loop_calls fc n h p u0 sel0 : called fc n -> frames fc -> nth_error (u_hdl u0) (ev_id ev) = Some hd -> forall l u sel b s',
  uframe u0 u -> whole sel = whole sel0 ->
  fold_res (tracker_turn pr umax fc hd h p ev) l (u, sel, b) = Ok s' ->
  uframe u0 (fst (fst s')) /\ whole (snd (fst s')) = whole sel0 /\
  exists notes, since_log u (fst (fst s')) notes /\ rows_like sel0 notes /\
    map place notes = flat_map (fun x => (p, fst x) ::
        match snd x with
        | TAuto c _ _ =>
            (if tw sel0 && match nth_error (u_tabs u0) c with Some t => kind_eqb (t_kind t) Consistent | None => false end
             then calls n (tw sel0) u0 ev c else []) ++ calls n (tw sel0) u0 ev c
        | TUser _ _ => []
        end) (filter (fun x => match snd x with TAuto _ _ _ => true | TUser _ f => f ev end) l).
Proof.
  intros CA FR Hh. induction l as [|[m tr] l IH]; intros u sel b s' F W H; cbn [fold_res] in H.
  - inv H. cbn [fst snd]. split; auto. split; auto. exists []. split; [apply since_refl'|]. split; [constructor|auto].
  - bindn H s1 H1. unfold tracker_turn in H1. cbn [fst snd] in H1.
    assert (Ec : tracker_considers tr ev = match tr with TAuto _ _ _ => true | TUser _ f => f ev end) by (destruct tr; auto).
    cbn [filter snd]. rewrite <- Ec. destruct (tracker_considers tr ev) eqn:Cn; [|inv H1; apply (IH u sel b s'); auto].
    set (now := negb b && tracker_sorts u tr) in H1.
    set (sel1 := if now then sel_sort sel else sel) in H1.
    assert (W1 : whole sel1 = whole sel0) by (unfold sel1; rewrite <- W; destruct now; auto; destruct sel; auto).
    bindn H1 u1 H2. inv H1. set (nt := Note p m ev sel1) in *.
    assert (Fs : uframe u0 (u_say u nt)) by (eapply uframe_trans; [exact F|apply uframe_say]).
    assert (X : uframe u0 u1 /\ exists n1, since_log (u_say u nt) u1 n1 /\ rows_like sel0 n1 /\
      map place n1 = match tr with
        | TAuto c _ _ =>
            (if tw sel0 && match nth_error (u_tabs u0) c with Some t => kind_eqb (t_kind t) Consistent | None => false end
             then calls n (tw sel0) u0 ev c else []) ++ calls n (tw sel0) u0 ev c
        | TUser _ _ => [] end).
    { destruct tr as [c k key|srt cons].
      - split; [eapply uframe_trans; [exact Fs|]; eapply auto_frame; eauto|].
        unfold auto_handle in H2. bindn H2 y A1. bindn H2 t A2. bindn H2 r A3. apply u_get_Ok in A2.
        pose proof (select_whole _ _ _ _ _ A3) as Wr.
        destruct (run_calls fc n _ h c r u1 t CA FR A2 (hdl_frame _ _ Fs Hh) H2) as (n1 & S1 & R1 & P1).
        exists n1. split; auto. split; [eapply rows_like_eq; [|exact R1]; congruence|].
        rewrite P1, (calls_frame _ _ _ _ _ Fs), (tw_eq r sel0) by congruence.
        destruct (uframe_tab _ _ _ _ (uframe_sym _ _ Fs) A2) as (t' & -> & Es). unfold t_kind. rewrite Es. auto.
      - inv H2. split; auto. exists []. split; [apply since_refl'|]. split; [constructor|auto]. }
    destruct X as (F1 & n1 & S1 & R1 & P1).
    destruct (IH u1 sel1 (b || now) s' F1 W1 H) as (F2 & W2 & n2 & S2 & R2 & P2).
    split; auto. split; auto. exists ((nt :: n1) ++ n2). split; [|split].
    + eapply since_trans'; [|exact S2]. unfold since_log in *. rewrite S1. cbn [u_say u_log]. rewrite <- app_assoc. auto.
    + apply Forall_app. split; [constructor; [split; [reflexivity|exact W1]|exact R1]|exact R2].
    + rewrite map_app. cbn [map flat_map snd fst]. rewrite P1, P2. reflexivity.
Qed.

Lemma do_flush_calls n : called (do_flush pr umax n) n.
Proof.
  induction n as [|n IH]; intros p u h a b sel u' sel' H Hh; cbn [do_flush] in H; [discriminate|].
  bindn H x H1. bindn H hdl H2. unfold handlers_get in H2. rewrite Hh in H2. inv H2. bindn H s H3. injection H as E.
  destruct (loop_calls _ n _ _ u sel IH (do_flush_frame pr umax n) Hh _ _ _ _ _ (uframe_refl u) eq_refl H3) as (F & W & notes & S & R & P).
  rewrite E in *. cbn [fst snd] in *. split; auto. exists notes. split; auto.
Qed.
End Calls.

Lemma flush_calls pr umax fuel u h p w ev hd u' : nth_error (u_tabs u) p = Some (w_tab w) -> nth_error (u_hdl u) (ev_id ev) = Some hd ->
  flush pr umax fuel u h p w ev = Ok u' ->
  exists notes, u_log u' = u_log u ++ notes /\ Forall (fun n => n_event n = ev /\ (n_rows n = SAll <-> w_changes w = SAll)) notes /\
    map (fun n => (n_table n, n_pos n)) notes =
      if sel_empty (w_changes w) then []
      else calls fuel (match hd, w_changes w with HDelete, SAll => true | _, _ => false end) u ev p.
Proof.
  intros Ht Hh H.
  destruct (flush_with_calls pr umax ev hd _ fuel u h p w u' (do_flush_calls pr umax ev hd fuel) (do_flush_frame pr umax fuel)
    (ex_intro _ (w_tab w) (conj Ht eq_refl)) Hh H) as (notes & S & R & P).
  exists notes. split; auto. split.
  - eapply Forall_impl; [|exact R]. cbn. intros n [E1 E2]. split; auto. destruct (n_rows n), (w_changes w); cbn in E2; split; congruence.
  - unfold place in P. rewrite P. unfold tw. destruct hd, (w_changes w); auto.
Qed.

(** ** Counting, if each table has one parent *)
Definition cnt (c m : nat) (l : list (nat * nat)) : nat := length (filter (fun x => (fst x =? c) && (snd x =? m)) l).
Lemma cnt_app c m l l' : cnt c m (l ++ l') = cnt c m l + cnt c m l'.
Proof. unfold cnt. rewrite filter_app, app_length. auto. Qed.
Lemma cnt_flat {A} c m (f : A -> list (nat * nat)) l : cnt c m (flat_map f l) = list_sum (map (fun x => cnt c m (f x)) l).
Proof. induction l as [|x l IH]; cbn [flat_map map list_sum fold_right]; auto. rewrite cnt_app, IH. auto. Qed.
Lemma cnt_none c m l : (forall x, In x l -> fst x <> c) -> cnt c m l = 0.
Proof.
  intro H. unfold cnt. induction l as [|x l IH]; auto. cbn [filter]. destruct (Nat.eqb_spec (fst x) c) as [E|E].
  - exfalso. apply (H x); auto. left. auto.
  - cbn [andb]. apply IH. intros y Hy. apply H. right. auto.
Qed.
Lemma sum_one {A} (g : A -> nat) l x0 : NoDup l -> In x0 l -> (forall x, In x l -> x <> x0 -> g x = 0) -> list_sum (map g l) = g x0.
Proof.
  induction l as [|x l IH]; intros N H Z; [destruct H|]. inv N. cbn [map list_sum fold_right]. destruct H as [->|H].
  - replace (fold_right Init.Nat.add 0 (map g l)) with 0; [lia|]. symmetry.
    assert (Z' : forall x, In x l -> g x = 0) by (intros y Hy; apply Z; [right; auto|congruence]).
    clear - Z'. induction l as [|y l IH]; cbn; auto. rewrite (Z' y), IH; auto; [|left; auto]. intros. apply Z'. right. auto.
  - change (fold_right Init.Nat.add 0 (map g l)) with (list_sum (map g l)). rewrite IH; auto.
    + rewrite (Z x); [auto|left; auto|congruence].
    + intros y Hy Ny. apply Z; auto. right. auto.
Qed.

Section Tree.
Variables (rank : nat -> nat) (u : universe) (ev : event).
Hypothesis Ac : acyclic rank u.

Lemma below_trans p q d c e : below u p q d -> below u q c e -> below u p c (e + d).
Proof. intros H1 H2. induction H2; auto. cbn. eapply below_more; eauto. Qed.
Lemma below_top p c d : below u p c (S d) -> exists c' k key, In (TAuto c' k key) (u_trackers u p) /\ below u c' c d.
Proof.
  revert c. induction d as [|d IH]; intros c H; inversion H as [|q d' c' k key H1 H2]; subst.
  - inversion H1; subst. exists c, k, key. split; auto. constructor.
  - destruct (IH _ H1) as (c1 & k1 & key1 & A & B). exists c1, k1, key1. split; auto. eapply below_more; eauto.
Qed.
Lemma below_rank p c d : below u p c d -> rank c <= rank p.
Proof. intro H. induction H as [|q d c k key H IH Hin]; auto. apply Ac in Hin. lia. Qed.

Lemma calls_below n tw : forall p x, In x (calls n tw u ev p) -> exists d, below u p (fst x) d.
Proof.
  induction n as [|n IH]; intros p x H; [destruct H|]. cbn [calls] in H. apply in_flat_map in H. destruct H as ([m tr] & Hl & H).
  cbn [fst snd] in H. destruct H as [<-|H]; [exists 0; constructor|]. destruct tr as [c k key|srt cs]; [|destruct H].
  assert (Hc : In x (calls n tw u ev c)) by (apply in_app_or in H; destruct H as [H|H]; auto; destruct (_ && _); [auto|destruct H]).
  destruct (IH _ _ Hc) as [d Hd]. unfold listeners in Hl. apply filter_In in Hl. destruct Hl as [Hl _]. apply in_combine_r in Hl.
  exists (d + 1). eapply below_trans; [eapply below_more; [constructor|eauto]|exact Hd].
Qed.

Hypothesis Op : one_parent u.
Lemma parent_unique p c k key p' k' key' : In (TAuto c k key) (u_trackers u p) -> In (TAuto c k' key') (u_trackers u p') -> p = p'.
Proof.
  intros H1 H2. apply In_nth_error in H1. apply In_nth_error in H2. destruct H1 as [m H1], H2 as [m' H2].
  destruct (Op _ _ _ _ _ _ _ _ _ H1 H2). auto.
Qed.
Lemma ancestors p1 c d1 : below u p1 c d1 -> forall p2 d2, below u p2 c d2 -> d1 <= d2 -> below u p2 p1 (d2 - d1).
Proof.
  intro H. induction H as [|q d c k key H IH Hin]; intros p2 d2 H2 L; [rewrite Nat.sub_0_r; auto|].
  inversion H2 as [|q2 d2' c2 k2 key2 A B]; subst; [lia|]. rewrite (parent_unique _ _ _ _ _ _ _ Hin B) in *. cbn. apply IH; auto. lia.
Qed.
Lemma top_unique p c c1 k1 key1 d1 c2 k2 key2 d2 : In (TAuto c1 k1 key1) (u_trackers u p) -> In (TAuto c2 k2 key2) (u_trackers u p) ->
  below u c1 c d1 -> below u c2 c d2 -> c1 = c2.
Proof.
  assert (G : forall c1 k1 key1 d1 c2 k2 key2 d2, In (TAuto c1 k1 key1) (u_trackers u p) -> In (TAuto c2 k2 key2) (u_trackers u p) ->
    below u c1 c d1 -> below u c2 c d2 -> d1 <= d2 -> c1 = c2).
  { clear c1 k1 key1 d1 c2 k2 key2 d2. intros c1 k1 key1 d1 c2 k2 key2 d2 A1 A2 B1 B2 L.
    pose proof (ancestors _ _ _ B1 _ _ B2 L) as H. inversion H as [|q d c' k key H1 H2]; subst; auto.
    exfalso. rewrite (parent_unique _ _ _ _ _ _ _ H2 A1) in H1. apply below_rank in H1. apply Ac in A2. lia. }
  intros A1 A2 B1 B2. destruct (Nat.le_gt_cases d1 d2) as [L|L]; [eapply G; eauto|]. symmetry.
  refine (G c2 k2 key2 d2 c1 k1 key1 d1 A2 A1 B2 B1 _). lia.
Qed.

Lemma listener_nth p m tr : In (m, tr) (listeners u p ev) -> nth_error (u_trackers u p) m = Some tr.
Proof.
  unfold listeners. intro H. apply filter_In in H. destruct H as [H _].
  assert (G : forall (l : list tracker) s, In (m, tr) (combine (seq s (length l)) l) -> s <= m /\ nth_error l (m - s) = Some tr).
  { induction l as [|x l IH]; intros s Hin; [destruct Hin|]. cbn [length seq combine] in Hin. destruct Hin as [E|Hin].
    - inversion E; subst. rewrite Nat.sub_diag. auto.
    - destruct (IH _ Hin) as [L E]. split; [lia|]. replace (m - s) with (S (m - S s)) by lia. auto. }
  destruct (G _ _ H) as [_ E]. rewrite Nat.sub_0_r in E. auto.
Qed.
Lemma auto_listens p c k key : In (TAuto c k key) (u_trackers u p) -> exists m, In (m, TAuto c k key) (listeners u p ev).
Proof.
  intro H. destruct (In_nth_error _ _ H) as [m Hm]. exists m. unfold listeners. apply filter_In. split; auto.
  assert (G : forall (l : list tracker) s m, nth_error l m = Some (TAuto c k key) -> nth_error (combine (seq s (length l)) l) m = Some (s + m, TAuto c k key)).
  { induction l as [|z l IH]; intros s' [|m'] G; try discriminate; cbn in *.
    - inv G. rewrite Nat.add_0_r. auto.
    - rewrite IH by auto. f_equal. f_equal. lia. }
  eapply nth_error_In. rewrite (G _ 0 m Hm). reflexivity.
Qed.

Lemma calls_count c m tr : In (m, tr) (listeners u c ev) -> removable u -> forall n tw p d, rank p < n -> below u p c d ->
  cnt c m (calls n tw u ev p) = if tw then 2 ^ d else 1.
Proof.
  intros Hl Rm. assert (Tc : u_trackers u c <> []) by (intro E; apply listener_nth in Hl; rewrite E in Hl; destruct m; discriminate).
  induction n as [|n IH]; intros tw p d Rn B; [lia|]. cbn [calls]. rewrite cnt_flat.
  pose proof (NoDup_map_inv _ _ (listeners_NoDup u p ev)) as Nd.
  assert (Rk : forall m' c' k key, In (m', TAuto c' k key) (listeners u p ev) -> In (TAuto c' k key) (u_trackers u p) /\ rank c' < rank p).
  { intros m' c' k key H. apply listener_nth, nth_error_In in H. split; auto. eapply Ac; eauto. }
  destruct d as [|d].
  - inversion B; subst. rewrite (sum_one _ _ (m, tr) Nd Hl).
    + cbn [fst snd]. unfold cnt. cbn [filter fst snd]. rewrite !Nat.eqb_refl. cbn [andb length].
      assert (Z : cnt c m match tr with TAuto c0 _ _ => (if tw && match nth_error (u_tabs u) c0 with Some t => kind_eqb (t_kind t) Consistent | None => false end
         then calls n tw u ev c0 else []) ++ calls n tw u ev c0 | TUser _ _ => [] end = 0).
      { destruct tr as [c' k key|]; auto. apply Rk in Hl. destruct Hl as [_ Lr]. apply cnt_none.
        assert (G : forall x, In x (calls n tw u ev c') -> fst x <> c).
        { intros x Hx E. apply calls_below in Hx. destruct Hx as [d Hd]. apply below_rank in Hd. rewrite E in Hd. lia. }
        intros x Hx. apply in_app_or in Hx. destruct Hx as [Hx|Hx]; auto. destruct (_ && _); [auto|destruct Hx]. }
      unfold cnt in Z. rewrite Z. destruct tw; auto.
    + intros [m' tr'] H N. cbn [fst snd]. unfold cnt. cbn [filter fst snd].
      destruct (Nat.eqb_spec m' m) as [->|Nm].
      { apply listener_nth in H, Hl. congruence. }
      rewrite Nat.eqb_refl. cbn [andb]. change (cnt c m match tr' with TAuto c0 _ _ => (if tw && match nth_error (u_tabs u) c0 with Some t => kind_eqb (t_kind t) Consistent | None => false end
         then calls n tw u ev c0 else []) ++ calls n tw u ev c0 | TUser _ _ => [] end = 0).
      destruct tr' as [c' k key|]; auto. apply Rk in H. destruct H as [_ Lr]. apply cnt_none.
      assert (G : forall x, In x (calls n tw u ev c') -> fst x <> c).
      { intros x Hx E. apply calls_below in Hx. destruct Hx as [d Hd]. apply below_rank in Hd. rewrite E in Hd. lia. }
      intros x Hx. apply in_app_or in Hx. destruct Hx as [Hx|Hx]; auto. destruct (_ && _); [auto|destruct Hx].
  - destruct (below_top _ _ _ B) as (c' & k & key & Hin & Bc). destruct (auto_listens _ _ _ _ Hin) as [m0 Hm0].
    pose proof (Ac _ _ _ _ Hin) as Lr. assert (Np : p <> c) by (intros ->; apply below_rank in Bc; lia).
    assert (K : match nth_error (u_tabs u) c' with Some t => kind_eqb (t_kind t) Consistent | None => false end = true).
    { destruct (Rm _ _ _ _ Hin) as (t & -> & [->|[_ E]]); auto. exfalso. destruct d as [|d].
      - inversion Bc; subst. auto.
      - destruct (below_top _ _ _ Bc) as (c2 & k2 & key2 & H2 & _). rewrite E in H2. destruct H2. }
    rewrite (sum_one _ _ (m0, TAuto c' k key) Nd Hm0).
    + cbn [fst snd]. unfold cnt. cbn [filter fst snd]. destruct (Nat.eqb_spec p c) as [|_]; [congruence|]. cbn [andb].
      change (cnt c m ((if tw && match nth_error (u_tabs u) c' with Some t => kind_eqb (t_kind t) Consistent | None => false end
         then calls n tw u ev c' else []) ++ calls n tw u ev c') = (if tw then 2 ^ S d else 1)).
      rewrite K, cnt_app, andb_true_r. specialize (IH tw c' d ltac:(lia) Bc). destruct tw; rewrite IH; cbn; lia.
    + intros [m1 tr1] H1 N1. cbn [fst snd]. unfold cnt. cbn [filter fst snd]. destruct (Nat.eqb_spec p c) as [|_]; [congruence|]. cbn [andb].
      change (cnt c m match tr1 with TAuto c0 _ _ => (if tw && match nth_error (u_tabs u) c0 with Some t => kind_eqb (t_kind t) Consistent | None => false end
         then calls n tw u ev c0 else []) ++ calls n tw u ev c0 | TUser _ _ => [] end = 0).
      destruct tr1 as [c1 k1 key1|]; auto. apply cnt_none.
      assert (G : forall x, In x (calls n tw u ev c1) -> fst x <> c).
      { intros x Hx E. apply calls_below in Hx. destruct Hx as [d1 Hd]. rewrite E in Hd. destruct (Rk _ _ _ _ H1) as [Hin1 _].
        pose proof (top_unique _ _ _ _ _ _ _ _ _ _ Hin Hin1 Bc Hd) as Ec. subst c1.
        destruct (Op _ _ _ _ _ _ _ _ _ (listener_nth _ _ _ Hm0) (listener_nth _ _ _ H1)) as [_ Em]. subst m1.
        apply N1. apply listener_nth in H1, Hm0. congruence. }
      intros x Hx. apply in_app_or in Hx. destruct Hx as [Hx|Hx]; auto. destruct (_ && _); [auto|destruct Hx].
Qed.
Lemma calls_elsewhere c m n tw p : (forall d, ~ below u p c d) -> cnt c m (calls n tw u ev p) = 0.
Proof. intro H. apply cnt_none. intros x Hx E. apply calls_below in Hx. destruct Hx as [d Hd]. rewrite E in Hd. exact (H d Hd). Qed.
End Tree.

Lemma flush_times pr umax rank fuel u p w ev hd u' : acyclic rank u -> removable u -> one_parent u -> rank p < fuel ->
  nth_error (u_tabs u) p = Some (w_tab w) -> nth_error (u_hdl u) (ev_id ev) = Some hd -> sel_empty (w_changes w) = false ->
  flush pr umax fuel u [] p w ev = Ok u' ->
  exists notes, u_log u' = u_log u ++ notes /\ forall c m tr, In (m, tr) (listeners u c ev) ->
    let times := length (filter (fun n => (n_table n =? c) && (n_pos n =? m)) notes) in
    (forall d, below u p c d -> times = match hd, w_changes w with HDelete, SAll => 2 ^ d | _, _ => 1 end) /\
    ((forall d, ~ below u p c d) -> times = 0).
Proof.
  intros Ac Rm Op Rp Ht Hh Ne H. destruct (flush_calls _ _ _ _ _ _ _ _ _ _ Ht Hh H) as (notes & E & _ & P). rewrite Ne in P.
  exists notes. split; auto. intros c m tr Hl times.
  assert (T : times = cnt c m (map (fun n => (n_table n, n_pos n)) notes)).
  { unfold times, cnt. clear. induction notes as [|n l IH]; auto. cbn [map filter fst snd]. destruct (_ && _); cbn [length]; auto. }
  rewrite T, P. split.
  - intros d B. rewrite (calls_count rank u ev Ac Op c m tr Hl Rm fuel _ p d Rp B). destruct hd, (w_changes w); auto.
  - intro B. apply calls_elsewhere. auto.
Qed.
