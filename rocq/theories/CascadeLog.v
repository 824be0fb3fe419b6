From Coq Require Import List Arith Bool Lia Sorting.Sorted Sorting.Permutation.
From Verif Require Import Base BaseFacts Column ColumnFacts Order RowRange RowRangeFacts Table Visit SortedTab BagTab TableSpec
  TableFacts Hist TableProps Events Cascade CascadeSpec.
Import ListNotations.

(** ** What a flush leaves alone *)
Definition uframe (u u' : universe) : Prop :=
  u_trk u' = u_trk u /\ u_hdl u' = u_hdl u /\ map t_sch (u_tabs u') = map t_sch (u_tabs u).
Lemma uframe_refl u : uframe u u.
Proof. split; [|split]; reflexivity. Qed.
Lemma uframe_trans u v x : uframe u v -> uframe v x -> uframe u x.
Proof. intros (A & B & C) (A' & B' & C'). split; [|split]; congruence. Qed.
Lemma uframe_say u n : uframe u (u_say u n).
Proof. split; [|split]; reflexivity. Qed.
Lemma uframe_put u p t t' : nth_error (u_tabs u) p = Some t -> t_sch t' = t_sch t -> uframe u (u_put u p t').
Proof.
  intros H E. split; [reflexivity|]. split; [reflexivity|]. cbn [u_put u_tabs]. rewrite upd_map. apply upd_same.
  rewrite E. apply map_nth_error. auto.
Qed.
Lemma uframe_tab u u' c t : uframe u u' -> nth_error (u_tabs u) c = Some t -> exists t', nth_error (u_tabs u') c = Some t' /\ t_sch t' = t_sch t.
Proof.
  intros (_ & _ & E) H. pose proof (map_nth_error t_sch _ _ H) as H'. rewrite <- E in H'.
  destruct (nth_error (u_tabs u') c) as [t'|] eqn:Q.
  - exists t'. split; auto. rewrite (map_nth_error _ _ _ Q) in H'. congruence.
  - apply nth_error_None in Q. apply nth_error_Some_lt in H'. rewrite map_length in H'. lia.
Qed.
Lemma uframe_sym u u' : uframe u u' -> uframe u' u.
Proof. intros (A & B & C). split; [|split]; congruence. Qed.
Lemma uframe_trackers u u' p : uframe u u' -> u_trackers u' p = u_trackers u p.
Proof. intros (A & _). unfold u_trackers. congruence. Qed.

Lemma fold_sch pr umax len rows : forall w w',
  fold_res (fun w i => let* _ := assert_ (i <? len) PRemoveRange in delete_raw pr umax w i) rows w = Ok w' ->
  t_sch (w_tab w') = t_sch (w_tab w).
Proof.
  induction rows as [|i rows IH]; intros w w' H; cbn [fold_res] in H; [inv H; auto|].
  bindn H w1 H1. rewrite (IH _ _ H). bindn H1 x H2. unfold delete_raw in H1. destruct (t_kind (w_tab w)); try discriminate.
  - bindn H1 cs Q1. bindn H1 n Q2. inv H1. auto.
  - bindn H1 len1 Q1. bindn H1 cs Q2. bindn H1 cs' Q3. inv H1. auto.
Qed.
Lemma sorted_remove_sch w rows w' : sorted_remove_rows w rows = Ok w' -> t_sch (w_tab w') = t_sch (w_tab w) /\ w_changes w' = w_changes w.
Proof.
  unfold sorted_remove_rows. destruct rows; intro H; [inv H; auto|]. bindn H a H1. bindn H b H2. bindn H cs H3. inv H. auto.
Qed.
Lemma flush_apply_sch pr umax w ev sel w' : flush_apply pr umax w ev sel = Ok w' -> t_sch (w_tab w') = t_sch (w_tab w).
Proof.
  unfold flush_apply. destruct (_ && _); intro H; [|inv H; auto]. destruct sel as [|rows]; [inv H; auto|]. eapply fold_sch; eauto.
Qed.
Lemma clear_sch w : t_sch (w_tab (clear (clear_raw w))) = t_sch (w_tab w).
Proof. unfold clear, event_cleared. destruct (t_kind _); reflexivity. Qed.
Lemma u_get_Ok u p t : u_get u p = Ok t -> nth_error (u_tabs u) p = Some t.
Proof. unfold u_get. destruct (nth_error (u_tabs u) p); intro H; inv H; auto. Qed.

Section Log.
Variables (pr : profile) (umax : nat) (rank : nat -> nat).
Notation fcall := (universe -> locks -> nat -> event -> bool -> bool -> select -> res (universe * select)).

(** What has been noted since. *)
Definition since_log (u u' : universe) (notes : list note) : Prop := u_log u' = u_log u ++ notes.
Definition about (p : nat) (notes : list note) : list note := filter (fun n => n_table n =? p) notes.
Definition upto (r : nat) (notes : list note) : Prop := Forall (fun n => rank (n_table n) <= r) notes.

Definition logs (fc : fcall) : Prop :=
  forall p u h ev a b sel u' sel', acyclic rank u -> fc u h p ev a b sel = Ok (u', sel') ->
    uframe u u' /\ exists notes, since_log u u' notes /\ upto (rank p) notes /\
      Forall2 (told u p ev sel) (listeners u p ev) (about p notes).

Lemma acyclic_frame u u' : uframe u u' -> acyclic rank u -> acyclic rank u'.
Proof. intros F A p c k key H. rewrite (uframe_trackers _ _ _ F) in H. eauto. Qed.

Lemma flush_with_log fc u h p w ev u' : logs fc -> acyclic rank u -> (exists t, nth_error (u_tabs u) p = Some t /\ t_sch (w_tab w) = t_sch t) ->
  flush_with pr umax fc u h p w ev = Ok u' ->
  uframe u u' /\ exists notes, since_log u u' notes /\ upto (rank p) notes /\
    if sel_empty (w_changes w) then notes = []
    else Forall2 (told (u_put u p (w_tab w)) p ev (w_changes w)) (listeners u p ev) (about p notes).
Proof.
  intros L A (t & Ht & Es) H. unfold flush_with in H. pose proof (uframe_put u p t (w_tab w) Ht Es) as F0.
  destruct (sel_empty (w_changes w)).
  - bindn H t' H1. inv H. unfold w_drop in H1. destruct (_ && _); try discriminate. inv H1.
    split; auto. exists []. split; [unfold since_log; rewrite app_nil_r; reflexivity|]. split; auto. constructor.
  - bindn H q H1. destruct q as [u1 s1]. cbn [fst snd] in H.
    destruct (L _ _ _ _ _ _ _ _ _ (acyclic_frame _ _ F0 A) H1) as (F1 & notes & N1 & N2 & N3).
    assert (X : uframe u1 u' /\ u_log u' = u_log u1).
    { destruct (_ && _).
      - bindn H x H2. bindn H t1 H3. bindn H w1 H4. bindn H y H5. bindn H t2 H6. inv H. split; auto.
        apply u_get_Ok in H3. eapply uframe_put; [exact H3|]. unfold w_drop in H6. destruct (_ && _); try discriminate. inv H6.
        apply flush_apply_sch in H4. exact H4.
      - inv H. split; [apply uframe_refl|auto]. }
    destruct X as [F2 EL]. split; [eapply uframe_trans; [exact F0|]; eapply uframe_trans; eauto|].
    exists notes. split; [unfold since_log in *; rewrite EL, N1; reflexivity|]. split; auto.
Qed.

Lemma remove_rows_log fc u h c ev rows u' : logs fc -> acyclic rank u -> remove_rows_with pr umax fc u h c ev rows = Ok u' ->
  uframe u u' /\ exists notes, since_log u u' notes /\ upto (rank c) notes.
Proof.
  intros L A H. unfold remove_rows_with in H. bindn H t Ht. apply u_get_Ok in Ht.
  assert (G : forall w, t_sch (w_tab w) = t_sch t -> flush_with pr umax fc u h c w ev = Ok u' ->
    uframe u u' /\ exists notes, since_log u u' notes /\ upto (rank c) notes).
  { intros w Ew H'. destruct (flush_with_log fc u h c w ev u' L A) as (F & notes & N1 & N2 & _); eauto. }
  destruct (t_kind t); try discriminate.
  - bindn H x H1. bindn H w H2. apply (G w); auto. destruct rows as [|rows]; [inv H2; apply clear_sch|]. apply fold_sch in H2. auto.
  - bindn H x H1. bindn H w H2. apply (G w); auto. destruct rows as [|rows]; [inv H2; apply clear_sch|]. apply sorted_remove_sch in H2. tauto.
Qed.

Lemma since_trans u v x n m : since_log u v n -> since_log v x m -> since_log u x (n ++ m).
Proof. unfold since_log. intros A B. rewrite B, A, app_assoc. auto. Qed.
Lemma since_refl u : since_log u u [].
Proof. unfold since_log. rewrite app_nil_r. auto. Qed.

Lemma run_log fc hd u h c ev rows u' : logs fc -> acyclic rank u -> run_with pr umax fc hd u h c ev rows = Ok u' ->
  uframe u u' /\ exists notes, since_log u u' notes /\ upto (rank c) notes.
Proof.
  intros L A H. unfold run_with in H. bindn H t Ht. set (rows' := match hd with HDelete => _ | _ => _ end) in H.
  bindn H u1 H1. assert (X : uframe u u1 /\ exists notes, since_log u u1 notes /\ upto (rank c) notes).
  { destruct hd; cbn [handle_with] in H1; try discriminate.
    - eapply remove_rows_log; eauto.
    - inv H1. split; [apply uframe_refl|]. exists []. split; [apply since_refl|constructor]. }
  destruct X as (F1 & n1 & S1 & U1). bindn H x H2. bindn H q H3. inv H. destruct q as [u2 s2]. cbn [fst].
  destruct (L _ _ _ _ _ _ _ _ _ (acyclic_frame _ _ F1 A) H3) as (F2 & n2 & S2 & U2 & _).
  split; [eapply uframe_trans; eauto|]. exists (n1 ++ n2). split; [eapply since_trans; eauto|]. apply Forall_app; auto.
Qed.

Lemma auto_log fc hd u h c k key ev rows u' : logs fc -> acyclic rank u -> auto_handle pr umax fc hd u h c k key ev rows = Ok u' ->
  uframe u u' /\ exists notes, since_log u u' notes /\ upto (rank c) notes.
Proof.
  intros L A H. unfold auto_handle in H. bindn H x H1. bindn H t H2. bindn H r H3. eapply run_log; eauto.
Qed.

Lemma about_upto p c notes : rank c < rank p -> upto (rank c) notes -> about p notes = [].
Proof.
  intros R U. unfold about. induction U as [|n l Hn U IH]; auto. simpl. destruct (Nat.eqb_spec (n_table n) p); auto. subst. lia.
Qed.
Lemma upto_le a b notes : a <= b -> upto a notes -> upto b notes.
Proof. intros H. apply Forall_impl. intros. lia. Qed.

(** The selection handed over is [sel0], sorted if [b]. *)
Definition given (sel0 sel : select) (b : bool) : Prop := same_rows sel0 sel /\ (b = true -> in_order sel).
Lemma given_sort sel0 sel b now : given sel0 sel b -> given sel0 (if now : bool then sel_sort sel else sel) (b || now).
Proof.
  intros [G1 G2]. destruct now; [|rewrite orb_false_r; split; auto]. split.
  - destruct sel0, sel; cbn in *; auto. eapply Permutation_trans; [eauto|apply sort_ids_perm].
  - intros _. destruct sel; cbn; auto. apply sort_ids_sorted.
Qed.

Lemma asks_sorts u u' tr : uframe u u' -> asks_order u tr -> tracker_sorts u' tr = true.
Proof.
  intros F. destruct tr as [c k key|srt cons]; cbn; auto. intros (t & Ht & Kt).
  destruct (uframe_tab _ _ _ _ F Ht) as (t' & Ht' & Es). rewrite Ht'. unfold t_kind in *. rewrite Es, Kt. auto.
Qed.

Lemma loop_log fc hd h p ev u0 sel0 : logs fc -> acyclic rank u0 -> forall l u sel b s',
  (forall x, In x l -> In (snd x) (u_trackers u0 p)) -> uframe u0 u -> given sel0 sel b ->
  fold_res (tracker_turn pr umax fc hd h p ev) l (u, sel, b) = Ok s' ->
  uframe u0 (fst (fst s')) /\ exists notes, since_log u (fst (fst s')) notes /\ upto (rank p) notes /\
    Forall2 (told u0 p ev sel0) (filter (fun x => match snd x with TAuto _ _ _ => true | TUser _ f => f ev end) l) (about p notes).
Proof.
  intros L A. induction l as [|[m tr] l IH]; intros u sel b s' Hl F G H; cbn [fold_res] in H.
  - inv H. cbn [fst]. split; auto. exists []. split; [apply since_refl|]. split; constructor.
  - assert (Htr : In tr (u_trackers u0 p)) by (apply (Hl (m, tr)); left; auto).
    assert (Hl' : forall x, In x l -> In (snd x) (u_trackers u0 p)) by (intros; apply Hl; right; auto).
    bindn H s1 H1. unfold tracker_turn in H1. cbn [fst snd] in H1.
    assert (Ec : tracker_considers tr ev = match tr with TAuto _ _ _ => true | TUser _ f => f ev end) by (destruct tr; auto).
    cbn [filter snd]. rewrite <- Ec. destruct (tracker_considers tr ev) eqn:Cn.
    + set (now := negb b && tracker_sorts u tr) in H1.
      set (sel1 := if now then sel_sort sel else sel) in H1.
      pose proof (given_sort sel0 sel b now G) as G1. fold sel1 in G1.
      bindn H1 u1 H2. inv H1.
      assert (X : uframe u0 u1 /\ exists n1, since_log (u_say u (Note p m ev sel1)) u1 n1 /\ upto (rank p) n1 /\ about p n1 = []).
      { destruct tr as [c k key|srt cons].
        - pose proof (A _ _ _ _ Htr) as Rk.
          assert (Fs : uframe u0 (u_say u (Note p m ev sel1))) by (eapply uframe_trans; [exact F|apply uframe_say]).
          destruct (auto_log _ _ _ _ _ _ _ _ _ _ L (acyclic_frame _ _ Fs A) H2) as (F1 & n1 & S1 & U1).
          split; [eapply uframe_trans; eauto|]. exists n1. split; auto.
          split; [eapply upto_le; [|exact U1]; lia|eapply about_upto; eauto].
        - inv H2. split; auto. exists []. split; [apply since_refl|]. split; [constructor|auto]. }
      destruct X as (F1 & n1 & S1 & U1 & Ab).
      destruct (IH u1 sel1 (b || now) s' Hl' F1 G1 H) as (F2 & n2 & S2 & U2 & T2).
      split; auto. exists ((Note p m ev sel1 :: n1) ++ n2). split; [|split].
      * eapply since_trans; [|exact S2]. unfold since_log in *. rewrite S1. cbn [u_say u_log]. rewrite <- app_assoc. auto.
      * apply Forall_app. split; auto.
      * unfold about in *. rewrite filter_app. cbn [filter n_table]. rewrite Nat.eqb_refl, Ab. cbn [app]. constructor; auto.
        split; auto. split; auto. split; auto. split; [apply G1|]. cbn [snd n_rows]. intro As.
        apply (asks_sorts _ _ _ F) in As. apply G1. unfold now. rewrite As. destruct b; auto.
    + inv H1. destruct (IH u sel b s' Hl' F G H) as (F2 & n2 & S2 & U2 & T2). split; auto. exists n2. auto.
Qed.

Lemma do_flush_log fuel : logs (do_flush pr umax fuel).
Proof.
  induction fuel as [|n IH]; intros p u h ev a b sel u' sel' A H; cbn [do_flush] in H; [discriminate|].
  bindn H x H1. bindn H hdl H2. bindn H s H3. injection H as E.
  assert (G : given sel sel (match sel with SAll => true | _ => false end)).
  { split; destruct sel; cbn; auto. discriminate. }
  destruct (loop_log _ _ _ _ _ u sel IH A _ _ _ _ _ (fun y Hy => in_combine_r (seq 0 (length (u_trackers u p))) (u_trackers u p) (fst y) (snd y) ltac:(destruct y; exact Hy)) (uframe_refl u) G H3)
    as (F & notes & N1 & N2 & N3).
  rewrite E in F, N1. cbn [fst] in F, N1. split; auto. exists notes. auto.
Qed.

Theorem flush_told fuel u h p w ev u' : acyclic rank u -> nth_error (u_tabs u) p = Some (w_tab w) ->
  flush pr umax fuel u h p w ev = Ok u' ->
  exists notes, u_log u' = u_log u ++ notes /\
    if sel_empty (w_changes w) then notes = []
    else Forall2 (told u p ev (w_changes w)) (listeners u p ev) (filter (fun n => n_table n =? p) notes).
Proof.
  intros A Hp H. destruct (flush_with_log _ u h p w ev u' (do_flush_log fuel) A) as (_ & notes & N1 & _ & N2); eauto.
  exists notes. split; auto. replace (u_put u p (w_tab w)) with u in N2; auto.
  unfold u_put. rewrite upd_same by auto. destruct u; reflexivity.
Qed.
Theorem live_flush_told fuel u h p w ev q : acyclic rank u -> nth_error (u_tabs u) p = Some (w_tab w) ->
  live_flush pr umax fuel u h p w ev = Ok q ->
  exists notes, u_log (fst q) = u_log u ++ notes /\
    if sel_empty (w_changes w) then notes = []
    else Forall2 (told u p ev (w_changes w)) (listeners u p ev) (filter (fun n => n_table n =? p) notes).
Proof.
  intros A Hp H. unfold live_flush, live_flush_with in H.
  replace (u_put u p (w_tab w)) with u in H by (unfold u_put; rewrite upd_same by auto; destruct u; reflexivity).
  destruct (sel_empty (w_changes w)).
  - inv H. exists []. rewrite app_nil_r. auto.
  - bindn H q1 H1. destruct q1 as [u1 s1]. cbn [fst snd] in H. bindn H t H2. bindn H w1 H3. bindn H x H4. inv H. cbn [fst u_put u_log].
    destruct (do_flush_log fuel _ _ _ _ _ _ _ _ _ A H1) as (_ & notes & N1 & _ & N2). exists notes. auto.
Qed.
End Log.

(** ** Circles *)
Lemma fold_through {A S} (f : S -> A -> res S) (P : S -> Prop) l s s' x : P s -> In x l -> (forall s y s', P s -> f s y = Ok s' -> P s') ->
  fold_res f l s = Ok s' -> exists s1 s2, P s1 /\ f s1 x = Ok s2.
Proof.
  intros Hs Hx Hf. revert s Hs. induction l as [|y l IH]; intros s Hs H; [destruct Hx|]. cbn [fold_res] in H. bindn H s1 H1.
  destruct Hx as [->|Hx]; eauto.
Qed.

Section Circle.
Variables (pr : profile) (umax : nat).
Notation fcall := (universe -> locks -> nat -> event -> bool -> bool -> select -> res (universe * select)).
Definition frames (fc : fcall) : Prop := forall p u h ev a b sel u' sel', fc u h p ev a b sel = Ok (u', sel') -> uframe u u'.

Lemma flush_with_frame fc u h p w ev u' : frames fc -> (exists t, nth_error (u_tabs u) p = Some t /\ t_sch (w_tab w) = t_sch t) ->
  flush_with pr umax fc u h p w ev = Ok u' -> uframe u u'.
Proof.
  intros L (t & Ht & Es) H. unfold flush_with in H. pose proof (uframe_put u p t (w_tab w) Ht Es) as F0.
  destruct (sel_empty (w_changes w)).
  - bindn H t' H1. inv H. unfold w_drop in H1. destruct (_ && _); try discriminate. inv H1. auto.
  - bindn H q H1. destruct q as [u1 s1]. cbn [fst snd] in H.
    apply L in H1. assert (F1 : uframe u u1) by (eapply uframe_trans; eauto). eapply uframe_trans; [exact F1|]. destruct (_ && _).
    + bindn H x H2. bindn H t1 H3. bindn H w1 H4. bindn H y H5. bindn H t2 H6. inv H.
      apply u_get_Ok in H3. eapply uframe_put; [exact H3|]. unfold w_drop in H6. destruct (_ && _); try discriminate. inv H6.
      apply flush_apply_sch in H4. exact H4.
    + inv H. apply uframe_refl.
Qed.
Lemma remove_rows_frame fc u h c ev rows u' : frames fc -> remove_rows_with pr umax fc u h c ev rows = Ok u' -> uframe u u'.
Proof.
  intros L H. unfold remove_rows_with in H. bindn H t Ht. apply u_get_Ok in Ht.
  assert (G : forall w, t_sch (w_tab w) = t_sch t -> flush_with pr umax fc u h c w ev = Ok u' -> uframe u u').
  { intros w Ew H'. eapply flush_with_frame; eauto. }
  destruct (t_kind t); try discriminate.
  - bindn H x H1. bindn H w H2. apply (G w); auto. destruct rows as [|rows]; [inv H2; apply clear_sch|]. apply fold_sch in H2. auto.
  - bindn H x H1. bindn H w H2. apply (G w); auto. destruct rows as [|rows]; [inv H2; apply clear_sch|]. apply sorted_remove_sch in H2. tauto.
Qed.
Lemma run_frame fc hd u h c ev rows u' : frames fc -> run_with pr umax fc hd u h c ev rows = Ok u' ->
  uframe u u' /\ (exists u1 h' a b sel q, uframe u u1 /\ fc u1 h' c ev a b sel = Ok q) /\
  (hd = HDelete -> exists t, nth_error (u_tabs u) c = Some t /\ (t_kind t = Consistent \/ t_kind t = Sorted)).
Proof.
  intros L H. unfold run_with in H. bindn H t Ht. bindn H u1 H1. apply u_get_Ok in Ht.
  assert (F1 : uframe u u1).
  { destruct hd; cbn [handle_with] in H1; try discriminate.
    - eapply remove_rows_frame; eauto.
    - inv H1. apply uframe_refl. }
  bindn H x H2. bindn H q H3. inv H. destruct q as [u2 s2]. cbn [fst]. split; [eapply uframe_trans; [exact F1|]; eapply L; eauto|].
  split.
  - eauto 10.
  - intros ->. exists t. split; auto. cbn [handle_with] in H1. unfold remove_rows_with in H1. bindn H1 t' Ht'. apply u_get_Ok in Ht'.
    rewrite Ht in Ht'. inv Ht'. destruct (t_kind t'); auto; discriminate.
Qed.
Lemma auto_frame fc hd u h c k key ev rows u' : frames fc -> auto_handle pr umax fc hd u h c k key ev rows = Ok u' ->
  uframe u u' /\ (exists u1 h' a b sel q, uframe u u1 /\ fc u1 h' c ev a b sel = Ok q) /\
  (hd = HDelete -> exists t, nth_error (u_tabs u) c = Some t /\ (t_kind t = Consistent \/ t_kind t = Sorted)).
Proof.
  intros L H. unfold auto_handle in H. bindn H x H1. bindn H t H2. bindn H r H3. eapply run_frame; eauto.
Qed.
Lemma turn_frame fc hd h p ev u s x s' : frames fc -> uframe u (fst (fst s)) -> tracker_turn pr umax fc hd h p ev s x = Ok s' ->
  uframe u (fst (fst s')).
Proof.
  intros L F H. unfold tracker_turn in H. destruct (tracker_considers _ _); [|inv H; auto]. bindn H u1 H1. inv H. cbn [fst].
  destruct (snd x).
  - apply auto_frame in H1; auto. destruct H1 as [H1 _]. eapply uframe_trans; [exact F|]. eapply uframe_trans; [apply uframe_say|exact H1].
  - inv H1. eapply uframe_trans; [exact F|apply uframe_say].
Qed.
Lemma do_flush_frame fuel : frames (do_flush pr umax fuel).
Proof.
  induction fuel as [|n IH]; intros p u h ev a b sel u' sel' H; cbn [do_flush] in H; [discriminate|].
  bindn H x H1. bindn H hdl H2. bindn H s H3. injection H as E.
  assert (X : uframe u (fst (fst s))).
  { revert H3. apply (fold_res_inv (fun s => uframe u (fst (fst s)))).
    - intros s0 y s1 Hs Hy. eapply turn_frame; eauto.
    - apply uframe_refl. }
  rewrite E in X. exact X.
Qed.

(** A derived tracker has its turn in every flush that returns. *)
Lemma do_flush_turn fuel u h p ev a b sel q c k key : do_flush pr umax (Datatypes.S fuel) u h p ev a b sel = Ok q ->
  In (TAuto c k key) (u_trackers u p) ->
  (exists u1 h' a b sel q, uframe u u1 /\ do_flush pr umax fuel u1 h' c ev a b sel = Ok q) /\
  (nth_error (u_hdl u) (ev_id ev) = Some HDelete ->
     exists t, nth_error (u_tabs u) c = Some t /\ (t_kind t = Consistent \/ t_kind t = Sorted)).
Proof.
  intros H Htr. cbn [do_flush] in H. bindn H x H1. bindn H hdl H2. bindn H s H3.
  destruct (In_nth_error _ _ Htr) as [m Hm].
  assert (Hin : exists y, In y (combine (seq 0 (length (u_trackers u p))) (u_trackers u p)) /\ snd y = TAuto c k key).
  { exists (m, TAuto c k key). split; auto.
    assert (G : forall (l : list tracker) s m, nth_error l m = Some (TAuto c k key) -> nth_error (combine (seq s (length l)) l) m = Some (s + m, TAuto c k key)).
    { induction l as [|z l IH]; intros s' [|m'] G; try discriminate; simpl in *.
      - inv G. rewrite Nat.add_0_r. auto.
      - rewrite IH by auto. f_equal. f_equal. lia. }
    apply nth_error_In with (n := m). rewrite (G _ 0 m Hm). auto. }
  destruct Hin as (y & Hy & Ey).
  assert (X : exists s1 s2, uframe u (fst (fst s1)) /\ tracker_turn pr umax (do_flush pr umax fuel) hdl h p ev s1 y = Ok s2).
  { revert H3. apply (fold_through _ (fun s => uframe u (fst (fst s)))); auto.
    - apply uframe_refl.
    - intros s0 z s' Hs Ht. exact (turn_frame _ _ _ _ _ _ _ _ _ (do_flush_frame fuel) Hs Ht). }
  destruct X as (s1 & s2 & Fs & T).
  unfold tracker_turn in T. rewrite Ey in T. cbn [tracker_considers] in T. bindn T u2 T1.
  apply auto_frame in T1; [|apply do_flush_frame]. destruct T1 as (_ & (u1 & h' & a' & b' & sel' & q' & Fu & Q) & Kd).
  split.
  - exists u1, h', a', b', sel', q'. split; auto. eapply uframe_trans; [exact Fs|]. eapply uframe_trans; [apply uframe_say|exact Fu].
  - intro Hh. unfold handlers_get in H2. rewrite Hh in H2. inv H2. destruct Kd as (t & Ht & Kt); auto. cbn [u_say u_tabs] in Ht.
    destruct (uframe_tab _ _ _ _ (uframe_sym _ _ Fs) Ht) as (t' & Ht' & Es). exists t'. split; auto. unfold t_kind in *. rewrite Es. auto.
Qed.

(** In a circle of tables every flush runs for ever, waits for ever, or panics. *)
Lemma circle_never_returns (C : nat -> Prop) fuel : forall u h p ev a b sel q,
  (forall q, C q -> exists c k key, C c /\ In (TAuto c k key) (u_trackers u q)) -> C p ->
  do_flush pr umax fuel u h p ev a b sel <> Ok q.
Proof.
  induction fuel as [|n IH]; intros u h p ev a b sel q HC Hp H; [discriminate|].
  destruct (HC p Hp) as (c & k & key & Hc & Htr).
  destruct (do_flush_turn _ _ _ _ _ _ _ _ _ _ _ _ H Htr) as [(u1 & h' & a' & b' & sel' & q' & F & Q) _].
  refine (IH u1 h' c ev a' b' sel' q' _ Hc Q). intros q0 Hq0. rewrite (uframe_trackers _ _ _ F). auto.
Qed.
Lemma flush_circle (C : nat -> Prop) fuel u h p w ev u' :
  (forall q, C q -> exists c k key, C c /\ In (TAuto c k key) (u_trackers u q)) -> C p -> sel_empty (w_changes w) = false ->
  flush pr umax fuel u h p w ev <> Ok u'.
Proof.
  intros HC Hp Hn H. unfold flush, flush_with in H. rewrite Hn in H. bindn H q H1.
  revert H1. apply (circle_never_returns C); auto.
Qed.

(** Tables that cannot remove rows. *)
Lemma bad_dependent fuel u h p w ev c k key t u' : In (TAuto c k key) (u_trackers u p) -> nth_error (u_tabs u) c = Some t ->
  t_kind t <> Consistent -> t_kind t <> Sorted -> c <> p -> nth_error (u_hdl u) (ev_id ev) = Some HDelete ->
  sel_empty (w_changes w) = false -> flush pr umax fuel u h p w ev <> Ok u'.
Proof.
  intros Htr Ht K1 K2 N Hh Hn H. unfold flush, flush_with in H. rewrite Hn in H. bindn H q H1.
  destruct fuel as [|n]; [discriminate|].
  destruct (do_flush_turn _ _ _ _ _ _ _ _ _ _ _ _ H1 Htr) as [_ Kd]. destruct (Kd Hh) as (t' & Ht' & K').
  cbn [u_put u_tabs] in Ht'. rewrite nth_error_upd_ne in Ht' by auto. rewrite Ht in Ht'. inv Ht'. tauto.
Qed.
End Circle.
