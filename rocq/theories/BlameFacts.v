(** Lemmas behind PropsBlame.v. *)
From Coq Require Import List Arith Bool Lia Sorting.Sorted Sorting.Permutation.
From Verif Require Import Base BaseFacts Names Column ColumnFacts Order RowRange RowRangeFacts Table Visit SortedTab BagTab TableSpec TableFacts
  SortedFacts BagFacts Hist HistFacts TableProps RowProps Events Race RaceSpec RaceFacts Cascade CascadeSpec CascadeFacts Extract RestoreFacts
  IntegrityFacts Threads ThreadSpec ThreadSeq ThreadFacts ThreadSafe ThreadReads ThreadVal BlameSpec ThreadSorted.
Import ListNotations.

(** ** What is on the list of a lock *)
Section List.
Variables (pr : profile) (umax : nat).
Lemma push_push_these s i : sel_push s i = SAll <-> s = SAll.
Proof. destruct s; cbn; split; try reflexivity; discriminate. Qed.
Lemma event_add_these w i : w_changes (event_add w i) = SAll <-> w_changes w = SAll.
Proof. unfold event_add. destruct (t_kind (w_tab w)); try reflexivity. apply push_push_these. Qed.
Lemma push_end_these w r w' i : push_end_unchecked w r = Ok (w', i) -> w_changes w' = SAll <-> w_changes w = SAll.
Proof.
  intros H. unfold push_end_unchecked in H. bindn H q Hq. destruct q as [w1 i1]. injection H as <- <-. rewrite event_add_these. cbn [fst].
  destruct (push_only_log _ _ _ _ Hq) as (t & -> & _). reflexivity.
Qed.
Lemma push_these w r w' i : push w r = Ok (w', i) -> w_changes w' = SAll <-> w_changes w = SAll.
Proof.
  intros H. unfold push in H. destruct (t_free (w_tab w)) as [|o f]; [eapply push_end_these; eauto|].
  bindn H q Hq. destruct q as [w1 o']. injection H as <- <-. apply swap_out_log in Hq. destruct Hq as (t & Q & _). cbn [fst]. rewrite Q.
  exact (event_add_these (with_tab w (Tab (t_sch (w_tab w)) (t_cols (w_tab w)) (set_remove o f))) o) || (cbn [with_tab w_changes]; rewrite event_add_these; reflexivity).
Qed.
Lemma push_all_these rs : forall w w', push_all w rs = Ok w' -> w_changes w' = SAll <-> w_changes w = SAll.
Proof.
  induction rs as [|r rs IH]; intros w w' H; unfold push_all in H; cbn [fold_res] in H; [injection H as ->; reflexivity|].
  bindn H w1 H1. bindn H1 q Hq. destruct q as [w2 i]. injection H1 as <-. rewrite (IH _ _ H). exact (push_these _ _ _ _ Hq).
Qed.
Lemma push_ends_these rs : forall w i w' j, fold_res (fun s r => push_end_unchecked (fst s) r) rs (w, i) = Ok (w', j) -> w_changes w' = SAll <-> w_changes w = SAll.
Proof.
  induction rs as [|r rs IH]; intros w i w' j H; cbn [fold_res] in H; [injection H as -> _; reflexivity|].
  bindn H q Hq. destruct q as [w2 i2]. rewrite (IH _ _ _ _ H). exact (push_end_these _ _ _ _ Hq).
Qed.
Lemma push_array_these rs w w' x : push_array pr w rs = Ok (w', x) -> w_changes w' = SAll <-> w_changes w = SAll.
Proof.
  intros H. destruct rs as [|r rs]; unfold push_array in H; [injection H as -> _; reflexivity|].
  bindn H q Hq. bindn H q2 Hq2. bindn H e He. destruct q as [w1 i1], q2 as [w2 i2]. injection H as <- _. cbn [fst snd] in *.
  rewrite (push_ends_these _ _ _ _ _ Hq2). exact (push_end_these _ _ _ _ Hq).
Qed.
Lemma write_these w o w' its : t_kind (w_tab w) = Consistent -> avail Consistent o = true -> through_lock o = true ->
  write_op pr umax w [] o = Ok (w', its) -> w_changes w' = SAll <-> w_changes w = SAll \/ o = OClear \/ o = OSelectAll.
Proof.
  intros Kw A TL H.
  assert (RD : (let* _ := read_op pr umax (w_tab w) o in Ok (w, [])) = Ok (w', its) -> w_changes w' = SAll <-> w_changes w = SAll).
  { intro H'. bindn H' u Hu. injection H' as <- <-. reflexivity. }
  assert (X : o <> OClear -> o <> OSelectAll -> w_changes w' = SAll <-> w_changes w = SAll).
  2:{ destruct o; try (rewrite X by discriminate; split; [auto|intros [Y|[Y|Y]]; [exact Y|discriminate Y|discriminate Y]]).
      - cbn [write_op] in H. injection H as <- <-. cbn. split; auto.
      - cbn [write_op] in H. injection H as <- <-. unfold clear, event_cleared. rewrite Kw. cbn. split; auto. }
  intros N1 N2.
  destruct o; try discriminate A; try discriminate TL; cbn [write_op] in H; try (apply RD; exact H); clear RD; try (elim N1; reflexivity); try (elim N2; reflexivity).
  - bindn H n H1. injection H as <- <-. reflexivity.
  - bindn H n H1. bindn H n1 H2. bindn H n2 H3. injection H as <- <-. reflexivity.
  - bindn H w1 H1. injection H as <- <-. bindn H1 t Ht. injection H1 as <-. reflexivity.
  - bindn H w1 H1. injection H as <- <-. bindn H1 q Hq. injection H1 as <-. destruct q. eapply push_these; eauto.
  - bindn H w1 H1. injection H as <- <-. destruct rs; [injection H1 as <-; reflexivity|]. eapply push_all_these; eauto.
  - bindn H w1 H1. injection H as <- <-. bindn H1 q Hq. injection H1 as <-. destruct q. eapply push_array_these; eauto.
  - bindn H w1 H1. injection H as <- <-. unfold delete in H1. rewrite Kw in H1. bindn H1 x Hx. injection H1 as <-.
    unfold event_del. rewrite Kw. apply push_push_these.
  - injection H as <- <-. apply push_push_these.
  - injection H as <- <-. reflexivity.
Qed.

(** Calls under one lock of a consistent table: what they take away, and what they put on the list. *)
Definition listing (es : list Hist.op) (t : table) (i : nat) : Prop :=
  In (ODelete i) es \/ In (OSelect i) es \/
  exists o, In o es /\ is_push o = true /\ (t_contains t i = false \/ In OClearRaw es).
Definition listing_all (es : list Hist.op) (t : table) (s : select) : Prop :=
  match s with SAll => In OClear es \/ In OSelectAll es | SThese l => forall i, In i l -> listing es t i end.
Lemma edits_listing s es t w : s_kind s = Consistent -> tg false s t -> Forall (op_ty (s_cols s)) es -> do_edits pr umax (w_new t) es = Ok w ->
  tg false s (w_tab w) /\
  (forall i, t_contains t i = true -> t_contains (w_tab w) i = false -> In OClearRaw es) /\
  listing_all es t (w_changes w).
Proof.
  intros Ks G T H.
  set (P := fun q : wlock * list bag_pos => snd q = [] /\ tg false s (w_tab (fst q)) /\
    (forall i, t_contains t i = true -> t_contains (w_tab (fst q)) i = false -> In OClearRaw es) /\ listing_all es t (w_changes (fst q))).
  enough (X : P (w, [])) by (destruct X as (_ & X); exact X).
  eapply (edits_inv pr umax P (fun o => In o es /\ op_ty (s_cols s) o) es (w_new t)).
  - apply Forall_forall. intros o Ho. split; [exact Ho|]. rewrite Forall_forall in T. auto.
  - unfold P. cbn [fst snd w_new w_tab w_changes]. split; [reflexivity|]. split; [exact G|]. split; [congruence|]. intros i [].
  - intros [w0 its] o [w1 its'] (Pn & Pg & Pl & Pc) [Io To] TL A W _. cbn [fst snd] in *. subst its. rewrite (tg_kind _ _ _ Pg), Ks in A.
    pose proof (write_effect pr umax s Ks w0 o w1 its' Pg To A W) as (E1 & E2 & E3).
    pose proof (write_tg pr umax s Ks w0 o w1 its' Pg To A W) as G1.
    assert (Kw : t_kind (w_tab w0) = Consistent) by (rewrite (tg_kind _ _ _ Pg); exact Ks).
    pose proof (write_these w0 o w1 its' Kw A TL W) as E4.
    unfold P. cbn [fst snd]. split; [eapply its_nil; eauto|]. split; [exact G1|]. split.
    + intros i Hi Hn. destruct (t_contains (w_tab w0) i) eqn:C; [|exact (Pl i Hi C)]. destruct (E1 i C Hn) as [->|(srt & ev & -> & _)]; [exact Io|discriminate TL].
    + destruct (w_changes w1) as [|l] eqn:C1; cbn [listing_all].
      * destruct (proj1 E4 eq_refl) as [Y|[-> | ->]]; auto. rewrite Y in Pc. exact Pc.
      * destruct (w_changes w0) as [|l0] eqn:C0; [discriminate (proj2 E4 (or_introl eq_refl))|]. intros i Hi.
        destruct (E3 i Hi) as [X|X]; [apply Pc; exact X|]. unfold listing. destruct X as [->|[->|[->|[->|[Ip Hn]]]]]; auto;
          try (discriminate (proj2 E4 ltac:(auto))).
        right. right. exists o. split; [exact Io|]. split; [exact Ip|]. destruct (t_contains t i) eqn:C; [right; exact (Pl i C Hn)|left; reflexivity].
  - exact H.
Qed.
(** Restoring puts rows on the list that were not there. *)
Lemma extract_listing foreign order (sch : nat -> schema) fl p nt t e s : s_kind (sch p) = Consistent -> tg false (sch p) t ->
  Forall2 (fun ty c => Forall (v_ty (ct_base ty)) (c_into_iter c)) (s_cols (sch p)) (ex_data e) ->
  merge_extract pr foreign order fl p nt (w_new t) e = Ok s ->
  pushes (w_new t) (fst s) /\ w_changes (fst s) <> SAll.
Proof.
  intros Ks G T H.
  assert (T' : Forall2 (fun ty l => Forall (v_ty (ct_base ty)) l) (s_cols (sch p)) (map c_into_iter (ex_data e))) by (clear - T; induction T; cbn [map]; constructor; auto).
  set (P := fun w' : wlock => tg false (sch p) (w_tab w') /\ pushes (w_new t) w' /\ w_changes w' <> SAll).
  assert (Go : good pr (fun s => P (fst s)) (merge_extract pr foreign order fl p nt (w_new t) e)).
  2:{ rewrite H in Go. split; apply Go. }
  clear H s. unfold merge_extract. cbn [w_new w_tab]. rewrite (tg_kind _ _ _ G), Ks.
  eapply for_rows_good; [|exact T'|split; [exact G|split; [apply pushes_refl|discriminate]]]. intros s i r (Gs & Ps & Ns) R.
  eapply good_bind; [eapply update_row_good; exact R|]. intros r' R'.
  eapply good_bind; [eapply good_and; [apply (good_push_tg pr umax false (sch p)); [exact Gs|exact R']|intros q Hq; exact Hq]|].
  cbv beta. intros [w' i'] [G1 Hq]. cbn [good fst]. split; [exact G1|]. split.
  - eapply pushes_trans; [exact Ps|]. eapply (push_effect (sch p)); eauto.
  - intro X. apply Ns. apply (push_these _ _ _ _ Hq). exact X.
Qed.
End List.

(** ** What the trackers look for *)
Lemma join_inv v remove r rest : join (fun l r => val_cmp l (VRow r)) v remove = (JMatch r, rest) -> v = VRow r /\ In r remove.
Proof.
  induction remove as [|x xs IH]; cbn [join]; [discriminate|]. destruct (val_cmp v (VRow x)) eqn:E.
  - intros [= -> _]. split; [apply val_cmp_eq; exact E|left; reflexivity].
  - discriminate.
  - intro H. destruct (IH H). split; [assumption|right; assumption].
Qed.
Lemma join_rest (v : val) : forall remove r, In r (snd (join (fun l r => val_cmp l (VRow r)) v remove)) -> In r remove.
Proof.
  intro remove. induction remove as [|x xs IH]; cbn [join]; [auto|]. intro r. destruct (val_cmp v (VRow x)); auto. intro H. right. auto.
Qed.
Lemma join_rows_refers t k : forall ids remove l j, join_rows t k ids remove = Ok l -> In j l -> exists i, In i remove /\ refers t k j i.
Proof.
  induction ids as [|x ids IH]; intros remove l j H Hj; cbn [join_rows] in H; [injection H as <-; destruct Hj|].
  bindn H v Hv. destruct (join _ v remove) as [a rest] eqn:Ej. cbn [fst snd] in H.
  assert (Rest : forall r, In r rest -> In r remove) by (intros r Hr; apply (join_rest v); rewrite Ej; exact Hr).
  destruct a as [| |r].
  - destruct (IH _ _ _ H Hj) as (i & Hi & R). eauto.
  - injection H as <-. destruct Hj.
  - bindn H l' Hl. injection H as <-. destruct (join_inv _ _ _ _ Ej) as [-> Hr]. destruct Hj as [<-|Hj].
    + exists r. split; [exact Hr|]. destruct (nth_error (t_cols t) k) as [c|] eqn:Ec; [|discriminate]. exists c. auto.
    + destruct (IH _ _ _ Hl Hj) as (i & Hi & R). eauto.
Qed.
Lemma find_refers s t k i l j : tg false s t -> t_find t k (VRow i) = Ok l -> In j l -> refers t k j i.
Proof.
  intros (E & live & rows & K & _) H Hj. unfold t_find in H. destruct (nth_error (t_cols t) k) as [c|] eqn:Ec; [|discriminate].
  assert (Hk : exists ct, nth_error (s_cols (t_sch t)) k = Some ct).
  { apply nth_error_lt_Some. rewrite <- (cols_len_eq _ _ _ K). eapply nth_error_Some_lt; eauto. }
  destruct Hk as [ct Hk]. destruct (cols_nth _ _ _ _ _ _ _ _ (ok_cols _ _ _ K) Ec Hk) as [Wf Dt].
  destruct ct as [b|b].
  - exfalso. destruct c; try discriminate H; destruct Wf; discriminate.
  - rewrite (c_find_ok _ _ _ _ _ Wf) in H. injection H as <-. exists c. split; [exact Ec|]. apply filter_In in Hj. destruct Hj as [_ Hj]. apply andb_true_iff in Hj. destruct Hj as [_ Hj].
    apply val_at_iff in Hj. eapply c_index_ok; eauto.
Qed.

Lemma map_res_In {A B} (f : A -> res B) l : forall l' b, map_res f l = Ok l' -> In b l' -> exists a, In a l /\ f a = Ok b.
Proof.
  induction l as [|a l IH]; intros l' b H Hb; cbn [map_res] in H; [injection H as <-; destruct Hb|].
  bindn H b1 H1. bindn H bs H2. injection H as <-. destruct Hb as [<-|Hb]; [exists a; split; [left; reflexivity|exact H1]|].
  destruct (IH _ _ H2 Hb) as (a' & Ha & E). exists a'. split; [right; exact Ha|exact E].
Qed.
(** What [foreign_auto] finds for a selection. *)
Definition found (t : table) (k : nat) (sel sel' : select) : Prop :=
  match sel, sel' with
  | SAll, SAll => True
  | SThese l, SThese l' => forall j, In j l' -> exists i, In i l /\ refers t k j i
  | _, _ => False
  end.
Lemma select_found pr s t k (key : bool) sel sel' : tg false s t ->
  (if key then select_sorted pr t k sel else select_indexed t k sel) = Ok sel' -> found t k sel sel'.
Proof.
  intros G H. destruct key.
  - unfold select_sorted in H. destruct sel as [|l]; [injection H as <-; exact I|]. bindn H it H1. bindn H ids H2. bindn H l' H3. injection H as <-.
    intros j Hj. eapply join_rows_refers; eauto.
  - unfold select_indexed in H. destruct sel as [|l]; [injection H as <-; exact I|]. bindn H ls H1. injection H as <-.
    intros j Hj. apply in_concat in Hj. destruct Hj as (l1 & Hl & Hj). destruct (map_res_In _ _ _ _ H1 Hl) as (i & Hi & E).
    exists i. split; [exact Hi|]. eapply find_refers; eauto.
Qed.

(** ** Programs that are to blame for what they remove *)
Section Blame.
Variables (pr : profile) (umax : nat) (has : nat -> Prop) (sch : nat -> schema).
Hypothesis nobag : forall p, pr = Debug \/ s_kind (sch p) <> Bag.
Variables (tss : list (list top)) (h : list threads) (hs : list handler).
Notation inv := (inv has sch).
Definition lossy (p : nat) (t t' : table) : Prop :=
  t_kind t = Consistent -> forall i, t_contains t i = true -> t_contains t' i = false -> blame tss h hs p i.
Lemma lossy_refl p t : lossy p t t.
Proof. intros _ i A B. congruence. Qed.
Lemma lossy_trans p a b c : t_kind b = t_kind a -> lossy p a b -> lossy p b c -> lossy p a c.
Proof. intros E A B K i Hi Hn. destruct (t_contains b i) eqn:C; [apply B; congruence|apply A; assumption]. Qed.
Definition seen (x : xuni) : Prop := exists c, In c h /\ th_x c = x.
Definition loses (x y : xuni) : Prop := forall p t t', nth_error (u_tabs (xu_u x)) p = Some t -> nth_error (u_tabs (xu_u y)) p = Some t' -> lossy p t t'.
Fixpoint bp {A} (m : prog A) (d : hold) (Q : hold -> A -> Prop) : Prop :=
  match m with
  | Ret (Ok a) => Q d a
  | Ret (Err _) | Endless => True
  | Acq l wr k => match l, wr with LT p, true => ~ In p (map fst d) -> forall v, bp k ((p, v) :: d) Q | _, _ => bp k d Q end
  | Rel l wr k => match l, wr with LT p, true => bp k (h_drop p d) Q | _, _ => bp k d Q end
  | Act f k => forall x, seen x -> inv x -> u_hdl (xu_u x) = hs -> agrees d x -> loses x (fst (f x)) /\ u_hdl (xu_u (fst (f x))) = hs /\
      exists d', map fst d' = map fst d /\ agrees d' (fst (f x)) /\ bp (k (snd (f x))) d' Q
  end.
Lemma bp_bind {A B} (m : prog A) (f : A -> prog B) : forall d Q, bp m d (fun d a => bp (f a) d Q) -> bp (pbind m f) d Q.
Proof.
  induction m as [r| |l wr k IH|l wr k IH|C a k IH]; intros d Q H; cbn [pbind bp] in *; auto.
  - destruct r; exact H.
  - destruct l, wr; auto.
  - destruct l, wr; auto.
  - intros x Sx Ix Hx Ax. destruct (H x Sx Ix Hx Ax) as (T & Eh & d' & E & A' & V). split; [exact T|]. split; [exact Eh|]. exists d'. auto.
Qed.
Lemma bp_mono {A} (m : prog A) : forall d (Q S : hold -> A -> Prop), (forall d a, Q d a -> S d a) -> bp m d Q -> bp m d S.
Proof.
  induction m as [r| |l wr k IH|l wr k IH|C a k IH]; intros d Q S QS H; cbn [bp] in *; eauto.
  - destruct r; auto.
  - destruct l, wr; eauto.
  - destruct l, wr; eauto.
  - intros x Sx Ix Hx Ax. destruct (H x Sx Ix Hx Ax) as (T & Eh & d' & E & A' & V). split; [exact T|]. split; [exact Eh|]. exists d'. eauto.
Qed.
Lemma bp_write p d (Q : hold -> unit -> Prop) : (~ In p (map fst d) -> forall v, Q ((p, v) :: d) tt) -> bp (take_lock (LT p) true) d Q.
Proof. intro H. exact H. Qed.
Lemma bp_written p v d (Q : hold -> unit -> Prop) : ~ In p (map fst d) -> Q d tt -> bp (give_lock (LT p) true) ((p, v) :: d) Q.
Proof. intros N H. unfold give_lock. cbn [bp h_drop filter fst]. rewrite Nat.eqb_refl. cbn [negb]. fold (h_drop p d). rewrite h_drop_out by exact N. exact H. Qed.
Lemma bp_take p d (Q : hold -> unit -> Prop) : Q d tt -> bp (take_lock (LT p) false) d Q.
Proof. auto. Qed.
Lemma bp_give p d (Q : hold -> unit -> Prop) : Q d tt -> bp (give_lock (LT p) false) d Q.
Proof. auto. Qed.
Lemma bp_takef p wr d (Q : hold -> unit -> Prop) : Q d tt -> bp (take_lock (LF p) wr) d Q.
Proof. auto. Qed.
Lemma bp_givef p wr d (Q : hold -> unit -> Prop) : Q d tt -> bp (give_lock (LF p) wr) d Q.
Proof. auto. Qed.
Lemma bp_lift {A} (r : res A) d (Q : hold -> A -> Prop) : (forall a, r = Ok a -> Q d a) -> bp (lift r) d Q.
Proof. intro H. unfold lift. cbn. destruct r; auto. Qed.
Lemma loses_refl x : loses x x.
Proof. intros p t t' E E'. assert (t' = t) by congruence. subst. apply lossy_refl. Qed.
Lemma bp_still {A B} (f : xuni -> xuni * B) (k : B -> prog A) d Q :
  (forall x, u_tabs (xu_u (fst (f x))) = u_tabs (xu_u x) /\ u_hdl (xu_u (fst (f x))) = u_hdl (xu_u x)) ->
  (forall x, seen x -> inv x -> u_hdl (xu_u x) = hs -> bp (k (snd (f x))) d Q) -> bp (Act f k) d Q.
Proof.
  intros E H x Sx Ix Hx Ax. destruct (E x) as [E1 E2]. split; [intros p t t'; rewrite E1; apply loses_refl|]. split; [congruence|].
  exists d. split; [reflexivity|]. split; [|auto]. unfold agrees. rewrite E1. exact Ax.
Qed.
Lemma bp_look {B} (f : universe -> B) d (Q : hold -> B -> Prop) : (forall x, seen x -> inv x -> u_hdl (xu_u x) = hs -> Q d (f (xu_u x))) -> bp (look f) d Q.
Proof. intro H. apply bp_still; [auto|]. intros x S Ix Hx. apply H; assumption. Qed.
Lemma bp_say n d (Q : hold -> unit -> Prop) : Q d tt -> bp (change (fun u => u_say u n)) d Q.
Proof. intro H. apply bp_still; [auto|]. intros x _ _ _. exact H. Qed.
Lemma bp_get p v d (Q : hold -> table -> Prop) : (forall t, v = Some t -> table_in h p t -> has p -> tg false (sch p) t -> Q ((p, v) :: d) t) -> bp (get_tab p) ((p, v) :: d) Q.
Proof.
  intro H. apply bp_bind. intros x (c & Hc & <-) Ix Hx Ax. split; [apply loses_refl|]. split; [exact Hx|]. exists ((p, v) :: d). split; [reflexivity|]. split; [exact Ax|].
  cbn [snd fst]. unfold u_get. destruct (nth_error (u_tabs (xu_u (th_x c))) p) as [t'|] eqn:Et; [|exact I].
  inversion Ax as [|? ? E1 E2]. cbn [fst snd] in E1. apply H; [congruence|exists c; auto|apply (Ix _ _ Et)|apply (Ix _ _ Et)].
Qed.
Lemma bp_see p d (Q : hold -> table -> Prop) : (forall t, table_in h p t -> has p -> tg false (sch p) t -> Q d t) -> bp (get_tab p) d Q.
Proof.
  intro H. apply bp_bind. apply bp_still; [auto|]. intros x (c & Hc & <-) Ix _. cbn [snd fst]. unfold u_get.
  destruct (nth_error (u_tabs (xu_u (th_x c))) p) as [t'|] eqn:Et; [|exact I]. apply H; [exists c; auto|apply (Ix _ _ Et)|apply (Ix _ _ Et)].
Qed.
Lemma bp_put p t t' d (Q : hold -> unit -> Prop) : ~ In p (map fst d) -> lossy p t t' -> Q ((p, Some t') :: d) tt -> bp (put_tab p t') ((p, Some t) :: d) Q.
Proof.
  intros N C H x Sx Ix Hx Ax. inversion Ax as [|e l E1 E2]. subst e l. cbn [fst snd] in E1. split; [|split; [exact Hx|]].
  - intros q t1 t2 F1 F2. cbn in F2. destruct (Nat.eq_dec q p) as [->|Ne].
    + rewrite nth_error_upd_eq in F2 by (apply nth_error_Some; congruence). assert (t1 = t) by congruence. assert (t2 = t') by congruence. subst. exact C.
    + rewrite nth_error_upd_ne in F2 by congruence. assert (t2 = t1) by congruence. subst. apply lossy_refl.
  - exists ((p, Some t') :: d). split; [reflexivity|]. split; [|exact H]. constructor.
    + cbn. rewrite nth_error_upd_eq by (apply nth_error_Some; congruence). reflexivity.
    + unfold agrees in E2. rewrite Forall_forall in *. intros e He. specialize (E2 e He). cbn.
      rewrite nth_error_upd_ne; [exact E2|]. intro Z. apply N. rewrite <- Z. apply in_map. exact He.
Qed.
Ltac b1 :=
  match goal with
  | |- bp (pbind _ _) _ _ => apply bp_bind; cbv beta
  | |- bp (take_lock (LT _) true) _ _ => apply bp_write; intros ? ?
  | |- bp (give_lock (LT _) true) _ _ => apply bp_written; [assumption|]
  | |- bp (take_lock (LT _) false) _ _ => apply bp_take
  | |- bp (give_lock (LT _) false) _ _ => apply bp_give
  | |- bp (take_lock (LF _) _) _ _ => apply bp_takef
  | |- bp (give_lock (LF _) _) _ _ => apply bp_givef
  | |- bp (get_tab ?p) ((?p, Some _) :: _) _ => apply bp_get; let E := fresh in intros ? E ? ? ?; injection E as <-
  | |- bp (get_tab ?p) ((?p, _) :: _) _ => apply bp_get; intros ? -> ? ? ?
  | |- bp (get_tab _) _ _ => apply bp_see; intros ? ? ? ?
  | |- bp (look _) _ _ => apply bp_look; intros ? ? ? ?
  | |- bp (Ret (Ok ?a)) ?d ?Q => change (Q d a); cbv beta
  | |- bp (lift (Ok _)) _ _ => apply bp_lift; let E := fresh in intros ? E; injection E as <-
  | |- bp (lift (w_drop _)) _ _ => apply bp_lift; let E := fresh in intros ? E; apply drop_inv in E; destruct E as [-> _]
  | |- bp (lift _) _ _ => apply bp_lift; intros ? ?
  | |- bp (change (fun u => u_say u _)) _ _ => apply bp_say
  | u : unit |- _ => destruct u
  end.
Ltac bs := repeat b1.

(** Everything selected is struck. *)
Definition about (ev : event) (p : nat) (sel : select) : Prop :=
  match sel with SAll => struck tss h ev p None | SThese l => forall i, In i l -> struck tss h ev p (Some i) end.
(** If the rows selected are removed, this is to blame. *)
Definition doom (ev : event) (p : nat) (sel : select) : Prop := ev_removal ev = true -> s_kind (sch p) = Consistent -> forall i, chosen sel i -> blame tss h hs p i.
Definition alike (s s' : select) : Prop :=
  match s, s' with SAll, SAll => True | SThese l, SThese l' => forall i, In i l <-> In i l' | _, _ => False end.
Lemma alike_refl s : alike s s.
Proof. destruct s; cbn; [exact I|]. reflexivity. Qed.
Lemma alike_trans a b c : alike a b -> alike b c -> alike a c.
Proof. destruct a, b, c; cbn; try tauto. intros A B i. rewrite A. apply B. Qed.
Lemma alike_sort s : alike s (sel_sort s).
Proof. destruct s as [|l]; cbn; [exact I|]. intro i. symmetry. apply sort_ids_In. Qed.
Lemma alike_chosen s s' i : alike s s' -> chosen s i <-> chosen s' i.
Proof. destruct s, s'; cbn; try tauto. intro A. apply A. Qed.
Lemma alike_about ev p s s' : alike s s' -> about ev p s -> about ev p s'.
Proof. destruct s, s'; cbn; try tauto. intros A B i Hi. apply B. apply A. exact Hi. Qed.
(** Rows to which the event led. *)
Definition follow (ev : event) (c : nat) (rows : select) : Prop :=
  match rows with
  | SAll => exists q oq, struck tss h ev q oq /\ leads h q oq c None
  | SThese l => forall j, In j l -> exists q oq, struck tss h ev q oq /\ leads h q oq c (Some j)
  end.
Lemma alike_follow ev p s s' : alike s s' -> follow ev p s -> follow ev p s'.
Proof. destruct s, s'; cbn; try tauto. intros A B i Hi. apply B. apply A. exact Hi. Qed.
Lemma follow_about ev c rows : follow ev c rows -> about ev c rows.
Proof.
  destruct rows as [|l]; cbn.
  - intros (q & oq & S & L). eapply struck_leads; eauto.
  - intros F i Hi. destruct (F i Hi) as (q & oq & S & L). eapply struck_leads; eauto.
Qed.
Lemma follow_blame ev c rows i : handlers_get hs ev = Ok HDelete -> follow ev c rows -> chosen rows i -> blame tss h hs c i.
Proof.
  intros Hd F Ch. right. destruct rows as [|l]; cbn in *.
  - exists ev, None. auto.
  - exists ev, (Some i). auto.
Qed.
Lemma about_follow ev p c k key t sel sel' : about ev p sel -> tracked_in h p (TAuto c k key) -> table_in h c t -> found t k sel sel' -> follow ev c sel'.
Proof.
  intros A Tr Ti F. destruct sel as [|l], sel' as [|l']; cbn in *; try tauto.
  - exists p, None. split; [exact A|]. exists k, key. auto.
  - intros j Hj. destruct (F j Hj) as (i & Hi & R). exists p, (Some i). split; [auto|]. exists k, key. eauto.
Qed.
Lemma apply_lossy p t ev sel w' : tg false (sch p) t -> doom ev p sel -> forall w, w_tab w = t -> flush_apply pr umax w ev sel = Ok w' -> lossy p t (w_tab w').
Proof.
  intros G D w Ew H Kt i Hi Hn. assert (Ks : s_kind (sch p) = Consistent) by (rewrite <- (tg_kind _ _ _ G); exact Kt). subst t.
  destruct (apply_effect pr umax (sch p) Ks w ev sel w' G H) as (_ & _ & _ & R & _). destruct (R i Hi Hn) as [R1 R2]. apply D; assumption.
Qed.
Lemma alike_doom ev p s s' : alike s s' -> doom ev p s -> doom ev p s'.
Proof. intros A D R K i Hi. apply D; auto. apply (alike_chosen s s' i A). exact Hi. Qed.

Definition calls_bp (call : nat -> event -> bool -> bool -> select -> prog select) : Prop :=
  forall p ev pushed del sel d (Q : hold -> select -> Prop), about ev p sel -> (forall sel', alike sel sel' -> Q d sel') -> bp (call p ev pushed del sel) d Q.
Section With.
Variable call : nat -> event -> bool -> bool -> select -> prog select.
Hypothesis CO : calls_bp call.
Lemma flush_bp p t w ev d (Q : hold -> unit -> Prop) : ~ In p (map fst d) -> lossy p t (w_tab w) -> about ev p (w_changes w) -> doom ev p (w_changes w) -> Q d tt ->
  bp (p_flush_with pr umax call p w ev) ((p, Some t) :: d) Q.
Proof.
  intros N C A D H. unfold p_flush_with. destruct (sel_empty (w_changes w)).
  - bs. apply bp_put; [exact N|exact C|]. bs. exact H.
  - bs. apply bp_put; [exact N|exact C|]. bs. apply CO; [exact A|]. intros sel Al. bs. destruct (_ && _); [|bs; exact H]. bs.
    apply bp_put; [exact N| |bs; exact H].
    match goal with E : flush_apply _ _ (w_new ?t0) _ _ = Ok _ |- _ => eapply (apply_lossy p t0 ev sel); [assumption|eapply alike_doom; eassumption| |exact E]; reflexivity end.
Qed.
Lemma live_flush_bp p t w ev d (Q : hold -> wlock -> Prop) : ~ In p (map fst d) -> lossy p t (w_tab w) -> about ev p (w_changes w) -> doom ev p (w_changes w) ->
  (forall w, Q ((p, Some (w_tab w)) :: d) w) -> bp (p_live_flush_with pr umax call p w ev) ((p, Some t) :: d) Q.
Proof.
  intros N C A D H. unfold p_live_flush_with. destruct (sel_empty (w_changes w)).
  - bs. apply bp_put; [exact N|exact C|]. bs. apply H.
  - bs. apply bp_put; [exact N|exact C|]. bs. apply CO; [exact A|]. intros sel Al. bs. apply bp_put; [exact N| |].
    + match goal with E : flush_apply _ _ (W ?t0 _ _ _) _ _ = Ok _ |- _ => eapply (apply_lossy p t0 ev sel); [assumption|eapply alike_doom; eassumption| |exact E]; reflexivity end.
    + bs. apply bp_still; [intro x; unfold xu_flush; destruct (nth_error (xu_fl x) p); auto|]. intros x _ _ _. bs. apply (H (W _ _ false false)).
Qed.
Lemma about_none ev p : about ev p (SThese []).
Proof. intros i []. Qed.
Lemma doom_none ev p : doom ev p (SThese []).
Proof. intros _ _ i []. Qed.
Lemma remove_bp c ev rows d (Q : hold -> unit -> Prop) : handlers_get hs ev = Ok HDelete -> follow ev c rows -> Q d tt -> bp (p_remove_rows_with pr umax call c ev rows) d Q.
Proof.
  intros Hd F H. unfold p_remove_rows_with. bs. destruct (t_kind t) eqn:Kt; try exact I.
  all: match goal with G : tg false _ ?t, K : t_kind ?t = _ |- _ => pose proof (tg_kind _ _ _ G) as Ks; rewrite K in Ks; symmetry in Ks end; bs.
  all: assert (Kt0 : t_kind t0 = s_kind (sch c)) by (eapply tg_kind; eassumption); rewrite Ks in Kt0.
  - destruct rows as [|rows].
    + match goal with E : Ok _ = Ok _ |- _ => injection E as <- end.
      assert (Kr : t_kind (w_tab (clear_raw (w_new t0))) = Consistent) by exact Kt0.
      unfold clear, event_cleared. rewrite Kr. apply flush_bp; auto; cbn [w_tab w_changes].
      * intros _ i _ _. eapply follow_blame; [exact Hd|exact F|exact I].
      * apply follow_about. exact F.
      * intros _ _ i _. eapply follow_blame; [exact Hd|exact F|exact I].
    + match goal with E : fold_res _ _ _ = Ok _, G : tg false (sch c) t0 |- _ => destruct (removal_effect pr umax (sch c) Ks (w_new t0) rows _ G E) as (_ & Ch & X) end.
      apply flush_bp; auto; rewrite ?Ch; cbn [w_new w_changes]; [|apply about_none|apply doom_none].
      intros _ i Hi Hn. rewrite X in Hn. cbn [w_new w_tab] in Hn. rewrite Hi in Hn. cbn [andb] in Hn. apply negb_false_iff, mem_In in Hn.
      eapply follow_blame; [exact Hd|exact F|exact Hn].
  - assert (Ch : w_changes a = SThese []).
    { destruct rows as [|rows].
      - match goal with E : Ok _ = Ok _ |- _ => injection E as <- end. unfold clear, event_cleared.
        assert (Kr : t_kind (w_tab (clear_raw (w_new t0))) = Sorted) by exact Kt0. rewrite Kr. reflexivity.
      - match goal with E : sorted_remove_rows _ _ = Ok _ |- _ => unfold sorted_remove_rows in E; destruct rows; [injection E as <-; reflexivity|];
          bindn E u1 E1; bindn E u2 E2; bindn E cs E3; injection E as <-; reflexivity end. }
    apply flush_bp; auto; rewrite ?Ch; [|apply about_none|apply doom_none]. intro Kc. congruence.
Qed.
Lemma run_bp hd c ev rows d (Q : hold -> unit -> Prop) : handlers_get hs ev = Ok hd -> follow ev c rows -> Q d tt -> bp (p_run_with pr umax call hd c ev rows) d Q.
Proof.
  intros Hd F H.
  assert (Fin : forall rows, follow ev c rows -> bp (let! _ := take_lock (LT c) false in let! _ := take_lock (LF c) false in
           let! _ := call c ev (ev_creation ev) (ev_removal ev) rows in let! _ := give_lock (LF c) false in give_lock (LT c) false) d Q).
  { intros r Fr. bs. apply CO; [apply follow_about; exact Fr|]. intros sel _. bs. exact H. }
  unfold p_run_with. destruct hd; cbn [p_handle_with].
  - bs. assert (F' : follow ev c (if kind_eqb (t_kind t) Sorted then sel_sort rows else rows)).
    { destruct (kind_eqb _ _); [|exact F]. eapply alike_follow; [apply alike_sort|exact F]. }
    apply remove_bp; [exact Hd|exact F'|]. apply Fin. exact F'.
  - do 4 b1. apply Fin. exact F.
  - exact I.
Qed.
Lemma auto_bp hd p c k key ev rows d (Q : hold -> unit -> Prop) : handlers_get hs ev = Ok hd -> tracked_in h p (TAuto c k key) -> about ev p rows -> Q d tt ->
  bp (p_auto_handle pr umax call hd c k key ev rows) d Q.
Proof.
  intros Hd Tr A H. unfold p_auto_handle. bs. apply run_bp; [exact Hd| |exact H].
  eapply about_follow; [exact A|exact Tr|eassumption|]. eapply select_found; eassumption.
Qed.
Lemma turns_bp p hd ev sel0 l : handlers_get hs ev = Ok hd -> about ev p sel0 -> (forall i tr, In (i, tr) l -> tracked_in h p tr) ->
  forall s d (Q : hold -> select * bool -> Prop), alike sel0 (fst s) -> (forall s, alike sel0 (fst s) -> Q d s) -> bp (p_fold (p_turn pr umax call hd p ev) l s) d Q.
Proof.
  intros Hd A. induction l as [|[i tr] l IH]; intros Tr s d Q Al H; cbn [p_fold]; [bs; apply H; exact Al|].
  bs. assert (T : forall s, alike sel0 (fst s) -> bp (p_fold (p_turn pr umax call hd p ev) l s) d Q).
  { intros s' Al'. apply IH; [intros; eapply Tr; right; eassumption|exact Al'|exact H]. }
  unfold p_turn. cbn [fst snd]. destruct (tracker_considers tr ev); [|bs; apply T; exact Al].
  bs. match goal with |- context [if ?b then sel_sort (fst s) else fst s] => assert (Al' : alike sel0 (if b then sel_sort (fst s) else fst s))
    by (destruct b; [eapply alike_trans; [exact Al|apply alike_sort]|exact Al]) end.
  destruct tr as [c k key|].
  - eapply auto_bp; [exact Hd|apply (Tr i); left; reflexivity|eapply alike_about; [exact Al'|exact A]|]. bs. apply T. exact Al'.
  - bs. apply T. exact Al'.
Qed.
End With.
Lemma do_flush_bp fuel : calls_bp (p_do_flush pr umax fuel).
Proof.
  induction fuel as [|n IH]; intros p ev pushed del sel d Q A H; cbn [p_do_flush]; [exact I|]. bs.
  match goal with E : handlers_get (u_hdl (xu_u ?x)) ev = Ok ?a, Hx : u_hdl (xu_u ?x) = hs |- _ => rewrite Hx in E; rename E into Hd; rename a into hd end.
  apply (turns_bp _ IH p hd ev sel); [exact Hd|exact A| |apply alike_refl|intros s Al; bs; apply H; exact Al].
  intros i tr Hi. apply in_combine_r in Hi. match goal with S : seen ?x, Hi : In tr (u_trackers (xu_u ?x) p) |- _ => destruct S as (c & Hc & Ec); exists c; rewrite Ec; auto end.
Qed.

Variable heads : nat -> header.
Variable foreign : nat -> list (nat * nat).
Variable order : nat -> row -> row -> comparison.
Variable fuel : nat.
Lemma take_all_bp qs d (Q : hold -> unit -> Prop) : Q d tt -> bp (p_take_all qs) d Q.
Proof. intro H. induction qs as [|q qs IH]; cbn [p_take_all]; bs; assumption. Qed.
Lemma give_all_bp qs d (Q : hold -> unit -> Prop) : Q d tt -> bp (p_give_all qs) d Q.
Proof. intro H. induction qs as [|q qs IH]; cbn [p_give_all]; bs; assumption. Qed.
(** What is listed is struck, and to blame for its removal. *)
Lemma listed_doom ev p sel : (match sel with SAll => listed tss h ev p None | SThese l => forall i, In i l -> listed tss h ev p (Some i) end) ->
  about ev p sel /\ doom ev p sel.
Proof.
  intro L. split.
  - destruct sel as [|l]; cbn; [apply struck_listed; exact L|]. intros i Hi. apply struck_listed. auto.
  - intros R _ i Hi. right. destruct sel as [|l]; cbn in *; [exists ev, None|exists ev, (Some i)]; auto.
Qed.
Lemma other_doom ev p t sel : table_in h p t -> t_kind t <> Consistent -> (exists es, session tss p es ev) \/ (exists e, does tss (TDo (XRestore p e ev))) ->
  s_kind (sch p) <> Consistent -> about ev p sel /\ doom ev p sel.
Proof.
  intros Ti K S Ks. assert (L : forall oi, listed tss h ev p oi).
  { intro oi. eapply listed_other; eauto. }
  apply listed_doom. destruct sel; auto.
Qed.
Lemma session_doom p es ev t w : session tss p es ev -> table_in h p t -> tg false (sch p) t -> Forall (op_ty (s_cols (sch p))) es ->
  do_edits pr umax (w_new t) es = Ok w -> lossy p t (w_tab w) /\ about ev p (w_changes w) /\ doom ev p (w_changes w).
Proof.
  intros S Ti G T H. assert (Kt : t_kind t = s_kind (sch p)) by (eapply tg_kind; eassumption).
  destruct (kind_eqb (s_kind (sch p)) Consistent) eqn:Kb.
  - assert (Ks : s_kind (sch p) = Consistent) by (destruct (s_kind (sch p)); try discriminate Kb; reflexivity).
    destruct (edits_listing pr umax (sch p) es t w Ks G T H) as (G' & L & Ch). split; [|apply listed_doom].
    + intros _ i Hi Hn. left. exists es, ev. split; [exact S|eapply L; eauto].
    + destruct (w_changes w) as [|l]; cbn [listing_all] in Ch; [eapply listed_all; eauto|]. intros i Hi.
      destruct (Ch i Hi) as [X|[X|(o & Io & Ip & X)]]; [eapply listed_row; eauto|eapply listed_row; eauto|eapply listed_pushed; eauto].
  - assert (Ks : s_kind (sch p) <> Consistent) by (intro E; rewrite E in Kb; discriminate). split; [intro E; congruence|].
    eapply other_doom; eauto. congruence.
Qed.
Lemma step_bp o : does tss (TDo o) -> ty_ok has sch (TDo o) -> bp (p_step pr umax heads foreign order fuel o) [] (fun d _ => d = []).
Proof.
  intros Io T. destruct o as [p es ev|p es ev|p e ev|p tr|p]; cbn [p_step ty_ok] in *.
  - bs. match goal with E : do_edits _ _ _ _ = Ok _ |- _ => edestruct (session_doom p es ev) as (A1 & A2 & A3); [left; exact Io|eassumption|eassumption|auto|exact E|] end.
    apply (flush_bp _ (do_flush_bp fuel)); auto.
  - bs. match goal with E : do_edits _ _ _ _ = Ok _ |- _ => edestruct (session_doom p es ev) as (A1 & A2 & A3); [right; exact Io|eassumption|eassumption|auto|exact E|] end.
    apply (live_flush_bp _ (do_flush_bp fuel)); auto.
    intro w. bs. apply bp_put; [tauto|apply lossy_refl|]. bs. reflexivity.
  - bs. unfold p_restore_extract. bs. match goal with |- context [match ?v with Some _ => _ | None => _ end] => destruct v end.
    + bs. apply bp_put; [tauto|apply lossy_refl|]. bs. reflexivity.
    + bs. apply take_all_bp. bs. apply bp_still; [auto|]. intros x1 _ _ _. bs. apply give_all_bp.
      match goal with E : snd _ = Ok ?a |- _ => cbn [snd] in E; rename E into He; rename a into s end.
      match goal with E : tg false (sch p) t, E' : table_in h p t |- _ => rename E into G; rename E' into Ti end.
      assert (C : lossy p t (w_tab (fst s)) /\ about ev p (w_changes (fst s)) /\ doom ev p (w_changes (fst s))).
      { assert (Kt : t_kind t = s_kind (sch p)) by (eapply tg_kind; eassumption).
        destruct (kind_eqb (s_kind (sch p)) Consistent) eqn:Kb.
        - assert (Ks : s_kind (sch p) = Consistent) by (destruct (s_kind (sch p)); try discriminate Kb; reflexivity).
          destruct (extract_listing pr umax foreign order sch _ p _ t e s Ks G ltac:(auto) He) as ([P1 P2] & N). split; [|apply listed_doom].
          + intros _ i Hi Hn. rewrite (P1 i Hi) in Hn. discriminate.
          + destruct (w_changes (fst s)) as [|l]; [congruence|]. intros i Hi. destruct (P2 i Hi) as [[]|X]. eapply listed_restored; eauto.
        - assert (Ks : s_kind (sch p) <> Consistent) by (intro E; rewrite E in Kb; discriminate). split; [intro E; congruence|].
          eapply other_doom; eauto. congruence. }
      destruct C as (C1 & C2 & C3). destruct (sel_empty _).
      * bs. apply bp_put; [tauto|exact C1|]. bs. reflexivity.
      * bs. apply bp_still; [intro y; unfold xu_flush; destruct (nth_error (xu_fl y) p); auto|]. intros y _ _ _. bs.
        apply (flush_bp _ (do_flush_bp fuel)); auto.
  - bs. apply bp_still; [auto|]. intros x _ _ _. bs. apply bp_still; [auto|]. intros y _ _ _. bs. reflexivity.
  - bs. apply bp_still; [intro y; unfold xu_flush; destruct (nth_error (xu_fl y) p); auto|]. intros y _ _ _. bs. reflexivity.
Qed.
Lemma locks_bp ls : forall d (Q : hold -> unit -> Prop), Q d tt -> bp (p_locks ls) d Q.
Proof. induction ls as [|[q [|]] ls IH]; intros d Q H; cbn [p_locks]; bs; try exact H; apply IH; bs; exact H. Qed.
Lemma run_all_bp l : (forall o, In o l -> does tss o) -> Forall (ty_ok has sch) l -> bp (Threads.p_run pr umax heads foreign order fuel l) [] (fun d _ => d = []).
Proof.
  unfold Threads.p_run. generalize tt. induction l as [|o l IH]; intros u In' F; cbn [p_fold]; [bs; reflexivity|].
  apply Forall_cons_iff in F. destruct F as [O F]. apply bp_bind. eapply (bp_mono _ _ (fun d _ => d = [])); [intros d a ->; apply IH; [intros; apply In'; right; assumption|exact F]|].
  destruct o as [o|p ev sel|ls]; cbn [p_top].
  - apply step_bp; [apply In'; left; reflexivity|exact O].
  - unfold p_select. bs. apply (do_flush_bp fuel); [|intros s _; bs; reflexivity].
    assert (D : does tss (TSelect p ev sel)) by (apply In'; left; reflexivity).
    destruct sel as [|l0]; cbn; [eapply struck_selected; [exact D|exact I]|]. intros i Hi. eapply struck_selected; [exact D|exact Hi].
  - apply locks_bp. reflexivity.
Qed.
End Blame.

(** ** All threads *)
Section All.
Variables (pr : profile) (has : nat -> Prop) (sch : nat -> schema) (tss : list (list top)) (h0 : list threads) (hs : list handler).
Notation bp := (bp has sch tss h0 hs).
Definition bok (x : xuni) (t : guards * prog unit) : Prop :=
  exists d, bp (snd t) d (fun _ _ => True) /\ NoDup (map fst d) /\ Forall (fun e => In (LT (fst e), true) (owned t)) d /\ agrees d x.
Lemma bok_of x g m d : bp m d (fun _ _ => True) -> NoDup (map fst d) -> Forall (fun e => In (LT (fst e), true) g) d -> agrees d x -> bok x (g, m).
Proof.
  intros V N F A. destruct m as [[a|e]| | | |]; [|exists []; split; [exact I|]; repeat constructor|..]; (exists d; split; [exact V|]; split; [exact N|]; split; [exact F|exact A]).
Qed.
Definition all_bok (c : threads) : Prop := Forall (bok (th_x c)) (th_ts c) /\ u_hdl (xu_u (th_x c)) = hs.
(** Other threads' steps leave the tables that this one has locked. *)
Lemma bok_other x y g t : keeps g x y -> (forall p, In (LT p, true) (owned t) -> ~ In (LT p, true) g) -> bok x t -> bok y t.
Proof.
  intros K N (d & V & D & F & A). exists d. split; [exact V|]. split; [exact D|]. split; [exact F|]. unfold agrees in *. rewrite Forall_forall in *. intros e He.
  destruct (K (fst e)) as [[E|E] _]; [rewrite E; apply A; exact He|]. elim (N _ (F e He) E).
Qed.
Lemma all_bok_step c c' : In c h0 -> thread_step c c' -> all_own c -> all_safe pr has sch c -> all_bok c ->
  all_bok c' /\ loses tss h0 hs (th_x c) (th_x c').
Proof.
  intros Hin S [O Ap] [Ix _] [V Hh]. unfold all_bok in *.
  destruct S as [x a g l wr k b M|x a g l wr k b M|x a g l wr k b|x a g B f k b]; cbn [th_x th_ts] in *;
    assert (V' := V); apply Forall_app in V'; destruct V' as [Va Vb]; apply Forall_cons_iff in Vb; destruct Vb as [Vt Vb].
  - split; [|apply loses_refl]. split; [|exact Hh]. apply Forall_app. split; [exact Va|]. constructor; [|exact Vb].
    destruct Vt as (d & Vm & D & F & A). cbn [snd BlameFacts.bp] in Vm.
    assert (Fo : forall e, In e d -> In (LT (fst e), true) g) by (rewrite Forall_forall in F; exact F).
    assert (Keep : bp k d (fun _ _ => True) -> bok x ((l, wr) :: g, k)).
    { intro V'. apply (bok_of _ _ _ d); auto. apply Forall_forall. intros e He. right. auto. }
    destruct l as [p|p]; [|apply Keep; exact Vm]. destruct wr; [|apply Keep; exact Vm].
    assert (N : ~ In p (map fst d)).
    { intro Hp. apply in_map_iff in Hp. destruct Hp as (e & <- & He). destruct M as [M _]. specialize (M (g, Acq (LT (fst e)) true k)).
      cbn [th_ts] in M. assert (L := M ltac:(apply in_elt)). destruct (lets_in _ _ _ _ L (Fo e He)). discriminate. }
    apply (bok_of _ _ _ ((p, nth_error (u_tabs (xu_u x)) p) :: d)).
    + apply Vm. exact N.
    + constructor; assumption.
    + constructor; [left; reflexivity|]. apply Forall_forall. intros e He. right. auto.
    + constructor; [reflexivity|exact A].
  - split; [|apply loses_refl]. split; [|exact Hh]. apply Forall_app. split; [exact Va|]. constructor; [|exact Vb]. exists []. split; [exact I|]. repeat constructor.
  - split; [|apply loses_refl]. split; [|exact Hh]. apply Forall_app. split; [exact Va|]. constructor; [|exact Vb].
    destruct Vt as (d & Vm & D & F & A). cbn [snd BlameFacts.bp] in Vm.
    assert (Fo : forall e, In e d -> In (LT (fst e), true) g) by (rewrite Forall_forall in F; exact F).
    assert (Keep : (forall q, l <> LT q \/ wr <> true) -> bp k d (fun _ _ => True) -> bok x (drop_guard l wr g, k)).
    { intros Ne V'. apply (bok_of _ _ _ d); auto. apply Forall_forall. intros e He. apply in_drop_f; auto. }
    destruct l as [p|p]; [|apply Keep; [left; discriminate|exact Vm]]. destruct wr; [|apply Keep; [right; discriminate|exact Vm]].
    apply (bok_of _ _ _ (h_drop p d)).
    + exact Vm.
    + clear - D. induction d as [|e d IH]; cbn; [constructor|]. cbn [map] in D. apply NoDup_cons_iff in D. destruct D as [D1 D2].
      destruct (negb (fst e =? p)); [|auto]. cbn [map]. constructor; [|apply IH; exact D2]. intro H. apply D1.
      apply in_map_iff in H. destruct H as (e' & <- & He'). apply filter_In in He'. apply in_map. apply He'.
    + apply Forall_forall. intros e He. apply filter_In in He. destruct He as [He Hp]. apply in_drop; [|auto].
      destruct (Nat.eqb_spec (fst e) p); [discriminate|assumption].
    + unfold agrees in *. rewrite Forall_forall in *. intros e He. apply filter_In in He. apply A. apply He.
  - apply Forall_app in O. destruct O as [_ Ob]. apply Forall_cons_iff in Ob. destruct Ob as [Ot _].
    destruct (Ot x) as [K _].
    assert (Oth : forall s, In s (a ++ b) -> forall p, In (LT p, true) (owned s) -> ~ In (LT p, true) g).
    { intros s Hs p H1 H2.
      assert (Et : nth_error (a ++ (g, Act f k) :: b) (length a) = Some (g, Act f k)) by (rewrite nth_error_app2, Nat.sub_diag by lia; reflexivity).
      assert (Dj : exists j, j <> length a /\ nth_error (a ++ (g, Act f k) :: b) j = Some s).
      { apply in_app_iff in Hs. destruct Hs as [Hs|Hs]; apply In_nth_error in Hs; destruct Hs as [j Ej].
        - assert (j < length a) by (apply nth_error_Some; congruence). exists j. split; [lia|]. rewrite nth_error_app1 by lia. exact Ej.
        - exists (length a + Datatypes.S j). split; [lia|]. rewrite nth_error_app2 by lia. replace (length a + Datatypes.S j - length a) with (Datatypes.S j) by lia. exact Ej. }
      destruct Dj as (j & Nj & Ej). destruct (Ap _ _ _ _ Nj Ej Et (LT p) true true H1 H2). discriminate. }
    assert (Imp : forall l, (forall s, In s l -> In s (a ++ b)) -> Forall (bok x) l -> Forall (bok (fst (f x))) l).
    { intros l Hl F. rewrite Forall_forall in *. intros s Hs. eapply bok_other; [exact K|apply Oth; apply Hl; exact Hs|apply F; exact Hs]. }
    destruct Vt as (d & Vm & D & F & A). cbn [snd BlameFacts.bp] in Vm.
    destruct (Vm x ltac:(eexists; split; [exact Hin|reflexivity]) Ix Hh A) as (L & Hh' & d' & E & A' & V').
    split; [|exact L]. split; [|exact Hh'].
    apply Forall_app. split; [apply Imp; [intros; apply in_or_app; auto|exact Va]|]. constructor; [|apply Imp; [intros; apply in_or_app; auto|exact Vb]].
    apply (bok_of _ _ _ d'); [exact V'|rewrite E; exact D| |exact A'].
    cbn in F. clear - E F. revert d' E. induction F as [|e d He F IH]; intros [|e' d'] E; cbn in E; try discriminate; [constructor|].
    injection E as E1 E2. constructor; [rewrite E1; exact He|apply IH; exact E2].
Qed.
End All.
Lemma history_steps c0 h c : history c0 h c -> thread_steps c0 c.
Proof. induction 1; [constructor|econstructor; eauto]. Qed.
Lemma history_in c0 h c : history c0 h c -> In c h.
Proof. intros [|]; left; reflexivity. Qed.
Lemma losses pr umax heads foreign order fuel x tss h c c' p t t' i :
  made pr umax (xu_u x) -> (forall p t, nth_error (u_tabs (xu_u x)) p = Some t -> pr = Debug \/ t_kind t <> Bag) ->
  Forall (Forall (top_ty (xu_u x))) tss ->
  history (started x (map (Threads.p_run pr umax heads foreign order fuel) tss)) h c -> thread_step c c' ->
  nth_error (u_tabs (xu_u (th_x c))) p = Some t -> nth_error (u_tabs (xu_u (th_x c'))) p = Some t' -> t_kind t = Consistent ->
  t_contains t i = true -> t_contains t' i = false -> blame tss h (u_hdl (xu_u x)) p i.
Proof.
  intros M B T S St Et Et' Kt Hi Hn. destruct (started_safe pr umax heads foreign order fuel x tss M B T) as (has & sch & _ & NB & Ty & Safe).
  set (hs := u_hdl (xu_u x)).
  assert (V0 : all_bok has sch tss h hs (started x (map (Threads.p_run pr umax heads foreign order fuel) tss))).
  { split; [|reflexivity]. unfold started. cbn [th_x th_ts]. rewrite map_map. apply Forall_forall. intros y Hy. apply in_map_iff in Hy. destruct Hy as (ops & <- & Ho).
    exists []. split; [|repeat constructor]. cbn [snd]. eapply bp_mono; [intros; exact I|]. apply run_all_bp; auto.
    - intros o Hio. exists ops. auto.
    - rewrite Forall_forall in Ty. auto. }
  assert (V : forall h' c1, history (started x (map (Threads.p_run pr umax heads foreign order fuel) tss)) h' c1 -> (forall y, In y h' -> In y h) ->
     all_bok has sch tss h hs c1 /\ all_own c1 /\ all_safe pr has sch c1).
  { clear - Safe V0. intros h' c1 S. induction S as [|h1 c1 c2 S IH S']; intro Sub.
    - split; [exact V0|]. split; [apply started_own|exact Safe].
    - destruct IH as (V & O & Sf). { intros y Hy. apply Sub. right. exact Hy. }
      split; [|split].
      + eapply (all_bok_step pr); eauto. apply Sub. right. eapply history_in; eauto.
      + eapply all_own_step; eauto.
      + eapply all_safe_step; eauto. }
  destruct (V h c S (fun y Hy => Hy)) as (Vc & O & Sf).
  destruct (all_bok_step pr has sch tss h hs c c' (history_in _ _ _ S) St O Sf Vc) as [_ L]. exact (L p t t' Et Et' Kt i Hi Hn).
Qed.

(** ** From the beginning to the end *)
Lemma table_in_more h h' p t : incl h h' -> table_in h p t -> table_in h' p t.
Proof. intros I (c & H & E). exists c. auto. Qed.
Lemma listed_more tss h h' ev p oi : incl h h' -> listed tss h ev p oi -> listed tss h' ev p oi.
Proof.
  intros I H. destruct H as [es i S E|es S E|es o i t S E Pu T N|e i t S T N|oi t S T N].
  - eapply listed_row; eauto.
  - eapply listed_all; eauto.
  - eapply listed_pushed; eauto. eapply table_in_more; eauto.
  - eapply listed_restored; eauto. eapply table_in_more; eauto.
  - eapply listed_other; eauto. eapply table_in_more; eauto.
Qed.
Lemma leads_more h h' q oi c oj : incl h h' -> leads h q oi c oj -> leads h' q oi c oj.
Proof.
  intros I (k & key & (x & Hx & Tr) & H). exists k, key. split; [exists x; auto|].
  destruct oi, oj; auto. destruct H as (t & T & R). exists t. split; [eapply table_in_more; eauto|exact R].
Qed.
Lemma struck_more tss h h' ev p oi : incl h h' -> struck tss h ev p oi -> struck tss h' ev p oi.
Proof.
  intros I H. induction H as [p oi L|p sel oi D M|q oi c oj S IH L].
  - apply struck_listed. eapply listed_more; eauto.
  - eapply struck_selected; eauto.
  - eapply struck_leads; [exact IH|]. eapply leads_more; eauto.
Qed.
Lemma blame_more tss h h' hs p i : incl h h' -> blame tss h hs p i -> blame tss h' hs p i.
Proof.
  intros I [H|(ev & oi & E & [[R L]|(Hd & q & oq & S & L)])]; [left; exact H| |]; right; exists ev, oi; (split; [exact E|]).
  - left. split; [exact R|eapply listed_more; eauto].
  - right. split; [exact Hd|]. exists q, oq. split; [eapply struck_more; eauto|eapply leads_more; eauto].
Qed.
Lemma losses_ever pr umax heads foreign order fuel x tss h c p t t' i :
  made pr umax (xu_u x) -> (forall p t, nth_error (u_tabs (xu_u x)) p = Some t -> pr = Debug \/ t_kind t <> Bag) ->
  Forall (Forall (top_ty (xu_u x))) tss ->
  history (started x (map (Threads.p_run pr umax heads foreign order fuel) tss)) h c ->
  nth_error (u_tabs (xu_u x)) p = Some t -> nth_error (u_tabs (xu_u (th_x c))) p = Some t' -> t_kind t = Consistent ->
  t_contains t i = true -> t_contains t' i = false -> blame tss h (u_hdl (xu_u x)) p i.
Proof.
  intros M B T S Et Et' Kt Hi. revert t' Et'. remember (started x _) as c0 eqn:E0. induction S as [|h c c' S IH S']; subst.
  - intros t' Et'. cbn [started th_x] in Et'. replace t' with t by congruence. congruence.
  - intros t2 Et2 Hn.
    pose proof (history_steps _ _ _ S) as S1.
    pose proof (step_length _ _ (all_read_steps _ _ S1 (started_read pr umax heads foreign order fuel x tss)) S') as Len.
    destruct (nth_error (u_tabs (xu_u (th_x c))) p) as [t1|] eqn:Et1.
    2:{ exfalso. apply nth_error_None in Et1. assert (p < length (u_tabs (xu_u (th_x c')))) by (apply nth_error_Some; congruence). lia. }
    apply (blame_more tss h); [intros y Hy; right; exact Hy|].
    destruct (t_contains t1 i) eqn:H1; [|exact (IH t1 eq_refl H1)].
    destruct (started_safe pr umax heads foreign order fuel x tss M B T) as (has & sch & Hx & NB & Ty & Safe).
    destruct (all_safe_steps _ _ _ _ _ S1 Safe) as [I1 _]. destruct (I1 _ _ Et1) as [Hp G]. destruct (Hx p Hp) as (t0 & Et0 & Es).
    assert (Kt1 : t_kind t1 = Consistent) by (rewrite (tg_kind _ _ _ G), Es; replace t0 with t by congruence; exact Kt).
    exact (losses pr umax heads foreign order fuel x tss h c c' p t1 t2 i M B T S S' Et1 Et2 Kt1 H1 Hn).
Qed.
(** ** Threads that remove nothing *)
Lemma listed_raises tss h ev p oi : listed tss h ev p oi -> raises tss ev.
Proof.
  intros [es i S E|es S E|es o i t S E Pu T N|e i t S T N|oi' t S T N].
  1-3: destruct S as [S|S]; exists p; [left|right; left]; eauto.
  - exists p. right; right; left. eauto.
  - exists p. destruct S as [[es [S|S]]|[e S]]; [left|right; left|right; right; left]; eauto.
Qed.
Lemma struck_raises tss h ev p oi : struck tss h ev p oi -> raises tss ev.
Proof.
  induction 1 as [p oi L|p sel oi D M|q oi c oj S IH L].
  - eapply listed_raises; eauto.
  - exists p. right; right; right. eauto.
  - exact IH.
Qed.
Lemma harmless_blame tss h hs p i : (forall ev, raises tss ev -> ev_removal ev = false /\ handlers_get hs ev <> Ok HDelete) ->
  (forall p es ev, session tss p es ev -> ~ In OClearRaw es) -> ~ blame tss h hs p i.
Proof.
  intros R C [(es & ev & S & H)|(ev & oi & E & [[Rm L]|(Hd & q & oq & S & L)])].
  - exact (C _ _ _ S H).
  - destruct (R ev (listed_raises _ _ _ _ _ L)). congruence.
  - destruct (R ev (struck_raises _ _ _ _ _ S)). contradiction.
Qed.
Lemma bystander tss h hs p i : (forall q k key, ~ tracked_in h q (TAuto p k key)) -> blame tss h hs p i ->
  (exists es ev, session tss p es ev /\ In OClearRaw es) \/
  exists ev oi, (oi = Some i \/ oi = None) /\ ev_removal ev = true /\ listed tss h ev p oi.
Proof.
  intros N [H|(ev & oi & E & [[Rm L]|(Hd & q & oq & S & (k & key & Tr & _))])]; [left; exact H| |exfalso; exact (N _ _ _ Tr)].
  right. exists ev, oi. auto.
Qed.
