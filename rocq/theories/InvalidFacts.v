(** Proofs about the row id that stands for no row. *)
From Coq Require Import List Arith Bool Lia.
From Verif Require Import Base BaseFacts Column ColumnFacts Order RowRange Table TableFacts SortedTab BagTab TableSpec Hist HistFacts TableProps RowProps
  Events Cascade CascadeSpec CascadeProps CascadeFacts Extract ExtractSpec ExtractFacts ExtractProps Invalid InvalidSpec.
Import ListNotations.

Lemma absent_get t : not_full t -> t_contains t (invalid (t_sch t)) = false /\ t_get_row t (invalid (t_sch t)) = panic PIndexOOB.
Proof.
  unfold not_full. intro N. unfold t_contains, t_get_row, t_check.
  rewrite (proj2 (Nat.ltb_ge _ _) N), (proj2 (Nat.leb_le _ _) N). split; reflexivity.
Qed.

Lemma absent_read pr umax s st k : reachable pr umax s st ->
  not_full (st_tab st) -> k < length (s_cols s) -> t_read (st_tab st) k (invalid (t_sch (st_tab st))) = panic PIndexOOB.
Proof.
  intros R F L. destruct (reachable_tg _ _ _ _ R) as (E & live & rows & K & _).
  unfold t_read. rewrite <- E, <- (cols_len_eq _ _ _ K) in L. destruct (nth_error_lt_Some (t_cols (st_tab st)) k L) as [c Hc]. rewrite Hc.
  pose proof (cols_ok_lengths _ _ _ _ _ (ok_cols _ _ _ K)) as G. rewrite Forall_forall in G.
  apply nth_error_In in Hc. apply G in Hc. unfold c_get. unfold not_full in F. rewrite (t_len_ok _ _ _ K) in F.
  rewrite Hc, (proj2 (Nat.leb_le _ _) F). reflexivity.
Qed.

Lemma absent_delete pr umax w w' : not_full (w_tab w) -> delete pr umax w (invalid (t_sch (w_tab w))) <> Ok w'.
Proof.
  unfold not_full. intro N. unfold delete, t_check. rewrite (proj2 (Nat.leb_le _ _) N). destruct (t_kind _); discriminate.
Qed.

Lemma push_sch w r w' i : push w r = Ok (w', i) -> t_sch (w_tab w') = t_sch (w_tab w).
Proof.
  unfold push, push_end_unchecked, push_only_unchecked, swap_out_row. intro H. destruct (t_free (w_tab w)) as [|old f].
  - bindn H q Hq. bindn Hq cs Hc. bindn Hq l Hl. destruct l; [|discriminate]. injection Hq as <-. injection H as <- _.
    cbn. unfold event_add. destruct (t_kind _); reflexivity.
  - bindn H q Hq. bindn Hq a Ha. injection H as <- _.
    match type of Hq with context [if ?b then _ else _] => destruct b end; [|discriminate].
    bindn Hq ps Hp. injection Hq as <-. cbn. unfold event_add. destruct (t_kind _); reflexivity.
Qed.

Lemma absent_push pr umax s w its r w' : reachable pr umax s (Locked w its) -> row_ty (s_cols s) r ->
  push w r = Ok (w', invalid s) -> ~ not_full (w_tab w').
Proof.
  intros R T P. pose proof (push_reachable pr umax s w its r R T) as H. cbn zeta in H. rewrite P in H.
  destruct H as (_ & G & _). intro N. pose proof (absent_get _ N) as [_ Q].
  destruct (reachable_tg _ _ _ _ R) as (E & _). cbn in E. rewrite (push_sch _ _ _ _ P), E, G in Q. discriminate.
Qed.

Lemma doomed_row u p ids q i t : nth_error (u_tabs u) p = Some t -> Forall (fun i => i < t_len t) ids ->
  doomed u p ids q i -> exists t, nth_error (u_tabs u) q = Some t /\ i < t_len t.
Proof.
  intros Et F D. destruct D as [i Hi|q i c k key j D Ht (t' & r & E & G & _)].
  - exists t. split; auto. rewrite Forall_forall in F. auto.
  - exists t'. split; auto. unfold t_get_row in G. destruct (t_check t' j) as [a|] eqn:C; [|discriminate].
    unfold t_check in C. destruct (t_len t' <=? j) eqn:L; [discriminate|]. apply Nat.leb_gt in L. exact L.
Qed.

Lemma nothing_kept u p ids c j t : nth_error (u_tabs u) p = Some t -> Forall (fun i => i < t_len t) ids ->
  refers_to_nothing u c j -> ~ (c = p /\ In j ids) -> ~ doomed u p ids c j.
Proof.
  intros Et F N A D. inversion D as [i Hi|q i c' k key j' Dq Ht R]; subst; [tauto|].
  destruct (N _ _ _ _ Ht R) as (tq & Eq & Nf & ->).
  destruct (doomed_row _ _ _ _ _ _ Et F Dq) as (tq' & Eq' & L). unfold not_full in Nf. rewrite Eq in Eq'. injection Eq' as <-. lia.
Qed.

Lemma flush_keeps pr umax rank u p w ids ev :
  linked pr umax rank u -> plain_removal ev -> nth_error (u_hdl u) (ev_id ev) = Some HDelete ->
  nth_error (u_tabs u) p = Some (w_tab w) -> sane pr umax (t_sch (w_tab w)) (Locked w []) ->
  t_kind (w_tab w) = Consistent -> w_changes w = SThese ids -> w_pushed w && w_delete w = false ->
  Forall (fun i => i < t_len (w_tab w)) ids -> no_repeats u ids ->
  forall fuel u' q c k key t j r, rank p < fuel -> flush pr umax fuel u [] p w ev = Ok u' ->
  In (TAuto c k key) (u_trackers u q) -> nth_error (u_tabs u) c = Some t -> t_get_row t j = Ok r -> refers_to_nothing u c j -> ~ (c = p /\ In j ids) ->
  exists t' j', nth_error (u_tabs u') c = Some t' /\ t_get_row t' j' = Ok r /\ (t_kind t = Consistent -> j' = j).
Proof.
  intros L PE HD Et S Kc Ec PD F NR fuel u' q c k key t j r Rk Fl Ht Ec' G N A.
  destruct (flush_cascade pr umax rank u p w ids ev L PE HD Et S Kc Ec PD F NR fuel Rk) as (u1 & Fl' & _ & _ & _ & H).
  rewrite Fl in Fl'. injection Fl' as <-. destruct (H c t Ec') as (t' & Et' & _ & Lo & _).
  pose proof (nothing_kept _ _ _ _ _ _ Et F N A) as ND.
  unfold loses in Lo. destruct (t_kind t) eqn:Kt.
  1,3,4: exists t', j; subst t'; auto.
  - exists t', j. split; [exact Et'|]. split; [apply Lo; auto|auto].
  - destruct (proj1 L _ _ _ _ Ht) as (_ & t0 & b & E0 & Sn & _). rewrite Ec' in E0. injection E0 as <-.
    destruct (sane_exact _ _ _ Sn) as [rows X]; [congruence|].
    destruct Lo as (dead & Dd & Hd). assert (Hs : holds t rows) by (apply (holds_of t (live_of t)); [apply X|congruence]).
    pose proof (Hd _ Hs) as [_ Gd]. destruct Hs as [Hl Hg].
    assert (Lj : j < t_len t) by (unfold t_get_row, t_check in G; destruct (t_len t <=? j) eqn:Q; [discriminate|apply Nat.leb_gt in Q; exact Q]).
    rewrite Hl in Lj. destruct (nth_error_lt_Some _ _ Lj) as [r' Hr]. pose proof (Hg _ _ Hr) as G'. rewrite G in G'. injection G' as <-.
    destruct (without_pos rows dead j r Hr) as (j' & E & _).
    { intro I. apply Dd in I; [tauto|lia]. }
    exists t', j'. split; [exact Et'|]. split; [apply Gd; exact E|discriminate].
Qed.

Lemma nothing_not_saved pr umax head t sel e : reachable pr umax (t_sch t) (Free t) ->
  extract_selection pr head t sel = Ok e -> not_full t -> ~ In (invalid (t_sch t)) (ex_sel e).
Proof.
  intros R E N I. destruct (reachable_tg _ _ _ _ R) as (_ & live & rs & K & _). cbn [st_tab] in K.
  destruct (extract_ok pr head t live rs K sel e E) as (_ & _ & F & _). rewrite Forall_forall in F. apply F in I.
  unfold not_full in N. rewrite (t_len_ok _ _ _ K) in N. lia.
Qed.
