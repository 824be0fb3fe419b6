(** Proofs about bringing back rows that were deleted. *)
From Coq Require Import List Arith Bool Lia.
From Verif Require Import Base BaseFacts Column ColumnFacts Order RowRange RowRangeFacts Table TableFacts SortedTab BagTab TableSpec Hist HistFacts TableProps RowProps
  Events Cascade CascadeSpec CascadeFacts CascadeClear CascadeCalls CascadeProps Extract ExtractSpec ExtractFacts RestoreFacts InvalidFacts ExtractProps IntegritySpec IntegrityFacts MirrorSpec MirrorFacts
  BackupSpec BackupFacts ImportSpec ImportFacts LifeSpec LifeFacts LiveSpec LiveFacts RepushSpec RepushFacts ClearSpec ClearFacts MixSpec MixFacts UndoSpec.
Import ListNotations.

Lemma run_app pr umax ops ops' : forall st, run pr umax st (ops ++ ops') = let* st := run pr umax st ops in run pr umax st ops'.
Proof.
  unfold run. induction ops as [|o ops IH]; intro st; [reflexivity|]. cbn [app fold_res]. destruct (step pr umax st o) as [st1|e]; cbn [bind]; [apply IH|reflexivity].
Qed.
Lemma sane_reachable pr umax sch st : sane pr umax sch st -> reachable pr umax sch st.
Proof.
  induction 1 as [C|st o st' S (C & ops & F & R) T So E].
  - split; [exact C|]. exists []. split; [constructor|reflexivity].
  - split; [exact C|]. exists (ops ++ [o]). split; [apply Forall_app; split; [exact F|repeat constructor; exact T]|]. rewrite run_app, R. cbn [bind]. unfold run. cbn [fold_res]. rewrite E. reflexivity.
Qed.
(** Deleted rows make room. *)
Lemma room t t' l : NoDup l -> (forall i, In i l -> t_contains t' i = false /\ i < t_len t) -> t_len t' = t_len t -> rows_in t' + length l <= t_len t.
Proof.
  intros Nd H L. unfold rows_in. rewrite <- app_length. rewrite <- (seq_length (t_len t) 0). apply NoDup_incl_length.
  - apply NoDup_app_disjoint; [apply NoDup_filter, seq_NoDup|exact Nd|]. intros i I1 I2. apply filter_In in I1. destruct I1 as [_ I1]. apply H in I2. destruct I2 as [I2 _]. congruence.
  - intros i I. apply in_app_or in I. destruct I as [I|I].
    + apply filter_In in I. rewrite L in I. apply I.
    + apply in_seq. apply H in I. lia.
Qed.
Lemma without_none {A} ids (rows : list A) : forall n, (forall j, n <= j < n + length rows -> ~ In j ids) -> without n rows ids = rows.
Proof.
  induction rows as [|x rows IH]; intros n H; [reflexivity|]. cbn [without]. destruct (mem n ids) eqn:M.
  - apply mem_In in M. exfalso. apply (H n); [cbn; lia|exact M].
  - f_equal. apply IH. intros j J. apply H. cbn. lia.
Qed.
Lemma get_nth t live rows i r : t_ok t live rows -> t_kind t <> Consistent -> t_get_row t i = Ok r <-> nth_error rows i = Some r.
Proof.
  intros K N. rewrite (t_get_row_inv _ _ _ K), (t_deleted_iff _ _ _ K), (ok_free_kind _ _ _ K N). cbn. tauto.
Qed.
Lemma loses_nothing dead t t' live live' rows rows' : t_ok t live rows -> t_ok t' live' rows' -> t_sch t' = t_sch t -> loses dead t t' -> (forall i, ~ dead i) ->
  forall i r, t_get_row t' i = Ok r <-> t_get_row t i = Ok r.
Proof.
  intros K K' Es Lo Nd i r. assert (Ek : t_kind t' = t_kind t) by (unfold t_kind; congruence). unfold loses in Lo. destruct (t_kind t) eqn:Kd; try (rewrite Lo; reflexivity).
  - destruct Lo as [_ Lo]. rewrite Lo. specialize (Nd i). tauto.
  - destruct Lo as (ids & Hi & Hh). assert (N : t_kind t <> Consistent) by congruence. assert (N' : t_kind t' <> Consistent) by congruence.
    pose proof (holds_of _ _ _ K N) as Ho. pose proof (Hh _ Ho) as H'. rewrite without_none in H'.
    + pose proof (holds_unique _ _ _ H' (holds_of _ _ _ K' N')) as <-. rewrite (get_nth _ _ _ i r K N), (get_nth _ _ _ i r K' N'). reflexivity.
    + intros j [_ J] I. apply (Nd j). apply Hi; [|exact I]. destruct Ho as [-> _]. exact J.
Qed.

Section U.
Variables (pr : profile) (umax fuel : nat) (heads : nat -> header) (foreign : nat -> list (nat * nat)) (null : nat -> nat -> Prop)
  (rank : nat -> nat) (order : nat -> row -> row -> comparison).
Hypothesis Or : forall c, total_preorder (order c).
Hypothesis Rk : forall p, rank p < fuel.
Variables (fussy : bool) (x0 x : xuni).
Hypothesis W : wired rank order (xu_u x0).
Hypothesis N : all_new (xu_u x0).
Hypothesis U : unmapped x0.
Hypothesis D : declared foreign (xu_u x0).
Hypothesis G : runs fussy pr umax fuel heads foreign null order x0 x None.

(** [x1] is [x] but for the rows that are [lost]. *)
Lemma undo_from (lost : nat -> nat -> Prop) x1 ev' ps sel : runs fussy pr umax fuel heads foreign null order x0 x1 None -> xu_fl x1 = xu_fl x ->
  u_hdl (xu_u x1) = u_hdl (xu_u x) -> length (u_tabs (xu_u x1)) = length (u_tabs (xu_u x)) ->
  (forall c i, lost c i -> exists tc r, nth_error (u_tabs (xu_u x)) c = Some tc /\ t_get_row tc i = Ok r) ->
  (forall q i c k key j, lost q i -> In (TAuto c k key) (u_trackers (xu_u x) q) -> refers (xu_u x) c k j i -> lost c j) ->
  (forall c tc, nth_error (u_tabs (xu_u x)) c = Some tc -> exists tc', nth_error (u_tabs (xu_u x1)) c = Some tc' /\ t_sch tc' = t_sch tc /\
     (forall i r, t_get_row tc' i = Ok r <-> t_get_row tc i = Ok r /\ ~ lost c i) /\ (In c ps -> rows_in tc' + length (sel c) <= t_len tc)) ->
  handled_by_nothing (xu_u x) ev' ->
  cascading foreign (xu_u x) -> covers x lost ps sel -> in_order_but (stays_put x ps) foreign ps -> self_contained foreign x lost ps ->
  exists es x2 f,
    (forall c, In c ps -> exists tc, nth_error (u_tabs (xu_u x)) c = Some tc /\ extract_selection pr (heads c) tc (SThese (sel c)) = Ok (es c)) /\
    restore_all pr umax heads foreign order fuel es ev' ps x1 x2 /\
    runs fussy pr umax fuel heads foreign null order x0 x2 None /\
    renumbered foreign f (xu_u x) (xu_u x2) /\ forall c i, ~ lost c i -> f c i = i.
Proof.
  intros G1 Efl Eh Eln Lg Ld T [HR HN] Ca (Np & Cv & Cs) Io Sc. pose proof (la_inv _ _ _ _ _ _ _ _ (runs_lasting _ _ _ _ _ _ _ _ Or Rk _ _ _ _ W N U D G)) as V.
  pose proof (la_inv _ _ _ _ _ _ _ _ (runs_lasting _ _ _ _ _ _ _ _ Or Rk _ _ _ _ W N U D G1)) as V1.
  set (dummy := EX (heads 0) [] []).
  set (es := fun c => match nth_error (u_tabs (xu_u x)) c with Some tc => match extract_selection pr (heads c) tc (SThese (sel c)) with Ok e => e | Err _ => dummy end | None => dummy end).
  set (src := fun c => match nth_error (u_tabs (xu_u x)) c with Some tc => tc | None => t_new (Sch Consistent 0 []) end).
  assert (Ok0 : forall c tc, nth_error (u_tabs (xu_u x)) c = Some tc -> exists live rows, t_ok tc live rows).
  { intros c tc Hc. destruct (i_tg _ _ _ _ _ _ V _ _ Hc) as (_ & live & rows & K & _). eauto. }
  assert (Ok1 : forall c tc, nth_error (u_tabs (xu_u x1)) c = Some tc -> exists live rows, t_ok tc live rows).
  { intros c tc Hc. destruct (i_tg _ _ _ _ _ _ V1 c _ Hc) as (_ & live & rows & K & _). eauto. }
  assert (Tb : forall c, In c ps -> exists tc, nth_error (u_tabs (xu_u x)) c = Some tc /\ src c = tc /\ t_kind tc = Consistent /\ reachable pr umax (t_sch tc) (Free tc) /\ t_len tc <= t_imax tc /\
    extract_selection pr (heads c) tc (SThese (sel c)) = Ok (es c) /\ ex_sel (es c) = sel c).
  { intros c Ic. destruct (Cs c Ic) as ((tc & f & Hc & Kc & _) & Ns & Hs). exists tc. split; [exact Hc|]. unfold src, es. rewrite Hc. split; [reflexivity|]. split; [exact Kc|].
    destruct (i_sane _ _ _ _ _ _ V _ _ Hc) as [Sa Lc]; [left; exact Kc|]. apply sane_reachable in Sa. split; [exact Sa|]. split; [exact Lc|].
    destruct (Ok0 _ _ Hc) as (live & rows & K).
    assert (In_len : forall i, In i (sel c) -> i < t_len tc).
    { intros i Hi. apply Hs in Hi. destruct (Lg _ _ Hi) as (tc2 & r & Hc2 & Gr). rewrite Hc in Hc2. injection Hc2 as <-.
      rewrite (t_len_ok _ _ _ K). apply (t_get_row_inv _ _ _ K) in Gr. eapply nth_error_Some_lt; apply Gr. }
    destruct (extract_succeeds pr umax (heads c) tc (SThese (sel c)) Sa) as [e Ee].
    { split; [apply Forall_forall; exact In_len|]. assert (length (sel c) <= length (seq 0 (t_len tc))); [|rewrite seq_length in *; lia].
      apply NoDup_incl_length; [exact Ns|]. intros i Hi. apply in_seq. apply In_len in Hi. lia. }
    rewrite Ee. split; [reflexivity|]. exact (extract_selects pr umax _ _ _ _ Sa Ee). }
  assert (St : forall q, stays_put x1 ps q <-> stays_put x ps q) by (intro q; unfold stays_put; rewrite Efl; reflexivity).
  assert (St' : stays_put x1 ps = stays_put x ps) by (unfold stays_put; rewrite Efl; reflexivity).
  assert (Gone : forall c tc, ~ In c ps -> nth_error (u_tabs (xu_u x)) c = Some tc -> exists tc', nth_error (u_tabs (xu_u x1)) c = Some tc' /\ forall i r, t_get_row tc' i = Ok r <-> t_get_row tc i = Ok r).
  { intros c tc Nc Hc. destruct (T _ _ Hc) as (tc' & Hc' & Es & Lo & _). exists tc'. split; [exact Hc'|]. intros i r. rewrite Lo. split; [tauto|]. intro H. split; [exact H|].
    intro Dm. exact (Nc (Cv _ _ Dm)). }
  assert (Ad : addable pr umax heads foreign null x1 ps src (fun c => SThese (sel c)) es ev').
  { unfold addable. rewrite St'. split; [|split; [|split; [exact Np|split; [exact Io|split; [split; [exact HR|rewrite Eh; exact HN]|]]]]].
    - intros c Ic. destruct (Tb c Ic) as (tc & Hc & Sc' & Kc & Re & Lc & Ex & Eq). destruct (Cs c Ic) as ((tc2 & f & Hc2 & _ & Hf & If & _) & Ns & Hs).
      rewrite Hc in Hc2. injection Hc2 as <-. split; [|exists f; rewrite Efl; split; assumption]. rewrite Sc'. destruct (T _ _ Hc) as (d & Hd & Es & Lo & Ro). exists d.
      split; [exact Hd|]. split; [exact Es|]. split; [unfold t_kind in *; congruence|]. split; [exact Re|]. split; [exact Ex|]. rewrite Eq. split; [exact Ns|].
      assert (Im : t_imax d = t_imax tc) by (unfold t_imax; rewrite Es; reflexivity). rewrite Im. apply Nat.le_trans with (t_len tc); [exact (Ro Ic)|exact Lc].
    - intros c k q i r Ic Ik Ii Ro. destruct (Tb c Ic) as (tc & Hc & Sc' & Kc & Re & Lc & Ex & Eq). rewrite Sc' in Ro. rewrite Eq in Ii. apply (proj2 (proj2 (Cs c Ic))) in Ii.
      destruct (Lg _ _ Ii) as (tc2 & r2 & Hc2 & Gr). rewrite Hc in Hc2. injection Hc2 as <-. apply (row_of_saved pr umax tc i r2 Re Gr) in Ro. subst r2.
      destruct (Sc c k q i tc r Ii Hc Gr Ik) as (a & Ea & Or'). exists a. split; [exact Ea|]. destruct Or' as [Dm|S']; [left|right; exact S'].
      pose proof (Cv _ _ Dm) as Iq. destruct (Tb q Iq) as (tq & _ & _ & _ & _ & _ & _ & Eq'). rewrite Eq'. apply (proj2 (proj2 (Cs q Iq))). exact Dm.
    - intros c k q i r a Ic Ik Sq Ii Ro Ea. destruct (Tb c Ic) as (tc & Hc & Sc' & Kc & Re & Lc & Ex & Eq). rewrite Sc' in Ro. rewrite Eq in Ii. apply (proj2 (proj2 (Cs c Ic))) in Ii.
      destruct (Lg _ _ Ii) as (tc2 & r2 & Hc2 & Gr). rewrite Hc in Hc2. injection Hc2 as <-. apply (row_of_saved pr umax tc i r2 Re Gr) in Ro. subst r2.
      destruct (Ca _ _ _ Ik) as ((tq & Hq) & key & Itr). destruct (i_int _ _ _ _ _ _ V q c k key tq i a Itr Hq) as [[r' Hr']|Nu]; [exists tc, r; auto| |right; exact Nu].
      left. destruct (Gone q tq (proj1 Sq) Hq) as (tq' & Hq' & Eqv). exists tq', r'. split; [exact Hq'|]. apply Eqv. exact Hr'. }
  assert (Un : unleaked x1 ps).
  { intros c f Ic Hf. destruct (Cs c Ic) as ((tc2 & f2 & _ & _ & Hf2 & _ & Lk) & _). rewrite Efl in Hf. congruence. }
  destruct (runs_imports pr umax fuel heads foreign null rank order Or Rk fussy x0 x1 W N U D G1 ps src (fun c => SThese (sel c)) es ev' Ad Un) as (x2 & g & R2 & G2 & Add & Oth & Sty).
  set (f := fun c i => if in_dec Nat.eq_dec c ps then if in_dec Nat.eq_dec i (sel c) then g c i else i else i).
  assert (F1 : forall c i, ~ lost c i -> f c i = i).
  { intros c i Nd'. unfold f. destruct (in_dec Nat.eq_dec c ps) as [Ic|]; [|reflexivity]. destruct (in_dec Nat.eq_dec i (sel c)) as [Ii|]; [|reflexivity].
    apply (proj2 (proj2 (Cs c Ic))) in Ii. contradiction. }
  assert (F2 : forall c i, lost c i -> f c i = g c i).
  { intros c i Dm. unfold f. pose proof (Cv _ _ Dm) as Ic. destruct (in_dec Nat.eq_dec c ps) as [_|Nc]; [|contradiction]. destruct (in_dec Nat.eq_dec i (sel c)) as [|Ni]; [reflexivity|].
    exfalso. apply Ni. apply (proj2 (proj2 (Cs c Ic))). exact Dm. }
  assert (Dec : forall c i, lost c i \/ ~ lost c i).
  { intros c i. destruct (in_dec Nat.eq_dec c ps) as [Ic|Nc]; [|right; intro Dm; exact (Nc (Cv _ _ Dm))]. destruct (in_dec Nat.eq_dec i (sel c)) as [Ii|Ni].
    - left. apply (proj2 (proj2 (Cs c Ic))). exact Ii.
    - right. intro Dm. apply Ni. apply (proj2 (proj2 (Cs c Ic))). exact Dm. }
  (* rows that stay *)
  assert (Stay : forall c tc i r, nth_error (u_tabs (xu_u x)) c = Some tc -> t_get_row tc i = Ok r -> ~ lost c i ->
    same_but_foreign (foreign c) r r /\ forall k q v, In (k, q) (foreign c) -> nth_error r k = Some v -> nth_error r k = Some (renamed_key f q v)).
  { intros c tc i r Hc Gr Nd'. split; [split; auto|]. intros k q v Ik Ev. rewrite Ev. f_equal. destruct v as [z|b|a]; try reflexivity. cbn. f_equal. symmetry. apply F1. intro Dq.
    destruct (Ca _ _ _ Ik) as (_ & key & Itr). apply Nd'. eapply Ld; [exact Dq|exact Itr|]. exists tc, r. auto. }
  exists es, x2, f. split.
  { intros c Ic. destruct (Tb c Ic) as (tc & Hc & _ & _ & _ & _ & Ex & _). eauto. }
  split; [exact R2|]. split; [exact G2|]. split; [|exact F1].
  assert (Ln : length (u_tabs (xu_u x2)) = length (u_tabs (xu_u x))).
  { rewrite <- Eln.
    refine (proj2 (import_frame _ _ _ _ _ _ _ _ Rk (fun p => ~ In p ps) x1 ps src _ es ev' x2 _ Ad _ R2)).
    - apply (lasting_alive _ _ _ _ _ _ _ _ _ (runs_lasting _ _ _ _ _ _ _ _ Or Rk _ _ _ _ W N U D G1) Un).
    - intros c Ic Nc. exact (Nc Ic). }
  split; [exact Ln|]. intros c tc Hc. destruct (in_dec Nat.eq_dec c ps) as [Ic|Nc].
  - destruct (Add c Ic) as (d & d' & Hd & Hd' & Kp & Nw & Ij & Al). exists d'. split; [exact Hd'|].
    destruct (Tb c Ic) as (tc2 & Hc2 & Sc' & Kc & Re & Lc & Ex & Eq). rewrite Hc in Hc2. injection Hc2 as <-. rewrite Sc', Eq in *.
    destruct (T _ _ Hc) as (d2 & Hd2 & Es & Lo & _). rewrite Hd in Hd2. injection Hd2 as <-.
    destruct (Ok1 _ _ Hd) as (l2 & r2 & K2). pose proof (proj2 (proj2 (Cs c Ic))) as Hs.
    split; [|split].
    + intros i r Gr. destruct (Dec c i) as [Dm|Nd'].
      * rewrite (F2 _ _ Dm). destruct (Nw i) as (_ & r1 & r' & Ro & Gr' & Sb & Ky); [apply Hs; exact Dm|]. exists r'. split; [exact Gr'|].
        apply (row_of_saved pr umax tc i r Re Gr) in Ro. subst r1. split; [exact Sb|]. intros k q v Ik Ev. destruct (Ky k q Ik) as (a & Ea & Ea'). rewrite Ea' .
        rewrite Ev in Ea. injection Ea as ->. cbn. do 2 f_equal. destruct (Sc c k q i tc r Dm Hc Gr Ik) as (a2 & Ea2 & O). rewrite Ev in Ea2. injection Ea2 as <-.
        destruct O as [Dq|Sq]; [symmetry; apply F2; exact Dq|]. rewrite St' in Sty. rewrite (Sty q a Sq). symmetry. apply F1. intro Dq. exact (proj1 Sq (Cv _ _ Dq)).
      * rewrite (F1 _ _ Nd'). exists r. split; [|eapply Stay; eauto]. apply Kp. apply Lo. split; assumption.
    + intros i j r s Gi Gj E. destruct (Dec c i) as [Di|Ni], (Dec c j) as [Dj|Nj].
      * rewrite (F2 _ _ Di), (F2 _ _ Dj) in E. apply Ij; [apply Hs; exact Di|apply Hs; exact Dj|exact E].
      * rewrite (F2 _ _ Di), (F1 _ _ Nj) in E. destruct (Nw i) as (C & _); [apply Hs; exact Di|]. rewrite E in C.
        assert (C' : t_contains d j = true) by (apply (contains_get _ _ _ K2); exists s; apply Lo; split; assumption). congruence.
      * rewrite (F1 _ _ Ni), (F2 _ _ Dj) in E. destruct (Nw j) as (C & _); [apply Hs; exact Dj|]. rewrite <- E in C.
        assert (C' : t_contains d i = true) by (apply (contains_get _ _ _ K2); exists r; apply Lo; split; assumption). congruence.
      * rewrite (F1 _ _ Ni), (F1 _ _ Nj) in E. exact E.
    + intros j r' Gr. destruct (Al j r' Gr) as [Gd|(i & Ii & ->)].
      * apply Lo in Gd. destruct Gd as [Gd Nd']. exists j, r'. split; [exact Gd|apply F1; exact Nd'].
      * apply Hs in Ii. destruct (Lg _ _ Ii) as (tc2 & r & Hc2 & Gi). rewrite Hc in Hc2. injection Hc2 as <-. exists i, r. split; [exact Gi|apply F2; exact Ii].
  - destruct (Gone c tc Nc Hc) as (tc' & Hc' & Eqv). exists tc'. split; [rewrite (Oth c Nc); exact Hc'|].
    assert (F : forall i, f c i = i) by (intro i; apply F1; intro Dm; exact (Nc (Cv _ _ Dm))).
    split; [|split].
    + intros i r Gr. rewrite F. exists r. split; [apply Eqv; exact Gr|]. eapply Stay; eauto.
    + intros i j r s _ _ E. rewrite !F in E. exact E.
    + intros j r' Gr. exists j, r'. split; [apply Eqv; exact Gr|apply F].
Qed.

Lemma doomed_get p t ids c i : nth_error (u_tabs (xu_u x)) p = Some t -> Forall (fun i => exists r, t_get_row t i = Ok r) ids ->
  doomed (xu_u x) p ids c i -> exists tc r, nth_error (u_tabs (xu_u x)) c = Some tc /\ t_get_row tc i = Ok r.
Proof.
  intros Hp F Dm. destruct Dm as [i Hi|q i c k key j _ _ (tc & r & E & Gr & _)].
  - rewrite Forall_forall in F. destruct (F i Hi) as [r Hr]. eauto.
  - eauto.
Qed.

Theorem undo p t ids ev ev' ps sel : nth_error (u_tabs (xu_u x)) p = Some t -> t_kind t = Consistent -> Forall (fun i => exists r, t_get_row t i = Ok r) ids -> NoDup ids ->
  plain_removal ev -> nth_error (u_hdl (xu_u x)) (ev_id ev) = Some HDelete -> handled_by_nothing (xu_u x) ev' ->
  cascading foreign (xu_u x) -> covers x (doomed (xu_u x) p ids) ps sel -> in_order_but (stays_put x ps) foreign ps -> self_contained foreign x (doomed (xu_u x) p ids) ps ->
  exists es w x1 x2 f,
    (forall c, In c ps -> exists tc, nth_error (u_tabs (xu_u x)) c = Some tc /\ extract_selection pr (heads c) tc (SThese (sel c)) = Ok (es c)) /\
    do_edits pr umax (w_new t) (map ODelete ids) = Ok w /\ x_flush pr umax fuel x [] p w ev = Ok x1 /\
    restore_all pr umax heads foreign order fuel es ev' ps x1 x2 /\
    runs fussy pr umax fuel heads foreign null order x0 x2 None /\
    renumbered foreign f (xu_u x) (xu_u x2) /\ forall c i, ~ doomed (xu_u x) p ids c i -> f c i = i.
Proof.
  intros Hp Kd Fl Nd PE HD Hn Ca Cv Io Sc. pose proof (la_inv _ _ _ _ _ _ _ _ (runs_lasting _ _ _ _ _ _ _ _ Or Rk _ _ _ _ W N U D G)) as V.
  destruct (removal_full pr umax fuel rank null order (xu_u x) p t ids ev Rk V Hp Kd Fl Nd PE HD) as (w & u' & He & E' & Cf & Le & Et & Eh & T).
  set (x1 := XU u' (xu_fl x)).
  assert (X : x_flush pr umax fuel x [] p w ev = Ok x1) by (unfold x_flush; rewrite E'; reflexivity).
  assert (G1 : runs fussy pr umax fuel heads foreign null order x0 x1 None).
  { eapply runs_flush; [apply runs_lock; [exact G|exact Hp]|exact Cf|exact Hp|exact He|exact Le| |exact X].
    intros _ _. rewrite deleted_map. split; [exact Nd|]. intros i Hi. apply in_map_iff in Hi. destruct Hi as (j & Ej & _). discriminate. }
  destruct (undo_from (doomed (xu_u x) p ids) x1 ev' ps sel G1 eq_refl Eh) as (es & x2 & f & H1 & H2 & H3 & H4 & H5); auto.
  - exact (proj2 (framed_flush pr umax _ (framed_do pr umax fuel) _ _ _ _ _ _ E')).
  - intros c i. apply doomed_get with t; assumption.
  - intros q i c k key j Dq Tr Re. eapply doomed_dependent; eauto.
  - intros c tc Hc. destruct (T _ _ Hc) as (d & Hd & Es & Lo). exists d. split; [exact Hd|]. split; [exact Es|].
    destruct (i_tg _ _ _ _ _ _ V _ _ Hc) as (_ & l1 & r1 & K1 & _).
    destruct (i_tg _ _ _ _ _ _ (la_inv _ _ _ _ _ _ _ _ (runs_lasting _ _ _ _ _ _ _ _ Or Rk _ _ _ _ W N U D G1)) c _ Hd) as (_ & l2 & r2 & K2 & _).
    destruct Cv as (_ & Cv & Cs). destruct (in_dec Nat.eq_dec c ps) as [Ic|Nc].
    + destruct (Cs c Ic) as ((tc2 & f & Hc2 & Kc & _) & Ns & Hs). rewrite Hc in Hc2. injection Hc2 as <-. unfold loses in Lo. rewrite Kc in Lo. destruct Lo as [Ll Lo].
      split; [exact Lo|]. intros _. apply room; auto. intros i Hi. apply Hs in Hi. split.
      * destruct (t_contains d i) eqn:C; [|reflexivity]. apply (contains_get _ _ _ K2) in C. destruct C as [r C]. apply Lo in C. tauto.
      * destruct (doomed_get _ _ _ _ _ Hp Fl Hi) as (tc2 & r & Hc2 & Gr). rewrite Hc in Hc2. injection Hc2 as <-.
        rewrite (t_len_ok _ _ _ K1). apply (t_get_row_inv _ _ _ K1) in Gr. eapply nth_error_Some_lt; apply Gr.
    + split; [|contradiction]. assert (Nd' : forall i, ~ doomed (xu_u x) p ids c i) by (intros i Dm; exact (Nc (Cv _ _ Dm))).
      intros i r. rewrite (loses_nothing _ _ _ _ _ _ _ K1 K2 Es Lo Nd' i r). specialize (Nd' i). tauto.
  - exists es, w, x1, x2, f. auto 8.
Qed.

(** ** The same for cleared tables *)
Theorem refill p t es0 w ev ev' ps sel : nth_error (u_tabs (xu_u x)) p = Some t -> t_kind t = Consistent -> none_deleted (xu_u x) p ->
  plain_removal ev -> nth_error (u_hdl (xu_u x)) (ev_id ev) = Some HDelete -> wipes es0 -> do_edits pr umax (w_new t) es0 = Ok w -> handled_by_nothing (xu_u x) ev' ->
  cascading foreign (xu_u x) -> covers x (wiped (xu_u x) p) ps sel -> in_order_but (stays_put x ps) foreign ps -> self_contained foreign x (wiped (xu_u x) p) ps ->
  exists es x1 x2 f,
    (forall c, In c ps -> exists tc, nth_error (u_tabs (xu_u x)) c = Some tc /\ extract_selection pr (heads c) tc (SThese (sel c)) = Ok (es c)) /\
    x_flush pr umax fuel x [] p w ev = Ok x1 /\
    restore_all pr umax heads foreign order fuel es ev' ps x1 x2 /\
    runs fussy pr umax fuel heads foreign null order x0 x2 None /\
    renumbered foreign f (xu_u x) (xu_u x2) /\ forall c i, ~ wiped (xu_u x) p c i -> f c i = i.
Proof.
  intros Hp Kc Nd PE HD Wi He Hn Ca Cv Io Sc. pose proof (la_inv _ _ _ _ _ _ _ _ (runs_lasting _ _ _ _ _ _ _ _ Or Rk _ _ _ _ W N U D G)) as V.
  destruct (clear_flush pr umax fuel rank null order (xu_u x) p t es0 w ev) as (u2 & H2 & Et & Eh & El & Sw); auto.
  assert (X : x_flush pr umax fuel x [] p w ev = Ok (XU u2 (xu_fl x))) by (unfold x_flush; rewrite H2; reflexivity).
  assert (G1 : runs fussy pr umax fuel heads foreign null order x0 (XU u2 (xu_fl x)) None).
  { eapply runs_clear; [apply runs_lock; [exact G|exact Hp]| | | | | | | |exact X]; eauto. }
  destruct (undo_from (wiped (xu_u x) p) (XU u2 (xu_fl x)) ev' ps sel G1 eq_refl Eh El) as (es & x2 & f & R1 & R2 & R3 & R4 & R5); auto.
  - intros c i [_ H]. exact H.
  - intros q i c k key j [Dq _] Tr (tc & r & E & Gr & _). split; [|eauto]. right. destruct Dq as [->|Dq]; [eapply downstream_one; eauto|eapply downstream_more; eauto].
  - intros c tc Hc. destruct (Sw c tc Hc) as (tc' & Hc' & Dd). exists tc'. split; [exact Hc'|]. pose proof (i_tg _ _ _ _ _ _ V _ _ Hc) as Tg. pose proof (tg_ncols _ _ Tg) as Nc.
    destruct Tg as (_ & l1 & r1 & K1 & _). destruct Dd as [[Dd ->]|[Dd ->]].
    + split; [reflexivity|]. split.
      * intros i r. split; [intro H; elim (emptied_rows tc i r Nc H)|]. intros [Gr Nw]. elim Nw. split; [exact Dd|eauto].
      * intro Ic. assert (E0 : t_len (emptied tc) = 0) by (exact (emptied_len tc Nc)). unfold rows_in. rewrite E0. cbn [seq filter length plus].
        destruct Cv as (_ & _ & Cs). destruct (Cs c Ic) as (_ & Ns & Hs). rewrite <- (seq_length (t_len tc) 0). apply NoDup_incl_length; [exact Ns|].
        intros i Hi. apply Hs in Hi. destruct Hi as (_ & tc2 & r & Hc2 & Gr). rewrite Hc in Hc2. injection Hc2 as <-. apply in_seq.
        rewrite (t_len_ok _ _ _ K1). apply (t_get_row_inv _ _ _ K1) in Gr. destruct Gr as [Gr _]. apply nth_error_Some_lt in Gr. lia.
    + split; [reflexivity|]. assert (Nw : forall i, ~ wiped (xu_u x) p c i) by (intros i [H _]; exact (Dd H)). split; [intros i r; specialize (Nw i); tauto|].
      intro Ic. destruct Cv as (_ & _ & Cs). destruct (Cs c Ic) as (_ & Ns & Hs). destruct (sel c) as [|i l]; [|elim (Nw i); apply Hs; left; reflexivity].
      cbn [length]. rewrite Nat.add_0_r. unfold rows_in. rewrite <- (seq_length (t_len tc) 0) at 2. apply NoDup_incl_length; [apply NoDup_filter, seq_NoDup|]. intros i Hi. apply filter_In in Hi. apply Hi.
  - exists es, (XU u2 (xu_fl x)), x2, f. auto 8.
Qed.
End U.
