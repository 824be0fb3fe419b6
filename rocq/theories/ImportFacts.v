(** Proofs about rows added to a database in use. *)
From Coq Require Import List Arith Bool Lia Permutation.
From Verif Require Import Base BaseFacts Column ColumnFacts Order RowRange RowRangeFacts Table TableFacts SortedTab BagTab TableSpec Hist HistFacts TableProps RowProps
  Events Cascade CascadeSpec CascadeFacts CascadeProps Extract ExtractSpec ExtractFacts RestoreFacts ExtractProps BackupSpec BackupFacts ImportSpec.
Import ListNotations.

(** ** How many rows there are *)
Lemma in_rows t i : In i (filter (t_contains t) (seq 0 (t_len t))) <-> t_contains t i = true.
Proof.
  rewrite filter_In, in_seq. split; [tauto|]. intro C. split; [|exact C]. unfold t_contains in C. apply andb_true_iff in C. destruct C as [C _].
  apply Nat.ltb_lt in C. lia.
Qed.
Lemma rows_in_more t t' i : t_contains t i = false -> t_contains t' i = true -> (forall j, j <> i -> t_contains t' j = t_contains t j) ->
  rows_in t' = S (rows_in t).
Proof.
  intros A B C. unfold rows_in. change (S (length ?l)) with (length (i :: l)). apply Permutation_length. apply NoDup_Permutation.
  - apply NoDup_filter, seq_NoDup.
  - constructor; [rewrite in_rows; congruence|apply NoDup_filter, seq_NoDup].
  - intro j. cbn [In]. rewrite !in_rows. destruct (Nat.eq_dec i j) as [->|N]; [tauto|]. rewrite C by auto. tauto.
Qed.
Lemma rows_in_full t live rs : t_ok t live rs -> t_free t = [] -> rows_in t = t_len t.
Proof.
  intros K F. unfold rows_in. rewrite forallb_filter_all; [apply seq_length|]. intros i I. apply in_seq in I.
  apply (contains_get _ _ _ K). destruct (nth_error_lt_Some rs i) as [r E]; [rewrite <- (t_len_ok _ _ _ K); lia|]. exists r.
  apply (t_get_row_inv _ _ _ K). split; [exact E|]. rewrite (t_deleted_iff _ _ _ K), F. reflexivity.
Qed.

(** ** Pushing into a table *)
Section Loop.
Variables (foreign : nat -> list (nat * nat)) (fl : list fstate) (p : nat) (nt : bool).
Lemma push_loop_into pr umax sch rows : forall rows' ids w rm, sane pr umax sch (Locked w []) -> s_kind sch <> Sorted -> t_sch (w_tab w) = sch ->
  w_delete w = false -> Forall (row_ty (s_cols sch)) rows -> length ids = length rows ->
  Forall2 (fun r r' => update_row foreign fl p r = Ok r') rows rows' ->
  t_len (w_tab w) <= t_imax (w_tab w) -> rows_in (w_tab w) + length rows <= t_imax (w_tab w) ->
  exists w' rm', fold_res (push_turn foreign fl p nt) (combine ids rows) (w, rm) = Ok (w', rm') /\
    t_len (w_tab w') <= t_imax (w_tab w') /\ rows_in (w_tab w') = rows_in (w_tab w) + length rows.
Proof.
  induction rows as [|r rows IH]; intros rows' [|i ids] w rm A Ks E D T L U Le Lr; cbn [length] in *; try lia.
  - exists w, rm. cbn. split; [reflexivity|]. split; [exact Le|lia].
  - inversion U as [|? r' ? rows1 Hr U1]; subst. inversion T as [|? ? T1 T2]; subst.
    destruct (update_row_ty _ _ _ _ _ _ T1 Hr) as [T1' _].
    destruct (push_sane pr umax _ w [] r' A T1' (or_introl Le)) as (w1 & i1 & P).
    assert (Tn : fold_res (push_turn foreign fl p nt) (combine [i] [r]) (w, rm) = Ok (w1, if nt then rm else rm ++ [(i, i1)])).
    { cbn [combine fold_res]. unfold push_turn. cbn [fst snd]. rewrite Hr. cbn [bind]. rewrite P. reflexivity. }
    destruct (push_loop_sane foreign fl p nt pr umax _ [r] [i] w rm w1 _ A Ks eq_refl D ltac:(auto) Tn) as (A1 & S1 & D1).
    destruct (sane_tg _ _ _ _ A) as (_ & live & rs & K & _). cbn [st_tab] in K.
    pose proof (push_full_spec w live rs r' K T1') as Q. rewrite P in Q. cbv zeta in Q. destruct Q as (Q1 & Q2 & Q3 & _).
    destruct (sane_tg _ _ _ _ A1) as (_ & live1 & rs1 & K1 & _). cbn [st_tab] in K1.
    assert (R1 : rows_in (w_tab w1) = S (rows_in (w_tab w))).
    { apply (rows_in_more _ _ i1); [exact Q1|apply (contains_get _ _ _ K1); eauto|]. intros j N. apply (Q3 j N). }
    assert (I1 : t_imax (w_tab w1) = t_imax (w_tab w)) by (unfold t_imax; rewrite S1; reflexivity).
    assert (Le1 : t_len (w_tab w1) <= t_imax (w_tab w1)).
    { pose proof (push_exact w live rs r' K T1') as X. rewrite P in X. destruct (t_free (w_tab w)) as [|old f] eqn:Ef.
      - destruct (_ <=? _); [|discriminate]. destruct X as (w2 & X0 & X1 & X2 & X3). injection X0 as -> ->.
        rewrite (t_len_ok _ _ _ X1), app_length. cbn [length]. rewrite (rows_in_full _ _ _ K Ef), (t_len_ok _ _ _ K) in Lr. lia.
      - destruct (_ <? _); [|discriminate]. destruct X as (w2 & X0 & X1 & X2 & X3). injection X0 as -> ->.
        rewrite (t_len_ok _ _ _ X1), upd_length. rewrite (t_len_ok _ _ _ K) in Le. lia. }
    destruct (IH rows1 ids w1 (if nt then rm else rm ++ [(i, i1)])) as (w' & rm' & E' & Le' & R'); auto; try (rewrite ?S1, ?I1, ?R1; auto; lia).
    exists w', rm'. split; [|split; [exact Le'|lia]].
    cbn [combine fold_res] in Tn |- *. unfold push_turn at 1. unfold push_turn in Tn. cbn [fst snd] in *. rewrite Hr in *. cbn [bind] in *.
    rewrite P in *. cbn [bind fst snd] in *. exact E'.
Qed.
End Loop.

Section B.
Variables (pr : profile) (umax : nat) (heads : nat -> header) (foreign : nat -> list (nat * nat)) (order : nat -> row -> row -> comparison).

Lemma restore_into rank fuel x p e ev t rows rows' f :
  sane pr umax (t_sch t) (Free t) -> t_kind t <> Sorted ->
  nth_error (u_tabs (xu_u x)) p = Some t -> nth_error (xu_fl x) p = Some f -> fs_leaked f = 0 -> (forall k, ~ In (k, p) (foreign p)) ->
  handled_by_nothing (xu_u x) ev -> linked pr umax rank (xu_u x) -> rank p < fuel ->
  map c_into_iter (ex_data e) = columns_of (length (s_cols (t_sch t))) rows -> Forall (row_ty (s_cols (t_sch t))) rows ->
  length (ex_sel e) = length rows -> ex_head e = heads p -> t_len t <= t_imax t -> rows_in t + length rows <= t_imax t ->
  Forall2 (fun r r' => update_row foreign (xu_fl x) p r = Ok r') rows rows' ->
  exists x' t' news, restore pr umax heads foreign order fuel x [] p e ev = Ok (x', None) /\
    u_tabs (xu_u x') = upd (u_tabs (xu_u x)) p t' /\ u_trk (xu_u x') = u_trk (xu_u x) /\ u_hdl (xu_u x') = u_hdl (xu_u x) /\
    t_sch t' = t_sch t /\ sane pr umax (t_sch t) (Free t') /\ t_len t' <= t_imax t' /\ rows_in t' = rows_in t + length rows /\
    linked pr umax rank (xu_u x') /\
    NoDup news /\ Forall (fun i => t_contains t i = false) news /\ Forall2 (fun i r => t_get_row t' i = Ok r) news rows' /\
    (forall j, ~ In j news -> same_row t t' j) /\
    (forall q, q <> p -> nth_error (xu_fl x') q = nth_error (xu_fl x) q) /\
    (exists f', nth_error (xu_fl x') p = Some f' /\ fs_ident f' = fs_ident f /\ fs_leaked f' = 0) /\
    (u_trackers (xu_u x) p <> [] -> rows <> [] ->
       nth_error (xu_fl x') p = Some (set_remapping f (combine (ex_sel e) news))).
Proof.
  intros Sa Ks Ht Ef Lk Fo HN Lin Rk Ed T L Eh Le Lr U.
  pose proof (nth_error_Some_lt _ _ _ Ht) as Lp.
  unfold restore. cbn [can_write forallb lock_ok bind]. unfold u_get. rewrite Ht. cbn [bind]. unfold restore_extract. rewrite Eh.
  assert (Ev : validate (heads p) (heads p) = Ok None).
  { destruct (validate_spec (heads p) (heads p)) as [[X _]|[[_ [X _]]|[_ [X _]]]]; [congruence|congruence|lia]. }
  rewrite Ev. cbn [bind].
  assert (Lo : forallb (fun kq => can_read [(p, true)] (snd kq)) (foreign p) = true).
  { apply forallb_forall. intros [k q] I. cbn. destruct (Nat.eqb_spec p q) as [->|N]; [exfalso; eapply Fo; eauto|reflexivity]. }
  rewrite Lo. cbn [lock_ok bind].
  assert (Lc : Forall (fun r => length r = length (s_cols (t_sch t))) rows).
  { eapply Forall_impl; [|exact T]. intros r Hr. apply row_ty_length. auto. }
  rewrite (merge_extract_loop pr foreign order _ _ _ (w_new t) _ _ rows Ks Ed Lc L).
  set (nt := match u_trackers (xu_u x) p with [] => true | _ => false end).
  destruct (sane_tg _ _ _ _ Sa) as (_ & live & rs & K & _). cbn [st_tab] in K.
  assert (Sw : sane pr umax (t_sch t) (Locked (w_new t) [])).
  { eapply sane_step with (o := OLock); [exact Sa|exact I|intro X; discriminate X|]. unfold step. cbn. unfold t_kind. destruct (s_kind (t_sch t)); reflexivity. }
  destruct (push_loop_into foreign (xu_fl x) p nt pr umax (t_sch t) rows rows' (ex_sel e) (w_new t) [] Sw Ks eq_refl eq_refl T L U Le Lr) as (w' & rm' & E' & Le' & R').
  rewrite E'. cbn [bind fst snd].
  destruct (push_loop foreign (xu_fl x) p nt rows (ex_sel e) (w_new t) [] w' _ live rs K T L E') as (live' & rs' & news & rows2 & K' & S' & U2 & ND & Nw & G & Sm & Erm & A9 & A10 & _).
  assert (Er : rows2 = rows').
  { clear - U U2. revert rows' U. induction U2; intros rows' U; inversion U; subst; [reflexivity|]. f_equal; [congruence|auto]. }
  subst rows2. cbn [w_new w_tab w_changes app] in *.
  destruct (push_loop_sane foreign (xu_fl x) p nt pr umax (t_sch t) rows (ex_sel e) (w_new t) [] w' rm') as (B1 & B2 & B3); auto.
  pose proof (sane_quiet_close _ _ _ _ B1 B3) as B1'.
  pose proof (linked_put pr umax rank (xu_u x) p _ (w_tab w') Lin Ht Ks B2 B1' Le') as Lpu.
  assert (Tc : u_trackers (xu_u x) p <> [] -> t_kind t = Consistent).
  { intro N. destruct Lin as [_ L2]. specialize (L2 p t Ht).
    destruct (t_kind t); auto; exfalso; apply N; apply L2; discriminate. }
  assert (Fi : forall m, fs_ident (set_remapping f m) = fs_ident f /\ fs_leaked (set_remapping f m) = 0).
  { intro m. unfold set_remapping. destruct (fs_ident f) eqn:Fi; cbn; auto. }
  destruct (sel_empty (w_changes w')) eqn:Ee.
  - unfold w_drop. rewrite Ee, andb_false_r. cbn [bind]. eexists. exists (w_tab w'), news. split; [reflexivity|]. cbn [xu_u xu_fl u_put u_tabs u_trk u_hdl].
    do 12 (split; [first [reflexivity|assumption]|]). split; [reflexivity|]. split; [eauto|].
    intros N1 N2. exfalso. discriminate (A9 (Tc N1) (or_introl N2)).
  - unfold xu_flush. rewrite Ef. cbn [bind]. rewrite Lk. cbn [Nat.eqb lock_ok bind].
    destruct (flush_quiet pr umax rank (u_put (xu_u x) p (w_tab w')) ev Lpu) with (fuel := fuel) (p := p) (w := w') as (u' & E1 & V1 & V2 & V3); auto.
    + destruct HN as [-> _]. reflexivity.
    + apply HN.
    + cbn. apply nth_error_upd_eq. auto.
    + apply HN.
    + rewrite B3. apply andb_false_r.
    + assert (E2 : flush pr umax fuel (xu_u x) [] p w' ev = Ok u').
      { rewrite <- E1. unfold flush, flush_with. rewrite Ee.
        replace (u_put (u_put (xu_u x) p (w_tab w')) p (w_tab w')) with (u_put (xu_u x) p (w_tab w')); auto.
        unfold u_put. cbn. f_equal. symmetry. apply upd_same. apply nth_error_upd_eq. auto. }
      rewrite E2. cbn [bind]. eexists. exists (w_tab w'), news. split; [reflexivity|]. cbn [xu_u xu_fl]. cbn in V1, V2, V3.
      do 7 (split; [assumption|]).
      split.
      { destruct Lpu as [L1 L2]. unfold linked, dependent_ok, u_trackers in *. cbn [u_tabs u_trk u_put] in *. rewrite V1, V2. split; assumption. }
      do 4 (split; [assumption|]).
      split; [intros q Nq; apply nth_error_upd_ne; auto|].
      rewrite nth_error_upd_eq by (eapply nth_error_Some_lt; eauto). split; [eexists; split; [reflexivity|apply Fi]|].
      intros N1 N2. f_equal. rewrite Erm. unfold nt. destruct (u_trackers (xu_u x) p); [congruence|reflexivity].
Qed.

(** ** One table after another *)
Lemma pairing (ids news : list nat) : NoDup ids -> length ids = length news -> exists g : nat -> nat, Forall2 (fun a b => g a = b) ids news.
Proof.
  revert news. induction ids as [|a ids IH]; intros [|b news] ND L; cbn in L; try lia; [exists (fun x => x); constructor|].
  inversion ND as [|? ? N1 N2]; subst. destruct (IH news N2 ltac:(lia)) as [g G]. exists (fun y => if y =? a then b else g y).
  constructor; [rewrite Nat.eqb_refl; reflexivity|]. clear - N1 G. revert N1. induction G as [|y z ys zs H G IHG]; intro N1; constructor.
  - destruct (Nat.eqb_spec y a) as [->|]; [exfalso; apply N1; left; reflexivity|exact H].
  - apply IHG. intro I. apply N1. right. exact I.
Qed.
Lemma paired_in (g : nat -> nat) ids news a b : Forall2 (fun a b => g a = b) ids news -> In (a, b) (combine ids news) -> g a = b.
Proof. intro G. induction G as [|y z ys zs H G IH]; cbn; [tauto|]. intros [[= -> ->]|I]; auto. Qed.
Lemma paired_of (g : nat -> nat) ids news a : Forall2 (fun a b => g a = b) ids news -> In a ids -> In (a, g a) (combine ids news).
Proof. intro G. induction G as [|y z ys zs H G IH]; cbn; [tauto|]. intros [->|I]; [left; congruence|right; auto]. Qed.

Lemma added_ext fc f f' p sel t d d' : f' p = f p -> (forall k q, In (k, q) fc -> f' q = f q) -> added fc f p sel t d d' -> added fc f' p sel t d d'.
Proof.
  intros Ep Eq (A & B & C & D). unfold added. rewrite Ep. split; [exact A|]. split; [|split; [exact C|exact D]].
  intros i I. destruct (B i I) as (B0 & r & r' & B1 & B2 & B3 & B4). split; [exact B0|]. exists r, r'. split; [exact B1|]. split; [exact B2|].
  split; [exact B3|]. intros k q Ik. rewrite (Eq _ _ Ik). apply B4. exact Ik.
Qed.

Section All.
Variables (rank : nat -> nat) (fuel : nat) (src : nat -> table) (sel : nat -> select) (es : nat -> extraction) (x0 : xuni) (ev : event) (all : list nat).
Hypothesis Src : forall p, In p all ->
  reachable pr umax (t_sch (src p)) (Free (src p)) /\ t_kind (src p) <> Sorted /\ NoDup (map fst (foreign p)) /\
  extract_selection pr (heads p) (src p) (sel p) = Ok (es p) /\ NoDup (ex_sel (es p)) /\ rank p < fuel /\
  can_take pr umax x0 p (length (ex_sel (es p))) (t_sch (src p)).
Variable stays : nat -> Prop.
Hypothesis Stays : forall q, stays q -> stays_put x0 all q.
Hypothesis Cm : complete_but stays foreign all src es.
Hypothesis Trk : forall c k q, In c all -> In (k, q) (foreign c) -> stays q \/ u_trackers (xu_u x0) q <> [].
Hypothesis HN : handled_by_nothing (xu_u x0) ev.

Record midway (f : nat -> nat -> nat) (done : list nat) (x : xuni) : Prop := {
  mw_trk : u_trk (xu_u x) = u_trk (xu_u x0);
  mw_hdl : u_hdl (xu_u x) = u_hdl (xu_u x0);
  mw_lin : linked pr umax rank (xu_u x);
  mw_refs : forall p k q, In p done -> In (k, q) (foreign p) -> In q done \/ stays q;
  mw_stays : forall q, stays q -> ~ In q done /\ forall a, f q a = a;
  mw_done : forall p, In p done ->
    (exists d d', nth_error (u_tabs (xu_u x0)) p = Some d /\ nth_error (u_tabs (xu_u x)) p = Some d' /\
       added (foreign p) f p (ex_sel (es p)) (src p) d d' /\ t_sch d' = t_sch (src p) /\ sane pr umax (t_sch (src p)) (Free d') /\
       t_len d' <= t_imax d' /\ rows_in d' = rows_in d + length (ex_sel (es p))) /\
    exists fs, nth_error (xu_fl x) p = Some fs /\ fs_ident fs = false /\ fs_leaked fs = 0 /\
      (u_trackers (xu_u x0) p <> [] -> forall a, In a (ex_sel (es p)) -> fs_lookup fs a = Some (f p a));
  mw_todo : forall p, ~ In p done ->
    nth_error (u_tabs (xu_u x)) p = nth_error (u_tabs (xu_u x0)) p /\ nth_error (xu_fl x) p = nth_error (xu_fl x0) p }.

Lemma midway_step f done x p : midway f done x -> ~ In p done -> In p all ->
  (forall k q, In (k, q) (foreign p) -> In q done \/ stays q) ->
  exists x' f', restore pr umax heads foreign order fuel x [] p (es p) ev = Ok (x', None) /\ midway f' (p :: done) x'.
Proof.
  intros H Np Ia Dn. destruct (Src p Ia) as (R & Ks & ND & Ex & NDs & Rk & d & fs & Ed0 & Esch & Sa & Le & Lr & Efs0 & Fi & Lk).
  destruct (mw_todo _ _ _ H p Np) as (Dt & Ft). rewrite Ed0 in Dt. rewrite Efs0 in Ft.
  destruct (extract_spec pr umax _ _ _ _ _ R Ex) as (live & rs & rows & K & _ & Eh & Ed & F & T & L & _).
  assert (Look : forall k q i r, In (k, q) (foreign p) -> In i (ex_sel (es p)) -> row_of (src p) i r ->
    exists a fq, nth_error r k = Some (VRow a) /\ nth_error (xu_fl x) q = Some fq /\ fs_lookup fq a = Some (f q a)).
  { intros k q i r I Ii Rw. destruct (Cm p k q i r Ia I Ii Rw) as (a & Er & Is). exists a. destruct (Dn _ _ I) as [D|St].
    - destruct (mw_done _ _ _ H q D) as [_ (fq & Efq & _ & _ & Lo)]. exists fq. split; [exact Er|]. split; [exact Efq|].
      assert (Ns : ~ stays q) by (intro X; destruct (mw_stays _ _ _ H q X); tauto).
      destruct (Trk _ _ _ Ia I) as [X|Tr]; [contradiction|]. destruct Is as [Is|X]; [|contradiction]. apply Lo; assumption.
    - destruct (Stays q St) as (_ & fq & Efq & Id). destruct (mw_stays _ _ _ H q St) as [Nd Ef]. exists fq. split; [exact Er|].
      split; [rewrite (proj2 (mw_todo _ _ _ H q Nd)); exact Efq|]. unfold fs_lookup. rewrite Id, Ef. reflexivity. }
  assert (Up : exists rows', Forall2 (fun r r' => update_row foreign (xu_fl x) p r = Ok r') rows rows').
  { assert (A : forall r, In r rows -> exists r', update_row foreign (xu_fl x) p r = Ok r').
    { intros r Ir. apply In_nth_error in Ir. destruct Ir as [j Hj].
      destruct (nth_error_lt_Some (ex_sel (es p)) j) as [i Hi]; [rewrite L; eapply nth_error_Some_lt; eauto|].
      pose proof (Forall2_nth _ _ _ F _ _ _ Hi Hj) as Rw.
      apply update_row_ok; [|exact ND]. intros k q I. destruct (Look k q i r I (nth_error_In _ _ Hi) Rw) as (a & fq & Er & Efq & Lo). exists a, fq, (f q a). auto. }
    clear - A. induction rows as [|r rows IH]; [exists []; constructor|]. destruct (A r) as [r' Hr]; [left; auto|].
    destruct IH as [rows' Hs]; [intros; apply A; right; auto|]. exists (r' :: rows'). constructor; auto. }
  destruct Up as [rows' U].
  assert (Kd : t_kind d <> Sorted) by (unfold t_kind in *; rewrite Esch; exact Ks).
  destruct (restore_into rank fuel x p (es p) ev d rows rows' fs) as (x' & t' & news & E & U1 & U2 & U3 & S' & Sa' & Le' & R' & Lin' & NDn & Nw & G & Sm & Fl1 & (fs' & Efs' & Fi' & Lk') & Fl2); auto;
    try (rewrite ?Esch; assumption).
  { intros k I. destruct (Dn _ _ I) as [D|St]; [exact (Np D)|]. destruct (Stays p St) as [X _]. exact (X Ia). }
  { unfold handled_by_nothing in *. rewrite (mw_hdl _ _ _ H). exact HN. }
  { apply H. }
  { rewrite <- L. exact Lr. }
  assert (Ln : length (ex_sel (es p)) = length news) by (rewrite L, (Forall2_len _ _ _ U), <- (Forall2_len _ _ _ G); reflexivity).
  destruct (pairing _ _ NDs Ln) as [g Pg].
  exists x', (fun q => if q =? p then g else f q). split; [exact E|].
  assert (Fq : forall q, In q done \/ stays q -> (if q =? p then g else f q) = f q).
  { intros q I. destruct (Nat.eqb_spec q p) as [->|]; [|reflexivity]. destruct I as [I|I]; [contradiction|]. destruct (Stays p I) as [X _]. contradiction. }
  destruct (sane_tg _ _ _ _ Sa) as (_ & lived & rsd & Kt & _). cbn [st_tab] in Kt.
  assert (Ad : added (foreign p) (fun q => if q =? p then g else f q) p (ex_sel (es p)) (src p) d t').
  { unfold added. rewrite Nat.eqb_refl. split; [|split; [|split]].
    - intros i r Hr. apply (Sm i); [|exact Hr]. intro X. rewrite Forall_forall in Nw. apply Nw in X.
      assert (Y : t_contains d i = true) by (apply (contains_get _ _ _ Kt); eauto). congruence.
    - intros i Ii. apply In_nth_error in Ii. destruct Ii as [n Hn].
      destruct (nth_error_lt_Some news n) as [b Hb]; [rewrite <- Ln; eapply nth_error_Some_lt; eauto|].
      pose proof (Forall2_nth _ _ _ Pg _ _ _ Hn Hb) as Eg. cbn in Eg. rewrite Eg.
      destruct (nth_error_lt_Some rows n) as [r Hr]; [rewrite <- L; eapply nth_error_Some_lt; eauto|].
      destruct (nth_error_lt_Some rows' n) as [r' Hr']; [rewrite <- (Forall2_len _ _ _ U); eapply nth_error_Some_lt; eauto|].
      split; [rewrite Forall_forall in Nw; apply Nw; eapply nth_error_In; eauto|]. exists r, r'.
      pose proof (Forall2_nth _ _ _ F _ _ _ Hn Hr) as Rw. split; [exact Rw|]. split; [exact (Forall2_nth _ _ _ G _ _ _ Hb Hr')|].
      destruct (update_row_spec foreign (xu_fl x) p r r' ND (Forall2_nth _ _ _ U _ _ _ Hr Hr')) as [S1 S2]. split; [exact S1|].
      intros k q I. rewrite (Fq q (Dn _ _ I)). destruct (S2 _ _ I) as (a & b' & fq & A1 & A2 & A3 & A4). exists a. split; [exact A1|].
      destruct (Look k q i r I (nth_error_In _ _ Hn) Rw) as (a' & fq' & Er & Efq & Lo). rewrite A1 in Er. injection Er as <-.
      rewrite A2 in Efq. injection Efq as <-. rewrite Lo in A3. injection A3 as ->. exact A4.
    - intros i j Ii Ij Eg. apply In_nth_error in Ii. destruct Ii as [n Hn]. apply In_nth_error in Ij. destruct Ij as [m Hm].
      destruct (nth_error_lt_Some news n) as [b Hb]; [rewrite <- Ln; eapply nth_error_Some_lt; eauto|].
      destruct (nth_error_lt_Some news m) as [b' Hb']; [rewrite <- Ln; eapply nth_error_Some_lt; eauto|].
      pose proof (Forall2_nth _ _ _ Pg _ _ _ Hn Hb) as E1. pose proof (Forall2_nth _ _ _ Pg _ _ _ Hm Hb') as E2. cbn in E1, E2.
      assert (n = m) as ->; [|congruence]. apply (proj1 (NoDup_nth_error news) NDn); [eapply nth_error_Some_lt; eauto|congruence].
    - intros j r' G'. destruct (in_dec Nat.eq_dec j news) as [I|N]; [right|left; apply (Sm j N); exact G'].
      apply In_nth_error in I. destruct I as [n Hn].
      destruct (nth_error_lt_Some (ex_sel (es p)) n) as [i Hi]; [rewrite Ln; eapply nth_error_Some_lt; eauto|].
      exists i. split; [eapply nth_error_In; eauto|]. symmetry. exact (Forall2_nth _ _ _ Pg _ _ _ Hi Hn). }
  split.
  - rewrite U2. apply H.
  - rewrite U3. apply H.
  - exact Lin'.
  - intros q k r I Ik. enough (In r done \/ stays r) by (cbn; tauto). destruct I as [<-|I]; [exact (Dn _ _ Ik)|exact (mw_refs _ _ _ H q k r I Ik)].
  - intros q St. destruct (mw_stays _ _ _ H q St) as [X Y]. rewrite (Fq q (or_intror St)). split; [|exact Y].
    intros [<-|Z]; [destruct (Stays p St); contradiction|contradiction].
  - intros q [<-|I].
    + split.
      * exists d, t'. split; [exact Ed0|]. split; [rewrite U1; apply nth_error_upd_eq; eapply nth_error_Some_lt; eauto|]. split; [exact Ad|].
        rewrite <- Esch, L. auto.
      * exists fs'. split; [exact Efs'|]. split; [congruence|]. split; [exact Lk'|].
        intros N a Ia'. rewrite Nat.eqb_refl.
        assert (Nr : rows <> []) by (intro; subst rows; destruct (ex_sel (es p)); [destruct Ia'|discriminate L]).
        assert (N' : u_trackers (xu_u x) p <> []) by (unfold u_trackers in *; rewrite (mw_trk _ _ _ H); exact N).
        rewrite (Fl2 N' Nr) in Efs'. injection Efs' as <-. unfold fs_lookup, set_remapping. rewrite Fi. cbn [fs_ident fs_remap].
        destruct (hm_get (fold_left (fun m p => hm_insert (fst p) (snd p) m) (combine (ex_sel (es p)) news) []) a) as [v|] eqn:Ev.
        -- apply hm_extend in Ev. destruct Ev as [Ev|Ev]; [|discriminate]. f_equal. symmetry. exact (paired_in _ _ _ _ _ Pg Ev).
        -- exfalso. eapply (hm_extend_some (combine (ex_sel (es p)) news) [] a); [left|exact Ev]. exists (g a). apply paired_of; assumption.
    + assert (Nq : q <> p) by (intro; subst; tauto). destruct (mw_done _ _ _ H q I) as [(dq & dq' & A1 & A2 & A3 & A4) (fq & A5 & A6 & A7 & A8)]. split.
      * exists dq, dq'. split; [exact A1|]. rewrite U1, nth_error_upd_ne by auto. split; [exact A2|]. split; [|exact A4].
        eapply added_ext; [| |exact A3]; cbn beta; [exact (Fq q (or_introl I))|]. intros k r Ik. apply Fq. exact (mw_refs _ _ _ H q k r I Ik).
      * exists fq. rewrite (Fl1 q Nq). split; [exact A5|]. split; [exact A6|]. split; [exact A7|]. rewrite (Fq q (or_introl I)). exact A8.
  - intros q I. assert (Nq : q <> p) by (intro; subst; apply I; left; auto).
    destruct (mw_todo _ _ _ H q) as [A1 A2]; [intro; apply I; right; auto|].
    rewrite U1, nth_error_upd_ne, (Fl1 q Nq) by auto. auto.
Qed.

Lemma imports_all ps : forall f done x, midway f done x -> NoDup ps -> (forall p, In p ps -> ~ In p done /\ In p all) ->
  (forall before c after, ps = before ++ c :: after -> forall k q, In (k, q) (foreign c) -> In q before \/ In q done \/ stays q) ->
  exists x' f', restore_all pr umax heads foreign order fuel es ev ps x x' /\ midway f' (rev ps ++ done) x'.
Proof.
  induction ps as [|p ps IH]; intros f done x H ND I O; [exists x, f; split; [reflexivity|exact H]|].
  inversion ND as [|? ? N1 N2]; subst. destruct (I p (or_introl eq_refl)) as [Np Lp].
  destruct (midway_step f done x p H Np Lp) as (x1 & f1 & E & H1).
  { intros k q Iq. destruct (O [] p ps eq_refl k q Iq) as [[]|Q]. exact Q. }
  destruct (IH f1 (p :: done) x1 H1 N2) as (x' & f' & E' & H').
  - intros q Iq. destruct (I q (or_intror Iq)) as [A1 A2]. split; [|exact A2]. intros [<-|Q]; tauto.
  - intros before c after -> k q Iq. destruct (O (p :: before) c after eq_refl k q Iq) as [[<-|Q]|[Q|Q]]; [right; left; left; auto|left; auto|right; left; right; auto|right; right; auto].
  - exists x', f'. split; [exists x1; split; assumption|]. cbn [rev]. rewrite <- app_assoc. exact H'.
Qed.
End All.

Lemma import_but (stays : nat -> Prop) rank fuel src sel es x ev ps :
  (forall q, stays q -> stays_put x ps q) ->
  (forall p, In p ps ->
     reachable pr umax (t_sch (src p)) (Free (src p)) /\ t_kind (src p) <> Sorted /\ NoDup (map fst (foreign p)) /\
     extract_selection pr (heads p) (src p) (sel p) = Ok (es p) /\ NoDup (ex_sel (es p)) /\ rank p < fuel /\
     can_take pr umax x p (length (ex_sel (es p))) (t_sch (src p))) ->
  complete_but stays foreign ps src es -> NoDup ps -> in_order_but stays foreign ps ->
  (forall c k q, In c ps -> In (k, q) (foreign c) -> stays q \/ u_trackers (xu_u x) q <> []) ->
  handled_by_nothing (xu_u x) ev -> linked pr umax rank (xu_u x) ->
  exists x' f, restore_all pr umax heads foreign order fuel es ev ps x x' /\
    (forall p, In p ps -> exists d d', nth_error (u_tabs (xu_u x)) p = Some d /\ nth_error (u_tabs (xu_u x')) p = Some d' /\
       added (foreign p) f p (ex_sel (es p)) (src p) d d') /\
    (forall p, ~ In p ps -> nth_error (u_tabs (xu_u x')) p = nth_error (u_tabs (xu_u x)) p) /\
    (forall q a, stays q -> f q a = a) /\
    (whole foreign (u_tabs (xu_u x)) ->
     (forall c k q i r a, In c ps -> In (k, q) (foreign c) -> stays q -> In i (ex_sel (es c)) -> row_of (src c) i r -> nth_error r k = Some (VRow a) ->
        exists tq, nth_error (u_tabs (xu_u x)) q = Some tq /\ t_contains tq a = true) -> whole foreign (u_tabs (xu_u x'))) /\
    linked pr umax rank (xu_u x') /\ u_hdl (xu_u x') = u_hdl (xu_u x) /\ u_trk (xu_u x') = u_trk (xu_u x) /\
    (forall p n, In p ps -> can_take pr umax x p (length (ex_sel (es p)) + n) (t_sch (src p)) -> can_take pr umax x' p n (t_sch (src p))) /\
    (forall p n s, ~ In p ps -> can_take pr umax x p n s -> can_take pr umax x' p n s).
Proof.
  intros St Src Cm ND O Trk HN Lin.
  destruct (imports_all rank fuel src sel es x ev ps Src stays St Cm Trk HN ps (fun _ a => a) [] x) as (x' & f & E & H).
  - split; auto; intros p; try intros ? ? []; intros [].
  - exact ND.
  - auto.
  - intros before c after Eq k q I. destruct (O before c after Eq k q I); tauto.
  - rewrite app_nil_r in H. assert (Rv : forall p, In p (rev ps) <-> In p ps) by (intro p; symmetry; apply in_rev).
    exists x', f. split; [exact E|].
    assert (Ad : forall p, In p ps -> exists d d', nth_error (u_tabs (xu_u x)) p = Some d /\ nth_error (u_tabs (xu_u x')) p = Some d' /\
       added (foreign p) f p (ex_sel (es p)) (src p) d d').
    { intros p I. apply Rv in I. destruct (mw_done _ _ _ _ _ _ _ _ H p I) as [(d & d' & A1 & A2 & A3 & _) _]. eauto. }
    assert (Ot : forall p, ~ In p ps -> nth_error (u_tabs (xu_u x')) p = nth_error (u_tabs (xu_u x)) p).
    { intros p N. apply (mw_todo _ _ _ _ _ _ _ _ H p). rewrite Rv. exact N. }
    split; [exact Ad|]. split; [exact Ot|]. split; [intros q a Q; apply (mw_stays _ _ _ _ _ _ _ _ H q Q)|]. split; [|split; [apply H|split; [apply H|split; [apply H|split]]]].
    + intros W Wx c t k q i r Et Ik G.
      assert (Ok1 : forall p d, In p ps -> nth_error (u_tabs (xu_u x)) p = Some d -> exists live rs, t_ok d live rs).
      { intros p d I Ed. destruct (Src p I) as (_ & _ & _ & _ & _ & _ & d0 & fs & B1 & _ & B3 & _). rewrite Ed in B1. injection B1 as <-.
        destruct (sane_tg _ _ _ _ B3) as (_ & live & rs & K & _). eauto. }
      assert (Ok2 : forall p d, In p ps -> nth_error (u_tabs (xu_u x')) p = Some d -> exists live rs, t_ok d live rs).
      { intros p d I Ed. apply Rv in I. destruct (mw_done _ _ _ _ _ _ _ _ H p I) as [(d0 & d' & _ & A2 & _ & _ & A5 & _) _]. rewrite Ed in A2. injection A2 as <-.
        destruct (sane_tg _ _ _ _ A5) as (_ & live & rs & K & _). eauto. }
      assert (Kp : forall q tq a, nth_error (u_tabs (xu_u x)) q = Some tq -> t_contains tq a = true ->
        exists tq', nth_error (u_tabs (xu_u x')) q = Some tq' /\ t_contains tq' a = true).
      { intros q0 tq a Eq C. destruct (in_dec Nat.eq_dec q0 ps) as [I|N].
        - destruct (Ad q0 I) as (d & d' & A1 & A2 & (A3 & _)). rewrite Eq in A1. injection A1 as <-. exists d'. split; [exact A2|].
          destruct (Ok1 q0 tq I Eq) as (l1 & s1 & K1). destruct (Ok2 q0 d' I A2) as (l2 & s2 & K2).
          apply (contains_get _ _ _ K1) in C. destruct C as [r0 G0]. apply (contains_get _ _ _ K2). exists r0. apply A3. exact G0.
        - exists tq. rewrite (Ot q0 N). auto. }
      assert (Old : forall t0, nth_error (u_tabs (xu_u x)) c = Some t0 -> t_get_row t0 i = Ok r ->
        exists tq a, nth_error (u_tabs (xu_u x')) q = Some tq /\ nth_error r k = Some (VRow a) /\ t_contains tq a = true).
      { intros t0 E0 G0. destruct (W c t0 k q i r E0 Ik G0) as (tq & a & Eq & Er & C).
        destruct (Kp q tq a Eq C) as (tq' & Eq' & C'). exists tq', a. auto. }
      destruct (in_dec Nat.eq_dec c ps) as [I|N]; [|apply (Old t); [rewrite <- (Ot c N); exact Et|exact G]].
      destruct (Ad c I) as (d & d' & A1 & A2 & (_ & A4 & _ & A6)). rewrite Et in A2. injection A2 as <-.
      destruct (A6 i r G) as [G0|(j & Ij & ->)]; [apply (Old d); assumption|].
      destruct (A4 j Ij) as (_ & r0 & r' & C1 & C2 & _ & C4). rewrite G in C2. injection C2 as <-.
      destruct (C4 k q Ik) as (a & Ea & Ea'). destruct (Cm c k q j r0 I Ik Ij C1) as (a' & Er & Is). rewrite Ea in Er. injection Er as <-.
      assert (Iq : In q ps \/ stays q).
      { destruct (in_split _ _ I) as (l1 & l2 & Sp). rewrite Sp. destruct (O l1 c l2 Sp k q Ik) as [X|X]; [left; apply in_or_app; left; exact X|right; exact X]. }
      destruct Iq as [Iq|Iq].
      2:{ destruct (Wx c k q j r0 a I Ik Iq Ij C1 Ea) as (tq & Eq & C). destruct (Kp q tq a Eq C) as (tq' & Eq' & C').
          exists tq', a. split; [exact Eq'|]. split; [|exact C']. rewrite (proj2 (mw_stays _ _ _ _ _ _ _ _ H q Iq)) in Ea'. exact Ea'. }
      destruct Is as [Is|Is]; [|destruct (St q Is); contradiction].
      destruct (Ad q Iq) as (dq & dq' & B1 & B2 & (_ & B4 & _)). destruct (B4 a Is) as (_ & _ & rq & _ & Gq & _).
      exists dq', (f q a). split; [exact B2|]. split; [exact Ea'|]. destruct (Ok2 q dq' Iq B2) as (l2 & s2 & K2). apply (contains_get _ _ _ K2). eauto.
    + intros p n I (d & fs & B1 & B2 & B3 & B4 & B5 & B6 & B7 & B8). apply Rv in I.
      destruct (mw_done _ _ _ _ _ _ _ _ H p I) as [(d0 & d' & A1 & A2 & A3 & A4 & A5 & A6 & A7) (fs' & A8 & A9 & A10 & _)].
      rewrite B1 in A1. injection A1 as <-. exists d', fs'. split; [exact A2|]. split; [exact A4|]. split; [exact A5|]. split; [exact A6|].
      split; [|auto]. rewrite A7. unfold t_imax in *. rewrite A4. rewrite B2 in B5. lia.
    + intros p n s N (d & fs & B). exists d, fs. rewrite (Ot p N). destruct (mw_todo _ _ _ _ _ _ _ _ H p) as [_ ->]; [rewrite Rv; exact N|exact B].
Qed.
Lemma import rank fuel src sel es x ev ps :
  (forall p, In p ps ->
     reachable pr umax (t_sch (src p)) (Free (src p)) /\ t_kind (src p) <> Sorted /\ NoDup (map fst (foreign p)) /\
     extract_selection pr (heads p) (src p) (sel p) = Ok (es p) /\ NoDup (ex_sel (es p)) /\ rank p < fuel /\
     can_take pr umax x p (length (ex_sel (es p))) (t_sch (src p))) ->
  complete foreign ps src es -> NoDup ps -> in_order foreign ps ->
  (forall c k q, In c ps -> In (k, q) (foreign c) -> u_trackers (xu_u x) q <> []) ->
  handled_by_nothing (xu_u x) ev -> linked pr umax rank (xu_u x) ->
  exists x' f, restore_all pr umax heads foreign order fuel es ev ps x x' /\
    (forall p, In p ps -> exists d d', nth_error (u_tabs (xu_u x)) p = Some d /\ nth_error (u_tabs (xu_u x')) p = Some d' /\
       added (foreign p) f p (ex_sel (es p)) (src p) d d') /\
    (forall p, ~ In p ps -> nth_error (u_tabs (xu_u x')) p = nth_error (u_tabs (xu_u x)) p) /\
    (whole foreign (u_tabs (xu_u x)) -> whole foreign (u_tabs (xu_u x'))) /\
    linked pr umax rank (xu_u x') /\ u_hdl (xu_u x') = u_hdl (xu_u x) /\ u_trk (xu_u x') = u_trk (xu_u x) /\
    (forall p n, In p ps -> can_take pr umax x p (length (ex_sel (es p)) + n) (t_sch (src p)) -> can_take pr umax x' p n (t_sch (src p))) /\
    (forall p n s, ~ In p ps -> can_take pr umax x p n s -> can_take pr umax x' p n s).
Proof.
  intros Src Cm ND O Trk HN Lin.
  destruct (import_but (fun _ => False) rank fuel src sel es x ev ps) as (x' & f & A1 & A2 & A3 & _ & A4 & A5); auto.
  - intros q [].
  - intros c k q i r I Ik Ii Rw. destruct (Cm c k q i r I Ik Ii Rw) as (a & B1 & B2). eauto.
  - intros before c after E k q I. left. exact (O before c after E k q I).
  - intros c k q I Ik. right. exact (Trk c k q I Ik).
  - exists x', f. split; [exact A1|]. split; [exact A2|]. split; [exact A3|]. split; [|exact A5]. intro W. apply (A4 W). intros c k q i r a _ _ [].
Qed.
End B.
