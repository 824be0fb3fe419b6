(** Proofs about deleting rows in several steps. *)
From Coq Require Import List Arith Bool Lia.
From Verif Require Import Base BaseFacts Column ColumnFacts Order RowRange RowRangeFacts Table TableFacts SortedTab BagTab TableSpec Hist HistFacts TableProps RowProps
  Events Cascade CascadeSpec CascadeFacts CascadeClear CascadeCalls CascadeProps Extract ExtractSpec ExtractFacts RestoreFacts InvalidFacts ExtractProps IntegritySpec IntegrityFacts MirrorSpec MirrorFacts
  BackupSpec BackupFacts ImportSpec ImportFacts LifeSpec LifeFacts LiveSpec LiveFacts RepushSpec RepushFacts ClearSpec ClearFacts MixSpec MixFacts UndoSpec UndoFacts BatchSpec.
Import ListNotations.

Lemma without_same {A} ids ids' (rows : list A) : forall n, (forall j, n <= j < n + length rows -> (In j ids <-> In j ids')) -> without n rows ids = without n rows ids'.
Proof.
  induction rows as [|x rows IH]; intros n H; [reflexivity|]. cbn [without]. rewrite (IH (S n)) by (intros j J; apply H; cbn; lia).
  assert (E : mem n ids = mem n ids') by (apply eq_true_iff_eq; rewrite !mem_In; apply H; cbn; lia). rewrite E. reflexivity.
Qed.
(** What is left determines the rows. *)
Lemma loses_same dead dead' t t1 t2 live rows l1 r1 l2 r2 : t_ok t live rows -> t_ok t1 l1 r1 -> t_ok t2 l2 r2 -> t_sch t1 = t_sch t -> t_sch t2 = t_sch t ->
  loses dead t t1 -> loses dead' t t2 -> (forall i, dead i <-> dead' i) -> t_len t2 = t_len t1 /\ forall i r, t_get_row t1 i = Ok r <-> t_get_row t2 i = Ok r.
Proof.
  intros K K1 K2 E1 E2 L1 L2 Dd. assert (Ek1 : t_kind t1 = t_kind t) by (unfold t_kind; congruence). assert (Ek2 : t_kind t2 = t_kind t) by (unfold t_kind; congruence).
  unfold loses in *. destruct (t_kind t) eqn:Kd; try (rewrite L1, L2; split; reflexivity).
  - destruct L1 as [M1 L1], L2 as [M2 L2]. split; [congruence|]. intros i r. rewrite L1, L2, Dd. reflexivity.
  - destruct L1 as (ids1 & H1 & L1), L2 as (ids2 & H2 & L2). assert (N : t_kind t <> Consistent) by congruence. assert (N1 : t_kind t1 <> Consistent) by congruence.
    assert (N2 : t_kind t2 <> Consistent) by congruence. pose proof (holds_of _ _ _ K N) as Ho. pose proof (L1 _ Ho) as A1. pose proof (L2 _ Ho) as A2.
    rewrite (without_same ids2 ids1) in A2 by (intros j [_ J]; cbn in J; rewrite <- (proj1 Ho) in J; rewrite H1, H2, Dd by exact J; reflexivity).
    pose proof (holds_unique _ _ _ A1 (holds_of _ _ _ K1 N1)) as <-. pose proof (holds_unique _ _ _ A2 (holds_of _ _ _ K2 N2)) as <-.
    split; [rewrite (proj1 A1), (proj1 A2); reflexivity|]. intros i r. rewrite (get_nth _ _ _ i r K1 N1), (get_nth _ _ _ i r K2 N2). reflexivity.
Qed.
Lemma doomed_app u p a b c i : doomed u p (a ++ b) c i <-> doomed u p a c i \/ doomed u p b c i.
Proof.
  split.
  - induction 1 as [i Hi|q i c k key j _ IH Tr Re].
    + apply in_app_or in Hi. destruct Hi; [left|right]; apply doomed_marked; assumption.
    + destruct IH as [IH|IH]; [left|right]; eapply doomed_dependent; eauto.
  - intros [H|H]; (induction H as [i Hi|q i c k key j _ IH Tr Re]; [apply doomed_marked; apply in_or_app; auto|eapply doomed_dependent; eauto]).
Qed.

(** Two steps. *)
Section Two.
Variables (rank : nat -> nat) (order : nat -> row -> row -> comparison) (u u1 u2 : universe) (p2 : nat) (ids2 rest : list nat) (t2 t2' : table) (D1 : nat -> nat -> Prop).
Hypothesis Wr : wired rank order u.
Hypothesis Ok0 : forall c t, nth_error (u_tabs u) c = Some t -> exists live rows, t_ok t live rows.
Hypothesis Ln : length (u_tabs u1) = length (u_tabs u).
Hypothesis Trk : u_trk u1 = u_trk u.
Hypothesis L1 : forall c t, nth_error (u_tabs u) c = Some t -> exists t', nth_error (u_tabs u1) c = Some t' /\ t_sch t' = t_sch t /\ loses (D1 c) t t'.
Hypothesis Closed : forall q i c k key j, D1 q i -> In (TAuto c k key) (u_trackers u q) -> refers u c k j i -> D1 c j.
Hypothesis L2 : forall c t, nth_error (u_tabs u1) c = Some t -> exists t', nth_error (u_tabs u2) c = Some t' /\ t_sch t' = t_sch t /\ loses (doomed u1 p2 rest c) t t'.
Hypothesis T2 : nth_error (u_tabs u) p2 = Some t2.
Hypothesis K2 : t_kind t2 = Consistent.
Hypothesis T2' : nth_error (u_tabs u1) p2 = Some t2'.
Hypothesis There : forall i, In i ids2 -> exists r, t_get_row t2 i = Ok r.
Hypothesis Rest : forall i, In i rest <-> In i ids2 /\ exists r, t_get_row t2' i = Ok r.
Notation D2 := (doomed u p2 ids2). Notation D2' := (doomed u1 p2 rest).
Definition firm (c : nat) : Prop := forall t, nth_error (u_tabs u) c = Some t -> t_kind t = Consistent.

Lemma back c t' : nth_error (u_tabs u1) c = Some t' -> exists t, nth_error (u_tabs u) c = Some t /\ t_sch t' = t_sch t /\ loses (D1 c) t t'.
Proof.
  intro H. pose proof (nth_error_Some_lt _ _ _ H) as Lt. rewrite Ln in Lt. destruct (nth_error_lt_Some _ _ Lt) as [t E]. exists t. split; [exact E|].
  destruct (L1 c t E) as (t1 & E1 & S1 & Lo). rewrite H in E1. injection E1 as <-. auto.
Qed.
Lemma trk q : u_trackers u1 q = u_trackers u q. Proof. unfold u_trackers. rewrite Trk. reflexivity. Qed.
Lemma firm_q q c k key : In (TAuto c k key) (u_trackers u q) -> firm q.
Proof.
  intros I t E. destruct Wr as (_ & W2 & _). destruct (t_kind t) eqn:Kd; auto; exfalso; (assert (N : t_kind t <> Consistent) by congruence); rewrite (W2 _ _ E N) in I; destruct I.
Qed.
Lemma firm_rows c t t' j r : firm c -> nth_error (u_tabs u) c = Some t -> nth_error (u_tabs u1) c = Some t' -> t_get_row t' j = Ok r <-> t_get_row t j = Ok r /\ ~ D1 c j.
Proof.
  intros F E E'. destruct (L1 c t E) as (t1 & E1 & _ & Lo). rewrite E' in E1. injection E1 as <-. unfold loses in Lo. rewrite (F t E) in Lo. apply Lo.
Qed.
Lemma less c i : D2' c i -> firm c -> D2 c i.
Proof.
  induction 1 as [i Hi|q i c k key j Dq IH Tr (t' & r & E & Gr & Ek)]; intro F.
  - apply doomed_marked. apply Rest. exact Hi.
  - rewrite trk in Tr. pose proof (firm_q _ _ _ _ Tr) as Fq. destruct (back _ _ E) as (t & Et & _). eapply doomed_dependent; [exact (IH Fq)|exact Tr|].
    exists t, r. split; [exact Et|]. split; [|exact Ek]. apply (firm_rows c t t' j r F Et E). exact Gr.
Qed.
Lemma more c i : D2 c i -> firm c -> ~ ~ (D1 c i \/ D2' c i).
Proof.
  induction 1 as [i Hi|q i c k key j Dq IH Tr (t & r & E & Gr & Ek)]; intros F X.
  - destruct (There i Hi) as [r Gr]. apply X. right. apply doomed_marked. apply Rest. split; [exact Hi|]. exists r. apply (firm_rows p2 t2 t2' i r F T2 T2'). split; [exact Gr|]. tauto.
  - apply (IH (firm_q _ _ _ _ Tr)). intros [Y|Y]; apply X.
    + left. eapply Closed; [exact Y|exact Tr|]. exists t, r. auto.
    + right. destruct (L1 c t E) as (t' & E' & _). eapply doomed_dependent; [exact Y|rewrite trk; exact Tr|]. exists t', r. split; [exact E'|]. split; [|exact Ek].
      apply (firm_rows c t t' j r F E E'). split; [exact Gr|]. tauto.
Qed.
Theorem two c t : nth_error (u_tabs u) c = Some t -> exists t', nth_error (u_tabs u2) c = Some t' /\ t_sch t' = t_sch t /\ loses (fun i => D1 c i \/ D2 c i) t t'.
Proof.
  intro E. destruct (L1 c t E) as (t1 & E1 & S1 & Lo1). destruct (L2 c t1 E1) as (t3 & E3 & S3 & Lo2). exists t3. split; [exact E3|]. split; [congruence|].
  assert (Ek : t_kind t1 = t_kind t) by (unfold t_kind; congruence). unfold loses in *. rewrite Ek in Lo2. destruct (t_kind t) eqn:Kd; try congruence.
  - assert (F : firm c) by (intros t0 E0; congruence). destruct Lo1 as [M1 Lo1], Lo2 as [M2 Lo2]. split; [congruence|]. intros j r. rewrite Lo2, Lo1. split.
    + intros [[H1 H2] H3]. split; [exact H1|]. intros [X|X]; [exact (H2 X)|]. apply (more c j X F). tauto.
    + intros [H1 H2]. split; [split; [exact H1|tauto]|]. intro X. apply H2. right. exact (less c j X F).
  - destruct Lo1 as (a & Ha & Lo1), Lo2 as (b & Hb & Lo2). destruct (Ok0 _ _ E) as (live & rows & K). assert (N : t_kind t <> Consistent) by congruence.
    pose proof (holds_of _ _ _ K N) as Ho. pose proof (Lo1 _ Ho) as Ho1. pose proof (Lo2 _ Ho1) as Ho2. pose proof (proj1 Ho) as Len. pose proof (proj1 Ho1) as Len1.
    set (s := surv (length rows) a) in *. set (b' := filter (fun m => m <? t_len t1) b).
    assert (Fb : Forall (fun i => i < length (without 0 rows a)) b') by (apply Forall_forall; intros m Hm; apply filter_In in Hm; destruct Hm as [_ Hm]; apply Nat.ltb_lt in Hm; lia).
    exists (a ++ map (fun m => nth m s 0) b').
    split.
    + intros j Hj. rewrite Len in Hj. destruct (nth_error_lt_Some _ _ Hj) as [r Er]. pose proof (proj2 Ho _ _ Er) as Gr. rewrite in_app_iff. rewrite Ha by lia.
      assert (Cp : D2 c j \/ D2' c j -> c <> p2) by (intros _ ->; congruence).
      split; (intros [X|X]; [left; exact X|]).
      * right. apply in_map_iff in X. destruct X as (m & Em & Hm). apply filter_In in Hm. destruct Hm as [Hm Lm]. apply Nat.ltb_lt in Lm. apply (Hb m Lm) in Hm.
        rewrite Len1 in Lm. destruct (nth_error_lt_Some _ _ Lm) as [r' Er']. pose proof (proj2 Ho1 _ _ Er') as Gr'. apply without_nth in Er'. fold s in Er'. cbn zeta in Er'. rewrite Em in Er'.
        destruct Er' as [Er' _]. assert (r' = r) by congruence. subst r'. inversion Hm as [i Hi|q i c' k key j' Dq Tr (t' & r' & Et' & Gr2 & Ek2)]; subst; [congruence|].
        rewrite E1 in Et'. injection Et' as <-. rewrite Gr' in Gr2. injection Gr2 as <-. rewrite trk in Tr. eapply doomed_dependent; [exact (less q i Dq (firm_q _ _ _ _ Tr))|exact Tr|].
        exists t, r. auto.
      * destruct (in_dec Nat.eq_dec j a) as [Ia|Na]; [left; apply Ha; [lia|exact Ia]|]. right. destruct (without_pos rows a j r Er Na) as (m & Em & Es). fold s in Es.
        apply in_map_iff. exists m. split; [exact Es|]. pose proof (nth_error_Some_lt _ _ _ Em) as Lm. pose proof (proj2 Ho1 _ _ Em) as Gm. rewrite <- Len1 in Lm. apply filter_In.
        split; [|apply Nat.ltb_lt; exact Lm]. destruct (in_dec Nat.eq_dec m b) as [Ib|Nb]; [exact Ib|]. exfalso.
        inversion X as [i Hi|q i c' k key j' Dq Tr (t' & r' & Et' & Gr2 & Ek2)]; subst; [congruence|]. rewrite E in Et'. injection Et' as <-. rewrite Gr in Gr2. injection Gr2 as <-.
        apply (more q i Dq (firm_q _ _ _ _ Tr)). intros [Y|Y].
        -- apply Na. apply Ha; [lia|]. eapply Closed; [exact Y|exact Tr|]. exists t, r. auto.
        -- apply Nb. apply (Hb m Lm). eapply doomed_dependent; [exact Y|rewrite trk; exact Tr|]. exists t1, r. auto.
    + intros rows' H'. pose proof (holds_unique _ _ _ Ho H') as <-. unfold s. rewrite <- (without_without [] rows a b' Fb).
      rewrite (without_same b' b); [exact Ho2|]. intros j [_ J]. cbn in J. unfold b'. rewrite filter_In, Nat.ltb_lt. split; [tauto|]. intro H. split; [exact H|lia].
Qed.
End Two.

Section B.
Variables (pr : profile) (umax fuel : nat) (heads : nat -> header) (foreign : nat -> list (nat * nat)) (null : nat -> nat -> Prop)
  (rank : nat -> nat) (order : nat -> row -> row -> comparison).
Hypothesis Or : forall c, total_preorder (order c).
Hypothesis Rk : forall p, rank p < fuel.
Variables (fussy : bool) (x0 : xuni).
Hypothesis W : wired rank order (xu_u x0).
Hypothesis N : all_new (xu_u x0).
Hypothesis U : unmapped x0.
Hypothesis D : declared foreign (xu_u x0).
Notation Runs x := (runs fussy pr umax fuel heads foreign null order x0 x None).

Lemma runs_inv x : Runs x -> inv pr umax rank null order (xu_u x).
Proof. intro G. exact (la_inv _ _ _ _ _ _ _ _ (runs_lasting _ _ _ _ _ _ _ _ Or Rk _ _ _ _ W N U D G)). Qed.
Lemma runs_ok x : Runs x -> forall c t, nth_error (u_tabs (xu_u x)) c = Some t -> exists live rows, t_ok t live rows.
Proof. intros G c t E. destruct (i_tg _ _ _ _ _ _ (runs_inv _ G) _ _ E) as (_ & l & r & K & _). eauto. Qed.
Definition step (x : xuni) (p : nat) (ids : list nat) (x' : xuni) : Prop :=
  u_trk (xu_u x') = u_trk (xu_u x) /\ u_hdl (xu_u x') = u_hdl (xu_u x) /\ length (u_tabs (xu_u x')) = length (u_tabs (xu_u x)) /\
  forall t c tc, nth_error (u_tabs (xu_u x)) p = Some t -> nth_error (u_tabs (xu_u x)) c = Some tc ->
    exists tc', nth_error (u_tabs (xu_u x')) c = Some tc' /\ t_sch tc' = t_sch tc /\ loses (doomed (xu_u x) p (filter (t_contains t) ids) c) tc tc'.
Lemma deleted_some x p t ids ev : Runs x -> nth_error (u_tabs (xu_u x)) p = Some t -> t_kind t = Consistent -> NoDup ids ->
  plain_removal ev -> nth_error (u_hdl (xu_u x)) (ev_id ev) = Some HDelete ->
  exists x', deletes pr umax fuel x p ids ev x' /\ Runs x' /\ step x p ids x'.
Proof.
  intros G Hp Kd Nd PE HD. destruct (runs_ok x G p t Hp) as (live & rows & K).
  assert (Fl : Forall (fun i => exists r, t_get_row t i = Ok r) (filter (t_contains t) ids)).
  { apply Forall_forall. intros i Hi. apply filter_In in Hi. apply (contains_get _ _ _ K). apply Hi. }
  assert (Nf : NoDup (filter (t_contains t) ids)) by (apply NoDup_filter; exact Nd).
  destruct (removal_full pr umax fuel rank null order (xu_u x) p t _ ev Rk (runs_inv _ G) Hp Kd Fl Nf PE HD) as (w & u' & He & E' & Cf & Le & Et & Eh & T).
  assert (X : x_flush pr umax fuel x [] p w ev = Ok (XU u' (xu_fl x))) by (unfold x_flush; rewrite E'; reflexivity).
  exists (XU u' (xu_fl x)). split; [exists t, w; auto|]. split.
  - eapply runs_flush; [apply runs_lock; [exact G|exact Hp]|exact Cf|exact Hp|exact He|exact Le| |exact X].
    intros _ _. rewrite deleted_map. split; [exact Nf|]. intros i Hi. apply in_map_iff in Hi. destruct Hi as (j & Ej & _). discriminate.
  - split; [exact Et|]. split; [exact Eh|]. split; [exact (proj2 (framed_flush pr umax _ (framed_do pr umax fuel) _ _ _ _ _ _ E'))|].
    intros t0 c tc H0 Hc. rewrite Hp in H0. injection H0 as <-. exact (T c tc Hc).
Qed.
(** [x1] is [x] but for the rows of [dead], which has all rows that refer to them. *)
Record less_of (x : xuni) (dead : nat -> nat -> Prop) (x1 : xuni) : Prop := {
  lo_runs : Runs x1;
  lo_trk : u_trk (xu_u x1) = u_trk (xu_u x);
  lo_hdl : u_hdl (xu_u x1) = u_hdl (xu_u x);
  lo_len : length (u_tabs (xu_u x1)) = length (u_tabs (xu_u x));
  lo_loses : forall c t, nth_error (u_tabs (xu_u x)) c = Some t -> exists t', nth_error (u_tabs (xu_u x1)) c = Some t' /\ t_sch t' = t_sch t /\ loses (dead c) t t';
  lo_closed : forall q i c k key j, dead q i -> In (TAuto c k key) (u_trackers (xu_u x) q) -> refers (xu_u x) c k j i -> dead c j }.
Lemma steps x x1 x2 dead p2 ids2 t2 : Runs x -> less_of x dead x1 -> Runs x2 -> step x1 p2 ids2 x2 ->
  nth_error (u_tabs (xu_u x)) p2 = Some t2 -> t_kind t2 = Consistent ->
  less_of x (fun c i => dead c i \/ doomed (xu_u x) p2 (filter (t_contains t2) ids2) c i) x2.
Proof.
  intros G [G1 Et Eh El S1 Cl] G2 (Et2 & Eh2 & El2 & S2) H2 K2. destruct (S1 _ _ H2) as (t2' & H2' & _ & Lo).
  destruct (runs_ok x G p2 t2 H2) as (l2 & r2 & O2). destruct (runs_ok x1 G1 p2 t2' H2') as (l2' & r2' & O2').
  constructor; [exact G2|congruence|congruence|congruence| |].
  - eapply (two rank order (xu_u x) (xu_u x1) (xu_u x2) p2 (filter (t_contains t2) ids2) (filter (t_contains t2') ids2) t2 t2' dead).
    + apply (i_wired _ _ _ _ _ _ (runs_inv x G)).
    + apply runs_ok; exact G.
    + exact El.
    + exact Et.
    + exact S1.
    + exact Cl.
    + intros c t. apply S2. exact H2'.
    + exact H2.
    + exact K2.
    + exact H2'.
    + intros i Hi. apply filter_In in Hi. apply (contains_get _ _ _ O2). apply Hi.
    + intro i. unfold loses in Lo. rewrite K2 in Lo. destruct Lo as [_ Lo]. rewrite !filter_In, <- (contains_get _ _ _ O2' i). split.
      * intros [A B]. split; [split; [exact A|]|exact B]. apply (contains_get _ _ _ O2' i) in B. destruct B as [r B]. apply (contains_get _ _ _ O2 i). exists r. apply (Lo i r). exact B.
      * tauto.
  - intros q i c k key j [Y|Y] Tr Re; [left; eapply Cl; eauto|right; eapply doomed_dependent; eauto].
Qed.
Lemma less_of_start x : Runs x -> less_of x (fun _ _ => False) x.
Proof.
  intro G. constructor; [exact G|reflexivity|reflexivity|reflexivity| |tauto]. intros c t Hc. exists t. split; [exact Hc|]. split; [reflexivity|]. unfold loses. destruct (t_kind t); auto.
  - split; [reflexivity|]. intros j r. tauto.
  - exists []. split; [intros j _; cbn; tauto|]. intros rows Ho. rewrite without_none; [exact Ho|]. intros j _ [].
Qed.
Lemma ends_same x xa xb da db : Runs x -> less_of x da xa -> less_of x db xb -> (forall c i, da c i <-> db c i) -> same_rows (xu_u xa) (xu_u xb).
Proof.
  intros G [Ga _ _ La Ha _] [Gb _ _ Lb Hb _] Dd. split; [congruence|]. intros c ta tb Ea Eb. pose proof (nth_error_Some_lt _ _ _ Ea) as Lt. rewrite La in Lt.
  destruct (nth_error_lt_Some _ _ Lt) as [t E]. destruct (Ha _ _ E) as (t' & E1 & Sa & Loa). rewrite Ea in E1. injection E1 as <-.
  destruct (Hb _ _ E) as (t' & E1 & Sb & Lob). rewrite Eb in E1. injection E1 as <-.
  destruct (runs_ok x G c t E) as (l & r & K). destruct (runs_ok xa Ga c ta Ea) as (l1 & r1 & K1). destruct (runs_ok xb Gb c tb Eb) as (l2 & r2 & K2).
  eapply loses_same; [exact K|exact K1|exact K2|exact Sa|exact Sb|exact Loa|exact Lob|apply Dd].
Qed.
Definition taken (u : universe) (bs : list (nat * list nat * event)) (c i : nat) : Prop :=
  exists p ids ev t, In (p, ids, ev) bs /\ nth_error (u_tabs u) p = Some t /\ doomed u p (filter (t_contains t) ids) c i.
Lemma all_steps x bs : Runs x -> Forall (batch (xu_u x)) bs -> forall x1 dead, less_of x dead x1 ->
  exists x2, deletes_all pr umax fuel x1 bs x2 /\ less_of x (fun c i => dead c i \/ taken (xu_u x) bs c i) x2.
Proof.
  intros G F. induction F as [|[[p ids] ev] bs (Nd & PE & HD & t & Hp & Kd) F IH]; intros x1 dead Lo.
  - exists x1. split; [constructor|]. destruct Lo as [A B C E H I]. constructor; auto.
    + intros c t Hc. destruct (H c t Hc) as (t' & Ht' & Es & L). exists t'. split; [exact Ht'|]. split; [exact Es|]. revert L. unfold loses. destruct (t_kind t); auto.
      * intros [L1 L2]. split; [exact L1|]. intros j r. rewrite L2. split; intros [X Y]; (split; [exact X|]); [intros [Z|(? & ? & ? & ? & [] & _)]; exact (Y Z)|tauto].
      * intros (l & L1 & L2). exists l. split; [|exact L2]. intros j Hj. rewrite (L1 j Hj). split; [auto|]. intros [Z|(? & ? & ? & ? & [] & _)]. exact Z.
    + intros q i c k key j [Y|(? & ? & ? & ? & [] & _)] Tr Re. left. eapply I; eauto.
  - destruct (lo_loses _ _ _ Lo _ _ Hp) as (t' & Hp' & Es & _).
    destruct (deleted_some x1 p t' ids ev (lo_runs _ _ _ Lo) Hp') as (x2 & D2 & G2 & S2); auto; [unfold t_kind in *; congruence|rewrite (lo_hdl _ _ _ Lo); exact HD|].
    pose proof (steps x x1 x2 dead p ids t G Lo G2 S2 Hp Kd) as Lo2. destruct (IH x2 _ Lo2) as (x3 & D3 & Lo3). exists x3. split; [econstructor; eauto|].
    destruct Lo3 as [A B C E H I]. constructor; auto.
    + intros c t0 Hc. destruct (H c t0 Hc) as (t0' & Ht' & Es0 & L). exists t0'. split; [exact Ht'|]. split; [exact Es0|].
      assert (Eq : forall i, (dead c i \/ taken (xu_u x) ((p, ids, ev) :: bs) c i) <-> ((dead c i \/ doomed (xu_u x) p (filter (t_contains t) ids) c i) \/ taken (xu_u x) bs c i)).
      { intro i. split.
        - intros [Y|(p0 & ids0 & ev0 & t1 & [[= <- <- <-]|I0] & H1 & Y)]; [auto| |].
          + left. right. rewrite Hp in H1. injection H1 as <-. exact Y.
          + right. exists p0, ids0, ev0, t1. auto.
        - intros [[Y|Y]|(p0 & ids0 & ev0 & t1 & I0 & H1 & Y)]; [auto| |].
          + right. exists p, ids, ev, t. split; [left; reflexivity|auto].
          + right. exists p0, ids0, ev0, t1. split; [right; exact I0|auto]. }
      revert L. unfold loses. destruct (t_kind t0); auto.
      * intros [L1 L2]. split; [exact L1|]. intros j r. rewrite L2, Eq. reflexivity.
      * intros (l & L1 & L2). exists l. split; [|exact L2]. intros j Hj. rewrite (L1 j Hj), Eq. reflexivity.
    + intros q i c k key j [Y|(p0 & ids0 & ev0 & t1 & I0 & H1 & Y)] Tr Re; [left; eapply (lo_closed _ _ _ Lo); eauto|]. right. exists p0, ids0, ev0, t1. split; [exact I0|]. split; [exact H1|].
      eapply doomed_dependent; eauto.
Qed.
Lemma doomed_one u p ids c i : doomed u p ids c i <-> exists a, In a ids /\ doomed u p [a] c i.
Proof.
  split.
  - induction 1 as [i Hi|q i c k key j _ (a & Ia & IH) Tr Re]; [exists i; split; [exact Hi|apply doomed_marked; left; reflexivity]|]. exists a. split; [exact Ia|eapply doomed_dependent; eauto].
  - intros (a & Ia & H). induction H as [i Hi|q i c k key j _ IH Tr Re]; [destruct Hi as [<-|[]]; apply doomed_marked; exact Ia|eapply doomed_dependent; eauto].
Qed.
Lemma taken_incl u bs bs' : (forall p i, asked bs p i -> asked bs' p i) -> forall c i, taken u bs c i -> taken u bs' c i.
Proof.
  intros H c i (p & ids & ev & t & I & Hp & Dm). apply doomed_one in Dm. destruct Dm as (a & Ia & Dm). apply filter_In in Ia. destruct Ia as [Ia Ca].
  destruct (H p a) as (ids' & ev' & I' & Ia'); [exists ids, ev; auto|]. exists p, ids', ev', t. split; [exact I'|]. split; [exact Hp|]. apply doomed_one. exists a. split; [|exact Dm].
  apply filter_In. auto.
Qed.

Section At.
Variable x : xuni.
Hypothesis G : Runs x.
Theorem any_steps bs bs' : Forall (batch (xu_u x)) bs -> Forall (batch (xu_u x)) bs' -> (forall p i, asked bs p i <-> asked bs' p i) ->
  exists xa xb, deletes_all pr umax fuel x bs xa /\ deletes_all pr umax fuel x bs' xb /\ Runs xa /\ Runs xb /\ same_rows (xu_u xa) (xu_u xb).
Proof.
  intros F F' E. destruct (all_steps x bs G F x _ (less_of_start x G)) as (xa & A & La). destruct (all_steps x bs' G F' x _ (less_of_start x G)) as (xb & B & Lb).
  exists xa, xb. split; [exact A|]. split; [exact B|]. split; [exact (lo_runs _ _ _ La)|]. split; [exact (lo_runs _ _ _ Lb)|]. eapply (ends_same x); [exact G|exact La|exact Lb|].
  intros c i. split; (intros [[]|H]; right; revert H; apply taken_incl; apply E).
Qed.
Theorem commute p1 p2 t1 t2 ids1 ids2 ev1 ev2 : nth_error (u_tabs (xu_u x)) p1 = Some t1 -> t_kind t1 = Consistent -> NoDup ids1 ->
  nth_error (u_tabs (xu_u x)) p2 = Some t2 -> t_kind t2 = Consistent -> NoDup ids2 ->
  plain_removal ev1 -> nth_error (u_hdl (xu_u x)) (ev_id ev1) = Some HDelete -> plain_removal ev2 -> nth_error (u_hdl (xu_u x)) (ev_id ev2) = Some HDelete ->
  exists xa1 xa xb1 xb, deletes pr umax fuel x p1 ids1 ev1 xa1 /\ deletes pr umax fuel xa1 p2 ids2 ev2 xa /\
    deletes pr umax fuel x p2 ids2 ev2 xb1 /\ deletes pr umax fuel xb1 p1 ids1 ev1 xb /\ Runs xa /\ Runs xb /\ same_rows (xu_u xa) (xu_u xb).
Proof.
  intros H1 K1 N1 H2 K2 N2 P1 D1 P2 D2. assert (B1 : batch (xu_u x) (p1, ids1, ev1)) by (cbn; eauto 8). assert (B2 : batch (xu_u x) (p2, ids2, ev2)) by (cbn; eauto 8).
  destruct (any_steps [(p1, ids1, ev1); (p2, ids2, ev2)] [(p2, ids2, ev2); (p1, ids1, ev1)]) as (xa & xb & A & B & Ra & Rb & S0); [auto|auto| |].
  - intros p i. split; (intros (ids & ev & [E|[E|[]]] & Hi); exists ids, ev; cbn; auto).
  - inversion A as [|? ? ? ? xa1 ? A1 A2]; subst. inversion A2 as [|? ? ? ? xa2 ? A3 A4]; subst. inversion A4; subst.
    inversion B as [|? ? ? ? xb1 ? B3 B4]; subst. inversion B4 as [|? ? ? ? xb2 ? B5 B6]; subst. inversion B6; subst.
    exists xa1, xa, xb1, xb. auto 8.
Qed.
Theorem batches p t ids1 ids2 ev : nth_error (u_tabs (xu_u x)) p = Some t -> t_kind t = Consistent -> NoDup (ids1 ++ ids2) ->
  plain_removal ev -> nth_error (u_hdl (xu_u x)) (ev_id ev) = Some HDelete ->
  exists xa1 xa xb, deletes pr umax fuel x p ids1 ev xa1 /\ deletes pr umax fuel xa1 p ids2 ev xa /\ deletes pr umax fuel x p (ids1 ++ ids2) ev xb /\
    Runs xa /\ Runs xb /\ same_rows (xu_u xa) (xu_u xb).
Proof.
  intros H1 K1 Nd P1 D1. assert (Bt : forall ids, NoDup ids -> batch (xu_u x) (p, ids, ev)) by (intros; cbn; eauto 8).
  assert (N12 : NoDup ids1 /\ NoDup ids2).
  { clear - Nd. induction ids1 as [|a l IH]; cbn in Nd; [split; [constructor|exact Nd]|]. inversion Nd as [|? ? Na Nl]; subst. destruct (IH Nl) as [A B]. split; [|exact B].
    constructor; [|exact A]. intro I. apply Na. apply in_or_app. auto. }
  destruct (any_steps [(p, ids1, ev); (p, ids2, ev)] [(p, ids1 ++ ids2, ev)]) as (xa & xb & A & B & Ra & Rb & S0); [apply Forall_cons; [apply Bt; tauto|apply Forall_cons; [apply Bt; tauto|apply Forall_nil]]|apply Forall_cons; [apply Bt; exact Nd|apply Forall_nil]| |].
  - intros q i. split.
    + intros (ids & e & [E|[E|[]]] & Hi); injection E as <- <- <-; exists (ids1 ++ ids2), ev; (split; [left; reflexivity|]); apply in_or_app; auto.
    + intros (ids & e & [E|[]] & Hi). injection E as <- <- <-. apply in_app_or in Hi. destruct Hi as [Hi|Hi]; [exists ids1, ev|exists ids2, ev]; cbn; auto.
  - inversion A as [|? ? ? ? xa1 ? A1 A2]; subst. inversion A2 as [|? ? ? ? xa2 ? A3 A4]; subst. inversion A4; subst.
    inversion B as [|? ? ? ? xb1 ? B3 B4]; subst. inversion B4; subst.
    exists xa1, xa, xb. auto 8.
Qed.

(** ** Clearing *)
Lemma doomed_below u p ids c i : doomed u p ids c i -> c = p \/ downstream u p c.
Proof. induction 1 as [i Hi|q i c k key j _ IH Tr Re]; [auto|]. right. destruct IH as [->|Dq]; [eapply downstream_one; eauto|eapply downstream_more; eauto]. Qed.
Lemma without_all {A} ids (rows : list A) : forall n, (forall j, n <= j < n + length rows -> In j ids) -> without n rows ids = [].
Proof.
  induction rows as [|y rows IH]; intros n H; [reflexivity|]. cbn [without]. rewrite (proj2 (mem_In n ids)) by (apply H; cbn; lia). apply IH. intros j J. apply H. cbn. lia.
Qed.
Lemma all_doomed p t ids : nth_error (u_tabs (xu_u x)) p = Some t -> (forall i r, t_get_row t i = Ok r -> In i ids) -> no_strays null (xu_u x) p ->
  forall n c tc j r, fuel - rank c <= n -> c = p \/ downstream (xu_u x) p c -> nth_error (u_tabs (xu_u x)) c = Some tc -> t_get_row tc j = Ok r ->
  doomed (xu_u x) p (filter (t_contains t) ids) c j.
Proof.
  intros Hp Cv Ns. induction n as [|n IH]; intros c tc j r Ln Dc Hc Gr; [specialize (Rk c); lia|]. destruct (runs_ok x G c tc Hc) as (l & rs & K). destruct (Nat.eq_dec c p) as [->|Np].
  - rewrite Hp in Hc. injection Hc as <-. apply doomed_marked. apply filter_In. split; [exact (Cv _ _ Gr)|]. apply (contains_get _ _ _ K). eauto.
  - destruct Dc as [->|Dc]; [congruence|]. destruct (Ns c tc j r Dc Hc Gr) as (q & k & key & i & Dq & Tr & Ek & Nn).
    pose proof (runs_inv x G) as V. destruct (proj1 (i_wired _ _ _ _ _ _ V) _ _ _ _ Tr) as [Rq _].
    assert (Re : refers (xu_u x) c k j i) by (exists tc, r; auto).
    assert (Hq : exists tq, nth_error (u_tabs (xu_u x)) q = Some tq).
    { destruct Dq as [->|Dq]; [eauto|]. clear - Dq V. destruct Dq as [c0 k0 key0 I|q0 c0 k0 key0 _ I];
        destruct (proj1 (i_wired _ _ _ _ _ _ V) _ _ _ _ I) as (_ & t0 & _ & E0 & _); eauto. }
    destruct Hq as [tq Hq]. destruct (i_int _ _ _ _ _ _ V q c k key tq j i Tr Hq Re) as [[r' Gq]|X]; [|contradiction].
    eapply doomed_dependent; [apply (IH q tq i r'); [specialize (Rk q); lia|exact Dq|exact Hq|exact Gq]|exact Tr|exact Re].
Qed.
Lemma loses_all dead t t1 live rows l1 r1 : t_ok t live rows -> t_ok t1 l1 r1 -> t_sch t1 = t_sch t -> watched_kind t -> loses dead t t1 ->
  (forall i r, t_get_row t i = Ok r -> dead i) -> forall i r, t_get_row t1 i <> Ok r.
Proof.
  intros K K1 E1 Wk Lo Dd i r H. assert (Ek1 : t_kind t1 = t_kind t) by (unfold t_kind; congruence). unfold watched_kind in Wk. unfold loses in Lo. destruct (t_kind t) eqn:Kd; try (destruct Wk; discriminate).
  - apply (proj2 Lo) in H. destruct H as [H X]. exact (X (Dd _ _ H)).
  - destruct Lo as (ids & Hi & Lo). assert (N0 : t_kind t <> Consistent) by congruence. assert (N1 : t_kind t1 <> Consistent) by congruence.
    pose proof (holds_of _ _ _ K N0) as Ho. pose proof (Lo _ Ho) as H1. rewrite without_all in H1.
    + pose proof (holds_unique _ _ _ H1 (holds_of _ _ _ K1 N1)) as <-. apply (get_nth _ _ _ i r K1 N1) in H. destruct i; discriminate H.
    + intros j [_ J]. cbn in J. destruct (nth_error_lt_Some _ _ J) as [r' Er]. apply Hi; [rewrite (proj1 Ho); exact J|]. exact (Dd _ _ (proj2 Ho _ _ Er)).
Qed.
Theorem clearing p t ids es w ev : nth_error (u_tabs (xu_u x)) p = Some t -> t_kind t = Consistent -> none_deleted (xu_u x) p ->
  NoDup ids -> (forall i r, t_get_row t i = Ok r -> In i ids) ->
  plain_removal ev -> nth_error (u_hdl (xu_u x)) (ev_id ev) = Some HDelete -> wipes es -> do_edits pr umax (w_new t) es = Ok w ->
  exists x1 x2, deletes pr umax fuel x p ids ev x1 /\ x_flush pr umax fuel x [] p w ev = Ok x2 /\ Runs x1 /\ Runs x2 /\
    (forall c t2 i r, nth_error (u_tabs (xu_u x2)) c = Some t2 -> t_get_row t2 i = Ok r -> exists t1, nth_error (u_tabs (xu_u x1)) c = Some t1 /\ t_get_row t1 i = Ok r) /\
    (no_strays null (xu_u x) p -> alike_rows (xu_u x1) (xu_u x2)).
Proof.
  intros Hp Kc Nd Ni Cv PE HD Wi He. destruct (deleted_some x p t ids ev G Hp Kc Ni PE HD) as (x1 & D1 & G1 & S1).
  pose proof (runs_inv x G) as V. destruct (clear_flush pr umax fuel rank null order (xu_u x) p t es w ev) as (u2 & H2 & Et & Eh & El & Sw); auto.
  assert (X : x_flush pr umax fuel x [] p w ev = Ok (XU u2 (xu_fl x))) by (unfold x_flush; rewrite H2; reflexivity).
  assert (G2 : Runs (XU u2 (xu_fl x))) by (eapply runs_clear; [apply runs_lock; [exact G|exact Hp]| | | | | | | |exact X]; eauto).
  assert (Bk : forall c t2, nth_error (u_tabs u2) c = Some t2 -> exists tc t1, nth_error (u_tabs (xu_u x)) c = Some tc /\ nth_error (u_tabs (xu_u x1)) c = Some t1 /\
    ((c = p \/ downstream (xu_u x) p c) /\ (forall i r, t_get_row t2 i <> Ok r) /\ (no_strays null (xu_u x) p -> forall i r, t_get_row t1 i <> Ok r) \/
     ~ (c = p \/ downstream (xu_u x) p c) /\ forall i r, t_get_row t1 i = Ok r <-> t_get_row t2 i = Ok r)).
  { intros c t2 E2. pose proof (nth_error_Some_lt _ _ _ E2) as Lt. rewrite El in Lt. destruct (nth_error_lt_Some _ _ Lt) as [tc Hc]. destruct (Sw _ _ Hc) as (t2' & E2' & Dd).
    rewrite E2 in E2'. injection E2' as <-. destruct (proj2 (proj2 (proj2 S1)) _ _ _ Hp Hc) as (t1 & E1 & Sc & Lo). exists tc, t1. split; [exact Hc|]. split; [exact E1|].
    destruct (runs_ok x G c tc Hc) as (l & rs & K). destruct (runs_ok x1 G1 c t1 E1) as (l1 & rs1 & K1). destruct Dd as [[Dd ->]|[Dd ->]]; [left|right]; (split; [exact Dd|]).
    - split; [intros i r; apply emptied_rows; exact (tg_ncols _ _ (i_tg _ _ _ _ _ _ V _ _ Hc))|]. intros Ns.
      eapply loses_all; [exact K|exact K1|exact Sc| |exact Lo|intros i r Gr; eapply (all_doomed p t ids Hp Cv Ns (fuel - rank c)); eauto].
      destruct Dd as [->|Dd]; [left; congruence|]. clear - Dd V Hc. destruct Dd as [c0 k0 key0 I|q0 c0 k0 key0 _ I];
        destruct (proj1 (i_wired _ _ _ _ _ _ V) _ _ _ _ I) as (_ & t0 & b & E0 & _ & H0); rewrite Hc in E0; injection E0 as <-; destruct key0; unfold watched_kind; tauto.
    - apply (loses_nothing _ _ _ _ _ _ _ K K1 Sc Lo). intros i Dm. exact (Dd (doomed_below _ _ _ _ _ Dm)). }
  exists x1, (XU u2 (xu_fl x)). split; [exact D1|]. split; [exact X|]. split; [exact G1|]. split; [exact G2|]. cbn [xu_u]. split.
  - intros c t2 i r E2 Gr. destruct (Bk c t2 E2) as (tc & t1 & _ & E1 & [(_ & H & _)|[_ H]]); [elim (H _ _ Gr)|]. exists t1. split; [exact E1|]. apply H. exact Gr.
  - intros Ns c t1 t2 E1 E2 i r. destruct (Bk c t2 E2) as (tc & t1' & _ & E1' & Dd). rewrite E1 in E1'. injection E1' as <-. destruct Dd as [(_ & H & H')|[_ H]]; [|apply H].
    split; intro Gr; [elim (H' Ns _ _ Gr)|elim (H _ _ Gr)].
Qed.
End At.
End B.
