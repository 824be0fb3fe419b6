(** Proofs about programs that do all of this. *)
From Coq Require Import List Arith Bool Lia.
From Verif Require Import Base BaseFacts Column ColumnFacts Order RowRange RowRangeFacts Table TableFacts SortedTab BagTab TableSpec Hist HistFacts TableProps RowProps
  Events Cascade CascadeSpec CascadeFacts CascadeClear CascadeCalls CascadeProps Extract ExtractSpec ExtractFacts RestoreFacts InvalidFacts ExtractProps IntegritySpec IntegrityFacts MirrorSpec MirrorFacts
  BackupSpec BackupFacts ImportSpec ImportFacts LifeSpec LifeFacts LiveSpec LiveFacts RepushSpec RepushFacts ClearSpec ClearFacts MixSpec.
Import ListNotations.

Section M.
Variables (pr : profile) (umax fuel : nat) (heads : nat -> header) (foreign : nat -> list (nat * nat)) (null : nat -> nat -> Prop)
  (rank : nat -> nat) (order : nat -> row -> row -> comparison).
Hypothesis Or : forall c, total_preorder (order c).
Hypothesis Rk : forall p, rank p < fuel.
Local Notation INV := (inv pr umax rank null order).

(** ** Selecting with a read lock *)
Lemma inv_same u u' : same_tabs u u' -> INV u -> INV u'.
Proof.
  intros (S1 & S2 & S3) [W Tg Sn Od So]. assert (Ut : forall q, u_trackers u' q = u_trackers u q) by (intro q; unfold u_trackers; congruence). split.
  - destruct W as (W1 & W2 & W3). unfold wired. rewrite S1, S3. split; [|split; [|exact W3]]; intros *; rewrite Ut; eauto.
  - rewrite S1. exact Tg.
  - rewrite S1. exact Sn.
  - rewrite S1. exact Od.
  - intros p c k key t j i. unfold refers. rewrite Ut, S1. apply So.
Qed.

Lemma select_same u p ev sel u' : handled_by_nothing u ev -> read_select pr umax fuel u [] p ev sel = Ok u' -> same_tabs u u'.
Proof. intros [_ HN] H. unfold read_select in H. bindn H q Hq. injection H as <-. eapply do_flush_null; eauto. Qed.

Lemma book_quiet q m ev notes : ev_removal ev = false -> Forall (fun n => n_event n = ev /\ n_rows n = SAll) notes -> forall b, fold_left (jot q m) notes b = b.
Proof.
  intros Er F. induction F as [|n l [En Rn] F IH]; intro b; [reflexivity|]. cbn [fold_left]. rewrite IH. unfold jot.
  destruct (_ && _); [|reflexivity]. rewrite Rn, En, Er. reflexivity.
Qed.
Lemma heard_in q m notes i : In i (heard q m notes) -> exists n l, In n notes /\ n_table n = q /\ n_rows n = SThese l /\ In i l.
Proof.
  unfold heard. intro H. apply in_flat_map in H. destruct H as (n & Hn & Hi). apply filter_In in Hn. destruct Hn as [Hn E].
  apply andb_true_iff in E. destruct E as [E _]. apply Nat.eqb_eq in E. destruct (n_rows n) as [|l] eqn:R; [destruct Hi|]. eauto 8.
Qed.

Lemma select_follows u p t sel ev u' : INV u -> nth_error (u_tabs u) p = Some t -> handled_by_nothing u ev ->
  match sel with SAll => True | SThese ids => Forall (fun i => exists r, t_get_row t i = Ok r) ids end ->
  read_select pr umax fuel u [] p ev sel = Ok u' -> follows u u'.
Proof.
  intros V Hp HN Hs H. pose proof (select_same _ _ _ _ _ HN H) as (S1 & S2 & S3). destruct HN as [Er HN].
  assert (Ut : forall q, u_trackers u' q = u_trackers u q) by (intro q; unfold u_trackers; congruence).
  unfold read_select in H. bindn H q0 Hq. injection H as <-. destruct q0 as [u1 s1]. cbn [fst] in *. destruct sel as [|ids].
  - destruct (flush_calls pr umax fuel u [] p (W t SAll false false) ev HNull u1) as (notes & En & Fn & _); auto.
    { unfold flush, flush_with. cbn [w_tab w_changes w_pushed w_delete sel_empty]. rewrite put_same by exact Hp. rewrite Hq. cbn [bind fst]. rewrite Er. reflexivity. }
    exists notes. split; [exact En|]. intros q m b M srt f tq Hm Ha Hq0 i. rewrite Ut in Hm. rewrite S1 in Hq0. rewrite <- (M _ _ _ Hm Ha Hq0 i).
    rewrite (book_quiet q m ev); [reflexivity|exact Er|]. eapply Forall_impl; [|exact Fn]. cbn. intros n [X1 X2]. split; [exact X1|apply X2; reflexivity].
  - destruct (quiet_notes pr umax rank u ev (inv_linked _ _ _ _ _ _ V) HN fuel p u [] false false ids u1 s1) as (_ & notes & En & Fn); auto.
    { repeat split. }
    exists notes. split; [exact En|]. intros q m b M srt f tq Hm Ha Hq0 i. rewrite Ut in Hm. rewrite S1 in Hq0. rewrite <- (M _ _ _ Hm Ha Hq0 i).
    rewrite (book_other q m ev); [|exact Er|eapply Forall_impl; [|exact Fn]; intros n [X _]; exact X].
    split; [intros [X|X]; [exact X|]|auto]. apply heard_in in X. destruct X as (n & l & In1 & <- & Rn & Il).
    apply (M _ _ _ Hm Ha Hq0). rewrite Forall_forall in Fn. destruct (Fn n In1) as [_ Y]. rewrite Rn in Y. destruct (Y i Il) as [[Ep Ci]|(t0 & r & E0 & G)].
    + rewrite Ep in *. rewrite Hp in Hq0. injection Hq0 as <-. cbn in Ci. rewrite Forall_forall in Hs. exact (Hs i Ci).
    + rewrite E0 in Hq0. injection Hq0 as <-. exists r. exact G.
Qed.

(** ** Registering a tracker *)
Lemma register_is x p tr x' : x_register_tracker x [] p tr = Ok x' -> exists t, nth_error (u_tabs (xu_u x)) p = Some t /\ t_kind t = Consistent /\
  x' = XU (Uni (u_tabs (xu_u x)) (upd (u_trk (xu_u x)) p (u_trackers (xu_u x) p ++ [tr])) (u_hdl (xu_u x)) (u_log (xu_u x))) (xu_fl x).
Proof.
  unfold x_register_tracker. intro H. bindn H y Hy. bindn H t Ht. bindn H f Hf. bindn H z Hz. unfold u_get in Ht. destruct (nth_error (u_tabs (xu_u x)) p) as [t0|]; [|discriminate].
  injection Ht as ->. unfold t_consistent in H. exists t. split; [reflexivity|]. destruct (t_kind t) eqn:Kd; try discriminate H. injection H as <-. auto.
Qed.
Lemma trackers_upd u p l h lg q : u_trackers (Uni (u_tabs u) (upd (u_trk u) p l) h lg) q = if (q =? p) && (p <? length (u_trk u)) then l else u_trackers u q.
Proof.
  unfold u_trackers. cbn [u_trk]. destruct (Nat.ltb_spec p (length (u_trk u))) as [L|L].
  - destruct (Nat.eqb_spec q p) as [->|N]; cbn [andb].
    + apply nth_error_nth. apply nth_error_upd_eq. exact L.
    + destruct (nth_error (u_trk u) q) as [a|] eqn:E.
      * rewrite (nth_error_nth _ _ _ E). apply nth_error_nth. rewrite nth_error_upd_ne by auto. exact E.
      * apply nth_error_None in E. rewrite !nth_overflow; [reflexivity|exact E|rewrite upd_length; exact E].
  - rewrite andb_false_r. replace (upd (u_trk u) p l) with (u_trk u); [reflexivity|]. apply list_ext. intro n. destruct (Nat.eq_dec n p) as [->|N]; [|rewrite nth_error_upd_ne by auto; reflexivity].
    rewrite !(proj2 (nth_error_None _ _)); [reflexivity|rewrite upd_length; exact L|exact L].
Qed.
Lemma register_auto x p srt f x' q c k key : x_register_tracker x [] p (TUser srt f) = Ok x' -> In (TAuto c k key) (u_trackers (xu_u x') q) -> In (TAuto c k key) (u_trackers (xu_u x) q).
Proof.
  intros H I. apply register_is in H. destruct H as (t & _ & _ & ->). cbn [xu_u] in I. rewrite trackers_upd in I. destruct (Nat.eqb_spec q p) as [->|N]; cbn [andb] in I; [|exact I].
  destruct (p <? _); [|exact I]. apply in_app_iff in I. destruct I as [I|[I|[]]]; [exact I|discriminate].
Qed.
Lemma register_inv x p srt f x' : INV (xu_u x) -> x_register_tracker x [] p (TUser srt f) = Ok x' -> INV (xu_u x').
Proof.
  intros [W Tg Sn Od So] H. pose proof (register_auto x p srt f x') as Au. pose proof (register_is _ _ _ _ H) as (t & Hp & Kc & E).
  assert (Et : u_tabs (xu_u x') = u_tabs (xu_u x)) by (rewrite E; reflexivity). destruct W as (W1 & W2 & W3). split; rewrite ?Et; auto.
  - split; [|split; [|rewrite E; exact W3]]; rewrite Et.
    + intros q c k key I. eapply W1. eapply Au; eauto.
    + intros q tq Hq Nk. rewrite E. cbn [xu_u]. rewrite trackers_upd. destruct (Nat.eqb_spec q p) as [->|N]; cbn [andb]; [congruence|eauto].
  - intros q c k key t0 j i I. unfold refers. rewrite Et. eapply So. eapply Au; eauto.
Qed.
Lemma register_declared x p srt f x' : declared foreign (xu_u x) -> x_register_tracker x [] p (TUser srt f) = Ok x' -> declared foreign (xu_u x').
Proof.
  intros (D1 & D2 & D3) H. split; [|split; [exact D2|]].
  - intros q c k key I. eapply D1. eapply register_auto; eauto.
  - intros c k q I. apply register_is in H. destruct H as (t & _ & _ & ->). cbn [xu_u]. rewrite trackers_upd. destruct (_ && _); [|eauto].
    intro X. apply app_eq_nil in X. destruct X; discriminate.
Qed.

(** ** Trackers stay where they are *)
Record extends (u u' : universe) : Prop := {
  ex_len : length (u_trk u') = length (u_trk u);
  ex_tabs : length (u_tabs u') = length (u_tabs u);
  ex_pos : forall q m tr, nth_error (u_trackers u q) m = Some tr -> nth_error (u_trackers u' q) m = Some tr }.
Lemma extends_framed u u' : framed u u' -> extends u u'.
Proof. intros [A B]. split; [congruence|exact B|]. intros q m tr H. unfold u_trackers in *. rewrite A. exact H. Qed.
Lemma extends_trans u v w : extends u v -> extends v w -> extends u w.
Proof. intros [A B C] [A' B' C']. split; [congruence|congruence|auto]. Qed.
Lemma extends_register x p tr x' : x_register_tracker x [] p tr = Ok x' -> extends (xu_u x) (xu_u x').
Proof.
  intro H. apply register_is in H. destruct H as (t & _ & _ & ->). split; [cbn; apply upd_length|reflexivity|]. intros q m tr0 G. cbn [xu_u]. rewrite trackers_upd.
  destruct (Nat.eqb_spec q p) as [->|N]; cbn [andb]; [|exact G]. destruct (p <? _); [|exact G].
  rewrite nth_error_app1; [exact G|]. eapply nth_error_Some_lt; eauto.
Qed.
(** What those that have been there are told keeps their books right. *)
Definition attends (u u' : universe) : Prop :=
  extends u u' /\ exists notes, u_log u' = u_log u ++ notes /\
    forall q m b, m < length (u_trackers u q) -> reads_as u q m b -> reads_as u' q m (fold_left (jot q m) notes b).
Lemma attends_trans u v w : attends u v -> attends v w -> attends u w.
Proof.
  intros (X1 & n1 & E1 & H1) (X2 & n2 & E2 & H2). split; [eapply extends_trans; eauto|]. exists (n1 ++ n2). split; [rewrite E2, E1, app_assoc; reflexivity|].
  intros q m b L R. rewrite fold_left_app. apply H2; [|auto]. destruct (nth_error_lt_Some _ _ L) as [tr E]. apply (ex_pos _ _ X1) in E. eapply nth_error_Some_lt; eauto.
Qed.
Lemma attends_follows u u' : framed u u' -> follows u u' -> attends u u'.
Proof. intros F (notes & En & H). split; [apply extends_framed; exact F|]. exists notes. auto. Qed.
Lemma attends_register x p tr x' : x_register_tracker x [] p tr = Ok x' -> attends (xu_u x) (xu_u x').
Proof.
  intro H. pose proof (extends_register _ _ _ _ H) as X. split; [exact X|]. apply register_is in H. destruct H as (t & _ & _ & ->). exists []. split; [symmetry; apply app_nil_r|].
  intros q m b L R srt f tq Hm Ha Hq. destruct (nth_error_lt_Some _ _ L) as [tr0 E]. pose proof (ex_pos _ _ X _ _ _ E) as E'. rewrite Hm in E'. injection E' as <-.
  exact (R srt f tq E Ha Hq).
Qed.
(** ** What is kept all the time *)
Record lasting (x : xuni) (l : option (nat * wlock)) : Prop := {
  la_inv : INV (xu_u x);
  la_dec : declared foreign (xu_u x);
  la_fl : forall p t, nth_error (u_tabs (xu_u x)) p = Some t -> exists f, nth_error (xu_fl x) p = Some f;
  la_lock : match l with Some (p, w) => exists t, nth_error (u_tabs (xu_u x)) p = Some t /\ w = w_new t | None => True end }.

Lemma lasting_framed x l u' fl' l' : lasting x l -> framed (xu_u x) u' -> INV u' ->
  (forall p f, nth_error (xu_fl x) p = Some f -> exists f', nth_error fl' p = Some f') ->
  match l' with Some (p, w) => exists t, nth_error (u_tabs u') p = Some t /\ w = w_new t | None => True end -> lasting (XU u' fl') l'.
Proof.
  intros [V De Fl Lk] [F1 F2] V' Hf Hl. split; cbn [xu_u xu_fl]; [exact V'| | |exact Hl].
  - unfold declared, u_trackers in *. rewrite F1. exact De.
  - intros q tq Eq. apply nth_error_Some_lt in Eq. rewrite F2 in Eq. destruct (nth_error_lt_Some _ _ Eq) as [t0 E0].
    destruct (Fl _ _ E0) as (f & G1). destruct (Hf _ _ G1) as (f' & G3). exists f'. exact G3.
Qed.
Lemma lasting_alive x l ps : lasting x l -> unleaked x ps -> alive pr umax foreign null rank order (fun p => ~ In p ps) x x.
Proof.
  intros [V De Fl Lk] Un. split; auto. intros p t Ep. destruct (Fl p t Ep) as (f & G1). exists f. split; [exact G1|].
  destruct (in_dec Nat.eq_dec p ps) as [I|N]; [right; eauto|left; exact N].
Qed.
Lemma live_x x p w ev x' w' : x_live_flush pr umax fuel x [] p w ev = Ok (x', w') ->
  live_flush pr umax fuel (xu_u x) [] p w ev = Ok (xu_u x', w') /\
  forall q f, nth_error (xu_fl x) q = Some f -> exists f', nth_error (xu_fl x') q = Some f'.
Proof.
  intro H. unfold x_live_flush in H. bindn H q0 Hq. destruct q0 as [u1 w1]. cbn [fst snd] in H. destruct (sel_empty (w_changes w)).
  { injection H as <- <-. split; [exact Hq|]. eauto. }
  bindn H f Hf. injection H as <- <-. split; [exact Hq|]. cbn [xu_fl]. unfold xu_flush in Hf. destruct (nth_error (xu_fl x) p) as [f0|] eqn:E0; [|discriminate].
  injection Hf as ->. intros q g Hg. destruct (Nat.eq_dec q p) as [->|N]; [|rewrite nth_error_upd_ne by auto; eauto].
  rewrite nth_error_upd_eq by (eapply nth_error_Some_lt; eauto). eexists. reflexivity.
Qed.

(** One step of a program. *)
Lemma live_step x p t es w1 ev x' w' : lasting x (Some (p, w_new t)) -> careful null order (xu_u x) p es ev ->
  nth_error (u_tabs (xu_u x)) p = Some t -> t_kind t = Consistent -> do_edits pr umax (w_new t) es = Ok w1 ->
  x_live_flush pr umax fuel x [] p w1 ev = Ok (x', w') ->
  flush pr umax fuel (xu_u x) [] p w1 ev = Ok (xu_u x') /\ exists t', nth_error (u_tabs (xu_u x')) p = Some t' /\ w' = w_new t'.
Proof.
  intros A Ca Hp Kc He H. apply live_x in H. destruct H as [H _]. pose proof (la_inv _ _ A) as V.
  apply (live_fresh pr umax fuel (xu_u x) p t es w1 ev (xu_u x') w'); auto.
  - intro D. apply (downstream_rank rank) in D; [lia|]. intros q c k key I. apply (i_wired _ _ _ _ _ _ V) in I. apply I.
  - exact (i_tg _ _ _ _ _ _ V _ _ Hp).
  - pose proof (Ca t Hp) as C. rewrite Kc in C. destruct C as [C _]. eapply Forall_impl; [|exact C]. cbn. tauto.
Qed.
Lemma same_fl (fl : list fstate) : forall p f, nth_error fl p = Some f -> exists f', nth_error fl p = Some f'.
Proof. eauto. Qed.

Lemma lasting_new x0 : wired rank order (xu_u x0) -> all_new (xu_u x0) -> unmapped x0 -> declared foreign (xu_u x0) -> lasting x0 None.
Proof. intros W N U D. split; auto; [apply inv_new; assumption|]. intros p t Ep. exists fs_new. eauto. Qed.
Lemma identity_is x p x' : x_identity x p = Ok x' -> exists f, nth_error (xu_fl x) p = Some f /\ x' = XU (xu_u x) (upd (xu_fl x) p (set_identity_remap f)).
Proof.
  intro H. unfold x_identity, xu_flush in H. destruct (nth_error (xu_fl x) p) as [f|]; [|discriminate]. cbn [bind] in H. bindn H z Hz. injection H as <-. eauto.
Qed.
Lemma lasting_identity x p x' : lasting x None -> x_identity x p = Ok x' -> lasting x' None.
Proof.
  intros [V De Fl _] H. apply identity_is in H. destruct H as (f & Hf & ->). split; cbn [xu_u xu_fl]; auto. intros q t Eq. destruct (Fl q t Eq) as (g & G).
  destruct (Nat.eq_dec q p) as [->|N]; [|rewrite nth_error_upd_ne by auto; eauto]. rewrite nth_error_upd_eq by (eapply nth_error_Some_lt; eauto). eauto.
Qed.
Lemma lasting_register x p srt f x' : lasting x None -> x_register_tracker x [] p (TUser srt f) = Ok x' -> lasting x' None.
Proof.
  intros [V De Fl _] H. split; [eapply register_inv; eauto|eapply register_declared; eauto| |exact I].
  apply register_is in H. destruct H as (t & _ & _ & ->). exact Fl.
Qed.
Lemma import_frame lk x ps src sel es ev x' : alive pr umax foreign null rank order lk x x -> addable pr umax heads foreign null x ps src sel es ev -> (forall p, In p ps -> ~ lk p) ->
  restore_all pr umax heads foreign order fuel es ev ps x x' -> framed (xu_u x) (xu_u x').
Proof.
  intros A Im Nl E. destruct (import_lives pr umax fuel heads foreign null rank order Rk _ x x ps src sel es ev A Im Nl) as (y & f & E' & A' & Ad & Ot & _).
  rewrite (restore_all_det _ _ _ _ _ _ _ _ _ _ _ _ E E'). split; [apply A'|].
  assert (X : forall n, nth_error (u_tabs (xu_u y)) n = None <-> nth_error (u_tabs (xu_u x)) n = None).
  { intro n. destruct (in_dec Nat.eq_dec n ps) as [I|N]; [|rewrite (Ot n N); reflexivity]. destruct (Ad n I) as (d & d' & -> & -> & _). split; discriminate. }
  apply Nat.le_antisymm; apply nth_error_None; apply X; apply nth_error_None; apply Nat.le_refl.
Qed.

Theorem runs_lasting_from fussy x0 x l : lasting x0 None -> runs fussy pr umax fuel heads foreign null order x0 x l -> lasting x l.
Proof.
  intros A0. induction 1 as [|x p t R IH Hp|x p t w es w1 ev x' w' R IH Ca Hp Kc He Le Ty H|x p t w es w1 ev x' R IH Ca Hp He Le Ty H
    |x p t w es w1 ev x' R IH Hp Kc Wi Nd PE HD He H|x p w t R IH H|x p t sel ev u' R IH Hp Kc HN Hs H|x p srt f x' R IH H|x ps src sel es ev x' R IH Im Un E|x p x' R IH H].
  - exact A0.
  - destruct IH as [V De Fl _]. split; auto. eauto.
  - destruct (la_lock _ _ IH) as (t1 & E1 & ->). rewrite Hp in E1. injection E1 as <-.
    destruct (live_step _ _ _ _ _ _ _ _ IH Ca Hp Kc He H) as [Fl Fr]. destruct (live_x _ _ _ _ _ _ H) as [_ Lf].
    destruct x' as [u' fl']. cbn [xu_u xu_fl] in *. eapply lasting_framed; [exact IH| | |exact Lf|exact Fr].
    + exact (framed_flush pr umax _ (framed_do pr umax fuel) _ _ _ _ _ _ Fl).
    + eapply session_inv; eauto. apply IH.
  - destruct (la_lock _ _ IH) as (t1 & E1 & ->). rewrite Hp in E1. injection E1 as <-. unfold x_flush in H. bindn H u1 Hu. injection H as <-.
    eapply lasting_framed; [exact IH| | |apply same_fl|exact I].
    + exact (framed_flush pr umax _ (framed_do pr umax fuel) _ _ _ _ _ _ Hu).
    + eapply session_inv; eauto. apply IH.
  - destruct (la_lock _ _ IH) as (t1 & E1 & ->). rewrite Hp in E1. injection E1 as <-. unfold x_flush in H. bindn H u1 Hu. injection H as <-.
    eapply lasting_framed; [exact IH| | |apply same_fl|exact I].
    + exact (framed_flush pr umax _ (framed_do pr umax fuel) _ _ _ _ _ _ Hu).
    + destruct (clear_flush pr umax fuel rank null order (xu_u x) p t es w1 ev) as (u2 & H2 & Et & Eh & El & Sw); auto; [apply IH|].
      rewrite Hu in H2. injection H2 as <-. eapply clear_inv; eauto. apply IH.
  - destruct (la_lock _ _ IH) as (t1 & E1 & ->). unfold w_drop, w_new in H. cbn [w_tab w_changes sel_empty negb] in H. rewrite andb_false_r in H. injection H as <-.
    rewrite put_same by exact E1. destruct IH as [V De Fl _]. split; auto.
  - pose proof (select_same _ _ _ _ _ HN H) as Sm. eapply lasting_framed; [exact IH| | |apply same_fl|exact I].
    + destruct Sm as (S1 & S2 & S3). split; congruence.
    + eapply inv_same; [exact Sm|apply IH].
  - eapply lasting_register; eauto.
  - destruct (import_lives pr umax fuel heads foreign null rank order Rk _ x x ps src sel es ev (lasting_alive _ _ _ IH Un) Im) as (y & f & E' & A & _).
    { intros p Ip Np. exact (Np Ip). }
    rewrite (restore_all_det _ _ _ _ _ _ _ _ _ _ _ _ E E'). destruct A as [V _ De Fl]. split; auto.
    intros p t Ep. destruct (Fl p t Ep) as (g & G1 & _). eauto.
  - eapply lasting_identity; eauto.
Qed.

Theorem runs_lasting fussy x0 x l : wired rank order (xu_u x0) -> all_new (xu_u x0) -> unmapped x0 -> declared foreign (xu_u x0) ->
  runs fussy pr umax fuel heads foreign null order x0 x l -> lasting x l.
Proof. intros W N U D. apply runs_lasting_from. apply lasting_new; assumption. Qed.

Theorem runs_attends x0 x l : lasting x0 None -> runs true pr umax fuel heads foreign null order x0 x l -> attends (xu_u x0) (xu_u x).
Proof.
  intros A0. induction 1 as [|x p t R IH Hp|x p t w es w1 ev x' w' R IH Ca Hp Kc He Le Ty H|x p t w es w1 ev x' R IH Ca Hp He Le Ty H
    |x p t w es w1 ev x' R IH Hp Kc Wi Nd PE HD He H|x p w t R IH H|x p t sel ev u' R IH Hp Kc HN Hs H|x p srt f x' R IH H|x ps src sel es ev x' R IH Im Un E|x p x' R IH H];
    try pose proof (runs_lasting_from _ _ _ _ A0 R) as A; try (eapply attends_trans; [exact IH|]).
  - apply attends_follows; [split; reflexivity|apply follows_refl].
  - apply attends_follows; [split; reflexivity|apply follows_refl].
  - destruct (la_lock _ _ A) as (t1 & E1 & ->). rewrite Hp in E1. injection E1 as <-.
    destruct (live_step _ _ _ _ _ _ _ _ A Ca Hp Kc He H) as [Fl _]. apply attends_follows.
    + exact (framed_flush pr umax _ (framed_do pr umax fuel) _ _ _ _ _ _ Fl).
    + eapply session_follows; eauto. apply A.
  - destruct (la_lock _ _ A) as (t1 & E1 & ->). rewrite Hp in E1. injection E1 as <-. unfold x_flush in H. bindn H u1 Hu. injection H as <-.
    cbn [xu_u]. apply attends_follows.
    + exact (framed_flush pr umax _ (framed_do pr umax fuel) _ _ _ _ _ _ Hu).
    + eapply session_follows; eauto. apply A.
  - destruct (la_lock _ _ A) as (t1 & E1 & ->). rewrite Hp in E1. injection E1 as <-. unfold x_flush in H. bindn H u1 Hu. injection H as <-.
    cbn [xu_u]. apply attends_follows.
    + exact (framed_flush pr umax _ (framed_do pr umax fuel) _ _ _ _ _ _ Hu).
    + eapply clear_follows; eauto. apply A.
  - destruct (la_lock _ _ A) as (t1 & E1 & ->). unfold w_drop, w_new in H. cbn [w_tab w_changes sel_empty negb] in H. rewrite andb_false_r in H. injection H as <-.
    cbn [xu_u]. rewrite put_same by exact E1. apply attends_follows; [split; reflexivity|apply follows_refl].
  - cbn [xu_u]. apply attends_follows; [|exact (select_follows _ _ _ _ _ _ (la_inv _ _ A) Hp HN (Hs eq_refl) H)].
    destruct (select_same _ _ _ _ _ HN H) as (S1 & S2 & S3). split; congruence.
  - eapply attends_register; eauto.
  - assert (Nl : forall p, In p ps -> ~ ~ In p ps) by (intros p Ip Np; exact (Np Ip)). pose proof (lasting_alive _ _ _ A Un) as Al.
    apply attends_follows; [eapply import_frame; eauto|]. eapply import_follows with (lk := fun p => ~ In p ps); eauto.
  - apply identity_is in H. destruct H as (f & _ & ->). apply attends_follows; [split; reflexivity|apply follows_refl].
Qed.
Theorem runs_mirror x0 x l : wired rank order (xu_u x0) -> all_new (xu_u x0) -> unmapped x0 -> declared foreign (xu_u x0) -> u_log (xu_u x0) = [] ->
  runs true pr umax fuel heads foreign null order x0 x l ->
  forall q m srt f t, nth_error (u_trackers (xu_u x0) q) m = Some (TUser srt f) -> (forall ev, f ev = true) -> nth_error (u_tabs (xu_u x)) q = Some t ->
  forall i, In i (book q m (u_log (xu_u x))) <-> exists r, t_get_row t i = Ok r.
Proof.
  intros W N U D L0 G q m srt f t Hm Ha Ht i. destruct (runs_attends x0 x l (lasting_new _ W N U D) G) as (X & notes & En & H). rewrite L0 in En. cbn [app] in En. rewrite En.
  apply (H q m []) with (srt := srt) (f := f); auto; [eapply nth_error_Some_lt; eauto| |apply X; exact Hm].
  pose proof (tended_mirror pr umax fuel rank null order Or (xu_u x0) (xu_u x0) Rk W N L0 (tended_start _ _ _ _ _ _) q m) as T. rewrite L0 in T. exact T.
Qed.

(** ** What such programs can do at any time *)
Section At.
Variables (fussy : bool) (x0 x : xuni).
Hypothesis W : wired rank order (xu_u x0).
Hypothesis N : all_new (xu_u x0).
Hypothesis U : unmapped x0.
Hypothesis D : declared foreign (xu_u x0).
Hypothesis G : runs fussy pr umax fuel heads foreign null order x0 x None.

Lemma deleted_map ids : deleted (map ODelete ids) = ids.
Proof. unfold deleted. induction ids as [|i l IH]; cbn; [reflexivity|]. rewrite IH. reflexivity. Qed.
Theorem runs_removal p t ids ev : nth_error (u_tabs (xu_u x)) p = Some t -> t_kind t = Consistent -> Forall (fun i => exists r, t_get_row t i = Ok r) ids -> NoDup ids ->
  plain_removal ev -> nth_error (u_hdl (xu_u x)) (ev_id ev) = Some HDelete ->
  exists w x', do_edits pr umax (w_new t) (map ODelete ids) = Ok w /\ x_flush pr umax fuel x [] p w ev = Ok x' /\
    runs fussy pr umax fuel heads foreign null order x0 x' None /\
    forall c tc, nth_error (u_tabs (xu_u x)) c = Some tc ->
      exists tc', nth_error (u_tabs (xu_u x')) c = Some tc' /\ loses (doomed (xu_u x) p ids c) tc tc'.
Proof.
  intros Hp Kd Fl Nd PE HD. pose proof (la_inv _ _ (runs_lasting _ _ _ _ W N U D G)) as V.
  destruct (removal_inv pr umax fuel rank null order (xu_u x) p t ids ev Rk V Hp Kd Fl Nd PE HD) as (w & u' & He & E' & Ca & Le & T).
  assert (X : x_flush pr umax fuel x [] p w ev = Ok (XU u' (xu_fl x))) by (unfold x_flush; rewrite E'; reflexivity).
  exists w, (XU u' (xu_fl x)). split; [exact He|]. split; [exact X|]. split; [|exact T].
  eapply runs_flush; [apply runs_lock; [exact G|exact Hp]|exact Ca|exact Hp|exact He|exact Le| |exact X].
  intros _ _. rewrite deleted_map. split; [exact Nd|]. intros i Hi. apply in_map_iff in Hi. destruct Hi as (j & Ej & _). discriminate.
Qed.
Theorem runs_imports ps src sel es ev : addable pr umax heads foreign null x ps src sel es ev -> unleaked x ps ->
  exists x' f, restore_all pr umax heads foreign order fuel es ev ps x x' /\ runs fussy pr umax fuel heads foreign null order x0 x' None /\
    (forall p, In p ps -> exists d d', nth_error (u_tabs (xu_u x)) p = Some d /\ nth_error (u_tabs (xu_u x')) p = Some d' /\
       added (foreign p) f p (ex_sel (es p)) (src p) d d') /\
    (forall p, ~ In p ps -> nth_error (u_tabs (xu_u x')) p = nth_error (u_tabs (xu_u x)) p) /\
    forall q a, stays_put x ps q -> f q a = a.
Proof.
  intros Im Un. pose proof (lasting_alive _ _ _ (runs_lasting _ _ _ _ W N U D G) Un) as A.
  destruct (import_lives pr umax fuel heads foreign null rank order Rk _ x x ps src sel es ev A Im) as (x' & f & E & _ & Ad & Ot & Id & _).
  { intros p Ip Np. exact (Np Ip). }
  exists x', f. split; [exact E|]. split; [eapply runs_import; eauto|]. auto.
Qed.
Theorem runs_clears p t es w ev : nth_error (u_tabs (xu_u x)) p = Some t -> t_kind t = Consistent -> none_deleted (xu_u x) p -> plain_removal ev ->
  nth_error (u_hdl (xu_u x)) (ev_id ev) = Some HDelete -> wipes es -> do_edits pr umax (w_new t) es = Ok w ->
  exists x', x_flush pr umax fuel x [] p w ev = Ok x' /\ runs fussy pr umax fuel heads foreign null order x0 x' None /\
    forall c tc, nth_error (u_tabs (xu_u x)) c = Some tc -> exists tc', nth_error (u_tabs (xu_u x')) c = Some tc' /\
      (c = p \/ downstream (xu_u x) p c -> t_len tc' = 0 /\ forall i r, t_get_row tc' i <> Ok r) /\ (~ (c = p \/ downstream (xu_u x) p c) -> tc' = tc).
Proof.
  intros Hp Kc Nd PE HD Wi He. pose proof (la_inv _ _ (runs_lasting _ _ _ _ W N U D G)) as V.
  destruct (clear_flush pr umax fuel rank null order (xu_u x) p t es w ev) as (u2 & H2 & Et & Eh & El & Sw); auto.
  assert (X : x_flush pr umax fuel x [] p w ev = Ok (XU u2 (xu_fl x))) by (unfold x_flush; rewrite H2; reflexivity).
  exists (XU u2 (xu_fl x)). split; [exact X|]. split.
  { eapply runs_clear; [apply runs_lock; [exact G|exact Hp]| | | | | | | |exact X]; eauto. }
  cbn [xu_u]. intros c tc Hc. destruct (Sw c tc Hc) as (tc' & Hc' & Dd). exists tc'. split; [exact Hc'|]. pose proof (tg_ncols _ _ (i_tg _ _ _ _ _ _ V _ _ Hc)) as Nc.
  destruct Dd as [[Dd ->]|[Dd ->]]; split; try tauto. intros _. split; [exact (emptied_len tc Nc)|]. intros i r. exact (emptied_rows tc i r Nc).
Qed.
End At.

(** ** Programs considered before *)
Lemma sweeps_runs fussy u0 fl u : sweeps fussy pr umax fuel null order u0 u -> runs fussy pr umax fuel heads foreign null order (XU u0 fl) (XU u fl) None.
Proof.
  induction 1 as [|u p t es w ev u' L IH Ca Hp He Le Ty H|u p t es w ev u' L IH Hp Kc Wi Nd PE HD He H]; [apply runs_start| |].
  - eapply runs_flush; [apply runs_lock; [exact IH|exact Hp]|exact Ca|exact Hp|exact He|exact Le|exact Ty|]. unfold x_flush. cbn [xu_u xu_fl]. rewrite H. reflexivity.
  - eapply runs_clear; [apply runs_lock; [exact IH|exact Hp]|exact Hp|exact Kc|exact Wi|exact Nd|exact PE|exact HD|exact He|].
    unfold x_flush. cbn [xu_u xu_fl]. rewrite H. reflexivity.
Qed.
Lemma works_runs fussy u0 fl u l : wired rank order u0 -> all_new u0 -> unmapped (XU u0 fl) -> works fussy pr umax fuel null order u0 u l ->
  runs fussy pr umax fuel heads foreign null order (XU u0 fl) (XU u fl) l.
Proof.
  intros W N U. assert (X : forall u l, works fussy pr umax fuel null order u0 u l -> length (u_tabs u) = length (u_tabs u0)).
  { clear u l. induction 1 as [|u p t R IH Hp|u p t w es w1 ev u' w' R IH Ca Hp Kc He Le Ty H|u p t w es w1 ev u' R IH Ca Hp He Le Ty H|u p w t R IH H]; auto.
    - destruct (works_lives pr umax fuel rank null order Or fussy u0 u _ Rk W N R) as (L & _ & t1 & E1 & ->). rewrite Hp in E1. injection E1 as <-.
      pose proof (lives_inv pr umax fuel rank null order Or u0 u Rk W N L) as V.
      destruct (live_fresh pr umax fuel u p t es w1 ev u' w') as (Fl & _); auto.
      + intro D. apply (downstream_rank rank) in D; [lia|]. intros q c k key I. apply (i_wired _ _ _ _ _ _ V) in I. apply I.
      + exact (i_tg _ _ _ _ _ _ V _ _ Hp).
      + pose proof (Ca t Hp) as C. rewrite Kc in C. destruct C as [C _]. eapply Forall_impl; [|exact C]. cbn. tauto.
      + rewrite <- IH. apply (framed_flush pr umax _ (framed_do pr umax fuel) _ _ _ _ _ _ Fl).
    - rewrite <- IH. apply (framed_flush pr umax _ (framed_do pr umax fuel) _ _ _ _ _ _ H).
    - cbn. rewrite upd_length. exact IH. }
  induction 1 as [|u p t R IH Hp|u p t w es w1 ev u' w' R IH Ca Hp Kc He Le Ty H|u p t w es w1 ev u' R IH Ca Hp He Le Ty H|u p w t R IH H].
  - apply runs_start.
  - apply runs_lock; [exact IH|exact Hp].
  - eapply runs_live; [exact IH|exact Ca|exact Hp|exact Kc|exact He|exact Le|exact Ty|]. unfold x_live_flush. cbn [xu_u xu_fl]. rewrite H. cbn [bind fst snd].
    destruct (sel_empty (w_changes w1)); [reflexivity|]. pose proof (nth_error_Some_lt _ _ _ Hp) as Lt. rewrite (X _ _ R) in Lt.
    destruct (nth_error_lt_Some _ _ Lt) as [t0 E0]. pose proof (U p t0 E0) as Ef. cbn [xu_u xu_fl] in Ef. unfold xu_flush. cbn [xu_fl]. rewrite Ef. cbn [bind].
    change (has_remapping fs_new) with false. do 2 f_equal. f_equal. apply list_ext. intro q. destruct (Nat.eq_dec q p) as [->|Nq]; [|apply nth_error_upd_ne; auto].
    rewrite Ef. apply nth_error_upd_eq. eapply nth_error_Some_lt; eauto.
  - eapply runs_flush; [exact IH|exact Ca|exact Hp|exact He|exact Le|exact Ty|]. unfold x_flush. cbn [xu_u xu_fl]. rewrite H. reflexivity.
  - exact (runs_close _ _ _ _ _ _ _ _ _ (XU u fl) p w t IH H).
Qed.
Lemma grows_runs x0 x : wired rank order (xu_u x0) -> all_new (xu_u x0) -> unmapped x0 -> declared foreign (xu_u x0) ->
  grows_tidily pr umax fuel heads foreign null order x0 x -> runs true pr umax fuel heads foreign null order x0 x None.
Proof.
  intros W N U D. induction 1 as [|x p t es w ev x' G IH Ca Hp He Le Ty H|x ps src sel es ev x' G IH Im E]; [apply runs_start| |].
  - eapply runs_flush; [apply runs_lock; [exact IH|exact Hp]|exact Ca|exact Hp|exact He|exact Le|intros _; exact Ty|exact H].
  - destruct (grows_kept pr umax fuel heads foreign null rank order Or Rk x0 x W N U D (tidily_grows _ _ _ _ _ _ _ _ _ G)) as [A Us].
    eapply runs_import; [exact IH|exact (importable_addable _ _ _ _ _ _ _ _ _ _ _ Us Im)| |exact E].
    intros p f Ip Ef. destruct (proj1 Im p Ip) as (d & E1 & _). destruct (al_fl _ _ _ _ _ _ _ _ _ A p d E1) as (g & G1 & [[]|G3]). congruence.
Qed.
Theorem runs_sound fussy x0 x l : wired rank order (xu_u x0) -> all_new (xu_u x0) -> unmapped x0 -> declared foreign (xu_u x0) ->
  runs fussy pr umax fuel heads foreign null order x0 x l -> sound null (xu_u x) /\ linked pr umax rank (xu_u x).
Proof. intros W N U D G. pose proof (la_inv _ _ (runs_lasting _ _ _ _ W N U D G)) as V. split; [apply V|]. eapply inv_linked. exact V. Qed.
Theorem runs_include :
  (forall fussy u0 fl u, sweeps fussy pr umax fuel null order u0 u -> runs fussy pr umax fuel heads foreign null order (XU u0 fl) (XU u fl) None) /\
  (forall fussy u0 fl u l, wired rank order u0 -> all_new u0 -> unmapped (XU u0 fl) -> works fussy pr umax fuel null order u0 u l ->
     runs fussy pr umax fuel heads foreign null order (XU u0 fl) (XU u fl) l) /\
  (forall x0 x, wired rank order (xu_u x0) -> all_new (xu_u x0) -> unmapped x0 -> declared foreign (xu_u x0) ->
     grows_tidily pr umax fuel heads foreign null order x0 x -> runs true pr umax fuel heads foreign null order x0 x None).
Proof. split; [exact sweeps_runs|]. split; [exact works_runs|exact grows_runs]. Qed.

(** ** Trackers that come later *)
Lemma register_ok x p t tr : nth_error (u_tabs (xu_u x)) p = Some t -> t_kind t = Consistent -> (exists f, nth_error (xu_fl x) p = Some f /\ fs_leaked f = 0) ->
  exists x', x_register_tracker x [] p tr = Ok x'.
Proof.
  intros Hp Kc (f & Hf & Lf). unfold x_register_tracker, u_get, xu_flush, t_consistent. rewrite Hp, Hf. cbn [can_write lock_ok bind]. rewrite Lf, Kc. eexists. reflexivity.
Qed.
Lemma runs_extends fussy x0 x l : lasting x0 None -> runs fussy pr umax fuel heads foreign null order x0 x l -> extends (xu_u x0) (xu_u x).
Proof.
  intros A0. induction 1 as [|x p t R IH Hp|x p t w es w1 ev x' w' R IH Ca Hp Kc He Le Ty H|x p t w es w1 ev x' R IH Ca Hp He Le Ty H
    |x p t w es w1 ev x' R IH Hp Kc Wi Nd PE HD He H|x p w t R IH H|x p t sel ev u' R IH Hp Kc HN Hs H|x p srt f x' R IH H|x ps src sel es ev x' R IH Im Un E|x p x' R IH H];
    try pose proof (runs_lasting_from _ _ _ _ A0 R) as A; try (eapply extends_trans; [exact IH|]).
  - apply extends_framed. split; reflexivity.
  - apply extends_framed. split; reflexivity.
  - destruct (la_lock _ _ A) as (t1 & E1 & ->). rewrite Hp in E1. injection E1 as <-.
    destruct (live_step _ _ _ _ _ _ _ _ A Ca Hp Kc He H) as [Fl _]. apply extends_framed. exact (framed_flush pr umax _ (framed_do pr umax fuel) _ _ _ _ _ _ Fl).
  - unfold x_flush in H. bindn H u1 Hu. injection H as <-. apply extends_framed. exact (framed_flush pr umax _ (framed_do pr umax fuel) _ _ _ _ _ _ Hu).
  - unfold x_flush in H. bindn H u1 Hu. injection H as <-. apply extends_framed. exact (framed_flush pr umax _ (framed_do pr umax fuel) _ _ _ _ _ _ Hu).
  - apply extends_framed. split; [reflexivity|]. cbn. apply upd_length.
  - destruct (select_same _ _ _ _ _ HN H) as (S1 & S2 & S3). apply extends_framed. split; cbn [xu_u]; congruence.
  - eapply extends_register; eauto.
  - assert (Nl : forall p, In p ps -> ~ ~ In p ps) by (intros p Ip Np; exact (Np Ip)). pose proof (lasting_alive _ _ _ A Un) as Al. apply extends_framed. eapply import_frame; eauto.
  - apply identity_is in H. destruct H as (f & _ & ->). apply extends_framed. split; reflexivity.
Qed.
Theorem runs_registers fussy x0 x p t srt f : wired rank order (xu_u x0) -> all_new (xu_u x0) -> unmapped x0 -> declared foreign (xu_u x0) ->
  runs fussy pr umax fuel heads foreign null order x0 x None ->
  nth_error (u_tabs (xu_u x)) p = Some t -> t_kind t = Consistent -> unleaked x [p] ->
  exists x1, x_register_tracker x [] p (TUser srt f) = Ok x1 /\ runs fussy pr umax fuel heads foreign null order x0 x1 None /\ u_tabs (xu_u x1) = u_tabs (xu_u x).
Proof.
  intros W N U D G Hp Kc Un. destruct (la_fl _ _ (runs_lasting _ _ _ _ W N U D G) p t Hp) as (g & G1).
  destruct (register_ok x p t (TUser srt f) Hp Kc) as [x1 H]; [exists g; split; [exact G1|apply (Un p g); [left; reflexivity|exact G1]]|].
  exists x1. split; [exact H|]. split; [eapply runs_register; eauto|]. apply register_is in H. destruct H as (t0 & _ & _ & ->). reflexivity.
Qed.
Theorem runs_since fussy x0 x p srt f x1 t1 b x2 l t2 : wired rank order (xu_u x0) -> all_new (xu_u x0) -> unmapped x0 -> declared foreign (xu_u x0) ->
  length (u_trk (xu_u x0)) = length (u_tabs (xu_u x0)) -> runs fussy pr umax fuel heads foreign null order x0 x None ->
  x_register_tracker x [] p (TUser srt f) = Ok x1 -> (forall ev, f ev = true) ->
  nth_error (u_tabs (xu_u x1)) p = Some t1 -> (forall i, In i b <-> exists r, t_get_row t1 i = Ok r) ->
  runs true pr umax fuel heads foreign null order x1 x2 l -> nth_error (u_tabs (xu_u x2)) p = Some t2 ->
  let m := length (u_trackers (xu_u x) p) in
  nth_error (u_trackers (xu_u x2) p) m = Some (TUser srt f) /\
  exists notes, u_log (xu_u x2) = u_log (xu_u x1) ++ notes /\ forall i, In i (fold_left (jot p m) notes b) <-> exists r, t_get_row t2 i = Ok r.
Proof.
  intros W N U D Lt G H Ha H1 Hb G2 H2 m. pose proof (runs_lasting _ _ _ _ W N U D G) as A. pose proof (lasting_register _ _ _ _ _ A H) as A1.
  destruct (runs_attends x1 x2 l A1 G2) as (X & notes & En & B).
  assert (E1 : nth_error (u_trackers (xu_u x1) p) m = Some (TUser srt f)).
  { pose proof (runs_extends _ _ _ _ (lasting_new _ W N U D) G) as [X1 X2 _]. pose proof (register_is _ _ _ _ H) as (t & Ht & _ & E). apply nth_error_Some_lt in Ht.
    rewrite E. cbn [xu_u]. rewrite trackers_upd, Nat.eqb_refl. replace (p <? length (u_trk (xu_u x))) with true by (symmetry; apply Nat.ltb_lt; congruence).
    cbn [andb]. unfold m. rewrite nth_error_app2, Nat.sub_diag by apply Nat.le_refl. reflexivity. }
  pose proof (ex_pos _ _ X _ _ _ E1) as E2. split; [exact E2|]. exists notes. split; [exact En|].
  apply (B p m b) with (srt := srt) (f := f); auto; [eapply nth_error_Some_lt; eauto|].
  intros srt' f' t0 _ _ Ht0. rewrite H1 in Ht0. injection Ht0 as <-. exact Hb.
Qed.
End M.
