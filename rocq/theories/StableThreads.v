(** Proofs for C105. *)
From Coq Require Import List Arith Bool.
From Verif Require Import Base BaseFacts Column ColumnFacts RowRange Table TableSpec TableFacts TableProps Hist HistFacts Events Cascade RaceFacts Extract IntegrityFacts StableFacts
  Threads ThreadSpec ThreadFacts ThreadSafe ThreadReads ThreadVal BlameSpec BlameFacts StableThreadSpec.
Import ListNotations.

Lemma tg_contains s t i : tg false s t -> (t_contains t i = true <-> exists r, t_get_row t i = Ok r).
Proof. intros (_ & live & rows & K & _). exact (contains_get t live rows K i). Qed.
(** One lock session that spares row [i]. *)
Lemma session_keeps pr umax s es t w i r : s_kind s = Consistent -> tg false s t -> Forall (op_ty (s_cols s)) es ->
  Forall (spares i) es -> do_edits pr umax (w_new t) es = Ok w -> t_get_row t i = Ok r -> t_get_row (w_tab w) i = Ok r.
Proof.
  intros Ks G T Sp H R.
  set (P := fun q : wlock * list bag_pos => snd q = [] /\ tg false s (w_tab (fst q)) /\ t_get_row (w_tab (fst q)) i = Ok r).
  enough (X : P (w, [])) by apply X.
  eapply (edits_inv pr umax P (fun o => op_ty (s_cols s) o /\ spares i o) es (w_new t)).
  - rewrite Forall_forall in *. auto.
  - split; [reflexivity|]. split; [exact G|exact R].
  - intros [w0 its] o [w1 its'] (Pn & Pg & Pr) [To [Nc Ns]] TL A W St. cbn [fst snd] in *. subst its.
    assert (Kw : t_kind (w_tab w0) = Consistent) by (rewrite (tg_kind _ _ _ Pg); exact Ks).
    rewrite Kw in A.
    pose proof (write_effect pr umax s Ks w0 o w1 its' Pg To A W) as (E1 & _).
    pose proof (write_tg pr umax s Ks w0 o w1 its' Pg To A W) as G1.
    assert (Qu : quiet o = true) by (destruct o; try reflexivity; discriminate TL).
    pose proof (step_still pr umax (Locked w0 []) o (Locked w1 its') Kw Qu St) as [_ E2]. cbn [st_tab] in E2.
    split; [eapply its_nil; eauto|]. split; [exact G1|].
    assert (C1 : t_contains (w_tab w1) i = true).
    { destruct (t_contains (w_tab w1) i) eqn:C; [reflexivity|]. exfalso.
      destruct (E1 i) as [->|(srt & ev & -> & _)]; [|exact C|contradiction|discriminate TL].
      apply (tg_contains _ _ _ Pg). eauto. }
    apply (tg_contains _ _ _ G1) in C1 as (r' & R'). cbn [fst]. rewrite R'. f_equal.
    apply (E2 i r r'); [|exact Pr|exact R']. intros (k & v & E). exact (Ns k v E).
  - exact H.
Qed.

Section Run.
Variable pr : profile.
Variables umax fuel : nat.
Variable heads : nat -> header.
Variable foreign : nat -> list (nat * nat).
Variable order : nat -> row -> row -> comparison.
Variable x : xuni.
Variable tss : list (list top).
Hypothesis M : made pr umax (xu_u x).
Hypothesis B : forall p t, nth_error (u_tabs (xu_u x)) p = Some t -> pr = Debug \/ t_kind t <> Bag.
Hypothesis T : Forall (Forall (top_ty (xu_u x))) tss.
Variables p i : nat.
Variable t0 : table.
Hypothesis E0 : nth_error (u_tabs (xu_u x)) p = Some t0.
Hypothesis K0 : t_kind t0 = Consistent.
Hypothesis Sp : forall es ev, session tss p es ev -> Forall (spares i) es.

Lemma step_same c c' r r' : thread_steps (started x (map (Threads.p_run pr umax heads foreign order fuel) tss)) c -> thread_step c c' ->
  found c p i = Some r -> found c' p i = Some r' -> r' = r.
Proof.
  intros S St. unfold found.
  destruct (nth_error (u_tabs (xu_u (th_x c))) p) as [t|] eqn:Et; [|discriminate].
  destruct (nth_error (u_tabs (xu_u (th_x c'))) p) as [t'|] eqn:Et'; [|discriminate].
  destruct (t_get_row t i) as [r1|] eqn:R; [|discriminate]. intros [= ->].
  destruct (t_get_row t' i) as [r1|] eqn:R'; [|discriminate]. intros [= ->].
  destruct (started_safe pr umax heads foreign order fuel x tss M B T) as (has & sch & Hx & NB & Ty & Safe).
  destruct (all_safe_steps _ _ _ _ _ S Safe) as [I1 _]. destruct (I1 _ _ Et) as [Hp G]. destruct (Hx p Hp) as (t1 & Et1 & Es).
  assert (t1 = t0) as -> by congruence.
  assert (Ks : s_kind (sch p) = Consistent) by (rewrite Es; exact K0).
  assert (Kt : t_kind t = Consistent) by (rewrite (tg_kind _ _ _ G); exact Ks).
  assert (X : t' <> t -> r' = r).
  { intros Ne. destruct (changes_of_tables pr umax heads foreign order fuel x tss c c' p t t' M B T S St Et Et' Ne) as (k & ops & Ek & _ & Bc).
    apply nth_error_In in Ek. destruct Bc as [es ev w In1 Ed ->|F|e ev In1 Mo].
    - assert (Se : session tss p es ev) by (destruct In1; [left|right]; exists ops; auto).
      assert (Te : Forall (op_ty (s_cols (sch p))) es).
      { rewrite Forall_forall in Ty. specialize (Ty _ Ek). rewrite Forall_forall in Ty.
        destruct In1 as [In1|In1]; specialize (Ty _ In1); exact (Ty Hp). }
      pose proof (session_keeps pr umax (sch p) es t w i r Ks G Te (Sp _ _ Se) Ed R) as R2. congruence.
    - unfold fewer in F. rewrite Kt in F. apply F in R'. congruence.
    - unfold more in Mo. rewrite Kt in Mo. apply Mo in R. congruence. }
  destruct (list_eq_dec val_eq_dec r' r) as [E|E]; [exact E|]. apply X. intros ->. congruence.
Qed.
Lemma history_same c0 h c : thread_steps (started x (map (Threads.p_run pr umax heads foreign order fuel) tss)) c0 -> history c0 h c ->
  (forall c1, In c1 h -> found c1 p i <> None) -> forall c1, In c1 h -> found c1 p i = found c0 p i.
Proof.
  intros S H. induction H as [|h c c' H IH St]; intros A c1 I1.
  - destruct I1 as [<-|[]]. reflexivity.
  - assert (A' : forall c1, In c1 h -> found c1 p i <> None) by (intros; apply A; right; assumption).
    destruct I1 as [<-|I1]; [|exact (IH A' c1 I1)]. rewrite <- (IH A' c (history_in _ _ _ H)).
    pose proof (A c' (or_introl eq_refl)) as N'. pose proof (A' c (history_in _ _ _ H)) as N.
    destruct (found c p i) as [r|] eqn:F; [|contradiction]. destruct (found c' p i) as [r'|] eqn:F'; [|contradiction]. f_equal.
    eapply step_same; [|exact St|exact F|exact F']. eapply steps_trans; [exact S|]. exact (history_steps _ _ _ H).
Qed.
End Run.
