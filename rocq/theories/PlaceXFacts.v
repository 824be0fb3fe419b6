(** Proofs about the place of tables for programs that save and restore them. *)
From Coq Require Import List Arith Bool Lia.
From Verif Require Import Base BaseFacts Column Order RowRange Table SortedTab Events Cascade Hist Answers DbHist Extract ChooseFacts PlaceSpec PlaceFacts PlaceXSpec.
Import ListNotations.

Lemma for_rows_ext {S} (f g : S -> nat -> row -> res S) : (forall s i r, f s i r = g s i r) -> forall ids data s, for_rows f ids data s = for_rows g ids data s.
Proof.
  intros H ids. induction ids as [|i ids IH]; intros data s; cbn [for_rows]; [reflexivity|]. destruct (take_row data) as [q|e]; cbn [bind]; [|reflexivity].
  rewrite H. destruct (g s i (fst q)); cbn [bind]; [apply IH|reflexivity].
Qed.

Section W.
Variables (pr : profile) (umax : nat) (sg : nat -> nat) (n N : nat) (T0 : list table).
Hypothesis Inj : forall p q, p < n -> q < n -> sg p = sg q -> p = q.
Hypothesis Below : forall p, p < n -> sg p < N.
Variables (heads heads' : nat -> header) (foreign foreign' : nat -> list (nat * nat)) (order order' : nat -> row -> row -> comparison).
Hypothesis Code : same_code sg n heads heads' foreign foreign' order order'.
Notation R := (R sg n N T0).
Definition F2 (fl fl' : list fstate) : Prop := forall p, p < n -> nth_error fl' (sg p) = nth_error fl p.
Definition RX (x y : xuni) : Prop := R (xu_u x) (xu_u y) /\ F2 (xu_fl x) (xu_fl y).
Lemma F2_get x y p : RX x y -> p < n -> xu_flush y (sg p) = xu_flush x p.
Proof. intros [_ H] O. unfold xu_flush. rewrite (H p O). reflexivity. Qed.
Lemma F2_upd fl fl' p f g : F2 fl fl' -> p < n -> nth_error fl p = Some g -> F2 (upd fl p f) (upd fl' (sg p) f).
Proof.
  intros H O E q Oq. assert (E' : nth_error fl' (sg p) = Some g) by (rewrite (H p O); exact E).
  assert (L : p < length fl) by (apply nth_error_Some; congruence). assert (L' : sg p < length fl') by (apply nth_error_Some; congruence).
  destruct (Nat.eq_dec q p) as [->|Nq]; [rewrite !nth_error_upd_eq by assumption; reflexivity|].
  rewrite !nth_error_upd_ne by (intro X; apply Nq; auto). apply H. exact Oq.
Qed.
Lemma get_nth x p f : xu_flush x p = Ok f -> nth_error (xu_fl x) p = Some f.
Proof. unfold xu_flush. destruct (nth_error (xu_fl x) p); [intros [= ->]; reflexivity|discriminate]. Qed.
Lemma row_place fl fl' p r : F2 fl fl' -> p < n -> update_row foreign' fl' (sg p) r = update_row foreign fl p r.
Proof.
  intros H O. unfold update_row. rewrite (sc_foreign _ _ _ _ _ _ _ _ Code p O). assert (K : Forall (fun kq => snd kq < n) (foreign p)) by (apply Forall_forall; intros kq; apply (sc_known _ _ _ _ _ _ _ _ Code p kq O)).
  revert r. induction K as [|kq l Lt K IH]; intro r; cbn [map fold_res]; [reflexivity|].
  assert (E : update_col fl' r (fst kq, sg (snd kq)) = update_col fl r kq) by (unfold update_col; cbn [fst snd]; rewrite (H _ Lt); reflexivity).
  rewrite E. destruct (update_col fl r kq); cbn [bind]; [apply IH|reflexivity].
Qed.
Lemma merge_place fl fl' p b w e : F2 fl fl' -> p < n -> merge_extract pr foreign' order' fl' (sg p) b w e = merge_extract pr foreign order fl p b w e.
Proof.
  intros H O. unfold merge_extract. rewrite (sc_order _ _ _ _ _ _ _ _ Code p O).
  destruct (t_kind (w_tab w)); [..|destruct b; [reflexivity|]]; try (apply for_rows_ext; intros s i r; rewrite (row_place fl fl' p r H O); reflexivity).
  all: try destruct b; try reflexivity; apply for_rows_ext; intros s i r; rewrite (row_place fl fl' p r H O); reflexivity.
Qed.
Lemma fl_R fuel u v p w ev : R u v -> p < n -> rr R (flush pr umax fuel u [] p w ev) (flush pr umax fuel v [] (sg p) w ev).
Proof.
  intros H O. unfold flush. apply (flush_R pr umax sg n N T0 Inj Below); auto; [|apply H2_nil]. intros. apply (do_R pr umax sg n N T0 Inj Below); assumption.
Qed.
Lemma empty_map {A B} (f : A -> B) l : match map f l with [] => true | _ => false end = match l with [] => true | _ => false end.
Proof. destruct l; reflexivity. Qed.
Lemma x_step_R fuel x y o : RX x y -> x_about n o ->
  rr RX (x_step pr umax heads foreign order fuel x o) (x_step pr umax heads' foreign' order' fuel y (place_xop sg o)).
Proof.
  intros H A. pose proof H as [HR HF]. destruct o as [p es ev|p es ev|p e ev|p tr|p]; cbn [x_step place_xop].
  - cbn in A. rewrite (R_get sg n N T0 _ _ p HR A). apply rr_same. intros t _. apply rr_same. intros w _. unfold x_flush.
    eapply rr_bind; [apply fl_R; [exact HR|exact A]|]. intros u v K. split; [exact K|exact HF].
  - cbn in A. rewrite (R_get sg n N T0 _ _ p HR A). apply rr_same. intros t _. apply rr_same. intros w _. unfold x_live_flush.
    eapply (rr_bind (fun q q' => RX (fst q) (fst q') /\ snd q' = snd q)).
    + eapply rr_bind.
      * unfold live_flush. apply (live_R pr umax sg n N T0 Inj Below); [|exact HR|apply H2_nil|exact A]. intros. apply (do_R pr umax sg n N T0 Inj Below); assumption.
      * intros [u w1] [v w1'] [K E]. cbn [fst snd] in *. subst w1'. destruct (sel_empty (w_changes w)); [split; [split; [exact K|exact HF]|reflexivity]|].
        rewrite (F2_get _ _ p H A). apply rr_same. intros f Ef. cbv zeta. split; [|reflexivity]. split; [exact K|]. cbn [fst xu_fl]. eapply F2_upd; [exact HF|exact A|exact (get_nth _ _ _ Ef)].
    + intros [x1 w1] [y1 w1'] [[K1 K2] E]. cbn [fst snd] in *. subst w1'. apply rr_same. intros t1 _. split; [|exact K2]. cbn [xu_u]. apply R_put; assumption.
  - cbn in A. unfold restore. change (can_write [] (sg p)) with (can_write [] p). rewrite (R_get sg n N T0 _ _ p HR A).
    eapply (rr_bind (fun q q' => RX (fst q) (fst q'))); [|intros q q' K; exact K].
    apply rr_same. intros _ _. apply rr_same. intros t _. unfold restore_extract. rewrite (sc_heads _ _ _ _ _ _ _ _ Code p A). apply rr_same. intros [er|] _.
    + apply rr_same. intros t1 _. split; [|exact HF]. cbn [fst xu_u]. apply R_put; assumption.
    + rewrite (sc_foreign _ _ _ _ _ _ _ _ Code p A).
      assert (L : forallb (fun kq => can_read [(sg p, true)] (snd kq)) (map (fun kq => (fst kq, sg (snd kq))) (foreign p)) = forallb (fun kq => can_read [(p, true)] (snd kq)) (foreign p)).
      { assert (K : Forall (fun kq => snd kq < n) (foreign p)) by (apply Forall_forall; intros kq; apply (sc_known _ _ _ _ _ _ _ _ Code p kq A)).
        induction K as [|kq l Lt K IH]; cbn [map forallb]; [reflexivity|]. rewrite IH. f_equal. cbn [snd].
        apply (H2_cons sg n N Inj Below p true [] [] A (H2_nil sg n N) (snd kq) Lt). }
      rewrite L. apply rr_same. intros _ _. cbv zeta. unfold u_trackers. rewrite (r_trk _ _ _ _ _ _ HR p A), empty_map. rewrite (merge_place _ _ p _ _ _ HF A). apply rr_same. intros s _.
      destruct (sel_empty (w_changes (fst s))).
      * apply rr_same. intros t1 _. split; [|exact HF]. cbn [fst xu_u]. apply R_put; assumption.
      * rewrite (F2_get _ _ p H A). apply rr_same. intros f Ef. apply rr_same. intros _ _. eapply rr_bind; [apply fl_R; [exact HR|exact A]|]. intros u v K. split; [exact K|].
        cbn [fst xu_fl]. eapply F2_upd; [exact HF|exact A|exact (get_nth _ _ _ Ef)].
  - assert (Ap : p < n /\ tr_in n tr) by (destruct tr; cbn in A; [exact A|split; [exact A|exact I]]). clear A. destruct Ap as [A Ti]. unfold x_register_tracker. cbv zeta. apply rr_same. intros _ _.
    rewrite (R_get sg n N T0 _ _ p HR A). apply rr_same. intros t _. rewrite (F2_get _ _ p H A). apply rr_same. intros f _. apply rr_same. intros _ _.
    destruct (t_consistent t); [|reflexivity]. split; [|exact HF]. cbn [xu_u]. apply R_track; assumption.
  - cbn in A. unfold x_identity. rewrite (F2_get _ _ p H A). apply rr_same. intros f Ef. apply rr_same. intros _ _. split; [exact HR|]. cbn [xu_fl]. eapply F2_upd; [exact HF|exact A|exact (get_nth _ _ _ Ef)].
Qed.
Lemma x_run_R fuel ops : Forall (x_about n) ops -> forall x y, RX x y ->
  rr RX (x_run pr umax heads foreign order fuel x ops) (x_run pr umax heads' foreign' order' fuel y (map (place_xop sg) ops)).
Proof.
  unfold x_run. intro F. induction F as [|o ops A F IH]; intros x y H; cbn [map fold_res]; [exact H|]. eapply rr_bind; [apply x_step_R; eassumption|]. exact IH.
Qed.
End W.

Theorem placing_x : forall pr umax fuel sg heads heads' foreign foreign' order order' x x' ops,
  x_placed sg x x' -> same_code sg (tables_of x) heads heads' foreign foreign' order order' -> Forall (x_about (tables_of x)) ops ->
  match x_run pr umax heads foreign order fuel x ops, x_run pr umax heads' foreign' order' fuel x' (map (place_xop sg) ops) with
  | Ok y, Ok y' => x_placed sg y y' /\ forall q, elsewhere sg x q -> nth_error (u_tabs (xu_u y')) q = nth_error (u_tabs (xu_u x')) q
  | Err e, Err e' => e = e'
  | _, _ => False
  end.
Proof.
  intros pr umax fuel sg heads heads' foreign foreign' order order' x x' ops P C F. destruct P as [P1 P2 P3 P4 P5 [P6 P7] P8 P9].
  assert (Bl : forall p, p < tables_of x -> sg p < length (u_tabs (xu_u x'))).
  { intros p O. apply nth_error_Some in O. destruct (nth_error (u_tabs (xu_u x)) p) as [t|] eqn:E; [|contradiction]. apply nth_error_Some. rewrite (P2 _ _ E). discriminate. }
  assert (H : RX sg (tables_of x) (length (u_tabs (xu_u x'))) (u_tabs (xu_u x')) x x').
  { split; [|exact P3]. constructor; auto.
    - intros p O. pose proof O as O1. apply nth_error_Some in O1. destruct (nth_error (u_tabs (xu_u x)) p) as [t|] eqn:E; [|contradiction]. apply P2. exact E.
    - intros p O. apply Forall_forall. intros [c k key|b f] I; [|exact Logic.I]. exact (P5 p c k key I). }
  pose proof (x_run_R pr umax sg (tables_of x) (length (u_tabs (xu_u x'))) (u_tabs (xu_u x')) P1 Bl heads heads' foreign foreign' order order' C fuel ops F x x' H) as K.
  unfold rr in K. destruct (x_run pr umax heads foreign order fuel x ops) as [y|e], (x_run pr umax heads' foreign' order' fuel x' (map (place_xop sg) ops)) as [y'|e']; try exact K.
  destruct K as [K KF]. assert (T : tables_of y = tables_of x) by exact (r_len _ _ _ _ _ _ K). split; [|exact (r_out _ _ _ _ _ _ K)]. constructor; rewrite ?T.
  - exact P1.
  - intros p t E. rewrite (r_tabs _ _ _ _ _ _ K p); [exact E|]. rewrite <- T. apply nth_error_Some. congruence.
  - exact KF.
  - exact (r_trk _ _ _ _ _ _ K).
  - intros p c k key I. assert (O : p < tables_of x \/ tables_of x <= p) by lia. destruct O as [O|O].
    + pose proof (r_in _ _ _ _ _ _ K p O) as G. rewrite Forall_forall in G. exact (G _ I).
    + exfalso. unfold u_trackers in I. rewrite nth_overflow in I; [exact I|]. rewrite (r_tlen _ _ _ _ _ _ K). exact O.
  - split; [exact (r_tlen _ _ _ _ _ _ K)|exact (r_tlen' _ _ _ _ _ _ K)].
  - exact (r_hdl _ _ _ _ _ _ K).
  - exact (r_log _ _ _ _ _ _ K).
Qed.
