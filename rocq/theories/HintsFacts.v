(** Proofs about size hints (for C103). *)
From Coq Require Import List Arith Bool Lia.
From Verif Require Import Base BaseFacts RowRange Hints HintsSpec.
Import ListNotations.

Section F.
Variable pr : profile.
Variables imax umax len : nat.
Hypothesis Hlen : len <= imax.
Hypothesis Hi : imax <= umax.

Definition in_bounds (it : riter) : Prop := it_end it <= imax /\ it_i it <= imax.
Fixpoint bounds (h : hiter) : Prop :=
  match h with
  | HChecked it | HUnchecked it => in_bounds it
  | HConsistent c | HEdit c => in_bounds (ci_rows c)
  | HAll h => bounds h
  | HThese _ => True
  end.
Lemma made_bounds h : made imax len h -> bounds h.
Proof.
  induction 1; cbn; auto; try (unfold rr_iter_slow; split; cbn; assumption).
  - unfold ci_from, assert_ in H. destruct ((r_start r <? len) || (r_start r =? r_end r)) eqn:A; [|discriminate]. cbn in H. destruct (r_end r <=? len) eqn:B; [|discriminate].
    cbn in H. injection H as <-. apply Nat.leb_le in B. apply orb_true_iff in A. split; cbn; [lia|]. destruct A as [A|A]; [apply Nat.ltb_lt in A|apply Nat.eqb_eq in A]; lia.
  - unfold ci_from, assert_ in H. destruct ((r_start r <? len) || (r_start r =? r_end r)) eqn:A; [|discriminate]. cbn in H. destruct (r_end r <=? len) eqn:B; [|discriminate].
    cbn in H. injection H as <-. apply Nat.leb_le in B. apply orb_true_iff in A. split; cbn; [lia|]. destruct A as [A|A]; [apply Nat.ltb_lt in A|apply Nat.eqb_eq in A]; lia.
Qed.
(** Every [next] either ends, or brings the position nearer to the end. *)
Definition left_of (it : riter) : nat := it_end it - it_i it.
Lemma next_it it : in_bounds it ->
  (it_end it <= it_i it /\ it_next pr imax it = Ok (it, None)) \/
  (it_i it < it_end it /\ it_next pr imax it = Ok (RI (S (it_i it)) (it_end it), Some (it_i it)) /\ in_bounds (RI (S (it_i it)) (it_end it))).
Proof.
  intros [A B]. unfold it_next. destruct (Nat.leb_spec (it_end it) (it_i it)) as [L|L]; [left; auto|right]. split; [exact L|].
  unfold rid_next. rewrite (proj2 (Nat.ltb_lt _ _)) by lia. cbn. split; [reflexivity|]. split; cbn; lia.
Qed.
Lemma loop_c fuel : forall c, in_bounds (ci_rows c) -> left_of (ci_rows c) < fuel ->
  exists c' x, cons_loop pr imax fuel c = Ok (c', x) /\ in_bounds (ci_rows c') /\
  match x with Some _ => left_of (ci_rows c') < left_of (ci_rows c) | None => True end.
Proof.
  induction fuel as [|f IH]; intros c B L; [lia|]. cbn [cons_loop]. destruct (next_it _ B) as [[E ->]|(E & -> & B')]; cbn.
  - eauto 6.
  - destruct (join Nat.compare (it_i (ci_rows c)) (ci_del c)) as [[| |b] del]; cbn.
    + eexists _, _. split; [reflexivity|]. split; [exact B'|]. unfold left_of. cbn. lia.
    + eexists _, _. split; [reflexivity|]. split; [exact B'|]. unfold left_of. cbn. lia.
    + destruct (IH (CI (RI (S (it_i (ci_rows c))) (it_end (ci_rows c))) del)) as (c' & x & Q & B2 & R); [exact B'|unfold left_of in *; cbn; lia|].
      exists c', x. split; [exact Q|]. split; [exact B2|]. destruct x; [|exact I]. unfold left_of in *. cbn in *. lia.
Qed.
Fixpoint more (h : hiter) : nat :=
  match h with
  | HChecked it | HUnchecked it => left_of it
  | HConsistent c | HEdit c => left_of (ci_rows c)
  | HAll h => more h
  | HThese l => length l
  end.
Lemma next_more h : bounds h ->
  exists h' x, h_next pr imax h = Ok (h', x) /\ bounds h' /\
  match x with Some _ => more h' < more h /\ (counted h -> S (more h') = more h) | None => counted h -> more h = 0 end /\
  (counted h' <-> counted h) /\ (~ overrun h -> ~ overrun h').
Proof.
  induction h as [it|it|c|c|h IH|l]; cbn [bounds h_next more counted overrun]; intros B.
  - destruct (next_it _ B) as [[E ->]|(E & -> & B')]; cbn; eexists _, _; (split; [reflexivity|]); cbn; unfold left_of; cbn; (split; [assumption|]); (split; [|tauto || (split; [tauto|])]); try lia.
  - destruct (next_it _ B) as [[E ->]|(E & -> & B')]; cbn; eexists _, _; (split; [reflexivity|]); cbn; unfold left_of; cbn; (split; [assumption|]); (split; [|tauto || (split; [tauto|])]); try lia.
  - destruct (loop_c (S (it_end (ci_rows c) - it_i (ci_rows c))) c B) as (c' & x & Q & B' & R); [unfold left_of; lia|]. unfold cons_next. rewrite Q. cbn.
    eexists _, _. split; [reflexivity|]. split; [exact B'|]. split; [destruct x; [split; [exact R|tauto]|tauto]|]. cbn. tauto.
  - destruct (loop_c (S (it_end (ci_rows c) - it_i (ci_rows c))) c B) as (c' & x & Q & B' & R); [unfold left_of; lia|]. unfold cons_next. rewrite Q. cbn.
    eexists _, _. split; [reflexivity|]. split; [exact B'|]. split; [destruct x; [split; [exact R|tauto]|tauto]|]. cbn. tauto.
  - destruct (IH B) as (h' & x & -> & B' & R & C & O). cbn. eexists _, _. split; [reflexivity|]. cbn. auto.
  - destruct l as [|x l]; cbn; eexists _, _; (split; [reflexivity|]); cbn; auto; (split; [exact I|]); (split; [auto; lia|tauto]).
Qed.
Lemma yields_more n : forall h, bounds h -> more h <= n -> exists l, yields pr imax h l /\ length l <= more h /\ (counted h -> length l = more h).
Proof.
  induction n as [|n IH]; intros h B L; destruct (next_more h B) as (h' & [x|] & E & B' & R & C & _).
  - lia.
  - exists []. split; [eapply Y_end, E|]. cbn. split; [lia|]. intros c. rewrite R by exact c. reflexivity.
  - destruct R as [R1 R2]. destruct (IH h' B') as (l & Y & L1 & L2); [lia|]. exists (x :: l). split; [eapply Y_more; eassumption|]. cbn. split; [lia|].
    intros c. rewrite L2 by (apply C, c). auto.
  - exists []. split; [eapply Y_end, E|]. cbn. split; [lia|]. intros c. rewrite R by exact c. reflexivity.
Qed.
Lemma yields_one h l : yields pr imax h l -> forall l', yields pr imax h l' -> l = l'.
Proof.
  induction 1 as [h h' E|h h' x l E Y IH]; intros l' Y'; inversion Y' as [? ? E'|? ? ? ? E' Y2]; subst; try congruence.
  rewrite E in E'. injection E' as <- <-. f_equal. auto.
Qed.
Lemma hint_right h : bounds h -> ~ overrun h ->
  exists l hint, yields pr imax h l /\ h_hint pr umax h = Ok hint /\ hint_ok (length l) hint /\ (counted h -> hint = (length l, Some (length l))).
Proof.
  intros B O. destruct (yields_more (more h) h B (le_n _)) as (l & Y & L1 & L2). exists l.
  assert (exists hint, h_hint pr umax h = Ok hint /\ (counted h -> hint = (more h, Some (more h))) /\ (~ counted h -> hint = (0, None))) as (hint & E & C & N).
  { clear -O. induction h as [it|it|c|c|h IH|l]; cbn [h_hint counted more overrun] in *.
    - unfold it_size_hint, usub. rewrite (proj2 (Nat.leb_le _ _)) by lia. cbn. eexists. split; [reflexivity|]. split; [reflexivity|tauto].
    - unfold it_size_hint, usub. rewrite (proj2 (Nat.leb_le _ _)) by lia. cbn. eexists. split; [reflexivity|]. split; [reflexivity|tauto].
    - eexists. split; [reflexivity|]. split; [tauto|reflexivity].
    - eexists. split; [reflexivity|]. split; [tauto|reflexivity].
    - exact (IH O).
    - eexists. split; [reflexivity|]. split; [reflexivity|tauto]. }
  exists hint. split; [exact Y|]. split; [exact E|]. assert (counted h \/ ~ counted h) as [c|c].
  { clear. induction h; cbn; tauto. }
  - rewrite L2 by exact c. split; [rewrite (C c); split; cbn; lia|exact C].
  - split; [rewrite (N c); split; cbn; [lia|exact I]|tauto].
Qed.
Lemma hint_wrong h : bounds h -> overrun h ->
  yields pr imax h [] /\ match pr with Debug => h_hint pr umax h = panic POverflow | Release => exists n, h_hint pr umax h = Ok (n, Some n) /\ umax < n + imax end.
Proof.
  intros B O. assert (counted h /\ more h = 0) as [C M].
  { clear -O. induction h as [it|it|c|c|h IH|l]; cbn in *; try tauto; unfold left_of; (split; [exact I|lia]). }
  split.
  { destruct (next_more h B) as (h' & [x|] & E & B' & R & _); [destruct R; lia|]. eapply Y_end, E. }
  clear C M. induction h as [it|it|c|c|h IH|l]; cbn [h_hint overrun bounds] in *; try tauto.
  - unfold it_size_hint, usub. rewrite (proj2 (Nat.leb_gt _ _)) by exact O. destruct pr; cbn; [reflexivity|]. eexists. split; [reflexivity|]. destruct B. lia.
  - unfold it_size_hint, usub. rewrite (proj2 (Nat.leb_gt _ _)) by exact O. destruct pr; cbn; [reflexivity|]. eexists. split; [reflexivity|]. destruct B. lia.
Qed.
Lemma skip_it it n it' : in_bounds it -> it_skip_fast pr imax umax it n = Ok it' -> in_bounds it' /\ it_end it' = it_end it /\ (it_i it + n <= umax -> it_i it' = it_i it + n).
Proof.
  intros [A B] E. unfold it_skip_fast, uadd, rid_from_usize in E. destruct (Nat.leb_spec (it_i it + n) umax) as [L|L].
  - cbn in E. destruct (Nat.leb_spec (it_i it + n) imax); [|discriminate]. cbn in E. injection E as <-. split; [split; cbn; assumption|]. cbn. auto.
  - destruct pr; [discriminate|]. cbn [bind] in E. destruct (Nat.leb_spec (it_i it + n - S umax) imax); [|discriminate]. cbn in E. injection E as <-.
    split; [split; cbn; assumption|]. cbn. split; [reflexivity|lia].
Qed.
Lemma skip_bounds h n h' : bounds h -> h_skip pr imax umax h n = Ok h' -> bounds h'.
Proof.
  destruct h as [it|it|c|c|h|l]; cbn [h_skip bounds]; intros B E; try (injection E as <-; exact B).
  - bindn E v Q. injection E as <-. exact (proj1 (skip_it _ _ _ B Q)).
  - bindn E v Q. injection E as <-. exact (proj1 (skip_it _ _ _ B Q)).
  - bindn E v Q. injection E as <-. unfold cons_skip_fast in Q. bindn Q w Q'. injection Q as <-. exact (proj1 (skip_it _ _ _ B Q')).
  - bindn E v Q. injection E as <-. unfold cons_skip_fast in Q. bindn Q w Q'. injection Q as <-. exact (proj1 (skip_it _ _ _ B Q')).
Qed.
Lemma run_bounds ops : forall h h', bounds h -> h_run pr imax umax ops h = Ok h' -> bounds h'.
Proof.
  induction ops as [|[|n] ops IH]; intros h h' B E; cbn [h_run] in E.
  - injection E as <-. exact B.
  - destruct (next_more h B) as (h1 & x & E1 & B1 & _). rewrite E1 in E. cbn in E. eapply IH; eassumption.
  - bindn E v Q. eapply IH; [|exact E]. eapply skip_bounds; eassumption.
Qed.
Lemma run_fits ops : forall h h', bounds h -> ~ overrun h -> skips_rows pr imax umax ops h -> h_run pr imax umax ops h = Ok h' -> ~ overrun h'.
Proof.
  induction ops as [|[|n] ops IH]; intros h h' B O K E; cbn [h_run skips_rows] in *.
  - injection E as <-. exact O.
  - destruct (next_more h B) as (h1 & x & E1 & B1 & _ & _ & O1). rewrite E1 in E. cbn in E. eapply IH; [exact B1|exact (O1 O)|eapply K, E1|exact E].
  - destruct K as [K1 K2]. bindn E v Q. apply (IH v h' (skip_bounds _ _ _ B Q)); [|exact (K2 v Q)|exact E]. clear IH K2 E.
    destruct (yields_more (more h) h B (le_n _)) as (l & Y & L1 & L2).
    destruct h as [it|it|c|c|h|rows]; cbn [h_skip] in Q; try (injection Q as <-; exact O).
    + bindn Q w Q'. injection Q as <-. pose proof (K1 l I Y) as N. rewrite (L2 I) in N. destruct (skip_it _ _ _ B Q') as (_ & A1 & A2). cbn in *. unfold left_of in N. rewrite A1, A2; destruct B; lia.
    + bindn Q w Q'. injection Q as <-. pose proof (K1 l I Y) as N. rewrite (L2 I) in N. destruct (skip_it _ _ _ B Q') as (_ & A1 & A2). cbn in *. unfold left_of in N. rewrite A1, A2; destruct B; lia.
    + bindn Q w Q'. injection Q as <-. exact O.
    + bindn Q w Q'. injection Q as <-. exact O.
Qed.
Lemma after_right h ops h' : made imax len h -> h_run pr imax umax ops h = Ok h' -> ~ overrun h' ->
  exists l hint, yields pr imax h' l /\ h_hint pr umax h' = Ok hint /\ hint_ok (length l) hint /\ (counted h' -> hint = (length l, Some (length l))).
Proof. intros M E. apply hint_right. eapply run_bounds; [|exact E]. apply made_bounds, M. Qed.
Lemma after_wrong h ops h' : made imax len h -> h_run pr imax umax ops h = Ok h' -> overrun h' ->
  yields pr imax h' [] /\ match pr with Debug => h_hint pr umax h' = panic POverflow | Release => exists n, h_hint pr umax h' = Ok (n, Some n) /\ umax < n + imax end.
Proof. intros M E. apply hint_wrong. eapply run_bounds; [|exact E]. apply made_bounds, M. Qed.
Lemma after_fits h ops h' : made imax len h -> ~ overrun h -> skips_rows pr imax umax ops h -> h_run pr imax umax ops h = Ok h' -> ~ overrun h'.
Proof. intros M. apply run_fits, made_bounds, M. Qed.
End F.
