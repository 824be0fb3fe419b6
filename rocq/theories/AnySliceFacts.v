(** Facts about type-erased slices. *)
From Coq Require Import List Arith Bool.
From Verif Require Import Base BaseFacts Column AnySlice.
Import ListNotations.

Section Facts.
Variable ty : Type.
Variable eqb : ty -> ty -> bool.
Hypothesis eqb_eq : forall a b, eqb a b = true <-> a = b.

Lemma downcast_exact e s s' : as_downcast ty eqb e (as_from ty s) = Some s' <-> e = sl_ty ty s /\ s' = s.
Proof.
  unfold as_downcast, as_from. cbn. destruct (eqb (sl_ty ty s) e) eqn:E.
  - apply eqb_eq in E. subst e. destruct s. cbn. split; [intros [= <-]; auto|intros [_ ->]; auto].
  - split; [discriminate|]. intros [-> _]. assert (eqb (sl_ty ty s) (sl_ty ty s) = true) by (apply eqb_eq; auto). congruence.
Qed.
Lemma downcast_selection e sel : 
  match sel with SelThese s => sl_ty ty s <> e | SelAll => False end /\ 
    downcast_any_selection ty eqb e (sel_as_any ty sel) = panic PWrongRows \/
  match sel with SelThese s => sl_ty ty s = e | SelAll => True end /\ 
    downcast_any_selection ty eqb e (sel_as_any ty sel) = Ok sel.
Proof.
  destruct sel as [|s]; [right; split; auto|]. cbn [sel_as_any downcast_any_selection].
  destruct (as_downcast ty eqb e (as_from ty s)) as [s'|] eqn:E.
  - apply downcast_exact in E. destruct E as [-> ->]. right. auto.
  - left. split; auto. intros <-. assert (X : as_downcast ty eqb (sl_ty ty s) (as_from ty s) = Some s) by (apply downcast_exact; auto).
    congruence.
Qed.
(** Memory holding values of the slice's type can be read through whatever downcast gives. *)
Lemma downcast_read m e s s' : (forall i, i < sl_len ty s -> fst (m (sl_ptr ty s + i)) = sl_ty ty s) ->
  as_downcast ty eqb e (as_from ty s) = Some s' ->
  sl_read ty eqb m s' = Ok (map (fun i => snd (m (sl_ptr ty s + i))) (seq 0 (sl_len ty s))).
Proof.
  intros V H. apply downcast_exact in H. destruct H as [_ ->]. unfold sl_read.
  assert (G : forall l, (forall i, In i l -> i < sl_len ty s) ->
    map_res (fun i => let x := m (sl_ptr ty s + i) in if eqb (fst x) (sl_ty ty s) then Ok (snd x) else Err EUB) l =
    Ok (map (fun i => snd (m (sl_ptr ty s + i))) l)).
  { induction l as [|i l IH]; intros Hl; cbn [map_res map]; auto. cbn zeta in *. rewrite V by (apply Hl; left; auto).
    rewrite (proj2 (eqb_eq _ _) eq_refl). cbn [bind]. rewrite IH by (intros; apply Hl; right; auto). auto. }
  apply G. intros i Hi. apply in_seq in Hi. apply Hi.
Qed.
Lemma erased_len m s l : (forall i, i < sl_len ty s -> fst (m (sl_ptr ty s + i)) = sl_ty ty s) -> sl_read ty eqb m s = Ok l ->
  as_len ty (as_from ty s) = length l /\ (as_is_empty ty (as_from ty s) = true <-> l = []).
Proof.
  intros V H. assert (L : l = map (fun i => snd (m (sl_ptr ty s + i))) (seq 0 (sl_len ty s))).
  { assert (D : as_downcast ty eqb (sl_ty ty s) (as_from ty s) = Some s) by (apply downcast_exact; auto).
    rewrite (downcast_read m _ s s V D) in H. congruence. }
  assert (N : length l = sl_len ty s) by (rewrite L, map_length, seq_length; reflexivity).
  unfold as_is_empty, as_from. cbn [as_len]. split; [congruence|]. rewrite Nat.eqb_eq. rewrite <- N. split.
  - destruct l; [reflexivity|discriminate].
  - intros ->. reflexivity.
Qed.
End Facts.
