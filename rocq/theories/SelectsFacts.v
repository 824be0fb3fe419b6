(** Facts about selections. *)
From Coq Require Import List Arith Bool Lia Permutation Sorted.
From Verif Require Import Base BaseFacts AnySlice Selects SelectsSpec.
Import ListNotations.

Lemma pushed_app a b : pushed (a ++ b) = pushed a ++ pushed b.
Proof. induction a as [|[r| |n|ty] a IH]; cbn; congruence. Qed.
Lemma round ty s : (let* s := se_downcast ty (se_as_any ty (se_as_slice s)) in Ok (se_to_owned s)) = Ok s.
Proof. destruct s as [|l]; [reflexivity|]. cbn. rewrite Nat.eqb_refl. cbn. rewrite map_id. reflexivity. Qed.
Lemma run_app a b s : sel_run (a ++ b) s = let* s := sel_run a s in sel_run b s.
Proof. revert s. induction a as [|o a IH]; intros s; cbn [sel_run app bind]; [reflexivity|]. destruct (sel_do o s); [apply IH|reflexivity]. Qed.
Lemma run_all os : sel_run os SelAll = Ok SelAll.
Proof. induction os as [|o os IH]; [reflexivity|]. cbn [sel_run]. destruct o; exact IH. Qed.
Lemma run_these : forall os l, exists l', sel_run os (SelThese l) = Ok (SelThese l') /\ Permutation l' (l ++ pushed os).
Proof.
  induction os as [|o os IH]; intros l; cbn [sel_run pushed].
  - exists l. rewrite app_nil_r. split; [reflexivity|apply Permutation_refl].
  - assert (E : exists m, sel_do o (SelThese l) = Ok (SelThese m) /\ Permutation m (l ++ pushed [o])).
    { destruct o as [r| |n|ty]; cbn [sel_do pushed].
      - eexists. split; [reflexivity|apply Permutation_refl].
      - eexists. split; [reflexivity|]. rewrite app_nil_r. symmetry. apply sort_ids_perm.
      - eexists. split; [reflexivity|]. rewrite app_nil_r. apply Permutation_refl.
      - rewrite round. eexists. split; [reflexivity|]. rewrite app_nil_r. apply Permutation_refl. }
    destruct E as [m [E P]]. rewrite E. cbn [bind]. destruct (IH m) as [l' [E' P']]. exists l'. split; [exact E'|].
    rewrite P', P. rewrite <- app_assoc, <- pushed_app. apply Permutation_refl.
Qed.
Lemma run_unsorted : forall os l, ~ In SSort os -> sel_run os (SelThese l) = Ok (SelThese (l ++ pushed os)).
Proof.
  induction os as [|o os IH]; intros l H; cbn [sel_run pushed]; [rewrite app_nil_r; reflexivity|].
  assert (H' : ~ In SSort os) by (intros X; apply H; right; exact X).
  destruct o as [r| |n|ty]; cbn [sel_do pushed bind].
  - unfold se_push. cbn. rewrite IH by exact H'. rewrite <- app_assoc. reflexivity.
  - exfalso. apply H. left. reflexivity.
  - cbn. apply IH. exact H'.
  - rewrite round. cbn [bind]. apply IH. exact H'.
Qed.
Lemma take_these : forall l n, length l < n -> si_take n (SIThese l) = l.
Proof. induction l as [|x l IH]; intros n H; (destruct n as [|n]; [cbn in H; lia|]); cbn; [reflexivity|]. rewrite IH by (cbn in H; lia). reflexivity. Qed.
Lemma take_all : forall l n, length l < n -> si_take n (SIAll l) = l.
Proof. induction l as [|x l IH]; intros n H; (destruct n as [|n]; [cbn in H; lia|]); cbn; [reflexivity|]. rewrite IH by (cbn in H; lia). reflexivity. Qed.

Lemma made l os : exists s, sel_run os (SelThese l) = Ok s /\ se_is_all s = false /\
  (se_is_empty s = true <-> l = [] /\ pushed os = []) /\
  exists l', se_unwrap s = Ok l' /\ Permutation l' (l ++ pushed os) /\ forall all, gives (se_iter_or_all s all) l'.
Proof.
  destruct (run_these os l) as [l' [E P]]. exists (SelThese l'). split; [exact E|]. split; [reflexivity|]. split.
  - cbn. split.
    + destruct l' as [|x l']; [|discriminate]. intros _. apply Permutation_nil in P. apply app_eq_nil. exact P.
    + intros [-> Q]. rewrite Q in P. symmetry in P. apply Permutation_nil in P. rewrite P. reflexivity.
  - exists l'. split; [reflexivity|]. split; [exact P|]. intros all n. apply take_these.
Qed.
Lemma made_order l a b : ~ In SSort b ->
  sel_run b (SelThese l) = Ok (SelThese (l ++ pushed b)) /\
  exists l', sel_run (a ++ SSort :: b) (SelThese l) = Ok (SelThese (l' ++ pushed b)) /\ Permutation l' (l ++ pushed a) /\ StronglySorted le l'.
Proof.
  intros H. split; [apply run_unsorted; exact H|]. destruct (run_these a l) as [m [E P]]. exists (sort_ids m).
  rewrite run_app, E. cbn [bind sel_run sel_do]. unfold se_sort, se_change. split; [apply run_unsorted; exact H|].
  split; [rewrite <- (sort_ids_perm m); exact P|apply sort_ids_sorted].
Qed.
Lemma made_all os : exists s, sel_run os SelAll = Ok s /\ se_is_all s = true /\ se_is_empty s = false /\ se_unwrap s = panic PUnwrap /\
  forall all, gives (se_iter_or_all s all) all.
Proof. exists SelAll. split; [apply run_all|]. repeat split. intros all n. apply take_all. Qed.
Lemma other_table ty ty' s : ty <> ty' -> se_downcast ty' (se_as_any ty s) = match s with SelAll => Ok SelAll | _ => panic PWrongRows end.
Proof. intros N. destruct s as [|l]; [reflexivity|]. cbn. destruct (Nat.eqb_spec ty ty'); [contradiction|reflexivity]. Qed.
