(** [ConsistentIter::with_deleted] after any number of calls of [next] (for C10). *)
From Coq Require Import List Arith Bool Lia Sorted.
From Verif Require Import Base BaseFacts Column RowRange RowRangeFacts Table TableSpec TableFacts Hist HistFacts TableProps.
Import ListNotations.

Lemma nexts_ok pr imax free it a e n : cons_inv imax free it -> it_i (ci_rows it) = a -> it_end (ci_rows it) = e -> a <= e ->
  exists it' o, Nat.iter n (fun s => let* p := s in cons_next pr imax (fst p)) (Ok (it, None)) = Ok (it', o) /\
    cons_inv imax free it' /\ it_end (ci_rows it') = e /\
    match o with Some x => a <= x < e /\ it_i (ci_rows it') = S x | None => it_i (ci_rows it') = match n with 0 => a | S _ => e end end.
Proof.
  intros I A E L. induction n as [|n (it1 & o1 & Q & I1 & E1 & M)]; cbn [Nat.iter nat_rect].
  - exists it, None. auto.
  - change (nat_rect _ _ _ n) with (Nat.iter n (fun s => let* p := s in cons_next pr imax (fst p)) (Ok (it, @None nat))). rewrite Q. cbn [bind fst].
    destruct (cons_next_ok pr imax free it1 I1) as (it2 & Q2 & I2 & E2 & M2). exists it2. eexists. split; [exact Q2|]. split; auto. split; [congruence|].
    destruct (first_live _ _ _) as [x|].
    + destruct M2 as [M2 M3]. split; auto. rewrite E1 in M3. destruct o1; [lia|]. destruct n; lia.
    + rewrite M2, E1. destruct o1; [lia|]. destruct n; lia.
Qed.
Lemma with_deleted_exact pr umax sch st : reachable pr umax sch st ->
  let t := st_tab st in
  t_len t <= t_imax t ->
  forall r it, r_start r <= r_end r -> t_range t r = Ok it ->
  forall n fuel, r_end r - r_start r < fuel ->
  exists it' o, Nat.iter n (fun s => let* p := s in cons_next pr (t_imax t) (fst p)) (Ok (it, None)) = Ok (it', o) /\
    it_collect pr (t_imax t) fuel (cons_with_deleted it') =
      Ok (match o with Some x => seq (S x) (r_end r - S x) | None => if n =? 0 then seq (r_start r) (r_end r - r_start r) else [] end).
Proof.
  intros R t L r it Hr H n fuel Hf. destruct (reachable_tg _ _ _ _ R) as (E & live & rows & K & _). fold t in K, E. rewrite (t_len_ok _ _ _ K) in L.
  destruct (t_range_spec _ _ _ K r) as [[H1 H2]|[[c H1] H2]]; [|exfalso; rewrite H1 in H; discriminate]. rewrite H1 in H. inv H.
  assert (I : cons_inv (t_imax t) (t_free t) (cons_new (RI (r_start r) (r_end r)) (t_free t))) by (apply cons_new_inv; [eapply ok_free_sorted; eauto|cbn; lia]).
  destruct (nexts_ok pr _ _ _ (r_start r) (r_end r) n I) as (it' & o & Q & I' & E' & M); auto. exists it', o. split; auto.
  destruct I' as [B _]. rewrite it_collect_ok; auto.
  - unfold cons_with_deleted. rewrite E'. destruct o as [x|]; [destruct M as [_ ->]; reflexivity|]. rewrite M. destruct n; cbn [Nat.eqb]; [reflexivity|]. rewrite Nat.sub_diag. reflexivity.
  - unfold cons_with_deleted. rewrite E'. destruct o as [x|]; [lia|]. destruct n; lia.
Qed.
