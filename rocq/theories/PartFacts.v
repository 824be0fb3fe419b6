(** The calls per kind of table are those of the parts written for the kind (for C62). *)
From Coq Require Import List Arith Bool NArith String.
From Verif Require Import Base Column RowRange Schema SchemaSpec SchemaFacts Table SortedTab Events Cascade Parts.
Import ListNotations.

Lemma parts_of s c k : expand s = Expanded c -> readable s k ->
  exists t, k_parts c = parts t /\ tm_consistent t = kind_eqb k Consistent /\ tm_sorted t = kind_eqb k Sorted /\ tm_kind t = Some k.
Proof.
  intros Ec R0. pose proof (expand_spec s) as E. rewrite Ec in E. destruct E as (k' & t & R & _ & _ & P & W).
  rewrite (readable_kind _ _ _ R R0) in *. clear R R0 k'.
  unfold write_out in W. destruct (tm_cols t); [discriminate|]. apply andthen_good in W as (au & _ & W).
  destruct (tm_save t && _)%bool; [discriminate|]. injection W as <-. cbn [k_parts].
  pose proof (pd_flags _ _ _ P) as F. unfold flags in F. injection F as F1 F2 F3 F4.
  exists t. rewrite F2, F3, (pd_kind' _ _ _ P). repeat split. all: destruct k; reflexivity.
Qed.

Definition own_parts (k : kind) : list part :=
  match k with
  | Consistent => [PRemoveConsistent; PRangeConsistent; PDeleteConsistent; PLogConsistent]
  | Append => [PRemovePanics; PRangeInconsistent; PDeleteFake; PLogBasic]
  | Bag => [PRemovePanics; PRangeInconsistent; PDeleteBag; PLogBasic]
  | List_ => [PRemovePanics; PRangeInconsistent; PDeleteFake; PLogIgnored]
  | Sorted => [PRemoveSorted; PRangeInconsistent; PDeleteFake; PLogIgnored]
  end.
Definition own (p : part) : bool :=
  match p with
  | PRemoveConsistent | PRemoveSorted | PRemovePanics | PRangeConsistent | PRangeInconsistent
  | PDeleteConsistent | PDeleteBag | PDeleteFake | PLogConsistent | PLogBasic | PLogIgnored => true
  | _ => false
  end.
Lemma own_of s c k : expand s = Expanded c -> readable s k -> filter own (k_parts c) = own_parts k.
Proof.
  intros E R. destruct (parts_of _ _ _ E R) as (t & -> & F1 & F2 & F3).
  unfold parts, is_kind. rewrite F1, F2, F3. destruct k, (dv_clone (tm_derive t)), (tm_key t), (tm_immutable t), (tm_save t); reflexivity.
Qed.
Lemma own_in s c k p : expand s = Expanded c -> readable s k -> own p = true -> In p (k_parts c) -> In p (own_parts k).
Proof. intros E R O H. rewrite <- (own_of _ _ _ E R). apply filter_In. auto. Qed.
Lemma own_has s c k p : expand s = Expanded c -> readable s k -> In p (own_parts k) -> In p (k_parts c).
Proof. intros E R H. rewrite <- (own_of _ _ _ E R) in H. apply filter_In in H. tauto. Qed.

Ltac pick H := cbn in H; repeat destruct H as [H|H]; try discriminate H; try contradiction; subst.

Section Does.
Variable s : source.
Variable c : code.
Variable k : kind.
Hypothesis E : expand s = Expanded c.
Hypothesis R : readable s k.
Variable pr : profile.
Variable umax : nat.
Let has p := own_has s c k p E R.
Let only p := own_in s c k p E R.

Lemma as_one {A} (f : part -> option A) (y : A) :
  (forall p, own p = false -> f p = None) ->
  (exists p, In p (own_parts k) /\ f p = Some y) ->
  (forall p x, In p (own_parts k) -> f p = Some x -> x = y) -> written_as (k_parts c) f y.
Proof.
  intros N (p & I & F) O. split.
  - exists p. split; [apply has, I|exact F].
  - intros q x J G. apply O with (2 := G). apply only; [|exact J]. destruct (own q) eqn:Q; [reflexivity|]. rewrite (N _ Q) in G. discriminate.
Qed.

Ltac one := 
  apply as_one;
  [intros p; destruct p; cbn; intros; try reflexivity; discriminate
  |destruct k eqn:K; cbn [own_parts];
   first [exists PRemoveConsistent; split; [cbn; tauto|]; now cbn
         |exists PRemoveSorted; split; [cbn; tauto|]; now cbn
         |exists PLogConsistent; split; [cbn; tauto|]; now cbn
         |exists PLogBasic; split; [cbn; tauto|]; now cbn
         |exists PLogIgnored; split; [cbn; tauto|]; now cbn
         |exists PDeleteConsistent; split; [cbn; tauto|]; now cbn
         |exists PDeleteBag; split; [cbn; tauto|]; now cbn
         |exists PDeleteFake; split; [cbn; tauto|]; now cbn
         |exists PRangeConsistent; split; [cbn; tauto|]; now cbn
         |exists PRangeInconsistent; split; [cbn; tauto|]; now cbn]
  |intros p x I F; destruct k eqn:K; cbn in I; repeat destruct I as [I|I]; try contradiction; subst p; cbn in F;
   try discriminate F; injection F as <-; try reflexivity].

Lemma cleared_as w : t_kind (w_tab w) = k -> written_as (k_parts c) (fun p => part_cleared p w) (clear w).
Proof.
  intros T. unfold clear, event_cleared. rewrite T. one.
Qed.
Lemma add_as w i : t_kind (w_tab w) = k -> written_as (k_parts c) (fun p => part_add p w i) (event_add w i).
Proof. intros T. unfold event_add. rewrite T. one. Qed.
Lemma del_as w i : t_kind (w_tab w) = k -> written_as (k_parts c) (fun p => part_del p w i) (event_del w i).
Proof. intros T. unfold event_del. rewrite T. one. Qed.
Lemma delete_raw_as w i : t_kind (w_tab w) = k -> written_as (k_parts c) (fun p => part_delete_raw pr umax p w i) (delete_raw pr umax w i).
Proof. intros T. unfold delete_raw. rewrite T. one. Qed.
Lemma drop_as w : t_kind (w_tab w) = k -> written_as (k_parts c) (fun p => part_drop p w) (w_drop w).
Proof.
  intros T. assert (Q : w_drop w = match k with Consistent => if sel_empty (w_changes w) then Ok (w_tab w) else panic PNotFlushed
                                             | _ => Ok (w_tab w) end).
  { unfold w_drop, t_consistent. rewrite T. now destruct k, (sel_empty (w_changes w)). }
  rewrite Q. one.
Qed.
Lemma range_as t r : t_kind t = k -> written_as (k_parts c) (fun p => part_range p t r) (t_range t r).
Proof. intros T. unfold t_range, t_consistent. rewrite T. one. Qed.
Lemma contains_as t i : t_kind t = k -> written_as (k_parts c) (fun p => part_contains p t i) (t_contains t i).
Proof.
  intros T. assert (Q : t_contains t i = match k with Consistent => (i <? t_len t) && negb (mem i (t_free t)) | _ => i <? t_len t end).
  { unfold t_contains, t_consistent. rewrite T. destruct k; cbn; try apply andb_true_r. reflexivity. }
  rewrite Q. one.
Qed.
Lemma delete_as w i : t_kind (w_tab w) = k ->
  (exists p l, In p (k_parts c) /\ In l (k_parts c) /\ part_delete pr umax p l w i = Some (delete pr umax w i)) /\
  (forall p l x, In p (k_parts c) -> In l (k_parts c) -> part_delete pr umax p l w i = Some x -> x = delete pr umax w i).
Proof.
  intros T. unfold delete. rewrite T. split.
  - destruct k eqn:K;
      [exists PDeleteFake, PDeleteFake|exists PDeleteConsistent, PLogConsistent|exists PDeleteBag, PDeleteBag
      |exists PDeleteFake, PDeleteFake|exists PDeleteFake, PDeleteFake];
      (split; [apply has; cbn; tauto|]; split; [apply has; cbn; tauto|]); try reflexivity.
    + cbn. unfold event_del. rewrite T. unfold t_check. destruct (_ <=? _); [reflexivity|]. now destruct (t_is_deleted _ _).
    + cbn. unfold delete_raw. rewrite T. unfold t_check. destruct (_ <=? _); [reflexivity|]. now destruct (t_is_deleted _ _).
  - intros p l x I J F.
    assert (Op : own p = true) by (destruct p; try discriminate F; reflexivity).
    apply only in I; [|exact Op]. destruct k eqn:K; cbn in I; repeat destruct I as [I|I]; try contradiction; subst p; cbn in F;
      try discriminate F; try (injection F as <-; reflexivity).
    + destruct (part_del l w i) as [w'|] eqn:D; [|discriminate]. injection F as <-.
      assert (Ol : own l = true) by (destruct l; try discriminate D; reflexivity).
      apply only in J; [|exact Ol]. cbn in J. repeat destruct J as [J|J]; try contradiction; subst l; cbn in D;
        try discriminate D. injection D as <-. unfold event_del. rewrite T.
      unfold t_check. destruct (_ <=? _); [reflexivity|]. now destruct (t_is_deleted _ _).
    + injection F as <-. unfold delete_raw. rewrite T.
      unfold t_check. destruct (_ <=? _); [reflexivity|]. now destruct (t_is_deleted _ _).
Qed.
Lemma fold_raw len rows : forall w, t_kind (w_tab w) = Consistent ->
  fold_res (fun w i => let* _ := assert_ (i <? len) PRemoveRange in
                       match part_delete_raw pr umax PDeleteConsistent w i with Some d => d | None => panic PRustType end) rows w =
  fold_res (fun w i => let* _ := assert_ (i <? len) PRemoveRange in delete_raw pr umax w i) rows w.
Proof.
  induction rows as [|i rows IH]; intros w T; [reflexivity|]. cbn [fold_res].
  destruct (i <? len) eqn:L; cbn [assert_ bind]; [|reflexivity].
  assert (Q : delete_raw pr umax w i = match part_delete_raw pr umax PDeleteConsistent w i with Some d => d | None => panic PRustType end).
  { unfold delete_raw. rewrite T. reflexivity. }
  rewrite <- Q. destruct (delete_raw pr umax w i) as [w'|] eqn:D; cbn [bind]; [|reflexivity]. apply IH.
  unfold delete_raw in D. rewrite T in D. 
  destruct (map_res _ _) as [cs|]; [|discriminate D]. cbn [bind] in D. destruct (rid_from_usize _ _); [|discriminate D].
  injection D as <-. exact T.
Qed.
Lemma remove_as n u h q t ev rows : u_get u q = Ok t -> t_kind t = k -> can_write h q = true ->
  (exists p l d x, In p (k_parts c) /\ In l (k_parts c) /\ In d (k_parts c) /\
     part_remove pr umax p l d (w_new t) rows = Some x /\
     remove_rows pr umax n u h q ev rows = let* w := x in flush pr umax n u h q w ev) /\
  (forall p l d x, In p (k_parts c) -> In l (k_parts c) -> In d (k_parts c) ->
     part_remove pr umax p l d (w_new t) rows = Some x ->
     remove_rows pr umax n u h q ev rows = let* w := x in flush pr umax n u h q w ev).
Proof.
  intros U T C.
  assert (All : forall p l d x, In p (k_parts c) -> In l (k_parts c) -> In d (k_parts c) ->
     part_remove pr umax p l d (w_new t) rows = Some x ->
     remove_rows pr umax n u h q ev rows = let* w := x in flush pr umax n u h q w ev).
  { intros p l d x I J D F. unfold remove_rows, remove_rows_with. rewrite U. cbn [bind]. rewrite T, C. cbn [lock_ok bind].
    assert (Op : own p = true) by (destruct p; try discriminate F; reflexivity).
    apply only in I; [|exact Op].
    assert (Cl : forall w' , part_cleared l (clear_raw (w_new t)) = Some w' -> w' = clear (clear_raw (w_new t))).
    { intros w'. apply (proj2 (cleared_as (clear_raw (w_new t)) T) l). exact J. }
    destruct k eqn:K; cbn [own_parts In] in I; repeat destruct I as [I|I]; try contradiction; subst p; cbn [part_remove] in F;
      try discriminate F; try (injection F as <-; reflexivity).
    - destruct rows as [|rows].
      + destruct (part_cleared l (clear_raw (w_new t))) as [w'|]; [|discriminate]. injection F as <-. now rewrite (Cl _ eq_refl).
      + destruct (part_delete_raw pr umax d (w_new t) 0) eqn:Q; [|discriminate].
        assert (Od : own d = true) by (destruct d; try discriminate Q; reflexivity).
        apply only in D; [|exact Od]. cbn [own_parts In] in D. repeat destruct D as [D|D]; try contradiction; subst d; try discriminate Q.
        injection F as <-. rewrite fold_raw by exact T. reflexivity.
    - destruct rows as [|rows].
      + destruct (part_cleared l (clear_raw (w_new t))) as [w'|]; [|discriminate]. injection F as <-. now rewrite (Cl _ eq_refl).
      + injection F as <-. reflexivity. }
  split; [|exact All].
  assert (G : exists p l d x, In p (k_parts c) /\ In l (k_parts c) /\ In d (k_parts c) /\
     part_remove pr umax p l d (w_new t) rows = Some x).
  { destruct k eqn:K;
      [exists PRemovePanics, PRemovePanics, PRemovePanics|exists PRemoveConsistent, PLogConsistent, PDeleteConsistent
      |exists PRemovePanics, PRemovePanics, PRemovePanics|exists PRemovePanics, PRemovePanics, PRemovePanics
      |exists PRemoveSorted, PLogIgnored, PDeleteFake];
      destruct rows as [|rows]; eexists;
      (split; [apply has; cbn; tauto|]; split; [apply has; cbn; tauto|]; split; [apply has; cbn; tauto|]); reflexivity. }
  destruct G as (p & l & d & x & I & J & D & F). exists p, l, d, x.
  split; [exact I|]. split; [exact J|]. split; [exact D|]. split; [exact F|]. exact (All p l d x I J D F).
Qed.
End Does.
