(** Unwind.v gives the same states as the rest of the model to calls that do not panic. *)
From Coq Require Import List Arith Bool Lia.
From Verif Require Import Base BaseFacts Column ColumnFacts RowRange RowRangeFacts Table Visit SortedTab BagTab TableSpec TableFacts
  VisitFacts SortedFacts BagFacts Hist HistFacts Unwind UnwindSpec UnwindFacts.
Import ListNotations.

Section Cols.
Variable imax : nat.
Variable boom : key -> list key -> bool.
Hypothesis B : forall k m, boom k m = false.
Lemma booms_no k m : booms boom k m = false.
Proof. destruct m; cbn; auto. Qed.
Lemma push_agr c v c' : c_push imax c v = Ok c' -> uc_push imax boom c v = (c', Ok tt).
Proof.
  destruct c as [b|b ix]; cbn; intro H; bindn H b' E; rewrite E; [inv H; auto|]. bindn H n E2. rewrite E2, booms_no. inv H. auto.
Qed.
Lemma swap_out_agr c i v p : c_swap_out imax c i v = Ok p -> uc_swap_out imax boom c i v = (fst p, Ok (snd p)).
Proof.
  destruct c as [b|b ix]; cbn; intro H.
  - bindn H q E. rewrite E. inv H. auto.
  - bindn H old E. bindn H n E2. bindn H q E3. rewrite E, E2, !booms_no, E3. inv H. auto.
Qed.
Lemma swap_agr c i j c' : c_swap imax c i j = Ok c' -> uc_swap imax boom c i j = (c', Ok tt).
Proof.
  destruct c as [b|b ix]; cbn; intro H.
  - bindn H q E. rewrite E. inv H. auto.
  - bindn H oa E. bindn H ob E2. bindn H na E3. bindn H nb E4. bindn H q E5. rewrite E, E2, E3, E4, !booms_no, E5. inv H. auto.
Qed.
Lemma deleted_agr c i c' : c_deleted imax c i = Ok c' -> uc_deleted imax boom c i = (c', Ok tt).
Proof.
  destruct c as [b|b ix]; cbn; intro H; [inv H; auto|]. bindn H oa E. bindn H n E2. rewrite E, E2, booms_no. inv H. auto.
Qed.
Lemma ufold_agr {X A} (f : X -> A -> res X) (g : X -> A -> X * res unit) : (forall x a y, f x a = Ok y -> g x a = (y, Ok tt)) ->
  forall l x y, fold_res f l x = Ok y -> ufold g l x = (y, Ok tt).
Proof.
  intro F. induction l as [|a l IH]; intros x y H; cbn in *; [inv H; auto|]. bindn H z E. rewrite (F _ _ _ E). unfold thn. cbn. auto.
Qed.
Lemma truncate_agr c n c' : c_truncate imax c n = Ok c' -> uc_truncate imax boom c n = (c', Ok tt).
Proof.
  destruct c as [b|b ix]; cbn; intro H; [inv H; auto|]. bindn H z E.
  rewrite (ufold_agr _ _ deleted_agr _ _ _ E). unfold thn. cbn. destruct z; inv H; auto.
Qed.
Lemma ucols_agr1 {A} (f : col -> A -> res col) (g : col -> A -> col * res unit) : (forall x a y, f x a = Ok y -> g x a = (y, Ok tt)) ->
  forall cs l cs', length cs = length l -> map_res (fun p => f (fst p) (snd p)) (combine cs l) = Ok cs' -> exists u, ucols g cs l = (cs', Ok u).
Proof.
  intro F. induction cs as [|c cs IH]; intros [|a l] cs' L H; try discriminate; cbn in *; [inv H; eauto|].
  bindn H c' E. bindn H cs2 E2. inv H. rewrite (F _ _ _ E). destruct (IH l cs2 ltac:(lia) E2) as [u ->]. cbn. eauto.
Qed.
Lemma ucols_agr2 {A V} (f : col -> A -> res (col * V)) (g : col -> A -> col * res V) : (forall x a y, f x a = Ok y -> g x a = (fst y, Ok (snd y))) ->
  forall cs l ps, length cs = length l -> map_res (fun p => f (fst p) (snd p)) (combine cs l) = Ok ps -> ucols g cs l = (map fst ps, Ok (map snd ps)).
Proof.
  intro F. induction cs as [|c cs IH]; intros [|a l] ps L H; try discriminate; cbn in *; [inv H; auto|].
  bindn H c' E. bindn H cs2 E2. inv H. rewrite (F _ _ _ E), (IH l cs2 ltac:(lia) E2). cbn. auto.
Qed.
Lemma ueach_agr (f : col -> res col) (g : col -> col * res unit) : (forall x y, f x = Ok y -> g x = (y, Ok tt)) ->
  forall cs cs', map_res f cs = Ok cs' -> exists u, ueach g cs = (cs', Ok u).
Proof.
  intros F cs cs' H. unfold ueach. apply (ucols_agr1 (fun c (_ : col) => f c)); auto.
  rewrite <- H. clear. assert (G : forall l (l2 : list col), length l = length l2 -> map_res (fun p : col * col => f (fst p)) (combine l l2) = map_res f l).
  { induction l as [|a l IH]; intros [|b l2] E; try discriminate; cbn in *; auto. rewrite IH; auto. }
  apply G; auto.
Qed.
End Cols.

Section Tab.
Variables (pr : profile) (umax : nat).
Variable boom : key -> list key -> bool.
Hypothesis B : forall k m, boom k m = false.

Lemma push_only_agr w r p : push_only_unchecked w r = Ok p -> u_push_only boom w r = (fst p, Ok (snd p)).
Proof.
  unfold push_only_unchecked, u_push_only, cols_push. intro H. destruct (length (t_cols (w_tab w)) =? length r) eqn:L; [|discriminate].
  bindn H cs E. bindn H l E2. apply Nat.eqb_eq in L. destruct (ucols_agr1 _ _ (push_agr (t_imax (w_tab w)) boom B) _ _ _ L E) as [u U].
  rewrite U. unfold cols_left, thn. cbn. rewrite E2. cbn. destruct l; inv H. auto.
Qed.
Lemma push_end_agr w r p : push_end_unchecked w r = Ok p -> u_push_end boom w r = (fst p, Ok (snd p)).
Proof.
  unfold push_end_unchecked, u_push_end. intro H. bindn H q E. rewrite (push_only_agr _ _ _ E). unfold thn. cbn. inv H. auto.
Qed.
Lemma swap_out_row_agr w i r p : swap_out_row w i r = Ok p -> u_swap_out_row boom w i r = (fst p, Ok (snd p)).
Proof.
  unfold swap_out_row, u_swap_out_row. intro H. bindn H j E. rewrite E. destruct (length (t_cols (w_tab w)) =? length r) eqn:L; [|discriminate].
  bindn H ps E2. apply Nat.eqb_eq in L. erewrite (ucols_agr2 (fun c v => c_swap_out (t_imax (w_tab w)) c j v)); [|intros; apply swap_out_agr; eauto|exact L|exact E2].
  inv H. reflexivity.
Qed.
Lemma truncate_row_agr w n w' : truncate w n = Ok w' -> u_truncate boom w n = (w', Ok tt).
Proof.
  unfold truncate, u_truncate. intro H. bindn H cs E. destruct (ueach_agr _ _ (fun x y => truncate_agr (t_imax (w_tab w)) boom B x n y) _ _ E) as [u U].
  rewrite U. inv H. reflexivity.
Qed.
Lemma delete_raw_agr w i w' : delete_raw pr umax w i = Ok w' -> u_delete_raw pr umax boom w i = (w', Ok tt).
Proof.
  unfold delete_raw, u_delete_raw. destruct (t_kind (w_tab w)); intro H; try discriminate.
  - bindn H cs E. bindn H n E2. destruct (ueach_agr _ _ (fun x y => deleted_agr (t_imax (w_tab w)) boom B x i y) _ _ E) as [u U].
    rewrite U. unfold thn, cols_left. cbn. rewrite E2. inv H. reflexivity.
  - bindn H len1 E0. rewrite E0. bindn H cs E. bindn H cs2 E2. inv H. unfold thn at 1. destruct (i <? len1).
    + destruct (ueach_agr _ _ (fun x y => swap_agr (t_imax (w_tab w)) boom B x i len1 y) _ _ E) as [u U]. rewrite U. cbn.
      apply (truncate_row_agr (with_tab w (with_cols (w_tab w) cs)) len1). unfold truncate. cbn. unfold t_imax in *. cbn. rewrite E2. reflexivity.
    + inv E. cbn. apply truncate_row_agr. unfold truncate. rewrite E2. reflexivity.
Qed.
Lemma push_agr' w r p : push w r = Ok p -> u_push boom w r = (fst p, Ok (snd p)).
Proof.
  unfold push, u_push. destruct (t_free (w_tab w)); intro H; [apply push_end_agr; auto|]. bindn H q E. rewrite (swap_out_row_agr _ _ _ _ E). inv H. reflexivity.
Qed.
Lemma push_all_agr w rs w' : push_all w rs = Ok w' -> u_push_all boom w rs false = (w', Ok tt).
Proof.
  unfold push_all, u_push_all. intro H. erewrite ufold_agr; [|intros x a y E|exact H]; [reflexivity|]. bindn E q E2.
  rewrite (push_agr' _ _ _ E2). inv E. reflexivity.
Qed.
Lemma push_ends_agr rs : forall p q, fold_res (fun s r => push_end_unchecked (fst s) r) rs p = Ok q -> u_push_ends boom rs (fst p) (snd p) = (fst q, Ok (snd q)).
Proof.
  induction rs as [|r rs IH]; intros p q H; cbn in *; [inv H; auto|]. bindn H z E. rewrite (push_end_agr _ _ _ E). unfold thn. cbn. auto.
Qed.
Lemma push_end_sch w r p : push_end_unchecked w r = Ok p -> t_sch (w_tab (fst p)) = t_sch (w_tab w).
Proof.
  unfold push_end_unchecked, push_only_unchecked. intro H. bindn H q E. inv H. bindn E cs E1. bindn E l E2. destruct l; inv E. cbn.
  unfold event_add. destruct (t_kind _); reflexivity.
Qed.
Lemma push_array_agr w rs p : push_array pr w rs = Ok p -> u_push_array pr boom w rs false = (fst p, Ok (snd p)).
Proof.
  destruct rs as [|r rs]; cbn [push_array u_push_array]; intro H; [inv H; reflexivity|]. bindn H q E. bindn H z E2. bindn H e E3. inv H.
  rewrite (push_end_agr _ _ _ E). unfold thn at 1. cbn. rewrite (push_ends_agr _ _ _ E2). unfold thn. cbn.
  assert (S : t_imax (w_tab (fst z)) = t_imax (w_tab w)).
  { unfold t_imax. f_equal. transitivity (t_sch (w_tab (fst q))); [|apply (push_end_sch _ _ _ E)]. clear - E2. revert q E2.
    induction rs as [|r rs IH]; intros q E2; cbn in E2; [inv E2; auto|]. bindn E2 y Ey. rewrite (IH _ E2). apply (push_end_sch _ _ _ Ey). }
  rewrite S, E3. reflexivity.
Qed.
Lemma delete_agr w i w' : delete pr umax w i = Ok w' -> u_delete pr umax boom w i = (w', Ok tt).
Proof.
  unfold delete, u_delete. destruct (t_kind (w_tab w)); intro H; try discriminate; bindn H j E; rewrite E; [inv H; auto|]. apply delete_raw_agr; auto.
Qed.
Lemma delete_rows_agr w rows w' :
  (let len := t_len (w_tab w) in fold_res (fun w i => let* _ := assert_ (i <? len) PRemoveRange in delete_raw pr umax w i) rows w) = Ok w' ->
  u_delete_rows pr umax boom w rows = (w', Ok tt).
Proof.
  unfold u_delete_rows. apply ufold_agr. intros x a y H. unfold assert_ in H. destruct (a <? t_len (w_tab w)); [|discriminate]. apply delete_raw_agr. exact H.
Qed.
Lemma flush_apply_agr w ev ch w' : flush_apply pr umax w ev ch = Ok w' -> u_flush_apply pr umax boom w ev ch = (w', Ok tt).
Proof.
  unfold flush_apply, u_flush_apply. destruct (_ && _); intro H; [|inv H; auto]. destruct ch; [inv H; auto|]. apply delete_rows_agr. exact H.
Qed.
Lemma live_flush_agr srt w ev w' : w_live_flush pr umax srt w ev = Ok w' -> u_live_flush pr umax boom srt false w ev = (w', Ok tt).
Proof.
  unfold w_live_flush, u_live_flush. destruct (sel_empty (w_changes w)); intro H; [inv H; auto|]. bindn H u E. rewrite E. cbn [bind stop_res].
  bindn H w2 E2. rewrite (flush_apply_agr _ _ _ _ E2). unfold thn. cbn. unfold assert_ in H. destruct (sel_empty (w_changes w2)); [|discriminate]. inv H. reflexivity.
Qed.
Lemma rm_col_agr imax rows : forall us bad c p, rm_col imax us bad c rows = Ok p -> forall rows', rows' = rows ->
  u_rm_col boom imax us bad c rows' = (fst p, Ok (snd p)).
Proof.
  intros us. revert rows. induction us as [|u us IH]; intros rows bad c p H ? ->; cbn in *; [inv H; auto|].
  destruct (match rows with x :: _ => u =? x | [] => false end); [eapply IH; eauto|]. bindn H c' E. unfold thn.
  destruct (bad =? u); [inv E; cbn; eapply IH; eauto|]. rewrite (swap_agr imax boom B _ _ _ _ E). cbn. eapply IH; eauto.
Qed.
Lemma sorted_remove_agr w rows w' : sorted_remove_rows w rows = Ok w' -> u_sorted_remove boom w rows = (w', Ok tt).
Proof.
  destruct rows as [|r rows]; intro H; [inv H; reflexivity|]. unfold sorted_remove_rows in H. unfold u_sorted_remove. bindn H u E. bindn H u2 E2. bindn H cs E3.
  rewrite E. cbn [bind]. rewrite E2. eapply ueach_agr in E3; [destruct E3 as [v E3]; rewrite E3; inv H; reflexivity|].
  intros x y Hx. cbn in Hx. bindn Hx q Eq1. unfold thn. rewrite (rm_col_agr _ _ _ _ _ _ Eq1 _ eq_refl). cbn. apply truncate_agr; auto.
Qed.

(** ** visit, retain *)
Definition ur (x : rug_item) : urug := match x with RRow r => URow r | RIter l => UIter l false end.
Lemma pull_agr rug : u_pull (map ur rug) = match pull_rug rug with Some (r, rug) => UPulled r (map ur rug) | None => UEmpty end.
Proof. induction rug as [|[r|[|x l]] rug IH]; cbn; auto. Qed.
Lemma swap_out_sch w i r p : swap_out_row w i r = Ok p -> t_sch (w_tab (fst p)) = t_sch (w_tab w).
Proof. unfold swap_out_row. intro H. bindn H j E. destruct (_ =? _); [|discriminate]. bindn H ps E2. inv H. reflexivity. Qed.
Lemma fill_agr n : forall w rug front back q, fill_rug pr n w rug front back = Ok q ->
  u_fill pr boom n w (map ur rug) front back = (fst (fst q), Ok (map ur (snd (fst q)), snd q)).
Proof.
  induction n as [|n IH]; intros w rug front back q H; cbn in *; [inv H; auto|]. destruct (front <? back); [|inv H; auto].
  rewrite pull_agr. destruct (pull_rug rug) as [[r rug']|]; [|inv H; auto]. bindn H p E. bindn H fr E2.
  rewrite (swap_out_row_agr _ _ _ _ E). unfold thn. cbn. unfold t_imax in *. rewrite (swap_out_sch _ _ _ _ E), E2. apply IH. exact H.
Qed.
Lemma rug_size l : u_rug_size (map ur l) = length (rug_rows l).
Proof. induction l as [|[r|x] l IH]; cbn; auto. rewrite app_length. lia. Qed.
Lemma pour_agr : forall n rug w w', length (rug_rows rug) < n ->
  fold_res (fun w r => let* p := push_end_unchecked w r in Ok (fst p)) (rug_rows rug) w = Ok w' -> u_pour boom n w (map ur rug) = (w', Ok tt).
Proof.
  induction n as [|n IH]; intros rug w w' L H; [lia|]. cbn [u_pour]. rewrite pull_agr. pose proof (pull_rug_spec rug) as P.
  destruct (pull_rug rug) as [[r rug']|].
  - rewrite P in H, L. cbn in H, L. bindn H z E. bindn E p E2. inv E. rewrite (push_end_agr _ _ _ E2). unfold thn. cbn. apply IH; auto. lia.
  - rewrite P in H. inv H. reflexivity.
Qed.
Section V.
Context {A : Type}.
Variable f : A -> wlock -> nat -> A * action.
Variable g : A -> wlock -> nat -> A * uaction.
Hypothesis G : forall s w i, g s w i = (fst (f s w i), match snd (f s w i) with Continue rm add => UContinue rm add false | Break => UBreak end).
Lemma loop_agr fuel : forall s w rug front back stopped q, rug_loop pr f fuel s w rug front back stopped = Ok q ->
  u_loop pr boom g fuel s w (map ur rug) front back stopped =
  (snd (fst q), Ok (match snd q with Some (rug, front) => Some (map ur rug, front) | None => None end)).
Proof.
  induction fuel as [|n IH]; intros s w rug front back stopped q H; cbn [rug_loop u_loop] in *.
  - destruct (back <? t_len (w_tab w)); inv H. reflexivity.
  - destruct (back <? t_len (w_tab w)); [|inv H; reflexivity].
    assert (Ga : (if stopped then (s, UBreak) else g s w back) =
                 (fst (if stopped then (s, Break) else f s w back),
                  match snd (if stopped then (s, Break) else f s w back) with Continue rm add => UContinue rm add false | Break => UBreak end)).
    { destruct stopped; [reflexivity|apply G]. }
    rewrite Ga. destruct (if stopped then (s, Break) else f s w back) as [s' [rm add|]]; cbn [fst snd] in *.
    + bindn H r Er. bindn H bk Eb. bindn H z Ez. rewrite Eb.
      destruct rm.
      * change (map ur rug ++ [UIter add false]) with (map ur rug ++ map ur [RIter add]). rewrite <- map_app, (fill_agr _ _ _ _ _ _ Ez). unfold thn. cbn. apply IH. exact H.
      * rewrite Er. change ((map ur rug ++ [URow r]) ++ [UIter add false]) with ((map ur rug ++ map ur [RRow r]) ++ map ur [RIter add]).
        rewrite <- !map_app, (fill_agr _ _ _ _ _ _ Ez). unfold thn. cbn. apply IH. exact H.
    + assert (Em : match map ur rug with [] => true | _ => false end = match rug with [] => true | _ => false end) by (destruct rug; reflexivity).
      rewrite Em. destruct ((front =? back) && _); [inv H; reflexivity|]. bindn H r Er. bindn H bk Eb. bindn H z Ez. rewrite Er, Eb.
      change (map ur rug ++ [URow r]) with (map ur rug ++ map ur [RRow r]). rewrite <- map_app, (fill_agr _ _ _ _ _ _ Ez). unfold thn. cbn. apply IH. exact H.
Qed.
Lemma visit_agr s w q : merge0 pr f s w = Ok q -> u_visit pr boom g s w = (snd q, Ok tt).
Proof.
  unfold merge0, u_visit. intro H. bindn H z E. apply loop_agr in E. cbn [map] in E. rewrite E. unfold thn at 1. cbn.
  destruct (snd z) as [[rug front]|]; [|inv H; destruct z as [[] ?]; reflexivity].
  bindn H w2 E2. bindn H w3 E3. rewrite (truncate_row_agr _ _ _ E2). unfold thn. cbn [fst snd]. rewrite rug_size. inv H.
  cbn [snd]. apply (pour_agr (Datatypes.S (length (rug_rows rug)))); auto.
Qed.
End V.
Lemma retain_agr {A} (f : A -> wlock -> nat -> A * bool) (g : A -> wlock -> nat -> A * option bool) s w q :
  (forall s w i, g s w i = (fst (f s w i), Some (snd (f s w i)))) -> retain pr f s w = Ok q -> u_retain pr boom g s w = (snd q, Ok tt).
Proof.
  intros G H. unfold u_retain. eapply visit_agr; [|exact H]. intros s0 w0 i. cbn. rewrite G. cbn. reflexivity.
Qed.

(** ** merge *)
Section M.
Variable cmp : row -> row -> comparison.
Variable ucmp : row -> row -> option comparison.
Hypothesis Cm : forall a b, ucmp a b = Some (cmp a b).
Context {A : Type}.
Variable log : A -> wlock -> nat -> A.
Variable ulog : A -> wlock -> nat -> option A.
Hypothesis Lg : forall s w i, ulog s w i = Some (log s w i).
Lemma take_agr rug iter : u_take ucmp rug iter false = Ok (take cmp rug iter).
Proof.
  unfold u_take, take, choose. destruct rug as [|r rug], iter as [|i iter]; auto. rewrite Cm. destruct (cmp r i); auto.
Qed.
Lemma skip_agr n : forall t first c x, merge_skip pr cmp n t first c = Ok x -> u_merge_skip pr ucmp n t first c = Ok x.
Proof.
  induction n as [|n IH]; intros t first c x H; cbn in *; auto. destruct (c <? t_len t); auto. bindn H r E. rewrite E. cbn. rewrite Cm.
  destruct (cmp r first); auto. bindn H c' E2. rewrite E2. cbn. auto.
Qed.
Lemma log_agr s sd w i : u_log ulog s sd w i = Ok (match sd with Iter => log s w i | Rug => s end).
Proof. destruct sd; cbn; auto. rewrite Lg. auto. Qed.
Lemma shift_agr cs : forall s w rug iter q, merge_shift cmp log cs s w rug iter = Ok q ->
  u_merge_shift boom ucmp ulog cs s w rug iter false = (snd (fst (fst q)), Ok (fst (fst (fst q)), snd (fst q), snd q)).
Proof.
  induction cs as [|c cs IH]; intros s w rug iter q H; cbn [merge_shift u_merge_shift] in *; [inv H; reflexivity|].
  rewrite take_agr. destruct (take cmp rug iter) as [[[[sd v] rug'] iter']|]; [|discriminate]. bindn H p E.
  rewrite (swap_out_row_agr _ _ _ _ E). unfold thn. cbn [fst snd]. rewrite log_agr. apply IH. exact H.
Qed.
Lemma tail_agr n : forall s w rug iter q, length rug + length iter <= n -> merge_tail cmp log n s w rug iter = Ok q ->
  u_merge_tail boom ucmp ulog (S n) s w rug iter false = (snd q, Ok tt).
Proof.
  induction n as [|n IH]; intros s w rug iter q L H; cbn [merge_tail] in H.
  - inv H. destruct rug, iter; cbn in L; try lia. reflexivity.
  - cbn [u_merge_tail]. rewrite take_agr. destruct (take cmp rug iter) as [[[[sd v] rug'] iter']|] eqn:T; [|inv H; reflexivity].
    bindn H p E. rewrite (push_end_agr _ _ _ E). unfold thn. cbn [fst snd]. rewrite log_agr. apply IH; [|exact H].
    unfold take, choose in T. destruct rug as [|r rug], iter as [|i iter]; cbn in T; try discriminate; [inv T; cbn in *; lia|inv T; cbn in *; lia|].
    destruct (cmp r i); inv T; cbn in *; lia.
Qed.
Lemma merge_agr s w rows q : merge_logged pr cmp log s w rows = Ok q -> u_merge pr boom ucmp ulog s w rows false = (snd q, Ok tt).
Proof.
  unfold merge_logged, u_merge. destruct rows as [|first rest]; intro H; [inv H; reflexivity|]. bindn H c E. bindn H e E2. bindn H ids E3. bindn H z E4.
  rewrite (skip_agr _ _ _ _ _ E). cbn [bind]. rewrite E2. cbn [bind]. rewrite E3. rewrite (shift_agr _ _ _ _ _ _ E4). unfold thn. cbn [fst snd].
  apply tail_agr; auto.
Qed.
End M.

Lemma bag_next_agr w p q : bag_next pr umax (bag_of w p) = Ok q -> u_bag_next pr umax boom w p = ((bg_w (fst q), pos_of (fst q)), Ok tt).
Proof.
  destruct p as [[mark i] lst]. unfold bag_next, u_bag_next, bag_of. cbn [fst snd bg_w bg_mark bg_i bg_last]. intro H.
  destruct (t_len (w_tab w) <=? i); [inv H; reflexivity|]. bindn H b E. destruct mark.
  - destruct lst as [l|]; [|discriminate]. bindn E l' E2. bindn E w' E3. inv E. cbn in H. rewrite E2 in H. inv H. rewrite E2, (delete_agr _ _ _ E3). reflexivity.
  - inv E. cbn in H. bindn H l' E2. inv H. rewrite E2. reflexivity.
Qed.
Lemma bag_drop_agr w p w' : bag_drop pr umax (bag_of w p) = Ok w' -> u_bag_drop pr umax boom w p = (w', Ok tt).
Proof.
  unfold bag_drop, u_bag_drop, bag_of. cbn. destruct (snd p) as [l|]; intro H; [|inv H; auto]. destruct (fst (fst p)); [|inv H; auto].
  bindn H l' E. rewrite E. apply delete_agr. exact H.
Qed.
Lemma flush_agr srt w ev t : w_flush pr umax srt w ev = Ok t -> u_flush pr umax boom srt false w ev = Live (Free t).
Proof.
  unfold w_flush, u_flush. destruct (sel_empty (w_changes w)) eqn:Em; intro H.
  - unfold w_drop in H. rewrite Em, andb_false_r in H. inv H. reflexivity.
  - bindn H u E. rewrite E. cbn [bind stop_res]. bindn H w2 E2. bindn H u2 E3. rewrite (flush_apply_agr _ _ _ _ E2). cbn.
    unfold w_drop in H. destruct (_ && _); inv H. reflexivity.
Qed.
End Tab.


(** ** Programs *)
Lemma check_agr t i : t_contains t i = true -> t_check t i = Ok i.
Proof.
  unfold t_contains, t_check, t_is_deleted. rewrite andb_true_iff. intros [L H]. apply Nat.ltb_lt in L. rewrite (proj2 (Nat.leb_gt _ _) L).
  destruct (t_consistent t), (mem i (t_free t)); auto; discriminate.
Qed.
Lemma cell_agr t k i v : t_read t k i = Ok v -> t_contains t i = true -> u_cell t k i = Ok v.
Proof.
  unfold t_read, u_cell. destruct (nth_error (t_cols t) k) as [c|]; [|discriminate]. intros H C. rewrite (check_agr _ _ C). cbn.
  unfold c_get in H. destruct (c_len c <=? i); auto; discriminate.
Qed.
Lemma set_cell_agr t k i v t' : t_assign t k i v = Ok t' -> t_contains t i = true -> u_set_cell t k i v = Ok t'.
Proof.
  unfold t_assign, u_set_cell. destruct (nth_error (t_cols t) k) as [[b|b ix]|]; try discriminate. intros H C. rewrite (check_agr _ _ C). cbn [bind].
  bindn H c E. unfold c_set in E. destruct (c_len _ <=? i); [discriminate|]. rewrite E. exact H.
Qed.
Lemma remove_rows_agr pr umax boom : (forall k m, boom k m = false) -> forall srt w ev rows t,
  (let* w := match rows with
             | SThese rows =>
                 match t_kind (w_tab w) with
                 | Sorted => sorted_remove_rows w rows
                 | _ => let len := t_len (w_tab w) in fold_res (fun w i => let* _ := assert_ (i <? len) PRemoveRange in delete_raw pr umax w i) rows w
                 end
             | SAll => Ok (clear (clear_raw w))
             end in w_flush pr umax srt w ev) = Ok t -> u_remove_rows pr umax boom srt false w ev rows = Live (Free t).
Proof.
  intros B srt w ev rows t H. unfold u_remove_rows. bindn H w2 E.
  assert (X : match rows with
              | SThese rows => match t_kind (w_tab w) with Sorted => u_sorted_remove boom w rows | _ => u_delete_rows pr umax boom w rows end
              | SAll => (clear (clear_raw w), Ok tt)
              end = (w2, Ok tt)).
  { destruct rows as [|rows]; [inv E; auto|]. destruct (t_kind (w_tab w)); try (apply delete_rows_agr; auto; fail). apply sorted_remove_agr; auto. }
  rewrite X. cbn [fst snd]. apply flush_agr; auto.
Qed.

Lemma step_write pr umax w its o st' : match o with OClose | OFlush _ _ | ORemoveRows _ _ _ | OLock => False | _ => True end ->
  step pr umax (Locked w its) o = Ok st' -> exists q, write_op pr umax w its o = Ok q /\ st' = Locked (fst q) (snd q).
Proof.
  intros N H. unfold step in H. destruct (avail _ _); [|discriminate].
  destruct o, its; cbn [st_tab] in *; try contradiction; bindn H q E; inv H; exists q; split; auto.
Qed.
Ltac sw := match goal with H : step _ _ _ _ = Ok _ |- _ => cbn [calm] in H; apply step_write in H; [|exact I]; destruct H as (q & Hq & ->); cbn [write_op] in Hq end.

Theorem unwind_agrees pr umax boom st o st' : (forall k m, boom k m = false) -> calm_call o -> own_name (st_tab st) o ->
  step pr umax st (calm o) = Ok st' -> ustep pr umax st (boom, o) = Live st'.
Proof.
  intros B C N H. unfold ustep. destruct (avail (t_kind (st_tab st)) (calm o)) eqn:Av; [|unfold step in H; rewrite Av in H; discriminate].
  destruct o as [o|r|rs stop|rs stop|i|srt tp ev|rows|A f s|A f s|cmp A log s rows stop|k|k|k i|k i v| |srt tp ev|srt tp ev rows];
    cbn [calm_call own_name] in C, N; destruct st as [t|w its];
    try (unfold step in H; rewrite Av in H; cbn in H; discriminate); try subst stop; try subst tp.
  all: try (rewrite N; cbn [calm] in H; destruct its; rewrite H; reflexivity).
  - rewrite N. cbn [calm] in H. rewrite H. reflexivity.
  - sw. bindn Hq w2 E. bindn E p E2. inv E. inv Hq. pose proof (push_agr' boom B _ _ _ E2) as X. destruct its; rewrite X; reflexivity.
  - sw. bindn Hq w2 E. inv Hq. pose proof (push_all_agr boom B _ _ _ E) as X. destruct its; rewrite X; reflexivity.
  - sw. bindn Hq w2 E. bindn E p E2. inv E. inv Hq. pose proof (push_array_agr pr boom B _ _ _ E2) as X. destruct its; rewrite X; reflexivity.
  - sw. bindn Hq w2 E. inv Hq. pose proof (delete_agr pr umax boom B _ _ _ E) as X. destruct its; rewrite X; reflexivity.
  - sw. bindn Hq w2 E. inv Hq. pose proof (live_flush_agr pr umax boom B _ _ _ _ E) as X. destruct its; rewrite X; reflexivity.
  - sw. bindn Hq w2 E. inv Hq. pose proof (sorted_remove_agr boom B _ _ _ E) as X. destruct its; rewrite X; reflexivity.
  - sw. bindn Hq w2 E. bindn E p E2. inv E. inv Hq.
    assert (X : u_retain pr boom f s w = (snd p, Ok tt)).
    { eapply retain_agr; eauto. intros s0 w0 i. cbn. specialize (C s0 w0 i). destruct (f s0 w0 i) as [a [b|]]; auto. contradiction. }
    destruct its; rewrite X; reflexivity.
  - sw. bindn Hq w2 E. bindn E p E2. inv E. inv Hq.
    assert (X : u_visit pr boom f s w = (snd p, Ok tt)).
    { eapply visit_agr; [exact B| |exact E2]. intros s0 w0 i. cbn. specialize (C s0 w0 i). destruct (f s0 w0 i) as [a [? ? ?| |]]; cbn in *; auto; [subst; auto|contradiction]. }
    destruct its; rewrite X; reflexivity.
  - destruct C as (C1 & C2 & ->). sw. bindn Hq w2 E. bindn E p E2. inv E. inv Hq.
    assert (X : u_merge pr boom cmp log s w rows false = (snd p, Ok tt)).
    { refine (merge_agr pr umax boom B _ cmp _ _ log _ _ _ _ _ E2); cbn.
      - intros a b. specialize (C1 a b). destruct (cmp a b); auto; contradiction.
      - intros s0 w0 i. specialize (C2 s0 w0 i). destruct (log s0 w0 i); auto; contradiction. }
    destruct its; rewrite X; reflexivity.
  - sw. destruct (nth_error its k) as [p|] eqn:En; [|discriminate]. bindn Hq z E. inv Hq. pose proof (bag_next_agr pr umax boom B _ _ _ E) as X.
    destruct its as [|b0 its0]; [destruct k; discriminate|]. rewrite X. reflexivity.
  - sw. destruct (nth_error its k) as [p|] eqn:En; [|discriminate]. bindn Hq z E. inv Hq. pose proof (bag_drop_agr pr umax boom B _ _ _ E) as X.
    destruct its as [|b0 its0]; [destruct k; discriminate|]. rewrite X. reflexivity.
  - unfold step in H. rewrite Av in H. cbn in H. bindn H u E. bindn E v E2. inv H. cbn [st_tab]. rewrite (cell_agr _ _ _ _ E2 N). reflexivity.
  - sw. cbn in Hq. bindn Hq u E. bindn E v E2. inv Hq. pose proof (cell_agr _ _ _ _ E2 N) as X. destruct its; cbn [st_tab]; rewrite X; reflexivity.
  - sw. bindn Hq w2 E. bindn E t E2. inv E. inv Hq. pose proof (set_cell_agr _ _ _ _ _ E2 N) as X. destruct its; rewrite X; reflexivity.
  - unfold step in H. rewrite Av in H. destruct its; [|discriminate]. cbn in H. bindn H t E. rewrite E. inv H. reflexivity.
  - unfold step in H. rewrite Av in H. destruct its; [|discriminate]. cbn in H. bindn H t E. inv H. apply flush_agr; auto.
  - unfold step in H. rewrite Av in H. cbn [calm] in H. bindn H t' E. inv H. apply remove_rows_agr; auto. cbn [w_tab w_new].
    destruct (t_kind t) eqn:K; try exact E; unfold w_remove_rows in E; destruct rows; auto.
  - unfold step in H. rewrite Av in H. destruct its; [|discriminate]. cbn [calm] in H. destruct (t_kind (w_tab w)) eqn:K; try discriminate.
    bindn H t' E. inv H. apply remove_rows_agr; auto. rewrite K. exact E.
Qed.
