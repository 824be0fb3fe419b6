(** Proofs about what a bag's iterator hands out (for C101). *)
From Coq Require Import List Arith Bool Lia.
From Verif Require Import Base BaseFacts Context ContextUnwind BagLoan BagLoanSpec.
Import ListNotations.

(** The iterator is where it is, and may reach the table; the newest item, if it may be used, knows where it is and may reach the table too. *)
Definition sound (now : bool) (s : bworld) : Prop :=
  (forall it, bw_iter s = Some it -> (exists d, nth_error (bw_cells s) (it_loc it) = Some (Some d)) /\ pop_to 0 (bw_stack s) <> None) /\
  (now = true -> exists it items tag m, bw_iter s = Some it /\ bw_items s = items ++ [BI tag m] /\
     (forall row loc, m = Some (row, loc) -> loc = it_loc it) /\ (exists st, bw_stack s = tag :: st) /\ tag <> 0).
Lemma pop_cons t st tag : t <> tag -> pop_to tag (t :: st) = pop_to tag st.
Proof. cbn. destruct (Nat.eqb_spec t tag); congruence. Qed.
Lemma pop_self st tag st' : pop_to tag st = Some st' -> pop_to tag st' = Some st' /\ exists r, st' = tag :: r.
Proof.
  induction st as [|t st IH]; cbn; [discriminate|]. destruct (Nat.eqb_spec t tag) as [->|].
  - intros E. injection E as <-. cbn. rewrite Nat.eqb_refl. eauto.
  - exact IH.
Qed.
Lemma sound_start rows : sound false (b_start rows).
Proof. split; [|discriminate]. cbn. intros it E. injection E as <-. cbn. split; [eauto|discriminate]. Qed.

Lemma next_sound s it now : sound now s -> bw_iter s = Some it ->
  snd (b_next s it) <> Undefined /\ snd (b_next s it) <> Waits /\ snd (b_next s it) <> Aborted /\
  sound (length (bw_items s) <? length (bw_items (fst (b_next s it)))) (fst (b_next s it)).
Proof.
  intros [Hs _] E. destruct (Hs it E) as [(d & D) P]. unfold b_next. rewrite D. destruct (pop_to 0 (bw_stack s)) as [st|] eqn:Q; [|congruence].
  destruct (pop_self _ _ _ Q) as (R & r & ->).
  assert (forall (s' : bworld), bw_iter s' = Some it -> (exists d, nth_error (bw_cells s') (it_loc it) = Some (Some d)) -> bw_stack s' = 0 :: r -> sound false s') as A.
  { intros s' E' D' T. split; [|discriminate]. intros i I. rewrite E' in I. injection I as <-. split; [exact D'|]. rewrite T. cbn. discriminate. }
  destruct (length (bw_rows s) <=? it_i it).
  { cbn [fst snd bw_items]. rewrite Nat.ltb_irrefl. split; [discriminate|]. split; [discriminate|]. split; [discriminate|]. apply A; cbn; eauto. }
  destruct d.
  - destruct (it_last it) as [l|] eqn:L.
    2:{ cbn [fst snd]. rewrite Nat.ltb_irrefl. split; [discriminate|]. split; [discriminate|]. split; [discriminate|]. split; [|discriminate].
        intros i I. rewrite E in I. injection I as <-. split; [eauto|]. rewrite Q. discriminate. }
    destruct (b_delete (bw_rows s) l) as [rows|].
    + cbn [fst snd bw_items]. rewrite app_length. cbn [length]. rewrite (proj2 (Nat.ltb_lt _ _)) by lia. split; [discriminate|]. split; [discriminate|]. split; [discriminate|].
      split; cbn [bw_iter bw_cells bw_stack bw_items].
      * intros i I. rewrite E in I. injection I as <-. rewrite nth_error_upd_eq by (eapply nth_error_Some_lt, D). split; [eauto|]. rewrite pop_cons by lia. cbn. discriminate.
      * intros _. exists it, (bw_items s), (S (length (bw_items s))), (Some (l, it_loc it)). repeat split; auto; [congruence|eauto].
    + cbn [fst snd bw_items]. rewrite Nat.ltb_irrefl. split; [discriminate|]. split; [discriminate|]. split; [discriminate|].
      split; [|discriminate]. cbn [bw_iter bw_cells bw_stack]. intros i I. rewrite E in I. injection I as <-.
      rewrite nth_error_upd_eq by (eapply nth_error_Some_lt, D). split; [eauto|]. cbn. discriminate.
  - cbn [fst snd bw_items]. rewrite app_length. cbn [length]. rewrite (proj2 (Nat.ltb_lt _ _)) by lia. split; [discriminate|]. split; [discriminate|]. split; [discriminate|].
    split; cbn [bw_iter bw_cells bw_stack bw_items].
    + intros i I. injection I as <-. cbn [it_loc]. split; [eauto|]. rewrite pop_cons by lia. cbn. discriminate.
    + intros _. eexists _, (bw_items s), (S (length (bw_items s))), _. split; [reflexivity|]. split; [reflexivity|]. split; [|split; [eauto|discriminate]].
      intros row loc M. injection M as <- <-. reflexivity.
Qed.
Lemma drop_sound s it now : sound now s -> bw_iter s = Some it ->
  snd (b_drop s it) <> Undefined /\ snd (b_drop s it) <> Waits /\ snd (b_drop s it) <> Aborted /\
  length (bw_items (fst (b_drop s it))) = length (bw_items s) /\ sound false (fst (b_drop s it)).
Proof.
  intros [Hs _] E. destruct (Hs it E) as [(d & D) P]. unfold b_drop. rewrite D.
  assert (forall s' : bworld, bw_iter s' = None -> sound false s') as A by (intros s' N; split; [congruence|discriminate]).
  destruct (it_last it) as [l|].
  - destruct d.
    + destruct (pop_to 0 (bw_stack s)) as [st|]; [|congruence]. destruct (b_delete (bw_rows s) l); cbn [fst snd]; repeat split; try discriminate; apply A; reflexivity.
    + cbn [fst snd]. repeat split; try discriminate.
  - cbn [fst snd]. repeat split; try discriminate.
Qed.
Lemma last_item s items i j : bw_items s = items ++ [i] -> S j = length (bw_items s) -> nth_error (bw_items s) j = Some i.
Proof. intros -> L. rewrite app_length in L. cbn in L. rewrite nth_error_app2 by lia. replace (j - length items) with 0 by lia. reflexivity. Qed.
Lemma table_sound s j f : sound true s -> S j = length (bw_items s) ->
  (forall rows, f rows <> Undefined /\ f rows <> Waits /\ f rows <> Aborted) ->
  snd (b_table s j f) <> Undefined /\ snd (b_table s j f) <> Waits /\ snd (b_table s j f) <> Aborted /\
  sound true (fst (b_table s j f)).
Proof.
  intros [Hs N] L F. destruct (N eq_refl) as (it & items & tag & m & E & I & M & (st & T) & Z).
  unfold b_table. rewrite (last_item _ _ _ _ I L), T. cbn [bi_tag pop_to]. rewrite Nat.eqb_refl.
  assert (forall rows, sound true (BW rows (bw_cells s) (tag :: st) (bw_iter s) (bw_items s))) as A.
  { intros rows. split; cbn [bw_iter bw_cells bw_stack bw_items]; [rewrite <- T; exact Hs|]. intros _. exists it, items, tag, m. eauto 10. }
  destruct (F (bw_rows s)) as (a & b & c). destruct (f (bw_rows s)) as [[rows x]|x| | |]; cbn [fst snd not_done]; try congruence;
    (split; [discriminate|]); (split; [discriminate|]); (split; [discriminate|]); apply A.
Qed.
Lemma mark_sound s j : sound true s -> S j = length (bw_items s) -> b_compiles s (BMark j) = true ->
  (exists a, snd (b_step s (BMark j)) = Done a) /\ sound true (fst (b_step s (BMark j))).
Proof.
  intros [Hs N] L C. destruct (N eq_refl) as (it & items & tag & m & E & I & M & T & Z). destruct (Hs it E) as [(d & D) P].
  cbn [b_compiles b_step] in *. rewrite (last_item _ _ _ _ I L) in *. destruct m as [[row loc]|]; [|discriminate].
  rewrite (M row loc eq_refl), D. cbn [fst snd]. split; [eauto|]. split; cbn [bw_iter bw_cells bw_stack bw_items].
  - intros i' I'. assert (i' = it) as -> by congruence. rewrite nth_error_upd_eq by (eapply nth_error_Some_lt, D). eauto.
  - intros _. exists it, items, tag, None. split; [exact E|]. split; [|split; [discriminate|auto]].
    rewrite I in L |- *. rewrite app_length in L. cbn in L. assert (j = length items) as -> by lia. apply upd_middle.
Qed.
Lemma loop_safe os : forall now s s' r e, sound now s -> like_a_loop now s os -> b_run s os = Some (s', r, e) -> e = Done tt.
Proof.
  induction os as [|o os IH]; intros now s s' r e Hs H; cbn [b_run].
  - intros E. injection E as _ _ <-. reflexivity.
  - destruct (b_compiles s o) eqn:C; [|discriminate].
    assert (exists now', snd (b_step s o) <> Undefined /\ snd (b_step s o) <> Waits /\ snd (b_step s o) <> Aborted /\
              sound now' (fst (b_step s o)) /\ like_a_loop now' (fst (b_step s o)) os) as (now' & U & W & A & S' & H').
    { destruct o; cbn [like_a_loop of_item] in H.
      - cbn [b_compiles b_step] in *. destruct (bw_iter s) as [it|] eqn:E; [|discriminate].
        destruct (next_sound s it now Hs E) as (a & b & c & d). eexists. repeat (split; [eassumption|]). exact H.
      - cbn [b_compiles b_step] in *. destruct (bw_iter s) as [it|] eqn:E; [|discriminate]. destruct Hs as [Hs N]. destruct (Hs it E) as [(d & D) P].
        rewrite D in *. cbn [fst snd bw_items] in *. rewrite Nat.ltb_irrefl in H. exists false.
        repeat (split; [discriminate|]). split; [|exact H]. split; [|discriminate]. cbn [bw_iter bw_cells bw_stack]. intros i I. injection I as <-. cbn [it_loc].
        split; [|exact P]. exists d. rewrite nth_error_app2, upd_length by (rewrite upd_length; lia). rewrite Nat.sub_diag. reflexivity.
      - cbn [b_compiles b_step] in *. destruct (bw_iter s) as [it|] eqn:E; [|discriminate].
        destruct (drop_sound s it now Hs E) as (a & b & c & l & d). rewrite l, Nat.ltb_irrefl in H. exists false. repeat (split; [assumption|]). exact H.
      - destruct H as (-> & L & H). destruct (mark_sound s j Hs L C) as [(a & E) S']. exists true. rewrite E. repeat (split; [discriminate|]). auto.
      - destruct H as (-> & L & H). exists true. cbn [b_step] in *. edestruct (table_sound s j) as (a & b & c & d); [exact Hs|exact L| |split; [exact a|split; [exact b|split; [exact c|split; [exact d|exact H]]]]].
        intros rows. cbn beta. destruct (nth_error rows i); repeat split; discriminate.
      - destruct H as (-> & L & H). exists true. cbn [b_step] in *. edestruct (table_sound s j) as (a & b & c & d); [exact Hs|exact L| |split; [exact a|split; [exact b|split; [exact c|split; [exact d|exact H]]]]].
        intros rows. repeat split; discriminate.
      - destruct H as (-> & L & H). exists true. cbn [b_step] in *. edestruct (table_sound s j) as (a & b & c & d); [exact Hs|exact L| |split; [exact a|split; [exact b|split; [exact c|split; [exact d|exact H]]]]].
        intros rows. cbn beta. destruct (b_delete rows i); repeat split; discriminate. }
    destruct (b_step s o) as [s1 [a|c| | |]]; cbn [fst snd] in *; try congruence.
    + destruct (b_run s1 os) as [[[s2 r2] e2]|] eqn:Q; [|discriminate]. intros E. injection E as _ _ <-. eapply IH; eauto.
    + destruct (b_run s1 os) as [[[s2 r2] e2]|] eqn:Q; [|discriminate]. intros E. injection E as _ _ <-. eapply IH; eauto.
Qed.
Lemma run_loop rows os s r e : like_a_loop false (b_start rows) os -> b_run (b_start rows) os = Some (s, r, e) -> e = Done tt.
Proof. apply loop_safe, sound_start. Qed.

(** What every program comes to. *)
Definition plain_state (s : bworld) : Prop :=
  (forall l d, nth_error (bw_cells s) l = Some (Some d) -> exists it, bw_iter s = Some it /\ it_loc it = l) /\
  (forall j tag row loc, nth_error (bw_items s) j = Some (BI tag (Some (row, loc))) -> loc < length (bw_cells s)) /\
  (forall j it, nth_error (bw_items s) j = Some it -> bi_tag it = S j) /\
  (exists l, bw_stack s = l ++ [0] /\ Forall (fun t => t <> 0) l) /\
  (forall it, bw_iter s = Some it -> it_loc it < length (bw_cells s)).
Lemma pop_part tag st st' : pop_to tag st = Some st' -> exists l, st = l ++ st'.
Proof.
  revert st'. induction st as [|t st IH]; cbn; [discriminate|]. intros st'. destruct (t =? tag).
  - intros E. injection E as <-. exists []. reflexivity.
  - intros E. destruct (IH _ E) as (l & ->). exists (t :: l). reflexivity.
Qed.
Lemma pop_bottom l st : Forall (fun t => t <> 0) l -> pop_to 0 (l ++ [0]) = Some st -> st = [0].
Proof. intros F. induction F as [|t l N F IH]; cbn; [intros E; injection E as <-; reflexivity|]. destruct (Nat.eqb_spec t 0); [congruence|exact IH]. Qed.
Lemma pop_shape tag l st : Forall (fun t => t <> 0) l -> pop_to tag (l ++ [0]) = Some st -> exists l', st = l' ++ [0] /\ Forall (fun t => t <> 0) l'.
Proof.
  intros F. induction F as [|t l N F IH]; cbn.
  - destruct tag; [|discriminate]. intros E. injection E as <-. exists []. auto.
  - destruct (t =? tag); [|exact IH]. intros E. injection E as <-. exists (t :: l). auto.
Qed.
Lemma plain_start rows : plain_state (b_start rows).
Proof.
  split. { cbn. intros [|[|l]] d E; try discriminate. eauto. }
  split. { intros [|j]; discriminate. } split. { intros [|j]; discriminate. } split. { exists []. auto. }
  cbn. intros it E. injection E as <-. cbn. lia.
Qed.
Lemma same_place s s' : bw_cells s' = bw_cells s -> bw_items s' = bw_items s -> (forall it, bw_iter s = Some it -> exists it', bw_iter s' = Some it' /\ it_loc it' = it_loc it) ->
  (forall it, bw_iter s' = Some it -> it_loc it < length (bw_cells s)) ->
  (exists l, bw_stack s' = l ++ [0] /\ Forall (fun t => t <> 0) l) -> plain_state s -> plain_state s'.
Proof.
  intros C I E E' T (a & b & c & _ & _). split.
  { rewrite C. intros l d H. destruct (a _ _ H) as (it & Q & <-). destruct (E _ Q) as (it' & Q' & L). eauto. }
  rewrite I, C. auto.
Qed.
Lemma step_plain s o : plain_state s -> snd (b_step s o) <> Undefined -> plain_state (fst (b_step s o)).
Proof.
  intros P U. destruct P as (a & b & c & (l & T & F) & e). assert (plain_state s) as P by (repeat split; eauto).
  assert (forall j f, snd (b_table s j f) <> Undefined -> plain_state (fst (b_table s j f))) as TT.
  { intros j f U'. unfold b_table in *. destruct (nth_error (bw_items s) j) as [it|]; [|exact P]. destruct (pop_to (bi_tag it) (bw_stack s)) as [st|] eqn:Q; [|exact P].
    rewrite T in Q. pose proof (pop_shape _ _ _ F Q) as Sh.
    destruct (f (bw_rows s)) as [[rows x]|x| | |]; cbn [fst snd]; (apply (same_place s); cbn; eauto). }
  destruct o; cbn [b_step] in *; try (apply TT, U).
  - destruct (bw_iter s) as [it|] eqn:E; [|exact P]. unfold b_next in *. destruct (pop_to 0 (bw_stack s)) as [st|] eqn:Q; [|exact P].
    rewrite T in Q. apply (pop_bottom _ _ F) in Q. subst st. destruct (nth_error (bw_cells s) (it_loc it)) as [[del|]|] eqn:D; try exact P.
    assert (exists l0, [0] = l0 ++ [0] /\ Forall (fun t => t <> 0) l0) as T0 by (exists []; auto).
    assert (forall n : nat, exists l0, [S n; 0] = l0 ++ [0] /\ Forall (fun t => t <> 0) l0) as T1 by (intros n; exists [S n]; split; [reflexivity|repeat constructor; lia]).
    assert (forall q tag m, nth_error (bw_items s ++ [BI (S (length (bw_items s))) m]) q = Some tag ->
      nth_error (bw_items s) q = Some tag \/ q = length (bw_items s) /\ tag = BI (S (length (bw_items s))) m) as IA.
    { intros q tag m H. destruct (lt_dec q (length (bw_items s))) as [L|L]; [rewrite nth_error_app1 in H by exact L; auto|].
      rewrite nth_error_app2 in H by lia. destruct (q - length (bw_items s)) as [|z] eqn:Z; [|destruct z; discriminate]. injection H as <-. right. split; [lia|reflexivity]. }
    destruct (length (bw_rows s) <=? it_i it). { apply (same_place s); cbn; rewrite ?E; eauto. }
    assert (forall x d0, nth_error (upd (bw_cells s) (it_loc it) (Some false)) x = Some (Some d0) -> exists it0, bw_iter s = Some it0 /\ it_loc it0 = x) as CU.
    { intros x d0 H. destruct (Nat.eq_dec x (it_loc it)) as [->|N]; [eauto|]. rewrite nth_error_upd_ne in H by congruence. rewrite E. eapply a, H. }
    destruct del.
    + destruct (it_last it) as [la|]; [|exact P]. destruct (b_delete (bw_rows s) la) as [rows|]; cbn [fst].
      * split; [cbn; rewrite <- E in *; exact CU|]. split. { cbn. intros j tag row loc H. rewrite upd_length. apply IA in H. destruct H as [H|[_ H]]; [eapply b, H|]. injection H as _ _ ->. apply e, eq_refl. }
        split. { cbn. intros j i H. apply IA in H. destruct H as [H|[-> ->]]; [eapply c, H|reflexivity]. }
        split; [cbn; apply T1|]. cbn. rewrite upd_length. rewrite E. exact e.
      * split; [cbn; rewrite <- E in *; exact CU|]. split. { cbn. intros j tag row loc H. rewrite upd_length. eapply b, H. }
        split; [exact c|]. split; [exact T0|]. cbn. rewrite upd_length. rewrite E. exact e.
    + cbn [fst]. split. { cbn. intros x d0 H. destruct (a _ _ H) as (i & Q & <-). injection Q as <-. eauto. }
      split. { cbn. intros j tag row loc H. apply IA in H. destruct H as [H|[_ H]]; [eapply b, H|]. injection H as _ _ ->. apply e, eq_refl. }
      split. { cbn. intros j i H. apply IA in H. destruct H as [H|[-> ->]]; [eapply c, H|reflexivity]. }
      split; [cbn; apply T1|]. cbn. intros i H. injection H as <-. cbn. apply e, eq_refl.
  - destruct (bw_iter s) as [it|] eqn:E; [|exact P]. destruct (nth_error (bw_cells s) (it_loc it)) as [[del|]|] eqn:D; try exact P. cbn [fst].
    split. { cbn. intros x d0 H. destruct (lt_dec x (length (bw_cells s))) as [L|L].
      - rewrite nth_error_app1 in H by (rewrite upd_length; exact L). destruct (Nat.eq_dec x (it_loc it)) as [->|N]; [rewrite nth_error_upd_eq in H by exact L; discriminate|].
        rewrite nth_error_upd_ne in H by congruence. destruct (a _ _ H) as (i & Q & <-). injection Q as <-. congruence.
      - rewrite nth_error_app2 in H by (rewrite upd_length; lia). rewrite upd_length in H. destruct (x - length (bw_cells s)) as [|z] eqn:Z; [|destruct z; discriminate].
        eexists. split; [reflexivity|]. cbn. lia. }
    split. { cbn. intros j tag row loc H. rewrite app_length, upd_length. specialize (b _ _ _ _ H). lia. }
    split; [exact c|]. split; [cbn; eauto|]. cbn. intros i H. injection H as <-. cbn. rewrite app_length, upd_length. cbn. lia.
  - destruct (bw_iter s) as [it|] eqn:E; [|exact P]. unfold b_drop in *. destruct (nth_error (bw_cells s) (it_loc it)) as [[del|]|] eqn:D; try exact P.
    assert (forall rows st, (exists l0, st = l0 ++ [0] /\ Forall (fun t => t <> 0) l0) -> plain_state (BW rows (upd (bw_cells s) (it_loc it) None) st None (bw_items s))) as DD.
    { intros rows st Sh. split. { cbn. intros x d0 H. exfalso. destruct (Nat.eq_dec x (it_loc it)) as [->|N]; [rewrite nth_error_upd_eq in H by (eapply nth_error_Some_lt, D); discriminate|].
        rewrite nth_error_upd_ne in H by congruence. destruct (a _ _ H) as (i & Q & <-). injection Q as <-. congruence. }
      split. { cbn. intros j tag row loc H. rewrite upd_length. eapply b, H. } split; [exact c|]. split; [exact Sh|]. discriminate. }
    assert (exists l0, bw_stack s = l0 ++ [0] /\ Forall (fun t => t <> 0) l0) as Sh by eauto.
    destruct (it_last it) as [la|]; [destruct del|]; cbn [fst]; try (apply DD, Sh).
    destruct (pop_to 0 (bw_stack s)) as [st|] eqn:Q; [|exact P]. rewrite T in Q. pose proof (pop_shape _ _ _ F Q) as Sh'. destruct (b_delete (bw_rows s) la); cbn [fst]; apply DD, Sh'.
  - destruct (nth_error (bw_items s) j) as [[tag [[row loc]|]]|] eqn:I; try exact P. destruct (nth_error (bw_cells s) loc) as [[d|]|] eqn:D; try exact P. cbn [fst].
    split. { cbn. intros x d0 H. destruct (Nat.eq_dec x loc) as [->|N]; [eapply a, D|]. rewrite nth_error_upd_ne in H by congruence. eapply a, H. }
    assert (forall q i, nth_error (upd (bw_items s) j (BI tag None)) q = Some i -> nth_error (bw_items s) q = Some i \/ q = j /\ i = BI tag None) as IU.
    { intros q i H. destruct (Nat.eq_dec q j) as [->|N]; [rewrite nth_error_upd_eq in H by (eapply nth_error_Some_lt, I); injection H as <-; auto|].
      rewrite nth_error_upd_ne in H by congruence. auto. }
    split. { cbn. intros q t r0 l0 H. rewrite upd_length. apply IU in H. destruct H as [H|[_ H]]; [eapply b, H|discriminate]. }
    split. { cbn. intros q i H. apply IU in H. destruct H as [H|[-> ->]]; [eapply c, H|]. exact (c _ _ I). }
    split; [cbn; eauto|]. cbn. rewrite upd_length. exact e.
Qed.
Lemma run_plain os : forall s s' r, plain_state s -> b_run s os = Some (s', r, Done tt) -> plain_state s'.
Proof.
  induction os as [|o os IH]; intros s s' r P; cbn [b_run].
  - intros E. injection E as <- _. exact P.
  - destruct (b_compiles s o); [|discriminate]. pose proof (step_plain s o P) as S'. destruct (b_step s o) as [s1 [x|x| | |]]; cbn [fst snd not_done] in *; try discriminate.
    + destruct (b_run s1 os) as [[[s2 r2] e2]|] eqn:Q; [|discriminate]. intros E. injection E as <- _ ->. eapply IH; [|exact Q]. apply S'. discriminate.
    + destruct (b_run s1 os) as [[[s2 r2] e2]|] eqn:Q; [|discriminate]. intros E. injection E as <- _ ->. eapply IH; [|exact Q]. apply S'. discriminate.
Qed.
Lemma left_behind rows os s r o : b_run (b_start rows) os = Some (s, r, Done tt) -> In o [BMove; BDrop] -> b_compiles s o = true ->
  forall j, b_compiles (fst (b_step s o)) (BMark j) = true -> snd (b_step (fst (b_step s o)) (BMark j)) = Undefined.
Proof.
  intros R O C j J. pose proof (run_plain _ _ _ _ (plain_start rows) R) as (a & b & c & (l & T & F) & e).
  assert (bw_items (fst (b_step s o)) = bw_items s /\ forall x, x < length (bw_cells s) -> forall d, nth_error (bw_cells (fst (b_step s o))) x <> Some (Some d)) as [I N].
  { destruct O as [<-|[<-|[]]]; cbn [b_compiles b_step] in *; (destruct (bw_iter s) as [it|] eqn:E; [|discriminate]).
    - destruct (nth_error (bw_cells s) (it_loc it)) as [[del|]|] eqn:D; cbn [fst].
      + split; [reflexivity|]. cbn. intros x L d H. rewrite nth_error_app1 in H by (rewrite upd_length; exact L).
        destruct (Nat.eq_dec x (it_loc it)) as [->|Z]; [rewrite nth_error_upd_eq in H by exact L; discriminate|]. rewrite nth_error_upd_ne in H by congruence.
        destruct (a _ _ H) as (i & Q & <-). injection Q as <-. congruence.
      + split; [reflexivity|]. intros x L d H. destruct (a _ _ H) as (i & Q & <-). injection Q as <-. congruence.
      + split; [reflexivity|]. intros x L d H. destruct (a _ _ H) as (i & Q & <-). injection Q as <-. congruence.
    - unfold b_drop. destruct (nth_error (bw_cells s) (it_loc it)) as [[del|]|] eqn:D.
      + assert (forall x d, nth_error (upd (bw_cells s) (it_loc it) None) x <> Some (Some d)) as UU.
        { intros x d H. destruct (Nat.eq_dec x (it_loc it)) as [->|Z]; [rewrite nth_error_upd_eq in H by (eapply nth_error_Some_lt, D); discriminate|].
          rewrite nth_error_upd_ne in H by congruence. destruct (a _ _ H) as (i & Q & <-). injection Q as <-. congruence. }
        destruct (it_last it) as [la|]; [destruct del|]; cbn [fst]; try (split; [reflexivity|intros x _; apply UU]).
        rewrite T. destruct (pop_to 0 (l ++ [0])) eqn:Q; [destruct (b_delete (bw_rows s) la); cbn [fst]; (split; [reflexivity|intros x _; apply UU])|].
        exfalso. clear -F Q. induction F as [|t l Z F IH]; cbn in Q; [discriminate|]. destruct (Nat.eqb_spec t 0); [congruence|]. auto.
      + split; [reflexivity|]. intros x L d H. destruct (a _ _ H) as (i & Q & <-). injection Q as <-. cbn in H. congruence.
      + split; [reflexivity|]. intros x L d H. destruct (a _ _ H) as (i & Q & <-). injection Q as <-. cbn in H. congruence. }
  cbn [b_compiles] in J. set (s' := fst (b_step s o)) in *. cbn [b_step]. rewrite I in *.
  destruct (nth_error (bw_items s) j) as [[tag [[row loc]|]]|] eqn:Q; try discriminate. pose proof (b _ _ _ _ Q) as L.
  destruct (nth_error (bw_cells s') loc) as [[d|]|] eqn:D; try reflexivity. exfalso. exact (N loc L d D).
Qed.
Lemma one_reference rows os s r i : b_run (b_start rows) os = Some (s, r, Done tt) -> b_compiles s BNext = true -> snd (b_step s BNext) = Done (Some i) ->
  forall j k, j < length (bw_items s) -> snd (b_step (fst (b_step s BNext)) (BGet j k)) = Undefined.
Proof.
  intros R C E j k J. pose proof (run_plain _ _ _ _ (plain_start rows) R) as (a & b & c & (l & T & F) & e).
  cbn [b_compiles b_step] in *. destruct (bw_iter s) as [it|] eqn:I; [|discriminate]. unfold b_next in *.
  destruct (pop_to 0 (bw_stack s)) as [st|] eqn:Q; [|discriminate]. rewrite T in Q. apply (pop_bottom _ _ F) in Q. subst st.
  destruct (nth_error_lt_Some _ _ J) as (x & X). pose proof (c _ _ X) as Tag.
  assert (forall rows' cells iter m, snd (b_table (BW rows' cells [S (length (bw_items s)); 0] iter (bw_items s ++ [m])) j
    (fun rows0 => match nth_error rows0 k with Some y => Done (rows0, Some y) | None => Unwound PIndexOOB end)) = Undefined) as Z.
  { intros. unfold b_table; cbn [bw_items bw_stack]. rewrite nth_error_app1, X by exact J. cbn [pop_to]. rewrite Tag.
    destruct (Nat.eqb_spec (S (length (bw_items s))) (S j)); [lia|]. reflexivity. }
  destruct (nth_error (bw_cells s) (it_loc it)) as [[del|]|]; try discriminate. destruct (length (bw_rows s) <=? it_i it); [discriminate|].
  destruct del; [destruct (it_last it) as [la|]; [|discriminate]; destruct (b_delete (bw_rows s) la); [|discriminate]|]; cbn [fst]; apply Z.
Qed.

(** What a program does, unless it is undefined. *)
Lemma delete_swapped rows i : b_delete rows i = if i <? length rows then Some (swapped_out rows i) else None.
Proof.
  unfold b_delete, swapped_out. destruct (Nat.ltb_spec i (length rows)) as [L|L]; [|reflexivity]. f_equal.
  destruct (@exists_last _ rows) as (l & x & ->); [intros ->; cbn in L; lia|]. rewrite app_length in *. cbn [length] in *.
  replace (length l + 1 - 1) with (length l) by lia. rewrite last_last, app_nth2, Nat.sub_diag by lia. cbn [nth].
  destruct (Nat.ltb_spec i (length l)) as [L'|L'].
  - rewrite upd_app_l, removelast_last by exact L'. rewrite <- (upd_length l i x) at 1. rewrite firstn_app, firstn_all, Nat.sub_diag. apply app_nil_r.
  - assert (i = length l) as -> by lia. rewrite upd_middle, removelast_last, firstn_app, firstn_all, Nat.sub_diag. apply app_nil_r.
Qed.
Definition at_cursor (s : bworld) (c : cursor) : Prop :=
  bw_rows s = cu_rows c /\
  forall it, bw_iter s = Some it -> it_i it = cu_pos c /\ it_last it = cu_cur c /\ nth_error (bw_cells s) (it_loc it) = Some (Some (cu_mark c)).
Definition answer_of (e : ending (option nat)) : option nat := match e with Done a => a | _ => None end.
Lemma step_cursor s o c : plain_state s -> at_cursor s c -> b_compiles s o = true -> snd (b_step s o) <> Undefined ->
  at_cursor (fst (b_step s o)) (fst (cu_step c o)) /\ answer_of (snd (b_step s o)) = snd (cu_step c o).
Proof.
  intros (pa & _) [R I] C U. destruct c as [rows pos cur mark]. cbn [cu_rows cu_pos cu_cur cu_mark] in *.
  assert (forall j f g a, snd (b_table s j f) <> Undefined -> (f rows = Done (g, a) \/ (exists x, f rows = Unwound x) /\ g = rows /\ a = None) ->
    at_cursor (fst (b_table s j f)) (CU g pos cur mark) /\ answer_of (snd (b_table s j f)) = a) as TT.
  { intros j f g a U' F. unfold b_table in *. destruct (nth_error (bw_items s) j) as [i|]; [|cbn in U'; congruence].
    destruct (pop_to (bi_tag i) (bw_stack s)) as [st|]; [|cbn in U'; congruence]. rewrite R in *.
    destruct F as [E|([x E] & -> & ->)]; rewrite E; cbn [fst snd not_done answer_of]; (split; [|reflexivity]); split; cbn; auto. }
  destruct o; cbn [b_step b_compiles cu_step] in *.
  - destruct (bw_iter s) as [it|] eqn:E; [|discriminate]. destruct (I it eq_refl) as (A & B & D). unfold b_next in *. rewrite D, A, B, R in *.
    destruct (pop_to 0 (bw_stack s)) as [st|]; [|cbn in U; congruence].
    destruct (length rows <=? pos). { cbn [fst snd answer_of]. split; [|reflexivity]. split; cbn; [auto|]. rewrite E. auto. }
    destruct mark.
    + destruct cur as [l|]. 2:{ cbn [fst snd answer_of]. split; [|reflexivity]. split; cbn; [auto|]. rewrite E. auto. }
      rewrite delete_swapped. destruct (l <? length rows); cbn [fst snd answer_of]; (split; [|reflexivity]); split; cbn; auto;
        intros it' Q; rewrite E in Q; injection Q as <-; rewrite nth_error_upd_eq by (eapply nth_error_Some_lt, D); auto.
    + cbn [fst snd answer_of]. split; [|reflexivity]. split; cbn; [auto|]. intros it' Q. injection Q as <-. cbn. auto.
  - destruct (bw_iter s) as [it|] eqn:E; [|discriminate]. destruct (I it eq_refl) as (A & B & D). rewrite D. cbn [fst snd answer_of]. split; [|reflexivity].
    split; cbn; [auto|]. intros it' Q. injection Q as <-. cbn. split; [exact A|]. split; [exact B|].
    rewrite nth_error_app2, upd_length by (rewrite upd_length; lia). rewrite Nat.sub_diag. reflexivity.
  - destruct (bw_iter s) as [it|] eqn:E; [|discriminate]. destruct (I it eq_refl) as (A & B & D). unfold b_drop in *. rewrite D, B, R in *.
    destruct cur as [l|]; [destruct mark|].
    + destruct (pop_to 0 (bw_stack s)) as [st|]; [|cbn in U; congruence]. rewrite delete_swapped.
      destruct (l <? length rows); cbn [fst snd answer_of]; (split; [|reflexivity]); split; cbn; auto; discriminate.
    + cbn [fst snd answer_of]. split; [|reflexivity]. split; cbn; auto. discriminate.
    + cbn [fst snd answer_of]. split; [|destruct mark; reflexivity]. split; cbn; [destruct mark; auto|]. discriminate.
  - destruct (nth_error (bw_items s) j) as [[tag [[row loc]|]]|]; try discriminate. destruct (nth_error (bw_cells s) loc) as [[d|]|] eqn:D; try (cbn in U; congruence).
    destruct (pa _ _ D) as (it & Q & <-). cbn [fst snd answer_of]. split; [|reflexivity]. split; cbn; [auto|]. intros it' Q'. rewrite Q in Q'. injection Q' as <-.
    destruct (I it Q) as (A & B & _). rewrite nth_error_upd_eq by (eapply nth_error_Some_lt, D). auto.
  - apply TT; [exact U|]. destruct (nth_error rows i); [left; reflexivity|right; split; [eauto|auto]].
  - apply TT; [exact U|]. left; reflexivity.
  - destruct (i <? length rows) eqn:Q; cbn [fst snd]; (apply TT; [exact U|]); rewrite delete_swapped, Q; [left; reflexivity|right; split; [eauto|auto]].
Qed.
Lemma run_cursor os : forall s c s' r, plain_state s -> at_cursor s c -> b_run s os = Some (s', r, Done tt) ->
  bw_rows s' = cu_rows (fst (cu_run c os)) /\ r = snd (cu_run c os).
Proof.
  induction os as [|o os IH]; intros s c s' r P A; cbn [b_run cu_run].
  - intros E. injection E as <- <-. split; [exact (proj1 A)|reflexivity].
  - destruct (b_compiles s o) eqn:C; [|discriminate]. pose proof (step_plain s o P) as P'. pose proof (step_cursor s o c P A C) as A'.
    destruct (b_step s o) as [s1 [x|x| | |]]; cbn [fst snd not_done answer_of] in *; try discriminate;
      (destruct (b_run s1 os) as [[[s2 r2] e2]|] eqn:Q; [|discriminate]; intros E; injection E as <- <- ->;
       destruct (cu_step c o) as [c1 a]; destruct (A' ltac:(discriminate)) as [A1 ->]; cbn [fst snd] in *;
       destruct (IH _ _ _ _ (P' ltac:(discriminate)) A1 Q) as [U V]; destruct (cu_run c1 os); cbn [fst snd] in *; split; congruence).
Qed.
Lemma run_as_loop rows os s r : b_run (b_start rows) os = Some (s, r, Done tt) ->
  exists c, cu_run (CU rows 0 None false) os = (c, r) /\ cu_rows c = bw_rows s.
Proof.
  intros H. destruct (run_cursor os (b_start rows) (CU rows 0 None false) s r (plain_start rows)) as [A B]; [|exact H|].
  - split; [reflexivity|]. cbn. intros it E. injection E as <-. auto.
  - destruct (cu_run (CU rows 0 None false) os) as [c r']. cbn in *. exists c. split; congruence.
Qed.
