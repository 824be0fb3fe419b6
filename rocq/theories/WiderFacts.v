(** Proofs about tables with another type of row ids. *)
From Coq Require Import List Arith Bool Lia.
From Verif Require Import Base BaseFacts Column RowRange Table TableFacts Visit SortedTab TableSpec Hist SkipSpec Answers PlainSpec PlainFacts WiderSpec.
Import ListNotations.

Section W.
Variables (umax : nat) (sch : schema) (big : nat).
Local Notation imax := (s_imax sch).
Local Notation sch' := (with_ids sch big).
Hypothesis Hi : imax <= big.
(** Free ids are ids. *)
Definition fr (a : plain) : Prop := forall i, p_free a i = true -> i <= imax.
Lemma find_none {A} (p : A -> bool) l : (forall x, In x l -> p x = false) -> find p l = None.
Proof. intro H. induction l as [|x l IH]; [reflexivity|]. cbn. rewrite H by (left; reflexivity). apply IH. intros y Hy. apply H. right. exact Hy. Qed.
Lemma find_app0 {A} (p : A -> bool) l1 l2 : find p (l1 ++ l2) = match find p l1 with Some x => Some x | None => find p l2 end.
Proof. induction l1 as [|x l IH]; [reflexivity|]. cbn. destruct (p x); [reflexivity|exact IH]. Qed.
Lemma wd_free a : fr a -> free_id sch' a = free_id sch a.
Proof.
  intro F. unfold free_id. cbn [with_ids s_imax]. replace (S big) with (S imax + (big - imax)) by lia. rewrite seq_app, find_app0. destruct (find _ (seq 0 (S imax))); [reflexivity|].
  apply find_none. intros i Hin. apply in_seq in Hin. destruct (p_free a i) eqn:E; [|reflexivity]. apply F in E. lia.
Qed.
Lemma note_free a ids p d : p_free (note sch a ids p d) = p_free a.
Proof. unfold note. destruct (p_lock a) as [[[s q] e]|]; [|reflexivity]. destruct (kind_eqb _ _); reflexivity. Qed.
Lemma wd_put a r p : fr a -> put sch a r = Fine p -> put sch' a r = Fine p /\ fr (fst p).
Proof.
  intros F E. unfold put in *. rewrite wd_free by exact F. destruct (free_id sch a) as [i|].
  - destruct (i <? len a); [|discriminate E]. injection E as <-. split; [reflexivity|]. cbn [fst]. intros j Hj. rewrite note_free in Hj. cbn [p_free] in Hj. unfold set in Hj. destruct (j =? i); [discriminate Hj|apply F; exact Hj].
  - cbn [with_ids s_imax]. destruct (Nat.leb_spec (len a) imax) as [L|]; [|discriminate E]. injection E as <-. destruct (Nat.leb_spec (len a) big); [|lia]. split; [reflexivity|].
    cbn [fst]. intros j Hj. unfold grow in Hj. rewrite note_free in Hj. apply F. exact Hj.
Qed.
Lemma wd_puts rs : forall a b, fr a -> puts sch a rs = Fine b -> puts sch' a rs = Fine b.
Proof.
  induction rs as [|r rs IH]; intros a b F E; [exact E|]. cbn [puts] in *. destruct (put sch a r) as [p| |] eqn:Ep; try discriminate E. destruct (wd_put _ _ _ F Ep) as [-> F1]. cbn [after] in *. apply IH; assumption.
Qed.
Lemma wd_walk pres its : forall b e l, walk imax umax pres its b e = Some l -> walk big umax pres its b e = Some l.
Proof.
  induction its as [|[|k] its IH]; intros b e l E; [exact E| |]; cbn [walk] in *.
  - destruct (filter pres (seq b (e - b))) as [|x xs]; [destruct (walk imax umax pres its (Nat.max b e) e) eqn:W|destruct (walk imax umax pres its (S x) e) eqn:W]; try discriminate E; rewrite (IH _ _ _ W); exact E.
  - destruct (Nat.leb_spec (b + k) imax); [|discriminate E]. destruct (Nat.leb_spec (b + k) big); [|lia]. cbn [andb] in *. destruct (b + k <=? umax); [|discriminate E]. apply IH. exact E.
Qed.
Lemma wd_told a its b e x : told Debug umax sch a its b e = Fine x -> told Debug umax sch' a its b e = Fine x.
Proof. unfold told. cbn [with_ids s_imax]. destruct (walk imax _ _ _ _ _) eqn:W; [|discriminate]. rewrite (wd_walk _ _ _ _ _ W). auto. Qed.
Lemma broke_len {A} (g : A -> row -> A * action) rows : forall s i k j q, broke g s rows i k = Some (j, q) -> length (visited_rows g s rows) + j + k = q + i + length rows.
Proof.
  induction rows as [|r rows IH]; intros s i k j q E; [discriminate E|]. cbn [broke visited_rows] in *. cbv zeta in *. destruct (snd (g s r)) as [rm add|].
  - apply IH in E. rewrite !app_length. cbn [length]. destruct rm; cbn [length]; lia.
  - injection E as <- <-. lia.
Qed.
Lemma wd_leb x : (x <=? imax) = true -> (x <=? big) = true. Proof. rewrite !Nat.leb_le. lia. Qed.
Lemma filter_two {A} (p q r : A -> bool) l : (forall x, In x l -> p x = q x && r x) -> filter p l = filter r (filter q l).
Proof.
  intro H. induction l as [|x l IH]; [reflexivity|]. cbn. rewrite H by (left; reflexivity). rewrite IH by (intros; apply H; right; assumption). destruct (q x); cbn; [|reflexivity]. destruct (r x); reflexivity.
Qed.
Ltac mono E := match type of E with (if ?x <=? imax then _ else _) = _ => destruct (x <=? imax) eqn:?Hx; [apply wd_leb in Hx; rewrite ?Hx|try discriminate E] end.
Lemma wd_looks a o x : len a <= S imax -> looks Debug umax sch a o = Fine x -> exists x', looks Debug umax sch' a o = Fine x' /\ wider imax big (Do o) x x'.
Proof.
  intros L E. destruct o; try discriminate E; cbn [looks] in *; cbn [with_ids s_imax s_kind s_cols wider] in *; try (eexists; split; [eassumption|reflexivity]).
  - destruct (nth_error (s_cols sch) k) as [[|]|]; try discriminate E. injection E as <-. eexists. split; [reflexivity|]. do 2 eexists. split; [reflexivity|]. split; [reflexivity|].
    apply filter_two. intros i Hin. apply in_seq in Hin. destruct (p_found a i); [|rewrite !andb_false_r; reflexivity]. destruct (val_eqb _ _); [|rewrite !andb_false_r; reflexivity]. rewrite !andb_true_r.
    destruct (Nat.ltb_spec i imax), (Nat.ltb_spec i big), (Nat.eqb_spec i imax), (Nat.eqb_spec big imax); cbn; try reflexivity; lia.
  - destruct (kind_eqb _ _); [discriminate E|]. mono E. eauto.
  - mono E. destruct (_ && _); [|discriminate E]. apply wd_told in E. eauto.
  - mono E. apply wd_told in E. eauto.
Qed.
Lemma wd_merged a cmp new b : merged_with Debug sch a cmp new = Fine b -> merged_with Debug sch' a cmp new = Fine b.
Proof.
  unfold merged_with. destruct new as [|r new]; [auto|]. cbn [with_ids s_imax]. intro E. mono E. destruct (Nat.leb_spec (len a + length (r :: new)) (S imax)); [|discriminate E].
  destruct (Nat.leb_spec (len a + length (r :: new)) (S big)); [exact E|lia].
Qed.
Lemma fine_after {A B} (x : outcome A) (f : A -> outcome B) y : after x f = Fine y -> exists a, x = Fine a /\ f a = Fine y.
Proof. destruct x; try discriminate. eauto. Qed.
Ltac same := eexists; split; [eassumption|reflexivity].
Lemma wd_does a l c p : fr a -> len a <= S imax -> does Debug umax sch a l c = Fine p -> exists x', does Debug umax sch' a l c = Fine (fst p, x') /\ wider imax big c (snd p) x'.
Proof.
  intros F L E. destruct l as [[s q] d]. destruct p as [b x]. cbn [fst snd].
  destruct c as [o|A g s0|A g s0|cmp new]; [destruct o|..]; unfold does in *; cbv zeta in *; cbn [with_ids s_imax s_kind s_cols wider] in *; try discriminate E; try same.
  all: try solve [eexists; split; [exact E|reflexivity]].
  all: try solve [mono E; apply fine_after in E; destruct E as (y & Ey & E); apply wd_told in Ey; rewrite Ey; cbn [after]; injection E as <- <-; eauto].
  all: try solve [destruct (kind_eqb _ _); [discriminate E|]; apply fine_after in E; destruct E as (y & Ey & E); apply wd_puts in Ey; [|exact F]; rewrite Ey; injection E as <- <-; eexists; split; reflexivity].
  all: try solve [destruct (kind_eqb _ _); [discriminate E|]; apply fine_after in E; destruct E as (y & Ey & E); apply wd_put in Ey; [|exact F]; destruct Ey as [Ey _]; rewrite Ey; injection E as <- <-; eexists; split; reflexivity].
  all: try solve [destruct (kind_eqb _ _); [|discriminate E]; apply fine_after in E; destruct E as (y & Ey & E); apply wd_merged in Ey; rewrite Ey; injection E as <- <-; eexists; split; reflexivity].
  - rewrite wd_free by exact F. destruct (kind_eqb _ _); [discriminate E|]. mono E. same.
  - destruct (kind_eqb _ _); [discriminate E|]. destruct rs as [|r rs]; [injection E as <- <-; eexists; split; [reflexivity|split; reflexivity]|]. mono E. same.
  - destruct (kind_eqb _ _); [discriminate E|]. mono E. same.
  - destruct (_ || _); [discriminate E|]. destruct (Nat.leb_spec (len a) imax) as [La|La].
    + destruct (Nat.leb_spec (len a) big); [|lia]. destruct (Nat.leb_spec (length (visited_rows g s0 (p_rows a))) (S imax)); [|discriminate E].
      destruct (Nat.leb_spec (length (visited_rows g s0 (p_rows a))) (S big)); [same|lia].
    + destruct (stops_early sch g s0 (p_rows a)) eqn:Es; [|discriminate E]. unfold stops_early in *. destruct (broke g s0 (p_rows a) 0 0) as [[j k]|] eqn:Eb; [|discriminate Es].
      apply andb_prop in Es. destruct Es as [E1 E2]. cbn [with_ids s_imax]. rewrite E1. apply Nat.eqb_eq in E1. subst k. apply broke_len in Eb. fold (len a) in Eb.
      destruct (len a <=? big).
      * destruct (Nat.leb_spec (length (visited_rows g s0 (p_rows a))) (S big)); [same|lia].
      * replace ((j =? 0) || (j <? big)) with true; [cbn [andb]; same|]. symmetry. apply orb_prop in E2. apply orb_true_intro. destruct E2 as [E2|E2]; [left; exact E2|right]. apply Nat.ltb_lt in E2. apply Nat.ltb_lt. lia.
Qed.
Lemma wd_acts a c p : fr a -> len a <= S imax -> acts Debug umax sch a c = Fine p -> exists x', acts Debug umax sch' a c = Fine (fst p, x') /\ wider imax big c (snd p) x'.
Proof.
  intros F L E. assert (D : forall l, does Debug umax sch a l c = Fine p -> exists x', does Debug umax sch' a l c = Fine (fst p, x') /\ wider imax big c (snd p) x') by (intros; apply wd_does; assumption).
  assert (K : forall o, after (looks Debug umax sch a o) (fun x => Fine (a, x)) = Fine p -> exists x', after (looks Debug umax sch' a o) (fun x => Fine (a, x)) = Fine (fst p, x') /\ wider imax big (Do o) (snd p) x').
  { intros o Eo. apply fine_after in Eo. destruct Eo as (x & Ex & Ep). injection Ep as <-. destruct (wd_looks _ _ _ L Ex) as (x' & -> & W). exists x'. split; [reflexivity|exact W]. }
  unfold acts in *. cbn [with_ids s_kind]. destruct c as [o|A g s0|A g s0|cmp new]; [destruct o|..]; try (apply K; exact E); try (destruct (p_lock a) as [l|]; [apply D; exact E|try discriminate E]).
  all: try solve [destruct p as [b x]; exists x; split; [exact E|injection E as <- <-; reflexivity]].
  all: try solve [destruct p as [b x]; exists x; split; [exact E|]; apply fine_after in E; destruct E as (y & _ & E); injection E as <- <-; reflexivity].
  all: destruct (p_lock a) as [l|]; try discriminate E.
  all: try solve [destruct p as [b x]; exists x; split; [exact E|]; apply fine_after in E; destruct E as (y & _ & E); injection E as <- <-; reflexivity].
  all: try solve [destruct l as [[s q] d]; destruct p as [b x]; exists x; split; [exact E|]; destruct (_ && _); [discriminate E|injection E as <- <-; reflexivity]].
Qed.
Lemma rel_fr a st : rel sch a st -> fr a /\ len a <= S imax.
Proof.
  intro R. assert (T : exists t, rt sch a t). { unfold rel in R. destruct st as [t|w [|x its]]; destruct (p_lock a); try contradiction; [exists t; exact R|exists (w_tab w); apply R]. }
  destruct T as (t & E & K & Fr & _). assert (I : t_imax t = imax) by (unfold t_imax; rewrite E; reflexivity). split.
  - intros i Hf. rewrite <- Fr in Hf. pose proof (ok_free_max _ _ _ K) as M. rewrite Forall_forall in M. rewrite <- I. apply M. apply mem_In. exact Hf.
  - pose proof (ok_len _ _ _ K) as M. rewrite I in M. exact M.
Qed.
Lemma wd_plays cs : forall a st l, rel sch a st -> Forall (call_ty (s_cols sch)) cs -> plays Debug umax sch a cs = Fine l ->
  exists l', plays Debug umax sch' a cs = Fine l' /\ Forall2 (fun cx x' => wider imax big (fst cx) (snd cx) x') (combine cs l) l'.
Proof.
  induction cs as [|c cs IH]; intros a st l R T E; [injection E as <-; exists []; split; [reflexivity|constructor]|]. inversion T as [|? ? T1 T2]; subst. cbn [plays] in *.
  apply fine_after in E. destruct E as (p & Ep & E). apply fine_after in E. destruct E as (l1 & El & E). injection E as <-. destruct (rel_fr _ _ R) as [F L].
  destruct (wd_acts _ _ _ F L Ep) as (x' & -> & W). pose proof (acts_ok Debug umax sch a st c R T1) as Q. rewrite Ep in Q. destruct Q as ([st1 y] & _ & R1 & _).
  destruct (IH (fst p) st1 l1 R1 T2 El) as (l' & El' & F2). exists (x' :: l'). cbn [after fst snd]. rewrite El'. split; [reflexivity|]. cbn [combine]. constructor; [exact W|exact F2].
Qed.
Theorem wider_ok cs l : s_cols sch <> [] -> Forall (call_ty (s_cols sch)) cs -> all_legal sch false cs = true -> talks Debug umax (Free (t_new sch)) cs = Ok l ->
  exists l', talks Debug umax (Free (t_new sch')) cs = Ok l' /\ Forall2 (fun cx x' => wider imax big (fst cx) (snd cx) x') (combine cs l) l'.
Proof.
  intros Z T Lg E. pose proof (plays_ok Debug umax sch cs p_new (Free (t_new sch)) (new_rel sch Z) T) as P. pose proof (plays_said umax sch cs p_new Lg) as S0.
  destruct (plays Debug umax sch p_new cs) as [l0| |] eqn:Pl; [|destruct P as [c P]; rewrite P in E; discriminate E|congruence]. rewrite P in E. injection E as <-.
  destruct (wd_plays cs p_new (Free (t_new sch)) l0 (new_rel sch Z) T Pl) as (l' & P' & W). exists l'. split; [|exact W].
  pose proof (plays_ok Debug umax sch' cs p_new (Free (t_new sch')) (new_rel sch' Z) T) as P2. rewrite P' in P2. exact P2.
Qed.
End W.
