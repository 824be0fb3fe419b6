(** Proofs about tables of another kind. *)
From Coq Require Import List Arith Bool Lia.
From Verif Require Import Base BaseFacts Column RowRange Table TableFacts Visit SortedTab TableSpec Hist SkipSpec Answers PlainSpec PlainFacts WiderFacts KindSpec.
Import ListNotations.

Section K.
Variables (umax : nat) (sch : schema) (k : kind).
Local Notation sch' := (with_kind sch k).
Local Notation c1 := (kind_eqb (s_kind sch) Consistent).
Local Notation c2 := (kind_eqb k Consistent).
Hypothesis S1 : s_kind sch <> Sorted.
Hypothesis S2 : k <> Sorted.
(** What the two locks remember. *)
Definition lk (l l' : option (select * bool * bool)) : Prop :=
  match l, l' with
  | None, None => True
  | Some (s, _, d), Some (s', _, d') => d = false /\ d' = false /\ (c2 && negb c1 = true \/ (nothing_to_tell s = true -> nothing_to_tell s' = true))
  | _, _ => False
  end.
Definition kin (a b : plain) : Prop := b = with_lock a (p_lock b) /\ (forall i, p_free a i = false) /\ lk (p_lock a) (p_lock b).
Definition good (c : call) : Prop := deletes_nothing c = true /\ (c2 && negb c1 = true -> tells c = true).

Lemma ks1 : kind_eqb (s_kind sch) Sorted = false. Proof. destruct (s_kind sch); try reflexivity. congruence. Qed.
Lemma ks2 : kind_eqb k Sorted = false. Proof. destruct k; try reflexivity. congruence. Qed.
Lemma k_no_free s a : (forall i, p_free a i = false) -> free_id s a = None.
Proof. intro F. unfold free_id. induction (seq 0 (S (s_imax s))) as [|x l IH]; [reflexivity|]. cbn [find]. rewrite F. exact IH. Qed.
Lemma more_nothing s l : nothing_to_tell (more s l) = true -> nothing_to_tell s = true /\ l = [].
Proof. destruct s as [|x]; [discriminate|]. destruct x; [|discriminate]. destruct l; [split; reflexivity|discriminate]. Qed.
Lemma kin_note a b ids p : kin a b -> kin (note sch a ids p false) (note sch' b ids p false).
Proof.
  intros (E & F & L). unfold note. cbn [with_kind s_kind]. destruct a as [ro fo fr0 la], b as [ro' fo' fr' lb]. cbn [with_lock p_rows p_found p_free p_lock] in *. injection E as -> -> ->.
  destruct la as [[[s q] d]|], lb as [[[s' q'] d']|]; try contradiction; [|split; [reflexivity|split; assumption]]. destruct L as (-> & -> & L).
  destruct (kind_eqb (s_kind sch) Consistent) eqn:K1, (kind_eqb k Consistent) eqn:K2.
  all: split; [reflexivity|]; split; [exact F|]; cbn [p_lock with_lock]; unfold lk; rewrite ?K1, ?K2; split; [reflexivity|]; split; [reflexivity|].
  all: destruct L as [L|L]; [left; exact L|]; try (left; reflexivity); right; try exact L.
  - intro Z. apply more_nothing in Z. destruct Z as [Z ->]. specialize (L Z). destruct s' as [|[|]]; try discriminate. reflexivity.
  - intro Z. apply more_nothing in Z. destruct Z as [Z _]. exact (L Z).
Qed.
Lemma kin_len a b : kin a b -> len b = len a. Proof. intros (E & _). rewrite E. reflexivity. Qed.
Lemma kin_there a b i : kin a b -> there b i = there a i. Proof. intros (E & _). rewrite E. reflexivity. Qed.
Lemma kin_rows a b : kin a b -> p_rows b = p_rows a. Proof. intros (E & _). rewrite E. reflexivity. Qed.
Lemma kin_found a b : kin a b -> p_found b = p_found a. Proof. intros (E & _). rewrite E. reflexivity. Qed.
Lemma kin_free a b : kin a b -> p_free b = p_free a. Proof. intros (E & _). rewrite E. reflexivity. Qed.
Lemma kin_with a b rows : kin a b -> kin (with_rows a rows) (with_rows b rows).
Proof. intros (E & F & L). split; [|split; [exact F|exact L]]. rewrite E at 1. reflexivity. Qed.
Lemma kin_lock a b l l' : kin a b -> lk l l' -> kin (with_lock a l) (with_lock b l').
Proof. intros (E & F & L) M. split; [|split; [exact F|exact M]]. rewrite E. reflexivity. Qed.
Lemma kin_grow a b rs : kin a b -> kin (grow sch a rs) (grow sch' b rs).
Proof. intros J. unfold grow. rewrite (kin_len _ _ J). apply kin_note. destruct J as (E & F & L). split; [|split; [exact F|exact L]]. rewrite E. reflexivity. Qed.
Lemma kin_put a b r p : kin a b -> put sch a r = Fine p -> exists b', put sch' b r = Fine (b', snd p) /\ kin (fst p) b'.
Proof.
  intros J. assert (Fb : forall i, p_free b i = false) by (intro; rewrite (kin_free _ _ J); apply J). unfold put. rewrite (k_no_free sch a), (k_no_free sch' b) by (try exact Fb; apply J).
  rewrite (kin_len _ _ J). cbn [with_kind s_imax]. destruct (len a <=? s_imax sch); [|discriminate]. intro E. injection E as <-. eexists. split; [reflexivity|]. apply kin_grow. exact J.
Qed.
Lemma kin_puts rs : forall a b a', kin a b -> puts sch a rs = Fine a' -> exists b', puts sch' b rs = Fine b' /\ kin a' b'.
Proof.
  induction rs as [|r rs IH]; intros a b a' J E; cbn [puts] in *; [injection E as <-; exists b; split; [reflexivity|exact J]|].
  apply fine_after in E. destruct E as (p & Ep & E). destruct (kin_put _ _ _ _ J Ep) as (b1 & -> & J1). cbn [after fst]. exact (IH _ _ _ J1 E).
Qed.
Lemma kin_told a b its x y : kin a b -> told Debug umax sch' b its x y = told Debug umax sch a its x y.
Proof. intros (E & _). rewrite E. reflexivity. Qed.
Lemma kin_looks a b o x : kin a b -> legal sch' (match p_lock b with None => false | _ => true end) (Do o) = true -> looks Debug umax sch a o = Fine x -> looks Debug umax sch' b o = Fine x.
Proof.
  intros J Lg E. assert (Eq : o <> ODump -> looks Debug umax sch' b o = looks Debug umax sch a o). { destruct J as (Eb & _). rewrite Eb. intro N. destruct o; try reflexivity. congruence. }
  destruct o; try (rewrite Eq; [exact E|discriminate]). clear Eq. cbn [looks legal with_kind s_kind s_imax] in *. rewrite (kin_len _ _ J), (kin_rows _ _ J).
  destruct (kind_eqb k Consistent); [discriminate Lg|]. destruct (kind_eqb (s_kind sch) Consistent); [discriminate E|exact E].
Qed.
Lemma kin_flushed a b l l' srt ev a' : kin a b -> lk (Some l) (Some l') -> ev_removal ev = false -> (c2 && negb c1 = true -> ev_id ev <? max_event_types = true) ->
  flushed Debug sch a l srt ev = Fine a' -> flushed Debug sch' b l' srt ev = Fine b /\ a' = a.
Proof.
  intros J L R C. destruct l as [[s p] d], l' as [[s' p'] d']. destruct L as (-> & -> & L). unfold flushed. rewrite R, !andb_false_r. cbn [andb orb].
  assert (X : (max_event_types <=? ev_id ev) = true -> c2 && negb c1 = true -> False). { intros X Y. specialize (C Y). apply Nat.leb_le in X. apply Nat.ltb_lt in C. lia. }
  destruct (nothing_to_tell s) eqn:N, (nothing_to_tell s') eqn:N', (max_event_types <=? ev_id ev) eqn:M; intro E; try discriminate E; try (injection E as <-; split; reflexivity).
  destruct L as [L|L]; [destruct (X eq_refl L)|]. discriminate (L eq_refl).
Qed.
Lemma kin_does a b l l' c p : kin a b -> p_lock a = Some l -> p_lock b = Some l' -> good c -> legal sch' true c = true -> does Debug umax sch a l c = Fine p ->
  exists b', does Debug umax sch' b l' c = Fine (b', snd p) /\ kin (fst p) b'.
Proof.
  intros J Ea Eb [G1 G2] Lg E. assert (L : lk (Some l) (Some l')) by (rewrite <- Ea, <- Eb; apply J). destruct l as [[s q] d] eqn:El, l' as [[s' q'] d'] eqn:El'.
  assert (Ln := kin_len _ _ J). assert (Ro := kin_rows _ _ J). assert (K1 := ks1). assert (K2 := ks2). assert (Fa : forall i, p_free a i = false) by apply J. assert (Fb : forall i, p_free b i = false) by (intro; rewrite (kin_free _ _ J); apply J).
  destruct c as [o|A g s0|A g s0|cmp new]; [destruct o|..]; cbn [does with_kind s_kind s_imax s_cols] in *; try discriminate E; try discriminate G1; rewrite ?K1, ?K2, ?Ln, ?Ro in *; try discriminate E.
  all: try solve [injection E as <-; eexists; split; [reflexivity|]; first [apply kin_with; exact J | apply kin_lock; [exact J|]; destruct L as (-> & -> & L); split; [reflexivity|]; split; [reflexivity|]; right; cbn [fst snd]; destruct s; discriminate || (destruct l0; discriminate)]].
  (* the calls one by one *)
  all: try match goal with |- context [flushed] => idtac | |- context [told] =>
    destruct (len a <=? s_imax sch); [|discriminate E]; rewrite (kin_told _ _ _ _ _ J); apply fine_after in E; destruct E as (x & -> & E); injection E as <-; exists b; split; [reflexivity|exact J] end.
  all: try match goal with |- context [free_id] =>
    rewrite (k_no_free sch a Fa) in E; rewrite (k_no_free sch' b Fb); destruct (len a <=? s_imax sch); [|discriminate E]; injection E as <-; exists b; split; [reflexivity|exact J] end.
  all: try match goal with |- context [put] => apply fine_after in E; destruct E as (x & Ep & E); injection E as <-; destruct (kin_put _ _ _ _ J Ep) as (b1 & -> & J1); exists b1; split; [reflexivity|exact J1] end.
  all: try match goal with |- context [puts] => apply fine_after in E; destruct E as (x & Ep & E); injection E as <-; destruct (kin_puts _ _ _ _ J Ep) as (b1 & -> & J1); exists b1; split; [reflexivity|exact J1] end.
  all: try match goal with |- context [grow] => destruct rs as [|r0 rs]; [injection E as <-; exists b; split; [reflexivity|exact J]|];
    destruct (_ <=? s_imax sch); [|discriminate E]; injection E as <-; eexists; split; [reflexivity|]; apply kin_grow; exact J end.
  all: try match goal with |- context [upd] => unfold row_at in *; rewrite ?Ro; destruct (nth_error (s_cols sch) k0) as [[]|]; try discriminate E; destruct (i <? len a); [|discriminate E]; injection E as <-; eexists; split; [reflexivity|]; apply kin_with; exact J end.
  - assert (R : ev_removal ev = false) by (apply negb_true_iff; exact G1). assert (J0 : kin (with_lock a (Some (SThese [], false, false))) (with_lock b (Some (SThese [], false, false)))).
    { apply kin_lock; [exact J|]. split; [reflexivity|]. split; [reflexivity|]. right. auto. }
    destruct (nothing_to_tell s) eqn:N.
    + injection E as <-. destruct (nothing_to_tell s') eqn:N'; [exists b; split; [reflexivity|exact J]|]. destruct L as (-> & -> & [L|L]); [|rewrite (L N) in N'; discriminate N'].
      unfold flushed. rewrite N', R, !andb_false_r. cbn [andb orb]. specialize (G2 L). cbn in G2. rewrite (proj2 (Nat.leb_gt _ _)) by (apply Nat.ltb_lt; exact G2). cbn [after]. eexists. split; [reflexivity|].
      cbn [fst]. destruct J as (Ej & Fj & Lj). split; [rewrite Ej; reflexivity|]. split; [exact Fj|]. rewrite Ea. cbn [with_lock p_lock]. split; [reflexivity|]. split; [reflexivity|]. left. exact L.
    + apply fine_after in E. destruct E as (a1 & E & E1). injection E1 as <-. apply fine_after in E. destruct E as (a2 & E & E1). injection E1 as <-.
      destruct (kin_flushed a b _ (s', q', d') srt ev a2 J L R G2 E) as [Ef ->]. rewrite Ef. cbn [after fst snd]. destruct (nothing_to_tell s') eqn:N'; [|eexists; split; [reflexivity|exact J0]].
      exists b. split; [reflexivity|]. destruct J as (Ej & Fj & Lj). split; [rewrite Ej; reflexivity|]. split; [exact Fj|]. rewrite Eb. cbn [with_lock p_lock]. destruct L as (_ & -> & _). split; [reflexivity|]. split; [reflexivity|]. right. auto.
  - injection E as <-. eexists. split; [reflexivity|]. apply kin_lock; [exact J|]. destruct L as (-> & -> & L). split; [reflexivity|]. split; [reflexivity|]. right. intro Z. apply more_nothing in Z. destruct Z as [_ Z]. discriminate Z.
  - assert (K : c2 = false) by (destruct k; [..]; try reflexivity; discriminate Lg). rewrite K. destruct (kind_eqb (s_kind sch) Consistent); [discriminate E|].
    destruct (len a <=? s_imax sch); [|discriminate E]; injection E as <-; eexists; split; [reflexivity|]; apply kin_with; exact J.
  - assert (K : c2 = false) by (destruct k; [..]; try reflexivity; discriminate Lg). rewrite K. destruct (kind_eqb (s_kind sch) Consistent); [discriminate E|]. cbn [orb] in *.
    unfold stops_early in *. cbn [with_kind s_imax] in *. destruct (len a <=? s_imax sch).
    + destruct (_ <=? S (s_imax sch)); [|discriminate E]. injection E as <-; eexists; split; [reflexivity|]; apply kin_with; exact J.
    + destruct (match broke _ _ _ _ _ with Some _ => _ | None => _ end); [|discriminate E]. injection E as <-; eexists; split; [reflexivity|]; apply kin_with; exact J.
Qed.
Lemma kin_acts a b c p : kin a b -> good c -> legal sch' (is_some (p_lock b)) c = true -> acts Debug umax sch a c = Fine p -> exists b', acts Debug umax sch' b c = Fine (b', snd p) /\ kin (fst p) b'.
Proof.
  intros J G Lg E. assert (Lk : lk (p_lock a) (p_lock b)) by apply J.
  assert (D : forall l l', p_lock a = Some l -> p_lock b = Some l' -> does Debug umax sch a l c = Fine p -> exists b', does Debug umax sch' b l' c = Fine (b', snd p) /\ kin (fst p) b').
  { intros l l' Ea Eb Ed. apply (kin_does a b l l' c p J Ea Eb G); [rewrite Eb in Lg; exact Lg|exact Ed]. }
  assert (K : forall o, c = Do o -> after (looks Debug umax sch a o) (fun x => Fine (a, x)) = Fine p -> exists b', after (looks Debug umax sch' b o) (fun x => Fine (b, x)) = Fine (b', snd p) /\ kin (fst p) b').
  { intros o -> Eo. apply fine_after in Eo. destruct Eo as (x & Ex & Ep). injection Ep as <-. rewrite (kin_looks a b o x J); [|destruct (p_lock b); exact Lg|exact Ex]. exists b. split; [reflexivity|exact J]. }
  destruct G as [G1 G2].
  destruct c as [o|A g s0|A g s0|cmp new]; [destruct o|..]; try discriminate G1; unfold acts in *; try (apply (K _ eq_refl); exact E).
  all: destruct (p_lock a) as [[[s1 q1] d1]|] eqn:Ea, (p_lock b) as [[[s2 q2] d2]|] eqn:Eb; try contradiction; try discriminate E; try (apply (D _ _ eq_refl eq_refl); exact E).
  - injection E as <-. eexists. split; [reflexivity|]. apply kin_lock; [exact J|]. split; [reflexivity|]. split; [reflexivity|]. right. auto.
  - destruct Lk as (-> & -> & L). cbn [with_kind s_kind] in *. destruct L as [L|L]; [discriminate (G2 L)|].
    destruct c2 eqn:K2, c1 eqn:K1; cbn [andb negb] in *.
    + destruct (nothing_to_tell s1); [|discriminate E]. rewrite (L eq_refl). injection E as <-. eexists. split; [reflexivity|]. apply kin_lock; [exact J|exact I].
    + discriminate (G2 eq_refl).
    + destruct (nothing_to_tell s1); [|discriminate E]. injection E as <-. eexists. split; [reflexivity|]. apply kin_lock; [exact J|exact I].
    + injection E as <-. eexists. split; [reflexivity|]. apply kin_lock; [exact J|exact I].
  - apply fine_after in E. destruct E as (a1 & E & E1). injection E1 as <-.
    destruct (kin_flushed a b _ (s2, q2, d2) srt ev a1 J Lk (proj1 (negb_true_iff _) G1) G2 E) as [-> ->]. eexists. split; [reflexivity|]. apply kin_lock; [exact J|exact I].
Qed.
Lemma kin_plays cs : forall a b l, kin a b -> Forall good cs -> all_legal sch' (is_some (p_lock b)) cs = true -> plays Debug umax sch a cs = Fine l -> plays Debug umax sch' b cs = Fine l.
Proof.
  induction cs as [|c cs IH]; intros a b l J G Lg E; [exact E|]. inversion G as [|? ? G1 G2]; subst. cbn [plays all_legal] in *. apply andb_true_iff in Lg. destruct Lg as [Lg1 Lg2].
  apply fine_after in E. destruct E as (p & Ep & E). apply fine_after in E. destruct E as (l1 & El & E). injection E as <-.
  destruct (kin_acts a b c p J G1 Lg1 Ep) as (b' & Eb & J'). pose proof (acts_said umax sch' b c Lg1) as Sd. rewrite Eb in Sd. rewrite Eb. cbn [after fst snd] in *.
  rewrite (IH (fst p) b' l1 J' G2); [reflexivity| |exact El]. rewrite Sd. exact Lg2.
Qed.
End K.
Theorem other_kind umax sch k cs l : s_kind sch <> Sorted -> k <> Sorted -> s_cols sch <> [] -> Forall (call_ty (s_cols sch)) cs ->
  all_legal sch false cs = true -> all_legal (with_kind sch k) false cs = true ->
  forallb deletes_nothing cs = true -> (k = Consistent -> s_kind sch = Consistent \/ forallb tells cs = true) ->
  talks Debug umax (Free (t_new sch)) cs = Ok l -> talks Debug umax (Free (t_new (with_kind sch k))) cs = Ok l.
Proof.
  intros S1 S2 Z T Lg Lg' D C E. pose proof (plays_ok Debug umax sch cs p_new (Free (t_new sch)) (new_rel sch Z) T) as P. pose proof (plays_said umax sch cs p_new Lg) as S0.
  destruct (plays Debug umax sch p_new cs) as [l0| |] eqn:Pl; [|destruct P as [c P]; rewrite P in E; discriminate E|congruence]. rewrite P in E. injection E as <-.
  assert (G : Forall (good sch k) cs).
  { rewrite forallb_forall in D. apply Forall_forall. intros c I. split; [exact (D c I)|]. intro K. apply andb_true_iff in K. destruct K as [K1 K2]. destruct C as [C|C].
    - destruct k; try discriminate K1. reflexivity.
    - rewrite C in K2. discriminate K2.
    - rewrite forallb_forall in C. exact (C c I). }
  pose proof (kin_plays umax sch k S1 S2 cs p_new p_new l0) as Q. pose proof (plays_ok Debug umax (with_kind sch k) cs p_new (Free (t_new (with_kind sch k))) (new_rel (with_kind sch k) Z) T) as P2.
  rewrite Q in P2; [exact P2| |exact G|exact Lg'|exact Pl]. split; [reflexivity|]. split; [reflexivity|]. exact I.
Qed.
