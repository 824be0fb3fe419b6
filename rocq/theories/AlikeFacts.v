(** Tables that look alike cannot be told apart (for C91). *)
From Coq Require Import List Arith Bool Lia.
From Verif Require Import Base BaseFacts Column ColumnFacts RowRange Table Visit SortedTab TableSpec TableFacts TableProps Hist HistFacts SkipSpec Answers PlainSpec PlainFacts AlikeSpec.
Import ListNotations.

Section Same.
Variables (pr : profile) (umax : nat) (sch : schema).
Notation kd := (s_kind sch).
Notation imax := (s_imax sch).
Hypothesis Kc : kd = Consistent.

(** The plain tables of a consistent table, with other values in the free rows. *)
Definition twin (a : plain) (rows : list row) : plain := Pl rows (p_found a) (p_free a) (p_lock a).
Definition agree (a : plain) (rows : list row) : Prop :=
  length rows = len a /\ forall i, i < len a -> p_free a i = false -> nth i rows [] = row_at a i.
(** The indexes know no free row, and free ids are ids of rows. *)
Definition tidy (a : plain) : Prop :=
  (forall i, i < len a -> p_found a i = true -> p_free a i = false) /\ (forall i, p_free a i = true -> i < len a).
Definition full (a : plain) : Prop := forall i, p_free a i = false.

Lemma agree_nil a : len a = 0 -> agree a []. Proof. intros E. split; [auto|]. intros i. lia. Qed.

Lemma len_twin a rows : agree a rows -> len (twin a rows) = len a. Proof. intros (L & _). exact L. Qed.
Lemma there_twin a rows i : agree a rows -> there (twin a rows) i = there a i.
Proof. intros A. unfold there. now rewrite len_twin. Qed.
Lemma row_twin a rows i : agree a rows -> there a i = true -> row_at (twin a rows) i = row_at a i.
Proof.
  intros (_ & A) T. unfold there in T. apply andb_true_iff in T as (L & F). apply Nat.ltb_lt in L. apply negb_true_iff in F. exact (A _ L F).
Qed.
Lemma told_twin a rows its b e : agree a rows -> told pr umax sch (twin a rows) its b e = told pr umax sch a its b e.
Proof.
  intros A. unfold told. destruct (match pr with Debug => true | _ => _ end); [|reflexivity].
  rewrite (walk_ext umax sch (there (twin a rows)) (there a)) by (intros; now apply there_twin).
  destruct (walk imax umax (there a) its b e) as [l|] eqn:E; [|reflexivity]. do 2 f_equal.
  pose proof (walk_there umax sch a its b e l E) as F. apply map_ext_in. intros [i|] I; [|reflexivity].
  rewrite Forall_forall in F. specialize (F _ I). cbn in F. now apply row_twin.
Qed.

(** Two results: the same answers, and twins again. *)
Definition twins (x y : outcome (plain * answer)) : Prop :=
  match x, y with
  | Fine (a, r), Fine (b, s) => r = s /\ tidy a /\ exists rows, agree a rows /\ b = twin a rows
  | Fails, Fails => True
  | Unsaid, Unsaid => True
  | _, _ => False
  end.
Definition ptwins (x y : outcome plain) : Prop :=
  match x, y with
  | Fine a, Fine b => tidy a /\ exists rows, agree a rows /\ b = twin a rows
  | Fails, Fails => True
  | Unsaid, Unsaid => True
  | _, _ => False
  end.
Lemma quietly_twins x y : ptwins x y -> twins (after x (fun a => Fine (a, ANothing))) (after y (fun a => Fine (a, ANothing))).
Proof. destruct x, y; cbn; tauto. Qed.
Lemma after_twins x y f : ptwins x y -> (forall a rows, tidy a -> agree a rows -> ptwins (f a) (f (twin a rows))) -> ptwins (after x f) (after y f).
Proof. intros H F. destruct x, y; cbn in *; try tauto. destruct H as (T & rows & A & ->). apply F; auto. Qed.
Lemma same_twins a rows r : tidy a -> agree a rows -> twins (Fine (a, r)) (Fine (twin a rows, r)).
Proof. intros T A. split; [reflexivity|]. split; [exact T|]. exists rows. auto. Qed.
Lemma lock_twins a rows l : tidy a -> agree a rows -> ptwins (Fine (with_lock a l)) (Fine (with_lock (twin a rows) l)).
Proof. intros T A. split; [exact T|]. exists rows. auto. Qed.
Lemma note_twins a rows ids p d : tidy a -> agree a rows -> ptwins (Fine (note sch a ids p d)) (Fine (note sch (twin a rows) ids p d)).
Proof.
  intros T A. unfold note. cbn [p_lock twin]. destruct (p_lock a) as [[[s p'] d']|]; [|split; [exact T|exists rows; auto]].
  destruct (kind_eqb kd Consistent); [apply lock_twins; auto|]. split; [exact T|exists rows; auto].
Qed.
Lemma freed_twins a rows ids : tidy a -> agree a rows -> all_below (len a) ids = true -> ptwins (Fine (freed a ids)) (Fine (freed (twin a rows) ids)).
Proof.
  intros (T1 & T2) (L & A) B. split; [|exists rows; split; [|reflexivity]].
  - split.
    + intros i Hi F. unfold freed in *. cbn in *. apply andb_true_iff in F as (F & M). apply negb_true_iff in M. rewrite M, orb_false_r. exact (T1 _ Hi F).
    + intros i F. unfold freed in *. cbn in *. apply orb_true_iff in F as [F|M]; [exact (T2 _ F)|]. apply mem_In in M.
      unfold all_below in B. rewrite forallb_forall in B. apply Nat.ltb_lt. exact (B _ M).
  - split; [exact L|]. intros i Hi F. cbn in F. apply orb_false_iff in F as (F & _). exact (A _ Hi F).
Qed.
Lemma emptied_twins a rows : full a -> agree a rows -> ptwins (Fine (emptied a)) (Fine (emptied (twin a rows))).
Proof.
  intros F A. split; [|exists []; split; [now apply agree_nil|reflexivity]].
  split; [intros i Hi; cbn in Hi; lia|]. intros i Hi. cbn in Hi. now rewrite F in Hi.
Qed.
Lemma removed_twins a rows s : tidy a -> agree a rows -> (s = SAll -> full a) -> ptwins (removed pr sch a s) (removed pr sch (twin a rows) s).
Proof.
  intros T A Fu. unfold removed. destruct s as [|ids]; [apply emptied_twins; auto|]. rewrite Kc, len_twin by exact A.
  destruct (all_below (len a) ids) eqn:B; [now apply freed_twins|exact I].
Qed.
Lemma flushed_twins a rows l srt ev : tidy a -> agree a rows -> (ev_removal ev = true -> fst (fst l) = SAll -> full a) ->
  ptwins (flushed pr sch a l srt ev) (flushed pr sch (twin a rows) l srt ev).
Proof.
  intros T A Fu. destruct l as [[s p] d]. unfold flushed. destruct (nothing_to_tell s); [split; [exact T|exists rows; auto]|].
  destruct (_ || _ || _); [exact I|]. destruct (ev_removal ev); [|split; [exact T|exists rows; auto]].
  apply removed_twins; auto. intros E. apply Fu; [reflexivity|]. destruct s; [reflexivity|discriminate].
Qed.
Lemma free_id_twin a rows : free_id sch (twin a rows) = free_id sch a. Proof. reflexivity. Qed.
Lemma grow_twins a rows rs : tidy a -> agree a rows -> ptwins (Fine (grow sch a rs)) (Fine (grow sch (twin a rows) rs)).
Proof.
  intros (T1 & T2) (L & A). unfold grow.
  set (a1 := Pl (p_rows a ++ rs) (fun j => (len a <=? j) || p_found a j) (p_free a) (p_lock a)).
  assert (Tw : Pl (p_rows (twin a rows) ++ rs) (fun j => (len (twin a rows) <=? j) || p_found (twin a rows) j) (p_free (twin a rows)) (p_lock (twin a rows)) = twin a1 (rows ++ rs)).
  { unfold twin, a1, len. cbn. unfold len in L. now rewrite L. }
  rewrite Tw. replace (len (twin a rows)) with (len a) by (symmetry; exact L). apply note_twins.
  - split.
    + intros i Hi F. unfold a1 in *. cbn in *. destruct (p_free a i) eqn:Fr; [|reflexivity]. pose proof (T2 _ Fr) as Li.
      apply orb_true_iff in F as [F|F]; [apply Nat.leb_le in F; lia|]. rewrite (T1 _ Li F) in Fr. discriminate.
    + intros i F. unfold a1 in *. cbn in *. unfold len. cbn. rewrite app_length. pose proof (T2 _ F). unfold len in *. lia.
  - split; [unfold a1, len in *; cbn; rewrite !app_length; lia|]. intros i Hi F. unfold a1, row_at in *. cbn in *.
    destruct (Nat.lt_ge_cases i (len a)) as [Li|Li].
    + rewrite !app_nth1 by (unfold len in *; lia). exact (A _ Li F).
    + rewrite !app_nth2 by (unfold len in *; lia). unfold len in *. now rewrite L.
Qed.
Definition qtwins (x y : outcome (plain * nat)) : Prop :=
  match x, y with
  | Fine (a, i), Fine (b, j) => i = j /\ ptwins (Fine a) (Fine b)
  | Fails, Fails => True
  | Unsaid, Unsaid => True
  | _, _ => False
  end.
Lemma nth_upd_row (l : list row) i j r : nth j (upd l i r) [] = if (j =? i) && (i <? length l) then r else nth j l [].
Proof.
  rewrite <- !(nth_default_eq j _ []). unfold nth_default. destruct (Nat.eqb_spec j i) as [->|N]; cbn [andb].
  - destruct (Nat.ltb_spec i (length l)); [now rewrite nth_error_upd_eq|].
    rewrite (proj2 (nth_error_None _ _)) by (rewrite upd_length; lia). rewrite (proj2 (nth_error_None _ _)) by lia. reflexivity.
  - now rewrite nth_error_upd_ne.
Qed.
Lemma put_twins a rows r : tidy a -> agree a rows -> qtwins (put sch a r) (put sch (twin a rows) r).
Proof.
  intros T (L & A). unfold put. rewrite free_id_twin. rewrite (len_twin a rows) by (split; auto). destruct (free_id sch a) as [i|].
  - destruct (Nat.ltb_spec i (len a)) as [Li|Li]; [|exact I]. split; [reflexivity|].
    set (a1 := Pl (upd (p_rows a) i r) (set (p_found a) i true) (set (p_free a) i false) (p_lock a)).
    change (Pl (upd (p_rows (twin a rows)) i r) (set (p_found (twin a rows)) i true) (set (p_free (twin a rows)) i false) (p_lock (twin a rows))) with (twin a1 (upd rows i r)).
    destruct T as (T1 & T2). assert (L1 : len a1 = len a) by (unfold a1, len; cbn; apply upd_length). apply note_twins.
    + split; intros j; rewrite ?L1; unfold a1, set; cbn; destruct (j =? i); try discriminate; auto.
    + split; [rewrite upd_length, L1; exact L|]. intros j. rewrite L1. intros Hj F. unfold a1, row_at, set in *. cbn in *.
      rewrite !nth_upd_row. unfold len in *. rewrite L. destruct (j =? i); cbn [andb] in *; [|exact (A _ Hj F)].
      apply Nat.ltb_lt in Li. now rewrite Li.
  - destruct (len a <=? imax); [|exact I]. split; [reflexivity|]. apply grow_twins; [exact T|split; auto].
Qed.
Lemma puts_twins rs : forall a rows, tidy a -> agree a rows -> ptwins (puts sch a rs) (puts sch (twin a rows) rs).
Proof.
  induction rs as [|r rs IH]; intros a rows T A; cbn; [split; [exact T|exists rows; auto]|].
  pose proof (put_twins a rows r T A) as P. destruct (put sch a r) as [[a1 i]| |], (put sch (twin a rows) r) as [[b1 j]| |]; cbn in *; try tauto.
  destruct P as (_ & T1 & rows1 & A1 & ->). now apply IH.
Qed.
Lemma looks_twin a rows o : tidy a -> agree a rows ->
  (forall k i, o = OCell k i -> i < len a -> p_free a i = false) ->
  looks pr umax sch (twin a rows) o = looks pr umax sch a o.
Proof.
  intros (T1 & T2) A P. destruct o; try reflexivity; cbn [looks]; rewrite ?(len_twin a rows A), ?(there_twin a rows) by exact A; rewrite ?told_twin by exact A; try reflexivity.
  - destruct (there a i) eqn:E; [|reflexivity]. now rewrite row_twin.
  - destruct (nth_error (s_cols sch) k); [|reflexivity]. destruct (Nat.ltb_spec i (len a)); [|reflexivity].
    do 3 f_equal. destruct A as (_ & A). apply A; eauto.
  - destruct (nth_error (s_cols sch) k) as [[]|]; try reflexivity. do 2 f_equal. apply filter_ext_in. intros i I. apply in_seq in I.
    cbn [p_found twin]. destruct (p_found a i) eqn:F; [|now rewrite !andb_false_r]. do 2 f_equal. destruct A as (_ & A). cbn. unfold row_at at 1. cbn.
    rewrite (A i); [reflexivity|lia|]. apply T1; [lia|exact F].
  - rewrite Kc. reflexivity.
Qed.

(** Calls about which tidy tables cannot differ. *)
Definition polite (a : plain) (c : call) : Prop :=
  match c with
  | Do (OCell _ i) | Do (OAssign _ i _) => i < len a -> p_free a i = false
  | Do OClearRaw => full a
  | Do (OFlush _ ev) | Do (OLiveFlush _ ev) => ev_removal ev = true -> match p_lock a with Some (SAll, _, _) => full a | _ => True end
  | Do (ORemoveRows _ _ SAll) => full a
  | Do (ORemoveRows _ ev (SThese ids)) => ev_removal ev = true -> match p_lock a with Some (SAll, _, _) => full a /\ ids = [] | _ => True end
  | _ => True
  end.
Lemma acts_twins a rows c : tidy a -> agree a rows -> polite a c -> twins (acts pr umax sch a c) (acts pr umax sch (twin a rows) c).
Proof.
  intros T A P.
  assert (Lk : forall o, (forall k i, o = OCell k i -> i < len a -> p_free a i = false) ->
    twins (after (looks pr umax sch a o) (fun x => Fine (a, x))) (after (looks pr umax sch (twin a rows) o) (fun x => Fine (twin a rows, x)))).
  { intros o Ho. rewrite looks_twin by auto. destruct (looks pr umax sch a o); cbn; auto. split; [reflexivity|]. split; [exact T|]. exists rows. auto. }
  assert (Wl : forall l, twins (Fine (with_lock a l, ANothing)) (Fine (with_lock (twin a rows) l, ANothing))).
  { intros l. apply (quietly_twins (Fine _) (Fine _)). now apply lock_twins. }
  assert (Fl : forall l srt ev, (ev_removal ev = true -> fst (fst l) = SAll -> full a) -> forall l',
    twins (after (flushed pr sch a l srt ev) (fun a => Fine (with_lock a l', ANothing)))
          (after (flushed pr sch (twin a rows) l srt ev) (fun a => Fine (with_lock a l', ANothing)))).
  { intros l srt ev Hf l'. pose proof (flushed_twins a rows l srt ev T A Hf) as F.
    destruct (flushed pr sch a l srt ev), (flushed pr sch (twin a rows) l srt ev); cbn in *; try tauto.
    destruct F as (T' & rows' & A' & ->). split; [reflexivity|]. split; [exact T'|]. exists rows'. auto. }
  assert (Df : forall l, p_lock a = Some l -> twins (does pr umax sch a l c) (does pr umax sch (twin a rows) l c)).
  { intros l Hl. destruct l as [[s p] d]. unfold does. destruct c as [o|X g x|X g x|cmp new].
    - destruct o; try exact I; rewrite ?Kc; cbn [kind_eqb]; try exact I; rewrite ?(len_twin a rows A), ?(there_twin a rows) by exact A;
        rewrite ?told_twin by exact A.
      + destruct (nothing_to_tell s); [now apply same_twins|].
        cbn in P. rewrite Hl in P. pose proof (Fl (s, p, d) srt ev) as F. cbn [fst] in F.
        assert (F0 : ev_removal ev = true -> s = SAll -> full a) by (intros E ->; exact (P E)). specialize (F F0 (Some (SThese [], false, false))).
        destruct (flushed pr sch a (s, p, d) srt ev), (flushed pr sch (twin a rows) (s, p, d) srt ev); cbn in *; try tauto.
      + rewrite free_id_twin. destruct (len a <=? imax); [now apply same_twins|exact I].
      + destruct (len a <=? imax); [|exact I]. destruct (told pr umax sch a ops 0 (len a)); cbn; auto. split; [reflexivity|split; [exact T|exists rows; auto]].
      + destruct (nth_error (s_cols sch) k) as [[]|]; try exact I. destruct (Nat.ltb_spec i (len a)) as [Li|Li]; [|exact I].
        split; [reflexivity|]. cbn in P. specialize (P Li). destruct A as (L & A).
        assert (L1 : len (with_rows a (upd (p_rows a) i (upd (row_at a i) k v))) = len a) by (unfold len; cbn; apply upd_length).
        split; [split; intros j; rewrite L1; apply T|]. exists (upd rows i (upd (nth i rows []) k v)). split; [|reflexivity].
        split; [rewrite upd_length, L1; exact L|]. intros j. rewrite L1. intros Hj F. unfold row_at. cbn. rewrite !nth_upd_row. unfold len in *. rewrite L.
        cbn in F. pose proof (A _ Hj F) as Aj. unfold row_at in Aj. pose proof (A _ Li P) as Ai. rewrite Ai. unfold row_at.
        destruct ((j =? i) && _); [reflexivity|exact Aj].
      + pose proof (put_twins a rows r T A) as Pt. destruct (put sch a r) as [[a1 i1]| |], (put sch (twin a rows) r) as [[b1 j1]| |]; cbn in *; try tauto.
        destruct Pt as (-> & T1 & rows1 & A1 & ->). split; [reflexivity|]. split; [exact T1|]. exists rows1. auto.
      + apply quietly_twins. now apply puts_twins.
      + destruct rs as [|r rs]; [now apply same_twins|]. pose proof (grow_twins a rows (r :: rs) T A) as (T1 & rows1 & A1 & E).
        rewrite E. clear E. destruct (_ <=? imax); [now apply same_twins|]. destruct pr; [exact I|]. destruct (_ =? _); [now apply same_twins|exact I].
      + destruct (there a i); [|exact I]. apply (quietly_twins (Fine _) (Fine _)). now apply note_twins.
      + apply Wl.
      + apply Wl.
      + apply Wl.
      + apply (quietly_twins (Fine _) (Fine _)). now apply emptied_twins.
    - rewrite Kc. exact I.
    - rewrite Kc. exact I.
    - rewrite Kc. exact I. }
  unfold acts. cbn [p_lock twin]. destruct c as [o|X g x|X g x|cmp new]; [|destruct (p_lock a) as [l|]; [apply Df; reflexivity|exact I]..].
  destruct o; try (apply Lk; intros; congruence); try (destruct (p_lock a) as [l|]; [apply Df; reflexivity|exact I]).
  - destruct (p_lock a) as [l|]; [exact (Df l eq_refl)|apply Wl].
  - destruct (p_lock a) as [[[s p] d]|] eqn:Lo; [|exact I]. destruct (_ && _); [exact I|apply Wl].
  - destruct (p_lock a) as [l|] eqn:Lo; [|exact I]. apply Fl. intros E Es. destruct l as [[s p] d]. cbn in Es, P. rewrite Lo in P. subst s. exact (P E).
  - apply Lk. intros k0 i0 [= -> ->]. exact P.
  - apply quietly_twins. unfold removes_rows. rewrite Kc. cbn [p_lock twin].
    assert (Ap : forall x y, ptwins x y -> ptwins (after x (fun a => Fine (with_lock a None))) (after y (fun a => Fine (with_lock a None)))).
    { intros x y H. apply after_twins; [exact H|]. intros b rws Tb Ab. now apply lock_twins. }
    destruct (match p_lock a with Some l => l | None => (SThese [], false, false) end) as [[lg p] d] eqn:Lo.
    apply Ap. destruct rows0 as [|ids].
    + cbn in P. destruct (emptied_twins a rows P A) as (Te & rws & Ae & ->). apply flushed_twins; auto.
    + destruct ids as [|x ids].
      * cbn [removed]. rewrite Kc. cbn [all_below forallb after]. destruct (freed_twins a rows [] T A eq_refl) as (Te & rws & Ae & ->).
        apply flushed_twins; auto. cbn. intros E ->. cbn in P. specialize (P E). destruct (p_lock a) as [[[s p'] d']|]; [|discriminate Lo]. injection Lo as -> -> ->.
        destruct P as (F & _). intros i. cbn. now rewrite F.
      * apply after_twins; [apply removed_twins; auto; discriminate|]. intros b rws Tb Ab. apply flushed_twins; auto. cbn. intros E ->.
        cbn in P. specialize (P E). destruct (p_lock a) as [[[s p'] d']|]; [|discriminate Lo]. injection Lo as -> -> ->. destruct P as (_ & P). discriminate P.
Qed.

Lemma sane_polite a st c : rel sch a st -> tidy a -> pokes st c = false -> sane_op st (op_of c) -> polite a c.
Proof.
  intros R (T1 & T2) P So. pose proof (rel_tab sch a st R) as Rt.
  assert (Fu : all_present (st_tab st) -> full a).
  { intros Al i. destruct (p_free a i) eqn:F; [|reflexivity]. pose proof (T2 _ F) as L. specialize (Al i).
    rewrite (rt_len sch a _ Rt), (rt_contains sch a _ Rt) in Al. specialize (Al L). unfold there in Al. rewrite F, andb_false_r in Al. discriminate. }
  assert (Po : forall i, (i <? t_len (st_tab st)) && negb (t_contains (st_tab st) i) = false -> i < len a -> p_free a i = false).
  { intros i E L. rewrite (rt_len sch a _ Rt), (rt_contains sch a _ Rt) in E. unfold there in E. apply Nat.ltb_lt in L. rewrite L in E. cbn in E.
    now rewrite negb_involutive in E. }
  assert (Fa : forall ev, ev_removal ev = true -> match p_lock a with Some (SAll, _, _) => flush_all st ev = true | _ => True end).
  { intros ev E. unfold rel in R. destruct st as [t|w its]; [destruct (p_lock a); [contradiction|exact I]|]. destruct its; [|destruct (p_lock a); contradiction].
    destruct (p_lock a) as [l|]; [|contradiction]. destruct R as (_ & ->). destruct (w_changes w) eqn:W; [|exact I]. cbn. now rewrite E, W. }
  destruct c as [o|X g x|X g x|cmp new]; try exact I. destruct o; cbn in *; auto.
  - intros E. specialize (Fa _ E). destruct (p_lock a) as [[[[|l] p] d]|]; auto. apply Fu, So, Fa.
  - intros E. specialize (Fa _ E). destruct (p_lock a) as [[[[|l] p] d]|]; auto. apply Fu, So, Fa.
  - apply Fu. now apply So.
  - destruct rows as [|ids]; [apply Fu; now apply So|]. intros E. specialize (Fa _ E). destruct (p_lock a) as [[[[|l] p] d]|]; auto.
    destruct (So Fa) as (Al & Z). split; [now apply Fu|]. destruct ids; [reflexivity|contradiction].
Qed.
Lemma plays_twins cs : Forall (call_ty (s_cols sch)) cs -> forall a rows st, rel sch a st -> tidy a -> agree a rows -> keeps_away pr umax st cs ->
  plays pr umax sch (twin a rows) cs = plays pr umax sch a cs.
Proof.
  induction 1 as [|c cs Tc Tcs IH]; intros a rows st R T A K; [reflexivity|]. destruct K as (P & So & K). cbn [plays].
  pose proof (acts_twins a rows c T A (sane_polite _ _ _ R T P So)) as Tw. pose proof (acts_ok pr umax sch a st c R Tc) as Ok_.
  destruct (acts pr umax sch a c) as [[a' x]| |], (acts pr umax sch (twin a rows) c) as [[b' y]| |]; try contradiction; try reflexivity.
  destruct Tw as (-> & T' & rows' & A' & ->). cbn [after fst snd]. destruct Ok_ as ([st' z] & Q & R' & _). cbn [fst] in R'.
  unfold both in Q. bindn Q st1 S1. bindn Q z1 Z1. injection Q as -> ->. rewrite (IH _ _ _ R' T' A' (K _ S1)). reflexivity.
Qed.
End Same.

(** ** States *)
Definition free_of (t : table) : nat -> bool := fun i => mem i (t_free t).
Definition lock_of_state (st : state) : option (select * bool * bool) :=
  match st with Free _ => None | Locked w _ => Some (w_changes w, w_pushed w, w_delete w) end.
Lemma exact_rt t rows l : t_exact t rows -> rt (t_sch t) (Pl rows (fun i => negb (free_of t i)) (free_of t) l) t.
Proof.
  intros (Ok_ & _). split; [reflexivity|]. split; [exact Ok_|]. split; [reflexivity|]. intros K j. cbn. unfold free_of.
  rewrite (ok_free_kind _ _ _ Ok_); [reflexivity|exact K].
Qed.
Lemma rt_ext sch a t rows f g l : rt sch a t -> rows = p_rows a -> (forall i, f i = p_found a i) -> (forall i, g i = p_free a i) -> rt sch (Pl rows f g l) t.
Proof.
  intros (Sc & K & F & N) -> Hf Hg. split; [exact Sc|]. split; [eapply t_ok_ext; [|exact K]; intros; cbn; now rewrite Hf|].
  split; [intros; cbn; now rewrite Hg, F|]. intros H i. cbn. rewrite Hf. auto.
Qed.
Lemma alike_talks umax sch st1 st2 cs : sane Debug umax sch st1 -> sane Debug umax sch st2 -> alike st1 st2 ->
  Forall (call_ty (s_cols sch)) cs -> all_legal sch (match st1 with Free _ => false | _ => true end) cs = true -> keeps_away Debug umax st1 cs ->
  match talks Debug umax st1 cs with
  | Ok l => talks Debug umax st2 cs = Ok l
  | Err _ => exists c, talks Debug umax st2 cs = panic c
  end.
Proof.
  intros S1 S2 (L & C & G & Lk) T Lg K.
  destruct (tg_exact _ _ (sane_tg _ _ _ _ S1)) as (Sc1 & rows1 & E1).
  destruct (tg_exact _ _ (sane_tg _ _ _ _ S2)) as (Sc2 & rows2 & E2).
  set (t1 := st_tab st1) in *. set (t2 := st_tab st2) in *.
  set (a := Pl rows1 (fun i => negb (free_of t1 i)) (free_of t1) (lock_of_state st1)).
  pose proof (exact_rt t1 rows1 (lock_of_state st1) E1) as R1. rewrite Sc1 in R1. fold a in R1.
  pose proof (exact_rt t2 rows2 (lock_of_state st1) E2) as R2. rewrite Sc2 in R2.
  pose proof (rt_len _ _ _ R1) as L1. pose proof (rt_len _ _ _ R2) as L2. unfold len in L1, L2. cbn in L1, L2.
  assert (Fr : forall i, free_of t2 i = free_of t1 i).
  { intros i. pose proof (C i) as Ci. rewrite (rt_contains _ _ _ R1), (rt_contains _ _ _ R2) in Ci. unfold there, len in Ci. cbn in Ci.
    destruct E1 as (_ & F1). destruct E2 as (_ & F2). rewrite Forall_forall in F1, F2. unfold free_of in *.
    destruct (Nat.ltb_spec i (length rows1)) as [H|H], (Nat.ltb_spec i (length rows2)) as [H'|H']; try lia.
    destruct (mem i (t_free t1)) eqn:M1; [apply mem_In, F1 in M1; lia|]. destruct (mem i (t_free t2)) eqn:M2; [apply mem_In, F2 in M2; lia|reflexivity]. }
  assert (R2' : rt sch (twin a rows2) t2).
  { unfold twin, a. cbn [p_found p_free p_lock]. apply (rt_ext _ _ _ _ _ _ _ R2); [reflexivity|..]; intros i; cbn; now rewrite Fr. }
  assert (Td : tidy a).
  { split; cbn; [intros i _ H; now apply negb_true_iff in H|]. intros i H. destruct E1 as (_ & F1). rewrite Forall_forall in F1. apply F1, mem_In, H. }
  assert (Ag : agree a rows2).
  { split; [unfold len; cbn; lia|]. intros i Hi F. unfold len in Hi. cbn in Hi, F. assert (Th : t_contains t1 i = true).
    { rewrite (rt_contains _ _ _ R1). unfold there, len. cbn. apply Nat.ltb_lt in Hi. now rewrite Hi, F. }
    pose proof (G i Th) as Gi. rewrite (get_plain _ _ _ R1) in Gi by now rewrite <- (rt_contains _ _ _ R1).
    rewrite (get_plain _ _ _ R2) in Gi by (rewrite <- (rt_contains _ _ _ R2), <- C; exact Th). injection Gi as Gi. symmetry. exact Gi. }
  assert (Rl1 : rel sch a st1).
  { destruct st1 as [?|w1 its1], st2 as [?|w2 its2]; cbn in Lk |- *; try contradiction; [exact R1|..]; destruct its1; try contradiction. split; [exact R1|reflexivity]. }
  assert (Rl2 : rel sch (twin a rows2) st2).
  { destruct st1 as [?|w1 its1], st2 as [?|w2 its2]; cbn in Lk |- *; try contradiction; [exact R2'|..]; destruct its1; try contradiction.
    destruct its2; [|contradiction]. split; [exact R2'|]. cbn. destruct Lk as (-> & -> & ->). reflexivity. }
  pose proof (plays_ok Debug umax sch cs a st1 Rl1 T) as P1. pose proof (plays_ok Debug umax sch cs _ st2 Rl2 T) as P2.
  assert (Eq_ : plays Debug umax sch (twin a rows2) cs = plays Debug umax sch a cs).
  { destruct (kind_eqb (s_kind sch) Consistent) eqn:Kd.
    - apply kd_cons in Kd. exact (plays_twins Debug umax sch Kd cs T a rows2 st1 Rl1 Td Ag K).
    - assert (Nk : s_kind sch <> Consistent) by (intros E; apply kd_cons in E; congruence).
      replace rows2 with rows1; [reflexivity|]. destruct Ag as (Ln & Ag). unfold len in Ln, Ag. cbn in Ln, Ag.
      apply (nth_ext _ _ [] []); [congruence|]. intros i Hi. symmetry. apply Ag; [exact Hi|]. unfold free_of.
      rewrite (ok_free_kind _ _ _ (proj1 E1)); [reflexivity|]. unfold t_kind. now rewrite Sc1. }
  assert (Sd : plays Debug umax sch a cs <> Unsaid).
  { apply plays_said. cbn. destruct st1; exact Lg. }
  rewrite Eq_ in P2. destruct (plays Debug umax sch a cs) as [l| |].
  - rewrite P1, P2. reflexivity.
  - destruct P1 as (e & ->). exact P2.
  - contradiction.
Qed.

(** ** Cells of deleted rows *)
Definition bases (t : table) := map c_base (t_cols t).
Lemma read_bases t t' k i : bases t' = bases t -> t_read t' k i = t_read t k i.
Proof.
  unfold bases, t_read. revert k. generalize (t_cols t'), (t_cols t). intros l' l. revert l. induction l' as [|c' l' IH]; intros [|c l] k E; try discriminate; [destruct k; reflexivity|].
  cbn in E. injection E as E1 E2. destruct k as [|k]; [|exact (IH l k E2)]. cbn. unfold c_get, c_len, c_index. now rewrite E1.
Qed.
Lemma delete_raw_bases pr umax w i w' : t_kind (w_tab w) = Consistent -> delete_raw pr umax w i = Ok w' ->
  bases (w_tab w') = bases (w_tab w) /\ t_kind (w_tab w') = Consistent.
Proof.
  intros K H. unfold delete_raw in H. rewrite K in H. bindn H cs C. bindn H n N. injection H as <-. split; [|exact K]. unfold bases. cbn.
  apply map_res_Forall2 in C. induction C as [|x y l m E C IH]; [reflexivity|]. cbn. rewrite IH. f_equal.
  destruct x as [b|b ix]; cbn in E; [now injection E as <-|]. bindn E o Ho. bindn E n' N'. now injection E as <-.
Qed.
Lemma flush_cells pr umax w srt ev st' k i : t_kind (w_tab w) = Consistent -> w_changes w <> SAll ->
  step pr umax (Locked w []) (OFlush srt ev) = Ok st' -> t_read (st_tab st') k i = t_read (w_tab w) k i.
Proof.
  intros K N H. unfold step in H. cbn [avail] in H. bindn H t T. injection H as <-. cbn [st_tab]. apply read_bases.
  assert (D : forall w t, w_drop w = Ok t -> t = w_tab w) by (intros w0 t0; unfold w_drop; destruct (_ && _); [discriminate|congruence]).
  unfold w_flush in T. destruct (sel_empty (w_changes w)); [apply D in T as ->; reflexivity|]. bindn T x X. bindn T w' Hw. bindn T y Y. apply D in T as ->.
  unfold flush_apply in Hw. destruct (_ && _) in Hw; [|injection Hw as <-; reflexivity].
  destruct (w_changes w) as [|rows]; [congruence|]. replace (if srt then sel_sort (SThese rows) else SThese rows) with (SThese (if srt then sort_ids rows else rows)) in Hw by now destruct srt.
  change (w_tab w) with (w_tab (w_new (w_tab w))). change (w_tab w) with (w_tab (w_new (w_tab w))) in K. revert Hw K.
  generalize (t_len (w_tab (w_new (w_tab w)))). generalize (if srt then sort_ids rows else rows). generalize (w_new (w_tab w)).
  intros v l n. revert v. induction l as [|j l IH]; intros v Hw K; cbn in Hw; [injection Hw as <-; reflexivity|].
  bindn Hw v1 V. bindn V z Z. destruct (delete_raw_bases _ _ _ _ _ K V) as (B & K1). rewrite (IH _ Hw K1). exact B.
Qed.
