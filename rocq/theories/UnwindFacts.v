From Coq Require Import List Arith Bool Lia.
From Verif Require Import Base BaseFacts Column ColumnFacts RowRange RowRangeFacts Table Visit SortedTab BagTab TableSpec TableFacts
  VisitFacts SortedFacts BagFacts Hist HistFacts Unwind UnwindSpec.
Import ListNotations.

Definition bshape (b : base) : btype := match b with BVec _ => TVec | BBool _ => TBool end.
Definition shape (c : col) : ctype := match c with CPlain b => Plain (bshape b) | CIdx b _ => Indexed (bshape b) end.
Definition is_idx (c : col) : Prop := match c with CIdx _ _ => True | _ => False end.
Definition is_bool (c : col) : Prop := bshape (c_base c) = TBool.
Lemma shape_idx c c' : shape c = shape c' -> is_idx c -> is_idx c'.
Proof. destruct c, c'; cbn; intros; try discriminate; auto. Qed.
Lemma shape_bool c c' : shape c = shape c' -> is_bool c -> is_bool c'.
Proof. unfold is_bool. destruct c, c'; cbn; intros H; inv H; congruence. Qed.
Lemma shape_base c : ct_base (shape c) = bshape (c_base c).
Proof. destruct c; auto. Qed.

(** ** Storage columns *)
Lemma bc_flush_len b : bc_len (bc_flush b) = bc_len b.
Proof. unfold bc_flush, bc_len. destruct (bc_idx b); auto. destruct (_ <=? _); auto. cbn. apply upd_length. Qed.
Lemma b_push_len b v b' : b_push b v = Ok b' -> bshape b' = bshape b /\ b_len b' = S (b_len b).
Proof.
  destruct b as [l|b]; cbn; intro H.
  - inv H. cbn. rewrite app_length. cbn. split; auto. lia.
  - bindn H x E. inv H. cbn. unfold bc_push, bc_len. cbn. rewrite app_length. cbn. split; auto. lia.
Qed.
Lemma b_push_ty b v : v_ty (bshape b) v -> exists b', b_push b v = Ok b'.
Proof. destruct b; cbn; eauto. intros [x ->]. cbn. eauto. Qed.
Lemma b_index_ub pr b i : bshape b = TBool \/ i < b_len b -> good pr (fun _ => True) (b_index b i).
Proof.
  destruct b as [l|b]; cbn.
  - intros [H|H]; [discriminate|]. destruct (nth_error_lt_Some _ _ H) as [v ->]. exact I.
  - intros _. unfold bc_index. destruct (match bc_idx b with Some j => i =? j | None => false end); [exact I|]. destruct (nth_error _ _); exact I.
Qed.
Lemma b_swap_out_len b i v p : b_swap_out b i v = Ok p -> bshape (fst p) = bshape b /\ b_len (fst p) = b_len b.
Proof.
  destruct b as [l|b]; cbn; intro H.
  - destruct (nth_error l i); inv H. cbn. rewrite upd_length. auto.
  - bindn H x E. bindn H q E2. inv H. cbn. split; auto. unfold bc_swap_out in E2. destruct (nth_error _ _); inv E2. cbn.
    unfold bc_len at 1. cbn. rewrite upd_length. apply bc_flush_len.
Qed.
Lemma b_swap_out_ub pr b i v : bshape b = TBool \/ i < b_len b -> good pr (fun _ => True) (b_swap_out b i v).
Proof.
  destruct b as [l|b]; cbn.
  - intros [H|H]; [discriminate|]. destruct (nth_error_lt_Some _ _ H) as [x ->]. exact I.
  - intros _. destruct v; cbn; try exact I. unfold bc_swap_out. destruct (nth_error _ _); exact I.
Qed.
Lemma b_swap_len b i j b' : b_swap b i j = Ok b' -> bshape b' = bshape b /\ b_len b' = b_len b.
Proof.
  destruct b as [l|b]; cbn; intro H.
  - destruct (nth_error l i), (nth_error l j); inv H. cbn. rewrite !upd_length. auto.
  - bindn H x E. inv H. cbn. split; auto. unfold bc_swap in E. destruct (nth_error _ i); [|discriminate]. destruct (nth_error _ j); inv E.
    unfold bc_len at 1. cbn. rewrite !upd_length. apply bc_flush_len.
Qed.
Lemma b_swap_ub pr b i j : bshape b = TBool \/ (i < b_len b /\ j < b_len b) -> good pr (fun _ => True) (b_swap b i j).
Proof.
  destruct b as [l|b]; cbn.
  - intros [H|[H1 H2]]; [discriminate|]. destruct (nth_error_lt_Some _ _ H1) as [x ->], (nth_error_lt_Some _ _ H2) as [y ->]. exact I.
  - intros _. unfold bc_swap. destruct (nth_error _ i); [|exact I]. destruct (nth_error _ j); exact I.
Qed.
Lemma b_truncate_len b n : bshape (b_truncate b n) = bshape b /\ b_len (b_truncate b n) = Nat.min n (b_len b).
Proof.
  destruct b as [l|b]; cbn; [rewrite firstn_length; auto|]. split; auto. unfold bc_truncate, bc_len. cbn. rewrite firstn_length.
  f_equal. apply bc_flush_len.
Qed.
Lemma b_clear_len b : bshape (b_clear b) = bshape b /\ b_len (b_clear b) = 0.
Proof. destruct b as [l|b]; cbn; auto. Qed.

(** ** Columns *)
Section Col.
Variables (pr : profile) (imax : nat) (boom : key -> list key -> bool).
(** Nothing changed but contents. *)
Definition same_len (c c' : col) : Prop := shape c' = shape c /\ c_len c' = c_len c.
Lemma same_len_refl c : same_len c c. Proof. split; auto. Qed.
Lemma same_len_trans a b c : same_len a b -> same_len b c -> same_len a c.
Proof. intros [A B] [C D]. split; congruence. Qed.

Lemma native_inv i n : native imax i = Ok n -> n = i /\ i <= imax.
Proof. unfold native. destruct (Nat.leb_spec i imax); intro H1; inv H1. auto. Qed.
Lemma native_err i e : native imax i = Err e -> imax < i /\ exists c, e = EPanic c.
Proof. unfold native. destruct (Nat.leb_spec i imax); intro H1; inv H1. eauto. Qed.

Lemma uc_push_spec c v : v_ty (ct_base (shape c)) v -> let p := uc_push imax boom c v in
  shape (fst p) = shape c /\ c_len (fst p) = S (c_len c) /\
  (snd p = Ok tt \/ is_idx c /\ (exists e, snd p = panic e) /\ (imax < c_len c \/ exists n m, boom (v, n) m = true)).
Proof.
  intro T. rewrite shape_base in T. destruct (b_push_ty _ _ T) as [b' E]. destruct (b_push_len _ _ _ E) as [A B].
  destruct c as [b|b ix]; cbn in *; rewrite E.
  - cbn. rewrite A. auto.
  - destruct (native imax (b_len b)) as [n|e] eqn:N; cbn.
    + destruct (booms boom (v, n) ix) eqn:X; cbn; rewrite A; unfold c_len; cbn; split; auto; split; auto.
      right. split; auto. split; [eexists; reflexivity|]. right. destruct ix; [discriminate|]. cbn in X. eauto.
    + rewrite A. unfold c_len. cbn. split; auto. split; auto. right. split; auto. apply native_err in N. destruct N as [L [c ->]].
      split; [eexists; reflexivity|auto].
Qed.

Lemma uc_swap_out_spec c i v : let p := uc_swap_out imax boom c i v in
  same_len c (fst p) /\ (is_bool c \/ i < c_len c -> good pr (fun _ => True) (snd p)) /\
  (forall x, snd p = Ok x -> is_idx c -> i <= imax).
Proof.
  unfold same_len, is_bool, c_len. destruct c as [b|b ix]; cbn.
  - destruct (b_swap_out b i v) as [p|e] eqn:E; cbn.
    + destruct (b_swap_out_len _ _ _ _ E) as [-> ->]. split; auto. split; auto. tauto.
    + split; auto. split; [|intros; discriminate]. intro H. pose proof (b_swap_out_ub pr b i v H) as G. rewrite E in G. exact G.
  - destruct (b_index b i) as [old|e] eqn:E; cbn.
    2:{ split; auto. split; [|intros; discriminate]. intro H. pose proof (b_index_ub pr b i H) as G. rewrite E in G. exact G. }
    destruct (native imax i) as [n|e] eqn:N; cbn.
    2:{ split; auto. split; [|intros; discriminate]. intros _. apply native_err in N. destruct N as [_ [c ->]]. exact I. }
    apply native_inv in N. destruct N as [-> N].
    destruct (booms boom (old, i) ix); [split; [auto|split; [intros _; exact I|intros; discriminate]]|].
    destruct (booms boom (v, i) _); [split; [auto|split; [intros _; exact I|intros; discriminate]]|].
    destruct (b_swap_out b i v) as [p|e] eqn:F; cbn.
    + destruct (b_swap_out_len _ _ _ _ F) as [-> ->]. split; auto.
    + split; auto. split; [|intros; discriminate]. intro H. pose proof (b_swap_out_ub pr b i v H) as G. rewrite F in G. exact G.
Qed.

Lemma uc_swap_spec c i j : let p := uc_swap imax boom c i j in
  same_len c (fst p) /\ (is_bool c \/ (i < c_len c /\ j < c_len c) -> good pr (fun _ => True) (snd p)) /\
  (forall x, snd p = Ok x -> is_idx c -> i <= imax /\ j <= imax).
Proof.
  unfold same_len, is_bool, c_len. destruct c as [b|b ix]; cbn.
  - destruct (b_swap b i j) as [p|e] eqn:E; cbn.
    + destruct (b_swap_len _ _ _ _ E) as [-> ->]. split; auto. split; auto. tauto.
    + split; auto. split; [|intros; discriminate]. intro H. pose proof (b_swap_ub pr b i j H) as G. rewrite E in G. exact G.
  - assert (D : forall x, (x = i \/ x = j) -> bshape b = TBool \/ (i < b_len b /\ j < b_len b) -> bshape b = TBool \/ x < b_len b)
      by (intros x [->| ->] [H|[H1 H2]]; auto).
    destruct (b_index b i) as [oa|e] eqn:E; cbn.
    2:{ split; auto. split; [|intros; discriminate]. intro H. apply (D i) in H; auto. pose proof (b_index_ub pr b i H) as G. rewrite E in G. exact G. }
    destruct (b_index b j) as [ob|e] eqn:E2; cbn.
    2:{ split; auto. split; [|intros; discriminate]. intro H. apply (D j) in H; auto. pose proof (b_index_ub pr b j H) as G. rewrite E2 in G. exact G. }
    destruct (native imax i) as [n|e] eqn:N; cbn.
    2:{ split; auto. split; [|intros; discriminate]. intros _. apply native_err in N. destruct N as [_ [c ->]]. exact I. }
    destruct (native imax j) as [n2|e] eqn:N2; cbn.
    2:{ split; auto. split; [|intros; discriminate]. intros _. apply native_err in N2. destruct N2 as [_ [c ->]]. exact I. }
    apply native_inv in N. apply native_inv in N2. destruct N as [-> N], N2 as [-> N2].
    do 4 (match goal with |- context [if booms boom ?k ?m then _ else _] => destruct (booms boom k m) end;
      [split; [auto|split; [intros _; exact I|intros; discriminate]]|]).
    destruct (b_swap b i j) as [p|e] eqn:F; cbn.
    + destruct (b_swap_len _ _ _ _ F) as [-> ->]. split; auto.
    + split; auto. split; [|intros; discriminate]. intro H. pose proof (b_swap_ub pr b i j H) as G. rewrite F in G. exact G.
Qed.

Lemma uc_deleted_spec c i : let p := uc_deleted imax boom c i in
  same_len c (fst p) /\ (is_bool c \/ i < c_len c -> good pr (fun _ => True) (snd p)) /\
  (forall x, snd p = Ok x -> is_idx c -> i <= imax) /\
  (forall e, snd p = Err e -> is_idx c).
Proof.
  unfold same_len, is_bool, c_len. destruct c as [b|b ix]; cbn.
  - split; auto. split; auto. split; [tauto|intros; discriminate].
  - destruct (b_index b i) as [old|e] eqn:E; cbn.
    2:{ split; auto. split; [|split; [intros; discriminate|auto]]. intro H. pose proof (b_index_ub pr b i H) as G. rewrite E in G. exact G. }
    destruct (native imax i) as [n|e] eqn:N; cbn.
    2:{ split; auto. split; [|split; [intros; discriminate|auto]]. intros _. apply native_err in N. destruct N as [_ [c ->]]. exact I. }
    apply native_inv in N. destruct N as [-> N].
    destruct (booms boom (old, i) ix); cbn; [split; [auto|split; [intros _; exact I|split; [intros; discriminate|auto]]]|].
    split; auto.
Qed.

Lemma ufold_deleted l : forall c, Forall (fun i => i < c_len c) l ->
  let p := ufold (uc_deleted imax boom) l c in same_len c (fst p) /\ good pr (fun _ => True) (snd p).
Proof.
  induction l as [|i l IH]; intros c H; cbn; [split; [apply same_len_refl|exact I]|]. inv H.
  destruct (uc_deleted_spec c i) as (A & B & _). destruct (uc_deleted imax boom c i) as [c' [u|e]]; cbn in *.
  - assert (H : Forall (fun i => i < c_len c') l) by (destruct A as [_ ->]; auto).
    destruct (IH _ H) as [C D]. split; auto. eapply same_len_trans; eauto.
  - split; auto.
Qed.

(** Either the column is cut, or (it is indexed and) it panicked and keeps its length. *)
Lemma uc_truncate_spec c n : let p := uc_truncate imax boom c n in
  shape (fst p) = shape c /\ good pr (fun _ => True) (snd p) /\
  (snd p = Ok tt /\ c_len (fst p) = Nat.min n (c_len c) \/ (exists e, snd p = Err e) /\ c_len (fst p) = c_len c).
Proof.
  destruct c as [b|b ix]; cbn.
  - destruct (b_truncate_len b n) as [-> E]. split; auto.
  - pose proof (ufold_deleted (seq n (b_len b - n)) (CIdx b ix)) as F.
    assert (H : Forall (fun i => i < c_len (CIdx b ix)) (seq n (b_len b - n))).
    { apply Forall_forall. intros x Hx. apply in_seq in Hx. unfold c_len. cbn. lia. }
    specialize (F H). destruct (ufold _ _ _) as [c' [u|e]]; cbn in *; destruct F as [[A B] C].
    + destruct c' as [b'|b' ix']; cbn in *; [discriminate|]. destruct (b_truncate_len b' n) as [E1 E2].
      split; [congruence|]. split; [exact I|]. left. unfold c_len in *. cbn in *. split; auto. congruence.
    + split; auto. split; auto. right. split; eauto.
Qed.
End Col.

(** ** The lengths of columns *)
(** Up to the first indexed column no column is shorter than [n]. *)
Fixpoint upto (n : nat) (cs : list col) : Prop :=
  match cs with
  | [] => True
  | c :: cs => n <= c_len c /\ match c with CIdx _ _ => True | CPlain _ => upto n cs end
  end.
Fixpoint uptob (n : nat) (cs : list col) : Prop :=
  match cs with
  | [] => True
  | c :: cs => (is_bool c \/ n <= c_len c) /\ match c with CIdx _ _ => True | CPlain _ => uptob n cs end
  end.
Lemma upto_b n cs : upto n cs -> uptob n cs.
Proof. induction cs as [|c cs IH]; cbn; auto. intros [A B]. split; auto. destruct c; auto. Qed.
Lemma upto_le n m cs : m <= n -> upto n cs -> upto m cs.
Proof. intro L. induction cs as [|c cs IH]; cbn; auto. intros [A B]. split; [lia|]. destruct c; auto. Qed.
Lemma forall_uptob n cs : Forall (fun c => is_bool c \/ n <= c_len c) cs -> uptob n cs.
Proof. induction 1 as [|c cs A B IH]; cbn; auto. split; auto. destruct c; auto. Qed.

Section Lens.
Variables (pr : profile) (imax : nat) (boom : key -> list key -> bool).
Definition no_shorter (c d : col) : Prop := is_bool d \/ Nat.min (c_len c) (S imax) <= c_len d.
Definition pairs (cs : list col) : Prop := ForallOrdPairs no_shorter cs.
Definition hd_len (cs : list col) : nat := match cs with c :: _ => c_len c | [] => 0 end.
Definition cinv (cs : list col) : Prop := upto (hd_len cs) cs /\ pairs cs.

Lemma upto_same n cs cs' : Forall2 same_len cs cs' -> upto n cs -> upto n cs'.
Proof.
  induction 1 as [|c c' cs cs' [S L] H IH]; cbn; auto. intros [A B]. rewrite L. split; auto.
  destruct c, c'; cbn in S; try discriminate; auto.
Qed.
Lemma pairs_same cs cs' : Forall2 same_len cs cs' -> pairs cs -> pairs cs'.
Proof.
  induction 1 as [|c c' cs cs' [S L] H IH]; intro P; [constructor|]. inv P. constructor; [|apply IH; auto].
  clear - H2 H S L. induction H as [|d d' cs cs' [Sd Ld] H IH]; constructor; inv H2; auto.
  unfold no_shorter in *. rewrite L, Ld. destruct H3 as [B|B]; auto. left. eapply shape_bool; [|exact B]. auto.
Qed.
Lemma hd_same cs cs' : Forall2 same_len cs cs' -> hd_len cs' = hd_len cs.
Proof. intros [|c c' ? ? [S L] H]; auto. Qed.
Lemma cinv_same cs cs' : Forall2 same_len cs cs' -> cinv cs -> cinv cs'.
Proof. intros H [A B]. split; [rewrite (hd_same _ _ H); eapply upto_same; eauto|eapply pairs_same; eauto]. Qed.
Lemma same_all_refl cs : Forall2 same_len cs cs.
Proof. induction cs; constructor; auto using same_len_refl. Qed.

Lemma cinv_all cs b : cinv cs -> b <= hd_len cs -> b <= S imax -> Forall (fun c => is_bool c \/ b <= c_len c) cs.
Proof.
  intros [U P] L Li. destruct cs as [|c cs]; [constructor|]. cbn in *. inv P. constructor; [lia|].
  rewrite Forall_forall in *. intros d Hd. destruct (H1 d Hd) as [X|X]; auto. right. lia.
Qed.

(** A pass over the columns that looks at rows below [b]. *)
Lemma ucols_access {A B} (f : col -> A -> col * res B) b : 
  (forall c a, same_len c (fst (f c a))) ->
  (forall c a, is_bool c \/ b <= c_len c -> good pr (fun _ => True) (snd (f c a))) ->
  (forall c a x, snd (f c a) = Ok x -> is_idx c -> b <= S imax) ->
  forall cs l, uptob b cs -> (b <= S imax -> Forall (fun c => is_bool c \/ b <= c_len c) cs) ->
  Forall2 same_len cs (fst (ucols f cs l)) /\ good pr (fun _ => True) (snd (ucols f cs l)).
Proof.
  intros Fs Fg Fi. induction cs as [|c cs IH]; intros l U Q; cbn [ucols]; [split; [constructor|exact I]|].
  destruct l as [|a l]; [split; [apply same_all_refl|exact I]|]. cbn in U. destruct U as [U1 U2].
  pose proof (Fs c a) as F1. pose proof (Fg c a U1) as F2. pose proof (Fi c a) as F3. destruct (f c a) as [c' [x|e]]; cbn in *.
  - assert (K : uptob b cs /\ (b <= S imax -> Forall (fun c => is_bool c \/ b <= c_len c) cs)).
    { split; [|intro L; specialize (Q L); inv Q; auto]. destruct c as [bb|bb ix]; auto. apply forall_uptob.
      specialize (F3 x eq_refl I). specialize (Q F3). inv Q; auto. }
    destruct (IH l (proj1 K) (proj2 K)) as [H1 H2]. split; [constructor; auto|]. eapply good_bind; [exact H2|]. intros; exact I.
  - split; [constructor; auto using same_all_refl|exact F2].
Qed.
Lemma ueach_access {B} (f : col -> col * res B) b cs :
  (forall c, same_len c (fst (f c))) ->
  (forall c, is_bool c \/ b <= c_len c -> good pr (fun _ => True) (snd (f c))) ->
  (forall c x, snd (f c) = Ok x -> is_idx c -> b <= S imax) ->
  cinv cs -> b <= hd_len cs ->
  Forall2 same_len cs (fst (ueach f cs)) /\ good pr (fun _ => True) (snd (ueach f cs)).
Proof.
  intros Fs Fg Fi V L. unfold ueach. apply (ucols_access (fun c (_ : col) => f c) b).
  - intros. apply Fs.
  - intros. apply Fg. auto.
  - intros c a x. apply Fi.
  - apply upto_b. eapply upto_le; [exact L|apply V].
  - intro Li. apply cinv_all; auto.
Qed.

(** Cutting: a first part of the columns is cut, the rest keeps its length. *)
Inductive cut (m : nat) : list col -> list col -> Prop :=
| cut_stop cs cs' : Forall2 same_len cs cs' -> cut m cs cs'
| cut_more c cs c' cs' : shape c' = shape c -> c_len c' = Nat.min m (c_len c) -> cut m cs cs' -> cut m (c :: cs) (c' :: cs').
Lemma cut_each m cs cs' : cut m cs cs' -> Forall2 (fun c c' => shape c' = shape c /\ Nat.min m (c_len c) <= c_len c' <= c_len c) cs cs'.
Proof.
  induction 1 as [cs cs' H|c cs c' cs' S L H IH].
  - induction H as [|c c' cs cs' [S L] H IH]; constructor; auto. split; auto. lia.
  - constructor; auto. split; auto. lia.
Qed.
Lemma cut_shapes m cs cs' : cut m cs cs' -> map shape cs' = map shape cs.
Proof. intro H. apply cut_each in H. induction H as [|c c' cs cs' [S _] H IH]; cbn; congruence. Qed.
Lemma cut_upto m n cs cs' : cut m cs cs' -> upto n cs -> upto (Nat.min m n) cs'.
Proof.
  intro H. apply cut_each in H. induction H as [|c c' cs cs' [S [L _]] H IH]; cbn; auto. intros [A B]. split; [lia|].
  destruct c, c'; cbn in S; try discriminate; auto.
Qed.
Lemma cut_inv m cs cs' : cut m cs cs' -> cinv cs -> cinv cs'.
Proof.
  intros H [U P]. split.
  - inversion H as [? ? X|c ? c' ? S L X]; subst.
    + rewrite (hd_same _ _ X). eapply upto_same; eauto.
    + cbn [hd_len] in *. rewrite L. eapply cut_upto; eauto.
  - clear U. induction H as [cs cs' H|c cs c' cs' S L H IH]; [eapply pairs_same; eauto|]. inv P. constructor; [|apply IH; auto].
    apply cut_each in H. clear IH H3. induction H as [|d d' cs cs' [Sd Ld] H IH]; constructor; inv H2; auto.
    unfold no_shorter in *. rewrite L. destruct H3 as [B|B]; [left; eapply shape_bool; [|exact B]; auto|]. right. lia.
Qed.
Lemma ueach_cut {B} (f : col -> col * res B) m cs :
  (forall c, In c cs -> shape (fst (f c)) = shape c /\
    ((exists x, snd (f c) = Ok x) /\ c_len (fst (f c)) = Nat.min m (c_len c) \/ (exists e, snd (f c) = Err e) /\ c_len (fst (f c)) = c_len c)) ->
  cut m cs (fst (ueach f cs)).
Proof.
  unfold ueach. intro H. assert (G : forall cs l, length l = length cs -> incl cs cs -> (forall c, In c cs -> shape (fst (f c)) = shape c /\
    ((exists x, snd (f c) = Ok x) /\ c_len (fst (f c)) = Nat.min m (c_len c) \/ (exists e, snd (f c) = Err e) /\ c_len (fst (f c)) = c_len c)) ->
    cut m cs (fst (ucols (fun c (_ : col) => f c) cs l))).
  { clear. induction cs as [|c cs IH]; intros l El _ H; cbn [ucols]; [constructor; constructor|].
    destruct l as [|a l]; [discriminate|]. destruct (H c (or_introl eq_refl)) as [S D]. destruct (f c) as [c' [x|e]]; cbn in *.
    - destruct D as [[_ L]|[[e E] _]]; [|discriminate]. apply cut_more; auto. apply IH; [lia|apply incl_refl|]. intros; apply H; auto.
    - destruct D as [[[x E] _]|[_ L]]; [discriminate|]. apply cut_stop. constructor; [split; auto|apply same_all_refl]. }
  apply G; auto. apply incl_refl.
Qed.

(** Pushing. *)
Definition quiet (cs : list col) : Prop :=
  (forall k m, boom k m = false) \/
  (forall b n m, boom (VBool b, n) m = false) /\ ForallOrdPairs (fun c d => is_idx c -> ~ is_bool c -> is_bool d) cs.
Lemma ucols_push cs : forall r, Forall2 (fun c v => v_ty (ct_base (shape c)) v) cs r -> quiet cs -> pairs cs ->
  let p := ucols (uc_push imax boom) cs r in
  Forall2 (fun c c' => shape c' = shape c /\ (c_len c' = S (c_len c) \/ c_len c' = c_len c /\ (is_bool c \/ S imax <= c_len c))) cs (fst p) /\
  (forall n, upto n cs -> upto (S n) (fst p)) /\ (cs <> [] -> hd_len (fst p) = S (hd_len cs)) /\ good pr (fun _ => True) (snd p).
Proof.
  induction cs as [|c cs IH]; intros r T Q P; inv T; cbn [ucols].
  - split; [constructor|]. split; [auto|]. split; [congruence|exact I].
  - destruct (uc_push_spec imax boom c y H1) as (S & L & D). destruct (uc_push imax boom c y) as [c' [x|e]]; cbn [fst snd] in *.
    + assert (Q' : quiet cs) by (destruct Q as [Q|[Qb Q]]; [left; auto|right; split; [exact Qb|inv Q; auto]]). inv P.
      destruct (IH _ H3 Q' H4) as (A & B & _ & G). cbn [fst snd]. split; [constructor; auto|]. split; [|split; [cbn; auto|]].
      * intros n [N1 N2]. cbn. split; [lia|]. destruct c, c'; cbn in S; try discriminate; auto.
      * eapply good_bind; [exact G|]. intros; exact I.
    + destruct D as [D|(Ix & [e' De] & D)]; [discriminate|]. split; [|split; [|split; [cbn; auto|inv De; exact I]]].
      * constructor; [auto|]. inv P. match goal with H : Forall (no_shorter _) _ |- _ => rename H into F end. clear - F D Ix Q H1. revert F Q. induction cs as [|d cs IH]; intros F Q; constructor; inv F.
        -- split; auto. right. split; auto. destruct D as [D|D].
           ++ destruct H2 as [X|X]; auto. right. lia.
           ++ destruct D as (k & m & D). destruct Q as [Q|[Qb Q]]; [congruence|]. inv Q. match goal with H : Forall _ (d :: cs) |- _ => inv H end. left.
              match goal with H : is_idx c -> _ |- _ => apply H; auto end. intro Bc. unfold is_bool in Bc. rewrite shape_base, Bc in H1.
              destruct H1 as [b ->]. congruence.
        -- apply IH; auto. destruct Q as [Q|[Qb Q]]; [left; auto|right; split; [exact Qb|]]. inv Q. match goal with H : Forall _ (d :: cs) |- _ => inv H end. match goal with H : ForallOrdPairs _ (d :: cs) |- _ => inv H end. constructor; auto.
      * intros n [N1 N2]. cbn. split; [lia|]. destruct c; [destruct Ix|]. destruct c'; [discriminate|exact I].
Qed.
Lemma grown_inv cs cs' : cs <> [] -> cinv cs ->
  Forall2 (fun c c' => shape c' = shape c /\ (c_len c' = S (c_len c) \/ c_len c' = c_len c /\ (is_bool c \/ S imax <= c_len c))) cs cs' ->
  (forall n, upto n cs -> upto (S n) cs') -> hd_len cs' = S (hd_len cs) -> cinv cs'.
Proof.
  intros N [U P] F Hu Hh. split; [rewrite Hh; auto|]. clear U Hu Hh N. induction F as [|c c' cs cs' [S L] F IH]; [constructor|].
  inv P. constructor; [|apply IH; auto]. clear IH H2. induction F as [|d d' cs cs' [Sd Ld] F IH]; constructor; inv H1; auto.
  unfold no_shorter in *. destruct H2 as [B|B]; [left; eapply shape_bool; [|exact B]; auto|].
  destruct Ld as [Ld|[Ld [X|X]]]; [right; destruct L as [L|[L _]]; lia|left; eapply shape_bool; [|exact X]; auto|right; lia].
Qed.
End Lens.
