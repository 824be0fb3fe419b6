(** Facts about contexts that panic, and contexts of several universes. *)
From Coq Require Import List Arith Bool Lia.
From Verif Require Import Base BaseFacts Context ContextSpec ContextFacts ContextUnwind ContextUnwindSpec.
Import ListNotations.

Definition th_locks (l : list thing) : list hold := flat_map (fun t => match t with TLock h => [h] | TZero => [] end) l.
Definition sl_locks (l : list cslot) : list hold := flat_map (fun t => match t with CSome h => [h] | _ => [] end) l.

Lemma without_app a b l : without b (without a l) = without (a ++ b) l.
Proof.
  unfold without. rewrite filter_twice. apply filter_ext. intros x. rewrite map_app. unfold mem. rewrite existsb_app, negb_orb. auto.
Qed.
Lemma without_ext a b l : (forall x, In x (map h_id a) <-> In x (map h_id b)) -> without a l = without b l.
Proof.
  intros H. apply filter_ext. intros x. f_equal. destruct (mem (h_id x) (map h_id a)) eqn:A, (mem (h_id x) (map h_id b)) eqn:B; auto.
  - apply mem_In in A. apply H in A. apply mem_In in A. congruence.
  - apply mem_In in B. apply H in B. apply mem_In in B. congruence.
Qed.
Lemma release_held s b h : cw_held (c_release s b h) = without [h] (cw_held s).
Proof. unfold c_release, without. cbn. apply filter_ext. intros x. cbn. rewrite orb_false_r. auto. Qed.
Lemma without_nil l : without [] l = l.
Proof. unfold without. induction l; cbn; f_equal; auto. Qed.

Lemma th_app a b : th_locks (a ++ b) = th_locks a ++ th_locks b.
Proof. apply flat_map_app. Qed.
Lemma th_map hs : th_locks (map TLock hs) = hs.
Proof. induction hs; cbn; f_equal; auto. Qed.
Lemma sl_app a b : sl_locks (a ++ b) = sl_locks a ++ sl_locks b.
Proof. apply flat_map_app. Qed.
Lemma slot_locks_in slots h : In h (th_locks (slot_things slots)) <-> In h (sl_locks slots).
Proof.
  unfold th_locks, sl_locks, slot_things. rewrite !in_flat_map. split.
  - intros (t & Ht & Hh). apply in_flat_map in Ht. destruct Ht as (c & Hc & Ht). apply in_rev in Hc. exists c. split; auto.
    destruct c; cbn in Ht; [destruct Ht|destruct Ht as [<-|[]]; destruct Hh|destruct Ht as [<-|[]]; auto].
  - intros (c & Hc & Hh). destruct c as [| |h0]; [destruct Hh|destruct Hh|]. exists (TLock h0). split; [|cbn; auto].
    apply in_flat_map. exists (CSome h0). split; [apply in_rev; rewrite rev_involutive; auto|left; auto].
Qed.
Lemma slot_zero slots : In TZero (slot_things slots) <-> In CZero slots.
Proof.
  unfold slot_things. rewrite in_flat_map. split.
  - intros (c & Hc & Ht). apply in_rev in Hc. destruct c; cbn in Ht; [destruct Ht|auto|destruct Ht as [E|[]]; discriminate].
  - intros H. exists CZero. split; [apply in_rev; rewrite rev_involutive; auto|left; auto].
Qed.

(** ** Unwinding *)
Lemma unwind_gone {A} (s : cworld) c l s' (e : ending A) : c_unwind s c l = (s', e) -> cw_gone s' = cw_gone s /\ cw_next s' = cw_next s.
Proof.
  revert s. induction l as [|t l IH]; intros s; cbn [c_unwind]; [intros H; inv H; auto|]. destruct t as [h|].
  - destruct (h_dirty h); [intros H; inv H; auto|]. destruct (is_gone s h); [intros H; inv H; auto|]. intros H. apply IH in H. auto.
  - intros H. inv H. auto.
Qed.
Lemma unwind_unwound {A} (s : cworld) c l s' c' : c_unwind s c l = (s', @Unwound A c') ->
  c' = c /\ ~ In TZero l /\ cw_held s' = without (th_locks l) (cw_held s) /\
  incl (cw_poison s) (cw_poison s') /\
  (forall x, In x (cw_poison s') -> In x (cw_poison s) \/
     exists h, In h (th_locks l) /\ lt_write (h_ty h) = true /\ x = (h_uni h, lt_res (h_ty h))).
Proof.
  revert s. induction l as [|t l IH]; intros s; cbn [c_unwind].
  - intros H. inv H. split; auto. split; auto. split; [symmetry; apply without_nil|]. split; [apply incl_refl|auto].
  - destruct t as [h|]; [|intros H; inv H]. destruct (h_dirty h); [intros H; inv H|]. destruct (is_gone s h); [intros H; inv H|].
    intros H. apply IH in H. destruct H as (A1 & A2 & A3 & A4 & A5). split; auto. split; [intros [E|E]; [discriminate|auto]|].
    split. { rewrite A3, release_held, without_app. auto. }
    cbn [c_release cw_poison] in A4, A5. cbn [andb] in A4, A5. split.
    + intros x Hx. apply A4. destruct (lt_write (h_ty h)); [right|]; auto.
    + intros x Hx. destruct (A5 x Hx) as [Hp|(h0 & Hh & Hw & Hx0)].
      * destruct (lt_write (h_ty h)) eqn:W; [|auto]. destruct Hp as [<-|Hp]; auto. right. exists h. cbn. auto.
      * right. exists h0. cbn. auto.
Qed.
Lemma gone_false s h : ~ In (h_uni h) (cw_gone s) -> is_gone s h = false.
Proof. intros H. unfold is_gone. apply mem_nIn. auto. Qed.
Lemma unwind_no_ub {A} (s : cworld) c l s' (e : ending A) : c_unwind s c l = (s', e) -> ~ In TZero l -> alive s (th_locks l) -> e <> Undefined.
Proof.
  revert s. induction l as [|t l IH]; intros s; cbn [c_unwind]; [intros H; inv H; discriminate|]. destruct t as [h|].
  - intros H Z L. destruct (h_dirty h); [inv H; discriminate|]. rewrite gone_false in H by (apply L; cbn; auto).
    apply IH in H; auto. { intros Hz. apply Z. right; auto. } intros x Hx. apply L. cbn. auto.
  - intros _ Z. elim Z. left; auto.
Qed.
Lemma unwind_aborted {A} (s : cworld) c l s' : c_unwind s c l = (s', @Aborted A) -> exists h, In h (th_locks l) /\ h_dirty h = true.
Proof.
  revert s. induction l as [|t l IH]; intros s; cbn [c_unwind]; [discriminate|]. destruct t as [h|]; [|discriminate].
  destruct (h_dirty h) eqn:D; [intros _; exists h; cbn; auto|]. destruct (is_gone s h); [discriminate|].
  intros H. apply IH in H. destruct H as (x & Hx & Dx). exists x. cbn. auto.
Qed.
Lemma unwind_never {A} (s : cworld) c l s' (e : ending A) : c_unwind s c l = (s', e) -> (forall a, e <> Done a) /\ e <> Waits.
Proof.
  revert s. induction l as [|t l IH]; intros s; cbn [c_unwind]; [intros H; inv H; split; discriminate|]. destruct t as [h|].
  - destruct (h_dirty h); [intros H; inv H; split; discriminate|]. destruct (is_gone s h); [intros H; inv H; split; discriminate|].
    intros H. eauto.
  - intros H; inv H; split; discriminate.
Qed.
(** Zeros that are dropped when nothing else stops the panic. *)
Lemma unwind_zero {A} (s : cworld) c l : In TZero l -> clean (th_locks l) -> snd (c_unwind (A := A) s c l) = Undefined.
Proof.
  revert s. induction l as [|t l IH]; intros s; [intros []|]. cbn [c_unwind]. destruct t as [h|]; [|auto].
  intros [E|Z] C; [discriminate|]. rewrite (C h) by (cbn; auto). destruct (is_gone s h); auto. apply IH; auto.
  intros x Hx. apply C. cbn. auto.
Qed.

(** ** The old context *)
Lemma upd_in {A} (l : list A) i x y : In y (upd l i x) -> y = x \/ In y l.
Proof. revert i. induction l as [|z l IH]; intros [|i] H; cbn in *; auto; destruct H as [H|H]; auto. destruct (IH _ H); auto. Qed.
Lemma sl_upd_none slots i h : nth_error slots i = Some CNone ->
  (forall x, In x (sl_locks (upd slots i (CSome h))) <-> x = h \/ In x (sl_locks slots)).
Proof.
  revert i. induction slots as [|c slots IH]; intros [|i] H; try discriminate; cbn in H.
  - inv H. intros x. cbn. split; intros [E|E]; auto.
  - intros x. cbn [upd sl_locks flat_map]. rewrite !in_app_iff. fold (sl_locks (upd slots i (CSome h))) (sl_locks slots).
    rewrite (IH i H x). tauto.
Qed.
Lemma sl_upd_zero slots i : nth_error slots i = Some CNone -> sl_locks (upd slots i CZero) = sl_locks slots.
Proof.
  revert i. induction slots as [|c slots IH]; intros [|i] H; try discriminate; cbn in H.
  - inv H. auto.
  - cbn [upd sl_locks flat_map]. f_equal. apply IH. auto.
Qed.
Lemma upd_zero_in slots i : nth_error slots i = Some CNone -> In CZero (upd slots i CZero).
Proof. intros H. eapply nth_error_In. apply nth_error_upd_eq. eapply nth_error_Some_lt. eauto. Qed.
Lemma ids_iff (a b : list hold) : (forall x, In x a <-> In x b) -> forall y, In y (map h_id a) <-> In y (map h_id b).
Proof. intros H y. rewrite !in_map_iff. split; intros (x & E & Hx); exists x; split; auto; apply H; auto. Qed.
Definition no_zero (slots : list cslot) : Prop := ~ In CZero slots.
Lemma no_zero_upd slots i h : no_zero slots -> no_zero (upd slots i (CSome h)).
Proof. intros N H. apply upd_in in H. destruct H; [discriminate|auto]. Qed.

Section Move.
Variables (z : bool) (fields : list lockty).

Lemma move_gone hs : forall s slots s' e, c_move z fields s slots hs = (s', e) -> cw_gone s' = cw_gone s /\ cw_next s' = cw_next s.
Proof.
  induction hs as [|h hs IH]; intros s slots s' e; cbn [c_move]; [intros H; inv H; auto|].
  assert (D : (if is_gone s h then (s, Undefined) else if h_dirty h then c_unwind (c_release s true h) PNotFlushed (map TLock hs ++ slot_things slots)
     else c_move z fields (c_release s false h) slots hs) = (s', e) -> cw_gone s' = cw_gone s /\ cw_next s' = cw_next s).
  { destruct (is_gone s h); [intros H; inv H; auto|]. destruct (h_dirty h); intros H; [apply unwind_gone in H|apply IH in H]; auto. }
  destruct (position _ fields) as [[i f]|]; auto. destruct (nth_error slots i) as [[| |]|]; auto.
  destruct z; cbn [negb]; [|intros H; inv H; auto]. destruct (_ || _); [intros H; apply unwind_gone in H; auto|]. apply IH.
Qed.
(** What it comes to when it returns: some guards are dropped, the others are in the slots. *)
Lemma move_done hs : forall s slots s' slots', c_move z fields s slots hs = (s', Done slots') ->
  length slots' = length slots /\ (no_zero slots -> no_zero slots') /\ cw_poison s' = cw_poison s /\
  exists dropped, cw_held s' = without dropped (cw_held s) /\ incl dropped hs /\
    (forall x, In x (sl_locks slots') \/ In x dropped <-> In x (sl_locks slots) \/ In x hs).
Proof.
  induction hs as [|h hs IH]; intros s slots s' slots'; cbn [c_move].
  - intros H. inv H. split; auto. split; auto. split; auto. exists []. split; [symmetry; apply without_nil|]. split; [apply incl_refl|].
    intros x. cbn. tauto.
  - assert (D : (if is_gone s h then (s, Undefined) else if h_dirty h then c_unwind (c_release s true h) PNotFlushed (map TLock hs ++ slot_things slots)
       else c_move z fields (c_release s false h) slots hs) = (s', Done slots') ->
       length slots' = length slots /\ (no_zero slots -> no_zero slots') /\ cw_poison s' = cw_poison s /\
       exists dropped, cw_held s' = without dropped (cw_held s) /\ incl dropped (h :: hs) /\
        (forall x, In x (sl_locks slots') \/ In x dropped <-> In x (sl_locks slots) \/ In x (h :: hs))).
    { destruct (is_gone s h); [intros H; inv H|]. destruct (h_dirty h); intros H.
      - apply unwind_never in H. destruct H as [H _]. elim (H slots'). auto.
      - apply IH in H. destruct H as (A1 & A2 & A3 & dropped & A4 & A5 & A6). split; auto. split; auto. split; auto.
        exists (h :: dropped). split. { rewrite A4, release_held, without_app. auto. }
        split. { intros x [<-|Hx]; [left|right]; auto. }
        intros x. cbn [In]. specialize (A6 x). tauto. }
    destruct (position _ fields) as [[i f]|]; auto. destruct (nth_error slots i) as [[| |]|] eqn:S; auto.
    destruct z; cbn [negb]; [|intros H; inv H]. destruct (_ || _); [intros H; apply unwind_never in H; destruct H as [H _]; elim (H slots'); auto|].
    intros H. apply IH in H. destruct H as (A1 & A2 & A3 & dropped & A4 & A5 & A6). split; [rewrite A1; apply upd_length|].
    split. { intros N. apply A2. apply no_zero_upd. auto. }
    split; auto. exists dropped. split; auto. split; [intros x Hx; right; auto|].
    intros x. rewrite A6, (sl_upd_none slots i h S x). cbn [In]. split; [intros [[E|?]|?]; auto|intros [?|[E|?]]; auto].
Qed.
Lemma move_no_ub hs : forall s slots s' e, c_move z fields s slots hs = (s', e) -> z = true -> no_collision fields hs ->
  alive s (hs ++ sl_locks slots) -> no_zero slots -> e <> Undefined.
Proof.
  induction hs as [|h hs IH]; intros s slots s' e; cbn [c_move]; [intros H; inv H; discriminate|].
  intros H Z N L NZ.
  assert (NC : no_collision fields hs) by (intros a b Ha Hb; apply N; auto; right; auto).
  assert (D : (if is_gone s h then (s, Undefined) else if h_dirty h then c_unwind (c_release s true h) PNotFlushed (map TLock hs ++ slot_things slots)
     else c_move z fields (c_release s false h) slots hs) = (s', e) -> e <> Undefined).
  { rewrite gone_false by (apply L; left; auto). destruct (h_dirty h); intros E.
    - apply unwind_no_ub in E; auto.
      + rewrite in_app_iff. intros [I|I]; [apply in_map_iff in I; destruct I as (? & ? & _); discriminate|]. apply slot_zero in I. auto.
      + intros x Hx. rewrite th_app, th_map, in_app_iff, slot_locks_in in Hx. apply L. right. apply in_or_app. auto.
    - apply IH in E; auto. intros x Hx. apply L. right. auto. }
  destruct (position _ fields) as [[i f]|] eqn:P; auto. destruct (nth_error slots i) as [[| |]|] eqn:S; auto. subst z. cbn [negb] in H.
  destruct (position_some _ _ _ _ P) as [Hf Hn].
  assert (E : f = h_ty h) by (apply N; [eapply nth_error_In; eauto|left; auto|auto]). rewrite <- E, !Nat.eqb_refl in H. cbn [negb orb] in H.
  apply IH in H; auto.
  - intros x Hx. rewrite in_app_iff, (sl_upd_none slots i h S x) in Hx. apply L.
    destruct Hx as [Hx|[->|Hx]]; [right; apply in_or_app; auto|left; auto|right; apply in_or_app; auto].
  - apply no_zero_upd. auto.
Qed.
Lemma move_aborted hs : forall s slots s', c_move z fields s slots hs = (s', Aborted) ->
  exists h, In h (hs ++ sl_locks slots) /\ h_dirty h = true.
Proof.
  induction hs as [|h hs IH]; intros s slots s'; cbn [c_move]; [discriminate|].
  assert (D : (if is_gone s h then (s, Undefined) else if h_dirty h then c_unwind (c_release s true h) PNotFlushed (map TLock hs ++ slot_things slots)
     else c_move z fields (c_release s false h) slots hs) = (s', Aborted) -> exists x, In x ((h :: hs) ++ sl_locks slots) /\ h_dirty x = true).
  { destruct (is_gone s h); [discriminate|]. destruct (h_dirty h) eqn:Dh; intros H.
    - exists h. split; [left|]; auto.
    - apply IH in H. destruct H as (x & Hx & Dx). exists x. split; [right|]; auto. }
  destruct (position _ fields) as [[i f]|]; auto. destruct (nth_error slots i) as [[| |]|] eqn:S; auto.
  destruct z; cbn [negb]; [|discriminate]. destruct (_ || _); intros H.
  - apply unwind_aborted in H. destruct H as (x & Hx & Dx). exists x. split; auto. cbn [th_locks flat_map app] in Hx.
    destruct Hx as [<-|Hx]; [left; auto|]. fold (th_locks (map TLock hs ++ slot_things (upd slots i CZero))) in Hx.
    rewrite th_app, th_map, in_app_iff, slot_locks_in, sl_upd_zero in Hx by auto. right. apply in_or_app. auto.
  - apply IH in H. destruct H as (x & Hx & Dx). exists x. split; auto. rewrite in_app_iff, (sl_upd_none slots i h S x) in Hx.
    destruct Hx as [Hx|[->|Hx]]; [right; apply in_or_app; auto|left; auto|right; apply in_or_app; auto].
Qed.
Lemma move_waits hs : forall s slots s', c_move z fields s slots hs <> (s', Waits).
Proof.
  induction hs as [|h hs IH]; intros s slots s'; cbn [c_move]; [discriminate|].
  assert (D : (if is_gone s h then (s, Undefined) else if h_dirty h then c_unwind (c_release s true h) PNotFlushed (map TLock hs ++ slot_things slots)
     else c_move z fields (c_release s false h) slots hs) <> (s', Waits)).
  { destruct (is_gone s h); [discriminate|]. destruct (h_dirty h); auto. intros H. apply unwind_never in H. destruct H as [_ H]. auto. }
  destruct (position _ fields) as [[i f]|]; auto. destruct (nth_error slots i) as [[| |]|] eqn:S; auto.
  destruct z; cbn [negb]; [|discriminate]. destruct (_ || _); auto. intros H. apply unwind_never in H. destruct H as [_ H]. auto.
Qed.
Lemma move_unwound hs : forall s slots s' c, c_move z fields s slots hs = (s', Unwound c) ->
  c = PNotFlushed /\ (exists h, In h hs /\ h_dirty h = true) /\
  cw_held s' = without (hs ++ sl_locks slots) (cw_held s) /\ incl (cw_poison s) (cw_poison s') /\
  (forall x, In x (cw_poison s') -> In x (cw_poison s) \/
     exists h, In h (hs ++ sl_locks slots) /\ lt_write (h_ty h) = true /\ x = (h_uni h, lt_res (h_ty h))).
Proof.
  induction hs as [|h hs IH]; intros s slots s' c; cbn [c_move]; [discriminate|].
  assert (D : (if is_gone s h then (s, Undefined) else if h_dirty h then c_unwind (c_release s true h) PNotFlushed (map TLock hs ++ slot_things slots)
     else c_move z fields (c_release s false h) slots hs) = (s', Unwound c) ->
     c = PNotFlushed /\ (exists x, In x (h :: hs) /\ h_dirty x = true) /\
     cw_held s' = without ((h :: hs) ++ sl_locks slots) (cw_held s) /\ incl (cw_poison s) (cw_poison s') /\
     (forall x, In x (cw_poison s') -> In x (cw_poison s) \/
        exists y, In y ((h :: hs) ++ sl_locks slots) /\ lt_write (h_ty y) = true /\ x = (h_uni y, lt_res (h_ty y)))).
  { destruct (is_gone s h); [discriminate|]. destruct (h_dirty h) eqn:Dh; intros H.
    - apply unwind_unwound in H. destruct H as (A1 & A2 & A3 & A4 & A5). split; auto. split; [exists h; split; [left|]; auto|].
      assert (I : forall x, In x (h :: th_locks (map TLock hs ++ slot_things slots)) <-> In x ((h :: hs) ++ sl_locks slots)).
      { intros x. rewrite th_app, th_map. cbn [In app]. rewrite !in_app_iff, slot_locks_in. tauto. }
      split. { rewrite A3, release_held, without_app. apply without_ext. apply ids_iff. exact I. }
      cbn [c_release cw_poison andb] in A4, A5. split.
      + intros x Hx. apply A4. destruct (lt_write (h_ty h)); [right|]; auto.
      + intros x Hx. destruct (A5 x Hx) as [Hp|(y & Hy & Hw & Ex)].
        * destruct (lt_write (h_ty h)) eqn:W; [|auto]. destruct Hp as [<-|Hp]; auto. right. exists h. split; [left|]; auto.
        * right. exists y. split; [apply I; right|]; auto.
    - apply IH in H. destruct H as (A1 & (y & Hy & Dy) & A3 & A4 & A5). split; auto. split; [exists y; split; [right|]; auto|].
      split. { rewrite A3, release_held, without_app. auto. }
      split; [exact A4|]. intros x Hx. destruct (A5 x Hx) as [Hp|(w & Hw & Hr)]; [left; exact Hp|]. right. exists w. split; [right|]; auto. }
  destruct (position _ fields) as [[i f]|]; auto. destruct (nth_error slots i) as [[| |]|] eqn:S; auto.
  destruct z; cbn [negb]; [|discriminate]. destruct (_ || _); intros H.
  - apply unwind_unwound in H. destruct H as (_ & A2 & _). elim A2. right. apply in_or_app. right. apply slot_zero.
    apply upd_zero_in. auto.
  - apply IH in H. destruct H as (A1 & (y & Hy & Dy) & A3 & A4 & A5).
    assert (I : forall x, In x (hs ++ sl_locks (upd slots i (CSome h))) <-> In x ((h :: hs) ++ sl_locks slots)).
    { intros x. rewrite in_app_iff, (sl_upd_none slots i h S x). cbn [app In]. rewrite in_app_iff. split; [intros [?|[E|?]]; auto|intros [E|[?|?]]; auto]. }
    split; auto. split; [exists y; split; [right|]; auto|]. split. { rewrite A3. apply without_ext. apply ids_iff. exact I. }
    split; [exact A4|]. intros x Hx. destruct (A5 x Hx) as [Hp|(w & Hw & Hr)]; [left; exact Hp|]. right. exists w. split; [apply I|]; auto.
Qed.
End Move.

(** ** The missing locks *)
Lemma poisoned_in s u f : poisoned s u f = true <-> In (u, lt_res f) (cw_poison s).
Proof.
  unfold poisoned. rewrite existsb_exists. split.
  - intros ([a b] & H & E). apply andb_true_iff in E. destruct E as [E1 E2]. apply Nat.eqb_eq in E1, E2. cbn in E1, E2. subst. auto.
  - intros H. exists (u, lt_res f). cbn. rewrite !Nat.eqb_refl. auto.
Qed.
Lemma sl_some l : sl_locks (map CSome l) = l.
Proof. induction l; cbn; f_equal; auto. Qed.
Lemma fill_gone u fields : forall s done slots s' e, c_fill s u done fields slots = (s', e) -> cw_gone s' = cw_gone s.
Proof.
  induction fields as [|f fields IH]; intros s done slots s' e; destruct slots as [|c slots]; cbn [c_fill]; try (intros H; inv H; auto; fail).
  destruct c as [| |h]; [|intros H; inv H; auto|apply IH]. destruct (existsb _ _); [intros H; inv H; auto|].
  destruct (poisoned s u f); intros H; [apply unwind_gone in H; tauto|]. apply IH in H. auto.
Qed.
Lemma fill_no_ub u fields : forall s done slots s' e, c_fill s u done fields slots = (s', e) -> length fields = length slots ->
  no_zero slots -> alive s (done ++ sl_locks slots) -> ~ In u (cw_gone s) -> e <> Undefined.
Proof.
  induction fields as [|f fields IH]; intros s done slots s' e; destruct slots as [|c slots]; cbn [c_fill length]; intros H L N V G; try discriminate.
  - inv H. discriminate.
  - assert (N' : no_zero slots) by (intros I; apply N; right; auto). destruct c as [| |h].
    + destruct (existsb _ _); [inv H; discriminate|]. destruct (poisoned s u f).
      * apply unwind_no_ub in H; auto.
        -- rewrite slot_zero, in_app_iff. intros [I|[I|I]]; [apply in_map_iff in I; destruct I as (? & ? & _); discriminate|discriminate|auto].
        -- intros x Hx. rewrite slot_locks_in, sl_app, sl_some in Hx. apply V. exact Hx.
      * apply IH in H; auto. intros x Hx. cbn [cw_gone]. rewrite <- app_assoc, in_app_iff in Hx. cbn [app In] in Hx.
        destruct Hx as [Hx|[<-|Hx]]; [apply V; apply in_or_app; auto|exact G|apply V; apply in_or_app; auto].
    + elim N. left; auto.
    + apply IH in H; auto. intros x Hx. apply V. rewrite <- app_assoc in Hx. exact Hx.
Qed.
Lemma fill_aborted u fields : forall s done slots s', c_fill s u done fields slots = (s', Aborted) ->
  exists h, In h (done ++ sl_locks slots) /\ h_dirty h = true.
Proof.
  induction fields as [|f fields IH]; intros s done slots s'; destruct slots as [|c slots]; cbn [c_fill]; try discriminate.
  destruct c as [| |h]; [|discriminate|].
  - destruct (existsb _ _); [discriminate|]. destruct (poisoned s u f); intros H.
    + apply unwind_aborted in H. destruct H as (x & Hx & Dx). exists x. split; auto. rewrite slot_locks_in, sl_app, sl_some in Hx. exact Hx.
    + apply IH in H. destruct H as (x & Hx & Dx). exists x. split; auto. rewrite <- app_assoc, in_app_iff in Hx. cbn [app In] in Hx.
      destruct Hx as [Hx|[<-|Hx]]; [apply in_or_app; auto|discriminate|apply in_or_app; auto].
  - intros H. apply IH in H. destruct H as (x & Hx & Dx). exists x. split; auto. rewrite <- app_assoc in Hx. exact Hx.
Qed.
Lemma without_new hs h l : Forall (fun x => h_id x < h_id h) l -> without (hs ++ [h]) (l ++ [h]) = without hs l.
Proof.
  intros F. rewrite <- without_app. unfold without at 2. rewrite filter_app. fold (without hs l). unfold without at 1. rewrite filter_app.
  assert (E : filter (fun x => negb (mem (h_id x) (map h_id [h]))) (filter (fun x => negb (mem (h_id x) (map h_id hs))) [h]) = []).
  { cbn [filter]. destruct (negb _); cbn; auto. rewrite Nat.eqb_refl. auto. }
  rewrite E, app_nil_r. rewrite Forall_forall in F. unfold without. rewrite filter_twice. apply filter_ext_in.
  intros x Hx. specialize (F x Hx). cbn. destruct (Nat.eqb_spec (h_id h) (h_id x)) as [E1|E1]; [rewrite E1 in F; lia|]. 
  try rewrite andb_true_r. cbn. try (destruct (Nat.eqb_spec (h_id x) (h_id h)); [lia|]). cbn. try rewrite andb_true_r. auto.
Qed.
Lemma fill_unwound u fields : forall s done slots s' c, c_fill s u done fields slots = (s', Unwound c) -> numbered s ->
  c = PPoisoned /\ some_poisoned s u fields /\ cw_held s' = without (done ++ sl_locks slots) (cw_held s) /\
  incl (cw_poison s) (cw_poison s') /\
  (forall x, In x (cw_poison s') -> In x (cw_poison s) \/
     (exists h, In h (done ++ sl_locks slots) /\ lt_write (h_ty h) = true /\ x = (h_uni h, lt_res (h_ty h))) \/
     exists f, In f fields /\ lt_write f = true /\ x = (u, lt_res f)).
Proof.
  induction fields as [|f fields IH]; intros s done slots s' c; destruct slots as [|k slots]; cbn [c_fill]; try discriminate.
  destruct k as [| |h]; [|discriminate|].
  - destruct (existsb _ _); [discriminate|]. destruct (poisoned s u f) eqn:P; intros H N.
    + apply unwind_unwound in H. destruct H as (A1 & A2 & A3 & A4 & A5). split; auto.
      assert (I : forall x, In x (th_locks (slot_things (map CSome done ++ CNone :: slots))) <-> In x (done ++ sl_locks slots)).
      { intros x. rewrite slot_locks_in, sl_app, sl_some. tauto. }
      split. { exists f. split; [left; auto|]. apply poisoned_in. auto. }
      split. { rewrite A3. apply without_ext. apply ids_iff. exact I. }
      split; auto. intros x Hx. destruct (A5 x Hx) as [Hp|(y & Hy & Hw & E)]; auto. right. left. exists y. split; [apply I|]; auto.
    + set (h := HL (cw_next s) f u false) in *.
      apply IH in H. 2:{ unfold numbered. cbn [cw_held cw_next]. rewrite Forall_app. split.
                         - eapply Forall_impl; [|exact N]. cbn. intros; lia.
                         - constructor; auto. }
      cbn [cw_held cw_poison] in H. destruct H as (A1 & (g & Hg & Pg) & A3 & A4 & A5). split; auto.
      split. { exists g. split; [right|]; auto. }
      split. { change (sl_locks (CNone :: slots)) with (sl_locks slots). rewrite A3. rewrite <- (without_new (done ++ sl_locks slots) h (cw_held s)).
               - apply without_ext. intros x. rewrite !map_app, !in_app_iff. cbn. tauto.
               - exact N. }
      split; auto. intros x Hx. destruct (A5 x Hx) as [Hp|[(y & Hy & Hw & E)|(g' & Hg' & Hw & E)]]; auto.
      * rewrite <- app_assoc, in_app_iff in Hy. cbn [app In] in Hy. destruct Hy as [Hy|[<-|Hy]].
        -- right. left. exists y. split; auto. apply in_or_app. auto.
        -- right. right. exists f. split; [left; auto|]. auto.
        -- right. left. exists y. split; auto. apply in_or_app. auto.
      * right. right. exists g'. split; [right|]; auto.
  - intros H N. apply IH in H; auto. destruct H as (A1 & (g & Hg & Pg) & A3 & A4 & A5). split; auto.
    split. { exists g. split; [right|]; auto. }
    rewrite <- app_assoc in A3, A5. cbn [app] in A3, A5. split; auto. split; auto.
    intros x Hx. destruct (A5 x Hx) as [Hp|[Hy|(g' & Hg' & Hr)]]; auto. right. right. exists g'. split; [right|]; auto.
Qed.
Lemma fill_uni u fields : forall s done slots s' hs, c_fill s u done fields slots = (s', Done hs) ->
  forall h, In h hs -> In h (done ++ sl_locks slots) \/ (h_uni h = u /\ In (h_ty h) fields).
Proof.
  induction fields as [|f fields IH]; intros s done slots s' hs; destruct slots as [|k slots]; cbn [c_fill]; try discriminate.
  - intros H. inv H. intros h Hh. left. apply in_or_app. auto.
  - destruct k as [| |h]; [|discriminate|].
    + destruct (existsb _ _); [discriminate|]. destruct (poisoned s u f); intros H.
      { apply unwind_never in H. destruct H as [H _]. elim (H hs). auto. }
      intros x Hx. destruct (IH _ _ _ _ _ H x Hx) as [I|[I1 I2]]; [|right; split; [|right]; auto].
      rewrite <- app_assoc, in_app_iff in I. cbn [app In] in I. destruct I as [I|[<-|I]].
      * left. apply in_or_app. auto.
      * right. split; auto. left; auto.
      * left. apply in_or_app. auto.
    + intros H x Hx. destruct (IH _ _ _ _ _ H x Hx) as [I|[I1 I2]]; [|right; split; [|right]; auto].
      left. rewrite <- app_assoc in I. exact I.
Qed.

(** ** Conversions *)
Lemma none_sl (fields : list lockty) : sl_locks (map (fun _ => CNone) fields) = [].
Proof. induction fields; cbn; auto. Qed.
Lemma none_zero (fields : list lockty) : no_zero (map (fun _ => CNone) fields).
Proof. intros H. apply in_map_iff in H. destruct H as (? & ? & _). discriminate. Qed.

Lemma from_no_ub s u fields old : no_collision fields old -> alive s old -> ~ In u (cw_gone s) ->
  snd (c_from true s u fields old) <> Undefined.
Proof.
  intros N L G. unfold c_from. destruct (c_move true fields s (map (fun _ => CNone) fields) old) as [s1 e] eqn:M.
  assert (NU := move_no_ub true fields old _ _ _ _ M eq_refl N). rewrite none_sl, app_nil_r in NU. specialize (NU L (none_zero fields)).
  destruct e; cbn [snd not_done]; try discriminate; [|congruence].
  destruct (move_gone true fields old _ _ _ _ M) as [E1 E2]. destruct (move_done true fields old _ _ _ _ M) as (A1 & A2 & A3 & d & A4 & A5 & A6).
  destruct (c_fill s1 u [] fields a) as [s2 e2] eqn:F. cbn [snd]. apply fill_no_ub in F; auto.
  - rewrite A1, map_length. auto.
  - apply A2. apply none_zero.
  - intros x Hx. rewrite E1. apply L. rewrite none_sl in A6. destruct (A6 x) as [A6' _]. destruct A6' as [[]|]; auto.
  - rewrite E1. auto.
Qed.
Lemma from_unwound z s u fields old s' c : numbered s -> c_from z s u fields old = (s', Unwound c) ->
  ((c = PNotFlushed /\ exists h, In h old /\ h_dirty h = true) \/ (c = PPoisoned /\ some_poisoned s u fields)) /\
  cw_held s' = without old (cw_held s) /\ incl (cw_poison s) (cw_poison s') /\
  (forall x, In x (cw_poison s') -> In x (cw_poison s) \/
     (exists h, In h old /\ lt_write (h_ty h) = true /\ x = (h_uni h, lt_res (h_ty h))) \/
     exists f, In f fields /\ lt_write f = true /\ x = (u, lt_res f)).
Proof.
  intros N. unfold c_from. destruct (c_move z fields s (map (fun _ => CNone) fields) old) as [s1 e] eqn:M.
  destruct e as [slots|c1| | |]; cbn [not_done]; try discriminate.
  - destruct (move_done z fields old _ _ _ _ M) as (A1 & A2 & A3 & d & A4 & A5 & A6).
    destruct (move_gone z fields old _ _ _ _ M) as [_ E2]. intros F. apply fill_unwound in F.
    2:{ unfold numbered in *. rewrite A4, E2. apply Forall_forall. intros x Hx. apply filter_In in Hx. rewrite Forall_forall in N. apply N. tauto. }
    destruct F as (B1 & B2 & B3 & B4 & B5). rewrite A3 in *. rewrite none_sl in A6. cbn [app] in B3, B5.
    split. { right. split; auto. destruct B2 as (f & Hf & Pf). exists f. rewrite A3 in Pf. auto. }
    split. { rewrite B3, A4, without_app. apply without_ext. apply ids_iff. intros x. rewrite in_app_iff. specialize (A6 x). cbn [In] in A6. tauto. }
    split; auto. intros x Hx. destruct (B5 x Hx) as [Hp|[(h & Hh & Hw)|Hf]]; auto. right. left. exists h. split; auto.
    specialize (A6 h). cbn [In] in A6. tauto.
  - intros H. inv H. apply move_unwound in M. rewrite none_sl, app_nil_r in M. destruct M as (A1 & A2 & A3 & A4 & A5).
    split; auto. split; auto. split; auto. intros x Hx. destruct (A5 x Hx) as [?|?]; auto.
Qed.
Lemma from_aborted z s u fields old s' : c_from z s u fields old = (s', Aborted) -> exists h, In h old /\ h_dirty h = true.
Proof.
  unfold c_from. destruct (c_move z fields s (map (fun _ => CNone) fields) old) as [s1 e] eqn:M.
  destruct e as [slots|c1| | |]; cbn [not_done]; try discriminate.
  - destruct (move_done z fields old _ _ _ _ M) as (A1 & A2 & A3 & d & A4 & A5 & A6). intros F. apply fill_aborted in F.
    destruct F as (h & Hh & D). exists h. split; auto. rewrite none_sl in A6. specialize (A6 h). cbn [app In] in *. tauto.
  - intros H. inv H. apply move_aborted in M. rewrite none_sl, app_nil_r in M. auto.
Qed.
Lemma from_returns s u fields old : numbered s -> no_collision fields old -> alive s old -> ~ In u (cw_gone s) -> clean old ->
  ~ some_poisoned s u fields -> (exists hs, snd (c_from true s u fields old) = Done hs) \/ snd (c_from true s u fields old) = Waits.
Proof.
  intros NB N L G C P. assert (U := from_no_ub s u fields old N L G).
  destruct (c_from true s u fields old) as [s' e] eqn:E. cbn [snd] in *. destruct e as [hs|c| | |]; eauto.
  - apply from_unwound in E; auto. destruct E as ([[_ (h & Hh & D)]|[_ E]] & _); [|elim P; auto]. rewrite C in D; auto. discriminate.
  - apply from_aborted in E. destruct E as (h & Hh & D). rewrite C in D; auto. discriminate.
  - elim U. auto.
Qed.

(** ** Names that collide *)
Lemma move_collides fields f h b i : position (lt_name (h_ty h)) fields = Some (i, f) -> lt_tid (h_ty h) <> lt_tid f ->
  forall a s slots, nth_error slots i = Some CNone -> clean (a ++ h :: b) -> clean (sl_locks slots) ->
  (forall x, In x a -> lt_name (h_ty x) <> lt_name (h_ty h)) ->
  snd (c_move true fields s slots (a ++ h :: b)) = Undefined.
Proof.
  intros P T. induction a as [|x a IH]; intros s slots S C CS D; cbn [app c_move].
  - rewrite P, S. cbn [negb]. destruct (Nat.eqb_spec (lt_tid (h_ty h)) (lt_tid f)); [congruence|]. cbn [negb orb].
    apply unwind_zero.
    + right. apply in_or_app. right. apply slot_zero. apply upd_zero_in. auto.
    + intros y Hy. cbn [th_locks flat_map app In] in Hy. destruct Hy as [<-|Hy]; [apply C; left; auto|].
      fold (th_locks (map TLock b ++ slot_things (upd slots i CZero))) in Hy. rewrite th_app, th_map, in_app_iff, slot_locks_in, sl_upd_zero in Hy by auto.
      destruct Hy as [Hy|Hy]; [apply C; right; auto|auto].
  - assert (C' : clean (a ++ h :: b)) by (intros y Hy; apply C; right; auto).
    assert (D' : forall y, In y a -> lt_name (h_ty y) <> lt_name (h_ty h)) by (intros y Hy; apply D; right; auto).
    rewrite (C x) by (left; auto). assert (G : forall s0, snd (if is_gone s x then (s, Undefined) else c_move true fields s0 slots (a ++ h :: b)) = Undefined).
    { intros s0. destruct (is_gone s x); auto. }
    destruct (position (lt_name (h_ty x)) fields) as [[j g]|] eqn:Px; [|apply G].
    destruct (nth_error slots j) as [[| |]|] eqn:Sj; try apply G. cbn [negb].
    destruct (_ || _).
    + apply unwind_zero.
      * right. apply in_or_app. right. apply slot_zero. apply upd_zero_in. auto.
      * intros y Hy. cbn [th_locks flat_map app In] in Hy. destruct Hy as [<-|Hy]; [apply C; left; auto|].
        fold (th_locks (map TLock (a ++ h :: b) ++ slot_things (upd slots j CZero))) in Hy.
        rewrite th_app, th_map, in_app_iff, slot_locks_in, sl_upd_zero in Hy by auto.
        destruct Hy as [Hy|Hy]; auto.
    + assert (Ne : j <> i).
      { intros ->. destruct (position_some _ _ _ _ P) as [E1 E2], (position_some _ _ _ _ Px) as [E3 E4].
        apply (D x); [left; auto|]. congruence. }
      apply IH; auto.
      * rewrite nth_error_upd_ne; auto.
      * intros y Hy. apply (sl_upd_none slots j x Sj) in Hy. destruct Hy as [->|Hy]; [apply C; left; auto|auto].
Qed.
Lemma position_nodup fields f : NoDup (map lt_name fields) -> In f fields -> exists i, position (lt_name f) fields = Some (i, f).
Proof.
  induction fields as [|g fields IH]; intros N I; [destruct I|]. cbn in N. inv N. cbn [position]. destruct I as [->|I].
  - rewrite Nat.eqb_refl. eauto.
  - destruct (Nat.eqb_spec (lt_name g) (lt_name f)) as [E|]; [elim H1; rewrite E; apply in_map; auto|].
    destruct (IH H2 I) as [i E]. rewrite E. eauto.
Qed.
Lemma from_collides s u fields a h b f : clean (a ++ h :: b) -> NoDup (map lt_name fields) -> In f fields ->
  lt_name f = lt_name (h_ty h) -> lt_tid f <> lt_tid (h_ty h) -> (forall x, In x a -> lt_name (h_ty x) <> lt_name f) ->
  snd (c_from true s u fields (a ++ h :: b)) = Undefined.
Proof.
  intros C N I E T D. unfold c_from. destruct (position_nodup fields f N I) as [i P].
  assert (M : snd (c_move true fields s (map (fun _ => CNone) fields) (a ++ h :: b)) = Undefined).
  { apply (move_collides fields f h b i); auto.
    - rewrite <- E. auto.
    - destruct (position_some _ _ _ _ P) as [Hi _]. rewrite nth_error_map, Hi. auto.
    - rewrite none_sl. intros ? [].
    - intros x Hx. rewrite <- E. auto. }
  destruct (c_move true fields s (map (fun _ => CNone) fields) (a ++ h :: b)) as [s1 e]. cbn [snd] in M. subst e. auto.
Qed.

(** ** Zeroed memory *)
Lemma move_zero fields hs : forall s slots, clean hs -> alive s hs -> length slots = length fields -> (forall c, In c slots -> c = CNone) ->
  (snd (c_move false fields s slots hs) = Undefined <-> exists h f, In h hs /\ In f fields /\ lt_name f = lt_name (h_ty h)) /\
  (snd (c_move false fields s slots hs) = Undefined \/ snd (c_move false fields s slots hs) = Done slots).
Proof.
  induction hs as [|h hs IH]; intros s slots C L LN SN.
  - cbn. split; [split; [discriminate|intros (h & f & [] & _)]|auto].
  - cbn [c_move]. rewrite (C h) by (left; auto). rewrite gone_false by (apply L; left; auto).
    destruct (position (lt_name (h_ty h)) fields) as [[i f]|] eqn:P.
    + destruct (position_some _ _ _ _ P) as [Hf Hn]. assert (S : nth_error slots i = Some CNone).
      { destruct (nth_error slots i) eqn:E; [f_equal; apply SN; eapply nth_error_In; eauto|]. apply nth_error_None in E.
        apply nth_error_Some_lt in Hf. lia. }
      rewrite S. cbn [negb snd]. split; auto. split; auto. intros _. exists h, f. split; [left; auto|]. split; auto. eapply nth_error_In; eauto.
    + assert (NP := position_none _ _ P). destruct (IH (c_release s false h) slots) as [A B]; auto.
      { intros x Hx. apply C. right; auto. }
      { intros x Hx. apply L. right; auto. }
      split; auto. rewrite A. split.
      * intros (x & f & Hx & Hf & E). exists x, f. split; [right|]; auto.
      * intros (x & f & [<-|Hx] & Hf & E); [elim NP; rewrite <- E; apply in_map; auto|]. exists x, f. auto.
Qed.
Lemma from_zero s u fields old : clean old -> alive s old -> ~ In u (cw_gone s) ->
  (snd (c_from false s u fields old) = Undefined <-> exists h f, In h old /\ In f fields /\ lt_name f = lt_name (h_ty h)).
Proof.
  intros C L G. destruct (move_zero fields old s (map (fun _ => CNone) fields) C L) as [A B].
  { apply map_length. } { intros c Hc. apply in_map_iff in Hc. destruct Hc as (? & ? & _). auto. }
  rewrite <- A. unfold c_from. destruct (c_move false fields s (map (fun _ => CNone) fields) old) as [s1 e] eqn:M. cbn [snd] in *.
  destruct e; cbn [not_done snd]; try (split; (discriminate || auto)).
  destruct B as [B|B]; [discriminate|]. inv B.
  destruct (move_gone false fields old _ _ _ _ M) as [E1 E2]. destruct (c_fill s1 u [] fields (map (fun _ => CNone) fields)) as [s2 e2] eqn:F.
  cbn [snd]. intros ->. exfalso. apply fill_no_ub in F; auto.
  - rewrite map_length. auto.
  - apply none_zero.
  - rewrite none_sl. intros ? [].
  - rewrite E1. auto.
Qed.

(** ** As Context.v *)
Definition emb_slot (u : nat) (s : slot) : cslot := match s with SNone => CNone | SZeroed => CZero | SSome g => CSome (in_uni u g) end.
Lemma filter_map_comm {A B} (f : A -> B) p (l : list A) : filter p (map f l) = map f (filter (fun x => p (f x)) l).
Proof. induction l as [|a l IH]; cbn; auto. destruct (p (f a)); cbn; f_equal; auto. Qed.
Lemma upd_map {A B} (f : A -> B) l i a : upd (map f l) i (f a) = map f (upd l i a).
Proof. revert i. induction l as [|x l IH]; intros [|i]; cbn; f_equal; auto. Qed.

Section Agree.
Variables (u : nat) (poison : list (nat * nat)) (gone : list nat).
Hypothesis LIVE : ~ In u gone.

Lemma release_agrees wd b g : b && lt_write (g_ty g) = false ->
  c_release (uni_world u poison gone wd) b (in_uni u g) =
  uni_world u poison gone (Wd (filter (fun h => negb (g_id h =? g_id g)) (wd_held wd)) (wd_next wd) (wd_trace wd ++ [LRelease g])).
Proof.
  intros E. unfold c_release, uni_world. cbn. rewrite E. f_equal. rewrite filter_map_comm. auto.
Qed.
Lemma move_agrees fields gs : forall wd slots wd' slots', fold_res (release_field fields) gs (wd, slots) = Ok (wd', slots') ->
  c_move true fields (uni_world u poison gone wd) (map (emb_slot u) slots) (map (in_uni u) gs) =
  (uni_world u poison gone wd', Done (map (emb_slot u) slots')).
Proof.
  induction gs as [|g gs IH]; intros wd slots wd' slots' H; cbn [fold_res] in H; [inv H; auto|].
  bindn H q H1. destruct q as [wd1 slots1]. cbn [map c_move].
  assert (GN : is_gone (uni_world u poison gone wd) (in_uni u g) = false) by (apply gone_false; exact LIVE). rewrite GN.
  change (h_ty (in_uni u g)) with (g_ty g). change (h_dirty (in_uni u g)) with (g_dirty g).
  assert (D : forall w, (let* w := drop_guard wd g in Ok (w, slots)) = Ok w ->
    w = (wd1, slots1) ->
    (if g_dirty g then c_unwind (c_release (uni_world u poison gone wd) true (in_uni u g)) PNotFlushed
        (map TLock (map (in_uni u) gs) ++ slot_things (map (emb_slot u) slots))
     else c_move true fields (c_release (uni_world u poison gone wd) false (in_uni u g)) (map (emb_slot u) slots) (map (in_uni u) gs)) =
    (uni_world u poison gone wd', Done (map (emb_slot u) slots'))).
  { intros w E1 E2. unfold drop_guard in E1. destruct (g_dirty g); [discriminate|]. cbn [bind] in E1. injection E1 as E1. rewrite <- E1 in E2. injection E2 as E2 E3. rewrite <- E2, <- E3 in H.
    rewrite release_agrees by auto. apply IH. auto. }
  unfold release_field, field_for in H1. cbn [fst snd] in H1.
  destruct (position (lt_name (g_ty g)) fields) as [[i f]|] eqn:P.
  - rewrite nth_error_map. destruct (nth_error slots i) as [[| |h]|] eqn:S; cbn [option_map emb_slot fst snd] in *; try (eapply D; eauto; fail).
    destruct (lt_tid (g_ty g) =? lt_tid f); [|discriminate]. destruct (lt_size f =? lt_size (g_ty g)); [|discriminate]. cbn [negb orb] in *.
    inv H1. rewrite upd_upd in H. change (CSome (in_uni u g)) with (emb_slot u (SSome g)). rewrite upd_map. apply IH. auto.
  - cbn [fst snd] in H1. eapply D; eauto.
Qed.
Lemma fill_agrees fields : (forall f, In f fields -> ~ In (u, lt_res f) poison) ->
  forall wd slots done wd' gs, fill wd fields slots = Ok (wd', gs) ->
  c_fill (uni_world u poison gone wd) u done fields (map (emb_slot u) slots) = (uni_world u poison gone wd', Done (done ++ map (in_uni u) gs)).
Proof.
  induction fields as [|f fields IH]; intros NP wd slots done wd' gs H; destruct slots as [|s slots]; cbn [fill] in H; try discriminate.
  - inv H. cbn. rewrite app_nil_r. auto.
  - assert (NP' : forall f, In f fields -> ~ In (u, lt_res f) poison) by (intros; apply NP; right; auto).
    bindn H p H1. bindn H q H2. inv H. destruct p as [wd1 g]. destruct q as [wd2 gs]. cbn [fst snd] in *.
    destruct s as [| |g0]; cbn [map emb_slot c_fill]; [|discriminate|].
    + unfold acquire in H1. destruct (existsb _ (wd_held wd)) eqn:E; [discriminate|]. inv H1.
      assert (E' : existsb (fun h => (h_uni h =? u) && conflict (h_ty h) f) (cw_held (uni_world u poison gone wd)) = false).
      { cbn [uni_world cw_held]. rewrite <- E. clear. induction (wd_held wd) as [|x l IH]; cbn; auto. rewrite Nat.eqb_refl. cbn. rewrite IH. auto. }
      rewrite E'. destruct (poisoned (uni_world u poison gone wd) u f) eqn:P; [apply poisoned_in in P; elim (NP f); [left|]; auto|].
      apply (IH NP' _ _ (done ++ [in_uni u (G (wd_next wd) f false)])) in H2. rewrite <- app_assoc in H2. cbn [app] in H2.
      rewrite <- H2. unfold uni_world. cbn. rewrite map_app. auto.
    + inv H1. apply (IH NP' _ _ (done ++ [in_uni u g])) in H2. rewrite <- app_assoc in H2. exact H2.
Qed.
Lemma fill_waits fields : (forall f, In f fields -> ~ In (u, lt_res f) poison) ->
  forall wd slots done, Forall2 typed fields slots -> fill wd fields slots = Err EDeadlock ->
  snd (c_fill (uni_world u poison gone wd) u done fields (map (emb_slot u) slots)) = Waits.
Proof.
  induction fields as [|f fields IH]; intros NP wd slots done T H; destruct slots as [|s slots]; cbn [fill] in H; try discriminate.
  assert (NP' : forall f, In f fields -> ~ In (u, lt_res f) poison) by (intros; apply NP; right; auto). inv T.
  destruct s as [| |g0]; cbn [map emb_slot c_fill]; [|elim H3|].
  - unfold acquire in H. destruct (existsb _ (wd_held wd)) eqn:E.
    + assert (E' : existsb (fun h => (h_uni h =? u) && conflict (h_ty h) f) (cw_held (uni_world u poison gone wd)) = true).
      { cbn [uni_world cw_held]. rewrite <- E. clear. induction (wd_held wd) as [|x l IH]; cbn; auto. rewrite Nat.eqb_refl. cbn. rewrite IH. auto. }
      rewrite E'. auto.
    + assert (E' : existsb (fun h => (h_uni h =? u) && conflict (h_ty h) f) (cw_held (uni_world u poison gone wd)) = false).
      { cbn [uni_world cw_held]. rewrite <- E. clear. induction (wd_held wd) as [|x l IH]; cbn; auto. rewrite Nat.eqb_refl. cbn. rewrite IH. auto. }
      rewrite E'. destruct (poisoned (uni_world u poison gone wd) u f) eqn:P; [apply poisoned_in in P; elim (NP f); [left|]; auto|].
      cbn [bind fst snd] in H.
      destruct (fill (Wd (wd_held wd ++ [G (wd_next wd) f false]) (S (wd_next wd)) (wd_trace wd ++ [LAcquire (G (wd_next wd) f false)])) fields slots) eqn:F; [discriminate|].
      cbn [bind] in H. inv H. apply (IH NP' _ _ (done ++ [in_uni u (G (wd_next wd) f false)])) in F; auto.
      rewrite <- F. unfold uni_world. cbn. rewrite map_app. auto.
  - cbn [bind fst snd] in H. destruct (fill wd fields slots) eqn:F; [discriminate|]. cbn [bind] in H. inv H. apply IH; auto.
Qed.
Lemma map_none fields : map (emb_slot u) (map (fun _ : lockty => SNone) fields) = map (fun _ => CNone) fields.
Proof. rewrite map_map. auto. Qed.
Lemma from_agrees wd fields o : (forall f, In f fields -> ~ In (u, lt_res f) poison) ->
  (forall wd' gs, ctx_from wd fields o = Ok (wd', gs) ->
     c_from true (uni_world u poison gone wd) u fields (map (in_uni u) (locks_of o)) = (uni_world u poison gone wd', Done (map (in_uni u) gs))).
Proof.
  intros NP wd' gs H. unfold ctx_from in H. rewrite release_flat in H. bindn H q H1. destruct q as [wd1 slots]. cbn [fst snd] in H.
  unfold c_from. rewrite <- map_none. apply move_agrees in H1. rewrite H1. apply (fill_agrees fields NP wd1 slots [] wd' gs) in H. exact H.
Qed.
Lemma from_agrees_waits wd fields o : (forall f, In f fields -> ~ In (u, lt_res f) poison) ->
  world_ok wd -> incl (locks_of o) (wd_held wd) -> NoDup (locks_of o) ->
  names_unique (fields ++ map g_ty (locks_of o)) -> Forall (fun g => g_dirty g = false) (locks_of o) ->
  ctx_from wd fields o = Err EDeadlock ->
  snd (c_from true (uni_world u poison gone wd) u fields (map (in_uni u) (locks_of o))) = Waits.
Proof.
  intros NP W I N NU CL H.
  destruct (release_all wd fields (locks_of o) [] wd (map (fun _ => SNone) fields) []) as (wd1 & slots & dropped & E & R); auto.
  { split; auto.
    - apply none_typed.
    - rewrite none_somes. auto.
    - cbn. symmetry. clear. induction (wd_held wd); cbn; f_equal; auto.
    - cbn. rewrite app_nil_r. auto.
    - intros g i f []. }
  unfold ctx_from in H. rewrite release_flat, E in H. cbn [bind fst snd] in H. unfold c_from. rewrite <- map_none.
  rewrite (move_agrees _ _ _ _ _ _ E). apply fill_waits; auto. destruct R; auto.
Qed.
End Agree.

(** ** Programs *)
Section Programs.
Variable L : list lockty.
Hypothesis NU : names_unique L.

Definition good_var (s : cworld) (x : cvar) : Prop :=
  ~ In (v_life x) (cw_gone s) /\ forall h, In h (v_locks x) -> h_uni h = v_life x /\ In (h_ty h) L.
Definition good_prog (p : cprog) : Prop := forall v x, nth_error (cp_vars p) v = Some (Some x) -> good_var (cp_w p) x.

Lemma c_from_gone z s u fields old s' e : c_from z s u fields old = (s', e) -> cw_gone s' = cw_gone s.
Proof.
  unfold c_from. destruct (c_move z fields s (map (fun _ => CNone) fields) old) as [s1 e1] eqn:M.
  destruct (move_gone z fields old _ _ _ _ M) as [E _]. destruct e1; intros H; try (inv H; auto; fail).
  apply fill_gone in H. congruence.
Qed.
Lemma c_from_uni s u fields old s' hs : c_from true s u fields old = (s', Done hs) ->
  forall h, In h hs -> In h old \/ (h_uni h = u /\ In (h_ty h) fields).
Proof.
  unfold c_from. destruct (c_move true fields s (map (fun _ => CNone) fields) old) as [s1 e] eqn:M. destruct e; cbn [not_done]; try discriminate.
  intros F h Hh. destruct (fill_uni _ _ _ _ _ _ _ F h Hh) as [I|I]; auto. left.
  destruct (move_done true fields old _ _ _ _ M) as (_ & _ & _ & d & _ & _ & A6). rewrite none_sl in A6. specialize (A6 h). cbn [app In] in *. tauto.
Qed.
Lemma keep_good s vars u e : good_prog (CP s vars) -> (forall hs, e = Done hs -> good_var s (CV u hs)) -> good_prog (fst (keep_ctx s vars u e)).
Proof.
  intros G H v x E. assert (A : cp_w (fst (keep_ctx s vars u e)) = s) by (destruct e; auto). rewrite A.
  destruct (Nat.lt_ge_cases v (length vars)) as [Lt|Ge].
  - apply (G v x). destruct e; cbn [keep_ctx fst cp_vars] in E; rewrite nth_error_app1 in E; auto.
  - destruct e; cbn [keep_ctx fst cp_vars] in E; rewrite nth_error_app2 in E by auto; destruct (v - length vars) as [|k]; cbn in E; try discriminate; try (destruct k; discriminate).
    inv E. apply H. auto.
Qed.
Lemma keep_end s vars u e : snd (keep_ctx s vars u e) = Undefined -> e = Undefined.
Proof. destruct e; cbn; try discriminate. auto. Qed.
Lemma take_sub vs : forall l v x, nth_error (fold_left (fun l v => upd l v (@None cvar)) vs l) v = Some (Some x) -> nth_error l v = Some (Some x).
Proof.
  induction vs as [|w vs IH]; intros l v x H; auto. cbn [fold_left] in H. apply IH in H. destruct (Nat.eq_dec v w) as [->|Ne].
  - destruct (nth_error l w) eqn:E.
    + rewrite nth_error_upd_eq in H by (eapply nth_error_Some_lt; eauto). discriminate.
    + apply nth_error_None in E. assert (Z : nth_error (upd l w None) w = None) by (apply nth_error_None; rewrite upd_length; auto). congruence.
  - rewrite nth_error_upd_ne in H; auto.
Qed.
Lemma var_locks_good p v h : good_prog p -> In h (var_locks p v) ->
  exists x, nth_error (cp_vars p) v = Some (Some x) /\ h_uni h = v_life x /\ ~ In (v_life x) (cw_gone (cp_w p)) /\ In (h_ty h) L.
Proof.
  intros G H. unfold var_locks in H. destruct (nth_error (cp_vars p) v) as [[x|]|] eqn:E; try destruct H as []; [|destruct H..].
  all: try (destruct (G v x E) as [A B]; destruct (B h) as [B1 B2]; auto; exists x; auto; fail).
  all: try contradiction.
Qed.
Lemma step_good p o : good_prog p -> compiles p o = true -> incl (op_fields o) L -> from_same p o ->
  good_prog (fst (c_step true p o)) /\ snd (c_step true p o) <> Undefined.
Proof.
  intros G C I S. destruct o as [u fields|u fields vs|v k|v k b|v|u]; cbn [c_step compiles op_fields from_same] in *.
  - apply negb_true_iff, mem_nIn in C. unfold c_new. destruct (c_fill (cp_w p) u [] fields (map (fun _ => CNone) fields)) as [s' e] eqn:F. cbn [fst snd].
    assert (E := fill_gone _ _ _ _ _ _ _ F). split.
    + apply keep_good.
      * intros v x H. destruct (G v x H) as [A B]. split; [cbn; congruence|auto].
      * intros hs ->. split; [cbn; congruence|]. intros h Hh. destruct (fill_uni _ _ _ _ _ _ _ F h Hh) as [J|[J1 J2]]; [rewrite none_sl in J; destruct J|].
        cbn. split; auto.
    + intros K. apply keep_end in K. subst e. apply fill_no_ub in F; auto.
      * rewrite map_length. auto.
      * apply none_zero.
      * rewrite none_sl. intros ? [].
  - apply andb_true_iff in C. destruct C as [C _]. apply andb_true_iff in C. destruct C as [C _]. apply negb_true_iff, mem_nIn in C.
    destruct (c_from true (cp_w p) u fields (flat_map (var_locks p) vs)) as [s' e] eqn:F. cbn [fst snd].
    assert (E := c_from_gone _ _ _ _ _ _ _ F).
    assert (OLD : forall h, In h (flat_map (var_locks p) vs) -> h_uni h = u /\ ~ In (h_uni h) (cw_gone (cp_w p)) /\ In (h_ty h) L).
    { intros h Hh. apply in_flat_map in Hh. destruct Hh as (v & Hv & Hh). destruct (var_locks_good _ _ _ G Hh) as (x & A1 & A2 & A3 & A4).
      rewrite <- (S v x Hv A1). rewrite <- A2 in *. auto. }
    split.
    + apply keep_good.
      * intros v x H. apply take_sub in H. destruct (G v x H) as [A B]. split; [cbn; congruence|auto].
      * intros hs ->. split; [cbn; congruence|]. intros h Hh. destruct (c_from_uni _ _ _ _ _ _ F h Hh) as [J|[J1 J2]].
        -- destruct (OLD h J) as (B1 & _ & B2). cbn. auto.
        -- cbn. auto.
    + intros K. apply keep_end in K. subst e. assert (N := from_no_ub (cp_w p) u fields (flat_map (var_locks p) vs)). rewrite F in N. apply N; auto.
      * intros f h Hf Hh. apply NU; auto. apply (OLD h Hh).
      * intros h Hh. apply (OLD h Hh).
  - split; [exact G|]. cbn [snd]. destruct (nth_error (cp_vars p) v) as [[x|]|] eqn:E; try discriminate. apply Nat.ltb_lt in C.
    unfold var_locks. rewrite E. destruct (nth_error (v_locks x) k) as [h|] eqn:K; [|apply nth_error_None in K; lia].
    destruct (G v x E) as [A B]. destruct (B h) as [B1 _]; [eapply nth_error_In; eauto|]. rewrite gone_false by congruence. discriminate.
  - destruct (nth_error (cp_vars p) v) as [[x|]|] eqn:E; try discriminate. apply Nat.ltb_lt in C.
    destruct (nth_error (v_locks x) k) as [h|] eqn:K; [|apply nth_error_None in K; lia].
    destruct (G v x E) as [A B]. destruct (B h) as [B1 B2]; [eapply nth_error_In; eauto|]. rewrite gone_false by congruence. cbn [fst snd].
    split; [|discriminate]. intros w y H. cbn [cp_vars cp_w] in *. destruct (Nat.eq_dec w v) as [->|Ne].
    + rewrite nth_error_upd_eq in H by (eapply nth_error_Some_lt; eauto). inv H. split; auto. cbn [v_locks v_life]. intros g Hg.
      apply upd_in in Hg. destruct Hg as [->|Hg]; auto.
    + rewrite nth_error_upd_ne in H by auto. apply (G w y H).
  - destruct (c_move true [] (cp_w p) [] (var_locks p v)) as [s' e] eqn:M. cbn [fst snd].
    destruct (move_gone _ _ _ _ _ _ _ M) as [E _]. split.
    + intros w x H. cbn [cp_vars cp_w] in *. unfold take_vars in H. apply take_sub in H. destruct (G w x H) as [A B]. split; auto. congruence.
    + assert (N := move_no_ub true [] _ _ _ _ _ M eq_refl). destruct e; cbn; try discriminate. intros _. apply N; auto.
      * intros f h [].
      * intros h Hh. cbn in Hh. rewrite app_nil_r in Hh. destruct (var_locks_good _ _ _ G Hh) as (x & A1 & A2 & A3 & A4). congruence.
      * intros [].
  - cbn [fst snd]. split; [|discriminate]. apply andb_true_iff in C. destruct C as [_ C]. rewrite forallb_forall in C.
    intros v x H. cbn [cp_vars cp_w] in *. destruct (G v x H) as [A B]. split; auto. cbn [cw_gone In]. intros [Eq|I'].
    + specialize (C (Some x) (nth_error_In _ _ H)). cbn in C. rewrite <- Eq, Nat.eqb_refl in C. discriminate.
    + auto.
Qed.
Lemma run_good os : forall p p' e, good_prog p -> incl (flat_map op_fields os) L -> same_universe p os -> c_run true p os = Some (p', e) -> e <> Undefined.
Proof.
  induction os as [|o os IH]; intros p p' e G I S H; cbn [c_run] in H; [inv H; discriminate|].
  destruct (compiles p o) eqn:C; [|discriminate]. destruct S as [S1 S2].
  destruct (step_good p o G C) as [G1 N]; auto. { intros x Hx. apply I. cbn. apply in_or_app. auto. }
  assert (I' : incl (flat_map op_fields os) L) by (intros x Hx; apply I; cbn; apply in_or_app; auto).
  destruct (c_step true p o) as [p1 e1]. cbn [fst snd] in *. destruct e1; try (inv H; auto; fail); try (eapply IH; eauto; fail).
Qed.
End Programs.
Lemma run_safe os p e : names_unique (flat_map op_fields os) -> same_universe start os -> c_run true start os = Some (p, e) -> e <> Undefined.
Proof.
  intros NU S H. eapply (run_good _ NU os start); eauto; [|apply incl_refl].
  intros v x E. destruct v; discriminate.
Qed.
