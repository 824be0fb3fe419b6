(** Facts about contexts. *)
From Coq Require Import List Arith Bool Lia Sorting.Permutation.
From Verif Require Import Base BaseFacts Context ContextSpec.
Import ListNotations.

(** ** Lists without conflicts *)
Definition free (l : list lockty) : Prop := ForallOrdPairs (fun a b => conflict a b = false) l.
Definition apart (l m : list lockty) : Prop := forall a b, In a l -> In b m -> conflict a b = false.

Lemma conflict_sym a b : conflict a b = conflict b a.
Proof. unfold conflict. rewrite Nat.eqb_sym, orb_comm. auto. Qed.
Lemma free_cons a l : free (a :: l) <-> (forall b, In b l -> conflict a b = false) /\ free l.
Proof. unfold free. split; [intros H; inv H; split; auto; apply Forall_forall; auto|intros [H1 H2]; constructor; auto; apply Forall_forall; auto]. Qed.
Lemma free_app l m : free (l ++ m) <-> free l /\ free m /\ apart l m.
Proof.
  induction l as [|a l IH]; cbn [app].
  - split; [intros H; repeat split; auto; try constructor; intros ? ? []|tauto].
  - rewrite !free_cons, IH. unfold apart. split.
    + intros (A & B & C & D). repeat split; auto.
      * intros b Hb. apply A. apply in_or_app. auto.
      * intros x y [<-|Hx] Hy; auto. apply A. apply in_or_app. auto.
    + intros ((A & B) & C & D). repeat split; auto.
      * intros b Hb. apply in_app_or in Hb. destruct Hb; auto. apply D; auto. left; auto.
      * intros x y Hx Hy. apply D; auto. right; auto.
Qed.
Lemma free_perm l m : Permutation l m -> free l -> free m.
Proof.
  induction 1; intros F; auto.
  - apply free_cons in F. destruct F as [A B]. apply free_cons. split; auto. intros b Hb. apply A.
    eapply Permutation_in; [apply Permutation_sym; eauto|auto].
  - apply free_cons in F. destruct F as [A B]. apply free_cons in B. destruct B as [B C].
    apply free_cons. split; [|apply free_cons; split; auto].
    + intros b [<-|Hb]; auto. rewrite conflict_sym. apply A. left; auto.
    + intros b Hb. apply A. right; auto.
Qed.
Lemma apart_perm l l' m m' : Permutation l l' -> Permutation m m' -> apart l m -> apart l' m'.
Proof.
  intros P Q A a b Ha Hb. apply A.
  - eapply Permutation_in; [apply Permutation_sym; eauto|auto].
  - eapply Permutation_in; [apply Permutation_sym; eauto|auto].
Qed.
Lemma apart_app_l l m n : apart (l ++ m) n <-> apart l n /\ apart m n.
Proof. unfold apart. split; [intros H; split; intros; apply H; auto; apply in_or_app; auto|intros [A B] a b Ha Hb; apply in_app_or in Ha; destruct Ha; auto]. Qed.
Lemma apart_app_r l m n : apart l (m ++ n) <-> apart l m /\ apart l n.
Proof. unfold apart. split; [intros H; split; intros; apply H; auto; apply in_or_app; auto|intros [A B] a b Ha Hb; apply in_app_or in Hb; destruct Hb; auto]. Qed.
Lemma apart_sym l m : apart l m -> apart m l.
Proof. intros A a b Ha Hb. rewrite conflict_sym. auto. Qed.

Definition tys (gs : list guard) := map g_ty gs.
Lemma acquire_ok wd l : (existsb (fun g => conflict (g_ty g) l) (wd_held wd) = false) <-> apart (tys (wd_held wd)) [l].
Proof.
  split.
  - intros E a b Ha [<-|[]]. unfold tys in Ha. apply in_map_iff in Ha. destruct Ha as (g & <- & Hg).
    destruct (conflict (g_ty g) l) eqn:C; auto. rewrite <- E. symmetry. apply existsb_exists. eauto.
  - intros A. destruct (existsb _ _) eqn:E; auto. apply existsb_exists in E. destruct E as (g & Hg & C).
    rewrite (A (g_ty g) l) in C; auto; [|left; auto]. apply in_map. auto.
Qed.

(** ** Filling the slots that are empty *)
Fixpoint missing (fields : list lockty) (slots : list slot) : list lockty :=
  match fields, slots with
  | f :: fields, SNone :: slots => f :: missing fields slots
  | _ :: fields, _ :: slots => missing fields slots
  | _, _ => []
  end.
Fixpoint somes (slots : list slot) : list guard :=
  match slots with [] => [] | SSome g :: s => g :: somes s | _ :: s => somes s end.
Definition typed (f : lockty) (s : slot) : Prop := match s with SNone => True | SZeroed => False | SSome g => g_ty g = f end.

Lemma missing_perm fields slots : Forall2 typed fields slots -> Permutation fields (missing fields slots ++ tys (somes slots)).
Proof.
  induction 1 as [|f s fields slots T F IH]; [constructor|]. destruct s as [| |g]; cbn [missing somes tys map app]; [|destruct T|].
  - constructor. auto.
  - cbn in T. subst f. apply Permutation_cons_app. auto.
Qed.

Lemma fill_step wd fields slots : Forall2 typed fields slots ->
  (forall wd' gs, fill wd fields slots = Ok (wd', gs) ->
     exists fresh, map g_ty gs = fields /\ tys fresh = missing fields slots /\ Permutation gs (somes slots ++ fresh) /\
       map g_id fresh = seq (wd_next wd) (length fresh) /\
       wd_held wd' = wd_held wd ++ fresh /\ wd_trace wd' = wd_trace wd ++ map LAcquire fresh /\ wd_next wd' = wd_next wd + length fresh) /\
  ((exists r, fill wd fields slots = Ok r) <-> apart (tys (wd_held wd)) (missing fields slots) /\ free (missing fields slots)) /\
  (forall e, fill wd fields slots = Err e -> e = EDeadlock).
Proof.
  intros F. revert wd. induction F as [|f s fields slots T F IH]; intros wd.
  - cbn [fill]. split; [|split].
    + intros wd' gs H. inv H. exists []. cbn. rewrite !app_nil_r. rewrite Nat.add_0_r. repeat (split; [solve [auto]|]). auto.
    + split; [intros _; split; [intros ? ? ? []|constructor]|eauto].
    + discriminate.
  - destruct s as [| |g]; [|destruct T|].
    + cbn [fill missing somes]. unfold acquire. destruct (existsb _ _) eqn:E.
      * split; [discriminate|]. split.
        -- split; [intros [r H]; discriminate|]. intros [A _].
           assert (B : existsb (fun g => conflict (g_ty g) f) (wd_held wd) = false).
           { apply acquire_ok. intros a b Ha Hb. apply A; auto. destruct Hb as [<-|[]]. left; auto. }
           congruence.
        -- cbn. intros e [= <-]. auto.
      * cbn [bind fst snd]. set (g := G (wd_next wd) f false). set (wd1 := Wd _ _ _).
        destruct (IH wd1) as (P & Q & R). split; [|split].
        -- intros wd' gs H. bindn H q H1. inv H. destruct q as [wd' gs]. cbn [fst snd].
           destruct (P _ _ H1) as (fresh & A & B & C & D & E1 & E2 & E3). exists (g :: fresh).
           split; [cbn; f_equal; auto|]. split; [cbn; f_equal; auto|].
           split; [apply Permutation_cons_app; auto|]. split; [cbn; f_equal; auto|].
           split; [rewrite E1; cbn [wd1 wd_held]; rewrite <- app_assoc; auto|].
           split; [rewrite E2; cbn [wd1 wd_trace]; rewrite <- app_assoc; auto|].
           rewrite E3. cbn. lia.
        -- assert (Z : (exists r, fill wd1 fields slots = Ok r) <->
             exists r, (let* q := fill wd1 fields slots in Ok (fst q, g :: snd q)) = Ok r).
           { split; intros [r H]; [rewrite H; cbn; eauto|]. bindn H q H1. eauto. }
           rewrite <- Z, Q. cbn [wd1 wd_held]. unfold tys. rewrite map_app. fold (tys (wd_held wd)). cbn [map g_ty g].
           rewrite apart_app_l, free_cons. apply acquire_ok in E. split.
           ++ intros ((A & B) & C). split.
              { intros a b Ha [<-|Hb]; auto. apply E; auto. left; auto. }
              split; auto. intros b Hb. apply B; auto. left; auto.
           ++ intros (A & B & C). split; auto. split.
              { intros a b Ha Hb. apply A; auto. right; auto. }
              intros a b [<-|[]] Hb. auto.
        -- intros e H. destruct (fill wd1 fields slots) eqn:E1; [discriminate|]. cbn in H. inv H. auto.
    + cbn in T. cbn [fill missing somes bind fst snd]. destruct (IH wd) as (P & Q & R). split; [|split].
      * intros wd' gs H. bindn H q H1. inv H. destruct q as [wd' gs]. cbn [fst snd].
        destruct (P _ _ H1) as (fresh & A & B & C & D & E1 & E2 & E3). exists fresh.
        split; [cbn; f_equal; auto|]. split; auto. split; [cbn; constructor; auto|]. repeat (split; [solve [auto]|]). auto.
      * rewrite <- Q. split; intros [r H]; [bindn H q H1; eauto|rewrite H; cbn; eauto].
      * intros e H. destruct (fill wd fields slots) eqn:E1; [discriminate|]. cbn in H. inv H. auto.
Qed.
Lemma ctx_new_fill wd fields : ctx_new wd fields = fill wd fields (map (fun _ => SNone) fields).
Proof.
  revert wd. induction fields as [|f fields IH]; intros wd; cbn [ctx_new fill map]; auto.
  destruct (acquire wd f); cbn [bind]; auto. rewrite IH. auto.
Qed.
Lemma none_typed fields : Forall2 typed fields (map (fun _ : lockty => SNone) fields).
Proof. induction fields; constructor; cbn; auto. Qed.
Lemma none_missing fields : missing fields (map (fun _ : lockty => SNone) fields) = fields.
Proof. induction fields; cbn; f_equal; auto. Qed.
Lemma none_somes (fields : list lockty) : somes (map (fun _ : lockty => SNone) fields) = [].
Proof. induction fields; cbn; auto. Qed.

(** ** Releasing the old context *)
Lemma release_flat fields o : forall s, release_fields fields o s = fold_res (release_field fields) (locks_of o) s.
Proof.
  induction o; intros s; cbn [release_fields locks_of]; auto.
  - rewrite fold_res_app. rewrite IHo1. destruct (fold_res _ (locks_of o1) s); cbn [bind]; auto.
  - rewrite !fold_res_app. rewrite IHo1. destruct (fold_res _ (locks_of o1) s) as [s1|]; cbn [bind]; auto.
    rewrite fold_res_app, IHo2. destruct (fold_res _ (locks_of o2) s1); cbn [bind]; auto.
Qed.
Lemma position_some n fields i f : position n fields = Some (i, f) -> nth_error fields i = Some f /\ lt_name f = n.
Proof.
  revert i f. induction fields as [|g fields IH]; intros i f; cbn [position]; [discriminate|].
  destruct (Nat.eqb_spec (lt_name g) n).
  - intros [= <- <-]. auto.
  - destruct (position n fields) as [[j h]|]; [|discriminate]. intros [= <- <-]. cbn. auto.
Qed.
Lemma position_none n fields : position n fields = None -> ~ In n (map lt_name fields).
Proof.
  induction fields as [|g fields IH]; cbn [position]; [intros _ []|]. destruct (Nat.eqb_spec (lt_name g) n); [discriminate|].
  destruct (position n fields) as [[j h]|]; [discriminate|]. intros _ [E|I]; [auto|]. apply IH; auto.
Qed.
Lemma somes_upd slots i g : nth_error slots i = Some SNone -> Permutation (somes (upd slots i (SSome g))) (g :: somes slots).
Proof.
  revert i. induction slots as [|s slots IH]; intros [|i] H; try discriminate; cbn [upd].
  - inv H. cbn. auto.
  - cbn in H. destruct s as [| |h]; cbn [somes]; auto. eapply perm_trans; [apply perm_skip; apply IH; auto|apply perm_swap].
Qed.
Lemma upd_upd {A} (l : list A) i a b : upd (upd l i a) i b = upd l i b.
Proof. revert i. induction l as [|x l IH]; intros [|i]; cbn; auto. f_equal. auto. Qed.
Lemma typed_upd fields slots i f s : Forall2 typed fields slots -> nth_error fields i = Some f -> typed f s -> Forall2 typed fields (upd slots i s).
Proof.
  intros F. revert i. induction F as [|f0 s0 fields slots T F IH]; intros [|i] H Ts; cbn [upd]; try discriminate.
  - inv H. constructor; auto.
  - constructor; auto.
Qed.

Section From.
Variables (wd0 : world) (fields : list lockty).

Record released (done : list guard) (wd : world) (slots : list slot) (dropped : list guard) : Prop := {
  r_typed : Forall2 typed fields slots;
  r_split : Permutation (somes slots ++ dropped) done;
  r_held : wd_held wd = filter (fun h => negb (mem (g_id h) (map g_id dropped))) (wd_held wd0);
  r_next : wd_next wd = wd_next wd0;
  r_trace : wd_trace wd = wd_trace wd0 ++ map LRelease dropped;
  r_kept : forall g i f, In g done -> position (lt_name (g_ty g)) fields = Some (i, f) ->
      exists h, nth_error slots i = Some (SSome h)
}.

Lemma filter_twice {A} (f g : A -> bool) l : filter f (filter g l) = filter (fun x => g x && f x) l.
Proof. induction l as [|x l IH]; cbn; auto. destruct (g x); cbn; auto. destruct (f x); rewrite IH; auto. Qed.

Lemma release_step done wd slots dropped g : released done wd slots dropped ->
  names_unique (fields ++ [g_ty g]) -> g_dirty g = false ->
  exists wd' slots' dropped', release_field fields (wd, slots) g = Ok (wd', slots') /\ released (done ++ [g]) wd' slots' dropped'.
Proof.
  intros [R1 R2 R3 R4 R5 R6] U D. unfold release_field, field_for. cbn [fst snd].
  assert (DR : drop_guard wd g = Ok (Wd (filter (fun h => negb (g_id h =? g_id g)) (wd_held wd)) (wd_next wd) (wd_trace wd ++ [LRelease g]))).
  { unfold drop_guard. rewrite D. auto. }
  assert (DROP : (forall i f, position (lt_name (g_ty g)) fields = Some (i, f) -> exists h, nth_error slots i = Some (SSome h)) ->
    released (done ++ [g]) (Wd (filter (fun h => negb (g_id h =? g_id g)) (wd_held wd)) (wd_next wd) (wd_trace wd ++ [LRelease g])) slots (dropped ++ [g])).
  { intros N. split; auto.
    - rewrite app_assoc. apply Permutation_app_tail. auto.
    - cbn [wd_held]. rewrite R3, filter_twice. apply filter_ext. intros h. rewrite <- negb_orb. f_equal.
      rewrite map_app. unfold mem. rewrite existsb_app. cbn [map existsb]. rewrite orb_false_r. f_equal.
    - cbn [wd_trace]. rewrite R5, map_app, app_assoc. auto.
    - intros h i f Hh Hp. apply in_app_or in Hh. destruct Hh as [Hh|[<-|[]]]; eauto. }
  destruct (position (lt_name (g_ty g)) fields) as [[i f]|] eqn:P.
  - destruct (position_some _ _ _ _ P) as [Hf Hn]. assert (Hs : exists s, nth_error slots i = Some s /\ typed f s).
    { clear - R1 Hf. revert i Hf. induction R1 as [|f0 s0 fs ss T F IH]; intros [|i] E; try discriminate; cbn in *; eauto. inv E. eauto. }
    destruct Hs as (s & Hs & Ts). rewrite Hs. destruct s as [| |h]; [|destruct Ts|].
    + assert (Ef : f = g_ty g).
      { apply U; auto; apply in_or_app; [left; eapply nth_error_In; eauto|right; left; auto]. }
      subst f. cbn [fst snd]. rewrite !Nat.eqb_refl. cbn [negb]. rewrite upd_upd.
      exists wd, (upd slots i (SSome g)), dropped. split; auto. split; auto.
      * eapply typed_upd; eauto. cbn. auto.
      * eapply perm_trans; [apply Permutation_app_tail; apply somes_upd; auto|]. cbn [app].
        eapply perm_trans; [apply perm_skip; exact R2|]. apply Permutation_cons_append.
      * intros h j f Hh Hp. apply in_app_or in Hh. destruct (Nat.eq_dec j i) as [->|Ne].
        -- rewrite nth_error_upd_eq; eauto. eapply nth_error_Some_lt; eauto.
        -- rewrite nth_error_upd_ne by auto. destruct Hh as [Hh|[<-|[]]]; eauto. rewrite P in Hp. inv Hp. congruence.
    + cbn [fst snd]. rewrite DR. cbn [bind]. eexists _, _, _. split; eauto. apply DROP. intros j f' E. inv E. eauto.
  - cbn [fst snd]. rewrite DR. cbn [bind]. eexists _, _, _. split; eauto. apply DROP. discriminate.
Qed.
Lemma release_all gs : forall done wd slots dropped, released done wd slots dropped ->
  names_unique (fields ++ tys gs) -> Forall (fun g => g_dirty g = false) gs ->
  exists wd' slots' dropped', fold_res (release_field fields) gs (wd, slots) = Ok (wd', slots') /\ released (done ++ gs) wd' slots' dropped'.
Proof.
  induction gs as [|g gs IH]; intros done wd slots dropped R U D; cbn [fold_res].
  - rewrite app_nil_r. eexists _, _, _. split; eauto.
  - inv D. destruct (release_step _ _ _ _ g R) as (wd1 & s1 & d1 & E & R1); auto.
    { intros a b Ha Hb. apply U; apply in_or_app; [apply in_app_or in Ha; destruct Ha as [|[<-|[]]]; auto; right; left; auto|apply in_app_or in Hb; destruct Hb as [|[<-|[]]]; auto; right; left; auto]. }
    rewrite E. cbn [bind]. destruct (IH _ _ _ _ R1) as (wd' & s' & d' & E' & R'); auto.
    { intros a b Ha Hb. apply U; apply in_or_app; [apply in_app_or in Ha; destruct Ha; auto; right; right; auto|apply in_app_or in Hb; destruct Hb; auto; right; right; auto]. }
    rewrite <- app_assoc in R'. eexists _, _, _. split; eauto.
Qed.
End From.

Lemma nodup_both {A} (l m : list A) : NoDup l -> NoDup m -> (forall x, In x l -> In x m -> False) -> NoDup (l ++ m).
Proof.
  intros L M D. induction L as [|x l N L IH]; cbn; auto. constructor.
  - rewrite in_app_iff. intros [H|H]; [auto|]. apply (D x); [left|]; auto.
  - apply IH. intros y Hy. apply D. right; auto.
Qed.
Lemma nodup_parts {A} (l m : list A) : NoDup (l ++ m) -> NoDup l /\ NoDup m.
Proof.
  induction l as [|x l IH]; cbn; intros H; [split; [constructor|auto]|]. inv H. destruct (IH H3) as [P Q]. split; auto.
  constructor; auto. intros I. apply H2. apply in_or_app. auto.
Qed.
Lemma filter_perm_split (gs held : list guard) : NoDup (map g_id held) -> NoDup gs -> incl gs held ->
  Permutation held (filter (fun h => negb (mem (g_id h) (map g_id gs))) held ++ gs).
Proof.
  intros N Ng I. apply NoDup_Permutation.
  - apply NoDup_map_inv in N. auto.
  - apply nodup_both; auto. { apply NoDup_filter. apply NoDup_map_inv in N. auto. }
    intros x Hx Hg. apply filter_In in Hx. destruct Hx as [_ Hx]. apply negb_true_iff in Hx.
    apply mem_nIn in Hx. apply Hx. apply in_map. auto.
  - intros x. rewrite in_app_iff, filter_In. split.
    + intros Hx. destruct (mem (g_id x) (map g_id gs)) eqn:E; [right|left; auto].
      apply mem_In in E. apply in_map_iff in E. destruct E as (y & Ey & Hy).
      assert (x = y); [|subst; auto]. specialize (I y Hy). clear - N Ey I Hx.
      induction held as [|z held IH]; [destruct Hx|]. cbn in N. apply NoDup_cons_iff in N. destruct N as [N1 N2].
      destruct Hx as [->|Hx], I as [->|I]; auto.
      * elim N1. rewrite <- Ey. apply in_map. auto.
      * elim N1. rewrite Ey. apply in_map. auto.
    + intros [[H _]|H]; auto.
Qed.

Lemma tys_app a b : tys (a ++ b) = tys a ++ tys b.
Proof. apply map_app. Qed.
Lemma free_tys gs : ForallOrdPairs (fun g h => conflict (g_ty g) (g_ty h) = false) gs <-> free (tys gs).
Proof.
  unfold free, tys. split.
  - induction 1; cbn; constructor; auto. rewrite Forall_map. auto.
  - induction gs as [|g gs IH]; cbn; intros H; inv H; constructor; auto. rewrite Forall_map in H2. auto.
Qed.
Lemma map_id_nodup (l : list guard) : NoDup (map g_id l) -> NoDup l.
Proof. apply NoDup_map_inv. Qed.

Section Whole.
Variables (wd : world) (fields : list lockty) (o : old_ctx).
Hypothesis OK : world_ok wd.
Hypothesis IN : incl (locks_of o) (wd_held wd).
Hypothesis ND : NoDup (locks_of o).
Hypothesis NU : names_unique (fields ++ map g_ty (locks_of o)).
Hypothesis CL : Forall (fun g => g_dirty g = false) (locks_of o).

Lemma from_split : exists wd1 slots dropped,
  ctx_from wd fields o = fill wd1 fields slots /\ released wd fields (locks_of o) wd1 slots dropped /\
  NoDup (somes slots) /\ NoDup dropped /\ incl dropped (wd_held wd) /\ incl (somes slots) (wd_held wd) /\
  Permutation (wd_held wd1) (wd_held (world_without wd (locks_of o)) ++ somes slots) /\
  Permutation (wd_held wd) (wd_held (world_without wd (locks_of o)) ++ locks_of o).
Proof.
  destruct OK as (O1 & O2 & O3).
  destruct (release_all wd fields (locks_of o) [] wd (map (fun _ => SNone) fields) []) as (wd1 & slots & dropped & E & R); auto.
  { split; auto.
    - apply none_typed.
    - rewrite none_somes. auto.
    - cbn. symmetry. clear. induction (wd_held wd); cbn; f_equal; auto.
    - cbn. rewrite app_nil_r. auto.
    - intros g i f []. }
  cbn [app] in R. exists wd1, slots, dropped. unfold ctx_from. rewrite release_flat, E. cbn [bind fst snd].
  destruct R as [R1 R2 R3 R4 R5 R6].
  assert (NB : NoDup (somes slots ++ dropped)) by (eapply Permutation_NoDup; [apply Permutation_sym; eauto|auto]).
  destruct (nodup_parts _ _ NB) as [N1 N2].
  assert (I1 : incl dropped (wd_held wd)) by (intros x Hx; apply IN; eapply Permutation_in; [exact R2|apply in_or_app; auto]).
  assert (I2 : incl (somes slots) (wd_held wd)) by (intros x Hx; apply IN; eapply Permutation_in; [exact R2|apply in_or_app; auto]).
  assert (P0 := filter_perm_split (locks_of o) (wd_held wd) O1 ND IN).
  assert (P1 := filter_perm_split dropped (wd_held wd) O1 N2 I1). rewrite <- R3 in P1.
  split; auto. split; [split; auto|]. split; auto. split; auto. split; auto. split; auto. split; [|exact P0].
  apply (Permutation_app_inv_r dropped). eapply perm_trans; [apply Permutation_sym; exact P1|]. eapply perm_trans; [exact P0|].
  rewrite <- app_assoc. cbn [world_without wd_held]. apply Permutation_app_head. apply Permutation_sym. exact R2.
Qed.

Lemma from_possible : (exists r, ctx_from wd fields o = Ok r) <-> (exists r, ctx_new (world_without wd (locks_of o)) fields = Ok r).
Proof.
  destruct from_split as (wd1 & slots & dropped & E & R & N1 & N2 & I1 & I2 & P1 & P0). destruct R as [R1 R2 R3 R4 R5 R6].
  rewrite E, ctx_new_fill.
  destruct (fill_step wd1 fields slots R1) as (_ & Q & _). rewrite Q.
  destruct (fill_step (world_without wd (locks_of o)) fields _ (none_typed fields)) as (_ & Q' & _). rewrite Q', none_missing.
  assert (PF := missing_perm _ _ R1). destruct OK as (_ & _ & O3). apply free_tys in O3.
  set (others := wd_held (world_without wd (locks_of o))) in *.
  assert (F1 : free (tys (others ++ somes slots))).
  { assert (G : free (tys (others ++ (somes slots ++ dropped)))).
    { eapply free_perm; [|exact O3]. unfold tys. apply Permutation_map. eapply perm_trans; [exact P0|].
      apply Permutation_app_head. apply Permutation_sym. auto. }
    rewrite app_assoc, tys_app in G. apply free_app in G. tauto. }
  rewrite tys_app in F1. apply free_app in F1. destruct F1 as (F1 & F2 & F3).
  assert (PT : Permutation (tys (wd_held wd1)) (tys others ++ tys (somes slots))).
  { rewrite <- tys_app. apply Permutation_map. auto. }
  split; intros [A B].
  - assert (A' : apart (tys others ++ tys (somes slots)) (missing fields slots)) by (eapply apart_perm; [exact PT|apply Permutation_refl|auto]).
    apply apart_app_l in A'. destruct A' as [A1 A2]. split.
    + eapply apart_perm; [apply Permutation_refl|apply Permutation_sym; exact PF|]. apply apart_app_r. auto.
    + eapply free_perm; [apply Permutation_sym; exact PF|]. apply free_app. split; auto. split; auto. apply apart_sym. auto.
  - assert (A' : apart (tys others) (missing fields slots ++ tys (somes slots))) by (eapply apart_perm; [apply Permutation_refl|exact PF|auto]).
    assert (B' : free (missing fields slots ++ tys (somes slots))) by (eapply free_perm; [exact PF|auto]).
    apply apart_app_r in A'. apply free_app in B'. destruct A' as [A1 A2], B' as (B1 & B2 & B3). split; auto.
    eapply apart_perm; [apply Permutation_sym; exact PT|apply Permutation_refl|]. apply apart_app_l. split; auto. apply apart_sym. auto.
Qed.
Lemma from_waits e : ctx_from wd fields o = Err e -> e = EDeadlock.
Proof.
  destruct from_split as (wd1 & slots & dropped & E & R & _). rewrite E. destruct R as [R1 _ _ _ _ _].
  destruct (fill_step wd1 fields slots R1) as (_ & _ & Q). apply Q.
Qed.
Lemma from_result wd' gs : ctx_from wd fields o = Ok (wd', gs) ->
  map g_ty gs = fields /\
  Permutation (wd_held wd') (wd_held (world_without wd (locks_of o)) ++ gs) /\ world_ok wd' /\
  exists kept dropped fresh,
    Permutation (locks_of o) (kept ++ dropped) /\ Permutation gs (kept ++ fresh) /\
    wd_trace wd' = wd_trace wd ++ map LRelease dropped ++ map LAcquire fresh /\
    forall g, In g (locks_of o) -> In (g_ty g) fields -> exists h, In h kept /\ g_ty h = g_ty g.
Proof.
  intros H. destruct from_split as (wd1 & slots & dropped & E & R & N1 & N2 & I1 & I2 & P1 & P0). destruct R as [R1 R2 R3 R4 R5 R6].
  rewrite E in H.
  destruct (fill_step wd1 fields slots R1) as (Q & Q' & _). destruct (Q _ _ H) as (fresh & A & B & C & D & E1 & E2 & E3).
  assert (AP : apart (tys (wd_held wd1)) (missing fields slots) /\ free (missing fields slots)) by (apply Q'; eauto).
  split; auto. assert (PH : Permutation (wd_held wd') (wd_held (world_without wd (locks_of o)) ++ gs)).
  { rewrite E1. eapply perm_trans; [apply Permutation_app_tail; exact P1|]. rewrite <- app_assoc. apply Permutation_app_head.
    apply Permutation_sym. auto. }
  split; auto. split.
  - destruct OK as (O1 & O2 & O3). split; [|split].
    + rewrite E1, map_app. apply nodup_both.
      * rewrite R3. clear - O1. induction (wd_held wd) as [|x l IH]; cbn; [constructor|]. cbn in O1. inv O1.
        destruct (negb _); cbn; auto. constructor; auto. intros F. apply H1. apply in_map_iff in F. destruct F as (y & <- & F).
        apply filter_In in F. apply in_map. tauto.
      * rewrite D. apply seq_NoDup.
      * intros x Hx Hy. rewrite D in Hy. apply in_seq in Hy. apply in_map_iff in Hx. destruct Hx as (y & <- & Hx).
        rewrite R3 in Hx. apply filter_In in Hx. rewrite Forall_forall in O2. specialize (O2 y (proj1 Hx)). lia.
    + rewrite E1, Forall_app. split.
      * rewrite R3. apply Forall_forall. intros y Hy. apply filter_In in Hy. rewrite Forall_forall in O2. specialize (O2 y (proj1 Hy)). lia.
      * apply Forall_forall. intros y Hy. apply (in_map g_id) in Hy. rewrite D in Hy. apply in_seq in Hy. lia.
    + apply free_tys. rewrite E1, tys_app, B. destruct AP as [AP1 AP2]. apply free_app. split; auto.
      apply free_tys in O3. eapply free_perm in O3; [|apply Permutation_map; exact P0]. fold tys in O3. unfold tys in O3.
      rewrite map_app in O3. eapply free_perm in O3; [|apply Permutation_app_head; apply Permutation_map; apply Permutation_sym; exact R2].
      rewrite map_app, app_assoc in O3. apply free_app in O3. destruct O3 as [O3 _].
      eapply free_perm; [apply Permutation_sym; apply (Permutation_map g_ty); exact P1|]. rewrite map_app. auto.
  - exists (somes slots), dropped, fresh. split; [apply Permutation_sym; auto|]. split; auto.
    split; [rewrite E2, R5, app_assoc; auto|]. intros g Hg Hf.
    destruct (position (lt_name (g_ty g)) fields) as [[i f]|] eqn:P.
    + destruct (R6 g i f Hg P) as [h Hh]. exists h.
      assert (Ih : In h (somes slots)).
      { clear - Hh. revert i Hh. induction slots as [|s slots IH]; intros [|i] Hh; try discriminate; cbn in *.
        - inv Hh. left; auto.
        - destruct s; cbn; eauto. }
      split; auto. destruct (position_some _ _ _ _ P) as [Hi Hn].
      assert (Th : g_ty h = f).
      { clear - R1 Hh Hi. revert i Hh Hi. induction R1 as [|f0 s0 fs ss T F IH]; intros [|i] Hh Hi; try discriminate; cbn in *; eauto.
        inv Hh. inv Hi. auto. }
      apply NU.
      * apply in_or_app. right. apply in_map. eapply Permutation_in; [exact R2|]. apply in_or_app; auto.
      * apply in_or_app. left. auto.
      * congruence.
    + elim (position_none _ _ P). apply in_map. auto.
Qed.
End Whole.

(** ** Names that collide *)
Lemma release_typed fields gs : forall wd slots wd' slots', ids_unique (fields ++ map g_ty gs) -> Forall2 typed fields slots ->
  fold_res (release_field fields) gs (wd, slots) = Ok (wd', slots') -> Forall2 typed fields slots'.
Proof.
  induction gs as [|g gs IH]; intros wd slots wd' slots' U T H; cbn [fold_res] in H.
  - inv H. auto.
  - bindn H q H1. destruct q as [wd1 slots1]. apply (IH wd1 slots1 wd' slots'); auto.
    { intros a b Ha Hb. apply U; apply in_or_app; [apply in_app_or in Ha; destruct Ha; auto; right; right; auto|apply in_app_or in Hb; destruct Hb; auto; right; right; auto]. }
    clear H IH. unfold release_field, field_for in H1. cbn [fst snd] in H1.
    destruct (position (lt_name (g_ty g)) fields) as [[i f]|] eqn:P.
    + destruct (nth_error slots i) as [[| |h]|] eqn:Hs; cbn [fst snd] in H1; try (bindn H1 w H2; inv H1; auto; fail).
      destruct (Nat.eqb_spec (lt_tid (g_ty g)) (lt_tid f)) as [E|]; [|discriminate]. cbn [negb] in H1.
      destruct (negb _) in H1; [discriminate|]. inv H1. rewrite upd_upd.
      destruct (position_some _ _ _ _ P) as [Hf _]. eapply typed_upd; eauto. cbn. apply U; auto; apply in_or_app.
      * right. left. auto.
      * left. eapply nth_error_In; eauto.
    + cbn [fst snd] in H1. bindn H1 w H2. inv H1. auto.
Qed.
Lemma from_typed wd fields o : ids_unique (fields ++ map g_ty (locks_of o)) ->
  forall wd' gs, ctx_from wd fields o = Ok (wd', gs) -> map g_ty gs = fields.
Proof.
  intros U wd' gs H. unfold ctx_from in H. rewrite release_flat in H. bindn H q H1. destruct q as [wd1 slots]. cbn [fst snd] in H.
  assert (T : Forall2 typed fields slots) by (eapply release_typed; eauto; apply none_typed).
  destruct (fill_step wd1 fields slots T) as (Q & _ & _). destruct (Q _ _ H) as (fresh & A & _). auto.
Qed.
