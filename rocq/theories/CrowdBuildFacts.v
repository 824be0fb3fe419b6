(** Proofs about threads that panic, in debug and release builds. *)
From Coq Require Import List Arith Bool.
From Verif Require Import Base Column RowRange Table Cascade Extract Threads ThreadSpec Poison PoisonSpec ThreadBuildSpec ThreadBuildFacts.
Import ListNotations.

Definition nearcr (d d' : crowd) : Prop := nearc (cr_c d) (cr_c d') /\ cr_bad d = cr_bad d'.
Lemma alike_free c c' l wr : alike c c' -> free_for c l wr <-> free_for c' l wr.
Proof.
  destruct c as [x ts], c' as [x' ts']. intros [E F]. cbn in E. subst x'. unfold free_for. cbn [th_x th_ts] in *.
  assert (H : (forall t, In t ts -> lets (fst t) l wr = true) <-> (forall t, In t ts' -> lets (fst t) l wr = true)).
  { induction F as [|t t' a a' [P Q] F IH]; [split; intros _ s []|]. split; intros H s [<-|I].
    - rewrite <- P. apply H. left. reflexivity.
    - apply (proj1 IH); [|exact I]. intros r J. apply H. right. exact J.
    - rewrite P. apply H. left. reflexivity.
    - apply (proj2 IH); [|exact I]. intros r J. apply H. right. exact J. }
  rewrite H. reflexivity.
Qed.
Lemma crowd_keeps d e : crowd_step d e -> one_overflowed (cr_c d) -> one_overflowed (cr_c e).
Proof.
  intros S (t & I & E).
  assert (G : forall (x' : xuni) (a b : list (guards * prog unit)) (u v : guards * prog unit), In t (a ++ u :: b) -> (snd u = Ret (panic POverflow) -> snd v = snd u) -> one_overflowed (TH x' (a ++ v :: b))).
  { intros x' a b u v J K. apply in_app_iff in J. destruct J as [J|[J|J]].
    - exists t. split; [apply in_app_iff; left; exact J|exact E].
    - subst u. exists v. split; [apply in_app_iff; right; left; reflexivity|]. rewrite (K E). exact E.
    - exists t. split; [apply in_app_iff; right; right; exact J|exact E]. }
  destruct S; cbn [cr_c th_ts] in *; (eapply G; [exact I|]; first [intro X; discriminate X|reflexivity]).
Qed.
Lemma crowd_near d e d' : nearcr d d' -> ~ one_overflowed (cr_c d) -> crowd_step d e -> exists e', crowd_step d' e' /\ nearcr e e'.
Proof.
  intros [N B] O S. pose proof (near_alike _ _ N O) as A. destruct d' as [[x' ts'] bad']. cbn [cr_c cr_bad] in *.
  assert (NO : forall t, In t (th_ts (cr_c d)) -> snd t <> Ret (panic POverflow)) by (intros t I X; apply O; exists t; split; assumption).
  destruct S as [x a g l wr k b bad M J|x a g l wr k b bad M J|x a g l wr k b bad|x a g T f k b bad|x a l g e b bad|x x1 a l g e b bad M];
    cbn [cr_c cr_bad th_x th_ts] in *; subst bad'; destruct N as [E F]; cbn [th_x th_ts] in E, F; subst x'; apply Forall2_app_inv_l in F; destruct F as (a' & r' & Fa & F & ->);
    inversion F as [|u [g' m'] b0 b' [G P] Fb]; subst; cbn [fst snd] in G, P; subst g'; cbn [pov] in P.
  - destruct P as (k' & -> & P). apply (alike_free _ _ l wr A) in M. eexists. split; [apply cs_acq; [exact M|exact J]|]. split; [|reflexivity]. split; [reflexivity|]. cbn [cr_c th_ts].
    apply Forall2_app; [exact Fa|]. constructor; [split; [reflexivity|exact P]|exact Fb].
  - destruct P as (k' & -> & P). apply (alike_free _ _ l wr A) in M. eexists. split; [apply cs_poisoned; [exact M|exact J]|]. split; [|reflexivity]. split; [reflexivity|]. cbn [cr_c th_ts].
    apply Forall2_app; [exact Fa|]. constructor; [split; [reflexivity|apply pov_refl]|exact Fb].
  - destruct P as (k' & -> & P). eexists. split; [apply cs_rel|]. split; [|reflexivity]. split; [reflexivity|]. cbn [cr_c th_ts].
    apply Forall2_app; [exact Fa|]. constructor; [split; [reflexivity|exact P]|exact Fb].
  - destruct P as (B' & f' & k' & -> & P). destruct (P x) as [Ex Px]. eexists. split; [apply cs_act|]. split; [|reflexivity]. split; [exact Ex|]. cbn [cr_c th_ts].
    apply Forall2_app; [exact Fa|]. constructor; [split; [reflexivity|exact Px]|exact Fb].
  - destruct P as [P| ->]; [exfalso; apply (NO ((l, false) :: g, Ret (Err e))); [apply in_app_iff; right; left; reflexivity|cbn [snd]; rewrite P; reflexivity]|].
    eexists. split; [apply cs_unwind_read|]. split; [|reflexivity]. split; [reflexivity|]. cbn [cr_c th_ts].
    apply Forall2_app; [exact Fa|]. constructor; [split; [reflexivity|apply pov_refl]|exact Fb].
  - destruct P as [P| ->]; [exfalso; apply (NO ((l, true) :: g, Ret (Err e))); [apply in_app_iff; right; left; reflexivity|cbn [snd]; rewrite P; reflexivity]|].
    eexists. split; [apply cs_unwind_write; exact M|]. split; [|reflexivity]. split; [reflexivity|]. cbn [cr_c th_ts].
    apply Forall2_app; [exact Fa|]. constructor; [split; [reflexivity|apply pov_refl]|exact Fb].
Qed.
Lemma crowd_back d d' e' : nearcr d d' -> ~ one_overflowed (cr_c d) -> crowd_step d' e' -> exists e, crowd_step d e /\ nearcr e e'.
Proof.
  intros [N B] O S. pose proof (near_alike _ _ N O) as A. destruct d as [[x' ts] bad']. cbn [cr_c cr_bad] in *.
  assert (NO : forall t, In t ts -> snd t <> Ret (panic POverflow)) by (intros t I X; apply O; exists t; split; assumption).
  destruct S as [x a g l wr k b bad M J|x a g l wr k b bad M J|x a g l wr k b bad|x a g T f k b bad|x a l g e b bad|x x1 a l g e b bad M];
    cbn [cr_c cr_bad th_x th_ts] in *; subst bad'; destruct N as [E F]; cbn [th_x th_ts] in E, F; subst x'; apply Forall2_app_inv_r in F; destruct F as (a' & r' & Fa & F & ->);
    inversion F as [|[g' m'] u b' b0 [G P] Fb]; subst; cbn [fst snd] in G, P; subst g';
    match goal with Fb : Forall2 near ?bb b, Fa : Forall2 near ?aa a |- exists e, crowd_step (CR (TH ?x (?aa ++ (?gg, m') :: ?bb)) ?bad) e /\ _ =>
      assert (Z : m' <> Ret (panic POverflow)) by (apply (NO (gg, m')); apply in_app_iff; right; left; reflexivity) end;
    destruct m' as [r| |l' wr' k'|l' wr' k'|B' f' k']; cbn [pov] in P;
    try (destruct P as [P|P]; [exfalso; apply Z; rewrite P; reflexivity|]); try discriminate P;
    try (destruct P as (? & P & ?); discriminate P); try (destruct P as (? & ? & ? & P & ?); discriminate P).
  - destruct P as (k1 & Y & P). injection Y as <- <- <-. apply (alike_free _ _ l wr A) in M. eexists. split; [apply cs_acq; [exact M|exact J]|]. split; [|reflexivity]. split; [reflexivity|]. cbn [cr_c th_ts].
    apply Forall2_app; [exact Fa|]. constructor; [split; [reflexivity|exact P]|exact Fb].
  - destruct P as (k1 & Y & P). injection Y as <- <- <-. apply (alike_free _ _ l wr A) in M. eexists. split; [apply cs_poisoned; [exact M|exact J]|]. split; [|reflexivity]. split; [reflexivity|]. cbn [cr_c th_ts].
    apply Forall2_app; [exact Fa|]. constructor; [split; [reflexivity|apply pov_refl]|exact Fb].
  - destruct P as (k1 & Y & P). injection Y as <- <- <-. eexists. split; [apply cs_rel|]. split; [|reflexivity]. split; [reflexivity|]. cbn [cr_c th_ts].
    apply Forall2_app; [exact Fa|]. constructor; [split; [reflexivity|exact P]|exact Fb].
  - destruct P as (B1 & f1 & k1 & Y & P). apply (f_equal touched) in Y. cbn [touched] in Y. injection Y as Y. apply (f_equal (fun h => h x)) in Y. injection Y as Y1 Y2.
    destruct (P x) as [Ex Px]. eexists. split; [apply cs_act|]. split; [|reflexivity]. split; [cbn [cr_c th_x]; congruence|]. cbn [cr_c th_ts].
    apply Forall2_app; [exact Fa|]. constructor; [split; [reflexivity|]|exact Fb]. cbn [snd]. rewrite Y2. exact Px.
  - injection P as P. subst r. eexists. split; [apply cs_unwind_read|]. split; [|reflexivity]. split; [reflexivity|]. cbn [cr_c th_ts].
    apply Forall2_app; [exact Fa|]. constructor; [split; [reflexivity|apply pov_refl]|exact Fb].
  - injection P as P. subst r. eexists. split; [apply cs_unwind_write; exact M|]. split; [|reflexivity]. split; [reflexivity|]. cbn [cr_c th_ts].
    apply Forall2_app; [exact Fa|]. constructor; [split; [reflexivity|apply pov_refl]|exact Fb].
Qed.
Lemma crowds_near d e : crowd_steps d e -> ~ one_overflowed (cr_c e) -> forall d', nearcr d d' -> exists e', crowd_steps d' e' /\ nearcr e e'.
Proof.
  intros S. induction S as [d|d e f S IH T]; intros O d' N; [exists d'; split; [constructor|exact N]|].
  assert (O' : ~ one_overflowed (cr_c e)) by (intro X; apply O; exact (crowd_keeps _ _ T X)).
  destruct (IH O' d' N) as (e' & S' & N'). destruct (crowd_near _ _ _ N' O' T) as (f' & T' & N''). exists f'. split; [econstructor; eassumption|exact N''].
Qed.
Lemma crowds_back d' e' : crowd_steps d' e' -> forall d, nearcr d d' -> exists e, crowd_steps d e /\ (one_overflowed (cr_c e) \/ nearcr e e').
Proof.
  intros S. induction S as [d'|d' e' f' S IH T]; intros d N; [exists d; split; [constructor|right; exact N]|].
  destruct (IH d N) as (e & S1 & [O|N1]); [exists e; split; [exact S1|left; exact O]|].
  destruct (one_dec (cr_c e)) as [O|O]; [exists e; split; [exact S1|left; exact O]|].
  destruct (crowd_back _ _ _ N1 O T) as (f & T1 & N2). exists f. split; [econstructor; eassumption|right; exact N2].
Qed.
Lemma begun_near umax umax' pr heads foreign order fuel x tss : umax <= umax' ->
  nearcr (begun x (map (p_run Debug umax heads foreign order fuel) tss)) (begun x (map (p_run pr umax' heads foreign order fuel) tss)).
Proof. intro Le. unfold nearcr, begun. cbn [cr_c cr_bad]. split; [apply started_near; exact Le|reflexivity]. Qed.
Theorem poison_near umax umax' pr heads foreign order fuel x tss d : umax <= umax' ->
  crowd_steps (begun x (map (p_run Debug umax heads foreign order fuel) tss)) d -> one_overflowed (cr_c d) \/
  exists d', crowd_steps (begun x (map (p_run pr umax' heads foreign order fuel) tss)) d' /\ alike (cr_c d) (cr_c d') /\ cr_bad d = cr_bad d'.
Proof.
  intros Le S. destruct (one_dec (cr_c d)) as [O|O]; [left; exact O|right]. destruct (crowds_near _ _ S O _ (begun_near umax umax' pr heads foreign order fuel x tss Le)) as (d' & S' & N & B).
  exists d'. split; [exact S'|]. split; [apply near_alike; assumption|exact B].
Qed.
Theorem poison_back umax umax' pr heads foreign order fuel x tss d' : umax <= umax' ->
  crowd_steps (begun x (map (p_run pr umax' heads foreign order fuel) tss)) d' ->
  exists d, crowd_steps (begun x (map (p_run Debug umax heads foreign order fuel) tss)) d /\ (one_overflowed (cr_c d) \/ (alike (cr_c d) (cr_c d') /\ cr_bad d = cr_bad d')).
Proof.
  intros Le S. destruct (crowds_back _ _ S _ (begun_near umax umax' pr heads foreign order fuel x tss Le)) as (d & S' & [O|[N B]]); exists d; (split; [exact S'|]); [left; exact O|].
  destruct (one_dec (cr_c d)) as [O|O]; [left; exact O|]. right. split; [apply near_alike; assumption|exact B].
Qed.
