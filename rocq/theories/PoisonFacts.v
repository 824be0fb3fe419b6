(** Proofs: nobody sees what a panic leaves behind. *)
From Coq Require Import List Arith Bool Lia.
From Verif Require Import Base BaseFacts Names Column RowRange Table SortedTab TableSpec Hist HistFacts Events Cascade CascadeSpec Extract
  Threads ThreadSpec ThreadSeq ThreadFacts ThreadSafe ThreadReads Poison PoisonSpec.
Import ListNotations.

Definition bare (ts : list (guards * prog unit)) : list (guards * prog unit) := map (fun t => (fst t, Endless)) ts.
Definition bare_apart (c : threads) : Prop := all_apart (TH (th_x c) (bare (th_ts c))).
Lemma bare_mid x x' a t b t' : bare_apart (TH x (a ++ t :: b)) ->
  (forall y, In y (fst t') -> In y (fst t) \/ forall s, In s (a ++ t :: b) -> lets (fst s) (fst y) (snd y) = true) ->
  bare_apart (TH x' (a ++ t' :: b)).
Proof.
  unfold bare_apart, bare. cbn [th_x th_ts]. rewrite !map_app. cbn [map]. intros H K. eapply apart_change; [exact H|].
  intros y Hy. destruct (K y Hy) as [E|E]; [left; exact E|right]. intros s Hs.
  assert (Hs2 : In s (map (fun z => (fst z, @Endless unit)) (a ++ t :: b))) by (rewrite map_app; exact Hs).
  clear Hs. rename Hs2 into Hs.
 apply in_map_iff in Hs. destruct Hs as (s0 & <- & Hs). exact (E s0 Hs).
Qed.
Lemma bare_other x a t b s l wr : bare_apart (TH x (a ++ t :: b)) -> In (l, true) (fst t) -> In s (a ++ b) -> ~ In (l, wr) (fst s).
Proof.
  intros H Ht Hs Hl. unfold bare_apart, bare in H. cbn [th_x th_ts] in H. unfold all_apart in H. cbn [th_ts] in H.
  assert (Et : nth_error (a ++ t :: b) (length a) = Some t) by (rewrite nth_error_app2, Nat.sub_diag by lia; reflexivity).
  assert (exists j, j <> length a /\ nth_error (a ++ t :: b) j = Some s) as (j & Ne & Es).
  { apply in_app_or in Hs. destruct Hs as [Hs|Hs]; apply In_nth_error in Hs; destruct Hs as [j Hj].
    - assert (j < length a) by (apply nth_error_Some; congruence). exists j. split; [lia|]. rewrite nth_error_app1 by lia. exact Hj.
    - exists (S (length a + j)). split; [lia|]. rewrite nth_error_app2 by lia. replace (S (length a + j) - length a) with (S j) by lia. exact Hj. }
  pose proof (map_nth_error (fun t => (fst t, @Endless unit)) _ _ Et) as Et'. pose proof (map_nth_error (fun t => (fst t, @Endless unit)) _ _ Es) as Es'.
  destruct (H _ _ _ _ Ne Es' Et' l wr true Hl Ht). discriminate.
Qed.

(** [x] without the half-done changes, [y] with them. *)
Definition agree (bad : list lock) (x y : xuni) : Prop :=
  same_but bad x y /\ map t_sch (u_tabs (xu_u y)) = map t_sch (u_tabs (xu_u x)) /\ length (u_trk (xu_u y)) = length (u_trk (xu_u x)) /\
  u_hdl (xu_u y) = u_hdl (xu_u x) /\ leaks y = leaks x.
Definition clean (d : crowd) : Prop := forall t l wr, In t (th_ts (cr_c d)) -> In (l, wr) (owned t) -> ~ In l (cr_bad d).
Definition sim (d : crowd) (c : threads) : Prop :=
  Forall2 alike (th_ts (cr_c d)) (th_ts c) /\ agree (cr_bad d) (th_x c) (th_x (cr_c d)) /\ clean d /\ bare_apart (cr_c d) /\ all_own c /\ all_read c.
Lemma leaks_not_leaked x y l wr : leaks y = leaks x -> not_leaked y l wr = not_leaked x l wr.
Proof.
  intro E. unfold not_leaked. destruct l as [p|p]; [reflexivity|]. f_equal. apply (f_equal (fun l => nth_error l p)) in E. unfold leaks in E.
  rewrite !nth_error_map in E. destruct (nth_error (xu_fl x) p), (nth_error (xu_fl y) p); cbn in E; congruence.
Qed.
Lemma agree_same_for bad g x y : agree bad x y -> (forall l wr, In (l, wr) g -> ~ In l bad) -> same_for g x y.
Proof.
  intros ([A1 A2] & A3 & A4 & A5 & _) C. split; [|split; [|split; [|split]]]; auto.
  - intros p wr L. apply A1. exact (C _ _ L).
  - intros p wr L. apply A2. exact (C _ _ L).
Qed.
Lemma owned_incl t y : In y (owned t) -> In y (fst t).
Proof. unfold owned. destruct (snd t) as [[|]| | | |]; auto. intros []. Qed.
Lemma lets_less g g' l wr : (forall y, In y g' -> In y g) -> lets g l wr = true -> lets g' l wr = true.
Proof. unfold lets. rewrite !forallb_forall. auto. Qed.
Lemma free_may x y ds ts l wr : Forall2 alike ds ts -> leaks y = leaks x -> free_for (TH y ds) l wr -> may_take (TH x ts) l wr.
Proof.
  intros F E [H1 H2]. cbn [th_ts th_x] in *. split; cbn [th_ts th_x].
  - intros t' Ht'. apply In_nth_error in Ht'. destruct Ht' as [i Hi].
    assert (exists t, nth_error ds i = Some t /\ alike t t') as (t & Et & A).
    { clear H1 H2. revert i Hi. induction F as [|t0 t0' ds ts A F IH]; intros [|i] Hi; cbn in *; try discriminate; eauto. injection Hi as <-. eauto. }
    destruct A as [_ A]. rewrite <- A. eapply lets_less; [|apply H1; eapply nth_error_In; exact Et]. intros z. apply owned_incl.
  - rewrite <- (leaks_not_leaked x y); auto.
Qed.
Lemma half_agree bad l x y y' : half_done l y y' -> agree bad x y -> agree (l :: bad) x y'.
Proof.
  intros H ([A1 A2] & A3 & A4 & A5 & A6). destruct H as [l y|p t t' y E S|p f f' trs y E Lk].
  - split; [|split; [|split; [|split]]]; auto. split; intros p N; [apply A1|apply A2]; cbn in N; tauto.
  - split; [split|split; [|split; [|split]]]; auto.
    + intros q N. cbn [In] in N. cbn [xu_u u_tabs u_put]. destruct (Nat.eq_dec q p) as [->|Ne]; [elim N; auto|].
      rewrite nth_error_upd_ne by congruence. apply A1. tauto.
    + intros q N. change (behind y q = behind x q). apply A2. cbn in N. tauto.
    + cbn [xu_u u_tabs u_put]. rewrite upd_map, S, <- A3. apply list_ext. intro n. rewrite nth_error_upd. destruct (Nat.eqb_spec n p) as [->|Ne]; [|reflexivity].
      destruct (p <? _); [|reflexivity]. cbn. rewrite nth_error_map, E. reflexivity.
  - split; [split|split; [|split; [|split]]]; auto.
    + intros q N. cbn [xu_u u_tabs]. apply A1. cbn in N. tauto.
    + intros q N. cbn [In] in N. assert (Ne : q <> p) by (intro; subst; tauto). assert (N' : ~ In (LF q) bad) by tauto. specialize (A2 q N').
      unfold behind, u_trackers in *. cbn [xu_u xu_fl u_trk]. rewrite (nth_error_upd_ne (xu_fl y)) by congruence. rewrite <- A2. f_equal.
      rewrite <- !nth_default_eq. unfold nth_default. rewrite nth_error_upd_ne by congruence. reflexivity.
    + cbn. rewrite upd_length. exact A4.
    + unfold leaks in *. cbn [xu_fl]. rewrite upd_map, Lk, <- A6. apply list_ext. intro n. rewrite nth_error_upd. destruct (Nat.eqb_spec n p) as [->|Ne]; [|reflexivity].
      destruct (p <? _); [|reflexivity]. cbn. rewrite nth_error_map, E. reflexivity.
Qed.
Lemma alike_split a t b ts : Forall2 alike (a ++ t :: b) ts -> exists a' t' b', ts = a' ++ t' :: b' /\ Forall2 alike a a' /\ alike t t' /\ Forall2 alike b b'.
Proof.
  intro H. apply Forall2_app_inv_l in H. destruct H as (a' & r & Ha & Hr & ->). inversion Hr as [|? t' ? b' At Hb]; subst. exists a', t', b'. auto.
Qed.
Lemma alike_join a a' t t' b b' : Forall2 alike a a' -> alike t t' -> Forall2 alike b b' -> Forall2 alike (a ++ t :: b) (a' ++ t' :: b').
Proof. intros. apply Forall2_app; auto. Qed.
Lemma clean_mid x x' a t t' b bad bad' : clean (CR (TH x (a ++ t :: b)) bad) ->
  (forall s l wr, In s (a ++ b) -> In (l, wr) (owned s) -> ~ In l bad -> ~ In l bad') ->
  (forall l wr, In (l, wr) (owned t') -> ~ In l bad') -> clean (CR (TH x' (a ++ t' :: b)) bad').
Proof.
  unfold clean. cbn [cr_c cr_bad th_ts]. intros H K N s l wr Hs Hl. apply in_app_or in Hs. destruct Hs as [Hs|[<-|Hs]]; [| |].
  - apply (K s l wr); auto; [apply in_or_app; auto|]. apply (H s l wr); auto. apply in_or_app. auto.
  - exact (N _ _ Hl).
  - apply (K s l wr); auto; [apply in_or_app; auto|]. apply (H s l wr); auto. apply in_or_app. right. right. exact Hs.
Qed.
Lemma sim_step d d' c : crowd_step d d' -> sim d c -> exists c', (c' = c \/ thread_step c c') /\ sim d' c'.
Proof.
  intros H (F & A & C & B & O & R). destruct c as [x ts]. cbn [th_ts th_x] in *.
  destruct H as [y a g l wr k b bad M N|y a g l wr k b bad M N|y a g l wr k b bad|y a g T f k b bad|y a l g e b bad|y y' a l g e b bad Hd]; cbn [cr_c cr_bad th_ts th_x] in *;
    pose proof F as F0; destruct (alike_split _ _ _ _ F) as (a' & [g' m'] & b' & -> & Fa & [Em Eo] & Fb); cbn [fst snd] in *.
  - cbn [snd] in Em. subst m'. unfold owned in Eo. cbn [fst snd] in Eo. subst g'.
    assert (St : thread_step (TH x (a' ++ (g, Acq l wr k) :: b')) (TH x (a' ++ ((l, wr) :: g, k) :: b'))).
    { apply ts_acq. eapply free_may; [exact F0|apply A|exact M]. }
    exists (TH x (a' ++ ((l, wr) :: g, k) :: b')). split; [right; exact St|].
    split; [|split; [|split; [|split; [|split]]]]; cbn [cr_c cr_bad th_ts th_x]; [|exact A| | |exact (all_own_step _ _ St O)|exact (all_read_step _ _ St R)].
    + apply alike_join; auto. split; reflexivity.
    + eapply clean_mid; [exact C|auto|]. intros l0 wr0 Hl. apply owned_incl in Hl. cbn [fst] in Hl. destruct Hl as [Hl|Hl]; [injection Hl as -> ->; exact N|].
      apply (C (g, Acq l wr k) l0 wr0); cbn [cr_c th_ts]; [apply in_or_app; right; left; reflexivity|exact Hl].
    + eapply bare_mid; [exact B|]. intros z [<-|Hz]; [right; exact (proj1 M)|left; exact Hz].
  - cbn [snd] in Em. subst m'. unfold owned in Eo. cbn [fst snd] in Eo. subst g'.
    assert (St : thread_step (TH x (a' ++ (g, Acq l wr k) :: b')) (TH x (a' ++ (g, Ret (panic PPoisoned)) :: b'))).
    { apply ts_poisoned. eapply free_may; [exact F0|apply A|exact M]. }
    exists (TH x (a' ++ (g, Ret (panic PPoisoned)) :: b')). split; [right; exact St|].
    split; [|split; [|split; [|split; [|split]]]]; cbn [cr_c cr_bad th_ts th_x]; [|exact A| | |exact (all_own_step _ _ St O)|exact (all_read_step _ _ St R)].
    + apply alike_join; auto. split; reflexivity.
    + eapply clean_mid; [exact C|auto|]. intros l0 wr0 [].
    + eapply bare_mid; [exact B|]. intros z Hz. left. exact Hz.
  - cbn [snd] in Em. subst m'. unfold owned in Eo. cbn [fst snd] in Eo. subst g'.
    assert (St : thread_step (TH x (a' ++ (g, Rel l wr k) :: b')) (TH x (a' ++ (drop_guard l wr g, k) :: b'))) by apply ts_rel.
    exists (TH x (a' ++ (drop_guard l wr g, k) :: b')). split; [right; exact St|].
    split; [|split; [|split; [|split; [|split]]]]; cbn [cr_c cr_bad th_ts th_x]; [|exact A| | |exact (all_own_step _ _ St O)|exact (all_read_step _ _ St R)].
    + apply alike_join; auto. split; reflexivity.
    + eapply clean_mid; [exact C|auto|]. intros l0 wr0 Hl. apply owned_incl in Hl. cbn [fst] in Hl. apply drop_in in Hl.
      apply (C (g, Rel l wr k) l0 wr0); cbn [cr_c th_ts]; [apply in_or_app; right; left; reflexivity|exact Hl].
    + eapply bare_mid; [exact B|]. intros z Hz. left. exact (drop_in _ _ _ _ Hz).
  - cbn [snd] in Em. subst m'. unfold owned in Eo. cbn [fst snd] in Eo. subst g'.
    assert (St : thread_step (TH x (a' ++ (g, Act f k) :: b')) (TH (fst (f x)) (a' ++ (g, k (snd (f x))) :: b'))) by apply ts_act.
    assert (Cg : forall l wr, In (l, wr) g -> ~ In l bad).
    { intros l wr Hl. apply (C (g, Act f k) l wr); cbn [cr_c th_ts]; [apply in_or_app; right; left; reflexivity|exact Hl]. }
    assert (Rt : rp (Act f k) g (fun g _ => g = [])).
    { unfold all_read in R. cbn [th_ts] in R. rewrite Forall_forall in R. apply (R (g, Act f k)). apply in_or_app. right. left. reflexivity. }
    assert (Ot : op (Act f k) g (fun g _ => g = [])).
    { destruct O as [O _]. cbn [th_ts] in O. rewrite Forall_forall in O. apply (O (g, Act f k)). apply in_or_app. right. left. reflexivity. }
    destruct (Rt x y (agree_same_for _ _ _ _ A Cg)) as ((S1 & S2 & S3 & S4 & S5) & Ek & (_ & Lk) & _). destruct A as ([A1 A2] & A3 & A4 & A5 & A6).
    exists (TH (fst (f x)) (a' ++ (g, k (snd (f x))) :: b')). split; [right; exact St|]. rewrite <- Ek.
    split; [|split; [|split; [|split; [|split]]]]; cbn [cr_c cr_bad th_ts th_x]; [| | | |exact (all_own_step _ _ St O)|exact (all_read_step _ _ St R)].
    + apply alike_join; auto. split; reflexivity.
    + cbn [op] in Ot. destruct (Ot x) as [Kx _]. destruct (Ot y) as [Ky _].
      assert (Lk' : leaks (fst (f y)) = leaks (fst (f x))) by (apply list_ext; intro p; apply Lk; rewrite A6; reflexivity). split; [split|auto].
      * intros p N. destruct (Kx p) as [[E|E] _]; [|exact (S1 p true E)]. destruct (Ky p) as [[E'|E'] _]; [|exact (S1 p true E')]. rewrite E, E'. apply A1. exact N.
      * intros p N. destruct (Kx p) as [_ [E|E]]; [|exact (S2 p true E)]. destruct (Ky p) as [_ [E'|E']]; [|exact (S2 p true E')]. rewrite E, E'. apply A2. exact N.
    + eapply clean_mid; [exact C|auto|]. intros l0 wr0 Hl. apply owned_incl in Hl. exact (Cg _ _ Hl).
    + eapply bare_mid; [exact B|]. intros z Hz. left. exact Hz.
  - exists (TH x (a' ++ (g', m') :: b')). split; [left; reflexivity|].
    split; [|split; [|split; [|split; [|split]]]]; cbn [cr_c cr_bad th_ts th_x]; [|exact A| | |exact O|exact R].
    + apply alike_join; auto. split; [exact Em|]. rewrite <- Eo. reflexivity.
    + eapply clean_mid; [exact C|auto|]. intros l0 wr0 [].
    + eapply bare_mid; [exact B|]. intros z Hz. left. right. exact Hz.
  - exists (TH x (a' ++ (g', m') :: b')). split; [left; reflexivity|].
    split; [|split; [|split; [|split; [|split]]]]; cbn [cr_c cr_bad th_ts th_x]; [| | | |exact O|exact R].
    + apply alike_join; auto. split; [exact Em|]. rewrite <- Eo. reflexivity.
    + eapply half_agree; eauto.
    + eapply clean_mid; [exact C| |intros l0 wr0 []]. intros s l0 wr0 Hs Hl Hn [<-|Hb]; [|auto].
      apply owned_incl in Hl. revert Hl. eapply (bare_other _ _ _ _ _ _ _ B); [left; reflexivity|exact Hs].
    + eapply bare_mid; [exact B|]. intros z Hz. left. right. exact Hz.
Qed.
Lemma sim_steps d d' : crowd_steps d d' -> forall c, sim d c -> exists c', thread_steps c c' /\ sim d' c'.
Proof.
  intro H. induction H as [d|d d1 d2 H IH S]; intros c Hs; [exists c; split; [constructor|exact Hs]|].
  destruct (IH c Hs) as (c1 & T1 & S1). destruct (sim_step _ _ _ S S1) as (c2 & [->|T2] & S2); [exists c1; auto|].
  exists c2. split; [econstructor; eauto|exact S2].
Qed.
(** ** No endless runs *)
Definition held (d : crowd) : nat := length (concat (map fst (th_ts (cr_c d)))).
Lemma crowd_step_less d d' : crowd_step d d' -> sub_list (map snd (th_ts (cr_c d'))) (map snd (th_ts (cr_c d))) \/
  map snd (th_ts (cr_c d')) = map snd (th_ts (cr_c d)) /\ held d' < held d.
Proof.
  intro H. destruct H; cbn [cr_c th_ts]; [left..|right|right]; try (rewrite !map_app; cbn [map snd]; constructor; constructor).
  all: unfold held; cbn [cr_c th_ts]; rewrite !map_app, !concat_app, !app_length; cbn [map snd fst concat app length]; rewrite ?app_length; split; [reflexivity|lia].
Qed.
Lemma crowd_end : well_founded (fun d' d => crowd_step d d').
Proof.
  intro d. remember (map snd (th_ts (cr_c d))) as l eqn:El. revert d El. generalize (sub_list_wf unit l). intro Al. induction Al as [l _ IL].
  intro d. remember (held d) as n eqn:En. revert d En. induction n as [n IN] using lt_wf_ind. intros d -> El. constructor. intros d' S.
  destruct (crowd_step_less _ _ S) as [L|[E L]].
  - apply (IL (map snd (th_ts (cr_c d')))); [rewrite El; exact L|reflexivity].
  - apply (IN (held d')); [exact L|reflexivity|congruence].
Qed.
Lemma crowd_steps_trans d d' d'' : crowd_steps d d' -> crowd_steps d' d'' -> crowd_steps d d''.
Proof. intros H K. induction K as [|d0 d1 d2 K IH S]; [exact H|]. exact (css_more _ _ _ (IH H) S). Qed.
Section Crowd.
Variables (pr : profile) (umax : nat) (heads : nat -> header) (foreign : nat -> list (nat * nat)).
Variable order : nat -> row -> row -> comparison.
Variables (fuel : nat) (x : xuni) (tss : list (list top)).
Notation ms := (map (Threads.p_run pr umax heads foreign order fuel) tss).
Lemma begun_sim : sim (begun x ms) (started x ms).
Proof.
  split; [|split; [|split; [|split; [|split]]]].
  - unfold begun. cbn [cr_c]. induction (th_ts (started x ms)); constructor; auto. split; reflexivity.
  - unfold agree, same_but. auto 8.
  - intros t l wr _ _ [].
  - intros i j s t _ Ei _ l wr wr' H _. exfalso. cbn [th_ts begun cr_c started bare] in Ei. unfold bare in Ei. rewrite map_map in Ei. apply nth_error_In in Ei.
    apply in_map_iff in Ei. destruct Ei as (m & <- & _). destruct H.
  - apply started_own.
  - apply started_read.
Qed.
Lemma crowd_sim d : crowd_steps (begun x ms) d -> exists c, thread_steps (started x ms) c /\ sim d c.
Proof. intro H. exact (sim_steps _ _ H _ begun_sim). Qed.
Lemma crowd_as_if d : crowd_steps (begun x ms) d ->
  exists c, thread_steps (started x ms) c /\ Forall2 alike (th_ts (cr_c d)) (th_ts c) /\ same_but (cr_bad d) (th_x c) (th_x (cr_c d)).
Proof. intro H. destruct (crowd_sim d H) as (c & S & F & A & _). exists c. split; [exact S|]. split; [exact F|apply A]. Qed.
Lemma crowd_clean d t l wr : crowd_steps (begun x ms) d -> In t (th_ts (cr_c d)) -> In (l, wr) (owned t) -> ~ In l (cr_bad d).
Proof. intro H. destruct (crowd_sim d H) as (c & _ & _ & _ & C & _). apply C. Qed.
Lemma alike_in ds ts t : Forall2 alike ds ts -> In t ds -> exists t', In t' ts /\ alike t t'.
Proof. induction 1 as [|t0 t0' ds ts A F IH]; intros []; [subst; exists t0'; cbn; auto|]. destruct (IH H) as (t' & Hi & A'). exists t'. cbn. auto. Qed.
Lemma crowd_safe d : made pr umax (xu_u x) -> (forall p t, nth_error (u_tabs (xu_u x)) p = Some t -> pr = Debug \/ t_kind t <> Bag) ->
  Forall (Forall (top_ty (xu_u x))) tss -> crowd_steps (begun x ms) d ->
  (forall g, ~ In (g, Ret (Err EUB)) (th_ts (cr_c d))) /\
  forall p t, ~ In (LT p) (cr_bad d) -> nth_error (u_tabs (xu_u (th_x (cr_c d)))) p = Some t ->
    forall ops, Forall (op_ty (s_cols (t_sch t))) ops -> run pr umax (Free t) ops <> Err EUB.
Proof.
  intros M B T H. destruct (crowd_sim d H) as (c & S & F & (A & _) & _). destruct (safe_threads _ _ _ _ _ _ _ _ _ M B T S) as [U1 U2]. split.
  - intros g Hg. destruct (alike_in _ _ _ F Hg) as ([g' m'] & Hi & [E _]). cbn in E. subst. exact (U1 _ Hi).
  - intros p t N E. rewrite (proj1 A p N) in E. exact (proj2 (U2 p t E)).
Qed.
Lemma alike_nth ds ts : Forall2 alike ds ts -> forall i t', nth_error ts i = Some t' -> exists t, nth_error ds i = Some t /\ alike t t'.
Proof. induction 1 as [|t0 t0' ds ts A F IH]; intros [|i] t' Hi; cbn in *; try discriminate; eauto. injection Hi as <-. eauto. Qed.
Definition unwinding (t : guards * prog unit) : bool := match t with (_ :: _, Ret (Err _)) => true | _ => false end.
Variables (rank : nat -> nat) (live : nat -> Prop).
Lemma crowd_progress d : (forall p, rank p < fuel) -> calm rank live x -> Forall (Forall (orderly foreign rank live)) tss -> crowd_steps (begun x ms) d ->
  (forall t, In t (th_ts (cr_c d)) -> gone t) \/ exists i, crowd_on d i.
Proof.
  intros D C O H. destruct (crowd_sim d H) as (c & S & F & A & _ & _ & [Ow _] & _).
  pose proof (all_ok_steps _ _ _ _ S (started_ok rank live pr umax heads foreign order fuel D x tss C O)) as K.
  destruct (existsb unwinding (th_ts (cr_c d))) eqn:Eu.
  { right. apply existsb_exists in Eu. destruct Eu as (t & Hin & E). apply In_nth_error in Hin. destruct Hin as [i Hi]. exists i, t. split; [exact Hi|].
    destruct t as [[|y g] [[|e]| | | |]]; try discriminate. }
  assert (Ef : forall t, In t (th_ts (cr_c d)) -> owned t = fst t).
  { intros t Hin. destruct (unwinding t) eqn:E; [|destruct t as [[|y g] [[|e]| | | |]]; try discriminate; reflexivity].
    assert (N : existsb unwinding (th_ts (cr_c d)) = true) by (apply existsb_exists; eauto). congruence. }
  destruct (progress _ _ _ K) as [G|[i (t' & Hi & G)]].
  - left. intros t Hin. destruct (alike_in _ _ _ F Hin) as (t' & Hin' & [E1 E2]). destruct (G _ Hin') as [r Er]. split; [exists r; congruence|].
    rewrite <- (Ef _ Hin), E2. unfold owned. rewrite Er. destruct r as [u|e]; [|reflexivity].
    rewrite Forall_forall in Ow. specialize (Ow _ Hin'). unfold own_ok in Ow. rewrite Er in Ow. exact Ow.
  - right. destruct (alike_nth _ _ F _ _ Hi) as (t & Et & [E1 E2]). exists i, t. split; [exact Et|]. rewrite E1.
    destruct (snd t') as [r| |l wr k|l wr k|B f k]; try contradiction; try exact I. destruct G as [[G1 G2] G3]. split; [split|].
    + intros s Hs. destruct (alike_in _ _ _ F Hs) as (s' & Hs' & [_ E]). rewrite <- (Ef _ Hs), E. apply G1. exact Hs'.
    + rewrite <- G2. apply leaks_not_leaked. apply A.
    + intros W s k' Hs Es. destruct (alike_in _ _ _ F Hs) as (s' & Hs' & [E _]). apply (G3 W s' k' Hs'). congruence.
Qed.
Lemma crowd_on_step d i : crowd_on d i -> exists d', crowd_step d d'.
Proof.
  intros (t & Hi & H). destruct t as [g m]. apply nth_error_split in Hi. destruct Hi as (a & b & E & _). destruct d as [[y ts] bad]. cbn [cr_c th_ts] in E. subst ts.
  cbn [snd fst cr_c] in H. destruct m as [[|e]| |l wr k|l wr k|C h k]; try contradiction.
  - destruct g as [|[l [|]] g]; [congruence| |].
    + eexists. apply cs_unwind_write. apply half_none.
    + eexists. apply cs_unwind_read.
  - assert (LD : forall a b : lock, {a = b} + {a <> b}) by (decide equality; apply Nat.eq_dec).
    destruct (in_dec LD l bad) as [I|N]; eexists; [apply cs_poisoned; [apply H|exact I]|apply cs_acq; [apply H|exact N]].
  - eexists. apply cs_rel.
  - eexists. apply cs_act.
Qed.
Lemma crowd_finish d : (forall p, rank p < fuel) -> calm rank live x -> Forall (Forall (orderly foreign rank live)) tss -> crowd_steps (begun x ms) d ->
  exists d', crowd_steps d d' /\ forall t, In t (th_ts (cr_c d')) -> gone t.
Proof.
  intros D C O. induction (crowd_end d) as [d _ IH]. intro H. destruct (crowd_progress d D C O H) as [G|[i G]].
  - exists d. split; [constructor|exact G].
  - destruct (crowd_on_step _ _ G) as [d1 S]. destruct (IH d1 S) as (d2 & S2 & G2); [econstructor; eauto|]. exists d2. split; [|exact G2].
    eapply crowd_steps_trans; [|exact S2]. econstructor; [constructor|exact S].
Qed.
End Crowd.
Lemma no_endless_crowd (s : nat -> crowd) : ~ forall n, crowd_step (s n) (s (S n)).
Proof.
  intro H. remember (s 0) as c eqn:E. revert s H E. induction (crowd_end c) as [c _ IH]. intros s H ->.
  apply (IH (s 1) (H 0) (fun n => s (S n))); [intro n; apply H|reflexivity].
Qed.
