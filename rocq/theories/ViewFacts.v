(** Proofs about databases whose tables show their rows in another way: the parts that C136 and C137 share. *)
From Coq Require Import List Arith Bool Lia.
From Verif Require Import Base BaseFacts Column RowRange Table TableFacts Visit SortedTab TableSpec Events Hist Cascade SkipSpec Answers PlainSpec PlainFacts DbHist DbSpec DbFacts DbSaid BuildFacts ChooseSpec ChooseFacts RenameSpec RenameFacts ViewSpec.
Import ListNotations.

(** Outcomes that are related. *)
Definition ro {A B} (R : A -> B -> Prop) (o : outcome A) (o' : outcome B) : Prop :=
  match o, o' with Fine a, Fine b => R a b | Fails, Fails => True | Unsaid, Unsaid => True | _, _ => False end.
Lemma ro_after {A B C D} (R : A -> B -> Prop) (Q : C -> D -> Prop) o o' f g : ro R o o' -> (forall a b, R a b -> ro Q (f a) (g b)) -> ro Q (after o f) (after o' g).
Proof. destruct o, o'; cbn; intros H K; try contradiction; auto. Qed.
(** The rows seen through [f]. *)
Definition seen_as (f : row -> row) (a : plain) : plain := Pl (map f (p_rows a)) (p_found a) (p_free a) (p_lock a).

Section F.
Variables (pr : profile) (f : row -> row).
Hypothesis Hf : f [] = [].
Variables (s s' : schema).
Hypothesis Hk : s_kind s' = s_kind s.
Hypothesis Hi : s_imax s' = s_imax s.
Lemma sa_len a : len (seen_as f a) = len a. Proof. apply map_length. Qed.
Lemma sa_swapped rows i : swapped_out (map f rows) i = map f (swapped_out rows i).
Proof. unfold swapped_out. rewrite map_length, <- firstn_map, upd_map. f_equal. f_equal. induction rows as [|x [|y rows] IH]; [symmetry; exact Hf|reflexivity|]. exact IH. Qed.
Lemma sa_swaps q ids : forall rows, swapped_outs pr q (map f rows) ids = om (map f) (swapped_outs pr q rows ids).
Proof.
  induction ids as [|i ids IH]; intro rows; [reflexivity|]. cbn [swapped_outs]. destruct (i <? q); [|reflexivity]. destruct rows as [|x rows]; [destruct pr; reflexivity|].
  rewrite <- IH, <- sa_swapped. reflexivity.
Qed.
Lemma sa_removed a x : removed pr s' (seen_as f a) x = om (seen_as f) (removed pr s a x).
Proof.
  unfold removed. destruct x as [|ids]; [reflexivity|]. rewrite Hk, sa_len.
  destruct (s_kind s); try (destruct ids; reflexivity); [destruct (all_below _ _); reflexivity|]. eapply om_after; [apply sa_swaps|]. reflexivity.
Qed.
End F.

Lemma ru_typed x u p e : ru x u -> nth_error (b_tabs x) p = Some e -> Forall (row_ty (s_cols (fst e))) (p_rows (snd e)).
Proof.
  intros U E. destruct (ru_tab x u p e U E) as (t & _ & T). destruct T as (E1 & K & _). destruct K as [_ K _ _ _ _ _]. rewrite E1 in K. apply cols_ok_ty in K. exact K.
Qed.
Section Views.
Variables (pr : profile) (umax : nat).
(** Table [p] as it was and as it is declared now; its rows; and which column of it is which. *)
Variables (was is : nat -> schema) (view : nat -> row -> row) (K : nat -> nat -> nat -> Prop).
Hypothesis Hf : forall p, view p [] = [].
Hypothesis Hk : forall p, s_kind (is p) = s_kind (was p).
Hypothesis Hi : forall p, s_imax (is p) = s_imax (was p).
Hypothesis Hr : forall c k k', K c k k' -> forall a key s, referring (is c) (seen_as (view c) a) k' key s = referring (was c) a k key s.
Definition rtab (p : nat) (e e' : schema * plain) : Prop := fst e = was p /\ e' = (is p, seen_as (view p) (snd e)).
Inductive rtrk : tracker -> tracker -> Prop :=
| rk_user srt g : rtrk (TUser srt g) (TUser srt g)
| rk_auto c k k' key : K c k k' -> rtrk (TAuto c k key) (TAuto c k' key).
Record rx (x y : plains) : Prop := Rx {
  rx_tabs : forall p, match nth_error (b_tabs x) p, nth_error (b_tabs y) p with Some e, Some e' => rtab p e e' | None, None => True | _, _ => False end;
  rx_trk : forall p, Forall2 rtrk (nth p (b_trk x) []) (nth p (b_trk y) []);
  rx_lens : length (b_trk y) = length (b_trk x);
  rx_hdl : b_hdl y = b_hdl x;
  rx_told : b_told y = b_told x }.

Lemma rx_tab x y p : rx x y -> ro (rtab p) (tab x p) (tab y p).
Proof. intros [T _ _ _ _]. specialize (T p). unfold tab. destruct (nth_error (b_tabs x) p), (nth_error (b_tabs y) p); try contradiction; exact T. Qed.
Lemma rx_put x y p a : rx x y -> rx (put_tab x p (was p) a) (put_tab y p (is p) (seen_as (view p) a)).
Proof.
  intros [T A L H B]. split; cbn [put_tab b_tabs b_trk b_hdl b_told]; auto. intro q. specialize (T q). destruct (Nat.eq_dec q p) as [->|N].
  - destruct (nth_error (b_tabs x) p) eqn:E, (nth_error (b_tabs y) p) eqn:E'; try contradiction.
    + rewrite !nth_error_upd_eq by (apply nth_error_Some; congruence). split; reflexivity.
    + assert (X : forall (l : list (schema * plain)) v, nth_error l p = None -> nth_error (upd l p v) p = None) by (intros l v Z; apply nth_error_None; rewrite upd_length; apply nth_error_None; exact Z).
      rewrite !X by assumption. exact I.
  - rewrite !nth_error_upd_ne by congruence. exact T.
Qed.
Lemma rx_say x y n : rx x y -> rx (say x n) (say y n).
Proof. intros [T A L H B]. split; cbn [say b_tabs b_trk b_hdl b_told]; auto. rewrite B. reflexivity. Qed.
Lemma rx_locked x y p : rx x y -> lock_of y p = lock_of x p /\ locked y p = locked x p.
Proof.
  intros [T _ _ _ _]. specialize (T p). unfold locked, lock_of. destruct (nth_error (b_tabs x) p), (nth_error (b_tabs y) p) as [e'|]; try contradiction; [|split; reflexivity].
  destruct T as [_ ->]. split; reflexivity.
Qed.
Local Notation rq := (fun q q' : plains * select => rx (fst q) (fst q') /\ snd q' = snd q).
Section T.
Variable tell tell' : plains -> list nat -> nat -> event -> bool -> bool -> select -> outcome (plains * select).
Hypothesis Ht : forall x y reading p ev a d s, rx x y -> ro rq (tell x reading p ev a d s) (tell' y reading p ev a d s).
Lemma flushes_v x y reading p l ev : rx x y -> ro rx (flushes pr tell x reading p l ev) (flushes pr tell' y reading p l ev).
Proof.
  intro J. unfold flushes. destruct l as [[s a] d]. destruct (nothing_to_tell s); [exact J|]. eapply ro_after; [apply Ht; exact J|]. intros [x1 s1] [y1 s2] [J1 E1]. cbn [fst snd] in *. subst s2.
  destruct (_ && _); [|exact J1]. destruct (rx_locked x1 y1 p J1) as [_ ->]. destruct (_ || _); [exact I|]. eapply ro_after; [apply rx_tab; exact J1|]. intros [s0 a0] e' [E ->]. cbn [fst snd] in *. subst s0.
  rewrite (sa_removed pr (view p) (Hf p) (was p) (is p) (Hk p)). destruct (removed pr (was p) a0 s1); try exact I. cbn. apply rx_put. exact J1.
Qed.
Lemma takes_v x y reading c ev s : rx x y -> ro rx (takes_out pr tell x reading c ev s) (takes_out pr tell' y reading c ev s).
Proof.
  intro J. unfold takes_out. eapply ro_after; [apply rx_tab; exact J|]. intros [s0 a] e' [E ->]. cbn [fst snd] in *. subst s0. unfold is_sorted. rewrite Hk.
  destruct (_ || _); [|exact I]. destruct (rx_locked x y c J) as [_ ->]. destruct (_ || _); [exact I|]. destruct s as [|ids].
  - pose proof (rx_put x y c (emptied a) J) as J1. change (seen_as (view c) (emptied a)) with (emptied (seen_as (view c) a)) in J1. destruct (kind_eqb _ _); [exact J1|]. apply flushes_v. exact J1.
  - rewrite sa_len. destruct (kind_eqb _ _).
    + destruct (_ && _); [|exact I]. cbn. pose proof (rx_put x y c (with_rows a (without 0 (p_rows a) ids)) J) as J1. unfold seen_as, with_rows in J1 |- *. cbn [p_rows p_found p_free p_lock] in *. rewrite <- without_on in J1. exact J1.
    + destruct (all_below _ _); [|exact I]. exact (rx_put x y c (freed a ids) J).
Qed.
Lemma passes_v hd x y reading c k k' key ev s : K c k k' -> rx x y -> ro rx (passes_on pr tell hd x reading c k key ev s) (passes_on pr tell' hd y reading c k' key ev s).
Proof.
  intros Kk J. unfold passes_on. destruct (rx_locked x y c J) as [_ ->]. destruct (locked x c); [exact I|]. eapply ro_after; [apply rx_tab; exact J|]. intros [s0 a] e' [E ->]. cbn [fst snd] in *. subst s0.
  rewrite (Hr _ _ _ Kk). destruct (referring (was c) a k key s) as [s1| |]; try exact I. cbn [after]. unfold is_sorted. rewrite Hk.
  eapply ro_after with (R := rx).
  - destruct hd; first [exact J|exact I|apply takes_v; exact J].
  - intros x1 y1 J1. eapply ro_after; [apply Ht; exact J1|]. intros q q' [Jq _]. exact Jq.
Qed.
Lemma tells_v hd reading p ev n tr tr' x y s done : rtrk tr tr' -> rx x y ->
  ro (fun q q' : plains * select * bool => rx (fst (fst q)) (fst (fst q')) /\ snd (fst q') = snd (fst q) /\ snd q' = snd q)
     (DbSpec.tells pr tell hd reading p ev n tr x s done) (DbSpec.tells pr tell' hd reading p ev n tr' y s done).
Proof.
  intros [srt g|c k k' key Kk] J; unfold DbSpec.tells.
  - destruct (g ev); cbn; split; auto. apply rx_say. exact J.
  - eapply ro_after; [apply rx_tab; exact J|]. intros [s0 a] e' [E ->]. cbn [fst snd] in *. subst s0. unfold is_sorted. rewrite Hk. eapply ro_after; [apply passes_v; [exact Kk|apply rx_say; exact J]|].
    intros x1 y1 J1. cbn. auto.
Qed.
Lemma tells_all_v hd reading p ev trs trs' : Forall2 rtrk trs trs' -> forall n x y s done, rx x y -> ro rq (tells_all pr tell hd reading p ev n trs x s done) (tells_all pr tell' hd reading p ev n trs' y s done).
Proof.
  intro F. induction F as [|tr tr' trs trs' H F IH]; intros n x y s done J; cbn [tells_all]; [split; [exact J|reflexivity]|].
  eapply ro_after; [apply tells_v; assumption|]. intros [[x1 s1] d1] [[y1 s2] d2] (J1 & E1 & E2). cbn [fst snd] in *. subst. apply IH. exact J1.
Qed.
End T.
Lemma tell_v fuel : forall x y reading p ev a d s, rx x y -> ro rq (tell pr fuel x reading p ev a d s) (tell pr fuel y reading p ev a d s).
Proof.
  induction fuel as [|n IH]; intros x y reading p ev a d s J; cbn [tell]; [exact I|]. destruct (_ || _); [exact I|]. rewrite (rx_hdl _ _ J).
  destruct (nth_error (b_hdl x) (ev_id ev)) as [hd|]; [|exact I]. apply tells_all_v; [exact IH|apply (rx_trk _ _ J)|exact J].
Qed.

(** Which calls are the same, and what is told. *)
Variables (R : nat -> call -> call -> Prop) (G : nat -> call -> answer -> answer).
Definition flush_like (c : call) : bool := match c with Do (OFlush _ _ | OLiveFlush _ _ | ORemoveRows _ _ _) => true | _ => false end.
Hypothesis Hs : forall p c c', R p c c' -> flush_like c' = flush_like c.
Hypothesis Ha : forall p a c c', Forall (row_ty (s_cols (was p))) (p_rows a) -> call_ty (s_cols (was p)) c -> R p c c' ->
  acts pr umax (is p) (seen_as (view p) a) c' = om (fun q => (seen_as (view p) (fst q), G p c (snd q))) (acts pr umax (was p) a c).
Inductive rcall : db_call -> db_call -> Prop :=
| rc_on p c c' : R p c c' -> rcall (On p c) (On p c')
| rc_track p tr tr' : rtrk tr tr' -> rcall (Track p tr) (Track p tr')
| rc_same c : match c with On _ _ | Track _ _ => False | _ => True end -> rcall c c.
Definition ganswer (c : db_call) (a : answer) : answer := match c with On p c => G p c a | _ => a end.
Lemma acts_on fuel x p c : flush_like c = false -> db_acts pr umax fuel x (On p c) = after (tab x p) (fun e => after (acts pr umax (fst e) (snd e) c) (fun q => Fine (put_tab x p (fst e) (fst q), snd q))).
Proof. destruct c as [o| | |]; [destruct o|..]; try reflexivity; discriminate. Qed.
Lemma acts_flush fuel x p c : flush_like c = true -> db_acts pr umax fuel x (On p c) = Unsaid.
Proof. destruct c as [o| | |]; [destruct o|..]; try reflexivity; discriminate. Qed.
Lemma quiet_v o o' : ro rx o o' -> ro (fun q q' : plains * answer => rx (fst q) (fst q') /\ snd q' = snd q) (quietly o) (quietly o').
Proof. intro H. unfold quietly. eapply ro_after; [exact H|]. intros x y J. split; [exact J|reflexivity]. Qed.
Lemma db_acts_v fuel x y c c' : rx x y -> (forall p e, nth_error (b_tabs x) p = Some e -> Forall (row_ty (s_cols (was p))) (p_rows (snd e))) ->
  match c with On p c => forall e, nth_error (b_tabs x) p = Some e -> call_ty (s_cols (was p)) c | _ => True end -> rcall c c' ->
  ro (fun q q' : plains * answer => rx (fst q) (fst q') /\ snd q' = ganswer c (snd q)) (db_acts pr umax fuel x c) (db_acts pr umax fuel y c').
Proof.
  intros J Ty T H. destruct H as [p c c' H|p tr tr' H|c H].
  - destruct (flush_like c) eqn:Fc; [rewrite !acts_flush by (rewrite ?(Hs _ _ _ H); exact Fc); exact I|]. rewrite !acts_on by (rewrite ?(Hs _ _ _ H); exact Fc).
    pose proof (rx_tabs _ _ J p) as Q. unfold tab. destruct (nth_error (b_tabs x) p) as [e|] eqn:E, (nth_error (b_tabs y) p) as [e'|]; try contradiction; [|exact I].
    destruct Q as [E1 ->]. destruct e as [s0 a]. cbn [fst snd after] in *. subst s0. specialize (Ty _ _ E). cbn [snd] in Ty. rewrite (Ha p a c c' Ty (T _ eq_refl) H).
    destruct (acts pr umax (was p) a c) as [[a1 z]| |]; try exact I. cbn. split; [|reflexivity]. apply rx_put. exact J.
  - cbn [db_acts]. eapply ro_after; [apply rx_tab; exact J|]. intros [s0 a] e' [E ->]. cbn [fst snd] in *. subst s0. destruct (rx_locked x y p J) as [_ ->]. destruct (locked x p); [exact I|]. rewrite Hk.
    destruct (kind_eqb _ _); [|exact I]. cbn. split; [|reflexivity]. destruct J as [T1 A L H1 B]. split; cbn [b_tabs b_trk b_hdl b_told]; auto; [|rewrite !upd_length; exact L].
    intro q. assert (N : forall (l : list (list tracker)) v, nth q (upd l p v) [] = if (q =? p) && (p <? length l) then v else nth q l []).
    { intros l v. destruct (Nat.eqb_spec q p) as [->|Nq]; cbn [andb].
      - destruct (Nat.ltb_spec p (length l)) as [Lp|Lp]; [apply nth_error_nth; apply nth_error_upd_eq; exact Lp|]. rewrite !nth_overflow by (rewrite ?upd_length; exact Lp). reflexivity.
      - rewrite !nth_def, nth_error_upd_ne by congruence. reflexivity. }
    rewrite !N, L. destruct (_ && _); [|apply A]. apply Forall2_app; [apply A|]. constructor; [exact H|constructor].
  - destruct c as [p c|p ev|p ev|p ev s|p ev s|p ev s|p tr|ev hd]; try contradiction; cbn [db_acts ganswer].
    + eapply ro_after; [apply rx_tab; exact J|]. intros [s0 a] e' [E ->]. cbn [fst snd] in *. subst s0. cbn [seen_as p_lock]. destruct (p_lock a) as [l|]; [|exact I]. apply quiet_v.
      apply flushes_v; [intros; apply tell_v; assumption|]. exact (rx_put x y p (with_lock a None) J).
    + eapply ro_after; [apply rx_tab; exact J|]. intros [s0 a] e' [E ->]. cbn [fst snd] in *. subst s0. cbn [seen_as p_lock]. destruct (p_lock a) as [[[s b] d]|]; [|exact I].
      destruct (nothing_to_tell s); [split; [exact J|reflexivity]|]. apply quiet_v. eapply ro_after; [apply tell_v; exact J|]. intros [x1 s1] [y1 s2] [J1 E1]. cbn [fst snd] in *. subst s2.
      eapply ro_after; [apply rx_tab; exact J1|]. intros [s0 a0] e' [E ->]. cbn [fst snd] in *. subst s0. rewrite (sa_removed pr (view p) (Hf p) (was p) (is p) (Hk p)).
      destruct (_ && _).
      * destruct (removed pr (was p) a0 s1) as [a1| |]; try exact I. cbn [after om]. exact (rx_put x1 y1 p (with_lock a1 (Some (SThese [], false, false))) J1).
      * cbn [after]. exact (rx_put x1 y1 p (with_lock a0 (Some (SThese [], false, false))) J1).
    + apply quiet_v. apply takes_v; [intros; apply tell_v; assumption|exact J].
    + eapply ro_after; [apply rx_tab; exact J|]. intros [s0 a] e' [E ->]. cbn [fst snd] in *. subst s0. cbn [seen_as p_lock]. rewrite Hk. destruct (p_lock a) as [[[l b] d]|]; [|exact I]. destruct (kind_eqb _ _); [|exact I].
      apply quiet_v. destruct s as [|ids].
      * apply flushes_v; [intros; apply tell_v; assumption|]. exact (rx_put x y p (with_lock (emptied a) None) J).
      * fold (seen_as (view p) a). rewrite sa_len. destruct (all_below _ _); [|exact I]. apply flushes_v; [intros; apply tell_v; assumption|]. exact (rx_put x y p (with_lock (freed a ids) None) J).
    + destruct (rx_locked x y p J) as [_ ->]. destruct (locked x p); [exact I|]. apply quiet_v. eapply ro_after; [apply tell_v; exact J|]. intros q q' [Jq _]. exact Jq.
    + rewrite (rx_hdl _ _ J). destruct (_ && _); [exact I|]. destruct (_ <? _); [|exact I]. split; [|reflexivity]. destruct J as [T1 A L H1 B]. split; cbn [fst b_tabs b_trk b_hdl b_told]; auto.
Qed.
Lemma db_plays_v fuel schs cs cs' : Forall2 rcall cs cs' -> forall x y d, rdb schs x d -> rx x y -> Forall (db_ty schs) cs ->
  ro (fun l l' => l' = each_answer ganswer cs l) (db_plays pr umax fuel x cs) (db_plays pr umax fuel y cs').
Proof.
  intro F. induction F as [|c c' cs cs' H F IH]; intros x y d D J T; [reflexivity|]. inversion T as [|? ? T1 T2]; subst. cbn [db_plays].
  pose proof (db_acts_ok pr umax fuel schs x d c D T1) as Q. pose proof (db_acts_v fuel x y c c' J) as V.
  assert (Ty : forall p e, nth_error (b_tabs x) p = Some e -> Forall (row_ty (s_cols (was p))) (p_rows (snd e)) /\ nth_error schs p = Some (was p)).
  { intros p e E. pose proof (rx_tabs _ _ J p) as Q1. rewrite E in Q1. destruct (nth_error (b_tabs y) p); [|contradiction]. destruct Q1 as [<- _]. destruct D as (U & _ & _ & <-). split; [|rewrite nth_error_map, E; reflexivity].
    exact (ru_typed x _ p e U E). }
  specialize (V (fun p e E => proj1 (Ty p e E))). assert (T1' : match c with On p c => forall e, nth_error (b_tabs x) p = Some e -> call_ty (s_cols (was p)) c | _ => True end).
  { destruct c; try exact I. intros e E. apply T1. apply (Ty _ _ E). }
  specialize (V T1' H). destruct (db_acts pr umax fuel x c) as [[x1 z]| |], (db_acts pr umax fuel y c') as [[y1 z']| |]; try contradiction; try exact I.
  destruct V as [J1 E1]. cbn [fst snd after] in *. destruct Q as ([d1 z1] & _ & D1 & _). cbn [fst snd] in D1. eapply ro_after; [apply (IH x1 y1 d1 D1 J1 T2)|].
  intros l l' ->. cbn. unfold each_answer. cbn. rewrite E1, (rx_told _ _ J), (rx_told _ _ J1). reflexivity.
Qed.
End Views.

Lemma each_nth f schs p : nth_error (each_table f schs) p = option_map (f p) (nth_error schs p).
Proof.
  unfold each_table. rewrite nth_error_map. assert (X : forall (l : list schema) i q, nth_error (combine (seq i (length l)) l) q = option_map (fun s => (i + q, s)) (nth_error l q)).
  { induction l as [|x l IH]; intros i [|q]; try reflexivity; cbn; [rewrite Nat.add_0_r; reflexivity|]. rewrite IH. destruct (nth_error l q); cbn; [|reflexivity]. rewrite Nat.add_succ_r. reflexivity. }
  rewrite X. destruct (nth_error schs p); reflexivity.
Qed.
(** New databases. *)
Lemma new_v was is view K schs f : (forall p sch, nth_error schs p = Some sch -> was p = sch /\ is p = f p sch) -> rx was is view K (pls_new schs) (pls_new (each_table f schs)).
Proof.
  intro H. split; cbn [pls_new b_tabs b_trk b_hdl b_told]; try reflexivity.
  - intro p. rewrite !nth_error_map, each_nth. destruct (nth_error schs p) as [s0|] eqn:E; cbn; [|exact I]. destruct (H _ _ E) as [E1 E2]. split; [symmetry; exact E1|]. rewrite E2. reflexivity.
  - intro p. assert (X : forall l : list schema, nth p (map (fun _ => @nil tracker) l) [] = []) by (intro l; revert p; clear; induction l as [|x l IH]; intros [|p]; try reflexivity; apply IH). rewrite !X. constructor.
  - rewrite !map_length. unfold each_table. rewrite map_length, combine_length, seq_length. lia.
Qed.
(** From plain lists to databases. *)
Lemma said_v umax fuel schs schs' rank f cs cs' : Forall (fun s => s_cols s <> []) schs -> Forall (fun s => s_cols s <> []) schs' -> Forall (db_ty schs) cs -> Forall (db_ty schs') cs' ->
  all_db_legal schs rank fuel None cs = true ->
  ro (fun l l' => l' = each_answer f cs l) (db_plays Debug umax fuel (pls_new schs) cs) (db_plays Debug umax fuel (pls_new schs') cs') ->
  match db_talks Debug umax fuel (db_new schs) cs with
  | Ok l => db_talks Debug umax fuel (db_new schs') cs' = Ok (each_answer f cs l)
  | Err e => (exists c, e = EPanic c) /\ exists c, db_talks Debug umax fuel (db_new schs') cs' = panic c
  end.
Proof.
  intros Z Z' T T' L V. pose proof (db_plays_ok Debug umax fuel schs cs _ _ (db_new_ok schs Z) T) as P. pose proof (db_plays_ok Debug umax fuel schs' cs' _ _ (db_new_ok schs' Z') T') as P'.
  pose proof (db_plays_said schs rank umax fuel cs (pls_new schs) None (new_inv schs rank) L) as S0.
  destruct (db_plays Debug umax fuel (pls_new schs) cs) as [l| |], (db_plays Debug umax fuel (pls_new schs') cs') as [l'| |]; try contradiction; try congruence.
  - destruct P as (r & -> & ->), P' as (r' & -> & ->). rewrite V. reflexivity.
  - destruct P as [c ->], P' as [c' ->]. cbn. eauto.
Qed.
Local Notation none := (Sch Append 0 []).

Lemma was_at (schs : list schema) p sch : nth_error schs p = Some sch -> nth p schs none = sch. Proof. apply nth_error_nth. Qed.
Section Choose.
Variables (umax fuel : nat) (pi : nat -> list nat) (schs : list schema).
Hypothesis Hp : forall p sch, nth_error schs p = Some sch -> pi p <> [] /\ NoDup (pi p) /\ Forall (fun k => k < length (s_cols sch)) (pi p).
Local Notation was := (fun p => nth p schs none).
Local Notation is := (fun p => choose_sch (pi p) (nth p schs none)).
Local Notation K := (fun c k k' => c < length schs /\ nth_error (pi c) k' = Some k).
Lemma choose_refer c k k' : K c k k' -> forall a key s, referring (is c) (seen_as (choose_row (pi c)) a) k' key s = referring (was c) a k key s.
Proof.
  intros [B E] a key s. destruct (nth_error schs c) as [sch|] eqn:Es; [|apply nth_error_None in Es; lia]. rewrite (was_at schs _ _ Es). destruct (Hp _ _ Es) as (N & D & Fb).
  unfold referring. cbv zeta. destruct s as [|ids]; [reflexivity|]. rewrite (ch_col (pi c) sch Fb _ _ E). assert (X : forall i, nth k' (row_at (seen_as (choose_row (pi c)) a) i) (VBool false) = nth k (row_at a i) (VBool false)).
  { intro i. change (seen_as (choose_row (pi c)) a) with (choose_pl (pi c) a). rewrite ChooseFacts.cl_row. apply ch_nth. exact E. }
  rewrite sa_len. change (s_imax (choose_sch (pi c) sch)) with (s_imax sch). change (p_found (seen_as (choose_row (pi c)) a)) with (p_found a).
  destruct key, (nth_error (s_cols sch) k) as [[|]|]; try reflexivity.
  1, 2: destruct (_ <=? _); [|reflexivity].
  1, 2: rewrite (filter_ext (there (seen_as (choose_row (pi c)) a)) (there a)) by (intro i; unfold there; rewrite sa_len; reflexivity).
  1, 2: rewrite (map_ext (fun i => nth k' (row_at (seen_as (choose_row (pi c)) a) i) (VBool false)) (fun i => nth k (row_at a i) (VBool false)) X).
  1, 2: destruct (_ && _); [|reflexivity]; f_equal; f_equal; apply filter_ext; intro i; rewrite X; reflexivity.
  f_equal. f_equal. apply flat_map_ext. intro id. apply filter_ext. intro i. rewrite X. reflexivity.
Qed.
Lemma choose_rcall c c' : db_moved pi schs c c' -> rcall K (fun p c c' => p < length schs /\ moved (pi p) (length (s_cols (was p))) c c') c c'.
Proof.
  intros [p sch c0 c1 E H|p c0 k k' key B E|c0 H].
  - constructor. split; [apply nth_error_Some; congruence|]. rewrite (was_at schs _ _ E). exact H.
  - constructor. constructor. split; assumption.
  - destruct c0; try contradiction; try (apply rc_same; exact I). destruct tr; [contradiction|]. constructor. constructor.
Qed.
Theorem db_chosen rank cs cs' : Forall (db_ty schs) cs -> Forall (db_ty (choose_schs pi schs)) cs' -> Forall2 (db_moved pi schs) cs cs' -> all_db_legal schs rank fuel None cs = true ->
  match db_talks Debug umax fuel (db_new schs) cs with
  | Ok l => db_talks Debug umax fuel (db_new (choose_schs pi schs)) cs' = Ok (each_answer (db_choose_answer pi) cs l)
  | Err e => (exists c, e = EPanic c) /\ exists c, db_talks Debug umax fuel (db_new (choose_schs pi schs)) cs' = panic c
  end.
Proof.
  intros T T' F L. assert (Z : Forall (fun s => s_cols s <> []) schs).
  { apply Forall_forall. intros s0 I0. apply In_nth_error in I0. destruct I0 as [p E]. destruct (Hp _ _ E) as (N & _ & B). destruct (pi p); [congruence|]. inversion B as [|? ? B1 _]; subst. intro X. rewrite X in B1. cbn in B1. lia. }
  assert (Z' : Forall (fun s => s_cols s <> []) (choose_schs pi schs)).
  { apply Forall_forall. intros s0 I0. apply In_nth_error in I0. destruct I0 as [p E]. unfold choose_schs in E. rewrite each_nth in E. destruct (nth_error schs p) as [s1|] eqn:E1; [|discriminate E]. injection E as <-.
    destruct (Hp _ _ E1) as (N & _ & _). destruct (pi p); [congruence|discriminate]. }
  assert (F' : Forall2 (rcall K (fun p c c' => p < length schs /\ moved (pi p) (length (s_cols (was p))) c c')) cs cs') by (clear - F Hp; induction F as [|c c' cs cs' H F IH]; constructor; [apply choose_rcall; exact H|exact IH]).
  apply (said_v umax fuel schs _ rank _ cs cs' Z Z' T T' L).
  refine (db_plays_v Debug umax was is (fun p => choose_row (pi p)) K _ _ _ (fun p c c' => p < length schs /\ moved (pi p) (length (s_cols (was p))) c c') (fun p _ a => choose_answer (pi p) a) _ _ fuel schs cs cs' F' _ _ _ (db_new_ok schs Z) _ T); [reflexivity|reflexivity|exact choose_refer| | |].
  - intros p c c' [_ H]. destruct H; reflexivity.
  - intros p a c c' Ty Tc [B H]. destruct (nth_error schs p) as [sch|] eqn:Es; [|apply nth_error_None in Es; lia]. rewrite (was_at schs _ _ Es) in *.
    destruct (Hp _ _ Es) as (N & D & Fb). exact (ChooseFacts.cl_acts Debug umax (pi p) sch D Fb a c c' (ChooseFacts.typed_good sch _ Ty) Tc H).
  - apply new_v. intros p sch E. cbn. rewrite (was_at schs _ _ E). split; reflexivity.
Qed.
End Choose.

Section Rename.
Variables (umax fuel : nat) (rho : nat -> nat -> val -> val) (ts : nat -> list ctype) (schs : list schema).
Hypothesis Hp : forall p sch, nth_error schs p = Some sch -> s_cols sch <> [] /\ same_indexes (s_cols sch) (ts p).
Local Notation was := (fun p => nth p schs none).
Local Notation is := (fun p => with_types (nth p schs none) (ts p)).
Local Notation K := (fun c k k' => c < length schs /\ k' = k /\ forall v, rho c k v = v).
Lemma rename_refer c k k' : K c k k' -> forall a key s, referring (is c) (seen_as (rename_row (rho c)) a) k' key s = referring (was c) a k key s.
Proof.
  intros (B & -> & E) a key s. destruct (nth_error schs c) as [sch|] eqn:Es; [|apply nth_error_None in Es; lia]. rewrite (was_at schs _ _ Es). destruct (Hp _ _ Es) as (N & D).
  unfold referring. cbv zeta. destruct s as [|ids]; [reflexivity|]. pose proof (col_at _ _ D k) as C. change (s_cols (with_types sch (ts c))) with (ts c).
  assert (X : forall i, nth k (row_at (seen_as (rename_row (rho c)) a) i) (VBool false) = nth k (row_at a i) (VBool false)).
  { intro i. change (seen_as (rename_row (rho c)) a) with (rename_pl (rho c) a). rewrite RenameFacts.cl_row, !nth_def. unfold rename_row. rewrite rn_error. destruct (nth_error (row_at a i) k); [apply E|reflexivity]. }
  rewrite sa_len. change (s_imax (with_types sch (ts c))) with (s_imax sch). change (p_found (seen_as (rename_row (rho c)) a)) with (p_found a).
  destruct key, (nth_error (s_cols sch) k) as [[|]|], (nth_error (ts c) k) as [[|]|]; try contradiction; try reflexivity.
  1, 2: destruct (_ <=? _); [|reflexivity].
  1, 2: rewrite (filter_ext (there (seen_as (rename_row (rho c)) a)) (there a)) by (intro i; unfold there; rewrite sa_len; reflexivity).
  1, 2: rewrite (map_ext (fun i => nth k (row_at (seen_as (rename_row (rho c)) a) i) (VBool false)) (fun i => nth k (row_at a i) (VBool false)) X).
  1, 2: destruct (_ && _); [|reflexivity]; f_equal; f_equal; apply filter_ext; intro i; rewrite X; reflexivity.
  f_equal. f_equal. apply flat_map_ext. intro id. apply filter_ext. intro i. rewrite X. reflexivity.
Qed.
Lemma rename_rcall c c' : db_renamed rho schs c c' -> rcall K (fun p c c' => p < length schs /\ renamed (rho p) (length (s_cols (was p))) c c') c c'.
Proof.
  intros [p sch c0 c1 E H|p c0 k key B E|c0 H].
  - constructor. split; [apply nth_error_Some; congruence|]. rewrite (was_at schs _ _ E). exact H.
  - constructor. constructor. split; [exact B|]. split; [reflexivity|exact E].
  - destruct c0; try contradiction; try (apply rc_same; exact I). destruct tr; [contradiction|]. constructor. constructor.
Qed.
Theorem db_renaming rank cs cs' : Forall (db_ty schs) cs -> Forall (db_ty (retyped ts schs)) cs' -> Forall2 (db_renamed rho schs) cs cs' -> all_db_legal schs rank fuel None cs = true ->
  match db_talks Debug umax fuel (db_new schs) cs with
  | Ok l => db_talks Debug umax fuel (db_new (retyped ts schs)) cs' = Ok (each_answer (db_rename_answer rho) cs l)
  | Err e => (exists c, e = EPanic c) /\ exists c, db_talks Debug umax fuel (db_new (retyped ts schs)) cs' = panic c
  end.
Proof.
  intros T T' F L. assert (Z : Forall (fun s => s_cols s <> []) schs).
  { apply Forall_forall. intros s0 I0. apply In_nth_error in I0. destruct I0 as [p E]. apply (Hp _ _ E). }
  assert (Z' : Forall (fun s => s_cols s <> []) (retyped ts schs)).
  { apply Forall_forall. intros s0 I0. apply In_nth_error in I0. destruct I0 as [p E]. unfold retyped in E. rewrite each_nth in E. destruct (nth_error schs p) as [s1|] eqn:E1; [|discriminate E]. injection E as <-.
    destruct (Hp _ _ E1) as (N & D). cbn. intro X. rewrite X in D. unfold same_indexes in D. destruct (s_cols s1); [congruence|inversion D]. }
  assert (F' : Forall2 (rcall K (fun p c c' => p < length schs /\ renamed (rho p) (length (s_cols (was p))) c c')) cs cs') by (clear - F Hp; induction F as [|c c' cs cs' H F IH]; constructor; [apply rename_rcall; exact H|exact IH]).
  apply (said_v umax fuel schs _ rank _ cs cs' Z Z' T T' L).
  refine (db_plays_v Debug umax was is (fun p => rename_row (rho p)) K _ _ _ (fun p c c' => p < length schs /\ renamed (rho p) (length (s_cols (was p))) c c') (fun p c a => rename_answer (rho p) c a) _ _ fuel schs cs cs' F' _ _ _ (db_new_ok schs Z) _ T); [reflexivity|reflexivity|exact rename_refer| | |].
  - intros p c c' [_ H]. destruct H; reflexivity.
  - intros p a c c' Ty Tc [B H]. destruct (nth_error schs p) as [sch|] eqn:Es; [|apply nth_error_None in Es; lia]. rewrite (was_at schs _ _ Es) in *.
    destruct (Hp _ _ Es) as (N & D). exact (RenameFacts.cl_acts Debug umax (rho p) sch (ts p) D a c c' (RenameFacts.typed_good sch _ Ty) Tc H).
  - apply new_v. intros p sch E. cbn. rewrite (was_at schs _ _ E). split; reflexivity.
Qed.
End Rename.

(** Other builds. *)
Lemma db_any_build umax umax' pr fuel d cs l : umax <= umax' -> db_talks Debug umax fuel d cs = Ok l -> db_talks pr umax' fuel d cs = Ok l.
Proof. intros H E. destruct (talks_ov umax umax' pr H fuel cs d) as [O|O]; [rewrite O in E; discriminate E|congruence]. Qed.
Theorem db_chosen_any : forall umax umax' pr, umax <= umax' -> forall fuel pi schs,
  (forall p sch, nth_error schs p = Some sch -> pi p <> [] /\ NoDup (pi p) /\ Forall (fun k => k < length (s_cols sch)) (pi p)) ->
  forall rank cs cs' l, Forall (db_ty schs) cs -> Forall (db_ty (choose_schs pi schs)) cs' -> Forall2 (db_moved pi schs) cs cs' -> all_db_legal schs rank fuel None cs = true ->
  db_talks Debug umax fuel (db_new schs) cs = Ok l -> db_talks pr umax' fuel (db_new (choose_schs pi schs)) cs' = Ok (each_answer (db_choose_answer pi) cs l).
Proof. intros umax umax' pr H fuel pi schs Hp rank cs cs' l T T' F L E. pose proof (db_chosen umax fuel pi schs Hp rank cs cs' T T' F L) as X. rewrite E in X. exact (db_any_build _ _ _ _ _ _ _ H X). Qed.
Theorem db_renaming_any : forall umax umax' pr, umax <= umax' -> forall fuel rho ts schs,
  (forall p sch, nth_error schs p = Some sch -> s_cols sch <> [] /\ same_indexes (s_cols sch) (ts p)) ->
  forall rank cs cs' l, Forall (db_ty schs) cs -> Forall (db_ty (retyped ts schs)) cs' -> Forall2 (db_renamed rho schs) cs cs' -> all_db_legal schs rank fuel None cs = true ->
  db_talks Debug umax fuel (db_new schs) cs = Ok l -> db_talks pr umax' fuel (db_new (retyped ts schs)) cs' = Ok (each_answer (db_rename_answer rho) cs l).
Proof. intros umax umax' pr H fuel rho ts schs Hp rank cs cs' l T T' F L E. pose proof (db_renaming umax fuel rho ts schs Hp rank cs cs' T T' F L) as X. rewrite E in X. exact (db_any_build _ _ _ _ _ _ _ H X). Qed.
