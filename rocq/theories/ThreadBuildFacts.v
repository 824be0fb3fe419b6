(** Proofs about threads in debug and release builds. *)
From Coq Require Import List Arith Bool.
From Verif Require Import Base Names Column RowRange Table SortedTab Events Cascade Extract Threads ThreadSpec BuildFacts ThreadBuildSpec.
Import ListNotations.

Fixpoint pov {A} (m m' : prog A) : Prop :=
  match m with
  | Ret r => r = panic POverflow \/ m' = Ret r
  | Endless => m' = Endless
  | Acq l wr k => exists k', m' = Acq l wr k' /\ pov k k'
  | Rel l wr k => exists k', m' = Rel l wr k' /\ pov k k'
  | Act f k => exists B' (f' : xuni -> xuni * B') k', m' = Act f' k' /\ forall x, fst (f x) = fst (f' x) /\ pov (k (snd (f x))) (k' (snd (f' x)))
  end.
Lemma pov_refl {A} (m : prog A) : pov m m.
Proof.
  induction m as [r| |l wr k IH|l wr k IH|B f k IH]; cbn [pov]; [right; reflexivity|reflexivity|exists k; split; [reflexivity|exact IH]..|].
  exists B, f, k. split; [reflexivity|]. intro x. split; [reflexivity|apply IH].
Qed.
Lemma pov_bind {A B} (m : prog A) : forall m' (f g : A -> prog B), pov m m' -> (forall a, pov (f a) (g a)) -> pov (pbind m f) (pbind m' g).
Proof.
  induction m as [r| |l wr k IH|l wr k IH|C h k IH]; intros m' f g P H; cbn [pov] in P.
  - destruct P as [->| ->]; [cbn; left; reflexivity|]. destruct r as [a|e]; cbn [pbind]; [apply H|apply pov_refl].
  - subst m'. reflexivity.
  - destruct P as (k' & -> & P). cbn [pbind pov]. exists (pbind k' g). split; [reflexivity|]. apply IH; assumption.
  - destruct P as (k' & -> & P). cbn [pbind pov]. exists (pbind k' g). split; [reflexivity|]. apply IH; assumption.
  - destruct P as (B' & h' & k' & -> & P). cbn [pbind pov]. exists B', h', (fun b => pbind (k' b) g). split; [reflexivity|].
    intro x. destruct (P x) as [E Q]. split; [exact E|]. apply IH; assumption.
Qed.
Lemma pov_lift {A} (r r' : res A) : ov r r' -> pov (lift r) (lift r').
Proof. intros [->| ->]; [left; reflexivity|apply pov_refl]. Qed.
(** What is read from the universe may differ by an overflow, if it is unwrapped at once. *)
Lemma pov_read {A B} (h h' : xuni -> res A) (f g : A -> prog B) :
  (forall x, ov (h x) (h' x)) -> (forall a, pov (f a) (g a)) ->
  pov (pbind (Act (fun x => (x, h x)) (fun r => Ret (Ok r))) (fun r => pbind (lift r) f)) (pbind (Act (fun x => (x, h' x)) (fun r => Ret (Ok r))) (fun r => pbind (lift r) g)).
Proof.
  intros H K. cbn [pbind pov]. eexists _, _, _. split; [reflexivity|]. intro x. cbn [fst snd]. split; [reflexivity|].
  apply pov_bind; [apply pov_lift; apply H|exact K].
Qed.
Lemma pov_fold {S X} (f g : S -> X -> prog S) : (forall s x, pov (f s x) (g s x)) -> forall l s, pov (p_fold f l s) (p_fold g l s).
Proof. intros H l. induction l as [|x l IH]; intro s; cbn [p_fold]; [apply pov_refl|]. apply pov_bind; [apply H|exact IH]. Qed.

Ltac eqr := match goal with |- pov ?a ?b => constr_eq a b; apply pov_refl end.
Ltac same := apply pov_bind; [apply pov_refl|]; intros ?.

Section B.
Variables (umax umax' : nat) (pr : profile).
Hypothesis Le : umax <= umax'.
Section With.
Variables call call' : nat -> event -> bool -> bool -> select -> prog select.
Hypothesis Call : forall p ev a d s, pov (call p ev a d s) (call' p ev a d s).
Lemma p_flush_ov p w ev : pov (p_flush_with Debug umax call p w ev) (p_flush_with pr umax' call' p w ev).
Proof.
  unfold p_flush_with. destruct (sel_empty (w_changes w)); [apply pov_refl|]. same. same. same. apply pov_bind; [apply Call|]. intro sel. same.
  destruct (ev_removal ev && negb (sel_empty sel)); [|apply pov_refl]. same. same. apply pov_bind; [apply pov_lift; apply flush_apply_ov|]. intro. apply pov_refl.
Qed.
Lemma p_live_ov p w ev : pov (p_live_flush_with Debug umax call p w ev) (p_live_flush_with pr umax' call' p w ev).
Proof.
  unfold p_live_flush_with. destruct (sel_empty (w_changes w)); [apply pov_refl|]. same. same. apply pov_bind; [apply Call|]. intro sel. same.
  apply pov_bind; [apply pov_lift; apply flush_apply_ov|]. intro. apply pov_refl.
Qed.
Lemma p_remove_ov c ev rows : pov (p_remove_rows_with Debug umax call c ev rows) (p_remove_rows_with pr umax' call' c ev rows).
Proof.
  unfold p_remove_rows_with. apply pov_bind; [apply pov_refl|]. intro t. destruct (t_kind t); try eqr.
  - apply pov_bind; [apply pov_refl|]. intros _. apply pov_bind; [apply pov_refl|]. intro t1. cbv zeta. apply pov_bind.
    + apply pov_lift. destruct rows as [|rows]; [apply ov_refl|]. apply ov_fold. intros a b. apply ov_bind; [apply ov_refl|]. intros _. apply delete_raw_ov.
    + intro. apply p_flush_ov.
  - apply pov_bind; [apply pov_refl|]. intros _. apply pov_bind; [apply pov_refl|]. intro t1. cbv zeta. apply pov_bind; [apply pov_refl|]. intro. apply p_flush_ov.
Qed.
Lemma p_handle_ov hd c ev rows : pov (p_handle_with Debug umax call hd c ev rows) (p_handle_with pr umax' call' hd c ev rows).
Proof. unfold p_handle_with. destruct hd; try eqr. apply pov_bind; [apply pov_refl|]. intros _. apply pov_bind; [apply pov_refl|]. intros _. apply p_remove_ov. Qed.
Lemma p_run_with_ov hd c ev rows : pov (p_run_with Debug umax call hd c ev rows) (p_run_with pr umax' call' hd c ev rows).
Proof. unfold p_run_with. apply pov_bind; [apply pov_refl|]. intro r. apply pov_bind; [apply p_handle_ov|]. intros _. same. same. apply pov_bind; [apply Call|]. intros ?. apply pov_refl. Qed.
Lemma p_auto_ov hd c k key ev rows : pov (p_auto_handle Debug umax call hd c k key ev rows) (p_auto_handle pr umax' call' hd c k key ev rows).
Proof.
  unfold p_auto_handle. apply pov_bind; [apply pov_refl|]. intros _. apply pov_bind; [apply pov_refl|]. intro t. apply pov_bind.
  - apply pov_lift. destruct key; [apply select_sorted_ov|apply ov_refl].
  - intro r. apply pov_bind; [apply pov_refl|]. intros _. apply p_run_with_ov.
Qed.
Lemma p_turn_ov hd p ev s x : pov (p_turn Debug umax call hd p ev s x) (p_turn pr umax' call' hd p ev s x).
Proof.
  unfold p_turn. cbv zeta. destruct (tracker_considers _ _); [|apply pov_refl]. apply pov_bind; [apply pov_refl|]. intro b. apply pov_bind; [apply pov_refl|]. intros _.
  apply pov_bind; [|intro; apply pov_refl]. destruct (snd x); [apply p_auto_ov|apply pov_refl].
Qed.
End With.
Lemma p_do_flush_ov fuel : forall p ev a d s, pov (p_do_flush Debug umax fuel p ev a d s) (p_do_flush pr umax' fuel p ev a d s).
Proof.
  induction fuel as [|n IH]; intros p ev a d s; cbn [p_do_flush]; [apply pov_refl|]. apply pov_bind; [apply pov_refl|]. intros _. apply pov_bind; [apply pov_refl|]. intro r.
  apply pov_bind; [apply pov_refl|]. intro hd. apply pov_bind; [apply pov_refl|]. intro trs. apply pov_bind; [|intro; apply pov_refl]. apply pov_fold. intros s0 x. apply p_turn_ov. exact IH.
Qed.
Variables (heads : nat -> header) (foreign : nat -> list (nat * nat)) (order : nat -> row -> row -> comparison).
Lemma p_restore_ov fuel p w e ev : pov (p_restore_extract Debug umax heads foreign order fuel p w e ev) (p_restore_extract pr umax' heads foreign order fuel p w e ev).
Proof.
  unfold p_restore_extract. apply pov_bind; [apply pov_refl|]. intros [er|]; [apply pov_refl|]. cbv zeta.
  apply pov_bind; [apply pov_refl|]. intros _. apply pov_bind; [apply pov_refl|]. intros _. apply pov_bind; [apply pov_refl|]. intro b. apply pov_bind; [apply pov_refl|]. intros _.
  apply (pov_read (fun x => merge_extract Debug foreign order (xu_fl x) p b w e) (fun x => merge_extract pr foreign order (xu_fl x) p b w e)); [intro; apply merge_extract_ov|].
  intro s. apply pov_bind; [apply pov_refl|]. intros _. destruct (sel_empty _); [apply pov_refl|].
  apply pov_bind; [apply pov_refl|]. intros _. apply pov_bind; [apply pov_refl|]. intro r. apply pov_bind; [apply pov_refl|]. intros _. apply pov_bind; [apply pov_refl|]. intros _.
  apply p_flush_ov. apply p_do_flush_ov.
Qed.
Lemma p_step_ov fuel o : pov (p_step Debug umax heads foreign order fuel o) (p_step pr umax' heads foreign order fuel o).
Proof.
  destruct o as [p es ev|p es ev|p e ev|p tr|p]; cbn [p_step]; [| | |apply pov_refl|apply pov_refl].
  - apply pov_bind; [apply pov_refl|]. intros _. apply pov_bind; [apply pov_refl|]. intro t. apply pov_bind; [apply pov_lift; apply do_edits_ov; exact Le|]. intro w.
    apply p_flush_ov. apply p_do_flush_ov.
  - apply pov_bind; [apply pov_refl|]. intros _. apply pov_bind; [apply pov_refl|]. intro t. apply pov_bind; [apply pov_lift; apply do_edits_ov; exact Le|]. intro w.
    apply pov_bind; [apply p_live_ov; apply p_do_flush_ov|]. intro. apply pov_refl.
  - apply pov_bind; [apply pov_refl|]. intros _. apply pov_bind; [apply pov_refl|]. intro t. apply p_restore_ov.
Qed.
Lemma p_run_ov fuel ops : pov (p_run Debug umax heads foreign order fuel ops) (p_run pr umax' heads foreign order fuel ops).
Proof.
  unfold p_run. apply pov_fold. intros _ [o|p ev s|ls]; cbn [p_top]; [apply p_step_ov| |apply pov_refl].
  unfold p_select. same. same. same. apply pov_bind; [apply p_do_flush_ov|]. intro. apply pov_refl.
Qed.
End B.

(** ** Steps *)
Definition near (t t' : guards * prog unit) : Prop := fst t = fst t' /\ pov (snd t) (snd t').
Definition nearc (c c' : threads) : Prop := th_x c = th_x c' /\ Forall2 near (th_ts c) (th_ts c').
Lemma near_stage t t' : near t t' -> snd t <> Ret (panic POverflow) -> stage_of (snd t) = stage_of (snd t').
Proof.
  destruct t as [g m], t' as [g' m']. intros [_ P] N. cbn [snd] in *. destruct m; cbn [pov] in P.
  - destruct P as [->| ->]; [contradiction N; reflexivity|reflexivity].
  - rewrite P. reflexivity.
  - destruct P as (k' & -> & _). reflexivity.
  - destruct P as (k' & -> & _). reflexivity.
  - destruct P as (B' & f' & k' & -> & _). reflexivity.
Qed.
Lemma stage_owned (t t' : guards * prog unit) : fst t = fst t' -> stage_of (snd t) = stage_of (snd t') -> owned t = owned t'.
Proof. destruct t as [g m], t' as [g' m']. cbn [fst snd]. intros -> E. unfold owned. cbn [fst snd]. destruct m as [r| |l wr k|l wr k|B f k], m' as [r'| |l' wr' k'|l' wr' k'|B' f' k']; try discriminate E; try reflexivity. injection E as ->. reflexivity. Qed.
Lemma over_dec (t : guards * prog unit) : {snd t = Ret (panic POverflow)} + {snd t <> Ret (panic POverflow)}.
Proof.
  destruct t as [g m]. cbn [snd]. destruct m as [r| |l wr k|l wr k|B f k]; try (right; discriminate). destruct r as [a|e]; [right; discriminate|].
  destruct e as [c| | |]; try (right; discriminate). destruct c; first [left; reflexivity|right; discriminate].
Qed.
Lemma one_dec c : {one_overflowed c} + {~ one_overflowed c}.
Proof.
  unfold one_overflowed. destruct c as [x ts]. cbn [th_ts]. induction ts as [|t ts [IH|IH]].
  - right. intros (t & [] & _).
  - left. destruct IH as (s & I & E). exists s. split; [right; exact I|exact E].
  - destruct (over_dec t) as [E|E]; [left; exists t; split; [left; reflexivity|exact E]|]. right. intros (s & [->|I] & F); [contradiction|]. apply IH. exists s. split; assumption.
Qed.
Lemma near_alike c c' : nearc c c' -> ~ one_overflowed c -> alike c c'.
Proof.
  destruct c as [x ts], c' as [x' ts']. intros [E F] N. split; [exact E|]. cbn [th_ts] in *. assert (N' : forall t, In t ts -> snd t <> Ret (panic POverflow)) by (intros t I O; apply N; exists t; split; assumption).
  clear N E. induction F as [|t t' l l' P F IH]; constructor.
  - split; [apply P|]. apply near_stage; [exact P|]. apply N'. left. reflexivity.
  - apply IH. intros s I. apply N'. right. exact I.
Qed.
Lemma alike_take c c' l wr : alike c c' -> may_take c l wr <-> may_take c' l wr.
Proof.
  destruct c as [x ts], c' as [x' ts']. intros [E F]. cbn in E. subst x'. unfold may_take. cbn [th_x th_ts] in *.
  assert (H : (forall t, In t ts -> lets (owned t) l wr = true) <-> (forall t, In t ts' -> lets (owned t) l wr = true)).
  { induction F as [|t t' a a' [P Q] F IH]; [split; intros _ s []|]. pose proof (stage_owned _ _ P Q) as O. split; intros H s [<-|I].
    - rewrite <- O. apply H. left. reflexivity.
    - apply (proj1 IH); [|exact I]. intros r J. apply H. right. exact J.
    - rewrite O. apply H. left. reflexivity.
    - apply (proj2 IH); [|exact I]. intros r J. apply H. right. exact J. }
  rewrite H. reflexivity.
Qed.
Lemma step_keeps c d : thread_step c d -> one_overflowed c -> one_overflowed d.
Proof.
  intros S (t & I & E).
  assert (G : forall (a b : list (guards * prog unit)) (u v : guards * prog unit), snd u <> Ret (panic POverflow) -> In t (a ++ u :: b) -> In t (a ++ v :: b)).
  { intros a b u v N J. apply in_app_iff in J. apply in_app_iff. destruct J as [J|[J|J]]; [left; exact J|subst u; contradiction|right; right; exact J]. }
  exists t. split; [|exact E]. destruct S; cbn [th_ts] in *; (eapply G; [|exact I]; discriminate).
Qed.
Definition touched (m : prog unit) : option (xuni -> xuni * prog unit) :=
  match m with Act f k => Some (fun x => (fst (f x), k (snd (f x)))) | _ => None end.

Lemma step_near c d c' : nearc c c' -> ~ one_overflowed c -> thread_step c d -> exists d', thread_step c' d' /\ nearc d d'.
Proof.
  intros N O S. pose proof (near_alike _ _ N O) as A. destruct c' as [x' ts']. destruct S as [x a g l wr k b M|x a g l wr k b M|x a g l wr k b|x a g B f k b];
    destruct N as [E F]; cbn [th_x th_ts] in E, F; subst x'; apply Forall2_app_inv_l in F; destruct F as (a' & r' & Fa & F & ->);
    inversion F as [|u [g' m'] b0 b' [G P] Fb]; subst; cbn [fst snd] in G, P; subst g'; cbn [pov] in P.
  - destruct P as (k' & -> & P). apply (alike_take _ _ l wr A) in M. eexists. split; [apply ts_acq; exact M|]. split; [reflexivity|]. cbn [th_ts].
    apply Forall2_app; [exact Fa|]. constructor; [split; [reflexivity|exact P]|exact Fb].
  - destruct P as (k' & -> & P). apply (alike_take _ _ l wr A) in M. eexists. split; [apply ts_poisoned; exact M|]. split; [reflexivity|]. cbn [th_ts].
    apply Forall2_app; [exact Fa|]. constructor; [split; [reflexivity|apply pov_refl]|exact Fb].
  - destruct P as (k' & -> & P). eexists. split; [apply ts_rel|]. split; [reflexivity|]. cbn [th_ts].
    apply Forall2_app; [exact Fa|]. constructor; [split; [reflexivity|exact P]|exact Fb].
  - destruct P as (B' & f' & k' & -> & P). destruct (P x) as [Ex Px]. eexists. split; [apply ts_act|]. split; [exact Ex|]. cbn [th_ts].
    apply Forall2_app; [exact Fa|]. constructor; [split; [reflexivity|exact Px]|exact Fb].
Qed.
Lemma step_back c c' d' : nearc c c' -> ~ one_overflowed c -> thread_step c' d' -> exists d, thread_step c d /\ nearc d d'.
Proof.
  intros N O S. pose proof (near_alike _ _ N O) as A. destruct c as [x' ts].
  assert (NO : forall t, In t ts -> snd t <> Ret (panic POverflow)) by (intros t I X; apply O; exists t; split; assumption).
  destruct S as [x a g l wr k b M|x a g l wr k b M|x a g l wr k b|x a g B f k b];
    destruct N as [E F]; cbn [th_x th_ts] in E, F; subst x'; apply Forall2_app_inv_r in F; destruct F as (a' & r' & Fa & F & ->);
    inversion F as [|[g' m'] u b' b0 [G P] Fb]; subst; cbn [fst snd] in G, P; subst g';
    (assert (Z : m' <> Ret (panic POverflow)) by (apply (NO (g, m')); apply in_app_iff; right; left; reflexivity));
    destruct m' as [r| |l' wr' k'|l' wr' k'|B' f' k']; cbn [pov] in P;
    try (destruct P as [P|P]; [exfalso; apply Z; rewrite P; reflexivity|]); try discriminate P;
    try (destruct P as (? & P & ?); discriminate P); try (destruct P as (? & ? & ? & P & ?); discriminate P).
  - destruct P as (k1 & Y & P). injection Y as <- <- <-. apply (alike_take _ _ l wr A) in M. eexists. split; [apply ts_acq; exact M|]. split; [reflexivity|]. cbn [th_ts].
    apply Forall2_app; [exact Fa|]. constructor; [split; [reflexivity|exact P]|exact Fb].
  - destruct P as (k1 & Y & P). injection Y as <- <- <-. apply (alike_take _ _ l wr A) in M. eexists. split; [apply ts_poisoned; exact M|]. split; [reflexivity|]. cbn [th_ts].
    apply Forall2_app; [exact Fa|]. constructor; [split; [reflexivity|apply pov_refl]|exact Fb].
  - destruct P as (k1 & Y & P). injection Y as <- <- <-. eexists. split; [apply ts_rel|]. split; [reflexivity|]. cbn [th_ts].
    apply Forall2_app; [exact Fa|]. constructor; [split; [reflexivity|exact P]|exact Fb].
  - destruct P as (B1 & f1 & k1 & Y & P). apply (f_equal touched) in Y. cbn [touched] in Y. injection Y as Y. apply (f_equal (fun h => h x)) in Y. injection Y as Y1 Y2.
    destruct (P x) as [Ex Px]. eexists. split; [apply ts_act|]. split; [cbn [th_x]; congruence|]. cbn [th_ts].
    apply Forall2_app; [exact Fa|]. constructor; [split; [reflexivity|]|exact Fb]. cbn [snd]. rewrite Y2. exact Px.
Qed.
Lemma steps_keep c d : thread_steps c d -> one_overflowed c -> one_overflowed d.
Proof. intros S O. induction S as [|c d e S IH T]; [exact O|]. apply (step_keeps _ _ T). apply IH. exact O. Qed.
Lemma steps_near c d : thread_steps c d -> ~ one_overflowed d -> forall c', nearc c c' -> exists d', thread_steps c' d' /\ nearc d d'.
Proof.
  intros S. induction S as [c|c d e S IH T]; intros O c' N; [exists c'; split; [constructor|exact N]|].
  assert (O' : ~ one_overflowed d) by (intro X; apply O; exact (step_keeps _ _ T X)).
  destruct (IH O' c' N) as (d' & S' & N'). destruct (step_near _ _ _ N' O' T) as (e' & T' & N''). exists e'. split; [econstructor; eassumption|exact N''].
Qed.
Lemma steps_back c' d' : thread_steps c' d' -> forall c, nearc c c' -> exists d, thread_steps c d /\ (one_overflowed d \/ nearc d d').
Proof.
  intros S. induction S as [c'|c' d' e' S IH T]; intros c N; [exists c; split; [constructor|right; exact N]|].
  destruct (IH c N) as (d & S1 & [O|N1]); [exists d; split; [exact S1|left; exact O]|].
  destruct (one_dec d) as [O|O]; [exists d; split; [exact S1|left; exact O]|].
  destruct (step_back _ _ _ N1 O T) as (e & T1 & N2). exists e. split; [econstructor; eassumption|right; exact N2].
Qed.
Lemma started_near umax umax' pr heads foreign order fuel x tss : umax <= umax' ->
  nearc (started x (map (p_run Debug umax heads foreign order fuel) tss)) (started x (map (p_run pr umax' heads foreign order fuel) tss)).
Proof.
  intro Le. unfold nearc, started. cbn [th_x th_ts]. split; [reflexivity|]. rewrite !map_map. induction tss as [|o tss IH]; cbn [map]; constructor; [|exact IH].
  unfold near. cbn [fst snd]. split; [reflexivity|]. apply p_run_ov. exact Le.
Qed.
Theorem threads_near umax umax' pr heads foreign order fuel x tss c : umax <= umax' ->
  thread_steps (started x (map (p_run Debug umax heads foreign order fuel) tss)) c -> one_overflowed c \/
  exists c', thread_steps (started x (map (p_run pr umax' heads foreign order fuel) tss)) c' /\ alike c c'.
Proof.
  intros Le S. destruct (one_dec c) as [O|O]; [left; exact O|right]. destruct (steps_near _ _ S O _ (started_near umax umax' pr heads foreign order fuel x tss Le)) as (c' & S' & N).
  exists c'. split; [exact S'|]. apply near_alike; assumption.
Qed.
Theorem threads_back umax umax' pr heads foreign order fuel x tss c' : umax <= umax' ->
  thread_steps (started x (map (p_run pr umax' heads foreign order fuel) tss)) c' ->
  exists c, thread_steps (started x (map (p_run Debug umax heads foreign order fuel) tss)) c /\ (one_overflowed c \/ alike c c').
Proof.
  intros Le S. destruct (steps_back _ _ S _ (started_near umax umax' pr heads foreign order fuel x tss Le)) as (c & S' & [O|N]); exists c; (split; [exact S'|]); [left; exact O|].
  destruct (one_dec c) as [O|O]; [left; exact O|]. right. apply near_alike; assumption.
Qed.
