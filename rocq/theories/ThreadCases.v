(** Threads for the examples of PropsThreads.v, and a way to run them. *)
From Coq Require Import List Arith Bool ZArith Lia String.
From Verif Require Import Base BaseFacts Names Column Order RowRange Table Visit SortedTab BagTab TableSpec Hist Cases Events Cascade
  CascadeSpec CascadeCases Extract ExtractSpec ExtractCases Threads ThreadSpec ThreadSeq ThreadFacts.
Import ListNotations.

(** ** Running a schedule *)
Definition may_takeb (c : threads) (l : lock) (wr : bool) : bool :=
  forallb (fun t => lets (owned t) l wr) (th_ts c) && not_leaked (th_x c) l wr.
Lemma may_takeb_iff c l wr : may_takeb c l wr = true <-> may_take c l wr.
Proof. unfold may_takeb, may_take. rewrite andb_true_iff, forallb_forall. reflexivity. Qed.
(** One step of thread [i], if it can. *)
Definition move (c : threads) (i : nat) : option threads :=
  match nth_error (th_ts c) i with
  | Some (g, Acq l wr k) => if may_takeb c l wr then Some (TH (th_x c) (upd (th_ts c) i ((l, wr) :: g, k))) else None
  | Some (g, Rel l wr k) => Some (TH (th_x c) (upd (th_ts c) i (drop_guard l wr g, k)))
  | Some (g, Act f k) => let q := f (th_x c) in Some (TH (fst q) (upd (th_ts c) i (g, k (snd q))))
  | _ => None
  end.
Lemma move_step c i c' : move c i = Some c' -> thread_step c c'.
Proof.
  unfold move. destruct (nth_error (th_ts c) i) as [[g m]|] eqn:E; [|discriminate].
  destruct c as [x ts]. cbn [th_x th_ts] in *. destruct (nth_error_split _ _ E) as (a & b & -> & <-).
  destruct m as [r| |l wr k|l wr k|C h k]; try discriminate.
  - destruct (may_takeb _ l wr) eqn:M; [|discriminate]. intros [= <-]. rewrite upd_middle. apply ts_acq. apply may_takeb_iff. exact M.
  - intros [= <-]. rewrite upd_middle. apply ts_rel.
  - intros [= <-]. rewrite upd_middle. apply ts_act.
Qed.
(** Thread by thread: up to so many steps. *)
Fixpoint moves (n : nat) (c : threads) (i : nat) : threads :=
  match n with 0 => c | S n => match move c i with Some c => moves n c i | None => c end end.
Fixpoint schedule (l : list (nat * nat)) (c : threads) : threads :=
  match l with [] => c | (i, n) :: l => schedule l (moves n c i) end.
Lemma moves_steps n : forall c i, thread_steps c (moves n c i).
Proof.
  induction n as [|n IH]; intros c i; cbn [moves]; [constructor|]. destruct (move c i) eqn:E; [|constructor].
  eapply steps_trans; [|apply IH]. econstructor; [constructor|]. exact (move_step _ _ _ E).
Qed.
Lemma schedule_steps l : forall c, thread_steps c (schedule l c).
Proof. induction l as [|[i n] l IH]; intro c; cbn [schedule]; [constructor|]. eapply steps_trans; [apply moves_steps|apply IH]. Qed.

Definition finishedb (t : guards * prog unit) : bool := match snd t with Ret _ => true | _ => false end.
Lemma finishedb_iff t : finishedb t = true <-> finished t.
Proof. unfold finishedb, finished. destruct (snd t); split; try discriminate; try (intros [? ?]; discriminate); eauto. Qed.
Definition deadlockedb (c : threads) : bool :=
  forallb (fun i => match move c i with Some _ => false | None => true end) (seq 0 (List.length (th_ts c))) &&
  existsb (fun t => negb (finishedb t)) (th_ts c).
Lemma deadlockedb_ok c : deadlockedb c = true -> deadlocked c.
Proof.
  unfold deadlockedb. rewrite andb_true_iff, forallb_forall, existsb_exists. intros [H (t & Hin & F)]. split.
  2:{ exists t. split; [exact Hin|]. rewrite <- finishedb_iff. destruct (finishedb t); discriminate. }
  intros c' S.
  assert (M : forall i, i < List.length (th_ts c) -> move c i = None).
  { intros i L. specialize (H i). destruct (move c i); [|reflexivity]. exfalso. assert (E : false = true) by (apply H; apply in_seq; lia). discriminate. }
  destruct S as [x a g l wr k b T|x a g l wr k b T|x a g l wr k b|x a g B f k b]; specialize (M (List.length a)); cbn [th_ts] in M;
    (assert (L : List.length a < List.length (a ++ b) + 1) by (rewrite app_length; lia)); unfold move in M; cbn [th_ts th_x] in M;
    rewrite nth_error_app2, Nat.sub_diag in M by lia; cbn [nth_error] in M.
  1,2: rewrite (proj2 (may_takeb_iff _ _ _) T) in M.
  all: assert (E : List.length a < List.length (a ++ b) + 1) by exact L; rewrite app_length in M; cbn [List.length] in M;
    specialize (M ltac:(lia)); discriminate.
Qed.
(** The strict rule *)
Definition goes_onb (c : threads) (i : nat) : bool :=
  match nth_error (th_ts c) i with
  | Some (_, Acq l wr _) => may_takeb c l wr && (wr || forallb (fun t => match snd t with Acq l' true _ => negb (lock_eqb l l') | _ => true end) (th_ts c))
  | Some (_, Rel _ _ _) | Some (_, Act _ _) => true
  | _ => false
  end.
Lemma goes_onb_ok c i : goes_onb c i = false -> ~ goes_on c i.
Proof.
  unfold goes_onb. intros H (t & E & G). rewrite E in H. destruct t as [g m]. cbn [snd] in G. destruct m as [r| |l wr k|l wr k|C h k]; try contradiction; try discriminate.
  destruct G as [G1 G2]. rewrite (proj2 (may_takeb_iff _ _ _) G1) in H. cbn [andb] in H. destruct wr; [discriminate|]. cbn [orb] in H.
  specialize (G2 eq_refl). rewrite (proj2 (forallb_forall _ _)) in H; [discriminate|]. intros [g' m'] Hin. specialize (G2 _ (match m' with Acq _ _ k => k | _ => Endless end) Hin).
  cbn [snd] in *. destruct m' as [r| |l' [|] k'|l' wr k'|C h k']; try reflexivity. destruct (lock_eqb l l') eqn:El; [|reflexivity].
  elim G2. destruct l, l'; cbn in El; try discriminate; apply Nat.eqb_eq in El; subst; reflexivity.
Qed.

(** ** The threads *)
Notation prun := (Threads.p_run Debug 255 heads).
Definition x_id := Eval vm_compute in XU (xu_u x0) [FS true [] 0; fs_new; fs_new].
Lemma x_id_calm : calm town_rank (fun _ => True) x_id.
Proof.
  split.
  - intros p c k key H. change (xu_u x_id) with (xu_u (world dst_p dst_c (t_new (sch Sorted)))) in H. apply trackers_case in H.
    destruct H as [H|H]; inversion H; subst; cbn; lia.
  - intros [|[|[|p]]] f; cbn; try (intros [= <-]; split; reflexivity). destruct p; discriminate.
Qed.
(** A live flush of table 0 while table 1, that refers to it, is restored. *)
Definition live_vs_restore := [[TDo (XLive 0 [ODelete 0] ev_delete)]; [TDo (XRestore 1 e_c ev_create)]].
Definition c1 := schedule [(0, 1); (1, 1); (0, 99); (1, 99)] (started x_id (map (prun foreign order 3) live_vs_restore)).
(** A flush of table 0, while tables 0 and 1 are restored. *)
Definition two_restores := [[TDo (XFlush 0 [ODelete 0] ev_delete)]; [TDo (XRestore 0 e_p ev_create)]; [TDo (XRestore 1 e_c ev_create)]].
Definition c2 := schedule [(0, 7); (2, 1); (0, 99); (1, 99); (2, 99)] (started x_id (map (prun foreign order 3) two_restores)).
(** Table 1 refers to table 0 with both columns; it is restored while table 0 is flushed. *)
Definition foreign2 (p : nat) : list (nat * nat) := match p with 1 => [(0, 0); (1, 0)] | _ => [] end.
Definition kids3 := [OLock; OPushAll [[VRow 0; VRow 2]]; OFlush true ev_create].
Definition e_2 := Eval vm_compute in got (extract_selection Debug (heads 1) (tab_of (at_end Consistent kids3)) SAll).
Definition reader_vs_writer := [[TDo (XRestore 1 e_2 ev_create)]; [TDo (XFlush 0 [ODelete 0] ev_delete)]].
Definition c3 := schedule [(0, 4); (1, 99)] (started x_id (map (prun foreign2 order 3) reader_vs_writer)).
(** Table 3 and then table 1 are locked while a flush of table 0 goes down to table 3. *)
Definition town_x := Eval vm_compute in XU town [fs_new; fs_new; fs_new; fs_new].
Lemma town_x_calm : calm town_rank (fun _ => True) town_x.
Proof.
  split; [exact town_acyclic|]. intros [|[|[|[|p]]]] f; cbn; try (intros [= <-]; split; reflexivity). destruct p; discriminate.
Qed.
Definition locks_vs_flush := [[TDo (XFlush 0 [ODelete 1] ev_delete)]; [TLocks [(3, true); (1, true)]]].
Definition c4 := schedule [(0, 10); (1, 99); (0, 99); (1, 99)] (started town_x (map (prun foreign order 3) locks_vs_flush)).
(** Orderly threads: a flush, a live flush, a restored table, a tracker, an observer, tables locked in order. *)
Definition quiet := [[TDo (XFlush 0 [ODelete 1] ev_delete); TSelect 1 ev_create SAll]; [TDo (XLive 1 [OPush [VInt 5; VRow 0]] ev_create)];
  [TLocks [(0, true); (1, false); (3, true)]]; [TDo (XRegister 1 (TUser true (fun _ => true))); TDo (XIdentity 0)]; [TDo (XRestore 0 e_p ev_create)]].
(** Some steps of each, in a mixed order. *)
Definition midway := schedule [(0, 9); (3, 4); (1, 99); (4, 3); (2, 1); (0, 5); (4, 99); (2, 99); (0, 99); (3, 99)] (started town_x (map (prun foreign order 3) quiet)).
Lemma quiet_orderly : Forall (Forall (orderly foreign town_rank (eq 1))) quiet.
Proof. repeat constructor; cbn; try lia; discriminate. Qed.
Lemma town_x_calm1 : calm town_rank (eq 1) town_x.
Proof. destruct town_x_calm as [C1 C2]. split; [exact C1|]. intros p f E. destruct (C2 p f E) as [L R]. split; [exact L|]. intros _. apply R. exact I. Qed.
(** Thread 1 restores table 0 while thread 0 waits for it: after [n] more steps. *)
Definition busy (x : xuni) (n : nat) := schedule [(1, 3); (0, 1); (1, n)] (started x (map (prun foreign order 3) two_restores)).
Lemma x_id_made : made Debug 255 (xu_u x_id).
Proof.
  intros [|[|[|p]]] t; cbn [nth_error xu_u x_id u_tabs].
  - intros [= <-]. change (t_sch _) with (sch Consistent). reached home_p.
  - intros [= <-]. change (t_sch _) with (sch Consistent). reached home_c.
  - intros [= <-]. change (t_sch _) with (sch Sorted). reached (@nil op).
  - destruct p; discriminate.
Qed.
Lemma two_restores_ty : Forall (Forall (top_ty (xu_u x_id))) two_restores.
Proof.
  constructor; [|constructor; [|constructor; [|constructor]]]; (constructor; [|constructor]); cbn [top_ty xu_u x_id u_tabs nth_error]; intros t [= <-].
  - repeat constructor.
  - cbn [t_sch s_cols ex_data e_p]. repeat constructor; cbn; eauto.
  - cbn [t_sch s_cols ex_data e_c]. repeat constructor; cbn; eauto.
Qed.
