(** Threads that panic, for the examples of PropsPoison.v, and a way to run them. *)
From Coq Require Import List Arith Bool ZArith Lia.
From Verif Require Import Base BaseFacts Names Column Order RowRange Table Visit SortedTab BagTab TableSpec Hist Cases Events Cascade
  CascadeSpec CascadeCases Extract ExtractSpec ExtractCases Threads ThreadSpec ThreadSeq ThreadFacts ThreadCases Poison PoisonSpec PoisonFacts.
Import ListNotations.

Definition free_forb (c : threads) (l : lock) (wr : bool) : bool := forallb (fun t => lets (fst t) l wr) (th_ts c) && not_leaked (th_x c) l wr.
Lemma free_forb_iff c l wr : free_forb c l wr = true <-> free_for c l wr.
Proof. unfold free_forb, free_for. rewrite andb_true_iff, forallb_forall. reflexivity. Qed.
(** A table of which the last column is gone and whose first row is on the free list. *)
Definition torn (t : table) : table := Tab (t_sch t) (removelast (t_cols t)) [0].
Definition tear (l : lock) (x : xuni) : xuni :=
  match l with
  | LT p => match nth_error (u_tabs (xu_u x)) p with Some t => XU (u_put (xu_u x) p (torn t)) (xu_fl x) | None => x end
  | LF _ => x
  end.
Lemma tear_half l x : half_done l x (tear l x).
Proof. destruct l as [p|p]; cbn; [|constructor]. destruct (nth_error (u_tabs (xu_u x)) p) eqn:E; [|constructor]. eapply half_table; [exact E|reflexivity]. Qed.
Definition cmove (d : crowd) (i : nat) : option crowd :=
  let c := cr_c d in
  match nth_error (th_ts c) i with
  | Some (g, Acq l wr k) => if free_forb c l wr then
      if existsb (lock_eqb l) (cr_bad d) then Some (CR (TH (th_x c) (upd (th_ts c) i (g, Ret (panic PPoisoned)))) (cr_bad d))
      else Some (CR (TH (th_x c) (upd (th_ts c) i ((l, wr) :: g, k))) (cr_bad d)) else None
  | Some (g, Rel l wr k) => Some (CR (TH (th_x c) (upd (th_ts c) i (drop_guard l wr g, k))) (cr_bad d))
  | Some (g, Act f k) => let q := f (th_x c) in Some (CR (TH (fst q) (upd (th_ts c) i (g, k (snd q)))) (cr_bad d))
  | Some ((l, false) :: g, Ret (Err e)) => Some (CR (TH (th_x c) (upd (th_ts c) i (g, Ret (Err e)))) (cr_bad d))
  | Some ((l, true) :: g, Ret (Err e)) => Some (CR (TH (tear l (th_x c)) (upd (th_ts c) i (g, Ret (Err e)))) (l :: cr_bad d))
  | _ => None
  end.
Lemma lock_eqb_eq a b : lock_eqb a b = true <-> a = b.
Proof. destruct a, b; cbn; rewrite ?Nat.eqb_eq; split; intro H; try discriminate; try congruence. Qed.
Lemma cmove_step d i d' : cmove d i = Some d' -> crowd_step d d'.
Proof.
  unfold cmove. destruct (nth_error (th_ts (cr_c d)) i) as [[g m]|] eqn:E; [|discriminate].
  destruct d as [[x ts] bad]. cbn [cr_c cr_bad th_x th_ts] in *. destruct (nth_error_split _ _ E) as (a & b & -> & <-).
  destruct m as [[u|e]| |l wr k|l wr k|C h k]; try (destruct g as [|[l [|]] g]; discriminate).
  - destruct g as [|[l [|]] g]; [discriminate| |]; intros [= <-]; rewrite upd_middle; [apply cs_unwind_write; apply tear_half|apply cs_unwind_read].
  - intro M0. assert (M : (if free_forb (TH x (a ++ (g, Acq l wr k) :: b)) l wr then if existsb (lock_eqb l) bad then
      Some (CR (TH x (upd (a ++ (g, Acq l wr k) :: b) (List.length a) (g, Ret (panic PPoisoned)))) bad)
      else Some (CR (TH x (upd (a ++ (g, Acq l wr k) :: b) (List.length a) ((l, wr) :: g, k))) bad) else None) = Some d') by (destruct g as [|[? [|]] ?]; exact M0).
    clear M0. destruct (free_forb _ l wr) eqn:M1; [|discriminate]. apply free_forb_iff in M1. destruct (existsb (lock_eqb l) bad) eqn:X; injection M as <-; rewrite upd_middle.
    + apply cs_poisoned; [exact M1|]. apply existsb_exists in X. destruct X as (l' & Hin & El). apply lock_eqb_eq in El. subst. exact Hin.
    + apply cs_acq; [exact M1|]. intro Hin. assert (existsb (lock_eqb l) bad = true) by (apply existsb_exists; exists l; split; [exact Hin|apply lock_eqb_eq; reflexivity]). congruence.
  - intro M. assert (M' : Some (CR (TH x (upd (a ++ (g, Rel l wr k) :: b) (List.length a) (drop_guard l wr g, k))) bad) = Some d') by (destruct g as [|[? [|]] ?]; exact M).
    injection M' as <-. rewrite upd_middle. apply cs_rel.
  - intro M. assert (M' : Some (CR (TH (fst (h x)) (upd (a ++ (g, Act h k) :: b) (List.length a) (g, k (snd (h x))))) bad) = Some d') by (destruct g as [|[? [|]] ?]; exact M).
    injection M' as <-. rewrite upd_middle. apply cs_act.
Qed.
Fixpoint cmoves (n : nat) (d : crowd) (i : nat) : crowd :=
  match n with 0 => d | S n => match cmove d i with Some d => cmoves n d i | None => d end end.
Fixpoint cschedule (l : list (nat * nat)) (d : crowd) : crowd :=
  match l with [] => d | (i, n) :: l => cschedule l (cmoves n d i) end.
Lemma cmoves_steps n : forall d i, crowd_steps d (cmoves n d i).
Proof.
  induction n as [|n IH]; intros d i; cbn [cmoves]; [constructor|]. destruct (cmove d i) eqn:E; [|constructor].
  eapply crowd_steps_trans; [|apply IH]. econstructor; [constructor|]. exact (cmove_step _ _ _ E).
Qed.
Lemma cschedule_steps l : forall d, crowd_steps d (cschedule l d).
Proof. induction l as [|[i n] l IH]; intro d; cbn [cschedule]; [constructor|]. eapply crowd_steps_trans; [apply cmoves_steps|apply IH]. Qed.

(** One thread deletes a row that is not there after it pushed one; another deletes a row of table 0 and so, by the
    cascade, wants table 1; another pushes to table 3. *)
Definition clumsy := [[TDo (XFlush 1 [OPush [VInt 13; VRow 0]; ODelete 99] ev_create)]; [TDo (XFlush 0 [ODelete 1] ev_delete)];
  [TDo (XFlush 3 [OPush [VInt 22; VRow 0]] ev_create)]].
Definition crash (l : list (nat * nat)) := cschedule l (begun town_x (map (prun foreign order 3) clumsy)).
(** The first has table 1 and panicked, the second waits for table 1. *)
Definition falling := crash [(0, 2); (1, 99)].
(** Afterwards. *)
Definition fallen := crash [(0, 99); (1, 99); (2, 99)].
Lemma town_made : made Debug 255 (xu_u town_x).
Proof.
  intros [|[|[|[|p]]]] t; cbn [nth_error xu_u town_x u_tabs].
  - intros [= <-]. change (t_sch _) with (sch Consistent). reached three.
  - intros [= <-]. change (t_sch _) with (sch Consistent). reached kids.
  - intros [= <-]. change (t_sch _) with (sch Sorted). reached ranked.
  - intros [= <-]. change (t_sch _) with (sch Consistent). reached grandkids.
  - destruct p; discriminate.
Qed.
Lemma clumsy_ty : Forall (Forall (top_ty (xu_u town_x))) clumsy.
Proof.
  constructor; [|constructor; [|constructor; [|constructor]]]; (constructor; [|constructor]); cbn [top_ty xu_u town_x u_tabs nth_error]; intros t [= <-];
    repeat constructor; cbn; eauto.
Qed.
