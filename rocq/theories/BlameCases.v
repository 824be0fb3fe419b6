(** Threads for the examples of PropsBlame.v. *)
From Coq Require Import List Arith Bool ZArith Lia.
From Verif Require Import Base BaseFacts Names Column Order RowRange Table Visit SortedTab BagTab TableSpec Hist Cases Events Cascade
  CascadeSpec CascadeCases Extract ExtractSpec ExtractCases Threads ThreadSpec ThreadSeq ThreadFacts ThreadCases BlameSpec.
Import ListNotations.

Lemma moves_history c0 n : forall h c i, history c0 h c -> exists h', history c0 (h' ++ h) (moves n c i).
Proof.
  induction n as [|n IH]; intros h c i H; cbn [moves]; [exists []; exact H|]. destruct (move c i) as [c'|] eqn:E; [|exists []; exact H].
  destruct (IH (c' :: h) c' i) as [h' H']; [econstructor; [exact H|exact (move_step _ _ _ E)]|].
  exists (h' ++ [c']). rewrite <- app_assoc. exact H'.
Qed.
Lemma schedule_history c0 l : forall h c, history c0 h c -> exists h', history c0 (h' ++ h) (schedule l c).
Proof.
  induction l as [|[i n] l IH]; intros h c H; cbn [schedule]; [exists []; exact H|].
  destruct (moves_history c0 n h c i H) as [h1 H1]. destruct (IH _ _ H1) as [h2 H2]. exists (h2 ++ h1). rewrite <- app_assoc. exact H2.
Qed.
Lemma history_starts c0 h c : history c0 h c -> In c0 h.
Proof. induction 1; [left; reflexivity|right; assumption]. Qed.

(** One thread deletes row 1 of table 0; another one deletes row 1 of table 1 and pushes a row that refers to row 2 of table 0. *)
Definition reuse := [[TDo (XFlush 0 [ODelete 1] ev_delete)]; [TDo (XFlush 1 [ODelete 1] ev_delete); TDo (XFlush 1 [OPush [VInt 5; VRow 2]] ev_create)]].
Definition reuse_begins := started town_x (map (prun foreign order 3) reuse).
Lemma reuse_ty : Forall (Forall (top_ty (xu_u town_x))) reuse.
Proof.
  unfold reuse. repeat match goal with |- Forall _ (_ :: _) => constructor | |- Forall _ [] => constructor end; intros t [= <-]; repeat constructor; cbn; eauto.
Qed.
(** Only the first thread runs, until row 1 of table 1 is about to disappear. *)
Definition plain_before := schedule [(0, 20)] reuse_begins.
Definition plain_after := schedule [(0, 21)] reuse_begins.
(** The second thread runs in between. *)
Definition reuse_before := schedule [(0, 12); (1, 99); (0, 8)] reuse_begins.
Definition reuse_after := schedule [(0, 12); (1, 99); (0, 9)] reuse_begins.
Definition reuse_end := schedule [(0, 99)] reuse_after.
Definition rows_at (c : threads) (p : nat) : list (bool * res row) :=
  match nth_error (u_tabs (xu_u (th_x c))) p with Some t => map (fun i => (t_contains t i, t_get_row t i)) (seq 0 (t_len t)) | None => [] end.
