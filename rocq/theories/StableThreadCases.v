(** Threads for the examples of PropsStableThreads.v. *)
From Coq Require Import List Arith Bool ZArith.
From Verif Require Import Base Column RowRange Table Hist Cases Events Cascade CascadeCases Extract ExtractCases Threads ThreadSpec ThreadCases BlameSpec BlameCases
  StableThreadSpec.
Import ListNotations.

(** The states through which a schedule leads. *)
Fixpoint moves_in (n : nat) (h : list threads) (c : threads) (i : nat) : list threads * threads :=
  match n with 0 => (h, c) | S n => match move c i with Some c => moves_in n (c :: h) c i | None => (h, c) end end.
Fixpoint through (l : list (nat * nat)) (h : list threads) (c : threads) : list threads * threads :=
  match l with [] => (h, c) | (i, n) :: l => let q := moves_in n h c i in through l (fst q) (snd q) end.
Lemma moves_in_history c0 n : forall h c i, history c0 h c -> history c0 (fst (moves_in n h c i)) (snd (moves_in n h c i)).
Proof.
  induction n as [|n IH]; intros h c i H; cbn [moves_in]; [exact H|]. destruct (move c i) as [c'|] eqn:E; [|exact H].
  apply IH. econstructor; [exact H|exact (move_step _ _ _ E)].
Qed.
Lemma through_history c0 l : forall h c, history c0 h c -> history c0 (fst (through l h c)) (snd (through l h c)).
Proof. induction l as [|[i n] l IH]; intros h c H; cbn [through]; [exact H|]. apply IH. apply moves_in_history. exact H. Qed.
Definition states (l : list (nat * nat)) (c : threads) : list threads := fst (through l [c] c).
Definition state (l : list (nat * nat)) (c : threads) : threads := snd (through l [c] c).
Lemma states_history l c : history c (states l c) (state l c).
Proof. apply through_history. constructor. Qed.
Definition always (h : list threads) (p i : nat) : bool := forallb (fun c => match found c p i with Some _ => true | None => false end) h.
Lemma always_found h p i : always h p i = true -> forall c, In c h -> found c p i <> None.
Proof. unfold always. rewrite forallb_forall. intros A c H. specialize (A c H). destruct (found c p i); discriminate. Qed.

(** One thread deletes row 1 of table 0; a second one row 1 of table 1, and pushes a row there; a third one stores into row 0 of table 1. *)
Definition bustle := reuse ++ [[TDo (XFlush 1 [OAssign 0 0 (VInt 99)] ev_create)]].
Definition bustle_begins := started town_x (map (prun foreign order 3) bustle).
Definition mingled := [(0, 12); (1, 9); (2, 99); (1, 99); (0, 99)].
Lemma bustle_ty : Forall (Forall (top_ty (xu_u town_x))) bustle.
Proof.
  apply Forall_app. split; [exact reuse_ty|]. constructor; [|constructor]. constructor; [|constructor]. intros t [= <-]. repeat constructor. cbn. intros ? [= <-]. exact I.
Qed.
Lemma bustle_spares es ev : session bustle 1 es ev -> Forall (spares 2) es.
Proof.
  unfold session, does. intros [(ops & I1 & I2)|(ops & I1 & I2)]; cbn in I1; destruct I1 as [<-|[<-|[<-|[]]]]; cbn in I2;
    repeat match goal with H : _ \/ _ |- _ => destruct H as [H|H] end; try contradiction; try discriminate; injection I2 as <- <-;
    repeat constructor; discriminate.
Qed.

(** One thread replaces all rows of table 0. *)
Definition replaced := [[TDo (XFlush 0 [OClearRaw; OPushAll [[VInt 7; VInt 5]; [VInt 8; VInt 5]]] ev_create)]].
Definition replaced_begins := started town_x (map (prun foreign order 3) replaced).
Lemma replaced_ty : Forall (Forall (top_ty (xu_u town_x))) replaced.
Proof. constructor; [|constructor]. constructor; [|constructor]. intros t [= <-]. repeat constructor; cbn; eauto. Qed.
