(** A small program for the examples of PropsRegistry.v. *)
From Coq Require Import String List Arith Bool.
From Verif Require Import Base Names Table Extract Registry RegistrySpec.
Import ListNotations.

Definition da := nm "fruit".
Definition db := nm "trees".
(** Properties: 0 and 1 are twins (of different initial value), 2 is another one, 3 is a twin of another type, 4 is never registered *)
Definition p0 := PD da (nm "fruit/ripe") 1 5.
Definition p1 := PD da (nm "fruit/ripe") 1 9.
Definition p2 := PD da (nm "fruit/size") 1 7.
Definition p3 := PD da (nm "fruit/ripe") 2 3.
Definition p4 := PD da (nm "fruit/lost") 1 4.
Definition progs := [p0; p1; p2; p3; p4].
(** Tables: apples; leaves, whose tracker tracks apples *)
Definition ta := TD da (nm "apples") [CM (nm "a") (nm "VecCol<u8>") 0] Consistent 10 [].
Definition trk := TK da (nm "apples") 10 true 77.
Definition tb := TD db (nm "leaves") [CM (nm "b") (nm "VecCol<apples::RowId>") 0] Consistent 11 [trk].
(** The name and columns of [ta], but another kind and another type *)
Definition ta' := TD da (nm "apples") [CM (nm "a") (nm "VecCol<u8>") 0] Append 12 [].
Definition ta2 := TD da (nm "apples") [CM (nm "a") (nm "VecCol<u16>") 0] Consistent 13 [].
Definition tc := TD da (nm "pears") [CM (nm "a") (nm "VecCol<u8>") 0] Consistent 14 [].

Definition setup := [RDomain da; RDomain db; RProp 0; RProp 2; RTable ta; RTable tb].
Definition ops1 := setup ++ [RNew [da]; RNew [da; db]; RSet 0 0 6; RWrite 0 ta 3; RWrite 1 ta 4].
Definition w_setup := r_run (w0 progs) setup.
Definition w1 := r_run (w0 progs) ops1.
(** Domain trees only *)
Definition w2 := r_run w1 [RDomain (nm "rocks"); RNew [nm "rocks"]].

Ltac reach ps os := exists ps, os; reflexivity.
Lemma w_setup_reached : RegistrySpec.reached w_setup. Proof. exists progs, setup. reflexivity. Qed.
Lemma w1_reached : RegistrySpec.reached w1. Proof. exists progs, ops1. reflexivity. Qed.
Lemma w2_reached : RegistrySpec.reached w2. Proof. exists progs, (ops1 ++ [RDomain (nm "rocks"); RNew [nm "rocks"]]). reflexivity. Qed.
