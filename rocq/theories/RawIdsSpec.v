(** Vocabulary of the property of ids of any integer type (C106). *)
From Coq Require Import List ZArith Bool.
From Verif Require Import Base RowRange RawIds.
Import ListNotations.
Local Open Scope Z_scope.

(** A number of the type *)
Definition of_ty (t : ity) (z : Z) : Prop := t_min t <= z <= t_max t.
(** A natural number that both types hold *)
Definition both (t us : ity) (n : nat) : Prop := Z.of_nat n <= t_max t /\ Z.of_nat n <= t_max us.
(** The same outcome with integers for natural numbers *)
Definition lift {A B} (f : A -> B) (x : res A) : res B := match x with Ok a => Ok (f a) | Err e => Err e end.
Definition z_of_range (r : rrange) : zrange := ZR (Z.of_nat (r_start r)) (Z.of_nat (r_end r)).
Definition z_of_iter (i : riter) : ziter := ZI (Z.of_nat (it_i i)) (Z.of_nat (it_end i)).
Definition z_of_item (p : riter * option nat) : ziter * option Z := (z_of_iter (fst p), option_map Z.of_nat (snd p)).
(** The numbers from [a] to [b] without [b] *)
Definition from_to (a b : Z) : list Z := map (fun n => a + Z.of_nat n) (seq 0 (Z.to_nat (b - a))).
