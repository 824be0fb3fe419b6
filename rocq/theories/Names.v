(** Names: src/intern.rs:6-20. *)
From Coq Require Import List Arith Bool String Ascii.
From Verif Require Import Base.
Import ListNotations.

(** A [str] as the list of its chars (code points). *)
Notation name := (list nat) (only parsing).
(** The str of an ASCII literal. *)
Definition nm (s : string) : name := map nat_of_ascii (list_ascii_of_string s).

Fixpoint name_eqb (a b : name) : bool :=
  match a, b with
  | [], [] => true
  | x :: a, y :: b => (x =? y) && name_eqb a b
  | _, _ => false
  end.

(** [c >= lo && c <= hi] *)
Definition between (lo hi : ascii) (c : nat) : bool := (nat_of_ascii lo <=? c) && (c <=? nat_of_ascii hi).

(** src/intern.rs:13-19: the loop over all chars *)
Fixpoint check_chars (n : name) : res unit :=
  match n with
  | [] => Ok tt
  | c :: n =>
      if c =? nat_of_ascii "_" then check_chars n
      else if between "A" "Z" c then check_chars n
      else if between "a" "z" c then check_chars n
      else if between "0" "9" c then check_chars n
      else panic PBadName
  end.

(** src/intern.rs:6-20 *)
Definition check_name (n : name) : res unit :=
  let* _ := match n with
            | [] => panic PBadName
            | c :: _ => if c =? nat_of_ascii "_" then panic PBadName
                        else if between "A" "Z" c || between "a" "z" c then Ok tt else panic PBadName
            end in
  check_chars n.
