(** Vocabulary of the property of dynamic libraries (C79). *)
From Coq Require Import List Arith Bool.
From Verif Require Import Base Names Table Extract Registry Libs.
Import ListNotations.

(** The same calls in a program without libraries *)
Fixpoint erase (os : list lop) : list rop :=
  match os with [] => [] | LDo _ o :: os => o :: erase os | _ :: os => erase os end.
(** What they give *)
Fixpoint r_answers (w : world) (os : list rop) : list (res (option nat)) :=
  match os with [] => [] | o :: os => r_ans w o :: r_answers (fst (r_step w o)) os end.
(** What the calls give with libraries (not [clone_globals], [sync_globals]) *)
Fixpoint l_answers (l : lworld) (os : list lop) : list (res (option nat)) :=
  match os with
  | [] => []
  | LDo m o :: os => l_ans l (LDo m o) :: l_answers (fst (l_step l (LDo m o))) os
  | o :: os => l_answers (fst (l_step l o)) os
  end.
(** The answers to everything *)
Fixpoint l_all (l : lworld) (os : list lop) : list (res (option nat)) :=
  match os with [] => [] | o :: os => l_ans l o :: l_all (fst (l_step l o)) os end.
Definition caller (o : lop) : nat := match o with LDo m _ | LClone m | LSync m _ => m end.
(** As the documentation asks: what is passed to [sync_globals] are the globals of the main program, and each library calls it
    before it does anything else. *)
Definition proper (n : nat) (os : list lop) : Prop :=
  forall i o, nth_error os i = Some o -> caller o < n /\
    match o with
    | LSync _ h => h = 0
    | LDo m _ => m = 0 \/ exists j, j < i /\ nth_error os j = Some (LSync m 0)
    | LClone _ => True
    end.
Definition is_ok {A} (x : res A) : Prop := exists a, x = Ok a.
