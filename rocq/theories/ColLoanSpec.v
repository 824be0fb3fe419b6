(** Vocabulary of the property of columns and locks. *)
From Coq Require Import List Arith Bool.
From Verif Require Import Base Context ContextUnwind ColLoan.
Import ListNotations.

(** Universes whose tables have these columns, none of them longer than others; nothing locked. *)
Definition idle (types : list nat) (s : lworld) : Prop :=
  Forall (fun t => length t = length types /\ exists n, Forall (fun c => length c = n) t) (lw_tabs s) /\
  length (lw_period s) = length (lw_tabs s) /\ lw_vars s = [].
(** Columns are swapped only between locks of the table in one universe; or never. *)
Definition swaps_at_home (s : lworld) (o : lop) : Prop :=
  match o with
  | LSwap v _ v' _ => forall x x', the_var s v = Some x -> the_var s v' = Some x' -> lv_uni x = lv_uni x'
  | _ => True
  end.
Fixpoint all_at_home (types : list nat) (s : lworld) (os : list lop) : Prop :=
  match os with
  | [] => True
  | o :: os => swaps_at_home s o /\ all_at_home types (fst (l_step types s o)) os
  end.
Definition no_swap (o : lop) : Prop := match o with LSwap _ _ _ _ => False | _ => True end.

(** The same program on tables whose rows are accessed by their names: variables are universe and mode, no references. *)
Record pworld := PW { pw_tabs : tabs; pw_vars : list (option (nat * bool)) }.
Definition p_var (s : pworld) (v : nat) : option (nat * bool) := match nth_error (pw_vars s) v with Some x => x | None => None end.
Definition p_blocked (s : pworld) (u : nat) (w : bool) : bool :=
  existsb (fun x => match x with Some (u', w') => (u' =? u) && (w || w') | None => false end) (pw_vars s).
Definition p_column (s : pworld) (u k : nat) : list nat := nth k (nth u (pw_tabs s) []) [].
(** [None]: waits.  Out of bounds: nothing happens. *)
Definition p_step (s : pworld) (o : lop) : option (pworld * option nat) :=
  match o with
  | LLock u w => if p_blocked s u w then None else Some (PW (pw_tabs s) (pw_vars s ++ [Some (u, w)]), None)
  | LDrop v => Some (PW (pw_tabs s) (upd (pw_vars s) v None), None)
  | LGet v k i _ => Some (s, match p_var s v with Some (u, _) => nth_error (p_column s u k) i | None => None end)
  | LSet v k i y _ =>
      Some (match p_var s v with
            | Some (u, _) => PW (upd (pw_tabs s) u (upd (nth u (pw_tabs s) []) k (upd (p_column s u k) i y))) (pw_vars s)
            | None => s
            end, None)
  | LPush v row =>
      Some (match p_var s v with
            | Some (u, _) => PW (upd (pw_tabs s) u (map (fun p => fst p ++ [snd p]) (combine (nth u (pw_tabs s) []) row))) (pw_vars s)
            | None => s
            end, None)
  | LSwap _ _ _ _ => Some (s, None)
  end.
Fixpoint p_run (s : pworld) (os : list lop) : pworld * list (option nat) * bool :=
  match os with
  | [] => (s, [], true)
  | o :: os => match p_step s o with
               | Some (s, a) => let '(s, r, b) := p_run s os in (s, a :: r, b)
               | None => (s, [], false)
               end
  end.
