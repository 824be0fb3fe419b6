(** What the calls of Hist.v return to the program. *)
From Coq Require Import List Arith Bool.
From Verif Require Import Base Column Order RowRange Table Visit SortedTab BagTab Hist.
Import ListNotations.

Inductive answer :=
| ANothing | ARow (r : row) | AVal (v : val) | AId (i : option nat) | AIds (l : list nat) | ARows (l : list row)
| AItems (l : list (option nat)) (rs : list row) | ASpan (a b : nat).

(** Calls with closures that look at the row they are shown (macros/output.rs:1337, 1418: the closure of [retain] and
    [visit] gets the table and a row id; here it reads that row).  [CMergeLogged] is [merge_logged] (1462) with a closure that
    notes the ids. *)
Inductive call :=
| Do (o : op)
| CRetain (A : Type) (g : A -> row -> A * bool) (s : A)
| CVisit (A : Type) (g : A -> row -> A * action) (s : A)
| CMergeLogged (cmp : row -> row -> comparison) (rows : list row).
Definition shown (w : wlock) (i : nat) : row := match t_get_row (w_tab w) i with Ok r => r | Err _ => [] end.
Definition op_of (c : call) : op :=
  match c with
  | Do o => o
  | CRetain A g s => ORetain A (fun s w i => g s (shown w i)) s
  | CVisit A g s => OVisit A (fun s w i => g s (shown w i)) s
  | CMergeLogged cmp rows => OMergeLogged cmp (list nat) (fun got _ i => got ++ [i]) [] rows
  end.

Section Answers.
Variable pr : profile.
Variable umax : nat.

(** The items of an iterator, and the rows read with them. *)
Definition items (get : nat -> res row) (l : list (option nat)) : res answer :=
  let* rs := map_res (fun o => match o with Some i => get i | None => Ok [] end) l in Ok (AItems l rs).
(** The results of the functions cited in Hist.v. *)
Definition answer_of (st : state) (c : call) : res answer :=
  let t := st_tab st in
  match c, st with
  | Do (OGet i), _ => let* r := t_get_row t i in Ok (ARow r)
  | Do (OCell k i), _ => let* v := t_read t k i in Ok (AVal v)
  | Do (OFind k v), _ => let* l := t_find t k v in Ok (AIds l)
  | Do OLast, _ => let* i := t_last t in Ok (AId i)
  | Do ODump, _ => let* l := t_dump pr t in Ok (ARows l)
  | Do (ORange r its), _ => let* it := t_range t r in let* l := cons_run pr (t_imax t) umax its it in items (t_get_row_checked t) l
  | Do (OIter its), _ => let* it := t_iter t in let* l := cons_run pr (t_imax t) umax its it in items (t_get_row_checked t) l
  | Do (OEdit its), _ => let* it := t_editing t in let* l := cons_run pr (t_imax t) umax its it in items (t_get_row t) l
  | Do ONextPushed, _ => let* i := next_pushed t in Ok (AId (Some i))
  | Do (OPush r), Locked w _ => let* p := push w r in Ok (AId (Some (snd p)))
  | Do (OPushArray rs), Locked w _ => let* p := push_array pr w rs in Ok (ASpan (r_start (snd p)) (r_end (snd p)))
  | Do (OMergeSingle cmp r), Locked w _ => let* p := merge_in_a_single_row pr cmp w r in Ok (AId (Some (snd p)))
  | CMergeLogged cmp rows, Locked w _ => let* p := merge_logged pr cmp (fun got _ i => got ++ [i]) [] w rows in Ok (AIds (fst p))
  | _, _ => Ok ANothing
  end.

(** A program, and all it is told. *)
Fixpoint talks (st : state) (cs : list call) : res (list answer) :=
  match cs with
  | [] => Ok []
  | c :: cs =>
      let* st' := step pr umax st (op_of c) in
      let* a := answer_of st c in
      let* l := talks st' cs in Ok (a :: l)
  end.
End Answers.
