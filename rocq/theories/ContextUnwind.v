(** [context!] again (src/context.rs), with what Context.v leaves out: panics on the way and what they drop, poisoned locks, the memory
    that is zeroed, and several universes. *)
From Coq Require Import List Arith Bool.
From Verif Require Import Base Context.
Import ListNotations.

(** A lock guard: its type, the universe whose table or property it locks, and whether it has unflushed changes
    (macros/output.rs:845-851).  The type says which table or property of a universe ([lt_res]), not which universe. *)
Record hold := HL { h_id : nat; h_ty : lockty; h_uni : nat; h_dirty : bool }.
(** All guards that exist ([h_dirty] is only up to date in the context), the locks that are poisoned (universe, [lt_res]), the universes that have been dropped. *)
Record cworld := CW { cw_held : list hold; cw_next : nat; cw_poison : list (nat * nat); cw_gone : list nat }.
(** How a call ends.  [Aborted]: a second panic while one unwinds.  [Waits]: for a lock that is held. *)
Inductive ending (A : Type) := Done (a : A) | Unwound (c : cause) | Aborted | Undefined | Waits.
Arguments Done {A}. Arguments Unwound {A}. Arguments Aborted {A}. Arguments Undefined {A}. Arguments Waits {A}.
Definition not_done {A B} (e : ending A) : ending B :=
  match e with Done _ => Undefined | Unwound c => Unwound c | Aborted => Aborted | Undefined => Undefined | Waits => Waits end.

Definition is_gone (s : cworld) (h : hold) : bool := mem (h_uni h) (cw_gone s).
Definition poisoned (s : cworld) (u : nat) (l : lockty) : bool :=
  existsb (fun p => (fst p =? u) && (snd p =? lt_res l)) (cw_poison s).
(** The end of a std guard; one for writing poisons its lock if the thread panics. *)
Definition c_release (s : cworld) (panicking : bool) (h : hold) : cworld :=
  CW (filter (fun x => negb (h_id x =? h_id h)) (cw_held s)) (cw_next s)
     (if panicking && lt_write (h_ty h) then (h_uni h, lt_res (h_ty h)) :: cw_poison s else cw_poison s) (cw_gone s).

(** What a panic drops on its way: guards, and guards that are nothing but zeros ([mem::zeroed], src/context.rs:159). *)
Inductive thing := TLock (h : hold) | TZero.
Fixpoint c_unwind {A} (s : cworld) (c : cause) (l : list thing) : cworld * ending A :=
  match l with
  | [] => (s, Unwound c)
  | TZero :: _ => (s, Undefined)
  | TLock h :: l => if h_dirty h then (s, Aborted)
                    else if is_gone s h then (s, Undefined)
                    else c_unwind (c_release s true h) c l
  end.

(** The variables [$i: Option<Lock>] of src/context.rs:147-149; dropped last one first *)
Inductive cslot := CNone | CZero | CSome (h : hold).
Definition slot_things (slots : list cslot) : list thing :=
  flat_map (fun s => match s with CNone => [] | CZero => [TZero] | CSome h => [TLock h] end) (rev slots).

Section From.
(** Whether [mem::zeroed] may make a guard (src/context.rs:159).  The documentation of std calls this undefined behaviour, as guards contain
    references; compilers of the time of the code let it be.
    Simplified: where zeros are the representation of [None], as may be with the guard of a property that is read, line 160 panics instead. *)
Variable zeroing : bool.

(** src/context.rs:104-135 and the closure 151-169, for the guards of the old context, or of a tuple of contexts one after the other
    (197-245). *)
Fixpoint c_move (fields : list lockty) (s : cworld) (slots : list cslot) (hs : list hold) : cworld * ending (list cslot) :=
  match hs with
  | [] => (s, Done slots)
  | h :: hs =>
      let dropped :=
        if is_gone s h then (s, Undefined)
        else if h_dirty h then c_unwind (c_release s true h) PNotFlushed (map TLock hs ++ slot_things slots)
        else c_move fields (c_release s false h) slots hs in
      match position (lt_name (h_ty h)) fields with
      | Some (i, f) =>
          match nth_error slots i with
          | Some CNone =>
              if negb zeroing then (s, Undefined)
              else if negb (lt_tid (h_ty h) =? lt_tid f) || negb (lt_size f =? lt_size (h_ty h)) then
                c_unwind s PTypeId (TLock h :: map TLock hs ++ slot_things (upd slots i CZero))
              else c_move fields s (upd slots i (CSome h)) hs
          | _ => dropped
          end
      | None => dropped
      end
  end.

(** src/context.rs:170-181, and 88-92: lock what is missing.  [done]: the fields before. *)
Fixpoint c_fill (s : cworld) (u : nat) (done : list hold) (fields : list lockty) (slots : list cslot) : cworld * ending (list hold) :=
  match fields, slots with
  | f :: fields, CSome h :: slots => c_fill s u (done ++ [h]) fields slots
  | f :: fields, CNone :: slots =>
      if existsb (fun h => (h_uni h =? u) && conflict (h_ty h) f) (cw_held s) then (s, Waits)
      else if poisoned s u f then c_unwind s PPoisoned (slot_things (map CSome done ++ CNone :: slots))
      else let h := HL (cw_next s) f u false in
           c_fill (CW (cw_held s ++ [h]) (S (cw_next s)) (cw_poison s) (cw_gone s)) u (done ++ [h]) fields slots
  | [], [] => (s, Done done)
  | _, _ => (s, Undefined)
  end.
(** src/context.rs:140-183 *)
Definition c_from (s : cworld) (u : nat) (fields : list lockty) (old : list hold) : cworld * ending (list hold) :=
  match c_move fields s (map (fun _ => CNone) fields) old with
  | (s, Done slots) => c_fill s u [] fields slots
  | (s, e) => (s, not_done e)
  end.
(** src/context.rs:88-92 *)
Definition c_new (s : cworld) (u : nat) (fields : list lockty) : cworld * ending (list hold) :=
  c_fill s u [] fields (map (fun _ => CNone) fields).

(** ** Programs with contexts of several universes *)
(** A context in a variable: the universe it borrows, as rustc sees it, and its guards.  [from] takes a context of any lifetime: its type
    parameter is only asked to be [ReleaseFields] (src/context.rs:140-142), and [TypeId] knows no lifetimes. *)
Record cvar := CV { v_life : nat; v_locks : list hold }.
Record cprog := CP { cp_w : cworld; cp_vars : list (option cvar) }.
Inductive cop :=
| CNew (u : nat) (fields : list lockty)                   (* let v = Ctx::new(&u) *)
| CFrom (u : nat) (fields : list lockty) (vs : list nat)   (* let v = Ctx::from(&u, (v1, v2, ..)) *)
| CUse (v k : nat)                                        (* something is read through field k of v *)
| CMark (v k : nat) (b : bool)                            (* rows are pushed through field k of v, or flushed with live_flush *)
| CDrop (v : nat)                                         (* drop(v) *)
| CGone (u : nat).                                        (* the end of universe u *)
(** What rustc accepts: universes are alive when they are borrowed, variables that are moved are not used again and moved once, and no
    universe ends while it is borrowed. *)
Definition has_var (p : cprog) (v : nat) : bool := match nth_error (cp_vars p) v with Some (Some _) => true | _ => false end.
Definition compiles (p : cprog) (o : cop) : bool :=
  match o with
  | CNew u _ => negb (mem u (cw_gone (cp_w p)))
  | CFrom u _ vs => negb (mem u (cw_gone (cp_w p))) && forallb (has_var p) vs &&
                    (fix once (l : list nat) := match l with [] => true | x :: l => negb (mem x l) && once l end) vs
  | CUse v k | CMark v k _ => match nth_error (cp_vars p) v with Some (Some x) => k <? length (v_locks x) | _ => false end
  | CDrop v => has_var p v
  | CGone u => negb (mem u (cw_gone (cp_w p))) &&
               forallb (fun x => match x with Some x => negb (v_life x =? u) | None => true end) (cp_vars p)
  end.
Definition var_locks (p : cprog) (v : nat) : list hold :=
  match nth_error (cp_vars p) v with Some (Some x) => v_locks x | _ => [] end.
Definition take_vars (p : cprog) (vs : list nat) : list (option cvar) := fold_left (fun l v => upd l v None) vs (cp_vars p).
Definition keep_ctx (s : cworld) (vars : list (option cvar)) (u : nat) (e : ending (list hold)) : cprog * ending unit :=
  match e with
  | Done hs => (CP s (vars ++ [Some (CV u hs)]), Done tt)
  | e => (CP s (vars ++ [None]), not_done e)
  end.
(** One call; a panic is caught. *)
Definition c_step (p : cprog) (o : cop) : cprog * ending unit :=
  let s := cp_w p in
  match o with
  | CNew u fields => let q := c_new s u fields in keep_ctx (fst q) (cp_vars p) u (snd q)
  | CFrom u fields vs => let q := c_from s u fields (flat_map (var_locks p) vs) in keep_ctx (fst q) (take_vars p vs) u (snd q)
  | CUse v k => (p, match nth_error (var_locks p v) k with
                    | Some h => if is_gone s h then Undefined else Done tt
                    | None => Undefined
                    end)
  | CMark v k b =>
      match nth_error (cp_vars p) v with
      | Some (Some x) =>
          match nth_error (v_locks x) k with
          | Some h =>
              if is_gone s h then (p, Undefined)
              else (CP s (upd (cp_vars p) v (Some (CV (v_life x) (upd (v_locks x) k (HL (h_id h) (h_ty h) (h_uni h) b))))), Done tt)
          | None => (p, Undefined)
          end
      | _ => (p, Undefined)
      end
  | CDrop v => let q := c_move [] s [] (var_locks p v) in
               (CP (fst q) (take_vars p [v]), match snd q with Done _ => Done tt | e => not_done e end)
  | CGone u => (CP (CW (cw_held s) (cw_next s) (cw_poison s) (u :: cw_gone s)) (cp_vars p), Done tt)
  end.
(** How a program ends: what the first call that does not return or panic does.  [None]: rustc does not accept it. *)
Fixpoint c_run (p : cprog) (os : list cop) : option (cprog * ending unit) :=
  match os with
  | [] => Some (p, Done tt)
  | o :: os =>
      if compiles p o then
        match c_step p o with
        | (p, (Done _ | Unwound _)) => c_run p os
        | (p, e) => Some (p, e)
        end
      else None
  end.
End From.
