(** [context!]: src/context.rs. *)
From Coq Require Import List Arith Bool.
From Verif Require Import Base.
Import ListNotations.

(** A type of lock: TYPE_NAME, TypeId, size (src/context.rs:30-37; macros/output.rs:1800-1813,
    src/property.rs:159-178), the RwLock it locks, and whether for writing.  Numbers stand for the strings. *)
Record lockty := LT { lt_name : nat; lt_tid : nat; lt_size : nat; lt_res : nat; lt_write : bool }.
(** A lock guard.  [g_dirty]: it has unflushed changes, so dropping it panics (macros/output.rs:845-851). *)
Record guard := G { g_id : nat; g_ty : lockty; g_dirty : bool }.
Inductive lock_event := LAcquire (g : guard) | LRelease (g : guard).
(** All guards that exist; what was locked and released so far (only observed). *)
Record world := Wd { wd_held : list guard; wd_next : nat; wd_trace : list lock_event }.

Definition conflict (a b : lockty) : bool := (lt_res a =? lt_res b) && (lt_write a || lt_write b).
(** std's RwLock; [EDeadlock]: has to wait for one of the guards to be dropped *)
Definition acquire (wd : world) (l : lockty) : res (world * guard) :=
  if existsb (fun g => conflict (g_ty g) l) (wd_held wd) then Err EDeadlock
  else let g := G (wd_next wd) l false in
       Ok (Wd (wd_held wd ++ [g]) (S (wd_next wd)) (wd_trace wd ++ [LAcquire g]), g).
Definition drop_guard (wd : world) (g : guard) : res world :=
  if g_dirty g then panic PNotFlushed
  else Ok (Wd (filter (fun h => negb (g_id h =? g_id g)) (wd_held wd)) (wd_next wd) (wd_trace wd ++ [LRelease g])).

(** src/context.rs:88-92 *)
Fixpoint ctx_new (wd : world) (fields : list lockty) : res (world * list guard) :=
  match fields with
  | [] => Ok (wd, [])
  | f :: fields =>
      let* p := acquire wd f in
      let* q := ctx_new (fst p) fields in
      Ok (fst q, snd p :: snd q)
  end.

(** The variables [$i: Option<Lock>] of src/context.rs:147-149.  [SZeroed]: [Some(mem::zeroed())]. *)
Inductive slot := SNone | SZeroed | SSome (g : guard).

Fixpoint position (n : nat) (fields : list lockty) : option (nat * lockty) :=
  match fields with
  | [] => None
  | f :: fields => if lt_name f =? n then Some (0, f)
                   else match position n fields with Some (i, f) => Some (S i, f) | None => None end
  end.
(** src/context.rs:151-169, the closure: which slot for a name, with its type; the slot is zeroed *)
Definition field_for (fields : list lockty) (slots : list slot) (n : nat) : list slot * option (nat * lockty) :=
  match position n fields with
  | Some (i, f) => match nth_error slots i with
                   | Some SNone => (upd slots i SZeroed, Some (i, f))
                   | _ => (slots, None)
                   end
  | None => (slots, None)
  end.
(** src/context.rs:108-131, for one field of the old context *)
Definition release_field (fields : list lockty) (s : world * list slot) (g : guard) : res (world * list slot) :=
  let q := field_for fields (snd s) (lt_name (g_ty g)) in
  match snd q with
  | None => let* wd := drop_guard (fst s) g in Ok (wd, fst q)
  | Some (i, f) =>
      if negb (lt_tid (g_ty g) =? lt_tid f) then panic PTypeId
      else if negb (lt_size f =? lt_size (g_ty g)) then panic PTypeId
      else Ok (fst s, upd (fst q) i (SSome g))
  end.

(** Contexts and tuples of contexts, src/context.rs:197-245 *)
Inductive old_ctx := OldCtx (gs : list guard) | OldUnit | OldTuple1 (a : old_ctx) | OldTuple2 (a b : old_ctx)
| OldTuple3 (a b c : old_ctx).
Fixpoint release_fields (fields : list lockty) (o : old_ctx) (s : world * list slot) : res (world * list slot) :=
  match o with
  | OldCtx gs => fold_res (release_field fields) gs s
  | OldUnit => Ok s
  | OldTuple1 a => release_fields fields a s
  | OldTuple2 a b => let* s := release_fields fields a s in release_fields fields b s
  | OldTuple3 a b c => let* s := release_fields fields a s in let* s := release_fields fields b s in release_fields fields c s
  end.

(** src/context.rs:170-175 and 177-181: lock what is missing.  Simplification: each variable is unwrapped right
    after its turn. *)
Fixpoint fill (wd : world) (fields : list lockty) (slots : list slot) : res (world * list guard) :=
  match fields, slots with
  | f :: fields, s :: slots =>
      let* p := match s with
                | SNone => acquire wd f
                | SZeroed => Err EUB
                | SSome g => Ok (wd, g)
                end in
      let* q := fill (fst p) fields slots in
      Ok (fst q, snd p :: snd q)
  | [], [] => Ok (wd, [])
  | _, _ => panic PRustType
  end.
(** src/context.rs:140-183 *)
Definition ctx_from (wd : world) (fields : list lockty) (o : old_ctx) : res (world * list guard) :=
  let* s := release_fields fields o (wd, map (fun _ => SNone) fields) in
  fill (fst s) fields (snd s).
