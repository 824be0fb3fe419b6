(** Property theorems about contexts: C52. *)
From Coq Require Import List Arith Bool Sorting.Permutation.
From Verif Require Import Base Context ContextSpec ContextFacts Cases.
Import ListNotations.

(** C52.  [from] succeeds exactly if dropping the old context and locking all fields of the new one would: it never
    waits for a lock of the old context.  (The old context is a context or tuple of contexts with nothing unflushed, and
    lock types have unique names.) *)
Theorem C52_from_possible :
  forall wd fields o, world_ok wd -> incl (locks_of o) (wd_held wd) -> NoDup (locks_of o) ->
  names_unique (fields ++ map g_ty (locks_of o)) -> Forall (fun g => g_dirty g = false) (locks_of o) ->
  (exists r, ctx_from wd fields o = Ok r) <-> (exists r, ctx_new (world_without wd (locks_of o)) fields = Ok r).
Proof. exact from_possible. Qed.
Print Assumptions C52_from_possible.
(** ... otherwise it waits for another lock. *)
Theorem C52_from_waits :
  forall wd fields o, world_ok wd -> incl (locks_of o) (wd_held wd) -> NoDup (locks_of o) ->
  names_unique (fields ++ map g_ty (locks_of o)) -> Forall (fun g => g_dirty g = false) (locks_of o) ->
  forall e, ctx_from wd fields o = Err e -> e = EDeadlock.
Proof. exact from_waits. Qed.
Print Assumptions C52_from_waits.

(** C52.  Then it holds exactly the locks of its fields, next to the locks of others.  Some locks of the old context are
    kept, never released; one for each type that is also in the new context.  All others are released
    first, then the missing ones are locked. *)
Theorem C52_from :
  forall wd fields o, world_ok wd -> incl (locks_of o) (wd_held wd) -> NoDup (locks_of o) ->
  names_unique (fields ++ map g_ty (locks_of o)) -> Forall (fun g => g_dirty g = false) (locks_of o) ->
  forall wd' gs, ctx_from wd fields o = Ok (wd', gs) ->
  map g_ty gs = fields /\
  Permutation (wd_held wd') (wd_held (world_without wd (locks_of o)) ++ gs) /\ world_ok wd' /\
  exists kept dropped fresh,
    Permutation (locks_of o) (kept ++ dropped) /\ Permutation gs (kept ++ fresh) /\
    wd_trace wd' = wd_trace wd ++ map LRelease dropped ++ map LAcquire fresh /\
    forall g, In g (locks_of o) -> In (g_ty g) fields -> exists h, In h kept /\ g_ty h = g_ty g.
Proof. exact from_result. Qed.
Print Assumptions C52_from.
(** C52.  Whatever names collide and whatever is unflushed: if [from] returns, every field got a lock of its type. *)
Theorem C52_typed :
  forall wd fields o, ids_unique (fields ++ map g_ty (locks_of o)) ->
  forall wd' gs, ctx_from wd fields o = Ok (wd', gs) -> map g_ty gs = fields.
Proof. exact from_typed. Qed.
Print Assumptions C52_typed.
(** Old: a tuple of a context reading table 1 and writing table 2, and one reading table 1 again.  New: writes table
    2 and 3, reads table 1.  Then: one that wants to read what the old one writes. *)
Definition rd (n : nat) := LT (2 * n) (2 * n) 8 n false.
Definition wr (n : nat) := LT (2 * n + 1) (2 * n + 1) 16 n true.
Example C52_case :
  let other := G 0 (rd 4) false in
  let a := G 1 (rd 1) false in let b := G 2 (wr 2) false in let c := G 3 (rd 1) false in
  let o := OldTuple2 (OldCtx [a; b]) (OldCtx [c]) in
  let wd := Wd [other; a; b; c] 4 [] in
  world_ok wd /\ NoDup (locks_of o) /\ names_unique ([wr 2; wr 3; rd 1] ++ map g_ty (locks_of o)) /\
  ctx_from wd [wr 2; wr 3; rd 1] o =
    Ok (Wd [other; a; b; G 4 (wr 3) false] 5 [LRelease c; LAcquire (G 4 (wr 3) false)], [b; G 4 (wr 3) false; a]) /\
  ctx_new wd [rd 2] = Err EDeadlock /\
  ctx_from wd [rd 2] o = Ok (Wd [other; G 4 (rd 2) false] 5 [LRelease a; LRelease b; LRelease c; LAcquire (G 4 (rd 2) false)], [G 4 (rd 2) false]) /\
  ctx_from wd [wr 4] o = Err EDeadlock.
Proof.
  cbv zeta. split.
  { split; [|split]; cbn; repeat constructor; cbn; intuition discriminate. }
  split; [repeat constructor; cbn; intuition discriminate|]. split.
  { intros x y Hx Hy. cbn in Hx, Hy. intuition (subst; auto; discriminate). }
  calcs.
Qed.
(** Two tables of one name and with columns of the same names but other types: their locks have one TYPE_NAME.  A context
    that holds one is not turned into one that wants the other; into one with both, it is if they are in the
    same order. *)
Example C52_typed_case :
  let a := LT 0 10 16 1 true in let b := LT 0 11 16 2 true in let g := G 0 a false in
  let wd := Wd [g] 1 [] in
  ids_unique ([a; b] ++ map g_ty (locks_of (OldCtx [g]))) /\
  ctx_from wd [b] (OldCtx [g]) = panic PTypeId /\
  ctx_from wd [b; a] (OldCtx [g]) = panic PTypeId /\
  ctx_from wd [a; b] (OldCtx [g]) = Ok (Wd [g; G 1 b false] 2 [LAcquire (G 1 b false)], [g; G 1 b false]).
Proof.
  cbv zeta. split; [|calcs].
  intros x y Hx Hy. cbn in Hx, Hy. intuition (subst; auto; discriminate).
Qed.
