(** Property theorems about contexts that panic (C99) and contexts of several universes (C100). *)
From Coq Require Import List Arith Bool.
From Verif Require Import Base Context ContextSpec ContextUnwind ContextUnwindSpec ContextUnwindFacts Cases.
Import ListNotations.

(** ** C99 A conversion of contexts that fails harms nothing *)
(** C99.  Where lock types have unique names, [from] is no undefined behaviour (if the compiler lets zeroed guards be). *)
Theorem C99_no_ub :
  forall s u fields old, no_collision fields old -> alive s old -> ~ In u (cw_gone s) ->
  snd (c_from true s u fields old) <> Undefined.
Proof. exact from_no_ub. Qed.
Print Assumptions C99_no_ub.
(** C99.  If it panics, a lock of the old context was not flushed, or one that it wanted was poisoned.  Then all locks of the old context, and
    those it has taken, are given back, and nothing else.  What is poisoned then are locks that the old or the new context has for
    writing. *)
Theorem C99_unwound :
  forall z s u fields old s' c, numbered s -> c_from z s u fields old = (s', Unwound c) ->
  ((c = PNotFlushed /\ exists h, In h old /\ h_dirty h = true) \/ (c = PPoisoned /\ some_poisoned s u fields)) /\
  cw_held s' = without old (cw_held s) /\ incl (cw_poison s) (cw_poison s') /\
  (forall x, In x (cw_poison s') -> In x (cw_poison s) \/
     (exists h, In h old /\ lt_write (h_ty h) = true /\ x = (h_uni h, lt_res (h_ty h))) \/
     exists f, In f fields /\ lt_write f = true /\ x = (u, lt_res f)).
Proof. exact from_unwound. Qed.
Print Assumptions C99_unwound.
(** C99.  If everything is flushed and nothing wanted is poisoned, it returns, or waits for locks of others. *)
Theorem C99_returns :
  forall s u fields old, numbered s -> no_collision fields old -> alive s old -> ~ In u (cw_gone s) -> clean old ->
  ~ some_poisoned s u fields -> (exists hs, snd (c_from true s u fields old) = Done hs) \/ snd (c_from true s u fields old) = Waits.
Proof. exact from_returns. Qed.
Print Assumptions C99_returns.
(** C99.  And it does what C52 says. *)
Theorem C99_as_C52 :
  forall u poison gone, ~ In u gone -> forall wd fields o, (forall f, In f fields -> ~ In (u, lt_res f) poison) ->
  forall wd' gs, ctx_from wd fields o = Ok (wd', gs) ->
  c_from true (uni_world u poison gone wd) u fields (map (in_uni u) (locks_of o)) = (uni_world u poison gone wd', Done (map (in_uni u) gs)).
Proof. exact from_agrees. Qed.
Print Assumptions C99_as_C52.
Theorem C99_as_C52_waits :
  forall u poison gone, ~ In u gone -> forall wd fields o, (forall f, In f fields -> ~ In (u, lt_res f) poison) ->
  world_ok wd -> incl (locks_of o) (wd_held wd) -> NoDup (locks_of o) ->
  names_unique (fields ++ map g_ty (locks_of o)) -> Forall (fun g => g_dirty g = false) (locks_of o) ->
  ctx_from wd fields o = Err EDeadlock ->
  snd (c_from true (uni_world u poison gone wd) u fields (map (in_uni u) (locks_of o))) = Waits.
Proof. exact from_agrees_waits. Qed.
Print Assumptions C99_as_C52_waits.
Definition reads (n : nat) := LT (2 * n) (2 * n) 8 n false.
Definition writes (n : nat) := LT (2 * n + 1) (2 * n + 1) 16 n true.
(** Another thread reads table 9.  The old context writes table 2, unflushed, reads table 1 and writes table 3.  The new one wants to
    read table 1: the panic poisons tables 2 and 3.  Flushed: it returns.  If a context wants to write tables 4 and 5 and 5 is poisoned, 4
    is poisoned too. *)
Example C99_case :
  let other := HL 0 (reads 9) 0 false in
  let a := HL 1 (reads 1) 0 false in let b d := HL 2 (writes 2) 0 d in let c := HL 3 (writes 3) 0 false in
  let s := CW [other; a; b true; c] 4 [(0, 5)] [] in
  numbered s /\ no_collision [reads 1] [b true; a; c] /\ alive s [b true; a; c] /\
  c_from true s 0 [reads 1] [b true; a; c] = (CW [other] 4 [(0, 3); (0, 2); (0, 5)] [], Unwound PNotFlushed) /\
  c_from true s 0 [reads 1] [b false; a; c] = (CW [other; a] 4 [(0, 5)] [], Done [a]) /\
  c_from true s 0 [writes 4; writes 5] [a] = (CW [other; b true; c] 5 [(0, 4); (0, 5)] [], Unwound PPoisoned) /\
  c_from true s 0 [writes 9] [a] = (CW [other; b true; c] 4 [(0, 5)] [], Waits).
Proof.
  cbv zeta. split; [repeat constructor|]. split.
  { intros f h Hf Hh. cbn in Hf, Hh. intuition (subst; cbn in *; auto; discriminate). }
  split. { intros h Hh. cbn. auto. }
  calcs.
Qed.

(** C99 is refuted.  Where names collide, the panic drops a guard that is nothing but zeros... *)
Theorem C99_collision :
  forall s u fields a h b f, clean (a ++ h :: b) -> NoDup (map lt_name fields) -> In f fields ->
  lt_name f = lt_name (h_ty h) -> lt_tid f <> lt_tid (h_ty h) -> (forall x, In x a -> lt_name (h_ty x) <> lt_name f) ->
  snd (c_from true s u fields (a ++ h :: b)) = Undefined.
Proof. exact from_collides. Qed.
Print Assumptions C99_collision.
(** ... as with a property that is declared in two modules, which is allowed (C46): the locks of the two statics are of different types with
    one TYPE_NAME (src/property.rs:159-178). *)
Definition twin_a := LT 0 10 8 1 true.
Definition twin_b := LT 0 11 8 1 true.
Theorem C99_refuted :
  exists s u fields old, numbered s /\ alive s old /\ ~ In u (cw_gone s) /\ clean old /\ ids_unique (fields ++ map h_ty old) /\
  snd (c_from true s u fields old) = Undefined.
Proof.
  exists (CW [HL 0 twin_a 0 false] 1 [] []), 0, [twin_b], [HL 0 twin_a 0 false].
  split; [repeat constructor|]. split; [intros h Hh; cbn; auto|]. split; [cbn; auto|].
  split. { intros h Hh. cbn in Hh. intuition (subst; auto). }
  split; [|calc]. intros x y Hx Hy. cbn in Hx, Hy. intuition (subst; auto; discriminate).
Qed.
Print Assumptions C99_refuted.
(** Without unflushed changes nothing aborts; with two unflushed locks the second one does. *)
Theorem C99_aborted :
  forall z s u fields old s', c_from z s u fields old = (s', Aborted) -> exists h, In h old /\ h_dirty h = true.
Proof. exact from_aborted. Qed.
Print Assumptions C99_aborted.
Theorem C99_abort_refuted :
  exists s u fields old, numbered s /\ alive s old /\ no_collision fields old /\ snd (c_from true s u fields old) = Aborted.
Proof.
  exists (CW [HL 0 (writes 1) 0 true; HL 1 (writes 2) 0 true] 2 [] []), 0, [writes 2], [HL 0 (writes 1) 0 true; HL 1 (writes 2) 0 true].
  split; [repeat constructor|]. split; [intros h Hh; cbn; auto|]. split; [|calc].
  intros f h Hf Hh. cbn in Hf, Hh. intuition (subst; cbn in *; auto; discriminate).
Qed.
Print Assumptions C99_abort_refuted.
(** If [mem::zeroed] must not make guards, as its documentation says, no conversion that keeps a lock is allowed. *)
Theorem C99_zeroed :
  forall s u fields old, clean old -> alive s old -> ~ In u (cw_gone s) ->
  (snd (c_from false s u fields old) = Undefined <-> exists h f, In h old /\ In f fields /\ lt_name f = lt_name (h_ty h)).
Proof. exact from_zero. Qed.
Print Assumptions C99_zeroed.
Theorem C99_zeroed_refuted :
  exists s u fields old, numbered s /\ alive s old /\ ~ In u (cw_gone s) /\ clean old /\ no_collision fields old /\
  (exists hs, snd (c_from true s u fields old) = Done hs) /\ snd (c_from false s u fields old) = Undefined.
Proof.
  exists (CW [HL 0 (reads 1) 0 false] 1 [] []), 0, [reads 1], [HL 0 (reads 1) 0 false].
  split; [repeat constructor|]. split; [intros h Hh; cbn; auto|]. split; [cbn; auto|].
  split. { intros h Hh. cbn in Hh. intuition (subst; auto). }
  split. { intros f h Hf Hh. cbn in Hf, Hh. intuition (subst; cbn in *; auto). }
  split; [exists [HL 0 (reads 1) 0 false]; calc|calc].
Qed.
Print Assumptions C99_zeroed_refuted.

(** ** C100 A context's locks are those of its universe *)
(** C100.  No program that rustc accepts, and that gives [from] the universe of the old contexts, does anything undefined. *)
Theorem C100_same_universe :
  forall os p e, names_unique (flat_map op_fields os) -> same_universe start os -> c_run true start os = Some (p, e) -> e <> Undefined.
Proof. exact run_safe. Qed.
Print Assumptions C100_same_universe.
Example C100_case :
  let os := [CNew 0 [reads 1; writes 2]; CNew 1 [writes 1]; CMark 0 1 true; CFrom 0 [writes 2; reads 3] [0]; CUse 2 0;
             CMark 2 0 false; CFrom 1 [writes 1; reads 2] [1]; CDrop 2; CGone 0; CUse 3 0; CDrop 3; CGone 1] in
  names_unique (flat_map op_fields os) /\ same_universe start os /\
  c_run true start os = Some (CP (CW [] 5 [] [1; 0]) [None; None; None; None], Done tt).
Proof.
  cbv zeta. split. { intros x y Hx Hy. cbn in Hx, Hy. intuition (subst; auto; discriminate). }
  split; [|calc]. vm_compute. repeat (split; [solve [auto] || (intros v x Hv; destruct Hv as [<-|[]]; intros E; injection E as <-; auto)|]). auto.
Qed.
(** A context that was converted or dropped is not there any more, and one cannot be given twice. *)
Example C100_case_moved :
  c_run true start [CNew 0 [writes 1]; CFrom 0 [writes 1] [0]; CFrom 0 [writes 1] [0]] = None /\
  c_run true start [CNew 0 [writes 1]; CFrom 0 [writes 1] [0; 0]] = None /\
  c_run true start [CNew 0 [writes 1]; CDrop 0; CDrop 0] = None /\
  c_run true start [CNew 0 [writes 1]; CDrop 0; CUse 0 0] = None.
Proof. calcs. Qed.
(** C100 is refuted: [from] takes a context of any universe, and the new one keeps its locks.  The universe of the locks is not the one that
    was given... *)
Theorem C100_other_refuted :
  exists os p x h, names_unique (flat_map op_fields os) /\ c_run true start os = Some (p, Done tt) /\
  In (Some x) (cp_vars p) /\ In h (v_locks x) /\ h_uni h <> v_life x.
Proof.
  exists [CNew 0 [writes 1]; CFrom 1 [writes 1; reads 2] [0]],
    (CP (CW [HL 0 (writes 1) 0 false; HL 1 (reads 2) 1 false] 2 [] []) [None; Some (CV 1 [HL 0 (writes 1) 0 false; HL 1 (reads 2) 1 false])]),
    (CV 1 [HL 0 (writes 1) 0 false; HL 1 (reads 2) 1 false]), (HL 0 (writes 1) 0 false).
  split. { intros x y Hx Hy. cbn in Hx, Hy. intuition (subst; auto; discriminate). }
  split; [calc|]. split; [right; left; auto|]. split; [left; auto|]. discriminate.
Qed.
Print Assumptions C100_other_refuted.
(** ... and it may end before the context does: rustc sees no borrow of it any more. *)
Theorem C100_refuted :
  exists os p, names_unique (flat_map op_fields os) /\ c_run true start os = Some (p, Undefined).
Proof.
  exists [CNew 0 [writes 1]; CFrom 1 [writes 1] [0]; CGone 0; CUse 1 0],
    (CP (CW [HL 0 (writes 1) 0 false] 1 [] [0]) [None; Some (CV 1 [HL 0 (writes 1) 0 false])]).
  split; [|calc]. intros x y Hx Hy. cbn in Hx, Hy. intuition (subst; auto; discriminate).
Qed.
Print Assumptions C100_refuted.
