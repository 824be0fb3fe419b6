(** The row id that stands for no row. *)
From Coq Require Import List.
From Verif Require Import Base Column Table.

(** [INVALID], macros/output.rs:202-207, and [Default] of row ids, src/index.rs:105-111: the greatest number of the type
    of ids.  Simplification: the type is unsigned and not wider than [usize], so that
    [usize::MAX as RawType] is that number; RawIds.v (C106) has the other types. *)
Definition invalid (s : schema) : nat := s_imax s.
