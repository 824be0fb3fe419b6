(** Property theorems about the number of rows that iterators say are to come, C103. *)
From Coq Require Import List Arith Bool Lia.
From Verif Require Import Base RowRange Hints HintsSpec HintsFacts Cases.
Import ListNotations.

(** C103.  Whatever was done with an iterator: unless its position is past its end, [size_hint] returns bounds of the number of rows that
    [next] will give, and that number itself where no deleted rows are to be left out. *)
Theorem C103_right :
  forall pr imax umax len, len <= imax -> imax <= umax -> forall h ops h', made imax len h -> h_run pr imax umax ops h = Ok h' -> ~ overrun h' ->
  exists l hint, yields pr imax h' l /\ h_hint pr umax h' = Ok hint /\ hint_ok (length l) hint /\ (counted h' -> hint = (length l, Some (length l))).
Proof. exact after_right. Qed.
Print Assumptions C103_right.
(** The position is not past the end if the range is not backwards and no more rows are skipped than are left. *)
Theorem C103_not_past :
  forall pr imax umax len, len <= imax -> imax <= umax -> forall h ops h', made imax len h -> ~ overrun h -> skips_rows pr imax umax ops h ->
  h_run pr imax umax ops h = Ok h' -> ~ overrun h'.
Proof. exact after_fits. Qed.
Print Assumptions C103_not_past.
(** Rows 1 2 3 4 of 5: one is taken, two are skipped. *)
Example C103_case :
  let h := HChecked (RI 1 5) in let ops := [ItNext; ItSkip 2] in
  made 7 5 h /\ ~ overrun h /\ skips_rows Debug 7 255 ops h /\ h_run Debug 7 255 ops h = Ok (HChecked (RI 4 5)) /\
  ~ overrun (HChecked (RI 4 5)) /\ h_hint Debug 255 (HChecked (RI 4 5)) = Ok (1, Some 1) /\ yields Debug 7 (HChecked (RI 4 5)) [4].
Proof.
  assert (forall l, yields Debug 7 (HChecked (RI 2 5)) l -> 2 <= length l) as Y.
  { intros l Y. inversion Y as [? ? E|? ? ? ? E Y1]; subst; [discriminate|]. vm_compute in E. injection E as <- <-.
    inversion Y1 as [? ? E|? ? ? ? E Y2]; subst; [discriminate|]. cbn. lia. }
  cbn zeta. split; [apply (M_checked 7 5 (RR 1 5)); reflexivity|]. split; [cbn; lia|]. split.
  { cbn [skips_rows]. intros h' x E. vm_compute in E. injection E as <- <-. split; [intros l _; exact (Y l)|]. intros h' _. exact I. }
  split; [reflexivity|]. split; [cbn; lia|]. split; [reflexivity|].
  eapply Y_more; [reflexivity|]. eapply Y_end. reflexivity.
Qed.
(** A consistent table of 4 rows without row 1; a selection; all of a range. *)
Example C103_case_others :
  (made 7 4 (HConsistent (CI (RI 0 4) [1])) /\ h_run Debug 7 255 [ItNext; ItSkip 9] (HConsistent (CI (RI 0 4) [1])) = panic PRowIdRange /\
   h_run Debug 7 255 [ItNext; ItSkip 1] (HConsistent (CI (RI 0 4) [1])) = Ok (HConsistent (CI (RI 2 4) [1])) /\
   yields Debug 7 (HConsistent (CI (RI 2 4) [1])) [2; 3] /\ h_hint Debug 255 (HConsistent (CI (RI 2 4) [1])) = Ok (0, None)) /\
  h_hint Debug 255 (HThese [6; 2]) = Ok (2, Some 2) /\ h_hint Debug 255 (HAll (HUnchecked (RI 2 5))) = Ok (3, Some 3).
Proof.
  split; [|split; reflexivity]. split; [apply (M_consistent 7 4 (RR 0 4) (RI 0 4)); reflexivity|]. split; [reflexivity|]. split; [reflexivity|].
  split; [|reflexivity]. eapply Y_more; [reflexivity|]. eapply Y_more; [reflexivity|]. eapply Y_end. reflexivity.
Qed.
(** Past the end nothing is to come, but [size_hint] panics in a debug build, and says a number that is not 0 in a release build. *)
Theorem C103_past :
  forall pr imax umax len, len <= imax -> imax <= umax -> forall h ops h', made imax len h -> h_run pr imax umax ops h = Ok h' -> overrun h' ->
  yields pr imax h' [] /\
  match pr with Debug => h_hint pr umax h' = panic POverflow | Release => exists n, h_hint pr umax h' = Ok (n, Some n) /\ umax < n + imax end.
Proof. exact after_wrong. Qed.
Print Assumptions C103_past.
(** C103 is refuted: all of 3 rows of a table, [skip_fast(4)]. *)
Theorem C103_skip_refuted :
  exists it h, ci_from 3 (RR 0 3) = Ok it /\
  (forall pr, h_run pr 7 255 [ItSkip 4] (HChecked it) = Ok h) /\ (forall pr, yields pr 7 h []) /\
  h_hint Debug 255 h = panic POverflow /\ h_hint Release 255 h = Ok (255, Some 255).
Proof.
  exists (RI 0 3), (HChecked (RI 4 3)). split; [reflexivity|]. split; [intros []; reflexivity|]. split; [intros []; eapply Y_end; reflexivity|]. split; reflexivity.
Qed.
Print Assumptions C103_skip_refuted.
(** C103 is refuted: rows 2 to 1 of a table of 3 rows, a range that is accepted. *)
Theorem C103_backwards_refuted :
  exists it, ci_from 3 (RR 2 1) = Ok it /\ (forall pr, yields pr 7 (HChecked it) []) /\
  h_hint Debug 255 (HChecked it) = panic POverflow /\ h_hint Release 255 (HChecked it) = Ok (255, Some 255).
Proof. exists (RI 2 1). split; [reflexivity|]. split; [intros []; eapply Y_end; reflexivity|]. split; reflexivity. Qed.
Print Assumptions C103_backwards_refuted.
