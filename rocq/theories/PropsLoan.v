(** Property theorems about references whose lifetimes are stretched: a bag's iterator (C101) and the columns of a lock (C102). *)
From Coq Require Import List Arith Bool.
From Verif Require Import Base Context ContextUnwind BagLoan BagLoanSpec BagLoanFacts ColLoan ColLoanSpec ColLoanFacts Cases.
Import ListNotations.

(** ** C101 What the iterator of a bag hands out can be used *)
(** C101.  A program that uses what [next] gave only until it uses the iterator again returns: whatever it does to the table meanwhile. *)
Theorem C101_loop :
  forall rows os s r e, like_a_loop false (b_start rows) os -> b_run (b_start rows) os = Some (s, r, e) -> e = Done tt.
Proof. exact run_loop. Qed.
Print Assumptions C101_loop.
(** Rows 7 8 9.  Row 7 is deleted, then 9, which takes its place, is read and 6 is pushed; 8 is deleted when the iterator is dropped. *)
Example C101_case :
  let os := [BNext; BGet 0 0; BMark 0; BNext; BGet 1 0; BPush 1 6; BNext; BGet 2 1; BMark 2; BDrop] in
  like_a_loop false (b_start [7; 8; 9]) os /\
  b_run (b_start [7; 8; 9]) os = Some (BW [9; 6] [None] [0] None [BI 1 None; BI 2 (Some (0, 0)); BI 3 None],
    [Some 0; Some 7; None; Some 0; Some 9; None; Some 1; Some 8; None; None], Done tt).
Proof. split; [vm_compute; repeat (split; [reflexivity|]); exact I|calc]. Qed.

(** What a program does that has nothing undefined is what such a loop is to do, also where the iterator is moved. *)
Theorem C101_effect :
  forall rows os s r, b_run (b_start rows) os = Some (s, r, Done tt) ->
  exists c, cu_run (CU rows 0 None false) os = (c, r) /\ cu_rows c = bw_rows s.
Proof. exact run_as_loop. Qed.
Print Assumptions C101_effect.
(** The iterator is moved while its row is to be deleted; a row is deleted too many. *)
Example C101_effect_case :
  let os := [BNext; BNext; BMark 1; BMove; BNext; BGet 2 1; BMove; BNext; BDelete 3 0; BMark 3; BDelete 3 2; BNext; BDrop] in
  exists s, b_run (b_start [5; 6; 7; 8]) os = Some (s, [Some 0; Some 1; None; None; Some 1; Some 8; None; Some 2; None; None; None; None; None], Done tt) /\
  bw_rows s = [7; 8] /\ cu_run (CU [5; 6; 7; 8] 0 None false) os =
    (CU [7; 8] 3 (Some 2) true, [Some 0; Some 1; None; None; Some 1; Some 8; None; Some 2; None; None; None; None; None]).
Proof. eexists. split; [|split]; calc. Qed.

(** C101 is refuted of other programs that rustc accepts: once the iterator has been moved or dropped, [delete] of every item left writes to
    memory where it was... *)
Theorem C101_left_behind :
  forall rows os s r o, b_run (b_start rows) os = Some (s, r, Done tt) -> In o [BMove; BDrop] -> b_compiles s o = true ->
  forall j, b_compiles (fst (b_step s o)) (BMark j) = true -> snd (b_step (fst (b_step s o)) (BMark j)) = Undefined.
Proof. exact left_behind. Qed.
Print Assumptions C101_left_behind.
(** ... and when there is a new item, the reference to the table of every older one is an alias. *)
Theorem C101_alias :
  forall rows os s r i, b_run (b_start rows) os = Some (s, r, Done tt) -> b_compiles s BNext = true -> snd (b_step s BNext) = Done (Some i) ->
  forall j k, j < length (bw_items s) -> snd (b_step (fst (b_step s BNext)) (BGet j k)) = Undefined.
Proof. exact one_reference. Qed.
Print Assumptions C101_alias.
(** [let v: Vec<_> = bag.iter_mut().collect(); v[0].1.delete()] *)
Theorem C101_collect_refuted : exists s r, b_run (b_start [7; 8]) [BMove; BNext; BNext; BNext; BDrop; BMark 0] = Some (s, r, Undefined).
Proof. eexists _, _. calc. Qed.
Print Assumptions C101_collect_refuted.
(** [let (t, d) = bag.iter_mut().find(..).unwrap(); d.delete()] *)
Theorem C101_find_refuted : exists s r, b_run (b_start [7; 8]) [BNext; BNext; BDrop; BMark 1] = Some (s, r, Undefined).
Proof. eexists _, _. calc. Qed.
Print Assumptions C101_find_refuted.
(** [let (a, _) = it.next().unwrap(); let (b, _) = it.next().unwrap(); b.push(..); a.get_row(..)] *)
Theorem C101_alias_refuted : exists s r, b_run (b_start [7; 8]) [BNext; BNext; BPush 1 9; BGet 0 0] = Some (s, r, Undefined).
Proof. eexists _, _. calc. Qed.
Print Assumptions C101_alias_refuted.

(** ** C102 Columns are used under the lock of their table *)
(** C102.  A program that does not swap columns of locks, or only those of locks of the same table, has nothing undefined... *)
Theorem C102_at_home :
  forall types os s s' r e, idle types s -> all_at_home types s os -> l_run types s os = Some (s', r, e) -> e <> Undefined.
Proof. exact run_at_home. Qed.
Print Assumptions C102_at_home.
(** ... and one that swaps none reads and writes what it names. *)
Theorem C102_named :
  forall types os s s' r e, idle types s -> Forall no_swap os -> l_run types s os = Some (s', r, e) ->
  exists ps b, p_run (PW (lw_tabs s) []) os = (ps, r, b) /\ pw_tabs ps = lw_tabs s' /\ e = (if b then Done tt else Waits).
Proof. exact run_plain. Qed.
Print Assumptions C102_named.
(** Two universes; a table of two columns of one type and one of another. *)
Definition twice : lworld := LW [[[1; 2; 3]; [4; 5; 6]; [7; 8; 9]]; [[]; []; []]] [0; 0] [].
Definition two_types := [5; 5; 6].
Lemma twice_idle : idle two_types twice.
Proof. split; [|split; reflexivity]. repeat constructor; [exists 3; repeat constructor|exists 0; repeat constructor]. Qed.
(** Columns of two read locks of the table are swapped, one lock is given back, the other goes on. *)
Example C102_case :
  let os := [LLock 0 false; LLock 0 false; LLock 1 true; LSwap 0 0 1 1; LGet 0 0 2 true; LPush 2 [11; 12; 13]; LDrop 1; LGet 0 0 1 false;
             LGet 0 1 7 true; LGet 2 2 0 true; LDrop 0; LLock 0 true; LSet 3 1 0 44 true; LGet 3 1 0 false] in
  all_at_home two_types twice os /\
  exists s, l_run two_types twice os = Some (s, [None; None; None; None; Some 6; None; None; Some 5; None; Some 13; None; None; None; Some 44], Done tt) /\
  lw_tabs s = [[[1; 2; 3]; [44; 5; 6]; [7; 8; 9]]; [[11]; [12]; [13]]].
Proof.
  split; [|eexists; split; calc]. vm_compute. repeat (split; [solve [exact I]|]).
  split; [intros x x' E E'; injection E as <-; injection E' as <-; reflexivity|]. repeat (split; [exact I|]). exact I.
Qed.
Example C102_named_case :
  let os := [LLock 0 true; LPush 0 [10; 11; 12]; LLock 1 false; LGet 0 1 3 true; LGet 1 0 0 true; LDrop 0; LLock 0 false; LGet 2 2 3 false; LLock 0 true] in
  Forall no_swap os /\
  exists s, l_run two_types twice os = Some (s, [None; None; None; Some 11; None; None; None; Some 12], Waits) /\
  lw_tabs s = [[[1; 2; 3; 10]; [4; 5; 6; 11]; [7; 8; 9; 12]]; [[]; []; []]].
Proof. split; [repeat constructor|eexists; split; calc]. Qed.
(** C102 is refuted: columns of locks in two universes are swapped.  When one lock is given back, the other goes on with its column... *)
Theorem C102_refuted :
  exists os s r, l_run two_types twice os = Some (s, r, Undefined) /\ os = [LLock 0 true; LLock 1 true; LSwap 0 2 1 2; LDrop 0; LGet 1 2 0 false].
Proof. eexists _, _, _. split; [|reflexivity]. calc. Qed.
Print Assumptions C102_refuted.
(** ... and before that columns are of unequal lengths, so that checked ids read out of bounds. *)
Theorem C102_length_refuted :
  exists os s r, l_run two_types twice os = Some (s, r, Undefined) /\ os = [LLock 0 true; LLock 1 true; LSwap 0 2 1 2; LGet 0 2 1 true].
Proof. eexists _, _, _. split; [|reflexivity]. calc. Qed.
Print Assumptions C102_length_refuted.
(** Swapping two columns of one lock is not undefined, but not nothing: values go to the wrong column, for good. *)
Theorem C102_named_refuted :
  exists os s r, l_run two_types twice os = Some (s, r, Done tt) /\ all_at_home two_types twice os /\
  os = [LLock 1 true; LSwap 0 0 0 1; LPush 0 [1; 2; 3]; LDrop 0] /\ nth 1 (lw_tabs s) [] = [[2]; [1]; [3]].
Proof.
  eexists _, _, _. split; [|split; [|split; [reflexivity|]]]; [calc| |calc]. vm_compute. split; [exact I|].
  split; [intros x x' E E'; injection E as <-; injection E' as <-; reflexivity|]. repeat (split; [exact I|]). exact I.
Qed.
Print Assumptions C102_named_refuted.
