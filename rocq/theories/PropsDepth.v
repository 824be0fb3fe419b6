(** C127: cascades nest no deeper than references do. *)
From Coq Require Import List Arith Bool ZArith.
From Verif Require Import Base Column Order RowRange Table SortedTab TableSpec Events Cascade Hist Cases Answers DbHist PropsDb DepthFacts.
Import ListNotations.

(** C127.  [n] and [m] bound how deep calls of [do_flush] are nested (with [n = 0] none is possible, see Cascade.v).  Whatever a program does, however many rows
    it has: if references lead from tables of lower rank to tables of higher rank, calls never nest deeper than there are ranks, so that with any two bounds above
    all ranks the program does the same, whether it succeeds or fails. *)
Theorem C127_deep_enough :
  forall pr umax rank schs n m cs, (forall p c k key, In (Track p (TAuto c k key)) cs -> rank c < rank p) -> (forall p, rank p < n) -> (forall p, rank p < m) ->
  db_talks pr umax n (db_new schs) cs = db_talks pr umax m (db_new schs) cs.
Proof. exact deep_enough. Qed.
Print Assumptions C127_deep_enough.
(** For all programs, circles or not: if a bound is not exceeded, no greater one changes anything. *)
Theorem C127_deeper :
  forall pr umax n k d cs, db_talks pr umax n d cs <> Err EFuel -> db_talks pr umax (n + k) d cs = db_talks pr umax n d cs.
Proof. exact deeper. Qed.
Print Assumptions C127_deeper.

(** The program of C89: three ranks need three calls, and no fewer; rows do not matter. *)
Definition talk_tracked : list db_call := talk_three ++ [Track 1 (TUser false (fun _ => true)); On 0 (Do OLock); On 0 (Do (ODelete 0)); Flush 0 ev_delete].
Example C127_case :
  (forall p c k key, In (Track p (TAuto c k key)) talk_tracked -> rank_three c < rank_three p) /\ (forall p, rank_three p < 3) /\
  (exists l, db_talks Debug 255 3 (db_new three_tables) talk_tracked = Ok l /\ length l = 25) /\
  db_talks Debug 255 30 (db_new three_tables) talk_tracked = db_talks Debug 255 3 (db_new three_tables) talk_tracked /\
  db_talks Debug 255 2 (db_new three_tables) talk_tracked = Err EFuel.
Proof.
  split. { intros p c k key I. repeat (destruct I as [I|I]; [first [discriminate I|injection I as <- <- <- <-; vm_compute; repeat constructor]|]). destruct I. }
  split; [intro p; unfold rank_three; apply Nat.lt_succ_r, Nat.le_sub_l|]. split; [eexists; split; vm_compute; reflexivity|]. split; vm_compute; reflexivity.
Qed.
(** The condition is needed: a table that refers to itself. *)
Example C127_circle_case :
  map (fun n => db_talks Debug 255 n (db_new three_tables)
    [Track 0 (TAuto 0 1 false); On 0 (Do OLock); On 0 (Do (OPush [VInt 1; VRow 0])); Flush 0 ev_create]) [1; 5; 25] = [Err EFuel; Err EFuel; Err EFuel].
Proof. vm_compute. reflexivity. Qed.
