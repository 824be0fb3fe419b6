(** Proofs about debug and release builds of programs whose trackers act. *)
From Coq Require Import List Arith Bool.
From Verif Require Import Base Column RowRange Table SortedTab Events Cascade Hist Answers DbHist Acting BuildFacts.
Import ListNotations.

Section B.
Variables (umax umax' : nat) (pr : profile).
Hypothesis Hu : umax <= umax'.
Variable react : list note -> plan.
Section Calls.
Variables call call' : universe -> locks -> nat -> event -> bool -> bool -> select -> res (universe * select).
Hypothesis Call : forall u h p ev a d s, ov (call u h p ev a d s) (call' u h p ev a d s).
Lemma raw_ov w i : ov (delete_raw Debug umax w i) (delete_raw pr umax' w i).
Proof. apply delete_raw_ov. Qed.
Lemma act_step_ov hd h d c : ov (act_step Debug umax call hd h d c) (act_step pr umax' call' hd h d c).
Proof.
  destruct c as [p c|p ev|p ev|p ev s|p ev s|p ev s|p tr|ev f]; cbn [act_step]; cbv zeta.
  - assert (X : ov (let* st := d_state d p in
                    let* _ := match st, op_of c with Free _, OLock => lock_ok (can_write h p) | Free _, _ => lock_ok (can_read h p) | Locked _ _, _ => Ok tt end in
                    let* st' := step Debug umax st (op_of c) in let* a := answer_of Debug umax st c in Ok (d_store d p st', a))
                   (let* st := d_state d p in
                    let* _ := match st, op_of c with Free _, OLock => lock_ok (can_write h p) | Free _, _ => lock_ok (can_read h p) | Locked _ _, _ => Ok tt end in
                    let* st' := step pr umax' st (op_of c) in let* a := answer_of pr umax' st c in Ok (d_store d p st', a))).
    { apply ov_bind; [apply ov_refl|]. intro st. apply ov_bind; [apply ov_refl|]. intros _. apply ov_bind; [apply step_ov; exact Hu|]. intro st'. apply ov_bind; [apply answer_ov; exact Hu|]. intro. apply ov_refl. }
    destruct c as [o| | |]; [destruct o|..]; first [exact X|apply ov_refl].
  - apply ov_bind; [apply ov_refl|]. intro w. apply ov_bind; [apply flush_with_ov; assumption|]. intro. apply ov_refl.
  - apply ov_bind; [apply ov_refl|]. intro w. apply ov_bind; [apply live_with_ov; assumption|]. intro. apply ov_refl.
  - apply ov_bind; [apply remove_with_ov; assumption|]. intro. apply ov_refl.
  - apply ov_bind; [apply ov_refl|]. intro w. apply ov_bind; [apply ov_refl|]. intros _. apply ov_bind.
    + destruct s as [|rows]; [apply ov_refl|]. apply ov_fold. intros a b. apply ov_bind; [apply ov_refl|]. intros _. apply raw_ov.
    + intro w1. apply ov_bind; [apply flush_with_ov; assumption|]. intro. apply ov_refl.
  - apply ov_bind; [apply ov_refl|]. intros _. apply ov_bind; [apply Call|]. intro. apply ov_refl.
  - apply ov_refl.
  - apply ov_refl.
Qed.
Lemma handle_with_ov hd u h c ev rows : ov (handle_with Debug umax call hd u h c ev rows) (handle_with pr umax' call' hd u h c ev rows).
Proof. unfold handle_with. destruct hd; [apply remove_with_ov; assumption|apply ov_refl|apply ov_refl]. Qed.
Lemma run_with_ov hd u h c ev rows : ov (run_with Debug umax call hd u h c ev rows) (run_with pr umax' call' hd u h c ev rows).
Proof. unfold run_with. apply ov_bind; [apply ov_refl|]. intro t. apply ov_bind; [apply handle_with_ov|]. intro u1. apply ov_bind; [apply ov_refl|]. intros _. apply ov_bind; [apply Call|]. intro. apply ov_refl. Qed.
Lemma auto_ov hd u h c k key ev rows : ov (auto_handle Debug umax call hd u h c k key ev rows) (auto_handle pr umax' call' hd u h c k key ev rows).
Proof.
  unfold auto_handle. apply ov_bind; [apply ov_refl|]. intros _. apply ov_bind; [apply ov_refl|]. intro t. apply ov_bind; [destruct key; [apply select_sorted_ov|apply ov_refl]|]. intro. apply run_with_ov.
Qed.
Lemma deed_ov hd h d a : ov (deed_step Debug umax call hd h d a) (deed_step pr umax' call' hd h d a).
Proof.
  unfold deed_step. destruct a as [c|c ev rows|c ev rows]; [apply act_step_ov|..]; (destruct hd as [f|]; [|apply ov_refl]);
    (apply ov_bind; [first [apply handle_with_ov|apply run_with_ov]|]; intro; apply ov_refl).
Qed.
Lemma perform_ov hd h m : forall d, ov (perform Debug umax call hd h m d) (perform pr umax' call' hd h m d).
Proof. induction m as [| |a k IH]; intro d; cbn [perform]; [apply ov_refl|apply ov_refl|]. apply ov_bind; [apply deed_ov|]. intro q. apply IH. Qed.
Lemma act_turn_ov hd h p ev s x : ov (act_turn Debug umax react call hd h p ev s x) (act_turn pr umax' react call' hd h p ev s x).
Proof.
  unfold act_turn. cbv zeta. destruct (tracker_considers _ _); [|apply ov_refl]. apply ov_bind; [|intro; apply ov_refl]. destruct (snd x); [apply auto_ov|apply perform_ov].
Qed.
End Calls.
Lemma act_flush_ov fuel : forall u h p ev a d s, ov (act_flush Debug umax react fuel u h p ev a d s) (act_flush pr umax' react fuel u h p ev a d s).
Proof.
  induction fuel as [|n IH]; intros; cbn [act_flush]; [apply ov_refl|]. apply ov_bind; [apply ov_refl|]. intros _. apply ov_bind; [apply ov_refl|]. intro hd. cbv zeta.
  apply ov_bind; [|intro; apply ov_refl]. apply ov_fold. intros s0 x. apply act_turn_ov. exact IH.
Qed.
Theorem act_run_ov fuel schs m : ov (act_run Debug umax react fuel schs m) (act_run pr umax' react fuel schs m).
Proof. apply perform_ov. intros. apply act_flush_ov. Qed.
End B.
