(** A program that does everything, for the examples of PropsMix.v. *)
From Coq Require Import List Arith Bool ZArith Lia.
From Verif Require Import Base Names Column ColumnFacts Order RowRange Table Visit SortedTab BagTab TableSpec Hist Cases Events Cascade
  CascadeSpec CascadeFacts CascadeCases Extract ExtractSpec ExtractCases IntegritySpec IntegrityFacts IntegrityCases MirrorSpec MirrorCases BackupSpec ImportSpec
  LifeSpec LifeFacts LifeCases LiveCases RepushSpec RepushFacts RepushCases ClearSpec ClearCases MixSpec MixFacts.
Import ListNotations.

Definition tell (x : xuni) (p : nat) (sel : select) : xuni :=
  match read_select Debug 255 3 (xu_u x) [] p ev_create sel with Ok u => XU u (xu_fl x) | Err _ => x end.
Definition go_live (x : xuni) (p : nat) (w : wlock) (es : list op) (ev : event) : xuni * wlock :=
  match do_edits Debug 255 w es with
  | Ok w => match x_live_flush Debug 255 3 x [] p w ev with Ok q => q | Err _ => (x, w) end
  | Err _ => (x, w)
  end.
Definition go_on (x : xuni) (p : nat) (w : wlock) (es : list op) (ev : event) : xuni :=
  match do_edits Debug 255 w es with
  | Ok w => match x_flush Debug 255 3 x [] p w ev with Ok x => x | Err _ => x end
  | Err _ => x
  end.
(** Rows of RepushCases.v have come back; trackers of table 0 are told of row 1 and of all rows; a row of it is pushed, deleted and pushed again,
    the lock being given back at the end only; the table is cleared, and filled again. *)
Definition mix1 := Eval vm_compute in tell again3 0 (SThese [1]).
Definition mix2 := Eval vm_compute in tell mix1 0 SAll.
Definition mix3 := Eval vm_compute in go_live mix2 0 (new_lock (xu_u mix2) 0) [OPush r2] ev_create.
Definition mix4 := Eval vm_compute in go_live (fst mix3) 0 (snd mix3) [ODelete 3] ev_delete.
Definition mix5 := Eval vm_compute in go_on (fst mix4) 0 (snd mix4) [OPush r1] ev_create.
Definition mix6 := Eval vm_compute in go_on mix5 0 (new_lock (xu_u mix5) 0) es9 ev_delete.
Definition mix7 := Eval vm_compute in go_on mix6 0 (new_lock (xu_u mix6) 0) es0 ev_create.
Definition books (x : xuni) := map (fun q => book (fst q) (snd q) (u_log (xu_u x))) [(0, 1); (1, 0); (3, 0)].
Definition lens (x : xuni) := map t_len (u_tabs (xu_u x)).

Lemma desk_unmapped : unmapped (XU desk four).
Proof. intros p t H. destruct p as [|[|[|[|p]]]]; [reflexivity..|destruct p; discriminate]. Qed.
Lemma low p : town_rank p < 3.
Proof. destruct p as [|[|p]]; repeat constructor. Qed.
Lemma again_runs : runs true Debug 255 3 heads refs nothing orders (XU desk four) again3 None.
Proof. exact (grows_runs Debug 255 3 heads refs nothing town_rank orders orders_ok low (XU desk four) again3 desk_wired site_new desk_unmapped desk_declared again_tidily). Qed.
Lemma mix2_runs : runs true Debug 255 3 heads refs nothing orders (XU desk four) mix2 None.
Proof.
  apply (runs_select _ _ _ _ _ _ _ _ _ mix1 0 (w_tab (new_lock (xu_u mix1) 0)) SAll ev_create); [|calc|calc|split; calc|auto|calc].
  apply (runs_select _ _ _ _ _ _ _ _ _ again3 0 (w_tab (new_lock (xu_u again3) 0)) (SThese [1]) ev_create); [exact again_runs|calc|calc|split; calc| |calc].
  intros _. repeat constructor. eexists. calc.
Qed.
Ltac lives_on x p w es ev := eapply (runs_live _ _ _ _ _ _ _ _ _ x p _ w es _ ev);
  [| |vm_compute; reflexivity|reflexivity|vm_compute; reflexivity|vm_compute; lia|intros _; first [tidied|intros [=]]|vm_compute; reflexivity].
Ltac goes_on x p w es ev := eapply (runs_flush _ _ _ _ _ _ _ _ _ x p _ w es _ ev);
  [| |vm_compute; reflexivity|vm_compute; reflexivity|vm_compute; lia|intros _; first [tidied|intros [=]]|vm_compute; reflexivity].
Lemma mix5_runs : runs true Debug 255 3 heads refs nothing orders (XU desk four) mix5 None.
Proof.
  goes_on (fst mix4) 0 (snd mix4) [OPush r1] ev_create; [|creates]. lives_on (fst mix3) 0 (snd mix3) [ODelete 3] ev_delete; [|deletes].
  lives_on mix2 0 (new_lock (xu_u mix2) 0) [OPush r2] ev_create; [|creates]. apply runs_lock; [exact mix2_runs|reflexivity].
Qed.
Lemma mix5_full p : none_deleted (xu_u mix5) p.
Proof.
  intros q t _ H. destruct q as [|[|[|[|q]]]]; cbn in H; [| | | |destruct q; discriminate H]; injection H as <-; intros i Hi; cbn in Hi;
    repeat (destruct i as [|i]; [reflexivity|]); exfalso; lia.
Qed.
Lemma mix7_runs : runs true Debug 255 3 heads refs nothing orders (XU desk four) mix7 None.
Proof.
  goes_on mix6 0 (new_lock (xu_u mix6) 0) es0 ev_create; [|creates]. apply runs_lock; [|reflexivity].
  eapply (runs_clear _ _ _ _ _ _ _ _ _ mix5 0 _ (new_lock (xu_u mix5) 0) es9 _ ev_delete); [apply runs_lock; [exact mix5_runs|reflexivity]|reflexivity|reflexivity|
    exact es9_wipes|apply mix5_full|repeat constructor|reflexivity|vm_compute; reflexivity|vm_compute; reflexivity].
Qed.

(** Table 0 of [mix5] was flushed without unlocking after rows had come back. *)
Lemma mix_leaked : exists x ps src sel es ev, runs true Debug 255 3 heads refs nothing orders (XU desk four) x None /\
    addable Debug 255 heads refs nothing x ps src sel es ev /\ (exists p, hd_error ps = Some p /\ restore Debug 255 heads refs orders 3 x [] p (es p) ev = Err EDeadlock) /\
    forall x', ~ restore_all Debug 255 heads refs orders 3 es ev ps x x'.
Proof.
  assert (D : restore Debug 255 heads refs orders 3 mix5 [] 0 (kept_rows 0) ev_create = Err EDeadlock) by calc.
  exists mix5, [0; 1; 3], site_at, lost, kept_rows, ev_create. split; [exact mix5_runs|]. split; [|split; [exists 0; split; [reflexivity|exact D]|]].
  - apply importable_addable.
    { intros p t H. destruct p as [|[|[|[|p]]]]; [eexists; split; reflexivity..|destruct p; discriminate]. }
    split; [|split; [exact lost_complete|split; [repeat constructor; cbn; intuition discriminate|split; [exact lost_in_order|split; calc]]]].
    intros p I. pose proof (site_reached p I) as R. destruct I as [<-|[<-|[<-|[]]]]; eexists; (split; [reflexivity|]); (split; [reflexivity|]); (split; [reflexivity|]);
      (split; [exact R|]); (split; [calc|]); (split; [repeat constructor; cbn; intuition discriminate|]); vm_compute; lia.
  - intros x' (y & E & _). pose proof (eq_trans (eq_sym D) E) as X. discriminate X.
Qed.

(** A tracker comes when the rows are back; then row 1 of table 0 is deleted and table 1 filled. *)
Definition late_tracker := TUser true (fun _ => true).
Definition late1 := Eval vm_compute in match x_register_tracker again3 [] 1 late_tracker with Ok x => x | Err _ => again3 end.
Definition late2 := Eval vm_compute in go_on late1 0 (new_lock (xu_u late1) 0) [ODelete 1] ev_delete.

Definition late3 := Eval vm_compute in go_on late2 1 (new_lock (xu_u late2) 1) [OPush [VInt 15; VRow 0]] ev_create.
Lemma late_trackers q c k key : In (TAuto c k key) (u_trackers (xu_u late2) q) ->
  (q, c, k, key) = (0, 1, 1, false) \/ (q, c, k, key) = (0, 2, 0, true) \/ (q, c, k, key) = (1, 3, 1, false).
Proof.
  destruct q as [|[|[|[|q]]]]; cbn.
  - intros [H|[H|[H|[]]]]; inversion H; subst; auto.
  - intros [H|[H|[H|[]]]]; inversion H; subst; auto.
  - intros [].
  - intros [H|[]]; discriminate H.
  - destruct q; intros [].
Qed.
Lemma late_careful : careful nothing orders (xu_u late2) 1 [OPush [VInt 15; VRow 0]] ev_create.
Proof.
  intros t [= <-]. split; [|left; split; [reflexivity|left; reflexivity]]. constructor; [|constructor]. split; [repeat constructor; cbn; eauto|]. split; [|reflexivity].
  constructor; [|constructor]. intros q k key x i Htr Hq Hk. apply late_trackers in Htr.
  destruct Htr as [H|[H|H]]; inversion H; subst; clear H. inversion Hq; subst; clear Hq. inversion Hk; subst; clear Hk. left. eexists. reflexivity.
Qed.
Lemma late_runs : runs true Debug 255 3 heads refs nothing orders late1 late3 None.
Proof.
  goes_on late2 1 (new_lock (xu_u late2) 1) [OPush [VInt 15; VRow 0]] ev_create; [|exact late_careful].
  apply runs_lock; [|reflexivity]. goes_on late1 0 (new_lock (xu_u late1) 0) [ODelete 1] ev_delete; [|deletes]. apply runs_lock; [|reflexivity]. apply runs_start.
Qed.

(** Table 0 having been told to remap ids to themselves, the saved rows of tables 1 and 3 are added once more, beside those they were saved from. *)
Definition fixed0 : xuni := XU desk4 [set_identity_remap fs_new; fs_new; fs_new; fs_new].
Definition twice1 := Eval vm_compute in put_back fixed0 1.
Definition twice2 := Eval vm_compute in put_back twice1 3.
Lemma fixed0_runs : runs true Debug 255 3 heads refs nothing orders (XU desk four) fixed0 None.
Proof.
  apply (runs_identity _ _ _ _ _ _ _ _ _ (XU desk4 four) 0); [|reflexivity].
  apply (grows_runs Debug 255 3 heads refs nothing town_rank orders orders_ok low (XU desk four) (XU desk4 four) desk_wired site_new desk_unmapped desk_declared).
  apply tended_tidily. exact desk4_tended.
Qed.
Lemma fixed0_stays : stays_put fixed0 [1; 3] 0.
Proof. split; [cbn; intuition discriminate|]. eexists. split; reflexivity. Qed.
Lemma fixed0_addable : addable Debug 255 heads refs nothing fixed0 [1; 3] site_at lost kept_rows ev_create.
Proof.
  split; [|split; [|split; [repeat constructor; cbn; intuition discriminate|split; [|split; [split; calc|]]]]].
  - intros p I. assert (R : reachable Debug 255 (t_sch (site_at p)) (Free (site_at p))) by (apply site_reached; right; exact I).
    split; [|destruct I as [<-|[<-|[]]]; eexists; split; reflexivity].
    destruct I as [<-|[<-|[]]]; eexists; (split; [reflexivity|]); (split; [reflexivity|]); (split; [reflexivity|]);
      (split; [exact R|]); (split; [calc|]); (split; [repeat constructor; cbn; intuition discriminate|]); vm_compute; lia.
  - intros c k q i r Ic Ik Ii Rd. destruct (lost_complete c k q i r (or_intror Ic) Ik Ii Rd) as (a & Ea & Ia). eauto.
  - intros before c after E k q I. destruct before as [|b0 before]; cbn in E; injection E as <- E.
    + destruct I as [[= <- <-]|[]]. right. exact fixed0_stays.
    + destruct before as [|b1 before]; cbn in E; injection E as <- E; [destruct I as [[= <- <-]|[]]; cbn; auto|destruct before; discriminate].
  - intros c k q i r a Ic Ik [Nq (f & Ef & If)] Ii [L Rd] Ea. left. destruct Ic as [<-|[<-|[]]]; destruct Ik as [[= <- <-]|[]]; [|discriminate Ef || (injection Ef as <-; discriminate If)].
    destruct r as [|v0 [|v1 [|v2 r]]]; try discriminate L. injection Ea as ->.
    destruct Ii as [<-|[<-|[]]]; pose proof (Rd 1 _ eq_refl) as E1; vm_compute in E1; injection E1 as <-; do 2 eexists; split; calc.
Qed.
