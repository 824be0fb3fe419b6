(** A tracker that panics in a flush. *)
From Coq Require Import List Arith Bool.
From Verif Require Import Base BaseFacts Column Table TableSpec Hist Unwind UnwindSpec.
Import ListNotations.
Local Open Scope nat_scope.

Lemma live_flush_interrupted pr umax boom srt w ev : sel_empty (w_changes w) = false ->
  exists w' c, u_live_flush pr umax boom srt true w ev = (w', panic c) /\ w_tab w' = w_tab w /\
    w_drop w' = Ok (w_tab w) /\
    (forall boom' srt' tp' ev', u_live_flush pr umax boom' srt' tp' w' ev' = (w', Ok tt)) /\
    (w_pushed w = true -> t_kind (w_tab w) = Consistent -> forall i w2, u_delete pr umax boom w' i = (w2, Ok tt) ->
      forall boom' srt' ev', snd (u_live_flush pr umax boom' srt' false w2 ev') = panic PInterleave).
Proof.
  intro E. unfold u_live_flush at 1. rewrite E.
  assert (X : exists c, (let* _ := flush_check (w_pushed w) (w_delete w) ev in stop_res true) = panic c).
  { unfold flush_check, assert_. destruct (negb _); cbn; [|eexists; reflexivity]. destruct (_ <? _); cbn; eexists; reflexivity. }
  destruct X as [c X]. rewrite X. eexists. exists c. split; [reflexivity|]. split; [reflexivity|]. split.
  { unfold w_drop. cbn. rewrite andb_false_r. reflexivity. }
  split; [reflexivity|].
  intros P K i w2 D boom' srt' ev'. unfold u_delete in D. cbn [w_tab] in D. rewrite K in D.
  destruct (t_check _ _) as [j|]; [|inv D]. inv D. unfold u_live_flush, event_del. cbn [w_tab w_changes w_pushed w_delete sel_push]. rewrite K. cbn.
  rewrite P. cbn. reflexivity.
Qed.
Lemma flush_interrupted pr umax boom srt w ev : sel_empty (w_changes w) = false ->
  ustep pr umax (Locked w []) (boom, UFlush srt true ev) = Live (Free (w_tab w)).
Proof.
  intro E. unfold ustep. destruct (avail _ _) eqn:A; [|destruct (t_kind _); discriminate A]. unfold u_flush. rewrite E.
  unfold flush_check, assert_. destruct (negb _); cbn; auto. destruct (_ <? _); reflexivity.
Qed.
