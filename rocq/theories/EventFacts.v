(** Facts about event handlers. *)
From Coq Require Import List Arith Bool Lia.
From Verif Require Import Base BaseFacts Column RowRange Table SortedTab TableSpec Hist Events Cascade CascadeSpec CascadeFacts CascadeProps.
Import ListNotations.

(** A series of installations. *)
Definition install {H} (hs : list H) (x : event * H) : res (list H) :=
  let* q := handlers_add hs (fst x) (snd x) in Ok (fst q).

Lemma event_eqb_eq a b : event_eqb a b = true <-> a = b.
Proof.
  unfold event_eqb. rewrite !andb_true_iff, Nat.eqb_eq, !eqb_true_iff. destruct a, b; cbn. intuition congruence.
Qed.
Lemma handlers_default ev : In ev event_list ->
  handlers_get default_handlers ev = Ok (if ev_removal ev then HDelete else if ev_creation ev then HNull else HPanic).
Proof. intros H. cbn [event_list In] in H. repeat (destruct H as [<-|H]; [reflexivity|]). destruct H. Qed.
Lemma handlers_default_custom ev : 18 <= ev_id ev < 32 -> handlers_get default_handlers ev = Ok HPanic.
Proof.
  destruct ev as [i a b]. cbn [ev_id]. intros L. do 18 (destruct i as [|i]; [lia|]).
  do 14 (destruct i as [|i]; [reflexivity|]). lia.
Qed.
Lemma handlers_add_spec {H} (hs : list H) ev h :
  (ev = invalid_event -> handlers_add hs ev h = panic PInvalidEvent) /\
  (ev <> invalid_event -> length hs <= ev_id ev -> handlers_add hs ev h = panic PEventId) /\
  (ev <> invalid_event -> ev_id ev < length hs ->
     exists hs' old, handlers_add hs ev h = Ok (hs', old) /\ handlers_get hs ev = Ok old /\ length hs' = length hs /\
       forall ev', handlers_get hs' ev' = if ev_id ev' =? ev_id ev then Ok h else handlers_get hs ev').
Proof.
  unfold handlers_add, handlers_get. split; [|split].
  - intros ->. reflexivity.
  - intros N L. destruct (event_eqb ev invalid_event) eqn:E; [apply event_eqb_eq in E; contradiction|].
    apply nth_error_None in L. rewrite L. reflexivity.
  - intros N L. destruct (event_eqb ev invalid_event) eqn:E; [apply event_eqb_eq in E; contradiction|].
    destruct (nth_error_lt_Some hs (ev_id ev) L) as [old Ho]. rewrite Ho. exists (upd hs (ev_id ev) h), old.
    split; auto. split; auto. split; [apply upd_length|]. intros ev'. destruct (Nat.eqb_spec (ev_id ev') (ev_id ev)) as [->|D].
    + rewrite nth_error_upd_eq by auto. reflexivity.
    + rewrite nth_error_upd_ne by auto. reflexivity.
Qed.
Lemma install_series {H} (l : list (event * H)) : forall hs hs', fold_res install l hs = Ok hs' ->
  forall ev, handlers_get hs' ev =
    match find (fun x => ev_id (fst x) =? ev_id ev) (rev l) with Some x => Ok (snd x) | None => handlers_get hs ev end.
Proof.
  induction l as [|[e h] l IH]; intros hs hs' E ev; cbn [fold_res] in E; [inversion E; reflexivity|].
  destruct (install hs (e, h)) as [hs1|] eqn:E1; [|discriminate]. cbn [bind] in E. unfold install in E1. bindn E1 q E2. cbn [fst snd] in *.
  inversion E1; subst hs1; clear E1. rewrite (IH _ _ E). cbn [rev]. clear IH E.
  destruct (handlers_add_spec hs e h) as (A & B & C).
  assert (Ne : e <> invalid_event) by (intros N; rewrite A in E2 by auto; discriminate).
  assert (Le : ev_id e < length hs) by (destruct (le_lt_dec (length hs) (ev_id e)) as [G|G]; auto; rewrite B in E2 by auto; discriminate).
  destruct (C Ne Le) as (hs1 & old & E3 & _ & _ & G). rewrite E3 in E2. inversion E2; subst q; clear E2. cbn [fst].
  assert (F : forall l2, find (fun x => ev_id (fst x) =? ev_id ev) (l2 ++ [(e, h)]) =
    match find (fun x => ev_id (fst x) =? ev_id ev) l2 with Some x => Some x | None => if ev_id e =? ev_id ev then Some (e, h) else None end).
  { induction l2 as [|x l2 I2]; cbn [find app]; auto. destruct (ev_id (fst x) =? ev_id ev); auto. }
  rewrite F. destruct (find _ (rev l)); auto. rewrite G, (Nat.eqb_sym (ev_id ev)). destruct (_ =? _); reflexivity.
Qed.

Section Unhandled.
Variables (pr : profile) (umax : nat) (rank : nat -> nat) (u0 : universe) (ev : event).
Hypothesis L0 : linked pr umax rank u0.
Hypothesis NI : ev_removal ev && ev_creation ev = false.
Hypothesis HP : nth_error (u_hdl u0) (ev_id ev) = Some HPanic.

Lemma flush_unhandled fuel p w c k key : rank p < fuel -> nth_error (u_tabs u0) p = Some (w_tab w) ->
  In (TAuto c k key) (u_trackers u0 p) -> w_pushed w && w_delete w = false -> sel_empty (w_changes w) = false ->
  flush pr umax fuel u0 [] p w ev = panic PNoHandler.
Proof.
  intros Rn Hp Htr PD Ne. unfold flush, flush_with. rewrite Ne.
  replace (u_put u0 p (w_tab w)) with u0 by (unfold u_put; rewrite upd_same by auto; destruct u0; reflexivity).
  destruct fuel as [|n]; [lia|]. cbn [do_flush]. rewrite PD, NI. cbn [orb negb assert_ bind]. unfold handlers_get. rewrite HP. cbn [bind].
  assert (G : forall l u sel b, u_tabs u = u_tabs u0 -> (forall x, In x l -> In (snd x) (u_trackers u0 p)) ->
    (exists m, In (m, TAuto c k key) l) ->
    fold_res (tracker_turn pr umax (do_flush pr umax n) HPanic [] p ev) l (u, sel, b) = panic PNoHandler).
  { induction l as [|[m tr] l IHl]; intros u sel b S Hl [m0 Hm]; [destruct Hm|]. cbn [fold_res].
    assert (Ht : In tr (u_trackers u0 p)) by (apply (Hl (m, tr)); left; auto).
    assert (Hl' : forall x, In x l -> In (snd x) (u_trackers u0 p)) by (intros; apply Hl; right; auto).
    unfold tracker_turn at 1. cbn [fst snd]. destruct tr as [c1 k1 key1|srt cons].
    - cbn [tracker_considers]. unfold auto_handle. cbn [can_read forallb lock_ok bind].
      destruct L0 as [L _]. destruct (L _ _ _ _ Ht) as (_ & t & _ & E0 & _).
      unfold u_get. cbn [u_say u_tabs]. rewrite S, E0. cbn [bind].
      destruct (select_total pr umax rank u0 L0 p c1 k1 key1 t (if negb b && tracker_sorts u (TAuto c1 k1 key1) then sel_sort sel else sel) Ht E0) as [sel' ->].
      cbn [bind]. unfold run_with, u_get. cbn [u_say u_tabs]. rewrite S, E0. reflexivity.
    - assert (Hm' : exists m, In (m, TAuto c k key) l) by (destruct Hm as [Hm|Hm]; [discriminate|eauto]).
      cbn [tracker_considers]. destruct (cons ev); cbn [bind]; apply IHl; auto. }
  rewrite G; auto.
  - intros [x y] Hx. apply in_combine_r in Hx. auto.
  - destruct (In_nth_error _ _ Htr) as [i Hi]. exists i. apply (nth_error_In _ i).
    assert (Li := nth_error_Some_lt _ _ _ Hi).
    clear - Hi Li. revert Hi Li. generalize (u_trackers u0 p) as l. intros l Hi Li.
    assert (Z : forall (l : list tracker) n i x, nth_error l i = Some x -> nth_error (combine (seq n (length l)) l) i = Some (n + i, x)).
    { induction l0 as [|y l0 I]; intros m j x Hj; [destruct j; discriminate|]. destruct j; cbn in *.
      - inversion Hj. rewrite Nat.add_0_r. auto.
      - rewrite (I (S m) j x Hj). f_equal. f_equal. lia. }
    apply (Z l 0 i). auto.
Qed.
End Unhandled.

Lemma events_standard ev : In ev event_list <->
  ev_id ev < 18 /\ ev_removal ev = mem (ev_id ev) [2; 6; 8; 10] /\ ev_creation ev = mem (ev_id ev) [1; 4; 7; 9].
Proof.
  split.
  - intro H. repeat (destruct H as [<-|H]; [cbn [ev_id ev_removal ev_creation]; split; [lia|split; reflexivity]|]). destruct H.
  - destruct ev as [id r c]. cbn [ev_id ev_removal ev_creation]. intros (L & -> & ->).
    do 18 (destruct id as [|id]; [vm_compute; tauto|]). lia.
Qed.
Lemma handlers_fallback ev : handlers_get default_handlers ev =
  if mem (ev_id ev) [2; 6; 8; 10] then Ok HDelete else if mem (ev_id ev) [1; 4; 7; 9] then Ok HNull
  else if ev_id ev <? 32 then Ok HPanic else panic PEventId.
Proof.
  destruct ev as [id r c]. unfold handlers_get. cbn [ev_id]. do 32 (destruct id as [|id]; [vm_compute; reflexivity|]).
  replace (nth_error default_handlers _) with (@None handler); [reflexivity|]. symmetry. apply nth_error_None. cbn. lia.
Qed.
