(** One thread alone does what Cascade.v and Extract.v say. *)
From Coq Require Import List Arith Bool Lia.
From Verif Require Import Base BaseFacts Names Column RowRange Table SortedTab Events Cascade Extract Threads ThreadSpec.
Import ListNotations.

Lemma alone_bind {A B} (m : prog A) (f : A -> prog B) : forall x g,
  alone (pbind m f) x g = let* q := alone m x g in alone (f (snd q)) (fst (fst q)) (snd (fst q)).
Proof.
  induction m as [r| |l wr k IH|l wr k IH|C h k IH]; intros x g; cbn [pbind alone].
  - destruct r; cbn [alone bind]; reflexivity.
  - reflexivity.
  - destruct (lets g l wr && not_leaked x l wr); [apply IH|reflexivity].
  - apply IH.
  - apply IH.
Qed.
Lemma alone_take l wr x g : alone (take_lock l wr) x g =
  if lets g l wr && not_leaked x l wr then Ok (x, (l, wr) :: g, tt) else Err EDeadlock.
Proof. reflexivity. Qed.
Lemma lock_eqb_refl l : lock_eqb l l = true.
Proof. destruct l; cbn; apply Nat.eqb_refl. Qed.
Lemma drop_hd l wr g : drop_guard l wr ((l, wr) :: g) = g.
Proof. cbn. rewrite lock_eqb_refl, eqb_reflx. reflexivity. Qed.
Lemma alone_give l wr x g : alone (give_lock l wr) x ((l, wr) :: g) = Ok (x, g, tt).
Proof. unfold give_lock. cbn [alone]. rewrite drop_hd. reflexivity. Qed.
Lemma alone_lift {A} (r : res A) x g : alone (lift r) x g = let* a := r in Ok (x, g, a).
Proof. reflexivity. Qed.
Lemma alone_get p x g : alone (get_tab p) x g = let* t := u_get (xu_u x) p in Ok (x, g, t).
Proof. reflexivity. Qed.
Lemma alone_put p t x g : alone (put_tab p t) x g = Ok (XU (u_put (xu_u x) p t) (xu_fl x), g, tt).
Proof. reflexivity. Qed.
Lemma alone_look {B} (f : universe -> B) x g : alone (look f) x g = Ok (x, g, f (xu_u x)).
Proof. destruct x; reflexivity. Qed.
Lemma alone_change f x g : alone (change f) x g = Ok (XU (f (xu_u x)) (xu_fl x), g, tt).
Proof. reflexivity. Qed.
Ltac al := repeat (first [rewrite alone_bind | rewrite alone_lift | rewrite alone_get | rewrite alone_put | rewrite alone_look
  | rewrite alone_change | rewrite alone_give]; cbn [bind fst snd xu_u xu_fl]).

(** [g]: what the locks [h] of Cascade.v are here. *)
Definition rel (h : locks) (g : guards) : Prop :=
  (forall p, can_read h p = lets g (LT p) false) /\ (forall p, can_write h p = lets g (LT p) true) /\
  (forall p, lets g (LF p) false = true).
Lemma rel_nil : rel [] [].
Proof. repeat split. Qed.
Lemma lets_cons y g l wr : lets (y :: g) l wr = (negb (lock_eqb (fst y) l) || (negb wr && negb (snd y))) && lets g l wr.
Proof. reflexivity. Qed.
Lemma rel_lf h g p : rel h g -> rel h ((LF p, false) :: g).
Proof.
  intros (R1 & R2 & R3). split; [|split]; intro q; rewrite lets_cons; cbn [fst snd lock_eqb negb orb andb].
  - apply R1. - apply R2. - rewrite R3, orb_true_r. reflexivity.
Qed.
Lemma rel_lt h g p wr : rel h g -> rel ((p, wr) :: h) ((LT p, wr) :: g).
Proof.
  intros (R1 & R2 & R3). split; [|split]; intro q; rewrite lets_cons; cbn [fst snd lock_eqb negb orb andb].
  - rewrite <- R1. change (can_read ((p, wr) :: h) q) with (negb ((p =? q) && wr) && can_read h q). destruct (p =? q), wr; reflexivity.
  - rewrite <- R2, orb_false_r. reflexivity.
  - apply R3.
Qed.
Lemma not_leaked_read x l : not_leaked x l false = true.
Proof. destruct l; reflexivity. Qed.
Lemma not_leaked_lt x p wr : not_leaked x (LT p) wr = true.
Proof. reflexivity. Qed.

Section Seq.
Variables (pr : profile) (umax : nat).
Definition sims (fc : universe -> locks -> nat -> event -> bool -> bool -> select -> res (universe * select))
                (call : nat -> event -> bool -> bool -> select -> prog select) : Prop :=
  forall x h g p ev pushed del sel, rel h g ->
    alone (call p ev pushed del sel) x g =
    let* q := fc (xu_u x) h p ev pushed del sel in Ok (XU (fst q) (xu_fl x), g, snd q).

Section With.
Variables (fc : universe -> locks -> nat -> event -> bool -> bool -> select -> res (universe * select))
          (call : nat -> event -> bool -> bool -> select -> prog select).
Hypothesis FC : sims fc call.

Lemma alone_read_lf x h g p : rel h g -> alone (take_lock (LF p) false) x g = Ok (x, (LF p, false) :: g, tt).
Proof. intros (_ & _ & R). rewrite alone_take, R, not_leaked_read. reflexivity. Qed.
Lemma alone_lt x h g p wr : rel h g -> alone (take_lock (LT p) wr) x g =
  let* _ := lock_ok (if wr then can_write h p else can_read h p) in Ok (x, (LT p, wr) :: g, tt).
Proof.
  intros (R1 & R2 & _). rewrite alone_take, not_leaked_lt, andb_true_r. destruct wr; [rewrite R2|rewrite R1];
  match goal with |- context [lets ?a ?b ?c] => destruct (lets a b c) end; reflexivity.
Qed.
Lemma flush_with_sim x h g p w ev : rel h g ->
  alone (p_flush_with pr umax call p w ev) x ((LT p, true) :: g) =
  let* u := flush_with pr umax fc (xu_u x) h p w ev in Ok (XU u (xu_fl x), g, tt).
Proof.
  intro R. unfold p_flush_with, flush_with. destruct (sel_empty (w_changes w)).
  - al. destruct (w_drop w); cbn [bind]; [|reflexivity]. al. reflexivity.
  - al. rewrite (alone_read_lf _ _ _ _ R). cbn [bind fst snd]. al.
    rewrite (FC _ h) by (apply rel_lf; exact R). cbn [xu_u xu_fl].
    destruct (fc _ _ _ _ _ _ _) as [[u sel]|e]; cbn [bind fst snd]; [|reflexivity]. al.
    destruct (ev_removal ev && negb (sel_empty sel)); [|reflexivity].
    al. rewrite (alone_lt _ _ _ _ _ R). destruct (can_write h p); cbn [lock_ok bind fst snd]; [|reflexivity]. al.
    destruct (u_get u p) as [t|]; cbn [bind]; [|reflexivity]. al.
    destruct (flush_apply _ _ _ _ _) as [w'|]; cbn [bind]; [|reflexivity]. al.
    destruct (assert_ _ _); cbn [bind]; [|reflexivity]. al.
    destruct (w_drop w') as [t'|]; cbn [bind]; [|reflexivity]. al. reflexivity.
Qed.
Lemma remove_sim x h g c ev rows : rel h g ->
  alone (p_remove_rows_with pr umax call c ev rows) x g =
  let* u := remove_rows_with pr umax fc (xu_u x) h c ev rows in Ok (XU u (xu_fl x), g, tt).
Proof.
  intro R. unfold p_remove_rows_with, remove_rows_with. al. destruct (u_get (xu_u x) c) as [t|] eqn:E; cbn [bind fst snd]; [|reflexivity].
  destruct (t_kind t); try reflexivity.
  all: al; rewrite (alone_lt _ _ _ _ _ R); destruct (can_write h c); cbn [lock_ok bind fst snd]; [|reflexivity]; al;
    rewrite E; cbn [bind fst snd]; al;
    destruct rows; cbn [bind fst snd];
    try (match goal with |- context [fold_res ?a ?b ?c] => destruct (fold_res a b c) | |- context [sorted_remove_rows ?a ?b] => destruct (sorted_remove_rows a b) end; cbn [bind fst snd]; [|reflexivity]); apply flush_with_sim; exact R.
Qed.
Lemma run_sim x h g hd c ev rows t : rel h g -> can_read h c = true -> u_get (xu_u x) c = Ok t ->
  alone (p_run_with pr umax call hd c ev rows) x g =
  let* u := run_with pr umax fc hd (xu_u x) h c ev rows in Ok (XU u (xu_fl x), g, tt).
Proof.
  intros R C E. unfold p_run_with, run_with. rewrite E. cbn [bind]. al.
  assert (Fin : forall x rows,
    alone (let! _ := take_lock (LT c) false in let! _ := take_lock (LF c) false in
           let! _ := call c ev (ev_creation ev) (ev_removal ev) rows in let! _ := give_lock (LF c) false in give_lock (LT c) false) x g =
    let* _ := lock_ok (can_read h c) in
    let* q := fc (xu_u x) ((c, false) :: h) c ev (ev_creation ev) (ev_removal ev) rows in Ok (XU (fst q) (xu_fl x), g, tt)).
  { clear E rows. intros y rows. al. rewrite (alone_lt _ _ _ _ _ R), C. cbn [lock_ok bind fst snd]. al.
    rewrite (alone_read_lf _ ((c, false) :: h)) by (apply rel_lt; exact R). cbn [bind fst snd]. al.
    rewrite (FC _ ((c, false) :: h)) by (apply rel_lf, rel_lt; exact R).
    destruct (fc _ _ _ _ _ _ _) as [[u sel]|e]; cbn [bind fst snd]; [|reflexivity]. al. reflexivity. }
  destruct hd; cbn [handle_with p_handle_with]; al.
  - rewrite (alone_lt _ _ _ _ _ R), C. cbn [lock_ok bind fst snd]. al. rewrite E. cbn [bind fst snd]. al.
    rewrite (alone_lt _ _ _ _ _ R), C. cbn [lock_ok bind fst snd]. al.
    rewrite (remove_sim _ _ _ _ _ _ R). destruct (remove_rows_with _ _ _ _ _ _ _ _) as [u|]; cbn [bind fst snd]; [|reflexivity].
    rewrite Fin, C. cbn [lock_ok bind xu_u xu_fl]. destruct (fc _ _ _ _ _ _ _); reflexivity.
  - specialize (Fin x rows). rewrite alone_bind in Fin. etransitivity; [exact Fin|]. rewrite C. cbn [lock_ok bind xu_u xu_fl]. destruct (fc _ _ _ _ _ _ _); reflexivity.
  - reflexivity.
Qed.
Lemma auto_sim x h g hd c k key ev rows : rel h g ->
  alone (p_auto_handle pr umax call hd c k key ev rows) x g =
  let* u := auto_handle pr umax fc hd (xu_u x) h c k key ev rows in Ok (XU u (xu_fl x), g, tt).
Proof.
  intro R. unfold p_auto_handle, auto_handle. al. rewrite (alone_lt _ _ _ _ _ R).
  destruct (can_read h c) eqn:C; cbn [lock_ok bind fst snd]; [|reflexivity]. al.
  destruct (u_get (xu_u x) c) as [t|] eqn:E; cbn [bind fst snd]; [|reflexivity]. al.
  match goal with |- context [bind (if key then ?a else ?b) _] => destruct (if key then a else b) end; cbn [bind fst snd]; [|reflexivity]. al.
  eapply run_sim; eassumption.
Qed.
Lemma turn_sim x h g hd p ev s y : rel h g ->
  alone (p_turn pr umax call hd p ev s y) x g =
  let* q := tracker_turn pr umax fc hd h p ev (xu_u x, fst s, snd s) y in Ok (XU (fst (fst q)) (xu_fl x), g, (snd (fst q), snd q)).
Proof.
  intro R. unfold p_turn, tracker_turn. cbn [fst snd]. destruct (tracker_considers (snd y) ev).
  2:{ al. destruct x, s; reflexivity. }
  al. destruct (snd y) as [c k key|].
  - rewrite (auto_sim _ _ _ _ _ _ _ _ _ R). cbn [xu_u xu_fl]. destruct (auto_handle _ _ _ _ _ _ _ _ _ _ _); reflexivity.
  - al. reflexivity.
Qed.
Lemma turns_sim h g hd p ev l : rel h g -> forall x s,
  alone (p_fold (p_turn pr umax call hd p ev) l s) x g =
  let* q := fold_res (tracker_turn pr umax fc hd h p ev) l (xu_u x, fst s, snd s) in
  Ok (XU (fst (fst q)) (xu_fl x), g, (snd (fst q), snd q)).
Proof.
  intro R. induction l as [|y l IH]; intros x s; cbn [p_fold fold_res].
  - al. destruct x, s; reflexivity.
  - al. rewrite (turn_sim _ _ _ _ _ _ _ _ R). destruct (tracker_turn _ _ _ _ _ _ _ _ _) as [[[u sel] b]|]; cbn [bind fst snd]; [|reflexivity].
    rewrite IH. reflexivity.
Qed.
Lemma live_flush_sim x h g p w ev : rel h g ->
  alone (p_live_flush_with pr umax call p w ev) x ((LT p, true) :: g) =
  let* q := live_flush_with pr umax fc (xu_u x) h p w ev in
  if sel_empty (w_changes w) then Ok (XU (fst q) (xu_fl x), (LT p, true) :: g, snd q)
  else let* f := xu_flush x p in
       let f := if has_remapping f then
                  let f := FS (fs_ident f) (fs_remap f) (S (fs_leaked f)) in
                  if fs_leaked f =? 0 then set_remapping f [] else f
                else f in
       Ok (XU (fst q) (upd (xu_fl x) p f), (LT p, true) :: g, snd q).
Proof.
  intro R. unfold p_live_flush_with, live_flush_with. destruct (sel_empty (w_changes w)).
  - al. reflexivity.
  - al. rewrite (alone_read_lf _ ((p, true) :: h)) by (apply rel_lt; exact R). cbn [bind fst snd]. al.
    rewrite (FC _ ((p, true) :: h)) by (apply rel_lf, rel_lt; exact R). cbn [xu_u xu_fl].
    destruct (fc _ _ _ _ _ _ _) as [[u sel]|e]; cbn [bind fst snd]; [|reflexivity]. al.
    destruct (u_get u p) as [t|]; cbn [bind]; [|reflexivity]. al.
    destruct (flush_apply _ _ _ _ _) as [w'|]; cbn [bind]; [|reflexivity]. al.
    destruct (assert_ _ _); cbn [bind]; [|reflexivity]. al. cbn [alone].
    unfold xu_flush. cbn [xu_u xu_fl]. destruct (nth_error (xu_fl x) p) as [f|]; cbn [bind fst snd]; [|reflexivity].
    al. reflexivity.
Qed.
End With.

Lemma do_flush_sim fuel : sims (do_flush pr umax fuel) (p_do_flush pr umax fuel).
Proof.
  induction fuel as [|n IH]; intros x h g p ev pushed del sel R; cbn [p_do_flush do_flush]; [reflexivity|].
  al. destruct (assert_ _ _); cbn [bind]; [|reflexivity]. al.
  destruct (handlers_get _ _) as [hd|]; cbn [bind fst snd]; [|reflexivity]. al.
  rewrite (turns_sim _ _ IH _ _ _ _ _ _ R). cbn [fst snd].
  destruct (fold_res _ _ _) as [[[u s] b]|]; reflexivity.
Qed.

Variable heads : nat -> header.
Variable foreign : nat -> list (nat * nat).
Variable order : nat -> row -> row -> comparison.

Definition all_of (l : list nat) : guards := flat_map (fun q => [(LF q, false); (LT q, false)]) l.
Lemma take_all_sim qs : forall x h g, rel h g ->
  alone (p_take_all qs) x g = let* _ := lock_ok (forallb (can_read h) qs) in Ok (x, all_of (rev qs) ++ g, tt).
Proof.
  induction qs as [|q qs IH]; intros x h g R; cbn [p_take_all forallb]; [reflexivity|].
  al. rewrite (alone_lt _ _ _ _ _ R). destruct (can_read h q) eqn:C; cbn [lock_ok bind andb fst snd]; [|reflexivity]. al.
  rewrite (alone_read_lf _ ((q, false) :: h)) by (apply rel_lt; exact R). cbn [bind fst snd]. al.
  rewrite (IH _ ((q, false) :: h)) by (apply rel_lf, rel_lt; exact R).
  replace (forallb (can_read ((q, false) :: h)) qs) with (forallb (can_read h) qs).
  2:{ clear. induction qs as [|y qs IH]; [reflexivity|]. cbn [forallb]. rewrite IH. f_equal. unfold can_read at 2. cbn [forallb fst snd]. rewrite andb_false_r. reflexivity. }
  destruct (forallb (can_read h) qs); cbn [lock_ok bind]; [|reflexivity].
  cbn [rev]. unfold all_of. rewrite flat_map_app, <- app_assoc. reflexivity.
Qed.
Lemma give_all_sim l : forall x g, alone (p_give_all l) x (all_of l ++ g) = Ok (x, g, tt).
Proof.
  induction l as [|q l IH]; intros x g; [reflexivity|]. cbn [p_give_all]. change (all_of (q :: l) ++ g) with ((LF q, false) :: (LT q, false) :: all_of l ++ g).
  al. apply IH.
Qed.
Lemma rel_all l : forall h g, rel h g -> exists h', rel h' (all_of l ++ g).
Proof.
  induction l as [|q l IH]; intros h g R; [exists h; exact R|].
  destruct (IH h g R) as [h' R']. exists ((q, false) :: h'). apply rel_lf, rel_lt. exact R'.
Qed.
Lemma restore_sim fuel x p w e ev :
  alone (p_restore_extract pr umax heads foreign order fuel p w e ev) x [(LT p, true)] =
  let* q := restore_extract pr umax heads foreign order fuel x [] p w e ev in Ok (fst q, [], tt).
Proof.
  unfold p_restore_extract, restore_extract. al. destruct (validate _ _) as [[er|]|]; cbn [bind fst snd]; [| |reflexivity].
  - al. destruct (w_drop w); cbn [bind fst snd]; [|reflexivity]. al. reflexivity.
  - al. rewrite (take_all_sim _ _ [(p, true)]) by (apply rel_lt, rel_nil).
    replace (forallb (can_read [(p, true)]) (map snd (foreign p))) with (forallb (fun kq => can_read [(p, true)] (snd kq)) (foreign p)).
    2:{ induction (foreign p) as [|y l IH]; [reflexivity|]. cbn [map forallb]. rewrite IH. reflexivity. }
    destruct (forallb _ _); cbn [lock_ok bind fst snd]; [|reflexivity]. al.
    destruct (rel_all (rev (map snd (foreign p))) [(p, true)] [(LT p, true)] (rel_lt _ _ _ _ rel_nil)) as [h' R].
    rewrite (alone_read_lf _ _ _ _ R). cbn [bind fst snd]. al. cbn [alone bind fst snd].
    destruct (merge_extract _ _ _ _ _ _ _ _) as [[w' m]|]; cbn [bind fst snd]; [|reflexivity]. al.
    rewrite give_all_sim. cbn [bind fst snd]. destruct (sel_empty (w_changes w')).
    + al. destruct (w_drop w'); cbn [bind fst snd]; [|reflexivity]. al. reflexivity.
    + al. rewrite alone_take. cbn [lets forallb fst snd lock_eqb negb orb andb not_leaked]. unfold xu_flush.
      destruct (nth_error (xu_fl x) p) as [f|] eqn:E; [|cbn [bind fst snd]; al; cbn [alone]; unfold xu_flush; rewrite E; reflexivity].
      cbn [bind]. destruct (fs_leaked f =? 0); cbn [lock_ok bind fst snd]; [|reflexivity]. al.
      cbn [alone]. unfold xu_flush. rewrite E. cbn [bind fst snd]. al.
      rewrite (flush_with_sim _ _ (do_flush_sim fuel) _ [] [] _ _ _ rel_nil). cbn [xu_u xu_fl]. unfold flush.
      destruct (flush_with _ _ _ _ _ _ _ _); reflexivity.
Qed.

Lemma step_sim fuel x o :
  alone (p_step pr umax heads foreign order fuel o) x [] = let* y := x_step pr umax heads foreign order fuel x o in Ok (y, [], tt).
Proof.
  assert (T : forall p x, alone (take_lock (LT p) true) x [] = Ok (x, [(LT p, true)], tt)) by reflexivity.
  assert (F : forall p (x : xuni), alone (take_lock (LF p) true) x [(LT p, true)] =
    let* _ := lock_ok (match nth_error (xu_fl x) p with Some f => fs_leaked f =? 0 | None => true end) in Ok (x, [(LF p, true); (LT p, true)], tt)).
  { intros p y. rewrite alone_take. cbn [lets forallb fst snd lock_eqb negb orb andb not_leaked].
    destruct (match nth_error (xu_fl y) p with Some f => fs_leaked f =? 0 | None => true end); reflexivity. }
  destruct o as [p es ev|p es ev|p e ev|p tr|p]; cbn [p_step x_step]; al; rewrite T; cbn [bind fst snd]; al.
  - destruct (u_get (xu_u x) p) as [t|]; cbn [bind fst snd]; [|reflexivity]. al.
    destruct (do_edits _ _ _ _) as [w|]; cbn [bind fst snd]; [|reflexivity].
    rewrite (flush_with_sim _ _ (do_flush_sim fuel) _ [] [] _ _ _ rel_nil). unfold x_flush, flush.
    destruct (flush_with _ _ _ _ _ _ _ _); reflexivity.
  - destruct (u_get (xu_u x) p) as [t|]; cbn [bind fst snd]; [|reflexivity]. al.
    destruct (do_edits _ _ _ _) as [w|]; cbn [bind fst snd]; [|reflexivity]. al.
    rewrite (live_flush_sim _ _ (do_flush_sim fuel) _ [] [] _ _ _ rel_nil). unfold x_live_flush, live_flush.
    destruct (live_flush_with _ _ _ _ _ _ _ _) as [[u w']|]; cbn [bind fst snd]; [|reflexivity].
    destruct (sel_empty (w_changes w)).
    + cbn [bind fst snd]. al. destruct (w_drop w'); cbn [bind fst snd]; [|reflexivity]. al. reflexivity.
    + destruct (xu_flush x p) as [f|]; cbn [bind fst snd]; [|reflexivity]. al.
      destruct (w_drop w'); cbn [bind fst snd]; [|reflexivity]. al. reflexivity.
  - unfold restore. cbn [can_write forallb lock_ok bind]. destruct (u_get (xu_u x) p) as [t|]; cbn [bind fst snd]; [|reflexivity].
    rewrite restore_sim. destruct (restore_extract _ _ _ _ _ _ _ _ _ _ _ _) as [[y er]|]; reflexivity.
  - unfold x_register_tracker. cbn [can_write forallb lock_ok bind]. destruct (u_get (xu_u x) p) as [t|]; cbn [bind fst snd]; [|reflexivity]. al.
    rewrite F. unfold xu_flush. destruct (nth_error (xu_fl x) p) as [f|] eqn:E; cbn [lock_ok bind fst snd].
    + destruct (fs_leaked f =? 0); cbn [lock_ok bind fst snd]; [|reflexivity]. al. cbn [alone]. unfold xu_flush. rewrite E. cbn [bind fst snd]. al.
      destruct (t_consistent t); cbn [assert_ bind fst snd]; [|reflexivity]. al. reflexivity.
    + al. cbn [alone]. unfold xu_flush. rewrite E. reflexivity.
  - rewrite F. unfold x_identity, xu_flush. destruct (nth_error (xu_fl x) p) as [f|] eqn:E; cbn [lock_ok bind fst snd].
    + destruct (fs_leaked f =? 0); cbn [lock_ok bind fst snd]; [|reflexivity]. al. cbn [alone]. unfold xu_flush. rewrite E. cbn [bind fst snd]. al. reflexivity.
    + al. cbn [alone]. unfold xu_flush. rewrite E. reflexivity.
Qed.
Lemma locks_sim ls : forall x h g, rel h g -> alone (p_locks ls) x g = let* _ := lock_ok (takes h ls) in Ok (x, g, tt).
Proof.
  induction ls as [|[q wr] ls IH]; intros x h g R; cbn [p_locks takes]; [reflexivity|]. al.
  rewrite (alone_lt _ _ _ _ _ R). destruct (if wr then _ else _); cbn [lock_ok bind andb fst snd]; [|reflexivity]. al.
  rewrite (IH _ ((q, wr) :: h)) by (apply rel_lt; exact R). destruct (takes _ ls); cbn [lock_ok bind fst snd]; [|reflexivity]. al. reflexivity.
Qed.
Lemma top_sim fuel x o : alone (p_top pr umax heads foreign order fuel o) x [] = let* y := seq_top pr umax heads foreign order fuel x o in Ok (y, [], tt).
Proof.
  destruct o as [o|p ev sel|ls]; cbn [p_top seq_top].
  - apply step_sim.
  - unfold p_select. al. rewrite (alone_lt _ _ _ _ _ rel_nil). cbn [lock_ok can_read forallb bind fst snd]. al.
    rewrite (alone_read_lf _ _ _ _ rel_nil). cbn [bind fst snd]. al.
    rewrite (do_flush_sim fuel _ []) by (apply rel_lf, rel_nil). unfold read_select.
    destruct (do_flush _ _ _ _ _ _ _ _ _ _) as [[u s]|]; cbn [bind fst snd]; [|reflexivity]. al. reflexivity.
  - rewrite (locks_sim _ _ _ _ rel_nil). destruct (takes [] ls); reflexivity.
Qed.
Lemma run_all_sim fuel ops : forall x,
  alone (Threads.p_run pr umax heads foreign order fuel ops) x [] = let* y := fold_res (seq_top pr umax heads foreign order fuel) ops x in Ok (y, [], tt).
Proof.
  unfold Threads.p_run. induction ops as [|o ops IH]; intro x; cbn [p_fold fold_res]; [reflexivity|]. al. rewrite top_sim.
  destruct (seq_top pr umax heads foreign order fuel x o); cbn [bind fst snd]; [|reflexivity]. apply IH.
Qed.
End Seq.
