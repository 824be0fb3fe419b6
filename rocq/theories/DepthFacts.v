(** Proofs about how deep cascades nest. *)
From Coq Require Import List Arith Bool Lia.
From Verif Require Import Base BaseFacts Column Order RowRange Table SortedTab Events Cascade Hist Answers DbHist.
Import ListNotations.

(** ** More depth changes nothing *)
Definition lower {A} (x y : res A) : Prop := x = Err EFuel \/ x = y.
Lemma lower_refl {A} (x : res A) : lower x x. Proof. right. reflexivity. Qed.
Lemma lower_bind {A B} (x y : res A) (f g : A -> res B) : lower x y -> (forall a, lower (f a) (g a)) -> lower (bind x f) (bind y g).
Proof. intros [->| ->] H; [left; reflexivity|]. destruct y; cbn [bind]; [apply H|apply lower_refl]. Qed.
Lemma lower_fold {A B} (f g : B -> A -> res B) l : (forall a b, lower (f b a) (g b a)) -> forall b, lower (fold_res f l b) (fold_res g l b).
Proof. intro H. induction l as [|a l IH]; intro b; cbn [fold_res]; [apply lower_refl|]. apply lower_bind; [apply H|exact IH]. Qed.

Section Lower.
Variables (pr : profile) (umax : nat) (call call' : universe -> locks -> nat -> event -> bool -> bool -> select -> res (universe * select)).
Hypothesis Call : forall u h p ev a d s, lower (call u h p ev a d s) (call' u h p ev a d s).
Lemma flush_lower u h p w ev : lower (flush_with pr umax call u h p w ev) (flush_with pr umax call' u h p w ev).
Proof. unfold flush_with. destruct (sel_empty _); [apply lower_refl|]. apply lower_bind; [apply Call|]. intro. apply lower_refl. Qed.
Lemma live_lower u h p w ev : lower (live_flush_with pr umax call u h p w ev) (live_flush_with pr umax call' u h p w ev).
Proof. unfold live_flush_with. destruct (sel_empty _); [apply lower_refl|]. apply lower_bind; [apply Call|]. intro. apply lower_refl. Qed.
Lemma remove_lower u h c ev s : lower (remove_rows_with pr umax call u h c ev s) (remove_rows_with pr umax call' u h c ev s).
Proof.
  unfold remove_rows_with. apply lower_bind; [apply lower_refl|]. intro t. destruct (t_kind t); try apply lower_refl;
    (apply lower_bind; [apply lower_refl|]; intros _; apply lower_bind; [apply lower_refl|]; intro w; apply flush_lower).
Qed.
Lemma turn_lower hd h p ev s x : lower (tracker_turn pr umax call hd h p ev s x) (tracker_turn pr umax call' hd h p ev s x).
Proof.
  unfold tracker_turn. destruct (tracker_considers _ _); [|apply lower_refl]. apply lower_bind; [|intro; apply lower_refl]. destruct (snd x); [|apply lower_refl].
  unfold auto_handle. apply lower_bind; [apply lower_refl|]. intros _. apply lower_bind; [apply lower_refl|]. intro t. apply lower_bind; [apply lower_refl|]. intro r. unfold run_with.
  apply lower_bind; [apply lower_refl|]. intro t1. apply lower_bind; [unfold handle_with; destruct hd; [apply remove_lower|apply lower_refl|apply lower_refl]|]. intro u1.
  apply lower_bind; [apply lower_refl|]. intros _. apply lower_bind; [apply Call|]. intro. apply lower_refl.
Qed.
End Lower.
Lemma do_flush_lower pr umax n k : forall u h p ev a d s, lower (do_flush pr umax n u h p ev a d s) (do_flush pr umax (n + k) u h p ev a d s).
Proof.
  induction n as [|n IH]; intros u h p ev a d s; [left; reflexivity|]. cbn [plus do_flush]. apply lower_bind; [apply lower_refl|]. intros _. apply lower_bind; [apply lower_refl|]. intro hd.
  apply lower_bind; [|intro; apply lower_refl]. apply lower_fold. intros x b. apply turn_lower. exact IH.
Qed.
Lemma step_lower pr umax n k d c : lower (db_step pr umax n d c) (db_step pr umax (n + k) d c).
Proof.
  destruct c as [p c|p ev|p ev|p ev s|p ev s|p ev s|p tr|ev hd]; cbn [db_step]; try apply lower_refl.
  - apply lower_bind; [apply lower_refl|]. intro w. apply lower_bind; [apply flush_lower, do_flush_lower|]. intro. apply lower_refl.
  - apply lower_bind; [apply lower_refl|]. intro w. apply lower_bind; [apply live_lower, do_flush_lower|]. intro. apply lower_refl.
  - apply lower_bind; [apply remove_lower, do_flush_lower|]. intro. apply lower_refl.
  - do 3 (apply lower_bind; [apply lower_refl|]; intro). apply lower_bind; [apply flush_lower, do_flush_lower|]. intro. apply lower_refl.
  - apply lower_bind; [apply lower_refl|]. intro. apply lower_bind; [|intro; apply lower_refl]. unfold read_select. apply lower_bind; [apply do_flush_lower|]. intro. apply lower_refl.
Qed.
Lemma talks_lower pr umax n k cs : forall d, lower (db_talks pr umax n d cs) (db_talks pr umax (n + k) d cs).
Proof.
  induction cs as [|c cs IH]; intro d; cbn [db_talks]; [apply lower_refl|]. apply lower_bind; [apply step_lower|]. intro q. apply lower_bind; [apply IH|]. intro. apply lower_refl.
Qed.
Theorem deeper pr umax n k d cs : db_talks pr umax n d cs <> Err EFuel -> db_talks pr umax (n + k) d cs = db_talks pr umax n d cs.
Proof. intro H. destruct (talks_lower pr umax n k cs d) as [E|E]; [contradiction|symmetry; exact E]. Qed.

(** ** Without circles, the ranks are depth enough *)
Definition same {A} (P : A -> Prop) (x y : res A) : Prop := x = y /\ forall a, x = Ok a -> P a.
Lemma same_err {A} (P : A -> Prop) e : same P (Err e) (Err e). Proof. split; [reflexivity|discriminate]. Qed.
Lemma same_ok {A} (P : A -> Prop) a : P a -> same P (Ok a) (Ok a). Proof. intro H. split; [reflexivity|]. intros b [= <-]. exact H. Qed.
Lemma same_bind {A B} (P : A -> Prop) (Q : B -> Prop) x y f g : same P x y -> (forall a, P a -> same Q (f a) (g a)) -> same Q (bind x f) (bind y g).
Proof. intros [<- H] K. destruct x as [a|e]; cbn [bind]; [apply K, H; reflexivity|apply same_err]. Qed.
Lemma same_on {A B} (Q : B -> Prop) (x : res A) f g : (forall a, same Q (f a) (g a)) -> same Q (bind x f) (bind x g).
Proof. intro K. destruct x as [a|e]; cbn [bind]; [apply K|apply same_err]. Qed.

Section Same.
Variables (pr : profile) (umax : nat) (rank : nat -> nat) (T : list (list tracker)).
Hypothesis Dn : forall p c k key, In (TAuto c k key) (nth p T []) -> rank c < rank p.
Definition unchanged (u : universe) : Prop := u_trk u = T.
Section Calls.
Variables (r : nat) (call call' : universe -> locks -> nat -> event -> bool -> bool -> select -> res (universe * select)).
Hypothesis Call : forall u h p ev a d s, unchanged u -> rank p < r -> same (fun x => unchanged (fst x)) (call u h p ev a d s) (call' u h p ev a d s).
Lemma flush_same u h p w ev : unchanged u -> rank p < r -> same unchanged (flush_with pr umax call u h p w ev) (flush_with pr umax call' u h p w ev).
Proof.
  intros U Rp. unfold flush_with. destruct (sel_empty _); [apply same_on; intro; apply same_ok, U|].
  eapply same_bind; [apply Call; [exact U|exact Rp]|]. intros [u1 s] U1. cbn [fst snd] in *. destruct (_ && _); [|apply same_ok, U1]. repeat (apply same_on; intro). apply same_ok, U1.
Qed.
Lemma live_same u h p w ev : unchanged u -> rank p < r ->
  same (fun x => unchanged (fst x)) (live_flush_with pr umax call u h p w ev) (live_flush_with pr umax call' u h p w ev).
Proof.
  intros U Rp. unfold live_flush_with. destruct (sel_empty _); [apply same_ok, U|].
  eapply same_bind; [apply Call; [exact U|exact Rp]|]. intros [u1 s] U1. cbn [fst snd] in *. repeat (apply same_on; intro). apply same_ok, U1.
Qed.
Lemma remove_same u h c ev s : unchanged u -> rank c < r -> same unchanged (remove_rows_with pr umax call u h c ev s) (remove_rows_with pr umax call' u h c ev s).
Proof.
  intros U Rc. unfold remove_rows_with. apply same_on. intro t. destruct (t_kind t); try apply same_err; (do 2 (apply same_on; intro); apply flush_same; assumption).
Qed.
Lemma turn_same hd h p ev s x : unchanged (fst (fst s)) -> (forall c k key, snd x = TAuto c k key -> rank c < r) ->
  same (fun x => unchanged (fst (fst x))) (tracker_turn pr umax call hd h p ev s x) (tracker_turn pr umax call' hd h p ev s x).
Proof.
  intros U Rx. unfold tracker_turn. destruct (tracker_considers _ _); [|apply same_ok, U]. eapply same_bind with (P := unchanged); [|intros u1 U1; apply same_ok, U1].
  destruct (snd x) as [c k key|srt f]; [|apply same_ok, U]. specialize (Rx c k key eq_refl). unfold auto_handle. do 3 (apply same_on; intro). unfold run_with. apply same_on. intro t1.
  eapply same_bind with (P := unchanged).
  - unfold handle_with. destruct hd; [apply remove_same; [exact U|exact Rx]|apply same_ok, U|apply same_err].
  - intros u1 U1. apply same_on. intros _. eapply same_bind; [apply Call; [exact U1|exact Rx]|]. intros y Uy. apply same_ok, Uy.
Qed.
Lemma turns_same hd h p ev xs : (forall x c k key, In x xs -> snd x = TAuto c k key -> rank c < r) -> forall s, unchanged (fst (fst s)) ->
  same (fun x => unchanged (fst (fst x))) (fold_res (tracker_turn pr umax call hd h p ev) xs s) (fold_res (tracker_turn pr umax call' hd h p ev) xs s).
Proof.
  induction xs as [|x xs IH]; intros H s U; cbn [fold_res]; [apply same_ok, U|]. eapply same_bind; [apply turn_same; [exact U|intros c k key E; eapply H; [left; reflexivity|exact E]]|].
  intros s1 U1. apply IH; [|exact U1]. intros y c k key I E. eapply H; [right; exact I|exact E].
Qed.
End Calls.
Lemma do_flush_same n : forall m u h p ev a d s, unchanged u -> rank p < n -> rank p < m ->
  same (fun x => unchanged (fst x)) (do_flush pr umax n u h p ev a d s) (do_flush pr umax m u h p ev a d s).
Proof.
  induction n as [|n IH]; intros m u h p ev a d s U Rn Rm; [lia|]. destruct m as [|m]; [lia|]. cbn [do_flush]. do 2 (apply same_on; intro).
  eapply same_bind; [|intros x Ux; apply same_ok, Ux]. apply (turns_same (rank p)); [|  |exact U].
  - intros u1 h1 c ev1 x1 d1 s1 U1 Rc. apply IH; [exact U1|lia|lia].
  - intros [i tr] c k key I E. cbn in E. subst tr. apply in_combine_r in I. unfold u_trackers in I. rewrite U in I. eapply Dn; exact I.
Qed.
End Same.

Section Programs.
Variables (pr : profile) (umax : nat) (rank : nat -> nat) (n m : nat).
Hypothesis Rn : forall p, rank p < n.
Hypothesis Rm : forall p, rank p < m.
Definition downhill (T : list (list tracker)) : Prop := forall p c k key, In (TAuto c k key) (nth p T []) -> rank c < rank p.
Lemma step_same d c : downhill (u_trk (d_u d)) -> (forall p a k key, c = Track p (TAuto a k key) -> rank a < rank p) ->
  same (fun x => downhill (u_trk (d_u (fst x)))) (db_step pr umax n d c) (db_step pr umax m d c).
Proof.
  intros Dn Tc. set (T := u_trk (d_u d)) in *. assert (U : unchanged T (d_u d)) by reflexivity.
  assert (K : forall u, unchanged T u -> downhill (u_trk u)) by (intros u E; unfold unchanged in E; rewrite E; exact Dn).
  assert (C : forall u h p ev a d0 s, unchanged T u -> rank p < n -> same (fun x => unchanged T (fst x)) (do_flush pr umax n u h p ev a d0 s) (do_flush pr umax m u h p ev a d0 s)).
  { intros. apply do_flush_same with (rank := rank); auto. }
  destruct c as [p c|p ev|p ev|p ev s|p ev s|p ev s|p tr|ev hd]; cbn [db_step].
  - assert (X : same (fun x => downhill (u_trk (d_u (fst x)))) (let* st := d_state d p in let* st' := step pr umax st (op_of c) in let* a := answer_of pr umax st c in Ok (d_store d p st', a))
      (let* st := d_state d p in let* st' := step pr umax st (op_of c) in let* a := answer_of pr umax st c in Ok (d_store d p st', a))).
    { do 3 (apply same_on; intro). apply same_ok. cbn [fst]. unfold d_store. destruct a0; exact Dn. }
    destruct c; try exact X; destruct o; try exact X; apply same_err.
  - apply same_on. intro w. eapply same_bind; [apply flush_same with (rank := rank) (T := T) (r := n); auto|]. intros u Uu. apply same_ok. exact (K u Uu).
  - apply same_on. intro w. eapply same_bind; [apply live_same with (rank := rank) (T := T) (r := n); auto|]. intros [u w1] Uu. apply same_ok. exact (K u Uu).
  - eapply same_bind; [apply remove_same with (rank := rank) (T := T) (r := n); auto|]. intros u Uu. apply same_ok. exact (K u Uu).
  - do 3 (apply same_on; intro). eapply same_bind; [apply flush_same with (rank := rank) (T := T) (r := n); auto|]. intros u Uu. apply same_ok. exact (K u Uu).
  - apply same_on. intros _. unfold read_select. eapply same_bind with (P := unchanged T); [eapply same_bind; [apply C; auto|]; intros x Ux; apply same_ok; exact Ux|].
    intros u Uu. apply same_ok. exact (K u Uu).
  - do 3 (apply same_on; intro). apply same_ok. cbn. intros q c k key I. destruct (Nat.eq_dec q p) as [->|N].
    + destruct (Nat.lt_ge_cases p (length (u_trk (d_u d)))) as [Lt|Ge].
      * rewrite (nth_error_nth _ _ _ (nth_error_upd_eq _ _ _ Lt)) in I. apply in_app_or in I. destruct I as [I|[I|[]]]; [exact (Dn p c k key I)|]. subst tr. exact (Tc p c k key eq_refl).
      * rewrite upd_oob in I by exact Ge. exact (Dn p c k key I).
    + rewrite <- !nth_default_eq in I. unfold nth_default in I. rewrite nth_error_upd_ne in I by congruence. fold (nth_default [] (u_trk (d_u d)) q) in I. rewrite nth_default_eq in I. exact (Dn q c k key I).
  - apply same_on. intro q. apply same_ok. exact Dn.
Qed.
Lemma talks_same cs : (forall p c k key, In (Track p (TAuto c k key)) cs -> rank c < rank p) -> forall d, downhill (u_trk (d_u d)) ->
  db_talks pr umax n d cs = db_talks pr umax m d cs.
Proof.
  induction cs as [|c cs IH]; intros H d Dn; cbn [db_talks]; [reflexivity|]. destruct (step_same d c Dn) as [E Q]; [intros p a k key ->; apply (H p a k key); left; reflexivity|].
  rewrite E in Q |- *. destruct (db_step pr umax m d c) as [q|]; cbn [bind]; [|reflexivity]. rewrite (IH (fun p a k key I => H p a k key (or_intror I)) (fst q) (Q q eq_refl)). reflexivity.
Qed.
End Programs.
Theorem deep_enough pr umax rank schs n m cs : (forall p c k key, In (Track p (TAuto c k key)) cs -> rank c < rank p) -> (forall p, rank p < n) -> (forall p, rank p < m) ->
  db_talks pr umax n (db_new schs) cs = db_talks pr umax m (db_new schs) cs.
Proof.
  intros H Rn Rm. apply (talks_same pr umax rank n m Rn Rm cs H). intros p c k key I. exfalso. cbn in I. revert p I. induction schs as [|s l IH]; intros [|p] I; cbn in I; try contradiction. exact (IH p I).
Qed.
