(** Proofs about the names in the code that [table!] writes (Output.v). *)
From Coq Require Import List Bool Arith NArith String Ascii Lia.
From Verif Require Import Base Table Schema SchemaSpec SchemaFacts Output OutputSpec.
Import ListNotations.
Local Open Scope string_scope.
Local Open Scope list_scope.

Lemma nodup_app {A} (a b : list A) : NoDup (a ++ b) <-> NoDup a /\ NoDup b /\ (forall x, In x a -> ~ In x b).
Proof.
  induction a as [|y a IH]; cbn.
  - split; [intros H; repeat split; [constructor|exact H|intros x []]|tauto].
  - split.
    + intros H. inversion H as [|? ? N D]; subst. apply IH in D as (D1 & D2 & D3). rewrite in_app_iff in N.
      split; [constructor; tauto|]. split; [exact D2|]. intros x [<-|G]; [tauto|now apply D3].
    + intros (H1 & H2 & H3). inversion H1 as [|? ? N D]; subst. constructor.
      * rewrite in_app_iff. intros [G|G]; [tauto|]. now apply (H3 y); auto.
      * apply IH. split; [exact D|]. split; [exact H2|]. intros x G. apply H3. auto.
Qed.
Fixpoint nodupb (l : list string) : bool :=
  match l with [] => true | x :: l => negb (existsb (String.eqb x) l) && nodupb l end.
Lemma existsb_In x l : existsb (String.eqb x) l = true <-> In x l.
Proof.
  rewrite existsb_exists. split.
  - intros (y & H & E). apply String.eqb_eq in E. now subst.
  - intros H. exists x. split; [exact H|apply String.eqb_refl].
Qed.
Lemma nodupb_spec l : nodupb l = true -> NoDup l.
Proof.
  induction l as [|x l IH]; cbn; [constructor|]. intros H. apply andb_prop in H as [H1 H2]. constructor; [|auto].
  intros G. apply existsb_In in G. rewrite G in H1. discriminate.
Qed.
Lemma notin_map {A} (f : A -> string) l n : ~ In n (map f l) <-> forall x, In x l -> f x <> n.
Proof.
  split.
  - intros H x G E. apply H. subst n. now apply in_map.
  - intros H G. apply in_map_iff in G as (x & E & G). now apply (H x).
Qed.
Lemma nodup_map_inj {A} (f : A -> string) l x y : NoDup (map f l) -> In x l -> In y l -> f x = f y -> x = y.
Proof.
  induction l as [|z l IH]; cbn; [tauto|]. intros D [<-|H] [<-|G] E; auto; inversion D as [|? ? N D']; subst.
  - exfalso. apply N. rewrite E. now apply in_map.
  - exfalso. apply N. rewrite <- E. now apply in_map.
  - auto.
Qed.
Lemma nodup_map_filter {A} (f : A -> string) (g : A -> bool) (h : string -> string) l :
  (forall a b, h a = h b -> a = b) -> NoDup (map f l) -> NoDup (map (fun x => h (f x)) (filter g l)).
Proof.
  intros I. induction l as [|z l IH]; cbn; [constructor|]. intros D. inversion D as [|? ? N D']; subst.
  destruct (g z); cbn; [|auto]. constructor; [|auto]. intros G. apply in_map_iff in G as (x & E & G).
  apply filter_In in G as [G _]. apply I in E. apply N. rewrite <- E. now apply in_map.
Qed.
Lemma app_inj_l a : forall x y, (a ++ x)%string = (a ++ y)%string -> x = y.
Proof. induction a; cbn; intros x y E; [exact E|]. injection E. auto. Qed.
Lemma slen_app a b : String.length (a ++ b) = String.length a + String.length b.
Proof. induction a; cbn; auto. Qed.
Lemma app_inj_r b : forall x y, (x ++ b)%string = (y ++ b)%string -> x = y.
Proof.
  induction x as [|c x IH]; intros [|d y] E; cbn in E; auto.
  - apply (f_equal String.length) in E. cbn in E. rewrite slen_app in E. lia.
  - apply (f_equal String.length) in E. cbn in E. rewrite slen_app in E. lia.
  - injection E as -> E. f_equal. auto.
Qed.
Lemma prefix_app a b : String.prefix a (a ++ b) = true.
Proof. induction a; cbn; [now destruct b|]. destruct (ascii_dec a a) as [_|N]; [exact IHa|now destruct N]. Qed.

(** ** Local variables *)
Fixpoint extend (env : list (string * meant)) (b : list stmt) : list (string * meant) :=
  match b with [] => env | Bind n m :: b => extend ((n, m) :: env) b | Use _ _ :: b => extend env b end.
Lemma means_app c b1 : forall env b2, means c env (b1 ++ b2) <-> means c env b1 /\ means c (extend env b1) b2.
Proof.
  induction b1 as [|[n m|n m] b1 IH]; intros env b2; cbn [app means extend]; [tauto| |]; rewrite IH; tauto.
Qed.
Definition vars (l : list (string * nat)) : list (string * meant) := map (fun c => (fst c, ColVar (snd c))) l.
Lemma extend_binds l : forall env, extend env (map bind_col l) = rev (vars l) ++ env.
Proof. induction l as [|c l IH]; intros env; cbn; [reflexivity|]. rewrite IH, <- app_assoc. reflexivity. Qed.
Lemma extend_guard l a ma b mb : forall env,
  extend env (flat_map (fun c => [Use a ma; Use b mb; bind_col c]) l) = rev (vars l) ++ env.
Proof. induction l as [|c l IH]; intros env; cbn; [reflexivity|]. rewrite IH, <- app_assoc. reflexivity. Qed.
Lemma lookup_app e1 e2 n : lookup_var (e1 ++ e2) n = match lookup_var e1 n with Some m => Some m | None => lookup_var e2 n end.
Proof. induction e1 as [|[x m] e1 IH]; cbn; [reflexivity|]. destruct (x =? n); auto. Qed.
Lemma vars_cons x k l : rev (vars ((x, k) :: l)) = rev (vars l) ++ [(x, ColVar k)].
Proof. reflexivity. Qed.
Lemma lookup_out l n : ~ In n (map fst l) -> lookup_var (rev (vars l)) n = None.
Proof.
  induction l as [|[x k] l IH]; [reflexivity|]. cbn [map fst In]. intros H. rewrite vars_cons, lookup_app, IH by tauto. cbn.
  destruct (String.eqb_spec x n); [tauto|reflexivity].
Qed.
Lemma lookup_in l n : In n (map fst l) -> exists k, lookup_var (rev (vars l)) n = Some (ColVar k).
Proof.
  induction l as [|[x k] l IH]; [contradiction|]. cbn [map fst In]. intros H. rewrite vars_cons, lookup_app. cbn [lookup_var].
  destruct (lookup_var (rev (vars l)) n) eqn:E.
  - destruct (in_dec string_dec n (map fst l)) as [G|G].
    + destruct (IH G) as (k' & G'). injection G' as ->. eauto.
    + rewrite lookup_out in E by exact G. discriminate.
  - destruct H as [->|H]; [rewrite String.eqb_refl; eauto|]. destruct (IH H). discriminate.
Qed.
Lemma lookup_own l n k : NoDup (map fst l) -> In (n, k) l -> lookup_var (rev (vars l)) n = Some (ColVar k).
Proof.
  induction l as [|[x j] l IH]; [contradiction|]. cbn [map fst In]. intros D [E|H]; inversion D as [|? ? N D']; subst; rewrite vars_cons, lookup_app.
  - injection E as -> ->. rewrite lookup_out by exact N. cbn. now rewrite String.eqb_refl.
  - now rewrite IH.
Qed.
Lemma means_binds c l env : means c env (map bind_col l) <-> forall n, In n (map fst l) -> ~ In n c.
Proof.
  revert env. induction l as [|[x k] l IH]; intros env; cbn; [tauto|]. rewrite IH. split.
  - intros [H1 H2] n [<-|G]; auto.
  - intros H. split; auto.
Qed.
Lemma means_guard_use c l a ma b mb env :
  means c env (flat_map (fun c => [Use a ma; Use b mb; bind_col c]) l) -> forall n, In n (map fst l) -> ~ In n c.
Proof.
  revert env. induction l as [|[x k] l IH]; intros env; cbn; [tauto|]. intros (_ & _ & H1 & H2) n [<-|G]; eauto.
Qed.
Lemma means_guard c l a ma b mb env :
  lookup_var env a = Some ma -> lookup_var env b = Some mb ->
  (forall n, In n (map fst l) -> ~ In n c /\ n <> a /\ n <> b) ->
  means c env (flat_map (fun c => [Use a ma; Use b mb; bind_col c]) l).
Proof.
  revert env. induction l as [|[x k] l IH]; intros env; cbn; [tauto|]. intros A B H.
  destruct (H x) as (H1 & H2 & H3); [auto|]. do 3 (split; [assumption|]). apply IH; cbn; auto.
  - destruct (String.eqb_spec x a); [contradiction|exact A].
  - destruct (String.eqb_spec x b); [contradiction|exact B].
Qed.
Lemma means_uses c l env : means c env (map use_col l) <-> forall n k, In (n, k) l -> lookup_var env n = Some (ColVar k).
Proof.
  induction l as [|[x j] l IH]; cbn; [tauto|]. rewrite IH. split.
  - intros [H1 H2] n k [E|G]; [injection E as -> ->; exact H1|auto].
  - intros H. split; auto.
Qed.
Lemma means_uses2 c l env a ma :
  means c env (flat_map (fun c => [use_col c; Use a ma]) l) <->
  (forall n k, In (n, k) l -> lookup_var env n = Some (ColVar k) /\ lookup_var env a = Some ma).
Proof.
  induction l as [|[x j] l IH]; cbn; [tauto|]. rewrite IH. split.
  - intros (H1 & H2 & H3) n k [E|G]; [injection E as -> ->; auto|auto].
  - intros H. split; [apply (H x j); auto|]. split; [apply (H x j); auto|auto].
Qed.
Lemma extend_uses l env : extend env (map use_col l) = env.
Proof. induction l; cbn; auto. Qed.

Lemma cols_names t : map fst (cols_from 0 t) = map co_name (tm_cols t).
Proof.
  unfold cols_from. generalize 0. induction (tm_cols t) as [|c l IH]; intros k; cbn; [reflexivity|]. now rewrite IH.
Qed.

(** The three functions, for columns of distinct names other than those of the functions' own locals. *)
Definition locals : list string := ["_lock"; "_table"; "_universe"; "selection"; "i"; "msg"; "transmute"].
Lemma bodies_ok c t :
  NoDup (map co_name (tm_cols t)) ->
  (forall n, In n (map co_name (tm_cols t)) -> ~ In n locals /\ ~ In n c) ->
  (forall n, In n locals -> ~ In n c) ->
  Forall (means c [("transmute", Transmute)]) [body_into_iter t; body_read t; body_write t].
Proof.
  intros D F L. pose proof (cols_names t) as Cn. rewrite <- Cn in D, F. clear Cn. unfold locals in *.
  assert (O : forall n, In n (map fst (cols_from 0 t)) -> ~ In n locals) by (intros n H; now apply F).
  assert (N : forall n, In n locals -> lookup_var (rev (vars (cols_from 0 t))) n = None).
  { intros n H. apply lookup_out. intros G. now apply (O n). }
  constructor; [|constructor; [|constructor; [|constructor]]].
  - unfold body_into_iter. rewrite !means_app. cbn [extend]. rewrite extend_binds. split; [cbn; split; [apply L; cbn; tauto|exact I]|].
    split; [apply means_binds; intros n H; now apply F|]. split.
    + cbn. rewrite lookup_app, N by (cbn; tauto). cbn. repeat split; try (apply L; cbn; tauto).
    + cbn [extend]. apply means_uses2. intros n k H.
      assert (G : In n (map fst (cols_from 0 t))) by (apply in_map_iff; exists (n, k); auto).
      pose proof (O n G) as Hn. split; [|reflexivity]. cbn [lookup_var].
      destruct (String.eqb_spec "msg" n) as [<-|_]; [exfalso; apply Hn; cbn; tauto|].
      destruct (String.eqb_spec "i" n) as [<-|_]; [exfalso; apply Hn; cbn; tauto|].
      rewrite lookup_app, (lookup_own _ _ _ D H). reflexivity.
  - unfold body_read. rewrite !means_app. rewrite extend_guard. cbn [extend]. split; [cbn; split; [apply L; cbn; tauto|exact I]|].
    split; [|split].
    + apply means_guard; [reflexivity|reflexivity|]. intros n H. split; [now apply F|].
      pose proof (O n H) as Hn. split; intros ->; apply Hn; cbn; tauto.
    + cbn. rewrite !lookup_app, !N by (cbn; tauto). cbn. repeat split; try (apply L; cbn; tauto).
    + apply means_uses. intros n k H.
      assert (G : In n (map fst (cols_from 0 t))) by (apply in_map_iff; exists (n, k); auto).
      pose proof (O n G) as Hn. cbn [lookup_var].
      destruct (String.eqb_spec "_table" n) as [<-|_]; [exfalso; apply Hn; cbn; tauto|].
      rewrite lookup_app, (lookup_own _ _ _ D H). reflexivity.
  - unfold body_write. rewrite !means_app. rewrite extend_guard. cbn [extend].
    split; [cbn; repeat split; try (apply L; cbn; tauto)|].
    split; [|split].
    + apply means_guard; [reflexivity|reflexivity|]. intros n H. split; [now apply F|].
      pose proof (O n H) as Hn. split; intros ->; apply Hn; cbn; tauto.
    + cbn. rewrite !lookup_app, !N by (cbn; tauto). cbn. repeat split; try (apply L; cbn; tauto).
    + apply means_uses. intros n k H.
      assert (G : In n (map fst (cols_from 0 t))) by (apply in_map_iff; exists (n, k); auto).
      pose proof (O n G) as Hn. cbn [lookup_var].
      destruct (String.eqb_spec "_table" n) as [<-|_]; [exfalso; apply Hn; cbn; tauto|].
      rewrite lookup_app, (lookup_own _ _ _ D H). reflexivity.
Qed.
Lemma bodies_need c t :
  Forall (means c [("transmute", Transmute)]) [body_into_iter t; body_read t; body_write t] ->
  forall n, In n (map co_name (tm_cols t)) -> ~ In n ["selection"; "i"; "msg"; "transmute"] /\ ~ In n c.
Proof.
  intros F n H. rewrite <- cols_names in H.
  inversion F as [|? ? F1 F']; subst. inversion F' as [|? ? F2 _]; subst. clear F F'.
  unfold body_into_iter in F1. rewrite !means_app in F1. cbn [extend] in F1. rewrite extend_binds in F1.
  destruct F1 as (_ & A1 & A2 & A3). apply means_binds with (n := n) in A1; [|exact H].
  rewrite means_uses2 in A3.
  unfold body_read in F2. rewrite !means_app in F2. rewrite extend_guard in F2. cbn [extend] in F2.
  destruct F2 as (_ & _ & B2 & _).
  assert (K : exists k, In (n, k) (cols_from 0 t)).
  { apply in_map_iff in H as ([x k] & E & G). cbn in E. subst x. eauto. }
  destruct K as (k & K). split; [|exact A1].
  cbn. intros [<-|[<-|[<-|[<-|[]]]]].
  - destruct A2 as (A2 & _). rewrite lookup_app in A2. destruct (lookup_in _ _ H) as (j & G). rewrite G in A2. discriminate.
  - destruct (A3 _ _ K) as (A & _). discriminate.
  - destruct (A3 _ _ K) as (A & _). discriminate.
  - destruct B2 as (_ & B & _). rewrite lookup_app in B. destruct (lookup_in _ _ H) as (j & G). rewrite G in B. discriminate.
Qed.

(** ** Definitions *)

(** The parts as a function of what decides them. *)
Definition made (k : kind) (clone key save : bool) : list part :=
  parts (Tm [] [] false "" "" (Some k) [] [] "" 0 save (Der clone false false) (if key then Some "" else None)
            false (match k with Sorted => true | _ => false end) (match k with Consistent => true | _ => false end) false).
Definition has_key (t : tablem) : bool := match tm_key t with Some _ => true | None => false end.
Lemma parts_made s k t : parsed s k t -> parts t = made k (dv_clone (tm_derive t)) (has_key t) (tm_save t).
Proof.
  intros P. pose proof (pd_flags _ _ _ P) as F. unfold flags in F. injection F as F1 F2 F3 F4.
  unfold made, parts, is_kind, has_key. rewrite F1, F2, F3, (pd_kind' _ _ _ P). cbn.
  destruct k, (tm_key t); reflexivity.
Qed.
Definition base (k : kind) (clone key save : bool) (p : place) : list string :=
  fixed p ++ flat_map (fun x => by_part x p) (made k clone key save).
Lemma names_base s k t p : parsed s k t ->
  names t p = base k (dv_clone (tm_derive t)) (has_key t) (tm_save t) p ++ by_table t p.
Proof. intros P. unfold names, base. now rewrite (parts_made _ _ _ P), app_assoc. Qed.
Lemma base_nodup k c y v p : NoDup (base k c y v p).
Proof. apply nodupb_spec. destruct k, c, y, v, p; vm_compute; reflexivity. Qed.
Lemma base_forall (f : string -> bool) p : 
  forallb (fun k => forallb (fun c => forallb (fun y => forallb (fun v => forallb f (base k c y v p)) [true; false]) [true; false]) [true; false])
    [Append; Consistent; Bag; List_; Sorted] = true ->
  forall k c y v n, In n (base k c y v p) -> f n = true.
Proof.
  intros H k c y v n G. rewrite forallb_forall in H. specialize (H k).
  assert (Hk : In k [Append; Consistent; Bag; List_; Sorted]) by (destruct k; cbn; tauto). specialize (H Hk).
  rewrite forallb_forall in H. specialize (H c). assert (Hc : In c [true; false]) by (destruct c; cbn; tauto). specialize (H Hc).
  rewrite forallb_forall in H. specialize (H y). assert (Hy : In y [true; false]) by (destruct y; cbn; tauto). specialize (H Hy).
  rewrite forallb_forall in H. specialize (H v). assert (Hv : In v [true; false]) by (destruct v; cbn; tauto). specialize (H Hv).
  rewrite forallb_forall in H. auto.
Qed.
Lemma base_module k c y v x : ~ In ("track_" ++ x)%string (base k c y v InModule).
Proof.
  intros H. apply (base_forall (fun n => negb (String.prefix "track_" n)) InModule) in H; [|vm_compute; reflexivity].
  now rewrite prefix_app in H.
Qed.
Lemma base_read k c y v x : In ("select_" ++ x)%string (base k c y v OfRead) <-> x = "all" \/ x = "rows".
Proof.
  split.
  - intros H. apply (base_forall (fun n => negb (String.prefix "select_" n) || (n =? "select_all") || (n =? "select_rows")) OfRead) in H;
      [|vm_compute; reflexivity].
    rewrite prefix_app in H. cbn [negb orb] in H. apply orb_prop in H as [H|H]; apply String.eqb_eq in H.
    + left. now apply (app_inj_l "select_").
    + right. now apply (app_inj_l "select_").
  - unfold base. intros [->| ->]; apply in_or_app; left; cbn; tauto.
Qed.

Section Parsed.
Variables (s : source) (k : kind) (t : tablem).
Hypothesis P : parsed s k t.
Local Notation B p := (base k (dv_clone (tm_derive t)) (has_key t) (tm_save t) p).

Lemma col_names : map co_name (tm_cols t) = map cs_name (so_cols s).
Proof.
  pose proof (pd_cols _ _ _ P) as H. induction H as [|c m l l' [E] _ IH]; cbn; [reflexivity|]. now rewrite IH, E.
Qed.
Lemma track_names : map track_name (filter co_foreign (tm_cols t)) = map tracker_of (filter refers (so_cols s)).
Proof.
  refine (Forall2_filter_map _ _ _ col_of _ _ _ _ _ _ _ (pd_cols _ _ _ P)).
  intros a b [H1 _ _ _ H5 _ _ _]. unfold tracker_of, track_name. now rewrite H1, H5.
Qed.
Lemma auto_names : map track_name (filter co_auto (tm_cols t)) = map tracker_of (filter auto (so_cols s)).
Proof.
  refine (Forall2_filter_map _ _ _ col_of _ _ _ _ _ _ _ (pd_cols _ _ _ P)).
  intros a b [H1 _ _ _ _ H6 _ _]. unfold tracker_of, track_name. now rewrite H1, H6.
Qed.
Definition keyed (c : colsrc) : bool := match tm_key t with Some n => cs_name c =? n | None => false end.
Lemma selector_names : selectors t =
  map (fun c => "select_" ++ cs_name c)%string (filter (fun c => ex "index" (cs_attrs c) && refers c) (so_cols s)) ++
  map (fun c => "select_sorted_" ++ cs_name c)%string (filter (fun c => keyed c && refers c) (so_cols s)).
Proof.
  unfold selectors. f_equal.
  - refine (Forall2_filter_map _ _ _ col_of _ _ _ _ _ _ _ (pd_cols _ _ _ P)).
    intros a b [H1 _ _ H4 H5 _ _ _]. now rewrite H1, H4, H5.
  - refine (Forall2_filter_map _ _ _ col_of _ _ _ _ _ _ _ (pd_cols _ _ _ P)).
    intros a b [H1 _ _ H4 H5 _ _ _]. unfold is_key, keyed. now rewrite H1, H5.
Qed.
Lemma derive_texts : map item_text (tm_row_derive t) = derived s.
Proof.
  rewrite (pd_derive _ _ _ P). unfold derived. induction (so_attrs s) as [|a l IH]; cbn; [reflexivity|].
  rewrite map_app, IH. destruct (at_name a =? "row_derive"); [destruct (at_node a)|]; reflexivity.
Qed.
Lemma keyed_spec c : keyed c = true <-> exists c', In c' (sort_keys s) /\ cs_name c' = cs_name c.
Proof.
  unfold keyed. pose proof (pd_key _ _ _ P) as K. destruct (sort_keys s) as [|x [|]].
  - rewrite K. split; [discriminate|intros (? & [] & _)].
  - destruct K as [-> _]. rewrite String.eqb_eq. split.
    + intros ->. exists x. cbn. auto.
    + intros (c' & [<-|[]] & E). auto.
  - contradiction.
Qed.
Lemma sort_key_in c : In c (sort_keys s) -> In c (so_cols s).
Proof. unfold sort_keys. intros H. now apply filter_In in H. Qed.
Lemma src_col m : In m (tm_cols t) -> exists c, In c (so_cols s) /\ col_of c m.
Proof.
  pose proof (pd_cols _ _ _ P) as H. induction H as [|c m' l l' C _ IH]; cbn; [contradiction|].
  intros [<-|G]; [eauto|]. destruct (IH G) as (c' & ? & ?). eauto.
Qed.
Lemma auto_refers c : auto c = true -> refers c = true.
Proof.
  unfold auto, refers. rewrite !existsb_exists. intros (a & H & E). exists a. split; [exact H|]. now rewrite E, orb_true_r.
Qed.
Lemma tracker_inj a b : tracker_of a = tracker_of b -> cs_name a = cs_name b.
Proof. unfold tracker_of. intros E. apply (app_inj_l "track_") in E. now apply app_inj_r in E. Qed.

Lemma has_key_sorted : has_key t = true -> k = Sorted.
Proof.
  unfold has_key. pose proof (pd_key _ _ _ P) as K. destruct (sort_keys s) as [|x [|]]; [rewrite K; discriminate|tauto|contradiction].
Qed.

Lemma names_ok : tidy s k -> forall p, NoDup (names t p).
Proof.
  intros T p. rewrite (names_base _ _ _ p P). apply nodup_app. split; [apply base_nodup|].
  assert (Cols : forall l, base k (dv_clone (tm_derive t)) (has_key t) (tm_save t) p = l ->
            (forall n, In n l -> In n reserved) -> by_table t p = map co_name (tm_cols t) ->
            NoDup (by_table t p) /\ (forall x, In x (B p) -> ~ In x (by_table t p))).
  { intros l E R Eb. rewrite Eb, E, col_names. split; [apply T|]. intros x Hx G. apply in_map_iff in G as (c & <- & G).
    now apply (ti_reserved _ _ T c G), R. }
  assert (NoBase : forall p, (forall x, by_part x p = []) -> base k (dv_clone (tm_derive t)) (has_key t) (tm_save t) p = fixed p).
  { intros q Hq. unfold base. rewrite (flat_map_ext _ _ Hq). induction (made _ _ _ _) as [|? l IH]; cbn; [apply app_nil_r|exact IH]. }
  destruct p; cbn [by_table] in *;
    try (split; [constructor|intros ? _ []]);
    try (eapply Cols; [apply NoBase; intros []; reflexivity| |reflexivity]; cbn; intuition (subst; cbn; tauto)).
  - (* module *)
    rewrite track_names. split.
    + apply (nodup_map_filter cs_name refers (fun x => "track_" ++ x ++ "_events")%string); [|apply T].
      intros a b E. apply (app_inj_l "track_") in E. now apply app_inj_r in E.
    + intros x H G. apply in_map_iff in G as (c & <- & _). now apply base_module in H.
  - (* methods of Read *)
    rewrite selector_names. split.
    + apply nodup_app. split; [|split].
      * apply (nodup_map_filter cs_name _ (fun x => "select_" ++ x)%string); [|apply T]. apply (app_inj_l "select_").
      * apply (nodup_map_filter cs_name _ (fun x => "select_sorted_" ++ x)%string); [|apply T]. apply (app_inj_l "select_sorted_").
      * intros x H G. apply in_map_iff in H as (c & <- & H), G as (c' & E & G).
        apply filter_In in H as [H1 H2], G as [G1 G2]. apply andb_prop in H2 as [H2 H3], G2 as [G2 G3].
        apply keyed_spec in G2 as (c0 & K1 & K2).
        assert (c0 = c') as -> by (eapply nodup_map_inj; [apply T|now apply sort_key_in|exact G1|exact K2]).
        apply (ti_select_sorted _ _ T c c'); auto; [now apply ex_has|].
        change ("select_sorted_" ++ cs_name c')%string with ("select_" ++ ("sorted_" ++ cs_name c'))%string in E.
        now apply (app_inj_l "select_") in E.
    + intros x H G. apply in_app_or in G as [G|G]; apply in_map_iff in G as (c & <- & G); apply filter_In in G as [G1 G2];
        apply andb_prop in G2 as [G2 G3].
      * apply base_read in H. destruct (ti_select _ _ T c) as [? ?]; auto; [now apply ex_has|]. tauto.
      * change ("select_sorted_" ++ cs_name c)%string with ("select_" ++ ("sorted_" ++ cs_name c))%string in H.
        apply base_read in H as [H|H]; discriminate H.
  - (* traits of Row *)
    rewrite derive_texts. split; [apply T|]. destruct (ti_derive_table _ _ T) as [T1 T2]. intros x H G.
    assert (Hx : x = "GetTableName" \/ (k = Sorted /\ In x ["PartialOrd"; "Ord"; "PartialEq"; "Eq"]) \/ (tm_save t = true /\ x = "SerialExtraction")).
    { clear Cols NoBase. revert H. destruct k, (dv_clone (tm_derive t)), (has_key t), (tm_save t); cbn; intuition auto. }
    destruct Hx as [->|[[K Hx]|[K ->]]]; [tauto|now apply (ti_derive_ord _ _ T K x)|].
    apply T2; [now apply (pd_save _ _ _ P)|exact G].
  - (* traits of RowRef *)
    rewrite derive_texts. split; [apply NoDup_filter; apply T|]. intros x H G. apply filter_In in G as [G1 G2].
    pose proof has_key_sorted as HK.
    assert (Hx : x = "Clone" \/ (k = Sorted /\ In x ["PartialOrd"; "Ord"; "PartialEq"; "Eq"])).
    { clear Cols NoBase. revert H HK. destruct k, (dv_clone (tm_derive t)), (has_key t), (tm_save t); cbn; intuition (auto; discriminate). }
    destruct Hx as [->|[K Hx]]; [discriminate G2|now apply (ti_derive_ord _ _ T K x)].
  - (* trackers *)
    rewrite auto_names. rewrite NoBase by (intros []; reflexivity). split; [|intros x []].
    apply (nodup_map_filter cs_name auto (fun x => "track_" ++ x ++ "_events")%string); [|apply T].
    intros a b E. apply (app_inj_l "track_") in E. now apply app_inj_r in E.
Qed.

Lemma tidy_bodies : tidy s k -> Forall (means (constants t) [("transmute", Transmute)]) [body_into_iter t; body_read t; body_write t].
Proof.
  intros T. apply bodies_ok.
  - rewrite col_names. apply T.
  - rewrite col_names. intros n H. apply in_map_iff in H as (c & <- & H). pose proof (ti_reserved _ _ T c H) as R.
    split.
    + intros G. apply R. unfold locals in G. cbn in G |- *. tauto.
    + unfold constants. rewrite track_names, in_app_iff. intros [G|G].
      * apply R. cbn in G |- *. tauto.
      * apply in_map_iff in G as (c' & E & G). apply filter_In in G as [G1 G2]. now apply (ti_track _ _ T c c').
  - intros n H G. unfold constants in G. rewrite track_names, in_app_iff in G. destruct G as [G|G].
    + unfold locals in H. cbn in H, G.
      repeat (destruct H as [H|H]; [subst n; repeat (destruct G as [G|G]; [discriminate|]); contradiction|]). contradiction.
    + apply in_map_iff in G as (c' & E & G). unfold locals in H. cbn in H.
      repeat (destruct H as [H|H]; [subst n; discriminate|]). contradiction.
Qed.

Lemma well_tidy :
  (forall p, NoDup (names t p)) ->
  Forall (means (constants t) [("transmute", Transmute)]) [body_into_iter t; body_read t; body_write t] -> tidy s k.
Proof.
  intros N M.
  assert (D : forall p, NoDup (by_table t p) /\ (forall x, In x (B p) -> ~ In x (by_table t p))).
  { intros p. specialize (N p). rewrite (names_base _ _ _ p P) in N. apply nodup_app in N. tauto. }
  assert (Df : forall p x, In x (fixed p) -> ~ In x (by_table t p)).
  { intros p x H. apply D. unfold base. apply in_or_app. auto. }
  pose proof (bodies_need _ _ M) as L. rewrite col_names in L.
  assert (Dn : NoDup (derived s)) by (rewrite <- derive_texts; apply (D TraitRow)).
  pose proof (proj2 (D TraitRow)) as Dt. cbn [by_table] in Dt. rewrite derive_texts in Dt.
  constructor.
  - rewrite <- col_names. apply (D Formats).
  - intros c H G. assert (Hc : In (cs_name c) (map cs_name (so_cols s))) by now apply in_map.
    assert (Fi : forall p, by_table t p = map co_name (tm_cols t) -> ~ In (cs_name c) (fixed p)).
    { intros p E X. apply (Df p _ X). now rewrite E, col_names. }
    pose proof (Fi FieldRead eq_refl) as F1. pose proof (Fi FieldWrite eq_refl) as F2. pose proof (Fi FieldEdit eq_refl) as F3.
    destruct (L _ Hc) as [L1 L2].
    unfold constants in L2. rewrite in_app_iff in L2. apply Decidable.not_or in L2 as [L2 _].
    cbn in F1, F2, F3, L1, L2, G. tauto.
  - intros c c' H H' R E. assert (Hc : In (cs_name c) (map cs_name (so_cols s))) by now apply in_map.
    destruct (L _ Hc) as [_ L2]. apply L2. unfold constants. rewrite track_names. apply in_or_app. right.
    rewrite E. apply in_map. now apply filter_In.
  - intros c H Hi R.
    assert (G : In ("select_" ++ cs_name c)%string (by_table t OfRead)).
    { cbn [by_table]. rewrite selector_names. apply in_or_app. left.
      apply (in_map (fun c => "select_" ++ cs_name c)%string). apply filter_In. rewrite (proj2 (ex_has _ _) Hi), R. auto. }
    split; intros E; apply (proj2 (D OfRead) _ (proj2 (base_read k (dv_clone (tm_derive t)) (has_key t) (tm_save t) (cs_name c)) ltac:(tauto)) G).
  - intros c c' H Hi R K' R' E.
    pose proof (proj1 (D OfRead)) as N'. cbn [by_table] in N'. rewrite selector_names in N'. apply nodup_app in N' as (_ & _ & N').
    apply (N' ("select_" ++ cs_name c)%string).
    + apply (in_map (fun c => "select_" ++ cs_name c)%string). apply filter_In. rewrite (proj2 (ex_has _ _) Hi), R. auto.
    + rewrite E. apply (in_map (fun c => "select_sorted_" ++ cs_name c)%string _ c'). apply filter_In. split; [now apply sort_key_in|].
      rewrite R', andb_true_r. apply keyed_spec. eauto.
  - exact Dn.
  - split.
    + apply Dt. unfold base. apply in_or_app. left. cbn. auto.
    + intros Sv. apply (pd_save _ _ _ P) in Sv. apply Dt. unfold base. apply in_or_app. right. rewrite Sv.
      destruct k, (dv_clone (tm_derive t)), (has_key t); cbn; tauto.
  - intros -> n Hn. apply Dt. unfold base. apply in_or_app. right.
    destruct (dv_clone (tm_derive t)), (has_key t), (tm_save t); cbn in Hn |- *; tauto.
Qed.

(** ** Uses *)
Lemma uses_ok : readable s k -> lookup_ok s -> forall p n, In (p, n) (uses t) -> In n (names t p) \/ left_to_user s k p n.
Proof.
  intros Rd L p n H. rewrite (names_base _ _ _ p P). unfold uses in H. rewrite !in_app_iff in H.
  pose proof (pd_flags _ _ _ P) as F. unfold flags in F. injection F as F1 F2 F3 F4.
  assert (Ord : (p = TraitRowRef /\ n = "Ord" /\ k = Sorted /\ has_key t = false) \/ ~ (p = TraitRowRef /\ n = "Ord" /\ k = Sorted /\ has_key t = false)).
  { destruct (has_key t); [right; intros (_ & _ & _ & X); discriminate|].
    destruct (string_dec n "Ord"); [|right; tauto]. destruct p; try (right; intros (X & _); discriminate).
    destruct k; try (right; intros (_ & _ & X & _); discriminate). left. auto. }
  destruct Ord as [Ord|Ord].
  { right. left. destruct Ord as (-> & -> & K' & K). split; [reflexivity|]. split; [reflexivity|]. split; [exact K'|].
    unfold has_key in K. pose proof (pd_key _ _ _ P) as K2. destruct (sort_keys s) as [|x [|]]; [reflexivity| |contradiction].
    destruct K2 as [K2 _]. now rewrite K2 in K. }
  destruct H as [H|[H|[H|H]]].
  - left. apply in_or_app. left.
    assert (G : forallb (fun u => existsb (String.eqb (snd u)) (B (fst u))) uses_fixed = true).
    { destruct k, (dv_clone (tm_derive t)), (has_key t), (tm_save t); vm_compute; reflexivity. }
    rewrite forallb_forall in G. specialize (G _ H). now apply existsb_In.
  - left. apply in_or_app. left. rewrite F2, (parts_made _ _ _ P) in H.
    assert (Sc : tm_save t = true -> dv_clone (tm_derive t) = true).
    { intros Sv. apply (pd_clone _ _ _ P), (rd_save _ _ Rd), (pd_save _ _ _ P), Sv. }
    pose proof has_key_sorted as Hk.
    set (special := fun u : place * string => match fst u with TraitRowRef => (snd u =? "Ord") && negb (has_key t) | _ => false end).
    assert (G : forallb (fun u => special u || existsb (String.eqb (snd u)) (B (fst u)))
       (flat_map (uses_part match k with Sorted => true | _ => false end) (made k (dv_clone (tm_derive t)) (has_key t) (tm_save t))) = true).
    { subst special. clear - Sc Hk. destruct (has_key t); [rewrite Hk by reflexivity|];
        destruct (tm_save t); [rewrite Sc by reflexivity| |rewrite Sc by reflexivity|]; destruct k;
        try (vm_compute; reflexivity); destruct (dv_clone (tm_derive t)); vm_compute; reflexivity. }
    rewrite forallb_forall in G. specialize (G _ H). apply orb_prop in G as [G|G]; [|now apply existsb_In].
    exfalso. unfold special in G. cbn in G. destruct p; try discriminate. apply andb_prop in G as [G1 G2].
    apply String.eqb_eq in G1. apply negb_true_iff in G2. apply Ord. split; [reflexivity|]. split; [exact G1|]. split; [|exact G2].
    subst n. revert H. clear. destruct k; try reflexivity;
      destruct (dv_clone (tm_derive t)), (has_key t), (tm_save t); cbn; intuition congruence.
  - left. apply in_or_app. right. apply in_map_iff in H as (m & E & H). injection E as <- <-. apply filter_In in H as [H A].
    cbn [by_table]. unfold selectors, Output.lookup.
    destruct (src_col _ H) as (c & Hc & C).
    assert (Fm : co_foreign m = true).
    { rewrite (cl_foreign _ _ C). rewrite (cl_auto _ _ C) in A. now apply auto_refers. }
    apply in_or_app. destruct (is_key t m) eqn:K.
    + right. apply (in_map (fun c => "select_sorted_" ++ co_name c)%string). apply filter_In. now rewrite K, Fm.
    + left. apply (in_map (fun c => "select_" ++ co_name c)%string). apply filter_In. rewrite Fm, andb_true_r. split; [exact H|].
      rewrite (cl_auto _ _ C) in A. destruct (proj1 (lookup_ok_auto s) L c Hc A) as [I|(c' & I1 & I2)].
      * now rewrite (cl_index _ _ C).
      * exfalso. enough (is_key t m = true) by congruence. apply (is_key_spec _ _ _ m P). exists c'. split; [exact I1|].
        now rewrite I2, (cl_name _ _ C).
  - apply in_flat_map in H as (m & H & G). destruct G as [G|[G|[]]]; injection G as <- <-.
    + left. apply in_or_app. right. now apply in_map.
    + apply filter_In in H as [H A]. destruct (src_col _ H) as (c & Hc & C).
      destruct (co_auto m) eqn:Am.
      * left. apply in_or_app. right. apply in_map. now apply filter_In.
      * right. right. split; [reflexivity|]. exists c. split; [exact Hc|]. rewrite <- (cl_foreign _ _ C), <- (cl_auto _ _ C).
        split; [exact A|]. split; [exact Am|]. unfold track_name, tracker_of. now rewrite (cl_name _ _ C).
Qed.
End Parsed.

(** ** Declarations *)
Lemma output_parsed s o : output_of s = Some o ->
  exists k t, readable s k /\ lookup_ok s /\ parsed s k t /\
    o = Output (names t) (uses t) (constants t) [body_into_iter t; body_read t; body_write t].
Proof.
  unfold output_of. destruct (parse_table s) as [t|] eqn:Ep; [|discriminate].
  destruct (expand s) as [| |c] eqn:Ex; try discriminate. intros E. injection E as <-.
  destruct (parse_good _ _ Ep) as (k & P). destruct (proj1 (expanded_iff s)) as (k' & R & _ & L); [eauto|].
  exists k, t. split; [|auto]. apply (parsed_readable _ _ _ P). apply (rd_save _ _ R).
Qed.
Lemma output_expanded s : (exists o, output_of s = Some o) <-> exists c, expand s = Expanded c.
Proof.
  unfold output_of. split.
  - intros (o & E). destruct (parse_table s); [|discriminate]. destruct (expand s); try discriminate. eauto.
  - intros (c & E). rewrite E. unfold expand in E. destruct (parse_table s); [eauto|discriminate].
Qed.
Lemma well_named_iff s o k : output_of s = Some o -> readable s k -> (well_named o <-> tidy s k).
Proof.
  intros E R. destruct (output_parsed _ _ E) as (k' & t & R' & L & P & ->). rewrite (readable_kind _ _ _ R' R) in *.
  unfold well_named. cbn. split.
  - intros [H1 H2]. exact (well_tidy _ _ _ P H1 H2).
  - intros T. split; [exact (names_ok _ _ _ P T)|exact (tidy_bodies _ _ _ P T)].
Qed.
Lemma uses_defined s o k : output_of s = Some o -> readable s k ->
  forall p n, In (p, n) (o_uses o) -> In n (o_names o p) \/ left_to_user s k p n.
Proof.
  intros E R. destruct (output_parsed _ _ E) as (k' & t & R' & L & P & ->). rewrite (readable_kind _ _ _ R' R) in *.
  cbn. exact (uses_ok _ _ _ P R L).
Qed.

(** Membership by computation. *)
Definition place_eq_dec (a b : place) : {a = b} + {a <> b}.
Proof. decide equality. Defined.
Definition same_place (a b : place) : bool := if place_eq_dec a b then true else false.
Lemma mem_u (u : place * string) l : existsb (fun v => same_place (fst u) (fst v) && (snd u =? snd v)) l = true -> In u l.
Proof.
  rewrite existsb_exists. intros ([q m] & H & E). destruct u as [p n]. cbn in E. apply andb_prop in E as [E1 E2].
  apply String.eqb_eq in E2. unfold same_place in E1. destruct (place_eq_dec p q); [subst; exact H|discriminate].
Qed.
