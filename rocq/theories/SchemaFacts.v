(** Proofs about [table!]. *)
From Coq Require Import List Bool Arith NArith String Ascii Lia Permutation.
From Verif Require Import Base Table Hist Schema SchemaSpec.
Import ListNotations.
Local Open Scope string_scope.
Local Open Scope list_scope.
Local Notation length := List.length.
Local Arguments N.add : simpl never.
Local Arguments N.mul : simpl never.
Local Arguments ascii_of_N : simpl never.

Lemma andthen_good A B (x : got A) (f : A -> got B) b : andthen x f = Good b -> exists a, x = Good a /\ f a = Good b.
Proof. destruct x; cbn; [eauto|discriminate]. Qed.

(** ** Numbers *)
Definition str_of (ds : list N) : string := fold_right (fun d => String (ascii_of_N (48 + d))) "" ds.
Definition val_of (acc : N) (ds : list N) : N := fold_left (fun a d => (10 * a + d)%N) ds acc.

Lemma digit_chr d : (d < 10)%N -> digit (ascii_of_N (48 + d)) = Some d.
Proof.
  intros H. assert (E : In d [0;1;2;3;4;5;6;7;8;9]%N).
  { cbn. lia. }
  cbn in E. repeat destruct E as [<-|E]; [reflexivity..|contradiction].
Qed.
Lemma digit_some c d : digit c = Some d -> (d < 10)%N /\ c = ascii_of_N (48 + d).
Proof.
  unfold digit. destruct ((48 <=? N_of_ascii c)%N && (N_of_ascii c <=? 57)%N) eqn:E; [|discriminate].
  intros H; injection H as <-. apply andb_prop in E as [E1 E2]. apply N.leb_le in E1, E2.
  split; [lia|]. replace (48 + (N_of_ascii c - 48))%N with (N_of_ascii c) by lia. now rewrite ascii_N_embedding.
Qed.
Lemma val_of_le ds : forall acc, (acc <= val_of acc ds)%N.
Proof. induction ds as [|d ds IH]; intros acc; unfold val_of in *; cbn [fold_left]; [lia|]. specialize (IH (10 * acc + d)%N). lia. Qed.

Lemma digits_spec max s : forall acc v, (acc <= max)%N ->
  digits max acc s = Some v <-> exists ds, Forall (fun d => (d < 10)%N) ds /\ s = str_of ds /\ v = val_of acc ds /\ (v <= max)%N.
Proof.
  induction s as [|c s IH]; intros acc v Hm; cbn.
  - split.
    + intros E; injection E as <-. exists []. auto.
    + intros ([|d ds] & _ & E & -> & _); [reflexivity|discriminate].
  - split.
    + destruct (digit c) as [d|] eqn:Ed; [|discriminate]. apply digit_some in Ed as [Hd ->].
      destruct (N.leb_spec (acc * 10 + d) max); [|discriminate].
      intros E. apply IH in E as (ds & F & -> & -> & L); [|assumption].
      exists (d :: ds). split; [now constructor|]. split; [reflexivity|].
      unfold val_of in *; cbn [fold_left]. replace (10 * acc + d)%N with (acc * 10 + d)%N by lia. auto.
    + intros ([|d ds] & F & E & -> & L); [discriminate|]. cbn in E. injection E as Ec Es. subst c s. inversion F; subst.
      rewrite digit_chr by assumption.
      pose proof (val_of_le ds (10 * acc + d)%N) as G. unfold val_of in *; cbn [fold_left] in *.
      replace (10 * acc + d)%N with (acc * 10 + d)%N in * by lia.
      destruct (N.leb_spec (acc * 10 + d) max); [|lia]. apply IH; [assumption|].
      exists ds. unfold val_of. auto.
Qed.

Lemma chr_plus d : (d < 10)%N -> ascii_of_N (48 + d) <> "+"%char.
Proof. intros H E. pose proof (digit_chr d H) as G. rewrite E in G. discriminate. Qed.

Lemma parse_num_spec max s v : parse_num max s = Some v <-> numeral s v /\ (v <= max)%N.
Proof.
  assert (K : forall c t, c <> "+"%char -> parse_num max (String c t) = digits max 0 (String c t)).
  { intros [[] [] [] [] [] [] [] []] t Hc; cbn; try reflexivity. now contradiction Hc. }
  split.
  - intros H.
    assert (G : exists t, t <> "" /\ (s = t \/ s = String "+" t) /\ digits max 0 t = Some v).
    { destruct s as [|c t]; [discriminate|]. destruct (ascii_dec c "+"%char) as [->|Hc].
      - destruct t as [|c' t]; [discriminate|]. exists (String c' t). split; [discriminate|]. auto.
      - rewrite K in H by assumption. exists (String c t). split; [discriminate|]. auto. }
    destruct G as (t & Hne & Hs & D). apply digits_spec in D as (ds & F & -> & -> & L); [|apply N.le_0_l].
    split; [|assumption]. exists ds. split; [now destruct ds|]. auto.
  - intros ((ds & Hne & F & Hs & ->) & L).
    assert (D : digits max 0 (str_of ds) = Some (val_of 0 ds)).
    { apply digits_spec; [apply N.le_0_l|]. exists ds. auto. }
    destruct ds as [|d ds]; [contradiction|]. inversion F; subst.
    destruct Hs as [->| ->].
    + cbn [fold_right]. rewrite K by now apply chr_plus. exact D.
    + exact D.
Qed.

Lemma number_spec max a v :
  number max a = Good v <-> exists s, at_node a = MStr s /\ numeral s v /\ (v <= max)%N.
Proof.
  unfold number, meta_arg. destruct (at_node a); cbn.
  1,3,4: split; [discriminate|intros (? & ? & _); discriminate].
  destruct (parse_num max s) as [n|] eqn:E; split.
  - intros H; injection H as <-. apply parse_num_spec in E. eauto.
  - intros (s' & Hs & H). injection Hs as <-. apply parse_num_spec in H. congruence.
  - discriminate.
  - intros (s' & Hs & H). injection Hs as <-. apply parse_num_spec in H. congruence.
Qed.

(** ** Small lemmas about attributes *)
Lemma given_app n l l' : given n (l ++ l') = given n l ++ given n l'.
Proof. apply flat_map_app. Qed.
Lemma has_app n l l' : has n (l ++ l') <-> has n l \/ has n l'.
Proof.
  unfold has. split.
  - intros (a & H & E). apply in_app_or in H as [H|H]; eauto.
  - intros [(a & H & E)|(a & H & E)]; exists a; auto using in_or_app.
Qed.
Lemma has_one n a : has n [a] <-> at_name a = n.
Proof. unfold has. split; [intros (? & [<-|[]] & E); exact E|intros E; exists a; cbn; auto]. Qed.
Lemma has_existsb n l : has n l <-> existsb (fun a => at_name a =? n) l = true.
Proof.
  rewrite existsb_exists. unfold has. split; intros (a & H & E); exists a; split; auto; now apply String.eqb_eq.
Qed.
Lemma dw_app w l l' : derives_word w (l ++ l') <-> derives_word w l \/ derives_word w l'.
Proof.
  unfold derives_word. split.
  - intros (a & H & E). apply in_app_or in H as [H|H]; eauto.
  - intros [(a & H & E)|(a & H & E)]; exists a; auto using in_or_app.
Qed.
Lemma dw_other w a : at_name a <> "row_derive" -> ~ derives_word w [a].
Proof. intros N (i & [E|[]] & _). subst a. now apply N. Qed.
Lemma given_other n a : at_name a <> n -> given n [a] = [].
Proof. intros H. unfold given; cbn. destruct (String.eqb_spec (at_name a) n); [contradiction|reflexivity]. Qed.
Lemma given_str n s : given n [At n (MStr s)] = [s].
Proof. unfold given; cbn. now rewrite String.eqb_refl. Qed.
Lemma version_is_app l a v : at_name a <> "version" -> version_is (l ++ [a]) v <-> version_is l v.
Proof. intros H. unfold version_is. rewrite given_app, given_other, app_nil_r by assumption. reflexivity. Qed.
Lemma version_is_last l s v : numeral s v -> version_is (l ++ [At "version" (MStr s)]) v.
Proof.
  intros H. unfold version_is. rewrite given_app, given_str. destruct (given "version" l) as [|x r]; cbn; [exact H|].
  now rewrite last_last.
Qed.

(** ** The attributes of the table *)
Notation kindb := (fun a => at_name a =? "kind").
Definition flags (k : option kind) : bool * bool * bool * bool :=
  (false, match k with Some Sorted => true | _ => false end, match k with Some Consistent => true | _ => false end,
   match k with Some Bag | Some List_ => true | _ => false end).
Record seen (l : list attr) (t : tablem) : Prop := {
  sn_fit : Forall fit l;
  sn_kind : match tm_kind t with
            | None => filter kindb l = []
            | Some k => exists n, In (n, k) kinds /\ filter kindb l = [At "kind" (MStr n)]
            end;
  sn_flags : (tm_immutable t, tm_sorted t, tm_consistent t, tm_secret t) = flags (tm_kind t);
  sn_row_id : tm_row_id t = last (given "row_id" l) "usize";
  sn_version : version_is l (tm_version t);
  sn_save : tm_save t = true <-> has "save" l;
  sn_clone : dv_clone (tm_derive t) = true <-> derives_word "Clone" l;
  sn_copy : dv_copy (tm_derive t) = true <-> derives_word "Copy" l;
  sn_trackers : tm_trackers t = given "add_tracker" l;
  sn_derive : tm_row_derive t =
    flat_map (fun a => if at_name a =? "row_derive" then match at_node a with MList i => i | _ => [] end else []) l;
  sn_key : tm_key t = None;
  sn_cols : tm_cols t = [] }.

Lemma seen_new : seen [] tm_new.
Proof.
  constructor; try reflexivity; try (constructor; fail); cbn; split; try discriminate.
  - intros (? & [] & _).
  - intros (? & [] & _).
  - intros (? & [] & _).
Qed.

Lemma kind_named_spec s k : kind_named s = Good k <-> In (s, k) kinds.
Proof.
  unfold kind_named, kinds. cbn.
  repeat match goal with |- context [s =? ?x] => destruct (String.eqb_spec s x) as [->|?] end;
  (split; [intros E; first [discriminate E | injection E as <-; tauto]|
   intros E; repeat destruct E as [E|E]; try contradiction; injection E; intros; subst; congruence]).
Qed.

Lemma derive_clone l : forall d, dv_clone (fold_left derive_item l d) = true <-> dv_clone d = true \/ In (IWord "Clone") l.
Proof.
  induction l as [|i l IH]; intros d; cbn; [tauto|]. rewrite IH.
  destruct i as [s|s]; cbn.
  - destruct (String.eqb_spec s "Clone") as [->|N1]; [cbn; tauto|].
    assert (IWord s <> IWord "Clone") by congruence.
    destruct (s =? "Copy"); [|destruct (s =? "Debug")]; cbn; tauto.
  - assert (IOther s <> IWord "Clone") by discriminate. tauto.
Qed.
Lemma derive_copy l : forall d, dv_copy (fold_left derive_item l d) = true <-> dv_copy d = true \/ In (IWord "Copy") l.
Proof.
  induction l as [|i l IH]; intros d; cbn; [tauto|]. rewrite IH.
  destruct i as [s|s]; cbn.
  - destruct (String.eqb_spec s "Copy") as [->|N1]; [cbn; tauto|].
    assert (IWord s <> IWord "Copy") by congruence.
    destruct (s =? "Clone"); [|destruct (s =? "Debug")]; cbn; tauto.
  - assert (IOther s <> IWord "Copy") by discriminate. tauto.
Qed.

(** An attribute that is not [kind] changes a record in one place only. *)
Ltac keep H :=
  constructor; cbn [with_kind with_row_id with_derive with_save with_version with_trackers with_docs
                    tm_kind tm_immutable tm_sorted tm_consistent tm_secret tm_row_id tm_version tm_save tm_derive
                    tm_trackers tm_row_derive tm_key tm_cols dv_clone dv_copy];
  [ apply Forall_app; split; [apply (sn_fit _ _ H)|constructor; [|constructor]]
  | rewrite filter_app; cbn [filter at_name String.eqb]; rewrite ?app_nil_r
  | try apply (sn_flags _ _ H)
  | rewrite given_app; try (rewrite given_other by (cbn; congruence); rewrite app_nil_r; apply (sn_row_id _ _ H))
  | try (apply version_is_app; [cbn; congruence|]; apply (sn_version _ _ H))
  | rewrite has_app, has_one, ?(sn_save _ _ H); cbn
  | rewrite dw_app, ?(sn_clone _ _ H)
  | rewrite dw_app, ?(sn_copy _ _ H)
  | rewrite given_app; try (rewrite given_other by (cbn; congruence); rewrite app_nil_r; apply (sn_trackers _ _ H))
  | rewrite flat_map_app, (sn_derive _ _ H); cbn
  | try apply (sn_key _ _ H)
  | try apply (sn_cols _ _ H) ].

Lemma iff_or_no (A B C : Prop) : (A <-> B) -> ~ C -> (A <-> B \/ C).
Proof. tauto. Qed.

Lemma table_attr_seen l t a t' : seen l t -> table_attr t a = Good t' -> seen (l ++ [a]) t'.
Proof.
  intros H. destruct a as [n m]. unfold table_attr; cbn [at_name at_node].
  assert (Kf : n <> "kind" ->
    match tm_kind t with
    | None => (filter kindb l ++ filter kindb [At n m])%list = []
    | Some k => exists x, In (x, k) kinds /\ (filter kindb l ++ filter kindb [At n m])%list = [At "kind" (MStr x)]
    end).
  { intros E. cbn. destruct (String.eqb_spec n "kind"); [contradiction|]. rewrite app_nil_r. apply (sn_kind _ _ H). }
  destruct (String.eqb_spec n "kind") as [->|N0].
  { intros E. apply andthen_good in E as (s & E1 & E). apply andthen_good in E as (k & E2 & E).
    unfold meta_arg in E1; cbn in E1. destruct m; try discriminate. injection E1 as ->.
    apply kind_named_spec in E2. unfold set_kind in E.
    destruct (tm_kind t) eqn:Ek; [discriminate|].
    pose proof (sn_flags _ _ H) as Fl. rewrite Ek in Fl. cbn in Fl. injection Fl as F1 F2 F3 F4.
    pose proof (sn_kind _ _ H) as Kn. rewrite Ek in Kn.
    assert (E' : t' = match k with
               | Append => with_kind t k (tm_sorted t) (tm_consistent t) (tm_secret t)
               | Consistent => with_kind t k (tm_sorted t) true false
               | Bag | List_ => with_kind t k (tm_sorted t) (tm_consistent t) true
               | Sorted => with_kind t k true (tm_consistent t) (tm_secret t)
               end).
    { destruct k; cbn in E; rewrite (sn_cols _ _ H) in E; cbn in E; now injection E as <-. }
    clear E. destruct k; subst t'; keep H.
    all: try (left; eauto; fail).
    all: try (rewrite Kn; exists s; split; [assumption|reflexivity]).
    all: try (rewrite ?F1, ?F2, ?F3, ?F4; reflexivity).
    all: try (apply iff_or_no; [reflexivity|]; first [discriminate|now apply dw_other]).
    all: rewrite app_nil_r; reflexivity. }
  specialize (Kf N0).
  destruct (String.eqb_spec n "row_id") as [->|N1].
  { intros E. apply andthen_good in E as (s & E1 & E). injection E as <-.
    unfold meta_arg in E1; cbn in E1. destruct m; try discriminate. injection E1 as ->.
    keep H.
    - right; left; eauto.
    - cbn in Kf. rewrite app_nil_r in Kf. exact Kf.
    - rewrite given_str. now rewrite last_last.
    - apply iff_or_no; [reflexivity|discriminate].
    - apply iff_or_no; [reflexivity|now apply dw_other].
    - apply iff_or_no; [reflexivity|now apply dw_other].
    - now rewrite app_nil_r. }
  destruct (String.eqb_spec n "row_derive") as [->|N2].
  { assert (Fi : fit (At "row_derive" m)) by (right; right; right; cbn; tauto).
    destruct m as [|s| |i]; intros E; injection E as <-; keep H; try exact Fi.
    all: try (cbn in Kf; rewrite app_nil_r in Kf; exact Kf).
    all: try (apply iff_or_no; [reflexivity|]; first [discriminate|intros (i & [E|[]] & _); discriminate]).
    all: try (now rewrite app_nil_r).
    - rewrite derive_clone, (sn_clone _ _ H). unfold derives_word; cbn. split.
      + intros [G|G]; [tauto|right; eauto].
      + intros [G|(i' & [E|[]] & G)]; [tauto|]. injection E as <-. tauto.
    - rewrite derive_copy, (sn_copy _ _ H). unfold derives_word; cbn. split.
      + intros [G|G]; [tauto|right; eauto].
      + intros [G|(i' & [E|[]] & G)]; [tauto|]. injection E as <-. tauto. }
  destruct (String.eqb_spec n "save") as [->|N3].
  { intros E; injection E as <-. keep H.
    - right; right; right; cbn; tauto.
    - cbn in Kf. rewrite app_nil_r in Kf. exact Kf.
    - tauto.
    - apply iff_or_no; [reflexivity|now apply dw_other].
    - apply iff_or_no; [reflexivity|now apply dw_other].
    - now rewrite app_nil_r. }
  destruct (String.eqb_spec n "version") as [->|N4].
  { intros E. apply andthen_good in E as (v & E1 & E). injection E as <-.
    apply number_spec in E1 as (s & E1 & Nu & Le). cbn in E1. subst m. keep H.
    - right; right; left. exists s, v. auto.
    - cbn in Kf. rewrite app_nil_r in Kf. exact Kf.
    - now apply version_is_last.
    - apply iff_or_no; [reflexivity|discriminate].
    - apply iff_or_no; [reflexivity|now apply dw_other].
    - apply iff_or_no; [reflexivity|now apply dw_other].
    - now rewrite app_nil_r. }
  destruct (String.eqb_spec n "add_tracker") as [->|N5].
  { assert (Fi : fit (At "add_tracker" m)) by (right; right; right; cbn; tauto).
    destruct m as [|s| |i]; intros E; injection E as <-; keep H; try exact Fi.
    all: try (cbn in Kf; rewrite app_nil_r in Kf; exact Kf).
    all: try (apply iff_or_no; [reflexivity|]; first [discriminate|now apply dw_other]).
    all: try (now rewrite app_nil_r).
    all: try (cbn; rewrite app_nil_r; apply (sn_trackers _ _ H)).
    rewrite given_str. now rewrite (sn_trackers _ _ H). }
  destruct (String.eqb_spec n "doc") as [->|N6]; [|discriminate].
  intros E; injection E as <-. keep H.
  - right; right; right; cbn; tauto.
  - cbn in Kf. rewrite app_nil_r in Kf. exact Kf.
  - apply iff_or_no; [reflexivity|discriminate].
  - apply iff_or_no; [reflexivity|now apply dw_other].
  - apply iff_or_no; [reflexivity|now apply dw_other].
  - now rewrite app_nil_r.
Qed.

Lemma table_attr_ok t a : fit a -> (at_name a = "kind" -> tm_kind t = None /\ tm_cols t = []) ->
  exists t', table_attr t a = Good t'.
Proof.
  intros Fi Hk. unfold table_attr.
  destruct Fi as [(n & k & -> & Hin)|[(s & ->)|[(s & v & -> & Nu & Le)|Hp]]].
  - destruct (Hk eq_refl) as [E1 E2]. cbn. apply kind_named_spec in Hin. rewrite Hin; cbn.
    unfold set_kind. rewrite E1. destruct k; cbn; rewrite E2; cbn; eauto.
  - cbn. eauto.
  - cbn [at_name].
    change ("version" =? "kind") with false. change ("version" =? "row_id") with false.
    change ("version" =? "row_derive") with false. change ("version" =? "save") with false.
    change ("version" =? "version") with true. cbv iota.
    rewrite (proj2 (number_spec u32_max (At "version" (MStr s)) v)); [|exists s; split; [reflexivity|split; assumption]]. cbn. eauto.
  - cbn in Hp. destruct a as [n m]. cbn in *.
    repeat destruct Hp as [<-|Hp]; try contradiction; cbn; try destruct m; eauto.
Qed.

Lemma attrs_seen l : forall pre t t', seen pre t -> fold_got table_attr l t = Good t' -> seen (pre ++ l) t'.
Proof.
  induction l as [|a l IH]; intros pre t t' H; cbn [fold_got].
  - intros E; injection E as <-. now rewrite app_nil_r.
  - intros E. apply andthen_good in E as (t1 & E1 & E). apply (table_attr_seen _ _ _ _ H) in E1.
    replace (pre ++ a :: l) with ((pre ++ [a]) ++ l) by (now rewrite <- app_assoc). eauto.
Qed.
Lemma attrs_ok l : forall pre t, seen pre t -> Forall fit l -> length (filter kindb (pre ++ l)) <= 1 ->
  exists t', fold_got table_attr l t = Good t'.
Proof.
  induction l as [|a l IH]; intros pre t H Hf Hl; cbn [fold_got]; [eauto|].
  inversion Hf; subst.
  destruct (table_attr_ok t a) as (t1 & E1); [assumption| |].
  - intros Ek. split; [|apply (sn_cols _ _ H)]. pose proof (sn_kind _ _ H) as K. destruct (tm_kind t); [|reflexivity].
    destruct K as (n & _ & K). rewrite filter_app, K in Hl. cbn [filter] in Hl. rewrite Ek in Hl. cbn in Hl. lia.
  - rewrite E1. cbn. apply (IH (pre ++ [a])); [now apply (table_attr_seen _ t)|assumption|].
    now rewrite <- app_assoc.
Qed.

(** ** The columns *)
Definition ex (n : string) (l : list attr) : bool := existsb (fun a => at_name a =? n) l.
Lemma ex_app n l l' : ex n (l ++ l') = ex n l || ex n l'.
Proof. apply existsb_app. Qed.
Lemma ex_has n l : ex n l = true <-> has n l.
Proof. symmetry. apply has_existsb. Qed.
Definition other (a : attr) : bool :=
  negb (existsb (fun n => at_name a =? n) ["index"; "foreign"; "sort_key"; "foreign_auto"; "version"]).
Record cseen (l : list attr) (f : colflags) : Prop := {
  cn_fit : Forall fit_col l;
  cn_index : cf_indexed f = ex "index" l;
  cn_foreign : cf_foreign f = existsb (fun a => (at_name a =? "foreign") || (at_name a =? "foreign_auto")) l;
  cn_auto : cf_auto f = ex "foreign_auto" l;
  cn_key : cf_key f = ex "sort_key" l;
  cn_version : version_is l (cf_version f);
  cn_attrs : cf_attrs f = filter other l }.

Lemma col_attr_seen l f a f' : cseen l f -> col_attr f a = Good f' -> cseen (l ++ [a]) f'.
Proof.
  intros H. destruct a as [n m]. unfold col_attr; cbn [at_name].
  assert (NV : n <> "version" -> fit_col (At n m)) by (intros N E; now contradiction N).
  destruct H as [H1 H2 H3 H4 H5 H6 H7].
  assert (V : n <> "version" -> version_is (l ++ [At n m]) (cf_version f)).
  { intros N. now apply version_is_app. }
  destruct (String.eqb_spec n "index") as [->|N1];
  [|destruct (String.eqb_spec n "foreign") as [->|N2];
  [|destruct (String.eqb_spec n "sort_key") as [->|N3];
  [|destruct (String.eqb_spec n "foreign_auto") as [->|N4];
  [|destruct (String.eqb_spec n "version") as [->|N5]]]]].
  5: { intros E. apply andthen_good in E as (v & E1 & E). injection E as <-.
       apply number_spec in E1 as (s & E1 & Nu & Le). cbn in E1. subst m.
       constructor; cbn [cf_indexed cf_foreign cf_auto cf_key cf_version cf_attrs]; unfold ex in *;
         rewrite ?Forall_app, ?existsb_app, ?filter_app, ?H2, ?H3, ?H4, ?H5, ?H7; cbn;
         rewrite ?orb_false_r, ?app_nil_r; try reflexivity.
       - split; [assumption|constructor; [|constructor]]. intros _. exists s, v. auto.
       - now apply version_is_last. }
  all: intros E; injection E as <-;
    constructor; cbn [cf_indexed cf_foreign cf_auto cf_key cf_version cf_attrs]; try (apply V; congruence);
    unfold ex in *;
    rewrite ?Forall_app, ?existsb_app, ?filter_app, ?H2, ?H3, ?H4, ?H5, ?H7; cbn;
    rewrite ?orb_false_r, ?orb_true_r, ?app_nil_r; try reflexivity.
  all: try (split; [assumption|constructor; [|constructor]]; apply NV; congruence).
  all: try (unfold other; cbn).
  all: repeat match goal with |- context [?y =? ?x] => is_var y; destruct (String.eqb_spec y x); [congruence|] end.
  all: cbn; rewrite ?orb_false_r; reflexivity.
Qed.
Lemma col_attr_ok f a : fit_col a -> exists f', col_attr f a = Good f'.
Proof.
  intros Fi. unfold col_attr.
  destruct (at_name a =? "index"); [eauto|]. destruct (at_name a =? "foreign"); [eauto|].
  destruct (at_name a =? "sort_key"); [eauto|]. destruct (at_name a =? "foreign_auto"); [eauto|].
  destruct (String.eqb_spec (at_name a) "version") as [E|]; [|eauto].
  destruct (Fi E) as (s & v & -> & Nu & Le).
  rewrite (proj2 (number_spec u64_max (At "version" (MStr s)) v)); [|exists s; split; [reflexivity|split; assumption]]. cbn. eauto.
Qed.
Lemma cattrs_seen l : forall pre f f', cseen pre f -> fold_got col_attr l f = Good f' -> cseen (pre ++ l) f'.
Proof.
  induction l as [|a l IH]; intros pre t t' H; cbn [fold_got].
  - intros E; injection E as <-. now rewrite app_nil_r.
  - intros E. apply andthen_good in E as (t1 & E1 & E). apply (col_attr_seen _ _ _ _ H) in E1.
    replace (pre ++ a :: l) with ((pre ++ [a]) ++ l) by (now rewrite <- app_assoc). eauto.
Qed.
Lemma cattrs_ok l : forall f, Forall fit_col l -> exists f', fold_got col_attr l f = Good f'.
Proof.
  induction l as [|a l IH]; intros f Hf; cbn [fold_got]; [eauto|].
  inversion Hf; subst. destruct (col_attr_ok f a) as (f1 & ->); [assumption|]. cbn. eauto.
Qed.
Lemma cseen_new : cseen [] (CF false false false false 0 []).
Proof. constructor; reflexivity || constructor. Qed.

(** A column of the table structure, for a column of the declaration. *)
Record col_of (c : colsrc) (m : colm) : Prop := {
  cl_name : co_name m = cs_name c;
  cl_elem : co_elem m = cs_elem c;
  cl_ty : co_ty m = cs_ty c;
  cl_index : co_indexed m = ex "index" (cs_attrs c);
  cl_foreign : co_foreign m = refers c;
  cl_auto : co_auto m = auto c;
  cl_version : version_is (cs_attrs c) (co_version m);
  cl_attrs : co_attrs m = filter other (cs_attrs c) }.

Notation keyb := (fun c => existsb (fun a => at_name a =? "sort_key") (cs_attrs c)).
(** All of the table structure but its columns and its key. *)
Definition head_of (t : tablem) : tablem :=
  Tm (tm_docs t) (tm_row_derive t) (tm_pub t) (tm_dom t) (tm_name t) (tm_kind t) [] (tm_trackers t)
     (tm_row_id t) (tm_version t) (tm_save t) (tm_derive t) None (tm_immutable t) (tm_sorted t) (tm_consistent t) (tm_secret t).
Record tseen (t0 : tablem) (cs : list colsrc) (t : tablem) : Prop := {
  ts_head : head_of t = head_of t0;
  ts_fit : Forall (fun c => Forall fit_col (cs_attrs c)) cs;
  ts_cols : Forall2 col_of cs (tm_cols t);
  ts_key : match filter keyb cs with
           | [] => tm_key t = None
           | [c] => tm_key t = Some (cs_name c) /\ tm_kind t0 = Some Sorted
           | _ => False
           end }.

Lemma table_col_seen t0 cs t c t' : tseen t0 cs t -> table_col t c = Good t' -> tseen t0 (cs ++ [c]) t'.
Proof.
  intros H E. unfold table_col in E.
  apply andthen_good in E as (f & Ef & E). apply andthen_good in E as (t1 & E1 & E). injection E as <-.
  apply (cattrs_seen _ _ _ _ cseen_new) in Ef. cbn in Ef.
  assert (Hc : col_of c (Co (cf_attrs f) (cs_name c) (cs_elem c) (cs_ty c) (cf_indexed f) (cf_foreign f) (cf_auto f) (cf_version f))).
  { destruct Ef. constructor; cbn; auto. }
  assert (Hkd : tm_kind t = tm_kind t0).
  { pose proof (f_equal tm_kind (ts_head _ _ _ H)) as G. exact G. }
  assert (Hh : head_of t1 = head_of t /\ tm_cols t1 = tm_cols t).
  { destruct (cf_key f); [|now injection E1 as <-].
    destruct (tm_key t); [discriminate|]. destruct (tm_kind t) as [[]|]; try discriminate. now injection E1 as <-. }
  destruct Hh as [Hh1 Hh2].
  constructor.
  - rewrite <- (ts_head _ _ _ H), <- Hh1. reflexivity.
  - apply Forall_app. split; [apply (ts_fit _ _ _ H)|]. constructor; [apply (cn_fit _ _ Ef)|constructor].
  - cbn. rewrite Hh2. apply Forall2_app; [apply (ts_cols _ _ _ H)|]. constructor; [exact Hc|constructor].
  - cbn [tm_key with_cols]. rewrite filter_app. cbn [filter].
    pose proof (cn_key _ _ Ef) as Ek. unfold ex in Ek. rewrite <- Ek. pose proof (ts_key _ _ _ H) as K.
    destruct (cf_key f).
    + destruct (tm_key t) eqn:Et; [discriminate|].
      destruct (filter keyb cs) as [|c1 [|]]; [|now destruct K|now destruct K].
      destruct (tm_kind t) as [[]|] eqn:Ekd; try discriminate. injection E1 as <-. cbn. split; congruence.
    + injection E1 as <-. rewrite app_nil_r. exact K.
Qed.
Lemma table_col_ok t0 cs t c : tseen t0 cs t -> Forall fit_col (cs_attrs c) ->
  length (filter keyb (cs ++ [c])) <= 1 -> (filter keyb (cs ++ [c]) <> [] -> tm_kind t0 = Some Sorted) ->
  exists t', table_col t c = Good t'.
Proof.
  intros H Hf Hl Hk. unfold table_col.
  destruct (cattrs_ok (cs_attrs c) (CF false false false false 0 []) Hf) as (f & Ef). rewrite Ef. cbn.
  apply (cattrs_seen _ _ _ _ cseen_new) in Ef. cbn in Ef.
  pose proof (cn_key _ _ Ef) as Ek. unfold ex in Ek.
  assert (Hkd : tm_kind t = tm_kind t0).
  { pose proof (f_equal tm_kind (ts_head _ _ _ H)) as G. exact G. }
  destruct (cf_key f); cbn; [|eauto].
  rewrite filter_app in Hl, Hk. cbn [filter] in Hl, Hk. rewrite <- Ek in Hl, Hk.
  pose proof (ts_key _ _ _ H) as K.
  destruct (filter keyb cs) as [|c1 r].
  - rewrite K. rewrite Hkd, Hk by discriminate. cbn. eauto.
  - rewrite app_length in Hl. cbn in Hl. lia.
Qed.
Lemma cols_seen t0 l : forall pre t t', tseen t0 pre t -> fold_got table_col l t = Good t' -> tseen t0 (pre ++ l) t'.
Proof.
  induction l as [|a l IH]; intros pre t t' H; cbn [fold_got].
  - intros E; injection E as <-. now rewrite app_nil_r.
  - intros E. apply andthen_good in E as (t1 & E1 & E). apply (table_col_seen _ _ _ _ _ H) in E1.
    replace (pre ++ a :: l) with ((pre ++ [a]) ++ l) by (now rewrite <- app_assoc). eauto.
Qed.
Lemma cols_ok t0 l : forall pre t, tseen t0 pre t -> Forall (fun c => Forall fit_col (cs_attrs c)) l ->
  length (filter keyb (pre ++ l)) <= 1 -> (filter keyb (pre ++ l) <> [] -> tm_kind t0 = Some Sorted) ->
  exists t', fold_got table_col l t = Good t'.
Proof.
  induction l as [|c l IH]; intros pre t H Hf Hl Hk; cbn [fold_got]; [eauto|].
  inversion Hf; subst.
  replace (pre ++ c :: l) with ((pre ++ [c]) ++ l) in * by (now rewrite <- app_assoc).
  destruct (table_col_ok _ _ _ c H) as (t1 & E1); [assumption| | |].
  - rewrite filter_app, app_length in Hl. lia.
  - intros N. apply Hk. rewrite filter_app. intros E. apply app_eq_nil in E as [E _]. contradiction.
  - rewrite E1. cbn. apply (IH (pre ++ [c])); auto. now apply (table_col_seen _ _ t).
Qed.

(** ** The table structure *)
Record parsed (s : source) (k : kind) (t : tablem) : Prop := {
  pd_fit : Forall fit (so_attrs s);
  pd_kind : exists n, In (n, k) kinds /\ filter kindb (so_attrs s) = [At "kind" (MStr n)];
  pd_kind' : tm_kind t = Some k;
  pd_flags : (tm_immutable t, tm_sorted t, tm_consistent t, tm_secret t) = flags (Some k);
  pd_row_id : tm_row_id t = last (given "row_id" (so_attrs s)) "usize";
  pd_version : version_is (so_attrs s) (tm_version t);
  pd_save : tm_save t = true <-> has "save" (so_attrs s);
  pd_clone : dv_clone (tm_derive t) = true <-> derives_word "Clone" (so_attrs s);
  pd_copy : dv_copy (tm_derive t) = true <-> derives_word "Copy" (so_attrs s);
  pd_trackers : tm_trackers t = given "add_tracker" (so_attrs s);
  pd_derive : tm_row_derive t =
    flat_map (fun a => if at_name a =? "row_derive" then match at_node a with MList i => i | _ => [] end else []) (so_attrs s);
  pd_names : tm_dom t = so_dom s /\ tm_name t = so_name s;
  pd_fit_col : Forall (fun c => Forall fit_col (cs_attrs c)) (so_cols s);
  pd_cols : Forall2 col_of (so_cols s) (tm_cols t);
  pd_key : match sort_keys s with
           | [] => tm_key t = None
           | [c] => tm_key t = Some (cs_name c) /\ k = Sorted
           | _ => False
           end;
  pd_rest : so_rest s = false }.

Lemma parse_good s t : parse_table s = Good t -> exists k, parsed s k t.
Proof.
  unfold parse_table. intros E. apply andthen_good in E as (t1 & E1 & E).
  apply (attrs_seen _ _ _ _ seen_new) in E1. cbn in E1.
  destruct (tm_kind t1) as [k|] eqn:Ek; [|discriminate].
  apply andthen_good in E as (t2 & E2 & E). destruct (so_rest s) eqn:Er; [discriminate|]. injection E as <-.
  set (t0 := with_head t1 (so_pub s) (so_dom s) (so_name s)) in *.
  assert (H0 : tseen t0 [] t0).
  { constructor; [reflexivity|constructor| |]; cbn.
    - rewrite (sn_cols _ _ E1). constructor.
    - apply (sn_key _ _ E1). }
  apply (cols_seen _ _ _ _ _ H0) in E2. cbn in E2. destruct E2 as [G1 G2 G3 G4].
  exists k. destruct t2; unfold head_of in G1; cbn in *. injection G1 as -> -> -> -> -> -> -> -> -> -> -> -> -> -> ->.
  destruct E1 as [S1 S2 S3 S4 S5 S6 S7 S8 S9 S10 S11 S12]. rewrite Ek in *.
  constructor; cbn; auto.
  fold (sort_keys s) in G4. destruct (sort_keys s) as [|c [|]]; auto.
  destruct G4 as [-> G4]. split; [reflexivity|congruence].
Qed.

Lemma parse_ok s k : readable s k -> exists t, parse_table s = Good t /\ parsed s k t.
Proof.
  intros [R1 (n & R2a & R2b) R3 R4 R5 R6 _]. unfold parse_table.
  destruct (attrs_ok (so_attrs s) [] tm_new seen_new R1) as (t1 & E1).
  { cbn. rewrite R2b. cbn. lia. }
  pose proof E1 as E1'. apply (attrs_seen _ _ _ _ seen_new) in E1'. cbn in E1'.
  assert (Kk : tm_kind t1 = Some k).
  { pose proof (sn_kind _ _ E1') as K. destruct (tm_kind t1) as [k'|].
    - destruct K as (n' & Hin & K). rewrite R2b in K. injection K as <-.
      apply kind_named_spec in Hin, R2a. congruence.
    - rewrite R2b in K. discriminate. }
  set (t0 := with_head t1 (so_pub s) (so_dom s) (so_name s)).
  assert (H0 : tseen t0 [] t0).
  { constructor; [reflexivity|constructor| |]; cbn.
    - rewrite (sn_cols _ _ E1'). constructor.
    - apply (sn_key _ _ E1'). }
  destruct (cols_ok t0 (so_cols s) [] t0 H0 R3) as (t2 & E2).
  { exact R4. }
  { intros N. cbn. rewrite Kk. f_equal. now apply R5. }
  assert (E : parse_table s = Good t2).
  { unfold parse_table. rewrite E1. cbn [andthen]. rewrite Kk. fold t0. rewrite E2. cbn. now rewrite R6. }
  exists t2. unfold parse_table in E. split; [exact E|].
  destruct (parse_good s t2) as (k' & P); [exact E|].
  assert (k' = k); [|congruence].
  destruct (pd_kind _ _ _ P) as (n' & Hin & K). rewrite R2b in K. injection K as <-.
  apply kind_named_spec in Hin, R2a. congruence.
Qed.

Lemma parsed_readable s k t : parsed s k t -> (has "save" (so_attrs s) -> derives_word "Clone" (so_attrs s)) -> readable s k.
Proof.
  intros P Sv. constructor; try apply P; auto.
  - pose proof (pd_key _ _ _ P) as K. destruct (sort_keys s) as [|c [|]]; cbn; [lia|lia|contradiction].
  - intros N. pose proof (pd_key _ _ _ P) as K. destruct (sort_keys s) as [|c [|]]; [contradiction|apply K|contradiction].
Qed.

Lemma validate_spec s k t : parsed s k t ->
  match validate t with
  | Bad _ => has "save" (so_attrs s) /\ ~ derives_word "Clone" (so_attrs s)
  | Good None => readable s k /\ sensible s k
  | Good (Some _) => readable s k /\ ~ sensible s k
  end.
Proof.
  intros P. unfold validate, validate_guarantees.
  pose proof (pd_flags _ _ _ P) as F. unfold flags in F. injection F as F1 F2 F3 F4. rewrite F1, F2, F3, F4.
  pose proof (pd_save _ _ _ P) as Sv. pose proof (pd_clone _ _ _ P) as Cl. pose proof (pd_copy _ _ _ P) as Cp.
  replace (_ && (if tm_save t then dv_clone (tm_derive t) else true))%bool
    with (if tm_save t then dv_clone (tm_derive t) else true) by (destruct k; reflexivity).
  destruct (pd_names _ _ _ P) as [-> ->].
  pose proof (pd_cols _ _ _ P) as Cs. rewrite (pd_trackers _ _ _ P).
  destruct (if tm_save t then dv_clone (tm_derive t) else true) eqn:Eg.
  - assert (R : readable s k).
    { apply (parsed_readable _ _ _ P). intros G. apply Sv in G. rewrite G in Eg. now apply Cl. }
    destruct (String.eqb_spec (so_dom s) "") as [E1|E1]; [split; [exact R|intros []; tauto]|].
    destruct (String.eqb_spec (so_name s) "") as [E2|E2]; [split; [exact R|intros []; tauto]|].
    destruct (tm_cols t) as [|m ms] eqn:Ec.
    { split; [exact R|]. inversion Cs. intros []; congruence. }
    assert (so_cols s <> []) by (intros G; rewrite G in Cs; inversion Cs).
    destruct (dv_copy (tm_derive t) && negb (dv_clone (tm_derive t)))%bool eqn:Ed.
    { split; [exact R|]. apply andb_prop in Ed as [D1 D2]. apply negb_true_iff in D2. intros [_ _ D _].
      apply Cp in D1. apply D in D1. apply Cl in D1. congruence. }
    assert (Dc : derives_word "Copy" (so_attrs s) -> derives_word "Clone" (so_attrs s)).
    { intros G. apply Cp in G. rewrite G in Ed. cbn in Ed. apply negb_false_iff in Ed. now apply Cl. }
    destruct (negb match k with Consistent => true | _ => false end && match given "add_tracker" (so_attrs s) with [] => false | _ => true end)%bool eqn:Et.
    + split; [exact R|]. intros [_ _ _ T]. apply andb_prop in Et as [T1 T2].
      destruct (given "add_tracker" (so_attrs s)); [discriminate|]. destruct k; try discriminate; now discriminate T.
    + split; [exact R|]. constructor; auto. intros G. destruct k; try reflexivity;
      destruct (given "add_tracker" (so_attrs s)); cbn in Et; congruence.
  - destruct (tm_save t); [|discriminate]. split; [now apply Sv|]. intros G. apply Cl in G. congruence.
Qed.

Lemma is_key_spec s k t m : parsed s k t ->
  is_key t m = true <-> exists c, In c (sort_keys s) /\ cs_name c = co_name m.
Proof.
  intros P. pose proof (pd_key _ _ _ P) as K. unfold is_key. destruct (sort_keys s) as [|c [|]].
  - rewrite K. split; [discriminate|intros (? & [] & _)].
  - destruct K as [-> _]. rewrite String.eqb_eq. split.
    + intros E. exists c. cbn. auto.
    + intros (c' & [<-|[]] & E). auto.
  - contradiction.
Qed.

Lemma auto_trackers_spec s k t cs l : parsed s k t -> Forall2 col_of cs l ->
  match auto_trackers t l with
  | Bad _ => exists c, In c cs /\ auto c = true /\ ex "index" (cs_attrs c) = false /\
               ~ exists c', In c' (sort_keys s) /\ cs_name c' = cs_name c
  | Good r =>
      (forall c, In c cs -> auto c = true ->
         ex "index" (cs_attrs c) = true \/ exists c', In c' (sort_keys s) /\ cs_name c' = cs_name c) /\
      map fst r = map tracker_of (filter auto cs) /\
      forall x, In x r -> exists m, In m l /\ co_foreign m = true /\
        ((is_key t m = true /\ snd x = ("select_sorted_" ++ co_name m)%string) \/
         (co_indexed m = true /\ snd x = ("select_" ++ co_name m)%string))
  end.
Proof.
  intros P. induction 1 as [|c m cs l Hc H IH]; cbn [auto_trackers].
  { split; [intros c []|]. split; [reflexivity|intros x []]. }
  rewrite (cl_auto _ _ Hc). cbn [filter]. destruct (auto c) eqn:Ea.
  - assert (Fo : co_foreign m = true).
    { rewrite (cl_foreign _ _ Hc). unfold auto in Ea. apply existsb_exists in Ea as (a & Ha & Ea).
      apply existsb_exists. exists a. rewrite Ea, orb_true_r. auto. }
    assert (G : match (if is_key t m then Good ("select_sorted_" ++ co_name m)%string
                       else if co_indexed m then Good ("select_" ++ co_name m)%string else Bad RLookup) with
                | Bad _ => ex "index" (cs_attrs c) = false /\ ~ exists c', In c' (sort_keys s) /\ cs_name c' = cs_name c
                | Good x => (ex "index" (cs_attrs c) = true \/ exists c', In c' (sort_keys s) /\ cs_name c' = cs_name c) /\
                    ((is_key t m = true /\ x = ("select_sorted_" ++ co_name m)%string) \/
                     (co_indexed m = true /\ x = ("select_" ++ co_name m)%string))
                end).
    { pose proof (is_key_spec s k t m P) as Ks. rewrite (cl_name _ _ Hc) in Ks |- *. rewrite (cl_index _ _ Hc).
      destruct (is_key t m).
      - split; [right; now apply Ks|auto].
      - destruct (ex "index" (cs_attrs c)); [auto|]. split; [reflexivity|]. intros G. apply Ks in G. discriminate. }
    destruct (if is_key t m then _ else _) as [x|r]; cbn.
    + destruct G as [G1 G2]. destruct (auto_trackers t l) as [r|e]; cbn.
      * destruct IH as (I1 & I2 & I3). split; [|split].
        -- intros c' [<-|Hin]; auto.
        -- rewrite I2. unfold tracker_of at 2. now rewrite (cl_name _ _ Hc).
        -- intros y [<-|Hy]; cbn.
           ++ exists m. auto.
           ++ destruct (I3 y Hy) as (m' & ? & ?). exists m'. auto.
      * destruct IH as (c' & I1 & I2). exists c'. auto.
    + exists c. auto.
  - destruct (auto_trackers t l) as [r|e].
    + destruct IH as (I1 & I2 & I3). split; [|split].
      * intros c' [<-|Hin]; [congruence|auto].
      * exact I2.
      * intros y Hy. destruct (I3 y Hy) as (m' & ? & ?). exists m'. cbn. auto.
    + destruct IH as (c' & I1 & I2). exists c'. cbn. auto.
Qed.

Lemma lookup_ok_auto s : lookup_ok s <-> forall c, In c (so_cols s) -> auto c = true ->
         ex "index" (cs_attrs c) = true \/ exists c', In c' (sort_keys s) /\ cs_name c' = cs_name c.
Proof.
  unfold lookup_ok, auto. split; intros H c Hc Ha.
  - destruct (H c Hc) as [G|G]; [now apply has_existsb| |auto]. left. now apply ex_has.
  - destruct (H c Hc) as [G|G]; [now apply has_existsb| |auto]. left. now apply ex_has.
Qed.

Lemma readable_kind s k k' : readable s k -> readable s k' -> k = k'.
Proof.
  intros [_ (n & H1 & H2) _ _ _ _ _] [_ (n' & H1' & H2') _ _ _ _ _].
  rewrite H2 in H2'. injection H2' as <-. apply kind_named_spec in H1, H1'. congruence.
Qed.

(** Everything about an invocation at once. *)
Lemma expand_spec s :
  match expand s with
  | Refused _ => (forall k, ~ readable s k) \/ ~ lookup_ok s
  | Nothing _ => exists k, readable s k /\ ~ sensible s k
  | Expanded c => exists k t, readable s k /\ sensible s k /\ lookup_ok s /\ parsed s k t /\ write_out t = Good c
  end.
Proof.
  unfold expand. destruct (parse_table s) as [t|r] eqn:Ep.
  - destruct (parse_good _ _ Ep) as (k & P). pose proof (validate_spec s k t P) as V.
    destruct (validate t) as [[c|]|r].
    + eauto.
    + destruct V as [R Se]. destruct (write_out t) as [c|r] eqn:Ew.
      * exists k, t. split; [exact R|]. split; [exact Se|]. split; [|auto].
        unfold write_out in Ew. destruct (tm_cols t) as [|m ms] eqn:Ec; [discriminate|]. rewrite <- Ec in Ew.
        pose proof (auto_trackers_spec s k t _ _ P (pd_cols _ _ _ P)) as A.
        destruct (auto_trackers t (tm_cols t)); [|discriminate]. apply lookup_ok_auto. apply A.
      * right. unfold write_out in Ew.
        pose proof (auto_trackers_spec s k t _ _ P (pd_cols _ _ _ P)) as A.
        destruct (tm_cols t) as [|m ms] eqn:Ec.
        { exfalso. apply (se_cols _ _ Se). pose proof (pd_cols _ _ _ P) as Cs. rewrite Ec in Cs. now inversion Cs. }
        destruct (auto_trackers t (m :: ms)) as [x|e] eqn:Ea.
        -- cbn in Ew. exfalso. destruct (tm_save t && negb (dv_clone (tm_derive t)))%bool eqn:Eb; [|discriminate].
           apply andb_prop in Eb as [B1 B2]. apply (pd_save _ _ _ P) in B1. apply (rd_save _ _ R) in B1.
           apply (pd_clone _ _ _ P) in B1. rewrite B1 in B2. discriminate.
        -- destruct A as (c & A1 & A2 & A3 & A4). rewrite lookup_ok_auto. intros G.
           destruct (G c A1 A2) as [G'|G']; [congruence|contradiction].
    + left. intros k' R. destruct V as [V1 V2]. apply V2, (rd_save _ _ R), V1.
  - left. intros k R. destruct (parse_ok s k R) as (t & E & _). congruence.
Qed.

Lemma expanded_iff s :
  (exists c, expand s = Expanded c) <-> exists k, readable s k /\ sensible s k /\ lookup_ok s.
Proof.
  pose proof (expand_spec s) as E. destruct (expand s) as [r|c|c].
  - split; [intros (? & G); discriminate|]. intros (k & R & Se & L). destruct E as [E|E]; [now apply E in R|contradiction].
  - split; [intros (? & G); discriminate|]. intros (k & R & Se & L). destruct E as (k' & R' & N).
    rewrite (readable_kind _ _ _ R R') in Se. contradiction.
  - destruct E as (k & t & E). split; [intros _; exists k; tauto|eauto].
Qed.
Lemma nothing_iff s :
  (exists c, expand s = Nothing c) <-> exists k, readable s k /\ ~ sensible s k.
Proof.
  split.
  - intros (c & Ec). pose proof (expand_spec s) as E. rewrite Ec in E. exact E.
  - intros (k & R & N). unfold expand. destruct (parse_ok s k R) as (t & -> & P).
    pose proof (validate_spec s k t P) as V. destruct (validate t) as [[c|]|r]; [eauto|tauto|].
    exfalso. destruct V as [V1 V2]. apply V2, (rd_save _ _ R), V1.
Qed.

Lemma expanded_kind s c : expand s = Expanded c -> exists k, readable s k /\ k_guarantee c = kind_guarantee k.
Proof.
  intros Ec. pose proof (expand_spec s) as E. rewrite Ec in E. destruct E as (k & t & R & _ & _ & P & W).
  exists k. split; [exact R|].
  unfold write_out in W. destruct (tm_cols t); [discriminate|]. apply andthen_good in W as (au & _ & W).
  destruct (tm_save t && _)%bool; [discriminate|]. injection W as <-. cbn.
  pose proof (pd_flags _ _ _ P) as F. unfold flags in F. injection F as F1 F2 F3 F4.
  unfold guarantees. rewrite F2, F3, (pd_kind' _ _ _ P). destruct k; reflexivity.
Qed.

Lemma Forall2_map_r A B C (R : A -> C -> Prop) (f : B -> C) l l' :
  Forall2 (fun a b => R a (f b)) l l' -> Forall2 R l (map f l').
Proof. induction 1; cbn; constructor; auto. Qed.
Lemma Forall2_impl A B (R R' : A -> B -> Prop) l l' :
  (forall a b, R a b -> R' a b) -> Forall2 R l l' -> Forall2 R' l l'.
Proof. induction 2; constructor; auto. Qed.

Lemma expanded_content s c : expand s = Expanded c ->
  k_dom c = so_dom s /\ k_name c = so_name s /\
  k_row_id c = last (given "row_id" (so_attrs s)) "usize" /\
  version_is (so_attrs s) (k_version c) /\
  Forall2 column_as (so_cols s) (k_cols c).
Proof.
  intros Ec. pose proof (expand_spec s) as E. rewrite Ec in E. destruct E as (k & t & R & _ & _ & P & W).
  unfold write_out in W. destruct (tm_cols t) as [|m ms] eqn:Em; [discriminate|]. rewrite <- Em in W.
  apply andthen_good in W as (au & _ & W).
  destruct (tm_save t && _)%bool; [discriminate|]. injection W as <-. cbn.
  split; [apply (pd_names _ _ _ P)|]. split; [apply (pd_names _ _ _ P)|]. split; [apply (pd_row_id _ _ _ P)|].
  split; [apply (pd_version _ _ _ P)|].
  apply Forall2_map_r. eapply Forall2_impl; [|apply (pd_cols _ _ _ P)].
  intros a b [H1 H2 H3 H4 H5 H6 H7 H8]. unfold column_as; cbn.
  split; [exact H1|]. split; [exact H2|]. split; [rewrite H4; apply ex_has|]. split; [rewrite H3; reflexivity|].
  split; [exact H7|]. exact H8.
Qed.

Lemma Forall2_filter_map A B C (R : A -> B -> Prop) (f : A -> bool) (g : B -> bool) (h : A -> C) (h' : B -> C) l l' :
  (forall a b, R a b -> f a = g b /\ h a = h' b) -> Forall2 R l l' -> map h' (filter g l') = map h (filter f l).
Proof.
  intros H. induction 1 as [|a b l l' Hab _ IH]; cbn; [reflexivity|].
  destruct (H a b Hab) as [-> E]. destruct (g b); cbn; congruence.
Qed.

Lemma expanded_trackers s c : expand s = Expanded c ->
  k_registered c = map tracker_of (filter refers (so_cols s)) ++ given "add_tracker" (so_attrs s) /\
  map fst (k_auto c) = map tracker_of (filter auto (so_cols s)) /\
  (forall x, In x (k_auto c) -> In (snd x) (k_selectors c)).
Proof.
  intros Ec. pose proof (expand_spec s) as E. rewrite Ec in E. destruct E as (k & t & R & _ & _ & P & W).
  unfold write_out in W. destruct (tm_cols t) as [|m ms] eqn:Em; [discriminate|]. rewrite <- Em in W.
  apply andthen_good in W as (au & A & W).
  destruct (tm_save t && _)%bool; [discriminate|]. injection W as <-. cbn.
  pose proof (auto_trackers_spec s k t _ _ P (pd_cols _ _ _ P)) as At'. rewrite A in At'. destruct At' as (A1 & A2 & A3).
  split; [|split; [exact A2|]].
  - unfold registered. rewrite (pd_trackers _ _ _ P). f_equal.
    refine (Forall2_filter_map _ _ _ col_of _ _ _ _ _ _ _ (pd_cols _ _ _ P)).
    intros a b [H1 H2 H3 H4 H5 H6 H7 H8]. rewrite H5. unfold tracker_of. rewrite H1. auto.
  - intros x Hx. destruct (A3 x Hx) as (m' & M1 & M2 & [[M3 ->]|[M3 ->]]); unfold selectors; apply in_or_app.
    + right. apply (in_map (fun c => "select_sorted_" ++ co_name c)%string). apply filter_In. now rewrite M2, M3.
    + left. apply (in_map (fun c => "select_" ++ co_name c)%string). apply filter_In. now rewrite M2, M3.
Qed.

(** ** Order of the attributes *)
Lemma perm_filter A (f : A -> bool) l l' : Permutation l l' -> Permutation (filter f l) (filter f l').
Proof.
  induction 1; cbn; [constructor| | |eapply perm_trans; eauto].
  - destruct (f x); auto.
  - destruct (f x), (f y); auto. constructor.
Qed.
Lemma perm_given n l l' : Permutation l l' -> Permutation (given n l) (given n l').
Proof.
  unfold given. induction 1; cbn; auto.
  - now apply Permutation_app_head.
  - rewrite !app_assoc. apply Permutation_app_tail, Permutation_app_comm.
  - eapply perm_trans; eauto.
Qed.
Lemma perm_has n l l' : Permutation l l' -> has n l -> has n l'.
Proof. intros P (a & H & E). exists a. split; [|exact E]. eapply Permutation_in; eauto. Qed.
Lemma perm_dw n l l' : Permutation l l' -> derives_word n l -> derives_word n l'.
Proof. intros P (a & H & E). exists a. split; [|exact E]. eapply Permutation_in; eauto. Qed.


Lemma perm_readable s l k : Permutation (so_attrs s) l -> readable s k -> readable (with_attrs s l) k.
Proof.
  intros P [R1 (n & R2a & R2b) R3 R4 R5 R6 R7]. constructor; cbn; auto.
  - eapply Permutation_Forall; eauto.
  - exists n. split; [exact R2a|]. apply Permutation_length_1_inv. rewrite <- R2b. now apply perm_filter.
  - intros H. apply (perm_dw _ _ _ P), R7, (perm_has _ _ _ (Permutation_sym P)), H.
Qed.
Lemma perm_sensible s l k : Permutation (so_attrs s) l -> sensible s k -> sensible (with_attrs s l) k.
Proof.
  intros P [R1 R2 R3 R4]. constructor; cbn; auto.
  - intros H. apply (perm_dw _ _ _ P), R3, (perm_dw _ _ _ (Permutation_sym P)), H.
  - intros H. apply R4. intros E. apply H. apply Permutation_nil. pose proof (perm_given "add_tracker" _ _ P) as G. now rewrite E in G.
Qed.
Lemma with_attrs_back s l : with_attrs (with_attrs s l) (so_attrs s) = s.
Proof. now destruct s. Qed.

Lemma order_expanded s l c : Permutation (so_attrs s) l -> expand s = Expanded c ->
  exists c', expand (with_attrs s l) = Expanded c' /\ k_guarantee c' = k_guarantee c.
Proof.
  intros P E. destruct (proj1 (expanded_iff s)) as (k & R & Se & L); [eauto|].
  destruct (proj2 (expanded_iff (with_attrs s l))) as (c' & E').
  { exists k. split; [now apply perm_readable|]. split; [now apply perm_sensible|]. exact L. }
  exists c'. split; [exact E'|].
  destruct (expanded_kind _ _ E) as (k1 & R1 & ->). destruct (expanded_kind _ _ E') as (k2 & R2 & ->).
  f_equal. eapply readable_kind; eauto. now apply perm_readable.
Qed.

(** ** Methods *)
Lemma methods_iff s c k o m : expand s = Expanded c -> readable s k -> derives_word "Clone" (so_attrs s) ->
  method_of o = Some m -> (In m (k_write c) <-> avail k o = true).
Proof.
  intros Ec R0 D Mo. pose proof (expand_spec s) as E. rewrite Ec in E. destruct E as (k' & t & R & _ & _ & P & W).
  rewrite (readable_kind _ _ _ R R0) in *. clear R R0 k'.
  unfold write_out in W. destruct (tm_cols t); [discriminate|]. apply andthen_good in W as (au & _ & W).
  destruct (tm_save t && _)%bool; [discriminate|]. injection W as <-. cbn [k_write].
  pose proof (pd_flags _ _ _ P) as F. unfold flags in F. injection F as F1 F2 F3 F4.
  apply (pd_clone _ _ _ P) in D.
  assert (G : forall x, In x (write_methods t) <-> existsb (String.eqb x) (write_methods t) = true).
  { intros x. rewrite existsb_exists. split.
    - intros H. exists x. split; [exact H|apply String.eqb_refl].
    - intros (y & H & Ey). apply String.eqb_eq in Ey. now subst y. }
  rewrite G. clear G. unfold write_methods, parts, is_kind. rewrite F1, F2, F3, D, (pd_kind' _ _ _ P).
  destruct o; cbn in Mo; try discriminate; injection Mo as <-;
    destruct k, (tm_key t), (tm_save t); cbn; split; intros H; try reflexivity; try discriminate.
Qed.
Lemma methods_only s c k o m : expand s = Expanded c -> readable s k ->
  method_of o = Some m -> In m (k_write c) -> avail k o = true.
Proof.
  intros Ec R0 Mo. pose proof (expand_spec s) as E. rewrite Ec in E. destruct E as (k' & t & R & _ & _ & P & W).
  rewrite (readable_kind _ _ _ R R0) in *. clear R R0 k'.
  unfold write_out in W. destruct (tm_cols t); [discriminate|]. apply andthen_good in W as (au & _ & W).
  destruct (tm_save t && _)%bool; [discriminate|]. injection W as <-. cbn [k_write].
  pose proof (pd_flags _ _ _ P) as F. unfold flags in F. injection F as F1 F2 F3 F4.
  intros H. assert (G : existsb (String.eqb m) (write_methods t) = true).
  { rewrite existsb_exists. exists m. split; [exact H|apply String.eqb_refl]. }
  revert G. clear H. unfold write_methods, parts, is_kind. rewrite F1, F2, F3, (pd_kind' _ _ _ P).
  destruct o; cbn in Mo; try discriminate; injection Mo as <-;
    destruct k, (tm_key t), (tm_save t), (dv_clone (tm_derive t)); cbn; intros H; try reflexivity; try discriminate.
Qed.
