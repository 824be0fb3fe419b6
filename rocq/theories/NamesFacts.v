From Coq Require Import List Arith Bool String Ascii Lia.
From Verif Require Import Base BaseFacts Names.
Import ListNotations.

(** ** Vocabulary of C50 *)
Definition letter (c : nat) : Prop := 65 <= c <= 90 \/ 97 <= c <= 122.
Definition digit (c : nat) : Prop := 48 <= c <= 57.
Definition identifier (n : name) : Prop :=
  exists c n', n = c :: n' /\ letter c /\ Forall (fun c => letter c \/ digit c \/ c = 95) n'.

Lemma between_iff lo hi c : between lo hi c = true <-> nat_of_ascii lo <= c <= nat_of_ascii hi.
Proof. unfold between. rewrite andb_true_iff, !Nat.leb_le. tauto. Qed.
Lemma check_chars_spec n : check_chars n = Ok tt /\ Forall (fun c => letter c \/ digit c \/ c = 95) n \/
  check_chars n = panic PBadName /\ ~ Forall (fun c => letter c \/ digit c \/ c = 95) n.
Proof.
  induction n as [|c n IH]; [left; split; [reflexivity|constructor]|]. cbn [check_chars].
  assert (G : (letter c \/ digit c \/ c = 95) ->
     check_chars n = Ok tt /\ Forall (fun c => letter c \/ digit c \/ c = 95) (c :: n) \/
     check_chars n = panic PBadName /\ ~ Forall (fun c => letter c \/ digit c \/ c = 95) (c :: n)).
  { intro C. destruct IH as [[E F]|[E F]]; [left; auto|right]. split; auto. intro X. inv X. auto. }
  destruct (Nat.eqb_spec c (nat_of_ascii "_")) as [E|N1]; [apply G; right; right; exact E|].
  destruct (between "A" "Z" c) eqn:B1; [apply G; left; left; apply between_iff in B1; exact B1|].
  destruct (between "a" "z" c) eqn:B2; [apply G; left; right; apply between_iff in B2; exact B2|].
  destruct (between "0" "9" c) eqn:B3; [apply G; right; left; apply between_iff in B3; exact B3|].
  right. split; auto. intro X. inv X. destruct H1 as [[X|X]|[X|X]].
  - apply not_true_iff_false in B1. apply B1. apply between_iff. exact X.
  - apply not_true_iff_false in B2. apply B2. apply between_iff. exact X.
  - apply not_true_iff_false in B3. apply B3. apply between_iff. exact X.
  - apply N1. exact X.
Qed.
Lemma check_name_spec n : check_name n = Ok tt /\ identifier n \/ check_name n = panic PBadName /\ ~ identifier n.
Proof.
  destruct n as [|c n]; [right; split; [reflexivity|]; intros (c & n' & E & _); discriminate|].
  unfold check_name. destruct (Nat.eqb_spec c (nat_of_ascii "_")) as [E|N].
  { right. split; [reflexivity|]. intros (c' & n' & X & L & _). inv X. destruct L as [L|L]; change (nat_of_ascii "_") with 95 in L; lia. }
  destruct (between "A" "Z" c || between "a" "z" c) eqn:B; cbn [bind].
  - assert (L : letter c).
    { apply orb_true_iff in B. destruct B as [B|B]; apply between_iff in B; [left|right]; exact B. }
    destruct (check_chars_spec (c :: n)) as [[E F]|[E F]]; rewrite E; [left|right]; split; auto.
    + exists c, n. inv F. auto.
    + intros (c' & n' & X & L' & F'). inv X. apply F. constructor; auto.
  - right. split; auto. intros (c' & n' & X & L & _). inv X. apply orb_false_iff in B. destruct B as [B1 B2].
    destruct L as [L|L]; [apply not_true_iff_false in B1; apply B1|apply not_true_iff_false in B2; apply B2]; apply between_iff; exact L.
Qed.
