(** Trackers that keep book while rows come back, for PropsRepush.v. *)
From Coq Require Import List Arith Bool ZArith Lia.
From Verif Require Import Base Names Column ColumnFacts Order RowRange Table Visit SortedTab BagTab TableSpec Hist Cases Events Cascade
  CascadeSpec CascadeFacts CascadeCases Extract ExtractSpec ExtractCases IntegritySpec IntegrityFacts IntegrityCases MirrorSpec MirrorCases BackupSpec ImportSpec
  LifeSpec LifeFacts LifeCases RepushSpec RepushFacts.
Import ListNotations.

(** The universe of MirrorCases.v; what is lost as rows 2 and 0 of table 0 are deleted comes back as in LifeCases.v. *)
Definition again1 := Eval vm_compute in put_back (XU desk5 four) 0.
Definition again2 := Eval vm_compute in put_back again1 1.
Definition again3 := Eval vm_compute in put_back again2 3.

Lemma desk_declared : declared refs desk.
Proof.
  split; [|split].
  - intros q c k key H. apply (desk_trackers desk) in H; [|reflexivity]. destruct H as [H|[H|H]]; inversion H; subst; left; reflexivity.
  - intro c. destruct c as [|[|[|[|c]]]]; repeat constructor; cbn; intuition discriminate.
  - intros c k q I. destruct c as [|[|[|[|c]]]]; cbn in I; try destruct I as [[= <- <-]|[]]; try destruct I; discriminate.
Qed.
Lemma again_importable : importable Debug 255 heads refs (XU desk5 four) [0; 1; 3] site_at lost kept_rows ev_create.
Proof.
  split; [|split; [exact lost_complete|split; [repeat constructor; cbn; intuition discriminate|split; [exact lost_in_order|split; calc]]]].
  intros p I. pose proof (site_reached p I) as R. destruct I as [<-|[<-|[<-|[]]]]; eexists; (split; [reflexivity|]); (split; [reflexivity|]); (split; [reflexivity|]);
    (split; [exact R|]); (split; [calc|]); (split; [repeat constructor; cbn; intuition discriminate|]); vm_compute; lia.
Qed.
Lemma again_all : restore_all Debug 255 heads refs orders 3 kept_rows ev_create [0; 1; 3] (XU desk5 four) again3.
Proof. exists again1; split; [calc|]; exists again2; split; [calc|]; exists again3; split; [calc|reflexivity]. Qed.
Lemma again_tidily : grows_tidily Debug 255 3 heads refs nothing orders (XU desk four) again3.
Proof. eapply tidily_import; [apply tended_tidily; exact desk5_tended|exact again_importable|exact again_all]. Qed.
