(** C135: what the rows hold does not matter. *)
From Coq Require Import List Arith Bool ZArith Lia.
From Verif Require Import Base Column Order RowRange Table Visit SortedTab TableSpec Hist Cases Answers PlainSpec RenameSpec RenameFacts.
Import ListNotations.

(** C135.  Replace the values in each column by others, maybe of another type ([rho]); only values that are looked for need to stay apart from others.  In a debug build the program
    succeeds with the other values exactly if it does with the old ones, and is told the same with other values; else both panic. *)
Theorem C135_values :
  forall umax rho sch ts cs cs', s_cols sch <> [] -> same_indexes (s_cols sch) ts ->
  Forall (call_ty (s_cols sch)) cs -> Forall (call_ty ts) cs' -> Forall2 (renamed rho (length (s_cols sch))) cs cs' -> all_legal sch false cs = true ->
  match talks Debug umax (Free (t_new sch)) cs with
  | Ok l => talks Debug umax (Free (t_new (with_types sch ts))) cs' = Ok (rename_answers rho cs l)
  | Err e => (exists c, e = EPanic c) /\ exists c, talks Debug umax (Free (t_new (with_types sch ts))) cs' = panic c
  end.
Proof. exact renaming. Qed.
Print Assumptions C135_values.

(** Numbers become bits in the first column; in the second, which is indexed, their order is turned round. *)
Definition pairs_of (k : kind) : schema := Sch k 7 [Plain TVec; Indexed TVec].
Definition bit_and_back (k : nat) (v : val) : val :=
  match k, v with 0, VInt z => VBool (Z.even z) | 1, VInt z => VInt (- z) | _, _ => v end.
Definition numbers : list call :=
  [Do OLock; Do (OPushArray [r1; r2; r3]); Do (OPush r2); Do (OFlush true ev_create); Do (OFind 1 (VInt 5)); Do OLock; Do (OAssign 0 0 (VInt 4%Z)); Do (ODelete 1); Do (OFlush true ev_delete);
   Do (OFind 1 (VInt 5)); Do (OCell 0 0); Do (OCell 1 2); Do (OIter [ItNext; ItNext; ItNext; ItNext])].
Definition bit_row (b : bool) (z : Z) : row := [VBool b; VInt z].
Definition bits : list call :=
  [Do OLock; Do (OPushArray [bit_row false (-5); bit_row true (-5); bit_row false (-6)]); Do (OPush (bit_row true (-5))); Do (OFlush true ev_create); Do (OFind 1 (VInt (-5))); Do OLock;
   Do (OAssign 0 0 (VBool true)); Do (ODelete 1); Do (OFlush true ev_delete); Do (OFind 1 (VInt (-5))); Do (OCell 0 0); Do (OCell 1 2); Do (OIter [ItNext; ItNext; ItNext; ItNext])].
Lemma five_apart x : bit_and_back 1 x = bit_and_back 1 (VInt 5) -> x = VInt 5.
Proof. destruct x as [z| |]; cbn; intro E; try discriminate E. injection E as E. f_equal. lia. Qed.
Example C135_case :
  same_indexes (s_cols (pairs_of Consistent)) [Plain TBool; Indexed TVec] /\ Forall (call_ty (s_cols (pairs_of Consistent))) numbers /\ Forall (call_ty [Plain TBool; Indexed TVec]) bits /\
  Forall2 (renamed bit_and_back 2) numbers bits /\ all_legal (pairs_of Consistent) false numbers = true /\
  talks Debug 255 (Free (t_new (pairs_of Consistent))) numbers =
    Ok [ANothing; ASpan 0 3; AId (Some 3); ANothing; AIds [0; 1; 3]; ANothing; ANothing; ANothing; ANothing; AIds [0; 3]; AVal (VInt 4); AVal (VInt 6);
        AItems [Some 0; Some 2; Some 3; None] [[VInt 4; VInt 5]; r3; r2; []]] /\
  talks Debug 255 (Free (t_new (with_types (pairs_of Consistent) [Plain TBool; Indexed TVec]))) bits =
    Ok [ANothing; ASpan 0 3; AId (Some 3); ANothing; AIds [0; 1; 3]; ANothing; ANothing; ANothing; ANothing; AIds [0; 3]; AVal (VBool true); AVal (VInt (-6));
        AItems [Some 0; Some 2; Some 3; None] [bit_row true (-5); bit_row false (-6); bit_row true (-5); []]].
Proof.
  split; [repeat constructor|]. split; [repeat constructor; intros x E; injection E as <-; exact I|].
  split; [repeat constructor; vm_compute; eauto; intros x E; injection E as <-; vm_compute; eauto|].
  split; [|split; [reflexivity|]; split; vm_compute; reflexivity].
  repeat (constructor; [first [apply (rn_same bit_and_back 2); exact I | apply (rn_find bit_and_back 2); exact five_apart | apply (rn_assign bit_and_back 2 0 0 (VInt 4)) |
    apply (rn_push_array bit_and_back 2 [r1; r2; r3]) | apply (rn_push bit_and_back 2 r2)]|]). constructor.
Qed.

(** C135 (refuted if values that are looked for become the same as others): more rows are found. *)
Theorem C135_same_refuted :
  exists umax (rho : nat -> val -> val) sch k v r r' l l', s_cols sch <> [] /\ Forall (call_ty (s_cols sch)) [Do OLock; Do (OPush r); Do (OPush r'); Do (OFind k v)] /\
    Forall (call_ty (s_cols sch)) [Do OLock; Do (OPush (rename_row rho r)); Do (OPush (rename_row rho r')); Do (OFind k (rho k v))] /\
    talks Debug umax (Free (t_new sch)) [Do OLock; Do (OPush r); Do (OPush r'); Do (OFind k v)] = Ok l /\
    talks Debug umax (Free (t_new sch)) [Do OLock; Do (OPush (rename_row rho r)); Do (OPush (rename_row rho r')); Do (OFind k (rho k v))] = Ok l' /\
    l' <> rename_answers rho [Do OLock; Do (OPush r); Do (OPush r'); Do (OFind k v)] l.
Proof.
  exists 255, (fun _ _ => VInt 0), (pairs_of Append), 1, (VInt 5), r1, r3. do 2 eexists. split; [discriminate|]. split; [repeat constructor|]. split; [repeat constructor|].
  split; [vm_compute; reflexivity|]. split; [vm_compute; reflexivity|]. discriminate.
Qed.
Print Assumptions C135_same_refuted.
