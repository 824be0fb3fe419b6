(** C138 for databases whose trackers act. *)
From Coq Require Import List Arith Bool ZArith Lia.
From Verif Require Import Base Column Order RowRange Table SortedTab TableSpec Events Cascade Hist Cases Answers DbHist Acting ActingCases PlaceSpec PlaceActSpec PlaceActFacts.
Import ListNotations.

(** C138, with trackers that act ([react], from all they were told) and programs that choose what to do by what they are told: at their new places the tables end up the same, trackers are told the
    same, other tables are left alone; and the program fails in the same way if it failed. *)
Theorem C138_acting :
  forall pr umax fuel sg schs schs' react react' m m', placed sg schs schs' -> same_trackers sg (length schs) react react' -> same_plan sg (length schs) m m' ->
  match act_run pr umax react fuel schs m with
  | Ok u => exists u', act_run pr umax react' fuel schs' m' = Ok u' /\ u_log u' = map (place_note sg) (u_log u) /\
      (forall p, p < length schs -> nth_error (u_tabs u') (sg p) = nth_error (u_tabs u) p) /\
      (forall q, (forall p, p < length schs -> sg p <> q) -> nth_error (u_tabs u') q = nth_error (map t_new schs') q)
  | Err e => act_run pr umax react' fuel schs' m' = Err e
  end.
Proof. exact placing_acting. Qed.
Print Assumptions C138_acting.

(** The village with people in table 3, pets in table 0, the book in table 2, and a bag. *)
Definition moved_village (p : nat) : nat := match p with 0 => 3 | 1 => 0 | 2 => 2 | _ => 10 + p end.
Definition new_village : list schema := [sch Consistent; sch Bag; sch Append; sch Consistent].
Definition new_clerk (log : list note) : plan :=
  match news log with
  | Some (Note 3 _ ev (SThese (i :: _))) =>
      if ev_removal ev then
        PThen (Call (On 3 (Do (OGet i)))) (fun a =>
          match a with
          | ARow [VInt x; VInt y] => chain [On 2 (Do OLock); On 2 (Do (OPush [VInt x; VInt y])); On 2 (Do OClose)]
          | _ => PEnd
          end)
      else PEnd
  | _ => PEnd
  end.
Lemma chain_moved l : Forall (about 3) l -> same_plan moved_village 3 (chain l) (chain (map (place_call moved_village) l)).
Proof. intro F. induction F as [|c l O F IH]; cbn [chain map]; constructor; auto. Qed.
Lemma news_moved log : news (map (place_note moved_village) log) = option_map (place_note moved_village) (news log).
Proof. unfold news. induction log as [|x [|y log] IH]; try reflexivity. exact IH. Qed.
Lemma clerk_moved : same_trackers moved_village 3 clerk new_clerk.
Proof.
  intro log. unfold clerk, new_clerk. rewrite news_moved. destruct (news log) as [[p i ev s]|]; cbn [option_map place_note n_table n_pos n_event n_rows]; [|constructor].
  destruct p as [|[|[|p]]]; cbn [moved_village]; try constructor. destruct s as [|[|j l]]; try constructor. destruct (ev_removal ev); [|constructor].
  apply (sp_call moved_village 3 (On 0 (Do (OGet j)))); [cbn; lia|]. intro x. destruct x as [|r| | | | | |]; try exact (sp_end _ _).
  destruct r as [|[a|a|a] [|[b|b|b] [|c r]]]; try exact (sp_end _ _). apply (chain_moved [On 2 (Do OLock); On 2 (Do (OPush [VInt a; VInt b])); On 2 (Do OClose)]). repeat (constructor; [cbn; lia|]). constructor.
Qed.
Example C138_acting_case :
  placed moved_village village new_village /\ same_trackers moved_village 3 clerk new_clerk /\
  same_plan moved_village 3 (chain (settle ++ dies)) (chain (map (place_call moved_village) (settle ++ dies))) /\
  rows_of (act_run Debug 255 clerk 3 village (chain (settle ++ dies))) = Some [[None; Some r2]; [None; Some [VInt 11; VRow 1]]; [Some r1]] /\
  rows_of (act_run Debug 255 new_clerk 3 new_village (chain (map (place_call moved_village) (settle ++ dies)))) =
    Some [[None; Some [VInt 11; VRow 1]]; []; [Some r1]; [None; Some r2]].
Proof.
  split; [split|].
  - intros [|[|[|p]]] s E; cbn in E; try (injection E as <-; reflexivity). destruct p; discriminate E.
  - intros [|[|[|p]]] [|[|[|q]]] Hp Hq E; cbn in Hp, Hq; try lia; try discriminate E; reflexivity.
  - split; [exact clerk_moved|]. split; [apply chain_moved; unfold settle, dies; cbn [app]; repeat (constructor; [cbn; lia|]); constructor|]. split; vm_compute; reflexivity.
Qed.
