(** C138 for programs that save and restore tables. *)
From Coq Require Import List Arith Bool ZArith Lia.
From Verif Require Import Base Names Column Order RowRange Table SortedTab TableSpec Events Cascade Hist Cases Answers DbHist CascadeCases Extract ExtractCases PlaceSpec PlaceXSpec PlaceXFacts.
Import ListNotations.

(** C138, for programs that change, flush, save and restore tables and register trackers ([x_run]).  With the same tables at other places, and the same code for them, they leave the same tables, remappings
    and trackers, tell the same, or fail alike; other tables are left alone. *)
Theorem C138_restoring : forall pr umax fuel sg heads heads' foreign foreign' order order' x x' ops,
  x_placed sg x x' -> same_code sg (tables_of x) heads heads' foreign foreign' order order' -> Forall (x_about (tables_of x)) ops ->
  match x_run pr umax heads foreign order fuel x ops, x_run pr umax heads' foreign' order' fuel x' (map (place_xop sg) ops) with
  | Ok y, Ok y' => x_placed sg y y' /\ forall q, elsewhere sg x q -> nth_error (u_tabs (xu_u y')) q = nth_error (u_tabs (xu_u x')) q
  | Err e, Err e' => e = e'
  | _, _ => False
  end.
Proof. exact placing_x. Qed.
Print Assumptions C138_restoring.

(** The universe of the examples of C38 with its tables 0, 1 and 2 at the places 2, 4 and 0; there are two other tables. *)
Definition moved_to (p : nat) : nat := match p with 0 => 2 | 1 => 4 | _ => 0 end.
Definition spread_out {A} (l : list A) (d : A) : list A := [nth 2 l d; d; nth 0 l d; d; nth 1 l d].
Definition x3 : xuni := let u := xu_u x0 in XU (Uni (u_tabs u) (u_trk u ++ [[]; []]) (u_hdl u) (u_log u)) (xu_fl x0).
Definition x5 : xuni :=
  let u := xu_u x3 in
  XU (Uni (spread_out (u_tabs u) (t_new (sch Bag))) (map (map (place_tracker moved_to)) (spread_out (u_trk u) [])) (u_hdl u) (map (place_note moved_to) (u_log u)))
     (spread_out (xu_fl x3) fs_new).
Definition came_from (q : nat) : nat := match q with 2 => 0 | 4 => 1 | _ => 2 end.
Definition foreign5 (q : nat) : list (nat * nat) := match q with 4 => [(1, 2)] | 0 => [(0, 2)] | _ => [] end.
(** Length and free rows of each table. *)
Definition books (x : xuni) := map (fun t => (t_len t, t_free t)) (u_tabs (xu_u x)).
Example C138_restoring_case :
  x_placed moved_to x3 x5 /\ same_code moved_to 3 heads (fun q => heads (came_from q)) foreign foreign5 order order /\
  (let ops := [XRestore 0 e_p ev_create; XRestore 1 e_c ev_create; XFlush 0 [ODelete 1] ev_delete] in
   Forall (x_about 3) ops /\
   map (place_xop moved_to) ops = [XRestore 2 e_p ev_create; XRestore 4 e_c ev_create; XFlush 2 [ODelete 1] ev_delete] /\
   exists y y', x_run Debug 255 heads foreign order 3 x3 ops = Ok y /\
     x_run Debug 255 (fun q => heads (came_from q)) foreign5 order 3 x5 (map (place_xop moved_to) ops) = Ok y' /\
     books x3 = [(3, [1]); (1, []); (0, [])] /\ books y = [(4, [1]); (3, [2]); (0, [])] /\ books y' = [(0, []); (0, []); (4, [1]); (0, []); (3, [2])] /\
     map n_table (u_log (xu_u y')) = [2; 2; 2; 2]).
Proof.
  split; [|split].
  - constructor.
    + intros [|[|[|p]]] [|[|[|q]]] Hp Hq E; cbn in Hp, Hq, E; try lia; try discriminate E; reflexivity.
    + intros [|[|[|p]]] t E; cbn in E; try (injection E as <-; reflexivity). destruct p; discriminate E.
    + intros [|[|[|p]]] O; cbn in O; [reflexivity..|lia].
    + intros [|[|[|p]]] O; cbn in O; [reflexivity..|lia].
    + intros p c k key I. destruct p as [|[|[|p]]]; [destruct I as [I|[I|[]]]; injection I as <- <- <-; cbn; lia|destruct I..|destruct p; destruct I].
    + split; [reflexivity|]. intros [|[|[|p]]] O; cbn in O |- *; lia.
    + reflexivity.
    + reflexivity.
  - constructor.
    + intros [|[|[|p]]] O; [reflexivity..|lia].
    + intros [|[|[|p]]] O; [reflexivity..|lia].
    + intros [|[|[|p]]] kq O I; cbn in I; [contradiction|destruct I as [<-|[]]; cbn; lia..|lia].
    + reflexivity.
  - split; [repeat (constructor; [cbn; lia|]); constructor|]. split; [reflexivity|]. do 2 eexists. split; [vm_compute; reflexivity|]. split; [vm_compute; reflexivity|]. repeat split; vm_compute; reflexivity.
Qed.
