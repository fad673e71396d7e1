(** C36: the exported mesh of a material. *)
From Verif Require Import BaseArr.
From Verif Require Import PartModel PartSpec PartProofs.
From Coq Require Import Permutation.

Definition orders (n nn : nat) (order1 order2 : list (nat * nat)) : Prop :=
  Permutation order1 (part_corners n nn) /\ Permutation order2 (part_corners n nn).

(** It exists and is faithful, for every mesh, list of elements and schedule. *)
Theorem C36_faithful {A} nnodes ne nn dims nodes (x : nat -> nat -> A) elems order1 order2 :
  (forall e l, e < ne -> l < nn -> nodes e l < nnodes) -> (forall e, In e elems -> e < ne) -> dims = 2 \/ dims = 3 ->
  orders (length elems) nn order1 order2 ->
  exists p, build_part nnodes ne nn dims nodes x elems order1 order2 = Some p /\ faithful nn dims nodes x elems p.
Proof. intros H1 H2 H3 [P1 P2]. exact (build_faithful nodes x elems H1 H2 H3 P1 P2). Qed.
Print Assumptions C36_faithful.

(** Its nodes are exactly the nodes of the material, once each, and carry their coordinates. *)
Theorem C36_nodes {A} nnodes ne nn dims nodes (x : nat -> nat -> A) elems order1 order2 p :
  (forall e l, e < ne -> l < nn -> nodes e l < nnodes) -> (forall e, In e elems -> e < ne) -> dims = 2 \/ dims = 3 ->
  orders (length elems) nn order1 order2 ->
  build_part nnodes ne nn dims nodes x elems order1 order2 = Some p ->
  exists l, NoDup l /\ length l = p_num p /\ (forall n, In n l <-> on_part nn nodes elems n) /\
    forall k d, k < p_num p -> d < dims -> aget (p_coords p) k d = Some (x (nth k l 0) d).
Proof. intros H1 H2 H3 [P1 P2]. exact (build_nodes nodes x elems H1 H2 H3 P1 P2). Qed.
Print Assumptions C36_nodes.

(** It does not depend on the schedule of the two parallel loops. *)
Theorem C36_schedule {A} nnodes ne nn dims nodes (x : nat -> nat -> A) elems order1 order2 order1' order2' :
  (forall e l, e < ne -> l < nn -> nodes e l < nnodes) -> (forall e, In e elems -> e < ne) -> dims = 2 \/ dims = 3 ->
  orders (length elems) nn order1 order2 -> orders (length elems) nn order1' order2' ->
  exists p q, build_part nnodes ne nn dims nodes x elems order1 order2 = Some p /\
    build_part nnodes ne nn dims nodes x elems order1' order2' = Some q /\ same_part dims p q.
Proof. intros H1 H2 H3 [P1 P2] [P1' P2']. exact (build_schedule nodes x elems H1 H2 H3 P1 P2 P1' P2'). Qed.
Print Assumptions C36_schedule.

(** Two quadrilaterals out of a row of three; the loops run backwards. *)
Definition row_nodes (e l : nat) : nat := match l with 0 => e | 1 => S e | 2 => e + 5 | _ => e + 4 end.
Example C36_ex : exists p, build_part 8 3 4 2 row_nodes (fun n d => (n, d)) [2; 1] (rev (part_corners 2 4)) (rev (part_corners 2 4)) = Some p /\
  p_num p = 6 /\ aget (p_conn p) 0 0 = Some 1 /\ aget (p_conn p) 1 1 = Some 1 /\ aget (p_conn p) 1 3 = Some 3 /\ aget (p_coords p) 1 1 = Some (2, 1)
  /\ orders 2 4 (rev (part_corners 2 4)) (rev (part_corners 2 4)) /\ (forall e l, e < 3 -> l < 4 -> row_nodes e l < 8).
Proof.
  eexists. split; [vm_compute; reflexivity|]. do 5 (split; [reflexivity|]). split.
  - split; symmetry; apply Permutation_rev.
  - intros e l He Hl. do 4 (destruct l as [|l]; [cbn; lia|]). lia.
Qed.
