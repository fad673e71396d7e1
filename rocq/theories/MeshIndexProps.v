(** Property theorems C09-C11: arbitrary-order node index and mesh-file node orders. *)
From Verif Require Import BaseArr MeshIndexModel MeshIndexSpec MeshIndexProofs.
Local Open Scope Z_scope.

(** C09 *)
Theorem C09_in_range : forall i j k o0 o1 o2,
  1 <= o0 -> 1 <= o1 -> 1 <= o2 -> 0 <= i <= o0 -> 0 <= j <= o1 -> 0 <= k <= o2 ->
  0 <= PointIndexFromIJK i j k o0 o1 o2 < (o0 + 1) * (o1 + 1) * (o2 + 1).
Proof. exact PI_range. Qed.
Print Assumptions C09_in_range.

Theorem C09_injective : forall i j k i' j' k' o0 o1 o2,
  1 <= o0 -> 1 <= o1 -> 1 <= o2 ->
  0 <= i <= o0 -> 0 <= j <= o1 -> 0 <= k <= o2 ->
  0 <= i' <= o0 -> 0 <= j' <= o1 -> 0 <= k' <= o2 ->
  PointIndexFromIJK i j k o0 o1 o2 = PointIndexFromIJK i' j' k' o0 o1 o2 -> i = i' /\ j = j' /\ k = k'.
Proof. exact PI_inj. Qed.
Print Assumptions C09_injective.

Theorem C09_surjective : forall o0 o1 o2 n,
  1 <= o0 -> 1 <= o1 -> 1 <= o2 -> 0 <= n < (o0 + 1) * (o1 + 1) * (o2 + 1) ->
  exists i j k, 0 <= i <= o0 /\ 0 <= j <= o1 /\ 0 <= k <= o2 /\ PointIndexFromIJK i j k o0 o1 o2 = n.
Proof. exact PI_surj. Qed.
Print Assumptions C09_surjective.

Example C09_ex : PointIndexFromIJK 2 1 3 4 3 5 = 109 /\ PointIndexFromIJK 4 3 5 4 3 5 = 6.
Proof. split; reflexivity. Qed.

(** C10: the round trip holds for every order and node list. *)
Theorem C10_roundtrip : forall (p : nat) (nodes : list nat),
  (1 <= p)%nat -> length nodes = ((p + 1) * (p + 1) * (p + 1))%nat ->
  exists conn, write_pn_elem p nodes = Some conn /\ read_pn_elem p conn = Some nodes.
Proof. exact pn_roundtrip. Qed.
Print Assumptions C10_roundtrip.

Example C10_ex : write_pn_elem 2 (seq 100 27) =
  Some [100; 108; 101; 111; 124; 109; 103; 110; 102; 116; 122; 117; 120; 126; 121; 118; 123; 119;
        104; 112; 105; 115; 125; 113; 107; 114; 106]%nat.
Proof. reflexivity. Qed.

(** C10, second clause: for every order above one the written file is never in VTK's order. *)
Theorem C10_vtk_order_refuted : forall (p : nat) (nodes conn : list nat),
  (2 <= p)%nat -> NoDup nodes -> length nodes = ((p + 1) * (p + 1) * (p + 1))%nat ->
  write_pn_elem p nodes = Some conn -> ~ vtk_conformant p nodes conn.
Proof. exact pn_write_not_vtk. Qed.
Print Assumptions C10_vtk_order_refuted.

(** and a file that is in VTK's order is never read into i-fastest order. *)
Theorem C10_vtk_read_refuted : forall (p : nat) (nodes conn : list nat),
  (2 <= p)%nat -> NoDup nodes -> length nodes = ((p + 1) * (p + 1) * (p + 1))%nat ->
  length conn = length nodes -> vtk_conformant p nodes conn -> read_pn_elem p conn <> Some nodes.
Proof. exact pn_read_not_ijk. Qed.
Print Assumptions C10_vtk_read_refuted.

(** A VTK-ordered quadratic file exists, so the last theorem is not vacuous. *)
Definition vtk_file2 : list nat :=
  [0; 2; 8; 6; 18; 20; 26; 24; 1; 5; 7; 3; 19; 23; 25; 21; 9; 11; 15; 17; 12; 14; 10; 16; 4; 22; 13]%nat.
Example C10_vtk_file : vtk_conformant 2 (seq 0 27) vtk_file2.
Proof.
  intros i j k Hi Hj Hk.
  destruct i as [|[|[|i]]]; [| | |lia];
  (destruct j as [|[|[|j]]]; [| | |lia]); (destruct k as [|[|[|k]]]; [| | |lia]); reflexivity.
Qed.

(** C11, first clause: the conversion of a linear element is an involution.
    (Volumes after reading: GeomProps.v.) *)
Theorem C11_involution : forall (A : Type) (nodes : list A), (length nodes = 8 \/ length nodes = 4)%nat ->
  obind (reorder_elem nodes) (@reorder_elem A) = Some nodes.
Proof. exact @reorder_twice. Qed.
Print Assumptions C11_involution.

Theorem C11_hex_order : forall (A : Type) (n0 n1 n2 n3 n4 n5 n6 n7 : A),
  reorder_elem [n0; n1; n2; n3; n4; n5; n6; n7] = Some [n0; n1; n3; n2; n4; n5; n7; n6].
Proof. exact @reorder8. Qed.
Print Assumptions C11_hex_order.
