(** Specification vocabulary for the mesh-file node orderings (properties C09-C11). *)
From Verif Require Import BaseArr MeshIndexModel.

(** Position of lattice point (i,j,k) when the (p+1)^3 points of an element are listed
    with i fastest, then j, then k. *)
Definition ijk_pos (p i j k : nat) : nat := k * ((p + 1) * (p + 1)) + (j * (p + 1) + i).

(** VTK Lagrange hexahedron file order: the node at lattice point (i,j,k) of the element is
    printed at position PointIndexFromIJK(i,j,k).  [nodes] is the element's node list in i-fastest
    order, [conn] the list in the file. *)
Definition vtk_conformant (p : nat) (nodes conn : list nat) : Prop :=
  forall i j k, i <= p -> j <= p -> k <= p ->
    nth_error conn (Z.to_nat (PointIndexFromIJK (Z.of_nat i) (Z.of_nat j) (Z.of_nat k)
                                (Z.of_nat p) (Z.of_nat p) (Z.of_nat p)))
    = nth_error nodes (ijk_pos p i j k).
