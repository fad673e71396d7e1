(* Where the points of a box and of a cylinder are to be. *)
From Coq Require Import Reals List.
From Verif Require Import StdMeshModel.
Import ListNotations.
Local Open Scope R_scope.

(* The input of a file that is accepted: counts and order from 1, the third dimension trivial in two. *)
Definition sensible (x : input) : Prop := (1 <= order x)%nat /\ (forall a, (1 <= elems x a)%nat) /\ (three x = false -> elems x 2 = 1%nat).
(* The share of the way along a dimension of the q-th point. *)
Definition along (x : input) (a q : nat) : R := INR q / (INR (order x) * INR (elems x a)).
Definition box_position (x : input) (i j k : nat) : list R :=
  [origin x 0%nat + along x 0 i * len x 0%nat; origin x 1%nat + along x 1 j * len x 1%nat] ++
  (if three x then [origin x 2%nat + along x 2 k * len x 2%nat] else []).
Definition radius (x : input) (inner : R) (i : nat) : R := inner + along x 0 i * len x 0%nat.
(* in degrees *)
Definition angle (x : input) (start : R) (j : nat) : R := start + along x 1 j * len x 1%nat.
Definition cylinder_position (o : nat -> R) (x : input) (inner start : R) (i j k : nat) : list R :=
  [o 0%nat + radius x inner i * cos (angle x start j * PI / 180); o 1%nat + radius x inner i * sin (angle x start j * PI / 180)] ++
  (if three x then [origin x 2%nat + along x 2 k * len x 2%nat] else []).
(* A cylinder of a full turn closes on itself: its last points are its first. *)
Definition closes (s : shape) (x : input) : Prop := exists inner start, s = Cylinder inner start /\ Rabs (len x 1%nat - 360) < / 10 ^ 8.
Definition points_in (x : input) (closed : bool) : nat :=
  ((order x * elems x 0 + 1) * (order x * elems x 1 + (if closed then 0 else 1)) * (if three x then order x * elems x 2 + 1 else 1))%nat.
(* Place of a point in the list of an element. *)
Definition local (x : input) (il jl kl : nat) : nat := (il + jl * S (order x) + kl * S (order x) * S (order x))%nat.
(* The point n is that of the element (i, j, k) at (il, jl, kl). *)
Definition point_of (m : mesh) (x : input) (i j k il jl kl n : nat) : Prop :=
  exists nodes, In ((i + j * elems x 0 + k * elems x 0 * elems x 1)%nat, nodes) (m_elems m) /\ nth_error nodes (local x il jl kl) = Some n.
Definition inside (x : input) (i j k il jl kl : nat) : Prop :=
  (i < elems x 0 /\ j < elems x 1 /\ k < elems x 2 /\ il <= order x /\ jl <= order x /\ kl <= (if three x then order x else 0))%nat.
