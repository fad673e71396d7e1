(* The notions the properties of the large-strain solver are stated in. *)
From Coq Require Import Reals List Arith Lia.
From Verif Require Import EvpSpec.
Local Open Scope R_scope.

Definition matrix := nat -> nat -> R.
Definition same (A B : matrix) : Prop := forall i j, idx 3 i -> idx 3 j -> A i j = B i j.
Definition minus (A B : matrix) : matrix := fun i j => A i j - B i j.
Definition inverses (A B : matrix) : Prop := same (product A B) d /\ same (product B A) d.
(* The Frobenius norm. *)
Definition size (A : matrix) : R := sqrt (ddot A A).

(* A turns no vector by a right angle or more. *)
Definition acute (A : matrix) : Prop := forall x, (exists i, idx 3 i /\ x i <> 0) -> 0 < vdot x (mul_v A x).
Definition stretch (V : matrix) : Prop := symmetric V /\ acute V.
(* R^T R is the identity up to e in every entry, and R does not reflect. *)
Definition nearly_rotation (e : R) (A : matrix) : Prop :=
  (forall i j, idx 3 i -> idx 3 j -> Rabs (S3 (fun k => A k i * A k j) - d i j) <= e) /\ 0 < det3 A.

(* No leading minor of A vanishes: elimination without exchange of rows goes through. *)
Definition pivots (A : matrix) : Prop :=
  A 1%nat 1%nat <> 0 /\ A 1%nat 1%nat * A 2%nat 2%nat - A 1%nat 2%nat * A 2%nat 1%nat <> 0 /\ det3 A <> 0.
Definition scaled (c : R) (A : matrix) : matrix := fun i j => A i j * c.
Definition added (A B : matrix) : matrix := fun i j => A i j + B i j.
Definition spin_about_3 (t : R) : matrix := fun i j => match i, j with 1%nat, 2%nat => - t | 2%nat, 1%nat => t | _, _ => 0 end.
(* The exponential of A, cut after the third power. *)
Definition exp3 (A : matrix) : matrix := fun i j => d i j + A i j + product A A i j / 2 + product (product A A) A i j / 6.
