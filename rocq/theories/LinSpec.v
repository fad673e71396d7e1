(* What the linear algebra functions should do, in terms of matrices. *)
From Coq Require Import Reals List Arith Lia ZArith.
From Verif Require Import BaseReal.
Local Open Scope R_scope.

(* A row-major array holds the matrix A. *)
Definition holds (n : nat) (m : nat -> R) (A : nat -> nat -> R) : Prop :=
  forall i j, (i < n)%nat -> (j < n)%nat -> m (i * n + j)%nat = A i j.

(* A column-major array (Fortran order, indices from 1) holds the matrix A. *)
Definition fholds (n : nat) (m : nat -> R) (A : nat -> nat -> R) : Prop :=
  forall i j, (1 <= i <= n)%nat -> (1 <= j <= n)%nat -> m ((i - 1) + (j - 1) * n)%nat = A i j.

Definition delta (i j : nat) : R := if Nat.eqb i j then 1 else 0.

Definition inverse (n : nat) (A B : nat -> nat -> R) : Prop :=
  forall i j, (i < n)%nat -> (j < n)%nat ->
    sumn n (fun k => A i k * B k j) = delta i j /\ sumn n (fun k => B i k * A k j) = delta i j.

Definition positive_definite (n : nat) (A : nat -> nat -> R) : Prop :=
  forall x, (exists i, (i < n)%nat /\ x i <> 0) -> 0 < sumn n (fun i => sumn n (fun j => x i * A i j * x j)).

(* Every leading block has independent rows. *)
Definition leading_regular (n : nat) (A : nat -> nat -> R) : Prop :=
  forall k x, (k < n)%nat -> (forall j, (j <= k)%nat -> sumn (S k) (fun i => x i * A i j) = 0) ->
    forall i, (i <= k)%nat -> x i = 0.

(* No combination of the rows vanishes. *)
Definition regular (n : nat) (A : nat -> nat -> R) : Prop :=
  forall x, (forall j, (j < n)%nat -> sumn n (fun i => x i * A i j) = 0) -> forall i, (i < n)%nat -> x i = 0.
