(** Eigenvalues of a 3x3 tensor. *)
From Coq Require Import Reals.
Open Scope R_scope.

Definition symmetric (t : nat -> nat -> R) : Prop := forall i j, (i < 3)%nat -> (j < 3)%nat -> t i j = t j i.

(** the i-th component of t v *)
Definition apply3 (t : nat -> nat -> R) (v : nat -> R) (i : nat) : R := t i 0%nat * v 0%nat + t i 1%nat * v 1%nat + t i 2%nat * v 2%nat.

Definition eigenvalue (t : nat -> nat -> R) (x : R) : Prop :=
  exists v : nat -> R, (exists i, (i < 3)%nat /\ v i <> 0) /\ forall i, (i < 3)%nat -> apply3 t v i = x * v i.

(** m is the largest magnitude of an eigenvalue *)
Definition largest_eigenvalue (t : nat -> nat -> R) (m : R) : Prop :=
  (exists x, eigenvalue t x /\ Rabs x = m) /\ forall x, eigenvalue t x -> Rabs x <= m.

(** a multiple of the unit tensor *)
Definition spherical (t : nat -> nat -> R) : Prop :=
  forall i j, (i < 3)%nat -> (j < 3)%nat -> t i j = if Nat.eqb i j then t 0%nat 0%nat else 0.
