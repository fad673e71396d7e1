(* The tensor notions the properties of the crystal plasticity solver are stated in. *)
From Coq Require Import Reals List Arith Lia.
Local Open Scope R_scope.

Definition S3 (f : nat -> R) : R := f 1%nat + f 2%nat + f 3%nat.
Definition S6 (f : nat -> R) : R := f 1%nat + f 2%nat + f 3%nat + f 4%nat + f 5%nat + f 6%nat.
Definition idx (n i : nat) : Prop := (1 <= i <= n)%nat.

Definition d (i j : nat) : R := if Nat.eqb i j then 1 else 0.

Definition symmetric (A : nat -> nat -> R) : Prop := forall i j, idx 3 i -> idx 3 j -> A i j = A j i.
Definition trace (A : nat -> nat -> R) : R := S3 (fun i => A i i).
(* A : B *)
Definition ddot (A B : nat -> nat -> R) : R := S3 (fun i => S3 (fun j => A i j * B i j)).
Definition deviator (A : nat -> nat -> R) : nat -> nat -> R := fun i j => A i j - d i j * trace A / 3.

(* (C : E)_ij = C_ijkl E_kl *)
Definition act (C : nat -> nat -> nat -> nat -> R) (E : nat -> nat -> R) : nat -> nat -> R :=
  fun i j => S3 (fun k => S3 (fun l => C i j k l * E k l)).
Definition minor_symmetric (C : nat -> nat -> nat -> nat -> R) : Prop :=
  forall i j k l, idx 3 i -> idx 3 j -> idx 3 k -> idx 3 l -> C i j k l = C j i k l /\ C i j k l = C i j l k.
Definition major_symmetric (C : nat -> nat -> nat -> nat -> R) : Prop :=
  forall i j k l, idx 3 i -> idx 3 j -> idx 3 k -> idx 3 l -> C i j k l = C k l i j.
(* Every strain costs energy. *)
Definition elastic (C : nat -> nat -> nat -> nat -> R) : Prop :=
  minor_symmetric C /\ major_symmetric C /\
  forall E, symmetric E -> (exists i j, idx 3 i /\ idx 3 j /\ E i j <> 0) -> 0 < ddot E (act C E).

(* Proper orthogonal matrices. *)
Definition det3 (A : nat -> nat -> R) : R :=
  A 1%nat 1%nat * (A 2%nat 2%nat * A 3%nat 3%nat - A 2%nat 3%nat * A 3%nat 2%nat)
  - A 1%nat 2%nat * (A 2%nat 1%nat * A 3%nat 3%nat - A 2%nat 3%nat * A 3%nat 1%nat)
  + A 1%nat 3%nat * (A 2%nat 1%nat * A 3%nat 2%nat - A 2%nat 2%nat * A 3%nat 1%nat).
Definition rotation (A : nat -> nat -> R) : Prop :=
  (forall i j, idx 3 i -> idx 3 j -> S3 (fun k => A i k * A j k) = d i j) /\ det3 A = 1.

(* Change of axes: A E A^T. *)
Definition turned (A E : nat -> nat -> R) : nat -> nat -> R :=
  fun i j => S3 (fun k => S3 (fun l => A i k * A j l * E k l)).
Definition transposed (A : nat -> nat -> R) : nat -> nat -> R := fun i j => A j i.

Definition vdot (a b : nat -> R) : R := S3 (fun i => a i * b i).
Definition mul_v (A : nat -> nat -> R) (v : nat -> R) : nat -> R := fun i => S3 (fun j => A i j * v j).
Definition outer (a b : nat -> R) : nat -> nat -> R := fun i j => a i * b j.
Definition sym_part (A : nat -> nat -> R) : nat -> nat -> R := fun i j => (A i j + A j i) / 2.

(* 6 x 6 matrices *)
Definition mat_v (A : nat -> nat -> R) (v : nat -> R) : nat -> R := fun n => S6 (fun m => A n m * v m).
Definition pos6 (A : nat -> nat -> R) : Prop :=
  forall x, (exists n, idx 6 n /\ x n <> 0) -> 0 < S6 (fun n => S6 (fun m => x n * A n m * x m)).
Definition inverse6 (A B : nat -> nat -> R) : Prop :=
  forall n m, idx 6 n -> idx 6 m -> S6 (fun k => A n k * B k m) = d n m /\ S6 (fun k => B n k * A k m) = d n m.

(* Voigt's numbering: 11, 22, 33, 23, 13, 12. *)
Definition voigt_index (a b : nat) : nat :=
  match a, b with
  | 1, 1 => 1 | 2, 2 => 2 | 3, 3 => 3
  | 2, 3 | 3, 2 => 4 | 1, 3 | 3, 1 => 5 | 1, 2 | 2, 1 => 6
  | _, _ => 0
  end%nat.
(* Strain as a Voigt vector, with engineering shears. *)
Definition engineering (E : nat -> nat -> R) (J : nat) : R :=
  match J with
  | 1 => E 1%nat 1%nat | 2 => E 2%nat 2%nat | 3 => E 3%nat 3%nat
  | 4 => 2 * E 2%nat 3%nat | 5 => 2 * E 1%nat 3%nat | 6 => 2 * E 1%nat 2%nat
  | _ => 0
  end.

(* Turning by the angle t about the unit axis e (Rodrigues' formula). *)
Definition cross (a b : nat -> R) (i : nat) : R :=
  match i with
  | 1 => a 2%nat * b 3%nat - a 3%nat * b 2%nat
  | 2 => a 3%nat * b 1%nat - a 1%nat * b 3%nat
  | 3 => a 1%nat * b 2%nat - a 2%nat * b 1%nat
  | _ => 0
  end.
Definition turns_about (e : nat -> R) (t : R) (A : nat -> nat -> R) : Prop :=
  forall x i, idx 3 i -> mul_v A x i = cos t * x i + sin t * cross e x i + (1 - cos t) * vdot e x * e i.
Definition antisymmetric (W : nat -> nat -> R) : Prop := forall i j, idx 3 i -> idx 3 j -> W i j = - W j i.
(* W x = w cross x *)
Definition axial (W : nat -> nat -> R) (i : nat) : R :=
  match i with 1 => W 3%nat 2%nat | 2 => W 1%nat 3%nat | 3 => W 2%nat 1%nat | _ => 0 end.
Definition norm (v : nat -> R) : R := sqrt (vdot v v).
Definition product (A B : nat -> nat -> R) : nat -> nat -> R := fun i j => S3 (fun k => A i k * B k j).
