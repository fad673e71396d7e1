(** Independent statements for boundary sets and boundary conditions. *)
From Coq Require Import Reals List Arith Permutation.
Import ListNotations.
Open Scope R_scope.

(** The surfaces of the user manual, as sets of points within a tolerance. *)
Inductive surface := Plane (axis : nat) (value : R) | Cylinder (ox oy radius : R) | Sphere (ox oy oz radius : R).

Definition on_surface (s : surface) (tol : R) (p : nat -> R) : Prop :=
  match s with
  | Plane a c => Rabs (p a - c) <= tol
  | Cylinder ox oy r => Rabs (sqrt (Rsqr (p 0%nat - ox) + Rsqr (p 1%nat - oy)) - r) <= tol
  | Sphere ox oy oz r => Rabs (sqrt (Rsqr (p 0%nat - ox) + Rsqr (p 1%nat - oy) + Rsqr (p 2%nat - oz)) - r) <= tol
  end.

(** The surface a boundary block describes: type number, value and origin. *)
Definition surface_of (tag : nat) (value ox oy oz : R) : option surface :=
  match tag with
  | O => Some (Plane 0 value)
  | S O => Some (Plane 1 value)
  | S (S O) => Some (Plane 2 value)
  | S (S (S O)) => Some (Cylinder ox oy value)
  | S (S (S (S O))) => Some (Sphere ox oy oz value)
  | _ => None
  end.

(** How many coordinates the surface equation mentions. *)
Definition surface_dims (s : surface) : nat :=
  match s with Plane a _ => S a | Cylinder _ _ _ => 2 | Sphere _ _ _ _ => 3 end.

(** [l] without repetitions, keeping the first occurrence of every element, in order. *)
Fixpoint first_seen (seen l : list nat) : list nat :=
  match l with
  | [] => []
  | x :: r => if in_dec Nat.eq_dec x seen then first_seen seen r else x :: first_seen (x :: seen) r
  end.

(** Vectors. *)
Definition dot3 (a b : nat -> R) : R := a 0%nat * b 0%nat + a 1%nat * b 1%nat + a 2%nat * b 2%nat.
Definition unit_axis (k d : nat) : R := if Nat.eqb d k then 1 else 0.

(** Remove the component of [v] along [n], whatever the length and orientation of [n]. *)
Definition remove_normal (n v : nat -> R) (d : nat) : R := v d - dot3 v n / dot3 n n * n d.

(** Replace the component of [v] along the unit vector of [n] by [w]. *)
Definition impose_normal (n v : nat -> R) (w : R) (d : nat) : R :=
  remove_normal n v d + w * (n d / sqrt (dot3 n n)).

Definition cross3 (a b : nat -> R) (d : nat) : R :=
  match d with
  | O => a 1%nat * b 2%nat - a 2%nat * b 1%nat
  | S O => a 2%nat * b 0%nat - a 0%nat * b 2%nat
  | S (S O) => a 0%nat * b 1%nat - a 1%nat * b 0%nat
  | _ => 0
  end.

(** Vector area of a polygon with vertices [pts] in order: half the sum of the cross products of consecutive vertices. *)
Fixpoint edges_from (first : nat) (l : list nat) : list (nat * nat) :=
  match l with
  | [] => []
  | [a] => [(a, first)]
  | a :: (b :: _) as r => (a, b) :: edges_from first r
  end.
Definition polygon_edges (l : list nat) : list (nat * nat) :=
  match l with [] => [] | a :: _ => edges_from a l end.

Definition lsum {A} (f : A -> R) (l : list A) : R := fold_right (fun a s => f a + s) 0 l.

Definition vector_area (x : nat -> nat -> R) (poly : list nat) (d : nat) : R :=
  / 2 * lsum (fun '(a, b) => cross3 (x a) (x b) d) (polygon_edges poly).

(** A closed oriented surface: every directed edge is matched by its reverse. *)
Definition closed_surface (polys : list (list nat)) : Prop :=
  exists es, Permutation (flat_map polygon_edges polys) (es ++ map (fun '(a, b) => (b, a)) es).

(** A symmetric stress tensor given by its six components. *)
Definition sym_stress (s00 s11 s22 s12 s02 s01 : R) (i j : nat) : R :=
  match i, j with
  | O, O => s00 | S O, S O => s11 | S (S O), S (S O) => s22
  | S O, S (S O) => s12 | S (S O), S O => s12
  | O, S (S O) => s02 | S (S O), O => s02
  | O, S O => s01 | S O, O => s01
  | _, _ => 0
  end.
