(** Specification vocabulary for element geometry (properties C08, C11-C14): the isoparametric maps and
    Riemann integrals, independent of the code's closed formulas. *)
From Coq Require Import Reals Lra.
From Verif Require Import BaseReal.
Local Open Scope R_scope.

(** [v] is the Riemann integral of [f] over [0,1]. *)
Definition is_int01 (f : R -> R) (v : R) : Prop :=
  exists pr : Riemann_integrable f 0 1, RiemannInt pr = v.
(** iterated integrals over the unit square and the unit cube *)
Definition is_int2 (f : R -> R -> R) (v : R) : Prop :=
  exists g, (forall a, is_int01 (f a) (g a)) /\ is_int01 g v.
Definition is_int3 (f : R -> R -> R -> R) (v : R) : Prop :=
  exists g, (forall a b, is_int01 (f a b) (g a b)) /\ is_int2 g v.

(** Trilinear interpolation of the eight vertex values, vertex number i + 2j + 4k at (i,j,k). *)
Definition tri (x : nat -> R) (a b c : R) : R :=
  (1 - c) * ((1 - b) * ((1 - a) * x 0%nat + a * x 1%nat) + b * ((1 - a) * x 2%nat + a * x 3%nat)) +
  c * ((1 - b) * ((1 - a) * x 4%nat + a * x 5%nat) + b * ((1 - a) * x 6%nat + a * x 7%nat)).
(** its partial derivatives *)
Definition tri_a (x : nat -> R) (b c : R) : R :=
  (1 - c) * ((1 - b) * (x 1%nat - x 0%nat) + b * (x 3%nat - x 2%nat)) +
  c * ((1 - b) * (x 5%nat - x 4%nat) + b * (x 7%nat - x 6%nat)).
Definition tri_b (x : nat -> R) (a c : R) : R :=
  (1 - c) * ((1 - a) * (x 2%nat - x 0%nat) + a * (x 3%nat - x 1%nat)) +
  c * ((1 - a) * (x 6%nat - x 4%nat) + a * (x 7%nat - x 5%nat)).
Definition tri_c (x : nat -> R) (a b : R) : R :=
  (1 - b) * ((1 - a) * (x 4%nat - x 0%nat) + a * (x 5%nat - x 1%nat)) +
  b * ((1 - a) * (x 6%nat - x 2%nat) + a * (x 7%nat - x 3%nat)).

Definition det3 (a1 a2 a3 b1 b2 b3 c1 c2 c3 : R) : R :=
  a1 * (b2 * c3 - b3 * c2) - a2 * (b1 * c3 - b3 * c1) + a3 * (b1 * c2 - b2 * c1).

(** Jacobian determinant of the map of the unit cube onto the hexahedron. *)
Definition jac3 (x y z : nat -> R) (a b c : R) : R :=
  det3 (tri_a x b c) (tri_a y b c) (tri_a z b c)
       (tri_b x a c) (tri_b y a c) (tri_b z a c)
       (tri_c x a b) (tri_c y a b) (tri_c z a b).

(** Bilinear map of the unit square onto a quad with vertices 0,1,2,3 in counter-clockwise order. *)
Definition bil (x : nat -> R) (a b : R) : R :=
  (1 - b) * ((1 - a) * x 0%nat + a * x 1%nat) + b * ((1 - a) * x 3%nat + a * x 2%nat).
Definition bil_a (x : nat -> R) (b : R) : R := (1 - b) * (x 1%nat - x 0%nat) + b * (x 2%nat - x 3%nat).
Definition bil_b (x : nat -> R) (a : R) : R := (1 - a) * (x 3%nat - x 0%nat) + a * (x 2%nat - x 1%nat).
Definition jac2 (x y : nat -> R) (a b : R) : R := bil_a x b * bil_b y a - bil_a y b * bil_b x a.

(** Signed area of a triangle. *)
Definition tri_area (x1 y1 x2 y2 x3 y3 : R) : R := ((x2 - x1) * (y3 - y1) - (x3 - x1) * (y2 - y1)) / 2.

Lemma affine_deriv p q a : derivable_pt_lim (fun a => p + q * a) a q.
Proof.
  assert (H : derivable_pt_lim (fun a => p + q * a) a (0 + (0 * a + q * 1))).
  { apply (derivable_pt_lim_plus (fun _ => p) (fun a => q * a)); [apply derivable_pt_lim_const|].
    apply (derivable_pt_lim_mult (fun _ => q) (fun a => a)); [apply derivable_pt_lim_const|apply derivable_pt_lim_id]. }
  replace (0 + (0 * a + q * 1)) with q in H by ring. exact H.
Qed.
(** The derivatives above are the partial derivatives. *)
Lemma tri_a_correct x a b c : derivable_pt_lim (fun a => tri x a b c) a (tri_a x b c).
Proof.
  replace (fun a => tri x a b c) with (fun a => tri x 0 b c + tri_a x b c * a)
    by (apply FunctionalExtensionality.functional_extensionality; intros; unfold tri, tri_a; ring).
  apply affine_deriv.
Qed.
Lemma tri_b_correct x a b c : derivable_pt_lim (fun b => tri x a b c) b (tri_b x a c).
Proof.
  replace (fun b => tri x a b c) with (fun b => tri x a 0 c + tri_b x a c * b)
    by (apply FunctionalExtensionality.functional_extensionality; intros; unfold tri, tri_b; ring).
  apply affine_deriv.
Qed.
Lemma tri_c_correct x a b c : derivable_pt_lim (fun c => tri x a b c) c (tri_c x a b).
Proof.
  replace (fun c => tri x a b c) with (fun c => tri x a b 0 + tri_c x a b * c)
    by (apply FunctionalExtensionality.functional_extensionality; intros; unfold tri, tri_c; ring).
  apply affine_deriv.
Qed.
Lemma bil_a_correct x a b : derivable_pt_lim (fun a => bil x a b) a (bil_a x b).
Proof.
  replace (fun a => bil x a b) with (fun a => bil x 0 b + bil_a x b * a)
    by (apply FunctionalExtensionality.functional_extensionality; intros; unfold bil, bil_a; ring).
  apply affine_deriv.
Qed.
Lemma bil_b_correct x a b : derivable_pt_lim (fun b => bil x a b) b (bil_b x a).
Proof.
  replace (fun b => bil x a b) with (fun b => bil x a 0 + bil_b x a * b)
    by (apply FunctionalExtensionality.functional_extensionality; intros; unfold bil, bil_b; ring).
  apply affine_deriv.
Qed.

(** coordinate [e] of the nodes *)
Definition coord (x y z : nat -> R) (e : nat) : nat -> R := match e with 0%nat => x | 1%nat => y | _ => z end.

(** node values listed one by one *)
Definition quad4 (a b c d : R) (i : nat) : R := match i with 0%nat => a | 1%nat => b | 2%nat => c | _ => d end.

(** coordinate [d] of vertex [i] of the unit cube, vertex i + 2j + 4k at (i,j,k) *)
Definition ucube (d : nat) (i : nat) : R :=
  match d with
  | O => if Nat.odd i then 1 else 0
  | S O => if Nat.odd (i / 2) then 1 else 0
  | _ => if Nat.odd (i / 4) then 1 else 0
  end.
