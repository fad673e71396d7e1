(* A body given by its surface, in plain geometry: what a ray along the third direction meets. *)
From Coq Require Import Reals List Arith.
From Verif Require Import VoxModel.
Import ListNotations.
Local Open Scope R_scope.

(* The ray at (x, y) goes through the inside of the facet at height z: the point is a mean of the
   three vertices with positive weights, and the facet is not seen edge-on. *)
Definition double_area (f : facet) : R := (px (v2 f) - px (v1 f)) * (py (v3 f) - py (v1 f)) - (px (v3 f) - px (v1 f)) * (py (v2 f) - py (v1 f)).
Definition hit (x y : R) (f : facet) (z : R) : Prop :=
  double_area f <> 0 /\ exists a b c, 0 < a /\ 0 < b /\ 0 < c /\ a + b + c = 1
    /\ x = a * px (v1 f) + b * px (v2 f) + c * px (v3 f) /\ y = a * py (v1 f) + b * py (v2 f) + c * py (v3 f) /\ z = a * pz (v1 f) + b * pz (v2 f) + c * pz (v3 f).

(* The heights at which it goes through the facets of a surface. *)
Inductive heights (x y : R) : list facet -> list R -> Prop :=
| heights_nil : heights x y [] []
| heights_hit f fs z zs : hit x y f z -> heights x y fs zs -> heights x y (f :: fs) (z :: zs)
| heights_miss f fs zs : (forall z, ~ hit x y f z) -> heights x y fs zs -> heights x y (f :: fs) zs.
Definition below (z : R) (zs : list R) : nat := length (filter (fun c => if Rlt_dec c z then true else false) zs).

(* A ray that meets no vertex, and facets only one at a time and not too steep. *)
Definition misses_vertices (x y : R) (fs : list facet) : Prop := forall f p, In f fs -> In p [v1 f; v2 f; v3 f] -> ~ (px p = x /\ py p = y).
Definition plain_ray (x y : R) (fs : list facet) (zs : list R) : Prop :=
  heights x y fs zs /\ NoDup zs /\ misses_vertices x y fs /\ (forall f z, In f fs -> hit x y f z -> / 10 ^ 14 <= Rabs (double_area f)).

(* Nearer to a crossing than a ten thousandth of the coordinate. *)
Definition close (z c : R) : Prop := z <> 0 /\ Rabs (z - c) < Rabs z / 10 ^ 4.

(* A surface that closes is crossed an even number of times by every such ray, and a point off the
   surface is inside when an odd number of crossings lies below it. *)
Definition sees (x y z : R) (fs : list facet) (inside : bool) : Prop :=
  exists zs, plain_ray x y fs zs /\ Nat.even (length zs) = true /\ ~ In z zs
    /\ (if inside then Nat.odd (below z zs) = true else Nat.even (below z zs) = true /\ forall c, In c zs -> ~ close z c).

(* The extent of a surface in one direction, with a facet that has a single vertex at each end. *)
Definition corners (f : facet) : list point := [v1 f; v2 f; v3 f].
Definition peak (co : point -> R) (fs : list facet) (hi : R) : Prop :=
  exists f p q r, In f fs /\ (corners f = [p; q; r] \/ corners f = [q; p; r] \/ corners f = [q; r; p]) /\ co p = hi /\ co q < hi /\ co r < hi.
Definition spans (co : point -> R) (fs : list facet) (lo hi : R) : Prop :=
  (forall f p, In f fs -> In p (corners f) -> lo <= co p <= hi) /\ peak co fs hi /\ peak (fun p => - co p) fs (- lo).

(* The centre of voxel i of n between lo and hi. *)
Definition centre (lo hi : R) (n i : nat) : R := lo + (INR i + / 2) * ((hi - lo) / INR n).

(* The surface with its coordinates taken as (y, z, x). *)
Definition round_axes (fs : list facet) : list facet :=
  map (fun f => let t p := (py p, pz p, px p) in Facet (t (v1 f)) (t (v2 f)) (t (v3 f)) (nz f)) fs.

(* The unit cube of twelve facets, every face cut from its corner nearest the origin to the
   opposite one. *)
Definition face_z (l : R) : list facet := [Facet (0, 0, l) (1, 0, l) (1, 1, l) 0; Facet (0, 0, l) (1, 1, l) (0, 1, l) 0].
Definition face_x (l : R) : list facet := [Facet (l, 0, 0) (l, 1, 0) (l, 1, 1) 0; Facet (l, 0, 0) (l, 1, 1) (l, 0, 1) 0].
Definition face_y (l : R) : list facet := [Facet (0, l, 0) (0, l, 1) (1, l, 1) 0; Facet (0, l, 0) (1, l, 1) (1, l, 0) 0].
Definition cube : list facet := face_z 0 ++ face_z 1 ++ face_x 0 ++ face_x 1 ++ face_y 0 ++ face_y 1.

(* Four labelled cells of layer k around (x, y), inside the array. *)
Definition four_around (g : nat -> nat -> nat -> bool) (n1 n2 x y k : nat) : Prop :=
  exists l, NoDup l /\ length l = 4%nat
    /\ forall a b, In (a, b) l -> (a < n1 /\ b < n2 /\ a <= x + 1 /\ x <= a + 1 /\ b <= y + 1 /\ y <= b + 1)%nat /\ (a, b) <> (x, y) /\ g a b k = true.
