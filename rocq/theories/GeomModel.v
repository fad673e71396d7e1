(** Model of the element geometry in common/src/geometry_new.cpp (paths relative to
    /repo/apps/multiphysics/src/).  doubles are [R].  x, y, z : nat -> R are the coordinates of the
    element's vertices by local node number, i.e. node_coords(elem_node_gids(l), 0..2) as gathered
    at geometry_new.cpp:79-83.  The polynomials are transcribed from the source text. *)
From Coq Require Import Reals Lra List.
From Verif Require Import BaseReal.
Local Open Scope R_scope.

Definition twelth : R := 1 / 12.

(** geometry::get_bmatrix, column 0: geometry_new.cpp:88-142 *)
Definition bmat0 (x y z : nat -> R) (i : nat) : R :=
  match i with
  | 0%nat => (y 1%nat * (-z 3%nat - z 2%nat + z 4%nat + z 5%nat ) + y 3%nat * (z 1%nat - z 2%nat ) + y 2%nat * (z 1%nat + z 3%nat - z 4%nat - z 6%nat ) + y 4%nat * (-z 1%nat + z 2%nat - z 5%nat + z 6%nat ) + y 5%nat * (-z 1%nat + z 4%nat ) + y 6%nat * (z 2%nat - z 4%nat ) ) * twelth
  | 1%nat => (y 0%nat * (z 3%nat + z 2%nat - z 4%nat - z 5%nat ) + y 3%nat * (-z 0%nat - z 2%nat + z 5%nat + z 7%nat ) + y 2%nat * (-z 0%nat + z 3%nat ) + y 4%nat * (z 0%nat - z 5%nat ) + y 5%nat * (z 0%nat - z 3%nat + z 4%nat - z 7%nat ) + y 7%nat * (-z 3%nat + z 5%nat ) ) * twelth
  | 2%nat => (y 0%nat * (-z 1%nat - z 3%nat + z 4%nat + z 6%nat ) + y 1%nat * (z 0%nat - z 3%nat ) + y 3%nat * (z 0%nat + z 1%nat - z 7%nat - z 6%nat ) + y 4%nat * (-z 0%nat + z 6%nat ) + y 7%nat * (z 3%nat - z 6%nat ) + y 6%nat * (-z 0%nat + z 3%nat - z 4%nat + z 7%nat ) ) * twelth
  | 3%nat => (y 0%nat * (-z 1%nat + z 2%nat ) + y 1%nat * (z 0%nat + z 2%nat - z 5%nat - z 7%nat ) + y 2%nat * (-z 0%nat - z 1%nat + z 7%nat + z 6%nat ) + y 5%nat * (z 1%nat - z 7%nat ) + y 7%nat * (z 1%nat - z 2%nat + z 5%nat - z 6%nat ) + y 6%nat * (-z 2%nat + z 7%nat ) ) * twelth
  | 4%nat => (y 0%nat * (z 1%nat - z 2%nat + z 5%nat - z 6%nat ) + y 1%nat * (-z 0%nat + z 5%nat ) + y 2%nat * (z 0%nat - z 6%nat ) + y 5%nat * (-z 0%nat - z 1%nat + z 7%nat + z 6%nat ) + y 7%nat * (-z 5%nat + z 6%nat ) + y 6%nat * (z 0%nat + z 2%nat - z 5%nat - z 7%nat ) ) * twelth
  | 5%nat => (y 0%nat * (z 1%nat - z 4%nat ) + y 1%nat * (-z 0%nat + z 3%nat - z 4%nat + z 7%nat ) + y 3%nat * (-z 1%nat + z 7%nat ) + y 4%nat * (z 0%nat + z 1%nat - z 7%nat - z 6%nat ) + y 7%nat * (-z 1%nat - z 3%nat + z 4%nat + z 6%nat ) + y 6%nat * (z 4%nat - z 7%nat ) ) * twelth
  | 6%nat => (y 0%nat * (-z 2%nat + z 4%nat ) + y 3%nat * (z 2%nat - z 7%nat ) + y 2%nat * (z 0%nat - z 3%nat + z 4%nat - z 7%nat ) + y 4%nat * (-z 0%nat - z 2%nat + z 5%nat + z 7%nat ) + y 5%nat * (-z 4%nat + z 7%nat ) + y 7%nat * (z 3%nat + z 2%nat - z 4%nat - z 5%nat ) ) * twelth
  | 7%nat => (y 1%nat * (z 3%nat - z 5%nat ) + y 3%nat * (-z 1%nat + z 2%nat - z 5%nat + z 6%nat ) + y 2%nat * (-z 3%nat + z 6%nat ) + y 4%nat * (z 5%nat - z 6%nat ) + y 5%nat * (z 1%nat + z 3%nat - z 4%nat - z 6%nat ) + y 6%nat * (-z 3%nat - z 2%nat + z 4%nat + z 5%nat ) ) * twelth
  | _ => 0
  end.

(** geometry::get_bmatrix, column 1: geometry_new.cpp:144-198 *)
Definition bmat1 (x y z : nat -> R) (i : nat) : R :=
  match i with
  | 0%nat => (z 1%nat * (-x 3%nat - x 2%nat + x 4%nat + x 5%nat ) + z 3%nat * (x 1%nat - x 2%nat ) + z 2%nat * (x 1%nat + x 3%nat - x 4%nat - x 6%nat ) + z 4%nat * (-x 1%nat + x 2%nat - x 5%nat + x 6%nat ) + z 5%nat * (-x 1%nat + x 4%nat ) + z 6%nat * (x 2%nat - x 4%nat ) ) * twelth
  | 1%nat => (z 0%nat * (x 3%nat + x 2%nat - x 4%nat - x 5%nat ) + z 3%nat * (-x 0%nat - x 2%nat + x 5%nat + x 7%nat ) + z 2%nat * (-x 0%nat + x 3%nat ) + z 4%nat * (x 0%nat - x 5%nat ) + z 5%nat * (x 0%nat - x 3%nat + x 4%nat - x 7%nat ) + z 7%nat * (-x 3%nat + x 5%nat ) ) * twelth
  | 2%nat => (z 0%nat * (-x 1%nat - x 3%nat + x 4%nat + x 6%nat ) + z 1%nat * (x 0%nat - x 3%nat ) + z 3%nat * (x 0%nat + x 1%nat - x 7%nat - x 6%nat ) + z 4%nat * (-x 0%nat + x 6%nat ) + z 7%nat * (x 3%nat - x 6%nat ) + z 6%nat * (-x 0%nat + x 3%nat - x 4%nat + x 7%nat ) ) * twelth
  | 3%nat => (z 0%nat * (-x 1%nat + x 2%nat ) + z 1%nat * (x 0%nat + x 2%nat - x 5%nat - x 7%nat ) + z 2%nat * (-x 0%nat - x 1%nat + x 7%nat + x 6%nat ) + z 5%nat * (x 1%nat - x 7%nat ) + z 7%nat * (x 1%nat - x 2%nat + x 5%nat - x 6%nat ) + z 6%nat * (-x 2%nat + x 7%nat ) ) * twelth
  | 4%nat => (z 0%nat * (x 1%nat - x 2%nat + x 5%nat - x 6%nat ) + z 1%nat * (-x 0%nat + x 5%nat ) + z 2%nat * (x 0%nat - x 6%nat ) + z 5%nat * (-x 0%nat - x 1%nat + x 7%nat + x 6%nat ) + z 7%nat * (-x 5%nat + x 6%nat ) + z 6%nat * (x 0%nat + x 2%nat - x 5%nat - x 7%nat ) ) * twelth
  | 5%nat => (z 0%nat * (x 1%nat - x 4%nat ) + z 1%nat * (-x 0%nat + x 3%nat - x 4%nat + x 7%nat ) + z 3%nat * (-x 1%nat + x 7%nat ) + z 4%nat * (x 0%nat + x 1%nat - x 7%nat - x 6%nat ) + z 7%nat * (-x 1%nat - x 3%nat + x 4%nat + x 6%nat ) + z 6%nat * (x 4%nat - x 7%nat ) ) * twelth
  | 6%nat => (z 0%nat * (-x 2%nat + x 4%nat ) + z 3%nat * (x 2%nat - x 7%nat ) + z 2%nat * (x 0%nat - x 3%nat + x 4%nat - x 7%nat ) + z 4%nat * (-x 0%nat - x 2%nat + x 5%nat + x 7%nat ) + z 5%nat * (-x 4%nat + x 7%nat ) + z 7%nat * (x 3%nat + x 2%nat - x 4%nat - x 5%nat ) ) * twelth
  | 7%nat => (z 1%nat * (x 3%nat - x 5%nat ) + z 3%nat * (-x 1%nat + x 2%nat - x 5%nat + x 6%nat ) + z 2%nat * (-x 3%nat + x 6%nat ) + z 4%nat * (x 5%nat - x 6%nat ) + z 5%nat * (x 1%nat + x 3%nat - x 4%nat - x 6%nat ) + z 6%nat * (-x 3%nat - x 2%nat + x 4%nat + x 5%nat ) ) * twelth
  | _ => 0
  end.

(** geometry::get_bmatrix, column 2: geometry_new.cpp:200-254 *)
Definition bmat2 (x y z : nat -> R) (i : nat) : R :=
  match i with
  | 0%nat => (x 1%nat * (-y 3%nat - y 2%nat + y 4%nat + y 5%nat ) + x 3%nat * (y 1%nat - y 2%nat ) + x 2%nat * (y 1%nat + y 3%nat - y 4%nat - y 6%nat ) + x 4%nat * (-y 1%nat + y 2%nat - y 5%nat + y 6%nat ) + x 5%nat * (-y 1%nat + y 4%nat ) + x 6%nat * (y 2%nat - y 4%nat ) ) * twelth
  | 1%nat => (x 0%nat * (y 3%nat + y 2%nat - y 4%nat - y 5%nat ) + x 3%nat * (-y 0%nat - y 2%nat + y 5%nat + y 7%nat ) + x 2%nat * (-y 0%nat + y 3%nat ) + x 4%nat * (y 0%nat - y 5%nat ) + x 5%nat * (y 0%nat - y 3%nat + y 4%nat - y 7%nat ) + x 7%nat * (-y 3%nat + y 5%nat ) ) * twelth
  | 2%nat => (x 0%nat * (-y 1%nat - y 3%nat + y 4%nat + y 6%nat ) + x 1%nat * (y 0%nat - y 3%nat ) + x 3%nat * (y 0%nat + y 1%nat - y 7%nat - y 6%nat ) + x 4%nat * (-y 0%nat + y 6%nat ) + x 7%nat * (y 3%nat - y 6%nat ) + x 6%nat * (-y 0%nat + y 3%nat - y 4%nat + y 7%nat ) ) * twelth
  | 3%nat => (x 0%nat * (-y 1%nat + y 2%nat ) + x 1%nat * (y 0%nat + y 2%nat - y 5%nat - y 7%nat ) + x 2%nat * (-y 0%nat - y 1%nat + y 7%nat + y 6%nat ) + x 5%nat * (y 1%nat - y 7%nat ) + x 7%nat * (y 1%nat - y 2%nat + y 5%nat - y 6%nat ) + x 6%nat * (-y 2%nat + y 7%nat ) ) * twelth
  | 4%nat => (x 0%nat * (y 1%nat - y 2%nat + y 5%nat - y 6%nat ) + x 1%nat * (-y 0%nat + y 5%nat ) + x 2%nat * (y 0%nat - y 6%nat ) + x 5%nat * (-y 0%nat - y 1%nat + y 7%nat + y 6%nat ) + x 7%nat * (-y 5%nat + y 6%nat ) + x 6%nat * (y 0%nat + y 2%nat - y 5%nat - y 7%nat ) ) * twelth
  | 5%nat => (x 0%nat * (y 1%nat - y 4%nat ) + x 1%nat * (-y 0%nat + y 3%nat - y 4%nat + y 7%nat ) + x 3%nat * (-y 1%nat + y 7%nat ) + x 4%nat * (y 0%nat + y 1%nat - y 7%nat - y 6%nat ) + x 7%nat * (-y 1%nat - y 3%nat + y 4%nat + y 6%nat ) + x 6%nat * (y 4%nat - y 7%nat ) ) * twelth
  | 6%nat => (x 0%nat * (-y 2%nat + y 4%nat ) + x 3%nat * (y 2%nat - y 7%nat ) + x 2%nat * (y 0%nat - y 3%nat + y 4%nat - y 7%nat ) + x 4%nat * (-y 0%nat - y 2%nat + y 5%nat + y 7%nat ) + x 5%nat * (-y 4%nat + y 7%nat ) + x 7%nat * (y 3%nat + y 2%nat - y 4%nat - y 5%nat ) ) * twelth
  | 7%nat => (x 1%nat * (y 3%nat - y 5%nat ) + x 3%nat * (-y 1%nat + y 2%nat - y 5%nat + y 6%nat ) + x 2%nat * (-y 3%nat + y 6%nat ) + x 4%nat * (y 5%nat - y 6%nat ) + x 5%nat * (y 1%nat + y 3%nat - y 4%nat - y 6%nat ) + x 6%nat * (-y 3%nat - y 2%nat + y 4%nat + y 5%nat ) ) * twelth
  | _ => 0
  end.

(** B_matrix(i, d) *)
Definition bmat (x y z : nat -> R) (i d : nat) : R :=
  match d with 0%nat => bmat0 x y z i | 1%nat => bmat1 x y z i | _ => bmat2 x y z i end.

(** geometry::get_vol_hex before the floor: geometry_new.cpp:343-352 *)
Definition vol_hex_raw (x y z : nat -> R) : R :=
  (x 1%nat * (y 2%nat * (-z 0%nat + z 3%nat) + y 4%nat * (z 0%nat - z 5%nat) + y 0%nat * (z 3%nat + z 2%nat - z 4%nat - z 5%nat) + y 7%nat * (-z 3%nat + z 5%nat) + y 5%nat * (z 0%nat - z 3%nat + z 4%nat - z 7%nat) + y 3%nat * (-z 0%nat - z 2%nat + z 5%nat + z 7%nat)) + x 6%nat * (y 0%nat * (-z 2%nat + z 4%nat) + y 7%nat * (z 3%nat + z 2%nat - z 4%nat - z 5%nat) + y 3%nat * (z 2%nat - z 7%nat) + y 2%nat * (z 0%nat - z 3%nat + z 4%nat - z 7%nat) + y 5%nat * (-z 4%nat + z 7%nat) + y 4%nat * (-z 0%nat - z 2%nat + z 5%nat + z 7%nat)) + x 2%nat * (y 1%nat * (z 0%nat - z 3%nat) + y 6%nat * (-z 0%nat + z 3%nat - z 4%nat + z 7%nat) + y 7%nat * (z 3%nat - z 6%nat) + y 3%nat * (z 0%nat + z 1%nat - z 7%nat - z 6%nat) + y 4%nat * (-z 0%nat + z 6%nat) + y 0%nat * (-z 1%nat - z 3%nat + z 4%nat + z 6%nat)) + x 5%nat * (y 0%nat * (z 1%nat - z 4%nat) + y 6%nat * (z 4%nat - z 7%nat) + y 3%nat * (-z 1%nat + z 7%nat) + y 1%nat * (-z 0%nat + z 3%nat - z 4%nat + z 7%nat) + y 4%nat * (z 0%nat + z 1%nat - z 7%nat - z 6%nat) + y 7%nat * (-z 1%nat - z 3%nat + z 4%nat + z 6%nat)) + x 7%nat * (y 1%nat * (z 3%nat - z 5%nat) + y 6%nat * (-z 3%nat - z 2%nat + z 4%nat + z 5%nat) + y 5%nat * (z 1%nat + z 3%nat - z 4%nat - z 6%nat) + y 4%nat * (z 5%nat - z 6%nat) + y 2%nat * (-z 3%nat + z 6%nat) + y 3%nat * (-z 1%nat + z 2%nat - z 5%nat + z 6%nat)) + x 0%nat * (y 3%nat * (z 1%nat - z 2%nat) + y 6%nat * (z 2%nat - z 4%nat) + y 5%nat * (-z 1%nat + z 4%nat) + y 1%nat * (-z 3%nat - z 2%nat + z 4%nat + z 5%nat) + y 2%nat * (z 1%nat + z 3%nat - z 4%nat - z 6%nat) + y 4%nat * (-z 1%nat + z 2%nat - z 5%nat + z 6%nat)) + x 3%nat * (y 0%nat * (-z 1%nat + z 2%nat) + y 5%nat * (z 1%nat - z 7%nat) + y 1%nat * (z 0%nat + z 2%nat - z 5%nat - z 7%nat) + y 6%nat * (-z 2%nat + z 7%nat) + y 7%nat * (z 1%nat - z 2%nat + z 5%nat - z 6%nat) + y 2%nat * (-z 0%nat - z 1%nat + z 7%nat + z 6%nat)) + x 4%nat * (y 1%nat * (-z 0%nat + z 5%nat) + y 6%nat * (z 0%nat + z 2%nat - z 5%nat - z 7%nat) + y 2%nat * (z 0%nat - z 6%nat) + y 0%nat * (z 1%nat - z 2%nat + z 5%nat - z 6%nat) + y 7%nat * (-z 5%nat + z 6%nat) + y 5%nat * (-z 0%nat - z 1%nat + z 7%nat + z 6%nat))) * twelth.

(** the stored element volume, geometry_new.cpp:355 *)
Definition vol_hex (x y z : nat -> R) : R := fmax (vol_hex_raw x y z) 1e-14.

(** geometry::get_vol_quad before the floor: geometry_new.cpp:296-297 (y is the radius) *)
Definition vol_quad_raw (x y : nat -> R) : R :=
  ( (y 2%nat + y 3%nat + y 0%nat) * ((y 2%nat - y 3%nat) * (x 0%nat - x 3%nat) - (y 0%nat - y 3%nat) * (x 2%nat - x 3%nat) ) + (y 0%nat + y 1%nat + y 2%nat) * ((y 0%nat - y 1%nat) * (x 2%nat - x 1%nat) - (y 2%nat - y 1%nat) * (x 0%nat - x 1%nat)) ) / 6.

Definition vol_quad (x y : nat -> R) : R := fmax (vol_quad_raw x y) 1e-14.

(** geometry::get_bmatrix2D: geometry_new.cpp:430-444 *)
Definition bmat2D (x y : nat -> R) (i d : nat) : R :=
  match i, d with
  | 0%nat, 0%nat => -0.5 * (y 3%nat - y 1%nat)
  | 1%nat, 0%nat => -0.5 * (y 0%nat - y 2%nat)
  | 2%nat, 0%nat => -0.5 * (y 1%nat - y 3%nat)
  | 3%nat, 0%nat => -0.5 * (y 2%nat - y 0%nat)
  | 0%nat, 1%nat => -0.5 * (x 1%nat - x 3%nat)
  | 1%nat, 1%nat => -0.5 * (x 2%nat - x 0%nat)
  | 2%nat, 1%nat => -0.5 * (x 3%nat - x 1%nat)
  | 3%nat, 1%nat => -0.5 * (x 0%nat - x 2%nat)
  | _, _ => 0
  end.

(** geometry::get_area_quad: geometry_new.cpp:509 *)
Definition area_quad (x y : nat -> R) : R := 0.5 * ((x 0%nat - x 2%nat) * (y 1%nat - y 3%nat) + (x 3%nat - x 1%nat) * (y 0%nat - y 2%nat)).

(** geometry::heron: geometry_new.cpp:531-552 *)
Definition heron (x1 y1 x2 y2 x3 y3 : R) : R :=
  let S := 0 in
  let a := sqrt ((x2 - x1) * (x2 - x1) + (y2 - y1) * (y2 - y1)) in
  let S := S + a in
  let b := sqrt ((x3 - x2) * (x3 - x2) + (y3 - y2) * (y3 - y2)) in
  let S := S + b in
  let c := sqrt ((x3 - x1) * (x3 - x1) + (y3 - y1) * (y3 - y1)) in
  let S := S + c in
  let S := S * 0.5 in
  sqrt (S * (S - a) * (S - b) * (S - c)).

(** geometry::get_area_weights2D: geometry_new.cpp:568-609 *)
Definition centroid4 (y : nat -> R) : R := 0 + 0.25 * y 0%nat + 0.25 * y 1%nat + 0.25 * y 2%nat + 0.25 * y 3%nat.
Definition corner_area (x y : nat -> R) (i : nat) : R :=
  let rc := centroid4 y in let zc := centroid4 x in
  let A12 := heron (x 0%nat) (y 0%nat) zc rc (x 1%nat) (y 1%nat) in
  let A23 := heron (x 1%nat) (y 1%nat) zc rc (x 2%nat) (y 2%nat) in
  let A34 := heron (x 2%nat) (y 2%nat) zc rc (x 3%nat) (y 3%nat) in
  let A41 := heron (x 3%nat) (y 3%nat) zc rc (x 0%nat) (y 0%nat) in
  match i with
  | 0%nat => (5 * A41 + 5 * A12 + A23 + A34) / 12
  | 1%nat => (A41 + 5 * A12 + 5 * A23 + A34) / 12
  | 2%nat => (A41 + A12 + 5 * A23 + 5 * A34) / 12
  | 3%nat => (5 * A41 + A12 + A23 + 5 * A34) / 12
  | _ => 0
  end.
