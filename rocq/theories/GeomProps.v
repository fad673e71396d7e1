(** Property theorems C12-C14, and the volume/area clauses of C07, C08, C11, C44. *)
From Coq Require Import Reals Lra List.
Import ListNotations.
From Verif Require Import BaseReal BaseArr GeomModel GeomSpec GeomProofs.
From Verif Require Import MeshBuildModel MeshBuildSpec MeshIndexModel MeshGeomSpec MeshGeomProofs.
Local Open Scope R_scope.

(** A concrete, distorted hexahedron used in the examples. *)
Definition ex_x (i : nat) : R := match i with | 0%nat => 0 | 1%nat => 2 | 2%nat => 0.5 | 3%nat => 2.5 | 4%nat => 0.1 | 5%nat => 1.8 | 6%nat => 0 | _ => 3 end.
Definition ex_y (i : nat) : R := match i with | 0%nat => 0 | 1%nat => 0.1 | 2%nat => 1 | 3%nat => 1.2 | 4%nat => -0.1 | 5%nat => 0 | 6%nat => 1.1 | _ => 1 end.
Definition ex_z (i : nat) : R := match i with | 0%nat => 0 | 1%nat => 0 | 2%nat => 0.2 | 3%nat => 0 | 4%nat => 1 | 5%nat => 1.1 | 6%nat => 1 | _ => 1.3 end.

(** C12 *)
Theorem C12_closure : forall x y z d, sumn 8 (fun i => bmat x y z i d) = 0.
Proof. exact bmat_closure. Qed.
Print Assumptions C12_closure.

Theorem C12_translation : forall x y z a b c i d, (i < 8)%nat ->
  bmat (fun n => x n + a) (fun n => y n + b) (fun n => z n + c) i d = bmat x y z i d.
Proof. exact bmat_translate. Qed.
Print Assumptions C12_translation.

Example C12_ex : bmat ex_x ex_y ex_z 3 0 <> 0.
Proof. unfold bmat, bmat0, ex_y, ex_z, twelth. lra. Qed.

(** C13 *)
Theorem C13_moments : forall x y z e d, (e < 3)%nat -> (d < 3)%nat ->
  sumn 8 (fun i => coord x y z e i * bmat x y z i d) = if Nat.eqb e d then vol_hex_raw x y z else 0.
Proof. exact bmat_moment. Qed.
Print Assumptions C13_moments.

Theorem C13_volume_is_integral : forall x y z, is_int3 (jac3 x y z) (vol_hex_raw x y z).
Proof. exact vol_is_integral. Qed.
Print Assumptions C13_volume_is_integral.

(** The B-matrix is the gradient of the volume: the derivative along any motion (u,v,w) of the nodes. *)
Theorem C13_gradient : forall x y z u v w,
  derivable_pt_lim (fun t => vol_hex_raw (fun n => x n + t * u n) (fun n => y n + t * v n) (fun n => z n + t * w n)) 0
    (sumn 8 (fun i => u i * bmat x y z i 0 + v i * bmat x y z i 1 + w i * bmat x y z i 2)).
Proof. exact vol_derivative. Qed.
Print Assumptions C13_gradient.

Theorem C13_affine : forall m11 m12 m13 t1 m21 m22 m23 t2 m31 m32 m33 t3 x y z,
  vol_hex_raw (fun n => m11 * x n + m12 * y n + m13 * z n + t1)
              (fun n => m21 * x n + m22 * y n + m23 * z n + t2)
              (fun n => m31 * x n + m32 * y n + m33 * z n + t3) =
  det3 m11 m12 m13 m21 m22 m23 m31 m32 m33 * vol_hex_raw x y z.
Proof. exact vol_affine. Qed.
Print Assumptions C13_affine.

Theorem C13_box : forall ox oy oz dx dy dz,
  vol_hex_raw (fun i => ox + dx * ucube 0 i) (fun i => oy + dy * ucube 1 i) (fun i => oz + dz * ucube 2 i) = dx * dy * dz.
Proof. exact vol_box. Qed.
Print Assumptions C13_box.

(** the stored volume *)
Theorem C13_floor : forall x y z, vol_hex x y z = Rmax (vol_hex_raw x y z) 1e-14.
Proof. exact vol_floor. Qed.
Print Assumptions C13_floor.

Theorem C13_inverted_cell_hidden : exists x y z, is_int3 (jac3 x y z) (-1) /\ 0 < vol_hex x y z.
Proof.
  exact (ex_intro _ (ucube 1) (ex_intro _ (ucube 0) (ex_intro _ (ucube 2) inverted_cell))).
Qed.
Print Assumptions C13_inverted_cell_hidden.

Example C13_ex : 0 < vol_hex_raw ex_x ex_y ex_z.
Proof. unfold vol_hex_raw, ex_x, ex_y, ex_z, twelth. lra. Qed.

(** C14 *)
Theorem C14_closure : forall x y d, sumn 4 (fun i => bmat2D x y i d) = 0.
Proof. exact bmat2D_closure. Qed.
Print Assumptions C14_closure.

Theorem C14_moments : forall x y e d, (e < 2)%nat -> (d < 2)%nat ->
  sumn 4 (fun i => (match e with O => x i | _ => y i end) * bmat2D x y i d) = if Nat.eqb e d then area_quad x y else 0.
Proof. exact bmat2D_moment. Qed.
Print Assumptions C14_moments.

Theorem C14_area_is_integral : forall x y, is_int2 (jac2 x y) (area_quad x y).
Proof. exact jac2_int. Qed.
Print Assumptions C14_area_is_integral.

(** axisymmetric volume per radian: integral of the radius (second coordinate) over the quad *)
Theorem C14_rz_volume : forall x y, is_int2 (fun a b => bil y a b * jac2 x y a b) (vol_quad_raw x y).
Proof. exact rz_int. Qed.
Print Assumptions C14_rz_volume.

Theorem C14_heron : forall x1 y1 x2 y2 x3 y3, heron x1 y1 x2 y2 x3 y3 = Rabs (tri_area x1 y1 x2 y2 x3 y3).
Proof. exact heron_area. Qed.
Print Assumptions C14_heron.

Theorem C14_corner_areas : forall x y,
  let rc := (y 0%nat + y 1%nat + y 2%nat + y 3%nat) / 4 in
  let zc := (x 0%nat + x 1%nat + x 2%nat + x 3%nat) / 4 in
  let T i j := tri_area (x i) (y i) (x j) (y j) zc rc in
  sumn 4 (corner_area x y) = Rabs (T 0%nat 1%nat) + Rabs (T 1%nat 2%nat) + Rabs (T 2%nat 3%nat) + Rabs (T 3%nat 0%nat).
Proof. exact corner_area_sum. Qed.
Print Assumptions C14_corner_areas.

Theorem C14_corner_areas_total : forall x y,
  let rc := (y 0%nat + y 1%nat + y 2%nat + y 3%nat) / 4 in
  let zc := (x 0%nat + x 1%nat + x 2%nat + x 3%nat) / 4 in
  let T i j := tri_area (x i) (y i) (x j) (y j) zc rc in
  0 <= T 0%nat 1%nat -> 0 <= T 1%nat 2%nat -> 0 <= T 2%nat 3%nat -> 0 <= T 3%nat 0%nat ->
  sumn 4 (corner_area x y) = area_quad x y.
Proof. exact corner_area_total. Qed.
Print Assumptions C14_corner_areas_total.

Theorem C14_corner_areas_nonneg : forall x y i, 0 <= corner_area x y i.
Proof. exact corner_area_nonneg. Qed.
Print Assumptions C14_corner_areas_nonneg.

Example C14_ex : let x := quad4 0 2 3 0.5 in let y := quad4 0 0.5 2 1 in
  let rc := (y 0%nat + y 1%nat + y 2%nat + y 3%nat) / 4 in
  let zc := (x 0%nat + x 1%nat + x 2%nat + x 3%nat) / 4 in
  let T i j := tri_area (x i) (y i) (x j) (y j) zc rc in
  0 <= T 0%nat 1%nat /\ 0 <= T 1%nat 2%nat /\ 0 <= T 2%nat 3%nat /\ 0 <= T 3%nat 0%nat.
Proof. cbv zeta. unfold tri_area, quad4. repeat split; lra. Qed.

(** C07: every cell of a built box has volume dx dy dz, and the cells add up to the box. *)
Theorem C07_cell_volume : forall nx ny nz o0 o1 o2 lx ly lz m i j k,
  build_3d_box nx ny nz o0 o1 o2 lx ly lz = Some m -> (i < nx)%nat -> (j < ny)%nat -> (k < nz)%nat ->
  exists x y z, gathers m (elem3 nx ny i j k) 8 0 x /\ gathers m (elem3 nx ny i j k) 8 1 y /\
    gathers m (elem3 nx ny i j k) 8 2 z /\
    vol_hex_raw x y z = (lx / INR nx) * (ly / INR ny) * (lz / INR nz).
Proof. exact box3_cell_volume. Qed.
Print Assumptions C07_cell_volume.

Theorem C07_total_volume : forall nx ny nz o0 o1 o2 lx ly lz m V,
  (0 < nx)%nat -> (0 < ny)%nat -> (0 < nz)%nat ->
  build_3d_box nx ny nz o0 o1 o2 lx ly lz = Some m ->
  (forall e, (e < nx * ny * nz)%nat -> cell_volume m e (V e)) ->
  sumn (nx * ny * nz) V = lx * ly * lz.
Proof. exact box3_total_volume. Qed.
Print Assumptions C07_total_volume.

(** C08: cell areas. *)
Theorem C08_box_area : forall nx ny o0 o1 lx ly m i j,
  build_2d_box nx ny o0 o1 lx ly = Some m -> (i < nx)%nat -> (j < ny)%nat ->
  exists x y, gathers m (elem2 nx i j) 4 0 x /\ gathers m (elem2 nx i j) 4 1 y /\
    area_quad x y = (lx / INR nx) * (ly / INR ny).
Proof. exact box2_cell_area. Qed.
Print Assumptions C08_box_area.

Theorem C08_polar_area : forall nr na o0 o1 r0 r1 a0 a1 m i j,
  build_2d_polar nr na o0 o1 r0 r1 a0 a1 = Some (Some m) -> (i < nr)%nat -> (j < na)%nat ->
  exists x y, gathers m (elem2 nr i j) 4 0 x /\ gathers m (elem2 nr i j) 4 1 y /\
    let dr := (r1 - r0) / INR nr in let ri := r0 + INR i * dr in
    area_quad x y = (ri + dr / 2) * dr * sin (PI / 180 * (a1 - a0) / INR na).
Proof. exact polar_cell_area. Qed.
Print Assumptions C08_polar_area.

Theorem C08_polar_area_positive : forall nr na o0 o1 r0 r1 a0 a1 m i j,
  build_2d_polar nr na o0 o1 r0 r1 a0 a1 = Some (Some m) -> (i < nr)%nat -> (j < na)%nat ->
  0 <= r0 < r1 -> 0 < a1 - a0 -> a1 - a0 < 180 * INR na ->
  exists x y, gathers m (elem2 nr i j) 4 0 x /\ gathers m (elem2 nr i j) 4 1 y /\ 0 < area_quad x y.
Proof. exact polar_mesh_area_pos. Qed.
Print Assumptions C08_polar_area_positive.

(** C11: a box read from an Ensight/VTK/Abaqus hexahedral file has its volume ... *)
Theorem C11_hex_volume : forall ox oy oz dx dy dz x y z,
  reorder_elem (map (fun p : R * R * R => fst (fst p)) (vtk_box ox oy oz dx dy dz)) = Some x ->
  reorder_elem (map (fun p : R * R * R => snd (fst p)) (vtk_box ox oy oz dx dy dz)) = Some y ->
  reorder_elem (map (fun p : R * R * R => snd p) (vtk_box ox oy oz dx dy dz)) = Some z ->
  vol_hex_raw (fun i => nth i x 0) (fun i => nth i y 0) (fun i => nth i z 0) = dx * dy * dz.
Proof. exact hex_file_box_volume. Qed.
Print Assumptions C11_hex_volume.

(** ... but a quad read from a 2D Ensight or VTK file becomes a bow-tie: every rectangle gets area zero. *)
Theorem C11_quad_area_refuted : forall x0 x1 y0 y1 x y,
  reorder_elem [x0; x1; x1; x0] = Some x -> reorder_elem [y0; y0; y1; y1] = Some y ->
  area_quad (fun i => nth i x 0) (fun i => nth i y 0) = 0.
Proof. exact quad_file_area. Qed.
Print Assumptions C11_quad_area_refuted.

(** The VTU reader keeps the order, which is right. *)
Theorem C11_quad_area_vtu : forall x0 x1 y0 y1,
  area_quad (fun i => nth i (read_vtu_raw [x0; x1; x1; x0]) 0) (fun i => nth i (read_vtu_raw [y0; y0; y1; y1]) 0)
  = (x1 - x0) * (y1 - y0).
Proof. exact quad_file_area_raw. Qed.
Print Assumptions C11_quad_area_vtu.

(** C44: the polar builder's negative-radius check looks at the axial coordinate; a mesh with a negative
    radius (second coordinate) is accepted. *)
Theorem C44_negative_radius_refuted : exists m,
  build_2d_polar 1 1 0 0 1 2 (-90) 0 = Some (Some m) /\ exists n r, aget (coords m) n 1 = Some r /\ r < 0.
Proof. exact polar_negative_radius_accepted. Qed.
Print Assumptions C44_negative_radius_refuted.

(** C44: while an upper half-plane mesh without negative radius is rejected. *)
Theorem C44_valid_radius_rejected :
  build_2d_polar 1 1 0 0 1 2 90 180 = Some None /\
  forall i j, (i <= 1)%nat -> (j <= 1)%nat -> 0 <= polar_pos (vec3 0 0 0) 1 2 90 180 1 1 i j 1.
Proof. exact polar_valid_rejected. Qed.
Print Assumptions C44_valid_radius_rejected.
