(** Property theorems C07, C08: mesh builders. *)
From Coq Require Import Reals.
From Verif Require Import BaseReal BaseArr MeshBuildModel MeshBuildSpec MeshBuildProofs.
Local Open Scope R_scope.

(** C07: no out-of-range write, and the result is the structured mesh. *)
Theorem C07_build_3d_box : forall (nx ny nz : nat) (o0 o1 o2 lx ly lz : R), exists m,
  build_3d_box nx ny nz o0 o1 o2 lx ly lz = Some m /\
  structured3 1 nx ny nz (box_pos (vec3 o0 o1 o2) (vec3 lx ly lz) (nvec3 nx ny nz)) m /\
  ncol (nodes_in_elem m) = 8%nat.
Proof. exact build_3d_box_ok. Qed.
Print Assumptions C07_build_3d_box.

Theorem C07_last_node : forall (o l : nat -> R) (n : nat -> nat),
  (forall d, (d < 3)%nat -> (0 < n d)%nat) -> forall d, (d < 3)%nat ->
  box_pos o l n (n 0%nat) (n 1%nat) (n 2%nat) d = o d + l d.
Proof. exact box_pos_last. Qed.
Print Assumptions C07_last_node.

(** Node numbering is a bijection between grid points and 0 .. num_nodes-1. *)
Theorem C07_node_ids : forall p nx ny nz pos m, structured3 p nx ny nz pos m ->
  (forall i j k, (i <= p * nx)%nat -> (j <= p * ny)%nat -> (k <= p * nz)%nat -> (node3 p nx ny i j k < nrow (coords m))%nat) /\
  (forall i j k i' j' k', (i <= p * nx)%nat -> (j <= p * ny)%nat -> (i' <= p * nx)%nat -> (j' <= p * ny)%nat ->
     node3 p nx ny i j k = node3 p nx ny i' j' k' -> i = i' /\ j = j' /\ k = k') /\
  (forall n, (n < nrow (coords m))%nat ->
     exists i j k, (i <= p * nx)%nat /\ (j <= p * ny)%nat /\ (k <= p * nz)%nat /\ n = node3 p nx ny i j k).
Proof. exact node3_bij. Qed.
Print Assumptions C07_node_ids.

(** Every connectivity entry is written, with a valid node id. *)
Theorem C07_complete : forall p nx ny nz pos m, structured3 p nx ny nz pos m ->
  forall e l, (e < nx * ny * nz)%nat -> (l < (p + 1) * (p + 1) * (p + 1))%nat ->
  exists n, aget (nodes_in_elem m) e l = Some n /\ (n < nrow (coords m))%nat.
Proof. exact conn_complete. Qed.
Print Assumptions C07_complete.

Theorem C07_distinct_nodes : forall p nx ny nz pos m, structured3 p nx ny nz pos m ->
  ncol (nodes_in_elem m) = ((p + 1) * (p + 1) * (p + 1))%nat ->
  forall i j k l l' n, (i < nx)%nat -> (j < ny)%nat -> (k < nz)%nat ->
  aget (nodes_in_elem m) (elem3 nx ny i j k) l = Some n ->
  aget (nodes_in_elem m) (elem3 nx ny i j k) l' = Some n -> l = l'.
Proof. exact elem_nodes_distinct. Qed.
Print Assumptions C07_distinct_nodes.

(** Neighbours across a face share exactly the nodes of that face (the 4 nodes for p = 1). *)
Theorem C07_shared_face : forall p nx ny nz pos m, structured3 p nx ny nz pos m ->
  ncol (nodes_in_elem m) = ((p + 1) * (p + 1) * (p + 1))%nat -> (1 <= p)%nat ->
  (forall i j k n, (i + 1 < nx)%nat -> (j < ny)%nat -> (k < nz)%nat ->
    (in_elem m (elem3 nx ny i j k) n /\ in_elem m (elem3 nx ny (i + 1) j k) n <->
     exists b c, (b <= p)%nat /\ (c <= p)%nat /\ n = node3 p nx ny (p * (i + 1)) (p * j + b) (p * k + c))) /\
  (forall i j k n, (i < nx)%nat -> (j + 1 < ny)%nat -> (k < nz)%nat ->
    (in_elem m (elem3 nx ny i j k) n /\ in_elem m (elem3 nx ny i (j + 1) k) n <->
     exists a c, (a <= p)%nat /\ (c <= p)%nat /\ n = node3 p nx ny (p * i + a) (p * (j + 1)) (p * k + c))) /\
  (forall i j k n, (i < nx)%nat -> (j < ny)%nat -> (k + 1 < nz)%nat ->
    (in_elem m (elem3 nx ny i j k) n /\ in_elem m (elem3 nx ny i j (k + 1)) n <->
     exists a b, (a <= p)%nat /\ (b <= p)%nat /\ n = node3 p nx ny (p * i + a) (p * j + b) (p * (k + 1)))).
Proof.
  exact (fun p nx ny nz pos m H C P => conj (face_shared_i p nx ny nz pos m H C P)
    (conj (face_shared_j p nx ny nz pos m H C P) (face_shared_k p nx ny nz pos m H C P))).
Qed.
Print Assumptions C07_shared_face.

(** Elements with a common node are neighbours. *)
Theorem C07_no_other_sharing : forall p nx ny nz pos m, structured3 p nx ny nz pos m ->
  ncol (nodes_in_elem m) = ((p + 1) * (p + 1) * (p + 1))%nat -> (1 <= p)%nat ->
  forall i j k i' j' k' n, (i < nx)%nat -> (j < ny)%nat -> (k < nz)%nat -> (i' < nx)%nat -> (j' < ny)%nat -> (k' < nz)%nat ->
  in_elem m (elem3 nx ny i j k) n -> in_elem m (elem3 nx ny i' j' k') n ->
  (i <= i' + 1 /\ i' <= i + 1 /\ j <= j' + 1 /\ j' <= j + 1 /\ k <= k' + 1 /\ k' <= k + 1)%nat.
Proof. exact shared_neighbour. Qed.
Print Assumptions C07_no_other_sharing.

Example C07_ex : exists m, build_3d_box 2 3 4 0 0 (-1) 2 3 8 = Some m /\
  aget (nodes_in_elem m) (elem3 2 3 1 2 3) 7 = Some (node3 1 2 3 2 3 4) /\
  aget (coords m) (node3 1 2 3 2 3 4) 2 = Some (-1 + INR 4 * (8 / INR 4)).
Proof.
  destruct (build_3d_box_ok 2 3 4 0 0 (-1) 2 3 8) as (m & E & (R1 & R2 & R3 & R4 & R5) & _).
  exists m. split; [exact E|]. split.
  - exact (R5 1 2 3 1 1 1 ltac:(lia) ltac:(lia) ltac:(lia) ltac:(lia) ltac:(lia) ltac:(lia))%nat.
  - exact (R4 2 3 4 2 ltac:(lia) ltac:(lia) ltac:(lia) ltac:(lia))%nat.
Qed.

(** The same for the arbitrary-order builder, when the connectivity array is wide enough ... *)
Theorem C07_build_3d_HexN : forall (ncols p nx ny nz : nat) (o0 o1 o2 lx ly lz : R),
  (p <= 19)%nat -> ((p + 1) * (p + 1) * (p + 1) <= ncols)%nat -> exists m,
  build_3d_HexN_box ncols p nx ny nz o0 o1 o2 lx ly lz = Some (Some m) /\
  structured3 p nx ny nz (box_pos (vec3 o0 o1 o2) (vec3 lx ly lz) (nvec3 (p * nx) (p * ny) (p * nz))) m.
Proof. exact build_HexN_ok. Qed.
Print Assumptions C07_build_3d_HexN.

(** ... and writes outside it otherwise (8 columns and order 2, for instance). *)
Theorem C07_HexN_out_of_bounds : forall (ncols p nx ny nz : nat) (o0 o1 o2 lx ly lz : R),
  (p <= 19)%nat -> (0 < nx)%nat -> (0 < ny)%nat -> (0 < nz)%nat -> (ncols < (p + 1) * (p + 1) * (p + 1))%nat ->
  build_3d_HexN_box ncols p nx ny nz o0 o1 o2 lx ly lz = None.
Proof. exact build_HexN_oob. Qed.
Print Assumptions C07_HexN_out_of_bounds.

(** C08 *)
Theorem C08_build_2d_box : forall (nx ny : nat) (o0 o1 lx ly : R), exists m,
  build_2d_box nx ny o0 o1 lx ly = Some m /\
  structured2 nx ny (fun i j d => match d with O => o0 + INR i * (lx / INR nx) | _ => o1 + INR j * (ly / INR ny) end) m.
Proof. exact build_2d_box_ok. Qed.
Print Assumptions C08_build_2d_box.

(** The polar builder throws exactly when some requested node has a negative radius coordinate. *)
Theorem C08_build_2d_polar : forall (nr na : nat) (o0 o1 r0 r1 a0 a1 : R),
  let P := polar_pos (vec3 o0 o1 0) r0 r1 a0 a1 nr na in
  ((forall i j, (i <= nr)%nat -> (j <= na)%nat -> 0 <= P i j 0%nat) ->
     exists m, build_2d_polar nr na o0 o1 r0 r1 a0 a1 = Some (Some m) /\ structured2 nr na P m) /\
  ((exists i j, (i <= nr)%nat /\ (j <= na)%nat /\ P i j 0%nat < 0) ->
     build_2d_polar nr na o0 o1 r0 r1 a0 a1 = Some None).
Proof. exact build_2d_polar_ok. Qed.
Print Assumptions C08_build_2d_polar.

Example C08_ex : exists i j, (i <= 4)%nat /\ (j <= 3)%nat /\ polar_pos (vec3 0 0 0) 1 2 90 180 4 3 i j 0 < 0.
Proof.
  exists 0%nat, 3%nat. split; [lia|]. split; [lia|]. unfold polar_pos, vec3.
  replace (PI / 180 * 90 + INR 3 * (PI / 180 * (180 - 90) / INR 3)) with PI by (cbn [INR]; field).
  rewrite cos_PI. cbn [INR]. lra.
Qed.
