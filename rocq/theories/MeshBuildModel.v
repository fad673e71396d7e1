(** Model of MeshBuilder in common/include/mesh_io.hpp (paths relative to
    /repo/apps/multiphysics/src/).  Counts are [nat] (the C code uses [int]; overflow is not
    modelled), doubles are [R].  Arrays are checked: an out-of-range access makes the whole
    build [None].  mesh.initialize_nodes / initialize_elems are in the Swage library, which is not
    part of the repository: nodes_in_elem is taken to have num_elems rows and [ncols] columns,
    [ncols] = 2^num_dims for the linear builders. *)
From Coq Require Import Reals.
From Verif Require Import BaseReal BaseArr.
Local Open Scope R_scope.

(** get_id, mesh_io.hpp:74-77. *)
Definition get_id (i j k num_i num_j : nat) : nat := (i + j * num_i + k * num_i * num_j)%nat.

Record mesh := mkMesh { coords : arr R; nodes_in_elem : arr nat }.

(** ** build_3d_box, mesh_io.hpp:1587-1705 *)

(** node loop, mesh_io.hpp:1637-1650 *)
Definition box3_nodes (npi npj npk : nat) (o0 o1 o2 dx dy dz : R) (a : arr R) : option (arr R) :=
  for_up 0 npk (fun k => for_up 0 npj (fun j => for_up 0 npi (fun i a =>
    let node_gid := get_id i j k npi npj in
    obind (aset a node_gid 0 (o0 + INR i * dx)) (fun a =>
    obind (aset a node_gid 1 (o1 + INR j * dy)) (fun a =>
    aset a node_gid 2 (o2 + INR k * dz)))))) a.

(** element loop, mesh_io.hpp:1663-1693; kcount runs over k, k+1, and so on.
    Also mesh_io.hpp:1824-1867 with Pn_order > 1: kcount runs from k*Pn_order to (k+1)*Pn_order. *)
Definition box3_elems (p nei nej nek npi npj : nat) (c : arr nat) : option (arr nat) :=
  for_up 0 nek (fun k => for_up 0 nej (fun j => for_up 0 nei (fun i c =>
    let elem_gid := get_id i j k nei nej in
    option_map fst
     (for_up (k * p) (p + 1) (fun kcount => for_up (j * p) (p + 1) (fun jcount => for_up (i * p) (p + 1)
      (fun icount '(c, this_point) =>
        let node_gid := get_id icount jcount kcount npi npj in
        option_map (fun c' => (c', S this_point)) (aset c elem_gid this_point node_gid)))) (c, O))))) c.

Definition build_3d_box (nei nej nek : nat) (o0 o1 o2 lx ly lz : R) : option mesh :=
  let npi := (nei + 1)%nat in let npj := (nej + 1)%nat in let npk := (nek + 1)%nat in
  let num_nodes := (npi * npj * npk)%nat in
  let dx := lx / INR nei in let dy := ly / INR nej in let dz := lz / INR nek in
  let num_elems := (nei * nej * nek)%nat in
  obind (box3_nodes npi npj npk o0 o1 o2 dx dy dz (new_arr num_nodes 3)) (fun a =>
  obind (box3_elems 1 nei nej nek npi npj (new_arr num_elems 8)) (fun c =>
  Some (mkMesh a c))).

(** ** build_3d_HexN_box, mesh_io.hpp:1720-1877.
    [None] in the first component: the early return for Pn_order > 19 (no mesh is built). *)
Definition build_3d_HexN_box (ncols p nei nej nek : nat) (o0 o1 o2 lx ly lz : R) : option (option mesh) :=
  if Nat.ltb 19 p then Some None else
  let nzi := (p * nei)%nat in let nzj := (p * nej)%nat in let nzk := (p * nek)%nat in
  let npi := (nzi + 1)%nat in let npj := (nzj + 1)%nat in let npk := (nzk + 1)%nat in
  let dx := lx / INR nzi in let dy := ly / INR nzj in let dz := lz / INR nzk in
  let num_elems := (nei * nej * nek)%nat in
  let num_points := (npi * npj * npk)%nat in
  obind (box3_nodes npi npj npk o0 o1 o2 dx dy dz (new_arr num_points 3)) (fun a =>
  obind (box3_elems p nei nej nek npi npj (new_arr num_elems ncols)) (fun c =>
  Some (Some (mkMesh a c)))).

(** ** 2D builders *)

(** convert_point_number_in_quad, mesh_io.hpp:1364-1368 and 1493-1497 *)
Definition convert_quad : list nat := [0; 1; 3; 2]%nat.

(** element loop, mesh_io.hpp:1399-1426 and 1534-1561 *)
Definition quad_elems (nei nej npi npj : nat) (c : arr nat) : option (arr nat) :=
  for_up 0 nej (fun j => for_up 0 nei (fun i c =>
    let elem_gid := get_id i j 0 nei nej in
    option_map fst
     (for_up j 2 (fun jcount => for_up i 2 (fun icount '(c, this_point) =>
        let node_gid := get_id icount jcount 0 npi npj in
        obind (nth_error convert_quad this_point) (fun this_index =>
        option_map (fun c' => (c', S this_point)) (aset c elem_gid this_index node_gid)))) (c, O)))) c.

(** build_2d_box, mesh_io.hpp:1326-1437 *)
Definition box2_nodes (npi npj : nat) (o0 o1 dx dy : R) (a : arr R) : option (arr R) :=
  for_up 0 npj (fun j => for_up 0 npi (fun i a =>
    let node_gid := get_id i j 0 npi npj in
    obind (aset a node_gid 0 (o0 + INR i * dx)) (fun a =>
    aset a node_gid 1 (o1 + INR j * dy)))) a.

Definition build_2d_box (nei nej : nat) (o0 o1 lx ly : R) : option mesh :=
  let npi := (nei + 1)%nat in let npj := (nej + 1)%nat in
  let num_nodes := (npi * npj)%nat in
  let dx := lx / INR nei in let dy := ly / INR nej in
  let num_elems := (nei * nej)%nat in
  obind (box2_nodes npi npj o0 o1 dx dy (new_arr num_nodes 2)) (fun a =>
  obind (quad_elems nei nej npi npj (new_arr num_elems 4)) (fun c =>
  Some (mkMesh a c))).

(** build_2d_polar, mesh_io.hpp:1452-1572.  The loop state is [None] once
    std::runtime_error has been thrown (line 1522). *)
Definition polar_nodes (npi npj : nat) (o0 o1 inner start dx dy : R) (a : arr R) : option (option (arr R)) :=
  for_up 0 npj (fun j => for_up 0 npi (fun i st =>
    match st with
    | None => Some None
    | Some a =>
      let node_gid := get_id i j 0 npi npj in
      let r_i := inner + INR i * dx in
      let theta_j := start + INR j * dy in
      obind (aset a node_gid 0 (o0 + r_i * cos theta_j)) (fun a =>
      obind (aset a node_gid 1 (o1 + r_i * sin theta_j)) (fun a =>
      obind (aget a node_gid 0) (fun x =>
      if Rlt_dec x 0 then Some None else Some (Some a))))
    end)) (Some a).

(** Outcome [Some None]: the exception. Angles are in degrees, as in the input file. *)
Definition build_2d_polar (nei nej : nat) (o0 o1 inner outer start_deg end_deg : R) : option (option mesh) :=
  let start := PI / 180 * start_deg in let stop := PI / 180 * end_deg in
  let npi := (nei + 1)%nat in let npj := (nej + 1)%nat in
  let num_nodes := (npi * npj)%nat in
  let dx := (outer - inner) / INR nei in let dy := (stop - start) / INR nej in
  let num_elems := (nei * nej)%nat in
  obind (polar_nodes npi npj o0 o1 inner start dx dy (new_arr num_nodes 2)) (fun st =>
  match st with
  | None => Some None
  | Some a => obind (quad_elems nei nej npi npj (new_arr num_elems 4)) (fun c => Some (Some (mkMesh a c)))
  end).
