(** Filling the mesh with regions: geometry tests, voxel files, per-element fill lists, painted initial fields.
    All paths relative to /repo/apps/multiphysics/src; unless said otherwise the file is common/src/region_fill.cpp. *)
From Coq Require Export Reals ZArith List Bool Arith Lra Lia.
From Verif Require Export BaseReal.
Export ListNotations.
Open Scope R_scope.

(** ** Values and outcomes *)

(** A double that may be not-a-number, or never assigned. *)
Inductive val := Num (x : R) | NaN | Undef.
Definition vsqrt (x : R) : val := if Rlt_dec x 0 then NaN else Num (sqrt x).
Definition vscale (s : R) (v : val) : val := match v with Num x => Num (s * x) | w => w end.

Inductive outcome (A : Type) := Ok (a : A) | Abort | UB.
Arguments Ok {A} a.
Arguments Abort {A}.
Arguments UB {A}.
Definition bind {A B} (x : outcome A) (f : A -> outcome B) : outcome B :=
  match x with Ok a => f a | Abort => Abort | UB => UB end.
Fixpoint run_list {A S} (l : list A) (body : A -> S -> outcome S) (s : S) : outcome S :=
  match l with
  | [] => Ok s
  | x :: l => bind (body x s) (run_list l body)
  end.

(** ** Regions *)

(** vol_tag, common/include/region.hpp:50-62; tags no case of the switch handles are [VOther]. *)
Inductive vol_tag := VNone | VGlobal | VBox | VCylinder | VSphere | VVoxel | VVtu | VOther.
(** init_scalar_conds and init_vector_conds, common/include/initial_conditions.hpp:42-86. *)
Inductive scalar_conds := SNone | SUniform | SRadial | SSpherical | SXLinear | SYLinear | SZLinear | STgVortex.
Inductive vector_conds := UNone | UStationary | UCartesian | URadial | USpherical | URadialLinear | USphericalLinear | UTgVortex.

(** RegionFill_t, region.hpp:84-183: the geometry, the material and the volume fraction. *)
Record region := mkRegion {
  rg_volume : vol_tag; rg_material : nat;
  rg_x1 : R; rg_x2 : R; rg_y1 : R; rg_y2 : R; rg_z1 : R; rg_z2 : R; rg_radius1 : R; rg_radius2 : R;
  rg_origin : nat -> R; rg_part_id : Z;
  rg_vf_field : scalar_conds; rg_vf : R; rg_vf_slope : R; rg_vf_origin : nat -> R }.

(** ** Integer conversions *)

(** A C++ int; conversions and arithmetic outside its range are undefined behaviour. *)
Definition int_limit : Z := 2147483648%Z.
Definition int_ok (z : Z) : option Z := if (Z.leb (- int_limit) z && Z.ltb z int_limit)%bool then Some z else None.
(** (int)x : truncation towards zero. *)
Definition trunc (x : R) : Z := if Rle_dec 0 x then Int_part x else (- Int_part (- x))%Z.
Definition to_int (x : R) : option Z := int_ok (trunc x).
Definition ob {A B} (x : option A) (f : A -> option B) : option B := match x with Some a => f a | None => None end.
Definition int_add (a b : Z) : option Z := int_ok (a + b).
Definition int_mul (a b : Z) : option Z := int_ok (a * b).
(** get_id_device, common/include/mesh_io.hpp:152-155 *)
Definition get_id_device (i j k num_i num_j : Z) : option Z :=
  ob (int_mul j num_i) (fun jn => ob (int_add i jn) (fun a =>
  ob (int_mul k num_i) (fun kn => ob (int_mul kn num_j) (fun b => int_add a b)))).

(** ** Voxel files *)

(** The loops that read the coordinates and the cell values, 1003-1016 and 1195-1214: whole lines are read
    until at least n-1 values are stored; storing past the array (n values) is out of bounds ([None]), and so is
    running out of lines (the conversion of an empty word throws).  A line is the list of its values. *)
Fixpoint read_values (n : nat) (lines : list (list R)) (saved : list R) : option (list R * list (list R)) :=
  if Nat.ltb (length saved) (n - 1) then
    match lines with
    | [] => None
    | l :: ls => if Nat.leb (length saved + length l) n then read_values n ls (saved ++ l) else None
    end
  else Some (saved, lines).

Record voxels := mkVoxels {
  vx_values : list nat; vx_dx : R; vx_dy : R; vx_dz : R; vx_ox : R; vx_oy : R; vx_oz : R; vx_ni : nat; vx_nj : nat; vx_nk : nat }.

(** Spacing and origin along one direction from n point coordinates, user_voxel_init 1141-1164; [None]: fewer than two points,
    or a zero spacing is left as it is. *)
Definition voxel_axis (n : nat) (pt : nat -> R) : R * R :=
  let L := pt (n - 2)%nat - pt 0%nat in
  (L / INR (n - 1), 0.5 * (pt 0%nat + pt 1%nat)).
Definition voxel_init (ni nj nk : nat) (px py pz : nat -> R) (values : list nat) : voxels :=
  let '(dx, ox) := voxel_axis ni px in
  let '(dy, oy) := voxel_axis nj py in
  let '(dz, oz) := voxel_axis nk pz in
  mkVoxels values dx dy dz ox oy oz (ni - 1) (nj - 1) (nk - 1).

(** A division by a zero spacing gives infinity or not-a-number, whose conversion to int is undefined. *)
Definition voxel_index (x orig shift dx : R) : option Z :=
  if Req_EM_T dx 0 then None else to_int ((x - orig - shift) / dx).

(** The voxel branch of fill_geometric_region, 1331-1362. *)
Definition voxel_lookup (v : voxels) (r : region) (c : nat -> R) : option nat :=
  ob (voxel_index (c 0%nat) (vx_ox v) (rg_origin r 0%nat) (vx_dx v)) (fun i =>
  ob (voxel_index (c 1%nat) (vx_oy v) (rg_origin r 1%nat) (vx_dy v)) (fun j =>
  ob (voxel_index (c 2%nat) (vx_oz v) (rg_origin r 2%nat) (vx_dz v)) (fun k =>
  ob (get_id_device i j k (Z.of_nat (vx_ni v)) (Z.of_nat (vx_nj v))) (fun id =>
  if (Z.leb 0 id && Z.ltb id (Z.of_nat (length (vx_values v))) && Z.leb 0 i && Z.leb 0 j && Z.leb 0 k
      && Z.ltb i (Z.of_nat (vx_ni v)) && Z.ltb j (Z.of_nat (vx_nj v)) && Z.ltb k (Z.of_nat (vx_nk v)))%bool
  then Some (nth (Z.to_nat id) (vx_values v) 0%nat) else Some 0%nat)))).

(** ** Geometry: fill_geometric_region, 1246-1392 *)
Definition rle (x y : R) : bool := if Rle_dec x y then true else false.
Definition fill_geometric_region (v : voxels) (object_id : Z) (r : region) (c : nat -> R) : option nat :=
  let dist d := c d - rg_origin r d in
  let radius := sqrt (dist 0%nat * dist 0%nat + dist 1%nat * dist 1%nat + dist 2%nat * dist 2%nat) in
  let radius_cyl := sqrt (dist 0%nat * dist 0%nat + dist 1%nat * dist 1%nat) in
  match rg_volume r with
  | VGlobal => Some 1%nat
  | VBox =>
    Some (if (rle (rg_x1 r) (c 0%nat) && rle (c 0%nat) (rg_x2 r) && rle (rg_y1 r) (c 1%nat) && rle (c 1%nat) (rg_y2 r)
              && rle (rg_z1 r) (c 2%nat) && rle (c 2%nat) (rg_z2 r))%bool then 1 else 0)%nat
  | VCylinder =>
    Some (if (rle (rg_radius1 r) radius_cyl && rle radius_cyl (rg_radius2 r) && rle (rg_z1 r) (c 2%nat) && rle (c 2%nat) (rg_z2 r))%bool then 1 else 0)%nat
  | VSphere => Some (if (rle (rg_radius1 r) radius && rle radius (rg_radius2 r))%bool then 1 else 0)%nat
  | VVoxel => voxel_lookup v r c
  | VVtu => Some (if Z.eqb object_id (rg_part_id r) then 1 else 0)%nat
  | VNone | VOther => Some 0%nat
  end.

(** The element centre, 343-365: the average of the nodes, with third coordinate zero in 2D. *)
Definition elem_center (num_dims num_nodes_in_elem : nat) (x : nat -> nat -> R) (d : nat) : R :=
  match d with
  | 0%nat | 1%nat => sumn num_nodes_in_elem (fun n => x n d) / INR num_nodes_in_elem
  | 2%nat => (if Nat.eqb num_dims 3 then sumn num_nodes_in_elem (fun n => x n d) else 0) / INR num_nodes_in_elem
  | _ => 0
  end.

(** ** Scalar fields: get_region_scalar, 1484-1580.  The radial and spherical cases do not use the origin. *)
Definition get_region_scalar (c : nat -> R) (scalar slope : R) (orig : nat -> R) (field : scalar_conds) : val :=
  match field with
  | SUniform => Num scalar
  | SRadial => vscale slope (vsqrt (c 0%nat * c 0%nat + c 1%nat * c 1%nat - scalar))
  | SSpherical => vscale slope (vsqrt (c 0%nat * c 0%nat + c 1%nat * c 1%nat + c 2%nat * c 2%nat - scalar))
  | SXLinear => Num (slope * c 0%nat + scalar)
  | SYLinear => Num (slope * c 1%nat + scalar)
  | SZLinear => Num (slope * c 2%nat + scalar)
  | STgVortex | SNone => Undef
  end.
(** fmin(1, fmax(0, v)), 394-395; fmax returns the number when one argument is not-a-number. *)
Definition clamp_vf (v : val) : option R :=
  match v with
  | Num x => Some (fmin 1 (fmax 0 x))
  | NaN => Some 0
  | Undef => None
  end.

(** ** Fill lists of an element *)

(** What is stored in one slot: elem_fill_ids, elem_volfrac and elem_geo_volfrac. *)
Record slot := mkSlot { sl_fill : nat; sl_vf : R; sl_geo : R }.
Record efill := mkEfill { ef_num : nat; ef_slot : nat -> slot }.
Definition efill0 : efill := mkEfill 0 (fun _ => mkSlot 0 0 0).
Definition set_slot (f : nat -> slot) (i : nat) (s : slot) : nat -> slot := fun j => if Nat.eqb j i then s else f j.

Definition mat_of (rf : list region) (f : nat) : outcome nat :=
  match nth_error rf f with Some r => Ok (rg_material r) | None => UB end.

(** The search for an existing slot of the material, 1436-1447: it looks at region_fills(a_fill) for the slot number a_fill. *)
Definition search (rf : list region) (mat num : nat) : outcome (nat * bool) :=
  run_list (seq 0 num) (fun a st => bind (mat_of rf a) (fun m => Ok (if Nat.eqb mat m then (a, true) else st))) (num, false).

(** append_fills_in_elem, 1407-1466; max_num_mats_per_elem-1 wraps for 0, so the abort test is never true then. *)
Definition append_fill (rf : list region) (max fid : nat) (vf geo : R) (st : efill) : outcome efill :=
  if (Nat.ltb 0 max && Nat.leb max (ef_num st))%bool then Abort else
  bind (mat_of rf fid) (fun mat =>
  bind (search rf mat (ef_num st)) (fun found =>
  let '(lid, exists_) := found in
  if Nat.ltb lid max then
    Ok (mkEfill (if exists_ then ef_num st else S (ef_num st)) (set_slot (ef_slot st) lid (mkSlot fid vf geo)))
  else UB)).

(** The geometry of the mesh as the fills see it: element centres, object ids, and the voxels read for each fill. *)
Record scene := mkScene { sc_center : nat -> nat -> R; sc_object : nat -> Z; sc_voxels : nat -> voxels }.

(** The body of the element loop for one fill, 339-438. *)
Definition fill_elem (rf : list region) (max : nat) (sc : scene) (fid e : nat) (st : efill) : outcome efill :=
  match nth_error rf fid with
  | None => UB
  | Some r =>
    match fill_geometric_region (sc_voxels sc fid) (sc_object sc e) r (sc_center sc e) with
    | None => UB
    | Some 1%nat =>
      match clamp_vf (get_region_scalar (sc_center sc e) (rg_vf r) (rg_vf_slope r) (rg_vf_origin r) (rg_vf_field r)) with
      | None => UB
      | Some vf =>
        if Rlt_dec (1 * vf) (1 - 1e-8) then append_fill rf max fid vf 1 st
        else if Nat.ltb 0 max then Ok (mkEfill 1 (set_slot (ef_slot st) 0 (mkSlot fid 1 1))) else UB
      end
    | Some _ => Ok st
    end
  end.

(** fill_regions, 314-442: fills in order; for each fill a parallel loop over the elements in some order. *)
Definition upd (f : nat -> efill) (e : nat) (s : efill) : nat -> efill := fun x => if Nat.eqb x e then s else f x.
Definition fill_regions (rf : list region) (max : nat) (sc : scene) (order : nat -> list nat) : outcome (nat -> efill) :=
  run_list (seq 0 (length rf)) (fun fid st =>
    run_list (order fid) (fun e st => bind (fill_elem rf max sc fid e (st e)) (fun s => Ok (upd st e s))) st)
    (fun _ => efill0).

(** elem_mat_id, 455: the materials of an element after all fills. *)
Definition elem_mats (rf : list region) (st : efill) : outcome (list nat) :=
  run_list (seq 0 (ef_num st)) (fun bin l => bind (mat_of rf (sl_fill (ef_slot st bin))) (fun m => Ok (l ++ [m]))) [].

(** ** Painting *)

(** paint_multi_scalar, 1602-1692: the value written, [None] when nothing is written. *)
Definition paint_multi_scalar (num_dims : nat) (c : nat -> R) (scalar slope : R) (orig : nat -> R) (field : scalar_conds) : option R :=
  let sq d := (c d - orig d) * (c d - orig d) in
  match field with
  | SUniform => Some scalar
  | SRadial => Some (slope * sqrt (sumn 2 sq) - scalar * scalar)
  | SSpherical => Some (slope * sqrt (sumn num_dims sq) - scalar)
  | SXLinear => Some (slope * c 0%nat + scalar)
  | SYLinear => Some (slope * c 1%nat + scalar)
  | SZLinear => Some (slope * c 2%nat + scalar)
  | STgVortex | SNone => None
  end.

(** The direction used by the radial and spherical paints, e.g. 1907-1925. *)
Definition unit_dir (n : nat) (c : nat -> R) (d : nat) : R :=
  let radius := sqrt (sumn n (fun i => c i * c i)) in
  if Rlt_dec 1e-14 radius then c d / radius else 0.

(** paint_scalar, 1707-1806: the radial case writes twice, so the second direction component stays. *)
Definition paint_scalar (c : nat -> R) (scalar slope : R) (field : scalar_conds) : option R :=
  match field with
  | SUniform => Some scalar
  | SRadial => Some (scalar * unit_dir 2 c 1)
  | SSpherical => Some (scalar * sqrt (sumn 3 (fun i => c i * c i)))
  | SXLinear => Some (slope * c 0%nat + scalar)
  | SYLinear => Some (slope * c 1%nat + scalar)
  | SZLinear => Some (slope * c 2%nat + scalar)
  | STgVortex | SNone => None
  end.

(** paint_vector, 1826-1960: the components written (the third only in 3D). PI is the mathematical constant. *)
Definition paint_vector (c : nat -> R) (u v w scalar : R) (field : vector_conds) : option (R * R * R) :=
  match field with
  | UCartesian => Some (u, v, w)
  | URadial => Some (scalar * unit_dir 2 c 0, scalar * unit_dir 2 c 1, 0)
  | USpherical => Some (scalar * unit_dir 3 c 0, scalar * unit_dir 3 c 1, scalar * unit_dir 3 c 2)
  | UTgVortex => Some (sin (PI * c 0%nat) * cos (PI * c 1%nat), -1 * cos (PI * c 0%nat) * sin (PI * c 1%nat), 0)
  | UStationary => Some (0, 0, 0)
  | URadialLinear | USphericalLinear | UNone => None
  end.

(** The coordinates a paint sees: a view of three numbers starting at node_coords(node,0), 565; in 2D the third number
    is the first coordinate of the next node, and out of bounds for the last node. *)
Definition node_view (num_dims num_nodes : nat) (x : nat -> nat -> R) (node d : nat) : option R :=
  let flat := (node * num_dims + d)%nat in
  if Nat.ltb flat (num_nodes * num_dims) then Some (x (flat / num_dims)%nat (flat mod num_dims)%nat) else None.

(** Painting of nodal data, 555-601: elements in some order, their slots, their nodes; [value] is what the region of the
    slot paints on a node. *)
Definition paint_nodes {V} (nodes_in_elem : nat -> list nat) (slots : nat -> list nat) (value : nat -> nat -> option V)
  (order : list nat) (field : nat -> V) : nat -> V :=
  fold_left (fun f e => fold_left (fun f fid => fold_left (fun f n =>
    match value fid n with Some v => fun x => if Nat.eqb x n then v else f x | None => f end) (nodes_in_elem e) f) (slots e) f) order field.
