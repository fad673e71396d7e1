(** Model of the index functions and of the file reader/writer node orderings in
    common/include/mesh_io.hpp (paths relative to /repo/apps/multiphysics/src/).
    C [int] is modelled by [Z] without overflow. *)
From Coq Require Import ZArith List Bool.
From Verif Require Import BaseArr.
Import ListNotations.
Local Open Scope Z_scope.


(** C truth value of an int. *)
Definition nz (x : Z) : bool := negb (x =? 0).

(** PointIndexFromIJK, mesh_io.hpp:89-132; order = (o0,o1,o2). *)
Definition PointIndexFromIJK (i j k o0 o1 o2 : Z) : Z :=
  let ibdy := (i =? 0) || (i =? o0) in
  let jbdy := (j =? 0) || (j =? o1) in
  let kbdy := (k =? 0) || (k =? o2) in
  let nbdy := (if ibdy then 1 else 0) + (if jbdy then 1 else 0) + (if kbdy then 1 else 0) in
  if nbdy =? 3 then
    (if nz i then (if nz j then 2 else 1) else (if nz j then 3 else 0)) + (if nz k then 4 else 0)
  else
  let offset := 8 in
  if nbdy =? 2 then
    if negb ibdy then
      (i - 1) + (if nz j then o0 - 1 + o1 - 1 else 0) + (if nz k then 2 * (o0 - 1 + o1 - 1) else 0) + offset
    else if negb jbdy then
      (j - 1) + (if nz i then o0 - 1 else 2 * (o0 - 1) + o1 - 1) + (if nz k then 2 * (o0 - 1 + o1 - 1) else 0) + offset
    else
      let offset := offset + (4 * (o0 - 1) + 4 * (o1 - 1)) in
      (k - 1) + (o2 - 1) * (if nz i then (if nz j then 3 else 1) else (if nz j then 2 else 0)) + offset
  else
  let offset := offset + 4 * (o0 - 1 + o1 - 1 + o2 - 1) in
  if nbdy =? 1 then
    if ibdy then
      (j - 1) + ((o1 - 1) * (k - 1)) + (if nz i then (o1 - 1) * (o2 - 1) else 0) + offset
    else
      let offset := offset + 2 * (o1 - 1) * (o2 - 1) in
      if jbdy then
        (i - 1) + ((o0 - 1) * (k - 1)) + (if nz j then (o2 - 1) * (o0 - 1) else 0) + offset
      else
        let offset := offset + 2 * (o2 - 1) * (o0 - 1) in
        (i - 1) + ((o0 - 1) * (j - 1)) + (if nz k then (o0 - 1) * (o1 - 1) else 0) + offset
  else
    let offset := offset + 2 * ((o1 - 1) * (o2 - 1) + (o2 - 1) * (o0 - 1) + (o0 - 1) * (o1 - 1)) in
    offset + (i - 1) + (o0 - 1) * ((j - 1) + (o1 - 1) * (k - 1)).

(** The (i,j,k) triples in the order of the loops "for k, for j, for i" (i fastest),
    mesh_io.hpp:1195-1197 and 4271-4273. *)
Definition ijk_loop (p : nat) : list (nat * nat * nat) :=
  flat_map (fun k => flat_map (fun j => map (fun i => (i, j, k)) (seq 0 (p + 1))) (seq 0 (p + 1))) (seq 0 (p + 1)).

(** Local VTK index of a lattice point of an order-p hexahedron, as the loops call it. *)
Definition vtk_lid (p : nat) (t : nat * nat * nat) : Z :=
  let '(i, j, k) := t in
  PointIndexFromIJK (Z.of_nat i) (Z.of_nat j) (Z.of_nat k) (Z.of_nat p) (Z.of_nat p) (Z.of_nat p).

(** Checked access with a (possibly negative) C index. *)
Definition znth {A} (l : list A) (i : Z) : option A :=
  if i <? 0 then None else nth_error l (Z.to_nat i).

Fixpoint omap {A B} (f : A -> option B) (l : list A) : option (list B) :=
  match l with
  | [] => Some []
  | x :: r => obind (f x) (fun y => option_map (cons y) (omap f r))
  end.

(** MeshWriter::write_vtu, 3D with Pn_order > 1, one element: mesh_io.hpp:4271-4278.
    The stream of node ids printed for the element with node list [nodes]. *)
Definition write_pn_elem (p : nat) (nodes : list nat) : option (list nat) :=
  omap (fun t => znth nodes (vtk_lid p t)) (ijk_loop p).

(** Array write with bounds check. *)
Fixpoint lset {A} (l : list A) (n : nat) (v : A) : option (list A) :=
  match l, n with
  | [], _ => None
  | _ :: r, O => Some (v :: r)
  | x :: r, S m => option_map (cons x) (lset r m v)
  end.
Definition zset {A} (l : list A) (i : Z) (v : A) : option (list A) :=
  if i <? 0 then None else lset l (Z.to_nat i) v.

(** MeshReader::read_vtu_mesh, arbitrary_hex: table convert_pn_vtk_to_ijk, mesh_io.hpp:1194-1212
    ([this_node] counts the loop iterations; the table starts zero-filled by the allocator,
    modelled as [None] = not yet written). *)
Definition convert_pn (p : nat) : option (list (option nat)) :=
  option_map fst
    (for_each (ijk_loop p)
       (fun t '(tab, this_node) =>
          option_map (fun tab' => (tab', S this_node)) (zset tab (vtk_lid p t) (Some this_node)))
       (repeat None ((p + 1) * (p + 1) * (p + 1)), O)).

(** read_vtu_mesh, arbitrary_hex, one element: mesh_io.hpp:1219-1221. *)
Definition read_pn_elem (p : nat) (conn : list nat) : option (list nat) :=
  obind (convert_pn p) (fun tab =>
    omap (fun node_lid => obind (nth_error tab node_lid) (fun e => obind e (fun n => nth_error conn n)))
         (seq 0 ((p + 1) * (p + 1) * (p + 1)))).

(** convert_ensight_to_ijk: mesh_io.hpp:499-507 (read_ensight_mesh), 846-854 (read_vtk_mesh),
    1169-1176 (read_vtu_mesh, linear_hex). *)
Definition ensight_to_ijk : list nat := [0; 1; 3; 2; 4; 5; 7; 6]%nat.

(** read_ensight_mesh / read_vtk_mesh: mesh_io.hpp:511-519, 858-866: re-ordering of one element
    with [length nodes] nodes per element (8 in 3D, 4 in 2D; the table is used for both). *)
Definition reorder_elem {A} (nodes : list A) : option (list A) :=
  omap (fun node_lid => obind (nth_error ensight_to_ijk node_lid) (fun n => nth_error nodes n))
       (seq 0 (length nodes)).

(** read_vtu_mesh, linear_quad and linear_hex_ijk: no reordering, mesh_io.hpp:1138-1163. *)
Definition read_vtu_raw {A} (nodes : list A) : list A := nodes.
