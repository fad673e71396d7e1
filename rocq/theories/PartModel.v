(** Model of the mesh of one material written to a graphics file: MeshWriter::build_material_elem_node_lists,
    /repo/apps/multiphysics/src/common/include/mesh_io.hpp:4590-4668, and its call in write_mesh, 2754-2774.
    Reads and writes outside an array, and reads of entries never written, are [None].  The two FOR_ALL loops run in an
    arbitrary order of their (element, local node) pairs (the increments of the first one are atomic).  Host and device copies
    are one array. *)
From Verif Require Import BaseArr.

(** the pairs (mat_elem_sid, node_lid) of the loops 4611-4624 and 4653-4666, in program order *)
Definition part_corners (n nn : nat) : list (nat * nat) := flat_map (fun sid => map (fun l => (sid, l)) (seq 0 nn)) (seq 0 n).

(** elem_in_mat_elem(mat_id, sid) and mesh.nodes_in_elem(elem, lid), read with the table sizes checked *)
Definition part_node (nnodes ne nn : nat) (nodes : nat -> nat -> nat) (elems : list nat) (sid l : nat) : option nat :=
  obind (nth_error elems sid) (fun e =>
  if Nat.ltb e ne && Nat.ltb l nn then (if Nat.ltb (nodes e l) nnodes then Some (nodes e l) else None) else None).

(** 4611-4624: dummy_counter *)
Definition tag_nodes (nnodes ne nn : nat) (nodes : nat -> nat -> nat) (elems : list nat) (order : list (nat * nat)) : option (nat -> nat) :=
  for_each order (fun '(sid, l) counter =>
    obind (part_node nnodes ne nn nodes elems sid l) (fun n => Some (fun x => if Nat.eqb x n then S (counter x) else counter x)))
    (fun _ => O).

(** the writes of one node, 4635-4639 *)
Definition coord_writes {A} (dims : nat) (x : nat -> nat -> A) (k n : nat) : list (write A) :=
  (k, 0, x n 0) :: (k, 1, x n 1) :: (if Nat.eqb dims 3 then [(k, 2, x n 2)] else []).

(** 4629-4648: coordinates, access_mat_node_gids and the next number *)
Definition number_nodes {A} (nnodes dims : nat) (x : nat -> nat -> A) (counter : nat -> nat) : option (arr A * (nat -> option nat) * nat) :=
  for_up 0 nnodes (fun n '(coords, access, k) =>
    if Nat.ltb 0 (counter n) then
      obind (do_writes (coord_writes dims x k n) coords) (fun coords =>
      Some (coords, fun y => if Nat.eqb y n then Some k else access y, S k))
    else Some (coords, access, k))
    (new_arr nnodes dims, fun _ => None, O).

(** what is handed to the file writer: num_mat_nodes, mat_node_coords, mat_nodes_in_mat_elem *)
Record part (A : Type) := mkPart { p_num : nat; p_coords : arr A; p_conn : arr nat }.
Arguments mkPart {A}. Arguments p_num {A}. Arguments p_coords {A}. Arguments p_conn {A}.

(** 4653-4666 *)
Definition connect (nnodes ne nn : nat) (nodes : nat -> nat -> nat) (elems : list nat) (access : nat -> option nat)
  (order : list (nat * nat)) : option (arr nat) :=
  for_each order (fun '(sid, l) conn =>
    obind (part_node nnodes ne nn nodes elems sid l) (fun n => obind (access n) (fun k => aset conn sid l k)))
    (new_arr (length elems) nn).

(** build_material_elem_node_lists; [elems] is row mat_id of elem_in_mat_elem *)
Definition build_part {A} (nnodes ne nn dims : nat) (nodes : nat -> nat -> nat) (x : nat -> nat -> A) (elems : list nat)
  (order1 order2 : list (nat * nat)) : option (part A) :=
  obind (tag_nodes nnodes ne nn nodes elems order1) (fun counter =>
  obind (number_nodes nnodes dims x counter) (fun '(coords, access, k) =>
  obind (connect nnodes ne nn nodes elems access order2) (fun conn => Some (mkPart k coords conn)))).
