(** Cells of a mesh as the geometry routines see them. *)
From Coq Require Import Reals.
From Verif Require Import BaseReal BaseArr MeshBuildModel GeomModel.
Local Open Scope R_scope.

(** Coordinate [d] of local node [l] of element [e]: node_coords(nodes_in_elem(e,l), d). *)
Definition node_coord (m : mesh) (e l d : nat) : option R :=
  obind (aget (nodes_in_elem m) e l) (fun n => aget (coords m) n d).

(** [x] lists coordinate [d] of the first [n] local nodes of element [e]. *)
Definition gathers (m : mesh) (e n d : nat) (x : nat -> R) : Prop :=
  forall l, (l < n)%nat -> node_coord m e l d = Some (x l).

(** An axis-aligned box in the vertex order of VTK/Ensight hexahedra: bottom face
    counter-clockwise, then top face counter-clockwise. *)
Definition vtk_box (ox oy oz dx dy dz : R) : list (R * R * R) :=
  [ (ox, oy, oz); (ox + dx, oy, oz); (ox + dx, oy + dy, oz); (ox, oy + dy, oz);
    (ox, oy, oz + dz); (ox + dx, oy, oz + dz); (ox + dx, oy + dy, oz + dz); (ox, oy + dy, oz + dz) ].

(** [v] is the volume of element [e] of a 3D mesh. *)
Definition cell_volume (m : mesh) (e : nat) (v : R) : Prop :=
  exists x y z, gathers m e 8 0 x /\ gathers m e 8 1 y /\ gathers m e 8 2 z /\ vol_hex_raw x y z = v.
