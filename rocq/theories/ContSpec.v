(** What the contact search and the contact forces should do, stated without the code's arrays and loops. *)
From Coq Require Import Reals List.
From Verif Require Import BaseArr BaseReal FracModel ContModel.
Local Open Scope R_scope.

(** the cube of the grid with indices c: closed below, open above *)
Definition in_cell (g : grid) (c : nat -> nat) (p : vec) : Prop :=
  forall d, (d < 3)%nat -> g_lo g d + INR (c d) * g_size g <= p d < g_lo g d + (INR (c d) + 1) * g_size g.
Definition cell_ok (g : grid) (c : nat -> nat) : Prop := forall d, (d < 3)%nat -> (c d < g_n g d)%nat.
(** a point in a box *)
Definition in_box (lo hi p : vec) : Prop := forall d, (d < 3)%nat -> lo d <= p d <= hi d.

(** the list of nodes stored for bucket b: nbox entries of nsort from position npoint on *)
Definition stored (s : sorted) (b : nat) (l : list nat) : Prop :=
  aget (nbox s) b 0 = Some (length l) /\ exists p, aget (npoint s) b 0 = Some p /\
  forall t, (t < length l)%nat -> aget (nsort s) (p + t) 0 = Some (nth t l O).
(** two boundary nodes are at different places *)
Definition spread_out (x : nat -> vec) (nb : nat) (bdy : nat -> nat) : Prop :=
  exists i j d, (i < nb)%nat /\ (j < nb)%nat /\ (d < 3)%nat /\ x (bdy i) d < x (bdy j) d.
(** a box that meets at most 62 layers of buckets in some direction: either all of the boundary is at most 62/64 as long there as
    in its longest direction (g_size is one 64th of that length), or the box is *)
Definition roomy (g : grid) (lo hi : vec) : Prop :=
  exists d, (d < 3)%nat /\ (g_hi g d - g_lo g d < 62 * g_size g \/ hi d - lo d < 61 * g_size g).

(** a four-sided face: vector area (half the cross product of the diagonals, times two), centre *)
Definition area_vec (q : nat -> vec) : vec := vcross (fun d => q 2%nat d - q 0%nat d) (fun d => q 3%nat d - q 1%nat d).
Definition centre4 (q : nat -> vec) : vec := fun d => (q 0%nat d + q 1%nat d + q 2%nat d + q 3%nat d) / 4.
(** the face is not degenerate and the point is on the inner side of the plane through its centre, or at most 0.01 beyond it *)
Definition not_beyond (q : nat -> vec) (p : vec) : Prop :=
  vmag (area_vec q) <> 0 /\ vdot (fun d => p d - centre4 q d) (area_vec q) < 0.01 * vmag (area_vec q).
(** distance to the plane through the first corner, normal to the vector area, at most r *)
Definition within_plane (q : nat -> vec) (p : vec) (r : R) : Prop :=
  Rabs (vdot (fun d => p d - q 0%nat d) (area_vec q)) <= r * vmag (area_vec q).
Definition opposite (f : nat) : nat := match f with 0%nat => 1 | 1%nat => 0 | 2%nat => 3 | 3%nat => 2 | 4%nat => 5 | _ => 4 end.
(** what "node penetrates patch p" is tested as: on the inner side of the face and of the four round it, and no further from the plane
    of the face than 0.1 (1 in preload) of each of its edges; the element's own nodes do not count *)
Definition deep_in (x : nat -> vec) (nodes_in_elem : nat -> nat -> nat) (pelem pface : nat -> nat) (preload : bool) (p node : nat) : Prop :=
  let X := fun a => x (nodes_in_elem (pelem p) a) in
  let q := fquad X (pface p) in
  (forall h, (h < 6)%nat -> h <> opposite (pface p) -> not_beyond (fquad X h) (x node)) /\
  (forall k, (k < 4)%nat -> within_plane q (x node) ((if preload then 1 else 0.1) * vmag (fun d => q ((k + 1) mod 4)%nat d - q k d))) /\
  (forall k, (k < 8)%nat -> node <> nodes_in_elem (pelem p) k).

(** a parallelepiped with corner o and edges a b c along xi, eta, zeta *)
Definition brick (o a b c : vec) : nat -> vec := fun n d =>
  o d + (1 + s_xi n) / 2 * a d + (1 + s_eta n) / 2 * b d + (1 + s_zeta n) / 2 * c d.
Definition volume (a b c : vec) : R := vdot (vcross a b) c.

(** from the node to its own material: to the mean of the centroids of its elements *)
Definition inward_dir (x : nat -> vec) (nodes_in_elem : nat -> nat -> nat) (elems_in_node : nat -> list nat) (node : nat) : vec := fun d =>
  suml (fun e => sumn 8 (fun a => x (nodes_in_elem e a) d) / 8) (elems_in_node node) / INR (length (elems_in_node node)) - x node d.
(** how much patch p faces the node's material: cosine between the patch's outward normal and the inward direction, over the length of
    the latter; undefined for a degenerate patch or no inward direction *)
Definition facing_value (x : nat -> vec) nodes_in_elem elems_in_node (pelem pface : nat -> nat) (node p : nat) (r : R) : Prop :=
  let A := area_vec (fquad (fun a => x (nodes_in_elem (pelem p) a)) (pface p)) in
  let v := inward_dir x nodes_in_elem elems_in_node node in
  elems_in_node node <> nil /\ vmag A <> 0 /\ vdot v v <> 0 /\ vdot A v = r * (vmag A * vdot v v).
(** eligible: patch of element e that does not face away from the node's own material *)
Definition eligible (x : nat -> vec) nodes_in_elem elems_in_node (pelem pface : nat -> nat) (node : nat) (row : list nat) (e p : nat) : Prop :=
  In p row /\ pelem p = e /\ exists r, facing_value x nodes_in_elem elems_in_node pelem pface node p r /\ - 0.01 < r.
(** distance of the node to the plane of patch p *)
Definition dist_to (x : nat -> vec) nodes_in_elem (pelem pface : nat -> nat) (node p : nat) : R :=
  let q := quad_of x nodes_in_elem pelem pface p in
  Rabs (vdot (fun d => x node d - q 0%nat d) (area_vec q)) / vmag (area_vec q).

(** position at the end of a step with constant force f on a node of mass m *)
Definition end_pos (dt : R) (x v f : vec) (m : R) : vec := fun d => x d + v d * dt + f d / m * (dt * dt) / 2.
