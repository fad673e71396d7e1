(** What is claimed about the axisymmetric solver, in terms of the mesh, the state and the tallies it prints. *)
From Verif Require Import BaseReal GeomModel GeomSpec SghModel SghSpec RzModel.
Local Open Scope R_scope.

(** *** Geometry *)

(** the four triangles spanned by an edge and the mean of the vertices are not inverted *)
Definition fan (x y : nat -> R) : Prop :=
  let rc := (y 0%nat + y 1%nat + y 2%nat + y 3%nat) / 4 in
  let zc := (x 0%nat + x 1%nat + x 2%nat + x 3%nat) / 4 in
  let T i j := tri_area (x i) (y i) (x j) (y j) zc rc in
  0 <= T 0%nat 1%nat /\ 0 <= T 1%nat 2%nat /\ 0 <= T 2%nat 3%nat /\ 0 <= T 3%nat 0%nat.

(** element e is such a quadrilateral, has area, and a volume above the floor of the volume routine *)
Definition good_quad (m : mesh3) (x : nat -> nat -> R) (e : nat) : Prop :=
  fan (gather m x e 0) (gather m x e 1) /\ 0 < area_quad (gather m x e 0) (gather m x e 1) /\
  1e-14 <= vol_quad_raw (gather m x e 0) (gather m x e 1).

Definition radius (s : sgh) (n : nat) : R := s_x s n 1%nat.

(** *** Tallies *)

(** [ext n]: mass of node n per radian *)
Definition total_energy_rz (m : mesh3) (L : layout) (ext : nat -> R) (s : sgh) : R :=
  suml (fun p => s_mass s (fst p) (snd p) * s_sie s (fst p) (snd p)) (points L)
  + / 2 * sumn (num_nodes m) (fun n => ext n * sumn 2 (fun d => s_v s n d ^ 2)).

Definition axial_momentum (m : mesh3) (ext : nat -> R) (s : sgh) : R := sumn (num_nodes m) (fun n => ext n * s_v s n 0%nat).

(** every node has areal mass, and its mass per radian is areal mass times radius *)
Definition axis_ok (m : mesh3) (ext : nat -> R) (s : sgh) : Prop :=
  forall n, (n < num_nodes m)%nat -> s_nmass s n <> 0 /\ ext n = s_nmass s n * radius s n.

(** positions in which every node is either clear of the axis, or is a boundary node sitting exactly on it, without
    mass per radian and next to a node that is clear of the axis *)
Definition clear_or_on_axis (mr : mesh_rz) (tiny : R) (ext : nat -> R) (x : nat -> nat -> R) : Prop :=
  forall n, (n < num_nodes (rz_mesh mr))%nat ->
    (tiny < x n 1%nat /\ ext n <> 0) \/
    (x n 1%nat = 0 /\ ext n = 0 /\ In n (bdy_nodes mr) /\ exists k, In k (nodes_in_node mr n) /\ tiny < x k 1%nat /\ 0 < ext k).

(** *** Forces *)

(** force of one material point on local corner l of its element: minus the in-plane stress times the outward normal, the
    hoop terms spread with the corner areas over the mean radius, and artificial viscosity; nothing once eroded *)
Definition contribution_rz (m : mesh3) (L : layout) (M : models) (s : sgh) (p : nat * nat) (l d : nat) : R :=
  let e := point_elem L p in
  let hoop := if Nat.eqb d 0 then cauchy M s p 1 0 else cauchy M s p 1 1 - cauchy M s p 2 2 in
  if s_eroded s (fst p) (snd p) then 0
  else s_volfrac s (fst p) (snd p) * s_geo s (fst p) (snd p) *
       (dissipation M s (fst p) (snd p) l d
        - sumn 2 (fun k => quad_bmat m (s_x s) e l k * cauchy M s p k d)
        + hoop * quad_corner_area m (s_x s) e l * / (s_vol s e / quad_area m (s_x s) e)).

(** the artificial viscosity exerts no net axial force on an element of revolution *)
Definition axially_balanced (m : mesh3) (L : layout) (M : models) : Prop := forall s p, In p (points L) ->
  sumn 4 (fun l => radius s (nodes_in m (point_elem L p) l) * dissipation M s (fst p) (snd p) l 0) = 0.

(** the elements around node n close up: the nodes following n in its elements are the nodes preceding n *)
Definition next4 (l : nat) : nat := match l with 3%nat => 0%nat | _ => S l end.
Definition prev4 (l : nat) : nat := match l with 0%nat => 3%nat | S k => k end.

Definition ring_closed (m : mesh3) (n : nat) : Prop :=
  let around := filter (fun p => Nat.eqb (nodes_in m (fst p) (snd p)) n) (elem_corners (num_elems m) 4) in
  Permutation.Permutation (map (fun p => nodes_in m (fst p) (next4 (snd p))) around)
                          (map (fun p => nodes_in m (fst p) (prev4 (snd p))) around).

(** every material point is at pressure P and carries no other stress *)
Definition uniform_pressure (L : layout) (M : models) (s : sgh) (P : R) : Prop := forall p i j, In p (points L) ->
  s_eroded s (fst p) (snd p) = false /\ cauchy M s p i j = if Nat.eqb i j then - P else 0.

(** in every element the materials together fill the volume *)
Definition elements_filled (m : mesh3) (L : layout) (s : sgh) : Prop := forall e, (e < num_elems m)%nat ->
  suml (fun p => if Nat.eqb (point_elem L p) e then s_volfrac s (fst p) (snd p) * s_geo s (fst p) (snd p) else 0) (points L) = 1.

(** the artificial viscosity is not acting *)
Definition no_viscosity (L : layout) (M : models) (s : sgh) : Prop := forall vg p l d, In p (points L) ->
  dissipation M (set_velgrad vg s) (fst p) (snd p) l d = 0.

(** component d of node n is either free, with elements all around, or held fixed *)
Definition held (M : models) (m : mesh3) (n d : nat) : Prop :=
  (ring_closed m n /\ forall s', bdy_velocity M s' n d = s_v s' n d) \/ (forall s', bdy_velocity M s' n d = 0).

(** *** Runs *)

Definition after_stages_rz (mr : mesh_rz) (L : layout) (Ms : nat -> models) (tiny : R) (ext : nat -> R) (N : nat) (dt : R) (s : sgh) (k : nat) : sgh :=
  fold_left (fun s k => rk_stage_rz mr L (Ms k) tiny ext (rk_alpha N k) dt s) (seq 0 k) (set_start s).

(** states in which the stages of a run start *)
Definition stage_start (mr : mesh_rz) (L : layout) (tiny : R) (ext : nat -> R) (N : nat) (cycles : list (R * (nat -> models))) (s t : sgh) : Prop :=
  exists pre dt Ms post k, cycles = pre ++ (dt, Ms) :: post /\ (k < N)%nat /\
    t = after_stages_rz mr L Ms tiny ext N dt (run_rz mr L tiny ext N pre s) k.
