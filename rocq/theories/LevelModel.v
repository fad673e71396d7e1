(** Model of the level-set solver (paths relative to /repo/apps/multiphysics/src/Solvers/level_set_solver/src/).
    [double] is [R].  Node, corner and gauss point arrays are total functions of their indices; FOR_ALL loops run in
    increasing order (that the order does not matter is proved in LevelProps).  A division by zero is [None]. *)
From Verif Require Import BaseReal BaseArr GeomModel SghModel MarsModel.
Local Open Scope R_scope.

(** levelSetType, common/include/material.hpp:128-133 *)
Inductive ls_type := NoLevelSet | EvolveFront | AdvectFront.

(** What does not change during a calculation: dimension, mesh, mesh.elems_in_node (see [build_elems] in ThermModel), material
    layout, node coordinates and element volumes (the solver never moves nodes), the materials' level set type and
    normal_velocity. *)
Record lset := mkLset {
  v_dims : nat;
  v_mesh : mesh3;
  v_elems : nat -> list nat;
  v_L : layout;
  v_x : nat -> nat -> R;
  v_vol : nat -> R;                    (* GaussPoints.vol *)
  v_type : nat -> ls_type;
  v_speed : nat -> R                   (* normal_velocity *)
}.

(** nodes_in_elem: hexahedra in 3D, quadrilaterals in 2D *)
Definition v_nn (P : lset) : nat := if Nat.eqb (v_dims P) 3 then 8 else 4.

(** The arrays the solver writes: level_set, level_set_n0, gradient_level_set, node_level_set_vel, corner.normal, corner.volume *)
Record lstate := mkLs {
  l_phi : nat -> R; l_phi0 : nat -> R; l_grad : nat -> nat -> R; l_vel : nat -> nat -> R; l_cn : nat -> nat -> R; l_cv : nat -> R
}.
Definition set_phi v s := mkLs v (l_phi0 s) (l_grad s) (l_vel s) (l_cn s) (l_cv s).
Definition set_phi0 v s := mkLs (l_phi s) v (l_grad s) (l_vel s) (l_cn s) (l_cv s).
Definition set_vel v s := mkLs (l_phi s) (l_phi0 s) (l_grad s) v (l_cn s) (l_cv s).

(** ** nodal_gradient, solver_functions.cpp:54-177 *)

(** solver_functions.cpp:84-108: element size and corner normals as get_bmatrix / get_bmatrix2D return them (no sign change) *)
Definition elem_size (P : lset) (e : nat) : R :=
  if Nat.eqb (v_dims P) 3 then v_vol P e
  else area_quad (gather (v_mesh P) (v_x P) e 0) (gather (v_mesh P) (v_x P) e 1).
Definition area_normal (P : lset) (e : nat) : nat -> nat -> R :=
  if Nat.eqb (v_dims P) 3 then elem_bmat (v_mesh P) (v_x P) e
  else bmat2D (gather (v_mesh P) (v_x P) e 0) (gather (v_mesh P) (v_x P) e 1).

(** solver_functions.cpp:67-128: loop over elements and their corners *)
Definition corner_loop (P : lset) (s : lstate) : lstate :=
  fold_left (fun s '(e, l) =>
      let c := corners_in_elem (v_mesh P) e l in
      mkLs (l_phi s) (l_phi0 s) (l_grad s) (l_vel s) (fupd (l_cn s) c (area_normal P e l))
           (fupd (l_cv s) c (1 / INR (v_nn P) * elem_size P e)))
    (elem_corners (num_elems (v_mesh P)) (v_nn P)) s.

(** magnitude, e.g. solver_functions.cpp:160-167, level_set_boundary.cpp:78-82 *)
Definition mag (nd : nat) (v : nat -> R) : R := sqrt (sumn nd (fun d => v d * v d)).

(** solver_functions.cpp:133-173, one node.  corner_lid runs through corners_in_node and elems_in_node together. *)
Definition node_gradient (P : lset) (fuzz : R) (n : nat) (s : lstate) : option lstate :=
  let ring := combine (corners_in_node (v_mesh P) n) (v_elems P n) in
  let g d := fold_left (fun acc '(c, e) => acc + l_cn s c d * l_phi s e) ring 0 in
  let node_vol := fold_left (fun acc '(c, _) => acc + l_cv s c) ring 0 in
  if Req_EM_T node_vol 0 then None else
  let grad d := g d / node_vol in
  let m := mag (v_dims P) grad in
  if Req_EM_T (m + fuzz) 0 then None else
  Some (mkLs (l_phi s) (l_phi0 s) (fupd (l_grad s) n grad) (fupd (l_vel s) n (fun d => grad d / (m + fuzz))) (l_cn s) (l_cv s)).

Definition nodal_gradient (P : lset) (fuzz : R) (s : lstate) : option lstate :=
  for_up 0 (num_nodes (v_mesh P)) (node_gradient P fuzz) (corner_loop P s).

(** ** boundary_velocity, level_set_boundary.cpp:51-95 *)

(** One velocity boundary set: its nodes and its velocity function, as a function of the node and of the current velocity of
    the node (the functions of the boundary condition models read and write the velocity of their own node only, see BdyModel). *)
Record vel_set := mkVelSet { vs_nodes : list nat; vs_fn : nat -> (nat -> R) -> nat -> R }.

(** lines 67-86: one node *)
Definition bdy_node (P : lset) (small : R) (b : vel_set) (n : nat) (s : lstate) : option lstate :=
  let v := vs_fn b n (l_vel s n) in
  let m := mag (v_dims P) v in
  if Req_EM_T (m + small) 0 then None else Some (set_vel (fupd (l_vel s) n (fun d => v d / (m + small))) s).

Definition boundary_velocity (P : lset) (small : R) (bcs : list vel_set) (s : lstate) : option lstate :=
  for_each bcs (fun b => for_each (vs_nodes b) (bdy_node P small b)) s.

(** ** update_level_set, solver_functions.cpp:202-300 *)

(** lines 236-245: smoothed sign of the level set value; [cbrt] is the cube root of a positive volume *)
Definition delta_x (P : lset) (e : nat) : R :=
  if Nat.eqb (v_dims P) 3 then 2 * cbrt (v_vol P e) else 2 * sqrt (v_vol P e).
Definition signum (P : lset) (phi : R) (e : nat) : R := phi / sqrt (phi * phi + delta_x P e * delta_x P e).

(** lines 257-260 *)
Definition node_HJ (P : lset) (s : lstate) (n : nat) : R := sumn (v_dims P) (fun d => l_vel s n d * l_grad s n d).
(** lines 271-276 *)
Definition corner_weight (P : lset) (s : lstate) (a : R) (e l : nat) : R :=
  fmax 0 (sumn (v_dims P) (fun d => a * l_vel s (nodes_in (v_mesh P) e l) d * l_cn s (corners_in_elem (v_mesh P) e l) d)).

(** lines 222-292, one element *)
Definition update_elem (P : lset) (fuzz alpha dt : R) (mat e : nat) (s : lstate) : option lstate :=
  let front_vel := v_speed P mat in
  if Req_EM_T (sqrt (l_phi s e * l_phi s e + delta_x P e * delta_x P e)) 0 then None else
  let sg := signum P (l_phi s e) e in
  let w l := corner_weight P s (front_vel + sg) e l in
  let sum_weights := fold_left (fun acc l => acc + w l) (seq 0 (v_nn P)) 0 in
  let sum_HJ := fold_left (fun acc l => acc + w l * node_HJ P s (nodes_in (v_mesh P) e l)) (seq 0 (v_nn P)) 0 in
  if Req_EM_T (sum_weights + fuzz) 0 then None else
  let elem_HJ := sum_HJ / (sum_weights + fuzz) in
  Some (set_phi (fupd (l_phi s) e (l_phi0 s e - alpha * dt * (front_vel * elem_HJ + sg * (elem_HJ - 1)))) s).

Definition update_level_set (P : lset) (fuzz alpha dt : R) (mat : nat) (s : lstate) : option lstate :=
  for_up 0 (num_mat_elems (v_L P) mat) (fun sid => update_elem P fuzz alpha dt mat (elem_in_mat (v_L P) mat sid)) s.

(** ** rk_init, time_integration.cpp:52-75, and its calls level_set_execute.cpp:216-229 *)
Definition ls_rk_init (P : lset) (s : lstate) : lstate :=
  fold_left (fun s mat => match v_type P mat with
      | NoLevelSet => s
      | _ => fold_left (fun s sid => let e := elem_in_mat (v_L P) mat sid in set_phi0 (fupd (l_phi0 s) e (l_phi s e)) s)
               (seq 0 (num_mat_elems (v_L P) mat)) s
      end) (seq 0 (num_mats (v_L P))) s.

(** ** One Runge-Kutta stage, level_set_execute.cpp:234-300; boundary_velocity is called once for every evolving material *)
Definition evolving (P : lset) (mat : nat) : bool := match v_type P mat with EvolveFront => true | _ => false end.

Definition ls_stage (P : lset) (bcs : list vel_set) (fuzz small alpha dt : R) (s : lstate) : option lstate :=
  obind (nodal_gradient P fuzz s) (fun s =>
  obind (for_up 0 (num_mats (v_L P)) (fun mat s => if evolving P mat then boundary_velocity P small bcs s else Some s) s) (fun s =>
  for_up 0 (num_mats (v_L P)) (fun mat s => if evolving P mat then update_level_set P fuzz alpha dt mat s else Some s) s)).

(** One time step, level_set_execute.cpp:213-300 *)
Definition ls_step (P : lset) (bcs : list vel_set) (fuzz small : R) (N : nat) (dt : R) (s : lstate) : option lstate :=
  for_up 0 N (fun k => ls_stage P bcs fuzz small (rk_alpha N k) dt) (ls_rk_init P s).

(** A calculation: time step and boundary velocity functions (which depend on time) of every cycle *)
Definition ls_run (P : lset) (fuzz small : R) (N : nat) (cycles : list (R * list vel_set)) (s : lstate) : option lstate :=
  for_each cycles (fun '(dt, bcs) => ls_step P bcs fuzz small N dt) s.
