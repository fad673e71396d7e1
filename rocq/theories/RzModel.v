(** Model of the axisymmetric (2D RZ) staggered-grid hydrodynamics solver
    (paths relative to /repo/apps/multiphysics/src/; unqualified file names are in Solvers/SGH_solver_rz/src/).
    [double] is [R].  Coordinates are (z, r): component 0 is along the axis, component 1 is the radius.
    The state record, the mesh connectivity, the material layout and the models chosen by the input file are
    those of [SghModel]; components 2 of nodal vectors are not used. *)
From Verif Require Import BaseReal BaseArr GeomModel SghModel MarsModel.
Local Open Scope R_scope.

(** mesh.bdy_nodes, and mesh.nodes_in_node(n, .) with num_nodes_in_node(n) entries (Swage mesh, not in the repository) *)
Record mesh_rz := mkMeshRz {
  rz_mesh : mesh3;
  bdy_nodes : list nat;
  nodes_in_node : nat -> list nat
}.

(** *** Geometry of one quadrilateral, gathered as in common/src/geometry_new.cpp:407-444, 487-509, 568-609 *)
Definition quad_area (m : mesh3) (x : nat -> nat -> R) (e : nat) : R := area_quad (gather m x e 0) (gather m x e 1).
Definition quad_bmat (m : mesh3) (x : nat -> nat -> R) (e : nat) : nat -> nat -> R := bmat2D (gather m x e 0) (gather m x e 1).
Definition quad_corner_area (m : mesh3) (x : nat -> nat -> R) (e : nat) : nat -> R := corner_area (gather m x e 0) (gather m x e 1).
(** geometry::get_vol for 2D, geometry_new.cpp:277-300: volume per radian *)
Definition quad_vol (m : mesh3) (x : nat -> nat -> R) (e : nat) : R := vol_quad (gather m x e 0) (gather m x e 1).

(** corners_in_mat_t::operator(), common/include/state.hpp:774-798 with 4 corners per element *)
Definition corner_in_mat_rz (sid l : nat) : nat := (sid * 4 + l)%nat.

(** *** Set-up of the masses *)

(** calc_corner_mass_rz, sgh_setup_rz.cpp:155-186, for one material *)
Definition calc_corner_mass_rz (m : mesh3) (x : nat -> nat -> R) (n : nat) (elem_in : nat -> nat) (den : nat -> R)
    (cmass : nat -> R) : nat -> R :=
  fold_left (fun cm sid =>
    fold_left (fun cm l =>
      let c := corners_in_elem m (elem_in sid) l in
      fupd cm c (cm c + quad_corner_area m x (elem_in sid) l * den sid)) (seq 0 4) cm) (seq 0 n) cmass.

(** SGHRZ::setup, sgh_setup_rz.cpp:109-130, after the masses are set to zero (55-69) *)
Definition setup_corner_mass_rz (m : mesh3) (L : layout) (x : nat -> nat -> R) (den : nat -> nat -> R) : nat -> R :=
  fold_left (fun cm mat => calc_corner_mass_rz m x (num_mat_elems L mat) (elem_in_mat L mat) (den mat) cm)
    (seq 0 (num_mats L)) (fun _ => 0).

(** calc_node_mass_rz, sgh_setup_rz.cpp:205-222: one node; state (node_mass of this node, corner_mass) *)
Definition node_mass_loop (m : mesh3) (x : nat -> nat -> R) (n : nat) (cm : nat -> R) : R * (nat -> R) :=
  fold_left (fun '(nm, cm) c => (nm + cm c, fupd cm c (cm c * x n 1%nat))) (corners_in_node m n) (0, cm).
Definition calc_node_mass_rz (m : mesh3) (x : nat -> nat -> R) (cm : nat -> R) : (nat -> R) * (nat -> R) :=
  fold_left (fun '(nm, cm) n => let '(v, cm') := node_mass_loop m x n cm in (fupd nm n v, cm'))
    (seq 0 (num_nodes m)) (fun _ => 0, cm).

(** calc_node_extensive_mass_rz, sgh_execute_rz.cpp:628-640 *)
Definition extensive_mass (nmass : nat -> R) (x : nat -> nat -> R) (n : nat) : R := nmass n * x n 1%nat.

(** calc_node_areal_mass_rz, sgh_execute_rz.cpp:657-697: first loop over the nodes *)
Definition areal_first (tiny : R) (x : nat -> nat -> R) (ext : nat -> R) (n : nat) : R :=
  if Rlt_dec tiny (x n 1%nat) then ext n / x n 1%nat else 0.
(** second loop, over the boundary nodes (lines 675-692) *)
Definition areal_bdy (mr : mesh_rz) (tiny : R) (x : nat -> nat -> R) (nm : nat -> R) (n : nat) : nat -> R :=
  if Rlt_dec (x n 1%nat) tiny then
    fold_left (fun nm k => if Rlt_dec tiny (x k 1%nat) then fupd nm n (fmax (nm n) (nm k / 2)) else nm) (nodes_in_node mr n) nm
  else nm.
Definition areal_mass (mr : mesh_rz) (tiny : R) (x : nat -> nat -> R) (ext : nat -> R) : nat -> R :=
  fold_left (areal_bdy mr tiny x) (bdy_nodes mr) (areal_first tiny x ext).

(** *** One Runge-Kutta stage *)

(** SGHRZ::get_velgrad_rz, momentum_rz.cpp:105-175.  Entries (0,2), (1,2), (2,0) and (2,1) are not written. *)
Definition get_velgrad_rz (m : mesh3) (x v : nat -> nat -> R) (vol : nat -> R) (old : nat -> nat -> nat -> R) (e i j : nat) : R :=
  let b := quad_bmat m x e in
  let area := quad_area m x e in
  let inverse_area := 1 / area in
  let mean_radius := vol e / area in
  let w := gather m v e 1 in
  let elem_vel_r := 0.25 * (w 0%nat + w 1%nat + w 2%nat + w 3%nat) in
  let u := gather m v e i in
  if (Nat.ltb i 2 && Nat.ltb j 2)%bool
  then (u 0%nat * b 0%nat j + u 1%nat * b 1%nat j + u 2%nat * b 2%nat j + u 3%nat * b 3%nat j) * inverse_area
  else if (Nat.eqb i 2 && Nat.eqb j 2)%bool then elem_vel_r / mean_radius
  else old e i j.

(** SGHRZ::get_divergence_rz, momentum_rz.cpp:249-315 *)
Definition get_divergence_rz (m : mesh3) (x v : nat -> nat -> R) (vol : nat -> R) (e : nat) : R :=
  let b := quad_bmat m x e in
  let area := quad_area m x e in
  let inverse_area := 1 / area in
  let mean_radius := vol e / area in
  let u := gather m v e 0 in
  let w := gather m v e 1 in
  let elem_vel_r := 0.25 * (w 0%nat + w 1%nat + w 2%nat + w 3%nat) in
  0 + (u 0%nat * b 0%nat 0%nat + u 1%nat * b 1%nat 0%nat + u 2%nat * b 2%nat 0%nat + u 3%nat * b 3%nat 0%nat) * inverse_area
  + ((w 0%nat * b 0%nat 1%nat + w 1%nat * b 1%nat 1%nat + w 2%nat * b 2%nat 1%nat + w 3%nat * b 3%nat 1%nat) * inverse_area
     + elem_vel_r / mean_radius).

(** force_sgh_rz.cpp:149-161 (inward normals), 163-177 (total stress: [tau] of SghModel), 227-230 *)
Definition force_component_rz (m : mesh3) (L : layout) (M : models) (s : sgh) (mat sid l d : nat) : R :=
  let b := quad_bmat m (s_x s) (elem_in_mat L mat sid) in
  let area_normal l d := (-1) * b l d in
  area_normal l 0%nat * tau M s mat sid 0 d + area_normal l 1%nat * tau M s mat sid 1 d + (0 + dissipation M s mat sid l d).

(** The dissipation call of the RZ solver, force_sgh_rz.cpp:147-195: local velocities, area_normal = -B, the area of the
    element and the divergences of the neighbouring elements *)
Definition sgh_mars_rz (kernel : mars_vars -> R -> R -> R -> R -> R -> (nat -> nat -> R) -> list R -> (nat -> nat -> R) -> (nat -> nat -> R) -> nat -> nat -> R)
    (m : mesh3) (L : layout) (elems_in_elem : nat -> list nat) (vars : nat -> mars_vars) (fuzz small : R)
    (s : sgh) (mat sid l d : nat) : R :=
  let e := elem_in_mat L mat sid in
  kernel (vars mat) fuzz small (s_den s mat sid) (s_sspd s mat sid) (quad_area m (s_x s) e) (s_velgrad s e)
    (map (fun n => div_of (s_velgrad s n)) (elems_in_elem e))
    (fun l d => s_v s (nodes_in m e l) d)
    (fun l d => (-1) * quad_bmat m (s_x s) e l d) l d.

(** hoop terms, force_sgh_rz.cpp:244-272: component 0 gets sigma_rz / R, component 1 gets (sigma_rr - sigma_tt) / R *)
Definition hoop_term (m : mesh3) (L : layout) (M : models) (s : sgh) (mat sid l d : nat) : R :=
  let e := elem_in_mat L mat sid in
  let radius_elem := s_vol s e / quad_area m (s_x s) e in
  let a := quad_corner_area m (s_x s) e l in
  match d with
  | 0%nat => tau M s mat sid 1 0 * a / radius_elem
  | _ => (tau M s mat sid 1 1 - tau M s mat sid 2 2) * a / radius_elem
  end.

(** One corner of one element, force_sgh_rz.cpp:216-275: state (corner_force, MaterialCorners_force) *)
Definition corner_write_rz (m : mesh3) (L : layout) (M : models) (s : sgh) (mat sid l : nat)
    (st : (nat -> nat -> R) * (nat -> nat -> nat -> R)) : (nat -> nat -> R) * (nat -> nat -> nat -> R) :=
  let c := corners_in_elem m (elem_in_mat L mat sid) l in
  let mc := corner_in_mat_rz sid l in
  let vf := s_volfrac s mat sid in
  let geo := s_geo s mat sid in
  if s_eroded s mat sid then
    fold_left (fun '(cf, mcf) d => (fupd2 cf c d 0, fupd mcf mat (fupd2 (mcf mat) mc d 0))) (seq 0 2) st
  else
    let '(cf, mcf) := fold_left (fun '(cf, mcf) d =>
       let f := force_component_rz m L M s mat sid l d in
       (fupd2 cf c d (cf c d + f * vf * geo), fupd mcf mat (fupd2 (mcf mat) mc d (f * vf * geo)))) (seq 0 2) st in
    fold_left (fun '(cf, mcf) d =>
       let f := hoop_term m L M s mat sid l d in
       (fupd2 cf c d (cf c d + f * vf * geo), fupd mcf mat (fupd2 (mcf mat) mc d (mcf mat mc d + f * vf * geo)))) [0; 1]%nat (cf, mcf).

(** SGHRZ::get_force_rz, force_sgh_rz.cpp:68-282, for one material *)
Definition elem_force_rz (m : mesh3) (L : layout) (M : models) (s : sgh) (mat sid : nat) st :=
  fold_left (fun st l => corner_write_rz m L M s mat sid l st) (seq 0 4) st.
Definition get_force_rz (m : mesh3) (L : layout) (M : models) (s : sgh) (mat : nat) st :=
  fold_left (fun st sid => elem_force_rz m L M s mat sid st) (seq 0 (num_mat_elems L mat)) st.

(** set_corner_force_zero_rz, then for every material its forces and its stress increment,
    sgh_execute_rz.cpp:269-327 and 701-711 (SGHRZ::update_stress: properties_rz.cpp:308-404) *)
Definition forces_and_stress_rz (m : mesh3) (L : layout) (M : models) (s : sgh) : sgh :=
  fold_left (fun s mat => update_stress L M mat (set_cforce (get_force_rz m L M s mat (s_cforce s, s_mcforce s)) s))
    (seq 0 (num_mats L)) (set_cforce (fun _ _ => 0, s_mcforce s) s).

(** SGHRZ::update_velocity_rz, momentum_rz.cpp:52-90 *)
Definition update_velocity_rz (m : mesh3) (alpha dt : R) (s : sgh) (n d : nat) : R :=
  let node_force := fold_left (fun acc c => acc + s_cforce s c d) (corners_in_node m n) 0 in
  s_v0 s n d + alpha * dt * node_force / s_nmass s n.

(** SGHRZ::update_energy_rz, energy_sgh_rz.cpp:54-125 *)
Definition mat_power_rz (m : mesh3) (L : layout) (s : sgh) (mat sid : nat) : R :=
  let e := elem_in_mat L mat sid in
  fold_left (fun p l =>
    fold_left (fun p d =>
      let n := nodes_in m e l in
      let node_radius := s_x s n 1%nat in
      let half_vel := (s_v s n d + s_v0 s n d) * 0.5 in
      p + s_mcforce s mat (corner_in_mat_rz sid l) d * node_radius * half_vel) (seq 0 2) p) (seq 0 4) 0.
Definition update_energy_rz (m : mesh3) (L : layout) (alpha dt : R) (s : sgh) (mat sid : nat) : R :=
  s_sie0 s mat sid - alpha * dt / s_mass s mat sid * mat_power_rz m L s mat sid.
Definition all_energies_rz (m : mesh3) (L : layout) (alpha dt : R) (s : sgh) : sgh :=
  fold_left (fun s mat => set_sie (for_mat mat (num_mat_elems L mat) (s_sie s) (update_energy_rz m L alpha dt s)) s)
    (seq 0 (num_mats L)) s.

(** SGHRZ::update_position_rz, position_rz.cpp:50-74 *)
Definition update_position_rz (alpha dt : R) (s : sgh) (n d : nat) : R :=
  let half_vel := (s_v s n d + s_v0 s n d) * 0.5 in
  let x := s_x0 s n d + alpha * dt * half_vel in
  if Nat.eqb d 1 then fmax 0 x else x.

(** SGHRZ::update_state_rz for one material, properties_rz.cpp:67-275; pressure, sound speed, erosion and the
    void values are set as in SghModel (lines 125-165 and 233-271 here).  Density: 117-118 ... *)
Definition state_density_rz (L : layout) (mat : nat) (s : sgh) : sgh :=
  set_den (for_mat mat (num_mat_elems L mat) (s_den s) (fun mat sid =>
    s_mass s mat sid / (s_vol s (elem_in_mat L mat sid) * s_volfrac s mat sid * s_geo s mat sid + 1e-20))) s.
(** ... and, for a state-based strength model, again at line 194 *)
Definition state_density2_rz (L : layout) (M : models) (mat : nat) (s : sgh) : sgh :=
  if state_based M mat then
    set_den (for_mat mat (num_mat_elems L mat) (s_den s) (fun mat sid => s_mass s mat sid / (s_vol s (elem_in_mat L mat sid) + 1e-20))) s
  else s.
Definition update_state_rz (L : layout) (M : models) (mat : nat) (s : sgh) : sgh :=
  state_void L M mat (state_erode L M mat (state_stress L M mat (state_density2_rz L M mat
    (state_sspd L M mat (state_pressure L M mat (state_density_rz L mat s)))))).

Definition set_nmass nm (s : sgh) : sgh :=
  mkSgh (s_x s) (s_x0 s) (s_v s) (s_v0 s) nm (s_nforce s) (s_cforce s) (s_vol s) (s_velgrad s) (s_mcforce s)
    (s_mass s) (s_sie s) (s_sie0 s) (s_den s) (s_pres s) (s_sspd s) (s_stress s) (s_stress0 s) (s_volfrac s) (s_geo s) (s_eroded s).

(** One stage, sgh_execute_rz.cpp:253-427; [ext] is node_extensive_mass *)
Definition rk_stage_rz (mr : mesh_rz) (L : layout) (M : models) (tiny : R) (ext : nat -> R) (alpha dt : R) (s : sgh) : sgh :=
  let m := rz_mesh mr in
  let s := set_velgrad (get_velgrad_rz m (s_x s) (s_v s) (s_vol s) (s_velgrad s)) s in
  let s := forces_and_stress_rz m L M s in
  let s := set_v (update_velocity_rz m alpha dt s) s in
  let s := set_v (bdy_velocity M s) s in
  let s := all_energies_rz m L alpha dt s in
  let s := set_x (update_position_rz alpha dt s) s in
  let s := set_vol (quad_vol m (s_x s)) s in
  let s := fold_left (fun s mat => update_state_rz L M mat s) (seq 0 (num_mats L)) s in
  set_nmass (areal_mass mr tiny (s_x s) ext) s.

(** rk_init_rz (time_integration_rz.cpp:54-93, the same copies as in 3D) and the stage loop, sgh_execute_rz.cpp:236-427 *)
Definition rk_step_rz (mr : mesh_rz) (L : layout) (Ms : nat -> models) (tiny : R) (ext : nat -> R) (N : nat) (dt : R) (s : sgh) : sgh :=
  fold_left (fun s k => rk_stage_rz mr L (Ms k) tiny ext (rk_alpha N k) dt s) (seq 0 N) (set_start s).

(** the cycle loop, sgh_execute_rz.cpp:183-470: any number of cycles with the step sizes and models met *)
Definition run_rz (mr : mesh_rz) (L : layout) (tiny : R) (ext : nat -> R) (N : nat) (cycles : list (R * (nat -> models))) (s : sgh) : sgh :=
  fold_left (fun s '(dt, Ms) => rk_step_rz mr L Ms tiny ext N dt s) cycles s.

(** SGHRZ::execute, sgh_execute_rz.cpp:92-101 and 183-470: extensive masses from the state handed over, velocity
    boundary conditions [M0], then the cycles *)
Definition execute_rz (mr : mesh_rz) (L : layout) (tiny : R) (N : nat) (M0 : models) (cycles : list (R * (nat -> models))) (s : sgh) : sgh :=
  let ext := extensive_mass (s_nmass s) (s_x s) in
  run_rz mr L tiny ext N cycles (set_v (bdy_velocity M0 s) s).

(** Tallies: sgh_execute_rz.cpp:532-612 *)
Definition internal_energy_rz (L : layout) (s : sgh) : R :=
  sumn (num_mats L) (fun mat => sumn (num_mat_elems L mat) (fun sid => s_mass s mat sid * s_sie s mat sid)).
Definition kinetic_energy_rz (m : mesh3) (ext : nat -> R) (s : sgh) : R :=
  0.5 * sumn (num_nodes m) (fun n => ext n * sumn 2 (fun d => s_v s n d * s_v s n d)).
