(** Model of one Runge-Kutta step of the 3D staggered-grid hydrodynamics solver
    (paths relative to /repo/apps/multiphysics/src/ unless stated otherwise).
    [double] is [R].  Device arrays are total functions of their indices; FOR_ALL loops are run in
    increasing index order.  Arrays of the Swage mesh, which is not part of the repository, are
    fields of [mesh3]; [build_corners] below models the routine of the legacy mesh class that fills them. *)
From Verif Require Import BaseReal BaseArr GeomModel.
Local Open Scope R_scope.

(** ** Mesh connectivity *)

(** nodes_in_elem(e,l), corners_in_elem(e,l), corners_in_node(n,.) with num_corners_in_node(n) entries. *)
Record mesh3 := mkMesh3 {
  num_nodes : nat;
  num_elems : nat;
  nodes_in : nat -> nat -> nat;
  corners_in_elem : nat -> nat -> nat;
  corners_in_node : nat -> list nat
}.

(** loops "for elem_gid, FOR_ALL node_lid" *)
Definition elem_corners (ne nn : nat) : list (nat * nat) :=
  flat_map (fun e => map (fun l => (e, l)) (seq 0 nn)) (seq 0 ne).

Definition fupd {A} (f : nat -> A) (k : nat) (v : A) : nat -> A := fun i => if Nat.eqb i k then v else f i.
Definition fupd2 {A} (f : nat -> nat -> A) (k d : nat) (v : A) : nat -> nat -> A :=
  fun i j => if Nat.eqb i k && Nat.eqb j d then v else f i j.

(** build_corner_connectivity, counting pass:
    /repo/legacy/Fierro_V0/src/Parallel-Solvers/Parallel-Explicit/SGH_Solver/include/mesh.h:252-267.
    Writing to a node outside the mesh is undefined ([None]). *)
Definition count_corners (nnodes ne nn : nat) (nodes : nat -> nat -> nat) : option (nat -> nat) :=
  for_each (elem_corners ne nn)
    (fun '(e, l) cnt => if Nat.ltb (nodes e l) nnodes then Some (fupd cnt (nodes e l) (cnt (nodes e l) + 1)%nat) else None)
    (fun _ => O).

(** build_corner_connectivity, filling pass: the same mesh.h:270-305.  State: (corners_in_node, saved count,
    corners_in_elem); a column index outside the ragged row is undefined. *)
Definition fill_corners (nnodes ne nn : nat) (nodes : nat -> nat -> nat) (stride : nat -> nat)
  : option ((nat -> nat -> nat) * (nat -> nat) * (nat -> nat -> nat)) :=
  for_each (elem_corners ne nn)
    (fun '(e, l) '(cin, saved, cie) =>
       let n := nodes e l in
       let j := saved n in
       if Nat.ltb n nnodes && Nat.ltb j (stride n) then
         let corner_gid := (l + e * nn)%nat in
         Some (fupd2 cin n j corner_gid, fupd saved n (saved n + 1)%nat, fupd2 cie e l corner_gid)
       else None)
    (fun _ _ => O, fun _ => O, fun _ _ => O).

Definition build_corners (nnodes ne nn : nat) (nodes : nat -> nat -> nat) : option mesh3 :=
  obind (count_corners nnodes ne nn nodes) (fun stride =>
  obind (fill_corners nnodes ne nn nodes stride) (fun '(cin, _, cie) =>
  Some (mkMesh3 nnodes ne nodes cie (fun n => map (cin n) (seq 0 (stride n)))))).

(** ** Material layout and material models *)

(** num_mats, num_mat_elems(mat), elem_in_mat_elem(mat, sid) *)
Record layout := mkLayout {
  num_mats : nat;
  num_mat_elems : nat -> nat;
  elem_in_mat : nat -> nat -> nat
}.

(** corners_in_mat_t::operator(), common/include/state.hpp:774-798 with 8 corners per element *)
Definition corner_in_mat (sid l : nat) : nat := (sid * 8 + l)%nat.

(** Node, element and material-point state: common/include/state.hpp. *)
Record sgh := mkSgh {
  s_x : nat -> nat -> R;      s_x0 : nat -> nat -> R;     (* node.coords, coords_n0 *)
  s_v : nat -> nat -> R;      s_v0 : nat -> nat -> R;     (* node.vel, vel_n0 *)
  s_nmass : nat -> R;                                      (* node.mass *)
  s_nforce : nat -> nat -> R;                              (* node.force, with all contributions *)
  s_cforce : nat -> nat -> R;                              (* corner.force *)
  s_vol : nat -> R;                                        (* GaussPoints.vol *)
  s_velgrad : nat -> nat -> nat -> R;                      (* GaussPoints.vel_grad *)
  s_mcforce : nat -> nat -> nat -> R;                      (* MaterialCorners.force *)
  s_mass : nat -> nat -> R;                                (* MaterialPoints.mass *)
  s_sie : nat -> nat -> R;    s_sie0 : nat -> nat -> R;
  s_den : nat -> nat -> R;
  s_pres : nat -> nat -> R;
  s_sspd : nat -> nat -> R;
  s_stress : nat -> nat -> nat -> nat -> R;
  s_stress0 : nat -> nat -> nat -> nat -> R;
  s_volfrac : nat -> nat -> R;
  s_geo : nat -> nat -> R;
  s_eroded : nat -> nat -> bool
}.

(** Models chosen by the input file.  Function pointers and boundary conditions are arbitrary functions
    of the whole state (they may read anything); what each may write is fixed by its return type. *)
Record models := mkModels {
  decoupled : nat -> bool;          (* EOSType == decoupledEOSType *)
  increment_based : nat -> bool;    (* StrengthType == incrementBased *)
  state_based : nat -> bool;        (* StrengthType == stateBased *)
  has_erosion : nat -> bool;        (* ErosionModels != noErosion *)
  dissipation : sgh -> nat -> nat -> nat -> nat -> R;           (* mat, sid, node_lid, dim *)
  calc_stress : sgh -> nat -> nat -> nat -> nat -> R;           (* mat, sid, i, j *)
  calc_pressure : sgh -> nat -> nat -> R;
  calc_sound_speed : sgh -> nat -> nat -> R;
  erode : sgh -> nat -> nat -> bool;                            (* new eroded flag *)
  bdy_stress : sgh -> nat -> nat -> R;                          (* total force of the stress BCs on a node *)
  contact_force : sgh -> nat -> nat -> R;
  doing_contact : bool;
  bdy_velocity : sgh -> nat -> nat -> R                         (* velocities after the velocity BCs *)
}.

(** ** Set-up of the masses *)

(** calc_corner_mass, common/src/region_fill.cpp:2264-2293, for one material *)
Definition calc_corner_mass (m : mesh3) (n : nat) (elem_in : nat -> nat) (mass : nat -> R) (cmass : nat -> R) : nat -> R :=
  fold_left (fun cm sid =>
    fold_left (fun cm l =>
      let c := corners_in_elem m (elem_in sid) l in
      fupd cm c (cm c + 1 / 8 * mass sid)) (seq 0 8) cm) (seq 0 n) cmass.

(** SGH3D::setup, Solvers/SGH_solver_3D/src/sgh_setup.cpp:91-111: all masses start at zero
    (init_corner_node_masses_zero, region_fill.cpp:2341-2353), then every material is added. *)
Definition setup_corner_mass (m : mesh3) (L : layout) (mass : nat -> nat -> R) : nat -> R :=
  fold_left (fun cm mat => calc_corner_mass m (num_mat_elems L mat) (elem_in_mat L mat) (mass mat) cm)
    (seq 0 (num_mats L)) (fun _ => 0).

(** calc_node_mass, region_fill.cpp:2311-2327, from zero *)
Definition calc_node_mass (m : mesh3) (cmass : nat -> R) (n : nat) : R :=
  fold_left (fun acc c => acc + cmass c) (corners_in_node m n) 0.

(** ** One Runge-Kutta stage *)

(** coordinates of the nodes of element e, gathered as in geometry_new.cpp:79-83 *)
Definition gather (m : mesh3) (f : nat -> nat -> R) (e d : nat) : nat -> R := fun l => f (nodes_in m e l) d.

Definition elem_bmat (m : mesh3) (x : nat -> nat -> R) (e : nat) : nat -> nat -> R :=
  bmat (gather m x e 0) (gather m x e 1) (gather m x e 2).

(** SGH3D::get_velgrad, Solvers/SGH_solver_3D/src/momentum.cpp:114-203 *)
Definition get_velgrad (m : mesh3) (x v : nat -> nat -> R) (vol : nat -> R) (e i j : nat) : R :=
  let u := gather m v e i in
  let b := elem_bmat m x e in
  let inverse_vol := 1 / vol e in
  (u 0%nat * b 0%nat j + u 1%nat * b 1%nat j + u 2%nat * b 2%nat j + u 3%nat * b 3%nat j
   + u 4%nat * b 4%nat j + u 5%nat * b 5%nat j + u 6%nat * b 6%nat j + u 7%nat * b 7%nat j) * inverse_vol.

(** SGH3D::get_divergence, momentum.cpp:219-280 *)
Definition get_divergence (m : mesh3) (x v : nat -> nat -> R) (vol : nat -> R) (e : nat) : R :=
  let b := elem_bmat m x e in
  let inverse_vol := 1 / vol e in
  let term i := let u := gather m v e i in
    (u 0%nat * b 0%nat i + u 1%nat * b 1%nat i + u 2%nat * b 2%nat i + u 3%nat * b 3%nat i
     + u 4%nat * b 4%nat i + u 5%nat * b 5%nat i + u 6%nat * b 6%nat i + u 7%nat * b 7%nat i) * inverse_vol in
  0 + term 0%nat + term 1%nat + term 2%nat.

(** total Cauchy stress, Solvers/SGH_solver_3D/src/force_sgh.cpp:156-169 *)
Definition tau (M : models) (s : sgh) (mat sid i j : nat) : R :=
  let t := s_stress s mat sid i j in
  if decoupled M mat && Nat.eqb i j then t - s_pres s mat sid else t.

(** force_sgh.cpp:136-152 and 221-225 *)
Definition force_component (m : mesh3) (L : layout) (M : models) (s : sgh) (mat sid l d : nat) : R :=
  let b := elem_bmat m (s_x s) (elem_in_mat L mat sid) in
  let area_normal l d := (-1) * b l d in
  area_normal l 0%nat * tau M s mat sid 0 d + area_normal l 1%nat * tau M s mat sid 1 d
  + area_normal l 2%nat * tau M s mat sid 2 d + (0 + dissipation M s mat sid l d).

(** the force stored for a material corner, force_sgh.cpp:211-216, 227-229 *)
Definition mat_corner_value (m : mesh3) (L : layout) (M : models) (s : sgh) (mat sid l d : nat) : R :=
  if s_eroded s mat sid then 0
  else force_component m L M s mat sid l d * s_volfrac s mat sid * s_geo s mat sid.

(** One corner and dimension, force_sgh.cpp:210-235: (corner_force, MaterialCorners_force). *)
Definition corner_write (m : mesh3) (L : layout) (M : models) (s : sgh) (mat sid l d : nat)
    (st : (nat -> nat -> R) * (nat -> nat -> nat -> R)) : (nat -> nat -> R) * (nat -> nat -> nat -> R) :=
  let '(cf, mcf) := st in
  let c := corners_in_elem m (elem_in_mat L mat sid) l in
  let mc := corner_in_mat sid l in
  let f := mat_corner_value m L M s mat sid l d in
  (if s_eroded s mat sid then fupd2 cf c d 0 else fupd2 cf c d (cf c d + f),
   fupd mcf mat (fupd2 (mcf mat) mc d f)).

(** SGH3D::get_force, force_sgh.cpp:69-240, for one material; the loops over the nodes and dimensions of
    one element. *)
Definition elem_force (m : mesh3) (L : layout) (M : models) (s : sgh) (mat sid : nat) st :=
  fold_left (fun st l => fold_left (fun st d => corner_write m L M s mat sid l d st) (seq 0 3) st) (seq 0 8) st.
Definition get_force (m : mesh3) (L : layout) (M : models) (s : sgh) (mat : nat) st :=
  fold_left (fun st sid => elem_force m L M s mat sid st) (seq 0 (num_mat_elems L mat)) st.

(** SGH3D::update_velocity, momentum.cpp:51-99: the force accumulated on a node,
    starting from node.force = 0 (sgh_execute.cpp:386) and the stress boundary conditions *)
Definition node_force (m : mesh3) (M : models) (s : sgh) (n d : nat) : R :=
  let f := 0 + bdy_stress M s n d in
  let f := if doing_contact M then f + contact_force M s n d else f in
  fold_left (fun acc c => acc + s_cforce s c d) (corners_in_node m n) f.

Definition update_velocity (alpha dt : R) (s : sgh) (n d : nat) : R :=
  s_v0 s n d + alpha * dt * s_nforce s n d / s_nmass s n.

(** power of a material element, Solvers/SGH_solver_3D/src/energy_sgh.cpp:78-102 *)
Definition mat_power (m : mesh3) (L : layout) (s : sgh) (mat sid : nat) : R :=
  let e := elem_in_mat L mat sid in
  fold_left (fun p l =>
    fold_left (fun p d =>
      let n := nodes_in m e l in
      let half_vel := (s_v s n d + s_v0 s n d) * 0.5 in
      p + s_mcforce s mat (corner_in_mat sid l) d * half_vel) (seq 0 3) p) (seq 0 8) 0.

(** SGH3D::update_energy, energy_sgh.cpp:104-106 *)
Definition update_energy (m : mesh3) (L : layout) (alpha dt : R) (s : sgh) (mat sid : nat) : R :=
  s_sie0 s mat sid - alpha * dt / (s_mass s mat sid + 1e-20) * mat_power m L s mat sid.

(** SGH3D::update_position, Solvers/SGH_solver_3D/src/position.cpp:50-68 *)
Definition update_position (alpha dt : R) (s : sgh) (n d : nat) : R :=
  let half_vel := (s_v s n d + s_v0 s n d) * 0.5 in
  s_x0 s n d + alpha * dt * half_vel.

(** geometry::get_vol for hexahedra, common/src/geometry_new.cpp:316-391 *)
Definition elem_vol (m : mesh3) (x : nat -> nat -> R) (e : nat) : R :=
  vol_hex (gather m x e 0) (gather m x e 1) (gather m x e 2).

(** density in SGH3D::update_state, Solvers/SGH_solver_3D/src/properties.cpp:112-114 and 161 *)
Definition new_density (L : layout) (M : models) (s : sgh) (mat sid : nat) : R :=
  let e := elem_in_mat L mat sid in
  if decoupled M mat
  then s_mass s mat sid / (s_vol s e * s_volfrac s mat sid * s_geo s mat sid + 1e-20)
  else s_mass s mat sid / (s_vol s e + 1e-20).

(** record updates *)
Definition set_start (s : sgh) : sgh :=
  mkSgh (s_x s) (s_x s) (s_v s) (s_v s) (s_nmass s) (s_nforce s) (s_cforce s) (s_vol s) (s_velgrad s) (s_mcforce s)
    (s_mass s) (s_sie s) (s_sie s) (s_den s) (s_pres s) (s_sspd s) (s_stress s) (s_stress s) (s_volfrac s) (s_geo s) (s_eroded s).
Definition set_velgrad vg (s : sgh) : sgh :=
  mkSgh (s_x s) (s_x0 s) (s_v s) (s_v0 s) (s_nmass s) (s_nforce s) (s_cforce s) (s_vol s) vg (s_mcforce s)
    (s_mass s) (s_sie s) (s_sie0 s) (s_den s) (s_pres s) (s_sspd s) (s_stress s) (s_stress0 s) (s_volfrac s) (s_geo s) (s_eroded s).
Definition set_cforce (f : (nat -> nat -> R) * (nat -> nat -> nat -> R)) (s : sgh) : sgh :=
  mkSgh (s_x s) (s_x0 s) (s_v s) (s_v0 s) (s_nmass s) (s_nforce s) (fst f) (s_vol s) (s_velgrad s) (snd f)
    (s_mass s) (s_sie s) (s_sie0 s) (s_den s) (s_pres s) (s_sspd s) (s_stress s) (s_stress0 s) (s_volfrac s) (s_geo s) (s_eroded s).
Definition set_stress t (s : sgh) : sgh :=
  mkSgh (s_x s) (s_x0 s) (s_v s) (s_v0 s) (s_nmass s) (s_nforce s) (s_cforce s) (s_vol s) (s_velgrad s) (s_mcforce s)
    (s_mass s) (s_sie s) (s_sie0 s) (s_den s) (s_pres s) (s_sspd s) t (s_stress0 s) (s_volfrac s) (s_geo s) (s_eroded s).
Definition set_nforce f (s : sgh) : sgh :=
  mkSgh (s_x s) (s_x0 s) (s_v s) (s_v0 s) (s_nmass s) f (s_cforce s) (s_vol s) (s_velgrad s) (s_mcforce s)
    (s_mass s) (s_sie s) (s_sie0 s) (s_den s) (s_pres s) (s_sspd s) (s_stress s) (s_stress0 s) (s_volfrac s) (s_geo s) (s_eroded s).
Definition set_v v (s : sgh) : sgh :=
  mkSgh (s_x s) (s_x0 s) v (s_v0 s) (s_nmass s) (s_nforce s) (s_cforce s) (s_vol s) (s_velgrad s) (s_mcforce s)
    (s_mass s) (s_sie s) (s_sie0 s) (s_den s) (s_pres s) (s_sspd s) (s_stress s) (s_stress0 s) (s_volfrac s) (s_geo s) (s_eroded s).
Definition set_sie e (s : sgh) : sgh :=
  mkSgh (s_x s) (s_x0 s) (s_v s) (s_v0 s) (s_nmass s) (s_nforce s) (s_cforce s) (s_vol s) (s_velgrad s) (s_mcforce s)
    (s_mass s) e (s_sie0 s) (s_den s) (s_pres s) (s_sspd s) (s_stress s) (s_stress0 s) (s_volfrac s) (s_geo s) (s_eroded s).
Definition set_x x (s : sgh) : sgh :=
  mkSgh x (s_x0 s) (s_v s) (s_v0 s) (s_nmass s) (s_nforce s) (s_cforce s) (s_vol s) (s_velgrad s) (s_mcforce s)
    (s_mass s) (s_sie s) (s_sie0 s) (s_den s) (s_pres s) (s_sspd s) (s_stress s) (s_stress0 s) (s_volfrac s) (s_geo s) (s_eroded s).
Definition set_vol w (s : sgh) : sgh :=
  mkSgh (s_x s) (s_x0 s) (s_v s) (s_v0 s) (s_nmass s) (s_nforce s) (s_cforce s) w (s_velgrad s) (s_mcforce s)
    (s_mass s) (s_sie s) (s_sie0 s) (s_den s) (s_pres s) (s_sspd s) (s_stress s) (s_stress0 s) (s_volfrac s) (s_geo s) (s_eroded s).
Definition set_den r (s : sgh) : sgh :=
  mkSgh (s_x s) (s_x0 s) (s_v s) (s_v0 s) (s_nmass s) (s_nforce s) (s_cforce s) (s_vol s) (s_velgrad s) (s_mcforce s)
    (s_mass s) (s_sie s) (s_sie0 s) r (s_pres s) (s_sspd s) (s_stress s) (s_stress0 s) (s_volfrac s) (s_geo s) (s_eroded s).
Definition set_pres p (s : sgh) : sgh :=
  mkSgh (s_x s) (s_x0 s) (s_v s) (s_v0 s) (s_nmass s) (s_nforce s) (s_cforce s) (s_vol s) (s_velgrad s) (s_mcforce s)
    (s_mass s) (s_sie s) (s_sie0 s) (s_den s) p (s_sspd s) (s_stress s) (s_stress0 s) (s_volfrac s) (s_geo s) (s_eroded s).
Definition set_sspd c (s : sgh) : sgh :=
  mkSgh (s_x s) (s_x0 s) (s_v s) (s_v0 s) (s_nmass s) (s_nforce s) (s_cforce s) (s_vol s) (s_velgrad s) (s_mcforce s)
    (s_mass s) (s_sie s) (s_sie0 s) (s_den s) (s_pres s) c (s_stress s) (s_stress0 s) (s_volfrac s) (s_geo s) (s_eroded s).
Definition set_eroded b (s : sgh) : sgh :=
  mkSgh (s_x s) (s_x0 s) (s_v s) (s_v0 s) (s_nmass s) (s_nforce s) (s_cforce s) (s_vol s) (s_velgrad s) (s_mcforce s)
    (s_mass s) (s_sie s) (s_sie0 s) (s_den s) (s_pres s) (s_sspd s) (s_stress s) (s_stress0 s) (s_volfrac s) (s_geo s) b.

(** BasicErosionModel::erode, material_models/erosion/basic_erosion.hpp:44-64: the flag is only ever set *)
Definition basic_erosion (tension density : R) (s : sgh) (mat sid : nat) : bool :=
  if Rle_dec (s_pres s mat sid) tension then true
  else if Rle_dec (s_den s mat sid) density then true else s_eroded s mat sid.

(** a material-point array changed for one material only, for its first n points *)
Definition for_mat {A} (mat n : nat) (old new : nat -> nat -> A) : nat -> nat -> A :=
  fun mat' sid => if Nat.eqb mat' mat && Nat.ltb sid n then new mat' sid else old mat' sid.

(** SGH3D::update_state for one material, properties.cpp:67-259.  The calls inside one FOR_ALL are done
    array by array; eos_state_vars, strength_state_vars and shear moduli are not modelled. *)
(** properties.cpp:112-114 and 161 *)
Definition state_density (L : layout) (M : models) (mat : nat) (s : sgh) : sgh :=
  set_den (for_mat mat (num_mat_elems L mat) (s_den s) (new_density L M s)) s.
(** properties.cpp:116-140 *)
Definition state_pressure (L : layout) (M : models) (mat : nat) (s : sgh) : sgh :=
  if decoupled M mat then set_pres (for_mat mat (num_mat_elems L mat) (s_pres s) (calc_pressure M s)) s else s.
Definition state_sspd (L : layout) (M : models) (mat : nat) (s : sgh) : sgh :=
  if decoupled M mat then set_sspd (for_mat mat (num_mat_elems L mat) (s_sspd s) (calc_sound_speed M s)) s else s.
(** properties.cpp:169-214 *)
Definition state_stress (L : layout) (M : models) (mat : nat) (s : sgh) : sgh :=
  if state_based M mat then set_stress (for_mat mat (num_mat_elems L mat) (s_stress s) (calc_stress M s)) s else s.
(** properties.cpp:217-241 *)
Definition state_erode (L : layout) (M : models) (mat : nat) (s : sgh) : sgh :=
  if has_erosion M mat then set_eroded (for_mat mat (num_mat_elems L mat) (s_eroded s) (erode M s)) s else s.
(** properties.cpp:243-254 *)
Definition void_value {A} (s : sgh) (old : nat -> nat -> A) (v : A) (mat sid : nat) : A :=
  if s_eroded s mat sid then v else old mat sid.
Definition state_void (L : layout) (M : models) (mat : nat) (s : sgh) : sgh :=
  if has_erosion M mat then
    let n := num_mat_elems L mat in
    set_stress (for_mat mat n (s_stress s) (void_value s (s_stress s) (fun _ _ => 0)))
      (set_den (for_mat mat n (s_den s) (void_value s (s_den s) 1e-32))
        (set_sspd (for_mat mat n (s_sspd s) (void_value s (s_sspd s) 1e-32))
          (set_pres (for_mat mat n (s_pres s) (void_value s (s_pres s) 0)) s)))
  else s.
Definition update_state (L : layout) (M : models) (mat : nat) (s : sgh) : sgh :=
  state_void L M mat (state_erode L M mat (state_stress L M mat (state_sspd L M mat (state_pressure L M mat (state_density L M mat s))))).

(** SGH3D::update_stress for one material (increment-based strength), sgh_execute.cpp:353-378 *)
Definition update_stress (L : layout) (M : models) (mat : nat) (s : sgh) : sgh :=
  if increment_based M mat then set_stress (for_mat mat (num_mat_elems L mat) (s_stress s) (calc_stress M s)) s else s.

(** set_corner_force_zero, then for every material its forces and its stress increment,
    sgh_execute.cpp:322, 326-380 and 872-881 *)
Definition forces_and_stress (m : mesh3) (L : layout) (M : models) (s : sgh) : sgh :=
  fold_left (fun s mat => update_stress L M mat (set_cforce (get_force m L M s mat (s_cforce s, s_mcforce s)) s))
    (seq 0 (num_mats L)) (set_cforce (fun _ _ => 0, s_mcforce s) s).

(** energy update of every material, sgh_execute.cpp:479-494 *)
Definition all_energies (m : mesh3) (L : layout) (alpha dt : R) (s : sgh) : sgh :=
  fold_left (fun s mat => set_sie (for_mat mat (num_mat_elems L mat) (s_sie s) (update_energy m L alpha dt s)) s)
    (seq 0 (num_mats L)) s.

(** One stage, sgh_execute.cpp:285-540 (no reorientation test, fracture or equilibration). *)
Definition rk_stage (m : mesh3) (L : layout) (M : models) (alpha dt : R) (s : sgh) : sgh :=
  let s := set_velgrad (get_velgrad m (s_x s) (s_v s) (s_vol s)) s in
  let s := forces_and_stress m L M s in
  let s := set_nforce (node_force m M s) s in
  let s := set_v (update_velocity alpha dt s) s in
  let s := set_v (bdy_velocity M s) s in
  let s := all_energies m L alpha dt s in
  let s := set_x (update_position alpha dt s) s in
  let s := set_vol (elem_vol m (s_x s)) s in
  fold_left (fun s mat => update_state L M mat s) (seq 0 (num_mats L)) s.

(** rk_init and the stage loop, sgh_execute.cpp:266-287 (rk_init: time_integration.cpp:53-90; it is called once
    per material, so at least one material is assumed).  The models may differ
    from stage to stage (they read the time, the cycle and contact data). *)
Definition rk_alpha (N k : nat) : R := 1 / (INR N - INR k).
Definition rk_step (m : mesh3) (L : layout) (Ms : nat -> models) (N : nat) (dt : R) (s : sgh) : sgh :=
  fold_left (fun s k => rk_stage m L (Ms k) (rk_alpha N k) dt s) (seq 0 N) (set_start s).

(** The time loop, sgh_execute.cpp:150-640: any number of cycles with the step sizes and models met.
    Output, time-step control and stop criteria do not write to the state. *)
Definition run (m : mesh3) (L : layout) (N : nat) (cycles : list (R * (nat -> models))) (s : sgh) : sgh :=
  fold_left (fun s '(dt, Ms) => rk_step m L Ms N dt s) cycles s.

(** Tallies printed by execute: sgh_execute.cpp:758-868. *)
Definition internal_energy (L : layout) (s : sgh) : R :=
  sumn (num_mats L) (fun mat => sumn (num_mat_elems L mat) (fun sid => s_mass s mat sid * s_sie s mat sid)).
Definition kinetic_energy (m : mesh3) (s : sgh) : R :=
  0.5 * sumn (num_nodes m) (fun n => s_nmass s n * sumn 3 (fun d => s_v s n d * s_v s n d)).
Definition total_mass (L : layout) (s : sgh) : R :=
  sumn (num_mats L) (fun mat => sumn (num_mat_elems L mat) (fun sid => s_mass s mat sid)).
Definition node_mass_total (m : mesh3) (s : sgh) : R := sumn (num_nodes m) (s_nmass s).
