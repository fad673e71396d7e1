(** Model of the thermal solver SGTM3D (paths relative to /repo/apps/multiphysics/src/; heat_flux.cpp, boundary.cpp,
    temperature_sgtm.cpp, time_integration.cpp, properties.cpp and sgtm_execute.cpp are in Solvers/SGTM_solver_3D/src).
    [double] is [R].  Node, corner and gauss point arrays are total functions of their indices.  Accesses to the ragged
    material point arrays with an index that is not the material's own storage index are checked: outside the row
    (whose length is the number of elements of the material, common/src/region_fill.cpp:195-197, buffer 0) the result
    is [None].  A division by zero mass x heat capacity is [None] as well.  FOR_ALL loops run in increasing order;
    that the order does not matter is proved in ThermProps. *)
From Verif Require Import BaseReal BaseArr GeomModel SghModel TableModel.
Local Open Scope R_scope.

(** What does not change during a calculation: the mesh, mesh.elems_in_node (filled next to corners_in_node, see
    [build_corners]), the material layout, node coordinates (the solver never moves them), node masses, conductivity,
    specific heat.  (update_properties, properties.cpp:62-103, runs once before the cycle loop, see [tabular_property]
    in TableModel; h_cond and h_cp are the values after it.) *)
Record thermal := mkThermal {
  h_mesh : mesh3;
  h_elems : nat -> list nat;           (* elems_in_node(n, 0..num_corners_in_node(n)-1) *)
  h_L : layout;
  h_x : nat -> nat -> R;
  h_mass : nat -> R;
  h_cond : nat -> nat -> R;            (* material, storage index *)
  h_cp : nat -> nat -> R
}.

(** The arrays the solver writes. *)
Record tstate := mkT {
  t_temp : nat -> R; t_temp0 : nat -> R;            (* node.temp, node.temp_n0 *)
  t_nq : nat -> R;                                   (* node.q_transfer *)
  t_cq : nat -> R;                                   (* corner.q_transfer *)
  t_vol : nat -> R;                                  (* GaussPoints.vol *)
  t_grad : nat -> nat -> nat -> R;                   (* MaterialPoints.temp_grad *)
  t_flux : nat -> nat -> nat -> R;                   (* MaterialPoints.q_flux *)
  t_eroded : nat -> nat -> bool                      (* MaterialPoints.eroded *)
}.
Definition set_temp v s := mkT v (t_temp0 s) (t_nq s) (t_cq s) (t_vol s) (t_grad s) (t_flux s) (t_eroded s).
Definition set_temp0 v s := mkT (t_temp s) v (t_nq s) (t_cq s) (t_vol s) (t_grad s) (t_flux s) (t_eroded s).
Definition set_nq v s := mkT (t_temp s) (t_temp0 s) v (t_cq s) (t_vol s) (t_grad s) (t_flux s) (t_eroded s).
Definition set_cq v s := mkT (t_temp s) (t_temp0 s) (t_nq s) v (t_vol s) (t_grad s) (t_flux s) (t_eroded s).
Definition set_tvol v s := mkT (t_temp s) (t_temp0 s) (t_nq s) (t_cq s) v (t_grad s) (t_flux s) (t_eroded s).
Definition set_grad v s := mkT (t_temp s) (t_temp0 s) (t_nq s) (t_cq s) (t_vol s) v (t_flux s) (t_eroded s).
Definition set_flux v s := mkT (t_temp s) (t_temp0 s) (t_nq s) (t_cq s) (t_vol s) (t_grad s) v (t_eroded s).
Definition set_melt v s := mkT (t_temp s) (t_temp0 s) (t_nq s) (t_cq s) (t_vol s) (t_grad s) (t_flux s) v.


(** mesh.elems_in_node, filled in the same pass as corners_in_node:
    /repo/legacy/Fierro_V0/src/Parallel-Solvers/Parallel-Explicit/SGH_Solver/include/mesh.h:283-303 *)
Definition fill_elems (nnodes ne nn : nat) (nodes : nat -> nat -> nat) (stride : nat -> nat) : option ((nat -> nat -> nat) * (nat -> nat)) :=
  for_each (elem_corners ne nn)
    (fun '(e, l) '(ein, saved) =>
       let n := nodes e l in
       let j := saved n in
       if Nat.ltb n nnodes && Nat.ltb j (stride n) then Some (fupd2 ein n j e, fupd saved n (saved n + 1)%nat) else None)
    (fun _ _ => O, fun _ => O).
Definition build_elems (nnodes ne nn : nat) (nodes : nat -> nat -> nat) : option (nat -> list nat) :=
  obind (count_corners nnodes ne nn nodes) (fun stride =>
  obind (fill_elems nnodes ne nn nodes stride) (fun '(ein, _) => Some (fun n => map (ein n) (seq 0 (stride n))))).

(** ** Conduction *)

(** heat_flux.cpp:118-124: mean nodal temperature *)
Definition avg_temp (m : mesh3) (T : nat -> R) (e : nat) : R :=
  fold_left (fun a l => a + T (nodes_in m e l) / 8) (seq 0 8) 0.
(** heat_flux.cpp:133-150: temperature gradient *)
Definition temp_gradient (P : thermal) (s : tstate) (e d : nat) : R :=
  let b := elem_bmat (h_mesh P) (h_x P) e in
  fold_left (fun a l => a + t_temp s (nodes_in (h_mesh P) e l) * b l d) (seq 0 8) 0 * (1 / t_vol s e).
(** heat_flux.cpp:158-161 *)
Definition point_flux (P : thermal) (s : tstate) (mat sid d : nat) : R :=
  -1 * h_cond P mat sid * temp_gradient P s (elem_in_mat (h_L P) mat sid) d.
(** heat_flux.cpp:164-182: the corners of one element; q is the flux just stored *)
Definition write_corners (P : thermal) (e : nat) (q : nat -> R) (cq : nat -> R) : nat -> R :=
  let b := elem_bmat (h_mesh P) (h_x P) e in
  fold_left (fun cq l =>
    let c := corners_in_elem (h_mesh P) e l in
    fupd cq c (fold_left (fun a d => a + q d * (1 * b l d)) (seq 0 3) 0)) (seq 0 8) cq.
(** heat_flux.cpp:93-183: one element of the material.  The gradient is stored at (mat_id, elem_gid), line 153. *)
Definition heat_elem (P : thermal) (mat sid : nat) (s : tstate) : option tstate :=
  let e := elem_in_mat (h_L P) mat sid in
  let g := temp_gradient P s e in
  let q := point_flux P s mat sid in
  let s := set_melt (if Rle_dec 900 (avg_temp (h_mesh P) (t_temp s) e) then fupd2 (t_eroded s) mat sid true else t_eroded s) s in
  if Nat.ltb e (num_mat_elems (h_L P) mat) then
    Some (set_cq (write_corners P e q (t_cq s)) (set_flux (fupd2 (t_flux s) mat sid q) (set_grad (fupd2 (t_grad s) mat e g) s)))
  else None.
(** SGTM3D::get_heat_flux, heat_flux.cpp:70-186 *)
Definition get_heat_flux (P : thermal) (mat : nat) (s : tstate) : option tstate :=
  for_up 0 (num_mat_elems (h_L P) mat) (heat_elem P mat) s.

(** ** Moving heat source *)

(** heat_flux.cpp:245-263 *)
Definition elem_center (P : thermal) (e d : nat) : R :=
  fold_left (fun a l => a + h_x P (nodes_in (h_mesh P) e l) d) (seq 0 8) 0 / 8.
Definition source_radius2 : R := 8 * 8.
Definition source_volume : R := 4 / 3 * 3.14159 * source_radius2 * 8.
Definition in_source (P : thermal) (pos : nat -> R) (e : nat) : bool :=
  if Rle_dec (fold_left (fun a d => a + (pos d - elem_center P e d) * (pos d - elem_center P e d)) (seq 0 3) 0) source_radius2
  then true else false.
(** SGTM3D::moving_flux, heat_flux.cpp:213-302 *)
Definition moving_flux (P : thermal) (pos : nat -> R) (power : R) (mat : nat) (s : tstate) : tstate :=
  fold_left (fun s sid =>
    let e := elem_in_mat (h_L P) mat sid in
    if in_source P pos e then
      set_cq (fold_left (fun cq l =>
                let c := corners_in_elem (h_mesh P) e l in
                fupd cq c (cq c + power / source_volume * 0.125 * t_vol s e)) (seq 0 8) (t_cq s)) s
    else s) (seq 0 (num_mat_elems (h_L P) mat)) s.

(** sgtm_execute.cpp:255-307: for every material conduction, then the source ([None]: use_moving_heat_source is off) *)
Definition corner_heat (P : thermal) (src : option ((nat -> R) * R)) (s : tstate) : option tstate :=
  for_up 0 (num_mats (h_L P)) (fun mat s =>
    obind (get_heat_flux P mat s) (fun s =>
    Some (match src with Some (pos, power) => moving_flux P pos power mat s | None => s end))) s.

(** ** Boundary conditions *)

(** BCTemperatureModels, common/include/boundary_conditions.hpp:73-80; the sets of boundary patches and nodes are
    those of BdyModel; tb_nip is mesh.nodes_in_patch, tb_value is temperature_bc_global_vars(set, 0). *)
Inductive tkind := NoTemp | ConstTemp | ConvTemp | RadTemp.
Record tbc := mkTbc {
  tb_sets : nat; tb_kind : nat -> tkind; tb_patches : nat -> list nat; tb_nodes : nat -> list nat;
  tb_value : nat -> R; tb_nip : nat -> nat -> nat }.

(** boundary.cpp:147-165, 171-194 (and 277-327): the area of a triangle from its squared sides *)
Definition tri_area3 (a b c : nat -> R) : R :=
  let A := sumn 3 (fun d => (b d - c d) * (b d - c d)) in
  let B := sumn 3 (fun d => (a d - c d) * (a d - c d)) in
  let C := sumn 3 (fun d => (a d - b d) * (a d - b d)) in
  let tmp := 4 * A * B - (A + B - C) * (A + B - C) in
  sqrt (tmp / 16).
(** boundary.cpp:130-201 (and 272-331): a quarter of the area of the patch *)
Definition quarter_area (x : nat -> nat -> R) (nip : nat -> nat) : R :=
  let area1 := tri_area3 (x (nip 0%nat)) (x (nip 1%nat)) (x (nip 2%nat)) in
  let area2 := tri_area3 (x (nip 2%nat)) (x (nip 3%nat)) (x (nip 0%nat)) in
  (area1 + area2) / 4.
(** boundary.cpp:203-214 *)
Definition convection_flux (area T : R) : R := -1 * 100 * (T - 293.15) * area.
(** boundary.cpp:333-358 *)
Definition radiation_flux (area T : R) : R :=
  let tmp1 := (T - 0) * (T - 0) * (T - 0) * (T - 0) in
  let tmp2 := (0 - 0) * (0 - 0) * (0 - 0) * (0 - 0) in
  -1 * 0.2 * 5.67037442e-8 * (tmp1 - tmp2) * area.
(** boundary.cpp:207-219 (and 340-363): the four nodes of a patch *)
Definition patch_heat (P : thermal) (B : tbc) (flux : R -> R -> R) (T : nat -> R) (p : nat) (nq : nat -> R) : nat -> R :=
  let area := quarter_area (h_x P) (tb_nip B p) in
  fold_left (fun nq l => let n := tb_nip B p l in fupd nq n (nq n + flux area (T n))) (seq 0 4) nq.
Definition kind_eqb (a b : tkind) : bool :=
  match a, b with NoTemp, NoTemp | ConstTemp, ConstTemp | ConvTemp, ConvTemp | RadTemp, RadTemp => true | _, _ => false end.
(** boundary_convection, boundary.cpp:101-223, and boundary_radiation, 242-368 *)
Definition boundary_flux (P : thermal) (B : tbc) (k : tkind) (flux : R -> R -> R) (s : tstate) : tstate :=
  set_nq (fold_left (fun nq set =>
    if kind_eqb (tb_kind B set) k then fold_left (fun nq p => patch_heat P B flux (t_temp s) p nq) (tb_patches B set) nq else nq)
    (seq 0 (tb_sets B)) (t_nq s)) s.
Definition boundary_convection (P : thermal) (B : tbc) : tstate -> tstate := boundary_flux P B ConvTemp convection_flux.
Definition boundary_radiation (P : thermal) (B : tbc) : tstate -> tstate := boundary_flux P B RadTemp radiation_flux.
(** boundary_temperature, boundary.cpp:50-83, with boundary_conditions/temperature/constant_temp_bc.hpp:60-77 *)
Definition boundary_temperature (B : tbc) (s : tstate) : tstate :=
  set_temp (fold_left (fun T set =>
    if kind_eqb (tb_kind B set) ConstTemp then fold_left (fun T n => fupd T n (tb_value B set)) (tb_nodes B set) T else T)
    (seq 0 (tb_sets B)) (t_temp s)) s.

(** ** Temperature *)

(** temperature_sgtm.cpp:76-80: the mean specific heat of the elements around a node, always taken from the storage of
    material 0 at the element's mesh index *)
Definition node_cp (P : thermal) (n : nat) : R :=
  fold_left (fun a e => a + h_cp P 0 e / INR (length (h_elems P n))) (h_elems P n) 0.
Definition cp_in_range (P : thermal) (n : nat) : bool :=
  forallb (fun e => Nat.ltb 0 (num_mats (h_L P)) && Nat.ltb e (num_mat_elems (h_L P) 0)) (h_elems P n).
(** temperature_sgtm.cpp:64-86, one node *)
Definition node_update (P : thermal) (alpha dt : R) (n : nat) (s : tstate) : option tstate :=
  let q := fold_left (fun a c => a + t_cq s c) (corners_in_node (h_mesh P) n) (t_nq s n) in
  let s := set_nq (fupd (t_nq s) n q) s in
  if cp_in_range P n then
    let mc := h_mass P n * node_cp P n in
    if Req_EM_T mc 0 then None else Some (set_temp (fupd (t_temp s) n (t_temp0 s n + alpha * dt * t_nq s n / mc)) s)
  else None.
(** SGTM3D::update_temperature, temperature_sgtm.cpp:53-91 *)
Definition update_temperature (P : thermal) (alpha dt : R) (s : tstate) : option tstate :=
  for_up 0 (num_nodes (h_mesh P)) (node_update P alpha dt) s.

(** ** Stages, steps and runs *)

(** One stage, sgtm_execute.cpp:241-342 *)
Definition therm_stage (P : thermal) (B : tbc) (src : option ((nat -> R) * R)) (alpha dt : R) (s : tstate) : option tstate :=
  let s := set_nq (fun _ => 0) s in
  obind (corner_heat P src s) (fun s =>
  let s := boundary_radiation P B (boundary_convection P B s) in
  obind (update_temperature P alpha dt s) (fun s =>
  let s := boundary_temperature B s in
  Some (set_tvol (elem_vol (h_mesh P) (h_x P)) s))).

(** rk_init (time_integration.cpp:53-80, at least one material assumed) and the stage loop, sgtm_execute.cpp:220-342 *)
Definition therm_step (P : thermal) (B : tbc) (src : option ((nat -> R) * R)) (N : nat) (dt : R) (s : tstate) : option tstate :=
  for_up 0 N (fun k s => therm_stage P B src (rk_alpha N k) dt s) (set_temp0 (t_temp s) s).

(** The tool path compiled into the solver, sgtm_execute.cpp:98-103 *)
Definition tool_points : list tool_point :=
  [mkTool 0 100 150 15 3000000; mkTool 5 200 150 15 4000000; mkTool 5 100 150 30 4000000; mkTool 10 200 150 30 3000000].
Definition xyz (p : R * R * R) (d : nat) : R :=
  match d with O => fst (fst p) | S O => snd (fst p) | _ => snd p end.

(** One cycle, sgtm_execute.cpp:170-362, with a step size from the time-step control (ThermTimeModel): the power is the
    one at the beginning of the step, the source is moved after it.  State: arrays, time, position of the source. *)
Definition therm_cycle (P : thermal) (B : tbc) (use_src : bool) (N : nat) (dt : R) (st : tstate * R * (nat -> R))
  : option (tstate * R * (nat -> R)) :=
  let '(s, time, pos) := st in
  obind (tool_path tool_points) (fun tab =>
  obind (get_power tab time) (fun power =>
  obind (therm_step P B (if use_src then Some (pos, power) else None) N dt s) (fun s =>
  let time := time + dt in
  obind (get_position tab time) (fun p =>
  Some (s, time, if use_src then xyz p else pos))))).

(** execute, sgtm_execute.cpp:90, 139-150 and the cycle loop: boundary temperatures first, the source at the origin *)
Definition therm_run (P : thermal) (B : tbc) (use_src : bool) (N : nat) (t0 : R) (dts : list R) (s : tstate)
  : option (tstate * R * (nat -> R)) :=
  for_each dts (therm_cycle P B use_src N) (set_nq (fun _ => 0) (boundary_temperature B s), t0, fun _ => 0).
