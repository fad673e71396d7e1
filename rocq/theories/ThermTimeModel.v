(** Model of the time-step control and the cycle loop of the thermal solver (paths relative to
    /repo/apps/multiphysics/src/Solvers/SGTM_solver_3D/src/).  Time options, output times and the loop variables are those of
    TimeModel; the physics between two time-step computations is an arbitrary environment giving the elements of every material. *)
From Coq Require Import NArith.
From Verif Require Import BaseReal TimeModel.
Local Open Scope R_scope.

(** One element as seen by get_timestep, time_integration.cpp:131-186: node coordinates, conductivity, density, specific heat. *)
Record th_elem := mkTh { h_pos : nat -> nat -> R; h_k : R; h_den : R; h_heat : R }.

(** time_integration.cpp:182-202: fmin(1, dt_vn).  Divisions by zero follow IEEE arithmetic without signed zeros: k / 0 is
    infinite and makes dt_vn zero, 0 / 0 and h^2 / 0 give NaN or infinity and fmin returns its other argument, 1. *)
Definition th_limit (e : th_elem) : R :=
  let rc := h_den e * h_heat e in
  let h := dist_min (h_pos e) in
  if Req_EM_T rc 0 then (if Req_EM_T (h_k e) 0 then 1 else fmin 1 0)
  else
    let alpha := h_k e / rc in
    if Req_EM_T alpha 0 then 1 else
    let dt_vn := (h * h) / (2 * 3 * alpha) in
    fmin 1 (dt_vn * (3 / 10)).

(** time_integration.cpp:204-206 *)
Definition th_elem_dt (c : tcfg) (e : th_elem) : R := fmax (fmin (th_limit e) (dt_max c)) (dt_min c).

(** SGTM3D::get_timestep, time_integration.cpp:121-225 *)
Definition th_get_timestep (c : tcfg) (elems : list th_elem) (time graphics_time dt : R) : R :=
  let dt := dt * (11 / 10) in
  let dt := match reduce_min (map (th_elem_dt c) elems) with
            | Some m => if Rlt_dec m dt then m else dt
            | None => dt
            end in
  let dt := fmin dt (fmax (fuzz c) (graphics_time - time) + tiny c) in
  fmin dt (t_final c - time + tiny c).

(** sgtm_execute.cpp:181-215 *)
Definition th_cycle_dt (c : tcfg) (mats : list (list th_elem)) (time graphics_time dt : R) : R :=
  fold_left (fun m elems => fmin (th_get_timestep c elems time graphics_time dt) m) mats (dt_max c).

(** sgtm_execute.cpp:171-411, time control and output only; the decision to write (376-388) is the text of sgh_execute.cpp:586-598 *)
Definition th_cycle_body (c : tcfg) (mats : list (list th_elem)) (s : lst) : step_res :=
  let cached := dt s in
  let d := th_cycle_dt c mats (time s) (gtime s) (dt s) in
  let t1 := time s + d in
  match do_write c (cycle s) t1 (gtime s) with
  | None => Undefined
  | Some w =>
    let h := hist s ++ [mkCyc (time s) (dt s) (gtime s) d t1 w] in
    if w && negb (write_ok (out_id s)) then Undefined else
    let s' :=
      if w then mkLst t1 cached (INR (S (out_id s)) * gr_dt c) (S (out_id s)) (S (cycle s)) (writes s ++ [t1]) h
      else mkLst t1 d (gtime s) (out_id s) (S (cycle s)) (writes s) h in
    if Rle_dec (t_final c) t1 then Stop s' else Continue s'
  end.

(** the cycle loop, sgtm_execute.cpp:171 *)
Fixpoint th_run_loop (c : tcfg) (env : nat -> list (list th_elem)) (n : nat) (s : lst) : run_res :=
  match n with
  | O => CycleLimit s
  | S k => match th_cycle_body c (env (cycle s)) s with
           | Undefined => RUndefined
           | Stop s' => ReachedFinal s'
           | Continue s' => th_run_loop c env k s'
           end
  end.

(** SGTM3D::execute, restricted to time control and output; initial values sgtm_execute.cpp:80-92, 124-140 *)
Definition th_run (c : tcfg) (env : nat -> list (list th_elem)) : run_res :=
  th_run_loop c env (cycle_stop c) (init_state c).
