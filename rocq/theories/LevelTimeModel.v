(** Model of the time-step control and the cycle loop of the level-set solver (paths relative to
    /repo/apps/multiphysics/src/Solvers/level_set_solver/src/).  Time options, outputs and loop variables are those of TimeModel.
    The nodes do not move, but the environment may give other elements every cycle. *)
From Coq Require Import NArith.
From Verif Require Import BaseReal TimeModel.
Local Open Scope R_scope.

(** A material as seen by the time-step control: whether its level-set type is evolveFront, the two velocities of the front
    (common/include/material.hpp:428-430) and the node coordinates of its elements. *)
Record lv_mat := mkLv { lv_evolves : bool; lv_normal : R; lv_curv : R; lv_elems : list (nat -> nat -> R) }.

(** time_integration.cpp:263-273: the six distances of a quadrilateral *)
Definition quad_pairs : list (nat * nat) := flat_map (fun i => map (fun j => (i, j)) (seq (i + 1) (3 - i))) (seq 0 3).
Definition quad_dist (x : nat -> nat -> R) (i j : nat) : R :=
  Rabs (sqrt ((x i 0%nat - x j 0%nat) ^ 2 + (x i 1%nat - x j 1%nat) ^ 2)).
Definition quad_min (x : nat -> nat -> R) : R := minl (map (fun p => quad_dist x (fst p) (snd p)) quad_pairs) (quad_dist x 0 1).

(** time_integration.cpp:163-167 (3D), 275-279 (2D) *)
Definition lv_size (dims : nat) (x : nat -> nat -> R) : R := if Nat.eqb dims 3 then dist_min x else quad_min x.

(** time_integration.cpp:169-182, 281-295: kappa = 1 / (3 dist_min), front velocity 1.5 + normal + curvature * kappa, fmin with dt_max.
    Divisions by zero follow IEEE arithmetic without signed zeros: with dist_min = 0 the curvature part is infinite and the quotient
    zero, or NaN if the curvature velocity is 0 and fmin returns dt_max; a zero denominator gives infinity. *)
Definition lv_limit (c : tcfg) (dims : nat) (m : lv_mat) (x : nat -> nat -> R) : R :=
  let h := lv_size dims x in
  if Req_EM_T h 0 then (if Req_EM_T (lv_curv m) 0 then dt_max c else fmin 0 (dt_max c)) else
  let kappa := 1 / (3 * h) in
  let front := 3 / 2 + lv_normal m + lv_curv m * kappa in
  if Req_EM_T (front + fuzz c) 0 then dt_max c else fmin (dt_cfl c * h / (front + fuzz c)) (dt_max c).

(** time_integration.cpp:183, 296 *)
Definition lv_elem_dt (c : tcfg) (dims : nat) (m : lv_mat) (x : nat -> nat -> R) : R := fmax (lv_limit c dims m x) (dt_min c).

(** LevelSet::get_timestep and get_timestep_2D, time_integration.cpp:94-203, 221-316 *)
Definition lv_get_timestep (c : tcfg) (dims : nat) (m : lv_mat) (time graphics_time dt : R) : R :=
  let dt := dt * (11 / 10) in
  let dt := match reduce_min (map (lv_elem_dt c dims m) (lv_elems m)) with
            | Some q => if Rlt_dec q dt then q else dt
            | None => dt
            end in
  let dt := fmin dt (fmax (fuzz c) (graphics_time - time) + tiny c) in
  fmin dt (t_final c - time + tiny c).

(** level_set_execute.cpp:135-202: a material that does not evolve a front gives the unchanged dt *)
Definition lv_mat_dt (c : tcfg) (dims : nat) (m : lv_mat) (time graphics_time dt : R) : R :=
  if lv_evolves m then lv_get_timestep c dims m time graphics_time dt else dt.
Definition lv_cycle_dt (c : tcfg) (dims : nat) (mats : list lv_mat) (time graphics_time dt : R) : R :=
  fold_left (fun q m => fmin (lv_mat_dt c dims m time graphics_time dt) q) mats (dt_max c).

(** level_set_execute.cpp:126-343, time control and output only.  The decision to write (306-318) is the text of
    SGH_solver_3D/src/sgh_execute.cpp:586-598; the next output time (334) is counted from the present time. *)
Definition lv_cycle_body (c : tcfg) (dims : nat) (mats : list lv_mat) (s : lst) : step_res :=
  let cached := dt s in
  let d := lv_cycle_dt c dims mats (time s) (gtime s) (dt s) in
  let t1 := time s + d in
  match do_write c (cycle s) t1 (gtime s) with
  | None => Undefined
  | Some w =>
    let h := hist s ++ [mkCyc (time s) (dt s) (gtime s) d t1 w] in
    if w && negb (write_ok (out_id s)) then Undefined else
    let s' :=
      if w then mkLst t1 cached (t1 + gr_dt c) (S (out_id s)) (S (cycle s)) (writes s ++ [t1]) h
      else mkLst t1 d (gtime s) (out_id s) (S (cycle s)) (writes s) h in
    if Rle_dec (t_final c) t1 then Stop s' else Continue s'
  end.

(** the cycle loop, level_set_execute.cpp:126 *)
Fixpoint lv_run_loop (c : tcfg) (dims : nat) (env : nat -> list lv_mat) (n : nat) (s : lst) : run_res :=
  match n with
  | O => CycleLimit s
  | S k => match lv_cycle_body c dims (env (cycle s)) s with
           | Undefined => RUndefined
           | Stop s' => ReachedFinal s'
           | Continue s' => lv_run_loop c dims env k s'
           end
  end.

(** LevelSet::execute, restricted to time control and output; initial values level_set_execute.cpp:80-123 *)
Definition lv_run (c : tcfg) (dims : nat) (env : nat -> list lv_mat) : run_res :=
  lv_run_loop c dims env (cycle_stop c) (init_state c).
