(** Model of the time-step control and the cycle loop of the axisymmetric solver (paths relative to
    /repo/apps/multiphysics/src/Solvers/SGH_solver_rz/src/).  Time options, outputs and loop variables are those of TimeModel; the
    elements are those of TimeModel too, of which the code reads four nodes and two coordinates.  [double] is [R]. *)
From Coq Require Import NArith.
From Verif Require Import BaseReal TimeModel.
Local Open Scope R_scope.

(** time_integration_rz.cpp:152-163: i from 0 to 2, j from i + 1 to 3 *)
Definition rz_pairs : list (nat * nat) := flat_map (fun i => map (fun j => (i, j)) (seq (i + 1) (3 - i))) (seq 0 3).
Definition rz_dist (x : nat -> nat -> R) (i j : nat) : R :=
  Rabs (sqrt ((x i 0%nat - x j 0%nat) ^ 2 + (x i 1%nat - x j 1%nat) ^ 2)).
(** time_integration_rz.cpp:165-169 *)
Definition rz_dist_min (x : nat -> nat -> R) : R := minl (map (fun p => rz_dist x (fst p) (snd p)) rz_pairs) (rz_dist x 0 1).

(** time_integration_rz.cpp:171-181 *)
Definition rz_elem_dt (c : tcfg) (e : elem_in) : R :=
  let dt_lcl := dt_cfl c * rz_dist_min (e_x e) / (e_c e + fuzz c) in
  let dt_lcl := if e_eroded e then 1e32 else dt_lcl in
  let dt_lcl := fmin dt_lcl (dt_max c) in
  fmax dt_lcl (dt_min c).

(** SGHRZ::get_timestep_rz, time_integration_rz.cpp:113-204 *)
Definition rz_get_timestep (c : tcfg) (elems : list elem_in) (time graphics_time dt : R) : R :=
  let dt := dt * (11 / 10) in
  let dt := match reduce_min (map (rz_elem_dt c) elems) with
            | Some m => if Rlt_dec m dt then m else dt
            | None => dt
            end in
  let dt := fmin dt (fmax (fuzz c) (graphics_time - time) + tiny c) in
  fmin dt (t_final c - time + tiny c).

(** sgh_execute_rz.cpp:191-226: smallest step over all materials *)
Definition rz_cycle_dt (c : tcfg) (mats : list (list elem_in)) (time graphics_time dt : R) : R :=
  fold_left (fun m elems => fmin (rz_get_timestep c elems time graphics_time dt) m) mats (dt_max c).

(** Initial write, sgh_execute_rz.cpp:78-90, 159-176 *)
Definition rz_init_state (c : tcfg) : lst :=
  mkLst (t_start c) (dt_start c) (t_start c + gr_dt c) 1 0 [t_start c] [].

(** sgh_execute_rz.cpp:432-444.  [None]: division by zero in [% graphics_cyc_ival]. *)
Definition rz_do_write (c : tcfg) (cycle : nat) (time gtime : R) : option bool :=
  if Nat.eqb (gr_cyc c) 0 then None else
  Some (
    if Nat.eqb (Nat.modulo (cycle + 1) (gr_cyc c)) 0 && Nat.ltb 0 cycle then true
    else if Nat.eqb cycle (cycle_stop c) then true
    else if Rle_dec (t_final c) time then true
    else if Rle_dec gtime time then true
    else false).

(** Body of the cycle loop, sgh_execute_rz.cpp:183-470 (physics is the environment [mats]) *)
Definition rz_cycle_body (c : tcfg) (mats : list (list elem_in)) (s : lst) : step_res :=
  let cached := dt s in
  let d := rz_cycle_dt c mats (time s) (gtime s) (dt s) in
  let t1 := time s + d in
  match rz_do_write c (cycle s) t1 (gtime s) with
  | None => Undefined
  | Some w =>
    let h := hist s ++ [mkCyc (time s) (dt s) (gtime s) d t1 w] in
    if w && negb (write_ok (out_id s)) then Undefined else
    let s' :=
      if w then mkLst t1 cached (INR (S (out_id s)) * gr_dt c) (S (out_id s)) (S (cycle s)) (writes s ++ [t1]) h
      else mkLst t1 d (gtime s) (out_id s) (S (cycle s)) (writes s) h in
    if Rle_dec (t_final c) t1 then Stop s' else Continue s'
  end.

(** The [for] loop, sgh_execute_rz.cpp:183 *)
Fixpoint rz_run_loop (c : tcfg) (env : nat -> list (list elem_in)) (n : nat) (s : lst) : run_res :=
  match n with
  | O => CycleLimit s
  | S k => match rz_cycle_body c (env (cycle s)) s with
           | Undefined => RUndefined
           | Stop s' => ReachedFinal s'
           | Continue s' => rz_run_loop c env k s'
           end
  end.

(** SGHRZ::execute, restricted to time control and output *)
Definition rz_time_run (c : tcfg) (env : nat -> list (list elem_in)) : run_res :=
  rz_run_loop c env (cycle_stop c) (rz_init_state c).
