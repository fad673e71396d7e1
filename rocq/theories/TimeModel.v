(** Model of the time-step controller and of the cycle/output loop of the SGH 3D solver.
    Paths are relative to /repo/apps/multiphysics/src/.
    Simplification used throughout: [double] is modelled by [R] (no rounding, NaN, overflow);
    the physics between two time-step computations is an arbitrary environment giving, for every
    cycle, the elements (node positions, sound speed, erosion flag) of every material. *)
From Coq Require Import NArith.
From Verif Require Import BaseReal.
Local Open Scope R_scope.

(** One element as seen by [get_timestep]: Solvers/SGH_solver_3D/src/time_integration.cpp:135-148
    (coords), 186 (MaterialPoints_sspd), 188 (MaterialPoints_eroded). *)
Record elem_in := mkElem {
  e_x : nat -> nat -> R;    (* node_lid, dim *)
  e_c : R;                  (* sound speed *)
  e_eroded : bool
}.

(** The "tricky indexing": time_integration.cpp:151-176.  State is (countA, countB, loop). *)
Definition pair_next (st : nat * nat * nat) : nat * nat * nat :=
  let '(cA, cB, lp) := st in
  let cB' := S cB in
  let cA' := S cA in
  if Nat.ltb 7 cB' then (0, 1 + S lp, S lp)%nat else (cA', cB', lp).

(** time_integration.cpp:159-177: the pairs (a,b) visited by [n] iterations. *)
Fixpoint pair_loop (n : nat) (st : nat * nat * nat) : list (nat * nat) :=
  match n with
  | O => []
  | S k => let '(cA, cB, _) := st in (cA, cB) :: pair_loop k (pair_next st)
  end.

(** time_integration.cpp:151-155,159: 28 iterations from (0,1,0). *)
Definition node_pairs : list (nat * nat) := pair_loop 28 (0, 1, 0)%nat.

(** time_integration.cpp:164-166. *)
Definition node_dist (x : nat -> nat -> R) (a b : nat) : R :=
  Rabs (sqrt ((x b 0%nat - x a 0%nat) ^ 2 + (x b 1%nat - x a 1%nat) ^ 2 + (x b 2%nat - x a 2%nat) ^ 2)).

(** time_integration.cpp:179-183: [dist_min = dist(0)], then fmin over all 28 entries. *)
Definition dist_min (x : nat -> nat -> R) : R :=
  minl (map (fun '(a, b) => node_dist x a b) node_pairs) (node_dist x 0 1).

(** User options: common/include/dynamic_options.hpp:47-62, output_options.hpp:129-130;
    t_start and t_final are the solver window (sgh_execute.cpp:107,117).
    [cycle_stop] and [gr_cyc] are taken as naturals (the code converts int to size_t). *)
Record tcfg := mkCfg {
  dt_min : R; dt_max : R; dt_start : R; dt_cfl : R;
  fuzz : R; tiny : R;
  t_start : R; t_final : R;
  gr_dt : R;                (* graphics_time_step *)
  gr_cyc : nat;             (* graphics_iteration_step *)
  cycle_stop : nat
}.

(** time_integration.cpp:186-194. *)
Definition elem_dt (c : tcfg) (e : elem_in) : R :=
  let dt_lcl := dt_cfl c * dist_min (e_x e) / (e_c e + fuzz c) in
  let dt_lcl := if e_eroded e then 1e32 else dt_lcl in
  let dt_lcl := fmin dt_lcl (dt_max c) in
  fmax dt_lcl (dt_min c).

(** FOR_REDUCE_MIN, time_integration.cpp:134,196-200: [None] is the untouched identity
    (largest double) of an empty range. *)
Definition reduce_min (l : list R) : option R :=
  fold_left (fun acc x => match acc with
                          | None => Some x
                          | Some m => Some (if Rlt_dec x m then x else m)
                          end) l None.

(** SGH3D::get_timestep, time_integration.cpp:110-213; [dt] is the value passed by reference,
    the result is its value on return. *)
Definition get_timestep (c : tcfg) (elems : list elem_in) (time graphics_time dt : R) : R :=
  let dt := dt * (11 / 10) in
  let dt := match reduce_min (map (elem_dt c) elems) with
            | Some m => if Rlt_dec m dt then m else dt
            | None => dt
            end in
  let dt := fmin dt (fmax (fuzz c) (graphics_time - time) + tiny c) in
  fmin dt (t_final c - time + tiny c).

(** Solvers/SGH_solver_3D/src/sgh_execute.cpp:219-252: smallest step over all materials. *)
Definition cycle_dt (c : tcfg) (mats : list (list elem_in)) (time graphics_time dt : R) : R :=
  fold_left (fun m elems => fmin (get_timestep c elems time graphics_time dt) m) mats (dt_max c).

(** One executed cycle, recorded for the statements (ghost data, not in the code). *)
Record cyc := mkCyc {
  c_t0 : R;       (* time before *)
  c_dtin : R;     (* dt carried into the cycle *)
  c_gt : R;       (* pending graphics time *)
  c_dt : R;       (* dt used *)
  c_t1 : R;       (* time after *)
  c_wrote : bool  (* an output was written in this cycle *)
}.

(** Loop variables of SGH3D::execute: sgh_execute.cpp:117-118,130-133.  [writes] and [hist] are
    the observable outputs (times handed to write_mesh) and executed cycles, in order. *)
Record lst := mkLst {
  time : R; dt : R; gtime : R; out_id : nat; cycle : nat;
  writes : list R; hist : list cyc
}.

(** Size of [graphics_times], sgh_execute.cpp:130; write_mesh stores the time of output number
    [graphics_id] there (common/include/mesh_io.hpp:2814; graphics_id counts the outputs of
    this solver, mesh_io.hpp:1893,2854), so output number 20000 is out of bounds. *)
Definition graphics_cap : N := 20000%N.
Definition write_ok (id : nat) : bool := N.ltb (N.of_nat id) graphics_cap.

(** sgh_execute.cpp:117-118,130-133,191-207: initial write.  cached dt and the energy tallies do
    not influence the loop variables. *)
Definition init_state (c : tcfg) : lst :=
  mkLst (t_start c) (dt_start c) (t_start c + gr_dt c) 1 0 [t_start c] [].

(** sgh_execute.cpp:586-598.  [None]: division by zero in [% graphics_cyc_ival]. *)
Definition do_write (c : tcfg) (cycle : nat) (time gtime : R) : option bool :=
  if Nat.eqb (gr_cyc c) 0 then None else
  Some (
    if Nat.eqb (Nat.modulo (cycle + 1) (gr_cyc c)) 0 && Nat.ltb 0 cycle then true
    else if Nat.eqb cycle (cycle_stop c) then true
    else if Rle_dec (t_final c) time then true
    else if Rle_dec gtime time then true
    else false).

(** Outcome of one cycle. *)
Inductive step_res := Undefined | Continue (s : lst) | Stop (s : lst).

(** Body of the cycle loop, sgh_execute.cpp:211-623 (physics is the environment [mats]). *)
Definition cycle_body (c : tcfg) (mats : list (list elem_in)) (s : lst) : step_res :=
  let cached := dt s in
  let d := cycle_dt c mats (time s) (gtime s) (dt s) in
  let t1 := time s + d in
  match do_write c (cycle s) t1 (gtime s) with
  | None => Undefined
  | Some w =>
    let h := hist s ++ [mkCyc (time s) (dt s) (gtime s) d t1 w] in
    if w && negb (write_ok (out_id s)) then Undefined else
    let s' :=
      if w then mkLst t1 cached (INR (S (out_id s)) * gr_dt c) (S (out_id s)) (S (cycle s))
                      (writes s ++ [t1]) h
      else mkLst t1 d (gtime s) (out_id s) (S (cycle s)) (writes s) h in
    if Rle_dec (t_final c) t1 then Stop s' else Continue s'
  end.

(** Final outcome of the run. *)
Inductive run_res := RUndefined | ReachedFinal (s : lst) | CycleLimit (s : lst).

(** The [for] loop, sgh_execute.cpp:211; [n] = cycle_stop - cycle. *)
Fixpoint run_loop (c : tcfg) (env : nat -> list (list elem_in)) (n : nat) (s : lst) : run_res :=
  match n with
  | O => CycleLimit s
  | S k => match cycle_body c (env (cycle s)) s with
           | Undefined => RUndefined
           | Stop s' => ReachedFinal s'
           | Continue s' => run_loop c env k s'
           end
  end.

(** SGH3D::execute, restricted to time control and output. *)
Definition run (c : tcfg) (env : nat -> list (list elem_in)) : run_res :=
  run_loop c env (cycle_stop c) (init_state c).

(** Driver::setup_solver_vars, driver.cpp:335-398: window of solver [id] given the end of the
    previous solver's window. *)
Definition solver_window (time_final : R) (id : nat) (prior_end : R) (t_end : R) : R * R :=
  if Nat.eqb id 0 then
    (0, if Rle_dec t_end 1e-14 then fmax 0 time_final else t_end)
  else
    (prior_end, if Rle_dec t_end 1e-14 then time_final else fmin t_end time_final).

(** Driver::initialize calls setup_solver_vars once per solver in input order
    (driver.cpp:118-213, called at 130,149,166,184,200): windows of the list of requested end times, numbered from [id]. *)
Fixpoint solver_windows (time_final : R) (id : nat) (prior_end : R) (ends : list R) : list (R * R) :=
  match ends with
  | [] => []
  | t_end :: rest =>
      let w := solver_window time_final id prior_end t_end in
      w :: solver_windows time_final (S id) (snd w) rest
  end.
