(** Model of the parallel loops (paths relative to /repo/apps/multiphysics/src/).
    FOR_ALL(i, lo, hi, body) of MATAR/Kokkos, which is not part of the repository, runs the iterations as threads that
    share memory: every single read and write of an array entry is one atomic access, the accesses of different
    iterations interleave in any way, and Kokkos::fence() waits for all of them.  [x += e] is a read followed by a
    write, as in the code (no Kokkos::atomic_add).  [double] is [R].
    Simplifications: values of an array entry are written whole (no torn values) and every thread sees the accesses in
    one order (sequential consistency; for loops without conflicting accesses weaker orders add nothing). *)
From Coq Require Import Reals.
From Verif Require Import BaseReal BaseArr GeomModel SghModel TimeModel.
Local Open Scope R_scope.

(** ** Threads and schedules *)

Section Machine.
Context {L : Type}.

(** one iteration: what it still has to do *)
Inductive prog := Done | Rd (x : L) (k : R -> prog) | Wr (x : L) (v : R) (p : prog).

Definition mem := L -> R.

Context (eq_dec : forall x y : L, {x = y} + {x <> y}).

Definition store (m : mem) (x : L) (v : R) : mem := fun y => if eq_dec y x then v else m y.

(** the next access of a thread *)
Definition access (p : prog) (m : mem) : option (prog * mem) :=
  match p with
  | Done => None
  | Rd x k => Some (k (m x), m)
  | Wr x v p => Some (p, store m x v)
  end.

(** one step of the loop: any unfinished thread makes its next access *)
Inductive step : list prog * mem -> list prog * mem -> Prop :=
| step_thread before p after m p' m' : access p m = Some (p', m') -> step (before ++ p :: after, m) (before ++ p' :: after, m').

(** a complete execution of the loop under some schedule *)
Inductive exec : list prog -> mem -> mem -> Prop :=
| exec_done ps m : Forall (eq Done) ps -> exec ps m m
| exec_step ps m ps' m' m'' : step (ps, m) (ps', m') -> exec ps' m' m'' -> exec ps m m''.

(** the serial build: one iteration after the other *)
Fixpoint solo (p : prog) (m : mem) : mem :=
  match p with
  | Done => m
  | Rd x k => solo (k (m x)) m
  | Wr x v p => solo p (store m x v)
  end.
Definition serial (ps : list prog) (m : mem) : mem := fold_left (fun m p => solo p m) ps m.

(** loops with a fence after each *)
Inductive exec_all : list (list prog) -> mem -> mem -> Prop :=
| all_done m : exec_all [] m m
| all_loop ps rest m m' m'' : exec ps m m' -> exec_all rest m' m'' -> exec_all (ps :: rest) m m''.

(** [a += v] *)
Definition incr (x : L) (v : R) (k : prog) : prog := Rd x (fun y => Wr x (y + v) k).
(** serial loops inside an iteration, with a local variable *)
Fixpoint loop {A S} (l : list A) (body : A -> S -> (S -> prog) -> prog) (s : S) (k : S -> prog) : prog :=
  match l with [] => k s | a :: r => body a s (fun s => loop r body s k) end.
Definition each {A} (l : list A) (body : A -> prog -> prog) (k : prog) : prog :=
  loop l (fun a _ k => body a (k tt)) tt (fun _ => k).
End Machine.
Arguments prog : clear implicits.

(** ** The loops of the hydrodynamics solver *)

(** entries of the device arrays (common/include/state.hpp) *)
Inductive loc :=
| CMass (c : nat) | NMass (n : nat)                                    (* corner.mass, node.mass *)
| CForce (c d : nat) | MCForce (mat mc d : nat) | NForce (n d : nat)   (* corner.force, MaterialCorners.force, node.force *)
| Contact (n d : nat)                                                  (* contact_force *)
| Vel (n d : nat) | Vel0 (n d : nat) | Pos (n d : nat) | Pos0 (n d : nat)
| Sie (mat p : nat) | Sie0 (mat p : nat) | Mass (mat p : nat).         (* MaterialPoints.sie, sie_n0, mass *)

Definition loc_dec (x y : loc) : {x = y} + {x <> y}.
Proof. decide equality; apply Nat.eq_dec. Defined.

Notation thread := (prog loc).

(** init_corner_node_masses_zero, common/src/region_fill.cpp:2341-2353 *)
Definition zero_nodes (m : mesh3) : list thread := map (fun n => Wr (NMass n) 0 Done) (seq 0 (num_nodes m)).
Definition zero_corners (num_corners : nat) : list thread := map (fun c => Wr (CMass c) 0 Done) (seq 0 num_corners).

(** calc_corner_mass, region_fill.cpp:2276-2290 *)
Definition corner_mass_thread (m : mesh3) (elem_in : nat -> nat) (mat sid : nat) : thread :=
  each (seq 0 8) (fun l k => Rd (CMass (corners_in_elem m (elem_in sid) l)) (fun y =>
                             Rd (Mass mat sid) (fun w => Wr (CMass (corners_in_elem m (elem_in sid) l)) (y + 1 / 8 * w) k))) Done.
Definition corner_mass_loop (m : mesh3) (Y : layout) (mat : nat) : list thread :=
  map (corner_mass_thread m (elem_in_mat Y mat) mat) (seq 0 (num_mat_elems Y mat)).

(** calc_node_mass, region_fill.cpp:2318-2325 *)
Definition node_mass_thread (m : mesh3) (n : nat) : thread :=
  each (corners_in_node m n) (fun c k => Rd (CMass c) (fun w => incr (NMass n) w k)) Done.
Definition node_mass_loop (m : mesh3) : list thread := map (node_mass_thread m) (seq 0 (num_nodes m)).

(** SGH3D::get_force, Solvers/SGH_solver_3D/src/force_sgh.cpp:69-240: the writes of one iteration.  The force itself is
    computed from arrays no iteration writes; it is taken from the state at the start of the loop. *)
Definition force_thread (m : mesh3) (Y : layout) (M : models) (s : sgh) (mat sid : nat) : thread :=
  each (seq 0 8) (fun l k =>
    let c := corners_in_elem m (elem_in_mat Y mat sid) l in
    let mc := corner_in_mat sid l in
    each (seq 0 3) (fun d k =>
      let f := mat_corner_value m Y M s mat sid l d in
      if s_eroded s mat sid then Wr (CForce c d) 0 (Wr (MCForce mat mc d) 0 k)
      else Wr (MCForce mat mc d) f (incr (CForce c d) f k)) k) Done.
Definition force_loop (m : mesh3) (Y : layout) (M : models) (s : sgh) (mat : nat) : list thread :=
  map (force_thread m Y M s mat) (seq 0 (num_mat_elems Y mat)).

(** SGH3D::update_velocity, momentum.cpp:64-95 *)
Definition velocity_thread (m : mesh3) (doing_contact : bool) (alpha dt : R) (n : nat) : thread :=
  each (if doing_contact then seq 0 3 else []) (fun d k => Rd (Contact n d) (fun f => incr (NForce n d) f k))
  (each (corners_in_node m n) (fun c k => each (seq 0 3) (fun d k => Rd (CForce c d) (fun f => incr (NForce n d) f k)) k)
  (each (seq 0 3) (fun d k => Rd (Vel0 n d) (fun v0 => Rd (NForce n d) (fun f => Rd (NMass n) (fun w =>
     Wr (Vel n d) (v0 + alpha * dt * f / w) k)))) Done)).
Definition velocity_loop (m : mesh3) (doing_contact : bool) (alpha dt : R) : list thread :=
  map (velocity_thread m doing_contact alpha dt) (seq 0 (num_nodes m)).

(** SGH3D::update_energy, energy_sgh.cpp:70-107 *)
Definition energy_thread (m : mesh3) (Y : layout) (alpha dt : R) (mat sid : nat) : thread :=
  loop (seq 0 8) (fun l p k =>
    let n := nodes_in m (elem_in_mat Y mat sid) l in
    loop (seq 0 3) (fun d p k => Rd (Vel n d) (fun v => Rd (Vel0 n d) (fun v0 => Rd (MCForce mat (corner_in_mat sid l) d) (fun f =>
      k (p + f * ((v + v0) * 0.5)))))) p k) 0
  (fun power => Rd (Sie0 mat sid) (fun e0 => Rd (Mass mat sid) (fun w =>
     Wr (Sie mat sid) (e0 - alpha * dt / (w + 1e-20) * power) Done))).
Definition energy_loop (m : mesh3) (Y : layout) (alpha dt : R) (mat : nat) : list thread :=
  map (energy_thread m Y alpha dt mat) (seq 0 (num_mat_elems Y mat)).

(** SGH3D::update_position, position.cpp:61-66 *)
Definition position_thread (alpha dt : R) (n : nat) : thread :=
  each (seq 0 3) (fun d k => Rd (Vel n d) (fun v => Rd (Vel0 n d) (fun v0 => Rd (Pos0 n d) (fun x0 =>
    Wr (Pos n d) (x0 + alpha * dt * ((v + v0) * 0.5)) k)))) Done.
Definition position_loop (m : mesh3) (alpha dt : R) : list thread := map (position_thread alpha dt) (seq 0 (num_nodes m)).

(** Painting of nodal velocities in the fill loop over elements, region_fill.cpp:443-448, 556-592: every element writes
    the values of its fills to its nodes, shared nodes included. *)
Definition paint_thread (m : mesh3) (fills : nat -> list nat) (value : nat -> nat -> option (nat -> R)) (e : nat) : thread :=
  each (fills e) (fun f k => each (seq 0 8) (fun l k =>
    match value f (nodes_in m e l) with
    | Some u => each (seq 0 3) (fun d k => Wr (Vel (nodes_in m e l) d) (u d) k) k
    | None => k
    end) k) Done.
Definition paint_loop (m : mesh3) fills value : list thread := map (paint_thread m fills value) (seq 0 (num_elems m)).

(** ** Reductions *)

(** FOR_REDUCE_MIN / FOR_REDUCE_SUM: the range is cut into pieces; every piece starts from the identity, applies the body
    to its iterations and the partial results are joined, in any association. *)
Inductive plan := Leaf (iterations : list nat) | Join (a b : plan).
Fixpoint iterations (p : plan) : list nat :=
  match p with Leaf l => l | Join a b => iterations a ++ iterations b end.
Fixpoint reduce {S} (ident : S) (body : nat -> S -> S) (join : S -> S -> S) (p : plan) : S :=
  match p with
  | Leaf l => fold_left (fun s i => body i s) l ident
  | Join a b => join (reduce ident body join a) (reduce ident body join b)
  end.

(** minimum: [None] is the identity, larger than every number *)
Definition min_body (f : nat -> R) (i : nat) (s : option R) : option R :=
  match s with None => Some (f i) | Some m => Some (if Rlt_dec (f i) m then f i else m) end.
Definition min_join (a b : option R) : option R :=
  match a, b with
  | None, x | x, None => x
  | Some x, Some y => Some (if Rlt_dec y x then y else x)
  end.
Definition reduce_min_plan (f : nat -> R) (p : plan) : option R := reduce None (min_body f) min_join p.
Definition reduce_sum_plan (f : nat -> R) (p : plan) : R := reduce 0 (fun i s => s + f i) Rplus p.

(** SGH3D::get_timestep, Solvers/SGH_solver_3D/src/time_integration.cpp:110-213, with an arbitrary plan for the reduction *)
Definition get_timestep_plan (c : tcfg) (elem : nat -> elem_in) (p : plan) (time graphics_time dt : R) : R :=
  let dt := dt * (11 / 10) in
  let dt := match reduce_min_plan (fun i => elem_dt c (elem i)) p with
            | Some m => if Rlt_dec m dt then m else dt
            | None => dt
            end in
  let dt := fmin dt (fmax (fuzz c) (graphics_time - time) + tiny c) in
  fmin dt (t_final c - time + tiny c).

(** sum_domain_internal_energy, sum_domain_kinetic_energy, sum_domain_material_mass and sum_domain_node_mass in 3D,
    Solvers/SGH_solver_3D/src/sgh_execute.cpp:758-868, and the serial sums over materials of execute (638, 662) *)
Definition internal_energy_plan (Y : layout) (s : sgh) (p : nat -> plan) : R :=
  sumn (num_mats Y) (fun mat => reduce_sum_plan (fun i => s_mass s mat i * s_sie s mat i) (p mat)).
Definition kinetic_energy_plan (s : sgh) (p : plan) : R :=
  0.5 * reduce_sum_plan (fun n => s_nmass s n * fold_left (fun ke d => ke + s_v s n d * s_v s n d) (seq 0 3) 0) p.
Definition total_mass_plan (Y : layout) (s : sgh) (p : nat -> plan) : R :=
  sumn (num_mats Y) (fun mat => reduce_sum_plan (s_mass s mat) (p mat)).
Definition node_mass_plan (s : sgh) (p : plan) : R := reduce_sum_plan (s_nmass s) p.
