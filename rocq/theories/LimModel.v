(* The limiters of the discontinuous Galerkin solver, /repo/legacy/single-node/src/
   Explicit-Lagrange/src/DG_solver: limit_density.cpp, limit_specific_volume.cpp, limit_energy.cpp
   and limit_vel.cpp.  One element; numbers are reals.  The coefficient that each routine also stores
   (den_phi, te_phi, vel_phi) is not returned; te_phi, which limit_vel reads, is a field of the point. *)
From Coq Require Import Reals List.
Import ListNotations.
Local Open Scope R_scope.

(* lim_type; any other text is [Off] *)
Inductive kind := BJ | Venk | P0 | Off.
(* limit_density.cpp 52, limit_specific_volume.cpp 52, limit_energy.cpp 53, limit_vel.cpp 31 *)
Definition eps : R := / 10 ^ 10.
(* limit_density.cpp 26-48, limit_specific_volume.cpp 26-48, limit_energy.cpp 27-49, and for one
   component limit_vel.cpp 51-83: over the averages of the element and of the elements around it *)
Definition highest (avg : R) (around : list R) : R := fold_left (fun m a => if Rlt_dec m a then a else m) around avg.
Definition lowest (avg : R) (around : list R) : R := fold_left (fun m a => if Rlt_dec a m then a else m) around avg.
(* limit_density.cpp 59-73, limit_specific_volume.cpp 59-73, limit_energy.cpp 66-81, limit_vel.cpp 136-155 *)
Definition ratio_at (lo hi avg v : R) : R :=
  let diff := v - avg in
  Rmax (if Rlt_dec eps diff then (hi - avg) / diff else if Rlt_dec diff (- eps) then (lo - avg) / diff else 1) 0.
(* limit_density.cpp 74-85, limit_specific_volume.cpp 74-85, limit_energy.cpp 82-93, limit_vel.cpp 156-167 *)
Definition alpha_of (k : kind) (r : R) : R :=
  match k with BJ => Rmin r 1 | Venk => (r * r + 2 * r) / (r * r + r + 2) | P0 => 0 | Off => 1 end.
(* limit_density.cpp 53-88, limit_specific_volume.cpp 53-88, limit_energy.cpp 54-110 *)
Definition elem_alpha (k : kind) (lo hi avg : R) (vs : list R) : R := fold_left (fun a v => Rmin a (alpha_of k (ratio_at lo hi avg v))) vs 1.
(* limit_density.cpp 98, limit_specific_volume.cpp 98, limit_energy.cpp 146, limit_vel.cpp 277 *)
Definition limited (avg a : R) (v : R) : R := avg + a * (v - avg).
(* limit_density.cpp 24-110; limit_energy.cpp 25-152, whose shock detector (99-108) is not used *)
Definition limit_field (k : kind) (avg : R) (around vs : list R) : list R :=
  map (limited avg (elem_alpha k (lowest avg around) (highest avg around) avg vs)) vs.
(* limit_specific_volume.cpp 24-110: the volumes and the densities (104) *)
Definition limit_volume (k : kind) (avg : R) (around vs : list R) : list R * list R :=
  let w := limit_field k avg around vs in (w, map (fun v => 1 / v) w).

(* limit_vel.cpp 35-286, where lim_approach is 0 (129) and the shock detector (231-240) is not used.  A point has its velocity, the limiter of the energy
   and its total energy; dimensions are 0, ..., dim - 1 with dim = S d. *)
Record point := Point { q_vel : nat -> R; q_phi : R; q_energy : R }.
(* limit_vel.cpp 254-260 *)
Definition kinetic (dim : nat) (v : nat -> R) : R := fold_left (fun s i => s + v i * v i) (seq 0 dim) 0 / 2.
(* limit_vel.cpp 132-176 *)
Definition point_alpha (k : kind) (d : nat) (lo hi avg : nat -> R) (p : point) : R :=
  let a i := alpha_of k (ratio_at (lo i) (hi i) (avg i) (q_vel p i)) in
  fold_left (fun m i => Rmin m (a i)) (seq 1 d) (a 0%nat).
(* limit_vel.cpp 112, 120, 177, 229 *)
Definition vel_alpha (k : kind) (d : nat) (lo hi avg : nat -> R) (ps : list point) : R :=
  fold_left (fun m p => Rmin (q_phi p) (Rmin m (point_alpha k d lo hi avg p))) ps 1.
(* limit_vel.cpp 250-267 *)
Definition energy_alpha (d : nat) (p : point) : R := Rmin 1 (Rmax 0 (q_energy p / (kinetic (S d) (q_vel p) + / 10 ^ 14))).
Definition with_energy (d : nat) (a : R) (ps : list point) : R := fold_left (fun m p => Rmin m (energy_alpha d p)) ps a.
(* limit_vel.cpp 35-286 *)
Definition limit_vel (k : kind) (d : nat) (avg : nat -> R) (around : list (nat -> R)) (ps : list point) : list (nat -> R) :=
  let lo i := lowest (avg i) (map (fun n => n i) around) in
  let hi i := highest (avg i) (map (fun n => n i) around) in
  let a := with_energy d (vel_alpha k d lo hi avg ps) ps in
  map (fun p i => limited (avg i) a (q_vel p i)) ps.
