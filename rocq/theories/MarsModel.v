(** Model of the MARS artificial-viscosity kernels
    (/repo/apps/multiphysics/src/material_models/artificial_viscosity/mars.hpp; line numbers below refer to it).
    [double] is [R]; local node and corner data are functions of the local index; sums over the three or
    two components are written with [sumn].  The division in the neighbour ratio is Coq's (x/0 = 0), which
    only matters when div + small = 0; nothing proved below depends on the value of the ratio. *)
From Verif Require Import BaseReal BaseArr GeomModel SghModel.
Local Open Scope R_scope.

(** MARSVarNames: the six material parameters, lines 69-75 *)
Record mars_vars := mkMars { q1 : R; q1ex : R; q2 : R; q2ex : R; phi_floor : R; phi_curl_floor : R }.

(** sqrt of the sum of squares of the nd components, lines 151-153, 190-192, 758-759, 796-797 *)
Definition norm (nd : nat) (w : nat -> R) : R := sqrt (sumn nd (fun d => w d * w d)).

(** average velocity of the element, lines 116-130 (8 nodes, 0.125) and 722-737 (4 nodes, 0.25) *)
Definition mean_velocity (nn : nat) (c : R) (v : nat -> nat -> R) (d : nat) : R :=
  fold_left (fun acc l => acc + c * v l d) (seq 0 nn) 0.

(** lines 174-184: shock impedance *)
Definition impedance (q : mars_vars) (den sspd div mag_vel : R) : R :=
  if Rlt_dec div 0 then den * (q1 q * sspd + q2 q * mag_vel) else den * (q1ex q * sspd + q2ex q * mag_vel).

(** lines 150-192 (3D) and 757-797 (RZ): impedance times the length of the corner normal *)
Definition mu_mars (nd : nat) (q : mars_vars) (den sspd div : R) (vbar : nat -> R) (v an : nat -> nat -> R) (l : nat) : R :=
  impedance q den sspd div (norm nd (fun d => v l d - vbar d)) * norm nd (an l).

(** lines 342-360 and 922-928 *)
Definition hex_edges (l : nat) : list nat :=
  match l with
  | 0 => [1; 2; 4] | 1 => [0; 3; 5] | 2 => [0; 3; 6] | 3 => [2; 1; 7]
  | 4 => [6; 5; 0] | 5 => [4; 7; 1] | 6 => [4; 7; 2] | _ => [6; 5; 3]
  end%nat.
Definition quad_edges (l : nat) : list nat :=
  match l with 0 => [1; 3] | 1 => [0; 2] | 2 => [1; 3] | _ => [2; 0] end%nat.

(** lines 489-510 and 1053-1072: estimate of the shock direction *)
Definition shock_dir (nd : nat) (small : R) (vbar : nat -> R) (v an : nat -> nat -> R) (l d : nat) : R :=
  let mag_vel := norm nd (fun d => v l d - vbar d) in
  if Rlt_dec small mag_vel then (v l d - vbar d) / mag_vel else an l d / norm nd (an l).

(** lines 433-446 and 533-545 (3D), 997-1010 and 1094-1098 (RZ): impedance times the corner faces seen along
    the shock direction *)
Definition mu_dir (nd : nat) (edges : nat -> list nat) (q : mars_vars) (den sspd div small : R) (vbar : nat -> R)
    (v an : nat -> nat -> R) (l : nat) : R :=
  impedance q den sspd div (norm nd (fun d => v l d - vbar d)) *
  suml (fun lp => Rabs (sumn nd (fun d => shock_dir nd small vbar v an l d * (0.5 * (an lp d - an l d))))) (edges l).

(** lines 195-213 (3D) and 799-816 (RZ): the Riemann velocity *)
Definition vel_star (nn : nat) (fuzz : R) (mu : nat -> R) (v : nat -> nat -> R) (d : nat) : R :=
  let s3 := fold_left (fun acc l => acc + mu l) (seq 0 nn) 0 in
  if Rlt_dec fuzz s3 then fold_left (fun acc l => acc + mu l * v l d) (seq 0 nn) 0 / s3 else 0.

(** lines 228-250: smallest ratio of neighbour to own divergence *)
Definition ratio_min (small div : R) (neighbours : list R) : R :=
  fold_left (fun r_min div_n => fmin (0.9 * (div_n + small) / (div + small)) r_min) neighbours 1.

(** lines 252-275 (3D: [c] = 1, [length] = vol^(1/3)) and 855-878 (RZ: [c] = 4, [length] = sqrt(area)).
    pow(phi, 1.0) is phi. *)
Definition phi (q : mars_vars) (fuzz small sspd length div mag_curl c : R) (neighbours : list R) : R :=
  let ph := 1 - fmax 0 (ratio_min small div neighbours) in
  let alpha := fmin 1 (20 * (length * Rabs div) / (sspd + fuzz)) in
  let ph := alpha * ph in
  let phi_curl := fmax (fmin 1 (c * Rabs div / (mag_curl + fuzz))) (phi_curl_floor q) in
  fmax (phi_floor q) (fmin ph phi_curl).

(** lines 95-108 and 705-715.  In the RZ kernels the curl keeps its sign. *)
Definition div_of (vg : nat -> nat -> R) : R := vg 0%nat 0%nat + vg 1%nat 1%nat + vg 2%nat 2%nat.
Definition mag_curl3 (vg : nat -> nat -> R) : R :=
  let c0 := vg 2%nat 1%nat - vg 1%nat 2%nat in
  let c1 := vg 0%nat 2%nat - vg 2%nat 0%nat in
  let c2 := vg 1%nat 0%nat - vg 0%nat 1%nat in
  sqrt (c0 * c0 + c1 * c1 + c2 * c2).
Definition curl_rz (vg : nat -> nat -> R) : R := vg 1%nat 0%nat - vg 0%nat 1%nat.

(** lines 278-289, 881-891, starting from disp_corner_forces = 0 *)
Definition corner_force (ph : R) (mu : nat -> R) (vs : nat -> R) (v : nat -> nat -> R) (l d : nat) : R :=
  0 + ph * mu l * (vs d - v l d).

(** pow(vol, 1.0/3.0) for a positive volume; the stored volume is at least 1e-14 *)
Definition cbrt (x : R) : R := Rpower x (1 / 3).

(** The four kernels: lines 47-292, 363-645, 658-896 and 931-1197. *)
Definition mars3 (q : mars_vars) (fuzz small den sspd vol : R) (vg : nat -> nat -> R) (neighbours : list R)
    (v an : nat -> nat -> R) (l d : nat) : R :=
  let mu := mu_mars 3 q den sspd (div_of vg) (mean_velocity 8 0.125 v) v an in
  corner_force (phi q fuzz small sspd (cbrt vol) (div_of vg) (mag_curl3 vg) 1 neighbours) mu (vel_star 8 fuzz mu v) v l d.
Definition dirmars3 (q : mars_vars) (fuzz small den sspd vol : R) (vg : nat -> nat -> R) (neighbours : list R)
    (v an : nat -> nat -> R) (l d : nat) : R :=
  let mu := mu_dir 3 hex_edges q den sspd (div_of vg) small (mean_velocity 8 0.125 v) v an in
  corner_force (phi q fuzz small sspd (cbrt vol) (div_of vg) (mag_curl3 vg) 1 neighbours) mu (vel_star 8 fuzz mu v) v l d.
Definition mars_rz (q : mars_vars) (fuzz small den sspd area : R) (vg : nat -> nat -> R) (neighbours : list R)
    (v an : nat -> nat -> R) (l d : nat) : R :=
  let mu := mu_mars 2 q den sspd (div_of vg) (mean_velocity 4 0.25 v) v an in
  corner_force (phi q fuzz small sspd (sqrt area) (div_of vg) (curl_rz vg) 4 neighbours) mu (vel_star 4 fuzz mu v) v l d.
Definition dirmars_rz (q : mars_vars) (fuzz small den sspd area : R) (vg : nat -> nat -> R) (neighbours : list R)
    (v an : nat -> nat -> R) (l d : nat) : R :=
  let mu := mu_dir 2 quad_edges q den sspd (div_of vg) small (mean_velocity 4 0.25 v) v an in
  corner_force (phi q fuzz small sspd (sqrt area) (div_of vg) (curl_rz vg) 4 neighbours) mu (vel_star 4 fuzz mu v) v l d.

(** The dissipation call of the 3D solver, Solvers/SGH_solver_3D/src/force_sgh.cpp:136-208: local velocities,
    area_normal = -B and the divergences of the neighbouring elements. *)
Definition sgh_mars (kernel : mars_vars -> R -> R -> R -> R -> R -> (nat -> nat -> R) -> list R -> (nat -> nat -> R) -> (nat -> nat -> R) -> nat -> nat -> R)
    (m : mesh3) (L : layout) (elems_in_elem : nat -> list nat) (vars : nat -> mars_vars) (fuzz small : R)
    (s : sgh) (mat sid l d : nat) : R :=
  let e := elem_in_mat L mat sid in
  kernel (vars mat) fuzz small (s_den s mat sid) (s_sspd s mat sid) (s_vol s e) (s_velgrad s e)
    (map (fun n => div_of (s_velgrad s n)) (elems_in_elem e))
    (fun l d => s_v s (nodes_in m e l) d)
    (fun l d => (-1) * elem_bmat m (s_x s) e l d) l d.
