(** Boundary sets, velocity boundary conditions and stress boundary conditions.
    Paths are relative to /repo/apps/multiphysics/src. *)
From Verif Require Import BaseReal BaseArr SghModel.
From Coq Require Import Reals.
Open Scope R_scope.

(** ** Tagging *)

(** The part of swage::Mesh used here: num_dims, num_nodes, num_nodes_in_patch, nodes_in_patch(patch, lid),
    bdy_patches (common/src/geometry_new.cpp:626-874). *)
Record bmesh := mkBmesh {
  bm_dims : nat; bm_nodes : nat; bm_npp : nat;
  bm_nip : nat -> nat -> nat;
  bm_bdy : list nat }.

(** BoundaryConditionSetup_t, common/include/boundary_conditions.hpp:174-180; the tag is the enum value of BdyTag (48-56). *)
Record bsetup := mkBsetup { bs_tag : nat; bs_val : R; bs_tol : R; bs_ox : R; bs_oy : R; bs_oz : R }.

Definition rleb (x y : R) : bool := if Rle_dec x y then true else false.

(** these_patch_coords, geometry_new.cpp:642-651: a local array of three doubles of which only the first num_dims
    are ever written; reading another entry is undefined behaviour ([None]). *)
Definition patch_coord (m : bmesh) (x : nat -> nat -> R) (n d : nat) : option R :=
  if Nat.ltb d (bm_dims m) then Some (x n d) else None.

(** geometry_new.cpp:653-690: is this node on the surface?  Tags other than 0..4 never count a node. *)
Definition node_hit (m : bmesh) (x : nat -> nat -> R) (b : bsetup) (n : nat) : option bool :=
  let c := patch_coord m x n in
  match bs_tag b with
  | 0%nat => obind (c 0%nat) (fun x0 => Some (rleb (Rabs (x0 - bs_val b)) (bs_tol b)))
  | 1%nat => obind (c 1%nat) (fun x1 => Some (rleb (Rabs (x1 - bs_val b)) (bs_tol b)))
  | 2%nat => obind (c 2%nat) (fun x2 => Some (rleb (Rabs (x2 - bs_val b)) (bs_tol b)))
  | 3%nat => obind (c 0%nat) (fun x0 => obind (c 1%nat) (fun x1 =>
           let r := sqrt ((x0 - bs_ox b) * (x0 - bs_ox b) + (x1 - bs_oy b) * (x1 - bs_oy b)) in
           Some (rleb (Rabs (r - bs_val b)) (bs_tol b))))
  | 4%nat => obind (c 0%nat) (fun x0 => obind (c 1%nat) (fun x1 => obind (c 2%nat) (fun x2 =>
           let r := sqrt ((x0 - bs_ox b) * (x0 - bs_ox b) + (x1 - bs_oy b) * (x1 - bs_oy b)
                          + (x2 - bs_oz b) * (x2 - bs_oz b)) in
           Some (rleb (Rabs (r - bs_val b)) (bs_tol b)))))
  | _ => Some false
  end.

(** check_bdy, geometry_new.cpp:626-701. *)
Definition check_bdy (m : bmesh) (x : nat -> nat -> R) (b : bsetup) (patch : nat) : option bool :=
  obind (for_up 0 (bm_npp m) (fun l cnt =>
           obind (node_hit m x b (bm_nip m patch l)) (fun h => Some (if h then S cnt else cnt))) 0%nat)
        (fun cnt => Some (Nat.eqb cnt (bm_npp m))).

(** A ragged array: one growing row per boundary set. *)
Definition rows := nat -> list nat.

(** Appending to row [r] of a dynamic ragged array whose rows hold at most [cap] entries. *)
Definition row_push (cap : nat) (t : rows) (r v : nat) : option rows :=
  if Nat.ltb (length (t r)) cap
  then Some (fun r' => if Nat.eqb r' r then t r ++ [v] else t r') else None.

(** tag_bdys, geometry_new.cpp:715-794.  The parallel loop over sets is run in the order [order] (any permutation of
    0..num_bdy_sets-1).  The copy into the final ragged array (778-790) is the identity and is not repeated. *)
Definition tag_bdys (m : bmesh) (x : nat -> nat -> R) (setup : nat -> bsetup) (order : list nat) : option rows :=
  for_each order (fun set t =>
    for_each (bm_bdy m) (fun p t =>
      obind (check_bdy m x (setup set) p) (fun on =>
        if on then row_push (length (bm_bdy m)) t set p else Some t)) t)
    (fun _ => []).

(** temp_count_num_bdy_nodes_in_set, geometry_new.cpp:812: unset entries are [None]; writes outside the nodes are undefined. *)
Definition marks := nat -> nat -> option Z.
Definition mark (m : bmesh) (k : marks) (set n : nat) (v : Z) : option marks :=
  if Nat.ltb n (bm_nodes m)
  then Some (fun s i => if Nat.eqb s set && Nat.eqb i n then Some v else k s i) else None.

(** First pass of build_boundry_node_sets, geometry_new.cpp:820-833. *)
Definition mark_set (m : bmesh) (patches : list nat) (set : nat) (k : marks) : option marks :=
  for_each patches (fun p k =>
    for_up 0 (bm_npp m) (fun l k => mark m k set (bm_nip m p l) (-1)%Z) k) k.

(** Second pass, geometry_new.cpp:835-859. *)
Definition save_set (m : bmesh) (patches : list nat) (set : nat) (kt : marks * rows) : option (marks * rows) :=
  for_each patches (fun p kt =>
    for_up 0 (bm_npp m) (fun l '(k, t) =>
      let n := bm_nip m p l in
      obind (k set n) (fun v =>
        if Z.eqb v (-1)
        then obind (mark m k set n (Z.of_nat n)) (fun k' =>
             obind (row_push (length (bm_bdy m) * bm_npp m) t set n) (fun t' => Some (k', t')))
        else Some (k, t))) kt) kt.

(** build_boundry_node_sets, geometry_new.cpp:805-874, sets in the order [order]. *)
Definition build_node_sets (m : bmesh) (patch_sets : rows) (order : list nat) : option rows :=
  option_map snd
    (for_each order (fun set '(k, t) =>
       obind (mark_set m (patch_sets set) set k) (fun k' => save_set m (patch_sets set) set (k', t)))
       ((fun _ _ => None), (fun _ => []))).

(** ** Velocity boundary conditions *)

Inductive vel_bc := ZeroVel | ConstantVel | ReflectedVel | TimeVaryingVel | PistonVel.

(** vel_bc_global_vars(bdy_set, i): a row of a ragged array as long as the user's list. *)
Definition var (vars : list R) (i : nat) : option R := nth_error vars i.

Definition vfield := nat -> nat -> R.
Definition vset (v : vfield) (n d : nat) (a : R) : vfield := fupd2 v n d a.

(** boundary_conditions/velocity/zero_velocity_bc.hpp:63-79. *)
Definition zero_velocity (dims : nat) (n : nat) (v : vfield) : option vfield :=
  for_up 0 dims (fun d v => Some (vset v n d 0)) v.

(** constant_velocity_bc.hpp:61-77. *)
Definition constant_velocity (dims : nat) (vars : list R) (n : nat) (v : vfield) : option vfield :=
  for_up 0 dims (fun d v => obind (var vars d) (fun c => Some (vset v n d c))) v.

(** The sum of squares of the first num_dims variables (reflected_velocity_bc.hpp:73-76, piston 113-116). *)
Definition dir_mag (dims : nat) (vars : list R) : option R :=
  for_up 0 dims (fun d s => obind (var vars d) (fun c => Some (s + c * c))) 0.

(** Division: 0/0 and x/0 give NaN or infinity, here [None]. *)
Definition cdiv (a b : R) : option R := if Req_EM_T b 0 then None else Some (a / b).

(** reflected_velocity_bc.hpp:63-84. *)
Definition reflected_velocity (dims : nat) (vars : list R) (n : nat) (v : vfield) : option vfield :=
  obind (dir_mag dims vars) (fun mag =>
    for_up 0 dims (fun d v =>
      obind (var vars d) (fun c =>
      obind (cdiv (v n d * c) mag) (fun q => Some (vset v n d (v n d - q))))) v).

(** time_varying_velocity_bc.hpp:103-123 and piston_velocity_bc.hpp:105-126: replace the component along the
    direction by [vel].  (Piston divides the direction by mag first; the same real number.) *)
Definition push_velocity (dims : nat) (vars : list R) (vel : R) (n : nat) (v : vfield) : option vfield :=
  obind (dir_mag dims vars) (fun mag2 =>
    let mag := sqrt mag2 in
    for_up 0 dims (fun d v =>
      obind (var vars d) (fun c =>
      obind (cdiv (v n d * c) mag) (fun q =>
      let v' := vset v n d (v n d - q) in
      obind (cdiv (vel * c) mag) (fun q' => Some (vset v' n d (v' n d + q')))))) v).

(** time_varying_velocity_bc.hpp:77-128.  All seven variables are read, whether used or not. *)
Definition time_varying_velocity (dims : nat) (vars : list R) (t : R) (n : nat) (v : vfield) : option vfield :=
  obind (var vars 0) (fun _ => obind (var vars 1) (fun _ => obind (var vars 2) (fun _ =>
  obind (var vars 3) (fun v0 => obind (var vars 4) (fun v1 =>
  obind (var vars 5) (fun ts => obind (var vars 6) (fun te =>
  if rleb ts t && rleb t te
  then push_velocity dims vars (v0 * exp (- v1 * (t - ts))) n v
  else Some v))))))).

(** piston_velocity_bc.hpp:76-131. *)
Definition piston_velocity (dims : nat) (vars : list R) (t : R) (n : nat) (v : vfield) : option vfield :=
  obind (var vars 0) (fun _ => obind (var vars 1) (fun _ => obind (var vars 2) (fun _ =>
  obind (var vars 3) (fun v0 => obind (var vars 4) (fun v1 => obind (var vars 5) (fun v2 =>
  obind (var vars 6) (fun ts => obind (var vars 7) (fun te =>
  if rleb ts t && rleb t te
  then let dt := t - ts in push_velocity dims vars (v0 + v1 * dt + 0.5 * v2 * dt * dt) n v
  else Some v)))))))).

(** The function pointer chosen when the input is parsed, input/parse_bdy_conds_inputs.cpp:241-300. *)
Definition velocity_fn (dims : nat) (b : vel_bc) (vars : list R) (t : R) (n : nat) (v : vfield) : option vfield :=
  match b with
  | ZeroVel => zero_velocity dims n v
  | ConstantVel => constant_velocity dims vars n v
  | ReflectedVel => reflected_velocity dims vars n v
  | TimeVaryingVel => time_varying_velocity dims vars t n v
  | PistonVel => piston_velocity dims vars t n v
  end.

(** A solver's velocity boundary sets: condition, variables, and the nodes of the set in the order in which the
    parallel loop visits them. *)
Record vel_set := mkVelSet { vs_bc : vel_bc; vs_vars : list R; vs_nodes : list nat }.

(** SGH3D::boundary_velocity, Solvers/SGH_solver_3D/src/boundary.cpp:50-82. *)
Definition boundary_velocity (dims : nat) (sets : list vel_set) (t : R) (v : vfield) : option vfield :=
  for_each sets (fun s v =>
    for_each (vs_nodes s) (fun n v => velocity_fn dims (vs_bc s) (vs_vars s) t n v) v) v.

(** The sets of a solver, input/parse_bdy_conds_inputs.cpp:172-230: every boundary-condition block naming the solver and a
    velocity model, in input order.  A block is (solver_id, has_velocity_model). *)
Definition sets_of_solver (solver : nat) (blocks : list (nat * bool)) : list nat :=
  map fst (filter (fun '(_, (s, has)) => Nat.eqb s solver && (has : bool))
                  (combine (seq 0 (length blocks)) blocks)).

(** ** Stress boundary conditions (three-dimensional solver) *)

Definition vec3 := nat -> R.

(** boundary.cpp:186-203: average of the patch's node coordinates. *)
Definition patch_avg (m : bmesh) (x : nat -> nat -> R) (p d : nat) : R :=
  sumn (bm_npp m) (fun l => x (bm_nip m p l) d) / INR (bm_npp m).

(** boundary.cpp:225-231: the next node around the patch. *)
Definition patch_next (m : bmesh) (p l : nat) : nat :=
  if Nat.ltb l (bm_npp m - 1) then bm_nip m p (l + 1) else bm_nip m p 0.

(** boundary.cpp:218-250: area normal of one corner of the patch. *)
Definition corner_normal (m : bmesh) (x : nat -> nat -> R) (p d : nat) : R :=
  let a l k := x (bm_nip m p l) k - patch_avg m x p k in
  let b l k := x (patch_next m p l) k - patch_avg m x p k in
  match d with
  | O => sumn (bm_npp m) (fun l => a l 1%nat * b l 2%nat - a l 2%nat * b l 1%nat) / 8
  | S O => sumn (bm_npp m) (fun l => a l 2%nat * b l 0%nat - a l 0%nat * b l 2%nat) / 8
  | S (S O) => sumn (bm_npp m) (fun l => a l 0%nat * b l 1%nat - a l 1%nat * b l 0%nat) / 8
  | _ => 0
  end.

Inductive stress_bc := ConstantStress | TimeVaryingStress.

(** sigma(i,j) from the six variables 00, 11, 22, 12, 02, 01: boundary_conditions/stress/constant_stress_bc.hpp:85-100. *)
Definition sigma_index (i j : nat) : nat :=
  match i, j with
  | 0, 0 => 0 | 1, 1 => 1 | 2, 2 => 2
  | 1, 2 => 3 | 2, 1 => 3
  | 0, 2 => 4 | 2, 0 => 4
  | 0, 1 => 5 | 1, 0 => 5
  | _, _ => 0
  end%nat.

(** constant_stress_bc.hpp:74-114 (force starts at zero, boundary.cpp:213-216). *)
Definition constant_stress (vars : nat -> R) (normal : vec3) (i : nat) : R :=
  0 + sumn 3 (fun j => vars (sigma_index i j) * normal j).

(** time_varying_stress_bc.hpp:79-140: variables 6 decay, 7 start, 8 end. *)
Definition time_varying_stress (vars : nat -> R) (t : R) (normal : vec3) (i : nat) : R :=
  if rleb (vars 7%nat) t && rleb t (vars 8%nat)
  then 0 + sumn 3 (fun j => exp (- vars 6%nat * (t - vars 7%nat)) * vars (sigma_index i j) * normal j)
  else 0.

Definition stress_fn (b : stress_bc) (vars : nat -> R) (t : R) (normal : vec3) (i : nat) : R :=
  match b with
  | ConstantStress => constant_stress vars normal i
  | TimeVaryingStress => time_varying_stress vars t normal i
  end.

(** A stress boundary set: condition, variables, patches in the order visited.  Simplification: the variables are a total
    function, i.e. the user's list is assumed long enough (6 or 9 entries). *)
Record stress_set := mkStressSet { ss_bc : stress_bc; ss_vars : nat -> R; ss_patches : list nat }.

Definition add_force (f : vfield) (n d : nat) (a : R) : vfield := fupd2 f n d (f n d + a).

(** boundary.cpp:272-289: the same corner force is added (atomically) to every node of the patch. *)
Definition patch_scatter (m : bmesh) (p : nat) (force : vec3) (f : vfield) : vfield :=
  fold_left (fun f l => fold_left (fun f d => add_force f (bm_nip m p l) d (force d)) [0;1;2]%nat f)
            (seq 0 (bm_npp m)) f.

(** SGH3D::boundary_stress, boundary.cpp:161-297. *)
Definition boundary_stress (m : bmesh) (x : nat -> nat -> R) (sets : list stress_set) (t : R) (f : vfield) : vfield :=
  fold_left (fun f s =>
    fold_left (fun f p => patch_scatter m p (stress_fn (ss_bc s) (ss_vars s) t (corner_normal m x p)) f)
              (ss_patches s) f) sets f.
