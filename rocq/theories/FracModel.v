(** Model of the cohesive zones of the 3D solver: Solvers/SGH_solver_3D/src/fracture.cpp and
    include/reorientation_kinematics.hpp.
    Simplifications: R for doubles; vectors are functions of the index (0,1,2); the six column blocks of cz_info are
    kept as separate tables; F_cz(3*n+d) is F n d; entries -1 are [None].  Division by a zero characteristic length gives
    an infinite or undefined double; the model treats it as the non-finite case explicitly. *)
From Coq Require Import Reals List Lia Lra.
From Verif Require Import BaseArr BaseReal.
From Verif Require SghModel.
Import ListNotations.
Open Scope R_scope.

Definition vec := nat -> R.
Definition vdot (a b : vec) : R := a 0%nat * b 0%nat + a 1%nat * b 1%nat + a 2%nat * b 2%nat.
Definition vcross (a b : vec) : vec := fun i =>
  match i with
  | 0%nat => a 1%nat * b 2%nat - a 2%nat * b 1%nat
  | 1%nat => a 2%nat * b 0%nat - a 0%nat * b 2%nat
  | _ => a 0%nat * b 1%nat - a 1%nat * b 0%nat
  end.
Definition vzero : vec := fun _ => 0.
Definition vmag (a : vec) : R := sqrt (vdot a a).

(** ** cohesive_zones_t::initialize, fracture.cpp:49-160 *)

(** the index pairs in loop order, :74-77 and :118-121 *)
Definition index_pairs (nb : nat) : list (nat * nat) :=
  flat_map (fun i => map (fun j => (i, j)) (seq (i + 1) (nb - (i + 1)))) (seq 0 nb).

(** :81-88 and :126-132 *)
Definition overlap (x : nat -> vec) (tol : R) (a b : nat) : bool :=
  forallb (fun k => if Rlt_dec tol (Rabs (x a k - x b k)) then false else true) [0; 1; 2]%nat.

(** first pass, :72-96 *)
Definition count_pairs (x : nat -> vec) (tol : R) (nb : nat) (bdy : nat -> nat) : nat :=
  fold_left (fun c '(i, j) => if overlap x tol (bdy i) (bdy j) then (c + 1)%nat else c) (index_pairs nb) O.

(** second pass, :116-144; a write outside the table is undefined ([None]) *)
Definition fill_pairs (x : nat -> vec) (tol : R) (nb : nat) (bdy : nat -> nat) (t : arr nat) : option (arr nat * nat) :=
  for_each (index_pairs nb)
    (fun '(i, j) '(t, p) =>
       if overlap x tol (bdy i) (bdy j) then
         obind (aset t p 0 (bdy i)) (fun t => obind (aset t p 1 (bdy j)) (fun t => Some (t, (p + 1)%nat)))
       else Some (t, p)) (t, O).

Definition overlapping_pairs (x : nat -> vec) (tol : R) (nb : nat) (bdy : nat -> nat) : option (arr nat * nat) :=
  fill_pairs x tol nb bdy (new_arr (count_pairs x tol nb bdy) 2).

(** cohesive_zone_elem_count, :427-441; [pairs] are the rows of the table *)
Definition elem_count (elems_in_node : nat -> list nat) (pairs : list (nat * nat)) : nat :=
  fold_left (fun m '(a, b) => Nat.max (Nat.max m (length (elems_in_node a))) (length (elems_in_node b))) pairs O.

(** ** compute_face_geometry, :465-612 *)
Definition face_corners (surf : nat) : option (list nat) :=
  match surf with
  | 0%nat => Some [0; 4; 6; 2]%nat
  | 1%nat => Some [1; 3; 7; 5]%nat
  | 2%nat => Some [0; 1; 5; 4]%nat
  | 3%nat => Some [3; 2; 6; 7]%nat
  | 4%nat => Some [0; 2; 3; 1]%nat
  | 5%nat => Some [4; 5; 7; 6]%nat
  | _ => None
  end.

(** :523-534 at xi = eta = 0 *)
Definition dN_dxi (a : nat) : R := match a with 0%nat => -0.25 | 1%nat => 0.25 | 2%nat => 0.25 | _ => -0.25 end.
Definition dN_deta (a : nat) : R := match a with 0%nat => -0.25 | 1%nat => -0.25 | 2%nat => 0.25 | _ => 0.25 end.

(** zap0, :606-609 *)
Definition zap (v : R) : R := if Rlt_dec (Rabs v) 1e-13 then 0 else v.

Record face_geo := mkFace { f_n : vec; f_r : vec; f_s : vec; f_c : vec }.

(** face coordinates: corner a of face surf of an element with nodes [nodes] *)
Definition face_x (x : nat -> vec) (nodes : nat -> nat) (fc : list nat) (a : nat) : vec := x (nodes (nth a fc O)).

Definition face_geometry (x : nat -> vec) (nodes : nat -> nat) (surf : nat) : face_geo :=
  match face_corners surf with
  | None => mkFace vzero vzero vzero vzero
  | Some fc =>
    let p := face_x x nodes fc in
    let c := fun d => sumn 4 (fun a => 0.25 * p a d) in
    let r := fun d => sumn 4 (fun a => dN_dxi a * p a d) in
    let s := fun d => sumn 4 (fun a => dN_deta a * p a d) in
    if Rlt_dec 1e-20 (vmag r) then
      if Rlt_dec 1e-20 (vmag s) then
        let r' := fun d => r d / vmag r in
        let s' := fun d => s d / vmag s in
        let n := vcross r' s' in
        let n' := if Rlt_dec 1e-20 (vmag n) then fun d => n d / vmag n else vzero in
        mkFace (fun d => zap (n' d)) (fun d => zap (r' d)) (fun d => zap (s' d)) c
      else mkFace vzero vzero vzero c
    else mkFace vzero vzero vzero c
  end.

(** ** build_cohesive_zone_info, :653-851 *)

(** element slots of a node, :672-683: only the first max are kept *)
Definition slot_elem (elems_in_node : nat -> list nat) (max node slot : nat) : option nat :=
  if Nat.ltb slot max then nth_error (elems_in_node node) slot else None.

(** local corner, :698-701 and :711-714 *)
Definition find_corner (nodes_in_elem : nat -> nat -> nat) (e node : nat) : option nat :=
  find (fun k => Nat.eqb (nodes_in_elem e k) node) (seq 0 8).

(** push_three_faces, :752-765 *)
Definition three_faces (k : nat) : list nat :=
  match k with
  | 0%nat => [0; 2; 4]%nat | 1%nat => [1; 2; 4]%nat | 2%nat => [0; 3; 4]%nat | 3%nat => [1; 3; 4]%nat
  | 4%nat => [0; 2; 5]%nat | 5%nat => [1; 2; 5]%nat | 6%nat => [0; 3; 5]%nat | 7%nat => [1; 3; 5]%nat
  | _ => []
  end.

(** the test for coincident faces with opposite normals, :819-836 *)
Definition faces_match (x : nat -> vec) (nodes_in_elem : nat -> nat -> nat) (tol : R) (eA fA eB fB : nat) : bool :=
  let A := face_geometry x (nodes_in_elem eA) fA in
  let B := face_geometry x (nodes_in_elem eB) fB in
  let d := fun k => f_c A k - f_c B k in
  if Rle_dec (vmag d) tol then if Rle_dec (vdot (f_n A) (f_n B)) (-1 + tol) then true else false else false.

(** matched faces of the slots of one pair: block 2 and block 3 *)
Definition slots := ((nat -> option nat) * (nat -> option nat))%type.

(** the candidates tried for one A slot, in order: A face, B slot, B face, :787-839 *)
Definition candidates (elems_in_node : nat -> list nat) (nodes_in_elem : nat -> nat -> nat) (max nodeB : nat) (mB : nat -> option nat)
  (kA : nat) : list (nat * nat * nat * nat) :=
  flat_map (fun fA =>
    flat_map (fun slotB =>
      match slot_elem elems_in_node max nodeB slotB, mB slotB with
      | Some eB, None =>
        match find_corner nodes_in_elem eB nodeB with
        | Some kB => map (fun fB => (fA, slotB, eB, fB)) (three_faces kB)
        | None => []
        end
      | _, _ => []
      end) (seq 0 max)) (three_faces kA).

(** one A slot, :768-842 *)
Definition match_slot (x : nat -> vec) (elems_in_node : nat -> list nat) (nodes_in_elem : nat -> nat -> nat) (tol : R)
  (max nodeA nodeB : nat) (m : slots) (slotA : nat) : slots :=
  match slot_elem elems_in_node max nodeA slotA, fst m slotA with
  | Some eA, None =>
    match find_corner nodes_in_elem eA nodeA with
    | Some kA =>
      match find (fun '(fA, slotB, eB, fB) => faces_match x nodes_in_elem tol eA fA eB fB)
              (candidates elems_in_node nodes_in_elem max nodeB (snd m) kA) with
      | Some (fA, slotB, eB, fB) => (SghModel.fupd (fst m) slotA (Some fA), SghModel.fupd (snd m) slotB (Some fB))
      | None => m
      end
    | None => m
    end
  | _, _ => m
  end.

Definition match_faces (x : nat -> vec) (elems_in_node : nat -> list nat) (nodes_in_elem : nat -> nat -> nat) (tol : R)
  (max nodeA nodeB : nat) : slots :=
  fold_left (match_slot x elems_in_node nodes_in_elem tol max nodeA nodeB) (seq 0 max) (fun _ => None, fun _ => None).

(** the (element, face) pairs of the matched A faces of one pair, as read by oriented and cohesive_zone_loads *)
Definition matched_A (elems_in_node : nat -> list nat) (max nodeA : nat) (mA : nat -> option nat) : list (nat * nat) :=
  flat_map (fun slot => match slot_elem elems_in_node max nodeA slot, mA slot with
                        | Some e, Some f => [(e, f)] | _, _ => [] end) (seq 0 max).

(** ** oriented, :905-1048, for one pair: normals at t and t+dt (both from the same coordinates) *)
Definition normal_sum (x : nat -> vec) (nodes_in_elem : nat -> nat -> nat) (faces : list (nat * nat)) : vec :=
  fun d => suml (fun '(e, f) => f_n (face_geometry x (nodes_in_elem e) f) d) faces.
Definition unit_or_zero (v : vec) : vec := if Rlt_dec 0 (vmag v) then fun d => v d / vmag v else vzero.
Definition oriented (x : nat -> vec) (nodes_in_elem : nat -> nat -> nat) (faces : list (nat * nat)) : vec * vec :=
  match faces with
  | [] => (vzero, vzero)
  | _ =>
    let st := normal_sum x nodes_in_elem faces in
    let sdt := normal_sum x nodes_in_elem faces in
    let sdt := if Rlt_dec (vdot st sdt) 0 then fun d => - sdt d else sdt in
    (unit_or_zero st, unit_or_zero sdt)
  end.

(** ** ucmap, :1104-1177, for one pair *)
Record opening := mkOpening { un_t : R; ut_t : R; un_tdt : R; ut_tdt : R }.
Definition ucmap (xA xB vA vB n : vec) (dt : R) : opening :=
  let u := fun k => xB k - xA k in
  let v := fun k => vB k - vA k in
  let un := vdot u n in
  let ut := fun k => u k - un * n k in
  let vn := vdot v n in
  let vt := fun k => v k - vn * n k in
  mkOpening un (vmag ut) (un + dt * vn) (vmag (fun k => ut k + dt * vt k)).

(** ** cohesive_zone_var_update, :1230-1361, for one pair *)
Record czpar := mkPar { E_inf : R; a1 : R; n_exp : R; u_n_star : R; u_t_star : R; prony : list (R * R) }.
(** internal_vars and delta_internal_vars: lambda rate, damage, tractions, Prony stresses *)
Record czvars := mkVars { c_rate : R; c_alpha : R; c_Tn : R; c_Tt : R; c_sig : list R }.

(** smallest positive normal double *)
Definition dbl_min : R := / 2 ^ 1022.
Definition tau_eff (tau : R) : R := if Rlt_dec 0 tau then tau else dbl_min.
Definition decay (dt tau : R) : R := exp (- dt / tau_eff tau).

(** :1248-1256 *)
Definition E_dt (P : czpar) (dt : R) : R :=
  fold_left (fun E '(Ej, tau) => E + Ej * tau_eff tau * ((1 - decay dt tau) / dt)) (prony P) (E_inf P).

(** :1266-1267; defined for non-zero characteristic lengths *)
Definition lambda (P : czpar) (un ut : R) : R :=
  sqrt (un / u_n_star P * (un / u_n_star P) + ut / u_t_star P * (ut / u_t_star P)).

(** :1332-1335 *)
Definition inv_guard (ustar lam : R) : R :=
  if Rlt_dec 0 ustar then if Rlt_dec 0 lam then 1 / (ustar * lam) else 0 else 0.

(** sums over the Prony terms, :1302-1310 *)
Definition sig_sum (sig : list R) : R := fold_left Rplus sig 0.
Definition sig_sum_exp (dt : R) (P : czpar) (sig : list R) : R :=
  fold_left (fun a '((_, tau), s) => a + (1 - decay dt tau) * s) (combine (prony P) sig) 0.

Definition var_update (P : czpar) (dt : R) (o : opening) (v d0 : czvars) : czvars :=
  if Rlt_dec 0 dt then
    if Req_EM_T (u_n_star P) 0 then mkVars 0 0 0 0 (c_sig v)
    else if Req_EM_T (u_t_star P) 0 then mkVars 0 0 0 0 (c_sig v)
    else
      let lt := lambda P (un_t o) (ut_t o) in
      let ltdt := lambda P (un_tdt o) (ut_tdt o) in
      let rate := (ltdt - lt) / dt in
      let dalpha := if Rlt_dec 0 rate then a1 P * Rpower (0.5 * (ltdt + lt)) (n_exp P) else 0 in
      let sig := map (fun '((Ej, tau), s) => decay dt tau * s + Ej * tau_eff tau * rate * (1 - decay dt tau)) (combine (prony P) (c_sig v)) in
      let da := if Rlt_dec 1 (c_alpha v + dalpha * dt) then 1 - c_alpha v else dalpha * dt in
      let alpha' := c_alpha v + da in
      let deltaE := E_dt P dt * rate * dt in
      let elastic := E_inf P * lt + sig_sum sig in
      let damp := - sig_sum_exp dt P sig in
      let iu_tdt := inv_guard (u_n_star P) ltdt in let iu_t := inv_guard (u_n_star P) lt in
      let it_tdt := inv_guard (u_t_star P) ltdt in let it_t := inv_guard (u_t_star P) lt in
      mkVars rate da
        (un_tdt o * iu_tdt * (1 - alpha') * deltaE + un_tdt o * iu_tdt * (1 - alpha') * elastic
         - un_t o * iu_t * (1 - c_alpha v) * elastic + un_tdt o * iu_tdt * (1 - alpha') * damp)
        (ut_tdt o * it_tdt * (1 - alpha') * deltaE + ut_tdt o * it_tdt * (1 - alpha') * elastic
         - ut_t o * it_t * (1 - c_alpha v) * elastic + ut_tdt o * it_tdt * (1 - alpha') * damp)
        sig
  else d0.

(** reset_delta_internal_vars, :412-416 *)
Definition reset_vars (v : czvars) : czvars := mkVars 0 0 0 0 (map (fun _ => 0) (c_sig v)).

(** commit_internal_vars at the last stage, :1781-1855 *)
Definition commit (v d : czvars) : czvars :=
  mkVars (c_rate d) (c_alpha v + c_alpha d) (c_Tn v + c_Tn d) (c_Tt v + c_Tt d) (c_sig d).

(** one stage for one pair: sgh_execute.cpp:402-432; [last] tells whether rk_stage = rk_num_stages - 1 (:1782).
    Returns the internal variables and the increments (used for the forces) *)
Definition cz_stage (P : czpar) (dt_stage : R) (o : opening) (last : bool) (v : czvars) : czvars * czvars :=
  let d := var_update P dt_stage o v (reset_vars v) in
  (if last then commit v d else v, d).

(** the stages of a step, stage k seeing the opening [o k] (whatever the motion was), sgh_execute.cpp:285-432 *)
Definition cz_step (P : czpar) (N : nat) (dt : R) (o : nat -> opening) (v : czvars) : czvars :=
  fold_left (fun v k => fst (cz_stage P (1 / (INR N - INR k) * dt) (o k) (Nat.eqb k (N - 1)) v)) (seq 0 N) v.
Definition cz_run (P : czpar) (N : nat) (cycles : list (R * (nat -> opening))) (v : czvars) : czvars :=
  fold_left (fun v '(dt, o) => cz_step P N dt o v) cycles v.

(** initialize_fracture_bc, :254-265: everything starts at zero *)
Definition cz_zero (P : czpar) : czvars := mkVars 0 0 0 0 (map (fun _ => 0) (prony P)).

(** reading the Prony terms from the input, :195-252: [vars] is the row of stress_bc_global_vars; the staging array has 30 entries, starts at
    zero and receives at most ten terms; the host loop reads all terms, outside the array is undefined *)
Definition stage_params (vars : nat -> R) (nprony : nat) : nat -> R :=
  fun i => if Nat.ltb i 6 then vars i
           else if Nat.ltb i (6 + 2 * Nat.min nprony 10) then vars i else 0.
Definition read_prony (vars : nat -> R) (nprony : nat) : option (list (R * R)) :=
  if Nat.leb (6 + 2 * nprony) 30 then
    Some (map (fun j => (stage_params vars nprony (6 + 2 * j), stage_params vars nprony (6 + 2 * j + 1))) (seq 0 nprony))
  else None.

(** ** cohesive_zone_loads, :1397-1683 *)
Definition sgn (bit : bool) : R := if bit then 1 else -1.
Definition s_xi (a : nat) : R := match a with 1%nat | 3%nat | 5%nat | 7%nat => 1 | _ => -1 end.
Definition s_eta (a : nat) : R := match a with 2%nat | 3%nat | 6%nat | 7%nat => 1 | _ => -1 end.
Definition s_zeta (a : nat) : R := match a with 4%nat | 5%nat | 6%nat | 7%nat => 1 | _ => -1 end.
Definition gp : R := 0.5773502691896257.

(** Gauss points of a face, :1460-1552 *)
Definition gauss_points (f : nat) : list (R * R * R) :=
  match f with
  | 0%nat => [(-1, -gp, -gp); (-1, gp, -gp); (-1, -gp, gp); (-1, gp, gp)]
  | 1%nat => [(1, -gp, -gp); (1, gp, -gp); (1, -gp, gp); (1, gp, gp)]
  | 2%nat => [(-gp, -1, -gp); (gp, -1, -gp); (-gp, -1, gp); (gp, -1, gp)]
  | 3%nat => [(-gp, 1, -gp); (gp, 1, -gp); (-gp, 1, gp); (gp, 1, gp)]
  | 4%nat => [(-gp, -gp, -1); (gp, -gp, -1); (-gp, gp, -1); (gp, gp, -1)]
  | _ => [(-gp, -gp, 1); (gp, -gp, 1); (-gp, gp, 1); (gp, gp, 1)]
  end.

(** rows of the Jacobian, :1563-1587 *)
Definition jac_row (x : nat -> vec) (q : R * R * R) (row : nat) : vec :=
  let '(xi, eta, zeta) := q in fun o => sumn 8 (fun a => x a o *
    match row with
    | 0%nat => 0.125 * s_xi a * (1 + s_eta a * eta) * (1 + s_zeta a * zeta)
    | 1%nat => 0.125 * s_eta a * (1 + s_xi a * xi) * (1 + s_zeta a * zeta)
    | _ => 0.125 * s_zeta a * (1 + s_xi a * xi) * (1 + s_eta a * eta)
    end).
(** :1589-1595 *)
Definition tangent_rows (f : nat) : nat * nat :=
  match f with 0%nat | 1%nat => (1, 2)%nat | 2%nat | 3%nat => (0, 2)%nat | _ => (0, 1)%nat end.

(** :1554-1615 *)
Definition area_face (x : nat -> vec) (f : nat) : R :=
  suml (fun q => vmag (vcross (jac_row x q (fst (tangent_rows f))) (jac_row x q (snd (tangent_rows f))))) (gauss_points f).

(** :1436-1621; element nodes inside the mesh, faces 0..5 *)
Definition pair_area (x : nat -> vec) (nodes_in_elem : nat -> nat -> nat) (faces : list (nat * nat)) : R :=
  suml (fun '(e, f) => 0.25 * area_face (fun a => x (nodes_in_elem e a)) f) faces.

(** force on node A of the pair, :1428-1434 and :1630-1663; nothing without area (:1627) *)
Definition pair_force (x : nat -> vec) (n : vec) (area Tn Tt : R) (gA gB : nat) : vec :=
  if Rle_dec area 0 then vzero else
  let d := fun k => x gB k - x gA k in
  let udotn := vdot d n in
  let t := fun k => d k - udotn * n k in
  let t' := if Rlt_dec 0 (vmag t) then fun k => t k / vmag t else vzero in
  fun k => Tn * area * n k + Tt * area * t' k.

(** accumulation, :1667-1681, with the guards :1424 and :1669 *)
Definition add_pair_force (nnodes : nat) (F : nat -> vec) (gA gB : nat) (f : vec) : nat -> vec :=
  if (Nat.ltb gA nnodes && Nat.ltb gB nnodes)%bool then
    let F1 := fun n k => if Nat.eqb n gA then F n k + f k else F n k in
    fun n k => if Nat.eqb n gB then F1 n k - f k else F1 n k
  else F.

(** all pairs: rows of the pair table with their matched A faces, and their internal variables and increments *)
Definition loads (nnodes : nat) (x : nat -> vec) (nodes_in_elem : nat -> nat -> nat)
  (rows : list (nat * nat * list (nat * nat) * czvars * czvars)) : nat -> vec :=
  fold_left (fun F '(gA, gB, faces, v, d) =>
    let n := snd (oriented x nodes_in_elem faces) in
    add_pair_force nnodes F gA gB
      (pair_force x n (pair_area x nodes_in_elem faces) (c_Tn v + c_Tn d) (c_Tt v + c_Tt d) gA gB))
    rows (fun _ _ => 0).

(** add_cohesive_zone_nodal_forces, :1860-1900 *)
Definition add_forces (nnodes : nat) (force F : nat -> vec) : nat -> vec :=
  fun n k => if Nat.ltb n nnodes then force n k + F n k else force n k.

(** ** prescribe_reorientation_kinematics, include/reorientation_kinematics.hpp:55-197 *)
Definition mat3 := nat -> nat -> R.
Definition rot_y (a : R) : mat3 := fun i j =>
  match i, j with
  | 0%nat, 0%nat => cos a | 0%nat, 2%nat => sin a | 1%nat, 1%nat => 1 | 2%nat, 0%nat => - sin a | 2%nat, 2%nat => cos a | _, _ => 0
  end.
Definition rot_z (a : R) : mat3 := fun i j =>
  match i, j with
  | 0%nat, 0%nat => cos a | 0%nat, 1%nat => - sin a | 1%nat, 0%nat => sin a | 1%nat, 1%nat => cos a | 2%nat, 2%nat => 1 | _, _ => 0
  end.
Definition mat_mult (A B : mat3) : mat3 := fun i j => sumn 3 (fun k => A i k * B k j).

Section Reorient.
  Variables (omega_y omega_z rate : R) (X0 : nat -> vec) (b_side : nat -> bool).
  Definition rot_at (t : R) : mat3 := mat_mult (rot_z (omega_z * t)) (rot_y (omega_y * t)).
  Definition position_at (t : R) (n : nat) : vec := fun d =>
    let R_t := rot_at t in
    let p := R_t d 0%nat * X0 n 0%nat + R_t d 1%nat * X0 n 1%nat + R_t d 2%nat * X0 n 2%nat in
    if b_side n then p + rate * t * R_t d 0%nat else p.
  (** coordinates and velocities written, :185-193 *)
  Definition reorient (t dt_stage : R) (n : nat) : vec * vec :=
    (position_at t n, fun d => (position_at (t + dt_stage) n d - position_at t n d) / dt_stage).
End Reorient.

(** initialize_reorientation_mode, :374-402: the nodes of elements whose centroid lies beyond the interface *)
Definition b_side_flags (ne nn : nat) (nodes_in_elem : nat -> nat -> nat) (X0 : nat -> vec) (x_int : R) : nat -> bool :=
  fold_left (fun fl e =>
    if Rlt_dec x_int (sumn nn (fun a => X0 (nodes_in_elem e a) 0%nat) / INR nn) then
      fold_left (fun fl a => SghModel.fupd fl (nodes_in_elem e a) true) (seq 0 nn) fl
    else fl) (seq 0 ne) (fun _ => false).
