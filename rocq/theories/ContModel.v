(** Model of the contact algorithm of the 3D solver: Solvers/SGH_solver_3D/src/contact.cpp (and boundary.cpp:113-147,
    sgh_execute.cpp:439-456, which call it).
    Simplifications: R for doubles; a comparison with a value that is not a number (division by a zero length) is false, and a
    result that is not a number is [None]; vectors are functions of the index (0,1,2).  A boundary patch is given by its number in
    the list of boundary patches, its element and its local face; the order of the nodes of a patch is the one of mesh
    (legacy/single-node/src/Explicit-Lagrange-Kokkos/SGH_solver/mesh.h:354-361 in this numbering), the same as in
    contact.cpp:2672-2708.  The reductions of :1679-1745 are the largest and smallest value.  Not modelled, because nothing
    calls them: capture_box, find_nodes, get_contact_point, contact_check, get_edge_pair (the collision detection that was
    switched out), and the velocity and acceleration maxima only they use. *)
From Coq Require Import Reals List Lia Lra ZArith.
From Verif Require Import BaseArr BaseReal FracModel.
Import ListNotations.
Open Scope R_scope.

(** largest and smallest value of n, :1679-1745; dbl_max is the identity of the reduction *)
Definition dbl_max : R := (2 - / 2 ^ 52) * 2 ^ 1023.
Fixpoint maxn (n : nat) (f : nat -> R) : R := match n with O => - dbl_max | S k => fmax (maxn k f) (f k) end.
Fixpoint minn (n : nat) (f : nat -> R) : R := match n with O => dbl_max | S k => fmin (minn k f) (f k) end.

(** (size_t) floor(r), :1819-1821; undefined when negative *)
Definition floor_size (r : R) : option nat := if Rlt_dec r 0 then None else Some (Z.to_nat (Int_part r)).

(** the grid of buckets, :1788-1799 *)
Record grid := mkGrid { g_lo : vec; g_hi : vec; g_size : R; g_n : nat -> nat }.
Definition make_grid (x : nat -> vec) (nb : nat) (bdy : nat -> nat) : grid :=
  let lo := fun d => minn nb (fun i => x (bdy i) d) in
  let hi := fun d => maxn nb (fun i => x (bdy i) d) in
  let size := fmax ((hi 0%nat - lo 0%nat) / 64) (fmax ((hi 1%nat - lo 1%nat) / 64) ((hi 2%nat - lo 2%nat) / 64)) in
  mkGrid lo hi size (fun d => (Z.to_nat (Int_part ((hi d - lo d) / size)) + 1)%nat).

(** number of the bucket with indices i j k, :1823 and :1591 *)
Definition bucket_id (g : grid) (i j k : nat) : nat := (k * g_n g 0 * g_n g 1 + j * g_n g 0 + i)%nat.
Definition num_buckets (g : grid) : nat := (g_n g 0 * g_n g 1 * g_n g 2)%nat.

(** lbox, :1814-1823 *)
Definition bucket_of (g : grid) (p : vec) : option nat :=
  obind (floor_size ((p 0%nat - g_lo g 0%nat) / g_size g)) (fun i =>
  obind (floor_size ((p 1%nat - g_lo g 1%nat) / g_size g)) (fun j =>
  obind (floor_size ((p 2%nat - g_lo g 2%nat) / g_size g)) (fun k => Some (bucket_id g i j k)))).

(** a new array, filled with zero by Kokkos *)
Definition zeros (n : nat) : arr nat := mkArr n 1 (fun _ _ => Some O).

Record sorted := mkSorted { nbox : arr nat; npoint : arr nat; nsort : arr nat }.

(** sort, :1669-1860, after the grid is made; [order] is the order in which the threads of the first loop run *)
Section Sort.
  Variables (x : nat -> vec) (nb : nat) (bdy : nat -> nat) (g : grid).
  (** :1814-1825 *)
  Definition count_nodes (order : list nat) : option (arr nat) :=
    for_each order (fun i a => obind (bucket_of g (x (bdy i))) (fun b => obind (aget a b 0) (fun c => aset a b 0 (c + 1)%nat)))
      (zeros (num_buckets g)).
  (** :1829-1834 *)
  Definition place_pointers (cnt : arr nat) : option (arr nat) :=
    for_up 1 (num_buckets g - 1)
      (fun i a => obind (aget a (i - 1) 0) (fun p => obind (aget cnt (i - 1) 0) (fun c => aset a i 0 (p + c)%nat)))
      (zeros (num_buckets g)).
  (** :1837-1850 *)
  Definition place_nodes (ptr : arr nat) : option (arr nat * arr nat) :=
    for_up 0 nb
      (fun i '(nbx, lid) => obind (bucket_of g (x (bdy i))) (fun b => obind (aget nbx b 0) (fun c => obind (aget ptr b 0) (fun p =>
         obind (aset lid (c + p) 0 i) (fun lid => obind (aset nbx b 0 (c + 1)%nat) (fun nbx => Some (nbx, lid)))))))
      (zeros (num_buckets g), zeros nb).
  (** :1852-1856 *)
  Definition to_global (lid : arr nat) : option (arr nat) :=
    for_up 0 nb (fun i a => obind (aget lid i 0) (fun l => aset a i 0 (bdy l))) (zeros nb).
  Definition sort_nodes (order : list nat) : option sorted :=
    obind (count_nodes order) (fun cnt => obind (place_pointers cnt) (fun ptr => obind (place_nodes ptr) (fun '(nbx, lid) =>
    obind (to_global lid) (fun ns => Some (mkSorted nbx ptr ns))))).
End Sort.

(** index of the bucket holding the coordinate v, kept inside the grid, :1567-1579 *)
Definition clamp_index (g : grid) (d : nat) (v : R) : nat :=
  Z.to_nat (Z.max 0 (Z.min (Z.of_nat (g_n g d) - 1) (Int_part ((v - g_lo g d) / g_size g)))).
Definition range (a b : nat) : list nat := seq a (b + 1 - a).
(** the buckets met by the box with corners lo hi, in the order of :1582-1596 *)
Definition cells (g : grid) (lo hi : vec) : list nat :=
  flat_map (fun i => flat_map (fun j => map (fun k => bucket_id g i j k)
      (range (clamp_index g 2 (lo 2%nat)) (clamp_index g 2 (hi 2%nat))))
    (range (clamp_index g 1 (lo 1%nat)) (clamp_index g 1 (hi 1%nat))))
  (range (clamp_index g 0 (lo 0%nat)) (clamp_index g 0 (hi 0%nat))).
(** writing them to [buckets], an array with [room] entries, :1581-1596 and :2596 *)
Definition write_cells (room : nat) (l : list nat) : option (arr nat * nat) :=
  for_each l (fun b '(a, c) => obind (aset a c 0 b) (fun a => Some (a, (c + 1)%nat))) (new_arr room 1, O).
(** the loop over the nodes of these buckets, :1599-1604; [body] is what is done with a node *)
Definition over_nodes {St} (room : nat) (g : grid) (s : sorted) (lo hi : vec) (body : nat -> St -> St) (st : St) : option St :=
  obind (write_cells room (cells g lo hi)) (fun '(bks, n) =>
    for_up 0 n (fun lid st => obind (aget bks lid 0) (fun b => obind (aget (nbox s) b 0) (fun c => obind (aget (npoint s) b 0) (fun p =>
      for_up 0 c (fun i st => obind (aget (nsort s) (p + i) 0) (fun node => Some (body node st))) st)))) st).
(** size of [buckets], :2596: pow(64,3) *)
Definition bucket_room : nat := (64 * 64 * 64)%nat.

(** shape functions of a patch, :124-131, :148-163 and :2580-2590 *)
Definition pxi (k : nat) : R := match k with 1%nat | 2%nat => 1 | _ => -1 end.
Definition peta (k : nat) : R := match k with 2%nat | 3%nat => 1 | _ => -1 end.
Definition pphi (s t : R) (k : nat) : R := 0.25 * (1 + pxi k * s) * (1 + peta k * t).
Definition dphi_xi (t : R) (k : nat) : R := 0.25 * pxi k * (1 + peta k * t).
Definition dphi_eta (s : R) (k : nat) : R := 0.25 * (1 + pxi k * s) * peta k.

(** ref_to_physical, :133-145: point of the patch with corners q *)
Definition patch_point (q : nat -> vec) (s t : R) : vec := fun d => sumn 4 (fun k => q k d * pphi s t k).
(** get_penetration_normal, :222-267; get_normal, :166-219, at the given corner positions *)
Definition patch_normal (q : nat -> vec) (s t : R) : option vec :=
  let c := vcross (fun d => sumn 4 (fun k => q k d * dphi_xi t k)) (fun d => sumn 4 (fun k => q k d * dphi_eta s k)) in
  if Req_EM_T (vmag c) 0 then None else Some (fun d => c d / vmag c).

(** corners of a face of an element, :2672-2708 *)
Definition fquad (X : nat -> vec) (f : nat) : nat -> vec :=
  match face_corners f with Some fc => fun k => X (nth k fc O) | None => fun _ => vzero end.
(** the five faces of the column under a face: all but the opposite one, :2625-2669 *)
Definition column (f : nat) : list nat :=
  match f with
  | 0%nat => [0; 2; 3; 4; 5]%nat
  | 1%nat => [1; 2; 3; 4; 5]%nat
  | 2%nat => [0; 1; 2; 4; 5]%nat
  | 3%nat => [0; 1; 3; 4; 5]%nat
  | 4%nat => [0; 1; 2; 3; 4]%nat
  | _ => [0; 1; 2; 3; 5]%nat
  end.

(** penetration_check, :1332-1399: X are the corners of the element *)
Definition inner_side (q : nat -> vec) (p : vec) : bool :=
  match patch_normal q 0 0 with
  | Some n => if Rlt_dec (vdot (fun d => p d - patch_point q 0 0 d) n) 0.01 then true else false
  | None => false
  end.
Definition penetration_check (X : nat -> vec) (f : nat) (p : vec) : bool := forallb (fun h => inner_side (fquad X h) p) (column f).

(** projection of a point on the plane of a patch, :1621-1632 and :2133-2144 *)
Definition project (q : nat -> vec) (n p : vec) : vec :=
  let c := vdot n (fun d => p d - q 0%nat d) / (- n 0%nat * n 0%nat - n 1%nat * n 1%nat - n 2%nat * n 2%nat) in
  fun d => p d + c * n d.
Definition plane_dist (q : nat -> vec) (n p : vec) : R := vmag (fun d => p d - project q n p d).

(** shortest edge of a patch, :1549-1553 *)
Definition min_edge (q : nat -> vec) : R :=
  let e := fun a b => vmag (fun d => q b d - q a d) in
  fmin (fmin (fmin (e 0 1)%nat (e 1 2)%nat) (e 2 3)%nat) (e 3 0)%nat.
Definition dist_factor (preload : bool) : R := if preload then 1 else 0.1.
(** penetration_sweep, :1915-1920 *)
Definition depth_cap (g : grid) : R :=
  let w := fun d => g_hi g d - g_lo g d in
  fmin (fmin (fmin (w 0%nat) (w 1%nat)) (w 2%nat) / 4) (3 * g_size g).
(** penetration_capture_box, :54-85 *)
Definition box_hi (q : nat -> vec) (m : R) : vec := fun d => fmax (fmax (fmax (q 0%nat d + m) (q 1%nat d + m)) (q 2%nat d + m)) (q 3%nat d + m).
Definition box_lo (q : nat -> vec) (m : R) : vec := fun d => fmin (fmin (fmin (q 0%nat d - m) (q 1%nat d - m)) (q 2%nat d - m)) (q 3%nat d - m).

(** columns of node_penetrations after the first, :2768 *)
Definition pen_width : nat := 100.

Section Contact.
  Variables (x : nat -> vec) (nodes_in_elem : nat -> nat -> nat) (elems_in_node : nat -> list nat).
  (** boundary nodes and boundary patches: element and face of patch number p *)
  Variables (nb : nat) (bdy : nat -> nat) (npatch : nat) (pelem pface : nat -> nat).
  Variable preload : bool.

  Definition corners_of (e : nat) : nat -> vec := fun a => x (nodes_in_elem e a).
  Definition quad_of (p : nat) : nat -> vec := fquad (corners_of (pelem p)) (pface p).

  (** the distance cut-off, :1634-1637 *)
  Definition too_far (p node : nat) : bool :=
    match patch_normal (quad_of p) 0 0 with
    | Some n => if Rlt_dec (dist_factor preload * min_edge (quad_of p)) (plane_dist (quad_of p) n (x node)) then true else false
    | None => false
    end.
  Definition own_node (p node : nat) : bool := existsb (fun k => Nat.eqb node (nodes_in_elem (pelem p) k)) (seq 0 8).
  (** :1634-1650 *)
  Definition penetrates (p node : nat) : bool :=
    (negb (too_far p node) && penetration_check (corners_of (pelem p)) (pface p) (x node) && negb (own_node p node))%bool.
  (** :1652-1664: the rows of node_penetrations as lists *)
  Definition record_patch (p node : nat) (rows : nat -> list nat) : nat -> list nat := fun j =>
    if (Nat.ltb j nb && Nat.eqb (bdy j) node && Nat.ltb (length (rows j)) pen_width)%bool then rows j ++ [p] else rows j.
  Definition visit (p node : nat) (rows : nat -> list nat) : nat -> list nat :=
    if penetrates p node then record_patch p node rows else rows.
  Definition margin (g : grid) (p : nat) : R := fmin (depth_cap g) (min_edge (quad_of p) * dist_factor preload).
  (** find_penetrating_nodes, :1531-1667 *)
  Definition find_penetrating (room : nat) (g : grid) (s : sorted) : option (nat -> list nat) :=
    for_up 0 npatch (fun p rows => over_nodes room g s (box_lo (quad_of p) (margin g p)) (box_hi (quad_of p) (margin g p)) (visit p) rows)
      (fun _ => []).

  (** elem_count, :1938-1968 *)
  Definition elem_count (row : list nat) : nat :=
    let c := length (filter (fun j => negb (existsb (fun k => Nat.eqb (pelem (nth j row O)) (pelem (nth k row O))) (seq 0 j))) (seq 0 (length row))) in
    if Nat.eqb c 0 then 1%nat else c.
  (** elems_penetrated, :1970-1994; [None] is the filler num_elems *)
  Definition elems_penetrated (row : list nat) : list (option nat) :=
    fold_left (fun acc _ =>
      acc ++ [option_map pelem (find (fun p => negb (existsb (fun m => match m with Some e => Nat.eqb (pelem p) e | None => false end) acc)) row)])
      (seq 0 (elem_count row)) [].

  (** pairing steps 1 and 2, :2040-2064: from the node to the mean centroid of its elements; the divisor is the squared length *)
  Definition to_center (node : nat) : option vec :=
    let ne := length (elems_in_node node) in
    if Nat.eqb ne 0 then None else
    let c := fun d => suml (fun e => sumn 8 (fun j => x (nodes_in_elem e j) d / 8)) (elems_in_node node) / INR ne in
    let v := fun d => c d - x node d in
    if Req_EM_T (vdot v v) 0 then None else Some (fun d => v d / vdot v v).
  (** pairing steps 3 and 4 for one element, :2069-2107: [sel] is the selection left by the elements before *)
  Definition select (node : nat) (row : list nat) (e : nat) (sel : option nat) : option nat :=
    snd (fold_left (fun '(best, sel) p =>
      if Nat.eqb (pelem p) e then
        match patch_normal (quad_of p) 0 0, to_center node with
        | Some n, Some v =>
          if preload then (if Rlt_dec best (vdot n v) then (vdot n v, Some p) else (best, sel))
          else if Rlt_dec (- 0.01) (vdot n v) then
                 if Rlt_dec (plane_dist (quad_of p) n (x node)) best then (plane_dist (quad_of p) n (x node), Some p) else (best, sel)
               else (best, sel)
        | _, _ => (best, sel)
        end
      else (best, sel)) row (if preload then -1 else 10 ^ 16, sel)).
  (** the patches paired with a node, one slot per penetrated element, :2011-2013, :2069-2111 *)
  Definition pair_node (node : nat) (row : list nat) : list (option nat) :=
    match elems_penetrated row with
    | Some _ :: _ =>
      snd (fold_left (fun '(sel, out) oe =>
        let sel' := match oe with Some e => select node row e sel | None => sel end in (sel', out ++ [sel']))
        (elems_penetrated row) (None, []))
    | l => map (fun _ => None) l
    end.
End Contact.

(** isoparametric_inverse, :1402-1529 *)
Definition det3 (M : mat3) : R :=
  M 0%nat 0%nat * (M 1%nat 1%nat * M 2%nat 2%nat - M 1%nat 2%nat * M 2%nat 1%nat)
  - M 0%nat 1%nat * (M 1%nat 0%nat * M 2%nat 2%nat - M 1%nat 2%nat * M 2%nat 0%nat)
  + M 0%nat 2%nat * (M 1%nat 0%nat * M 2%nat 1%nat - M 1%nat 1%nat * M 2%nat 0%nat).
Definition inv3 (M : mat3) : mat3 := fun i j =>
  match i, j with
  | 0%nat, 0%nat => (M 1%nat 1%nat * M 2%nat 2%nat - M 1%nat 2%nat * M 2%nat 1%nat) / det3 M
  | 0%nat, 1%nat => (M 0%nat 2%nat * M 2%nat 1%nat - M 0%nat 1%nat * M 2%nat 2%nat) / det3 M
  | 0%nat, _ => (M 0%nat 1%nat * M 1%nat 2%nat - M 0%nat 2%nat * M 1%nat 1%nat) / det3 M
  | 1%nat, 0%nat => (M 1%nat 2%nat * M 2%nat 0%nat - M 1%nat 0%nat * M 2%nat 2%nat) / det3 M
  | 1%nat, 1%nat => (M 0%nat 0%nat * M 2%nat 2%nat - M 0%nat 2%nat * M 2%nat 0%nat) / det3 M
  | 1%nat, _ => (M 0%nat 2%nat * M 1%nat 0%nat - M 0%nat 0%nat * M 1%nat 2%nat) / det3 M
  | _, 0%nat => (M 1%nat 0%nat * M 2%nat 1%nat - M 1%nat 1%nat * M 2%nat 0%nat) / det3 M
  | _, 1%nat => (M 0%nat 1%nat * M 2%nat 0%nat - M 0%nat 0%nat * M 2%nat 1%nat) / det3 M
  | _, _ => (M 0%nat 0%nat * M 1%nat 1%nat - M 0%nat 1%nat * M 1%nat 0%nat) / det3 M
  end.
(** :1498-1515; (1 - xi) is written (1 + s xi) with s = -1 *)
Definition trilinear (X : nat -> vec) (s : vec) : vec := fun d =>
  sumn 8 (fun a => X a d * (0.125 * (1 + s_xi a * s 0%nat) * (1 + s_eta a * s 1%nat) * (1 + s_zeta a * s 2%nat))).
(** :1430-1474: J[j][k] *)
Definition jacobian (X : nat -> vec) (s : vec) : mat3 := fun j k => jac_row X (s 0%nat, s 1%nat, s 2%nat) k j.
(** the loop :1428-1528; [cur] is iso_pos_iter and [pos] is pos_iter; the flag tells whether it stopped by the convergence test *)
Fixpoint iso_loop (fuel : nat) (X : nat -> vec) (p cur pos : vec) : option (vec * bool) :=
  match fuel with
  | O => Some (cur, false)
  | S fuel' =>
    let J := jacobian X cur in
    if Req_EM_T (det3 J) 0 then None else
    let next := fun j => cur j + inv3 J j 0%nat * (p 0%nat - pos 0%nat) + inv3 J j 1%nat * (p 1%nat - pos 1%nat) + inv3 J j 2%nat * (p 2%nat - pos 2%nat) in
    let pos' := trilinear X next in
    if Rlt_dec (vmag (fun d => p d - pos' d)) 1e-8 then Some (next, true) else iso_loop fuel' X p next pos'
  end.
Definition iso_inverse (fuel : nat) (X : nat -> vec) (p : vec) : option (vec * bool) :=
  iso_loop fuel X p vzero (fun d => sumn 8 (fun a => X a d) / 8).
(** from element to patch coordinates, :2161-2188 *)
Definition face_coords (f : nat) (s : vec) : R * R :=
  match f with
  | 0%nat => (s 2%nat, s 1%nat)
  | 1%nat => (s 1%nat, s 2%nat)
  | 2%nat => (s 0%nat, s 2%nat)
  | 3%nat => (- s 0%nat, s 2%nat)
  | 4%nat => (s 1%nat, s 0%nat)
  | _ => (s 0%nat, s 1%nat)
  end.

(** a contact pair: pair_vars(0..1), (3..5), (6), (7) *)
Record pvars := mkPv { p_xi : R; p_eta : R; p_n : vec; p_inc : R; p_tot : R }.
(** pairing step 5, :2120-2197: the variables of the pair of a node at p with face f of the element X; [fuel] is max_iter *)
Definition new_pair (fuel : nat) (X : nat -> vec) (f : nat) (p : vec) : option pvars :=
  obind (patch_normal (fquad X f) 0 0) (fun n =>
  obind (iso_inverse fuel X (project (fquad X f) n p)) (fun '(s, _) =>
  Some (mkPv (fst (face_coords f s)) (snd (face_coords f s)) n 0 0))).

(** frictionless_increment, :664-1052, for a node and a patch.  Positions, velocities and masses at entry; the forces are those of
    the corners plus the contact forces so far (:774-779 and :797-802). *)
Section Increment.
  Variables (dt : R) (xs vs fs : vec) (ms : R) (xk vk fk : nat -> vec) (mk : nat -> R).
  (** :765-783 *)
  Definition patch_later (inc : R) (n : vec) (phi : nat -> R) (k : nat) : vec := fun j =>
    xk k j + vk k j * dt + 0.5 * ((- inc * n j * phi k + fk k j) / mk k) * dt * dt.
  (** :795-804 *)
  Definition node_later (inc : R) (n : vec) : vec := fun j => xs j + vs j * dt + 0.5 * ((inc * n j + fs j) / ms) * dt * dt.
  (** F, :786-806 *)
  Definition gap (v : pvars) : vec := fun j =>
    node_later (p_inc v) (p_n v) j
    - sumn 4 (fun k => patch_later (p_inc v) (p_n v) (pphi (p_xi v) (p_eta v)) k j * pphi (p_xi v) (p_eta v) k).
  Definition newton_tol : R := 1e-15.

  (** get_normal_derivatives, :270-333 *)
  Definition normal_derivs (dx de : nat -> R) : option (vec * vec) :=
    let Sx := fun i => sumn 4 (fun k => xk k i * dx k) in
    let Se := fun i => sumn 4 (fun k => xk k i * de k) in
    let N := vcross Sx Se in
    let m := vmag N in
    let cr := fun i => 0.25 * xk 0%nat i - 0.25 * xk 1%nat i - 0.25 * xk 2%nat i + 0.25 * xk 3%nat i in
    let a := vcross Sx cr in let b := vcross cr Se in
    if Req_EM_T m 0 then None else
    Some (fun i => (a i * m - N i * vdot N a / m) / (m * m), fun i => (b i * m - N i * vdot N b / m) / (m * m)).

  (** the matrix, :815-938; n0 is the normal at entry of the function (neg_normal, :695-698) *)
  Definition newton_matrix (n0 : vec) (v : pvars) : option mat3 :=
    let phi := pphi (p_xi v) (p_eta v) in
    let dx := dphi_xi (p_eta v) in let de := dphi_eta (p_xi v) in
    let A := patch_later (p_inc v) (p_n v) phi in
    obind (normal_derivs dx de) (fun '(nx, ne) =>
    let big := fun (u : vec) j => sumn 4 (fun k => p_inc v * dt * dt / 2 * (u j * phi k / mk k) * phi k) in
    Some (fun j c => match c with
      | 0%nat => (- sumn 4 (fun k => A k j * dx k) - sumn 4 (fun k => - n0 j * (0.5 * dx k * p_inc v * dt * dt / mk k) * phi k))
                 + p_inc v * dt * dt / (2 * ms) * nx j + big nx j + big ne j
      | 1%nat => (- sumn 4 (fun k => A k j * de k) - sumn 4 (fun k => - n0 j * (0.5 * de k * p_inc v * dt * dt / mk k) * phi k))
                 + p_inc v * dt * dt / (2 * ms) * nx j
      | _ => 0.5 * dt * dt * p_n v j / ms - sumn 4 (fun k => - n0 j * (0.5 * phi k * dt * dt / mk k) * phi k)
      end)).

  (** the loop, :757-1047; [sol2] is sol[2].  The flag is [converged]. *)
  Fixpoint newton (fuel : nat) (n0 : vec) (sol2 : R) (v : pvars) : option (pvars * bool) :=
    match fuel with
    | O => Some (v, false)
    | S fuel' =>
      let F := gap v in
      if Rle_dec (F 0%nat * F 0%nat + F 1%nat * F 1%nat + F 2%nat * F 2%nat) newton_tol then Some (v, true) else
      obind (newton_matrix n0 v) (fun J =>
      if Req_EM_T (det3 J) 0 then Some (mkPv (p_xi v) (p_eta v) (p_n v) 0 (p_tot v), false) else
      let grad := fun i => inv3 J i 0%nat * F 0%nat + inv3 J i 1%nat * F 1%nat + inv3 J i 2%nat * F 2%nat in
      let s := p_xi v - grad 0%nat in let t := p_eta v - grad 1%nat in let f := sol2 - grad 2%nat in
      let A := patch_later f (p_n v) (pphi (p_xi v) (p_eta v)) in
      obind (patch_normal A s t) (fun n => newton fuel' n0 f (mkPv s t n f (p_tot v))))
    end.

  (** :724-748: first guess *)
  Definition first_guess (v : pvars) : option R :=
    let phi := pphi (p_xi v) (p_eta v) in
    let diff := fun i => - xs i + sumn 4 (fun k => xk k i * phi k) in
    let den := dt * dt * vdot (p_n v) (p_n v) * (1 / ms + sumn 4 (fun k => 1 / mk k)) in
    if Req_EM_T den 0 then None else Some (2 / den * vdot diff (p_n v)).
  Definition increment (fuel : nat) (v : pvars) : option (pvars * bool) :=
    obind (first_guess v) (fun guess =>
    newton fuel (p_n v) (if Req_EM_T (p_inc v) 0 then guess else p_inc v) v).
End Increment.

(** distribute_frictionless_force, :1055-1119, with corrector_term = 0: the contact forces are indexed by boundary node number;
    [cid] is the penetrating node and [cmap] are the nodes of the patch *)
Definition fadd (F : nat -> vec) (n : nat) (v : vec) : nat -> vec := fun m d => if Nat.eqb m n then F m d + v d else F m d.
Definition apply_pair (F : nat -> vec) (cid : nat) (cmap : nat -> nat) (n : vec) (phi : nat -> R) (f : R) : nat -> vec :=
  let F0 := fadd F cid (fun d => f * n d) in
  fold_left (fun F k => fadd F (cmap k) (fun d => - f * n d * phi k)) (seq 0 4) F0.
Definition distribute (F : nat -> vec) (cid : nat) (cmap : nat -> nat) (v : pvars) : (nat -> vec) * pvars :=
  let f := 0.2 * p_inc v in
  let phi := pphi (p_xi v) (p_eta v) in
  let release := if Rlt_dec (f + p_tot v) 0 then true else if Rlt_dec 1.01 (Rabs (p_xi v)) then true else if Rlt_dec 1.01 (Rabs (p_eta v)) then true else false in
  if release then (apply_pair F cid cmap (p_n v) phi (- p_tot v), mkPv (p_xi v) (p_eta v) (p_n v) 0 0)
  else (apply_pair F cid cmap (p_n v) phi f, mkPv (p_xi v) (p_eta v) (p_n v) (p_inc v) (p_tot v + f)).

(** a pair: number of the node, numbers of the patch's nodes, variables *)
Record cpair := mkPair { c_id : nat; c_map : nat -> nat; c_pv : pvars }.

(** force_resolution, :2217-2415 *)
Section Resolution.
  (** [incr F c]: the increment of pair c when the contact forces are F (:2260-2275) *)
  Variable incr : (nat -> vec) -> cpair -> option pvars.
  Fixpoint all_incs (F : nat -> vec) (l : list cpair) : option (list cpair) :=
    match l with
    | [] => Some []
    | c :: r => obind (incr F c) (fun v => obind (all_incs F r) (fun r' => Some (mkPair (c_id c) (c_map c) v :: r')))
    end.
  (** :2315-2354 *)
  Definition spread (F : nat -> vec) (l : list cpair) : (nat -> vec) * list cpair :=
    fold_left (fun '(F, out) c => let '(F', v) := distribute F (c_id c) (c_map c) (c_pv c) in (F', out ++ [mkPair (c_id c) (c_map c) v])) l (F, []).
  (** :2374-2391 *)
  Definition norm_incs (l : list cpair) : R := sqrt (suml (fun c => 0.2 * p_inc (c_pv c) * 0.2 * p_inc (c_pv c)) l).
  (** :2251-2402; the flag tells whether the loop stopped by the test *)
  Fixpoint resolve (fuel : nat) (F : nat -> vec) (l : list cpair) : option ((nat -> vec) * list cpair * bool) :=
    match fuel with
    | O => Some (F, l, false)
    | S fuel' => obind (all_incs F l) (fun l1 =>
        let '(F', l2) := spread F l1 in
        if Rle_dec (norm_incs l2) 1e-8 then Some (F', l2, true) else resolve fuel' F' l2)
    end.
End Resolution.

(** the increment of a pair in a mesh state: coordinates, velocities, masses and corner forces by global node, :2260-2275, :697-803 *)
Definition pair_increment_flag (local_iter : nat) (dt : R) (bdy : nat -> nat) (x vel fcorner : nat -> vec) (mass : nat -> R)
  (F : nat -> vec) (c : cpair) : option (pvars * bool) :=
  let s := bdy (c_id c) in
  let k4 := fun k => bdy (c_map c k) in
  increment dt (x s) (vel s) (fun d => F (c_id c) d + fcorner s d) (mass s)
    (fun k => x (k4 k)) (fun k => vel (k4 k)) (fun k d => F (c_map c k) d + fcorner (k4 k) d) (fun k => mass (k4 k)) local_iter (c_pv c).
(** the flag is not looked at by the caller *)
Definition pair_increment (local_iter : nat) (dt : R) (bdy : nat -> nat) (x vel fcorner : nat -> vec) (mass : nat -> R)
  (F : nat -> vec) (c : cpair) : option pvars := option_map fst (pair_increment_flag local_iter dt bdy x vel fcorner mass F c).

(** the contact force on the nodes, :2407-2414 and sgh_execute.cpp:443-444: zero except on boundary nodes *)
Definition node_contact_force (nb : nat) (bdy : nat -> nat) (F : nat -> vec) : nat -> vec :=
  fold_left (fun C i => fun m d => if Nat.eqb m (bdy i) then F i d else C m d) (seq 0 nb) (fun _ _ => 0).
