(** Model of the reference element: the quadrature rules, the Lagrange basis and
    the arrays [fe_ref_elem_t::init] fills.

    Sources (paths relative to /repo):
      apps/multiphysics/src/common/include/ref_quadrature.hpp
      apps/multiphysics/src/common/include/ref_elem.hpp

    No program in /repo includes these headers; they are offered to solvers.
    [ref_surf_elem.hpp] is not modelled: it uses names it never declares
    ([k], [lobotto_grad_basis], [lobotto_positions], [num_patch_in_surf]) and
    cannot be compiled.

    Floating point numbers are real numbers.  Arrays are checked ([None] is an
    access out of range) and start as zeros, as CArrayKokkos's do.  A parallel
    loop (FOR_ALL_CLASS) runs its cells in the order [sch] puts them in; the
    scratch arrays val_1d, val_3d, Dval_1d, Dval_3d and temp_* are made anew
    where the source zeroes them. *)
From Coq Require Import Reals.
From Verif Require Import BaseArr RefTables.
Open Scope R_scope.

(* The literals of ref_quadrature.hpp, see RefTables.v. *)
Definition dec (m : Z) : R := IZR m / IZR (10 ^ 33).

(* ref_quadrature.hpp:53-308 get_lobatto_nodes_1D.  [None]: no branch for that
   number of points, the array is left as it was. *)
Definition lobatto_nodes (n : nat) : option (list R) :=
  match n with
  | 1%nat => Some [0]
  | 2%nat => Some [-1; 1]
  | 3%nat => Some [-1; 0; 1]
  | 4%nat => Some [-1; - (1 / 5) * sqrt 5; 1 / 5 * sqrt 5; 1]
  | 5%nat => Some [-1; - (1 / 7) * sqrt 21; 0; 1 / 7 * sqrt 21; 1]
  | 6%nat => Some [-1; - sqrt (1 / 21 * (7 + 2 * sqrt 7)); - sqrt (1 / 21 * (7 - 2 * sqrt 7));
                   sqrt (1 / 21 * (7 - 2 * sqrt 7)); sqrt (1 / 21 * (7 + 2 * sqrt 7)); 1]
  | _ => option_map (map dec) (lobatto_nodes_z n)
  end.

(* ref_quadrature.hpp:317-572 get_lobatto_weights_1D *)
Definition lobatto_weights (n : nat) : option (list R) :=
  match n with
  | 1%nat => Some [2]
  | 2%nat => Some [1; 1]
  | 3%nat => Some [1 / 3; 4 / 3; 1 / 3]
  | 4%nat => Some [1 / 6; 5 / 6; 5 / 6; 1 / 6]
  | 5%nat => Some [1 / 10; 49 / 90; 32 / 45; 49 / 90; 1 / 10]
  | 6%nat => Some [1 / 15; 1 / 30 * (14 - sqrt 7); 1 / 30 * (14 + sqrt 7);
                   1 / 30 * (14 + sqrt 7); 1 / 30 * (14 - sqrt 7); 1 / 15]
  | _ => option_map (map dec) (lobatto_weights_z n)
  end.

(* ref_quadrature.hpp:589-823 get_legendre_nodes_1D *)
Definition legendre_nodes (n : nat) : option (list R) :=
  option_map (map dec) (legendre_nodes_z n).

(* ref_quadrature.hpp:840-1074 get_legendre_weights_1D *)
Definition legendre_weights (n : nat) : option (list R) :=
  option_map (map dec) (legendre_weights_z n).

(* A CArrayKokkos just made: zeros. *)
Definition zeros (r c : nat) : arr R := mkArr r c (fun _ _ => Some 0).

(* The branch of the table for [n] points, written into the array; nothing
   without such a branch.  A one-dimensional array is one column. *)
Definition store (t : nat -> option (list R)) (n : nat) (a : arr R) : option (arr R) :=
  match t n with
  | Some l => for_up 0 (length l) (fun i a => obind (nth_error l i) (fun v => aset a i 0 v)) a
  | None => Some a
  end.

(* ref_elem.hpp:138-157 init: the numbers of points along an edge. *)
Definition num_lobatto_1d (p : nat) : nat := if (p =? 0)%nat then 2 else 2 * p + 1.
Definition num_dual_lobatto_1d (p : nat) : nat := if (p =? 0)%nat then 1 else 2 * p - 1.
Definition num_gauss_1d (p : nat) : nat := if (p =? 0)%nat then 1 else 2 * p.
Definition num_dofs_1d (p : nat) : nat := if (p =? 0)%nat then 2 else p + 1.
Definition num_dg_dofs_1d (p : nat) : nat := if (p =? 0)%nat then 1 else p.

(* ref_elem.hpp:548-643 dof_rid, elem_dof_rid, lobatto_rid, dual_lobatto_rid,
   legendre_rid: the same formula with the number of points of each kind. *)
Definition rid (n i j k : nat) : nat := (i + j * n + k * n * n)%nat.

(* for k, for j, for i: the cells in the order of the loops. *)
Definition cells_over (l : list nat) : list (nat * nat * nat) :=
  flat_map (fun k => flat_map (fun j => map (fun i => (i, j, k)) l) l) l.
Definition cells (n : nat) : list (nat * nat * nat) := cells_over (seq 0 n).

(* for (int i = 0; i < n; i = i + 2) *)
Definition evens (n : nat) : list nat := filter Nat.even (seq 0 n).

(* ref_elem.hpp:1116-1140 lagrange_basis_1D and 1160-1184
   lagrange_elem_basis_1D (the same with the other array of positions). *)
Definition lagrange_basis_1D (n : nat) (pos : arr R) (interp : arr R) (x : R) : option (arr R) :=
  for_up 0 n (fun i interp =>
    obind (for_up 0 n (fun j (st : R * R * R) =>
             let '(nu, de, _) := st in
             obind (if (j =? i)%nat then Some (nu, de)
                    else obind (aget pos i 0) (fun pi => obind (aget pos j 0) (fun pj =>
                           Some (nu * (x - pj), de * (pi - pj)))))
                   (fun '(nu, de) => Some (nu, de, nu / de)))
             (1, 1, 1))
          (fun '(_, _, it) => aset interp i 0 it)) interp.

(* ref_elem.hpp:1204-1239 lagrange_derivative_1D *)
Definition lagrange_derivative_1D (n : nat) (pos : arr R) (derivative : arr R) (x : R) : option (arr R) :=
  for_up 0 n (fun i derivative =>
    obind (for_up 0 n (fun j (st : R * R * R) =>
             let '(de, ng, _) := st in
             obind (if (j =? i)%nat then Some (de, ng)
                    else obind (aget pos i 0) (fun pi => obind (aget pos j 0) (fun pj =>
                         obind (for_up 0 n (fun m pg =>
                                  if negb (m =? j)%nat && negb (m =? i)%nat
                                  then obind (aget pos m 0) (fun pm => Some (pg * (x - pm)))
                                  else Some pg) 1)
                               (fun pg => Some (de * (pi - pj), ng + pg)))))
                   (fun '(de, ng) => Some (de, ng, ng / de)))
             (1, 0, 0))
          (fun '(_, _, g) => aset derivative i 0 g)) derivative.

(* The product loop at the end of get_basis, get_elem_basis and the partial_*
   functions: basis(rid(i,j,k)) = v0(i) * v1(j) * v2(k). *)
Definition tensor (n : nat) (v0 v1 v2 : arr R) (basis : arr R) : option (arr R) :=
  for_each (cells n) (fun '(i, j, k) basis =>
    obind (aget v0 i 0) (fun a => obind (aget v1 j 0) (fun b => obind (aget v2 k 0) (fun c =>
      aset basis (rid n i j k) 0 (a * b * c))))) basis.

Definition point := (R * R * R)%type.

(* ref_elem.hpp:681-735 get_basis, 754-808 get_elem_basis *)
Definition get_basis (n : nat) (pos : arr R) (pt : point) : option (arr R) :=
  let '(x, y, z) := pt in
  obind (lagrange_basis_1D n pos (zeros n 1) x) (fun v0 =>
  obind (lagrange_basis_1D n pos (zeros n 1) y) (fun v1 =>
  obind (lagrange_basis_1D n pos (zeros n 1) z) (fun v2 =>
  tensor n v0 v1 v2 (zeros (n * n * n) 1)))).

(* ref_elem.hpp:827-889 partial_xi_basis *)
Definition partial_xi_basis (n : nat) (pos : arr R) (pt : point) : option (arr R) :=
  let '(x, y, z) := pt in
  obind (lagrange_derivative_1D n pos (zeros n 1) x) (fun v0 =>
  obind (lagrange_basis_1D n pos (zeros n 1) y) (fun v1 =>
  obind (lagrange_basis_1D n pos (zeros n 1) z) (fun v2 =>
  tensor n v0 v1 v2 (zeros (n * n * n) 1)))).

(* ref_elem.hpp:909-972 partial_eta_basis *)
Definition partial_eta_basis (n : nat) (pos : arr R) (pt : point) : option (arr R) :=
  let '(x, y, z) := pt in
  obind (lagrange_basis_1D n pos (zeros n 1) x) (fun v0 =>
  obind (lagrange_derivative_1D n pos (zeros n 1) y) (fun v1 =>
  obind (lagrange_basis_1D n pos (zeros n 1) z) (fun v2 =>
  tensor n v0 v1 v2 (zeros (n * n * n) 1)))).

(* ref_elem.hpp:992-1054 partial_mu_basis *)
Definition partial_mu_basis (n : nat) (pos : arr R) (pt : point) : option (arr R) :=
  let '(x, y, z) := pt in
  obind (lagrange_basis_1D n pos (zeros n 1) x) (fun v0 =>
  obind (lagrange_basis_1D n pos (zeros n 1) y) (fun v1 =>
  obind (lagrange_derivative_1D n pos (zeros n 1) z) (fun v2 =>
  tensor n v0 v1 v2 (zeros (n * n * n) 1)))).

(* ref_elem.hpp:48-114 fe_ref_elem_t, the arrays.  [lobotto] is the source's
   spelling.  The maps of indices hold natural numbers. *)
Record ref_elem := mkRef {
  lob_points_1D : arr R;
  dual_lob_points_1D : arr R;
  lob_weights_1D : arr R;
  leg_nodes_1D : arr R;
  leg_weights_1D : arr R;
  lobotto_point_positions : arr R;
  lobotto_point_weights : arr R;
  dof_lobatto_map : arr nat;
  dual_dof_lobatto_map : arr nat;
  gauss_point_positions : arr R;
  gauss_point_weights : arr R;
  dof_positions_1d : arr R;
  dg_dof_positions_1d : arr R;
  dof_positions : arr R;
  dg_dof_positions : arr R;
  lobotto_point_basis : arr R;
  gauss_point_basis : arr R;
  gauss_point_dg_basis : arr R;
  lobotto_point_dg_basis : arr R;
  lobotto_point_grad_basis : arr R;
  gauss_point_grad_basis : arr R }.

(* ref_elem.hpp:244-255, 303-315: positions and weights of the points of a rule
   with n points along an edge. *)
Definition place_points (sch : list (nat * nat * nat) -> list (nat * nat * nat)) (n : nat)
    (nodes weights : arr R) (pw : arr R * arr R) : option (arr R * arr R) :=
  for_each (sch (cells n)) (fun '(i, j, k) pw =>
    let '(pos, wts) := pw in
    obind (aget nodes i 0) (fun xi => obind (aget nodes j 0) (fun xj => obind (aget nodes k 0) (fun xk =>
    obind (aset pos (rid n i j k) 0 xi) (fun pos =>
    obind (aset pos (rid n i j k) 1 xj) (fun pos =>
    obind (aset pos (rid n i j k) 2 xk) (fun pos =>
    obind (aget weights i 0) (fun wi => obind (aget weights j 0) (fun wj => obind (aget weights k 0) (fun wk =>
    obind (aset wts (rid n i j k) 0 (wi * wj * wk)) (fun wts => Some (pos, wts)))))))))))) pw.

(* ref_elem.hpp:258-301: number the points [l] selects, in the order of the loops. *)
Definition number_points (n : nat) (l : list nat) (a : arr nat) : option (arr nat) :=
  obind (for_each (cells_over l) (fun '(i, j, k) (st : arr nat * nat) =>
           let '(a, c) := st in obind (aset a c 0 (rid n i j k)) (fun a => Some (a, S c))) (a, 0%nat))
        (fun st => Some (fst st)).

(* ref_elem.hpp:325-345: every second point of the rule is a degree of freedom. *)
Definition take_evens (n : nat) (from to : arr R) : option (arr R) :=
  obind (for_each (evens n) (fun i (st : arr R * nat) =>
           let '(a, c) := st in
           obind (aget from i 0) (fun v => obind (aset a c 0 v) (fun a => Some (a, S c)))) (to, 0%nat))
        (fun st => Some (fst st)).

(* ref_elem.hpp:318-324: with p_order = 0 both arrays are filled in one loop over
   the points of the kinematic rule. *)
Definition copy_points (n : nat) (lob dual dofs dgs : arr R) : option (arr R * arr R) :=
  for_up 0 n (fun i (st : arr R * arr R) =>
    let '(a, b) := st in
    obind (aget lob i 0) (fun v => obind (aset a i 0 v) (fun a =>
    obind (aget dual i 0) (fun w => obind (aset b i 0 w) (fun b => Some (a, b)))))) (dofs, dgs).

(* ref_elem.hpp:348-357 *)
Definition place_dofs (sch : list (nat * nat * nat) -> list (nat * nat * nat)) (n : nat)
    (pos1 : arr R) (pos : arr R) : option (arr R) :=
  for_each (sch (cells n)) (fun '(i, j, k) pos =>
    obind (aget pos1 i 0) (fun xi => obind (aset pos (rid n i j k) 0 xi) (fun pos =>
    obind (aget pos1 j 0) (fun xj => obind (aset pos (rid n i j k) 1 xj) (fun pos =>
    obind (aget pos1 k 0) (fun xk => aset pos (rid n i j k) 2 xk)))))) pos.

(* ref_elem.hpp:373-461: the values of the basis at the points of a rule, point
   by point.  [eval] is get_basis or get_elem_basis. *)
Definition tabulate_basis (npts nbasis : nat) (positions : arr R)
    (eval : point -> option (arr R)) (out : arr R) : option (arr R) :=
  for_up 0 npts (fun q out =>
    obind (aget positions q 0) (fun x => obind (aget positions q 1) (fun y => obind (aget positions q 2) (fun z =>
    obind (eval (x, y, z)) (fun b =>
    for_up 0 nbasis (fun m out => obind (aget b m 0) (fun v => aset out q m v)) out))))) out.

(* ref_elem.hpp:472-541: the gradients, point by point.  The array has three
   indices in the source; here the last two are one, basis * 3 + dim. *)
Definition tabulate_grad (npts nbasis : nat) (positions : arr R)
    (dxi deta dmu : point -> option (arr R)) (out : arr R) : option (arr R) :=
  for_up 0 npts (fun q out =>
    obind (aget positions q 0) (fun x => obind (aget positions q 1) (fun y => obind (aget positions q 2) (fun z =>
    obind (dxi (x, y, z)) (fun a => obind (deta (x, y, z)) (fun b => obind (dmu (x, y, z)) (fun c =>
    for_up 0 nbasis (fun m out =>
      obind (aget a m 0) (fun va => obind (aset out q (m * 3) va) (fun out =>
      obind (aget b m 0) (fun vb => obind (aset out q (m * 3 + 1) vb) (fun out =>
      obind (aget c m 0) (fun vc => aset out q (m * 3 + 2) vc)))))) out)))))) ) out.

(* ref_elem.hpp:132-543 init with num_dim_inp = 3 (with any other number of
   dimensions only the one-dimensional rules are filled; not modelled). *)
Definition init (sch : list (nat * nat * nat) -> list (nat * nat * nat)) (p : nat) : option ref_elem :=
  let nl := num_lobatto_1d p in let nd := num_dual_lobatto_1d p in let ng := num_gauss_1d p in
  let n := num_dofs_1d p in let m := num_dg_dofs_1d p in
  obind (store lobatto_nodes nl (zeros nl 1)) (fun lob =>
  obind (store lobatto_nodes nd (zeros nd 1)) (fun dual =>
  obind (store lobatto_weights nl (zeros nl 1)) (fun lobw =>
  obind (store legendre_nodes ng (zeros ng 1)) (fun leg =>
  obind (store legendre_weights ng (zeros ng 1)) (fun legw =>
  obind (place_points sch nl lob lobw (zeros (nl * nl * nl) 3, zeros (nl * nl * nl) 1)) (fun '(lobp, lobpw) =>
  obind (number_points nl (evens nl) (mkArr (n * n * n) 1 (fun _ _ => Some 0%nat))) (fun map1 =>
  obind (let fresh := mkArr (m * m * m) 1 (fun _ _ => Some 0%nat) in
         if (p =? 1)%nat then number_points nd (seq 0 nd) fresh
         else if (1 <? p)%nat then number_points nd (evens nd) fresh else Some fresh) (fun map2 =>
  obind (place_points sch ng leg legw (zeros (ng * ng * ng) 3, zeros (ng * ng * ng) 1)) (fun '(gp, gpw) =>
  obind (if (p =? 0)%nat then copy_points nl lob dual (zeros n 1) (zeros m 1)
         else obind (take_evens nl lob (zeros n 1)) (fun a =>
              obind (take_evens nd dual (zeros m 1)) (fun b => Some (a, b)))) (fun '(pos1, dgpos1) =>
  obind (place_dofs sch n pos1 (zeros (n * n * n) 3)) (fun pos =>
  obind (tabulate_basis (nl * nl * nl) (n * n * n) lobp (get_basis n pos1)
           (zeros (nl * nl * nl) (n * n * n))) (fun lobb =>
  obind (tabulate_basis (ng * ng * ng) (n * n * n) gp (get_basis n pos1)
           (zeros (ng * ng * ng) (n * n * n))) (fun gb =>
  obind (tabulate_basis (ng * ng * ng) (m * m * m) gp (get_basis m dgpos1)
           (zeros (ng * ng * ng) (m * m * m))) (fun gdb =>
  obind (tabulate_basis (nl * nl * nl) (m * m * m) lobp (get_basis m dgpos1)
           (zeros (nl * nl * nl) (m * m * m))) (fun lobdb =>
  obind (tabulate_grad (nl * nl * nl) (n * n * n) lobp (partial_xi_basis n pos1)
           (partial_eta_basis n pos1) (partial_mu_basis n pos1)
           (zeros (nl * nl * nl) (n * n * n * 3))) (fun lobg =>
  obind (tabulate_grad (ng * ng * ng) (n * n * n) gp (partial_xi_basis n pos1)
           (partial_eta_basis n pos1) (partial_mu_basis n pos1)
           (zeros (ng * ng * ng) (n * n * n * 3))) (fun gg =>
  Some (mkRef lob dual lobw leg legw lobp lobpw map1 map2 gp gpw pos1 dgpos1 pos
          (zeros (m * m * m) 3) lobb gb gdb lobdb lobg gg)))))))))))))))))).
