(* Model of the large-strain crystal plasticity solver,
   /repo/apps/micromechanics/LS-EVPFFT/src: deformation gradients, their polar
   decomposition, the mean velocity gradient and the steps of a run.
   defgrad_dcmp.cpp, matrix_exp.cpp, determinant33.cpp, update_defgrade.cpp,
   initialize_velgrad.cpp, step.cpp and Cauchy_to_PK1.cpp are the same text in
   LS-EVPFFT-J2.

   Simplifications.  Numbers are reals.  Arrays are functions of the same 1-based
   indices as in the code.  The points of the grid, of all processes, are numbered
   0 .. npts - 1; a sum over points and MPI_Allreduce is the sum over these numbers. *)
From Coq Require Import Reals List Arith Lia Bool.
From Verif Require Import BaseReal LinModel EvpModel.
Import ListNotations.
Local Open Scope R_scope.

(* ii, jj: sum over kk of A(ii,kk)*B(kk,jj) *)
Definition mmul (A B : T2) : T2 := fun i j => sum1 3 (fun k => A i k * B k j).
Definition ident : T2 := fun i j => if Nat.eqb i j then 1 else 0.

(* ---------- matrix_exp.cpp:4-40 ---------- *)
Definition matrix_exp (mat : T2) : T2 :=
  let mat2 := mmul mat mat in
  let mat3 := mmul mat2 mat in
  fun i j => (mat i j + mat2 i j / 2 + mat3 i j / 6) + (if Nat.eqb i j then 1 else 0).

(* ---------- determinant33.cpp:4-18 ---------- *)
Definition determinant33 (m : T2) : R :=
  m 1%nat 1%nat * m 2%nat 2%nat * m 3%nat 3%nat + m 1%nat 2%nat * m 2%nat 3%nat * m 3%nat 1%nat
  + m 1%nat 3%nat * m 2%nat 1%nat * m 3%nat 2%nat - m 3%nat 1%nat * m 2%nat 2%nat * m 1%nat 3%nat
  - m 3%nat 2%nat * m 2%nat 3%nat * m 1%nat 1%nat - m 3%nat 3%nat * m 2%nat 1%nat * m 1%nat 2%nat.

(* ---------- defgrad_dcmp.cpp:8-128 ---------- *)

(* frobenius_norm (131-140) *)
Definition frobenius_norm (A : T2) : R := sqrt (sum1 3 (fun j => sum1 3 (fun i => A i j * A i j))).

(* 41-75: one iteration.  conv_err is that of the iteration before, 1 at first.
   [None]: a division by zero (sqrt(0/0), 1/0). *)
Definition polar_next (conv_err : R) (A_curr : T2) : option T2 :=
  let A_inv := inverted 3 A_curr in
  let scaled c := Some (fun i j => 1 / 2 * (c * A_curr i j + 1 / c * A_inv j i)) in
  if Rlt_dec conv_err (1 / 10) then scaled 1
  else if Req_EM_T (frobenius_norm A_curr) 0 then None
  else let c := sqrt (frobenius_norm A_inv / frobenius_norm A_curr) in
       if Req_EM_T c 0 then None else scaled c.

(* 77-84 *)
Definition polar_error (A_next A_curr : T2) : R :=
  sum1 3 (fun i => sum1 3 (fun j => (A_next i j - A_curr i j) * (A_next i j - A_curr i j))).

Inductive polar_outcome :=
| Decomposed (V R : T2)
| Exceeded        (* 98-101: the message and exit(1) *)
| NotANumber.

(* 103-125: R, and V = F * R^-1 by invert_matrix. *)
Definition finish (F A_next : T2) : polar_outcome := Decomposed (mmul F (inverted 3 A_next)) A_next.

(* 39-96 *)
Fixpoint polar_loop (F : T2) (iters : nat) (conv_err : R) (A_curr : T2) : polar_outcome :=
  match iters with
  | O => Exceeded
  | S iters =>
    match polar_next conv_err A_curr with
    | None => NotANumber
    | Some A_next =>
      let err := polar_error A_next A_curr in
      if Rlt_dec err (/ 10 ^ 12) then finish F A_next else polar_loop F iters err A_next
    end
  end.

Definition iter_max : nat := 50.
Definition defgrad_dcmp (F : T2) : polar_outcome := polar_loop F iter_max 1 F.

(* ---------- the arrays at a point ---------- *)
Record point := mkPoint {
  p_F : T2;         (* defgrad *)
  p_Finv : T2;      (* defgradinv *)
  p_Fini : T2;      (* defgradini *)
  p_Fe : T2;        (* defgrade *)
  p_Fp : T2;        (* defgradp *)
  p_disgrad : T2;
  p_vel : T2;       (* velgrad *)
  p_detF : R;
  p_wgtc : R;
  p_sg : T2;
  p_sgt : T2;
  p_edotp : T2;
  p_ag : T2;
  p_gas : bool;     (* igas(jphase) <> 0 *)
  p_J2 : bool;      (* iJ2(jphase) <> 0 *)
  p_slip : list (T1 * T1 * R) (* dnca, dbca, gamdot of the systems of the phase *) }.
Definition field := nat -> point.

(* ---------- update_defgradp.cpp ---------- *)

(* 51-67: dbsa(ii) * dnsa(jj) * gamdot, for the systems turned by ag. *)
Definition slip_term (aa : T2) (s : T1 * T1 * R) : T2 := fun i j =>
  let '(n, b, g) := s in
  sum1 3 (fun k => aa i k * b k) * sum1 3 (fun k => aa j k * n k) * g.
(* 41-86 *)
Definition plastic_velgrad (p : point) : T2 :=
  if p_J2 p
  then let inv := inverted 3 (p_Fe p) in
       fun i j => sum1 3 (fun k => sum1 3 (fun l => inv i k * p_edotp p k l * p_Fe p l j))
  else fun i j => fold_left (fun a s => a + slip_term (p_ag p) s i j) (p_slip p) 0.
(* 39-118 *)
Definition update_defgradp_at (tdot : R) (p : point) : point :=
  if p_gas p then p
  else let E := matrix_exp (fun i j => plastic_velgrad p i j * tdot) in
       mkPoint (p_F p) (p_Finv p) (p_Fini p) (p_Fe p) (mmul E (p_Fp p)) (p_disgrad p) (p_vel p) (p_detF p)
               (p_wgtc p) (p_sg p) (p_sgt p) (p_edotp p) (p_ag p) (p_gas p) (p_J2 p) (p_slip p).
Definition update_defgradp (tdot : R) (f : field) : field := fun q => update_defgradp_at tdot (f q).

(* ---------- update_defgrad.cpp ---------- *)

(* 52-131: the loop body at a point. *)
Definition advance (tdot wgt : R) (p : point) : point :=
  let E := matrix_exp (fun i j => p_vel p i j * tdot) in
  let F := mmul E (p_F p) in
  let det := determinant33 F in
  let Finv := inverted 3 F in
  mkPoint F Finv (p_Fini p) (p_Fe p) (p_Fp p)
    (fun i j => (0 - sum1 3 (fun k => p_Fini p i k * Finv k j)) + (if Nat.eqb i j then 1 else 0))
    (mmul (p_vel p) (inverted 3 E)) det (wgt * det) (p_sg p) (p_sgt p) (p_edotp p) (p_ag p) (p_gas p) (p_J2 p) (p_slip p).

(* 133-189: the averages, and the inverse of the mean of defgradinv. *)
Definition det_mean (npts : nat) (wgt : R) (f : field) : R := sumn npts (fun q => p_detF (f q) * wgt).
Definition current_mean (npts : nat) (wgt : R) (X : point -> T2) (f : field) : T2 := fun i j =>
  sumn npts (fun q => X (f q) i j * wgt * p_detF (f q)) / det_mean npts wgt f.

(* What update_defgrad leaves outside the points. *)
Record averages := mkAverages {
  defgradavg : T2;
  defgradinvavgc_inv : T2 }.

(* 11-230: velgradmacroactual is that of step_update. *)
Definition update_defgrad (npts : nat) (tdot wgt : R) (velgradmacroactual : T2) (f : field) : field * averages :=
  let g := fun q => advance tdot wgt (f q) in
  let detFavg := det_mean npts wgt g in
  let invinv := inverted 3 (current_mean npts wgt p_Finv g) in
  let velavg := current_mean npts wgt p_vel g in
  let dudot := mmul (fun i k => velgradmacroactual i k - velavg i k) invinv in
  (fun q => let p := g q in
     mkPoint (p_F p) (p_Finv p) (p_Fini p) (p_Fe p) (p_Fp p) (p_disgrad p)
       (fun i j => p_vel p i j + sum1 3 (fun k => dudot i k * p_Finv p k j)) (p_detF p) (p_wgtc p / detFavg)
       (p_sg p) (p_sgt p) (p_edotp p) (p_ag p) (p_gas p) (p_J2 p) (p_slip p),
   mkAverages (fun i j => sumn npts (fun q => p_F (g q) i j * wgt)) invinv).

(* ---------- update_defgrade.cpp ---------- *)

(* 38-97: [None] where defgrad_dcmp ends the program or divides by zero. *)
Definition update_defgrade_at (p : point) : option point :=
  if p_gas p then Some p
  else let Fe := mmul (p_F p) (inverted 3 (mmul (p_Fp p) (p_Fini p))) in
       let Finc := mmul Fe (inverted 3 (p_Fe p)) in
       match defgrad_dcmp Finc with
       | Decomposed _ Rinc =>
           Some (mkPoint (p_F p) (p_Finv p) (p_Fini p) Fe (p_Fp p) (p_disgrad p) (p_vel p) (p_detF p) (p_wgtc p) (p_sg p)
             (fun i j => sum1 3 (fun k => sum1 3 (fun l => Rinc i k * Rinc j l * p_sg p k l)))
             (p_edotp p) (p_ag p) (p_gas p) (p_J2 p) (p_slip p))
       | _ => None
       end.

(* ---------- Cauchy_to_PK1.cpp:9-66 ---------- *)
Definition weighted_mean (npts : nat) (X : point -> T2) (f : field) : T2 := fun i j =>
  sumn npts (fun q => X (f q) i j * p_wgtc (f q)).
Definition cauchy_to_pk1 (npts : nat) (f : field) (q : nat) : T2 :=
  let sgavg := weighted_mean npts p_sg f in
  fun i j => sum1 3 (fun k => (p_sg (f q) i k - sgavg i k) * p_Finv (f q) j k * p_detF (f q)).

(* ---------- initialize_velgrad.cpp:6-87 ---------- *)
(* work: the correction from the backward transform. *)
Definition initialize_velgrad (npts : nat) (work : nat -> T2) (dvelgradmacro invinv : T2) (f : field) : field :=
  let dvelgradavg i j := sumn npts (fun q => sum1 3 (fun k => work q i k * p_Finv (f q) k j) * p_wgtc (f q)) in
  let dudot := mmul (fun i k => dvelgradmacro i k - dvelgradavg i k) invinv in
  fun q => let p := f q in
    mkPoint (p_F p) (p_Finv p) (p_Fini p) (p_Fe p) (p_Fp p) (p_disgrad p)
      (fun i j => p_vel p i j + sum1 3 (fun k => (work q i k + dudot i k) * p_Finv p k j)) (p_detF p) (p_wgtc p)
      (p_sg p) (p_sgt p) (p_edotp p) (p_ag p) (p_gas p) (p_J2 p) (p_slip p).

(* ---------- init_defgrad, evpfft.cpp:399-435, at a point ---------- *)
Definition diag (delt : T1) : T2 := fun i j => if Nat.eqb i j then delt i else 0.
Definition init_defgrad_at (delt : T1) (wgt : R) (p : point) : point :=
  mkPoint (diag delt) (diag (fun i => 1 / delt i)) (diag delt) ident ident (p_disgrad p) (p_vel p)
    (delt 1%nat * delt 2%nat * delt 3%nat) wgt (p_sg p) (p_sgt p) (p_edotp p) (p_ag p) (p_gas p) (p_J2 p) (p_slip p).
Definition init_defgrad (delt : T1) (wgt : R) (f : field) : field := fun q => init_defgrad_at delt wgt (f q).

(* ---------- update_el_stiff.cpp:45-114 at a point ---------- *)
(* caux3333; cg66 is its image under chg_basis_4. *)
Definition turned_stiffness (cc : T4) (p : point) : option T4 :=
  match defgrad_dcmp (p_Fe p) with
  | Decomposed _ Rot =>
      let aa := mmul Rot (p_ag p) in
      Some (fun i1 j1 k1 l1 => sum1 3 (fun i2 => sum1 3 (fun j2 => sum1 3 (fun k2 => sum1 3 (fun l2 =>
        aa i1 i2 * aa j1 j2 * cc i2 j2 k2 l2 * aa k1 k2 * aa l1 l2)))))
  | _ => None
  end.
