(** The largest eigenvalue magnitude of a tensor: Solvers/SGH_solver_3D/src/sgh_execute.cpp. *)
From Coq Require Import Reals.
From Verif Require Import BaseReal.
Open Scope R_scope.

Definition mat3 := nat -> nat -> R.

(** the determinant as computed at 696-698 and, for B, at 733-735 *)
Definition det3 (t : mat3) : R :=
  t 0%nat 0%nat * (t 1%nat 1%nat * t 2%nat 2%nat - t 1%nat 2%nat * t 2%nat 1%nat)
  - t 0%nat 1%nat * (t 1%nat 0%nat * t 2%nat 2%nat - t 1%nat 2%nat * t 2%nat 0%nat)
  + t 0%nat 2%nat * (t 1%nat 0%nat * t 2%nat 1%nat - t 1%nat 1%nat * t 2%nat 0%nat).

(** trace / 3, 695 and 699 *)
Definition mean (t : mat3) : R := (t 0%nat 0%nat + t 1%nat 1%nat + t 2%nat 2%nat) / 3.

(** p, 700-704 *)
Definition spread (t : mat3) : R :=
  sqrt (((t 0%nat 0%nat - mean t) ^ 2 + (t 1%nat 1%nat - mean t) ^ 2 + (t 2%nat 2%nat - mean t) ^ 2
         + 2 * (t 0%nat 1%nat ^ 2 + t 0%nat 2%nat ^ 2 + t 1%nat 2%nat ^ 2)) / 6).

(** B, 715-728 *)
Definition reduced (t : mat3) : mat3 := fun i j => if Nat.eqb i j then 1 / spread t * (t i i - mean t) else 1 / spread t * t i j.

(** phi, 732-748; [pi] is the constant of line 693 *)
Definition angle (pi r : R) : R := if Rle_dec r (-1) then pi / 3 else if Rle_dec 1 r then 0 else acos r / 3.

(** max_Eigen3D, 689-756.  Doubles are reals, so the NaN test 707-709 never fires; dividing by p = 0 is undefined.
    The model takes the constant pi as an argument; the code uses 3.141592653589793. *)
Definition max_eigen (pi : R) (t : mat3) : option R :=
  if Req_EM_T (det3 t) 0 then Some 0
  else if Req_EM_T (spread t) 0 then None
  else
    let phi := angle pi (det3 (reduced t) / 2) in
    let eig1 := mean t + 2 * spread t * cos phi in
    let eig2 := mean t + 2 * spread t * cos (phi + 2 * pi / 3) in
    let eig3 := 3 * mean t - (eig1 + eig2) in
    Some (fmax (fmax (Rabs eig1) (Rabs eig2)) (Rabs eig3)).
