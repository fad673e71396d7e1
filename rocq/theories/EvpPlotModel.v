(* Model of the fields the spectral crystal plasticity solver writes,
   /repo/apps/micromechanics/EVPFFT/src/write_micro_state.cpp: calculate_vm_field,
   calculate_eel, symmetrize and calc_IPF_colors, and the start of calc_IPF_colors in
   LS-EVPFFT (the same in LSNP-EVPFFT).

   Simplifications.  Real arithmetic (vm_stress takes a square root in single precision
   there).  The decimal pi of line 230 is PI. *)
From Coq Require Import Reals List Arith Lia Bool ZArith.
From Verif Require Import BaseReal LinModel EvpModel.
Import ListNotations.
Local Open Scope R_scope.

(* calculate_vm_field (91-131): the tensor of a point is copied to a 3 x 3 array, first
   index fastest. *)
Definition vm_field_0 (t : T2) : R := vm_stress (fun p => t (Nat.modulo p 3 + 1)%nat (Nat.div p 3 + 1)%nat).
Definition vm_field_1 (t : T2) : R := vm t.

(* calculate_eel (133-189) *)
Definition calculate_eel (igas : bool) (cg66 sg : T2) : T2 := fun ii jj =>
  if igas then -100
  else let cinvg := chg_basis_3 6 (inverted 6 cg66) in sum1 3 (fun kk => sum1 3 (fun ll => cinvg ii jj kk ll * sg kk ll)).

(* symmetrize (191-216) *)
Definition symmetrize (t : T2) : T2 := fun ii jj => 1 / 2 * (t ii jj + t jj ii).

(* The tensors and scalars of a point in the files (456-469, 1056-1098). *)
Record plot := { p_strain : T2; p_stress : T2; p_rate : T2; p_elastic : T2; p_vm_strain : R; p_vm_stress : R; p_vm_rate : R; p_vm_elastic : R }.
Definition plotted (igas : bool) (cg66 sg disgrad edotp : T2) : plot :=
  let sym_eel := symmetrize (calculate_eel igas cg66 sg) in
  {| p_strain := symmetrize disgrad; p_stress := sg; p_rate := symmetrize edotp; p_elastic := sym_eel;
     p_vm_strain := vm_field_1 (symmetrize disgrad); p_vm_stress := vm_field_0 sg; p_vm_rate := vm_field_1 (symmetrize edotp); p_vm_elastic := vm_field_1 sym_eel |}.

(* ---------- calc_IPF_colors (218-334) ---------- *)

(* quatB (251-256) *)
Definition quat (eulers : R * R * R) (i : nat) : R :=
  let '(e1, e2, e3) := eulers in
  match i with
  | 0%nat => sin (1 / 2 * e2) * cos (1 / 2 * (e1 - e3))
  | 1%nat => sin (1 / 2 * e2) * sin (1 / 2 * (e1 - e3))
  | 2%nat => cos (1 / 2 * e2) * sin (1 / 2 * (e1 + e3))
  | _ => cos (1 / 2 * e2) * cos (1 / 2 * (e1 + e3))
  end.
(* The last index of 0, 1, 2 that is neither (271-276), and kl (277-279). *)
Definition other (ii jj : nat) : nat :=
  fold_left (fun kk ijk => if (negb (Nat.eqb ii ijk) && negb (Nat.eqb jj ijk))%bool then ijk else kk) (seq 0 3) 0%nat.
Definition kl (ii jj : nat) : Z :=
  let kl := (Z.of_nat jj - Z.of_nat ii)%Z in
  let kl := if Z.eqb kl 2 then (-1)%Z else kl in
  if Z.eqb kl (-2) then 1%Z else kl.
(* invqrvec (259-284) *)
Definition invqrvec (q hkl : nat -> R) (ii : nat) : R :=
  let t1 := q 3%nat * q 3%nat - q 0%nat * q 0%nat - q 1%nat * q 1%nat - q 2%nat * q 2%nat in
  t1 * hkl ii + 2 * q ii * sumn 3 (fun jj => q jj * hkl jj)
  + sumn 3 (fun jj => if Nat.eqb ii jj then 0 else 2 * q (other ii jj) * q 3%nat * IZR (kl ii jj) * hkl jj).
(* hkl (243-249): (0, 0, 1), of length one already *)
Definition hkl (i : nat) : R := match i with 2%nat => 1 | _ => 0 end.
(* dout before the colours (287-289) for the angles of aa *)
Definition dout_of (eulers : R * R * R) (i : nat) : R := Rabs (invqrvec (quat eulers) hkl i).
Definition ipf_direction (ag : T2) (i : nat) : R := dout_of (euler_1 ag) i.

(* 290-308 *)
Definition extremes (dout : nat -> R) : nat * nat :=
  let '(_, _, top, bottom) :=
    fold_left (fun s jj => let '(dmax, dmin, top, bottom) := s in
      let '(dmax, top) := if Rlt_dec dmax (dout jj) then (dout jj, jj) else (dmax, top) in
      let '(dmin, bottom) := if Rlt_dec (dout jj) dmin then (dout jj, jj) else (dmin, bottom) in
      (dmax, dmin, top, bottom)) (seq 0 3) (0, 9999, 0%nat, 0%nat) in
  (top, bottom).
Definition middle_of (top bottom : nat) : nat :=
  fold_left (fun m jj => if (negb (Nat.eqb jj bottom) && negb (Nat.eqb jj top))%bool then jj else m) (seq 0 3) 0%nat.
(* 310-325: red, green and blue *)
Definition rgb (dout : nat -> R) : R * R * R :=
  let '(top, bottom) := extremes dout in
  let middle := middle_of top bottom in
  let dtop := if Rlt_dec 1 (dout top) then 1 else dout top in
  let phi := Rmin (PI / 4) (acos dtop) in
  let thett := atan2 (dout bottom) (dout middle) in
  let red := 1 - sin (16 / 10 * phi) in
  let green := (1 - red) * cos (2 * thett) in
  let blue := (1 - red) * sin (2 * thett) in
  let drmax := Rmax red (Rmax green blue) in
  let correct := 1 / drmax in
  (red * correct, green * correct, blue * correct).
(* A double becomes an unsigned int (327-329): undefined (None) unless it is above -1 and
   below 2^32; the fraction is dropped. *)
Definition to_unsigned (x : R) : option nat :=
  if Rlt_dec (-1) x then if Rlt_dec x (IZR (2 ^ 32)) then Some (if Rlt_dec x 0 then 0%nat else Z.to_nat (Int_part x)) else None else None.
Definition ipf_color (dout : nat -> R) (c : nat) : option nat :=
  let '(red, green, blue) := rgb dout in
  to_unsigned (255 * match c with 1%nat => red | 2%nat => green | _ => blue end).
Definition calc_IPF_colors (ag : T2) (c : nat) : option nat := ipf_color (ipf_direction ag) c.

(* The matrix the angles are taken of in LS-EVPFFT (write_micro_state.cpp:255-262 there):
   the sum is written with =+, an assignment, so that the last term stays. *)
Definition ls_aa (ag Rm : T2) : T2 := fun ii jj => fold_left (fun _ kk => ag ii kk * Rm kk jj) (seq 1 3) 0.
