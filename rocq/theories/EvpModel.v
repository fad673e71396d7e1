(* Model of the spectral crystal plasticity solver, /repo/apps/micromechanics/EVPFFT/src:
   tensors and crystals.  The functions of chg_basis.cpp, euler.cpp and orient.cpp
   are the same text in LS-EVPFFT, LS-EVPFFT-J2 and LSNP-EVPFFT.

   Simplifications.  Numbers are reals.  Arrays are functions of the same 1-based
   indices as in the code; a function that fills an array in loops whose iterations
   write different entries is the function of the written values. *)
From Coq Require Import Reals List Arith Lia Bool ZArith.
From Verif Require Import BaseReal LinModel.
Import ListNotations.
Local Open Scope R_scope.

Definition T1 := nat -> R.
Definition T2 := nat -> nat -> R.
Definition T4 := nat -> nat -> nat -> nat -> R.

(* x = 0; for (int i = 1; i <= n; i++) x += f(i) *)
Definition sum1 (n : nat) (f : nat -> R) : R := sumn n (fun i => f (S i)).

(* (i/j)*(j/i) in integers (orient.cpp:68, evpal.cpp:232, vm.cpp:20) *)
Definition kron (i j : nat) : R := INR ((i / j) * (j / i)).

(* ---------- chg_basis ---------- *)

(* The decimal constants of chg_basis.h:30-32 are 1/sqrt 2, 1/sqrt 3 and 1/sqrt 6
   to the precision of a double (C104_constants); the model has the exact roots. *)
Definition RSQ2_ : R := / sqrt 2.
Definition RSQ3_ : R := / sqrt 3.
Definition RSQ6_ : R := / sqrt 6.
Definition RSQ2_text : R := 70710678118654744 / 10 ^ 17.
Definition RSQ3_text : R := 57735026918962584 / 10 ^ 17.
Definition RSQ6_text : R := 40824829046386304 / 10 ^ 17.

(* set_b_basis (chg_basis.cpp:10-46): B_basis(i,j,n). *)
Definition B_basis (i j n : nat) : R :=
  match n, i, j with
  | 2, 1, 1 => (- RSQ6_)%R | 2, 2, 2 => (- RSQ6_)%R | 2, 3, 3 => (2 * RSQ6_)%R
  | 1, 1, 1 => (- RSQ2_)%R | 1, 2, 2 => RSQ2_
  | 3, 2, 3 => RSQ2_ | 3, 3, 2 => RSQ2_
  | 4, 1, 3 => RSQ2_ | 4, 3, 1 => RSQ2_
  | 5, 1, 2 => RSQ2_ | 5, 2, 1 => RSQ2_
  | 6, 1, 1 => RSQ3_ | 6, 2, 2 => RSQ3_ | 6, 3, 3 => RSQ3_
  | _, _, _ => 0%R
  end%nat.

(* chg_basis_1 (50-67) *)
Definition chg_basis_1 (KDIM : nat) (CE2 : T1) : T2 := fun i j => sum1 KDIM (fun n => CE2 n * B_basis i j n).
(* chg_basis_2 (71-88) *)
Definition chg_basis_2 (KDIM : nat) (C2 : T2) : T1 := fun n => sum1 3 (fun i => sum1 3 (fun j => C2 i j * B_basis i j n)).
(* chg_basis_3 (92-115) *)
Definition chg_basis_3 (KDIM : nat) (CE4 : T2) : T4 := fun i j k l =>
  sum1 KDIM (fun n => sum1 KDIM (fun m => CE4 n m * B_basis i j n * B_basis k l m)).
(* chg_basis_4 (119-142) *)
Definition chg_basis_4 (KDIM : nat) (C4 : T4) : T2 := fun n m =>
  sum1 3 (fun i => sum1 3 (fun j => sum1 3 (fun k => sum1 3 (fun l => C4 i j k l * B_basis i j n * B_basis k l m)))).

(* ---------- elastic constants ---------- *)

(* ijv_[6*2] as a 6 x 2 Fortran array (voigt.cpp:9, get_smacro.cpp:57). *)
Definition ijv1 (i : nat) : nat := match i with 1 => 1 | 2 => 2 | 3 => 3 | 4 => 2 | 5 => 1 | 6 => 1 | _ => 0 end%nat.
Definition ijv2 (i : nat) : nat := match i with 1 => 1 | 2 => 2 | 3 => 3 | 4 => 3 | 5 => 3 | 6 => 2 | _ => 0 end%nat.

Definition upd4 (c : T4) (a b p q : nat) (v : R) : T4 := fun i j k l =>
  if (Nat.eqb i a && Nat.eqb j b && Nat.eqb k p && Nat.eqb l q)%bool then v else c i j k l.

(* for (int i = 1; i <= n; i++) *)
Definition for1 {S} (n : nat) (body : nat -> S -> S) (s : S) : S := fold_left (fun s i => body i s) (seq 1 n) s.

(* voigt with iopt = 1 (voigt.cpp:19-32), the only option any caller uses. *)
Definition voigt_1 (c2_voigt : T2) (c4_voigt : T4) : T4 :=
  for1 6 (fun i c => for1 6 (fun j c =>
    let v := c2_voigt i j in
    let c := upd4 c (ijv1 i) (ijv2 i) (ijv1 j) (ijv2 j) v in
    let c := upd4 c (ijv2 i) (ijv1 i) (ijv1 j) (ijv2 j) v in
    let c := upd4 c (ijv1 i) (ijv2 i) (ijv2 j) (ijv1 j) v in
    upd4 c (ijv2 i) (ijv1 i) (ijv2 j) (ijv1 j) v) c) c4_voigt.

Definition dde (i j : nat) : R := if Nat.eqb i j then 1 else 0.
Definition xid4 (i j k l : nat) : R := (dde i k * dde j l + dde i l * dde j k) / 2.

(* What data_crystal_elast reads (data_crystal_elast.cpp:44-68). *)
Inductive elast_file : Type :=
| AnisotropicFile (cc66v : T2)
| IsotropicFile (young tnu : R).

(* data_crystal_elast (26-94): cc(.,.,.,.,iph).  None: division by zero.
   [scratch] is what the array ccaux held. *)
Definition data_crystal_elast (stress_scale : R) (scratch : T4) (f : elast_file) : option T4 :=
  match f with
  | AnisotropicFile cc66v => let ccaux := voigt_1 cc66v scratch in Some (fun i j k l => ccaux i j k l * stress_scale)
  | IsotropicFile young tnu =>
      if Req_EM_T (2 * (1 + tnu)) 0 then None
      else let tmu := young / (2 * (1 + tnu)) in
           if Req_EM_T (1 - 2 * tnu) 0 then None
           else let tla := 2 * tmu * tnu / (1 - 2 * tnu) in
                Some (fun i j k l => (tla * dde i j * dde k l + 2 * tmu * xid4 i j k l) * stress_scale)
  end.

(* The stiffness in sample axes (data_grain.cpp:82-110). *)
Definition rotate_stiffness (aa : T2) (cc : T4) : T4 := fun i1 j1 k1 l1 =>
  sum1 3 (fun i2 => sum1 3 (fun j2 => sum1 3 (fun k2 => sum1 3 (fun l2 => aa i2 i1 * aa j2 j1 * aa k2 k1 * aa l2 l1 * cc i2 j2 k2 l2)))).

(* cg66 of one point (data_grain.cpp:112-117) *)
Definition grain_stiffness (aa : T2) (cc : T4) : T2 := chg_basis_4 6 (rotate_stiffness aa cc).

(* A voxel: whether it is gas, and its stiffness.  c066 (data_grain.cpp:117, 131):
   the gas points are skipped; [wgt] is 1 / number of points. *)
Definition reference_stiffness (wgt : R) (voxels : list (bool * T2)) : T2 := fun i j =>
  suml (fun v : bool * T2 => if fst v then 0 else snd v i j * wgt) voxels.

(* The 6 x 6 array in Fortran order and back. *)
Definition pack (n : nat) (A : T2) : mem := fun q => A (S (q mod n)) (S (q / n)).
Definition unpack (n : nat) (m : mem) : T2 := fun i j => m ((i - 1) + (j - 1) * n)%nat.
(* invert_matrix <n> (A.pointer()) *)
Definition inverted (n : nat) (A : T2) : T2 := unpack n (snd (invert_matrix n (fun _ => 0) (pack n A))).

(* s066, c0 and s0 (data_grain.cpp:149-158) *)
Definition reference_tensors (c066 : T2) : T4 * T4 := (chg_basis_3 6 c066, chg_basis_3 6 (inverted 6 c066)).

(* ---------- orientations ---------- *)

(* euler with iopt = 2 (euler.cpp:28-44); angles in radians. *)
Definition euler_2 (ph th tm : R) : T2 := fun i j =>
  let sph := sin ph in let cph := cos ph in let sth := sin th in let cth := cos th in let stm := sin tm in let ctm := cos tm in
  match i, j with
  | 1, 1 => (ctm * cph - sph * stm * cth)%R
  | 2, 1 => (- stm * cph - sph * ctm * cth)%R
  | 3, 1 => (sph * sth)%R
  | 1, 2 => (ctm * sph + cph * stm * cth)%R
  | 2, 2 => (- sph * stm + cph * ctm * cth)%R
  | 3, 2 => (- sth * cph)%R
  | 1, 3 => (sth * stm)%R
  | 2, 3 => (ctm * sth)%R
  | 3, 3 => cth
  | _, _ => 0%R
  end%nat.

(* std::atan2 on finite arguments. *)
Definition atan2 (y x : R) : R :=
  if Rlt_dec 0 x then atan (y / x)
  else if Rlt_dec x 0 then if Rle_dec 0 y then atan (y / x) + PI else atan (y / x) - PI
  else if Rlt_dec 0 y then PI / 2 else if Rlt_dec y 0 then - (PI / 2) else 0.

(* euler with iopt = 1 (euler.cpp:15-27): ph, th, tm in degrees.  acos is defined
   between -1 and 1 only, which a rotation's entries are. *)
Definition euler_1 (a : T2) : R * R * R :=
  let th := acos (a 3 3)%nat in
  let '(tm, ph) :=
    if Rle_dec (9999 / 10000) (Rabs (a 3 3)%nat) then (0, atan2 (a 1 2)%nat (a 1 1)%nat)
    else let sth := sin th in (atan2 ((a 1 3)%nat / sth) ((a 2 3)%nat / sth), atan2 ((a 3 1)%nat / sth) (- (a 3 2)%nat / sth)) in
  (ph * 180 / PI, th * 180 / PI, tm * 180 / PI).

(* The orientation of a point (data_grain.cpp:71-80): crystal to sample, from
   angles in degrees. *)
Definition grain_orientation (ph th om : R) : T2 := fun j k => euler_2 (ph * PI / 180) (th * PI / 180) (om * PI / 180) k j.

(* orient (orient.cpp:4-87): the rotation matrix and the new orientation.
   sin x / cos x for tan x, which has no value where cos x = 0. *)
Definition orient_vbar (c : T2) : T1 :=
  let v := fun i => match i with 1 => c 3 2 | 2 => c 1 3 | 3 => c 2 1 | _ => 0%R end%nat in
  let snorm := sqrt (v 1%nat * v 1%nat + v 2%nat * v 2%nat + v 3%nat * v 3%nat) in
  let snorm1 := tan (snorm / 2) in
  let snorm := if Rlt_dec (1 / 10 ^ 6) snorm then snorm else 1 in
  fun i => snorm1 * v i / snorm.
Definition orient_rot (c : T2) : T2 :=
  let vbar := orient_vbar c in
  let snorm := vbar 1%nat * vbar 1%nat + vbar 2%nat * vbar 2%nat + vbar 3%nat * vbar 3%nat in
  let th := fun i j => match i, j with
    | 3, 2 => vbar 1 | 1, 3 => vbar 2 | 2, 1 => vbar 3
    | 2, 3 => (- vbar 1%nat)%R | 3, 1 => (- vbar 2%nat)%R | 1, 2 => (- vbar 3%nat)%R | _, _ => 0%R end%nat in
  let th2 := fun i j => sum1 3 (fun k => th i k * th k j) in
  fun i j => kron i j + 2 * (th i j + th2 i j) / (1 + snorm).
Definition orient (a c : T2) : T2 := fun i j => sum1 3 (fun k => orient_rot c i k * a k j).

(* ---------- slip systems ---------- *)

(* Slip plane normal and slip direction of a system in crystal axes
   (data_crystal.cpp:171-185). *)
Inductive crystal : Type := Hexagonal | Orthogonal.
Definition system_normal (cr : crystal) (cdim : T1) (isn : nat -> Z) : T1 := fun i =>
  match cr with
  | Hexagonal => match i with
      | 1 => (IZR (isn 1%nat))%R | 2 => ((IZR (isn 1%nat) + 2 * IZR (isn 2%nat)) / sqrt 3)%R | 3 => (IZR (isn 4%nat) / (cdim 3%nat / cdim 1%nat))%R | _ => 0%R end
  | Orthogonal => (IZR (isn i) / cdim i)%R
  end%nat.
Definition system_direction (cr : crystal) (cdim : T1) (isb : nat -> Z) : T1 := fun i =>
  match cr with
  | Hexagonal => match i with
      | 1 => (3 / 2 * IZR (isb 1%nat))%R | 2 => ((IZR (isb 1%nat) / 2 + IZR (isb 2%nat)) * sqrt 3)%R | 3 => (IZR (isb 4%nat) * (cdim 3%nat / cdim 1%nat))%R | _ => 0%R end
  | Orthogonal => (IZR (isb i) * cdim i)%R
  end%nat.

(* Normalisation (190-199). *)
Definition norm3 (v : T1) : R := sqrt (v 1%nat * v 1%nat + v 2%nat * v 2%nat + v 3%nat * v 3%nat).
Definition flush (x : R) : R := if Rlt_dec (Rabs x) (1 / 1000) then 0 else x.
Definition unit_flushed (v : T1) : T1 := fun i => flush (v i / norm3 v).

(* 193-227: None when the program stops. *)
Record system := mkSys { dnca : T1; dbca : T1; schca : T1 }.
Definition schmid_tensor (n b : T1) : T2 := fun i j => (n i * b j + n j * b i) / 2.
Definition make_system (sn sb : T1) : option system :=
  let n := unit_flushed sn in let b := unit_flushed sb in
  let prod := sum1 3 (fun j => n j * b j) in
  if Rle_dec (1 / 1000) prod then None
  else Some {| dnca := n; dbca := b; schca := chg_basis_2 5 (schmid_tensor n b) |}.

(* update_schmid of one system (update_schmid.cpp:47-69): sch. *)
Definition rotate2 (ag A : T2) : T2 := fun i j => sum1 3 (fun i1 => sum1 3 (fun j1 => ag i i1 * ag j j1 * A i1 j1)).
Definition update_schmid (ag : T2) (sy : system) : T1 := chg_basis_2 5 (rotate2 ag (chg_basis_1 5 (schca sy))).

(* update_orient of one point (update_orient.cpp:43-117).  [systems] are the slip
   systems with their shear rates. *)
Definition apply2 (A : T2) (v : T1) : T1 := fun i => sum1 3 (fun j => A i j * v j).
Definition slip_distortion (ag : T2) (systems : list (system * R)) : T2 := fun i j =>
  suml (fun s : system * R => apply2 ag (dbca (fst s)) i * apply2 ag (dnca (fst s)) j * snd s) systems.
Definition antisym (A : T2) : T2 := fun i j => (A i j - A j i) / 2.
Definition symm (A : T2) : T2 := fun i j => (A i j + A j i) / 2.
Definition update_orient (tomtot velgrad ag : T2) (systems : list (system * R)) (tdot : R) : T2 :=
  let rotloc := antisym velgrad in
  let rotslip := antisym (slip_distortion ag systems) in
  orient ag (fun i j => (tomtot i j + rotloc i j - rotslip i j) * tdot).

(* decompose_vel_grad (vpsc_input.cpp:248-264) *)
Definition dsim (vel_grad : T2) : T2 := fun i j => (vel_grad i j + vel_grad j i) / 2.
Definition tomtot (vel_grad : T2) : T2 := fun i j => (vel_grad i j - vel_grad j i) / 2.

(* One step at one point: step_update_disgrad (step.cpp:7-26) keeps the old
   displacement gradient in velgrad and adds the imposed increment;
   initialize_disgrad (initialize_disgrad.cpp:12-18) adds, once per iteration, the
   correction of the mean and that of the field;
   step_update_velgrad_etc (step.cpp:48-57). *)
Definition step_update_disgrad (udot : T2) (tdot : R) (disgrad : T2) : T2 := fun i j => disgrad i j + udot i j * tdot.
Definition initialize_disgrad (ddisgradmacro work disgrad : T2) : T2 := fun i j => disgrad i j + (ddisgradmacro i j + work i j).
Definition step_velgrad (tdot : R) (old new : T2) : T2 := fun i j => (new i j - old i j) / tdot.

(* ---------- hardening ---------- *)

(* update_crss_voce (harden.cpp:62-74): the Voce factor. *)
Definition voce_factor (tau0 tau1 thet0 thet1 gamtotx deltgam : R) : R :=
  let tiny := 1 / 10 ^ 4 * tau0 in
  if Rlt_dec tiny (Rabs thet0) then
    let voce := thet1 * deltgam in
    if Rlt_dec tiny (Rabs tau1) then
      let fact := Rabs (thet0 / tau1) in
      let expini := exp (- gamtotx * fact) in
      let expdel := exp (- deltgam * fact) in
      voce + (- (fact * tau1 - thet1) / fact * expini * (expdel - 1) -
              thet1 / fact * expini * (expdel * ((gamtotx + deltgam) * fact + 1) - (gamtotx * fact + 1)))
    else voce
  else 0.

(* The hardening parameters of a slip system: tau(.,1), tau(.,3), thet(.,1),
   thet(.,2) and the row hard(is,.). *)
Record hsystem := mkH { h_tau0 : R; h_tau1 : R; h_thet0 : R; h_thet1 : R; h_hard : list R }.

(* One point (45-86): crss(.,1), crss(.,2) of every system and gacumgr. *)
Definition dot (a b : list R) : R := suml (fun p : R * R => fst p * snd p) (combine a b).
Definition harden_point (tdot : R) (hs : list hsystem) (gamdot : list R) (crss : list (R * R)) (gacumgr : R) : list (R * R) * R :=
  let deltgam := suml (fun g => Rabs g * tdot) gamdot in
  (map (fun p =>
     let h := fst p in
     let dtau := suml (fun q : R * R => fst q * Rabs (snd q) * tdot) (combine (h_hard h) gamdot) in
     let voce := voce_factor (h_tau0 h) (h_tau1 h) (h_thet0 h) (h_thet1 h) gacumgr deltgam in
     if Rlt_dec 0 (Rabs deltgam)
     then (fst (snd p) + dtau * voce / deltgam, snd (snd p) + dtau * voce / deltgam)
     else snd p) (combine hs crss),
   gacumgr + deltgam).

(* The checks on the hardening parameters of a mode (data_crystal.cpp:90-101):
   None when the program stops, else tau1 and thet0 as stored. *)
Definition mode_hardening (tau1x thet0x thet1x : R) : option (R * R) :=
  if Rlt_dec thet0x thet1x then None
  else if Rle_dec tau1x (1 / 10 ^ 6) then Some (1 / 10 ^ 6, thet1x)
  else Some (tau1x, thet0x).

(* vm and vm_stress (vm.cpp:4-46).  The latter calls the single precision sqrtf,
   here an exact root; stress[q] is entry q of the Fortran array. *)
Definition vm (d : T2) : R :=
  let trace := d 1%nat 1%nat + d 2%nat 2%nat + d 3%nat 3%nat in
  let dt := fun i j => (d i j + d j i) / 2 - kron i j * trace / 3 in
  sqrt (2 / 3 * sum1 3 (fun j => sum1 3 (fun i => dt i j * dt i j))).
Definition vm_stress (m : mem) : R :=
  sqrt (((m 0%nat - m 4%nat) * (m 0%nat - m 4%nat) + (m 4%nat - m 8%nat) * (m 4%nat - m 8%nat) + (m 8%nat - m 0%nat) * (m 8%nat - m 0%nat)
         + 6 * (m 1%nat ^ 2 + m 5%nat ^ 2 + m 2%nat ^ 2)) / 2).
