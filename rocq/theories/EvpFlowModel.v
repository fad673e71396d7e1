(* Model of the crystal plasticity solver, continued: flow rule, local Newton
   iteration, Green operator, mean fields.  /repo/apps/micromechanics/EVPFFT/src.

   Simplifications as in EvpModel.  The options NON_SCHMID_EFFECTS and
   TWO_SIGN_SLIP_SYSTEMS are off, as in the default build. *)
From Coq Require Import Reals List Arith Lia Bool ZArith.
From Verif Require Import BaseReal LinModel EvpModel.
Import ListNotations.
Local Open Scope R_scope.

(* ---------- flow rule ---------- *)

(* A slip system at a point: sch(1..5,is), gamd0, nrs, crss(is,1), crss(is,2), xkin. *)
Record slip := mkSlip { sl_sch : T1; sl_gamd0 : R; sl_nrs : Z; sl_crss1 : R; sl_crss2 : R; sl_xkin : R }.

(* COPYSIGN(1.0, x); at 0 it is multiplied by 0. *)
Definition copysign1 (x : R) : R := if Rlt_dec x 0 then -1 else 1.

(* evpal.cpp:134-170 for one system: (rss1, rss2); rss2 is gamdot.  None: overflow
   or division by zero in PowIntExpo. *)
Definition resolved (s : slip) (sg6 : T1) : R :=
  sl_sch s 1%nat * sg6 1%nat + sl_sch s 2%nat * sg6 2%nat + sl_sch s 3%nat * sg6 3%nat + sl_sch s 4%nat * sg6 4%nat + sl_sch s 5%nat * sg6 5%nat.
Definition shear_rate (s : slip) (tau : R) : option (R * R) :=
  let crss := if Rlt_dec (tau - sl_xkin s) 0 then sl_crss2 s else sl_crss1 s in
  let rss := (tau - sl_xkin s) / crss in
  match PowIntExpo rss (sl_nrs s - 1), PowIntExpo rss (sl_nrs s) with
  | Some p1, Some p2 => Some (sl_gamd0 s * IZR (sl_nrs s) * Rabs p1 / crss, sl_gamd0 s * Rabs p2 * copysign1 rss)
  | _, _ => None
  end.
Fixpoint shear_rates (ss : list slip) (sg6 : T1) : option (list (slip * (R * R))) :=
  match ss with
  | [] => Some []
  | s :: l => match shear_rate s (resolved s sg6), shear_rates l sg6 with
              | Some r, Some rs => Some ((s, r) :: rs)
              | _, _ => None
              end
  end.

(* edotp6 (evpal.cpp:172-178) and dedotp66 (180-204) *)
Definition edotp6 (rs : list (slip * (R * R))) : T1 := fun ii =>
  if Nat.leb ii 5 then suml (fun r : slip * (R * R) => sl_sch (fst r) ii * snd (snd r)) rs else 0.
Definition dedotp66 (rs : list (slip * (R * R))) : T2 := fun ii jj =>
  if (Nat.leb ii 5 && Nat.leb jj 5)%bool then suml (fun r : slip * (R * R) => sl_sch (fst r) ii * sl_sch (fst r) jj * fst (snd r)) rs else 0.

(* ---------- local Newton iteration ---------- *)

(* What evpal reads at a solid point: c066, sg66 = inverse of cg66, ept6, strain6,
   xlambda6, tdot and the systems. *)
Record point := mkPoint { p_c066 : T2; p_sg66 : T2; p_ept6 : T1; p_strain6 : T1; p_xlambda6 : T1; p_tdot : R; p_slip : list slip }.

(* strainceq6 (209-218), res (222-227), xjacobinv before inversion (229-243), for
   ithermo = 0. *)
Definition strainceq6 (p : point) (ed6 sg6 : T1) : T1 := fun ii =>
  p_ept6 p ii + ed6 ii * p_tdot p + sum1 6 (fun jj => p_sg66 p ii jj * sg6 jj).
Definition residual (p : point) (ceq sg6 : T1) : T1 := fun ii =>
  sg6 ii - p_xlambda6 p ii + sum1 6 (fun jj => p_c066 p ii jj * (ceq jj - p_strain6 p jj)).
Definition jacobian (p : point) (de66 : T2) : T2 := fun ii jj =>
  kron ii jj + sum1 6 (fun kk => p_c066 p ii kk * (p_sg66 p kk jj + de66 kk jj * p_tdot p)).

(* One iteration (131-281): new stress, plastic rate, equivalent strain and the
   rates of the systems. *)
Record newton := mkNewton { n_sg6 : T1; n_edotp6 : T1; n_ceq6 : T1; n_rates : list (slip * (R * R)) }.
Definition newton_step (p : point) (sg6 : T1) : option newton :=
  match shear_rates (p_slip p) sg6 with
  | None => None
  | Some rs =>
      let ed6 := edotp6 rs in
      let ceq := strainceq6 p ed6 sg6 in
      let res := residual p ceq sg6 in
      let jinv := inverted 6 (jacobian p (dedotp66 rs)) in
      Some {| n_sg6 := fun ii => sg6 ii + sum1 6 (fun jj => - jinv ii jj * res jj); n_edotp6 := ed6; n_ceq6 := ceq; n_rates := rs |}
  end.

(* erral > erroral (270-281).  A quotient by zero is infinite or not a number. *)
Definition goes_on (sgnorm dsgnorm1 : R) : bool :=
  if Req_EM_T sgnorm 0 then if Rlt_dec 0 dsgnorm1 then true else false
  else if Rlt_dec (1 / 10 ^ 7) (dsgnorm1 / sgnorm) then true else false.

(* The loop (124-283); [fuel] = itmaxal - iter1. *)
Fixpoint newton_loop (fuel : nat) (p : point) (sgnorm : R) (sg6 : T1) : option newton :=
  match fuel with
  | O => None
  | S rest =>
      match newton_step p sg6 with
      | None => None
      | Some n =>
          let dsgnorm1 := sum1 6 (fun ii => (n_sg6 n ii - sg6 ii) * (n_sg6 n ii - sg6 ii)) in
          match rest with
          | O => Some n
          | _ => if goes_on sgnorm dsgnorm1 then newton_loop rest p sgnorm (n_sg6 n) else Some n
          end
      end
  end.

(* A solid point (80-298): sg and disgrad in, sg, edotp and gamdot out. *)
Definition make_point (c066 cg66 ept disgrad sg : T2) (tdot : R) (ss : list slip) : point :=
  {| p_c066 := c066; p_sg66 := inverted 6 cg66; p_ept6 := chg_basis_2 6 ept;
     p_strain6 := chg_basis_2 6 (fun i j => (disgrad i j + disgrad j i) / 2); p_xlambda6 := chg_basis_2 6 sg; p_tdot := tdot; p_slip := ss |}.
Definition evpal_point (c066 cg66 ept disgrad sg : T2) (tdot : R) (ss : list slip) : option (T2 * T2 * list R) :=
  let p := make_point c066 cg66 ept disgrad sg tdot ss in
  let sgnorm := sqrt (sum1 3 (fun i => sum1 3 (fun j => sg i j * sg i j))) in
  match newton_loop 100 p sgnorm (chg_basis_2 6 sg) with
  | None => None
  | Some n => Some (chg_basis_1 6 (n_sg6 n), chg_basis_1 6 (n_edotp6 n), map (fun r : slip * (R * R) => snd (snd r)) (n_rates n))
  end.

(* ---------- modes of a crystal file ---------- *)

(* data_crystal.cpp:62-86, 238: the file lists modes with their numbers modex; mode
   number kount of the wanted list is stored when its turn comes.  [mode] is 0
   beyond the wanted list (41).  Result: the stored modes in order. *)
Fixpoint read_modes {A} (wanted : list nat) (file : list (nat * A)) : list A :=
  match file with
  | [] => []
  | (modex, a) :: file =>
      match wanted with
      | w :: wanted' => if Nat.eqb modex w then a :: read_modes wanted' file else read_modes wanted file
      | [] => if Nat.eqb modex 0 then a :: read_modes [] file else read_modes [] file
      end
  end.

(* ---------- Green operator ---------- *)

(* init_xk_gb (evpfft.cpp:176-195) in one direction, [start] the offset of this
   process: wave number over the length of the cell. *)
Definition wave_number (npts start k : Z) : Z := let kx := (k + start)%Z in if (npts / 2 <? kx)%Z then (kx - npts)%Z else kx.
Definition frequency (delt : R) (npts start k : Z) : R := IZR (wave_number npts start k) / (delt * IZR npts).

(* inverse_the_greens at one frequency (inverse_the_greens.cpp:31-107); [zero] and
   [nyquist] are the tests 84-86 and 44-46 on the indices. *)
Definition is_nyquist (npts k : Z) : bool := ((k =? npts / 2 + 1) && (npts mod 2 =? 0))%Z%bool.
Definition nyquist (n1 n2 n3 k1 k2 k3 : Z) : bool := (is_nyquist n1 k1 || is_nyquist n2 k2 || ((1 <? n3)%Z && is_nyquist n3 k3))%bool.
Definition normalised (xk : T1) : T1 :=
  let n := norm3 xk in if Req_EM_T n 0 then xk else fun i => xk i / n.
Definition acoustic (c0 : T4) (xk : T1) : T2 := fun i k => sum1 3 (fun j => sum1 3 (fun l => c0 i j k l * xk j * xk l)).
Definition green (c0 s0 : T4) (nyq : bool) (xk : T1) : T4 :=
  let x := normalised xk in
  if nyq then fun i j k l => - s0 i j k l
  else let a := inverted 3 (acoustic c0 x) in fun p q i j => - a p i * x q * x j.
Definition inverse_the_greens (c0 s0 : T4) (nyq zero : bool) (xk : T1) (work : T2) : T2 := fun i j =>
  if zero then 0 else sum1 3 (fun k => sum1 3 (fun l => green c0 s0 nyq xk i j k l * work k l)).

(* ---------- mean fields ---------- *)

(* get_smacro (get_smacro.cpp:15-48): [ranks] are the points of every process, each
   with its phase and stress; wgt is 1 over the number of all points. *)
Definition scauav (wgt : R) (ranks : list (list (nat * T2))) : T2 := fun ii jj =>
  suml (fun pts => suml (fun v : nat * T2 => snd v ii jj * wgt) pts) ranks.
(* wph1 (data_grain.cpp:62, 147): the count of the process over all points. *)
Definition wph1 (wgt : R) (pts : list (nat * T2)) : R := INR (length (filter (fun v : nat * T2 => Nat.eqb (fst v) 1) pts)) * wgt.
Definition scauav1 (wgt : R) (ranks : list (list (nat * T2))) : T2 := fun ii jj =>
  suml (fun pts => suml (fun v : nat * T2 => if Nat.eqb (fst v) 1 then snd v ii jj * wgt / wph1 wgt pts else 0) pts) ranks.

(* Mixed boundary conditions (51-81): ddisgradmacro. *)
Definition mixed_correction (s0 : T4) (idsim iscau : nat -> Z) (scauchy mean : T2) : T2 := fun a b =>
  suml (fun i => if (Nat.eqb a (ijv1 i) && Nat.eqb b (ijv2 i) && (idsim i =? 0)%Z)%bool
                 then sum1 6 (fun k => s0 (ijv1 i) (ijv2 i) (ijv1 k) (ijv2 k) * IZR (iscau k) * (scauchy (ijv1 k) (ijv2 k) - mean (ijv1 k) (ijv2 k)))
                 else 0) (seq 1 6).

(* check_iudot and check_mixed_bc (vpsc_input.cpp:230-246, 289-316); false when the
   program stops. *)
Definition idsim_of (iudot : nat -> nat -> Z) (i : nat) : Z :=
  let u (a b : nat) := iudot a b in
  let both (x y : Z) := if ((x =? 1) && (y =? 1))%Z%bool then 1%Z else 0%Z in
  match i with
  | 1 => u 1 1 | 2 => u 2 2 | 3 => u 3 3 | 4 => both (u 2 3) (u 3 2) | 5 => both (u 1 3) (u 3 1) | 6 => both (u 1 2) (u 2 1)
  | _ => 0%Z
  end%nat.
Definition check_iudot (iudot : nat -> nat -> Z) : bool :=
  let u := (fun a b : nat => iudot a b) in
  (negb (u 1%nat 1%nat + u 2%nat 2%nat + u 3%nat 3%nat =? 2) && negb (u 1%nat 2%nat + u 2%nat 1%nat =? 0)
   && negb (u 1%nat 3%nat + u 3%nat 1%nat =? 0) && negb (u 2%nat 3%nat + u 3%nat 2%nat =? 0))%Z%bool.
Definition check_mixed_bc (iudot : nat -> nat -> Z) (iscau : nat -> Z) : bool :=
  forallb (fun i => ((iscau i * idsim_of iudot i =? 0) && (iscau i + idsim_of iudot i =? 1))%Z%bool) (seq 1 6).

(* ---------- hardening coefficients ---------- *)

Definition upd1 (h : nat -> R) (a : nat) (v : R) : nat -> R := fun i => if Nat.eqb i a then v else h i.
Definition upd2 (h : nat -> nat -> R) (a b : nat) (v : R) : nat -> nat -> R := fun i j => if (Nat.eqb i a && Nat.eqb j b)%bool then v else h i j.

(* data_crystal.cpp:62-107, 238: one mode of the file has its number, its self
   coefficient and its row of latent coefficients.  [nmodesx] modes in the file;
   [nm] and [kount] are the counters. *)
Fixpoint reorder (nmodesx nmodes : nat) (mode : nat -> nat) (file : list (nat * (R * (nat -> R)))) (nm kount : nat)
  (hselfx : nat -> R) (hlatex : nat -> nat -> R) : (nat -> R) * (nat -> nat -> R) :=
  match file with
  | [] => (hselfx, hlatex)
  | (modex, (hself, hlat)) :: rest =>
      let hselfx := upd1 hselfx nm hself in
      let hlatex := for1 nmodesx (fun jm h => upd2 h nm jm (hlat jm)) hlatex in
      if Nat.eqb modex (mode kount) then
        reorder nmodesx nmodes mode rest (S nm) (S kount) (upd1 hselfx kount (hselfx nm))
          (for1 nmodes (fun i h => upd2 h kount i (h nm (mode i))) hlatex)
      else reorder nmodesx nmodes mode rest (S nm) kount hselfx hlatex
  end.

(* hard(i,j) (265-279); [mode_of] is the stored mode of a system. *)
Definition hard_coef (mode_of : nat -> nat) (hselfx : nat -> R) (hlatex : nat -> nat -> R) (i j : nat) : R :=
  if Nat.eqb i j then hselfx (mode_of i) else hlatex (mode_of i) (mode_of j).
