(* Model of the large-strain crystal solver, continued: the local iteration for the
   stress, the phases without slip systems, and the reference medium in the deformed
   specimen.  /repo/apps/micromechanics/LS-EVPFFT/src.

   Simplifications as in LsModel and EvpFlowModel.  [None] stands for a number that
   is none: a division by zero, an overflow of PowIntExpo, or a read of sg6old before
   it is written. *)
From Coq Require Import Reals List Arith Lia Bool ZArith.
From Verif Require Import BaseReal LinModel EvpModel EvpFlowModel EvpFftModel.
Import ListNotations.
Local Open Scope R_scope.

(* ---------- flow ---------- *)

(* edotp0_j2, nrs_j2, sigma0gr *)
Record j2 := mkJ2 { j_e0 : R; j_nrs : Z; j_strength : R }.
Inductive law := Slip (ss : list slip) | J2 (m : j2).

(* evpal.cpp:220-224 *)
Definition sgvm (sg6 : T1) : R := sqrt (sum1 5 (fun ii => sg6 ii * sg6 ii)).

(* edotp6, dedotp66 and gamdot as a function of the stress (evpal.cpp:143-245); a
   phase without slip systems leaves gamdot alone, here the empty list. *)
Record flow := mkFlow { fl_edotp6 : T1; fl_dedotp66 : T2; fl_gamdot : list R }.
(* 218-245 *)
Definition j2_flow (m : j2) (sg6 : T1) : option flow :=
  if Req_EM_T (j_strength m) 0 then None
  else match PowIntExpo (sgvm sg6 / j_strength m) (j_nrs m - 1) with
  | None => None
  | Some pw =>
      if Req_EM_T (sgvm sg6) 0 then None
      else let mag := 3 / 2 * j_e0 m / j_strength m * pw in
           Some {| fl_edotp6 := fun ii => if Nat.leb ii 5 then mag * sg6 ii else 0;
                   fl_dedotp66 := fun ii jj => if (Nat.leb ii 5 && Nat.leb jj 5)%bool
                     then mag * ((IZR (j_nrs m) - 1) * sg6 ii / sgvm sg6 * sg6 jj / sgvm sg6 + kron ii jj) else 0;
                   fl_gamdot := [] |}
  end.
(* 143-217: the same text as EVPFFT/src/evpal.cpp:134-204. *)
Definition law_flow (l : law) (sg6 : T1) : option flow :=
  match l with
  | Slip ss => match shear_rates ss sg6 with
               | Some rs => Some {| fl_edotp6 := edotp6 rs; fl_dedotp66 := dedotp66 rs; fl_gamdot := map (fun r : slip * (R * R) => snd (snd r)) rs |}
               | None => None
               end
  | J2 m => j2_flow m sg6
  end.

(* ---------- local iteration ---------- *)

(* What evpal reads at a solid point: c066mod, c066modGoperr066mod, sg66 = inverse of
   cg66, sgt6, strain6, xlambda6, tdot, the law. *)
Record lpoint := mkL { l_c066 : T2; l_cG : T2; l_sg66 : T2; l_sgt6 : T1; l_strain6 : T1; l_xlambda6 : T1; l_tdot : R; l_law : law }.

(* 247-257 *)
Definition ls_ceq6 (p : lpoint) (ed6 sg6 : T1) : T1 := fun ii =>
  ed6 ii + sum1 6 (fun jj => l_sg66 p ii jj * (sg6 jj - l_sgt6 p jj) / l_tdot p).
(* 261-267 *)
Definition ls_residual (p : lpoint) (ceq sg6 : T1) : T1 := fun ii =>
  sg6 ii - l_xlambda6 p ii + sum1 6 (fun jj => l_c066 p ii jj * (ceq jj - l_strain6 p jj) - l_cG p ii jj * (sg6 jj - l_xlambda6 p jj)).
(* 296-306 *)
Definition ls_jacobian (p : lpoint) (de66 : T2) : T2 := fun ii jj =>
  kron ii jj - l_cG p ii jj + sum1 6 (fun kk => l_c066 p ii kk * (l_sg66 p kk jj / l_tdot p + de66 kk jj)).

(* What one turn of the inner loop (140-289) leaves: flow, strainceq6, res, resn. *)
Record trial := mkTrial { t_flow : flow; t_ceq6 : T1; t_res : T1; t_resn : R }.
Definition evaluate (p : lpoint) (sg6 : T1) : option trial :=
  if Req_EM_T (l_tdot p) 0 then None
  else match law_flow (l_law p) sg6 with
       | None => None
       | Some fl => let ceq := ls_ceq6 p (fl_edotp6 fl) sg6 in
                    let res := ls_residual p ceq sg6 in
                    Some {| t_flow := fl; t_ceq6 := ceq; t_res := res; t_resn := sqrt (sum1 6 (fun ii => res ii * res ii)) |}
       end.

(* The inner loop (140-289) from the turn on that evaluates sg6; [turns] = 10 - icut.
   resoldn is None in the first iteration, which sets it (277-279).  sg6old is None
   before it is written (292-294).  Result: the stress, the last turn and resoldn. *)
Fixpoint cuts (turns : nat) (p : lpoint) (resoldn : option R) (sg6old : option T1) (sg6 : T1) : option (T1 * trial * R) :=
  match turns with
  | O => None
  | S turns =>
      match evaluate p sg6 with
      | None => None
      | Some t =>
          let old := match resoldn with Some r => r | None => t_resn t end in
          if Rlt_dec old (t_resn t)
          then match sg6old with
               | None => None
               | Some o => let sg6' := fun ii => o ii + (sg6 ii - o ii) * (1 / 2) in
                           match turns with
                           | O => Some (sg6', t, old)
                           | _ => cuts turns p resoldn sg6old sg6'
                           end
               end
          else Some (sg6, t, old)
      end
  end.

(* 291-317: the step from the stress sg6, which becomes sg6old. *)
Definition ls_step (p : lpoint) (t : trial) (sg6 : T1) : T1 :=
  let jinv := inverted 6 (ls_jacobian p (fl_dedotp66 (t_flow t))) in
  fun ii => sg6 ii + sum1 6 (fun jj => - jinv ii jj * t_res t jj).

(* erral > erroral (334-344); sgnorm is that of the stress at the start. *)
Definition ls_goes_on (sgnorm change : R) : bool :=
  if Req_EM_T sgnorm 0 then if Rlt_dec 0 change then true else false
  else if Rlt_dec (1 / 10 ^ 10) (change / sgnorm) then true else false.
Definition change6 (a b : T1) : R := sqrt (sum1 6 (fun ii => (a ii - b ii) * (a ii - b ii))).

(* What the point keeps: the stress, and the flow and strain rate of the last turn. *)
Record outcome := mkOut { o_sg6 : T1; o_trial : trial }.

(* The outer loop (135-347); [fuel] = itmaxal - iter1.  [before]: sg6old, resoldn and
   the last turn of the iteration before.  With resoldn = 0 the inner loop is not
   entered (139-140) and the last turn is used again. *)
Fixpoint ls_loop (fuel : nat) (p : lpoint) (sgnorm : R) (before : option (T1 * R * trial)) (sg6 : T1) : option outcome :=
  match fuel with
  | O => None
  | S rest =>
      match (match before with
             | None => cuts 10 p None None sg6
             | Some (o, r, t) => if Rlt_dec r (2 * r) then cuts 10 p (Some r) (Some o) sg6 else Some (sg6, t, r)
             end) with
      | None => None
      | Some (g, t, _) =>
          let new := ls_step p t g in
          match rest with
          | O => Some {| o_sg6 := new; o_trial := t |}
          | _ => if ls_goes_on sgnorm (change6 new g) then ls_loop rest p sgnorm (Some (g, t_resn t, t)) new
                 else Some {| o_sg6 := new; o_trial := t |}
          end
      end
  end.

(* A solid point (88-359): sg, edotp and gamdot. *)
Definition ls_point (c066mod cG cg66 velgrad sgt sg : T2) (tdot : R) (l : law) : lpoint :=
  {| l_c066 := c066mod; l_cG := cG; l_sg66 := inverted 6 cg66; l_sgt6 := chg_basis_2 6 sgt;
     l_strain6 := chg_basis_2 6 (fun i j => (velgrad i j + velgrad j i) / 2); l_xlambda6 := chg_basis_2 6 sg; l_tdot := tdot; l_law := l |}.
Definition ls_evpal (c066mod cG cg66 velgrad sgt sg : T2) (tdot : R) (l : law) : option (T2 * T2 * list R) :=
  let p := ls_point c066mod cG cg66 velgrad sgt sg tdot l in
  match ls_loop 100 p (sqrt (sum1 3 (fun i => sum1 3 (fun j => sg i j * sg i j)))) None (chg_basis_2 6 sg) with
  | None => None
  | Some o => Some (chg_basis_1 6 (o_sg6 o), chg_basis_1 6 (fl_edotp6 (t_flow (o_trial o))), fl_gamdot (t_flow (o_trial o)))
  end.

(* ---------- phases without slip systems: reading and hardening ---------- *)

(* data_crystal.cpp:41-49, vpsc_input.cpp:342: from the numbers of the file, with the
   scales given to the constructor (evpfft.cpp:45-63).  elast is the factor applied to
   the elastic constants of the phase (data_crystal_elast.cpp:90). *)
Record j2_file := mkJ2File { f_nrs : Z; f_e0 : R; f_sigma0 : R; f_sigma1 : R; f_thet0 : R; f_thet1 : R }.
Record j2_phase := mkJ2Phase { ph_file : j2_file; ph_elast : R }.
Definition read_j2 (stress_scale time_scale : R) (f : j2_file) : j2_phase :=
  {| ph_file := f; ph_elast := stress_scale |}.
Definition start_j2 (ph : j2_phase) : j2 := {| j_e0 := f_e0 (ph_file ph); j_nrs := f_nrs (ph_file ph); j_strength := f_sigma0 (ph_file ph) |}.

(* harden.cpp:92-106: gacumgr and sigma0gr after a step.  None: sigma1 = 0. *)
Definition harden_j2 (f : j2_file) (edotp : T2) (tdot gacumgr : R) : option (R * R) :=
  if Req_EM_T (f_sigma1 f) 0 then None
  else let g := gacumgr + vm edotp * tdot in
       Some (g, f_sigma0 f + (f_sigma1 f + f_thet1 f * g) * (1 - exp (- g * Rabs (f_thet0 f / f_sigma1 f)))).

(* ---------- the reference medium ---------- *)

(* calc_c066mod.cpp:30-43, 46-55 *)
Definition c0mod (c0 : T4) (F : T2) (detF : R) : T4 := fun ii jj kk ll =>
  sum1 3 (fun m => sum1 3 (fun n => c0 ii m kk n * F jj m * F ll n)) / detF.
Definition symmetrised (C : T4) : T4 := fun ii jj kk ll => 1 / 4 * (C ii jj kk ll + C jj ii kk ll + C ii jj ll kk + C jj ii ll kk).
(* 57-63 *)
Definition c066mod (c0 : T4) (F : T2) (detF : R) : T2 := chg_basis_4 6 (symmetrised (c0mod c0 F detF)).
(* 75-102 *)
Definition Goperr0mod (G : T4) (Finv : T2) (detF : R) : T4 := fun ii jj kk ll =>
  sum1 3 (fun m => sum1 3 (fun n => G ii m kk n * Finv m jj * Finv n ll)) * detF.
Definition Goperr066mod (G : T4) (Finv : T2) (detF : R) : T2 := chg_basis_4 6 (symmetrised (Goperr0mod G Finv detF)).
(* 104-112 *)
Definition c066modGoperr066mod (c0 G : T4) (F Finv : T2) (detF : R) : T2 := fun ii jj =>
  sum1 6 (fun kk => c066mod c0 F detF ii kk * Goperr066mod G Finv detF kk jj).

(* init_c0_s0 and deinit_c0_s0 (evpfft.cpp:347-397), c066, c0 and s0 together. *)
Definition init_c0_s0 (tdot : R) (m : T2 * T4 * T4) : T2 * T4 * T4 :=
  let '(c066, c0, s0) := m in (fun i j => c066 i j * tdot, fun i j k l => c0 i j k l * tdot, fun i j k l => s0 i j k l / tdot).
Definition deinit_c0_s0 (tdot : R) (m : T2 * T4 * T4) : T2 * T4 * T4 :=
  let '(c066, c0, s0) := m in (fun i j => c066 i j / tdot, fun i j k l => c0 i j k l / tdot, fun i j k l => s0 i j k l * tdot).

(* calc_Goperr0 (calc_Goperr0.cpp:14-165), all processes together.  [green_at] is work
   before the transform (104-120): Ghat is zero at the frequencies 42-50.  The
   frequencies of init_xk_gb (evpfft.cpp:177-206) have no spacing. *)
Definition ones : T1 := fun _ => 1.
Definition ghat (c0 : T4) (nyq : bool) (xk : T1) : T2 := if nyq then fun _ _ => 0 else inverted 3 (acoustic c0 xk).
Definition green_at (c0 s0 : T4) (nyq : bool) (xk : T1) (ii jj : nat) : T2 := fun i j =>
  let x := normalised xk in
  if nyq then - s0 i ii j jj else - ghat c0 nyq x i j * x ii * x jj.
Definition calc_Goperr0 (c0 s0 : T4) (n1 n2 n3 : nat) : T4 := fun i ii j jj =>
  ifft n1 n2 n3 (fun k => green_at c0 s0 (site_nyquist n1 n2 n3 k) (site_frequency ones n1 n2 n3 k) ii jj i j) (fun _ => 0) (0, 0, 0)%nat.
