(* Model of the load steps and of the grid of the large-strain crystal solver,
   /repo/apps/micromechanics/LS-EVPFFT/src: evpfft.cpp, step.cpp, get_smacro.cpp,
   update_grid_velgrad.cpp, write_micro_state.cpp.  get_smacro.cpp:49-79 is the text
   of EVPFFT/src/get_smacro.cpp:51-81, [mixed_correction].

   Simplifications, besides those of LsModel.  The Fourier correction [work]
   (forward_fft, inverse_the_greens, backward_fft) and the stresses and plastic rates
   evpal leaves are given for every pass of the loop: nothing proved depends on them.
   The number of passes is that of the list. *)
From Coq Require Import Reals List Arith Lia Bool ZArith.
From Verif Require Import BaseReal LinModel EvpModel EvpFlowModel LsModel.
Import ListNotations.
Local Open Scope R_scope.

(* ---------- load steps ---------- *)
Record settings := mkSettings {
  c_npts : nat;
  c_wgt : R;
  c_iudot : nat -> nat -> Z;
  c_iscau : nat -> Z;
  c_scauchy : T2;
  c_iupdate : bool }.

Record specimen := mkSpecimen {
  m_field : field;
  m_invinv : T2;      (* defgradinvavgc_inv *)
  m_dvel : T2;        (* dvelgradmacro *)
  m_dacum : T2;       (* dvelgradmacroacum *)
  m_actual : T2;      (* velgradmacroactual *)
  m_disgradmacrot : T2 }.

(* What evpal (and the Fourier correction) gives in one pass, at every point. *)
Record pass := mkPass { ps_work : nat -> T2; ps_s0 : T4; ps_sg : nat -> T2; ps_edotp : nat -> T2; ps_slip : nat -> list (T1 * T1 * R) }.

Definition set_vel (v : T2) (f : field) : field := fun q => let p := f q in
  mkPoint (p_F p) (p_Finv p) (p_Fini p) (p_Fe p) (p_Fp p) (p_disgrad p) v (p_detF p) (p_wgtc p) (p_sg p) (p_sgt p) (p_edotp p) (p_ag p) (p_gas p) (p_J2 p) (p_slip p).
Definition set_stress (w : pass) (f : field) : field := fun q => let p := f q in
  mkPoint (p_F p) (p_Finv p) (p_Fini p) (p_Fe p) (p_Fp p) (p_disgrad p) (p_vel p) (p_detF p) (p_wgtc p) (ps_sg w q) (p_sgt p) (ps_edotp w q) (p_ag p) (p_gas p) (p_J2 p) (ps_slip w q).
Definition set_sgt (f : field) : field := fun q => let p := f q in
  mkPoint (p_F p) (p_Finv p) (p_Fini p) (p_Fe p) (p_Fp p) (p_disgrad p) (p_vel p) (p_detF p) (p_wgtc p) (p_sg p) (p_sg p) (p_edotp p) (p_ag p) (p_gas p) (p_J2 p) (p_slip p).

(* The loop body, evpfft.cpp:499-556: initialize_velgrad, evpal, get_smacro. *)
Definition one_pass (c : settings) (w : pass) (m : specimen) : specimen :=
  let f := set_stress w (initialize_velgrad (c_npts c) (ps_work w) (m_dvel m) (m_invinv m) (m_field m)) in
  let dvel := mixed_correction (ps_s0 w) (idsim_of (c_iudot c)) (c_iscau c) (c_scauchy c) (weighted_mean (c_npts c) p_sg f) in
  mkSpecimen f (m_invinv m) dvel (fun i j => m_dacum m i j + dvel i j) (m_actual m) (m_disgradmacrot m).

(* update_defgrade and update_el_stiff at all points; [None]: the program ended, or
   a number that is none. *)
Definition elastic_all (npts : nat) (f : field) : option field :=
  if forallb (fun q => match update_defgrade_at (f q) with
                       | Some p => if p_gas p then true else match turned_stiffness (fun _ _ _ _ => 0) p with Some _ => true | None => false end
                       | None => false end) (seq 0 npts)
  then Some (fun q => match update_defgrade_at (f q) with Some p => p | None => f q end)
  else None.

(* evolve, evpfft.cpp:462-603; imicro counts from 1. *)
Definition evolve_start (imicro : nat) (udot : T2) (m : specimen) : specimen :=
  mkSpecimen (if Nat.eqb imicro 1 then set_vel udot (m_field m) else m_field m) (m_invinv m) (fun _ _ => 0) (fun _ _ => 0) (m_actual m) (m_disgradmacrot m).
Definition evolve (c : settings) (imicro : nat) (udot : T2) (tdot : R) (passes : list pass) (m : specimen) : option specimen :=
  let m1 := fold_left (fun m w => one_pass c w m) passes (evolve_start imicro udot m) in
  (* step_update, step.cpp:36-70 *)
  let actual := fun i j => udot i j + m_dacum m1 i j in
  let dis := fun i j => m_disgradmacrot m1 i j + actual i j * tdot in
  let f := set_sgt (m_field m1) in
  if c_iupdate c
  then let '(g, avg) := update_defgrad (c_npts c) tdot (c_wgt c) actual (update_defgradp tdot f) in
       match elastic_all (c_npts c) g with
       | Some g' => Some (mkSpecimen g' (defgradinvavgc_inv avg) (m_dvel m1) (m_dacum m1) actual dis)
       | None => None
       end
  else Some (mkSpecimen f (m_invinv m1) (m_dvel m1) (m_dacum m1) actual dis).

(* What the step deforms the points by: the field update_defgrad advances with. *)
Definition step_velocity (c : settings) (imicro : nat) (udot : T2) (passes : list pass) (m : specimen) : field :=
  m_field (fold_left (fun m w => one_pass c w m) passes (evolve_start imicro udot m)).

(* A run, or the calls of a finite element code (main.cpp:97-240): load steps in order. *)
Fixpoint run (c : settings) (imicro : nat) (loads : list (T2 * R * list pass)) (m : specimen) : option specimen :=
  match loads with
  | [] => Some m
  | (udot, tdot, passes) :: rest =>
      match evolve c imicro udot tdot passes m with
      | Some m' => run c (S imicro) rest m'
      | None => None
      end
  end.

(* Before the first step: init_defgrad (evpfft.cpp:399-435). *)
Definition start_specimen (c : settings) (delt : T1) (f : field) : specimen :=
  mkSpecimen (init_defgrad delt (c_wgt c) f) (diag delt) (fun _ _ => 0) (fun _ _ => 0) (fun _ _ => 0) (fun _ _ => 0).

(* ---------- the nodes of the grid ---------- *)
(* A process holds a box of the grid: its points have the numbers start + 1 .. in each
   direction.  A node is given by its number l in the process, 1 .. npts + 1. *)
Definition node := nat -> nat.
Definition nodes := node -> T1.

(* init_defgrad, evpfft.cpp:437-458; F0 is defgradavg = diag(delt). *)
Definition init_xnode (F0 : T2) : nodes := fun l ii => sum1 3 (fun jj => F0 ii jj * (INR (l jj) - 1 / 2)).

(* update_grid_velgrad.cpp:20-59: velgradrefavg. *)
Definition velgradrefavg (npts : nat) (wgt : R) (f : field) : T2 := fun i j =>
  sumn npts (fun q => mmul (p_vel (f q)) (p_F (f q)) i j * wgt).
(* 201-232: the neighbours of a node among the points of the whole grid. *)
Definition neighbours (n g : nat) : nat * nat :=
  if Nat.eqb g 1 then (n, 1%nat) else if Nat.eqb g (n + 1) then (n, 1%nat) else ((g - 1)%nat, g).
(* 238-243; workG: the fluctuating velocity at the points, of the whole grid. *)
Definition dvnode (n : nat -> nat) (workG : node -> T1) (g : node) : T1 := fun ii =>
  let iv d := fst (neighbours (n d) (g d)) in
  let jv d := snd (neighbours (n d) (g d)) in
  let at3 a b c := workG (fun d => match d with 1%nat => a | 2%nat => b | _ => c end) ii in
  1 / 8 * (at3 (iv 1%nat) (iv 2%nat) (iv 3%nat) + at3 (jv 1%nat) (iv 2%nat) (iv 3%nat)
         + at3 (iv 1%nat) (jv 2%nat) (iv 3%nat) + at3 (jv 1%nat) (jv 2%nat) (iv 3%nat)
         + at3 (iv 1%nat) (iv 2%nat) (jv 3%nat) + at3 (jv 1%nat) (iv 2%nat) (jv 3%nat)
         + at3 (iv 1%nat) (jv 2%nat) (jv 3%nat) + at3 (jv 1%nat) (jv 2%nat) (jv 3%nat)).
(* 182-252, on the process whose box starts after [start]. *)
Definition update_xnode (n : nat -> nat) (start : nat -> nat) (tdot : R) (refavg : T2) (workG : node -> T1) (x : nodes) : nodes := fun l ii =>
  x l ii + dvnode n workG (fun d => (l d + start d)%nat) ii * tdot + sum1 3 (fun jj => refavg ii jj * (INR (l jj) - 1 / 2) * tdot).

(* ---------- the positions written to the output, write_micro_state.cpp:500-599 ---------- *)
(* 518-534: uf at the point g of the grid, held by the process whose box starts after [start g]. *)
Definition uf (Favg : T2) (start : node -> nat -> nat) (x : (nat -> nat) -> nodes) (g : node) : T1 := fun ii =>
  let l d := (g d - start g d)%nat in
  x (start g) l ii - sum1 3 (fun jj => Favg ii jj * INR (l jj)).
(* 540-584 *)
Definition ufintp (n : nat -> nat) (u : node -> T1) (g : node) : T1 := dvnode n u g.
(* 588-599; delt_dual(ii) = delt(3) for every ii (509-514). *)
Definition xintp (n : nat -> nat) (Favg : T2) (delt : T1) (start : node -> nat -> nat) (x : (nat -> nat) -> nodes) (g : node) : T1 := fun ii =>
  (sum1 3 (fun jj => Favg ii jj * (INR (g jj) - 1 / 2)) + ufintp n (uf Favg start x) g ii) * delt 3%nat.
