(* A load step of the crystal plasticity solver over the whole grid, and the calls a
   finite element code makes of it. *)
From Coq Require Import Reals List Arith ZArith.
From Verif Require Import BaseReal LinModel EvpModel EvpFlowModel.
Import ListNotations.
Local Open Scope R_scope.

(* ---------- a load step ---------- *)

(* The fields of the grid, one entry per point, of all processes in one list, and the
   means.  (evpfft.h; velgrad, orientations and strengths are treated in EvpModel.) *)
Record rve := {
  r_disgrad : list T2; r_sg : list T2; r_edotp : list T2; r_ept : list T2;
  r_ddis : T2;    (* ddisgradmacro *)
  r_acum : T2;    (* ddisgradmacroacum *)
  r_macro : T2;   (* disgradmacro *)
  r_macrot : T2;  (* disgradmacrot *)
  r_evm : R; r_dvm : R; r_svm : R; r_errs : R; r_erre : R }.

(* What a step needs: [s_work] is forward_fft, inverse_the_greens and backward_fft
   (evpfft.cpp:358-378) from the stress field to the correction of the displacement
   gradients; [s_local] is evpal (393): new stresses, plastic rates and the two errors.
   Both are taken as arbitrary functions here; inverse_the_greens and evpal at a point
   are modelled in EvpFlowModel. *)
Record solver := {
  s_work : list T2 -> list T2;
  s_local : rve -> list T2 * list T2 * R * R;
  s_s0 : T4; s_iudot : nat -> nat -> Z; s_iscau : nat -> Z; s_scauchy : T2; s_wgt : R; s_error : R }.

Definition zip (f : T2 -> T2 -> T2) (a b : list T2) : list T2 := map (fun p : T2 * T2 => f (fst p) (snd p)) (combine a b).

(* The mean stress of a field (get_smacro.cpp:17-47), its von Mises value (86-99). *)
Definition mean_stress (wgt : R) (sg : list T2) : T2 := scauav wgt [map (fun s => (1%nat, s)) sg].
Definition svm_of (mean : T2) : R :=
  let dev := chg_basis_1 5 (chg_basis_2 6 mean) in
  sqrt (3 / 2 * sum1 3 (fun j => sum1 3 (fun i => dev i j * dev i j))).

(* One pass of the loop (evpfft.cpp:338-410): the field is corrected, the stress found,
   the mean corrected and the errors made relative. *)
Definition iteration (s : solver) (v : rve) : rve :=
  let disgrad := zip (initialize_disgrad (r_ddis v)) (s_work s (r_sg v)) (r_disgrad v) in
  let v1 := {| r_disgrad := disgrad; r_sg := r_sg v; r_edotp := r_edotp v; r_ept := r_ept v; r_ddis := r_ddis v; r_acum := r_acum v;
               r_macro := r_macro v; r_macrot := r_macrot v; r_evm := r_evm v; r_dvm := r_dvm v; r_svm := r_svm v; r_errs := r_errs v; r_erre := r_erre v |} in
  let '(sg, edotp, errs, erre) := s_local s v1 in
  let mean := mean_stress (s_wgt s) sg in
  let ddis := mixed_correction (s_s0 s) (idsim_of (s_iudot s)) (s_iscau s) (s_scauchy s) mean in
  let svm := svm_of mean in
  {| r_disgrad := disgrad; r_sg := sg; r_edotp := edotp; r_ept := r_ept v; r_ddis := ddis; r_acum := fun i j => r_acum v i j + ddis i j;
     r_macro := r_macro v; r_macrot := r_macrot v; r_evm := r_evm v; r_dvm := r_dvm v; r_svm := svm;
     r_errs := if Rlt_dec 0 svm then errs / svm else errs; r_erre := if Rlt_dec 0 (r_evm v) then erre / r_evm v else erre |}.

(* while (iter < itmax && (errs > error || erre > error)) (336) *)
Fixpoint iterations (itmax : nat) (s : solver) (v : rve) : rve :=
  match itmax with
  | O => v
  | S rest => if Rlt_dec (s_error s) (r_errs v) then iterations rest s (iteration s v)
              else if Rlt_dec (s_error s) (r_erre v) then iterations rest s (iteration s v) else v
  end.

(* The start of a step (329-334; step.cpp:7-37) and its end (step.cpp:40-145). *)
Definition step_start (s : solver) (udot : T2) (tdot : R) (v : rve) : rve :=
  {| r_disgrad := map (step_update_disgrad udot tdot) (r_disgrad v); r_sg := r_sg v; r_edotp := r_edotp v; r_ept := r_ept v;
     r_ddis := fun _ _ => 0; r_acum := fun _ _ => 0; r_macro := r_macro v; r_macrot := r_macrot v;
     r_evm := r_evm v; r_dvm := r_dvm v; r_svm := r_svm v; r_errs := 2 * s_error s; r_erre := 2 * s_error s |}.
Definition step_end (udot : T2) (tdot : R) (v : rve) : rve :=
  let actual := fun i j => r_macro v i j + r_acum v i j in
  let velgradmacro := fun i j => (actual i j - r_macrot v i j) / tdot in
  {| r_disgrad := r_disgrad v; r_sg := r_sg v; r_edotp := r_edotp v;
     r_ept := zip (fun e p i j => p i j + e i j * tdot) (r_edotp v) (r_ept v);
     r_ddis := r_ddis v; r_acum := r_acum v; r_macro := fun i j => actual i j + udot i j * tdot; r_macrot := actual;
     r_evm := vm actual; r_dvm := vm velgradmacro; r_svm := r_svm v; r_errs := r_errs v; r_erre := r_erre v |}.
Definition evolve (itmax : nat) (s : solver) (udot : T2) (tdot : R) (v : rve) : rve :=
  step_end udot tdot (iterations itmax s (step_start s udot tdot v)).
Definition solve (itmax : nat) (s : solver) (loads : list (T2 * R)) (v : rve) : rve :=
  fold_left (fun v l => evolve itmax s (fst l) (snd l) v) loads v.

(* Means of the plastic strain (step.cpp:92-140). *)
Definition epav (wgt : R) (ept : list T2) : T2 := fun i j => suml (fun e : T2 => e i j * wgt) ept.
Definition evmp (epav : T2) : R := sqrt (2 / 3 * sum1 3 (fun j => sum1 3 (fun i => epav i j * epav i j))).

(* init_disgradmacro (evpfft.cpp:203-217) *)
Definition init_disgradmacro (udot : T2) (tdot : R) (v : rve) : rve :=
  {| r_disgrad := r_disgrad v; r_sg := r_sg v; r_edotp := r_edotp v; r_ept := r_ept v; r_ddis := r_ddis v; r_acum := r_acum v;
     r_macro := fun i j => udot i j * tdot; r_macrot := fun _ _ => 0;
     r_evm := r_evm v; r_dvm := r_dvm v; r_svm := r_svm v; r_errs := r_errs v; r_erre := r_erre v |}.

(* ---------- called by a finite element code ---------- *)

(* EVPFFT::solve (main.cpp:97-223), one call per element and stage
   (FierroEVPFFTLink.cpp:98-127).  [M] is the state of the grid; [run first udot tdot m]
   is init_dvm..init_sg where [first] (206-211), evolve and the averages evpal leaves
   (evpal.cpp:311-364).  Simplified: scauav is what [run] returns; check_macrostress
   (a stop on NaN) cannot happen over the reals; the transposition between the codes is
   not a change of the tensor. *)
Record averages := { a_sg66 : T2; a_dedotp66 : T2; a_edotp : T2 }.
Record link (M : Type) := { l_dtAcc : R; l_udotAcc : T2; l_active : bool; l_grid : M; l_avg : averages }.
Arguments l_dtAcc {M}. Arguments l_udotAcc {M}. Arguments l_active {M}. Arguments l_grid {M}. Arguments l_avg {M}.

Definition link_dstress (avg : averages) (vel_grad : T2) (dt : R) : T2 :=
  let m3333 := chg_basis_3 6 (inverted 6 (fun ii jj => a_sg66 avg ii jj + a_dedotp66 avg ii jj * dt)) in
  let dstran := fun i j => 1 / 2 * (vel_grad i j + vel_grad j i) * dt in
  fun ii jj => sum1 3 (fun kk => sum1 3 (fun ll => m3333 ii jj kk ll * (dstran kk ll - a_edotp avg kk ll * dt))).

Definition link_solve {M} (run : bool -> T2 -> R -> M -> M * averages * T2) (th : R) (vel_grad : T2) (dt : R) (st : link M) (stress : T2)
  : link M * T2 * option (T2 * R) :=
  let norm := sqrt (sum1 3 (fun i => sum1 3 (fun j => vel_grad i j * vel_grad i j))) in
  if Rlt_dec norm (1 / 10 ^ 16) then (st, stress, None) else
  let dtAcc := l_dtAcc st + dt in
  let acc := fun i j => l_udotAcc st i j + vel_grad i j * dt in
  let small := if Rlt_dec (vm (fun i j => 1 / 2 * (acc i j + acc j i))) th then true else false in
  if (l_active st && small)%bool then
    ({| l_dtAcc := dtAcc; l_udotAcc := acc; l_active := true; l_grid := l_grid st; l_avg := l_avg st |},
     fun i j => stress i j + link_dstress (l_avg st) vel_grad dt i j, None)
  else
    let udot := fun i j => acc i j * (1 / dtAcc) in
    let '(grid, avg, scauav) := run (negb (l_active st)) udot dtAcc (l_grid st) in
    ({| l_dtAcc := 0; l_udotAcc := fun _ _ => 0; l_active := true; l_grid := grid; l_avg := avg |}, scauav, Some (udot, dtAcc)).

(* A history of calls: the last state, the last stress and the steps that were run. *)
Definition link_run {M} (run : bool -> T2 -> R -> M -> M * averages * T2) (th : R) (calls : list (T2 * R)) (st : link M) (stress : T2)
  : link M * T2 * list (T2 * R) :=
  fold_left (fun a c => let '(st, stress, done) := a in
                        let '(st', stress', e) := link_solve run th (fst c) (snd c) st stress in
                        (st', stress', match e with Some x => done ++ [x] | None => done end)) calls (st, stress, []).

(* What a point adds to dedotp66_avg (evpal.cpp:311-320): a private array, written only
   where the phase is solid (180-199); None where it was never written. *)
Definition dedotp66_point (gas : bool) (rs : list (slip * (R * R))) : option T2 := if gas then None else Some (dedotp66 rs).
Definition dedotp66_avg (wgt : R) (pts : list (option T2)) : option T2 :=
  fold_left (fun a p => match a, p with Some x, Some y => Some (fun i j => x i j + y i j * wgt) | _, _ => None end) pts (Some (fun _ _ => 0)).
