(* LSNP-EVPFFT, the large strain solver whose sample sits in a frame of grid points and is
   loaded through the velocities of its surface.  All paths below are in
   /repo/apps/micromechanics/LSNP-EVPFFT/src.  Points are numbered from zero over all
   processes together (EvpFftModel.sites): the code's i_g = i + local_start1 is x + 1. *)
From Coq Require Import Reals List Arith ZArith.
From Verif Require Import BaseReal LinModel EvpModel EvpFlowModel EvpFftModel.
Import ListNotations.
Local Open Scope R_scope.

(* npts1_g .. npts3_g and the width of the frame dnpts1_g .. dnpts3_g
   (vpsc_input.cpp:55-56). *)
Record np_grid := NpGrid { gn1 : nat; gn2 : nat; gn3 : nat; gd1 : nat; gd2 : nat; gd3 : nat }.
Definition np_sites (g : np_grid) : list site := sites (gn1 g) (gn2 g) (gn3 g).
(* npts1_g - 2*dnpts1_g, in integers *)
Definition side1 (g : np_grid) : Z := (Z.of_nat (gn1 g) - 2 * Z.of_nat (gd1 g))%Z.
Definition side2 (g : np_grid) : Z := (Z.of_nat (gn2 g) - 2 * Z.of_nat (gd2 g))%Z.
Definition side3 (g : np_grid) : Z := (Z.of_nat (gn3 g) - 2 * Z.of_nat (gd3 g))%Z.
(* i_gs, j_gs, k_gs: counted from the frame (calc_vel_boundary_lin_el.cpp:26-28,
   calc_eigenvelgradref.cpp:30-35, calc_vel_bc_error.cpp:33-38) *)
Definition in_sample1 (g : np_grid) (p : site) : Z := let '(x, _, _) := p in (Z.of_nat x + 1 - Z.of_nat (gd1 g))%Z.
Definition in_sample2 (g : np_grid) (p : site) : Z := let '(_, y, _) := p in (Z.of_nat y + 1 - Z.of_nat (gd2 g))%Z.
Definition in_sample3 (g : np_grid) (p : site) : Z := let '(_, _, z) := p in (Z.of_nat z + 1 - Z.of_nat (gd3 g))%Z.

(* The test for a node with an applied velocity, the same in three files
   (calc_vel_boundary_lin_el.cpp:30-32, 109-111, calc_eigenvelgradref.cpp:37-39,
   calc_vel_bc_error.cpp:40-42, 101-103); && binds tighter than ||. *)
Definition loaded (g : np_grid) (p : site) : bool :=
  let i := in_sample1 g p in let j := in_sample2 g p in let k := in_sample3 g p in
  (((i =? 1) || (i =? side1 g + 1)) && ((1 <=? j) && (j <=? side1 g + 1) && (1 <=? k) && (k <=? side3 g + 1))
   || ((j =? 1) || (j =? side2 g + 1)) && ((1 <=? i) && (i <=? side2 g + 1) && (1 <=? k) && (k <=? side3 g + 1))
   || ((k =? 1) || (k =? side2 g + 1)) && ((1 <=? i) && (i <=? side2 g + 1) && (1 <=? j) && (j <=? side2 g + 1)))%Z%bool.

(* ---------- corners of the sample ---------- *)

(* init_Xvert (evpfft.cpp:518-554): component i of corner v *)
Definition corner (g : np_grid) (i v : nat) : R :=
  let near := 5 / 10 in
  let far (s : Z) := IZR s + 5 / 10 in
  match i with
  | 1%nat => match v with 2%nat | 3%nat | 6%nat | 7%nat => far (side1 g) | _ => near end
  | 2%nat => match v with 3%nat | 4%nat | 7%nat | 8%nat => far (side2 g) | _ => near end
  | _ => match v with 5%nat | 6%nat | 7%nat | 8%nat => far (side3 g) | _ => near end
  end.
(* calc_velvert (calc_velvert.cpp:6-18) *)
Definition corner_velocity (udot : T2) (xvert : nat -> nat -> R) : nat -> nat -> R := fun ii v => sum1 3 (fun jj => udot ii jj * xvert jj v).
(* update_xvert (update_xvert.cpp:6-15) *)
Definition move_corners (tdot : R) (velvert xvert : nat -> nat -> R) : nat -> nat -> R := fun ii v => xvert ii v + velvert ii v * tdot.

(* The corners over the steps of solve (evpfft.cpp:735-749, ibc = 1): calc_velvert at the
   start of a step (739), update_xvert at its end when iupdate is 1 (702-711). *)
Definition corner_step (iupdate : bool) (load : T2 * R) (xvert : nat -> nat -> R) : nat -> nat -> R :=
  let velvert := corner_velocity (fst load) xvert in
  if iupdate then move_corners (snd load) velvert xvert else xvert.
Definition corners_after (g : np_grid) (iupdate : bool) (loads : list (T2 * R)) : nat -> nat -> R :=
  fold_left (fun x load => corner_step iupdate load x) loads (corner g).

(* ---------- velocities of the surface ---------- *)

(* calc_vel_boundary_lin_el.cpp:46-57 *)
Definition shape (g : np_grid) (p : site) (v : nat) : R :=
  let e1 := 2 * (IZR (in_sample1 g p - 1)) / IZR (side1 g) - 1 in
  let e2 := 2 * (IZR (in_sample2 g p - 1)) / IZR (side2 g) - 1 in
  let e3 := 2 * (IZR (in_sample3 g p - 1)) / IZR (side3 g) - 1 in
  match v with
  | 1%nat => 125 / 1000 * (1 - e1) * (1 - e2) * (1 - e3)
  | 2%nat => 125 / 1000 * (1 + e1) * (1 - e2) * (1 - e3)
  | 3%nat => 125 / 1000 * (1 + e1) * (1 + e2) * (1 - e3)
  | 4%nat => 125 / 1000 * (1 - e1) * (1 + e2) * (1 - e3)
  | 5%nat => 125 / 1000 * (1 - e1) * (1 - e2) * (1 + e3)
  | 6%nat => 125 / 1000 * (1 + e1) * (1 - e2) * (1 + e3)
  | 7%nat => 125 / 1000 * (1 + e1) * (1 + e2) * (1 + e3)
  | _ => 125 / 1000 * (1 - e1) * (1 + e2) * (1 + e3)
  end.
(* 59-64 *)
Definition interpolated_corner (g : np_grid) (velvert : nat -> nat -> R) (p : site) : T1 := fun ii => sum1 8 (fun v => velvert ii v * shape g p v).
(* 66-95: sums over the loaded nodes of all processes; the second component counts them *)
Definition loaded_sites (g : np_grid) : list site := filter (loaded g) (np_sites g).
Definition loaded_count (g : np_grid) : R := suml (fun _ => 1) (loaded_sites g).
Definition loaded_mean (g : np_grid) (v : site -> T1) : T1 := fun ii => suml (fun p => v p ii) (loaded_sites g) / loaded_count g.
(* The whole function: velapp_node of the loaded nodes, the others keep theirs (97-121). *)
Definition apply_boundary (g : np_grid) (velvert : nat -> nat -> R) (velapp : site -> T1) : site -> T1 := fun p ii =>
  if loaded g p then interpolated_corner g velvert p ii - loaded_mean g (interpolated_corner g velvert) ii else velapp p ii.

(* ---------- velocities inside ---------- *)

(* calc_wfhat.cpp:26-56: the weight at an offset *)
Definition offset (n x : nat) : R :=
  let k_g := (Z.of_nat x + 1)%Z in
  if (k_g <=? Z.of_nat n / 2)%Z then IZR (k_g - 1) else if (Z.of_nat n / 2 <? k_g)%Z then IZR (k_g - Z.of_nat n - 1) else 0.
Definition weight (g : np_grid) (p : site) : R :=
  let '(x, y, z) := p in
  let xn2 := offset (gn1 g) x ^ 2 + offset (gn2 g) y ^ 2 + offset (gn3 g) z ^ 2 in
  if Rlt_dec 0 xn2 then 1 / xn2 ^ 2 else 0.
(* calc_eigenvelgradref.cpp:37-51 *)
Definition given (g : np_grid) (p : site) : bool :=
  let '(x, y, z) := p in
  if loaded g p then true else ((Z.of_nat x + 1 =? 1) || (Z.of_nat y + 1 =? 1) || (Z.of_nat z + 1 =? 1))%Z%bool.
Definition indf (g : np_grid) (p : site) : R := if given g p then 1 else 0.
(* 57-91 and 112-160: transform, product with the transform of the weights (calc_wfhat
   59-77), transform back *)
Definition convolve (n1 n2 n3 : nat) (w f : site -> R) : site -> R :=
  ifft n1 n2 n3
    (fun k => fft_re n1 n2 n3 f k * fft_re n1 n2 n3 w k - fft_im n1 n2 n3 f k * fft_im n1 n2 n3 w k)
    (fun k => fft_im n1 n2 n3 f k * fft_re n1 n2 n3 w k + fft_re n1 n2 n3 f k * fft_im n1 n2 n3 w k).
(* 94-98 and 109-187 *)
Definition fill_inside (g : np_grid) (velapp : site -> T1) : site -> T1 := fun p ii =>
  let cv := convolve (gn1 g) (gn2 g) (gn3 g) (weight g) in
  let wfn := 1 / cv (indf g) p in
  if Rlt_dec (indf g p) 1 then cv (fun q => velapp q ii * indf g q) p * wfn else velapp p ii.

(* ---------- gradient and velocity ---------- *)

(* init_xk_gb (evpfft.cpp:181-204), times twopi (calc_velocity.cpp:119-121) *)
Definition np_wave (g : np_grid) (k : site) : T1 :=
  let '(x, y, z) := k in fun i =>
  match i with
  | 1%nat => 2 * PI * (1 * IZR (wave_number (Z.of_nat (gn1 g)) 0 (Z.of_nat x)) / INR (gn1 g))
  | 2%nat => 2 * PI * (1 * IZR (wave_number (Z.of_nat (gn2 g)) 0 (Z.of_nat y)) / INR (gn2 g))
  | _ => 2 * PI * (1 * IZR (wave_number (Z.of_nat (gn3 g)) 0 (Z.of_nat z)) / INR (gn3 g))
  end.
(* mod_frequency.cpp:14-30.  tan has a pole at half a turn, which the largest frequency of
   an even grid hits; nothing is proved there. *)
Definition prefactor_re (xk : T1) : R :=
  let c i := cos (xk i) in let s i := sin (xk i) in
  - (25 / 100) * s 1%nat - 25 / 100 * c 2%nat * s 1%nat - 25 / 100 * c 3%nat * s 1%nat
  - 25 / 100 * c 2%nat * c 3%nat * s 1%nat - 25 / 100 * s 2%nat - 25 / 100 * c 1%nat * s 2%nat
  - 25 / 100 * c 3%nat * s 2%nat - 25 / 100 * c 1%nat * c 3%nat * s 2%nat - 25 / 100 * s 3%nat
  - 25 / 100 * c 1%nat * s 3%nat - 25 / 100 * c 2%nat * s 3%nat
  - 25 / 100 * c 1%nat * c 2%nat * s 3%nat + 25 / 100 * s 1%nat * s 2%nat * s 3%nat.
Definition prefactor_im (xk : T1) : R :=
  let c i := cos (xk i) in let s i := sin (xk i) in
  25 / 100 + 25 / 100 * c 1%nat + 25 / 100 * c 2%nat + 25 / 100 * c 1%nat * c 2%nat
  + 25 / 100 * c 3%nat + 25 / 100 * c 1%nat * c 3%nat + 25 / 100 * c 2%nat * c 3%nat
  + 25 / 100 * c 1%nat * c 2%nat * c 3%nat - 25 / 100 * s 1%nat * s 2%nat
  - 25 / 100 * c 3%nat * s 1%nat * s 2%nat - 25 / 100 * s 1%nat * s 3%nat
  - 25 / 100 * c 2%nat * s 1%nat * s 3%nat - 25 / 100 * s 2%nat * s 3%nat
  - 25 / 100 * c 1%nat * s 2%nat * s 3%nat.
Definition krot_re (xk : T1) : T1 := fun i => tan (xk i / 2) * prefactor_re xk.
Definition krot_im (xk : T1) : T1 := fun i => tan (xk i / 2) * prefactor_im xk.

(* calc_eigenvelgradref.cpp:189-288 *)
Definition np_gradient (g : np_grid) (v : site -> T1) : site -> T2 := fun p ii jj =>
  let re k := fft_re (gn1 g) (gn2 g) (gn3 g) (fun q => v q ii) k in
  let im k := fft_im (gn1 g) (gn2 g) (gn3 g) (fun q => v q ii) k in
  ifft (gn1 g) (gn2 g) (gn3 g)
    (fun k => re k * krot_re (np_wave g k) jj - im k * krot_im (np_wave g k) jj)
    (fun k => re k * krot_im (np_wave g k) jj + im k * krot_re (np_wave g k) jj) p.

(* wgt (allocate_memory.cpp:17; the third factor is the second side again) and the mean of
   calc_velocity.cpp:36-61, over all points *)
Definition np_wgt (g : np_grid) : R := 1 / IZR (side1 g * side2 g * side2 g).
Definition np_mean (g : np_grid) (G : site -> T2) : T2 := fun ii jj => suml (fun p => G p ii jj * np_wgt g) (np_sites g).

(* calc_velocity.cpp:64-266 with ibc = 1, where velgradref is given; [rotated] is igamma == 1 *)
Definition np_velocity (g : np_grid) (rotated : bool) (G : site -> T2) : site -> T1 := fun p ii =>
  let re k jj := fft_re (gn1 g) (gn2 g) (gn3 g) (fun q => G q ii jj) k in
  let im k jj := fft_im (gn1 g) (gn2 g) (gn3 g) (fun q => G q ii jj) k in
  let xkxk (k : site) := let xk := np_wave g k in xk 1%nat * xk 1%nat + xk 2%nat * xk 2%nat + xk 3%nat * xk 3%nat in
  let kk (k : site) := let r := krot_re (np_wave g k) in let m := krot_im (np_wave g k) in
    r 1%nat ^ 2 + m 1%nat ^ 2 + r 2%nat ^ 2 + m 2%nat ^ 2 + r 3%nat ^ 2 + m 3%nat ^ 2 in
  let hat_re k :=
    if rotated then if Rle_dec (1 / 10 ^ 15) (Rabs (kk k)) then sum1 3 (fun jj => (re k jj * krot_re (np_wave g k) jj + im k jj * krot_im (np_wave g k) jj) / kk k) else 0
    else if Rlt_dec 0 (xkxk k) then sum1 3 (fun jj => im k jj * np_wave g k jj / xkxk k) else 0 in
  let hat_im k :=
    if rotated then if Rle_dec (1 / 10 ^ 15) (Rabs (kk k)) then sum1 3 (fun jj => (im k jj * krot_re (np_wave g k) jj - re k jj * krot_im (np_wave g k) jj) / kk k) else 0
    else if Rlt_dec 0 (xkxk k) then sum1 3 (fun jj => - re k jj * np_wave g k jj / xkxk k) else 0 in
  let '(x, y, z) := p in
  let X_ref := fun jj => let at_ := match jj with 1%nat => INR (x + 1) | 2%nat => INR (y + 1) | _ => INR (z + 1) end in
    if rotated then 1 * at_ - 5 / 10 else 1 * at_ in
  ifft (gn1 g) (gn2 g) (gn3 g) hat_re hat_im p + sum1 3 (fun jj => np_mean g G ii jj * X_ref jj).

(* ---------- error of the surface and the outer iteration ---------- *)

(* calc_vel_bc_error.cpp:22-133; [None]: a division by zero (no loaded node, or applied
   velocities that do not vary) *)
Definition norm_of (v : T1) : R := sqrt (v 1%nat ^ 2 + v 2%nat ^ 2 + v 3%nat ^ 2).
Definition surface_error (g : np_grid) (velapp velocity : site -> T1) : option R :=
  let count := loaded_count g in
  if Req_EM_T count 0 then None else
  let va := loaded_mean g velapp in let vb := loaded_mean g velocity in
  let veln := suml (fun p => norm_of (fun ii => velapp p ii - va ii)) (loaded_sites g) / count in
  let dveln := suml (fun p => norm_of (fun ii => (velapp p ii - va ii) - (velocity p ii - vb ii))) (loaded_sites g) / count in
  if Req_EM_T veln 0 then None else Some (dveln / veln).

(* The outer iteration of evolve (evpfft.cpp:589-690) with ibc = 1: [body frame n] is the
   error after pass n with the given frame stiffness.  Returns the number of passes, the last
   error, frame_c and mult_incr_accum; the fuel bounds the model's recursion only. *)
Record np_outer := NpOuter { error_bc : R; itmin_out : Z; itmax_out : Z; mult_incr : R; mult_incr_mx : R }.
Record np_state := NpState { passes : Z; last_error : R; frame_c : R; accum : R }.
Definition outer_continue (o : np_outer) (s : np_state) : bool :=
  (((passes s <=? itmax_out o)%Z && (if Rlt_dec (error_bc o) (last_error s) then true else false)) || (passes s <? itmin_out o)%Z)%bool.
Definition outer_pass (o : np_outer) (body : R -> Z -> R) (s : np_state) : np_state :=
  let it := (passes s + 1)%Z in
  let grow := ((1 <? it)%Z && (if Rlt_dec (accum s) (mult_incr_mx o) then true else false))%bool in
  let c := if grow then frame_c s * mult_incr o else frame_c s in
  let a := if grow then accum s * mult_incr o else accum s in
  NpState it (body c it) c a.
Fixpoint outer_loop (o : np_outer) (body : R -> Z -> R) (fuel : nat) (s : np_state) : option np_state :=
  if outer_continue o s then match fuel with O => None | S fuel => outer_loop o body fuel (outer_pass o body s) end else Some s.
Definition outer_start (o : np_outer) (frame a : R) : np_state := NpState 0 (2 * error_bc o) frame a.

(* The frame stiffness and the accumulated factor go on from step to step (735-749). *)
Fixpoint outer_steps (o : np_outer) (bodies : list (R -> Z -> R)) (fuel : nat) (frame a : R) : option (R * R) :=
  match bodies with
  | [] => Some (frame, a)
  | body :: rest => match outer_loop o body fuel (outer_start o frame a) with Some s => outer_steps o rest fuel (frame_c s) (accum s) | None => None end
  end.

(* ---------- the frame ---------- *)

(* calc_IC0a_inv (calc_IC0a_inv.cpp:8-66): dF6_dP6 over frame_c, its tensor on the stress at
   the start of the pass; invert_matrix<6> is EvpModel.inverted *)
Definition frame_compliance (dF : T2) (c : R) : T2 := fun i j => dF i j / c.
Definition frame_operator (c066 s66 : T2) : T2 := fun i j => sum1 6 (fun k => c066 i k * s66 k j) + (if Nat.eqb i j then 1 else 0).
Definition on_tensor (A : T4) (t : T2) : T2 := fun i j => sum1 3 (fun k => sum1 3 (fun l => A i j k l * t k l)).
Definition frame_inverse (c066 s66 : T2) : T4 := chg_basis_3 6 (inverted 6 (frame_operator c066 s66)).
Definition frame_old (s66 sgPK1 : T2) : T2 := on_tensor (chg_basis_3 6 s66) sgPK1.
(* evpal.cpp:363-391, one point of the frame *)
Definition frame_update (c0 IC0a_inv : T4) (velgradref eigen Cinv_old sgPK1 : T2) : T2 :=
  let rhs := fun i j => sgPK1 i j + on_tensor c0 (fun k l => velgradref k l - (eigen k l - Cinv_old k l)) i j in
  on_tensor IC0a_inv rhs.

(* ---------- the moving grid ---------- *)

(* update_grid.cpp:96-118 (igamma == 1): the point, counted from one over all processes,
   whose velocity moves node [i] of a process that starts at [start] *)
Definition node_source (npts start i : Z) : Z := if (i + start =? npts + 1)%Z then 1 else i.
(* update_grid.cpp:43-81 (igamma == 0): the two neighbours of a node *)
Definition node_neighbours (npts start i : Z) : Z * Z :=
  (if i + start =? 1 then (npts, 1) else if i + start =? npts + 1 then (npts, 1) else (i + start - 1, i + start))%Z.
