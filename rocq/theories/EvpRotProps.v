(* C106, C107: Euler angles and reorientation. *)
From Coq Require Import Reals List Arith Lia Lra Bool ZArith.
From Verif Require Import BaseReal LinModel EvpModel EvpSpec EvpBasis EvpElast EvpRot.
Import ListNotations.
Local Open Scope R_scope.

(* C106: any three angles are an orientation. *)
Theorem C106_rotation ph th om : rotation (euler_2 ph th om) /\ rotation (grain_orientation ph th om).
Proof. split; [apply euler_rotation|apply grain_rotation]. Qed.
Print Assumptions C106_rotation.

(* The angles written for an orientation give it back, unless the third axis is
   within a hundredth of vertical without being so. *)
Theorem C106_round A ph th om : rotation A -> Rabs (A 3%nat 3%nat) < 9999 / 10000 \/ Rabs (A 3%nat 3%nat) = 1 -> euler_1 A = (ph, th, om) ->
  forall i j, idx 3 i -> idx 3 j -> euler_2 (ph * PI / 180) (th * PI / 180) (om * PI / 180) i j = A i j.
Proof. apply euler_round. Qed.
Print Assumptions C106_round.

(* The angles that were read are the angles written. *)
Theorem C106_angles ph th om : -180 < ph <= 180 -> 0 < th < 180 -> -180 < om <= 180 -> Rabs (cos (th * PI / 180)) < 9999 / 10000 ->
  euler_1 (transposed (grain_orientation ph th om)) = (ph, th, om).
Proof.
  intros P T O C. pose proof PI_RGT_0 as P0. change (transposed (grain_orientation ph th om)) with (euler_2 (ph * PI / 180) (th * PI / 180) (om * PI / 180)).
  assert (S : forall x, -180 < x <= 180 -> - PI < x * PI / 180 <= PI) by (intros x [X1 X2]; split; nra).
  rewrite euler_angles; [f_equal; [f_equal|]; field; lra|apply S; exact P|split; nra|apply S; exact O|exact C].
Qed.
Print Assumptions C106_angles.

(* Closer to vertical, the last angle is dropped without being added to the first. *)
Theorem C106_poles_refuted : exists A ph th om, rotation A /\ euler_1 A = (ph, th, om) /\
  euler_2 (ph * PI / 180) (th * PI / 180) (om * PI / 180) 1%nat 3%nat = 0 /\ A 1%nat 3%nat > 9 / 1000.
Proof.
  set (th := acos (99995 / 100000)). set (A := euler_2 0 th (PI / 2)).
  assert (C : cos th = 99995 / 100000) by (apply cos_acos; lra).
  exists A. destruct (euler_1 A) as [[ph t] om] eqn:E. exists ph, t, om.
  assert (Z : om = 0).
  { unfold euler_1 in E. change (A 3%nat 3%nat) with (cos th) in E. rewrite C, Rabs_right in E by lra.
    destruct (Rle_dec (9999 / 10000) (99995 / 100000)) as [_|X]; [|lra]. injection E as _ _ <-. unfold Rdiv. ring. }
  split; [apply euler_rotation|]. split; [reflexivity|]. split.
  - rewrite Z. unfold euler_2. replace (0 * PI / 180) with 0 by field. rewrite sin_0. ring.
  - change (A 1%nat 3%nat) with (sin th * sin (PI / 2)). rewrite sin_PI2. unfold th. rewrite sin_acos by lra.
    rewrite Rmult_1_r. apply Rlt_gt. rewrite <- (sqrt_square (9 / 1000)) by lra. apply sqrt_lt_1; unfold Rsqr; lra.
Qed.
Print Assumptions C106_poles_refuted.

Example C106_met : rotation d /\ Rabs (d 3 3) = 1 /\ Rabs (cos (60 * PI / 180)) < 9999 / 10000.
Proof.
  split; [split; [intros i j I J; all3 I; all3 J; unfold S3, d; cbn [Nat.eqb]; ring|unfold det3, d; cbn [Nat.eqb]; ring]|].
  split; [unfold d; cbn [Nat.eqb]; apply Rabs_R1|]. replace (60 * PI / 180) with (PI / 3) by field. rewrite cos_PI3, Rabs_right; lra.
Qed.

(* C107: whatever the spins and slips, a lattice stays a lattice. *)
Theorem C107_history (steps : list (T2 * T2 * list (system * R) * R)) a : rotation a ->
  rotation (fold_left (fun a s => update_orient (fst (fst (fst s))) (snd (fst (fst s))) a (snd (fst s)) (snd s)) steps a).
Proof. revert a. induction steps as [|s l IH]; intros a H; [exact H|]. cbn [fold_left]. apply IH. apply orient_rotation. exact H. Qed.
Print Assumptions C107_history.

(* The lattice turns about the axis of the increment by its norm. *)
Theorem C107_turn a c : 1 / 10 ^ 6 < norm (axial c) -> norm (axial c) < PI ->
  exists A, (forall i j, idx 3 i -> idx 3 j -> orient a c i j = product A a i j) /\ turns_about (fun i => axial c i / norm (axial c)) (norm (axial c)) A.
Proof.
  intros T P. exists (orient_rot c). split; [intros; apply orient_product|]. apply orient_turns; [exact T|]. apply Rgt_not_eq. apply cos_gt_0; lra.
Qed.
Print Assumptions C107_turn.

(* "By its norm, however small": false.  Steps of a millionth or less are lost,
   however many there are. *)
Theorem C107_slow_refuted s n : 0 < s <= 1 / 10 ^ 6 ->
  norm (axial (spin3 s)) = s /\
  exists b, 0 <= b <= 2 * s * (INR n * s) /\ turns_about axis3 b (steps n (fun a => orient a (spin3 s)) d) /\
    (0 < INR n * s <= 1 -> ~ turns_about axis3 (INR n * s) (steps n (fun a => orient a (spin3 s)) d)).
Proof.
  intros HS. split.
  - unfold norm, vdot, S3, axial, spin3. replace (_ + _ + _) with (s * s) by ring. apply sqrt_square. lra.
  - pose proof (pos_INR n) as N. destruct (tan_small s HS) as [T0 T1]. assert (V : 0 < s * tan (s / 2)) by nra. destruct (atan_le _ V) as [A0 A1].
    assert (B : 0 <= INR n * (2 * atan (s * tan (s / 2))) <= 2 * s * (INR n * s)).
    { assert (atan (s * tan (s / 2)) <= s * s) by nra. split; [apply Rmult_le_pos; lra|]. replace (2 * s * (INR n * s)) with (INR n * (2 * (s * s))) by ring. apply Rmult_le_compat_l; [exact N|lra]. }
    eexists. split; [exact B|]. pose proof (slow_steps s n HS) as H. split; [exact H|]. intros Q.
    eapply turns_differ; [unfold vdot, S3, axis3, d; cbn [Nat.eqb]; ring| | |exact H].
    + split; [apply B|]. eapply Rle_lt_trans; [apply B|]. nra.
    + pose proof PI2_1. lra.
Qed.
Print Assumptions C107_slow_refuted.

(* The lattice of a point that does not slip turns with the point: W is the spin
   of the gradient U + K/dt of its displacement in the step, imposed part and
   correction.  This holds when the imposed part does not spin. *)
Theorem C107_spin_partial U K D tdot ag : 0 < tdot -> symmetric U ->
  let w := axial (antisym (fun i j => U i j + K i j / tdot)) in
  1 / 10 ^ 6 < norm w * tdot < PI ->
  let velgrad := step_velgrad tdot D (initialize_disgrad (fun _ _ => 0) K (step_update_disgrad U tdot D)) in
  exists A, (forall i j, idx 3 i -> idx 3 j -> update_orient (tomtot U) velgrad ag [] tdot i j = product A ag i j) /\
    turns_about (fun i => w i / norm w) (norm w * tdot) A.
Proof.
  intros T SU w N velgrad.
  exists (orient_rot (fun i j => (tomtot U i j + antisym velgrad i j - antisym (slip_distortion ag []) i j) * tdot)).
  split; [intros; apply orient_product|]. apply orient_scaled; [|exact T|exact N].
  intros i I. assert (Z : forall p q, idx 3 p -> idx 3 q -> tomtot U p q = 0) by (intros p q P Q; unfold tomtot; rewrite (SU p q P Q); field).
  assert (G : forall p q, antisym velgrad p q = antisym (fun i j => U i j + K i j / tdot) p q) by (intros p q; unfold antisym, velgrad; rewrite !step_velgrad_local by lra; reflexivity).
  all3 I; unfold w, axial; rewrite Z, G, antisym_slip_nil by ix; ring.
Qed.
Print Assumptions C107_spin_partial.

(* "Whatever the imposed gradient": false.  The imposed spin is part of the local
   gradient and is added again, so a body spun rigidly has its lattice turn twice
   as far as the body. *)
Theorem C107_spin_refuted W D tdot ag : 0 < tdot -> antisymmetric W -> 1 / 10 ^ 6 < 2 * (norm (axial W) * tdot) < PI ->
  let velgrad := step_velgrad tdot D (initialize_disgrad (fun _ _ => 0) (fun _ _ => 0) (step_update_disgrad W tdot D)) in
  let e := fun i => axial W i / norm (axial W) in
  (forall i j, idx 3 i -> idx 3 j -> velgrad i j = W i j) /\
  exists A, (forall i j, idx 3 i -> idx 3 j -> update_orient (tomtot W) velgrad ag [] tdot i j = product A ag i j) /\
    turns_about e (2 * (norm (axial W) * tdot)) A /\ ~ turns_about e (norm (axial W) * tdot) A.
Proof.
  intros T AW N velgrad e.
  assert (V : forall i j, velgrad i j = W i j) by (intros i j; unfold velgrad; rewrite step_velgrad_local by lra; field; lra).
  split; [intros; apply V|].
  exists (orient_rot (fun i j => (tomtot W i j + antisym velgrad i j - antisym (slip_distortion ag []) i j) * tdot)).
  split; [intros; apply orient_product|].
  assert (H : turns_about e (norm (axial W) * (2 * tdot)) (orient_rot (fun i j => (tomtot W i j + antisym velgrad i j - antisym (slip_distortion ag []) i j) * tdot))).
  { apply orient_scaled; [|lra|lra]. intros i I.
    assert (G : forall p q, idx 3 p -> idx 3 q -> tomtot W p q = W p q /\ antisym velgrad p q = W p q).
    { intros p q P Q. unfold tomtot, antisym. rewrite !V. rewrite (AW q p Q P). split; field. }
    all3 I; unfold axial; rewrite antisym_slip_nil; (match goal with |- (tomtot _ ?p ?q + _ - _) * _ = _ => destruct (G p q ltac:(ix) ltac:(ix)) as [-> ->] end); ring. }
  replace (norm (axial W) * (2 * tdot)) with (2 * (norm (axial W) * tdot)) in H by ring. split; [exact H|].
  assert (NZ : 0 < norm (axial W)). { pose proof (sqrt_pos (vdot (axial W) (axial W))) as Q. change (0 <= norm (axial W)) in Q. destruct Q as [Q|Q]; [exact Q|]. rewrite <- Q in N. lra. }
  assert (U : vdot e e = 1).
  { transitivity (vdot (axial W) (axial W) / (norm (axial W) * norm (axial W))); [unfold vdot, S3, e; field; lra|].
    unfold norm at 1 2. rewrite sqrt_sqrt by (unfold vdot, S3; nra). field. intros Z. unfold norm in NZ. rewrite Z, sqrt_0 in NZ. lra. }
  intros C. assert (P0 : 0 < norm (axial W) * tdot) by nra. eapply (turns_differ e (norm (axial W) * tdot) (2 * (norm (axial W) * tdot))); [exact U|lra|lra|exact C|exact H].
Qed.
Print Assumptions C107_spin_refuted.

Example C107_met : antisymmetric (spin3 (1 / 2)) /\ 1 / 10 ^ 6 < 2 * (norm (axial (spin3 (1 / 2))) * 1) < PI /\ symmetric d.
Proof.
  assert (N : norm (axial (spin3 (1 / 2))) = 1 / 2).
  { unfold norm, vdot, S3, axial, spin3. replace (_ + _ + _) with (1 / 2 * (1 / 2)) by ring. apply sqrt_square. lra. }
  rewrite N. pose proof PI2_1. repeat split; try lra.
  - intros i j I J. all3 I; all3 J; unfold spin3; lra.
  - intros i j I J. unfold d. rewrite Nat.eqb_sym. reflexivity.
Qed.
