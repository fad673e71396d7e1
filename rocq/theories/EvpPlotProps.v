(* Property C132: the fields the spectral solver writes. *)
From Coq Require Import Reals List Arith Lia Lra Bool ZArith Permutation.
From Verif Require Import BaseReal LinModel EvpModel EvpSpec EvpBasis EvpElast EvpRot EvpMisesProps EvpNewtonProps EvpPlotModel.
Import ListNotations.
Local Open Scope R_scope.

(* ---------- C132 ---------- *)

(* At a point that is not gas, the elastic strain written is symmetric and, put into
   Hooke's law with the stiffness of the point, gives the stress written. *)
Theorem C132_elastic cg66 sg disgrad edotp : pos6 cg66 -> symmetric sg ->
  symmetric (p_elastic (plotted false cg66 sg disgrad edotp))
  /\ forall i j, idx 3 i -> idx 3 j ->
     act (chg_basis_3 6 cg66) (p_elastic (plotted false cg66 sg disgrad edotp)) i j = p_stress (plotted false cg66 sg disgrad edotp) i j.
Proof.
  intros P S. cbn [plotted p_elastic p_stress].
  assert (E : forall i j, calculate_eel false cg66 sg i j = act (chg_basis_3 6 (inverted 6 cg66)) sg i j).
  { intros i j. unfold calculate_eel, act. cbv zeta. rewrite sum1_3. apply S3_ext. intros k K. apply sum1_3. }
  split; [intros i j I J; unfold symmetrize; ring |].
  intros i j I J. rewrite <- (proj2 (compliance cg66 (inverted 6 cg66) sg i j (inverted6 _ P) S I J)).
  set (B := chg_basis_3 6 (inverted 6 cg66)) in *.
  assert (Q : forall k l, symmetrize (calculate_eel false cg66 sg) k l = act B sg k l).
  { intros k l. unfold symmetrize. rewrite !E. replace (act B sg l k) with (act B sg k l); [lra |].
    unfold B. rewrite !act_expand. unfold expand. apply S6_ext. intros n N. f_equal. apply basis_sym. }
  unfold act at 1 2. apply S3_ext. intros k K. apply S3_ext. intros l L. now rewrite Q.
Qed.
Print Assumptions C132_elastic.

(* The tensors and von Mises numbers beside them: strain and plastic strain rate are the
   symmetric parts, and every scalar is that of the tensor in the same file. *)
Theorem C132_tensors gas cg66 sg disgrad edotp : let p := plotted gas cg66 sg disgrad edotp in
  (forall i j, p_strain p i j = sym_part disgrad i j /\ p_rate p i j = sym_part edotp i j /\ p_stress p i j = sg i j)
  /\ p_vm_strain p = mises (2 / 3) (p_strain p) /\ p_vm_strain p = mises (2 / 3) (sym_part disgrad)
  /\ p_vm_rate p = mises (2 / 3) (p_rate p) /\ p_vm_elastic p = mises (2 / 3) (p_elastic p)
  /\ (symmetric sg -> p_vm_stress p = mises (3 / 2) (p_stress p)).
Proof.
  intros p. unfold p. cbn [plotted p_strain p_rate p_stress p_elastic p_vm_strain p_vm_rate p_vm_elastic p_vm_stress].
  assert (V : forall t, vm_field_1 (symmetrize t) = mises (2 / 3) (symmetrize t)).
  { intros t. unfold vm_field_1. rewrite C115_strain. apply mises_ext. intros i j _ _. unfold sym_part, symmetrize. field. }
  repeat split; intros.
  - unfold symmetrize, sym_part. field.
  - unfold symmetrize, sym_part. field.
  - apply V.
  - rewrite V. apply mises_ext. intros i j _ _. unfold sym_part, symmetrize. field.
  - apply V.
  - apply V.
  - unfold vm_field_0. apply C115_stress; [| assumption]. intros i j I J. unfold idx in I, J.
    destruct i as [|[|[|[|i]]]]; try lia; destruct j as [|[|[|[|j]]]]; try lia; reflexivity.
Qed.
Print Assumptions C132_tensors.

(* At a gas point the elastic strain is marked by -100 in every component; the von Mises
   number made of these marks is 200, which a reader cannot tell from a strain. *)
Theorem C132_gas_refuted cg66 sg disgrad edotp : let p := plotted true cg66 sg disgrad edotp in
  (forall i j, p_elastic p i j = -100) /\ p_vm_elastic p = 200.
Proof.
  intros p. unfold p. cbn [plotted p_elastic p_vm_elastic]. split; [intros i j; unfold symmetrize, calculate_eel; lra |].
  unfold vm_field_1. rewrite C115_strain. unfold mises.
  replace (2 / 3 * _) with (200 * 200); [apply sqrt_square; lra |].
  unfold ddot, deviator, trace, S3, sym_part, symmetrize, calculate_eel, d. cbn [Nat.eqb]. field.
Qed.
Print Assumptions C132_gas_refuted.

(* ---------- inverse pole figure colours ---------- *)

(* What is coloured, for any three numbers taken as angles in radians. *)
Lemma dout_angles ph th tm : dout_of (ph, th, tm) 0%nat = Rabs (sin th * sin tm) /\ dout_of (ph, th, tm) 1%nat = Rabs (sin th * cos tm) /\ dout_of (ph, th, tm) 2%nat = Rabs (cos th).
Proof.
  unfold dout_of, invqrvec. cbn [sumn hkl Nat.eqb other fold_left seq negb andb].
  change (kl 0 2) with (-1)%Z. change (kl 1 2) with 1%Z. unfold quat. cbn beta iota zeta.
  set (a := 1 / 2 * th). set (u := 1 / 2 * (ph - tm)). set (v := 1 / 2 * (ph + tm)).
  assert (Et : th = 2 * a) by (unfold a; field). assert (Em : tm = v - u) by (unfold u, v; field).
  rewrite Et, Em. rewrite sin_2a, cos_2a, sin_minus, cos_minus.
  pose proof (sin2_cos2 a) as Ha. pose proof (sin2_cos2 u) as Hu. pose proof (sin2_cos2 v) as Hv. unfold Rsqr in Ha, Hu, Hv.
  repeat split; f_equal; try ring.
  replace (cos a * cos v * (cos a * cos v) - sin a * cos u * (sin a * cos u) - sin a * sin u * (sin a * sin u) - cos a * sin v * (cos a * sin v))
    with (cos a * cos a * (cos v * cos v - sin v * sin v) - sin a * sin a * (sin u * sin u + cos u * cos u)) by ring.
  rewrite Hu. replace (cos v * cos v) with (1 - sin v * sin v) by lra. ring.
Qed.
(* The numbers [euler] returns in degrees are used as if they were radians. *)
Theorem C132_direction ag ph th tm : euler_1 ag = (ph, th, tm) ->
  ipf_direction ag 0%nat = Rabs (sin th * sin tm) /\ ipf_direction ag 1%nat = Rabs (sin th * cos tm) /\ ipf_direction ag 2%nat = Rabs (cos th).
Proof. intros E. unfold ipf_direction. rewrite E. apply dout_angles. Qed.
Print Assumptions C132_direction.

(* Any direction is turned by the inverse of the rotation of the quaternion: the same as the
   formula with the vector product, and the length stays. *)
Theorem C132_turns (q v : nat -> R) : let w := q 3%nat in let n := q 0%nat * q 0%nat + q 1%nat * q 1%nat + q 2%nat * q 2%nat in
  let along := q 0%nat * v 0%nat + q 1%nat * v 1%nat + q 2%nat * v 2%nat in
  let turned := invqrvec q v in
  turned 0%nat = (w * w - n) * v 0%nat + 2 * along * q 0%nat + 2 * w * (v 1%nat * q 2%nat - v 2%nat * q 1%nat)
  /\ turned 1%nat = (w * w - n) * v 1%nat + 2 * along * q 1%nat + 2 * w * (v 2%nat * q 0%nat - v 0%nat * q 2%nat)
  /\ turned 2%nat = (w * w - n) * v 2%nat + 2 * along * q 2%nat + 2 * w * (v 0%nat * q 1%nat - v 1%nat * q 0%nat)
  /\ turned 0%nat * turned 0%nat + turned 1%nat * turned 1%nat + turned 2%nat * turned 2%nat
     = (w * w + n) * (w * w + n) * (v 0%nat * v 0%nat + v 1%nat * v 1%nat + v 2%nat * v 2%nat).
Proof.
  intros w n along turned. unfold turned, along, n, w, invqrvec. cbn [sumn Nat.eqb other kl fold_left seq negb andb Z.of_nat Pos.of_succ_nat Pos.succ Z.sub Z.add Z.opp Z.pos_sub Z.eqb Pos.eqb Pos.pred_double Z.succ_double Z.pred_double Z.double].
  repeat split; ring.
Qed.
Print Assumptions C132_turns.

(* With radians, and with the matrix turned over as in the texture file, the third sample
   direction in the axes of the crystal would be coloured. *)
Theorem C132_direction_repaired ag ph th tm : rotation (transposed ag) -> Rabs (ag 3%nat 3%nat) < 9999 / 10000 \/ Rabs (ag 3%nat 3%nat) = 1 ->
  euler_1 (transposed ag) = (ph, th, tm) -> forall i, (i < 3)%nat -> dout_of (ph * PI / 180, th * PI / 180, tm * PI / 180) i = Rabs (ag 3%nat (S i)).
Proof.
  intros Rt P E i Hi. pose proof (euler_round (transposed ag) ph th tm Rt P E) as Q.
  destruct (dout_angles (ph * PI / 180) (th * PI / 180) (tm * PI / 180)) as (D0 & D1 & D2).
  assert (I3 : idx 3 3) by (unfold idx; lia).
  destruct i as [|[|[|]]]; try lia.
  - rewrite D0. change (ag 3%nat 1%nat) with (transposed ag 1%nat 3%nat). rewrite <- (Q 1%nat 3%nat ltac:(unfold idx; lia) I3). reflexivity.
  - rewrite D1. change (ag 3%nat 2%nat) with (transposed ag 2%nat 3%nat). rewrite <- (Q 2%nat 3%nat ltac:(unfold idx; lia) I3). cbn [euler_2]. f_equal. ring.
  - rewrite D2. change (ag 3%nat 3%nat) with (transposed ag 3%nat 3%nat). rewrite <- (Q 3%nat 3%nat I3 I3). reflexivity.
Qed.
Print Assumptions C132_direction_repaired.

(* A crystal tilted by pi/2 degrees, less than two, has its third axis almost along the
   third sample direction; it is coloured as if this were in its basal plane. *)
Theorem C132_direction_refuted : let ag := grain_orientation 0 (PI / 2) 0 in
  rotation ag /\ 99 / 100 < ag 3%nat 3%nat /\ ipf_direction ag 2%nat = 0.
Proof.
  intros ag. pose proof PI_RGT_0 as P0. pose proof PI_4 as P4. pose proof PI2_3_2 as P3.
  assert (A33 : ag 3%nat 3%nat = cos (PI / 2 * PI / 180)) by reflexivity.
  assert (B : 0 <= PI / 2 * PI / 180 <= 1 / 20) by (assert (0 <= PI * PI <= 16) by nra; lra).
  split; [apply grain_rotation |]. split.
  - rewrite A33. set (x := PI / 2 * PI / 180) in *.
    replace (cos x) with (1 - 2 * (sin (x / 2) * sin (x / 2))).
    2:{ replace (cos x) with (cos (2 * (x / 2))) by (f_equal; field). rewrite cos_2a_sin. unfold Rsqr. ring. }
    assert (0 <= sin (x / 2)) by (apply sin_ge_0; lra).
    assert (sin (x / 2) <= x / 2). { destruct (Req_dec (x / 2) 0) as [->|]; [rewrite sin_0; lra | apply Rlt_le, sin_lt_x; lra]. }
    nra.
  - destruct (euler_1 ag) as [[ph th] tm] eqn:E. rewrite (proj2 (proj2 (C132_direction _ _ _ _ E))).
    assert (T : th = PI / 2).
    { unfold euler_1 in E. cbv zeta in E. rewrite A33 in E. destruct (if Rle_dec _ _ then _ else _) as [a b]. injection E as _ E _.
      rewrite <- E. rewrite acos_cos by lra. field. lra. }
    rewrite T, cos_PI2. apply Rabs_R0.
Qed.
Print Assumptions C132_direction_refuted.

(* The colours are always three bytes, one of them 255. *)
Lemma extremes_spec (f : nat -> R) : (forall i, (i < 3)%nat -> 0 <= f i <= 1) ->
  let '(t, b) := extremes f in let m := middle_of t b in (t < 3)%nat /\ 0 <= f b /\ f b <= f m /\ f m <= f t.
Proof.
  intros H. pose proof (H 0%nat ltac:(lia)). pose proof (H 1%nat ltac:(lia)). pose proof (H 2%nat ltac:(lia)).
  unfold extremes. cbn [seq fold_left].
  repeat (match goal with |- context [Rlt_dec ?a ?b] => destruct (Rlt_dec a b) end; cbn beta iota zeta).
  all: cbn; repeat split; first [lia | lra].
Qed.
Lemma rgb_range (f : nat -> R) : (forall i, (i < 3)%nat -> 0 <= f i <= 1) ->
  let '(r, g, b) := rgb f in 0 <= r <= 1 /\ 0 <= g <= 1 /\ 0 <= b <= 1 /\ (r = 1 \/ g = 1 \/ b = 1).
Proof.
  intros H. pose proof (extremes_spec f H) as X. unfold rgb. destruct (extremes f) as [t b]. cbv zeta in X. destruct X as (Ht & X0 & X1 & X2).
  pose proof PI_RGT_0 as P0.
  set (m := middle_of t b) in *. set (dtop := if Rlt_dec 1 (f t) then 1 else f t). set (phi := Rmin (PI / 4) (acos dtop)). set (thett := atan2 (f b) (f m)).
  assert (Hphi : 0 <= phi <= PI / 4).
  { unfold phi. pose proof (acos_bound dtop). split; [apply Rmin_glb; lra | apply Rmin_l]. }
  assert (Hth : 0 <= thett <= PI / 4).
  { unfold thett, atan2. destruct (Rlt_dec 0 (f m)) as [M|M].
    - assert (Q : 0 <= f b / f m <= 1).
      { split; [apply Rmult_le_pos; [exact X0 | apply Rlt_le, Rinv_0_lt_compat, M] |]. apply (Rmult_le_reg_r (f m)); [exact M |]. unfold Rdiv. rewrite Rmult_assoc, Rinv_l by lra. lra. }
      split.
      + destruct (proj1 Q) as [q|q]; [rewrite <- atan_0; apply Rlt_le, atan_increasing, q | rewrite <- q, atan_0; lra].
      + destruct (proj2 Q) as [q|q]; [rewrite <- atan_1; apply Rlt_le, atan_increasing, q | rewrite q, atan_1; lra].
    - destruct (Rlt_dec (f m) 0); [lra |]. destruct (Rlt_dec 0 (f b)); [lra |]. destruct (Rlt_dec (f b) 0); lra. }
  set (s := sin (16 / 10 * phi)).
  assert (Hs : 0 <= s < 1).
  { unfold s. split; [apply sin_ge_0; lra |]. rewrite <- sin_PI2. apply sin_increasing_1; lra. }
  assert (Hc : 0 <= cos (2 * thett) <= 1) by (split; [apply cos_ge_0; lra | apply COS_bound]).
  assert (Hn : 0 <= sin (2 * thett) <= 1) by (split; [apply sin_ge_0; lra | apply SIN_bound]).
  set (r := 1 - s). set (g := (1 - r) * cos (2 * thett)). set (bl := (1 - r) * sin (2 * thett)).
  assert (Hr : 0 < r) by (unfold r; lra). assert (Hg : 0 <= g) by (unfold g, r; apply Rmult_le_pos; lra). assert (Hb : 0 <= bl) by (unfold bl, r; apply Rmult_le_pos; lra).
  set (mx := Rmax r (Rmax g bl)).
  assert (M1 : r <= mx) by apply Rmax_l. assert (M2 : g <= mx) by (eapply Rle_trans; [apply Rmax_l | apply Rmax_r]).
  assert (M3 : bl <= mx) by (eapply Rle_trans; [apply (Rmax_r g) | apply Rmax_r]). assert (M0 : 0 < mx) by lra.
  assert (D : forall x, 0 <= x <= mx -> 0 <= x * (1 / mx) <= 1).
  { intros x Hx. assert (0 < / mx) by (apply Rinv_0_lt_compat, M0). unfold Rdiv. rewrite Rmult_1_l. split; [apply Rmult_le_pos; lra |].
    rewrite <- (Rinv_r mx) by lra. apply Rmult_le_compat_r; lra. }
  repeat (split; [apply D; lra |]).
  assert (O : mx * (1 / mx) = 1) by (field; lra).
  assert (C : mx = r \/ mx = g \/ mx = bl). { unfold mx, Rmax. destruct (Rle_dec g bl); destruct (Rle_dec r _); auto. }
  destruct C as [C|[C|C]]; [left | right; left | right; right]; rewrite <- C at 1; exact O.
Qed.
Lemma to_unsigned_range x : 0 <= x <= 255 -> exists n, to_unsigned x = Some n /\ (n <= 255)%nat /\ INR n <= x < INR n + 1.
Proof.
  intros Hx. unfold to_unsigned. destruct (Rlt_dec (-1) x); [| lra].
  destruct (Rlt_dec x (IZR (2 ^ 32))) as [_|N]; [| exfalso; apply N; apply (Rle_lt_trans _ 255); [lra | apply IZR_lt; reflexivity]].
  destruct (Rlt_dec x 0); [lra |]. exists (Z.to_nat (Int_part x)). split; [reflexivity |].
  pose proof (base_Int_part x) as [B1 B2].
  assert (Z0 : (0 <= Int_part x)%Z). { apply Z.lt_succ_r. apply lt_IZR. rewrite succ_IZR. lra. }
  assert (Z1 : (Int_part x <= 255)%Z). { apply le_IZR. lra. }
  split; [apply Nat2Z.inj_le; rewrite Z2Nat.id by exact Z0; exact Z1 |]. rewrite INR_IZR_INZ, Z2Nat.id by exact Z0. lra.
Qed.
Lemma to_unsigned_top : to_unsigned (255 * 1) = Some 255%nat.
Proof.
  destruct (to_unsigned_range (255 * 1) ltac:(lra)) as (n & -> & L & B1 & B2). f_equal.
  assert (255 <= n)%nat; [| lia]. apply Nat2Z.inj_le. apply Z.lt_succ_r. apply lt_IZR. rewrite succ_IZR. change (Z.of_nat 255) with 255%Z. rewrite <- INR_IZR_INZ. lra.
Qed.
Theorem C132_colours ag : exists r g b,
  calc_IPF_colors ag 1 = Some r /\ calc_IPF_colors ag 2 = Some g /\ calc_IPF_colors ag 3 = Some b
  /\ (r <= 255 /\ g <= 255 /\ b <= 255)%nat /\ (r = 255 \/ g = 255 \/ b = 255)%nat.
Proof.
  assert (H : forall i, (i < 3)%nat -> 0 <= ipf_direction ag i <= 1).
  { intros i Hi. destruct (euler_1 ag) as [[ph th] tm] eqn:E. destruct (C132_direction _ _ _ _ E) as (D0 & D1 & D2).
    assert (B : forall x y, Rabs x <= 1 -> Rabs y <= 1 -> 0 <= Rabs (x * y) <= 1).
    { intros x y Hx Hy. split; [apply Rabs_pos |]. rewrite Rabs_mult. pose proof (Rabs_pos x). pose proof (Rabs_pos y). nra. }
    assert (Bs : forall x, Rabs (sin x) <= 1) by (intros x; apply Rabs_le, SIN_bound). assert (Bc : forall x, Rabs (cos x) <= 1) by (intros x; apply Rabs_le, COS_bound).
    destruct i as [|[|[|]]]; try lia; [rewrite D0; auto | rewrite D1; auto | rewrite D2; split; [apply Rabs_pos | apply Bc]]. }
  pose proof (rgb_range _ H) as X. unfold calc_IPF_colors, ipf_color. destruct (rgb (ipf_direction ag)) as [[r g] b]. destruct X as (Hr & Hg & Hb & O).
  destruct (to_unsigned_range (255 * r) ltac:(lra)) as (nr & Er & Lr & _). destruct (to_unsigned_range (255 * g) ltac:(lra)) as (ng & Eg & Lg & _).
  destruct (to_unsigned_range (255 * b) ltac:(lra)) as (nb & Eb & Lb & _).
  exists nr, ng, nb. repeat split; try assumption.
  destruct O as [-> | [-> | ->]]; [rewrite to_unsigned_top in Er; injection Er as <-; auto | rewrite to_unsigned_top in Eg; injection Eg as <-; auto | rewrite to_unsigned_top in Eb; injection Eb as <-; auto].
Qed.
Print Assumptions C132_colours.

(* The colour of a crystal whose third axis is exactly the third sample direction. *)
Theorem C132_colour_001 ag : ag 3%nat 3%nat = 1 ->
  calc_IPF_colors ag 1 = Some 255%nat /\ calc_IPF_colors ag 2 = Some 0%nat /\ calc_IPF_colors ag 3 = Some 0%nat.
Proof.
  intros A. destruct (euler_1 ag) as [[ph th] tm] eqn:E. destruct (C132_direction _ _ _ _ E) as (D0 & D1 & D2).
  assert (T : th = 0). { unfold euler_1 in E. cbv zeta in E. destruct (if Rle_dec _ _ then _ else _) as [a b]. injection E as _ E _. rewrite <- E, A, acos_1. field. apply PI_neq0. }
  rewrite T, sin_0, Rmult_0_l, Rabs_R0 in D0, D1. rewrite T, cos_0, Rabs_R1 in D2.
  assert (X : rgb (ipf_direction ag) = (1, 0, 0)).
  { unfold rgb, extremes. cbn [seq fold_left]. rewrite D0, D1, D2.
    repeat (match goal with |- context [Rlt_dec ?a ?b] => destruct (Rlt_dec a b); [try lra | try lra] end; cbn beta iota zeta).
    all: cbn [middle_of fold_left seq Nat.eqb negb andb]; rewrite ?D0, ?D1, ?D2; try lra.
    all: repeat (match goal with |- context [Rlt_dec ?a ?b] => destruct (Rlt_dec a b); [try lra | try lra] end; cbn beta iota zeta).
    all: rewrite ?acos_1; replace (Rmin (PI / 4) 0) with 0 by (symmetry; apply Rmin_right; pose proof PI_RGT_0; lra);
      rewrite Rmult_0_r, sin_0; replace (1 - (1 - 0)) with 0 by ring; rewrite !Rmult_0_l; replace (1 - 0) with 1 by ring;
      rewrite (Rmax_left 0 0) by lra; rewrite (Rmax_left 1 0) by lra; replace (1 * (1 / 1)) with 1 by field; rewrite ?Rmult_0_l; reflexivity. }
  unfold calc_IPF_colors, ipf_color. rewrite X.
  assert (Z0 : to_unsigned (255 * 0) = Some 0%nat).
  { destruct (to_unsigned_range (255 * 0) ltac:(lra)) as (n & -> & L & B1 & B2). f_equal. destruct n; [reflexivity |]. rewrite S_INR in B1. pose proof (pos_INR n). lra. }
  split; [apply to_unsigned_top |]. split; exact Z0.
Qed.
Print Assumptions C132_colour_001.

(* Cubic symmetry: the colours do not depend on the order of the three components. *)
Ltac rle := repeat match goal with |- context [Rle_dec ?a ?b] =>
  lazymatch a with context [Rle_dec _ _] => fail | _ => lazymatch b with context [Rle_dec _ _] => fail | _ => destruct (Rle_dec a b) end end end.
Definition arranged (f : nat -> R) (p q r : nat) : nat -> R := fun i => match i with O => f p | S O => f q | _ => f r end.
Lemma extremes_values (f : nat -> R) : (forall i, (i < 3)%nat -> 0 <= f i <= 1) ->
  let '(t, b) := extremes f in f t = Rmax (f 0%nat) (Rmax (f 1%nat) (f 2%nat)) /\ f b = Rmin (f 0%nat) (Rmin (f 1%nat) (f 2%nat))
  /\ f t + f b + f (middle_of t b) = f 0%nat + f 1%nat + f 2%nat.
Proof.
  intros H. pose proof (H 0%nat ltac:(lia)). pose proof (H 1%nat ltac:(lia)). pose proof (H 2%nat ltac:(lia)).
  unfold extremes. cbn [seq fold_left]. unfold Rmax, Rmin.
  repeat (match goal with |- context [Rlt_dec ?a ?b] => destruct (Rlt_dec a b) end; cbn beta iota zeta; try lra).
  all: cbn [middle_of fold_left seq Nat.eqb negb andb]; repeat split.
  all: rle; try lra.
Qed.
Theorem C132_cubic f p q r c : (forall i, (i < 3)%nat -> 0 <= f i <= 1) -> Permutation [p; q; r] [0; 1; 2]%nat ->
  ipf_color (arranged f p q r) c = ipf_color f c.
Proof.
  intros H P.
  assert (I : forall x, In x [p; q; r] -> (x < 3)%nat). { intros x X. apply (Permutation_in _ P) in X. cbn in X. lia. }
  assert (D : NoDup [p; q; r]). { apply (Permutation_NoDup (Permutation_sym P)). repeat constructor; cbn; lia. }
  assert (Hp : (p < 3)%nat) by (apply I; cbn; auto). assert (Hq : (q < 3)%nat) by (apply I; cbn; auto). assert (Hr : (r < 3)%nat) by (apply I; cbn; auto).
  assert (N : p <> q /\ p <> r /\ q <> r). { inversion D as [|? ? A B]; subst. inversion B as [|? ? C E]; subst. cbn in A, C. repeat split; intros ->; tauto. }
  assert (H' : forall i, (i < 3)%nat -> 0 <= arranged f p q r i <= 1) by (intros i Hi; destruct i as [|[|i]]; cbn [arranged]; apply H; assumption).
  pose proof (extremes_values _ H) as V. pose proof (extremes_values _ H') as V'. unfold ipf_color, rgb.
  destruct (extremes f) as [t b]. destruct (extremes (arranged f p q r)) as [t' b']. destruct V as (V1 & V2 & V3). destruct V' as (W1 & W2 & W3). cbn [arranged] in W1, W2, W3.
  assert (E : arranged f p q r t' = f t /\ arranged f p q r b' = f b).
  { rewrite V1, V2, W1, W2. unfold Rmax, Rmin. destruct N as (N1 & N2 & N3).
    destruct p as [|[|[|p]]]; try lia; destruct q as [|[|[|q]]]; try lia; destruct r as [|[|[|r]]]; try lia;
    split; rle; lra. }
  destruct E as [E1 E2].
  assert (E3 : arranged f p q r (middle_of t' b') = f (middle_of t b)).
  { assert (S3' : f p + f q + f r = f 0%nat + f 1%nat + f 2%nat).
    { destruct N as (N1 & N2 & N3). destruct p as [|[|[|p]]]; try lia; destruct q as [|[|[|q]]]; try lia; destruct r as [|[|[|r]]]; try lia; ring. }
    lra. }
  rewrite E1, E2, E3. reflexivity.
Qed.
Print Assumptions C132_cubic.

(* The corners of the triangle: [001] is red, [011] green and [111] blue. *)
Lemma atan2_diag x : 0 < x -> atan2 x x = PI / 4.
Proof. intros X. unfold atan2. destruct (Rlt_dec 0 x); [| lra]. unfold Rdiv. rewrite Rinv_r by lra. apply atan_1. Qed.
Lemma atan2_0 x : 0 < x -> atan2 0 x = 0.
Proof. intros X. unfold atan2. destruct (Rlt_dec 0 x); [| lra]. unfold Rdiv. rewrite Rmult_0_l. apply atan_0. Qed.
Lemma capped x : 0 <= x -> x * x <= 1 / 2 -> Rmin (PI / 4) (acos x) = PI / 4.
Proof.
  intros X0 X. pose proof PI_RGT_0 as P0. apply Rmin_left. destruct (Rle_dec (PI / 4) (acos x)) as [|N]; [assumption |]. exfalso.
  pose proof (acos_bound x) as B. assert (x <= 1) by nra.
  pose proof (cos_decreasing_1 (acos x) (PI / 4) ltac:(lra) ltac:(lra) ltac:(lra) ltac:(lra) ltac:(lra)) as C. rewrite cos_acos in C by lra.
  assert (S2 : cos (PI / 4) * cos (PI / 4) = 1 / 2).
  { rewrite cos_PI4. replace (1 / sqrt 2 * (1 / sqrt 2)) with (/ (sqrt 2 * sqrt 2)) by (field; apply sqrt2_neq_0). rewrite sqrt_sqrt by lra. lra. }
  assert (0 < cos (PI / 4)) by (apply cos_gt_0; lra). nra.
Qed.
Lemma to_unsigned_0 : to_unsigned (255 * 0) = Some 0%nat.
Proof.
  destruct (to_unsigned_range (255 * 0) ltac:(lra)) as (n & -> & L & B1 & B2). f_equal. destruct n; [reflexivity |]. rewrite S_INR in B1. pose proof (pos_INR n). lra.
Qed.
Lemma most : / 2 < sin (16 / 10 * (PI / 4)) <= 1.
Proof.
  pose proof PI_RGT_0 as P0. split; [| apply SIN_bound]. replace (/ 2) with (1 / 2) by lra. rewrite <- sin_PI6. apply sin_increasing_1; lra.
Qed.
Theorem C132_corners x y : 0 < x -> x * x + x * x = 1 -> 0 < y -> y * y + y * y + y * y = 1 ->
  let c001 := arranged (fun i => INR i) 0 0 1 in
  let c011 := fun i => match i with O => 0 | _ => x end in
  let c111 := fun _ => y in
  (ipf_color c001 1 = Some 255 /\ ipf_color c001 2 = Some 0 /\ ipf_color c001 3 = Some 0)%nat
  /\ (ipf_color c011 2 = Some 255 /\ ipf_color c011 3 = Some 0)%nat
  /\ (ipf_color c111 3 = Some 255 /\ ipf_color c111 2 = Some 0)%nat.
Proof.
  intros X0 X1 Y0 Y1 c001 c011 c111. pose proof PI_RGT_0 as P0. pose proof most as M.
  assert (G : forall (f : nat -> R) lo mid hi, (forall i, (i < 3)%nat -> 0 <= f i <= 1) -> Rmax (f 0%nat) (Rmax (f 1%nat) (f 2%nat)) = hi -> Rmin (f 0%nat) (Rmin (f 1%nat) (f 2%nat)) = lo ->
     f 0%nat + f 1%nat + f 2%nat = lo + mid + hi -> hi <= 1 ->
     rgb f = let phi := Rmin (PI / 4) (acos hi) in let th := atan2 lo mid in let s := sin (16 / 10 * phi) in
             let red := 1 - s in let green := s * cos (2 * th) in let blue := s * sin (2 * th) in let k := 1 / Rmax red (Rmax green blue) in (red * k, green * k, blue * k)).
  { intros f lo mid hi H Hh Hl Hm H1. pose proof (extremes_values f H) as V. unfold rgb. destruct (extremes f) as [t b]. destruct V as (V1 & V2 & V3).
    assert (V4 : f (middle_of t b) = mid) by lra. rewrite V4, V1, V2, Hh, Hl. destruct (Rlt_dec 1 hi); [lra |]. cbv zeta.
    replace (1 - (1 - sin (16 / 10 * Rmin (PI / 4) (acos hi)))) with (sin (16 / 10 * Rmin (PI / 4) (acos hi))) by ring. reflexivity. }
  split; [| split].
  - assert (E : rgb c001 = (1, 0, 0)).
    { rewrite (G c001 0 0 1).
      - cbv zeta. rewrite acos_1, Rmin_right by lra. rewrite Rmult_0_r, sin_0, !Rmult_0_l. replace (1 - 0) with 1 by ring. rewrite (Rmax_left 0 0) by lra. rewrite (Rmax_left 1 0) by lra.
        replace (1 * (1 / 1)) with 1 by field. reflexivity.
      - intros i Hi. destruct i as [|[|[|]]]; cbn; lra || lia.
      - cbn. unfold Rmax. rle; lra.
      - cbn. unfold Rmin. rle; lra.
      - cbn. ring.
      - lra. }
    unfold ipf_color. rewrite E. split; [apply to_unsigned_top |]. split; apply to_unsigned_0.
  - assert (x < 1) by nra. set (s := sin (16 / 10 * (PI / 4))) in *.
    assert (E : rgb c011 = ((1 - s) * (1 / s), 1, 0)).
    { rewrite (G c011 0 x x).
      - cbv zeta. rewrite capped by lra. fold s. rewrite atan2_0 by lra. rewrite Rmult_0_r, sin_0, cos_0, Rmult_0_r, Rmult_1_r. rewrite (Rmax_left s 0) by lra. rewrite (Rmax_right (1 - s) s) by lra.
        replace (s * (1 / s)) with 1 by (field; lra). rewrite Rmult_0_l. reflexivity.
      - intros i Hi. destruct i as [|[|[|]]]; cbn; lra || lia.
      - cbn. unfold Rmax. rle; lra.
      - cbn. unfold Rmin. rle; lra.
      - cbn. ring.
      - lra. }
    unfold ipf_color. rewrite E. split; [apply to_unsigned_top | apply to_unsigned_0].
  - assert (y < 1) by nra. set (s := sin (16 / 10 * (PI / 4))) in *.
    assert (E : rgb c111 = ((1 - s) * (1 / s), 0, 1)).
    { rewrite (G c111 y y y).
      - cbv zeta. rewrite capped by nra. fold s. rewrite atan2_diag by lra. replace (2 * (PI / 4)) with (PI / 2) by field. rewrite sin_PI2, cos_PI2, Rmult_0_r, Rmult_1_r. rewrite (Rmax_right 0 s) by lra. rewrite (Rmax_right (1 - s) s) by lra.
        replace (s * (1 / s)) with 1 by (field; lra). rewrite Rmult_0_l. reflexivity.
      - intros i Hi. unfold c111. lra.
      - unfold c111. unfold Rmax. rle; lra.
      - unfold c111. unfold Rmin. rle; lra.
      - unfold c111. ring.
      - lra. }
    unfold ipf_color. rewrite E. split; [apply to_unsigned_top | apply to_unsigned_0].
Qed.
Print Assumptions C132_corners.

(* In the large strain solvers the matrix whose angles are taken has one term of each sum
   only: it is never a rotation. *)
Theorem C132_large_strain_refuted ag Rm : ~ rotation (ls_aa ag Rm).
Proof.
  intros [_ D]. unfold ls_aa in D. cbn [fold_left seq] in D. unfold det3 in D.
  match type of D with ?x = 1 => replace x with 0 in D by ring end. lra.
Qed.
Print Assumptions C132_large_strain_refuted.

(* A stressed isotropic point and a crystal along the axes meet the hypotheses. *)
Example C132_met : pos6 d /\ symmetric (fun i j => INR (i + j)) /\ 0 < mises (3 / 2) (fun i j => INR (i + j)) /\ d 3%nat 3%nat = 1 /\ rotation (transposed d) /\ Rabs (d 3%nat 3%nat) = 1.
Proof.
  assert (Rd : rotation (transposed d)).
  { split; [| unfold det3, transposed, d; cbn [Nat.eqb]; ring]. intros i j I J. unfold idx in I, J.
    destruct i as [|[|[|[|i]]]]; try lia; destruct j as [|[|[|[|j]]]]; try lia; unfold S3, transposed, d; cbn [Nat.eqb]; ring. }
  split; [exact pos6_d |]. split; [intros i j _ _; f_equal; lia |]. split; [| split; [reflexivity | split; [exact Rd | unfold d; cbn [Nat.eqb]; apply Rabs_R1]]].
  unfold mises. apply sqrt_lt_R0. unfold ddot, deviator, trace, S3, d. cbn [Nat.eqb Nat.add INR]. lra.
Qed.
