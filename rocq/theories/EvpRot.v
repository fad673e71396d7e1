(* Orientations. *)
From Coq Require Import Reals List Arith Lia Lra.
From Verif Require Import BaseReal LinModel EvpModel EvpSpec EvpBasis EvpElast.
Import ListNotations.
Local Open Scope R_scope.

Lemma sc x : sin x * sin x + cos x * cos x = 1.
Proof. pose proof (sin2_cos2 x) as H. unfold Rsqr in H. exact H. Qed.
Lemma cc_ss x : cos x * cos x = 1 - sin x * sin x.
Proof. pose proof (sc x). lra. Qed.

Lemma euler_identity (a b c e f g : R) : b * b = 1 - a * a -> e * e = 1 - c * c -> g * g = 1 - f * f ->
  (* sph cph sth cth stm ctm *)
  rotation (fun i j => match i, j with
  | 1, 1 => (g * b - a * f * e)%R | 2, 1 => (- f * b - a * g * e)%R | 3, 1 => (a * c)%R
  | 1, 2 => (g * a + b * f * e)%R | 2, 2 => (- a * f + b * g * e)%R | 3, 2 => (- c * b)%R
  | 1, 3 => (c * f)%R | 2, 3 => (g * c)%R | 3, 3 => e | _, _ => 0%R end%nat).
Proof.
  intros B E G. split.
  - intros i j I J. all3 I; all3 J; unfold S3, d; cbn [Nat.eqb]; ring_simplify; rewrite ?Rmult_assoc;
    repeat (progress (ring_simplify; replace (b ^ 2) with (1 - a * a) by (rewrite <- B; ring); replace (e ^ 2) with (1 - c * c) by (rewrite <- E; ring); replace (g ^ 2) with (1 - f * f) by (rewrite <- G; ring))); try ring.
  - unfold det3. cbn.
    transitivity ((a * a + b * b) * (c * c + e * e) * (f * f + g * g)); [ring_simplify|rewrite B, E, G; ring].
    replace (e ^ 3) with (e * (1 - c * c)) by (rewrite <- E; ring). ring.
Qed.

Lemma euler_rotation ph th tm : rotation (euler_2 ph th tm).
Proof. apply (euler_identity (sin ph) (cos ph) (sin th) (cos th) (sin tm) (cos tm)); apply cc_ss. Qed.

Lemma grain_rotation ph th om : rotation (grain_orientation ph th om).
Proof. apply (rotation_transposed (euler_2 (ph * PI / 180) (th * PI / 180) (om * PI / 180))). apply euler_rotation. Qed.

Lemma rotation_ext A B : (forall i j, idx 3 i -> idx 3 j -> A i j = B i j) -> rotation A -> rotation B.
Proof.
  intros H [O D]. split.
  - intros i j I J. rewrite <- (O i j I J). apply S3_ext. intros k K. rewrite !H by assumption. reflexivity.
  - rewrite <- D. unfold det3. rewrite !H by (unfold idx; lia). reflexivity.
Qed.

Lemma square0 x y z : x * x + y * y + z * z = 0 -> x = 0 /\ y = 0 /\ z = 0.
Proof. intros H. repeat split; nra. Qed.

(* r1 x r2 = r3 *)
Lemma cross_rows (a b c dd e f g h i : R) :
  a * a + b * b + c * c = 1 -> a * dd + b * e + c * f = 0 -> dd * dd + e * e + f * f = 1 -> g * g + h * h + i * i = 1 ->
  a * (e * i - f * h) - b * (dd * i - f * g) + c * (dd * h - e * g) = 1 ->
  g = b * f - c * e /\ h = c * dd - a * f /\ i = a * e - b * dd.
Proof.
  intros h11 h12 h22 h33 D.
  assert (Z : (b * f - c * e - g) * (b * f - c * e - g) + (c * dd - a * f - h) * (c * dd - a * f - h) + (a * e - b * dd - i) * (a * e - b * dd - i) = 0).
  { transitivity ((a * a + b * b + c * c) * (dd * dd + e * e + f * f) - (a * dd + b * e + c * f) * (a * dd + b * e + c * f)
      - 2 * (a * (e * i - f * h) - b * (dd * i - f * g) + c * (dd * h - e * g)) + (g * g + h * h + i * i)); [ring|]. rewrite h11, h12, h22, h33, D. ring. }
  apply square0 in Z. lra.
Qed.

Ltac ix := unfold idx; lia.

Section Cofactors.
Context (A : nat -> nat -> R) (RA : rotation A).
Local Notation a11 := (A 1%nat 1%nat). Local Notation a12 := (A 1%nat 2%nat). Local Notation a13 := (A 1%nat 3%nat).
Local Notation a21 := (A 2%nat 1%nat). Local Notation a22 := (A 2%nat 2%nat). Local Notation a23 := (A 2%nat 3%nat).
Local Notation a31 := (A 3%nat 1%nat). Local Notation a32 := (A 3%nat 2%nat). Local Notation a33 := (A 3%nat 3%nat).

Lemma unit_row i : idx 3 i -> A i 1%nat * A i 1%nat + A i 2%nat * A i 2%nat + A i 3%nat * A i 3%nat = 1.
Proof. intros I. destruct RA as [O _]. pose proof (O i i I I) as H. unfold S3, d in H. rewrite Nat.eqb_refl in H. exact H. Qed.
Lemma unit_col i : idx 3 i -> A 1%nat i * A 1%nat i + A 2%nat i * A 2%nat i + A 3%nat i * A 3%nat i = 1.
Proof. intros I. destruct (rotation_transposed A RA) as [O _]. pose proof (O i i I I) as H. unfold S3, d, transposed in H. rewrite Nat.eqb_refl in H. exact H. Qed.
Lemma orth i j : idx 3 i -> idx 3 j -> i <> j -> A i 1%nat * A j 1%nat + A i 2%nat * A j 2%nat + A i 3%nat * A j 3%nat = 0.
Proof. intros I J N. destruct RA as [O _]. pose proof (O i j I J) as H. unfold S3, d in H. destruct (Nat.eqb_spec i j); [contradiction|exact H]. Qed.

Lemma cof12 : a31 = a12 * a23 - a13 * a22 /\ a32 = a13 * a21 - a11 * a23 /\ a33 = a11 * a22 - a12 * a21.
Proof.
  destruct RA as [_ D]. apply cross_rows; try exact D; [apply (unit_row 1)|apply (orth 1 2)|apply (unit_row 2)|apply (unit_row 3)]; ix.
Qed.
Lemma cof23 : a11 = a22 * a33 - a23 * a32 /\ a12 = a23 * a31 - a21 * a33 /\ a13 = a21 * a32 - a22 * a31.
Proof.
  destruct RA as [_ D]. apply cross_rows; [apply (unit_row 2)|apply (orth 2 3)|apply (unit_row 3)|apply (unit_row 1)|]; try ix. rewrite <- D. unfold det3. ring.
Qed.
Lemma cof31 : a21 = a32 * a13 - a33 * a12 /\ a22 = a33 * a11 - a31 * a13 /\ a23 = a31 * a12 - a32 * a11.
Proof.
  destruct RA as [_ D]. apply cross_rows; [apply (unit_row 3)|apply (orth 3 1)|apply (unit_row 1)|apply (unit_row 2)|]; try ix. rewrite <- D. unfold det3. ring.
Qed.

Lemma rebuild s sp cp st ct : 0 < s -> s * s = 1 - a33 * a33 -> a31 = s * sp -> a32 = - (s * cp) -> a13 = s * st -> a23 = s * ct ->
  a11 = ct * cp - sp * st * a33 /\ a12 = ct * sp + cp * st * a33 /\ a21 = - st * cp - sp * ct * a33 /\ a22 = - sp * st + cp * ct * a33.
Proof.
  intros P Q H31 H32 H13 H23. destruct cof23 as (E11 & E12 & _). destruct cof31 as (E21 & E22 & _).
  assert (K : forall x y, s * s * x = s * s * y -> x = y) by (intros x y K; apply Rmult_eq_reg_l with (s * s); [exact K|nra]).
  rewrite H31, H32, H13, H23 in *. generalize dependent a33. intros z Q E11 E12 E21 E22.
  repeat split; apply K; rewrite Q.
  - transitivity (a11 - z * (z * a11)); [ring|]. replace (z * a11) with (a22 + s * sp * (s * st)) by lra. rewrite E11 at 1. transitivity (s * s * (ct * cp - sp * st * z)); [ring|rewrite Q; ring].
  - transitivity (a12 - z * (z * a12)); [ring|]. replace (z * a12) with (- (s * cp) * (s * st) - a21) by lra. rewrite E12 at 1. transitivity (s * s * (ct * sp + cp * st * z)); [ring|rewrite Q; ring].
  - transitivity (a21 - z * (z * a21)); [ring|]. replace (z * a21) with (s * ct * (s * sp) - a12) by lra. rewrite E21 at 1. transitivity (s * s * (- st * cp - sp * ct * z)); [ring|rewrite Q; ring].
  - transitivity (a22 - z * (z * a22)); [ring|]. replace (z * a22) with (a11 - s * ct * (s * cp)) by lra. rewrite E22 at 1. transitivity (s * s * (- sp * st + cp * ct * z)); [ring|rewrite Q; ring].
Qed.
End Cofactors.

Lemma atan_unit x y : x <> 0 -> x * x + y * y = 1 -> cos (atan (y / x)) = Rabs x /\ sin (atan (y / x)) = y / x * Rabs x.
Proof.
  intros X H. rewrite cos_atan, sin_atan.
  assert (Q : sqrt (1 + Rsqr (y / x)) = / Rabs x).
  { replace (1 + Rsqr (y / x)) with (Rsqr (/ x)); [rewrite sqrt_Rsqr_abs, Rabs_inv; reflexivity|].
    unfold Rsqr. replace 1 with (x * x * (/ x * / x)) at 1 by (field; exact X). unfold Rdiv. transitivity ((x * x + y * y) * (/ x * / x)); [rewrite H; ring|ring]. }
  rewrite Q. unfold Rdiv. rewrite Rinv_inv. split; [ring|reflexivity].
Qed.
Lemma atan2_unit x y : x * x + y * y = 1 -> cos (atan2 y x) = x /\ sin (atan2 y x) = y.
Proof.
  intros H. unfold atan2. destruct (Rlt_dec 0 x) as [P|P].
  - destruct (atan_unit x y ltac:(lra) H) as [-> ->]. rewrite Rabs_right by lra. split; [reflexivity|field; lra].
  - destruct (Rlt_dec x 0) as [N|N].
    + destruct (atan_unit x y ltac:(lra) H) as [C S]. rewrite Rabs_left in C, S by lra.
      destruct (Rle_dec 0 y).
      * rewrite neg_cos, neg_sin, C, S. split; [ring|field; lra].
      * replace (atan (y / x) - PI) with (atan (y / x) + PI - 2 * PI) by ring. rewrite cos_minus, sin_minus, cos_2PI, sin_2PI, neg_cos, neg_sin, C, S. split; [ring|field; lra].
    + assert (x = 0) as -> by lra. destruct (Rlt_dec 0 y) as [Y|Y].
      * rewrite cos_PI2, sin_PI2. split; [reflexivity|nra].
      * destruct (Rlt_dec y 0) as [Y2|Y2]; [|nra]. rewrite cos_neg, sin_neg, cos_PI2, sin_PI2. split; [ring|nra].
Qed.

Lemma deg x : x * 180 / PI * PI / 180 = x.
Proof. field. apply PI_neq0. Qed.

Lemma rotation_33 A : rotation A -> -1 <= A 3%nat 3%nat <= 1.
Proof. intros RA. pose proof (unit_row A RA 3 ltac:(ix)). nra. Qed.

Lemma euler_round A ph th tm : rotation A -> Rabs (A 3%nat 3%nat) < 9999 / 10000 \/ Rabs (A 3%nat 3%nat) = 1 -> euler_1 A = (ph, th, tm) ->
  forall i j, idx 3 i -> idx 3 j -> euler_2 (ph * PI / 180) (th * PI / 180) (tm * PI / 180) i j = A i j.
Proof.
  intros RA B E. pose proof (rotation_33 A RA) as L. unfold euler_1 in E. destruct (Rle_dec (9999 / 10000) (Rabs (A 3%nat 3%nat))) as [P|P].
  - destruct B as [B|B]; [lra|]. injection E as <- <- <-. rewrite !deg. intros i j I J.
    pose proof (unit_row A RA 3 ltac:(ix)) as U3. pose proof (unit_col A RA 3 ltac:(ix)) as C3.
    assert (Z2 : A 3%nat 3%nat * A 3%nat 3%nat = 1) by (pose proof (Rsqr_abs (A 3%nat 3%nat)) as Q; unfold Rsqr in Q; rewrite Q, B; ring).
    assert (A 3%nat 1%nat = 0 /\ A 3%nat 2%nat = 0 /\ A 1%nat 3%nat = 0 /\ A 2%nat 3%nat = 0) as (z1 & z2 & z3 & z4) by (repeat split; nra).
    pose proof (unit_row A RA 1 ltac:(ix)) as U1. rewrite z3 in U1.
    destruct (cof31 A RA) as (E21 & E22 & _). rewrite z1, z2 in *.
    destruct (atan2_unit (A 1%nat 1%nat) (A 1%nat 2%nat) ltac:(lra)) as [CP SP].
    unfold euler_2. rewrite CP, SP, cos_acos by exact L.
    assert (S0 : sin (acos (A 3%nat 3%nat)) = 0). { rewrite sin_acos by exact L. unfold Rsqr. rewrite Z2. replace (1 - 1) with 0 by ring. apply sqrt_0. }
    assert (Z : 0 * 180 / PI * PI / 180 = 0) by apply deg.
    rewrite S0, sin_0, cos_0. all3 I; all3 J; rewrite ?z1, ?z2, ?z3, ?z4; try ring; lra.
  - assert (Q : A 3%nat 3%nat * A 3%nat 3%nat < 1). { pose proof (Rsqr_abs (A 3%nat 3%nat)) as Q. unfold Rsqr in Q. rewrite Q. pose proof (Rabs_pos (A 3%nat 3%nat)). nra. }
    injection E as <- <- <-. rewrite !deg. intros i j I J.
    assert (SA : sin (acos (A 3%nat 3%nat)) = sqrt (1 - A 3%nat 3%nat * A 3%nat 3%nat)) by (rewrite sin_acos by exact L; reflexivity).
    rewrite SA. set (s := sqrt (1 - A 3%nat 3%nat * A 3%nat 3%nat)) in *.
    assert (HS : 0 < s) by (apply sqrt_lt_R0; lra). assert (SS : s * s = 1 - A 3%nat 3%nat * A 3%nat 3%nat) by (apply sqrt_sqrt; lra).
    pose proof (unit_row A RA 3 ltac:(ix)) as U3. pose proof (unit_col A RA 3 ltac:(ix)) as C3.
    assert (N : forall x y, x * x + y * y = s * s -> y / s * (y / s) + x / s * (x / s) = 1).
    { intros x y K. transitivity ((x * x + y * y) / (s * s)); [field; lra|rewrite K; field; lra]. }
    destruct (atan2_unit (A 2%nat 3%nat / s) (A 1%nat 3%nat / s)) as [CT ST]; [apply N; lra|].
    destruct (atan2_unit (- A 3%nat 2%nat / s) (A 3%nat 1%nat / s)) as [CP SP]; [apply (N (A 3%nat 1%nat) (- A 3%nat 2%nat)); lra|].
    destruct (rebuild A RA s (A 3%nat 1%nat / s) (- A 3%nat 2%nat / s) (A 1%nat 3%nat / s) (A 2%nat 3%nat / s) HS SS) as (R11 & R12 & R21 & R22); try (field; lra).
    unfold euler_2. rewrite CT, ST, CP, SP, cos_acos, SA by exact L.
    all3 I; all3 J; try (symmetry; assumption); try reflexivity; field; lra.
Qed.

(* ---------- reorientation ---------- *)

Lemma cayley_rotation (a b c q : R) : q * (1 + (a * a + b * b + c * c)) = 2 ->
  rotation (fun i j => match i, j with
  | 1, 1 => (1 + q * (- (b * b) - c * c))%R | 1, 2 => (q * (- c + a * b))%R | 1, 3 => (q * (b + a * c))%R
  | 2, 1 => (q * (c + a * b))%R | 2, 2 => (1 + q * (- (a * a) - c * c))%R | 2, 3 => (q * (- a + b * c))%R
  | 3, 1 => (q * (- b + a * c))%R | 3, 2 => (q * (a + b * c))%R | 3, 3 => (1 + q * (- (a * a) - b * b))%R
  | _, _ => 0%R end%nat).
Proof.
  intros H. assert (Q : q * (a * a) = 2 - q - q * (b * b) - q * (c * c)) by lra.
  split.
  - intros i j I J. all3 I; all3 J; unfold S3, d; cbn [Nat.eqb].
    + transitivity (1 + (q * (b * b) + q * (c * c)) * (q * (1 + (a * a + b * b + c * c)) - 2)); [ring|rewrite H; ring].
    + transitivity (- (q * (a * b)) * (q * (1 + (a * a + b * b + c * c)) - 2)); [ring|rewrite H; ring].
    + transitivity (- (q * (a * c)) * (q * (1 + (a * a + b * b + c * c)) - 2)); [ring|rewrite H; ring].
    + transitivity (- (q * (a * b)) * (q * (1 + (a * a + b * b + c * c)) - 2)); [ring|rewrite H; ring].
    + transitivity (1 + (q * (a * a) + q * (c * c)) * (q * (1 + (a * a + b * b + c * c)) - 2)); [ring|rewrite H; ring].
    + transitivity (- (q * (b * c)) * (q * (1 + (a * a + b * b + c * c)) - 2)); [ring|rewrite H; ring].
    + transitivity (- (q * (a * c)) * (q * (1 + (a * a + b * b + c * c)) - 2)); [ring|rewrite H; ring].
    + transitivity (- (q * (b * c)) * (q * (1 + (a * a + b * b + c * c)) - 2)); [ring|rewrite H; ring].
    + transitivity (1 + (q * (a * a) + q * (b * b)) * (q * (1 + (a * a + b * b + c * c)) - 2)); [ring|rewrite H; ring].
  - unfold det3. cbv match beta. set (n := a * a + b * b + c * c) in *.
    transitivity (1 + q * n * (q * (1 + n) - 2)); [unfold n; ring|rewrite H; ring].
Qed.

Lemma kron_d i j : idx 3 i -> idx 3 j -> kron i j = d i j.
Proof. intros I J. all3 I; all3 J; reflexivity. Qed.

Lemma orient_rot_entries c i j : idx 3 i -> idx 3 j ->
  let v := orient_vbar c in let a := v 1%nat in let b := v 2%nat in let e := v 3%nat in let q := 2 / (1 + (a * a + b * b + e * e)) in
  orient_rot c i j = (fun i j => match i, j with
  | 1, 1 => (1 + q * (- (b * b) - e * e))%R | 1, 2 => (q * (- e + a * b))%R | 1, 3 => (q * (b + a * e))%R
  | 2, 1 => (q * (e + a * b))%R | 2, 2 => (1 + q * (- (a * a) - e * e))%R | 2, 3 => (q * (- a + b * e))%R
  | 3, 1 => (q * (- b + a * e))%R | 3, 2 => (q * (a + b * e))%R | 3, 3 => (1 + q * (- (a * a) - b * b))%R
  | _, _ => 0%R end%nat) i j.
Proof.
  intros I J. cbv zeta. unfold orient_rot. rewrite kron_d by assumption. rewrite sum1_3.
  generalize (orient_vbar c 1%nat) (orient_vbar c 2%nat) (orient_vbar c 3%nat). intros x y z.
  assert (N : 1 + (x * x + y * y + z * z) <> 0) by nra.
  all3 I; all3 J; unfold S3, d; cbn [Nat.eqb]; field; exact N.
Qed.

Lemma orient_rot_rotation c : rotation (orient_rot c).
Proof.
  eapply rotation_ext; [|eapply (cayley_rotation (orient_vbar c 1%nat) (orient_vbar c 2%nat) (orient_vbar c 3%nat)
    (2 / (1 + (orient_vbar c 1%nat * orient_vbar c 1%nat + orient_vbar c 2%nat * orient_vbar c 2%nat + orient_vbar c 3%nat * orient_vbar c 3%nat))))].
  - intros i j I J. symmetry. exact (orient_rot_entries c i j I J).
  - generalize (orient_vbar c 1%nat) (orient_vbar c 2%nat) (orient_vbar c 3%nat). intros x y z. field. nra.
Qed.

Lemma product_rotation A B : rotation A -> rotation B -> rotation (product A B).
Proof.
  intros [OA DA] [OB DB]. split.
  - intros i j I J. unfold product. rewrite <- (OA i j I J).
    transitivity (S3 (fun p => S3 (fun q => A i p * A j q * S3 (fun k => B p k * B q k)))); [unfold S3; ring|].
    rewrite (S3_ext _ (fun p => S3 (fun q => A i p * A j q * d p q))) by (intros p P; apply S3_ext; intros q Q; rewrite (OB p q P Q); reflexivity).
    unfold S3, d. cbn [Nat.eqb]. ring.
  - transitivity (det3 A * det3 B); [unfold det3, product, S3; ring|rewrite DA, DB; ring].
Qed.

Lemma orient_product a c i j : orient a c i j = product (orient_rot c) a i j.
Proof. unfold orient, product. apply sum1_3. Qed.

Lemma orient_rotation a c : rotation a -> rotation (orient a c).
Proof.
  intros H. eapply rotation_ext; [|apply (product_rotation (orient_rot c) a); [apply orient_rot_rotation|exact H]]. intros; symmetry; apply orient_product.
Qed.

Lemma half_angle t : cos (t / 2) <> 0 -> let u := tan (t / 2) in 2 * u / (1 + u * u) = sin t /\ 2 * (u * u) / (1 + u * u) = 1 - cos t.
Proof.
  intros N. cbv zeta. unfold tan. pose proof (sc (t / 2)) as H.
  assert (S : sin t = 2 * sin (t / 2) * cos (t / 2)) by (rewrite <- sin_2a; f_equal; field).
  assert (C : cos t = cos (t / 2) * cos (t / 2) - sin (t / 2) * sin (t / 2)) by (rewrite <- cos_2a; f_equal; field).
  rewrite S, C. generalize dependent (cos (t / 2)). generalize (sin (t / 2)). intros s c N H _ _.
  assert (E : 1 + s / c * (s / c) = 1 / (c * c)). { transitivity ((s * s + c * c) / (c * c)); [field; exact N|rewrite H; reflexivity]. }
  rewrite E. split; [field; exact N|]. transitivity (2 * (s * s)); [field; exact N|lra].
Qed.

Lemma orient_turns c : let w := axial c in let t := norm w in 1 / 10 ^ 6 < t -> cos (t / 2) <> 0 ->
  turns_about (fun i => w i / t) t (orient_rot c).
Proof.
  intros w t T N x i I.
  assert (V : forall k, idx 3 k -> orient_vbar c k = tan (t / 2) * (w k / t)).
  { intros k K. assert (Q : t = sqrt (c 3%nat 2%nat * c 3%nat 2%nat + c 1%nat 3%nat * c 1%nat 3%nat + c 2%nat 1%nat * c 2%nat 1%nat)) by reflexivity.
    unfold orient_vbar. rewrite <- Q. destruct (Rlt_dec (1 / 10 ^ 6) t) as [_|X]; [|contradiction]. all3 K; unfold w, axial, Rdiv; ring. }
  assert (U : w 1%nat / t * (w 1%nat / t) + w 2%nat / t * (w 2%nat / t) + w 3%nat / t * (w 3%nat / t) = 1).
  { transitivity ((w 1%nat * w 1%nat + w 2%nat * w 2%nat + w 3%nat * w 3%nat) / (t * t)); [field; lra|].
    assert (Q : t * t = w 1%nat * w 1%nat + w 2%nat * w 2%nat + w 3%nat * w 3%nat). { unfold t at 1 2, norm, vdot, S3. apply sqrt_sqrt. nra. }
    rewrite <- Q. field. lra. }
  unfold mul_v.
  destruct (half_angle t N) as [H1 H2]. rewrite <- H1. replace (cos t) with (1 - 2 * (tan (t / 2) * tan (t / 2)) / (1 + tan (t / 2) * tan (t / 2))) by lra.
  unfold S3. rewrite !(orient_rot_entries c i) by (try assumption; ix). rewrite !V by ix.
  assert (D : 1 + (tan (t / 2) * (w 1%nat / t) * (tan (t / 2) * (w 1%nat / t)) + tan (t / 2) * (w 2%nat / t) * (tan (t / 2) * (w 2%nat / t))
    + tan (t / 2) * (w 3%nat / t) * (tan (t / 2) * (w 3%nat / t))) = 1 + tan (t / 2) * tan (t / 2)).
  { transitivity (1 + tan (t / 2) * tan (t / 2) * (w 1%nat / t * (w 1%nat / t) + w 2%nat / t * (w 2%nat / t) + w 3%nat / t * (w 3%nat / t))); [ring|rewrite U; ring]. }
  rewrite D. clear D H1 H2. unfold cross, vdot, S3.
  assert (M : 1 + tan (t / 2) * tan (t / 2) <> 0) by nra. clear V.
  all3 I; cbv beta zeta match; revert U M; generalize (w 1%nat / t) (w 2%nat / t) (w 3%nat / t) (tan (t / 2)); intros e1 e2 e3 u U M;
    (match goal with |- ?l = ?r => cut (l - r = 0); [intros; lra|] end).
  - transitivity (2 * u * u / (1 + u * u) * x 1%nat * (1 - (e1 * e1 + e2 * e2 + e3 * e3))); [field; exact M|rewrite U; ring].
  - transitivity (2 * u * u / (1 + u * u) * x 2%nat * (1 - (e1 * e1 + e2 * e2 + e3 * e3))); [field; exact M|rewrite U; ring].
  - transitivity (2 * u * u / (1 + u * u) * x 3%nat * (1 - (e1 * e1 + e2 * e2 + e3 * e3))); [field; exact M|rewrite U; ring].
Qed.

Lemma turns_trace e t A : vdot e e = 1 -> turns_about e t A -> trace A = 1 + 2 * cos t.
Proof.
  intros U H. unfold trace, S3.
  assert (G : forall i, idx 3 i -> A i i = cos t + (1 - cos t) * e i * e i).
  { intros i I. pose proof (H (fun k => d k i) i I) as G. unfold mul_v, vdot, S3 in G.
    all3 I; unfold cross, d in G; cbn [Nat.eqb] in G; lra. }
  rewrite !G by ix. unfold vdot, S3 in U. transitivity (3 * cos t + (1 - cos t) * (e 1%nat * e 1%nat + e 2%nat * e 2%nat + e 3%nat * e 3%nat)); [ring|rewrite U; ring].
Qed.

Lemma turns_differ e t u A : vdot e e = 1 -> 0 <= t < u -> u <= PI -> turns_about e t A -> ~ turns_about e u A.
Proof.
  intros U [T0 TU] P H1 H2. pose proof (turns_trace e t A U H1) as E1. pose proof (turns_trace e u A U H2) as E2.
  assert (cos u < cos t) by (apply cos_decreasing_1; lra). lra.
Qed.

Lemma turns_ext e t A B : (forall i j, idx 3 i -> idx 3 j -> A i j = B i j) -> turns_about e t A -> turns_about e t B.
Proof. intros E H x i I. rewrite <- (H x i I). apply S3_ext. intros j J. rewrite E by assumption. reflexivity. Qed.

Lemma turns_compose e t u A B : vdot e e = 1 -> turns_about e t A -> turns_about e u B -> turns_about e (t + u) (product A B).
Proof.
  intros U HA HB x i I.
  assert (E : mul_v (product A B) x i = mul_v A (mul_v B x) i) by (unfold mul_v, product, S3; ring).
  rewrite E, (HA (mul_v B x) i I), (HB x i I).
  assert (EC : cross e (mul_v B x) i = cross e (fun k => cos u * x k + sin u * cross e x k + (1 - cos u) * vdot e x * e k) i)
    by (all3 I; unfold cross at 1 2; rewrite !(HB x) by ix; reflexivity).
  assert (EV : vdot e (mul_v B x) = vdot e x).
  { unfold vdot at 1, S3. rewrite !(HB x) by ix. unfold vdot, S3 in U.
    transitivity (cos u * vdot e x + (1 - cos u) * vdot e x * (e 1%nat * e 1%nat + e 2%nat * e 2%nat + e 3%nat * e 3%nat)); [unfold cross, vdot, S3; ring|rewrite U; ring]. }
  rewrite EC, EV, cos_plus, sin_plus.
  assert (CC : cross e (fun k => cos u * x k + sin u * cross e x k + (1 - cos u) * vdot e x * e k) i = cos u * cross e x i + sin u * (vdot e x * e i - x i)).
  { unfold vdot, S3 in U. revert U. generalize (cos u) (sin u). intros c s U.
    transitivity (c * cross e x i + s * (vdot e x * e i - (e 1%nat * e 1%nat + e 2%nat * e 2%nat + e 3%nat * e 3%nat) * x i)); [|rewrite U; ring].
    all3 I; unfold cross, vdot, S3; ring. }
  rewrite CC. ring.
Qed.

Lemma turns_0 e : turns_about e 0 d.
Proof. intros x i I. rewrite cos_0, sin_0. unfold mul_v. rewrite S3_d' by exact I. ring. Qed.

Lemma atan_le v : 0 < v -> 0 < atan v <= v.
Proof.
  intros V. split; [rewrite <- atan_0; apply atan_increasing; exact V|].
  destruct (MVT_cor2 atan (fun x => / (1 + x ^ 2)) 0 v V) as (c & E & C).
  { intros c C. apply derivable_pt_lim_atan. }
  rewrite atan_0 in E. assert (/ (1 + c ^ 2) <= 1). { rewrite <- Rinv_1 at 2. apply Rinv_le_contravar; [lra|nra]. }
  assert (0 < / (1 + c ^ 2)) by (apply Rinv_0_lt_compat; nra). nra.
Qed.

Lemma tan_small s : 0 < s <= 1 / 10 ^ 6 -> 0 < tan (s / 2) <= s.
Proof.
  intros [S0 S1]. pose proof PI_RGT_0 as P0. pose proof PI2_1 as P1.
  assert (A : 0 < sin (s / 4)) by (apply sin_gt_0; lra). assert (B : sin (s / 4) < s / 4) by (apply sin_lt_x; lra).
  assert (A2 : 0 < sin (s / 2)) by (apply sin_gt_0; lra). assert (B2 : sin (s / 2) < s / 2) by (apply sin_lt_x; lra).
  assert (C : 1 / 2 < cos (s / 2)). { replace (s / 2) with (2 * (s / 4)) by field. rewrite cos_2a_sin. nra. }
  unfold tan. split; [apply Rdiv_lt_0_compat; lra|]. apply Rmult_le_reg_r with (cos (s / 2)); [lra|]. unfold Rdiv at 1. rewrite Rmult_assoc, Rinv_l by lra. nra.
Qed.

(* A spin of s about the third axis. *)
Definition spin3 (s : R) : T2 := fun i j => match i, j with 2, 1 => s | 1, 2 => (- s)%R | _, _ => 0%R end%nat.
Definition axis3 (i : nat) : R := d i 3.

Lemma slow_rot s : 0 < s <= 1 / 10 ^ 6 -> turns_about axis3 (2 * atan (s * tan (s / 2))) (orient_rot (spin3 s)).
Proof.
  intros HS. destruct (tan_small s HS) as [T0 T1]. set (v := s * tan (s / 2)). assert (V : 0 < v) by (unfold v; nra).
  assert (E : forall k, idx 3 k -> orient_vbar (spin3 s) k = v * axis3 k).
  { assert (Q : sqrt (spin3 s 3%nat 2%nat * spin3 s 3%nat 2%nat + spin3 s 1%nat 3%nat * spin3 s 1%nat 3%nat + spin3 s 2%nat 1%nat * spin3 s 2%nat 1%nat) = s).
    { unfold spin3. replace (0 * 0 + 0 * 0 + s * s) with (s * s) by ring. apply sqrt_square. lra. }
    intros k K. unfold orient_vbar. rewrite Q. destruct (Rlt_dec (1 / 10 ^ 6) s) as [X|_]; [lra|]. all3 K; unfold axis3, d, spin3, v; cbn [Nat.eqb]; field. }
  assert (N : cos (2 * atan v / 2) <> 0).
  { replace (2 * atan v / 2) with (atan v) by field. rewrite cos_atan. apply Rgt_not_eq. apply Rdiv_lt_0_compat; [lra|]. apply sqrt_lt_R0. unfold Rsqr. nra. }
  destruct (half_angle _ N) as [H1 H2]. replace (2 * atan v / 2) with (atan v) in H1, H2 by field. rewrite tan_atan in H1, H2.
  intros x i I. rewrite <- H1. replace (cos (2 * atan v)) with (1 - 2 * (v * v) / (1 + v * v)) by lra.
  unfold mul_v, S3. rewrite !(orient_rot_entries (spin3 s) i) by (try assumption; ix). rewrite !E by ix. unfold cross, vdot, S3, axis3, d.
  all3 I; cbn [Nat.eqb]; field; nra.
Qed.

Fixpoint steps (n : nat) (f : T2 -> T2) (a : T2) : T2 := match n with O => a | S n => f (steps n f a) end.

Lemma slow_steps s n : 0 < s <= 1 / 10 ^ 6 -> turns_about axis3 (INR n * (2 * atan (s * tan (s / 2)))) (steps n (fun a => orient a (spin3 s)) d).
Proof.
  intros HS. assert (U : vdot axis3 axis3 = 1) by (unfold vdot, S3, axis3, d; cbn [Nat.eqb]; ring).
  induction n as [|n IH]; [cbn [INR]; rewrite Rmult_0_l; apply turns_0|].
  rewrite S_INR. replace ((INR n + 1) * _) with (2 * atan (s * tan (s / 2)) + INR n * (2 * atan (s * tan (s / 2)))) by ring.
  cbn [steps]. eapply turns_ext; [|apply (turns_compose axis3 _ _ (orient_rot (spin3 s)) _ U (slow_rot s HS) IH)]. intros; symmetry; apply orient_product.
Qed.

(* ---------- angles back ---------- *)

Lemma same_angle a b : - PI < a <= PI -> - PI < b <= PI -> cos a = cos b -> sin a = sin b -> a = b.
Proof.
  intros A B C S.
  assert (Z : sin ((a - b) / 2) = 0).
  { assert (Q : cos (a - b) = 1). { rewrite cos_minus, C, S. pose proof (sc b). lra. }
    replace (a - b) with (2 * ((a - b) / 2)) in Q by field. rewrite cos_2a_sin in Q. nra. }
  pose proof PI_RGT_0. destruct (Rtotal_order a b) as [L|[E|G]]; [|exact E|].
  - assert (0 < sin (- ((a - b) / 2))) by (apply sin_gt_0; lra). rewrite sin_neg in *. lra.
  - assert (0 < sin ((a - b) / 2)) by (apply sin_gt_0; lra). lra.
Qed.

Lemma atan2_range y x : - PI < atan2 y x <= PI.
Proof.
  pose proof PI_RGT_0. unfold atan2. pose proof (atan_bound (y / x)) as B. destruct (Rlt_dec 0 x); [lra|]. destruct (Rlt_dec x 0).
  - destruct (Rle_dec 0 y).
    + split; [lra|]. assert (atan (y / x) <= 0); [|lra]. rewrite <- atan_0. destruct (Req_dec y 0) as [->|].
      * replace (0 / x) with 0 by (unfold Rdiv; ring). lra.
      * left. apply atan_increasing. unfold Rdiv. assert (/ x < 0) by (apply Rinv_lt_0_compat; assumption). nra.
    + assert (0 < atan (y / x)); [|lra]. rewrite <- atan_0 at 1. apply atan_increasing. unfold Rdiv. assert (/ x < 0) by (apply Rinv_lt_0_compat; assumption). nra.
  - destruct (Rlt_dec 0 y); [lra|]. destruct (Rlt_dec y 0); lra.
Qed.

Lemma euler_angles ph th tm : - PI < ph <= PI -> 0 < th < PI -> - PI < tm <= PI -> Rabs (cos th) < 9999 / 10000 ->
  euler_1 (euler_2 ph th tm) = (ph * 180 / PI, th * 180 / PI, tm * 180 / PI).
Proof.
  intros P T M C. unfold euler_1.
  change (euler_2 ph th tm 3%nat 3%nat) with (cos th). change (euler_2 ph th tm 1%nat 3%nat) with (sin th * sin tm). change (euler_2 ph th tm 2%nat 3%nat) with (cos tm * sin th).
  change (euler_2 ph th tm 3%nat 1%nat) with (sin ph * sin th). change (euler_2 ph th tm 3%nat 2%nat) with (- sin th * cos ph).
  destruct (Rle_dec (9999 / 10000) (Rabs (cos th))) as [X|_]; [lra|]. rewrite acos_cos by lra.
  assert (S : 0 < sin th) by (apply sin_gt_0; lra).
  replace (sin th * sin tm / sin th) with (sin tm) by (field; lra). replace (cos tm * sin th / sin th) with (cos tm) by (field; lra).
  replace (sin ph * sin th / sin th) with (sin ph) by (field; lra). replace (- (- sin th * cos ph) / sin th) with (cos ph) by (field; lra).
  assert (Q : forall a, - PI < a <= PI -> atan2 (sin a) (cos a) = a).
  { intros a A. destruct (atan2_unit (cos a) (sin a)) as [E1 E2]; [pose proof (sc a); lra|]. apply same_angle; try assumption. apply atan2_range. }
  rewrite !Q by assumption. reflexivity.
Qed.

Lemma orient_scaled c w k : (forall i, idx 3 i -> axial c i = w i * k) -> 0 < k -> 1 / 10 ^ 6 < norm w * k < PI ->
  turns_about (fun i => w i / norm w) (norm w * k) (orient_rot c).
Proof.
  intros E T [N1 N2].
  assert (NE : norm (axial c) = norm w * k).
  { unfold norm, vdot, S3. rewrite !E by ix. transitivity (sqrt ((w 1%nat * w 1%nat + w 2%nat * w 2%nat + w 3%nat * w 3%nat) * (k * k))); [f_equal; ring|].
    rewrite sqrt_mult by nra. rewrite sqrt_square by lra. reflexivity. }
  assert (NZ : 0 < norm w). { unfold norm in *. pose proof (sqrt_pos (vdot w w)) as H. destruct H as [H|H]; [exact H|]. rewrite <- H in N1. lra. }
  intros x i I. rewrite (orient_turns c) by (rewrite ?NE; try assumption; try (apply Rgt_not_eq; apply cos_gt_0; lra)). rewrite NE.
  assert (F : forall m, idx 3 m -> axial c m / (norm w * k) = w m / norm w) by (intros m M; rewrite E by exact M; field; lra).
  rewrite F by exact I. unfold vdot, S3. rewrite !F by ix. f_equal. f_equal. f_equal. all3 I; unfold cross; rewrite !F by ix; reflexivity.
Qed.

Lemma step_velgrad_local U K D tdot i j : tdot <> 0 ->
  step_velgrad tdot D (initialize_disgrad (fun _ _ => 0) K (step_update_disgrad U tdot D)) i j = U i j + K i j / tdot.
Proof. intros T. unfold step_velgrad, initialize_disgrad, step_update_disgrad. field. exact T. Qed.

Lemma antisym_slip_nil ag i j : antisym (slip_distortion ag []) i j = 0.
Proof. unfold antisym, slip_distortion, suml. cbn [fold_right]. field. Qed.
