(* Phases of the large-strain solver without slip systems: C127. *)
From Coq Require Import Reals List Arith Lia Lra ZArith.
From Verif Require Import BaseReal LinModel EvpModel EvpFlowModel EvpSpec EvpFlowSpec EvpBasis EvpElast EvpSlip EvpMisesProps EvpHardProps EvpNewtonProps LsFlowModel.
Import ListNotations.
Local Open Scope R_scope.

(* The parameters of a phase make sense. *)
Definition regular_j2 (m : j2) : Prop := (1 <= j_nrs m < 2147483648)%Z /\ 0 < j_e0 m /\ 0 < j_strength m.
Definition exponent (m : j2) : nat := Z.to_nat (j_nrs m).
Definition sheared (sigma : T2) : Prop := exists i j, idx 3 i /\ idx 3 j /\ deviator sigma i j <> 0.

(* The plastic strain rate of a stress. *)
Definition plastic_rate (m : j2) (sigma : T2) : option T2 :=
  match law_flow (J2 m) (chg_basis_2 6 sigma) with Some fl => Some (chg_basis_1 6 (fl_edotp6 fl)) | None => None end.

Definition mag_of (m : j2) (sg6 : T1) : R := 3 / 2 * j_e0 m / j_strength m * (sgvm sg6 / j_strength m) ^ (exponent m - 1).

Lemma sum1_5 f : sum1 5 f = f 1%nat + f 2%nat + f 3%nat + f 4%nat + f 5%nat.
Proof. unfold sum1. cbn [sumn]. ring. Qed.

Lemma j2_value m sg6 : regular_j2 m -> sgvm sg6 <> 0 -> j2_flow m sg6 =
  Some {| fl_edotp6 := fun ii => if Nat.leb ii 5 then mag_of m sg6 * sg6 ii else 0;
          fl_dedotp66 := fun ii jj => if (Nat.leb ii 5 && Nat.leb jj 5)%bool then mag_of m sg6 * ((IZR (j_nrs m) - 1) * sg6 ii / sgvm sg6 * sg6 jj / sgvm sg6 + kron ii jj) else 0;
          fl_gamdot := [] |}.
Proof.
  intros (N & _ & S0) Z. unfold j2_flow. destruct (Req_EM_T (j_strength m) 0); [lra|]. rewrite power_nat by lia. destruct (Req_EM_T (sgvm sg6) 0); [contradiction|].
  unfold mag_of, exponent. replace (Z.to_nat (j_nrs m - 1)) with (Z.to_nat (j_nrs m) - 1)%nat by lia. reflexivity.
Qed.

Lemma sgvm_dev sigma : symmetric sigma -> sgvm (chg_basis_2 6 sigma) = sqrt (ddot (deviator sigma) (deviator sigma)).
Proof.
  intros S. unfold sgvm. f_equal. rewrite sum1_5, !cb2.
  transitivity (ddot sigma sigma - comps sigma 6%nat * comps sigma 6%nat); [rewrite (ddot_comps _ _ S); unfold S6; ring|].
  rewrite comps_6. pose proof q3 as Q. transitivity (ddot sigma sigma - (RSQ3_ * RSQ3_) * (trace sigma * trace sigma)); [ring|]. rewrite Q.
  unfold ddot, deviator, trace, S3, d. cbn [Nat.eqb]. field.
Qed.

Lemma sgvm_pos sigma : symmetric sigma -> sheared sigma -> 0 < sgvm (chg_basis_2 6 sigma).
Proof.
  intros S (i & j & I & J & N). rewrite (sgvm_dev _ S). apply sqrt_lt_R0. destruct (Rle_lt_or_eq_dec _ _ (ddot_pos (deviator sigma))) as [|E]; [assumption|].
  exfalso. apply N. apply (ddot_zero (deviator sigma) i j); auto.
Qed.

Lemma expand_five c (v : T1) i j : chg_basis_1 6 (fun ii => if Nat.leb ii 5 then c * v ii else 0) i j = c * chg_basis_1 5 v i j.
Proof. unfold chg_basis_1, sum1. cbn [sumn Nat.leb]. ring. Qed.

Lemma rate_value m sigma : regular_j2 m -> symmetric sigma -> sheared sigma -> exists e, plastic_rate m sigma = Some e /\
  forall i j, idx 3 i -> idx 3 j -> e i j = mag_of m (chg_basis_2 6 sigma) * deviator sigma i j.
Proof.
  intros R S H. pose proof (sgvm_pos _ S H) as P. unfold plastic_rate. cbn [law_flow]. rewrite j2_value by (assumption || lra). eexists. split; [reflexivity|].
  intros i j I J. cbn [fl_edotp6]. rewrite expand_five. f_equal. rewrite <- (dev_expand _ _ _ S I J). unfold chg_basis_1, sum1. cbn [sumn]. rewrite !cb2. reflexivity.
Qed.

Lemma mag_pos m sg6 : regular_j2 m -> 0 < sgvm sg6 -> 0 < mag_of m sg6.
Proof.
  intros (N & E & S0) P. unfold mag_of. apply Rmult_lt_0_compat; [apply Rdiv_lt_0_compat; lra|]. apply pow_lt. apply Rdiv_lt_0_compat; assumption.
Qed.

Lemma mises_scale c k A B : 0 <= k -> (forall i j, idx 3 i -> idx 3 j -> B i j = k * deviator A i j) -> 0 <= c -> mises c B = k * sqrt (c * ddot (deviator A) (deviator A)).
Proof.
  intros K E C. unfold mises. rewrite <- (sqrt_pow2 k K) at 1. rewrite <- sqrt_mult_alt by (apply pow2_ge_0). f_equal.
  assert (T : trace B = 0). { unfold trace, S3. rewrite !E by (unfold idx; lia). unfold deviator, trace, S3, d. cbn [Nat.eqb]. field. }
  rewrite (ddot_ext (deviator B) (fun i j => k * deviator A i j) (deviator B) (fun i j => k * deviator A i j)).
  - unfold ddot, S3. ring.
  - intros i j I J. unfold deviator at 1. rewrite T, E by assumption. field.
  - intros i j I J. unfold deviator at 1. rewrite T, E by assumption. field.
Qed.

(* The material flows along the deviator of the stress.  Its equivalent rate is that of
   the power law where the exponent is one, and else less: the stress compared with the
   strength is not von Mises's but sqrt (2/3) of it. *)
Theorem C127_flow m sigma : regular_j2 m -> symmetric sigma -> sheared sigma -> exists e k, plastic_rate m sigma = Some e /\ 0 < k /\
  (forall i j, idx 3 i -> idx 3 j -> e i j = k * deviator sigma i j) /\
  mises (2 / 3) e = j_e0 m * (mises (3 / 2) sigma / j_strength m) * (sqrt (2 / 3) * mises (3 / 2) sigma / j_strength m) ^ (exponent m - 1).
Proof.
  intros R S H. destruct (rate_value m sigma R S H) as (e & E & V). pose proof (sgvm_pos _ S H) as P. pose proof (mag_pos m _ R P) as K.
  exists e, (mag_of m (chg_basis_2 6 sigma)). split; [exact E|]. split; [exact K|]. split; [exact V|].
  rewrite (mises_scale (2 / 3) _ sigma e (Rlt_le _ _ K) V) by lra. unfold mag_of. rewrite (sgvm_dev _ S). unfold mises.
  set (q := ddot (deviator sigma) (deviator sigma)). assert (Q : 0 <= q) by apply ddot_pos.
  assert (A : sqrt (2 / 3) * sqrt (3 / 2 * q) = sqrt q). { rewrite <- sqrt_mult_alt by lra. f_equal. field. }
  rewrite A. assert (B : 3 / 2 * sqrt (2 / 3 * q) = sqrt (3 / 2 * q)).
  { replace (3 / 2 * q) with ((3 / 2) ^ 2 * (2 / 3 * q)) by (cbn [pow]; field). rewrite (sqrt_mult_alt ((3 / 2) ^ 2)) by (apply pow2_ge_0). rewrite sqrt_pow2 by lra. reflexivity. }
  rewrite <- B. destruct R as (_ & _ & S0). field. lra.
Qed.
Print Assumptions C127_flow.

(* Work is lost, never gained. *)
Theorem C127_dissipates m sigma e : regular_j2 m -> symmetric sigma -> sheared sigma -> plastic_rate m sigma = Some e -> 0 < ddot sigma e /\ trace e = 0.
Proof.
  intros R S H E. destruct (rate_value m sigma R S H) as (e' & E' & V). rewrite E in E'. injection E' as <-. pose proof (mag_pos m _ R (sgvm_pos _ S H)) as K. set (k := mag_of m _) in *.
  assert (T : trace (deviator sigma) = 0) by apply deviator_trace.
  split.
  - assert (Q : ddot sigma e = k * ddot (deviator sigma) (deviator sigma)).
    { rewrite (ddot_ext sigma sigma e (fun i j => k * deviator sigma i j)) by auto. unfold ddot, deviator, trace, S3, d. cbn [Nat.eqb]. field. }
    rewrite Q. apply Rmult_lt_0_compat; [exact K|]. pose proof (sgvm_pos _ S H) as P. rewrite (sgvm_dev _ S) in P.
    destruct (Rle_lt_or_eq_dec _ _ (ddot_pos (deviator sigma))) as [|Z]; [assumption|]. rewrite <- Z, sqrt_0 in P. lra.
  - unfold trace, S3 in *. rewrite !V by (unfold idx; lia). replace (_ + _) with (k * (deviator sigma 1%nat 1%nat + deviator sigma 2%nat 2%nat + deviator sigma 3%nat 3%nat)) by ring. rewrite T. ring.
Qed.
Print Assumptions C127_dissipates.

(* More stress never means less flow. *)
Theorem C127_monotone m s1 s2 e1 e2 : regular_j2 m -> symmetric s1 -> symmetric s2 -> sheared s1 -> sheared s2 -> plastic_rate m s1 = Some e1 -> plastic_rate m s2 = Some e2 ->
  0 <= ddot (fun i j => s1 i j - s2 i j) (fun i j => e1 i j - e2 i j).
Proof.
  intros R S1 S2 H1 H2 E1 E2. destruct (rate_value m s1 R S1 H1) as (f1 & F1 & V1). rewrite E1 in F1. injection F1 as <-. destruct (rate_value m s2 R S2 H2) as (f2 & F2 & V2). rewrite E2 in F2. injection F2 as <-.
  pose proof (sgvm_pos _ S1 H1) as P1. pose proof (sgvm_pos _ S2 H2) as P2. pose proof (mag_pos m _ R P1) as K1. pose proof (mag_pos m _ R P2) as K2.
  assert (G1 : sgvm (chg_basis_2 6 s1) * sgvm (chg_basis_2 6 s1) = ddot (deviator s1) (deviator s1)) by (rewrite (sgvm_dev _ S1); apply sqrt_sqrt, ddot_pos).
  assert (G2 : sgvm (chg_basis_2 6 s2) * sgvm (chg_basis_2 6 s2) = ddot (deviator s2) (deviator s2)) by (rewrite (sgvm_dev _ S2); apply sqrt_sqrt, ddot_pos).
  assert (MM : (mag_of m (chg_basis_2 6 s1) * sgvm (chg_basis_2 6 s1) - mag_of m (chg_basis_2 6 s2) * sgvm (chg_basis_2 6 s2)) * (sgvm (chg_basis_2 6 s1) - sgvm (chg_basis_2 6 s2)) >= 0).
  { assert (W : forall x y, 0 < x <= y -> 3 / 2 * j_e0 m / j_strength m * (x / j_strength m) ^ (exponent m - 1) * x <= 3 / 2 * j_e0 m / j_strength m * (y / j_strength m) ^ (exponent m - 1) * y).
    { intros x y (X & XY). destruct R as (_ & E0 & S0). assert (C : 0 < 3 / 2 * j_e0 m / j_strength m) by (apply Rdiv_lt_0_compat; lra). rewrite !Rmult_assoc. apply Rmult_le_compat_l; [lra|].
      assert (I : 0 < / j_strength m) by (apply Rinv_0_lt_compat; exact S0). apply Rmult_le_compat; try lra; [apply pow_le; unfold Rdiv; nra|]. apply pow_incr. unfold Rdiv. split; nra. }
    unfold mag_of. destruct (Rle_dec (sgvm (chg_basis_2 6 s1)) (sgvm (chg_basis_2 6 s2))) as [L|L]; [pose proof (W _ _ (conj P1 L)); nra|]. apply Rnot_le_lt in L. pose proof (W _ _ (conj P2 (Rlt_le _ _ L))); nra. }
  set (g1 := sgvm (chg_basis_2 6 s1)) in *. set (g2 := sgvm (chg_basis_2 6 s2)) in *. set (k1 := mag_of m (chg_basis_2 6 s1)) in *. set (k2 := mag_of m (chg_basis_2 6 s2)) in *. clearbody g1 g2 k1 k2.
  assert (X : ddot (fun i j => s1 i j - s2 i j) (fun i j => e1 i j - e2 i j) = k1 * ddot (deviator s1) (deviator s1) + k2 * ddot (deviator s2) (deviator s2) - (k1 + k2) * ddot (deviator s1) (deviator s2)).
  { rewrite (ddot_ext (fun i j => s1 i j - s2 i j) (fun i j => s1 i j - s2 i j) _ (fun i j => k1 * deviator s1 i j - k2 * deviator s2 i j)); [|auto|intros i j I J; rewrite V1, V2 by assumption; reflexivity].
    unfold ddot, deviator, trace, S3, d. cbn [Nat.eqb]. field. }
  rewrite X, <- G1, <- G2. set (q := ddot (deviator s1) (deviator s2)).
  assert (CS : q <= g1 * g2).
  { pose proof (ddot_pos (fun i j => g2 * deviator s1 i j - g1 * deviator s2 i j)) as P.
    assert (Y : ddot (fun i j => g2 * deviator s1 i j - g1 * deviator s2 i j) (fun i j => g2 * deviator s1 i j - g1 * deviator s2 i j) = g2 * g2 * ddot (deviator s1) (deviator s1) + g1 * g1 * ddot (deviator s2) (deviator s2) - 2 * g1 * g2 * q).
    { unfold q, ddot, S3. ring. }
    rewrite Y, <- G1, <- G2 in P. assert (0 < g1 * g2) by (apply Rmult_lt_0_compat; assumption). assert (0 <= 2 * (g1 * g2) * (g1 * g2 - q)) by lra. apply Rnot_lt_le. intros L. assert (0 < (g1 * g2) * (q - g1 * g2)) by (apply Rmult_lt_0_compat; lra). lra. }
  assert (0 <= (k1 + k2) * (g1 * g2 - q)) by (apply Rmult_le_pos; lra). nra.
Qed.
Print Assumptions C127_monotone.

Lemma mag_same m s1 s2 : sgvm s1 = sgvm s2 -> mag_of m s1 = mag_of m s2.
Proof. intros E. unfold mag_of. rewrite E. reflexivity. Qed.

(* No direction is preferred: turning the stress turns the flow. *)
Theorem C127_isotropic m sigma A e : regular_j2 m -> symmetric sigma -> sheared sigma -> rotation A -> plastic_rate m sigma = Some e ->
  exists e', plastic_rate m (turned A sigma) = Some e' /\ forall i j, idx 3 i -> idx 3 j -> e' i j = turned A e i j.
Proof.
  intros R S H RA E. destruct (rate_value m sigma R S H) as (e0 & E0 & V). rewrite E in E0. injection E0 as <-.
  assert (C : orthogonal_cols A) by (apply rows_cols; exact (proj1 RA)). assert (S' : symmetric (turned A sigma)) by (apply turned_sym; exact S).
  assert (DV : forall i j, idx 3 i -> idx 3 j -> deviator (turned A sigma) i j = turned A (deviator sigma) i j).
  { intros i j I J. rewrite (turned_dev A sigma i j RA I J). unfold deviator. rewrite (turned_trace A sigma C). reflexivity. }
  assert (DD : ddot (deviator (turned A sigma)) (deviator (turned A sigma)) = ddot (deviator sigma) (deviator sigma)).
  { rewrite (ddot_ext _ (turned A (deviator sigma)) _ (turned A (deviator sigma))) by auto.
    rewrite <- (ddot_turned A). apply ddot_ext; auto. intros i j I J. apply turned_back; assumption. }
  pose proof (sgvm_pos _ S H) as P.
  assert (H' : sheared (turned A sigma)).
  { destruct H as (i & j & I & J & N). destruct (nonzero_turned A (deviator sigma) C) as (a & b & Ia & Ib & Nab); [exists i, j; auto|]. exists a, b. split; [exact Ia|]. split; [exact Ib|]. rewrite DV by assumption. exact Nab. }
  destruct (rate_value m (turned A sigma) R S' H') as (e' & E' & V'). exists e'. split; [exact E'|]. intros i j I J. rewrite V' by assumption.
  rewrite (mag_same m _ (chg_basis_2 6 sigma)) by (rewrite !sgvm_dev by assumption; rewrite DD; reflexivity). rewrite DV by assumption.
  rewrite (turned_ext A e (fun a b => mag_of m (chg_basis_2 6 sigma) * deviator sigma a b)) by auto. unfold turned, S3. ring.
Qed.
Print Assumptions C127_isotropic.

(* Pressure does not make it flow. *)
Theorem C127_pressure m sigma p e : regular_j2 m -> symmetric sigma -> sheared sigma -> plastic_rate m sigma = Some e ->
  exists e', plastic_rate m (fun i j => sigma i j + p * d i j) = Some e' /\ forall i j, idx 3 i -> idx 3 j -> e' i j = e i j.
Proof.
  intros R S H E. destruct (rate_value m sigma R S H) as (e0 & E0 & V). rewrite E in E0. injection E0 as <-. set (s' := fun i j => sigma i j + p * d i j).
  assert (DV : forall i j, deviator s' i j = deviator sigma i j). { intros i j. unfold deviator, s', trace, S3, d. cbn [Nat.eqb]. field. }
  assert (S' : symmetric s'). { intros i j I J. unfold s'. rewrite (S i j I J). unfold d. rewrite Nat.eqb_sym. reflexivity. }
  assert (H' : sheared s'). { destruct H as (i & j & I & J & N). exists i, j. rewrite DV. auto. }
  destruct (rate_value m s' R S' H') as (e' & E' & V'). exists e'. split; [exact E'|]. intros i j I J. rewrite V', V, DV by assumption. f_equal. apply mag_same.
  rewrite !sgvm_dev by assumption. f_equal. apply ddot_ext; auto.
Qed.
Print Assumptions C127_pressure.

(* A bar pulled with a stress equal to its strength flows slower than at the reference
   rate unless the exponent is one. *)
Definition tension (s : R) : T2 := fun i j => s * (d i 1 * d j 1).
Lemma tension_met s : s <> 0 -> symmetric (tension s) /\ sheared (tension s).
Proof.
  intros Z. split; [intros i j _ _; unfold tension; ring|]. exists 1%nat, 1%nat. split; [unfold idx; lia|]. split; [unfold idx; lia|]. unfold deviator, tension, trace, S3, d. cbn [Nat.eqb]. lra.
Qed.
Lemma root_small : 0 < sqrt (2 / 3) < 1.
Proof. split; [apply sqrt_lt_R0; lra|]. rewrite <- sqrt_1. apply sqrt_lt_1; lra. Qed.
Theorem C127_yield_refuted m : regular_j2 m -> (2 <= j_nrs m)%Z -> exists e, plastic_rate m (tension (j_strength m)) = Some e /\
  mises (3 / 2) (tension (j_strength m)) = j_strength m /\ mises (2 / 3) e = j_e0 m * sqrt (2 / 3) ^ (exponent m - 1) /\ mises (2 / 3) e < j_e0 m.
Proof.
  intros R N. destruct R as (N1 & E0 & S0). destruct (tension_met (j_strength m)) as [Sy Sh]; [lra|].
  destruct (C127_flow m (tension (j_strength m)) (conj N1 (conj E0 S0)) Sy Sh) as (e & k & P & _ & _ & V). exists e. split; [exact P|].
  assert (M : mises (3 / 2) (tension (j_strength m)) = j_strength m). { unfold tension. rewrite (proj2 (C115_tension 0 (j_strength m))). apply Rabs_right. lra. }
  split; [exact M|]. assert (V2 : mises (2 / 3) e = j_e0 m * sqrt (2 / 3) ^ (exponent m - 1)).
  { rewrite V, M. replace (sqrt (2 / 3) * j_strength m / j_strength m) with (sqrt (2 / 3)) by (field; lra). replace (j_strength m / j_strength m) with 1 by (field; lra). ring. }
  split; [exact V2|]. rewrite V2. pose proof root_small as (Q1 & Q2). assert (P1 : sqrt (2 / 3) ^ (exponent m - 1) < 1).
  { assert (X : (exponent m - 1)%nat = S (exponent m - 2)) by (unfold exponent; lia). rewrite X. cbn [pow].
    assert (0 < sqrt (2 / 3) ^ (exponent m - 2)) by (apply pow_lt; lra). assert (sqrt (2 / 3) ^ (exponent m - 2) <= 1) by (rewrite <- (pow1 (exponent m - 2)); apply pow_incr; lra). nra. }
  nra.
Qed.
Print Assumptions C127_yield_refuted.

(* With exponent one the reference rate is met. *)
Theorem C127_linear m sigma e : regular_j2 m -> j_nrs m = 1%Z -> symmetric sigma -> sheared sigma -> plastic_rate m sigma = Some e ->
  mises (2 / 3) e = j_e0 m * mises (3 / 2) sigma / j_strength m.
Proof.
  intros R N S H E. destruct (C127_flow m sigma R S H) as (e' & k & E' & _ & _ & V). rewrite E in E'. injection E' as <-. rewrite V. unfold exponent. rewrite N. cbn [Z.to_nat].
  change (Pos.to_nat 1 - 1)%nat with 0%nat. cbn [pow]. destruct R as (_ & _ & S0). field. lra.
Qed.
Print Assumptions C127_linear.

(* Where the stress is a pressure, or zero, there is no rate: zero is divided by zero. *)
Theorem C127_zero_refuted m p : law_flow (J2 m) (chg_basis_2 6 (fun i j => p * d i j)) = None.
Proof.
  assert (S : symmetric (fun i j => p * d i j)) by (intros i j _ _; unfold d; rewrite Nat.eqb_sym; reflexivity).
  cbn [law_flow]. unfold j2_flow. destruct (Req_EM_T (j_strength m) 0); [reflexivity|]. destruct (PowIntExpo _ _); [|reflexivity].
  assert (Z : sgvm (chg_basis_2 6 (fun i j => p * d i j)) = 0).
  { rewrite (sgvm_dev _ S). rewrite <- sqrt_0. f_equal. unfold ddot, deviator, trace, S3, d. cbn [Nat.eqb]. field. }
  destruct (Req_EM_T _ 0); [reflexivity|contradiction].
Qed.
Print Assumptions C127_zero_refuted.

(* ---------- tangent ---------- *)
Definition dotv (v w : T1) : R := sum1 5 (fun i => v i * w i).

Lemma sgvm_line sg6 h : 0 < sgvm sg6 -> derivable_pt_lim (fun t => sgvm (fun i => sg6 i + t * h i)) 0 (dotv sg6 h / sgvm sg6).
Proof.
  intros P. set (a := dotv sg6 sg6). set (b := dotv sg6 h). set (c := dotv h h).
  assert (A : sgvm sg6 = sqrt a) by reflexivity. assert (A0 : 0 < a). { destruct (Rlt_le_dec 0 a); [assumption|]. rewrite A, sqrt_neg_0 in P by assumption. lra. }
  apply (lim_ext (fun t => sqrt (a + t * (2 * b) + t ^ 2 * c))).
  - intros t. unfold sgvm. f_equal. unfold a, b, c, dotv. rewrite !sum1_5. ring.
  - assert (D1 : derivable_pt_lim (fun t => a + t * (2 * b) + t ^ 2 * c) 0 (2 * b)).
    { assert (X : 2 * b = 0 + 1 * (2 * b) + (INR 2 * 0 ^ Nat.pred 2) * c) by (cbn [Nat.pred pow INR]; ring). match goal with |- derivable_pt_lim ?f ?x _ => refine (eq_ind_r (derivable_pt_lim f x) _ X) end. clear X.
      apply (derivable_pt_lim_plus (fun t => a + t * (2 * b)) (fun t => t ^ 2 * c)).
      - apply (derivable_pt_lim_plus (fun _ => a) (fun t => t * (2 * b))); [apply derivable_pt_lim_const|].
        replace (1 * (2 * b)) with (1 * (2 * b) + 0 * 0) by ring. apply (derivable_pt_lim_mult id (fun _ => 2 * b)); [apply derivable_pt_lim_id|apply derivable_pt_lim_const].
      - replace (INR 2 * 0 ^ Nat.pred 2 * c) with (INR 2 * 0 ^ Nat.pred 2 * c + 0 ^ 2 * 0) by ring. apply (derivable_pt_lim_mult (fun t => t ^ 2) (fun _ => c)); [apply derivable_pt_lim_pow|apply derivable_pt_lim_const]. }
    replace (b / sgvm sg6) with (/ (2 * sqrt (a + 0 * (2 * b) + 0 ^ 2 * c)) * (2 * b)).
    + apply (derivable_pt_lim_comp (fun t => a + t * (2 * b) + t ^ 2 * c) sqrt); [exact D1|]. apply derivable_pt_lim_sqrt. replace (_ + _ + _) with a by ring. exact A0.
    + rewrite A. replace (a + 0 * (2 * b) + 0 ^ 2 * c) with a by ring. assert (0 < sqrt a) by (apply sqrt_lt_R0; exact A0). field. lra.
Qed.

Lemma j2_line m sg6 h k : regular_j2 m -> 0 < sgvm sg6 -> idx 6 k ->
  derivable_pt_lim (fun t => if Nat.leb k 5 then mag_of m (fun i => sg6 i + t * h i) * (sg6 k + t * h k) else 0) 0
    (S6 (fun jj => (if (Nat.leb k 5 && Nat.leb jj 5)%bool then mag_of m sg6 * ((IZR (j_nrs m) - 1) * sg6 k / sgvm sg6 * sg6 jj / sgvm sg6 + kron k jj) else 0) * h jj)).
Proof.
  intros R P K. destruct (Nat.leb k 5) eqn:L.
  2: { assert (X : S6 (fun jj => (if (false && Nat.leb jj 5)%bool then mag_of m sg6 * ((IZR (j_nrs m) - 1) * sg6 k / sgvm sg6 * sg6 jj / sgvm sg6 + kron k jj) else 0) * h jj) = 0) by (unfold S6, andb; ring). rewrite X. apply derivable_pt_lim_const. }
  set (n := (exponent m - 1)%nat). set (c := 3 / 2 * j_e0 m / j_strength m). set (s0 := j_strength m).
  assert (N : IZR (j_nrs m) - 1 = INR n). { unfold n, exponent. destruct R as (N & _). rewrite minus_INR by lia. rewrite INR_IZR_INZ, Z2Nat.id by lia. reflexivity. }
  assert (S0 : 0 < s0) by (destruct R as (_ & _ & S0); exact S0).
  set (g := sgvm sg6) in *. set (b := dotv sg6 h).
  assert (D1 : derivable_pt_lim (fun t => (sgvm (fun i => sg6 i + t * h i) / s0) ^ n) 0 (INR n * (g / s0) ^ Nat.pred n * (b / g / s0))).
  { assert (G0 : sgvm (fun i => sg6 i + 0 * h i) = g). { unfold g, sgvm. f_equal. rewrite !sum1_5. ring. }
    replace (g / s0) with (sgvm (fun i => sg6 i + 0 * h i) / s0) by (rewrite G0; reflexivity).
    apply (derivable_pt_lim_comp (fun t => sgvm (fun i => sg6 i + t * h i) / s0) (fun x => x ^ n)); [|apply derivable_pt_lim_pow].
    replace (b / g / s0) with (b / g * / s0 + sgvm (fun i => sg6 i + 0 * h i) * 0) by (field; lra).
    apply (derivable_pt_lim_mult (fun t => sgvm (fun i => sg6 i + t * h i)) (fun _ => / s0)); [apply (sgvm_line sg6 h P)|apply derivable_pt_lim_const]. }
  assert (D2 : derivable_pt_lim (fun t => c * (sgvm (fun i => sg6 i + t * h i) / s0) ^ n) 0 (c * (INR n * (g / s0) ^ Nat.pred n * (b / g / s0)))).
  { apply (derivable_pt_lim_scal (fun t => (sgvm (fun i => sg6 i + t * h i) / s0) ^ n)). exact D1. }
  assert (D3 : derivable_pt_lim (fun t => sg6 k + t * h k) 0 (h k)).
  { assert (X : h k = 0 + (1 * h k + 0 * 0)) by ring. match goal with |- derivable_pt_lim ?f ?x _ => refine (eq_ind_r (derivable_pt_lim f x) _ X) end. clear X. apply (derivable_pt_lim_plus (fun _ => sg6 k) (fun t => t * h k)); [apply derivable_pt_lim_const|]. apply (derivable_pt_lim_mult id (fun _ => h k)); [apply derivable_pt_lim_id|apply derivable_pt_lim_const]. }
  pose proof (derivable_pt_lim_mult _ _ 0 _ _ D2 D3) as D. unfold mult_fct in D.
  assert (G0 : sgvm (fun i => sg6 i + 0 * h i) = g). { unfold g, sgvm. f_equal. rewrite !sum1_5. ring. }
  rewrite G0 in D. unfold mag_of. fold n c s0. fold g.
  match goal with |- derivable_pt_lim _ _ ?y => match type of D with derivable_pt_lim _ _ ?x => replace y with x; [exact D|] end end.
  rewrite N. set (mg := c * (g / s0) ^ n).
  assert (M1 : c * (INR n * (g / s0) ^ Nat.pred n * (b / g / s0)) = mg * INR n * b / (g * g)).
  { unfold mg. destruct n as [|n']; [cbn [INR]; field; lra|]. cbn [Nat.pred]. change ((g / s0) ^ S n') with (g / s0 * (g / s0) ^ n'). field. lra. }
  rewrite M1. cbn [andb]. unfold S6. cbn [Nat.leb]. unfold b, dotv. rewrite sum1_5.
  rewrite !kron_d6 by (exact K || (unfold idx; lia)).
  assert (K5 : idx 5 k) by (apply Nat.leb_le in L; unfold idx in *; lia). unfold idx in K5.
  assert (k = 1 \/ k = 2 \/ k = 3 \/ k = 4 \/ k = 5)%nat as KK by lia.
  destruct KK as [->|[->|[->|[->| ->]]]]; unfold d; cbn [Nat.eqb]; field; lra.
Qed.

Lemma sgvm_near sg6 h : 0 < sgvm sg6 -> exists r, 0 < r /\ forall t, Rabs t < r -> 0 < sgvm (fun i => sg6 i + t * h i).
Proof.
  intros P. pose proof (sgvm_line sg6 h P) as D. assert (CT : continuity_pt (fun t => sgvm (fun i => sg6 i + t * h i)) 0) by (apply derivable_continuous_pt; eexists; exact D).
  assert (G0 : sgvm (fun i => sg6 i + 0 * h i) = sgvm sg6). { unfold sgvm. f_equal. rewrite !sum1_5. ring. }
  destruct (CT (sgvm sg6) P) as (r & R0 & Q). exists r. split; [exact R0|]. intros t T. destruct (Req_dec 0 t) as [<-|NZ]; [rewrite G0; exact P|].
  specialize (Q t). assert (X : D_x no_cond 0 t /\ dist R_met t 0 < r). { split; [split; [exact I|exact NZ]|]. unfold dist, R_met. cbn [Base]. unfold R_dist. rewrite Rminus_0_r. exact T. }
  specialize (Q X). unfold dist, R_met in Q. cbn [Base] in Q. unfold R_dist in Q. rewrite G0 in Q. apply Rabs_def2 in Q. lra.
Qed.

(* The matrix the iteration uses for the slope of the flow is that slope. *)
Theorem C127_tangent m sg6 fl h k : regular_j2 m -> 0 < sgvm sg6 -> idx 6 k -> law_flow (J2 m) sg6 = Some fl ->
  exists f r, 0 < r /\ (forall t, Rabs t < r -> exists ft, law_flow (J2 m) (fun i => sg6 i + t * h i) = Some ft /\ fl_edotp6 ft k = f t) /\
    derivable_pt_lim f 0 (S6 (fun jj => fl_dedotp66 fl k jj * h jj)).
Proof.
  intros R P K E. cbn [law_flow] in *. rewrite j2_value in E by (assumption || lra). injection E as <-. cbn [fl_dedotp66].
  eexists. destruct (sgvm_near sg6 h P) as (r & R0 & C). exists r. split; [exact R0|]. split.
  - intros t T. rewrite j2_value; [|exact R|specialize (C t T); lra]. eexists. split; [reflexivity|]. cbn [fl_edotp6]. reflexivity.
  - exact (j2_line m sg6 h k R P K).
Qed.
Print Assumptions C127_tangent.

(* ---------- hardening ---------- *)
(* The steps of a history, each a plastic strain rate and its duration. *)
Fixpoint hardened_j2 (f : j2_file) (steps : list (T2 * R)) (g s : R) : option (R * R) :=
  match steps with
  | [] => Some (g, s)
  | (e, dt) :: rest => match harden_j2 f e dt g with Some (g', s') => hardened_j2 f rest g' s' | None => None end
  end.

Theorem C127_history f steps : f_sigma1 f <> 0 -> hardened_j2 f steps 0 (j_strength (start_j2 (read_j2 1 1 f))) =
  Some (total (map (fun s : T2 * R => mises (2 / 3) (sym_part (fst s)) * snd s) steps),
        f_sigma0 f + voce (f_sigma1 f) (f_thet0 f) (f_thet1 f) (total (map (fun s : T2 * R => mises (2 / 3) (sym_part (fst s)) * snd s) steps))).
Proof.
  intros Z. cbn [start_j2 read_j2 j_strength ph_file].
  assert (G : forall steps g, hardened_j2 f steps g (f_sigma0 f + voce (f_sigma1 f) (f_thet0 f) (f_thet1 f) g) =
    let q := g + total (map (fun s : T2 * R => mises (2 / 3) (sym_part (fst s)) * snd s) steps) in Some (q, f_sigma0 f + voce (f_sigma1 f) (f_thet0 f) (f_thet1 f) q)).
  { induction steps0 as [|[e dt] rest IH]; intros g; cbn [hardened_j2 map total]; cbv zeta; [rewrite Rplus_0_r; reflexivity|].
    unfold harden_j2. destruct (Req_EM_T (f_sigma1 f) 0); [contradiction|]. cbv zeta. unfold voce in IH at 1. rewrite IH. cbv zeta. cbn [fst snd]. rewrite C115_strain.
    rewrite Rplus_assoc. reflexivity. }
  specialize (G steps 0). cbv zeta in G. rewrite Rplus_0_l in G. rewrite <- G. f_equal. unfold voce. rewrite Ropp_0, Rmult_0_l, exp_0. ring.
Qed.
Print Assumptions C127_history.

(* It never softens. *)
Theorem C127_grows f steps more g s g' s' : 0 < f_sigma1 f -> 0 <= f_thet1 f -> (forall e, In e (steps ++ more) -> 0 <= snd e) ->
  hardened_j2 f steps 0 (j_strength (start_j2 (read_j2 1 1 f))) = Some (g, s) -> hardened_j2 f (steps ++ more) 0 (j_strength (start_j2 (read_j2 1 1 f))) = Some (g', s') -> g <= g' /\ s <= s' /\ f_sigma0 f <= s.
Proof.
  intros S1 T1' D H H'. rewrite C127_history in H by lra. rewrite C127_history in H' by lra. injection H as <- <-. injection H' as <- <-.
  rewrite map_app, total_app. set (w := fun s0 : T2 * R => mises (2 / 3) (sym_part (fst s0)) * snd s0).
  assert (P : forall l, (forall e, In e l -> 0 <= snd e) -> 0 <= total (map w l)).
  { induction l as [|e l IH]; intros Q; cbn [map total]; [lra|]. specialize (IH (fun x I => Q x (or_intror I))). specialize (Q e (or_introl eq_refl)). assert (0 <= w e) by (unfold w; apply Rmult_le_pos; [apply sqrt_pos|exact Q]). lra. }
  assert (A : 0 <= total (map w steps)) by (apply P; intros e I; apply D, in_or_app; left; exact I). assert (B : 0 <= total (map w more)) by (apply P; intros e I; apply D, in_or_app; right; exact I).
  split; [lra|]. pose proof (voce_mono (f_sigma1 f) (f_thet0 f) (f_thet1 f) (total (map w steps)) (total (map w steps) + total (map w more))) as V.
  pose proof (voce_mono (f_sigma1 f) (f_thet0 f) (f_thet1 f) 0 (total (map w steps))) as V0. assert (Z : voce (f_sigma1 f) (f_thet0 f) (f_thet1 f) 0 = 0) by (unfold voce; rewrite Ropp_0, Rmult_0_l, exp_0; ring).
  split; [apply Rplus_le_compat_l, V; lra|]. rewrite Z in V0. specialize (V0 ltac:(lra) ltac:(lra) ltac:(lra)). lra.
Qed.
Print Assumptions C127_grows.

(* The scales a caller gives convert the elastic constants, not the strength. *)
Theorem C127_units_refuted f k t : f_sigma0 f <> 0 -> k <> 1 -> ph_elast (read_j2 k t f) = k /\ j_strength (start_j2 (read_j2 k t f)) <> k * f_sigma0 f.
Proof. intros Z K. split; [reflexivity|]. cbn [start_j2 read_j2 ph_file j_strength]. intros E. apply K. apply (Rmult_eq_reg_r (f_sigma0 f)); [lra|exact Z]. Qed.
Print Assumptions C127_units_refuted.

Example C127_met : exists m sigma A f, regular_j2 m /\ (2 <= j_nrs m)%Z /\ symmetric sigma /\ sheared sigma /\ rotation A /\ 0 < sgvm (chg_basis_2 6 sigma) /\ 0 < f_sigma1 f /\ 0 <= f_thet1 f.
Proof.
  exists {| j_e0 := 1; j_nrs := 10; j_strength := 100 |}, (tension 150), d, {| f_nrs := 10; f_e0 := 1; f_sigma0 := 100; f_sigma1 := 50; f_thet0 := 200; f_thet1 := 10 |}.
  split; [unfold regular_j2; cbn [j_nrs j_e0 j_strength]; repeat split; solve [lia|lra]|]. split; [cbn [j_nrs]; lia|]. destruct (tension_met 150) as [A B]; [lra|]. split; [exact A|]. split; [exact B|].
  split; [split; [intros i j I J; all3 I; all3 J; unfold S3, d; cbn [Nat.eqb]; ring|unfold det3, d; cbn [Nat.eqb]; ring]|]. split; [apply sgvm_pos; assumption|]. cbn [f_sigma1 f_thet1]. lra.
Qed.
