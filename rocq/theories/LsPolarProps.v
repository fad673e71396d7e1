(* C121: the polar decomposition of the large-strain solver. *)
From Coq Require Import Reals List Arith Lia Lra Psatz.
From Verif Require Import EvpModel EvpSpec EvpBasis LsSpec LsModel LsMat LsInv LsPolar.
Local Open Scope R_scope.

(* Whenever the decomposition of a deformation that turns no vector by a right angle
   comes back, it is one: F = V R, V a stretch, R a rotation up to 4e-12. *)
Theorem C121_decomposed : forall F V R, acute F -> defgrad_dcmp F = Decomposed V R ->
  same (product V R) F /\ stretch V /\ nearly_rotation (4 / 10 ^ 12) R.
Proof.
  intros F V R H E. apply of2_acute in H. pose proof (inverted_acute F H) as I. pose proof (good_start _ _ H I) as G.
  destruct (loop_ok F iter_max 1 F G) as [X|(V' & R' & X & E1 & E2 & E3 & E4 & E5)]; unfold defgrad_dcmp in E; rewrite E in X; [discriminate|].
  injection X as <- <-. split; [|split; [split|split]].
  - apply of2_same. rewrite of2_product. exact E1.
  - apply of2_symmetric. exact E2.
  - apply of2_acute. exact E3.
  - intros i j I' J'. specialize (E4 i j I' J'). replace (S3 (fun k => R k i * R k j)) with (to2 (mm (mt (of2 R)) (of2 R)) i j); [exact E4|].
    clear - I' J'. revert I' J'. cases_ij i j; reflexivity.
  - rewrite of2_det. exact E5.
Qed.

(* And it comes back, unless the deformation is too stretched: |F| |F^-1| <= 1e17. *)
Theorem C121_returns : forall F G, acute F -> inverses F G -> size F * size G <= 10 ^ 17 ->
  exists V R, defgrad_dcmp F = Decomposed V R.
Proof.
  intros F G H I K. apply of2_acute in H. apply of2_inverses in I. rewrite !of2_size in K. pose proof (returns F _ H I K) as N.
  destruct (loop_ok F iter_max 1 F (good_start _ _ H I)) as [X|(V & R & X & _)]; [exfalso; apply N; exact X|]. exists V, R. exact X.
Qed.

(* It divides by zero for no acute deformation. *)
Theorem C121_no_division_by_zero : forall F, acute F -> defgrad_dcmp F <> NotANumber.
Proof.
  intros F H. apply of2_acute in H. pose proof (inverted_acute F H) as I.
  destruct (loop_ok F iter_max 1 F (good_start _ _ H I)) as [X|(V & R & X & _)]; unfold defgrad_dcmp; rewrite X; discriminate.
Qed.

(* A deformation closer to the identity than 1, in norm, is acute. *)
Theorem C121_small_increment : forall F, size (minus F d) < 1 -> acute F.
Proof.
  intros F H. rewrite of2_size in H. apply of2_acute. intros v N.
  assert (E : of2 F = ma one (of2 (minus F d))) by (apply m3_ext; unfold minus, of2, d, ma, one; cbn [Nat.eqb x11 x12 x13 x21 x22 x23 x31 x32 x33]; ring).
  rewrite E. set (e := of2 (minus F d)) in *. clearbody e. clear E.
  assert (P : 0 < vd v v). { pose proof (ac_one v N) as Q. rewrite mv_one in Q. exact Q. }
  replace (vd v (mv (ma one e) v)) with (vd v v + vd v (mv e v)) by meq.
  assert (Sq : f2 e < 1). { rewrite <- nm_sq. pose proof (nm_nonneg e) as W. clear - H W. nra. }
  pose proof (cauchy e (M (w1 v * w1 v) (w1 v * w2 v) (w1 v * w3 v) (w2 v * w1 v) (w2 v * w2 v) (w2 v * w3 v) (w3 v * w1 v) (w3 v * w2 v) (w3 v * w3 v))) as C.
  set (o := M _ _ _ _ _ _ _ _ _) in C.
  assert (E1 : ip e o = vd v (mv e v)) by (unfold o; meq). assert (E2 : f2 o = vd v v * vd v v) by (unfold o; meq).
  rewrite E1, E2 in C. set (q := vd v (mv e v)) in *. set (p := vd v v) in *. pose proof (f2_nonneg e).
  assert (Rabs q < p); [|unfold Rabs in *; destruct (Rcase_abs q); lra].
  apply Rsqr_incrst_0; [|apply Rabs_pos|lra]. rewrite <- Rsqr_abs. unfold Rsqr.
  assert (Pp : 0 < p * p) by (apply Rmult_lt_0_compat; assumption). assert (T : 0 < (1 - f2 e) * (p * p)) by (apply Rmult_lt_0_compat; lra). lra.
Qed.

(* A rotation by less than a right angle is returned unchanged, with no stretch. *)
Theorem C121_rotation : forall Q, acute Q -> rotation Q -> exists V R, defgrad_dcmp Q = Decomposed V R /\ same R Q /\ same V d.
Proof.
  intros Q H [O _]. apply of2_acute in H. pose proof (inverted_acute Q H) as I.
  assert (E1 : mm (of2 Q) (mt (of2 Q)) = one).
  { rewrite <- of2_transposed, <- of2_product, <- of2_d. apply of2_same. intros i j I' J'. exact (O i j I' J'). }
  assert (B : of2 (inverted 3 Q) = mt (of2 Q)).
  { destruct I as [I1 I2]. rewrite <- (mm_1r (of2 (inverted 3 Q))), <- E1, mm_assoc, I2, mm_1l. reflexivity. }
  rewrite B in I. destruct (polar_next_value 1 Q _ I B) as (N & E & EN).
  assert (C : factor 1 (of2 Q) (mt (of2 Q)) = 1).
  { unfold factor. destruct (Rlt_dec 1 (1 / 10)); [lra|]. rewrite nm_mt. pose proof (nm_inv_pos _ _ I). replace (nm (of2 Q) / nm (of2 Q)) with 1 by (field; lra). apply sqrt_1. }
  rewrite C in EN. assert (EN' : of2 N = of2 Q) by (rewrite EN; unfold iterate; rewrite mt_mt; mx; field).
  unfold defgrad_dcmp, iter_max. remember 49%nat as n eqn:En. cbn [polar_loop]. rewrite E, polar_error_value, EN'.
  replace (f2 (ma (of2 Q) (ms (- 1) (of2 Q)))) with 0 by meq. destruct (Rlt_dec 0 (/ 10 ^ 12)) as [_|X]; [|exfalso; apply X; apply Rinv_0_lt_compat, pow_lt; lra].
  exists (mmul Q (inverted 3 N)), N. split; [reflexivity|]. split; [apply of2_same; exact EN'|].
  apply of2_same. rewrite of2_mmul. assert (HN : ac (of2 N)) by (rewrite EN'; exact H). pose proof (inverted_acute N HN) as J. rewrite EN' in J.
  rewrite (inv3_unique _ _ _ J I). exact E1.
Qed.

(* A quarter turn about the third axis: the first pivot is zero, invert_matrix
   returns the matrix itself, and the "rotation" returned is diag(0,0,1). *)
Definition quarter : T2 := fun i j =>
  match i, j with 1%nat, 2%nat => -1 | 2%nat, 1%nat => 1 | 3%nat, 3%nat => 1 | _, _ => 0 end.
Theorem C121_quarter_turn_refuted : rotation quarter /\ size quarter * size (transposed quarter) = 3 /\
  exists V R, defgrad_dcmp quarter = Decomposed V R /\ det3 R = 0 /\ R 1%nat 1%nat = 0 /\ R 2%nat 1%nat = 0 /\ V 1%nat 1%nat = 0.
Proof.
  split; [split; [intros i j; cases_ij i j; unfold S3, quarter, d; cbn [Nat.eqb]; ring|unfold det3, quarter; ring]|]. split.
  { unfold size. replace (ddot (transposed quarter) (transposed quarter)) with (ddot quarter quarter) by (unfold ddot, transposed, S3; ring).
    rewrite sqrt_sqrt; unfold ddot, S3, quarter; lra. }
  assert (Step : forall e A, A 1%nat 1%nat = 0 -> f2 (of2 A) <> 0 -> exists N, polar_next e A = Some N /\ of2 N = iterate 1 (of2 A) (of2 A)).
  { intros e A Z F. pose proof (inverted_stuck A Z) as S. unfold polar_next. destruct (Rlt_dec e (1 / 10)) as [L|L].
    - eexists. split; [reflexivity|]. transitivity (iterate 1 (of2 A) (of2 (inverted 3 A))); [reflexivity|rewrite S; reflexivity].
    - rewrite !of2_frob, S. assert (P : 0 < nm (of2 A)) by (apply sqrt_lt_R0; pose proof (f2_nonneg (of2 A)); lra).
      destruct (Req_EM_T (nm (of2 A)) 0) as [X|_]; [lra|]. replace (nm (of2 A) / nm (of2 A)) with 1 by (field; lra). rewrite sqrt_1.
      destruct (Req_EM_T 1 0) as [X|_]; [lra|]. eexists. split; [reflexivity|]. transitivity (iterate 1 (of2 A) (of2 (inverted 3 A))); [reflexivity|rewrite S; reflexivity]. }
  assert (Q2 : of2 quarter = M 0 (-1) 0 1 0 0 0 0 1) by reflexivity.
  destruct (Step 1 quarter eq_refl) as (N1 & E1 & V1); [rewrite Q2; mx; lra|]. rewrite Q2 in V1.
  assert (W1 : of2 N1 = M 0 0 0 0 0 0 0 0 1) by (rewrite V1; unfold iterate; mx; field).
  destruct (Step (f2 (ma (of2 N1) (ms (- 1) (of2 quarter)))) N1) as (N2 & E2 & V2); [change (N1 1%nat 1%nat) with (x11 (of2 N1)); rewrite W1; reflexivity|rewrite W1; mx; lra|]. rewrite W1 in V2.
  assert (W2 : of2 N2 = M 0 0 0 0 0 0 0 0 1) by (rewrite V2; unfold iterate; mx; field).
  unfold defgrad_dcmp, iter_max. remember 48%nat as n eqn:En. cbn [polar_loop]. rewrite E1, polar_error_value.
  destruct (Rlt_dec _ _) as [L|_]; [exfalso; rewrite W1, Q2 in L; revert L; mx; intros L; lra|].
  rewrite E2, polar_error_value, W2, W1. destruct (Rlt_dec _ _) as [_|L]; [|exfalso; apply L; mx; lra].
  exists (mmul quarter (inverted 3 N2)), N2. split; [reflexivity|]. rewrite of2_det, W2. split; [mx; ring|].
  split; [change (N2 1%nat 1%nat) with (x11 (of2 N2)); rewrite W2; reflexivity|]. split; [change (N2 2%nat 1%nat) with (x21 (of2 N2)); rewrite W2; reflexivity|].
  change (mmul quarter (inverted 3 N2) 1%nat 1%nat) with (x11 (of2 (mmul quarter (inverted 3 N2)))). rewrite of2_mmul, inverted_stuck, W2, Q2; [mx; ring|].
  change (N2 1%nat 1%nat) with (x11 (of2 N2)). rewrite W2. reflexivity.
Qed.

(* A case: simple shear by 3/2. *)
Definition sheared : T2 := fun i j => match i, j with 1%nat, 2%nat => 3 / 2 | _, _ => d i j end.
Definition unsheared : T2 := fun i j => match i, j with 1%nat, 2%nat => - (3 / 2) | _, _ => d i j end.
Example C121_met : acute sheared /\ inverses sheared unsheared /\ size sheared * size unsheared <= 10 ^ 17.
Proof.
  split; [|split].
  - intros x (i & I & X). unfold vdot, mul_v, S3, sheared, d. cbn [Nat.eqb].
    set (a := x 1%nat). set (b := x 2%nat). set (c := x 3%nat).
    replace (a * (1 * a + 3 / 2 * b + 0 * c) + b * (0 * a + 1 * b + 0 * c) + c * (0 * a + 0 * b + 1 * c)) with ((a + 3 / 4 * b) * (a + 3 / 4 * b) + 7 / 16 * (b * b) + c * c) by field.
    pose proof (Rle_0_sqr (a + 3 / 4 * b)) as S1. pose proof (Rle_0_sqr b) as S2. pose proof (Rle_0_sqr c) as S3'. unfold Rsqr in *.
    destruct (Req_dec b 0) as [Zb|Nb]; [|assert (0 < b * b) by nra; lra].
    destruct (Req_dec c 0) as [Zc|Nc]; [|assert (0 < c * c) by nra; lra].
    destruct (Req_dec a 0) as [Za|Na]; [|rewrite Zb, Zc; assert (0 < a * a) by nra; lra].
    exfalso. destruct (idx3 i I) as [->|[->| ->]]; contradiction.
  - split; intros i j; cases_ij i j; unfold product, S3, sheared, unsheared, d; cbn [Nat.eqb]; ring.
  - assert (E : size unsheared = size sheared) by (unfold size; f_equal; unfold ddot, S3, sheared, unsheared, d; cbn [Nat.eqb]; ring). rewrite E. unfold size.
    rewrite sqrt_sqrt; unfold ddot, S3, sheared, d; cbn [Nat.eqb]; lra.
Qed.

Print Assumptions C121_decomposed.
Print Assumptions C121_returns.
Print Assumptions C121_no_division_by_zero.
Print Assumptions C121_small_increment.
Print Assumptions C121_rotation.
Print Assumptions C121_quarter_turn_refuted.
