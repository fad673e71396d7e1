(* Equivalent strains and stresses: C115. *)
From Coq Require Import Reals List Arith Lia Lra ZArith Bool.
From Verif Require Import BaseReal LinModel EvpModel EvpFlowModel EvpStepModel EvpSpec EvpFlowSpec EvpBasis EvpElast EvpSlip.
Import ListNotations.
Local Open Scope R_scope.

(* The norm of the deviator of a symmetric tensor, scaled by c. *)
Definition mises (c : R) (A : nat -> nat -> R) : R := sqrt (c * ddot (deviator A) (deviator A)).

Lemma kron_d3 i j : idx 3 i -> idx 3 j -> kron i j = d i j.
Proof. intros I J. all3 I; all3 J; reflexivity. Qed.
Lemma S3_swap (f : nat -> nat -> R) : S3 (fun i => S3 (fun j => f i j)) = S3 (fun j => S3 (fun i => f i j)).
Proof. unfold S3. ring. Qed.

(* C115: vm is the norm of the deviatoric strain. *)
Theorem C115_strain D : vm D = mises (2 / 3) (sym_part D).
Proof.
  unfold vm, mises. cbv zeta. f_equal. f_equal. rewrite sum1_3. unfold ddot. rewrite S3_swap. apply S3_ext. intros j J. rewrite sum1_3. apply S3_ext. intros i I.
  rewrite kron_d3 by assumption. unfold deviator, sym_part, trace, S3. assert (E : forall a b : R, a = b -> a * a = b * b) by (intros; subst; reflexivity). apply E. field.
Qed.
Print Assumptions C115_strain.

(* The stress the output shows and the one the convergence test divides by. *)
Theorem C115_stress (m : mem) sigma : (forall i j, idx 3 i -> idx 3 j -> m ((i - 1) + 3 * (j - 1))%nat = sigma i j) -> symmetric sigma ->
  vm_stress m = mises (3 / 2) sigma /\ svm_of sigma = mises (3 / 2) sigma.
Proof.
  intros H S. split.
  - unfold vm_stress, mises. f_equal.
    pose proof (H 1 1 ltac:(unfold idx; lia) ltac:(unfold idx; lia))%nat as H11. pose proof (H 2 2 ltac:(unfold idx; lia) ltac:(unfold idx; lia))%nat as H22. pose proof (H 3 3 ltac:(unfold idx; lia) ltac:(unfold idx; lia))%nat as H33.
    pose proof (H 2 1 ltac:(unfold idx; lia) ltac:(unfold idx; lia))%nat as H21. pose proof (H 3 1 ltac:(unfold idx; lia) ltac:(unfold idx; lia))%nat as H31. pose proof (H 3 2 ltac:(unfold idx; lia) ltac:(unfold idx; lia))%nat as H32.
    cbn [Nat.sub Nat.add Nat.mul] in H11, H22, H33, H21, H31, H32. rewrite H11, H22, H33, H21, H31, H32.
    unfold ddot, deviator, trace, S3, d. cbn [Nat.eqb]. rewrite (S 1 2 ltac:(unfold idx; lia) ltac:(unfold idx; lia))%nat, (S 1 3 ltac:(unfold idx; lia) ltac:(unfold idx; lia))%nat, (S 2 3 ltac:(unfold idx; lia) ltac:(unfold idx; lia))%nat. field.
  - unfold svm_of, mises. cbv zeta. f_equal. f_equal. rewrite sum1_3. unfold ddot. rewrite S3_swap. apply S3_ext. intros j J. rewrite sum1_3. apply S3_ext. intros i I.
    rewrite <- (dev_expand sigma i j S I J). reflexivity.
Qed.
Print Assumptions C115_stress.

(* The plastic strain keeps the volume (C108_flow), so that EVMP, which takes no
   deviator, is its equivalent strain too. *)
Theorem C115_plastic e : symmetric e -> trace e = 0 -> evmp e = mises (2 / 3) e /\ evmp e = vm e.
Proof.
  intros S T. assert (E : evmp e = mises (2 / 3) e).
  { unfold evmp, mises. f_equal. f_equal. rewrite sum1_3. unfold ddot. rewrite S3_swap. apply S3_ext. intros j J. rewrite sum1_3. apply S3_ext. intros i I.
    unfold deviator. rewrite T. assert (Q : forall a b : R, a = b -> a * a = b * b) by (intros; subst; reflexivity). apply Q. field. }
  split; [exact E|]. rewrite E, C115_strain. unfold mises. f_equal. f_equal. unfold ddot. apply S3_ext. intros i I. apply S3_ext. intros j J.
  assert (Q : deviator e i j = deviator (sym_part e) i j); [|rewrite Q; reflexivity].
  unfold deviator, sym_part, trace, S3. rewrite (S j i J I). field.
Qed.
Print Assumptions C115_plastic.

Lemma mises_ext c A B : (forall i j, idx 3 i -> idx 3 j -> A i j = B i j) -> mises c A = mises c B.
Proof.
  intros H. unfold mises. f_equal. f_equal. unfold ddot. apply S3_ext. intros i I. apply S3_ext. intros j J. unfold deviator, trace.
  rewrite (H i j I J), (S3_ext (fun i => A i i) (fun i => B i i)) by (intros; apply H; assumption). reflexivity.
Qed.

Lemma rot_cols A : rotation A -> orthogonal_cols A.
Proof. intros [R _]. apply rows_cols. exact R. Qed.

(* It does not depend on the axes, *)
Theorem C115_axes c A E : rotation A -> mises c (turned A E) = mises c E.
Proof.
  intros R. unfold mises. f_equal. f_equal.
  assert (D : forall i j, idx 3 i -> idx 3 j -> deviator (turned A E) i j = turned A (deviator E) i j).
  { intros i j I J. rewrite turned_dev by assumption. unfold deviator. rewrite (turned_trace A E (rot_cols A R)). reflexivity. }
  transitivity (ddot (turned A (deviator E)) (turned A (deviator E))).
  - unfold ddot. apply S3_ext. intros i I. apply S3_ext. intros j J. rewrite (D i j I J). reflexivity.
  - rewrite <- ddot_turned. unfold ddot. apply S3_ext. intros i I. apply S3_ext. intros j J. rewrite turned_back by (try apply rot_cols; assumption). reflexivity.
Qed.
Print Assumptions C115_axes.

Theorem C115_strain_axes A D : rotation A -> vm (turned A D) = vm D.
Proof.
  intros R. rewrite !C115_strain, <- (C115_axes (2 / 3) A (sym_part D) R). apply mises_ext. intros i j _ _. unfold sym_part, turned, S3. field.
Qed.
Print Assumptions C115_strain_axes.

(* nor on a rigid rotation or a change of volume, scales with its argument, *)
Theorem C115_shape D W p k : antisymmetric W -> vm (fun i j => D i j + W i j + p * d i j) = vm D /\ vm (fun i j => k * D i j) = Rabs k * vm D.
Proof.
  intros A. split.
  - rewrite !C115_strain. unfold mises. f_equal. f_equal. unfold ddot. apply S3_ext. intros i I. apply S3_ext. intros j J.
    assert (Q : deviator (sym_part (fun i j => D i j + W i j + p * d i j)) i j = deviator (sym_part D) i j); [|rewrite Q; reflexivity].
    assert (WW : forall a, idx 3 a -> W a a = 0) by (intros a Ha; pose proof (A a a Ha Ha); lra).
    pose proof (WW 1%nat ltac:(unfold idx; lia)). pose proof (WW 2%nat ltac:(unfold idx; lia)). pose proof (WW 3%nat ltac:(unfold idx; lia)). pose proof (A i j I J).
    unfold deviator, sym_part, trace, S3. all3 I; all3 J; unfold d; cbn [Nat.eqb]; lra.
  - rewrite !C115_strain. unfold mises. rewrite <- sqrt_Rsqr_abs, <- sqrt_mult_alt by (apply Rle_0_sqr). f_equal. unfold Rsqr, ddot, deviator, sym_part, trace, S3. field.
Qed.
Print Assumptions C115_shape.

Lemma ddot_pos A : 0 <= ddot A A.
Proof. unfold ddot, S3. assert (forall a b, 0 <= A a b * A a b) as H by (intros; nra). pose proof (H 1 1)%nat. pose proof (H 1 2)%nat. pose proof (H 1 3)%nat. pose proof (H 2 1)%nat. pose proof (H 2 2)%nat. pose proof (H 2 3)%nat. pose proof (H 3 1)%nat. pose proof (H 3 2)%nat. pose proof (H 3 3)%nat. lra. Qed.
Lemma ddot_zero A i j : ddot A A = 0 -> idx 3 i -> idx 3 j -> A i j = 0.
Proof.
  intros Z I J. destruct (Req_dec (A i j) 0) as [|N]; [assumption|]. exfalso. assert (P : 0 < A i j * A i j) by nra. unfold ddot, S3 in Z.
  assert (forall a b, 0 <= A a b * A a b) as H by (intros; nra). pose proof (H 1 1)%nat. pose proof (H 1 2)%nat. pose proof (H 1 3)%nat. pose proof (H 2 1)%nat. pose proof (H 2 2)%nat. pose proof (H 2 3)%nat. pose proof (H 3 1)%nat. pose proof (H 3 2)%nat. pose proof (H 3 3)%nat.
  all3 I; all3 J; lra.
Qed.
Lemma cauchy A B : ddot A B <= sqrt (ddot A A) * sqrt (ddot B B).
Proof.
  rewrite <- sqrt_mult_alt by apply ddot_pos. destruct (Rle_dec (ddot A B) 0) as [N|N]; [apply Rle_trans with 0; [exact N|apply sqrt_pos]|].
  rewrite <- (sqrt_square (ddot A B)) by lra. apply sqrt_le_1_alt.
  pose proof (ddot_pos A) as PA. pose proof (ddot_pos B) as PB. pose proof (ddot_pos (fun i j => ddot B B * A i j - ddot A B * B i j)) as Q.
  assert (E : ddot (fun i j => ddot B B * A i j - ddot A B * B i j) (fun i j => ddot B B * A i j - ddot A B * B i j) = ddot B B * (ddot A A * ddot B B - ddot A B * ddot A B)).
  { set (b := ddot B B). set (ab := ddot A B). transitivity (b * b * ddot A A - 2 * b * ab * ddot A B + ab * ab * ddot B B); [unfold ddot, S3; ring|]. fold ab. fold b. ring. }
  rewrite E in Q. destruct (Req_dec (ddot B B) 0) as [Z|NZ].
  - exfalso. apply N. unfold ddot at 1, S3. rewrite !(ddot_zero B) by (assumption || (unfold idx; lia)). lra.
  - assert (0 < ddot B B) by lra. nra.
Qed.

(* and of a sum is at most the sum. *)
Theorem C115_triangle D D' : vm (fun i j => D i j + D' i j) <= vm D + vm D'.
Proof.
  rewrite !C115_strain. unfold mises. set (x := deviator (sym_part D)). set (y := deviator (sym_part D')).
  assert (E : ddot (deviator (sym_part (fun i j => D i j + D' i j))) (deviator (sym_part (fun i j => D i j + D' i j))) = ddot x x + 2 * ddot x y + ddot y y).
  { transitivity (ddot (fun i j => x i j + y i j) (fun i j => x i j + y i j)); [|unfold ddot, S3; ring].
    unfold ddot. apply S3_ext. intros i I. apply S3_ext. intros j J. assert (Q : deviator (sym_part (fun i j => D i j + D' i j)) i j = x i j + y i j) by (unfold x, y, deviator, sym_part, trace, S3; field). rewrite Q. reflexivity. }
  rewrite E. rewrite !(sqrt_mult_alt (2 / 3)) by lra. rewrite <- Rmult_plus_distr_l. apply Rmult_le_compat_l; [apply sqrt_pos|].
  rewrite <- (sqrt_square (sqrt (ddot x x) + sqrt (ddot y y))) by (pose proof (sqrt_pos (ddot x x)); pose proof (sqrt_pos (ddot y y)); lra). apply sqrt_le_1_alt.
  pose proof (cauchy x y). pose proof (sqrt_sqrt _ (ddot_pos x)). pose proof (sqrt_sqrt _ (ddot_pos y)). nra.
Qed.
Print Assumptions C115_triangle.

(* It vanishes for changes of volume and rigid rotations alone; in a tensile test it is
   the axial strain and the axial stress. *)
Theorem C115_zero D : vm D = 0 <-> exists p, forall i j, idx 3 i -> idx 3 j -> sym_part D i j = p * d i j.
Proof.
  rewrite C115_strain. unfold mises. split.
  - intros Z. exists (trace (sym_part D) / 3). intros i j I J. pose proof (ddot_pos (deviator (sym_part D))). apply sqrt_eq_0 in Z; [|lra].
    pose proof (ddot_zero (deviator (sym_part D)) i j ltac:(lra) I J) as Q. unfold deviator in Q. lra.
  - intros (p & H). rewrite <- sqrt_0. f_equal. enough (ddot (deviator (sym_part D)) (deviator (sym_part D)) = 0) by lra.
    unfold ddot. rewrite (S3_ext _ (fun _ => 0)); [unfold S3; ring|]. intros i I. rewrite (S3_ext _ (fun _ => 0)); [unfold S3; ring|]. intros j J.
    assert (Q : deviator (sym_part D) i j = 0); [|rewrite Q; ring]. unfold deviator, trace. rewrite (S3_ext _ (fun i => p * d i i)) by (intros; apply H; assumption). rewrite (H i j I J). unfold S3. unfold d at 3 4 5. cbn [Nat.eqb]. field.
Qed.
Print Assumptions C115_zero.

Theorem C115_tension e s : vm (fun i j => e * (3 * (d i 1 * d j 1) - d i j) / 2) = Rabs e /\ mises (3 / 2) (fun i j => s * (d i 1 * d j 1)) = Rabs s.
Proof.
  split; [rewrite C115_strain|]; unfold mises; rewrite <- sqrt_Rsqr_abs; f_equal; unfold Rsqr, ddot, deviator, sym_part, trace, S3, d; cbn [Nat.eqb]; field.
Qed.
Print Assumptions C115_tension.

Example C115_met : exists e W, symmetric e /\ trace e = 0 /\ antisymmetric W /\ W 1%nat 2%nat <> 0 /\ e 1%nat 1%nat = 2.
Proof.
  exists (fun i j => 3 * (d i 1 * d j 1) - d i j), (fun i j => INR j - INR i). split; [intros i j _ _; unfold d; rewrite (Nat.eqb_sym j i); ring|].
  split; [unfold trace, S3, d; cbn [Nat.eqb]; ring|]. split; [intros i j _ _; ring|]. split; [cbn; lra|unfold d; cbn [Nat.eqb]; ring].
Qed.
