(* The tensor basis. *)
From Coq Require Import Reals List Arith Lia Lra.
From Verif Require Import BaseReal LinModel LinSpec LinProofs EvpModel EvpSpec.
Import ListNotations.
Local Open Scope R_scope.

Lemma sum1_3 f : sum1 3 f = S3 f.
Proof. unfold sum1, S3. cbn [sumn]. ring. Qed.
Lemma sum1_6 f : sum1 6 f = S6 f.
Proof. unfold sum1, S6. cbn [sumn]. ring. Qed.
Lemma S3_ext f g : (forall i, idx 3 i -> f i = g i) -> S3 f = S3 g.
Proof. intros H. unfold S3. rewrite !H by (unfold idx; lia). reflexivity. Qed.
Lemma S6_ext f g : (forall i, idx 6 i -> f i = g i) -> S6 f = S6 g.
Proof. intros H. unfold S6. rewrite !H by (unfold idx; lia). reflexivity. Qed.
Lemma idx3 i : idx 3 i -> i = 1%nat \/ i = 2%nat \/ i = 3%nat.
Proof. unfold idx. lia. Qed.
Lemma idx6 i : idx 6 i -> i = 1%nat \/ i = 2%nat \/ i = 3%nat \/ i = 4%nat \/ i = 5%nat \/ i = 6%nat.
Proof. unfold idx. lia. Qed.

Ltac all3 H := destruct (idx3 _ H) as [->|[->| ->]].
Ltac all6 H := destruct (idx6 _ H) as [->|[->|[->|[->|[->| ->]]]]].

Lemma inv_sqrt_sq x : 0 < x -> / sqrt x * / sqrt x = / x.
Proof. intros H. rewrite <- Rinv_mult. rewrite sqrt_sqrt by lra. reflexivity. Qed.
Lemma q2 : RSQ2_ * RSQ2_ = 1 / 2.
Proof. unfold RSQ2_. rewrite inv_sqrt_sq by lra. lra. Qed.
Lemma q3 : RSQ3_ * RSQ3_ = 1 / 3.
Proof. unfold RSQ3_. rewrite inv_sqrt_sq by lra. lra. Qed.
Lemma q6 : RSQ6_ * RSQ6_ = 1 / 6.
Proof. unfold RSQ6_. rewrite inv_sqrt_sq by lra. lra. Qed.

Lemma basis_sym i j n : B_basis i j n = B_basis j i n.
Proof. destruct i as [|[|[|[|i]]]]; destruct j as [|[|[|[|j]]]]; destruct n as [|[|[|[|[|[|[|n]]]]]]]; reflexivity. Qed.

Lemma basis_orthonormal n m : idx 6 n -> idx 6 m -> S3 (fun i => S3 (fun j => B_basis i j n * B_basis i j m)) = d n m.
Proof.
  intros N M. pose proof q2. pose proof q3. pose proof q6. all6 N; all6 M; unfold S3, d, B_basis; cbn [Nat.eqb]; generalize dependent RSQ2_; generalize dependent RSQ3_; generalize dependent RSQ6_; intros; lra.
Qed.

Lemma basis_complete i j k l : idx 3 i -> idx 3 j -> idx 3 k -> idx 3 l ->
  S6 (fun n => B_basis i j n * B_basis k l n) = (d i k * d j l + d i l * d j k) / 2.
Proof.
  intros I J K L. pose proof q2. pose proof q3. pose proof q6. all3 I; all3 J; all3 K; all3 L; unfold S6, d, B_basis; cbn [Nat.eqb]; generalize dependent RSQ2_; generalize dependent RSQ3_; generalize dependent RSQ6_; intros; lra.
Qed.

Lemma basis_trace n : idx 5 n -> S3 (fun i => B_basis i i n) = 0.
Proof. intros N. assert (H : n = 1%nat \/ n = 2%nat \/ n = 3%nat \/ n = 4%nat \/ n = 5%nat) by (unfold idx in N; lia). destruct H as [->|[->|[->|[->| ->]]]]; unfold S3, B_basis; ring. Qed.

Lemma basis_6 i j : idx 3 i -> idx 3 j -> B_basis i j 6 = d i j * RSQ3_.
Proof. intros I J. all3 I; all3 J; unfold B_basis, d; cbn [Nat.eqb]; ring. Qed.

Ltac fold_S := unfold S3, S6; ring.

Lemma S3_scal c f : S3 (fun i => c * f i) = c * S3 f. Proof. fold_S. Qed.
Lemma S3_plus f g : S3 (fun i => f i + g i) = S3 f + S3 g. Proof. fold_S. Qed.
Lemma S6_scal c f : S6 (fun i => c * f i) = c * S6 f. Proof. fold_S. Qed.
Lemma S6_plus f g : S6 (fun i => f i + g i) = S6 f + S6 g. Proof. fold_S. Qed.
Lemma S3_S6 f : S3 (fun i => S6 (fun n => f i n)) = S6 (fun n => S3 (fun i => f i n)). Proof. fold_S. Qed.
Lemma S3_S3 f : S3 (fun i => S3 (fun n => f i n)) = S3 (fun n => S3 (fun i => f i n)). Proof. fold_S. Qed.
Lemma S6_S6 f : S6 (fun i => S6 (fun n => f i n)) = S6 (fun n => S6 (fun i => f i n)). Proof. fold_S. Qed.

Lemma S3_d f i : idx 3 i -> S3 (fun k => f k * d k i) = f i.
Proof. intros I. all3 I; unfold S3, d; cbn [Nat.eqb]; ring. Qed.
Lemma S3_d' f i : idx 3 i -> S3 (fun k => d i k * f k) = f i.
Proof. intros I. all3 I; unfold S3, d; cbn [Nat.eqb]; ring. Qed.
Lemma S6_d f i : idx 6 i -> S6 (fun k => f k * d k i) = f i.
Proof. intros I. all6 I; unfold S6, d; cbn [Nat.eqb]; ring. Qed.
Lemma S6_d' f i : idx 6 i -> S6 (fun k => d i k * f k) = f i.
Proof. intros I. all6 I; unfold S6, d; cbn [Nat.eqb]; ring. Qed.

(* The code's functions with plain sums. *)
Definition expand (v : T1) : T2 := fun i j => S6 (fun n => v n * B_basis i j n).
Definition comps (A : T2) : T1 := fun n => S3 (fun i => S3 (fun j => A i j * B_basis i j n)).

Lemma cb1 v i j : chg_basis_1 6 v i j = expand v i j.
Proof. unfold chg_basis_1, expand. apply sum1_6. Qed.
Lemma cb2 K A n : chg_basis_2 K A n = comps A n.
Proof. unfold chg_basis_2, comps. rewrite sum1_3. apply S3_ext. intros. apply sum1_3. Qed.
Lemma cb1_5 v i j : chg_basis_1 5 v i j = expand v i j - v 6%nat * B_basis i j 6.
Proof. unfold chg_basis_1, expand, sum1, S6. cbn [sumn]. ring. Qed.
Lemma cb3 A i j k l : chg_basis_3 6 A i j k l = S6 (fun n => S6 (fun m => A n m * B_basis i j n * B_basis k l m)).
Proof. unfold chg_basis_3. rewrite sum1_6. apply S6_ext. intros. apply sum1_6. Qed.
Lemma cb4 K C n m : chg_basis_4 K C n m = S3 (fun i => S3 (fun j => S3 (fun k => S3 (fun l => C i j k l * B_basis i j n * B_basis k l m)))).
Proof.
  unfold chg_basis_4. rewrite sum1_3. apply S3_ext. intros i I. rewrite sum1_3. apply S3_ext. intros j J.
  rewrite sum1_3. apply S3_ext. intros k K0. apply sum1_3.
Qed.

Lemma comps_expand v n : idx 6 n -> comps (expand v) n = v n.
Proof.
  intros N. unfold comps, expand.
  transitivity (S6 (fun m => v m * S3 (fun i => S3 (fun j => B_basis i j m * B_basis i j n)))); [unfold S3, S6; ring|].
  rewrite (S6_ext _ (fun m => v m * d m n)) by (intros m M; rewrite basis_orthonormal by assumption; reflexivity). apply S6_d. exact N.
Qed.

Lemma expand_comps A i j : idx 3 i -> idx 3 j -> expand (comps A) i j = (A i j + A j i) / 2.
Proof.
  intros I J. unfold comps, expand.
  transitivity (S3 (fun k => S3 (fun l => A k l * S6 (fun n => B_basis i j n * B_basis k l n)))); [unfold S3, S6; ring|].
  rewrite (S3_ext _ (fun k => S3 (fun l => A k l * ((d i k * d j l + d i l * d j k) / 2)))) by (intros k K; apply S3_ext; intros l L; rewrite basis_complete by assumption; reflexivity).
  all3 I; all3 J; unfold S3, d; cbn [Nat.eqb]; field.
Qed.

Lemma expand_comps_sym A i j : symmetric A -> idx 3 i -> idx 3 j -> expand (comps A) i j = A i j.
Proof. intros S I J. rewrite expand_comps by assumption. rewrite (S j i J I). field. Qed.

Lemma expand_sym v : symmetric (expand v).
Proof. intros i j _ _. unfold expand. apply S6_ext. intros n _. rewrite (basis_sym i j). reflexivity. Qed.

Lemma comps_ext A B n : (forall i j, idx 3 i -> idx 3 j -> A i j = B i j) -> comps A n = comps B n.
Proof. intros H. unfold comps. apply S3_ext. intros i I. apply S3_ext. intros j J. rewrite H by assumption. reflexivity. Qed.
Lemma expand_ext v w i j : (forall n, idx 6 n -> v n = w n) -> expand v i j = expand w i j.
Proof. intros H. unfold expand. apply S6_ext. intros n N. rewrite H by assumption. reflexivity. Qed.

Lemma ddot_expand v A : ddot (expand v) A = S6 (fun n => v n * comps A n).
Proof. unfold ddot, expand, comps, S3, S6. ring. Qed.

Lemma ddot_ext A A' B B' : (forall i j, idx 3 i -> idx 3 j -> A i j = A' i j) -> (forall i j, idx 3 i -> idx 3 j -> B i j = B' i j) -> ddot A B = ddot A' B'.
Proof. intros H K. unfold ddot. apply S3_ext. intros i I. apply S3_ext. intros j J. rewrite H, K by assumption. reflexivity. Qed.

Lemma ddot_comps A B : symmetric A -> ddot A B = S6 (fun n => comps A n * comps B n).
Proof.
  intros S. rewrite <- ddot_expand. apply ddot_ext; [|reflexivity]. intros i j I J. symmetry. apply expand_comps_sym; assumption.
Qed.

Lemma ddot_sym_part A B : symmetric B -> ddot (sym_part A) B = ddot A B.
Proof.
  intros S. pose proof (S 1 2 ltac:(unfold idx; lia) ltac:(unfold idx; lia))%nat as H12. pose proof (S 1 3 ltac:(unfold idx; lia) ltac:(unfold idx; lia))%nat as H13.
  pose proof (S 2 3 ltac:(unfold idx; lia) ltac:(unfold idx; lia))%nat as H23.
  unfold ddot, sym_part, S3. rewrite H12, H13, H23. field.
Qed.

Lemma comps_6 A : comps A 6%nat = RSQ3_ * trace A.
Proof. unfold comps, trace, S3, B_basis. ring. Qed.

Lemma dev_expand A i j : symmetric A -> idx 3 i -> idx 3 j -> chg_basis_1 5 (chg_basis_2 5 A) i j = deviator A i j.
Proof.
  intros S I J. rewrite cb1_5. rewrite (expand_ext _ (comps A)) by (intros; apply cb2). rewrite expand_comps_sym by assumption. rewrite cb2, comps_6, basis_6 by assumption.
  unfold deviator. pose proof q3. transitivity (A i j - (RSQ3_ * RSQ3_) * trace A * d i j); [ring|]. rewrite H. field.
Qed.

(* ---------- fourth order ---------- *)

Definition mat (C : T4) : T2 := fun n m => chg_basis_4 6 C n m.

Lemma act_expand A E i j : act (chg_basis_3 6 A) E i j = expand (mat_v A (comps E)) i j.
Proof.
  unfold act, expand, mat_v, comps. rewrite (S3_ext _ (fun k => S3 (fun l => S6 (fun n => S6 (fun m => A n m * B_basis i j n * B_basis k l m)) * E k l))) by (intros; apply S3_ext; intros; rewrite cb3; reflexivity).
  unfold S3, S6. ring.
Qed.

Lemma mat_act C E n : minor_symmetric C -> symmetric E -> idx 6 n -> mat_v (chg_basis_4 6 C) (comps E) n = comps (act C E) n.
Proof.
  intros M S N. unfold mat_v.
  rewrite (S6_ext _ (fun m => S3 (fun i => S3 (fun j => S3 (fun k => S3 (fun l => C i j k l * B_basis i j n * B_basis k l m)))) * comps E m)) by (intros; rewrite cb4; reflexivity).
  transitivity (S3 (fun i => S3 (fun j => S3 (fun k => S3 (fun l => C i j k l * expand (comps E) k l)) * B_basis i j n))).
  - unfold expand. generalize (comps E). intros v.
    transitivity (S3 (fun i => S3 (fun j => S6 (fun m => S3 (fun k => S3 (fun l => C i j k l * B_basis i j n * B_basis k l m)) * v m)))); [unfold S3 at 1 2 5 6; unfold S6; ring|].
    apply S3_ext. intros i I. apply S3_ext. intros j J. generalize (C i j) (B_basis i j n). intros c b. unfold S3, S6. ring.
  - unfold comps at 2. unfold act. apply S3_ext. intros i I. apply S3_ext. intros j J. f_equal. apply S3_ext. intros k K. apply S3_ext. intros l L. rewrite expand_comps_sym by assumption. reflexivity.
Qed.
