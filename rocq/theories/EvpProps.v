(* C104: the tensor basis. *)
From Coq Require Import Reals List Arith Lia Lra Bool ZArith.
From Verif Require Import BaseReal LinModel EvpModel EvpSpec EvpBasis EvpElast.
Import ListNotations.
Local Open Scope R_scope.

(* The decimals in the source are the roots to the precision of a double. *)
Lemma near_root (x y e : R) : 0 < e -> e < x -> 0 < y -> (x - e) * (x - e) * y < 1 < (x + e) * (x + e) * y -> Rabs (x - / sqrt y) < e.
Proof.
  intros E X Y [H1 H2]. assert (Hs : 0 < / sqrt y) by (apply Rinv_0_lt_compat, sqrt_lt_R0; exact Y).
  assert (Q : / sqrt y * / sqrt y * y = 1) by (rewrite inv_sqrt_sq by exact Y; field; lra).
  generalize dependent (/ sqrt y). intros r R Q. apply Rabs_def1; apply Rnot_le_lt; intros C.
  - assert (r * r <= (x - e) * (x - e)) by nra. nra.
  - assert ((x + e) * (x + e) <= r * r) by nra. nra.
Qed.
Theorem C104_constants :
  Rabs (RSQ2_text - 1 / sqrt 2) < 1 / 10 ^ 16 /\ Rabs (RSQ3_text - 1 / sqrt 3) < 1 / 10 ^ 16 /\ Rabs (RSQ6_text - 1 / sqrt 6) < 1 / 10 ^ 16.
Proof.
  unfold RSQ2_text, RSQ3_text, RSQ6_text.
  replace (1 / sqrt 2) with (/ sqrt 2) by (unfold Rdiv; ring). replace (1 / sqrt 3) with (/ sqrt 3) by (unfold Rdiv; ring). replace (1 / sqrt 6) with (/ sqrt 6) by (unfold Rdiv; ring).
  repeat split; apply near_root; lra.
Qed.
Print Assumptions C104_constants.

(* C104: every symmetric tensor is the tensor of its six components, every six
   components belong to one symmetric tensor; five components are the deviator. *)
Theorem C104_tensor A i j : symmetric A -> idx 3 i -> idx 3 j ->
  chg_basis_1 6 (chg_basis_2 6 A) i j = A i j /\ chg_basis_1 5 (chg_basis_2 5 A) i j = deviator A i j.
Proof.
  intros S I J. split; [|apply dev_expand; assumption].
  rewrite cb1. rewrite (expand_ext _ (comps A)) by (intros; apply cb2). apply expand_comps_sym; assumption.
Qed.
Print Assumptions C104_tensor.

Theorem C104_vector v :
  symmetric (chg_basis_1 6 v) /\ (forall n, idx 6 n -> chg_basis_2 6 (chg_basis_1 6 v) n = v n) /\
  symmetric (chg_basis_1 5 v) /\ trace (chg_basis_1 5 v) = 0 /\ (forall n, idx 5 n -> chg_basis_2 5 (chg_basis_1 5 v) n = v n).
Proof.
  assert (V : forall K w n, idx 6 n -> chg_basis_2 K (chg_basis_1 6 w) n = w n).
  { intros K w n N. rewrite cb2, (comps_ext _ (expand w)) by (intros; apply cb1). apply comps_expand. exact N. }
  assert (F : forall i j, chg_basis_1 5 v i j = chg_basis_1 6 (fun n => if Nat.eqb n 6 then 0 else v n) i j).
  { intros i j. rewrite cb1_5, cb1. unfold expand, S6. cbn [Nat.eqb]. ring. }
  repeat split.
  - intros i j I J. rewrite !cb1. apply expand_sym; assumption.
  - intros n N. apply V. exact N.
  - intros i j I J. rewrite !F, !cb1. apply expand_sym; assumption.
  - assert (Z : RSQ3_ * trace (chg_basis_1 5 v) = 0).
    { rewrite <- comps_6. rewrite (comps_ext _ (chg_basis_1 6 (fun n => if Nat.eqb n 6 then 0 else v n))) by (intros; apply F).
      rewrite <- (cb2 6). rewrite V by (unfold idx; lia). reflexivity. }
    pose proof q3. destruct (Rmult_integral _ _ Z) as [W|W]; [rewrite W in H; lra|exact W].
  - intros n N. rewrite cb2. rewrite (comps_ext _ (chg_basis_1 6 (fun n => if Nat.eqb n 6 then 0 else v n))) by (intros; apply F).
    rewrite <- (cb2 6). rewrite V by (unfold idx in *; lia). destruct (Nat.eqb_spec n 6); [unfold idx in N; lia|reflexivity].
Qed.
Print Assumptions C104_vector.

(* Products of tensors are products of components, so powers and norms agree. *)
Theorem C104_product A B : symmetric A ->
  ddot A B = S6 (fun n => chg_basis_2 6 A n * chg_basis_2 6 B n) /\
  (trace A = 0 -> ddot A B = chg_basis_2 5 A 1%nat * chg_basis_2 5 B 1%nat + chg_basis_2 5 A 2%nat * chg_basis_2 5 B 2%nat + chg_basis_2 5 A 3%nat * chg_basis_2 5 B 3%nat
    + chg_basis_2 5 A 4%nat * chg_basis_2 5 B 4%nat + chg_basis_2 5 A 5%nat * chg_basis_2 5 B 5%nat).
Proof.
  intros S. assert (G : ddot A B = S6 (fun n => chg_basis_2 6 A n * chg_basis_2 6 B n)).
  { rewrite ddot_comps by exact S. apply S6_ext. intros n N. rewrite !cb2. reflexivity. }
  split; [exact G|]. intros T. rewrite G. unfold S6. rewrite !cb2, comps_6, T. ring.
Qed.
Print Assumptions C104_product.

Lemma S6_S9 (f : nat -> nat -> nat -> R) g : S9 (fun i j => S6 (fun p => f i j p * g p)) = S6 (fun p => S9 (fun i j => f i j p) * g p).
Proof. unfold S9, S3, S6. ring. Qed.
Lemma S6_S9' (f : nat -> nat -> nat -> R) y : S6 (fun p => S9 (fun i j => f i j p * y i j)) = S9 (fun i j => S6 (f i j) * y i j).
Proof. unfold S9, S3, S6. ring. Qed.
Lemma S6_S9'' (f : nat -> nat -> nat -> R) y : S6 (fun p => S9 (fun i j => y i j * f i j p)) = S9 (fun i j => y i j * S6 (f i j)).
Proof. unfold S9, S3, S6. ring. Qed.

(* The 6 x 6 matrix of a fourth-order tensor acts on components as the tensor does
   on tensors, and the two forms convert into each other. *)
Theorem C104_fourth :
  (forall C E n, minor_symmetric C -> symmetric E -> idx 6 n ->
     mat_v (chg_basis_4 6 C) (chg_basis_2 6 E) n = chg_basis_2 6 (act C E) n) /\
  (forall A E i j, act (chg_basis_3 6 A) E i j = chg_basis_1 6 (mat_v A (chg_basis_2 6 E)) i j) /\
  (forall A n m, idx 6 n -> idx 6 m -> chg_basis_4 6 (chg_basis_3 6 A) n m = A n m) /\
  (forall C i j k l, minor_symmetric C -> idx 3 i -> idx 3 j -> idx 3 k -> idx 3 l -> chg_basis_3 6 (chg_basis_4 6 C) i j k l = C i j k l).
Proof.
  split; [|split; [|split]].
  - intros C E n M S N. rewrite cb2, <- (mat_act C E n M S N). apply mat_v_ext. intros; apply cb2.
  - intros A E i j. rewrite cb1, act_expand. apply expand_ext. intros n N. apply mat_v_ext. intros; symmetry; apply cb2.
  - intros A n m N M. rewrite cb4.
    rewrite (S3_ext _ (fun i => S3 (fun j => S3 (fun k => S3 (fun l => S6 (fun p => S6 (fun q => A p q * B_basis i j p * B_basis k l q)) * B_basis i j n * B_basis k l m))))) by
      (intros; apply S3_ext; intros; apply S3_ext; intros; apply S3_ext; intros; rewrite cb3; reflexivity).
    transitivity (S6 (fun p => S9 (fun i j => B_basis i j p * B_basis i j n) * S6 (fun q => A p q * S9 (fun k l => B_basis k l q * B_basis k l m)))).
    { rewrite <- (S6_S9 (fun i j p => B_basis i j p * B_basis i j n)). apply S9_ext. intros i j I J.
      change (S9 (fun k l => S6 (fun p => S6 (fun q => A p q * B_basis i j p * B_basis k l q)) * B_basis i j n * B_basis k l m) =
        S6 (fun p => B_basis i j p * B_basis i j n * S6 (fun q => A p q * S9 (fun k l => B_basis k l q * B_basis k l m)))).
      generalize B_basis. intros b. unfold S9, S3, S6. ring. }
    rewrite (S6_ext _ (fun p => A p m * d p n)); [apply (S6_d (fun p => A p m)); exact N|]. intros p P. unfold S9. rewrite basis_orthonormal by assumption.
    rewrite (S6_ext _ (fun q => A p q * d q m)) by (intros q Q; rewrite basis_orthonormal by assumption; reflexivity). rewrite S6_d by exact M. ring.
  - intros C i j k l M I J K L. rewrite cb3.
    rewrite (S6_ext _ (fun n => S6 (fun m => S9 (fun a b => S9 (fun e f => C a b e f * B_basis a b n * B_basis e f m)) * B_basis i j n * B_basis k l m)))
      by (intros; apply S6_ext; intros; rewrite cb4; reflexivity).
    transitivity (S9 (fun a b => S6 (fun n => B_basis i j n * B_basis a b n) * S9 (fun e f => C a b e f * S6 (fun m => B_basis k l m * B_basis e f m)))).
    { rewrite (S6_ext _ (fun n => S9 (fun a b => B_basis i j n * B_basis a b n * S9 (fun e f => C a b e f * S6 (fun m => B_basis k l m * B_basis e f m))))).
      - apply (S6_S9' (fun a b n => B_basis i j n * B_basis a b n)).
      - intros n N. rewrite (S6_ext _ (fun m => S9 (fun a b => B_basis i j n * B_basis a b n * S9 (fun e f => C a b e f * (B_basis k l m * B_basis e f m))))).
        + transitivity (S9 (fun a b => B_basis i j n * B_basis a b n * S6 (fun m => S9 (fun e f => C a b e f * (B_basis k l m * B_basis e f m))))).
          * apply (S6_S9'' (fun a b m => S9 (fun e f => C a b e f * (B_basis k l m * B_basis e f m))) (fun a b => B_basis i j n * B_basis a b n)).
          * apply S9_ext. intros a b Ha Hb. f_equal. unfold S9, S3, S6. ring.
        + intros m Hm. unfold S9, S3. ring. }
    rewrite (S9_ext _ (fun a b => (d i a * d j b + d i b * d j a) / 2 * C a b k l)).
    + destruct (M i j k l I J K L) as [M1 _]. transitivity ((C i j k l + C j i k l) / 2); [|rewrite <- M1; field].
      all3 I; all3 J; unfold S9, S3, d; cbn [Nat.eqb]; lra.
    + intros a b Ha Hb. rewrite basis_complete by assumption. f_equal.
      rewrite (S9_ext _ (fun e f => C a b e f * ((d k e * d l f + d k f * d l e) / 2))) by (intros; rewrite basis_complete by assumption; reflexivity).
      destruct (M a b k l Ha Hb K L) as [_ M1]. transitivity ((C a b k l + C a b l k) / 2); [|rewrite <- M1; field].
      all3 K; all3 L; unfold S9, S3, d; cbn [Nat.eqb]; lra.
Qed.
Print Assumptions C104_fourth.


(* A full nonsymmetric set of numbers, a shear and an isotropic tensor meet the hypotheses. *)
Definition shear (g : R) (i j : nat) : R := if (Nat.eqb i 1 && Nat.eqb j 2 || Nat.eqb i 2 && Nat.eqb j 1)%bool then g else 0.
Definition hooke (la mu : R) (i j k l : nat) : R := la * d i j * d k l + mu * (d i k * d j l + d i l * d j k).
Example C104_met : symmetric (shear 5) /\ trace (shear 5) = 0 /\ shear 5 1%nat 2%nat = 5 /\ forall la mu, minor_symmetric (hooke la mu) /\ major_symmetric (hooke la mu).
Proof.
  repeat split.
  - intros i j I J. all3 I; all3 J; reflexivity.
  - unfold trace, S3, shear. cbn. ring.
  - unfold hooke, d. rewrite (Nat.eqb_sym j i). ring.
  - unfold hooke, d. rewrite (Nat.eqb_sym l k). ring.
  - intros i j k l I J K L. unfold hooke, d. rewrite (Nat.eqb_sym k i), (Nat.eqb_sym l j), (Nat.eqb_sym k j), (Nat.eqb_sym l i). ring.
Qed.
