(* C102, C103: dense inversion and integer powers. *)
From Coq Require Import Reals List Arith Lia Lra Bool ZArith.
From Verif Require Import BaseReal LinModel LinSpec LinProofs.
Import ListNotations.
Local Open Scope R_scope.

(* C102: a matrix whose leading blocks are all regular is replaced by its inverse. *)
Theorem C102_inverse n scratch m A : holds n m A -> leading_regular n A ->
  exists r B, invert_matrix n scratch m = (0%Z, r) /\ holds n r B /\ inverse n A B.
Proof. apply invert_leading. Qed.
Print Assumptions C102_inverse.

(* Every positive definite matrix, symmetric or not, is one of them, in the
   storage order the callers use. *)
Theorem C102_positive n scratch m A : fholds n m A -> positive_definite n (fun i j => A (S i) (S j)) ->
  exists r B, invert_matrix n scratch m = (0%Z, r) /\ fholds n r B /\ inverse n (fun i j => A (S i) (S j)) (fun i j => B (S i) (S j)).
Proof. apply invert_fortran. Qed.
Print Assumptions C102_positive.

(* A full nonsymmetric matrix meets the hypotheses. *)
Definition tri3 (i j : nat) : R := if Nat.eqb i j then 4 else if Nat.ltb i j then 1 else -1.
Example C102_met : holds 3 (fun q => tri3 (q / 3) (q mod 3)) tri3 /\ positive_definite 3 tri3 /\ leading_regular 3 tri3.
Proof.
  assert (P : positive_definite 3 tri3).
  { intros x (i & I & NZ). replace (sumn 3 _) with (4 * (x 0%nat * x 0%nat + x 1%nat * x 1%nat + x 2%nat * x 2%nat)) by (cbn; unfold tri3; cbn; ring).
    assert (0 < x i * x i) by nra.
    assert (0 <= x 0%nat * x 0%nat /\ 0 <= x 1%nat * x 1%nat /\ 0 <= x 2%nat * x 2%nat) as (? & ? & ?) by (repeat split; nra).
    destruct i as [|[|[|]]]; [lra|lra|lra|lia]. }
  split; [|split; [exact P|apply positive_leading; exact P]].
  intros i j I J. f_equal; [rewrite Nat.add_comm, Nat.div_add by lia; rewrite Nat.div_small by lia; reflexivity|rewrite Nat.add_comm, Nat.mod_add by lia; apply Nat.mod_small; lia].
Qed.

(* "A regular matrix is inverted, and a result of 0 says that it was": false.
   Rows are not exchanged: this regular matrix comes back unchanged, with flag 0. *)
Theorem C102_regular_refuted : exists m A,
  holds 2 m A /\ regular 2 A /\ (exists B, inverse 2 A B) /\
  forall scratch, invert_matrix 2 scratch m = (0%Z, m) /\ ~ inverse 2 A A.
Proof.
  set (A := fun i j : nat => if Nat.eqb i j then 0 else if Nat.eqb i 0 then 2 else 1).
  exists (fun q => match q with 1%nat => 2 | 2%nat => 1 | _ => 0 end), A.
  split; [|split; [|split]].
  - intros i j I J. destruct i as [|[|]]; destruct j as [|[|]]; try lia; reflexivity.
  - intros x H i I. pose proof (H 0%nat ltac:(lia)) as H0. pose proof (H 1%nat ltac:(lia)) as H1. cbn in H0, H1. destruct i as [|[|]]; [lra|lra|lia].
  - exists (fun i j => if Nat.eqb i j then 0 else if Nat.eqb i 0 then 1 else / 2).
    intros i j I J. destruct i as [|[|]]; destruct j as [|[|]]; try lia; cbn; lra.
  - intros scratch. split.
    + unfold invert_matrix. cbn [seq gj]. unfold gj_step. cbn [fst snd Nat.mul Nat.add].
      destruct (Req_EM_T 0 0) as [_|N]; [reflexivity|exfalso; apply N; reflexivity].
    + intros V. destruct (V 0%nat 0%nat ltac:(lia) ltac:(lia)) as [V1 _]. cbn in V1. lra.
Qed.
Print Assumptions C102_regular_refuted.

(* Nor does the flag ever report a failure, so a caller testing it for one never
   learns of it; the matrix of the last completed step is left in place. *)
Theorem C102_flag_refuted :
  (forall n scratch m, fst (invert_matrix n scratch m) = 0%Z) /\
  (exists m, forall A scratch, holds 2 m A -> ~ (exists B, inverse 2 A B) /\ fst (invert_matrix 2 scratch m) = 0%Z).
Proof.
  assert (F : forall n scratch m, fst (invert_matrix n scratch m) = 0%Z).
  { intros. unfold invert_matrix. destruct (gj n (seq 0 n) (m, identity n scratch)) as [[] [? ?]]; reflexivity. }
  split; [exact F|]. exists (fun _ => 1). intros A scratch H. split; [|apply F].
  intros (B & V). destruct (V 0%nat 0%nat ltac:(lia) ltac:(lia)) as [V1 _]. destruct (V 1%nat 0%nat ltac:(lia) ltac:(lia)) as [V2 _]. cbn in V1, V2.
  pose proof (H 0%nat 0%nat) as a. pose proof (H 0%nat 1%nat) as b. pose proof (H 1%nat 0%nat) as c. pose proof (H 1%nat 1%nat) as d.
  rewrite <- a, <- b in V1 by lia. rewrite <- c, <- d in V2 by lia. lra.
Qed.
Print Assumptions C102_flag_refuted.

(* C103: integer powers are powers, for every exponent of the type but the least. *)
Theorem C103_power base z : (-2147483648 < z < 2147483648)%Z -> ((0 <= z)%Z \/ base <> 0) -> PowIntExpo base z = Some (powerRZ base z).
Proof. apply power_spec. Qed.
Print Assumptions C103_power.

Example C103_met : PowIntExpo 2 10 = Some 1024 /\ PowIntExpo (-2) (-3) = Some (- (1 / 8)).
Proof.
  rewrite !C103_power by (try lia; right; lra). unfold powerRZ.
  change (Pos.to_nat 10) with 10%nat. change (Pos.to_nat 3) with 3%nat. cbn [pow]. split; f_equal; [ring|field].
Qed.
