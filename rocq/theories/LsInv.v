(* invert_matrix on 3 x 3 matrices whose leading minors do not vanish, and on those it leaves alone. *)
From Coq Require Import Reals List Arith Lia Lra Psatz ZArith.
From Verif Require Import BaseReal LinModel LinSpec LinProofs EvpModel EvpSpec EvpBasis EvpElast LsSpec LsModel LsMat.
Local Open Scope R_scope.

Definition lead (a : m3) : Prop := x11 a <> 0 /\ x11 a * x22 a - x12 a * x21 a <> 0 /\ dt a <> 0.

Lemma inverted_lead A : lead (of2 A) -> inv3 (of2 A) (of2 (inverted 3 A)).
Proof.
  intros (H1 & H2 & H3). unfold of2, dt in H1, H2, H3. cbn [x11 x12 x13 x21 x22 x23 x31 x32 x33] in H1, H2, H3.
  destruct (invert_leading 3 (fun _ => 0) (pack 3 A) _ (fholds_holds 3 (pack 3 A) A (pack_holds 3 A ltac:(lia)))) as (r & B & E & HB & V).
  - intros k x K S i I.
    assert (C : k = 0%nat \/ k = 1%nat \/ k = 2%nat) by lia. destruct C as [->|[->| ->]].
    + pose proof (S 0%nat ltac:(lia)) as S0. cbn [sumn] in S0. assert (i = 0)%nat by lia. subst i. nra.
    + pose proof (S 0%nat ltac:(lia)) as S0. pose proof (S 1%nat ltac:(lia)) as S1. cbn [sumn] in S0, S1.
      set (p := x 0%nat) in *. set (q := x 1%nat) in *. clear S.
      set (a := A 1%nat 1%nat) in *. set (b := A 1%nat 2%nat) in *. set (c := A 2%nat 1%nat) in *. set (e := A 2%nat 2%nat) in *.
      assert (P : p * (a * e - b * c) = 0). { replace (p * (a * e - b * c)) with (e * (0 + p * a + q * b) - b * (0 + p * c + q * e)) by ring. rewrite S0, S1. ring. }
      assert (Q : q * (a * e - b * c) = 0). { replace (q * (a * e - b * c)) with (a * (0 + p * c + q * e) - c * (0 + p * a + q * b)) by ring. rewrite S0, S1. ring. }
      apply Rmult_integral in P, Q. destruct P as [P|P]; [|contradiction]. destruct Q as [Q|Q]; [|contradiction].
      assert (C : i = 0%nat \/ i = 1%nat) by lia. destruct C as [->| ->]; assumption.
    + pose proof (S 0%nat ltac:(lia)) as S0. pose proof (S 1%nat ltac:(lia)) as S1. pose proof (S 2%nat ltac:(lia)) as S2. cbn [sumn] in S0, S1, S2. clear S.
      set (p := x 0%nat) in *. set (q := x 1%nat) in *. set (s := x 2%nat) in *.
      set (a11 := A 1%nat 1%nat) in *. set (a12 := A 1%nat 2%nat) in *. set (a13 := A 1%nat 3%nat) in *.
      set (a21 := A 2%nat 1%nat) in *. set (a22 := A 2%nat 2%nat) in *. set (a23 := A 2%nat 3%nat) in *.
      set (a31 := A 3%nat 1%nat) in *. set (a32 := A 3%nat 2%nat) in *. set (a33 := A 3%nat 3%nat) in *.
      set (D := a11 * (a22 * a33 - a23 * a32) - a12 * (a21 * a33 - a23 * a31) + a13 * (a21 * a32 - a22 * a31)) in *.
      set (L1 := 0 + p * a11 + q * a12 + s * a13) in *. set (L2 := 0 + p * a21 + q * a22 + s * a23) in *. set (L3 := 0 + p * a31 + q * a32 + s * a33) in *.
      assert (P : p * D = 0). { replace (p * D) with ((a22 * a33 - a23 * a32) * L1 - (a12 * a33 - a13 * a32) * L2 + (a12 * a23 - a13 * a22) * L3) by (unfold D, L1, L2, L3; ring). rewrite S0, S1, S2. ring. }
      assert (Q : q * D = 0). { replace (q * D) with (- (a21 * a33 - a23 * a31) * L1 + (a11 * a33 - a13 * a31) * L2 - (a11 * a23 - a13 * a21) * L3) by (unfold D, L1, L2, L3; ring). rewrite S0, S1, S2. ring. }
      assert (W : s * D = 0). { replace (s * D) with ((a21 * a32 - a22 * a31) * L1 - (a11 * a32 - a12 * a31) * L2 + (a11 * a22 - a12 * a21) * L3) by (unfold D, L1, L2, L3; ring). rewrite S0, S1, S2. ring. }
      apply Rmult_integral in P, Q, W. destruct P as [P|P]; [|contradiction]. destruct Q as [Q|Q]; [|contradiction]. destruct W as [W|W]; [|contradiction].
      assert (C : i = 0%nat \/ i = 1%nat \/ i = 2%nat) by lia. destruct C as [->|[->| ->]]; assumption.
  - apply of2_inverses. unfold inverted. rewrite E. cbn [snd].
    assert (T : forall i j, idx 3 i -> idx 3 j -> unpack 3 r i j = B (j - 1)%nat (i - 1)%nat).
    { intros i j I J. unfold unpack, idx in *. replace (i - 1 + (j - 1) * 3)%nat with ((j - 1) * 3 + (i - 1))%nat by lia. apply HB; lia. }
    assert (Dd : forall i j, idx 3 i -> idx 3 j -> delta (j - 1) (i - 1) = d i j) by (intros i j; cases_ij i j; reflexivity).
    split; intros i j I J; rewrite <- Dd by assumption; unfold product, S3; rewrite !T by (unfold idx in *; lia); cbn [Nat.sub];
      destruct (V (j - 1)%nat (i - 1)%nat ltac:(unfold idx in *; lia) ltac:(unfold idx in *; lia)) as [V1 V2]; cbn [sumn] in V1, V2;
      unfold idx in *; replace (S (i - 1)) with i in * by lia; replace (S (j - 1)) with j in * by lia.
    + rewrite <- V2. ring.
    + rewrite <- V1. ring.
Qed.

(* The first pivot is zero: the matrix is returned as it was. *)
Lemma inverted_stuck A : A 1%nat 1%nat = 0 -> of2 (inverted 3 A) = of2 A.
Proof.
  intros H. unfold inverted, invert_matrix. change (seq 0 3) with (0 :: 1 :: 2 :: nil)%nat%list. cbn [gj]. unfold gj_step. cbn [fst].
  replace (pack 3 A (0 * 3 + 0)%nat) with 0 by (symmetry; exact H). destruct (Req_EM_T 0 0) as [_|N]; [|contradiction]. cbn [snd].
  apply of2_same. intros i j. cases_ij i j; reflexivity.
Qed.

Lemma inv3_det a b : inv3 a b -> dt a * dt b = 1.
Proof. intros [E _]. rewrite <- dt_mm, E. unfold dt, one. cbn. ring. Qed.
Lemma ac_lead a : ac a -> lead a.
Proof.
  intros H. split; [apply Rgt_not_eq, ac_11, H|]. split; [apply Rgt_not_eq, ac_minor, H|].
  assert (E : of2 (to2 a) = a) by (destruct a; reflexivity). rewrite <- E in H. pose proof (ac_det _ _ H (inverted_acute _ H)) as P. rewrite E in P. lra.
Qed.
