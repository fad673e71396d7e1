(* The correction of the strain field in Fourier space: C111. *)
From Coq Require Import Reals List Arith Lia Lra ZArith.
From Verif Require Import BaseReal LinModel LinSpec LinProofs EvpModel EvpFlowModel EvpSpec EvpBasis EvpElast.
Import ListNotations.
Local Open Scope R_scope.

Lemma sumn_S3 f : sumn 3 f = S3 (fun n => f (n - 1)%nat).
Proof. unfold S3. cbn [sumn Nat.sub]. ring. Qed.

Lemma inverted3 A : (forall x, (exists i, idx 3 i /\ x i <> 0) -> 0 < S3 (fun n => S3 (fun m => x n * A n m * x m))) ->
  forall n m, idx 3 n -> idx 3 m -> S3 (fun k => A n k * inverted 3 A k m) = d n m /\ S3 (fun k => inverted 3 A n k * A k m) = d n m.
Proof.
  intros P.
  destruct (invert_fortran 3 (fun _ => 0) (pack 3 A) A (pack_holds 3 A ltac:(lia))) as (r & B & E & HB & V).
  - intros x (i & I & X). rewrite sumn_S3. specialize (P (fun n => x (n - 1)%nat)).
    assert (Q : exists n, idx 3 n /\ x (n - 1)%nat <> 0). { exists (S i). split; [unfold idx; lia|]. cbn [Nat.sub]. rewrite Nat.sub_0_r. exact X. }
    specialize (P Q). erewrite S3_ext; [exact P|]. intros n N. rewrite sumn_S3. apply S3_ext. intros m M. unfold idx in *.
    replace (S (n - 1)) with n by lia. replace (S (m - 1)) with m by lia. reflexivity.
  - intros n m N M. unfold inverted. rewrite E. cbn [snd]. unfold unpack. unfold idx in N, M.
    assert (R : forall a b, idx 3 a -> idx 3 b -> r ((a - 1) + (b - 1) * 3)%nat = B a b) by (intros a b Ha Hb; apply HB; assumption).
    destruct (V (n - 1)%nat (m - 1)%nat ltac:(lia) ltac:(lia)) as [V1 V2]. rewrite sumn_S3 in V1, V2.
    replace (S (n - 1)) with n in * by lia. replace (S (m - 1)) with m in * by lia.
    assert (DD : LinSpec.delta (n - 1) (m - 1) = d n m). { unfold LinSpec.delta, d. destruct (Nat.eqb_spec (n - 1) (m - 1)), (Nat.eqb_spec n m); try reflexivity; lia. }
    rewrite DD in V1, V2. split; [rewrite <- V1|rewrite <- V2]; apply S3_ext; intros k K; rewrite R by (unfold idx in *; lia); unfold idx in K; replace (S (k - 1)) with k by lia; reflexivity.
Qed.

Lemma acoustic_S c0 x i k : acoustic c0 x i k = S3 (fun j => S3 (fun l => c0 i j k l * x j * x l)).
Proof. unfold acoustic. rewrite sum1_3. apply S3_ext. intros j J. apply sum1_3. Qed.

Lemma act_sym C E : minor_symmetric C -> symmetric (act C E).
Proof. intros M i j I J. unfold act. apply S3_ext. intros k K. apply S3_ext. intros l L. destruct (M i j k l I J K L) as [-> _]. reflexivity. Qed.

Lemma act_sym_part C E i j : minor_symmetric C -> idx 3 i -> idx 3 j -> act C (sym_part E) i j = act C E i j.
Proof.
  intros M I J. unfold act, sym_part.
  transitivity (S3 (fun k => S3 (fun l => C i j k l * E k l)) / 2 + S3 (fun k => S3 (fun l => C i j l k * E k l)) / 2); [unfold S3; field|].
  rewrite (S3_ext (fun k => S3 (fun l => C i j l k * E k l)) (fun k => S3 (fun l => C i j k l * E k l))); [field|].
  intros k K. apply S3_ext. intros l L. destruct (M i j k l I J K L) as [_ ->]. reflexivity.
Qed.

Lemma acoustic_form c0 x v : S3 (fun i => S3 (fun k => v i * acoustic c0 x i k * v k)) = ddot (outer v x) (act c0 (outer v x)).
Proof.
  rewrite (S3_ext _ (fun i => S3 (fun k => v i * S3 (fun j => S3 (fun l => c0 i j k l * x j * x l)) * v k))) by (intros i I; apply S3_ext; intros k K; rewrite acoustic_S; reflexivity).
  unfold ddot, act, outer. apply S3_ext. intros i _. unfold S3. ring.
Qed.

Lemma outer_nonzero v x : (exists i, idx 3 i /\ v i <> 0) -> (exists i, idx 3 i /\ x i <> 0) -> exists i j, idx 3 i /\ idx 3 j /\ sym_part (outer v x) i j <> 0.
Proof.
  intros (p & P & V) (a & A & X). destruct (Req_dec (v a) 0) as [Z|Z].
  - exists p, a. split; [exact P|]. split; [exact A|]. unfold sym_part, outer. rewrite Z. intros H. apply V. apply (Rmult_eq_reg_r (x a)); [lra|exact X].
  - exists a, a. split; [exact A|]. split; [exact A|]. unfold sym_part, outer. intros H. apply Z. apply (Rmult_eq_reg_r (x a)); [lra|exact X].
Qed.

Lemma acoustic_pos c0 x : elastic c0 -> (exists i, idx 3 i /\ x i <> 0) ->
  forall v, (exists i, idx 3 i /\ v i <> 0) -> 0 < S3 (fun n => S3 (fun m => v n * acoustic c0 x n m * v m)).
Proof.
  intros (M & _ & P) X v V. rewrite acoustic_form. rewrite <- ddot_sym_part by (apply act_sym; exact M).
  rewrite (ddot_ext _ (sym_part (outer v x)) _ (act c0 (sym_part (outer v x)))); [|reflexivity|intros i j I J; symmetry; apply act_sym_part; assumption].
  apply P; [intros i j I J; unfold sym_part; field|]. apply outer_nonzero; assumption.
Qed.

Lemma norm3_pos x : (exists i, idx 3 i /\ x i <> 0) -> 0 < norm3 x.
Proof.
  intros (i & I & X). unfold norm3. apply sqrt_lt_R0. assert (0 < x i * x i) by nra.
  pose proof (Rle_0_sqr (x 1%nat)). pose proof (Rle_0_sqr (x 2%nat)). pose proof (Rle_0_sqr (x 3%nat)). unfold Rsqr in *. all3 I; lra.
Qed.

Section Green.
Variables (c0 s0 : T4) (xk : T1).
Hypothesis EL : elastic c0.
Hypothesis X : exists i, idx 3 i /\ xk i <> 0.

Let n := norm3 xk.
Let x : T1 := fun i => xk i / n.
Let ainv := inverted 3 (acoustic c0 x).

Lemma n_pos : 0 < n.
Proof. apply norm3_pos. exact X. Qed.

Lemma normalised_x : normalised xk = x.
Proof. unfold normalised. fold n. destruct (Req_EM_T n 0) as [Z|]; [pose proof n_pos; lra|reflexivity]. Qed.

Lemma x_nonzero : exists i, idx 3 i /\ x i <> 0.
Proof. destruct X as (i & I & H). exists i. split; [exact I|]. unfold x. pose proof n_pos. apply Rmult_integral_contrapositive. split; [exact H|apply Rinv_neq_0_compat; lra]. Qed.

Lemma ainv_spec a b : idx 3 a -> idx 3 b -> S3 (fun k => acoustic c0 x a k * ainv k b) = d a b /\ S3 (fun k => ainv a k * acoustic c0 x k b) = d a b.
Proof. apply inverted3. apply acoustic_pos; [exact EL|apply x_nonzero]. Qed.

Definition traction (t : T2) (y : T1) : T1 := fun i => S3 (fun j => t i j * y j).

Lemma green_value t p q : inverse_the_greens c0 s0 false false xk t p q = - S3 (fun i => ainv p i * traction t x i) * x q.
Proof.
  unfold inverse_the_greens, green. rewrite normalised_x. rewrite sum1_3.
  rewrite (S3_ext _ (fun i => S3 (fun j => - ainv p i * x q * x j * t i j))) by (intros i I; rewrite sum1_3; reflexivity).
  unfold traction, S3. ring.
Qed.

(* a (u (x) x) . x *)
Lemma acoustic_outer u i : S3 (fun j => act c0 (fun k l => u k * x l) i j * x j) = S3 (fun k => acoustic c0 x i k * u k).
Proof.
  rewrite (S3_ext (fun k => acoustic c0 x i k * u k) (fun k => S3 (fun j => S3 (fun l => c0 i j k l * x j * x l)) * u k)) by (intros; rewrite acoustic_S; reflexivity).
  unfold act, S3. ring.
Qed.

Lemma solve_unique u t : (forall i, idx 3 i -> S3 (fun k => acoustic c0 x i k * u k) = - traction t x i) -> forall p, idx 3 p -> u p = - S3 (fun i => ainv p i * traction t x i).
Proof.
  intros H p P. transitivity (S3 (fun k => S3 (fun i => ainv p i * acoustic c0 x i k) * u k)).
  - rewrite (S3_ext _ (fun k => d p k * u k)) by (intros k K; destruct (ainv_spec p k P K) as [_ ->]; reflexivity). symmetry. apply S3_d'. exact P.
  - transitivity (S3 (fun i => ainv p i * S3 (fun k => acoustic c0 x i k * u k))); [unfold S3; ring|].
    rewrite (S3_ext _ (fun i => ainv p i * - traction t x i)) by (intros i I; rewrite (H i I); reflexivity). unfold S3. ring.
Qed.

Lemma solve_solves t i : idx 3 i -> S3 (fun k => acoustic c0 x i k * - S3 (fun j => ainv k j * traction t x j)) = - traction t x i.
Proof.
  intros I. transitivity (- S3 (fun j => S3 (fun k => acoustic c0 x i k * ainv k j) * traction t x j)); [unfold S3; ring|].
  rewrite (S3_ext _ (fun j => d i j * traction t x j)) by (intros j J; destruct (ainv_spec i j I J) as [-> _]; reflexivity). rewrite S3_d' by exact I. reflexivity.
Qed.

Lemma traction_x t i : traction t x i = traction t xk i / n.
Proof. unfold traction, x, S3. pose proof n_pos. field. lra. Qed.

Lemma green_compatible t : exists u, forall i j, inverse_the_greens c0 s0 false false xk t i j = u i * xk j.
Proof. exists (fun p => - S3 (fun i => ainv p i * traction t x i) / n). intros i j. rewrite green_value. unfold x at 2. pose proof n_pos. field. lra. Qed.

Lemma green_equilibrium t i : idx 3 i -> traction (fun a b => t a b + act c0 (inverse_the_greens c0 s0 false false xk t) a b) xk i = 0.
Proof.
  intros I. pose proof n_pos as N. set (u := fun p => - S3 (fun i => ainv p i * traction t x i)).
  assert (A : forall a b, act c0 (inverse_the_greens c0 s0 false false xk t) a b = act c0 (fun k l => u k * x l) a b) by (intros; apply act_ext; intros; rewrite green_value; reflexivity).
  assert (E : traction (fun a b => t a b + act c0 (inverse_the_greens c0 s0 false false xk t) a b) x i = 0).
  { unfold traction at 1. rewrite (S3_ext _ (fun j => t i j * x j + act c0 (fun k l => u k * x l) i j * x j)) by (intros; rewrite A; ring).
    transitivity (traction t x i + S3 (fun j => act c0 (fun k l => u k * x l) i j * x j)); [unfold traction, S3; ring|].
    rewrite acoustic_outer. unfold u. rewrite solve_solves by exact I. ring. }
  rewrite traction_x in E. apply (Rmult_eq_reg_r (/ n)); [|apply Rinv_neq_0_compat; lra]. rewrite Rmult_0_l. exact E.
Qed.

Lemma green_unique t D : (exists u, forall i j, idx 3 i -> idx 3 j -> D i j = u i * xk j) ->
  (forall i, idx 3 i -> traction (fun a b => t a b + act c0 D a b) xk i = 0) -> forall i j, idx 3 i -> idx 3 j -> D i j = inverse_the_greens c0 s0 false false xk t i j.
Proof.
  intros (u & U) Q i j I J. pose proof n_pos as N.
  assert (A : forall a b, idx 3 a -> idx 3 b -> act c0 D a b = act c0 (fun k l => (u k * n) * x l) a b).
  { intros a b _ _. apply act_ext. intros k l K L. rewrite (U k l K L). unfold x. field. lra. }
  assert (S : forall p, idx 3 p -> u p * n = - S3 (fun i => ainv p i * traction t x i)).
  { apply (solve_unique (fun k => u k * n)). intros a Ha. rewrite <- acoustic_outer.
    assert (E : traction (fun a b => t a b + act c0 D a b) x a = 0) by (rewrite traction_x, (Q a Ha); unfold Rdiv; ring).
    unfold traction in E at 1. rewrite (S3_ext _ (fun j => t a j * x j + act c0 (fun k l => (u k * n) * x l) a j * x j)) in E by (intros; rewrite A by assumption; ring).
    unfold traction. unfold S3 in *. lra. }
  rewrite (U i j I J), green_value, <- (S i I). unfold x. field. lra.
Qed.
End Green.

(* C111: at a frequency xk that is neither zero nor Nyquist's, the correction D of the
   displacement gradient is that of a displacement, it makes the stress divergence
   free in the reference medium, and nothing else does. *)
Theorem C111_correction c0 s0 xk t : elastic c0 -> (exists i, idx 3 i /\ xk i <> 0) ->
  let D := inverse_the_greens c0 s0 false false xk t in
  (exists u, forall i j, D i j = u i * xk j) /\
  (forall i, idx 3 i -> S3 (fun j => (t i j + act c0 D i j) * xk j) = 0) /\
  (forall D', (exists u, forall i j, idx 3 i -> idx 3 j -> D' i j = u i * xk j) -> (forall i, idx 3 i -> S3 (fun j => (t i j + act c0 D' i j) * xk j) = 0) ->
     forall i j, idx 3 i -> idx 3 j -> D' i j = D i j).
Proof.
  intros E X D. split; [apply green_compatible; assumption|]. split; [intros i I; exact (green_equilibrium c0 s0 xk E X t i I)|].
  intros D' C Q i j I J. exact (green_unique c0 s0 xk E X t D' C Q i j I J).
Qed.
Print Assumptions C111_correction.

(* Hence no correction exactly where the stress is in equilibrium. *)
Theorem C111_fixed_point c0 s0 xk t : elastic c0 -> (exists i, idx 3 i /\ xk i <> 0) ->
  (forall i j, idx 3 i -> idx 3 j -> inverse_the_greens c0 s0 false false xk t i j = 0) <-> (forall i, idx 3 i -> S3 (fun j => t i j * xk j) = 0).
Proof.
  intros E X. destruct (C111_correction c0 s0 xk t E X) as (_ & Q & U). split; intros H.
  - intros i I. rewrite <- (Q i I). apply S3_ext. intros j J. rewrite (act_ext c0 (inverse_the_greens c0 s0 false false xk t) (fun _ _ => 0) i j H). unfold act, S3. ring.
  - intros i j I J. symmetry. apply (U (fun _ _ => 0)); [exists (fun _ => 0); intros; ring| |exact I|exact J].
    intros a A. refine (eq_trans _ (H a A)). apply S3_ext. intros b B. unfold act, S3. ring.
Qed.
Print Assumptions C111_fixed_point.

(* The mean is left alone, and at Nyquist's frequencies the stress is removed. *)
Theorem C111_others c0 s0 xk t nyq i j : idx 3 i -> idx 3 j ->
  inverse_the_greens c0 s0 nyq true xk t i j = 0 /\
  (symmetric t -> (forall E a b, symmetric E -> idx 3 a -> idx 3 b -> act c0 (act s0 E) a b = E a b) ->
   t i j + act c0 (inverse_the_greens c0 s0 true false xk t) i j = 0).
Proof.
  intros I J. split; [reflexivity|]. intros S V.
  rewrite (act_ext c0 _ (fun a b => - act s0 t a b)).
  - transitivity (t i j - act c0 (act s0 t) i j); [unfold act, S3; ring|]. rewrite V by assumption. ring.
  - intros a b A B. unfold inverse_the_greens, green, act. rewrite sum1_3.
    rewrite (S3_ext _ (fun k => S3 (fun l => - s0 a b k l * t k l))) by (intros; rewrite sum1_3; reflexivity). unfold S3. ring.
Qed.
Print Assumptions C111_others.

(* The frequencies are those of the discrete Fourier transform, and the tests on
   indices find the zero and Nyquist's. *)
Theorem C111_frequencies npts start k : (0 < npts)%Z -> (0 <= k + start < npts)%Z ->
  let w := wave_number npts start k in
  ((k + start - w) mod npts = 0)%Z /\ (- npts < 2 * w <= npts)%Z /\ (w = 0 <-> k + start + 1 = 1)%Z /\ (is_nyquist npts (k + start + 1) = true <-> 2 * w = npts)%Z.
Proof.
  intros N K. cbv zeta. unfold wave_number, is_nyquist. pose proof (Z.div_mod npts 2 ltac:(lia)) as DM. pose proof (Z.mod_pos_bound npts 2 ltac:(lia)) as MB.
  rewrite Bool.andb_true_iff, !Z.eqb_eq.
  destruct (Z.ltb_spec (npts / 2) (k + start)) as [L|L].
  - split; [replace (k + start - (k + start - npts))%Z with npts by ring; apply Z.mod_same; lia|]. split; [lia|]. split; lia.
  - split; [rewrite Z.sub_diag; apply Z.mod_0_l; lia|]. split; [lia|]. split; lia.
Qed.
Print Assumptions C111_frequencies.

(* An isotropic medium under a shear wave of stress. *)
Example C111_met : exists c0 xk, elastic c0 /\ (exists i, idx 3 i /\ xk i <> 0) /\ S3 (fun j => d 1 j * xk j) <> 0.
Proof.
  exists (fun i j k l => (d i k * d j l + d i l * d j k) / 2), (fun i => 1).
  split; [|split; [exists 1%nat; split; [unfold idx; lia|lra]|unfold S3, d; cbn [Nat.eqb]; lra]].
  assert (DS : forall a b, d a b = d b a) by (intros; unfold d; rewrite Nat.eqb_sym; reflexivity).
  split; [intros i j k l _ _ _ _; split; field|]. split; [intros i j k l _ _ _ _; rewrite (DS k i), (DS l j), (DS k j), (DS l i); field|].
  intros E S (i & j & I & J & N).
  assert (Q : forall a b, idx 3 a -> idx 3 b -> act (fun i j k l => (d i k * d j l + d i l * d j k) / 2) E a b = E a b).
  { intros a b A B. transitivity ((E a b + E b a) / 2); [|rewrite (S a b A B); field]. unfold act. all3 A; all3 B; unfold S3, d; cbn [Nat.eqb]; field. }
  rewrite (ddot_ext E E _ E); [|reflexivity|exact Q].
  assert (0 < E i j * E i j) by nra. unfold ddot, S3.
  assert (SQ : forall a b, 0 <= E a b * E a b) by (intros a b; apply (Rle_0_sqr (E a b))).
  pose proof (SQ 1 1)%nat. pose proof (SQ 1 2)%nat. pose proof (SQ 1 3)%nat. pose proof (SQ 2 1)%nat. pose proof (SQ 2 2)%nat. pose proof (SQ 2 3)%nat. pose proof (SQ 3 1)%nat. pose proof (SQ 3 2)%nat. pose proof (SQ 3 3)%nat.
  all3 I; all3 J; lra.
Qed.
