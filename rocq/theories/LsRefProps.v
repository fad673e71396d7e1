(* The reference medium in the deformed specimen: C128. *)
From Coq Require Import Reals List Arith Lia Lra ZArith FunctionalExtensionality.
From Verif Require Import BaseReal LinModel EvpModel EvpFlowModel EvpFftModel EvpSpec EvpFlowSpec EvpBasis EvpElast EvpSlip EvpGreenProps EvpFft EvpFftProps EvpMisesProps EvpMeanProps EvpNewtonProps LsFlowModel LsJ2Props LsNewtonProps.
Import ListNotations.
Local Open Scope R_scope.

Definition mul3 (A B : nat -> nat -> R) : nat -> nat -> R := fun i j => S3 (fun k => A i k * B k j).
(* Nominal and true stress in a body deformed by F:  sigma = P F^T / det F and
   P = det F sigma F^-T. *)
Definition true_stress (F : T2) (J : R) (P : T2) : T2 := fun i j => mul3 P (transposed F) i j / J.
Definition nominal_stress (Finv : T2) (J : R) (sigma : T2) : T2 := fun i j => J * mul3 sigma (transposed Finv) i j.

Lemma mul3_ext A A' B B' i j : (forall k, idx 3 k -> A i k = A' i k) -> (forall k, idx 3 k -> B k j = B' k j) -> mul3 A B i j = mul3 A' B' i j.
Proof. intros HA HB. unfold mul3, S3. rewrite !HA, !HB by (unfold idx; lia). reflexivity. Qed.

(* C128: the medium answers a velocity gradient L with the true stress rate that goes
   with the nominal one of the undeformed medium under the rate L F of the deformation
   gradient. *)
Theorem C128_stress c0 F J L i j : act (c0mod c0 F J) L i j = true_stress F J (act c0 (mul3 L F)) i j.
Proof.
  unfold true_stress, mul3, transposed, c0mod, Rdiv. unfold act at 1.
  rewrite (S3_ext _ (fun k => S3 (fun l => S3 (fun m => S3 (fun n => c0 i m k n * F j m * F l n)) * L k l) * / J)).
  - unfold act, S3. ring.
  - intros k _. unfold S3 at 1 4. rewrite !sum1_3. unfold S3. rewrite !sum1_3. unfold S3. ring.
Qed.
Print Assumptions C128_stress.

(* The other way: a true stress changes the velocity gradient as the nominal stress
   that goes with it changes the rate of the deformation gradient. *)
Theorem C128_green G Finv J sigma i j : act (Goperr0mod G Finv J) sigma i j = mul3 (act G (nominal_stress Finv J sigma)) Finv i j.
Proof.
  unfold nominal_stress, mul3, transposed, Goperr0mod. unfold act at 1.
  rewrite (S3_ext _ (fun k => J * S3 (fun l => S3 (fun m => S3 (fun n => G i m k n * Finv m j * Finv n l)) * sigma k l))).
  - unfold act, S3. ring.
  - intros k _. unfold S3 at 1 4. rewrite !sum1_3. unfold S3. rewrite !sum1_3. unfold S3. ring.
Qed.
Print Assumptions C128_green.

Definition inverse3 (A B : T2) : Prop := forall i j, idx 3 i -> idx 3 j -> mul3 A B i j = d i j /\ mul3 B A i j = d i j.

Lemma mul3_assoc A B C i j : mul3 (mul3 A B) C i j = mul3 A (mul3 B C) i j.
Proof. unfold mul3, S3. ring. Qed.
Lemma mul3_d A i j : idx 3 j -> mul3 A d i j = A i j.
Proof. intros J. unfold mul3, S3, d. unfold idx in J. assert (j = 1 \/ j = 2 \/ j = 3)%nat as [->|[->| ->]] by lia; cbn [Nat.eqb]; ring. Qed.

(* True and nominal stress undo each other. *)
Lemma nominal_true F Finv J P i j : inverse3 F Finv -> J <> 0 -> idx 3 i -> idx 3 j -> nominal_stress Finv J (true_stress F J P) i j = P i j.
Proof.
  intros V Z I Hj. unfold nominal_stress, true_stress. transitivity (mul3 (mul3 P (transposed F)) (transposed Finv) i j).
  - unfold mul3, S3, transposed, Rdiv. field. exact Z.
  - rewrite mul3_assoc. rewrite (mul3_ext _ P _ d) ; [|auto|intros k K; transitivity (mul3 Finv F j k); [unfold mul3, transposed, S3; ring|]; rewrite (proj2 (V j k Hj K)); unfold d; rewrite Nat.eqb_sym; reflexivity].
    apply mul3_d. exact Hj.
Qed.

(* Together they are what the operators of the undeformed medium are together. *)
Theorem C128_together c0 G F Finv J L i j : inverse3 F Finv -> J <> 0 -> idx 3 i -> idx 3 j ->
  act (Goperr0mod G Finv J) (act (c0mod c0 F J) L) i j = mul3 (act G (act c0 (mul3 L F))) Finv i j.
Proof.
  intros V Z I Hj. rewrite C128_green. apply mul3_ext; [|auto]. intros m M. apply act_ext. intros k l K Hl.
  transitivity (nominal_stress Finv J (true_stress F J (act c0 (mul3 L F))) k l); [|apply (nominal_true F); assumption].
  unfold nominal_stress. f_equal. apply mul3_ext; [|auto]. intros n N. apply C128_stress.
Qed.
Print Assumptions C128_together.

(* ---------- in components ---------- *)

Lemma symmetrised_minor C : minor_symmetric (symmetrised C).
Proof. intros i j k l _ _ _ _. unfold symmetrised. split; ring. Qed.
Lemma symmetrised_act C D i j : symmetric D -> act (symmetrised C) D i j = (act C D i j + act C D j i) / 2.
Proof.
  intros S. unfold act, S3, symmetrised. rewrite (S 2%nat 1%nat), (S 3%nat 1%nat), (S 3%nat 2%nat) by (unfold idx; lia). field.
Qed.

(* The matrices the local iteration uses give the symmetric parts. *)
Theorem C128_components c0 F J D n : symmetric D -> idx 6 n ->
  mat_v (c066mod c0 F J) (comps D) n = comps (sym_part (true_stress F J (act c0 (mul3 D F)))) n.
Proof.
  intros S N. unfold c066mod. rewrite mat_act by (try apply symmetrised_minor; assumption). apply comps_ext. intros i j I J'. rewrite symmetrised_act by exact S. rewrite !C128_stress. reflexivity.
Qed.
Print Assumptions C128_components.
Theorem C128_green_components G Finv J sigma n : symmetric sigma -> idx 6 n ->
  mat_v (Goperr066mod G Finv J) (comps sigma) n = comps (sym_part (mul3 (act G (nominal_stress Finv J sigma)) Finv)) n.
Proof.
  intros S N. unfold Goperr066mod. rewrite mat_act by (try apply symmetrised_minor; assumption). apply comps_ext. intros i j I J'. rewrite symmetrised_act by exact S. rewrite !C128_green. reflexivity.
Qed.
Print Assumptions C128_green_components.
Theorem C128_product c0 G F Finv J v n : idx 6 n -> mat_v (c066modGoperr066mod c0 G F Finv J) v n = mat_v (c066mod c0 F J) (mat_v (Goperr066mod G Finv J) v) n.
Proof. intros N. unfold mat_v, c066modGoperr066mod, S6. rewrite !sum1_6. unfold S6. ring. Qed.
Print Assumptions C128_product.

(* Before any deformation it is the medium itself. *)
Theorem C128_undeformed c0 G D i j : idx 3 i -> idx 3 j -> act (c0mod c0 d 1) D i j = act c0 D i j /\ act (Goperr0mod G d 1) D i j = act G D i j.
Proof.
  intros I J. rewrite C128_stress, C128_green. unfold true_stress. split.
  - transitivity (mul3 (act c0 (mul3 D d)) d i j); [unfold mul3, transposed, S3, d; rewrite !(Nat.eqb_sym j); field|]. rewrite mul3_d by exact J. apply act_ext. intros k l K L. apply mul3_d. exact L.
  - rewrite mul3_d by exact J. apply act_ext. intros k l K L. unfold nominal_stress. transitivity (mul3 D d k l); [unfold mul3, transposed, S3, d; rewrite !(Nat.eqb_sym l); ring|]. apply mul3_d. exact L.
Qed.
Print Assumptions C128_undeformed.

(* ---------- stability ---------- *)

Lemma energy c0 F J D : minor_symmetric c0 -> J <> 0 -> symmetric D ->
  ddot D (act (symmetrised (c0mod c0 F J)) D) = ddot (sym_part (mul3 D F)) (act c0 (sym_part (mul3 D F))) / J.
Proof.
  intros M Z S.
  assert (E1 : ddot D (act (symmetrised (c0mod c0 F J)) D) = ddot D (true_stress F J (act c0 (mul3 D F)))).
  { set (P := true_stress F J (act c0 (mul3 D F))). rewrite (ddot_ext D D _ (sym_part P)) by (first [solve [auto]|intros i j I Jj; rewrite symmetrised_act by exact S; rewrite !C128_stress; reflexivity]).
    unfold ddot, S3, sym_part. rewrite (S 2%nat 1%nat), (S 3%nat 1%nat), (S 3%nat 2%nat) by (unfold idx; lia). field. }
  rewrite E1. set (E := mul3 D F).
  assert (E2 : ddot D (true_stress F J (act c0 E)) = ddot E (act c0 E) / J).
  { unfold E at 2. generalize (act c0 E). intros P. unfold true_stress, ddot, mul3, transposed, S3. field. exact Z. }
  rewrite E2. f_equal. rewrite (ddot_ext (sym_part E) (sym_part E) _ (act c0 E)) by (first [solve [auto]|intros; apply act_sym_part; assumption]).
  pose proof (act_sym c0 E M) as SA. unfold ddot, S3, sym_part. rewrite (SA 2%nat 1%nat), (SA 3%nat 1%nat), (SA 3%nat 2%nat) by (unfold idx; lia). field.
Qed.

Lemma classic_zero (E : T2) : (forall i j, idx 3 i -> idx 3 j -> E i j = 0) \/ exists i j, idx 3 i /\ idx 3 j /\ E i j <> 0.
Proof.
  assert (Q : forall i, (forall j, idx 3 j -> E i j = 0) \/ exists j, idx 3 j /\ E i j <> 0).
  { intros i. destruct (Req_dec (E i 1%nat) 0) as [Z1|Z1]; [|right; exists 1%nat; split; [unfold idx; lia|exact Z1]].
    destruct (Req_dec (E i 2%nat) 0) as [Z2|Z2]; [|right; exists 2%nat; split; [unfold idx; lia|exact Z2]].
    destruct (Req_dec (E i 3%nat) 0) as [Z3|Z3]; [|right; exists 3%nat; split; [unfold idx; lia|exact Z3]]. left. intros j J. all3 J; assumption. }
  destruct (Q 1%nat) as [Z1|(j & J & N)]; [|right; exists 1%nat, j; split; [unfold idx; lia|]; split; assumption].
  destruct (Q 2%nat) as [Z2|(j & J & N)]; [|right; exists 2%nat, j; split; [unfold idx; lia|]; split; assumption].
  destruct (Q 3%nat) as [Z3|(j & J & N)]; [|right; exists 3%nat, j; split; [unfold idx; lia|]; split; assumption].
  left. intros i j I J. all3 I; auto.
Qed.

(* The medium stays elastic while the deformation turns no direction by a right angle
   or more. *)
Theorem C128_stable c0 F J : elastic c0 -> 0 < J -> (forall x, (exists i, idx 3 i /\ x i <> 0) -> 0 < vdot x (mul_v F x)) ->
  elastic (symmetrised (c0mod c0 F J)) /\ pos6 (c066mod c0 F J).
Proof.
  intros (M & MJ & P) JP FP.
  assert (EL : elastic (symmetrised (c0mod c0 F J))); [|split; [exact EL|apply mat_pos; exact EL]].
  split; [apply symmetrised_minor|]. split.
  - intros i j k l I Jj K L.
    assert (Q : forall a b e f, idx 3 a -> idx 3 e -> c0mod c0 F J a b e f = c0mod c0 F J e f a b).
    { intros a b e f A E. unfold c0mod. f_equal. rewrite !sum1_3. unfold S3. rewrite !sum1_3. unfold S3.
      assert (X : forall m n, idx 3 m -> idx 3 n -> c0 a m e n = c0 e n a m) by (intros; apply MJ; assumption). rewrite !X by (unfold idx; lia). ring. }
    unfold symmetrised. rewrite (Q i j k l), (Q j i k l), (Q i j l k), (Q j i l k) by assumption. ring.
  - intros D S NZ. rewrite energy by (try assumption; lra). apply Rdiv_lt_0_compat; [|exact JP].
    set (E := sym_part (mul3 D F)). assert (SE : symmetric E) by (intros i j _ _; unfold E, sym_part; lra).
    apply P; [exact SE|]. destruct NZ as (i & j & I & Jj & N).
    destruct (classic_zero E) as [ZE|NE]; [|exact NE]. exfalso.
    assert (Q : S3 (fun a => vdot (D a) (mul_v F (D a))) = ddot D E).
    { unfold E, ddot, sym_part, mul3, vdot, mul_v, S3. rewrite (S 2%nat 1%nat), (S 3%nat 1%nat), (S 3%nat 2%nat) by (unfold idx; lia). field. }
    assert (Z : ddot D E = 0) by (unfold ddot, S3; rewrite !ZE by (unfold idx; lia); ring). rewrite Z in Q.
    assert (NN : forall a, 0 <= vdot (D a) (mul_v F (D a))).
    { intros a. destruct (Req_dec (D a 1%nat) 0) as [Z1|Z1]; [|left; apply FP; exists 1%nat; split; [unfold idx; lia|exact Z1]].
      destruct (Req_dec (D a 2%nat) 0) as [Z2|Z2]; [|left; apply FP; exists 2%nat; split; [unfold idx; lia|exact Z2]].
      destruct (Req_dec (D a 3%nat) 0) as [Z3|Z3]; [|left; apply FP; exists 3%nat; split; [unfold idx; lia|exact Z3]].
      right. unfold vdot, S3. rewrite Z1, Z2, Z3. ring. }
    assert (PP : 0 < vdot (D i) (mul_v F (D i))) by (apply FP; exists j; split; assumption).
    pose proof (NN 1%nat). pose proof (NN 2%nat). pose proof (NN 3%nat). unfold S3 in Q. unfold idx in I. assert (i = 1 \/ i = 2 \/ i = 3)%nat as [->|[->| ->]] by lia; lra.
Qed.
Print Assumptions C128_stable.

(* A specimen turned by a right angle has a reference medium without resistance to
   expansion across the axis. *)
Definition quarter : T2 := fun i j => match i, j with 1, 2 => (-1)%R | 2, 1 => 1%R | 3, 3 => 1%R | _, _ => 0%R end%nat.
Definition across : T2 := fun i j => match i, j with 1, 1 => 1%R | 2, 2 => 1%R | _, _ => 0%R end%nat.
Theorem C128_turned_refuted c0 : minor_symmetric c0 -> rotation quarter /\ det3 quarter = 1 /\ symmetric across /\ across 1%nat 1%nat = 1 /\
  (forall i j, idx 3 i -> idx 3 j -> act (c0mod c0 quarter 1) across i j = 0) /\ ~ pos6 (c066mod c0 quarter 1).
Proof.
  intros M. assert (RQ : rotation quarter).
  { split; [|unfold det3, quarter; ring]. intros i j I J. all3 I; all3 J; unfold S3, quarter, d; cbn [Nat.eqb]; ring. }
  assert (SA : symmetric across) by (intros i j I J; all3 I; all3 J; reflexivity).
  assert (Z : forall i j, idx 3 i -> idx 3 j -> act (c0mod c0 quarter 1) across i j = 0).
  { intros i j I J. rewrite C128_stress. unfold true_stress. assert (Q : forall m, idx 3 m -> act c0 (mul3 across quarter) i m = 0).
    { intros m Hm. rewrite <- (act_sym_part c0 _ i m M I Hm). unfold act, S3, sym_part, mul3, S3, across, quarter. field. }
    unfold mul3 at 1. rewrite (S3_ext _ (fun _ => 0)); [unfold S3; field|]. intros m Hm. rewrite Q by exact Hm. ring. }
  split; [exact RQ|]. split; [exact (proj2 RQ)|]. split; [exact SA|]. split; [reflexivity|]. split; [exact Z|].
  intros P. assert (NZ : exists n, idx 6 n /\ comps across n <> 0).
  { exists 6%nat. split; [unfold idx; lia|]. rewrite comps_6. apply Rmult_integral_contrapositive. split; [exact (fun E => ltac:(pose proof q3 as Q; rewrite E in Q; lra))|]. unfold trace, S3, across. lra. }
  pose proof (P (comps across) NZ) as Q. rewrite (S6_ext _ (fun _ => 0)) in Q; [unfold S6 in Q; lra|]. intros n N.
  transitivity (comps across n * mat_v (c066mod c0 quarter 1) (comps across) n); [unfold mat_v; rewrite <- S6_scale; apply S6_ext; intros; ring|].
  unfold c066mod. rewrite mat_act by (try apply symmetrised_minor; assumption). rewrite (comps_ext (act (symmetrised (c0mod c0 quarter 1)) across) (fun _ _ => 0)); [unfold comps, S3; ring|].
  intros i j I J. rewrite symmetrised_act by exact SA. rewrite !Z by assumption. field.
Qed.
Print Assumptions C128_turned_refuted.

(* ---------- the units of the medium ---------- *)

(* Multiplied by the time step before the iterations and divided by it after, the
   reference medium is what it was. *)
Theorem C128_restored tdot c066 c0 s0 : tdot <> 0 -> deinit_c0_s0 tdot (init_c0_s0 tdot (c066, c0, s0)) = (c066, c0, s0).
Proof.
  intros Z. unfold init_c0_s0, deinit_c0_s0. apply f_equal2; [apply f_equal2|]; repeat (apply functional_extensionality; intros ?); field; exact Z.
Qed.
Print Assumptions C128_restored.
(* Stiffness and compliance stay inverse to each other. *)
Theorem C128_inverse tdot c066 c0 s0 E i j : tdot <> 0 -> (forall E i j, idx 3 i -> idx 3 j -> act s0 (act c0 E) i j = sym_part E i j) -> idx 3 i -> idx 3 j ->
  let '(_, c, s) := init_c0_s0 tdot (c066, c0, s0) in act s (act c E) i j = sym_part E i j.
Proof.
  intros Z H I J. cbn [init_c0_s0]. rewrite <- (H E i j I J). unfold act, S3. field. exact Z.
Qed.
Print Assumptions C128_inverse.

(* ---------- the operator of a point on itself ---------- *)

Lemma green_same c0 s0 nyq xk i ii j jj : green_at c0 s0 nyq xk ii jj i j = green c0 s0 nyq xk i ii j jj.
Proof. unfold green_at, green, ghat. destruct nyq; reflexivity. Qed.

Section Self.
Variables n1 n2 n3 : nat.
Hypothesis N1 : (1 <= n1)%nat.
Hypothesis N2 : (1 <= n2)%nat.
Hypothesis N3 : (1 <= n3)%nat.

Lemma zero_kernel c0 s0 i j : site_nyquist n1 n2 n3 (0, 0, 0)%nat = false /\ forall t, sum1 3 (fun k => sum1 3 (fun l => green c0 s0 (site_nyquist n1 n2 n3 (0, 0, 0)%nat) (site_frequency ones n1 n2 n3 (0, 0, 0)%nat) i j k l * t k l)) = 0.
Proof.
  assert (Q : forall n, (1 <= n)%nat -> is_nyquist (Z.of_nat n) (Z.of_nat 0 + 1) = false).
  { intros n N. unfold is_nyquist. destruct (Z.eqb_spec (Z.of_nat 0 + 1) (Z.of_nat n / 2 + 1)) as [E|]; [|reflexivity].
    destruct (Z.eqb_spec (Z.of_nat n mod 2) 0) as [E2|]; [|reflexivity]. exfalso. pose proof (Z_div_mod_eq_full (Z.of_nat n) 2). lia. }
  assert (NY : site_nyquist n1 n2 n3 (0, 0, 0)%nat = false).
  { unfold site_nyquist, nyquist. rewrite !Q by assumption. rewrite Bool.andb_false_r. reflexivity. }
  split; [exact NY|]. intros t. rewrite NY. unfold green.
  assert (X : forall l, idx 3 l -> normalised (site_frequency ones n1 n2 n3 (0, 0, 0)%nat) l = 0).
  { intros l L. assert (F0 : site_frequency ones n1 n2 n3 (0, 0, 0)%nat l = 0).
    { unfold site_frequency. all3 L; unfold frequency;
        match goal with |- context [wave_number (Z.of_nat ?n) 0 (Z.of_nat 0)] => destruct (C111_frequencies (Z.of_nat n) 0 (Z.of_nat 0) ltac:(lia) ltac:(lia)) as (_ & _ & Q0 & _); rewrite (proj2 Q0 eq_refl) end; unfold Rdiv; ring. }
    unfold normalised. destruct (Req_EM_T _ 0); [exact F0|]. rewrite F0. unfold Rdiv. ring. }
  rewrite sum1_3. unfold S3. rewrite !sum1_3. unfold S3. rewrite (X 1%nat), (X 2%nat), (X 3%nat) by (unfold idx; lia). ring.
Qed.

Lemma self_term c0 s0 (t : T2) (p k : site) i j : In p (sites n1 n2 n3) -> In k (sites n1 n2 n3) -> idx 3 i -> idx 3 j ->
  let at_k part := inverse_the_greens c0 s0 (site_nyquist n1 n2 n3 k) (site_zero k) (site_frequency ones n1 n2 n3 k) (fun a b => part n1 n2 n3 (fun q => if site_dec q p then t a b else 0) k) i j in
  at_k fft_re * cos (phase n1 n2 n3 k p) - at_k fft_im * sin (phase n1 n2 n3 k p) =
  sum1 3 (fun a => sum1 3 (fun b => green_at c0 s0 (site_nyquist n1 n2 n3 k) (site_frequency ones n1 n2 n3 k) j b i a * t a b)).
Proof.
  intros P K I J at_k. unfold at_k. clear at_k.
  assert (RE : forall a b, fft_re n1 n2 n3 (fun q => if site_dec q p then t a b else 0) k = t a b * cos (phase n1 n2 n3 k p)).
  { intros a b. unfold fft_re. rewrite (suml_ext _ (fun q => (t a b * cos (phase n1 n2 n3 k q)) * (if site_dec q p then 1 else 0))) by (intros q _; destruct (site_dec q p); ring).
    exact (suml_pick site_dec _ _ p (NoDup_sites n1 n2 n3) P). }
  assert (IM : forall a b, fft_im n1 n2 n3 (fun q => if site_dec q p then t a b else 0) k = - (t a b * sin (phase n1 n2 n3 k p))).
  { intros a b. unfold fft_im. rewrite (suml_ext _ (fun q => (- (t a b * sin (phase n1 n2 n3 k q))) * (if site_dec q p then 1 else 0))) by (intros q _; destruct (site_dec q p); ring).
    exact (suml_pick site_dec _ _ p (NoDup_sites n1 n2 n3) P). }
  set (c := cos (phase n1 n2 n3 k p)) in *. set (s := sin (phase n1 n2 n3 k p)) in *.
  assert (U : c * c + s * s = 1). { unfold c, s. pose proof (sin2_cos2 (phase n1 n2 n3 k p)) as Q. unfold Rsqr in Q. lra. }
  assert (GS : sum1 3 (fun a => sum1 3 (fun b => green_at c0 s0 (site_nyquist n1 n2 n3 k) (site_frequency ones n1 n2 n3 k) j b i a * t a b)) =
    sum1 3 (fun a => sum1 3 (fun b => green c0 s0 (site_nyquist n1 n2 n3 k) (site_frequency ones n1 n2 n3 k) i j a b * t a b))).
  { rewrite !sum1_3. unfold S3. rewrite !sum1_3. unfold S3. rewrite !green_same. reflexivity. }
  rewrite GS. clear GS.
  unfold inverse_the_greens. destruct (site_zero k) eqn:Z.
  - apply (zero_site n1 n2 n3 N1 N2 N3) in Z. subst k. rewrite (proj2 (zero_kernel c0 s0 i j)). ring.
  - rewrite !sum1_3. unfold S3. rewrite !sum1_3. unfold S3. rewrite !RE, !IM. set (g := green _ _ _ _).
    match goal with |- ?l = ?r => transitivity (r * (c * c + s * s)); [ring|rewrite U; ring] end.
Qed.
End Self.

(* The operator that goes into the local iteration is what a change of the stress at a
   point alone does to the gradient at the same point, wherever it is. *)
Theorem C128_self c0 s0 n1 n2 n3 t p i j : (1 <= n1)%nat -> (1 <= n2)%nat -> (1 <= n3)%nat -> In p (sites n1 n2 n3) -> idx 3 i -> idx 3 j ->
  field_correction c0 s0 ones n1 n2 n3 (fun q a b => if site_dec q p then t a b else 0) p i j = act (calc_Goperr0 c0 s0 n1 n2 n3) t i j.
Proof.
  intros N1 N2 N3 P I J. unfold field_correction, ifft.
  rewrite (suml_ext _ (fun k => sum1 3 (fun a => sum1 3 (fun b => green_at c0 s0 (site_nyquist n1 n2 n3 k) (site_frequency ones n1 n2 n3 k) j b i a * t a b)))) by (intros k K; apply (self_term n1 n2 n3 N1 N2 N3 c0 s0 t p k i j P K I J)).
  unfold calc_Goperr0, ifft, act. set (v := / (INR n1 * INR n2 * INR n3)).
  assert (X : forall a b, suml (fun k => green_at c0 s0 (site_nyquist n1 n2 n3 k) (site_frequency ones n1 n2 n3 k) j b i a * cos (phase n1 n2 n3 k (0, 0, 0)%nat) - 0 * sin (phase n1 n2 n3 k (0, 0, 0)%nat)) (sites n1 n2 n3) =
     suml (fun k => green_at c0 s0 (site_nyquist n1 n2 n3 k) (site_frequency ones n1 n2 n3 k) j b i a) (sites n1 n2 n3)).
  { intros a b. apply suml_ext. intros ((k1, k2), k3) _. unfold phase. rewrite !Nat.mul_0_r. change (INR 0) with 0. unfold Rdiv. rewrite !Rmult_0_l, !Rplus_0_r, Rmult_0_r, cos_0. ring. }
  rewrite (suml_ext _ (fun k => S3 (fun a => S3 (fun b => green_at c0 s0 (site_nyquist n1 n2 n3 k) (site_frequency ones n1 n2 n3 k) j b i a * t a b)))) by (intros k K; rewrite sum1_3; unfold S3; rewrite !sum1_3; reflexivity).
  unfold S3. rewrite !X. rewrite !suml_plus. rewrite !(suml_ext (fun k => green_at _ _ _ _ _ _ _ _ * t _ _) _ _ (fun k K => Rmult_comm _ _)). rewrite !suml_scal. ring.
Qed.
Print Assumptions C128_self.


(* A sheared and stretched body *)
Definition met_F : T2 := fun i j => match i, j with 1, 1 => 2%R | 1, 2 => 1%R | 2, 2 => 2%R | 3, 3 => 1%R | _, _ => 0%R end%nat.
Definition met_Finv : T2 := fun i j => match i, j with 1, 1 => (1/2)%R | 1, 2 => (-1/4)%R | 2, 2 => (1/2)%R | 3, 3 => 1%R | _, _ => 0%R end%nat.
Example C128_met : elastic unit4 /\ inverse3 met_F met_Finv /\ det3 met_F = 4 /\ (forall x, (exists i, idx 3 i /\ x i <> 0) -> 0 < vdot x (mul_v met_F x)) /\
  In (1, 2, 0)%nat (sites 2 3 1) /\ symmetric across /\ minor_symmetric unit4.
Proof.
  split; [exact unit4_elastic|]. split; [intros i j I J; all3 I; all3 J; unfold mul3, S3, met_F, met_Finv, d; cbn [Nat.eqb]; split; field|]. split; [unfold det3, met_F; ring|]. split.
  - intros x (i & I & N). unfold vdot, mul_v, S3, met_F. assert (P : 0 < x i * x i) by nra.
    assert (E : x 1%nat * (2 * x 1%nat + 1 * x 2%nat + 0 * x 3%nat) + x 2%nat * (0 * x 1%nat + 2 * x 2%nat + 0 * x 3%nat) + x 3%nat * (0 * x 1%nat + 0 * x 2%nat + 1 * x 3%nat) =
      (x 1%nat * x 1%nat + x 2%nat * x 2%nat + x 3%nat * x 3%nat) + (x 1%nat + x 2%nat / 2) * (x 1%nat + x 2%nat / 2) + 3 / 4 * (x 2%nat * x 2%nat)) by field.
    rewrite E. assert (Q : forall y, 0 <= y * y) by (intros; nra). pose proof (Q (x 1%nat)). pose proof (Q (x 2%nat)). pose proof (Q (x 3%nat)). pose proof (Q (x 1%nat + x 2%nat / 2)). all3 I; lra.
  - split; [apply in_sites; lia|]. split; [intros i j I J; all3 I; all3 J; reflexivity|]. exact (proj1 unit4_elastic).
Qed.
