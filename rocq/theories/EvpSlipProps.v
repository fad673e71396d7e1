(* Slip systems and the flow rule: C108, C109. *)
From Coq Require Import Reals List Arith Lia Lra ZArith.
From Verif Require Import BaseReal LinModel EvpModel EvpFlowModel EvpSpec EvpFlowSpec EvpBasis EvpElast EvpRot EvpSlip.
Import ListNotations.
Local Open Scope R_scope.

(* C108: the stress that drives a system is the shear stress on its plane along its
   direction, both in sample axes. *)
Theorem C108_resolved sn sb sy ag sigma s :
  make_system sn sb = Some sy -> vdot (dnca sy) (dbca sy) = 0 -> rotation ag -> symmetric sigma -> sl_sch s = update_schmid ag sy ->
  resolved s (chg_basis_2 6 sigma) = shear_stress sigma (mul_v ag (dnca sy)) (mul_v ag (dbca sy)).
Proof.
  intros M P R S E. destruct (made sn sb sy M) as (_ & _ & C). rewrite (resolved_tensor s ag (dnca sy) (dbca sy) sy sigma R S C E), P. unfold shear_stress. unfold Rdiv. ring.
Qed.
Print Assumptions C108_resolved.

Lemma press_sym p : symmetric (fun i j => p * d i j).
Proof. intros i j I J. unfold d. rewrite (Nat.eqb_sym i j). reflexivity. Qed.

(* Pressure drives none. *)
Theorem C108_pressure sn sb sy ag s p : make_system sn sb = Some sy -> rotation ag -> sl_sch s = update_schmid ag sy -> resolved s (chg_basis_2 6 (fun i j => p * d i j)) = 0.
Proof.
  intros M R E. destruct (made sn sb sy M) as (_ & _ & C).
  rewrite (resolved_tensor s ag (dnca sy) (dbca sy) sy _ R (press_sym p) C E).
  rewrite <- (turned_vdot ag (dnca sy) (dbca sy) R). unfold vdot, mul_v, trace, d, S3. cbn [Nat.eqb]. field.
Qed.
Print Assumptions C108_pressure.

(* A system shears by the power law, and the slope the solver uses is the slope of
   the law. *)
Theorem C108_rate s : (1 <= sl_nrs s < 2147483648)%Z -> 0 < sl_crss1 s -> 0 < sl_crss2 s ->
  let law := fun tau => power_law (sl_gamd0 s) (sl_crss1 s) (sl_crss2 s) (Z.to_nat (sl_nrs s)) (tau - sl_xkin s) in
  forall tau, exists slope, shear_rate s tau = Some (slope, law tau) /\ ((2 <= sl_nrs s)%Z \/ tau <> sl_xkin s -> derivable_pt_lim law tau slope).
Proof.
  intros Z C1 C2 law tau. exists (slope_of s tau). split; [apply shear_rate_value; repeat split; solve [exact C1|exact C2|lia]|].
  intros N. apply (lim_shift (power_law (sl_gamd0 s) (sl_crss1 s) (sl_crss2 s) (Z.to_nat (sl_nrs s)))). apply law_slope_lim; [exact C1|exact C2|].
  destruct N as [N|N]; [left; lia|right; lra].
Qed.
Print Assumptions C108_rate.

(* What the law says: the rate grows with the stress and has its sign, and is the
   reference rate where the stress is the strength. *)
Theorem C108_law g0 c1 c2 n : 0 < g0 -> 0 < c1 -> 0 < c2 -> (1 <= n)%nat ->
  (forall x y, x <= y -> power_law g0 c1 c2 n x <= power_law g0 c1 c2 n y) /\ (forall x, x <> 0 -> 0 < x * power_law g0 c1 c2 n x) /\
  power_law g0 c1 c2 n 0 = 0 /\ power_law g0 c1 c2 n c1 = g0 /\ power_law g0 c1 c2 n (- c2) = - g0.
Proof.
  intros G C1 C2 N. split; [intros; apply law_mono; lra|]. split; [intros; apply law_strict; assumption|]. unfold power_law.
  destruct (Rlt_dec 0 0); [lra|]. destruct (Rlt_dec c1 0); [lra|]. destruct (Rlt_dec (- c2) 0); [|lra].
  replace (0 / c1) with 0 by (field; lra). replace (c1 / c1) with 1 by (field; lra). replace (- - c2 / c2) with 1 by (field; lra).
  rewrite !pow1, pow_ne_zero by lia. repeat split; ring.
Qed.
Print Assumptions C108_law.

(* A crystal and its systems at a point. *)
Definition slips (ag : T2) (ss : list (system * slip)) : Prop :=
  forall p, In p ss -> (exists sn sb, make_system sn sb = Some (fst p)) /\ vdot (dnca (fst p)) (dbca (fst p)) = 0 /\ sl_sch (snd p) = update_schmid ag (fst p).

Definition gammas (rs : list (slip * (R * R))) : list R := map (fun r => snd (snd r)) rs.

Lemma system_tensor ag p ss : rotation ag -> slips ag ss -> In p ss ->
  let X := sample_tensor ag (dnca (fst p)) (dbca (fst p)) in
  symmetric X /\ trace X = 0 /\ (forall k, sl_sch (snd p) k = comps X k) /\ forall i j, X i j = sym_part (outer (mul_v ag (dbca (fst p))) (mul_v ag (dnca (fst p)))) i j.
Proof.
  intros R S P X. destruct (S p P) as ((sn & sb & M) & O & E). destruct (made sn sb _ M) as (_ & _ & C).
  split; [apply sample_sym|]. split; [apply sample_trace; exact R|]. split; [intros k; rewrite E; apply sch_tensor; assumption|].
  intros i j. unfold X, sample_tensor. rewrite O. unfold schmid_tensor, sym_part, outer. field.
Qed.

(* The plastic strain rate is the symmetric part of the distortion of the slips, whose
   antisymmetric part turns the lattice, and keeps the volume. *)
Theorem C108_flow ag ss sg6 rs : rotation ag -> slips ag ss -> shear_rates (map snd ss) sg6 = Some rs ->
  let distortion := fun i j => suml (fun q : system * R => snd q * outer (mul_v ag (dbca (fst q))) (mul_v ag (dnca (fst q))) i j) (combine (map fst ss) (gammas rs)) in
  (forall i j, idx 3 i -> idx 3 j -> chg_basis_1 6 (edotp6 rs) i j = sym_part distortion i j) /\
  trace (chg_basis_1 6 (edotp6 rs)) = 0 /\
  (forall i j, slip_distortion ag (combine (map fst ss) (gammas rs)) i j = distortion i j).
Proof.
  intros R S H distortion.
  assert (F : forall i j, idx 3 i -> idx 3 j -> chg_basis_1 6 (edotp6 rs) i j = sym_part distortion i j).
  { intros i j I J. unfold distortion. clear distortion. revert rs H. induction ss as [|[sy s] l IH]; intros rs H.
    - injection H as <-. rewrite flow_nil. unfold sym_part, suml. cbn [map combine gammas fold_right]. field.
    - cbn [map snd shear_rates] in H. destruct (shear_rate s (resolved s sg6)) as [r|]; [|discriminate]. destruct (shear_rates (map snd l) sg6) as [q|]; [|discriminate]. injection H as <-.
      destruct (system_tensor ag (sy, s) _ R S (or_introl eq_refl)) as (X1 & X2 & X3 & X4). cbn [fst snd] in *.
      rewrite (flow_cons s r q _ i j I J X1 X2 X3), X4. rewrite (IH ltac:(intros p P; apply S; right; exact P) q eq_refl).
      unfold sym_part. cbn [map combine gammas fst snd]. rewrite !suml_cons. cbn [fst snd]. unfold gammas. field. }
  split; [exact F|]. split.
  - unfold trace. rewrite (S3_ext _ (fun i => distortion i i)) by (intros i I; rewrite F by assumption; unfold sym_part; field). unfold distortion. clear F distortion.
    revert rs H. induction ss as [|[sy s] l IH]; intros rs H; [cbn [map combine]; unfold S3, suml; cbn [fold_right]; ring|].
    cbn [map snd shear_rates] in H. destruct (shear_rate s (resolved s sg6)) as [r|]; [|discriminate]. destruct (shear_rates (map snd l) sg6) as [q|]; [|discriminate]. injection H as <-.
    pose proof (IH ltac:(intros p P; apply S; right; exact P) q eq_refl) as IH'. cbn [map combine gammas fst snd]. unfold S3 in *. rewrite !suml_cons. cbn [fst snd]. unfold gammas in IH'.
    destruct (S (sy, s) (or_introl eq_refl)) as (_ & O & _). cbn [fst] in O. rewrite <- (turned_vdot ag _ _ R) in O. unfold vdot, S3 in O. unfold outer in *. cbn [fst snd] in IH'.
    revert IH' O. generalize (mul_v ag (dnca sy)) (mul_v ag (dbca sy)). intros a b IH' O.
    assert (Z : snd r * (a 1%nat * b 1%nat + a 2%nat * b 2%nat + a 3%nat * b 3%nat) = 0) by (rewrite O; ring). lra.
  - intros i j. unfold slip_distortion, distortion. apply suml_ext. intros q _. rewrite !apply2_mul. unfold outer. ring.
Qed.
Print Assumptions C108_flow.

(* Plastic flow takes up energy: the work of the stress is that of the systems, and is
   positive. *)
Theorem C108_dissipation ag ss sigma : rotation ag -> slips ag ss -> symmetric sigma ->
  (forall s, In s (map snd ss) -> (1 <= sl_nrs s < 2147483648)%Z /\ 0 < sl_crss1 s /\ 0 < sl_crss2 s /\ 0 < sl_gamd0 s /\ sl_xkin s = 0) ->
  exists rs, shear_rates (map snd ss) (chg_basis_2 6 sigma) = Some rs /\
    0 <= ddot sigma (chg_basis_1 6 (edotp6 rs)) /\
    ((exists p, In p ss /\ shear_stress sigma (mul_v ag (dnca (fst p))) (mul_v ag (dbca (fst p))) <> 0) -> 0 < ddot sigma (chg_basis_1 6 (edotp6 rs))).
Proof.
  intros R S Y G. exists (with_rates (map snd ss) (chg_basis_2 6 sigma)).
  split; [apply rates_value; intros s I; destruct (G s I) as (A & B & C & _); repeat split; try assumption; lia|].
  assert (W : ddot sigma (chg_basis_1 6 (edotp6 (with_rates (map snd ss) (chg_basis_2 6 sigma)))) =
    suml (fun p : system * slip => let t := shear_stress sigma (mul_v ag (dnca (fst p))) (mul_v ag (dbca (fst p))) in
            t * power_law (sl_gamd0 (snd p)) (sl_crss1 (snd p)) (sl_crss2 (snd p)) (Z.to_nat (sl_nrs (snd p))) t) ss).
  { induction ss as [|p l IH].
    - cbn [map with_rates]. rewrite (ddot_ext sigma sigma _ (fun _ _ => 0)) by (intros; try rewrite flow_nil; reflexivity). unfold ddot, S3, suml. cbn [fold_right]. ring.
    - rewrite suml_cons, <- IH; [|intros q Q; apply S; right; exact Q|intros q Q; apply G; right; exact Q].
      destruct (system_tensor ag p _ R S (or_introl eq_refl)) as (X1 & X2 & X3 & X4). cbv zeta.
      destruct (S p (or_introl eq_refl)) as ((sn & sb & M) & O & E).
      pose proof (C108_resolved sn sb (fst p) ag sigma (snd p) M O R Y E) as RT.
      destruct (G (snd p) (or_introl eq_refl)) as (_ & _ & _ & _ & XK).
      cbn [map with_rates].
      rewrite (ddot_ext sigma sigma _ (fun i j => rate_of (snd p) (resolved (snd p) (chg_basis_2 6 sigma)) * sample_tensor ag (dnca (fst p)) (dbca (fst p)) i j + chg_basis_1 6 (edotp6 (with_rates (map snd l) (chg_basis_2 6 sigma))) i j));
        [|reflexivity|intros i j I J; rewrite (flow_cons _ _ _ _ i j I J X1 X2 X3); reflexivity].
      assert (V : ddot (sample_tensor ag (dnca (fst p)) (dbca (fst p))) sigma = shear_stress sigma (mul_v ag (dnca (fst p))) (mul_v ag (dbca (fst p)))).
      { rewrite (ddot_ext _ (schmid_tensor (mul_v ag (dnca (fst p))) (mul_v ag (dbca (fst p)))) sigma sigma); [apply schmid_ddot; exact Y| |reflexivity].
        intros i j _ _. unfold sample_tensor. rewrite O. unfold Rdiv. ring. }
      rewrite RT. unfold rate_of. rewrite XK, Rminus_0_r. rewrite <- V. unfold ddot, S3. ring. }
  rewrite W. split.
  - apply suml_nonneg. intros p P. cbv zeta. destruct (G (snd p) (in_map snd _ _ P)) as (_ & A & B & C & _). apply law_sign; lra.
  - intros (p & P & N). apply in_split in P. destruct P as (l1 & l2 & ->). rewrite suml_app, suml_cons. cbv zeta.
    assert (NN : forall q, In q (l1 ++ p :: l2) -> 0 <= (fun p : system * slip => let t := shear_stress sigma (mul_v ag (dnca (fst p))) (mul_v ag (dbca (fst p))) in
            t * power_law (sl_gamd0 (snd p)) (sl_crss1 (snd p)) (sl_crss2 (snd p)) (Z.to_nat (sl_nrs (snd p))) t) q)
      by (intros q Q; cbv beta zeta; destruct (G (snd q) (in_map snd _ _ Q)) as (_ & A & B & C & _); apply law_sign; lra).
    pose proof (suml_nonneg _ l1 (fun q Q => NN q (in_or_app l1 (p :: l2) q (or_introl Q)))) as N1.
    pose proof (suml_nonneg _ l2 (fun q Q => NN q (in_or_app l1 (p :: l2) q (or_intror (or_intror Q))))) as N2. cbv beta zeta in N1, N2.
    destruct (G (snd p) (in_map snd _ _ (in_elt p l1 l2))) as (_ & A & B & C & _).
    pose proof (law_strict (sl_gamd0 (snd p)) (sl_crss1 (snd p)) (sl_crss2 (snd p)) (Z.to_nat (sl_nrs (snd p))) _ C A B N). lra.
Qed.
Print Assumptions C108_dissipation.

(* C109: the product of indices says whether a direction lies in a plane. *)
Theorem C109_cubic cdim isn isb : (forall i, idx 3 i -> 0 < cdim i) ->
  vdot (system_normal Orthogonal cdim isn) (system_direction Orthogonal cdim isb) = IZR (miller_product isn isb).
Proof.
  intros H. pose proof (H 1%nat ltac:(unfold idx; lia)). pose proof (H 2%nat ltac:(unfold idx; lia)). pose proof (H 3%nat ltac:(unfold idx; lia)).
  unfold vdot, S3, system_normal, system_direction, miller_product. rewrite !plus_IZR, !mult_IZR. field. repeat split; lra.
Qed.
Print Assumptions C109_cubic.

Theorem C109_hexagonal cdim isn isb : 0 < cdim 1%nat -> 0 < cdim 3%nat -> four_index isn -> four_index isb ->
  vdot (system_normal Hexagonal cdim isn) (system_direction Hexagonal cdim isb) = IZR (miller_bravais_product isn isb).
Proof.
  intros C1 C3 N B. unfold vdot, S3, system_normal, system_direction, miller_bravais_product, miller_product. rewrite N, B.
  rewrite !plus_IZR, !mult_IZR, !opp_IZR, !plus_IZR. pose proof (sqrt_lt_R0 3 ltac:(lra)).
  generalize (IZR (isn 1%nat)) (IZR (isn 2%nat)) (IZR (isn 4%nat)) (IZR (isb 1%nat)) (IZR (isb 2%nat)) (IZR (isb 4%nat)). intros h k l u v w. field. repeat split; lra.
Qed.
Print Assumptions C109_hexagonal.

(* No component is so small beside the others that it is taken for noise. *)
Definition clear_of_noise (v : nat -> R) : Prop := norm v <> 0 /\ forall i, idx 3 i -> v i = 0 \/ 1 / 1000 <= Rabs (v i / norm v).

Lemma norm3_norm v : norm3 v = norm v.
Proof. reflexivity. Qed.

Lemma norm_sq v : norm v * norm v = vdot v v.
Proof. unfold norm. apply sqrt_sqrt. unfold vdot, S3. nra. Qed.

Lemma unit_clear v i : clear_of_noise v -> idx 3 i -> unit_flushed v i = v i / norm v.
Proof.
  intros [N C] I. unfold unit_flushed, flush. rewrite norm3_norm. destruct (Rlt_dec (Rabs (v i / norm v)) (1 / 1000)) as [L|]; [|reflexivity].
  destruct (C i I) as [Z|Z]; [rewrite Z; unfold Rdiv; ring|lra].
Qed.

Lemma clear_dot a b : clear_of_noise a -> clear_of_noise b -> vdot (unit_flushed a) (unit_flushed b) = vdot a b / (norm a * norm b).
Proof.
  intros A B. unfold vdot, S3. rewrite !unit_clear by (first [assumption|unfold idx; lia]). destruct A as [A _], B as [B _]. field. split; assumption.
Qed.

(* Such a plane and a direction in it make a system of unit vectors at right angles;
   with a sharp angle between normal and direction the program stops. *)
Theorem C109_system sn sb : clear_of_noise sn -> clear_of_noise sb ->
  (vdot sn sb = 0 -> exists sy, make_system sn sb = Some sy /\ norm (dnca sy) = 1 /\ norm (dbca sy) = 1 /\ vdot (dnca sy) (dbca sy) = 0 /\
     forall i, idx 3 i -> dnca sy i = sn i / norm sn /\ dbca sy i = sb i / norm sb) /\
  (1 / 1000 <= vdot sn sb / (norm sn * norm sb) -> make_system sn sb = None).
Proof.
  intros A B. unfold make_system.
  assert (P : sum1 3 (fun j => unit_flushed sn j * unit_flushed sb j) = vdot sn sb / (norm sn * norm sb)) by (rewrite sum1_3; apply clear_dot; assumption).
  rewrite P. split.
  - intros Z. rewrite Z. destruct (Rle_dec (1 / 1000) (0 / (norm sn * norm sb))) as [L|_]; [unfold Rdiv in L; lra|].
    eexists. split; [reflexivity|]. cbn [dnca dbca].
    assert (U : forall v, clear_of_noise v -> norm (unit_flushed v) = 1).
    { intros v V. unfold norm. rewrite (clear_dot v v V V), norm_sq. replace (vdot v v / vdot v v) with 1; [apply sqrt_1|].
      field. rewrite <- norm_sq. destruct V as [V _]. apply Rmult_integral_contrapositive. split; assumption. }
    split; [apply U; exact A|]. split; [apply U; exact B|]. split; [rewrite clear_dot, Z by assumption; unfold Rdiv; ring|].
    intros i I. split; apply unit_clear; assumption.
  - intros L. destruct (Rle_dec (1 / 1000) (vdot sn sb / (norm sn * norm sb))); [reflexivity|contradiction].
Qed.
Print Assumptions C109_system.

(* An obtuse angle goes through: direction opposite to the normal. *)
Theorem C109_obtuse_refuted : exists isn isb sy, (miller_product isn isb < 0)%Z /\
  clear_of_noise (system_normal Orthogonal (fun _ => 1) isn) /\ clear_of_noise (system_direction Orthogonal (fun _ => 1) isb) /\
  make_system (system_normal Orthogonal (fun _ => 1) isn) (system_direction Orthogonal (fun _ => 1) isb) = Some sy /\ vdot (dnca sy) (dbca sy) = -1.
Proof.
  exists (fun _ => 1%Z), (fun _ => (-1)%Z). set (n := system_normal Orthogonal (fun _ => 1) (fun _ => 1%Z)). set (b := system_direction Orthogonal (fun _ => 1) (fun _ => (-1)%Z)).
  assert (S1 : 1 < sqrt 3 < 2) by (split; [rewrite <- sqrt_1 at 1; apply sqrt_lt_1; lra|rewrite <- (sqrt_square 2) by lra; apply sqrt_lt_1; lra]).
  assert (Nn : norm n = sqrt 3) by (unfold norm; f_equal; unfold vdot, S3, n, system_normal; field).
  assert (Nb : norm b = sqrt 3) by (unfold norm; f_equal; unfold vdot, S3, b, system_direction; ring).
  assert (V3 : 1 / 2 < / sqrt 3) by (unfold Rdiv; rewrite Rmult_1_l; apply Rinv_lt_contravar; nra).
  assert (Cn : clear_of_noise n).
  { split; [lra|]. intros i I. right. rewrite Nn. unfold n, system_normal. replace (1 / 1 / sqrt 3) with (/ sqrt 3) by (field; lra). rewrite Rabs_pos_eq; lra. }
  assert (Cb : clear_of_noise b).
  { split; [lra|]. intros i I. right. rewrite Nb. unfold b, system_direction. replace (-1 * 1 / sqrt 3) with (- / sqrt 3) by (field; lra). rewrite Rabs_Ropp, Rabs_pos_eq; lra. }
  assert (D : vdot (unit_flushed n) (unit_flushed b) = -1).
  { rewrite clear_dot by assumption. rewrite Nn, Nb, sqrt_sqrt by lra. unfold vdot, S3, n, b, system_normal, system_direction. field. }
  unfold make_system. destruct (Rle_dec (1 / 1000) (sum1 3 (fun j => unit_flushed n j * unit_flushed b j))) as [L|_].
  { exfalso. rewrite sum1_3 in L. change (1 / 1000 <= vdot (unit_flushed n) (unit_flushed b)) in L. lra. }
  eexists. split; [unfold miller_product; lia|]. split; [exact Cn|]. split; [exact Cb|]. split; [reflexivity|]. exact D.
Qed.
Print Assumptions C109_obtuse_refuted.

(* The modes asked for in the order of the file are the modes stored. *)
Theorem C109_modes {A} (file : list (nat * A)) (keep : nat -> bool) : NoDup (map fst file) -> ~ In 0%nat (map fst file) ->
  let chosen := filter (fun m : nat * A => keep (fst m)) file in read_modes (map fst chosen) file = map snd chosen.
Proof.
  cbv zeta. induction file as [|[m a] file IH]; intros ND NZ; [reflexivity|]. cbn [map fst] in ND, NZ. inversion ND as [|? ? NI ND']; subst.
  assert (NZ' : ~ In 0%nat (map fst file)) by (intros H; apply NZ; right; exact H). specialize (IH ND' NZ').
  cbn [filter fst]. destruct (keep m).
  - cbn [map fst snd read_modes]. rewrite Nat.eqb_refl. f_equal. exact IH.
  - cbn [read_modes]. destruct (map fst (filter (fun m0 : nat * A => keep (fst m0)) file)) as [|w l] eqn:E.
    + destruct (Nat.eqb_spec m 0) as [->|_]; [exfalso; apply NZ; left; reflexivity|]. exact IH.
    + destruct (Nat.eqb_spec m w) as [->|_]; [|exact IH]. exfalso. apply NI.
      assert (I : In w (map fst (filter (fun m0 : nat * A => keep (fst m0)) file))) by (rewrite E; left; reflexivity).
      apply in_map_iff in I. destruct I as ([x y] & X & Y). cbn [fst] in X. subst x. apply filter_In in Y. destruct Y as [Y _]. apply (in_map fst) in Y. exact Y.
Qed.
Print Assumptions C109_modes.

(* In another order some are lost. *)
Theorem C109_order_refuted : exists (file : list (nat * nat)) wanted, NoDup (map fst file) /\ (forall m, In m wanted <-> In m (map fst file)) /\ NoDup wanted /\
  (length (read_modes wanted file) < length wanted)%nat.
Proof.
  exists [(1, 10); (2, 20)]%nat, [2; 1]%nat. repeat split.
  - repeat constructor; cbn; intuition congruence.
  - cbn. intuition.
  - cbn. intuition.
  - repeat constructor; cbn; intuition congruence.
  - cbn. lia.
Qed.
Print Assumptions C109_order_refuted.

(* The plane (1 1 1) and the direction [1 -1 0] of a cubic crystal, in a grain that
   is not turned, pulled along x. *)
Definition fcc_n : nat -> R := system_normal Orthogonal (fun _ => 1) (fun _ => 1%Z).
Definition fcc_b : nat -> R := system_direction Orthogonal (fun _ => 1) (fun i => match i with 1%nat => 1%Z | 2%nat => (-1)%Z | _ => 0%Z end).
Example C109_met : clear_of_noise fcc_n /\ clear_of_noise fcc_b /\ vdot fcc_n fcc_b = 0 /\
  four_index (fun i => match i with 1%nat => 1%Z | 3%nat => (-1)%Z | _ => 0%Z end).
Proof.
  assert (S1 : 1 < sqrt 3 < 2) by (split; [rewrite <- sqrt_1 at 1; apply sqrt_lt_1; lra|rewrite <- (sqrt_square 2) by lra; apply sqrt_lt_1; lra]).
  assert (S2 : 1 < sqrt 2 < 2) by (split; [rewrite <- sqrt_1 at 1; apply sqrt_lt_1; lra|rewrite <- (sqrt_square 2) at 2 by lra; apply sqrt_lt_1; lra]).
  assert (V3 : 1 / 2 < / sqrt 3) by (unfold Rdiv; rewrite Rmult_1_l; apply Rinv_lt_contravar; nra).
  assert (V2 : 1 / 2 < / sqrt 2) by (unfold Rdiv; rewrite Rmult_1_l; apply Rinv_lt_contravar; nra).
  assert (Nn : norm fcc_n = sqrt 3) by (unfold norm; f_equal; unfold vdot, S3, fcc_n, system_normal; field).
  assert (Nb : norm fcc_b = sqrt 2) by (unfold norm; f_equal; unfold vdot, S3, fcc_b, system_direction; ring).
  split; [split; [lra|]|split; [split; [lra|]|split; [unfold vdot, S3, fcc_n, fcc_b, system_normal, system_direction; field|reflexivity]]].
  - intros i I. right. rewrite Nn. unfold fcc_n, system_normal. replace (1 / 1 / sqrt 3) with (/ sqrt 3) by (field; lra). rewrite Rabs_pos_eq; lra.
  - intros i I. rewrite Nb. all3 I; unfold fcc_b, system_direction.
    + right. replace (1 * 1 / sqrt 2) with (/ sqrt 2) by (field; lra). rewrite Rabs_pos_eq; lra.
    + right. replace (-1 * 1 / sqrt 2) with (- / sqrt 2) by (field; lra). rewrite Rabs_Ropp, Rabs_pos_eq; lra.
    + left. ring.
Qed.

Example C108_met : exists ss sigma, slips d ss /\ rotation d /\ symmetric sigma /\
  (forall s, In s (map snd ss) -> (1 <= sl_nrs s < 2147483648)%Z /\ 0 < sl_crss1 s /\ 0 < sl_crss2 s /\ 0 < sl_gamd0 s /\ sl_xkin s = 0) /\
  exists p, In p ss /\ shear_stress sigma (mul_v d (dnca (fst p))) (mul_v d (dbca (fst p))) <> 0.
Proof.
  destruct C109_met as (A & B & Z & _). destruct (proj1 (C109_system _ _ A B) Z) as (sy & M & _ & _ & O & U).
  exists [(sy, {| sl_sch := update_schmid d sy; sl_gamd0 := 1; sl_nrs := 10; sl_crss1 := 1; sl_crss2 := 2; sl_xkin := 0 |})], (fun i j => d i 1 * d j 1).
  split; [intros p [<-|[]]; split; [exists fcc_n, fcc_b; exact M|split; [exact O|reflexivity]]|].
  split; [split; [intros i j I J; all3 I; all3 J; unfold S3, d; cbn [Nat.eqb]; ring|unfold det3, d; cbn [Nat.eqb]; ring]|].
  split; [intros i j I J; ring|]. split; [intros s [<-|[]]; cbn; repeat split; solve [lia|lra]|].
  eexists. split; [left; reflexivity|]. cbn [fst]. destruct (U 1%nat ltac:(unfold idx; lia)) as [U1 U2].
  unfold shear_stress, vdot, mul_v, S3, d. cbn [Nat.eqb]. rewrite U1, U2. unfold fcc_n at 1, fcc_b at 1, system_normal, system_direction. destruct A as [A _], B as [B _].
  assert (norm fcc_n <> 0 /\ norm fcc_b <> 0) as [? ?] by (split; assumption).
  replace (_ + _ + _) with (1 / norm fcc_n * (1 / norm fcc_b)) by (field; split; assumption).
  apply Rmult_integral_contrapositive. split; apply Rmult_integral_contrapositive; split; try lra; apply Rinv_neq_0_compat; assumption.
Qed.
