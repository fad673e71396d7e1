(* A concrete step of the large-strain solver: one point, stretched along the first axis
   while one slip system flows. *)
From Coq Require Import Reals List Arith Lia Lra Psatz Bool ZArith.
From Verif Require Import BaseReal LinModel EvpModel EvpSpec EvpBasis EvpFlowModel LsSpec LsModel LsRunModel LsMat LsInv LsPolar LsPolarProps LsExp LsKin LsKinProps.
Import ListNotations.
Local Open Scope R_scope.

Definition one_point : settings := mkSettings 1 1 (fun _ _ => 1%Z) (fun _ => 0%Z) (fun _ _ => 0) true.
Definition slip_pass : pass := mkPass (fun _ _ _ => 0) (fun _ _ _ _ => 0) (fun _ _ _ => 0) (fun _ _ _ => 0) (fun _ => [(axis 2, axis 1, 1 / 10)]).
Definition pulled : T2 := diag (fun i => if Nat.eqb i 1 then 1 / 10 else 0).
Definition unit_cell : T1 := fun _ => 1.
Definition at_rest : specimen := start_specimen one_point unit_cell (fun _ => two_slips 0).
(* 1 + x + x^2/2 + x^3/6 at 1/10 *)
Definition e10 : R := 1 + 1 / 10 + 1 / 200 + 1 / 6000.

Lemma returns_case F : of2 F = M e10 (- e10 / 10) 0 0 1 0 0 0 1 -> exists V R, defgrad_dcmp F = Decomposed V R.
Proof.
  intros E. set (G := to2 (M (1 / e10) (1 / 10) 0 0 1 0 0 0 1)). assert (EG : of2 G = M (1 / e10) (1 / 10) 0 0 1 0 0 0 1) by reflexivity.
  assert (P : 11 / 10 < e10 < 12 / 10) by (unfold e10; lra).
  assert (P1 : / e10 < 1) by (apply (Rmult_lt_reg_r e10); [lra|rewrite Rinv_l; lra]). assert (P0 : 0 < / e10) by (apply Rinv_0_lt_compat; lra).
  apply (C121_returns F G).
  - apply of2_acute. rewrite E. apply near_one_acute. unfold nm. apply Rlt_le_trans with (sqrt 1); [|rewrite sqrt_1; apply Rle_refl]. apply sqrt_lt_1_alt. split; [apply f2_nonneg|].
    unfold f2, ip, ma, ms, one. cbn [x11 x12 x13 x21 x22 x23 x31 x32 x33]. unfold e10. lra.
  - apply of2_inverses. rewrite E, EG. split; apply m3_ext; unfold mm, one; cbn [x11 x12 x13 x21 x22 x23 x31 x32 x33]; field; lra.
  - rewrite !of2_size, E, EG. assert (A : nm (M e10 (- e10 / 10) 0 0 1 0 0 0 1) <= 2).
    { unfold nm. replace 2 with (sqrt (2 * 2)) by (apply sqrt_square; lra). apply sqrt_le_1_alt. unfold f2, ip. cbn [x11 x12 x13 x21 x22 x23 x31 x32 x33]. unfold e10. lra. }
    assert (B : nm (M (1 / e10) (1 / 10) 0 0 1 0 0 0 1) <= 2).
    { unfold nm. replace 2 with (sqrt (2 * 2)) by (apply sqrt_square; lra). apply sqrt_le_1_alt. unfold f2, ip. cbn [x11 x12 x13 x21 x22 x23 x31 x32 x33]. 
      replace (1 / e10) with (/ e10) by (field; lra). set (x := / e10) in *. clearbody x. assert (x * x < 1) by nra. lra. }
    pose proof (nm_nonneg (M e10 (- e10 / 10) 0 0 1 0 0 0 1)). pose proof (nm_nonneg (M (1 / e10) (1 / 10) 0 0 1 0 0 0 1)).
    apply Rle_trans with (2 * 2); [apply Rmult_le_compat; assumption|]. replace (2 * 2) with 4 by ring. replace 4 with (INR 4) by (cbn; lra).
    assert (T : 10 <= 10 ^ 17) by (replace 10 with (10 ^ 1) at 1 by ring; apply Rle_pow; [lra|lia]). cbn [INR]. lra.
Qed.

Lemma imposed_case : all_imposed one_point. Proof. intros i j _ _. reflexivity. Qed.

Lemma case_velocity q : same (p_vel (step_velocity one_point 1 pulled [slip_pass] at_rest q)) pulled.
Proof.
  intros i j _ _. unfold step_velocity. cbn [fold_left]. unfold one_pass. cbn [m_field]. unfold set_stress. cbn [p_vel]. unfold initialize_velgrad, at_rest, start_specimen, evolve_start.
  cbn [m_field m_dvel m_invinv ps_work slip_pass p_vel c_npts one_point Nat.eqb set_vel sumn]. unfold mmul. repeat (rewrite !sum1_3; unfold S3). cbn [set_vel p_vel]. ring.
Qed.

Lemma step_case f actual : same (p_vel (f 0%nat)) pulled -> of2 (p_F (f 0%nat)) = one -> of2 (p_Fp (f 0%nat)) = M 1 (1 / 10) 0 0 1 0 0 0 1 ->
  of2 (p_Fe (f 0%nat)) = one -> of2 (p_Fini (f 0%nat)) = one -> p_gas (f 0%nat) = false ->
  exists g', elastic_all 1 (fst (update_defgrad 1 1 1 actual f)) = Some g' /\ pivots (weighted_mean 1 p_Finv g').
Proof.
  intros V EF EP EE EI0 EG0.
  set (g := update_defgrad 1 1 1 actual f).
  assert (Fg : of2 (p_F (fst g 0%nat)) = M e10 0 0 0 1 0 0 0 1).
  { change (p_F (fst g 0%nat)) with (mmul (matrix_exp (scaled 1 (p_vel (f 0%nat)))) (p_F (f 0%nat))). rewrite of2_mmul, of2_exp, of2_scaled, EF, mm_1r. apply of2_same in V. rewrite V.
    change (of2 pulled) with (M (1 / 10) 0 0 0 0 0 0 0 0). unfold me, e10. mx; field. }
  assert (I1 : of2 (inverted 3 (p_Fe (fst g 0%nat))) = one).
  { assert (L : lead (of2 (p_Fe (fst g 0%nat)))) by (change (p_Fe (fst g 0%nat)) with (p_Fe (f 0%nat)); rewrite EE; unfold lead, one, dt; cbn [x11 x12 x13 x21 x22 x23 x31 x32 x33]; repeat split; lra).
    pose proof (inverted_lead _ L) as J. change (p_Fe (fst g 0%nat)) with (p_Fe (f 0%nat)) in J at 1; rewrite EE in J. apply (inv3_unique one); [exact J|]. split; apply mm_1l. }
  set (Fe := mmul (p_F (fst g 0%nat)) (inverted 3 (mmul (p_Fp (fst g 0%nat)) (p_Fini (fst g 0%nat))))).
  assert (EFe : of2 Fe = M e10 (- e10 / 10) 0 0 1 0 0 0 1).
  { unfold Fe. rewrite of2_mmul, Fg. assert (X : of2 (mmul (p_Fp (fst g 0%nat)) (p_Fini (fst g 0%nat))) = M 1 (1 / 10) 0 0 1 0 0 0 1).
    { rewrite of2_mmul. change (p_Fp (fst g 0%nat)) with (p_Fp (f 0%nat)). rewrite EP. change (p_Fini (fst g 0%nat)) with (p_Fini (f 0%nat)). rewrite EI0. apply mm_1r. }
    assert (L : lead (of2 (mmul (p_Fp (fst g 0%nat)) (p_Fini (fst g 0%nat))))) by (rewrite X; unfold lead, dt; cbn [x11 x12 x13 x21 x22 x23 x31 x32 x33]; repeat split; lra).
    pose proof (inverted_lead _ L) as J. rewrite X in J.
    rewrite (inv3_unique _ _ (M 1 (- (1 / 10)) 0 0 1 0 0 0 1) J) by (split; mx; field). mx; field. }
  destruct (returns_case (mmul Fe (inverted 3 (p_Fe (fst g 0%nat))))) as (V1 & R1 & D1); [rewrite of2_mmul, I1, mm_1r; exact EFe|].
  destruct (returns_case Fe EFe) as (V2 & R2 & D2).
  assert (Up : exists p, update_defgrade_at (fst g 0%nat) = Some p /\ p_Fe p = Fe /\ p_gas p = false).
  { unfold update_defgrade_at. change (p_gas (fst g 0%nat)) with (p_gas (f 0%nat)). rewrite EG0. cbn iota zeta. fold Fe. rewrite D1. eexists. split; [reflexivity|]. split; [reflexivity|]. reflexivity. }
  destruct Up as (p & Up & Ep & Gp).
  assert (Wt : p_wgtc (fst g 0%nat) = 1).
  { assert (Dd : p_detF (advance 1 1 (f 0%nat)) = e10).
    { change (p_detF (advance 1 1 (f 0%nat))) with (determinant33 (p_F (fst g 0%nat))). rewrite of2_determinant, Fg. unfold dt. cbn [x11 x12 x13 x21 x22 x23 x31 x32 x33]. ring. }
    change (p_wgtc (fst g 0%nat)) with (1 * p_detF (advance 1 1 (f 0%nat)) / det_mean 1 1 (fun q => advance 1 1 (f q))). unfold det_mean. cbn [sumn]. rewrite Dd.
    assert (e10 <> 0) by (unfold e10; lra). field. lra. }
  assert (EFi : p_Finv (fst g 0%nat) = inverted 3 (p_F (fst g 0%nat))) by reflexivity.
  destruct g as [gf avg] eqn:Eg. cbn [fst] in *. 
  assert (El : elastic_all 1 gf = Some (fun q => match update_defgrade_at (gf q) with Some p => p | None => gf q end)).
  { unfold elastic_all. cbn [seq forallb]. rewrite Up, Gp. unfold turned_stiffness. rewrite Ep, D2. reflexivity. }
  rewrite El. eexists. split; [reflexivity|]. 
  assert (L : lead (of2 (p_F (gf 0%nat)))) by (rewrite Fg; unfold lead, dt, e10; cbn [x11 x12 x13 x21 x22 x23 x31 x32 x33]; repeat split; lra).
  pose proof (inverted_lead _ L) as J. rewrite Fg in J. pose proof (inv3_unique _ _ (M (1 / e10) 0 0 0 1 0 0 0 1) J) as EI.
  assert (EM : of2 (weighted_mean 1 p_Finv (fun q => match update_defgrade_at (gf q) with Some p => p | None => gf q end)) = M (1 / e10) 0 0 0 1 0 0 0 1).
  { rewrite <- EI by (split; mx; unfold e10; field). pose proof (defgrade_alike _ _ Up) as (_ & A2 & _ & _ & A5 & _).
    apply of2_same. intros i j _ _. unfold weighted_mean. cbn [sumn]. rewrite Up, A2, A5, Wt, EFi. ring. }
  change (lead (of2 (weighted_mean 1 p_Finv (fun q => match update_defgrade_at (gf q) with Some p => p | None => gf q end)))). rewrite EM.
  unfold lead, dt. cbn [x11 x12 x13 x21 x22 x23 x31 x32 x33]. assert (0 < 1 / e10) by (apply Rdiv_lt_0_compat; unfold e10; lra). repeat split; lra.
Qed.

Lemma case_returns : exists m, evolve one_point 1 pulled 1 [slip_pass] at_rest = Some m /\ pivots (weighted_mean 1 p_Finv (m_field m)).
Proof.
  pose proof (case_velocity 0) as V. unfold step_velocity in V. unfold evolve. set (m1 := fold_left _ _ _) in *. cbn [c_iupdate one_point c_npts c_wgt].
  set (actual := fun i j => _). set (f := update_defgradp 1 (set_sgt (m_field m1))).
  assert (Q : quiet (m_field m1 0%nat) (m_field at_rest 0%nat)) by apply (step_quiet one_point 1 pulled [slip_pass] at_rest 0%nat).
  destruct Q as (QF & _ & _ & _ & QI & QP & QE & QG).
  assert (G : p_gas (set_sgt (m_field m1) 0%nat) = false) by (unfold set_sgt; cbn [p_gas]; rewrite QG; reflexivity).
  assert (Sl : p_J2 (m_field m1 0%nat) = false /\ p_ag (m_field m1 0%nat) = d /\ p_slip (m_field m1 0%nat) = [(axis 2, axis 1, 1 / 10)]) by (repeat split). clearbody m1.
  assert (Ff : f 0%nat = update_defgradp_at 1 (set_sgt (m_field m1) 0%nat)) by reflexivity. set (P := set_sgt (m_field m1) 0%nat) in *.
  assert (PV : p_vel P = p_vel (m_field m1 0%nat)) by reflexivity. assert (PF : p_F P = p_F (m_field m1 0%nat)) by reflexivity.
  assert (PP : p_Fp P = p_Fp (m_field m1 0%nat)) by reflexivity. assert (PE : p_Fe P = p_Fe (m_field m1 0%nat)) by reflexivity. assert (PI : p_Fini P = p_Fini (m_field m1 0%nat)) by reflexivity.
  assert (Sl' : p_J2 P = false /\ p_ag P = d /\ p_slip P = [(axis 2, axis 1, 1 / 10)]) by exact Sl. clearbody P f. clear Sl.
  unfold update_defgradp_at in Ff. rewrite G in Ff.
  assert (St : exists g', elastic_all 1 (fst (update_defgrad 1 1 1 actual f)) = Some g' /\ pivots (weighted_mean 1 p_Finv g')).
  { apply step_case; rewrite Ff; cbn [p_vel p_F p_Fp p_Fe p_Fini p_gas].
    - rewrite PV. exact V.
    - rewrite PF, QF. apply m3_ext; reflexivity.
    - rewrite of2_mmul, PP, QP. change (of2 (p_Fp (m_field at_rest 0%nat))) with one. rewrite mm_1r.
      change (fun i j => plastic_velgrad P i j * 1) with (scaled 1 (plastic_velgrad P)). rewrite of2_exp, of2_scaled.
      assert (E : of2 (plastic_velgrad P) = M 0 (1 / 10) 0 0 0 0 0 0 0).
      { destruct Sl' as (S1 & S2 & S3'). unfold plastic_velgrad. rewrite S1, S2, S3'.
        apply m3_ext; unfold of2; cbn [fold_left x11 x12 x13 x21 x22 x23 x31 x32 x33]; unfold slip_term; rewrite !sum1_3; unfold S3, axis, d; cbn [Nat.eqb]; ring. }
      rewrite E. unfold me. mx; field.
    - rewrite PE, QE. apply m3_ext; reflexivity.
    - rewrite PI, QI. apply m3_ext; reflexivity.
    - reflexivity. }
  destruct St as (g' & E1 & E2). destruct (update_defgrad 1 1 1 actual f) as [gf avg]. cbn [fst] in E1. rewrite E1. eexists. split; [reflexivity|]. exact E2.
Qed.
