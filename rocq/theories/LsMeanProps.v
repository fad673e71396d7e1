(* C123: the mean velocity gradient the large-strain solver deforms the specimen by. *)
From Coq Require Import Reals List Arith Lia Lra Psatz Bool ZArith.
From Verif Require Import BaseReal LinModel EvpModel EvpSpec EvpBasis EvpFlowModel LsSpec LsModel LsRunModel LsMat LsInv LsPolar LsPolarProps LsExp LsKin LsKinProps LsCase.
Import ListNotations.
Local Open Scope R_scope.

Lemma run_app c l1 : forall i l2 m, run c i (l1 ++ l2) m = match run c i l1 m with Some m' => run c (i + length l1) l2 m' | None => None end.
Proof.
  induction l1 as [|[[u t] ws] l1 IH]; intros i l2 m; cbn [app run length]; [rewrite Nat.add_0_r; reflexivity|].
  destruct (evolve c i u t ws m); [|reflexivity]. rewrite IH. replace (S i + length l1)%nat with (i + S (length l1))%nat by lia. reflexivity.
Qed.
Lemma fine_app c l1 : forall i l2 m, fine c i (l1 ++ l2) m -> fine c i l1 m /\ (forall m', run c i l1 m = Some m' -> fine c (i + length l1) l2 m').
Proof.
  induction l1 as [|[[u t] ws] l1 IH]; intros i l2 m F; cbn [app fine run length] in *.
  - split; [exact I|]. intros m' E. injection E as <-. rewrite Nat.add_0_r. exact F.
  - destruct F as [F1 F2]. destruct (evolve c i u t ws m) as [m2|]; [|split; [split; [exact F1|exact I]|discriminate]].
    destruct F2 as [F2 F3]. destruct (IH _ _ _ F3) as [G1 G2]. split; [split; [exact F1|split; [exact F2|exact G1]]|].
    intros m' E. replace (i + S (length l1))%nat with (S i + length l1)%nat by lia. apply G2. exact E.
Qed.

(* The setting: a grid of N points of equal weight, in cells of positive size. *)
Definition regular (c : settings) (delt : T1) : Prop :=
  (0 < c_npts c)%nat /\ c_wgt c = / INR (c_npts c) /\ forall i, idx 3 i -> 0 < delt i.

Lemma regular_sound c delt loads f m : regular c delt -> fine c 1 loads (start_specimen c delt f) -> run c 1 loads (start_specimen c delt f) = Some m -> sound c m.
Proof.
  intros (N & W & D) F E. assert (PN : 0 < INR (c_npts c)) by (apply lt_0_INR; exact N).
  apply (run_sound c N ltac:(rewrite W; apply Rinv_0_lt_compat, PN) loads 1 _ m (start_sound c delt f N W D) F E).
Qed.

Lemma evolve_actual c imicro u t ws m m' : evolve c imicro u t ws m = Some m' ->
  m_actual m' = (fun i j => u i j + m_dacum m' i j) /\ m_dacum m' = m_dacum (fold_left (fun m w => one_pass c w m) ws (evolve_start imicro u m)) /\
  m_dvel m' = m_dvel (fold_left (fun m w => one_pass c w m) ws (evolve_start imicro u m)).
Proof.
  unfold evolve. set (m1 := fold_left _ ws _). destruct (c_iupdate c).
  - destruct (update_defgrad _ _ _ _ _) as [g avg]. destruct (elastic_all _ g); intros E; [|discriminate]. injection E as <-. repeat split.
  - intros E. injection E as <-. repeat split.
Qed.

(* After every step the mean velocity gradient, each point counted by its present
   volume, is the one reported; where every component is prescribed, the prescribed one. *)
Theorem C123_reported : forall c delt loads u t ws f m, regular c delt -> c_iupdate c = true ->
  fine c 1 (loads ++ [(u, t, ws)]) (start_specimen c delt f) -> run c 1 (loads ++ [(u, t, ws)]) (start_specimen c delt f) = Some m ->
  same (weighted_mean (c_npts c) p_vel (m_field m)) (m_actual m) /\
  (all_imposed c -> same (m_actual m) u).
Proof.
  intros c delt loads u t ws f m Rg U F E. rewrite run_app in E. destruct (fine_app _ _ _ _ _ F) as [F1 F2].
  destruct (run c 1 loads (start_specimen c delt f)) as [m0|] eqn:E0; [|discriminate]. pose proof (regular_sound c delt loads f m0 Rg F1 E0) as Sd.
  specialize (F2 m0 eq_refl). cbn [run fine] in E, F2. set (n := (1 + length loads)%nat) in *. destruct F2 as [F2 F3].
  destruct (evolve c n u t ws m0) as [m'|] eqn:Ev; [|discriminate]. injection E as <-. destruct F3 as [F3 _]. destruct Rg as (N & W & D).
  assert (PN : 0 < INR (c_npts c)) by (apply lt_0_INR; exact N). split.
  - exact (proj2 (evolve_sound c n u t ws m0 m' N ltac:(rewrite W; apply Rinv_0_lt_compat, PN) Sd Ev F2 F3) U).
  - intros A. destruct (evolve_actual _ _ _ _ _ _ _ Ev) as (EA & ED & _). destruct (passes_imposed c ws A (evolve_start n u m0) (fun _ _ => eq_refl) (fun _ _ => eq_refl)) as [_ Z].
    intros i j _ _. rewrite EA. cbn beta. rewrite ED, Z. ring.
Qed.

Lemma start_mean c n u m : sound c m -> n <> 1%nat -> same (weighted_mean (c_npts c) p_vel (m_field (evolve_start n u m))) (weighted_mean (c_npts c) p_vel (m_field m)).
Proof. intros _ H i j _ _. unfold evolve_start. cbn [m_field]. destruct (Nat.eqb_spec n 1); [contradiction|reflexivity]. Qed.
Lemma start_invinv c n u m : sound c m -> inverses (m_invinv (evolve_start n u m)) (weighted_mean (c_npts c) p_Finv (m_field (evolve_start n u m))).
Proof.
  intros (_ & _ & I). apply (inverses_same _ (weighted_mean (c_npts c) p_Finv (m_field m))); [|exact I]. intros i j _ _. unfold weighted_mean. apply sumn_ext'.
  intros q _. destruct (start_quiet n u m q) as (_ & -> & _ & -> & _). reflexivity.
Qed.
Lemma step_mean c n u ws m : sound c m ->
  let m1 := fold_left (fun m w => one_pass c w m) ws (evolve_start n u m) in
  same (added (weighted_mean (c_npts c) p_vel (step_velocity c n u ws m)) (m_dvel m1))
       (added (weighted_mean (c_npts c) p_vel (m_field (evolve_start n u m))) (m_dacum m1)).
Proof.
  intros Sd m1 i j Hi Hj. pose proof (passes_mean c ws (evolve_start n u m) (start_invinv c n u m Sd)) as K. cbn zeta in K. fold m1 in K.
  change (weighted_mean (c_npts c) p_vel (step_velocity c n u ws m)) with (weighted_mean (c_npts c) p_vel (m_field m1)). rewrite (K i j Hi Hj).
  unfold added. change (m_dvel (evolve_start n u m) i j) with 0. change (m_dacum (evolve_start n u m) i j) with 0. ring.
Qed.

(* What a step deforms the specimen by: in the first, the prescribed velocity gradient
   and the corrections for the prescribed stresses ... *)
Theorem C123_first : forall c delt u t ws f m, regular c delt -> evolve c 1 u t ws (start_specimen c delt f) = Some m ->
  same (added (weighted_mean (c_npts c) p_vel (step_velocity c 1 u ws (start_specimen c delt f))) (m_dvel m)) (added u (m_dacum m)).
Proof.
  intros c delt u t ws f m Rg Ev. pose proof (regular_sound c delt [] f _ Rg I eq_refl) as Sd. destruct (evolve_actual _ _ _ _ _ _ _ Ev) as (_ & -> & ->).
  intros i j Hi Hj. rewrite (step_mean c 1 u ws _ Sd i j Hi Hj). unfold added. f_equal. destruct Sd as (_ & S & _). unfold weighted_mean. cbn [evolve_start Nat.eqb m_field set_vel p_vel p_wgtc].
  rewrite sumn_scal. cbn [set_vel p_wgtc]. change (sumn (c_npts c) (fun q => p_wgtc (set_vel u (m_field (start_specimen c delt f)) q))) with (sumn (c_npts c) (fun q => p_wgtc (m_field (start_specimen c delt f) q))).
  rewrite S. ring.
Qed.
(* ... in the later ones, what was reported after the step before, with the corrections. *)
Theorem C123_later : forall c delt loads u0 t0 ws0 u t ws f m m', regular c delt -> c_iupdate c = true ->
  fine c 1 (loads ++ [(u0, t0, ws0)]) (start_specimen c delt f) -> run c 1 (loads ++ [(u0, t0, ws0)]) (start_specimen c delt f) = Some m ->
  let n := S (length (loads ++ [(u0, t0, ws0)])) in evolve c n u t ws m = Some m' ->
  same (added (weighted_mean (c_npts c) p_vel (step_velocity c n u ws m)) (m_dvel m')) (added (m_actual m) (m_dacum m')).
Proof.
  intros c delt loads u0 t0 ws0 u t ws f m m' Rg U F E n Ev. pose proof (regular_sound c delt _ f m Rg F E) as Sd.
  destruct (C123_reported c delt loads u0 t0 ws0 f m Rg U F E) as [A _]. destruct (evolve_actual _ _ _ _ _ _ _ Ev) as (_ & -> & ->).
  intros i j Hi Hj. rewrite (step_mean c n u ws m Sd i j Hi Hj). unfold added. rewrite (start_mean c n u m Sd ltac:(unfold n; rewrite app_length; cbn [length]; lia) i j Hi Hj), (A i j Hi Hj). reflexivity.
Qed.

(* Where every component is prescribed, and the same in all steps, every step deforms
   the specimen by it. *)
Theorem C123_constant_partial : forall c delt loads u ws f m, regular c delt -> c_iupdate c = true -> all_imposed c ->
  (forall l, In l loads -> fst (fst l) = u) ->
  fine c 1 loads (start_specimen c delt f) -> run c 1 loads (start_specimen c delt f) = Some m ->
  same (weighted_mean (c_npts c) p_vel (step_velocity c (S (length loads)) u ws m)) u.
Proof.
  intros c delt loads u ws f m Rg U A H F E. pose proof (regular_sound c delt loads f m Rg F E) as Sd.
  intros i j Hi Hj. pose proof (step_mean c (S (length loads)) u ws m Sd i j Hi Hj) as K. cbn zeta in K. unfold added in K.
  destruct (passes_imposed c ws A (evolve_start (S (length loads)) u m) (fun _ _ => eq_refl) (fun _ _ => eq_refl)) as [Z1 Z2]. rewrite Z1, Z2, !Rplus_0_r in K. rewrite K. clear K Z1 Z2.
  destruct loads as [|l loads'] eqn:L.
  - cbn [run] in E. injection E as <-. destruct Sd as (_ & S & _). unfold weighted_mean. cbn [evolve_start Nat.eqb length m_field set_vel p_vel p_wgtc].
    rewrite sumn_scal. change (sumn (c_npts c) (fun q => p_wgtc (set_vel u (m_field (start_specimen c delt f)) q))) with (sumn (c_npts c) (fun q => p_wgtc (m_field (start_specimen c delt f) q))).
    rewrite S. ring.
  - rewrite <- L in *. assert (NE : loads <> []) by (rewrite L; discriminate). destruct (exists_last NE) as (l1 & [[u1 t1] ws1] & EL). clear L l loads' NE.
    assert (EU : u1 = u). { apply (H (u1, t1, ws1)). rewrite EL. apply in_or_app. right. left. reflexivity. } rewrite EU in EL. clear EU u1.
    rewrite (start_mean c _ u m Sd) by (assumption || (rewrite EL, app_length; cbn [length]; lia)). rewrite EL in F, E. destruct (C123_reported c delt l1 u t1 ws1 f m Rg U F E) as [R1 R2].
    rewrite (R1 i j Hi Hj). apply R2; assumption.
Qed.

(* A uniform stress drives nothing: the stress the Fourier correction is made of
   vanishes, whatever the deformation. *)
Theorem C123_uniform_stress : forall c delt loads f m s, regular c delt -> fine c 1 loads (start_specimen c delt f) -> run c 1 loads (start_specimen c delt f) = Some m ->
  (forall q, (q < c_npts c)%nat -> p_sg (m_field m q) = s) ->
  forall q, (q < c_npts c)%nat -> same (cauchy_to_pk1 (c_npts c) (m_field m) q) (fun _ _ => 0).
Proof.
  intros c delt loads f m s Rg F E H q Q. destruct (regular_sound c delt loads f m Rg F E) as (_ & S & _).
  assert (K : forall i j, weighted_mean (c_npts c) p_sg (m_field m) i j = s i j).
  { intros i j. unfold weighted_mean. rewrite (sumn_ext' _ _ (fun q => s i j * p_wgtc (m_field m q))) by (intros r Hr; rewrite (H r Hr); reflexivity). rewrite sumn_scal, S. ring. }
  intros i j _ _. unfold cauchy_to_pk1. rewrite sum1_3. unfold S3. rewrite !K, (H q Q). ring.
Qed.

(* A case of all these: one point, stretched while one slip system flows. *)
Example C122_met : regular one_point unit_cell /\ fine one_point 1 [(pulled, 1, [slip_pass])] at_rest /\
  exists m, run one_point 1 [(pulled, 1, [slip_pass])] at_rest = Some m.
Proof.
  split; [split; [cbn; lia|split; [cbn; lra|intros; unfold unit_cell; lra]]|]. destruct case_returns as (m & E & P). split.
  - cbn [fine]. split.
    + intros q Q. rewrite of2_size, of2_scaled. pose proof (case_velocity q) as V. apply of2_same in V. rewrite V. change (of2 pulled) with (M (1 / 10) 0 0 0 0 0 0 0 0).
      unfold nm. replace (2 / 3) with (sqrt (2 / 3 * (2 / 3))) by (apply sqrt_square; lra). apply sqrt_le_1_alt. unfold f2, ip, ms. cbn [x11 x12 x13 x21 x22 x23 x31 x32 x33]. lra.
    + rewrite E. split; [exact P|exact I].
  - exists m. cbn [run]. rewrite E. reflexivity.
Qed.

(* A prescribed velocity gradient that changes between the steps is applied one step
   late: here the second step is to hold the specimen, and stretches it. *)
Definition held : T2 := fun _ _ => 0.
Theorem C123_change_refuted : exists m, all_imposed one_point /\ run one_point 1 [(pulled, 1, [slip_pass])] at_rest = Some m /\
  weighted_mean 1 p_vel (step_velocity one_point 2 held [slip_pass] m) 1%nat 1%nat = 1 / 10.
Proof.
  destruct C122_met as (Rg & F & m & E). exists m. split; [exact imposed_case|]. split; [exact E|].
  pose proof (regular_sound one_point unit_cell _ _ m Rg F E) as Sd.
  assert (H1 : idx 3 1) by (unfold idx; lia).
  pose proof (step_mean one_point 2 held [slip_pass] m Sd 1%nat 1%nat H1 H1) as K. cbn zeta in K. unfold added in K.
  destruct (passes_imposed one_point [slip_pass] imposed_case (evolve_start 2 held m) (fun _ _ => eq_refl) (fun _ _ => eq_refl)) as [Z1 Z2]. rewrite Z1, Z2, !Rplus_0_r in K.
  change (c_npts one_point) with 1%nat in K. rewrite K. rewrite (start_mean one_point 2 held m Sd ltac:(lia) 1%nat 1%nat H1 H1 : weighted_mean 1 p_vel (m_field (evolve_start 2 held m)) 1%nat 1%nat = _).
  destruct (C123_reported one_point unit_cell [] pulled 1 [slip_pass] _ m Rg eq_refl F E) as [R1 R2]. rewrite (R1 1%nat 1%nat H1 H1). rewrite (R2 imposed_case 1%nat 1%nat H1 H1). reflexivity.
Qed.

(* A pass adds to the velocity field, over the undeformed grid, the Fourier correction
   and a uniform velocity gradient. *)
Theorem C123_pass : forall npts work dvel invinv f, exists D, forall q, inverses (p_F (f q)) (p_Finv (f q)) ->
  same (product (p_vel (initialize_velgrad npts work dvel invinv f q)) (p_F (f q))) (added (added (product (p_vel (f q)) (p_F (f q))) (work q)) D).
Proof.
  intros npts work dvel invinv f. eexists (mmul (fun i k => dvel i k - sumn npts (fun q => sum1 3 (fun l => work q i l * p_Finv (f q) l k) * p_wgtc (f q))) invinv).
  intros q [_ I]. set (D := mmul _ _). assert (E : same (p_vel (initialize_velgrad npts work dvel invinv f q)) (added (p_vel (f q)) (product (added (work q) D) (p_Finv (f q))))).
  { intros i j _ _. change (p_vel (initialize_velgrad npts work dvel invinv f q) i j) with (p_vel (f q) i j + sum1 3 (fun k => (work q i k + D i k) * p_Finv (f q) k j)).
    rewrite sum1_3. unfold added, product, S3. ring. }
  assert (Ad : forall A B, of2 (added A B) = ma (of2 A) (of2 B)) by reflexivity.
  apply of2_same. apply of2_same in E. apply of2_same in I. rewrite of2_product, of2_d in I. rewrite !of2_product, E, !Ad, of2_product, Ad, mm_mal, <- mm_assoc, I, mm_1r, of2_product. mx; ring.
Qed.
(* Between steps the velocity field is kept over the undeformed grid, up to a uniform
   velocity gradient. *)
Theorem C123_carried : forall npts tdot wgt actual f, exists D, forall q, size (scaled tdot (p_vel (f q))) <= 2 / 3 ->
  let p := fst (update_defgrad npts tdot wgt actual f) q in
  pivots (p_F p) -> same (product (p_vel p) (p_F p)) (added (product (p_vel (f q)) (p_F (f q))) D).
Proof.
  intros npts tdot wgt actual f. set (g := fun q => advance tdot wgt (f q)).
  exists (mmul (fun i k => actual i k - current_mean npts wgt p_vel g i k) (inverted 3 (current_mean npts wgt p_Finv g))). intros q Sz p P. set (D := mmul _ _).
  set (E := matrix_exp (scaled tdot (p_vel (f q)))).
  assert (EF : p_F p = mmul E (p_F (f q))) by reflexivity.
  assert (EV : same (p_vel p) (added (product (p_vel (f q)) (inverted 3 E)) (product D (inverted 3 (p_F p))))).
  { intros i j _ _. change (p_vel p i j) with (mmul (p_vel (f q)) (inverted 3 E) i j + sum1 3 (fun k => D i k * inverted 3 (p_F p) k j)). unfold mmul. rewrite !sum1_3. reflexivity. }
  pose proof (inverted_lead _ P) as [_ I]. pose proof (small_acute tdot _ Sz) as A. fold E in A. pose proof (inverted_lead _ (ac_lead _ A)) as [_ IE].
  assert (Ad : forall A B, of2 (added A B) = ma (of2 A) (of2 B)) by reflexivity.
  apply of2_same. apply of2_same in EV. rewrite of2_product, EV, !Ad, !of2_product, mm_mal, <- (mm_assoc (of2 D)), I, mm_1r. f_equal.
  rewrite EF, of2_mmul, <- mm_assoc, (mm_assoc (of2 (inverted 3 E))), IE, mm_1l. reflexivity.
Qed.

Print Assumptions C123_pass.
Print Assumptions C123_carried.
Print Assumptions C123_reported.
Print Assumptions C123_first.
Print Assumptions C123_later.
Print Assumptions C123_constant_partial.
Print Assumptions C123_uniform_stress.
Print Assumptions C123_change_refuted.
