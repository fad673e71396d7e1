(* C122: the deformation gradients of the large-strain solver over a run.
   C123: the mean velocity gradient it deforms the specimen by. *)
From Coq Require Import Reals List Arith Lia Lra Psatz Bool ZArith.
From Verif Require Import BaseReal LinModel EvpModel EvpSpec EvpBasis EvpFlowModel EvpSlip LsSpec LsModel LsRunModel LsMat LsInv LsPolar LsPolarProps LsExp LsKin.
Import ListNotations.
Local Open Scope R_scope.

(* No step deforms a point by more than 2/3, in norm, and the mean of the inverses of
   the deformation gradients can be inverted without exchange of rows. *)
Fixpoint fine (c : settings) (imicro : nat) (loads : list (T2 * R * list pass)) (m : specimen) : Prop :=
  match loads with
  | [] => True
  | (udot, tdot, passes) :: rest =>
      (forall q, (q < c_npts c)%nat -> size (scaled tdot (p_vel (step_velocity c imicro udot passes m q))) <= 2 / 3) /\
      match evolve c imicro udot tdot passes m with
      | Some m' => pivots (weighted_mean (c_npts c) p_Finv (m_field m')) /\ fine c (S imicro) rest m'
      | None => True
      end
  end.

(* What holds between steps. *)
Definition sound (c : settings) (m : specimen) : Prop :=
  (forall q, (q < c_npts c)%nat -> let p := m_field m q in
     p_detF p = det3 (p_F p) /\ 0 < p_detF p /\ 0 < p_wgtc p /\
     (pivots (p_F p) -> inverses (p_F p) (p_Finv p)) /\
     (p_gas p = false -> pivots (product (p_Fp p) (p_Fini p)) -> same (p_F p) (product (p_Fe p) (product (p_Fp p) (p_Fini p))))) /\
  sumn (c_npts c) (fun q => p_wgtc (m_field m q)) = 1 /\
  inverses (m_invinv m) (weighted_mean (c_npts c) p_Finv (m_field m)).

Lemma defgrade_split p p' : update_defgrade_at p = Some p' -> p_gas p' = false -> pivots (product (p_Fp p') (p_Fini p')) ->
  same (p_F p') (product (p_Fe p') (product (p_Fp p') (p_Fini p'))).
Proof.
  intros E G P. pose proof (defgrade_alike _ _ E) as (EF & _ & _ & _ & _ & Ei & Ep & Eg). unfold update_defgrade_at in E. rewrite <- Eg, G in E.
  destruct (defgrad_dcmp _); try discriminate. injection E as <-. cbn [p_F p_Fe p_Fp p_Fini] in *.
  assert (L : lead (of2 (mmul (p_Fp p) (p_Fini p)))). { rewrite of2_mmul, <- of2_product. exact P. }
  pose proof (inverted_lead _ L) as [_ I]. rewrite of2_mmul in I. apply of2_same. rewrite !of2_product, of2_mmul, <- mm_assoc.
  rewrite I, mm_1r. reflexivity.
Qed.

Lemma elastic_split npts f g : elastic_all npts f = Some g -> forall q, (q < npts)%nat -> p_gas (g q) = false -> pivots (product (p_Fp (g q)) (p_Fini (g q))) ->
  same (p_F (g q)) (product (p_Fe (g q)) (product (p_Fp (g q)) (p_Fini (g q)))).
Proof.
  unfold elastic_all. destruct (forallb _ _) eqn:B; [|discriminate]. intros E q Q. injection E as <-. rewrite forallb_forall in B.
  specialize (B q ltac:(apply in_seq; lia)). destruct (update_defgrade_at (f q)) as [p|] eqn:Ep; [|discriminate]. apply (defgrade_split (f q)), Ep.
Qed.

Lemma start_sound c delt f : (0 < c_npts c)%nat -> c_wgt c = / INR (c_npts c) -> (forall i, idx 3 i -> 0 < delt i) -> sound c (start_specimen c delt f).
Proof.
  intros N W D. assert (PN : 0 < INR (c_npts c)) by (apply lt_0_INR; exact N).
  assert (D1 := D 1%nat ltac:(unfold idx; lia)). assert (D2 := D 2%nat ltac:(unfold idx; lia)). assert (D3 := D 3%nat ltac:(unfold idx; lia)).
  assert (Inv : inverses (diag delt) (diag (fun i => 1 / delt i))).
  { apply of2_inverses. split; apply m3_ext; unfold of2, diag, mm, one; cbn [Nat.eqb x11 x12 x13 x21 x22 x23 x31 x32 x33]; field; lra. }
  assert (Su : sumn (c_npts c) (fun _ => c_wgt c) = 1).
  { rewrite (sumn_ext' _ _ (fun _ => c_wgt c * 1)) by (intros; ring). rewrite sumn_scal. replace (sumn (c_npts c) (fun _ => 1)) with (INR (c_npts c)); [rewrite W; field; lra|].
    clear. induction (c_npts c) as [|n IH]; [reflexivity|]. rewrite S_INR, IH. reflexivity. }
  split; [|split].
  - intros q Q. cbn zeta. unfold start_specimen, init_defgrad, init_defgrad_at. cbn [m_field p_detF p_F p_wgtc p_Finv p_gas p_Fp p_Fini p_Fe].
    assert (0 < delt 1%nat * delt 2%nat) by (apply Rmult_lt_0_compat; assumption). assert (0 < delt 1%nat * delt 2%nat * delt 3%nat) by (apply Rmult_lt_0_compat; assumption).
    split; [|split; [assumption|split; [rewrite W; apply Rinv_0_lt_compat; exact PN|split; [intros _; exact Inv|]]]].
    + unfold det3, diag. cbn [Nat.eqb]. ring.
    + intros _ _. apply of2_same. rewrite !of2_product. change (of2 ident) with one. rewrite !mm_1l. reflexivity.
  - exact Su.
  - unfold start_specimen. cbn [m_invinv m_field]. apply (inverses_same _ (diag (fun i => 1 / delt i))); [|exact Inv].
    intros i j _ _. unfold weighted_mean, init_defgrad, init_defgrad_at. cbn [p_Finv p_wgtc]. rewrite sumn_scal, Su. ring.
Qed.

Lemma evolve_sound c imicro udot tdot ws m m' : (0 < c_npts c)%nat -> 0 < c_wgt c -> sound c m -> evolve c imicro udot tdot ws m = Some m' ->
  (forall q, (q < c_npts c)%nat -> size (scaled tdot (p_vel (step_velocity c imicro udot ws m q))) <= 2 / 3) ->
  pivots (weighted_mean (c_npts c) p_Finv (m_field m')) -> sound c m' /\ (c_iupdate c = true -> same (weighted_mean (c_npts c) p_vel (m_field m')) (m_actual m')).
Proof.
  intros N W (S1 & S2 & S3) E Sz P. pose proof (step_quiet c imicro udot ws m) as Q. unfold step_velocity in Q, Sz. unfold evolve in E.
  set (m1 := fold_left _ ws _) in *.
  assert (I1 : m_invinv m1 = m_invinv m) by (unfold m1; rewrite passes_invinv; reflexivity).
  destruct (c_iupdate c) eqn:U.
  - set (actual := fun i j => udot i j + m_dacum m1 i j) in *. set (f := update_defgradp tdot (set_sgt (m_field m1))) in *.
    destruct (update_defgrad (c_npts c) tdot (c_wgt c) actual f) as [g avg] eqn:G. destruct (elastic_all (c_npts c) g) as [g'|] eqn:El; [|discriminate]. injection E as <-.
    cbn [m_field m_invinv m_actual] in *.
    assert (Fg : g = fst (update_defgrad (c_npts c) tdot (c_wgt c) actual f)) by (rewrite G; reflexivity).
    assert (Fa : avg = snd (update_defgrad (c_npts c) tdot (c_wgt c) actual f)) by (rewrite G; reflexivity).
    assert (K : forall q, p_vel (f q) = p_vel (m_field m1 q) /\ p_F (f q) = p_F (m_field m1 q)).
    { intros q. unfold f, update_defgradp, update_defgradp_at. destruct (p_gas _); split; reflexivity. }
    assert (Det : forall q, (q < c_npts c)%nat -> 0 < p_detF (advance tdot (c_wgt c) (f q))).
    { intros q Hq. destruct (K q) as [K1 K2]. apply advance_det_pos; [rewrite K1; apply Sz; exact Hq|rewrite K2]. destruct (Q q) as (-> & _ ). destruct (S1 q Hq) as (<- & X & _). exact X. }
    assert (Dm : 0 < det_mean (c_npts c) (c_wgt c) (fun q => advance tdot (c_wgt c) (f q))).
    { unfold det_mean. apply sumn_pos; [exact N|]. intros q Hq. apply Rmult_lt_0_compat; [apply Det; exact Hq|exact W]. }
    assert (Dn : det_mean (c_npts c) (c_wgt c) (fun q => advance tdot (c_wgt c) (f q)) <> 0) by lra.
    pose proof (elastic_alike _ _ _ El) as A.
    assert (MF : same (weighted_mean (c_npts c) p_Finv g') (weighted_mean (c_npts c) p_Finv g)).
    { intros i j _ _. apply mean_alike; [exact A|]. intros p q (_ & X & _). exact X. }
    assert (P' : pivots (weighted_mean (c_npts c) p_Finv g)). { unfold pivots, det3 in *. rewrite <- !MF by (unfold idx; lia). exact P. }
    split.
    + split; [|split]; cbn [m_field m_invinv].
      * intros q Hq. cbn zeta. cbn [m_field]. destruct (A q) as (-> & -> & _ & -> & -> & Ai & Ap & Ag). rewrite Fg.
        change (p_detF (fst (update_defgrad (c_npts c) tdot (c_wgt c) actual f) q)) with (p_detF (advance tdot (c_wgt c) (f q))).
        change (p_F (fst (update_defgrad (c_npts c) tdot (c_wgt c) actual f) q)) with (p_F (advance tdot (c_wgt c) (f q))).
        change (p_Finv (fst (update_defgrad (c_npts c) tdot (c_wgt c) actual f) q)) with (inverted 3 (p_F (advance tdot (c_wgt c) (f q)))).
        rewrite updated_weights. change (p_detF (fst (update_defgrad (c_npts c) tdot (c_wgt c) actual f) q)) with (p_detF (advance tdot (c_wgt c) (f q))).
        split; [apply advance_det|]. split; [apply Det; exact Hq|]. split; [apply Rdiv_lt_0_compat; [apply Rmult_lt_0_compat; [exact W|apply Det; exact Hq]|exact Dm]|].
        split; [apply inverted_pivots|]. intros Gq Pq. pose proof (elastic_split _ _ _ El q Hq Gq Pq) as X. destruct (A q) as (Y & _). rewrite Y, Fg in X. exact X.
      * rewrite (sumn_ext' _ _ (fun q => p_wgtc (g q))) by (intros q Hq; destruct (A q) as (_ & _ & _ & _ & -> & _); reflexivity). rewrite Fg. apply updated_sum. exact Dn.
      * apply (inverses_same _ (weighted_mean (c_npts c) p_Finv g)); [intros i j Hi Hj; symmetry; apply MF; assumption|]. rewrite Fa, Fg. apply updated_inverse; [exact Dn|]. rewrite <- Fg. exact P'.
    + intros _ i j Hi Hj. rewrite (mean_alike _ g g' p_vel A) by (intros p q (_ & _ & X & _); exact X). rewrite Fg. apply updated_velocity; [exact Dn| |exact Hi|exact Hj]. rewrite <- Fg. exact P'.
  - injection E as <-. split; [|intros X; discriminate]. split; [|split]; cbn [m_field m_invinv].
    + intros q Hq. specialize (S1 q Hq). cbn zeta in S1 |- *. cbn [m_field]. unfold set_sgt. cbn zeta. cbn [p_detF p_F p_wgtc p_Finv p_gas p_Fp p_Fini p_Fe].
      destruct (Q q) as (-> & -> & -> & -> & -> & -> & -> & ->). exact S1.
    + rewrite <- S2. apply sumn_ext'. intros q Hq. unfold set_sgt. cbn [p_wgtc]. destruct (Q q) as (_ & _ & _ & -> & _). reflexivity.
    + rewrite I1. apply (inverses_same _ (weighted_mean (c_npts c) p_Finv (m_field m))); [|exact S3]. intros i j _ _. unfold weighted_mean. apply sumn_ext'. intros q Hq.
      unfold set_sgt. cbn [p_wgtc p_Finv]. destruct (Q q) as (_ & -> & _ & -> & _). reflexivity.
Qed.

Lemma run_sound c : (0 < c_npts c)%nat -> 0 < c_wgt c -> forall loads imicro m m', sound c m -> fine c imicro loads m -> run c imicro loads m = Some m' -> sound c m'.
Proof.
  intros N W. induction loads as [|[[u t] ws] rest IH]; intros imicro m m' Sd F E; cbn [run] in E; [injection E as <-; exact Sd|].
  cbn [fine] in F. destruct F as [F1 F2]. destruct (evolve c imicro u t ws m) as [m2|] eqn:Ev; [|discriminate]. destruct F2 as [F2 F3].
  apply (IH (S imicro) m2 m'); [|exact F3|exact E]. exact (proj1 (evolve_sound c imicro u t ws m m2 N W Sd Ev F1 F2)).
Qed.

(* C122: at every point of every grid, after any number of steps of any loading: the
   volume kept is that of the deformation gradient, and positive; the volume weights are
   positive and sum to one; the inverse kept is the inverse; and the deformation is
   the elastic one after the plastic one. *)
Theorem C122_kinematics : forall c delt loads f m, (0 < c_npts c)%nat -> c_wgt c = / INR (c_npts c) -> (forall i, idx 3 i -> 0 < delt i) ->
  fine c 1 loads (start_specimen c delt f) -> run c 1 loads (start_specimen c delt f) = Some m ->
  (forall q, (q < c_npts c)%nat -> let p := m_field m q in
     p_detF p = det3 (p_F p) /\ 0 < det3 (p_F p) /\ 0 < p_wgtc p /\
     (pivots (p_F p) -> inverses (p_F p) (p_Finv p)) /\
     (p_gas p = false -> pivots (product (p_Fp p) (p_Fini p)) -> same (p_F p) (product (p_Fe p) (product (p_Fp p) (p_Fini p))))) /\
  sumn (c_npts c) (fun q => p_wgtc (m_field m q)) = 1.
Proof.
  intros c delt loads f m N W D F E. assert (PN : 0 < INR (c_npts c)) by (apply lt_0_INR; exact N).
  assert (PW : 0 < c_wgt c) by (rewrite W; apply Rinv_0_lt_compat, PN).
  destruct (run_sound c N PW loads 1 _ m (start_sound c delt f N W D) F E) as (S1 & S2 & _). split; [|exact S2].
  intros q Hq. destruct (S1 q Hq) as (X1 & X2 & X3 & X4 & X5). cbn zeta. rewrite <- X1. auto.
Qed.

(* The increment that advances a deformation gradient turns no vector by a right angle. *)
Theorem C122_increment : forall A, size A <= 2 / 3 -> acute (matrix_exp A) /\ 0 < det3 (matrix_exp A).
Proof.
  intros A H. rewrite of2_size in H. apply me_acute in H. rewrite <- of2_exp in H. split; [apply of2_acute; exact H|]. rewrite of2_det. apply ac_dt. exact H.
Qed.

(* ---- plastic volume ---- *)
(* The flow of a grain by slip: every direction in its plane, turned by a rotation. *)
Definition by_slip (p : point) : Prop :=
  p_J2 p = false /\ rotation (p_ag p) /\ forall n b g, In (n, b, g) (p_slip p) -> vdot b n = 0.
(* The flow of a J2 phase: no change of volume in the rate. *)
Definition by_rate (p : point) : Prop := p_J2 p = true /\ trace (p_edotp p) = 0 /\ pivots (p_Fe p).

Lemma slip_trace p s : rotation (p_ag p) -> (let '(n, b, g) := s in vdot b n = 0) -> tr (of2 (slip_term (p_ag p) s)) = 0.
Proof.
  destruct s as [[n b] g]. intros Ro H. pose proof (turned_vdot (p_ag p) b n Ro) as T. rewrite H in T.
  unfold tr, of2, slip_term. cbn [x11 x22 x33]. rewrite !sum1_3. unfold vdot, mul_v, S3 in *.
  transitivity (((p_ag p 1%nat 1%nat * b 1%nat + p_ag p 1%nat 2%nat * b 2%nat + p_ag p 1%nat 3%nat * b 3%nat) * (p_ag p 1%nat 1%nat * n 1%nat + p_ag p 1%nat 2%nat * n 2%nat + p_ag p 1%nat 3%nat * n 3%nat) +
    (p_ag p 2%nat 1%nat * b 1%nat + p_ag p 2%nat 2%nat * b 2%nat + p_ag p 2%nat 3%nat * b 3%nat) * (p_ag p 2%nat 1%nat * n 1%nat + p_ag p 2%nat 2%nat * n 2%nat + p_ag p 2%nat 3%nat * n 3%nat) +
    (p_ag p 3%nat 1%nat * b 1%nat + p_ag p 3%nat 2%nat * b 2%nat + p_ag p 3%nat 3%nat * b 3%nat) * (p_ag p 3%nat 1%nat * n 1%nat + p_ag p 3%nat 2%nat * n 2%nat + p_ag p 3%nat 3%nat * n 3%nat)) * g); [unfold S3; ring|].
  rewrite T. ring.
Qed.
Lemma fold_plus {A} (F : A -> R) l : forall a, fold_left (fun a s => a + F s) l a = a + fold_left (fun a s => a + F s) l 0.
Proof. induction l as [|s l IH]; intros a; cbn [fold_left]; [ring|]. rewrite IH, (IH (0 + F s)). ring. Qed.
Lemma slip_sum_trace p : rotation (p_ag p) -> forall l, (forall n b g, In (n, b, g) l -> vdot b n = 0) ->
  tr (of2 (fun i j => fold_left (fun a s => a + slip_term (p_ag p) s i j) l 0)) = 0.
Proof.
  intros Ro. induction l as [|[[n b] g] l IH]; intros H; [unfold tr, of2; cbn [fold_left x11 x22 x33]; ring|].
  assert (T : tr (of2 (slip_term (p_ag p) (n, b, g))) = 0) by (apply slip_trace; [exact Ro|apply (H n b g); left; reflexivity]).
  specialize (IH (fun n b g K => H n b g (or_intror K))). unfold tr, of2 in *. cbn [fold_left x11 x22 x33] in *.
  rewrite !(fold_plus (fun s => slip_term (p_ag p) s _ _) l (0 + _)). lra.
Qed.
Lemma flow_trace p : by_slip p \/ by_rate p -> tr (of2 (plastic_velgrad p)) = 0.
Proof.
  intros [(J & Ro & H)|(J & T & P)]; unfold plastic_velgrad; rewrite J.
  - apply slip_sum_trace; assumption.
  - pose proof (inverted_lead _ P) as [I _].
    assert (E : of2 (fun i j => sum1 3 (fun k => sum1 3 (fun l => inverted 3 (p_Fe p) i k * p_edotp p k l * p_Fe p l j))) = mm (mm (of2 (inverted 3 (p_Fe p))) (of2 (p_edotp p))) (of2 (p_Fe p))).
    { set (V := inverted 3 (p_Fe p)). clearbody V. apply m3_ext; unfold of2, mm; cbn [x11 x12 x13 x21 x22 x23 x31 x32 x33]; rewrite !sum1_3; unfold S3; rewrite ?sum1_3; unfold S3; ring. }
    rewrite E. assert (C : forall a b, tr (mm a b) = tr (mm b a)) by (intros a b; unfold tr, mm; cbn [x11 x12 x13 x21 x22 x23 x31 x32 x33]; ring).
    rewrite C, mm_assoc, I, mm_1l. unfold trace, S3 in T. unfold tr, of2. cbn [x11 x22 x33]. lra.
Qed.
Lemma plastic_det tdot p : p_gas p = false -> det3 (p_Fp (update_defgradp_at tdot p)) = dt (me (ms tdot (of2 (plastic_velgrad p)))) * det3 (p_Fp p).
Proof.
  intros G. unfold update_defgradp_at. rewrite G. cbn [p_Fp]. rewrite !of2_det, of2_mmul, dt_mm.
  change (fun i j => plastic_velgrad p i j * tdot) with (scaled tdot (plastic_velgrad p)). rewrite of2_exp, of2_scaled. reflexivity.
Qed.
Lemma tr_ms c a : tr (ms c a) = c * tr a.
Proof. unfold tr, ms; cbn [x11 x22 x33]; ring. Qed.

Lemma dt_me' a : tr a = 0 -> dt (me a) = 1 + (- (e2 a * e2 a) / 12 - e2 a * dt a / 6 - dt a * dt a / 24 + e2 a * e2 a * e2 a / 36 + e2 a * e2 a * dt a / 36 + e2 a * dt a * dt a / 72 + dt a * dt a * dt a / 216).
Proof. intros T. pose proof (dt_me a T) as H. cbn zeta in H. lra. Qed.

(* One slip system keeps the plastic volume exactly. *)
Theorem C122_single_slip : forall tdot p s, p_gas p = false -> by_slip p -> p_slip p = [s] ->
  det3 (p_Fp (update_defgradp_at tdot p)) = det3 (p_Fp p).
Proof.
  intros tdot p s G S L. rewrite plastic_det by exact G. pose proof (flow_trace p (or_introl S)) as T. rewrite dt_me' by (rewrite tr_ms, T; ring).
  destruct S as (J & _). unfold plastic_velgrad. rewrite J, L. destruct s as [[n b] g].
  assert (E2 : e2 (ms tdot (of2 (fun i j => fold_left (fun a s => a + slip_term (p_ag p) s i j) [(n, b, g)] 0))) = 0).
  { unfold e2, ms, of2. cbn [fold_left x11 x12 x13 x21 x22 x23 x31 x32 x33]. unfold slip_term. ring. }
  assert (D0 : dt (ms tdot (of2 (fun i j => fold_left (fun a s => a + slip_term (p_ag p) s i j) [(n, b, g)] 0))) = 0).
  { unfold dt, ms, of2. cbn [fold_left x11 x12 x13 x21 x22 x23 x31 x32 x33]. unfold slip_term. ring. }
  rewrite E2, D0. field.
Qed.
(* Any flow without change of volume in the rate keeps it up to the fourth power of
   the increment. *)
Theorem C122_plastic_volume_partial : forall tdot p, p_gas p = false -> by_slip p \/ by_rate p -> size (scaled tdot (plastic_velgrad p)) <= 2 / 3 ->
  Rabs (det3 (p_Fp (update_defgradp_at tdot p)) - det3 (p_Fp p)) <= size (scaled tdot (plastic_velgrad p)) ^ 4 / 20 * Rabs (det3 (p_Fp p)).
Proof.
  intros tdot p G Fl Sz. rewrite plastic_det by exact G. rewrite of2_size, of2_scaled in *. pose proof (flow_trace p Fl) as T.
  pose proof (dt_me_bound (ms tdot (of2 (plastic_velgrad p))) ltac:(rewrite tr_ms, T; ring) Sz) as B.
  set (x := dt (me _)) in *. replace (x * det3 (p_Fp p) - det3 (p_Fp p)) with ((x - 1) * det3 (p_Fp p)) by ring. rewrite Rabs_mult. apply Rmult_le_compat_r; [apply Rabs_pos|exact B].
Qed.

(* Not exactly: two slip systems, each keeping the volume. *)
Definition axis (k : nat) : T1 := fun i => if Nat.eqb i k then 1 else 0.
Definition two_slips (g : R) : point := mkPoint ident ident ident ident ident (fun _ _ => 0) (fun _ _ => 0) 1 1 (fun _ _ => 0) (fun _ _ => 0) (fun _ _ => 0) d false false
  [(axis 2, axis 1, g); (axis 1, axis 2, g)].
Theorem C122_plastic_volume_refuted : forall g, by_slip (two_slips g) /\
  det3 (p_Fp (two_slips g)) = 1 /\ det3 (p_Fp (update_defgradp_at 1 (two_slips g))) = 1 - g ^ 4 / 12 - g ^ 6 / 36.
Proof.
  intros g. assert (S : by_slip (two_slips g)).
  { split; [reflexivity|]. split.
    - split; [intros i j; cases_ij i j; unfold S3, two_slips, d; cbn [p_ag Nat.eqb]; ring|unfold det3, two_slips, d; cbn [p_ag Nat.eqb]; ring].
    - intros n b h [H|[H|[]]]; injection H as <- <- <-; unfold vdot, S3, axis; cbn [Nat.eqb]; ring. }
  split; [exact S|]. assert (D1 : det3 (p_Fp (two_slips g)) = 1) by (unfold det3, two_slips, ident; cbn [p_Fp Nat.eqb]; ring). split; [exact D1|].
  rewrite plastic_det by reflexivity. rewrite D1. pose proof (flow_trace _ (or_introl S)) as T. rewrite dt_me' by (rewrite tr_ms, T; ring).
  assert (E : of2 (plastic_velgrad (two_slips g)) = M 0 g 0 g 0 0 0 0 0).
  { apply m3_ext; unfold plastic_velgrad, two_slips, of2; cbn [p_J2 p_slip p_ag fold_left x11 x12 x13 x21 x22 x23 x31 x32 x33]; unfold slip_term; rewrite !sum1_3; unfold S3, axis, d; cbn [Nat.eqb]; ring. }
  rewrite E. replace (e2 (ms 1 (M 0 g 0 g 0 0 0 0 0))) with (- g ^ 2) by (unfold e2, ms; cbn [x11 x12 x13 x21 x22 x23 x31 x32 x33]; ring).
  replace (dt (ms 1 (M 0 g 0 g 0 0 0 0 0))) with 0 by (unfold dt, ms; cbn [x11 x12 x13 x21 x22 x23 x31 x32 x33]; ring). field.
Qed.
(* Nor is a rigid spin of the specimen a rotation: it changes the volume. *)
Theorem C122_spin_refuted : forall t wgt p, same (p_vel p) (spin_about_3 t) ->
  p_detF (advance 1 wgt p) = (1 - t ^ 4 / 12 + t ^ 6 / 36) * det3 (p_F p).
Proof.
  intros t wgt p H. destruct (advance_det 1 wgt p) as [-> ->]. f_equal. rewrite of2_det, of2_exp, of2_scaled. apply of2_same in H. rewrite H.
  assert (E : of2 (spin_about_3 t) = M 0 (- t) 0 t 0 0 0 0 0) by reflexivity. rewrite E. rewrite dt_me' by (unfold tr, ms; cbn [x11 x22 x33]; ring).
  replace (e2 (ms 1 (M 0 (- t) 0 t 0 0 0 0 0))) with (t ^ 2) by (unfold e2, ms; cbn [x11 x12 x13 x21 x22 x23 x31 x32 x33]; ring).
  replace (dt (ms 1 (M 0 (- t) 0 t 0 0 0 0 0))) with 0 by (unfold dt, ms; cbn [x11 x12 x13 x21 x22 x23 x31 x32 x33]; ring). field.
Qed.

(* What one step does to a point: the deformation gradient takes the exponential of the
   velocity gradient from the left, and that of a solid its plastic part the exponential
   of the flow. *)
Lemma exp_spec A : same (matrix_exp A) (exp3 A).
Proof.
  apply of2_same. rewrite of2_exp.
  assert (E : of2 (exp3 A) = ma one (ma (of2 A) (ma (ms (1 / 2) (of2 (product A A))) (ms (1 / 6) (of2 (product (product A A) A)))))).
  { unfold exp3. set (B := product A A). set (C := product B A). clearbody B C. apply m3_ext; unfold of2, d, ma, ms, one; cbn [Nat.eqb x11 x12 x13 x21 x22 x23 x31 x32 x33]; field. }
  rewrite E, !of2_product. reflexivity.
Qed.
Definition slip_flow (p : point) : matrix := fun i j => suml (fun '(n, b, g) => mul_v (p_ag p) b i * mul_v (p_ag p) n j * g) (p_slip p).
Lemma slip_flow_value p : p_J2 p = false -> same (plastic_velgrad p) (slip_flow p).
Proof.
  intros J i j _ _. unfold plastic_velgrad, slip_flow. rewrite J. induction (p_slip p) as [|[[n b] g] l IH]; [reflexivity|].
  cbn [fold_left]. rewrite (fold_plus (fun s => slip_term (p_ag p) s i j) l (0 + _)), IH, suml_cons. unfold slip_term, mul_v. rewrite !sum1_3. unfold S3. ring.
Qed.
Theorem C122_step : forall c imicro udot tdot ws m m' q, c_iupdate c = true -> (q < c_npts c)%nat -> evolve c imicro udot tdot ws m = Some m' ->
  let p := step_velocity c imicro udot ws m q in
  same (p_F (m_field m' q)) (product (exp3 (scaled tdot (p_vel p))) (p_F (m_field m q))) /\
  (p_gas p = false -> p_J2 p = false -> same (p_Fp (m_field m' q)) (product (exp3 (scaled tdot (slip_flow p))) (p_Fp (m_field m q)))) /\
  (p_gas p = true -> p_Fp (m_field m' q) = p_Fp (m_field m q)).
Proof.
  intros c imicro udot tdot ws m m' q U Q E p. pose proof (step_quiet c imicro udot ws m q) as Qu. fold p in Qu. unfold evolve in E. rewrite U in E.
  change (m_field (fold_left (fun m w => one_pass c w m) ws (evolve_start imicro udot m))) with (step_velocity c imicro udot ws m) in E.
  set (actual := fun i j => _) in E. set (f := update_defgradp tdot _) in E. destruct (update_defgrad (c_npts c) tdot (c_wgt c) actual f) as [g avg] eqn:G. destruct (elastic_all (c_npts c) g) as [g'|] eqn:El; [|discriminate]. injection E as <-.
  cbn [m_field]. destruct (elastic_alike _ _ _ El q) as (-> & _ & _ & _ & _ & _ & -> & _).
  assert (Eg : g q = fst (update_defgrad (c_npts c) tdot (c_wgt c) actual f) q) by (rewrite G; reflexivity).
  assert (E1 : p_F (g q) = mmul (matrix_exp (scaled tdot (p_vel (f q)))) (p_F (f q))) by (rewrite Eg; reflexivity).
  assert (E2 : p_Fp (g q) = p_Fp (f q)) by (rewrite Eg; reflexivity). clear Eg G. rewrite E1, E2. destruct Qu as (QF & _ & _ & _ & _ & QP & _ & QG).
  assert (Ff : f q = update_defgradp_at tdot (set_sgt (step_velocity c imicro udot ws m) q)) by reflexivity. clearbody f. clear E1 E2. unfold update_defgradp_at, set_sgt in Ff. cbn [p_gas] in Ff. fold p in Ff.
  rewrite Ff. split; [|split].
  - replace (p_vel (if p_gas p then _ else _)) with (p_vel p) by (destruct (p_gas p); reflexivity). replace (p_F (if p_gas p then _ else _)) with (p_F p) by (destruct (p_gas p); reflexivity).
    rewrite QF. apply of2_same. rewrite of2_mmul, of2_product. f_equal. apply of2_same, exp_spec.
  - intros G0 J0. rewrite G0. cbn [p_Fp]. rewrite QP. apply of2_same. rewrite of2_mmul, of2_product. f_equal. apply of2_same.
    intros i j Hi Hj. rewrite <- (exp_spec (scaled tdot (slip_flow p)) i j Hi Hj). revert i j Hi Hj. apply of2_same. rewrite !of2_exp. f_equal.
    change (fun i j => plastic_velgrad _ i j * tdot) with (scaled tdot (plastic_velgrad p)). rewrite !of2_scaled. f_equal. apply of2_same, slip_flow_value. exact J0.
  - intros G1. rewrite G1. cbn [p_Fp]. exact QP.
Qed.

Print Assumptions C122_kinematics.
Print Assumptions C122_step.
Print Assumptions C122_increment.
Print Assumptions C122_single_slip.
Print Assumptions C122_plastic_volume_partial.
Print Assumptions C122_plastic_volume_refuted.
Print Assumptions C122_spin_refuted.
