(* Proofs about the deformation gradients and the mean velocity gradient over a run. *)
From Coq Require Import Reals List Arith Lia Lra Psatz Bool ZArith.
From Verif Require Import BaseReal LinModel EvpModel EvpSpec EvpBasis EvpFlowModel LsSpec LsModel LsRunModel LsMat LsInv LsPolar LsPolarProps LsExp.
Import ListNotations.
Local Open Scope R_scope.

Lemma pivots_lead A : pivots A <-> lead (of2 A).
Proof. reflexivity. Qed.
Lemma inverted_pivots A : pivots A -> inverses A (inverted 3 A).
Proof. intros H. apply of2_inverses, inverted_lead. exact H. Qed.

Lemma sumn_pos n f : (0 < n)%nat -> (forall q, (q < n)%nat -> 0 < f q) -> 0 < sumn n f.
Proof.
  intros N H. destruct n as [|n]; [lia|]. clear N. induction n as [|n IH].
  - cbn [sumn]. specialize (H 0%nat ltac:(lia)). lra.
  - change (sumn (S (S n)) f) with (sumn (S n) f + f (S n)). specialize (IH (fun q Q => H q ltac:(lia))). specialize (H (S n) ltac:(lia)). lra.
Qed.
Lemma sumn_scal n c f : sumn n (fun q => c * f q) = c * sumn n f.
Proof. induction n as [|n IH]; cbn [sumn]; [ring|]. rewrite IH. ring. Qed.
Lemma sumn_plus n f g : sumn n (fun q => f q + g q) = sumn n f + sumn n g.
Proof. induction n as [|n IH]; cbn [sumn]; [ring|]. rewrite IH. ring. Qed.
Lemma sumn_ext' n f g : (forall q, (q < n)%nat -> f q = g q) -> sumn n f = sumn n g.
Proof. induction n as [|n IH]; intros H; cbn [sumn]; [reflexivity|]. rewrite IH by (intros; apply H; lia). rewrite H by lia. reflexivity. Qed.

(* ---- one update ---- *)
Lemma advance_det tdot wgt p : p_detF (advance tdot wgt p) = det3 (p_F (advance tdot wgt p)) /\
  det3 (p_F (advance tdot wgt p)) = det3 (matrix_exp (scaled tdot (p_vel p))) * det3 (p_F p).
Proof.
  unfold advance. cbn [p_detF p_F]. rewrite of2_determinant, !of2_det. split; [reflexivity|]. rewrite of2_mmul, dt_mm. reflexivity.
Qed.
Lemma small_acute tdot v : size (scaled tdot v) <= 2 / 3 -> ac (of2 (matrix_exp (scaled tdot v))).
Proof. rewrite of2_size, of2_exp. apply me_acute. Qed.
Lemma advance_det_pos tdot wgt p : size (scaled tdot (p_vel p)) <= 2 / 3 -> 0 < det3 (p_F p) -> 0 < p_detF (advance tdot wgt p).
Proof.
  intros H K. destruct (advance_det tdot wgt p) as [-> ->]. apply Rmult_lt_0_compat; [|exact K]. rewrite of2_det. apply ac_dt, small_acute, H.
Qed.

(* What stays of a point through the later parts of a step. *)
Definition alike (p q : point) : Prop :=
  p_F p = p_F q /\ p_Finv p = p_Finv q /\ p_vel p = p_vel q /\ p_detF p = p_detF q /\ p_wgtc p = p_wgtc q /\ p_Fini p = p_Fini q /\ p_Fp p = p_Fp q /\ p_gas p = p_gas q.
Lemma alike_refl p : alike p p. Proof. repeat split. Qed.
Lemma defgrade_alike p p' : update_defgrade_at p = Some p' -> alike p' p.
Proof.
  unfold update_defgrade_at. destruct (p_gas p) eqn:G; [intros E; injection E as <-; apply alike_refl|].
  destruct (defgrad_dcmp _); intros E; try discriminate. injection E as <-. repeat split; cbn [p_gas]; auto.
Qed.
Lemma elastic_alike npts f g : elastic_all npts f = Some g -> forall q, alike (g q) (f q).
Proof.
  unfold elastic_all. destruct (forallb _ _); [|discriminate]. intros E q. injection E as <-. destruct (update_defgrade_at (f q)) as [p|] eqn:Ep; [|apply alike_refl].
  apply defgrade_alike. exact Ep.
Qed.
Lemma mean_alike npts f g (X : point -> T2) : (forall q, alike (g q) (f q)) -> (forall p q, alike p q -> X p = X q) ->
  forall i j, weighted_mean npts X g i j = weighted_mean npts X f i j.
Proof.
  intros H K i j. unfold weighted_mean. apply sumn_ext'. intros q Q. rewrite (K _ _ (H q)). destruct (H q) as (_ & _ & _ & _ & -> & _). reflexivity.
Qed.

(* ---- the means update_defgrad leaves ---- *)
Section Update.
Context (npts : nat) (tdot wgt : R) (actual : T2) (f : field).
Let g := fun q => advance tdot wgt (f q).
Let f' := fst (update_defgrad npts tdot wgt actual f).
Let invinv := defgradinvavgc_inv (snd (update_defgrad npts tdot wgt actual f)).
Context (D : det_mean npts wgt g <> 0).

Lemma updated_weights q : p_wgtc (f' q) = wgt * p_detF (f' q) / det_mean npts wgt g.
Proof. reflexivity. Qed.
Lemma updated_sum : sumn npts (fun q => p_wgtc (f' q)) = 1.
Proof.
  rewrite (sumn_ext' npts _ (fun q => / det_mean npts wgt g * (p_detF (g q) * wgt))).
  - rewrite sumn_scal. change (sumn npts (fun q => p_detF (g q) * wgt)) with (det_mean npts wgt g). field. exact D.
  - intros q Q. rewrite updated_weights. change (p_detF (f' q)) with (p_detF (g q)). field. exact D.
Qed.
Lemma updated_Finv i j : weighted_mean npts p_Finv f' i j = current_mean npts wgt p_Finv g i j.
Proof.
  unfold weighted_mean, current_mean. unfold Rdiv. rewrite Rmult_comm, <- sumn_scal. apply sumn_ext'. intros q Q. rewrite updated_weights.
  change (p_detF (f' q)) with (p_detF (g q)). change (p_Finv (f' q)) with (p_Finv (g q)). field. exact D.
Qed.
Lemma updated_inverse : pivots (weighted_mean npts p_Finv f') -> inverses invinv (weighted_mean npts p_Finv f').
Proof.
  intros P. assert (E : of2 (weighted_mean npts p_Finv f') = of2 (current_mean npts wgt p_Finv g)) by (apply of2_same; intros i j _ _; apply updated_Finv).
  assert (P2 : lead (of2 (weighted_mean npts p_Finv f'))) by exact P. apply of2_inverses. rewrite E in P2 |- *. apply inv3_sym. exact (inverted_lead _ P2).
Qed.
Lemma updated_velocity : pivots (weighted_mean npts p_Finv f') -> same (weighted_mean npts p_vel f') actual.
Proof.
  intros P. pose proof (updated_inverse P) as [I _].
  set (velavg := current_mean npts wgt p_vel g).
  set (dudot := mmul (fun i k => actual i k - velavg i k) invinv).
  assert (E : forall i j, idx 3 i -> idx 3 j -> weighted_mean npts p_vel f' i j = velavg i j + product dudot (weighted_mean npts p_Finv f') i j).
  { intros i j _ _. unfold velavg, current_mean, product, S3. rewrite !updated_Finv. unfold weighted_mean, current_mean.
    rewrite (sumn_ext' npts _ (fun q => / det_mean npts wgt g * (p_vel (g q) i j * wgt * p_detF (g q))
      + (dudot i 1%nat * / det_mean npts wgt g * (p_Finv (g q) 1%nat j * wgt * p_detF (g q)) + (dudot i 2%nat * / det_mean npts wgt g * (p_Finv (g q) 2%nat j * wgt * p_detF (g q))
         + dudot i 3%nat * / det_mean npts wgt g * (p_Finv (g q) 3%nat j * wgt * p_detF (g q)))))).
    - rewrite !sumn_plus, !sumn_scal. field. exact D.
    - intros q Q. rewrite updated_weights. change (p_detF (f' q)) with (p_detF (g q)).
      change (p_vel (f' q) i j) with (p_vel (g q) i j + sum1 3 (fun k => dudot i k * p_Finv (g q) k j)). rewrite sum1_3. unfold S3. field. exact D. }
  intros i j Hi Hj. rewrite (E i j Hi Hj).
  assert (K : same (product dudot (weighted_mean npts p_Finv f')) (fun i k => actual i k - velavg i k)).
  { apply of2_same. rewrite of2_product. unfold dudot. rewrite of2_mmul, <- mm_assoc. apply of2_same in I. rewrite of2_product, of2_d in I. rewrite I, mm_1r. reflexivity. }
  rewrite (K i j Hi Hj). ring.
Qed.
End Update.

(* ---- initialize_velgrad ---- *)
Lemma corrected_mean npts work dvel invinv f : inverses invinv (weighted_mean npts p_Finv f) ->
  same (weighted_mean npts p_vel (initialize_velgrad npts work dvel invinv f)) (added (weighted_mean npts p_vel f) dvel).
Proof.
  intros [I _]. set (wavg := fun i j => sumn npts (fun q => sum1 3 (fun k => work q i k * p_Finv (f q) k j) * p_wgtc (f q))).
  set (dudot := mmul (fun i k => dvel i k - wavg i k) invinv).
  assert (E : forall i j, idx 3 i -> idx 3 j -> weighted_mean npts p_vel (initialize_velgrad npts work dvel invinv f) i j
    = weighted_mean npts p_vel f i j + wavg i j + product dudot (weighted_mean npts p_Finv f) i j).
  { intros i j _ _. unfold product, S3, weighted_mean, wavg.
    rewrite (sumn_ext' npts _ (fun q => p_vel (f q) i j * p_wgtc (f q) + (sum1 3 (fun k => work q i k * p_Finv (f q) k j) * p_wgtc (f q)
      + (dudot i 1%nat * (p_Finv (f q) 1%nat j * p_wgtc (f q)) + (dudot i 2%nat * (p_Finv (f q) 2%nat j * p_wgtc (f q)) + dudot i 3%nat * (p_Finv (f q) 3%nat j * p_wgtc (f q))))))).
    - rewrite !sumn_plus, !sumn_scal. ring.
    - intros q Q. change (p_wgtc (initialize_velgrad npts work dvel invinv f q)) with (p_wgtc (f q)).
      change (p_vel (initialize_velgrad npts work dvel invinv f q) i j) with (p_vel (f q) i j + sum1 3 (fun k => (work q i k + dudot i k) * p_Finv (f q) k j)).
      rewrite !sum1_3. unfold S3. ring. }
  intros i j Hi Hj. rewrite (E i j Hi Hj).
  assert (K : same (product dudot (weighted_mean npts p_Finv f)) (fun i k => dvel i k - wavg i k)).
  { apply of2_same. rewrite of2_product. unfold dudot. rewrite of2_mmul, <- mm_assoc. apply of2_same in I. rewrite of2_product, of2_d in I. rewrite I, mm_1r. reflexivity. }
  rewrite (K i j Hi Hj). unfold added. ring.
Qed.

(* ---- the passes of a step ---- *)
Definition quiet (p q : point) : Prop :=
  p_F p = p_F q /\ p_Finv p = p_Finv q /\ p_detF p = p_detF q /\ p_wgtc p = p_wgtc q /\ p_Fini p = p_Fini q /\ p_Fp p = p_Fp q /\ p_Fe p = p_Fe q /\ p_gas p = p_gas q.
Lemma quiet_trans p q r : quiet p q -> quiet q r -> quiet p r.
Proof. unfold quiet. intros (?&?&?&?&?&?&?&?) (?&?&?&?&?&?&?&?). repeat split; congruence. Qed.
Lemma start_quiet imicro udot m q : quiet (m_field (evolve_start imicro udot m) q) (m_field m q).
Proof. unfold evolve_start. cbn [m_field]. destruct (Nat.eqb imicro 1); repeat split. Qed.
Lemma pass_quiet c w m q : quiet (m_field (one_pass c w m) q) (m_field m q).
Proof. repeat split. Qed.
Lemma passes_quiet c ws : forall m q, quiet (m_field (fold_left (fun m w => one_pass c w m) ws m) q) (m_field m q).
Proof.
  induction ws as [|w ws IH]; intros m q; cbn [fold_left]; [repeat split|]. eapply quiet_trans; [apply IH|apply pass_quiet].
Qed.
Lemma step_quiet c imicro udot ws m q : quiet (step_velocity c imicro udot ws m q) (m_field m q).
Proof. eapply quiet_trans; [apply passes_quiet|apply start_quiet]. Qed.
Lemma passes_invinv c ws : forall m, m_invinv (fold_left (fun m w => one_pass c w m) ws m) = m_invinv m.
Proof. induction ws as [|w ws IH]; intros m; cbn [fold_left]; [reflexivity|]. rewrite IH. reflexivity. Qed.
Lemma quiet_Finv_same npts f g : (forall q, quiet (g q) (f q)) -> same (weighted_mean npts p_Finv g) (weighted_mean npts p_Finv f).
Proof. intros H i j _ _. unfold weighted_mean. apply sumn_ext'. intros q Q. destruct (H q) as (_ & -> & _ & -> & _). reflexivity. Qed.
Lemma inverses_same A B B' : same B B' -> inverses A B -> inverses A B'.
Proof. intros E H. apply of2_inverses in H. apply of2_inverses. apply of2_same in E. rewrite <- E. exact H. Qed.

(* mean + next correction = first mean + all corrections *)
Lemma passes_mean c ws : forall m, inverses (m_invinv m) (weighted_mean (c_npts c) p_Finv (m_field m)) ->
  let m' := fold_left (fun m w => one_pass c w m) ws m in
  same (added (weighted_mean (c_npts c) p_vel (m_field m')) (m_dvel m'))
       (fun i j => weighted_mean (c_npts c) p_vel (m_field m) i j + m_dvel m i j + (m_dacum m' i j - m_dacum m i j)).
Proof.
  induction ws as [|w ws IH]; intros m I; cbn [fold_left].
  - intros i j _ _. unfold added. ring.
  - assert (I' : inverses (m_invinv (one_pass c w m)) (weighted_mean (c_npts c) p_Finv (m_field (one_pass c w m)))).
    { apply (inverses_same _ (weighted_mean (c_npts c) p_Finv (m_field m))); [|exact I]. intros i j _ _. reflexivity. }
    specialize (IH (one_pass c w m) I'). cbn zeta in IH |- *. intros i j Hi Hj. rewrite (IH i j Hi Hj).
    pose proof (corrected_mean (c_npts c) (ps_work w) (m_dvel m) (m_invinv m) (m_field m) I i j Hi Hj) as K.
    change (weighted_mean (c_npts c) p_vel (m_field (one_pass c w m)) i j) with (weighted_mean (c_npts c) p_vel (initialize_velgrad (c_npts c) (ps_work w) (m_dvel m) (m_invinv m) (m_field m)) i j).
    rewrite K. unfold added. change (m_dacum (one_pass c w m) i j) with (m_dacum m i j + m_dvel (one_pass c w m) i j). ring.
Qed.

(* fully prescribed *)
Definition all_imposed (c : settings) : Prop := forall i j, idx 3 i -> idx 3 j -> c_iudot c i j = 1%Z.
Lemma no_correction s0 c mean : all_imposed c -> forall i j, mixed_correction s0 (idsim_of (c_iudot c)) (c_iscau c) (c_scauchy c) mean i j = 0.
Proof.
  intros H i j. unfold mixed_correction. rewrite (suml_ext _ (fun _ => 0)); [apply suml_0|].
  intros k K. apply in_seq in K. assert (C : k = 1%nat \/ k = 2%nat \/ k = 3%nat \/ k = 4%nat \/ k = 5%nat \/ k = 6%nat) by lia.
  assert (E : idsim_of (c_iudot c) k = 1%Z) by (unfold idsim_of; destruct C as [->|[->|[->|[->|[->| ->]]]]]; rewrite ?H by (unfold idx; lia); reflexivity).
  rewrite E. change (1 =? 0)%Z with false. rewrite andb_false_r. reflexivity.
Qed.
Lemma passes_imposed c ws : all_imposed c -> forall m, (forall i j, m_dvel m i j = 0) -> (forall i j, m_dacum m i j = 0) ->
  let m' := fold_left (fun m w => one_pass c w m) ws m in (forall i j, m_dvel m' i j = 0) /\ (forall i j, m_dacum m' i j = 0).
Proof.
  intros H. induction ws as [|w ws IH]; intros m V A; cbn [fold_left]; [split; assumption|]. apply IH.
  - intros i j. unfold one_pass. cbn [m_dvel]. apply no_correction. exact H.
  - intros i j. unfold one_pass. cbn [m_dacum]. rewrite A, no_correction by exact H. ring.
Qed.
