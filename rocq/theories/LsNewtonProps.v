(* The local iteration of the large-strain solver: C126. *)
From Coq Require Import Reals List Arith Lia Lra ZArith FunctionalExtensionality.
From Verif Require Import BaseReal LinModel LinSpec LinProofs EvpModel EvpFlowModel EvpSpec EvpFlowSpec EvpBasis EvpElast EvpSlip EvpMisesProps EvpNewtonProps LsFlowModel LsJ2Props.
Import ListNotations.
Local Open Scope R_scope.

(* The material is given and its flow has a slope at the stress. *)
Definition smooth_at (l : law) (sg6 : T1) : Prop :=
  match l with
  | Slip ss => forall s, In s ss -> regular_slip s /\ ((2 <= sl_nrs s)%Z \/ resolved s sg6 <> sl_xkin s)
  | J2 m => regular_j2 m /\ 0 < sgvm sg6
  end.

Lemma flow_line l sg6 fl h : smooth_at l sg6 -> law_flow l sg6 = Some fl ->
  exists (f : nat -> R -> R) r, 0 < r /\ (forall t, Rabs t < r -> exists ft, law_flow l (fun i => sg6 i + t * h i) = Some ft /\ forall k, fl_edotp6 ft k = f k t) /\
    forall k, idx 6 k -> derivable_pt_lim (f k) 0 (S6 (fun jj => fl_dedotp66 fl k jj * h jj)).
Proof.
  destruct l as [ss|m]; cbn [smooth_at]; intros OK E.
  - assert (R : forall s, In s ss -> regular_slip s) by (intros s I; apply (OK s I)). cbn [law_flow] in *. rewrite (rates_value ss sg6 R) in E. injection E as <-. cbn [fl_dedotp66].
    exists (fun k t => edotp6 (with_rates ss (fun i => sg6 i + t * h i)) k), 1. split; [lra|]. split.
    + intros t _. rewrite (rates_value ss _ R). eexists. split; [reflexivity|]. intros k. reflexivity.
    + intros k K. apply ed_line; [exact K|exact R|intros s I; apply (OK s I)].
  - destruct OK as [R P]. cbn [law_flow] in *. rewrite j2_value in E by (assumption || lra). injection E as <-. cbn [fl_dedotp66].
    exists (fun k t => if Nat.leb k 5 then mag_of m (fun i => sg6 i + t * h i) * (sg6 k + t * h k) else 0).
    destruct (sgvm_near sg6 h P) as (r & R0 & C). exists r. split; [exact R0|]. split.
    + intros t T. rewrite j2_value; [|exact R|specialize (C t T); lra]. eexists. split; [reflexivity|]. intros k. reflexivity.
    + intros k K. exact (j2_line m sg6 h k R P K).
Qed.

(* The part of the residual without flow *)
Definition res0 (p : lpoint) (sg6 : T1) (ii : nat) : R := ls_residual p (ls_ceq6 p (fun _ => 0) sg6) sg6 ii.
Definition slope0 (p : lpoint) (h : T1) (ii : nat) : R :=
  h ii - S6 (fun jj => l_cG p ii jj * h jj) + S6 (fun kk => l_c066 p ii kk * S6 (fun jj => l_sg66 p kk jj * h jj / l_tdot p)).

Lemma residual_flow p ed sg6 ii : ls_residual p (ls_ceq6 p ed sg6) sg6 ii = res0 p sg6 ii + S6 (fun k => l_c066 p ii k * ed k).
Proof.
  unfold res0, ls_residual. rewrite !sum1_6. rewrite Rplus_assoc. f_equal. rewrite <- S6_plus. apply S6_ext. intros j _. unfold ls_ceq6. ring.
Qed.

Lemma residual_move p sg6 h t ii : res0 p (fun i => sg6 i + t * h i) ii = res0 p sg6 ii + slope0 p h ii * t.
Proof.
  unfold res0, ls_residual, slope0. rewrite !sum1_6.
  rewrite (S6_ext _ (fun jj => (l_c066 p ii jj * (ls_ceq6 p (fun _ => 0) sg6 jj - l_strain6 p jj) - l_cG p ii jj * (sg6 jj - l_xlambda6 p jj)) +
     (t * (l_c066 p ii jj * S6 (fun k => l_sg66 p jj k * h k / l_tdot p)) + (- t) * (l_cG p ii jj * h jj)))).
  - rewrite !S6_plus, !S6_scale. ring.
  - intros jj _. assert (Q : ls_ceq6 p (fun _ => 0) (fun i => sg6 i + t * h i) jj = ls_ceq6 p (fun _ => 0) sg6 jj + t * S6 (fun k => l_sg66 p jj k * h k / l_tdot p)).
    { unfold ls_ceq6. rewrite !sum1_6. rewrite Rplus_assoc. f_equal. rewrite <- S6_scale, <- S6_plus. apply S6_ext. intros k _. unfold Rdiv. ring. }
    rewrite Q. ring.
Qed.

Lemma jacobian_row p de h ii : idx 6 ii -> S6 (fun jj => ls_jacobian p de ii jj * h jj) = slope0 p h ii + S6 (fun k => l_c066 p ii k * S6 (fun jj => de k jj * h jj)).
Proof.
  intros I. unfold slope0.
  rewrite (S6_ext _ (fun jj => d ii jj * h jj + ((-1) * (l_cG p ii jj * h jj) + (S6 (fun k => l_c066 p ii k * (l_sg66 p k jj * h jj / l_tdot p)) + S6 (fun k => l_c066 p ii k * (de k jj * h jj)))))).
  - rewrite !S6_plus, S6_scale, S6_d' by exact I. rewrite (S6_swap (fun jj k => l_c066 p ii k * (l_sg66 p k jj * h jj / l_tdot p))), (S6_swap (fun jj k => l_c066 p ii k * (de k jj * h jj))).
    rewrite (S6_ext (fun j => S6 (fun i => l_c066 p ii j * (l_sg66 p j i * h i / l_tdot p))) (fun kk => l_c066 p ii kk * S6 (fun jj => l_sg66 p kk jj * h jj / l_tdot p))) by (intros; rewrite S6_scale; reflexivity).
    rewrite (S6_ext (fun j => S6 (fun i => l_c066 p ii j * (de j i * h i))) (fun k => l_c066 p ii k * S6 (fun jj => de k jj * h jj))) by (intros; rewrite S6_scale; reflexivity). ring.
  - intros jj J. unfold ls_jacobian. rewrite sum1_6, kron_d6 by assumption. rewrite <- S6_plus.
    rewrite (S6_ext (fun i => l_c066 p ii i * (l_sg66 p i jj * h jj / l_tdot p) + l_c066 p ii i * (de i jj * h jj)) (fun k => h jj * (l_c066 p ii k * (l_sg66 p k jj / l_tdot p + de k jj)))) by (intros; unfold Rdiv; ring).
    rewrite S6_scale. ring.
Qed.

(* C126: the matrix of the iteration is the derivative of the residual in every
   direction. *)
Theorem C126_tangent p sg6 t h ii : smooth_at (l_law p) sg6 -> evaluate p sg6 = Some t -> idx 6 ii ->
  exists f r, 0 < r /\ (forall x, Rabs x < r -> exists tx, evaluate p (fun i => sg6 i + x * h i) = Some tx /\ t_res tx ii = f x) /\
    derivable_pt_lim f 0 (S6 (fun jj => ls_jacobian p (fl_dedotp66 (t_flow t)) ii jj * h jj)).
Proof.
  intros OK E I. unfold evaluate in E. destruct (Req_EM_T (l_tdot p) 0) as [|Z]; [discriminate|]. destruct (law_flow (l_law p) sg6) as [fl|] eqn:F; [|discriminate]. injection E as <-. cbn [t_flow].
  destruct (flow_line _ _ _ h OK F) as (f & r & R0 & V & D).
  exists (fun x => (res0 p sg6 ii + slope0 p h ii * x) + S6 (fun k => l_c066 p ii k * f k x)), r. split; [exact R0|]. split.
  - intros x X. destruct (V x X) as (ft & Ef & Vf). unfold evaluate. destruct (Req_EM_T (l_tdot p) 0); [contradiction|]. rewrite Ef. eexists. split; [reflexivity|]. cbn [t_res].
    rewrite residual_flow, residual_move. f_equal. apply S6_ext. intros k _. rewrite Vf. reflexivity.
  - rewrite jacobian_row by exact I. apply (derivable_pt_lim_plus (fun x => res0 p sg6 ii + slope0 p h ii * x) (fun x => S6 (fun k => l_c066 p ii k * f k x))); [apply lin_slope|].
    rewrite S6_list. apply (lim_ext (fun x => suml (fun k => l_c066 p ii k * f k x) [1; 2; 3; 4; 5; 6]%nat)); [intros; rewrite S6_list; reflexivity|].
    apply (suml_lim (fun k x => l_c066 p ii k * f k x)). intros k K. assert (K' : idx 6 k) by (unfold idx; cbn [In] in K; lia).
    apply (derivable_pt_lim_scal (f k)). apply D. exact K'.
Qed.
Print Assumptions C126_tangent.

(* What the iteration measures at a stress g: the flow, the strain rate that goes with
   it, the residual and its norm. *)
Theorem C126_residual p g t : evaluate p g = Some t -> law_flow (l_law p) g = Some (t_flow t) /\
  (forall i, t_ceq6 t i = fl_edotp6 (t_flow t) i + S6 (fun j => l_sg66 p i j * (g j - l_sgt6 p j)) / l_tdot p) /\
  (forall i, t_res t i = (g i - l_xlambda6 p i) + S6 (fun j => l_c066 p i j * (t_ceq6 t j - l_strain6 p j)) - S6 (fun j => l_cG p i j * (g j - l_xlambda6 p j))) /\
  t_resn t = sqrt (S6 (fun i => t_res t i * t_res t i)).
Proof.
  unfold evaluate. destruct (Req_EM_T (l_tdot p) 0) as [|Z]; [discriminate|]. destruct (law_flow (l_law p) g) as [fl|]; [|discriminate]. intros H. injection H as <-. cbn [t_flow t_ceq6 t_res t_resn].
  split; [reflexivity|]. split; [intros i; unfold ls_ceq6; rewrite sum1_6; unfold S6, Rdiv; ring|]. split; [intros i; unfold ls_residual; rewrite sum1_6; unfold S6; ring|]. rewrite sum1_6. reflexivity.
Qed.
Print Assumptions C126_residual.

(* In a phase with slip systems each shears by its power law, and the flow is the sum of
   the shears. *)
Theorem C126_slip ss sg6 fl : (forall s, In s ss -> regular_slip s) -> law_flow (Slip ss) sg6 = Some fl ->
  let rate s := power_law (sl_gamd0 s) (sl_crss1 s) (sl_crss2 s) (Z.to_nat (sl_nrs s)) (resolved s sg6 - sl_xkin s) in
  fl_gamdot fl = map rate ss /\ forall k, idx 6 k -> fl_edotp6 fl k = if Nat.eqb k 6 then 0 else total (map (fun s => sl_sch s k * rate s) ss).
Proof.
  intros R E rate. cbn [law_flow] in E. rewrite (rates_value ss sg6 R) in E. injection E as <-. cbn [fl_gamdot fl_edotp6]. split.
  - unfold with_rates. rewrite map_map. apply map_ext. intros s. reflexivity.
  - intros k K. rewrite edotp6_sum. assert (T : forall f, suml f ss = total (map f ss)) by (intros f; unfold suml; clear; induction ss as [|s l IH]; cbn [fold_right map total]; [reflexivity|rewrite IH; reflexivity]).
    rewrite T. all6 K; reflexivity.
Qed.
Print Assumptions C126_slip.

(* ---------- the law of the material ---------- *)

(* The change of the stress over the step is the elastic response to what the
   velocity gradient leaves after the flow. *)
Definition rate_law (C : T4) (edotp D sgt sigma : T2) (tdot : R) : Prop :=
  forall i j, idx 3 i -> idx 3 j -> sigma i j = sgt i j + tdot * act C (fun a b => D a b - edotp a b) i j.

Lemma comps_sub A B n : comps (fun i j => A i j - B i j) n = comps A n - comps B n.
Proof. unfold comps, S3. ring. Qed.

Lemma rate_components cm cG cg66 L sgt sg lam tdot l fl : pos6 cg66 -> symmetric sgt -> symmetric sg -> tdot <> 0 -> law_flow l (chg_basis_2 6 sg) = Some fl ->
  let p := ls_point cm cG cg66 L sgt lam tdot l in
  (rate_law (chg_basis_3 6 cg66) (chg_basis_1 6 (fl_edotp6 fl)) (sym_part L) sgt sg tdot <->
   forall n, idx 6 n -> ls_ceq6 p (fl_edotp6 fl) (chg_basis_2 6 sg) n = l_strain6 p n).
Proof.
  intros P ST SS Z E p. pose proof (inverted6 cg66 P) as V. set (ed := fl_edotp6 fl).
  set (Y := fun n => (comps sg n - comps sgt n) / tdot).
  assert (CE : forall n, idx 6 n -> ls_ceq6 p ed (chg_basis_2 6 sg) n = ed n + mat_v (inverted 6 cg66) Y n).
  { intros n N. unfold ls_ceq6, p, ls_point. cbn [l_sg66 l_sgt6 l_tdot]. rewrite sum1_6. unfold mat_v. f_equal. apply S6_ext. intros m M. rewrite !cb2. unfold Y. unfold Rdiv. ring. }
  assert (SR : forall n, l_strain6 p n = comps (sym_part L) n).
  { intros n. unfold p, ls_point. cbn [l_strain6]. rewrite cb2. apply comps_ext. intros i j I J. reflexivity || (unfold sym_part; field). }
  set (X := fun a b => sym_part L a b - chg_basis_1 6 ed a b).
  assert (XC : forall n, idx 6 n -> comps X n = comps (sym_part L) n - ed n).
  { intros n N. unfold X. rewrite comps_sub. f_equal. rewrite (comps_ext _ (expand ed)) by (intros; apply cb1). apply comps_expand. exact N. }
  unfold rate_law. split.
  - intros H n N. rewrite (CE n N), SR.
    assert (M : mat_v (inverted 6 cg66) Y n = comps X n).
    { rewrite (mat_v_ext _ Y (mat_v cg66 (comps X))); [destruct (mat_inverse cg66 (inverted 6 cg66) (comps X) n V N) as [_ Q]; exact Q|].
      intros m Hm. unfold Y. rewrite <- comps_sub. rewrite (comps_ext _ (fun i j => tdot * expand (mat_v cg66 (comps X)) i j)).
      - assert (Q : comps (fun i j => tdot * expand (mat_v cg66 (comps X)) i j) m = tdot * comps (expand (mat_v cg66 (comps X))) m) by (unfold comps, S3; ring). rewrite Q, comps_expand by exact Hm. field. exact Z.
      - intros i j I J. rewrite (H i j I J). rewrite act_expand. fold X. ring. }
    rewrite M, (XC n N). ring.
  - intros H i j I J. fold X. rewrite act_expand.
    rewrite (expand_ext (mat_v cg66 (comps X)) Y).
    + assert (Q : tdot * expand Y i j = expand (comps (fun a b => sg a b - sgt a b)) i j).
      { rewrite (expand_ext (comps (fun a b => sg a b - sgt a b)) (fun n => tdot * Y n)); [unfold expand, S6; ring|]. intros n _. rewrite comps_sub. unfold Y. field. exact Z. }
      rewrite Q, expand_comps_sym; [ring| |exact I|exact J]. intros a b Ia Ib. rewrite (SS a b Ia Ib), (ST a b Ia Ib). reflexivity.
    + intros n N. rewrite (mat_v_ext _ (comps X) (mat_v (inverted 6 cg66) Y)).
      * destruct (mat_inverse cg66 (inverted 6 cg66) Y n V N) as [Q _]. exact Q.
      * intros m Hm. specialize (H m Hm). rewrite (CE m Hm), SR in H. rewrite (XC m Hm). lra.
Qed.

Lemma evaluate_value p sg6 fl : l_tdot p <> 0 -> law_flow (l_law p) sg6 = Some fl ->
  evaluate p sg6 = Some (mkTrial fl (ls_ceq6 p (fl_edotp6 fl) sg6) (ls_residual p (ls_ceq6 p (fl_edotp6 fl) sg6) sg6)
    (sqrt (sum1 6 (fun ii => ls_residual p (ls_ceq6 p (fl_edotp6 fl) sg6) sg6 ii * ls_residual p (ls_ceq6 p (fl_edotp6 fl) sg6) sg6 ii)))).
Proof. intros Z E. unfold evaluate. destruct (Req_EM_T (l_tdot p) 0); [contradiction|]. rewrite E. reflexivity. Qed.

Lemma change_same a b : (forall i, idx 6 i -> a i = b i) -> change6 a b = 0.
Proof.
  intros H. unfold change6. rewrite <- sqrt_0. f_equal. rewrite sum1_6, (S6_ext _ (fun _ => 0)); [unfold S6; ring|]. intros i I. rewrite H by exact I. ring.
Qed.
Lemma stops s : ls_goes_on s 0 = false.
Proof.
  unfold ls_goes_on. destruct (Req_EM_T s 0); [destruct (Rlt_dec 0 0); [lra|reflexivity]|]. assert (P : 0 < 1 / 10 ^ 10) by (apply Rdiv_lt_0_compat; [lra|apply pow_lt; lra]).
  destruct (Rlt_dec (1 / 10 ^ 10) (0 / s)) as [C|]; [|reflexivity]. exfalso. revert C P. generalize (1 / 10 ^ 10). intros e C P. unfold Rdiv in C. rewrite Rmult_0_l in C. lra.
Qed.

(* A stress that obeys the law of the material is left as it is. *)
Theorem C126_solution_kept cm cG cg66 L sgt sg tdot l fl : pos6 cg66 -> symmetric sgt -> symmetric sg -> tdot <> 0 -> law_flow l (chg_basis_2 6 sg) = Some fl ->
  rate_law (chg_basis_3 6 cg66) (chg_basis_1 6 (fl_edotp6 fl)) (sym_part L) sgt sg tdot ->
  exists sg' edotp, ls_evpal cm cG cg66 L sgt sg tdot l = Some (sg', edotp, fl_gamdot fl) /\
    forall i j, idx 3 i -> idx 3 j -> sg' i j = sg i j /\ edotp i j = chg_basis_1 6 (fl_edotp6 fl) i j.
Proof.
  intros P ST SS Z E H. pose proof (proj1 (rate_components cm cG cg66 L sgt sg sg tdot l fl P ST SS Z E) H) as Q. cbv zeta in Q. unfold ls_evpal. set (p := ls_point cm cG cg66 L sgt sg tdot l) in *.
  pose proof (evaluate_value p (chg_basis_2 6 sg) fl Z E) as EV. set (t := mkTrial _ _ _ _) in EV.
  assert (R0 : forall ii, t_res t ii = 0).
  { intros ii. unfold t. cbn [t_res]. unfold ls_residual. rewrite sum1_6. change (l_xlambda6 p) with (chg_basis_2 6 sg). rewrite (S6_ext _ (fun _ => 0)); [unfold S6; ring|]. intros k K. rewrite (Q k K). ring. }
  assert (C : cuts 10 p None None (chg_basis_2 6 sg) = Some (chg_basis_2 6 sg, t, t_resn t)).
  { cbn [cuts]. rewrite EV. destruct (Rlt_dec (t_resn t) (t_resn t)); [lra|]. reflexivity. }
  assert (W : forall ii, ls_step p t (chg_basis_2 6 sg) ii = chg_basis_2 6 sg ii).
  { intros ii. unfold ls_step. rewrite sum1_6, (S6_ext _ (fun _ => 0)); [unfold S6; ring|]. intros k _. rewrite R0. ring. }
  assert (N : ls_loop 100 p (sqrt (sum1 3 (fun i => sum1 3 (fun j => sg i j * sg i j)))) None (chg_basis_2 6 sg) = Some {| o_sg6 := ls_step p t (chg_basis_2 6 sg); o_trial := t |}).
  { cbn [ls_loop]. rewrite C. rewrite (change_same _ _ (fun i _ => W i)), stops. reflexivity. }
  cbv zeta. rewrite N. cbn [o_sg6 o_trial]. change (t_flow t) with fl. eexists. eexists. split; [reflexivity|]. intros i j I J. split; [|reflexivity].
  rewrite cb1, (expand_ext _ (comps sg)); [apply expand_comps_sym; assumption|]. intros m _. rewrite W. apply cb2.
Qed.
Print Assumptions C126_solution_kept.

Lemma right_inverse J : leading_regular 6 (fun i j => J (S j) (S i)) -> forall a b, idx 6 a -> idx 6 b -> S6 (fun k => J a k * inverted 6 J k b) = d a b.
Proof.
  intros L. destruct (invert_leading 6 (fun _ => 0) (pack 6 J) _ (fholds_holds 6 (pack 6 J) J (pack_holds 6 J ltac:(lia))) L) as (r & B & E & HB & W).
  intros a b A Bb. unfold inverted. rewrite E. cbn [snd]. unfold unpack. unfold idx in A, Bb.
  destruct (W (b - 1)%nat (a - 1)%nat ltac:(lia) ltac:(lia)) as [_ W2]. rewrite sumn_S6 in W2.
  assert (DD : LinSpec.delta (b - 1) (a - 1) = d a b). { unfold LinSpec.delta, d. destruct (Nat.eqb_spec (b - 1) (a - 1)), (Nat.eqb_spec a b); try reflexivity; lia. }
  rewrite DD in W2. rewrite <- W2. apply S6_ext. intros k K. unfold idx in K.
  replace (k - 1 + (b - 1) * 6)%nat with ((b - 1) * 6 + (k - 1))%nat by lia. rewrite (HB (b - 1)%nat (k - 1)%nat) by lia.
  replace (S (a - 1)) with a by lia. replace (S (k - 1)) with k by lia. ring.
Qed.

(* A stress the step leaves as it is has no residual, where the matrix can be inverted
   in place. *)
Theorem C126_rest p g t : evaluate p g = Some t -> leading_regular 6 (fun i j => ls_jacobian p (fl_dedotp66 (t_flow t)) (S j) (S i)) ->
  (forall ii, idx 6 ii -> ls_step p t g ii = g ii) -> forall jj, idx 6 jj ->
  g jj + S6 (fun k => l_c066 p jj k * t_ceq6 t k) - S6 (fun k => l_cG p jj k * (g k - l_xlambda6 p k)) = l_xlambda6 p jj + S6 (fun k => l_c066 p jj k * l_strain6 p k).
Proof.
  intros E L F jj Hj. pose proof (right_inverse _ L) as V. set (J := ls_jacobian p (fl_dedotp66 (t_flow t))) in *.
  assert (Q : forall i, idx 6 i -> S6 (fun j => inverted 6 J i j * t_res t j) = 0).
  { intros i I. specialize (F i I). unfold ls_step in F. fold J in F. rewrite sum1_6 in F.
    rewrite (S6_ext _ (fun j => -1 * (inverted 6 J i j * t_res t j))) in F by (intros; ring). rewrite S6_scale in F. lra. }
  assert (Z : t_res t jj = 0).
  { transitivity (S6 (fun k => J jj k * S6 (fun m => inverted 6 J k m * t_res t m))).
    - transitivity (S6 (fun m => S6 (fun k => J jj k * inverted 6 J k m) * t_res t m)).
      + rewrite (S6_ext _ (fun m => d jj m * t_res t m)) by (intros m M; rewrite V by assumption; reflexivity). symmetry. apply S6_d'. exact Hj.
      + unfold S6. ring.
    - rewrite (S6_ext _ (fun _ => 0)); [unfold S6; ring|]. intros k K. rewrite Q by exact K. ring. }
  unfold evaluate in E. destruct (Req_EM_T (l_tdot p) 0) as [|NZ]; [discriminate|]. destruct (law_flow (l_law p) g) as [fl|]; [|discriminate]. injection E as <-. cbn [t_res t_ceq6] in *.
  unfold ls_residual in Z. rewrite sum1_6 in Z.
  rewrite (S6_ext _ (fun k => l_c066 p jj k * ls_ceq6 p (fl_edotp6 fl) g k + ((-1) * (l_c066 p jj k * l_strain6 p k) + (-1) * (l_cG p jj k * (g k - l_xlambda6 p k))))) in Z by (intros; ring).
  rewrite !S6_plus, !S6_scale in Z. lra.
Qed.
Print Assumptions C126_rest.

(* Where the stress the iteration starts from is one the step leaves as it is, it obeys
   the law of the material. *)
Theorem C126_fixed_point cm cG cg66 L sgt sg tdot l t : pos6 cm -> pos6 cg66 -> symmetric sgt -> symmetric sg ->
  let p := ls_point cm cG cg66 L sgt sg tdot l in
  evaluate p (chg_basis_2 6 sg) = Some t -> leading_regular 6 (fun i j => ls_jacobian p (fl_dedotp66 (t_flow t)) (S j) (S i)) ->
  (forall ii, idx 6 ii -> ls_step p t (chg_basis_2 6 sg) ii = chg_basis_2 6 sg ii) ->
  rate_law (chg_basis_3 6 cg66) (chg_basis_1 6 (fl_edotp6 (t_flow t))) (sym_part L) sgt sg tdot.
Proof.
  intros PC P ST SS p E LR F. pose proof (C126_rest p _ t E LR F) as Q.
  assert (X : tdot <> 0 /\ exists fl, law_flow l (chg_basis_2 6 sg) = Some fl /\ t_flow t = fl /\ t_ceq6 t = ls_ceq6 p (fl_edotp6 fl) (chg_basis_2 6 sg)).
  { unfold evaluate in E. change (l_tdot p) with tdot in E. change (l_law p) with l in E. destruct (Req_EM_T tdot 0) as [|NZ]; [discriminate|]. split; [exact NZ|]. destruct (law_flow l _) as [fl|]; [|discriminate]. injection E as <-. exists fl. repeat split. }
  destruct X as (Z & fl & Ef & Et & Ec). rewrite Et. apply (proj2 (rate_components cm cG cg66 L sgt sg sg tdot l fl P ST SS Z Ef)). cbv zeta. fold p.
  set (y := fun k => ls_ceq6 p (fl_edotp6 fl) (chg_basis_2 6 sg) k - l_strain6 p k).
  assert (Y : forall jj, idx 6 jj -> mat_v cm y jj = 0).
  { intros jj J. specialize (Q jj J). rewrite Ec in Q. change (l_xlambda6 p) with (chg_basis_2 6 sg) in Q. change (l_c066 p) with cm in Q.
    rewrite (S6_ext (fun k => l_cG p jj k * _) (fun _ => 0)) in Q by (intros; ring). unfold mat_v. rewrite (S6_ext _ (fun k => cm jj k * ls_ceq6 p (fl_edotp6 fl) (chg_basis_2 6 sg) k + (-1) * (cm jj k * l_strain6 p k))) by (intros; unfold y; ring).
    rewrite S6_plus, S6_scale. unfold S6 in *. lra. }
  intros k K. destruct (Req_dec (y k) 0) as [|NZ]; [unfold y in *; lra|]. exfalso.
  pose proof (PC y ltac:(exists k; split; assumption)) as Q2. rewrite (S6_ext _ (fun _ => 0)) in Q2; [unfold S6 in Q2; lra|].
  intros a A. transitivity (y a * mat_v cm y a); [unfold mat_v; rewrite <- S6_scale; apply S6_ext; intros; ring|]. rewrite Y by exact A. ring.
Qed.
Print Assumptions C126_fixed_point.

(* ---------- one stress only ---------- *)

(* Materials whose flow grows with the stress, at two stresses where it is defined. *)
Definition growing (l : law) (s1 s2 : T2) : Prop :=
  match l with
  | Slip ss => forall s, In s ss -> regular_slip s /\ 0 <= sl_gamd0 s
  | J2 m => regular_j2 m /\ sheared s1 /\ sheared s2
  end.

Lemma slip_monotone ss a b : (forall s, In s ss -> regular_slip s /\ 0 <= sl_gamd0 s) ->
  0 <= S6 (fun k => (a k - b k) * (edotp6 (with_rates ss a) k - edotp6 (with_rates ss b) k)).
Proof.
  intros H. assert (E : S6 (fun k => (a k - b k) * (edotp6 (with_rates ss a) k - edotp6 (with_rates ss b) k)) =
    suml (fun s => (resolved s a - resolved s b) * (rate_of s (resolved s a) - rate_of s (resolved s b))) ss).
  { clear H. unfold S6. rewrite !edotp6_sum. cbn [Nat.leb]. induction ss as [|s ss IH]; [unfold suml; cbn [fold_right]; ring|].
    unfold suml in *. cbn [fold_right]. rewrite <- IH. generalize (rate_of s (resolved s a)) (rate_of s (resolved s b)). intros ra rb. unfold resolved. ring. }
  rewrite E. clear E. induction ss as [|s ss IH]; [unfold suml; cbn [fold_right]; lra|]. unfold suml in *. cbn [fold_right].
  assert (Q : 0 <= (resolved s a - resolved s b) * (rate_of s (resolved s a) - rate_of s (resolved s b))).
  { destruct (H s (or_introl eq_refl)) as ((_ & C1 & C2) & G). unfold rate_of.
    destruct (Rle_dec (resolved s a) (resolved s b)) as [L|L].
    - pose proof (law_mono (sl_gamd0 s) (sl_crss1 s) (sl_crss2 s) (Z.to_nat (sl_nrs s)) (resolved s a - sl_xkin s) (resolved s b - sl_xkin s) G C1 C2 ltac:(lra)). nra.
    - apply Rnot_le_lt in L. pose proof (law_mono (sl_gamd0 s) (sl_crss1 s) (sl_crss2 s) (Z.to_nat (sl_nrs s)) (resolved s b - sl_xkin s) (resolved s a - sl_xkin s) G C1 C2 ltac:(lra)). nra. }
  specialize (IH (fun x I => H x (or_intror I))). lra.
Qed.

Lemma flow_monotone l s1 s2 f1 f2 : symmetric s1 -> symmetric s2 -> growing l s1 s2 -> law_flow l (chg_basis_2 6 s1) = Some f1 -> law_flow l (chg_basis_2 6 s2) = Some f2 ->
  0 <= ddot (fun i j => s1 i j - s2 i j) (fun i j => chg_basis_1 6 (fl_edotp6 f1) i j - chg_basis_1 6 (fl_edotp6 f2) i j).
Proof.
  intros S1 S2 G E1 E2. destruct l as [ss|m]; cbn [growing] in G.
  - assert (R : forall s, In s ss -> regular_slip s) by (intros s I; apply (G s I)). cbn [law_flow] in *. rewrite (rates_value ss _ R) in E1. rewrite (rates_value ss _ R) in E2. injection E1 as <-. injection E2 as <-. cbn [fl_edotp6].
    pose proof (slip_monotone ss (chg_basis_2 6 s1) (chg_basis_2 6 s2) G) as Q. rewrite ddot_comps by (intros i j I J; rewrite (S1 i j I J), (S2 i j I J); reflexivity).
    rewrite (S6_ext _ (fun k => (chg_basis_2 6 s1 k - chg_basis_2 6 s2 k) * (edotp6 (with_rates ss (chg_basis_2 6 s1)) k - edotp6 (with_rates ss (chg_basis_2 6 s2)) k))); [exact Q|].
    intros k K. rewrite !comps_sub, !cb2. f_equal. f_equal; (rewrite (comps_ext _ (expand (edotp6 (with_rates ss _)))) by (intros; apply cb1); rewrite comps_expand by exact K; reflexivity).
  - destruct G as (R & H1 & H2). apply (C127_monotone m s1 s2 _ _ R S1 S2 H1 H2); unfold plastic_rate; [rewrite E1|rewrite E2]; reflexivity.
Qed.

(* At most one stress obeys the law of the material. *)
Theorem C126_unique cg66 L sgt tdot l s1 s2 f1 f2 : pos6 cg66 -> 0 < tdot -> symmetric s1 -> symmetric s2 -> growing l s1 s2 ->
  law_flow l (chg_basis_2 6 s1) = Some f1 -> law_flow l (chg_basis_2 6 s2) = Some f2 ->
  rate_law (chg_basis_3 6 cg66) (chg_basis_1 6 (fl_edotp6 f1)) L sgt s1 tdot -> rate_law (chg_basis_3 6 cg66) (chg_basis_1 6 (fl_edotp6 f2)) L sgt s2 tdot ->
  forall i j, idx 3 i -> idx 3 j -> s1 i j = s2 i j.
Proof.
  intros P T S1 S2 G E1 E2 H1 H2 i j I J. pose proof (flow_monotone l s1 s2 f1 f2 S1 S2 G E1 E2) as M.
  set (e1 := chg_basis_1 6 (fl_edotp6 f1)) in *. set (e2 := chg_basis_1 6 (fl_edotp6 f2)) in *.
  set (e := fun a b => e1 a b - e2 a b) in *. set (s := fun a b => s1 a b - s2 a b) in *.
  assert (SE : forall a b, idx 3 a -> idx 3 b -> s a b = - tdot * act (chg_basis_3 6 cg66) e a b).
  { intros a b A B. unfold s. rewrite (H1 a b A B), (H2 a b A B).
    assert (Q : act (chg_basis_3 6 cg66) (fun x y => L x y - e1 x y) a b - act (chg_basis_3 6 cg66) (fun x y => L x y - e2 x y) a b = - act (chg_basis_3 6 cg66) e a b).
    { unfold act, e, S3. ring. }
    match type of Q with ?x - ?y = _ => transitivity (tdot * (x - y)); [ring|rewrite Q; ring] end. }
  assert (SS : symmetric s) by (intros a b A B; unfold s; rewrite (S1 a b A B), (S2 a b A B); reflexivity).
  assert (SC : forall n, idx 6 n -> comps s n = - tdot * mat_v cg66 (comps e) n).
  { intros n N. rewrite (comps_ext _ (fun a b => - tdot * expand (mat_v cg66 (comps e)) a b)) by (intros a b A B; rewrite SE by assumption; rewrite act_expand; reflexivity).
    assert (Q : comps (fun a b => - tdot * expand (mat_v cg66 (comps e)) a b) n = - tdot * comps (expand (mat_v cg66 (comps e))) n) by (unfold comps, S3; ring). rewrite Q, comps_expand by exact N. reflexivity. }
  assert (DD : ddot s e = - tdot * S6 (fun n => comps e n * mat_v cg66 (comps e) n)).
  { rewrite (ddot_comps _ _ SS), <- S6_scale. apply S6_ext. intros n N. rewrite SC by exact N. ring. }
  assert (EZ : forall n, idx 6 n -> comps e n = 0).
  { intros n N. destruct (Req_dec (comps e n) 0) as [|NZ]; [assumption|]. exfalso. pose proof (P (comps e) ltac:(exists n; split; assumption)) as Q.
    assert (Q2 : 0 < S6 (fun m => comps e m * mat_v cg66 (comps e) m)). { eapply Rlt_le_trans; [exact Q|]. right. apply S6_ext. intros a A. unfold mat_v. rewrite <- S6_scale. apply S6_ext. intros; ring. }
    rewrite DD in M. nra. }
  assert (Z : s i j = 0).
  { rewrite <- (expand_comps_sym s i j SS I J). rewrite (expand_ext _ (fun _ => 0)); [unfold expand, S6; ring|]. intros n N. rewrite SC by exact N.
    rewrite (mat_v_ext _ (comps e) (fun _ => 0) n EZ). unfold mat_v, S6. ring. }
  unfold s in Z. lra.
Qed.
Print Assumptions C126_unique.

(* ---------- the search along the step ---------- *)

(* The stress k halvings back from g towards o. *)
Definition back (o g : T1) (k : nat) : T1 := fun i => o i + (g i - o i) / 2 ^ k.
Definition worse (p : lpoint) (r : R) (g : T1) : Prop := exists t, evaluate p g = Some t /\ r < t_resn t.

Lemma back_zero o g : back o g 0 = g.
Proof. apply functional_extensionality. intros i. unfold back. cbn [pow]. field. Qed.
Lemma back_next o g k : back o (back o g 1) k = back o g (S k).
Proof. apply functional_extensionality. intros i. unfold back. cbn [pow]. field. apply pow_nonzero. lra. Qed.
Lemma back_half o g : (fun ii => o ii + (g ii - o ii) * (1 / 2)) = back o g 1.
Proof. apply functional_extensionality. intros i. unfold back. cbn [pow]. field. Qed.

Lemma cuts_one p r o g : cuts 1 p (Some r) (Some o) g = match evaluate p g with Some t => if Rlt_dec r (t_resn t) then Some (back o g 1, t, r) else Some (g, t, r) | None => None end.
Proof. rewrite <- back_half. reflexivity. Qed.
Lemma cuts_more n p r o g : cuts (S (S n)) p (Some r) (Some o) g = match evaluate p g with Some t => if Rlt_dec r (t_resn t) then cuts (S n) p (Some r) (Some o) (back o g 1) else Some (g, t, r) | None => None end.
Proof. rewrite <- back_half. reflexivity. Qed.

Lemma cuts_spec n p r o g x t old : cuts (S n) p (Some r) (Some o) g = Some (x, t, old) ->
  old = r /\ ((exists k, (k <= n)%nat /\ x = back o g k /\ evaluate p x = Some t /\ t_resn t <= r /\ forall j, (j < k)%nat -> worse p r (back o g j)) \/
             (x = back o g (S n) /\ evaluate p (back o g n) = Some t /\ forall j, (j <= n)%nat -> worse p r (back o g j))).
Proof.
  revert g. induction n as [|n IH]; intros g H; [rewrite cuts_one in H|rewrite cuts_more in H]; destruct (evaluate p g) as [t1|] eqn:E; try discriminate.
  - destruct (Rlt_dec r (t_resn t1)) as [L|L]; injection H as <- <- <-; (split; [reflexivity|]).
    + right. split; [reflexivity|]. rewrite back_zero. split; [exact E|]. intros j J. replace j with 0%nat by lia. rewrite back_zero. exists t1. split; assumption.
    + left. exists 0%nat. rewrite back_zero. split; [lia|]. split; [reflexivity|]. split; [exact E|]. split; [lra|]. intros j J. lia.
  - destruct (Rlt_dec r (t_resn t1)) as [L|L].
    + destruct (IH _ H) as (Q & [(k & K & X & V & B & W)|(X & V & W)]); (split; [exact Q|]).
      * left. exists (S k). split; [lia|]. rewrite <- (back_next o g k). split; [exact X|]. split; [exact V|]. split; [exact B|]. intros j J. destruct j as [|j]; [rewrite back_zero; exists t1; split; assumption|]. rewrite <- (back_next o g j). apply W. lia.
      * right. rewrite <- (back_next o g (S n)), <- (back_next o g n). split; [exact X|]. split; [exact V|]. intros j J. destruct j as [|j]; [rewrite back_zero; exists t1; split; assumption|]. rewrite <- (back_next o g j). apply W. lia.
    + injection H as <- <- <-. split; [reflexivity|]. left. exists 0%nat. rewrite back_zero. split; [lia|]. split; [reflexivity|]. split; [exact E|]. split; [lra|]. intros j J. lia.
Qed.

(* C126: of the stresses reached by halving a step up to nine times the first whose
   residual is not larger is taken; if there is none, the step halved ten times. *)
Theorem C126_line_search p r o g x t old : cuts 10 p (Some r) (Some o) g = Some (x, t, old) ->
  (exists k, (k < 10)%nat /\ x = back o g k /\ evaluate p x = Some t /\ t_resn t <= r /\ forall j, (j < k)%nat -> worse p r (back o g j)) \/
  (x = back o g 10 /\ evaluate p (back o g 9) = Some t /\ forall j, (j < 10)%nat -> worse p r (back o g j)).
Proof.
  intros H. destruct (cuts_spec 9 p r o g x t old H) as (_ & [(k & K & Q)|(X & E & W)]); [left; exists k; split; [lia|exact Q]|right; split; [exact X|]; split; [exact E|]]. intros j J. apply W. lia.
Qed.
Print Assumptions C126_line_search.

(* An iteration of the outer loop, from what the one before left: the stress and the
   residual it is measured against, to the stress it steps from, its turn and the new
   stress. *)
Lemma first_turn p g x t old : cuts 10 p None None g = Some (x, t, old) -> x = g /\ evaluate p g = Some t.
Proof.
  cbn [cuts]. destruct (evaluate p g) as [t1|]; [|discriminate]. destruct (Rlt_dec (t_resn t1) (t_resn t1)); [lra|]. intros H. injection H as <- <- <-. split; reflexivity.
Qed.

Definition exhausted (p : lpoint) : Prop := exists o g r, forall k, (k < 10)%nat -> worse p r (back o g k).

Lemma resn_pos p g t : evaluate p g = Some t -> 0 <= t_resn t.
Proof. unfold evaluate. destruct (Req_EM_T _ 0); [discriminate|]. destruct (law_flow _ g); [|discriminate]. intros H. injection H as <-. cbn [t_resn]. apply sqrt_pos. Qed.

Definition turn (p : lpoint) (before : option (T1 * R * trial)) (sg6 : T1) : option (T1 * trial * R) :=
  match before with
  | None => cuts 10 p None None sg6
  | Some (o, r, t) => if Rlt_dec r (2 * r) then cuts 10 p (Some r) (Some o) sg6 else Some (sg6, t, r)
  end.
Lemma loop_one p s before g : ls_loop 1 p s before g = match turn p before g with None => None | Some (x, t, _) => Some {| o_sg6 := ls_step p t x; o_trial := t |} end.
Proof. reflexivity. Qed.
Lemma loop_more n p s before g : ls_loop (S (S n)) p s before g =
  match turn p before g with
  | None => None
  | Some (x, t, _) => if ls_goes_on s (change6 (ls_step p t x) x) then ls_loop (S n) p s (Some (x, t_resn t, t)) (ls_step p t x) else Some {| o_sg6 := ls_step p t x; o_trial := t |}
  end.
Proof. reflexivity. Qed.

Lemma loop_descent fuel p s : forall before sg6 o, ls_loop (S fuel) p s before sg6 = Some o ->
  match before with
  | None => exists t0, evaluate p sg6 = Some t0 /\ (t_resn (o_trial o) <= t_resn t0 \/ exhausted p)
  | Some (g, r, t) => r = t_resn t -> t_resn (o_trial o) <= r \/ exhausted p
  end.
Proof.
  induction fuel as [|fuel IH]; intros before sg6 o H; [rewrite loop_one in H|rewrite loop_more in H];
    (destruct (turn p before sg6) as [((x, t1), old)|] eqn:C; [|discriminate]);
    (assert (D : t_resn (o_trial o) <= t_resn t1 \/ exhausted p);
       [first [injection H as <-; left; cbn [o_trial]; lra | destruct (ls_goes_on _ _); [exact (IH _ _ _ H eq_refl)|injection H as <-; left; cbn [o_trial]; lra]]|]);
    (destruct before as [((g, r), t)|]; unfold turn in C;
     [ intros RT; assert (Q : t_resn t1 <= r \/ exhausted p) by
         (destruct (Rlt_dec r (2 * r)); [|injection C as <- <- <-; left; lra]; destruct (C126_line_search _ _ _ _ _ _ _ C) as [(k & _ & _ & _ & B & _)|(_ & _ & W)]; [left; exact B|right; exists g, sg6, r; exact W]);
       destruct Q as [Q|Q]; [|right; exact Q]; destruct D as [D|D]; [left; lra|right; exact D]
     | destruct (first_turn _ _ _ _ _ C) as (-> & E); exists t1; split; [exact E|exact D] ]).
Qed.

(* The iteration never ends farther from the law than it began, as measured by the
   residual at the last stress it evaluated, unless a step halved nine times was still
   worse than none. *)
Theorem C126_descent p s g o : ls_loop 100 p s None g = Some o -> exists t0, evaluate p g = Some t0 /\ (t_resn (o_trial o) <= t_resn t0 \/ exhausted p).
Proof. exact (loop_descent 99 p s None g o). Qed.
Print Assumptions C126_descent.

(* Every solid point of a phase with slip systems gets a stress. *)
Lemma evaluate_some p g ss : l_tdot p <> 0 -> l_law p = Slip ss -> (forall s, In s ss -> regular_slip s) -> exists t, evaluate p g = Some t.
Proof. intros Z E R. unfold evaluate. destruct (Req_EM_T _ 0); [contradiction|]. rewrite E. cbn [law_flow]. rewrite (rates_value ss g R). eexists. reflexivity. Qed.

Lemma cuts_some n p r o ss : l_tdot p <> 0 -> l_law p = Slip ss -> (forall s, In s ss -> regular_slip s) -> forall g, exists x, cuts (S n) p (Some r) (Some o) g = Some x.
Proof.
  intros Z E R. induction n as [|n IH]; intros g; destruct (evaluate_some p g ss Z E R) as (t & T); [rewrite cuts_one|rewrite cuts_more]; rewrite T; destruct (Rlt_dec r (t_resn t)); try (eexists; reflexivity). apply IH.
Qed.

Theorem C126_terminates cm cG cg66 L sgt sg tdot ss : tdot <> 0 -> (forall s, In s ss -> regular_slip s) -> exists r, ls_evpal cm cG cg66 L sgt sg tdot (Slip ss) = Some r.
Proof.
  intros Z R. unfold ls_evpal. cbv zeta. set (p := ls_point cm cG cg66 L sgt sg tdot (Slip ss)).
  assert (N : forall fuel s before g, exists o, ls_loop (S fuel) p s before g = Some o).
  { induction fuel as [|fuel IH]; intros s before g.
    - rewrite loop_one. unfold turn. destruct before as [((o, r), t)|].
      + destruct (Rlt_dec r (2 * r)); [destruct (cuts_some 9 p r o ss Z eq_refl R g) as (((x, t1), old) & C); rewrite C|]; eexists; reflexivity.
      + destruct (evaluate_some p g ss Z eq_refl R) as (t & T). cbn [cuts]. rewrite T. destruct (Rlt_dec (t_resn t) (t_resn t)); [lra|]. eexists. reflexivity.
    - rewrite loop_more. unfold turn. destruct before as [((o, r), t)|].
      + destruct (if Rlt_dec r (2 * r) then cuts 10 p (Some r) (Some o) g else Some (g, t, r)) as [((x, t1), old)|] eqn:C.
        * destruct (ls_goes_on _ _); [apply IH|eexists; reflexivity].
        * exfalso. destruct (Rlt_dec r (2 * r)); [|discriminate]. destruct (cuts_some 9 p r o ss Z eq_refl R g) as (y & C'). rewrite C' in C. discriminate.
      + destruct (evaluate_some p g ss Z eq_refl R) as (t & T). cbn [cuts]. rewrite T. destruct (Rlt_dec (t_resn t) (t_resn t)); [lra|]. destruct (ls_goes_on _ _); [apply IH|eexists; reflexivity]. }
  destruct (N 99%nat (sqrt (sum1 3 (fun i => sum1 3 (fun j => sg i j * sg i j)))) None (chg_basis_2 6 sg)) as (o & E). rewrite E. eexists. reflexivity.
Qed.
Print Assumptions C126_terminates.

(* A phase without slip systems gets none where the iteration starts from a pressure,
   or from no stress. *)
Theorem C126_pressure_refuted cm cG cg66 L sgt tdot m q : ls_evpal cm cG cg66 L sgt (fun i j => q * d i j) tdot (J2 m) = None.
Proof.
  unfold ls_evpal. cbv zeta. set (p := ls_point _ _ _ _ _ _ _ _). assert (E : evaluate p (chg_basis_2 6 (fun i j => q * d i j)) = None).
  { unfold evaluate. destruct (Req_EM_T _ 0); [reflexivity|]. change (l_law p) with (J2 m). rewrite C127_zero_refuted. reflexivity. }
  cbn [ls_loop cuts]. rewrite E. reflexivity.
Qed.
Print Assumptions C126_pressure_refuted.

(* The stress returned is a step from a stress g, with the flow of the last turn; unless
   a hundred iterations were used up the step is at most 1e-10 of the stress at the
   start. *)
Theorem C126_accuracy cm cG cg66 L sgt sg tdot l sg' edotp gam : ls_evpal cm cG cg66 L sgt sg tdot l = Some (sg', edotp, gam) ->
  let p := ls_point cm cG cg66 L sgt sg tdot l in
  exists k g t, (k < 100)%nat /\ sg' = chg_basis_1 6 (ls_step p t g) /\ edotp = chg_basis_1 6 (fl_edotp6 (t_flow t)) /\ gam = fl_gamdot (t_flow t) /\
    (evaluate p g = Some t \/ exhausted p \/ exists g0, evaluate p g0 = Some t /\ t_resn t = 0) /\
    (k = 99%nat \/ sqrt (S6 (fun i => (ls_step p t g i - g i) * (ls_step p t g i - g i))) <= sqrt (S3 (fun i => S3 (fun j => sg i j * sg i j))) / 10 ^ 10).
Proof.
  intros H p. unfold ls_evpal in H. cbv zeta in H. fold p in H.
  assert (E3 : sum1 3 (fun i => sum1 3 (fun j => sg i j * sg i j)) = S3 (fun i => S3 (fun j => sg i j * sg i j))).
  { rewrite sum1_3. unfold S3. rewrite !sum1_3. reflexivity. }
  rewrite E3 in H. set (s := sqrt (S3 _)) in *. assert (S0 : 0 <= s) by apply sqrt_pos.
  assert (GO : forall c, ls_goes_on s c = false -> c <= s / 10 ^ 10).
  { intros c G. unfold ls_goes_on in G. assert (T : 0 < 10 ^ 10) by (apply pow_lt; lra). clearbody s. destruct (Req_EM_T s 0) as [Z|Z].
    - destruct (Rlt_dec 0 c); [discriminate|]. rewrite Z. unfold Rdiv. rewrite Rmult_0_l. lra.
    - destruct (Rlt_dec (1 / 10 ^ 10) (c / s)) as [|NL]; [discriminate|]. apply Rnot_lt_le in NL. revert NL T. generalize (10 ^ 10). intros t NL T.
      apply (Rmult_le_compat_r s) in NL; [|exact S0]. replace (c / s * s) with c in NL by (field; exact Z). replace (s / t) with (1 / t * s) by (field; lra). exact NL. }
  assert (LP : forall fuel before g0 o, (forall g r t, before = Some (g, r, t) -> r = t_resn t /\ 0 <= r /\ ((exists y, evaluate p y = Some t) \/ exhausted p)) -> ls_loop (S fuel) p s before g0 = Some o ->
    exists k g, (k <= fuel)%nat /\ o_sg6 o = ls_step p (o_trial o) g /\ (evaluate p g = Some (o_trial o) \/ exhausted p \/ exists y, evaluate p y = Some (o_trial o) /\ t_resn (o_trial o) = 0) /\
      (k = fuel \/ change6 (o_sg6 o) g <= s / 10 ^ 10)).
  { induction fuel as [|fuel IH]; intros before g0 o B E; [rewrite loop_one in E|rewrite loop_more in E].
    - destruct (turn p before g0) as [((x, t1), old)|] eqn:C; [|discriminate]. unfold turn in C. injection E as <-. cbn [o_sg6 o_trial]. exists 0%nat, x. split; [lia|]. split; [reflexivity|]. split; [|left; reflexivity].
      destruct before as [((o, r), t)|].
      + destruct (B _ _ _ eq_refl) as (B1 & B2 & B3). destruct (Rlt_dec r (2 * r)) as [L0|L0].
        * destruct (C126_line_search _ _ _ _ _ _ _ C) as [(k & _ & X & V & _)|(_ & _ & W)]; [left; exact V|right; left; exists o, g0, r; exact W].
        * injection C as <- <- <-. destruct B3 as [(y & Y)|Y]; [right; right; exists y; split; [exact Y|lra]|right; left; exact Y].
      + destruct (first_turn _ _ _ _ _ C) as (-> & V). left. exact V.
    - destruct (turn p before g0) as [((x, t1), old)|] eqn:C; [|discriminate]. unfold turn in C.
      assert (V : evaluate p x = Some t1 \/ exhausted p \/ exists y, evaluate p y = Some t1 /\ t_resn t1 = 0).
      { destruct before as [((o', r), t)|].
        - destruct (B _ _ _ eq_refl) as (B1 & B2 & B3). destruct (Rlt_dec r (2 * r)) as [L0|L0].
          + destruct (C126_line_search _ _ _ _ _ _ _ C) as [(k & _ & X & V & _)|(_ & _ & W)]; [left; exact V|right; left; exists o', g0, r; exact W].
          + injection C as <- <- <-. destruct B3 as [(y & Y)|Y]; [right; right; exists y; split; [exact Y|lra]|right; left; exact Y].
        - destruct (first_turn _ _ _ _ _ C) as (-> & V). left. exact V. }
      assert (P1 : 0 <= t_resn t1).
      { destruct before as [((o', r), t)|].
        - destruct (B _ _ _ eq_refl) as (B1 & B2 & B3). destruct (Rlt_dec r (2 * r)) as [L0|L0]; [|injection C as <- <- <-; lra].
          destruct (C126_line_search _ _ _ _ _ _ _ C) as [(k & _ & X & V' & _)|(_ & V' & W)]; exact (resn_pos _ _ _ V').
        - destruct (first_turn _ _ _ _ _ C) as (-> & V'). exact (resn_pos _ _ _ V'). }
      destruct (ls_goes_on _ _) eqn:G.
      + destruct (IH (Some (x, t_resn t1, t1)) _ _ ltac:(intros g r t Q; injection Q as <- <- <-; split; [reflexivity|]; split; [exact P1|]; destruct V as [V|[V|(y & V & _)]]; [left; exists x; exact V|right; exact V|left; exists y; exact V]) E) as (k & g & K1 & K2 & K3 & K4).
        exists (S k), g. split; [lia|]. split; [exact K2|]. split; [exact K3|]. destruct K4; [left; lia|right; assumption].
      + injection E as <-. cbn [o_sg6 o_trial]. exists 0%nat, x. split; [lia|]. split; [reflexivity|]. split; [exact V|]. right. apply GO. exact G. }
  destruct (ls_loop 100 p s None (chg_basis_2 6 sg)) as [o|] eqn:E; [|discriminate]. injection H as H1 H2 H3. destruct (LP 99%nat None _ o ltac:(intros; discriminate) E) as (k & g & K1 & K2 & K3 & K4).
  exists k, g, (o_trial o). split; [lia|]. split; [rewrite <- K2; symmetry; exact H1|]. split; [symmetry; exact H2|]. split; [symmetry; exact H3|]. split; [exact K3|].
  destruct K4 as [K4|K4]; [left; exact K4|right]. rewrite <- K2. unfold change6 in K4. rewrite sum1_6 in K4. exact K4.
Qed.
Print Assumptions C126_accuracy.

(* Only the rate of deformation counts, not the spin. *)
Theorem C126_spin cm cG cg66 L W sgt sg tdot l : antisymmetric W ->
  ls_evpal cm cG cg66 (fun i j => L i j + W i j) sgt sg tdot l = ls_evpal cm cG cg66 L sgt sg tdot l.
Proof.
  intros A. unfold ls_evpal. cbv zeta. replace (ls_point cm cG cg66 (fun i j => L i j + W i j) sgt sg tdot l) with (ls_point cm cG cg66 L sgt sg tdot l); [reflexivity|].
  unfold ls_point. f_equal. apply functional_extensionality. intros n. rewrite !cb2. apply comps_ext. intros i j I J. rewrite (A i j I J). field.
Qed.
Print Assumptions C126_spin.

Lemma met_R : forall s, In s [met_slip] -> regular_slip s.
Proof. intros s [<-|[]]; unfold regular_slip; cbn; repeat split; solve [lia|lra]. Qed.
Lemma met_resolved : resolved met_slip (chg_basis_2 6 met_sg) = 1.
Proof. unfold resolved. cbn [sl_sch met_slip Nat.eqb]. rewrite !cb2, !met_comps by (unfold idx; lia). unfold d. cbn [Nat.eqb]. ring. Qed.

Example C126_met : exists L fl, pos6 d /\ symmetric met_sg /\ symmetric (fun _ _ => 0) /\ growing (Slip [met_slip]) met_sg met_sg /\ smooth_at (Slip [met_slip]) (chg_basis_2 6 met_sg) /\
  law_flow (Slip [met_slip]) (chg_basis_2 6 met_sg) = Some fl /\ fl_edotp6 fl 1%nat <> 0 /\
  rate_law (chg_basis_3 6 d) (chg_basis_1 6 (fl_edotp6 fl)) (sym_part L) (fun _ _ => 0) met_sg 1.
Proof.
  set (rs := with_rates [met_slip] (chg_basis_2 6 met_sg)).
  exists (fun i j => met_sg i j + chg_basis_1 6 (edotp6 rs) i j). eexists. split; [exact pos6_d|].
  assert (SS : symmetric met_sg) by (intros i j _ _; apply basis_sym). split; [exact SS|]. split; [intros i j _ _; reflexivity|].
  split; [intros s I; split; [exact (met_R s I)|]; destruct I as [<-|[]]; cbn [sl_gamd0 met_slip]; lra|].
  split; [intros s I; split; [exact (met_R s I)|]; destruct I as [<-|[]]; left; cbn [sl_nrs met_slip]; lia|].
  cbn [law_flow]. rewrite (rates_value _ _ met_R). split; [reflexivity|]. cbn [fl_edotp6]. fold rs. split.
  - unfold rs. rewrite edotp6_sum. cbn [Nat.leb suml fold_right]. rewrite met_resolved. unfold rate_of, power_law. cbn [sl_sch met_slip Nat.eqb sl_gamd0 sl_nrs sl_crss1 sl_crss2 sl_xkin Z.to_nat Pos.to_nat Pos.iter_op Nat.add].
    destruct (Rlt_dec (1 - 0) 0); [lra|]. unfold Pos.to_nat. cbn [Pos.iter_op Nat.add pow]. replace _ with 1 by field; lra.
  - intros i j I J. rewrite act_expand. match goal with |- _ = _ + _ * expand (mat_v d (comps ?Y)) i j => set (X := Y) end.
    rewrite (expand_ext _ (comps X)).
    + assert (SX : forall a b, idx 3 a -> idx 3 b -> X a b = met_sg a b).
      { intros a b A B. unfold X, sym_part. rewrite (SS b a B A), !cb1, (expand_sym (edotp6 rs) b a B A). field. }
      rewrite (expand_ext _ (comps met_sg)); [rewrite expand_comps_sym by assumption; ring|]. intros n _. apply comps_ext. exact SX.
    + intros n N. unfold mat_v. rewrite S6_d' by exact N. reflexivity.
Qed.

(* The matrix is regular at a point that flows along its slip system. *)
Example C126_regular_met : exists t, evaluate (ls_point d (fun _ _ => 0) d met_sg (fun _ _ => 0) met_sg 1 (Slip [met_slip])) (chg_basis_2 6 met_sg) = Some t /\
  leading_regular 6 (fun i j => ls_jacobian (ls_point d (fun _ _ => 0) d met_sg (fun _ _ => 0) met_sg 1 (Slip [met_slip])) (fl_dedotp66 (t_flow t)) (S j) (S i)).
Proof.
  set (p := ls_point _ _ _ _ _ _ _ _). eexists. split; [apply evaluate_value; [change (l_tdot p) with 1; lra|cbn [p ls_point l_law law_flow]; rewrite (rates_value _ _ met_R); reflexivity]|].
  cbn [t_flow fl_dedotp66]. apply positive_leading.
  assert (J : forall a b, idx 6 a -> idx 6 b -> ls_jacobian p (dedotp66 (with_rates [met_slip] (chg_basis_2 6 met_sg))) a b = if (a =? b)%nat then if (a =? 1)%nat then 5 else 2 else 0).
  { intros a b A B. unfold ls_jacobian. rewrite sum1_6, kron_d6 by assumption. cbn [l_c066 l_sg66 l_tdot l_cG p ls_point]. rewrite S6_d' by exact A.
    pose proof (proj1 (inverted6 d pos6_d a b A B)) as V. rewrite S6_d' in V by exact A. rewrite V.
    rewrite dedotp66_sum. cbn [suml fold_right]. rewrite met_resolved. unfold slope_of, law_slope. cbn [sl_sch met_slip sl_gamd0 sl_nrs sl_crss1 sl_crss2 sl_xkin Z.to_nat Pos.to_nat Pos.iter_op Nat.add Nat.sub INR pow].
    destruct (Rlt_dec (1 - 0) 0); [lra|]. change (Pos.to_nat 3) with 3%nat. cbn [INR Nat.sub pow]. all6 A; all6 B; unfold d; cbn [Nat.eqb Nat.leb andb]; lra. }
  intros x (i & I & X).
  assert (E : sumn 6 (fun i => sumn 6 (fun j => x i * ls_jacobian p (dedotp66 (with_rates [met_slip] (chg_basis_2 6 met_sg))) (S j) (S i) * x j)) =
    5 * (x 0%nat * x 0%nat) + 2 * (x 1%nat * x 1%nat) + 2 * (x 2%nat * x 2%nat) + 2 * (x 3%nat * x 3%nat) + 2 * (x 4%nat * x 4%nat) + 2 * (x 5%nat * x 5%nat)).
  { cbn [sumn]. rewrite !J by (unfold idx; lia). cbn [Nat.eqb]. ring. }
  rewrite E. assert (forall k, 0 <= x k * x k) as Q by (intros; nra). assert (0 < x i * x i) by nra.
  pose proof (Q 0%nat). pose proof (Q 1%nat). pose proof (Q 2%nat). pose proof (Q 3%nat). pose proof (Q 4%nat). pose proof (Q 5%nat).
  do 6 (destruct i as [|i]; [lra|]). lia.
Qed.
