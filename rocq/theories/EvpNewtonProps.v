(* The local iteration for the stress: C112. *)
From Coq Require Import Reals List Arith Lia Lra ZArith FunctionalExtensionality.
From Verif Require Import BaseReal LinModel LinSpec LinProofs EvpModel EvpFlowModel EvpSpec EvpFlowSpec EvpBasis EvpElast EvpSlip.
Import ListNotations.
Local Open Scope R_scope.

Lemma kron_d6 i j : idx 6 i -> idx 6 j -> kron i j = d i j.
Proof. intros I J. all6 I; all6 J; reflexivity. Qed.

Lemma S6_list f : S6 f = suml f [1; 2; 3; 4; 5; 6]%nat.
Proof. unfold S6, suml. cbn [fold_right]. ring. Qed.

(* The residual the iteration drives to zero, as a function of the stress. *)
Definition residual_at (p : point) (sg6 : T1) (ii : nat) : option R :=
  match shear_rates (p_slip p) sg6 with
  | Some rs => Some (residual p (strainceq6 p (edotp6 rs) sg6) sg6 ii)
  | None => None
  end.

Definition regular_slip (s : slip) : Prop := (1 <= sl_nrs s < 2147483648)%Z /\ 0 < sl_crss1 s /\ 0 < sl_crss2 s.

Lemma ed_line ss sg6 h k : idx 6 k -> (forall s, In s ss -> regular_slip s) -> (forall s, In s ss -> (2 <= sl_nrs s)%Z \/ resolved s sg6 <> sl_xkin s) ->
  derivable_pt_lim (fun t => edotp6 (with_rates ss (fun i => sg6 i + t * h i)) k) 0 (S6 (fun jj => dedotp66 (with_rates ss sg6) k jj * h jj)).
Proof.
  intros K R N. apply (lim_ext (fun t => if Nat.leb k 5 then suml (fun s => sl_sch s k * rate_of s (resolved s (fun i => sg6 i + t * h i))) ss else 0));
    [intros t; rewrite edotp6_sum; reflexivity|].
  replace (S6 (fun jj => dedotp66 (with_rates ss sg6) k jj * h jj)) with (if Nat.leb k 5 then suml (fun s => sl_sch s k * (slope_of s (resolved s sg6) * resolved s h)) ss else 0).
  - destruct (Nat.leb k 5); [|apply derivable_pt_lim_const].
    apply (suml_lim (fun s t => sl_sch s k * rate_of s (resolved s (fun i => sg6 i + t * h i)))). intros s I.
    apply (derivable_pt_lim_scal (fun t => rate_of s (resolved s (fun i => sg6 i + t * h i)))). apply rate_line; [exact (R s I)|exact (N s I)].
  - unfold S6. rewrite !dedotp66_sum. cbn [Nat.leb]. rewrite Bool.andb_false_r. destruct (Nat.leb k 5); cbn [andb]; [|ring].
    clear. induction ss as [|s l IH]; [unfold suml; cbn [fold_right]; ring|]. rewrite !suml_cons, IH. unfold resolved. ring.
Qed.

Lemma S6_plus f g : S6 (fun i => f i + g i) = S6 f + S6 g.
Proof. unfold S6. ring. Qed.
Lemma S6_scale c f : S6 (fun i => c * f i) = c * S6 f.
Proof. unfold S6. ring. Qed.
Lemma S6_swap (f : nat -> nat -> R) : S6 (fun i => S6 (fun j => f i j)) = S6 (fun j => S6 (fun i => f i j)).
Proof. unfold S6. ring. Qed.

Definition elastic_part (p : point) (sg6 : T1) : T1 := mat_v (p_sg66 p) sg6.

Lemma residual_split p ed sg6 ii : residual p (strainceq6 p ed sg6) sg6 ii =
  (sg6 ii - p_xlambda6 p ii + S6 (fun jj => p_c066 p ii jj * (p_ept6 p jj - p_strain6 p jj))) + S6 (fun jj => p_c066 p ii jj * elastic_part p sg6 jj) + p_tdot p * S6 (fun jj => p_c066 p ii jj * ed jj).
Proof.
  unfold residual. rewrite sum1_6.
  rewrite (S6_ext _ (fun jj => p_c066 p ii jj * (p_ept6 p jj - p_strain6 p jj) + (p_c066 p ii jj * elastic_part p sg6 jj + p_tdot p * (p_c066 p ii jj * ed jj)))).
  - rewrite !S6_plus, S6_scale. ring.
  - intros jj _. unfold strainceq6. rewrite sum1_6. change (S6 (fun j => p_sg66 p jj j * sg6 j)) with (elastic_part p sg6 jj). ring.
Qed.

(* The slope of the residual in the direction h. *)
Lemma residual_line p sg6 h ii : idx 6 ii -> (forall s, In s (p_slip p) -> regular_slip s) -> (forall s, In s (p_slip p) -> (2 <= sl_nrs s)%Z \/ resolved s sg6 <> sl_xkin s) ->
  derivable_pt_lim (fun t => residual p (strainceq6 p (edotp6 (with_rates (p_slip p) (fun i => sg6 i + t * h i))) (fun i => sg6 i + t * h i)) (fun i => sg6 i + t * h i) ii) 0
    (S6 (fun jj => jacobian p (dedotp66 (with_rates (p_slip p) sg6)) ii jj * h jj)).
Proof.
  intros I R N. set (de := dedotp66 (with_rates (p_slip p) sg6)).
  assert (J : S6 (fun jj => jacobian p de ii jj * h jj) = (h ii + S6 (fun jj => p_c066 p ii jj * elastic_part p h jj)) + p_tdot p * S6 (fun k => p_c066 p ii k * S6 (fun jj => de k jj * h jj))).
  { rewrite (S6_ext _ (fun jj => d ii jj * h jj + (S6 (fun k => p_c066 p ii k * (p_sg66 p k jj * h jj)) + p_tdot p * S6 (fun k => p_c066 p ii k * (de k jj * h jj))))).
    - rewrite !S6_plus, S6_scale, S6_d' by exact I. rewrite (S6_swap (fun jj k => p_c066 p ii k * (p_sg66 p k jj * h jj))), (S6_swap (fun jj k => p_c066 p ii k * (de k jj * h jj))).
      rewrite (S6_ext (fun j => S6 (fun i => p_c066 p ii j * (p_sg66 p j i * h i))) (fun j => p_c066 p ii j * elastic_part p h j)) by (intros; rewrite S6_scale; reflexivity).
      rewrite (S6_ext (fun j => S6 (fun i => p_c066 p ii j * (de j i * h i))) (fun k => p_c066 p ii k * S6 (fun jj => de k jj * h jj))) by (intros; rewrite S6_scale; reflexivity). ring.
    - intros jj Hj. unfold jacobian. rewrite sum1_6, kron_d6 by assumption.
      rewrite (S6_ext _ (fun k => p_c066 p ii k * p_sg66 p k jj + p_tdot p * (p_c066 p ii k * de k jj))) by (intros; ring). rewrite S6_plus, S6_scale.
      rewrite (S6_ext (fun k => p_c066 p ii k * (p_sg66 p k jj * h jj)) (fun k => h jj * (p_c066 p ii k * p_sg66 p k jj))) by (intros; ring).
      rewrite (S6_ext (fun k => p_c066 p ii k * (de k jj * h jj)) (fun k => h jj * (p_c066 p ii k * de k jj))) by (intros; ring). rewrite !S6_scale. ring. }
  rewrite J.
  apply (lim_ext (fun t => ((sg6 ii - p_xlambda6 p ii + S6 (fun jj => p_c066 p ii jj * (p_ept6 p jj - p_strain6 p jj)) + S6 (fun jj => p_c066 p ii jj * elastic_part p sg6 jj))
      + (h ii + S6 (fun jj => p_c066 p ii jj * elastic_part p h jj)) * t)
    + p_tdot p * S6 (fun k => p_c066 p ii k * edotp6 (with_rates (p_slip p) (fun i => sg6 i + t * h i)) k))).
  - intros t. rewrite residual_split.
    rewrite (S6_ext (fun jj => p_c066 p ii jj * elastic_part p (fun i => sg6 i + t * h i) jj) (fun jj => p_c066 p ii jj * elastic_part p sg6 jj + t * (p_c066 p ii jj * elastic_part p h jj))).
    + rewrite S6_plus, S6_scale. ring.
    + intros jj _. assert (E : elastic_part p (fun i => sg6 i + t * h i) jj = elastic_part p sg6 jj + t * elastic_part p h jj) by (unfold elastic_part, mat_v, S6; ring). rewrite E. ring.
  - apply (derivable_pt_lim_plus (fun t => _ + _ * t) (fun t => p_tdot p * S6 (fun k => p_c066 p ii k * edotp6 (with_rates (p_slip p) (fun i => sg6 i + t * h i)) k))); [apply lin_slope|].
    apply (derivable_pt_lim_scal (fun t => S6 (fun k => p_c066 p ii k * edotp6 (with_rates (p_slip p) (fun i => sg6 i + t * h i)) k))). rewrite S6_list.
    apply (lim_ext (fun t => suml (fun k => p_c066 p ii k * edotp6 (with_rates (p_slip p) (fun i => sg6 i + t * h i)) k) [1; 2; 3; 4; 5; 6]%nat)); [intros; rewrite S6_list; reflexivity|].
    apply (suml_lim (fun k t => p_c066 p ii k * edotp6 (with_rates (p_slip p) (fun i => sg6 i + t * h i)) k)). intros k K.
    assert (K' : idx 6 k) by (unfold idx; cbn [In] in K; lia).
    apply (derivable_pt_lim_scal (fun t => edotp6 (with_rates (p_slip p) (fun i => sg6 i + t * h i)) k)). apply ed_line; assumption.
Qed.

(* C112: the matrix of the iteration is the derivative of the residual in every
   direction. *)
Theorem C112_tangent p sg6 rs h ii : (forall s, In s (p_slip p) -> regular_slip s) -> (forall s, In s (p_slip p) -> (2 <= sl_nrs s)%Z \/ resolved s sg6 <> sl_xkin s) ->
  shear_rates (p_slip p) sg6 = Some rs -> idx 6 ii ->
  exists f, (forall t, residual_at p (fun i => sg6 i + t * h i) ii = Some (f t)) /\ derivable_pt_lim f 0 (S6 (fun jj => jacobian p (dedotp66 rs) ii jj * h jj)).
Proof.
  intros R N E I. rewrite (rates_value _ _ R) in E. injection E as <-.
  eexists. split; [intros t; unfold residual_at; rewrite (rates_value _ _ R); reflexivity|]. exact (residual_line p sg6 h ii I R N).
Qed.
Print Assumptions C112_tangent.

(* ---------- fixed points ---------- *)

Lemma step_value p sg6 : (forall s, In s (p_slip p) -> regular_slip s) -> exists n, newton_step p sg6 = Some n.
Proof. intros R. unfold newton_step. rewrite (rates_value _ _ R). eexists. reflexivity. Qed.

Lemma step_zero p sg6 n : newton_step p sg6 = Some n -> (forall jj, idx 6 jj -> residual_at p sg6 jj = Some 0) -> forall ii, n_sg6 n ii = sg6 ii.
Proof.
  unfold newton_step, residual_at. destruct (shear_rates (p_slip p) sg6) as [rs|]; [|discriminate]. intros E Z ii. injection E as <-. cbn [n_sg6].
  rewrite sum1_6, (S6_ext _ (fun _ => 0)); [unfold S6; ring|]. intros jj J. specialize (Z jj J). injection Z as Z. rewrite Z. ring.
Qed.

Lemma step_fixed p sg6 n : newton_step p sg6 = Some n -> leading_regular 6 (fun i j => jacobian p (dedotp66 (n_rates n)) (S j) (S i)) ->
  (forall ii, idx 6 ii -> n_sg6 n ii = sg6 ii) -> forall jj, idx 6 jj -> residual_at p sg6 jj = Some 0.
Proof.
  unfold newton_step, residual_at. destruct (shear_rates (p_slip p) sg6) as [rs|]; [|discriminate]. intros E. injection E as <-. cbn [n_rates n_sg6].
  set (res := residual p (strainceq6 p (edotp6 rs) sg6) sg6). set (J := jacobian p (dedotp66 rs)). intros L F jj Hj.
  assert (V : forall a b, idx 6 a -> idx 6 b -> S6 (fun k => J a k * inverted 6 J k b) = d a b).
  { destruct (invert_leading 6 (fun _ => 0) (pack 6 J) _ (fholds_holds 6 (pack 6 J) J (pack_holds 6 J ltac:(lia))) L) as (r & B & E & HB & W).
    intros a b A Bb. unfold inverted. rewrite E. cbn [snd]. unfold unpack. unfold idx in A, Bb.
    destruct (W (b - 1)%nat (a - 1)%nat ltac:(lia) ltac:(lia)) as [_ W2]. rewrite sumn_S6 in W2.
    assert (DD : LinSpec.delta (b - 1) (a - 1) = d a b). { unfold LinSpec.delta, d. destruct (Nat.eqb_spec (b - 1) (a - 1)), (Nat.eqb_spec a b); try reflexivity; lia. }
    rewrite DD in W2. rewrite <- W2. apply S6_ext. intros k K. unfold idx in K.
    replace (k - 1 + (b - 1) * 6)%nat with ((b - 1) * 6 + (k - 1))%nat by lia. rewrite (HB (b - 1)%nat (k - 1)%nat) by lia.
    replace (S (a - 1)) with a by lia. replace (S (k - 1)) with k by lia. ring. }
  assert (Q : forall i, idx 6 i -> S6 (fun j => inverted 6 J i j * res j) = 0).
  { intros i I. specialize (F i I). rewrite sum1_6 in F.
    rewrite (S6_ext _ (fun j => -1 * (inverted 6 J i j * res j))) in F by (intros; ring). rewrite S6_scale in F. lra. }
  f_equal. transitivity (S6 (fun k => J jj k * S6 (fun m => inverted 6 J k m * res m))).
  - transitivity (S6 (fun m => S6 (fun k => J jj k * inverted 6 J k m) * res m)).
    + rewrite (S6_ext _ (fun m => d jj m * res m)) by (intros m M; rewrite V by assumption; reflexivity). symmetry. apply S6_d'. exact Hj.
    + unfold S6. ring.
  - rewrite (S6_ext _ (fun _ => 0)); [unfold S6; ring|]. intros k K. rewrite Q by exact K. ring.
Qed.

(* What the strain of a stress should be: elastic, plus the plastic strain so far,
   plus that of the step. *)
Definition constitutive (C : T4) (ept edotp strain sigma : T2) (tdot : R) : Prop :=
  forall i j, idx 3 i -> idx 3 j -> act C (fun a b => strain a b - ept a b - tdot * edotp a b) i j = sigma i j.

Lemma comps_lin A B C c n : comps (fun i j => A i j - B i j - c * C i j) n = comps A n - comps B n - c * comps C n.
Proof. unfold comps, S3. ring. Qed.

Lemma law_components c066 cg66 ept disgrad sg tdot ss rs : pos6 cg66 -> symmetric ept -> symmetric sg ->
  shear_rates ss (chg_basis_2 6 sg) = Some rs ->
  let p := make_point c066 cg66 ept disgrad sg tdot ss in
  (constitutive (chg_basis_3 6 cg66) ept (chg_basis_1 6 (edotp6 rs)) (sym_part disgrad) sg tdot <->
   forall n, idx 6 n -> strainceq6 p (edotp6 rs) (chg_basis_2 6 sg) n = p_strain6 p n).
Proof.
  intros P SE SS E p. pose proof (inverted6 cg66 P) as V.
  assert (CE : forall n, idx 6 n -> strainceq6 p (edotp6 rs) (chg_basis_2 6 sg) n = comps ept n + edotp6 rs n * tdot + mat_v (inverted 6 cg66) (comps sg) n).
  { intros n N. unfold strainceq6, p, make_point. cbn [p_ept6 p_tdot p_sg66]. rewrite sum1_6, cb2. unfold mat_v. f_equal. apply S6_ext. intros m M. rewrite cb2. reflexivity. }
  assert (ST : forall n, p_strain6 p n = comps (sym_part disgrad) n) by (intros; unfold p, make_point; cbn [p_strain6]; apply cb2).
  set (X := fun a b => sym_part disgrad a b - ept a b - tdot * chg_basis_1 6 (edotp6 rs) a b).
  assert (XC : forall n, idx 6 n -> comps X n = comps (sym_part disgrad) n - comps ept n - tdot * edotp6 rs n).
  { intros n N. unfold X. rewrite comps_lin. f_equal. f_equal. rewrite (comps_ext _ (expand (edotp6 rs))) by (intros; apply cb1). apply comps_expand. exact N. }
  unfold constitutive. split.
  - intros H n N. rewrite (CE n N), ST.
    assert (M : mat_v (inverted 6 cg66) (comps sg) n = comps X n).
    { rewrite (mat_v_ext _ (comps sg) (mat_v cg66 (comps X))).
      - destruct (mat_inverse cg66 (inverted 6 cg66) (comps X) n V N) as [_ Q]. exact Q.
      - intros m Hm. rewrite <- (comps_expand (mat_v cg66 (comps X)) m Hm). apply comps_ext. intros i j I J. rewrite <- (H i j I J). rewrite act_expand. reflexivity. }
    rewrite M, (XC n N). ring.
  - intros H i j I J. fold X. rewrite act_expand.
    rewrite (expand_ext _ (comps sg)); [apply expand_comps_sym; assumption|].
    intros n N. rewrite (mat_v_ext _ (comps X) (mat_v (inverted 6 cg66) (comps sg))).
    + destruct (mat_inverse cg66 (inverted 6 cg66) (comps sg) n V N) as [Q _]. exact Q.
    + intros m Hm. specialize (H m Hm). rewrite (CE m Hm), ST in H. rewrite (XC m Hm). lra.
Qed.

(* A stress that obeys the law of the material is left as it is, with its rates. *)
Theorem C112_solution_kept c066 cg66 ept disgrad sg tdot ss rs : pos6 cg66 -> symmetric ept -> symmetric sg ->
  shear_rates ss (chg_basis_2 6 sg) = Some rs ->
  constitutive (chg_basis_3 6 cg66) ept (chg_basis_1 6 (edotp6 rs)) (sym_part disgrad) sg tdot ->
  exists sg' edotp, evpal_point c066 cg66 ept disgrad sg tdot ss = Some (sg', edotp, map (fun r => snd (snd r)) rs) /\
    forall i j, idx 3 i -> idx 3 j -> sg' i j = sg i j /\ edotp i j = chg_basis_1 6 (edotp6 rs) i j.
Proof.
  intros P SE SS E H. set (p := make_point c066 cg66 ept disgrad sg tdot ss).
  pose proof (proj1 (law_components c066 cg66 ept disgrad sg tdot ss rs P SE SS E) H) as L. fold p in L.
  assert (Z : forall jj, idx 6 jj -> residual_at p (chg_basis_2 6 sg) jj = Some 0).
  { intros jj J. unfold residual_at. change (p_slip p) with ss. rewrite E. f_equal. unfold residual. rewrite sum1_6.
    change (p_xlambda6 p jj) with (chg_basis_2 6 sg jj). rewrite (S6_ext _ (fun _ => 0)); [unfold S6; ring|]. intros k K. rewrite (L k K). ring. }
  assert (ST : exists n, newton_step p (chg_basis_2 6 sg) = Some n /\ n_edotp6 n = edotp6 rs /\ n_rates n = rs).
  { unfold newton_step. change (p_slip p) with ss. rewrite E. eexists. split; [reflexivity|]. split; reflexivity. }
  destruct ST as (n & ST & NE & NR). pose proof (step_zero p _ n ST Z) as SZ.
  unfold evpal_point. cbv zeta. fold p. cbn [newton_loop]. rewrite ST.
  assert (G : forall s, goes_on s (sum1 6 (fun ii => (n_sg6 n ii - chg_basis_2 6 sg ii) * (n_sg6 n ii - chg_basis_2 6 sg ii))) = false).
  { intros s. replace (sum1 6 _) with 0 by (rewrite sum1_6; unfold S6; rewrite !SZ; ring). unfold goes_on. destruct (Req_EM_T s 0); [destruct (Rlt_dec 0 0); [lra|reflexivity]|].
    destruct (Rlt_dec (1 / 10 ^ 7) (0 / s)) as [C|]; [|reflexivity]. unfold Rdiv in C at 2. rewrite Rmult_0_l in C. exfalso. assert (0 < 1 / 10 ^ 7) by (apply Rdiv_lt_0_compat; [lra|apply pow_lt; lra]). lra. }
  rewrite G. eexists. eexists. rewrite NR. split; [reflexivity|]. intros i j I J. rewrite NE. split; [|reflexivity].
  rewrite cb1, (expand_ext _ (comps sg)); [apply expand_comps_sym; assumption|]. intros m _. rewrite SZ. apply cb2.
Qed.
Print Assumptions C112_solution_kept.

(* A stress a step leaves as it is obeys the law, where the matrix can be inverted in
   place. *)
Theorem C112_fixed_point c066 cg66 ept disgrad sg tdot ss n : pos6 c066 -> pos6 cg66 -> symmetric ept -> symmetric sg ->
  let p := make_point c066 cg66 ept disgrad sg tdot ss in
  newton_step p (chg_basis_2 6 sg) = Some n -> (forall ii, idx 6 ii -> n_sg6 n ii = chg_basis_2 6 sg ii) ->
  leading_regular 6 (fun i j => jacobian p (dedotp66 (n_rates n)) (S j) (S i)) ->
  constitutive (chg_basis_3 6 cg66) ept (chg_basis_1 6 (n_edotp6 n)) (sym_part disgrad) sg tdot.
Proof.
  intros PC P SE SS p ST F L. pose proof (step_fixed p _ n ST L F) as Z.
  assert (E : exists rs, shear_rates ss (chg_basis_2 6 sg) = Some rs /\ n_edotp6 n = edotp6 rs).
  { unfold newton_step in ST. change (p_slip p) with ss in ST. destruct (shear_rates ss (chg_basis_2 6 sg)) as [rs|]; [|discriminate]. injection ST as <-. exists rs. split; reflexivity. }
  destruct E as (rs & E & NE). rewrite NE. apply (proj2 (law_components c066 cg66 ept disgrad sg tdot ss rs P SE SS E)). fold p.
  set (y := fun k => strainceq6 p (edotp6 rs) (chg_basis_2 6 sg) k - p_strain6 p k).
  assert (Y : forall jj, idx 6 jj -> mat_v c066 y jj = 0).
  { intros jj J. specialize (Z jj J). unfold residual_at in Z. change (p_slip p) with ss in Z. rewrite E in Z. injection Z as Z. unfold residual in Z. rewrite sum1_6 in Z.
    change (p_xlambda6 p jj) with (chg_basis_2 6 sg jj) in Z. change (p_c066 p) with c066 in Z. unfold mat_v, y. lra. }
  intros k K. destruct (Req_dec (y k) 0) as [|NZ]; [unfold y in *; lra|]. exfalso.
  pose proof (PC y ltac:(exists k; split; assumption)) as Q. rewrite (S6_ext _ (fun _ => 0)) in Q; [unfold S6 in Q; lra|].
  intros a A. transitivity (y a * mat_v c066 y a); [unfold mat_v; rewrite <- S6_scale; apply S6_ext; intros; ring|]. rewrite Y by exact A. ring.
Qed.
Print Assumptions C112_fixed_point.

(* Every solid point gets a stress, within a hundred iterations. *)
Theorem C112_terminates c066 cg66 ept disgrad sg tdot ss : (forall s, In s ss -> regular_slip s) -> exists r, evpal_point c066 cg66 ept disgrad sg tdot ss = Some r.
Proof.
  intros R. unfold evpal_point. cbv zeta. set (p := make_point c066 cg66 ept disgrad sg tdot ss).
  assert (N : forall fuel s g, exists n, newton_loop (S fuel) p s g = Some n).
  { induction fuel as [|fuel IH]; intros s g; destruct (step_value p g R) as (n & E); cbn [newton_loop]; rewrite E; [exists n; reflexivity|].
    destruct (goes_on _ _); [|exists n; reflexivity]. destruct (IH s (n_sg6 n)) as (n' & E'). cbn [newton_loop] in E'. exists n'. exact E'. }
  destruct (N 99%nat (sqrt (sum1 3 (fun i => sum1 3 (fun j => sg i j * sg i j)))) (chg_basis_2 6 sg)) as (n & E). rewrite E. eexists. reflexivity.
Qed.
Print Assumptions C112_terminates.

(* The stress returned is that of the last of a number k of steps; unless these are a
   hundred, the square of the last change is at most 1e-7 of the stress at the start. *)
Fixpoint steps (p : point) (k : nat) (g : T1) : option T1 :=
  match k with O => Some g | S k => match newton_step p g with Some n => steps p k (n_sg6 n) | None => None end end.
Theorem C112_accuracy c066 cg66 ept disgrad sg tdot ss sg' edotp gam : evpal_point c066 cg66 ept disgrad sg tdot ss = Some (sg', edotp, gam) ->
  let p := make_point c066 cg66 ept disgrad sg tdot ss in
  exists k g n, (k < 100)%nat /\ steps p k (chg_basis_2 6 sg) = Some g /\ newton_step p g = Some n /\ sg' = chg_basis_1 6 (n_sg6 n) /\ edotp = chg_basis_1 6 (n_edotp6 n) /\
    (k = 99%nat \/ S6 (fun i => (n_sg6 n i - g i) * (n_sg6 n i - g i)) <= sqrt (S3 (fun i => S3 (fun j => sg i j * sg i j))) / 10 ^ 7).
Proof.
  intros H p. unfold evpal_point in H. cbv zeta in H. fold p in H.
  assert (E3 : sum1 3 (fun i => sum1 3 (fun j => sg i j * sg i j)) = S3 (fun i => S3 (fun j => sg i j * sg i j))).
  { rewrite sum1_3. unfold S3. rewrite !sum1_3. reflexivity. }
  rewrite E3 in H. set (s := sqrt _) in *. assert (S0 : 0 <= s) by apply sqrt_pos.
  assert (L : forall fuel g0 n, newton_loop (S fuel) p s g0 = Some n -> exists k g, (k <= fuel)%nat /\ steps p k g0 = Some g /\ newton_step p g = Some n /\
    (k = fuel \/ S6 (fun i => (n_sg6 n i - g i) * (n_sg6 n i - g i)) <= s / 10 ^ 7)).
  { induction fuel as [|fuel IH]; intros g0 n E; cbn [newton_loop] in E; destruct (newton_step p g0) as [n1|] eqn:E1; try discriminate.
    - injection E as <-. exists 0%nat, g0. repeat split; auto.
    - destruct (goes_on _ _) eqn:G.
      + destruct (IH _ _ E) as (k & g & K1 & K2 & K3 & K4). exists (S k), g. split; [lia|]. split; [cbn [steps]; rewrite E1; exact K2|]. split; [exact K3|]. destruct K4; [left; lia|right; assumption].
      + injection E as <-. exists 0%nat, g0. split; [lia|]. split; [reflexivity|]. split; [exact E1|]. right. rewrite sum1_6 in G. unfold goes_on in G.
        set (q := S6 (fun ii => (n_sg6 n1 ii - g0 ii) * (n_sg6 n1 ii - g0 ii))) in *. clearbody q s. assert (T : 0 < 10 ^ 7) by (apply pow_lt; lra).
        destruct (Req_EM_T s 0) as [Z|Z].
        * destruct (Rlt_dec 0 q); [discriminate|]. rewrite Z. unfold Rdiv. rewrite Rmult_0_l. lra.
        * destruct (Rlt_dec (1 / 10 ^ 7) (q / s)) as [|NL]; [discriminate|]. apply Rnot_lt_le in NL. revert NL T. generalize (10 ^ 7). intros t NL T.
          apply (Rmult_le_compat_r s) in NL; [|exact S0]. replace (q / s * s) with q in NL by (field; exact Z). replace (s / t) with (1 / t * s) by (field; lra). exact NL. }
  destruct (newton_loop 100 p s (chg_basis_2 6 sg)) as [n|] eqn:E; [|discriminate]. injection H as H1 H2 H3. destruct (L 99%nat _ n E) as (k & g & K1 & K2 & K3 & K4).
  exists k, g, n. split; [lia|]. split; [exact K2|]. split; [exact K3|]. split; [symmetry; exact H1|]. split; [symmetry; exact H2|exact K4].
Qed.
Print Assumptions C112_accuracy.

(* A rigid rotation superposed on the displacement changes nothing. *)
Theorem C112_spin c066 cg66 ept disgrad W sg tdot ss : antisymmetric W ->
  evpal_point c066 cg66 ept (fun i j => disgrad i j + W i j) sg tdot ss = evpal_point c066 cg66 ept disgrad sg tdot ss.
Proof.
  intros A. unfold evpal_point. cbv zeta. replace (make_point c066 cg66 ept (fun i j => disgrad i j + W i j) sg tdot ss) with (make_point c066 cg66 ept disgrad sg tdot ss); [reflexivity|].
  unfold make_point. f_equal. apply functional_extensionality. intros n. rewrite !cb2. apply comps_ext. intros i j I J. rewrite (A i j I J). field.
Qed.
Print Assumptions C112_spin.

(* The test for the end compares a squared change with a stress, so that any relative
   change r passes where the stresses are small, and none does where they are large. *)
Theorem C112_units_refuted r : 0 < r -> exists s s', 0 < s /\ 0 < s' /\ goes_on s ((r * s) ^ 2) = false /\ goes_on s' ((r * s') ^ 2) = true.
Proof.
  intros R0. assert (P : 0 < 10 ^ 7) by (apply pow_lt; lra). assert (Q : 0 < r * r) by nra.
  exists (1 / 10 ^ 7 / (r * r)), (2 / (r * r)).
  assert (S1 : 0 < 1 / 10 ^ 7 / (r * r)) by (apply Rdiv_lt_0_compat; [apply Rdiv_lt_0_compat; [lra|exact P]|exact Q]).
  assert (S2 : 0 < 2 / (r * r)) by (apply Rdiv_lt_0_compat; lra).
  split; [exact S1|]. split; [exact S2|]. unfold goes_on. split.
  - destruct (Req_EM_T (1 / 10 ^ 7 / (r * r)) 0); [lra|].
    replace ((r * (1 / 10 ^ 7 / (r * r))) ^ 2 / (1 / 10 ^ 7 / (r * r))) with (1 / 10 ^ 7); [destruct (Rlt_dec (1 / 10 ^ 7) (1 / 10 ^ 7)); [lra|reflexivity]|].
    revert P. generalize (10 ^ 7). intros m P. field. split; lra.
  - destruct (Req_EM_T (2 / (r * r)) 0); [lra|]. replace ((r * (2 / (r * r))) ^ 2 / (2 / (r * r))) with 2 by (field; lra).
    destruct (Rlt_dec (1 / 10 ^ 7) 2) as [|NL]; [reflexivity|]. exfalso. apply NL. lra.
Qed.
Print Assumptions C112_units_refuted.

(* A point with one slip system, a stress that loads it and the strain that goes with
   both; the matrix of the iteration is regular. *)
Definition met_slip : slip := {| sl_sch := fun n => if (n =? 1)%nat then 1 else 0; sl_gamd0 := 1; sl_nrs := 3; sl_crss1 := 1; sl_crss2 := 2; sl_xkin := 0 |}.
Definition met_sg : T2 := fun i j => B_basis i j 1.

Lemma pos6_d : pos6 d.
Proof.
  intros x (n & N & X). rewrite (S6_ext _ (fun n => x n * x n)).
  - assert (forall k, 0 <= x k * x k) as Q by (intros; nra). assert (0 < x n * x n) by nra.
    unfold S6. pose proof (Q 1%nat). pose proof (Q 2%nat). pose proof (Q 3%nat). pose proof (Q 4%nat). pose proof (Q 5%nat). pose proof (Q 6%nat). all6 N; lra.
  - intros k K. all6 K; unfold S6, d; cbn [Nat.eqb]; ring.
Qed.

Lemma met_comps n : idx 6 n -> comps met_sg n = d n 1.
Proof.
  intros N. transitivity (comps (expand (fun m => d m 1)) n); [|exact (comps_expand (fun m => d m 1) n N)]. apply comps_ext. intros i j _ _. unfold met_sg, expand.
  rewrite (S6_ext _ (fun m => d 1 m * B_basis i j m)); [symmetry; apply S6_d'; unfold idx; lia|]. intros m M. all6 M; reflexivity.
Qed.

Example C112_met : exists disgrad rs, pos6 d /\ regular_slip met_slip /\ symmetric met_sg /\ symmetric (fun _ _ => 0) /\
  shear_rates [met_slip] (chg_basis_2 6 met_sg) = Some rs /\ resolved met_slip (chg_basis_2 6 met_sg) = 1 /\ edotp6 rs 1%nat <> 0 /\
  constitutive (chg_basis_3 6 d) (fun _ _ => 0) (chg_basis_1 6 (edotp6 rs)) (sym_part disgrad) met_sg 1.
Proof.
  assert (R : forall s, In s [met_slip] -> regular_slip s) by (intros s [<-|[]]; unfold regular_slip; cbn; repeat split; solve [lia|lra]).
  assert (RV : resolved met_slip (chg_basis_2 6 met_sg) = 1).
  { unfold resolved, sum1. cbn [seq suml fold_right sl_sch met_slip Nat.eqb]. rewrite !cb2, !met_comps by (unfold idx; lia). unfold d. cbn [Nat.eqb]. ring. }
  set (rs := with_rates [met_slip] (chg_basis_2 6 met_sg)).
  exists (fun i j => met_sg i j + 1 * chg_basis_1 6 (edotp6 rs) i j), rs.
  split; [exact pos6_d|]. split; [apply R; left; reflexivity|].
  assert (SS : symmetric met_sg) by (intros i j _ _; apply basis_sym).
  split; [exact SS|]. split; [intros i j _ _; reflexivity|]. split; [apply rates_value; exact R|]. split; [exact RV|]. split.
  - unfold rs. rewrite edotp6_sum. cbn [Nat.leb suml fold_right]. rewrite RV. unfold rate_of, power_law. cbn [sl_sch met_slip Nat.eqb sl_gamd0 sl_nrs sl_crss1 sl_crss2 sl_xkin Z.to_nat Pos.to_nat Pos.iter_op Nat.add].
    destruct (Rlt_dec (1 - 0) 0); [lra|]. unfold Pos.to_nat. cbn [Pos.iter_op Nat.add pow]. replace _ with 1 by field; lra.
  - intros i j I J. rewrite act_expand. match goal with |- expand (mat_v d (comps ?Y)) i j = _ => set (X := Y) end.
    rewrite (expand_ext _ (comps X)).
    + assert (SX : forall a b, idx 3 a -> idx 3 b -> X a b = met_sg a b).
      { intros a b A B. unfold X, sym_part. rewrite (SS b a B A), !cb1, (expand_sym (edotp6 rs) b a B A). field. }
      rewrite (expand_ext _ (comps met_sg)); [apply expand_comps_sym; assumption|]. intros n _. apply comps_ext. exact SX.
    + intros n N. unfold mat_v. rewrite S6_d' by exact N. reflexivity.
Qed.

(* The matrix is regular at a point that flows along its slip system. *)
Example C112_regular_met : exists n, newton_step (make_point d d (fun _ _ => 0) met_sg met_sg 1 [met_slip]) (chg_basis_2 6 met_sg) = Some n /\
  leading_regular 6 (fun i j => jacobian (make_point d d (fun _ _ => 0) met_sg met_sg 1 [met_slip]) (dedotp66 (n_rates n)) (S j) (S i)).
Proof.
  assert (R : forall s, In s [met_slip] -> regular_slip s) by (intros s [<-|[]]; unfold regular_slip; cbn; repeat split; solve [lia|lra]).
  assert (RV : resolved met_slip (chg_basis_2 6 met_sg) = 1).
  { unfold resolved, sum1. cbn [seq suml fold_right sl_sch met_slip Nat.eqb]. rewrite !cb2, !met_comps by (unfold idx; lia). unfold d. cbn [Nat.eqb]. ring. }
  unfold newton_step. change (p_slip (make_point d d (fun _ _ => 0) met_sg met_sg 1 [met_slip])) with [met_slip]. rewrite (rates_value _ _ R).
  eexists. split; [reflexivity|]. cbn [n_rates]. apply positive_leading.
  assert (J : forall a b, idx 6 a -> idx 6 b -> jacobian (make_point d d (fun _ _ => 0) met_sg met_sg 1 [met_slip]) (dedotp66 (with_rates [met_slip] (chg_basis_2 6 met_sg))) a b = if (a =? b)%nat then if (a =? 1)%nat then 5 else 2 else 0).
  { intros a b A B. unfold jacobian. rewrite sum1_6, kron_d6 by assumption. cbn [p_c066 p_sg66 p_tdot make_point]. rewrite S6_d' by exact A.
    pose proof (proj1 (inverted6 d pos6_d a b A B)) as V. rewrite S6_d' in V by exact A. rewrite V.
    rewrite dedotp66_sum. cbn [suml fold_right]. rewrite RV. unfold slope_of, law_slope. cbn [sl_sch met_slip sl_gamd0 sl_nrs sl_crss1 sl_crss2 sl_xkin Z.to_nat Pos.to_nat Pos.iter_op Nat.add Nat.sub INR pow].
    destruct (Rlt_dec (1 - 0) 0); [lra|]. change (Pos.to_nat 3) with 3%nat. cbn [INR Nat.sub pow]. all6 A; all6 B; unfold d; cbn [Nat.eqb Nat.leb andb]; lra. }
  intros x (i & I & X).
  assert (E : sumn 6 (fun i => sumn 6 (fun j => x i * jacobian (make_point d d (fun _ _ => 0) met_sg met_sg 1 [met_slip]) (dedotp66 (with_rates [met_slip] (chg_basis_2 6 met_sg))) (S j) (S i) * x j)) =
    5 * (x 0%nat * x 0%nat) + 2 * (x 1%nat * x 1%nat) + 2 * (x 2%nat * x 2%nat) + 2 * (x 3%nat * x 3%nat) + 2 * (x 4%nat * x 4%nat) + 2 * (x 5%nat * x 5%nat)).
  { cbn [sumn]. rewrite !J by (unfold idx; lia). cbn [Nat.eqb]. ring. }
  rewrite E. assert (forall k, 0 <= x k * x k) as Q by (intros; nra). assert (0 < x i * x i) by nra.
  pose proof (Q 0%nat). pose proof (Q 1%nat). pose proof (Q 2%nat). pose proof (Q 3%nat). pose proof (Q 4%nat). pose proof (Q 5%nat).
  do 6 (destruct i as [|i]; [lra|]). lia.
Qed.
