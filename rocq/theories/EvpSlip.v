(* Slip systems and the flow rule. *)
From Coq Require Import Reals List Arith Lia Lra ZArith.
From Verif Require Import BaseReal LinModel LinProofs LinProps EvpModel EvpFlowModel EvpSpec EvpFlowSpec EvpBasis EvpElast EvpRot.
Import ListNotations.
Local Open Scope R_scope.

Lemma rotate2_turned A E i j : rotate2 A E i j = turned A E i j.
Proof. unfold rotate2, turned. rewrite sum1_3. apply S3_ext. intros k K. rewrite sum1_3. reflexivity. Qed.

Lemma apply2_mul A v i : apply2 A v i = mul_v A v i.
Proof. unfold apply2, mul_v. apply sum1_3. Qed.

Lemma schmid_sym n b : symmetric (schmid_tensor n b).
Proof. intros i j _ _. unfold schmid_tensor. field. Qed.
Lemma schmid_trace n b : trace (schmid_tensor n b) = vdot n b.
Proof. unfold trace, schmid_tensor, vdot, S3. field. Qed.

Lemma deviator_sym A : symmetric A -> symmetric (deviator A).
Proof. intros H i j I J. unfold deviator. rewrite (H i j I J). unfold d. rewrite (Nat.eqb_sym i j). reflexivity. Qed.
Lemma deviator_trace A : trace (deviator A) = 0.
Proof. unfold trace, deviator, d. unfold trace, S3. rewrite !Nat.eqb_refl. field. Qed.

Lemma turned_d A i j : rotation A -> idx 3 i -> idx 3 j -> turned A d i j = d i j.
Proof. intros [O _] I J. rewrite <- (O i j I J). unfold turned, S3, d. cbn [Nat.eqb]. ring. Qed.

Lemma turned_lin A E F c i j : turned A (fun k l => E k l + c * F k l) i j = turned A E i j + c * turned A F i j.
Proof. unfold turned, S3. ring. Qed.

Lemma turned_dev A E i j : rotation A -> idx 3 i -> idx 3 j -> turned A (deviator E) i j = turned A E i j - d i j * trace E / 3.
Proof.
  intros H I J. rewrite (turned_ext A _ (fun k l => E k l + (- trace E / 3) * d k l)) by (intros; unfold deviator; field).
  rewrite turned_lin, turned_d by assumption. field.
Qed.

Lemma turned_schmid A n b i j : turned A (schmid_tensor n b) i j = schmid_tensor (mul_v A n) (mul_v A b) i j.
Proof. unfold turned, schmid_tensor, mul_v, S3. field. Qed.

(* The crystal tensor of a system in sample axes. *)
Definition sample_tensor (A : T2) (n b : T1) : T2 := fun i j => schmid_tensor (mul_v A n) (mul_v A b) i j - d i j * vdot n b / 3.

Lemma sample_sym A n b : symmetric (sample_tensor A n b).
Proof. intros i j I J. unfold sample_tensor. rewrite (schmid_sym _ _ i j I J). unfold d. rewrite (Nat.eqb_sym i j). reflexivity. Qed.

Lemma turned_vdot A a b : rotation A -> vdot (mul_v A a) (mul_v A b) = vdot a b.
Proof.
  intros [O _]. pose proof (rows_cols A O) as C.
  transitivity (S3 (fun p => S3 (fun q => S3 (fun k => A k p * A k q) * (a p * b q)))); [unfold vdot, mul_v, S3; ring|].
  rewrite (S3_ext _ (fun p => S3 (fun q => d p q * (a p * b q)))) by (intros p P; apply S3_ext; intros q Q; rewrite (C p q P Q); reflexivity).
  unfold vdot, S3, d. cbn [Nat.eqb]. ring.
Qed.

Lemma sample_trace A n b : rotation A -> trace (sample_tensor A n b) = 0.
Proof.
  intros H. pose proof (turned_vdot A n b H) as E. unfold trace, sample_tensor. revert E. rewrite <- schmid_trace. unfold trace.
  unfold d, S3. rewrite !Nat.eqb_refl. intros E. lra.
Qed.

Lemma sch_tensor A n b sy k : rotation A -> schca sy = chg_basis_2 5 (schmid_tensor n b) -> update_schmid A sy k = comps (sample_tensor A n b) k.
Proof.
  intros H E. unfold update_schmid. rewrite cb2. apply comps_ext. intros i j I J. rewrite rotate2_turned, E.
  rewrite (turned_ext A _ (deviator (schmid_tensor n b))) by (intros k0 l K L; apply dev_expand; [apply schmid_sym|exact K|exact L]).
  rewrite turned_dev, turned_schmid, schmid_trace by assumption. reflexivity.
Qed.

Lemma ddot5 A B : symmetric A -> trace A = 0 ->
  ddot A B = comps A 1%nat * comps B 1%nat + comps A 2%nat * comps B 2%nat + comps A 3%nat * comps B 3%nat + comps A 4%nat * comps B 4%nat + comps A 5%nat * comps B 5%nat.
Proof. intros S T. rewrite ddot_comps by exact S. unfold S6. rewrite (comps_6 A), T. ring. Qed.

Lemma schmid_ddot n b B : symmetric B -> ddot (schmid_tensor n b) B = vdot b (mul_v B n).
Proof.
  intros S. pose proof (S 1 2 ltac:(unfold idx; lia) ltac:(unfold idx; lia))%nat as H12. pose proof (S 1 3 ltac:(unfold idx; lia) ltac:(unfold idx; lia))%nat as H13.
  pose proof (S 2 3 ltac:(unfold idx; lia) ltac:(unfold idx; lia))%nat as H23. unfold ddot, schmid_tensor, vdot, mul_v, S3. rewrite H12, H13, H23. field.
Qed.

Lemma made sn sb sy : make_system sn sb = Some sy -> dnca sy = unit_flushed sn /\ dbca sy = unit_flushed sb /\ schca sy = chg_basis_2 5 (schmid_tensor (dnca sy) (dbca sy)).
Proof. unfold make_system. destruct (Rle_dec _ _); [discriminate|]. intros H. injection H as <-. repeat split; reflexivity. Qed.

Lemma resolved_tensor s A n b sy sigma : rotation A -> symmetric sigma -> schca sy = chg_basis_2 5 (schmid_tensor n b) -> sl_sch s = update_schmid A sy ->
  resolved s (chg_basis_2 6 sigma) = vdot (mul_v A b) (mul_v sigma (mul_v A n)) - vdot n b * trace sigma / 3.
Proof.
  intros H S E E'. unfold resolved. rewrite E', !cb2, !(sch_tensor A n b sy) by assumption.
  rewrite <- (ddot5 (sample_tensor A n b) sigma) by (first [apply sample_sym|apply sample_trace; exact H]).
  rewrite <- (schmid_ddot _ _ sigma S). unfold ddot, sample_tensor, trace, d, S3. cbn [Nat.eqb]. field.
Qed.

(* ---------- the power law ---------- *)

Definition rate_of (s : slip) (tau : R) : R :=
  power_law (sl_gamd0 s) (sl_crss1 s) (sl_crss2 s) (Z.to_nat (sl_nrs s)) (tau - sl_xkin s).
Definition law_slope (g0 c1 c2 : R) (n : nat) (x : R) : R :=
  if Rlt_dec x 0 then g0 * INR n * (- x / c2) ^ (n - 1) / c2 else g0 * INR n * (x / c1) ^ (n - 1) / c1.
Definition slope_of (s : slip) (tau : R) : R :=
  law_slope (sl_gamd0 s) (sl_crss1 s) (sl_crss2 s) (Z.to_nat (sl_nrs s)) (tau - sl_xkin s).

Definition sound (s : slip) : Prop := (1 <= sl_nrs s < 2147483648)%Z /\ 0 < sl_crss1 s /\ 0 < sl_crss2 s.

Lemma power_nat x z : (0 <= z < 2147483648)%Z -> PowIntExpo x z = Some (x ^ Z.to_nat z).
Proof.
  intros Hz. rewrite C103_power by lia. f_equal. rewrite <- (Z2Nat.id z) at 1 by lia. destruct (Z.to_nat z) as [|k]; [reflexivity|]. reflexivity || (rewrite pow_powerRZ; reflexivity).
Qed.

Lemma quot_neg x c : x < 0 -> 0 < c -> x / c < 0.
Proof. intros X C. unfold Rdiv. pose proof (Rinv_0_lt_compat c C). nra. Qed.
Lemma quot_pos x c : 0 <= x -> 0 < c -> 0 <= x / c.
Proof. intros X C. unfold Rdiv. pose proof (Rinv_0_lt_compat c C). nra. Qed.

Lemma shear_rate_value s tau : sound s -> shear_rate s tau = Some (slope_of s tau, rate_of s tau).
Proof.
  intros (Hz & C1 & C2). unfold shear_rate, slope_of, rate_of, law_slope, power_law.
  rewrite !power_nat by lia. rewrite <- !RPow_abs.
  assert (N : (Z.to_nat (sl_nrs s - 1) = Z.to_nat (sl_nrs s) - 1)%nat) by lia. rewrite N.
  assert (N' : IZR (sl_nrs s) = INR (Z.to_nat (sl_nrs s))) by (rewrite INR_IZR_INZ, Z2Nat.id by lia; reflexivity). rewrite N'.
  set (n := Z.to_nat (sl_nrs s)). set (x := tau - sl_xkin s). clearbody n x. unfold copysign1.
  destruct (Rlt_dec x 0) as [L|L].
  - pose proof (quot_neg x _ L C2) as Q. destruct (Rlt_dec (x / sl_crss2 s) 0) as [_|]; [|contradiction].
    rewrite (Rabs_left _ Q). replace (- (x / sl_crss2 s)) with (- x / sl_crss2 s) by (field; lra). apply f_equal. apply f_equal2; ring.
  - pose proof (quot_pos x _ (Rnot_lt_le _ _ L) C1) as Q. destruct (Rlt_dec (x / sl_crss1 s) 0) as [|_]; [lra|].
    rewrite (Rabs_pos_eq _ Q). apply f_equal. apply f_equal2; ring.
Qed.

(* the law is increasing, has the sign of the driving stress, and a slope *)
Lemma pow_pos_le x y n : 0 <= x <= y -> x ^ n <= y ^ n.
Proof. intros H. apply pow_incr. exact H. Qed.

Lemma law_sign g0 c1 c2 n x : 0 <= g0 -> 0 < c1 -> 0 < c2 -> 0 <= x * power_law g0 c1 c2 n x.
Proof.
  intros G C1 C2. unfold power_law. destruct (Rlt_dec x 0) as [L|L].
  - assert (0 <= (- x / c2) ^ n) by (apply pow_le, quot_pos; lra). assert (0 <= g0 * (- x / c2) ^ n) by (apply Rmult_le_pos; assumption). nra.
  - assert (0 <= (x / c1) ^ n) by (apply pow_le, quot_pos; lra). assert (0 <= g0 * (x / c1) ^ n) by (apply Rmult_le_pos; assumption). nra.
Qed.

Lemma law_strict g0 c1 c2 n x : 0 < g0 -> 0 < c1 -> 0 < c2 -> x <> 0 -> 0 < x * power_law g0 c1 c2 n x.
Proof.
  intros G C1 C2 X. unfold power_law. destruct (Rlt_dec x 0) as [L|L].
  - assert (0 < (- x / c2) ^ n) by (apply pow_lt; apply Rdiv_lt_0_compat; lra). assert (0 < g0 * (- x / c2) ^ n) by (apply Rmult_lt_0_compat; assumption). nra.
  - assert (0 < (x / c1) ^ n) by (apply pow_lt; apply Rdiv_lt_0_compat; lra). assert (0 < g0 * (x / c1) ^ n) by (apply Rmult_lt_0_compat; assumption). nra.
Qed.

Lemma law_mono g0 c1 c2 n x y : 0 <= g0 -> 0 < c1 -> 0 < c2 -> x <= y -> power_law g0 c1 c2 n x <= power_law g0 c1 c2 n y.
Proof.
  intros G C1 C2 XY. unfold power_law. pose proof (Rinv_0_lt_compat c1 C1). pose proof (Rinv_0_lt_compat c2 C2).
  destruct (Rlt_dec x 0) as [L|L], (Rlt_dec y 0) as [M|M]; try lra.
  - apply Ropp_le_contravar. apply Rmult_le_compat_l; [exact G|]. apply pow_incr. split; [apply quot_pos; lra|]. unfold Rdiv. apply Rmult_le_compat_r; lra.
  - assert (0 <= (- x / c2) ^ n) by (apply pow_le, quot_pos; lra). assert (0 <= g0 * (- x / c2) ^ n) by (apply Rmult_le_pos; assumption).
    assert (0 <= (y / c1) ^ n) by (apply pow_le, quot_pos; lra). assert (0 <= g0 * (y / c1) ^ n) by (apply Rmult_le_pos; assumption). lra.
  - apply Rmult_le_compat_l; [exact G|]. apply pow_incr. split; [apply quot_pos; lra|]. unfold Rdiv. apply Rmult_le_compat_r; lra.
Qed.

Lemma slope_nonneg g0 c1 c2 n x : 0 <= g0 -> 0 < c1 -> 0 < c2 -> 0 <= law_slope g0 c1 c2 n x.
Proof.
  intros G C1 C2. unfold law_slope. pose proof (pos_INR n). destruct (Rlt_dec x 0).
  - apply quot_pos; [|exact C2]. apply Rmult_le_pos; [apply Rmult_le_pos; assumption|]. apply pow_le, quot_pos; lra.
  - apply quot_pos; [|exact C1]. apply Rmult_le_pos; [apply Rmult_le_pos; assumption|]. apply pow_le, quot_pos; lra.
Qed.

Lemma lin_slope a b x : derivable_pt_lim (fun y => a + b * y) x b.
Proof. intros eps He. exists (mkposreal 1 Rlt_0_1). intros h H0 _. replace (_ - b) with 0 by (field; exact H0). rewrite Rabs_R0. exact He. Qed.

Lemma lim_ext f g x l : (forall y, f y = g y) -> derivable_pt_lim f x l -> derivable_pt_lim g x l.
Proof. intros E H eps He. destruct (H eps He) as [dl D]. exists dl. intros h H0 H1. rewrite <- !E. apply D; assumption. Qed.

Lemma pow_slope a k n x : derivable_pt_lim (fun y => a * (k * y) ^ n) x (a * INR n * (k * x) ^ (n - 1) * k).
Proof.
  replace (a * INR n * (k * x) ^ (n - 1) * k) with (a * (INR n * (k * x) ^ Init.Nat.pred n * k)) by (replace (Init.Nat.pred n) with (n - 1)%nat by lia; ring).
  apply (derivable_pt_lim_scal (fun y => (k * y) ^ n) a x). apply (derivable_pt_lim_comp (fun y => k * y) (fun z => z ^ n) x k).
  - apply (lim_ext (fun y => 0 + k * y)); [intros; ring|apply lin_slope].
  - apply derivable_pt_lim_pow.
Qed.

Lemma lim_local f g x l r : 0 < r -> (forall y, Rabs (y - x) < r -> f y = g y) -> derivable_pt_lim f x l -> derivable_pt_lim g x l.
Proof.
  intros R0 E H eps He. destruct (H eps He) as [dl D].
  assert (M : 0 < Rmin dl r) by (apply Rmin_glb_lt; [apply cond_pos|exact R0]).
  exists (mkposreal _ M). cbn [pos]. intros h H0 H1. rewrite <- !E.
  - apply D; [exact H0|]. apply (Rlt_le_trans _ _ _ H1). apply Rmin_l.
  - rewrite Rminus_diag_eq by reflexivity. rewrite Rabs_R0. exact R0.
  - replace (x + h - x) with h by ring. apply (Rlt_le_trans _ _ _ H1). apply Rmin_r.
Qed.

Lemma lim_glue (f1 f2 : R -> R) l : f1 0 = f2 0 -> derivable_pt_lim f1 0 l -> derivable_pt_lim f2 0 l ->
  derivable_pt_lim (fun y => if Rlt_dec y 0 then f1 y else f2 y) 0 l.
Proof.
  intros E H1 H2 eps He. destruct (H1 eps He) as [d1 D1]. destruct (H2 eps He) as [d2 D2].
  assert (M : 0 < Rmin d1 d2) by (apply Rmin_glb_lt; apply cond_pos).
  exists (mkposreal _ M). cbn [pos]. intros h H0 Hh. destruct (Rlt_dec 0 0) as [|_]; [lra|].
  destruct (Rlt_dec (0 + h) 0).
  - rewrite <- E. apply D1; [exact H0|]. apply (Rlt_le_trans _ _ _ Hh). apply Rmin_l.
  - apply D2; [exact H0|]. apply (Rlt_le_trans _ _ _ Hh). apply Rmin_r.
Qed.

Lemma law_slope_lim g0 c1 c2 n x : 0 < c1 -> 0 < c2 -> (2 <= n)%nat \/ x <> 0 -> derivable_pt_lim (power_law g0 c1 c2 n) x (law_slope g0 c1 c2 n x).
Proof.
  intros C1 C2 N. unfold law_slope.
  assert (L1 : forall x, derivable_pt_lim (fun y => g0 * (y / c1) ^ n) x (g0 * INR n * (x / c1) ^ (n - 1) / c1)).
  { intros z. replace (g0 * INR n * (z / c1) ^ (n - 1) / c1) with (g0 * INR n * (/ c1 * z) ^ (n - 1) * / c1) by (unfold Rdiv; rewrite (Rmult_comm (/ c1) z); ring).
    apply (lim_ext (fun y => g0 * (/ c1 * y) ^ n)); [intros y; unfold Rdiv; rewrite (Rmult_comm (/ c1) y); reflexivity|apply pow_slope]. }
  assert (L2 : forall x, derivable_pt_lim (fun y => - (g0 * (- y / c2) ^ n)) x (g0 * INR n * (- x / c2) ^ (n - 1) / c2)).
  { intros z. replace (g0 * INR n * (- z / c2) ^ (n - 1) / c2) with (- g0 * INR n * (- / c2 * z) ^ (n - 1) * - / c2)
      by (replace (- / c2 * z) with (- z / c2) by (field; lra); unfold Rdiv; ring).
    apply (lim_ext (fun y => - g0 * (- / c2 * y) ^ n)); [intros y; replace (- / c2 * y) with (- y / c2) by (field; lra); ring|apply pow_slope]. }
  destruct (Rlt_dec x 0) as [L|L].
  - apply (lim_local (fun y => - (g0 * (- y / c2) ^ n)) _ x _ (- x)); [lra| |apply L2]. intros y Y. unfold power_law.
    destruct (Rlt_dec y 0) as [|M]; [reflexivity|]. apply Rabs_def2 in Y. lra.
  - destruct (Req_dec x 0) as [->|X].
    + destruct N as [N|]; [|contradiction]. apply (lim_glue (fun y => - (g0 * (- y / c2) ^ n)) (fun y => g0 * (y / c1) ^ n)).
      * replace (- 0 / c2) with 0 by (field; lra). replace (0 / c1) with 0 by (field; lra). rewrite pow_ne_zero by lia. ring.
      * pose proof (L2 0) as Z. replace (- 0 / c2) with 0 in Z by (field; lra). replace (0 / c1) with 0 by (field; lra). rewrite pow_ne_zero in * by lia.
        replace (g0 * INR n * 0 / c1) with (g0 * INR n * 0 / c2) by (unfold Rdiv; ring). exact Z.
      * apply L1.
    + apply (lim_local (fun y => g0 * (y / c1) ^ n) _ x _ x); [lra| |apply L1]. intros y Y. unfold power_law.
      destruct (Rlt_dec y 0) as [M|]; [|reflexivity]. apply Rabs_def2 in Y. lra.
Qed.

(* ---------- sums over the systems ---------- *)

Definition with_rates (ss : list slip) (sg6 : T1) : list (slip * (R * R)) :=
  map (fun s => (s, (slope_of s (resolved s sg6), rate_of s (resolved s sg6)))) ss.

Lemma rates_value ss sg6 : (forall s, In s ss -> sound s) -> shear_rates ss sg6 = Some (with_rates ss sg6).
Proof.
  induction ss as [|s l IH]; intros H; [reflexivity|]. cbn [shear_rates with_rates map].
  rewrite (shear_rate_value s (resolved s sg6) (H s (or_introl eq_refl))). rewrite IH by (intros s' S'; apply H; right; exact S'). reflexivity.
Qed.

Lemma edotp6_sum ss sg6 ii : edotp6 (with_rates ss sg6) ii = if Nat.leb ii 5 then suml (fun s => sl_sch s ii * rate_of s (resolved s sg6)) ss else 0.
Proof. unfold edotp6, with_rates. rewrite suml_map. reflexivity. Qed.
Lemma dedotp66_sum ss sg6 ii jj : dedotp66 (with_rates ss sg6) ii jj =
  if (Nat.leb ii 5 && Nat.leb jj 5)%bool then suml (fun s => sl_sch s ii * sl_sch s jj * slope_of s (resolved s sg6)) ss else 0.
Proof. unfold dedotp66, with_rates. rewrite suml_map. reflexivity. Qed.

Lemma resolved_line s sg6 h t : resolved s (fun i => sg6 i + t * h i) = resolved s sg6 + t * resolved s h.
Proof. unfold resolved. ring. Qed.

Lemma rate_line s sg6 h : sound s -> (2 <= sl_nrs s)%Z \/ resolved s sg6 <> sl_xkin s ->
  derivable_pt_lim (fun t => rate_of s (resolved s (fun i => sg6 i + t * h i))) 0 (slope_of s (resolved s sg6) * resolved s h).
Proof.
  intros (Z & C1 & C2) N. unfold rate_of, slope_of. set (k := Z.to_nat (sl_nrs s)).
  apply (lim_ext (fun t => power_law (sl_gamd0 s) (sl_crss1 s) (sl_crss2 s) k ((resolved s sg6 - sl_xkin s) + resolved s h * t)));
    [intros t; rewrite resolved_line; f_equal; ring|].
  apply (derivable_pt_lim_comp (fun t => (resolved s sg6 - sl_xkin s) + resolved s h * t) (power_law (sl_gamd0 s) (sl_crss1 s) (sl_crss2 s) k) 0).
  - apply lin_slope.
  - replace (resolved s sg6 - sl_xkin s + resolved s h * 0) with (resolved s sg6 - sl_xkin s) by ring. apply law_slope_lim; [exact C1|exact C2|].
    destruct N as [N|N]; [left; unfold k; lia|right; lra].
Qed.

Lemma suml_lim {A} (f : A -> R -> R) (l : A -> R) ss x : (forall s, In s ss -> derivable_pt_lim (f s) x (l s)) ->
  derivable_pt_lim (fun t => suml (fun s => f s t) ss) x (suml l ss).
Proof.
  induction ss as [|s r IH]; intros H.
  - apply (lim_ext (fun _ => 0)); [reflexivity|]. apply derivable_pt_lim_const.
  - apply (lim_ext (fun t => f s t + suml (fun s => f s t) r)); [intros; rewrite suml_cons; reflexivity|]. rewrite suml_cons.
    apply (derivable_pt_lim_plus (f s) (fun t => suml (fun s => f s t) r)); [apply H; left; reflexivity|]. apply IH. intros s' S'. apply H. right. exact S'.
Qed.

Lemma rates_fst ss sg6 rs : shear_rates ss sg6 = Some rs -> map fst rs = ss.
Proof.
  revert rs. induction ss as [|s l IH]; intros rs H; [injection H as <-; reflexivity|]. cbn [shear_rates] in H.
  destruct (shear_rate s (resolved s sg6)) as [r|]; [|discriminate]. destruct (shear_rates l sg6) as [q|]; [|discriminate]. injection H as <-.
  cbn [map fst]. f_equal. apply IH. reflexivity.
Qed.

Lemma flow_nil i j : chg_basis_1 6 (edotp6 []) i j = 0.
Proof. rewrite cb1. unfold expand, edotp6, S6. cbn [Nat.leb]. unfold suml. cbn [fold_right]. ring. Qed.

Lemma flow_cons s r rs X i j : idx 3 i -> idx 3 j -> symmetric X -> trace X = 0 -> (forall k, sl_sch s k = comps X k) ->
  chg_basis_1 6 (edotp6 ((s, r) :: rs)) i j = snd r * X i j + chg_basis_1 6 (edotp6 rs) i j.
Proof.
  intros I J S T K. rewrite !cb1. transitivity (snd r * (expand (comps X) i j - comps X 6%nat * B_basis i j 6) + expand (edotp6 rs) i j).
  - unfold expand, edotp6, S6. cbn [Nat.leb]. rewrite !suml_cons. cbn [fst snd]. rewrite !K. ring.
  - rewrite expand_comps_sym by assumption. rewrite comps_6, T. ring.
Qed.

Lemma ddot_suml {A} B (f : A -> T2) (g : A -> R) l : ddot B (fun i j => suml (fun r => g r * f r i j) l) = suml (fun r => g r * ddot B (f r)) l.
Proof.
  induction l as [|a l IH]; [unfold ddot, S3, suml; cbn [fold_right]; ring|]. rewrite suml_cons, <- IH. unfold ddot, S3. rewrite !suml_cons. ring.
Qed.

Lemma lim_shift f a x l : derivable_pt_lim f (x - a) l -> derivable_pt_lim (fun t => f (t - a)) x l.
Proof. intros H eps He. destruct (H eps He) as [dl D]. exists dl. intros h H0 H1. replace (x + h - a) with (x - a + h) by ring. apply D; assumption. Qed.
