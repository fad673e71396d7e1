(* The outer iteration, the frame and the moving nodes: C136. *)
From Coq Require Import Reals List Arith ZArith Lia Lra.
From Verif Require Import BaseReal LinModel EvpModel EvpFlowModel EvpFftModel EvpSpec EvpBasis EvpElast EvpFft NpModel NpSpec NpFft NpFillProps.
Import ListNotations.
Local Open Scope R_scope.

(* ---------- the outer iteration ---------- *)

Lemma continue_iff o s : outer_continue o s = true <-> ((passes s <= itmax_out o)%Z /\ error_bc o < last_error s) \/ (passes s < itmin_out o)%Z.
Proof.
  unfold outer_continue. rewrite Bool.orb_true_iff, Bool.andb_true_iff, Z.leb_le, Z.ltb_lt. destruct (Rlt_dec _ _) as [L|L]; split; intros [[A B]|C]; try discriminate; try contradiction; tauto.
Qed.
Lemma continue_not o s : outer_continue o s = false <-> ((itmax_out o < passes s)%Z \/ last_error s <= error_bc o) /\ (itmin_out o <= passes s)%Z.
Proof.
  split; intros H.
  - assert (N : ~ (((passes s <= itmax_out o)%Z /\ error_bc o < last_error s) \/ (passes s < itmin_out o)%Z)) by (rewrite <- continue_iff; congruence).
    split; [|lia]. destruct (Z_lt_le_dec (itmax_out o) (passes s)); [left; assumption|]. right. apply Rnot_lt_le. intros L. apply N. left. split; assumption.
  - destruct (outer_continue o s) eqn:E; [|reflexivity]. exfalso. apply continue_iff in E. destruct H as [H1 H2], E as [[A B]|E]; [destruct H1; [lia|lra]|lia].
Qed.

(* The state after each pass; the loop stops in the first state that does not go on. *)
Definition state_after (o : np_outer) (body : R -> Z -> R) (s : np_state) (n : nat) : np_state := Nat.iter n (outer_pass o body) s.
Lemma iter_shift {A} (f : A -> A) n x : Nat.iter n f (f x) = f (Nat.iter n f x).
Proof. induction n as [|n IH]; [reflexivity|]. cbn [Nat.iter nat_rect]. unfold Nat.iter in *. cbn. rewrite IH. reflexivity. Qed.

Lemma loop_runs o body : forall fuel s, (Z.max (itmax_out o + 1) (itmin_out o) - passes s <= Z.of_nat fuel)%Z ->
  exists n, outer_loop o body fuel s = Some (state_after o body s n) /\ outer_continue o (state_after o body s n) = false
    /\ (n = 0%nat \/ passes s + Z.of_nat n <= Z.max (itmax_out o + 1) (itmin_out o))%Z
    /\ (forall m, (m < n)%nat -> outer_continue o (state_after o body s m) = true).
Proof.
  induction fuel as [|fuel IH]; intros s B; cbn [outer_loop]; destruct (outer_continue o s) eqn:C.
  - exfalso. apply continue_iff in C. lia.
  - exists 0%nat. split; [reflexivity|]. split; [exact C|]. split; [left; reflexivity|lia].
  - destruct (IH (outer_pass o body s)) as (n & E & SC & P & F); [cbn [outer_pass passes]; lia|].
    assert (SH : state_after o body (outer_pass o body s) n = state_after o body s (S n)) by (unfold state_after; rewrite iter_shift; reflexivity).
    exists (S n). rewrite <- SH. split; [exact E|]. split; [exact SC|]. split.
    + right. apply continue_iff in C. destruct P as [->|P]; [lia|]. cbn [outer_pass passes] in P. lia.
    + intros m M. destruct m as [|m]; [exact C|]. assert (SM : state_after o body (outer_pass o body s) m = state_after o body s (S m)) by (unfold state_after; rewrite iter_shift; reflexivity). rewrite <- SM. apply F. lia.
  - exists 0%nat. split; [reflexivity|]. split; [exact C|]. split; [left; reflexivity|lia].
Qed.

Lemma after_passes o body s n : passes (state_after o body s n) = (passes s + Z.of_nat n)%Z.
Proof. induction n as [|n IH]; [cbn; lia|]. change (state_after o body s (S n)) with (outer_pass o body (state_after o body s n)). cbn [outer_pass passes]. rewrite IH. lia. Qed.
Lemma after_error o body s n : (0 < n)%nat -> last_error (state_after o body s n) = body (frame_c (state_after o body s n)) (passes (state_after o body s n)).
Proof. intros N. destruct n as [|n]; [lia|]. reflexivity. Qed.

(* Every step ends: with the surface error within the tolerance, or after itmax_out + 1 passes,
   and never before itmin_out passes. *)
Theorem C136_ends : forall o body frame a, 0 < error_bc o -> (0 <= itmax_out o)%Z ->
  exists fuel s, outer_loop o body fuel (outer_start o frame a) = Some s
    /\ (1 <= passes s <= Z.max (itmax_out o + 1) (itmin_out o))%Z /\ (itmin_out o <= passes s)%Z
    /\ last_error s = body (frame_c s) (passes s)
    /\ (last_error s <= error_bc o \/ (itmax_out o + 1 <= passes s)%Z).
Proof.
  intros o body frame a E M. destruct (loop_runs o body (Z.to_nat (Z.max (itmax_out o + 1) (itmin_out o))) (outer_start o frame a)) as (n & L & C & P & F); [cbn [outer_start passes]; lia|].
  exists (Z.to_nat (Z.max (itmax_out o + 1) (itmin_out o))), (state_after o body (outer_start o frame a) n). split; [exact L|].
  assert (N : (0 < n)%nat). { destruct n; [|lia]. exfalso. apply continue_not in C. cbn in C. destruct C as [[C|C] _]; [lia|lra]. }
  apply continue_not in C. rewrite after_passes in *. cbn [outer_start passes] in *. split; [lia|]. split; [lia|]. split; [rewrite after_error by exact N; rewrite after_passes; reflexivity|]. destruct C as [[C|C] _]; [right; lia|left; exact C].
Qed.
Print Assumptions C136_ends.

(* itmax_out is not the largest number of passes: a step that does not converge makes one more. *)
Theorem C136_limit_refuted : forall o frame a, 0 < error_bc o -> (0 <= itmax_out o)%Z -> (itmin_out o <= itmax_out o)%Z ->
  exists fuel s, outer_loop o (fun _ _ => 2 * error_bc o) fuel (outer_start o frame a) = Some s /\ passes s = (itmax_out o + 1)%Z.
Proof.
  intros o frame a E M I. destruct (C136_ends o (fun _ _ => 2 * error_bc o) frame a E M) as (fuel & s & L & P & Q & B & SC). exists fuel, s. split; [exact L|]. destruct SC as [SC|SC]; [rewrite B in SC; lra|lia].
Qed.
Print Assumptions C136_limit_refuted.

(* The first pass of a step is made with the stiffness the step before has left, and every later
   one with one factor more while the limit has not been reached. *)
Theorem C136_passes : forall o body frame a n, let s := state_after o body (outer_start o frame a) in
  frame_c (s 1%nat) = frame /\ accum (s 1%nat) = a
  /\ (accum (s (S n)) < mult_incr_mx o -> frame_c (s (S (S n))) = frame_c (s (S n)) * mult_incr o /\ accum (s (S (S n))) = accum (s (S n)) * mult_incr o)
  /\ (mult_incr_mx o <= accum (s (S n)) -> frame_c (s (S (S n))) = frame_c (s (S n)) /\ accum (s (S (S n))) = accum (s (S n))).
Proof.
  intros o body frame a n s. split; [reflexivity|]. split; [reflexivity|].
  assert (P : (1 <? passes (s (S n)) + 1)%Z = true) by (apply Z.ltb_lt; unfold s; rewrite after_passes; cbn [outer_start passes]; lia).
  assert (N : s (S (S n)) = outer_pass o body (s (S n))) by reflexivity. clearbody s.
  rewrite N. unfold outer_pass. cbn [frame_c accum]. rewrite P. cbn [andb]. split; intros L; destruct (Rlt_dec _ _); try (exfalso; lra); split; reflexivity.
Qed.
Print Assumptions C136_passes.

(* ---------- the stiffness of the frame ---------- *)

Definition grown (o : np_outer) (frame0 a0 : R) (c a : R) : Prop :=
  exists k, c = frame0 * mult_incr o ^ k /\ a = a0 * mult_incr o ^ k /\ (k = 0%nat \/ a < mult_incr_mx o * mult_incr o).
Lemma pass_grown o body f0 a0 s : 0 < mult_incr o -> grown o f0 a0 (frame_c s) (accum s) -> grown o f0 a0 (frame_c (outer_pass o body s)) (accum (outer_pass o body s)).
Proof.
  intros M (k & C & A & B). unfold outer_pass. cbn [frame_c accum]. destruct (1 <? passes s + 1)%Z; cbn [andb]; [|exists k; repeat split; assumption].
  destruct (Rlt_dec (accum s) (mult_incr_mx o)) as [L|L]; [|exists k; repeat split; assumption].
  exists (S k). rewrite C, A. cbn [pow]. split; [ring|]. split; [ring|]. right. rewrite <- A. apply Rmult_lt_compat_r; assumption.
Qed.
Lemma loop_grown o body f0 a0 : 0 < mult_incr o -> forall fuel s r, outer_loop o body fuel s = Some r -> grown o f0 a0 (frame_c s) (accum s) -> grown o f0 a0 (frame_c r) (accum r).
Proof.
  intros M. induction fuel as [|fuel IH]; intros s r; cbn [outer_loop]; destruct (outer_continue o s); intros L G; try discriminate; [injection L as <-; exact G| |injection L as <-; exact G].
  apply (IH _ _ L). apply pass_grown; assumption.
Qed.

(* Over a whole run the stiffness of the frame is its first value times a power of the factor,
   which stays below the limit times one factor. *)
Theorem C136_stiffness : forall o bodies fuel frame0 c a, 0 < mult_incr o -> outer_steps o bodies fuel frame0 1 = Some (c, a) ->
  exists k, c = frame0 * mult_incr o ^ k /\ a = mult_incr o ^ k /\ (k = 0%nat \/ mult_incr o ^ k < mult_incr_mx o * mult_incr o).
Proof.
  intros o bodies fuel frame0 c a M.
  assert (H : forall bodies f1 a1, grown o frame0 1 f1 a1 -> outer_steps o bodies fuel f1 a1 = Some (c, a) -> grown o frame0 1 c a).
  { clear bodies. induction bodies as [|body rest IH]; intros f1 a1 G; cbn [outer_steps]; intros E; [injection E as <- <-; exact G|].
    destruct (outer_loop o body fuel (outer_start o f1 a1)) as [s|] eqn:L; [|discriminate]. apply (IH _ _ (loop_grown o body frame0 1 M _ _ _ L G) E). }
  intros E. destruct (H bodies frame0 1) as (k & C & A & B); [exists 0%nat; cbn [pow]; split; [ring|split; [ring|left; reflexivity]]|exact E|].
  exists k. rewrite Rmult_1_l in A. split; [exact C|]. split; [exact A|]. destruct B as [B|B]; [left; exact B|right; rewrite <- A; exact B].
Qed.
Print Assumptions C136_stiffness.

(* ---------- the error of the surface ---------- *)

Lemma norm_of_nonneg v : 0 <= norm_of v.
Proof. apply sqrt_pos. Qed.
Lemma norm_of_0 v : norm_of v = 0 <-> forall i, idx 3 i -> v i = 0.
Proof.
  unfold norm_of. split.
  - intros H i I. apply sqrt_eq_0 in H; [|pose proof (pow2_ge_0 (v 1%nat)); pose proof (pow2_ge_0 (v 2%nat)); pose proof (pow2_ge_0 (v 3%nat)); lra].
    pose proof (pow2_ge_0 (v 1%nat)) as A. pose proof (pow2_ge_0 (v 2%nat)) as B. pose proof (pow2_ge_0 (v 3%nat)) as C.
    assert (Z : forall x, x ^ 2 = 0 -> x = 0) by (intros x X; destruct (Req_dec x 0) as [E|E]; [exact E|]; apply (pow_nonzero x 2) in E; contradiction).
    destruct (idx3 i I) as [-> | [-> | ->]]; apply Z; lra.
  - intros H. rewrite !H by (unfold idx; lia). replace (0 ^ 2 + 0 ^ 2 + 0 ^ 2) with 0 by ring. apply sqrt_0.
Qed.
Lemma suml_zero {A} (f : A -> R) l : (forall a, In a l -> 0 <= f a) -> suml f l = 0 -> forall a, In a l -> f a = 0.
Proof.
  induction l as [|b l IH]; intros N SU a I; [contradiction|]. rewrite suml_cons in SU. pose proof (N b (or_introl eq_refl)) as B. assert (T : 0 <= suml f l) by (apply suml_nonneg; intros; apply N; right; assumption).
  destruct I as [<-|I]; [lra|]. apply IH; [intros; apply N; right; assumption|lra|exact I].
Qed.

(* The error that ends the iteration is zero exactly when the surface moves as applied, up to a
   translation. *)
Theorem C136_error : forall g velapp velocity e, surface_error g velapp velocity = Some e ->
  0 <= e /\ (e = 0 <-> exists c, forall p i, In p (loaded_sites g) -> idx 3 i -> velocity p i = velapp p i + c i).
Proof.
  intros g velapp velocity e. unfold surface_error. destruct (Req_EM_T (loaded_count g) 0) as [|NZ]; [discriminate|].
  set (va := loaded_mean g velapp). set (vb := loaded_mean g velocity).
  set (veln := suml (fun p => norm_of (fun ii => velapp p ii - va ii)) (loaded_sites g) / loaded_count g).
  set (SUM := suml (fun p => norm_of (fun ii => (velapp p ii - va ii) - (velocity p ii - vb ii))) (loaded_sites g)).
  destruct (Req_EM_T veln 0) as [|VZ]; [discriminate|]. intros E. injection E as <-.
  assert (CP : 0 < loaded_count g). { unfold loaded_count in *. pose proof (suml_nonneg (fun _ : site => 1) (loaded_sites g) ltac:(intros; lra)). lra. }
  assert (VP : 0 < veln). { assert (0 <= veln) by (unfold veln; apply Rmult_le_pos; [apply suml_nonneg; intros; apply norm_of_nonneg|apply Rlt_le, Rinv_0_lt_compat, CP]). lra. }
  assert (SP : 0 <= SUM) by (apply suml_nonneg; intros; apply norm_of_nonneg).
  split; [unfold Rdiv; apply Rmult_le_pos; [apply Rmult_le_pos; [exact SP|apply Rlt_le, Rinv_0_lt_compat, CP]|apply Rlt_le, Rinv_0_lt_compat, VP]|].
  split.
  - intros Z. assert (S0 : SUM = 0). { apply Rmult_eq_reg_r with (/ loaded_count g * / veln); [|apply Rmult_integral_contrapositive; split; apply Rinv_neq_0_compat; assumption]. rewrite Rmult_0_l. unfold Rdiv in Z. rewrite <- Rmult_assoc. exact Z. }
    exists (fun i => vb i - va i). intros p i P I. pose proof (suml_zero _ _ (fun a _ => norm_of_nonneg _) S0 p P) as H. cbv beta in H.
    pose proof (proj1 (norm_of_0 _) H i I) as H'. cbv beta in H'. lra.
  - intros (c & H). assert (M : forall i, idx 3 i -> vb i = va i + c i).
    { intros i I. unfold vb, va, loaded_mean. rewrite (suml_ext (fun p => velocity p i) (fun p => velapp p i + c i)) by (intros p P; apply H; assumption).
      rewrite suml_plus. rewrite (suml_ext (fun _ => c i) (fun _ => c i * 1)) by (intros; ring). rewrite suml_scal. fold (loaded_count g). field. exact NZ. }
    assert (S0 : SUM = 0). { unfold SUM. rewrite (suml_ext _ (fun _ => 0)); [apply suml_0|]. intros p P. apply norm_of_0. intros i I. rewrite (H p i P I), (M i I). ring. }
    rewrite S0. unfold Rdiv. ring.
Qed.
Print Assumptions C136_error.

(* ---------- the law of the frame ---------- *)

Lemma on_tensor_act A t i j : on_tensor A t i j = act A t i j.
Proof. unfold on_tensor, act. rewrite sum1_3. apply S3_ext. intros k K. apply sum1_3. Qed.

Lemma operator_v c066 s66 v n : idx 6 n -> mat_v (frame_operator c066 s66) v n = mat_v c066 (mat_v s66 v) n + v n.
Proof.
  intros N. unfold mat_v, frame_operator. rewrite (S6_ext _ (fun m => S6 (fun k => c066 n k * s66 k m) * v m + d n m * v m)) by (intros m Hm; rewrite sum1_6; unfold d; ring).
  rewrite S6_plus, S6_d' by exact N. unfold S6. ring.
Qed.

(* A frame point stops changing exactly when its stress has changed, since the start of the
   pass, by the frame stiffness times the difference between the velocity gradient and the one
   given by the surface. *)
Theorem C136_frame_law : forall c066 ci dF c L E old sg,
  let s66 := fun n m => dF n m / c in
  symmetric sg -> inverse6 c066 ci -> inverse6 (frame_operator c066 s66) (inverted 6 (frame_operator c066 s66)) ->
  (forall i j, idx 3 i -> idx 3 j -> frame_update (chg_basis_3 6 c066) (frame_inverse c066 (frame_compliance dF c)) L E (frame_old (frame_compliance dF c) old) sg i j = sg i j)
  <-> (forall i j, idx 3 i -> idx 3 j -> act (chg_basis_3 6 s66) (fun k l => sg k l - old k l) i j = sym_part (fun k l => L k l - E k l) i j).
Proof.
  intros c066 ci dF c L E old sg s66 SG CI OI. change (frame_compliance dF c) with s66.
  set (D := fun k l => L k l - E k l). set (rhs6 := fun n => comps sg n + mat_v c066 (fun m => comps D m + mat_v s66 (comps old) m) n).
  assert (U : forall i j, frame_update (chg_basis_3 6 c066) (frame_inverse c066 s66) L E (frame_old s66 old) sg i j = expand (mat_v (inverted 6 (frame_operator c066 s66)) rhs6) i j).
  { intros i j. unfold frame_update, frame_inverse. cbv zeta. rewrite on_tensor_act, act_expand. apply expand_ext. intros n N. apply mat_v_ext. intros m Hm. unfold rhs6.
    assert (A : forall i j, on_tensor (chg_basis_3 6 c066) (fun k l => L k l - (E k l - frame_old s66 old k l)) i j = expand (mat_v c066 (comps (fun k l => D k l + expand (mat_v s66 (comps old)) k l))) i j).
    { intros a b. rewrite on_tensor_act, act_expand. apply expand_ext. intros q Q. apply mat_v_ext. intros r Rr. apply comps_ext. intros k l K Ll. unfold frame_old. rewrite on_tensor_act, act_expand. unfold D. ring. }
    rewrite (comps_ext _ (fun i j => sg i j + expand (mat_v c066 (comps (fun k l => D k l + expand (mat_v s66 (comps old)) k l))) i j)) by (intros; rewrite A; reflexivity).
    assert (CP : forall X Y n, comps (fun k l => X k l + Y k l) n = comps X n + comps Y n) by (intros; unfold comps, S3; ring).
    rewrite CP, comps_expand by exact Hm. f_equal. apply mat_v_ext. intros q Q. rewrite CP, comps_expand by exact Q. reflexivity. }
  assert (SGE : forall i j, idx 3 i -> idx 3 j -> sg i j = expand (comps sg) i j) by (intros; rewrite expand_comps_sym by assumption; reflexivity).
  assert (KEY : forall n, idx 6 n -> mat_v (frame_operator c066 s66) (comps sg) n - rhs6 n = mat_v c066 (fun m => mat_v s66 (comps (fun k l => sg k l - old k l)) m - comps D m) n).
  { intros n N. rewrite operator_v by exact N. unfold rhs6.
    assert (CM : forall m, comps (fun k l => sg k l - old k l) m = comps sg m - comps old m) by (intros; unfold comps, S3; ring).
    assert (MV : forall m, mat_v s66 (comps (fun k l => sg k l - old k l)) m = mat_v s66 (comps sg) m - mat_v s66 (comps old) m) by (intros m; unfold mat_v, S6; rewrite !CM; ring).
    rewrite (mat_v_ext c066 (fun m => mat_v s66 (comps (fun k l => sg k l - old k l)) m - comps D m) (fun m => mat_v s66 (comps sg) m - mat_v s66 (comps old) m - comps D m)) by (intros; rewrite MV; reflexivity).
    clear. set (ps := mat_v s66 (comps sg)). set (po := mat_v s66 (comps old)). set (dd := comps D). clearbody ps po dd. unfold mat_v, S6. ring. }
  split.
  - intros H i j I J. rewrite act_expand.
    assert (Z : forall n, idx 6 n -> comps sg n = mat_v (inverted 6 (frame_operator c066 s66)) rhs6 n).
    { intros n N. rewrite <- (comps_expand (mat_v (inverted 6 (frame_operator c066 s66)) rhs6) n N). apply comps_ext. intros k l K Ll. rewrite <- U. symmetry. apply H; assumption. }
    assert (R : forall n, idx 6 n -> mat_v (frame_operator c066 s66) (comps sg) n = rhs6 n).
    { intros n N. rewrite (mat_v_ext _ (comps sg) (mat_v (inverted 6 (frame_operator c066 s66)) rhs6)) by exact Z. apply (mat_inverse _ _ rhs6 n OI N). }
    assert (W : forall n, idx 6 n -> mat_v s66 (comps (fun k l => sg k l - old k l)) n = comps D n).
    { intros n N. set (w := fun m => mat_v s66 (comps (fun k l => sg k l - old k l)) m - comps D m). assert (W0 : w n = 0).
      { rewrite <- (proj2 (mat_inverse c066 ci w n CI N)). rewrite (mat_v_ext ci (mat_v c066 w) (fun _ => 0)); [unfold mat_v, S6; ring|]. intros m Hm. unfold w. rewrite <- KEY by exact Hm. rewrite R by exact Hm. ring. }
      unfold w in W0. lra. }
    rewrite (expand_ext _ (comps D)) by exact W. rewrite expand_comps by assumption. unfold sym_part, D. reflexivity.
  - intros H i j I J. rewrite U, SGE by assumption. apply expand_ext. intros n N.
    assert (W : forall n, idx 6 n -> mat_v s66 (comps (fun k l => sg k l - old k l)) n = comps D n).
    { intros m Hm. rewrite <- (comps_expand (mat_v s66 (comps (fun k l => sg k l - old k l))) m Hm). rewrite (comps_ext _ (sym_part D)).
      - unfold sym_part, comps, S3. rewrite (basis_sym 2 1), (basis_sym 3 1), (basis_sym 3 2). field.
      - intros k l K Ll. rewrite <- act_expand. apply H; assumption. }
    assert (R : forall n, idx 6 n -> mat_v (frame_operator c066 s66) (comps sg) n = rhs6 n).
    { intros m Hm. assert (Q : mat_v (frame_operator c066 s66) (comps sg) m - rhs6 m = 0); [|lra]. rewrite KEY by exact Hm. rewrite (mat_v_ext c066 _ (fun _ => 0)); [unfold mat_v, S6; ring|]. intros q Q. rewrite W by exact Q. ring. }
    rewrite <- (proj2 (mat_inverse _ _ (comps sg) n OI N)). apply mat_v_ext. intros m Hm. symmetry. apply R. exact Hm.
Qed.
Print Assumptions C136_frame_law.

(* The hypotheses are met: unit matrices make the operator twice the unit matrix. *)
Example C136_frame_met : inverse6 d d /\ (let s66 := frame_compliance d 1 in inverse6 (frame_operator d s66) (inverted 6 (frame_operator d s66))).
Proof.
  split; [intros n m N M; split; apply S6_d; exact M|]. cbv zeta. apply inverted6. intros x (n & N & X).
  assert (E : S6 (fun n => S6 (fun m => x n * frame_operator d (frame_compliance d 1) n m * x m)) = 2 * S6 (fun n => x n ^ 2)).
  { unfold frame_operator, frame_compliance. unfold S6, sum1, d. cbn [sumn Nat.eqb]. field. }
  rewrite E. assert (Q : 0 < S6 (fun n => x n ^ 2)); [|lra]. unfold S6.
  assert (P : 0 < x n ^ 2) by (apply Rsqr_pos_lt in X; unfold Rsqr in X; lra).
  pose proof (pow2_ge_0 (x 1%nat)). pose proof (pow2_ge_0 (x 2%nat)). pose proof (pow2_ge_0 (x 3%nat)). pose proof (pow2_ge_0 (x 4%nat)). pose proof (pow2_ge_0 (x 5%nat)). pose proof (pow2_ge_0 (x 6%nat)).
  destruct (idx6 n N) as [-> | [-> | [-> | [-> | [-> | ->]]]]]; lra.
Qed.

(* ---------- the moving nodes ---------- *)

(* In the exact scheme a node moves with the voxels on its two sides, the grid closing on
   itself, on every process. *)
Theorem C136_neighbours : forall npts start i, (0 <= start)%Z -> (1 <= i)%Z -> (i + start <= npts + 1)%Z -> (1 <= npts)%Z ->
  let '(a, b) := node_neighbours npts start i in
  (1 <= a <= npts)%Z /\ (1 <= b <= npts)%Z /\ (a mod npts = (i + start - 1) mod npts)%Z /\ (b mod npts = (i + start) mod npts)%Z.
Proof.
  intros npts start i S0 I B N. unfold node_neighbours. destruct (Z.eqb_spec (i + start) 1) as [E|E]; [|destruct (Z.eqb_spec (i + start) (npts + 1)) as [F|F]].
  - rewrite E. split; [lia|]. split; [lia|]. split; [|reflexivity]. rewrite Z.mod_same by lia. reflexivity.
  - rewrite F. split; [lia|]. split; [lia|]. split; [f_equal; lia|]. replace (npts + 1)%Z with (1 + 1 * npts)%Z by lia. rewrite Z.mod_add by lia. reflexivity.
  - split; [lia|]. split; [lia|]. split; reflexivity.
Qed.
Print Assumptions C136_neighbours.

(* In the rotated scheme a node moves with its own point on the first process only: on every
   other one it takes the velocity of a point of the first. *)
Theorem C136_nodes_single : forall npts i, (1 <= i <= npts)%Z -> node_source npts 0 i = i /\ node_source npts 0 (npts + 1) = 1%Z.
Proof. intros npts i I. unfold node_source. rewrite !Z.add_0_r. rewrite Z.eqb_refl. destruct (Z.eqb_spec i (npts + 1)); [lia|]. split; reflexivity. Qed.
Print Assumptions C136_nodes_single.
Theorem C136_nodes_refuted : forall npts start i, (0 < start)%Z -> (1 <= i)%Z -> (i + start <= npts)%Z -> node_source npts start i <> (i + start)%Z.
Proof. intros npts start i S0 I B. unfold node_source. destruct (Z.eqb_spec (i + start) (npts + 1)); lia. Qed.
Print Assumptions C136_nodes_refuted.

Example C136_met : exists s, outer_loop (NpOuter (1 / 100) 1 3 2 8) (fun c it => if (it =? 2)%Z then 1 / 1000 else 1) 5 (outer_start (NpOuter (1 / 100) 1 3 2 8) 10 1) = Some s /\ passes s = 2%Z /\ frame_c s = 20.
Proof.
  set (o := NpOuter (1 / 100) 1 3 2 8). set (b := fun (c : R) (it : Z) => if (it =? 2)%Z then 1 / 1000 else 1).
  assert (P1 : outer_pass o b (outer_start o 10 1) = NpState 1 1 10 1) by reflexivity.
  assert (P2 : outer_pass o b (NpState 1 1 10 1) = NpState 2 (1 / 1000) (10 * 2) (1 * 2)).
  { unfold outer_pass. cbn [accum frame_c passes mult_incr_mx mult_incr o]. destruct (Rlt_dec 1 8) as [_|H]; [|exfalso; lra]. reflexivity. }
  assert (C1 : outer_continue o (outer_start o 10 1) = true) by (apply continue_iff; right; reflexivity).
  assert (C2 : outer_continue o (NpState 1 1 10 1) = true) by (apply continue_iff; left; cbn [passes last_error itmax_out error_bc o]; split; [lia|lra]).
  assert (C3 : outer_continue o (NpState 2 (1 / 1000) (10 * 2) (1 * 2)) = false) by (apply continue_not; cbn [passes last_error itmax_out itmin_out error_bc o]; split; [right; lra|lia]).
  exists (NpState 2 (1 / 1000) (10 * 2) (1 * 2)). split; [|cbn [passes frame_c]; split; [reflexivity|lra]].
  cbn [outer_loop]. rewrite C1, P1, C2, P2, C3. reflexivity.
Qed.
