(** Proofs about the cohesive zones: openings, damage, tractions, forces and the prescribed motion. *)
From Coq Require Import Reals List Lia Lra FunctionalExtensionality.
From Verif Require Import BaseArr BaseReal FracModel FracSpec.
From Verif Require SghModel.
Import ListNotations.
Open Scope R_scope.

Lemma half_eq : 0.5 = / 2. Proof. lra. Qed.

(** ** Vectors *)
Lemma vdot_nonneg a : 0 <= vdot a a.
Proof. unfold vdot. pose proof (Rle_0_sqr (a 0%nat)). pose proof (Rle_0_sqr (a 1%nat)). pose proof (Rle_0_sqr (a 2%nat)). unfold Rsqr in *. lra. Qed.
Lemma vmag_nonneg a : 0 <= vmag a. Proof. apply sqrt_pos. Qed.
Lemma vmag_sq a : vmag a * vmag a = vdot a a. Proof. apply sqrt_sqrt, vdot_nonneg. Qed.
Lemma vdot_ext a a' b b' : same3 a a' -> same3 b b' -> vdot a b = vdot a' b'.
Proof. intros A B. unfold vdot. rewrite (A 0%nat), (A 1%nat), (A 2%nat), (B 0%nat), (B 1%nat), (B 2%nat) by lia. reflexivity. Qed.
Lemma vmag_ext a b : same3 a b -> vmag a = vmag b.
Proof. intros H. unfold vmag. f_equal. apply vdot_ext; exact H. Qed.
Lemma vmag_zero a : vmag a = 0 -> same3 a vzero.
Proof.
  intros H. assert (E : vdot a a = 0) by (rewrite <- vmag_sq, H; ring). unfold vdot in E.
  pose proof (Rle_0_sqr (a 0%nat)). pose proof (Rle_0_sqr (a 1%nat)). pose proof (Rle_0_sqr (a 2%nat)). unfold Rsqr in *.
  intros k K. unfold vzero. destruct k as [|[|[|k]]]; [| | |lia]; apply Rsqr_0_uniq; unfold Rsqr; lra.
Qed.
Lemma vmag_scale c a : vmag (vscale c a) = Rabs c * vmag a.
Proof.
  unfold vmag. replace (vdot (vscale c a) (vscale c a)) with (c * c * vdot a a) by (unfold vdot, vscale; ring).
  rewrite sqrt_mult_alt by (apply Rle_0_sqr). f_equal. apply sqrt_Rsqr_abs.
Qed.
Lemma vmag_pos_sq a : vdot a a <> 0 -> 0 < vmag a.
Proof. intros H. apply sqrt_lt_R0. pose proof (vdot_nonneg a). lra. Qed.

(** ** Openings *)
Definition along (u n : vec) : R := vdot u n.
Definition across (u n : vec) : vec := fun k => u k - vdot u n * n k.
Lemma across_sq u n : unit_vec n -> vdot (across u n) (across u n) = vdot u u - vdot u n * vdot u n.
Proof.
  intros U. unfold unit_vec in U.
  assert (G : forall c, vdot (fun k => u k - c * n k) (fun k => u k - c * n k) = vdot u u - 2 * c * vdot u n + c * c * vdot n n)
    by (intros c; unfold vdot; ring).
  unfold across. rewrite G, U. ring.
Qed.
Lemma ucmap_eq xA xB vA vB n dt :
  ucmap xA xB vA vB n dt =
  mkOpening (along (vminus xB xA) n) (vmag (across (vminus xB xA) n))
    (along (vplus (vminus xB xA) (vscale dt (vminus vB vA))) n) (vmag (across (vplus (vminus xB xA) (vscale dt (vminus vB vA))) n)).
Proof.
  unfold ucmap. f_equal.
  - unfold along, vdot, vplus, vminus, vscale. ring.
  - apply vmag_ext. intros k K. unfold across, vdot, vplus, vminus, vscale. ring.
Qed.
Lemma along_across u n : unit_vec n -> along u n * along u n + vmag (across u n) * vmag (across u n) = vdot u u.
Proof. intros U. rewrite vmag_sq, (across_sq u n U). unfold along. ring. Qed.

Lemma turn_dot Q a b : orthonormal Q -> vdot (turn Q a) (turn Q b) = vdot a b.
Proof.
  intros H.
  assert (O : forall i j, (i < 3)%nat -> (j < 3)%nat -> Q 0%nat i * Q 0%nat j + Q 1%nat i * Q 1%nat j + Q 2%nat i * Q 2%nat j = if Nat.eqb i j then 1 else 0).
  { intros i j I J. rewrite <- (H i j I J). unfold sumn. cbn [seq fold_right map]. ring. }
  assert (O00 := O 0%nat 0%nat ltac:(lia) ltac:(lia)). assert (O01 := O 0%nat 1%nat ltac:(lia) ltac:(lia)). assert (O02 := O 0%nat 2%nat ltac:(lia) ltac:(lia)).
  assert (O11 := O 1%nat 1%nat ltac:(lia) ltac:(lia)). assert (O12 := O 1%nat 2%nat ltac:(lia) ltac:(lia)). assert (O22 := O 2%nat 2%nat ltac:(lia) ltac:(lia)).
  cbn [Nat.eqb] in *. unfold turn, vdot.
  replace ((Q 0%nat 0%nat * a 0%nat + Q 0%nat 1%nat * a 1%nat + Q 0%nat 2%nat * a 2%nat) * (Q 0%nat 0%nat * b 0%nat + Q 0%nat 1%nat * b 1%nat + Q 0%nat 2%nat * b 2%nat) +
    (Q 1%nat 0%nat * a 0%nat + Q 1%nat 1%nat * a 1%nat + Q 1%nat 2%nat * a 2%nat) * (Q 1%nat 0%nat * b 0%nat + Q 1%nat 1%nat * b 1%nat + Q 1%nat 2%nat * b 2%nat) +
    (Q 2%nat 0%nat * a 0%nat + Q 2%nat 1%nat * a 1%nat + Q 2%nat 2%nat * a 2%nat) * (Q 2%nat 0%nat * b 0%nat + Q 2%nat 1%nat * b 1%nat + Q 2%nat 2%nat * b 2%nat))
  with ((Q 0%nat 0%nat * Q 0%nat 0%nat + Q 1%nat 0%nat * Q 1%nat 0%nat + Q 2%nat 0%nat * Q 2%nat 0%nat) * (a 0%nat * b 0%nat) +
        (Q 0%nat 1%nat * Q 0%nat 1%nat + Q 1%nat 1%nat * Q 1%nat 1%nat + Q 2%nat 1%nat * Q 2%nat 1%nat) * (a 1%nat * b 1%nat) +
        (Q 0%nat 2%nat * Q 0%nat 2%nat + Q 1%nat 2%nat * Q 1%nat 2%nat + Q 2%nat 2%nat * Q 2%nat 2%nat) * (a 2%nat * b 2%nat) +
        (Q 0%nat 0%nat * Q 0%nat 1%nat + Q 1%nat 0%nat * Q 1%nat 1%nat + Q 2%nat 0%nat * Q 2%nat 1%nat) * (a 0%nat * b 1%nat + a 1%nat * b 0%nat) +
        (Q 0%nat 0%nat * Q 0%nat 2%nat + Q 1%nat 0%nat * Q 1%nat 2%nat + Q 2%nat 0%nat * Q 2%nat 2%nat) * (a 0%nat * b 2%nat + a 2%nat * b 0%nat) +
        (Q 0%nat 1%nat * Q 0%nat 2%nat + Q 1%nat 1%nat * Q 1%nat 2%nat + Q 2%nat 1%nat * Q 2%nat 2%nat) * (a 1%nat * b 2%nat + a 2%nat * b 1%nat)) by ring.
  rewrite O00, O11, O22, O01, O02, O12. ring.
Qed.

Lemma ucmap_frame Q c w xA xB vA vB n dt : orthonormal Q ->
  ucmap (vplus (turn Q xA) c) (vplus (turn Q xB) c) (vplus (turn Q vA) w) (vplus (turn Q vB) w) (turn Q n) dt = ucmap xA xB vA vB n dt.
Proof.
  intros H. rewrite !ucmap_eq.
  assert (E1 : same3 (vminus (vplus (turn Q xB) c) (vplus (turn Q xA) c)) (turn Q (vminus xB xA)))
    by (intros k K; unfold vminus, vplus, turn, vdot; ring).
  assert (E2 : same3 (vplus (vminus (vplus (turn Q xB) c) (vplus (turn Q xA) c)) (vscale dt (vminus (vplus (turn Q vB) w) (vplus (turn Q vA) w))))
                     (turn Q (vplus (vminus xB xA) (vscale dt (vminus vB vA)))))
    by (intros k K; unfold vminus, vplus, vscale, turn, vdot; ring).
  assert (A : forall u' u, same3 u' (turn Q u) -> along u' (turn Q n) = along u n).
  { intros u' u E. unfold along. rewrite (vdot_ext u' (turn Q u) (turn Q n) (turn Q n) E (fun _ _ => eq_refl)). apply turn_dot, H. }
  assert (X : forall u' u, same3 u' (turn Q u) -> vmag (across u' (turn Q n)) = vmag (across u n)).
  { intros u' u E. unfold vmag. rewrite <- (turn_dot Q (across u n) (across u n) H).
    f_equal. apply vdot_ext; intros k K; unfold across; fold (along u' (turn Q n)); rewrite (A u' u E), (E k K);
    unfold along, turn, vdot; ring. }
  rewrite (A _ _ E1), (A _ _ E2), (X _ _ E1), (X _ _ E2). reflexivity.
Qed.

Lemma spin_sq u w dt : vdot (vplus u (vscale dt (vcross w u))) (vplus u (vscale dt (vcross w u))) = vdot u u + dt * dt * vdot (vcross w u) (vcross w u).
Proof. unfold vdot, vplus, vscale, vcross. ring. Qed.

(** ** One step is what its last stage does *)
Lemma step_last P N dt o v : (1 <= N)%nat -> cz_step P N dt o v = commit v (var_update P dt (o (N - 1)%nat) v (reset_vars v)).
Proof.
  intros H. unfold cz_step. destruct N as [|n]; [lia|]. rewrite seq_S, fold_left_app. replace (S n - 1)%nat with n by lia. cbn [Nat.add fold_left].
  assert (E : fold_left (fun v k => fst (cz_stage P (1 / (INR (S n) - INR k) * dt) (o k) (Nat.eqb k n) v)) (seq 0 n) v = v).
  { assert (G : forall l, (forall k, In k l -> (k < n)%nat) ->
      fold_left (fun v k => fst (cz_stage P (1 / (INR (S n) - INR k) * dt) (o k) (Nat.eqb k n) v)) l v = v).
    { induction l as [|k l IH]; intros L; [reflexivity|]. cbn [fold_left]. unfold cz_stage at 2. cbn [fst].
      replace (Nat.eqb k n) with false by (symmetry; apply Nat.eqb_neq; specialize (L k (or_introl eq_refl)); lia).
      apply IH. intros j J. apply L. right. exact J. }
    apply G. intros k K. apply in_seq in K. lia. }
  rewrite E. unfold cz_stage. rewrite Nat.eqb_refl. cbn [fst]. replace (1 / (INR (S n) - INR n) * dt) with dt; [reflexivity|].
  rewrite S_INR. field. lra.
Qed.
Lemma run_app P N l1 l2 v : cz_run P N (l1 ++ l2) v = cz_run P N l2 (cz_run P N l1 v).
Proof. unfold cz_run. apply fold_left_app. Qed.
Lemma run_cons P N dt o l v : cz_run P N ((dt, o) :: l) v = cz_run P N l (cz_step P N dt o v).
Proof. reflexivity. Qed.
Lemma run_N0 P l v : cz_run P 0 l v = v.
Proof. revert v. induction l as [|[dt o] l IH]; intros v; [reflexivity|]. rewrite run_cons. apply IH. Qed.

(** ** Damage *)
Definition growth (P : czpar) (dt : R) (o : opening) : R :=
  let lt := lambda P (un_t o) (ut_t o) in let l' := lambda P (un_tdt o) (ut_tdt o) in
  if Rlt_dec lt l' then a1 P * Rpower ((l' + lt) / 2) (n_exp P) * dt else 0.

Lemma update_alpha P dt o v d0 : 0 < dt -> u_n_star P <> 0 -> u_t_star P <> 0 ->
  c_alpha (var_update P dt o v d0) = if Rlt_dec 1 (c_alpha v + growth P dt o) then 1 - c_alpha v else growth P dt o.
Proof.
  intros D N T. unfold var_update. destruct (Rlt_dec 0 dt); [|contradiction]. destruct (Req_EM_T (u_n_star P) 0); [contradiction|].
  destruct (Req_EM_T (u_t_star P) 0); [contradiction|]. cbn [c_alpha]. unfold growth.
  set (lt := lambda P (un_t o) (ut_t o)). set (l' := lambda P (un_tdt o) (ut_tdt o)).
  assert (E : (if Rlt_dec 0 ((l' - lt) / dt) then a1 P * Rpower (0.5 * (l' + lt)) (n_exp P) else 0) * dt =
              if Rlt_dec lt l' then a1 P * Rpower ((l' + lt) / 2) (n_exp P) * dt else 0).
  { destruct (Rlt_dec 0 ((l' - lt) / dt)) as [A|A]; destruct (Rlt_dec lt l') as [B|B].
    - replace (0.5 * (l' + lt)) with ((l' + lt) / 2) by lra. reflexivity.
    - exfalso. apply B. apply (Rmult_lt_compat_r dt) in A; [|exact D]. unfold Rdiv in A. rewrite Rmult_0_l, Rmult_assoc, Rinv_l in A; lra.
    - exfalso. apply A. apply Rdiv_lt_0_compat; lra.
    - ring. }
  rewrite E. reflexivity.
Qed.
Lemma growth_nonneg P dt o : 0 <= a1 P -> 0 < dt -> 0 <= growth P dt o.
Proof.
  intros A D. unfold growth. destruct (Rlt_dec _ _); [|lra]. apply Rmult_le_pos; [|lra]. apply Rmult_le_pos; [exact A|]. unfold Rpower. left. apply exp_pos.
Qed.
Lemma alpha_cases P dt o v : let d := var_update P dt o v (reset_vars v) in
  (0 < dt /\ u_n_star P <> 0 /\ u_t_star P <> 0) \/ c_alpha d = 0.
Proof.
  cbv zeta. unfold var_update. destruct (Rlt_dec 0 dt); [|right; reflexivity]. destruct (Req_EM_T (u_n_star P) 0); [right; reflexivity|].
  destruct (Req_EM_T (u_t_star P) 0); [right; reflexivity|]. left. tauto.
Qed.
Lemma step_alpha P N dt o v : 0 <= a1 P -> c_alpha v <= 1 -> c_alpha v <= c_alpha (cz_step P N dt o v) <= 1.
Proof.
  intros A V. destruct N as [|n]; [cbn; lra|]. rewrite step_last by lia. cbn [commit c_alpha].
  destruct (alpha_cases P dt (o (S n - 1)%nat) v) as [(D & U1 & U2)|E]; [|rewrite E; lra].
  rewrite (update_alpha _ _ _ _ _ D U1 U2). pose proof (growth_nonneg P dt (o (S n - 1)%nat) A D).
  destruct (Rlt_dec _ _); lra.
Qed.
Lemma run_alpha P N l : forall v, 0 <= a1 P -> c_alpha v <= 1 -> c_alpha v <= c_alpha (cz_run P N l v) <= 1.
Proof.
  induction l as [|[dt o] l IH]; intros v A V; [cbn; lra|]. rewrite run_cons.
  destruct (step_alpha P N dt o v A V). destruct (IH (cz_step P N dt o v) A ltac:(lra)). lra.
Qed.

(** ** Tractions *)
Lemma failed_increment P dt o v : c_alpha v = 1 -> 0 <= a1 P ->
  let d := var_update P dt o v (reset_vars v) in c_alpha d = 0 /\ c_Tn d = 0 /\ c_Tt d = 0.
Proof.
  intros V A. cbv zeta. destruct (alpha_cases P dt o v) as [(D & U1 & U2)|E].
  - assert (AL : c_alpha (var_update P dt o v (reset_vars v)) = 0).
    { rewrite (update_alpha _ _ _ _ _ D U1 U2), V. pose proof (growth_nonneg P dt o A D). destruct (Rlt_dec _ _); lra. }
    split; [exact AL|]. revert AL. unfold var_update. destruct (Rlt_dec 0 dt); [|contradiction].
    destruct (Req_EM_T (u_n_star P) 0); [contradiction|]. destruct (Req_EM_T (u_t_star P) 0); [contradiction|]. cbn [c_alpha c_Tn c_Tt].
    set (da := if Rlt_dec 1 _ then _ else _). intros AL. rewrite AL, V. split; ring.
  - split; [exact E|]. revert E. unfold var_update. destruct (Rlt_dec 0 dt); [|intros _; split; reflexivity].
    destruct (Req_EM_T (u_n_star P) 0); [intros _; split; reflexivity|]. destruct (Req_EM_T (u_t_star P) 0); [intros _; split; reflexivity|].
    cbn [c_alpha c_Tn c_Tt]. set (da := if Rlt_dec 1 _ then _ else _). intros AL. rewrite AL, V. split; ring.
Qed.
Lemma failed_frozen P N l : forall v, c_alpha v = 1 -> 0 <= a1 P ->
  c_alpha (cz_run P N l v) = 1 /\ c_Tn (cz_run P N l v) = c_Tn v /\ c_Tt (cz_run P N l v) = c_Tt v.
Proof.
  destruct N as [|n]; [intros v V _; rewrite run_N0; tauto|].
  induction l as [|[dt o] l IH]; intros v V A; [tauto|]. rewrite run_cons.
  destruct (failed_increment P dt (o (S n - 1)%nat) v V A) as (E1 & E2 & E3).
  assert (S1 : cz_step P (S n) dt o v = commit v (var_update P dt (o (S n - 1)%nat) v (reset_vars v))) by (apply step_last; lia).
  destruct (IH (cz_step P (S n) dt o v)) as (F1 & F2 & F3); [rewrite S1; cbn [commit c_alpha]; lra|exact A|].
  rewrite F1, F2, F3, S1. cbn [commit c_Tn c_Tt]. rewrite E2, E3. split; [reflexivity|split; ring].
Qed.

Lemma lambda_nonneg P un ut : 0 <= lambda P un ut. Proof. apply sqrt_pos. Qed.
Lemma lambda_zero P un ut : 0 < u_n_star P -> 0 < u_t_star P -> lambda P un ut <= 0 -> un = 0 /\ ut = 0.
Proof.
  intros A B H. pose proof (lambda_nonneg P un ut). assert (E : lambda P un ut = 0) by lra. unfold lambda in E.
  set (a := un / u_n_star P) in *. set (b := ut / u_t_star P) in *.
  assert (Q : a * a + b * b = 0). { apply sqrt_eq_0; [|exact E]. pose proof (Rle_0_sqr a). pose proof (Rle_0_sqr b). unfold Rsqr in *. lra. }
  pose proof (Rle_0_sqr a). pose proof (Rle_0_sqr b).
  assert (a = 0) by (apply Rsqr_0_uniq; unfold Rsqr in *; lra). assert (b = 0) by (apply Rsqr_0_uniq; unfold Rsqr in *; lra).
  split.
  - replace un with (a * u_n_star P) by (unfold a; field; lra). rewrite H3. ring.
  - replace ut with (b * u_t_star P) by (unfold b; field; lra). rewrite H4. ring.
Qed.
Lemma guard_n P un ut : 0 < u_n_star P -> 0 < u_t_star P -> un * inv_guard (u_n_star P) (lambda P un ut) * lambda P un ut = un / u_n_star P.
Proof.
  intros A B. unfold inv_guard. destruct (Rlt_dec 0 (u_n_star P)); [|contradiction]. destruct (Rlt_dec 0 (lambda P un ut)) as [L|L].
  - field. lra.
  - destruct (lambda_zero P un ut A B ltac:(lra)) as [-> _]. field. lra.
Qed.
Lemma guard_t P un ut : 0 < u_n_star P -> 0 < u_t_star P -> ut * inv_guard (u_t_star P) (lambda P un ut) * lambda P un ut = ut / u_t_star P.
Proof.
  intros A B. unfold inv_guard. destruct (Rlt_dec 0 (u_t_star P)); [|contradiction]. destruct (Rlt_dec 0 (lambda P un ut)) as [L|L].
  - field. lra.
  - destruct (lambda_zero P un ut A B ltac:(lra)) as [_ ->]. field. lra.
Qed.

(** without Prony terms the increments are differences of the law *)
Lemma plain_increment P dt o v : sane P -> prony P = [] -> 0 < dt ->
  let d := var_update P dt o v (reset_vars v) in
  c_Tn d = E_inf P * (1 - (c_alpha v + c_alpha d)) * un_tdt o / u_n_star P - E_inf P * (1 - c_alpha v) * un_t o / u_n_star P /\
  c_Tt d = E_inf P * (1 - (c_alpha v + c_alpha d)) * ut_tdt o / u_t_star P - E_inf P * (1 - c_alpha v) * ut_t o / u_t_star P.
Proof.
  intros (A & UN & UT) PR D. cbv zeta. unfold var_update. destruct (Rlt_dec 0 dt); [|contradiction].
  destruct (Req_EM_T (u_n_star P) 0) as [E|_]; [lra|]. destruct (Req_EM_T (u_t_star P) 0) as [E|_]; [lra|].
  unfold E_dt, sig_sum_exp, sig_sum. rewrite PR. cbn [combine map fold_left c_Tn c_Tt c_alpha].
  set (da := if Rlt_dec 1 _ then _ else _). clearbody da.
  pose proof (guard_n P (un_t o) (ut_t o) UN UT) as G1. pose proof (guard_n P (un_tdt o) (ut_tdt o) UN UT) as G2.
  pose proof (guard_t P (un_t o) (ut_t o) UN UT) as G3. pose proof (guard_t P (un_tdt o) (ut_tdt o) UN UT) as G4.
  set (lt := lambda P (un_t o) (ut_t o)) in *. set (l' := lambda P (un_tdt o) (ut_tdt o)) in *.
  set (i1 := inv_guard (u_n_star P) lt) in *. set (i2 := inv_guard (u_n_star P) l') in *.
  set (i3 := inv_guard (u_t_star P) lt) in *. set (i4 := inv_guard (u_t_star P) l') in *. clearbody i1 i2 i3 i4 lt l'.
  assert (RD : forall E, E * ((l' - lt) / dt) * dt = E * (l' - lt)) by (intros; field; lra).
  rewrite RD.
  split.
  - replace (E_inf P * (1 - (c_alpha v + da)) * un_tdt o / u_n_star P) with (E_inf P * (1 - (c_alpha v + da)) * (un_tdt o / u_n_star P)) by (field; lra).
    replace (E_inf P * (1 - c_alpha v) * un_t o / u_n_star P) with (E_inf P * (1 - c_alpha v) * (un_t o / u_n_star P)) by (field; lra).
    rewrite <- G1, <- G2. ring.
  - replace (E_inf P * (1 - (c_alpha v + da)) * ut_tdt o / u_t_star P) with (E_inf P * (1 - (c_alpha v + da)) * (ut_tdt o / u_t_star P)) by (field; lra).
    replace (E_inf P * (1 - c_alpha v) * ut_t o / u_t_star P) with (E_inf P * (1 - c_alpha v) * (ut_t o / u_t_star P)) by (field; lra).
    rewrite <- G3, <- G4. ring.
Qed.

Lemma plain_law P N l : forall un ut un' ut' v, sane P -> prony P = [] -> (1 <= N)%nat -> (forall c, In c l -> 0 < fst c) ->
  joined N un ut l un' ut' ->
  let v' := cz_run P N l v in
  c_Tn v' = c_Tn v + E_inf P * (1 - c_alpha v') * un' / u_n_star P - E_inf P * (1 - c_alpha v) * un / u_n_star P /\
  c_Tt v' = c_Tt v + E_inf P * (1 - c_alpha v') * ut' / u_t_star P - E_inf P * (1 - c_alpha v) * ut / u_t_star P.
Proof.
  induction l as [|[dt o] l IH]; intros un ut un' ut' v S PR N1 D J; cbv zeta.
  - destruct J as [-> ->]. cbn [cz_run fold_left]. split; ring.
  - destruct J as (J1 & J2 & J3). unfold last_seen in *. cbn [snd] in *. rewrite run_cons.
    destruct (IH _ _ _ _ (cz_step P N dt o v) S PR N1 (fun c H => D c (or_intror H)) J3) as [T1 T2]. rewrite T1, T2.
    assert (D0 : 0 < dt) by (apply (D (dt, o)); left; reflexivity).
    destruct (plain_increment P dt (o (N - 1)%nat) v S PR D0) as [I1 I2].
    assert (S1 := step_last P N dt o v N1). set (v1 := cz_step P N dt o v) in *. clearbody v1.
    set (d := var_update P dt (o (N - 1)%nat) v (reset_vars v)) in *. clearbody d. subst v1. cbn [commit c_Tn c_Tt c_alpha].
    rewrite I1, I2, J1, J2. split; ring.
Qed.
