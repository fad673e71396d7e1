(* Proofs about the truncated exponential. *)
From Coq Require Import Reals List Arith Lia Lra Psatz.
From Verif Require Import BaseReal EvpModel EvpSpec EvpBasis LsSpec LsModel LsMat LsInv LsPolar LsPolarProps.
Local Open Scope R_scope.

Definition me (a : m3) : m3 := ma one (ma a (ma (ms (1 / 2) (mm a a)) (ms (1 / 6) (mm (mm a a) a)))).

Lemma of2_exp A : of2 (matrix_exp A) = me (of2 A).
Proof.
  assert (E : of2 (matrix_exp A) = ma one (ma (of2 A) (ma (ms (1 / 2) (of2 (mmul A A))) (ms (1 / 6) (of2 (mmul (mmul A A) A)))))).
  { apply m3_ext; unfold matrix_exp, of2, ma, ms, one; cbn [x11 x12 x13 x21 x22 x23 x31 x32 x33 Nat.eqb]; field. }
  rewrite E, !of2_mmul. reflexivity.
Qed.
Lemma of2_scaled c A : of2 (scaled c A) = ms c (of2 A).
Proof. apply m3_ext; unfold scaled, of2, ms; cbn [x11 x12 x13 x21 x22 x23 x31 x32 x33]; ring. Qed.
Lemma of2_determinant A : determinant33 A = dt (of2 A).
Proof. unfold determinant33, dt, of2. cbn [x11 x12 x13 x21 x22 x23 x31 x32 x33]. ring. Qed.

Lemma dot3 a b c x y z : (a * x + b * y + c * z) * (a * x + b * y + c * z) <= (a * a + b * b + c * c) * (x * x + y * y + z * z).
Proof.
  pose proof (Rle_0_sqr (a * y - b * x)). pose proof (Rle_0_sqr (a * z - c * x)). pose proof (Rle_0_sqr (b * z - c * y)). unfold Rsqr in *. lra.
Qed.
Lemma f2_mm a b : f2 (mm a b) <= f2 a * f2 b.
Proof.
  destruct a as [a1 a2 a3 a4 a5 a6 a7 a8 a9], b as [b1 b2 b3 b4 b5 b6 b7 b8 b9]. unfold f2, ip, mm. cbn [x11 x12 x13 x21 x22 x23 x31 x32 x33].
  pose proof (dot3 a1 a2 a3 b1 b4 b7). pose proof (dot3 a1 a2 a3 b2 b5 b8). pose proof (dot3 a1 a2 a3 b3 b6 b9).
  pose proof (dot3 a4 a5 a6 b1 b4 b7). pose proof (dot3 a4 a5 a6 b2 b5 b8). pose proof (dot3 a4 a5 a6 b3 b6 b9).
  pose proof (dot3 a7 a8 a9 b1 b4 b7). pose proof (dot3 a7 a8 a9 b2 b5 b8). pose proof (dot3 a7 a8 a9 b3 b6 b9). lra.
Qed.
Lemma nm_mm a b : nm (mm a b) <= nm a * nm b.
Proof.
  apply Rsqr_incr_0_var; [|apply Rmult_le_pos; apply nm_nonneg]. unfold Rsqr. rewrite nm_sq.
  replace (nm a * nm b * (nm a * nm b)) with ((nm a * nm a) * (nm b * nm b)) by ring. rewrite !nm_sq. apply f2_mm.
Qed.

Lemma me_near a : nm a <= 2 / 3 -> nm (ma (me a) (ms (- 1) one)) < 1.
Proof.
  intros H. replace (ma (me a) (ms (- 1) one)) with (ma a (ma (ms (1 / 2) (mm a a)) (ms (1 / 6) (mm (mm a a) a)))) by (unfold me; meq).
  pose proof (nm_nonneg a) as P. pose proof (nm_mm a a) as A2. pose proof (nm_mm (mm a a) a) as A3. pose proof (nm_nonneg (mm a a)) as P2.
  eapply Rle_lt_trans; [apply nm_ma|]. eapply Rle_lt_trans; [apply Rplus_le_compat_l, nm_ma|]. rewrite !nm_ms. rewrite !Rabs_right by lra.
  assert (nm a * nm a <= 4 / 9) by nra. assert (nm (mm a a) * nm a <= 8 / 27) by nra. lra.
Qed.
Lemma near_one_acute b : nm (ma b (ms (- 1) one)) < 1 -> ac b.
Proof.
  intros H. assert (E : of2 (to2 b) = b) by (destruct b; reflexivity). rewrite <- E. apply of2_acute. apply C121_small_increment. rewrite of2_size.
  replace (of2 (minus (to2 b) d)) with (ma b (ms (- 1) one)); [exact H|]. apply m3_ext; destruct b; unfold ma, ms, one, of2, minus, to2, d; cbn; ring.
Qed.
Lemma me_acute a : nm a <= 2 / 3 -> ac (me a).
Proof. intros H. apply near_one_acute, me_near, H. Qed.
Lemma ac_dt a : ac a -> 0 < dt a.
Proof. intros H. assert (E : of2 (to2 a) = a) by (destruct a; reflexivity). rewrite <- E in H. pose proof (ac_det _ _ H (inverted_acute _ H)) as P. rewrite E in P. exact P. Qed.

(* ---- the volume of a traceless increment ---- *)
Definition tr (a : m3) : R := x11 a + x22 a + x33 a.
(* second invariant *)
Definition e2 (a : m3) : R := x11 a * x22 a - x12 a * x21 a + (x11 a * x33 a - x13 a * x31 a) + (x22 a * x33 a - x23 a * x32 a).

Lemma cayley a : mm (mm a a) a = ma (ms (tr a) (mm a a)) (ma (ms (- e2 a) a) (ms (dt a) one)).
Proof. apply m3_ext; unfold tr, e2; cbn [mm ma ms one x11 x12 x13 x21 x22 x23 x31 x32 x33]; unfold dt; ring. Qed.
Lemma dt_quadratic p q r a : tr a = 0 -> dt (ma (ms p one) (ma (ms q a) (ms r (mm a a)))) =
  p * p * p - 2 * e2 a * p * p * r + p * q * q * e2 a - 3 * dt a * p * q * r + p * r * r * e2 a * e2 a + q * q * q * dt a + q * r * r * e2 a * dt a + r * r * r * dt a * dt a.
Proof.
  intros T. destruct a as [a1 a2 a3 a4 a5 a6 a7 a8 a9]. unfold tr in T. cbn [x11 x22 x33] in T. assert (E : a9 = - a1 - a5) by lra. subst a9. clear T.
  unfold dt, e2. cbn [mm ma ms one x11 x12 x13 x21 x22 x23 x31 x32 x33]. ring.
Qed.
Lemma dt_me a : tr a = 0 -> let u := e2 a in let w := dt a in
  dt (me a) - 1 = - (u * u) / 12 - u * w / 6 - w * w / 24 + u * u * u / 36 + u * u * w / 36 + u * w * w / 72 + w * w * w / 216.
Proof.
  intros T u w. replace (me a) with (ma (ms (1 + w / 6) one) (ma (ms (1 - u / 6) a) (ms (1 / 2) (mm a a)))).
  - rewrite dt_quadratic by exact T. fold u w. field.
  - unfold me. rewrite cayley, T. fold u w. generalize (mm a a). intros b. mx; field.
Qed.

Lemma abs_mult_le x y p q : Rabs x <= p -> Rabs y <= q -> Rabs (x * y) <= p * q.
Proof. intros H K. rewrite Rabs_mult. apply Rmult_le_compat; try assumption; apply Rabs_pos. Qed.

Lemma e2_bound a : tr a = 0 -> Rabs (e2 a) <= nm a * nm a / 2.
Proof.
  intros T. replace (e2 a) with (- (ip a (mt a)) / 2).
  - pose proof (ip_le a (mt a)) as H. rewrite nm_mt in H. unfold Rdiv. rewrite Rabs_mult, Rabs_Ropp, (Rabs_right (/ 2)) by lra. lra.
  - replace (ip a (mt a)) with (tr a * tr a - 2 * e2 a) by (unfold ip, mt, tr, e2; cbn [x11 x12 x13 x21 x22 x23 x31 x32 x33]; ring). rewrite T. field.
Qed.
Lemma dt_bound a : tr a = 0 -> Rabs (dt a) <= nm a * nm a * nm a / 3.
Proof.
  intros T. assert (E : ip (mm a a) (mt a) = 3 * dt a).
  { rewrite ip_trace, cayley, T. destruct a as [a1 a2 a3 a4 a5 a6 a7 a8 a9]. unfold tr in T. cbn [x11 x22 x33] in T.
    cbn [ma ms one x11 x12 x13 x21 x22 x23 x31 x32 x33]. set (u := e2 _). set (w := dt _). clearbody u w. assert (Z : a9 = - a1 - a5) by lra. rewrite Z. ring. }
  pose proof (ip_le (mm a a) (mt a)) as H. rewrite nm_mt, E, Rabs_mult, (Rabs_right 3) in H by lra.
  pose proof (nm_mm a a). pose proof (nm_nonneg a). assert (nm (mm a a) * nm a <= nm a * nm a * nm a) by nra. lra.
Qed.

Lemma dt_me_bound a : tr a = 0 -> nm a <= 2 / 3 -> Rabs (dt (me a) - 1) <= nm a ^ 4 / 20.
Proof.
  intros T H. rewrite (dt_me a T). pose proof (e2_bound a T) as U. pose proof (dt_bound a T) as W. pose proof (nm_nonneg a) as P.
  set (u := e2 a) in *. set (w := dt a) in *. set (t := nm a) in *. clearbody u w t.
  pose proof (abs_mult_le _ _ _ _ U U) as UU. pose proof (abs_mult_le _ _ _ _ U W) as UW. pose proof (abs_mult_le _ _ _ _ W W) as WW.
  pose proof (abs_mult_le _ _ _ _ UU U) as UUU. pose proof (abs_mult_le _ _ _ _ UU W) as UUW. pose proof (abs_mult_le _ _ _ _ UW W) as UWW. pose proof (abs_mult_le _ _ _ _ WW W) as WWW.
  set (z := t ^ 4). assert (Z : 0 <= z) by (apply pow_le; exact P).
  assert (B5 : t * z <= 2 / 3 * z) by nra. assert (B6 : t * (t * z) <= 4 / 9 * z) by nra. assert (B7 : t * (t * (t * z)) <= 8 / 27 * z) by nra.
  assert (B8 : t * (t * (t * (t * z))) <= 16 / 81 * z) by nra. assert (B9 : t * (t * (t * (t * (t * z)))) <= 32 / 243 * z) by nra.
  assert (X1 : Rabs (u * u) <= z / 4) by (eapply Rle_trans; [exact UU|apply Req_le; unfold z; field]).
  assert (X2 : Rabs (u * w) <= z / 9). { eapply Rle_trans; [exact UW|]. replace (t * t / 2 * (t * t * t / 3)) with (t * z / 6) by (unfold z; field). lra. }
  assert (X3 : Rabs (w * w) <= 4 / 81 * z). { eapply Rle_trans; [exact WW|]. replace (t * t * t / 3 * (t * t * t / 3)) with (t * (t * z) / 9) by (unfold z; field). lra. }
  assert (X4 : Rabs (u * u * u) <= z / 18). { eapply Rle_trans; [exact UUU|]. replace (t * t / 2 * (t * t / 2) * (t * t / 2)) with (t * (t * z) / 8) by (unfold z; field). lra. }
  assert (X5 : Rabs (u * u * w) <= 2 / 81 * z). { eapply Rle_trans; [exact UUW|]. replace (t * t / 2 * (t * t / 2) * (t * t * t / 3)) with (t * (t * (t * z)) / 12) by (unfold z; field). lra. }
  assert (X6 : Rabs (u * w * w) <= 8 / 729 * z). { eapply Rle_trans; [exact UWW|]. replace (t * t / 2 * (t * t * t / 3) * (t * t * t / 3)) with (t * (t * (t * (t * z))) / 18) by (unfold z; field). lra. }
  assert (X7 : Rabs (w * w * w) <= 32 / 6561 * z). { eapply Rle_trans; [exact WWW|]. replace (t * t * t / 3 * (t * t * t / 3) * (t * t * t / 3)) with (t * (t * (t * (t * (t * z)))) / 27) by (unfold z; field). lra. }
  apply Rabs_le.
  assert (Ab : forall x b, Rabs x <= b -> - b <= x <= b) by (intros x b Q; revert Q; unfold Rabs; destruct (Rcase_abs x); intros; lra).
  apply Ab in X1, X2, X3, X4, X5, X6, X7. lra.
Qed.
