(* 3 x 3 matrices as nine numbers. *)
From Coq Require Import Reals List Arith Lia Lra Psatz.
From Verif Require Import EvpModel EvpSpec EvpBasis LsSpec LsModel EvpGreenProps.
Local Open Scope R_scope.

Record m3 := M { x11 : R; x12 : R; x13 : R; x21 : R; x22 : R; x23 : R; x31 : R; x32 : R; x33 : R }.
Record v3 := V3 { w1 : R; w2 : R; w3 : R }.

Definition of2 (A : nat -> nat -> R) : m3 :=
  M (A 1%nat 1%nat) (A 1%nat 2%nat) (A 1%nat 3%nat) (A 2%nat 1%nat) (A 2%nat 2%nat) (A 2%nat 3%nat) (A 3%nat 1%nat) (A 3%nat 2%nat) (A 3%nat 3%nat).
Definition to2 (a : m3) (i j : nat) : R :=
  match i, j with
  | 1%nat, 1%nat => x11 a | 1%nat, 2%nat => x12 a | 1%nat, 3%nat => x13 a
  | 2%nat, 1%nat => x21 a | 2%nat, 2%nat => x22 a | 2%nat, 3%nat => x23 a
  | 3%nat, 1%nat => x31 a | 3%nat, 2%nat => x32 a | 3%nat, 3%nat => x33 a
  | _, _ => 0
  end.
Definition one : m3 := M 1 0 0 0 1 0 0 0 1.
Definition mm (a b : m3) : m3 :=
  M (x11 a * x11 b + x12 a * x21 b + x13 a * x31 b) (x11 a * x12 b + x12 a * x22 b + x13 a * x32 b) (x11 a * x13 b + x12 a * x23 b + x13 a * x33 b)
    (x21 a * x11 b + x22 a * x21 b + x23 a * x31 b) (x21 a * x12 b + x22 a * x22 b + x23 a * x32 b) (x21 a * x13 b + x22 a * x23 b + x23 a * x33 b)
    (x31 a * x11 b + x32 a * x21 b + x33 a * x31 b) (x31 a * x12 b + x32 a * x22 b + x33 a * x32 b) (x31 a * x13 b + x32 a * x23 b + x33 a * x33 b).
Definition mt (a : m3) : m3 := M (x11 a) (x21 a) (x31 a) (x12 a) (x22 a) (x32 a) (x13 a) (x23 a) (x33 a).
Definition ma (a b : m3) : m3 :=
  M (x11 a + x11 b) (x12 a + x12 b) (x13 a + x13 b) (x21 a + x21 b) (x22 a + x22 b) (x23 a + x23 b) (x31 a + x31 b) (x32 a + x32 b) (x33 a + x33 b).
Definition ms (c : R) (a : m3) : m3 :=
  M (c * x11 a) (c * x12 a) (c * x13 a) (c * x21 a) (c * x22 a) (c * x23 a) (c * x31 a) (c * x32 a) (c * x33 a).
Definition ip (a b : m3) : R :=
  x11 a * x11 b + x12 a * x12 b + x13 a * x13 b + x21 a * x21 b + x22 a * x22 b + x23 a * x23 b + x31 a * x31 b + x32 a * x32 b + x33 a * x33 b.
Definition f2 (a : m3) : R := ip a a.
Definition nm (a : m3) : R := sqrt (f2 a).
Definition dt (a : m3) : R :=
  x11 a * (x22 a * x33 a - x23 a * x32 a) - x12 a * (x21 a * x33 a - x23 a * x31 a) + x13 a * (x21 a * x32 a - x22 a * x31 a).
Definition mv (a : m3) (v : v3) : v3 :=
  V3 (x11 a * w1 v + x12 a * w2 v + x13 a * w3 v) (x21 a * w1 v + x22 a * w2 v + x23 a * w3 v) (x31 a * w1 v + x32 a * w2 v + x33 a * w3 v).
Definition vd (u v : v3) : R := w1 u * w1 v + w2 u * w2 v + w3 u * w3 v.
Definition v0 : v3 := V3 0 0 0.
Definition ac (a : m3) : Prop := forall v, v <> v0 -> 0 < vd v (mv a v).

Lemma m3_ext a b : x11 a = x11 b -> x12 a = x12 b -> x13 a = x13 b -> x21 a = x21 b -> x22 a = x22 b -> x23 a = x23 b ->
  x31 a = x31 b -> x32 a = x32 b -> x33 a = x33 b -> a = b.
Proof. destruct a, b. cbn. intros. subst. reflexivity. Qed.
Lemma v3_ext a b : w1 a = w1 b -> w2 a = w2 b -> w3 a = w3 b -> a = b.
Proof. destruct a, b. cbn. intros. subst. reflexivity. Qed.
(* One equation between numbers for every entry. *)
Ltac mx := try (apply m3_ext || apply v3_ext); unfold f2; unfold ip, dt, vd;
  cbn [f2 mm mt ma ms ip dt mv vd one v0 x11 x12 x13 x21 x22 x23 x31 x32 x33 w1 w2 w3].
Ltac meq := mx; ring.

Lemma mm_assoc a b c : mm a (mm b c) = mm (mm a b) c. Proof. meq. Qed.
Lemma mm_1l a : mm one a = a. Proof. meq. Qed.
Lemma mm_1r a : mm a one = a. Proof. meq. Qed.
Lemma mt_mt a : mt (mt a) = a. Proof. meq. Qed.
Lemma mt_mm a b : mt (mm a b) = mm (mt b) (mt a). Proof. meq. Qed.
Lemma mt_one : mt one = one. Proof. meq. Qed.
Lemma mt_ma a b : mt (ma a b) = ma (mt a) (mt b). Proof. meq. Qed.
Lemma mt_ms c a : mt (ms c a) = ms c (mt a). Proof. meq. Qed.
Lemma mm_mal a b c : mm (ma a b) c = ma (mm a c) (mm b c). Proof. meq. Qed.
Lemma mm_mar a b c : mm c (ma a b) = ma (mm c a) (mm c b). Proof. meq. Qed.
Lemma mm_msl s a c : mm (ms s a) c = ms s (mm a c). Proof. meq. Qed.
Lemma mm_msr s a c : mm c (ms s a) = ms s (mm c a). Proof. meq. Qed.
Lemma f2_mt a : f2 (mt a) = f2 a. Proof. meq. Qed.
Lemma f2_ms c a : f2 (ms c a) = c * c * f2 a. Proof. meq. Qed.
Lemma f2_ma a b : f2 (ma a b) = f2 a + 2 * ip a b + f2 b. Proof. meq. Qed.
Lemma f2_nonneg a : 0 <= f2 a. Proof. destruct a. mx. nra. Qed.
Lemma ip_trace a b : ip a (mt b) = x11 (mm a b) + x22 (mm a b) + x33 (mm a b). Proof. meq. Qed.
Lemma dt_mm a b : dt (mm a b) = dt a * dt b. Proof. meq. Qed.
Lemma dt_mt a : dt (mt a) = dt a. Proof. meq. Qed.
Lemma mv_mm a b v : mv (mm a b) v = mv a (mv b v). Proof. meq. Qed.
Lemma mv_one v : mv one v = v. Proof. meq. Qed.
Lemma mv_0 a : mv a v0 = v0. Proof. unfold v0. meq. Qed.
Lemma vd_mt a u v : vd u (mv (mt a) v) = vd (mv a u) v. Proof. meq. Qed.
Lemma vd_sym u v : vd u v = vd v u. Proof. meq. Qed.

Lemma cauchy a b : ip a b * ip a b <= f2 a * f2 b.
Proof.
  assert (H : 0 <= f2 (ma (ms (f2 b) a) (ms (- ip a b) b))) by apply f2_nonneg.
  rewrite f2_ma, !f2_ms in H. assert (E : ip (ms (f2 b) a) (ms (- ip a b) b) = - f2 b * ip a b * ip a b) by meq.
  rewrite E in H. pose proof (f2_nonneg b) as B. pose proof (f2_nonneg a) as A.
  assert (K : 0 <= f2 b * (f2 a * f2 b - ip a b * ip a b)) by nra.
  destruct (Req_dec (f2 b) 0) as [Z|Z].
  - assert (ip a b = 0); [|nra]. clear -Z. destruct b as [b1 b2 b3 b4 b5 b6 b7 b8 b9]. unfold f2, ip in *. cbn [x11 x12 x13 x21 x22 x23 x31 x32 x33] in *.
    assert (b1 = 0) by nra. assert (b2 = 0) by nra. assert (b3 = 0) by nra. assert (b4 = 0) by nra. assert (b5 = 0) by nra.
    assert (b6 = 0) by nra. assert (b7 = 0) by nra. assert (b8 = 0) by nra. assert (b9 = 0) by nra. subst. ring.
  - assert (0 < f2 b) by lra. nra.
Qed.
Lemma nm_sq a : nm a * nm a = f2 a.
Proof. apply sqrt_sqrt, f2_nonneg. Qed.
Lemma nm_nonneg a : 0 <= nm a.
Proof. apply sqrt_pos. Qed.
Lemma ip_le a b : Rabs (ip a b) <= nm a * nm b.
Proof.
  apply Rsqr_incr_0_var; [|apply Rmult_le_pos; apply nm_nonneg]. rewrite <- Rsqr_abs. unfold Rsqr.
  replace (nm a * nm b * (nm a * nm b)) with ((nm a * nm a) * (nm b * nm b)) by ring. rewrite !nm_sq. apply cauchy.
Qed.
Lemma nm_ma a b : nm (ma a b) <= nm a + nm b.
Proof.
  apply Rsqr_incr_0_var; [|pose proof (nm_nonneg a); pose proof (nm_nonneg b); lra]. unfold Rsqr. rewrite nm_sq, f2_ma.
  pose proof (ip_le a b). pose proof (Rle_abs (ip a b)). rewrite <- (nm_sq a), <- (nm_sq b). nra.
Qed.
Lemma nm_ms c a : nm (ms c a) = Rabs c * nm a.
Proof.
  unfold nm. rewrite f2_ms. rewrite sqrt_mult; [|nra|apply f2_nonneg]. f_equal. apply sqrt_Rsqr_abs.
Qed.
Lemma nm_mt a : nm (mt a) = nm a.
Proof. unfold nm. rewrite f2_mt. reflexivity. Qed.

(* inverses *)
Definition inv3 (a b : m3) : Prop := mm a b = one /\ mm b a = one.
Lemma inv3_sym a b : inv3 a b -> inv3 b a. Proof. unfold inv3. tauto. Qed.
Lemma inv3_mt a b : inv3 a b -> inv3 (mt a) (mt b).
Proof. intros [E1 E2]. unfold inv3. rewrite <- !mt_mm, E1, E2, mt_one. auto. Qed.
Lemma inv3_unique a b c : inv3 a b -> inv3 a c -> b = c.
Proof. intros [_ H2] [K _]. rewrite <- (mm_1l c), <- H2, <- mm_assoc, K. symmetry. apply mm_1r. Qed.
Lemma inv3_mm a b c e : inv3 a b -> inv3 c e -> inv3 (mm a c) (mm e b).
Proof.
  intros [H1 H2] [K1 K2]. split.
  - rewrite mm_assoc, <- (mm_assoc a c e), K1, mm_1r. exact H1.
  - rewrite mm_assoc, <- (mm_assoc e b a), H2, mm_1r. exact K2.
Qed.

(* acute matrices *)
Lemma ac_mt a : ac a -> ac (mt a).
Proof. intros H v N. rewrite vd_mt, vd_sym. apply H. exact N. Qed.
Lemma ac_sum a b p q : ac a -> ac b -> 0 < p -> 0 < q -> ac (ma (ms p a) (ms q b)).
Proof.
  intros Ha Hb P Q v N. replace (vd v (mv (ma (ms p a) (ms q b)) v)) with (p * vd v (mv a v) + q * vd v (mv b v)) by meq.
  specialize (Ha v N). specialize (Hb v N). nra.
Qed.
Lemma ac_inv a b : ac a -> inv3 a b -> ac b.
Proof.
  intros H [E1 E2] v N. replace (vd v (mv b v)) with (vd (mv b v) (mv a (mv b v))).
  - apply H. intros Z. apply N. rewrite <- (mv_one v), <- E1, mv_mm, Z. apply mv_0.
  - rewrite <- mv_mm, E1, mv_one. apply vd_sym.
Qed.
(* b^T a b *)
Lemma ac_cong a b c : ac a -> inv3 b c -> ac (mm (mt b) (mm a b)).
Proof.
  intros H [_ E2] v N. rewrite !mv_mm, vd_mt. apply H. intros Z. apply N.
  rewrite <- (mv_one v), <- E2, mv_mm, Z. apply mv_0.
Qed.
Lemma ac_11 a : ac a -> 0 < x11 a.
Proof. intros H. specialize (H (V3 1 0 0)). assert (V3 1 0 0 <> v0) by (intros E; injection E; lra). specialize (H H0). revert H. mx. lra. Qed.
Lemma ac_33 a : ac a -> 0 < x33 a.
Proof. intros H. specialize (H (V3 0 0 1)). assert (V3 0 0 1 <> v0) by (intros E; injection E; lra). specialize (H H0). revert H. mx. lra. Qed.
Lemma ac_minor a : ac a -> 0 < x11 a * x22 a - x12 a * x21 a.
Proof.
  intros H. pose proof (ac_11 a H) as P. specialize (H (V3 (- (x12 a + x21 a)) (2 * x11 a) 0)).
  assert (N : V3 (- (x12 a + x21 a)) (2 * x11 a) 0 <> v0) by (intros E; injection E; lra).
  specialize (H N). destruct a as [a11 a12 a13 a21 a22 a23 a31 a32 a33]. revert H P. clear. unfold vd, mv. cbn [x11 x12 x13 x21 x22 x23 x31 x32 x33 w1 w2 w3].
  intros H P. assert (K : 0 < a11 * (4 * a11 * a22 - (a12 + a21) * (a12 + a21))) by nra.
  assert (0 < 4 * a11 * a22 - (a12 + a21) * (a12 + a21)) by (apply (Rmult_lt_reg_l a11); lra).
  pose proof (Rle_0_sqr (a12 - a21)) as Q. unfold Rsqr in Q. lra.
Qed.
Lemma dt_cofactor a b : mm a b = one -> dt a * x33 b = x11 a * x22 a - x12 a * x21 a.
Proof.
  intros E. assert (H1 : x13 (mm a b) = 0) by (rewrite E; reflexivity). assert (H2 : x23 (mm a b) = 0) by (rewrite E; reflexivity).
  assert (H3 : x33 (mm a b) = 1) by (rewrite E; reflexivity).
  destruct a as [a11 a12 a13 a21 a22 a23 a31 a32 a33]. destruct b as [b11 b12 b13 b21 b22 b23 b31 b32 b33].
  unfold mm, dt in *. cbn [x11 x12 x13 x21 x22 x23 x31 x32 x33] in *.
  replace (a11 * a22 - a12 * a21) with ((a11 * a22 - a12 * a21) * (a31 * b13 + a32 * b23 + a33 * b33) + (a12 * a31 - a11 * a32) * (a21 * b13 + a22 * b23 + a23 * b33)
    + (a21 * a32 - a22 * a31) * (a11 * b13 + a12 * b23 + a13 * b33)); [ring|]. rewrite H1, H2, H3. ring.
Qed.
Lemma ac_det a b : ac a -> inv3 a b -> 0 < dt a.
Proof.
  intros H I. pose proof (ac_33 b (ac_inv a b H I)) as P. pose proof (ac_minor a H) as Q. destruct I as [E _].
  rewrite <- (dt_cofactor a b E) in Q. apply (Rmult_lt_reg_r (x33 b)); lra.
Qed.

(* the passage from index functions *)
Lemma idx3 i : idx 3 i -> i = 1%nat \/ i = 2%nat \/ i = 3%nat. Proof. unfold idx. lia. Qed.
Ltac cases_ij i j := let I := fresh in let J := fresh in intros I J; destruct (idx3 i I) as [->|[->| ->]]; destruct (idx3 j J) as [->|[->| ->]].
Lemma of2_same A B : of2 A = of2 B <-> same A B.
Proof.
  split.
  - intros E. unfold of2 in E. injection E as E1 E2 E3 E4 E5 E6 E7 E8 E9. intros i j. cases_ij i j; assumption.
  - intros H. unfold of2. f_equal; apply H; unfold idx; lia.
Qed.
Lemma of2_product A B : of2 (product A B) = mm (of2 A) (of2 B).
Proof. reflexivity. Qed.
Lemma of2_mmul A B : of2 (mmul A B) = mm (of2 A) (of2 B).
Proof. rewrite <- of2_product. apply of2_same. intros i j I J. apply sum1_3. Qed.
Lemma of2_d : of2 d = one. Proof. reflexivity. Qed.
Lemma of2_transposed A : of2 (transposed A) = mt (of2 A). Proof. reflexivity. Qed.
Lemma of2_inverses A B : inverses A B <-> inv3 (of2 A) (of2 B).
Proof. unfold inverses, inv3. rewrite <- !of2_product, <- of2_d, !of2_same. tauto. Qed.
Lemma of2_symmetric A : symmetric A <-> of2 A = mt (of2 A).
Proof. rewrite <- of2_transposed, of2_same. unfold symmetric, same, transposed. tauto. Qed.
Lemma of2_size A : size A = nm (of2 A).
Proof. unfold size, nm. f_equal. unfold ddot, S3, f2, ip, of2. cbn [x11 x12 x13 x21 x22 x23 x31 x32 x33]. ring. Qed.
Lemma of2_det A : det3 A = dt (of2 A). Proof. reflexivity. Qed.
Lemma of2_frob A : frobenius_norm A = nm (of2 A).
Proof. unfold frobenius_norm, nm. f_equal. rewrite sum1_3. unfold S3. rewrite !sum1_3. unfold S3, f2, ip, of2. cbn [x11 x12 x13 x21 x22 x23 x31 x32 x33]. ring. Qed.
Lemma of2_acute A : acute A <-> ac (of2 A).
Proof.
  split.
  - intros H v N. specialize (H (fun i => match i with 1%nat => w1 v | 2%nat => w2 v | _ => w3 v end)).
    apply H. destruct v as [a b c]. cbn [w1 w2 w3] in *. destruct (Req_dec a 0) as [->|]; [|exists 1%nat; unfold idx; split; [lia|assumption]].
    destruct (Req_dec b 0) as [->|]; [|exists 2%nat; unfold idx; split; [lia|assumption]]. exists 3%nat. unfold idx. split; [lia|]. intros ->. apply N. reflexivity.
  - intros H x (i & I & X). apply (H (V3 (x 1%nat) (x 2%nat) (x 3%nat))). intros E. unfold v0 in E. injection E as E1 E2 E3.
    destruct (idx3 i I) as [->|[->| ->]]; contradiction.
Qed.
(* invert_matrix on acute matrices *)
Lemma inverted_acute A : ac (of2 A) -> inv3 (of2 A) (of2 (inverted 3 A)).
Proof.
  intros H. apply of2_inverses. apply of2_acute in H.
  assert (K : forall x, (exists i, idx 3 i /\ x i <> 0) -> 0 < S3 (fun n => S3 (fun m => x n * A n m * x m))).
  { intros x X. specialize (H x X). unfold vdot, mul_v, S3 in *. lra. }
  pose proof (inverted3 A K) as I. split; intros n m N Mm; apply (I n m N Mm).
Qed.
