(* Proofs about the polar decomposition. *)
From Coq Require Import Reals List Arith Lia Lra Psatz.
From Verif Require Import BaseReal EvpModel EvpSpec EvpBasis LsSpec LsModel LsMat.
Local Open Scope R_scope.

(* One iteration with factor c. *)
Definition iterate (c : R) (a b : m3) : m3 := ms (1 / 2) (ma (ms c a) (ms (1 / c) (mt b))).
Definition defect (c : R) (a b : m3) : m3 := ms (1 / 2) (ma (ms (- c) a) (ms (1 / c) (mt b))).

Lemma iterate_defect c a b : iterate c a b = ma (defect c a b) (ms c a).
Proof. unfold iterate, defect. mx; lra. Qed.

Lemma iterate_gram c a b : c <> 0 -> inv3 a b ->
  mm (mt (iterate c a b)) (iterate c a b) = ma one (mm (mt (defect c a b)) (defect c a b)).
Proof.
  intros C [H1 H2]. pose proof (f_equal mt H2) as H3. rewrite mt_mm, mt_one in H3.
  unfold iterate, defect. rewrite !mt_ms, !mt_ma, !mt_ms, !mt_mt.
  repeat rewrite ?mm_msl, ?mm_msr, ?mm_mal, ?mm_mar. rewrite H2, H3.
  generalize (mm (mt a) a) (mm b (mt b)). intros p q. mx; field; exact C.
Qed.

Lemma ip_inv a b : mm a b = one -> ip a (mt b) = 3.
Proof. intros E. rewrite ip_trace, E. cbn. ring. Qed.

Lemma f2_iterate c a b : c <> 0 -> inv3 a b -> f2 (iterate c a b) = (c * c * f2 a + 6 + f2 b / (c * c)) / 4.
Proof.
  intros C [H1 _]. unfold iterate. rewrite f2_ms, f2_ma, !f2_ms, f2_mt.
  replace (ip (ms c a) (ms (1 / c) (mt b))) with (ip a (mt b)) by (mx; field; exact C). rewrite (ip_inv a b H1). field. exact C.
Qed.
Lemma f2_defect c a b : c <> 0 -> inv3 a b -> f2 (defect c a b) = f2 (iterate c a b) - 3.
Proof.
  intros C I. rewrite f2_iterate by assumption. destruct I as [H1 _]. unfold defect. rewrite f2_ms, f2_ma, !f2_ms, f2_mt.
  replace (ip (ms (- c) a) (ms (1 / c) (mt b))) with (- ip a (mt b)) by (mx; field; exact C). rewrite (ip_inv a b H1). field. exact C.
Qed.
Lemma f2_iterate_3 c a b : c <> 0 -> inv3 a b -> 3 <= f2 (iterate c a b).
Proof. intros C I. pose proof (f2_defect c a b C I). pose proof (f2_nonneg (defect c a b)). lra. Qed.

Lemma f2_gram a : f2 a = x11 (mm (mt a) a) + x22 (mm (mt a) a) + x33 (mm (mt a) a).
Proof. meq. Qed.
(* The inverse of an iterate is not larger than a rotation. *)
Lemma f2_iterate_inv c a b s : c <> 0 -> inv3 a b -> inv3 (iterate c a b) s -> f2 s <= 3.
Proof.
  intros C I [K1 K2]. pose proof (iterate_gram c a b C I) as G. set (r := iterate c a b) in *. set (e := defect c a b) in *.
  assert (E : one = ma (mm (mt s) s) (mm (mt (mm e s)) (mm e s))).
  { rewrite mt_mm. replace (mm (mm (mt s) (mt e)) (mm e s)) with (mm (mt s) (mm (mm (mt e) e) s)) by (rewrite !mm_assoc; reflexivity).
    replace (mm (mt s) s) with (mm (mt s) (mm one s)) by (rewrite mm_1l; reflexivity).
    rewrite <- mm_mar, <- mm_mal, <- G.
    replace (mm (mt s) (mm (mm (mt r) r) s)) with (mm (mm (mt s) (mt r)) (mm r s)) by (rewrite !mm_assoc; reflexivity).
    rewrite <- mt_mm, K1, mt_one, mm_1l. reflexivity. }
  pose proof (f2_nonneg (mm e s)) as P. rewrite (f2_gram (mm e s)) in P. rewrite (f2_gram s).
  assert (T : x11 one + x22 one + x33 one = 3) by (cbn; ring). rewrite E in T.
  revert T P. generalize (mm (mt s) s) (mm (mt (mm e s)) (mm e s)). intros p q. unfold ma. cbn [x11 x22 x33]. lra.
Qed.

(* ---- the invariant of the loop ---- *)
Record good (f a : m3) : Prop := mkGood {
  g_ac : ac a;
  g_left : mm (mt a) f = mt (mm (mt a) f) /\ ac (mm (mt a) f);
  g_right : mm f (mt a) = mt (mm f (mt a)) /\ ac (mm f (mt a)) }.

Lemma ac_one : ac one.
Proof.
  intros [a b c] N. unfold vd, mv, one. cbn [x11 x12 x13 x21 x22 x23 x31 x32 x33 w1 w2 w3].
  destruct (Req_dec a 0) as [->|]; [|nra]. destruct (Req_dec b 0) as [->|]; [|nra]. destruct (Req_dec c 0) as [->|]; [|nra]. exfalso. apply N. reflexivity.
Qed.

Lemma good_start f g : ac f -> inv3 f g -> good f f.
Proof.
  intros H I. constructor; [exact H| |]; (split; [rewrite mt_mm, mt_mt; reflexivity|]).
  - rewrite <- (mm_1l f) at 2. apply ac_cong with g; [apply ac_one|exact I].
  - replace (mm f (mt f)) with (mm (mt (mt f)) (mm one (mt f))) by (rewrite mt_mt, mm_1l; reflexivity). apply ac_cong with (mt g); [apply ac_one|apply inv3_mt; exact I].
Qed.

Lemma iterate_ac c a b : 0 < c -> ac a -> inv3 a b -> ac (iterate c a b).
Proof.
  intros C H I. assert (0 < / c) by (apply Rinv_0_lt_compat; exact C).
  replace (iterate c a b) with (ma (ms (1 / 2 * c) a) (ms (1 / 2 * / c) (mt b))) by (unfold iterate; mx; field; lra).
  apply ac_sum; [exact H|apply ac_mt; exact (ac_inv a b H I)|nra|nra].
Qed.

Lemma sym_combo c a b : a = mt a -> b = mt b -> ms (1 / 2) (ma (ms c a) (ms (1 / c) b)) = mt (ms (1 / 2) (ma (ms c a) (ms (1 / c) b))).
Proof. intros A B. rewrite mt_ms, mt_ma, !mt_ms, <- A, <- B. reflexivity. Qed.
Lemma ac_combo c a b : 0 < c -> ac a -> ac b -> ac (ms (1 / 2) (ma (ms c a) (ms (1 / c) b))).
Proof.
  intros C A B. assert (0 < / c) by (apply Rinv_0_lt_compat; exact C).
  replace (ms (1 / 2) (ma (ms c a) (ms (1 / c) b))) with (ma (ms (1 / 2 * c) a) (ms (1 / 2 * / c) b)) by (mx; field; lra).
  apply ac_sum; try assumption; nra.
Qed.

Lemma sym_cong p b : p = mt p -> mm (mt b) (mm p b) = mt (mm (mt b) (mm p b)).
Proof. intros E. rewrite !mt_mm, mt_mt, <- E. rewrite mm_assoc. reflexivity. Qed.

Lemma good_next f a b c : 0 < c -> good f a -> inv3 a b -> good f (iterate c a b).
Proof.
  intros C [A [L1 L2] [R1 R2]] I. pose proof (inv3_mt _ _ I) as It.
  (* b f = b (f a^T) b^T *)
  assert (E1 : mm b f = mm b (mm (mm f (mt a)) (mt b))).
  { rewrite <- (mm_assoc f). destruct It as [-> _]. rewrite mm_1r. reflexivity. }
  (* f b = b^T (a^T f) b *)
  assert (E2 : mm f b = mm (mt b) (mm (mm (mt a) f) b)).
  { rewrite !mm_assoc. destruct It as [_ ->]. rewrite mm_1l. reflexivity. }
  constructor.
  - apply iterate_ac; assumption.
  - unfold iterate. rewrite mt_ms, mt_ma, !mt_ms, mt_mt, mm_msl, mm_mal, !mm_msl. split.
    + apply sym_combo; [exact L1|]. rewrite E1. pose proof (sym_cong _ (mt b) R1) as Q. rewrite mt_mt in Q. exact Q.
    + apply ac_combo; [exact C|exact L2|]. rewrite E1. rewrite <- (mt_mt b) at 1. apply ac_cong with (mt a); [exact R2|apply inv3_sym; exact It].
  - unfold iterate. rewrite mt_ms, mt_ma, !mt_ms, mt_mt, mm_msr, mm_mar, !mm_msr. split.
    + apply sym_combo; [exact R1|]. rewrite E2. apply sym_cong. exact L1.
    + apply ac_combo; [exact C|exact R2|]. rewrite E2. apply ac_cong with a; [exact L2|apply inv3_sym; exact I].
Qed.

(* The stretch of the result. *)
Lemma good_stretch f r s : good f r -> inv3 r s -> mm f s = mt (mm f s) /\ ac (mm f s) /\ mm (mm f s) r = f.
Proof.
  intros [A [L1 L2] _] I. pose proof (inv3_mt _ _ I) as It.
  assert (E : mm f s = mm (mt s) (mm (mm (mt r) f) s)). { rewrite !mm_assoc. destruct It as [_ ->]. rewrite mm_1l. reflexivity. }
  split; [|split].
  - rewrite E. apply sym_cong. exact L1.
  - rewrite E. apply ac_cong with r; [exact L2|apply inv3_sym; exact I].
  - rewrite <- mm_assoc. destruct I as [_ ->]. apply mm_1r.
Qed.

(* ---- one iteration of the code ---- *)
Definition factor (err : R) (a b : m3) : R := if Rlt_dec err (1 / 10) then 1 else sqrt (nm b / nm a).

Lemma nm_inv_pos a b : inv3 a b -> 0 < nm a.
Proof.
  intros [E _]. apply sqrt_lt_R0. pose proof (cauchy a (mt b)) as H. rewrite (ip_inv a b E), f2_mt in H.
  pose proof (f2_nonneg a). pose proof (f2_nonneg b). destruct (Req_dec (f2 a) 0) as [Z|]; [rewrite Z in H; lra|lra].
Qed.
Lemma factor_pos err a b : inv3 a b -> 0 < factor err a b.
Proof.
  intros I. unfold factor. destruct (Rlt_dec err (1 / 10)); [lra|]. apply sqrt_lt_R0.
  apply Rdiv_lt_0_compat; [apply (nm_inv_pos b a), inv3_sym, I|apply (nm_inv_pos a b I)].
Qed.

Lemma polar_next_value err A b : inv3 (of2 A) b -> of2 (inverted 3 A) = b ->
  exists N, polar_next err A = Some N /\ of2 N = iterate (factor err (of2 A) b) (of2 A) b.
Proof.
  intros I E. unfold polar_next, factor. pose proof (factor_pos err (of2 A) b I) as P. unfold factor in P. destruct (Rlt_dec err (1 / 10)).
  - eexists. split; [reflexivity|]. rewrite <- E. reflexivity.
  - rewrite !of2_frob, E. destruct (Req_EM_T (nm (of2 A)) 0) as [Z|_]; [pose proof (nm_inv_pos _ _ I); lra|].
    destruct (Req_EM_T _ 0) as [Z|_]; [lra|]. eexists. split; [reflexivity|]. rewrite <- E. reflexivity.
Qed.

Lemma polar_error_value N A : polar_error N A = f2 (ma (of2 N) (ms (- 1) (of2 A))).
Proof.
  unfold polar_error. rewrite sum1_3. unfold S3. rewrite !sum1_3. unfold S3, f2, ip, ma, ms, of2. cbn [x11 x12 x13 x21 x22 x23 x31 x32 x33]. ring.
Qed.

(* The error the loop stops at bounds the distance to a rotation. *)
Lemma stop_defect err a b e : inv3 a b -> 0 < e -> e <= / 2 ->
  f2 (ma (iterate (factor err a b) a b) (ms (- 1) a)) < e * e -> f2 (defect (factor err a b) a b) <= 4 * (e * e).
Proof.
  intros I P Q H. pose proof (factor_pos err a b I) as C. unfold factor in *. destruct (Rlt_dec err (1 / 10)) as [L|L].
  - rewrite iterate_defect in H. replace (ma (ma (defect 1 a b) (ms 1 a)) (ms (- 1) a)) with (defect 1 a b) in H by meq. nra.
  - set (c := sqrt (nm b / nm a)) in *. set (D := ma (iterate c a b) (ms (- 1) a)) in *.
    assert (Dn : nm D < e).
    { apply Rsqr_incrst_0; [|apply nm_nonneg|lra]. unfold Rsqr. rewrite nm_sq. exact H. }
    pose proof (nm_inv_pos a b I) as Pa.
    assert (Cc : c * c * nm a = nm b). { unfold c. rewrite sqrt_sqrt; [field; lra|]. apply Rlt_le, Rdiv_lt_0_compat; [apply (nm_inv_pos b a), inv3_sym, I|exact Pa]. }
    (* c |a| = |2 D + (2 - c) a| *)
    assert (K : c * nm a = nm (ma (ms 2 D) (ms (2 - c) a))).
    { replace (ma (ms 2 D) (ms (2 - c) a)) with (ms (/ c) (mt b)).
      - rewrite nm_ms, nm_mt, <- Cc, Rabs_right; [field; lra|]. apply Rle_ge, Rlt_le, Rinv_0_lt_compat, C.
      - unfold D, iterate. mx; field; lra. }
    pose proof (nm_ma (ms 2 D) (ms (2 - c) a)) as U. rewrite <- K, !nm_ms in U. rewrite (Rabs_right 2) in U by lra.
    assert (Dp : 0 <= nm D) by apply nm_nonneg.
    assert (W : Rabs (1 - c) * nm a <= e).
    { destruct (Rle_dec c 2) as [S|S].
      - rewrite (Rabs_right (2 - c)) in U by lra.
        assert (Lw : (2 - c) * nm a <= 2 * nm D + c * nm a).
        { pose proof (nm_ma (ma (ms 2 D) (ms (2 - c) a)) (ms (- 2) D)) as T. rewrite <- K in T. rewrite !nm_ms in T.
          replace (ma (ma (ms 2 D) (ms (2 - c) a)) (ms (- 2) D)) with (ms (2 - c) a) in T by meq.
          rewrite nm_ms, (Rabs_right (2 - c)) in T by lra. rewrite Rabs_left in T by lra. lra. }
        unfold Rabs. destruct (Rcase_abs (1 - c)); nra.
      - exfalso. rewrite (Rabs_left (2 - c)) in U by lra.
        assert (Sm : nm a <= e) by nra. pose proof (f2_iterate_3 c a b ltac:(lra) I) as T. rewrite <- nm_sq in T.
        pose proof (nm_ma D a) as Z. replace (ma D a) with (iterate c a b) in Z by (unfold D; meq).
        pose proof (nm_nonneg (iterate c a b)). assert (nm (iterate c a b) <= 1) by lra. nra. }
    assert (Z : nm (defect c a b) <= 2 * e).
    { replace (defect c a b) with (ma D (ms (1 - c) a)) by (unfold D; rewrite iterate_defect; meq).
      eapply Rle_trans; [apply nm_ma|]. rewrite nm_ms. lra. }
    rewrite <- nm_sq. pose proof (nm_nonneg (defect c a b)). nra.
Qed.

(* ---- rotations ---- *)
Lemma gram_close c a b e : c <> 0 -> inv3 a b -> f2 (defect c a b) <= e ->
  forall i j, idx 3 i -> idx 3 j -> Rabs (to2 (mm (mt (iterate c a b)) (iterate c a b)) i j - d i j) <= e.
Proof.
  intros C I H. rewrite (iterate_gram c a b C I). revert H. generalize (defect c a b). intros [e1 e2 e3 e4 e5 e6 e7 e8 e9].
  unfold f2, ip, mm, mt, ma, one. cbn [x11 x12 x13 x21 x22 x23 x31 x32 x33]. intros H i j. 
  assert (T : forall x y, 2 * (x * y) <= x * x + y * y /\ - (x * x + y * y) <= 2 * (x * y)).
  { intros x y. pose proof (Rle_0_sqr (x - y)). pose proof (Rle_0_sqr (x + y)). unfold Rsqr in *. split; lra. }
  assert (Sq : forall x, 0 <= x * x) by (intros x; apply Rle_0_sqr).
  pose proof (T e1 e2). pose proof (T e4 e5). pose proof (T e7 e8). pose proof (T e1 e3). pose proof (T e4 e6). pose proof (T e7 e9).
  pose proof (T e2 e3). pose proof (T e5 e6). pose proof (T e8 e9).
  pose proof (Sq e1). pose proof (Sq e2). pose proof (Sq e3). pose proof (Sq e4). pose proof (Sq e5). pose proof (Sq e6). pose proof (Sq e7). pose proof (Sq e8). pose proof (Sq e9).
  cases_ij i j; unfold to2, d; cbn [x11 x12 x13 x21 x22 x23 x31 x32 x33 Nat.eqb]; apply Rabs_le; lra.
Qed.

Definition decomposed (f : m3) (o : polar_outcome) : Prop :=
  exists V R, o = Decomposed V R /\ mm (of2 V) (of2 R) = f /\ of2 V = mt (of2 V) /\ ac (of2 V) /\
    (forall i j, idx 3 i -> idx 3 j -> Rabs (to2 (mm (mt (of2 R)) (of2 R)) i j - d i j) <= 4 / 10 ^ 12) /\ 0 < dt (of2 R).

Lemma loop_ok F n : forall err A, good (of2 F) (of2 A) ->
  polar_loop F n err A = Exceeded \/ decomposed (of2 F) (polar_loop F n err A).
Proof.
  induction n as [|n IH]; intros err A G; [left; reflexivity|]. cbn [polar_loop].
  pose proof (inverted_acute A (g_ac _ _ G)) as I. set (b := of2 (inverted 3 A)) in *.
  destruct (polar_next_value err A b I eq_refl) as (N & -> & E). pose proof (factor_pos err _ _ I) as C. set (c := factor err (of2 A) b) in *.
  assert (GN : good (of2 F) (of2 N)) by (rewrite E; apply good_next; assumption).
  destruct (Rlt_dec _ _) as [L|L]; [right|apply IH; exact GN].
  unfold finish. exists (mmul F (inverted 3 N)), N. split; [reflexivity|].
  pose proof (inverted_acute N (g_ac _ _ GN)) as J. rewrite of2_mmul. destruct (good_stretch _ _ _ GN J) as (S1 & S2 & S3).
  split; [exact S3|]. split; [exact S1|]. split; [exact S2|]. split; [|exact (ac_det _ _ (g_ac _ _ GN) J)].
  rewrite polar_error_value, E in L. pose proof (stop_defect err (of2 A) b (/ 10 ^ 6) I) as D.
  assert (T : f2 (defect c (of2 A) b) <= 4 / 10 ^ 12).
  { replace (4 / 10 ^ 12) with (4 * (/ 10 ^ 6 * / 10 ^ 6)) by field. apply D; [lra|lra|]. replace (/ 10 ^ 6 * / 10 ^ 6) with (/ 10 ^ 12) by field. exact L. }
  rewrite E. apply gram_close; [lra|exact I|exact T].
Qed.

(* ---- the number of iterations ---- *)

(* a - 3 after an iteration from an iterate *)
Lemma contract err a b : inv3 a b -> f2 b <= 3 -> 3 <= f2 a -> f2 (iterate (factor err a b) a b) - 3 <= (f2 a - 3) / 4.
Proof.
  intros I B A. pose proof (factor_pos err a b I) as C. rewrite f2_iterate by (try exact I; lra). unfold factor in *. destruct (Rlt_dec err (1 / 10)).
  - replace (1 * 1) with 1 by ring. lra.
  - pose proof (nm_inv_pos a b I) as Pa. pose proof (nm_inv_pos b a (inv3_sym _ _ I)) as Pb.
    rewrite sqrt_sqrt by (apply Rlt_le, Rdiv_lt_0_compat; assumption).
    rewrite <- (nm_sq a), <- (nm_sq b) in *. replace (nm b / nm a * (nm a * nm a)) with (nm a * nm b) by (field; lra).
    replace (nm b * nm b / (nm b / nm a)) with (nm a * nm b) by (field; lra). pose proof (Rle_0_sqr (nm a - nm b)) as Q. unfold Rsqr in Q. lra.
Qed.

Lemma first_size a b : inv3 a b -> f2 (iterate (factor 1 a b) a b) - 3 <= nm a * nm b / 2.
Proof.
  intros I. pose proof (factor_pos 1 a b I) as C. rewrite f2_iterate by (try exact I; lra). unfold factor in *. destruct (Rlt_dec 1 (1 / 10)); [lra|].
  pose proof (nm_inv_pos a b I) as Pa. pose proof (nm_inv_pos b a (inv3_sym _ _ I)) as Pb.
  rewrite sqrt_sqrt by (apply Rlt_le, Rdiv_lt_0_compat; assumption). rewrite <- (nm_sq a), <- (nm_sq b).
  replace (nm b / nm a * (nm a * nm a)) with (nm a * nm b) by (field; lra).
  replace (nm b * nm b / (nm b / nm a)) with (nm a * nm b) by (field; lra). lra.
Qed.

Lemma near_stops err a b : inv3 a b -> f2 b <= 3 -> 3 <= f2 a -> f2 a - 3 <= / 10 ^ 12 ->
  f2 (ma (iterate (factor err a b) a b) (ms (- 1) a)) < / 10 ^ 12.
Proof.
  intros I B A H. pose proof (factor_pos err a b I) as C. pose proof (contract err a b I B A) as K.
  rewrite <- f2_defect in K by (try exact I; lra). set (c := factor err a b) in *.
  assert (De : nm (defect c a b) <= / 10 ^ 6 / 2).
  { apply Rsqr_incr_0_var; [|lra]. unfold Rsqr. rewrite nm_sq. replace (/ 10 ^ 6 / 2 * (/ 10 ^ 6 / 2)) with (/ 10 ^ 12 / 4) by field. lra. }
  assert (Cl : (1 - c) * nm a <= / 10 ^ 12 /\ 0 <= 1 - c).
  { unfold c, factor in *. destruct (Rlt_dec err (1 / 10)); [split; [|lra]; replace (1 - 1) with 0 by ring; lra|].
    pose proof (nm_inv_pos a b I) as Pa. pose proof (nm_inv_pos b a (inv3_sym _ _ I)) as Pb.
    assert (S : 3 <= nm a * nm b). { pose proof (ip_le a (mt b)) as Q. destruct I as [E _]. rewrite (ip_inv a b E), nm_mt, Rabs_right in Q by lra. exact Q. }
    pose proof (nm_sq a) as Sa. pose proof (nm_sq b) as Sb.
    assert (Ab : nm b <= nm a) by (apply Rsqr_incr_0_var; [unfold Rsqr; lra|lra]).
    assert (Q1 : nm b / nm a <= 1) by (apply (Rmult_le_reg_r (nm a)); [exact Pa|]; replace (nm b / nm a * nm a) with (nm b) by (field; lra); lra).
    assert (Q0 : 0 < nm b / nm a) by (apply Rdiv_lt_0_compat; assumption).
    pose proof (sqrt_sqrt (nm b / nm a) ltac:(lra)) as W. set (k := sqrt (nm b / nm a)) in *.
    assert (k <= 1) by (apply Rsqr_incr_0_var; [unfold Rsqr; lra|lra]). split; [|lra].
    assert (k * k * nm a = nm b) by (rewrite W; field; lra). assert (1 <= nm a) by (apply Rsqr_incr_0_var; [unfold Rsqr; lra|lra]).
    assert (k * nm a >= nm b) by nra. assert (nm a - nm b <= nm a * (nm a - nm b)) by nra. nra. }
  destruct Cl as [C1 C2].
  assert (T : nm (ma (iterate c a b) (ms (- 1) a)) < / 10 ^ 6).
  { rewrite iterate_defect. replace (ma (ma (defect c a b) (ms c a)) (ms (- 1) a)) with (ma (defect c a b) (ms (c - 1) a)) by meq.
    eapply Rle_lt_trans; [apply nm_ma|]. rewrite nm_ms. rewrite Rabs_left1 by lra.
    assert (/ 10 ^ 12 < / 10 ^ 6 / 2) by lra. lra. }
  rewrite <- nm_sq. pose proof (nm_nonneg (ma (iterate c a b) (ms (- 1) a))). replace (/ 10 ^ 12) with (/ 10 ^ 6 * / 10 ^ 6) by field. nra.
Qed.

Lemma loop_ends F n : forall err A, ac (of2 A) -> f2 (of2 (inverted 3 A)) <= 3 -> 3 <= f2 (of2 A) ->
  f2 (of2 A) - 3 <= 4 ^ n / 10 ^ 12 -> polar_loop F (S n) err A <> Exceeded.
Proof.
  induction n as [|n IH]; intros err A G B A3 H; pose proof (inverted_acute A G) as I;
    remember (S n) as n1 eqn:En || idtac; cbn [polar_loop];
    destruct (polar_next_value err A _ I eq_refl) as (N & -> & E); rewrite polar_error_value, E.
  - destruct (Rlt_dec _ _) as [L|L]; [discriminate|]. exfalso. apply L. apply near_stops; [exact I|exact B|exact A3|]. replace (4 ^ 0 / 10 ^ 12) with (/ 10 ^ 12) in H by (cbn [pow]; field). exact H.
  - destruct (Rlt_dec _ _) as [L|L]; [discriminate|]. pose proof (factor_pos err _ _ I) as C.
    assert (GN : ac (of2 N)) by (rewrite E; apply iterate_ac; assumption). apply IH.
    + exact GN.
    + pose proof (inverted_acute N GN) as J. rewrite E in J. apply (f2_iterate_inv _ _ _ _ ltac:(apply Rgt_not_eq, C) I J).
    + rewrite E. apply f2_iterate_3; [lra|exact I].
    + rewrite E. pose proof (contract err _ _ I B A3) as K. rewrite En in H. change (4 ^ S n) with (4 * 4 ^ n) in H.
      set (p := 4 ^ n) in *. set (q := 10 ^ 12) in *. unfold Rdiv in *. replace (4 * p * / q) with (4 * (p * / q)) in H by ring. lra.
Qed.

Lemma returns F g : ac (of2 F) -> inv3 (of2 F) g -> nm (of2 F) * nm g <= 10 ^ 17 -> defgrad_dcmp F <> Exceeded.
Proof.
  intros H I K. unfold defgrad_dcmp, iter_max. change 50%nat with (S (S 48)).
  pose proof (inverted_acute F H) as I'. rewrite (inv3_unique _ _ _ I I') in K.
  remember (S 48) as n eqn:En. cbn [polar_loop].
  destruct (polar_next_value 1 F _ I' eq_refl) as (N & -> & E). rewrite polar_error_value, E.
  destruct (Rlt_dec _ _) as [L|L]; [discriminate|]. rewrite En. pose proof (factor_pos 1 _ _ I') as C.
  assert (GN : ac (of2 N)) by (rewrite E; apply iterate_ac; assumption). apply loop_ends.
  - exact GN.
  - pose proof (inverted_acute N GN) as J. rewrite E in J. apply (f2_iterate_inv _ _ _ _ ltac:(apply Rgt_not_eq, C) I' J).
  - rewrite E. apply f2_iterate_3; [lra|exact I'].
  - rewrite E. pose proof (first_size _ _ I') as Z.
    assert (10 ^ 17 / 2 <= 4 ^ 48 / 10 ^ 12) by lra. lra.
Qed.
