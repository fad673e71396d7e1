From Coq Require Import Reals Lra Lia Psatz.
From Verif Require Import BaseReal EigenModel EigenSpec.
Open Scope R_scope.

Definition shift (t : mat3) (x : R) : mat3 := fun i j => if Nat.eqb i j then t i j - x else t i j.
Lemma lt3 (P : nat -> Prop) : P 0%nat -> P 1%nat -> P 2%nat -> forall i, (i < 3)%nat -> P i.
Proof. intros H0 H1 H2 [|[|[|i]]] Hi; auto; lia. Qed.

(** *** A nonzero kernel vector exists iff the determinant is zero *)
Definition d3 a b c d e f g h k : R := a * (e * k - f * h) - b * (d * k - f * g) + c * (d * h - e * g).
Lemma kernel0 a b c d e f g h k x y z : a * x + b * y + c * z = 0 -> d * x + e * y + f * z = 0 -> g * x + h * y + k * z = 0 ->
  d3 a b c d e f g h k * x = 0 /\ d3 a b c d e f g h k * y = 0 /\ d3 a b c d e f g h k * z = 0.
Proof.
  intros H1 H2 H3. unfold d3. repeat split.
  - replace (_ * x) with ((e * k - f * h) * (a * x + b * y + c * z) - (b * k - c * h) * (d * x + e * y + f * z) + (b * f - c * e) * (g * x + h * y + k * z)) by ring. rewrite H1, H2, H3. ring.
  - replace (_ * y) with (- (d * k - f * g) * (a * x + b * y + c * z) + (a * k - c * g) * (d * x + e * y + f * z) - (a * f - c * d) * (g * x + h * y + k * z)) by ring. rewrite H1, H2, H3. ring.
  - replace (_ * z) with ((d * h - e * g) * (a * x + b * y + c * z) - (a * h - b * g) * (d * x + e * y + f * z) + (a * e - b * d) * (g * x + h * y + k * z)) by ring. rewrite H1, H2, H3. ring.
Qed.

Definition ker a b c d e f g h k : Prop := exists x y z, (x <> 0 \/ y <> 0 \/ z <> 0) /\ a * x + b * y + c * z = 0 /\ d * x + e * y + f * z = 0 /\ g * x + h * y + k * z = 0.

(** rank at most one with a nonzero first row *)
Lemma ker_rank1 a b c d e f g h k : (a <> 0 \/ b <> 0 \/ c <> 0) -> a * e = b * d -> a * f = c * d -> b * f = c * e -> a * h = b * g -> a * k = c * g -> b * k = c * h -> ker a b c d e f g h k.
Proof.
  intros Hn H1 H2 H3 H4 H5 H6. destruct (Req_EM_T a 0) as [Ha|Ha].
  - destruct (Req_EM_T b 0) as [Hb|Hb].
    + destruct Hn as [|[|Hc]]; try contradiction. exists c, 0, (- a). split; [left; exact Hc|]. repeat split; nra.
    + exists b, (- a), 0. split; [left; exact Hb|]. repeat split; nra.
  - exists b, (- a), 0. split; [right; left; lra|]. repeat split; nra.
Qed.
Lemma ker_perm1 a b c d e f g h k : ker d e f a b c g h k -> ker a b c d e f g h k.
Proof. intros (x & y & z & H & H1 & H2 & H3). exists x, y, z. auto. Qed.
Lemma ker_perm2 a b c d e f g h k : ker g h k d e f a b c -> ker a b c d e f g h k.
Proof. intros (x & y & z & H & H1 & H2 & H3). exists x, y, z. auto. Qed.
Lemma det_kernel a b c d e f g h k : d3 a b c d e f g h k = 0 -> ker a b c d e f g h k.
Proof.
  intros H. unfold d3 in H.
  (* a column of the adjugate *)
  destruct (Req_EM_T (e * k - f * h) 0) as [A1|A1]; [|exists (e * k - f * h), (- (d * k - f * g)), (d * h - e * g); split; [left; exact A1|repeat split; nra]].
  destruct (Req_EM_T (d * k - f * g) 0) as [A2|A2]; [|exists (e * k - f * h), (- (d * k - f * g)), (d * h - e * g); split; [right; left; lra|repeat split; nra]].
  destruct (Req_EM_T (d * h - e * g) 0) as [A3|A3]; [|exists (e * k - f * h), (- (d * k - f * g)), (d * h - e * g); split; [right; right; exact A3|repeat split; nra]].
  destruct (Req_EM_T (b * k - c * h) 0) as [B1|B1]; [|exists (b * k - c * h), (- (a * k - c * g)), (a * h - b * g); split; [left; exact B1|repeat split; nra]].
  destruct (Req_EM_T (a * k - c * g) 0) as [B2|B2]; [|exists (b * k - c * h), (- (a * k - c * g)), (a * h - b * g); split; [right; left; lra|repeat split; nra]].
  destruct (Req_EM_T (a * h - b * g) 0) as [B3|B3]; [|exists (b * k - c * h), (- (a * k - c * g)), (a * h - b * g); split; [right; right; exact B3|repeat split; nra]].
  destruct (Req_EM_T (b * f - c * e) 0) as [C1|C1]; [|exists (b * f - c * e), (- (a * f - c * d)), (a * e - b * d); split; [left; exact C1|repeat split; nra]].
  destruct (Req_EM_T (a * f - c * d) 0) as [C2|C2]; [|exists (b * f - c * e), (- (a * f - c * d)), (a * e - b * d); split; [right; left; lra|repeat split; nra]].
  destruct (Req_EM_T (a * e - b * d) 0) as [C3|C3]; [|exists (b * f - c * e), (- (a * f - c * d)), (a * e - b * d); split; [right; right; exact C3|repeat split; nra]].
  (* rank at most one *)
  destruct (Req_EM_T a 0) as [Ha|Ha]; [|apply ker_rank1; [tauto|lra..]]. destruct (Req_EM_T b 0) as [Hb|Hb]; [|apply ker_rank1; [tauto|lra..]]. destruct (Req_EM_T c 0) as [Hc|Hc]; [|apply ker_rank1; [tauto|lra..]].
  destruct (Req_EM_T d 0) as [Hd|Hd]; [|apply ker_perm1, ker_rank1; [tauto|lra..]]. destruct (Req_EM_T e 0) as [He|He]; [|apply ker_perm1, ker_rank1; [tauto|lra..]]. destruct (Req_EM_T f 0) as [Hf|Hf]; [|apply ker_perm1, ker_rank1; [tauto|lra..]].
  destruct (Req_EM_T g 0) as [Hg|Hg]; [|apply ker_perm2, ker_rank1; [tauto|lra..]]. destruct (Req_EM_T h 0) as [Hh|Hh]; [|apply ker_perm2, ker_rank1; [tauto|lra..]]. destruct (Req_EM_T k 0) as [Hk|Hk]; [|apply ker_perm2, ker_rank1; [tauto|lra..]].
  subst. exists 1, 0, 0. split; [left; lra|]. repeat split; ring.
Qed.

Lemma eigen_iff t x : eigenvalue t x <-> det3 (shift t x) = 0.
Proof.
  change (det3 (shift t x)) with (d3 (t 0%nat 0%nat - x) (t 0%nat 1%nat) (t 0%nat 2%nat) (t 1%nat 0%nat) (t 1%nat 1%nat - x) (t 1%nat 2%nat) (t 2%nat 0%nat) (t 2%nat 1%nat) (t 2%nat 2%nat - x)).
  split.
  - intros (v & (i & Hi & Hv) & H). unfold apply3 in H.
    destruct (kernel0 (t 0%nat 0%nat - x) (t 0%nat 1%nat) (t 0%nat 2%nat) (t 1%nat 0%nat) (t 1%nat 1%nat - x) (t 1%nat 2%nat) (t 2%nat 0%nat) (t 2%nat 1%nat) (t 2%nat 2%nat - x) (v 0%nat) (v 1%nat) (v 2%nat)) as (K0 & K1 & K2).
    + pose proof (H 0%nat ltac:(lia)). lra. + pose proof (H 1%nat ltac:(lia)). lra. + pose proof (H 2%nat ltac:(lia)). lra.
    + destruct i as [|[|[|i]]]; [| | |lia]; match goal with Hx : ?v <> 0, K : _ * ?v = 0 |- _ => apply Rmult_integral in K; destruct K as [K|K]; [exact K|contradiction] end.
  - intros H. apply det_kernel in H. destruct H as (p & q & r & Hn & H0 & H1 & H2). exists (fun i => match i with O => p | S O => q | _ => r end). split.
    + destruct Hn as [Hn|[Hn|Hn]]; [exists 0%nat|exists 1%nat|exists 2%nat]; (split; [lia|exact Hn]).
    + apply lt3; unfold apply3; lra.
Qed.

Lemma bound_alg a b c e f k u v w x : 0 < u ^ 2 + v ^ 2 + w ^ 2 -> a * u + b * v + c * w = x * u -> b * u + e * v + f * w = x * v -> c * u + f * v + k * w = x * w ->
  a + e + k = 0 -> a ^ 2 + e ^ 2 + k ^ 2 + 2 * (b ^ 2 + c ^ 2 + f ^ 2) = 6 -> x ^ 2 <= 4.
Proof.
  intros Hn0 H0 H1 H2 Htr Hnm.
  set (n := u ^ 2 + v ^ 2 + w ^ 2) in *.
  assert (Hq : a * u * u + e * v * v + k * w * w + 2 * (b * u * v + c * u * w + f * v * w) = x * n).
  { unfold n. replace (_ + _ + _ + 2 * _) with (u * (a * u + b * v + c * w) + v * (b * u + e * v + f * w) + w * (c * u + f * v + k * w)) by ring. rewrite H0, H1, H2. ring. }
  set (al := 3 / 2 * x / n). set (be := x / 2).
  assert (HS : 0 <= (a - al * u * u + be) ^ 2 + (e - al * v * v + be) ^ 2 + (k - al * w * w + be) ^ 2 + 2 * ((b - al * u * v) ^ 2 + (c - al * u * w) ^ 2 + (f - al * v * w) ^ 2)).
  { repeat apply Rplus_le_le_0_compat; try apply pow2_ge_0. apply Rmult_le_pos; [lra|]. repeat apply Rplus_le_le_0_compat; apply pow2_ge_0. }
  replace ((a - al * u * u + be) ^ 2 + (e - al * v * v + be) ^ 2 + (k - al * w * w + be) ^ 2 + 2 * ((b - al * u * v) ^ 2 + (c - al * u * w) ^ 2 + (f - al * v * w) ^ 2)) with
    ((a ^ 2 + e ^ 2 + k ^ 2 + 2 * (b ^ 2 + c ^ 2 + f ^ 2)) + al ^ 2 * n ^ 2 + 3 * be ^ 2 - 2 * al * (a * u * u + e * v * v + k * w * w + 2 * (b * u * v + c * u * w + f * v * w)) + 2 * be * (a + e + k) - 2 * al * be * n) in HS by (unfold n; ring).
  rewrite Hnm, Hq, Htr in HS. unfold al, be in HS.
  replace (6 + (3 / 2 * x / n) ^ 2 * n ^ 2 + 3 * (x / 2) ^ 2 - 2 * (3 / 2 * x / n) * (x * n) + 2 * (x / 2) * 0 - 2 * (3 / 2 * x / n) * (x / 2) * n) with (6 - 3 / 2 * x ^ 2) in HS by (field; lra).
  lra.
Qed.

(** *** The reduced tensor *)
Section Reduced.
Variable t : mat3.
Hypothesis Hsym : symmetric t.
Hypothesis Hp : spread t <> 0.
Notation p := (spread t).
Notation B := (reduced t).
Definition sq (t : mat3) : R := (t 0%nat 0%nat - mean t) ^ 2 + (t 1%nat 1%nat - mean t) ^ 2 + (t 2%nat 2%nat - mean t) ^ 2 + 2 * (t 0%nat 1%nat ^ 2 + t 0%nat 2%nat ^ 2 + t 1%nat 2%nat ^ 2).
Lemma sq_nonneg : 0 <= sq t.
Proof.
  unfold sq. pose proof (pow2_ge_0 (t 0%nat 0%nat - mean t)). pose proof (pow2_ge_0 (t 1%nat 1%nat - mean t)). pose proof (pow2_ge_0 (t 2%nat 2%nat - mean t)).
  pose proof (pow2_ge_0 (t 0%nat 1%nat)). pose proof (pow2_ge_0 (t 0%nat 2%nat)). pose proof (pow2_ge_0 (t 1%nat 2%nat)). lra.
Qed.
Lemma spread_pos : 0 < p.
Proof. pose proof (sqrt_pos (sq t / 6)). fold p in H. change (spread t) with (sqrt (sq t / 6)) in *. lra. Qed.
Lemma spread_sq : p * p = sq t / 6.
Proof. change p with (sqrt (sq t / 6)). apply sqrt_sqrt. pose proof sq_nonneg. lra. Qed.

Lemma entry i j : t i j = (if Nat.eqb i j then mean t else 0) + p * B i j.
Proof. unfold reduced. destruct (Nat.eqb_spec i j) as [->|]; field; exact Hp. Qed.

Lemma B_sym i j : (i < 3)%nat -> (j < 3)%nat -> B i j = B j i.
Proof. intros Hi Hj. unfold reduced. rewrite (Nat.eqb_sym j i). destruct (Nat.eqb_spec i j) as [->|]; [reflexivity|]. now rewrite (Hsym i j Hi Hj). Qed.
Lemma B_trace : B 0%nat 0%nat + B 1%nat 1%nat + B 2%nat 2%nat = 0.
Proof. unfold reduced. cbn [Nat.eqb]. unfold mean. field. exact Hp. Qed.
Lemma B_norm : B 0%nat 0%nat ^ 2 + B 1%nat 1%nat ^ 2 + B 2%nat 2%nat ^ 2 + 2 * (B 0%nat 1%nat ^ 2 + B 0%nat 2%nat ^ 2 + B 1%nat 2%nat ^ 2) = 6.
Proof.
  transitivity (sq t / (p * p)); [unfold reduced, sq; cbn [Nat.eqb]; field; exact Hp|]. pose proof spread_sq as H.
  assert (Hs : sq t = 6 * (p * p)) by lra. rewrite Hs. field. exact Hp.
Qed.

Definition r := det3 B / 2.
Lemma char_B x : det3 (shift B x) = - (x ^ 3 - 3 * x - 2 * r).
Proof.
  unfold r. pose proof B_trace as H1. pose proof B_norm as H2. unfold det3, shift. cbn [Nat.eqb].
  rewrite (B_sym 1 0), (B_sym 2 0), (B_sym 2 1) by lia.
  assert (E : B 2%nat 2%nat = - B 0%nat 0%nat - B 1%nat 1%nat) by lra. rewrite E in *. clear E H1.
  generalize dependent (B 0%nat 0%nat). generalize dependent (B 0%nat 1%nat). generalize dependent (B 0%nat 2%nat). generalize dependent (B 1%nat 1%nat). generalize dependent (B 1%nat 2%nat). intros f e c b a H2.
  replace (3 * x) with (x * 6 / 2) by field. rewrite <- H2. field.
Qed.
Lemma char_t x : det3 (shift t (mean t + p * x)) = p ^ 3 * det3 (shift B x).
Proof. unfold det3, shift. cbn [Nat.eqb]. rewrite (entry 0 0), (entry 0 1), (entry 0 2), (entry 1 0), (entry 1 1), (entry 1 2), (entry 2 0), (entry 2 1), (entry 2 2). cbn [Nat.eqb]. ring. Qed.

(** no eigenvalue of B is larger than 2 in magnitude *)
Lemma B_bound x : eigenvalue B x -> x ^ 2 <= 4.
Proof.
  intros (v & (i & Hi & Hv) & H). pose proof (H 0%nat ltac:(lia)) as H0. pose proof (H 1%nat ltac:(lia)) as H1. pose proof (H 2%nat ltac:(lia)) as H2. unfold apply3 in *.
  rewrite (B_sym 1 0), (B_sym 2 0), (B_sym 2 1) in * by lia. pose proof B_trace as Ht. pose proof B_norm as Hn.
  assert (Hnn : 0 < v 0%nat ^ 2 + v 1%nat ^ 2 + v 2%nat ^ 2). { pose proof (pow2_ge_0 (v 0%nat)). pose proof (pow2_ge_0 (v 1%nat)). pose proof (pow2_ge_0 (v 2%nat)). destruct i as [|[|[|i]]]; [| | |lia]; match type of Hv with ?y <> 0 => pose proof (Rsqr_pos_lt y Hv) as Hy; unfold Rsqr in Hy end; lra. }
  exact (bound_alg _ _ _ _ _ _ _ _ _ x Hnn H0 H1 H2 Ht Hn).
Qed.

Lemma cubic_root_above s : 1 < s -> exists x, 2 < x /\ x ^ 3 - 3 * x - 2 * s = 0.
Proof.
  intros Hs. set (f := fun x : R => x ^ 3 - 3 * x - 2 * s).
  assert (Hc : continuity f) by (unfold f; reg).
  destruct (IVT f 2 (2 + s) Hc) as (x & [Hx1 Hx2] & Hx); [lra|unfold f; nra|unfold f; nra|].
  exists x. split; [|exact Hx]. destruct Hx1 as [Hx1|Hx1]; [exact Hx1|]. exfalso. subst x. unfold f in Hx. lra.
Qed.

Lemma r_bound : -1 <= r <= 1.
Proof.
  split.
  - destruct (Rle_dec (-1) r) as [|H]; [assumption|exfalso]. destruct (cubic_root_above (- r)) as (x & Hx & E); [lra|].
    assert (He : eigenvalue B (- x)). { apply eigen_iff. rewrite char_B. replace ((- x) ^ 3 - 3 * (- x) - 2 * r) with (- (x ^ 3 - 3 * x - 2 * - r)) by ring. rewrite E. ring. }
    apply B_bound in He. nra.
  - destruct (Rle_dec r 1) as [|H]; [assumption|exfalso]. destruct (cubic_root_above r) as (x & Hx & E); [lra|].
    assert (He : eigenvalue B x). { apply eigen_iff. rewrite char_B, E. ring. }
    apply B_bound in He. nra.
Qed.

Lemma cos_triple x : cos (3 * x) = 4 * cos x ^ 3 - 3 * cos x.
Proof. replace (3 * x) with (2 * x + x) by ring. rewrite cos_plus, cos_2a, sin_2a. pose proof (sin2_cos2 x) as H. unfold Rsqr in H. replace (2 * sin x * cos x * sin x) with (2 * cos x * (sin x * sin x)) by ring. replace (sin x * sin x) with (1 - cos x * cos x) by lra. ring. Qed.

Lemma angle_cos : cos (3 * angle PI r) = r.
Proof.
  pose proof r_bound as Hb. unfold angle. destruct (Rle_dec r (-1)) as [H|H].
  - replace (3 * (PI / 3)) with PI by field. rewrite cos_PI. lra.
  - destruct (Rle_dec 1 r) as [H1|H1]; [rewrite Rmult_0_r, cos_0; lra|]. replace (3 * (acos r / 3)) with (acos r) by field. apply cos_acos. lra.
Qed.

Definition e1 := 2 * cos (angle PI r).
Definition e2 := 2 * cos (angle PI r + 2 * PI / 3).
Definition e3 := - (e1 + e2).
Lemma cos_third x : cos (x + 2 * PI / 3) = - cos x / 2 - sin x * (sqrt 3 / 2).
Proof. rewrite cos_plus. replace (2 * PI / 3) with (2 * (PI / 3)) by field. rewrite cos_2PI3, sin_2PI3. field. Qed.
Lemma factors x : x ^ 3 - 3 * x - 2 * r = (x - e1) * (x - e2) * (x - e3).
Proof.
  set (c := cos (angle PI r)). set (s := sin (angle PI r)). set (q := sqrt 3).
  assert (Hq : q * q = 3) by (apply sqrt_sqrt; lra). assert (Hcs : s * s = 1 - c * c) by (pose proof (sin2_cos2 (angle PI r)) as H; unfold Rsqr in H; fold c s in H; lra).
  assert (Hr : r = 4 * c ^ 3 - 3 * c) by (rewrite <- angle_cos at 1; apply cos_triple).
  unfold e3, e2, e1. rewrite cos_third. fold c s q. rewrite Hr.
  replace ((x - 2 * c) * (x - 2 * (- c / 2 - s * (q / 2))) * (x - - (2 * c + 2 * (- c / 2 - s * (q / 2))))) with ((x - 2 * c) * ((x + c) * (x + c) - (s * s) * (q * q))) by field.
  rewrite Hcs, Hq. ring.
Qed.

Lemma eigen_t x : eigenvalue t x <-> x = mean t + p * e1 \/ x = mean t + p * e2 \/ x = mean t + p * e3.
Proof.
  assert (Hx : x = mean t + p * ((x - mean t) / p)) by (field; exact Hp). set (m := (x - mean t) / p) in *. rewrite Hx. clearbody m. clear Hx x.
  rewrite eigen_iff, char_t, char_B, factors.
  assert (Hp3 : p ^ 3 <> 0) by (apply pow_nonzero; exact Hp). split.
  - intros H. apply Rmult_integral in H. destruct H as [H|H]; [contradiction|]. assert (H' : (m - e1) * (m - e2) * (m - e3) = 0) by lra.
    apply Rmult_integral in H'. destruct H' as [H'|H']; [apply Rmult_integral in H'; destruct H' as [H'|H']|].
    + left. replace m with e1 by lra. reflexivity. + right; left. replace m with e2 by lra. reflexivity. + right; right. replace m with e3 by lra. reflexivity.
  - assert (Hi : forall y, mean t + p * m = mean t + p * y -> m = y) by (intros y Hy; apply (Rmult_eq_reg_l p); [lra|exact Hp]).
    intros [H|[H|H]]; apply Hi in H; rewrite H; ring.
Qed.

Lemma max_eigen_spec m : det3 t <> 0 -> max_eigen PI t = Some m -> largest_eigenvalue t m.
Proof.
  intros Hd. unfold max_eigen. destruct (Req_EM_T (det3 t) 0) as [|_]; [contradiction|]. destruct (Req_EM_T (spread t) 0) as [|_]; [contradiction|].
  fold r. intros H. injection H as <-.
  replace (mean t + 2 * p * cos (angle PI r)) with (mean t + p * e1) by (unfold e1; ring).
  replace (mean t + 2 * p * cos (angle PI r + 2 * PI / 3)) with (mean t + p * e2) by (unfold e2; ring).
  replace (3 * mean t - (mean t + p * e1 + (mean t + p * e2))) with (mean t + p * e3) by (unfold e3; ring).
  unfold fmax. set (a := mean t + p * e1) in *. set (b := mean t + p * e2) in *. set (c := mean t + p * e3) in *. split.
  - unfold Rmax. destruct (Rle_dec (Rabs a) (Rabs b)).
    + destruct (Rle_dec (Rabs b) (Rabs c)); [exists c|exists b]; (split; [apply eigen_t|reflexivity]); auto.
    + destruct (Rle_dec (Rabs a) (Rabs c)); [exists c|exists a]; (split; [apply eigen_t|reflexivity]); auto.
  - intros x Hx. apply eigen_t in Hx. pose proof (Rmax_l (Rmax (Rabs a) (Rabs b)) (Rabs c)). pose proof (Rmax_r (Rmax (Rabs a) (Rabs b)) (Rabs c)). pose proof (Rmax_l (Rabs a) (Rabs b)). pose proof (Rmax_r (Rabs a) (Rabs b)).
    destruct Hx as [->|[->| ->]]; fold a b c; lra.
Qed.
End Reduced.

Lemma spread_spherical t : symmetric t -> (spread t = 0 <-> spherical t).
Proof.
  intros Hs. change (spread t) with (sqrt (sq t / 6)). pose proof (sq_nonneg t) as Hn. split.
  - intros H. apply sqrt_eq_0 in H; [|lra]. assert (Hz : sq t = 0) by lra. unfold sq in Hz.
    pose proof (pow2_ge_0 (t 0%nat 0%nat - mean t)). pose proof (pow2_ge_0 (t 1%nat 1%nat - mean t)). pose proof (pow2_ge_0 (t 2%nat 2%nat - mean t)).
    pose proof (pow2_ge_0 (t 0%nat 1%nat)). pose proof (pow2_ge_0 (t 0%nat 2%nat)). pose proof (pow2_ge_0 (t 1%nat 2%nat)).
    assert (Z : forall x, x ^ 2 = 0 -> x = 0) by (intros x Hx; nra).
    assert (t 0%nat 0%nat - mean t = 0) by (apply Z; lra). assert (t 1%nat 1%nat - mean t = 0) by (apply Z; lra). assert (t 2%nat 2%nat - mean t = 0) by (apply Z; lra).
    assert (t 0%nat 1%nat = 0) by (apply Z; lra). assert (t 0%nat 2%nat = 0) by (apply Z; lra). assert (t 1%nat 2%nat = 0) by (apply Z; lra).
    pose proof (Hs 1%nat 0%nat ltac:(lia) ltac:(lia)). pose proof (Hs 2%nat 0%nat ltac:(lia) ltac:(lia)). pose proof (Hs 2%nat 1%nat ltac:(lia) ltac:(lia)).
    intros i j Hi Hj. destruct i as [|[|[|i]]], j as [|[|[|j]]]; try lia; cbn [Nat.eqb]; lra.
  - intros H. assert (Hz : sq t = 0).
    { unfold sq, mean. rewrite (H 1%nat 1%nat), (H 2%nat 2%nat), (H 0%nat 1%nat), (H 0%nat 2%nat), (H 1%nat 2%nat) by lia. cbn [Nat.eqb]. field. }
    rewrite Hz. replace (0 / 6) with 0 by field. apply sqrt_0.
Qed.
