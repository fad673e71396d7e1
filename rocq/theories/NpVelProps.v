(* Gradients of node velocities and back: C135. *)
From Coq Require Import Reals List Arith ZArith Lia Lra.
From Verif Require Import BaseReal LinModel EvpModel EvpFlowModel EvpFftModel EvpSpec EvpBasis EvpFft EvpFftProps NpModel NpSpec NpFft NpFillProps.
Import ListNotations.
Local Open Scope R_scope.

Definition odd_grid (g : np_grid) : Prop := (Z.of_nat (gn1 g) mod 2 = 1 /\ Z.of_nat (gn2 g) mod 2 = 1 /\ Z.of_nat (gn3 g) mod 2 = 1)%Z.

(* ---------- the rotated frequency ---------- *)

Lemma half_angle x : cos (x / 2) <> 0 -> tan (x / 2) * sin x = 1 - cos x /\ tan (x / 2) * (1 + cos x) = sin x.
Proof.
  intros C. unfold tan. set (h := x / 2) in *. replace x with (2 * h) by (unfold h; field). rewrite sin_2a, cos_2a. pose proof (sin2_cos2 h) as P. unfold Rsqr in P. split.
  - replace (1 - (cos h * cos h - sin h * sin h)) with (2 * (sin h * sin h)) by (rewrite <- P; ring). field. exact C.
  - replace (1 + (cos h * cos h - sin h * sin h)) with (2 * (cos h * cos h)) by (rewrite <- P; ring). field. exact C.
Qed.

(* tan(x1/2) (i/4) (1 + e^(i x1)) (1 + e^(i x2)) (1 + e^(i x3)) is the mean of e^(i x1) - 1 over the
   four edges. *)
Definition edge_re (a b c : R) : R := / 4 * (cos a - 1 + (cos (a + b) - cos b) + (cos (a + c) - cos c) + (cos (a + b + c) - cos (b + c))).
Definition edge_im (a b c : R) : R := / 4 * (sin a - 0 + (sin (a + b) - sin b) + (sin (a + c) - sin c) + (sin (a + b + c) - sin (b + c))).

Lemma edge_product a b c T : T * sin a = 1 - cos a -> T * (1 + cos a) = sin a ->
  let A := 1 + cos b in let B := 1 + cos c in
  - / 4 * (T * sin a * A * B + T * (1 + cos a) * (sin b * B + A * sin c) - T * sin a * sin b * sin c) = edge_re a b c
  /\ / 4 * (T * (1 + cos a) * A * B - T * (1 + cos a) * sin b * sin c - T * sin a * (A * sin c + B * sin b)) = edge_im a b c.
Proof. intros H1 H2 A B. rewrite H1, H2. unfold edge_re, edge_im, A, B. rewrite !cos_plus, !sin_plus, !cos_plus. split; field. Qed.

Lemma krot_edges (x : T1) j : idx 3 j -> (forall i, idx 3 i -> cos (x i / 2) <> 0) ->
  let o := fun a => match j, a with 1, 1 => 2 | 1, _ => 3 | 2, 1 => 1 | 2, _ => 3 | _, 1 => 1 | _, _ => 2 end%nat in
  krot_re x j = edge_re (x j) (x (o 1%nat)) (x (o 2%nat)) /\ krot_im x j = edge_im (x j) (x (o 1%nat)) (x (o 2%nat)).
Proof.
  intros J H o. destruct (half_angle (x j) (H j J)) as [H1 H2]. assert (C : j = 1%nat \/ j = 2%nat \/ j = 3%nat) by (unfold idx in J; lia). unfold krot_re, krot_im, prefactor_re, prefactor_im, o.
  destruct C as [-> | [-> | ->]].
  - destruct (edge_product (x 1%nat) (x 2%nat) (x 3%nat) _ H1 H2) as [<- <-]. split; field.
  - destruct (edge_product (x 2%nat) (x 1%nat) (x 3%nat) _ H1 H2) as [<- <-]. split; field.
  - destruct (edge_product (x 3%nat) (x 1%nat) (x 2%nat) _ H1 H2) as [<- <-]. split; field.
Qed.

(* ---------- frequencies and phases ---------- *)

Lemma wave_small n k : (Z.of_nat n mod 2 = 1)%Z -> (k < n)%nat -> (2 * Z.abs (wave_number (Z.of_nat n) 0 (Z.of_nat k)) < Z.of_nat n)%Z.
Proof. intros O K. pose proof (Z.div_mod (Z.of_nat n) 2 ltac:(lia)) as D. unfold wave_number. rewrite Z.add_0_r. destruct (Z.ltb_spec (Z.of_nat n / 2) (Z.of_nat k)); lia. Qed.
Lemma wave_turn n k : (1 <= n)%nat -> exists m, 2 * PI * (1 * IZR (wave_number (Z.of_nat n) 0 (Z.of_nat k)) / INR n) = 2 * PI * (INR k / INR n) + 2 * IZR m * PI.
Proof.
  intros N. assert (P : INR n <> 0) by (apply not_0_INR; lia). unfold wave_number. rewrite Z.add_0_r. destruct (Z.ltb_spec (Z.of_nat n / 2) (Z.of_nat k)).
  - exists (-1)%Z. rewrite minus_IZR, <- !INR_IZR_INZ. field. exact P.
  - exists 0%Z. rewrite <- INR_IZR_INZ. field. exact P.
Qed.
Lemma half_cos n k : (Z.of_nat n mod 2 = 1)%Z -> (k < n)%nat -> 0 < cos (2 * PI * (1 * IZR (wave_number (Z.of_nat n) 0 (Z.of_nat k)) / INR n) / 2).
Proof.
  intros O K. pose proof (wave_small n k O K) as W. set (w := wave_number _ _ _) in *. assert (P : 0 < INR n) by (apply lt_0_INR; lia).
  replace (2 * PI * (1 * IZR w / INR n) / 2) with (PI / 2 * (2 * IZR w / INR n)) by (field; lra).
  assert (B : -1 < 2 * IZR w / INR n < 1).
  { assert (- INR n < 2 * IZR w < INR n) by (rewrite INR_IZR_INZ, <- opp_IZR, <- mult_IZR; split; apply IZR_lt; lia).
    split; apply Rmult_lt_reg_r with (INR n); try exact P; unfold Rdiv; rewrite Rmult_assoc, Rinv_l by lra; lra. }
  pose proof PI_RGT_0. apply cos_gt_0; nra.
Qed.

Section Grid.
Variable g : np_grid.
Hypothesis G : gridded g.
Notation n1 := (gn1 g).
Notation n2 := (gn2 g).
Notation n3 := (gn3 g).
Notation ph := (phase n1 n2 n3).
Notation grid := (sites n1 n2 n3).
Notation X := (np_wave g).
Let N1 : (1 <= n1)%nat := proj1 G.
Let N2 : (1 <= n2)%nat := proj1 (proj2 G).
Let N3 : (1 <= n3)%nat := proj2 (proj2 G).

Lemma np_wave_cos k : odd_grid g -> In k grid -> forall i, idx 3 i -> 0 < cos (X k i / 2).
Proof.
  intros (O1 & O2 & O3) K i I. destruct k as [[x y] z]. apply in_sites in K. destruct K as (A & B & C). assert (D : i = 1%nat \/ i = 2%nat \/ i = 3%nat) by (unfold idx in I; lia).
  destruct D as [-> | [-> | ->]]; unfold np_wave; apply half_cos; assumption.
Qed.

(* Whole combinations of the three frequencies are phases of a site. *)
Lemma np_wave_phase k (a b c : nat) : exists m, INR a * X k 1%nat + INR b * X k 2%nat + INR c * X k 3%nat = ph k (a, b, c) + 2 * IZR m * PI.
Proof.
  destruct k as [[x y] z]. unfold np_wave. destruct (wave_turn n1 x N1) as (m1 & ->), (wave_turn n2 y N2) as (m2 & ->), (wave_turn n3 z N3) as (m3 & ->).
  exists (Z.of_nat a * m1 + Z.of_nat b * m2 + Z.of_nat c * m3)%Z. unfold phase. rewrite !plus_IZR, !mult_IZR, <- !INR_IZR_INZ, !mult_INR. unfold Rdiv. ring.
Qed.
Lemma np_cos k a b c : cos (INR a * X k 1%nat + INR b * X k 2%nat + INR c * X k 3%nat) = cos (ph k (a, b, c)).
Proof. destruct (np_wave_phase k a b c) as (m & ->). apply cos_2Z. Qed.
Lemma np_sin k a b c : sin (INR a * X k 1%nat + INR b * X k 2%nat + INR c * X k 3%nat) = sin (ph k (a, b, c)).
Proof. destruct (np_wave_phase k a b c) as (m & ->). apply sin_2Z. Qed.

Definition edge_list (j : nat) : list (R * site) :=
  match j with
  | 1%nat => [(/ 4, (1, 0, 0)%nat); (- / 4, (0, 0, 0)%nat); (/ 4, (1, 1, 0)%nat); (- / 4, (0, 1, 0)%nat); (/ 4, (1, 0, 1)%nat); (- / 4, (0, 0, 1)%nat); (/ 4, (1, 1, 1)%nat); (- / 4, (0, 1, 1)%nat)]
  | 2%nat => [(/ 4, (0, 1, 0)%nat); (- / 4, (0, 0, 0)%nat); (/ 4, (1, 1, 0)%nat); (- / 4, (1, 0, 0)%nat); (/ 4, (0, 1, 1)%nat); (- / 4, (0, 0, 1)%nat); (/ 4, (1, 1, 1)%nat); (- / 4, (1, 0, 1)%nat)]
  | _ => [(/ 4, (0, 0, 1)%nat); (- / 4, (0, 0, 0)%nat); (/ 4, (1, 0, 1)%nat); (- / 4, (1, 0, 0)%nat); (/ 4, (0, 1, 1)%nat); (- / 4, (0, 1, 0)%nat); (/ 4, (1, 1, 1)%nat); (- / 4, (1, 1, 0)%nat)]
  end.

Lemma krot_list k j : odd_grid g -> In k grid -> idx 3 j ->
  krot_re (X k) j = suml (fun cs => fst cs * cos (ph k (snd cs))) (edge_list j) /\ krot_im (X k) j = suml (fun cs => fst cs * sin (ph k (snd cs))) (edge_list j).
Proof.
  intros O K J. destruct (krot_edges (X k) j J) as [-> ->]; [intros i I; apply Rgt_not_eq, np_wave_cos; assumption|].
  assert (E : forall a b c t, t = INR a * X k 1%nat + INR b * X k 2%nat + INR c * X k 3%nat -> cos t = cos (ph k (a, b, c)) /\ sin t = sin (ph k (a, b, c))) by (intros a b c t ->; split; [apply np_cos|apply np_sin]).
  assert (E0 : 1 = cos (ph k (0, 0, 0)%nat) /\ 0 = sin (ph k (0, 0, 0)%nat)) by (destruct (E 0%nat 0%nat 0%nat 0) as [<- <-]; [cbn [INR]; ring|split; [rewrite cos_0|rewrite sin_0]; reflexivity]).
  destruct E0 as [E0 F0].
  assert (C : j = 1%nat \/ j = 2%nat \/ j = 3%nat) by (unfold idx in J; lia). unfold edge_re, edge_im. destruct C as [-> | [-> | ->]]; unfold edge_list; rewrite !suml_cons; unfold suml; cbn [fold_right map fst snd]; rewrite <- E0, <- F0.
  - destruct (E 1%nat 0%nat 0%nat (X k 1%nat)) as [-> ->]; [cbn [INR]; ring|]. destruct (E 0%nat 1%nat 0%nat (X k 2%nat)) as [-> ->]; [cbn [INR]; ring|]. destruct (E 0%nat 0%nat 1%nat (X k 3%nat)) as [-> ->]; [cbn [INR]; ring|].
    destruct (E 1%nat 1%nat 0%nat (X k 1%nat + X k 2%nat)) as [-> ->]; [cbn [INR]; ring|]. destruct (E 1%nat 0%nat 1%nat (X k 1%nat + X k 3%nat)) as [-> ->]; [cbn [INR]; ring|]. destruct (E 0%nat 1%nat 1%nat (X k 2%nat + X k 3%nat)) as [-> ->]; [cbn [INR]; ring|].
    destruct (E 1%nat 1%nat 1%nat (X k 1%nat + X k 2%nat + X k 3%nat)) as [-> ->]; [cbn [INR]; ring|]. split; ring.
  - destruct (E 1%nat 0%nat 0%nat (X k 1%nat)) as [-> ->]; [cbn [INR]; ring|]. destruct (E 0%nat 1%nat 0%nat (X k 2%nat)) as [-> ->]; [cbn [INR]; ring|]. destruct (E 0%nat 0%nat 1%nat (X k 3%nat)) as [-> ->]; [cbn [INR]; ring|].
    destruct (E 1%nat 1%nat 0%nat (X k 2%nat + X k 1%nat)) as [-> ->]; [cbn [INR]; ring|]. destruct (E 1%nat 0%nat 1%nat (X k 1%nat + X k 3%nat)) as [-> ->]; [cbn [INR]; ring|]. destruct (E 0%nat 1%nat 1%nat (X k 2%nat + X k 3%nat)) as [-> ->]; [cbn [INR]; ring|].
    destruct (E 1%nat 1%nat 1%nat (X k 2%nat + X k 1%nat + X k 3%nat)) as [-> ->]; [cbn [INR]; ring|]. split; ring.
  - destruct (E 1%nat 0%nat 0%nat (X k 1%nat)) as [-> ->]; [cbn [INR]; ring|]. destruct (E 0%nat 1%nat 0%nat (X k 2%nat)) as [-> ->]; [cbn [INR]; ring|]. destruct (E 0%nat 0%nat 1%nat (X k 3%nat)) as [-> ->]; [cbn [INR]; ring|].
    destruct (E 1%nat 0%nat 1%nat (X k 3%nat + X k 1%nat)) as [-> ->]; [cbn [INR]; ring|]. destruct (E 0%nat 1%nat 1%nat (X k 3%nat + X k 2%nat)) as [-> ->]; [cbn [INR]; ring|]. destruct (E 1%nat 1%nat 0%nat (X k 1%nat + X k 2%nat)) as [-> ->]; [cbn [INR]; ring|].
    destruct (E 1%nat 1%nat 1%nat (X k 3%nat + X k 1%nat + X k 2%nat)) as [-> ->]; [cbn [INR]; ring|]. split; ring.
Qed.

Lemma gradient_is v p i j : odd_grid g -> idx 3 j -> np_gradient g v p i j = edges n1 n2 n3 (fun q => v q i) p j.
Proof.
  intros O J. unfold np_gradient. cbv zeta.
  rewrite (ifft_ext n1 n2 n3 _ _
    (fun k => suml (fun cs => fst cs * (fft_re n1 n2 n3 (fun q => v q i) k * cos (ph k (snd cs)) - fft_im n1 n2 n3 (fun q => v q i) k * sin (ph k (snd cs)))) (edge_list j))
    (fun k => suml (fun cs => fst cs * (fft_re n1 n2 n3 (fun q => v q i) k * sin (ph k (snd cs)) + fft_im n1 n2 n3 (fun q => v q i) k * cos (ph k (snd cs)))) (edge_list j))).
  - rewrite shifts by assumption. assert (C : j = 1%nat \/ j = 2%nat \/ j = 3%nat) by (unfold idx in J; lia). unfold edges, node.
    destruct C as [-> | [-> | ->]]; unfold edge_list; rewrite !suml_cons; unfold suml; cbn [fold_right map fst snd]; ring.
  - intros k K. destruct (krot_list k j O K J) as [-> ->]. rewrite <- !suml_scal, <- suml_minus. apply suml_ext. intros cs _. ring.
  - intros k K. destruct (krot_list k j O K J) as [-> ->]. rewrite <- !suml_scal, <- suml_plus. apply suml_ext. intros cs _. ring.
Qed.
End Grid.

(* The gradient put on a voxel is the mean difference of the velocities along the edges of
   the voxel. *)
Theorem C135_gradient : forall g v p i j, gridded g -> odd_grid g -> idx 3 j -> np_gradient g v p i j = edges (gn1 g) (gn2 g) (gn3 g) (fun q => v q i) p j.
Proof. intros. apply gradient_is; assumption. Qed.
Print Assumptions C135_gradient.

(* ---------- no frequency is lost ---------- *)

Lemma sin_third t : 0 <= t <= PI / 2 -> t / 3 <= sin t.
Proof.
  intros T. pose proof PI_4 as P4. assert (T2 : 0 <= t <= 2) by lra. pose proof (SIN t ltac:(lra) ltac:(lra)) as [L _]. refine (Rle_trans _ _ _ _ L).
  unfold sin_lb, sin_approx, sin_term. cbn [sum_f_R0 pow Nat.mul Nat.add fact INR].
  assert (A : 0 <= t * t <= 4) by nra. set (u := t * t) in *.
  replace (_ + _) with (t * (1 - u / 6 + u * u / 120 - u * u * u / 5040)) by (unfold u; field).
  assert (0 <= u * u / 120 - u * u * u / 5040) by nra. nra.
Qed.
Lemma low_sin n w : (0 < n)%nat -> (w <> 0)%Z -> (2 * Z.abs w < Z.of_nat n)%Z -> / INR n ^ 2 <= sin (2 * PI * (1 * IZR w / INR n) / 2) ^ 2.
Proof.
  intros N W B. assert (P : 0 < INR n) by (apply lt_0_INR; exact N). pose proof PI2_3_2 as P3.
  assert (E : sin (2 * PI * (1 * IZR w / INR n) / 2) ^ 2 = sin (PI * IZR (Z.abs w) / INR n) ^ 2).
  { replace (2 * PI * (1 * IZR w / INR n) / 2) with (PI * IZR w / INR n) by (field; lra). destruct (Z.abs_spec w) as [[_ ->]|[_ ->]]; [reflexivity|].
    rewrite opp_IZR. replace (PI * - IZR w / INR n) with (- (PI * IZR w / INR n)) by (field; lra). rewrite sin_neg. ring. }
  rewrite E. set (a := Z.abs w) in *. assert (A : 1 <= IZR a) by (apply (IZR_le 1); lia). assert (A2 : 2 * IZR a <= INR n) by (rewrite INR_IZR_INZ, <- mult_IZR; apply IZR_le; lia).
  set (t := PI * IZR a / INR n).
  assert (T1 : 3 / INR n <= t) by (unfold t, Rdiv; apply Rmult_le_compat_r; [apply Rlt_le, Rinv_0_lt_compat, P|nra]).
  assert (T2 : t <= PI / 2) by (unfold t; apply Rmult_le_reg_r with (INR n); [exact P|]; unfold Rdiv; rewrite Rmult_assoc, Rinv_l by lra; nra).
  assert (T0 : 0 < 3 / INR n) by (apply Rdiv_lt_0_compat; lra). pose proof (sin_third t ltac:(lra)) as S.
  assert (L : / INR n <= sin t) by (replace (/ INR n) with (3 / INR n / 3) by (field; lra); lra).
  rewrite <- pow_inv by lra. apply pow_incr. split; [apply Rlt_le, Rinv_0_lt_compat, P|exact L].
Qed.
Lemma low_cos n w : (0 < n)%nat -> (2 * Z.abs w < Z.of_nat n)%Z -> / (4 * INR n ^ 2) <= cos (2 * PI * (1 * IZR w / INR n) / 2) ^ 2.
Proof.
  intros N B. assert (P : 0 < INR n) by (apply lt_0_INR; exact N). pose proof PI2_3_2 as P3.
  assert (E : cos (2 * PI * (1 * IZR w / INR n) / 2) = sin (PI / 2 - PI * IZR (Z.abs w) / INR n)).
  { rewrite sin_shift. replace (2 * PI * (1 * IZR w / INR n) / 2) with (PI * IZR w / INR n) by (field; lra). destruct (Z.abs_spec w) as [[_ ->]|[_ ->]]; [reflexivity|].
    rewrite opp_IZR. replace (PI * - IZR w / INR n) with (- (PI * IZR w / INR n)) by (field; lra). rewrite cos_neg. reflexivity. }
  rewrite E. set (a := Z.abs w) in *. assert (A0 : 0 <= IZR a) by (apply (IZR_le 0); lia).
  assert (A2 : 2 * IZR a + 1 <= INR n) by (rewrite INR_IZR_INZ, <- mult_IZR, <- plus_IZR; apply IZR_le; lia).
  set (t := PI / 2 - PI * IZR a / INR n). assert (T : t = PI / 2 * ((INR n - 2 * IZR a) / INR n)) by (unfold t; field; lra).
  assert (Q : / INR n <= (INR n - 2 * IZR a) / INR n <= 1).
  { split; [unfold Rdiv; rewrite <- (Rmult_1_l (/ INR n)) at 1; apply Rmult_le_compat_r; [apply Rlt_le, Rinv_0_lt_compat, P|lra]|].
    apply Rmult_le_reg_r with (INR n); [exact P|]. unfold Rdiv. rewrite Rmult_assoc, Rinv_l by lra. lra. }
  assert (IP : 0 < / INR n) by (apply Rinv_0_lt_compat, P).
  assert (TB : 3 / 2 * / INR n <= t <= PI / 2) by (rewrite T; split; nra).
  pose proof (sin_third t ltac:(lra)) as S. assert (L : / (2 * INR n) <= sin t) by (rewrite Rinv_mult; lra).
  replace (4 * INR n ^ 2) with ((2 * INR n) ^ 2) by ring. rewrite <- pow_inv by lra. apply pow_incr. split; [apply Rlt_le, Rinv_0_lt_compat; lra|exact L].
Qed.

Definition krot2 (x : T1) : R := krot_re x 1%nat ^ 2 + krot_im x 1%nat ^ 2 + krot_re x 2%nat ^ 2 + krot_im x 2%nat ^ 2 + krot_re x 3%nat ^ 2 + krot_im x 3%nat ^ 2.
Lemma krot2_is (x : T1) : (forall i, idx 3 i -> cos (x i / 2) <> 0) ->
  let c i := cos (x i / 2) ^ 2 in let s i := sin (x i / 2) ^ 2 in
  krot2 x = 4 * (s 1%nat * c 2%nat * c 3%nat + c 1%nat * s 2%nat * c 3%nat + c 1%nat * c 2%nat * s 3%nat).
Proof.
  intros H c s.
  assert (P : prefactor_re x ^ 2 + prefactor_im x ^ 2 = / 16 * (((1 + cos (x 1%nat)) ^ 2 + sin (x 1%nat) ^ 2) * ((1 + cos (x 2%nat)) ^ 2 + sin (x 2%nat) ^ 2) * ((1 + cos (x 3%nat)) ^ 2 + sin (x 3%nat) ^ 2)))
    by (unfold prefactor_re, prefactor_im; field).
  assert (Q : forall i, (1 + cos (x i)) ^ 2 + sin (x i) ^ 2 = 4 * c i).
  { intros i. unfold c. set (h := x i / 2). replace (x i) with (2 * h) by (unfold h; field). rewrite sin_2a, cos_2a. pose proof (sin2_cos2 h) as E. unfold Rsqr in E.
    replace (cos h * cos h - sin h * sin h) with (2 * (cos h * cos h) - 1) by (rewrite <- E; ring). replace ((2 * sin h * cos h) ^ 2) with (4 * (sin h * sin h) * (cos h * cos h)) by ring.
    replace (sin h * sin h) with (1 - cos h * cos h) by (rewrite <- E; ring). ring. }
  assert (T : forall i, idx 3 i -> tan (x i / 2) ^ 2 * c i = s i) by (intros i I; unfold tan, c, s; field; apply H, I).
  unfold krot2, krot_re, krot_im.
  replace (_ + _) with ((tan (x 1%nat / 2) ^ 2 + tan (x 2%nat / 2) ^ 2 + tan (x 3%nat / 2) ^ 2) * (prefactor_re x ^ 2 + prefactor_im x ^ 2)) by ring.
  rewrite P, !Q. rewrite <- (T 1%nat), <- (T 2%nat), <- (T 3%nat) by (unfold idx; lia). field.
Qed.

Definition resolved (g : np_grid) : Prop := INR (gn1 g) * INR (gn2 g) * INR (gn3 g) <= 15000000.

Section Back.
Variable g : np_grid.
Hypothesis G : gridded g.
Hypothesis O : odd_grid g.
Notation n1 := (gn1 g).
Notation n2 := (gn2 g).
Notation n3 := (gn3 g).
Notation ph := (phase n1 n2 n3).
Notation grid := (sites n1 n2 n3).
Notation X := (np_wave g).
Notation op := (opposite n1 n2 n3).
Let N1 : (1 <= n1)%nat := proj1 G.
Let N2 : (1 <= n2)%nat := proj1 (proj2 G).
Let N3 : (1 <= n3)%nat := proj2 (proj2 G).

Lemma prod_low a b c a' b' c' : 0 < a -> 0 < b -> 0 < c -> a <= a' -> b <= b' -> c <= c' -> a * b * c <= a' * b' * c'.
Proof. intros. apply Rmult_le_compat; [nra|lra|apply Rmult_le_compat; lra|lra]. Qed.

(* Every frequency but the zero one passes the test of 1e-15. *)
Lemma krot2_big k : resolved g -> In k grid -> k <> (0, 0, 0)%nat -> 1 / 10 ^ 15 <= krot2 (X k).
Proof.
  intros R K NZ. rewrite krot2_is by (intros i I; apply Rgt_not_eq, np_wave_cos; assumption). cbv zeta.
  destruct k as [[x y] z]. apply in_sites in K. destruct K as (A & B & C). destruct O as (O1 & O2 & O3).
  assert (P1 : 0 < INR n1) by (apply lt_0_INR; lia). assert (P2 : 0 < INR n2) by (apply lt_0_INR; lia). assert (P3 : 0 < INR n3) by (apply lt_0_INR; lia).
  set (w1 := wave_number (Z.of_nat n1) 0 (Z.of_nat x)). set (w2 := wave_number (Z.of_nat n2) 0 (Z.of_nat y)). set (w3 := wave_number (Z.of_nat n3) 0 (Z.of_nat z)).
  pose proof (wave_small n1 x O1 A) as W1. pose proof (wave_small n2 y O2 B) as W2. pose proof (wave_small n3 z O3 C) as W3. fold w1 w2 w3 in W1, W2, W3.
  unfold np_wave. fold w1 w2 w3.
  set (t1 := 2 * PI * (1 * IZR w1 / INR n1)). set (t2 := 2 * PI * (1 * IZR w2 / INR n2)). set (t3 := 2 * PI * (1 * IZR w3 / INR n3)).
  assert (C1 : / (4 * INR n1 ^ 2) <= cos (t1 / 2) ^ 2) by (apply low_cos; [lia|exact W1]).
  assert (C2 : / (4 * INR n2 ^ 2) <= cos (t2 / 2) ^ 2) by (apply low_cos; [lia|exact W2]).
  assert (C3 : / (4 * INR n3 ^ 2) <= cos (t3 / 2) ^ 2) by (apply low_cos; [lia|exact W3]).
  assert (I1 : 0 < / INR n1 ^ 2) by (apply Rinv_0_lt_compat, pow_lt, P1). assert (I2 : 0 < / INR n2 ^ 2) by (apply Rinv_0_lt_compat, pow_lt, P2). assert (I3 : 0 < / INR n3 ^ 2) by (apply Rinv_0_lt_compat, pow_lt, P3).
  rewrite Rinv_mult in C1, C2, C3.
  pose proof (pow2_ge_0 (sin (t1 / 2))) as S1. pose proof (pow2_ge_0 (sin (t2 / 2))) as S2. pose proof (pow2_ge_0 (sin (t3 / 2))) as S3.
  set (a1 := sin (t1 / 2) ^ 2) in *. set (a2 := sin (t2 / 2) ^ 2) in *. set (a3 := sin (t3 / 2) ^ 2) in *. set (c1 := cos (t1 / 2) ^ 2) in *. set (c2 := cos (t2 / 2) ^ 2) in *. set (c3 := cos (t3 / 2) ^ 2) in *.
  set (q1 := / INR n1 ^ 2) in *. set (q2 := / INR n2 ^ 2) in *. set (q3 := / INR n3 ^ 2) in *.
  assert (Q1 : 0 < c1) by lra. assert (Q2 : 0 < c2) by lra. assert (Q3 : 0 < c3) by lra.
  assert (F1 : 0 <= a1 * c2 * c3) by (apply Rmult_le_pos; [apply Rmult_le_pos; lra|lra]).
  assert (F2 : 0 <= c1 * a2 * c3) by (apply Rmult_le_pos; [apply Rmult_le_pos; lra|lra]).
  assert (F3 : 0 <= c1 * c2 * a3) by (apply Rmult_le_pos; [apply Rmult_le_pos; lra|lra]).
  assert (T : 1 / 10 ^ 15 <= / 4 * (q1 * q2 * q3)).
  { unfold q1, q2, q3. rewrite <- !Rinv_mult. unfold Rdiv. rewrite Rmult_1_l. apply Rinv_le_contravar.
    - repeat apply Rmult_lt_0_compat; try lra; apply pow_lt; assumption.
    - replace (4 * (INR n1 ^ 2 * INR n2 ^ 2 * INR n3 ^ 2)) with (4 * (INR n1 * INR n2 * INR n3) ^ 2) by ring.
      assert (V0 : 0 <= INR n1 * INR n2 * INR n3) by (repeat apply Rmult_le_pos; lra). unfold resolved in R. set (V := INR n1 * INR n2 * INR n3) in *. clearbody V. nra. }
  assert (D : (w1 <> 0 \/ w2 <> 0 \/ w3 <> 0)%Z).
  { assert (Z0 : forall n k, (Z.of_nat n mod 2 = 1)%Z -> (k < n)%nat -> wave_number (Z.of_nat n) 0 (Z.of_nat k) = 0%Z -> k = 0%nat).
    { intros n k On Kn. unfold wave_number. rewrite Z.add_0_r. destruct (Z.ltb_spec (Z.of_nat n / 2) (Z.of_nat k)); lia. }
    destruct (Z.eq_dec w1 0) as [E1|E1]; [|left; exact E1]. destruct (Z.eq_dec w2 0) as [E2|E2]; [|right; left; exact E2]. right. right. intros E3. apply NZ.
    apply Z0 in E1, E2, E3; try assumption. subst. reflexivity. }
  destruct D as [D|[D|D]].
  - assert (L : q1 <= a1) by (apply low_sin; [lia|exact D|exact W1]). pose proof (prod_low q1 (/ 4 * q2) (/ 4 * q3) a1 c2 c3 ltac:(lra) ltac:(lra) ltac:(lra) L C2 C3). nra.
  - assert (L : q2 <= a2) by (apply low_sin; [lia|exact D|exact W2]). pose proof (prod_low (/ 4 * q1) q2 (/ 4 * q3) c1 a2 c3 ltac:(lra) ltac:(lra) ltac:(lra) C1 L C3). nra.
  - assert (L : q3 <= a3) by (apply low_sin; [lia|exact D|exact W3]). pose proof (prod_low (/ 4 * q1) (/ 4 * q2) q3 c1 c2 a3 ltac:(lra) ltac:(lra) ltac:(lra) C1 C2 L). nra.
Qed.

Lemma wave_zero i : X (0, 0, 0)%nat i = 0.
Proof.
  assert (H : forall n, (Z.of_nat n mod 2 = 1)%Z -> 2 * PI * (1 * IZR (wave_number (Z.of_nat n) 0 (Z.of_nat 0)) / INR n) = 0).
  { intros n On. unfold wave_number. cbn [Z.of_nat Z.add]. destruct (Z.ltb_spec (Z.of_nat n / 2) 0) as [L|L]; [|unfold Rdiv; ring]. exfalso. pose proof (Z.div_pos (Z.of_nat n) 2 ltac:(lia) ltac:(lia)). lia. }
  destruct O as (O1 & O2 & O3). unfold np_wave. destruct i as [|[|[|i]]]; apply H; assumption.
Qed.
Lemma krot_zero j : krot_re (X (0, 0, 0)%nat) j = 0 /\ krot_im (X (0, 0, 0)%nat) j = 0.
Proof. unfold krot_re, krot_im. rewrite wave_zero. replace (0 / 2) with 0 by field. rewrite tan_0. split; ring. Qed.

Lemma wave_op k i : In k grid -> X (op k) i = - X k i.
Proof.
  intros K. destruct k as [[x y] z]. apply in_sites in K. destruct K as (A & B & C). destruct O as (O1 & O2 & O3).
  assert (Q : forall n k, (Z.of_nat n mod 2 = 1)%Z -> is_nyquist (Z.of_nat n) k = false) by (intros n k On; unfold is_nyquist; rewrite On; apply Bool.andb_false_r).
  unfold np_wave, opposite. destruct i as [|[|[|i]]]; rewrite (wave1_opposite n1 n2 n3) by (try assumption; apply Q; assumption); rewrite opp_IZR; unfold Rdiv; ring.
Qed.
Lemma krot_op k j : In k grid -> krot_re (X (op k)) j = krot_re (X k) j /\ krot_im (X (op k)) j = - krot_im (X k) j.
Proof.
  intros K. unfold krot_re, krot_im, prefactor_re, prefactor_im. rewrite !wave_op by exact K.
  replace (- X k j / 2) with (- (X k j / 2)) by field. rewrite tan_neg, !sin_neg, !cos_neg. split; ring.
Qed.

Lemma gradient_coefficient v i j k : In k grid ->
  let re := fft_re n1 n2 n3 (fun q => v q i) k in let im := fft_im n1 n2 n3 (fun q => v q i) k in
  fft_re n1 n2 n3 (fun q => np_gradient g v q i j) k = re * krot_re (X k) j - im * krot_im (X k) j
  /\ fft_im n1 n2 n3 (fun q => np_gradient g v q i j) k = re * krot_im (X k) j + im * krot_re (X k) j.
Proof.
  intros K re im. unfold np_gradient. cbv zeta.
  apply (back_transform n1 n2 n3 N1 N2 N3
    (fun k => fft_re n1 n2 n3 (fun q => v q i) k * krot_re (X k) j - fft_im n1 n2 n3 (fun q => v q i) k * krot_im (X k) j)
    (fun k => fft_re n1 n2 n3 (fun q => v q i) k * krot_im (X k) j + fft_im n1 n2 n3 (fun q => v q i) k * krot_re (X k) j) k); [|exact K].
  intros q Q. destruct (krot_op q j Q) as [-> ->]. destruct (fft_conjugate n1 n2 n3 N1 N2 N3 (fun q => v q i) q Q) as [-> ->]. split; ring.
Qed.

Lemma mean_gradient v i j : np_mean g (np_gradient g v) i j = 0.
Proof.
  unfold np_mean. rewrite (suml_ext _ (fun p => np_wgt g * np_gradient g v p i j)) by (intros; ring). rewrite suml_scal. unfold np_sites, np_gradient. cbv zeta.
  rewrite (suml_ext _ (ifft n1 n2 n3
    (fun k => fft_re n1 n2 n3 (fun q => v q i) k * krot_re (X k) j - fft_im n1 n2 n3 (fun q => v q i) k * krot_im (X k) j)
    (fun k => fft_re n1 n2 n3 (fun q => v q i) k * krot_im (X k) j + fft_im n1 n2 n3 (fun q => v q i) k * krot_re (X k) j))) by reflexivity.
  rewrite sum_ifft by assumption. destruct (krot_zero j) as [-> ->]. ring.
Qed.

Lemma velocity_back v p i : resolved g -> In p grid -> np_velocity g true (np_gradient g v) p i = v p i - field_mean g (fun q => v q i).
Proof.
  intros R P. destruct p as [[a b] c]. unfold np_velocity. cbv zeta.
  assert (M : forall f, sum1 3 (fun jj => np_mean g (np_gradient g v) i jj * f jj) = 0) by (intros f; unfold sum1; cbn [sumn]; rewrite !mean_gradient; ring).
  rewrite M, Rplus_0_r.
  set (re := fft_re n1 n2 n3 (fun q => v q i)). set (im := fft_im n1 n2 n3 (fun q => v q i)).
  rewrite (ifft_ext n1 n2 n3 _ _ (fun k => if site_dec k (0, 0, 0)%nat then 0 else re k) (fun k => if site_dec k (0, 0, 0)%nat then 0 else im k)).
  - pose proof (vol_pos n1 n2 n3 N1 N2 N3) as VP. assert (Z : In (0, 0, 0)%nat grid) by (apply in_sites; lia).
    rewrite <- (transform_back n1 n2 n3 N1 N2 N3 (fun q => v q i) (a, b, c) P). fold re im. unfold ifft, field_mean. change (INR n1 * INR n2 * INR n3) with (volume n1 n2 n3).
    rewrite (suml_ext _ (fun k => (re k * cos (ph k (a, b, c)) - im k * sin (ph k (a, b, c))) - (re k * cos (ph k (a, b, c)) - im k * sin (ph k (a, b, c))) * (if site_dec k (0, 0, 0)%nat then 1 else 0)))
      by (intros k _; destruct (site_dec k (0, 0, 0)%nat); ring).
    rewrite suml_minus, suml_pick by (try apply NoDup_sites; assumption).
    assert (P0 : forall p, ph (0, 0, 0)%nat p = 0) by (intros [[x y] z]; unfold phase; rewrite !Nat.mul_0_l; cbn [INR]; unfold Rdiv; ring).
    rewrite P0, cos_0, sin_0. unfold re at 2. unfold fft_re. rewrite (suml_ext (fun q => v q i * cos (ph (0, 0, 0)%nat q)) (fun q => v q i)) by (intros; rewrite P0, cos_0; ring).
    unfold np_sites. field. lra.
  - intros k K. destruct (site_dec k (0, 0, 0)%nat) as [->|NZ].
    + destruct (Rle_dec _ _) as [H|H]; [|reflexivity]. destruct (krot_zero 1) as [E1 F1], (krot_zero 2) as [E2 F2], (krot_zero 3) as [E3 F3]. rewrite E1, E2, E3, F1, F2, F3. unfold sum1. cbn [sumn]. rewrite E1, E2, E3, F1, F2, F3. unfold Rdiv. ring.
    + pose proof (krot2_big k R K NZ) as B. fold (krot2 (X k)). destruct (Rle_dec _ _) as [H|H].
      * assert (KP : 0 < krot2 (X k)) by (assert (0 < 1 / 10 ^ 15) by (apply Rdiv_lt_0_compat; [lra|apply pow_lt; lra]); lra).
        unfold sum1. cbn [sumn]. destruct (gradient_coefficient v i 1 k K) as [-> ->], (gradient_coefficient v i 2 k K) as [-> ->], (gradient_coefficient v i 3 k K) as [-> ->]. fold re im.
        transitivity (re k * krot2 (X k) / krot2 (X k)); [|field; lra]. unfold krot2 at 4. field. lra.
      * exfalso. apply H. rewrite Rabs_right; [exact B|]. assert (0 < 1 / 10 ^ 15) by (apply Rdiv_lt_0_compat; [lra|apply pow_lt; lra]). lra.
  - intros k K. destruct (site_dec k (0, 0, 0)%nat) as [->|NZ].
    + destruct (Rle_dec _ _) as [H|H]; [|reflexivity]. destruct (krot_zero 1) as [E1 F1], (krot_zero 2) as [E2 F2], (krot_zero 3) as [E3 F3]. rewrite E1, E2, E3, F1, F2, F3. unfold sum1. cbn [sumn]. rewrite E1, E2, E3, F1, F2, F3. unfold Rdiv. ring.
    + pose proof (krot2_big k R K NZ) as B. fold (krot2 (X k)). destruct (Rle_dec _ _) as [H|H].
      * assert (KP : 0 < krot2 (X k)) by (assert (0 < 1 / 10 ^ 15) by (apply Rdiv_lt_0_compat; [lra|apply pow_lt; lra]); lra).
        unfold sum1. cbn [sumn]. destruct (gradient_coefficient v i 1 k K) as [-> ->], (gradient_coefficient v i 2 k K) as [-> ->], (gradient_coefficient v i 3 k K) as [-> ->]. fold re im.
        transitivity (im k * krot2 (X k) / krot2 (X k)); [|field; lra]. unfold krot2 at 4. field. lra.
      * exfalso. apply H. rewrite Rabs_right; [exact B|]. assert (0 < 1 / 10 ^ 15) by (apply Rdiv_lt_0_compat; [lra|apply pow_lt; lra]). lra.
Qed.
(* The exact scheme: the gradient of the trigonometric interpolant of the velocities. *)
Lemma spectral_coefficient v i j k : In k grid ->
  fft_re n1 n2 n3 (fun q => spectral_gradient g v q i j) k = - fft_im n1 n2 n3 (fun q => v q i) k * X k j
  /\ fft_im n1 n2 n3 (fun q => spectral_gradient g v q i j) k = fft_re n1 n2 n3 (fun q => v q i) k * X k j.
Proof.
  intros K. unfold spectral_gradient.
  apply (back_transform n1 n2 n3 N1 N2 N3 (fun k => - fft_im n1 n2 n3 (fun q => v q i) k * X k j) (fun k => fft_re n1 n2 n3 (fun q => v q i) k * X k j) k); [|exact K].
  intros q Q. rewrite wave_op by exact Q. destruct (fft_conjugate n1 n2 n3 N1 N2 N3 (fun q => v q i) q Q) as [-> ->]. split; ring.
Qed.
Lemma mean_spectral v i j : np_mean g (spectral_gradient g v) i j = 0.
Proof.
  unfold np_mean. rewrite (suml_ext _ (fun p => np_wgt g * spectral_gradient g v p i j)) by (intros; ring). rewrite suml_scal. unfold np_sites, spectral_gradient.
  rewrite (suml_ext _ (ifft n1 n2 n3 (fun k => - fft_im n1 n2 n3 (fun q => v q i) k * X k j) (fun k => fft_re n1 n2 n3 (fun q => v q i) k * X k j))) by reflexivity.
  rewrite sum_ifft by assumption. rewrite wave_zero. ring.
Qed.
Lemma wave_nonzero k : In k grid -> k <> (0, 0, 0)%nat -> 0 < X k 1%nat * X k 1%nat + X k 2%nat * X k 2%nat + X k 3%nat * X k 3%nat.
Proof.
  intros K NZ. destruct k as [[x y] z]. apply in_sites in K. destruct K as (A & B & C). destruct O as (O1 & O2 & O3).
  assert (Z0 : forall n k, (Z.of_nat n mod 2 = 1)%Z -> (k < n)%nat -> 2 * PI * (1 * IZR (wave_number (Z.of_nat n) 0 (Z.of_nat k)) / INR n) = 0 -> k = 0%nat).
  { intros n k On Kn E. assert (W : wave_number (Z.of_nat n) 0 (Z.of_nat k) = 0%Z).
    { apply eq_IZR. apply Rmult_eq_reg_r with (2 * PI / INR n); [|pose proof PI_RGT_0; assert (0 < INR n) by (apply lt_0_INR; lia); apply Rgt_not_eq, Rdiv_lt_0_compat; lra]. rewrite Rmult_0_l. rewrite <- E. unfold Rdiv. ring. }
    revert W. unfold wave_number. rewrite Z.add_0_r. destruct (Z.ltb_spec (Z.of_nat n / 2) (Z.of_nat k)); lia. }
  destruct (Rlt_dec 0 (X (x, y, z) 1%nat * X (x, y, z) 1%nat + X (x, y, z) 2%nat * X (x, y, z) 2%nat + X (x, y, z) 3%nat * X (x, y, z) 3%nat)) as [L|L]; [exact L|]. exfalso. apply NZ.
  pose proof (Rle_0_sqr (X (x, y, z) 1%nat)) as Q1. pose proof (Rle_0_sqr (X (x, y, z) 2%nat)) as Q2. pose proof (Rle_0_sqr (X (x, y, z) 3%nat)) as Q3. unfold Rsqr in *.
  assert (E1 : X (x, y, z) 1%nat = 0) by (apply Rsqr_0_uniq; unfold Rsqr; lra). assert (E2 : X (x, y, z) 2%nat = 0) by (apply Rsqr_0_uniq; unfold Rsqr; lra). assert (E3 : X (x, y, z) 3%nat = 0) by (apply Rsqr_0_uniq; unfold Rsqr; lra).
  unfold np_wave in E1, E2, E3. apply Z0 in E1, E2, E3; try assumption. subst. reflexivity.
Qed.
Lemma velocity_back_exact v p i : In p grid -> np_velocity g false (spectral_gradient g v) p i = v p i - field_mean g (fun q => v q i).
Proof.
  intros P. destruct p as [[a b] c]. unfold np_velocity. cbv zeta.
  assert (M : forall f, sum1 3 (fun jj => np_mean g (spectral_gradient g v) i jj * f jj) = 0) by (intros f; unfold sum1; cbn [sumn]; rewrite !mean_spectral; ring).
  rewrite M, Rplus_0_r.
  set (re := fft_re n1 n2 n3 (fun q => v q i)). set (im := fft_im n1 n2 n3 (fun q => v q i)).
  rewrite (ifft_ext n1 n2 n3 _ _ (fun k => if site_dec k (0, 0, 0)%nat then 0 else re k) (fun k => if site_dec k (0, 0, 0)%nat then 0 else im k)).
  - pose proof (vol_pos n1 n2 n3 N1 N2 N3) as VP. assert (Z : In (0, 0, 0)%nat grid) by (apply in_sites; lia).
    rewrite <- (transform_back n1 n2 n3 N1 N2 N3 (fun q => v q i) (a, b, c) P). fold re im. unfold ifft, field_mean. change (INR n1 * INR n2 * INR n3) with (volume n1 n2 n3).
    rewrite (suml_ext _ (fun k => (re k * cos (ph k (a, b, c)) - im k * sin (ph k (a, b, c))) - (re k * cos (ph k (a, b, c)) - im k * sin (ph k (a, b, c))) * (if site_dec k (0, 0, 0)%nat then 1 else 0)))
      by (intros k _; destruct (site_dec k (0, 0, 0)%nat); ring).
    rewrite suml_minus, suml_pick by (try apply NoDup_sites; assumption).
    assert (P0 : forall p, ph (0, 0, 0)%nat p = 0) by (intros [[x y] z]; unfold phase; rewrite !Nat.mul_0_l; cbn [INR]; unfold Rdiv; ring).
    rewrite P0, cos_0, sin_0. unfold re at 2. unfold fft_re. rewrite (suml_ext (fun q => v q i * cos (ph (0, 0, 0)%nat q)) (fun q => v q i)) by (intros; rewrite P0, cos_0; ring).
    unfold np_sites. field. lra.
  - intros k K. destruct (site_dec k (0, 0, 0)%nat) as [->|NZ].
    + destruct (Rlt_dec _ _) as [H|H]; [|reflexivity]. exfalso. rewrite !wave_zero in H. lra.
    + pose proof (wave_nonzero k K NZ) as B. destruct (Rlt_dec _ _) as [H|H]; [|contradiction].
      unfold sum1. cbn [sumn]. destruct (spectral_coefficient v i 1 k K) as [_ ->], (spectral_coefficient v i 2 k K) as [_ ->], (spectral_coefficient v i 3 k K) as [_ ->]. fold re im. field. lra.
  - intros k K. destruct (site_dec k (0, 0, 0)%nat) as [->|NZ].
    + destruct (Rlt_dec _ _) as [H|H]; [|reflexivity]. exfalso. rewrite !wave_zero in H. lra.
    + pose proof (wave_nonzero k K NZ) as B. destruct (Rlt_dec _ _) as [H|H]; [|contradiction].
      unfold sum1. cbn [sumn]. destruct (spectral_coefficient v i 1 k K) as [-> _], (spectral_coefficient v i 2 k K) as [-> _], (spectral_coefficient v i 3 k K) as [-> _]. fold re im. field. lra.
Qed.
End Back.

(* The velocities computed from the gradient of a velocity field are that field without its
   mean. *)
Theorem C135_recovered : forall g v p i, gridded g -> odd_grid g -> resolved g -> In p (np_sites g) ->
  np_velocity g true (np_gradient g v) p i = v p i - field_mean g (fun q => v q i).
Proof. intros. apply velocity_back; assumption. Qed.
Print Assumptions C135_recovered.

(* The exact scheme does the same with the gradient of the trigonometric interpolant, on odd
   grids of any size.  (The code gives it the rotated gradient instead when the sample is
   loaded through its surface; nothing is proved about that mixture.) *)
Theorem C135_recovered_exact : forall g v p i, gridded g -> odd_grid g -> In p (np_sites g) ->
  np_velocity g false (spectral_gradient g v) p i = v p i - field_mean g (fun q => v q i).
Proof. intros. apply velocity_back_exact; assumption. Qed.
Print Assumptions C135_recovered_exact.

(* ---------- a uniform gradient ---------- *)

Lemma np_wave_zero g i : np_wave g (0, 0, 0)%nat i = 0.
Proof.
  assert (H : forall n, 2 * PI * (1 * IZR (wave_number (Z.of_nat n) 0 (Z.of_nat 0)) / INR n) = 0).
  { intros n. unfold wave_number. cbn [Z.of_nat Z.add]. destruct (Z.ltb_spec (Z.of_nat n / 2) 0) as [L|L]; [|unfold Rdiv; ring]. exfalso. pose proof (Z.div_pos (Z.of_nat n) 2 ltac:(lia) ltac:(lia)). lia. }
  unfold np_wave. destruct i as [|[|[|i]]]; apply H.
Qed.
Lemma krot0 g j : krot_re (np_wave g (0, 0, 0)%nat) j = 0 /\ krot_im (np_wave g (0, 0, 0)%nat) j = 0.
Proof. unfold krot_re, krot_im. rewrite np_wave_zero. replace (0 / 2) with 0 by field. rewrite tan_0. split; ring. Qed.
Lemma constant_coefficients n1 n2 n3 c k : (1 <= n1)%nat -> (1 <= n2)%nat -> (1 <= n3)%nat -> In k (sites n1 n2 n3) -> k <> (0, 0, 0)%nat ->
  fft_re n1 n2 n3 (fun _ => c) k = 0 /\ fft_im n1 n2 n3 (fun _ => c) k = 0.
Proof.
  intros N1 N2 N3 K NZ. assert (Z : In (0, 0, 0)%nat (sites n1 n2 n3)) by (apply in_sites; lia).
  assert (P0 : forall p, phase n1 n2 n3 (0, 0, 0)%nat p = 0) by (intros [[x y] z]; unfold phase; rewrite !Nat.mul_0_l; cbn [INR]; unfold Rdiv; ring).
  unfold fft_re, fft_im. split.
  - rewrite suml_scal. rewrite (suml_ext _ (fun p => cos (phase n1 n2 n3 k p - phase n1 n2 n3 (0, 0, 0)%nat p + 0))) by (intros; rewrite P0; f_equal; ring).
    rewrite sum_minus, same_eq by assumption. destruct (site_dec _ _); [contradiction|ring].
  - rewrite (suml_ext _ (fun p => - c * (sin (phase n1 n2 n3 k p) * cos (phase n1 n2 n3 (0, 0, 0)%nat p)))) by (intros; rewrite P0, cos_0; ring).
    rewrite suml_scal, sc by assumption. ring.
Qed.

Lemma uniform_velocity g rot L x y z i : gridded g ->
  np_velocity g rot (fun _ => L) (x, y, z) i = np_wgt g * volume (gn1 g) (gn2 g) (gn3 g) * sum1 3 (fun j => L i j * ((match j with 1%nat => INR (x + 1) | 2%nat => INR (y + 1) | _ => INR (z + 1) end) - if rot then / 2 else 0)).
Proof.
  intros (N1 & N2 & N3). unfold np_velocity. cbv zeta.
  rewrite (ifft_ext (gn1 g) (gn2 g) (gn3 g) _ _ (fun _ => 0) (fun _ => 0)).
  - unfold ifft. rewrite (suml_ext _ (fun _ => 0)) by (intros; ring). rewrite suml_0. unfold np_mean, np_sites, sum1. cbn [sumn]. rewrite !suml_const, !sites_length. destruct rot; field; repeat split; apply not_0_INR; lia.
  - intros k K. destruct (site_dec k (0, 0, 0)%nat) as [->|NZ].
    + destruct rot.
      * destruct (Rle_dec _ _) as [H|H]; [|reflexivity]. exfalso. rewrite !(proj1 (krot0 g _)), !(proj2 (krot0 g _)) in H.
        replace (0 ^ 2 + 0 ^ 2 + 0 ^ 2 + 0 ^ 2 + 0 ^ 2 + 0 ^ 2) with 0 in H by ring. rewrite Rabs_R0 in H. assert (0 < 1 / 10 ^ 15) by (apply Rdiv_lt_0_compat; [lra|apply pow_lt; lra]). lra.
      * destruct (Rlt_dec _ _) as [H|H]; [exfalso; rewrite !np_wave_zero in H; lra|reflexivity].
    + assert (Q : forall c, fft_re (gn1 g) (gn2 g) (gn3 g) (fun _ => c) k = 0 /\ fft_im (gn1 g) (gn2 g) (gn3 g) (fun _ => c) k = 0) by (intros; apply constant_coefficients; assumption).
      destruct rot; [destruct (Rle_dec _ _)|destruct (Rlt_dec _ _)]; try reflexivity; unfold sum1; cbn [sumn]; destruct (Q (L i 1%nat)) as [A1 B1], (Q (L i 2%nat)) as [A2 B2], (Q (L i 3%nat)) as [A3 B3]; rewrite ?A1, ?A2, ?A3, ?B1, ?B2, ?B3; unfold Rdiv; ring.
  - intros k K. destruct (site_dec k (0, 0, 0)%nat) as [->|NZ].
    + destruct rot.
      * destruct (Rle_dec _ _) as [H|H]; [|reflexivity]. exfalso. rewrite !(proj1 (krot0 g _)), !(proj2 (krot0 g _)) in H.
        replace (0 ^ 2 + 0 ^ 2 + 0 ^ 2 + 0 ^ 2 + 0 ^ 2 + 0 ^ 2) with 0 in H by ring. rewrite Rabs_R0 in H. assert (0 < 1 / 10 ^ 15) by (apply Rdiv_lt_0_compat; [lra|apply pow_lt; lra]). lra.
      * destruct (Rlt_dec _ _) as [H|H]; [exfalso; rewrite !np_wave_zero in H; lra|reflexivity].
    + assert (Q : forall c, fft_re (gn1 g) (gn2 g) (gn3 g) (fun _ => c) k = 0 /\ fft_im (gn1 g) (gn2 g) (gn3 g) (fun _ => c) k = 0) by (intros; apply constant_coefficients; assumption).
      destruct rot; [destruct (Rle_dec _ _)|destruct (Rlt_dec _ _)]; try reflexivity; unfold sum1; cbn [sumn]; destruct (Q (L i 1%nat)) as [A1 B1], (Q (L i 2%nat)) as [A2 B2], (Q (L i 3%nat)) as [A3 B3]; rewrite ?A1, ?A2, ?A3, ?B1, ?B2, ?B3; unfold Rdiv; ring.
Qed.

Definition frameless (g : np_grid) : Prop := gd1 g = 0%nat /\ gd2 g = 0%nat /\ gd3 g = 0%nat.
Lemma frameless_wgt g : gridded g -> frameless g -> np_wgt g * volume (gn1 g) (gn2 g) (gn3 g) = INR (gn3 g) / INR (gn2 g).
Proof.
  intros (N1 & N2 & N3) (D1 & D2 & D3). unfold np_wgt, side1, side2, volume. rewrite D1, D2.
  assert (P1 : INR (gn1 g) <> 0) by (apply not_0_INR; lia). assert (P2 : INR (gn2 g) <> 0) by (apply not_0_INR; lia).
  replace (Z.of_nat (gn1 g) - 2 * Z.of_nat 0)%Z with (Z.of_nat (gn1 g)) by lia. replace (Z.of_nat (gn2 g) - 2 * Z.of_nat 0)%Z with (Z.of_nat (gn2 g)) by lia.
  rewrite !mult_IZR, <- !INR_IZR_INZ. field. split; assumption.
Qed.
Lemma place_plus g x y z : frameless g -> forall j, idx 3 j -> (match j with 1%nat => INR (x + 1) | 2%nat => INR (y + 1) | _ => INR (z + 1) end) = node_place g (x, y, z) j + / 2.
Proof.
  intros (D1 & D2 & D3) j J. assert (C : j = 1%nat \/ j = 2%nat \/ j = 3%nat) by (unfold idx in J; lia). unfold node_place, in_sample1, in_sample2, in_sample3. rewrite D1, D2, D3, !INR_IZR_INZ.
  destruct C as [-> | [-> | ->]]; rewrite Nat2Z.inj_add, minus_IZR; change (Z.of_nat 1) with 1%Z; change (Z.of_nat 0) with 0%Z; lra.
Qed.

(* Without a frame and with equal second and third sides a uniform gradient gives the
   velocities of that gradient: at the nodes in the rotated scheme, at the centres
   otherwise. *)
Theorem C135_uniform : forall g rot L p i, gridded g -> frameless g -> gn3 g = gn2 g ->
  np_velocity g rot (fun _ => L) p i = S3 (fun j => L i j * (node_place g p j + if rot then 0 else / 2)).
Proof.
  intros g rot L [[x y] z] i G F E. rewrite uniform_velocity, frameless_wgt by assumption. rewrite E. assert (P2 : INR (gn2 g) <> 0) by (destruct G as (_ & N2 & _); apply not_0_INR; lia).
  unfold sum1. cbn [sumn]. rewrite (place_plus g x y z F 1%nat), (place_plus g x y z F 2%nat), (place_plus g x y z F 3%nat) by (unfold idx; lia). unfold S3. destruct rot; field; exact P2.
Qed.
Print Assumptions C135_uniform.

(* With different second and third sides the mean is weighted with the wrong number of
   points. *)
Theorem C135_uniform_refuted : forall g, gridded g -> frameless g -> gn3 g <> gn2 g ->
  exists p i, In p (np_sites g) /\ np_velocity g true (fun _ => d) p i <> S3 (fun j => d i j * node_place g p j).
Proof.
  intros g G F E. pose proof G as (N1 & N2 & N3). exists (0, 0, 0)%nat, 1%nat. split; [apply in_sites; lia|].
  rewrite uniform_velocity, frameless_wgt by assumption. assert (P2 : 0 < INR (gn2 g)) by (apply lt_0_INR; lia).
  unfold sum1. cbn [sumn Nat.add INR]. destruct F as (D1 & D2 & D3). unfold S3, d, node_place, in_sample1, in_sample2, in_sample3. rewrite D1, D2, D3. cbn [Nat.eqb Z.of_nat Z.add Z.sub Z.opp].
  intros H. apply E. apply INR_eq. apply Rmult_eq_reg_r with (/ INR (gn2 g)); [|apply Rinv_neq_0_compat; lra]. rewrite (Rinv_r (INR (gn2 g))) by lra. unfold Rdiv in H. lra.
Qed.
Print Assumptions C135_uniform_refuted.

(* A grid of 9 by 7 by 7 points meets the hypotheses. *)
Example C135_met : let g := NpGrid 9 7 7 0 0 0 in gridded g /\ odd_grid g /\ resolved g /\ frameless g /\ gn3 g = gn2 g.
Proof.
  cbv zeta. split; [unfold gridded; cbn [gn1 gn2 gn3]; lia|]. split; [repeat split|]. split; [unfold resolved; cbn [gn1 gn2 gn3 INR]; lra|]. split; [repeat split|reflexivity].
Qed.
