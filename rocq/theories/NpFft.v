(* Products and shifts of transforms. *)
From Coq Require Import Reals List Arith ZArith Lia Lra.
From Verif Require Import BaseReal LinModel EvpModel EvpFlowModel EvpFftModel EvpSpec EvpBasis EvpFft NpModel NpSpec.
Import ListNotations.
Local Open Scope R_scope.

Section Shift.
Variables n1 n2 n3 : nat.
Hypotheses (N1 : (1 <= n1)%nat) (N2 : (1 <= n2)%nat) (N3 : (1 <= n3)%nat).
Notation V := (volume n1 n2 n3).
Notation ph := (phase n1 n2 n3).
Notation grid := (sites n1 n2 n3).
Notation minus := (minus_site n1 n2 n3).
Notation plus := (plus_site n1 n2 n3).

Lemma mod_shift n a : (1 <= n)%nat -> exists m, Z.of_nat (a mod n) = (Z.of_nat a - Z.of_nat n * m)%Z.
Proof. intros N. exists (Z.of_nat (a / n)). pose proof (Nat.div_mod a n ltac:(lia)) as D. rewrite <- Nat2Z.inj_mul. lia. Qed.
Lemma cyclic_shift n a b : (1 <= n)%nat -> (b < n)%nat -> exists m, Z.of_nat (cyclic n a b) = (Z.of_nat a - Z.of_nat b + Z.of_nat n * m)%Z.
Proof. intros N B. unfold cyclic. destruct (mod_shift n (a + (n - b)) N) as (m & ->). exists (1 - m)%Z. lia. Qed.

Lemma turn n m : (1 <= n)%nat -> ((Z.of_nat n * m) mod Z.of_nat n = 0)%Z.
Proof. intros N. rewrite Z.mul_comm. apply Z.mod_mul. lia. Qed.

Lemma phase_minus k p q : In q grid -> exists m, ph k (minus p q) = ph k p - ph k q + 2 * IZR m * PI.
Proof.
  intros Q. destruct p as [[a b] c], q as [[x y] z]. apply in_sites in Q. destruct Q as (X & Y & Z).
  rewrite !(phase_swap n1 n2 n3 k), !phase_angle, angle_minus. unfold minus_site. cbn [zx zy zz].
  destruct (cyclic_shift n1 a x N1 X) as (m1 & ->), (cyclic_shift n2 b y N2 Y) as (m2 & ->), (cyclic_shift n3 c z N3 Z) as (m3 & ->).
  rewrite <- angle_plus. destruct (angle_whole n1 n2 n3 (Z.of_nat n1 * m1) (Z.of_nat n2 * m2) (Z.of_nat n3 * m3) k N1 N2 N3) as (m & E); [repeat split; apply turn; assumption|].
  exists m. rewrite E. reflexivity.
Qed.
Lemma phase_plus k p q : exists m, ph k (plus p q) = ph k p + ph k q + 2 * IZR m * PI.
Proof.
  destruct p as [[a b] c], q as [[x y] z]. rewrite !(phase_swap n1 n2 n3 k), !phase_angle, angle_plus. unfold plus_site. cbn [zx zy zz].
  destruct (mod_shift n1 (a + x) N1) as (m1 & ->), (mod_shift n2 (b + y) N2) as (m2 & ->), (mod_shift n3 (c + z) N3) as (m3 & ->).
  replace (Z.of_nat (a + x) - Z.of_nat n1 * m1)%Z with (Z.of_nat a + Z.of_nat x + Z.of_nat n1 * - m1)%Z by lia.
  replace (Z.of_nat (b + y) - Z.of_nat n2 * m2)%Z with (Z.of_nat b + Z.of_nat y + Z.of_nat n2 * - m2)%Z by lia.
  replace (Z.of_nat (c + z) - Z.of_nat n3 * m3)%Z with (Z.of_nat c + Z.of_nat z + Z.of_nat n3 * - m3)%Z by lia.
  rewrite <- angle_plus. destruct (angle_whole n1 n2 n3 (Z.of_nat n1 * - m1) (Z.of_nat n2 * - m2) (Z.of_nat n3 * - m3) k N1 N2 N3) as (m & E); [repeat split; apply turn; assumption|].
  exists m. rewrite E. reflexivity.
Qed.
Lemma minus_in p q : In (minus p q) grid.
Proof. destruct p as [[a b] c], q as [[x y] z]. apply in_sites. unfold cyclic. repeat split; apply Nat.mod_upper_bound; lia. Qed.
Lemma plus_in p q : In (plus p q) grid.
Proof. destruct p as [[a b] c], q as [[x y] z]. apply in_sites. repeat split; apply Nat.mod_upper_bound; lia. Qed.

(* The product of two transforms is the transform of the convolution. *)
Lemma convolution w f p : convolve n1 n2 n3 w f p = suml (fun q => f q * w (minus p q)) grid.
Proof.
  unfold convolve. set (wr := fft_re n1 n2 n3 w). set (wi := fft_im n1 n2 n3 w). unfold ifft, fft_re, fft_im.
  rewrite (suml_ext _ (fun k => suml (fun q => f q * (wr k * cos (ph k p - ph k q) - wi k * sin (ph k p - ph k q))) grid)).
  - rewrite suml_exchange, <- suml_scal. apply suml_ext. intros q Q. rewrite suml_scal.
    rewrite <- (transform_back n1 n2 n3 N1 N2 N3 w (minus p q) (minus_in p q)). fold wr wi. unfold ifft.
    replace (/ (INR n1 * INR n2 * INR n3) * (f q * suml (fun k => wr k * cos (ph k p - ph k q) - wi k * sin (ph k p - ph k q)) grid))
      with (f q * (/ (INR n1 * INR n2 * INR n3) * suml (fun k => wr k * cos (ph k p - ph k q) - wi k * sin (ph k p - ph k q)) grid)) by ring.
    do 2 f_equal. apply suml_ext. intros k K. destruct (phase_minus k p q Q) as (m & ->). rewrite cos_2Z, sin_2Z. reflexivity.
  - intros k K. fold wr wi.
    set (C := suml (fun q => f q * cos (ph k q)) grid). set (D := suml (fun q => - (f q * sin (ph k q))) grid).
    replace ((C * wr k - D * wi k) * cos (ph k p) - (D * wr k + C * wi k) * sin (ph k p))
      with ((wr k * cos (ph k p) - wi k * sin (ph k p)) * C - (wi k * cos (ph k p) + wr k * sin (ph k p)) * D) by ring.
    unfold C, D. rewrite <- !suml_scal, <- suml_minus. apply suml_ext. intros q Q. rewrite cos_minus, sin_minus. ring.
Qed.

(* Turning every coefficient by the phase of a site shifts the field by that site. *)
Lemma shifted f s p :
  ifft n1 n2 n3
    (fun k => fft_re n1 n2 n3 f k * cos (ph k s) - fft_im n1 n2 n3 f k * sin (ph k s))
    (fun k => fft_re n1 n2 n3 f k * sin (ph k s) + fft_im n1 n2 n3 f k * cos (ph k s)) p = f (plus p s).
Proof.
  rewrite <- (transform_back n1 n2 n3 N1 N2 N3 f (plus p s) (plus_in p s)). unfold ifft at 1 2. f_equal. apply suml_ext. intros k K.
  destruct (phase_plus k p s) as (m & ->). rewrite cos_2Z, sin_2Z, cos_plus, sin_plus. ring.
Qed.

Lemma ifft_ext re im re' im' p : (forall k, In k grid -> re k = re' k) -> (forall k, In k grid -> im k = im' k) -> ifft n1 n2 n3 re im p = ifft n1 n2 n3 re' im' p.
Proof. intros R I. unfold ifft. f_equal. apply suml_ext. intros k K. rewrite R, I by assumption. reflexivity. Qed.
Lemma ifft_plus re im re' im' p : ifft n1 n2 n3 (fun k => re k + re' k) (fun k => im k + im' k) p = ifft n1 n2 n3 re im p + ifft n1 n2 n3 re' im' p.
Proof. unfold ifft. rewrite <- Rmult_plus_distr_l, <- suml_plus. f_equal. apply suml_ext. intros; ring. Qed.
Lemma ifft_scal c re im p : ifft n1 n2 n3 (fun k => c * re k) (fun k => c * im k) p = c * ifft n1 n2 n3 re im p.
Proof. unfold ifft. rewrite (suml_ext _ (fun k => c * (re k * cos (ph k p) - im k * sin (ph k p)))) by (intros; ring). rewrite suml_scal. ring. Qed.

(* A combination of shifts. *)
Lemma shifts f (l : list (R * site)) p :
  ifft n1 n2 n3
    (fun k => suml (fun cs => fst cs * (fft_re n1 n2 n3 f k * cos (ph k (snd cs)) - fft_im n1 n2 n3 f k * sin (ph k (snd cs)))) l)
    (fun k => suml (fun cs => fst cs * (fft_re n1 n2 n3 f k * sin (ph k (snd cs)) + fft_im n1 n2 n3 f k * cos (ph k (snd cs)))) l) p
  = suml (fun cs => fst cs * f (plus p (snd cs))) l.
Proof.
  induction l as [|[c s] l IH].
  - unfold ifft. rewrite (suml_ext _ (fun _ => 0)) by (intros; cbn [suml fold_right map]; unfold suml; cbn; ring). rewrite suml_0. unfold suml. cbn. ring.
  - rewrite suml_cons. cbn [fst snd]. rewrite <- IH, <- (shifted f s p), <- ifft_scal, <- ifft_plus. apply ifft_ext; intros k K; rewrite suml_cons; cbn [fst snd]; reflexivity.
Qed.
End Shift.
