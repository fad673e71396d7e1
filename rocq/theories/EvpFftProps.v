(* The correction of the whole field: C117. *)
From Coq Require Import Reals List Arith Lia Lra ZArith FunctionalExtensionality.
From Verif Require Import BaseReal LinModel EvpModel EvpFlowModel EvpFftModel EvpSpec EvpBasis EvpElast EvpSlip EvpGreenProps EvpStepModel EvpMeanProps EvpFft.
Import ListNotations.
Local Open Scope R_scope.

Section Field.
Variables (n1 n2 n3 : nat) (c0 s0 : T4) (delt : T1).
Hypotheses (N1 : (1 <= n1)%nat) (N2 : (1 <= n2)%nat) (N3 : (1 <= n3)%nat).
Hypothesis DP : forall i, idx 3 i -> 0 < delt i.
Notation grid := (sites n1 n2 n3).
Notation op := (opposite n1 n2 n3).
Notation freq := (site_frequency delt n1 n2 n3).
Notation nyq := (site_nyquist n1 n2 n3).

(* ---------- opposite frequencies ---------- *)

Lemma nyq1_opposite n k : (1 <= n)%nat -> (k < n)%nat -> is_nyquist (Z.of_nat n) (Z.of_nat ((n - k) mod n) + 1) = is_nyquist (Z.of_nat n) (Z.of_nat k + 1).
Proof.
  intros N K. unfold is_nyquist. destruct (Nat.eq_dec k 0) as [->|NZ]; [rewrite Nat.sub_0_r, Nat.mod_same by lia; reflexivity|].
  rewrite Nat.mod_small by lia. pose proof (Z.div_mod (Z.of_nat n) 2 ltac:(lia)) as DM.
  destruct (Z.eqb_spec (Z.of_nat n mod 2) 0) as [E|E]; [|rewrite !Bool.andb_false_r; reflexivity]. rewrite !Bool.andb_true_r.
  rewrite E in DM. destruct (Z.eqb_spec (Z.of_nat (n - k) + 1) (Z.of_nat n / 2 + 1)), (Z.eqb_spec (Z.of_nat k + 1) (Z.of_nat n / 2 + 1)); try reflexivity; lia.
Qed.
Lemma wave1_opposite n k : (1 <= n)%nat -> (k < n)%nat -> is_nyquist (Z.of_nat n) (Z.of_nat k + 1) = false ->
  wave_number (Z.of_nat n) 0 (Z.of_nat ((n - k) mod n)) = (- wave_number (Z.of_nat n) 0 (Z.of_nat k))%Z.
Proof.
  intros N K Q. unfold wave_number, is_nyquist in *. rewrite !Z.add_0_r. pose proof (Z.div_mod (Z.of_nat n) 2 ltac:(lia)) as DM. pose proof (Z.mod_pos_bound (Z.of_nat n) 2 ltac:(lia)) as MB.
  destruct (Nat.eq_dec k 0) as [->|NZ].
  - rewrite Nat.sub_0_r, Nat.mod_same by lia. cbn [Z.of_nat]. destruct (Z.ltb_spec (Z.of_nat n / 2) 0); lia.
  - rewrite Nat.mod_small by lia. apply Bool.andb_false_iff in Q. rewrite !Z.eqb_neq in Q.
    destruct (Z.ltb_spec (Z.of_nat n / 2) (Z.of_nat (n - k))), (Z.ltb_spec (Z.of_nat n / 2) (Z.of_nat k)); lia.
Qed.

Lemma in_parts k : In k grid -> let '(x, y, z) := k in (x < n1 /\ y < n2 /\ z < n3)%nat.
Proof. destruct k as [[x y] z]. apply in_sites. Qed.

Lemma nyq_opposite k : In k grid -> nyq (op k) = nyq k.
Proof. intros K. apply in_parts in K. destruct k as [[x y] z], K as (X & Y & Z). unfold site_nyquist, opposite, nyquist. rewrite !nyq1_opposite by assumption. reflexivity. Qed.

Lemma nyq_parts x y z : nyq (x, y, z) = false -> is_nyquist (Z.of_nat n1) (Z.of_nat x + 1) = false /\ is_nyquist (Z.of_nat n2) (Z.of_nat y + 1) = false /\ is_nyquist (Z.of_nat n3) (Z.of_nat z + 1) = false.
Proof.
  unfold site_nyquist, nyquist. intros H. apply Bool.orb_false_iff in H. destruct H as [H H3]. apply Bool.orb_false_iff in H. destruct H as [H1 H2]. split; [exact H1|]. split; [exact H2|].
  apply Bool.andb_false_iff in H3. destruct H3 as [H3|H3]; [|exact H3]. apply Z.ltb_ge in H3. replace (Z.of_nat n3) with 1%Z by lia. unfold is_nyquist. cbn [Z.modulo Z.div_eucl]. apply Bool.andb_false_r.
Qed.

Lemma freq_opposite k : In k grid -> nyq k = false -> freq (op k) = fun i => - freq k i.
Proof.
  intros K Q. apply in_parts in K. destruct k as [[x y] z], K as (X & Y & Z). apply nyq_parts in Q. destruct Q as (Q1 & Q2 & Q3).
  apply functional_extensionality. intros i. unfold site_frequency, opposite, frequency.
  destruct i as [|[|[|[|i]]]]; [ring| | | |ring]; rewrite wave1_opposite by assumption; rewrite opp_IZR; unfold Rdiv; ring.
Qed.

Lemma zero_site k : site_zero k = true <-> k = (0, 0, 0)%nat.
Proof.
  destruct k as [[x y] z]. unfold site_zero. rewrite !Bool.andb_true_iff, !Nat.eqb_eq. split; [intros ((? & ?) & ?)|intros E; injection E as -> -> ->; lia].
  f_equal; [f_equal|]; lia.
Qed.
Lemma zero_opposite k : In k grid -> site_zero (op k) = site_zero k.
Proof.
  intros K. apply in_parts in K. destruct k as [[x y] z], K as (X & Y & Z).
  assert (H : forall n a, (1 <= n)%nat -> (a < n)%nat -> Nat.eqb ((n - a) mod n + 1) 1 = Nat.eqb (a + 1) 1).
  { intros n a N A. destruct (Nat.eq_dec a 0) as [->|NZ]; [rewrite Nat.sub_0_r, Nat.mod_same by lia; reflexivity|]. rewrite Nat.mod_small by lia. destruct (Nat.eqb_spec (n - a + 1) 1), (Nat.eqb_spec (a + 1) 1); try reflexivity; lia. }
  unfold site_zero, opposite. rewrite !H by assumption. reflexivity.
Qed.

Lemma green_even b xk : green c0 s0 b (fun i => - xk i) = green c0 s0 b xk.
Proof.
  assert (NN : norm3 (fun i => - xk i) = norm3 xk) by (unfold norm3; f_equal; ring).
  assert (NX : normalised (fun i => - xk i) = fun i => - normalised xk i).
  { apply functional_extensionality. intros i. unfold normalised. rewrite NN. destruct (Req_EM_T _ _); [reflexivity|]. unfold Rdiv. ring. }
  unfold green. rewrite NX. destruct b; [reflexivity|].
  assert (A : acoustic c0 (fun i => - normalised xk i) = acoustic c0 (normalised xk)).
  { apply functional_extensionality. intros i. apply functional_extensionality. intros k. rewrite !acoustic_S. apply S3_ext. intros; apply S3_ext; intros; ring. }
  rewrite A. do 4 (apply functional_extensionality; intros ?). ring.
Qed.

Lemma itg_scale b zr xk c t i j : inverse_the_greens c0 s0 b zr xk (fun k l => c * t k l) i j = c * inverse_the_greens c0 s0 b zr xk t i j.
Proof. unfold inverse_the_greens. destruct zr; [ring|]. rewrite !sum1_3. unfold S3. rewrite !sum1_3. unfold S3. ring. Qed.

Definition at_k (f : site -> T2) (i j : nat) (k : site) : R := inverse_the_greens c0 s0 (nyq k) (site_zero k) (freq k) (f k) i j.
Notation re sg := (fun k (a b : nat) => fft_re n1 n2 n3 (fun q : site => (sg : site -> T2) q a b) k).
Notation im sg := (fun k (a b : nat) => fft_im n1 n2 n3 (fun q : site => (sg : site -> T2) q a b) k).
Notation w sg := (field_correction c0 s0 delt n1 n2 n3 sg).

Lemma correction_ifft sg i j : (fun p => w sg p i j) = ifft n1 n2 n3 (at_k (re sg) i j) (at_k (im sg) i j).
Proof. reflexivity. Qed.

Lemma itg_opposite k t i j : In k grid -> inverse_the_greens c0 s0 (nyq (op k)) (site_zero (op k)) (freq (op k)) t i j = inverse_the_greens c0 s0 (nyq k) (site_zero k) (freq k) t i j.
Proof.
  intros K. rewrite nyq_opposite, zero_opposite by exact K. unfold inverse_the_greens. destruct (site_zero k); [reflexivity|].
  assert (G : green c0 s0 (nyq k) (freq (op k)) = green c0 s0 (nyq k) (freq k)); [|rewrite G; reflexivity].
  destruct (nyq k) eqn:Q; [reflexivity|]. rewrite freq_opposite by assumption. apply green_even.
Qed.

Lemma at_k_conjugate sg i j : conjugate n1 n2 n3 (at_k (re sg) i j) (at_k (im sg) i j).
Proof.
  intros k K. unfold at_k. rewrite !itg_opposite by exact K. split.
  - f_equal. apply functional_extensionality. intros a. apply functional_extensionality. intros b. exact (proj1 (fft_conjugate n1 n2 n3 N1 N2 N3 (fun q => sg q a b) k K)).
  - replace (- inverse_the_greens c0 s0 (nyq k) (site_zero k) (freq k) (fun a b => fft_im n1 n2 n3 (fun q => sg q a b) k) i j)
      with (-1 * inverse_the_greens c0 s0 (nyq k) (site_zero k) (freq k) (fun a b => fft_im n1 n2 n3 (fun q => sg q a b) k) i j) by ring.
    rewrite <- itg_scale. f_equal. apply functional_extensionality. intros a. apply functional_extensionality. intros b.
    rewrite (proj2 (fft_conjugate n1 n2 n3 N1 N2 N3 (fun q => sg q a b) k K)). ring.
Qed.

(* The coefficients of the correction. *)
Lemma spectrum sg k i j : In k grid -> re (w sg) k i j = at_k (re sg) i j k /\ im (w sg) k i j = at_k (im sg) i j k.
Proof. intros K. apply (back_transform n1 n2 n3 N1 N2 N3 (at_k (re sg) i j) (at_k (im sg) i j) k (at_k_conjugate sg i j) K). Qed.

Lemma freq_nonzero k : In k grid -> k <> (0, 0, 0)%nat -> exists i, idx 3 i /\ freq k i <> 0.
Proof.
  intros K NZ. apply in_parts in K. destruct k as [[x y] z], K as (X & Y & Z).
  assert (H : forall n a i, (1 <= n)%nat -> (a < n)%nat -> idx 3 i -> a <> 0%nat -> frequency (delt i) (Z.of_nat n) 0 (Z.of_nat a) <> 0).
  { intros n a i N A I NA. unfold frequency. destruct (C111_frequencies (Z.of_nat n) 0 (Z.of_nat a) ltac:(lia) ltac:(lia)) as (_ & _ & Q & _). pose proof (DP i I).
    assert (0 < IZR (Z.of_nat n)) by (apply IZR_lt; lia).
    apply Rmult_integral_contrapositive. split; [apply IZR_neq; rewrite Q; lia|]. apply Rinv_neq_0_compat. nra. }
  destruct (Nat.eq_dec x 0) as [->|NX]; [destruct (Nat.eq_dec y 0) as [->|NY]; [destruct (Nat.eq_dec z 0) as [->|NZ']; [congruence|]|]|].
  - exists 3%nat. split; [unfold idx; lia|]. apply H; try assumption. unfold idx; lia.
  - exists 2%nat. split; [unfold idx; lia|]. apply H; try assumption. unfold idx; lia.
  - exists 1%nat. split; [unfold idx; lia|]. apply H; try assumption. unfold idx; lia.
Qed.

Lemma fft_re_ext f g k : (forall p, In p grid -> f p = g p) -> fft_re n1 n2 n3 f k = fft_re n1 n2 n3 g k.
Proof. intros H. apply suml_ext. intros p P. rewrite (H p P). reflexivity. Qed.
Lemma fft_im_ext f g k : (forall p, In p grid -> f p = g p) -> fft_im n1 n2 n3 f k = fft_im n1 n2 n3 g k.
Proof. intros H. apply suml_ext. intros p P. rewrite (H p P). reflexivity. Qed.
Lemma fft_re_plus f g k : fft_re n1 n2 n3 (fun p => f p + g p) k = fft_re n1 n2 n3 f k + fft_re n1 n2 n3 g k.
Proof. unfold fft_re. rewrite <- suml_plus. apply suml_ext. intros; ring. Qed.
Lemma fft_im_plus f g k : fft_im n1 n2 n3 (fun p => f p + g p) k = fft_im n1 n2 n3 f k + fft_im n1 n2 n3 g k.
Proof. unfold fft_im. rewrite <- suml_plus. apply suml_ext. intros; ring. Qed.
Lemma fft_re_scal c f k : fft_re n1 n2 n3 (fun p => c * f p) k = c * fft_re n1 n2 n3 f k.
Proof. unfold fft_re. rewrite <- suml_scal. apply suml_ext. intros; ring. Qed.
Lemma fft_im_scal c f k : fft_im n1 n2 n3 (fun p => c * f p) k = c * fft_im n1 n2 n3 f k.
Proof. unfold fft_im. rewrite <- suml_scal. apply suml_ext. intros; ring. Qed.

Lemma act_re (f : site -> T2) k i j : fft_re n1 n2 n3 (fun q => act c0 (f q) i j) k = act c0 (re f k) i j.
Proof. unfold act, S3. repeat rewrite fft_re_plus. repeat rewrite fft_re_scal. reflexivity. Qed.
Lemma act_im (f : site -> T2) k i j : fft_im n1 n2 n3 (fun q => act c0 (f q) i j) k = act c0 (im f k) i j.
Proof. unfold act, S3. repeat rewrite fft_im_plus. repeat rewrite fft_im_scal. reflexivity. Qed.
End Field.

(* C117: the transforms undo each other. *)
Theorem C117_transform n1 n2 n3 f p : (1 <= n1)%nat -> (1 <= n2)%nat -> (1 <= n3)%nat -> In p (sites n1 n2 n3) ->
  ifft n1 n2 n3 (fft_re n1 n2 n3 f) (fft_im n1 n2 n3 f) p = f p.
Proof. intros. apply transform_back; assumption. Qed.
Print Assumptions C117_transform.

(* The correction of the whole field has no mean, *)
Theorem C117_mean c0 s0 delt n1 n2 n3 sg i j : (1 <= n1)%nat -> (1 <= n2)%nat -> (1 <= n3)%nat ->
  suml (fun p => field_correction c0 s0 delt n1 n2 n3 sg p i j) (sites n1 n2 n3) = 0.
Proof. intros N1 N2 N3. rewrite (correction_ifft n1 n2 n3 c0 s0 delt), sum_ifft by assumption. reflexivity. Qed.
Print Assumptions C117_mean.

(* and stands in the list of all points where the point does, *)
Theorem C117_layout c0 s0 delt n1 n2 n3 (sg : list T2) x y z : (x < n1)%nat -> (y < n2)%nat -> (z < n3)%nat ->
  nth_error (spectral_work c0 s0 delt n1 n2 n3 sg) (x + n1 * y + n1 * n2 * z) =
  Some (field_correction c0 s0 delt n1 n2 n3 (fun p => let '(a, b, c) := p in nth (a + n1 * b + n1 * n2 * c) sg (fun _ _ => 0)) (x, y, z)).
Proof.
  intros X Y Z. unfold spectral_work. replace (x + n1 * y + n1 * n2 * z)%nat with (place n1 n2 (x, y, z)) by (unfold place; ring).
  rewrite nth_error_map, nth_sites by (apply in_sites; lia). cbn [option_map]. f_equal. f_equal.
  apply functional_extensionality. intros [[a b] c]. f_equal. unfold place. ring.
Qed.
Print Assumptions C117_layout.

(* so that what was shown of the mean strain holds with it. *)
Lemma spectral_fluctuation c0 s0 delt n1 n2 n3 s : (1 <= n1)%nat -> (1 <= n2)%nat -> (1 <= n3)%nat ->
  s_work s = spectral_work c0 s0 delt n1 n2 n3 -> fluctuation s (n1 * n2 * n3).
Proof.
  intros N1 N2 N3 E sg L. rewrite E. unfold spectral_work. rewrite map_length. split.
  - apply INR_eq. rewrite sites_length, !mult_INR. reflexivity.
  - intros i j. rewrite suml_map. apply C117_mean; assumption.
Qed.
Theorem C117_strain itmax s c0 s0 delt n1 n2 n3 loads v i j : (1 <= n1)%nat -> (1 <= n2)%nat -> (1 <= n3)%nat ->
  s_work s = spectral_work c0 s0 delt n1 n2 n3 -> sized s (n1 * n2 * n3) -> grid_of (n1 * n2 * n3) v -> strain_control s ->
  mean (r_disgrad (solve itmax s loads v)) i j = mean (r_disgrad v) i j + suml (fun l : T2 * R => fst l i j * snd l) loads.
Proof. intros N1 N2 N3 E S G C. apply (C113_imposed itmax s (n1 * n2 * n3)); try assumption; [apply (spectral_fluctuation c0 s0 delt); assumption|nia]. Qed.
Print Assumptions C117_strain.

(* ---------- equilibrium ---------- *)

(* Every coefficient of the stress is perpendicular to its wave vector: the divergence
   of the stress field vanishes. *)
Definition balanced (delt : T1) (n1 n2 n3 : nat) (sg : site -> T2) (k : site) : Prop :=
  forall i, idx 3 i ->
    S3 (fun j => fft_re n1 n2 n3 (fun q => sg q i j) k * site_frequency delt n1 n2 n3 k j) = 0 /\
    S3 (fun j => fft_im n1 n2 n3 (fun q => sg q i j) k * site_frequency delt n1 n2 n3 k j) = 0.
(* No stress varies with this wave. *)
Definition absent (n1 n2 n3 : nat) (sg : site -> T2) (k : site) : Prop :=
  forall i j, idx 3 i -> idx 3 j -> fft_re n1 n2 n3 (fun q => sg q i j) k = 0 /\ fft_im n1 n2 n3 (fun q => sg q i j) k = 0.

(* With the correction the stress of the reference medium is in equilibrium at all
   frequencies that have a wave vector. *)
Theorem C117_equilibrium c0 s0 delt n1 n2 n3 sg k : (1 <= n1)%nat -> (1 <= n2)%nat -> (1 <= n3)%nat -> (forall i, idx 3 i -> 0 < delt i) -> elastic c0 ->
  In k (sites n1 n2 n3) -> k <> (0, 0, 0)%nat -> site_nyquist n1 n2 n3 k = false ->
  balanced delt n1 n2 n3 (fun p i j => sg p i j + act c0 (field_correction c0 s0 delt n1 n2 n3 sg p) i j) k.
Proof.
  intros N1 N2 N3 DP EL K NZ Q i I.
  assert (Z : site_zero k = false) by (destruct (site_zero k) eqn:E; [apply (zero_site n1 n2 n3 N1 N2 N3) in E; contradiction|reflexivity]).
  pose proof (freq_nonzero n1 n2 n3 delt N1 N2 N3 DP k K NZ) as X.
  destruct (C111_correction c0 s0 _ (fun a b => fft_re n1 n2 n3 (fun q => sg q a b) k) EL X) as (_ & R & _).
  destruct (C111_correction c0 s0 _ (fun a b => fft_im n1 n2 n3 (fun q => sg q a b) k) EL X) as (_ & M & _).
  specialize (R i I). specialize (M i I). split; [rewrite <- R|rewrite <- M]; apply S3_ext; intros j J; f_equal.
  - rewrite fft_re_plus, act_re. f_equal. apply act_ext. intros a b A B.
    destruct (spectrum n1 n2 n3 c0 s0 delt N1 N2 N3 sg k a b K) as [-> _]. unfold at_k. rewrite Q, Z. reflexivity.
  - rewrite fft_im_plus, act_im. f_equal. apply act_ext. intros a b A B.
    destruct (spectrum n1 n2 n3 c0 s0 delt N1 N2 N3 sg k a b K) as [_ ->]. unfold at_k. rewrite Q, Z. reflexivity.
Qed.
Print Assumptions C117_equilibrium.

Lemma nyquist_kernel c0 s0 xk t : elastic s0 -> symmetric t ->
  (forall i j, idx 3 i -> idx 3 j -> inverse_the_greens c0 s0 true false xk t i j = 0) <-> (forall i j, idx 3 i -> idx 3 j -> t i j = 0).
Proof.
  intros (_ & _ & P) S.
  assert (E : forall i j, inverse_the_greens c0 s0 true false xk t i j = - act s0 t i j).
  { intros i j. unfold inverse_the_greens, green, act. rewrite sum1_3. unfold S3. rewrite !sum1_3. unfold S3. ring. }
  split; intros H i j I J.
  - destruct (Req_dec (t i j) 0) as [Z|Z]; [exact Z|]. exfalso.
    assert (0 < ddot t (act s0 t)) as D by (apply P; [exact S|exists i, j; split; [exact I|split; [exact J|exact Z]]]).
    rewrite (ddot_ext t t _ (fun _ _ => 0)) in D; [unfold ddot, S3 in D; lra|reflexivity|]. intros a b A B. specialize (H a b A B). rewrite E in H. lra.
  - rewrite E. rewrite (act_ext s0 t (fun _ _ => 0) i j H). unfold act, S3. ring.
Qed.

(* The field is left as it is exactly where the stress is in equilibrium. *)
Theorem C117_fixed_point c0 s0 delt n1 n2 n3 sg : (1 <= n1)%nat -> (1 <= n2)%nat -> (1 <= n3)%nat -> (forall i, idx 3 i -> 0 < delt i) -> elastic c0 -> elastic s0 ->
  (forall p, In p (sites n1 n2 n3) -> symmetric (sg p)) ->
  (forall p i j, In p (sites n1 n2 n3) -> idx 3 i -> idx 3 j -> field_correction c0 s0 delt n1 n2 n3 sg p i j = 0) <->
  (forall k, In k (sites n1 n2 n3) -> k <> (0, 0, 0)%nat -> if site_nyquist n1 n2 n3 k then absent n1 n2 n3 sg k else balanced delt n1 n2 n3 sg k).
Proof.
  intros N1 N2 N3 DP EC ES SY.
  assert (SR : forall k, symmetric (fun a b => fft_re n1 n2 n3 (fun q => sg q a b) k)) by (intros k i j I J; apply fft_re_ext; intros p P; apply SY; assumption).
  assert (SI : forall k, symmetric (fun a b => fft_im n1 n2 n3 (fun q => sg q a b) k)) by (intros k i j I J; apply fft_im_ext; intros p P; apply SY; assumption).
  assert (ZF : forall k, k <> (0, 0, 0)%nat -> site_zero k = false) by (intros k NZ; destruct (site_zero k) eqn:E; [apply (zero_site n1 n2 n3 N1 N2 N3) in E; contradiction|reflexivity]).
  split.
  - intros H k K NZ.
    assert (HR : forall i j, idx 3 i -> idx 3 j -> at_k n1 n2 n3 c0 s0 delt (fun k a b => fft_re n1 n2 n3 (fun q => sg q a b) k) i j k = 0).
    { intros i j I J. destruct (spectrum n1 n2 n3 c0 s0 delt N1 N2 N3 sg k i j K) as [<- _]. rewrite (fft_re_ext _ _ _ _ (fun _ => 0)) by (intros; apply H; assumption). unfold fft_re. rewrite (suml_ext _ (fun _ => 0)); [apply suml_0|intros; ring]. }
    assert (HI : forall i j, idx 3 i -> idx 3 j -> at_k n1 n2 n3 c0 s0 delt (fun k a b => fft_im n1 n2 n3 (fun q => sg q a b) k) i j k = 0).
    { intros i j I J. destruct (spectrum n1 n2 n3 c0 s0 delt N1 N2 N3 sg k i j K) as [_ <-]. rewrite (fft_im_ext _ _ _ _ (fun _ => 0)) by (intros; apply H; assumption). unfold fft_im. rewrite (suml_ext _ (fun _ => 0)); [apply suml_0|intros; ring]. }
    unfold at_k in HR, HI. rewrite (ZF k NZ) in HR, HI. destruct (site_nyquist n1 n2 n3 k).
    + intros i j I J. split; [exact (proj1 (nyquist_kernel c0 s0 _ _ ES (SR k)) HR i j I J)|exact (proj1 (nyquist_kernel c0 s0 _ _ ES (SI k)) HI i j I J)].
    + pose proof (freq_nonzero n1 n2 n3 delt N1 N2 N3 DP k K NZ) as X. intros i I.
      split; [exact (proj1 (C111_fixed_point c0 s0 _ _ EC X) HR i I)|exact (proj1 (C111_fixed_point c0 s0 _ _ EC X) HI i I)].
  - intros H p i j P I J. change (field_correction c0 s0 delt n1 n2 n3 sg p i j) with (ifft n1 n2 n3 (at_k n1 n2 n3 c0 s0 delt (fun k a b => fft_re n1 n2 n3 (fun q => sg q a b) k) i j) (at_k n1 n2 n3 c0 s0 delt (fun k a b => fft_im n1 n2 n3 (fun q => sg q a b) k) i j) p).
    unfold ifft. rewrite (suml_ext _ (fun _ => 0)); [rewrite suml_0; ring|]. intros k K.
    assert (E : at_k n1 n2 n3 c0 s0 delt (fun k a b => fft_re n1 n2 n3 (fun q => sg q a b) k) i j k = 0 /\ at_k n1 n2 n3 c0 s0 delt (fun k a b => fft_im n1 n2 n3 (fun q => sg q a b) k) i j k = 0); [|destruct E as [-> ->]; ring].
    unfold at_k. destruct (site_dec k (0, 0, 0)%nat) as [->|NZ]; [split; reflexivity|]. rewrite (ZF k NZ). specialize (H k K NZ). destruct (site_nyquist n1 n2 n3 k).
    + split; [apply (nyquist_kernel c0 s0 _ _ ES (SR k))|apply (nyquist_kernel c0 s0 _ _ ES (SI k))]; try assumption; intros a b A B; apply H; assumption.
    + pose proof (freq_nonzero n1 n2 n3 delt N1 N2 N3 DP k K NZ) as X.
      split; [apply (C111_fixed_point c0 s0 _ _ EC X)|apply (C111_fixed_point c0 s0 _ _ EC X)]; try assumption; intros a A; apply H; assumption.
Qed.
Print Assumptions C117_fixed_point.

(* A uniform stress is. *)
Theorem C117_uniform c0 s0 delt n1 n2 n3 (t : T2) p i j : (1 <= n1)%nat -> (1 <= n2)%nat -> (1 <= n3)%nat -> (forall a, idx 3 a -> 0 < delt a) -> elastic c0 -> elastic s0 -> symmetric t ->
  In p (sites n1 n2 n3) -> idx 3 i -> idx 3 j -> field_correction c0 s0 delt n1 n2 n3 (fun _ => t) p i j = 0.
Proof.
  intros N1 N2 N3 DP EC ES SY P I J. revert p i j P I J. apply C117_fixed_point; try assumption; [intros; exact SY|]. intros k K NZ.
  assert (P0 : forall p, phase n1 n2 n3 (0, 0, 0)%nat p = 0) by (intros [[x y] z]; unfold phase; rewrite !Nat.mul_0_l; cbn [INR]; unfold Rdiv; ring).
  assert (A : absent n1 n2 n3 (fun _ => t) k).
  { intros i j _ _. unfold fft_re, fft_im. split.
    - rewrite suml_scal. rewrite (suml_ext _ (fun p => cos (phase n1 n2 n3 k p - phase n1 n2 n3 (0, 0, 0)%nat p + 0))) by (intros; rewrite P0; f_equal; ring).
      rewrite sum_minus, same_eq by (try assumption; apply in_sites; lia). destruct (site_dec _ _); [contradiction|ring].
    - rewrite (suml_ext _ (fun p => - t i j * (sin (phase n1 n2 n3 k p) * cos (phase n1 n2 n3 (0, 0, 0)%nat p)))) by (intros; rewrite P0, cos_0; ring).
      rewrite suml_scal, sc by assumption. ring. }
  destruct (site_nyquist n1 n2 n3 k); [exact A|]. intros i I.
  split; unfold S3; rewrite ?(proj1 (A i 1%nat I ltac:(unfold idx; lia))), ?(proj1 (A i 2%nat I ltac:(unfold idx; lia))), ?(proj1 (A i 3%nat I ltac:(unfold idx; lia))),
    ?(proj2 (A i 1%nat I ltac:(unfold idx; lia))), ?(proj2 (A i 2%nat I ltac:(unfold idx; lia))), ?(proj2 (A i 3%nat I ltac:(unfold idx; lia))); ring.
Qed.
Print Assumptions C117_uniform.

(* ---------- compatibility ---------- *)

Definition cells (n1 n2 n3 : nat) (j : nat) : nat := match j with 1 => n1 | 2 => n2 | 3 => n3 | _ => 0 end%nat.
(* Where a point of the grid lies. *)
Definition location (delt : T1) (p : site) : T1 := let '(x, y, z) := p in
  fun j => match j with 1 => (INR x * delt 1%nat)%R | 2 => (INR y * delt 2%nat)%R | 3 => (INR z * delt 3%nat)%R | _ => 0%R end%nat.

Section Compatible.
Variables (n1 n2 n3 : nat) (c0 s0 : T4) (delt : T1) (sg : site -> T2).
Hypotheses (N1 : (1 <= n1)%nat) (N2 : (1 <= n2)%nat) (N3 : (1 <= n3)%nat).
Hypothesis DP : forall i, idx 3 i -> 0 < delt i.
Hypothesis EC : elastic c0.
Hypothesis NY : forall k, In k (sites n1 n2 n3) -> site_nyquist n1 n2 n3 k = true -> absent n1 n2 n3 sg k.
Notation freq := (site_frequency delt n1 n2 n3).
Notation at_re := (at_k n1 n2 n3 c0 s0 delt (fun k a b => fft_re n1 n2 n3 (fun q => sg q a b) k)).
Notation at_im := (at_k n1 n2 n3 c0 s0 delt (fun k a b => fft_im n1 n2 n3 (fun q => sg q a b) k)).

(* The displacement whose gradient is a field of products u k. *)
Definition amplitude (D : nat -> nat -> site -> R) (i : nat) (k : site) : R := S3 (fun j => D i j k * freq k j) / S3 (fun j => freq k j * freq k j).

Lemma amplitude_spec t k i j : In k (sites n1 n2 n3) -> idx 3 j -> (site_nyquist n1 n2 n3 k = true -> forall a b, idx 3 a -> idx 3 b -> t k a b = 0) ->
  at_k n1 n2 n3 c0 s0 delt t i j k = amplitude (at_k n1 n2 n3 c0 s0 delt t) i k * freq k j.
Proof.
  intros K J T. unfold amplitude.
  destruct (site_dec k (0, 0, 0)%nat) as [->|NZ]; [unfold at_k; change (site_zero (0, 0, 0)%nat) with true; unfold inverse_the_greens, S3, Rdiv; ring|].
  assert (Z : site_zero k = false) by (destruct (site_zero k) eqn:E; [apply (zero_site n1 n2 n3 N1 N2 N3) in E; contradiction|reflexivity]).
  pose proof (freq_nonzero n1 n2 n3 delt N1 N2 N3 DP k K NZ) as X.
  assert (P : 0 < S3 (fun j => freq k j * freq k j)).
  { destruct X as (a & A & H). assert (0 < freq k a * freq k a) by nra. assert (Q : forall b, 0 <= freq k b * freq k b) by (intros; nra).
    pose proof (Q 1%nat). pose proof (Q 2%nat). pose proof (Q 3%nat). unfold S3. all3 A; lra. }
  unfold at_k. rewrite Z. destruct (site_nyquist n1 n2 n3 k) eqn:Q.
  - assert (E : forall a b, inverse_the_greens c0 s0 true false (freq k) (t k) a b = 0).
    { intros a b. unfold inverse_the_greens. rewrite sum1_3. unfold S3. rewrite !sum1_3. unfold S3.
      rewrite !(T eq_refl) by (unfold idx; lia). ring. }
    rewrite E. unfold S3 at 1. rewrite !E. unfold Rdiv. ring.
  - destruct (C111_correction c0 s0 (freq k) (t k) EC X) as ((u & U) & _). rewrite U.
    rewrite (S3_ext (fun j0 => inverse_the_greens c0 s0 false false (freq k) (t k) i j0 * freq k j0) (fun j0 => u i * (freq k j0 * freq k j0))) by (intros; rewrite U; ring).
    replace (S3 (fun j0 => u i * (freq k j0 * freq k j0))) with (u i * S3 (fun j0 => freq k j0 * freq k j0)) by (unfold S3; ring). field. lra.
Qed.

Definition ramp (k : site) (x : T1) : R := 2 * PI * S3 (fun j => freq k j * x j).
Definition displacement (i : nat) (x : T1) : R :=
  / volume n1 n2 n3 * suml (fun k => / (2 * PI) * (amplitude at_re i k * sin (ramp k x) + amplitude at_im i k * cos (ramp k x))) (sites n1 n2 n3).

Lemma ramp_location k p : In k (sites n1 n2 n3) -> exists m, ramp k (location delt p) = phase n1 n2 n3 k p + 2 * IZR m * PI.
Proof.
  intros K. apply (in_parts n1 n2 n3) in K. destruct k as [[a b] c], K as (A & B & C).
  set (wn n k := wave_number (Z.of_nat n) 0 (Z.of_nat k)).
  assert (W : whole n1 n2 n3 (wn n1 a - Z.of_nat a) (wn n2 b - Z.of_nat b) (wn n3 c - Z.of_nat c)).
  { assert (H : forall n k, (1 <= n)%nat -> (k < n)%nat -> ((wn n k - Z.of_nat k) mod Z.of_nat n = 0)%Z).
    { intros n k N K. destruct (C111_frequencies (Z.of_nat n) 0 (Z.of_nat k) ltac:(lia) ltac:(lia)) as (M & _). fold (wn n k) in M.
      apply Z.mod_divide in M; [|lia]. apply Z.mod_divide; [lia|]. destruct M as (q & M). exists (- q)%Z. lia. }
    split; [|split]; apply H; assumption. }
  destruct (angle_whole n1 n2 n3 _ _ _ p N1 N2 N3 W) as (m & M). exists m. rewrite <- M, phase_angle. cbn [zx zy zz].
  rewrite <- angle_minus. destruct p as [[x y] z]. unfold ramp, site_frequency, location, angle, frequency, S3, wn.
  rewrite <- !INR_IZR_INZ. pose proof (DP 1%nat ltac:(unfold idx; lia)). pose proof (DP 2%nat ltac:(unfold idx; lia)). pose proof (DP 3%nat ltac:(unfold idx; lia)).
  assert (INR n1 <> 0) by (apply not_0_INR; lia). assert (INR n2 <> 0) by (apply not_0_INR; lia). assert (INR n3 <> 0) by (apply not_0_INR; lia). field. repeat split; lra.
Qed.

Lemma ramp_shift k x h j : idx 3 j -> ramp k (fun a => x a + h * d a j) = ramp k x + 2 * PI * freq k j * h.
Proof. intros J. unfold ramp, S3, d. all3 J; cbn [Nat.eqb]; ring. Qed.

Lemma displacement_periodic i x j : idx 3 j -> displacement i (fun a => x a + INR (cells n1 n2 n3 j) * delt j * d a j) = displacement i x.
Proof.
  intros J. unfold displacement. f_equal. apply suml_ext. intros k K. rewrite ramp_shift by exact J.
  assert (W : exists m, 2 * PI * freq k j * (INR (cells n1 n2 n3 j) * delt j) = 2 * IZR m * PI).
  { destruct k as [[a b] c]. pose proof (DP j J) as D. unfold site_frequency, frequency, cells. assert (INR n1 <> 0) by (apply not_0_INR; lia). assert (INR n2 <> 0) by (apply not_0_INR; lia). assert (INR n3 <> 0) by (apply not_0_INR; lia).
    all3 J; [exists (wave_number (Z.of_nat n1) 0 (Z.of_nat a))|exists (wave_number (Z.of_nat n2) 0 (Z.of_nat b))|exists (wave_number (Z.of_nat n3) 0 (Z.of_nat c))]; rewrite <- INR_IZR_INZ; field; split; lra. }
  destruct W as (m & ->). rewrite sin_2Z, cos_2Z. reflexivity.
Qed.

Lemma displacement_gradient i j p : In p (sites n1 n2 n3) -> idx 3 i -> idx 3 j ->
  derivable_pt_lim (fun h => displacement i (fun a => location delt p a + h * d a j)) 0 (field_correction c0 s0 delt n1 n2 n3 sg p i j).
Proof.
  intros P I J.
  change (field_correction c0 s0 delt n1 n2 n3 sg p i j) with (/ volume n1 n2 n3 * suml (fun k => at_re i j k * cos (phase n1 n2 n3 k p) - at_im i j k * sin (phase n1 n2 n3 k p)) (sites n1 n2 n3)).
  unfold displacement.
  apply (derivable_pt_lim_scal (fun h => suml (fun k => / (2 * PI) * (amplitude at_re i k * sin (ramp k (fun a => location delt p a + h * d a j)) + amplitude at_im i k * cos (ramp k (fun a => location delt p a + h * d a j)))) (sites n1 n2 n3))).
  apply (suml_lim (fun k h => / (2 * PI) * (amplitude at_re i k * sin (ramp k (fun a => location delt p a + h * d a j)) + amplitude at_im i k * cos (ramp k (fun a => location delt p a + h * d a j))))).
  intros k K. destruct (ramp_location k p K) as (m & M). pose proof PI_RGT_0 as PP.
  apply (lim_ext (fun h => / (2 * PI) * (amplitude at_re i k * sin (ramp k (location delt p) + 2 * PI * freq k j * h) + amplitude at_im i k * cos (ramp k (location delt p) + 2 * PI * freq k j * h)))).
  { intros h. rewrite ramp_shift by exact J. reflexivity. }
  assert (R : at_re i j k = amplitude at_re i k * freq k j) by (apply (amplitude_spec (fun k a b => fft_re n1 n2 n3 (fun q => sg q a b) k)); try assumption; intros Q a b A B; apply (NY k K Q a b A B)).
  assert (S : at_im i j k = amplitude at_im i k * freq k j) by (apply (amplitude_spec (fun k a b => fft_im n1 n2 n3 (fun q => sg q a b) k)); try assumption; intros Q a b A B; apply (NY k K Q a b A B)).
  rewrite R, S. set (A := amplitude at_re i k). set (B := amplitude at_im i k). set (r0 := ramp k (location delt p)). set (f := freq k j).
  replace (A * f * cos (phase n1 n2 n3 k p) - B * f * sin (phase n1 n2 n3 k p)) with (/ (2 * PI) * (A * (cos (r0 + 2 * PI * f * 0) * (2 * PI * f)) + B * (- sin (r0 + 2 * PI * f * 0) * (2 * PI * f)))).
  2: { rewrite !Rmult_0_r, !Rplus_0_r. unfold r0. rewrite M, cos_2Z, sin_2Z. field. lra. }
  apply (derivable_pt_lim_scal (fun h => A * sin (r0 + 2 * PI * f * h) + B * cos (r0 + 2 * PI * f * h))).
  apply (derivable_pt_lim_plus (fun h => A * sin (r0 + 2 * PI * f * h)) (fun h => B * cos (r0 + 2 * PI * f * h))).
  - apply (derivable_pt_lim_scal (fun h => sin (r0 + 2 * PI * f * h))). apply (derivable_pt_lim_comp (fun h => r0 + 2 * PI * f * h) sin); [apply lin_slope|apply derivable_pt_lim_sin].
  - apply (derivable_pt_lim_scal (fun h => cos (r0 + 2 * PI * f * h))). apply (derivable_pt_lim_comp (fun h => r0 + 2 * PI * f * h) cos); [apply lin_slope|apply derivable_pt_lim_cos].
Qed.
End Compatible.

(* A displacement made of the waves of the grid; it repeats with the cell. *)
Definition waves (delt : T1) (n1 n2 n3 : nat) (a b : nat -> site -> R) (i : nat) (x : T1) : R :=
  suml (fun k => a i k * sin (2 * PI * S3 (fun j => site_frequency delt n1 n2 n3 k j * x j)) + b i k * cos (2 * PI * S3 (fun j => site_frequency delt n1 n2 n3 k j * x j))) (sites n1 n2 n3).
(* The gradient of u at the points of the grid is w. *)
Definition gradient_on (delt : T1) (n1 n2 n3 : nat) (u : nat -> T1 -> R) (w : site -> T2) : Prop :=
  forall p i j, In p (sites n1 n2 n3) -> idx 3 i -> idx 3 j -> derivable_pt_lim (fun h => u i (fun a => location delt p a + h * d a j)) 0 (w p i j).

(* The correction is the gradient of such a displacement, where the grid has no Nyquist
   frequency (odd numbers of points) or the stress has no part there. *)
Theorem C117_compatible_partial c0 s0 delt n1 n2 n3 sg : (1 <= n1)%nat -> (1 <= n2)%nat -> (1 <= n3)%nat -> (forall i, idx 3 i -> 0 < delt i) -> elastic c0 ->
  (forall k, In k (sites n1 n2 n3) -> site_nyquist n1 n2 n3 k = true -> absent n1 n2 n3 sg k) ->
  exists a b, let u := waves delt n1 n2 n3 a b in
    (forall i x j, idx 3 j -> u i (fun a => x a + INR (cells n1 n2 n3 j) * delt j * d a j) = u i x) /\
    gradient_on delt n1 n2 n3 u (field_correction c0 s0 delt n1 n2 n3 sg).
Proof.
  intros N1 N2 N3 DP EC NY.
  exists (fun i k => / volume n1 n2 n3 * (/ (2 * PI) * amplitude n1 n2 n3 delt (at_k n1 n2 n3 c0 s0 delt (fun k a b => fft_re n1 n2 n3 (fun q => sg q a b) k)) i k)),
         (fun i k => / volume n1 n2 n3 * (/ (2 * PI) * amplitude n1 n2 n3 delt (at_k n1 n2 n3 c0 s0 delt (fun k a b => fft_im n1 n2 n3 (fun q => sg q a b) k)) i k)).
  cbv zeta. match goal with |- context [waves delt n1 n2 n3 ?a ?b] => set (A := a); set (B := b) end.
  assert (E : forall i x, displacement n1 n2 n3 c0 s0 delt sg i x = waves delt n1 n2 n3 A B i x).
  { intros i x. unfold displacement, waves, ramp, A, B. rewrite <- suml_scal. apply suml_ext. intros k _. ring. }
  split.
  - intros i x j J. rewrite <- !E. apply displacement_periodic; assumption.
  - intros p i j P I J. eapply lim_ext; [intros h; apply E|]. apply displacement_gradient; assumption.
Qed.
Print Assumptions C117_compatible_partial.

(* Otherwise it is not: two points of opposite stress. *)
Definition alternating : site -> T2 := fun p i j => let '(x, _, _) := p in if Nat.eqb x 0 then d i 2 * d j 2 else - (d i 2 * d j 2).
Theorem C117_nyquist_refuted : exists c0 s0 delt sg, elastic c0 /\ elastic s0 /\ (forall i, idx 3 i -> 0 < delt i) /\ (forall p, symmetric (sg p)) /\
  (forall E i j, symmetric E -> idx 3 i -> idx 3 j -> act c0 (act s0 E) i j = E i j) /\
  forall a b, ~ gradient_on delt 2 1 1 (waves delt 2 1 1 a b) (field_correction c0 s0 delt 2 1 1 sg).
Proof.
  exists unit4, unit4, (fun _ => 1), alternating. split; [exact unit4_elastic|]. split; [exact unit4_elastic|]. split; [intros; lra|].
  split; [intros [[x y] z] i j _ _; unfold alternating; destruct (Nat.eqb x 0); ring|].
  split; [intros E i j S I J; rewrite unit4_act by assumption; rewrite !unit4_act by assumption; rewrite (S i j I J); field|].
  intros a b G. specialize (G (0, 0, 0)%nat 2%nat 2%nat ltac:(apply in_sites; lia) ltac:(unfold idx; lia) ltac:(unfold idx; lia)).
  assert (F2 : forall k, In k (sites 2 1 1) -> site_frequency (fun _ => 1) 2 1 1 k 2%nat = 0).
  { intros [[x y] z] K. apply in_sites in K. unfold site_frequency. replace y with 0%nat by lia. unfold frequency. change (wave_number (Z.of_nat 1) 0 (Z.of_nat 0)) with 0%Z. unfold Rdiv. ring. }
  assert (C : derivable_pt_lim (fun h => waves (fun _ => 1) 2 1 1 a b 2%nat (fun c => location (fun _ => 1) (0, 0, 0)%nat c + h * d c 2)) 0 0).
  { apply (lim_ext (fun _ => waves (fun _ => 1) 2 1 1 a b 2%nat (location (fun _ => 1) (0, 0, 0)%nat))); [|apply derivable_pt_lim_const].
    intros h. unfold waves. apply suml_ext. intros k K.
    replace (S3 (fun j => site_frequency (fun _ => 1) 2 1 1 k j * (location (fun _ => 1) (0, 0, 0)%nat j + h * d j 2))) with (S3 (fun j => site_frequency (fun _ => 1) 2 1 1 k j * location (fun _ => 1) (0, 0, 0)%nat j)); [reflexivity|].
    unfold S3. rewrite (F2 k K). unfold d. cbn [Nat.eqb]. ring. }
  pose proof (uniqueness_limite _ _ _ _ G C) as V.
  assert (W : field_correction unit4 unit4 (fun _ => 1) 2 1 1 alternating (0, 0, 0)%nat 2%nat 2%nat = -1); [|lra].
  clear. unfold field_correction, ifft.
  assert (E : forall k, inverse_the_greens unit4 unit4 true false k (fun a b => fft_re 2 1 1 (fun q => alternating q a b) (1, 0, 0)%nat) 2%nat 2%nat = -2).
  { intros k. unfold inverse_the_greens, green. rewrite sum1_3. unfold S3. rewrite !sum1_3. unfold S3, unit4, d, fft_re. cbn [Nat.eqb sites flat_map map seq app suml fold_right alternating d Nat.eqb].
    unfold d, phase. cbn [Nat.eqb Nat.mul Nat.add INR]. replace (2 * PI * (0 / (1 + 1) + 0 / 1 + 0 / 1)) with 0 by field. replace (2 * PI * (1 / (1 + 1) + 0 / 1 + 0 / 1)) with PI by field. rewrite cos_0, cos_PI. field. }
  cbn [sites flat_map map seq app suml fold_right]. change (site_zero (0, 0, 0)%nat) with true. change (site_zero (1, 0, 0)%nat) with false.
  change (site_nyquist 2 1 1 (1, 0, 0)%nat) with true. rewrite E. unfold inverse_the_greens at 1 2.
  unfold phase. cbn [Nat.mul Nat.add INR]. replace (2 * PI * (0 / (1 + 1) + 0 / 1 + 0 / 1)) with 0 by field. rewrite cos_0, sin_0. field.
Qed.
Print Assumptions C117_nyquist_refuted.

Lemma odd_nyquist n1 n2 n3 k : Nat.odd n1 = true -> Nat.odd n2 = true -> Nat.odd n3 = true -> site_nyquist n1 n2 n3 k = false.
Proof.
  intros O1 O2 O3. destruct k as [[x y] z]. unfold site_nyquist, nyquist.
  assert (H : forall n k, Nat.odd n = true -> is_nyquist (Z.of_nat n) k = false).
  { intros n k O. unfold is_nyquist. rewrite Bool.andb_false_iff. right. apply Z.eqb_neq. apply Nat.odd_spec in O. destruct O as (m & ->).
    replace (Z.of_nat (2 * m + 1)) with (1 + Z.of_nat m * 2)%Z by lia. rewrite Z.mod_add by lia. discriminate. }
  rewrite !H by assumption. rewrite Bool.andb_false_r. reflexivity.
Qed.

(* Three points with alternating stress, out of equilibrium. *)
Example C117_met : elastic unit4 /\ (forall k, In k (sites 3 1 1) -> site_nyquist 3 1 1 k = true -> absent 3 1 1 alternating k) /\ symmetric (alternating (0, 0, 0)%nat) /\
  In (1, 0, 0)%nat (sites 3 1 1) /\ site_nyquist 3 1 1 (1, 0, 0)%nat = false /\
  exists s, s_work s = spectral_work unit4 unit4 (fun _ => 1) 3 1 1 /\ sized s (3 * 1 * 1) /\ strain_control s.
Proof.
  split; [exact unit4_elastic|]. split; [intros k _ Q; rewrite odd_nyquist in Q by reflexivity; discriminate|]. split; [intros i j _ _; unfold alternating; change (Nat.eqb 0 0) with true; cbv iota; ring|].
  split; [apply in_sites; lia|]. split; [reflexivity|].
  exists {| s_work := spectral_work unit4 unit4 (fun _ => 1) 3 1 1; s_local := fun v => (r_disgrad v, r_edotp v, 0, 0); s_s0 := unit4; s_iudot := fun _ _ => 1%Z; s_iscau := fun _ => 0%Z; s_scauchy := fun _ _ => 0; s_wgt := 1; s_error := 1 |}.
  split; [reflexivity|]. split; [intros v L; exact L|]. intros i I. all6 I; cbn; discriminate.
Qed.
