(* The discrete Fourier transform on a three-dimensional grid. *)
From Coq Require Import Reals List Arith Lia Lra ZArith.
From Verif Require Import BaseReal LinModel EvpModel EvpFlowModel EvpFftModel.
Import ListNotations.
Local Open Scope R_scope.

Lemma cos_2Z x m : cos (x + 2 * IZR m * PI) = cos x.
Proof.
  destruct (Z_le_gt_dec 0 m) as [P|P].
  - rewrite <- (Z2Nat.id m P), <- INR_IZR_INZ. apply cos_period.
  - rewrite <- (cos_period (x + 2 * IZR m * PI) (Z.to_nat (- m))). f_equal. rewrite INR_IZR_INZ, Z2Nat.id by lia. rewrite opp_IZR. ring.
Qed.
Lemma sin_2Z x m : sin (x + 2 * IZR m * PI) = sin x.
Proof. rewrite !sin_cos. rewrite <- (cos_2Z (PI / 2 + x) m). do 2 f_equal. ring. Qed.

(* ---------- one direction ---------- *)

Lemma telescope n (g : nat -> R) : sumn n (fun x => g (S x) - g x) = g n - g 0%nat.
Proof. induction n as [|n IH]; cbn [sumn]; [ring|]. rewrite IH. ring. Qed.

Lemma wave1 n m phi : (1 <= n)%nat -> (m mod Z.of_nat n <> 0)%Z -> suml (fun x => cos (2 * PI * (IZR m * INR x / INR n) + phi)) (seq 0 n) = 0.
Proof.
  intros N M. rewrite suml_seq. assert (NP : 0 < INR n) by (apply lt_0_INR; lia).
  set (h := PI * IZR m / INR n).
  assert (H : sin h <> 0).
  { intros Z. destruct (sin_eq_0_0 h Z) as (k & K). apply M. unfold h in K.
    assert (Q : IZR m = IZR (k * Z.of_nat n)). { rewrite mult_IZR, <- INR_IZR_INZ. pose proof PI_RGT_0 as PP. apply (Rmult_eq_reg_l PI); [|lra].
      apply (Rmult_eq_compat_r (INR n)) in K. unfold Rdiv in K. rewrite Rmult_assoc, (Rinv_l (INR n)) in K by lra. lra. }
    apply eq_IZR in Q. rewrite Q. apply Z.mod_mul. lia. }
  apply (Rmult_eq_reg_l (2 * sin h)); [|lra]. rewrite Rmult_0_r.
  transitivity (sumn n (fun x => sin (2 * (INR (S x)) * h - h + phi) - sin (2 * (INR x) * h - h + phi))).
  - rewrite <- !suml_seq, <- suml_scal. apply suml_ext. intros x _. rewrite S_INR.
    replace (2 * PI * (IZR m * INR x / INR n) + phi) with (2 * INR x * h + phi) by (unfold h; field; lra).
    replace (2 * (INR x + 1) * h - h + phi) with ((2 * INR x * h + phi) + h) by ring.
    replace (2 * INR x * h - h + phi) with ((2 * INR x * h + phi) - h) by ring.
    rewrite sin_plus, sin_minus. ring.
  - rewrite (telescope n (fun x => sin (2 * INR x * h - h + phi))). cbn [INR].
    replace (2 * INR n * h - h + phi) with ((2 * 0 * h - h + phi) + 2 * IZR m * PI) by (unfold h; field; lra).
    rewrite sin_2Z. ring.
Qed.

(* ---------- three ---------- *)

Lemma suml_flat_map {A B} (f : B -> R) (g : A -> list B) l : suml f (flat_map g l) = suml (fun a => suml f (g a)) l.
Proof. induction l as [|a l IH]; [reflexivity|]. cbn [flat_map]. rewrite suml_app, suml_cons, IH. reflexivity. Qed.

Lemma suml_sites f n1 n2 n3 : suml f (sites n1 n2 n3) = suml (fun z => suml (fun y => suml (fun x => f (x, y, z)) (seq 0 n1)) (seq 0 n2)) (seq 0 n3).
Proof.
  unfold sites. rewrite suml_flat_map. apply suml_ext. intros z _. rewrite suml_flat_map. apply suml_ext. intros y _. apply suml_map.
Qed.

Lemma in_sites n1 n2 n3 x y z : In (x, y, z) (sites n1 n2 n3) <-> (x < n1 /\ y < n2 /\ z < n3)%nat.
Proof.
  unfold sites. rewrite in_flat_map. split.
  - intros (z' & Z & H). apply in_flat_map in H. destruct H as (y' & Y & H). apply in_map_iff in H. destruct H as (x' & E & H).
    injection E as -> -> ->. apply in_seq in Z, Y, H. lia.
  - intros (X & Y & Z). exists z. split; [apply in_seq; lia|]. apply in_flat_map. exists y. split; [apply in_seq; lia|]. apply in_map_iff. exists x. split; [reflexivity|apply in_seq; lia].
Qed.

Lemma NoDup_flat_map {A B} (g : A -> list B) l : NoDup l -> (forall a, In a l -> NoDup (g a)) -> (forall a a' b, In a l -> In a' l -> In b (g a) -> In b (g a') -> a = a') -> NoDup (flat_map g l).
Proof.
  induction l as [|a l IH]; intros N G D; [constructor|]. inversion N as [|? ? NA NL]; subst. cbn [flat_map].
  assert (L : NoDup (flat_map g l)) by (apply IH; [exact NL|intros; apply G; right; assumption|intros; eapply D; try (right; eassumption); eassumption]).
  assert (G1 : NoDup (g a)) by (apply G; left; reflexivity).
  assert (DJ : forall b, In b (g a) -> ~ In b (flat_map g l)).
  { intros b HB H. apply in_flat_map in H. destruct H as (a' & A' & B'). apply NA. rewrite (D a a' b); [exact A'|left; reflexivity|right; exact A'|exact HB|exact B']. }
  clear -L G1 DJ. induction (g a) as [|b t IHt]; [exact L|]. inversion G1; subst. cbn. constructor.
  - rewrite in_app_iff. intros [H|H]; [contradiction|]. apply (DJ b (or_introl eq_refl) H).
  - apply IHt; [assumption|]. intros c C. apply DJ. right. exact C.
Qed.

Lemma NoDup_sites n1 n2 n3 : NoDup (sites n1 n2 n3).
Proof.
  unfold sites. apply NoDup_flat_map; [apply seq_NoDup| |].
  - intros z _. apply NoDup_flat_map; [apply seq_NoDup| |].
    + intros y _. apply FinFun.Injective_map_NoDup; [intros a b E; injection E; auto|apply seq_NoDup].
    + intros y y' b _ _ H H'. apply in_map_iff in H, H'. destruct H as (x & <- & _), H' as (x' & E & _). injection E. auto.
  - intros z z' b _ _ H H'. apply in_flat_map in H, H'. destruct H as (y & _ & H), H' as (y' & _ & H'). apply in_map_iff in H, H'.
    destruct H as (x & <- & _), H' as (x' & E & _). injection E. auto.
Qed.

Lemma suml_const {A} c (l : list A) : suml (fun _ => c) l = INR (length l) * c.
Proof. induction l as [|a l IH]; [cbn; ring|]. rewrite suml_cons, IH. cbn [length]. rewrite S_INR. ring. Qed.

Definition volume n1 n2 n3 : R := INR n1 * INR n2 * INR n3.
Definition angle n1 n2 n3 (m1 m2 m3 : Z) (p : site) : R :=
  let '(x, y, z) := p in 2 * PI * (IZR m1 * INR x / INR n1 + IZR m2 * INR y / INR n2 + IZR m3 * INR z / INR n3).
Definition whole n1 n2 n3 (m1 m2 m3 : Z) : Prop := (m1 mod Z.of_nat n1 = 0 /\ m2 mod Z.of_nat n2 = 0 /\ m3 mod Z.of_nat n3 = 0)%Z.

Lemma wave3 n1 n2 n3 m1 m2 m3 phi : (1 <= n1)%nat -> (1 <= n2)%nat -> (1 <= n3)%nat -> ~ whole n1 n2 n3 m1 m2 m3 ->
  suml (fun p => cos (angle n1 n2 n3 m1 m2 m3 p + phi)) (sites n1 n2 n3) = 0.
Proof.
  intros N1 N2 N3 W. rewrite suml_sites. unfold angle.
  destruct (Z.eq_dec (m1 mod Z.of_nat n1) 0) as [E1|E1]; [destruct (Z.eq_dec (m2 mod Z.of_nat n2) 0) as [E2|E2]; [destruct (Z.eq_dec (m3 mod Z.of_nat n3) 0) as [E3|E3]|]|].
  - exfalso. apply W. repeat split; assumption.
  - rewrite suml_exchange. rewrite (suml_ext _ (fun _ => 0)); [apply suml_0|]. intros y _. rewrite suml_exchange. rewrite (suml_ext _ (fun _ => 0)); [apply suml_0|]. intros x _.
    rewrite <- (wave1 n3 m3 (2 * PI * (IZR m1 * INR x / INR n1 + IZR m2 * INR y / INR n2) + phi) N3 E3). apply suml_ext. intros z _. f_equal. ring.
  - rewrite (suml_ext _ (fun _ => 0)); [apply suml_0|]. intros z _. rewrite suml_exchange. rewrite (suml_ext _ (fun _ => 0)); [apply suml_0|]. intros x _.
    rewrite <- (wave1 n2 m2 (2 * PI * (IZR m1 * INR x / INR n1 + IZR m3 * INR z / INR n3) + phi) N2 E2). apply suml_ext. intros y _. f_equal. ring.
  - rewrite (suml_ext _ (fun _ => 0)); [apply suml_0|]. intros z _. rewrite (suml_ext _ (fun _ => 0)); [apply suml_0|]. intros y _.
    rewrite <- (wave1 n1 m1 (2 * PI * (IZR m2 * INR y / INR n2 + IZR m3 * INR z / INR n3) + phi) N1 E1). apply suml_ext. intros x _. f_equal. ring.
Qed.

Lemma mod_whole n m : (1 <= n)%nat -> (m mod Z.of_nat n = 0)%Z -> exists q, IZR m / INR n = IZR q.
Proof.
  intros N M. apply Z.mod_divide in M; [|lia]. destruct M as (q & ->). exists q. rewrite mult_IZR, <- INR_IZR_INZ. field. apply not_0_INR. lia.
Qed.

Lemma angle_whole n1 n2 n3 m1 m2 m3 p : (1 <= n1)%nat -> (1 <= n2)%nat -> (1 <= n3)%nat -> whole n1 n2 n3 m1 m2 m3 -> exists q, angle n1 n2 n3 m1 m2 m3 p = 2 * IZR q * PI.
Proof.
  intros N1 N2 N3 (W1 & W2 & W3). destruct p as [[x y] z].
  destruct (mod_whole n1 m1 N1 W1) as (q1 & Q1), (mod_whole n2 m2 N2 W2) as (q2 & Q2), (mod_whole n3 m3 N3 W3) as (q3 & Q3).
  exists (q1 * Z.of_nat x + q2 * Z.of_nat y + q3 * Z.of_nat z)%Z. unfold angle. rewrite !plus_IZR, !mult_IZR, <- !INR_IZR_INZ, <- Q1, <- Q2, <- Q3. unfold Rdiv. ring.
Qed.

Lemma sites_length n1 n2 n3 : INR (length (sites n1 n2 n3)) = volume n1 n2 n3.
Proof.
  rewrite <- (Rmult_1_r (INR (length _))), <- suml_const, suml_sites.
  rewrite (suml_ext _ (fun _ => INR n2 * (INR n1 * 1))).
  - rewrite suml_const, seq_length. unfold volume. ring.
  - intros z _. rewrite (suml_ext _ (fun _ => INR n1 * 1)) by (intros; rewrite suml_const, seq_length; reflexivity). rewrite suml_const, seq_length. ring.
Qed.

Lemma wave_whole n1 n2 n3 m1 m2 m3 phi : (1 <= n1)%nat -> (1 <= n2)%nat -> (1 <= n3)%nat -> whole n1 n2 n3 m1 m2 m3 ->
  suml (fun p => cos (angle n1 n2 n3 m1 m2 m3 p + phi)) (sites n1 n2 n3) = volume n1 n2 n3 * cos phi.
Proof.
  intros N1 N2 N3 W. rewrite <- sites_length, <- suml_const. apply suml_ext. intros p _. destruct (angle_whole n1 n2 n3 m1 m2 m3 p N1 N2 N3 W) as (q & ->).
  rewrite Rplus_comm. apply cos_2Z.
Qed.

Lemma whole_dec n1 n2 n3 m1 m2 m3 : {whole n1 n2 n3 m1 m2 m3} + {~ whole n1 n2 n3 m1 m2 m3}.
Proof.
  unfold whole. destruct (Z.eq_dec (m1 mod Z.of_nat n1) 0), (Z.eq_dec (m2 mod Z.of_nat n2) 0), (Z.eq_dec (m3 mod Z.of_nat n3) 0); (left; repeat split; assumption) || (right; tauto).
Qed.

Definition ind (P : Prop) (D : {P} + {~ P}) : R := if D then 1 else 0.

Lemma wave n1 n2 n3 m1 m2 m3 phi : (1 <= n1)%nat -> (1 <= n2)%nat -> (1 <= n3)%nat ->
  suml (fun p => cos (angle n1 n2 n3 m1 m2 m3 p + phi)) (sites n1 n2 n3) = volume n1 n2 n3 * cos phi * ind _ (whole_dec n1 n2 n3 m1 m2 m3).
Proof.
  intros N1 N2 N3. destruct (whole_dec n1 n2 n3 m1 m2 m3) as [W|W]; cbn [ind].
  - rewrite wave_whole by assumption. ring.
  - rewrite wave3 by assumption. ring.
Qed.

(* ---------- products of waves ---------- *)

Definition zx (k : site) : Z := let '(x, _, _) := k in Z.of_nat x.
Definition zy (k : site) : Z := let '(_, y, _) := k in Z.of_nat y.
Definition zz (k : site) : Z := let '(_, _, z) := k in Z.of_nat z.

Lemma phase_angle n1 n2 n3 k p : phase n1 n2 n3 k p = angle n1 n2 n3 (zx k) (zy k) (zz k) p.
Proof. destruct k as [[a b] c], p as [[x y] z]. unfold phase, angle, zx, zy, zz. rewrite !mult_INR, <- !INR_IZR_INZ. reflexivity. Qed.
Lemma angle_plus n1 n2 n3 a b c a' b' c' p : angle n1 n2 n3 a b c p + angle n1 n2 n3 a' b' c' p = angle n1 n2 n3 (a + a') (b + b') (c + c') p.
Proof. destruct p as [[x y] z]. unfold angle. rewrite !plus_IZR. unfold Rdiv. ring. Qed.
Lemma angle_minus n1 n2 n3 a b c a' b' c' p : angle n1 n2 n3 a b c p - angle n1 n2 n3 a' b' c' p = angle n1 n2 n3 (a - a') (b - b') (c - c') p.
Proof. destruct p as [[x y] z]. unfold angle. rewrite !minus_IZR. unfold Rdiv. ring. Qed.
Lemma phase_swap n1 n2 n3 k p : phase n1 n2 n3 k p = phase n1 n2 n3 p k.
Proof. destruct k as [[a b] c], p as [[x y] z]. unfold phase. rewrite (Nat.mul_comm a x), (Nat.mul_comm b y), (Nat.mul_comm c z). reflexivity. Qed.

(* q - k and q + k *)
Definition same n1 n2 n3 (q k : site) : R := ind _ (whole_dec n1 n2 n3 (zx q - zx k) (zy q - zy k) (zz q - zz k)).
Definition opposed n1 n2 n3 (q k : site) : R := ind _ (whole_dec n1 n2 n3 (zx q + zx k) (zy q + zy k) (zz q + zz k)).

Section Products.
Variables n1 n2 n3 : nat.
Hypotheses (N1 : (1 <= n1)%nat) (N2 : (1 <= n2)%nat) (N3 : (1 <= n3)%nat).
Notation V := (volume n1 n2 n3).
Notation ph := (phase n1 n2 n3).
Notation grid := (sites n1 n2 n3).

Lemma vol_pos : 0 < V.
Proof. unfold volume. repeat apply Rmult_lt_0_compat; apply lt_0_INR; lia. Qed.

Lemma sum_plus q k phi : suml (fun p => cos (ph q p + ph k p + phi)) grid = V * cos phi * opposed n1 n2 n3 q k.
Proof. rewrite (suml_ext _ (fun p => cos (angle n1 n2 n3 (zx q + zx k) (zy q + zy k) (zz q + zz k) p + phi))); [apply wave; assumption|]. intros p _. rewrite !phase_angle, angle_plus. reflexivity. Qed.
Lemma sum_minus q k phi : suml (fun p => cos (ph q p - ph k p + phi)) grid = V * cos phi * same n1 n2 n3 q k.
Proof. rewrite (suml_ext _ (fun p => cos (angle n1 n2 n3 (zx q - zx k) (zy q - zy k) (zz q - zz k) p + phi))); [apply wave; assumption|]. intros p _. rewrite !phase_angle, angle_minus. reflexivity. Qed.

Lemma cc q k : suml (fun p => cos (ph q p) * cos (ph k p)) grid = V / 2 * (same n1 n2 n3 q k + opposed n1 n2 n3 q k).
Proof.
  rewrite (suml_ext _ (fun p => / 2 * (cos (ph q p - ph k p + 0) + cos (ph q p + ph k p + 0)))) by (intros p _; rewrite !Rplus_0_r, cos_minus, cos_plus; field).
  rewrite suml_scal, suml_plus, sum_plus, sum_minus, cos_0. field.
Qed.
Lemma ss q k : suml (fun p => sin (ph q p) * sin (ph k p)) grid = V / 2 * (same n1 n2 n3 q k - opposed n1 n2 n3 q k).
Proof.
  rewrite (suml_ext _ (fun p => / 2 * (cos (ph q p - ph k p + 0) - cos (ph q p + ph k p + 0)))) by (intros p _; rewrite !Rplus_0_r, cos_minus, cos_plus; field).
  rewrite suml_scal, suml_minus, sum_plus, sum_minus, cos_0. field.
Qed.
Lemma sc q k : suml (fun p => sin (ph q p) * cos (ph k p)) grid = 0.
Proof.
  assert (S : forall t, sin t = cos (t + - (PI / 2))) by (intros t; replace (t + - (PI / 2)) with (- (PI / 2 - t)) by ring; rewrite cos_neg, cos_shift; reflexivity).
  rewrite (suml_ext _ (fun p => / 2 * (cos (ph q p - ph k p + - (PI / 2)) + cos (ph q p + ph k p + - (PI / 2))))) by (intros p _; rewrite <- !S, sin_minus, sin_plus; field).
  rewrite suml_scal, suml_plus, sum_plus, sum_minus, cos_neg, cos_PI2. ring.
Qed.

(* ---------- sites ---------- *)

Definition opposite (k : site) : site := let '(x, y, z) := k in ((n1 - x) mod n1, (n2 - y) mod n2, (n3 - z) mod n3)%nat.

Lemma opposite_in k : In k grid -> In (opposite k) grid.
Proof. destruct k as [[x y] z]. unfold opposite. rewrite !in_sites. intros _. split; [|split]; apply Nat.mod_upper_bound; lia. Qed.

Lemma diff_whole n x y : (x < n)%nat -> (y < n)%nat -> ((Z.of_nat x - Z.of_nat y) mod Z.of_nat n = 0)%Z <-> x = y.
Proof.
  intros X Y. split; [|intros ->; rewrite Z.sub_diag; apply Z.mod_0_l; lia].
  intros M. apply Z.mod_divide in M; [|lia]. destruct M as (q & Q). assert (q = 0)%Z by nia. nia.
Qed.
Lemma sum_whole n x y : (x < n)%nat -> (y < n)%nat -> ((Z.of_nat x + Z.of_nat y) mod Z.of_nat n = 0)%Z <-> x = ((n - y) mod n)%nat.
Proof.
  intros X Y. destruct (Nat.eq_dec y 0) as [->|NZ].
  - rewrite Nat.sub_0_r, Nat.mod_same by lia. replace (Z.of_nat x + Z.of_nat 0)%Z with (Z.of_nat x) by lia. rewrite Z.mod_small by lia. lia.
  - rewrite (Nat.mod_small (n - y)) by lia. split.
    + intros M. apply Z.mod_divide in M; [|lia]. destruct M as (q & Q). assert (q = 1)%Z by nia. nia.
    + intros ->. replace (Z.of_nat (n - y) + Z.of_nat y)%Z with (Z.of_nat n) by lia. apply Z.mod_same. lia.
Qed.

Lemma site_dec (a b : site) : {a = b} + {a <> b}.
Proof. repeat decide equality. Qed.

Lemma same_eq q k : In q grid -> In k grid -> same n1 n2 n3 q k = if site_dec q k then 1 else 0.
Proof.
  destruct q as [[x y] z], k as [[a b] c]. rewrite !in_sites. intros (X & Y & Z) (A & B & C). unfold same. destruct (whole_dec _ _ _ _ _ _) as [W|W]; cbn [ind].
  - destruct W as (W1 & W2 & W3). cbn [zx zy zz] in *. apply diff_whole in W1, W2, W3; try assumption. subst. destruct (site_dec _ _); [reflexivity|congruence].
  - destruct (site_dec _ _) as [E|]; [|reflexivity]. exfalso. apply W. injection E as -> -> ->. unfold whole. cbn [zx zy zz]. rewrite !Z.sub_diag. split; [|split]; apply Z.mod_0_l; lia.
Qed.
Lemma opposed_eq q k : In q grid -> In k grid -> opposed n1 n2 n3 q k = if site_dec q (opposite k) then 1 else 0.
Proof.
  destruct q as [[x y] z], k as [[a b] c]. rewrite !in_sites. intros (X & Y & Z) (A & B & C). unfold opposed, opposite. destruct (whole_dec _ _ _ _ _ _) as [W|W]; cbn [ind].
  - destruct W as (W1 & W2 & W3). cbn [zx zy zz] in *. apply sum_whole in W1, W2, W3; try assumption. subst. destruct (site_dec _ _); [reflexivity|congruence].
  - destruct (site_dec _ _) as [E|]; [|reflexivity]. exfalso. apply W. injection E as E1 E2 E3. unfold whole. cbn [zx zy zz]. split; [|split]; apply sum_whole; assumption.
Qed.

Lemma suml_pick {A} (dec : forall a b : A, {a = b} + {a <> b}) (f : A -> R) l k : NoDup l -> In k l -> suml (fun q => f q * (if dec q k then 1 else 0)) l = f k.
Proof.
  induction l as [|a l IH]; intros N I; [contradiction|]. inversion N as [|? ? NA NL]; subst. rewrite suml_cons. destruct I as [->|I].
  - destruct (dec k k) as [_|]; [|congruence]. rewrite (suml_ext _ (fun _ => 0)); [rewrite suml_0; ring|]. intros q Q. destruct (dec q k) as [->|]; [contradiction|ring].
  - rewrite (IH NL I). destruct (dec a k) as [->|]; [contradiction|ring].
Qed.

(* ---------- the transform and its inverse ---------- *)

Lemma transform_back f p : In p grid -> ifft n1 n2 n3 (fft_re n1 n2 n3 f) (fft_im n1 n2 n3 f) p = f p.
Proof.
  intros P. unfold ifft, fft_re, fft_im. change (INR n1 * INR n2 * INR n3) with V. pose proof vol_pos as VP.
  rewrite (suml_ext _ (fun k => suml (fun q => f q * (cos (ph q k) * cos (ph p k) + sin (ph q k) * sin (ph p k))) grid)).
  - rewrite suml_exchange. rewrite (suml_ext _ (fun q => V * (f q * (if site_dec q p then 1 else 0)))).
    + rewrite suml_scal, suml_pick by (try apply NoDup_sites; assumption). field. lra.
    + intros q Q. rewrite suml_scal, suml_plus, cc, ss, same_eq by assumption. field.
  - intros k _. rewrite (Rmult_comm (suml _ _) (cos _)), (Rmult_comm (suml _ _) (sin _)), <- !suml_scal, <- suml_minus. apply suml_ext. intros q _. rewrite (phase_swap n1 n2 n3 k q), (phase_swap n1 n2 n3 k p). ring.
Qed.

(* Coefficients that come in conjugate pairs, as those of real fields do. *)
Definition conjugate (re im : site -> R) : Prop := forall k, In k grid -> re (opposite k) = re k /\ im (opposite k) = - im k.

Lemma back_transform re im k : conjugate re im -> In k grid -> fft_re n1 n2 n3 (ifft n1 n2 n3 re im) k = re k /\ fft_im n1 n2 n3 (ifft n1 n2 n3 re im) k = im k.
Proof.
  intros C K. unfold ifft, fft_re, fft_im. change (INR n1 * INR n2 * INR n3) with V. pose proof vol_pos as VP. destruct (C k K) as [CR CI]. pose proof (opposite_in k K) as OK.
  split.
  - rewrite (suml_ext _ (fun p => suml (fun q => / V * (re q * (cos (ph q p) * cos (ph k p)) - im q * (sin (ph q p) * cos (ph k p)))) grid)).
    2: { intros p _. rewrite suml_scal. rewrite Rmult_assoc, (Rmult_comm (suml _ _)), <- suml_scal. f_equal. apply suml_ext. intros q _. ring. }
    rewrite suml_exchange. rewrite (suml_ext _ (fun q => / 2 * (re q * (if site_dec q k then 1 else 0)) + / 2 * (re q * (if site_dec q (opposite k) then 1 else 0)))).
    + rewrite suml_plus, !suml_scal, !suml_pick by (try apply NoDup_sites; assumption). rewrite CR. field.
    + intros q Q. rewrite suml_scal, suml_minus, !suml_scal, cc, sc, same_eq, opposed_eq by assumption. field. lra.
  - rewrite (suml_ext _ (fun p => suml (fun q => / V * (im q * (sin (ph q p) * sin (ph k p)) - re q * (sin (ph k p) * cos (ph q p)))) grid)).
    2: { intros p _. rewrite suml_scal. replace (- (/ V * suml (fun k0 => re k0 * cos (ph k0 p) - im k0 * sin (ph k0 p)) grid * sin (ph k p))) with (/ V * (- sin (ph k p) * suml (fun k0 => re k0 * cos (ph k0 p) - im k0 * sin (ph k0 p)) grid)) by ring. rewrite <- suml_scal. f_equal. apply suml_ext. intros q _. ring. }
    rewrite suml_exchange. rewrite (suml_ext _ (fun q => / 2 * (im q * (if site_dec q k then 1 else 0)) - / 2 * (im q * (if site_dec q (opposite k) then 1 else 0)))).
    + rewrite suml_minus, !suml_scal, !suml_pick by (try apply NoDup_sites; assumption). rewrite CI. field.
    + intros q Q. rewrite suml_scal, suml_minus, !suml_scal, ss, sc, same_eq, opposed_eq by assumption. field. lra.
Qed.

Lemma phase_opposite k p : In k grid -> exists m, ph (opposite k) p = - ph k p + 2 * IZR m * PI.
Proof.
  intros K. destruct k as [[a b] c]. apply in_sites in K. destruct K as (A & B & C).
  assert (H : whole n1 n2 n3 (zx (opposite (a, b, c)) + zx (a, b, c)) (zy (opposite (a, b, c)) + zy (a, b, c)) (zz (opposite (a, b, c)) + zz (a, b, c))).
  { unfold whole, opposite. cbn [zx zy zz]. split; [|split]; apply sum_whole; try assumption; try reflexivity; apply Nat.mod_upper_bound; lia. }
  destruct (angle_whole n1 n2 n3 _ _ _ p N1 N2 N3 H) as (q & Q). rewrite <- angle_plus in Q. exists q. rewrite !phase_angle. lra.
Qed.

Lemma fft_conjugate f : conjugate (fft_re n1 n2 n3 f) (fft_im n1 n2 n3 f).
Proof.
  intros k K. unfold fft_re, fft_im. split.
  - apply suml_ext. intros p _. destruct (phase_opposite k p K) as (m & ->). rewrite cos_2Z, cos_neg. reflexivity.
  - replace (- suml (fun p => - (f p * sin (ph k p))) grid) with (-1 * suml (fun p => - (f p * sin (ph k p))) grid) by ring. rewrite <- suml_scal.
    apply suml_ext. intros p _. destruct (phase_opposite k p K) as (m & ->). rewrite sin_2Z, sin_neg. ring.
Qed.

(* The mean is the coefficient at frequency zero. *)
Lemma sum_ifft re im : suml (ifft n1 n2 n3 re im) grid = re (0, 0, 0)%nat.
Proof.
  unfold ifft. change (INR n1 * INR n2 * INR n3) with V. pose proof vol_pos as VP. rewrite suml_scal, suml_exchange.
  assert (Z : In (0, 0, 0)%nat grid) by (apply in_sites; lia).
  assert (P0 : forall p, ph (0, 0, 0)%nat p = 0) by (intros [[x y] z]; unfold phase; rewrite !Nat.mul_0_l; cbn [INR]; unfold Rdiv; ring).
  rewrite (suml_ext _ (fun q => V * (re q * (if site_dec q (0, 0, 0)%nat then 1 else 0)))).
  - rewrite suml_scal, suml_pick by (try apply NoDup_sites; assumption). field. lra.
  - intros q Q. rewrite suml_minus, !suml_scal.
    rewrite (suml_ext (fun p => cos (ph q p)) (fun p => cos (ph q p - ph (0, 0, 0)%nat p + 0))) by (intros; rewrite P0; f_equal; ring).
    rewrite (suml_ext (fun p => sin (ph q p)) (fun p => sin (ph q p) * cos (ph (0, 0, 0)%nat p))) by (intros; rewrite P0, cos_0; ring).
    rewrite sum_minus, sc, cos_0, same_eq by assumption. ring.
Qed.
End Products.

(* ---------- the points in one list ---------- *)

Lemma nth_error_blocks {B} (g : nat -> list B) L n : forall s i k, (forall a, length (g a) = L) -> (i < L)%nat -> (k < n)%nat -> nth_error (flat_map g (seq s n)) (i + L * k) = nth_error (g (s + k)%nat) i.
Proof.
  induction n as [|n IH]; intros s i k G I K; [lia|]. cbn [seq flat_map]. destruct k as [|k].
  - rewrite Nat.mul_0_r, !Nat.add_0_r. apply nth_error_app1. rewrite G. exact I.
  - rewrite nth_error_app2 by (rewrite G; lia). rewrite G. replace (i + L * S k - L)%nat with (i + L * k)%nat by lia. rewrite IH by (assumption || lia). f_equal. f_equal. lia.
Qed.

Lemma flat_map_length_const {B} (g : nat -> list B) L l : (forall a, length (g a) = L) -> length (flat_map g l) = (L * length l)%nat.
Proof. intros G. induction l as [|a l IH]; [cbn; lia|]. cbn [flat_map length]. rewrite app_length, G, IH. lia. Qed.

Lemma nth_sites n1 n2 n3 p : In p (sites n1 n2 n3) -> nth_error (sites n1 n2 n3) (place n1 n2 p) = Some p.
Proof.
  destruct p as [[x y] z]. rewrite in_sites. intros (X & Y & Z). unfold sites, place.
  assert (LX : forall y z : nat, length (map (fun x : nat => (x, y, z)) (seq 0 n1)) = n1) by (intros; rewrite map_length, seq_length; reflexivity).
  assert (LY : forall z : nat, length (flat_map (fun y => map (fun x : nat => (x, y, z)) (seq 0 n1)) (seq 0 n2)) = (n1 * n2)%nat) by (intros; rewrite (flat_map_length_const _ n1) by (intros; apply LX); rewrite seq_length; reflexivity).
  replace (x + n1 * (y + n2 * z))%nat with ((x + n1 * y) + n1 * n2 * z)%nat by ring.
  rewrite (nth_error_blocks (fun z => flat_map (fun y => map (fun x : nat => (x, y, z)) (seq 0 n1)) (seq 0 n2)) (n1 * n2)); [|exact LY|nia|exact Z].
  rewrite (nth_error_blocks (fun y => map (fun x : nat => (x, y, (0 + z)%nat)) (seq 0 n1)) n1); [|intros; apply LX|exact X|exact Y].
  rewrite nth_error_map, (nth_error_nth' _ 0%nat) by (rewrite seq_length; exact X). rewrite seq_nth by exact X. reflexivity.
Qed.
