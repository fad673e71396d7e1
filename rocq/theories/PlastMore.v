(** More proofs about the strength models: elastic response, return to the yield surface, isotropy, the
    axisymmetric version and counterexamples. *)
From Coq Require Import Reals List Lia Lra Psatz Setoid Morphisms.
From Verif Require Import BaseArr BaseReal SghModel RzModel PlastModel PlastSpec PlastProofs.
Import ListNotations.
Open Scope R_scope.

#[global] Instance same_equiv : Equivalence same.
Proof.
  split.
  - intros a i j _ _. reflexivity.
  - intros a b H i j Hi Hj. symmetry. apply H; assumption.
  - intros a b c H K i j Hi Hj. rewrite H, K by assumption. reflexivity.
Qed.
#[global] Instance times_proper : Proper (same ==> same ==> same) times.
Proof. intros a a' Ha b b' Hb i j Hi Hj. unfold times. apply sum3_ext. intros k Hk. rewrite Ha, Hb by assumption. reflexivity. Qed.
#[global] Instance transposed_proper : Proper (same ==> same) transposed.
Proof. intros a a' Ha i j Hi Hj. unfold transposed. apply Ha; assumption. Qed.
#[global] Instance turned_proper : Proper (same ==> same ==> same) turned.
Proof. intros q q' Hq t t' Ht. unfold turned. rewrite Hq, Ht. reflexivity. Qed.

Lemma times_assoc a b c : same (times a (times b c)) (times (times a b) c).
Proof. intros i j _ _. unfold times, sum3. ring. Qed.
Lemma times_ident_l a : same (times ident a) a.
Proof. intros i j Hi Hj. unfold times, sum3, ident. cases3 Hi; cbn [Nat.eqb]; ring. Qed.
Lemma times_ident_r a : same (times a ident) a.
Proof. intros i j Hi Hj. unfold times, sum3, ident. cases3 Hj; cbn [Nat.eqb]; ring. Qed.
Lemma transposed_times a b : same (transposed (times a b)) (times (transposed b) (transposed a)).
Proof. intros i j _ _. unfold transposed, times, sum3. ring. Qed.

Section Turn.
  Variable q : ten.
  Hypothesis Hq : orthogonal q.

  Lemma turned_times a b : same (times (turned q a) (turned q b)) (turned q (times a b)).
  Proof.
    unfold turned. rewrite <- !times_assoc. rewrite (times_assoc (transposed q) q (times b (transposed q))).
    rewrite (proj1 Hq), times_ident_l. reflexivity.
  Qed.
  Lemma turned_transposed a : same (transposed (turned q a)) (turned q (transposed a)).
  Proof.
    unfold turned. rewrite !transposed_times. rewrite <- times_assoc.
    assert (E : same (transposed (transposed q)) q) by (intros i j _ _; reflexivity). rewrite E. reflexivity.
  Qed.
  Lemma turned_ident : same (turned q ident) ident.
  Proof. unfold turned. rewrite times_ident_l. exact (proj2 Hq). Qed.
  Lemma trace_ext a b : same a b -> trace a = trace b.
  Proof. intros H. unfold trace. apply sum3_ext. intros i Hi. apply H; assumption. Qed.
  Lemma trace_times a b : trace (times a b) = trace (times b a).
  Proof. unfold trace, times, sum3. ring. Qed.
  Lemma trace_turned a : trace (turned q a) = trace a.
  Proof.
    unfold turned. rewrite trace_times. apply trace_ext. rewrite <- times_assoc, (proj1 Hq). apply times_ident_r.
  Qed.
  Lemma dot_trace a b : dot a b = trace (times a (transposed b)).
  Proof. unfold dot, trace, times, transposed, sum3. ring. Qed.
  Lemma dot_turned a b : dot (turned q a) (turned q b) = dot a b.
  Proof.
    rewrite !dot_trace. rewrite <- (trace_turned (times a (transposed b))). apply trace_ext.
    rewrite turned_transposed. apply turned_times.
  Qed.
  Lemma turned_lin a b c d : same (turned q (fun i j => c * a i j + d * b i j)) (fun i j => c * turned q a i j + d * turned q b i j).
  Proof. intros i j _ _. unfold turned, times, transposed, sum3. ring. Qed.
  Lemma turned_scale a c : same (turned q (fun i j => a i j * c)) (fun i j => turned q a i j * c).
  Proof. intros i j _ _. unfold turned, times, transposed, sum3. ring. Qed.
End Turn.

Lemma jaumann_elastic G g s : same (jaumann G g s) (elastic_rate G g s).
Proof.
  intros i k Hi Hk. unfold jaumann, elastic_rate, dev_strain_rate, strain_rate, spin_of, times. rewrite sumn3, divg_trace.
  unfold Dpart, Wpart, eye, sum3. rewrite half_eq. destruct (Nat.eqb i k); field.
Qed.

Lemma elastic_lin G g s : same (elastic_rate G g s)
  (fun i j => G * (g i j + transposed g i j) + (- (2 * G * trace g / 3)) * ident i j
     + / 2 * (times g s i j - times (transposed g) s i j) - / 2 * (times s g i j - times s (transposed g) i j)).
Proof.
  intros i j Hi Hj. unfold elastic_rate, dev_strain_rate, strain_rate, spin_of, times, transposed, ident, sum3.
  destruct (Nat.eqb i j); field.
Qed.

(** linear combinations of turned tensors, as needed below *)
Lemma turned_comb q (a1 a2 a3 a4 a5 a6 a7 : ten) c1 c2 c3 :
  same (turned q (fun i j => c1 * (a1 i j + a2 i j) + c2 * a3 i j + c3 * (a4 i j - a5 i j) - c3 * (a6 i j - a7 i j)))
    (fun i j => c1 * (turned q a1 i j + turned q a2 i j) + c2 * turned q a3 i j
       + c3 * (turned q a4 i j - turned q a5 i j) - c3 * (turned q a6 i j - turned q a7 i j)).
Proof. intros i j _ _. unfold turned, times, transposed, sum3. ring. Qed.

Lemma elastic_turned q G g s : orthogonal q -> same (elastic_rate G (turned q g) (turned q s)) (turned q (elastic_rate G g s)).
Proof.
  intros Hq. rewrite (elastic_lin G g s), turned_comb, elastic_lin, (trace_turned q Hq).
  assert (A : same (transposed (turned q g)) (turned q (transposed g))) by apply turned_transposed.
  assert (B : same (times (turned q g) (turned q s)) (turned q (times g s))) by (apply turned_times, Hq).
  assert (C : same (times (turned q s) (turned q g)) (turned q (times s g))) by (apply turned_times, Hq).
  assert (D : same (times (transposed (turned q g)) (turned q s)) (turned q (times (transposed g) s)))
    by (rewrite A; apply turned_times, Hq).
  assert (E : same (times (turned q s) (transposed (turned q g))) (turned q (times s (transposed g))))
    by (rewrite A; apply turned_times, Hq).
  assert (F : same ident (turned q ident)) by (symmetry; apply turned_ident, Hq).
  intros i j Hi Hj. rewrite (A i j Hi Hj), (B i j Hi Hj), (C i j Hi Hj), (D i j Hi Hj), (E i j Hi Hj), (F i j Hi Hj). reflexivity.
Qed.

Lemma elastic_ext G g g' s s' : same g g' -> same s s' -> same (elastic_rate G g s) (elastic_rate G g' s').
Proof.
  intros Hg Hs. rewrite !elastic_lin. pose proof (trace_ext _ _ Hg) as T.
  intros i j Hi Hj. rewrite T.
  rewrite (times_proper _ _ Hg _ _ Hs i j Hi Hj), (times_proper _ _ Hs _ _ Hg i j Hi Hj).
  rewrite (times_proper _ _ (transposed_proper _ _ Hg) _ _ Hs i j Hi Hj), (times_proper _ _ Hs _ _ (transposed_proper _ _ Hg) i j Hi Hj).
  rewrite (transposed_proper _ _ Hg i j Hi Hj), (Hg i j Hi Hj). reflexivity.
Qed.

Lemma mises_ext a b : same a b -> mises_sq a = mises_sq b.
Proof. intros H. unfold mises_sq. rewrite (dot_ext a a b b H H). reflexivity. Qed.

Lemma factor_ext Y a b : mises_sq a = mises_sq b -> yield_factor Y a = yield_factor Y b.
Proof. intros H. unfold yield_factor. rewrite !J2_dot, H. reflexivity. Qed.

Lemma scale_back_ext Y a b : same a b -> same (scale_back Y a) (scale_back Y b).
Proof.
  intros H i j Hi Hj. unfold scale_back. rewrite (factor_ext Y a b (mises_ext _ _ H)), (H i j) by assumption. reflexivity.
Qed.

Lemma trial_elastic G a dt g sn s : same (trial G a dt g sn s) (advanced (a * dt) sn (elastic_rate G g s)).
Proof. intros i j Hi Hj. unfold trial, advanced. rewrite (jaumann_elastic G g s i j Hi Hj). reflexivity. Qed.

Lemma scale_back_turned q Y t : orthogonal q -> same (scale_back Y (turned q t)) (turned q (scale_back Y t)).
Proof.
  intros Hq. assert (E : mises_sq (turned q t) = mises_sq t) by (unfold mises_sq; rewrite dot_turned by exact Hq; reflexivity).
  intros i j Hi Hj. unfold scale_back at 1. rewrite (factor_ext Y _ _ E).
  destruct (Rlt_dec (yield_factor Y t) 1) as [K|K].
  - transitivity (turned q (fun i j => t i j * yield_factor Y t) i j).
    + symmetry. apply (turned_scale q t (yield_factor Y t)); assumption.
    + apply turned_proper; [reflexivity| |assumption|assumption]. intros k l _ _. unfold scale_back.
      destruct (Rlt_dec (yield_factor Y t) 1); [reflexivity|contradiction].
  - apply turned_proper; [reflexivity| |assumption|assumption]. intros k l _ _. unfold scale_back.
    destruct (Rlt_dec (yield_factor Y t) 1); [contradiction|reflexivity].
Qed.

Theorem hypo_turned q G Y a dt g sn s : orthogonal q ->
  same (hypo_plastic G Y a dt (turned q g) (turned q sn) (turned q s)) (turned q (hypo_plastic G Y a dt g sn s)).
Proof.
  intros Hq. unfold hypo_plastic. rewrite <- scale_back_turned by exact Hq. apply scale_back_ext.
  rewrite !trial_elastic. intros i j Hi Hj. unfold advanced at 1. rewrite (elastic_turned q G g s Hq i j Hi Hj).
  unfold advanced, turned, times, transposed, sum3. ring.
Qed.

(** inside the yield surface *)
Theorem hypo_elastic G Y a dt g sn s : 0 <= Y ->
  mises_sq (advanced (a * dt) sn (elastic_rate G g s)) + 1e-16 <= Y * Y ->
  same (hypo_plastic G Y a dt g sn s) (advanced (a * dt) sn (elastic_rate G g s)).
Proof.
  intros HY H i j Hi Hj. unfold hypo_plastic. rewrite scale_back_inside; [apply trial_elastic; assumption|exact HY|].
  rewrite (mises_ext _ _ (trial_elastic G a dt g sn s)). exact H.
Qed.

(** radial return *)
Theorem hypo_return G Y a dt g sn s : 0 <= Y ->
  let t := advanced (a * dt) sn (elastic_rate G g s) in
  Y * Y < mises_sq t ->
  exists c, 0 <= c < 1 /\ same (hypo_plastic G Y a dt g sn s) (fun i j => c * t i j) /\
    Y * Y - 1e-16 <= mises_sq (hypo_plastic G Y a dt g sn s) <= Y * Y.
Proof.
  intros HY t H. set (u := trial G a dt g sn s).
  assert (E : same u t) by apply trial_elastic. assert (Em : mises_sq u = mises_sq t) by apply (mises_ext _ _ E).
  pose proof (factor_sq Y u) as Q. pose proof (factor_range Y u HY) as F. pose proof fuzz_pos as Z.
  rewrite <- Em in H. pose proof (mises_nonneg u) as N.
  assert (L : yield_factor Y u < 1).
  { destruct (Rlt_dec (yield_factor Y u) 1) as [K|K]; [exact K|exfalso]. apply Rnot_lt_le in K.
    assert (1 <= yield_factor Y u * yield_factor Y u) by nra. nra. }
  exists (yield_factor Y u). split; [lra|]. split; [|split].
  - intros i j Hi Hj. unfold hypo_plastic, scale_back. fold u. destruct (Rlt_dec (yield_factor Y u) 1); [|contradiction].
    rewrite (E i j Hi Hj). ring.
  - unfold hypo_plastic, scale_back. fold u. destruct (Rlt_dec (yield_factor Y u) 1); [|contradiction].
    rewrite (mises_scale (yield_factor Y u) u). change (1e-16) with fuzz.
    assert (yield_factor Y u * yield_factor Y u <= 1) by nra. nra.
  - apply scale_back_within, HY.
Qed.

(** the stress taken away by the return never does negative work on the stress that stays *)
Theorem hypo_work G Y a dt g sn s : 0 <= Y ->
  let t := advanced (a * dt) sn (elastic_rate G g s) in let r := hypo_plastic G Y a dt g sn s in
  0 <= dot (fun i j => t i j - r i j) r.
Proof.
  intros HY t r. set (u := trial G a dt g sn s). assert (E : same u t) by apply trial_elastic.
  assert (E2 : dot (fun i j => t i j - r i j) r = dot (fun i j => u i j - r i j) r).
  { apply dot_ext; [|reflexivity]. intros i j Hi Hj. rewrite (E i j Hi Hj). reflexivity. }
  rewrite E2. unfold r, hypo_plastic, scale_back. fold u.
  pose proof (factor_range Y u HY) as F. pose proof (dot_nonneg u) as N.
  destruct (Rlt_dec (yield_factor Y u) 1) as [L|L].
  - set (c := yield_factor Y u) in *. clearbody c.
    replace (dot (fun i j => u i j - u i j * c) (fun i j => u i j * c)) with ((1 - c) * c * dot u u)
      by (unfold dot, sum3; ring).
    apply Rmult_le_pos; [nra|exact N].
  - right. unfold dot, sum3. ring.
Qed.

(** uniform expansion or compression *)
Lemma dilatation_rate G c s : same (elastic_rate G (fun i j => if Nat.eqb i j then c else 0) s) zero_ten.
Proof.
  intros i j Hi Hj. unfold elastic_rate, dev_strain_rate, strain_rate, spin_of, times, trace, sum3, zero_ten.
  cases3 Hi; cases3 Hj; cbn [Nat.eqb]; field.
Qed.

(** rigid rotation *)
Lemma rotation_rate G g s : antisymmetric g -> symmetric s -> dot s (elastic_rate G g s) = 0.
Proof.
  intros Hg Hs. unfold dot, elastic_rate, dev_strain_rate, strain_rate, spin_of, times, trace, sum3. cbn [Nat.eqb].
  pose proof (Hg 0%nat 0%nat ltac:(lia) ltac:(lia)) as A0. pose proof (Hg 1%nat 1%nat ltac:(lia) ltac:(lia)) as A1.
  pose proof (Hg 2%nat 2%nat ltac:(lia) ltac:(lia)) as A2.
  assert (B0 : g 0%nat 0%nat = 0) by lra. assert (B1 : g 1%nat 1%nat = 0) by lra. assert (B2 : g 2%nat 2%nat = 0) by lra.
  rewrite B0, B1, B2, (Hg 1%nat 0%nat), (Hg 2%nat 0%nat), (Hg 2%nat 1%nat), (Hs 1%nat 0%nat), (Hs 2%nat 0%nat), (Hs 2%nat 1%nat) by lia.
  field.
Qed.

(** ** the axisymmetric version *)
Lemma hypo_rz_sym G Y a dt g sn s : symmetric (hypo_plastic_rz G Y a dt g sn s).
Proof. intros i j Hi Hj. unfold hypo_plastic_rz. cases3 Hi; cases3 Hj; reflexivity. Qed.

Lemma hypo_rz_axi G Y a dt g sn s : axisymmetric (hypo_plastic_rz G Y a dt g sn s).
Proof. repeat split. Qed.

Lemma trial_rz_sym G a dt g sn s : symmetric sn -> symmetric s ->
  trial_rz G a dt g sn s 1%nat 0%nat = trial_rz G a dt g sn s 0%nat 1%nat.
Proof.
  intros A B. unfold trial_rz, wilkins_rate, deviator, Dpart, Wpart. cbn [Nat.eqb]. rewrite half_eq.
  rewrite (A 1%nat 0%nat), (B 1%nat 0%nat) by lia. field.
Qed.

Lemma within_scaled Y t : 0 <= Y -> t 1%nat 0%nat = t 0%nat 1%nat ->
  let r := scaled_rz Y t in
  r 0%nat 0%nat * r 0%nat 0%nat + r 1%nat 1%nat * r 1%nat 1%nat + r 2%nat 2%nat * r 2%nat 2%nat + 2 * (r 0%nat 1%nat * r 0%nat 1%nat)
    <= 2 / 3 * (Y * Y).
Proof.
  intros HY Es. cbv zeta. unfold scaled_rz. rewrite !contraction_dot. pose proof fuzz_pos as Z. pose proof (dot_nonneg t) as N.
  assert (B : t 0%nat 0%nat * t 0%nat 0%nat + t 1%nat 1%nat * t 1%nat 1%nat + t 2%nat 2%nat * t 2%nat 2%nat + 2 * (t 0%nat 1%nat * t 0%nat 1%nat)
    <= dot t t).
  { unfold dot, sum3. rewrite Es.
    pose proof (Rle_0_sqr (t 0%nat 2%nat)) as Q1. pose proof (Rle_0_sqr (t 1%nat 2%nat)) as Q2.
    pose proof (Rle_0_sqr (t 2%nat 0%nat)) as Q3. pose proof (Rle_0_sqr (t 2%nat 1%nat)) as Q4. unfold Rsqr in *. lra. }
  destruct (Rlt_dec 0 (dot t t - 2 / 3 * (Y * Y))) as [K|K].
  - set (f := sqrt (2 / 3) * Y / sqrt (dot t t + fuzz)).
    assert (F : f * f * (dot t t + fuzz) = 2 / 3 * (Y * Y)).
    { unfold f. pose proof (sqrt_sqrt (2 / 3) ltac:(lra)) as S1. assert (P : 0 < dot t t + fuzz) by lra.
      pose proof (sqrt_sqrt (dot t t + fuzz) (Rlt_le _ _ P)) as S2. pose proof (sqrt_lt_R0 _ P) as S3.
      set (p := sqrt (2 / 3)) in *. set (q := sqrt (dot t t + fuzz)) in *. clearbody p q. rewrite <- S1, <- S2. field. lra. }
    clearbody f.
    replace (t 0%nat 0%nat * f * (t 0%nat 0%nat * f) + t 1%nat 1%nat * f * (t 1%nat 1%nat * f) + t 2%nat 2%nat * f * (t 2%nat 2%nat * f) +
      2 * (t 0%nat 1%nat * f * (t 0%nat 1%nat * f))) with
      (f * f * (t 0%nat 0%nat * t 0%nat 0%nat + t 1%nat 1%nat * t 1%nat 1%nat + t 2%nat 2%nat * t 2%nat 2%nat + 2 * (t 0%nat 1%nat * t 0%nat 1%nat))) by ring.
    rewrite <- F. assert (0 <= f * f) by apply Rle_0_sqr. apply Rmult_le_compat_l; [assumption|lra].
  - lra.
Qed.

Theorem hypo_rz_admissible G Y a dt g sn s : 0 <= Y -> symmetric sn -> symmetric s ->
  admissible_rz Y (hypo_plastic_rz G Y a dt g sn s).
Proof.
  intros HY A B. split; [apply hypo_rz_sym|]. split; [apply hypo_rz_axi|].
  pose proof (within_scaled Y _ HY (trial_rz_sym G a dt g sn s A B)) as W. cbv zeta in W.
  unfold within_yield, mises_sq, dot, sum3, hypo_plastic_rz. cbv zeta. lra.
Qed.

Lemma admissible_rz_zero Y : admissible_rz Y (fun _ _ => 0).
Proof. repeat split. unfold within_yield, mises_sq, dot, sum3. nra. Qed.

Lemma admissible_rz_ext Y a b : same a b -> admissible_rz Y a -> admissible_rz Y b.
Proof.
  intros E (S & (T1 & T2 & T3 & T4) & W). repeat split.
  - intros i j Hi Hj. rewrite <- !E by assumption. apply S; assumption.
  - rewrite <- E by lia. exact T1.
  - rewrite <- E by lia. exact T2.
  - rewrite <- E by lia. exact T3.
  - rewrite <- E by lia. exact T4.
  - unfold within_yield, mises_sq in *. rewrite <- (dot_ext a a b b E E). exact W.
Qed.

Lemma deviator_id t : trace t = 0 -> forall i j, deviator t i j = t i j.
Proof.
  intros H i j. unfold deviator. destruct (Nat.eqb i j); [|reflexivity]. rewrite sumn3.
  change (sum3 (fun k => t k k)) with (trace t). rewrite H. lra.
Qed.

(** a material at rest keeps its stress *)
Theorem hypo_rz_hold G Y a dt sn s : symmetric sn -> axisymmetric sn -> trace sn = 0 -> within_yield Y sn ->
  same (hypo_plastic_rz G Y a dt zero_ten sn s) sn.
Proof.
  intros S (A1 & A2 & A3 & A4) T W.
  assert (E : forall i j, (i < 3)%nat -> (j < 3)%nat -> trial_rz G a dt zero_ten sn s i j = sn i j).
  { intros i j Hi Hj. unfold trial_rz. rewrite (deviator_id sn T).
    unfold wilkins_rate, Dpart, Wpart, zero_ten, divg, eye. rewrite sumn3. unfold sum3.
    cases3 Hi; cases3 Hj; cbn [Nat.eqb]; rewrite ?half_eq; field. }
  assert (C : contraction (trial_rz G a dt zero_ten sn s) = dot sn sn).
  { rewrite contraction_dot. apply dot_ext; intros i j Hi Hj; apply E; assumption. }
  unfold within_yield, mises_sq in W.
  intros i j Hi Hj. unfold hypo_plastic_rz, scaled_rz. rewrite C.
  destruct (Rlt_dec 0 (dot sn sn - 2 / 3 * (Y * Y))) as [K|K]; [lra|].
  cases3 Hi; cases3 Hj; rewrite ?E by lia; try reflexivity; try (symmetry; assumption). apply S; lia.
Qed.

(** the hoop stress follows Hooke's law while the material does not yield *)
Lemma trial_rz_hoop G a dt g sn s : trial_rz G a dt g sn s 2%nat 2%nat =
  sn 2%nat 2%nat - trace sn / 3 + a * dt * (2 * G * dev_strain_rate g 2%nat 2%nat).
Proof.
  unfold trial_rz, wilkins_rate, deviator, Dpart, dev_strain_rate, strain_rate. rewrite divg_trace, sumn3. cbn [Nat.eqb].
  change (sum3 (fun k => sn k k)) with (trace sn). unfold eye. cbn [Nat.eqb]. rewrite half_eq. field.
Qed.

(** from an unstressed state: Hooke's law for the normal components, half of it for the shear component *)
Lemma trial_rz_unstressed G a dt g i j : (i < 2)%nat -> (j < 2)%nat ->
  trial_rz G a dt g zero_ten zero_ten i j = a * dt * ((if Nat.eqb i j then 2 else 1) * G * dev_strain_rate g i j).
Proof.
  intros Hi Hj. unfold trial_rz, wilkins_rate, deviator, Dpart, Wpart, dev_strain_rate, strain_rate, zero_ten.
  rewrite divg_trace, sumn3. unfold sum3, eye.
  destruct i as [|[|i]]; [| |lia]; (destruct j as [|[|j]]; [| |lia]); cbn [Nat.eqb]; rewrite half_eq; field.
Qed.

Theorem hypo_rz_unstressed G Y a dt g : dot (trial_rz G a dt g zero_ten zero_ten) (trial_rz G a dt g zero_ten zero_ten) <= 2 / 3 * (Y * Y) ->
  forall i j, (i < 2)%nat -> (j < 2)%nat ->
  hypo_plastic_rz G Y a dt g zero_ten zero_ten i j = a * dt * ((if Nat.eqb i j then 2 else 1) * G * dev_strain_rate g i j).
Proof.
  intros H i j Hi Hj. unfold hypo_plastic_rz, scaled_rz. rewrite contraction_dot.
  set (t := trial_rz G a dt g zero_ten zero_ten) in *.
  destruct (Rlt_dec 0 (dot t t - 2 / 3 * (Y * Y))) as [K|K]; [lra|].
  destruct i as [|[|i]]; [| |lia]; (destruct j as [|[|j]]; [| |lia]); try (unfold t; apply trial_rz_unstressed; lia).
  unfold t. rewrite <- (trial_rz_sym G a dt g zero_ten zero_ten); [apply trial_rz_unstressed; lia| |]; intros ? ? _ _; reflexivity.
Qed.

(** ** Runs, with a hypothesis on the stress handed over only *)
Section RunsFrom.
  Variable P : tensor -> Prop.
  Hypothesis P_zero : P (fun _ _ => 0).
  Variables (L : layout) (mat : nat).
  Definition now_ok (s : sgh) : Prop := forall sid, (sid < num_mat_elems L mat)%nat -> P (s_stress s mat sid).

  Lemma start_now s : now_ok s -> stress_ok P L mat (set_start s).
  Proof. intros H sid Hs. cbn [s_stress s_stress0 set_start]. split; apply H, Hs. Qed.

  Lemma step_now m Ms N dt s : (forall k, (k < N)%nat -> keeps P L mat (Ms k)) -> now_ok s -> now_ok (rk_step m L Ms N dt s).
  Proof.
    intros K H sid Hs. apply (fold_ok P L mat (fun s k => rk_stage m L (Ms k) (rk_alpha N k) dt s) (seq 0 N) (set_start s)).
    - intros s' k Hk H'. apply stage_ok; [exact P_zero| |exact H']. apply K. apply in_seq in Hk. lia.
    - apply start_now, H.
    - exact Hs.
  Qed.
  Lemma run_now m N cycles s : (forall dt Ms k, In (dt, Ms) cycles -> (k < N)%nat -> keeps P L mat (Ms k)) -> now_ok s ->
    now_ok (run m L N cycles s).
  Proof.
    unfold run. revert s. induction cycles as [|(dt & Ms) l IH]; intros s K H; cbn [fold_left]; [exact H|].
    apply IH; [intros; eapply K; [right; eassumption|assumption]|].
    apply step_now; [|exact H]. intros k Hk. exact (K dt Ms k (or_introl eq_refl) Hk).
  Qed.
  Lemma step_rz_now m Ms tiny ext N dt s : (forall k, (k < N)%nat -> keeps P L mat (Ms k)) -> now_ok s ->
    now_ok (rk_step_rz m L Ms tiny ext N dt s).
  Proof.
    intros K H sid Hs. apply (fold_ok P L mat (fun s k => rk_stage_rz m L (Ms k) tiny ext (rk_alpha N k) dt s) (seq 0 N) (set_start s)).
    - intros s' k Hk H'. apply stage_rz_ok; [exact P_zero| |exact H']. apply K. apply in_seq in Hk. lia.
    - apply start_now, H.
    - exact Hs.
  Qed.
  Lemma run_rz_now m tiny ext N cycles s : (forall dt Ms k, In (dt, Ms) cycles -> (k < N)%nat -> keeps P L mat (Ms k)) -> now_ok s ->
    now_ok (run_rz m L tiny ext N cycles s).
  Proof.
    unfold run_rz. revert s. induction cycles as [|(dt & Ms) l IH]; intros s K H; cbn [fold_left]; [exact H|].
    apply IH; [intros; eapply K; [right; eassumption|assumption]|].
    apply step_rz_now; [|exact H]. intros k Hk. exact (K dt Ms k (or_introl eq_refl) Hk).
  Qed.
End RunsFrom.

Lemma plastic_keeps L G Y a dt M mat : 0 <= Y -> plastic_material L G Y a dt M mat -> keeps (admissible Y) L mat M.
Proof.
  intros HY (A & B & C). split; [exact A|]. split; [exact B|]. intros s sid _ (S & _ & _) (S0 & T0 & _).
  apply (admissible_ext Y (hypo_plastic G Y a dt (s_velgrad s (elem_in_mat L mat sid)) (s_stress0 s mat sid) (s_stress s mat sid))).
  - intros i j Hi Hj. symmetry. apply C; assumption.
  - apply hypo_admissible; assumption.
Qed.
Lemma plastic_rz_keeps L G Y a dt M mat : 0 <= Y -> plastic_material_rz L G Y a dt M mat -> keeps (admissible_rz Y) L mat M.
Proof.
  intros HY (A & B & C). split; [exact A|]. split; [exact B|]. intros s sid _ (S & _ & _) (S0 & _ & _).
  apply (admissible_rz_ext Y (hypo_plastic_rz G Y a dt (s_velgrad s (elem_in_mat L mat sid)) (s_stress0 s mat sid) (s_stress s mat sid))).
  - intros i j Hi Hj. symmetry. apply C; assumption.
  - apply hypo_rz_admissible; assumption.
Qed.

(** ** counterexamples *)
Definition pure (p r : R) : ten := fun i j =>
  match i, j with 0%nat, 0%nat => p | 1%nat, 1%nat => - p | 0%nat, 1%nat => r | 1%nat, 0%nat => r | _, _ => 0 end.

Lemma pure_spin G c p r : same (elastic_rate G (spin c) (pure p r)) (pure (2 * c * r) (- (2 * c * p))).
Proof.
  intros i j Hi Hj. unfold elastic_rate, dev_strain_rate, strain_rate, spin_of, times, trace, sum3, spin, pure.
  cases3 Hi; cases3 Hj; cbn [Nat.eqb]; field.
Qed.
Lemma pure_advanced h p r p' r' : same (advanced h (pure p r) (pure p' r')) (pure (p + h * p') (r + h * r')).
Proof. intros i j Hi Hj. unfold advanced, pure. cases3 Hi; cases3 Hj; ring. Qed.
Lemma pure_mises p r : mises_sq (pure p r) = 3 * (p * p + r * r).
Proof. unfold mises_sq, dot, sum3, pure. field. Qed.
Lemma advanced_ext h a a' b b' : same a a' -> same b b' -> same (advanced h a b) (advanced h a' b').
Proof. intros Ha Hb i j Hi Hj. unfold advanced. rewrite Ha, Hb by assumption. reflexivity. Qed.

(** one call for a pure state under a spin, well inside the yield surface *)
Lemma pure_call G Y a dt c p0 r0 p r s : 0 <= Y -> same s (pure p r) ->
  let p1 := p0 + a * dt * (2 * c * r) in let r1 := r0 + a * dt * (- (2 * c * p)) in
  3 * (p1 * p1 + r1 * r1) + 1e-16 <= Y * Y ->
  same (hypo_plastic G Y a dt (spin c) (pure p0 r0) s) (pure p1 r1).
Proof.
  intros HY Hs p1 r1 H.
  assert (E : same (advanced (a * dt) (pure p0 r0) (elastic_rate G (spin c) s)) (pure p1 r1)).
  { rewrite (advanced_ext _ _ (pure p0 r0) _ (pure (2 * c * r) (- (2 * c * p)))); [apply pure_advanced|reflexivity|].
    rewrite (elastic_ext G (spin c) (spin c) s (pure p r)); [apply pure_spin|reflexivity|exact Hs]. }
  rewrite hypo_elastic; [exact E|exact HY|]. rewrite (mises_ext _ _ E), pure_mises. exact H.
Qed.
