(* Lemmas for C141. *)
From Coq Require Import Reals List Lra Lia.
From Verif Require Import LimModel LimSpec.
Import ListNotations.
Local Open Scope R_scope.

Lemma eps_pos : 0 < eps. Proof. unfold eps. apply Rinv_0_lt_compat. apply pow_lt. lra. Qed.
Lemma highest_ok around : forall m, m <= highest m around /\ (forall hi, m <= hi -> (forall a, In a around -> a <= hi) -> highest m around <= hi).
Proof.
  unfold highest. induction around as [|b r IH]; intros m; cbn [fold_left]; [split; [lra|intros; assumption]|]. destruct (IH (if Rlt_dec m b then b else m)) as [I1 I2]. split.
  - destruct (Rlt_dec m b); lra.
  - intros hi Hm Ha. apply I2; [destruct (Rlt_dec m b); [apply Ha; left; reflexivity|exact Hm]|]. intros a Hin. apply Ha. right; exact Hin.
Qed.
Lemma lowest_ok around : forall m, lowest m around <= m /\ (forall lo, lo <= m -> (forall a, In a around -> lo <= a) -> lo <= lowest m around).
Proof.
  unfold lowest. induction around as [|b r IH]; intros m; cbn [fold_left]; [split; [lra|intros; assumption]|]. destruct (IH (if Rlt_dec b m then b else m)) as [I1 I2]. split.
  - destruct (Rlt_dec b m); lra.
  - intros lo Hm Ha. apply I2; [destruct (Rlt_dec b m); [apply Ha; left; reflexivity|exact Hm]|]. intros a Hin. apply Ha. right; exact Hin.
Qed.
Lemma ratio_pos lo hi avg v : 0 <= ratio_at lo hi avg v. Proof. unfold ratio_at. apply Rmax_r. Qed.
Lemma alpha_range k r : 0 <= r -> 0 <= alpha_of k r /\ (k <> Off -> alpha_of k r <= r \/ k = P0).
Proof.
  intros Hr. destruct k; cbn [alpha_of].
  - split; [apply Rmin_glb; lra|]. intros _. left. apply Rmin_l.
  - assert (Hd : 0 < r * r + r + 2) by nra. split; [apply Rmult_le_pos; [nra|left; apply Rinv_0_lt_compat, Hd]|]. intros _. left. apply (Rmult_le_reg_r (r * r + r + 2)); [exact Hd|]. unfold Rdiv. rewrite Rmult_assoc, Rinv_l by lra. assert (0 <= r * r * r) by (apply Rmult_le_pos; nra). nra.
  - split; [lra|right; reflexivity].
  - split; [lra|congruence].
Qed.
Lemma fold_min {A} (f : A -> R) l : forall m, 0 <= m -> (forall a, In a l -> 0 <= f a) ->
  0 <= fold_left (fun m a => Rmin m (f a)) l m /\ fold_left (fun m a => Rmin m (f a)) l m <= m /\ (forall a, In a l -> fold_left (fun m a => Rmin m (f a)) l m <= f a).
Proof.
  induction l as [|b r IH]; intros m Hm Hf; cbn [fold_left]; [split; [exact Hm|split; [lra|intros a []]]|].
  destruct (IH (Rmin m (f b))) as (I1 & I2 & I3); [apply Rmin_glb; [exact Hm|apply Hf; left; reflexivity]|intros a Ha; apply Hf; right; exact Ha|].
  pose proof (Rmin_l m (f b)). pose proof (Rmin_r m (f b)). split; [exact I1|]. split; [lra|]. intros a [<- | Ha]; [lra|apply I3, Ha].
Qed.
Lemma elem_alpha_ok k lo hi avg vs : 0 <= elem_alpha k lo hi avg vs <= 1 /\ forall v, In v vs -> elem_alpha k lo hi avg vs <= alpha_of k (ratio_at lo hi avg v).
Proof.
  unfold elem_alpha. destruct (fold_min (fun v => alpha_of k (ratio_at lo hi avg v)) vs 1) as (I1 & I2 & I3); [lra|intros v _; apply (alpha_range k _ (ratio_pos lo hi avg v))|]. split; [split; assumption|exact I3].
Qed.
(* a coefficient no larger than that of a point keeps it within the bounds *)
Lemma point_within k lo hi avg v a : k <> Off -> lo <= avg <= hi -> 0 <= a <= 1 -> a <= alpha_of k (ratio_at lo hi avg v) -> lo - eps <= limited avg a v <= hi + eps.
Proof.
  intros Hk Hb Ha Hal. pose proof eps_pos as He. destruct (alpha_range k (ratio_at lo hi avg v) (ratio_pos lo hi avg v)) as [_ Hr]. unfold limited.
  destruct (Hr Hk) as [Hr' | ->]; [|cbn [alpha_of] in Hal; assert (a = 0) by lra; subst a; lra].
  assert (Hra : a <= ratio_at lo hi avg v) by lra. clear Hr Hr' Hal. unfold ratio_at in Hra. cbv zeta in Hra.
  destruct (Rlt_dec eps (v - avg)) as [H1 | H1]; [|destruct (Rlt_dec (v - avg) (- eps)) as [H2 | H2]].
  - assert (Hq : 0 <= (hi - avg) / (v - avg)) by (apply Rmult_le_pos; [lra|left; apply Rinv_0_lt_compat; lra]). rewrite Rmax_left in Hra by exact Hq.
    assert (a * (v - avg) <= hi - avg). { apply (Rmult_le_compat_r (v - avg)) in Hra; [|lra]. unfold Rdiv in Hra. rewrite Rmult_assoc, Rinv_l in Hra by lra. lra. }
    assert (0 <= a * (v - avg)) by (apply Rmult_le_pos; lra). lra.
  - assert (Eq : (lo - avg) / (v - avg) = (avg - lo) / (avg - v)) by (field; lra). rewrite Eq in Hra.
    assert (Hq : 0 <= (avg - lo) / (avg - v)) by (apply Rmult_le_pos; [lra|left; apply Rinv_0_lt_compat; lra]). rewrite Rmax_left in Hra by exact Hq.
    assert (a * (avg - v) <= avg - lo). { apply (Rmult_le_compat_r (avg - v)) in Hra; [|lra]. unfold Rdiv in Hra. rewrite Rmult_assoc, Rinv_l in Hra by lra. lra. }
    assert (0 <= a * (avg - v)) by (apply Rmult_le_pos; lra). nra.
  - assert (- eps <= v - avg <= eps) by lra. assert (- eps <= a * (v - avg) <= eps) by (split; nra). lra.
Qed.

Lemma seq_In1 d i : (1 <= i <= d)%nat -> In i (seq 1 d). Proof. intros Hi. apply in_seq. lia. Qed.
Lemma point_alpha_ok k d lo hi avg p : 0 <= point_alpha k d lo hi avg p /\ forall i, (i <= d)%nat -> point_alpha k d lo hi avg p <= alpha_of k (ratio_at (lo i) (hi i) (avg i) (q_vel p i)).
Proof.
  unfold point_alpha. cbv zeta. set (f := fun i => alpha_of k (ratio_at (lo i) (hi i) (avg i) (q_vel p i))).
  assert (Hf : forall i, 0 <= f i) by (intros i; apply (alpha_range k _ (ratio_pos _ _ _ _))). destruct (fold_min f (seq 1 d) (f 0%nat) (Hf 0%nat) (fun i _ => Hf i)) as (I1 & I2 & I3).
  split; [exact I1|]. intros [|i] Hi; [exact I2|apply I3, seq_In1; lia].
Qed.
Lemma vel_alpha_ok k d lo hi avg ps : (forall p, In p ps -> 0 <= q_phi p) -> forall m, 0 <= m ->
  let a := fold_left (fun m p => Rmin (q_phi p) (Rmin m (point_alpha k d lo hi avg p))) ps m in
  0 <= a <= m /\ forall p, In p ps -> a <= q_phi p /\ a <= point_alpha k d lo hi avg p.
Proof.
  induction ps as [|p r IH]; intros Hp m Hm; cbv zeta; cbn [fold_left]; [split; [lra|intros p []]|].
  pose proof (proj1 (point_alpha_ok k d lo hi avg p)) as Hpa. pose proof (Hp p (or_introl eq_refl)) as Hph. pose proof (Rmin_l m (point_alpha k d lo hi avg p)) as M1. pose proof (Rmin_r m (point_alpha k d lo hi avg p)) as M2. pose proof (Rmin_l (q_phi p) (Rmin m (point_alpha k d lo hi avg p))) as M3. pose proof (Rmin_r (q_phi p) (Rmin m (point_alpha k d lo hi avg p))) as M4.
  destruct (IH (fun q Hq => Hp q (or_intror Hq)) (Rmin (q_phi p) (Rmin m (point_alpha k d lo hi avg p)))) as [I1 I2]; [repeat apply Rmin_glb; assumption|]. split; [lra|]. intros q [<- | Hq]; [lra|apply I2, Hq].
Qed.
Lemma energy_pos d p : 0 <= energy_alpha d p. Proof. unfold energy_alpha. apply Rmin_glb; [lra|apply Rmax_l]. Qed.

Lemma kinetic_scale dim a v : kinetic dim (fun i => 0 + a * (v i - 0)) = a * a * kinetic dim v.
Proof.
  unfold kinetic. assert (E : forall l s, fold_left (fun s i => s + (0 + a * (v i - 0)) * (0 + a * (v i - 0))) l (a * a * s) = a * a * fold_left (fun s i => s + v i * v i) l s).
  { induction l as [|i r IH]; intros s; cbn [fold_left]; [reflexivity|]. rewrite <- IH. f_equal. ring. }
  specialize (E (seq 0 dim) 0). rewrite Rmult_0_r in E. rewrite E. field.
Qed.
Lemma kinetic_pos dim v : 0 <= kinetic dim v.
Proof. unfold kinetic. apply Rmult_le_pos; [|lra]. assert (E : forall l s, 0 <= s -> 0 <= fold_left (fun s i => s + v i * v i) l s). { induction l as [|i r IH]; intros s Hs; cbn [fold_left]; [exact Hs|]. apply IH. pose proof (Rle_0_sqr (v i)). unfold Rsqr in *. lra. } apply E. lra. Qed.
Lemma among_ok avg around v : among avg around v -> lowest avg around <= v <= highest avg around.
Proof.
  intros (a & b & Ha & Hb & Hv).
  assert (Hlo : forall l m c, In c (m :: l) -> lowest m l <= c). { clear. unfold lowest. induction l as [|x l IH]; intros m c Hc; cbn [fold_left]; [destruct Hc as [<- | []]; lra|]. destruct Hc as [<- | [<- | Hc]]; [| |apply IH; right; exact Hc]; destruct (Rlt_dec x m); (eapply Rle_trans; [apply IH; left; reflexivity|lra]). }
  assert (Hhi : forall l m c, In c (m :: l) -> c <= highest m l). { clear. unfold highest. induction l as [|x l IH]; intros m c Hc; cbn [fold_left]; [destruct Hc as [<- | []]; lra|]. destruct Hc as [<- | [<- | Hc]]; [| |apply IH; right; exact Hc]; destruct (Rlt_dec m x); (eapply Rle_trans; [|apply IH; left; reflexivity]; lra). }
  specialize (Hlo around avg a Ha). specialize (Hhi around avg b Hb). lra.
Qed.
