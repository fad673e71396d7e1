(** Proofs about the equations of state. *)
From Verif Require Import BaseReal EosModel.
Local Open Scope R_scope.

Lemma csqrt_pos x : 0 <= x -> csqrt x = Some (sqrt x).
Proof. intros H. unfold csqrt. destruct (Rle_dec 0 x); [reflexivity|lra]. Qed.

Lemma gamma_pressure_mono q d d' e e' : 1 <= g_gamma q -> 0 <= d <= d' -> 0 <= e <= e' ->
  0 <= gamma_pressure q d e <= gamma_pressure q d' e'.
Proof.
  intros Hg Hd He. unfold gamma_pressure. split.
  - apply Rmult_le_pos; [apply Rmult_le_pos; lra|lra].
  - rewrite !Rmult_assoc. apply Rmult_le_compat_l; [lra|]. apply Rmult_le_compat; lra.
Qed.

Lemma gamma_pressure_pos q d e : 1 < g_gamma q -> 0 < d -> 0 < gamma_pressure q d e <-> 0 < e.
Proof.
  intros Hg Hd. unfold gamma_pressure. split; intros H.
  - apply Rnot_le_lt. intros He. assert ((g_gamma q - 1) * e * d <= 0); [|lra].
    assert ((g_gamma q - 1) * e <= 0) by (assert (0 <= (g_gamma q - 1) * (- e)) by (apply Rmult_le_pos; lra); lra).
    assert (0 <= - ((g_gamma q - 1) * e) * d) by (apply Rmult_le_pos; lra). lra.
  - apply Rmult_lt_0_compat; [apply Rmult_lt_0_compat; lra|lra].
Qed.

Lemma gamma_sound_floor q e : g_min_sound_speed q <= gamma_sound_speed q e.
Proof. unfold gamma_sound_speed, fmax. destruct (csqrt _); [apply Rmax_r|lra]. Qed.

Lemma gamma_sound_value q d e : 1 <= g_gamma q -> 0 < d -> 0 <= e ->
  gamma_sound_speed q e = Rmax (sqrt (g_gamma q * gamma_pressure q d e / d)) (g_min_sound_speed q).
Proof.
  intros Hg Hd He. unfold gamma_sound_speed, gamma_pressure, fmax. rewrite csqrt_pos.
  - do 2 f_equal. field. lra.
  - apply Rmult_le_pos; [apply Rmult_le_pos; lra|lra].
Qed.

Lemma gamma_sound_mono q e e' : 1 <= g_gamma q -> e <= e' -> 0 <= g_min_sound_speed q -> gamma_sound_speed q e <= gamma_sound_speed q e'.
Proof.
  intros Hg He Hm. assert (A : forall x, 0 <= x -> 0 <= g_gamma q * (g_gamma q - 1) * x) by (intros; apply Rmult_le_pos; [apply Rmult_le_pos; lra|lra]).
  unfold gamma_sound_speed at 1. unfold csqrt. destruct (Rle_dec 0 (g_gamma q * (g_gamma q - 1) * e)) as [H|H]; [|apply gamma_sound_floor].
  assert (H' : g_gamma q * (g_gamma q - 1) * e <= g_gamma q * (g_gamma q - 1) * e') by (apply Rmult_le_compat_l; [apply Rmult_le_pos; lra|lra]).
  unfold gamma_sound_speed. rewrite csqrt_pos by lra. unfold fmax. apply Rle_max_compat_r. apply sqrt_le_1; lra.
Qed.

(** Sound speed of the isentrope: c^2 = dp/drho at constant entropy, that is p/rho^2 dp/de + dp/drho. *)
Lemma gamma_sound_isentropic q d e : 1 <= g_gamma q -> 0 < d -> 0 <= e -> g_min_sound_speed q <= sqrt (g_gamma q * (g_gamma q - 1) * e) ->
  derivable_pt_lim (fun r => gamma_pressure q r e) d ((g_gamma q - 1) * e) /\
  derivable_pt_lim (fun s => gamma_pressure q d s) e ((g_gamma q - 1) * d) /\
  gamma_sound_speed q e * gamma_sound_speed q e = (g_gamma q - 1) * e + gamma_pressure q d e / (d * d) * ((g_gamma q - 1) * d).
Proof.
  intros Hg Hd He Hm. assert (L : forall a x, derivable_pt_lim (fun r => a * r) x a).
  { intros a x. pose proof (derivable_pt_lim_scal id a x 1 (derivable_pt_lim_id x)) as H. rewrite Rmult_1_r in H. exact H. }
  assert (P : 0 <= g_gamma q * (g_gamma q - 1) * e) by (apply Rmult_le_pos; [apply Rmult_le_pos; lra|lra]).
  repeat split.
  - apply L.
  - assert (H := L ((g_gamma q - 1) * d) e). intros eps Heps. destruct (H eps Heps) as [del Hdel]. exists del. intros h H1 H2.
    specialize (Hdel h H1 H2). unfold gamma_pressure.
    replace ((g_gamma q - 1) * (e + h) * d - (g_gamma q - 1) * e * d) with ((g_gamma q - 1) * d * (e + h) - (g_gamma q - 1) * d * e) by ring. exact Hdel.
  - unfold gamma_sound_speed. rewrite csqrt_pos by exact P. unfold fmax. rewrite Rmax_left by exact Hm.
    rewrite sqrt_sqrt by exact P. unfold gamma_pressure. field. lra.
Qed.

Lemma elastic_pressure_spec q d : e_den0 q <> 0 -> elastic_pressure q d = Some (e_bulk q * (d / e_den0 q - 1)).
Proof. intros H. unfold elastic_pressure, cdiv. destruct (Req_EM_T (e_den0 q) 0); [congruence|reflexivity]. Qed.

Lemma elastic_pressure_sign q d : 0 < e_bulk q -> 0 < e_den0 q -> exists p, elastic_pressure q d = Some p /\
  (p = 0 <-> d = e_den0 q) /\ (0 < p <-> e_den0 q < d) /\ p * e_den0 q = e_bulk q * (d - e_den0 q).
Proof.
  intros HB Hd. rewrite elastic_pressure_spec by lra. eexists. split; [reflexivity|].
  assert (E : e_bulk q * (d / e_den0 q - 1) = e_bulk q / e_den0 q * (d - e_den0 q)) by (field; lra).
  assert (K : 0 < e_bulk q / e_den0 q) by (apply Rdiv_lt_0_compat; lra). rewrite E.
  split; [|split]; [split; intros H| |].
  - apply Rmult_integral in H as [H|H]; lra.
  - subst d. ring.
  - split; intros H; [|apply Rmult_lt_0_compat; lra]. apply Rnot_le_lt. intros Hn.
    assert (0 <= e_bulk q / e_den0 q * (e_den0 q - d)) by (apply Rmult_le_pos; lra). lra.
  - field. lra.
Qed.

Lemma elastic_pressure_mono q d d' p p' : 0 <= e_bulk q -> 0 < e_den0 q -> d <= d' -> elastic_pressure q d = Some p -> elastic_pressure q d' = Some p' -> p <= p'.
Proof.
  intros HB Hd H. rewrite !elastic_pressure_spec by lra. intros [= <-] [= <-].
  apply Rmult_le_compat_l; [lra|]. apply Rplus_le_compat_r. apply Rmult_le_compat_r; [left; now apply Rinv_0_lt_compat|lra].
Qed.

Lemma elastic_sound q d : 0 <= e_bulk q -> 0 <= e_shear q -> 0 < d ->
  elastic_sound_speed q d = Some (Rmax (e_min_sound_speed q) (sqrt ((e_bulk q + 4 / 3 * e_shear q) / d))).
Proof.
  intros HB HG Hd. unfold elastic_sound_speed, cdiv. destruct (Req_EM_T d 0); [lra|].
  rewrite csqrt_pos; [reflexivity|]. apply Rmult_le_pos; [lra|left; now apply Rinv_0_lt_compat].
Qed.

(** at the reference density the sound speed matches the slope of the pressure; away from it c^2 = (B + 4G/3)/rho, not
    den0-based *)
Lemma elastic_consistent q d : 0 < e_bulk q -> e_shear q = 0 -> 0 < e_den0 q -> d = e_den0 q -> e_min_sound_speed q <= sqrt (e_bulk q / e_den0 q) ->
  exists c, elastic_sound_speed q d = Some c /\ derivable_pt_lim (fun r => e_bulk q * (r / e_den0 q - 1)) d (c * c).
Proof.
  intros HB HG Hd -> Hm. rewrite elastic_sound by lra. eexists. split; [reflexivity|]. rewrite HG.
  replace (e_bulk q + 4 / 3 * 0) with (e_bulk q) by lra. rewrite Rmax_right by exact Hm.
  rewrite sqrt_sqrt by (left; apply Rdiv_lt_0_compat; lra).
  intros eps Heps. exists (mkposreal 1 Rlt_0_1). intros h Hh _.
  replace ((e_bulk q * ((e_den0 q + h) / e_den0 q - 1) - e_bulk q * (e_den0 q / e_den0 q - 1)) / h - e_bulk q / e_den0 q) with 0 by (field; lra).
  rewrite Rabs_R0. exact Heps.
Qed.

Lemma elastic_tension q : 0 < e_bulk q -> 0 < e_den0 q -> elastic_pressure q 0 = Some (- e_bulk q).
Proof. intros HB Hd. rewrite elastic_pressure_spec by lra. f_equal. field. lra. Qed.
