From Verif Require Import BaseReal BaseArr GeomModel GeomSpec SghModel SghSpec SghProofs SghMore MarsModel MarsSpec.
Local Open Scope R_scope.

Lemma norm_nonneg nd w : 0 <= norm nd w.
Proof. apply sqrt_pos. Qed.

Lemma mean_const nn c v w d : INR nn * c = 1 -> (forall l, v l d = w) -> mean_velocity nn c v d = w.
Proof.
  intros H Hv. unfold mean_velocity. rewrite fold_left_suml, suml_seq.
  rewrite (sumn_ext nn _ (fun _ => c * w)) by (intros; rewrite Hv; easy). rewrite sumn_const.
  replace (INR nn * (c * w)) with (INR nn * c * w) by ring. rewrite H. ring.
Qed.

Lemma mean_shift nn c v w d : INR nn * c = 1 -> mean_velocity nn c (shift v w) d = mean_velocity nn c v d + w d.
Proof.
  intros H. unfold mean_velocity, shift. rewrite !fold_left_suml, !suml_seq.
  rewrite (sumn_ext nn _ (fun l => c * v l d + c * w d)) by (intros; ring). rewrite sumn_plus, sumn_const.
  replace (INR nn * (c * w d)) with (INR nn * c * w d) by ring. rewrite H. ring.
Qed.

Lemma impedance_nonneg q fuzz den sspd div mag : mars_inputs q fuzz den sspd -> 0 <= mag -> 0 <= impedance q den sspd div mag.
Proof.
  intros [(A & B & C & D) _ _ E F] Hm. unfold impedance.
  destruct (Rlt_dec div 0); apply Rmult_le_pos; try assumption; apply Rplus_le_le_0_compat; now apply Rmult_le_pos.
Qed.

Lemma mu_mars_nonneg nd q fuzz den sspd div vbar v an l : mars_inputs q fuzz den sspd -> 0 <= mu_mars nd q den sspd div vbar v an l.
Proof. intros H. apply Rmult_le_pos; [|apply norm_nonneg]. eapply impedance_nonneg; eauto. apply norm_nonneg. Qed.

Lemma mu_dir_nonneg nd ed q fuzz den sspd div small vbar v an l : mars_inputs q fuzz den sspd -> 0 <= mu_dir nd ed q den sspd div small vbar v an l.
Proof.
  intros H. apply Rmult_le_pos; [eapply impedance_nonneg; eauto; apply norm_nonneg|]. apply suml_nonneg. intros; apply Rabs_pos.
Qed.

Lemma ratio_le small div ns : ratio_min small div ns <= 1.
Proof.
  unfold ratio_min. assert (G : forall r, r <= 1 -> fold_left (fun r_min div_n => fmin (0.9 * (div_n + small) / (div + small)) r_min) ns r <= 1).
  { induction ns as [|x ns IH]; intros r Hr; cbn [fold_left]; [easy|]. apply IH. unfold fmin.
    eapply Rle_trans; [apply Rmin_r|exact Hr]. }
  apply G. lra.
Qed.

Lemma phi_range q fuzz small sspd len div curl c ns : 0 <= phi_floor q <= 1 -> 0 < fuzz -> 0 <= sspd -> 0 <= len ->
  phi_floor q <= phi q fuzz small sspd len div curl c ns <= 1.
Proof.
  intros Hq Hf Hs Hl. unfold phi. assert (Hr := ratio_le small div ns). set (r := ratio_min small div ns) in *.
  assert (Ha : 0 <= fmin 1 (20 * (len * Rabs div) / (sspd + fuzz)) <= 1).
  { unfold fmin. split; [|apply Rmin_l]. apply Rmin_glb; [lra|]. apply Rmult_le_pos; [|apply Rlt_le, Rinv_0_lt_compat; lra].
    apply Rmult_le_pos; [lra|]. apply Rmult_le_pos; [lra|apply Rabs_pos]. }
  set (a := fmin 1 (20 * (len * Rabs div) / (sspd + fuzz))) in *.
  assert (Hp : 0 <= 1 - fmax 0 r <= 1).
  { unfold fmax. assert (0 <= Rmax 0 r) by apply Rmax_l. assert (Rmax 0 r <= 1) by (apply Rmax_lub; lra). lra. }
  set (p := 1 - fmax 0 r) in *. clearbody p a.
  assert (a * p <= 1) by nra.
  unfold fmax at 1, fmin. split; [apply Rmax_l|]. apply Rmax_lub; [lra|]. eapply Rle_trans; [apply Rmin_l|assumption].
Qed.

Lemma phi_range01 q fuzz small sspd len div curl c ns den : mars_inputs q fuzz den sspd -> 0 <= len ->
  0 <= phi q fuzz small sspd len div curl c ns <= 1.
Proof.
  intros H Hl. assert (A := phi_range q fuzz small sspd len div curl c ns (mi_floor _ _ _ _ H) (mi_fuzz _ _ _ _ H) (mi_sspd _ _ _ _ H) Hl).
  destruct (mi_floor _ _ _ _ H). lra.
Qed.

Section Core.
Variables (nn nd : nat) (fuzz ph : R) (mu : nat -> R).
Hypothesis (Hf : 0 < fuzz) (Hph : 0 <= ph <= 1) (Hmu : forall l, 0 <= mu l).

Lemma vel_star_val v d : vel_star nn fuzz mu v d =
  if Rlt_dec fuzz (sumn nn mu) then sumn nn (fun l => mu l * v l d) / sumn nn mu else 0.
Proof. unfold vel_star. rewrite !fold_left_suml, !suml_seq, !Rplus_0_l. reflexivity. Qed.

Lemma core_balance v d : fuzz < sumn nn mu -> sumn nn (fun l => corner_force ph mu (vel_star nn fuzz mu v) v l d) = 0.
Proof.
  intros H. unfold corner_force. rewrite vel_star_val. destruct (Rlt_dec fuzz (sumn nn mu)) as [_|N]; [|lra].
  set (V := sumn nn (fun l => mu l * v l d) / sumn nn mu).
  rewrite (sumn_ext nn _ (fun l => ph * (V * mu l - mu l * v l d))) by (intros; ring).
  rewrite sumn_scal, sumn_minus, sumn_scal. unfold V. field_simplify; [|lra]. ring.
Qed.

Lemma mu_le_sum l : (l < nn)%nat -> mu l <= sumn nn mu.
Proof.
  intros H. rewrite <- (sumn_delta nn l (mu l) H). apply sumn_le. intros i _. destruct (Nat.eqb_spec i l) as [->|]; [apply Rle_refl|apply Hmu].
Qed.

Lemma core_small v l d : (l < nn)%nat -> ~ fuzz < sumn nn mu ->
  Rabs (corner_force ph mu (vel_star nn fuzz mu v) v l d) <= fuzz * Rabs (v l d).
Proof.
  intros Hl H. unfold corner_force. rewrite vel_star_val. destruct (Rlt_dec fuzz (sumn nn mu)) as [N|_]; [lra|].
  rewrite Rplus_0_l, Rminus_0_l, !Rabs_mult, Rabs_Ropp, (Rabs_pos_eq ph), (Rabs_pos_eq (mu l)) by (apply Hmu || lra).
  apply Rmult_le_compat_r; [apply Rabs_pos|]. assert (A := mu_le_sum l Hl). assert (B := Hmu l). nra.
Qed.

Lemma core_work v : sumn nn (fun l => sumn nd (fun d => corner_force ph mu (vel_star nn fuzz mu v) v l d * v l d)) <= 0.
Proof.
  rewrite (sumn_exchange nn nd (fun l d => corner_force ph mu (vel_star nn fuzz mu v) v l d * v l d)).
  rewrite <- (sumn_0 nd). apply sumn_le. intros d _. 
  set (V := vel_star nn fuzz mu v d).
  assert (E : sumn nn (fun l => corner_force ph mu (vel_star nn fuzz mu v) v l d * v l d) =
     - sumn nn (fun l => ph * mu l * (V - v l d) ^ 2) + V * sumn nn (fun l => corner_force ph mu (vel_star nn fuzz mu v) v l d)).
  { rewrite <- sumn_scal. rewrite <- Ropp_mult_1_l at 1 || idtac.
    replace (- sumn nn (fun l => ph * mu l * (V - v l d) ^ 2)) with (sumn nn (fun l => (-1) * (ph * mu l * (V - v l d) ^ 2))) by (rewrite sumn_scal; ring).
    rewrite <- sumn_plus. apply sumn_ext. intros l _. unfold corner_force. fold V. ring. }
  rewrite E. assert (P : 0 <= sumn nn (fun l => ph * mu l * (V - v l d) ^ 2)).
  { apply sumn_nonneg. intros l _. apply Rmult_le_pos; [|apply pow2_ge_0]. apply Rmult_le_pos; [lra|apply Hmu]. }
  destruct (Rlt_dec fuzz (sumn nn mu)) as [H|H].
  - rewrite core_balance by auto. lra.
  - assert (V = 0) as ->; [|lra]. unfold V. rewrite vel_star_val. destruct (Rlt_dec fuzz (sumn nn mu)); [contradiction|reflexivity].
Qed.

Lemma core_viscous v : viscous nn nd fuzz (corner_force ph mu (vel_star nn fuzz mu v) v) v.
Proof.
  split; [apply core_work|]. destruct (Rlt_dec fuzz (sumn nn mu)) as [H|H].
  - left. intros; now apply core_balance.
  - right. intros; now apply core_small.
Qed.

Lemma core_shift v w l d : (l < nn)%nat ->
  Rabs (corner_force ph mu (vel_star nn fuzz mu (shift v w)) (shift v w) l d - corner_force ph mu (vel_star nn fuzz mu v) v l d) <= fuzz * Rabs (w d).
Proof.
  intros Hl. unfold corner_force. rewrite !vel_star_val. unfold shift. destruct (Rlt_dec fuzz (sumn nn mu)) as [H|H].
  - rewrite (sumn_ext nn (fun l => mu l * (v l d + w d)) (fun l => mu l * v l d + w d * mu l)) by (intros; ring).
    rewrite sumn_plus, sumn_scal. match goal with |- Rabs ?a <= _ => replace a with 0 by (field; lra) end.
    rewrite Rabs_R0. apply Rmult_le_pos; [lra|apply Rabs_pos].
  - match goal with |- Rabs ?a <= _ => replace a with (- (ph * mu l * w d)) by ring end.
    rewrite Rabs_Ropp, !Rabs_mult, (Rabs_pos_eq ph), (Rabs_pos_eq (mu l)) by (apply Hmu || lra).
    apply Rmult_le_compat_r; [apply Rabs_pos|]. assert (A := mu_le_sum l Hl). assert (B := Hmu l). nra.
Qed.
End Core.

Lemma norm_ext nd a b : (forall d, a d = b d) -> norm nd a = norm nd b.
Proof. intros H. unfold norm. f_equal. apply sumn_ext. intros; now rewrite H. Qed.

Lemma mu_mars_shift nd nn c q den sspd div v an w l : INR nn * c = 1 ->
  mu_mars nd q den sspd div (mean_velocity nn c (shift v w)) (shift v w) an l = mu_mars nd q den sspd div (mean_velocity nn c v) v an l.
Proof.
  intros H. unfold mu_mars. rewrite (norm_ext nd (fun d => shift v w l d - mean_velocity nn c (shift v w) d) (fun d => v l d - mean_velocity nn c v d)); [easy|].
  intros d. rewrite mean_shift by auto. unfold shift. ring.
Qed.

Lemma mu_dir_shift nd ed nn c q den sspd div small v an w l : INR nn * c = 1 ->
  mu_dir nd ed q den sspd div small (mean_velocity nn c (shift v w)) (shift v w) an l = mu_dir nd ed q den sspd div small (mean_velocity nn c v) v an l.
Proof.
  intros H. unfold mu_dir.
  assert (E : forall d, shift v w l d - mean_velocity nn c (shift v w) d = v l d - mean_velocity nn c v d).
  { intros d. rewrite mean_shift by auto. unfold shift. ring. }
  rewrite (norm_ext nd _ _ E). f_equal. apply suml_ext. intros lp _. f_equal. apply sumn_ext. intros d _. f_equal.
  unfold shock_dir. rewrite (norm_ext nd _ _ E), E. reflexivity.
Qed.

Lemma corner_force_ext ph mu mu' nn fuzz v l d : (forall i, mu i = mu' i) ->
  corner_force ph mu (vel_star nn fuzz mu v) v l d = corner_force ph mu' (vel_star nn fuzz mu' v) v l d.
Proof.
  intros H. unfold corner_force. rewrite !vel_star_val. rewrite (sumn_ext nn mu mu') by auto.
  rewrite (sumn_ext nn (fun l => mu l * v l d) (fun l => mu' l * v l d)) by (intros; now rewrite H). now rewrite H.
Qed.

Lemma cbrt_nonneg x : 0 <= cbrt x.
Proof. apply Rlt_le, exp_pos. Qed.

Lemma eight_125 : INR 8 * 0.125 = 1. Proof. cbn. lra. Qed.
Lemma four_25 : INR 4 * 0.25 = 1. Proof. cbn. lra. Qed.

Lemma mars3_viscous q fuzz small den sspd vol vg ns v an : mars_inputs q fuzz den sspd ->
  viscous 8 3 fuzz (mars3 q fuzz small den sspd vol vg ns v an) v.
Proof.
  intros H. apply (core_viscous 8 3 fuzz); [exact (mi_fuzz _ _ _ _ H)|eapply phi_range01; eauto; apply cbrt_nonneg|intros; eapply mu_mars_nonneg; eauto].
Qed.
Lemma dirmars3_viscous q fuzz small den sspd vol vg ns v an : mars_inputs q fuzz den sspd ->
  viscous 8 3 fuzz (dirmars3 q fuzz small den sspd vol vg ns v an) v.
Proof.
  intros H. apply (core_viscous 8 3 fuzz); [exact (mi_fuzz _ _ _ _ H)|eapply phi_range01; eauto; apply cbrt_nonneg|intros; eapply mu_dir_nonneg; eauto].
Qed.
Lemma mars_rz_viscous q fuzz small den sspd vol vg ns v an : mars_inputs q fuzz den sspd ->
  viscous 4 2 fuzz (mars_rz q fuzz small den sspd vol vg ns v an) v.
Proof.
  intros H. apply (core_viscous 4 2 fuzz); [exact (mi_fuzz _ _ _ _ H)|eapply phi_range01; eauto; apply sqrt_pos|intros; eapply mu_mars_nonneg; eauto].
Qed.
Lemma dirmars_rz_viscous q fuzz small den sspd vol vg ns v an : mars_inputs q fuzz den sspd ->
  viscous 4 2 fuzz (dirmars_rz q fuzz small den sspd vol vg ns v an) v.
Proof.
  intros H. apply (core_viscous 4 2 fuzz); [exact (mi_fuzz _ _ _ _ H)|eapply phi_range01; eauto; apply sqrt_pos|intros; eapply mu_dir_nonneg; eauto].
Qed.

Lemma mars3_shift q fuzz small den sspd vol vg ns v an w l d : mars_inputs q fuzz den sspd -> (l < 8)%nat ->
  Rabs (mars3 q fuzz small den sspd vol vg ns (shift v w) an l d - mars3 q fuzz small den sspd vol vg ns v an l d) <= fuzz * Rabs (w d).
Proof.
  intros H Hl. unfold mars3. rewrite (corner_force_ext _ _ _ 8 fuzz (shift v w) l d (fun i => mu_mars_shift 3 8 0.125 q den sspd (div_of vg) v an w i eight_125)).
  apply core_shift; auto; [exact (mi_fuzz _ _ _ _ H)|eapply phi_range01; eauto; apply cbrt_nonneg|intros; eapply mu_mars_nonneg; eauto].
Qed.
Lemma dirmars3_shift q fuzz small den sspd vol vg ns v an w l d : mars_inputs q fuzz den sspd -> (l < 8)%nat ->
  Rabs (dirmars3 q fuzz small den sspd vol vg ns (shift v w) an l d - dirmars3 q fuzz small den sspd vol vg ns v an l d) <= fuzz * Rabs (w d).
Proof.
  intros H Hl. unfold dirmars3. rewrite (corner_force_ext _ _ _ 8 fuzz (shift v w) l d (fun i => mu_dir_shift 3 hex_edges 8 0.125 q den sspd (div_of vg) small v an w i eight_125)).
  apply core_shift; auto; [exact (mi_fuzz _ _ _ _ H)|eapply phi_range01; eauto; apply cbrt_nonneg|intros; eapply mu_dir_nonneg; eauto].
Qed.
Lemma mars_rz_shift q fuzz small den sspd vol vg ns v an w l d : mars_inputs q fuzz den sspd -> (l < 4)%nat ->
  Rabs (mars_rz q fuzz small den sspd vol vg ns (shift v w) an l d - mars_rz q fuzz small den sspd vol vg ns v an l d) <= fuzz * Rabs (w d).
Proof.
  intros H Hl. unfold mars_rz. rewrite (corner_force_ext _ _ _ 4 fuzz (shift v w) l d (fun i => mu_mars_shift 2 4 0.25 q den sspd (div_of vg) v an w i four_25)).
  apply core_shift; auto; [exact (mi_fuzz _ _ _ _ H)|eapply phi_range01; eauto; apply sqrt_pos|intros; eapply mu_mars_nonneg; eauto].
Qed.
Lemma dirmars_rz_shift q fuzz small den sspd vol vg ns v an w l d : mars_inputs q fuzz den sspd -> (l < 4)%nat ->
  Rabs (dirmars_rz q fuzz small den sspd vol vg ns (shift v w) an l d - dirmars_rz q fuzz small den sspd vol vg ns v an l d) <= fuzz * Rabs (w d).
Proof.
  intros H Hl. unfold dirmars_rz. rewrite (corner_force_ext _ _ _ 4 fuzz (shift v w) l d (fun i => mu_dir_shift 2 quad_edges 4 0.25 q den sspd (div_of vg) small v an w i four_25)).
  apply core_shift; auto; [exact (mi_fuzz _ _ _ _ H)|eapply phi_range01; eauto; apply sqrt_pos|intros; eapply mu_dir_nonneg; eauto].
Qed.

(** at rest nothing happens *)
Lemma at_rest ph mu nn fuzz l d : corner_force ph mu (vel_star nn fuzz mu (fun _ _ => 0)) (fun _ _ => 0) l d = 0.
Proof.
  unfold corner_force. rewrite vel_star_val. destruct (Rlt_dec fuzz (sumn nn mu)); [|ring].
  rewrite (sumn_ext nn _ (fun _ => 0)), sumn_0 by (intros; ring). unfold Rdiv. ring.
Qed.

Lemma curl_transpose vg : mag_curl3 (transpose vg) = mag_curl3 vg /\ div_of (transpose vg) = div_of vg.
Proof. unfold mag_curl3, div_of, transpose. split; [f_equal|]; ring. Qed.

Lemma mars3_spin q fuzz small den sspd vol vg ns v an l d :
  mars3 q fuzz small den sspd vol (transpose vg) ns v an l d = mars3 q fuzz small den sspd vol vg ns v an l d /\
  dirmars3 q fuzz small den sspd vol (transpose vg) ns v an l d = dirmars3 q fuzz small den sspd vol vg ns v an l d.
Proof. unfold mars3, dirmars3. destruct (curl_transpose vg) as [-> ->]. split; reflexivity. Qed.

(** the RZ kernels switch off for one sense of rotation *)
Definition rz_v (l d : nat) : R := match l, d with O, O => 1 | _, _ => 0 end.
Definition rz_an (l d : nat) : R := match d with O => 1 | _ => 0 end.
Definition rz_vg (i j : nat) : R := match i, j with O, O => -1 | S O, O => 1 | _, _ => 0 end.
Definition rz_q : mars_vars := mkMars 1 1 0 0 0 0.

Lemma rz_phi_on : phi rz_q 1e-16 1e-8 1 (sqrt 1) (div_of rz_vg) (curl_rz rz_vg) 4 [1] = 1.
Proof.
  unfold phi, rz_q, div_of, curl_rz, rz_vg, ratio_min. cbn [fold_left phi_floor phi_curl_floor]. rewrite sqrt_1.
  replace (-1 + 0 + 0) with (-1) by ring. replace (1 - 0) with 1 by ring. rewrite Rabs_left by lra. unfold fmin, fmax.
  assert (A : Rmin (0.9 * (1 + 1e-8) / (-1 + 1e-8)) 1 <= 0).
  { eapply Rle_trans; [apply Rmin_l|]. assert (E : 0.9 * (1 + 1e-8) / (-1 + 1e-8) = - (0.9 * (1 + 1e-8) / (1 - 1e-8))) by (field; lra).
    rewrite E. assert (0 < 0.9 * (1 + 1e-8) / (1 - 1e-8)) by (apply Rdiv_lt_0_compat; lra). lra. }
  rewrite (Rmax_left 0 (Rmin (0.9 * (1 + 1e-8) / (-1 + 1e-8)) 1)) by exact A.
  assert (B : 1 <= 20 * (1 * - -1) / (1 + 1e-16)) by (apply Rmult_le_reg_r with (1 + 1e-16); [lra|]; field_simplify; lra).
  rewrite (Rmin_left 1 (20 * _ / _)) by exact B.
  assert (C : 1 <= 4 * - -1 / (1 + 1e-16)) by (apply Rmult_le_reg_r with (1 + 1e-16); [lra|]; field_simplify; lra).
  rewrite (Rmin_left 1 (4 * _ / _)) by exact C. rewrite (Rmax_left 1 0) by lra. rewrite Rmin_right by lra. rewrite Rmax_right by lra. ring.
Qed.

Lemma rz_phi_off : phi rz_q 1e-16 1e-8 1 (sqrt 1) (div_of (transpose rz_vg)) (curl_rz (transpose rz_vg)) 4 [1] = 0.
Proof.
  unfold phi, rz_q, div_of, curl_rz, transpose, rz_vg. cbn [phi_floor phi_curl_floor].
  replace (0 - 1) with (-1) by ring. replace (-1 + 0 + 0) with (-1) by ring. unfold fmin, fmax.
  assert (C : 4 * Rabs (-1) / (-1 + 1e-16) <= 0).
  { rewrite Rabs_left by lra. assert (E : 4 * - -1 / (-1 + 1e-16) = - (4 / (1 - 1e-16))) by (field; lra). rewrite E.
    assert (0 < 4 / (1 - 1e-16)) by (apply Rdiv_lt_0_compat; lra). lra. }
  rewrite (Rmin_right 1 (4 * _ / _)) by lra. rewrite (Rmax_right _ 0) by exact C.
  rewrite Rmax_left; [reflexivity|apply Rmin_r].
Qed.

Lemma rz_spin_refuted : mars_inputs rz_q 1e-16 1 1 /\
  mars_rz rz_q 1e-16 1e-8 1 1 1 rz_vg [1] rz_v rz_an 0 0 = - (3 / 4) /\
  mars_rz rz_q 1e-16 1e-8 1 1 1 (transpose rz_vg) [1] rz_v rz_an 0 0 = 0.
Proof.
  split; [constructor; cbn [q1 q1ex q2 q2ex phi_floor rz_q]; lra|]. unfold mars_rz. rewrite rz_phi_on, rz_phi_off. unfold corner_force. split; [|ring].
  assert (E : forall l, mu_mars 2 rz_q 1 1 (div_of rz_vg) (mean_velocity 4 0.25 rz_v) rz_v rz_an l = 1).
  { intros l. unfold mu_mars, impedance. cbn [q1 q1ex q2 q2ex rz_q]. replace (norm 2 (rz_an l)) with 1.
    - destruct (Rlt_dec (div_of rz_vg) 0); ring.
    - unfold norm, rz_an. cbn [sumn]. replace (0 + 1 * 1 + 0 * 0) with 1 by ring. now rewrite sqrt_1. }
  rewrite vel_star_val, E. rewrite (sumn_ext 4 _ (fun _ => 1)) by (intros; apply E).
  rewrite (sumn_ext 4 (fun l => _ * rz_v l 0%nat) (fun l => 1 * rz_v l 0%nat)) by (intros; now rewrite E).
  cbn [sumn rz_v]. destruct (Rlt_dec 1e-16 (0 + 1 + 1 + 1 + 1)) as [_|N]; [field|lra].
Qed.

(** the viscosity inside the solver *)
Lemma sgh_mars_net kernel m L nb vars fuzz small s p d V :
  (forall q den sspd vol vg ns v an, mars_inputs q fuzz den sspd -> viscous 8 3 fuzz (kernel q fuzz small den sspd vol vg ns v an) v) ->
  0 < fuzz -> 0 <= V -> (forall n, Rabs (s_v s n d) <= V) -> mars_inputs (vars (fst p)) fuzz (s_den s (fst p) (snd p)) (s_sspd s (fst p) (snd p)) ->
  Rabs (sumn 8 (fun l => sgh_mars kernel m L nb vars fuzz small s (fst p) (snd p) l d)) <= 8 * fuzz * V.
Proof.
  intros Hk Hf HV Hv Hi. unfold sgh_mars.
  match goal with |- context [kernel (vars (fst p)) fuzz small ?den ?sspd ?vol ?vg ?ns ?v ?an] => 
    destruct (visc_balance _ _ _ _ _ (Hk (vars (fst p)) den sspd vol vg ns v an Hi)) as [B|B]; set (F := kernel (vars (fst p)) fuzz small den sspd vol vg ns v an) in * end.
  - rewrite B, Rabs_R0. apply Rmult_le_pos; lra.
  - eapply Rle_trans; [apply sumn_abs|]. replace (8 * fuzz * V) with (sumn 8 (fun _ => fuzz * V)) by (rewrite sumn_const; cbn; ring).
    apply sumn_le. intros l Hl. eapply Rle_trans; [apply (B l d Hl)|]. apply Rmult_le_compat_l; [lra|apply Hv].
Qed.

Lemma stage_momentum_visc kernel m L M alpha dt s d F nb vars fuzz small V :
  (forall q den sspd vol vg ns v an, mars_inputs q fuzz den sspd -> viscous 8 3 fuzz (kernel q fuzz small den sspd vol vg ns v an) v) ->
  corners_ok 8 m -> layout_ok (num_elems m) L -> (d < 3)%nat -> nodes_have_mass m s -> 0 < fuzz -> 0 <= V ->
  (forall s' mat sid l d, dissipation M s' mat sid l d = sgh_mars kernel m L nb vars fuzz small s' mat sid l d) ->
  (forall n, Rabs (s_v s n d) <= V) ->
  (forall p, In p (points L) -> mars_inputs (vars (fst p)) fuzz (s_den s (fst p) (snd p)) (s_sspd s (fst p) (snd p))) ->
  (forall s' n, bdy_velocity M s' n d = s_v s' n d) ->
  (forall s' n, external_force M s' n d = F n) ->
  Rabs (momentum m (rk_stage m L M alpha dt s) d - (momentum_start m s d + alpha * dt * sumn (num_nodes m) F)) <=
  Rabs (alpha * dt) * (8 * fuzz * V * suml (fun p => Rabs (s_volfrac s (fst p) (snd p) * s_geo s (fst p) (snd p))) (points L)).
Proof.
  intros Hk Hok HL Hd Hm Hf HV HD Hv Hi HB HF.
  rewrite <- suml_scal. rewrite (suml_ext (fun p => 8 * fuzz * V * _) (fun p => Rabs (s_volfrac s (fst p) (snd p) * s_geo s (fst p) (snd p)) * (8 * fuzz * V))) by (intros; ring).
  apply (stage_momentum_nearly m L M Hok HL alpha dt s d F (fun _ => 8 * fuzz * V)); auto.
  intros s' p Ev _ Ed Ec _ _ Hp. unfold net_dissipation. rewrite (sumn_ext 8 _ _ (fun l _ => HD s' (fst p) (snd p) l d)).
  apply sgh_mars_net; auto; [intros; rewrite Ev; apply Hv|rewrite Ed, Ec; now apply Hi].
Qed.

(** MARS never cools: computed at the velocities of the flow, its work on the nodes is not positive *)
Lemma sgh_mars_work kernel m L nb vars fuzz small s p :
  (forall q den sspd vol vg ns v an, mars_inputs q fuzz den sspd -> viscous 8 3 fuzz (kernel q fuzz small den sspd vol vg ns v an) v) ->
  mars_inputs (vars (fst p)) fuzz (s_den s (fst p) (snd p)) (s_sspd s (fst p) (snd p)) ->
  sumn 8 (fun l => sumn 3 (fun d => sgh_mars kernel m L nb vars fuzz small s (fst p) (snd p) l d * s_v s (nodes_in m (point_elem L p) l) d)) <= 0.
Proof. intros Hk Hi. unfold sgh_mars. apply (visc_work _ _ _ _ _ (Hk _ _ _ _ _ _ _ _ Hi)). Qed.

Lemma face_abs s A : 0 <= A -> Rabs (s * A) = Rabs s * A /\ Rabs (- (s * A)) = Rabs s * A.
Proof. intros H. rewrite Rabs_Ropp, Rabs_mult, (Rabs_pos_eq A H). auto. Qed.

Lemma mu_dir_box q den sspd div small vbar v A l : (l < 8)%nat -> 0 <= A 0%nat -> 0 <= A 1%nat -> 0 <= A 2%nat ->
  mu_dir 3 hex_edges q den sspd div small vbar v (fun i k => - box_normals A i k) l =
  impedance q den sspd div (norm 3 (fun d => v l d - vbar d)) *
  sumn 3 (fun d => Rabs (shock_dir 3 small vbar v (fun i k => - box_normals A i k) l d) * A d).
Proof.
  intros Hl H0 H1 H2. unfold mu_dir. f_equal.
  generalize (shock_dir 3 small vbar v (fun i k => - box_normals A i k) l). intros s.
  pose proof (face_abs (s 0%nat) _ H0) as [P0 N0]. pose proof (face_abs (s 1%nat) _ H1) as [P1 N1]. pose proof (face_abs (s 2%nat) _ H2) as [P2 N2].
  assert (E : forall a b, a = b -> Rabs a = Rabs b) by (intros; subst; reflexivity).
  unfold suml, box_normals.
  do 8 (destruct l as [|l]; [cbn - [Rabs Rmult Rplus Rminus Ropp];
    repeat match goal with |- context [Rabs (?u + ?w)] =>
      first [ replace (u + w) with (s 0%nat * A 0%nat) by lra | replace (u + w) with (- (s 0%nat * A 0%nat)) by lra
            | replace (u + w) with (s 1%nat * A 1%nat) by lra | replace (u + w) with (- (s 1%nat * A 1%nat)) by lra
            | replace (u + w) with (s 2%nat * A 2%nat) by lra | replace (u + w) with (- (s 2%nat * A 2%nat)) by lra ] end;
    rewrite ?Rabs_Ropp, ?P0, ?P1, ?P2; ring|]). lia.
Qed.

Lemma mu_dir_rect q den sspd div small vbar v A l : (l < 4)%nat -> 0 <= A 0%nat -> 0 <= A 1%nat ->
  mu_dir 2 quad_edges q den sspd div small vbar v (fun i k => - rect_normals A i k) l =
  impedance q den sspd div (norm 2 (fun d => v l d - vbar d)) *
  sumn 2 (fun d => Rabs (shock_dir 2 small vbar v (fun i k => - rect_normals A i k) l d) * A d).
Proof.
  intros Hl H0 H1. unfold mu_dir. f_equal.
  generalize (shock_dir 2 small vbar v (fun i k => - rect_normals A i k) l). intros s.
  pose proof (face_abs (s 0%nat) _ H0) as [P0 N0]. pose proof (face_abs (s 1%nat) _ H1) as [P1 N1].
  unfold suml, rect_normals.
  do 4 (destruct l as [|l]; [cbn - [Rabs Rmult Rplus Rminus Ropp];
    repeat match goal with |- context [Rabs (?u + ?w)] =>
      first [ replace (u + w) with (s 0%nat * A 0%nat) by lra | replace (u + w) with (- (s 0%nat * A 0%nat)) by lra
            | replace (u + w) with (s 1%nat * A 1%nat) by lra | replace (u + w) with (- (s 1%nat * A 1%nat)) by lra ] end;
    rewrite ?Rabs_Ropp, ?P0, ?P1; ring|]). lia.
Qed.

(** the box normals are the ones the solver computes *)
Lemma box_normals_bmat a b c l d : (l < 8)%nat -> (d < 3)%nat ->
  bmat (fun i => if Nat.testbit i 0 then a else 0) (fun i => if Nat.testbit i 1 then b else 0) (fun i => if Nat.testbit i 2 then c else 0) l d =
  box_normals (fun k => match k with O => b * c / 4 | 1 => a * c / 4 | _ => a * b / 4 end) l d.
Proof.
  intros Hl Hd. destruct d as [|[|[|d]]]; [| | |lia];
  (do 8 (destruct l as [|l]; [unfold box_normals, bmat, bmat0, bmat1, bmat2, twelth; cbn [Nat.testbit Nat.odd Nat.even Nat.div2 negb]; lra|])); lia.
Qed.
