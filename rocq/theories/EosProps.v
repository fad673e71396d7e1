(** Property theorems C20 and C49. *)
From Verif Require Import BaseReal EosModel EosProofs.
Local Open Scope R_scope.

Theorem C20_pressure : forall q d d' e e', 1 <= g_gamma q -> 0 <= d <= d' -> 0 <= e <= e' ->
  0 <= gamma_pressure q d e <= gamma_pressure q d' e' /\ gamma_pressure q d e = (g_gamma q - 1) * d * e.
Proof. exact (fun q d d' e e' Hg Hd He => conj (gamma_pressure_mono q d d' e e' Hg Hd He) (eq_trans (Rmult_assoc _ _ _) (eq_trans (f_equal _ (Rmult_comm e d)) (eq_sym (Rmult_assoc _ _ _))))). Qed.
Print Assumptions C20_pressure.

Theorem C20_positive : forall q d e, 1 < g_gamma q -> 0 < d -> 0 < gamma_pressure q d e <-> 0 < e.
Proof. exact gamma_pressure_pos. Qed.
Print Assumptions C20_positive.

Theorem C20_sound_speed_floor : forall q e, g_min_sound_speed q <= gamma_sound_speed q e.
Proof. exact gamma_sound_floor. Qed.
Print Assumptions C20_sound_speed_floor.

Theorem C20_sound_speed : forall q d e, 1 <= g_gamma q -> 0 < d -> 0 <= e ->
  gamma_sound_speed q e = Rmax (sqrt (g_gamma q * gamma_pressure q d e / d)) (g_min_sound_speed q).
Proof. exact gamma_sound_value. Qed.
Print Assumptions C20_sound_speed.

Theorem C20_sound_speed_monotone : forall q e e', 1 <= g_gamma q -> e <= e' -> 0 <= g_min_sound_speed q -> gamma_sound_speed q e <= gamma_sound_speed q e'.
Proof. exact gamma_sound_mono. Qed.
Print Assumptions C20_sound_speed_monotone.

(** the sound speed is the isentropic derivative of the pressure *)
Theorem C20_isentropic : forall q d e, 1 <= g_gamma q -> 0 < d -> 0 <= e -> g_min_sound_speed q <= sqrt (g_gamma q * (g_gamma q - 1) * e) ->
  derivable_pt_lim (fun r => gamma_pressure q r e) d ((g_gamma q - 1) * e) /\
  derivable_pt_lim (fun s => gamma_pressure q d s) e ((g_gamma q - 1) * d) /\
  gamma_sound_speed q e * gamma_sound_speed q e = (g_gamma q - 1) * e + gamma_pressure q d e / (d * d) * ((g_gamma q - 1) * d).
Proof. exact gamma_sound_isentropic. Qed.
Print Assumptions C20_isentropic.

Example C20_ex : 1 <= g_gamma (mkGamma 1.4 0.001) /\ gamma_pressure (mkGamma 1.4 0.001) 2 3 = 2.4.
Proof. unfold gamma_pressure. cbn [g_gamma]. split; lra. Qed.

(** C49 *)
Theorem C49_pressure : forall q d, 0 < e_bulk q -> 0 < e_den0 q -> exists p, elastic_pressure q d = Some p /\
  (p = 0 <-> d = e_den0 q) /\ (0 < p <-> e_den0 q < d) /\ p * e_den0 q = e_bulk q * (d - e_den0 q).
Proof. exact elastic_pressure_sign. Qed.
Print Assumptions C49_pressure.

Theorem C49_pressure_monotone : forall q d d' p p', 0 <= e_bulk q -> 0 < e_den0 q -> d <= d' ->
  elastic_pressure q d = Some p -> elastic_pressure q d' = Some p' -> p <= p'.
Proof. exact elastic_pressure_mono. Qed.
Print Assumptions C49_pressure_monotone.

Theorem C49_sound_speed : forall q d, 0 <= e_bulk q -> 0 <= e_shear q -> 0 < d ->
  elastic_sound_speed q d = Some (Rmax (e_min_sound_speed q) (sqrt ((e_bulk q + 4 / 3 * e_shear q) / d))).
Proof. exact elastic_sound. Qed.
Print Assumptions C49_sound_speed.

Theorem C49_consistent : forall q d, 0 < e_bulk q -> e_shear q = 0 -> 0 < e_den0 q -> d = e_den0 q -> e_min_sound_speed q <= sqrt (e_bulk q / e_den0 q) ->
  exists c, elastic_sound_speed q d = Some c /\ derivable_pt_lim (fun r => e_bulk q * (r / e_den0 q - 1)) d (c * c).
Proof. exact elastic_consistent. Qed.
Print Assumptions C49_consistent.

Example C49_ex : 0 < e_bulk (mkElastic 2 1 3 0) /\ 0 < e_den0 (mkElastic 2 1 3 0) /\ elastic_pressure (mkElastic 2 1 3 0) 6 = Some 2.
Proof. cbn [e_bulk e_den0]. split; [lra|]. split; [lra|]. rewrite elastic_pressure_spec by (cbn [e_den0]; lra). cbn [e_bulk e_den0]. f_equal. lra. Qed.
