(* C141: limiting makes no new extremes and keeps the mean. *)
From Coq Require Import Reals List Lra Lia.
From Verif Require Import LimModel LimSpec LimProofs.
Import ListNotations.
Local Open Scope R_scope.

(* No limited value is outside any bounds of the averages, up to 1e-10. *)
Theorem C141_bounds (k : kind) (lo hi avg : R) (around vs : list R) :
  k <> Off -> bounds lo hi avg around -> forall v, In v (limit_field k avg around vs) -> lo - / 10 ^ 10 <= v <= hi + / 10 ^ 10.
Proof.
  intros Hk [Hb Ha] v Hv. unfold limit_field in Hv. apply in_map_iff in Hv. destruct Hv as (x & <- & Hx). fold eps.
  destruct (highest_ok around avg) as [H1 H2]. destruct (lowest_ok around avg) as [L1 L2]. destruct (elem_alpha_ok k (lowest avg around) (highest avg around) avg vs) as [A1 A2].
  pose proof (point_within k (lowest avg around) (highest avg around) avg x _ Hk (conj L1 H1) A1 (A2 x Hx)) as Hw.
  assert (highest avg around <= hi) by (apply H2; [lra|intros a Hin; apply Ha, Hin]). assert (lo <= lowest avg around) by (apply L2; [lra|intros a Hin; apply Ha, Hin]). lra.
Qed.
Print Assumptions C141_bounds.

(* Every limited value lies between the average and what it was, all by the same share. *)
Theorem C141_share (k : kind) (avg : R) (around vs : list R) :
  exists a, 0 <= a <= 1 /\ limit_field k avg around vs = map (fun v => a * v + (1 - a) * avg) vs /\ (k = Off -> a = 1) /\ (k = P0 -> vs <> [] -> a = 0).
Proof.
  exists (elem_alpha k (lowest avg around) (highest avg around) avg vs). destruct (elem_alpha_ok k (lowest avg around) (highest avg around) avg vs) as [A1 A2].
  split; [exact A1|]. split; [unfold limit_field; apply map_ext; intros v; unfold limited; ring|]. split.
  - intros ->. unfold elem_alpha. clear. cbn [alpha_of]. induction vs as [|v r IH]; cbn [fold_left]; [reflexivity|]. rewrite Rmin_left by lra. exact IH.
  - intros -> Hn. destruct vs as [|v r]; [congruence|]. specialize (A2 v (or_introl eq_refl)). cbn [alpha_of] in A2. lra.
Qed.
Print Assumptions C141_share.

(* With weights under which the average is the average, it still is. *)
Theorem C141_mean (k : kind) (avg : R) (around w vs : list R) :
  length w = length vs -> weigh w vs = avg * weigh w (map (fun _ => 1) vs) -> weigh w (limit_field k avg around vs) = avg * weigh w (map (fun _ => 1) vs).
Proof.
  intros Hl Hw. destruct (C141_share k avg around vs) as (a & _ & -> & _).
  assert (E : weigh w (map (fun v => a * v + (1 - a) * avg) vs) = a * weigh w vs + (1 - a) * avg * weigh w (map (fun _ => 1) vs)).
  { clear Hw. revert vs Hl. induction w as [|x w IH]; intros [|v vs] Hl; cbn [length] in Hl; try lia; cbn [weigh map]; [ring|]. rewrite IH by lia. ring. }
  rewrite E, Hw. ring.
Qed.
Print Assumptions C141_mean.

(* Barth and Jespersen's limiter leaves a field alone that is within the averages. *)
Theorem C141_smooth (avg : R) (around vs : list R) :
  (forall v, In v vs -> among avg around v) -> limit_field BJ avg around vs = vs.
Proof.
  intros Ham. assert (Hin : forall v, In v vs -> lowest avg around <= v <= highest avg around) by (intros v Hv; apply among_ok, Ham, Hv). clear Ham. unfold limit_field. assert (E : elem_alpha BJ (lowest avg around) (highest avg around) avg vs = 1).
  { unfold elem_alpha. revert Hin. generalize (lowest avg around) (highest avg around). intros lo hi. induction vs as [|v r IH]; intros Hin; cbn [fold_left]; [reflexivity|].
    assert (Ha : alpha_of BJ (ratio_at lo hi avg v) = 1). { cbn [alpha_of]. pose proof eps_pos. pose proof (Hin v (or_introl eq_refl)) as Hv. apply Rmin_right. unfold ratio_at. cbv zeta. apply Rle_trans with (2 := Rmax_l _ _).
      destruct (Rlt_dec eps (v - avg)); [|destruct (Rlt_dec (v - avg) (- eps)); [|lra]].
      - apply (Rmult_le_reg_r (v - avg)); [lra|]. unfold Rdiv. rewrite Rmult_assoc, Rinv_l by lra. lra.
      - assert (Eq : (lo - avg) / (v - avg) = (avg - lo) / (avg - v)) by (field; lra). rewrite Eq. apply (Rmult_le_reg_r (avg - v)); [lra|]. unfold Rdiv. rewrite Rmult_assoc, Rinv_l by lra. lra. }
    rewrite Ha, Rmin_left by lra. apply IH. intros x Hx. apply Hin. right; exact Hx. }
  rewrite E. rewrite <- (map_id vs) at 2. apply map_ext. intros v. unfold limited. ring.
Qed.
Print Assumptions C141_smooth.
(* Venkatakrishnan's does not: at the bound itself it takes a quarter away. *)
Theorem C141_smooth_refuted : exists avg around vs, (forall v, In v vs -> among avg around v) /\ limit_field Venk avg around vs <> vs.
Proof.
  exists 0, [1], [1]. assert (Eh : highest 0 [1] = 1) by (unfold highest; cbn [fold_left]; destruct (Rlt_dec 0 1); lra). assert (El : lowest 0 [1] = 0) by (unfold lowest; cbn [fold_left]; destruct (Rlt_dec 1 0); lra). split.
  - intros v [<- | []]. exists 0, 1. cbn [In]. split; [auto|]. split; [auto|lra].
  - unfold limit_field. rewrite Eh, El. unfold elem_alpha. cbn [fold_left map]. assert (Er : ratio_at 0 1 0 1 = 1).
    { unfold ratio_at. cbv zeta. destruct (Rlt_dec eps (1 - 0)) as [_ | H]; [replace ((1 - 0) / (1 - 0)) with 1 by field; apply Rmax_left; lra|exfalso; apply H]. unfold eps. replace (1 - 0) with (/ 1) by field. apply Rinv_lt_contravar; [rewrite Rmult_1_l; apply pow_lt; lra|apply Rlt_pow_R1; [lra|lia]]. }
    rewrite Er. cbn [alpha_of]. unfold limited. intros E. inversion E as [E1]. assert (Em : Rmin 1 ((1 * 1 + 2 * 1) / (1 * 1 + 1 + 2)) = 3 / 4) by (replace ((1 * 1 + 2 * 1) / (1 * 1 + 1 + 2)) with (3 / 4) by field; apply Rmin_right; lra). rewrite Em in E1. lra.
Qed.
Print Assumptions C141_smooth_refuted.

(* Limited volumes of positive averages are positive, and so are the densities, which are their
   inverses. *)
Theorem C141_volume (k : kind) (lo hi avg : R) (around vs : list R) :
  k <> Off -> bounds lo hi avg around -> / 10 ^ 10 < lo ->
  fst (limit_volume k avg around vs) = limit_field k avg around vs /\
  Forall2 (fun v rho => 0 < v /\ rho * v = 1 /\ / (hi + / 10 ^ 10) <= rho <= / (lo - / 10 ^ 10)) (fst (limit_volume k avg around vs)) (snd (limit_volume k avg around vs)).
Proof.
  intros Hk Hb Hlo. split; [reflexivity|]. unfold limit_volume. cbn [fst snd]. pose proof (C141_bounds k lo hi avg around vs Hk Hb) as Hw. induction (limit_field k avg around vs) as [|v r IH]; cbn [map]; constructor.
  - specialize (Hw v (or_introl eq_refl)). assert (0 < v) by lra. split; [assumption|]. split; [field; lra|]. unfold Rdiv. rewrite Rmult_1_l. split; apply Rinv_le_contravar; lra.
  - apply IH. intros x Hx. apply Hw. right; exact Hx.
Qed.
Print Assumptions C141_volume.

(* ---------- velocities ---------- *)

(* Each component stays within bounds of its averages, whatever the energies. *)
Theorem C141_velocity (k : kind) (d : nat) (lo hi : nat -> R) (avg : nat -> R) (around : list (nat -> R)) (ps : list point) :
  k <> Off -> (forall p, In p ps -> 0 <= q_phi p) -> (forall i, (i <= d)%nat -> bounds (lo i) (hi i) (avg i) (map (fun n => n i) around)) ->
  forall v i, In v (limit_vel k d avg around ps) -> (i <= d)%nat -> lo i - / 10 ^ 10 <= v i <= hi i + / 10 ^ 10.
Proof.
  intros Hk Hphi Hb v i Hv Hi. unfold limit_vel in Hv. cbv zeta in Hv. apply in_map_iff in Hv. destruct Hv as (p & <- & Hp). fold eps.
  set (lo' := fun i => lowest (avg i) (map (fun n => n i) around)) in *. set (hi' := fun i => highest (avg i) (map (fun n => n i) around)) in *.
  destruct (vel_alpha_ok k d lo' hi' avg ps Hphi 1 ltac:(lra)) as [V1 V2]. fold (vel_alpha k d lo' hi' avg ps) in V1, V2.
  destruct (fold_min (energy_alpha d) ps (vel_alpha k d lo' hi' avg ps) (proj1 V1) (fun q _ => energy_pos d q)) as (E1 & E2 & _). fold (with_energy d (vel_alpha k d lo' hi' avg ps) ps) in E1, E2.
  destruct (Hb i Hi) as [B1 B2]. destruct (highest_ok (map (fun n => n i) around) (avg i)) as [H1 H2]. destruct (lowest_ok (map (fun n => n i) around) (avg i)) as [L1 L2].
  pose proof (proj2 (V2 p Hp)) as Vp. pose proof (proj2 (point_alpha_ok k d lo' hi' avg p) i Hi) as Pp.
  pose proof (point_within k (lo' i) (hi' i) (avg i) (q_vel p i) (with_energy d (vel_alpha k d lo' hi' avg ps) ps) Hk (conj L1 H1) ltac:(lra) ltac:(lra)) as Hw.
  assert (hi' i <= hi i) by (apply H2; [lra|intros a Hin; apply B2, Hin]). assert (lo i <= lo' i) by (apply L2; [lra|intros a Hin; apply B2, Hin]). lra.
Qed.
Print Assumptions C141_velocity.

(* All points and components are pulled to the average by one share, which is at most the limiter
   of the energy at every point and, where a point has no energy, zero. *)
Theorem C141_velocity_share (k : kind) (d : nat) (avg : nat -> R) (around : list (nat -> R)) (ps : list point) :
  (forall p, In p ps -> 0 <= q_phi p) ->
  exists a, 0 <= a <= 1 /\ limit_vel k d avg around ps = map (fun p i => avg i + a * (q_vel p i - avg i)) ps /\
  (forall p, In p ps -> a <= q_phi p) /\ (forall p, In p ps -> q_energy p <= 0 -> a = 0).
Proof.
  intros Hphi. set (lo' := fun i => lowest (avg i) (map (fun n => n i) around)). set (hi' := fun i => highest (avg i) (map (fun n => n i) around)).
  destruct (vel_alpha_ok k d lo' hi' avg ps Hphi 1 ltac:(lra)) as [V1 V2]. fold (vel_alpha k d lo' hi' avg ps) in V1, V2.
  destruct (fold_min (energy_alpha d) ps (vel_alpha k d lo' hi' avg ps) (proj1 V1) (fun q _ => energy_pos d q)) as (E1 & E2 & E3). fold (with_energy d (vel_alpha k d lo' hi' avg ps) ps) in E1, E2, E3.
  exists (with_energy d (vel_alpha k d lo' hi' avg ps) ps). split; [lra|]. split; [reflexivity|]. split; [intros p Hp; pose proof (proj1 (V2 p Hp)); lra|].
  intros p Hp He. specialize (E3 p Hp). unfold energy_alpha in E3. pose proof (Rmin_r 1 (Rmax 0 (q_energy p / (kinetic (S d) (q_vel p) + / 10 ^ 14)))) as M.
  rewrite (Rmax_left 0) in *; [lra| |]; (assert (0 < kinetic (S d) (q_vel p) + / 10 ^ 14) by (pose proof (kinetic_pos (S d) (q_vel p)); assert (0 < / 10 ^ 14) by (apply Rinv_0_lt_compat, pow_lt; lra); lra)); (apply Rmult_le_reg_r with (kinetic (S d) (q_vel p) + / 10 ^ 14); [assumption|]; unfold Rdiv; rewrite Rmult_assoc, Rinv_l by lra; lra).
Qed.
Print Assumptions C141_velocity_share.

(* With weights under which the average of a component is the average, it still is: momentum is kept. *)
Theorem C141_momentum (k : kind) (d i : nat) (avg : nat -> R) (around : list (nat -> R)) (w : list R) (ps : list point) :
  (forall p, In p ps -> 0 <= q_phi p) -> length w = length ps ->
  weigh w (map (fun p => q_vel p i) ps) = avg i * weigh w (map (fun _ => 1) ps) ->
  weigh w (map (fun v => v i) (limit_vel k d avg around ps)) = avg i * weigh w (map (fun _ => 1) ps).
Proof.
  intros Hphi Hl Hw. destruct (C141_velocity_share k d avg around ps Hphi) as (a & _ & -> & _). rewrite map_map.
  assert (E : weigh w (map (fun p => avg i + a * (q_vel p i - avg i)) ps) = a * weigh w (map (fun p => q_vel p i) ps) + (1 - a) * avg i * weigh w (map (fun _ => 1) ps)).
  { clear Hw Hphi. revert ps Hl. induction w as [|x w IH]; intros [|p ps] Hl; cbn [length] in Hl; try lia; cbn [weigh map]; [ring|]. rewrite IH by lia. ring. }
  rewrite E, Hw. ring.
Qed.
Print Assumptions C141_momentum.

(* With no average velocity the kinetic energy of every limited point is at most its total one,
   as the last loop is there to see to. *)
Theorem C141_internal (k : kind) (d : nat) (around : list (nat -> R)) (ps : list point) :
  (forall p, In p ps -> 0 <= q_phi p /\ 0 <= q_energy p) ->
  Forall2 (fun p v => kinetic (S d) v <= q_energy p) ps (limit_vel k d (fun _ => 0) around ps).
Proof.
  intros Hp. unfold limit_vel. cbv zeta. set (lo' := fun i => lowest 0 (map (fun n => n i) around)). set (hi' := fun i => highest 0 (map (fun n => n i) around)).
  destruct (vel_alpha_ok k d lo' hi' (fun _ => 0) ps (fun p H => proj1 (Hp p H)) 1 ltac:(lra)) as [V1 _]. fold (vel_alpha k d lo' hi' (fun _ => 0) ps) in V1.
  destruct (fold_min (energy_alpha d) ps (vel_alpha k d lo' hi' (fun _ => 0) ps) (proj1 V1) (fun q _ => energy_pos d q)) as (E1 & E2 & E3). fold (with_energy d (vel_alpha k d lo' hi' (fun _ => 0) ps) ps) in E1, E2, E3.
  set (a := with_energy d (vel_alpha k d lo' hi' (fun _ => 0) ps) ps) in *. clearbody a.
  assert (Hall : forall l, (forall p, In p l -> In p ps) -> Forall2 (fun p v => kinetic (S d) v <= q_energy p) l (map (fun p i => limited 0 a (q_vel p i)) l)); [|apply Hall; auto].
  induction l as [|p r IH]; intros Hl; cbn [map]; constructor; [|apply IH; intros q Hq; apply Hl; right; exact Hq].
  pose proof (Hl p (or_introl eq_refl)) as Hin. specialize (E3 p Hin). destruct (Hp p Hin) as [_ He]. unfold limited. rewrite kinetic_scale. pose proof (kinetic_pos (S d) (q_vel p)) as Hk. set (K := kinetic (S d) (q_vel p)) in *.
  assert (Ht : 0 < / 10 ^ 14) by (apply Rinv_0_lt_compat, pow_lt; lra). set (t := / 10 ^ 14) in *.
  unfold energy_alpha in E3. fold K t in E3. pose proof (Rmin_l 1 (Rmax 0 (q_energy p / (K + t)))) as M1. pose proof (Rmin_r 1 (Rmax 0 (q_energy p / (K + t)))) as M2.
  assert (Hq : 0 <= q_energy p / (K + t)) by (apply Rmult_le_pos; [exact He|left; apply Rinv_0_lt_compat; lra]). rewrite (Rmax_right 0 (q_energy p / (K + t)) Hq) in *.
  assert (Ha : a * (K + t) <= q_energy p). { assert (Haq : a <= q_energy p / (K + t)) by lra. apply (Rmult_le_compat_r (K + t)) in Haq; [|lra]. unfold Rdiv in Haq. rewrite Rmult_assoc, Rinv_l in Haq by lra. lra. }
  assert (a * a * K <= a * K). { assert (0 <= a * K) by (apply Rmult_le_pos; lra). nra. } assert (0 <= a * t) by (apply Rmult_le_pos; lra). lra.
Qed.
Print Assumptions C141_internal.

(* In general it is not: the limiter takes the velocity to its average, not to zero.  Two points
   that each have more total than kinetic energy, the average is their mean, and after limiting the
   first has more kinetic than total energy. *)
Definition slow : point := Point (fun _ => 0) 1 (/ 100).
Definition fast : point := Point (fun _ => 2) 1 (5 / 2).
Theorem C141_internal_refuted : exists k d avg around p q,
  (forall i, avg i = (q_vel p i + q_vel q i) / 2) /\ q_phi p = 1 /\ q_phi q = 1 /\
  kinetic (S d) (q_vel p) < q_energy p /\ kinetic (S d) (q_vel q) < q_energy q /\
  exists v w, limit_vel k d avg around [p; q] = [v; w] /\ q_energy p < kinetic (S d) v.
Proof.
  exists BJ, 0%nat, (fun _ => 1), [], slow, fast. split; [intros i; cbn [slow fast q_vel]; lra|]. split; [reflexivity|]. split; [reflexivity|].
  split; [unfold kinetic; cbn [slow seq fold_left q_vel q_energy]; lra|]. split; [unfold kinetic; cbn [fast seq fold_left q_vel q_energy]; lra|].
  set (one := fun _ : nat => 1). assert (Hphi : forall p, In p [slow; fast] -> 0 <= q_phi p) by (intros p [<- | [<- | []]]; cbn [slow fast q_phi]; lra).
  destruct (vel_alpha_ok BJ 0 one one one [slow; fast] Hphi 1 ltac:(lra)) as [V1 V2]. fold (vel_alpha BJ 0 one one one [slow; fast]) in V1, V2.
  destruct (fold_min (energy_alpha 0) [slow; fast] (vel_alpha BJ 0 one one one [slow; fast]) (proj1 V1) (fun q _ => energy_pos 0 q)) as (E1 & E2 & _). fold (with_energy 0 (vel_alpha BJ 0 one one one [slow; fast]) [slow; fast]) in E1, E2.
  pose proof (proj2 (V2 slow (or_introl eq_refl))) as Vp. pose proof (proj2 (point_alpha_ok BJ 0 one one one slow) 0%nat (le_n 0)) as Pp.
  assert (Z : ratio_at 1 1 1 0 = 0). { unfold ratio_at. cbv zeta. pose proof eps_pos. assert (eps < 1). { unfold eps. apply (Rlt_le_trans _ (/ 1)); [|rewrite Rinv_1; lra]. apply Rinv_lt_contravar; [rewrite Rmult_1_l; apply pow_lt; lra|apply Rlt_pow_R1; [lra|lia]]. } destruct (Rlt_dec eps (0 - 1)); [lra|]. destruct (Rlt_dec (0 - 1) (- eps)); [|lra]. replace ((1 - 1) / (0 - 1)) with 0 by field. apply Rmax_left; lra. }
  unfold one in Pp at 4 5 6. cbn [slow q_vel] in Pp. rewrite Z in Pp. cbn [alpha_of] in Pp. rewrite Rmin_left in Pp by lra.
  assert (Ea : with_energy 0 (vel_alpha BJ 0 one one one [slow; fast]) [slow; fast] = 0) by lra.
  exists (fun i => limited 1 (with_energy 0 (vel_alpha BJ 0 one one one [slow; fast]) [slow; fast]) (q_vel slow i)), (fun i => limited 1 (with_energy 0 (vel_alpha BJ 0 one one one [slow; fast]) [slow; fast]) (q_vel fast i)).
  split; [reflexivity|]. rewrite Ea. unfold kinetic, limited. cbn [seq fold_left slow q_vel q_energy]. lra.
Qed.
Print Assumptions C141_internal_refuted.

Example C141_met : bounds 1 3 2 [1; 3] /\ In (2 + 1 * (3 - 2)) (limit_field BJ 2 [1; 3] [3; 1]) /\ weigh [1; 1] [3; 1] = 2 * weigh [1; 1] (map (fun _ => 1) [3; 1]).
Proof.
  split; [split; [lra|intros a [<- | [<- | []]]; lra]|]. split; [|cbn [weigh map]; lra]. rewrite C141_smooth; [left; ring|].
  intros v Hv. exists 1, 3. cbn [In] in *. destruct Hv as [<- | [<- | []]]; (split; [auto|split; [auto|lra]]).
Qed.
(* and those of the volumes and velocities *)
Example C141_met_velocity : bounds 1 3 2 [1; 3] /\ / 10 ^ 10 < 1 /\ (forall p, In p [slow; fast] -> 0 <= q_phi p /\ 0 <= q_energy p) /\
  weigh [3; 3] (map (fun p => q_vel p 0%nat) [slow; fast]) = 1 * weigh [3; 3] (map (fun _ => 1) [slow; fast]) /\
  (forall i, (i <= 2)%nat -> bounds 0 2 1 (map (fun n => n i) [fun _ : nat => 0; fun _ : nat => 2])).
Proof.
  split; [exact (proj1 C141_met)|]. split; [apply (Rlt_le_trans _ (/ 1)); [|rewrite Rinv_1; lra]; apply Rinv_lt_contravar; [rewrite Rmult_1_l; apply pow_lt; lra|apply Rlt_pow_R1; [lra|lia]]|].
  split; [intros p [<- | [<- | []]]; cbn [slow fast q_phi q_energy]; lra|]. split; [cbn [weigh map slow fast q_vel]; lra|]. intros i _. split; [lra|]. cbn [map]. intros a [<- | [<- | []]]; lra.
Qed.
