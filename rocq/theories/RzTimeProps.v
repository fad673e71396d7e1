(** C129: time steps and outputs of the axisymmetric solver.

    The proof is a refinement: a quadrilateral is replaced by a hexahedron with the same shortest distance, and the run is then a
    run of the 3D solver. *)
From Coq Require Import NArith.
From Verif Require Import BaseReal TimeModel TimeSpec TimeProofs TimeProps RzTimeModel.
Local Open Scope R_scope.

(** Distance of two nodes in the (z, r) plane. *)
Definition plane (x : nat -> nat -> R) (a b : nat) : R := sqrt ((x a 0%nat - x b 0%nat)² + (x a 1%nat - x b 1%nat)²).

Lemma rz_dist_plane x a b : rz_dist x a b = plane x a b.
Proof. unfold rz_dist, plane. rewrite Rabs_right by (apply Rle_ge, sqrt_pos). f_equal. unfold Rsqr. ring. Qed.

Lemma plane_sym x a b : plane x a b = plane x b a.
Proof. unfold plane. f_equal. unfold Rsqr. ring. Qed.

Lemma rz_pairs_complete a b : In (a, b) rz_pairs <-> (a < b < 4)%nat.
Proof.
  split.
  - cbn. intros H. repeat (destruct H as [H|H]; [injection H as <- <-; lia|]). destruct H.
  - intros [H1 H2]. do 4 (destruct b as [|b]; [do 4 (destruct a as [|a]; [first [exfalso; lia|cbn; tauto]|]); exfalso; lia|]). exfalso; lia.
Qed.

(** The size of an element is the shortest distance between two of its four nodes. *)
Theorem C129_size x :
  (forall a b, (a < 4)%nat -> (b < 4)%nat -> a <> b -> rz_dist_min x <= plane x a b) /\
  exists a b, (a < 4)%nat /\ (b < 4)%nat /\ a <> b /\ rz_dist_min x = plane x a b.
Proof.
  split.
  - intros a b Ha Hb Hab. unfold rz_dist_min. destruct (Nat.lt_ge_cases a b) as [H|H].
    + apply minl_le_in. apply in_map_iff. exists (a, b). split; [apply rz_dist_plane|]. apply rz_pairs_complete. lia.
    + rewrite (plane_sym x a b). apply minl_le_in. apply in_map_iff. exists (b, a). split; [apply rz_dist_plane|]. apply rz_pairs_complete. lia.
  - unfold rz_dist_min. destruct (minl_in (map (fun p => rz_dist x (fst p) (snd p)) rz_pairs) (rz_dist x 0 1)) as [H|H].
    + exists 0%nat, 1%nat. repeat split; try lia. rewrite H. apply rz_dist_plane.
    + apply in_map_iff in H as [[a b] [Heq Hin]]. apply rz_pairs_complete in Hin. exists a, b. repeat split; try lia. rewrite <- Heq. apply rz_dist_plane.
Qed.
Print Assumptions C129_size.

(** The hexahedron: the quadrilateral and a copy at the height of its shortest distance. *)
Definition raised (x : nat -> nat -> R) (n d : nat) : R :=
  match d with
  | O => x (Nat.modulo n 4) 0%nat
  | S O => x (Nat.modulo n 4) 1%nat
  | _ => if Nat.ltb n 4 then 0 else rz_dist_min x
  end.
Definition raise (e : elem_in) : elem_in := mkElem (raised (e_x e)) (e_c e) (e_eroded e).

Lemma rz_dist_min_nonneg x : 0 <= rz_dist_min x.
Proof. destruct (C129_size x) as [_ (a & b & _ & _ & _ & ->)]. apply sqrt_pos. Qed.

Lemma raised_min x : dist_min (raised x) = rz_dist_min x.
Proof.
  pose proof (rz_dist_min_nonneg x) as Z. destruct (C129_size x) as [L (a & b & A & B & N & E)]. destruct (dist_min_euclid (raised x)) as [L3 (a3 & b3 & A3 & B3 & N3 & E3)].
  assert (P : forall n, (n < 8)%nat -> (Nat.modulo n 4 < 4)%nat) by (intros; apply Nat.mod_upper_bound; lia).
  apply Rle_antisym.
  - rewrite E. eapply Rle_trans; [apply (L3 a b); lia|]. apply Req_le. unfold euclid, plane, raised. rewrite !Nat.mod_small by lia.
    replace (Nat.ltb a 4) with true by (symmetry; apply Nat.ltb_lt; lia). replace (Nat.ltb b 4) with true by (symmetry; apply Nat.ltb_lt; lia). f_equal. unfold Rsqr. ring.
  - rewrite E3. destruct (Nat.eq_dec (Nat.modulo a3 4) (Nat.modulo b3 4)) as [Q|Q].
    + unfold euclid, raised. rewrite <- Q. rewrite !Rminus_diag_eq by reflexivity.
      assert (D : ((if (a3 <? 4)%nat then 0 else rz_dist_min x) - (if (b3 <? 4)%nat then 0 else rz_dist_min x))² = (rz_dist_min x)²).
      { destruct (Nat.ltb_spec a3 4), (Nat.ltb_spec b3 4); try (unfold Rsqr; ring); exfalso; apply N3.
        - rewrite !Nat.mod_small in Q by lia. exact Q.
        - assert (M : forall n, (4 <= n < 8)%nat -> (Nat.modulo n 4 = n - 4)%nat).
          { intros n Hn. replace n with ((n - 4) + 1 * 4)%nat at 1 by lia. rewrite Nat.mod_add by lia. apply Nat.mod_small. lia. }
          rewrite !M in Q by lia. lia. }
      rewrite D. unfold Rsqr at 1 2. rewrite Rmult_0_l, !Rplus_0_l, sqrt_Rsqr by exact Z. lra.
    + eapply Rle_trans; [apply (L (Nat.modulo a3 4) (Nat.modulo b3 4)); auto|]. unfold plane, euclid, raised. apply sqrt_le_1_alt.
      pose proof (Rle_0_sqr ((if (a3 <? 4)%nat then 0 else rz_dist_min x) - (if (b3 <? 4)%nat then 0 else rz_dist_min x))). lra.
Qed.

Lemma raise_elem c e : elem_dt c (raise e) = rz_elem_dt c e.
Proof. unfold elem_dt, rz_elem_dt, raise. cbn [e_x e_c e_eroded]. rewrite raised_min. reflexivity. Qed.

Lemma raise_step c es t g d : get_timestep c (map raise es) t g d = rz_get_timestep c es t g d.
Proof. unfold get_timestep, rz_get_timestep. rewrite map_map. rewrite (map_ext _ _ (raise_elem c)). reflexivity. Qed.

Lemma raise_cycle c mats t g d : cycle_dt c (map (map raise) mats) t g d = rz_cycle_dt c mats t g d.
Proof.
  unfold cycle_dt, rz_cycle_dt. generalize (dt_max c). induction mats as [|es mats IH]; intros m; [reflexivity|].
  cbn [map fold_left]. rewrite raise_step. apply IH.
Qed.

(** Every run of the axisymmetric solver is, as far as times and outputs go, one of the 3D solver. *)
Lemma raise_run c env : rz_time_run c env = run c (fun k => map (map raise) (env k)).
Proof.
  unfold rz_time_run, run. change (rz_init_state c) with (init_state c). generalize (init_state c). induction (cycle_stop c) as [|n IH]; intros s; [reflexivity|].
  cbn [rz_run_loop run_loop]. unfold rz_cycle_body, cycle_body. rewrite raise_cycle. change (rz_do_write c) with (do_write c). cbv zeta.
  destruct (do_write _ _ _ _); [|reflexivity]. destruct (_ && _)%bool; [reflexivity|]. destruct (Rle_dec _ _); [reflexivity|]. apply IH.
Qed.

Lemma raise_some (env : nat -> list (list elem_in)) : (forall k, env k <> []) -> forall k, map (map raise) (env k) <> [].
Proof. intros H k E. apply (H k). destruct (env k); [reflexivity|discriminate E]. Qed.

(** ** The step *)

Theorem C129_step_bounds c env s : (forall k, env k <> []) -> final_of (rz_time_run c env) = Some s -> forall h, In h (hist s) ->
  c_dt h <= dt_max c /\ c_dt h <= c_dtin h * (11 / 10) /\ c_dt h <= t_final c - c_t0 h + tiny c /\
  c_dt h <= Rmax (fuzz c) (c_gt h - c_t0 h) + tiny c /\ c_t1 h = c_t0 h + c_dt h.
Proof. intros H E. rewrite raise_run in E. exact (C01_step_bounds c _ s (raise_some env H) E). Qed.
Print Assumptions C129_step_bounds.

(** A sound wave does not cross more than dt_cfl times the distance between any two nodes of an element that is not eroded,
    unless the step was raised to dt_min. *)
Theorem C129_cfl c env s : 0 <= dt_cfl c -> final_of (rz_time_run c env) = Some s ->
  forall i h es e, nth_error (hist s) i = Some h -> In es (env i) -> In e es -> e_eroded e = false -> 0 < e_c e + fuzz c ->
  forall a b, (a < 4)%nat -> (b < 4)%nat -> a <> b -> c_dt h <= Rmax (dt_cfl c * plane (e_x e) a b / (e_c e + fuzz c)) (dt_min c).
Proof.
  intros P E i h es e Hi Hs He Ee Hc a b A B N. rewrite raise_run in E.
  pose proof (C03_cfl c _ s P E i h (map raise es) (raise e) Hi (in_map _ _ _ Hs) (in_map _ _ _ He) Ee Hc) as H. cbn [raise e_x e_c] in H.
  replace (plane (e_x e) a b) with (euclid (raised (e_x e)) a b); [apply H; lia|].
  unfold euclid, plane, raised. rewrite !Nat.mod_small by lia. replace (Nat.ltb a 4) with true by (symmetry; apply Nat.ltb_lt; lia). replace (Nat.ltb b 4) with true by (symmetry; apply Nat.ltb_lt; lia). f_equal. unfold Rsqr. ring.
Qed.
Print Assumptions C129_cfl.

(** An eroded element only enters with dt_max. *)
Theorem C129_eroded c e : e_eroded e = true -> rz_elem_dt c e = Rmax (Rmin 1e32 (dt_max c)) (dt_min c).
Proof. intros H. rewrite <- raise_elem. exact (C03_eroded_does_not_restrict c (raise e) H). Qed.
Print Assumptions C129_eroded.

(** The step is not changed by moving the whole body along the axis, or reflecting it. *)
Theorem C129_axis c es t g d (k : R) (f : R) : f = 1 \/ f = -1 ->
  rz_get_timestep c (map (fun e => mkElem (fun n i => if Nat.eqb i 0 then k + f * e_x e n i else e_x e n i) (e_c e) (e_eroded e)) es) t g d = rz_get_timestep c es t g d.
Proof.
  intros F. unfold rz_get_timestep. rewrite map_map. rewrite (map_ext (fun x => rz_elem_dt c _) (rz_elem_dt c)); [reflexivity|].
  intros e. unfold rz_elem_dt. cbn [e_x e_c e_eroded].
  assert (Q : forall a b, rz_dist (fun n i => if Nat.eqb i 0 then k + f * e_x e n i else e_x e n i) a b = rz_dist (e_x e) a b).
  { intros a b. unfold rz_dist. cbn [Nat.eqb]. do 3 f_equal. destruct F as [->| ->]; ring. }
  unfold rz_dist_min. rewrite Q. rewrite (map_ext (fun p => rz_dist _ (fst p) (snd p)) (fun p => rz_dist (e_x e) (fst p) (snd p))) by (intros; apply Q). reflexivity.
Qed.
Print Assumptions C129_axis.

(** ** The run *)

Theorem C129_progress c env s : good_cfg c -> final_of (rz_time_run c env) = Some s ->
  0 < min_progress c /\ forall h, In h (hist s) -> c_t0 h + min_progress c <= c_t1 h.
Proof. intros G E. rewrite raise_run in E. exact (C02_progress c _ s G E). Qed.
Print Assumptions C129_progress.

Theorem C129_reaches_final_time c env : good_cfg c -> (forall k, env k <> []) -> gr_cyc c <> 0%nat ->
  (N.of_nat (cycle_stop c) < graphics_cap)%N -> t_final c - t_start c <= INR (cycle_stop c) * min_progress c ->
  exists s, rz_time_run c env = ReachedFinal s /\ t_final c <= time s <= t_final c + tiny c.
Proof. intros G H A B T. rewrite raise_run. exact (C02_reaches_final_time c _ G (raise_some env H) A B T). Qed.
Print Assumptions C129_reaches_final_time.

(** Outputs: the first at the start, then in strictly increasing times, every time at the end of a cycle; a cycle that passes the
    pending output time writes; so does the last. *)
Theorem C129_outputs c env : good_cfg c ->
  let common s :=
    (exists rest, writes s = t_start c :: rest) /\ strictly_increasing (writes s) /\
    (forall h, In h (hist s) -> c_gt h <= c_t1 h -> In (c_t1 h) (writes s)) /\
    (forall y, In y (writes s) -> y = t_start c \/ exists h, In h (hist s) /\ c_t1 h = y) in
  match rz_time_run c env with
  | RUndefined => True
  | ReachedFinal s => common s /\ exists l, writes s = l ++ [time s]
  | CycleLimit s => common s
  end.
Proof. intros G. rewrite raise_run. exact (C05_outputs c _ G). Qed.
Print Assumptions C129_outputs.

Theorem C129_schedule c env s : sched_cfg c -> (forall k, env k <> []) -> final_of (rz_time_run c env) = Some s ->
  forall k t, nth_error (writes s) k = Some t -> t <= INR k * gr_dt c + fuzz c + tiny c /\ (INR k * gr_dt c <= t \/ (t = time s /\ t_final c <= t)).
Proof. intros G H E. rewrite raise_run in E. exact (C05_schedule c _ s G (raise_some env H) E). Qed.
Print Assumptions C129_schedule.

Theorem C129_defined c env : gr_cyc c <> 0%nat -> (N.of_nat (cycle_stop c) < graphics_cap)%N -> rz_time_run c env <> RUndefined.
Proof. intros A B. rewrite raise_run. exact (C05_defined c _ A B). Qed.
Print Assumptions C129_defined.

(** A solver that starts after time zero does not keep the output interval: while the pending output lies behind, every cycle
    writes and moves by at most fuzz + tiny. *)
Theorem C129_crawl_when_behind c env s : good_cfg c -> (forall k, env k <> []) -> final_of (rz_time_run c env) = Some s ->
  forall h, In h (hist s) -> c_gt h <= c_t0 h -> c_dt h <= fuzz c + tiny c /\ c_wrote h = true.
Proof. intros G H E. rewrite raise_run in E. exact (C05_crawl_when_behind c _ s G (raise_some env H) E). Qed.
Print Assumptions C129_crawl_when_behind.

(** A ring of two materials meets the hypotheses. *)
Definition annulus (n d : nat) : R :=
  match d with O => if (Nat.eqb n 1 || Nat.eqb n 2)%bool then 1 else 0 | _ => if Nat.leb 2 n then 2 else 1 end.
Definition annulus_env : nat -> list (list elem_in) := fun k => [[mkElem annulus (1 + INR k) false; mkElem annulus 2 true]; [mkElem annulus 3 false]].
Example C129_met : (exists s, final_of (rz_time_run ex_cfg annulus_env) = Some s) /\ good_cfg ex_cfg /\ sched_cfg ex_cfg /\ (forall k, annulus_env k <> []) /\ rz_dist_min annulus = 1.
Proof.
  destruct ex_hyps as (G & _ & _ & A & B & SC). split.
  - pose proof (C129_defined ex_cfg annulus_env A B) as H. destruct (rz_time_run ex_cfg annulus_env) as [|s|s]; [congruence| |]; exists s; reflexivity.
  - split; [exact G|]. split; [exact SC|]. split; [discriminate|].
    assert (L : forall a b, (a < 4)%nat -> (b < 4)%nat -> a <> b -> 1 <= plane annulus a b).
    { intros a b A4 B4 N. unfold plane. rewrite <- sqrt_1 at 1. apply sqrt_le_1_alt.
      do 4 (destruct a as [|a]; [do 4 (destruct b as [|b]; [first [exfalso; lia|cbn [annulus Nat.eqb orb Nat.leb]; unfold Rsqr; lra]|]); exfalso; lia|]). exfalso; lia. }
    destruct (C129_size annulus) as [M (a & b & A4 & B4 & N & E)]. apply Rle_antisym; [|rewrite E; apply L; assumption].
    eapply Rle_trans; [apply (M 0%nat 1%nat); lia|]. unfold plane. cbn [annulus Nat.eqb orb Nat.leb]. replace ((0 - 1)² + (1 - 1)²) with 1 by (unfold Rsqr; lra). rewrite sqrt_1. lra.
Qed.
