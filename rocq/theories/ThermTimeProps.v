(** C56: time steps and outputs of the thermal solver. *)
From Coq Require Import NArith.
From Verif Require Import BaseReal GeomModel GeomSpec GeomProofs TimeModel TimeSpec TimeProofs TimeProps ThermTimeModel.
Local Open Scope R_scope.

(** *** The thermal loop is the loop of the hydro solver on other elements *)

Definition cfg1 (c : tcfg) : tcfg := mkCfg (dt_min c) (dt_max c) (dt_start c) 1 (fuzz c) (tiny c) (t_start c) (t_final c) (gr_dt c) (gr_cyc c) (cycle_stop c).
Definition unit_pos (n d : nat) : R := ucube d n.
(** an element of size 1 whose sound speed gives the limit wanted *)
Definition sim (c : tcfg) (e : th_elem) : elem_in := mkElem unit_pos (/ Rmax (th_limit e) (dt_min c) - fuzz c) false.
Definition sim_env (c : tcfg) (env : nat -> list (list th_elem)) (k : nat) : list (list elem_in) := map (map (sim c)) (env k).

Lemma unit_size : dist_min unit_pos = 1.
Proof.
  destruct (C04_size_is_min_distance unit_pos) as [H1 (a & b & Ha & Hb & Hne & E)].
  assert (E01 : euclid unit_pos 0 1 = 1).
  { unfold euclid, unit_pos, ucube. cbn. replace (_ + _ + _) with 1 by (unfold Rsqr; lra). apply sqrt_1. }
  apply Rle_antisym; [rewrite <- E01; apply H1; lia|]. rewrite E.
  assert (K : 1 <= (unit_pos a 0 - unit_pos b 0)² + (unit_pos a 1 - unit_pos b 1)² + (unit_pos a 2 - unit_pos b 2)²).
  { unfold unit_pos. do 8 (destruct a as [|a]; [do 8 (destruct b as [|b]; [try (exfalso; apply Hne; reflexivity); unfold ucube, Rsqr; cbn; lra|]); lia|]). lia. }
  unfold euclid. rewrite <- sqrt_1 at 1. apply sqrt_le_1_alt. exact K.
Qed.

Lemma sim_dt c e : 0 < dt_min c -> elem_dt (cfg1 c) (sim c e) = th_elem_dt c e.
Proof.
  intros Hm. unfold elem_dt, th_elem_dt. cbv zeta. cbn [cfg1 sim e_eroded e_x e_c dt_cfl fuzz dt_max dt_min]. rewrite unit_size.
  replace (/ Rmax (th_limit e) (dt_min c) - fuzz c + fuzz c) with (/ Rmax (th_limit e) (dt_min c)) by ring.
  assert (0 < Rmax (th_limit e) (dt_min c)) by (apply Rlt_le_trans with (dt_min c); [exact Hm|apply Rmax_r]).
  replace (1 * 1 / / Rmax (th_limit e) (dt_min c)) with (Rmax (th_limit e) (dt_min c)) by (field; lra).
  unfold fmax, fmin, Rmax, Rmin. repeat destruct (Rle_dec _ _); lra.
Qed.

Lemma sim_get c elems t g d : 0 < dt_min c -> get_timestep (cfg1 c) (map (sim c) elems) t g d = th_get_timestep c elems t g d.
Proof.
  intros Hm. unfold get_timestep, th_get_timestep. rewrite map_map.
  rewrite (map_ext (fun x => elem_dt (cfg1 c) (sim c x)) (th_elem_dt c)) by (intros; apply sim_dt; exact Hm). reflexivity.
Qed.

Lemma sim_cycle c mats t g d : 0 < dt_min c -> cycle_dt (cfg1 c) (map (map (sim c)) mats) t g d = th_cycle_dt c mats t g d.
Proof.
  intros Hm. unfold cycle_dt, th_cycle_dt. cbn [cfg1 dt_max]. generalize (dt_max c). induction mats as [|x l IH]; intros a; [reflexivity|].
  cbn [map fold_left]. rewrite sim_get by exact Hm. apply IH.
Qed.

Lemma sim_body c mats s : 0 < dt_min c -> cycle_body (cfg1 c) (map (map (sim c)) mats) s = th_cycle_body c mats s.
Proof. intros Hm. unfold cycle_body, th_cycle_body. rewrite sim_cycle by exact Hm. reflexivity. Qed.

Lemma sim_loop c env n : 0 < dt_min c -> forall s, run_loop (cfg1 c) (sim_env c env) n s = th_run_loop c env n s.
Proof.
  intros Hm. induction n as [|n IH]; intros s; [reflexivity|]. cbn [run_loop th_run_loop]. unfold sim_env at 1. rewrite sim_body by exact Hm.
  destruct (th_cycle_body c (env (cycle s)) s); auto.
Qed.

Lemma sim_run c env : 0 < dt_min c -> run (cfg1 c) (sim_env c env) = th_run c env.
Proof. intros Hm. apply sim_loop. exact Hm. Qed.

Lemma sim_nonempty c env : (forall k, env k <> []) -> forall k, sim_env c env k <> [].
Proof. intros H k E. apply (H k). unfold sim_env in E. destruct (env k); [reflexivity|discriminate]. Qed.

(** *** Bounds on the step *)

Theorem C56_step_bounds : forall c env s, 0 < dt_min c -> (forall k, env k <> []) -> final_of (th_run c env) = Some s ->
  forall h, In h (hist s) ->
    c_dt h <= dt_max c /\ c_dt h <= c_dtin h * (11 / 10) /\ c_dt h <= t_final c - c_t0 h + tiny c /\
    c_dt h <= Rmax (fuzz c) (c_gt h - c_t0 h) + tiny c /\ c_t1 h = c_t0 h + c_dt h.
Proof.
  intros c env s Hm Hne E. rewrite <- sim_run in E by exact Hm. exact (C01_step_bounds (cfg1 c) (sim_env c env) s (sim_nonempty c env Hne) E).
Qed.
Print Assumptions C56_step_bounds.

(** the von Neumann limit of every element: 0.3 h^2 / (6 k / (den cp)) for every distance h of two of its nodes, unless that is less than dt_min *)
Theorem C56_stability : forall c env s, 0 < dt_min c -> final_of (th_run c env) = Some s ->
  forall i h es e, nth_error (hist s) i = Some h -> In es (env i) -> In e es ->
  c_dt h <= Rmax 1 (dt_min c) /\
  (0 < h_k e -> 0 < h_den e * h_heat e -> forall a b, (a < 8)%nat -> (b < 8)%nat -> a <> b ->
   c_dt h <= Rmax (3 / 10 * (euclid (h_pos e) a b) ^ 2 / (6 * (h_k e / (h_den e * h_heat e)))) (dt_min c)).
Proof.
  intros c env s Hm E i h es e Hi Hes He. rewrite <- sim_run in E by exact Hm.
  assert (K : c_dt h <= Rmax (th_limit e) (dt_min c)).
  { pose proof (C03_cfl (cfg1 c) (sim_env c env) s) as C. cbn [cfg1 dt_cfl fuzz dt_min] in C.
    assert (0 < Rmax (th_limit e) (dt_min c)) by (apply Rlt_le_trans with (dt_min c); [exact Hm|apply Rmax_r]).
    specialize (C ltac:(lra) E i h (map (sim c) es) (sim c e) Hi). specialize (C ltac:(apply in_map; exact Hes) ltac:(apply in_map; exact He) eq_refl).
    cbn [sim e_c e_x] in C. replace (/ Rmax (th_limit e) (dt_min c) - fuzz c + fuzz c) with (/ Rmax (th_limit e) (dt_min c)) in C by ring.
    specialize (C ltac:(apply Rinv_0_lt_compat; exact H) 0%nat 1%nat ltac:(lia) ltac:(lia) ltac:(lia)).
    assert (E01 : euclid unit_pos 0 1 = 1).
    { unfold euclid, unit_pos, ucube. cbn. replace (_ + _ + _) with 1 by (unfold Rsqr; lra). apply sqrt_1. }
    rewrite E01 in C. replace (1 * 1 / / Rmax (th_limit e) (dt_min c)) with (Rmax (th_limit e) (dt_min c)) in C by (field; lra).
    eapply Rle_trans; [exact C|]. apply Rmax_lub; [lra|apply Rmax_r]. }
  split.
  - eapply Rle_trans; [exact K|]. apply Rle_max_compat_r. unfold th_limit. cbv zeta. unfold fmin. repeat destruct (Req_EM_T _ _); try lra; apply Rmin_l.
  - intros Hk Hrc a b Ha Hb Hne. eapply Rle_trans; [exact K|]. apply Rle_max_compat_r. unfold th_limit. cbv zeta.
    destruct (Req_EM_T (h_den e * h_heat e) 0); [lra|].
    assert (Hal : 0 < h_k e / (h_den e * h_heat e)) by (apply Rdiv_lt_0_compat; assumption).
    destruct (Req_EM_T (h_k e / (h_den e * h_heat e)) 0); [lra|]. set (al := h_k e / (h_den e * h_heat e)) in *. clearbody al.
    eapply Rle_trans; [apply Rmin_r|]. destruct (C04_size_is_min_distance (h_pos e)) as [H1 (a0 & b0 & _ & _ & _ & E0)].
    specialize (H1 a b Ha Hb Hne). assert (0 <= dist_min (h_pos e)) by (rewrite E0; apply sqrt_pos).
    set (x := dist_min (h_pos e)) in *. set (y := euclid (h_pos e) a b) in *. clearbody x y.
    replace (x * x / (2 * 3 * al) * (3 / 10)) with (3 / 10 * / (6 * al) * (x * x)) by (field; lra).
    replace (3 / 10 * y ^ 2 / (6 * al)) with (3 / 10 * / (6 * al) * (y * y)) by (field; lra).
    apply Rmult_le_compat_l; [|nra]. assert (0 < / (6 * al)) by (apply Rinv_0_lt_compat; lra). lra.
Qed.
Print Assumptions C56_stability.

(** *** Termination and outputs *)

Theorem C56_ends : forall c env, good_cfg c -> (forall k, env k <> []) ->
  match th_run c env with
  | RUndefined => True
  | ReachedFinal s => t_final c <= time s <= t_final c + tiny c /\ (length (hist s) <= cycle_stop c)%nat
  | CycleLimit s => time s < t_final c /\ length (hist s) = cycle_stop c /\ t_start c + INR (cycle_stop c) * min_progress c <= time s
  end.
Proof.
  intros c env G Hne. rewrite <- sim_run by apply G. exact (C02_ends (cfg1 c) (sim_env c env) G (sim_nonempty c env Hne)).
Qed.
Print Assumptions C56_ends.

Theorem C56_outputs : forall c env, good_cfg c ->
  let common s :=
    (exists rest, writes s = t_start c :: rest) /\ strictly_increasing (writes s) /\
    (forall h, In h (hist s) -> c_gt h <= c_t1 h -> In (c_t1 h) (writes s)) /\
    (forall y, In y (writes s) -> y = t_start c \/ exists h, In h (hist s) /\ c_t1 h = y) in
  match th_run c env with
  | RUndefined => True
  | ReachedFinal s => common s /\ exists l, writes s = l ++ [time s]
  | CycleLimit s => common s
  end.
Proof. intros c env G. rewrite <- sim_run by apply G. exact (C05_outputs (cfg1 c) (sim_env c env) G). Qed.
Print Assumptions C56_outputs.

Theorem C56_schedule : forall c env s, sched_cfg c -> (forall k, env k <> []) -> final_of (th_run c env) = Some s ->
  forall k t, nth_error (writes s) k = Some t ->
    t <= INR k * gr_dt c + fuzz c + tiny c /\ (INR k * gr_dt c <= t \/ (t = time s /\ t_final c <= t)).
Proof.
  intros c env s G Hne E. rewrite <- sim_run in E by apply G. exact (C05_schedule (cfg1 c) (sim_env c env) s G (sim_nonempty c env Hne) E).
Qed.
Print Assumptions C56_schedule.

Example C56_ex : let c := mkCfg (/ 1000) 10 (/ 10) (/ 2) 0 (/ 1000000) 0 1 (/ 2) 100 1 in let e := mkTh unit_pos 2 1 3 in
  good_cfg c /\ th_limit e = 3 / 40 /\ exists s h, final_of (th_run c (fun _ => [[e]])) = Some s /\ hist s = [h] /\ c_dt h = 3 / 40.
Proof.
  cbv zeta. set (c := mkCfg _ _ _ _ _ _ _ _ _ _ _). set (e := mkTh unit_pos 2 1 3).
  assert (G : good_cfg c) by (unfold good_cfg, c; cbn; lra). assert (L : th_limit e = 3 / 40).
  { unfold th_limit, e. cbn [h_den h_heat h_k h_pos]. rewrite unit_size. destruct (Req_EM_T (1 * 3) 0); [lra|]. destruct (Req_EM_T _ 0); [lra|].
    unfold fmin. replace (1 * 1 / (2 * 3 * (2 / (1 * 3))) * (3 / 10)) with (3 / 40) by field. apply Rmin_right. lra. }
  split; [exact G|]. split; [exact L|].
  assert (D : th_cycle_dt c [[e]] (time (init_state c)) (gtime (init_state c)) (dt (init_state c)) = 3 / 40).
  { unfold th_cycle_dt, th_get_timestep. cbn [fold_left map reduce_min]. unfold th_elem_dt. rewrite L. unfold c. cbn [init_state time gtime dt dt_max dt_min fuzz tiny t_final dt_start t_start gr_dt].
    unfold fmin, fmax. rewrite (Rmin_left (3 / 40) 10) by lra. rewrite (Rmax_left (3 / 40)) by lra. destruct (Rlt_dec _ _); [|lra].
    rewrite (Rmax_right 0) by lra. rewrite (Rmin_left (3 / 40)) by lra. rewrite (Rmin_left (3 / 40)) by lra. apply Rmin_left. lra. }
  unfold th_run. change (cycle_stop c) with 1%nat. cbn [th_run_loop]. unfold th_cycle_body. rewrite D. unfold do_write, c.
  cbn [init_state time gtime dt cycle out_id writes hist t_start t_final gr_dt gr_cyc cycle_stop Nat.eqb Nat.modulo Nat.add Nat.divmod fst snd Nat.sub andb Nat.ltb Nat.leb].
  destruct (Rle_dec 1 (0 + 3 / 40)); [lra|]. destruct (Rle_dec (0 + / 2) (0 + 3 / 40)); [lra|]. cbn [andb].
  cbn [final_of hist app]. eexists. eexists. split; [reflexivity|]. split; [reflexivity|]. reflexivity.
Qed.
