(** Property theorems C01-C06: time control, outputs and solver windows. *)
From Coq Require Import NArith.
From Verif Require Import BaseReal TimeModel TimeSpec TimeProofs.
Local Open Scope R_scope.

(** Satisfiability of the hypotheses used below: a two-material run on a unit cube. *)
Definition ex_cube (n d : nat) : R :=
  match d with
  | O => if Nat.odd n then 1 else 0
  | S O => if Nat.odd (n / 2) then 1 else 0
  | _ => if Nat.odd (n / 4) then 1 else 0
  end.
Definition ex_cfg : tcfg := mkCfg 1e-8 1e-2 1e-5 0.4 1e-16 1e-12 0 1 0.25 (N.to_nat 2000000) 1000.
Definition ex_env : nat -> list (list elem_in) :=
  fun k => [[mkElem ex_cube (1 + INR k) false; mkElem ex_cube 2 true]; [mkElem ex_cube 3 false]].

Example ex_hyps : good_cfg ex_cfg /\ (forall k, ex_env k <> []) /\ 0 <= dt_cfl ex_cfg /\
  gr_cyc ex_cfg <> 0%nat /\ (N.of_nat (cycle_stop ex_cfg) < graphics_cap)%N /\ sched_cfg ex_cfg.
Proof.
  assert (good_cfg ex_cfg) by (unfold good_cfg, ex_cfg; cbn [dt_min dt_max dt_start dt_cfl fuzz tiny t_start t_final gr_dt]; lra).
  assert (H2 : (1000 < N.to_nat 2000000)%nat) by lia.
  split; [assumption|]. split; [discriminate|]. split; [unfold ex_cfg; cbn [dt_cfl]; lra|].
  split; [unfold ex_cfg; cbn [gr_cyc]; lia|].
  split; [unfold ex_cfg, graphics_cap; cbn [cycle_stop]; lia|].
  split; [assumption|]. split; [reflexivity|]. split; [exact H2|]. unfold ex_cfg; cbn [dt_min dt_max dt_start dt_cfl fuzz tiny t_start t_final gr_dt]; lra.
Qed.

(** The run of the example is defined, so the theorems below speak about a real final state. *)
Example ex_defined : exists s, final_of (run ex_cfg ex_env) = Some s.
Proof.
  destruct ex_hyps as (_ & _ & _ & H1 & H2 & _).
  pose proof (run_defined ex_cfg ex_env H1 H2) as H.
  destruct (run ex_cfg ex_env) as [|s|s]; [congruence| |]; exists s; reflexivity.
Qed.

(** C01 *)
Theorem C01_step_bounds : forall (c : tcfg) (env : nat -> list (list elem_in)) (s : lst),
  (forall k, env k <> []) -> final_of (run c env) = Some s ->
  forall h, In h (hist s) ->
    c_dt h <= dt_max c /\
    c_dt h <= c_dtin h * (11/10) /\
    c_dt h <= t_final c - c_t0 h + tiny c /\
    c_dt h <= Rmax (fuzz c) (c_gt h - c_t0 h) + tiny c /\
    c_t1 h = c_t0 h + c_dt h.
Proof. exact (fun c env s H1 H2 => proj1 (Forall_forall _ _) (run_step_bounds c env s H1 H2)). Qed.
Print Assumptions C01_step_bounds.

(** C02 *)
Theorem C02_progress : forall c env s,
  good_cfg c -> final_of (run c env) = Some s ->
  0 < min_progress c /\ forall h, In h (hist s) -> c_t0 h + min_progress c <= c_t1 h.
Proof. exact (fun c env s H1 H2 => conj (min_progress_pos c H1) (proj1 (Forall_forall _ _) (run_progress c env s H1 H2))). Qed.
Print Assumptions C02_progress.

Theorem C02_ends : forall c env,
  good_cfg c -> (forall k, env k <> []) ->
  match run c env with
  | RUndefined => True
  | ReachedFinal s => t_final c <= time s <= t_final c + tiny c /\ (length (hist s) <= cycle_stop c)%nat
  | CycleLimit s => time s < t_final c /\ length (hist s) = cycle_stop c /\
                    t_start c + INR (cycle_stop c) * min_progress c <= time s
  end.
Proof. exact run_ends. Qed.
Print Assumptions C02_ends.

Theorem C02_reaches_final_time : forall c env,
  good_cfg c -> (forall k, env k <> []) ->
  gr_cyc c <> 0%nat -> (N.of_nat (cycle_stop c) < graphics_cap)%N ->
  t_final c - t_start c <= INR (cycle_stop c) * min_progress c ->
  exists s, run c env = ReachedFinal s /\ t_final c <= time s <= t_final c + tiny c.
Proof.
  exact (fun c env G H1 H2 H3 H4 =>
    match run_reaches c env G H1 H4 with
    | or_introl U => False_ind _ (run_defined c env H2 H3 U)
    | or_intror X => X
    end).
Qed.
Print Assumptions C02_reaches_final_time.

(** satisfiable: ten cycles of guaranteed progress 1 cover a window of length 5 *)
Example C02_reaches_hyps :
  let c := mkCfg 1 2 1 0.4 0 1 0 5 1 100 10 in
  good_cfg c /\ gr_cyc c <> 0%nat /\ (N.of_nat (cycle_stop c) < graphics_cap)%N /\
  t_final c - t_start c <= INR (cycle_stop c) * min_progress c.
Proof.
  cbv zeta. split; [unfold good_cfg; cbn; lra|]. split; [cbn; lia|]. split; [unfold graphics_cap; cbn; lia|].
  unfold min_progress. cbn [dt_start dt_max dt_min tiny t_final t_start cycle_stop].
  replace (Rmin (Rmin 1 2) (Rmin 1 1)) with 1 by rdec. cbn [INR]. lra.
Qed.

(** C03 *)
Theorem C03_cfl : forall c env s,
  0 <= dt_cfl c -> final_of (run c env) = Some s ->
  forall i h es e, nth_error (hist s) i = Some h -> In es (env i) -> In e es ->
  e_eroded e = false -> 0 < e_c e + fuzz c ->
  forall a b, (a < 8)%nat -> (b < 8)%nat -> a <> b ->
  c_dt h <= Rmax (dt_cfl c * euclid (e_x e) a b / (e_c e + fuzz c)) (dt_min c).
Proof. exact run_cfl_full. Qed.
Print Assumptions C03_cfl.

Theorem C03_eroded_does_not_restrict : forall c e,
  e_eroded e = true -> elem_dt c e = Rmax (Rmin 1e32 (dt_max c)) (dt_min c).
Proof. exact elem_dt_eroded. Qed.
Print Assumptions C03_eroded_does_not_restrict.

(** C04 *)
Theorem C04_pairs : (forall a b, In (a, b) node_pairs <-> (a < b < 8)%nat) /\ NoDup node_pairs.
Proof. exact (conj node_pairs_complete node_pairs_nodup). Qed.
Print Assumptions C04_pairs.

Theorem C04_size_is_min_distance : forall x,
  (forall a b, (a < 8)%nat -> (b < 8)%nat -> a <> b -> dist_min x <= euclid x a b) /\
  (exists a b, (a < 8)%nat /\ (b < 8)%nat /\ a <> b /\ dist_min x = euclid x a b).
Proof. exact dist_min_euclid. Qed.
Print Assumptions C04_size_is_min_distance.

(** C05 *)
Theorem C05_outputs : forall c env, good_cfg c ->
  let common s :=
    (exists rest, writes s = t_start c :: rest) /\
    strictly_increasing (writes s) /\
    (forall h, In h (hist s) -> c_gt h <= c_t1 h -> In (c_t1 h) (writes s)) /\
    (forall y, In y (writes s) -> y = t_start c \/ exists h, In h (hist s) /\ c_t1 h = y) in
  match run c env with
  | RUndefined => True
  | ReachedFinal s => common s /\ exists l, writes s = l ++ [time s]
  | CycleLimit s => common s
  end.
Proof. exact run_outputs_common. Qed.
Print Assumptions C05_outputs.

Theorem C05_schedule : forall c env s,
  sched_cfg c -> (forall k, env k <> []) -> final_of (run c env) = Some s ->
  forall k t, nth_error (writes s) k = Some t ->
    t <= INR k * gr_dt c + fuzz c + tiny c /\
    (INR k * gr_dt c <= t \/ (t = time s /\ t_final c <= t)).
Proof. exact run_schedule. Qed.
Print Assumptions C05_schedule.

(** the state reached on the cycle limit is not written *)
Theorem C05_cycle_limit_written_refuted :
  exists c env s, good_cfg c /\ (forall k, env k <> []) /\ run c env = CycleLimit s /\
    hist s <> [] /\ ~ In (time s) (writes s).
Proof. exact cycle_limit_lost. Qed.
Print Assumptions C05_cycle_limit_written_refuted.

(** a solver that starts after time zero does not keep the output interval *)
Theorem C05_late_start_interval_refuted :
  exists c env s, good_cfg c /\ (forall k, env k <> []) /\ (cycle_stop c < gr_cyc c)%nat /\
    fuzz c + tiny c < gr_dt c /\
    run c env = CycleLimit s /\
    exists l a b, writes s = l ++ [a; b] /\ b < t_final c /\ b - a < gr_dt c / 100.
Proof. exact late_start_flood. Qed.
Print Assumptions C05_late_start_interval_refuted.

(** why: as long as the pending graphics time lies behind, every cycle writes and crawls *)
Theorem C05_crawl_when_behind : forall c env s,
  good_cfg c -> (forall k, env k <> []) -> final_of (run c env) = Some s ->
  forall h, In h (hist s) -> c_gt h <= c_t0 h -> c_dt h <= fuzz c + tiny c /\ c_wrote h = true.
Proof. exact (fun c env s H1 H2 H3 => proj1 (Forall_forall _ _) (run_late c env s H1 H2 H3)). Qed.
Print Assumptions C05_crawl_when_behind.

(** more than 20000 outputs overrun the table of graphics times *)
Theorem C05_many_outputs_refuted : exists c env,
  good_cfg c /\ gr_cyc c <> 0%nat /\ (forall k, env k <> []) /\ run c env = RUndefined.
Proof. exact overflow_witness. Qed.
Print Assumptions C05_many_outputs_refuted.

Theorem C05_defined : forall c env,
  gr_cyc c <> 0%nat -> (N.of_nat (cycle_stop c) < graphics_cap)%N -> run c env <> RUndefined.
Proof. exact run_defined. Qed.
Print Assumptions C05_defined.

(** C06 *)
Theorem C06_contiguous : forall tf ends,
  let l := solver_windows tf 0 0 ends in
  length l = length ends /\ contiguous l /\ (forall a b r, l = (a, b) :: r -> a = 0).
Proof. exact windows_contiguous. Qed.
Print Assumptions C06_contiguous.

Theorem C06_forward_bounded_partial : forall tf ends,
  nondecreasing ends -> (forall e, In e ends -> 1e-14 < e <= tf) ->
  Forall (fun w => fst w <= snd w /\ snd w <= tf) (solver_windows tf 0 0 ends).
Proof. exact windows_ok. Qed.
Print Assumptions C06_forward_bounded_partial.

Example C06_hyps : nondecreasing [1; 2; 2; 3] /\ (forall e, In e [1; 2; 2; 3] -> 1e-14 < e <= 4).
Proof. split; [cbn; lra|]. intros e [<-|[<-|[<-|[<-|[]]]]]; lra. Qed.

Theorem C06_bounded_refuted : exists tf ends,
  0 < tf /\ exists w, In w (solver_windows tf 0 0 ends) /\ tf < snd w.
Proof. exact windows_unbounded. Qed.
Print Assumptions C06_bounded_refuted.

Theorem C06_forward_refuted : exists tf ends, (forall e, In e ends -> 0 < e < tf) /\
  exists w, In w (solver_windows tf 0 0 ends) /\ snd w < fst w.
Proof. exact windows_backward. Qed.
Print Assumptions C06_forward_refuted.

(** consequence of a backward window: the first step is negative *)
Theorem C06_backward_window_negative_step : forall c mats t g d,
  mats <> [] -> t_final c + tiny c < t -> cycle_dt c mats t g d < 0.
Proof. exact backward_negative. Qed.
Print Assumptions C06_backward_window_negative_step.
