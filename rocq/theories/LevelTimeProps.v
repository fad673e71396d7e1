(** C58: time steps and outputs of the level-set solver. *)
From Coq Require Import NArith.
From Verif Require Import BaseReal GeomModel GeomSpec GeomProofs TimeModel TimeSpec TimeProofs TimeProps ThermTimeModel ThermTimeProps LevelTimeModel LevelTimeProofs.
Local Open Scope R_scope.

(** ** Bounds on the step *)

(** dt_max always; growth, end and next output if some material evolves a front in that cycle. *)
Theorem C58_step_bounds : forall c dims env s, final_of (lv_run c dims env) = Some s -> forall i h, nth_error (hist s) i = Some h ->
  c_dt h <= dt_max c /\ c_t1 h = c_t0 h + c_dt h /\
  (has_front (env i) -> c_dt h <= c_dtin h * (11 / 10) /\ c_dt h <= t_final c - c_t0 h + tiny c /\ c_dt h <= Rmax (fuzz c) (c_gt h - c_t0 h) + tiny c).
Proof.
  intros c dims env. apply (lv_hist_inv c dims env). intros s s' h F.
  rewrite (lf_t1 _ _ _ _ _ _ F), (lf_dt _ _ _ _ _ _ F), (lf_t0 _ _ _ _ _ _ F), (lf_dtin _ _ _ _ _ _ F), (lf_gt _ _ _ _ _ _ F).
  split; [apply lv_cycle_le_max|]. split; [easy|]. intros (m & Hm & He).
  pose proof (lv_cycle_le_mat c dims (env (cycle s)) (time s) (gtime s) (dt s) m Hm) as H. unfold lv_mat_dt in H. rewrite He in H.
  split; [|split]; (eapply Rle_trans; [exact H|]); [apply lv_get_le_growth|apply lv_get_le_final|apply lv_get_le_graphics].
Qed.
Print Assumptions C58_step_bounds.

(** The CFL limit of every element of an evolving material. *)
Theorem C58_cfl : forall c dims env s, final_of (lv_run c dims env) = Some s -> forall i h m x, nth_error (hist s) i = Some h ->
  In m (env i) -> lv_evolves m = true -> In x (lv_elems m) -> lv_size dims x <> 0 ->
  let front := 3 / 2 + lv_normal m + lv_curv m / (3 * lv_size dims x) + fuzz c in front <> 0 ->
  c_dt h <= Rmax (dt_cfl c * lv_size dims x / front) (dt_min c).
Proof.
  intros c dims env s E i h m x Hi Hm He Hx Hz. cbv zeta. intros Hf. revert Hm.
  refine (lv_hist_inv c dims env (fun i h => In m (env i) -> c_dt h <= Rmax (dt_cfl c * lv_size dims x / (3 / 2 + lv_normal m + lv_curv m / (3 * lv_size dims x) + fuzz c)) (dt_min c)) _ s E i h Hi). clear - He Hx Hz Hf. intros s s' h F Hm.
  rewrite (lf_dt _ _ _ _ _ _ F). eapply Rle_trans; [exact (lv_cycle_le_mat c dims _ _ _ _ m Hm)|]. unfold lv_mat_dt. rewrite He.
  eapply Rle_trans; [exact (lv_get_le_elem c dims m _ _ _ x Hx)|]. unfold lv_elem_dt, fmax. apply Rle_max_compat_r. unfold lv_limit. cbv zeta.
  destruct (Req_EM_T (lv_size dims x) 0); [easy|].
  assert (Ev : 3 / 2 + lv_normal m + lv_curv m * (1 / (3 * lv_size dims x)) + fuzz c = 3 / 2 + lv_normal m + lv_curv m / (3 * lv_size dims x) + fuzz c) by (field; exact Hz).
  rewrite Ev. destruct (Req_EM_T _ 0); [easy|]. apply Rmin_l.
Qed.
Print Assumptions C58_cfl.

(** The size is the shortest distance between two nodes of the element. *)
Theorem C58_size : forall x,
  (forall a b, (a < 8)%nat -> (b < 8)%nat -> a <> b -> lv_size 3 x <= euclid x a b) /\
  (exists a b, (a < 8)%nat /\ (b < 8)%nat /\ a <> b /\ lv_size 3 x = euclid x a b) /\
  (forall a b, (a < 4)%nat -> (b < 4)%nat -> a <> b -> lv_size 2 x <= sqrt (Rsqr (x a 0%nat - x b 0%nat) + Rsqr (x a 1%nat - x b 1%nat))) /\
  (exists a b, (a < 4)%nat /\ (b < 4)%nat /\ a <> b /\ lv_size 2 x = sqrt (Rsqr (x a 0%nat - x b 0%nat) + Rsqr (x a 1%nat - x b 1%nat))).
Proof.
  intros x. destruct (C04_size_is_min_distance x) as [H1 H2]. destruct (quad_min_spec x) as [H3 H4].
  assert (Q : forall a b, quad_dist x a b = sqrt (Rsqr (x a 0%nat - x b 0%nat) + Rsqr (x a 1%nat - x b 1%nat))).
  { intros a b. unfold quad_dist. rewrite Rabs_right by (apply Rle_ge, sqrt_pos). f_equal. unfold Rsqr. ring. }
  split; [exact H1|]. split; [exact H2|]. split.
  - intros a b Ha Hb Hn. rewrite <- Q. now apply H3.
  - destruct H4 as (a & b & A & B & C & D). exists a, b. rewrite <- Q. auto.
Qed.
Print Assumptions C58_size.

(** A front with velocities that are not negative (and the redistancing, of speed up to 1) travels at most dt_cfl times the
    size of the element in one step, unless the step was raised to dt_min. *)
Theorem C58_front_travel : forall c dims env s, 0 <= fuzz c -> 0 <= dt_cfl c -> final_of (lv_run c dims env) = Some s ->
  forall i h m x, nth_error (hist s) i = Some h -> In m (env i) -> lv_evolves m = true -> In x (lv_elems m) -> 0 < lv_size dims x ->
  0 <= lv_normal m -> 0 <= lv_curv m ->
  c_dt h * (lv_normal m + 1) <= Rmax (dt_cfl c * lv_size dims x) (dt_min c * (lv_normal m + 1)).
Proof.
  intros c dims env s Hfz Hcfl E i h m x Hi Hm He Hx Hs Hn Hc.
  assert (Hk : 0 <= lv_curv m / (3 * lv_size dims x)) by (unfold Rdiv; apply Rmult_le_pos; [exact Hc|apply Rlt_le, Rinv_0_lt_compat; lra]).
  pose proof (C58_cfl c dims env s E i h m x Hi Hm He Hx ltac:(lra)) as K. cbv zeta in K. specialize (K ltac:(lra)).
  set (v := 3 / 2 + lv_normal m + lv_curv m / (3 * lv_size dims x) + fuzz c) in *. assert (Hv : lv_normal m + 1 <= v) by (unfold v; lra). clearbody v.
  assert (0 <= dt_cfl c * lv_size dims x) by (apply Rmult_le_pos; lra).
  apply (Rmult_le_compat_r (lv_normal m + 1)) in K; [|lra]. eapply Rle_trans; [exact K|]. rewrite Rmult_comm, <- RmaxRmult, (Rmult_comm _ (dt_min c)) by lra. apply Rle_max_compat_r. rewrite Rmult_comm.
  set (q := dt_cfl c * lv_size dims x) in *. clearbody q. unfold Rdiv. rewrite Rmult_assoc. rewrite <- (Rmult_1_r q) at 2. apply Rmult_le_compat_l; [lra|].
  apply (Rmult_le_reg_l v); [lra|]. field_simplify; lra.
Qed.
Print Assumptions C58_front_travel.

(** With a negative normal velocity the limit is too large: a step of twice dt_cfl times the size over the speed. *)
Definition neg_cfg : tcfg := mkCfg (/ 1000) 10 1 (/ 2) 0 (/ 10) 0 10 5 100 1.
Definition inward : lv_mat := mkLv true (-1) 0 [unit_pos].

Lemma one_cycle c dims env d : cycle_stop c = 1%nat -> lv_cycle_dt c dims (env 0%nat) (t_start c) (t_start c + gr_dt c) (dt_start c) = d -> (2 <= gr_cyc c)%nat ->
  exists s h, final_of (lv_run c dims env) = Some s /\ hist s = [h] /\ c_dt h = d /\ time s = t_start c + d.
Proof.
  intros H1 H2 H3. unfold lv_run. rewrite H1. cbn [lv_run_loop]. unfold lv_cycle_body. cbn [init_state time gtime dt cycle out_id writes hist]. rewrite H2.
  assert (Hw : exists w, do_write c 0 (t_start c + d) (t_start c + gr_dt c) = Some w).
  { unfold do_write. destruct (Nat.eqb_spec (gr_cyc c) 0); [lia|]. eauto. }
  destruct Hw as (w & ->). replace (w && negb (write_ok 1)) with false by (destruct w; reflexivity).
  destruct w; destruct (Rle_dec (t_final c) (t_start c + d)); cbn [final_of hist app]; eexists; eexists; (split; [reflexivity|]); (split; [reflexivity|]); split; reflexivity.
Qed.

Theorem C58_negative_velocity_refuted : good_cfg neg_cfg /\ exists s h, final_of (lv_run neg_cfg 3 (fun _ => [inward])) = Some s /\ hist s = [h] /\
  c_dt h * Rabs (lv_normal inward) = 2 * (dt_cfl neg_cfg * lv_size 3 unit_pos) /\ dt_min neg_cfg < c_dt h.
Proof.
  split; [unfold good_cfg, neg_cfg; cbn; lra|].
  destruct (one_cycle neg_cfg 3 (fun _ => [inward]) 1) as (s & h & A & B & C & _); [reflexivity| |cbn; lia|].
  - assert (L : lv_elem_dt neg_cfg 3 inward unit_pos = 1).
    { unfold lv_elem_dt, lv_limit. cbn [lv_size Nat.eqb inward lv_curv lv_normal neg_cfg dt_max dt_min dt_cfl fuzz]. rewrite unit_size. cbv zeta. destruct (Req_EM_T 1 0); [lra|].
      replace (3 / 2 + -1 + 0 * (1 / (3 * 1)) + 0) with (/ 2) by field. destruct (Req_EM_T (/ 2) 0); [lra|]. replace (/ 2 * 1 / / 2) with 1 by field.
      unfold fmin, fmax. rewrite Rmin_left by lra. apply Rmax_left. lra. }
    unfold lv_cycle_dt, lv_mat_dt, lv_get_timestep. unfold reduce_min. cbn [fold_left]. change (lv_evolves inward) with true. change (lv_elems inward) with [unit_pos]. cbn [fold_left map]. rewrite L.
    cbn [neg_cfg dt_max fuzz tiny t_start t_final gr_dt dt_start]. unfold fmin, fmax. rewrite (Rmax_right 0) by lra.
    destruct (Rlt_dec 1 (1 * (11 / 10))); [|lra]. rewrite (Rmin_left 1 (0 + 5 - 0 + / 10)) by lra. rewrite (Rmin_left 1 (10 - 0 + / 10)) by lra. apply Rmin_left. lra.
  - exists s, h. split; [exact A|]. split; [exact B|]. rewrite C. cbn [lv_size Nat.eqb neg_cfg dt_cfl dt_min inward lv_normal]. rewrite unit_size. split; [|lra].
    rewrite Rabs_left by lra. lra.
Qed.
Print Assumptions C58_negative_velocity_refuted.

(** A material that does not evolve a front hands the old step back unchanged, so with such a material present the step never
    exceeds the start value. *)
Theorem C58_never_grows : forall c dims env s, (forall k, exists m, In m (env k) /\ lv_evolves m = false) -> final_of (lv_run c dims env) = Some s ->
  forall h, In h (hist s) -> c_dt h <= dt_start c.
Proof.
  intros c dims env s Hn E. cut (dt s <= dt_start c /\ forall h, In h (hist s) -> c_dt h <= dt_start c); [tauto|].
  refine (lv_all_inv c dims env (fun s => dt s <= dt_start c /\ forall h, In h (hist s) -> c_dt h <= dt_start c) _ _ s E); [|split; [apply Rle_refl|intros h []]].
  clear s E. intros s s' h [I1 I2] F _. assert (Hd : c_dt h <= dt s).
  { rewrite (lf_dt _ _ _ _ _ _ F). destruct (Hn (cycle s)) as (m & Hm & He). pose proof (lv_cycle_le_mat c dims (env (cycle s)) (time s) (gtime s) (dt s) m Hm) as H.
    unfold lv_mat_dt in H. now rewrite He in H. }
  split.
  - destruct (c_wrote h) eqn:W; [destruct (lf_yes _ _ _ _ _ _ F W) as (-> & _)|destruct (lf_no _ _ _ _ _ _ F W) as (-> & _)]; lra.
  - intros h' Hh. rewrite (lf_hist _ _ _ _ _ _ F) in Hh. apply in_app_iff in Hh. destruct Hh as [Hh|[<-|[]]]; [now apply I2|lra].
Qed.
Print Assumptions C58_never_grows.

(** ** Termination *)

Theorem C58_ends : forall c dims env, good_cfg c ->
  match lv_run c dims env with
  | RUndefined => True
  | ReachedFinal s => t_final c <= time s /\ time s <= t_final c + dt_max c /\ ((forall k, has_front (env k)) -> time s <= t_final c + tiny c) /\ (length (hist s) <= cycle_stop c)%nat
  | CycleLimit s => time s < t_final c /\ length (hist s) = cycle_stop c /\ t_start c + INR (cycle_stop c) * min_progress c <= time s
  end.
Proof.
  intros c dims env G.
  assert (K := lv_loop_inv c dims env (lv_prog c) (fun s => t_final c <= time s /\ time s <= t_final c + dt_max c /\ ((forall k, has_front (env k)) -> time s <= t_final c + tiny c) /\ (length (hist s) <= cycle_stop c)%nat)).
  assert (K1 : forall s s' h, lv_prog c s -> lv_facts c dims (env (cycle s)) s s' h -> (cycle s < cycle_stop c)%nat -> time s' < t_final c -> lv_prog c s').
  { intros s s' h I F _ Ht. destruct (lv_prog_step c dims _ s s' h G I F) as (_ & A & B & C). repeat split; assumption. }
  assert (K2 : forall s s' h, lv_prog c s -> lv_facts c dims (env (cycle s)) s s' h -> (cycle s < cycle_stop c)%nat -> t_final c <= time s' ->
    t_final c <= time s' /\ time s' <= t_final c + dt_max c /\ ((forall k, has_front (env k)) -> time s' <= t_final c + tiny c) /\ (length (hist s') <= cycle_stop c)%nat).
  { intros s s' h I F Hc Ht. destruct (lv_prog_step c dims _ s s' h G I F) as (_ & A & B & C). destruct (lv_time_le _ _ _ _ _ _ F) as [T1 T2].
    destruct I as (_ & I2 & _). split; [exact Ht|]. split; [lra|]. split; [intros H; now apply T2|]. rewrite C, (lf_cycle _ _ _ _ _ _ F). lia. }
  specialize (K K1 K2 (lv_prog_init c G)). destruct (lv_run c dims env); [exact I|exact K|]. destruct K as [(I1 & I2 & I3 & I4) K]. rewrite K in *. auto.
Qed.
Print Assumptions C58_ends.

(** Without an evolving material the end is overshot: the step is not shortened to meet it. *)
Definition over_cfg : tcfg := mkCfg (/ 1000) 10 (3 / 4) (/ 2) 0 (/ 1000) 0 (1 / 2) 5 100 1.
Theorem C58_overshoot_refuted : good_cfg over_cfg /\ exists s h, final_of (lv_run over_cfg 3 (fun _ => [mkLv false 0 0 [unit_pos]])) = Some s /\
  hist s = [h] /\ time s = t_final over_cfg + 1 / 4.
Proof.
  split; [unfold good_cfg, over_cfg; cbn; lra|].
  destruct (one_cycle over_cfg 3 (fun _ => [mkLv false 0 0 [unit_pos]]) (3 / 4)) as (s & h & A & B & _ & D); [reflexivity| |cbn; lia|].
  - rewrite lv_cycle_no_front; [|easy|intros m [<-|[]]; reflexivity]. cbn. apply Rmin_left. lra.
  - exists s, h. split; [exact A|]. split; [exact B|]. rewrite D. cbn. lra.
Qed.
Print Assumptions C58_overshoot_refuted.

(** ** Outputs *)

Theorem C58_outputs : forall c dims env, good_cfg c ->
  let common s :=
    (exists rest, writes s = t_start c :: rest) /\ strictly_increasing (writes s) /\
    (forall h, In h (hist s) -> c_gt h <= c_t1 h -> In (c_t1 h) (writes s)) /\
    (forall y, In y (writes s) -> y = t_start c \/ exists h, In h (hist s) /\ c_t1 h = y) in
  match lv_run c dims env with
  | RUndefined => True
  | ReachedFinal s => common s /\ exists l, writes s = l ++ [time s]
  | CycleLimit s => common s
  end.
Proof.
  intros c dims env G. cbv zeta.
  set (common := fun s => (exists rest, writes s = t_start c :: rest) /\ strictly_increasing (writes s) /\
    (forall h, In h (hist s) -> c_gt h <= c_t1 h -> In (c_t1 h) (writes s)) /\
    (forall y, In y (writes s) -> y = t_start c \/ exists h, In h (hist s) /\ c_t1 h = y)).
  set (J := fun s => common s /\ forall y, In y (writes s) -> y <= time s).
  assert (ST : forall s s' h, lv_prog c s /\ J s -> lv_facts c dims (env (cycle s)) s s' h -> J s' /\ (t_final c <= time s' -> exists l, writes s' = l ++ [time s'])).
  { intros s s' h [I0 (((rest & I1) & I2 & I3 & I4) & I5)] F. destruct (lv_prog_step c dims _ s s' h G I0 F) as (A & _). pose proof (min_progress_pos c G) as Hp.
    assert (Ht : time s < time s') by (rewrite (lf_time _ _ _ _ _ _ F), (lf_t1 _ _ _ _ _ _ F), (lf_t0 _ _ _ _ _ _ F); lra).
    pose proof (lf_time _ _ _ _ _ _ F) as Et. destruct (c_wrote h) eqn:W.
    - destruct (lf_yes _ _ _ _ _ _ F W) as (_ & _ & Ew). split; [split|]; [| |intros _; exists (writes s); now rewrite Ew, Et].
      + unfold common. rewrite Ew, (lf_hist _ _ _ _ _ _ F). split; [exists (rest ++ [c_t1 h]); now rewrite I1|]. split; [|split].
        * apply si_snoc; [exact I2|]. intros y Hy. apply I5 in Hy. lra.
        * intros h' Hh Hg. apply in_app_iff in Hh. apply in_app_iff. destruct Hh as [Hh|[<-|[]]]; [left; now apply I3|right; now left].
        * intros y Hy. apply in_app_iff in Hy. destruct Hy as [Hy|[<-|[]]].
          -- destruct (I4 y Hy) as [Q|(h' & Q1 & Q2)]; [now left|right; exists h'; split; [apply in_app_iff; now left|easy]].
          -- right. exists h. split; [apply in_app_iff; right; now left|easy].
      + intros y Hy. rewrite Ew in Hy. apply in_app_iff in Hy. destruct Hy as [Hy|[<-|[]]]; [apply I5 in Hy; lra|lra].
    - destruct (lf_no _ _ _ _ _ _ F W) as (_ & _ & Ew). pose proof (lf_w _ _ _ _ _ _ F) as Hw. rewrite W in Hw. split; [split|].
      + unfold common. rewrite Ew, (lf_hist _ _ _ _ _ _ F). split; [now exists rest|]. split; [exact I2|]. split.
        * intros h' Hh Hg. apply in_app_iff in Hh. destruct Hh as [Hh|[<-|[]]]; [now apply I3|]. rewrite (lf_gt _ _ _ _ _ _ F) in Hg. now apply do_write_gt in Hw.
        * intros y Hy. destruct (I4 y Hy) as [Q|(h' & Q1 & Q2)]; [now left|right; exists h'; split; [apply in_app_iff; now left|easy]].
      + intros y Hy. rewrite Ew in Hy. apply I5 in Hy. lra.
      + intros Hf. rewrite Et in Hf. now apply do_write_final in Hw. }
  assert (K := lv_loop_inv c dims env (fun s => lv_prog c s /\ J s) (fun s => common s /\ exists l, writes s = l ++ [time s])).
  assert (K0 : lv_prog c (init_state c) /\ J (init_state c)).
  { split; [now apply lv_prog_init|]. split; [|cbn; intros y [<-|[]]; lra]. split; [exists []; reflexivity|]. split; [cbn; tauto|]. split; [intros h []|]. cbn. intros y [<-|[]]. now left. }
  specialize (K (fun s s' h I F _ Ht => conj (let '(conj _ (conj A (conj B C))) := lv_prog_step c dims _ s s' h G (proj1 I) F in conj A (conj Ht (conj B C))) (proj1 (ST s s' h I F)))
    (fun s s' h I F _ Ht => conj (proj1 (proj1 (ST s s' h I F))) (proj2 (ST s s' h I F) Ht)) K0).
  destruct (lv_run c dims env); [exact I|exact K|apply K].
Qed.
Print Assumptions C58_outputs.

(** Outputs by time only: each comes one interval after the one before, late by at most fuzz + tiny ... *)
Theorem C58_spacing : forall c dims env s, good_cfg c -> (cycle_stop c < gr_cyc c)%nat -> 0 < gr_dt c -> (forall k, has_front (env k)) ->
  final_of (lv_run c dims env) = Some s -> forall k a b, nth_error (writes s) k = Some a -> nth_error (writes s) (S k) = Some b ->
  b <= a + gr_dt c + fuzz c + tiny c /\ (a + gr_dt c <= b \/ (b = time s /\ t_final c <= b)).
Proof.
  intros c dims env s G Hg Hd Hf E.
  set (sp := fun s => forall k a b, nth_error (writes s) k = Some a -> nth_error (writes s) (S k) = Some b ->
    b <= a + gr_dt c + fuzz c + tiny c /\ (a + gr_dt c <= b \/ (b = time s /\ t_final c <= b))).
  set (J := fun s => lv_prog c s /\ (forall k a b, nth_error (writes s) k = Some a -> nth_error (writes s) (S k) = Some b ->
    b <= a + gr_dt c + fuzz c + tiny c /\ a + gr_dt c <= b) /\ time s < gtime s /\ exists l a, writes s = l ++ [a] /\ gtime s = a + gr_dt c).
  assert (PR : forall s s' h, lv_prog c s -> lv_facts c dims (env (cycle s)) s s' h -> time s' < t_final c -> lv_prog c s').
  { intros s0 s' h I F Ht. destruct (lv_prog_step c dims _ s0 s' h G I F) as (_ & A & B & C). repeat split; assumption. }
  assert (LE : forall s s' h, lv_facts c dims (env (cycle s)) s s' h -> time s < gtime s -> 0 <= fuzz c -> time s' <= gtime s + fuzz c + tiny c).
  { intros s0 s' h F Ht Hfz. destruct (Hf (cycle s0)) as (m & Hm & He). pose proof (lv_cycle_le_mat c dims (env (cycle s0)) (time s0) (gtime s0) (dt s0) m Hm) as H. unfold lv_mat_dt in H. rewrite He in H.
    pose proof (lv_get_le_graphics c dims m (time s0) (gtime s0) (dt s0)) as H'. rewrite (lf_time _ _ _ _ _ _ F), (lf_t1 _ _ _ _ _ _ F), (lf_t0 _ _ _ _ _ _ F), (lf_dt _ _ _ _ _ _ F).
    assert (Rmax (fuzz c) (gtime s0 - time s0) <= gtime s0 - time s0 + fuzz c) by (apply Rmax_lub; lra). lra. }
  assert (G5 : 0 <= fuzz c) by apply G.
  assert (SN : forall (l : list R) a t k x y, nth_error ((l ++ [a]) ++ [t]) k = Some x -> nth_error ((l ++ [a]) ++ [t]) (S k) = Some y ->
    (nth_error (l ++ [a]) k = Some x /\ nth_error (l ++ [a]) (S k) = Some y) \/ (x = a /\ y = t)).
  { intros l a t k x y Hx Hy. destruct (Nat.lt_ge_cases (S k) (length (l ++ [a]))) as [L|L].
    - left. rewrite nth_error_app1 in Hx by lia. rewrite nth_error_app1 in Hy by lia. auto.
    - right. assert (Lk : (S k < length ((l ++ [a]) ++ [t]))%nat) by (apply nth_error_Some; congruence). rewrite app_length in L. rewrite !app_length in Lk. cbn [length] in L, Lk. assert (Ek : k = length l) by lia. subst k.
      rewrite <- app_assoc in Hx. rewrite nth_error_app2, Nat.sub_diag in Hx by lia. injection Hx as <-.
      rewrite nth_error_app2 in Hy by (rewrite app_length; cbn; lia). rewrite app_length in Hy. cbn [length] in Hy. replace (S (length l) - (length l + 1))%nat with O in Hy by lia. injection Hy as <-. auto. }
  assert (K := lv_loop_inv c dims env J sp).
  assert (K1 : forall s s' h, J s -> lv_facts c dims (env (cycle s)) s s' h -> (cycle s < cycle_stop c)%nat -> time s' < t_final c -> J s').
  { intros s0 s' h (I1 & I2 & I3 & (l & a & I4 & I5)) F Hc Ht. split; [exact (PR _ _ _ I1 F Ht)|]. pose proof (LE _ _ _ F I3 G5) as HL. pose proof (lf_time _ _ _ _ _ _ F) as Et.
    pose proof (lf_w _ _ _ _ _ _ F) as Hw. destruct (c_wrote h) eqn:W.
    - destruct (lf_yes _ _ _ _ _ _ F W) as (_ & Eg & Ew). assert (Hge : gtime s0 <= c_t1 h) by (destruct (do_write_sched _ _ _ _ _ Hg Hc Hw eq_refl); lra).
      split; [|split].
      + rewrite Ew, I4. intros k x y Hx Hy. destruct (SN l a (c_t1 h) k x y Hx Hy) as [[Q1 Q2]|[-> ->]]; [rewrite <- I4 in Q1, Q2; exact (I2 k x y Q1 Q2)|]. lra.
      + rewrite Eg, Et. lra.
      + exists (writes s0), (c_t1 h). auto.
    - destruct (lf_no _ _ _ _ _ _ F W) as (_ & Eg & Ew). rewrite Ew, Eg, Et. split; [exact I2|]. split; [|now exists l, a].
      apply Rnot_le_lt. intros H. now apply do_write_gt in Hw. }
  assert (K2 : forall s s' h, J s -> lv_facts c dims (env (cycle s)) s s' h -> (cycle s < cycle_stop c)%nat -> t_final c <= time s' -> sp s').
  { intros s0 s' h (I1 & I2 & I3 & (l & a & I4 & I5)) F Hc Ht. pose proof (LE _ _ _ F I3 G5) as HL. pose proof (lf_time _ _ _ _ _ _ F) as Et.
    pose proof (lf_w _ _ _ _ _ _ F) as Hw. unfold sp. destruct (c_wrote h) eqn:W.
    - destruct (lf_yes _ _ _ _ _ _ F W) as (_ & Eg & Ew). rewrite Ew, I4. intros k x y Hx Hy. destruct (SN l a (c_t1 h) k x y Hx Hy) as [[Q1 Q2]|[-> ->]].
      + rewrite <- I4 in Q1, Q2. destruct (I2 k x y Q1 Q2). auto.
      + split; [lra|]. right. lra.
    - destruct (lf_no _ _ _ _ _ _ F W) as (_ & Eg & Ew). rewrite Ew. intros k x y Hx Hy. destruct (I2 k x y Hx Hy). auto. }
  assert (K0 : J (init_state c)).
  { split; [now apply lv_prog_init|]. split; [|split; [cbn; lra|exists [], (t_start c); split; reflexivity]]. intros k x y Hx Hy. cbn [init_state writes nth_error] in Hy. destruct k; discriminate. }
  specialize (K K1 K2 K0). destruct (lv_run c dims env) as [|s1|s1]; [discriminate| |]; injection E as <-; [exact K|].
  destruct K as [(_ & K & _) _]. intros k a b Ha Hb. destruct (K k a b Ha Hb). auto.
Qed.
Print Assumptions C58_spacing.

(** ... but the lateness adds up: the second output can be later than 2 intervals + fuzz + tiny (the hydro solver's outputs are not, C05_schedule). *)
Definition drift_cfg : tcfg := mkCfg (/ 1000) 10 1 1 0 (/ 10) 0 5 1 100 2.
Definition slow : lv_mat := mkLv true 0 0 [fun n d => 4 * unit_pos n d].
Theorem C58_drift_refuted : sched_cfg drift_cfg /\ exists s t, final_of (lv_run drift_cfg 3 (fun _ => [slow])) = Some s /\ nth_error (writes s) 2 = Some t /\
  2 * gr_dt drift_cfg + fuzz drift_cfg + tiny drift_cfg < t.
Proof.
  assert (Hs : dist_min (fun n d => 4 * unit_pos n d) = 4).
  { destruct (C04_size_is_min_distance (fun n d => 4 * unit_pos n d)) as [H1 (a & b & Ha & Hb & Hne & E)]. destruct (C04_size_is_min_distance unit_pos) as [H2 _].
    assert (Q : forall a b, euclid (fun n d => 4 * unit_pos n d) a b = 4 * euclid unit_pos a b).
    { intros a0 b0. unfold euclid. replace 4 with (sqrt (4 * 4)) at 7 by (apply sqrt_square; lra). rewrite <- sqrt_mult_alt by lra. f_equal. unfold Rsqr. ring. }
    assert (E01 : euclid unit_pos 0 1 = 1).
    { unfold euclid, unit_pos, ucube. cbn. replace (_ + _ + _) with 1 by (unfold Rsqr; lra). apply sqrt_1. }
    apply Rle_antisym; [specialize (H1 0%nat 1%nat ltac:(lia) ltac:(lia) ltac:(lia)); rewrite Q, E01 in H1; lra|]. rewrite E, Q. specialize (H2 a b Ha Hb Hne). rewrite unit_size in H2. lra. }
  assert (L : lv_elem_dt drift_cfg 3 slow (fun n d => 4 * unit_pos n d) = 8 / 3).
  { unfold lv_elem_dt, lv_limit. cbn [lv_size Nat.eqb slow lv_curv lv_normal drift_cfg dt_max dt_min dt_cfl fuzz]. rewrite Hs. cbv zeta. destruct (Req_EM_T 4 0); [lra|].
    replace (3 / 2 + 0 + 0 * (1 / (3 * 4)) + 0) with (3 / 2) by field. destruct (Req_EM_T (3 / 2) 0); [lra|]. replace (1 * 4 / (3 / 2)) with (8 / 3) by field. unfold fmin, fmax. rewrite Rmin_left by lra. apply Rmax_left. lra. }
  assert (D : forall t, 0 <= t <= 2 -> lv_cycle_dt drift_cfg 3 [slow] t (t + 1) 1 = 11 / 10).
  { intros t Ht. unfold lv_cycle_dt, lv_mat_dt, lv_get_timestep. unfold reduce_min. cbn [fold_left]. change (lv_evolves slow) with true. change (lv_elems slow) with [fun n d => 4 * unit_pos n d]. cbn [fold_left map]. rewrite L. cbn [drift_cfg dt_max fuzz tiny t_final].
    unfold fmin, fmax. destruct (Rlt_dec (8 / 3) (1 * (11 / 10))); [lra|]. rewrite (Rmax_right 0) by lra. rewrite (Rmin_left (1 * (11 / 10))) by lra. rewrite (Rmin_left (1 * (11 / 10))) by lra. rewrite Rmin_left; lra. }
  split; [unfold sched_cfg, good_cfg; cbn; split; [lra|]; split; [lra|]; split; [lia|lra]|].
  unfold lv_run. change (cycle_stop drift_cfg) with 2%nat. cbn [lv_run_loop].
  assert (B1 : lv_cycle_body drift_cfg 3 [slow] (init_state drift_cfg) = Continue (mkLst (0 + 11 / 10) 1 (0 + 11 / 10 + 1) 2 1 [0; 0 + 11 / 10] [mkCyc 0 1 (0 + 1) (11 / 10) (0 + 11 / 10) true])).
  { unfold lv_cycle_body. cbn [init_state time gtime dt cycle out_id writes hist drift_cfg t_start dt_start gr_dt t_final]. rewrite D by lra.
    unfold do_write. cbn [drift_cfg gr_cyc cycle_stop t_final Nat.eqb Nat.modulo Nat.add Nat.divmod fst snd Nat.sub andb Nat.ltb Nat.leb].
    destruct (Rle_dec 5 (0 + 11 / 10)); [lra|]. destruct (Rle_dec (0 + 1) (0 + 11 / 10)); [|lra]. reflexivity. }
  rewrite B1. cbn [cycle].
  assert (B2 : exists h, lv_cycle_body drift_cfg 3 [slow] (mkLst (0 + 11 / 10) 1 (0 + 11 / 10 + 1) 2 1 [0; 0 + 11 / 10] [mkCyc 0 1 (0 + 1) (11 / 10) (0 + 11 / 10) true]) =
    Continue (mkLst (0 + 11 / 10 + 11 / 10) 1 (0 + 11 / 10 + 11 / 10 + 1) 3 2 [0; 0 + 11 / 10; 0 + 11 / 10 + 11 / 10] h)).
  { eexists. unfold lv_cycle_body. cbn [time gtime dt cycle out_id writes hist drift_cfg gr_dt t_final]. rewrite D by lra.
    unfold do_write. cbn [drift_cfg gr_cyc cycle_stop t_final Nat.eqb Nat.modulo Nat.add Nat.divmod fst snd Nat.sub andb Nat.ltb Nat.leb].
    destruct (Rle_dec 5 (0 + 11 / 10 + 11 / 10)); [lra|]. destruct (Rle_dec (0 + 11 / 10 + 1) (0 + 11 / 10 + 11 / 10)); [|lra]. reflexivity. }
  destruct B2 as (h & ->). cbn [final_of]. eexists. exists (0 + 11 / 10 + 11 / 10). split; [reflexivity|]. split; [reflexivity|]. cbn [drift_cfg gr_dt fuzz tiny]. lra.
Qed.
Print Assumptions C58_drift_refuted.

(** the hypotheses of the bounds are met by that run: an evolving material of velocity 0 and cells of size 4 *)
Example C58_ex : good_cfg drift_cfg /\ has_front [slow] /\ lv_size 3 unit_pos = 1 /\ exists s, final_of (lv_run drift_cfg 3 (fun _ => [slow])) = Some s.
Proof.
  split; [unfold good_cfg; cbn; lra|]. split; [exists slow; split; [now left|reflexivity]|]. split; [apply unit_size|].
  destruct C58_drift_refuted as [_ (s & t & A & _)]. now exists s.
Qed.
