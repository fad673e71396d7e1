(** Axial momentum, equilibrium, velocity gradient, kinematics and densities of the axisymmetric solver. *)
From Coq Require Import Permutation.
From Verif Require Import BaseReal BaseArr GeomModel GeomSpec GeomProofs SghModel SghSpec SghProofs SghMore RzModel RzSpec RzProofs RzForces RzSteps.
Local Open Scope R_scope.

(** ** Whole executions *)

Lemma set_start_x s : s_x (set_start s) = s_x s /\ s_nmass (set_start s) = s_nmass s /\ s_vol (set_start s) = s_vol s.
Proof. repeat split. Qed.

Lemma execute_axis mr L tiny N M0 cycles s : (1 <= N)%nat -> 0 < tiny -> nodes_have_mass (rz_mesh mr) s ->
  let ext := extensive_mass (s_nmass s) (s_x s) in
  (forall t, stage_start mr L tiny ext N cycles (set_v (bdy_velocity M0 s) s) t -> clear_or_on_axis mr tiny ext (s_x t)) ->
  forall t, stage_start mr L tiny ext N cycles (set_v (bdy_velocity M0 s) s) t -> axis_ok (rz_mesh mr) ext t.
Proof.
  intros HN Ht Hm ext Hc t Hst. destruct (stage_start_cases mr L tiny ext N cycles _ t HN Hst) as [[E _]|E].
  - apply (areal_axis_ok mr tiny ext t Ht); auto.
  - subst t. intros n Hn. cbn [set_start set_v s_nmass]. split; [now apply Hm|reflexivity].
Qed.

Lemma execute_energy mr L tiny N M0 cycles s : let m := rz_mesh mr in corners_ok 4 m -> layout_ok (num_elems m) L -> (1 <= N)%nat -> 0 < tiny ->
  nodes_have_mass m s -> erosion_safe L cycles s -> (forall p, In p (points L) -> s_mass s (fst p) (snd p) <> 0) ->
  let ext := extensive_mass (s_nmass s) (s_x s) in
  let s0 := set_v (bdy_velocity M0 s) s in
  (forall t, stage_start mr L tiny ext N cycles s0 t -> clear_or_on_axis mr tiny ext (s_x t)) ->
  (forall n d, (forall dt Ms s', In (dt, Ms) cycles -> bdy_velocity (Ms (N - 1)%nat) s' n d = s_v s' n d) \/
     (bdy_velocity M0 s n d = 0 /\ forall dt Ms s', In (dt, Ms) cycles -> bdy_velocity (Ms (N - 1)%nat) s' n d = 0)) ->
  total_energy_rz m L ext (execute_rz mr L tiny N M0 cycles s) = total_energy_rz m L ext s0.
Proof.
  intros m Hok HL HN Ht Hm Hers Hmass ext s0 Hc HB. unfold execute_rz. fold ext s0. apply (run_energy_rz mr L tiny ext N cycles s0); auto.
  exact (execute_axis mr L tiny N M0 cycles s HN Ht Hm Hc).
Qed.

(** ** Axial momentum *)

Lemma weighted_value m L M s mat sid : axially_balanced m L M -> In (mat, sid) (points L) ->
  let e := elem_in_mat L mat sid in good_quad m (s_x s) e -> s_vol s e = quad_vol m (s_x s) e ->
  sumn 4 (fun l => radius s (nodes_in m e l) * value_rz m L M s mat sid l 0) = 0.
Proof.
  intros HA Hp e (Hfan & Ha & Hv) Hvol.
  assert (B := HA s (mat, sid) Hp). unfold point_elem in B. cbn [fst snd] in B. fold e in B.
  rewrite (sumn_ext 4 _ (fun l => radius s (nodes_in m e l) * contribution_rz m L M s (mat, sid) l 0))
    by (intros; rewrite value_contribution_rz by lia; reflexivity).
  unfold contribution_rz, point_elem. cbn [fst snd Nat.eqb]. fold e. destruct (s_eroded s mat sid).
  { rewrite (sumn_ext 4 _ (fun _ => 0)) by (intros; ring). apply sumn_0. }
  destruct (bmat2D_axial (gather m (s_x s) e 0) (gather m (s_x s) e 1)) as [B0 B1].
  assert (F := fan_volume _ _ Hfan). assert (EV : s_vol s e = vol_quad_raw (gather m (s_x s) e 0) (gather m (s_x s) e 1)).
  { rewrite Hvol. unfold quad_vol. now apply vol_floor. }
  rewrite (sumn_ext 4 _ (fun l => s_volfrac s mat sid * s_geo s mat sid *
    (radius s (nodes_in m e l) * dissipation M s mat sid l 0
     + (- cauchy M s (mat, sid) 0 0) * (gather m (s_x s) e 1 l * bmat2D (gather m (s_x s) e 0) (gather m (s_x s) e 1) l 0)
     + (- cauchy M s (mat, sid) 1 0) * (gather m (s_x s) e 1 l * bmat2D (gather m (s_x s) e 0) (gather m (s_x s) e 1) l 1)
     + (cauchy M s (mat, sid) 1 0 * / (s_vol s e / quad_area m (s_x s) e)) * (gather m (s_x s) e 1 l * corner_area (gather m (s_x s) e 0) (gather m (s_x s) e 1) l)))).
  - rewrite sumn_scal, !sumn_plus, !sumn_scal, B, B0, B1, F, <- EV. fold (quad_area m (s_x s) e) in Ha |- *. unfold quad_area in *. field. lra.
  - intros l _. unfold radius, gather, quad_bmat, quad_corner_area. cbn [sumn]. unfold gather. ring.
Qed.

Lemma stage_axial_force mr L M tiny ext alpha dt s : let m := rz_mesh mr in corners_ok 4 m -> layout_ok (num_elems m) L ->
  axially_balanced m L M ->
  (forall p, In p (points L) -> good_quad m (s_x s) (point_elem L p) /\ s_vol s (point_elem L p) = quad_vol m (s_x s) (point_elem L p)) ->
  sumn (num_nodes m) (fun n => radius s n * internal_force m (rk_stage_rz mr L M tiny ext alpha dt s) n 0) = 0.
Proof.
  intros m Hok HL HA HQ. unfold internal_force.
  rewrite (sumn_ext (num_nodes m) _ (fun n => suml (fun c => radius s n * s_cforce (rk_stage_rz mr L M tiny ext alpha dt s) c 0) (corners_in_node m n)))
    by (intros; now rewrite suml_scal).
  rewrite (node_corner_sum 4 m (fun n c => radius s n * s_cforce (rk_stage_rz mr L M tiny ext alpha dt s) c 0) Hok).
  rewrite (sumn_ext _ _ (fun _ => 0)), sumn_0; [easy|]. intros e He.
  rewrite (rf_cforce _ _ _ _ _ _ _ _ _ (stage_spec_rz mr L M tiny ext alpha dt s)). fold m.
  apply (forces_weighted m L M Hok HL (before_forces_rz m s) e 0 (fun l => radius s (nodes_in m e l)) He); [lia|].
  intros t f mat sid Hp Ee _. destruct (HQ _ Hp) as [G V]. unfold point_elem in G, V. cbn [fst snd] in G, V.
  subst e. exact (weighted_value m L M (set_stress t (set_cforce f (before_forces_rz m s))) mat sid HA Hp G V).
Qed.

Lemma step_axial mr L Ms tiny ext N dt s : let m := rz_mesh mr in corners_ok 4 m -> layout_ok (num_elems m) L -> (1 <= N)%nat ->
  axially_balanced m L (Ms (N - 1)%nat) ->
  let s' := after_stages_rz mr L Ms tiny ext N dt s (N - 1) in axis_ok m ext s' ->
  (forall p, In p (points L) -> good_quad m (s_x s') (point_elem L p) /\ s_vol s' (point_elem L p) = quad_vol m (s_x s') (point_elem L p)) ->
  (forall u n, bdy_velocity (Ms (N - 1)%nat) u n 0%nat = s_v u n 0%nat) ->
  axial_momentum m ext (rk_step_rz mr L Ms tiny ext N dt s) = axial_momentum m ext s.
Proof.
  intros m Hok HL HN HA s' Hax HQ HB. unfold axial_momentum.
  destruct (step_velocity_rz mr L Ms tiny ext N dt s HN) as (s4 & Hv). fold m s' in Hv.
  rewrite (sumn_ext _ _ (fun n => ext n * s_v s n 0%nat + dt * (radius s' n * internal_force m (rk_step_rz mr L Ms tiny ext N dt s) n 0))).
  - rewrite sumn_plus, sumn_scal, (step_last_rz mr L Ms tiny ext N dt s HN). fold s'.
    assert (E := stage_axial_force mr L (Ms (N - 1)%nat) tiny ext 1 dt s'). cbv zeta in E. fold m in E. rewrite E by auto. ring.
  - intros n Hn. destruct (Hv n 0%nat) as [E1 E2]. rewrite HB, E2 in E1. rewrite E1. destruct (Hax n Hn) as [H1 H2]. rewrite H2. field. exact H1.
Qed.

Lemma run_axial mr L tiny ext N cycles s : let m := rz_mesh mr in corners_ok 4 m -> layout_ok (num_elems m) L -> (1 <= N)%nat ->
  (forall t, stage_start mr L tiny ext N cycles s t -> axis_ok m ext t /\
     forall p, In p (points L) -> good_quad m (s_x t) (point_elem L p) /\ s_vol t (point_elem L p) = quad_vol m (s_x t) (point_elem L p)) ->
  (forall dt Ms, In (dt, Ms) cycles -> axially_balanced m L (Ms (N - 1)%nat) /\ forall u n, bdy_velocity (Ms (N - 1)%nat) u n 0%nat = s_v u n 0%nat) ->
  axial_momentum m ext (run_rz mr L tiny ext N cycles s) = axial_momentum m ext s.
Proof.
  intros m Hok HL HN. revert s. induction cycles as [|[dt Ms] cs IH]; intros s Hst HM; [reflexivity|].
  change (axial_momentum m ext (run_rz mr L tiny ext N cs (rk_step_rz mr L Ms tiny ext N dt s)) = axial_momentum m ext s).
  rewrite IH.
  - destruct (HM dt Ms (or_introl eq_refl)) as [H1 H2].
    destruct (Hst (after_stages_rz mr L Ms tiny ext N dt s (N - 1))) as [H3 H4]; [apply stage_start_head; lia|].
    now apply step_axial.
  - intros t Ht. apply Hst. now apply stage_start_tail.
  - intros dt' Ms' Hin. apply (HM dt' Ms'). right; easy.
Qed.

Lemma execute_axial mr L tiny N M0 cycles s : let m := rz_mesh mr in corners_ok 4 m -> layout_ok (num_elems m) L -> (1 <= N)%nat -> 0 < tiny ->
  nodes_have_mass m s -> (forall p, In p (points L) -> s_vol s (point_elem L p) = quad_vol m (s_x s) (point_elem L p)) ->
  let ext := extensive_mass (s_nmass s) (s_x s) in
  let s0 := set_v (bdy_velocity M0 s) s in
  (forall t, stage_start mr L tiny ext N cycles s0 t -> clear_or_on_axis mr tiny ext (s_x t) /\ forall p, In p (points L) -> good_quad m (s_x t) (point_elem L p)) ->
  (forall dt Ms, In (dt, Ms) cycles -> axially_balanced m L (Ms (N - 1)%nat) /\ forall u n, bdy_velocity (Ms (N - 1)%nat) u n 0%nat = s_v u n 0%nat) ->
  axial_momentum m ext (execute_rz mr L tiny N M0 cycles s) = axial_momentum m ext s0.
Proof.
  intros m Hok HL HN Ht Hm Hvol ext s0 Hst HM. unfold execute_rz. fold ext s0. apply (run_axial mr L tiny ext N cycles s0); auto.
  intros t Hs. split.
  - exact (execute_axis mr L tiny N M0 cycles s HN Ht Hm (fun t H => proj1 (Hst t H)) t Hs).
  - intros p Hp. split; [now apply (proj2 (Hst t Hs))|].
    destruct (stage_start_cases mr L tiny ext N cycles s0 t HN Hs) as [[_ E]|E]; [apply E|]. subst t. now apply Hvol.
Qed.

(** ** Equilibrium under uniform pressure *)

Lemma bmat2D_ring x y l : (l < 4)%nat -> bmat2D x y l 0 = / 2 * (y (next4 l) - y (prev4 l)) /\ bmat2D x y l 1 = - / 2 * (x (next4 l) - x (prev4 l)).
Proof. intros H. destruct l as [|[|[|[|l]]]]; [| | | |lia]; cbn [bmat2D next4 prev4]; split; lra. Qed.

Lemma ring_sum (m : mesh3) (x : nat -> R) n : ring_closed m n ->
  suml (fun p => x (nodes_in m (fst p) (next4 (snd p))) - x (nodes_in m (fst p) (prev4 (snd p))))
    (filter (fun p => Nat.eqb (nodes_in m (fst p) (snd p)) n) (elem_corners (num_elems m) 4)) = 0.
Proof.
  intros H. unfold ring_closed in H. cbv zeta in H. apply (suml_perm x) in H. rewrite !suml_map in H. rewrite suml_minus, H. ring.
Qed.

Lemma uniform_corner m L M s P e l d : corners_ok 4 m -> layout_ok (num_elems m) L -> dissipation_local M ->
  uniform_pressure L M s P -> elements_filled m L s -> (forall p l d, In p (points L) -> dissipation M s (fst p) (snd p) l d = 0) ->
  (e < num_elems m)%nat -> (l < 4)%nat -> (d < 2)%nat ->
  s_cforce (forces_and_stress_rz m L M s) (corners_in_elem m e l) d = P * quad_bmat m (s_x s) e l d.
Proof.
  intros Hok HL HD HU HF HV He Hl Hd. rewrite forces_are_sums_rz; auto.
  2:{ intros p q _ Hq _ _. exact (proj1 (HU q 0%nat 0%nat Hq)). }
  rewrite (suml_ext _ (fun p => P * quad_bmat m (s_x s) e l d * (if Nat.eqb (point_elem L p) e then s_volfrac s (fst p) (snd p) * s_geo s (fst p) (snd p) else 0))).
  - rewrite suml_scal, (HF e He). ring.
  - intros p Hp. destruct (Nat.eqb_spec (point_elem L p) e) as [Ee|]; [|ring]. rewrite forces_contributions_rz by auto.
    unfold contribution_rz. rewrite Ee, (proj1 (HU p 0%nat 0%nat Hp)), HV by auto. cbn [sumn].
    rewrite !(fun i j => proj2 (HU p i j Hp)). destruct d as [|[|d]]; [| |lia]; cbn [Nat.eqb]; ring.
Qed.

Lemma uniform_node m L M s P n d : corners_ok 4 m -> layout_ok (num_elems m) L -> dissipation_local M ->
  uniform_pressure L M s P -> elements_filled m L s -> (forall p l d, In p (points L) -> dissipation M s (fst p) (snd p) l d = 0) ->
  ring_closed m n -> (d < 2)%nat -> internal_force m (forces_and_stress_rz m L M s) n d = 0.
Proof.
  intros Hok HL HD HU HF HV HR Hd. unfold internal_force.
  rewrite (suml_perm _ _ _ (corners_perm 4 m n Hok)), suml_map.
  set (x := fun k => if Nat.eqb d 0 then P * / 2 * s_x s k 1%nat else P * - / 2 * s_x s k 0%nat).
  rewrite (suml_ext _ (fun p => x (nodes_in m (fst p) (next4 (snd p))) - x (nodes_in m (fst p) (prev4 (snd p))))).
  - now apply ring_sum.
  - intros [e l] Hin. apply filter_In in Hin. destruct Hin as [Hin _]. apply elem_corners_in in Hin. cbn [fst snd] in *. destruct Hin as [He Hl].
    rewrite (uniform_corner m L M s P e l d) by auto. unfold quad_bmat.
    destruct (bmat2D_ring (gather m (s_x s) e 0) (gather m (s_x s) e 1) l Hl) as [B0 B1].
    unfold x. destruct d as [|[|d]]; [| |lia]; cbn [Nat.eqb]; [rewrite B0|rewrite B1]; unfold gather; ring.
Qed.

Lemma stage_internal mr L M tiny ext alpha dt s n d :
  internal_force (rz_mesh mr) (rk_stage_rz mr L M tiny ext alpha dt s) n d =
  internal_force (rz_mesh mr) (forces_and_stress_rz (rz_mesh mr) L M (before_forces_rz (rz_mesh mr) s)) n d.
Proof. unfold internal_force. now rewrite (rf_cforce _ _ _ _ _ _ _ _ _ (stage_spec_rz mr L M tiny ext alpha dt s)). Qed.

Lemma uniform_stage mr L M tiny ext alpha dt s P n d : let m := rz_mesh mr in corners_ok 4 m -> layout_ok (num_elems m) L -> dissipation_local M ->
  uniform_pressure L M s P -> elements_filled m L s -> no_viscosity L M s -> ring_closed m n -> (d < 2)%nat ->
  internal_force m (rk_stage_rz mr L M tiny ext alpha dt s) n d = 0.
Proof.
  intros m Hok HL HD HU HF HV HR Hd. unfold m. rewrite stage_internal. apply (uniform_node _ L M _ P); auto.
  intros p l k Hp. apply HV. exact Hp.
Qed.

Lemma rest_stage mr L M tiny ext alpha dt s P : let m := rz_mesh mr in corners_ok 4 m -> layout_ok (num_elems m) L -> dissipation_local M ->
  uniform_pressure L M s P -> elements_filled m L s -> no_viscosity L M s ->
  (forall n d, (n < num_nodes m)%nat -> (d < 2)%nat -> held M m n d /\ s_nmass s n <> 0 /\ s_v0 s n d = 0 /\ 0 <= s_x0 s n 1%nat) ->
  let t := rk_stage_rz mr L M tiny ext alpha dt s in
  (forall n d, (n < num_nodes m)%nat -> (d < 2)%nat -> s_v t n d = 0 /\ s_x t n d = s_x0 s n d) /\
  (forall p, In p (points L) -> s_sie t (fst p) (snd p) = s_sie0 s (fst p) (snd p)).
Proof.
  intros m Hok HL HD HU HF HV HN t. assert (Hf := stage_spec_rz mr L M tiny ext alpha dt s). fold t in Hf.
  assert (V : forall n d, (n < num_nodes m)%nat -> (d < 2)%nat -> s_v t n d = 0).
  { intros n d Hn Hd. destruct (rf_v _ _ _ _ _ _ _ _ _ Hf) as (s4 & E4 & _ & E3). rewrite E4.
    destruct (HN n d Hn Hd) as ([[HR HB]|HB] & Hm & H0 & _); [|apply HB].
    rewrite HB, E3, H0. fold m. assert (E := uniform_stage mr L M tiny ext alpha dt s P n d). cbv zeta in E. fold m t in E. rewrite E by auto.
    field. exact Hm. }
  split.
  - intros n d Hn Hd. split; [auto|]. rewrite (rf_x _ _ _ _ _ _ _ _ _ Hf), V by auto. destruct (HN n d Hn Hd) as (_ & _ & H0 & Hr). rewrite H0. cbv zeta.
    replace (s_x0 s n d + alpha * dt * (/ 2 * (0 + 0))) with (s_x0 s n d) by ring.
    destruct (Nat.eqb_spec d 1) as [->|]; [|easy]. now apply Rmax_right.
  - intros p Hp. rewrite (rf_sie _ _ _ _ _ _ _ _ _ Hf p Hp). fold m.
    rewrite (sumn_ext 4 _ (fun _ => 0)), sumn_0; [ring|]. intros l Hl. assert (HE := HL p Hp).
    assert (Hr := ok_range _ _ Hok _ l HE Hl). rewrite (sumn_ext 2 _ (fun _ => 0)), sumn_0; [easy|]. intros d Hd.
    rewrite V by auto. destruct (HN _ d Hr Hd) as (_ & _ & -> & _). ring.
Qed.

(** ** Kinematics *)

Lemma stage_radius mr L M tiny ext alpha dt s n : 0 <= radius (rk_stage_rz mr L M tiny ext alpha dt s) n.
Proof.
  unfold radius. rewrite (rf_x _ _ _ _ _ _ _ _ _ (stage_spec_rz mr L M tiny ext alpha dt s)). cbv zeta. cbn [Nat.eqb]. apply Rmax_l.
Qed.

Lemma stage_law mr L Ms tiny ext N dt s k : (k < N)%nat ->
  let b := after_stages_rz mr L Ms tiny ext N dt s k in
  let t := after_stages_rz mr L Ms tiny ext N dt s (S k) in
  (exists s4, s_v t = bdy_velocity (Ms k) s4 /\ s_x s4 = s_x b /\ forall n d,
     s_v s4 n d = s_v s n d + rk_alpha N k * dt * internal_force (rz_mesh mr) t n d / s_nmass b n) /\
  forall n, s_x t n 0%nat = s_x s n 0%nat + rk_alpha N k * dt * ((s_v t n 0%nat + s_v s n 0%nat) / 2) /\
            s_x t n 1%nat = Rmax 0 (s_x s n 1%nat + rk_alpha N k * dt * ((s_v t n 1%nat + s_v s n 1%nat) / 2)).
Proof.
  intros Hk b t. unfold t. rewrite after_stages_S. fold b. assert (Hf := stage_spec_rz mr L (Ms k) tiny ext (rk_alpha N k) dt b).
  assert (Hs : same_start_rz s b) by apply stages_start_rz. destruct Hs as (Ex & Ev & _).
  destruct (rf_v _ _ _ _ _ _ _ _ _ Hf) as (s4 & E4 & Ex4 & E3). split.
  - exists s4. split; [exact E4|]. split; [exact Ex4|]. intros n d. rewrite E3, Ev. reflexivity.
  - intros n. rewrite !(rf_x _ _ _ _ _ _ _ _ _ Hf). rewrite Ex, Ev. cbn [Nat.eqb]. cbv zeta. split; [field|]. f_equal. field.
Qed.

(** ** Velocity gradient *)

Lemma velgrad_sum_rz m x v vol old e i j : (i < 2)%nat -> (j < 2)%nat ->
  get_velgrad_rz m x v vol old e i j = sumn 4 (fun l => v (nodes_in m e l) i * quad_bmat m x e l j) / quad_area m x e.
Proof.
  intros Hi Hj. unfold get_velgrad_rz, gather. rewrite (proj2 (Nat.ltb_lt i 2) Hi), (proj2 (Nat.ltb_lt j 2) Hj). cbn [andb sumn]. unfold Rdiv. ring.
Qed.

Lemma bmat2D_moments x y i j : (i < 2)%nat -> (j < 2)%nat ->
  sumn 4 (fun l => (match i with O => x l | _ => y l end) * bmat2D x y l j) = if Nat.eqb i j then area_quad x y else 0.
Proof.
  intros Hi Hj. destruct i as [|[|i]]; [| |lia]; (destruct j as [|[|j]]; [| |lia]); cbn [sumn Nat.eqb bmat2D]; unfold area_quad; lra.
Qed.
Lemma bmat2D_closed x y j : (j < 2)%nat -> sumn 4 (fun l => bmat2D x y l j) = 0.
Proof. intros Hj. destruct j as [|[|j]]; [| |lia]; cbn [sumn bmat2D]; lra. Qed.

Lemma velgrad_linear_rz m x v vol old e (A : nat -> nat -> R) (c : nat -> R) i j : (i < 2)%nat -> (j < 2)%nat ->
  quad_area m x e <> 0 ->
  (forall l, (l < 4)%nat -> v (nodes_in m e l) i = c i + sumn 2 (fun k => A i k * x (nodes_in m e l) k)) ->
  get_velgrad_rz m x v vol old e i j = A i j.
Proof.
  intros Hi Hj Ha Hv. rewrite velgrad_sum_rz by auto.
  rewrite (sumn_ext 4 _ (fun l => c i * bmat2D (gather m x e 0) (gather m x e 1) l j
     + A i 0%nat * (gather m x e 0 l * bmat2D (gather m x e 0) (gather m x e 1) l j)
     + A i 1%nat * (gather m x e 1 l * bmat2D (gather m x e 0) (gather m x e 1) l j))).
  - rewrite !sumn_plus, !sumn_scal, bmat2D_closed by auto.
    assert (M0 := bmat2D_moments (gather m x e 0) (gather m x e 1) 0 j ltac:(lia) Hj).
    assert (M1 := bmat2D_moments (gather m x e 0) (gather m x e 1) 1 j ltac:(lia) Hj). cbv iota beta in M0, M1. rewrite M0, M1.
    fold (quad_area m x e). destruct j as [|[|j]]; [| |lia]; cbn [Nat.eqb]; field; exact Ha.
  - intros l Hl. rewrite (Hv l Hl). unfold quad_bmat, gather. cbn [sumn]. ring.
Qed.

Lemma velgrad_hoop_rz m x v vol old e :
  get_velgrad_rz m x v vol old e 2 2 = sumn 4 (fun l => v (nodes_in m e l) 1%nat) / 4 / (vol e / quad_area m x e).
Proof. unfold get_velgrad_rz, gather. cbn [Nat.ltb Nat.leb Nat.eqb andb sumn]. cbv zeta. f_equal. lra. Qed.

Lemma divergence_trace_rz m x v vol old e :
  get_divergence_rz m x v vol e = get_velgrad_rz m x v vol old e 0 0 + get_velgrad_rz m x v vol old e 1 1 + get_velgrad_rz m x v vol old e 2 2.
Proof. unfold get_divergence_rz, get_velgrad_rz, gather. cbn [Nat.ltb Nat.leb Nat.eqb andb]. cbv zeta. ring. Qed.

Lemma parallelogram_centroid x y : x 0%nat + x 2%nat = x 1%nat + x 3%nat -> y 0%nat + y 2%nat = y 1%nat + y 3%nat ->
  vol_quad_raw x y = (y 0%nat + y 1%nat + y 2%nat + y 3%nat) / 4 * area_quad x y.
Proof.
  intros Hx Hy. unfold vol_quad_raw, area_quad. replace 0.5 with (/ 2) by lra.
  replace (x 3%nat) with (x 0%nat + x 2%nat - x 1%nat) by lra. replace (y 3%nat) with (y 0%nat + y 2%nat - y 1%nat) by lra. field.
Qed.

Lemma velgrad_hoop_exact m x v old e a : let X := gather m x e 0 in let Y := gather m x e 1 in
  X 0%nat + X 2%nat = X 1%nat + X 3%nat -> Y 0%nat + Y 2%nat = Y 1%nat + Y 3%nat -> 1e-14 <= vol_quad_raw X Y -> 0 < area_quad X Y ->
  (forall l, (l < 4)%nat -> v (nodes_in m e l) 1%nat = a * x (nodes_in m e l) 1%nat) ->
  get_velgrad_rz m x v (quad_vol m x) old e 2 2 = a.
Proof.
  intros X Y Hx Hy Hv Ha Hl. rewrite velgrad_hoop_rz. unfold quad_vol. fold X Y. rewrite (vol_floor X Y Hv).
  rewrite (sumn_ext 4 _ (fun l => a * Y l)) by (intros l H; unfold Y, gather; now apply Hl). rewrite sumn_scal. cbn [sumn].
  assert (E := parallelogram_centroid X Y Hx Hy). rewrite E. unfold quad_area. fold X Y.
  assert (Y 0%nat + Y 1%nat + Y 2%nat + Y 3%nat <> 0).
  { intros Z. rewrite Z in E. rewrite E in Hv. unfold Rdiv in Hv. rewrite !Rmult_0_l in Hv. lra. }
  field. lra.
Qed.

(** ** Densities *)

Lemma update_state_other_rz L M mat s mat' : mat' <> mat ->
  s_den (update_state_rz L M mat s) mat' = s_den s mat' /\ s_eroded (update_state_rz L M mat s) mat' = s_eroded s mat'.
Proof.
  intros Hne. apply Nat.eqb_neq in Hne.
  assert (F : forall {A} n (o w : nat -> nat -> A), for_mat mat n o w mat' = o mat').
  { intros A n o w. unfold for_mat. rewrite Hne. reflexivity. }
  set (same := fun s t : sgh => s_den t mat' = s_den s mat' /\ s_eroded t mat' = s_eroded s mat').
  assert (T : forall a b c, same a b -> same b c -> same a c) by (unfold same; intuition congruence).
  change (same s (update_state_rz L M mat s)). unfold update_state_rz.
  apply (T s (state_density_rz L mat s)); [unfold same, state_density_rz; fields2; rewrite F; auto|].
  generalize (state_density_rz L mat s). clear s. intros s.
  apply (T s (state_pressure L M mat s)); [unfold same, state_pressure; destruct (decoupled M mat); fields2; rewrite ?F; auto|].
  generalize (state_pressure L M mat s). clear s. intros s.
  apply (T s (state_sspd L M mat s)); [unfold same, state_sspd; destruct (decoupled M mat); fields2; rewrite ?F; auto|].
  generalize (state_sspd L M mat s). clear s. intros s.
  apply (T s (state_density2_rz L M mat s)); [unfold same, state_density2_rz; destruct (state_based M mat); fields2; rewrite ?F; auto|].
  generalize (state_density2_rz L M mat s). clear s. intros s.
  apply (T s (state_stress L M mat s)); [unfold same, state_stress; destruct (state_based M mat); fields2; rewrite ?F; auto|].
  generalize (state_stress L M mat s). clear s. intros s.
  apply (T s (state_erode L M mat s)); [unfold same, state_erode; destruct (has_erosion M mat); fields2; rewrite ?F; auto|].
  generalize (state_erode L M mat s). clear s. intros s.
  unfold same, state_void; destruct (has_erosion M mat); cbv zeta; fields2; rewrite ?F; auto.
Qed.

Lemma update_state_den_rz L M mat s sid : (sid < num_mat_elems L mat)%nat ->
  s_den (update_state_rz L M mat s) mat sid =
  if has_erosion M mat && s_eroded (update_state_rz L M mat s) mat sid then 1e-32
  else if state_based M mat then s_mass s mat sid / (s_vol s (elem_in_mat L mat sid) + 1e-20)
  else s_mass s mat sid / (s_vol s (elem_in_mat L mat sid) * s_volfrac s mat sid * s_geo s mat sid + 1e-20).
Proof.
  intros H. unfold update_state_rz. rewrite state_void_eroded. unfold state_void.
  set (s1 := state_erode L M mat _). assert (E : s_den s1 mat sid =
    if state_based M mat then s_mass s mat sid / (s_vol s (elem_in_mat L mat sid) + 1e-20)
    else s_mass s mat sid / (s_vol s (elem_in_mat L mat sid) * s_volfrac s mat sid * s_geo s mat sid + 1e-20)).
  { unfold s1, state_erode, state_stress, state_density2_rz, state_sspd, state_pressure, state_density_rz.
    destruct (has_erosion M mat), (state_based M mat), (decoupled M mat); fields2; now rewrite for_mat_at. }
  destruct (has_erosion M mat); cbn [andb]; [|exact E]. cbv zeta. fields2. rewrite for_mat_at by auto. unfold void_value. now rewrite E.
Qed.

Lemma update_states_at_rz L M s mat : (mat < num_mats L)%nat -> exists s', end_fields s s' /\
  let t := fold_left (fun s mat => update_state_rz L M mat s) (seq 0 (num_mats L)) s in
  s_den t mat = s_den (update_state_rz L M mat s') mat /\ s_eroded t mat = s_eroded (update_state_rz L M mat s') mat.
Proof.
  intros Hm. set (F := fun s mat => update_state_rz L M mat s).
  exists (fold_left F (seq 0 mat) s). split; [apply update_states_fields_rz|].
  assert (K : forall ks u, ~ In mat ks ->
     s_den (fold_left F ks u) mat = s_den u mat /\ s_eroded (fold_left F ks u) mat = s_eroded u mat).
  { induction ks as [|k ks IH]; intros u Hn; [cbn [fold_left]; auto|]. cbn [fold_left].
    assert (Hk : mat <> k) by (intros ->; apply Hn; left; easy).
    assert (A := IH (F u k) (fun H => Hn (or_intror H))). assert (B := update_state_other_rz L M k u mat Hk). fold (F u k) in B.
    intuition congruence. }
  cbv zeta. replace (num_mats L) with (mat + S (num_mats L - S mat))%nat by lia.
  rewrite seq_app, fold_left_app. cbn [Nat.add seq fold_left].
  apply (K (seq (S mat) (num_mats L - S mat)) (F (fold_left F (seq 0 mat) s) mat)). intros H. apply in_seq in H. lia.
Qed.

Lemma stage_den_rz mr L M tiny ext alpha dt s p : let t := rk_stage_rz mr L M tiny ext alpha dt s in In p (points L) ->
  s_eroded t (fst p) (snd p) = false ->
  s_den t (fst p) (snd p) =
  if state_based M (fst p) then s_mass t (fst p) (snd p) / (s_vol t (point_elem L p) + 1e-20)
  else s_mass t (fst p) (snd p) / (s_vol t (point_elem L p) * s_volfrac t (fst p) (snd p) * s_geo t (fst p) (snd p) + 1e-20).
Proof.
  intros t Hp. unfold t, rk_stage_rz. cbv zeta. set (u := set_vol _ _).
  set (w := fold_left (fun s mat => update_state_rz L M mat s) (seq 0 (num_mats L)) u).
  cbn [s_eroded s_den s_mass s_vol s_volfrac s_geo set_nmass].
  assert (W := update_states_fields_rz L M (seq 0 (num_mats L)) u). fold w in W.
  destruct p as [mat sid]. apply points_in in Hp. cbn [fst snd] in *. unfold point_elem. cbn [fst snd].
  destruct (update_states_at_rz L M u mat (proj1 Hp)) as (s' & Hs & E1 & E2). fold w in E1, E2. rewrite E1, E2. intros Her.
  rewrite update_state_den_rz by tauto. rewrite Her, andb_false_r.
  unfold end_fields in *. destruct Hs as (_ & _ & _ & _ & _ & _ & _ & -> & _ & _ & -> & _ & _ & _ & -> & ->).
  destruct W as (_ & _ & _ & _ & _ & _ & _ & -> & _ & _ & -> & _ & _ & _ & -> & ->). reflexivity.
Qed.
