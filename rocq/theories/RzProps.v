(** Property theorems C62-C69: the axisymmetric solver. *)
From Verif Require Import BaseReal BaseArr GeomModel GeomSpec GeomProofs MarsModel MarsSpec MarsProofs SghModel SghSpec SghProofs SghMore SghExamples
  RzModel RzSpec RzProofs RzForces RzSteps RzMore RzExamples RzExamples2.
Local Open Scope R_scope.

(** C62 *)
(** The areal node masses of set-up, weighted with the radius, add up to density times volume of every material point;
    unweighted they add up to density times area. *)
Theorem C62_setup_masses_partial : forall nnodes ne nodes m L x den, build_corners nnodes ne 4 nodes = Some m -> layout_ok (num_elems m) L ->
  (forall p, In p (points L) -> fan (gather m x (point_elem L p) 0) (gather m x (point_elem L p) 1)) ->
  let nmass := fst (calc_node_mass_rz m x (setup_corner_mass_rz m L x den)) in
  sumn (num_nodes m) (extensive_mass nmass x) =
    suml (fun p => den (fst p) (snd p) * vol_quad_raw (gather m x (point_elem L p) 0) (gather m x (point_elem L p) 1)) (points L) /\
  sumn (num_nodes m) nmass = suml (fun p => den (fst p) (snd p) * area_quad (gather m x (point_elem L p) 0) (gather m x (point_elem L p) 1)) (points L).
Proof.
  exact (fun _ _ _ m L x den H HL Hf =>
    conj (setup_rz_total m L x den (proj1 (build_corners_ok _ _ _ _ _ H)) HL Hf) (setup_rz_areal m L x den (proj1 (build_corners_ok _ _ _ _ _ H)) HL Hf)).
Qed.
Print Assumptions C62_setup_masses_partial.

(** The corner masses left behind are the areal corner mass times the radius of the node. *)
Theorem C62_corner_masses : forall nnodes ne nodes m L x den e l, build_corners nnodes ne 4 nodes = Some m -> layout_ok (num_elems m) L ->
  (e < num_elems m)%nat -> (l < 4)%nat ->
  snd (calc_node_mass_rz m x (setup_corner_mass_rz m L x den)) (corners_in_elem m e l) =
  x (nodes_in m e l) 1%nat *
    (corner_area (gather m x e 0) (gather m x e 1) l * suml (fun p => if Nat.eqb (point_elem L p) e then den (fst p) (snd p) else 0) (points L)).
Proof.
  intros nnodes ne nodes m L x den e l H HL He Hl. assert (Hok := proj1 (build_corners_ok _ _ _ _ _ H)).
  rewrite (proj2 (node_mass_rz m x _ Hok) e l He Hl), (setup_rz_corner m L x den e l Hok HL He Hl). unfold quad_corner_area. ring.
Qed.
Print Assumptions C62_corner_masses.

(** Where two materials share an element the nodes get the mass of both as if each filled it: twice the material mass here. *)
Theorem C62_mixed_refuted : exists nnodes ne nodes m L x den vf, build_corners nnodes ne 4 nodes = Some m /\ layout_ok (num_elems m) L /\
  (forall p, In p (points L) -> good_quad m x (point_elem L p)) /\
  (forall e, (e < num_elems m)%nat -> suml (fun p => if Nat.eqb (point_elem L p) e then vf (fst p) (snd p) else 0) (points L) = 1) /\
  sumn (num_nodes m) (extensive_mass (fst (calc_node_mass_rz m x (setup_corner_mass_rz m L x den))) x) = 1 /\
  suml (fun p => den (fst p) (snd p) * quad_vol m x (point_elem L p) * vf (fst p) (snd p)) (points L) = / 2.
Proof.
  exists 4%nat, 1%nat, (fun _ l => l), quad1, lay1, (rect 0 1 0 1), (fun _ _ => 1), (fun _ _ => / 2).
  destruct quad1_facts as (_ & _ & He & _). split; [exact quad1_built|]. split; [rewrite He; exact lay1_ok|]. split; [intros p _; exact (proj1 square_good)|].
  split; [|exact mixed_mass]. intros e H. rewrite He in H. assert (e = 0%nat) as -> by lia. unfold points, point_elem.
  cbn [lay1 num_mats num_mat_elems elem_in_mat seq map flat_map app fst snd]. unfold suml. cbn [fold_right fst snd Nat.eqb]. lra.
Qed.
Print Assumptions C62_mixed_refuted.

Example C62_ex : build_corners 4 1 4 (fun _ l => l) = Some quad1 /\ layout_ok (num_elems quad1) lay_q /\
  (forall p, In p (points lay_q) -> fan (gather quad1 (rect 0 1 0 1) (point_elem lay_q p) 0) (gather quad1 (rect 0 1 0 1) (point_elem lay_q p) 1)).
Proof. exact (conj quad1_built (conj lay_q_ok (square_fan lay_q (fun _ => eq_refl)))). Qed.

(** C63 *)
(** At the end of every stage a node clear of the axis has its mass per radian over its radius; a boundary node on the axis has half
    the largest areal mass of its neighbours off the axis. *)
Theorem C63_areal_partial : forall mr L M tiny ext alpha dt s n, let t := rk_stage_rz mr L M tiny ext alpha dt s in
  (tiny < radius t n -> s_nmass t n = ext n / radius t n) /\
  (radius t n < tiny -> In n (bdy_nodes mr) ->
     let cand k := In k (nodes_in_node mr n) /\ tiny < radius t k in
     (forall k, cand k -> ext k / radius t k / 2 <= s_nmass t n) /\
     ((exists k, cand k /\ s_nmass t n = ext k / radius t k / 2) \/ (s_nmass t n = 0 /\ forall k, cand k -> ext k <= 0)) ).
Proof.
  intros mr L M tiny ext alpha dt s n t. assert (E := rf_nmass _ _ _ _ _ _ _ _ _ (stage_spec_rz mr L M tiny ext alpha dt s)). fold t in E.
  assert (P : forall k, 0 <= radius t k) by (intros; apply stage_radius).
  rewrite E, areal_spec. unfold radius in *. clearbody t. destruct (nb_max_spec mr tiny (s_x t) ext n 0) as (A & B & C). split.
  - intros H. destruct (Rlt_dec tiny (s_x t n 1%nat)); [easy|lra].
  - intros H Hb. destruct (Rlt_dec tiny (s_x t n 1%nat)); [lra|]. destruct (Rlt_dec (s_x t n 1%nat) tiny); [|lra].
    destruct (in_dec Nat.eq_dec n (bdy_nodes mr)); [|easy]. split; [intros k [Hk Hr]; now apply B|].
    destruct C as [C|(k & Hk & Hr & C)]; [right|left; exists k; repeat split; assumption].
    split; [exact C|]. intros k [Hk Hr]. specialize (B k Hk Hr). rewrite C in B. destruct (Rle_dec (ext k) 0) as [|N]; [assumption|].
    assert (0 <= tiny) by (specialize (P n); lra). specialize (P k).
    assert (0 < ext k / s_x t k 1%nat / 2) by (apply Rdiv_lt_0_compat; [apply Rdiv_lt_0_compat; lra|lra]). lra.
Qed.
Print Assumptions C63_areal_partial.

(** With every node clear of the axis, or a boundary node on it beside one that is, no node loses its areal mass. *)
Theorem C63_mass_kept : forall mr L tiny N M0 cycles s, (1 <= N)%nat -> 0 < tiny -> nodes_have_mass (rz_mesh mr) s ->
  let ext := extensive_mass (s_nmass s) (s_x s) in
  (forall t, stage_start mr L tiny ext N cycles (set_v (bdy_velocity M0 s) s) t -> clear_or_on_axis mr tiny ext (s_x t)) ->
  forall t, stage_start mr L tiny ext N cycles (set_v (bdy_velocity M0 s) s) t -> forall n, (n < num_nodes (rz_mesh mr))%nat ->
    s_nmass t n <> 0 /\ s_nmass t n * radius t n = ext n.
Proof.
  intros mr L tiny N M0 cycles s HN Ht Hm ext Hc t Hst n Hn.
  destruct (execute_axis mr L tiny N M0 cycles s HN Ht Hm Hc t Hst n Hn) as [A B]. split; [exact A|symmetry; exact B].
Qed.
Print Assumptions C63_mass_kept.

(** A node that starts on the axis, with mass, and moves off it has no mass left: its next acceleration is a division by zero. *)
Theorem C63_leaving_axis_refuted : exists mr L M s, corners_ok 4 (rz_mesh mr) /\ layout_ok (num_elems (rz_mesh mr)) L /\
  (forall n, 0 < s_nmass s n) /\ (forall p, In p (points L) -> 0 < s_mass s (fst p) (snd p) /\ good_quad (rz_mesh mr) (s_x s) (point_elem L p)) /\
  let t := execute_rz mr L 1e-12 1 M [(1, fun _ => M)] s in radius t 0%nat = 1 /\ s_nmass t 0%nat = 0.
Proof.
  exists mesh_q, lay_q, free_gas, rise_q. split; [exact (proj1 quad1_facts)|]. split; [exact lay_q_ok|].
  split; [intros n; cbn [rise_q state_q s_nmass]; lra|]. split.
  - intros p _. split; [cbn [rise_q state_q s_mass]; lra|exact (proj1 square_good)].
  - exact (conj (proj1 rise_loses_mass) (proj1 (proj2 rise_loses_mass))).
Qed.
Print Assumptions C63_leaving_axis_refuted.

Example C63_ex : nodes_have_mass quad1 square_q /\ forall t,
  stage_start mesh_q lay_q 1e-12 (extensive_mass (s_nmass square_q) (s_x square_q)) 2 [(0.1, fun _ => axis_gas)] (set_v (bdy_velocity axis_gas square_q) square_q) t ->
  clear_or_on_axis mesh_q 1e-12 (extensive_mass (s_nmass square_q) (s_x square_q)) (s_x t).
Proof. split; [intros n _; cbn [square_q state_q s_nmass]; lra|exact (fun t H => proj1 (run_q_clear t H))]. Qed.

(** C64 *)
Theorem C64_radius : forall mr L M tiny ext alpha dt s n, 0 <= s_x (rk_stage_rz mr L M tiny ext alpha dt s) n 1%nat.
Proof. exact stage_radius. Qed.
Print Assumptions C64_radius.

(** Stage k of N moves from the state of the beginning of the step, with 1/(N-k) of the step: velocity by the summed corner forces over
    the areal mass and then the velocity boundary conditions, position by the mean of old and new velocity, the radius kept from
    going below zero. *)
Theorem C64_stage : forall mr L Ms tiny ext N dt s k, (k < N)%nat ->
  let b := after_stages_rz mr L Ms tiny ext N dt s k in
  let t := after_stages_rz mr L Ms tiny ext N dt s (S k) in
  let a := / INR (N - k) * dt in
  (exists s4, s_v t = bdy_velocity (Ms k) s4 /\ s_x s4 = s_x b /\ forall n d,
     s_v s4 n d = s_v s n d + a * suml (fun c => s_cforce t c d) (corners_in_node (rz_mesh mr) n) / s_nmass b n) /\
  forall n, s_x t n 0%nat = s_x s n 0%nat + a * ((s_v t n 0%nat + s_v s n 0%nat) / 2) /\
            s_x t n 1%nat = Rmax 0 (s_x s n 1%nat + a * ((s_v t n 1%nat + s_v s n 1%nat) / 2)).
Proof.
  intros mr L Ms tiny ext N dt s k Hk. assert (H := stage_law mr L Ms tiny ext N dt s k Hk).
  replace (/ INR (N - k)) with (rk_alpha N k); [exact H|]. unfold rk_alpha. rewrite minus_INR by lia. field.
  assert (INR k < INR N) by (apply lt_INR; lia). lra.
Qed.
Print Assumptions C64_stage.
(** a step is its N stages *)
Theorem C64_step : forall mr L Ms tiny ext N dt s, rk_step_rz mr L Ms tiny ext N dt s = after_stages_rz mr L Ms tiny ext N dt s N.
Proof. reflexivity. Qed.
Print Assumptions C64_step.

Example C64_ex : (0 < 2)%nat /\ s_x (after_stages_rz mesh_q lay_q (fun _ => axis_gas) 1e-12 ext_q 2 0.1 start_q 1) 2 1%nat = 1.0025.
Proof. split; [lia|]. exact (mid_q_x 2 1 ltac:(lia) ltac:(lia)). Qed.

(** C65 *)
(** the energies printed every cycle *)
Theorem C65_tallies : forall m L ext s, internal_energy_rz L s + kinetic_energy_rz m ext s = total_energy_rz m L ext s.
Proof.
  intros m L ext s. unfold internal_energy_rz, kinetic_energy_rz, total_energy_rz. rewrite suml_points. cbn [fst snd]. f_equal.
  replace 0.5 with (/ 2) by lra. f_equal. apply sumn_ext. intros n _. f_equal. apply sumn_ext. intros d _. ring.
Qed.
Print Assumptions C65_tallies.

Theorem C65_execute_partial : forall nnodes ne nodes mr L tiny N M0 cycles s, let m := rz_mesh mr in
  build_corners nnodes ne 4 nodes = Some m -> layout_ok (num_elems m) L -> (1 <= N)%nat -> 0 < tiny ->
  nodes_have_mass m s -> erosion_safe L cycles s -> (forall p, In p (points L) -> s_mass s (fst p) (snd p) <> 0) ->
  let ext := extensive_mass (s_nmass s) (s_x s) in
  let s0 := set_v (bdy_velocity M0 s) s in
  (forall t, stage_start mr L tiny ext N cycles s0 t -> clear_or_on_axis mr tiny ext (s_x t)) ->
  (forall n d, (forall dt Ms s', In (dt, Ms) cycles -> bdy_velocity (Ms (N - 1)%nat) s' n d = s_v s' n d) \/
     (bdy_velocity M0 s n d = 0 /\ forall dt Ms s', In (dt, Ms) cycles -> bdy_velocity (Ms (N - 1)%nat) s' n d = 0)) ->
  total_energy_rz m L ext (execute_rz mr L tiny N M0 cycles s) = total_energy_rz m L ext s0.
Proof. exact (fun _ _ _ mr L tiny N M0 cy s H => execute_energy mr L tiny N M0 cy s (proj1 (build_corners_ok _ _ _ _ _ H))). Qed.
Print Assumptions C65_execute_partial.

(** without conditions on the motion: what a step adds to the total energy *)
Theorem C65_step : forall nnodes ne nodes mr L Ms tiny ext N dt s, let m := rz_mesh mr in
  build_corners nnodes ne 4 nodes = Some m -> layout_ok (num_elems m) L -> (1 <= N)%nat ->
  erosion_safe_step L Ms s -> (forall p, In p (points L) -> s_mass s (fst p) (snd p) <> 0) ->
  let t := rk_step_rz mr L Ms tiny ext N dt s in
  total_energy_rz m L ext t - total_energy_rz m L ext s =
  sumn (num_nodes m) (fun n => sumn 2 (fun d =>
     (ext n * (s_v t n d - s_v s n d) - dt * radius (after_stages_rz mr L Ms tiny ext N dt s (N - 1)) n * internal_force m t n d)
       * ((s_v t n d + s_v s n d) / 2))).
Proof. exact (fun _ _ _ mr L Ms tiny ext N dt s H => step_energy_rz mr L Ms tiny ext N dt s (proj1 (build_corners_ok _ _ _ _ _ H))). Qed.
Print Assumptions C65_step.

(** When nodes run into the axis they are stopped there, but keep their mass per radian, and the next step creates energy. *)
Theorem C65_axis_refuted : exists mr L M s, corners_ok 4 (rz_mesh mr) /\ layout_ok (num_elems (rz_mesh mr)) L /\
  nodes_have_mass (rz_mesh mr) s /\ erosion_safe L [(1, fun _ => M); (1, fun _ => M)] s /\ (forall p, In p (points L) -> s_mass s (fst p) (snd p) <> 0) /\
  (forall s', bdy_velocity M s' = s_v s') /\
  let ext := extensive_mass (s_nmass s) (s_x s) in
  total_energy_rz (rz_mesh mr) L ext (execute_rz mr L 1e-12 1 M [(1, fun _ => M)] s) = total_energy_rz (rz_mesh mr) L ext s /\
  total_energy_rz (rz_mesh mr) L ext (execute_rz mr L 1e-12 1 M [(1, fun _ => M); (1, fun _ => M)] s) = total_energy_rz (rz_mesh mr) L ext s + 9.
Proof.
  exists mesh_q, lay_q, free_gas, fall_q. split; [exact (proj1 quad1_facts)|]. split; [exact lay_q_ok|].
  split; [intros n _; cbn [fall_q state_q s_nmass]; lra|]. split.
  { intros p q Hp Hq Hb _. rewrite lay_q_points in Hp, Hq. destruct Hp as [<-|[]]. destruct Hq as [<-|[]]. destruct Hb as [Hb|[_ Hb]]; cbn in Hb; lia. }
  split; [intros p _; cbn [fall_q state_q s_mass]; lra|]. split; [reflexivity|].
  split; [exact landed_conserves|]. exact (eq_trans axis_energy_created (f_equal (fun E => E + 9) landed_conserves)).
Qed.
Print Assumptions C65_axis_refuted.

Lemma one_point_safe cycles s : erosion_safe lay_q cycles s.
Proof. intros p q Hp Hq Hb _. rewrite lay_q_points in Hp, Hq. destruct Hp as [<-|[]]. destruct Hq as [<-|[]]. destruct Hb as [Hb|[_ Hb]]; cbn in Hb; lia. Qed.

(** a square of gas on the axis, two stages: all hypotheses hold and it expands *)
Example C65_ex : total_energy_rz quad1 lay_q ext_q (execute_rz mesh_q lay_q 1e-12 2 axis_gas [(0.1, fun _ => axis_gas)] square_q) =
  total_energy_rz quad1 lay_q ext_q start_q.
Proof.
  apply (C65_execute_partial 4 1 (fun _ l => l) mesh_q lay_q 1e-12 2 axis_gas [(0.1, fun _ => axis_gas)] square_q); try exact quad1_built; try exact lay_q_ok; try lia; try lra.
  - intros n _. cbn [square_q state_q s_nmass]. lra.
  - apply one_point_safe.
  - intros p _. cbn [square_q state_q s_mass]. lra.
  - exact (fun t H => proj1 (run_q_clear t H)).
  - intros n d. destruct (hold n d) eqn:E.
    + right. split; [cbn [axis_gas bdy_velocity]; now rewrite E|]. intros dt Ms s' [F|[]]. injection F as _ <-. cbn [axis_gas bdy_velocity]. now rewrite E.
    + left. intros dt Ms s' [F|[]]. injection F as _ <-. cbn [axis_gas bdy_velocity]. now rewrite E.
Qed.

(** C66 *)
Theorem C66_execute_partial : forall nnodes ne nodes mr L tiny N M0 cycles s, let m := rz_mesh mr in
  build_corners nnodes ne 4 nodes = Some m -> layout_ok (num_elems m) L -> (1 <= N)%nat -> 0 < tiny ->
  nodes_have_mass m s -> (forall p, In p (points L) -> s_vol s (point_elem L p) = quad_vol m (s_x s) (point_elem L p)) ->
  let ext := extensive_mass (s_nmass s) (s_x s) in
  let s0 := set_v (bdy_velocity M0 s) s in
  (forall t, stage_start mr L tiny ext N cycles s0 t ->
     clear_or_on_axis mr tiny ext (s_x t) /\ forall p, In p (points L) -> good_quad m (s_x t) (point_elem L p)) ->
  (forall dt Ms, In (dt, Ms) cycles -> axially_balanced m L (Ms (N - 1)%nat) /\ forall u n, bdy_velocity (Ms (N - 1)%nat) u n 0%nat = s_v u n 0%nat) ->
  axial_momentum m ext (execute_rz mr L tiny N M0 cycles s) = axial_momentum m ext s0.
Proof. exact (fun _ _ _ mr L tiny N M0 cy s H => execute_axial mr L tiny N M0 cy s (proj1 (build_corners_ok _ _ _ _ _ H))). Qed.
Print Assumptions C66_execute_partial.

(** The artificial viscosity of the code is not axially balanced: its corner forces add up to zero, but every one of them acts on a ring
    of its own radius.  Here it pushes an element of revolution along the axis, and takes internal energy from it. *)
Theorem C66_viscosity_refuted : exists m L q s, corners_ok 4 m /\ layout_ok (num_elems m) L /\ mars_inputs q 1e-16 (s_den s 0%nat 0%nat) (s_sspd s 0%nat 0%nat) /\
  good_quad m (s_x s) 0 /\
  let f := sgh_mars_rz mars_rz m L (fun _ => []) (fun _ => q) 1e-16 1e-8 s 0 0 in
  sumn 4 (fun l => f l 0%nat) = 0 /\
  0 < sumn 4 (fun l => radius s (nodes_in m 0 l) * f l 0%nat) /\
  0 < sumn 4 (fun l => sumn 2 (fun d => radius s (nodes_in m 0 l) * f l d * s_v s (nodes_in m 0 l) d)).
Proof.
  exists quad1, lay_q, floor_q, shear_q. exact (conj (proj1 quad1_facts) (conj lay_q_ok (conj shear_inputs (conj (proj1 square_good) shear_net)))).
Qed.
Print Assumptions C66_viscosity_refuted.

Lemma square_q_vol : forall p, In p (points lay_q) -> s_vol square_q (point_elem lay_q p) = quad_vol quad1 (s_x square_q) (point_elem lay_q p).
Proof. intros p _. cbn [square_q state_q s_vol s_x]. symmetry. exact (proj1 (proj2 square_good)). Qed.

Example C66_ex : axially_balanced quad1 lay_q axis_gas /\ (forall u n, bdy_velocity axis_gas u n 0%nat = s_v u n 0%nat) /\
  (forall p, In p (points lay_q) -> s_vol square_q (point_elem lay_q p) = quad_vol quad1 (s_x square_q) (point_elem lay_q p)) /\
  forall t, stage_start mesh_q lay_q 1e-12 ext_q 2 [(0.1, fun _ => axis_gas)] start_q t ->
    clear_or_on_axis mesh_q 1e-12 ext_q (s_x t) /\ forall p, In p (points lay_q) -> good_quad quad1 (s_x t) (point_elem lay_q p).
Proof.
  split; [exact axis_gas_balanced|]. split; [|exact (conj square_q_vol run_q_clear)].
  intros u n. cbn [axis_gas bdy_velocity]. unfold hold. now rewrite Bool.andb_false_r.
Qed.

(** C67 *)
(** exact for linear velocity fields, in the plane *)
Theorem C67_linear : forall m x v vol old e (A : nat -> nat -> R) (c : nat -> R) i j, (i < 2)%nat -> (j < 2)%nat ->
  area_quad (gather m x e 0) (gather m x e 1) <> 0 ->
  (forall l, (l < 4)%nat -> v (nodes_in m e l) i = c i + sumn 2 (fun k => A i k * x (nodes_in m e l) k)) ->
  get_velgrad_rz m x v vol old e i j = A i j.
Proof. exact velgrad_linear_rz. Qed.
Print Assumptions C67_linear.

Theorem C67_divergence : forall m x v vol old e,
  get_divergence_rz m x v vol e = get_velgrad_rz m x v vol old e 0 0 + get_velgrad_rz m x v vol old e 1 1 + get_velgrad_rz m x v vol old e 2 2.
Proof. exact divergence_trace_rz. Qed.
Print Assumptions C67_divergence.

(** the hoop rate of a uniform radial stretching v_r = a r, on parallelograms *)
Theorem C67_hoop_partial : forall m x v old e a, let X := gather m x e 0 in let Y := gather m x e 1 in
  X 0%nat + X 2%nat = X 1%nat + X 3%nat -> Y 0%nat + Y 2%nat = Y 1%nat + Y 3%nat -> 1e-14 <= vol_quad_raw X Y -> 0 < area_quad X Y ->
  (forall l, (l < 4)%nat -> v (nodes_in m e l) 1%nat = a * x (nodes_in m e l) 1%nat) ->
  get_velgrad_rz m x v (quad_vol m x) old e 2 2 = a.
Proof. exact velgrad_hoop_exact. Qed.
Print Assumptions C67_hoop_partial.

(** not on a trapezoid: 9/8 instead of 1 *)
Theorem C67_hoop_refuted : exists m x v old, corners_ok 4 m /\ good_quad m x 0 /\ (forall n, v n 1%nat = x n 1%nat) /\
  get_velgrad_rz m x v (quad_vol m x) old 0 1 1 = 1 /\ get_velgrad_rz m x v (quad_vol m x) old 0 2 2 = 9 / 8.
Proof.
  exists quad1, trapezoid, (fun n d => match d with 1%nat => trapezoid n 1%nat | _ => 0 end), (fun _ _ _ => 0).
  split; [exact (proj1 quad1_facts)|]. destruct (trapezoid_hoop (fun _ _ _ => 0)) as (A & B & C). split; [exact A|]. split; [reflexivity|]. exact (conj B C).
Qed.
Print Assumptions C67_hoop_refuted.

Example C67_ex : area_quad (gather quad1 (rect 0 1 0 1) 0 0) (gather quad1 (rect 0 1 0 1) 0 1) <> 0 /\
  1e-14 <= vol_quad_raw (gather quad1 (rect 0 1 0 1) 0 0) (gather quad1 (rect 0 1 0 1) 0 1) /\
  gather quad1 (rect 0 1 0 1) 0 0 0%nat + gather quad1 (rect 0 1 0 1) 0 0 2%nat = gather quad1 (rect 0 1 0 1) 0 0 1%nat + gather quad1 (rect 0 1 0 1) 0 0 3%nat.
Proof.
  destruct square_good as ((_ & _ & B) & _ & A). split; [unfold quad_area in A; rewrite A; lra|]. split; [exact B|].
  rewrite gather_q. cbn [rect]. ring.
Qed.

(** C68 *)
Theorem C68_forces : forall nnodes ne nodes m L M s, build_corners nnodes ne 4 nodes = Some m -> layout_ok (num_elems m) L ->
  (dissipation_local M -> forall p l d, In p (points L) -> (l < 4)%nat -> (d < 2)%nat ->
     s_mcforce (forces_and_stress_rz m L M s) (fst p) (corner_in_mat_rz (snd p) l) d = contribution_rz m L M s p l d) /\
  ((forall p q, In p (points L) -> In q (points L) -> before p q -> point_elem L p = point_elem L q -> s_eroded s (fst q) (snd q) = false) ->
   forall e l d, (e < num_elems m)%nat -> (l < 4)%nat -> (d < 2)%nat ->
     s_cforce (forces_and_stress_rz m L M s) (corners_in_elem m e l) d =
     suml (fun p => if Nat.eqb (point_elem L p) e then s_mcforce (forces_and_stress_rz m L M s) (fst p) (corner_in_mat_rz (snd p) l) d else 0) (points L)).
Proof.
  intros nnodes ne nodes m L M s H HL. assert (Hok := proj1 (build_corners_ok _ _ _ _ _ H)). split.
  - intros HD p l d. apply forces_contributions_rz; auto.
  - intros He e l d. apply forces_are_sums_rz; auto.
Qed.
Print Assumptions C68_forces.

(** Under the same pressure everywhere a node surrounded by elements feels no force ... *)
Theorem C68_uniform_pressure : forall nnodes ne nodes mr L M tiny ext alpha dt s P n d, let m := rz_mesh mr in
  build_corners nnodes ne 4 nodes = Some m -> layout_ok (num_elems m) L -> dissipation_local M ->
  uniform_pressure L M s P -> elements_filled m L s -> no_viscosity L M s -> ring_closed m n -> (d < 2)%nat ->
  suml (fun c => s_cforce (rk_stage_rz mr L M tiny ext alpha dt s) c d) (corners_in_node m n) = 0.
Proof. exact (fun _ _ _ mr L M tiny ext alpha dt s P n d H => uniform_stage mr L M tiny ext alpha dt s P n d (proj1 (build_corners_ok _ _ _ _ _ H))). Qed.
Print Assumptions C68_uniform_pressure.

(** ... and a body at rest inside rigid walls stays at rest and keeps its energy. *)
Theorem C68_rest : forall nnodes ne nodes mr L M tiny ext alpha dt s P, let m := rz_mesh mr in
  build_corners nnodes ne 4 nodes = Some m -> layout_ok (num_elems m) L -> dissipation_local M ->
  uniform_pressure L M s P -> elements_filled m L s -> no_viscosity L M s ->
  (forall n d, (n < num_nodes m)%nat -> (d < 2)%nat -> held M m n d /\ s_nmass s n <> 0 /\ s_v0 s n d = 0 /\ 0 <= s_x0 s n 1%nat) ->
  let t := rk_stage_rz mr L M tiny ext alpha dt s in
  (forall n d, (n < num_nodes m)%nat -> (d < 2)%nat -> s_v t n d = 0 /\ s_x t n d = s_x0 s n d) /\
  (forall p, In p (points L) -> s_sie t (fst p) (snd p) = s_sie0 s (fst p) (snd p)).
Proof. exact (fun _ _ _ mr L M tiny ext alpha dt s P H => rest_stage mr L M tiny ext alpha dt s P (proj1 (build_corners_ok _ _ _ _ _ H))). Qed.
Print Assumptions C68_rest.

(** four elements around a free node inside walls *)
Example C68_ex : build_corners 9 4 4 table4 = Some quad4 /\ layout_ok (num_elems quad4) lay_4 /\ dissipation_local walls /\
  uniform_pressure lay_4 walls rest_4 1 /\ elements_filled quad4 lay_4 rest_4 /\ no_viscosity lay_4 walls rest_4 /\ ring_closed quad4 4 /\
  (forall n d, (n < num_nodes quad4)%nat -> (d < 2)%nat -> held walls quad4 n d /\ s_nmass rest_4 n <> 0 /\ s_v0 rest_4 n d = 0 /\ 0 <= s_x0 rest_4 n 1%nat).
Proof.
  destruct rest_4_hyps as (_ & A & B & C & D & E & F). exact (conj quad4_built (conj A (conj B (conj C (conj D (conj E (conj quad4_ring F))))))).
Qed.

(** C69 *)
Theorem C69_density_partial : forall mr L M tiny ext alpha dt s p, let t := rk_stage_rz mr L M tiny ext alpha dt s in In p (points L) ->
  s_eroded t (fst p) (snd p) = false ->
  (state_based M (fst p) = false \/ s_volfrac s (fst p) (snd p) * s_geo s (fst p) (snd p) = 1) ->
  let share := s_vol t (point_elem L p) * s_volfrac t (fst p) (snd p) * s_geo t (fst p) (snd p) in
  share + 1e-20 <> 0 -> s_den t (fst p) (snd p) * (share + 1e-20) = s_mass s (fst p) (snd p) /\ s_vol t (point_elem L p) = quad_vol (rz_mesh mr) (s_x t) (point_elem L p).
Proof.
  intros mr L M tiny ext alpha dt s p t Hp He Hc share Hs. assert (D := stage_den_rz mr L M tiny ext alpha dt s p Hp He). fold t in D.
  assert (Hf := stage_spec_rz mr L M tiny ext alpha dt s). fold t in Hf.
  split; [|exact (rf_vol _ _ _ _ _ _ _ _ _ Hf (point_elem L p))].
  destruct (rf_const _ _ _ _ _ _ _ _ _ Hf) as (_ & _ & E1 & _ & _ & E2 & E3).
  rewrite D. fold share. destruct Hc as [Hc|Hc].
  - rewrite Hc, E1. unfold Rdiv. rewrite Rmult_assoc, Rinv_l by exact Hs. ring.
  - assert (Es : share = s_vol t (point_elem L p)) by (unfold share; rewrite E2, E3, Rmult_assoc, Hc; ring).
    rewrite E1, Es in *. destruct (state_based M (fst p)); unfold Rdiv; rewrite Rmult_assoc, Rinv_l by exact Hs; ring.
Qed.
Print Assumptions C69_density_partial.

(** With a state-based strength model the density is mass over the whole element, whatever the share of the material: half the density here. *)
Theorem C69_strength_refuted : exists mr L M s, corners_ok 4 (rz_mesh mr) /\ layout_ok (num_elems (rz_mesh mr)) L /\
  let t := execute_rz mr L 1e-12 1 M [(1, fun _ => M)] s in
  s_eroded t 0%nat 0%nat = false /\ s_mass t 0%nat 0%nat = 1 /\ 
  s_den t 0%nat 0%nat * (s_vol t 0%nat * s_volfrac t 0%nat 0%nat * s_geo t 0%nat 0%nat + 1e-20) < 0.6.
Proof. exists mesh_q, lay_q, strong, half_q. exact (conj (proj1 quad1_facts) (conj lay_q_ok strong_density)). Qed.
Print Assumptions C69_strength_refuted.

Example C69_ex : In (0, 0)%nat (points lay_q) /\ state_based free_gas 0%nat = false /\
  s_eroded (rk_stage_rz mesh_q lay_q free_gas 1e-12 ext_f 1 1 fall_q) 0%nat 0%nat = false.
Proof.
  split; [left; reflexivity|]. split; [reflexivity|].
  rewrite (rf_eroded _ _ _ _ _ _ _ _ _ (stage_spec_rz mesh_q lay_q free_gas 1e-12 ext_f 1 1 fall_q)); reflexivity.
Qed.
