(** Property theorems C15-C19, C21, C40, C41, C45 and C46. *)
From Verif Require Import BaseReal BaseArr GeomModel GeomSpec GeomProofs SghModel SghSpec SghProofs SghMore MarsModel MarsSpec MarsProofs SghExamples.
Local Open Scope R_scope.

(** C45 *)
Theorem C45_defined_iff : forall nnodes ne nn nodes,
  (exists m, build_corners nnodes ne nn nodes = Some m) <-> table_in_range nnodes ne nn nodes.
Proof. exact build_corners_iff. Qed.
Print Assumptions C45_defined_iff.

Theorem C45_corners : forall nnodes ne nn nodes m, build_corners nnodes ne nn nodes = Some m ->
  corners_ok nn m /\ num_nodes m = nnodes /\ num_elems m = ne /\ nodes_in m = nodes /\
  (forall e k, (e < ne)%nat -> (k < nn)%nat -> corners_in_elem m e k = (e * nn + k)%nat).
Proof. exact build_corners_ok. Qed.
Print Assumptions C45_corners.

Theorem C45_sums : forall nnodes ne nn nodes m (g : nat -> nat -> R), build_corners nnodes ne nn nodes = Some m ->
  sumn (num_nodes m) (fun n => suml (g n) (corners_in_node m n)) =
  sumn (num_elems m) (fun e => sumn nn (fun l => g (nodes_in m e l) (corners_in_elem m e l))).
Proof. exact (fun _ _ nn _ m g H => node_corner_sum nn m g (proj1 (build_corners_ok _ _ _ _ _ H))). Qed.
Print Assumptions C45_sums.

Example C45_ex : build_corners 12 2 8 (fun e l => (4 * e + l)%nat) = Some mesh2 /\ corners_in_node mesh2 5 = [5; 9]%nat.
Proof. split; [exact mesh2_built|vm_compute; reflexivity]. Qed.

(** C15 *)
Theorem C15_setup : forall nnodes ne nodes m L mass, build_corners nnodes ne 8 nodes = Some m -> layout_ok (num_elems m) L ->
  sumn (num_nodes m) (calc_node_mass m (setup_corner_mass m L mass)) = suml (fun p => mass (fst p) (snd p)) (points L) /\
  sumn (num_elems m) (fun e => sumn 8 (fun l => setup_corner_mass m L mass (corners_in_elem m e l))) = suml (fun p => mass (fst p) (snd p)) (points L).
Proof. exact (fun _ _ _ m L mass H => mass_setup m L mass (proj1 (build_corners_ok _ _ _ _ _ H))). Qed.
Print Assumptions C15_setup.

Theorem C15_corner_share : forall nnodes ne nodes m L mass e l, build_corners nnodes ne 8 nodes = Some m -> layout_ok (num_elems m) L ->
  (e < num_elems m)%nat -> (l < 8)%nat ->
  setup_corner_mass m L mass (corners_in_elem m e l) =
  suml (fun p => if Nat.eqb (point_elem L p) e then 1 / 8 * mass (fst p) (snd p) else 0) (points L).
Proof. exact (fun _ _ _ m L mass e l H => setup_mass_corner m L mass e l (proj1 (build_corners_ok _ _ _ _ _ H))). Qed.
Print Assumptions C15_corner_share.

Theorem C15_nonneg : forall m L mass, (forall p, In p (points L) -> 0 <= mass (fst p) (snd p)) ->
  (forall c, 0 <= setup_corner_mass m L mass c) /\ (forall n, 0 <= calc_node_mass m (setup_corner_mass m L mass) n).
Proof. exact (fun m L mass H => conj (setup_mass_ge m L mass H) (fun n => node_mass_ge m L mass n H)). Qed.
Print Assumptions C15_nonneg.

Theorem C15_positive : forall nnodes ne nodes m L mass n, build_corners nnodes ne 8 nodes = Some m -> layout_ok (num_elems m) L ->
  (forall p, In p (points L) -> 0 <= mass (fst p) (snd p)) ->
  (exists p l, In p (points L) /\ (l < 8)%nat /\ nodes_in m (point_elem L p) l = n /\ 0 < mass (fst p) (snd p)) ->
  0 < calc_node_mass m (setup_corner_mass m L mass) n.
Proof. exact (fun _ _ _ m L mass n H => node_mass_pos m L mass n (proj1 (build_corners_ok _ _ _ _ _ H))). Qed.
Print Assumptions C15_positive.

(** over a whole run, whatever the materials, boundary conditions and step sizes do *)
Theorem C15_run : forall nnodes ne nodes m L N cycles s, build_corners nnodes ne 8 nodes = Some m -> layout_ok (num_elems m) L ->
  (forall n, s_nmass s n = calc_node_mass m (setup_corner_mass m L (s_mass s)) n) ->
  node_mass_total m (run m L N cycles s) = total_mass L (run m L N cycles s) /\
  total_mass L (run m L N cycles s) = total_mass L s.
Proof. exact (fun _ _ _ m L N cy s H => run_masses m L N cy s (proj1 (build_corners_ok _ _ _ _ _ H))). Qed.
Print Assumptions C15_run.

Example C15_ex : layout_ok (num_elems mesh2) lay2 /\ (forall n, s_nmass start2 n = calc_node_mass mesh2 (setup_corner_mass mesh2 lay2 (s_mass start2)) n).
Proof.
  split; [|reflexivity]. destruct (build_corners_ok _ _ _ _ _ mesh2_built) as (_ & _ & -> & _). exact lay2_ok.
Qed.

(** C16 *)
Theorem C16_element_balance : forall nnodes ne nodes m L M s e d, build_corners nnodes ne 8 nodes = Some m -> layout_ok (num_elems m) L ->
  dissipation_balanced M -> (e < num_elems m)%nat -> (d < 3)%nat ->
  sumn 8 (fun l => s_cforce (forces_and_stress m L M s) (corners_in_elem m e l) d) = 0.
Proof. exact (fun _ _ _ m L M s e d H HL => forces_balanced m L M (proj1 (build_corners_ok _ _ _ _ _ H)) HL s e d). Qed.
Print Assumptions C16_element_balance.

Theorem C16_stage : forall nnodes ne nodes m L M alpha dt s d F, build_corners nnodes ne 8 nodes = Some m -> layout_ok (num_elems m) L ->
  (d < 3)%nat -> nodes_have_mass m s -> dissipation_balanced M ->
  (forall s' n, bdy_velocity M s' n d = s_v s' n d) ->
  (forall s' n, external_force M s' n d = F n) ->
  momentum m (rk_stage m L M alpha dt s) d = momentum_start m s d + alpha * dt * sumn (num_nodes m) F.
Proof. exact (fun _ _ _ m L M alpha dt s d F H HL => stage_momentum m L M (proj1 (build_corners_ok _ _ _ _ _ H)) HL alpha dt s d F). Qed.
Print Assumptions C16_stage.

Theorem C16_step : forall nnodes ne nodes m L Ms N dt s d F, build_corners nnodes ne 8 nodes = Some m -> layout_ok (num_elems m) L ->
  (1 <= N)%nat -> (d < 3)%nat -> nodes_have_mass m s -> dissipation_balanced (Ms (N - 1)%nat) ->
  (forall s' n, bdy_velocity (Ms (N - 1)%nat) s' n d = s_v s' n d) ->
  (forall s' n, external_force (Ms (N - 1)%nat) s' n d = F n) ->
  momentum m (rk_step m L Ms N dt s) d = momentum m s d + dt * sumn (num_nodes m) F.
Proof. exact (fun _ _ _ m L Ms N dt s d F H => step_momentum m L Ms N dt s d F (proj1 (build_corners_ok _ _ _ _ _ H))). Qed.
Print Assumptions C16_step.

Theorem C16_run : forall nnodes ne nodes m L N cycles s d, build_corners nnodes ne 8 nodes = Some m -> layout_ok (num_elems m) L ->
  (1 <= N)%nat -> (d < 3)%nat -> nodes_have_mass m s ->
  (forall dt Ms, In (dt, Ms) cycles -> dissipation_balanced (Ms (N - 1)%nat) /\
     (forall s' n, bdy_velocity (Ms (N - 1)%nat) s' n d = s_v s' n d) /\
     (forall s' n, external_force (Ms (N - 1)%nat) s' n d = 0)) ->
  momentum m (run m L N cycles s) d = momentum m s d.
Proof. exact (fun _ _ _ m L N cy s d H => run_momentum m L N cy s d (proj1 (build_corners_ok _ _ _ _ _ H))). Qed.
Print Assumptions C16_run.

(** with the MARS viscosities the momentum is exact up to 8 fuzz V per volume share, V a bound on the velocity *)
Theorem C16_stage_mars : forall nnodes ne nodes m L M alpha dt s d F nb vars fuzz small V kernel,
  kernel = mars3 \/ kernel = dirmars3 ->
  build_corners nnodes ne 8 nodes = Some m -> layout_ok (num_elems m) L -> (d < 3)%nat -> nodes_have_mass m s -> 0 < fuzz -> 0 <= V ->
  (forall s' mat sid l d, dissipation M s' mat sid l d = sgh_mars kernel m L nb vars fuzz small s' mat sid l d) ->
  (forall n, Rabs (s_v s n d) <= V) ->
  (forall p, In p (points L) -> mars_inputs (vars (fst p)) fuzz (s_den s (fst p) (snd p)) (s_sspd s (fst p) (snd p))) ->
  (forall s' n, bdy_velocity M s' n d = s_v s' n d) ->
  (forall s' n, external_force M s' n d = F n) ->
  Rabs (momentum m (rk_stage m L M alpha dt s) d - (momentum_start m s d + alpha * dt * sumn (num_nodes m) F)) <=
  Rabs (alpha * dt) * (8 * fuzz * V * suml (fun p => Rabs (s_volfrac s (fst p) (snd p) * s_geo s (fst p) (snd p))) (points L)).
Proof.
  exact (fun _ _ _ m L M alpha dt s d F nb vars fuzz small V kernel Hk H =>
    stage_momentum_visc kernel m L M alpha dt s d F nb vars fuzz small V
      (fun q den sspd vol vg ns v an Hi => match Hk with
         | or_introl E => eq_ind_r (fun k => viscous 8 3 fuzz (k q fuzz small den sspd vol vg ns v an) v) (mars3_viscous q fuzz small den sspd vol vg ns v an Hi) E
         | or_intror E => eq_ind_r (fun k => viscous 8 3 fuzz (k q fuzz small den sspd vol vg ns v an) v) (dirmars3_viscous q fuzz small den sspd vol vg ns v an Hi) E
         end) (proj1 (build_corners_ok _ _ _ _ _ H))).
Qed.
Print Assumptions C16_stage_mars.

Example C16_ex : nodes_have_mass mesh2 start2 /\ dissipation_balanced plain /\
  (forall s' n d, bdy_velocity plain s' n d = s_v s' n d) /\ (forall s' n d, external_force plain s' n d = 0).
Proof.
  split; [exact start2_mass|]. split; [intros s mat sid d; apply sumn_0|]. split; [reflexivity|].
  intros. unfold external_force, plain, gas. cbn [bdy_stress doing_contact]. ring.
Qed.

(** C17 *)
Theorem C17_step_balance : forall nnodes ne nodes m L Ms N dt s F, build_corners nnodes ne 8 nodes = Some m -> layout_ok (num_elems m) L ->
  (1 <= N)%nat -> nodes_have_mass m s -> erosion_safe L [(dt, Ms)] s -> (forall p, In p (points L) -> 0 <= s_mass s (fst p) (snd p)) ->
  let t := rk_step m L Ms N dt s in
  (forall s' n d, external_force (Ms (N - 1)%nat) s' n d = F n d) ->
  (forall n d, (forall s', bdy_velocity (Ms (N - 1)%nat) s' n d = s_v s' n d) \/ s_v t n d + s_v s n d = 0) ->
  total_energy m L t - total_energy m L s =
  dt * sumn (num_nodes m) (fun n => sumn 3 (fun d => F n d * ((s_v t n d + s_v s n d) / 2)))
  - 1e-20 * (sum_sie L t - sum_sie L s).
Proof.
  exact (fun _ _ _ m L Ms N dt s F H HL HN Hm He => step_energy_external m L Ms N dt s F (proj1 (build_corners_ok _ _ _ _ _ H)) HL HN Hm
    (erosion_safe_cons L dt Ms [] s He)).
Qed.
Print Assumptions C17_step_balance.

(** whatever the boundary conditions and external forces do: the work of the reactions *)
Theorem C17_step_general : forall nnodes ne nodes m L Ms N dt s, build_corners nnodes ne 8 nodes = Some m -> layout_ok (num_elems m) L ->
  (1 <= N)%nat -> erosion_safe L [(dt, Ms)] s -> (forall p, In p (points L) -> 0 <= s_mass s (fst p) (snd p)) ->
  let t := rk_step m L Ms N dt s in
  total_energy m L t - total_energy m L s =
  sumn (num_nodes m) (fun n => sumn 3 (fun d =>
     (s_nmass s n * (s_v t n d - s_v s n d) - dt * internal_force m t n d) * ((s_v t n d + s_v s n d) / 2)))
  - 1e-20 * (sum_sie L t - sum_sie L s).
Proof.
  exact (fun _ _ _ m L Ms N dt s H HL HN He => step_energy m L Ms N dt s (proj1 (build_corners_ok _ _ _ _ _ H)) HL HN
    (erosion_safe_cons L dt Ms [] s He)).
Qed.
Print Assumptions C17_step_general.

Theorem C17_run : forall nnodes ne nodes m L N cycles s, build_corners nnodes ne 8 nodes = Some m -> layout_ok (num_elems m) L ->
  (1 <= N)%nat -> nodes_have_mass m s -> erosion_safe L cycles s -> (forall p, In p (points L) -> 0 <= s_mass s (fst p) (snd p)) ->
  (forall dt Ms s' n d, In (dt, Ms) cycles -> external_force (Ms (N - 1)%nat) s' n d = 0) ->
  (forall n d, (forall dt Ms s', In (dt, Ms) cycles -> bdy_velocity (Ms (N - 1)%nat) s' n d = s_v s' n d) \/
     (s_v s n d = 0 /\ forall dt Ms s', In (dt, Ms) cycles -> bdy_velocity (Ms (N - 1)%nat) s' n d = 0)) ->
  total_energy m L (run m L N cycles s) - total_energy m L s = - 1e-20 * (sum_sie L (run m L N cycles s) - sum_sie L s).
Proof. exact (fun _ _ _ m L N cy s H => run_energy m L N cy s (proj1 (build_corners_ok _ _ _ _ _ H))). Qed.
Print Assumptions C17_run.

(** the energies are the ones the solver prints *)
Theorem C17_tallies : forall m L s, total_mass L s = suml (fun p => s_mass s (fst p) (snd p)) (points L) /\
  total_energy m L s = internal_energy L s + kinetic_energy m s.
Proof. exact tallies. Qed.
Print Assumptions C17_tallies.

Example C17_ex : erosion_safe lay2 [(0.1, fun _ => plain)] start2 /\ (forall p, In p (points lay2) -> 0 <= s_mass start2 (fst p) (snd p)).
Proof.
  split; [|intros; cbn [start2 start s_mass]; lra]. intros p q _ _ _ _. split; [reflexivity|]. intros dt Ms k [[= <- <-]|[]]. reflexivity.
Qed.

(** Without the erosion hypothesis the property is false: here 3/2 of energy disappears in one step. *)
Theorem C17_refuted : exists nnodes ne nodes m L M s, build_corners nnodes ne 8 nodes = Some m /\ layout_ok (num_elems m) L /\
  nodes_have_mass m s /\ (forall p, In p (points L) -> 0 <= s_mass s (fst p) (snd p)) /\
  (forall s' n d, external_force M s' n d = 0) /\ (forall s' n d, bdy_velocity M s' n d = s_v s' n d) /\
  let t := rk_step m L (fun _ => M) 1 1 s in
  total_energy m L t - total_energy m L s = - (3 / 2) / (1 + 1e-20) /\
  sum_sie L t - sum_sie L s = - (3 / 2) / (1 + 1e-20).
Proof. exact c17_refuted_witness. Qed.
Print Assumptions C17_refuted.

(** C18 *)
Theorem C18_linear : forall m x v vol e (A : nat -> nat -> R) (c : nat -> R) i j, (i < 3)%nat -> (j < 3)%nat ->
  vol e = elem_vol m x e -> 1e-14 <= vol_hex_raw (gather m x e 0) (gather m x e 1) (gather m x e 2) ->
  (forall l, (l < 8)%nat -> v (nodes_in m e l) i = c i + sumn 3 (fun k => A i k * x (nodes_in m e l) k)) ->
  get_velgrad m x v vol e i j = A i j.
Proof. exact velgrad_linear. Qed.
Print Assumptions C18_linear.

Theorem C18_translation : forall m x v vol e (c : nat -> R) i j, (i < 3)%nat -> (j < 3)%nat ->
  (forall l, (l < 8)%nat -> v (nodes_in m e l) i = c i) -> get_velgrad m x v vol e i j = 0.
Proof. exact velgrad_translation. Qed.
Print Assumptions C18_translation.

(** v = c + w x r *)
Theorem C18_rotation : forall m x v vol e (c w : nat -> R),
  vol e = elem_vol m x e -> 1e-14 <= vol_hex_raw (gather m x e 0) (gather m x e 1) (gather m x e 2) ->
  (forall l, (l < 8)%nat ->
     v (nodes_in m e l) 0%nat = c 0%nat + (w 1%nat * x (nodes_in m e l) 2%nat - w 2%nat * x (nodes_in m e l) 1%nat) /\
     v (nodes_in m e l) 1%nat = c 1%nat + (w 2%nat * x (nodes_in m e l) 0%nat - w 0%nat * x (nodes_in m e l) 2%nat) /\
     v (nodes_in m e l) 2%nat = c 2%nat + (w 0%nat * x (nodes_in m e l) 1%nat - w 1%nat * x (nodes_in m e l) 0%nat)) ->
  (forall i j, (i < 3)%nat -> (j < 3)%nat -> get_velgrad m x v vol e i j + get_velgrad m x v vol e j i = 0) /\
  get_divergence m x v vol e = 0 /\
  get_velgrad m x v vol e 2 1 - get_velgrad m x v vol e 1 2 = 2 * w 0%nat /\
  get_velgrad m x v vol e 0 2 - get_velgrad m x v vol e 2 0 = 2 * w 1%nat /\
  get_velgrad m x v vol e 1 0 - get_velgrad m x v vol e 0 1 = 2 * w 2%nat.
Proof. exact velgrad_rigid. Qed.
Print Assumptions C18_rotation.

Theorem C18_divergence : forall m x v vol e,
  get_divergence m x v vol e = get_velgrad m x v vol e 0 0 + get_velgrad m x v vol e 1 1 + get_velgrad m x v vol e 2 2.
Proof. exact divergence_trace. Qed.
Print Assumptions C18_divergence.

Example C18_ex : 1e-14 <= vol_hex_raw (gather mesh1 stack_x 0 0) (gather mesh1 stack_x 0 1) (gather mesh1 stack_x 0 2).
Proof.
  rewrite (vol_ext _ _ _ (ucube 0) (ucube 1) (ucube 2)), vol_ucube; [lra|]. intros i Hi. unfold gather.
  destruct mesh1_facts as (_ & _ & _ & ->). rewrite !stack_cube by lia. auto.
Qed.

(** C19 *)
Theorem C19_coefficients : forall N k, (k < N)%nat ->
  rk_alpha N k = 1 / INR (N - k) /\ 0 < rk_alpha N k <= 1 /\ (S k = N -> rk_alpha N k = 1) /\
  ((S k < N)%nat -> rk_alpha N k < rk_alpha N (S k)).
Proof. exact alphas. Qed.
Print Assumptions C19_coefficients.

Theorem C19_stage : forall m L Ms N dt s k, (k < N)%nat ->
  let t := after_stages m L Ms N dt s (S k) in
  (forall n d, s_x t n d = s_x s n d + dt / INR (N - k) * ((s_v t n d + s_v s n d) / 2)) /\
  (exists s4 s3, forall n d, s_v t n d = bdy_velocity (Ms k) s4 n d /\
     s_v s4 n d = s_v s n d + dt / INR (N - k) * (external_force (Ms k) s3 n d + internal_force m t n d) / s_nmass s n) /\
  (forall p, In p (points L) -> s_sie t (fst p) (snd p) = s_sie s (fst p) (snd p) - dt / INR (N - k) / (s_mass s (fst p) (snd p) + 1e-20) *
      sumn 8 (fun l => sumn 3 (fun d => s_mcforce t (fst p) (corner_in_mat (snd p) l) d *
         ((s_v t (nodes_in m (point_elem L p) l) d + s_v s (nodes_in m (point_elem L p) l) d) / 2)))).
Proof. exact stage_k. Qed.
Print Assumptions C19_stage.

Theorem C19_constant_force : forall m L Ms N dt s n d F, (1 <= N)%nat ->
  (forall s', bdy_velocity (Ms (N - 1)%nat) s' n d = s_v s' n d) ->
  s_nforce (rk_step m L Ms N dt s) n d = F ->
  s_v (rk_step m L Ms N dt s) n d = s_v s n d + dt * F / s_nmass s n /\
  s_x (rk_step m L Ms N dt s) n d = s_x s n d + dt * s_v s n d + / 2 * (dt * dt) * F / s_nmass s n.
Proof. exact constant_force. Qed.
Print Assumptions C19_constant_force.

Theorem C19_free_flight : forall m L Ms N dt s n d, (1 <= N)%nat -> num_mats L = 0%nat ->
  (forall s', bdy_velocity (Ms (N - 1)%nat) s' n d = s_v s' n d) ->
  (forall s', external_force (Ms (N - 1)%nat) s' n d = 0) ->
  s_v (rk_step m L Ms N dt s) n d = s_v s n d /\ s_x (rk_step m L Ms N dt s) n d = s_x s n d + dt * s_v s n d.
Proof. exact free_flight. Qed.
Print Assumptions C19_free_flight.

Example C19_ex : rk_alpha 3 0 = 1 / 3 /\ rk_alpha 3 1 = 1 / 2 /\ rk_alpha 3 2 = 1.
Proof. unfold rk_alpha. cbn. repeat split; lra. Qed.

(** C21 *)
Theorem C21_irreversible : forall m L N cycles s p T D,
  (forall dt Ms j, In (dt, Ms) cycles -> uses_basic_erosion (Ms j) T D) -> In p (points L) ->
  s_eroded s (fst p) (snd p) = true -> s_eroded (run m L N cycles s) (fst p) (snd p) = true.
Proof. exact (fun m L N cy s p T D H => run_stays m L N cy s p (fun dt Ms j Hin => basic_keeps (Ms j) T D (H dt Ms j Hin))). Qed.
Print Assumptions C21_irreversible.

Theorem C21_void : forall m L M alpha dt s p, let t := rk_stage m L M alpha dt s in In p (points L) -> has_erosion M (fst p) = true ->
  s_eroded t (fst p) (snd p) = true ->
  s_pres t (fst p) (snd p) = 0 /\ s_sspd t (fst p) (snd p) = 1e-32 /\ s_den t (fst p) (snd p) = 1e-32 /\
  forall i j, s_stress t (fst p) (snd p) i j = 0.
Proof. exact stage_void. Qed.
Print Assumptions C21_void.

Theorem C21_no_force : forall m L Ms N dt s p T D, (1 <= N)%nat -> (forall j, uses_basic_erosion (Ms j) T D) -> In p (points L) ->
  s_eroded s (fst p) (snd p) = true ->
  (forall l d, (l < 8)%nat -> (d < 3)%nat -> s_mcforce (rk_step m L Ms N dt s) (fst p) (corner_in_mat (snd p) l) d = 0) /\
  s_sie (rk_step m L Ms N dt s) (fst p) (snd p) = s_sie s (fst p) (snd p).
Proof. exact (fun m L Ms N dt s p T D HN H => step_eroded_inert m L Ms N dt s p HN (fun j => basic_keeps (Ms j) T D (H j))). Qed.
Print Assumptions C21_no_force.

Theorem C21_only_when_met : forall m L N dt Ms s p T D peos, (1 <= N)%nat -> In p (points L) ->
  (forall k, has_erosion (Ms k) (fst p) = true /\ decoupled (Ms k) (fst p) = true /\ uses_basic_erosion (Ms k) T D /\
     (forall s', calc_pressure (Ms k) s' (fst p) (snd p) = peos (s_den s' (fst p) (snd p)) (s_sie s' (fst p) (snd p)))) ->
  s_eroded s (fst p) (snd p) = false -> s_eroded (rk_step m L Ms N dt s) (fst p) (snd p) = true ->
  exists k, (k < N)%nat /\ let t := after_stages m L Ms N dt s (S k) in
    let rho := s_mass s (fst p) (snd p) / (s_vol t (point_elem L p) * s_volfrac s (fst p) (snd p) * s_geo s (fst p) (snd p) + 1e-20) in
    peos rho (s_sie t (fst p) (snd p)) <= T (fst p) \/ rho <= D (fst p).
Proof. exact run_criterion. Qed.
Print Assumptions C21_only_when_met.

Theorem C21_when_met : forall m L M alpha dt s p T D peos, let t := rk_stage m L M alpha dt s in In p (points L) ->
  has_erosion M (fst p) = true -> decoupled M (fst p) = true ->
  (forall s', erode M s' (fst p) (snd p) = basic_erosion T D s' (fst p) (snd p)) ->
  (forall s', calc_pressure M s' (fst p) (snd p) = peos (s_den s' (fst p) (snd p)) (s_sie s' (fst p) (snd p))) ->
  let rho := s_mass t (fst p) (snd p) / (s_vol t (point_elem L p) * s_volfrac t (fst p) (snd p) * s_geo t (fst p) (snd p) + 1e-20) in
  (s_eroded t (fst p) (snd p) = true <->
   s_eroded s (fst p) (snd p) = true \/ peos rho (s_sie t (fst p) (snd p)) <= T \/ rho <= D).
Proof. exact stage_criterion. Qed.
Print Assumptions C21_when_met.

Example C21_ex : uses_basic_erosion breaking (fun _ => -1) (fun _ => 0.01) /\ In (1, 0)%nat (points lay2) /\
  (forall k : nat, has_erosion breaking k = true /\ decoupled breaking k = true).
Proof. split; [intros s mat sid; reflexivity|]. split; [cbn; auto|]. intros; split; reflexivity. Qed.

(** C40 *)
Theorem C40_sum_of_materials_partial : forall nnodes ne nodes m L M s e l d, build_corners nnodes ne 8 nodes = Some m -> layout_ok (num_elems m) L ->
  (forall p q, In p (points L) -> In q (points L) -> before p q -> point_elem L p = point_elem L q -> s_eroded s (fst q) (snd q) = false) ->
  (e < num_elems m)%nat -> (l < 8)%nat -> (d < 3)%nat ->
  s_cforce (forces_and_stress m L M s) (corners_in_elem m e l) d =
  suml (fun p => if Nat.eqb (point_elem L p) e then s_mcforce (forces_and_stress m L M s) (fst p) (corner_in_mat (snd p) l) d else 0) (points L).
Proof. exact (fun _ _ _ m L M s e l d H HL => forces_are_sums m L M (proj1 (build_corners_ok _ _ _ _ _ H)) HL s e l d). Qed.
Print Assumptions C40_sum_of_materials_partial.

(** what each material stores is its own contribution, whatever the others do *)
Theorem C40_own_contribution : forall m L M s p l d, dissipation_local M -> In p (points L) -> (l < 8)%nat -> (d < 3)%nat ->
  s_mcforce (forces_and_stress m L M s) (fst p) (corner_in_mat (snd p) l) d = contribution m L M s p l d.
Proof. exact (fun m L M => forces_contributions m L M). Qed.
Print Assumptions C40_own_contribution.

Theorem C40_refuted : exists nnodes ne nodes m L M s e l d, build_corners nnodes ne 8 nodes = Some m /\ layout_ok (num_elems m) L /\
  (e < num_elems m)%nat /\ (l < 8)%nat /\ (d < 3)%nat /\
  s_cforce (forces_and_stress m L M s) (corners_in_elem m e l) d <>
  suml (fun p => if Nat.eqb (point_elem L p) e then contribution m L M s p l d else 0) (points L).
Proof. exact c40_refuted_witness. Qed.
Print Assumptions C40_refuted.

(** in general: an eroded last material removes the force of all the others *)
Theorem C40_later_erosion_wipes : forall nnodes ne nodes m L M s q l d, build_corners nnodes ne 8 nodes = Some m -> layout_ok (num_elems m) L ->
  In q (points L) -> s_eroded s (fst q) (snd q) = true ->
  (forall p, In p (points L) -> before q p -> point_elem L p <> point_elem L q) -> (l < 8)%nat -> (d < 3)%nat ->
  s_cforce (forces_and_stress m L M s) (corners_in_elem m (point_elem L q) l) d = 0.
Proof. exact (fun _ _ _ m L M s q l d H => forces_wiped m L M s q l d (proj1 (build_corners_ok _ _ _ _ _ H))). Qed.
Print Assumptions C40_later_erosion_wipes.

(** C41 *)
Theorem C41_density : forall m L N cycles s p, (1 <= N)%nat -> cycles <> [] -> In p (points L) ->
  let t := run m L N cycles s in
  (forall dt Ms k, In (dt, Ms) cycles -> decoupled (Ms k) (fst p) = true) ->
  s_eroded t (fst p) (snd p) = false -> 0 <= s_volfrac t (fst p) (snd p) -> 0 <= s_geo t (fst p) (snd p) ->
  s_den t (fst p) (snd p) * (s_vol t (point_elem L p) * s_volfrac t (fst p) (snd p) * s_geo t (fst p) (snd p) + 1e-20) = s_mass s (fst p) (snd p).
Proof. exact run_density. Qed.
Print Assumptions C41_density.

(** the volume is that of the moved element *)
Theorem C41_volume : forall m L N cycles s e, (1 <= N)%nat -> cycles <> [] ->
  s_vol (run m L N cycles s) e = elem_vol m (s_x (run m L N cycles s)) e.
Proof. exact run_vol. Qed.
Print Assumptions C41_volume.

Theorem C41_coupled_single_material_partial : forall m L N cycles s p, (1 <= N)%nat -> cycles <> [] -> In p (points L) ->
  let t := run m L N cycles s in
  (forall dt Ms k, In (dt, Ms) cycles -> decoupled (Ms k) (fst p) = false) ->
  s_eroded t (fst p) (snd p) = false ->
  s_den t (fst p) (snd p) * (s_vol t (point_elem L p) + 1e-20) = s_mass s (fst p) (snd p).
Proof. exact run_density_coupled. Qed.
Print Assumptions C41_coupled_single_material_partial.

(** with a coupled equation of state the share of the volume is ignored in a mixed element *)
Theorem C41_coupled_refuted : exists nnodes ne nodes m L M s mat sid,
  build_corners nnodes ne 8 nodes = Some m /\ layout_ok (num_elems m) L /\ In (mat, sid) (points L) /\
  let t := run m L 2 [(0.1, fun _ => M)] s in
  s_den t mat sid * (s_vol t (elem_in_mat L mat sid) * s_volfrac t mat sid * s_geo t mat sid + 1e-20) < 0.6 * s_mass t mat sid.
Proof. exact c41_coupled_refuted_witness. Qed.
Print Assumptions C41_coupled_refuted.

(** C46 *)
Theorem C46_viscous : forall q fuzz small den sspd vol vg ns v an, mars_inputs q fuzz den sspd ->
  viscous 8 3 fuzz (mars3 q fuzz small den sspd vol vg ns v an) v /\
  viscous 8 3 fuzz (dirmars3 q fuzz small den sspd vol vg ns v an) v /\
  viscous 4 2 fuzz (mars_rz q fuzz small den sspd vol vg ns v an) v /\
  viscous 4 2 fuzz (dirmars_rz q fuzz small den sspd vol vg ns v an) v.
Proof.
  exact (fun q fuzz small den sspd vol vg ns v an H =>
    conj (mars3_viscous q fuzz small den sspd vol vg ns v an H) (conj (dirmars3_viscous q fuzz small den sspd vol vg ns v an H)
      (conj (mars_rz_viscous q fuzz small den sspd vol vg ns v an H) (dirmars_rz_viscous q fuzz small den sspd vol vg ns v an H)))).
Qed.
Print Assumptions C46_viscous.

Theorem C46_galilean : forall q fuzz small den sspd vol vg ns v an w l d, mars_inputs q fuzz den sspd ->
  ((l < 8)%nat -> Rabs (mars3 q fuzz small den sspd vol vg ns (shift v w) an l d - mars3 q fuzz small den sspd vol vg ns v an l d) <= fuzz * Rabs (w d)) /\
  ((l < 8)%nat -> Rabs (dirmars3 q fuzz small den sspd vol vg ns (shift v w) an l d - dirmars3 q fuzz small den sspd vol vg ns v an l d) <= fuzz * Rabs (w d)) /\
  ((l < 4)%nat -> Rabs (mars_rz q fuzz small den sspd vol vg ns (shift v w) an l d - mars_rz q fuzz small den sspd vol vg ns v an l d) <= fuzz * Rabs (w d)) /\
  ((l < 4)%nat -> Rabs (dirmars_rz q fuzz small den sspd vol vg ns (shift v w) an l d - dirmars_rz q fuzz small den sspd vol vg ns v an l d) <= fuzz * Rabs (w d)).
Proof.
  exact (fun q fuzz small den sspd vol vg ns v an w l d H =>
    conj (mars3_shift q fuzz small den sspd vol vg ns v an w l d H) (conj (dirmars3_shift q fuzz small den sspd vol vg ns v an w l d H)
      (conj (mars_rz_shift q fuzz small den sspd vol vg ns v an w l d H) (dirmars_rz_shift q fuzz small den sspd vol vg ns v an w l d H)))).
Qed.
Print Assumptions C46_galilean.

Theorem C46_limiter : forall q fuzz small sspd len div curl c ns, 0 <= phi_floor q <= 1 -> 0 < fuzz -> 0 <= sspd -> 0 <= len ->
  phi_floor q <= phi q fuzz small sspd len div curl c ns <= 1.
Proof. exact phi_range. Qed.
Print Assumptions C46_limiter.

(** the directional kernels weigh the impedance with the part of the corner's faces that the shock sees: for a box, face area times
    the component of the shock direction along the face normal, summed over the faces that meet at the corner *)
Theorem C46_directional_box : forall q den sspd div small vbar v A l, 0 <= A 0%nat -> 0 <= A 1%nat -> 0 <= A 2%nat ->
  ((l < 8)%nat -> mu_dir 3 hex_edges q den sspd div small vbar v (fun i k => - box_normals A i k) l =
     impedance q den sspd div (norm 3 (fun d => v l d - vbar d)) *
     sumn 3 (fun d => Rabs (shock_dir 3 small vbar v (fun i k => - box_normals A i k) l d) * A d)) /\
  ((l < 4)%nat -> mu_dir 2 quad_edges q den sspd div small vbar v (fun i k => - rect_normals A i k) l =
     impedance q den sspd div (norm 2 (fun d => v l d - vbar d)) *
     sumn 2 (fun d => Rabs (shock_dir 2 small vbar v (fun i k => - rect_normals A i k) l d) * A d)).
Proof.
  intros q den sspd div small vbar v A l H0 H1 H2. split; intros Hl.
  - exact (mu_dir_box q den sspd div small vbar v A l Hl H0 H1 H2).
  - exact (mu_dir_rect q den sspd div small vbar v A l Hl H0 H1).
Qed.
Print Assumptions C46_directional_box.
(** and a box element has such normals *)
Example C46_directional_box_ex : forall a b c l d, (l < 8)%nat -> (d < 3)%nat ->
  bmat (fun i => if Nat.testbit i 0 then a else 0) (fun i => if Nat.testbit i 1 then b else 0) (fun i => if Nat.testbit i 2 then c else 0) l d =
  box_normals (fun k => match k with O => b * c / 4 | 1%nat => a * c / 4 | _ => a * b / 4 end) l d.
Proof. exact box_normals_bmat. Qed.


(** the 3D kernels do not see which way the flow spins *)
Theorem C46_spin : forall q fuzz small den sspd vol vg ns v an l d,
  mars3 q fuzz small den sspd vol (transpose vg) ns v an l d = mars3 q fuzz small den sspd vol vg ns v an l d /\
  dirmars3 q fuzz small den sspd vol (transpose vg) ns v an l d = dirmars3 q fuzz small den sspd vol vg ns v an l d.
Proof. exact mars3_spin. Qed.
Print Assumptions C46_spin.

(** the RZ kernel is switched off completely for one sense of rotation *)
Theorem C46_rz_spin_refuted : exists q fuzz small den sspd vol vg ns v an, mars_inputs q fuzz den sspd /\
  mars_rz q fuzz small den sspd vol vg ns v an 0 0 = - (3 / 4) /\
  mars_rz q fuzz small den sspd vol (transpose vg) ns v an 0 0 = 0.
Proof. exact (ex_intro _ rz_q (ex_intro _ 1e-16 (ex_intro _ 1e-8 (ex_intro _ 1 (ex_intro _ 1 (ex_intro _ 1 (ex_intro _ rz_vg (ex_intro _ [1] (ex_intro _ rz_v (ex_intro _ rz_an rz_spin_refuted)))))))))). Qed.
Print Assumptions C46_rz_spin_refuted.

(** Inside the solver: the viscosity of a material point never does positive work on the moving nodes. *)
Theorem C46_solver_work : forall m L nb vars fuzz small s p,
  mars_inputs (vars (fst p)) fuzz (s_den s (fst p) (snd p)) (s_sspd s (fst p) (snd p)) ->
  sumn 8 (fun l => sumn 3 (fun d => sgh_mars mars3 m L nb vars fuzz small s (fst p) (snd p) l d * s_v s (nodes_in m (point_elem L p) l) d)) <= 0 /\
  sumn 8 (fun l => sumn 3 (fun d => sgh_mars dirmars3 m L nb vars fuzz small s (fst p) (snd p) l d * s_v s (nodes_in m (point_elem L p) l) d)) <= 0.
Proof.
  exact (fun m L nb vars fuzz small s p H =>
    conj (sgh_mars_work mars3 m L nb vars fuzz small s p (fun q den sspd vol vg ns v an Hi => mars3_viscous q fuzz small den sspd vol vg ns v an Hi) H)
         (sgh_mars_work dirmars3 m L nb vars fuzz small s p (fun q den sspd vol vg ns v an Hi => dirmars3_viscous q fuzz small den sspd vol vg ns v an Hi) H)).
Qed.
Print Assumptions C46_solver_work.

Example C46_ex : mars_inputs (mkMars 1.3333 1.3333 0.3333 0.3333 0 1) 1e-16 1 1.
Proof. constructor; cbn [q1 q1ex q2 q2ex phi_floor]; lra. Qed.
