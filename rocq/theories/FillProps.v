(** Properties C23-C26 (region fills) and C52 (painted fields). *)
From Coq Require Import Permutation.
From Verif Require Import FillModel FillSpec FillProofs FillExamples.

(** ** C23 *)

(** The result does not depend on the order in which the parallel loops visit the elements. *)
Theorem C23_schedule : forall rf max sc ne o1 o2 st1, schedule ne o1 -> schedule ne o2 -> fill_regions rf max sc o1 = Ok st1 ->
  exists st2, fill_regions rf max sc o2 = Ok st2 /\ forall e, st2 e = st1 e.
Proof. exact fill_schedule. Qed.
Print Assumptions C23_schedule.

Theorem C23_last_full_fill_wins : forall rf max sc ne order st e f, schedule ne order -> fill_regions rf max sc order = Ok st -> (e < ne)%nat ->
  covers rf sc f e = true -> is_full rf sc f e = true -> (forall g, (f < g < length rf)%nat -> covers rf sc g e = false) ->
  ef_num (st e) = 1%nat /\ ef_slot (st e) 0%nat = mkSlot f 1 1.
Proof. exact last_full_wins. Qed.
Print Assumptions C23_last_full_fill_wins.

Example C23_last_full_ex : exists st, fill_regions [mkr VGlobal 0 1; mkr VGlobal 1 1; mkr VNone 2 1] 3 sc0 one = Ok st /\
  covers [mkr VGlobal 0 1; mkr VGlobal 1 1; mkr VNone 2 1] sc0 1 0 = true /\ is_full [mkr VGlobal 0 1; mkr VGlobal 1 1; mkr VNone 2 1] sc0 1 0 = true /\
  forall g, (1 < g < 3)%nat -> covers [mkr VGlobal 0 1; mkr VGlobal 1 1; mkr VNone 2 1] sc0 g 0 = false.
Proof. exact last_wins_example. Qed.

Theorem C23_uncovered_is_empty : forall rf max sc ne order st e, schedule ne order -> fill_regions rf max sc order = Ok st ->
  (forall g, (g < length rf)%nat -> covers rf sc g e = false) -> ef_num (st e) = 0%nat.
Proof. exact uncovered_empty. Qed.
Print Assumptions C23_uncovered_is_empty.

(** Processing a fill changes no element outside its region. *)
Theorem C23_outside_unchanged : forall rf max sc f e st s, covers rf sc f e = false -> fill_elem rf max sc f e st = Ok s -> s = st.
Proof. exact fill_elem_skip. Qed.
Print Assumptions C23_outside_unchanged.

(** The number of materials never exceeds the limit, nor the number of fills; every slot holds a fill that covers the
    element. *)
Theorem C23_limit : forall rf max sc ne order st e, schedule ne order -> fill_regions rf max sc order = Ok st ->
  (ef_num (st e) <= max)%nat /\ (ef_num (st e) <= length rf)%nat /\
  forall i, (i < ef_num (st e))%nat -> (sl_fill (ef_slot (st e) i) < length rf)%nat /\ covers rf sc (sl_fill (ef_slot (st e) i)) e = true.
Proof.
  intros rf max sc ne order st e H1 H2. destruct (final_inv rf max sc ne order st e H1 H2) as [A B C].
  split; [exact A|]. split; [exact B|]. intros i Hi. destruct (C i Hi) as (D & E & _). split; assumption.
Qed.
Print Assumptions C23_limit.

(** With a positive limit, geometry and fractions that are defined, no array is used out of bounds. *)
Theorem C23_defined : forall rf max sc ne order, (0 < max)%nat -> schedule ne order -> (forall e, (e < ne)%nat -> defined rf sc e) ->
  fill_regions rf max sc order <> UB.
Proof. exact fill_no_ub. Qed.
Print Assumptions C23_defined.

Example C23_defined_ex : defined [mkr VGlobal 0 1; mkr VGlobal 1 0.5] sc0 0.
Proof. apply defined_global. intros r [<-|[<-|[]]]; eauto. Qed.

(** A fill that covers nothing can change what a later fill does to an element. *)
Theorem C23_elsewhere_refuted : exists r a b st st',
  covers [r; a; b] sc0 0 0 = false /\
  fill_regions [r; a; b] 3 sc0 one = Ok st /\ elem_mats [r; a; b] (st 0%nat) = Ok [1]%nat /\
  fill_regions [a; b] 3 sc0 one = Ok st' /\ elem_mats [a; b] (st' 0%nat) = Ok [0; 1]%nat.
Proof.
  assert (H : 0 <= 0.5 < 1 - 1e-8) by lra. destruct (lost 0.5 H) as (st & A & B). destruct (both 0.5 0.5 H H) as (st' & C & D & _).
  exists (mkr VNone 1 0.5), (mkr VGlobal 0 0.5), (mkr VGlobal 1 0.5), st, st'. split; [now apply (cov_none _ _ _ _ 1 0.5)|].
  split; [exact A|]. split; [exact B|]. split; [exact C|exact D].
Qed.
Print Assumptions C23_elsewhere_refuted.

(** Filling a material again is refused when the element has all its slots in use, although no new slot is needed. *)
Theorem C23_refill_refuted : exists rf, fill_regions rf 3 sc0 one = Abort /\ NoDup (nodup Nat.eq_dec (map rg_material rf)) /\ length (nodup Nat.eq_dec (map rg_material rf)) = 3%nat.
Proof.
  exists [mkr VGlobal 0 0.2; mkr VGlobal 1 0.2; mkr VGlobal 2 0.2; mkr VGlobal 0 0.2]. split; [apply refill_aborts; lra|]. split; [apply NoDup_nodup|reflexivity].
Qed.
Print Assumptions C23_refill_refuted.

(** ** C24 *)
Theorem C24_fractions_in_range : forall rf max sc ne order st e i, schedule ne order -> fill_regions rf max sc order = Ok st -> (i < ef_num (st e))%nat ->
  0 <= sl_vf (ef_slot (st e) i) <= 1 /\ sl_geo (ef_slot (st e) i) = 1.
Proof.
  intros rf max sc ne order st e i H1 H2 Hi. destruct (final_inv rf max sc ne order st e H1 H2) as [_ _ C]. destruct (C i Hi) as (_ & _ & D & E & _). split; assumption.
Qed.
Print Assumptions C24_fractions_in_range.

(** When no two fills use the same material, an element holds, in order, the fills that cover it and are not followed by
    a full fill covering it, each with the fraction asked for; and their materials differ. *)
Theorem C24_contents_partial : forall rf max sc ne order st e, NoDup (map rg_material rf) -> schedule ne order -> fill_regions rf max sc order = Ok st -> (e < ne)%nat ->
  slots (st e) = map (slot_of rf sc e) (kept_list rf sc e (length rf)) /\ exists l, elem_mats rf (st e) = Ok l /\ NoDup l.
Proof.
  intros rf max sc ne order st e N HO H He. split.
  - destruct (fill_regions_elem _ _ _ _ _ _ HO H) as [A _]. exact (distinct_run rf max sc e N _ _ (le_n _) (A e He)).
  - exact (distinct_mats_nodup rf max sc ne order st e N HO H He).
Qed.
Print Assumptions C24_contents_partial.

(** ... and the program stops exactly when some element would need too many slots at some time. *)
Theorem C24_accepts_partial : forall rf max sc ne order, (0 < max)%nat -> NoDup (map rg_material rf) -> schedule ne order -> (forall e, (e < ne)%nat -> defined rf sc e) ->
  ((exists st, fill_regions rf max sc order = Ok st) <-> forall e k, (e < ne)%nat -> (k <= length rf)%nat -> (length (kept_list rf sc e k) <= max)%nat).
Proof.
  intros rf max sc ne order Hm N HO D. split.
  - intros [st H] e k He Hk. destruct (fill_regions_elem _ _ _ _ _ _ HO H) as [A _].
    apply (proj1 (distinct_ok_iff rf max sc e Hm N (D e He) (length rf) (le_n _))); [exists (st e); exact (A e He)|exact Hk].
  - intros H. apply (fill_regions_exists rf max sc ne order HO). intros e He.
    apply (proj2 (distinct_ok_iff rf max sc e Hm N (D e He) (length rf) (le_n _))). intros j Hj. apply H; assumption.
Qed.
Print Assumptions C24_accepts_partial.

Example C24_distinct_ex : NoDup (map rg_material [mkr VGlobal 0 0.25; mkr VGlobal 1 0.5]) /\
  exists st, fill_regions [mkr VGlobal 0 0.25; mkr VGlobal 1 0.5] 3 sc0 one = Ok st /\ slots (st 0%nat) = [mkSlot 0 0.25 1; mkSlot 1 0.5 1].
Proof.
  split; [repeat constructor; cbn; intuition lia|]. destruct (both 0.25 0.5) as (st & A & _ & B); [lra|lra|]. exists st. split; assumption.
Qed.

Theorem C24_one_slot_per_material_refuted : exists rf st, fill_regions rf 3 sc0 one = Ok st /\ elem_mats rf (st 0%nat) = Ok [1; 1]%nat.
Proof. destruct (twice 0.3) as (st & A & B); [lra|]. eexists. exists st. split; [exact A|exact B]. Qed.
Print Assumptions C24_one_slot_per_material_refuted.

Theorem C24_sum_refuted : exists rf st, fill_regions rf 3 sc0 one = Ok st /\ 1 < suml sl_vf (slots (st 0%nat)).
Proof.
  destruct (both 0.7 0.7) as (st & A & _ & B); [lra|lra|]. eexists. exists st. split; [exact A|]. rewrite B. unfold suml. cbn [fold_right sl_vf]. lra.
Qed.
Print Assumptions C24_sum_refuted.

(** A partial fill on top of a full one leaves the full one's fraction at one. *)
Theorem C24_sum_background_refuted : exists rf st, fill_regions rf 3 sc0 one = Ok st /\ suml sl_vf (slots (st 0%nat)) = 1.5.
Proof.
  destruct (full_then_part 0.5) as (st & A & B); [lra|]. eexists. exists st. split; [exact A|]. rewrite B. unfold suml. cbn [fold_right sl_vf]. lra.
Qed.
Print Assumptions C24_sum_background_refuted.

(** ** C25 *)
Theorem C25_shapes : forall v o r c, rg_volume r <> VVoxel -> (fill_geometric_region v o r c = Some 1%nat <-> in_shape r o c).
Proof. exact geometric_iff. Qed.
Print Assumptions C25_shapes.

Theorem C25_total : forall v o r c, rg_volume r <> VVoxel -> fill_geometric_region v o r c = Some 1%nat \/ fill_geometric_region v o r c = Some 0%nat.
Proof. exact geometric_total. Qed.
Print Assumptions C25_total.

Theorem C25_growing : forall v v' o r r' c, rg_volume r <> VVoxel -> grows r r' -> fill_geometric_region v o r c = Some 1%nat -> fill_geometric_region v' o r' c = Some 1%nat.
Proof.
  intros v v' o r r' c N G H. apply geometric_iff; [destruct G as (E & _); congruence|]. apply (in_shape_grows r r' o c G). now apply (geometric_iff v o r c N).
Qed.
Print Assumptions C25_growing.

(** An element all of whose nodes are in a box, ball or solid cylinder is in it. *)
Theorem C25_inside : forall v o r n x, (0 < n)%nat -> (rg_volume r = VBox \/ ((rg_volume r = VSphere \/ rg_volume r = VCylinder) /\ rg_radius1 r <= 0)) ->
  (forall i, (i < n)%nat -> in_shape r o (x i)) -> fill_geometric_region v o r (elem_center 3 n x) = Some 1%nat.
Proof.
  intros v o r n x Hn HV H. apply geometric_iff; [destruct HV as [E|[[E|E] _]]; rewrite E; discriminate|]. now apply center_in_convex.
Qed.
Print Assumptions C25_inside.

Example C25_ex : fill_geometric_region (mkVoxels [] 0 0 0 0 0 0 0 0 0) 0 (mkRegion VSphere 0 0 0 0 0 0 0 1 2 (at3 1 1 1) 0 SUniform 1 0 (fun _ => 0)) (at3 1 1 2.5) = Some 1%nat.
Proof. apply C25_shapes; [discriminate|]. unfold in_shape, shell. cbn [rg_volume rg_radius1 rg_radius2 rg_origin]. rewrite dist2_3. cbn [at3]. lra. Qed.

(** ** C26 *)

(** On a regular grid of points the lookup at the centre of a voxel, shifted by the region's origin, returns the voxel's
    value, except in the last layer of each direction. *)
Theorem C26_centers_partial : forall ni nj nk x0 y0 z0 hx hy hz values r i j k,
  (3 <= ni)%nat -> (3 <= nj)%nat -> (3 <= nk)%nat -> hx <> 0 -> hy <> 0 -> hz <> 0 ->
  (i < ni - 2)%nat -> (j < nj - 2)%nat -> (k < nk - 2)%nat -> length values = ((ni - 1) * (nj - 1) * (nk - 1))%nat ->
  (Z.of_nat ni * Z.of_nat nj * Z.of_nat nk < int_limit)%Z ->
  voxel_lookup (voxel_init ni nj nk (grid x0 hx) (grid y0 hy) (grid z0 hz) values) r
    (at3 (voxel_center x0 hx i + rg_origin r 0%nat) (voxel_center y0 hy j + rg_origin r 1%nat) (voxel_center z0 hz k + rg_origin r 2%nat))
  = Some (nth (i + j * (ni - 1) + k * (ni - 1) * (nj - 1)) values 0%nat).
Proof.
  intros ni nj nk x0 y0 z0 hx hy hz values r i j k A1 A2 A3 B1 B2 B3 C1 C2 C3 L I. rewrite lookup_centers; try assumption; try lia.
  destruct (Nat.eqb_spec i (ni - 2)); [lia|]. destruct (Nat.eqb_spec j (nj - 2)); [lia|]. destruct (Nat.eqb_spec k (nk - 2)); [lia|]. reflexivity.
Qed.
Print Assumptions C26_centers_partial.

(** The last layer is never filled, on any regular grid. *)
Theorem C26_last_layer_refuted : forall ni nj nk x0 y0 z0 hx hy hz values r i j k,
  (3 <= ni)%nat -> (3 <= nj)%nat -> (3 <= nk)%nat -> hx <> 0 -> hy <> 0 -> hz <> 0 ->
  (i < ni - 1)%nat -> (j < nj - 1)%nat -> (k < nk - 1)%nat -> length values = ((ni - 1) * (nj - 1) * (nk - 1))%nat ->
  (Z.of_nat ni * Z.of_nat nj * Z.of_nat nk < int_limit)%Z ->
  i = (ni - 2)%nat \/ j = (nj - 2)%nat \/ k = (nk - 2)%nat ->
  voxel_lookup (voxel_init ni nj nk (grid x0 hx) (grid y0 hy) (grid z0 hz) values) r
    (at3 (voxel_center x0 hx i + rg_origin r 0%nat) (voxel_center y0 hy j + rg_origin r 1%nat) (voxel_center z0 hz k + rg_origin r 2%nat))
  = Some 0%nat.
Proof.
  intros ni nj nk x0 y0 z0 hx hy hz values r i j k A1 A2 A3 B1 B2 B3 C1 C2 C3 L I E. rewrite lookup_centers; try assumption; try lia.
  destruct E as [E|[E|E]]; rewrite E, Nat.eqb_refl, ?orb_true_r; reflexivity.
Qed.
Print Assumptions C26_last_layer_refuted.

Example C26_ex : (3 <= 4)%nat /\ length (repeat 1%nat 27) = ((4 - 1) * (4 - 1) * (4 - 1))%nat /\ (Z.of_nat 4 * Z.of_nat 4 * Z.of_nat 4 < int_limit)%Z.
Proof. split; [lia|]. split; reflexivity. Qed.

(** A filled point is less than one computed spacing below the first voxel centre and less than n spacings above it. *)
Theorem C26_bounded_partial : forall v r c, 0 < vx_dx v -> 0 < vx_dy v -> 0 < vx_dz v -> voxel_lookup v r c = Some 1%nat ->
  - vx_dx v < c 0%nat - vx_ox v - rg_origin r 0%nat < INR (vx_ni v) * vx_dx v /\
  - vx_dy v < c 1%nat - vx_oy v - rg_origin r 1%nat < INR (vx_nj v) * vx_dy v /\
  - vx_dz v < c 2%nat - vx_oz v - rg_origin r 2%nat < INR (vx_nk v) * vx_dz v.
Proof. exact lookup_bounds. Qed.
Print Assumptions C26_bounded_partial.

(** The point (-0.1,-0.1,-0.1) is filled by voxels that occupy the box from 0 to 3 in each direction. *)
Theorem C26_outside_refuted : exists r, rg_origin r 0%nat = 0 /\ rg_origin r 1%nat = 0 /\ rg_origin r 2%nat = 0 /\
  voxel_lookup (voxel_init 4 4 4 (grid 0 1) (grid 0 1) (grid 0 1) (repeat 1%nat 27)) r (at3 (-0.1) (-0.1) (-0.1)) = Some 1%nat.
Proof. exists (mkr VVoxel 0 1). split; [reflexivity|]. split; [reflexivity|]. split; [reflexivity|]. exact below_box. Qed.
Print Assumptions C26_outside_refuted.

(** With a single voxel in the first direction every lookup converts an infinite or undefined number to an integer. *)
Theorem C26_single_voxel_refuted : forall nj nk x0 y0 z0 hx hy hz values r c,
  voxel_lookup (voxel_init 2 nj nk (grid x0 hx) (grid y0 hy) (grid z0 hz) values) r c = None.
Proof. exact two_points. Qed.
Print Assumptions C26_single_voxel_refuted.

(** Reading n numbers stores the first n or n-1 of the file in order. *)
Theorem C26_read_partial : forall n lines vals rest, read_values n lines [] = Some (vals, rest) ->
  (n - 1 <= length vals <= n)%nat /\ concat lines = vals ++ concat rest.
Proof. intros n lines vals rest H. apply (read_spec n lines [] vals rest H). cbn. lia. Qed.
Print Assumptions C26_read_partial.

(** A last number standing alone on its line is never read. *)
Theorem C26_read_refuted : forall n pre x post, (1 < n)%nat -> length (concat pre) = (n - 1)%nat -> (forall l, In l pre -> l <> []) ->
  read_values n (pre ++ [x] :: post) [] = Some (concat pre, [x] :: post).
Proof. intros n pre x post Hn E Hne. apply (read_misses_last n pre ([x] :: post) []); [exact E|cbn; lia|exact Hne]. Qed.
Print Assumptions C26_read_refuted.

(** ** C52 *)
Theorem C52_given_velocity : forall c u v w s, paint_vector c u v w s UCartesian = Some (u, v, w) /\ paint_vector c u v w s UStationary = Some (0, 0, 0).
Proof. split; reflexivity. Qed.
Print Assumptions C52_given_velocity.

(** Radial and spherical velocities have the given magnitude and point away from the axis or the origin (towards it for a
    negative magnitude). *)
Theorem C52_radial_velocity : forall c u v w s, 1e-14 < sqrt (c 0%nat * c 0%nat + c 1%nat * c 1%nat) ->
  exists a b, paint_vector c u v w s URadial = Some (a, b, 0) /\ a * a + b * b = s * s /\ a * c 1%nat = b * c 0%nat /\
  a * c 0%nat + b * c 1%nat = s * sqrt (c 0%nat * c 0%nat + c 1%nat * c 1%nat).
Proof. exact radial_velocity. Qed.
Print Assumptions C52_radial_velocity.

Theorem C52_spherical_velocity : forall c u v w s, 1e-14 < sqrt (c 0%nat * c 0%nat + c 1%nat * c 1%nat + c 2%nat * c 2%nat) ->
  exists a b e, paint_vector c u v w s USpherical = Some (a, b, e) /\ a * a + b * b + e * e = s * s /\
  a * c 1%nat = b * c 0%nat /\ b * c 2%nat = e * c 1%nat /\ a * c 2%nat = e * c 0%nat /\
  a * c 0%nat + b * c 1%nat + e * c 2%nat = s * sqrt (c 0%nat * c 0%nat + c 1%nat * c 1%nat + c 2%nat * c 2%nat).
Proof. exact spherical_velocity. Qed.
Print Assumptions C52_spherical_velocity.

Example C52_radial_ex : 1e-14 < sqrt (at3 3 4 0 0%nat * at3 3 4 0 0%nat + at3 3 4 0 1%nat * at3 3 4 0 1%nat).
Proof. cbn [at3]. replace (3 * 3 + 4 * 4) with 25 by ring. rewrite sqrt_25. lra. Qed.

(** At the origin the velocity is zero, not undefined. *)
Theorem C52_origin : forall c u v w s, sqrt (c 0%nat * c 0%nat + c 1%nat * c 1%nat + c 2%nat * c 2%nat) <= 1e-14 -> paint_vector c u v w s USpherical = Some (0, 0, 0).
Proof.
  intros c u v w s H. unfold paint_vector, unit_dir. cbn [sumn]. replace (0 + c 0%nat * c 0%nat + c 1%nat * c 1%nat + c 2%nat * c 2%nat) with (c 0%nat * c 0%nat + c 1%nat * c 1%nat + c 2%nat * c 2%nat) by ring.
  destruct (Rlt_dec _ _) as [L|_]; [exfalso; lra|]. now rewrite Rmult_0_r.
Qed.
Print Assumptions C52_origin.

(** The vortex flow is free of divergence and has no flow through the walls of cells with integer corners. *)
Theorem C52_vortex : forall c u v w s, exists a b, paint_vector c u v w s UTgVortex = Some (a, b, 0) /\
  (forall k, c 0%nat = IZR k -> a = 0) /\ (forall k, c 1%nat = IZR k -> b = 0) /\
  exists U V du dv, U (c 0%nat) (c 1%nat) = a /\ V (c 0%nat) (c 1%nat) = b /\
    (forall c' u' v' w' s', paint_vector c' u' v' w' s' UTgVortex = Some (U (c' 0%nat) (c' 1%nat), V (c' 0%nat) (c' 1%nat), 0)) /\
    derivable_pt_lim (fun t => U t (c 1%nat)) (c 0%nat) du /\ derivable_pt_lim (fun t => V (c 0%nat) t) (c 1%nat) dv /\ du + dv = 0.
Proof.
  intros c u v w s. exists (vortex_u (c 0%nat) (c 1%nat)), (vortex_v (c 0%nat) (c 1%nat)). split; [reflexivity|].
  split; [intros k E; unfold vortex_u; rewrite E, sin_int_pi; ring|]. split; [intros k E; unfold vortex_v; rewrite E, sin_int_pi; ring|].
  destruct (vortex_divergence (c 0%nat) (c 1%nat)) as (du & dv & A & B & C). exists vortex_u, vortex_v, du, dv.
  split; [reflexivity|]. split; [reflexivity|]. split; [reflexivity|]. split; [exact A|]. split; [exact B|exact C].
Qed.
Print Assumptions C52_vortex.

(** The spherical level set of slope one is the signed distance to the sphere of the given radius around the origin. *)
Theorem C52_level_set_sphere : forall c r orig, paint_multi_scalar 3 c r 1 orig SSpherical = Some (sqrt (dist2 3 orig c) - r).
Proof. intros c r orig. unfold paint_multi_scalar, dist2. now rewrite Rmult_1_l. Qed.
Print Assumptions C52_level_set_sphere.

(** The radial one vanishes at distance r*r from the axis instead of r. *)
Theorem C52_level_set_cylinder_refuted : exists c orig, sqrt (dist2 2 orig c) = 2 /\ paint_multi_scalar 3 c 2 1 orig SRadial = Some (-2).
Proof.
  exists (at3 2 0 0), (fun _ => 0). assert (E : sqrt (dist2 2 (fun _ => 0) (at3 2 0 0)) = 2).
  { rewrite dist2_2. cbn [at3]. replace ((2 - 0) * (2 - 0) + (0 - 0) * (0 - 0)) with (2 * 2) by ring. apply sqrt_square. lra. }
  split; [exact E|]. unfold paint_multi_scalar. fold (dist2 2 (fun _ => 0) (at3 2 0 0)). rewrite E. f_equal. ring.
Qed.
Print Assumptions C52_level_set_cylinder_refuted.

(** The origin given for a volume fraction has no effect. *)
Theorem C52_volume_fraction_origin_refuted : forall c scalar slope orig orig' field, get_region_scalar c scalar slope orig field = get_region_scalar c scalar slope orig' field.
Proof. reflexivity. Qed.
Print Assumptions C52_volume_fraction_origin_refuted.

(** In 2D the spherical velocity of a node depends on the coordinates of the next node, and for the last node memory behind
    the array is read. *)
Theorem C52_spherical_2d_refuted :
  (exists x x', (forall d, x 0%nat d = x' 0%nat d) /\
    paint_vector (viewed x 0) 0 0 0 1 USpherical = Some (3 / 5, 4 / 5, 0) /\ paint_vector (viewed x' 0) 0 0 0 1 USpherical = Some (3 / 13, 4 / 13, 12 / 13)) /\
  (forall n x, node_view 2 (S n) x n 2 = None).
Proof.
  split.
  - exists (pts 0), (pts 12). split; [reflexivity|exact spherical_2d].
  - intros n x. unfold node_view. destruct (Nat.ltb_spec (n * 2 + 2) (S n * 2)); [lia|reflexivity].
Qed.
Print Assumptions C52_spherical_2d_refuted.

(** Nodal values: the last (element, fill) of the loop that paints a node decides; so the result is independent of the
    order of the parallel loop when the fills that meet at the node agree ... *)
Theorem C52_nodes_partial : forall (V : Type) nie sl (value : nat -> nat -> option V) o1 o2 field n, Permutation o1 o2 ->
  (forall v w, In v (painters nie sl value o1 n) -> In w (painters nie sl value o1 n) -> v = w) ->
  paint_nodes nie sl value o1 field n = paint_nodes nie sl value o2 field n.
Proof. exact @paint_nodes_agree. Qed.
Print Assumptions C52_nodes_partial.

(** ... and depends on it at the interface of two regions otherwise. *)
Theorem C52_nodes_refuted : exists nie sl (value : nat -> nat -> option R) o1 o2 field n, Permutation o1 o2 /\
  paint_nodes nie sl value o1 field n <> paint_nodes nie sl value o2 field n.
Proof.
  exists (fun _ => [0%nat]), (fun e => [e]), (fun f _ => Some (INR f)), [0; 1]%nat, [1; 0]%nat, (fun _ => 0), 0%nat. split; [constructor|].
  rewrite !paint_nodes_last. cbn. lra.
Qed.
Print Assumptions C52_nodes_refuted.
