(** C31-C33, C54, C55, C57: the thermal solver. *)
From Verif Require Import BaseReal BaseArr GeomModel GeomSpec GeomProofs SghModel SghSpec SghProofs SghExamples TableModel TableSpec TableProofs ThermModel ThermSpec ThermProofs ThermFlow ThermExamples.
Local Open Scope R_scope.

(** the mesh builder produces meshes the theorems below apply to *)
Theorem C31_mesh : forall nnodes ne nodes, table_in_range nnodes ne 8 nodes ->
  exists mesh el, build_corners nnodes ne 8 nodes = Some mesh /\ build_elems nnodes ne 8 nodes = Some el /\
    forall L x mass cond cp, layout_ok ne L -> distinct_elems L -> thermal_ok (mkThermal mesh el L x mass cond cp).
Proof.
  intros nnodes ne nodes Hr. destruct (build_elems_ok nnodes ne nodes Hr) as (mesh & el & E1 & E2 & En & Ee & Ei & Hok & Hel).
  exists mesh, el. split; [exact E1|]. split; [exact E2|]. intros L x mass cond cp HL HD. split; [exact Hok|]. split; [apply Hel|].
  cbn [h_mesh h_L]. rewrite Ee. auto.
Qed.
Print Assumptions C31_mesh.

(** *** C31 *)

(** conduction in an element moves heat between its nodes, without creating any, and from hot to cold *)
Theorem C31_element : forall P s s' e mat sid, thermal_ok P -> corner_heat P None s = Some s' ->
  (e < num_elems (h_mesh P))%nat -> holds (h_L P) e mat sid ->
  sumn 8 (fun l => t_cq s' (corners_in_elem (h_mesh P) e l)) = 0 /\
  ((forall mat sid, 0 <= h_cond P mat sid) -> 0 < t_vol s e ->
   sumn 8 (fun l => t_temp s (nodes_in (h_mesh P) e l) * t_cq s' (corners_in_elem (h_mesh P) e l)) <= 0).
Proof.
  intros P s s' e mat sid HP E He Hh. destruct (last_exists _ _ _ _ Hh) as (mt & sd & Hlast).
  destruct (corner_heat_spec P (proj1 HP) (proj1 (proj2 (proj2 HP))) (proj2 (proj2 (proj2 HP))) _ _ _ E) as (_ & Hc & _). split.
  - rewrite (sumn_ext 8 _ (fun l => conducted P (h_cond P mt sd) (t_temp s) (t_vol s e) e l)); [apply conducted_balance|].
    intros l Hl. rewrite (Hc e l mt sd He Hl Hlast). cbn [deposit]. ring.
  - intros Hk HV. rewrite (sumn_ext 8 _ (fun l => t_temp s (nodes_in (h_mesh P) e l) * conducted P (h_cond P mt sd) (t_temp s) (t_vol s e) e l)).
    + rewrite conducted_dissipates by lra. pose proof (Hk mt sd).
      assert (0 <= sumn 3 (fun d => gradient P (t_temp s) (t_vol s e) e d ^ 2)) by (apply sumn_nonneg; intros; apply pow2_ge_0).
      assert (0 <= h_cond P mt sd * t_vol s e * sumn 3 (fun d => gradient P (t_temp s) (t_vol s e) e d ^ 2)) by (apply Rmult_le_pos; [apply Rmult_le_pos; lra|assumption]). lra.
    + intros l Hl. rewrite (Hc e l mt sd He Hl Hlast). cbn [deposit]. ring.
Qed.
Print Assumptions C31_element.

(** a stage changes the heat content by what crosses the boundary and what the source brings *)
Theorem C31_stage : forall P B src alpha dt s s', thermal_ok P -> (0 < num_elems (h_mesh P))%nat -> no_const B ->
  therm_stage P B src alpha dt s = Some s' ->
  heat_content P (t_temp s') = heat_content P (t_temp0 s) + alpha * dt * (boundary_rate P B (t_temp s) + source_rate P src (t_vol s)).
Proof. intros P B src alpha dt s s' HP. apply stage_balance. exact HP. Qed.
Print Assumptions C31_stage.

(** a whole calculation, any number of stages and cycles, conserves the heat content of an insulated body *)
Theorem C31_run : forall P B N t0 dts s s' t' pos', thermal_ok P -> (0 < num_elems (h_mesh P))%nat -> insulated B ->
  t_vol s = elem_vol (h_mesh P) (h_x P) ->
  therm_run P B false (S N) t0 dts s = Some (s', t', pos') -> heat_content P (t_temp s') = heat_content P (t_temp s).
Proof. intros P B N t0 dts s s' t' pos' HP. apply run_conserves. exact HP. Qed.
Print Assumptions C31_run.

(** a uniform temperature stays, in an insulated body and in one cooled by surroundings of the same temperature *)
Theorem C31_uniform : forall P B N t0 dts s s' t' pos' a, thermal_ok P -> (0 < num_elems (h_mesh P))%nat ->
  (insulated B \/ no_const B /\ patches_of B RadTemp = [] /\ a = 293.15) ->
  (forall n, (n < num_nodes (h_mesh P))%nat -> t_temp s n = a) ->
  therm_run P B false N t0 dts s = Some (s', t', pos') -> forall n, (n < num_nodes (h_mesh P))%nat -> t_temp s' n = a.
Proof.
  intros P B N t0 dts s s' t' pos' a HP Hne HB. apply run_uniform; auto.
  - destruct HB as [HB|HB]; [apply insulated_no_const; exact HB|apply HB].
  - intros T n HT Hn. destruct HB as [HB|(_ & HB & Ha)]; [apply arrives_insulated; exact HB|apply arrives_ambient; [exact HB|rewrite HT; auto]].
Qed.
Print Assumptions C31_uniform.

(** in a linear temperature field the stored gradient and flux are the exact ones, whatever the shape of the element *)
Theorem C31_linear : forall P B src alpha dt s s' mat sid a g, thermal_ok P -> therm_stage P B src alpha dt s = Some s' ->
  (mat < num_mats (h_L P))%nat -> (sid < num_mat_elems (h_L P) mat)%nat ->
  let e := elem_in_mat (h_L P) mat sid in
  t_vol s e = vol_hex_raw (gather (h_mesh P) (h_x P) e 0) (gather (h_mesh P) (h_x P) e 1) (gather (h_mesh P) (h_x P) e 2) -> t_vol s e <> 0 ->
  (forall l, (l < 8)%nat -> t_temp s (nodes_in (h_mesh P) e l) = a + sumn 3 (fun d => g d * h_x P (nodes_in (h_mesh P) e l) d)) ->
  forall d, (d < 3)%nat -> t_grad s' mat e d = g d /\ t_flux s' mat sid d = - h_cond P mat sid * g d.
Proof.
  intros P B src alpha dt s s' mat sid a g HP E Hm Hs. cbv zeta. intros EV HV HT d Hd.
  destruct (stage_stored P HP _ _ _ _ _ _ E mat sid Hm Hs) as (_ & Hg & Hf). cbv zeta in Hg, Hf. rewrite Hg, Hf.
  rewrite (gradient_linear P _ _ _ a g EV HV HT d Hd). auto.
Qed.
Print Assumptions C31_linear.

Example C31_ex : exists s' t' pos', therm_run (cube 1 stack_x) closed false 2 0 [/ 10; / 10] (tstart (cube 1 stack_x) (fun n => stack_x n 0)) = Some (s', t', pos') /\
  thermal_ok (cube 1 stack_x) /\ insulated closed /\ heat_content (cube 1 stack_x) (fun n => stack_x n 0) = 12.
Proof.
  destruct (cube_run 1 stack_x closed false 2 0 [/ 10; / 10] (tstart (cube 1 stack_x) (fun n => stack_x n 0))) as ([[s' t'] pos'] & E); [lia|].
  exists s', t', pos'. split; [exact E|]. split; [apply cube_ok|]. split; [apply closed_insulated|].
  unfold heat_content. destruct mesh1_facts as (_ & N & _ & _). cbn [cube h_mesh]. rewrite N. change mesh1 with (h_mesh (cube 1 stack_x)).
  rewrite (sumn_ext 8 _ (fun n => 3 * stack_x n 0)) by (intros n Hn; rewrite cube_capacity by exact Hn; reflexivity). rewrite sumn_scal. cbn. lra.
Qed.

(** *** C32 *)

(** A stage is defined only if every material fills the elements 0..k-1, and the first one the whole mesh: the
    gradient and the specific heat are indexed by the element's number in the mesh. *)
Theorem C32_defined_iff : forall P B src alpha dt s, thermal_ok P ->
  (exists s', therm_stage P B src alpha dt s = Some s') <->
  (forall mat sid, (mat < num_mats (h_L P))%nat -> (sid < num_mat_elems (h_L P) mat)%nat -> (elem_in_mat (h_L P) mat sid < num_mat_elems (h_L P) mat)%nat) /\
  (forall n, (n < num_nodes (h_mesh P))%nat -> capacity P n <> 0 /\
     forall e, In e (h_elems P n) -> (0 < num_mats (h_L P) /\ e < num_mat_elems (h_L P) 0)%nat).
Proof. intros P B src alpha dt s _. apply stage_defined. Qed.
Print Assumptions C32_defined_iff.

Theorem C32_first_covers : forall P B src alpha dt s s', thermal_ok P -> (0 < num_elems (h_mesh P))%nat -> therm_stage P B src alpha dt s = Some s' ->
  forall e, (e < num_elems (h_mesh P))%nat -> exists sid, holds (h_L P) e 0 sid.
Proof. intros P B src alpha dt s s' HP Hne E. apply (stage_covers P HP _ _ _ _ _ _ Hne E). Qed.
Print Assumptions C32_first_covers.

(** hence two materials that do not share an element cannot be calculated *)
Theorem C32_two_regions_undefined : forall P B src alpha dt s mat sid, thermal_ok P -> (mat <> 0)%nat -> (mat < num_mats (h_L P))%nat ->
  (sid < num_mat_elems (h_L P) mat)%nat -> (forall sid', ~ holds (h_L P) (elem_in_mat (h_L P) mat sid) 0 sid') ->
  therm_stage P B src alpha dt s = None.
Proof.
  intros P B src alpha dt s mat sid HP Hm0 Hm Hs Hn. destruct (therm_stage P B src alpha dt s) as [s'|] eqn:E; [|reflexivity]. exfalso.
  assert (He : (elem_in_mat (h_L P) mat sid < num_elems (h_mesh P))%nat) by (apply (proj1 (proj2 (proj2 HP)) (mat, sid)), points_in; auto).
  destruct (C32_first_covers P B src alpha dt s s' HP ltac:(lia) E _ He) as (sid' & Hh). exact (Hn sid' Hh).
Qed.
Print Assumptions C32_two_regions_undefined.

(** the element's heat is that of its last material alone *)
Theorem C32_last_wins : forall P src s s', thermal_ok P -> corner_heat P src s = Some s' ->
  forall e c mat sid, (e < num_elems (h_mesh P))%nat -> (c < 8)%nat -> last_material (h_L P) e mat sid ->
  t_cq s' (corners_in_elem (h_mesh P) e c) = conducted P (h_cond P mat sid) (t_temp s) (t_vol s e) e c +
    match src with
    | Some (pos, power) => if Rle_dec (sumn 3 (fun d => (pos d - center P e d) ^ 2)) (8 ^ 2) then power_density power * t_vol s e / 8 else 0
    | None => 0
    end.
Proof.
  intros P src s s' HP E e c mat sid He Hc Hlast.
  destruct (corner_heat_spec P (proj1 HP) (proj1 (proj2 (proj2 HP))) (proj2 (proj2 (proj2 HP))) _ _ _ E) as (_ & H & _).
  rewrite (H e c mat sid He Hc Hlast). f_equal. unfold deposit. destruct src as [[pos power]|]; [|reflexivity].
  pose proof (in_source_spec P pos e) as K. unfold covered in K. destruct (Rle_dec _ _) as [Hle|Hle]; destruct (in_source P pos e) eqn:Ei; try reflexivity.
  - rewrite <- K in Hle. easy.
  - exfalso. apply Hle, K. reflexivity.
Qed.
Print Assumptions C32_last_wins.

(** with one material in each element this is the full contribution *)
Theorem C32_single_partial : forall P s s', thermal_ok P -> corner_heat P None s = Some s' ->
  forall e c mat sid, (e < num_elems (h_mesh P))%nat -> (c < 8)%nat -> holds (h_L P) e mat sid ->
  (forall mat' sid', holds (h_L P) e mat' sid' -> mat' = mat) ->
  t_cq s' (corners_in_elem (h_mesh P) e c) = conducted P (h_cond P mat sid) (t_temp s) (t_vol s e) e c.
Proof.
  intros P s s' HP E e c mat sid He Hc Hh Hu. rewrite (C32_last_wins P None s s' HP E e c mat sid He Hc); [ring|].
  split; [exact Hh|]. intros mat' sid' Hh'. rewrite (Hu mat' sid' Hh'). lia.
Qed.
Print Assumptions C32_single_partial.

(** with two materials the contribution of the first is lost *)
Theorem C32_sum_refuted : exists P s s' e c, thermal_ok P /\ corner_heat P None s = Some s' /\ (e < num_elems (h_mesh P))%nat /\ (c < 8)%nat /\
  holds (h_L P) e 0 0 /\ holds (h_L P) e 1 0 /\ num_mats (h_L P) = 2%nat /\
  t_cq s' (corners_in_elem (h_mesh P) e c) <>
    conducted P (h_cond P 0 0) (t_temp s) (t_vol s e) e c + conducted P (h_cond P 1 0) (t_temp s) (t_vol s e) e c.
Proof.
  set (P := cube 2 stack_x). set (s := tstart P (fun n => stack_x n 0)). destruct mesh1_facts as (_ & _ & C & _).
  destruct (proj2 (corner_heat_defined P None s)) as (s' & E); [intros mat sid _ Hs; exact (Nat.lt_0_1)|].
  exists P, s, s', 0%nat, 0%nat. split; [apply cube_ok|]. split; [exact E|]. split; [cbn [P cube h_mesh]; rewrite C; lia|]. split; [lia|].
  split; [repeat split; cbn; lia|]. split; [repeat split; cbn; lia|]. split; [reflexivity|].
  assert (Hl : last_material (h_L P) 0 1 0) by (split; [repeat split; cbn; lia|]; intros mat' sid' (H & _); cbn in H; lia).
  rewrite (C32_last_wins P None s s' (cube_ok 2 stack_x) E 0%nat 0%nat 1%nat 0%nat); [|cbn [P cube h_mesh]; rewrite C; lia|lia|exact Hl].
  assert (EV : t_vol s 0%nat = 1) by apply (cube_volume 2). rewrite EV. cbn [s tstart t_temp]. unfold P.
  rewrite !cube_conducted by lia. cbn [cube h_cond Nat.eqb]. unfold bmat, bmat0, ucube, twelth. cbn. lra.
Qed.
Print Assumptions C32_sum_refuted.

(** and the heat capacity of a node is that of the first material, whatever the others are *)
Theorem C32_capacity_refuted : exists P P', thermal_ok P /\ thermal_ok P' /\ num_mats (h_L P) = 2%nat /\
  P' = mkThermal (h_mesh P) (h_elems P) (h_L P) (h_x P) (h_mass P) (h_cond P) (fun mat sid => if Nat.eqb mat 1 then 1000 * h_cp P mat sid else h_cp P mat sid) /\
  (forall e, (e < num_elems (h_mesh P))%nat -> exists sid, holds (h_L P) e 1 sid) /\
  forall B src alpha dt s, therm_stage P' B src alpha dt s = therm_stage P B src alpha dt s /\ exists s', therm_stage P B src alpha dt s = Some s'.
Proof.
  exists (cube 2 stack_x). eexists. split; [apply cube_ok|]. split; [|split; [reflexivity|split; [reflexivity|split]]].
  - destruct (cube_ok 2 stack_x) as (A & _ & C & D). split; [exact A|]. split; [apply elems1_ok|]. split; [exact C|exact D].
  - intros e He. destruct mesh1_facts as (_ & _ & C & _). cbn [cube h_mesh] in He. rewrite C in He. exists 0%nat. replace e with 0%nat by lia. repeat split; cbn; lia.
  - intros. split; [|apply cube_stage; lia]. cbn [cube h_mesh h_elems h_L h_x h_mass h_cond]. unfold cube. apply stage_cp. reflexivity.
Qed.
Print Assumptions C32_capacity_refuted.

Example C32_ex : thermal_ok (cube 2 stack_x) /\ last_material (h_L (cube 2 stack_x)) 0 1 0 /\
  exists s', corner_heat (cube 2 stack_x) None (tstart (cube 2 stack_x) (fun n => stack_x n 0)) = Some s'.
Proof.
  split; [apply cube_ok|]. split; [split; [repeat split; cbn; lia|intros mat' sid' (H & _); cbn in H; lia]|].
  apply corner_heat_defined. intros; exact Nat.lt_0_1.
Qed.

(** *** C33 *)

(** what convection and radiation bring to a node: a quarter of the patch's area for every visit of a patch *)
Theorem C33_convection : forall P B s n, t_nq (boundary_convection P B s) n =
  t_nq s n + node_gain B (fun p n => - 100 * (t_temp s n - 293.15) * (patch_area P B p / 4)) (patches_of B ConvTemp) n.
Proof.
  intros. unfold boundary_convection. rewrite boundary_flux_eq. f_equal. apply node_gain_ext. intros p. rewrite quarter_area_eq.
  unfold convection_flux. generalize 293.15. intros; ring.
Qed.
Print Assumptions C33_convection.

Theorem C33_radiation : forall P B s n, t_nq (boundary_radiation P B s) n =
  t_nq s n + node_gain B (fun p n => - (0.2 * 5.67037442e-8) * t_temp s n ^ 4 * (patch_area P B p / 4)) (patches_of B RadTemp) n.
Proof.
  intros. unfold boundary_radiation. rewrite boundary_flux_eq. f_equal. apply node_gain_ext. intros p. rewrite quarter_area_eq.
  unfold radiation_flux. generalize 0.2 5.67037442e-8. intros; ring.
Qed.
Print Assumptions C33_radiation.

Lemma gain_sign B f ps n : (forall p, f p n <= 0) -> node_gain B f ps n <= 0.
Proof.
  intros H. unfold node_gain. apply Rle_trans with (suml (fun _ : nat => 0) ps); [|right; apply suml_0]. apply suml_le. intros p _.
  apply Rle_trans with (sumn 4 (fun _ => 0)); [|right; apply sumn_0]. apply sumn_le. intros l _. destruct (Nat.eqb _ _); [apply H|lra].
Qed.

(** walls hotter than 293.15 lose heat by convection, all walls lose heat by radiation *)
Theorem C33_loss : forall P B s n,
  (293.15 <= t_temp s n -> t_nq (boundary_convection P B s) n <= t_nq s n) /\ t_nq (boundary_radiation P B s) n <= t_nq s n.
Proof.
  intros P B s n. split.
  - intros HT. rewrite C33_convection. rewrite <- (Rplus_0_r (t_nq s n)) at 2. apply Rplus_le_compat_l, gain_sign. intros p.
    pose proof (patch_area_nonneg P B p). assert (0 <= (t_temp s n - 293.15) * patch_area P B p) by (apply Rmult_le_pos; lra).
    replace (- 100 * (t_temp s n - 293.15) * (patch_area P B p / 4)) with (- 25 * ((t_temp s n - 293.15) * patch_area P B p)) by (generalize 293.15; intros; field). set (X := (t_temp s n - 293.15) * patch_area P B p) in *. clearbody X. lra.
  - rewrite C33_radiation. rewrite <- (Rplus_0_r (t_nq s n)) at 2. apply Rplus_le_compat_l, gain_sign. intros p.
    pose proof (patch_area_nonneg P B p). assert (0 <= t_temp s n ^ 4 * patch_area P B p).
    { apply Rmult_le_pos; [|lra]. replace (t_temp s n ^ 4) with ((t_temp s n ^ 2) ^ 2) by ring. apply pow2_ge_0. }
    replace (- (0.2 * 5.67037442e-8) * t_temp s n ^ 4 * (patch_area P B p / 4)) with (- (0.2 * 5.67037442e-8) / 4 * (t_temp s n ^ 4 * patch_area P B p)) by (generalize 0.2 5.67037442e-8; intros; field).
    assert (0 < 0.2 * 5.67037442e-8 / 4) by lra. set (X := t_temp s n ^ 4 * patch_area P B p) in *. clearbody X.
    replace (- (0.2 * 5.67037442e-8) / 4 * X) with (- ((0.2 * 5.67037442e-8) / 4 * X)) by (generalize 0.2 5.67037442e-8; intros; field).
    pose proof (Rmult_le_pos (0.2 * 5.67037442e-8 / 4) X). lra.
Qed.
Print Assumptions C33_loss.

(** a patch whose four nodes are distinct gives a quarter of its loss to each: in total h (T - 293.15) area at a uniform
    temperature *)
Theorem C33_total : forall P B a ps, (forall p, In p ps -> forall l, (l < 4)%nat -> (tb_nip B p l < num_nodes (h_mesh P))%nat) ->
  sumn (num_nodes (h_mesh P)) (node_gain B (fun p n => a * (patch_area P B p / 4)) ps) = a * suml (patch_area P B) ps.
Proof.
  intros P B a ps Hr. unfold node_gain. rewrite suml_sumn_exchange. rewrite <- suml_scal. apply suml_ext. intros p Hp.
  rewrite sumn_exchange. rewrite (sumn_ext 4 _ (fun _ => a * (patch_area P B p / 4))); [rewrite sumn_const; cbn; field|].
  intros l Hl. rewrite (sumn_ext _ _ (fun n => if Nat.eqb n (tb_nip B p l) then a * (patch_area P B p / 4) else 0)) by (intros; now rewrite Nat.eqb_sym).
  apply sumn_delta. apply Hr; auto.
Qed.
Print Assumptions C33_total.

(** the area is that of the quadrilateral if its first diagonal splits it (in particular if it is convex) *)
Theorem C33_area_partial : forall P B p,
  diagonal_splits (h_x P (tb_nip B p 0)) (h_x P (tb_nip B p 1)) (h_x P (tb_nip B p 2)) (h_x P (tb_nip B p 3)) ->
  patch_area P B p = quad_area (h_x P (tb_nip B p 0)) (h_x P (tb_nip B p 1)) (h_x P (tb_nip B p 2)) (h_x P (tb_nip B p 3)) /\
  4 * quarter_area (h_x P) (tb_nip B p) = patch_area P B p.
Proof. intros P B p H. split; [apply quad_split; exact H|]. rewrite quarter_area_eq. field. Qed.
Print Assumptions C33_area_partial.

Example C33_ex : forall w h, 0 <= w * h -> let a := fun d => 0 in let b := fun d => match d with O => w | _ => 0 end in
  let c := fun d => match d with O => w | S O => h | _ => 0 end in let e := fun d => match d with S O => h | _ => 0 end in
  diagonal_splits a b c e /\ quad_area a b c e = w * h.
Proof.
  intros w h H. cbv zeta. split.
  - exists 1. split; [lra|]. left. intros d Hd. unfold cross, vsub. destruct d as [|[|[|d]]]; try ring; lia.
  - unfold quad_area, norm, cross, vsub. cbn [sumn].
    match goal with |- / 2 * sqrt ?u = _ => replace u with ((2 * (w * h)) ^ 2) by ring end. rewrite sqrt_pow2 by lra. field.
Qed.

(** but not for a plane quadrilateral with a re-entrant second corner *)
Theorem C33_area_refuted : exists a b c e : nat -> R,
  (forall d, (d < 3)%nat -> d = 2%nat -> a d = 0 /\ b d = 0 /\ c d = 0 /\ e d = 0) /\
  quad_area a b c e = 6 /\ tri_area3 a b c + tri_area3 c e a = 10.
Proof.
  exists (fun d => 0), (fun d => match d with O => 2 | S O => 1 | _ => 0 end), (fun d => match d with O => 4 | _ => 0 end), (fun d => match d with O => 2 | S O => 4 | _ => 0 end).
  split; [intros d Hd ->; auto|]. rewrite !tri_area3_eq. unfold quad_area, triangle_area, norm, cross, vsub. cbn [sumn]. split.
  - match goal with |- / 2 * sqrt ?u = _ => replace u with (12 ^ 2) by ring end. rewrite sqrt_pow2 by lra. lra.
  - match goal with |- / 2 * sqrt ?u + / 2 * sqrt ?v = _ => replace u with (4 ^ 2) by ring; replace v with (16 ^ 2) by ring end. rewrite !sqrt_pow2 by lra. lra.
Qed.
Print Assumptions C33_area_refuted.

(** the order in which the patches are visited does not matter *)
Theorem C33_order : forall P B B' k flux s, tb_nip B' = tb_nip B -> Permutation (patches_of B k) (patches_of B' k) ->
  forall n, t_nq (boundary_flux P B k flux s) n = t_nq (boundary_flux P B' k flux s) n.
Proof.
  intros P B B' k flux s E Hp n. rewrite !boundary_flux_eq. f_equal. unfold node_gain. rewrite E. apply suml_perm. exact Hp.
Qed.
Print Assumptions C33_order.

(** *** C54: the moving heat source *)

(** the tool path of the solver as a curve over time *)
Definition path (coord : tool_point -> R) (t v : R) : Prop :=
  curve 4 (fun i => tp_time (nth i tool_points (mkTool 0 0 0 0 0))) (fun i => coord (nth i tool_points (mkTool 0 0 0 0 0))) t v.

(** A cycle adds power x step / (volume of the source) x (volume of the elements it covers), counted once per element; the power
    is the one at the beginning of the step; the source then moves to its position at the end of the step. *)
Theorem C54_cycle : forall P B N dt s t pos s' t' pos', thermal_ok P -> (0 < num_elems (h_mesh P))%nat -> insulated B -> t_vol s = elem_vol (h_mesh P) (h_x P) ->
  therm_cycle P B true (S N) dt (s, t, pos) = Some (s', t', pos') ->
  exists power, path tp_power t power /\
    heat_content P (t_temp s') = heat_content P (t_temp s) + dt * (power_density power * covered_volume P pos (elem_vol (h_mesh P) (h_x P))) /\
    t_vol s' = elem_vol (h_mesh P) (h_x P) /\ t' = t + dt /\ path tp_x t' (pos' 0%nat) /\ path tp_y t' (pos' 1%nat) /\ path tp_z t' (pos' 2%nat).
Proof.
  intros P B N dt s t pos s' t' pos' HP Hne Hi HV H. destruct (cycle_inv P _ _ _ _ _ _ _ _ _ _ H) as (tab & power & p & E1 & E2 & E3 & -> & E4 & ->).
  destruct (tool_curve tool_points) as (tab' & E1' & K); [discriminate|]. rewrite E1 in E1'. injection E1' as <-.
  destruct (K t) as (_ & _ & _ & q & _ & Eq & _ & _ & _ & Cq). rewrite E2 in Eq. injection Eq as <-.
  destruct (K (t + dt)) as (x & y & z & _ & Ep & _ & Cx & Cy & Cz & _). rewrite E4 in Ep. injection Ep as ->.
  destruct (step_balance P HP B _ N dt s s' Hne Hi HV E3) as [A V]. exists power. cbn [source_rate xyz fst snd] in *. auto 10.
Qed.
Print Assumptions C54_cycle.

(** the source density integrated over the covered elements is the power if these fill a sphere of radius 8 (pi is 3.14159 here) *)
Theorem C54_power : forall P pos power V, covered_volume P pos V = 4 / 3 * 3.14159 * 8 ^ 3 -> power_density power * covered_volume P pos V = power.
Proof. intros P pos power V ->. unfold power_density. field. lra. Qed.
Print Assumptions C54_power.

Lemma first_power q : path tp_power 0 q -> q = 3000000.
Proof.
  unfold path, tool_points. cbn [nth]. intros H. destruct H as [H|H1 H2|i H1 H2 H3 H4]; cbn [nth tp_time tp_power] in *; [reflexivity| |]; lra.
Qed.

(** During the first cycle the source is at the origin, whatever the tool path says: here the heat goes to a cube at the
    origin although the path starts more than 180 away from it. *)
Theorem C54_first_position_refuted : exists P B s s' t' pos', thermal_ok P /\ insulated B /\ t_vol s = elem_vol (h_mesh P) (h_x P) /\
  therm_run P B true 1 0 [1] s = Some (s', t', pos') /\
  path tp_x 0 100 /\ path tp_y 0 150 /\ path tp_z 0 15 /\
  covered_volume P (fun d => match d with O => 100 | S O => 150 | _ => 15 end) (elem_vol (h_mesh P) (h_x P)) = 0 /\
  heat_content P (t_temp s') > heat_content P (t_temp s).
Proof.
  set (P := cube 1 stack_x). set (s := tstart P (fun _ => 0)).
  destruct mesh1_facts as (_ & _ & C & D).
  assert (Hc : forall pos, covered_volume P pos (elem_vol (h_mesh P) (h_x P)) = if Rle_dec (sumn 3 (fun d => (pos d - / 2) ^ 2)) (8 ^ 2) then 1 else 0).
  { intros pos. unfold covered_volume. cbn [P cube h_mesh h_x]. rewrite C. cbn [sumn]. change (elem_vol mesh1 stack_x 0) with (elem_vol (h_mesh (cube 1 stack_x)) stack_x 0). rewrite (cube_volume 1).
    assert (Ec : forall d, (d < 3)%nat -> center (cube 1 stack_x) 0 d = / 2).
    { intros d Hd. unfold center. cbn [cube h_mesh h_x]. rewrite D. rewrite (sumn_ext 8 _ (fun l => ucube d l)) by (intros; apply stack_cube; auto).
      destruct d as [|[|[|d]]]; [| | |lia]; cbn; lra. }
    unfold P. rewrite !Ec by lia. rewrite Rplus_0_l. reflexivity. }
  destruct (cube_run 1 stack_x closed true 1 0 [1] s) as ([[s' t'] pos'] & E); [lia|].
  exists P, closed, s, s', t', pos'. split; [apply cube_ok|]. split; [apply closed_insulated|]. split; [reflexivity|]. split; [exact E|].
  split; [apply before_first; cbn; lra|]. split; [apply before_first; cbn; lra|]. split; [apply before_first; cbn; lra|]. split.
  - rewrite Hc. destruct (Rle_dec _ _) as [Hle|]; [|reflexivity]. exfalso. cbn in Hle. lra.
  - unfold therm_run in E. rewrite boundary_temperature_none in E by (apply insulated_no_const, closed_insulated). cbn [for_each] in E.
    destruct (therm_cycle (cube 1 stack_x) closed true 1 1 (set_nq (fun _ => 0) s, 0, fun _ => 0)) as [[[s1 t1] p1]|] eqn:E1; [|easy]. cbn [obind] in E. injection E as -> -> ->.
    destruct (C54_cycle P closed 0 1 (set_nq (fun _ => 0) s) 0 (fun _ => 0) s' t' pos' (cube_ok 1 stack_x)) as (power & Hp & A & _); auto.
    + apply closed_insulated.
    + rewrite A, Hc. cbn [set_nq t_temp]. destruct (Rle_dec _ _) as [Hle|Hn]; [|exfalso; apply Hn; cbn; lra].
      pose proof (first_power _ Hp) as Hpow.
      rewrite Hpow. unfold power_density. assert (0 < 3000000 / (4 / 3 * 3.14159 * 8 ^ 3)) by (apply Rdiv_lt_0_compat; lra). lra.
Qed.
Print Assumptions C54_first_position_refuted.

(** *** C55: prescribed temperatures *)

(** After every stage a node of a set with a prescribed temperature has exactly that temperature, the one of the last such set it
    belongs to; all other nodes have the temperature the heat balance gives them. *)
Theorem C55_prescribed : forall P B src alpha dt s s', thermal_ok P -> therm_stage P B src alpha dt s = Some s' ->
  forall n set, (set < tb_sets B)%nat -> tb_kind B set = ConstTemp -> In n (tb_nodes B set) ->
  (forall set', (set < set' < tb_sets B)%nat -> tb_kind B set' = ConstTemp -> ~ In n (tb_nodes B set')) -> t_temp s' n = tb_value B set.
Proof.
  intros P B src alpha dt s s' HP E n set Hs Hk Hin Hmax. destruct (stage_inv P _ _ _ _ _ _ E) as (s1 & s2 & _ & _ & ->).
  cbn [t_temp set_tvol]. apply boundary_temperature_spec; auto.
Qed.
Print Assumptions C55_prescribed.

Theorem C55_free : forall P B src alpha dt s s', thermal_ok P -> (0 < num_elems (h_mesh P))%nat -> therm_stage P B src alpha dt s = Some s' ->
  forall n, (n < num_nodes (h_mesh P))%nat -> (forall set, (set < tb_sets B)%nat -> tb_kind B set = ConstTemp -> ~ In n (tb_nodes B set)) ->
  capacity P n * (t_temp s' n - t_temp0 s n) = alpha * dt *
   (node_gain B (fun p n => - 100 * (t_temp s n - 293.15) * (patch_area P B p / 4)) (patches_of B ConvTemp) n +
    node_gain B (fun p n => - (0.2 * 5.67037442e-8) * t_temp s n ^ 4 * (patch_area P B p / 4)) (patches_of B RadTemp) n +
    suml (t_cq s') (corners_in_node (h_mesh P) n)).
Proof.
  intros P B src alpha dt s s' HP Hne E n Hn Hfree. destruct (stage_covers P HP _ _ _ _ _ _ Hne E) as [_ Hcap].
  destruct (stage_spec P HP _ _ _ _ _ _ Hne E) as (cq & T1 & _ & HT & ET & _ & _ & ->). rewrite ET.
  destruct (boundary_temperature_spec B (set_temp T1 s)) as [_ K]. rewrite K by exact Hfree. cbn [t_temp set_temp]. rewrite HT by exact Hn.
  unfold arrives. field. apply Hcap. exact Hn.
Qed.
Print Assumptions C55_free.

Example C55_ex : exists s', therm_stage (cube 1 stack_x) (mkTbc 1 (fun _ => ConstTemp) (fun _ => []) (fun _ => [0; 2]%nat) (fun _ => 400) (fun _ l => l)) None 1 (/ 10)
   (tstart (cube 1 stack_x) (fun n => stack_x n 0)) = Some s' /\ t_temp s' 2 = 400.
Proof.
  destruct (cube_stage 1 stack_x (mkTbc 1 (fun _ => ConstTemp) (fun _ => []) (fun _ => [0; 2]%nat) (fun _ => 400) (fun _ l => l)) None 1 (/ 10) (tstart (cube 1 stack_x) (fun n => stack_x n 0))) as (s' & E); [lia|].
  exists s'. split; [exact E|]. eapply (C55_prescribed _ _ _ _ _ _ _ (cube_ok 1 stack_x) E 2 0); cbn; auto. intros; lia.
Qed.

(** *** C57: melting *)

(** a material point is marked as molten when the mean temperature of its element's nodes reaches 900, and stays marked *)
Theorem C57_melting : forall P B src alpha dt s s', thermal_ok P -> therm_stage P B src alpha dt s = Some s' ->
  forall mat sid, (mat < num_mats (h_L P))%nat -> (sid < num_mat_elems (h_L P) mat)%nat ->
  (t_eroded s' mat sid = true <-> t_eroded s mat sid = true \/ 900 <= element_mean P (t_temp s) (elem_in_mat (h_L P) mat sid)).
Proof. intros P B src alpha dt s s' HP E mat sid Hm Hs. apply (stage_stored P HP _ _ _ _ _ _ E mat sid Hm Hs). Qed.
Print Assumptions C57_melting.

Theorem C57_step : forall P B src N dt s s', thermal_ok P -> therm_step P B src N dt s = Some s' ->
  forall mat sid, (mat < num_mats (h_L P))%nat -> (sid < num_mat_elems (h_L P) mat)%nat -> t_eroded s mat sid = true -> t_eroded s' mat sid = true.
Proof.
  intros P B src N dt s s' HP H mat sid Hm Hs H0. unfold therm_step in H.
  eapply (for_each_inv (fun s => t_eroded s mat sid = true)); [| |exact H]; [|exact H0].
  intros k s1 s2 _ I E. apply (C57_melting P _ _ _ _ _ _ HP E mat sid Hm Hs). now left.
Qed.
Print Assumptions C57_step.

Example C57_ex : exists s', therm_stage (cube 1 stack_x) closed None 1 (/ 10) (tstart (cube 1 stack_x) (fun _ => 900)) = Some s' /\ t_eroded s' 0 0 = true.
Proof.
  destruct (cube_stage 1 stack_x closed None 1 (/ 10) (tstart (cube 1 stack_x) (fun _ => 900))) as (s' & E); [lia|].
  exists s'. split; [exact E|]. apply (C57_melting _ _ _ _ _ _ _ (cube_ok 1 stack_x) E 0%nat 0%nat); [cbn; lia|cbn; lia|]. right. unfold element_mean. cbn. lra.
Qed.
