(** More concrete axisymmetric cases. *)
From Coq Require Import Permutation.
From Verif Require Import BaseReal BaseArr GeomModel GeomSpec GeomProofs MarsModel MarsSpec MarsProofs SghModel SghSpec SghProofs SghMore SghExamples
  RzModel RzSpec RzProofs RzForces RzSteps RzMore RzExamples.
Local Open Scope R_scope.

(** ** Two materials in one element *)
Lemma square_good : good_quad quad1 (rect 0 1 0 1) 0 /\ quad_vol quad1 (rect 0 1 0 1) 0 = / 2 /\ quad_area quad1 (rect 0 1 0 1) 0 = 1.
Proof. destruct (rect_good (rect 0 1 0 1) 0 1 0 1) as (A & B & C); try lra; [reflexivity|]. split; [exact A|]. rewrite B, C. split; lra. Qed.

Lemma square_fan L : (forall p, point_elem L p = 0%nat) -> forall p, In p (points L) ->
  fan (gather quad1 (rect 0 1 0 1) (point_elem L p) 0) (gather quad1 (rect 0 1 0 1) (point_elem L p) 1).
Proof. intros H p _. rewrite H. exact (proj1 (proj1 square_good)). Qed.

Lemma mixed_mass : let x := rect 0 1 0 1 in
  sumn (num_nodes quad1) (extensive_mass (fst (calc_node_mass_rz quad1 x (setup_corner_mass_rz quad1 lay1 x (fun _ _ => 1)))) x) = 1 /\
  suml (fun p => 1 * quad_vol quad1 x (point_elem lay1 p) * / 2) (points lay1) = / 2.
Proof.
  destruct quad1_facts as (Hok & _ & He & _). destruct square_good as (G & V & _). cbv zeta. split.
  - assert (T := setup_rz_total quad1 lay1 (rect 0 1 0 1) (fun _ _ => 1) Hok). unfold setup_nmass_rz in T. rewrite T; [|rewrite He; apply lay1_ok|apply square_fan; reflexivity]. clear T.
    assert (E : forall p, vol_quad_raw (gather quad1 (rect 0 1 0 1) (point_elem lay1 p) 0) (gather quad1 (rect 0 1 0 1) (point_elem lay1 p) 1) = / 2).
    { intros p. change (point_elem lay1 p) with 0%nat. rewrite <- V. unfold quad_vol. symmetry. apply vol_floor. exact (proj2 (proj2 G)). }
    rewrite (suml_ext _ (fun _ => / 2)) by (intros; rewrite E; ring). unfold points. cbn [lay1 num_mats num_mat_elems seq map flat_map app]. unfold suml. cbn [fold_right]. lra.
  - rewrite (suml_ext _ (fun _ => / 4)). 2:{ intros p _. change (point_elem lay1 p) with 0%nat. rewrite V. lra. }
    unfold points. cbn [lay1 num_mats num_mat_elems seq map flat_map app]. unfold suml. cbn [fold_right]. lra.
Qed.

(** ** A node leaving the axis *)
Definition rising (n d : nat) : R := match d with 1%nat => 1 | _ => 0 end.
Definition rise_q : sgh := state_q (rect 0 1 0 1) rising (fun _ => / 4) 0 1 1 (/ 2).

Lemma rise_loses_mass : let t := execute_rz mesh_q lay_q 1e-12 1 free_gas [(1, fun _ => free_gas)] rise_q in
  s_x t 0%nat 1%nat = 1 /\ s_nmass t 0%nat = 0 /\ s_nmass rise_q 0%nat = / 4.
Proof.
  intros t.
  assert (Et : t = rk_stage_rz mesh_q lay_q free_gas 1e-12 (extensive_mass (s_nmass rise_q) (s_x rise_q)) 1 1 (set_start rise_q)).
  { unfold t, execute_rz, run_rz. cbn [fold_left]. rewrite step_last_rz by lia. reflexivity. }
  assert (Hf := stage_spec_rz mesh_q lay_q free_gas 1e-12 (extensive_mass (s_nmass rise_q) (s_x rise_q)) 1 1 (set_start rise_q)). rewrite <- Et in Hf.
  destruct (rf_v _ _ _ _ _ _ _ _ _ Hf) as (s4 & E4 & _ & E3). cbn [free_gas bdy_velocity] in E4.
  assert (EV : s_v t 0%nat 1%nat = 1).
  { assert (EF : internal_force quad1 t 0 1 = 0 * bmat2D (fun l => rect 0 1 0 1 l 0%nat) (fun l => rect 0 1 0 1 l 1%nat) 0 1).
    { rewrite Et. change quad1 with (rz_mesh mesh_q). rewrite stage_internal.
      apply (force_q free_gas (before_forces_rz quad1 (set_start rise_q)) 0 0 1 (eq_refl true) (fun _ _ _ _ _ => eq_refl 0)); try lia; reflexivity. }
    rewrite E4, E3. change (rz_mesh mesh_q) with quad1. rewrite EF.
    change (s_v0 (set_start rise_q) 0%nat 1%nat) with 1. change (s_nmass (set_start rise_q) 0%nat) with (/ 4). field. }
  assert (EX : s_x t 0%nat 1%nat = 1).
  { rewrite (rf_x _ _ _ _ _ _ _ _ _ Hf), EV. change (s_x0 (set_start rise_q) 0%nat 1%nat) with 0. change (s_v0 (set_start rise_q) 0%nat 1%nat) with 1.
    cbn [Nat.eqb]. cbv zeta. rewrite Rmax_right; lra. }
  split; [exact EX|]. split; [|reflexivity]. rewrite (rf_nmass _ _ _ _ _ _ _ _ _ Hf), areal_spec, EX.
  destruct (Rlt_dec 1e-12 1); [|lra]. unfold extensive_mass. cbn [rise_q state_q s_nmass s_x rect]. field.
Qed.

(** ** Artificial viscosity *)
Definition shear (n d : nat) : R := match d with 0%nat => if Nat.ltb n 2 then 2 else 1 | _ => 0 end.
Definition shear_q : sgh := state_q (rect 0 1 0 1) shear (fun _ => / 4) 1 1 1 (/ 2).
Definition floor_q : mars_vars := mkMars 1 1 0 0 1 0.

Lemma shear_force l d : (l < 4)%nat -> (d < 2)%nat ->
  sgh_mars_rz mars_rz quad1 lay_q (fun _ => []) (fun _ => floor_q) 1e-16 1e-8 shear_q 0 0 l d =
  sqrt (/ 2) * ((match d with O => 3 / 2 | _ => 0 end) - shear l d).
Proof.
  intros Hl Hd. unfold sgh_mars_rz, mars_rz. cbn [lay_q elem_in_mat map]. set (ph := phi _ _ _ _ _ _ _ _ _).
  assert (Hph : ph = 1).
  { assert (P : phi_floor floor_q <= ph <= 1).
    { unfold ph. apply phi_range; cbn [floor_q phi_floor shear_q state_q s_sspd]; [lra|lra|lra|apply sqrt_pos]. }
    cbn [floor_q phi_floor] in P. lra. }
  rewrite Hph. unfold corner_force.
  assert (E : forall l, (l < 4)%nat -> mu_mars 2 floor_q (s_den shear_q 0%nat 0%nat) (s_sspd shear_q 0%nat 0%nat) (div_of (s_velgrad shear_q 0%nat))
     (mean_velocity 4 0.25 (fun l d => s_v shear_q (nodes_in quad1 0 l) d)) (fun l d => s_v shear_q (nodes_in quad1 0 l) d)
     (fun l d => -1 * quad_bmat quad1 (s_x shear_q) 0 l d) l = sqrt (/ 2)).
  { intros k Hk. unfold mu_mars, impedance. cbn [q1 q1ex q2 q2ex floor_q shear_q state_q s_den s_sspd].
    replace (norm 2 (fun d => -1 * quad_bmat quad1 (s_x shear_q) 0 k d)) with (sqrt (/ 2)).
    - destruct (Rlt_dec _ 0); ring.
    - unfold norm, quad_bmat. rewrite (gather_q (s_x shear_q) 0), (gather_q (s_x shear_q) 1). f_equal. cbn [shear_q state_q s_x sumn].
      destruct k as [|[|[|[|k]]]]; [| | | |lia]; cbn [bmat2D rect]; lra. }
  rewrite vel_star_val, E by auto.
  rewrite (sumn_ext 4 _ (fun _ => sqrt (/ 2))) by (intros; now apply E).
  rewrite (sumn_ext 4 (fun l => _ * s_v shear_q (nodes_in quad1 0 l) d) (fun l => sqrt (/ 2) * shear l d)).
  2:{ intros k Hk. rewrite E by auto. rewrite (proj2 (proj2 (proj2 quad1_facts))). reflexivity. }
  rewrite (proj2 (proj2 (proj2 quad1_facts))). change (s_v shear_q l d) with (shear l d).
  assert (S := sqrt_lt_R0 (/ 2) ltac:(lra)).
  assert (S2 : / 2 <= sqrt (/ 2)). { apply Rsqr_incr_0_var; [|lra]. rewrite Rsqr_sqrt by lra. unfold Rsqr. lra. }
  cbn [sumn]. destruct (Rlt_dec 1e-16 (0 + sqrt (/ 2) + sqrt (/ 2) + sqrt (/ 2) + sqrt (/ 2))) as [_|N]; [|lra].
  destruct d as [|[|d]]; [| |lia]; cbn [shear Nat.ltb Nat.leb]; field; lra.
Qed.

Lemma shear_net : let f := sgh_mars_rz mars_rz quad1 lay_q (fun _ => []) (fun _ => floor_q) 1e-16 1e-8 shear_q 0 0 in
  sumn 4 (fun l => f l 0%nat) = 0 /\
  0 < sumn 4 (fun l => radius shear_q (nodes_in quad1 0 l) * f l 0%nat) /\
  0 < sumn 4 (fun l => sumn 2 (fun d => radius shear_q (nodes_in quad1 0 l) * f l d * s_v shear_q (nodes_in quad1 0 l) d)).
Proof.
  cbv zeta. rewrite (proj2 (proj2 (proj2 quad1_facts))). cbn [sumn]. rewrite !shear_force by lia.
  unfold radius. cbn [shear_q state_q s_x s_v rect shear Nat.ltb Nat.leb].
  assert (S := sqrt_lt_R0 (/ 2) ltac:(lra)). repeat split; lra.
Qed.

Lemma shear_inputs : mars_inputs floor_q 1e-16 (s_den shear_q 0%nat 0%nat) (s_sspd shear_q 0%nat 0%nat).
Proof. constructor; cbn [floor_q q1 q1ex q2 q2ex phi_floor shear_q state_q s_den s_sspd]; lra. Qed.

(** ** Hoop strain on a trapezoid *)
Definition trapezoid (n d : nat) : R :=
  match d with
  | O => match n with 1%nat => 2 | 2%nat => 1 | _ => 0 end
  | _ => match n with 2%nat => 1 | 3%nat => 1 | _ => 0 end
  end.

Lemma trapezoid_hoop old : good_quad quad1 trapezoid 0 /\
  get_velgrad_rz quad1 trapezoid (fun n d => match d with 1%nat => trapezoid n 1%nat | _ => 0 end) (quad_vol quad1 trapezoid) old 0 1 1 = 1 /\
  get_velgrad_rz quad1 trapezoid (fun n d => match d with 1%nat => trapezoid n 1%nat | _ => 0 end) (quad_vol quad1 trapezoid) old 0 2 2 = 9 / 8.
Proof.
  assert (V : vol_quad_raw (gather quad1 trapezoid 0 0) (gather quad1 trapezoid 0 1) = 2 / 3).
  { rewrite !gather_q. unfold vol_quad_raw. cbn [trapezoid]. field. }
  assert (A : area_quad (gather quad1 trapezoid 0 0) (gather quad1 trapezoid 0 1) = 3 / 2).
  { rewrite !gather_q. unfold area_quad. cbn [trapezoid]. lra. }
  split; [|split].
  - split; [|split; [rewrite A; lra|rewrite V; lra]]. rewrite !gather_q. unfold fan. cbn [trapezoid]. cbv zeta. unfold tri_area. repeat split; lra.
  - rewrite velgrad_sum_rz by lia. unfold quad_area. rewrite A. unfold quad_bmat. rewrite !gather_q, (proj2 (proj2 (proj2 quad1_facts))).
    cbn [sumn trapezoid bmat2D]. lra.
  - rewrite velgrad_hoop_rz. unfold quad_vol, quad_area. rewrite vol_floor by (rewrite V; lra). rewrite V, A, (proj2 (proj2 (proj2 quad1_facts))).
    cbn [sumn trapezoid]. field.
Qed.

(** ** Density with a state-based strength model in a mixed element *)
Definition strong : models :=
  mkModels (fun _ => true) (fun _ => false) (fun _ => true) (fun _ => false) no_dis
    (fun s mat sid => s_stress s mat sid) (fun _ _ _ => 1) (fun _ _ _ => 1) (fun s mat sid => s_eroded s mat sid)
    (fun _ _ _ => 0) (fun _ _ _ => 0) false (fun s => s_v s).
Definition half_q : sgh := state_q (rect 0 1 0 1) (fun _ _ => 0) (fun _ => / 4) 1 1 (/ 2) (/ 2).

Lemma strong_density : let t := execute_rz mesh_q lay_q 1e-12 1 strong [(1, fun _ => strong)] half_q in
  s_eroded t 0%nat 0%nat = false /\ s_mass t 0%nat 0%nat = 1 /\
  s_den t 0%nat 0%nat * (s_vol t 0%nat * s_volfrac t 0%nat 0%nat * s_geo t 0%nat 0%nat + 1e-20) < 0.6.
Proof.
  intros t.
  assert (Et : t = rk_stage_rz mesh_q lay_q strong 1e-12 (extensive_mass (s_nmass half_q) (s_x half_q)) 1 1 (set_start half_q)).
  { unfold t, execute_rz, run_rz. cbn [fold_left]. rewrite step_last_rz by lia. reflexivity. }
  assert (Hf := stage_spec_rz mesh_q lay_q strong 1e-12 (extensive_mass (s_nmass half_q) (s_x half_q)) 1 1 (set_start half_q)).
  assert (D := stage_den_rz mesh_q lay_q strong 1e-12 (extensive_mass (s_nmass half_q) (s_x half_q)) 1 1 (set_start half_q) (0, 0)%nat). cbv zeta in D.
  rewrite <- Et in Hf, D. clear Et. clearbody t.
  assert (Ee : s_eroded t 0%nat 0%nat = false) by (rewrite (rf_eroded _ _ _ _ _ _ _ _ _ Hf); reflexivity).
  destruct (rf_const _ _ _ _ _ _ _ _ _ Hf) as (_ & _ & E1 & _ & _ & E2 & E3).
  assert (V : 1e-14 <= s_vol t 0%nat). { rewrite (rf_vol _ _ _ _ _ _ _ _ _ Hf). unfold quad_vol, vol_quad, fmax. apply Rmax_r. }
  split; [exact Ee|]. split; [rewrite E1; reflexivity|]. assert (D' := D (or_introl eq_refl) Ee). cbn [strong state_based fst snd] in D'. rewrite D'.
  change (point_elem lay_q (0, 0)%nat) with 0%nat. rewrite E1, E2, E3. cbn [set_start half_q state_q s_mass s_volfrac s_geo].
  assert (P : 0 < 1e-20 <= 1e-14) by lra. assert (P2 : 10 * 1e-20 <= 1e-14) by lra. revert V P P2. generalize 1e-20, 1e-14, (s_vol t 0%nat). intros e f v V P P2.
  apply Rmult_lt_reg_r with (v + e); [lra|].
  replace (1 / (v + e) * (v * / 2 * 1 + e) * (v + e)) with (v * / 2 * 1 + e) by (field; lra). lra.
Qed.

(** ** Four elements around one node, at rest under pressure inside rigid walls *)
Definition table4 (e l : nat) : nat := (e mod 2 + 3 * (e / 2) + match l with 0 => 0 | 1 => 1 | 2 => 4 | _ => 3 end)%nat.
Definition quad4 : mesh3 := built (build_corners 9 4 4 table4).
Lemma quad4_built : build_corners 9 4 4 table4 = Some quad4.
Proof.
  unfold quad4. destruct (build_corners_spec 9 4 4 table4) as (m & -> & _); [|reflexivity]. intros e l He Hl. unfold table4.
  destruct e as [|[|[|[|e]]]]; [| | | |lia]; (destruct l as [|[|[|[|l]]]]; [| | | |lia]); cbn; lia.
Qed.
Lemma quad4_facts : corners_ok 4 quad4 /\ num_nodes quad4 = 9%nat /\ num_elems quad4 = 4%nat /\ nodes_in quad4 = table4.
Proof. destruct (build_corners_ok _ _ _ _ _ quad4_built) as (A & B & C & D & _). auto. Qed.

Lemma quad4_ring : ring_closed quad4 4.
Proof.
  unfold ring_closed. cbv zeta. destruct quad4_facts as (_ & _ & -> & ->).
  change (Permutation [3; 1; 7; 5]%nat [1; 5; 3; 7]%nat).
  change [3; 1; 7; 5]%nat with ([3; 1] ++ [7; 5])%nat. change [1; 5; 3; 7]%nat with ([1; 5; 3] ++ [7])%nat.
  apply (perm_trans (l' := [1; 3; 7; 5]%nat)); [apply perm_swap|]. apply perm_skip.
  apply (perm_trans (l' := [3; 5; 7]%nat)); [apply perm_skip, perm_swap|]. apply perm_swap.
Qed.

Definition mesh_4 : mesh_rz := mkMeshRz quad4 [0; 1; 2; 3; 5; 6; 7; 8]%nat (fun _ => []).
Definition lay_4 : layout := mkLayout 1 (fun _ => 4%nat) (fun _ sid => sid).
Definition walls : models :=
  mkModels (fun _ => true) (fun _ => false) (fun _ => false) (fun _ => false) no_dis
    (fun s mat sid => s_stress s mat sid) (fun _ _ _ => 1) (fun _ _ _ => 1) (fun s mat sid => s_eroded s mat sid)
    (fun _ _ _ => 0) (fun _ _ _ => 0) false (fun s n d => if Nat.eqb n 4 then s_v s n d else 0).
Definition grid4 (n d : nat) : R := match d with O => INR (n mod 3) | _ => INR (n / 3) end.
Definition rest_4 : sgh := state_q grid4 (fun _ _ => 0) (fun _ => 1) 1 1 1 1.

Lemma rest_4_hyps : corners_ok 4 quad4 /\ layout_ok (num_elems quad4) lay_4 /\ dissipation_local walls /\
  uniform_pressure lay_4 walls rest_4 1 /\ elements_filled quad4 lay_4 rest_4 /\ no_viscosity lay_4 walls rest_4 /\
  (forall n d, (n < num_nodes quad4)%nat -> (d < 2)%nat ->
    ((ring_closed quad4 n /\ forall s', bdy_velocity walls s' n d = s_v s' n d) \/ (forall s', bdy_velocity walls s' n d = 0)) /\
    s_nmass rest_4 n <> 0 /\ s_v0 rest_4 n d = 0 /\ 0 <= s_x0 rest_4 n 1%nat).
Proof.
  destruct quad4_facts as (Hok & Hnn & He & _). split; [exact Hok|]. split; [|split; [|split; [|split; [|split]]]].
  - rewrite He. intros p Hp. cbn in Hp. repeat (destruct Hp as [<-|Hp]; [cbn; lia|]). destruct Hp.
  - intros s t f mat sid l d. reflexivity.
  - intros p i j _. cbn [rest_4 state_q s_eroded]. split; [reflexivity|]. unfold cauchy. cbn [rest_4 state_q s_stress s_pres walls decoupled].
    destruct (Nat.eqb i j); ring.
  - intros e H. rewrite He in H. unfold points, point_elem. cbn [lay_4 num_mats num_mat_elems elem_in_mat seq map flat_map app fst snd rest_4 state_q s_volfrac s_geo].
    unfold suml. cbn [fold_right]. destruct e as [|[|[|[|e]]]]; [| | | |lia]; cbn [fst snd Nat.eqb]; ring.
  - intros vg p l d _. reflexivity.
  - intros n d _ _. split; [|split; [cbn [rest_4 state_q s_nmass]; lra|split; [reflexivity|cbn [rest_4 state_q s_x0 grid4]; apply pos_INR]]].
    cbn [walls bdy_velocity]. destruct (Nat.eqb_spec n 4) as [->|]; [left; split; [apply quad4_ring|reflexivity]|right; reflexivity].
Qed.
