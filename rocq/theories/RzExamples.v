(** Concrete axisymmetric runs: cases meeting the hypotheses of the theorems, and counterexamples. *)
From Coq Require Import Permutation.
From Verif Require Import BaseReal BaseArr GeomModel GeomSpec GeomProofs MarsModel MarsSpec MarsProofs SghModel SghSpec SghProofs SghMore SghExamples
  RzModel RzSpec RzProofs RzForces RzSteps RzMore.
Local Open Scope R_scope.

(** one quadrilateral, nodes 0 1 2 3 counter-clockwise, all of them boundary nodes *)
Definition quad1 : mesh3 := built (build_corners 4 1 4 (fun _ l => l)).
Lemma quad1_built : build_corners 4 1 4 (fun _ l => l) = Some quad1.
Proof. unfold quad1. destruct (build_corners_spec 4 1 4 (fun _ l => l)) as (m & -> & _); [intros e l _ H; exact H|reflexivity]. Qed.
Definition around1 (n : nat) : list nat := match n with 0 => [1; 3] | 1 => [0; 2] | 2 => [1; 3] | _ => [0; 2] end%nat.
Definition mesh_q : mesh_rz := mkMeshRz quad1 [0; 1; 2; 3]%nat around1.
Definition lay_q : layout := mkLayout 1 (fun _ => 1%nat) (fun _ _ => 0%nat).

Lemma quad1_facts : corners_ok 4 quad1 /\ num_nodes quad1 = 4%nat /\ num_elems quad1 = 1%nat /\ nodes_in quad1 = (fun _ l => l).
Proof. destruct (build_corners_ok _ _ _ _ _ quad1_built) as (A & B & C & D & _). auto. Qed.

Lemma lay_q_ok : layout_ok (num_elems quad1) lay_q.
Proof. destruct quad1_facts as (_ & _ & -> & _). intros p Hp. cbn in Hp. destruct Hp as [<-|[]]. cbn. lia. Qed.

Lemma lay_q_points : points lay_q = [(0, 0)%nat].
Proof. reflexivity. Qed.

(** corners z0 <= z <= z1, r0 <= r <= r1 *)
Definition rect (z0 z1 r0 r1 : R) (n d : nat) : R :=
  match d with
  | O => match n with O => z0 | 1%nat => z1 | 2%nat => z1 | _ => z0 end
  | _ => match n with O => r0 | 1%nat => r0 | 2%nat => r1 | _ => r1 end
  end.

Lemma gather_q x d : gather quad1 x 0 d = fun l => x l d.
Proof. unfold gather. now rewrite (proj2 (proj2 (proj2 quad1_facts))). Qed.

Lemma rect_good x z0 z1 r0 r1 : z0 < z1 -> 0 <= r0 < r1 -> 2e-14 <= (z1 - z0) * (r1 - r0) * (r0 + r1) ->
  (forall n d, (n < 4)%nat -> (d < 2)%nat -> x n d = rect z0 z1 r0 r1 n d) ->
  good_quad quad1 x 0 /\ quad_vol quad1 x 0 = (z1 - z0) * (r1 - r0) * (r0 + r1) / 2 /\ quad_area quad1 x 0 = (z1 - z0) * (r1 - r0).
Proof.
  intros Hz Hr Hv Hx. unfold good_quad, quad_vol, quad_area. rewrite !gather_q.
  assert (EV : vol_quad_raw (fun l => x l 0%nat) (fun l => x l 1%nat) = (z1 - z0) * (r1 - r0) * (r0 + r1) / 2).
  { unfold vol_quad_raw. rewrite !Hx by lia. cbn [rect]. field. }
  assert (EA : area_quad (fun l => x l 0%nat) (fun l => x l 1%nat) = (z1 - z0) * (r1 - r0)).
  { unfold area_quad. rewrite !Hx by lia. cbn [rect]. replace 0.5 with (/ 2) by lra. field. }
  assert (0 < (z1 - z0) * (r1 - r0)) by (apply Rmult_lt_0_compat; lra).
  assert (EF : 1e-14 <= vol_quad_raw (fun l => x l 0%nat) (fun l => x l 1%nat)) by (rewrite EV; lra).
  split; [split; [|split; [rewrite EA; assumption|exact EF]]|split; [rewrite vol_floor by exact EF; exact EV|exact EA]].
  unfold fan. rewrite !Hx by lia. cbn [rect]. cbv zeta. unfold tri_area. repeat split; lra.
Qed.

(** a gas at constant pressure 1 that may slide along the axis but not leave it *)
Definition hold (n d : nat) : bool := Nat.ltb n 2 && Nat.eqb d 1.
Definition axis_gas : models :=
  mkModels (fun _ => true) (fun _ => false) (fun _ => false) (fun _ => false) no_dis
    (fun s mat sid => s_stress s mat sid) (fun _ _ _ => 1) (fun _ _ _ => 1) (fun s mat sid => s_eroded s mat sid)
    (fun _ _ _ => 0) (fun _ _ _ => 0) false (fun s n d => if hold n d then 0 else s_v s n d).

Definition state_q (x v : nat -> nat -> R) (nmass : nat -> R) (pres mass vf vol : R) : sgh :=
  mkSgh x x v v nmass (fun _ _ => 0) (fun _ _ => 0) (fun _ => vol) (fun _ _ _ => 0) (fun _ _ _ => 0)
    (fun _ _ => mass) (fun _ _ => 1) (fun _ _ => 1) (fun _ _ => 1) (fun _ _ => pres) (fun _ _ => 1)
    (fun _ _ _ _ => 0) (fun _ _ _ _ => 0) (fun _ _ => vf) (fun _ _ => 1) (fun _ _ => false).

Lemma internal_q s n d : (n < 4)%nat -> internal_force quad1 s n d = s_cforce s (corners_in_elem quad1 0 n) d.
Proof.
  intros Hn. destruct quad1_facts as (Hok & _ & He & Hnd). unfold internal_force. rewrite (suml_perm _ _ _ (corners_perm 4 quad1 n Hok)), suml_map, He, Hnd.
  destruct n as [|[|[|[|n]]]]; [| | | |lia]; cbn [elem_corners flat_map seq map filter app fst snd Nat.eqb suml fold_right]; unfold suml; cbn [fold_right]; ring.
Qed.

(** pressure P on the quadrilateral, whatever its velocity *)
Lemma force_q M s P n d : decoupled M 0%nat = true -> (forall s mat sid l d, dissipation M s mat sid l d = 0) -> (n < 4)%nat -> (d < 2)%nat ->
  s_pres s 0%nat 0%nat = P -> s_stress s 0%nat 0%nat = (fun _ _ => 0) -> s_volfrac s 0%nat 0%nat = 1 -> s_geo s 0%nat 0%nat = 1 -> s_eroded s 0%nat 0%nat = false ->
  internal_force quad1 (forces_and_stress_rz quad1 lay_q M s) n d = P * bmat2D (fun l => s_x s l 0%nat) (fun l => s_x s l 1%nat) n d.
Proof.
  intros HM HD Hn Hd Ep Es Ef Eg Ee. rewrite internal_q by auto. destruct quad1_facts as (Hok & _ & He & _).
  rewrite (uniform_corner quad1 lay_q M s P 0 n d); auto.
  - apply lay_q_ok.
  - intros s1 t f mat sid l k. now rewrite !HD.
  - intros p i j Hp. rewrite lay_q_points in Hp. destruct Hp as [<-|[]]. cbn [fst snd]. split; [exact Ee|].
    unfold cauchy. cbn [fst snd]. rewrite HM, Es, Ep. destruct (Nat.eqb i j); ring.
  - intros e H. rewrite He in H. assert (e = 0%nat) as -> by lia. rewrite lay_q_points, suml_cons. cbn [suml fold_right point_elem lay_q elem_in_mat fst snd Nat.eqb].
    change (suml _ []) with 0. rewrite Ef, Eg. ring.
Qed.

(** ** A run that stays away from trouble *)

Definition square_q : sgh := state_q (rect 0 1 0 1) (fun _ _ => 0) (fun _ => / 4) 1 (/ 2) 1 (/ 2).

Definition ext_q : nat -> R := extensive_mass (s_nmass square_q) (s_x square_q).

Definition start_q : sgh := set_v (bdy_velocity axis_gas square_q) square_q.

Lemma start_q_v n d : s_v start_q n d = 0.
Proof. cbn [start_q set_v s_v axis_gas bdy_velocity]. destruct (hold n d); reflexivity. Qed.

Definition mid_q : sgh := after_stages_rz mesh_q lay_q (fun _ => axis_gas) 1e-12 ext_q 2 0.1 start_q 1.

Lemma mid_q_x n d : (n < 4)%nat -> (d < 2)%nat -> s_x mid_q n d = rect (-0.0025) 1.0025 0 1.0025 n d.
Proof.
  intros Hn Hd. unfold mid_q. rewrite after_stages_S. set (b := after_stages_rz _ _ _ _ _ _ _ _ 0).
  assert (EA : rk_alpha 2 0 = / 2). { unfold rk_alpha. cbn [INR]. field. }
  rewrite EA. assert (Hf := stage_spec_rz mesh_q lay_q axis_gas 1e-12 ext_q (/ 2) 0.1 b).
  rewrite (rf_x _ _ _ _ _ _ _ _ _ Hf). destruct (rf_v _ _ _ _ _ _ _ _ _ Hf) as (s4 & E4 & _ & E3).
  rewrite E4. set (t := rk_stage_rz mesh_q lay_q axis_gas 1e-12 ext_q (/ 2) 0.1 b) in *.
  assert (EF : internal_force quad1 t n d = 1 * bmat2D (fun l => rect 0 1 0 1 l 0%nat) (fun l => rect 0 1 0 1 l 1%nat) n d).
  { unfold t. change quad1 with (rz_mesh mesh_q). rewrite stage_internal. apply (force_q axis_gas (before_forces_rz quad1 b) 1 n d (eq_refl true) (fun _ _ _ _ _ => eq_refl 0) Hn Hd); reflexivity. }
  change (s_x0 b) with (rect 0 1 0 1). change (s_v0 b) with (s_v start_q). rewrite start_q_v.
  cbn [axis_gas bdy_velocity]. rewrite E3. change (s_v0 b) with (s_v start_q). rewrite start_q_v. change (rz_mesh mesh_q) with quad1. rewrite EF.
  change (s_nmass b n) with (/ 4).
  destruct n as [|[|[|[|n]]]]; [| | | |lia]; (destruct d as [|[|d]]; [| |lia]);
    cbn [Nat.eqb Nat.ltb Nat.leb andb hold rect bmat2D]; try lra;
    match goal with |- Rmax 0 ?y = _ => (rewrite (Rmax_right 0 y) by lra; lra) || (rewrite (Rmax_left 0 y) by lra; lra) end.
Qed.

Lemma stage_start_q t : stage_start mesh_q lay_q 1e-12 ext_q 2 [(0.1, fun _ => axis_gas)] start_q t -> t = set_start start_q \/ t = mid_q.
Proof.
  intros (pre & dt & Ms & post & k & E & Hk & Et). destruct pre as [|c pre].
  - injection E as <- <- <-. rewrite Et. destruct k as [|[|k]]; [left; reflexivity|right; reflexivity|lia].
  - injection E as _ E. destruct pre; discriminate.
Qed.

Lemma ext_q_val n : ext_q n = / 4 * rect 0 1 0 1 n 1%nat.
Proof. reflexivity. Qed.

Lemma rect_clear x z0 z1 r1 : 1e-12 < r1 -> (forall n d, (n < 4)%nat -> (d < 2)%nat -> x n d = rect z0 z1 0 r1 n d) -> clear_or_on_axis mesh_q 1e-12 ext_q x.
Proof.
  intros Hr Hx n Hn. cbn [mesh_q rz_mesh] in Hn. rewrite (proj1 (proj2 quad1_facts)) in Hn.
  destruct n as [|[|[|[|n]]]]; [| | | |lia]; rewrite Hx by lia; cbn [rect]; rewrite ext_q_val; cbn [rect]; [right|right|left|left];
    [ | |split; lra|split; lra]; split; try reflexivity; (split; [ring|]); (split; [cbn; tauto|]).
  - exists 3%nat. split; [cbn; tauto|]. rewrite Hx, ext_q_val by lia. cbn [rect]. lra.
  - exists 2%nat. split; [cbn; tauto|]. rewrite Hx, ext_q_val by lia. cbn [rect]. lra.
Qed.

Lemma run_q_clear t : stage_start mesh_q lay_q 1e-12 ext_q 2 [(0.1, fun _ => axis_gas)] start_q t ->
  clear_or_on_axis mesh_q 1e-12 ext_q (s_x t) /\ forall p, In p (points lay_q) -> good_quad quad1 (s_x t) (point_elem lay_q p).
Proof.
  intros H. destruct (stage_start_q t H) as [-> | ->]; split.
  - apply (rect_clear _ 0 1 1); [lra|]. reflexivity.
  - intros p Hp. rewrite lay_q_points in Hp. destruct Hp as [<-|[]]. apply (rect_good _ 0 1 0 1); [lra|lra|lra|reflexivity].
  - apply (rect_clear _ (-0.0025) 1.0025 1.0025); [lra|]. apply mid_q_x.
  - intros p Hp. rewrite lay_q_points in Hp. destruct Hp as [<-|[]]. apply (rect_good _ (-0.0025) 1.0025 0 1.0025); [lra|lra|lra|apply mid_q_x].
Qed.

Lemma axis_gas_balanced : axially_balanced quad1 lay_q axis_gas.
Proof. intros s p _. rewrite (sumn_ext 4 _ (fun _ => 0)); [apply sumn_0|]. intros; cbn [axis_gas dissipation]; unfold no_dis; ring. Qed.

(** ** A node pushed onto the axis *)

(** nodes 0 and 1 fall from r = 1 towards the axis faster than they can stop *)
Definition falling (n d : nat) : R := match d with 1%nat => if Nat.ltb n 2 then -2 else 0 | _ => 0 end.
Definition free_gas : models :=
  mkModels (fun _ => true) (fun _ => false) (fun _ => false) (fun _ => false) no_dis
    (fun s mat sid => s_stress s mat sid) (fun _ _ _ => 1) (fun _ _ _ => 1) (fun s mat sid => s_eroded s mat sid)
    (fun _ _ _ => 0) (fun _ _ _ => 0) false (fun s => s_v s).
Definition fall_q : sgh := state_q (rect 0 1 1 2) falling (fun _ => 1) 0 1 1 (3 / 2).
Definition ext_f : nat -> R := extensive_mass (s_nmass fall_q) (s_x fall_q).
Definition landed : sgh := rk_step_rz mesh_q lay_q (fun _ => free_gas) 1e-12 ext_f 1 1 fall_q.

Lemma update_free u : let t := update_state_rz lay_q free_gas 0 u in
  s_pres t 0%nat 0%nat = 1 /\ s_stress t = s_stress u /\ s_eroded t = s_eroded u.
Proof.
  unfold update_state_rz. set (v := state_density_rz lay_q 0 u).
  assert (E : s_stress v = s_stress u /\ s_eroded v = s_eroded u) by (split; reflexivity). destruct E as [E1 E2]. rewrite <- E1, <- E2.
  clearbody v. repeat split.
Qed.

Lemma forces_free m s : s_stress (forces_and_stress_rz m lay_q free_gas s) = s_stress s /\ s_eroded (forces_and_stress_rz m lay_q free_gas s) = s_eroded s.
Proof. unfold forces_and_stress_rz. cbn [lay_q num_mats seq fold_left]. unfold update_stress. cbn [free_gas increment_based]. split; reflexivity. Qed.

Lemma stage_free mr tiny ext alpha dt s : let t := rk_stage_rz mr lay_q free_gas tiny ext alpha dt s in
  s_pres t 0%nat 0%nat = 1 /\ s_stress t = s_stress s /\ s_eroded t = s_eroded s.
Proof.
  unfold rk_stage_rz. fold (before_forces_rz (rz_mesh mr) s).
  destruct (forces_free (rz_mesh mr) (before_forces_rz (rz_mesh mr) s)) as [F1 F2].
  set (sF := forces_and_stress_rz (rz_mesh mr) lay_q free_gas (before_forces_rz (rz_mesh mr) s)) in *.
  set (s4 := set_v (update_velocity_rz (rz_mesh mr) alpha dt sF) sF).
  set (s5 := set_v (bdy_velocity free_gas s4) s4).
  destruct (energies_spec_rz (rz_mesh mr) lay_q alpha dt s5) as (e & Ee & _). rewrite Ee.
  set (s6 := set_sie e s5). set (s7 := set_x (update_position_rz alpha dt s6) s6). set (s8 := set_vol (quad_vol (rz_mesh mr) (s_x s7)) s7).
  cbv zeta. change (seq 0 (num_mats lay_q)) with [0%nat]. cbn [fold_left].
  destruct (update_free s8) as (U1 & U2 & U3). cbv zeta in U1, U2, U3. fields2. rewrite U1, U2, U3.
  change (s_stress s8) with (s_stress sF). change (s_eroded s8) with (s_eroded sF). rewrite F1, F2. repeat split.
Qed.

Lemma landed_facts : (forall n d, (n < 4)%nat -> (d < 2)%nat -> s_x landed n d = rect 0 1 0 2 n d) /\
  (forall n d, (n < 4)%nat -> (d < 2)%nat -> s_v landed n d = falling n d) /\
  s_nmass landed 0%nat = / 2 /\ s_nmass landed 1%nat = / 2 /\ s_nmass landed 2%nat = 1 /\ s_nmass landed 3%nat = 1.
Proof.
  assert (EL : landed = rk_stage_rz mesh_q lay_q free_gas 1e-12 ext_f 1 1 (set_start fall_q)).
  { unfold landed. rewrite step_last_rz by lia. reflexivity. }
  assert (Hf := stage_spec_rz mesh_q lay_q free_gas 1e-12 ext_f 1 1 (set_start fall_q)). rewrite <- EL in Hf.
  destruct (rf_v _ _ _ _ _ _ _ _ _ Hf) as (s4 & E4 & _ & E3). cbn [free_gas bdy_velocity] in E4.
  assert (EV : forall n d, (n < 4)%nat -> (d < 2)%nat -> s_v landed n d = falling n d).
  { intros n d Hn Hd.
    assert (EF : internal_force quad1 landed n d = 0 * bmat2D (fun l => rect 0 1 1 2 l 0%nat) (fun l => rect 0 1 1 2 l 1%nat) n d).
    { rewrite EL. change quad1 with (rz_mesh mesh_q). rewrite stage_internal.
      apply (force_q free_gas (before_forces_rz quad1 (set_start fall_q)) 0 n d (eq_refl true) (fun _ _ _ _ _ => eq_refl 0) Hn Hd); reflexivity. }
    rewrite E4, E3. change (rz_mesh mesh_q) with quad1. rewrite EF.
    change (s_v0 (set_start fall_q) n d) with (falling n d). change (s_nmass (set_start fall_q) n) with 1. field. }
  assert (EX : forall n d, (n < 4)%nat -> (d < 2)%nat -> s_x landed n d = rect 0 1 0 2 n d).
  { intros n d Hn Hd. rewrite (rf_x _ _ _ _ _ _ _ _ _ Hf), EV by auto. change (s_x0 (set_start fall_q)) with (rect 0 1 1 2). change (s_v0 (set_start fall_q)) with falling.
    destruct n as [|[|[|[|n]]]]; [| | | |lia]; (destruct d as [|[|d]]; [| |lia]);
    cbn [Nat.eqb Nat.ltb Nat.leb rect falling]; cbv zeta; try lra;
    match goal with |- Rmax 0 ?y = _ => (rewrite (Rmax_right 0 y) by lra; lra) || (rewrite (Rmax_left 0 y) by lra; lra) end. }
  split; [exact EX|]. split; [exact EV|]. rewrite (rf_nmass _ _ _ _ _ _ _ _ _ Hf).
  assert (EE : forall n, ext_f n = rect 0 1 1 2 n 1%nat) by (intros; unfold ext_f, extensive_mass; cbn [fall_q state_q s_nmass s_x]; ring).
  assert (A : forall n, (n < 2)%nat -> areal_mass mesh_q 1e-12 (s_x landed) ext_f n = / 2).
  { intros n Hn. rewrite areal_spec, EX by lia. destruct n as [|[|n]]; [| |lia]; cbn [rect];
    (destruct (Rlt_dec 1e-12 0); [lra|]; destruct (Rlt_dec 0 1e-12); [|lra]; destruct (in_dec _ _ _) as [_|C]; [|exfalso; apply C; cbn; tauto]);
    unfold nb_max; cbn [mesh_q nodes_in_node around1 fold_left]; unfold areal_first, fmax; rewrite !EX, !EE by lia; cbn [rect];
    repeat destruct (Rlt_dec _ _); try lra; rewrite Rmax_right; lra. }
  assert (B : forall n, (n = 2 \/ n = 3)%nat -> areal_mass mesh_q 1e-12 (s_x landed) ext_f n = 1).
  { intros n Hn. rewrite areal_spec, EX, EE by lia. destruct Hn as [-> | ->]; cbn [rect]; (destruct (Rlt_dec 1e-12 2); [field|lra]). }
  rewrite !A, !B by lia. auto.
Qed.

Lemma step_force_q s ext n d : (n < 4)%nat -> (d < 2)%nat -> s_pres s 0%nat 0%nat = 1 -> s_stress s 0%nat 0%nat = (fun _ _ => 0) ->
  s_volfrac s 0%nat 0%nat = 1 -> s_geo s 0%nat 0%nat = 1 -> s_eroded s 0%nat 0%nat = false ->
  internal_force quad1 (rk_step_rz mesh_q lay_q (fun _ => free_gas) 1e-12 ext 1 1 s) n d = 1 * bmat2D (fun l => s_x s l 0%nat) (fun l => s_x s l 1%nat) n d.
Proof.
  intros Hn Hd H1 H2 H3 H4 H5. rewrite step_last_rz by lia. change quad1 with (rz_mesh mesh_q). rewrite stage_internal.
  apply (force_q free_gas (before_forces_rz quad1 (set_start s)) 1 n d (eq_refl true) (fun _ _ _ _ _ => eq_refl 0) Hn Hd); assumption.
Qed.

Lemma energy_on_axis s : (forall n d, (n < 4)%nat -> (d < 2)%nat -> s_x s n d = rect 0 1 0 2 n d) ->
  (forall n d, (n < 4)%nat -> (d < 2)%nat -> s_v s n d = falling n d) ->
  s_nmass s 0%nat = / 2 -> s_nmass s 1%nat = / 2 -> s_nmass s 2%nat = 1 -> s_nmass s 3%nat = 1 -> s_mass s 0%nat 0%nat <> 0 ->
  s_pres s 0%nat 0%nat = 1 -> s_stress s 0%nat 0%nat = (fun _ _ => 0) -> s_volfrac s 0%nat 0%nat = 1 -> s_geo s 0%nat 0%nat = 1 -> s_eroded s 0%nat 0%nat = false ->
  total_energy_rz quad1 lay_q ext_f (rk_step_rz mesh_q lay_q (fun _ => free_gas) 1e-12 ext_f 1 1 s) = total_energy_rz quad1 lay_q ext_f s + 9.
Proof.
  intros EX EV M0 M1 M2 M3 Hmass F1 F2 F3 F4 F5. destruct quad1_facts as (Hok & Hnn & _).
  assert (E := step_energy_rz mesh_q lay_q (fun _ => free_gas) 1e-12 ext_f 1 1 s Hok lay_q_ok (le_n 1)).
  assert (Es : erosion_safe_step lay_q (fun _ => free_gas) s).
  { intros p q Hp Hq Hb _. rewrite lay_q_points in Hp, Hq. destruct Hp as [<-|[]]. destruct Hq as [<-|[]]. destruct Hb as [Hb|[_ Hb]]; cbn in Hb; lia. }
  assert (Em : forall p, In p (points lay_q) -> s_mass s (fst p) (snd p) <> 0).
  { intros p Hp. rewrite lay_q_points in Hp. destruct Hp as [<-|[]]. exact Hmass. }
  specialize (E Es Em). cbv zeta in E.
  assert (EF := fun n d Hn Hd => step_force_q s ext_f n d Hn Hd F1 F2 F3 F4 F5).
  destruct (step_velocity_rz mesh_q lay_q (fun _ => free_gas) 1e-12 ext_f 1 1 s (le_n 1)) as (s4 & Hv).
  change (rz_mesh mesh_q) with quad1 in Hv, E. cbn [free_gas bdy_velocity] in Hv.
  change (after_stages_rz mesh_q lay_q (fun _ => free_gas) 1e-12 ext_f 1 1 s (1 - 1)) with (set_start s) in Hv, E.
  set (t := rk_step_rz mesh_q lay_q (fun _ => free_gas) 1e-12 ext_f 1 1 s) in *. clearbody t.
  enough (T : sumn (num_nodes quad1) (fun n => sumn 2 (fun d => (ext_f n * (s_v t n d - s_v s n d)
     - 1 * radius (set_start s) n * internal_force quad1 t n d) * ((s_v t n d + s_v s n d) / 2))) = 9) by lra.
  clear E. rewrite Hnn.
  assert (EE : forall n, ext_f n = rect 0 1 1 2 n 1%nat) by (intros; unfold ext_f, extensive_mass; cbn [fall_q state_q s_nmass s_x]; ring).
  assert (EB : forall n d, (n < 4)%nat -> (d < 2)%nat -> internal_force quad1 t n d = bmat2D (fun l => rect 0 1 0 2 l 0%nat) (fun l => rect 0 1 0 2 l 1%nat) n d).
  { intros n d Hn Hd. rewrite EF by auto. rewrite Rmult_1_l.
    destruct n as [|[|[|[|n]]]]; [| | | |lia]; (destruct d as [|[|d]]; [| |lia]); cbn [bmat2D]; rewrite !EX by lia; reflexivity. }
  assert (ET : forall n d, (n < 4)%nat -> (d < 2)%nat -> s_v t n d = falling n d + bmat2D (fun l => rect 0 1 0 2 l 0%nat) (fun l => rect 0 1 0 2 l 1%nat) n d / s_nmass s n).
  { intros n d Hn Hd. destruct (Hv n d) as [A B]. rewrite A, B, EV, EB by auto. change (s_nmass (set_start s) n) with (s_nmass s n). unfold Rdiv. ring. }
  unfold radius. change (s_x (set_start s)) with (s_x s).
  cbn [sumn]. rewrite !ET, !EB, !EV, !EE by lia. rewrite !EX by lia.
  rewrite M0, M1, M2, M3. cbn [rect falling Nat.ltb Nat.leb bmat2D]. lra.
Qed.

Lemma axis_energy_created :
  total_energy_rz quad1 lay_q ext_f (run_rz mesh_q lay_q 1e-12 ext_f 1 [(1, fun _ => free_gas); (1, fun _ => free_gas)] fall_q)
  = total_energy_rz quad1 lay_q ext_f landed + 9.
Proof.
  destruct landed_facts as (EX & EV & M0 & M1 & M2 & M3).
  assert (EL : landed = rk_stage_rz mesh_q lay_q free_gas 1e-12 ext_f 1 1 (set_start fall_q)) by (unfold landed; rewrite step_last_rz by lia; reflexivity).
  destruct (stage_free mesh_q 1e-12 ext_f 1 1 (set_start fall_q)) as (F1 & F2 & F3).
  cbv zeta in F1, F2, F3. rewrite <- EL in F1, F2, F3.
  destruct (step_share_rz mesh_q lay_q (fun _ => free_gas) 1e-12 ext_f 1 1 fall_q) as (F4 & F5). fold landed in F4, F5.
  assert (F6 : s_mass landed = s_mass fall_q) by (unfold landed; apply step_mass_rz).
  unfold run_rz. cbn [fold_left]. fold landed.
  apply (energy_on_axis landed EX EV M0 M1 M2 M3); [rewrite F6|exact F1|rewrite F2|rewrite F4|rewrite F5|rewrite F3]; try reflexivity.
  cbn [fall_q state_q s_mass]. lra.
Qed.

(** before it lands the energy is conserved *)
Lemma landed_conserves : total_energy_rz quad1 lay_q ext_f landed = total_energy_rz quad1 lay_q ext_f fall_q.
Proof.
  destruct quad1_facts as (Hok & Hnn & _).
  apply (step_energy_free_rz mesh_q lay_q (fun _ => free_gas) 1e-12 ext_f 1 1 fall_q Hok lay_q_ok (le_n 1)).
  - intros p q Hp Hq Hb _. rewrite lay_q_points in Hp, Hq. destruct Hp as [<-|[]]. destruct Hq as [<-|[]]. destruct Hb as [Hb|[_ Hb]]; cbn in Hb; lia.
  - intros p _. cbn [fall_q state_q s_mass]. lra.
  - intros n Hn. change (after_stages_rz mesh_q lay_q (fun _ => free_gas) 1e-12 ext_f 1 1 fall_q (1 - 1)) with (set_start fall_q).
    unfold radius, ext_f, extensive_mass. cbn [set_start fall_q state_q s_nmass s_x]. split; [lra|ring].
  - intros n d. left. reflexivity.
Qed.
