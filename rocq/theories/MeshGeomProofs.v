(** Volumes and areas of the cells produced by the builders and readers. *)
From Coq Require Import Reals Lra Psatz.
From Verif Require Import BaseReal BaseArr MeshBuildModel MeshBuildSpec MeshBuildProofs GeomModel GeomSpec GeomProofs.
From Verif Require Import MeshIndexModel MeshGeomSpec.
Local Open Scope R_scope.

Lemma box3_cell_volume nx ny nz o0 o1 o2 lx ly lz m i j k :
  build_3d_box nx ny nz o0 o1 o2 lx ly lz = Some m -> (i < nx)%nat -> (j < ny)%nat -> (k < nz)%nat ->
  exists x y z, gathers m (elem3 nx ny i j k) 8 0 x /\ gathers m (elem3 nx ny i j k) 8 1 y /\
    gathers m (elem3 nx ny i j k) 8 2 z /\
    vol_hex_raw x y z = (lx / INR nx) * (ly / INR ny) * (lz / INR nz).
Proof.
  intros E Hi Hj Hk.
  destruct (build_3d_box_ok nx ny nz o0 o1 o2 lx ly lz) as (m' & E' & (R1 & R2 & R3 & R4 & R5) & R6).
  rewrite E in E'. injection E' as <-.
  set (dx := lx / INR nx) in *. set (dy := ly / INR ny) in *. set (dz := lz / INR nz) in *.
  exists (fun l => (o0 + INR i * dx) + dx * ucube 0 l), (fun l => (o1 + INR j * dy) + dy * ucube 1 l),
         (fun l => (o2 + INR k * dz) + dz * ucube 2 l).
  assert (G : forall l, (l < 8)%nat -> exists a b c, (a <= 1 /\ b <= 1 /\ c <= 1 /\ l = sid 2 2 a b c)%nat /\
     ucube 0 l = INR a /\ ucube 1 l = INR b /\ ucube 2 l = INR c).
  { intros l Hl. destruct (sid_surj 2 2 2 l Hl) as (a & b & c & Ha & Hb & Hc & <-).
    exists a, b, c. split; [repeat split; lia|].
    destruct a as [|[|a]]; [| |lia]; (destruct b as [|[|b]]; [| |lia]); (destruct c as [|[|c]]; [| |lia]);
    cbn; repeat split; reflexivity. }
  assert (GG : forall d l, (d < 3)%nat -> (l < 8)%nat -> exists a b c, (a <= 1 /\ b <= 1 /\ c <= 1)%nat /\
     ucube 0 l = INR a /\ ucube 1 l = INR b /\ ucube 2 l = INR c /\
     node_coord m (elem3 nx ny i j k) l d = Some (box_pos (vec3 o0 o1 o2) (vec3 lx ly lz) (nvec3 nx ny nz) (i + a) (j + b) (k + c) d)).
  { intros d l Hd Hl. destruct (G l Hl) as (a & b & c & (Ha & Hb & Hc & El) & U1 & U2 & U3).
    exists a, b, c. repeat split; try assumption. unfold node_coord. subst l.
    pose proof (R5 i j k a b c Hi Hj Hk Ha Hb Hc) as Q. change (1 + 1)%nat with 2%nat in Q. rewrite Q. cbn [obind].
    rewrite !Nat.mul_1_l. apply R4; lia. }
  repeat split.
  - intros l Hl. destruct (GG 0%nat l ltac:(lia) Hl) as (a & b & c & _ & U1 & U2 & U3 & ->).
    f_equal. cbn [box_pos vec3 nvec3]. fold dx. rewrite U1, plus_INR. ring.
  - intros l Hl. destruct (GG 1%nat l ltac:(lia) Hl) as (a & b & c & _ & U1 & U2 & U3 & ->).
    f_equal. cbn [box_pos vec3 nvec3]. fold dy. rewrite U2, plus_INR. ring.
  - intros l Hl. destruct (GG 2%nat l ltac:(lia) Hl) as (a & b & c & _ & U1 & U2 & U3 & ->).
    f_equal. cbn [box_pos vec3 nvec3]. fold dz. rewrite U3, plus_INR. ring.
  - apply vol_box.
Qed.

Lemma cell_volume_fun m e v v' : cell_volume m e v -> cell_volume m e v' -> v = v'.
Proof.
  intros (x & y & z & Hx & Hy & Hz & <-) (x' & y' & z' & Hx' & Hy' & Hz' & <-).
  apply vol_ext. intros i Hi.
  pose proof (Hx i Hi) as A. rewrite (Hx' i Hi) in A. injection A as ->.
  pose proof (Hy i Hi) as B. rewrite (Hy' i Hi) in B. injection B as ->.
  pose proof (Hz i Hi) as C. rewrite (Hz' i Hi) in C. injection C as ->. auto.
Qed.

Lemma box3_total_volume nx ny nz o0 o1 o2 lx ly lz m V : (0 < nx)%nat -> (0 < ny)%nat -> (0 < nz)%nat ->
  build_3d_box nx ny nz o0 o1 o2 lx ly lz = Some m ->
  (forall e, (e < nx * ny * nz)%nat -> cell_volume m e (V e)) ->
  sumn (nx * ny * nz) V = lx * ly * lz.
Proof.
  intros Hx Hy Hz E HV.
  rewrite (sumn_ext (nx * ny * nz) V (fun _ => (lx / INR nx) * (ly / INR ny) * (lz / INR nz))).
  - rewrite sumn_const, !mult_INR. field. repeat split; apply not_0_INR; lia.
  - intros e He.
    assert (Ee : e = elem3 nx ny (e mod nx) (e / nx mod ny) (e / nx / ny)).
    { unfold elem3, sid. pose proof (Nat.div_mod e nx ltac:(lia)). pose proof (Nat.div_mod (e / nx) ny ltac:(lia)). nia. }
    assert (Hi : (e mod nx < nx)%nat) by (apply Nat.mod_upper_bound; lia).
    assert (Hj : (e / nx mod ny < ny)%nat) by (apply Nat.mod_upper_bound; lia).
    assert (Hk : (e / nx / ny < nz)%nat) by (repeat (apply Nat.div_lt_upper_bound; [lia|]); nia).
    destruct (box3_cell_volume nx ny nz o0 o1 o2 lx ly lz m _ _ _ E Hi Hj Hk) as (x & y & z & G).
    rewrite <- Ee in G. apply (cell_volume_fun m e); [apply HV; exact He|]. exists x, y, z. exact G.
Qed.

Lemma structured2_gather nx ny pos m i j d : structured2 nx ny pos m -> (i < nx)%nat -> (j < ny)%nat -> (d < 2)%nat ->
  gathers m (elem2 nx i j) 4 d (quad4 (pos i j d) (pos (i + 1) j d) (pos (i + 1) (j + 1) d) (pos i (j + 1) d))%nat.
Proof.
  intros (R1 & R2 & R3 & R4 & R5 & R6) Hi Hj Hd l Hl. unfold node_coord.
  destruct (R6 i j Hi Hj) as (Q0 & Q1 & Q2 & Q3).
  destruct l as [|[|[|[|l]]]]; [| | | |lia]; [rewrite Q0|rewrite Q1|rewrite Q2|rewrite Q3]; cbn [obind quad4]; apply R5; lia.
Qed.

Lemma box2_cell_area nx ny o0 o1 lx ly m i j :
  build_2d_box nx ny o0 o1 lx ly = Some m -> (i < nx)%nat -> (j < ny)%nat ->
  exists x y, gathers m (elem2 nx i j) 4 0 x /\ gathers m (elem2 nx i j) 4 1 y /\
    area_quad x y = (lx / INR nx) * (ly / INR ny).
Proof.
  intros E Hi Hj. destruct (build_2d_box_ok nx ny o0 o1 lx ly) as (m' & E' & S). rewrite E in E'. injection E' as <-.
  eexists; eexists. split; [apply (structured2_gather nx ny _ m i j 0 S Hi Hj ltac:(lia))|].
  split; [apply (structured2_gather nx ny _ m i j 1 S Hi Hj ltac:(lia))|].
  cbv beta iota. rewrite area_box. rewrite !plus_INR. cbn [INR]. ring.
Qed.

Lemma polar_cell_area nr na o0 o1 r0 r1 a0 a1 m i j :
  build_2d_polar nr na o0 o1 r0 r1 a0 a1 = Some (Some m) -> (i < nr)%nat -> (j < na)%nat ->
  exists x y, gathers m (elem2 nr i j) 4 0 x /\ gathers m (elem2 nr i j) 4 1 y /\
    let dr := (r1 - r0) / INR nr in let ri := r0 + INR i * dr in
    area_quad x y = (ri + dr / 2) * dr * sin (PI / 180 * (a1 - a0) / INR na).
Proof.
  intros E Hi Hj. destruct (build_2d_polar_ok nr na o0 o1 r0 r1 a0 a1) as [H1 H2].
  set (P := polar_pos (vec3 o0 o1 0) r0 r1 a0 a1 nr na) in *.
  assert (S : structured2 nr na P m).
  { destruct (Rlt_dec 0 1) as [_|N]; [|lra].
    assert (Hall : forall i j, (i <= nr)%nat -> (j <= na)%nat -> 0 <= P i j 0%nat).
    { intros i' j' Hi' Hj'. destruct (Rle_lt_dec 0 (P i' j' 0%nat)) as [|N]; [assumption|].
      rewrite H2 in E by (exists i', j'; auto). discriminate. }
    destruct (H1 Hall) as (m' & E' & S). rewrite E in E'. injection E' as <-. exact S. }
  eexists; eexists. split; [apply (structured2_gather nr na _ m i j 0 S Hi Hj ltac:(lia))|].
  split; [apply (structured2_gather nr na _ m i j 1 S Hi Hj ltac:(lia))|].
  cbv zeta. unfold P, polar_pos, vec3.
  rewrite area_polar. rewrite !plus_INR. cbn [INR].
  set (dr := (r1 - r0) / INR nr). set (da := PI / 180 * (a1 - a0) / INR na).
  replace (PI / 180 * a0 + (INR j + 1) * da - (PI / 180 * a0 + INR j * da)) with da by ring.
  field.
Qed.

Lemma polar_area_pos nr na r0 r1 a0 a1 i : 0 <= r0 < r1 -> (i < nr)%nat -> (0 < na)%nat ->
  0 < a1 - a0 -> a1 - a0 < 180 * INR na ->
  let dr := (r1 - r0) / INR nr in let ri := r0 + INR i * dr in
  0 < (ri + dr / 2) * dr * sin (PI / 180 * (a1 - a0) / INR na).
Proof.
  intros Hr Hi Hna Ha Hb dr ri.
  assert (0 < INR nr) by (apply lt_0_INR; lia). assert (0 < INR na) by (apply lt_0_INR; lia).
  assert (0 < dr) by (unfold dr; apply Rdiv_lt_0_compat; lra).
  pose proof (pos_INR i). assert (0 <= INR i * dr) by (apply Rmult_le_pos; lra).
  pose proof PI_RGT_0.
  apply Rmult_lt_0_compat; [apply Rmult_lt_0_compat; unfold ri; lra|].
  assert (Q : PI / 180 * (a1 - a0) / INR na = PI * ((a1 - a0) / (180 * INR na))) by (field; lra).
  rewrite Q.
  assert (0 < (a1 - a0) / (180 * INR na)) by (apply Rdiv_lt_0_compat; lra).
  assert ((a1 - a0) / (180 * INR na) < 1).
  { apply (Rmult_lt_reg_r (180 * INR na)); [lra|]. unfold Rdiv. rewrite Rmult_assoc, Rinv_l by lra. lra. }
  apply sin_gt_0; nra.
Qed.

(** A vertex list gathered in file order. *)
Lemma polar_mesh_area_pos nr na o0 o1 r0 r1 a0 a1 m i j :
  build_2d_polar nr na o0 o1 r0 r1 a0 a1 = Some (Some m) -> (i < nr)%nat -> (j < na)%nat ->
  0 <= r0 < r1 -> 0 < a1 - a0 -> a1 - a0 < 180 * INR na ->
  exists x y, gathers m (elem2 nr i j) 4 0 x /\ gathers m (elem2 nr i j) 4 1 y /\ 0 < area_quad x y.
Proof.
  intros E Hi Hj Hr Ha Hb. destruct (polar_cell_area _ _ _ _ _ _ _ _ _ _ _ E Hi Hj) as (x & y & Gx & Gy & A).
  exists x, y. split; [exact Gx|]. split; [exact Gy|]. cbv zeta in A. rewrite A.
  apply (polar_area_pos nr na r0 r1 a0 a1 i); auto. lia.
Qed.

Lemma hex_file_box_volume ox oy oz dx dy dz x y z :
  reorder_elem (map (fun p : R * R * R => fst (fst p)) (vtk_box ox oy oz dx dy dz)) = Some x ->
  reorder_elem (map (fun p : R * R * R => snd (fst p)) (vtk_box ox oy oz dx dy dz)) = Some y ->
  reorder_elem (map (fun p : R * R * R => snd p) (vtk_box ox oy oz dx dy dz)) = Some z ->
  vol_hex_raw (fun i => nth i x 0) (fun i => nth i y 0) (fun i => nth i z 0) = dx * dy * dz.
Proof.
  intros Ex Ey Ez. cbn in Ex, Ey, Ez. injection Ex as <-. injection Ey as <-. injection Ez as <-.
  unfold vol_hex_raw, twelth. cbn [nth]. field.
Qed.

Lemma quad_file_area x0 x1 y0 y1 x y :
  reorder_elem [x0; x1; x1; x0] = Some x -> reorder_elem [y0; y0; y1; y1] = Some y ->
  area_quad (fun i => nth i x 0) (fun i => nth i y 0) = 0.
Proof.
  intros Ex Ey. cbn in Ex, Ey. injection Ex as <-. injection Ey as <-.
  unfold area_quad. cbn [nth]. lra.
Qed.

Lemma quad_file_area_raw x0 x1 y0 y1 :
  area_quad (fun i => nth i (read_vtu_raw [x0; x1; x1; x0]) 0) (fun i => nth i (read_vtu_raw [y0; y0; y1; y1]) 0)
  = (x1 - x0) * (y1 - y0).
Proof. unfold area_quad, read_vtu_raw. cbn [nth]. lra. Qed.

Lemma polar_negative_radius_accepted : exists m,
  build_2d_polar 1 1 0 0 1 2 (-90) 0 = Some (Some m) /\ exists n r, aget (coords m) n 1 = Some r /\ r < 0.
Proof.
  destruct (build_2d_polar_ok 1 1 0 0 1 2 (-90) 0) as [H _].
  assert (C1 : cos (PI / 180 * -90) = 0).
  { replace (PI / 180 * -90) with (- (PI / 2)) by field. rewrite cos_neg. apply cos_PI2. }
  assert (S1 : sin (PI / 180 * -90) = -1).
  { replace (PI / 180 * -90) with (- (PI / 2)) by field. rewrite sin_neg, sin_PI2. reflexivity. }
  destruct H as (m & E & S).
  - intros i j Hi Hj. unfold polar_pos, vec3.
    replace ((2 - 1) / INR 1) with 1 by (cbn; field).
    pose proof (pos_INR i).
    apply Rplus_le_le_0_compat; [lra|]. apply Rmult_le_pos; [lra|].
    destruct j as [|[|j]]; [| |lia].
    + cbn [INR]. rewrite Rmult_0_l, Rplus_0_r, C1. lra.
    + replace (PI / 180 * -90 + INR 1 * (PI / 180 * (0 - -90) / INR 1)) with 0 by (cbn [INR]; field).
      rewrite cos_0. lra.
  - exists m. split; [exact E|]. destruct S as (_ & _ & _ & _ & R5 & _).
    exists (node2 1 0 0), (polar_pos (vec3 0 0 0) 1 2 (-90) 0 1 1 0 0 1). split; [apply R5; lia|].
    unfold polar_pos, vec3. cbn [INR]. rewrite !Rmult_0_l, !Rplus_0_r, S1. lra.
Qed.

Lemma polar_valid_rejected :
  build_2d_polar 1 1 0 0 1 2 90 180 = Some None /\
  forall i j, (i <= 1)%nat -> (j <= 1)%nat -> 0 <= polar_pos (vec3 0 0 0) 1 2 90 180 1 1 i j 1.
Proof.
  assert (E : PI / 180 * 90 + INR 1 * (PI / 180 * (180 - 90) / INR 1) = PI) by (cbn [INR]; field).
  split.
  - apply build_2d_polar_ok. exists 0%nat, 1%nat. split; [lia|]. split; [lia|]. unfold polar_pos, vec3.
    rewrite E, cos_PI. cbn [INR]. lra.
  - intros i j Hi Hj. unfold polar_pos, vec3. replace ((2 - 1) / INR 1) with 1 by (cbn; field).
    pose proof (pos_INR i). apply Rplus_le_le_0_compat; [lra|]. apply Rmult_le_pos; [lra|].
    destruct j as [|[|j]]; [| |lia].
    + cbn [INR]. rewrite Rmult_0_l, Rplus_0_r. replace (PI / 180 * 90) with (PI / 2) by field. rewrite sin_PI2. lra.
    + rewrite E, sin_PI. lra.
Qed.
