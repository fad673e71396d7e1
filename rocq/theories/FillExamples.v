(** Witnesses for the refutations and the satisfiable-hypotheses examples of FillProps.v. *)
From Coq Require Import Permutation.
From Verif Require Import FillModel FillSpec FillProofs.

Definition mkr (v : vol_tag) (m : nat) (x : R) : region := mkRegion v m 0 0 0 0 0 0 0 0 (fun _ => 0) 0%Z SUniform x 0 (fun _ => 0).
Definition sc0 : scene := mkScene (fun _ _ => 0) (fun _ => 0%Z) (fun _ => mkVoxels [] 0 0 0 0 0 0 0 0 0).
Definition one (f : nat) : list nat := [0%nat].

Lemma one_schedule : schedule 1 one.
Proof. intros f. reflexivity. Qed.

Lemma fe_none rf max sc f e st m x : nth_error rf f = Some (mkr VNone m x) -> fill_elem rf max sc f e st = Ok st.
Proof. intros H. unfold fill_elem. rewrite H. reflexivity. Qed.

Lemma clamp_in x : 0 <= x <= 1 -> fmin 1 (fmax 0 x) = x.
Proof. intros H. unfold fmin, fmax, Rmin, Rmax. destruct (Rle_dec 0 x); destruct (Rle_dec _ _); lra. Qed.

Lemma fe_part rf max sc f e st m x : nth_error rf f = Some (mkr VGlobal m x) -> 0 <= x < 1 - 1e-8 -> fill_elem rf max sc f e st = append_fill rf max f x 1 st.
Proof.
  intros H Hx. unfold fill_elem. rewrite H. unfold mkr, fill_geometric_region, get_region_scalar, clamp_vf.
  cbn [rg_volume rg_vf rg_vf_field]. rewrite clamp_in by lra. destruct (Rlt_dec _ _); [reflexivity|lra].
Qed.

Lemma fe_full rf max sc f e st m : nth_error rf f = Some (mkr VGlobal m 1) -> (0 < max)%nat ->
  fill_elem rf max sc f e st = Ok (mkEfill 1 (set_slot (ef_slot st) 0 (mkSlot f 1 1))).
Proof.
  intros H Hm. unfold fill_elem. rewrite H. unfold mkr, fill_geometric_region, get_region_scalar, clamp_vf.
  cbn [rg_volume rg_vf rg_vf_field]. rewrite clamp_in by lra. destruct (Rlt_dec _ _); [lra|]. destruct (Nat.ltb_spec 0 max); [reflexivity|lia].
Qed.

Lemma cov_global rf sc f e m x : nth_error rf f = Some (mkr VGlobal m x) -> covers rf sc f e = true.
Proof. intros H. unfold covers. now rewrite H. Qed.
Lemma cov_none rf sc f e m x : nth_error rf f = Some (mkr VNone m x) -> covers rf sc f e = false.
Proof. intros H. unfold covers. now rewrite H. Qed.
Lemma full_one rf sc f e v m : nth_error rf f = Some (mkr v m 1) -> is_full rf sc f e = true.
Proof. intros H. unfold is_full, asked_vf. rewrite H. cbn [clamp_vf get_region_scalar mkr rg_vf rg_vf_field]. rewrite clamp_in by lra. destruct (Rlt_dec _ _); [lra|reflexivity]. Qed.
Lemma full_part rf sc f e v m x : nth_error rf f = Some (mkr v m x) -> 0 <= x < 1 - 1e-8 -> is_full rf sc f e = false.
Proof. intros H Hx. unfold is_full, asked_vf. rewrite H. cbn [clamp_vf get_region_scalar mkr rg_vf rg_vf_field]. rewrite clamp_in by lra. destruct (Rlt_dec _ _); [reflexivity|lra]. Qed.

(** The same material twice in one element. *)
Lemma twice x : 0 <= x < 1 - 1e-8 ->
  exists st, fill_regions [mkr VNone 0 x; mkr VGlobal 1 x; mkr VGlobal 1 x] 3 sc0 one = Ok st /\ elem_mats [mkr VNone 0 x; mkr VGlobal 1 x; mkr VGlobal 1 x] (st 0%nat) = Ok [1; 1]%nat.
Proof.
  intros Hx. unfold fill_regions, one. cbn [length seq run_list].
  rewrite fe_none with (m := 0%nat) (x := x) by reflexivity. cbn [bind].
  rewrite fe_part with (m := 1%nat) (x := x) by (reflexivity || exact Hx). cbn [append_fill bind mat_of search run_list seq upd Nat.eqb ef_num efill0 nth_error andb Nat.ltb Nat.leb mkr rg_material set_slot ef_slot].
  rewrite fe_part with (m := 1%nat) (x := x) by (reflexivity || exact Hx). eexists. split; reflexivity.
Qed.

(** A material that disappears because of a fill elsewhere. *)
Lemma lost x : 0 <= x < 1 - 1e-8 ->
  exists st, fill_regions [mkr VNone 1 x; mkr VGlobal 0 x; mkr VGlobal 1 x] 3 sc0 one = Ok st /\
    elem_mats [mkr VNone 1 x; mkr VGlobal 0 x; mkr VGlobal 1 x] (st 0%nat) = Ok [1]%nat.
Proof.
  intros Hx. unfold fill_regions, one. cbn [length seq run_list].
  rewrite fe_none with (m := 1%nat) (x := x) by reflexivity. cbn [bind].
  rewrite fe_part with (m := 0%nat) (x := x) by (reflexivity || exact Hx). cbn [append_fill bind mat_of search run_list seq upd Nat.eqb ef_num efill0 nth_error andb Nat.ltb Nat.leb mkr rg_material set_slot ef_slot].
  rewrite fe_part with (m := 1%nat) (x := x) by (reflexivity || exact Hx). eexists. split; reflexivity.
Qed.

Lemma both x y : 0 <= x < 1 - 1e-8 -> 0 <= y < 1 - 1e-8 ->
  exists st, fill_regions [mkr VGlobal 0 x; mkr VGlobal 1 y] 3 sc0 one = Ok st /\
    elem_mats [mkr VGlobal 0 x; mkr VGlobal 1 y] (st 0%nat) = Ok [0; 1]%nat /\ slots (st 0%nat) = [mkSlot 0 x 1; mkSlot 1 y 1].
Proof.
  intros Hx Hy. unfold fill_regions, one. cbn [length seq run_list].
  rewrite fe_part with (m := 0%nat) (x := x) by (reflexivity || exact Hx). cbn [append_fill bind mat_of search run_list seq upd Nat.eqb ef_num efill0 nth_error andb Nat.ltb Nat.leb mkr rg_material set_slot ef_slot].
  rewrite fe_part with (m := 1%nat) (x := y) by (reflexivity || exact Hy). eexists. split; [reflexivity|]. split; reflexivity.
Qed.

(** A full fill followed by a partial fill of another material. *)
Lemma full_then_part y : 0 <= y < 1 - 1e-8 ->
  exists st, fill_regions [mkr VGlobal 0 1; mkr VGlobal 1 y] 3 sc0 one = Ok st /\ slots (st 0%nat) = [mkSlot 0 1 1; mkSlot 1 y 1].
Proof.
  intros Hy. unfold fill_regions, one. cbn [length seq run_list].
  rewrite fe_full with (m := 0%nat) by (reflexivity || lia). cbn [bind append_fill mat_of search run_list seq upd Nat.eqb ef_num efill0 nth_error andb Nat.ltb Nat.leb mkr rg_material set_slot ef_slot].
  rewrite fe_part with (m := 1%nat) (x := y) by (reflexivity || exact Hy). eexists. split; reflexivity.
Qed.

(** Changing a material that is already in an element with all slots used stops the program. *)
Lemma refill_aborts x : 0 <= x < 1 - 1e-8 ->
  fill_regions [mkr VGlobal 0 x; mkr VGlobal 1 x; mkr VGlobal 2 x; mkr VGlobal 0 x] 3 sc0 one = Abort.
Proof.
  intros Hx. unfold fill_regions, one. cbn [length seq run_list].
  rewrite fe_part with (m := 0%nat) (x := x) by (reflexivity || exact Hx). cbn [append_fill bind mat_of search run_list seq upd Nat.eqb ef_num efill0 nth_error andb Nat.ltb Nat.leb mkr rg_material set_slot ef_slot].
  rewrite fe_part with (m := 1%nat) (x := x) by (reflexivity || exact Hx). cbn [append_fill bind mat_of search run_list seq upd Nat.eqb ef_num efill0 nth_error andb Nat.ltb Nat.leb mkr rg_material set_slot ef_slot plus].
  rewrite fe_part with (m := 2%nat) (x := x) by (reflexivity || exact Hx). cbn [append_fill bind mat_of search run_list seq upd Nat.eqb ef_num efill0 nth_error andb Nat.ltb Nat.leb mkr rg_material set_slot ef_slot plus].
  rewrite fe_part with (m := 0%nat) (x := x) by (reflexivity || exact Hx). reflexivity.
Qed.

Lemma last_wins_example : exists st, fill_regions [mkr VGlobal 0 1; mkr VGlobal 1 1; mkr VNone 2 1] 3 sc0 one = Ok st /\
  covers [mkr VGlobal 0 1; mkr VGlobal 1 1; mkr VNone 2 1] sc0 1 0 = true /\ is_full [mkr VGlobal 0 1; mkr VGlobal 1 1; mkr VNone 2 1] sc0 1 0 = true /\
  forall g, (1 < g < 3)%nat -> covers [mkr VGlobal 0 1; mkr VGlobal 1 1; mkr VNone 2 1] sc0 g 0 = false.
Proof.
  unfold fill_regions, one. cbn [length seq run_list].
  rewrite fe_full with (m := 0%nat) by (reflexivity || lia). cbn [bind]. rewrite fe_full with (m := 1%nat) by (reflexivity || lia). cbn [bind].
  rewrite fe_none with (m := 2%nat) (x := 1) by reflexivity. cbn [bind]. eexists. split; [reflexivity|]. split; [now apply (cov_global _ _ _ _ 1 1)|].
  split; [now apply (full_one _ _ _ _ VGlobal 1)|]. intros g Hg. assert (g = 2%nat) by lia. subst g. now apply (cov_none _ _ _ _ 2 1).
Qed.

Lemma defined_global rf sc e : (forall r, In r rf -> exists m x, r = mkr VGlobal m x) -> defined rf sc e.
Proof.
  intros H f r Hr. destruct (H r) as (m & x & ->); [eapply nth_error_In, Hr|]. split; [discriminate|]. unfold asked_vf. rewrite Hr. discriminate.
Qed.

(** ** Voxels: a point below the voxel box is filled. *)
Lemma grid_four : forall p, grid 0 1 p = INR p.
Proof. intros p. unfold grid. ring. Qed.

Lemma below_index : voxel_index (-0.1) (voxel_center 0 1 0) 0 (dx_of 4 1) = Some 0%Z.
Proof.
  unfold voxel_index, dx_of, voxel_center. replace (4 - 2)%nat with 2%nat by lia. replace (4 - 1)%nat with 3%nat by lia. cbn [INR].
  destruct (Req_EM_T _ 0) as [E|_]; [exfalso; lra|]. unfold to_int.
  assert (T : trunc ((-0.1 - (0 + (0 + 0.5) * 1) - 0) / (1 * (1 + 1) / (1 + 1 + 1))) = 0%Z).
  { replace ((-0.1 - (0 + (0 + 0.5) * 1) - 0) / (1 * (1 + 1) / (1 + 1 + 1))) with (-(9/10)) by lra.
    unfold trunc. destruct (Rle_dec 0 (- (9/10))) as [L|_]; [lra|]. rewrite Ropp_involutive.
    assert (Int_part (9/10) = 0%Z); [|lia]. unfold Int_part. assert (up (9/10) = 1%Z); [|lia]. symmetry. apply tech_up; lra. }
  rewrite T. reflexivity.
Qed.

Lemma below_box : voxel_lookup (voxel_init 4 4 4 (grid 0 1) (grid 0 1) (grid 0 1) (repeat 1%nat 27)) (mkr VVoxel 0 1) (at3 (-0.1) (-0.1) (-0.1)) = Some 1%nat.
Proof.
  unfold voxel_init. rewrite !voxel_axis_grid. unfold voxel_lookup. cbn [vx_ox vx_oy vx_oz vx_dx vx_dy vx_dz vx_ni vx_nj vx_nk vx_values at3 mkr rg_origin].
  rewrite !below_index. reflexivity.
Qed.

Lemma two_points nj nk x0 y0 z0 hx hy hz values r c : voxel_lookup (voxel_init 2 nj nk (grid x0 hx) (grid y0 hy) (grid z0 hz) values) r c = None.
Proof.
  unfold voxel_init. rewrite !voxel_axis_grid. unfold voxel_lookup. cbn [vx_ox vx_oy vx_oz vx_dx vx_dy vx_dz].
  unfold voxel_index at 1. destruct (Req_EM_T (dx_of 2 hx) 0) as [_|N]; [reflexivity|]. exfalso. apply N. unfold dx_of. cbn. lra.
Qed.

(** ** Painting *)
Lemma view_2d x node d v : node_view 2 2 x node d = Some v -> node = 0%nat -> d = 2%nat -> v = x 1%nat 0%nat.
Proof. intros H -> ->. cbn in H. congruence. Qed.

Definition pts (a : R) (n d : nat) : R := match n, d with O, O => 3 | O, S O => 4 | S O, O => a | _, _ => 0 end.

Definition viewed (x : nat -> nat -> R) (node d : nat) : R := match node_view 2 2 x node d with Some v => v | None => 0 end.

Lemma sqrt_25 : sqrt 25 = 5.
Proof. replace 25 with (5 * 5) by ring. apply sqrt_square. lra. Qed.
Lemma sqrt_169 : sqrt 169 = 13.
Proof. replace 169 with (13 * 13) by ring. apply sqrt_square. lra. Qed.

Lemma viewed_eq a d : viewed (pts a) 0 d = match d with O => 3 | S O => 4 | S (S O) => a | S (S (S O)) => 0 | _ => 0 end.
Proof. unfold viewed, node_view. destruct d as [|[|[|[|d]]]]; reflexivity. Qed.

Lemma spherical_2d : paint_vector (viewed (pts 0) 0) 0 0 0 1 USpherical = Some (3 / 5, 4 / 5, 0) /\
  paint_vector (viewed (pts 12) 0) 0 0 0 1 USpherical = Some (3 / 13, 4 / 13, 12 / 13).
Proof.
  split.
  - unfold paint_vector, unit_dir. cbn [sumn]. rewrite !viewed_eq. replace (0 + 3 * 3 + 4 * 4 + 0 * 0) with 25 by ring. rewrite sqrt_25.
    destruct (Rlt_dec 1e-14 5); [|lra]. f_equal. f_equal; [f_equal|]; lra.
  - unfold paint_vector, unit_dir. cbn [sumn]. rewrite !viewed_eq. replace (0 + 3 * 3 + 4 * 4 + 12 * 12) with 169 by ring. rewrite sqrt_169.
    destruct (Rlt_dec 1e-14 13); [|lra]. f_equal. f_equal; [f_equal|]; lra.
Qed.
