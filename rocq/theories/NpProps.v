(* The loading of the sample through its surface: C133. *)
From Coq Require Import Reals List Arith ZArith Lia Lra.
From Verif Require Import BaseReal EvpModel EvpFlowModel EvpFftModel EvpSpec EvpBasis EvpFft NpModel NpSpec.
Import ListNotations.
Local Open Scope R_scope.

(* ---------- which nodes ---------- *)

Lemma loaded_iff g p : loaded g p = true <->
  (let i := in_sample1 g p in let j := in_sample2 g p in let k := in_sample3 g p in
  ((i = 1 \/ i = side1 g + 1) /\ 1 <= j <= side1 g + 1 /\ 1 <= k <= side3 g + 1
   \/ (j = 1 \/ j = side2 g + 1) /\ 1 <= i <= side2 g + 1 /\ 1 <= k <= side3 g + 1
   \/ (k = 1 \/ k = side2 g + 1) /\ 1 <= i <= side2 g + 1 /\ 1 <= j <= side2 g + 1)%Z).
Proof.
  unfold loaded. cbv zeta. rewrite !Bool.orb_true_iff, !Bool.andb_true_iff, !Bool.orb_true_iff, !Z.eqb_eq, !Z.leb_le. tauto.
Qed.

(* A sample with equal sides is loaded exactly on its surface. *)
Theorem C133_surface_cube : forall g p, (side1 g = side2 g)%Z -> (side2 g = side3 g)%Z -> (1 <= side1 g)%Z -> loaded g p = true <-> on_surface g p.
Proof.
  intros g p E1 E2 P. rewrite loaded_iff. unfold on_surface. cbv zeta. rewrite <- E2, <- E1. lia.
Qed.
Print Assumptions C133_surface_cube.

Definition site_at (g : np_grid) (i j k : Z) : site := (Z.to_nat (i + Z.of_nat (gd1 g) - 1), Z.to_nat (j + Z.of_nat (gd2 g) - 1), Z.to_nat (k + Z.of_nat (gd3 g) - 1)).
Lemma at_parts g i j k : (1 <= i + Z.of_nat (gd1 g))%Z -> (1 <= j + Z.of_nat (gd2 g))%Z -> (1 <= k + Z.of_nat (gd3 g))%Z ->
  in_sample1 g (site_at g i j k) = i /\ in_sample2 g (site_at g i j k) = j /\ in_sample3 g (site_at g i j k) = k.
Proof. intros A B C. unfold in_sample1, in_sample2, in_sample3, site_at. lia. Qed.
Lemma at_in g i j k : (1 <= i + Z.of_nat (gd1 g) <= Z.of_nat (gn1 g))%Z -> (1 <= j + Z.of_nat (gd2 g) <= Z.of_nat (gn2 g))%Z -> (1 <= k + Z.of_nat (gd3 g) <= Z.of_nat (gn3 g))%Z -> In (site_at g i j k) (np_sites g).
Proof. intros A B C. unfold np_sites, site_at. apply in_sites. lia. Qed.

(* With any other sides some node is wrong: one of the surface is left out or one that is not
   on the surface is loaded. *)
Theorem C133_surface_refuted : forall g, (2 <= side1 g)%Z -> (2 <= side2 g)%Z -> (2 <= side3 g)%Z -> (2 <= gd1 g)%nat -> (2 <= gd2 g)%nat -> (2 <= gd3 g)%nat ->
  ~ (side1 g = side2 g /\ side2 g = side3 g)%Z ->
  exists p, In p (np_sites g) /\ ~ (loaded g p = true <-> on_surface g p).
Proof.
  intros g S1 S2 S3 D1 D2 D3 N.
  assert (N1 : Z.of_nat (gn1 g) = (side1 g + 2 * Z.of_nat (gd1 g))%Z) by (unfold side1; lia).
  assert (N2 : Z.of_nat (gn2 g) = (side2 g + 2 * Z.of_nat (gd2 g))%Z) by (unfold side2; lia).
  assert (N3 : Z.of_nat (gn3 g) = (side3 g + 2 * Z.of_nat (gd3 g))%Z) by (unfold side3; lia).
  destruct (Z.eq_dec (side2 g) (side3 g)) as [E|E]; [destruct (Z.lt_trichotomy (side1 g) (side2 g)) as [L|[L|L]]|].
  - exists (site_at g (side1 g + 2) 1 2). split; [apply at_in; lia|]. rewrite loaded_iff. unfold on_surface. cbv zeta.
    destruct (at_parts g (side1 g + 2) 1 2) as (-> & -> & ->); lia.
  - exfalso. apply N. split; assumption.
  - exists (site_at g 1 (side2 g + 2) 2). split; [apply at_in; lia|]. rewrite loaded_iff. unfold on_surface. cbv zeta.
    destruct (at_parts g 1 (side2 g + 2) 2) as (-> & -> & ->); lia.
  - exists (site_at g 2 2 (side3 g + 1)). split; [apply at_in; lia|]. rewrite loaded_iff. unfold on_surface. cbv zeta.
    destruct (at_parts g 2 2 (side3 g + 1)) as (-> & -> & ->); lia.
Qed.
Print Assumptions C133_surface_refuted.

(* ---------- which velocities ---------- *)

Lemma sum1_3 f : sum1 3 f = S3 f.
Proof. unfold sum1, S3. cbn [sumn]. ring. Qed.

(* The corners carry the deformation of the history. *)
Lemma d_corner g i v : idx 3 i -> corner g i v = S3 (fun j => d i j * corner g j v).
Proof. intros I. assert (C : i = 1%nat \/ i = 2%nat \/ i = 3%nat) by (unfold idx in I; lia). unfold S3, d. destruct C as [-> | [-> | ->]]; cbn [Nat.eqb]; ring. Qed.

Lemma corners_are g loads i v : idx 3 i -> corners_after g true loads i v = S3 (fun j => deformation loads i j * corner g j v).
Proof.
  intros I. unfold corners_after, deformation. revert i I.
  assert (H : forall X F, (forall i, idx 3 i -> X i v = S3 (fun j => F i j * corner g j v)) ->
    forall i, idx 3 i -> fold_left (fun x load => corner_step true load x) loads X i v = S3 (fun j => fold_left (fun F load => after_load load F) loads F i j * corner g j v)).
  { induction loads as [|[L dt] l IH]; intros X F H i I; [apply H, I|]. cbn [fold_left]. apply IH; [|exact I]. clear i I. intros i I.
    unfold corner_step, move_corners, corner_velocity, after_load. cbn [fst snd]. rewrite sum1_3. unfold S3. rewrite (H i I), (H 1%nat), (H 2%nat), (H 3%nat) by (unfold idx; lia). unfold S3. ring. }
  apply H. intros i I. apply d_corner, I.
Qed.

Definition sided (g : np_grid) : Prop := (side1 g <> 0 /\ side2 g <> 0 /\ side3 g <> 0)%Z.

(* The shape functions reproduce the place of a node from the corners. *)
Lemma shapes_place g p j : sided g -> idx 3 j -> sum1 8 (fun v => corner g j v * shape g p v) = node_place g p j.
Proof.
  intros (A & B & C) J. apply not_0_IZR in A, B, C. assert (D : j = 1%nat \/ j = 2%nat \/ j = 3%nat) by (unfold idx in J; lia).
  unfold sum1. destruct D as [-> | [-> | ->]]; cbn [sumn]; unfold corner, shape, node_place; rewrite !minus_IZR; field; repeat split; assumption.
Qed.
(* Before the mean is taken off, a node has the velocity gradient times its place now. *)
Lemma node_velocity g loads udot p i : sided g ->
  interpolated_corner g (corner_velocity udot (corners_after g true loads)) p i = S3 (fun j => udot i j * moved loads (node_place g p) j).
Proof.
  intros SD. unfold interpolated_corner, corner_velocity.
  assert (E : forall k, idx 3 k -> node_place g p k = sum1 8 (fun v => corner g k v * shape g p v)) by (intros; symmetry; apply shapes_place; assumption).
  unfold moved, S3. rewrite (E 1%nat), (E 2%nat), (E 3%nat) by (unfold idx; lia).
  unfold sum1. cbn [sumn]. rewrite !corners_are by (unfold idx; lia). unfold S3. ring.
Qed.

Lemma length_count {A} (l : list A) : suml (fun _ => 1) l = INR (length l).
Proof. rewrite suml_const. ring. Qed.
Lemma count_pos g p : In p (loaded_sites g) -> 0 < loaded_count g.
Proof. intros I. unfold loaded_count. rewrite length_count. apply lt_0_INR. destruct (loaded_sites g); [contradiction|cbn; lia]. Qed.

(* The loaded nodes move as one affine motion: velocities differ by the prescribed gradient
   times the difference of the places the nodes have now ... *)
Theorem C133_affine : forall g loads udot velapp p q i, sided g -> loaded g p = true -> loaded g q = true ->
  let v := apply_boundary g (corner_velocity udot (corners_after g true loads)) velapp in
  let x p := moved loads (node_place g p) in
  v p i - v q i = S3 (fun j => udot i j * (x p j - x q j)).
Proof.
  intros g loads udot velapp p q i SD P Q v x. unfold v, apply_boundary. rewrite P, Q, !node_velocity by exact SD. unfold x, S3. ring.
Qed.
Print Assumptions C133_affine.

(* ... without moving the sample as a whole, and the other nodes are left alone. *)
Theorem C133_no_drift : forall g velvert velapp i,
  suml (fun p => apply_boundary g velvert velapp p i) (loaded_sites g) = 0
  /\ (forall p, loaded g p = false -> apply_boundary g velvert velapp p i = velapp p i).
Proof.
  intros g velvert velapp i. split.
  - unfold loaded_mean. rewrite (suml_ext _ (fun p => interpolated_corner g velvert p i - loaded_mean g (interpolated_corner g velvert) i)).
    2: { intros p P. unfold loaded_sites in P. apply filter_In in P. unfold apply_boundary. destruct P as [_ ->]. reflexivity. }
    rewrite suml_minus. destruct (loaded_sites g) as [|p l] eqn:E; [cbn; ring|].
    assert (C : 0 < loaded_count g) by (apply (count_pos g p); rewrite E; left; reflexivity).
    unfold loaded_mean. rewrite E. rewrite suml_const. unfold loaded_count in *. rewrite E, length_count in *. field. lra.
  - intros p P. unfold apply_boundary. rewrite P. reflexivity.
Qed.
Print Assumptions C133_no_drift.

(* Without iupdate the corners stay where they were: every step loads the first shape. *)
Theorem C133_fixed_corners : forall g loads i v, corners_after g false loads i v = corner g i v.
Proof. intros g loads i v. unfold corners_after. revert i v. induction loads as [|l loads IH]; intros i v; [reflexivity|]. cbn [fold_left corner_step]. apply IH. Qed.
Print Assumptions C133_fixed_corners.

(* A cube of four voxels in a frame of two: the nodes (3,3,3) and (7,3,3) of the grid are on its
   surface, four apart, and after a step that doubles the first direction eight apart. *)
Example C133_met : let g := NpGrid 8 8 8 2 2 2 in
  sided g /\ loaded g (2, 2, 2)%nat = true /\ loaded g (6, 2, 2)%nat = true /\ loaded g (3, 3, 3)%nat = false
  /\ (let loads := [((fun i j => if (Nat.eqb i 1 && Nat.eqb j 1)%bool then 1 else 0), 1)] in
      moved loads (node_place g (6, 2, 2)%nat) 1 - moved loads (node_place g (2, 2, 2)%nat) 1 = 8).
Proof.
  cbv zeta. split; [|repeat split].
  - unfold sided, side1, side2, side3. cbn [gn1 gn2 gn3 gd1 gd2 gd3]. lia.
  - unfold moved, deformation, after_load, S3, d, node_place, in_sample1, in_sample2, in_sample3. cbn [fold_left fst snd Nat.eqb andb gd1 gd2 gd3].
    replace (Z.of_nat 6 + 1 - Z.of_nat 2)%Z with 5%Z by lia. replace (Z.of_nat 2 + 1 - Z.of_nat 2)%Z with 1%Z by lia. lra.
Qed.
