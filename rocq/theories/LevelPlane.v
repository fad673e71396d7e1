(** A plane front through 3 x 3 x 3 unit cells; the middle cell evolves. *)
From Coq Require Import ZArith.
From Verif Require Import BaseReal BaseArr GeomModel GeomSpec GeomProofs SghModel SghSpec SghProofs SghExamples MarsModel MarsSpec MarsProofs ThermModel ThermProofs ThermFlow LevelModel LevelSpec LevelProofs LevelFlow LevelGrid LevelExamples.
Local Open Scope R_scope.

Definition bit (l d : nat) : nat := if Nat.testbit l d then 1%nat else O.
Definition g3_elem (e d : nat) : nat := match d with O => e mod 3 | 1%nat => (e / 3) mod 3 | _ => e / 9 end.
Definition g3_nodes (e l : nat) : nat := ((g3_elem e 0 + bit l 0) + 4 * (g3_elem e 1 + bit l 1) + 16 * (g3_elem e 2 + bit l 2))%nat.
Definition g3_node (n d : nat) : nat := match d with O => n mod 4 | 1%nat => (n / 4) mod 4 | _ => n / 16 end.
Definition g3_x (n d : nat) : R := IZR (Z.of_nat (g3_node n d)).
Definition middle : layout := mkLayout 1 (fun _ => 1%nat) (fun _ _ => 13%nat).
Definition grid3 (F : R) : lset := mkLset 3 (mesh_of 64 27 g3_nodes) (elems_of 64 27 g3_nodes) middle g3_x (fun _ => 1) (fun _ => EvolveFront) (fun _ => F).
Definition ramp (e : nat) : R := IZR (Z.of_nat (e mod 3 + 1)).
Definition ramp_state : lstate := mkLs ramp ramp (fun _ _ => 0) (fun _ _ => 0) (fun _ _ => 0) (fun _ => 0).

Definition all27 (f : nat -> nat -> bool) : bool := forallb (fun e => forallb (f e) (seq 0 8)) (seq 0 27).
Lemma all27_true f : all27 f = true -> forall e l, (e < 27)%nat -> (l < 8)%nat -> f e l = true.
Proof. intros H e l He Hl. unfold all27 in H. rewrite forallb_forall in H. specialize (H e ltac:(apply in_seq; lia)). rewrite forallb_forall in H. apply H. apply in_seq. lia. Qed.

Lemma g3_range : table_in_range 64 27 8 g3_nodes.
Proof.
  intros e l He Hl. apply Nat.ltb_lt. apply (all27_true (fun e l => Nat.ltb (g3_nodes e l) 64)); [now vm_compute|assumption|assumption].
Qed.

Section G3.
Variable F : R.
Let P := grid3 F.

Lemma g3_ok : num_nodes (v_mesh P) = 64%nat /\ num_elems (v_mesh P) = 27%nat /\ nodes_in (v_mesh P) = g3_nodes /\ lset_ok P.
Proof. apply mesh_of_ok; [apply g3_range|intros [mat sid] _; cbn; lia|cbn; intros; lia|intros; lra]. Qed.

Lemma g3_coord e l d : (e < 27)%nat -> (l < 8)%nat -> (d < 3)%nat -> v_x P (nodes_in (v_mesh P) e l) d = IZR (Z.of_nat (g3_elem e d)) + (if Nat.testbit l d then 1 else 0).
Proof.
  intros He Hl Hd. destruct g3_ok as (_ & _ & -> & _). change (v_x P) with g3_x. unfold g3_x.
  assert (E : g3_node (g3_nodes e l) d = (g3_elem e d + bit l d)%nat).
  { apply Nat.eqb_eq. destruct d as [|[|[|d]]]; [| | |lia].
    - apply (all27_true (fun e l => Nat.eqb (g3_node (g3_nodes e l) 0) (g3_elem e 0 + bit l 0))); [now vm_compute|assumption|assumption].
    - apply (all27_true (fun e l => Nat.eqb (g3_node (g3_nodes e l) 1) (g3_elem e 1 + bit l 1))); [now vm_compute|assumption|assumption].
    - apply (all27_true (fun e l => Nat.eqb (g3_node (g3_nodes e l) 2) (g3_elem e 2 + bit l 2))); [now vm_compute|assumption|assumption]. }
  rewrite E, Nat2Z.inj_add, plus_IZR. f_equal. unfold bit. destruct (Nat.testbit l d); reflexivity.
Qed.

Lemma g3_normal e l d : (e < 27)%nat -> (l < 8)%nat -> (d < 3)%nat -> area_normal P e l d = box_normals (fun _ => 1 / 4) l d.
Proof.
  intros He Hl Hd. unfold area_normal. change (v_dims P) with 3%nat. cbn [Nat.eqb]. unfold elem_bmat.
  rewrite (bmat_ext _ _ _ (GeomProofs.shift (IZR (Z.of_nat (g3_elem e 0))) (fun i => if Nat.testbit i 0 then 1 else 0)) (GeomProofs.shift (IZR (Z.of_nat (g3_elem e 1))) (fun i => if Nat.testbit i 1 then 1 else 0))
    (GeomProofs.shift (IZR (Z.of_nat (g3_elem e 2))) (fun i => if Nat.testbit i 2 then 1 else 0))); [|intros i Hi|easy|easy].
  - rewrite bmat_translate, box_normals_bmat by assumption. unfold box_normals. destruct d as [|[|[|d]]]; [| | |lia]; destruct (Nat.testbit l _); field.
  - unfold gather, GeomProofs.shift. rewrite !g3_coord by (assumption || lia). repeat split; ring.
Qed.

(** nodal sums over integer multiples of a quarter *)
Definition zsum (n : nat) (f : nat -> nat -> Z) : Z :=
  fold_left (fun a e => fold_left (fun a l => if Nat.eqb (g3_nodes e l) n then (a + f e l)%Z else a) (seq 0 8) a) (seq 0 27) 0%Z.

Lemma zsum_sumn {A} (f : nat -> A -> R) (g : nat -> Z -> A -> Z) k a y : (forall e b, (e < k)%nat -> IZR (g e b a) = IZR b + f e a) ->
  IZR (fold_left (fun b e => g e b a) (seq 0 k) y) = IZR y + sumn k (fun e => f e a).
Proof.
  intros H. revert H. induction k as [|k IH]; intros H; [cbn; ring|]. rewrite seq_S, fold_left_app. cbn [fold_left Nat.add sumn]. rewrite H by lia. rewrite IH by (intros; apply H; lia). ring.
Qed.

Lemma zsum_spec n f h q : (forall e l, (e < 27)%nat -> (l < 8)%nat -> h e l = IZR (f e l) * q) -> at_node_sum P n h = IZR (zsum n f) * q.
Proof.
  intros H. destruct g3_ok as (A1 & A2 & A3 & A4). unfold at_node_sum. rewrite A2, A3. change (v_nn P) with 8%nat.
  rewrite (sumn_ext 27 _ (fun e => sumn 8 (fun l => (if Nat.eqb (g3_nodes e l) n then IZR (f e l) else 0)) * q)).
  - rewrite sumn_scal_r. f_equal. unfold zsum.
    rewrite (zsum_sumn (fun e (_ : unit) => sumn 8 (fun l => if Nat.eqb (g3_nodes e l) n then IZR (f e l) else 0)) (fun e a _ => fold_left (fun a l => if Nat.eqb (g3_nodes e l) n then (a + f e l)%Z else a) (seq 0 8) a) 27 tt); [ring|].
    intros e b _. rewrite (zsum_sumn (fun l (_ : unit) => if Nat.eqb (g3_nodes e l) n then IZR (f e l) else 0) (fun l a _ => if Nat.eqb (g3_nodes e l) n then (a + f e l)%Z else a) 8 tt); [easy|].
    intros l b' _. destruct (Nat.eqb _ _); [now rewrite plus_IZR|ring].
  - intros e He. rewrite <- sumn_scal_r. apply sumn_ext. intros l Hl. destruct (Nat.eqb _ _); [now apply H|ring].
Qed.

Definition znormal (e l d : nat) : Z := ((if Nat.testbit l d then 1 else -1) * Z.of_nat (e mod 3 + 1))%Z.

Lemma g3_stored n d : (n < 64)%nat -> (d < 3)%nat -> stored_gradient P ramp n d = IZR (zsum n (fun e l => znormal e l d)) * (1 / 4) / (IZR (zsum n (fun _ _ => 1%Z)) * (1 / 8)).
Proof.
  intros Hn Hd. unfold stored_gradient, node_volume.
  assert (E1 : at_node_sum P n (fun e l => area_normal P e l d * ramp e) = IZR (zsum n (fun e l => znormal e l d)) * (1 / 4)).
  { apply zsum_spec. intros e l He Hl. rewrite g3_normal by assumption. unfold znormal, ramp, box_normals. rewrite mult_IZR. destruct (Nat.testbit l d); field. }
  assert (E2 : at_node_sum P n (fun e _ => elem_size P e / INR (v_nn P)) = IZR (zsum n (fun _ _ => 1%Z)) * (1 / 8)).
  { apply zsum_spec. intros e l He Hl. change (elem_size P e) with 1. change (INR (v_nn P)) with (INR 8). replace (INR 8) with 8 by (cbn; lra). field. }
  rewrite E1, E2. reflexivity.
Qed.

Definition all64 (f : nat -> bool) : bool := forallb f (seq 0 64).
Lemma all64_true f : all64 f = true -> forall n, (n < 64)%nat -> f n = true.
Proof. intros H n Hn. unfold all64 in H. rewrite forallb_forall in H. apply H. apply in_seq. lia. Qed.

Lemma g3_volume n : (n < 64)%nat -> node_volume P n <> 0 /\ IZR (zsum n (fun _ _ => 1%Z)) <> 0.
Proof.
  intros Hn. assert (A : IZR (zsum n (fun _ _ => 1%Z)) <> 0).
  { apply not_0_IZR. apply Z.eqb_neq, negb_true_iff. apply (all64_true (fun n => negb (Z.eqb (zsum n (fun _ _ => 1%Z)) 0))); [now vm_compute|easy]. }
  split; [|exact A]. unfold node_volume.
  assert (E2 : at_node_sum P n (fun e _ => elem_size P e / INR (v_nn P)) = IZR (zsum n (fun _ _ => 1%Z)) * (1 / 8)); [|rewrite E2; lra].
  apply zsum_spec. intros e l He Hl. change (elem_size P e) with 1. change (INR (v_nn P)) with (INR 8). replace (INR 8) with 8 by (cbn; lra). field.
Qed.

Lemma g3_slope n : (n < 64)%nat -> 0 < length_of P (stored_gradient P ramp n).
Proof.
  intros Hn. unfold length_of. apply sqrt_lt_R0. change (v_dims P) with 3%nat. cbn [sumn].
  assert (A : stored_gradient P ramp n 0 <> 0).
  { rewrite g3_stored by (assumption || lia). destruct (g3_volume n Hn) as [_ Hv].
    assert (B : IZR (zsum n (fun e l => znormal e l 0)) <> 0).
    { apply not_0_IZR. apply Z.eqb_neq, negb_true_iff. apply (all64_true (fun n => negb (Z.eqb (zsum n (fun e l => znormal e l 0)) 0))); [now vm_compute|easy]. }
    intros E. apply Rmult_integral in E. destruct E as [E|E]; [lra|]. apply Rinv_neq_0_compat in E; [easy|lra]. }
  assert (0 < stored_gradient P ramp n 0 * stored_gradient P ramp n 0) by nra. assert (0 <= stored_gradient P ramp n 1 * stored_gradient P ramp n 1) by nra.
  assert (0 <= stored_gradient P ramp n 2 * stored_gradient P ramp n 2) by nra. lra.
Qed.

Definition slope (d : nat) : R := match d with O => -1 | _ => 0 end.

Lemma g3_middle l d : (l < 8)%nat -> (d < 3)%nat -> stored_gradient P ramp (nodes_in (v_mesh P) 13 l) d = slope d.
Proof.
  intros Hl Hd. destruct g3_ok as (_ & _ & -> & _). rewrite g3_stored; [|apply g3_range; lia|exact Hd].
  assert (E1 : zsum (g3_nodes 13 l) (fun _ _ => 1%Z) = 8%Z).
  { apply Z.eqb_eq. apply (all27_true (fun e l => if Nat.eqb e 13 then Z.eqb (zsum (g3_nodes 13 l) (fun _ _ => 1%Z)) 8 else true) ltac:(now vm_compute) 13%nat l); [lia|easy]. }
  assert (E2 : zsum (g3_nodes 13 l) (fun e l => znormal e l d) = match d with O => (-4)%Z | _ => 0%Z end).
  { apply Z.eqb_eq. destruct d as [|[|[|d]]]; [| | |lia].
    - apply (all27_true (fun e l => if Nat.eqb e 13 then Z.eqb (zsum (g3_nodes 13 l) (fun e l => znormal e l 0)) (-4) else true) ltac:(now vm_compute) 13%nat l); [lia|easy].
    - apply (all27_true (fun e l => if Nat.eqb e 13 then Z.eqb (zsum (g3_nodes 13 l) (fun e l => znormal e l 1)) 0 else true) ltac:(now vm_compute) 13%nat l); [lia|easy].
    - apply (all27_true (fun e l => if Nat.eqb e 13 then Z.eqb (zsum (g3_nodes 13 l) (fun e l => znormal e l 2)) 0 else true) ltac:(now vm_compute) 13%nat l); [lia|easy]. }
  rewrite E1, E2. destruct d; unfold slope; lra.
Qed.

Lemma g3_enclosed : enclosed P 13 <> 0.
Proof.
  destruct g3_ok as (A1 & A2 & A3 & A4). assert (E : enclosed P 13 = 1); [|lra].
  assert (M := normals_moment P A4 13 0 0 ltac:(cbn; lia) ltac:(cbn; lia)). cbn [Nat.eqb] in M. rewrite <- M. change (v_nn P) with 8%nat.
  rewrite (sumn_ext 8 _ (fun l => (1 + (if Nat.testbit l 0 then 1 else 0)) * (if Nat.testbit l 0 then 1 / 4 else - (1 / 4)))).
  - cbn [sumn Nat.testbit Nat.odd Nat.even Nat.div2 negb]. field.
  - intros l Hl. rewrite g3_coord, g3_normal by (assumption || lia). change (IZR (Z.of_nat (g3_elem 13 0))) with 1. unfold box_normals. destruct (Nat.testbit l 0); ring.
Qed.
End G3.

Lemma slope_length : length_of (grid3 1) slope = 1.
Proof. unfold length_of. change (v_dims (grid3 1)) with 3%nat. cbn [sumn slope]. replace (0 + -1 * -1 + 0 * 0 + 0 * 0) with 1 by ring. apply sqrt_1. Qed.

Lemma ramp_sign : 1 + signum (grid3 1) (l_phi ramp_state 13%nat) 13 <> 0.
Proof. assert (Hv : 0 < v_vol (grid3 1) 13) by (cbn; lra). destruct (signum_range (grid3 1) (l_phi ramp_state 13%nat) 13 Hv) as ((S1 & _) & _). lra. Qed.

Lemma plane_runs small alpha dt : exists s', ls_stage (grid3 1) [] 0 small alpha dt ramp_state = Some s' /\ l_phi s' 13%nat = 2 - alpha * dt.
Proof.
  set (P := grid3 1). destruct (g3_ok 1) as (A1 & A2 & A3 & A4). fold P in A1, A2, A3, A4.
  destruct (proj2 (nodal_gradient_spec P A4 0 ramp_state)) as (s1 & E1).
  { intros n Hn. rewrite A1 in Hn. split; [exact (proj1 (g3_volume 1 n Hn))|]. rewrite Rplus_0_r. apply Rgt_not_eq. exact (g3_slope 1 n Hn). }
  destruct (proj1 (nodal_gradient_spec P A4 0 ramp_state) s1 E1) as (_ & B1 & B2 & B3 & B4).
  assert (Hm : (0 < num_mats (v_L P))%nat) by (cbn; lia).
  destruct (elems_loop P 0 alpha dt 0 (seq 0 (num_mat_elems (v_L P) 0)) (mat_nodup P A4 0 Hm) s1) as [H1 H2].
  assert (Hvel : forall l d, (l < v_nn P)%nat -> (d < v_dims P)%nat -> l_vel s1 (nodes_in (v_mesh P) 13 l) d = slope d).
  { intros l d Hl Hd. assert (Hn : (nodes_in (v_mesh P) 13 l < num_nodes (v_mesh P))%nat) by (apply (ok_range _ _ (lo_mesh P A4)); [rewrite A2; lia|exact Hl]).
    destruct (B4 _ Hn d) as [_ ->]. change (l_phi ramp_state) with ramp. unfold P. rewrite (g3_middle 1 l d Hl Hd).
    replace (length_of (grid3 1) (stored_gradient (grid3 1) ramp (nodes_in (v_mesh (grid3 1)) 13 l))) with 1; [field|].
    refine (eq_trans (eq_sym slope_length) _). unfold length_of. f_equal. apply sumn_ext. intros d' Hd'. now rewrite (g3_middle 1 l d' Hl Hd'). }
  assert (Hw : 0 < sumn (v_nn P) (fun l => corner_weight P s1 (1 + signum P (l_phi s1 13%nat) 13) 13 l)).
  { apply (weights_positive P A4 13 slope); [apply g3_enclosed|rewrite A2; lia|rewrite B1; apply ramp_sign|exact B3|exists O; split; [cbn; lia|cbn; lra]|exact Hvel]. }
  destruct H2 as (s' & E2).
  { intros e He. apply in_map_iff in He. destruct He as (sid & <- & _). change (elem_in_mat (v_L P) 0 sid) with 13%nat. split.
    - intros E. apply sqrt_eq_0 in E; [|nra]. assert (Hp : l_phi s1 13%nat = 2) by (rewrite B1; reflexivity). rewrite Hp in E. nra.
    - change (v_speed P 0) with 1. lra. }
  assert (Es : ls_stage P [] 0 small alpha dt ramp_state = Some s').
  { unfold ls_stage. rewrite E1. cbn [obind]. change (num_mats (v_L P)) with 1%nat. unfold for_up. cbn [seq for_each]. unfold evolving. cbn [v_type P grid3]. unfold boundary_velocity. cbn [for_each obind].
    fold P. unfold update_level_set, for_up. rewrite E2. reflexivity. }
  exists s'. split; [exact Es|].
  destruct (H1 s' E2) as (_ & _ & C). destruct (C 13%nat) as [_ ->]; [apply in_map_iff; exists O; split; [reflexivity|apply in_seq; cbn; lia]|].
  unfold moved. cbv zeta. rewrite B2. change (v_speed P 0) with 1. change (l_phi0 ramp_state 13%nat) with 2.
  assert (Hj : hj P s1 0 (1 + signum P (l_phi s1 13%nat) 13) 13 = 1); [|rewrite Hj; ring].
  unfold hj. set (w := fun l => corner_weight P s1 (1 + signum P (l_phi s1 13%nat) 13) 13 l) in *. rewrite (sumn_ext (v_nn P) _ w).
  - field. lra.
  - intros l Hl. assert (EH : node_HJ P s1 (nodes_in (v_mesh P) 13 l) = 1); [|rewrite EH; unfold w; ring].
    unfold node_HJ. rewrite (sumn_ext (v_dims P) _ (fun d => slope d * slope d)); [change (v_dims P) with 3%nat; cbn [sumn slope]; ring|].
    intros d Hd. rewrite (Hvel l d Hl Hd). f_equal. assert (Hn : (nodes_in (v_mesh P) 13 l < num_nodes (v_mesh P))%nat) by (apply (ok_range _ _ (lo_mesh P A4)); [rewrite A2; lia|exact Hl]).
    destruct (B4 _ Hn d) as [-> _]. now apply (g3_middle 1).
Qed.
