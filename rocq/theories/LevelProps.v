(** C34: what one step of the level-set solver can do to the field. *)
From Coq Require Import Permutation.
From Verif Require Import BaseReal BaseArr GeomModel SghModel SghSpec SghProofs SghExamples MarsModel LevelModel LevelSpec LevelProofs LevelFlow LevelGrid LevelExamples LevelPlane.
Local Open Scope R_scope.

(** Every stage moves the field of an element by alpha dt (F H + sg (H - 1)), where the smoothed sign stays strictly
    inside (-1,1) and |H| is at most the steepest nodal gradient of the element; H >= 0 when the boundary conditions are walls.
    Elements without an evolving material keep their value. *)
Theorem C34_stage_bounded_partial : forall P bcs fuzz small alpha dt s s', lset_ok P -> 0 <= fuzz -> 0 <= small ->
  ls_stage P bcs fuzz small alpha dt s = Some s' -> l_phi0 s' = l_phi0 s /\ forall e,
  (forall mat, ~ evolves P mat e) /\ l_phi s' e = l_phi s e \/
  exists mat sg H G, evolves P mat e /\ steepest P (l_phi s) e G /\ -1 < sg < 1 /\ Rabs H <= G /\
    l_phi s' e = l_phi0 s e - front_move (v_speed P mat) sg H alpha dt /\
    ((forall b, In b bcs -> wall b) -> 0 <= H) /\
    ((forall mat', evolves P mat' e -> mat' = mat) -> 0 <= l_phi s e * sg /\ (sg = 0 -> l_phi s e = 0)).
Proof. intros P bcs fuzz small alpha dt s s' HP. exact (stage_range P HP bcs fuzz small alpha dt s s'). Qed.
Print Assumptions C34_stage_bounded_partial.

(** A whole step (any number of Runge-Kutta stages) is one such move of the old field over the full time step, with the
    gradients of the last intermediate field. *)
Theorem C34_step_bounded_partial : forall P bcs fuzz small N dt s s', lset_ok P -> 0 <= fuzz -> 0 <= small ->
  ls_step P bcs fuzz small (S N) dt s = Some s' -> exists t,
  (forall e, (forall mat, ~ evolves P mat e) -> l_phi t e = l_phi s e) /\ (N = O -> l_phi t = l_phi s) /\
  forall e, (forall mat, ~ evolves P mat e) /\ l_phi s' e = l_phi s e \/
  exists mat sg H G, evolves P mat e /\ steepest P (l_phi t) e G /\ -1 < sg < 1 /\ Rabs H <= G /\
    l_phi s' e = l_phi s e - front_move (v_speed P mat) sg H 1 dt /\
    ((forall b, In b bcs -> wall b) -> 0 <= H) /\
    ((forall mat', evolves P mat' e -> mat' = mat) -> 0 <= l_phi t e * sg /\ (sg = 0 -> l_phi t e = 0)).
Proof. intros P bcs fuzz small N dt s s' HP. exact (step_spec P HP bcs fuzz small N dt s s'). Qed.
Print Assumptions C34_step_bounded_partial.

(** One step changes an element by at most dt (|F| G + max(1, G - 1)), G the steepest gradient. *)
Theorem C34_change_bounded : forall P bcs fuzz small dt s s' e, lset_ok P -> 0 <= fuzz -> 0 <= small -> 0 <= dt ->
  (forall b, In b bcs -> wall b) -> ls_step P bcs fuzz small 1 dt s = Some s' ->
  l_phi s' e = l_phi s e \/ exists mat G, evolves P mat e /\ steepest P (l_phi s) e G /\
    Rabs (l_phi s' e - l_phi s e) <= dt * (Rabs (v_speed P mat) * G + Rmax 1 (G - 1)).
Proof.
  intros P bcs fuzz small dt s s' e HP Hf Hs Hdt Hw E. destruct (step_spec P HP bcs fuzz small 0 dt s s' Hf Hs E) as (t & _ & Ht & A).
  rewrite (Ht eq_refl) in A. destruct (A e) as [[_ H]|(mat & sg & H & G & H1 & H2 & H3 & H4 & H5 & H6 & _)]; [now left|right].
  exists mat, G. split; [easy|]. split; [easy|]. rewrite H5. specialize (H6 Hw). rewrite (Rabs_right H) in H4 by lra. unfold front_move.
  replace (l_phi s e - 1 * dt * (v_speed P mat * H + sg * (H - 1)) - l_phi s e) with (- (dt * (v_speed P mat * H + sg * (H - 1)))) by ring.
  rewrite Rabs_Ropp, Rabs_mult, (Rabs_right dt) by lra. apply Rmult_le_compat_l; [exact Hdt|].
  eapply Rle_trans; [apply Rabs_triang|]. apply Rplus_le_compat.
  - rewrite Rabs_mult, (Rabs_right H) by lra. apply Rmult_le_compat_l; [apply Rabs_pos|exact H4].
  - rewrite Rabs_mult. assert (B1 : Rabs sg <= 1) by (apply Rabs_le; lra). assert (B2 : Rabs (H - 1) <= Rmax 1 (G - 1)).
    { apply Rabs_le. pose proof (Rmax_l 1 (G - 1)). pose proof (Rmax_r 1 (G - 1)). lra. }
    pose proof (Rabs_pos sg). pose proof (Rabs_pos (H - 1)). rewrite <- (Rmult_1_l (Rmax 1 (G - 1))). apply Rmult_le_compat; assumption.
Qed.
Print Assumptions C34_change_bounded.

(** Elements without an evolving material keep their value through the whole run. *)
Theorem C34_other_elements_kept : forall P fuzz small N cycles s s' e, lset_ok P -> 0 <= fuzz -> 0 <= small ->
  (forall mat, ~ evolves P mat e) -> ls_run P fuzz small N cycles s = Some s' -> l_phi s' e = l_phi s e.
Proof. intros P fuzz small N cycles s s' e HP. exact (run_unchanged P HP fuzz small N cycles s s' e). Qed.
Print Assumptions C34_other_elements_kept.

(** A field that is zero everywhere stays zero through the whole run, whatever the boundary conditions. *)
Theorem C34_zero_kept : forall P fuzz small N cycles s s', lset_ok P ->
  (forall e, (e < num_elems (v_mesh P))%nat -> l_phi s e = 0) -> ls_run P fuzz small N cycles s = Some s' ->
  forall e, (e < num_elems (v_mesh P))%nat -> l_phi s' e = 0.
Proof. intros P fuzz small N cycles s s' HP. exact (run_zero P HP fuzz small N cycles s s'). Qed.
Print Assumptions C34_zero_kept.

(** Where all nodes of an element see the same gradient, the average is that gradient's length up to the two
    regularisations, so without them the front moves with speed F along a distance function (|g| = 1). *)
Theorem C34_plane_front : forall P fuzz small alpha dt s s' mat e g, lset_ok P -> 0 <= fuzz -> 0 <= small ->
  ls_stage P [] fuzz small alpha dt s = Some s' ->
  evolves P mat e -> (forall mat', evolves P mat' e -> mat' = mat) -> enclosed P e <> 0 -> 0 < length_of P g ->
  (forall l d, (l < v_nn P)%nat -> (d < v_dims P)%nat -> stored_gradient P (l_phi s) (nodes_in (v_mesh P) e l) d = g d) ->
  v_speed P mat + signum P (l_phi s e) e <> 0 ->
  exists W, 0 < W /\ l_phi s' e = l_phi0 s e - front_move (v_speed P mat) (signum P (l_phi s e) e)
    (length_of P g * (length_of P g / (length_of P g + fuzz)) * (W / (W + fuzz))) alpha dt.
Proof. intros P fuzz small alpha dt s s' mat e g HP. exact (stage_plane P HP fuzz small alpha dt s s' mat e g). Qed.
Print Assumptions C34_plane_front.

Theorem C34_distance_front : forall P small alpha dt s s' mat e g, lset_ok P -> 0 <= small ->
  ls_stage P [] 0 small alpha dt s = Some s' ->
  evolves P mat e -> (forall mat', evolves P mat' e -> mat' = mat) -> enclosed P e <> 0 -> length_of P g = 1 ->
  (forall l d, (l < v_nn P)%nat -> (d < v_dims P)%nat -> stored_gradient P (l_phi s) (nodes_in (v_mesh P) e l) d = g d) ->
  v_speed P mat + signum P (l_phi s e) e <> 0 ->
  l_phi s' e = l_phi0 s e - alpha * dt * v_speed P mat.
Proof.
  intros P small alpha dt s s' mat e g HP Hs E H1 H2 H3 H4 H5 H6.
  destruct (stage_plane P HP 0 small alpha dt s s' mat e g (Rle_refl 0) Hs E H1 H2 H3 ltac:(lra) H5 H6) as (W & Hw & ->).
  rewrite H4. unfold front_move. field. lra.
Qed.
Print Assumptions C34_distance_front.

(** At an interior node of a rectilinear grid the stored gradient of a uniform field is zero ... *)
Theorem C34_uniform_interior : forall P n E X lo hi phi c d, grid_node P n E X lo hi -> (forall k, (k < 8)%nat -> phi (E k) = c) -> (d < 3)%nat ->
  stored_gradient P phi n d = 0.
Proof. intros P n E X lo hi phi c d HG. exact (grid_uniform P n E X lo hi HG phi c d). Qed.
Print Assumptions C34_uniform_interior.

(** ... and that of a linear field is exactly MINUS its gradient. *)
Theorem C34_gradient_sign_refuted : forall P n E X lo hi phi a g d, grid_node P n E X lo hi -> linear_around phi E X lo hi a g -> (d < 3)%nat ->
  stored_gradient P phi n d = - g d.
Proof. intros P n E X lo hi phi a g d HG. exact (grid_gradient P n E X lo hi HG phi a g d). Qed.
Print Assumptions C34_gradient_sign_refuted.

(** A uniform field does not stay uniform: on free surfaces the nodal gradient does not vanish. *)
Theorem C34_uniform_refuted : ~ forall P bcs small N dt s s' c, lset_ok P -> 0 < dt -> ls_step P bcs 0 small N dt s = Some s' ->
  (forall e, (e < num_elems (v_mesh P))%nat -> l_phi s e = c) -> exists c', forall e, (e < num_elems (v_mesh P))%nat -> l_phi s' e = c'.
Proof.
  intros H. destruct (uniform_witness 1 0 ltac:(lra)) as (s' & E & _ & A).
  destruct (cubes_ok (one_mat 2) (fun _ => 1) (one_mat_ok 2)) as (_ & B2 & _ & B4); [intros mat i j _ _ _ X; exact X|].
  destruct (H _ [] 0 1%nat 1 flat_state s' c12 B4 Rlt_0_1 E) as (c' & C); [intros; reflexivity|]. rewrite B2 in C. apply A. now rewrite (C 1%nat), (C 0%nat) by lia.
Qed.
Print Assumptions C34_uniform_refuted.

(** In an element with two evolving materials only the material listed last has an effect: swapping the two
    velocities between the materials changes the result. *)
Theorem C34_shared_element_refuted : forall dt small, 0 < dt < c12 -> exists s1 s2,
  ls_step (cubes both (fun mat => match mat with O => 0 | _ => 1 end)) [] 0 small 1 dt flat_state = Some s1 /\
  ls_step (cubes both (fun mat => match mat with O => 1 | _ => 0 end)) [] 0 small 1 dt flat_state = Some s2 /\
  l_phi s1 0%nat = l_phi flat_state 0%nat - dt /\ l_phi s2 0%nat = l_phi flat_state 0%nat.
Proof.
  intros dt small Hdt. destruct (shared_witness dt small 0 1 Hdt ltac:(lra) ltac:(lra)) as (s1 & E1 & A1). destruct (shared_witness dt small 1 0 Hdt ltac:(lra) ltac:(lra)) as (s2 & E2 & A2).
  exists s1, s2. cbn [flat_state l_phi]. split; [exact E1|]. split; [exact E2|]. rewrite A1, A2. lra.
Qed.
Print Assumptions C34_shared_element_refuted.

(** With positive regularisations every run is defined. *)
Theorem C34_defined : forall P fuzz small N cycles s, lset_ok P -> 0 < fuzz -> 0 < small ->
  (forall n, (n < num_nodes (v_mesh P))%nat -> node_volume P n <> 0) -> exists s', ls_run P fuzz small N cycles s = Some s'.
Proof. intros P fuzz small N cycles s HP. exact (run_runs P HP fuzz small N cycles s). Qed.
Print Assumptions C34_defined.

(** The parallel loops over elements and over nodes give the same field in every order. *)
Theorem C34_element_order : forall P fuzz alpha dt mat order s s', lset_ok P -> (mat < num_mats (v_L P))%nat ->
  Permutation order (seq 0 (num_mat_elems (v_L P) mat)) -> update_level_set P fuzz alpha dt mat s = Some s' -> exists t,
  for_each order (fun sid => update_elem P fuzz alpha dt mat (elem_in_mat (v_L P) mat sid)) s = Some t /\ forall e, l_phi t e = l_phi s' e.
Proof.
  intros P fuzz alpha dt mat order s s' HP Hm Hp E. destruct (update_any_order P HP fuzz alpha dt mat order s s' Hm Hp E) as (t & A & _ & _ & _ & _ & B). now exists t.
Qed.
Print Assumptions C34_element_order.

Theorem C34_node_order : forall P fuzz order s s', lset_ok P -> Permutation order (seq 0 (num_nodes (v_mesh P))) -> nodal_gradient P fuzz s = Some s' -> exists t,
  for_each order (node_gradient P fuzz) (corner_loop P s) = Some t /\
  forall n d, (n < num_nodes (v_mesh P))%nat -> l_grad t n d = l_grad s' n d /\ l_vel t n d = l_vel s' n d.
Proof.
  intros P fuzz order s s' HP Hp E. destruct (gradient_any_order P HP fuzz order s s' Hp E) as (t & A & _ & _ & B). now exists t.
Qed.
Print Assumptions C34_node_order.

(** ** The hypotheses are met *)

Example C34_uniform_ex : exists s', ls_step (cubes (one_mat 2) (fun _ => 1)) [] 0 1 1 1 flat_state = Some s' /\ lset_ok (cubes (one_mat 2) (fun _ => 1)) /\
  evolves (cubes (one_mat 2) (fun _ => 1)) 0 0 /\ l_phi s' 0%nat = c12 - 1.
Proof.
  destruct (uniform_witness 1 1 ltac:(lra)) as (s' & E & A & _). exists s'. split; [exact E|]. split; [|split; [|exact A]].
  - apply (cubes_ok (one_mat 2) (fun _ => 1) (one_mat_ok 2)). intros mat i j _ _ _ X; exact X.
  - split; [cbn; lia|]. split; [reflexivity|]. exists O. split; [cbn; lia|reflexivity].
Qed.

(** both cubes are used: two materials, of which only the first evolves, each filling one cube *)
Example C34_kept_ex : exists P, lset_ok P /\ (forall mat, ~ evolves P mat 1%nat) /\ evolves P 0 0.
Proof.
  set (L := mkLayout 1 (fun _ => 1%nat) (fun _ _ => O)). exists (cubes L (fun _ => 1)). split; [|split].
  - apply cubes_ok; [intros [mat sid] _; cbn; lia|cbn; intros; lia].
  - intros mat (_ & _ & sid & _ & H). discriminate H.
  - split; [cbn; lia|]. split; [reflexivity|]. exists O. split; [cbn; lia|reflexivity].
Qed.

Example C34_grid_ex : grid_node (grid2 (fun _ => EvolveFront) (fun _ => 1)) 13 (fun k => k) (fun _ => 1) (fun _ => 1) (fun _ => 1) /\
  linear_around (fun e => INR (Nat.modulo e 2)) (fun k => k) (fun _ => 1) (fun _ => 1) (fun _ => 1) (-(1/2)) (fun d => match d with O => 1%R | _ => 0%R end) /\
  stored_gradient (grid2 (fun _ => EvolveFront) (fun _ => 1)) (fun e => INR (Nat.modulo e 2)) 13 0 = -1.
Proof.
  assert (A : linear_around (fun e => INR (Nat.modulo e 2)) (fun k => k) (fun _ => 1) (fun _ => 1) (fun _ => 1) (-(1/2)) (fun d => match d with O => 1%R | _ => 0%R end)).
  { intros k Hk. unfold box_centre. do 8 (destruct k as [|k]; [cbn; lra|]). lia. }
  split; [apply grid2_centre|]. split; [exact A|]. rewrite (C34_gradient_sign_refuted _ _ _ _ _ _ _ _ _ 0 (grid2_centre _ _) A) by lia. ring.
Qed.

Example C34_defined_ex : forall n, lt n (num_nodes (v_mesh (cubes both (fun _ => 1)))) -> node_volume (cubes both (fun _ => 1)) n <> 0.
Proof.
  intros n Hn. assert (HD : forall mat i j, (mat < num_mats both)%nat -> (i < num_mat_elems both mat)%nat -> (j < num_mat_elems both mat)%nat -> elem_in_mat both mat i = elem_in_mat both mat j -> i = j) by (cbn; intros; lia).
  destruct (cubes_ok both (fun _ => 1) both_ok HD) as (A1 & _). rewrite A1 in Hn.
  rewrite (Nat.div_mod n 8) by lia. apply (cubes_volume both (fun _ => 1) both_ok HD); [apply Nat.div_lt_upper_bound; lia|apply Nat.mod_upper_bound; lia].
Qed.

(** the middle cell of 3 x 3 x 3 unit cells under the distance function x, without regularisation *)
Example C34_distance_front_ex : forall small alpha dt, exists s',
  ls_stage (grid3 1) [] 0 small alpha dt ramp_state = Some s' /\ lset_ok (grid3 1) /\ evolves (grid3 1) 0 13 /\ enclosed (grid3 1) 13 <> 0 /\ length_of (grid3 1) slope = 1 /\ (forall l d, (l < 8)%nat -> (d < 3)%nat -> stored_gradient (grid3 1) (l_phi ramp_state) (nodes_in (v_mesh (grid3 1)) 13 l) d = slope d) /\ 1 + signum (grid3 1) (l_phi ramp_state 13%nat) 13 <> 0 /\ l_phi s' 13%nat = 2 - alpha * dt.
Proof.
  intros small alpha dt. destruct (plane_runs small alpha dt) as (s' & E & A). exists s'. destruct (g3_ok 1) as (_ & _ & _ & Hok).
  assert (H1 : evolves (grid3 1) 0 13) by (split; [cbn; lia|]; split; [reflexivity|]; exists O; split; [cbn; lia|reflexivity]).
  repeat (split; [first [exact E|exact Hok|exact H1|apply g3_enclosed|apply slope_length|intros; now apply g3_middle|apply ramp_sign]|]). exact A.
Qed.
