(** Boundary sets and boundary conditions: C28, C29, C50. *)
From Verif Require Import BaseReal BaseArr SghModel BdyModel BdySpec BdyProofs.
From Coq Require Import Reals Lra Permutation Sorted.
Open Scope R_scope.

(** C28: a patch passes the test iff all its nodes are on the surface, within the tolerance. *)
Theorem C28_check_bdy : forall m x b s p,
  surface_of (bs_tag b) (bs_val b) (bs_ox b) (bs_oy b) (bs_oz b) = Some s ->
  (surface_dims s <= bm_dims m)%nat ->
  exists on, check_bdy m x b p = Some on /\
    (on = true <-> forall l, (l < bm_npp m)%nat -> on_surface s (bs_tol b) (x (bm_nip m p l))).
Proof. exact check_bdy_spec. Qed.
Print Assumptions C28_check_bdy.
Example C28_check_bdy_case :
  surface_of 0 1 0 0 0 = Some (Plane 0 1) /\ (surface_dims (Plane 0 1) <= bm_dims cube_bdy)%nat.
Proof. split; [reflexivity|cbn; lia]. Qed.

(** C28: every set lists exactly the matching boundary patches, once, in mesh order, whatever the order in which
    the parallel loop visits the sets. *)
Theorem C28_patch_sets : forall m x setup (surf : nat -> surface) order,
  NoDup order ->
  (forall set, In set order ->
     surface_of (bs_tag (setup set)) (bs_val (setup set)) (bs_ox (setup set)) (bs_oy (setup set)) (bs_oz (setup set))
       = Some (surf set) /\ (surface_dims (surf set) <= bm_dims m)%nat) ->
  exists t, tag_bdys m x setup order = Some t /\
    (forall set, In set order -> exists f,
       (forall p, f p = true <->
          forall l, (l < bm_npp m)%nat -> on_surface (surf set) (bs_tol (setup set)) (x (bm_nip m p l))) /\
       t set = filter f (bm_bdy m)) /\
    (forall set, ~ In set order -> t set = []).
Proof. exact tag_bdys_spec. Qed.
Print Assumptions C28_patch_sets.

(** C28: the nodes of a set are exactly the nodes of its patches, each once. *)
Theorem C28_node_sets : forall m x setup (surf : nat -> surface) order1 order2,
  NoDup order1 -> Permutation order1 order2 ->
  (forall set, In set order1 ->
     surface_of (bs_tag (setup set)) (bs_val (setup set)) (bs_ox (setup set)) (bs_oy (setup set)) (bs_oz (setup set))
       = Some (surf set) /\ (surface_dims (surf set) <= bm_dims m)%nat) ->
  (forall p l, In p (bm_bdy m) -> (l < bm_npp m)%nat -> (bm_nip m p l < bm_nodes m)%nat) ->
  exists ps ns, tag_bdys m x setup order1 = Some ps /\ build_node_sets m ps order2 = Some ns /\
    forall set, In set order1 ->
      NoDup (ns set) /\
      forall n, In n (ns set) <->
        exists p l, In p (bm_bdy m) /\ (l < bm_npp m)%nat /\ bm_nip m p l = n /\
          (forall l', (l' < bm_npp m)%nat -> on_surface (surf set) (bs_tol (setup set)) (x (bm_nip m p l'))).
Proof. exact boundary_sets. Qed.
Print Assumptions C28_node_sets.

(** C28: the node list keeps the order of first appearance along the set's patches. *)
Theorem C28_node_order : forall m ps order,
  NoDup order ->
  (forall set, In set order -> (length (ps set) <= length (bm_bdy m))%nat) ->
  (forall set p l, In set order -> In p (ps set) -> (l < bm_npp m)%nat -> (bm_nip m p l < bm_nodes m)%nat) ->
  exists t, build_node_sets m ps order = Some t /\
    (forall set, In set order ->
       t set = first_seen [] (flat_map (fun p => map (bm_nip m p) (seq 0 (bm_npp m))) (ps set))) /\
    (forall set, ~ In set order -> t set = []).
Proof. exact build_node_sets_spec. Qed.
Print Assumptions C28_node_order.
Example C28_sets_case :
  NoDup [0;1]%nat /\ Permutation [0;1]%nat [1;0]%nat /\
  (forall p l, In p (bm_bdy cube_bdy) -> (l < bm_npp cube_bdy)%nat -> (bm_nip cube_bdy p l < bm_nodes cube_bdy)%nat) /\
  (forall l, (l < 4)%nat -> on_surface (Plane 0 1) 1e-7 (cube_x (bm_nip cube_bdy 3 l))) /\
  ~ on_surface (Plane 0 1) 1e-7 (cube_x (bm_nip cube_bdy 5 0)).
Proof.
  split; [repeat constructor; cbn; lia|]. split; [constructor|]. split; [exact cube_indices|]. split.
  - intros l Hl. unfold on_surface, cube_x. cbn [bm_nip cube_bdy].
    destruct l as [|[|[|[|l]]]]; try lia; cbn [cube_faces nth]; rewrite Rminus_diag_eq, Rabs_R0 by reflexivity; lra.
  - unfold on_surface, cube_x. cbn [bm_nip cube_bdy cube_faces nth]. rewrite Rminus_0_l, Rabs_Ropp, Rabs_R1. lra.
Qed.

(** C28, a limit of the "global" surface: a set of that type is always empty. *)
Theorem C28_global_matches_nothing : forall m x b p,
  (5 <= bs_tag b)%nat -> (0 < bm_npp m)%nat -> check_bdy m x b p = Some false.
Proof. exact check_bdy_other_tag. Qed.
Print Assumptions C28_global_matches_nothing.

(** C28 fails in two dimensions for z planes and spheres: the test reads a coordinate that was never set. *)
Theorem C28_two_dimensional_refuted : forall m x b p,
  bm_dims m = 2%nat -> bs_tag b = 2%nat \/ bs_tag b = 4%nat -> (0 < bm_npp m)%nat -> check_bdy m x b p = None.
Proof. exact check_bdy_2d_undefined. Qed.
Print Assumptions C28_two_dimensional_refuted.

(** C29: the boundary conditions of a solver are those of the blocks naming it, in input order. *)
Theorem C29_sets_of_solver : forall solver blocks id,
  In id (sets_of_solver solver blocks) <-> nth_error blocks id = Some (solver, true).
Proof. exact sets_of_solver_spec. Qed.
Print Assumptions C29_sets_of_solver.
Theorem C29_sets_in_input_order : forall solver blocks, StronglySorted lt (sets_of_solver solver blocks).
Proof. exact sets_of_solver_sorted. Qed.
Print Assumptions C29_sets_in_input_order.

(** C29: a node whose last set is a fixed (constant) one ends with exactly zero (the prescribed) velocity. *)
Theorem C29_fixed_and_constant : forall dims t pre s post v, sets_ok dims (pre ++ s :: post) ->
  exists v', boundary_velocity dims (pre ++ s :: post) t v = Some v' /\
    forall n d, (d < dims)%nat -> In n (vs_nodes s) -> (forall s', In s' post -> ~ In n (vs_nodes s')) ->
      (vs_bc s = ZeroVel -> v' n d = 0) /\
      (vs_bc s = ConstantVel -> v' n d = nth d (vs_vars s) 0).
Proof. exact last_set_wins. Qed.
Print Assumptions C29_fixed_and_constant.

(** C29: nodes outside every set keep their velocity. *)
Theorem C29_other_nodes_unchanged : forall dims t sets v, sets_ok dims sets ->
  exists v', boundary_velocity dims sets t v = Some v' /\
    forall n, (forall s, In s sets -> ~ In n (vs_nodes s)) -> forall d, v' n d = v n d.
Proof. exact untouched_nodes. Qed.
Print Assumptions C29_other_nodes_unchanged.

(** C29: the order in which a set's nodes are processed does not matter. *)
Theorem C29_order_independent : forall dims t sets sets' v, sets_ok dims sets -> Forall2 same_set_reordered sets sets' ->
  exists v1 v2, boundary_velocity dims sets t v = Some v1 /\ boundary_velocity dims sets' t v = Some v2 /\
    forall n d, v1 n d = v2 n d.
Proof. exact node_order_irrelevant. Qed.
Print Assumptions C29_order_independent.
Example C29_sets_case :
  sets_ok 3 [mkVelSet ReflectedVel [1;0;0] [0;3;4;7]%nat; mkVelSet ZeroVel [] [0;1;2;3]%nat] /\
  Forall2 same_set_reordered
    [mkVelSet ReflectedVel [1;0;0] [0;3;4;7]%nat; mkVelSet ZeroVel [] [0;1;2;3]%nat]
    [mkVelSet ReflectedVel [1;0;0] [7;4;3;0]%nat; mkVelSet ZeroVel [] [0;1;2;3]%nat].
Proof.
  split.
  - intros s [<-|[<-|[]]]; cbn [vs_bc vs_vars vs_nodes bc_defined].
    + split; [split; [cbn; lia|]; exists 0%nat; split; [lia|unfold dvec; cbn [nth]; lra]|].
      repeat constructor; cbn; lia.
    + split; [exact I|]. repeat constructor; cbn; lia.
  - constructor; [|constructor; [|constructor]]; repeat split; cbn [vs_nodes]; try apply Permutation_refl.
    exact (Permutation_rev [0;3;4;7]%nat).
Qed.

(** C29: the reflected condition removes exactly the normal component (for every velocity) iff the direction given is
    a positive unit coordinate axis. *)
Theorem C29_reflected_iff : forall vars n,
  (3 <= length vars)%nat -> (exists d, (d < 3)%nat /\ nth d vars 0 <> 0) ->
  ((forall v, exists v', reflected_velocity 3 vars n v = Some v' /\
      (forall d, (d < 3)%nat -> v' n d = remove_normal (fun d => nth d vars 0) (v n) d) /\
      (forall n' d, n' <> n -> v' n' d = v n' d))
   <-> exists k, (k < 3)%nat /\ forall d, (d < 3)%nat -> nth d vars 0 = unit_axis k d).
Proof. exact reflected_exact. Qed.
Print Assumptions C29_reflected_iff.
Example C29_reflected_case : exists k, (k < 3)%nat /\ forall d, (d < 3)%nat -> nth d [0;1;0] 0 = unit_axis k d.
Proof. exists 1%nat. split; [lia|]. intros d Hd. destruct d as [|[|[|d]]]; try lia; reflexivity. Qed.

(** C29 refuted: with the outward normal -x of the plane x = 0, the normal velocity is doubled instead of removed. *)
Theorem C29_reflected_refuted : forall n v,
  exists v', reflected_velocity 3 [-1; 0; 0] n v = Some v' /\ v' n 0%nat = 2 * v n 0%nat.
Proof. exact reflected_wrong_sign. Qed.
Print Assumptions C29_reflected_refuted.

(** C29 refuted: an oblique direction halves the velocity instead of projecting it. *)
Theorem C29_reflected_oblique_refuted : forall n v, exists v', reflected_velocity 3 [1; 1; 0] n v = Some v' /\
  v' n 0%nat = v n 0%nat / 2 /\ v' n 1%nat = v n 1%nat / 2.
Proof. exact reflected_oblique. Qed.
Print Assumptions C29_reflected_oblique_refuted.

(** C29: a piston along a positively oriented axis imposes the prescribed polynomial velocity during its time window;
    the other components slide freely. *)
Theorem C29_piston_partial : forall k c v0 v1 v2 ts te t n v, (k < 3)%nat -> 0 < c -> ts <= t <= te ->
  exists v', piston_velocity 3 [c * unit_axis k 0; c * unit_axis k 1; c * unit_axis k 2; v0; v1; v2; ts; te] t n v = Some v' /\
    (forall d, (d < 3)%nat -> v' n d = if Nat.eqb d k then v0 + v1 * (t - ts) + / 2 * v2 * (t - ts) ^ 2 else v n d) /\
    (forall n' d, n' <> n -> v' n' d = v n' d).
Proof. exact piston_axis. Qed.
Print Assumptions C29_piston_partial.
Example C29_piston_case : (0 < 3)%nat /\ 0 < 2 /\ 0 <= 1 <= 5.
Proof. split; [lia|lra]. Qed.

Theorem C29_piston_outside_window : forall vars t n v, (8 <= length vars)%nat ->
  t < nth 6 vars 0 \/ nth 7 vars 0 < t -> piston_velocity 3 vars t n v = Some v.
Proof. exact piston_outside. Qed.
Print Assumptions C29_piston_outside_window.

Theorem C29_piston_refuted : forall n v, exists v', piston_velocity 3 [-1; 0; 0; 5; 0; 0; 0; 1] 0 n v = Some v' /\
  v' n 0%nat = 2 * v n 0%nat - 5.
Proof. exact piston_wrong_sign. Qed.
Print Assumptions C29_piston_refuted.

(** C50: the total force of all stress conditions is the sum over their patches of stress times vector area. *)
Theorem C50_total_force : forall m x t sets d,
  bm_npp m = 4%nat -> (d < 3)%nat ->
  (forall s p l, In s sets -> In p (ss_patches s) -> (l < 4)%nat -> (bm_nip m p l < bm_nodes m)%nat) ->
  sumn (bm_nodes m) (fun n => boundary_stress m x sets t (fun _ _ => 0) n d) =
  lsum (fun s => lsum (fun p => sumn 3 (fun j => applied_stress (ss_bc s) (ss_vars s) t d j
                                    * vector_area x (map (bm_nip m p) (seq 0 (bm_npp m))) j)) (ss_patches s)) sets.
Proof. exact total_boundary_force. Qed.
Print Assumptions C50_total_force.

(** C50: the same stress over a closed surface exerts no net force. *)
Theorem C50_closed_surface : forall m x t b vars ps d,
  bm_npp m = 4%nat -> (d < 3)%nat ->
  (forall p l, In p ps -> (l < 4)%nat -> (bm_nip m p l < bm_nodes m)%nat) ->
  closed_surface (map (fun p => map (bm_nip m p) (seq 0 (bm_npp m))) ps) ->
  sumn (bm_nodes m) (fun n => boundary_stress m x [mkStressSet b vars ps] t (fun _ _ => 0) n d) = 0.
Proof. exact closed_total_force. Qed.
Print Assumptions C50_closed_surface.
Example C50_case :
  bm_npp cube_bdy = 4%nat /\
  closed_surface (map (fun p => map (bm_nip cube_bdy p) (seq 0 (bm_npp cube_bdy))) (bm_bdy cube_bdy)) /\
  vector_area cube_x (map (bm_nip cube_bdy 3) (seq 0 4)) 0 = 1.
Proof. split; [reflexivity|]. split; [exact cube_closed|exact cube_area]. Qed.

(** C50: a quarter of the patch's stress force goes to each occurrence of a node, added to what was there. *)
Theorem C50_nodal_force : forall m x t sets f n d, (d < 3)%nat ->
  boundary_stress m x sets t f n d = f n d +
    lsum (fun s => lsum (fun p => lsum (fun l => if Nat.eqb (bm_nip m p l) n then 1 else 0) (seq 0 (bm_npp m)) *
        sumn 3 (fun j => applied_stress (ss_bc s) (ss_vars s) t d j *
                         (/ 4 * vector_area x (map (bm_nip m p) (seq 0 (bm_npp m))) j))) (ss_patches s)) sets.
Proof. exact boundary_stress_nodal. Qed.
Print Assumptions C50_nodal_force.

(** C50: neither the order of the sets nor the order in which patches are processed matters. *)
Theorem C50_set_order : forall m x t f sets sets' n d, (d < 3)%nat -> Permutation sets sets' ->
  boundary_stress m x sets t f n d = boundary_stress m x sets' t f n d.
Proof. exact boundary_stress_order. Qed.
Print Assumptions C50_set_order.
Theorem C50_patch_order : forall m x t f n d b vars ps ps', (d < 3)%nat -> Permutation ps ps' ->
  boundary_stress m x [mkStressSet b vars ps] t f n d = boundary_stress m x [mkStressSet b vars ps'] t f n d.
Proof. exact boundary_stress_patch_order. Qed.
Print Assumptions C50_patch_order.
