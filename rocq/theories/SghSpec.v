(** What is claimed about the 3D staggered-grid solver, in terms of the mesh, the state and the tallies the
    solver prints. *)
From Verif Require Import BaseReal GeomModel GeomSpec SghModel.
Local Open Scope R_scope.

(** *** Connectivity *)

(** the element-to-node table only names nodes of the mesh *)
Definition table_in_range (nnodes ne nn : nat) (nodes : nat -> nat -> nat) : Prop :=
  forall e l, (e < ne)%nat -> (l < nn)%nat -> (nodes e l < nnodes)%nat.

(** corners are exactly the (element, local node) pairs, and every node lists exactly its own, once each *)
Record corners_ok (nn : nat) (m : mesh3) : Prop := mk_corners_ok {
  ok_range : table_in_range (num_nodes m) (num_elems m) nn (nodes_in m);
  ok_distinct : forall e l e' l', (e < num_elems m)%nat -> (l < nn)%nat -> (e' < num_elems m)%nat -> (l' < nn)%nat ->
    corners_in_elem m e l = corners_in_elem m e' l' -> e = e' /\ l = l';
  ok_once : forall n, NoDup (corners_in_node m n);
  ok_node : forall n c, In c (corners_in_node m n) <->
    exists e l, (e < num_elems m)%nat /\ (l < nn)%nat /\ c = corners_in_elem m e l /\ nodes_in m e l = n
}.

(** *** Materials *)

(** all material points (material, storage index) *)
Definition points (L : layout) : list (nat * nat) :=
  flat_map (fun mat => map (fun sid => (mat, sid)) (seq 0 (num_mat_elems L mat))) (seq 0 (num_mats L)).

Definition point_elem (L : layout) (p : nat * nat) : nat := elem_in_mat L (fst p) (snd p).

(** every material point lives in an element of the mesh *)
Definition layout_ok (ne : nat) (L : layout) : Prop := forall p, In p (points L) -> (point_elem L p < ne)%nat.

(** *** Tallies *)

Definition momentum (m : mesh3) (s : sgh) (d : nat) : R := sumn (num_nodes m) (fun n => s_nmass s n * s_v s n d).

Definition total_energy (m : mesh3) (L : layout) (s : sgh) : R :=
  suml (fun p => s_mass s (fst p) (snd p) * s_sie s (fst p) (snd p)) (points L)
  + / 2 * sumn (num_nodes m) (fun n => s_nmass s n * sumn 3 (fun d => s_v s n d ^ 2)).

Definition sum_sie (L : layout) (s : sgh) : R := suml (fun p => s_sie s (fst p) (snd p)) (points L).

(** force put on a node by corner forces only *)
Definition internal_force (m : mesh3) (s : sgh) (n d : nat) : R := suml (fun c => s_cforce s c d) (corners_in_node m n).

(** force put on a node by stress boundary conditions and contact *)
Definition external_force (M : models) (s : sgh) (n d : nat) : R :=
  bdy_stress M s n d + (if doing_contact M then contact_force M s n d else 0).

(** the artificial viscosity only moves momentum between the corners of an element *)
Definition dissipation_balanced (M : models) : Prop :=
  forall s mat sid d, sumn 8 (fun l => dissipation M s mat sid l d) = 0.

(** p comes before q in the loops over materials and elements *)
Definition before (p q : nat * nat) : Prop := (fst p < fst q)%nat \/ (fst p = fst q /\ (snd p < snd q)%nat).

(** In an element with several material points, only the first of them may be eroded. *)
Definition erosion_safe (L : layout) (cycles : list (R * (nat -> models))) (s : sgh) : Prop :=
  forall p q, In p (points L) -> In q (points L) -> before p q -> point_elem L p = point_elem L q ->
  s_eroded s (fst q) (snd q) = false /\
  forall dt Ms k, In (dt, Ms) cycles -> has_erosion (Ms k) (fst q) = false.

Definition nodes_have_mass (m : mesh3) (s : sgh) : Prop := forall n, (n < num_nodes m)%nat -> s_nmass s n <> 0.

(** the artificial viscosity does not read the stress of the material nor the forces being accumulated *)
Definition dissipation_local (M : models) : Prop := forall s t f mat sid l d,
  dissipation M (set_stress t (set_cforce f s)) mat sid l d = dissipation M s mat sid l d.

(** Cauchy stress carried by a material point: deviatoric stress, minus pressure on the diagonal when the
    equation of state is separate *)
Definition cauchy (M : models) (s : sgh) (p : nat * nat) (i j : nat) : R :=
  s_stress s (fst p) (snd p) i j
  - (if decoupled M (fst p) then if Nat.eqb i j then s_pres s (fst p) (snd p) else 0 else 0).

(** force of one material point on local corner l of its element: minus stress times outward area normal,
    plus artificial viscosity, weighted with the material's share of the volume; nothing once eroded *)
Definition contribution (m : mesh3) (L : layout) (M : models) (s : sgh) (p : nat * nat) (l d : nat) : R :=
  if s_eroded s (fst p) (snd p) then 0
  else s_volfrac s (fst p) (snd p) * s_geo s (fst p) (snd p) *
       (dissipation M s (fst p) (snd p) l d
        - sumn 3 (fun k => elem_bmat m (s_x s) (point_elem L p) l k * cauchy M s p k d)).

(** state after the first k stages of a step *)
Definition after_stages (m : mesh3) (L : layout) (Ms : nat -> models) (N : nat) (dt : R) (s : sgh) (k : nat) : sgh :=
  fold_left (fun s k => rk_stage m L (Ms k) (rk_alpha N k) dt s) (seq 0 k) (set_start s).

(** momentum at the start of the step *)
Definition momentum_start (m : mesh3) (s : sgh) (d : nat) : R := sumn (num_nodes m) (fun n => s_nmass s n * s_v0 s n d).

(** the net artificial force on an element, over its eight corners *)
Definition net_dissipation (M : models) (s : sgh) (p : nat * nat) (d : nat) : R :=
  sumn 8 (fun l => dissipation M s (fst p) (snd p) l d).

(** the erosion model of the input file: a material erodes at or below a tension and a density threshold *)
Definition uses_basic_erosion (M : models) (T D : nat -> R) : Prop :=
  forall s mat sid, erode M s mat sid = basic_erosion (T mat) (D mat) s mat sid.
