(** Vocabulary for the statements about the level-set solver. *)
From Verif Require Import BaseReal BaseArr GeomModel SghModel SghSpec LevelModel.
Local Open Scope R_scope.

(** The corners and elements around a node are listed together, each corner once. *)
Definition ring_ok (P : lset) : Prop := forall n, exists pairs, NoDup pairs /\
  (forall e l, In (e, l) pairs <-> (e < num_elems (v_mesh P))%nat /\ (l < v_nn P)%nat /\ nodes_in (v_mesh P) e l = n) /\
  corners_in_node (v_mesh P) n = map (fun p => corners_in_elem (v_mesh P) (fst p) (snd p)) pairs /\
  v_elems P n = map fst pairs.

(** A two- or three-dimensional problem on a well-formed mesh; a material lists an element at most once. *)
Record lset_ok (P : lset) : Prop := mk_lset_ok {
  lo_dims : v_dims P = 2%nat \/ v_dims P = 3%nat;
  lo_mesh : corners_ok (v_nn P) (v_mesh P);
  lo_ring : ring_ok P;
  lo_layout : layout_ok (num_elems (v_mesh P)) (v_L P);
  lo_distinct : forall mat i j, (mat < num_mats (v_L P))%nat -> (i < num_mat_elems (v_L P) mat)%nat -> (j < num_mat_elems (v_L P) mat)%nat ->
    elem_in_mat (v_L P) mat i = elem_in_mat (v_L P) mat j -> i = j;
  lo_vol : forall e, (e < num_elems (v_mesh P))%nat -> 0 < v_vol P e
}.

(** material [mat] evolves its front and occupies element [e] *)
Definition evolves (P : lset) (mat e : nat) : Prop :=
  (mat < num_mats (v_L P))%nat /\ v_type P mat = EvolveFront /\ exists sid, (sid < num_mat_elems (v_L P) mat)%nat /\ elem_in_mat (v_L P) mat sid = e.

(** sum over all corners of the mesh that touch node [n] *)
Definition at_node_sum (P : lset) (n : nat) (f : nat -> nat -> R) : R :=
  sumn (num_elems (v_mesh P)) (fun e => sumn (v_nn P) (fun l => if Nat.eqb (nodes_in (v_mesh P) e l) n then f e l else 0)).

(** each element gives an equal share of its volume (area in 2D) to its nodes *)
Definition node_volume (P : lset) (n : nat) : R := at_node_sum P n (fun e _ => elem_size P e / INR (v_nn P)).

(** the nodal vector the solver stores as the gradient of the element field [phi] *)
Definition stored_gradient (P : lset) (phi : nat -> R) (n d : nat) : R :=
  at_node_sum P n (fun e l => area_normal P e l d * phi e) / node_volume P n.

Definition length_of (P : lset) (v : nat -> R) : R := sqrt (sumn (v_dims P) (fun d => v d * v d)).

(** the steepest of the gradients at the nodes of an element *)
Definition steepest (P : lset) (phi : nat -> R) (e : nat) (G : R) : Prop :=
  (forall l, (l < v_nn P)%nat -> length_of P (stored_gradient P phi (nodes_in (v_mesh P) e l)) <= G) /\
  exists l, (l < v_nn P)%nat /\ G = length_of P (stored_gradient P phi (nodes_in (v_mesh P) e l)).

(** the volume (area in 2D) enclosed by the nodes of the element *)
Definition enclosed (P : lset) (e : nat) : R :=
  if Nat.eqb (v_dims P) 3 then vol_hex_raw (gather (v_mesh P) (v_x P) e 0) (gather (v_mesh P) (v_x P) e 1) (gather (v_mesh P) (v_x P) e 2)
  else area_quad (gather (v_mesh P) (v_x P) e 0) (gather (v_mesh P) (v_x P) e 1).

(** the change of the level set by one stage, with smoothed sign [sg] and Hamilton-Jacobi average [H] *)
Definition front_move (speed sg H alpha dt : R) : R := alpha * dt * (speed * H + sg * (H - 1)).

(** boundary conditions of wall type: at a node of the set every component of the velocity is kept or set to zero *)
Definition wall (b : vel_set) : Prop := forall n v d, vs_fn b n v d = v d \/ vs_fn b n v d = 0.

(** ** Eight boxes around a node: box [k] lies on the high side of the node along axis [d] when bit [d] of [k] is set *)
Definition box_around (X lo hi : nat -> R) (k l d : nat) : R :=
  X d + (if Nat.testbit k d then (if Nat.testbit l d then hi d else 0) else (if Nat.testbit l d then 0 else - lo d)).
Definition box_centre (X lo hi : nat -> R) (k d : nat) : R := X d + (if Nat.testbit k d then hi d / 2 else - (lo d / 2)).
Definition box_volume (lo hi : nat -> R) (k : nat) : R :=
  (if Nat.testbit k 0 then hi 0%nat else lo 0%nat) * (if Nat.testbit k 1 then hi 1%nat else lo 1%nat) * (if Nat.testbit k 2 then hi 2%nat else lo 2%nat).

(** node [n] is an interior node of a rectilinear grid, surrounded by the elements [E 0] ... [E 7] *)
Record grid_node (P : lset) (n : nat) (E : nat -> nat) (X lo hi : nat -> R) : Prop := mk_grid_node {
  gn_dims : v_dims P = 3%nat;
  gn_sizes : forall d, 0 < lo d /\ 0 < hi d;
  gn_elems : forall k, (k < 8)%nat -> (E k < num_elems (v_mesh P))%nat;
  gn_inj : forall j k, (j < 8)%nat -> (k < 8)%nat -> E j = E k -> j = k;
  gn_around : forall e l, (e < num_elems (v_mesh P))%nat -> (l < 8)%nat ->
    (nodes_in (v_mesh P) e l = n <-> exists k, (k < 8)%nat /\ e = E k /\ l = (7 - k)%nat);
  gn_coords : forall k l d, (k < 8)%nat -> (l < 8)%nat -> (d < 3)%nat -> v_x P (nodes_in (v_mesh P) (E k) l) d = box_around X lo hi k l d;
  gn_vol : forall k, (k < 8)%nat -> v_vol P (E k) = box_volume lo hi k
}.

(** the field is linear around the node: value at the element centres *)
Definition linear_around (phi : nat -> R) (E : nat -> nat) (X lo hi : nat -> R) (a : R) (g : nat -> R) : Prop :=
  forall k, (k < 8)%nat -> phi (E k) = a + sumn 3 (fun d => g d * box_centre X lo hi k d).
