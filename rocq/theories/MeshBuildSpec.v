(** Specification of structured meshes (properties C07, C08), independent of the builders. *)
From Coq Require Import Reals.
From Verif Require Import BaseReal BaseArr MeshBuildModel.
Local Open Scope R_scope.

(** Lexicographic number of (i,j,k), i fastest, in a grid with ni points along i and nj along j. *)
Definition sid (ni nj i j k : nat) : nat := (i + ni * (j + nj * k))%nat.

(** A structured hexahedral mesh with nx*ny*nz elements of order p: (p*nx+1)(p*ny+1)(p*nz+1) nodes,
    node (i,j,k) at [pos i j k], element (i,j,k) holding the nodes (p*i+a, p*j+b, p*k+c) at local
    position a + (p+1)*(b + (p+1)*c). *)
Definition node3 (p nx ny i j k : nat) : nat := sid (p * nx + 1) (p * ny + 1) i j k.
Definition elem3 (nx ny i j k : nat) : nat := sid nx ny i j k.

Definition structured3 (p nx ny nz : nat) (pos : nat -> nat -> nat -> nat -> R) (m : mesh) : Prop :=
  nrow (coords m) = ((p * nx + 1) * (p * ny + 1) * (p * nz + 1))%nat /\ ncol (coords m) = 3%nat /\
  nrow (nodes_in_elem m) = (nx * ny * nz)%nat /\
  (forall i j k d, (i <= p * nx)%nat -> (j <= p * ny)%nat -> (k <= p * nz)%nat -> (d < 3)%nat ->
     aget (coords m) (node3 p nx ny i j k) d = Some (pos i j k d)) /\
  (forall i j k a b c, (i < nx)%nat -> (j < ny)%nat -> (k < nz)%nat -> (a <= p)%nat -> (b <= p)%nat -> (c <= p)%nat ->
     aget (nodes_in_elem m) (elem3 nx ny i j k) (sid (p + 1) (p + 1) a b c) =
     Some (node3 p nx ny (p * i + a) (p * j + b) (p * k + c))).

Definition vec3 (x y z : R) : nat -> R := fun d => match d with 0%nat => x | 1%nat => y | _ => z end.
Definition nvec3 (x y z : nat) : nat -> nat := fun d => match d with 0%nat => x | 1%nat => y | _ => z end.

(** Equally spaced positions: n elements of equal size between o and o + l. *)
Definition box_pos (o l : nat -> R) (n : nat -> nat) (i j k d : nat) : R :=
  match d with
  | O => o O + INR i * (l O / INR (n O))
  | S O => o 1%nat + INR j * (l 1%nat / INR (n 1%nat))
  | _ => o 2%nat + INR k * (l 2%nat / INR (n 2%nat))
  end.

(** A structured quadrilateral mesh: node (i,j) at [pos i j], element (i,j) listing its corners
    (i,j), (i+1,j), (i+1,j+1), (i,j+1). *)
Definition node2 (nx i j : nat) : nat := (i + (nx + 1) * j)%nat.
Definition elem2 (nx i j : nat) : nat := (i + nx * j)%nat.
Definition structured2 (nx ny : nat) (pos : nat -> nat -> nat -> R) (m : mesh) : Prop :=
  nrow (coords m) = ((nx + 1) * (ny + 1))%nat /\ ncol (coords m) = 2%nat /\
  nrow (nodes_in_elem m) = (nx * ny)%nat /\ ncol (nodes_in_elem m) = 4%nat /\
  (forall i j d, (i <= nx)%nat -> (j <= ny)%nat -> (d < 2)%nat ->
     aget (coords m) (node2 nx i j) d = Some (pos i j d)) /\
  (forall i j, (i < nx)%nat -> (j < ny)%nat ->
     aget (nodes_in_elem m) (elem2 nx i j) 0 = Some (node2 nx i j) /\
     aget (nodes_in_elem m) (elem2 nx i j) 1 = Some (node2 nx (i + 1) j) /\
     aget (nodes_in_elem m) (elem2 nx i j) 2 = Some (node2 nx (i + 1) (j + 1)) /\
     aget (nodes_in_elem m) (elem2 nx i j) 3 = Some (node2 nx i (j + 1))).

Definition polar_pos (o : nat -> R) (r0 r1 a0 a1 : R) (nr na : nat) (i j d : nat) : R :=
  let r := r0 + INR i * ((r1 - r0) / INR nr) in
  let th := PI / 180 * a0 + INR j * (PI / 180 * (a1 - a0) / INR na) in
  match d with O => o O + r * cos th | _ => o 1%nat + r * sin th end.

(** The node [n] is one of the nodes of element [e]. *)
Definition in_elem (m : mesh) (e n : nat) : Prop := exists l, aget (nodes_in_elem m) e l = Some n.
