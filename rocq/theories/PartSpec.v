(** What the exported mesh of a material must be, in terms of the mesh and the list of the material's elements. *)
From Verif Require Import BaseArr.
From Verif Require Import PartModel.

(** the mesh node at local position l of the material's element number sid *)
Definition corner_node (nodes : nat -> nat -> nat) (elems : list nat) (sid l : nat) : nat := nodes (nth sid elems 0) l.

(** node n belongs to the material *)
Definition on_part (nn : nat) (nodes : nat -> nat -> nat) (elems : list nat) (n : nat) : Prop :=
  exists e l, In e elems /\ l < nn /\ nodes e l = n.

Record faithful {A} (nn dims : nat) (nodes : nat -> nat -> nat) (x : nat -> nat -> A) (elems : list nat) (p : part A) : Prop := mkFaithful {
  (* one exported element for each element of the material, in the same order, with the same number of nodes *)
  f_size : nrow (p_conn p) = length elems /\ ncol (p_conn p) = nn;
  (* every corner names an exported node with the coordinates of the mesh node *)
  f_corner : forall sid l, sid < length elems -> l < nn -> exists k, aget (p_conn p) sid l = Some k /\ k < p_num p /\
    forall d, d < dims -> aget (p_coords p) k d = Some (x (corner_node nodes elems sid l) d);
  (* no exported node is unused *)
  f_used : forall k, k < p_num p -> exists sid l, sid < length elems /\ l < nn /\ aget (p_conn p) sid l = Some k;
  (* corners share an exported node exactly when they share a mesh node; the order of the nodes is that of the mesh *)
  f_order : forall sid l sid' l' k k', sid < length elems -> l < nn -> sid' < length elems -> l' < nn ->
    aget (p_conn p) sid l = Some k -> aget (p_conn p) sid' l' = Some k' ->
    (k < k' <-> corner_node nodes elems sid l < corner_node nodes elems sid' l')
}.

(** the observable part of two exports agree *)
Definition same_part {A} (dims : nat) (p q : part A) : Prop :=
  p_num p = p_num q /\ (forall r c, aget (p_conn p) r c = aget (p_conn q) r c) /\
  (forall k d, k < p_num p -> d < dims -> aget (p_coords p) k d = aget (p_coords q) k d).
