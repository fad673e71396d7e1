(** What is claimed about the thermal solver, in terms of the mesh, the materials and nodal temperatures. *)
From Verif Require Import BaseReal BaseArr GeomModel GeomSpec SghModel SghSpec ThermModel.
Local Open Scope R_scope.

(** a node lists the elements it belongs to, one entry for each of its corners *)
Definition elems_ok (P : thermal) : Prop :=
  forall n, (n < num_nodes (h_mesh P))%nat ->
    (length (h_elems P n) = length (corners_in_node (h_mesh P) n)) /\
    forall e, In e (h_elems P n) <-> (e < num_elems (h_mesh P))%nat /\ exists l, (l < 8)%nat /\ nodes_in (h_mesh P) e l = n.

(** a material lists an element at most once, and only elements of the mesh *)
Definition distinct_elems (L : layout) : Prop :=
  forall mat, (mat < num_mats L)%nat -> NoDup (map (elem_in_mat L mat) (seq 0 (num_mat_elems L mat))).

Definition thermal_ok (P : thermal) : Prop :=
  corners_ok 8 (h_mesh P) /\ elems_ok P /\ layout_ok (num_elems (h_mesh P)) (h_L P) /\ distinct_elems (h_L P).

(** material mat is present in element e, at storage index sid *)
Definition holds (L : layout) (e mat sid : nat) : Prop :=
  (mat < num_mats L)%nat /\ (sid < num_mat_elems L mat)%nat /\ elem_in_mat L mat sid = e.

(** the material of e with the largest number *)
Definition last_material (L : layout) (e mat sid : nat) : Prop :=
  holds L e mat sid /\ forall mat' sid', holds L e mat' sid' -> (mat' <= mat)%nat.

(** gradient of the nodal temperatures over an element of volume V: the surface integral of T n over the element,
    divided by the volume *)
Definition gradient (P : thermal) (T : nat -> R) (V : R) (e d : nat) : R :=
  sumn 8 (fun l => T (nodes_in (h_mesh P) e l) * elem_bmat (h_mesh P) (h_x P) e l d) / V.

(** Fourier's law: heat conducted into corner l of element e by a material of conductivity k *)
Definition conducted (P : thermal) (k : R) (T : nat -> R) (V : R) (e l : nat) : R :=
  - k * sumn 3 (fun d => gradient P T V e d * elem_bmat (h_mesh P) (h_x P) e l d).

(** heat content of the nodes *)
Definition mean (f : nat -> R) (l : list nat) : R := suml f l / INR (length l).
Definition capacity (P : thermal) (n : nat) : R := h_mass P n * mean (fun e => h_cp P 0 e) (h_elems P n).
Definition heat_content (P : thermal) (T : nat -> R) : R := sumn (num_nodes (h_mesh P)) (fun n => capacity P n * T n).

(** the volumetric source: power density times the volume of the elements whose centre is within 8 of the source *)
Definition center (P : thermal) (e d : nat) : R := sumn 8 (fun l => h_x P (nodes_in (h_mesh P) e l) d) / 8.
Definition covered (P : thermal) (pos : nat -> R) (e : nat) : Prop :=
  sumn 3 (fun d => (pos d - center P e d) ^ 2) <= 8 ^ 2.
Definition power_density (power : R) : R := power / (4 / 3 * 3.14159 * 8 ^ 3).

(** no temperature boundary condition at all *)
Definition insulated (B : tbc) : Prop := forall set, (set < tb_sets B)%nat -> tb_kind B set = NoTemp.

(** patches of the sets of a kind, one entry for every time a patch is listed *)
Definition patches_of (B : tbc) (k : tkind) : list nat :=
  flat_map (fun set => if kind_eqb (tb_kind B set) k then tb_patches B set else []) (seq 0 (tb_sets B)).

(** cross product, norm and area of a triangle *)
Definition vsub (a b : nat -> R) (d : nat) : R := a d - b d.
Definition cross (u v : nat -> R) (d : nat) : R :=
  match d with
  | O => u 1%nat * v 2%nat - u 2%nat * v 1%nat
  | S O => u 2%nat * v 0%nat - u 0%nat * v 2%nat
  | _ => u 0%nat * v 1%nat - u 1%nat * v 0%nat
  end.
Definition norm (u : nat -> R) : R := sqrt (sumn 3 (fun d => u d ^ 2)).
Definition triangle_area (a b c : nat -> R) : R := / 2 * norm (cross (vsub b a) (vsub c a)).

(** a plane quadrilateral a b c e that its diagonal a-c splits in two triangles (every convex one is): the triangles lie
    in one plane, on different sides of the diagonal *)
Definition diagonal_splits (a b c e : nat -> R) : Prop :=
  exists t : R, 0 <= t /\
    ((forall d, (d < 3)%nat -> cross (vsub c a) (vsub e a) d = t * cross (vsub b a) (vsub c a) d) \/
     (forall d, (d < 3)%nat -> cross (vsub b a) (vsub c a) d = t * cross (vsub c a) (vsub e a) d)).
(** area of a quadrilateral from its diagonals *)
Definition quad_area (a b c e : nat -> R) : R := / 2 * norm (cross (vsub c a) (vsub e b)).

(** heat a node receives from the patches listed in ps when every visit of a patch brings [flux area T] *)
Definition patch_area (P : thermal) (B : tbc) (p : nat) : R :=
  triangle_area (h_x P (tb_nip B p 0)) (h_x P (tb_nip B p 1)) (h_x P (tb_nip B p 2)) +
  triangle_area (h_x P (tb_nip B p 2)) (h_x P (tb_nip B p 3)) (h_x P (tb_nip B p 0)).
Definition node_gain (B : tbc) (flux : nat -> nat -> R) (ps : list nat) (n : nat) : R :=
  suml (fun p => sumn 4 (fun l => if Nat.eqb (tb_nip B p l) n then flux p n else 0)) ps.

(** volume of the elements the source covers *)
Definition covered_volume (P : thermal) (pos : nat -> R) (V : nat -> R) : R :=
  sumn (num_elems (h_mesh P)) (fun e => if Rle_dec (sumn 3 (fun d => (pos d - center P e d) ^ 2)) (8 ^ 2) then V e else 0).
(** heat brought by the source per unit time *)
Definition source_rate (P : thermal) (src : option ((nat -> R) * R)) (V : nat -> R) : R :=
  match src with Some (pos, power) => power_density power * covered_volume P pos V | None => 0 end.
(** heat that enters through the boundary per unit time: convection and radiation *)
Definition boundary_rate (P : thermal) (B : tbc) (T : nat -> R) : R :=
  sumn (num_nodes (h_mesh P)) (fun n =>
    node_gain B (fun p n => - 100 * (T n - 293.15) * (patch_area P B p / 4)) (patches_of B ConvTemp) n +
    node_gain B (fun p n => - (0.2 * 5.67037442e-8) * T n ^ 4 * (patch_area P B p / 4)) (patches_of B RadTemp) n).
(** every element of the mesh contains the first material *)
Definition first_covers (P : thermal) : Prop :=
  forall e, (e < num_elems (h_mesh P))%nat -> exists sid, holds (h_L P) e 0 sid.
(** no boundary set prescribes a temperature *)
Definition no_const (B : tbc) : Prop := forall set, (set < tb_sets B)%nat -> tb_kind B set <> ConstTemp.
(** mean temperature of the nodes of an element *)
Definition element_mean (P : thermal) (T : nat -> R) (e : nat) : R := sumn 8 (fun l => T (nodes_in (h_mesh P) e l)) / 8.
