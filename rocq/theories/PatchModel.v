(* The boundary of a mesh in the parallel solvers, /repo/legacy/Fierro_V0/src/Parallel-Solvers:
   node_combination.h, node_combination.cpp and Solver.cpp Get_Boundary_Patches.  Node numbers are
   integers. *)
From Coq Require Import List Arith ZArith Bool.
Import ListNotations.

(* Node_Combination (node_combination.h 49-88): nodes, patch_id, element_id, local_patch_id.  The
   arrays of the C++ objects are shared between copies; every combination here has its own. *)
Record patch := Patch { p_nodes : list Z; p_id : nat; p_elem : nat; p_surf : nat }.

(* std::sort of integers *)
Fixpoint sort_in (x : Z) (l : list Z) : list Z := match l with [] => [x] | y :: r => if Z.leb x y then x :: l else y :: sort_in x r end.
Fixpoint sorted_nodes (l : list Z) : list Z := match l with [] => [] | x :: r => sort_in x (sorted_nodes r) end.

(* operator== (node_combination.h 91-119) *)
Fixpoint all_equal (l1 l2 : list Z) : bool := match l1, l2 with x :: r1, y :: r2 => (Z.eqb x y && all_equal r1 r2)%bool | _, _ => true end.
Definition patch_eqb (a b : patch) : bool :=
  if Nat.eqb (length (p_nodes a)) (length (p_nodes b)) then all_equal (sorted_nodes (p_nodes a)) (sorted_nodes (p_nodes b)) else false.
(* operator< (node_combination.cpp 42-88) *)
Fixpoint first_less (l1 l2 : list Z) : bool := match l1, l2 with x :: r1, y :: r2 => if Z.ltb x y then true else if Z.eqb x y then first_less r1 r2 else false | _, _ => false end.
Definition patch_ltb (a b : patch) : bool :=
  if Nat.ltb (length (p_nodes a)) (length (p_nodes b)) then true
  else if Nat.ltb (length (p_nodes b)) (length (p_nodes a)) then false
  else first_less (sorted_nodes (p_nodes a)) (sorted_nodes (p_nodes b)).

(* std::set insert in the order of operator<: the first that is not less is the place, or the one
   that is there already *)
Fixpoint set_insert (c : patch) (l : list patch) : list patch * option patch :=
  match l with
  | [] => ([c], None)
  | d :: r => if patch_ltb d c then let '(r', o) := set_insert c r in (d :: r', o) else if patch_ltb c d then (c :: l, None) else (l, Some d)
  end.

(* The sides of the elements (Solver.cpp 3848-3864, 3891-3910): [surfaces] is surface_to_dof_lid
   of the element type, one for the whole mesh, [convert] the order of its nodes. *)
Definition side_nodes (convert : nat -> nat) (nodes : list Z) (surface : list nat) : list Z := map (fun i => nth (convert i) nodes (-1)%Z) surface.
Definition sides (convert : nat -> nat) (surfaces : list (list nat)) (elems : list (list Z)) : list (nat * nat * list Z) :=
  flat_map (fun e => map (fun s => (fst e, fst s, side_nodes convert (snd e) (snd s))) (combine (seq 0 (length surfaces)) surfaces)) (combine (seq 0 (length elems)) elems).
Fixpoint number (k : nat) (l : list (nat * nat * list Z)) : list patch := match l with [] => [] | (e, s, ns) :: r => Patch ns k e s :: number (S k) r end.

(* Patch_Boundary_Flags (3838-3842, 3866-3876, 3912-3923) *)
Definition clear (flags : nat -> bool) (i : nat) : nat -> bool := fun j => if Nat.eqb j i then false else flags j.
Fixpoint mark (ps : list patch) (set : list patch) (flags : nat -> bool) : nat -> bool :=
  match ps with
  | [] => flags
  | p :: r =>
    match set_insert p set with
    | (set', None) => mark r set' flags
    | (set', Some d) => mark r set' (clear (clear flags (p_id d)) (p_id p))
    end
  end.
(* 3955-4003: those with a flag and a node of this process *)
Definition boundary_patches (mine : Z -> bool) (ps : list patch) : list patch :=
  filter (fun p => (mark ps [] (fun _ => true) (p_id p) && existsb mine (p_nodes p))%bool) ps.
Definition get_boundary_patches (mine : Z -> bool) (convert : nat -> nat) (surfaces : list (list nat)) (elems : list (list Z)) : list patch :=
  boundary_patches mine (number 0 (sides convert surfaces elems)).
