(* The stand-alone mesh builder, /repo/legacy/Fierro_V0/src/Mesh-Builder/src/MeshBuilder.cpp and
   include/MeshBuilderInput.h.  Numbers are reals and counts natural numbers: overflow of int is not
   modelled.  A file is given by its values; reading them from YAML is not modelled, only that derive
   runs before validate (Yaml-Serializable/include/serializable-struct.h 151-152, 195-196). *)
From Coq Require Import Reals List Arith.
Import ListNotations.
Local Open Scope R_scope.

(* MeshBuilderInput.h 36-41, 56-63, 121-125: what the file gives; in two dimensions the third count is
   1 and the third length and origin are 0 (98-105) *)
Record input := Input { three : bool; origin : nat -> R; len : nat -> R; elems : nat -> nat; order : nat }.
Inductive shape := Box | Cylinder (inner start : R).
(* 63-72, the derived fields *)
Record grid := Grid { g_points : nat -> nat; g_lower : nat -> R; g_delta : nat -> R }.
(* 74-79 *)
Definition derive_delta (x : input) (lower upper : nat -> R) (a : nat) : R := (upper a - lower a) / INR (order x * elems x a).
(* 81-106: num_points; the third is 1 in two dimensions *)
Definition num_points (x : input) (a : nat) : nat := if andb (Nat.eqb a 2) (negb (three x)) then 1%nat else (order x * elems x a + 1)%nat.
Definition box_grid (x : input) : grid := Grid (num_points x) (fun _ => 0) (derive_delta x (fun _ => 0) (len x)).
(* 130-149 *)
Definition cyclic (x : input) : bool := if Rlt_dec (Rabs (len x 1 - 360)) (/ 10 ^ 8) then true else false.
Definition cyl_lower (inner start : R) (a : nat) : R := match a with 0%nat => 0 + inner | 1%nat => 0 + start * (PI / 180) | _ => 0 end.
Definition cyl_upper (x : input) (inner start : R) (a : nat) : R :=
  match a with 0%nat => len x 0 + inner | 1%nat => len x 1 * (PI / 180) + start * (PI / 180) | S (S _) => len x a end.
Definition cyl_grid (x : input) (inner start : R) : grid :=
  Grid (fun a => if andb (Nat.eqb a 1) (cyclic x) then (num_points x a - 1)%nat else num_points x a)
       (cyl_lower inner start) (derive_delta x (cyl_lower inner start) (cyl_upper x inner start)).
Definition grid_of (s : shape) (x : input) : grid := match s with Box => box_grid x | Cylinder inner start => cyl_grid x inner start end.
(* 151-154, after derive, so on the length in radians *)
Definition cyl_valid (x : input) : bool :=
  let l := len x 1 * (PI / 180) in if Rlt_dec l 0 then false else if Rlt_dec 360 l then false else true.

(* MeshBuilder.cpp 110-112 *)
Definition get_id (i j k num_i num_j : nat) : nat := (i + j * num_i + k * num_i * num_j)%nat.
(* the loops of 128-141, 147-178 and 160-175: k outermost, i innermost *)
Definition loops {A} (a b c : nat) (f : nat -> nat -> nat -> A) : list A :=
  flat_map (fun k => flat_map (fun j => map (fun i => f i j k) (seq 0 a)) (seq 0 b)) (seq 0 c).
(* 126-141: what is written to the points, in order *)
Definition build_points (x : input) (g : grid) : list (nat * list R) :=
  loops (g_points g 0) (g_points g 1) (g_points g 2) (fun i j k =>
    (get_id i j k (g_points g 0) (g_points g 1),
     [g_lower g 0%nat + INR i * g_delta g 0%nat; g_lower g 1%nat + INR j * g_delta g 1%nat] ++ (if three x then [g_lower g 2%nat + INR k * g_delta g 2%nat] else []))).
(* 143-178: what is written to the elements *)
Definition build_elems (x : input) (g : grid) : list (nat * list nat) :=
  let p := order x in
  loops (elems x 0) (elems x 1) (elems x 2) (fun i j k =>
    (get_id i j k (elems x 0) (elems x 1),
     loops (S p) (S p) (S (if three x then p else 0)) (fun il jl kl =>
       get_id ((il + i * p) mod g_points g 0) ((jl + j * p) mod g_points g 1) ((kl + k * p) mod g_points g 2) (g_points g 0) (g_points g 1)))).
(* 180-200: None is the runtime_error *)
Definition element_type (x : input) : option nat :=
  match order x with 0%nat => None | 1%nat => Some (if three x then 12 else 9)%nat | _ => Some (if three x then 72 else 70)%nat end.
(* 214-221 *)
Definition cylinder_transform (o : nat -> R) (c : list R) : list R :=
  match c with r :: t :: rest => o 0%nat + r * cos t :: o 1%nat + r * sin t :: rest | _ => c end.
(* 226-230 *)
Fixpoint translate_from (o : nat -> R) (a : nat) (c : list R) : list R := match c with [] => [] | v :: r => v + o a :: translate_from o (S a) r end.
Definition translate (o : nat -> R) (c : list R) : list R := translate_from o 0 c.
(* 235-252 *)
Record mesh := Mesh { m_points : list (nat * list R); m_elems : list (nat * list nat); m_type : nat }.
Definition move (f : list R -> list R) (l : list (nat * list R)) : list (nat * list R) := map (fun q => (fst q, f (snd q))) l.
Definition build_mesh (s : shape) (x : input) : option mesh :=
  match element_type x with
  | None => None
  | Some t =>
      let g := grid_of s x in
      let ps := build_points x g in
      let ps := match s with Box => ps | Cylinder _ _ => move (cylinder_transform (origin x)) ps end in
      Some (Mesh (move (translate (origin x)) ps) (build_elems x g) t)
  end.
(* 235-252 after reading the file: the validated builder *)
Definition accepted (s : shape) (x : input) : bool := match s with Box => true | Cylinder _ _ => cyl_valid x end.
