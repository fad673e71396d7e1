(* Voxelisation of a triangulated surface,
   /repo/legacy/Fierro_V0/src/Voxelizer/src/stl-to-voxelvtk.cpp.  Numbers are reals (the code
   has float and double); a division by zero gives an infinity or no number at all as in IEEE
   arithmetic.  Values that the code reads without having set them are parameters.  FOR_LOOP and
   FOR_REDUCE_* are serial loops here.  The reader of the binary file is not modelled: a surface
   is a list of facets. *)
From Coq Require Import Reals List Arith.
Import ListNotations.
Local Open Scope R_scope.

Definition point := (R * R * R)%type.
Definition px (p : point) : R := fst (fst p).
Definition py (p : point) : R := snd (fst p).
Definition pz (p : point) : R := snd p.
(* One facet as main_function sees it: coordinates in the order of the call, and the component
   normal(i,2) of the normal in the file, which is not permuted with the coordinates. *)
Record facet := Facet { v1 : point; v2 : point; v3 : point; nz : R }.

(* ---------- extent of the surface and the rays ---------- *)

(* FOR_REDUCE_MAX (402-413, 428-439, 454-465): [m] the value so far *)
Definition gtb (a b : R) : bool := if Rlt_dec b a then true else false.
Definition max_step (m a b c : R) : R :=
  if (gtb a m || gtb b m || gtb c m)%bool then
    if (gtb a b && gtb a c)%bool then a else if (gtb b a && gtb b c)%bool then b else if (gtb c a && gtb c b)%bool then c else m
  else m.
Definition mesh_max (m0 : R) (co : point -> R) (fs : list facet) : R := fold_left (fun m f => max_step m (co (v1 f)) (co (v2 f)) (co (v3 f))) fs m0.
(* FOR_REDUCE_MIN (415-426, 441-452, 467-478): the same with the order turned round *)
Definition mesh_min (m0 : R) (co : point -> R) (fs : list facet) : R := - mesh_max (- m0) (fun p => - co p) fs.

(* voxel_dx, gridCOx (484-492; the others 495-514).  gridCOx(elx) is never used by a loop. *)
Definition spacing (lo hi : R) (n : nat) : R := (hi - lo) / INR n.
Definition grid_co (lo hi : R) (n : nat) (k : nat) : R :=
  match k with O => lo | S i => (lo + spacing lo hi n / 2) + spacing lo hi n * INR i end.

(* ---------- one ray ---------- *)

Inductive ext := Fin (r : R) | PInf | NInf | NaN.
(* a difference of equal numbers is +0 *)
Definition ediv (a b : R) : ext :=
  if Req_EM_T b 0 then if Rlt_dec 0 a then PInf else if Rlt_dec a 0 then NInf else NaN else Fin (a / b).
Definition minus_e (r : R) (e : ext) : ext := match e with Fin s => Fin (r - s) | PInf => NInf | NInf => PInf | NaN => NaN end.
(* a > b *)
Definition egt (a b : ext) : bool :=
  match a, b with
  | Fin x, Fin y => if Rlt_dec y x then true else false
  | PInf, Fin _ | PInf, NInf | Fin _, NInf => true
  | _, _ => false
  end.
Definition eeq (a b : ext) : bool :=
  match a, b with
  | Fin x, Fin y => if Req_EM_T x y then true else false
  | PInf, PInf | NInf, NInf => true
  | _, _ => false
  end.

(* facetXmin .. facetYmax (526-561), and the tests of 595 and 625: the third branch is the only one left on numbers *)
Definition least (a b c : R) : R := if Rle_dec a b then if Rle_dec a c then a else c else if Rle_dec b c then b else c.
Definition largest (a b c : R) : R := - least (- a) (- b) (- c).
Definition possible (x y : R) (f : facet) : bool :=
  ((if Rle_dec (least (py (v1 f)) (py (v2 f)) (py (v3 f))) y then true else false) && (if Rle_dec y (largest (py (v1 f)) (py (v2 f)) (py (v3 f))) then true else false)
   && (if Rle_dec (least (px (v1 f)) (px (v2 f)) (px (v3 f))) x then true else false) && (if Rle_dec x (largest (px (v1 f)) (px (v2 f)) (px (v3 f))) then true else false))%bool.
(* 635-642 *)
Definition at_vertex (x y : R) (f : facet) : bool :=
  let at_ p := ((if Req_EM_T (px p) x then true else false) && (if Req_EM_T (py p) y then true else false))%bool in
  (at_ (v1 f) || at_ (v2 f) || at_ (v3 f))%bool.

(* 677-689: the height of the edge p-q above [x], and whether vertex [o] and the ray are on the
   same side of it *)
Definition predicted (p q : point) (x : R) : ext := minus_e (py p) (ediv ((py p - py q) * (px p - x)) (px p - px q)).
Definition same_side (p q o : point) (x y : R) : bool :=
  (egt (predicted p q (px o)) (Fin (py o)) && egt (predicted p q x) (Fin y)
   || egt (Fin (py o)) (predicted p q (px o)) && egt (Fin y) (predicted p q x))%bool.
Definition crossed (x y : R) (f : facet) : bool :=
  if same_side (v2 f) (v3 f) (v1 f) x y then if same_side (v3 f) (v1 f) (v2 f) x y then same_side (v1 f) (v2 f) (v3 f) x y else false else false.

(* 703-711 *)
Definition plane_z (x y : R) (f : facet) : ext :=
  let x1 := px (v1 f) in let y1 := py (v1 f) in let z1 := pz (v1 f) in
  let x2 := px (v2 f) in let y2 := py (v2 f) in let z2 := pz (v2 f) in
  let x3 := px (v3 f) in let y3 := py (v3 f) in let z3 := pz (v3 f) in
  let A := y1 * (z2 - z3) + y2 * (z3 - z1) + y3 * (z1 - z2) in
  let B := z1 * (x2 - x3) + z2 * (x3 - x1) + z3 * (x1 - x2) in
  let C := x1 * (y2 - y3) + x2 * (y3 - y1) + x3 * (y1 - y2) in
  let D := - x1 * (y2 * z3 - y3 * z2) - x2 * (y3 * z1 - y1 * z3) - x3 * (y1 * z2 - y2 * z1) in
  let C := if Rlt_dec (sqrt (C ^ 2)) (/ 10 ^ 14) then 0 else C in
  ediv (- D - A * x - B * y) C.

(* 714-730: [flag] is flagup, which the first turn reads as it finds it *)
Fixpoint unique_loop (flag : bool) (all : list ext) (i : nat) (zs : list ext) : list ext :=
  match zs with
  | [] => []
  | z :: rest =>
    let twice := existsb (fun jz => (eeq z (snd jz) && negb (Nat.eqb i (fst jz)))%bool) (combine (seq 0 (length all)) all) in
    if (twice || flag)%bool then unique_loop false all (S i) rest else z :: unique_loop false all (S i) rest
  end.
Definition unique (flag : bool) (zs : list ext) : list ext := unique_loop flag zs 0 zs.

(* 736-744: one inner loop, and as many of them as there are crossings *)
Fixpoint bubble_from (a : ext) (r : list ext) : list ext :=
  match r with [] => [a] | b :: r => if egt a b then b :: bubble_from a r else a :: bubble_from b r end.
Definition bubble (l : list ext) : list ext := match l with [] => [] | a :: r => bubble_from a r end.
Definition bubble_sort (l : list ext) : list ext := Nat.iter (length l) bubble l.

(* 746-754: a voxel centre between crossings [lo] and [hi], or near one *)
Definition near (z : R) (c : ext) : bool :=
  match c with Fin r => if Req_EM_T z 0 then false else if Rlt_dec (sqrt ((z - r) ^ 2) / sqrt (z ^ 2)) (/ 10 ^ 4) then true else false | _ => false end.
Definition voxel_inside (lo hi : ext) (z : R) : bool := ((egt (Fin z) lo && egt hi (Fin z)) || near z lo || near z hi)%bool.
(* 733-757: the list is sorted again for every pair *)
Definition labelled (zs : list ext) (z : R) : bool :=
  existsb (fun k => let l := Nat.iter (S k) bubble_sort zs in voxel_inside (nth (2 * k) l NaN) (nth (2 * k + 1) l NaN) z) (seq 0 (length zs / 2)).

(* What lies in coN_max, coN_min and flagup when a ray reads them first. *)
Record junk := Junk { j_max : R; j_min : R; j_flag : bool }.
(* 645-656 *)
Definition normals_max (j : junk) (fs : list facet) : R := fold_left (fun m f => if Rlt_dec m (nz f) then nz f else m) fs (j_max j).
Definition normals_min (j : junk) (fs : list facet) : R := fold_left (fun m f => if Rlt_dec (nz f) m then nz f else m) fs (j_min j).

(* 617-769: the labels of one ray, and whether it is put on the list for correction *)
Definition ray (fs : list facet) (j : junk) (x y : R) : (R -> bool) * bool :=
  let cand := filter (possible x y) fs in
  let vert := filter (at_vertex x y) cand in
  let same_sign := ((if Rlt_dec (normals_max j vert) 0 then true else false) || (if Rlt_dec 0 (normals_min j vert) then true else false))%bool in
  let first := if (Nat.ltb 0 (length vert) && same_sign)%bool then vert else [] in
  let listed := (Nat.ltb 0 (length vert) && negb same_sign)%bool in
  let cross := first ++ filter (crossed x y) cand in
  match cross with
  | [] => (fun _ => false, listed)
  | _ =>
    let zs := unique (j_flag j) (map (plane_z x y) cross) in
    if Nat.even (length zs) then (labelled zs, listed) else (fun _ => false, (listed || Nat.eqb (length vert) 0)%bool)
  end.

(* ---------- all rays of one direction ---------- *)

Definition grid3 := (nat -> nat -> nat -> bool).
Definition set3 (g : grid3) (x y z : nat) : grid3 := fun a b c => if (Nat.eqb a x && Nat.eqb b y && Nat.eqb c z)%bool then true else g a b c.
(* 771-842: the voxels of a listed ray next to at least four labelled ones; neighbours outside the
   array count nothing *)
Definition neighbour (g : grid3) (elx ely : nat) (x y k : nat) (dx dy : nat) : nat :=
  (* dx, dy: 0 is one less, 1 the same, 2 one more *)
  if (Nat.ltb 0 (x + dx) && Nat.leb (x + dx) elx && Nat.ltb 0 (y + dy) && Nat.leb (y + dy) ely)%bool
  then if g (x + dx - 1)%nat (y + dy - 1)%nat k then 1 else 0 else 0.
Definition correct_voxel (elx ely : nat) (xy : nat * nat) (g : grid3) (k : nat) : grid3 :=
  let '(x, y) := xy in
  let c := neighbour g elx ely x y k in
  if Nat.leb 4 (c 0%nat 0%nat + c 0%nat 1%nat + c 0%nat 2%nat + c 1%nat 0%nat + c 1%nat 2%nat + c 2%nat 0%nat + c 2%nat 1%nat + c 2%nat 2%nat) then set3 g x y k else g.
Definition correct_ray (elx ely elz : nat) (g : grid3) (xy : nat * nat) : grid3 := fold_left (correct_voxel elx ely xy) (seq 0 elz) g.

(* main_function (393-844): [n1] by [n2] rays and [n3] voxels along each, plus the two layers
   around.  [g0] is what the array holds before; every ray writes its own column. *)
Record extents := Extents { x_lo : R; x_hi : R; y_lo : R; y_hi : R; z_lo : R; z_hi : R }.
Definition measure (m0 M0 : R) (fs : list facet) : extents :=
  Extents (mesh_min M0 px fs) (mesh_max m0 px fs) (mesh_min M0 py fs) (mesh_max m0 py fs) (mesh_min M0 pz fs) (mesh_max m0 pz fs).
Definition main_function (m0 M0 : R) (js : nat -> nat -> junk) (fs : list facet) (n1 n2 n3 : nat) (g0 : grid3) : grid3 :=
  let e := measure m0 M0 fs in
  let rx := grid_co (x_lo e) (x_hi e) n1 in let ry := grid_co (y_lo e) (y_hi e) n2 in let rz := grid_co (z_lo e) (z_hi e) n3 in
  let g := fun a b k => (g0 a b k || fst (ray fs (js a b) (rx a) (ry b)) (rz k))%bool in
  let listed := filter (fun xy => snd (ray fs (js (fst xy) (snd xy)) (rx (fst xy)) (ry (snd xy)))) (flat_map (fun b => map (fun a => (a, b)) (seq 0 (n1 + 2))) (seq 0 (n2 + 2))) in
  fold_left (correct_ray (n1 + 2) (n2 + 2) (n3 + 2)) listed g.

(* ---------- the three directions ---------- *)

(* create_voxel_vtk (54-104): coordinates turned so that the third is along the ray; the normal
   stays as it is.  [twice]: create_voxel_vtk calls the first direction twice (69-70),
   create_voxel_vtk_GUI once (206). *)
Definition turn (p : point) : point := (py p, pz p, px p).
Definition turn_facet (f : facet) : facet := Facet (turn (v1 f)) (turn (v2 f)) (turn (v3 f)) (nz f).
Record unset := Unset { u_min : R; u_max : R; u_ray : nat -> nat -> nat -> junk }.
Definition voxels (twice : bool) (u : unset) (fs : list facet) (nx ny nz_ : nat) : grid3 :=
  let fx := map turn_facet fs in let fy := map turn_facet fx in
  let empty : grid3 := fun _ _ _ => false in
  let run d := main_function (u_min u) (u_max u) (u_ray u d) in
  let gx1 := run 0%nat fx ny nz_ nx empty in
  let gx := if twice then run 1%nat fx ny nz_ nx gx1 else gx1 in
  let gy := run 2%nat fy nz_ nx ny empty in
  let gz := run 3%nat fs nx ny nz_ empty in
  let b (x : bool) := if x then 1%nat else 0%nat in
  fun i j k => Nat.leb 2 (b (gx (j + 1) (k + 1) (i + 1))%nat + b (gy (k + 1) (i + 1) (j + 1))%nat + b (gz (i + 1) (j + 1) (k + 1))%nat).

(* The cell data of the file (137-146): the first direction fastest. *)
Definition cell_data (g : grid3) (nx ny nz_ : nat) : list bool :=
  flat_map (fun k => flat_map (fun j => map (fun i => g i j k) (seq 0 nx)) (seq 0 ny)) (seq 0 nz_).
(* The coordinates of the file (107-135; 243-271 with an origin): voxel_d* of the last call, or
   the given lengths *)
Definition file_coordinate (lo hi length : R) (given : bool) (origin : R) (n i : nat) : R :=
  INR i * (if given then length / INR n else spacing lo hi n) + origin.
