(* What the loading of a sample through its surface is supposed to be, in plain geometry. *)
From Coq Require Import Reals List Arith ZArith.
From Verif Require Import BaseReal EvpModel EvpFftModel EvpSpec NpModel.
Import ListNotations.
Local Open Scope R_scope.

(* The nodes of the sample are numbered 1 .. side + 1 in each direction, from the frame. *)
Definition on_surface (g : np_grid) (p : site) : Prop :=
  let i := in_sample1 g p in let j := in_sample2 g p in let k := in_sample3 g p in
  (1 <= i <= side1 g + 1 /\ 1 <= j <= side2 g + 1 /\ 1 <= k <= side3 g + 1
   /\ (i = 1 \/ i = side1 g + 1 \/ j = 1 \/ j = side2 g + 1 \/ k = 1 \/ k = side3 g + 1))%Z.

(* A voxel of the sample is a unit cube with its centre at whole numbers, so node n of a
   direction lies at n - 1/2 before any loading. *)
Definition node_place (g : np_grid) (p : site) (i : nat) : R :=
  match i with 1%nat => IZR (in_sample1 g p) | 2%nat => IZR (in_sample2 g p) | _ => IZR (in_sample3 g p) end - / 2.

(* The deformation after a history of velocity gradients, each held for a time. *)
Definition after_load (load : T2 * R) (F : T2) : T2 := fun i j => F i j + snd load * S3 (fun k => fst load i k * F k j).
Definition deformation (loads : list (T2 * R)) : T2 := fold_left (fun F load => after_load load F) loads d.
Definition moved (loads : list (T2 * R)) (X : nat -> R) (i : nat) : R := S3 (fun j => deformation loads i j * X j).

(* Offsets on a grid that repeats itself. *)
Definition cyclic (n a b : nat) : nat := ((a + (n - b)) mod n)%nat.
Definition minus_site (n1 n2 n3 : nat) (p q : site) : site := let '(a, b, c) := p in let '(x, y, z) := q in (cyclic n1 a x, cyclic n2 b y, cyclic n3 c z).
Definition plus_site (n1 n2 n3 : nat) (p q : site) : site := let '(a, b, c) := p in let '(x, y, z) := q in ((a + x) mod n1, (b + y) mod n2, (c + z) mod n3)%nat.
(* The distance of two points of a direction, the short way round. *)
Definition around (n a b : nat) : nat := Nat.min (Nat.max a b - Nat.min a b) (n - (Nat.max a b - Nat.min a b)).
Definition around2 (g : np_grid) (p q : site) : R :=
  let '(a, b, c) := p in let '(x, y, z) := q in INR (around (gn1 g) a x) ^ 2 + INR (around (gn2 g) b y) ^ 2 + INR (around (gn3 g) c z) ^ 2.

(* The velocity gradient of the voxel whose lowest node is [p]: the mean of the differences
   along its four edges of each direction. *)
Definition node (n1 n2 n3 : nat) (p : site) (a b c : nat) : site := plus_site n1 n2 n3 p (a, b, c).
Definition edges (n1 n2 n3 : nat) (f : site -> R) (p : site) (j : nat) : R :=
  match j with
  | 1%nat => / 4 * (f (node n1 n2 n3 p 1 0 0) - f (node n1 n2 n3 p 0 0 0) + (f (node n1 n2 n3 p 1 1 0) - f (node n1 n2 n3 p 0 1 0))
             + (f (node n1 n2 n3 p 1 0 1) - f (node n1 n2 n3 p 0 0 1)) + (f (node n1 n2 n3 p 1 1 1) - f (node n1 n2 n3 p 0 1 1)))
  | 2%nat => / 4 * (f (node n1 n2 n3 p 0 1 0) - f (node n1 n2 n3 p 0 0 0) + (f (node n1 n2 n3 p 1 1 0) - f (node n1 n2 n3 p 1 0 0))
             + (f (node n1 n2 n3 p 0 1 1) - f (node n1 n2 n3 p 0 0 1)) + (f (node n1 n2 n3 p 1 1 1) - f (node n1 n2 n3 p 1 0 1)))
  | _ => / 4 * (f (node n1 n2 n3 p 0 0 1) - f (node n1 n2 n3 p 0 0 0) + (f (node n1 n2 n3 p 1 0 1) - f (node n1 n2 n3 p 1 0 0))
             + (f (node n1 n2 n3 p 0 1 1) - f (node n1 n2 n3 p 0 1 0)) + (f (node n1 n2 n3 p 1 1 1) - f (node n1 n2 n3 p 1 1 0)))
  end.
Definition field_mean (g : np_grid) (f : site -> R) : R := suml f (np_sites g) / (INR (gn1 g) * INR (gn2 g) * INR (gn3 g)).

(* The gradient of the trigonometric interpolant of a velocity field: every coefficient times
   the imaginary unit and its wave number. *)
Definition spectral_gradient (g : np_grid) (v : site -> T1) : site -> T2 := fun p i j =>
  ifft (gn1 g) (gn2 g) (gn3 g) (fun k => - fft_im (gn1 g) (gn2 g) (gn3 g) (fun q => v q i) k * np_wave g k j) (fun k => fft_re (gn1 g) (gn2 g) (gn3 g) (fun q => v q i) k * np_wave g k j) p.
