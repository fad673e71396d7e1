(** Vocabulary for the stress of plastic materials, independent of the model of the code. *)
From Coq Require Import Reals List Lia Lra.
Open Scope R_scope.

(** tensors in space: entries (i,j) with i, j < 3 *)
Definition ten := nat -> nat -> R.
Definition same (a b : ten) : Prop := forall i j, (i < 3)%nat -> (j < 3)%nat -> a i j = b i j.
Definition symmetric (t : ten) : Prop := forall i j, (i < 3)%nat -> (j < 3)%nat -> t i j = t j i.
Definition antisymmetric (t : ten) : Prop := forall i j, (i < 3)%nat -> (j < 3)%nat -> t i j = - t j i.
Definition sum3 (f : nat -> R) : R := f 0%nat + f 1%nat + f 2%nat.
Definition trace (t : ten) : R := sum3 (fun i => t i i).
Definition dot (a b : ten) : R := sum3 (fun i => sum3 (fun j => a i j * b i j)).
Definition times (a b : ten) : ten := fun i j => sum3 (fun k => a i k * b k j).
Definition transposed (a : ten) : ten := fun i j => a j i.
Definition ident (i j : nat) : R := if Nat.eqb i j then 1 else 0.
Definition orthogonal (q : ten) : Prop := same (times (transposed q) q) ident /\ same (times q (transposed q)) ident.
(** the tensor seen by an observer turned with q *)
Definition turned (q t : ten) : ten := times q (times t (transposed q)).

(** von Mises equivalent stress, squared: 3/2 s:s *)
Definition mises_sq (t : ten) : R := 3 / 2 * dot t t.
(** on or inside the yield surface of a material with yield strength Y *)
Definition within_yield (Y : R) (t : ten) : Prop := mises_sq t <= Y * Y.

(** a stress deviator that the material can carry *)
Definition admissible (Y : R) (t : ten) : Prop := symmetric t /\ trace t = 0 /\ within_yield Y t.

(** deviatoric strain rate of a velocity gradient *)
Definition strain_rate (g : ten) : ten := fun i j => (g i j + g j i) / 2.
Definition dev_strain_rate (g : ten) : ten := fun i j => strain_rate g i j - (if Nat.eqb i j then trace g / 3 else 0).

(** tensor of an axisymmetric state: no (z,theta) or (r,theta) entries *)
Definition axisymmetric (t : ten) : Prop :=
  t 0%nat 2%nat = 0 /\ t 1%nat 2%nat = 0 /\ t 2%nat 0%nat = 0 /\ t 2%nat 1%nat = 0.

Definition shear (c : R) : ten := fun i j => if Nat.eqb i 0 then if Nat.eqb j 1 then c else 0 else 0.
Definition spin (c : R) : ten := fun i j =>
  match i, j with 0%nat, 1%nat => c | 1%nat, 0%nat => - c | _, _ => 0 end.
Definition zero_ten : ten := fun _ _ => 0.

(** what the material can carry in an axisymmetric calculation (the trace is treated apart) *)
Definition admissible_rz (Y : R) (t : ten) : Prop := symmetric t /\ axisymmetric t /\ within_yield Y t.

(** antisymmetric part of a velocity gradient *)
Definition spin_of (g : ten) : ten := fun i j => (g i j - g j i) / 2.
(** elastic rate of change of the stress deviator s (Jaumann): Hooke's law for the deviators and rotation with the spin *)
Definition elastic_rate (G : R) (g s : ten) : ten := fun i j =>
  2 * G * dev_strain_rate g i j + times (spin_of g) s i j - times s (spin_of g) i j.
Definition advanced (h : R) (sn rate : ten) : ten := fun i j => sn i j + h * rate i j.

(** every material point of a material satisfies P, now and at the start of the step *)
Definition all_points (n : nat) (P : ten -> Prop) (t t0 : nat -> ten) : Prop :=
  forall sid, (sid < n)%nat -> P (t sid) /\ P (t0 sid).
