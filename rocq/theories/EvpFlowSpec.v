(* The laws of crystal plasticity the flow rule, the hardening and the mean fields
   are stated against. *)
From Coq Require Import Reals List Arith Lia ZArith.
From Verif Require Import EvpSpec.
Import ListNotations.
Local Open Scope R_scope.

(* Shear rate of a system under the driving stress x, with strengths c1 against
   positive and c2 against negative shear. *)
Definition power_law (g0 c1 c2 : R) (n : nat) (x : R) : R :=
  if Rlt_dec x 0 then - (g0 * (- x / c2) ^ n) else g0 * (x / c1) ^ n.

(* The shear stress on a plane with normal n along b. *)
Definition shear_stress (sigma : nat -> nat -> R) (n b : nat -> R) : R := vdot b (mul_v sigma n).

(* Miller's indices of a plane and a direction, and the four-index notation of a
   hexagonal crystal with its redundant third index. *)
Definition miller_product (p q : nat -> Z) : Z := (p 1%nat * q 1%nat + p 2%nat * q 2%nat + p 3%nat * q 3%nat)%Z.
Definition four_index (p : nat -> Z) : Prop := p 3%nat = (- (p 1%nat + p 2%nat))%Z.
Definition miller_bravais_product (p q : nat -> Z) : Z := (miller_product p q + p 4%nat * q 4%nat)%Z.

(* Voce's law: threshold stress beyond the initial one after the shear g. *)
Definition voce (tau1 th0 th1 g : R) : R := (tau1 + th1 * g) * (1 - exp (- g * Rabs (th0 / tau1))).

(* The terms of a history of steps, one after another *)
Fixpoint total (l : list R) : R := match l with [] => 0 | x :: l => x + total l end.
