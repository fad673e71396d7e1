(** Model of the elastic-plastic strength models, material_models/strength/decoupled_plasticity.hpp.
    Tensors are functions of two indices; only indices below 3 are read.  Simplifications: R for doubles;
    the arguments the function does not read are dropped; the pair of loops that copies the slices in and out is
    the identity on the entries below 3 (entries outside are not read or written by the code). *)
From Coq Require Import Reals List Lia Lra.
From Verif Require Import BaseArr BaseReal SghModel.
Import ListNotations.
Open Scope R_scope.

Definition tensor := nat -> nat -> R.

(** fuzz, decoupled_plasticity.hpp:65 and 357 *)
Definition fuzz : R := 1e-16.

(** D = 1/2 (vel_grad + vel_grad^T), :226-230 and :495-499 *)
Definition Dpart (g : tensor) : tensor := fun i j => 0.5 * (g i j + g j i).
(** W = 1/2 (vel_grad - vel_grad^T), :239-243 and :502-506 *)
Definition Wpart (g : tensor) : tensor := fun i j => 0.5 * (g i j - g j i).
(** div, :232-235 and :509-512 *)
Definition divg (g : tensor) : R := sumn 3 (fun i => g i i).
(** eye, :255-270 and :539-554 *)
Definition eye (i j : nat) : R := if Nat.eqb i j then 1 else 0.

(** HypoPlasticityModel::calc_stress, Jaumann rate, :271-284: s is the stress at entry (of the previous stage) *)
Definition jaumann (G : R) (g s : tensor) : tensor := fun i k =>
  2 * G * (Dpart g i k - divg g / 3 * eye i k)
  + sumn 3 (fun j => Wpart g i j * s j k - s i j * Wpart g j k).

(** :286-291: sn is the stress at the start of the step *)
Definition trial (G a dt : R) (g sn s : tensor) : tensor := fun i j => sn i j + a * dt * jaumann G g s i j.

(** :293-301 *)
Definition J2 (t : tensor) : R := sumn 3 (fun i => sumn 3 (fun j => t i j * t i j)) / 2.

(** :304-313: scaling back to the yield surface *)
Definition yield_factor (Y : R) (t : tensor) : R := Y / sqrt (3 * J2 t + fuzz).
Definition scale_back (Y : R) (t : tensor) : tensor := fun i j =>
  if Rlt_dec (yield_factor Y t) 1 then t i j * yield_factor Y t else t i j.

(** HypoPlasticityModel::calc_stress as a whole, :124-325; G and Y are strength_global_vars(mat,0) and (mat,1) *)
Definition hypo_plastic (G Y a dt : R) (g sn s : tensor) : tensor := scale_back Y (trial G a dt g sn s).

(** HypoPlasticityRZModel::calc_stress, :417-692 *)

(** :470-478: the trace is removed from the stress *)
Definition deviator (t : tensor) : tensor := fun i j =>
  if Nat.eqb i j then t i j - sumn 3 (fun k => t k k) / 3 else t i j.

(** the branch taken (approach = 0), :520 and :632-644; sn and s are already deviators *)
Definition wilkins_rate (G : R) (g sn s : tensor) : tensor := fun i j =>
  let D := Dpart g in let W := Wpart g in let div := divg g in
  let term := (sn 0%nat 0%nat - sn 1%nat 1%nat) / 2 in
  match i, j with
  | 0%nat, 0%nat => 2 * G * (D 0%nat 0%nat - div / 3 * eye 0 0)
      + term * ((D 0%nat 1%nat * s 1%nat 0%nat + s 0%nat 1%nat * D 1%nat 0%nat)
                + (D 0%nat 0%nat * s 0%nat 0%nat + s 0%nat 0%nat * D 0%nat 0%nat))
      + sn 0%nat 1%nat * (W 0%nat 1%nat * s 1%nat 0%nat - s 0%nat 1%nat * W 1%nat 0%nat)
  | 0%nat, 1%nat => G * D 0%nat 1%nat
      + (sn 0%nat 1%nat * ((D 0%nat 0%nat * s 0%nat 1%nat + s 0%nat 0%nat * D 0%nat 1%nat)
                          + (D 0%nat 1%nat * s 1%nat 1%nat + s 0%nat 1%nat * D 1%nat 1%nat))
         - term * ((W 0%nat 0%nat * s 0%nat 1%nat - s 0%nat 0%nat * W 0%nat 1%nat)
                   + (W 0%nat 1%nat * s 1%nat 1%nat - s 0%nat 1%nat * W 1%nat 1%nat)))
  | 1%nat, 0%nat => G * D 1%nat 0%nat
      + (sn 1%nat 0%nat * ((D 1%nat 0%nat * s 0%nat 0%nat + s 1%nat 0%nat * D 0%nat 0%nat)
                          + (D 1%nat 1%nat * s 1%nat 0%nat + s 1%nat 1%nat * D 1%nat 0%nat))
         - term * ((W 1%nat 0%nat * s 0%nat 0%nat - s 1%nat 0%nat * W 0%nat 0%nat)
                   + (W 1%nat 1%nat * s 1%nat 0%nat - s 1%nat 1%nat * W 1%nat 0%nat)))
  | 1%nat, 1%nat => 2 * G * (D 1%nat 1%nat - div / 3 * eye 1 1)
      + (W 1%nat 0%nat * s 0%nat 1%nat - s 1%nat 0%nat * W 0%nat 1%nat)
  | 2%nat, 2%nat => 2 * G * (D 2%nat 2%nat - div / 3 * eye 2 2)
  | _, _ => 0
  end.

(** :646-651 *)
Definition trial_rz (G a dt : R) (g sn s : tensor) : tensor := fun i j =>
  deviator sn i j + a * dt * wilkins_rate G g (deviator sn) (deviator s) i j.

(** :653-676; [J2] in this branch is the full contraction *)
Definition contraction (t : tensor) : R := sumn 3 (fun i => sumn 3 (fun j => t i j * t i j)).
Definition scaled_rz (Y : R) (t : tensor) : tensor := fun i j =>
  let K := contraction t - 2 / 3 * (Y * Y) in
  let factor := sqrt (2 / 3) * Y / sqrt (contraction t + fuzz) in
  if Rlt_dec 0 K then
    match i, j with
    | 0%nat, 0%nat | 1%nat, 1%nat | 2%nat, 2%nat | 0%nat, 1%nat | 1%nat, 0%nat => t i j * factor
    | _, _ => t i j
    end
  else t i j.

(** :677-686: what is stored *)
Definition hypo_plastic_rz (G Y a dt : R) (g sn s : tensor) : tensor := fun i j =>
  let t := scaled_rz Y (trial_rz G a dt g sn s) in
  match i, j with
  | 0%nat, 0%nat => t 0%nat 0%nat
  | 0%nat, 1%nat => t 0%nat 1%nat
  | 1%nat, 0%nat => t 0%nat 1%nat
  | 1%nat, 1%nat => t 1%nat 1%nat
  | 2%nat, 2%nat => t 2%nat 2%nat
  | _, _ => 0
  end.

(** The function pointer set by the input parser, input/parse_material_inputs.cpp:461-500: in a stage with
    coefficient a and step dt the model of material mat is the one above (properties.cpp:389-423: the velocity
    gradient is the one of the material point's element). *)
Definition plastic_material (L : layout) (G Y a dt : R) (M : models) (mat : nat) : Prop :=
  increment_based M mat = true /\ state_based M mat = false /\
  forall s sid i j, (i < 3)%nat -> (j < 3)%nat ->
    calc_stress M s mat sid i j =
      hypo_plastic G Y a dt (s_velgrad s (elem_in_mat L mat sid)) (s_stress0 s mat sid) (s_stress s mat sid) i j.
Definition plastic_material_rz (L : layout) (G Y a dt : R) (M : models) (mat : nat) : Prop :=
  increment_based M mat = true /\ state_based M mat = false /\
  forall s sid i j, (i < 3)%nat -> (j < 3)%nat ->
    calc_stress M s mat sid i j =
      hypo_plastic_rz G Y a dt (s_velgrad s (elem_in_mat L mat sid)) (s_stress0 s mat sid) (s_stress s mat sid) i j.
