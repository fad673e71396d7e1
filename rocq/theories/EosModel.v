(** Model of the equations of state in /repo/apps/multiphysics/src/material_models/eos. Doubles are reals; [sqrt] of a
    negative number is NaN in C and [None] here, as is a division by zero. *)
From Verif Require Import BaseReal.
Local Open Scope R_scope.

Definition csqrt (x : R) : option R := if Rle_dec 0 x then Some (sqrt x) else None.
Definition cdiv (x y : R) : option R := if Req_EM_T y 0 then None else Some (x / y).

(** the numbers of eos_global_vars: gamma_law_eos.hpp:63-71 *)
Record gamma_vars := mkGamma { g_gamma : R; g_min_sound_speed : R }.

(** gamma_law_eos.hpp:92-109 calc_pressure *)
Definition gamma_pressure (q : gamma_vars) (den sie : R) : R := (g_gamma q - 1) * sie * den.

(** gamma_law_eos.hpp:113-134 calc_sound_speed. C's fmax(NaN, y) is y, so a negative energy gives the floor. *)
Definition gamma_sound_speed (q : gamma_vars) (sie : R) : R :=
  match csqrt (g_gamma q * (g_gamma q - 1) * sie) with
  | Some c => fmax c (g_min_sound_speed q)
  | None => g_min_sound_speed q
  end.

(** void_eos.hpp:77-110 *)
Definition void_pressure (den sie : R) : R := 0.
Definition void_sound_speed (den sie : R) : R := 1e-32.

(** elasticity.hpp: eos_global_vars 0 = bulk modulus, 1 = shear modulus, 2 = reference density, 3 = least sound speed *)
Record elastic_vars := mkElastic { e_bulk : R; e_shear : R; e_den0 : R; e_min_sound_speed : R }.
(** elasticity.hpp:78-96 calc_pressure *)
Definition elastic_pressure (q : elastic_vars) (den : R) : option R :=
  match cdiv den (e_den0 q) with Some r => Some (e_bulk q * (r - 1)) | None => None end.
(** elasticity.hpp:99-121 calc_sound_speed; fmax drops a NaN. A zero density gives infinity: [None]. *)
Definition elastic_sound_speed (q : elastic_vars) (den : R) : option R :=
  match cdiv (e_bulk q + 4 / 3 * e_shear q) den with
  | Some a => Some (match csqrt a with Some c => fmax (e_min_sound_speed q) c | None => e_min_sound_speed q end)
  | None => None
  end.
