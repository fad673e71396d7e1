(** Pressure equilibration of the materials in an element (Tipton's model).
    Source: /repo/apps/multiphysics/src/material_models/equilibration/src/tipton_equilibration.cpp. *)
From Verif Require Import BaseReal BaseArr SghModel.
From Coq Require Import Reals.
Open Scope R_scope.

(** Visiting order of a material's loop: (gauss_gid, mat_point_storage_lid) pairs, tipton_equilibration.cpp:319-331.
    [mat_points] is the order of the source loops; the theorems allow any order. *)
Definition mat_points (g : nat) (elem_in : nat -> nat) (n : nat) : list (nat * nat) :=
  flat_map (fun sid => map (fun lid => (elem_in sid * g + lid, sid * g + lid)%nat) (seq 0 g)) (seq 0 n).

(** The gauss-point work arrays GaussPoint_pres, _pres_denominator, _volfrac_min, _volfrac_limiter. *)
Record gwork := mkG { g_pres : nat -> R; g_den : nat -> R; g_vmin : nat -> R; g_lim : nat -> R }.

(** set_values at tipton_equilibration.cpp:82-85 (and 184-187). *)
Definition g_init : gwork := mkG (fun _ => 0) (fun _ => 0) (fun _ => 1) (fun _ => 1).

(** Material-point state: the volume fraction being changed and its change, the other volume fraction (unmodified),
    pressure, density, specific internal energy, sound speed, mass; indexed by material and storage index. *)
Record mstate := mkM {
  m_vf : nat -> nat -> R; m_dvf : nat -> nat -> R; m_vfin : nat -> nat -> R;
  m_pres : nat -> nat -> R; m_rho : nat -> nat -> R; m_sie : nat -> nat -> R; m_sspd : nat -> nat -> R;
  m_mass : nat -> nat -> R }.

(** tipton_equilibration.cpp:342-343 and 462-463. *)
Definition bulk (s : mstate) (mat k : nat) : R := m_rho s mat k * m_sspd s mat k * m_sspd s mat k.
Definition ratio (fuzz : R) (s : mstate) (mat k : nat) : R := m_vf s mat k / (bulk s mat k + fuzz).

Definition partial_vf (fuzz : R) (s : mstate) (mat k : nat) : bool := if Rlt_dec (m_vf s mat k) (1 - fuzz) then true else false.

(** One iteration of build_gauss_point_averages, 333-353. *)
Definition build_step (fuzz : R) (s : mstate) (mat : nat) (w : gwork) (p : nat * nat) : gwork :=
  let '(g, k) := p in
  if partial_vf fuzz s mat k then
    mkG (fupd (g_pres w) g (g_pres w g + ratio fuzz s mat k * m_pres s mat k))
        (fupd (g_den w) g (g_den w g + ratio fuzz s mat k))
        (fupd (g_vmin w) g (fmin (m_vf s mat k) (g_vmin w g)))
        (g_lim w)
  else
    mkG (fupd (g_pres w) g (m_pres s mat k)) (fupd (g_den w) g 1) (g_vmin w) (g_lim w).

Definition build_averages (fuzz : R) (s : mstate) (nmats : nat) (pts : nat -> list (nat * nat)) : gwork :=
  fold_left (fun w mat => fold_left (build_step fuzz s mat) (pts mat) w) (seq 0 nmats) g_init.

(** calc_gauss_point_averages, 380-404, at every gauss point. *)
Definition divide_averages (fuzz : R) (w : gwork) : gwork :=
  mkG (fun g => g_pres w g / (g_den w g + fuzz)) (g_den w) (g_vmin w) (g_lim w).

(** equilibration_global_vars: the limiter coefficient and the pressure coefficient. *)
Record tparams := mkT { t_c0 : R; t_c1 : R; t_fuzz : R; t_dt : R; t_alpha : R }.

(** calc_volfrac_change, 452-483, one iteration; [div] is the divergence at the gauss point (452-455). *)
Definition change (T : tparams) (s : mstate) (w : gwork) (div : nat -> R) (mat g k : nat) : R :=
  let R_ := ratio (t_fuzz T) s mat k in
  R_ * (m_pres s mat k - g_pres w g) / (t_c1 T + t_fuzz T)
  + (R_ / (g_den w g + t_fuzz T) - m_vf s mat k) * div g * t_alpha T * t_dt T.

Definition set_dvf (s : mstate) (d : nat -> nat -> R) : mstate :=
  mkM (m_vf s) d (m_vfin s) (m_pres s) (m_rho s) (m_sie s) (m_sspd s) (m_mass s).
Definition set_lim (w : gwork) (l : nat -> R) : gwork := mkG (g_pres w) (g_den w) (g_vmin w) l.

Definition change_step (T : tparams) (div : nat -> R) (mat : nat) (sw : mstate * gwork) (p : nat * nat) : mstate * gwork :=
  let '(s, w) := sw in let '(g, k) := p in
  if partial_vf (t_fuzz T) s mat k then
    let d := change T s w div mat g k in
    let param := fmin 1 (fmax 0 (t_c0 T)) in
    (set_dvf s (fupd2 (m_dvf s) mat k d),
     set_lim w (fupd (g_lim w) g (fmin (g_lim w g) (param * g_vmin w g / (Rabs d + t_fuzz T)))))
  else (set_dvf s (fupd2 (m_dvf s) mat k 0), set_lim w (fupd (g_lim w) g 1)).

Definition calc_change (T : tparams) (div : nat -> R) (nmats : nat) (pts : nat -> list (nat * nat)) (sw : mstate * gwork) : mstate * gwork :=
  fold_left (fun sw mat => fold_left (change_step T div mat) (pts mat) sw) (seq 0 nmats) sw.

(** The material's equation of state calls (565-588) write pressure and sound speed of this point from its density and
    energy; they are parameters. *)
Record teos := mkE { e_pres : nat -> nat -> R -> R -> R; e_sspd : nat -> nat -> R -> R -> R -> R }.

(** update_state_equilibration, 539-588, one iteration. *)
Definition update_step (E : teos) (vol : nat -> R) (w : gwork) (mat : nat) (s : mstate) (p : nat * nat) : mstate :=
  let '(g, k) := p in
  let d := g_lim w g * m_dvf s mat k in
  let vf_orig := m_vf s mat k in
  let vf_new := fmin 1 (fmax 0 (m_vf s mat k + d)) in
  let dv := vf_new - vf_orig in
  let vol_change := dv * vol g * m_vfin s mat k in
  let sie := m_sie s mat k - g_pres w g * vol_change / (m_mass s mat k + 1e-20) in
  let rho := m_mass s mat k / (vol g * vf_new * m_vfin s mat k + 1e-20) in
  let pres := e_pres E mat k rho sie in
  mkM (fupd2 (m_vf s) mat k vf_new) (fupd2 (m_dvf s) mat k dv) (m_vfin s)
      (fupd2 (m_pres s) mat k pres) (fupd2 (m_rho s) mat k rho) (fupd2 (m_sie s) mat k sie)
      (fupd2 (m_sspd s) mat k (e_sspd E mat k rho sie pres)) (m_mass s).

(** mat_equilibration, 68-164.  geo_equilibration (170-272) is the same code with the two volume fractions exchanged:
    [m_vf] is then the geometric one and [m_vfin] the material one. *)
Definition equilibrate (T : tparams) (E : teos) (div vol : nat -> R) (nmats : nat) (pts : nat -> list (nat * nat)) (s : mstate) : mstate :=
  let w := divide_averages (t_fuzz T) (build_averages (t_fuzz T) s nmats pts) in
  let '(s', w') := calc_change T div nmats pts (s, w) in
  fold_left (fun s mat => fold_left (update_step E vol w' mat) (pts mat) s) (seq 0 nmats) s'.
