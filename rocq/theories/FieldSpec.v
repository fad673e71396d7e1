(** What a user expects of the fields in the graphics files. *)
From Coq Require Import Reals String Permutation.
From Verif Require Import BaseArr BaseReal.
From Verif Require Import SghModel SghSpec FieldModel.
Open Scope R_scope.

(** *** A file shows these columns, in this order, and no other *)
Definition shows_scalars (names : arr string) (vals : arr R) (n : nat) (cols : list (string * (nat -> R))) : Prop :=
  nrow names = length cols /\ nrow vals = length cols /\ forall k name v, nth_error cols k = Some (name, v) ->
    aget names k 0 = Some name /\ forall e, (e < n)%nat -> aget vals k e = Some (v e).
Definition shows_vectors (names : arr string) (vals : arr R) (n : nat) (cols : list (string * (nat -> nat -> R))) : Prop :=
  nrow names = length cols /\ nrow vals = length cols /\ forall k name v, nth_error cols k = Some (name, v) ->
    aget names k 0 = Some name /\ forall e d, (e < n)%nat -> (d < 3)%nat -> aget vals k (e * 3 + d) = Some (v e d).
Definition shows_tensors (names : arr string) (vals : arr R) (n : nat) (cols : list (string * (nat -> nat -> nat -> R))) : Prop :=
  nrow names = length cols /\ nrow vals = length cols /\ forall k name v, nth_error cols k = Some (name, v) ->
    aget names k 0 = Some name /\ forall e i j, (e < n)%nat -> (i < 3)%nat -> (j < 3)%nat -> aget vals k (e * 9 + 3 * i + j) = Some (v e i j).

(** *** Element averages: volume weighted; mass is the sum; specific energy is mass weighted *)
Definition points_in (L : layout) (e : nat) : list (nat * nat) := filter (fun p => Nat.eqb (point_elem L p) e) (points L).
Definition frac (q : mpoint) : R := q_vf q * q_gvf q.
Definition total (L : layout) (Q : nat -> nat -> mpoint) (v : mpoint -> R) (e : nat) : R := suml (fun p => v (Q (fst p) (snd p))) (points_in L e).

Definition elem_scalar (L : layout) (Q : nat -> nat -> mpoint) (f : efield) : list (string * (nat -> R)) :=
  match f with
  | Den => [("den"%string, total L Q (fun q => frac q * q_den q))]
  | Pres => [("pres"%string, total L Q (fun q => frac q * q_pres q))]
  | Sspd => [("sspd"%string, total L Q (fun q => frac q * q_sspd q))]
  | Mass => [("mass"%string, total L Q q_mass)]
  | Sie => [("sie"%string, fun e => total L Q (fun q => q_mass q * q_sie q) e / (total L Q q_mass e + 1e-20))]
  | Stress => []
  end.
Definition gauss_scalar (V : elemv) (g : gfield) : list (string * (nat -> R)) :=
  match g with Vol => [("vol"%string, g_vol V)] | Level => [("level_set"%string, g_level V)] | VelGrad => [] end.
Definition elem_tensor (L : layout) (Q : nat -> nat -> mpoint) (f : efield) : list (string * (nat -> nat -> nat -> R)) :=
  match f with Stress => [("stress"%string, fun e i j => total L Q (fun q => frac q * q_stress q i j) e)] | _ => [] end.
Definition gauss_tensor (V : elemv) (g : gfield) : list (string * (nat -> nat -> nat -> R)) :=
  match g with VelGrad => [("vel_grad"%string, g_velgrad V)] | _ => [] end.

(** *** Node values; vectors of two-dimensional meshes have third component 0 *)
Definition node_scalar (X : nodev) (f : nfield) : list (string * (nat -> R)) :=
  match f with NMass => [("node_mass"%string, n_mass X)] | NTemp => [("node_temp"%string, n_temp X)] | _ => [] end.
Definition flat (dims : nat) (v : nat -> nat -> R) : nat -> nat -> R := fun n d => if Nat.ltb d dims then v n d else 0.
Definition node_vector (dims : nat) (dt : R) (X : nodev) (f : nfield) : list (string * (nat -> nat -> R)) :=
  match f with
  | NCoords => [("node_coords"%string, flat dims (n_x X))]
  | NVel => [("node_vel"%string, flat dims (n_v X)); ("node_accel"%string, flat dims (fun n d => (n_v X n d - n_v0 X n d) / dt))]
  | NGrad => [("node_grad_lvlset"%string, flat dims (n_grad X))]
  | _ => []
  end.

(** *** Values of a material in its elements *)
Definition mat_scalar (Q : nat -> mpoint) (f : mfield) : list (string * (nat -> R)) :=
  match f with
  | Elem Den => [("mat_den"%string, fun s => q_den (Q s))]
  | Elem Pres => [("mat_pres"%string, fun s => q_pres (Q s))]
  | Elem Sie => [("mat_sie"%string, fun s => q_sie (Q s))]
  | Elem Sspd => [("mat_sspd"%string, fun s => q_sspd (Q s))]
  | Elem Mass => [("mat_mass"%string, fun s => q_mass (Q s))]
  | Volfrac => [("mat_volfrac"%string, fun s => q_vf (Q s)); ("mat_geo_volfrac"%string, fun s => q_gvf (Q s))]
  | Eroded => [("mat_eroded"%string, fun s => if q_eroded (Q s) then 1 else 0)]
  | Elem Stress => []
  end.
Definition mat_tensor (Q : nat -> mpoint) (f : mfield) : list (string * (nat -> nat -> nat -> R)) :=
  match f with Elem Stress => [("mat_stress"%string, fun s => q_stress (Q s))] | _ => [] end.

(** *** Schedules: every FOR_ALL runs each iteration once *)
Definition elem_sched (L : layout) (sched : nat -> efield -> list nat) : Prop :=
  forall m f, (m < num_mats L)%nat -> Permutation (sched m f) (seq 0 (num_mat_elems L m)).
Definition loop_sched {F} (n : nat) (sched : F -> list nat) : Prop := forall f, Permutation (sched f) (seq 0 n).
