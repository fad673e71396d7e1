(** Required-state checks, allocation of state arrays and per-material storage indices.
    Paths are relative to /repo/apps/multiphysics/src. *)
From Coq Require Export List Arith Bool Lia.
Export ListNotations.

(** ** What the region blocks of the input fill *)

(** enum class fill_node_state, common/include/state.hpp:42-46, and fill_gauss_state, 48-60. *)
Inductive fill_node := FNVelocity | FNTemperature.
Inductive fill_gauss :=
| FDensity | FStress | FSie | FIe | FElastic | FShear | FPoisson | FConductivity | FSpecificHeat | FLevelSet.

Definition fill_node_eqb (a b : fill_node) : bool :=
  match a, b with FNVelocity, FNVelocity | FNTemperature, FNTemperature => true | _, _ => false end.
Definition fill_gauss_eqb (a b : fill_gauss) : bool :=
  match a, b with
  | FDensity, FDensity | FStress, FStress | FSie, FSie | FIe, FIe | FElastic, FElastic | FShear, FShear
  | FPoisson, FPoisson | FConductivity, FConductivity | FSpecificHeat, FSpecificHeat | FLevelSet, FLevelSet => true
  | _, _ => false
  end.

(** A word of a region block that names a field (other words do not touch the lists): input/parse_regions.cpp:147-157
    (density), 254-264 (specific_internal_energy), 354-364 (internal_energy), 453-463 (specific_heat),
    553-563 (thermal_conductivity), 817-827 (temperature), 918-928 (level_set), 1084-1094 (velocity). *)
Inductive word := WNode (f : fill_node) | WGauss (f : fill_gauss).

(** "store the name if it has not been stored already", parse_regions.cpp:149-157. *)
Definition store {A} (eqb : A -> A -> bool) (l : list A) (f : A) : list A :=
  if existsb (fun g => eqb g f) l then l else l ++ [f].

Definition parse_word (st : list fill_node * list fill_gauss) (w : word) : list fill_node * list fill_gauss :=
  match w with
  | WNode f => (store fill_node_eqb (fst st) f, snd st)
  | WGauss f => (fst st, store fill_gauss_eqb (snd st) f)
  end.

(** The loop over the regions and their words, parse_regions.cpp:109-113; [None] is the exception of 1507-1509,
    raised after the first region that leaves the gauss list empty. *)
Fixpoint parse_regions (regions : list (list word)) (st : list fill_node * list fill_gauss) : option (list fill_node * list fill_gauss) :=
  match regions with
  | [] => Some st
  | r :: rs =>
    let st := fold_left parse_word r st in
    match snd st with [] => None | _ => parse_regions rs st end
  end.
Definition fill_states (regions : list (list word)) := parse_regions regions ([], []).

(** check_fill_node_states, state.hpp:194-217, and check_fill_mat_states, 222-245. *)
Definition count_fill {A} (eqb : A -> A -> bool) (required filled : list A) : nat :=
  fold_left (fun c r => fold_left (fun c f => if eqb f r then S c else c) filled c) required 0.
Definition check_fill {A} (eqb : A -> A -> bool) (required filled : list A) : bool :=
  Nat.eqb (count_fill eqb required filled) (length required).

(** Requirements of a solver: nodal list, option A, option B. *)
Record requirements := mkReq { rq_node : list fill_node; rq_optA : list fill_gauss; rq_optB : list fill_gauss }.
(** Solvers/SGH_solver_3D/include/sgh_solver_3D.hpp:103-119 *)
Definition sgh_req := mkReq [FNVelocity] [FDensity; FSie] [FDensity; FIe].
(** Solvers/SGTM_solver_3D/include/sgtm_solver_3D.hpp:106-128 *)
Definition sgtm_req := mkReq [FNVelocity; FNTemperature]
  [FDensity; FSie; FConductivity; FSpecificHeat] [FDensity; FIe; FConductivity; FSpecificHeat].

(** SGH3D::initialize and initialize_material_state, Solvers/SGH_solver_3D/src/sgh_initialize.cpp:62-72 and 96-117;
    SGTM3D, Solvers/SGTM_solver_3D/src/sgtm_initialize.cpp:58-69 and 91-113: true = no exception. *)
Definition accepts (rq : requirements) (fills : list fill_node * list fill_gauss) : bool :=
  check_fill fill_node_eqb (rq_node rq) (fst fills)
  && (check_fill fill_gauss_eqb (rq_optA rq) (snd fills) || check_fill fill_gauss_eqb (rq_optB rq) (snd fills)).

(** ** Allocation *)

(** The size() of each array; 0 before allocation. An allocation statement is (array tested, array allocated, its size). *)
Definition sizes (name : Type) := name -> nat.
Definition alloc_stmt {name} (eqb : name -> name -> bool) (st : sizes name) (a : name * name * nat) : sizes name :=
  let '(tested, target, n) := a in
  if Nat.eqb (st tested) 0 then fun x => if eqb x target then n else st x else st.
Definition initialize {name fld} (eqb : name -> name -> bool) (cases : fld -> list (name * name * nat)) (fields : list fld) (st : sizes name) : sizes name :=
  fold_left (fun st f => fold_left (alloc_stmt eqb) (cases f) st) fields st.

(** node_t::initialize, state.hpp:284-318. *)
Inductive node_array := Coords | Coords0 | Vel | Vel0 | Force | Mass | Temp | Temp0 | QTransfer | GradLS.
Inductive node_field := NCoords | NVelocity | NMass | NTemp | NHeat | NForce | NGradLS.
Definition node_array_eqb (a b : node_array) : bool :=
  match a, b with
  | Coords, Coords | Coords0, Coords0 | Vel, Vel | Vel0, Vel0 | Force, Force | Mass, Mass | Temp, Temp | Temp0, Temp0
  | QTransfer, QTransfer | GradLS, GradLS => true
  | _, _ => false
  end.
Definition node_cases (nodes dims : nat) (f : node_field) : list (node_array * node_array * nat) :=
  match f with
  | NCoords => [(Coords, Coords, nodes * dims); (Coords0, Coords0, nodes * dims)]
  | NVelocity => [(Vel, Vel, nodes * dims); (Vel0, Vel0, nodes * dims)]
  | NForce => [(Force, Force, nodes * dims)]
  | NMass => [(Mass, Mass, nodes)]
  | NTemp => [(Temp, Temp, nodes); (Temp0, Temp0, nodes)]
  | NHeat => [(QTransfer, QTransfer, nodes)]
  | NGradLS => [(GradLS, GradLS, nodes * dims)]
  end.

(** fillGaussState_t::initialize, state.hpp:93-152: the internal_energy case (127-132) tests sie, not ie. *)
Inductive fg_array := Den | Stress | Elastic | Shear | Poisson | Sie | UseSie | Ie | Cond | SpecHeat | LevelSet.
Definition fg_array_eqb (a b : fg_array) : bool :=
  match a, b with
  | Den, Den | Stress, Stress | Elastic, Elastic | Shear, Shear | Poisson, Poisson | Sie, Sie | UseSie, UseSie | Ie, Ie
  | Cond, Cond | SpecHeat, SpecHeat | LevelSet, LevelSet => true
  | _, _ => false
  end.
Definition fg_cases (gauss mats dims : nat) (f : fill_gauss) : list (fg_array * fg_array * nat) :=
  match f with
  | FDensity => [(Den, Den, gauss * mats)]
  | FStress => [(Stress, Stress, gauss * mats * dims * dims)]
  | FElastic => [(Elastic, Elastic, gauss * mats * 3)]
  | FShear => [(Shear, Shear, gauss * mats * 3)]
  | FPoisson => [(Poisson, Poisson, gauss * mats * 3)]
  | FSie => [(Sie, Sie, gauss * mats); (UseSie, UseSie, gauss * mats)]
  | FIe => [(Sie, Ie, gauss * mats); (UseSie, UseSie, gauss * mats)]
  | FConductivity => [(Cond, Cond, gauss * mats)]
  | FSpecificHeat => [(SpecHeat, SpecHeat, gauss * mats)]
  | FLevelSet => [(LevelSet, LevelSet, gauss * mats)]
  end.

(** GaussPoint_t::initialize, state.hpp:349-372. *)
Inductive gp_array := GVol | GDiv | GVelGrad | GLevelSet | GLevelSet0.
Inductive gp_field := GFVolume | GFDiv | GFGradVel | GFLevelSet.
Definition gp_array_eqb (a b : gp_array) : bool :=
  match a, b with
  | GVol, GVol | GDiv, GDiv | GVelGrad, GVelGrad | GLevelSet, GLevelSet | GLevelSet0, GLevelSet0 => true
  | _, _ => false
  end.
Definition gp_cases (pts dims : nat) (f : gp_field) : list (gp_array * gp_array * nat) :=
  match f with
  | GFVolume => [(GVol, GVol, pts)]
  | GFDiv => [(GDiv, GDiv, pts)]
  | GFGradVel => [(GVelGrad, GVelGrad, pts * dims * dims)]
  | GFLevelSet => [(GLevelSet, GLevelSet, pts); (GLevelSet0, GLevelSet0, pts)]
  end.

(** MaterialPoint_t::initialize, state.hpp:524-590; the ragged arrays have num_material_points_buffer(mat) rows for each
    material, [pts] is the sum over the materials. *)
Inductive mp_array :=
| MDen | MPres | MStress | MStress0 | MElastic | MShear | MPoisson | MSspd | MMass | MVolfrac | MGeoVolfrac
| MDeltaVolfrac | MDeltaGeoVolfrac | MSie | MSie0 | MQFlux | MCond | MSpecHeat | MEroded | MTempGrad.
Inductive mp_field :=
| PDensity | PPressure | PStress | PElastic | PShear | PPoisson | PSoundSpeed | PMass | PVolfrac | PSie | PHeatFlux
| PConductivity | PSpecificHeat | PEroded.
Definition mp_array_eqb (a b : mp_array) : bool :=
  match a, b with
  | MDen, MDen | MPres, MPres | MStress, MStress | MStress0, MStress0 | MElastic, MElastic | MShear, MShear | MPoisson, MPoisson
  | MSspd, MSspd | MMass, MMass | MVolfrac, MVolfrac | MGeoVolfrac, MGeoVolfrac | MDeltaVolfrac, MDeltaVolfrac
  | MDeltaGeoVolfrac, MDeltaGeoVolfrac | MSie, MSie | MSie0, MSie0 | MQFlux, MQFlux | MCond, MCond | MSpecHeat, MSpecHeat
  | MEroded, MEroded | MTempGrad, MTempGrad => true
  | _, _ => false
  end.
Definition mp_cases (pts dims : nat) (f : mp_field) : list (mp_array * mp_array * nat) :=
  match f with
  | PDensity => [(MDen, MDen, pts)]
  | PPressure => [(MPres, MPres, pts)]
  | PStress => [(MStress, MStress, pts * dims * dims); (MStress0, MStress0, pts * dims * dims)]
  | PElastic => [(MElastic, MElastic, pts * 3)]
  | PShear => [(MShear, MShear, pts * 3)]
  | PPoisson => [(MPoisson, MPoisson, pts * 3)]
  | PSoundSpeed => [(MSspd, MSspd, pts)]
  | PMass => [(MMass, MMass, pts)]
  | PVolfrac => [(MVolfrac, MVolfrac, pts); (MGeoVolfrac, MGeoVolfrac, pts); (MDeltaVolfrac, MDeltaVolfrac, pts); (MDeltaGeoVolfrac, MDeltaGeoVolfrac, pts)]
  | PSie => [(MSie, MSie, pts); (MSie0, MSie0, pts)]
  | PHeatFlux => [(MQFlux, MQFlux, pts * dims)]
  | PConductivity => [(MCond, MCond, pts)]
  | PSpecificHeat => [(MSpecHeat, MSpecHeat, pts)]
  | PEroded => [(MEroded, MEroded, pts)]
  end.
Definition mp_initialize (pts dims : nat) (fields : list mp_field) (st : sizes mp_array) : sizes mp_array :=
  initialize mp_array_eqb (mp_cases pts dims) fields (alloc_stmt mp_array_eqb st (MTempGrad, MTempGrad, pts * 3)).

(** corner_t::initialize, state.hpp:735-763. *)
Inductive cn_array := CForce | CMass | CQTransfer | CNormal | CVolume.
Inductive cn_field := CFForce | CFMass | CFHeat | CFNormal | CFVolume.
Definition cn_array_eqb (a b : cn_array) : bool :=
  match a, b with CForce, CForce | CMass, CMass | CQTransfer, CQTransfer | CNormal, CNormal | CVolume, CVolume => true | _, _ => false end.
Definition cn_cases (corners dims : nat) (f : cn_field) : list (cn_array * cn_array * nat) :=
  match f with
  | CFForce => [(CForce, CForce, corners * dims)]
  | CFMass => [(CMass, CMass, corners)]
  | CFHeat => [(CQTransfer, CQTransfer, corners)]
  | CFNormal => [(CNormal, CNormal, corners * dims)]
  | CFVolume => [(CVolume, CVolume, corners)]
  end.

(** ** Storage indices *)

(** corners_in_mat_t, zones_in_mat_t, gauss_in_mat_t, lobatto_in_mat_t, points_in_mat_t, host() and operator(),
    state.hpp:774-930: n entities per element. *)
Definition index_in_mat (n : nat) (mat_storage_lid lid : nat) : nat := mat_storage_lid * n + lid.

(** The number of material points, corners and zones of a material, common/src/region_fill.cpp:192-199. *)
Definition num_storage (num_mat_elems n : nat) : nat := num_mat_elems * n.

(** The gauss point index used when a region is filled: region_fill.cpp:465 and 755. *)
Definition fill_gauss_gid (elem_gid gauss_lid : nat) : nat := elem_gid + gauss_lid.
