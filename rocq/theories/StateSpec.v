(** What acceptance, allocation and storage should mean. *)
From Coq Require Import List Arith.
From Verif Require Import StateModel.
Import ListNotations.

(** Some region block of the input names the field. *)
Definition node_given (regions : list (list word)) (f : fill_node) : Prop := exists r, In r regions /\ In (WNode f) r.
Definition gauss_given (regions : list (list word)) (f : fill_gauss) : Prop := exists r, In r regions /\ In (WGauss f) r.

(** The arrays that hold a nodal field, and their sizes. *)
Definition node_arrays (nodes dims : nat) (f : node_field) : list (node_array * nat) :=
  match f with
  | NCoords => [(Coords, nodes * dims); (Coords0, nodes * dims)]
  | NVelocity => [(Vel, nodes * dims); (Vel0, nodes * dims)]
  | NMass => [(Mass, nodes)]
  | NTemp => [(Temp, nodes); (Temp0, nodes)]
  | NHeat => [(QTransfer, nodes)]
  | NForce => [(Force, nodes * dims)]
  | NGradLS => [(GradLS, nodes * dims)]
  end.
Definition fill_arrays (gauss mats dims : nat) (f : fill_gauss) : list (fg_array * nat) :=
  match f with
  | FDensity => [(Den, gauss * mats)]
  | FStress => [(Stress, gauss * mats * dims * dims)]
  | FSie => [(Sie, gauss * mats); (UseSie, gauss * mats)]
  | FIe => [(Ie, gauss * mats); (UseSie, gauss * mats)]
  | FElastic => [(Elastic, gauss * mats * 3)]
  | FShear => [(Shear, gauss * mats * 3)]
  | FPoisson => [(Poisson, gauss * mats * 3)]
  | FConductivity => [(Cond, gauss * mats)]
  | FSpecificHeat => [(SpecHeat, gauss * mats)]
  | FLevelSet => [(LevelSet, gauss * mats)]
  end.

Definition gp_arrays (pts dims : nat) (f : gp_field) : list (gp_array * nat) :=
  match f with
  | GFVolume => [(GVol, pts)]
  | GFDiv => [(GDiv, pts)]
  | GFGradVel => [(GVelGrad, pts * dims * dims)]
  | GFLevelSet => [(GLevelSet, pts); (GLevelSet0, pts)]
  end.
Definition mp_arrays (pts dims : nat) (f : mp_field) : list (mp_array * nat) :=
  match f with
  | PDensity => [(MDen, pts)]
  | PPressure => [(MPres, pts)]
  | PStress => [(MStress, pts * dims * dims); (MStress0, pts * dims * dims)]
  | PElastic => [(MElastic, pts * 3)]
  | PShear => [(MShear, pts * 3)]
  | PPoisson => [(MPoisson, pts * 3)]
  | PSoundSpeed => [(MSspd, pts)]
  | PMass => [(MMass, pts)]
  | PVolfrac => [(MVolfrac, pts); (MGeoVolfrac, pts); (MDeltaVolfrac, pts); (MDeltaGeoVolfrac, pts)]
  | PSie => [(MSie, pts); (MSie0, pts)]
  | PHeatFlux => [(MQFlux, pts * dims)]
  | PConductivity => [(MCond, pts)]
  | PSpecificHeat => [(MSpecHeat, pts)]
  | PEroded => [(MEroded, pts)]
  end.
Definition cn_arrays (corners dims : nat) (f : cn_field) : list (cn_array * nat) :=
  match f with
  | CFForce => [(CForce, corners * dims)]
  | CFMass => [(CMass, corners)]
  | CFHeat => [(CQTransfer, corners)]
  | CFNormal => [(CNormal, corners * dims)]
  | CFVolume => [(CVolume, corners)]
  end.
