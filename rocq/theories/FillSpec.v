(** What the region fills should do, stated without the fill loops. *)
From Coq Require Import Reals List Arith ZArith Permutation.
From Verif Require Import FillModel.
Import ListNotations.
Open Scope R_scope.

(** ** Shapes, by their inequalities *)
Definition dist2 (n : nat) (o c : nat -> R) : R := sumn n (fun d => (c d - o d) * (c d - o d)).
Definition between (lo hi : R) (x : R) : Prop := lo <= x <= hi.
(** r1 <= sqrt d2 <= r2 without a square root. *)
Definition shell (r1 r2 d2 : R) : Prop := (r1 <= 0 \/ r1 * r1 <= d2) /\ 0 <= r2 /\ d2 <= r2 * r2.
Definition in_shape (r : region) (object_id : Z) (c : nat -> R) : Prop :=
  match rg_volume r with
  | VGlobal => True
  | VBox => between (rg_x1 r) (rg_x2 r) (c 0%nat) /\ between (rg_y1 r) (rg_y2 r) (c 1%nat) /\ between (rg_z1 r) (rg_z2 r) (c 2%nat)
  | VCylinder => shell (rg_radius1 r) (rg_radius2 r) (dist2 2 (rg_origin r) c) /\ between (rg_z1 r) (rg_z2 r) (c 2%nat)
  | VSphere => shell (rg_radius1 r) (rg_radius2 r) (dist2 3 (rg_origin r) c)
  | VVtu => object_id = rg_part_id r
  | _ => False
  end.
(** A region that contains another one of the same kind. *)
Definition grows (r r' : region) : Prop :=
  rg_volume r = rg_volume r' /\ (forall d, rg_origin r d = rg_origin r' d) /\ rg_part_id r = rg_part_id r' /\
  rg_x1 r' <= rg_x1 r /\ rg_x2 r <= rg_x2 r' /\ rg_y1 r' <= rg_y1 r /\ rg_y2 r <= rg_y2 r' /\
  rg_z1 r' <= rg_z1 r /\ rg_z2 r <= rg_z2 r' /\ rg_radius1 r' <= rg_radius1 r /\ rg_radius2 r <= rg_radius2 r'.

(** ** Fills and elements *)
Definition covers (rf : list region) (sc : scene) (f e : nat) : bool :=
  match nth_error rf f with
  | Some r => match fill_geometric_region (sc_voxels sc f) (sc_object sc e) r (sc_center sc e) with Some 1%nat => true | _ => false end
  | None => false
  end.
(** The volume fraction the user asked for, clamped to [0,1]. *)
Definition asked_vf (rf : list region) (sc : scene) (f e : nat) : option R :=
  match nth_error rf f with
  | Some r => clamp_vf (get_region_scalar (sc_center sc e) (rg_vf r) (rg_vf_slope r) (rg_vf_origin r) (rg_vf_field r))
  | None => None
  end.
Definition is_full (rf : list region) (sc : scene) (f e : nat) : bool :=
  match asked_vf rf sc f e with Some v => if Rlt_dec v (1 - 1e-8) then false else true | None => false end.
(** Geometry and volume fraction are defined for every fill: no voxel file, no volume fraction of vortex type. *)
Definition defined (rf : list region) (sc : scene) (e : nat) : Prop :=
  forall f r, nth_error rf f = Some r ->
    fill_geometric_region (sc_voxels sc f) (sc_object sc e) r (sc_center sc e) <> None /\ asked_vf rf sc f e <> None.

(** Among the first n fills, f is kept in e: it covers e and no later one of them is a full fill covering e. *)
Definition kept (rf : list region) (sc : scene) (e n f : nat) : bool :=
  covers rf sc f e && forallb (fun g => negb (covers rf sc g e && is_full rf sc g e)) (seq (S f) (n - S f)).
Definition kept_list (rf : list region) (sc : scene) (e n : nat) : list nat := filter (kept rf sc e n) (seq 0 n).
(** The slot a kept fill should get. *)
Definition slot_of (rf : list region) (sc : scene) (e f : nat) : slot :=
  mkSlot f (if is_full rf sc f e then 1 else match asked_vf rf sc f e with Some v => v | None => 0 end) 1.
Definition slots (st : efill) : list slot := map (ef_slot st) (seq 0 (ef_num st)).

Definition schedule (ne : nat) (order : nat -> list nat) : Prop := forall f, Permutation (order f) (seq 0 ne).

(** ** Voxels *)
(** Points x0, x0+h, ...; the centre of voxel i. *)
Definition grid (x0 h : R) (p : nat) : R := x0 + INR p * h.
Definition voxel_center (x0 h : R) (i : nat) : R := x0 + (INR i + 0.5) * h.

Definition at3 (x y z : R) (d : nat) : R := match d with 0%nat => x | 1%nat => y | 2%nat => z | _ => 0 end.
