(** From fill arrays to material storage: counting, maps and material points.
    Models /repo/apps/multiphysics/src/common/src/region_fill.cpp, simulation_setup (131-165) and material_state_setup (683-845).
    Arrays for den, mass, sie, conductivity and specific_heat are modelled as one array of records: a field that the
    solver did not allocate is skipped by the code and has no meaning in the model.  The eroded flag (false) and the
    MaterialZones branch (never allocated by any solver) are left out. *)
From Verif Require Export BaseArr FillModel.

(** A ragged array: row m has [rsize m] entries. *)
Record ragged (A : Type) := mkRagged { rrows : nat; rsize : nat -> nat; rdat : nat -> nat -> option A }.
Arguments mkRagged {A}.
Arguments rrows {A}.
Arguments rsize {A}.
Arguments rdat {A}.
Definition new_ragged {A} (rows : nat) (size : nat -> nat) : ragged A := mkRagged rows size (fun _ _ => None).
Definition rset {A} (x : ragged A) (m s : nat) (v : A) : option (ragged A) :=
  if (Nat.ltb m (rrows x) && Nat.ltb s (rsize x m))%bool
  then Some (mkRagged (rrows x) (rsize x) (fun m' s' => if (Nat.eqb m' m && Nat.eqb s' s)%bool then Some v else rdat x m' s'))
  else None.
Definition rget {A} (x : ragged A) (m s : nat) : option A :=
  if (Nat.ltb m (rrows x) && Nat.ltb s (rsize x m))%bool then rdat x m s else None.

(** The sizes and the arrays written by fill_regions. *)
Record fills := mkFills {
  in_ne : nat; in_ng : nat; in_max : nat; in_mats : nat;
  in_num : nat -> nat; in_mat : nat -> nat -> nat;              (* num_mats_in_elem, mats_in_elem *)
  in_vf : nat -> nat -> R; in_geo : nat -> nat -> R;            (* fillElemState *)
  in_vol : nat -> R;                                            (* GaussPoints.vol *)
  in_den : nat -> nat -> R; in_use_sie : nat -> nat -> bool; in_sie : nat -> nat -> R; in_ie : nat -> nat -> R;
  in_cond : nat -> nat -> R; in_heat : nat -> nat -> R; in_ls : nat -> nat -> R }.

Record point := mkPoint { pt_vf : R; pt_geo : R; pt_den : R; pt_mass : R; pt_sie : val; pt_cond : R; pt_heat : R }.

(** num_elems_saved_for_mat in simulation_setup, 138-160. *)
Definition num_saved (f : fills) (m : nat) : nat :=
  list_sum (map (fun e => length (filter (fun a => Nat.eqb (in_mat f e a) m) (seq 0 (in_num f e)))) (seq 0 (in_ne f))).
(** num_material_points_buffer, 199-202. *)
Definition num_points (f : fills) (m : nat) : nat := (num_saved f m * in_ng f)%nat.

Record store := mkStore {
  st_saved : nat -> nat;                 (* the second num_elems_saved_for_mat, 703-708 *)
  st_elem : ragged nat;                  (* elem_in_mat_elem *)
  st_slot : arr nat;                     (* mat_elems_in_elem *)
  st_point : ragged point;
  st_ls : nat -> R }.                    (* GaussPoints.level_set *)
Definition store0 (f : fills) : store :=
  mkStore (fun _ => 0%nat) (new_ragged (in_mats f) (num_saved f)) (new_arr (in_ne f) (in_max f)) (new_ragged (in_mats f) (num_points f)) (fun _ => 1e32).

(** The energy, 777-786; dividing by a zero mass is not a number (or infinite). *)
Definition setup_sie (f : fills) (gid a : nat) (mass : R) : val :=
  if in_use_sie f gid a then Num (in_sie f gid a) else if Req_EM_T mass 0 then NaN else Num (in_ie f gid a / mass).
(** The values saved for one gauss point, 745-800. *)
Definition setup_point (f : fills) (e a gid : nat) : point :=
  let mat_vol := in_vol f gid * in_vf f e a * in_geo f e a in
  let mass := in_den f gid a * mat_vol in
  mkPoint (in_vf f e a) (in_geo f e a) (in_den f gid a) mass (setup_sie f gid a mass) (in_cond f gid a) (in_heat f gid a).

(** The loop over the gauss points, 743-815. *)
Definition setup_gauss (f : fills) (e a mat sid : nat) (g : nat) (s : ragged point * (nat -> R)) : option (ragged point * (nat -> R)) :=
  let '(pts, ls) := s in
  let gid := (e + g)%nat in
  if (Nat.ltb gid (in_ne f * in_ng f) && Nat.ltb a (in_max f))%bool then
    obind (rset pts mat (sid + g) (setup_point f e a gid)) (fun pts' =>
    Some (pts', fun x => if Nat.eqb x gid then fmin (ls gid) (in_ls f gid a) else ls x))
  else None.

(** One material slot of one element, 725-840. *)
Definition setup_slot (f : fills) (e a : nat) (st : store) : option store :=
  if Nat.ltb a (in_max f) then
    let mat := in_mat f e a in
    if Nat.ltb mat (in_mats f) then
      let sid := st_saved st mat in
      obind (rset (st_elem st) mat sid e) (fun el =>
      obind (aset (st_slot st) e a sid) (fun sl =>
      obind (for_up 0 (in_ng f) (setup_gauss f e a mat sid) (st_point st, st_ls st)) (fun '(pts, ls) =>
      Some (mkStore (fun m => if Nat.eqb m mat then S (st_saved st m) else st_saved st m) el sl pts ls))))
    else None
  else None.

(** material_state_setup, the serial loop 722-843. *)
Definition material_state_setup (f : fills) : option store :=
  for_up 0 (in_ne f) (fun e st => for_up 0 (in_num f e) (fun a st => setup_slot f e a st) st) (store0 f).
