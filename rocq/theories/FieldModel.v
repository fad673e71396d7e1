(** Model of the fields written to the graphics files:
    - the output lists of the input file, /repo/apps/multiphysics/src/input/parse_output_options.cpp:128-240 with the maps of
      common/include/output_options.hpp:72-117;
    - names, slots and values of the element and nodal fields, common/include/mesh_io.hpp: MeshWriter::write_mesh 2084-2598,
      concatenate_elem_fields 3663-3868, concatenate_nodal_fields 4046-4155, and of the fields of one material,
      write_mesh 2234-2311, concatenate_mat_fields 3887-4025.
    Doubles are reals.  An access outside an array, the index -1 and a division by zero are [None].  Tensor and vector arrays are
    rows of flattened entries (CArray is row major: entry (i,j) of element e is column 9 e + 3 i + j).  Host and device copies are
    one array.  The iterations of every FOR_ALL over material elements or nodes run in an arbitrary order.  Fields that no word of
    the input file selects (divergence, conductivity, specific heat, moduli, heat flux) are left out. *)
From Coq Require Import Reals String.
From Verif Require Import BaseArr BaseReal.
From Verif Require Import SghModel.
Open Scope string_scope.

(** *** Names of the input file: output_options.hpp:72-117 *)
Inductive efield := Den | Pres | Stress | Sie | Sspd | Mass.
Inductive mfield := Elem (f : efield) | Volfrac | Eroded.
Inductive gfield := Vol | Level | VelGrad.
Inductive nfield := NCoords | NVel | NTemp | NMass | NForce | NGrad.

Definition elem_word (w : string) : option efield :=
  if string_dec w "den" then Some Den else if string_dec w "pres" then Some Pres else if string_dec w "stress" then Some Stress
  else if string_dec w "sie" then Some Sie else if string_dec w "sspd" then Some Sspd else if string_dec w "mass" then Some Mass else None.
Definition mat_word (w : string) : option mfield :=
  if string_dec w "volfrac" then Some Volfrac else if string_dec w "eroded" then Some Eroded else option_map Elem (elem_word w).
Definition gauss_word (w : string) : option gfield :=
  if string_dec w "volume" then Some Vol else if string_dec w "level_set" then Some Level else if string_dec w "vel_grad" then Some VelGrad else None.
Definition node_word (w : string) : option nfield :=
  if string_dec w "coords" then Some NCoords else if string_dec w "vel" then Some NVel else if string_dec w "temp" then Some NTemp
  else if string_dec w "mass" then Some NMass else if string_dec w "force" then Some NForce else if string_dec w "grad_level_set" then Some NGrad else None.

(** the loops over the words: parse_output_options.cpp:133-147, 178-192, 199-213, 220-234 (an unknown word throws) *)
Definition words {F} (word : string -> option F) (ws : list string) : option (list F) :=
  for_each ws (fun w fs => obind (word w) (fun f => Some (fs ++ [f])%list)) [].

Definition efield_eqb (f g : efield) : bool :=
  match f, g with Den, Den | Pres, Pres | Stress, Stress | Sie, Sie | Sspd, Sspd | Mass, Mass => true | _, _ => false end.

(** 149-168: mass is added when the specific internal energy is wanted *)
Definition with_mass (fs : list efield) : list efield :=
  if existsb (efield_eqb Sie) fs && negb (existsb (efield_eqb Mass) fs) then (fs ++ [Mass])%list else fs.
Definition parse_elem (ws : list string) : option (list efield) := option_map with_mass (words elem_word ws).

(** *** State: material points, element and node values *)
Record mpoint := mkPoint { q_den : R; q_pres : R; q_sie : R; q_sspd : R; q_mass : R; q_vf : R; q_gvf : R; q_stress : nat -> nat -> R; q_eroded : bool }.
Record elemv := mkElemv { g_vol : nat -> R; g_level : nat -> R; g_velgrad : nat -> nat -> nat -> R }.
Record nodev := mkNodev { n_x : nat -> nat -> R; n_v : nat -> nat -> R; n_v0 : nat -> nat -> R; n_temp : nat -> R; n_mass : nat -> R; n_grad : nat -> nat -> R }.

(** *** Names and slots.  The name vectors are arrays with one column; an id that was never set is -1 ([None]). *)
Record slots (K : Type) := mkSlots { sl_names : arr string; sl_tnames : arr string; sl_var : nat; sl_tvar : nat; sl_id : K -> option nat }.
Arguments mkSlots {K}. Arguments sl_names {K}. Arguments sl_tnames {K}. Arguments sl_var {K}. Arguments sl_tvar {K}. Arguments sl_id {K}.

(** e.g. mesh_io.hpp:2338-2341: [names[var] = name; id = var; var++] *)
Definition scalar_slot {K} (dec : forall x y : K, {x = y} + {x <> y}) (i : K) (name : string) (s : slots K) : option (slots K) :=
  obind (aset (sl_names s) (sl_var s) 0 name) (fun n =>
  Some (mkSlots n (sl_tnames s) (S (sl_var s)) (sl_tvar s) (fun x => if dec x i then Some (sl_var s) else sl_id s x))).
(** the same for the tensors (of elements) or vectors (of nodes), e.g. 2364-2368 *)
Definition tensor_slot {K} (dec : forall x y : K, {x = y} + {x <> y}) (i : K) (name : string) (s : slots K) : option (slots K) :=
  obind (aset (sl_tnames s) (sl_tvar s) 0 name) (fun n =>
  Some (mkSlots (sl_names s) n (sl_var s) (S (sl_tvar s)) (fun x => if dec x i then Some (sl_tvar s) else sl_id s x))).
(** all ids -1 and the counters 0, 2194-2219, 2313-2332, 2478-2492 *)
Definition no_slots {K} (scalars tensors : nat) : slots K := mkSlots (new_arr scalars 1) (new_arr tensors 1) 0 0 (fun _ => None).

(** *** Element fields: counting, write_mesh 2084-2132 and 2134-2163 *)
Definition tensor_field (f : efield) : bool := match f with Stress => true | _ => false end.
Definition tensor_gfield (f : gfield) : bool := match f with VelGrad => true | _ => false end.
Definition count {F} (p : F -> bool) (fs : list F) : nat := fold_left (fun n f => if p f then S n else n) fs 0.
Definition num_elem_scalars (fs : list efield) (gs : list gfield) : nat := count (fun f => negb (tensor_field f)) fs + count (fun g => negb (tensor_gfield g)) gs.
Definition num_elem_tensors (fs : list efield) (gs : list gfield) : nat := count tensor_field fs + count tensor_gfield gs.

(** den_id, ..., vol_id, ... *)
Inductive ekey := E (f : efield) | G (g : gfield).
Definition ekey_dec (x y : ekey) : {x = y} + {x <> y}.
Proof. repeat decide equality. Defined.

(** the names and the slots: 2334-2433 *)
Definition ename (f : efield) : string :=
  match f with Den => "den" | Pres => "pres" | Stress => "stress" | Sie => "sie" | Sspd => "sspd" | Mass => "mass" end.
Definition gname (g : gfield) : string := match g with Vol => "vol" | Level => "level_set" | VelGrad => "vel_grad" end.
Definition slot_e (f : efield) : slots ekey -> option (slots ekey) :=
  (if tensor_field f then tensor_slot else scalar_slot) ekey_dec (E f) (ename f).
Definition slot_g (g : gfield) : slots ekey -> option (slots ekey) :=
  (if tensor_gfield g then tensor_slot else scalar_slot) ekey_dec (G g) (gname g).
Definition elem_slots (fs : list efield) (gs : list gfield) : option (slots ekey) :=
  obind (for_each fs slot_e (no_slots (num_elem_scalars fs gs) (num_elem_tensors fs gs))) (for_each gs slot_g).

(** *** Element averages: concatenate_elem_fields *)
Definition addto (a : arr R) (r c : nat) (v : R) : option (arr R) := obind (aget a r c) (fun x => aset a r c (x + v)%R).

(** the term added for one material point, 3697-3772; one entry for a scalar, nine for the stress *)
Definition term (f : efield) (q : mpoint) (i j : nat) : R :=
  match f with
  | Den => q_den q * q_vf q * q_gvf q | Pres => q_pres q * q_vf q * q_gvf q | Sspd => q_sspd q * q_vf q * q_gvf q
  | Sie => q_mass q * q_sie q | Mass => q_mass q | Stress => q_stress q i j * q_vf q * q_gvf q
  end%R.
Definition nine : list (nat * nat) := flat_map (fun i => map (fun j => (i, j)) (seq 0 3)) (seq 0 3).

(** one field of one material, 3690-3776; [order] is the schedule of the FOR_ALL *)
Definition add_field (L : layout) (Q : nat -> nat -> mpoint) (ids : ekey -> option nat) (mat : nat) (order : list nat) (f : efield)
  (a : arr R * arr R) : option (arr R * arr R) :=
  obind (ids (E f)) (fun id =>
  if tensor_field f then
    obind (for_each order (fun sid t =>
      for_each nine (fun '(i, j) t => addto t id (elem_in_mat L mat sid * 9 + 3 * i + j) (term f (Q mat sid) i j)) t) (snd a)) (fun t =>
    Some (fst a, t))
  else
    obind (for_each order (fun sid s => addto s id (elem_in_mat L mat sid) (term f (Q mat sid) 0 0)) (fst a)) (fun s => Some (s, snd a))).

(** one field of the elements, 3822-3863 (the loop over elements writes each entry once) *)
Definition put_gauss (ne : nat) (V : elemv) (ids : ekey -> option nat) (g : gfield) (a : arr R * arr R) : option (arr R * arr R) :=
  obind (ids (G g)) (fun id =>
  match g with
  | VelGrad =>
      obind (for_up 0 ne (fun e t => for_each nine (fun '(i, j) t => aset t id (e * 9 + 3 * i + j) (g_velgrad V e i j)) t) (snd a)) (fun t =>
      Some (fst a, t))
  | Vol => obind (for_up 0 ne (fun e s => aset s id e (g_vol V e)) (fst a)) (fun s => Some (s, snd a))
  | Level => obind (for_up 0 ne (fun e s => aset s id e (g_level V e)) (fst a)) (fun s => Some (s, snd a))
  end).

Definition concat_mat (ne : nat) (L : layout) (Q : nat -> nat -> mpoint) (V : elemv) (fs : list efield) (gs : list gfield) (sl : slots ekey)
  (sched : nat -> efield -> list nat) (mat : nat) (a : arr R * arr R) : option (arr R * arr R) :=
  obind (for_each fs (fun f => add_field L Q (sl_id sl) mat (sched mat f) f) a)
        (for_each gs (put_gauss ne V (sl_id sl))).

(** 2576-2581 *)
Definition divide (ne : nat) (sl : slots ekey) (s : arr R) : option (arr R) :=
  match sl_id sl (E Sie) with
  | None => Some s
  | Some k =>
      for_up 0 ne (fun e s =>
        obind (sl_id sl (E Mass)) (fun km => obind (aget s km e) (fun m => obind (aget s k e) (fun x =>
        if Req_EM_T (m + 1e-20) 0 then None else aset s k e (x / (m + 1e-20))%R)))) s
  end.

Definition zeros (r c : nat) : arr R := mkArr r c (fun _ _ => Some 0%R).

(** what is handed to write_vtu: names and values of the scalar and the tensor fields of the elements; write_mesh 2084-2585 *)
Record efields := mkEfields { ef_names : arr string; ef_tnames : arr string; ef_scalars : arr R; ef_tensors : arr R }.
Definition elem_fields (ne : nat) (L : layout) (Q : nat -> nat -> mpoint) (V : elemv) (fs : list efield) (gs : list gfield)
  (sched : nat -> efield -> list nat) : option efields :=
  obind (elem_slots fs gs) (fun sl =>
  obind (for_up 0 (num_mats L) (concat_mat ne L Q V fs gs sl sched)
           (zeros (num_elem_scalars fs gs) ne, zeros (num_elem_tensors fs gs) (ne * 9))) (fun '(s, t) =>
  obind (divide ne sl s) (fun s => Some (mkEfields (sl_names sl) (sl_tnames sl) s t)))).

(** *** Nodal fields: write_mesh 2436-2530, concatenate_nodal_fields 4059-4150.  The arrays are not initialised. *)
Definition nvectors (f : nfield) : nat := match f with NCoords | NGrad => 1 | NVel => 2 | _ => 0 end.
Definition nscalars (f : nfield) : nat := match f with NTemp | NMass => 1 | _ => 0 end.
Definition num_node_scalars (fs : list nfield) : nat := fold_left (fun n f => n + nscalars f) fs 0.
Definition num_node_vectors (fs : list nfield) : nat := fold_left (fun n f => n + nvectors f) fs 0.

Inductive nid := IMass | ITemp | ICoord | IVel | IAccel | IGrad.
Definition nid_dec (x y : nid) : {x = y} + {x <> y}.
Proof. decide equality. Defined.
Definition node_slot (f : nfield) (s : slots nid) : option (slots nid) :=
  match f with
  | NMass => scalar_slot nid_dec IMass "node_mass" s
  | NTemp => scalar_slot nid_dec ITemp "node_temp" s
  | NCoords => tensor_slot nid_dec ICoord "node_coords" s
  | NVel => obind (tensor_slot nid_dec IVel "node_vel" s) (tensor_slot nid_dec IAccel "node_accel")
  | NGrad => tensor_slot nid_dec IGrad "node_grad_lvlset" s
  | NForce => Some s
  end.
Definition node_slots (fs : list nfield) : option (slots nid) :=
  for_each fs node_slot (no_slots (num_node_scalars fs) (num_node_vectors fs)).

(** the three components of a vector at a node; the third one is zero in two dimensions *)
Definition vec3 (dims k n : nat) (v : nat -> R) : list (write R) :=
  [(k, n * 3, v 0); (k, n * 3 + 1, v 1); (k, n * 3 + 2, if Nat.eqb dims 2 then 0%R else v 2)].

(** 4079-4093: for 3D meshes the third component goes to node [node_coord_id] instead of [node_gid] *)
Definition coord3 (dims k n : nat) (v : nat -> R) : list (write R) :=
  [(k, n * 3, v 0); (k, n * 3 + 1, v 1); if Nat.eqb dims 2 then (k, n * 3 + 2, 0%R) else (k, k * 3 + 2, v 2)].

(** one field, 4060-4148 *)
Definition put_node (dims : nat) (dt : R) (X : nodev) (sl : slots nid) (order : list nat) (f : nfield) (a : arr R * arr R) : option (arr R * arr R) :=
  match f with
  | NMass => obind (sl_id sl IMass) (fun k => obind (for_each order (fun n s => aset s k n (n_mass X n)) (fst a)) (fun s => Some (s, snd a)))
  | NTemp => obind (sl_id sl ITemp) (fun k => obind (for_each order (fun n s => aset s k n (n_temp X n)) (fst a)) (fun s => Some (s, snd a)))
  | NCoords => obind (sl_id sl ICoord) (fun k =>
      obind (for_each order (fun n v => do_writes (coord3 dims k n (n_x X n)) v) (snd a)) (fun v => Some (fst a, v)))
  | NVel => obind (sl_id sl IVel) (fun k => obind (sl_id sl IAccel) (fun ka =>
      if Req_EM_T dt 0 then None else
      obind (for_each order (fun n v =>
        do_writes (vec3 dims k n (n_v X n) ++ vec3 dims ka n (fun d => ((n_v X n d - n_v0 X n d) / dt)%R))%list v) (snd a)) (fun v => Some (fst a, v))))
  | NGrad => obind (sl_id sl IGrad) (fun k =>
      obind (for_each order (fun n v => do_writes (vec3 dims k n (n_grad X n)) v) (snd a)) (fun v => Some (fst a, v)))
  | NForce => Some a
  end.

Record nfields := mkNfields { nf_names : arr string; nf_vnames : arr string; nf_scalars : arr R; nf_vectors : arr R }.
Definition node_fields (nn dims : nat) (dt : R) (X : nodev) (fs : list nfield) (sched : nfield -> list nat) : option nfields :=
  obind (node_slots fs) (fun sl =>
  obind (for_each fs (fun f => put_node dims dt X sl (sched f) f) (new_arr (num_node_scalars fs) nn, new_arr (num_node_vectors fs) (nn * 3))) (fun '(s, v) =>
  Some (mkNfields (sl_names sl) (sl_tnames sl) s v))).

(** *** Fields of one material: write_mesh 2042-2082, 2234-2311, 2720-2752; concatenate_mat_fields 3906-4003.  The arrays are not initialised. *)
Definition mscalars (f : mfield) : nat := match f with Elem Stress => 0 | Volfrac => 2 | _ => 1 end.
Definition mtensors (f : mfield) : nat := match f with Elem Stress => 1 | _ => 0 end.
Definition num_mat_scalars (fs : list mfield) : nat := fold_left (fun n f => n + mscalars f) fs 0.
Definition num_mat_tensors (fs : list mfield) : nat := fold_left (fun n f => n + mtensors f) fs 0.
Inductive mid := MDen | MPres | MSie | MSspd | MMass | MVolfrac | MGeo | MEroded | MStress.
Definition mid_dec (x y : mid) : {x = y} + {x <> y}.
Proof. decide equality. Defined.
Definition mat_slot (f : mfield) (s : slots mid) : option (slots mid) :=
  match f with
  | Elem Den => scalar_slot mid_dec MDen "mat_den" s
  | Elem Pres => scalar_slot mid_dec MPres "mat_pres" s
  | Elem Sie => scalar_slot mid_dec MSie "mat_sie" s
  | Elem Sspd => scalar_slot mid_dec MSspd "mat_sspd" s
  | Elem Mass => scalar_slot mid_dec MMass "mat_mass" s
  | Volfrac => obind (scalar_slot mid_dec MVolfrac "mat_volfrac" s) (scalar_slot mid_dec MGeo "mat_geo_volfrac")
  | Eroded => scalar_slot mid_dec MEroded "mat_eroded" s
  | Elem Stress => tensor_slot mid_dec MStress "mat_stress" s
  end.
Definition mat_slots (fs : list mfield) : option (slots mid) :=
  for_each fs mat_slot (no_slots (num_mat_scalars fs) (num_mat_tensors fs)).

Definition put_scalar (order : list nat) (k : nat) (v : nat -> R) (s : arr R) : option (arr R) := for_each order (fun sid s => aset s k sid (v sid)) s.
Definition put_mat (Q : nat -> mpoint) (sl : slots mid) (order : list nat) (f : mfield) (a : arr R * arr R) : option (arr R * arr R) :=
  let scalar i v := obind (sl_id sl i) (fun k => obind (put_scalar order k v (fst a)) (fun s => Some (s, snd a))) in
  match f with
  | Elem Den => scalar MDen (fun sid => q_den (Q sid))
  | Elem Pres => scalar MPres (fun sid => q_pres (Q sid))
  | Elem Sie => scalar MSie (fun sid => q_sie (Q sid))
  | Elem Sspd => scalar MSspd (fun sid => q_sspd (Q sid))
  | Elem Mass => scalar MMass (fun sid => q_mass (Q sid))
  | Volfrac =>
      obind (sl_id sl MVolfrac) (fun k => obind (sl_id sl MGeo) (fun kg =>
      obind (put_scalar order k (fun sid => q_vf (Q sid)) (fst a)) (fun s => obind (put_scalar order kg (fun sid => q_gvf (Q sid)) s) (fun s =>
      Some (s, snd a)))))
  | Eroded => scalar MEroded (fun sid => if q_eroded (Q sid) then 1%R else 0%R)
  | Elem Stress => obind (sl_id sl MStress) (fun k =>
      obind (for_each order (fun sid t => for_each nine (fun '(i, j) t => aset t k (sid * 9 + 3 * i + j) (q_stress (Q sid) i j)) t) (snd a)) (fun t =>
      Some (fst a, t)))
  end.
Record mfields := mkMfields { mf_names : arr string; mf_tnames : arr string; mf_scalars : arr R; mf_tensors : arr R }.
Definition mat_fields (nme : nat) (Q : nat -> mpoint) (fs : list mfield) (sched : mfield -> list nat) : option mfields :=
  obind (mat_slots fs) (fun sl =>
  obind (for_each fs (fun f => put_mat Q sl (sched f) f) (new_arr (num_mat_scalars fs) nme, new_arr (num_mat_tensors fs) (nme * 9))) (fun '(s, t) =>
  Some (mkMfields (sl_names sl) (sl_tnames sl) s t))).
