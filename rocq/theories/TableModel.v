(** Model of the property tables: common/include/table.hpp, common/include/additive_data.hpp,
    material_models/tabular/include/tabular_material_model.hpp, input/read_abaqus_files.cpp and the places where the
    solid thermo-mechanical solver uses them (paths below /repo/apps/multiphysics/src).

    A table is a checked array of reals: an entry never written (NaN in the code) and a read outside the array are
    [None]. Assertions that fail and exceptions are [None] too. Host and device copies are the same array. *)
From Verif Require Import BaseReal BaseArr StrModel.
Local Open Scope R_scope.

Definition Rleb (x y : R) : bool := if Rle_dec x y then true else false.
Definition Reqb (x y : R) : bool := if Req_EM_T x y then true else false.

(** table.hpp:141-160 (and 184-203, the same text), the loop over the segments *)
Fixpoint interp_loop (T : arr R) (x : R) (dep ind : nat) (l : list nat) : option R :=
  match l with
  | [] => Some 0
  | i :: l' =>
    obind (aget T i ind) (fun x0 =>
    obind (aget T (i + 1) ind) (fun x1 =>
    if Rleb x0 x && Rleb x x1 then
      if Reqb x1 x0 then aget T i dep
      else
        let alpha := (x - x0) / (x1 - x0) in
        obind (aget T i dep) (fun y0 =>
        obind (aget T (i + 1) dep) (fun y1 =>
        Some ((1 - alpha) * y0 + alpha * y1)))
    else interp_loop T x dep ind l'))
  end.

(** table.hpp:168-204 linear_interpolation and 125-161 linear_interpolation_host *)
Definition linear_interpolation (T : arr R) (x : R) (dep ind : nat) : option R :=
  if Nat.eqb (nrow T) 0 then Some 0
  else
    obind (aget T 0 ind) (fun xf =>
    if Rleb x xf then aget T 0 dep
    else
      obind (aget T (nrow T - 1) ind) (fun xl =>
      if Rleb xl x then aget T (nrow T - 1) dep
      else interp_loop T x dep ind (seq 0 (nrow T - 1)))).

(** table.hpp:103-118 verify_data; the isnan checks are the reads *)
Definition verify_sorted (T : arr R) (c : nat) : bool :=
  forallb (fun r => match aget T r c, aget T (r + 1) c with Some a, Some b => Rleb a b | _, _ => false end) (seq 0 (nrow T - 1)).
Definition verify_set (T : arr R) : bool :=
  forallb (fun r => forallb (fun c => match aget T r c with Some _ => true | None => false end) (seq 0 (ncol T))) (seq 0 (nrow T)).
Definition verify_data (T : arr R) (c : nat) : option (arr R) :=
  if Nat.ltb c (ncol T) && verify_sorted T c && verify_set T then Some T else None.

(** additive_data.hpp:77-83 set_data_point; a point is (time, x, y, z, power) *)
Record tool_point := mkTool { tp_time : R; tp_x : R; tp_y : R; tp_z : R; tp_power : R }.
Definition set_data_point (T : arr R) (i : nat) (p : tool_point) : option (arr R) :=
  do_writes [(i, 0, tp_time p); (i, 1, tp_x p); (i, 2, tp_y p); (i, 3, tp_z p); (i, 4, tp_power p)]%nat T.
(** the constructor of lines 71-74 followed by one set_data_point for each point *)
Definition tool_path (pts : list tool_point) : option (arr R) :=
  for_each (combine (seq 0 (length pts)) pts) (fun '(i, p) T => set_data_point T i p) (new_arr (length pts) 5).

(** additive_data.hpp:93-101 get_position and 107-109 get_power *)
Definition get_position (T : arr R) (t : R) : option (R * R * R) :=
  obind (linear_interpolation T t 1 0) (fun x =>
  obind (linear_interpolation T t 2 0) (fun y =>
  obind (linear_interpolation T t 3 0) (fun z => Some (x, y, z)))).
Definition get_power (T : arr R) (t : R) : option R := linear_interpolation T t 4 0.

(** read_abaqus_files.cpp:150-162: rows of the file into the table, columns reversed *)
Definition fill_table (rows : list (list R)) : option (arr R) :=
  match rows with
  | [] => None (* throws, line 136 *)
  | first :: _ =>
    let nc := length first in
    if forallb (fun r => Nat.eqb (length r) nc) rows then
      obind (for_each (combine (seq 0 (length rows)) rows)
        (fun '(i, row) T => for_up 0 nc (fun j T => obind (nth_error row (nc - j - 1)) (aset T i j)) T)
        (new_arr (length rows) nc))
        (fun T => verify_data T 0)
    else None
  end.

(** toupper in the C locale *)
Definition toupper (c : ascii) : ascii :=
  let n := nat_of_ascii c in if Nat.leb 97 n && Nat.leb n 122 then ascii_of_nat (n - 32) else c.
Definition upper (s : str) : str := map toupper s.
Definition tolower (c : ascii) : ascii :=
  let n := nat_of_ascii c in if Nat.leb 65 n && Nat.leb n 90 then ascii_of_nat (n + 32) else c.
Definition lower (s : str) : str := map tolower s.
Fixpoint str_eqb (a b : str) : bool :=
  match a, b with
  | [], [] => true
  | x :: a', y :: b' => Ascii.eqb x y && str_eqb a' b'
  | _, _ => false
  end.

(** read_abaqus_files.cpp:62-81: the keyword of a table name *)
Definition keyword_of (name : str) : str :=
  let low := lower name in
  upper (
    if str_eqb low (of_string "density") then of_string "*Density"
    else if str_eqb low (of_string "thermal_conductivity") then of_string "*CONDUCTIVITY"
    else if str_eqb low (of_string "specific_heat") || str_eqb low (of_string "specific heat") then of_string "*SPECIFIC HEAT"
    else if str_eqb low (of_string "elastic") then of_string "*ELASTIC"
    else "*"%char :: name).

(** read_abaqus_files.cpp:92: starts with a star but not with two *)
Definition is_keyword (s : str) : bool := starts_with ["*"%char] s && negb (starts_with ["*"%char; "*"%char] s).
Definition is_comment (s : str) : bool := starts_with ["*"%char; "*"%char] s.

(** read_abaqus_files.cpp:114-132: a data line; [None] = exception from the standard library (never here), [Some None] =
    skipped. [stod] is std::stod: [None] when it throws. *)
Fixpoint parse_tokens (stod : str -> option R) (l : list str) : option (option (list R)) :=
  match l with
  | [] => Some (Some [])
  | t :: l' =>
    match trim t with
    | None => None
    | Some [] => parse_tokens stod l'
    | Some tok =>
      match stod tok with
      | None => Some None
      | Some v => match parse_tokens stod l' with
                  | Some (Some r) => Some (Some (v :: r))
                  | o => o
                  end
      end
    end
  end.
Definition parse_line (stod : str -> option R) (line : str) : option (option (list R)) :=
  match split line [","%char] with
  | None => None
  | Some toks => match parse_tokens stod toks with
                 | Some (Some (v :: r)) => Some (Some (v :: r))
                 | Some _ => Some None
                 | None => None
                 end
  end.

(** read_abaqus_files.cpp:87-134: the loop over the lines *)
Fixpoint read_lines (stod : str -> option R) (key : str) (lines : list str) (in_block : bool) (buf : list (list R)) : option (list (list R)) :=
  match lines with
  | [] => Some buf
  | line :: rest =>
    match trim line with
    | None => None
    | Some [] => read_lines stod key rest in_block buf
    | Some tl =>
      if is_keyword tl && starts_with key (upper tl) then read_lines stod key rest true buf
      else if is_keyword tl && in_block then Some buf
      else if in_block && negb (is_comment tl) then
        match parse_line stod tl with
        | None => None
        | Some None => read_lines stod key rest in_block buf
        | Some (Some row) => read_lines stod key rest in_block (buf ++ [row])
        end
      else read_lines stod key rest in_block buf
    end
  end.

(** read_abaqus_files.cpp:55-166 read_tabular_jmatpro_file *)
Definition read_tabular_jmatpro_file (stod : str -> option R) (lines : list str) (name : str) : option (arr R) :=
  obind (read_lines stod (keyword_of name) lines false []) fill_table.

(** tabular_material_model.hpp:56-69: all three functions interpolate column 1 over column 0 *)
Definition get_density_from_temperature (T : arr R) (t : R) : option R := linear_interpolation T t 1 0.
Definition get_thermal_conductivity_from_temperature (T : arr R) (t : R) : option R := linear_interpolation T t 1 0.
Definition get_specific_heat_from_temperature (T : arr R) (t : R) : option R := linear_interpolation T t 1 0.

(** material.hpp:511-513: [Materials] holds one table for each property, and MaterialFunctions(mat_id) a function
    pointer for each property and material. *)
Inductive field := Density | Conductivity | SpecificHeat.
Definition field_eqb (a b : field) : bool :=
  match a, b with Density, Density | Conductivity, Conductivity | SpecificHeat, SpecificHeat => true | _, _ => false end.
Definition field_name (f : field) : str :=
  of_string match f with Density => "density" | Conductivity => "thermal_conductivity" | SpecificHeat => "specific_heat" end.
Record materials_t := mkMaterials { the_table : field -> option (arr R); has_function : nat -> field -> bool }.
Definition no_materials : materials_t := mkMaterials (fun _ => None) (fun _ _ => false).

(** parse_material_inputs.cpp:848-893: one field of one material's tabular model *)
Definition parse_field (stod : str -> option R) (lines : list str) (mat : nat) (f : field) (M : materials_t) : option materials_t :=
  obind (read_tabular_jmatpro_file stod lines (field_name f)) (fun T =>
  Some (mkMaterials (fun g => if field_eqb g f then Some T else the_table M g)
                    (fun k g => if Nat.eqb k mat && field_eqb g f then true else has_function M k g))).
(** parse_material_inputs.cpp:848-893 for all materials in the order of the input; each has its own file and fields *)
Record tab_input := mkTab { ti_mat : nat; ti_file : list str; ti_fields : list field }.
Definition parse_tables (stod : str -> option R) (l : list tab_input) (M : materials_t) : option materials_t :=
  for_each l (fun ti M => for_each (ti_fields ti) (fun f M => parse_field stod (ti_file ti) (ti_mat ti) f M) M) M.

(** SGTM_solver_3D/src/properties.cpp:82-96: the property of a material at the mean nodal temperature; calling a null
    function pointer or reading a table never filled is [None] *)
Definition mean_temp (temp : nat -> R) (nodes : nat -> nat) : R := sumn 8 (fun l => temp (nodes l) / 8).
Definition tabular_property (M : materials_t) (mat : nat) (f : field) (t : R) : option R :=
  if has_function M mat f then obind (the_table M f) (fun T => linear_interpolation T t 1 0) else None.
